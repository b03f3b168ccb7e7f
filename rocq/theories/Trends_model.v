(* Model of the pre-trend checks: check_parallel_trends (diff_diff/utils.py:523-617),
   check_parallel_trends_robust (619-781), _compute_outcome_changes (784-834) and
   equivalence_test_trends (837-994).
   Rows carry an integer unit label, an integer period, the value of the group column and a real
   outcome.  NaN outcomes are not modelled here. *)
From Verif Require Import Prelude Flt Stats_model Multi_model.
From Coq Require Import Arith ZArith String List.
Import ListNotations.
Open Scope R_scope.

Record trow := { tr_u : Z; tr_t : Z; tr_g : Z; tr_y : R }.

(* utils.py:555-561, 693-699, 881-887: default pre-periods are the first half of the sorted periods *)
Definition pre_select (rows : list trow) (pre : option (list Z)) : list trow :=
  let pre := match pre with
             | Some l => l
             | None => let all := zsort (nodup Z.eq_dec (map tr_t rows)) in firstn (Nat.div (length all) 2) all
             end in
  filter (fun r => zmem (tr_t r) pre) rows.
Definition group_rows (g : Z) (rows : list trow) : list trow := filter (fun r => Z.eqb (tr_g r) g) rows.

(* compute_trend, utils.py:568-597: (slope, standard error).  time_values.min() of an empty
   array raises ValueError, before the n < 2 test. *)
Definition compute_trend (l : list (R * R)) : res (fl * fl) :=
  match l with
  | [] => Err ValueError
  | p0 :: r =>
      let t_min := fold_right Rmin (fst p0) (map fst r) in
      let tn p := fst p - t_min in
      let n := length l in
      if Nat.ltb n 2 then Ok (NaN, NaN)
      else
        let mean_t := meanf tn l in
        let mean_y := meanf snd l in
        let time_var := sumf (fun p => (tn p - mean_t) * (tn p - mean_t)) l in
        if Req_EM_T time_var 0 then Ok (NaN, NaN)
        else
          let slope := sumf (fun p => (tn p - mean_t) * (snd p - mean_y)) l / time_var in
          let resid p := snd p - (mean_y + slope * (tn p - mean_t)) in
          let mse := fdiv (Fin (sumf (fun p => resid p * resid p) l)) (Fin (INR n - 2)) in
          Ok (Fin slope, fsqrt (fdiv mse (Fin time_var)))
  end.

Record pt_result := {
  pt_treated : fl; pt_treated_se : fl; pt_control : fl; pt_control_se : fl;
  pt_diff : fl; pt_diff_se : fl; pt_t : fl; pt_p : fl; pt_plausible : option bool }.

(* utils.py:599-617; compute_p_value with df=None is the normal two-sided p-value (117-143) *)
Definition check_parallel_trends (sf : option Z -> fl -> fl) (rows : list trow) (pre : option (list Z))
  : res pt_result :=
  let d := pre_select rows pre in
  let pairs g := map (fun r => (IZR (tr_t r), tr_y r)) (group_rows g d) in
  do tt <- compute_trend (pairs 1%Z) ;
  do tc <- compute_trend (pairs 0%Z) ;
  let diff := fsub (fst tt) (fst tc) in
  let se := fsqrt (fadd (fmul (snd tt) (snd tt)) (fmul (snd tc) (snd tc))) in
  let t := if fgt se (Fin 0) then fdiv diff se else NaN in
  let p := if fisnan t then NaN else u_p_value sf t None in
  Ok {| pt_treated := fst tt; pt_treated_se := snd tt; pt_control := fst tc; pt_control_se := snd tc;
        pt_diff := diff; pt_diff_se := se; pt_t := t; pt_p := p;
        pt_plausible := if fisnan p then None else Some (fgt p (Fin (1/20))) |}.

(* ---- _compute_outcome_changes ---- *)
(* sort_values([unit, time]) *)
Definition row_le (a b : trow) : bool :=
  Z.ltb (tr_u a) (tr_u b) || (Z.eqb (tr_u a) (tr_u b) && Z.leb (tr_t a) (tr_t b)).
Fixpoint row_insert (x : trow) (l : list trow) : list trow :=
  match l with
  | [] => [x]
  | y :: r => if row_le x y then x :: l else y :: row_insert x r
  end.
Definition row_sort (l : list trow) : list trow := fold_right row_insert [] l.
(* groupby(unit)[outcome].diff() then dropna: the change is filed under the later row's group *)
Fixpoint row_diffs (l : list trow) : list (Z * R) :=
  match l with
  | a :: ((b :: _) as r) =>
      if Z.eqb (tr_u a) (tr_u b) then (tr_g b, tr_y b - tr_y a) :: row_diffs r else row_diffs r
  | _ => []
  end.
Definition unit_changes (g : Z) (rows : list trow) : list R :=
  map snd (filter (fun p => Z.eqb (fst p) g) (row_diffs (row_sort rows))).
(* no unit column: changes of the group's period means *)
Fixpoint np_diff (l : list R) : list R :=
  match l with
  | a :: ((b :: _) as r) => (b - a) :: np_diff r
  | _ => []
  end.
Definition agg_changes (g : Z) (rows : list trow) : list R :=
  let gr := group_rows g rows in
  np_diff (map (fun p => meanf tr_y (filter (fun r => Z.eqb (tr_t r) p) gr)) (zsort (nodup Z.eq_dec (map tr_t gr)))).
Definition outcome_changes (by_unit : bool) (rows : list trow) : list R * list R :=
  if by_unit then (unit_changes 1 rows, unit_changes 0 rows)
  else (agg_changes 1 rows, agg_changes 0 rows).

(* ---- check_parallel_trends_robust, utils.py:705-781 ---- *)
Record rob_result := {
  rb_dist : fl; rb_norm : fl; rb_p : fl; rb_mean_diff : fl; rb_var_ratio : fl; rb_plausible : option bool }.
(* wd = scipy.stats.wasserstein_distance; perms = the permutations drawn *)
Definition apply_perm (l : list R) (pi : list nat) : list R := map (fun j => nth j l 0) pi.
Definition robust_core (wd : list R -> list R -> R) (perms : list (list nat)) (thr : R) (tc cc : list R) : rob_result :=
  if Nat.ltb (length tc) 2 || Nat.ltb (length cc) 2
  then {| rb_dist := NaN; rb_norm := NaN; rb_p := NaN; rb_mean_diff := NaN; rb_var_ratio := NaN; rb_plausible := None |}
  else
    let w := wd tc cc in
    let all := tc ++ cc in
    let nt := length tc in
    let pd := map (fun pi => wd (apply_perm all (firstn nt pi)) (apply_perm all (skipn nt pi))) perms in
    let p := match perms with [] => NaN | _ => Fin (share (fun x => Rleb w x) pd) end in
    let vt := variance 1 tc in let vc := variance 1 cc in
    let sd := std 1 all in
    let norm := if Rlt_dec 0 sd then Fin (w / sd) else NaN in
    {| rb_dist := Fin w; rb_norm := norm; rb_p := p;
       rb_mean_diff := Fin (meanf idR tc - meanf idR cc);
       rb_var_ratio := if Rlt_dec 0 vc then Fin (vt / vc) else NaN;
       rb_plausible := Some (fgt p (Fin (1/20)) && (if fisnan norm then true else flt norm (Fin thr))) |}.

(* ---- equivalence_test_trends, utils.py:893-994 ---- *)
Record tost_result := {
  ts_mean : fl; ts_se : fl; ts_margin : fl; ts_t_lower : fl; ts_t_upper : fl;
  ts_p_lower : fl; ts_p_upper : fl; ts_p : fl; ts_df : fl; ts_equivalent : option bool }.
Definition tost_undefined (m se : fl) : tost_result :=
  {| ts_mean := m; ts_se := se; ts_margin := NaN; ts_t_lower := NaN; ts_t_upper := NaN;
     ts_p_lower := NaN; ts_p_upper := NaN; ts_p := NaN; ts_df := NaN; ts_equivalent := None |}.

(* tsf df x = scipy.stats.t.sf(x, df), tcdf df x = scipy.stats.t.cdf(x, df) with real df > 0 *)
Definition tost (tsf tcdf : R -> R -> R) (margin : option R) (tc cc : list R) : tost_result :=
  if Nat.ltb (length tc) 2 || Nat.ltb (length cc) 2 then tost_undefined NaN NaN
  else
    let vt := variance 1 tc in let vc := variance 1 cc in
    let nt := len tc in let nc := len cc in
    let md := meanf idR tc - meanf idR cc in
    if (if Req_EM_T vt 0 then true else false) && (if Req_EM_T vc 0 then true else false)
    then tost_undefined (Fin md) (Fin 0)
    else
      let se := sqrt (vt / nt + vc / nc) in
      if Req_EM_T se 0 then tost_undefined (Fin md) (Fin 0)
      else
        let mg := match margin with Some m => m | None => 1 / 2 * std 1 (tc ++ cc) end in
        let num := (vt / nt + vc / nc) * (vt / nt + vc / nc) in
        let dt := if Rlt_dec 0 vt then (vt / nt) * (vt / nt) / (nt - 1) else 0 in
        let dc := if Rlt_dec 0 vc then (vc / nc) * (vc / nc) / (nc - 1) else 0 in
        let df := if Req_EM_T (dt + dc) 0 then Rmin (nt - 1) (nc - 1) else num / (dt + dc) in
        let tl := (md - (- mg)) / se in
        let tu := (md - mg) / se in
        let pl := tsf df tl in
        let pu := tcdf df tu in
        let p := Rmax pl pu in
        {| ts_mean := Fin md; ts_se := Fin se; ts_margin := Fin mg; ts_t_lower := Fin tl; ts_t_upper := Fin tu;
           ts_p_lower := Fin pl; ts_p_upper := Fin pu; ts_p := Fin p; ts_df := Fin df;
           ts_equivalent := Some (Rltb p (1/20)) |}.

Definition equivalence_test (tsf tcdf : R -> R -> R) (by_unit : bool) (pre : option (list Z)) (margin : option R)
    (rows : list trow) : tost_result :=
  let '(tc, cc) := outcome_changes by_unit (pre_select rows pre) in tost tsf tcdf margin tc cc.
Definition check_robust (wd : list R -> list R -> R) (perms : list (list nat)) (thr : R) (by_unit : bool)
    (pre : option (list Z)) (rows : list trow) : rob_result :=
  let '(tc, cc) := outcome_changes by_unit (pre_select rows pre) in robust_core wd perms thr tc cc.

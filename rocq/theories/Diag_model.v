(* Model of diff_diff/diagnostics.py: placebo_timing_test 355-451, placebo_group_test 454-530, permutation_test 533-681,
   leave_one_out_test 684-808, run_all_placebo_tests 811-927, run_placebo_test 195-352, PlaceboTestResults 25-192.
   A data frame is the list of its rows; [y d u t] are its outcome, treatment, unit and period columns (periods are integers,
   so that they can be compared and sorted).  [fit] is the fit of a DifferenceInDifferences built from estimator_kwargs on four columns. *)
From Verif Require Import Prelude Flt Stats_model Did_model Multi_model Boot_model Prep_model.
From Coq Require Import Arith ZArith String List.
Import ListNotations.
Open Scope R_scope.

Definition ofb (b : bool) : fl := if b then Fin 1 else Fin 0.                (* .astype(int) *)
Definition zin (x : Z) (l : list Z) : bool := existsb (Z.eqb x) l.
Definition zperiods {I} (rows : list I) (t : I -> Z) : list Z := isort Z.leb (nodup Z.eq_dec (map t rows)).   (* sorted(unique) *)

(* 25-73 *)
Record placebo {U : Type} := {
  pl_type : string; pl_effect : fl; pl_se : fl; pl_t : fl; pl_p : fl; pl_ci : fl * fl; pl_n : nat; pl_signif : bool; pl_alpha : R;
  pl_orig : option fl; pl_orig_se : option fl; pl_perm : option (list fl); pl_loo : option (list (U * fl));
  pl_period : option Z; pl_group : option (list U); pl_nperm : option nat }.
Arguments placebo : clear implicits.

Section Diag.
Context {I U : Type} (ueq : forall x y : U, {x = y} + {x <> y}).
Variable fit : list I -> (I -> fl) -> (I -> fl) -> (I -> fl) -> res (did_result I).
Variable sf : option Z -> fl -> fl.
Variable ppf : option Z -> R -> R.
Definition mem (x : U) (l : list U) : bool := existsb (keqb ueq x) l.
Definition tcol (t : I -> Z) : I -> fl := fun i => Fin (IZR (t i)).

(* 388-395 and 492-498: the second half of the periods *)
Definition post_of (rows : list I) (t : I -> Z) (post : option (list Z)) : list Z :=
  match post with Some l => l | None => let all := zperiods rows t in skipn (Nat.div (length all) 2) all end.

(* 355-451 *)
Definition timing_test (rows : list I) (y d : I -> fl) (t : I -> Z) (fake : option Z) (post : option (list Z)) (alpha : R) : res (placebo U) :=
  let pp := post_of rows t post in
  match fake with
  | None => Err TypeError                                                   (* pre_data[time] >= None, 410 *)
  | Some f =>
      if zin f pp then Err ValueError else
      let pre := filter (fun p => negb (zin p pp)) (zperiods rows t) in
      let pd := filter (fun i => zin (t i) pre) rows in
      do r <- fit pd y d (fun i => ofb (Z.leb f (t i)));
      do rf <- fit rows y d (fun i => ofb (zin (t i) pp));
      Ok {| pl_type := "fake_timing"; pl_effect := r_att r; pl_se := r_se r; pl_t := r_t r; pl_p := r_p r; pl_ci := r_ci r; pl_n := r_n_obs r;
            pl_signif := flt (r_p r) (Fin alpha); pl_alpha := alpha; pl_orig := Some (r_att rf); pl_orig_se := Some (r_se rf);
            pl_perm := None; pl_loo := None; pl_period := Some f; pl_group := None; pl_nperm := None |}
  end.

(* 454-530: [treatment] is not among the arguments *)
Definition group_test (rows : list I) (u : I -> U) (y : I -> fl) (t : I -> Z) (fake : option (list U)) (post : option (list Z)) (alpha : R) : res (placebo U) :=
  match fake with
  | None | Some [] => Err ValueError
  | Some g =>
      let pp := post_of rows t post in
      do r <- fit rows y (fun i => ofb (mem (u i) g)) (fun i => ofb (zin (t i) pp));
      Ok {| pl_type := "fake_group"; pl_effect := r_att r; pl_se := r_se r; pl_t := r_t r; pl_p := r_p r; pl_ci := r_ci r; pl_n := r_n_obs r;
            pl_signif := flt (r_p r) (Fin alpha); pl_alpha := alpha; pl_orig := None; pl_orig_se := None;
            pl_perm := None; pl_loo := None; pl_period := None; pl_group := Some g; pl_nperm := None |}
  end.

(* except (ValueError, KeyError, LinAlgError): nan; anything else propagates, 624-637 and 748-762 *)
Definition att_or_nan (r : res (did_result I)) : res fl :=
  match r with
  | Ok s => Ok (r_att s)
  | Err ValueError | Err KeyError | Err LinAlgError => Ok NaN
  | Err e => Err e
  end.

(* groupby(unit)[treatment].first(), 597-604 *)
Definition unit_first (rows : list I) (u : I -> U) (d : I -> fl) (x : U) : fl :=
  match filter notna (map d (filter (fun i => keqb ueq (u i) x) rows)) with [] => NaN | v :: _ => v end.
Definition unit_list (rows : list I) (u : I -> U) : list U := nodup ueq (map u rows).
Definition n_treated_units (rows : list I) (u : I -> U) (d : I -> fl) : nat := length (filter (fun x => feqb (unit_first rows u d x) (Fin 1)) (unit_list rows u)).

(* 660-665 *)
Definition perm_pvalue (orig : fl) (valid : list fl) : R :=
  Rmax (share (fun v => fge (fabs v) (fabs orig)) valid) (1 / (INR (length valid) + 1)).
(* np.std(ddof=1): nan for one value *)
Definition std1 (l : list fl) : fl := if (length l <=? 1)%nat then NaN else Fin (std 1 (map toR l)).
(* 533-681; [choice units k i] is the i-th rng.choice(units, size=k, replace=False) *)
Variable choice : list U -> nat -> nat -> list U.
Definition perm_effects (rows : list I) (u : I -> U) (y d : I -> fl) (tc : I -> fl) (n : nat) : res (list fl) :=
  mapM (fun i => let g := choice (unit_list rows u) (n_treated_units rows u d) i in
                 att_or_nan (fit rows y (fun j => ofb (mem (u j) g)) tc)) (seq 0 n).
Definition permutation_test (rows : list I) (u : I -> U) (y d tc : I -> fl) (n : nat) (alpha : R) : res (placebo U) :=
  do o <- fit rows y d tc;
  do es <- perm_effects rows u y d tc n;
  let valid := filter notna es in
  match valid with
  | [] => Err RuntimeError
  | _ =>
      let p := perm_pvalue (r_att o) valid in
      let se := std1 valid in
      Ok {| pl_type := "permutation"; pl_effect := fmean valid; pl_se := se;
            pl_t := if fgt se (Fin 0) then fdiv (r_att o) se else Fin 0; pl_p := Fin p;
            pl_ci := (Fin (percentile (map toR valid) (alpha / 2)), Fin (percentile (map toR valid) (1 - alpha / 2)));
            pl_n := length rows; pl_signif := Rltb p alpha; pl_alpha := alpha; pl_orig := Some (r_att o); pl_orig_se := Some (r_se o);
            pl_perm := Some valid; pl_loo := None; pl_period := None; pl_group := None; pl_nperm := Some (length valid) |}
  end.

(* 684-808 *)
Definition treated_list (rows : list I) (u : I -> U) (d : I -> fl) : list U :=
  rev (nodup ueq (rev (map u (filter (fun i => feqb (d i) (Fin 1)) rows)))).          (* order of first appearance *)
Definition loo_rows (rows : list I) (u : I -> U) (x : U) : list I := filter (fun i => negb (keqb ueq (u i) x)) rows.
Definition loo_effects (rows : list I) (u : I -> U) (y d tc : I -> fl) : res (list (U * fl)) :=
  mapM (fun x => do e <- att_or_nan (fit (loo_rows rows u x) y d tc); Ok (x, e))
    (filter (fun x => negb (feqb (fsum (map d (loo_rows rows u x))) (Fin 0))) (treated_list rows u d)).
Definition leave_one_out_test (rows : list I) (u : I -> U) (y d tc : I -> fl) (alpha : R) : res (placebo U) :=
  do o <- fit rows y d tc;
  do es <- loo_effects rows u y d tc;
  let valid := filter notna (map snd es) in
  match valid with
  | [] => Err RuntimeError
  | _ =>
      let m := fmean valid in
      let many := (1 <? length valid)%nat in
      let se := if many then std1 valid else Fin 0 in
      let tt := if fgt se (Fin 0) then fdiv m se else Fin 0 in
      let df := if many then (Z.of_nat (length valid) - 1)%Z else 1%Z in
      let p := u_p_value sf tt (Some df) in
      Ok {| pl_type := "leave_one_out"; pl_effect := m; pl_se := se; pl_t := tt; pl_p := p; pl_ci := u_ci ppf m se alpha (Some df);
            pl_n := length rows; pl_signif := flt p (Fin alpha); pl_alpha := alpha; pl_orig := Some (r_att o); pl_orig_se := Some (r_se o);
            pl_perm := None; pl_loo := Some es; pl_period := None; pl_group := None; pl_nperm := None |}
  end.

(* 811-927: keys and results; a stored {"error": ...} dictionary is the Err it describes.  The period column itself is passed as [time]. *)
Inductive test_key : Type := KTiming (p : Z) | KPermutation | KLeaveOneOut.
Definition run_all (rows : list I) (u : I -> U) (y d : I -> fl) (t : I -> Z) (pre post : list Z) (n : nat) (alpha : R) : list (test_key * res (placebo U)) :=
  map (fun p => (KTiming p, timing_test rows y d t (Some p) (Some post) alpha)) (tl pre) ++
  [(KPermutation, permutation_test rows u y d (tcol t) n alpha); (KLeaveOneOut, leave_one_out_test rows u y d (tcol t) alpha)].

(* 195-352 *)
Definition run_placebo_test (rows : list I) (u : option (I -> U)) (y d : I -> fl) (t : I -> Z) (test_type : string)
    (fake : option Z) (group : option (list U)) (post : option (list Z)) (n : nat) (alpha : R) : res (placebo U) :=
  let ty := to_lower test_type in
  if String.eqb ty "fake_timing" then timing_test rows y d t fake post alpha
  else if String.eqb ty "fake_group" then
    match u with None => Err ValueError | Some u =>
      match group with None | Some [] => Err ValueError | Some _ => group_test rows u y t group post alpha end end
  else if String.eqb ty "permutation" then match u with None => Err ValueError | Some u => permutation_test rows u y d (tcol t) n alpha end
  else if String.eqb ty "leave_one_out" then match u with None => Err ValueError | Some u => leave_one_out_test rows u y d (tcol t) alpha end
  else Err ValueError.
End Diag.

(* the interpretation paragraph of summary(), 137-164, and its confidence level, 80 *)
Inductive verdict : Type := Violation | Consistent.
Definition interpretation {U} (r : placebo U) : verdict := if pl_signif r then Violation else Consistent.
Definition conf_level (alpha : R) : Z := Int_part ((1 - alpha) * 100).
(* to_dict, 170-188: the keys *)
Definition to_dict_keys {U} (r : placebo U) : list string :=
  ["test_type"; "placebo_effect"; "se"; "t_stat"; "p_value"; "conf_int_lower"; "conf_int_upper"; "n_obs"; "is_significant"]%string ++
  (match pl_orig r with Some _ => ["original_effect"%string] | None => [] end) ++
  (match pl_orig_se r with Some _ => ["original_se"%string] | None => [] end) ++
  (match pl_nperm r with Some _ => ["n_permutations"%string] | None => [] end).
(* the leave-one-out paragraph, 117-131: means over all entries, NaN included *)
Definition loo_summary_mean {U} (r : placebo U) : option fl := match pl_loo r with Some l => Some (fmean (map snd l)) | None => None end.

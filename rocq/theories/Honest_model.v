(* diff_diff/honest_did.py: bounds on the effect under bounded violations of parallel trends.
   Modelled: extraction of the event-study coefficients, the constraint matrices, the linear programs,
   FLCI and C-LF intervals, HonestDiD.__init__/fit/sensitivity_analysis/breakdown_value and the
   significance flag of the results object. Not modelled: plotting, formatting, DeltaSD/DeltaRM/DeltaSDRM
   (dataclasses no code path reads), the lp_method argument (always 'highs').
   linprog is an oracle: Some v = (success, fun = v), None = not success or ValueError/TypeError, both of
   which the code maps to an infinite value. *)
From Verif Require Import Prelude Flt Lp Multi_model Results_model.
From Coq Require Import Arith ZArith String List.
Import ListNotations.
Open Scope R_scope.

(* ---- what is read of the results objects ---- *)
(* MultiPeriodDiDResults. [hm_eff p] is period_effects[p] (effect, se); [hm_vcov] is (shape[0], entries);
   [hm_key p] is coefficients.get(f"treated:period_{p}"). *)
Record hd_mp := {
  hm_pre : list Z; hm_post : list Z; hm_eff : Z -> option (fl * fl);
  hm_vcov : option (nat * (nat -> nat -> fl)); hm_key : Z -> option fl; hm_avg_se : fl }.
(* CallawaySantAnnaResults.event_study_effects, in dict order: key (None is -inf, which is what a group with
   first_treat = inf produces), effect, se, n_groups *)
Record es_entry := { ee_t : option Z; ee_eff : fl; ee_se : fl; ee_n : nat }.
Record hd_cs := { hc_es : option (list es_entry); hc_overall_se : fl }.
Inductive hd_results := HMP (m : hd_mp) | HCS (c : hd_cs) | HOther.

(* t < 0 *)
Definition key_neg (t : option Z) : bool := match t with None => true | Some z => Z.ltb z 0 end.
Definition key_le (a b : option Z) : bool :=
  match a, b with None, _ => true | Some _, None => false | Some x, Some y => Z.leb x y end.
Fixpoint es_insert (e : es_entry) (l : list es_entry) : list es_entry :=
  match l with
  | [] => [e]
  | x :: r => if key_le (ee_t e) (ee_t x) then e :: l else x :: es_insert e r
  end.
Definition es_sort (l : list es_entry) : list es_entry := fold_right es_insert [] l.

Record hd_params := {
  ep_beta : list fl; ep_size : nat; ep_sigma : nat -> nat -> fl;
  ep_npre : nat; ep_npost : nat; ep_pre : list (option Z) }.

Definition diag_sq (ses : list fl) (i j : nat) : fl :=
  if Nat.eqb i j then fmul (nth i ses NaN) (nth i ses NaN) else Fin 0.

Fixpoint get_effects (f : Z -> option (fl * fl)) (l : list Z) : res (list (fl * fl)) :=
  match l with
  | [] => Ok []
  | p :: r => match f p with None => Err KeyError | Some e => do es <- get_effects f r ; Ok (e :: es) end
  end.

(* _extract_event_study_params, 517-619 *)
Definition hd_extract (r : hd_results) : res hd_params :=
  match r with
  | HMP m =>
      do es <- get_effects (hm_eff m) (hm_post m) ;
      let '(k, Sg) := match hm_vcov m with Some v => v | None => (length es, diag_sq (map snd es)) end in
      Ok {| ep_beta := map fst es; ep_size := k; ep_sigma := Sg;
            ep_npre := length (hm_pre m); ep_npost := length (hm_post m); ep_pre := map Some (hm_pre m) |}
  | HCS c =>
      match hc_es c with
      | None => Err ValueError
      | Some l =>
          let kept := es_sort (filter (fun e => Nat.ltb 0 (ee_n e) && ffinite (ee_se e)) l) in
          Ok {| ep_beta := map ee_eff kept; ep_size := length kept; ep_sigma := diag_sq (map ee_se kept);
                ep_npre := length (filter (fun e => key_neg (ee_t e)) kept);
                ep_npost := length (filter (fun e => negb (key_neg (ee_t e))) kept);
                ep_pre := map ee_t (filter (fun e => key_neg (ee_t e)) kept) |}
      end
  | HOther => Err TypeError
  end.

(* ---- constraint matrices ---- *)
(* _construct_A_sd, 622-651 *)
Definition sd_row (n i : nat) : list R :=
  map (fun j => if Nat.eqb j i then 1 else if Nat.eqb j (i + 1) then -2 else if Nat.eqb j (i + 2) then 1 else 0)
      (seq 0 n).
Definition A_sd (n : nat) : list (list R) := if Nat.ltb n 3 then [] else map (sd_row n) (seq 0 (n - 2)).
(* _construct_constraints_sd, 654-691 *)
Definition cons_sd (npre npost : nat) (M : R) : list con :=
  let A := A_sd (npre + npost) in
  map (fun r => (r, M)) A ++ map (fun r => (map Ropp r, M)) A.
(* _construct_constraints_rm, 694-737 (no caller in the package) *)
Definition unit_row (n i : nat) (s : R) : list R := map (fun j => if Nat.eqb j i then s else 0) (seq 0 n).
Definition cons_rm (npre npost : nat) (Mbar maxpre : R) : list con :=
  flat_map (fun i => [(unit_row (npre + npost) (npre + i) 1, Mbar * maxpre);
                      (unit_row (npre + npost) (npre + i) (-1), Mbar * maxpre)]) (seq 0 npost).

Definition fdot (l : list R) (b : list fl) : fl := fsum (map (fun p => fmul (Fin (fst p)) (snd p)) (combine l b)).
(* l_vec @ sigma_post @ l_vec *)
Definition qform (l : list R) (S : nat -> nat -> fl) : fl :=
  let n := length l in
  fsum (map (fun j => fmul (fsum (map (fun i => fmul (Fin (nth i l 0)) (S i j)) (seq 0 n))) (Fin (nth j l 0))) (seq 0 n)).

Section Solve.
Variable lp : nat -> list con -> list R -> option R.
Variable ppf : option Z -> R -> R.

(* _solve_bounds_lp, 740-835 *)
Definition lp_cost (npre : nat) (l : list R) : list R := repeat 0 npre ++ map Ropp l.
Definition solve_bounds (beta : list fl) (l : list R) (cs : list con) (npre : nat) : fl * fl :=
  match cs with
  | [] => (NInf, PInf)
  | _ =>
      let n := (npre + length beta)%nat in
      let c := lp_cost npre l in
      let min_val := match lp n cs c with Some v => Fin v | None => NInf end in
      let max_val := match lp n cs (map Ropp c) with Some v => Fin (- v) | None => PInf end in
      (fadd (fdot l beta) min_val, fadd (fdot l beta) max_val)
  end.

(* _compute_flci, 838-881 *)
Definition flci (lb ub se : fl) (alpha : R) : res (fl * fl) :=
  if fle se (Fin 0) then Err ValueError
  else if Rlt_dec 0 alpha then
    if Rlt_dec alpha 1 then
      let z := Fin (ppf None (1 - alpha / 2)) in
      Ok (fsub lb (fmul z se), fadd ub (fmul z se))
    else Err ValueError
  else Err ValueError.

(* _compute_clf_ci, 884-943 *)
Definition clf_ci (beta : list fl) (S : nat -> nat -> fl) (l : list R) (Mbar : R) (maxpre : fl) (alpha : R)
  : fl * fl * fl * fl :=
  let theta := fdot l beta in
  let se := fsqrt (qform l S) in
  let bound := fmul (Fin Mbar) maxpre in
  let lb := fsub theta bound in
  let ub := fadd theta bound in
  let z := Fin (ppf None (1 - alpha / 2)) in
  (lb, ub, fsub lb (fmul z se), fadd ub (fmul z se)).

(* python's max over a list, and over two values *)
Definition py_max2 (a b : fl) : fl := if fgt b a then b else a.
Definition py_min2 (a b : fl) : fl := if flt b a then b else a.
Definition py_max (x : fl) (l : list fl) : fl := fold_left py_max2 l x.

Definition keep_some {A} (l : list (option A)) : list A :=
  flat_map (fun o => match o with Some x => [x] | None => [] end) l.

(* HonestDiD._estimate_max_pre_violation, 1235-1283 *)
Definition max_pre (r : hd_results) : fl :=
  match r with
  | HMP m =>
      match map fabs (keep_some (map (hm_key m) (hm_pre m))) with
      | x :: l => py_max x l
      | [] => hm_avg_se m
      end
  | HCS c =>
      match hc_es c with
      | Some es =>
          match map (fun e => fabs (ee_eff e)) (filter (fun e => key_neg (ee_t e) && Nat.ltb 0 (ee_n e)) es) with
          | x :: l => py_max x l
          | [] => hc_overall_se c
          end
      | None => hc_overall_se c
      end
  | HOther => Fin (1 / 10)
  end.

(* ---- HonestDiD ---- *)
Record hd_cfg := { hd_method : string; hd_M : R; hd_alpha : R; hd_l : option (list R) }.

(* __init__ and _validate_params, 996-1025 *)
Definition hd_init (method : string) (M : option R) (alpha : R) (l : option (list R)) : res hd_cfg :=
  let M' := match M with Some m => m | None => if String.eqb method "relative_magnitude" then 1 else 0 end in
  if negb (String.eqb method "smoothness" || String.eqb method "relative_magnitude" || String.eqb method "combined")
  then Err ValueError
  else if Rlt_dec M' 0 then Err ValueError
  else if Rlt_dec 0 alpha then
    if Rlt_dec alpha 1 then Ok {| hd_method := method; hd_M := M'; hd_alpha := alpha; hd_l := l |} else Err ValueError
  else Err ValueError.

(* HonestDiDResults *)
Record hd_out := {
  ho_lb : fl; ho_ub : fl; ho_ci_lb : fl; ho_ci_ub : fl; ho_M : R; ho_method : string;
  ho_est : fl; ho_se : fl; ho_alpha : R; ho_ci_method : string }.

(* _compute_smoothness_bounds, 1146-1166 *)
Definition smooth_bounds (alpha : R) (beta : list fl) (S : nat -> nat -> fl) (l : list R) (npre npost : nat) (M : R)
  : res (fl * fl * fl * fl) :=
  let '(lb, ub) := solve_bounds beta l (cons_sd npre npost M) npre in
  do ci <- flci lb ub (fsqrt (qform l S)) alpha ;
  Ok (lb, ub, fst ci, snd ci).

(* _compute_rm_bounds, 1168-1196 *)
Definition rm_bounds (alpha : R) (beta : list fl) (S : nat -> nat -> fl) (l : list R) (Mbar : R) (r : hd_results)
  : fl * fl * fl * fl :=
  let mp := max_pre r in
  if feqb mp (Fin 0) then
    let theta := fdot l beta in
    let se := fsqrt (qform l S) in
    let z := Fin (ppf None (1 - alpha / 2)) in
    (theta, theta, fsub theta (fmul z se), fadd theta (fmul z se))
  else clf_ci beta S l Mbar mp alpha.

(* _compute_combined_bounds, 1198-1233 *)
Definition combined_bounds (alpha : R) (beta : list fl) (S : nat -> nat -> fl) (l : list R) (npre npost : nat) (M : R)
    (r : hd_results) : res (fl * fl * fl * fl) :=
  do sd <- smooth_bounds alpha beta S l npre npost M ;
  let '(lb_sd, ub_sd, _, _) := sd in
  let '(lb_rm, ub_rm, _, _) := rm_bounds alpha beta S l M r in
  let lb := py_max2 lb_sd lb_rm in
  let ub := py_min2 ub_sd ub_rm in
  let '(lb, ub) := if fgt lb ub then (fdot l beta, fdot l beta) else (lb, ub) in
  do ci <- flci lb ub (fsqrt (qform l S)) alpha ;
  Ok (lb, ub, fst ci, snd ci).

(* which coefficients and which block of sigma fit uses, 1072-1095 *)
Definition post_beta (p : hd_params) : list fl :=
  if Nat.eqb (length (ep_beta p)) (ep_npost p) then ep_beta p
  else if Nat.eqb (length (ep_beta p)) (ep_npre p + ep_npost p) then skipn (ep_npre p) (ep_beta p)
  else ep_beta p.
Definition post_count (p : hd_params) : nat :=
  if Nat.eqb (length (ep_beta p)) (ep_npost p) then ep_npost p
  else if Nat.eqb (length (ep_beta p)) (ep_npre p + ep_npost p) then ep_npost p
  else length (ep_beta p).
(* size and entries of sigma_post *)
Definition post_sigma (p : hd_params) : nat * (nat -> nat -> fl) :=
  let n := length (post_beta p) in
  if Nat.eqb (ep_size p) (post_count p) && Nat.eqb (ep_size p) n then (ep_size p, ep_sigma p)
  else if Nat.eqb (ep_size p) (ep_npre p + post_count p)
    then ((ep_size p - ep_npre p)%nat, fun i j => ep_sigma p (ep_npre p + i)%nat (ep_npre p + j)%nat)
  else (Nat.min (ep_size p) n, ep_sigma p).

(* the weights, 1097-1105 *)
Definition hd_weights (l : option (list R)) (n : nat) : res (list R) :=
  match l with
  | None => Ok (repeat (1 / INR n) n)
  | Some v => if Nat.eqb (length v) n then Ok v else Err ValueError
  end.

(* fit, 1046-1144; the M argument overrides self.M and is not validated *)
Definition hd_fit (cfg : hd_cfg) (r : hd_results) (M : option R) : res hd_out :=
  let M := match M with Some m => m | None => hd_M cfg end in
  do p <- hd_extract r ;
  let beta := post_beta p in
  let n := length beta in
  let '(size, Sg) := post_sigma p in
  do l <- hd_weights (hd_l cfg) n ;
  if negb (Nat.eqb size n) then Err ValueError        (* matmul: shapes do not match *)
  else
    do b <- (if String.eqb (hd_method cfg) "smoothness" then
               smooth_bounds (hd_alpha cfg) beta Sg l (ep_npre p) n M
             else if String.eqb (hd_method cfg) "relative_magnitude" then
               Ok (rm_bounds (hd_alpha cfg) beta Sg l M r)
             else combined_bounds (hd_alpha cfg) beta Sg l (ep_npre p) n M r) ;
    let '(lb, ub, ci_lb, ci_ub) := b in
    Ok {| ho_lb := lb; ho_ub := ub; ho_ci_lb := ci_lb; ho_ci_ub := ci_ub; ho_M := M; ho_method := hd_method cfg;
          ho_est := fdot l beta; ho_se := fsqrt (qform l Sg); ho_alpha := hd_alpha cfg;
          ho_ci_method := (if String.eqb (hd_method cfg) "relative_magnitude" then "C-LF" else "FLCI")%string |}.

(* compute_honest_did, 1433-1463 *)
Definition compute_honest (r : hd_results) (method : string) (M alpha : R) : res hd_out :=
  do c <- hd_init method (Some M) alpha None ; hd_fit c r None.

(* ci_lb <= 0 <= ci_ub *)
Definition has_zero (lo hi : fl) : bool := fle lo (Fin 0) && fle (Fin 0) hi.
(* HonestDiDResults.is_significant, 207-210; significance_stars 212-222 *)
Definition ho_significant (o : hd_out) : bool := negb (has_zero (ho_ci_lb o) (ho_ci_ub o)).
Definition ho_stars (o : hd_out) : string := if ho_significant o then "*" else "".
(* the conclusion printed by summary, 305-313 *)
Inductive verdict := Positive | Negative | NotRuledOut.
Definition ho_verdict (o : hd_out) : verdict :=
  if ho_significant o then if fgt (ho_ci_lb o) (Fin 0) then Positive else Negative else NotRuledOut.

(* does the interval at M include zero *)
Definition includes (cfg : hd_cfg) (r : hd_results) (M : R) : res bool :=
  do o <- hd_fit cfg r (Some M) ; Ok (has_zero (ho_ci_lb o) (ho_ci_ub o)).

(* for _ in range(n), 1369-1375 *)
Fixpoint bisect (n : nat) (inc : R -> res bool) (lo hi : R) : res (R * R) :=
  match n with
  | O => Ok (lo, hi)
  | S m => do b <- inc ((lo + hi) / 2) ;
           if b : bool then bisect m inc lo ((lo + hi) / 2) else bisect m inc ((lo + hi) / 2) hi
  end.

(* the scan for the first transition, 1361-1379; [prev] is (M, includes_zero) of the previous grid point *)
Fixpoint transition (inc : R -> res bool) (prev : option (R * bool)) (l : list (R * bool)) : res (option R) :=
  match l with
  | [] => Ok None
  | (M, b) :: rest =>
      if b then
        match prev with
        | None => Ok (Some 0)
        | Some (M0, false) => do lh <- bisect 20 inc M0 M ; Ok (Some ((fst lh + snd lh) / 2))
        | Some (_, true) => transition inc (Some (M, b)) rest
        end
      else transition inc (Some (M, b)) rest
  end.
(* _find_breakdown, 1338-1379 *)
Definition find_breakdown (inc : R -> res bool) (grid : list R) (flags : list bool) : res (option R) :=
  if negb (existsb (fun b => b) flags) then Ok None
  else if forallb (fun b => b) flags then Ok (Some 0)
  else transition inc None (combine grid flags).

Record hd_sens := {
  hs_M : list R; hs_bounds : list (fl * fl); hs_cis : list (fl * fl); hs_breakdown : option R;
  hs_est : fl; hs_se : fl }.
Fixpoint mapr {A B} (f : A -> res B) (l : list A) : res (list B) :=
  match l with [] => Ok [] | a :: r => do b <- f a ; do bs <- mapr f r ; Ok (b :: bs) end.

Definition default_grid (method : string) : list R :=
  if String.eqb method "relative_magnitude" then [0; 1/4; 1/2; 3/4; 1; 5/4; 3/2; 7/4; 2]
  else [0; 1/10; 2/10; 3/10; 1/2; 3/4; 1].

(* sensitivity_analysis, 1285-1336 *)
Definition hd_sensitivity (cfg : hd_cfg) (r : hd_results) (grid : option (list R)) : res hd_sens :=
  let g := match grid with Some g => g | None => default_grid (hd_method cfg) end in
  do os <- mapr (fun M => hd_fit cfg r (Some M)) g ;
  let cis := map (fun o => (ho_ci_lb o, ho_ci_ub o)) os in
  do bd <- find_breakdown (includes cfg r) g (map (fun ci => has_zero (fst ci) (snd ci)) cis) ;
  do first <- hd_fit cfg r (Some 0) ;
  Ok {| hs_M := g; hs_bounds := map (fun o => (ho_lb o, ho_ub o)) os; hs_cis := cis; hs_breakdown := bd;
        hs_est := ho_est first; hs_se := ho_se first |}.

(* while hi - lo > tol, 1417-1423; None: the loop did not stop within [fuel] iterations *)
Fixpoint while_bisect (fuel : nat) (inc : R -> res bool) (tol lo hi : R) : option (res (R * R)) :=
  if Rlt_dec tol (hi - lo) then
    match fuel with
    | O => None
    | S f => match inc ((lo + hi) / 2) with
             | Err e => Some (Err e)
             | Ok b => if b : bool then while_bisect f inc tol lo ((lo + hi) / 2)
                       else while_bisect f inc tol ((lo + hi) / 2) hi
             end
    end
  else Some (Ok (lo, hi)).
(* breakdown_value, 1381-1425 *)
Definition breakdown_value (fuel : nat) (cfg : hd_cfg) (r : hd_results) (tol : R) : option (res (option R)) :=
  match includes cfg r 0 with
  | Err e => Some (Err e)
  | Ok true => Some (Ok (Some 0))
  | Ok false =>
      match includes cfg r 10 with
      | Err e => Some (Err e)
      | Ok false => Some (Ok None)
      | Ok true =>
          match while_bisect fuel (includes cfg r) tol 0 10 with
          | None => None
          | Some (Err e) => Some (Err e)
          | Some (Ok (lo, hi)) => Some (Ok (Some ((lo + hi) / 2)))
          end
      end
  end.
End Solve.

(* SensitivityResults.__repr__, 380-385, tests `if self.breakdown_M`, which is false for 0.0 as well as None *)
Definition breakdown_shown (b : option R) : option R :=
  match b with Some m => if Reqb m 0 then None else Some m | None => None end.

(* ---- the results objects the estimators build ---- *)
(* MultiPeriodDiD.fit (estimators.py:846-1018): coefficients holds one key f"{treatment}:period_{p}" per post
   period, so the lookup of "treated:period_{p}" succeeds only for post periods and only when the treatment
   column is called "treated"; a covariate that happens to carry such a name is not modelled. *)
Definition of_mp {I} (treatment : string) (r : mp_result I) : hd_results :=
  HMP {| hm_pre := mp_pre r; hm_post := mp_post r;
         hm_eff := (fun p => option_map (fun e => (pe_effect e, pe_se e)) (dict_get (mp_effects r) p));
         hm_vcov := Some (length (mp_coef r), mp_vcov r);
         hm_key := (fun p => if String.eqb treatment "treated"
                             then option_map pe_effect (dict_get (mp_effects r) p) else None);
         hm_avg_se := mp_avg_se r |}.

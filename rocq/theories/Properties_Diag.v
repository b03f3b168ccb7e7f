(* Placebo diagnostics: statements only. *)
From Verif Require Import Prelude Flt Stats_model Stats_proofs Linalg_model Linalg_proofs Linalg_vcov Linalg_thms Did_model Did_spec Did_proofs Did_equiv
  Multi_model Boot_model Prep_model Prep_proofs Diag_model Diag_level Diag_proofs Diag_thms Diag_ex.
From Coq Require Import Arith ZArith String List.
Import ListNotations.
Open Scope R_scope.

Section D.
Context {I U : Type} (ueq : forall x y : U, {x = y} + {x <> y}).
Context {K G : Type} (keq : forall x y : K, {x = y} + {x <> y}) (geq : forall x y : G, {x = y} + {x <> y}).
Variable qr : list I -> list (I -> R) -> list nat.
Variable lstsq : list I -> list (I -> R) -> (I -> R) -> list R.
Variable inv : list I -> list (I -> R) -> option (nat -> nat -> R).
Variable pinv : list I -> list (I -> R) -> nat -> nat -> R.
Variable sf : option Z -> fl -> fl.
Variable ppf : option Z -> R -> R.
Hypothesis Hls : lstsq_ok lstsq.
Hypothesis Hinv : inv_ok inv.
Hypothesis Hqr : qr_ok qr.
Hypothesis Hd : dist_ok sf ppf.
Variable cfg : did_config I K.
Variable choice : list U -> nat -> nat -> list U.
Notation fR x := (fun i => toR (x i)).
Notation fit := (fun rows y d t => did_fit keq geq qr lstsq inv pinv sf ppf cfg rows y d t [] [] []).
Notation timing := (timing_test (U := U) fit).
Notation group := (group_test ueq fit).
Notation perm := (permutation_test ueq fit choice).
Notation loo := (leave_one_out_test ueq fit sf ppf).
Notation run := (run_placebo_test ueq fit sf ppf choice).
Notation choice_ok := (choice_ok choice).

Theorem C46_result_partial rows u y d tc n alpha r : perm rows u y d tc n alpha = Ok r ->
  exists valid orig p m, pl_perm r = Some valid /\ pl_orig r = Some orig /\ pl_p r = Fin p /\ pl_nperm r = Some m /\ m = length valid /\ (1 <= m <= n)%nat /\
    1 / (INR m + 1) <= p <= 1 /\ p = perm_pvalue orig valid /\ (pl_signif r = true <-> p < alpha) /\ (alpha * (INR m + 1) <= 1 -> pl_signif r = false).
Proof. eapply perm_result; eauto. Qed.
Theorem C46_entries rows u y d tc n es : perm_effects ueq fit choice rows u y d tc n = Ok es -> length es = n /\
  forall i, (i < n)%nat ->
    let g := choice (unit_list ueq rows u) (n_treated_units ueq rows u d) i in
    let dg := fun j => ind (mem ueq (u j) g) in
    nth i es NaN = NaN \/ exists s, fit rows y (fun j => ofb (mem ueq (u j) g)) tc = Ok s /\ nth i es NaN = r_att s /\
      (four_cells rows dg (fR tc) -> nth i es NaN = Fin (did_of_means rows dg (fR tc) (fR y))).
Proof. eapply perm_entries; eauto. Qed.
Theorem C46_assignment (rows : list I) u d i : choice_ok ->
  let g := choice (unit_list ueq rows u) (n_treated_units ueq rows u d) i in
  length g = n_treated_units ueq rows u d /\ NoDup g /\ (forall x, In x g -> exists j, In j rows /\ u j = x).
Proof. eapply perm_assignment; eauto. Qed.
Theorem C46_p_bounds orig valid : valid <> [] -> 1 / (INR (length valid) + 1) <= perm_pvalue orig valid <= 1.
Proof. eapply perm_p_bounds; eauto. Qed.
Theorem C46_p_monotone (x x' : R) valid : Rabs x <= Rabs x' -> perm_pvalue (Fin x') valid <= perm_pvalue (Fin x) valid.
Proof. eapply perm_p_mono; eauto. Qed.
Theorem C46_p_sign (x : R) valid : perm_pvalue (Fin (- x)) valid = perm_pvalue (Fin x) valid.
Proof. eapply perm_p_sign; eauto. Qed.
Theorem C46_verdict rows u y d tc n alpha r x v : perm rows u y d tc n alpha = Ok r -> pl_orig r = Some (Fin x) -> pl_perm r = Some (map Fin v) -> pl_signif r = rejects alpha x v.
Proof. eapply perm_signif_rejects; eauto. Qed.
Theorem C46_interval rows u y d tc n alpha r lo hi v : perm rows u y d tc n alpha = Ok r -> 0 <= alpha <= 1 -> pl_perm r = Some (map Fin v) ->
  (forall x, In x v -> lo <= x <= hi) ->
  exists a b, pl_ci r = (Fin a, Fin b) /\ lo <= a /\ a <= b /\ b <= hi.
Proof. eapply perm_ci; eauto. Qed.
Theorem C46_zero_permutations rows u y d tc alpha o : fit rows y d tc = Ok o -> perm rows u y d tc 0 alpha = Err RuntimeError.
Proof. eapply perm_zero; eauto. Qed.
Theorem C46_time_varying rows u y d tc n alpha o : choice_ok -> fit rows y d tc = Ok o ->
  (forall x, unit_first ueq rows u d x <> Fin 1) -> perm rows u y d tc n alpha = Err RuntimeError.
Proof. eapply perm_time_varying; eauto. Qed.
Theorem C46_nan_original_refuted valid orig : valid <> [] -> perm_pvalue NaN valid = 1 / (INR (length valid) + 1) /\ perm_pvalue NaN valid <= perm_pvalue orig valid.
Proof. eapply perm_p_nan; eauto. Qed.
Theorem C47_estimate_uses_all_rows rows u y t g post alpha r :
  group rows u y t (Some g) post alpha = Ok r ->
  let fake := fun i => ind (mem ueq (u i) g) in
  let after := fun i => ind (zin (t i) (post_of rows t post)) in
  four_cells rows fake after ->
  pl_effect r = Fin (did_of_means rows fake after (fR y)) /\ pl_signif r = flt (pl_p r) (Fin alpha) /\ pl_group r = Some g.
Proof. eapply group_effect; eauto. Qed.
Theorem C47_errors rows u y t post alpha :
  group rows u y t None post alpha = Err ValueError /\ group rows u y t (Some []) post alpha = Err ValueError /\
  (forall g, (forall i, In i rows -> ~ In (u i) g) -> group rows u y t (Some g) post alpha = Err ValueError) /\
  (forall g, (forall i, In i rows -> In (u i) g) -> group rows u y t (Some g) post alpha = Err ValueError).
Proof. eapply group_errors; eauto. Qed.
Theorem C66_only_pre_rows rows rows' y d t f post alpha r r' :
  pre_rows rows t post = pre_rows rows' t post ->
  timing rows y d t (Some f) (Some post) alpha = Ok r -> timing rows' y d t (Some f) (Some post) alpha = Ok r' ->
  pl_effect r = pl_effect r' /\ pl_se r = pl_se r' /\ pl_t r = pl_t r' /\ pl_p r = pl_p r' /\ pl_ci r = pl_ci r' /\ pl_n r = pl_n r' /\ pl_signif r = pl_signif r'.
Proof. eapply timing_only_pre; eauto. Qed.
Theorem C66_estimate rows y d t f post alpha r :
  timing rows y d t (Some f) post alpha = Ok r ->
  let pp := post_of rows t post in
  let pre := pre_rows rows t pp in
  let fake := fun i => ind (Z.leb f (t i)) in
  four_cells pre (fR d) fake ->
  pl_effect r = Fin (did_of_means pre (fR d) fake (fR y)) /\ pl_n r = length pre /\ (pl_signif r = flt (pl_p r) (Fin alpha)).
Proof. eapply timing_effect; eauto. Qed.
Theorem C66_zero_iff_parallel rows y d t f post alpha r :
  timing rows y d t (Some f) post alpha = Ok r ->
  let pre := pre_rows rows t (post_of rows t post) in
  let fake := fun i => ind (Z.leb f (t i)) in
  four_cells pre (fR d) fake ->
  (pl_effect r = Fin 0 <-> cell_mean pre (fR d) fake (fR y) 1 1 - cell_mean pre (fR d) fake (fR y) 0 1 = cell_mean pre (fR d) fake (fR y) 1 0 - cell_mean pre (fR d) fake (fR y) 0 0).
Proof. eapply timing_parallel; eauto. Qed.
Theorem C66_errors rows y d t post alpha :
  timing rows y d t None post alpha = Err TypeError /\
  (forall f, In f (post_of rows t post) -> timing rows y d t (Some f) post alpha = Err ValueError) /\
  (forall f, (forall i, In i rows -> ~ In (t i) (post_of rows t post) -> (f <= t i)%Z) -> timing rows y d t (Some f) post alpha = Err ValueError) /\
  (forall f, (forall i, In i rows -> ~ In (t i) (post_of rows t post) -> (t i < f)%Z) -> timing rows y d t (Some f) post alpha = Err ValueError).
Proof. eapply timing_errors; eauto. Qed.
Theorem C66_default_post (rows : list I) t : post_of rows t None = skipn (Nat.div (length (zperiods rows t)) 2) (zperiods rows t) /\
  (forall l, post_of rows t (Some l) = l) /\ (forall p, In p (post_of rows t None) -> exists i, In i rows /\ t i = p).
Proof. eapply default_post; eauto. Qed.
Theorem C66_interpretation rows y d t f post alpha r : timing rows y d t f post alpha = Ok r -> (interpretation r = Violation <-> flt (pl_p r) (Fin alpha) = true).
Proof. eapply interpretation_timing; eauto. Qed.
Theorem C67_result rows u y d tc alpha r : loo rows u y d tc alpha = Ok r ->
  exists o es, fit rows y d tc = Ok o /\ loo_effects ueq fit rows u y d tc = Ok es /\ filter notna (map snd es) <> [] /\
    let valid := filter notna (map snd es) in
    pl_orig r = Some (r_att o) /\ pl_loo r = Some es /\ pl_effect r = fmean valid /\
    pl_se r = (if (1 <? length valid)%nat then std1 valid else Fin 0) /\
    pl_t r = (if fgt (pl_se r) (Fin 0) then fdiv (pl_effect r) (pl_se r) else Fin 0) /\
    pl_p r = u_p_value sf (pl_t r) (Some (if (1 <? length valid)%nat then (Z.of_nat (length valid) - 1)%Z else 1%Z)) /\
    pl_ci r = u_ci ppf (pl_effect r) (pl_se r) alpha (Some (if (1 <? length valid)%nat then (Z.of_nat (length valid) - 1)%Z else 1%Z)) /\
    pl_signif r = flt (pl_p r) (Fin alpha) /\ pl_n r = length rows /\ pl_type r = "leave_one_out"%string.
Proof. eapply loo_inv; eauto. Qed.
Theorem C67_units rows u y d tc o es : fit rows y d tc = Ok o -> loo_effects ueq fit rows u y d tc = Ok es ->
  (forall x, In x (map fst es) <-> In x (treated_list ueq rows u d) /\ exists i, In i rows /\ u i <> x /\ d i = Fin 1) /\
  NoDup (map fst es) /\
  (forall x e, In (x, e) es -> e = NaN \/ exists s, fit (loo_rows ueq rows u x) y d tc = Ok s /\ e = r_att s).
Proof. eapply loo_keys; eauto. Qed.
Theorem C67_single_unit rows u y d tc alpha o x : fit rows y d tc = Ok o -> (forall i, In i rows -> d i = Fin 1 -> u i = x) -> loo rows u y d tc alpha = Err RuntimeError.
Proof. eapply loo_single; eauto. Qed.
Theorem C67_average_partial rows u y d tc alpha r es m1 m0 : loo rows u y d tc alpha = Ok r -> pl_loo r = Some es -> ~ In NaN (map snd es) ->
  (2 <= length es)%nat -> (1 <= m1)%nat -> (1 <= m0)%nat ->
  (forall i j, In i rows -> In j rows -> u i = u j -> d i = d j) ->
  four_cells rows (fR d) (fR tc) ->
  (forall x, In x (map fst es) -> length (filter (fun i => keqb ueq (u i) x) (cell rows (fR d) (fR tc) 1 1)) = m1) ->
  (forall x, In x (map fst es) -> length (filter (fun i => keqb ueq (u i) x) (cell rows (fR d) (fR tc) 1 0)) = m0) ->
  pl_orig r = Some (pl_effect r) /\
  (forall x e, In (x, e) es -> e = Fin (did_of_means (loo_rows ueq rows u x) (fR d) (fR tc) (fR y))).
Proof. eapply loo_average; eauto. Qed.
Theorem C67_identical_refuted rows u y d tc alpha r es e : loo rows u y d tc alpha = Ok r -> pl_loo r = Some es -> (forall x, In x (map snd es) -> x = Fin e) -> alpha <= 1 ->
  pl_effect r = Fin e /\ pl_se r = Fin 0 /\ pl_t r = Fin 0 /\ pl_p r = Fin 1 /\ pl_signif r = false.
Proof. eapply loo_identical; eauto. Qed.
Theorem C68_keys rows u y d t pre post n alpha :
  map fst (run_all ueq fit sf ppf choice rows u y d t pre post n alpha) = map KTiming (tl pre) ++ [KPermutation; KLeaveOneOut] /\
  (forall p r, In (KTiming p, r) (run_all ueq fit sf ppf choice rows u y d t pre post n alpha) -> In p (tl pre) /\ r = timing rows y d t (Some p) (Some post) alpha).
Proof. eapply run_all_keys; eauto. Qed.
Theorem C68_dispatch rows u y d t ty fake g post n alpha :
  (to_lower ty = "fake_timing"%string -> run rows u y d t ty fake g post n alpha = timing rows y d t fake post alpha) /\
  (to_lower ty = "fake_group"%string -> run rows u y d t ty fake g post n alpha = match u with Some u => group rows u y t g post alpha | None => Err ValueError end) /\
  (to_lower ty = "permutation"%string -> run rows u y d t ty fake g post n alpha = match u with Some u => perm rows u y d (tcol t) n alpha | None => Err ValueError end) /\
  (to_lower ty = "leave_one_out"%string -> run rows u y d t ty fake g post n alpha = match u with Some u => loo rows u y d (tcol t) alpha | None => Err ValueError end) /\
  (~ In (to_lower ty) ["fake_timing"; "fake_group"; "permutation"; "leave_one_out"]%string -> run rows u y d t ty fake g post n alpha = Err ValueError).
Proof. eapply dispatch; eauto. Qed.
Theorem C68_multi_period_refuted rows u y d t n alpha :
  (exists i j k, In i rows /\ In j rows /\ In k rows /\ t i <> t j /\ t i <> t k /\ t j <> t k) ->
  perm rows u y d (tcol t) n alpha = Err ValueError /\ loo rows u y d (tcol t) alpha = Err ValueError.
Proof. eapply multi_period_errors; eauto. Qed.
Theorem C68_battery_refuted rows u y d t pre post n alpha : let out := run_all ueq fit sf ppf choice rows u y d t pre post n alpha in
  (exists p r, In (KTiming p, Ok r) out) ->
  In (KPermutation, Err ValueError) out /\ In (KLeaveOneOut, Err ValueError) out /\
  (forall r, ~ In (KPermutation, Ok r) out) /\ (forall r, ~ In (KLeaveOneOut, Ok r) out).
Proof. eapply run_all_errors; eauto. Qed.
Theorem C68_permutation_interpretation_refuted rows u y d tc n alpha r x v : perm rows u y d tc n alpha = Ok r -> pl_orig r = Some (Fin x) -> pl_perm r = Some (map Fin v) ->
  (interpretation r = Violation <-> INR (length (filter (fun w => Rleb (Rabs x) (Rabs w)) v)) < alpha * len v /\ 1 < alpha * (len v + 1)).
Proof. eapply interpretation_permutation; eauto. Qed.
End D.
Theorem C46_level_bound {A} (s : A -> R) (alpha : R) (n c : nat) (l : list A) :
  l <> [] -> (1 <= n)%nat -> alpha * INR n <= INR c -> reject_prob s alpha n l <= INR c / INR (S n).
Proof. eapply level_bound; eauto. Qed.
Theorem C46_level_excess {A} (s : A -> R) (alpha : R) (n : nat) (l : list A) :
  l <> [] -> (1 <= n)%nat -> 0 <= alpha -> reject_prob s alpha n l < alpha + 1 / INR (S n).
Proof. eapply level_excess; eauto. Qed.
Theorem C46_level_partial {A} (s : A -> R) (alpha : R) (n c : nat) (l : list A) :
  l <> [] -> (1 <= n)%nat -> 0 <= alpha -> alpha * INR (S n) = INR c \/ alpha * INR n = INR c -> reject_prob s alpha n l <= alpha.
Proof. eapply level_exact; eauto. Qed.
Theorem C46_level_zero {A} (s : A -> R) (alpha : R) (n : nat) (l : list A) : (1 <= n)%nat -> alpha * INR (S n) <= 1 -> reject_prob s alpha n l = 0.
Proof. eapply level_zero; eauto. Qed.
Theorem C46_level_refuted : / 20 < reject_prob INR (/ 20) 21 twenty.
Proof. eapply level_exceeded; eauto. Qed.
Theorem C46_case : exists r, xperm p_rows fst (fun i => Fin (p_y i)) pd pt 2 (5/100) = Ok r /\ pl_orig r = Some (Fin 10) /\
  pl_perm r = Some [Fin (-10); Fin 10] /\ pl_p r = Fin 1 /\ pl_signif r = false.
Proof. eapply perm_case; eauto. Qed.
Theorem C46_choice_oracle : choice_ok xchoice.
Proof. eapply xchoice_ok; eauto. Qed.
Theorem C47_never_treated_refuted : exists r r0,
  xgroup g_rows fst (fun i => Fin (g_y i)) snd (Some [1%nat]) (Some [1%Z]) (5/100) = Ok r /\ pl_effect r = Fin (- (10 / 3)) /\
  xgroup g_never fst (fun i => Fin (g_y i)) snd (Some [1%nat]) (Some [1%Z]) (5/100) = Ok r0 /\ pl_effect r0 = Fin 0.
Proof. eapply group_refuted; eauto. Qed.
Theorem C66_case : exists r, xtiming t_rows (fun i => Fin (t_y i)) (fun i => ofb (t_treated i)) snd (Some 1%Z) (Some [2%Z]) (5/100) = Ok r /\
  pl_effect r = Fin 0 /\ pl_orig r = Some (Fin 7).
Proof. eapply timing_case; eauto. Qed.
Theorem C67_case_refuted : exists r, xloo p_rows fst (fun i => Fin (p_y i)) pd pt (5/100) = Ok r /\ pl_orig r = Some (Fin 10) /\ pl_effect r = Fin 10 /\
  pl_loo r = Some [(3, Fin 10); (4, Fin 10)]%nat /\ pl_se r = Fin 0 /\ pl_p r = Fin 1 /\ pl_signif r = false /\ interpretation r = Consistent.
Proof. eapply loo_refuted; eauto. Qed.
Theorem C68_battery_case_refuted : let out := xrun_all t_rows fst (fun i => Fin (t_y i)) (fun i => ofb (t_treated i)) snd [0; 1]%Z [2%Z] 100 (5/100) in
  (exists r, In (KTiming 1, Ok r) out /\ pl_effect r = Fin 0) /\ In (KPermutation, Err ValueError) out /\ In (KLeaveOneOut, Err ValueError) out.
Proof. eapply run_all_refuted; eauto. Qed.
Print Assumptions C46_result_partial.
Print Assumptions C46_entries.
Print Assumptions C46_assignment.
Print Assumptions C46_p_bounds.
Print Assumptions C46_p_monotone.
Print Assumptions C46_p_sign.
Print Assumptions C46_verdict.
Print Assumptions C46_interval.
Print Assumptions C46_zero_permutations.
Print Assumptions C46_time_varying.
Print Assumptions C46_nan_original_refuted.
Print Assumptions C46_level_bound.
Print Assumptions C46_level_excess.
Print Assumptions C46_level_partial.
Print Assumptions C46_level_zero.
Print Assumptions C46_level_refuted.
Print Assumptions C46_case.
Print Assumptions C46_choice_oracle.
Print Assumptions C47_estimate_uses_all_rows.
Print Assumptions C47_errors.
Print Assumptions C47_never_treated_refuted.
Print Assumptions C66_only_pre_rows.
Print Assumptions C66_estimate.
Print Assumptions C66_zero_iff_parallel.
Print Assumptions C66_errors.
Print Assumptions C66_default_post.
Print Assumptions C66_interpretation.
Print Assumptions C66_case.
Print Assumptions C67_result.
Print Assumptions C67_units.
Print Assumptions C67_single_unit.
Print Assumptions C67_average_partial.
Print Assumptions C67_identical_refuted.
Print Assumptions C67_case_refuted.
Print Assumptions C68_keys.
Print Assumptions C68_dispatch.
Print Assumptions C68_multi_period_refuted.
Print Assumptions C68_battery_refuted.
Print Assumptions C68_permutation_interpretation_refuted.
Print Assumptions C68_battery_case_refuted.

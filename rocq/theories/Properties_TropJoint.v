(* Properties of TROP, method="joint". *)
From Verif Require Import Prelude Flt Stats_model Stats_proofs Linalg_model Linalg_minnorm Multi_model Trop_model Trop_proofs Trop_thms Trop_conv Trop_rec
  Trop_obj Trop_sel Trop_ex Trop_rows Trop_joint Trop_jproofs Trop_jfit Trop_jthms Trop_jmore Trop_jfin Trop_jex.
From Coq Require Import Arith ZArith String List Permutation.
Import ListNotations.
Open Scope R_scope.

(* the oracle hypotheses have instances *)
Theorem C82_lstsq_case : mn_ok (@mn_solve cell2 : lstsq_fn).
Proof. eapply mn_solve_ok; eauto. Qed.
Theorem C82_svd_local_case: soft_local svd_row.
Proof. eapply svd_row_local; eauto. Qed.
Section C82.
Variable lstsq : lstsq_fn.
Variable svd : svd_fn.
Variable sub : nat -> nat -> list nat.
Variable sf : option Z -> fl -> fl.
Variable ppf : option Z -> R -> R.
Hypothesis Hmn : mn_ok lstsq.
Theorem C82_shift cfg T N Y D miss name draws c att se inf effs l score reps :
  sub_ok sub -> complete T N Y -> dpanel T N D -> two_controls T N D ->
  (forall smp, In smp draws -> (forall x, In x smp -> (x < N)%nat) /\ exists j, In j smp /\ ever T D j = false) ->
  joint_fit lstsq svd sub sf ppf cfg T N Y D miss name draws = FOk att se inf effs l score reps ->
  joint_fit lstsq svd sub sf ppf cfg T N (add_effect Y D (fun _ _ => c)) D miss name draws =
    FOk (att + c) se (trop_inf sf ppf (Fin (att + c)) se (length (treated_obs T N D)) (tc_alpha cfg))
        (map (fun x => (fst x, snd x + c)) effs) l score (map (fshift c) reps).
Proof. eapply joint_shift; eauto. Qed.
End C82.
Section C82x.
Variables (lstsq : lstsq_fn) (svd : svd_fn) (sf : option Z -> fl -> fl) (ppf : option Z -> R -> R) (name : nat -> string) (draws : list (list nat)).
Hypothesis Hmn : mn_ok lstsq.
Theorem C82_case e2 e3 : exists att se inf effs score reps,
  joint_fit lstsq svd sub_first sf ppf (jcfg (Some 0) (Some 0) None) 3 4 (jY e2 e3) jD (fun _ _ => false) name draws = FOk att se inf effs (Some 0, Some 0, None) score reps.
Proof. eapply jx_fit; eauto. Qed.
End C82x.
Theorem C82_case_panel: dpanel 3 4 jD.
Proof. eapply jD_panel; eauto. Qed.
Theorem C82_case_controls: two_controls 3 4 jD.
Proof. eapply jD_two; eauto. Qed.
(* C83 *)
Section C83.
Variable lstsq : lstsq_fn.
Variable svd : svd_fn.
Variable sub : nat -> nat -> list nat.
Variable sf : option Z -> fl -> fl.
Variable ppf : option Z -> R -> R.
Hypothesis Hmn : mn_ok lstsq.
Theorem C83_recovery cfg T N Y D miss name draws a b tau att se inf effs l score reps i j s t :
  svd_ok svd -> joint_fit lstsq svd sub sf ppf cfg T N Y D miss name draws = FOk att se inf effs l score reps ->
  (forall t i r, (t < T)%nat -> (i < N)%nat -> Y t i = Some r -> r = a i + b t + tau * IZR (D t i)) ->
  (i < N)%nat -> (j < N)%nat -> (s < first_treat T N D)%nat -> (t < T)%nat -> D t i = 1%Z -> D t j = 0%Z -> D s i = 0%Z -> D s j = 0%Z ->
  has Y s i = true -> has Y s j = true -> has Y t i = true -> has Y t j = true ->
  att = tau /\ forall x, In x effs -> snd x = tau.
Proof. eapply joint_recovers; eauto. Qed.
End C83.
Section C83x.
Variables (lstsq : lstsq_fn) (svd : svd_fn) (sf : option Z -> fl -> fl) (ppf : option Z -> R -> R) (name : nat -> string) (draws : list (list nat)).
Hypothesis Hmn : mn_ok lstsq.
Theorem C83_case e : svd_ok svd -> exists se inf effs score reps,
  joint_fit lstsq svd sub_first sf ppf (jcfg (Some 0) (Some 0) None) 3 4 (jY e e) jD (fun _ _ => false) name draws = FOk e se inf effs (Some 0, Some 0, None) score reps.
Proof. eapply joint_recovers_ex; eauto. Qed.
End C83x.
(* C84 *)
Section C84.
Variable lstsq : lstsq_fn.
Variable svd : svd_fn.
Variable sub : nat -> nat -> list nat.
Variable sf : option Z -> fl -> fl.
Variable ppf : option Z -> R -> R.
Hypothesis Hmn : mn_ok lstsq.
Theorem C84_weighted_did cfg T N Y D miss name draws att se inf effs l score reps :
  joint_fit lstsq svd sub sf ppf cfg T N Y D miss name draws = FOk att se inf effs l score reps ->
  complete T N Y -> dpanel T N D -> (forall t i, miss t i = false) -> 10 ^ 10 <= conv_nn (snd l) ->
  att = wdid (dw T N D l) (uw T N Y D l) (ever T D) (is_post T N D) T N (ysafe Y).
Proof. eapply joint_did; eauto. Qed.
Theorem C84_average_partial cfg T N Y D miss name draws a b eff att se inf effs l score reps :
  joint_fit lstsq svd sub sf ppf cfg T N Y D miss name draws = FOk att se inf effs l score reps ->
  complete T N Y -> dpanel T N D -> (forall t i, miss t i = false) -> 10 ^ 10 <= conv_nn (snd l) ->
  (forall t i, (t < T)%nat -> (i < N)%nat -> ysafe Y t i = a i + b t + eff t i * IZR (D t i)) ->
  att = bmean (dw T N D l) (uw T N Y D l) (filter (ever T D) (seq 0 N)) (filter (is_post T N D) (seq 0 T)) eff /\
  (forall lo hi, (forall t i, (t < T)%nat -> (i < N)%nat -> D t i = 1%Z -> lo <= eff t i <= hi) -> lo <= att <= hi) /\
  (forall t i, (t < T)%nat -> (i < N)%nat -> D t i = 1%Z -> In ((t, i), att) effs).
Proof. eapply joint_average; eauto. Qed.
End C84.
Section C84x.
Variables (lstsq : lstsq_fn) (svd : svd_fn) (sf : option Z -> fl -> fl) (ppf : option Z -> R -> R) (name : nat -> string) (draws : list (list nat)).
Hypothesis Hmn : mn_ok lstsq.
Theorem C84_cell_effects_refuted : exists se inf score reps,
  joint_fit lstsq svd sub_first sf ppf (jcfg (Some 0) (Some 0) None) 3 4 (jY 2 6) jD (fun _ _ => false) name draws =
    FOk 4 se inf [((2, 2)%nat, 4); ((2, 3)%nat, 4)] (Some 0, Some 0, None) score reps /\
  jeff 2 6 2%nat 2%nat = 2 /\ jeff 2 6 2%nat 3%nat = 6.
Proof. eapply joint_pooled_effects; eauto. Qed.
End C84x.
(* C85 *)
Theorem C85_period_effects lstsq svd sub sf ppf cfg T N Y D miss name draws b :
  mn_ok lstsq -> soft_local svd -> sub_ok sub -> complete T N Y -> dpanel T N D -> two_controls T N D ->
  (forall smp, In smp draws -> (forall x, In x smp -> (x < N)%nat) /\ exists j, In j smp /\ ever T D j = false) ->
  joint_fit lstsq svd sub sf ppf cfg T N (add_time Y b) D miss name draws = joint_fit lstsq svd sub sf ppf cfg T N Y D miss name draws.
Proof. eapply joint_time; eauto. Qed.
Theorem C85_unit_effects_partial lstsq svd T N Y D miss a lt h maxit tol : mn_ok lstsq -> soft_local svd -> complete T N Y -> dpanel T N D -> check_joint T N D miss = TOk tt ->
  match j_fixed lstsq svd T N (T - first_treat T N D) Y D lt 0 h maxit tol, j_fixed lstsq svd T N (T - first_treat T N D) (add_units Y a) D lt 0 h maxit tol with
  | JOk r, JOk r' => jtau (fst r') = jtau (fst r) | JVal, JVal => True | JUnbound, JUnbound => True | _, _ => False end.
Proof. eapply fixed_unit0; eauto. Qed.
Section C85x.
Variables (lstsq : lstsq_fn) (svd : svd_fn) (sf : option Z -> fl -> fl) (ppf : option Z -> R -> R) (name : nat -> string) (draws : list (list nat)).
Hypothesis Hmn : mn_ok lstsq.
Theorem C85_unit_effects_refuted : exists a0 a1 se0 se1 i0 i1 f0 f1 s0 s1 r0 r1,
  joint_fit lstsq svd sub_first sf ppf (jcfg (Some 0) (Some 1) None) 3 3 (vY 0) vD (fun _ _ => false) name draws = FOk a0 se0 i0 f0 (Some 0, Some 1, None) s0 r0 /\
  joint_fit lstsq svd sub_first sf ppf (jcfg (Some 0) (Some 1) None) 3 3 (vY 1) vD (fun _ _ => false) name draws = FOk a1 se1 i1 f1 (Some 0, Some 1, None) s1 r1 /\
  (forall t i, ysafe (vY 1) t i = ysafe (vY 0) t i + (if (i =? 1)%nat then 1 else 0)) /\ a0 = - (1/2) /\ a0 < a1.
Proof. eapply joint_unit_shift; eauto. Qed.
End C85x.
(* C86 *)
Theorem C86_grid_minimum score : forall g best r, j_search score g best = JOk r ->
  (forall l s, In l g -> score l = JOk (Some s) -> exists l0 s0, r = Some (l0, s0) /\ s0 <= s) /\
  (forall l s, best = Some (l, s) -> exists l0 s0, r = Some (l0, s0) /\ s0 <= s) /\
  (forall l0 s0, r = Some (l0, s0) -> best = Some (l0, s0) \/ In l0 g /\ score l0 = JOk (Some s0)).
Proof. eapply j_search_min; eauto. Qed.
Section C86.
Variable lstsq : lstsq_fn.
Variable svd : svd_fn.
Hypothesis Hmn : mn_ok lstsq.
Hypothesis Hok : svd_ok svd.
Hypothesis Hlen : svd_len svd.
Variables (T N : nat).
Hypothesis Htot : forall M, svd T N M <> None.
Theorem C86_descent_partial Y D w h maxit tol c L mu a b tau : (forall t i, 0 <= w t i) -> 0 < h < 10 ^ 10 ->
  j_solve lstsq svd T N Y D w h maxit tol = JOk (c, L) ->
  exists n, nuc_is T N L n /\
    qloss T N (seen Y w) (j_resid (ysafe Y) D c) L + h * n <=
    qloss T N (seen Y w) (j_resid (ysafe Y) D (mkc mu a b tau)) zmat + INR maxit * (wmax T N (seen Y w) * slack T N).
Proof. eapply joint_descent; eauto. Qed.
End C86.
(* C87 *)
Theorem C87_iff T N D miss : check_joint T N D miss = TOk tt <->
  check_panel T N D miss = TOk tt /\ forall i j s t, (i < N)%nat -> (j < N)%nat -> first_at T D miss i s -> first_at T D miss j t -> s = t.
Proof. eapply check_joint_iff; eauto. Qed.
Theorem C87_block T N D miss : check_joint T N D miss = TOk tt -> dpanel T N D -> (forall t i, miss t i = false) ->
  forall t i, (t < T)%nat -> (i < N)%nat -> D t i = if ever T D i && (first_treat T N D <=? t)%nat then 1%Z else 0%Z.
Proof. eapply joint_block; eauto. Qed.
Theorem C87_simultaneous_refuted : check_joint 4 3 gD (fun _ _ => false) = TOk tt /\ check_joint 4 3 gD' gmiss = TErr EStaggered /\
  (forall t i, gmiss t i = false -> gD' t i = gD t i).
Proof. eapply joint_false_staggered; eauto. Qed.
Theorem C87_case: check_joint 3 4 jD (fun _ _ => false) = TOk tt.
Proof. eapply jD_check; eauto. Qed.
(* C88 *)
Section C88.
Variable lstsq : lstsq_fn.
Variable svd : svd_fn.
Variable sub : nat -> nat -> list nat.
Variable sf : option Z -> fl -> fl.
Variable ppf : option Z -> R -> R.
Hypothesis Hmn : mn_ok lstsq.
Theorem C88_left_out_unit T N p Y Y' D lt lu h maxit tol k : (forall t i, i <> k -> Y' t i = Y t i) ->
  j_jack1 lstsq svd T N p Y' D lt lu h maxit tol k = j_jack1 lstsq svd T N p Y D lt lu h maxit tol k.
Proof. eapply joint_jack_blind; eauto. Qed.
Theorem C88_no_treated_outcome cfg T N Y D miss name draws att se inf effs l score reps :
  joint_fit lstsq svd sub sf ppf cfg T N Y D miss name draws = FOk att se inf effs l score reps ->
  (forall t i, (t < T)%nat -> (i < N)%nat -> D t i <> 0%Z -> has Y t i = false) -> att = 0.
Proof. eapply joint_no_treated; eauto. Qed.
Theorem C88_one_treated_unit cfg T N Y D miss name draws att se inf effs l score reps k :
  joint_fit lstsq svd sub sf ppf cfg T N Y D miss name draws = FOk att se inf effs l score reps -> tc_boot cfg = false ->
  (forall i, (i < N)%nat -> ever T D i = true -> i = k) -> reps = [] /\ se = Fin 0 /\ ti_t inf = NaN /\ ti_p inf = NaN /\ ti_ci inf = (NaN, NaN).
Proof. eapply joint_one_treated; eauto. Qed.
Theorem C88_max_iter0 cfg T N Y D miss name draws : check_joint T N D miss = TOk tt -> tc_maxit cfg = 0%nat ->
  (forall x, In x (tc_gn cfg) -> conv_nn x < 10 ^ 10) -> tc_gt cfg <> [] -> tc_gu cfg <> [] -> tc_gn cfg <> [] ->
  joint_fit lstsq svd sub sf ppf cfg T N Y D miss name draws = FUnbound.
Proof. eapply joint_max_iter0; eauto. Qed.
End C88.
Section C88x.
Variables (lstsq : lstsq_fn) (svd : svd_fn) (sf : option Z -> fl -> fl) (ppf : option Z -> R -> R) (name : nat -> string) (draws : list (list nat)).
Hypothesis Hmn : mn_ok lstsq.
Theorem C88_missing_refuted : exists se inf score reps,
  joint_fit lstsq svd sub_first sf ppf (jcfg (Some 0) (Some 0) None) 3 4 mY jD (fun _ _ => false) name draws =
    FOk 0 se inf [((2, 2)%nat, 0); ((2, 3)%nat, 0)] (Some 0, Some 0, None) score reps.
Proof. eapply joint_missing_zero; eauto. Qed.
End C88x.
(* C89 *)
Theorem C89_centre_refuted T q : (0 < q <= T)%nat -> j_center T q = meanf INR (seq (T - q) q) + 1/2.
Proof. eapply joint_center_off; eauto. Qed.
Theorem C89_asymmetric_refuted T q lt : (2 <= q <= T)%nat -> 0 < lt -> j_time_w T q lt (T - q) < j_time_w T q lt (T - 1).
Proof. eapply joint_center_asym; eauto. Qed.
Print Assumptions C82_lstsq_case.
Print Assumptions C82_svd_local_case.
Print Assumptions C82_shift.
Print Assumptions C82_case.
Print Assumptions C82_case_panel.
Print Assumptions C82_case_controls.
Print Assumptions C83_recovery.
Print Assumptions C83_case.
Print Assumptions C84_weighted_did.
Print Assumptions C84_average_partial.
Print Assumptions C84_cell_effects_refuted.
Print Assumptions C85_period_effects.
Print Assumptions C85_unit_effects_partial.
Print Assumptions C85_unit_effects_refuted.
Print Assumptions C86_grid_minimum.
Print Assumptions C86_descent_partial.
Print Assumptions C87_iff.
Print Assumptions C87_block.
Print Assumptions C87_simultaneous_refuted.
Print Assumptions C87_case.
Print Assumptions C88_left_out_unit.
Print Assumptions C88_no_treated_outcome.
Print Assumptions C88_one_treated_unit.
Print Assumptions C88_max_iter0.
Print Assumptions C88_missing_refuted.
Print Assumptions C89_centre_refuted.
Print Assumptions C89_asymmetric_refuted.

(* What the printed summaries say (C126). *)
From Coq Require Import Reals.
From Verif Require Import Prelude Flt Stats_model Stats_proofs Linalg_thms Did_model Within_proofs Bacon_model Bacon_proofs Bacon_thms
  Lp Honest_model Honest_proofs Honest_ex Prep_model Diag_model Diag_level Diag_proofs Diag_thms Diag_ex Export_model Export_proofs Summary_model Summary_proofs.
From Coq Require Import Arith ZArith String List Permutation.
Import ListNotations.
Open Scope R_scope.

Section B.
Context {I : Type}.
Variables (rows : list I) (u t : I -> Z) (g : I -> coh) (m : nat) (C : Z -> coh).
Theorem C126_bacon_lines_add_up exact y :
  Within_proofs.balanced Z.eq_dec Z.eq_dec rows u t m -> (forall i, In i rows -> g i = C (u i)) ->
  (forall i, In i rows -> c_never (g i) = true \/ exists z, (0 < z)%Z /\ g i = CFin z) ->
  let o := bacon_fit rows u t g y exact in
  sumf bl_weight (bacon_lines o) = fst (bacon_total o) /\
  fsum (map bl_contrib (bacon_lines o)) = snd (bacon_total o) /\
  (bo_comparisons o <> [] -> fst (bacon_total o) = 1) /\
  (forall l, In l (bacon_lines o) -> 0 < bl_weight l <= 1 /\ exists a, bl_avg l = Fin a /\ bl_contrib l = Fin (bl_weight l * a)).
Proof. exact (bacon_summary_adds rows u t g m C exact y). Qed.
Theorem C126_bacon_warning exact y pct :
  let o := bacon_fit rows u t g y exact in
  let W := sumf cmp_weight (filter (fun c => match cmp_type c with LaterEarlier => true | _ => false end) (bo_comparisons o)) in
  bacon_warning o = Some pct <-> 1/100 < W /\ pct = 100 * W.
Proof. exact (bacon_summary_warns rows u t g exact y pct). Qed.
End B.
Section P.
Context {I U : Type} (ueq : forall x y : U, {x = y} + {x <> y}).
Variable fit : list I -> (I -> fl) -> (I -> fl) -> (I -> fl) -> res (did_result I).
Variable sf : option Z -> fl -> fl.
Variable ppf : option Z -> R -> R.
Variable choice : list U -> nat -> nat -> list U.
Notation run := (run_placebo_test ueq fit sf ppf choice).
Theorem C126_placebo_text_law rows u y d t ty fake g post n alpha r p : run rows u y d t ty fake g post n alpha = Ok r -> pl_p r = Fin p ->
  (printed_claim r (pl_p r) = true <-> (p < alpha <-> p < 1/20)).
Proof. exact (placebo_text_law ueq fit sf ppf choice rows u y d t ty fake g post n alpha r p). Qed.
Theorem C126_placebo_text_default rows u y d t ty fake g post n r p : run rows u y d t ty fake g post n (1/20) = Ok r -> pl_p r = Fin p ->
  printed_claim r (pl_p r) = true.
Proof. exact (placebo_text_default ueq fit sf ppf choice rows u y d t ty fake g post n r p). Qed.
Theorem C126_placebo_text_nan_refuted rows u y d t ty fake g post n alpha r : run rows u y d t ty fake g post n alpha = Ok r -> pl_p r = NaN ->
  pl_signif r = false /\ printed_claim r (pl_p r) = false.
Proof. exact (placebo_text_nan_refuted ueq fit sf ppf choice rows u y d t ty fake g post n alpha r). Qed.
End P.
Section W.
Variable sort : list (Z * R) -> list (Z * R).
Hypothesis Hsort : forall l, Permutation (sort l) l /\ desc (sort l).
Theorem C126_top_weights w shown k : top_weights sort w = Some (shown, k) ->
  k = length (filter (fun x => Rltb (1/1000) (snd x)) w) /\
  length shown = Nat.min 5 k /\
  (exists rest, Permutation (shown ++ rest) w /\ forall z, In z rest -> snd z <= 1/1000 \/ forall x, In x shown -> snd z <= snd x) /\
  (forall x, In x shown -> In x w /\ 1/1000 < snd x) /\
  ((k <= 5)%nat -> Permutation shown (filter (fun x => Rltb (1/1000) (snd x)) w)).
Proof. exact (top_weights_spec sort Hsort w shown k). Qed.
End W.
Theorem C126_sensitivity_always lp ppf cfg r grid q : hd_sensitivity lp ppf cfg r grid = Ok q ->
  (sens_text q = AlwaysSignificant <-> forall ci, In ci (hs_cis q) -> ~ (fle (fst ci) (Fin 0) = true /\ fle (Fin 0) (snd ci) = true)) /\
  length (hs_cis q) = length (hs_M q) /\ length (hs_bounds q) = length (hs_M q).
Proof. exact (sens_always lp ppf cfg r grid q). Qed.
Theorem C126_placebo_text_refuted : exists r,
  permutation_test Nat.eq_dec xfit schoice p_rows fst (fun i => Fin (p_y i)) pd pt 15 (1/10) = Ok r /\
  pl_p r = Fin (1/16) /\ pl_signif r = true /\ printed_claim r (pl_p r) = false.
Proof. exact placebo_text_refuted. Qed.
Theorem C126_choice_case : choice_ok schoice.
Proof. exact schoice_ok. Qed.
Theorem C126_robust_up_to_refuted : exists cfg r q,
  hd_sensitivity fm_lp toy_ppf cfg r (Some [0; 1]) = Ok q /\ sens_text q = RobustUpTo 0 /\ includes fm_lp toy_ppf cfg r 0 = Ok true.
Proof. exact sens_robust_refuted. Qed.
Theorem C126_bacon_case exact :
  let o := bacon_fit exb_rows fst snd (fun i => exb_coh (fst i)) exb_y exact in
  sumf bl_weight (bacon_lines o) = 1 /\ fabs (fsub (Fin (1/2)) (fsum (map bl_contrib (bacon_lines o)))) = Fin (1/14) /\ bacon_lines o <> [].
Proof. exact (bacon_summary_case exact). Qed.
Theorem C126_top_weights_case :
  exists shown, top_weights wsort [(1%Z, 1/10); (2%Z, 1/2); (3%Z, 0); (4%Z, 1/10); (5%Z, 1/10); (6%Z, 1/10); (7%Z, 1/10)] = Some (shown, 6%nat) /\
  length shown = 5%nat /\ hd (0%Z, 0) shown = (2%Z, 1/2).
Proof. exact top_weights_case. Qed.
Print Assumptions C126_bacon_lines_add_up.
Print Assumptions C126_bacon_warning.
Print Assumptions C126_placebo_text_law.
Print Assumptions C126_placebo_text_default.
Print Assumptions C126_placebo_text_nan_refuted.
Print Assumptions C126_top_weights.
Print Assumptions C126_sensitivity_always.
Print Assumptions C126_placebo_text_refuted.
Print Assumptions C126_choice_case.
Print Assumptions C126_robust_up_to_refuted.
Print Assumptions C126_bacon_case.
Print Assumptions C126_top_weights_case.

(* The Goodman-Bacon decomposition: units of the outcome, added effects, row order, unit labels (C123). *)
From Coq Require Import Reals.
From Verif Require Import Prelude Flt Linalg_model Did_model Within_proofs Multi_model Bacon_model Bacon_proofs Bacon_thms Bacon_equiv Bacon_rows Bacon_eqex.
From Coq Require Import Arith ZArith String List Permutation.
Import ListNotations.
Open Scope R_scope.

Section S.
Context {I : Type}.
Variables (rows : list I) (u t : I -> Z) (g : I -> coh).
Notation fit y exact := (bacon_fit rows u t g y exact).
Theorem C123_level_scale exact s k (y y' : I -> R) :
  (forall i, In i rows -> y' i = s * y i + k) ->
  bo_twfe (fit y' exact) = s * bo_twfe (fit y exact) /\
  bo_comparisons (fit y' exact) = map (scale_cmp s) (bo_comparisons (fit y exact)) /\
  (forall ty, bo_weights (fit y' exact) ty = bo_weights (fit y exact) ty) /\
  (forall ty, bo_averages (fit y' exact) ty = option_map (fmul (Fin s)) (bo_averages (fit y exact) ty)) /\
  bo_error (fit y' exact) = fmul (Fin (Rabs s)) (bo_error (fit y exact)) /\
  (bo_n_groups (fit y' exact), bo_n_never (fit y' exact), bo_groups (fit y' exact), bo_nobs (fit y' exact), bo_unbalanced (fit y' exact))
  = (bo_n_groups (fit y exact), bo_n_never (fit y exact), bo_groups (fit y exact), bo_nobs (fit y exact), bo_unbalanced (fit y exact)).
Proof. exact (bacon_level_scale rows u t g exact s k y y'). Qed.
Theorem C123_unit_period_effects exact m C s (a b : Z -> R) (y y' : I -> R) :
  balanced Z.eq_dec Z.eq_dec rows u t m ->
  (forall i, In i rows -> g i = C (u i)) ->
  (forall i, In i rows -> c_never (g i) = true \/ exists z, (0 < z)%Z /\ g i = CFin z) ->
  (forall i, In i rows -> y' i = s * y i + (a (u i) + b (t i))) ->
  bo_twfe (fit y' exact) = s * bo_twfe (fit y exact) /\
  bo_comparisons (fit y' exact) = map (scale_cmp s) (bo_comparisons (fit y exact)) /\
  (forall ty, bo_weights (fit y' exact) ty = bo_weights (fit y exact) ty) /\
  (forall ty, bo_averages (fit y' exact) ty = option_map (fmul (Fin s)) (bo_averages (fit y exact) ty)) /\
  bo_error (fit y' exact) = fmul (Fin (Rabs s)) (bo_error (fit y exact)) /\
  (bo_n_groups (fit y' exact), bo_n_never (fit y' exact), bo_groups (fit y' exact), bo_nobs (fit y' exact), bo_unbalanced (fit y' exact))
  = (bo_n_groups (fit y exact), bo_n_never (fit y exact), bo_groups (fit y exact), bo_nobs (fit y exact), bo_unbalanced (fit y exact)).
Proof. exact (bacon_unit_period_effects rows u t g exact m C s a b y y'). Qed.
Theorem C123_row_order rows' C exact y : Permutation rows rows' -> (forall i, In i rows -> g i = C (u i)) ->
  bacon_fit rows' u t g y exact = bacon_fit rows u t g y exact.
Proof. intros P HC. exact (bacon_row_order rows rows' u t g y C P HC exact). Qed.
Theorem C123_unit_labels (f : Z -> Z) exact y : (forall a b, f a = f b -> a = b) ->
  bacon_fit rows (fun i => f (u i)) t g y exact = bacon_fit rows u t g y exact.
Proof. intros Hf. exact (bacon_unit_labels rows u t g y f Hf exact). Qed.
End S.
Theorem C123_balanced_case exact s (a b : Z -> R) :
  let y' := fun i => s * exb_y i + (a (fst i) + b (snd i)) in
  bo_twfe (bacon_fit exb_rows fst snd (fun i => exb_coh (fst i)) y' exact) = s / 2 /\
  bo_error (bacon_fit exb_rows fst snd (fun i => exb_coh (fst i)) y' exact) = Fin (Rabs s / 14).
Proof. exact (exb_effects exact s a b). Qed.
Theorem C123_reversed_case exact y :
  bacon_fit (rev exb_rows) fst snd (fun i => exb_coh (fst i)) y exact = bacon_fit exb_rows fst snd (fun i => exb_coh (fst i)) y exact.
Proof. exact (exb_reversed exact y). Qed.
Theorem C123_unit_effects_unbalanced_refuted exact (y : Z * Z -> R) :
  let fit := fun y => bacon_fit ub_rows fst snd (fun i => ub_coh (fst i)) y exact in
  bo_unbalanced (fit y) = true /\
  map cmp_est (bo_comparisons (fit y)) = [Fin (y (1, 2)%Z - y (1, 1)%Z - (y (2, 2)%Z - (y (2, 1)%Z + y (3, 1)%Z) / 2))] /\
  map cmp_est (bo_comparisons (fit (fun i => y i + ub_shift i)))
  = [Fin (y (1, 2)%Z - y (1, 1)%Z - (y (2, 2)%Z - (y (2, 1)%Z + y (3, 1)%Z) / 2) + 1 / 2)].
Proof. exact (bacon_unit_effect_moves exact y). Qed.
Theorem C123_varying_cohort_order_refuted exact y :
  bo_n_never (bacon_fit mix_rows mixu mixt mixg y exact) = 1%nat /\
  bo_n_never (bacon_fit ((2, 2, 5)%Z :: [(1, 1, 2); (1, 2, 2); (2, 1, 0); (2, 1, 5); (2, 2, 0)]%Z) mixu mixt mixg y exact) = 0%nat /\
  Permutation mix_rows ((2, 2, 5)%Z :: [(1, 1, 2); (1, 2, 2); (2, 1, 0); (2, 1, 5); (2, 2, 0)]%Z).
Proof. exact (mixed_cohort_order exact y). Qed.
Print Assumptions C123_level_scale.
Print Assumptions C123_unit_period_effects.
Print Assumptions C123_row_order.
Print Assumptions C123_unit_labels.
Print Assumptions C123_balanced_case.
Print Assumptions C123_reversed_case.
Print Assumptions C123_unit_effects_unbalanced_refuted.
Print Assumptions C123_varying_cohort_order_refuted.

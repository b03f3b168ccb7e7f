(* Equivariance of the Goodman-Bacon decomposition: final statements and concrete panels. *)
From Verif Require Import Prelude Flt Linalg_model Did_model Within_proofs Multi_model Bacon_model Bacon_proofs Bacon_thms Bacon_equiv Bacon_rows.
From Coq Require Import Arith ZArith String List Permutation.
Import ListNotations.
Open Scope R_scope.

Section S.
Context {I : Type}.
Variables (rows : list I) (u t : I -> Z) (g : I -> coh).
Notation fit y exact := (bacon_fit rows u t g y exact).

Theorem bacon_level_scale exact s k (y y' : I -> R) :
  (forall i, In i rows -> y' i = s * y i + k) ->
  bo_twfe (fit y' exact) = s * bo_twfe (fit y exact) /\
  bo_comparisons (fit y' exact) = map (scale_cmp s) (bo_comparisons (fit y exact)) /\
  (forall ty, bo_weights (fit y' exact) ty = bo_weights (fit y exact) ty) /\
  (forall ty, bo_averages (fit y' exact) ty = option_map (fmul (Fin s)) (bo_averages (fit y exact) ty)) /\
  bo_error (fit y' exact) = fmul (Fin (Rabs s)) (bo_error (fit y exact)) /\
  (bo_n_groups (fit y' exact), bo_n_never (fit y' exact), bo_groups (fit y' exact), bo_nobs (fit y' exact), bo_unbalanced (fit y' exact))
  = (bo_n_groups (fit y exact), bo_n_never (fit y exact), bo_groups (fit y exact), bo_nobs (fit y exact), bo_unbalanced (fit y exact)).
Proof.
  intros H. apply fit_scaled.
  - intros c _. apply (est_affine rows u t g s k y y' c H).
  - apply btwfe_scaled. intros i Hi. apply (within_affine rows u t s k y y' i Hi H).
Qed.

Theorem bacon_unit_period_effects exact m C s (a b : Z -> R) (y y' : I -> R) :
  balanced Z.eq_dec Z.eq_dec rows u t m ->
  (forall i, In i rows -> g i = C (u i)) ->
  (forall i, In i rows -> c_never (g i) = true \/ exists z, (0 < z)%Z /\ g i = CFin z) ->
  (forall i, In i rows -> y' i = s * y i + (a (u i) + b (t i))) ->
  bo_twfe (fit y' exact) = s * bo_twfe (fit y exact) /\
  bo_comparisons (fit y' exact) = map (scale_cmp s) (bo_comparisons (fit y exact)) /\
  (forall ty, bo_weights (fit y' exact) ty = bo_weights (fit y exact) ty) /\
  (forall ty, bo_averages (fit y' exact) ty = option_map (fmul (Fin s)) (bo_averages (fit y exact) ty)) /\
  bo_error (fit y' exact) = fmul (Fin (Rabs s)) (bo_error (fit y exact)) /\
  (bo_n_groups (fit y' exact), bo_n_never (fit y' exact), bo_groups (fit y' exact), bo_nobs (fit y' exact), bo_unbalanced (fit y' exact))
  = (bo_n_groups (fit y exact), bo_n_never (fit y exact), bo_groups (fit y exact), bo_nobs (fit y exact), bo_unbalanced (fit y exact)).
Proof.
  intros Hb HC Hv H. apply fit_scaled.
  - intros c Hc. apply (est_effects rows u t g m C Hb HC Hv s a b y y' c H Hc).
  - apply btwfe_scaled. intros i Hi. apply (within_effects rows u t m Hb s a b y y' i Hi H).
Qed.
End S.

(* the three-unit panel of identity_refuted, with effects added *)
Theorem exb_effects exact s (a b : Z -> R) :
  let y' := fun i => s * exb_y i + (a (fst i) + b (snd i)) in
  bo_twfe (bacon_fit exb_rows fst snd (fun i => exb_coh (fst i)) y' exact) = s / 2 /\
  bo_error (bacon_fit exb_rows fst snd (fun i => exb_coh (fst i)) y' exact) = Fin (Rabs s / 14).
Proof.
  intros y'.
  destruct (bacon_unit_period_effects exb_rows fst snd (fun i => exb_coh (fst i)) exact 1 exb_coh s a b exb_y y' exb_balanced (fun _ _ => eq_refl) exb_valid (fun _ _ => eq_refl))
    as (E1 & _ & _ & _ & E2 & _).
  destruct (identity_refuted exact) as [T1 T2]. rewrite E1, E2, T1, T2. split; [field|]. cbn. f_equal. field.
Qed.

(* units 1 (treated from period 2) and 2, 3 (never treated); unit 3 is only seen in period 1 *)
Definition ub_rows : list (Z * Z) := [(1, 1); (1, 2); (2, 1); (2, 2); (3, 1)]%Z.
Definition ub_coh (a : Z) : coh := if Z.eqb a 1 then CFin 2 else CFin 0.
Definition ub_shift (i : Z * Z) : R := if Z.eqb (fst i) 3 then 1 else 0.
Theorem bacon_unit_effect_moves exact (y : Z * Z -> R) :
  let fit := fun y => bacon_fit ub_rows fst snd (fun i => ub_coh (fst i)) y exact in
  bo_unbalanced (fit y) = true /\
  map cmp_est (bo_comparisons (fit y)) = [Fin (y (1, 2)%Z - y (1, 1)%Z - (y (2, 2)%Z - (y (2, 1)%Z + y (3, 1)%Z) / 2))] /\
  map cmp_est (bo_comparisons (fit (fun i => y i + ub_shift i)))
  = [Fin (y (1, 2)%Z - y (1, 1)%Z - (y (2, 2)%Z - (y (2, 1)%Z + y (3, 1)%Z) / 2) + 1 / 2)].
Proof.
  intros fit.
  assert (N : forall l, map cmp_est (normalised l) = map cmp_est l).
  { intros l. unfold normalised. destruct (Rlt_dec 0 _); auto. rewrite map_map. reflexivity. }
  assert (E : forall z, map cmp_est (bo_comparisons (fit z)) = map cmp_est (comparisons0 ub_rows fst snd (fun i => ub_coh (fst i)) z)).
  { intros z. unfold fit. cbn [bacon_fit bo_comparisons]. rewrite N. unfold reweighted. destruct exact; [rewrite map_map|]; reflexivity. }
  rewrite !E. split; [reflexivity|].
  split; cbv -[Rplus Rmult Rinv Ropp IZR Rminus Rdiv INR meanf len ub_shift]; apply (f_equal (fun e => [Fin e])); unfold meanf, len, ub_shift; simpl; lra.
Qed.

(* row order: an instance with the rows reversed *)
Theorem exb_reversed exact y :
  bacon_fit (rev exb_rows) fst snd (fun i => exb_coh (fst i)) y exact = bacon_fit exb_rows fst snd (fun i => exb_coh (fst i)) y exact.
Proof. apply (bacon_row_order exb_rows (rev exb_rows) fst snd (fun i => exb_coh (fst i)) y exb_coh (Permutation_rev exb_rows)). reflexivity. Qed.

(* without one cohort per unit the answer can depend on the row order: unit 2 is coded never treated in some
   rows and 5 in the others; which of them comes first decides whether any never-treated unit is counted *)
Definition mix_rows : list (Z * Z * Z) := [(1, 1, 2); (1, 2, 2); (2, 1, 0); (2, 2, 5); (2, 1, 5); (2, 2, 0)]%Z.
Definition mixu (i : Z * Z * Z) : Z := fst (fst i).
Definition mixt (i : Z * Z * Z) : Z := snd (fst i).
Definition mixg (i : Z * Z * Z) : coh := CFin (snd i).
Theorem mixed_cohort_order exact y :
  bo_n_never (bacon_fit mix_rows mixu mixt mixg y exact) = 1%nat /\
  bo_n_never (bacon_fit ((2, 2, 5)%Z :: [(1, 1, 2); (1, 2, 2); (2, 1, 0); (2, 1, 5); (2, 2, 0)]%Z) mixu mixt mixg y exact) = 0%nat /\
  Permutation mix_rows ((2, 2, 5)%Z :: [(1, 1, 2); (1, 2, 2); (2, 1, 0); (2, 1, 5); (2, 2, 0)]%Z).
Proof.
  split; [reflexivity|]. split; [reflexivity|].
  symmetry. apply (Permutation_middle [(1, 1, 2); (1, 2, 2); (2, 1, 0)]%Z [(2, 1, 5); (2, 2, 0)]%Z).
Qed.

(* Properties of the compiled extension (rust/src/linalg.rs, rust/src/trop.rs) and of the routing to it. *)
From Verif Require Import Prelude Flt Linalg_model Linalg_proofs Linalg_vcov Linalg_minnorm Rust_ols Rust_ols_proofs Rust_ols_thms.
From Verif Require Import Stats_model Stats_proofs Multi_model Trop_model Trop_proofs Trop_thms Trop_conv Trop_obj Trop_sel Trop_ex Trop_rust Trop_rust_proofs Trop_rust_thms.
From Coq Require Import Arith ZArith String List.
Import ListNotations.
Open Scope R_scope.

(* C99 *)
Section C99.
Context {I K : Type} (eqd : forall x y : K, {x = y} + {x <> y}).
Variable qr_dropped : list I -> list (I -> R) -> list nat.
Variable lstsq : list I -> list (I -> R) -> (I -> R) -> list R.
Variable inv : list I -> list (I -> R) -> option (nat -> nat -> R).
Variable thin_svd : list I -> list (I -> R) -> option (svd_val I).
Variable rinv : list I -> list (I -> R) -> option (nat -> nat -> R).
Hypothesis Hinv : inv_ok inv.
Hypothesis Hrinv : forall rows cols B, rinv rows cols = Some B -> is_inverse rows cols B.
Theorem C99_backends rows cols y cluster return_vcov action d d' :
  thin_svd rows cols = Some d -> is_svd rows cols d ->
  is_svd rows cols d' -> lstsq rows cols y = svd_solve d' rows cols y ->
  (0 < length cols)%nat ->
  same_res rows (length cols)
    (solve_ols_ext eqd qr_dropped lstsq inv thin_svd rinv false rows cols y cluster return_vcov action)
    (solve_ols eqd qr_dropped lstsq inv rows cols y cluster return_vcov action).
Proof. eapply ext_agrees; eauto. Qed.
Theorem C99_skip_dependent_refuted rows cols y cluster action act d d' :
  thin_svd rows cols = Some d -> is_svd rows cols d -> is_svd rows cols d' -> lstsq rows cols y = svd_solve d' rows cols y ->
  (0 < length cols)%nat -> (length cols <= length rows)%nat -> parse_action action = Some act ->
  (length (s_kept d) < length cols)%nat -> ~ indep rows cols -> length rows <> length cols -> cluster = None ->
  (exists o, solve_ols_ext eqd qr_dropped lstsq inv thin_svd rinv true rows cols y cluster true action = Ok o
     /\ (forall x, In x (o_coef o) -> exists r, x = Fin r) /\ o_warned o = false
     /\ exists V, o_vcov o = Some V /\ forall a c, V a c = NaN)
  /\ solve_ols eqd (fun _ _ => []) lstsq inv rows cols y cluster true action = Err ValueError.
Proof. eapply skip_differs; eauto. Qed.
Theorem C99_skip_square_refuted rows cols y cluster action act d B :
  thin_svd rows cols = Some d -> is_svd rows cols d -> rinv rows cols = Some B ->
  (0 < length cols)%nat -> length rows = length cols -> parse_action action = Some act ->
  length (s_kept d) = length cols -> cluster = None ->
  (exists o V, solve_ols_ext eqd qr_dropped lstsq inv thin_svd rinv true rows cols y cluster true action = Ok o
     /\ o_vcov o = Some V /\ forall a c, V a c = NaN)
  /\ solve_ols eqd (fun _ _ => []) lstsq inv rows cols y cluster true action = Err ZeroDivisionError.
Proof. eapply skip_square; eauto. Qed.
End C99.
Theorem C99_case y : is_svd t_rows t_cols t_svd /\ inv_ok (@gs_inv nat) /\ t_thin t_rows t_cols = Some t_svd /\ (0 < length t_cols)%nat
  /\ (fun _ _ f => svd_solve t_svd t_rows t_cols f) t_rows t_cols y = svd_solve t_svd t_rows t_cols y.
Proof. eapply route_case; eauto. Qed.
Theorem C99_skip_case : is_svd t_rows [z_c1; z_c2] z_svd /\ (length (s_kept z_svd) < 2)%nat /\ exact_cut z_svd /\ ~ indep t_rows [z_c1; z_c2].
Proof. eapply skip_case; eauto. Qed.
(* C100 *)
Section C100.
Context {I : Type}.
Implicit Types (rows : list I) (cols : list (I -> R)) (y : I -> R) (d : svd_val I).
Theorem C100_fitted d rows cols y i : is_svd rows cols d -> In i rows ->
  lc cols (svd_solve d rows cols y) i = sumf (fun l => ip rows (d_u d l) y * d_u d l i) (s_kept d).
Proof. eapply svd_fit; eauto. Qed.
Theorem C100_gradient d rows cols y j : is_svd rows cols d -> (j < length cols)%nat ->
  ip rows (colx cols j) (fun i => y i - lc cols (svd_solve d rows cols y) i)
  = sumf (fun l => d_s d l * d_v d l j * ip rows (d_u d l) y) (s_dropped d).
Proof. eapply svd_gradient; eauto. Qed.
Theorem C100_minimum_norm d rows cols y : is_svd rows cols d -> exact_cut d -> is_mn rows cols y (svd_solve d rows cols y).
Proof. eapply svd_solve_mn; eauto. Qed.
Theorem C100_truncated d rows cols y : is_svd rows cols d -> is_mn rows (cut_cols d cols) y (svd_solve d rows cols y).
Proof. eapply svd_solve_cut; eauto. Qed.
Theorem C100_unique d d' rows cols y : is_svd rows cols d -> is_svd rows cols d' -> (length cols <= length rows)%nat ->
  svd_solve d rows cols y = svd_solve d' rows cols y.
Proof. eapply svd_solve_unique; eauto. Qed.
Theorem C100_square d rows cols y i : is_svd rows cols d -> length rows = length cols -> Nat.ltb (length (s_kept d)) (length cols) = false -> In i rows ->
  lc cols (svd_solve d rows cols y) i = y i.
Proof. eapply square_fit; eauto. Qed.
End C100.
Theorem C100_tolerance_refuted {K} (eqd : forall x y : K, {x = y} + {x <> y}) qr_dropped lstsq inv thin_svd rinv action act Q Rm pivot :
  is_pqr t_rows t_cols Q Rm pivot -> (pivot = [0; 1] \/ pivot = [1; 0])%nat ->
  qr_dropped t_rows t_cols = qr_cut 2 [Rm O O; Rm 1%nat 1%nat] pivot ->
  lstsq t_rows t_cols t_y = svd_solve t_svd t_rows t_cols t_y -> thin_svd t_rows t_cols = Some t_svd ->
  parse_action action = Some act ->
  indep t_rows t_cols /\ is_ls t_rows t_cols t_y [1; 1] /\ ~ is_ls t_rows t_cols t_y [21/25; 28/25] /\
  (exists o, solve_ols eqd qr_dropped lstsq inv t_rows t_cols t_y None false action = Ok o
     /\ o_coef o = [Fin (21/25); Fin (28/25)] /\ o_warned o = false) /\
  (exists o, solve_ols_ext eqd qr_dropped lstsq inv thin_svd rinv false t_rows t_cols t_y None false action = Ok o
     /\ o_coef o = [Fin (21/25); Fin (28/25)] /\ o_warned o = false).
Proof. eapply tolerance_gap; eauto. Qed.
Theorem C100_factor_case : is_pqr t_rows t_cols t_Q t_R [0; 1]%nat.
Proof. eapply t_pqr_ex; eauto. Qed.
(* C101 *)
Theorem C101_distance T Y D j i : r_dist_all T Y D j i = dist_all T Y D j i.
Proof. eapply r_dist_all_eq; eauto. Qed.
Theorem C101_distance_obs T Y D j i t : r_dist_obs T Y D j i t = dist_obs T Y D j i t.
Proof. eapply r_dist_obs_eq; eauto. Qed.
Theorem C101_weights T N Y D lt lu i t s j : (0 < T)%nat -> (i < N)%nat -> D t j = 0%Z ->
  r_w T N Y D lt lu i t s j = w_scale T N Y D lt lu i t * obs_w (Some (Y, D)) T Y D lt lu i t s j.
Proof. eapply r_w_prop; eauto. Qed.
Theorem C101_fit svd T N Y D lt lu h maxit tol ex t i M : svd_ok svd -> (t < T)%nat -> (i < N)%nat ->
  (forall j, (j < N)%nat -> D t j = 0%Z) -> 0 <= M -> (forall s j, (s < T)%nat -> (j < N)%nat -> Rabs (ysafe Y s j) <= M) ->
  0 < h -> INR T * INR N * ((4 * INR maxit * M) * (4 * INR maxit * M)) <= h * h ->
  r_fit_at svd T N Y D lt lu h maxit tol ex (t, i) = fit_at svd (Some (Y, D)) T N Y D lt lu (Some h) maxit tol ex (t, i).
Proof. eapply r_fit_agrees; eauto. Qed.
Theorem C101_treated_weight_refuted T N Y D lt i t s j : (0 < T)%nat -> (i < N)%nat -> j <> i -> D t j = 1%Z ->
  obs_w (Some (Y, D)) T Y D lt 0 i t s j = 0 /\ 0 < r_w T N Y D lt 0 i t s j.
Proof. eapply r_w_treated; eauto. Qed.
Theorem C101_score_refuted svd sub rsub odd : svd_ok svd ->
  fst (tune svd sub odd ccfg 3 2 cY xD) = fst (r_tune svd sub rsub odd ccfg 3 2 cY xD) /\
  snd (tune svd sub odd ccfg 3 2 cY xD) = Fin 125 /\ snd (r_tune svd sub rsub odd ccfg 3 2 cY xD) = Fin 0.
Proof. eapply score_backends; eauto. Qed.
Theorem C101_fit_python tol : 0 < tol <= 1/10 ->
  fit_at svd_top (Some (pY2, pD2)) 2 2 pY2 pD2 0 0 (Some (sqrt 2 / 2)) 2 tol ex11 (1, 1)%nat = Fin (11/4).
Proof. eapply p_python; eauto. Qed.
Theorem C101_fit_rust_refuted tol : 0 < tol <= 1/10 ->
  r_fit_at svd_top 2 2 pY2 pD2 0 0 (sqrt 2 / 2) 2 tol ex11 (1, 1)%nat = Fin (7/2).
Proof. eapply p_rust; eauto. Qed.
Theorem C101_undefined_se_refuted x : r_boot_se [] = NaN /\ r_boot_se [x] = NaN /\ boot_se [] = Fin 0.
Proof. eapply r_se_undefined; eauto. Qed.
(* C102 *)
Theorem C102_total T N Y D lt lu i t : (0 < T)%nat -> (i < N)%nat ->
  sumf (fun s => sumf (fun j => r_w T N Y D lt lu i t s j) (seq 0 N)) (seq 0 T) = 1.
Proof. eapply r_w_total; eauto. Qed.
Theorem C102_nonneg T N Y D lt lu i t s j : (0 < T)%nat -> (i < N)%nat -> 0 <= r_w T N Y D lt lu i t s j.
Proof. eapply r_w_nonneg; eauto. Qed.
Theorem C102_le_one T N Y D lt lu i t s j : (i < N)%nat -> (s < T)%nat -> (j < N)%nat -> r_w T N Y D lt lu i t s j <= 1.
Proof. eapply r_w_le1; eauto. Qed.
Theorem C102_scale svd T N W Yz h tol c k s : 0 < c -> 0 < wmax T N W ->
  r_loop svd T N (fun t i => c * W t i) Yz (c * h) tol k s = r_loop svd T N W Yz h tol k s.
Proof. eapply r_loop_scal; eauto. Qed.
(* C103 *)
Theorem C103_fit svd T N Y D e lt lu h maxit tol ex c :
  r_fit_at svd T N (add_effect Y D e) D lt lu h maxit tol ex c =
  (if (D (fst c) (snd c) =? 1)%Z then fadd (r_fit_at svd T N Y D lt lu h maxit tol ex c) (Fin (e (fst c) (snd c)))
   else r_fit_at svd T N Y D lt lu h maxit tol ex c).
Proof. eapply r_fit_at_add; eauto. Qed.
Theorem C103_tune svd sub rsub odd cfg T N Y D e : sub_ok sub -> sub_ok rsub ->
  r_tune svd sub rsub odd cfg T N (add_effect Y D e) D = r_tune svd sub rsub odd cfg T N Y D.
Proof. eapply r_tune_add; eauto. Qed.
Theorem C103_replicates svd T Y D d lt lu h maxit tol draws :
  r_boot_reps svd T (add_effect Y D (fun _ _ => d)) D lt lu h maxit tol draws = map (fshift d) (r_boot_reps svd T Y D lt lu h maxit tol draws).
Proof. eapply r_boot_reps_add; eauto. Qed.
Theorem C103_se d l : r_boot_se (map (fshift d) l) = r_boot_se l.
Proof. eapply r_boot_se_shift; eauto. Qed.
Theorem C103_dispatch svd T Y D d lt lu h maxit tol name rdraws draws :
  fst (boot_dispatch svd T (add_effect Y D (fun _ _ => d)) D lt lu h maxit tol name rdraws draws) =
  fst (boot_dispatch svd T Y D lt lu h maxit tol name rdraws draws).
Proof. eapply dispatch_add; eauto. Qed.
(* C104 *)
Theorem C104_tuning svd sub rsub odd cfg T N Y D : tc_gt cfg <> [] -> tc_gu cfg <> [] -> tc_gn cfg <> [] ->
  loocv_obs rsub (tc_maxs cfg) (control_obs T N Y D) <> [] ->
  let '(lt, lu, ln) := fst (r_tune svd sub rsub odd cfg T N Y D) in
  In lt (tc_gt cfg) /\ In lu (tc_gu cfg) /\ In ln (tc_gn cfg) /\
  snd (r_tune svd sub rsub odd cfg T N Y D) =
    Fin (sumf (fun c => fsq (r_fit_at svd T N Y D (conv_w lt) (conv_w lu) (conv_nn ln) (tc_maxit cfg) (tc_tol cfg) (Some c) c))
              (loocv_obs rsub (tc_maxs cfg) (control_obs T N Y D))).
Proof. eapply r_tune_ok; eauto. Qed.
Print Assumptions C99_backends.
Print Assumptions C99_skip_dependent_refuted.
Print Assumptions C99_skip_square_refuted.
Print Assumptions C99_case.
Print Assumptions C99_skip_case.
Print Assumptions C100_fitted.
Print Assumptions C100_gradient.
Print Assumptions C100_minimum_norm.
Print Assumptions C100_truncated.
Print Assumptions C100_unique.
Print Assumptions C100_square.
Print Assumptions C100_tolerance_refuted.
Print Assumptions C100_factor_case.
Print Assumptions C101_distance.
Print Assumptions C101_distance_obs.
Print Assumptions C101_weights.
Print Assumptions C101_fit.
Print Assumptions C101_treated_weight_refuted.
Print Assumptions C101_score_refuted.
Print Assumptions C101_fit_python.
Print Assumptions C101_fit_rust_refuted.
Print Assumptions C101_undefined_se_refuted.
Print Assumptions C102_total.
Print Assumptions C102_nonneg.
Print Assumptions C102_le_one.
Print Assumptions C102_scale.
Print Assumptions C103_fit.
Print Assumptions C103_tune.
Print Assumptions C103_replicates.
Print Assumptions C103_se.
Print Assumptions C103_dispatch.
Print Assumptions C104_tuning.

(* Properties of the regression layer (linalg.py): statements only. *)
From Verif Require Import Prelude Flt Linalg_model Linalg_proofs Linalg_vcov Linalg_thms.
From Coq Require Import Arith ZArith String List.
Import ListNotations.
Open Scope R_scope.

Section P.
Context {I K : Type} (keq : forall x y : K, {x = y} + {x <> y}).
Variable qr : list I -> list (I -> R) -> list nat.
Variable lstsq : list I -> list (I -> R) -> (I -> R) -> list R.
Variable inv : list I -> list (I -> R) -> option (nat -> nat -> R).
Hypothesis Hqr : qr_ok qr.
Hypothesis Hls : lstsq_ok lstsq.
Hypothesis Hinv : inv_ok inv.
Notation solve := (solve_ols keq qr lstsq inv).

(* C05: the returned fit is the projection on the space of all supplied columns *)
Theorem C05_fit_is_projection rows cols y cluster rv action o :
  solve rows cols y cluster rv action = Ok o ->
  (forall c, In c cols -> sumf (fun i => c i * o_resid o i) rows = 0) /\
  (forall b', is_ls rows cols y b' -> forall i, In i rows -> o_fitted o i = lc cols b' i) /\
  (forall i, o_resid o i = y i - o_fitted o i).
Proof. exact (solve_ols_projection keq qr lstsq inv Hqr Hls rows cols y cluster rv action o). Qed.

Theorem C05_nan_exactly_at_dropped rows cols y cluster rv action o :
  solve rows cols y cluster rv action = Ok o ->
  length (o_coef o) = length cols /\
  (forall j, (j < length cols)%nat -> (nth j (o_coef o) NaN = NaN <-> In j (qr rows cols))) /\
  (forall W, o_vcov o = Some W -> forall a c, (a < length cols)%nat -> (c < length cols)%nat ->
     (W a c = NaN <-> In a (qr rows cols) \/ In c (qr rows cols))).
Proof. exact (solve_ols_nan_exactly_dropped keq qr lstsq inv Hls rows cols y cluster rv action o). Qed.

Theorem C05_predict_is_fitted rows cols y cluster rv action o :
  solve rows cols y cluster rv action = Ok o ->
  forall i, predict cols (o_coef o) i = o_fitted o i.
Proof. exact (solve_ols_predict keq qr lstsq inv Hls rows cols y cluster rv action o). Qed.

Theorem C05_error_action rows cols y cluster rv :
  qr rows cols <> [] -> solve rows cols y cluster rv "error" = Err ValueError.
Proof. exact (solve_ols_error_action keq qr lstsq inv rows cols y cluster rv). Qed.

Theorem C05_warns_iff rows cols y cluster rv action o :
  solve rows cols y cluster rv action = Ok o ->
  (o_warned o = true <-> qr rows cols <> [] /\ action = "warn"%string).
Proof. exact (solve_ols_warns keq qr lstsq inv Hls rows cols y cluster rv action o). Qed.

Theorem C05_warn_and_silent_agree rows cols y cluster rv o o' :
  solve rows cols y cluster rv "warn" = Ok o -> solve rows cols y cluster rv "silent" = Ok o' ->
  o_coef o = o_coef o' /\ (forall i, o_fitted o i = o_fitted o' i) /\
  (forall i, o_resid o i = o_resid o' i) /\ o_vcov o = o_vcov o'.
Proof. exact (solve_ols_warn_silent keq qr lstsq inv rows cols y cluster rv o o'). Qed.

Theorem C05_full_rank_unique rows cols y cluster rv action o :
  indep rows cols -> solve rows cols y cluster rv action = Ok o ->
  exists b, o_coef o = map Fin b /\ length b = length cols /\
    (forall b', is_ls rows cols y b' <-> b' = b).
Proof. exact (solve_ols_full_rank keq qr lstsq inv Hqr Hls rows cols y cluster rv action o). Qed.

(* when the solver returns (coefficients only): a design that vanishes on the rows is the one rank-deficient case without an answer *)
Theorem C05_returns_exactly rows cols y cluster action :
  is_ok (solve rows cols y cluster false action) = true <->
  (length cols <= length rows)%nat /\
  ((action = "warn" \/ action = "silent")%string /\ (cols = [] \/ exists c i, In c cols /\ In i rows /\ c i <> 0) \/
   (action = "error"%string /\ qr rows cols = [])).
Proof. exact (solve_ols_returns keq qr lstsq inv Hqr rows cols y cluster action). Qed.
Theorem C05_zero_design_refuted rows cols y cluster rv action :
  (length cols <= length rows)%nat -> cols <> [] -> (action = "warn" \/ action = "silent")%string ->
  (forall c i, In c cols -> In i rows -> c i = 0) ->
  solve rows cols y cluster rv action = Err IndexError.
Proof. exact (solve_ols_zero_design keq qr lstsq inv Hqr rows cols y cluster rv action). Qed.

(* C06 *)
Theorem C06_symmetric rows cols e (cluster : option (I -> K)) V :
  robust_vcov keq inv rows cols e cluster = Ok V -> forall j m, V j m = V m j.
Proof. exact (robust_vcov_sym keq inv Hinv rows cols e cluster V). Qed.

Theorem C06_positive_semidefinite rows cols e (cluster : option (I -> K)) V :
  (length cols <= length rows)%nat ->
  robust_vcov keq inv rows cols e cluster = Ok V ->
  forall w : nat -> R,
  0 <= sumf (fun j => sumf (fun m => w j * V j m * w m) (seq 0 (length cols))) (seq 0 (length cols)).
Proof. exact (robust_vcov_psd keq inv Hinv rows cols e cluster V). Qed.

Theorem C06_one_cluster_per_row_is_hc1 rows cols e (cl : I -> K) V Vc :
  NoDup (map cl rows) ->
  robust_vcov keq inv rows cols e (Some cl) = Ok Vc ->
  robust_vcov (K := K) keq inv rows cols e None = Ok V ->
  forall j m, (j < length cols)%nat -> (m < length cols)%nat -> Vc j m = V j m.
Proof. exact (unique_clusters_hc1 keq inv Hinv rows cols e cl V Vc). Qed.

Theorem C06_one_cluster_per_row_defined rows cols e (cl : I -> K) V :
  NoDup (map cl rows) -> (2 <= length rows)%nat ->
  robust_vcov (K := K) keq inv rows cols e None = Ok V ->
  exists Vc, robust_vcov keq inv rows cols e (Some cl) = Ok Vc.
Proof. exact (unique_clusters_ok keq inv rows cols e cl V). Qed.

(* C03 at the level of the variance matrix *)
Theorem C03_vcov_row_order r1 r2 cols e (cluster : option (I -> K)) V1 V2 :
  Permutation r1 r2 ->
  robust_vcov keq inv r1 cols e cluster = Ok V1 -> robust_vcov keq inv r2 cols e cluster = Ok V2 ->
  forall j m, (j < length cols)%nat -> (m < length cols)%nat -> V1 j m = V2 j m.
Proof. exact (robust_vcov_perm keq inv Hinv r1 r2 cols e cluster V1 V2). Qed.
End P.

Theorem C03_vcov_cluster_labels {I K L} (eqK : forall x y : K, {x = y} + {x <> y}) (eqL : forall x y : L, {x = y} + {x <> y})
  (inv : list I -> list (I -> R) -> option (nat -> nat -> R)) rows cols e (cl : I -> K) (f : K -> L) :
  (forall x y, In x (map cl rows) -> In y (map cl rows) -> f x = f y -> x = y) ->
  match robust_vcov eqK inv rows cols e (Some cl), robust_vcov eqL inv rows cols e (Some (fun i => f (cl i))) with
  | Ok V, Ok V' => forall j m, (j < length cols)%nat -> (m < length cols)%nat -> V' j m = V j m
  | Err x, Err x' => x = x'
  | _, _ => False
  end.
Proof. exact (robust_vcov_relabel eqK eqL inv rows cols e cl f). Qed.

(* C11 *)
Theorem C11_between_0_and_1 {I} (rows : list I) cols y b n_params :
  is_ls rows cols y b -> span rows cols (fun _ => 1) ->
  0 <= r_squared rows y (fun i => y i - lc cols b i) false n_params <= 1.
Proof. exact (r_squared_bounds rows cols y b n_params). Qed.

Theorem C11_more_columns_never_lower {I} (rows : list I) cols extra y b b' n n' :
  is_ls rows cols y b -> is_ls rows (cols ++ extra) y b' ->
  r_squared rows y (fun i => y i - lc cols b i) false n
  <= r_squared rows y (fun i => y i - lc (cols ++ extra) b' i) false n'.
Proof. exact (r_squared_monotone rows cols extra y b b' n n'). Qed.

Theorem C11_affine_invariant {I} (rows : list I) y e s c adjusted n :
  s <> 0 -> rows <> [] ->
  r_squared rows (fun i => s * y i + c) (fun i => s * e i) adjusted n = r_squared rows y e adjusted n.
Proof. exact (r_squared_affine rows y e s c adjusted n). Qed.

Theorem C11_adjusted_not_above {I} (rows : list I) y e n :
  (1 <= n)%nat -> r_squared rows y e true n <= r_squared rows y e false n.
Proof. exact (r_squared_adjusted_le rows y e n). Qed.

(* C04 *)
Section Inf.
Variable sf : option Z -> fl -> fl.
Variable ppf : option Z -> R -> R.
Hypothesis Hd : dist_ok sf ppf.

Theorem C04_inference_coherent b v alpha_arg df_arg self_alpha self_df :
  0 < v ->
  let alpha := match alpha_arg with Some a => a | None => self_alpha end in
  0 < alpha < 1 ->
  let r := get_inference sf ppf (Fin b) (Fin v) alpha_arg df_arg self_alpha self_df in
  exists se t p lo hi,
    i_coef r = Fin b /\ i_se r = Fin se /\ i_t r = Fin t /\ i_p r = Fin p /\ i_ci r = (Fin lo, Fin hi) /\
    0 < se /\ se * se = v /\ t = b / se /\ 0 < p <= 1 /\
    lo < b < hi /\ b - lo = hi - b /\
    (p < alpha <-> (hi < 0 \/ 0 < lo)) /\
    (is_significant r None = true <-> (hi < 0 \/ 0 < lo)).
Proof. exact (inference_coherent sf ppf Hd b v alpha_arg df_arg self_alpha self_df). Qed.

Theorem C04_nan_propagates coef v alpha_arg df_arg self_alpha self_df :
  coef = NaN \/ v = NaN \/ (exists x, v = Fin x /\ x < 0) ->
  (coef = NaN -> v = NaN \/ exists x, v = Fin x /\ x <> 0) ->
  let r := get_inference sf ppf coef v alpha_arg df_arg self_alpha self_df in
  i_t r = NaN /\ i_p r = NaN /\ i_ci r = (NaN, NaN) /\
  (forall a, is_significant r a = false) /\ stars_inference (i_p r) = ""%string.
Proof. exact (inference_nan sf ppf Hd coef v alpha_arg df_arg self_alpha self_df). Qed.

Theorem C04_zero_se b alpha_arg df_arg self_alpha self_df :
  let r := get_inference sf ppf (Fin b) (Fin 0) alpha_arg df_arg self_alpha self_df in
  (b <> 0 -> i_p r = Fin 0 /\ i_ci r = (Fin b, Fin b) /\ (b > 0 -> i_t r = PInf) /\ (b < 0 -> i_t r = NInf)) /\
  (b = 0 -> i_p r = Fin 1 /\ i_t r = Fin 0 /\ i_ci r = (Fin 0, Fin 0)).
Proof. exact (inference_zero_se sf ppf Hd b alpha_arg df_arg self_alpha self_df). Qed.
End Inf.

(* the hypotheses about the external routines have a model *)
Example oracles_exist {I} : qr_ok (@gs_dropped I) /\ lstsq_ok (@gs I) /\ inv_ok (@gs_inv I) /\ dist_ok toy_sf toy_ppf.
Proof. exact (conj gs_dropped_ok (conj gs_ok (conj gs_inv_ok toy_dist_ok))). Qed.

Print Assumptions C05_fit_is_projection.
Print Assumptions C05_nan_exactly_at_dropped.
Print Assumptions C05_predict_is_fitted.
Print Assumptions C05_error_action.
Print Assumptions C05_warns_iff.
Print Assumptions C05_warn_and_silent_agree.
Print Assumptions C05_full_rank_unique.
Print Assumptions C05_returns_exactly.
Print Assumptions C05_zero_design_refuted.
Print Assumptions C06_symmetric.
Print Assumptions C06_positive_semidefinite.
Print Assumptions C06_one_cluster_per_row_is_hc1.
Print Assumptions C06_one_cluster_per_row_defined.
Print Assumptions C03_vcov_row_order.
Print Assumptions C03_vcov_cluster_labels.
Print Assumptions C11_between_0_and_1.
Print Assumptions C11_more_columns_never_lower.
Print Assumptions C11_affine_invariant.
Print Assumptions C11_adjusted_not_above.
Print Assumptions C04_inference_coherent.
Print Assumptions C04_nan_propagates.
Print Assumptions C04_zero_se.

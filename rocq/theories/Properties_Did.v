(* Properties of DifferenceInDifferences.fit: statements only. *)
From Verif Require Import Prelude Flt Linalg_model Linalg_proofs Linalg_vcov Linalg_thms Did_model Did_spec Did_proofs Did_equiv Did_more.
From Coq Require Import Arith ZArith String List.
Import ListNotations.
Open Scope R_scope.

Section P.
Context {I K G : Type} (keq : forall x y : K, {x = y} + {x <> y}) (geq : forall x y : G, {x = y} + {x <> y}).
Variable qr : list I -> list (I -> R) -> list nat.
Variable lstsq : list I -> list (I -> R) -> (I -> R) -> list R.
Variable inv : list I -> list (I -> R) -> option (nat -> nat -> R).
Variable pinv : list I -> list (I -> R) -> nat -> nat -> R.
Variable sf : option Z -> fl -> fl.
Variable ppf : option Z -> R -> R.
Hypothesis Hqr : qr_ok qr.
Hypothesis Hls : lstsq_ok lstsq.
Hypothesis Hinv : inv_ok inv.
Notation fit := (did_fit keq geq qr lstsq inv pinv sf ppf).

(* C01 *)
Theorem C01_att_is_difference_of_cell_means cfg rows y d t r :
  fit cfg rows y d t [] [] [] = Ok r ->
  four_cells rows (fR d) (fR t) ->
  r_att r = Fin (did_of_means rows (fR d) (fR t) (fR y)).
Proof. exact (did_att_is_did_of_means keq geq qr lstsq inv pinv sf ppf Hqr Hls cfg rows y d t r). Qed.

Theorem C01_with_covariates cfg rows y d t covs dums r :
  fit cfg rows y d t covs dums [] = Ok r ->
  four_cells rows (fR d) (fR t) ->
  let extra := map (fun c => fR c) covs ++ dums in
  let gamma := map nan_to_zero (skipn 4 (r_coef r)) in
  nan_to_zero (r_att r)
  = did_of_means rows (fR d) (fR t) (fun i => toR (y i) - lc extra gamma i).
Proof. exact (did_att_adjusted_means keq geq qr lstsq inv pinv sf ppf Hqr Hls cfg rows y d t covs dums r). Qed.

Theorem C01_hc1_se cfg rows y d t r :
  fit cfg rows y d t [] [] [] = Ok r ->
  c_robust cfg = true -> c_cluster cfg = None ->
  four_cells rows (fR d) (fR t) ->
  r_se r = Fin (sqrt (did_hc1 rows (fR d) (fR t) (fR y))) /\ 0 <= did_hc1 rows (fR d) (fR t) (fR y).
Proof. exact (did_hc1_se keq geq qr lstsq inv pinv sf ppf Hqr Hls Hinv cfg rows y d t r). Qed.

(* C02 *)
Theorem C02_saturated_shift cfg rows y d t s c0 c1 c2 c3 r r' :
  let y' := fun i => Fin (s * toR (y i) + (c0 + c1 * toR (d i) + c2 * toR (t i) + c3 * (toR (d i) * toR (t i)))) in
  four_cells rows (fR d) (fR t) ->
  fit cfg rows y d t [] [] [] = Ok r -> fit cfg rows y' d t [] [] [] = Ok r' ->
  (exists a, r_att r = Fin a /\ r_att r' = Fin (s * a + c3)) /\
  (c_robust cfg = true -> c_cluster cfg = None ->
     exists se, r_se r = Fin se /\ r_se r' = Fin (Rabs s * se)).
Proof. exact (did_saturated_shift keq geq qr lstsq inv pinv sf ppf Hqr Hls Hinv cfg rows y d t s c0 c1 c2 c3 r r'). Qed.

Theorem C02_affine_equivariance cfg rows y d t covs dums r s c :
  s <> 0 ->
  (c_robust cfg = true \/ c_cluster cfg <> None) ->
  (c = 0 \/ ~ In O (qr rows (did_design (fR d) (fR t) (map (fun c => fR c) covs ++ dums)))) ->
  fit cfg rows y d t covs dums [] = Ok r ->
  exists r', fit cfg rows (fun i => fadd (fmul (Fin s) (y i)) (Fin c)) d t covs dums [] = Ok r' /\
    r_att r' = fmul (Fin s) (r_att r) /\
    r_se r' = fmul (Fin (Rabs s)) (r_se r) /\
    r_p r' = r_p r /\ r_signif r' = r_signif r /\ r_r2 r' = r_r2 r /\
    (0 < s -> r_t r' = r_t r /\ r_ci r' = fscale s (r_ci r)) /\
    (s < 0 -> r_t r' = fneg (r_t r) /\ r_ci r' = fswap (fscale s (r_ci r))).
Proof. exact (did_affine_equivariance keq geq qr lstsq inv pinv sf ppf Hqr Hls Hinv cfg rows y d t covs dums r s c). Qed.

(* C03 *)
Theorem C03_row_order cfg r1 r2 y d t covs dums a b :
  Permutation r1 r2 ->
  indep r1 (did_design (fR d) (fR t) (map (fun c => fR c) covs ++ dums)) ->
  (c_robust cfg = true \/ c_cluster cfg <> None) ->
  fit cfg r1 y d t covs dums [] = Ok a -> fit cfg r2 y d t covs dums [] = Ok b ->
  r_att a = r_att b /\ r_coef a = r_coef b /\ r_se a = r_se b /\ r_t a = r_t b /\ r_p a = r_p b /\
  r_ci a = r_ci b /\ r_signif a = r_signif b /\ r_n_obs a = r_n_obs b /\ r_r2 a = r_r2 b.
Proof. exact (did_row_order keq geq qr lstsq inv pinv sf ppf Hqr Hls Hinv cfg r1 r2 y d t covs dums a b). Qed.

(* C04 *)
Theorem C04_did_result_coherent cfg rows y d t covs dums absorb r b v :
  dist_ok sf ppf ->
  fit cfg rows y d t covs dums absorb = Ok r ->
  r_att r = Fin b -> r_vcov r 3%nat 3%nat = Fin v -> 0 < v -> 0 < c_alpha cfg < 1 ->
  exists se lo hi p,
    r_se r = Fin se /\ se = sqrt v /\ r_t r = Fin (b / se) /\ r_p r = Fin p /\ r_ci r = (Fin lo, Fin hi) /\
    0 < p <= 1 /\ lo < b < hi /\ b - lo = hi - b /\
    (r_signif r = true <-> p < c_alpha cfg) /\
    (r_signif r = true <-> (hi < 0 \/ 0 < lo)).
Proof. exact (did_result_coherent keq geq qr lstsq inv pinv sf ppf cfg rows y d t covs dums absorb r b v). Qed.

(* C07: the true part *)
Theorem C07_variance_exists_partial cfg rows (y d t : I -> fl) :
  finite_col rows y -> finite_col rows d -> finite_col rows t ->
  zero_one rows (fR d) -> zero_one rows (fR t) -> four_cells rows (fR d) (fR t) ->
  (4 < length rows)%nat ->
  parse_action (c_action cfg) <> None ->
  (forall cl, c_cluster cfg = Some cl -> (2 <= length (cl_keys keq rows cl))%nat) ->
  exists r se, fit cfg rows y d t [] [] [] = Ok r /\ r_se r = Fin se /\ 0 <= se.
Proof. exact (did_fit_defined keq geq qr lstsq inv pinv sf ppf Hqr Hls Hinv cfg rows y d t). Qed.

(* ... and the boundary at which it fails for every data set *)
Theorem C07_n_equals_k_raises cfg rows (y d t : I -> fl) :
  finite_col rows y -> finite_col rows d -> finite_col rows t ->
  zero_one rows (fR d) -> zero_one rows (fR t) -> four_cells rows (fR d) (fR t) ->
  length rows = 4%nat -> parse_action (c_action cfg) <> None ->
  c_robust cfg = true -> c_cluster cfg = None ->
  fit cfg rows y d t [] [] [] = Err ZeroDivisionError.
Proof. exact (did_fit_n_equals_k keq geq qr lstsq inv pinv sf ppf Hqr cfg rows y d t). Qed.

(* C51 *)
Theorem C51_no_treated_post_is_nan cfg rows y d t covs dums absorb r :
  fit cfg rows y d t covs dums absorb = Ok r ->
  cell rows (fR d) (fR t) 1 1 = [] ->
  r_att r = NaN.
Proof. exact (did_no_treated_post keq geq qr lstsq inv pinv sf ppf Hqr Hls cfg rows y d t covs dums absorb r). Qed.

Theorem C51_no_control_pre cfg rows y d t r :
  fit cfg rows y d t [] [] [] = Ok r ->
  cell rows (fR d) (fR t) 0 0 = [] -> cell rows (fR d) (fR t) 0 1 <> [] ->
  cell rows (fR d) (fR t) 1 0 <> [] -> cell rows (fR d) (fR t) 1 1 <> [] ->
  let m := cell_mean rows (fR d) (fR t) (fR y) in
  r_att r = NaN \/ r_att r = Fin (m 1 1 - m 1 0) \/ r_att r = Fin (m 1 1 - m 0 1)
  \/ r_att r = Fin (m 1 1 - m 1 0 - m 0 1).
Proof. exact (did_no_control_pre keq geq qr lstsq inv pinv sf ppf Hqr Hls cfg rows y d t r). Qed.
End P.

Theorem C03_cluster_labels {I K L G : Type} (keq : forall x y : K, {x = y} + {x <> y})
    (leq : forall x y : L, {x = y} + {x <> y}) (geq : forall x y : G, {x = y} + {x <> y})
    qr lstsq inv pinv sf ppf (cfg : did_config I K) (f : K -> L) rows y d t covs dums absorb :
  qr_ok qr ->
  (forall cl, c_cluster cfg = Some cl ->
     forall x z, In x (map cl rows) -> In z (map cl rows) -> f x = f z -> x = z) ->
  c_cluster cfg <> None ->
  match did_fit keq geq qr lstsq inv pinv sf ppf cfg rows y d t covs dums absorb,
        did_fit leq geq qr lstsq inv pinv sf ppf (relabel_cfg f cfg) rows y d t covs dums absorb with
  | Ok a, Ok b => r_att a = r_att b /\ r_coef a = r_coef b /\ r_se a = r_se b /\ r_t a = r_t b /\
                  r_p a = r_p b /\ r_ci a = r_ci b /\ r_signif a = r_signif b
  | Err x, Err x' => x = x'
  | _, _ => False
  end.
Proof. exact (did_cluster_relabel keq leq geq qr lstsq inv pinv sf ppf cfg f rows y d t covs dums absorb). Qed.

(* C07 refuted *)
Theorem C07_accepted_design_has_variance_refuted :
  ex_fit (ex_cfg true None) (seq 0 4) ex_y ex_d ex_t [] [] [] = Err ZeroDivisionError.
Proof. exact did_small_sample_refuted. Qed.

(* C51 refuted: no control observation before treatment, yet a finite "ATT" *)
Theorem C51_unidentified_att_is_nan_refuted :
  exists r a, ex_fit (ex_cfg true None) ex_rows3 ex_y ex_d ex_t [] [] [] = Ok r /\
    cell ex_rows3 (fR ex_d) (fR ex_t) 0 0 = [] /\ r_att r = Fin a.
Proof. exact did_missing_cell_refuted. Qed.

(* non-vacuity: for every n > 4 the data set ex_* meets the hypotheses of C01-C04 and C07 *)
Example C01_data n : (4 <= n)%nat -> four_cells (seq 0 n) (fR ex_d) (fR ex_t).
Proof. exact (ex_four n). Qed.
Example C01_fit_succeeds n robust : (4 < n)%nat ->
  exists r se, ex_fit (ex_cfg robust None) (seq 0 n) ex_y ex_d ex_t [] [] [] = Ok r /\ r_se r = Fin se /\ 0 <= se.
Proof. exact (ex_fit_ok n robust). Qed.
Example C03_clustered_fit_succeeds : exists r se,
  ex_fit (ex_cfg true (Some (fun i => i / 4)%nat)) (seq 0 8) ex_y ex_d ex_t [] [] [] = Ok r /\ r_se r = Fin se /\ 0 <= se.
Proof. exact ex_fit_ok_cluster. Qed.

Print Assumptions C01_att_is_difference_of_cell_means.
Print Assumptions C01_with_covariates.
Print Assumptions C01_hc1_se.
Print Assumptions C02_saturated_shift.
Print Assumptions C02_affine_equivariance.
Print Assumptions C03_row_order.
Print Assumptions C03_cluster_labels.
Print Assumptions C04_did_result_coherent.
Print Assumptions C07_variance_exists_partial.
Print Assumptions C07_n_equals_k_raises.
Print Assumptions C07_accepted_design_has_variance_refuted.
Print Assumptions C51_no_treated_post_is_nan.
Print Assumptions C51_no_control_pre.
Print Assumptions C51_unidentified_att_is_nan_refuted.

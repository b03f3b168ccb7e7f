(* SyntheticDiD: effects, covariates and the reported fit (C115-C117). *)
From Coq Require Import Reals.
From Verif Require Import Prelude Flt Stats_model Linalg_model Linalg_proofs Linalg_vcov Did_model Multi_model Staggered_model Synth_model Synth_proofs Synth_more Sdid_model Sdid_proofs Sdid_thms Sdid_rows Sdid_ex Sdid_covs Sdid_covex.
From Coq Require Import Arith ZArith String List Permutation.
Import ListNotations.
Open Scope R_scope.

Theorem C115_compiled_iteration_ignores_period_effects iter : be_shift (be_rust iter).
Proof. apply rust_shift. Qed.
Theorem C115_numpy_same_norm iter nrm pre b cols cols' y y' lambda : cols <> [] -> shift_cols pre b cols cols' ->
  (forall t, In t pre -> y' t = y t + b t) ->
  synth_numpy iter nrm pre cols' y' lambda = synth_numpy iter nrm pre cols y lambda.
Proof. apply numpy_shift_same_norm. Qed.
Theorem C115_objective (pre : list Z) b cols cols' y y' lambda w : shift_cols pre b cols cols' ->
  (forall t, In t pre -> y' t = y t + b t) -> length w = length cols -> sumf idR w = 1 ->
  objective pre cols' y' lambda w = objective pre cols y lambda w.
Proof. apply objective_shift. Qed.
Section Fit.
Variable backend : list Z -> list (Z -> R) -> (Z -> R) -> R -> list R.
Context {I : Type}.
Variable qr : list I -> list (I -> R) -> list nat.
Variable lstsq : list I -> list (I -> R) -> (I -> R) -> list R.
Variable inv : list I -> list (I -> R) -> option (nat -> nat -> R).
Variables (sf z : R -> R).
Notation fit := (sd_fit backend qr lstsq inv sf z).
Theorem C115_fit_period_effects (rows : list I) (u t : I -> Z) d cfg y y' (b : Z -> R) post draws perms :
  be_simplex backend -> be_shift backend -> 0 <= sd_zeta cfg -> sd_complete rows u t ->
  (forall p, In p perms -> Permutation p (seq 0 (length (sd_control rows u d)))) ->
  (forall i, In i rows -> y' i = y i + b (t i)) ->
  fit rows u t d cfg y' [] post draws perms = fit rows u t d cfg y [] post draws perms.
Proof. apply sd_fit_period_effects. Qed.
Theorem C117_report (rows : list I) (u t : I -> Z) d cfg y covs post draws perms r : be_simplex backend -> 0 <= sd_zeta cfg ->
  fit rows u t d cfg y covs post draws perms = Ok r ->
  map fst (sr_unit_w r) = sd_control rows u d /\ in_simplex (map snd (sr_unit_w r)) /\
  map fst (sr_time_w r) = sr_pre r /\ in_simplex (map snd (sr_time_w r)) /\
  (forall p, In p (sd_periods rows t) <-> In p (sr_pre r) \/ In p (sr_post r)) /\
  (forall p, In p (sr_pre r) -> ~ In p (sr_post r)) /\
  sr_n_obs r = length rows /\ sr_n_treated r = length (sd_treated rows u d) /\ sr_n_control r = length (sd_control rows u d) /\
  Permutation (sd_treated rows u d ++ sd_control rows u d) (sd_units rows u).
Proof. apply sd_fit_report. Qed.
Theorem C117_rmse (rows : list I) (u t : I -> Z) d cfg y post draws perms r :
  fit rows u t d cfg y [] post draws perms = Ok r ->
  0 <= sr_rmse r /\
  (sr_rmse r = 0 <-> forall p, In p (sr_pre r) ->
     meanf (sd_cell rows u t y p) (sd_treated rows u d) = sumf (fun q => snd q * sd_cell rows u t y p (fst q)) (sr_unit_w r)).
Proof. apply sd_fit_rmse. Qed.
Theorem C117_exact (rows : list I) (u t : I -> Z) d cfg y post draws perms r (a b tau : Z -> R) :
  be_simplex backend -> 0 <= sd_zeta cfg -> sd_complete rows u t ->
  (forall p, In p perms -> Permutation p (seq 0 (length (sd_control rows u d)))) ->
  fit rows u t d cfg y [] post draws perms = Ok r ->
  (forall i, In i rows -> y i = a (u i) + b (t i) + (if zmem (u i) (sd_treated rows u d) && zmem (t i) (sr_post r) then tau (t i) else 0)) ->
  sr_att r = meanf tau (sr_post r) /\ sr_se r = 0 /\ s_t (sr_inf r) = 0 /\ s_p (sr_inf r) = 1 /\ s_ci (sr_inf r) = (sr_att r, sr_att r).
Proof. apply sd_fit_exact. Qed.
Hypothesis Hqr : qr_ok qr.
Hypothesis Hls : lstsq_ok lstsq.
Theorem C117_row_order (rows rows' : list I) (u t : I -> Z) d cfg y covs post draws perms :
  Permutation rows rows' -> sd_constant rows u d ->
  fit rows' u t d cfg y covs post draws perms = fit rows u t d cfg y covs post draws perms.
Proof. apply sd_fit_row_order; assumption. Qed.
Hypothesis Hbe : be_simplex backend.
Variables (rows : list I) (u t : I -> Z) (d : I -> R).
Hypothesis Hcm : sd_complete rows u t.
Variables (cfg : sd_config) (y : I -> R) (covs : list (I -> R)) (post : option (list Z)) (draws : list (list Z)) (perms : list (list nat)) (r : sd_result).
Hypothesis Hz : 0 <= sd_zeta cfg.
Hypothesis Hfit : fit rows u t d cfg y covs post draws perms = Ok r.
Notation sd_contrast := (sd_contrast rows u t d).
Notation sd_W := (sd_W rows u t d).
Theorem C116_estimate : covs <> [] ->
  exists beta, is_ls rows (sd_design rows u t covs) y beta /\
    sr_att r = sd_contrast r y - sumf (fun p => fst p * sd_contrast r (snd p)) (combine (firstn (length covs) (tl beta)) covs).
Proof. eapply sd_covariate_estimate; eassumption. Qed.
Theorem C116_bias (a b : Z -> R) gamma tau delta : covs <> [] -> length gamma = length covs ->
  (forall i, In i rows -> y i = a (u i) + b (t i) + lc covs gamma i + tau * sd_W r i) ->
  is_ls rows (sd_design rows u t covs) (sd_W r) delta ->
  sr_att r = tau * (1 - sumf (fun p => fst p * sd_contrast r (snd p)) (combine (firstn (length covs) (tl delta)) covs)).
Proof. eapply sd_covariate_bias; eassumption. Qed.
Theorem C116_saturated : covs <> [] -> span rows (sd_design rows u t covs) y -> sr_att r = 0.
Proof. eapply sd_saturated; eassumption. Qed.
End Fit.
Theorem C115_two_controls rust nrm n cfg Y a b y ca cb cy xs : on_grid Y a b y ca cb cy -> norm2_ok nrm -> nrm_ext nrm -> sd_lambda cfg = 0 ->
  (a - b) * xs = y - b -> 0 <= xs <= 1 -> let k := step_of rust a b * ((a - b) * (a - b)) / 2 in 0 <= k <= 1 ->
  exists x, two_est (be_of rust nrm n) cfg Y = cy - (x * ca + (1 - x) * cb) /\ 0 <= x <= 1 /\
    (xs <= 1 / 2 -> x <= 1 / 2 - k * (1 / 2 - xs)) /\ (1 / 2 <= xs -> 1 / 2 - k * (1 / 2 - xs) <= x) /\
    (k <= 1 / 100000000 -> x = 1 / 2 - k * (1 / 2 - xs)).
Proof. apply two_est_bounds. Qed.
Theorem C115_unit_effects_refuted rust nrm n cfg : norm2_ok nrm -> nrm_ext nrm -> sd_lambda cfg = 0 ->
  let Y := two_mat 0 3 3 0 6 0 in
  two_est (be_of rust nrm n) cfg Y <= - (435 / 100) /\
  two_est (be_of rust nrm n) cfg (fun t j => Y t j + two_alpha j) >= - (165 / 100).
Proof. apply sd_unit_effects_refuted. Qed.
Theorem C115_level_refuted nrm n cfg : norm2_ok nrm -> nrm_ext nrm -> sd_lambda cfg = 0 ->
  let Y := two_mat 0 1 1 0 10 0 in
  two_est (be_of false nrm n) cfg Y <= - (7) /\
  two_est (be_of false nrm n) cfg (fun t j => Y t j + 10000) >= - (51 / 10).
Proof. apply sd_level_refuted. Qed.
Theorem C115_scale_refuted nrm n cfg : norm2_ok nrm -> nrm_ext nrm -> sd_lambda cfg = 0 ->
  let Y := two_mat 0 3 3 0 6 0 in let c := 1 / 10000 in
  two_est (be_of true nrm n) cfg Y <= - (435 / 100) /\
  two_est (be_of true nrm n) cfg (fun t j => c * Y t j) >= c * - (31 / 10).
Proof. apply sd_scale_refuted. Qed.
Theorem C115_norm_instance : norm2_ok htrace.
Proof. apply htrace_norm2_ok. Qed.
Theorem C116_two_by_two_refuted backend qr lstsq inv sf z y x : be_simplex backend -> qr_ok qr -> lstsq_ok lstsq -> dd x <> 0 ->
  exists r r', sd_fit backend qr lstsq inv sf z rows4 fst snd d4 pl_cfg y [] None [] [] = Ok r /\ sr_att r = dd y /\
    sd_fit backend qr lstsq inv sf z rows4 fst snd d4 pl_cfg y [x] None [] [] = Ok r' /\ sr_att r' = 0.
Proof. apply sd_two_by_two_refuted. Qed.
Section Six.
Context (qr : list (Z * Z) -> list (Z * Z -> R) -> list nat).
Context (lstsq : list (Z * Z) -> list (Z * Z -> R) -> (Z * Z -> R) -> list R).
Context (inv : list (Z * Z) -> list (Z * Z -> R) -> option (nat -> nat -> R)).
Context (sf z : R -> R).
Theorem C117_case : exists r, sd_fit (be_of true htrace 0) qr lstsq inv sf z rows6 fst snd d6 pl_cfg y6 [] None [] [[0; 1]; [1; 0]]%nat = Ok r /\
  sr_att r = - (435 / 100) /\ sr_unit_w r = [(1%Z, 275 / 1000); (2%Z, 725 / 1000)] /\ sr_time_w r = [(0%Z, 1)] /\ sr_rmse r = 825 / 1000.
Proof. apply six_case. Qed.
Theorem C115_period_effects_case : exists r,
  sd_fit (be_of true htrace 0) qr lstsq inv sf z rows6 fst snd d6 pl_cfg (fun i => y6 i + (if Z.eqb (snd i) 0 then 5 else -7)) [] None [] [[0; 1]; [1; 0]]%nat = Ok r /\
  sd_fit (be_of true htrace 0) qr lstsq inv sf z rows6 fst snd d6 pl_cfg y6 [] None [] [[0; 1]; [1; 0]]%nat = Ok r /\ sr_att r = - (435 / 100).
Proof. apply six_period_effects. Qed.
Theorem C117_exact_case : exists r, sd_fit (be_of true htrace 0) qr lstsq inv sf z rows6 fst snd d6 pl_cfg y_exact [] None [] [[0; 1]; [1; 0]]%nat = Ok r /\
  sr_att r = 2 /\ sr_se r = 0 /\ s_p (sr_inf r) = 1.
Proof. apply six_exact. Qed.
Context (Hqr : qr_ok qr) (Hls : lstsq_ok lstsq).
Theorem C116_zero_covariate_refuted rust nrm n draws perms r r' : norm2_ok nrm -> nrm_ext nrm ->
  sd_fit (be_of rust nrm n) qr lstsq inv sf z rows6 fst snd d6 pl_cfg y6 [] None draws perms = Ok r ->
  sd_fit (be_of rust nrm n) qr lstsq inv sf z rows6 fst snd d6 pl_cfg y6 [fun _ => 0] None draws perms = Ok r' ->
  sr_att r <= - (435 / 100) /\ sr_att r' >= - (225 / 100).
Proof. eapply sd_zero_covariate_refuted; eassumption. Qed.
End Six.
Theorem C117_row_order_needs_constant backend qr lstsq inv sf z y :
  sd_fit backend qr lstsq inv sf z rows4 fst snd d_switch pl_cfg y [] None [] [] = Err ValueError /\
  exists r, sd_fit backend qr lstsq inv sf z (rev rows4) fst snd d_switch pl_cfg y [] None [] [] = Ok r.
Proof. apply sd_row_order_needs_constant. Qed.
Print Assumptions C115_compiled_iteration_ignores_period_effects.
Print Assumptions C115_numpy_same_norm.
Print Assumptions C115_objective.
Print Assumptions C115_fit_period_effects.
Print Assumptions C115_two_controls.
Print Assumptions C115_unit_effects_refuted.
Print Assumptions C115_level_refuted.
Print Assumptions C115_scale_refuted.
Print Assumptions C115_norm_instance.
Print Assumptions C115_period_effects_case.
Print Assumptions C117_report.
Print Assumptions C117_rmse.
Print Assumptions C117_exact.
Print Assumptions C117_row_order.
Print Assumptions C117_case.
Print Assumptions C117_exact_case.
Print Assumptions C117_row_order_needs_constant.
Print Assumptions C116_estimate.
Print Assumptions C116_bias.
Print Assumptions C116_saturated.
Print Assumptions C116_two_by_two_refuted.
Print Assumptions C116_zero_covariate_refuted.

(* SyntheticDiD on panels with gaps (C136). *)
From Coq Require Import Reals Permutation.
From Verif Require Import Prelude Flt Stats_model Linalg_model Did_model Multi_model Staggered_model Synth_model Sdid_model Sdid_proofs Sdid_thms Sdid_ex Gap_model Gap_proofs Gap_thms Gap_fit.
From Coq Require Import Arith ZArith String List.
Import ListNotations.
Open Scope R_scope.

Section Gaps.
Variable backend : list Z -> list (Z -> R) -> (Z -> R) -> R -> list R.
Variable b : gbackend.
Variable fsort : list fl -> list fl.
Variable iter : nat.
Variable gnrm : list Z -> list (Z -> fl) -> R -> fl.
Variables (sf z : R -> R).
Hypothesis Hbe : be_simplex backend.
Hypothesis Hit : (0 < iter)%nat.
Notation weights := (gap_weights backend b fsort iter gnrm).
Notation finish := (gap_finish backend b fsort iter gnrm sf z).
Theorem C136_unit_weights pre cols y lambda : (2 <= length cols)%nat ->
  (exists t c, In t pre /\ In c cols /\ c t = NaN) \/ (exists t, In t pre /\ y t = NaN) ->
  weights pre cols y lambda = Ok (map Fin (uniform_w (length cols))) \/
  weights pre cols y lambda = Err LinAlgError /\ b = BNumpy true /\ exists t c, In t pre /\ In c cols /\ ffinite (c t) = false.
Proof. exact (gap_weights_gap backend b fsort iter gnrm Hit pre cols y lambda). Qed.
Section Local.
Hypothesis Hloc : be_local backend.
Theorem C136_treated_post_gap cfg Y Y' pre pst tr ctrl nobs draws perms r r' :
  finish cfg Y pre pst tr ctrl nobs draws perms = Ok r -> finish cfg Y' pre pst tr ctrl nobs draws perms = Ok r' ->
  sd_method cfg = "placebo"%string -> tr <> [] ->
  (forall p, In p perms -> Permutation p (seq 0 (length ctrl))) ->
  (forall t a, In t pre -> In a (tr ++ ctrl) -> Y t a = Y' t a /\ ffinite (Y t a) = true) ->
  (forall t a, In t pst -> In a ctrl -> Y t a = Y' t a) ->
  (exists t a, In t pst /\ In a tr /\ Y t a = NaN) ->
  gr_unit_w r = gr_unit_w r' /\ gr_time_w r = gr_time_w r' /\ gr_draws r = gr_draws r' /\ gr_se r = gr_se r' /\ gr_att r = NaN /\
  (flt (Fin 0) (gr_se r') = true ->
   exists eff, gr_draws r' = Some eff /\ g_p (gr_inf r) = Fin (1 / (len eff + 1)) /\
   (1 / (len eff + 1) < sd_alpha cfg -> gap_significant r = true)).
Proof. exact (gap_finish_post backend b fsort iter gnrm sf z Hbe Hloc cfg Y Y' pre pst tr ctrl nobs draws perms r r'). Qed.
End Local.
Section Rows.
Context {I : Type}.
Variable qr : list I -> list (I -> R) -> list nat.
Variable lstsq : list I -> list (I -> R) -> (I -> R) -> list R.
Variable inv : list I -> list (I -> R) -> option (nat -> nat -> R).
Notation fit := (gap_fit backend b fsort iter gnrm qr lstsq inv sf z).
Theorem C136_undefined rows u t d cfg y covs post draws perms r p a : fit rows u t d cfg y covs post draws perms = Ok r ->
  In p (map t rows) -> In a (map u rows) -> hole rows u t y p a ->
  gr_att r = NaN /\ g_ci (gr_inf r) = (NaN, NaN) /\
  (if flt (Fin 0) (gr_se r)
   then exists eff, gr_draws r = Some eff /\ (2 <= length eff)%nat /\ g_t (gr_inf r) = NaN /\ g_p (gr_inf r) = Fin (1 / (len eff + 1))
   else g_t (gr_inf r) = Fin 0 /\ g_p (gr_inf r) = Fin 1).
Proof. exact (gap_fit_undefined backend b fsort iter gnrm sf z Hbe qr lstsq inv rows u t d cfg y covs post draws perms r p a). Qed.
Theorem C136_pre_gap rows u t d cfg y covs post draws perms r p a : fit rows u t d cfg y covs post draws perms = Ok r ->
  sd_method cfg = "placebo"%string -> (2 <= length (gr_pre r))%nat ->
  In p (gr_pre r) -> In a (map u rows) -> hole rows u t y p a ->
  (forall q x, In (q, x) (gr_time_w r) -> x = NaN) /\ (gr_se r = NaN \/ gr_se r = Fin 0) /\
  g_t (gr_inf r) = Fin 0 /\ g_p (gr_inf r) = Fin 1.
Proof. exact (gap_fit_pre backend b fsort iter gnrm sf z Hbe qr lstsq inv rows u t d cfg y covs post draws perms r p a). Qed.
Theorem C136_bootstrap_gap rows u t d cfg y covs post draws perms r p a eff D : fit rows u t d cfg y covs post draws perms = Ok r ->
  sd_method cfg = "bootstrap"%string -> b <> BNumpy true ->
  In p (map t rows) -> In a (map u rows) -> hole rows u t y p a ->
  In D draws -> In a D -> (exists c, In c D /\ In c (sd_treated rows u d)) -> (exists c, In c D /\ In c (sd_control rows u d)) ->
  gr_draws r = Some eff -> (2 <= length eff)%nat ->
  gr_se r = NaN /\ g_t (gr_inf r) = Fin 0 /\ g_p (gr_inf r) = Fin 1.
Proof. exact (gap_fit_boot backend b fsort iter gnrm sf z Hbe qr lstsq inv rows u t d cfg y covs post draws perms r p a eff D). Qed.
Theorem C136_complete rows u t d cfg (y : I -> R) covs post draws perms : be_local backend -> 0 <= sd_zeta cfg -> sd_complete rows u t ->
  (forall p, In p perms -> Permutation p (seq 0 (length (sd_control rows u d)))) ->
  fit rows u t d cfg (fun i => Fin (y i)) covs post draws perms =
  rmap (fin_result (sd_alpha cfg)) (sd_fit backend qr lstsq inv sf z rows u t d cfg y covs post draws perms).
Proof. exact (gap_fit_complete backend b fsort iter gnrm sf z Hbe qr lstsq inv rows u t d cfg y covs post draws perms). Qed.
End Rows.
Section Case.
Variable qr : list (Z * Z) -> list (Z * Z -> R) -> list nat.
Variable lstsq : list (Z * Z) -> list (Z * Z -> R) -> (Z * Z -> R) -> list R.
Variable inv : list (Z * Z) -> list (Z * Z -> R) -> option (nat -> nat -> R).
(* gap_rows: units 1, 2 (controls) and 3 (treated), periods 0, 1, 2; unit 3 has no row in period 2 *)
Theorem C136_gap_hole : hole gap_rows fst snd gap_y 2 3.
Proof. exact gap_rows_hole. Qed.
Theorem C136_significant_refuted n draws : exists r,
  gap_fit backend b fsort iter gnrm qr lstsq inv sf z gap_rows fst snd gap_d (gap_cfg n) gap_y [] (Some [1; 2]%Z) draws gap_perms = Ok r /\
  gr_att r = NaN /\ g_t (gr_inf r) = NaN /\ g_ci (gr_inf r) = (NaN, NaN) /\ g_p (gr_inf r) = Fin (1 / 21) /\ gap_significant r = true.
Proof. exact (gap_case_fit backend b fsort iter gnrm sf z Hbe qr lstsq inv n draws). Qed.
End Case.
End Gaps.
Theorem C136_backends nrm n : norm2_ok nrm -> nrm_ext nrm ->
  (be_simplex (be_rust (S n)) /\ be_local (be_rust (S n))) /\ (be_simplex (be_numpy (S n) nrm) /\ be_local (be_numpy (S n) nrm)).
Proof. intros Hn He. split; split; [apply rust_simplex|exact (be_ext true nrm n Hn He)|apply numpy_simplex|exact (be_ext false nrm n Hn He)]. Qed.
Print Assumptions C136_unit_weights.
Print Assumptions C136_treated_post_gap.
Print Assumptions C136_undefined.
Print Assumptions C136_pre_gap.
Print Assumptions C136_bootstrap_gap.
Print Assumptions C136_complete.
Print Assumptions C136_significant_refuted.
Print Assumptions C136_gap_hole.
Print Assumptions C136_backends.

(* Counts, degrees of freedom and inference of MultiPeriodDiD and TwoWayFixedEffects: statements only. *)
From Verif Require Import Prelude Flt Linalg_model Linalg_proofs Linalg_vcov Linalg_thms Did_model Did_spec Did_proofs
  Did_more Twfe_model Twfe_proofs Multi_model Multi_proofs Multi_thms Trends_model Staggered_more Fit_more.
From Coq Require Import Arith ZArith String List.
Import ListNotations.
Open Scope R_scope.

(* ---- C13: MultiPeriodDiD ---- *)
Section Mp.
Context {I K G : Type} (keq : forall x y : K, {x = y} + {x <> y}) (geq : forall x y : G, {x = y} + {x <> y}).
Variable qr : list I -> list (I -> R) -> list nat.
Variable lstsq : list I -> list (I -> R) -> (I -> R) -> list R.
Variable inv : list I -> list (I -> R) -> option (nat -> nat -> R).
Variable sf : option Z -> fl -> fl.
Variable ppf : option Z -> R -> R.
Hypothesis Hqr : qr_ok qr.
Hypothesis Hls : lstsq_ok lstsq.
Hypothesis Hinv : inv_ok inv.
Hypothesis Hd : dist_ok sf ppf.
Notation fit := (mp_fit keq geq qr lstsq inv sf ppf).

Theorem C13_counts cfg rows y d t post ref covs dums absorb r : fit cfg rows y d t post ref covs dums absorb = Ok r ->
  mp_n_obs r = length rows /\
  mp_n_treated r = INR (length (filter (fun i => Reqb (d i) 1) rows)) /\
  mp_n_control r = INR (length (filter (fun i => Reqb (d i) 0) rows)) /\
  mp_n_treated r + mp_n_control r = INR (length rows).
Proof. exact (mp_counts keq geq qr lstsq inv sf ppf cfg rows y d t post ref covs dums absorb r). Qed.
Theorem C13_degrees_of_freedom cfg rows y d t post ref r : fit cfg rows y d t post ref [] [] [] = Ok r ->
  identified rows d t (mp_post r) ->
  mp_df r = (Z.of_nat (length rows) - 1 - Z.of_nat (length (data_periods rows t)) - Z.of_nat (length (mp_post r)))%Z.
Proof. exact (mp_df_value keq geq qr lstsq inv sf ppf Hqr Hls cfg rows y d t post ref r). Qed.
Theorem C13_period_inference cfg rows y d t post ref covs dums absorb r e b s :
  fit cfg rows y d t post ref covs dums absorb = Ok r -> In e (mp_effects r) ->
  pe_effect e = Fin b -> pe_se e = Fin s -> 0 < s -> 0 < c_alpha cfg < 1 -> (0 < mp_df r)%Z ->
  pe_t e = Fin (b / s) /\
  exists p lo hi, pe_p e = Fin p /\ pe_ci e = (Fin lo, Fin hi) /\ 0 < p <= 1 /\ lo < b < hi /\ b - lo = hi - b /\
    (p < c_alpha cfg <-> (hi < 0 \/ 0 < lo)).
Proof. exact (mp_period_inference keq geq qr lstsq inv sf ppf Hd cfg rows y d t post ref covs dums absorb r e b s). Qed.
Theorem C13_average_inference cfg rows y d t post ref covs dums absorb r b s :
  fit cfg rows y d t post ref covs dums absorb = Ok r ->
  mp_avg r = Fin b -> mp_avg_se r = Fin s -> 0 < s -> 0 < c_alpha cfg < 1 -> (0 < mp_df r)%Z ->
  mp_avg_t r = Fin (b / s) /\
  exists p lo hi, mp_avg_p r = Fin p /\ mp_avg_ci r = (Fin lo, Fin hi) /\ 0 < p <= 1 /\ lo < b < hi /\ b - lo = hi - b /\
    (p < c_alpha cfg <-> (hi < 0 \/ 0 < lo)).
Proof. exact (mp_average_inference keq geq qr lstsq inv sf ppf Hd cfg rows y d t post ref covs dums absorb r b s). Qed.
Theorem C13_classical_variance cfg rows y d t post ref r : fit cfg rows y d t post ref [] [] [] = Ok r ->
  identified rows d t (mp_post r) -> c_robust cfg = false -> c_cluster cfg = None ->
  let cols := mp_design d t (data_periods rows t) (mp_post r) (mp_ref r) [] in
  exists B, is_inverse rows cols B /\
    forall a c, (a < length cols)%nat -> (c < length cols)%nat -> (length cols < length rows)%nat ->
      mp_vcov r a c = Fin (sumf (fun i => mp_resid r i * mp_resid r i) rows / (INR (length rows) - INR (length cols)) * B a c).
Proof. exact (mp_classical_vcov keq geq qr lstsq inv sf ppf Hqr Hls Hinv cfg rows y d t post ref r). Qed.
End Mp.
Example C13_fit_case robust y :
  exists r, exm_fit (exm_cfg robust None) (seq 0 12) y exm_d exm_t None None [] [] [] = Ok r /\
    mp_pre r = [0]%Z /\ mp_post r = [1; 2]%Z /\ identified (seq 0 12) exm_d exm_t (mp_post r).
Proof. exact (exm_fit_ok robust y). Qed.

(* ---- C14: TwoWayFixedEffects ---- *)
Section Tw.
Context {I U : Type} (ueq : forall x y : U, {x = y} + {x <> y}).
Variable qr : list I -> list (I -> R) -> list nat.
Variable lstsq : list I -> list (I -> R) -> (I -> R) -> list R.
Variable inv : list I -> list (I -> R) -> option (nat -> nat -> R).
Variable pinv : list I -> list (I -> R) -> nat -> nat -> R.
Variable sf : option Z -> fl -> fl.
Variable ppf : option Z -> R -> R.
Hypothesis Hqr : qr_ok qr.
Hypothesis Hls : lstsq_ok lstsq.
Notation fit := (twfe_fit ueq qr lstsq inv pinv sf ppf).

Theorem C14_counts cluster alpha action rows y d tm u covs r : fit cluster alpha action rows y d tm u covs = Ok r ->
  let units := nodup ueq (map u rows) in
  tw_n_obs r = length rows /\ tw_alpha r = alpha /\
  tw_n_treated r = length (filter (ever_treated ueq rows d u) units) /\
  tw_n_control r = Z.of_nat (length (filter (fun a => negb (ever_treated ueq rows d u a)) units)).
Proof. exact (twfe_counts ueq qr lstsq inv pinv sf ppf cluster alpha action rows y d tm u covs r). Qed.
Theorem C14_degrees_of_freedom cluster alpha action rows y d tm u r : fit cluster alpha action rows y d tm u [] = Ok r ->
  ss rows (fun i => d i * tm i) <> 0 ->
  tw_df r = (Z.of_nat (length rows) - Z.of_nat (length (nodup ueq (map u rows)))
             - Z.of_nat (length (nodup Req_EM_T (map tm rows))))%Z.
Proof. exact (twfe_df ueq qr lstsq inv pinv sf ppf Hqr Hls cluster alpha action rows y d tm u r). Qed.
End Tw.

(* ---- C54: verdict of the slope test ---- *)
Theorem C54_verdict sf ppf rows pre r b s : dist_ok sf ppf ->
  check_parallel_trends sf rows pre = Ok r -> pt_diff r = Fin b -> pt_diff_se r = Fin s -> 0 < s ->
  pt_t r = Fin (b / s) /\
  exists p, pt_p r = Fin p /\ 0 < p <= 1 /\ pt_plausible r = Some (Rltb (1/20) p) /\
    (p < 1/20 <-> ppf None (1 - 1/20/2) < Rabs (b / s)).
Proof. exact (parallel_trends_verdict sf ppf rows pre r b s). Qed.

Print Assumptions C13_counts.
Print Assumptions C13_degrees_of_freedom.
Print Assumptions C13_period_inference.
Print Assumptions C13_average_inference.
Print Assumptions C13_classical_variance.
Print Assumptions C14_counts.
Print Assumptions C14_degrees_of_freedom.
Print Assumptions C54_verdict.

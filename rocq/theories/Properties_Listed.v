(* Post periods listed twice (C135). *)
From Coq Require Import Reals.
From Verif Require Import Prelude Flt Linalg_model Linalg_proofs Linalg_vcov Did_model Did_spec Did_proofs Multi_model Multi_proofs Multi_thms Did_more Linalg_thms Listed_model Listed_proofs Listed_ex.
From Coq Require Import Arith ZArith String List.
Import ListNotations.
Open Scope R_scope.

Section Listed.
Context {I K G : Type} (keq : forall x y : K, {x = y} + {x <> y}) (geq : forall x y : G, {x = y} + {x <> y}).
Variable qr : list I -> list (I -> R) -> list nat.
Variable lstsq : list I -> list (I -> R) -> (I -> R) -> list R.
Variable inv : list I -> list (I -> R) -> option (nat -> nat -> R).
Variable sf : option Z -> fl -> fl.
Variable ppf : option Z -> R -> R.
Hypothesis Hqr : qr_ok qr.
Hypothesis Hls : lstsq_ok lstsq.
Notation fit := (mp_fit keq geq qr lstsq inv sf ppf).
Notation lfit := (mp_fit_listed keq geq qr lstsq inv sf ppf).
Theorem C135_listed_once cfg rows y d t post ref covs dums absorb : (forall l, post = Some l -> NoDup l) ->
  lfit cfg rows y d t post ref covs dums absorb = fit cfg rows y d t post ref covs dums absorb.
Proof. exact (listed_once keq geq qr lstsq inv sf ppf cfg rows y d t post ref covs dums absorb). Qed.
Theorem C135_effects cfg rows y d t post ref covs dums absorb r :
  lfit cfg rows y d t post ref covs dums absorb = Ok r ->
  NoDup (map pe_period (mp_effects r)) /\ (forall p, In p (map pe_period (mp_effects r)) <-> In p (mp_post r)) /\
  (forall e, In e (mp_effects r) -> exists j, (j < length (mp_post r))%nat /\ nth j (mp_post r) 0%Z = pe_period e /\
     (forall j', (j' < length (mp_post r))%nat -> nth j' (mp_post r) 0%Z = pe_period e -> (j' <= j)%nat) /\
     pe_effect e = nth (mp_index (data_periods rows t) (mp_ref r) j) (mp_coef r) NaN) /\
  (forall x, (forall e, In e (mp_effects r) -> pe_effect e = Fin (x (pe_period e))) -> mp_avg r = Fin (meanf x (mp_post r))) /\
  ((exists e, In e (mp_effects r) /\ pe_effect e = NaN) -> mp_avg r = NaN /\ mp_avg_se r = NaN).
Proof. exact (listed_effects keq geq qr lstsq inv sf ppf cfg rows y d t post ref covs dums absorb r). Qed.
Theorem C135_one_copy_undefined cfg rows y d t post ref covs dums absorb r a b :
  lfit cfg rows y d t post ref covs dums absorb = Ok r -> (a < length (mp_post r))%nat -> (b < length (mp_post r))%nat -> a <> b ->
  nth a (mp_post r) 0%Z = nth b (mp_post r) 0%Z ->
  nth (mp_index (data_periods rows t) (mp_ref r) a) (mp_coef r) NaN = NaN \/
  nth (mp_index (data_periods rows t) (mp_ref r) b) (mp_coef r) NaN = NaN.
Proof. exact (listed_twice keq geq qr lstsq inv sf ppf Hqr Hls cfg rows y d t post ref covs dums absorb r a b). Qed.
Theorem C135_error_action cfg rows y d t l ref covs dums absorb : c_action cfg = "error"%string -> ~ NoDup l ->
  lfit cfg rows y d t (Some l) ref covs dums absorb = Err ValueError.
Proof. exact (listed_twice_error keq geq qr lstsq inv sf ppf Hqr cfg rows y d t l ref covs dums absorb). Qed.
End Listed.
Notation LF qr := (mp_fit_listed Nat.eq_dec Nat.eq_dec qr (@gs nat) (@gs_inv nat) toy_sf toy_ppf (exm_cfg true None) (seq 0 12)).
Theorem C135_qr_oracle : qr_ok (@qr_last nat).
Proof. exact qr_last_ok. Qed.
Theorem C135_repeated_refuted y : exists r1 r,
  LF (@qr_last nat) y exm_d exm_t (Some [1; 2]%Z) None [] [] [] = Ok r1 /\
  (exists a b, map pe_effect (mp_effects r1) = [Fin a; Fin b] /\ mp_avg r1 = Fin ((a + b) / 2)) /\
  LF (@qr_last nat) y exm_d exm_t (Some [1; 2; 2]%Z) None [] [] [] = Ok r /\
  (exists e, In e (mp_effects r) /\ pe_period e = 2%Z /\ pe_effect e = NaN) /\ mp_avg r = NaN /\ mp_avg_se r = NaN.
Proof. exact (listed_twice_refuted y). Qed.
Print Assumptions C135_listed_once.
Print Assumptions C135_effects.
Print Assumptions C135_one_copy_undefined.
Print Assumptions C135_error_action.
Print Assumptions C135_qr_oracle.
Print Assumptions C135_repeated_refuted.

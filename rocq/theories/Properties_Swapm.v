(* MultiPeriodDiD: the reference period and the roles of the two groups (C13, C137). *)
From Coq Require Import Reals.
From Verif Require Import Prelude Flt Linalg_model Linalg_proofs Linalg_vcov Linalg_thms Did_model Did_spec Did_proofs Reg_effects Multi_model Multi_proofs Multi_thms Swap_proofs Swap_multi Swap_multi_thms.
From Coq Require Import Arith ZArith String List.
Import ListNotations.
Open Scope R_scope.

Section Mp.
Context {I K G : Type} (keq : forall x y : K, {x = y} + {x <> y}) (geq : forall x y : G, {x = y} + {x <> y}).
Variable qr : list I -> list (I -> R) -> list nat.
Variable lstsq : list I -> list (I -> R) -> (I -> R) -> list R.
Variable inv : list I -> list (I -> R) -> option (nat -> nat -> R).
Variable sf : option Z -> fl -> fl.
Variable ppf : option Z -> R -> R.
Hypothesis Hqr : qr_ok qr.
Hypothesis Hls : lstsq_ok lstsq.
Hypothesis Hinv : inv_ok inv.
Notation fit := (mp_fit keq geq qr lstsq inv sf ppf).
Notation mp_identified := (mp_identified geq).

(* covariates, dummies, absorbed columns and clusters included; the whole list of period effects with their inference *)
Theorem C13_any_reference cfg rows y d t post ref ref' covs dums absorb r : fit cfg rows y d t post ref covs dums absorb = Ok r ->
  mp_identified rows y d t (mp_post r) (mp_ref r) covs dums absorb -> In ref' (map t rows) ->
  exists r', fit cfg rows y d t post (Some ref') covs dums absorb = Ok r' /\ mp_ref r' = ref' /\ mp_pre r' = mp_pre r /\ mp_post r' = mp_post r /\
    mp_effects r' = mp_effects r /\ mp_avg r' = mp_avg r /\ mp_avg_se r' = mp_avg_se r /\ mp_avg_t r' = mp_avg_t r /\ mp_avg_p r' = mp_avg_p r /\ mp_avg_ci r' = mp_avg_ci r /\
    mp_df r' = mp_df r /\ (forall i, In i rows -> mp_resid r' i = mp_resid r i).
Proof. exact (mp_reference keq geq qr lstsq inv sf ppf Hqr Hls Hinv cfg rows y d t post ref ref' covs dums absorb r). Qed.
Theorem C137_multi_treated_complement cfg rows y d t post ref covs dums absorb r : fit cfg rows y d t post ref covs dums absorb = Ok r ->
  mp_identified rows y d t (mp_post r) (mp_ref r) covs dums absorb ->
  exists r', fit cfg rows y (fun i => 1 - d i) t post ref covs dums absorb = Ok r' /\ mp_ref r' = mp_ref r /\ mp_pre r' = mp_pre r /\ mp_post r' = mp_post r /\
    Forall2 opposite_effect (mp_effects r) (mp_effects r') /\
    mp_avg r' = fneg (mp_avg r) /\ mp_avg_se r' = mp_avg_se r /\ mp_avg_t r' = fneg (mp_avg_t r) /\ mp_avg_p r' = mp_avg_p r /\
    mp_avg_ci r' = (fneg (snd (mp_avg_ci r)), fneg (fst (mp_avg_ci r))) /\
    mp_n_obs r' = mp_n_obs r /\ mp_n_treated r' = mp_n_control r /\ mp_n_control r' = mp_n_treated r /\ mp_df r' = mp_df r /\ (forall i, In i rows -> mp_resid r' i = mp_resid r i).
Proof. exact (mp_treated_complement keq geq qr lstsq inv sf ppf Hqr Hls Hinv cfg rows y d t post ref covs dums absorb r). Qed.
End Mp.
(* twelve rows, three periods *)
Theorem C137_multi_case robust y ref' : In ref' [0; 1; 2]%Z -> exists r r1 r2, exm_fit (exm_cfg robust None) (seq 0 12) y exm_d exm_t None None [] [] [] = Ok r /\
  mp_identified Nat.eq_dec (seq 0 12) y exm_d exm_t (mp_post r) (mp_ref r) [] [] [] /\ In ref' (map exm_t (seq 0 12)) /\
  exm_fit (exm_cfg robust None) (seq 0 12) y exm_d exm_t None (Some ref') [] [] [] = Ok r1 /\ mp_effects r1 = mp_effects r /\ mp_avg_ci r1 = mp_avg_ci r /\
  exm_fit (exm_cfg robust None) (seq 0 12) y (fun i => 1 - exm_d i) exm_t None None [] [] [] = Ok r2 /\ mp_avg r2 = fneg (mp_avg r) /\ mp_avg_se r2 = mp_avg_se r.
Proof. exact (exm_any_reference robust y ref'). Qed.
Print Assumptions C13_any_reference.
Print Assumptions C137_multi_treated_complement.
Print Assumptions C137_multi_case.

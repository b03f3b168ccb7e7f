(* SunAbraham ignores unit effects, period effects and the units of the outcome (C121). *)
From Coq Require Import Reals.
From Verif Require Import Prelude Flt Stats_model Stats_proofs Linalg_model Linalg_proofs Linalg_vcov Did_model Did_equiv Within_proofs Bacon_model Staggered_model Staggered_fit Bacon_thms Staggered_thms Sun_model Sun_proofs Sun_thms Sun_cs Sun_ex Sun_equiv Sun_eqex.
From Coq Require Import Arith ZArith String List Permutation.
Import ListNotations.
Open Scope R_scope.

Section S.
Context {I : Type}.
Variable qr : list I -> list (I -> R) -> list nat.
Variable lstsq : list I -> list (I -> R) -> (I -> R) -> list R.
Variable inv : list I -> list (I -> R) -> option (nat -> nat -> R).
Variable pinv : list I -> list (I -> R) -> nat -> nat -> R.
Variable sf : option Z -> fl -> fl.
Variable ppf : option Z -> R -> R.
Hypothesis Hqr : qr_ok qr.
Hypothesis Hls : lstsq_ok lstsq.
Hypothesis Hinv : inv_ok inv.
Variables (u t : I -> Z) (g : I -> coh) (covs : list (I -> R)) (cluster : option (I -> Z)).
Notation fit y := (sa_fit qr lstsq inv pinv sf ppf u t g y covs cluster).
Theorem C121_unit_period_effects cfg rows y y' s r m (a b : Z -> R) : s <> 0 -> balanced Z.eq_dec Z.eq_dec (sa_sample g cfg rows) u t m ->
  (forall i, In i rows -> y' i = s * y i + (a (u i) + b (t i))) ->
  fit y cfg rows = Ok r -> exists r', fit y' cfg rows = Ok r' /\ sa_scaled s r r'.
Proof. exact (sa_unit_period_effects qr lstsq inv pinv sf ppf Hqr Hls Hinv u t g covs cluster cfg rows y y' s r m a b). Qed.
Theorem C121_level_scale cfg rows y y' s r (c : R) : s <> 0 -> (forall i, In i rows -> y' i = s * y i + c) ->
  fit y cfg rows = Ok r -> exists r', fit y' cfg rows = Ok r' /\ sa_scaled s r r'.
Proof. exact (sa_level_scale qr lstsq inv pinv sf ppf Hqr Hls Hinv u t g covs cluster cfg rows y y' s r c). Qed.
End S.
Section Ex.
Variable qr : list (Z * Z) -> list (Z * Z -> R) -> list nat.
Variable lstsq : list (Z * Z) -> list (Z * Z -> R) -> (Z * Z -> R) -> list R.
Variable inv : list (Z * Z) -> list (Z * Z -> R) -> option (nat -> nat -> R).
Variable pinv : list (Z * Z) -> list (Z * Z -> R) -> nat -> nat -> R.
Variable sf : option Z -> fl -> fl.
Variable ppf : option Z -> R -> R.
Hypothesis Hqr : qr_ok qr.
Hypothesis Hls : lstsq_ok lstsq.
Hypothesis Hinv : inv_ok inv.
Notation fit y := (sa_fit qr lstsq inv pinv sf ppf fst snd (gco C2) y [] None (sa_demo "never_treated" 0) rows5).
Theorem C121_complete_panel_case y s a b : s <> 0 -> exists r r',
  sa_fit qr lstsq inv pinv sf ppf fst snd (gco C35) y [] None (sa_demo "never_treated" 0) rows35 = Ok r /\
  sa_fit qr lstsq inv pinv sf ppf fst snd (gco C35) (fun i => s * y i + (a (fst i) + b (snd i))) [] None (sa_demo "never_treated" 0) rows35 = Ok r' /\ sa_scaled s r r'.
Proof. exact (sa35_effects qr lstsq inv pinv sf ppf Hqr Hls Hinv y s a b). Qed.
Theorem C121_incomplete_panel_value y : exists r, fit y = Ok r /\
  sa_att r = Fin (y (1, 2)%Z - 17/18 * y (1, 1)%Z + 13/18 * y (2, 1)%Z - 2/3 * y (2, 2)%Z - 1/9 * y (3, 1)%Z).
Proof. exact (fit5 qr lstsq inv pinv sf ppf Hqr Hls Hinv y). Qed.
Theorem C121_unit_effects_incomplete_refuted y : exists r r', fit y = Ok r /\ fit (fun i => y i + (if Z.eqb (fst i) 3 then 1 else 0)) = Ok r' /\ sa_att r' <> sa_att r.
Proof. exact (unit_effect_not_removed qr lstsq inv pinv sf ppf Hqr Hls Hinv y). Qed.
End Ex.
Print Assumptions C121_unit_period_effects.
Print Assumptions C121_level_scale.
Print Assumptions C121_complete_panel_case.
Print Assumptions C121_incomplete_panel_value.
Print Assumptions C121_unit_effects_incomplete_refuted.

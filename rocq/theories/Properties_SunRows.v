(* Row order and unit labels: SunAbraham and MultiPeriodDiD (C130). *)
From Coq Require Import Reals.
From Verif Require Import Prelude Flt Stats_model Linalg_model Linalg_proofs Linalg_vcov Linalg_thms Did_model Did_spec Did_proofs Did_equiv Within_proofs Multi_model Multi_proofs Multi_thms
  Bacon_model Staggered_model Staggered_fit Sun_model Sun_proofs Sun_thms Sun_more Sun_cs Sun_inf Sun_ex Sun_rows Sun_rowex.
From Coq Require Import Arith ZArith String List Permutation.
Import ListNotations.
Open Scope R_scope.

Section Reg.
Context {I K : Type} (keq : forall x y : K, {x = y} + {x <> y}).
Variable qr : list I -> list (I -> R) -> list nat.
Variable lstsq : list I -> list (I -> R) -> (I -> R) -> list R.
Variable inv : list I -> list (I -> R) -> option (nat -> nat -> R).
Variable pinv : list I -> list (I -> R) -> nat -> nat -> R.
Hypothesis Hqr : qr_ok qr.
Hypothesis Hls : lstsq_ok lstsq.
Hypothesis Hinv : inv_ok inv.
Notation lfit := (linreg_fit keq qr lstsq inv pinv).
Theorem C130_regression robust cluster action nabs r1 r2 cols y : Permutation r1 r2 -> indep r1 cols ->
  same_reg (length cols) (lfit robust cluster action nabs r1 cols y) (lfit robust cluster action nabs r2 cols y).
Proof. exact (linreg_row_order keq qr lstsq inv pinv Hqr Hls Hinv robust cluster action nabs r1 r2 cols y). Qed.
End Reg.
Section Sun.
Context {I : Type}.
Variable qr : list I -> list (I -> R) -> list nat.
Variable lstsq : list I -> list (I -> R) -> (I -> R) -> list R.
Variable inv : list I -> list (I -> R) -> option (nat -> nat -> R).
Variable pinv : list I -> list (I -> R) -> nat -> nat -> R.
Variable sf : option Z -> fl -> fl.
Variable ppf : option Z -> R -> R.
Variables (u t : I -> Z) (g : I -> coh) (y : I -> R) (covs : list (I -> R)) (cluster : option (I -> Z)).
Section Label.
Variable f : Z -> Z.
Hypothesis Hf : forall a b, f a = f b -> a = b.
Notation u' := (fun i => f (u i)).
(* any rank, any data, errors included *)
Theorem C130_sun_unit_labels cfg rows :
  sa_fit qr lstsq inv pinv sf ppf u' t g y covs cluster cfg rows = sa_fit qr lstsq inv pinv sf ppf u t g y covs cluster cfg rows.
Proof. exact (sa_unit_labels qr lstsq inv pinv sf ppf u t g y covs cluster f Hf cfg rows). Qed.
End Label.
Hypothesis Hqr : qr_ok qr.
Hypothesis Hls : lstsq_ok lstsq.
Hypothesis Hinv : inv_ok inv.
Section Rows.
Variables (rows rows' : list I) (cfg : sa_config).
Hypothesis P : Permutation rows rows'.
Hypothesis Hg : forall i j, In i rows -> In j rows -> u i = u j -> g i = g j.
Notation sa_full_rank := (Sun_rows.sa_full_rank u t g covs rows cfg).
Theorem C130_sun_row_order : sa_full_rank ->
  sa_fit qr lstsq inv pinv sf ppf u t g y covs cluster cfg rows' = sa_fit qr lstsq inv pinv sf ppf u t g y covs cluster cfg rows.
Proof. exact (sa_row_order qr lstsq inv pinv sf ppf Hqr Hls Hinv u t g y covs cluster rows rows' cfg P Hg). Qed.
End Rows.
End Sun.
Section Balanced.
Context {I : Type}.
Variable qr : list I -> list (I -> R) -> list nat.
Variable lstsq : list I -> list (I -> R) -> (I -> R) -> list R.
Variable inv : list I -> list (I -> R) -> option (nat -> nat -> R).
Variable pinv : list I -> list (I -> R) -> nat -> nat -> R.
Variable sf : option Z -> fl -> fl.
Variable ppf : option Z -> R -> R.
Hypothesis Hqr : qr_ok qr.
Hypothesis Hls : lstsq_ok lstsq.
Hypothesis Hinv : inv_ok inv.
Variables (u t : I -> Z) (g : I -> coh) (y : I -> R) (cluster : option (I -> Z)).
Notation fit := (sa_fit qr lstsq inv pinv sf ppf u t g y [] cluster).
Theorem C130_sun_balanced cfg rows rows' C m r : Permutation rows rows' -> balanced Z.eq_dec Z.eq_dec rows u t m -> (forall i, In i rows -> g i = C (u i)) ->
  (forall i, In i rows -> valid_coh (g i) = true) -> ref_observed t g rows cfg -> fit cfg rows = Ok r -> fit cfg rows' = Ok r.
Proof. exact (sa_row_order_balanced qr lstsq inv pinv sf ppf Hqr Hls Hinv u t g y cluster cfg rows rows' C m r). Qed.
End Balanced.
Section Multi.
Context {I K G : Type} (keq : forall x y : K, {x = y} + {x <> y}) (geq : forall x y : G, {x = y} + {x <> y}).
Variable qr : list I -> list (I -> R) -> list nat.
Variable lstsq : list I -> list (I -> R) -> (I -> R) -> list R.
Variable inv : list I -> list (I -> R) -> option (nat -> nat -> R).
Variable sf : option Z -> fl -> fl.
Variable ppf : option Z -> R -> R.
Hypothesis Hqr : qr_ok qr.
Hypothesis Hls : lstsq_ok lstsq.
Hypothesis Hinv : inv_ok inv.
Notation mp_full_rank := (Sun_rows.mp_full_rank geq).
Theorem C130_multi_row_order cfg r1 r2 y d t post ref covs dums absorb : Permutation r1 r2 -> mp_full_rank r1 y d t post ref covs dums absorb ->
  match mp_fit keq geq qr lstsq inv sf ppf cfg r1 y d t post ref covs dums absorb, mp_fit keq geq qr lstsq inv sf ppf cfg r2 y d t post ref covs dums absorb with
  | Ok a, Ok b => mp_same (length (mp_coef a)) a b
  | Err e, Err f => e = f
  | _, _ => False
  end.
Proof. exact (mp_row_order keq geq qr lstsq inv sf ppf Hqr Hls Hinv cfg r1 r2 y d t post ref covs dums absorb). Qed.
Notation fit := (mp_fit keq geq qr lstsq inv sf ppf).
Theorem C130_multi_identified cfg r1 r2 y d t post ref a : Permutation r1 r2 -> zero_one r1 d ->
  fit cfg r1 y d t post ref [] [] [] = Ok a -> identified r1 d t (mp_post a) ->
  exists b, fit cfg r2 y d t post ref [] [] [] = Ok b /\ mp_same (length (mp_coef a)) a b.
Proof. exact (mp_row_order_identified keq geq qr lstsq inv sf ppf Hqr Hls Hinv cfg r1 r2 y d t post ref a). Qed.
End Multi.
Section Ex.
Variable qr : list (Z * Z) -> list ((Z * Z) -> R) -> list nat.
Variable lstsq : list (Z * Z) -> list ((Z * Z) -> R) -> ((Z * Z) -> R) -> list R.
Variable inv : list (Z * Z) -> list ((Z * Z) -> R) -> option (nat -> nat -> R).
Variable pinv : list (Z * Z) -> list ((Z * Z) -> R) -> nat -> nat -> R.
Variable sf : option Z -> fl -> fl.
Variable ppf : option Z -> R -> R.
Hypothesis Hqr : qr_ok qr.
Hypothesis Hls : lstsq_ok lstsq.
Hypothesis Hinv : inv_ok inv.
Notation fit y := (sa_fit qr lstsq inv pinv sf ppf fst snd vary_g y [] None (sa_demo "never_treated" 0)).
Theorem C130_sun_case y rows' : Permutation rows35 rows' -> exists r,
  sa_fit qr lstsq inv pinv sf ppf fst snd (gco C35) y [] None (sa_demo "never_treated" 0) rows35 = Ok r /\
  sa_fit qr lstsq inv pinv sf ppf fst snd (gco C35) y [] None (sa_demo "never_treated" 0) rows' = Ok r.
Proof. exact (row_order_35 qr lstsq inv pinv sf ppf Hqr Hls Hinv y rows'). Qed.
(* without the hypothesis that first_treat is an attribute of the unit the claim is false *)
Theorem C130_sun_varying_cohort_refuted y : exists r r', Permutation vary1 vary2 /\ fit y vary1 = Ok r /\ fit y vary2 = Ok r' /\
  sa_es r = [] /\ sa_att r = Fin 0 /\ sa_rn_treated r = 0%nat /\ sa_rn_control r = 2%nat /\
  map fst (sa_es r') = [0%Z] /\ sa_att r' = Fin (y (1, 2)%Z - y (1, 1)%Z - (y (2, 2)%Z - y (2, 1)%Z)) /\ sa_rn_treated r' = 1%nat /\ sa_rn_control r' = 1%nat.
Proof. exact (row_order_varying_cohort qr lstsq inv pinv sf ppf Hqr Hls Hinv y). Qed.
End Ex.
Theorem C130_multi_case robust y : exists a b, exm_fit (exm_cfg robust None) (seq 0 12) y exm_d exm_t None None [] [] [] = Ok a /\
  exm_fit (exm_cfg robust None) (rev (seq 0 12)) y exm_d exm_t None None [] [] [] = Ok b /\ mp_same (length (mp_coef a)) a b.
Proof. exact (row_order_exm robust y). Qed.
Print Assumptions C130_regression.
Print Assumptions C130_sun_unit_labels.
Print Assumptions C130_sun_row_order.
Print Assumptions C130_sun_balanced.
Print Assumptions C130_multi_row_order.
Print Assumptions C130_multi_identified.
Print Assumptions C130_sun_case.
Print Assumptions C130_sun_varying_cohort_refuted.
Print Assumptions C130_multi_case.

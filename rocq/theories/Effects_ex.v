(* Concrete data for the theorems of Reg_effects and Triple_equiv. *)
From Coq Require Import Reals Lra Lia.
From Verif Require Import Prelude Flt Stats_model Linalg_model Linalg_proofs Linalg_vcov Linalg_thms Linalg_dual Did_model Did_spec Did_proofs Did_equiv Did_more Multi_model Multi_proofs Multi_thms Span_thms Staggered_more Triple_model Triple_proofs Triple_thms Triple_fit Triple_ex Reg_equiv Reg_effects Triple_equiv.
From Coq Require Import Arith ZArith String List Permutation.
Import ListNotations.
Open Scope R_scope.

Theorem ex_effects n robust a b c : (4 < n)%nat ->
  exists r r', ex_fit (ex_cfg robust None) (seq 0 n) ex_y ex_d ex_t [] [] [] = Ok r /\
    ex_fit (ex_cfg robust None) (seq 0 n) (fun i => Fin (toR (ex_y i) + (a + b * toR (ex_d i) + c * toR (ex_t i)))) ex_d ex_t [] [] [] = Ok r' /\
    r_att r' = r_att r /\ r_se r' = r_se r.
Proof.
  intros Hn. destruct (ex_fit_ok n robust Hn) as (r & se & Hr & _).
  destruct (did_group_period_effects Nat.eq_dec Nat.eq_dec (@gs_dropped nat) (@gs nat) (@gs_inv nat) ex_pinv toy_sf toy_ppf gs_dropped_ok gs_ok gs_inv_ok
    (ex_cfg robust None) (seq 0 n) ex_y (fun i => Fin (toR (ex_y i) + (a + b * toR (ex_d i) + c * toR (ex_t i)))) ex_d ex_t r a b c) as (r' & Hr' & A & B & _).
  - intros; reflexivity.
  - apply ex_four; lia.
  - left. now rewrite seq_length.
  - exact Hr.
  - exists r, r'. auto.
Qed.
Theorem exm_effects robust y s b g : s <> 0 ->
  exists r r', exm_fit (exm_cfg robust None) (seq 0 12) y exm_d exm_t None None [] [] [] = Ok r /\
    exm_fit (exm_cfg robust None) (seq 0 12) (fun i => s * y i + (b * exm_d i + g (exm_t i))) exm_d exm_t None None [] [] [] = Ok r' /\
    mp_post r = [1; 2]%Z /\ mp_avg r' = fmul (Fin s) (mp_avg r) /\ mp_avg_se r' = fmul (Fin (Rabs s)) (mp_avg_se r).
Proof.
  intros Hs. destruct (exm_fit_ok robust y) as (r & Hr & Hpre & Hpost & Hid).
  destruct (mp_group_period_effects Nat.eq_dec Nat.eq_dec (@gs_dropped nat) (@gs nat) (@gs_inv nat) toy_sf toy_ppf gs_dropped_ok gs_ok gs_inv_ok
    (exm_cfg robust None) (seq 0 12) y (fun i => s * y i + (b * exm_d i + g (exm_t i))) exm_d exm_t None None r s b g) as (r' & Hr' & A).
  - exact Hs.
  - intros; reflexivity.
  - exact Hr.
  - exact Hid.
  - right; right. rewrite Hpost. change (data_periods (seq 0 12) exm_t) with [0; 1; 2]%Z. cbn. lia.
  - exists r, r'. tauto.
Qed.

Section Ex.
Variable pinv : list b3 -> list (b3 -> R) -> nat -> nat -> R.
Variable logit : list b3 -> list (b3 -> R) -> (b3 -> R) -> option (b3 -> R).
Notation fit := (ddd_fit Z.eq_dec (@gs_dropped b3) (@gs b3) (@gs_inv b3) pinv toy_sf toy_ppf logit).
Theorem ex9_reg_effects cl y h1 h2 h3 : (forall i, y i <> None) -> exists r r', fit cfgc cl rows9 y gB pB tB [] = Ok r /\
  fit cfgc cl rows9 (fun i => Some (oR (y i) + pairwise h1 h2 h3 (oR (gB i)) (oR (pB i)) (oR (tB i)))) gB pB tB [] = Ok r' /\ tr_att r' = fmul (Fin 1) (tr_att r).
Proof.
  intros Hy. destruct (ex9_fits_reg pinv logit cl y Hy) as [r Hr].
  destruct (reg_pairwise Z.eq_dec (@gs_dropped b3) (@gs b3) (@gs_inv b3) pinv toy_sf toy_ppf logit gs_dropped_ok gs_ok gs_inv_ok cfgc cl rows9 y
    (fun i => Some (oR (y i) + pairwise h1 h2 h3 (oR (gB i)) (oR (pB i)) (oR (tB i)))) gB pB tB [] r 1 h1 h2 h3 []) as (r' & Hr' & A & _); auto.
  - intros i _. f_equal. cbn. ring.
  - exact ex9_identified.
  - exists r, r'. auto.
Qed.
End Ex.

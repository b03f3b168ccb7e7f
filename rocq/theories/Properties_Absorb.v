(* absorb= against fixed_effects=, and clustering in the two-by-two design (C110-C112). *)
From Coq Require Import Reals.
From Verif Require Import Prelude Flt Linalg_model Linalg_proofs Linalg_vcov Linalg_thms Linalg_dual Did_model Did_spec Did_proofs Did_equiv Did_more Absorb_thms Absorb_ex Did_cluster.
From Coq Require Import Arith ZArith String List.
Import ListNotations.
Open Scope R_scope.

Section Fit.
Context {I K G : Type} (keq : forall x y : K, {x = y} + {x <> y}) (geq : forall x y : G, {x = y} + {x <> y}).
Variable qr : list I -> list (I -> R) -> list nat.
Variable lstsq : list I -> list (I -> R) -> (I -> R) -> list R.
Variable inv : list I -> list (I -> R) -> option (nat -> nat -> R).
Variable pinv : list I -> list (I -> R) -> nat -> nat -> R.
Variable sf : option Z -> fl -> fl.
Variable ppf : option Z -> R -> R.
Hypothesis Hqr : qr_ok qr.
Hypothesis Hls : lstsq_ok lstsq.
Hypothesis Hinv : inv_ok inv.
Hypothesis Hd : dist_ok sf ppf.
Notation fit := (did_fit keq geq qr lstsq inv pinv sf ppf).
Notation fR x := (fun i => toR (x i)).
Notation dual_var := (dual_var keq).
(* C110 *)
Theorem C110_report cfg rows y d t absorb r :
  fit cfg rows y d t [] [] absorb = Ok r -> four_cells rows (fR d) (fR t) ->
  let y' := fst (fst (absorb_loop geq rows absorb (fR y) [])) in
  r_att r = Fin (did_of_means rows (fR d) (fR t) y') /\
  n_reported (r_coef r) = 4%nat /\
  (forall i, In i rows -> r_resid r i = y' i - cell_mean rows (fR d) (fR t) y' (toR (d i)) (toR (t i))) /\
  (sandwiched cfg -> r_se r = Fin (sqrt (dual_var cfg rows 4 (did_q rows (fR d) (fR t)) (r_resid r))) /\ 0 <= dual_var cfg rows 4 (did_q rows (fR d) (fR t)) (r_resid r) /\ (4 < length rows)%nat).
Proof. eapply absorb_report; eauto. Qed.
Theorem C110_att cfg rows y d t g r : fit cfg rows y d t [] [] [g] = Ok r -> four_cells rows (fR d) (fR t) ->
  r_att r = Fin (did_of_means rows (fR d) (fR t) (fR y) - did_of_means rows (fR d) (fR t) (group_mean geq rows g (fR y))).
Proof. eapply absorb_one_att; eauto. Qed.
Theorem C110_balanced cfg cfg' rows y d t g p q ra rf ds :
  balanced geq rows (fR d) (fR t) g p q -> four_cells rows (fR d) (fR t) ->
  (forall c, In c ds -> forall i j, In i rows -> In j rows -> g i = g j -> c i = c j) ->
  fit cfg rows y d t [] [] [g] = Ok ra -> fit cfg' rows y d t [] ds [] = Ok rf ->
  r_att ra = Fin (did_of_means rows (fR d) (fR t) (fR y)) /\ r_att rf = Fin (did_of_means rows (fR d) (fR t) (fR y)).
Proof. eapply balanced_att; eauto. Qed.
(* C111 *)
Theorem C111_count cfg rows y d t g p q rf k0 ks :
  balanced geq rows (fR d) (fR t) g p q -> four_cells rows (fR d) (fR t) ->
  NoDup (k0 :: ks) -> (forall k, In k (k0 :: ks) <-> In k (map g rows)) ->
  fit cfg rows y d t [] (dummies geq g ks) [] = Ok rf -> n_reported (r_coef rf) = (length (k0 :: ks) + 2)%nat.
Proof. eapply balanced_count; eauto. Qed.
Theorem C111_ratio cfg rows y d t g p q ra rf k0 ks :
  balanced geq rows (fR d) (fR t) g p q -> four_cells rows (fR d) (fR t) ->
  NoDup (k0 :: ks) -> (forall k, In k (k0 :: ks) <-> In k (map g rows)) -> sandwiched cfg ->
  fit cfg rows y d t [] [] [g] = Ok ra -> fit cfg rows y d t [] (dummies geq g ks) [] = Ok rf ->
  exists sa sf, r_se ra = Fin sa /\ r_se rf = Fin sf /\ 0 <= sa /\ 0 <= sf /\
    len (k0 :: ks) + 2 < len rows /\
    sf * sf * (len rows - (len (k0 :: ks) + 2)) = sa * sa * (len rows - 4).
Proof. eapply balanced_ratio; eauto. Qed.
Theorem C111_two_rows_refuted cfg rows y d t g p q ra rf k0 ks :
  balanced geq rows (fR d) (fR t) g p q -> four_cells rows (fR d) (fR t) ->
  NoDup (k0 :: ks) -> (forall k, In k (k0 :: ks) <-> In k (map g rows)) -> sandwiched cfg -> len rows = 2 * len (k0 :: ks) ->
  fit cfg rows y d t [] [] [g] = Ok ra -> fit cfg rows y d t [] (dummies geq g ks) [] = Ok rf ->
  exists sa, 0 <= sa /\ r_se ra = Fin sa /\ r_se rf = Fin (sqrt 2 * sa).
Proof. eapply two_row_ratio; eauto. Qed.
(* C112 *)
Theorem C112_closed_form cfg rows y d t cl r : fit cfg rows y d t [] [] [] = Ok r -> c_cluster cfg = Some cl -> four_cells rows (fR d) (fR t) ->
  r_se r = Fin (sqrt (did_cl keq rows (fR d) (fR t) (fR y) cl)) /\ 0 <= did_cl keq rows (fR d) (fR t) (fR y) cl.
Proof. eapply did_cluster_se; eauto. Qed.
Theorem C112_cells_refuted cfg rows y d t cl r : fit cfg rows y d t [] [] [] = Ok r -> c_cluster cfg = Some cl -> four_cells rows (fR d) (fR t) ->
  (forall i j, In i rows -> In j rows -> toR (d i) = toR (d j) -> toR (t i) = toR (t j) -> cl i = cl j) ->
  r_se r = Fin 0 /\ (r_att r <> Fin 0 -> r_p r = Fin 0 /\ (0 < c_alpha cfg -> r_signif r = true)) /\ r_ci r = (r_att r, r_att r).
Proof. eapply cell_clusters_zero; eauto. Qed.
End Fit.
Theorem C110_unbalanced_refuted : exists ra rf rp,
  a_fit (a_cfg None) b_rows b_y b_d b_t [] [] [b_g] = Ok ra /\ a_fit (a_cfg None) b_rows b_y b_d b_t [] (dummies Nat.eq_dec b_g [1; 2]%nat) [] = Ok rf /\
  a_fit (a_cfg None) b_rows b_y b_d b_t [] [] [] = Ok rp /\ r_att ra = Fin 3 /\ r_att rf = Fin 4 /\ r_att rp = Fin 9.
Proof. exact unbalanced_case. Qed.
Theorem C111_case : exists ra rf sa,
  a_fit (a_cfg None) p_rows p_y p_d p_t [] [] [p_g] = Ok ra /\ a_fit (a_cfg None) p_rows p_y p_d p_t [] (dummies Nat.eq_dec p_g [1; 2; 3]%nat) [] = Ok rf /\
  r_att ra = Fin 2 /\ r_att rf = Fin 2 /\ 0 < sa /\ r_se ra = Fin sa /\ r_se rf = Fin (sqrt 2 * sa).
Proof. exact panel_case. Qed.
Theorem C112_case : exists r, a_fit (a_cfg (Some (fun i => if p_b i then 1 else 0)%nat)) p_rows p_y p_d p_t [] [] [] = Ok r /\
  r_att r = Fin 2 /\ r_se r = Fin 0 /\ r_p r = Fin 0 /\ r_ci r = (Fin 2, Fin 2) /\ r_signif r = true /\ r_resid r 7%nat = 3.
Proof. exact arm_cluster_case. Qed.
Print Assumptions C110_report.
Print Assumptions C110_att.
Print Assumptions C110_balanced.
Print Assumptions C110_unbalanced_refuted.
Print Assumptions C111_count.
Print Assumptions C111_ratio.
Print Assumptions C111_two_rows_refuted.
Print Assumptions C111_case.
Print Assumptions C112_closed_form.
Print Assumptions C112_cells_refuted.
Print Assumptions C112_case.

(* Further properties of TROP (both methods). *)
From Coq Require Import Reals.
From Verif Require Import Prelude Flt Linalg_model Linalg_minnorm Trop_model Trop_proofs Trop_thms Trop_conv Trop_obj Trop_ex Trop_joint Trop_jproofs Trop_jthms Trop_jmore Trop_svd2 Trop_more2.
From Coq Require Import Arith ZArith String List.
Import ListNotations.
Open Scope R_scope.

(* C75 *)
Theorem C75_unit_levels_refuted svd d h maxit tol : svd_ok svd -> 0 < d < tol -> tol <= / 10 -> 100 <= h ->
  fit_at svd (Some (uY d 0, uD)) 2 2 (uY d 0) uD 0 0 (Some h) (S (S maxit)) tol None (1, 1)%nat = Fin (- (d / 2)) /\
  add_unit (uY d 0) (fun _ => 1) = uY d 1 /\
  fit_at svd (Some (uY d 1, uD)) 2 2 (uY d 1) uD 0 0 (Some h) (S (S maxit)) tol None (1, 1)%nat = Fin (- (7 / 8 * d)).
Proof. eapply unit_level_stop; eauto. Qed.
(* C78: a decomposition meeting the hypotheses on panels with two periods *)
Theorem C78_svd_two : svd_ok svd_two.
Proof. eapply svd_two_ok; eauto. Qed.
Theorem C78_svd_two_len : svd_len svd_two.
Proof. eapply svd_two_len; eauto. Qed.
Theorem C78_svd_two_total N M : (2 <= N)%nat -> svd_two 2%nat N M <> None.
Proof. eapply svd_two_total; eauto. Qed.
(* C86 *)
Section C86.
Variable lstsq : lstsq_fn.
Variable svd : svd_fn.
Hypothesis Hmn : mn_ok lstsq.
Hypothesis Hok : svd_ok svd.
Hypothesis Hlen : svd_len svd.
Variables (T N : nat).
Hypothesis Htot : forall M, svd T N M <> None.
Notation doc_obj := (doc_obj T N).
Theorem C86_descent Y D w h maxit tol c L n mu a b tau : (forall t i, 0 <= w t i) -> 0 <= h ->
  j_solve lstsq svd T N Y D w h maxit tol = JOk (c, L) -> nuc_is T N L n ->
  doc_obj Y D w h c L n <= doc_obj Y D w h (mkc mu a b tau) zmat 0 + INR maxit * (wmax T N (seen Y w) * INR (Nat.min T N) * / 10 ^ 20).
Proof. eapply joint_descent_doc; eauto. Qed.
End C86.
Theorem C86_case : exists c L n, j_solve (@mn_solve cell2) svd_two 2 2 (uY 3 1) uD (fun _ _ => 1) 1 2 (/ 10 ^ 6) = JOk (c, L) /\ nuc_is 2 2 L n.
Proof. eapply joint_doc_case; eauto. Qed.
Print Assumptions C75_unit_levels_refuted.
Print Assumptions C78_svd_two.
Print Assumptions C78_svd_two_len.
Print Assumptions C78_svd_two_total.
Print Assumptions C86_descent.
Print Assumptions C86_case.

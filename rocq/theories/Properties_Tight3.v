(* The Rust joint bootstrap: level shifts and the resample that draws every unit once (C107, C108). *)
From Coq Require Import Reals.
From Verif Require Import Prelude Flt Stats_model Linalg_model Linalg_minnorm Multi_model Trop_model Trop_proofs Trop_joint Trop_jproofs Trop_jthms Trop_rust
  Trop_rjoint Trop_rjoint_proofs Trop_rjoint_thms Trop_rjoint_ex Trop_rjshift.
From Coq Require Import Arith ZArith String List.
Import ListNotations.
Open Scope R_scope.

Section Sh.
Variable Y : omat.
Variable k : R.
Hypothesis HY : forall t i, has Y t i = true.
Variables (T N p : nat) (D : dmat).
Theorem C107_fit_level svd W h maxit tol :
  rj_fit svd T N (shift_o k Y) D W h maxit tol = shift_fit k (rj_fit svd T N Y D W h maxit tol).
Proof. exact (rj_fit_shift Y k HY T N D svd W h maxit tol). Qed.
End Sh.
Theorem C107_boot_level svd T p Y D k lt lu h maxit tol draws : (forall t i, has Y t i = true) ->
  rj_boot svd T p (shift_o k Y) D lt lu h maxit tol draws = rj_boot svd T p Y D lt lu h maxit tol draws.
Proof. exact (rj_boot_shift svd T p Y D k lt lu h maxit tol draws). Qed.
Theorem C108_boot_identity svd T N p Y D lt lu h maxit tol c L :
  (forall t i, (N <= i)%nat -> Y t i = Y t 0%nat /\ D t i = D t 0%nat) ->
  rj_fit svd T N Y D (rj_weights T N p Y D lt lu) h maxit tol = RFit c L ->
  rj_boot svd T p Y D lt lu h maxit tol [seq 0 N] = [Fin (jtau c)].
Proof. exact (rj_boot_identity svd T N p Y D lt lu h maxit tol c L). Qed.
Theorem C108_boot_case svd lu maxit tol c : 0 < c -> exists x, x <= c / 2 /\
  rj_boot svd 2 1 (Y22 c) D22 5 lu (10 ^ 10) maxit tol [[0; 1]%nat] = [Fin x].
Proof. exact (rj_boot_case svd lu maxit tol c). Qed.
Print Assumptions C107_fit_level.
Print Assumptions C107_boot_level.
Print Assumptions C108_boot_identity.
Print Assumptions C108_boot_case.

(* TROP cross-validation and the outcome of the left-out cell (C118). *)
From Coq Require Import Reals.
From Verif Require Import Prelude Flt Linalg_model Linalg_minnorm Trop_model Trop_rust Trop_joint Trop_jex Trop_rjoint Trop_loo.
From Coq Require Import Arith ZArith String List.
Import ListNotations.
Open Scope R_scope.

Theorem C118_two_step svd T N Y D lt lu h maxit tol (stored : bool) c :
  exists x, forall v, let Y' := set_cell Y c v in
    fit_at svd (if stored then Some (Y', D) else None) T N Y' D lt lu h maxit tol (Some c) c = Fin (v - x).
Proof. apply loo_honest. Qed.
Theorem C118_two_step_compiled svd T N Y D lt lu h maxit tol c :
  exists x, forall v, r_fit_at svd T N (set_cell Y c v) D lt lu h maxit tol (Some c) c = Fin (v - x).
Proof. apply r_loo_honest. Qed.
Theorem C118_joint_partial lstsq svd T N p Y D lt lu h maxit tol c w : mn_ok lstsq -> lu = 0 \/ (T - p <= fst c)%nat ->
  j_weights T N p (set_cell Y c 0) D lt lu = JOk w -> (forall t i, 0 <= w t i) ->
  exists r, (forall v, j_weights T N p (set_cell Y c v) D lt lu = JOk w /\ j_solve lstsq svd T N (set_cell Y c v) D (skip w c) h maxit tol = r) /\
    forall s, r = JOk s -> exists x, forall v, j_pseudo (set_cell Y c v) s c = v - x.
Proof. apply joint_loo_honest. Qed.
Theorem C118_joint_fixed_weights lstsq svd T N Y D w h maxit tol c : mn_ok lstsq -> (forall t i, 0 <= w t i) ->
  exists r, (forall v, j_solve lstsq svd T N (set_cell Y c v) D (skip w c) h maxit tol = r) /\
    forall s, r = JOk s -> exists x, forall v, j_pseudo (set_cell Y c v) s c = v - x.
Proof. apply joint_loo_fixed_weights. Qed.
Theorem C118_joint_compiled_fixed_weights svd T N Y D W h maxit tol c :
  exists r, (forall v, rj_fit svd T N (set_cell Y c v) D (rj_skip W c) h maxit tol = r) /\
    forall co L, r = RFit co L -> exists x, forall v, j_pseudo (set_cell Y c v) (co, L) c = v - x.
Proof. apply rj_loo_fixed_weights. Qed.
Theorem C118_joint_value lstsq svd v lu maxit tol : mn_ok lstsq ->
  exists w s, j_weights 3 3 1 (loY v) vD 0 lu = JOk w /\
    j_solve lstsq svd 3 3 (loY v) vD (skip w (0, 0)%nat) (10 ^ 10) maxit tol = JOk s /\
    j_pseudo (loY v) s (0, 0)%nat = v - (4 + 2 * loW v lu) / (7 * loW v lu + 8).
Proof. apply joint_loo_value. Qed.
Theorem C118_joint_refuted lstsq svd v lu maxit tol : mn_ok lstsq -> 0 < lu -> v <> 0 ->
  exists w0 s0 w s x0 x,
    j_weights 3 3 1 (loY 0) vD 0 lu = JOk w0 /\ j_solve lstsq svd 3 3 (loY 0) vD (skip w0 (0, 0)%nat) (10 ^ 10) maxit tol = JOk s0 /\
    j_weights 3 3 1 (loY v) vD 0 lu = JOk w /\ j_solve lstsq svd 3 3 (loY v) vD (skip w (0, 0)%nat) (10 ^ 10) maxit tol = JOk s /\
    j_pseudo (loY 0) s0 (0, 0)%nat = 0 - x0 /\ j_pseudo (loY v) s (0, 0)%nat = v - x /\ x0 = 2 / 5 /\ 2 / 5 < x.
Proof. apply joint_loo_dependent. Qed.
Print Assumptions C118_two_step.
Print Assumptions C118_two_step_compiled.
Print Assumptions C118_joint_partial.
Print Assumptions C118_joint_fixed_weights.
Print Assumptions C118_joint_compiled_fixed_weights.
Print Assumptions C118_joint_value.
Print Assumptions C118_joint_refuted.

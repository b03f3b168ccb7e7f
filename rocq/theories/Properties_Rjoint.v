(* Properties of the compiled joint TROP code (rust/src/trop.rs:1077-1721) and of the routing to it. *)
From Verif Require Import Prelude Flt Stats_model Linalg_model Linalg_proofs Linalg_minnorm Multi_model Trop_model Trop_proofs Trop_joint Trop_jproofs Trop_jthms Trop_rust Trop_rjoint Trop_rjoint_proofs Trop_rjoint_thms Trop_rjoint_ex.
From Coq Require Import Arith ZArith String List.
Import ListNotations.
Open Scope R_scope.

(* C105 *)
Theorem C105_settled_partial lstsq svd T N p Y D lt lu h maxit tol w c L cp Lp : mn_ok lstsq -> (forall t i, D t i = 0%Z \/ D t i = 1%Z) ->
  j_weights T N p Y D lt lu = JOk w -> (forall i, (i < N)%nat -> j_valid T N p Y D i <> [] \/ lu <> 0) -> 10 ^ 10 <= h ->
  rj_fit svd T N Y D (rj_weights T N p Y D lt lu) h maxit tol = RFit c L -> j_fixed lstsq svd T N p Y D lt lu h maxit tol = JOk (cp, Lp) ->
  settled T N (ysafe Y) D (seen Y w) c -> gates T N D (seen Y w) ->
  L = Lp /\ (forall t i, (t < T)%nat -> (i < N)%nat -> 0 < seen Y w t i -> fitv D c t i = fitv D cp t i) /\
  (ident T N D (seen Y w) -> jtau c = jtau cp).
Proof. eapply fit_agrees; eauto. Qed.
Theorem C105_fails_alike lstsq svd T N p Y D lt lu h maxit tol w : j_weights T N p Y D lt lu = JOk w ->
  (forall i, (i < N)%nat -> j_valid T N p Y D i <> [] \/ lu <> 0) -> 10 ^ 10 <= h ->
  (rj_fit svd T N Y D (rj_weights T N p Y D lt lu) h maxit tol = RNone <-> j_fixed lstsq svd T N p Y D lt lu h maxit tol = JVal).
Proof. eapply fit_fails; eauto. Qed.
Theorem C105_cap_refuted lstsq svd lu maxit tol c : mn_ok lstsq -> 0 < c ->
  (exists co, rj_fit svd 2 2 (Y22 c) D22 (rj_weights 2 2 1 (Y22 c) D22 5 lu) (10 ^ 10) maxit tol = RFit co zmat /\ jtau co <= c / 2) /\
  (exists cp, j_fixed lstsq svd 2 2 1 (Y22 c) D22 5 lu (10 ^ 10) maxit tol = JOk (cp, zmat) /\ jtau cp = c).
Proof. eapply compiled_half; eauto. Qed.
Theorem C105_light_refuted lstsq svd maxit tol c : mn_ok lstsq ->
  (exists co, rj_fit svd 2 3 (Y23 c) D23 (rj_weights 2 3 1 (Y23 c) D23 0 5) (10 ^ 10) maxit tol = RFit co zmat /\ jtau co = 0) /\
  (exists cp, j_fixed lstsq svd 2 3 1 (Y23 c) D23 0 5 (10 ^ 10) maxit tol = JOk (cp, zmat) /\ jtau cp = c).
Proof. eapply far_treated; eauto. Qed.
Theorem C105_tiny_refuted : exists co, rj_solve 2 2 (y22 (/ 10 ^ 9)) D22 (w22 1 1) = Some co /\ jtau co = 3 / 8 * / 10 ^ 9.
Proof. eapply absolute_stop; eauto. Qed.
Theorem C105_tiny_exact lstsq c : mn_ok lstsq -> exists cp, wls lstsq 2 2 (y22 c) D22 (w22 1 1) = JOk cp /\ jtau cp = c.
Proof. eapply wls22; eauto. Qed.
Theorem C105_case g : settled 2 3 (y32 g) D32 one (c32 g) /\ gates 2 3 D32 one /\ wpos2 2 3 one /\ ident 2 3 D32 one.
Proof. eapply settled32; eauto. Qed.
(* C106 *)
Section C106.
Variables (T N : nat) (y : mat) (D : dmat) (w : mat).
Hypothesis HD : forall t i, D t i = 0%Z \/ D t i = 1%Z.
Notation S0 := (wssr T N y D w).
Theorem C106_sweep c : 0 < sumf (fun x => w (fst x) (snd x)) (cells T N) -> S0 (rj_sweep T N y D w c) <= S0 c.
Proof. eapply sweep_descent; eauto. Qed.
Theorem C106_solve c : rj_solve T N y D w = Some c -> S0 c <= S0 (rj_start T N y w).
Proof. eapply solve_descent; eauto. Qed.
Theorem C106_constant m : 0 < sumf (fun x => w (fst x) (snd x)) (cells T N) ->
  S0 (rj_start T N y w) <= bsum (seq 0 N) (seq 0 T) (fun t i => w t i * (y t i - m) * (y t i - m)).
Proof. eapply start_const; eauto. Qed.
End C106.
(* the two-by-two panel meets the hypotheses *)
Theorem C106_case c : (forall t i, D22 t i = 0%Z \/ D22 t i = 1%Z) /\ 0 < sumf (fun x => w22 1 1 (fst x) (snd x)) (cells 2 2)
  /\ exists co, rj_solve 2 2 (y22 c) D22 (w22 1 1) = Some co.
Proof. exact (case22 c). Qed.
(* C107 *)
Section C107.
Variables (T N : nat) (D : dmat) (w : mat).
Theorem C107_level y k : rj_solve T N (fun t i => y t i + k) D w = option_map (shift_c k) (rj_solve T N y D w).
Proof. eapply solve_shift; eauto. Qed.
Theorem C107_sign y : rj_solve T N (fun t i => -1 * y t i) D w = option_map (scale_c (-1)) (rj_solve T N y D w).
Proof. eapply solve_neg; eauto. Qed.
Theorem C107_sweep_scale y k c : rj_sweep T N (fun t i => k * y t i) D w (scale_c k c) = scale_c k (rj_sweep T N y D w c).
Proof. eapply sweep_scale; eauto. Qed.
End C107.
Theorem C107_scale_refuted : exists y k, 0 < k /\
  rj_solve 2 2 (fun t i => k * y t i) D22 (w22 1 1) <> option_map (scale_c k) (rj_solve 2 2 y D22 (w22 1 1)).
Proof. eapply scale_breaks; eauto. Qed.
(* C108 *)
Theorem C108_weights T N p Y D lt lu w t i : j_weights T N p Y D lt lu = JOk w -> j_valid T N p Y D i <> [] \/ lu <> 0 ->
  rj_weights T N p Y D lt lu t i = Some (w t i).
Proof. eapply rj_weights_some; eauto. Qed.
Theorem C108_nan_weights_refuted T N p Y D lt i t : (0 < T - p)%nat -> j_valid T N p Y D i = [] -> rj_weights T N p Y D lt 0 t i = None.
Proof. eapply rj_weights_nan; eauto. Qed.
Theorem C108_nan_fit_refuted svd tr c h maxit tol :
  rj_fit svd 2 3 (Y3n tr c) (D3n tr) (rj_weights 2 3 1 (Y3n tr c) (D3n tr) 0 0) h maxit tol = RNanFit (if tr then Fin 0 else NaN).
Proof. eapply nan_fit; eauto. Qed.
Theorem C108_nan_fit_python lstsq svd tr c maxit tol : mn_ok lstsq ->
  exists cp, j_fixed lstsq svd 2 3 1 (Y3n tr c) (D3n tr) 0 0 (10 ^ 10) maxit tol = JOk (cp, zmat) /\ jtau cp = c.
Proof. eapply nan_fit_python; eauto. Qed.
Theorem C108_nan_se l : In NaN l -> rj_boot_se l = NaN.
Proof. eapply rj_boot_nan; eauto. Qed.
(* C109 *)
Theorem C109_search lstsq svd sub rsub cfg T N p Y D :
  let obs := loocv_obs rsub (tc_maxs cfg) (control_obs T N Y D) in
  let score := fun l : lam3 => rj_score svd T N p Y D obs (tc_maxit cfg) (tc_tol cfg) (conv_w (fst (fst l))) (conv_w (snd (fst l))) (conv_nn (snd l)) in
  let g := grid3 (tc_gt cfg) (tc_gu cfg) (tc_gn cfg) in
  (exists l v, rj_tune lstsq svd sub rsub cfg T N p Y D = JOk (l, v) /\ ffinite v = true /\ In l g /\ score l = v /\ forall l', In l' g -> flt (score l') v = false)
  \/ ((forall l, In l g -> ffinite (score l) = false) /\ rj_tune lstsq svd sub rsub cfg T N p Y D = j_tune lstsq svd sub cfg T N p Y D).
Proof. eapply rj_tune_spec; eauto. Qed.
Theorem C109_nan_score svd T N p Y D obs maxit tol lt h c t i : (0 < T - p)%nat -> In c obs -> (t < T)%nat -> (i < N)%nat -> has Y t i = true ->
  j_valid T N p Y D i = [] -> (t, i) <> c -> ffinite (rj_score svd T N p Y D obs maxit tol lt 0 h) = false.
Proof. eapply rj_score_poison; eauto. Qed.

Print Assumptions C105_settled_partial.
Print Assumptions C105_fails_alike.
Print Assumptions C105_cap_refuted.
Print Assumptions C105_light_refuted.
Print Assumptions C105_tiny_refuted.
Print Assumptions C105_tiny_exact.
Print Assumptions C105_case.
Print Assumptions C106_sweep.
Print Assumptions C106_solve.
Print Assumptions C106_constant.
Print Assumptions C106_case.
Print Assumptions C107_level.
Print Assumptions C107_sign.
Print Assumptions C107_sweep_scale.
Print Assumptions C107_scale_refuted.
Print Assumptions C108_weights.
Print Assumptions C108_nan_weights_refuted.
Print Assumptions C108_nan_fit_refuted.
Print Assumptions C108_nan_fit_python.
Print Assumptions C108_nan_se.
Print Assumptions C109_search.
Print Assumptions C109_nan_score.

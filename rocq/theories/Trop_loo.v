(* TROP cross-validation: does the prediction of a left-out cell use the cell's own outcome? *)
From Verif Require Import Prelude Flt Stats_model Stats_proofs Linalg_model Linalg_proofs Linalg_minnorm Multi_model Trop_model Trop_proofs Trop_rust Trop_rust_proofs Trop_rust_thms Trop_joint Trop_jproofs Trop_jfit Trop_jthms Trop_jmore Trop_jex Trop_rjoint.
From Coq Require Import Arith ZArith String List FunctionalExtensionality.
Import ListNotations.
Open Scope R_scope.

(* the panel with outcome [v] in cell [c] *)
Definition set_cell (Y : omat) (c : nat * nat) (v : R) : omat :=
  fun t i => if (t =? fst c)%nat && (i =? snd c)%nat then Some v else Y t i.
Lemma set_same Y c v : set_cell Y c v (fst c) (snd c) = Some v.
Proof. unfold set_cell. now rewrite !Nat.eqb_refl. Qed.
Lemma set_other Y c v t i : (t =? fst c)%nat && (i =? snd c)%nat = false -> set_cell Y c v t i = Y t i.
Proof. unfold set_cell. now intros ->. Qed.
Lemma has_set Y c v v' t i : has (set_cell Y c v) t i = has (set_cell Y c v') t i.
Proof. unfold has, set_cell. now destruct (_ && _). Qed.
Lemma ysafe_set Y c v v' t i : (t =? fst c)%nat && (i =? snd c)%nat = false -> ysafe (set_cell Y c v) t i = ysafe (set_cell Y c v') t i.
Proof. intros H. unfold ysafe. now rewrite !set_other. Qed.

(* two-step method *)
Lemma dist_obs_set T Y D t i v v' j : dist_obs T (set_cell Y (t, i) v) D j i t = dist_obs T (set_cell Y (t, i) v') D j i t.
Proof.
  unfold dist_obs.
  assert (E : dvalid (set_cell Y (t, i) v) D j i t = dvalid (set_cell Y (t, i) v') D j i t).
  { apply functional_extensionality. intros s. unfold dvalid. now rewrite !(has_set Y (t, i) v v'). }
  rewrite E. destruct (filter _ _) eqn:F; [easy|]. f_equal. f_equal. apply meanf_ext. intros s Hs. rewrite <- F in Hs. apply filter_In in Hs.
  destruct Hs as [_ Hs]. assert (Hne : (s =? t)%nat = false) by (unfold dvalid in Hs; now destruct (s =? t)%nat).
  rewrite !(ysafe_set Y (t, i) v v'); cbn [fst snd]; rewrite ?Hne; reflexivity.
Qed.
Lemma masked_set Y D c v v' W : masked (set_cell Y c v) D (Some c) W = masked (set_cell Y c v') D (Some c) W.
Proof.
  apply functional_extensionality; intros t; apply functional_extensionality; intros i. unfold masked, mask. now rewrite (has_set Y c v v').
Qed.
Lemma masked_out Y D c W t i : masked Y D (Some c) W t i <> 0 -> (t =? fst c)%nat && (i =? snd c)%nat = false.
Proof.
  unfold masked, mask. destruct c as [a b]. cbn [fst snd]. destruct ((t =? a)%nat && (i =? b)%nat); [|easy]. cbn [negb]. rewrite !andb_false_r. easy.
Qed.
Theorem loo_honest svd T N Y D lt lu h maxit tol (stored : bool) c :
  exists x, forall v, let Y' := set_cell Y c v in
    fit_at svd (if stored then Some (Y', D) else None) T N Y' D lt lu h maxit tol (Some c) c = Fin (v - x).
Proof.
  destruct c as [t i].
  set (s0 := estimate svd T N (set_cell Y (t, i) 0) D (obs_w None T (set_cell Y (t, i) 0) D lt lu i t) h maxit tol (Some (t, i))).
  exists (ta s0 i + tb s0 t + tlo s0 t i). intros v. cbv zeta. unfold fit_at.
  assert (EW : obs_w (if stored then Some (set_cell Y (t, i) v, D) else None) T (set_cell Y (t, i) v) D lt lu i t = obs_w None T (set_cell Y (t, i) 0) D lt lu i t).
  { unfold obs_w. apply functional_extensionality; intros s; apply functional_extensionality; intros j. f_equal.
    destruct stored; unfold unit_w; now rewrite (dist_obs_set T Y D t i v 0). }
  rewrite EW. assert (ES : estimate svd T N (set_cell Y (t, i) v) D (obs_w None T (set_cell Y (t, i) 0) D lt lu i t) h maxit tol (Some (t, i)) = s0).
  { unfold s0, estimate. rewrite (masked_set Y D (t, i) v 0). apply est_loop_cong. intros s j Hz. apply masked_out in Hz. now apply ysafe_set. }
  rewrite ES. unfold tau. rewrite (set_same Y (t, i) v : set_cell Y (t, i) v t i = Some v). f_equal. ring.
Qed.
(* the compiled two-step search *)
Theorem r_loo_honest svd T N Y D lt lu h maxit tol c :
  exists x, forall v, r_fit_at svd T N (set_cell Y c v) D lt lu h maxit tol (Some c) c = Fin (v - x).
Proof.
  destruct c as [t i].
  set (s0 := r_estimate svd T N (set_cell Y (t, i) 0) D (r_w T N (set_cell Y (t, i) 0) D lt lu i t) h maxit tol (Some (t, i))).
  exists (ta s0 i + tb s0 t + tlo s0 t i). intros v. unfold r_fit_at.
  assert (EW : r_w T N (set_cell Y (t, i) v) D lt lu i t = r_w T N (set_cell Y (t, i) 0) D lt lu i t).
  { unfold r_w. assert (E : r_unit_raw T (set_cell Y (t, i) v) D lu i t = r_unit_raw T (set_cell Y (t, i) 0) D lu i t).
    { apply functional_extensionality; intros j. unfold r_unit_raw. rewrite !r_dist_obs_eq. now rewrite (dist_obs_set T Y D t i v 0). }
    now rewrite E. }
  rewrite EW. assert (ES : r_estimate svd T N (set_cell Y (t, i) v) D (r_w T N (set_cell Y (t, i) 0) D lt lu i t) h maxit tol (Some (t, i)) = s0).
  { unfold s0, r_estimate. rewrite (masked_set Y D (t, i) v 0). apply r_loop_cong. intros s j Hz. apply masked_out in Hz. now apply ysafe_set. }
  rewrite ES. unfold tau. rewrite (set_same Y (t, i) v : set_cell Y (t, i) v t i = Some v). f_equal. ring.
Qed.

(* ------------------------------------------------------------------------------------------- *)
(* joint method: the fit leaves the cell out, the weights do not *)
Lemma skip_nz w c t i : skip w c t i <> 0 -> (t =? fst c)%nat && (i =? snd c)%nat = false.
Proof. unfold skip. destruct (_ && _); [intros H; now destruct H|easy]. Qed.
Lemma skip_nonneg (w : mat) c : (forall t i, 0 <= w t i) -> forall t i, 0 <= skip w c t i.
Proof. intros H t i. unfold skip. destruct (_ && _); [lra|apply H]. Qed.
Theorem joint_loo_fixed_weights lstsq svd T N Y D w h maxit tol c : mn_ok lstsq -> (forall t i, 0 <= w t i) ->
  exists r, (forall v, j_solve lstsq svd T N (set_cell Y c v) D (skip w c) h maxit tol = r) /\
    forall s, r = JOk s -> exists x, forall v, j_pseudo (set_cell Y c v) s c = v - x.
Proof.
  intros Hmn Hw. exists (j_solve lstsq svd T N (set_cell Y c 0) D (skip w c) h maxit tol). split.
  - intros v. apply solve_cong; [easy|apply skip_nonneg, Hw|]. intros t i Hz. apply skip_nz in Hz. now rewrite !set_other.
  - intros [co L] _. exists (jmu co + ja co (snd c) + jb co (fst c) + L (fst c) (snd c)). intros v. unfold j_pseudo.
    unfold ysafe. rewrite set_same. ring.
Qed.
Lemma avg_set T N Y D c v v' t : t <> fst c -> avg_treated T N (set_cell Y c v) D t = avg_treated T N (set_cell Y c v') D t.
Proof.
  intros Ht. unfold avg_treated. assert (E : (t =? fst c)%nat = false) by now apply Nat.eqb_neq.
  erewrite filter_ext; [|intros i; rewrite (has_set Y c v v'); reflexivity].
  destruct (filter _ _) eqn:F; [easy|]. f_equal. apply meanf_ext. intros i _. apply ysafe_set. now rewrite E.
Qed.
Lemma avg_none T N Y D c v v' t : avg_treated T N (set_cell Y c v) D t = None <-> avg_treated T N (set_cell Y c v') D t = None.
Proof.
  unfold avg_treated. erewrite (filter_ext _ (fun i => ever T D i && has (set_cell Y c v') t i)); [|intros i; now rewrite (has_set Y c v v')].
  destruct (filter _ _); easy.
Qed.
Lemma j_valid_set T N p Y D c v v' : j_valid T N p (set_cell Y c v) D = j_valid T N p (set_cell Y c v') D.
Proof.
  apply functional_extensionality. intros i. unfold j_valid. apply filter_ext. intros t. rewrite (has_set Y c v v'). f_equal. f_equal.
  assert (H := avg_none T N Y D c v v' t). destruct (avg_treated T N (set_cell Y c v) D t), (avg_treated T N (set_cell Y c v') D t); try easy.
  - destruct H as [_ H]. now specialize (H eq_refl).
  - destruct H as [H _]. now specialize (H eq_refl).
Qed.
(* with lambda_unit = 0, or for a cell in the treated periods, the weights do not use the cell *)
Lemma j_weights_set T N p Y D lt lu c v v' : lu = 0 \/ (T - p <= fst c)%nat ->
  j_weights T N p (set_cell Y c v) D lt lu = j_weights T N p (set_cell Y c v') D lt lu.
Proof.
  intros H. unfold j_weights. destruct (_ =? 0)%nat; [easy|]. destruct (_ =? 0)%nat; [easy|]. f_equal.
  apply functional_extensionality; intros t; apply functional_extensionality; intros i. f_equal. unfold j_unit_w. rewrite (j_valid_set T N p Y D c v v').
  destruct (j_valid T N p (set_cell Y c v') D i) as [|x l] eqn:E; [easy|]. destruct H as [->|H].
  - now rewrite !Rmult_0_l || (replace (- 0) with 0 by ring; now rewrite !Rmult_0_l).
  - f_equal. f_equal. unfold j_dist. rewrite (j_valid_set T N p Y D c v v'). f_equal. f_equal. apply sumf_ext. intros s Hs.
    unfold j_valid in Hs. apply filter_In in Hs. destruct Hs as [_ Hs]. apply andb_true_iff in Hs. destruct Hs as [Hs _]. apply Nat.ltb_lt in Hs.
    unfold j_gap. rewrite (avg_set T N Y D c v v') by lia. rewrite (ysafe_set Y c v v'); [easy|]. rewrite (proj2 (Nat.eqb_neq s (fst c))) by lia. easy.
Qed.
Theorem joint_loo_honest lstsq svd T N p Y D lt lu h maxit tol c w : mn_ok lstsq -> lu = 0 \/ (T - p <= fst c)%nat ->
  j_weights T N p (set_cell Y c 0) D lt lu = JOk w -> (forall t i, 0 <= w t i) ->
  exists r, (forall v, j_weights T N p (set_cell Y c v) D lt lu = JOk w /\ j_solve lstsq svd T N (set_cell Y c v) D (skip w c) h maxit tol = r) /\
    forall s, r = JOk s -> exists x, forall v, j_pseudo (set_cell Y c v) s c = v - x.
Proof.
  intros Hmn H E Hw. destruct (joint_loo_fixed_weights lstsq svd T N Y D w h maxit tol c Hmn Hw) as (r & H1 & H2).
  exists r. split; [|easy]. intros v. split; [|easy]. now rewrite (j_weights_set T N p Y D lt lu c v 0).
Qed.

(* otherwise they do.  Three periods, control units 0 and 1, unit 2 treated in the last period; the left-out
   outcome is that of unit 0 in the first period. *)
Definition loY (v : R) : omat := set_cell (fun t i => Some (if (i =? 0)%nat && (t =? 2)%nat then 1 else 0)) (0, 0)%nat v.
Definition loW (v lu : R) : R := exp (- lu * sqrt (v * v / 2)).
Lemma lo_unit v lu i : (i < 3)%nat -> j_unit_w 3 3 1 (loY v) vD lu i = if (i =? 0)%nat then loW v lu else 1.
Proof.
  intros Hi. assert (A : forall t, avg_treated 3 3 (loY v) vD t = Some 0).
  { intros t. unfold avg_treated. change (filter (fun i => ever 3 vD i && has (loY v) t i) (seq 0 3)) with (if has (loY v) t 2 then [2%nat] else []).
    unfold has, loY, set_cell. cbn [fst snd]. rewrite andb_false_r. cbn [Nat.eqb andb]. unfold meanf, len. cbn [sumf length]. unfold ysafe. rewrite andb_false_r. cbn. f_equal. field. }
  assert (Hh : forall t j, has (loY v) t j = true) by (intros t j; unfold has, loY, set_cell; now destruct (_ && _)).
  assert (V : j_valid 3 3 1 (loY v) vD i = [0; 1]%nat).
  { unfold j_valid. cbn [seq filter]. rewrite !A, !Hh. reflexivity. }
  unfold j_unit_w. rewrite V. unfold j_dist. rewrite V. unfold j_gap. cbn [sumf]. rewrite !A. unfold len. cbn [length]. rewrite Rmax_left by (simpl; lra).
  unfold ysafe, loY, set_cell. cbn [fst snd Nat.eqb andb]. destruct (i =? 0)%nat; cbn [andb].
  - unfold loW. f_equal. f_equal. f_equal. simpl. field.
  - replace (((0 - 0) * (0 - 0) + ((0 - 0) * (0 - 0) + 0)) / INR 2) with 0 by (simpl; field). rewrite sqrt_0. rewrite Rmult_0_r. apply exp_0.
Qed.
Lemma loW_pos v lu : 0 < loW v lu. Proof. apply exp_pos. Qed.
Theorem joint_loo_value lstsq svd v lu maxit tol : mn_ok lstsq ->
  exists w s, j_weights 3 3 1 (loY v) vD 0 lu = JOk w /\
    j_solve lstsq svd 3 3 (loY v) vD (skip w (0, 0)%nat) (10 ^ 10) maxit tol = JOk s /\
    j_pseudo (loY v) s (0, 0)%nat = v - (4 + 2 * loW v lu) / (7 * loW v lu + 8).
Proof.
  intros Hmn. set (w := fun t i => j_time_w 3 1 0 t * j_unit_w 3 3 1 (loY v) vD lu i). exists w.
  assert (EW : forall t i, (i < 3)%nat -> w t i = if (i =? 0)%nat then loW v lu else 1).
  { intros t i Hi. unfold w. rewrite lo_unit by easy. unfold j_time_w. replace (- 0 * _) with 0 by ring. rewrite exp_0. ring. }
  assert (P := loW_pos v lu).
  assert (Hnn : forall t i, 0 <= w t i).
  { intros t i. unfold w, j_time_w, j_unit_w. apply Rmult_le_pos; [left; apply exp_pos|]. destruct (j_valid _ _ _ _ _ _); [lra|left; apply exp_pos]. }
  assert (Hh : forall t j, has (loY v) t j = true) by (intros t j; unfold has, loY, set_cell; now destruct (_ && _)).
  assert (ES : forall t i, seen (loY v) (skip w (0, 0)%nat) t i = skip w (0, 0)%nat t i) by (intros t i; unfold seen; now rewrite Hh).
  destruct (solve_plain lstsq svd 3 3 (loY v) vD (skip w (0, 0)%nat) maxit tol (0, 1)%nat (skip_nonneg w _ Hnn)) as [s Es].
  - apply in_cells. lia.
  - rewrite ES. cbn [fst snd]. unfold skip. cbn [fst snd Nat.eqb andb]. rewrite EW by lia. cbn. lra.
  - exists s. split; [reflexivity|]. split; [exact Es|]. unfold j_solve in Es. destruct (Rle_dec _ _); [|lra].
    destruct (wls lstsq 3 3 (ysafe (loY v)) vD (seen (loY v) (skip w (0, 0)%nat))) as [co| |] eqn:Ew; try discriminate. injection Es as <-.
    assert (NE := fun mu a b tau => wls_normal lstsq Hmn 3 3 _ vD _ co mu a b tau (seen_pos 3 3 (loY v) _ (skip_nonneg w (0, 0)%nat Hnn)) Ew).
    assert (Fv : forall a b tau, bsum (seq 0 3) (seq 0 3) (fun t i => skip w (0, 0)%nat t i * (0 + a i + b t + tau * IZR (vD t i)) * (ysafe (loY v) t i - fitv vD co t i)) = 0).
    { intros a b tau. etransitivity; [|exact (NE 0 a b tau)]. apply bsum_ext. intros t i _ _. now rewrite ES. }
    clear NE. unfold bsum in Fv. cbn [seq sumf] in Fv. unfold skip in Fv. cbn [fst snd Nat.eqb andb] in Fv.
    assert (Fw := Fv). clear Fv. 
    assert (G : forall a b tau,
       loW v lu * (a 0%nat + b 1%nat) * (0 - fitv vD co 1 0) + loW v lu * (a 0%nat + b 2%nat) * (1 - fitv vD co 2 0)
       + (a 1%nat + b 0%nat) * (0 - fitv vD co 0 1) + (a 1%nat + b 1%nat) * (0 - fitv vD co 1 1) + (a 1%nat + b 2%nat) * (0 - fitv vD co 2 1)
       + (a 2%nat + b 0%nat) * (0 - fitv vD co 0 2) + (a 2%nat + b 1%nat) * (0 - fitv vD co 1 2) + (a 2%nat + b 2%nat + tau) * (0 - fitv vD co 2 2) = 0).
    { intros a b tau. etransitivity; [|exact (Fw a b tau)]. rewrite !EW by lia. cbn [Nat.eqb]. unfold ysafe, loY, set_cell. cbn [fst snd Nat.eqb andb].
      replace (vD 0%nat 1%nat) with 0%Z by reflexivity. replace (vD 0%nat 2%nat) with 0%Z by reflexivity. replace (vD 1%nat 0%nat) with 0%Z by reflexivity. replace (vD 1%nat 1%nat) with 0%Z by reflexivity.
      replace (vD 1%nat 2%nat) with 0%Z by reflexivity. replace (vD 2%nat 0%nat) with 0%Z by reflexivity. replace (vD 2%nat 1%nat) with 0%Z by reflexivity. replace (vD 2%nat 2%nat) with 1%Z by reflexivity. ring. }
    clear Fw.
    assert (U0 := G (fun i => if (i =? 0)%nat then 1 else 0) (fun _ => 0) 0). assert (U1 := G (fun i => if (i =? 1)%nat then 1 else 0) (fun _ => 0) 0).
    assert (U2 := G (fun i => if (i =? 2)%nat then 1 else 0) (fun _ => 0) 0). assert (T1 := G (fun _ => 0) (fun t => if (t =? 1)%nat then 1 else 0) 0).
    assert (T2 := G (fun _ => 0) (fun t => if (t =? 2)%nat then 1 else 0) 0). assert (T3 := G (fun _ => 0) (fun _ => 0) 1). clear G.
    cbn [Nat.eqb] in *.
    assert (FD : forall t i, vD t i = 0%Z -> fitv vD co t i = jmu co + ja co i + jb co t) by (intros t i Hd; unfold fitv; rewrite Hd; ring).
    rewrite !(FD 1%nat 0%nat), !(FD 2%nat 0%nat), !(FD 0%nat 1%nat), !(FD 1%nat 1%nat), !(FD 2%nat 1%nat), !(FD 0%nat 2%nat), !(FD 1%nat 2%nat) in U0, U1, U2, T1, T2, T3 by reflexivity.
    set (f22 := fitv vD co 2 2) in *. clearbody f22. set (W := loW v lu) in *. clearbody W.
    unfold j_pseudo, ysafe, loY, set_cell, zmat. cbn [fst snd Nat.eqb andb].
    set (p := jmu co + ja co 0%nat + jb co 0%nat). set (q := jmu co + ja co 1%nat + jb co 0%nat). set (r2 := jmu co + ja co 2%nat + jb co 0%nat).
    set (B1 := jb co 1%nat - jb co 0%nat). set (B2 := jb co 2%nat - jb co 0%nat).
    assert (U0' : (0 - p - B1) + (1 - p - B2) = 0).
    { apply (Rmult_eq_reg_l W); [|lra]. rewrite Rmult_0_r. etransitivity; [|exact U0]. unfold p, B1, B2. ring. }
    assert (f22 = 0) by lra. subst f22.
    assert (U1' : q + (q + B1) + (q + B2) = 0) by (unfold q, B1, B2; lra).
    assert (U2' : r2 + (r2 + B1) = 0) by (unfold r2, B1; lra).
    assert (T1' : W * (p + B1) = - (q + B1) - (r2 + B1)) by (unfold p, q, r2, B1; lra).
    assert (T2' : W * (1 - p - B2) = q + B2) by (unfold p, q, B2; lra).
    enough (E : p = (4 + 2 * W) / (7 * W + 8)) by (rewrite <- E; unfold p; ring).
    clear U0 U1 U2 T1 T2 T3 FD. clearbody p q r2 B1 B2.
    assert (E2 : B2 = 1 - 2 * p - B1) by lra. subst B2. assert (q = - (1 - 2 * p) / 3) by lra. subst q. assert (r2 = - B1 / 2) by lra. subst r2.
    replace (1 - p - (1 - 2 * p - B1)) with (p + B1) in T2' by ring.
    assert (L : - (- (1 - 2 * p) / 3 + B1) - (- B1 / 2 + B1) = - (1 - 2 * p) / 3 + (1 - 2 * p - B1)) by lra.
    assert (EB : B1 = (- 2 * (1 - 2 * p)) / 3) by lra. subst B1.
    apply (Rmult_eq_reg_r (7 * W + 8)); [|lra]. unfold Rdiv at 1. rewrite Rmult_assoc, Rinv_l, Rmult_1_r by lra. lra.
Qed.

Theorem joint_loo_dependent lstsq svd v lu maxit tol : mn_ok lstsq -> 0 < lu -> v <> 0 ->
  exists w0 s0 w s x0 x,
    j_weights 3 3 1 (loY 0) vD 0 lu = JOk w0 /\ j_solve lstsq svd 3 3 (loY 0) vD (skip w0 (0, 0)%nat) (10 ^ 10) maxit tol = JOk s0 /\
    j_weights 3 3 1 (loY v) vD 0 lu = JOk w /\ j_solve lstsq svd 3 3 (loY v) vD (skip w (0, 0)%nat) (10 ^ 10) maxit tol = JOk s /\
    j_pseudo (loY 0) s0 (0, 0)%nat = 0 - x0 /\ j_pseudo (loY v) s (0, 0)%nat = v - x /\ x0 = 2 / 5 /\ 2 / 5 < x.
Proof.
  intros Hmn Hlu Hv. destruct (joint_loo_value lstsq svd 0 lu maxit tol Hmn) as (w0 & s0 & A0 & B0 & C0).
  destruct (joint_loo_value lstsq svd v lu maxit tol Hmn) as (w & s & A & B & C).
  exists w0, s0, w, s, ((4 + 2 * loW 0 lu) / (7 * loW 0 lu + 8)), ((4 + 2 * loW v lu) / (7 * loW v lu + 8)).
  repeat (split; [eassumption|]).
  assert (E0 : loW 0 lu = 1) by (unfold loW; replace (0 * 0 / 2) with 0 by field; rewrite sqrt_0, Rmult_0_r; apply exp_0).
  rewrite E0. split; [field|].
  assert (P := loW_pos v lu). assert (L : loW v lu < 1).
  { unfold loW. rewrite <- exp_0. apply exp_increasing. assert (0 < v * v) by nra. assert (0 < sqrt (v * v / 2)) by (apply sqrt_lt_R0; lra). nra. }
  apply (Rmult_lt_reg_r (7 * loW v lu + 8)); [lra|]. unfold Rdiv at 2. rewrite Rmult_assoc, Rinv_l, Rmult_1_r by lra. lra.
Qed.

(* the compiled joint search: same conclusion for fixed weights *)
Section RJ.
Variables (svd : svd_fn) (T N : nat) (D : dmat) (w : mat).
Lemma rj_solve_cong y y' : (forall t i, w t i <> 0 -> y t i = y' t i) -> rj_solve T N y D w = rj_solve T N y' D w.
Proof.
  intros H. assert (M : forall t i k, w t i * (y t i - k) = w t i * (y' t i - k)).
  { intros t i k. destruct (Req_dec (w t i) 0) as [E|E]; [rewrite E; ring|now rewrite H]. }
  assert (M0 : forall t i, w t i * y t i = w t i * y' t i) by (intros t i; specialize (M t i 0); lra).
    assert (ES : rj_start T N y w = rj_start T N y' w) by (unfold rj_start; f_equal; f_equal; apply sumf_ext; intros [t i] _; apply M0).
  enough (EC : forall n c, rj_bcd T N y D w n c = rj_bcd T N y' D w n c) by (unfold rj_solve; now rewrite ES, EC).
  induction n as [|n IH]; intros c; [easy|]. cbn [rj_bcd].
  assert (EA : rj_alpha T N y D w = rj_alpha T N y' D w).
  { do 2 (apply functional_extensionality; intros ?). unfold rj_alpha. destruct (_ && _); [|easy]. f_equal. apply sumf_ext. intros t _.
    specialize (M t x0 (jmu x + jb x t + jtau x * IZR (D t x0))). lra. }
  assert (EB : rj_beta T N y D w = rj_beta T N y' D w).
  { do 2 (apply functional_extensionality; intros ?). unfold rj_beta. destruct (_ && _); [|easy]. f_equal. apply sumf_ext. intros i _.
    specialize (M x0 i (jmu x + ja x i + jtau x * IZR (D x0 i))). lra. }
  assert (ET : rj_tau T N y D w = rj_tau T N y' D w).
  { apply functional_extensionality; intros x. unfold rj_tau. destruct (Rltb _ _); [|easy]. f_equal. apply sumf_ext. intros [t i] _. cbn [fst snd].
    specialize (M t i (jmu x + ja x i + jb x t)). lra. }
  assert (EM : rj_mu T N y D w = rj_mu T N y' D w).
  { apply functional_extensionality; intros x. unfold rj_mu. f_equal. apply sumf_ext. intros [t i] _. cbn [fst snd].
    specialize (M t i (ja x i + jb x t + jtau x * IZR (D t i))). lra. }
  assert (EW : rj_sweep T N y D w c = rj_sweep T N y' D w c) by (unfold rj_sweep; now rewrite EA, EB, ET, EM).
  rewrite EW. destruct (rj_stop _ _); [easy|apply IH].
Qed.
Lemma rj_low_cong v h tol y y' k : (forall t i, w t i <> 0 -> y t i = y' t i) -> forall L, rj_low svd T N y D v w h tol k L = rj_low svd T N y' D v w h tol k L.
Proof.
  intros H. induction k as [|k IH]; intros L; [easy|]. cbn [rj_low].
  rewrite (rj_solve_cong (fun t i => y t i - L t i) (fun t i => y' t i - L t i)) by (intros t i Hz; now rewrite H).
  destruct (rj_solve _ _ _ _ _) as [c|]; [|easy].
  assert (EP : rj_prox svd T N v w (j_resid y D c) h L = rj_prox svd T N v w (j_resid y' D c) h L).
  { unfold rj_prox. f_equal. apply functional_extensionality; intros t; apply functional_extensionality; intros i. f_equal.
    destruct (Req_dec (w t i) 0) as [E|E]; [rewrite E; destruct (Rlt_dec _ _); [unfold Rdiv|]; ring|]. unfold j_resid. now rewrite H. }
  rewrite EP. cbv zeta. destruct (Rltb _ _); [easy|apply IH].
Qed.
End RJ.
Theorem rj_loo_fixed_weights svd T N Y D W h maxit tol c :
  exists r, (forall v, rj_fit svd T N (set_cell Y c v) D (rj_skip W c) h maxit tol = r) /\
    forall co L, r = RFit co L -> exists x, forall v, j_pseudo (set_cell Y c v) (co, L) c = v - x.
Proof.
  exists (rj_fit svd T N (set_cell Y c 0) D (rj_skip W c) h maxit tol). split.
  - intros v. unfold rj_fit.
    assert (ES : rj_seen (set_cell Y c v) (rj_skip W c) = rj_seen (set_cell Y c 0) (rj_skip W c)).
    { apply functional_extensionality; intros t; apply functional_extensionality; intros i. unfold rj_seen. now rewrite (has_set Y c v 0). }
    rewrite ES. set (V := rj_seen (set_cell Y c 0) (rj_skip W c)).
    assert (HZ : forall t i, rj_real V t i <> 0 -> ysafe (set_cell Y c v) t i = ysafe (set_cell Y c 0) t i).
    { intros t i Hz. apply ysafe_set. unfold V, rj_real, rj_seen, rj_skip in Hz. destruct (_ && _); [|easy]. destruct (has _ _ _); now destruct Hz. }
    cbv zeta. destruct (existsb _ _); [easy|]. rewrite (rj_low_cong svd T N D (rj_real V) _ h tol _ _ maxit HZ zmat). rewrite (rj_solve_cong T N D (rj_real V) _ _ HZ).
    destruct (Rle_dec _ h); [easy|]. destruct (rj_low _ _ _ _ _ _ _ _ _ _ _) as [L|]; [|easy].
    rewrite (rj_solve_cong T N D (rj_real V) _ (fun t i => ysafe (set_cell Y c 0) t i - L t i)); [easy|]. intros t i Hz. now rewrite HZ.
  - intros co L _. exists (jmu co + ja co (snd c) + jb co (fst c) + L (fst c) (snd c)). intros v. unfold j_pseudo.
    unfold ysafe. rewrite set_same. ring.
Qed.

(* Convergence of the projected-gradient weights and agreement of the two backends (C52). *)
From Verif Require Import Prelude Flt Stats_model Stats_proofs Linalg_model Linalg_proofs Linalg_vcov Linalg_thms
  Did_equiv Synth_model Synth_proofs Synth_more.
From Coq Require Import Arith ZArith String List Permutation.
Import ListNotations.
Open Scope R_scope.

Notation sumn n f := (sumf f (seq 0 n)).

Lemma sumf_ge_term {A} (f : A -> R) l x : (forall i, In i l -> 0 <= f i) -> In x l -> f x <= sumf f l.
Proof.
  induction l as [|a l IH]; intros Hn Hx; [destruct Hx|]. destruct Hx as [->|Hx]; cbn.
  - assert (0 <= sumf f l) by (apply sumf_nonneg; intros; apply Hn; right; auto). lra.
  - assert (0 <= f a) by (apply Hn; left; auto). assert (f x <= sumf f l) by (apply IH; auto; intros; apply Hn; right; auto). lra.
Qed.

Section Conv.
Context {T : Type}.
Variable pre : list T.
Variable cols : list (T -> R).
Variable y : T -> R.
Variable lambda : R.
Hypothesis Hl : 0 <= lambda.
Hypothesis Hne : cols <> [].

Definition curv (d : list R) : R := ip pre (lc cols d) (lc cols d) + lambda * sumf (fun x => x * x) d.
Definition dif (z w : list R) : list R := map (fun j => nth j z 0 - nth j w 0) (seq 0 (length cols)).

Lemma dif_length z w : length (dif z w) = length cols.
Proof. unfold dif. rewrite map_length, seq_length. reflexivity. Qed.
Lemma dif_sq z w : length z = length cols -> length w = length cols -> sumf (fun x => x * x) (dif z w) = sqd z w.
Proof. intros Lz Lw. unfold dif. rewrite sumf_map, (sqd_index z w (length cols)) by auto. reflexivity. Qed.
Lemma dif_lc z w t : length z = length cols -> length w = length cols -> lc cols (dif z w) t = lc cols z t - lc cols w t.
Proof.
  intros Lz Lw. rewrite (lc_index cols z t), (lc_index cols w t), (lc_index cols (dif z w) t) by (auto using dif_length).
  rewrite <- sumf_sub. apply sumf_ext. intros j Hj. apply in_seq in Hj. unfold dif. rewrite nth_map_seq by lia. ring.
Qed.

(* exact second-order expansion *)
Theorem expand w z : length w = length cols -> length z = length cols ->
  objective pre cols y lambda z = objective pre cols y lambda w
    + 2 * sumn (length cols) (fun j => grad_py pre cols y lambda w j * (nth j z 0 - nth j w 0)) + curv (dif z w).
Proof.
  intros Lw Lz. set (n := length cols) in *. unfold objective. fold n.
  assert (Lu : length (uniform_w n) = n) by apply repeat_length.
  rewrite !(sqd_index _ (uniform_w n) n) by auto.
  set (dl := fun t => lc cols z t - lc cols w t).
  assert (E1 : sumf (fun t => (y t - lc cols z t) * (y t - lc cols z t)) pre
             = sumf (fun t => (y t - lc cols w t) * (y t - lc cols w t)) pre
             - 2 * sumf (fun t => (y t - lc cols w t) * dl t) pre + sumf (fun t => dl t * dl t) pre).
  { rewrite <- sumf_scal, <- sumf_sub, <- sumf_add. apply sumf_ext_all. intros t. unfold dl. ring. }
  assert (E2 : sumf (fun t => (y t - lc cols w t) * dl t) pre
             = - sumf (fun j => (ip pre (colx cols j) (lc cols w) - ip pre (colx cols j) y) * (nth j z 0 - nth j w 0)) (seq 0 n)).
  { rewrite <- sumf_opp.
    rewrite (sumf_ext_all _ (fun t => sumf (fun j => (y t - lc cols w t) * colx cols j t * (nth j z 0 - nth j w 0)) (seq 0 n))).
    - rewrite sumf_swap. apply sumf_ext_all. intros j. unfold ip. rewrite <- sumf_sub.
      rewrite Ropp_mult_distr_l, <- sumf_opp, <- sumf_scal_r. apply sumf_ext_all. intros t. ring.
    - intros t. unfold dl. generalize (y t - lc cols w t); intros rr.
      rewrite (lc_index cols z t), (lc_index cols w t) by auto. fold n. rewrite <- sumf_sub, <- sumf_scal.
      apply sumf_ext_all. intros j. ring. }
  assert (E3 : sumf (fun j => (nth j z 0 - nth j (uniform_w n) 0) * (nth j z 0 - nth j (uniform_w n) 0)) (seq 0 n)
             = sumf (fun j => (nth j w 0 - nth j (uniform_w n) 0) * (nth j w 0 - nth j (uniform_w n) 0)) (seq 0 n)
             + 2 * sumf (fun j => (nth j w 0 - 1 / INR n) * (nth j z 0 - nth j w 0)) (seq 0 n)
             + sumf (fun j => (nth j z 0 - nth j w 0) * (nth j z 0 - nth j w 0)) (seq 0 n)).
  { rewrite <- sumf_scal, <- !sumf_add. apply sumf_ext. intros j Hj. apply in_seq in Hj.
    assert (nth j (uniform_w n) 0 = 1 / INR n) as ->.
    { unfold uniform_w. apply (repeat_spec n (1 / INR n)). apply nth_In. rewrite repeat_length. lia. }
    ring. }
  assert (E4 : sumf (fun j => grad_py pre cols y lambda w j * (nth j z 0 - nth j w 0)) (seq 0 n)
             = sumf (fun j => (ip pre (colx cols j) (lc cols w) - ip pre (colx cols j) y) * (nth j z 0 - nth j w 0)) (seq 0 n)
             + lambda * sumf (fun j => (nth j w 0 - 1 / INR n) * (nth j z 0 - nth j w 0)) (seq 0 n)).
  { rewrite <- sumf_scal, <- sumf_add. apply sumf_ext_all. intros j. unfold grad_py. fold n. ring. }
  unfold curv. rewrite dif_sq by auto. rewrite (sqd_index z w n) by auto.
  assert (E5 : ip pre (lc cols (dif z w)) (lc cols (dif z w)) = sumf (fun t => dl t * dl t) pre).
  { unfold ip. apply sumf_ext_all. intros t. rewrite dif_lc by auto. reflexivity. }
  rewrite E1, E2, E3, E4, E5. ring.
Qed.

Lemma sq_sum_nonneg d : 0 <= sumf (fun x => x * x) d.
Proof. apply sumf_nonneg. intros; apply sq_nonneg. Qed.
Lemma curv_lower d : lambda * sumf (fun x => x * x) d <= curv d.
Proof. unfold curv. assert (0 <= ip pre (lc cols d) (lc cols d)) by (unfold ip; apply sumf_nonneg; intros; apply sq_nonneg). lra. Qed.

Variable step : R.
Hypothesis Hs : 0 < step.
Hypothesis Hstep : forall d, length d = length cols -> step * curv d <= sumf (fun x => x * x) d.
Notation stp := (grad_step project_simplex (length cols) step (grad_py pre cols y lambda)).
Notation f := (objective pre cols y lambda).

Lemma npos : (0 < length cols)%nat.
Proof. destruct cols; simpl; [congruence|lia]. Qed.
Lemma stp_ok w : in_simplex (stp w) /\ length (stp w) = length cols.
Proof. exact (grad_step_simplex _ step (grad_py pre cols y lambda) w npos). Qed.

(* one step against any point of the simplex *)
Theorem one_step w z : length w = length cols -> length z = length cols -> in_simplex z ->
  step * (f (stp w) - f z) <= (1 - step * lambda) * sqd w z - sqd (stp w) z.
Proof.
  intros Lw Lz Hz. destruct (stp_ok w) as [Hp Lp]. set (p := stp w) in *. set (n := length cols) in *.
  set (g := grad_py pre cols y lambda w).
  set (v := map (fun j => nth j w 0 - step * g j) (seq 0 n)).
  assert (Lv : length v = n) by (unfold v; rewrite map_length, seq_length; auto).
  assert (Hpw : project_simplex v = p) by reflexivity.
  assert (Hv : v <> []) by (intros E; rewrite E in Lv; simpl in Lv; pose proof npos; unfold n in *; lia).
  pose proof (project_nearest v z Hv ltac:(lia) Hz) as Hnear. rewrite Hpw in Hnear.
  pose proof (expand w z Lw Lz) as Ez. pose proof (expand w p Lw Lp) as Ep. fold g in Ez, Ep. fold n in Ez, Ep.
  pose proof (curv_lower (dif z w)) as Cz. pose proof (Hstep (dif p w) (dif_length p w)) as Cp.
  rewrite dif_sq in Cz, Cp by auto.
  assert (Sz : sqd z w = sqd w z).
  { rewrite !(sqd_index _ _ n) by auto. apply sumf_ext_all. intros; ring. }
  assert (I : sqd v z = sqd v p + sqd p w - 2 * step * sumn n (fun j => g j * (nth j z 0 - nth j w 0)) * (-1) - sqd p w + sqd w z - sqd v p + sqd v p - sqd v p + step * step * sumn n (fun j => g j * g j)).
  { rewrite !(sqd_index _ _ n) by auto.
    assert (A : sumn n (fun j => (nth j v 0 - nth j z 0) * (nth j v 0 - nth j z 0)) = 2 * step * sumn n (fun j => g j * (nth j z 0 - nth j w 0)) + sumn n (fun j => (nth j w 0 - nth j z 0) * (nth j w 0 - nth j z 0)) + step * step * sumn n (fun j => g j * g j)).
    { rewrite <- !sumf_scal, <- !sumf_add. apply sumf_ext. intros j Hj. apply in_seq in Hj. unfold v. rewrite nth_map_seq by lia. ring. }
    rewrite A. ring. }
  assert (J : sqd v p = 2 * step * sumn n (fun j => g j * (nth j p 0 - nth j w 0)) + sqd p w + step * step * sumn n (fun j => g j * g j)).
  { rewrite !(sqd_index _ _ n) by auto. rewrite <- !sumf_scal, <- !sumf_add. apply sumf_ext. intros j Hj. apply in_seq in Hj. unfold v. rewrite nth_map_seq by lia. ring. }
  rewrite Sz in Cz.
  assert (Cz' : step * (lambda * sqd w z) <= step * curv (dif z w)) by (apply Rmult_le_compat_l; lra).
  rewrite Ez, Ep. nra.
Qed.

Lemma step_decreases w : length w = length cols -> in_simplex w -> f (stp w) <= f w.
Proof.
  intros Lw Hw. pose proof (one_step w w Lw Lw Hw) as H. rewrite sqd_refl in H.
  pose proof (sqd_nonneg (stp w) w). assert (step * (f (stp w) - f w) <= 0) by lra.
  apply Rmult_le_reg_l with step; lra.
Qed.

Lemma pgd_ok iter w : length w = length cols -> in_simplex w ->
  length (pgd iter stp w) = length cols /\ in_simplex (pgd iter stp w) /\ f (pgd iter stp w) <= f w.
Proof.
  revert w. induction iter as [|k IH]; intros w Lw Hw; cbn [pgd]; [repeat split; auto; try apply Hw; lra|].
  destruct (stp_ok w) as [Hp Lp]. pose proof (step_decreases w Lw Hw).
  destruct (Rlt_dec _ _); [tauto|]. destruct (IH (stp w) Lp Hp) as (A & B & C). repeat split; auto; try apply B. lra.
Qed.

(* two points of the simplex are close in every coordinate when they are close in norm *)
Lemma close_coord a b n tol : length a = n -> length b = n -> 0 < tol -> dist2 a b < tol ->
  forall j, (j < n)%nat -> Rabs (nth j a 0 - nth j b 0) <= tol.
Proof.
  intros La Lb Ht Hd j Hj. unfold dist2 in Hd.
  assert (S1 : sqd a b < tol * tol).
  { rewrite <- (sqrt_sqrt (sqd a b)) by apply sqd_nonneg. pose proof (sqrt_pos (sqd a b)). nra. }
  rewrite (sqd_index a b n) in S1 by auto.
  assert (S2 : (nth j a 0 - nth j b 0) * (nth j a 0 - nth j b 0) <= sumn n (fun j => (nth j a 0 - nth j b 0) * (nth j a 0 - nth j b 0))).
  { apply (sumf_ge_term (fun j => (nth j a 0 - nth j b 0) * (nth j a 0 - nth j b 0))); [intros; apply sq_nonneg|apply in_seq; lia]. }
  apply Rabs_le. nra.
Qed.
Lemma stop_gap w p z n : length w = n -> length p = n -> length z = n -> in_simplex w -> in_simplex p -> in_simplex z ->
  dist2 p w < opt_tol -> sqd w z - sqd p z <= 4 * opt_tol.
Proof.
  intros Lw Lp Lz [Hw Sw] [Hp Sp] [Hz Sz] Hd. assert (Ht : 0 < opt_tol) by (unfold opt_tol; lra).
  pose proof (close_coord p w n opt_tol Lp Lw Ht Hd) as Hc.
  rewrite !(sqd_index _ _ n) by auto. rewrite (sum_index w n) in Sw by auto. rewrite (sum_index p n) in Sp by auto. rewrite (sum_index z n) in Sz by auto.
  rewrite <- sumf_sub.
  apply Rle_trans with (sumn n (fun j => opt_tol * (nth j w 0 + nth j p 0 + 2 * nth j z 0))).
  - apply sumf_le. intros j Hj. apply in_seq in Hj. specialize (Hc j ltac:(lia)).
    assert (0 <= nth j w 0) by (apply Hw, nth_In; lia). assert (0 <= nth j p 0) by (apply Hp, nth_In; lia). assert (0 <= nth j z 0) by (apply Hz, nth_In; lia).
    replace ((nth j w 0 - nth j z 0) * (nth j w 0 - nth j z 0) - (nth j p 0 - nth j z 0) * (nth j p 0 - nth j z 0))
      with ((nth j w 0 - nth j p 0) * (nth j w 0 + nth j p 0 - 2 * nth j z 0)) by ring.
    apply Rle_trans with (Rabs ((nth j w 0 - nth j p 0) * (nth j w 0 + nth j p 0 - 2 * nth j z 0))); [apply Rle_abs|].
    rewrite Rabs_mult. apply Rmult_le_compat; try apply Rabs_pos; [rewrite Rabs_minus_sym; exact Hc|apply Rabs_le; lra].
  - rewrite sumf_scal, !sumf_add, sumf_scal, Sw, Sp, Sz. lra.
Qed.

Theorem pgd_gap z : length z = length cols -> in_simplex z -> forall iter w, length w = length cols -> in_simplex w ->
  step * (f (pgd iter stp w) - f z) <= 4 * opt_tol \/
  INR iter * (step * (f (pgd iter stp w) - f z)) <= sqd w z.
Proof.
  intros Lz Hz. induction iter as [|k IH]; intros w Lw Hw.
  - right. simpl. rewrite Rmult_0_l. apply sqd_nonneg.
  - cbn [pgd]. destruct (stp_ok w) as [Hp Lp]. pose proof (one_step w z Lw Lz Hz) as H1.
    pose proof (sqd_nonneg w z) as Q. pose proof (sqd_nonneg (stp w) z) as Q'.
    assert (H2 : step * (f (stp w) - f z) <= sqd w z - sqd (stp w) z) by (assert (0 <= step * lambda * sqd w z) by (repeat apply Rmult_le_pos; lra); lra).
    destruct (Rlt_dec _ _) as [Hd|_].
    + left. eapply Rle_trans; [exact H2|]. apply (stop_gap w (stp w) z (length cols)); auto.
    + destruct (IH (stp w) Lp Hp) as [A|A]; [left; exact A|right].
      destruct (pgd_ok k (stp w) Lp Hp) as (_ & _ & D).
      assert (D' : step * (f (pgd k stp (stp w)) - f z) <= step * (f (stp w) - f z)) by (apply Rmult_le_compat_l; lra).
      rewrite S_INR. lra.
Qed.

Lemma uniform_dist n z : (0 < n)%nat -> length z = n -> in_simplex z -> sqd (uniform_w n) z <= 1.
Proof.
  intros Hn Lz [Hz Sz]. rewrite (sqd_index _ _ n) by (auto; apply repeat_length). rewrite (sum_index z n) in Sz by auto.
  assert (P : 0 < INR n) by (apply lt_0_INR; auto).
  apply Rle_trans with (sumn n (fun j => 1 / INR n * (1 / INR n) + (1 - 2 * (1 / INR n)) * nth j z 0)).
  - apply sumf_le. intros j Hj. apply in_seq in Hj.
    assert (nth j (uniform_w n) 0 = 1 / INR n) as ->.
    { unfold uniform_w. apply (repeat_spec n (1 / INR n)). apply nth_In. rewrite repeat_length. lia. }
    assert (0 <= nth j z 0) by (apply Hz, nth_In; lia).
    assert (nth j z 0 <= 1).
    { rewrite <- Sz. apply (sumf_ge_term (fun j => nth j z 0)); [|apply in_seq; lia]. intros i Hi. apply in_seq in Hi. apply Hz, nth_In. lia. }
    nra.
  - rewrite sumf_add, sumf_const, sumf_scal, Sz. unfold len. rewrite seq_length.
    assert (0 < 1 / INR n) by (unfold Rdiv; rewrite Rmult_1_l; apply Rinv_0_lt_compat; auto).
    replace (INR n * (1 / INR n * (1 / INR n))) with (1 / INR n) by (field; lra). lra.
Qed.

Definition gap_bound (iter : nat) : R := Rmax (1 / INR iter) (4 * opt_tol) / step.

Theorem conv iter z : (0 < iter)%nat -> length z = length cols -> in_simplex z ->
  let w := pgd iter stp (uniform_w (length cols)) in
  length w = length cols /\ in_simplex w /\ f w <= f z + gap_bound iter.
Proof.
  intros Hi Lz Hz w. pose proof (uniform_in_simplex _ npos) as Hu. assert (Lu : length (uniform_w (length cols)) = length cols) by apply repeat_length.
  destruct (pgd_ok iter _ Lu Hu) as (A & B & _). split; [exact A|]. split; [exact B|].
  assert (P : 0 < INR iter) by (apply lt_0_INR; auto).
  assert (G : step * (f w - f z) <= Rmax (1 / INR iter) (4 * opt_tol)).
  { destruct (pgd_gap z Lz Hz iter _ Lu Hu) as [H|H]; fold w in H; [eapply Rle_trans; [exact H|apply Rmax_r]|].
    eapply Rle_trans; [|apply Rmax_l]. pose proof (uniform_dist _ z npos Lz Hz).
    apply Rmult_le_reg_l with (INR iter); [exact P|]. replace (INR iter * (1 / INR iter)) with 1 by (field; lra). lra. }
  unfold gap_bound. assert (f w - f z <= Rmax (1 / INR iter) (4 * opt_tol) / step); [|lra].
  apply Rmult_le_reg_l with step; [exact Hs|]. replace (step * (Rmax (1 / INR iter) (4 * opt_tol) / step)) with (Rmax (1 / INR iter) (4 * opt_tol)) by (field; lra). exact G.
Qed.
End Conv.

(* two points that are nearly optimal are close when the penalty is positive *)
Theorem near_optimal_close {T} (pre : list T) cols y lambda a b ea eb : 0 < lambda -> cols <> [] ->
  length a = length cols -> length b = length cols -> in_simplex a -> in_simplex b ->
  (forall z, length z = length cols -> in_simplex z -> objective pre cols y lambda a <= objective pre cols y lambda z + ea) ->
  (forall z, length z = length cols -> in_simplex z -> objective pre cols y lambda b <= objective pre cols y lambda z + eb) ->
  lambda * sqd a b <= 2 * (ea + eb).
Proof.
  intros Hl Hne La Lb [Ha Sa] [Hb Sb] Oa Ob. set (n := length cols) in *.
  set (m := map (fun j => (nth j a 0 + nth j b 0) / 2) (seq 0 n)).
  assert (Lm : length m = n) by (unfold m; rewrite map_length, seq_length; auto).
  assert (Hm : in_simplex m).
  { split.
    - intros x Hx. unfold m in Hx. apply in_map_iff in Hx. destruct Hx as (j & <- & Hj). apply in_seq in Hj.
      assert (0 <= nth j a 0) by (apply Ha, nth_In; lia). assert (0 <= nth j b 0) by (apply Hb, nth_In; lia). lra.
    - rewrite (sum_index a n) in Sa by auto. rewrite (sum_index b n) in Sb by auto.
      unfold m. rewrite sumf_map. unfold idR. unfold Rdiv. rewrite sumf_scal_r, sumf_add, Sa, Sb. lra. }
  pose proof (expand pre cols y lambda m a Lm La) as Ea. pose proof (expand pre cols y lambda m b Lm Lb) as Eb.
  specialize (Oa m Lm Hm). specialize (Ob m Lm Hm). fold n in Ea, Eb.
  assert (G : sumn n (fun j => grad_py pre cols y lambda m j * (nth j a 0 - nth j m 0)) + sumn n (fun j => grad_py pre cols y lambda m j * (nth j b 0 - nth j m 0)) = 0).
  { rewrite <- sumf_add. apply sumf_zero. intros j Hj. apply in_seq in Hj. unfold m at 2 4. rewrite nth_map_seq by lia. field. }
  pose proof (curv_lower pre cols lambda (dif cols a m)) as Ca. pose proof (curv_lower pre cols lambda (dif cols b m)) as Cb.
  rewrite dif_sq in Ca, Cb by auto.
  assert (Da : sqd a m = sqd a b / 4).
  { rewrite !(sqd_index _ _ n) by auto. unfold Rdiv. rewrite <- sumf_scal_r. apply sumf_ext. intros j Hj. apply in_seq in Hj. unfold m. rewrite nth_map_seq by lia. field. }
  assert (Db : sqd b m = sqd a b / 4).
  { rewrite !(sqd_index _ _ n) by auto. unfold Rdiv. rewrite <- sumf_scal_r. apply sumf_ext. intros j Hj. apply in_seq in Hj. unfold m. rewrite nth_map_seq by lia. field. }
  rewrite Da in Ca. rewrite Db in Cb. lra.
Qed.

(* ---- thresholding moves no weight by more than n * min_weight ---- *)
Lemma sum_drop m w : (forall x, In x w -> 0 <= x) -> 0 <= m ->
  sumf idR w - INR (length w) * m <= sumf idR (map (fun x => if Rlt_dec x m then 0 else x) w) <= sumf idR w.
Proof.
  intros Hw Hm. induction w as [|x w IH]; [cbn; lra|]. specialize (IH ltac:(intros; apply Hw; right; auto)).
  assert (0 <= x) by (apply Hw; left; auto). cbn [map sumf length]. rewrite S_INR. unfold idR in *. destruct (Rlt_dec x m); lra.
Qed.
Lemma sum_drop_term m w j : (forall x, In x w -> 0 <= x) -> 0 <= m -> (j < length w)%nat -> nth j w 0 < m ->
  sumf idR (map (fun x => if Rlt_dec x m then 0 else x) w) <= sumf idR w - nth j w 0.
Proof.
  intros Hw Hm. revert j. induction w as [|x w IH]; intros j Hj Hx; [cbn in Hj; lia|].
  assert (Hw' : forall x, In x w -> 0 <= x) by (intros; apply Hw; right; auto). assert (0 <= x) by (apply Hw; left; auto).
  destruct j as [|j]; cbn [nth] in *; cbn [map sumf length].
  - pose proof (sum_drop m w Hw' Hm). unfold idR in *. destruct (Rlt_dec x m); lra.
  - specialize (IH Hw' j ltac:(cbn in Hj; lia) Hx). unfold idR in *. destruct (Rlt_dec x m); lra.
Qed.
Theorem finish_close m w : in_simplex w -> 0 <= m -> INR (length w) * m < 1 ->
  length (finish_weights m w) = length w /\ forall j, (j < length w)%nat -> Rabs (nth j (finish_weights m w) 0 - nth j w 0) <= INR (length w) * m.
Proof.
  intros [Hw Sw] Hm Hnm. pose proof (sum_drop m w Hw Hm) as [D1 D2]. unfold finish_weights.
  set (w1 := map (fun x => if Rlt_dec x m then 0 else x) w) in *. rewrite Sw in D1, D2.
  destruct (Rlt_dec 0 (sumf idR w1)) as [Hp|Hp]; [|lra]. split; [unfold w1; rewrite !map_length; reflexivity|].
  intros j Hj. set (s := sumf idR w1) in *.
  assert (N : nth j (map (fun x => x / s) w1) 0 = (if Rlt_dec (nth j w 0) m then 0 else nth j w 0) / s).
  { rewrite (nth_indep _ 0 (0 / s)) by (unfold w1; rewrite !map_length; auto). rewrite (map_nth (fun x => x / s)). f_equal.
    unfold w1. rewrite (nth_indep _ 0 (if Rlt_dec 0 m then 0 else 0)) by (rewrite map_length; auto). rewrite (map_nth (fun x => if Rlt_dec x m then 0 else x)). reflexivity. }
  rewrite N. assert (P : 0 <= nth j w 0) by (apply Hw, nth_In; auto).
  destruct (Rlt_dec (nth j w 0) m) as [H|H].
  - pose proof (sum_drop_term m w j Hw Hm Hj H) as D3. fold w1 in D3. fold s in D3. rewrite Sw in D3.
    replace (0 / s - nth j w 0) with (- nth j w 0) by (field; lra). rewrite Rabs_Ropp, Rabs_right by lra. lra.
  - assert (K : nth j w 0 <= s).
    { unfold s. rewrite (sum_index w1 (length w)) by (unfold w1; apply map_length).
      assert (E : nth j w1 0 = nth j w 0).
      { unfold w1. rewrite (nth_indep _ 0 (if Rlt_dec 0 m then 0 else 0)) by (rewrite map_length; auto). rewrite (map_nth (fun x => if Rlt_dec x m then 0 else x)).
        destruct (Rlt_dec (nth j w 0) m); [lra|reflexivity]. }
      rewrite <- E. apply (sumf_ge_term (fun j => nth j w1 0)); [|apply in_seq; lia]. intros i Hi. apply in_seq in Hi.
      assert (Hin : In (nth i w1 0) w1) by (apply nth_In; unfold w1; rewrite map_length; lia).
      unfold w1 in Hin at 2. apply in_map_iff in Hin. destruct Hin as (x & <- & Hx). specialize (Hw x Hx). destruct (Rlt_dec x m); lra. }
    replace (nth j w 0 / s - nth j w 0) with (nth j w 0 / s * (1 - s)) by (field; lra).
    assert (Q : 0 <= nth j w 0 / s <= 1).
    { split; [apply Rmult_le_pos; [lra|left; apply Rinv_0_lt_compat; lra]|]. apply Rmult_le_reg_r with s; [lra|]. unfold Rdiv. rewrite Rmult_assoc, Rinv_l by lra. lra. }
    rewrite Rabs_right by nra. nra.
Qed.

(* ---- the two backends ---- *)
Section Backends.
Context {T : Type}.
Variable pre : list T.
Variable cols : list (T -> R).
Variable y : T -> R.
Variable lambda : R.
Notation f := (objective pre cols y lambda).

Lemma pgd_ext iter g h w : (forall x, g x = h x) -> pgd iter g w = pgd iter h w.
Proof. intros H. revert w. induction iter as [|k IH]; intros w; cbn [pgd]; [reflexivity|]. rewrite H. destruct (Rlt_dec _ _); auto. Qed.

(* NumPy: step 1/(||H|| + 1e-10) *)
Theorem numpy_near_optimal iter nrm z : 0 <= lambda -> cols <> [] -> (0 < iter)%nat -> 0 <= nrm ->
  (forall d, length d = length cols -> curv pre cols lambda d <= nrm * sumf (fun x => x * x) d) ->
  length z = length cols -> in_simplex z ->
  let w := synth_numpy iter nrm pre cols y lambda in
  length w = length cols /\ in_simplex w /\ f w <= f z + Rmax (1 / INR iter) (4 * opt_tol) * (nrm + eps10).
Proof.
  intros Hl Hne Hi Hn Hc Lz Hz w. assert (E10 : 0 < eps10) by (unfold eps10; lra).
  assert (Hs : 0 < 1 / (nrm + eps10)) by (unfold Rdiv; rewrite Rmult_1_l; apply Rinv_0_lt_compat; lra).
  assert (Hstep : forall d, length d = length cols -> 1 / (nrm + eps10) * curv pre cols lambda d <= sumf (fun x => x * x) d).
  { intros d Ld. specialize (Hc d Ld). pose proof (sq_sum_nonneg d). apply Rmult_le_reg_l with (nrm + eps10); [lra|].
    replace ((nrm + eps10) * (1 / (nrm + eps10) * curv pre cols lambda d)) with (curv pre cols lambda d) by (field; lra). nra. }
  destruct (conv pre cols y lambda Hl Hne _ Hs Hstep iter z Hi Lz Hz) as (A & B & C). split; [exact A|]. split; [exact B|].
  unfold gap_bound in C. replace (Rmax (1 / INR iter) (4 * opt_tol) * (nrm + eps10)) with (Rmax (1 / INR iter) (4 * opt_tol) / (1 / (nrm + eps10))) by (field; lra).
  exact C.
Qed.

(* Rust: constant step 1/10, so the curvature must not exceed 10 *)
Theorem rust_near_optimal iter z : 0 <= lambda -> cols <> [] -> (0 < iter)%nat ->
  (forall d, length d = length cols -> curv pre cols lambda d <= 10 * sumf (fun x => x * x) d) ->
  length z = length cols -> in_simplex z ->
  let w := synth_rust iter pre cols y lambda in
  length w = length cols /\ in_simplex w /\ f w <= f z + Rmax (1 / INR iter) (4 * opt_tol) * 10.
Proof.
  intros Hl Hne Hi Hc Lz Hz w.
  assert (Ew : w = pgd iter (grad_step project_simplex (length cols) (1 / 10) (grad_py pre cols y lambda)) (uniform_w (length cols))).
  { unfold w, synth_rust. apply pgd_ext. intros x. apply backends_same_step. }
  assert (Hs : 0 < 1 / 10) by lra.
  assert (Hstep : forall d, length d = length cols -> 1 / 10 * curv pre cols lambda d <= sumf (fun x => x * x) d) by (intros d Ld; specialize (Hc d Ld); lra).
  destruct (conv pre cols y lambda Hl Hne _ Hs Hstep iter z Hi Lz Hz) as (A & B & C). rewrite Ew. split; [exact A|]. split; [exact B|].
  unfold gap_bound in C. replace (Rmax (1 / INR iter) (4 * opt_tol) * 10) with (Rmax (1 / INR iter) (4 * opt_tol) / (1 / 10)) by (field; lra). exact C.
Qed.

(* the reported weights of the two backends *)
Theorem backends_close iter nrm m : 0 < lambda -> cols <> [] -> (0 < iter)%nat -> 0 <= nrm <= 10 ->
  (forall d, length d = length cols -> curv pre cols lambda d <= nrm * sumf (fun x => x * x) d) ->
  0 <= m -> INR (length cols) * m < 1 ->
  let a := synthetic_weights (synth_numpy iter nrm pre cols y lambda) (length cols) m in
  let b := synthetic_weights (synth_rust iter pre cols y lambda) (length cols) m in
  length a = length cols /\ length b = length cols /\
  forall j, (j < length cols)%nat ->
    Rabs (nth j a 0 - nth j b 0) <= sqrt (2 * Rmax (1 / INR iter) (4 * opt_tol) * (nrm + eps10 + 10) / lambda) + 2 * (INR (length cols) * m).
Proof.
  intros Hl Hne Hi Hn Hc Hm Hnm a b. assert (Hl' : 0 <= lambda) by lra.
  assert (Hc10 : forall d, length d = length cols -> curv pre cols lambda d <= 10 * sumf (fun x => x * x) d).
  { intros d Ld. specialize (Hc d Ld). pose proof (sq_sum_nonneg d). nra. }
  set (a0 := synth_numpy iter nrm pre cols y lambda) in *. set (b0 := synth_rust iter pre cols y lambda) in *.
  assert (Np : (0 < length cols)%nat) by (destruct cols; simpl; [congruence|lia]).
  pose proof (uniform_in_simplex _ Np) as Hu. assert (Lu : length (uniform_w (length cols)) = length cols) by apply repeat_length.
  assert (Hn0 : 0 <= nrm) by lra.
  pose proof (fun z Lz Hz => numpy_near_optimal iter nrm z Hl' Hne Hi Hn0 Hc Lz Hz) as NA. fold a0 in NA.
  pose proof (fun z Lz Hz => rust_near_optimal iter z Hl' Hne Hi Hc10 Lz Hz) as NB. fold b0 in NB.
  destruct (NA _ Lu Hu) as (La & Ia & _). destruct (NB _ Lu Hu) as (Lb & Ib & _).
  pose proof (near_optimal_close pre cols y lambda a0 b0 _ _ Hl Hne La Lb Ia Ib (fun z Lz Hz => proj2 (proj2 (NA z Lz Hz))) (fun z Lz Hz => proj2 (proj2 (NB z Lz Hz)))) as C.
  set (K := Rmax (1 / INR iter) (4 * opt_tol)) in *.
  assert (HK : 0 < K) by (unfold K; apply Rlt_le_trans with (4 * opt_tol); [unfold opt_tol; lra|apply Rmax_r]).
  set (B := 2 * K * (nrm + eps10 + 10) / lambda).
  assert (C' : sqd a0 b0 <= B).
  { unfold B. apply Rmult_le_reg_l with lambda; [exact Hl|]. replace (lambda * (2 * K * (nrm + eps10 + 10) / lambda)) with (2 * (K * (nrm + eps10) + K * 10)) by (field; lra). exact C. }
  assert (Cj : forall j, (j < length cols)%nat -> Rabs (nth j a0 0 - nth j b0 0) <= sqrt B).
  { intros j Hj. rewrite <- sqrt_Rsqr_abs. apply sqrt_le_1_alt. unfold Rsqr. eapply Rle_trans; [|exact C'].
    rewrite (sqd_index a0 b0 (length cols)) by auto.
    apply (sumf_ge_term (fun j => (nth j a0 0 - nth j b0 0) * (nth j a0 0 - nth j b0 0))); [intros; apply sq_nonneg|apply in_seq; lia]. }
  destruct (finish_close m a0 Ia Hm ltac:(rewrite La; exact Hnm)) as [Fa Ca].
  destruct (finish_close m b0 Ib Hm ltac:(rewrite Lb; exact Hnm)) as [Fb Cb]. rewrite La in Fa, Ca. rewrite Lb in Fb, Cb.
  pose proof (sqrt_pos B) as SB. assert (0 <= INR (length cols) * m) by (apply Rmult_le_pos; [apply pos_INR|exact Hm]).
  unfold a, b, synthetic_weights. destruct (length cols) as [|[|n]] eqn:EN; [lia| |].
  - split; [reflexivity|]. split; [reflexivity|]. intros j Hj. destruct j; [|lia]. cbn [nth]. rewrite Rminus_diag_eq by reflexivity. rewrite Rabs_R0. lra.
  - split; [exact Fa|]. split; [exact Fb|]. intros j Hj. specialize (Ca j Hj). specialize (Cb j Hj). specialize (Cj j Hj).
    rewrite <- Rabs_Ropp in Cb. replace (nth j (finish_weights m a0) 0 - nth j (finish_weights m b0) 0)
      with ((nth j (finish_weights m a0) 0 - nth j a0 0) + ((nth j a0 0 - nth j b0 0) + - (nth j (finish_weights m b0) 0 - nth j b0 0))) by ring.
    eapply Rle_trans; [apply Rabs_triang|]. eapply Rle_trans; [apply Rplus_le_compat_l, Rabs_triang|]. lra.
Qed.
End Backends.

(* Simplex projection, synthetic weights and the SDID estimator. *)
From Verif Require Import Prelude Flt Stats_model Stats_proofs Linalg_model Linalg_proofs Linalg_vcov Linalg_thms Synth_model.
From Coq Require Import Arith ZArith String List Sorting.Sorted.
Import ListNotations.
Open Scope R_scope.

Definition in_simplex (w : list R) : Prop := (forall x, In x w -> 0 <= x) /\ sumf idR w = 1.

(* ---- last index of a filter ---- *)
Lemma last_app_single (A : Type) (l : list A) x d : last (l ++ [x]) d = x.
Proof. induction l as [|a l IH]; simpl; auto. destruct (l ++ [x]) eqn:E; auto. destruct l; discriminate. Qed.

Lemma last_filter_seq (p : nat -> bool) n : (0 < n)%nat -> p O = true ->
  let r := last (filter p (seq 0 n)) O in
  (r < n)%nat /\ p r = true /\ forall i, (r < i < n)%nat -> p i = false.
Proof.
  induction n as [|n IH]; intros Hn H0; [lia|].
  rewrite seq_S, filter_app. simpl Nat.add. simpl filter at 2. simpl filter.
  destruct (p n) eqn:E.
  - rewrite last_app_single. repeat split; auto. intros; lia.
  - rewrite app_nil_r. destruct n as [|n]; [congruence|].
    specialize (IH ltac:(lia) H0). destruct IH as (H1 & H2 & H3).
    split; [lia|]. split; [exact H2|]. intros i Hi. destruct (Nat.eq_dec i (S n)); [subst; auto|apply H3; lia].
Qed.

Lemma rdesc_perm v : Permutation (rdesc v) v.
Proof. unfold rdesc. rewrite <- Permutation_rev. apply rsort_perm. Qed.
Lemma rdesc_length v : length (rdesc v) = length v.
Proof. apply Permutation_length, rdesc_perm. Qed.

Lemma rdesc_nth v i j : (i <= j)%nat -> (j < length v)%nat -> nth j (rdesc v) 0 <= nth i (rdesc v) 0.
Proof.
  intros Hij Hj. unfold rdesc. rewrite !rev_nth by (rewrite rsort_length; lia).
  apply sorted_nth; [apply rsort_sorted|lia|rewrite rsort_length; lia].
Qed.

Lemma psum_S u i : (i < length u)%nat -> psum u (S i) = psum u i + nth i u 0.
Proof.
  unfold psum. revert i; induction u as [|x u IH]; intros i Hi; simpl in *; [lia|].
  destruct i; simpl; [unfold idR; ring|]. rewrite IH by lia. ring.
Qed.

Lemma simplex_cond_true u i : simplex_cond u i = true <-> (psum u (S i) - 1) / INR (S i) < nth i u 0.
Proof. unfold simplex_cond. rewrite Rltb_true. reflexivity. Qed.

(* the threshold separates the sorted vector at rho *)
Lemma theta_split v : v <> [] ->
  let u := rdesc v in let r := simplex_rho u in let th := simplex_theta v in
  (r < length v)%nat /\
  (forall i, (i <= r)%nat -> th < nth i u 0) /\
  (forall i, (r < i < length v)%nat -> nth i u 0 <= th).
Proof.
  intros Hne u r th.
  assert (Hn : (0 < length u)%nat) by (unfold u; rewrite rdesc_length; destruct v; simpl; [congruence|lia]).
  assert (H0 : simplex_cond u 0 = true).
  { apply simplex_cond_true. unfold psum. destruct u as [|x u']; simpl in *; [lia|]. unfold idR. lra. }
  destruct (last_filter_seq (simplex_cond u) (length u) Hn H0) as (Hr & Hp & Hq).
  fold (simplex_rho u) in Hr, Hp, Hq. fold r in Hr, Hp, Hq.
  assert (Lu : length u = length v) by apply rdesc_length.
  apply simplex_cond_true in Hp.
  assert (Eth : th = (psum u (S r) - 1) / INR (S r)) by reflexivity.
  assert (Hpos : 0 < INR (S r)) by (apply lt_0_INR; lia).
  split; [lia|]. split.
  - intros i Hi. apply Rlt_le_trans with (nth r u 0); [lra|]. apply rdesc_nth; lia.
  - intros i Hi. apply Rle_trans with (nth (S r) u 0); [apply rdesc_nth; lia|].
    assert (Hf : simplex_cond u (S r) = false) by (apply Hq; lia).
    destruct (Rle_or_lt (nth (S r) u 0) th) as [|Hc]; auto. exfalso.
    assert (simplex_cond u (S r) = true); [|congruence].
    apply simplex_cond_true. rewrite (psum_S u (S r)) by lia.
    assert (Hk : psum u (S r) = th * INR (S r) + 1).
    { rewrite Eth. field. lra. }
    rewrite Hk. rewrite (S_INR (S r)). apply (Rmult_lt_reg_r (INR (S r) + 1)); [lra|].
    unfold Rdiv. rewrite Rmult_assoc, Rinv_l by lra. nra.
Qed.

Lemma split_sum (u : list R) th k :
  (k <= length u)%nat ->
  (forall i, (i < k)%nat -> th <= nth i u 0) -> (forall i, (k <= i < length u)%nat -> nth i u 0 <= th) ->
  sumf (fun x => Rmax (x - th) 0) u = psum u k - INR k * th.
Proof.
  revert k; induction u as [|x u IH]; intros k Hk H1 H2; simpl in *.
  - assert (k = O) as -> by lia. unfold psum; simpl; ring.
  - destruct k as [|k].
    + rewrite (IH O); [|lia|intros; lia|intros i Hi; apply (H2 (S i)); lia].
      rewrite Rmax_right by (specialize (H2 O ltac:(lia)); simpl in H2; lra). unfold psum; simpl; ring.
    + rewrite (IH k); [|lia|intros i Hi; apply (H1 (S i)); lia|intros i Hi; apply (H2 (S i)); lia].
      rewrite Rmax_left by (specialize (H1 O ltac:(lia)); simpl in H1; lra).
      rewrite S_INR. unfold psum; simpl. unfold idR at 2. ring.
Qed.

Theorem theta_mass v : v <> [] -> sumf (fun x => Rmax (x - simplex_theta v) 0) v = 1.
Proof.
  intros Hne. destruct (theta_split v Hne) as (Hr & H1 & H2).
  set (u := rdesc v) in *. set (r := simplex_rho u) in *. set (th := simplex_theta v) in *.
  assert (Lu : length u = length v) by apply rdesc_length.
  rewrite <- (sumf_perm _ _ _ (rdesc_perm v)). fold u.
  rewrite (split_sum u th (S r)).
  - assert (E : th = (psum u (S r) - 1) / INR (S r)) by reflexivity.
    assert (0 < INR (S r)) by (apply lt_0_INR; lia). rewrite E. field. lra.
  - lia.
  - intros i Hi. left; apply H1; lia.
  - intros i Hi. apply H2; lia.
Qed.

Lemma project_length v : length (project_simplex v) = length v.
Proof. destruct v; simpl; auto. rewrite map_length. reflexivity. Qed.

Theorem project_in_simplex v : v <> [] -> in_simplex (project_simplex v).
Proof.
  intros Hne. destruct v as [|a v]; [congruence|]. unfold project_simplex. split.
  - intros x Hx. apply in_map_iff in Hx as (y & <- & _). apply Rmax_r.
  - rewrite sumf_map. exact (theta_mass (a :: v) Hne).
Qed.

(* KKT: the projection is the nearest point, strictly *)
Lemma kkt (v z : list R) th : length z = length v -> (forall x, In x z -> 0 <= x) ->
  sqd v z >= sqd v (map (fun x => Rmax (x - th) 0) v) + sqd (map (fun x => Rmax (x - th) 0) v) z
             - 2 * th * (sumf idR z - sumf (fun x => Rmax (x - th) 0) v).
Proof.
  revert z; induction v as [|x v IH]; intros z Hl Hz; destruct z as [|a z]; simpl in *; try discriminate.
  - unfold sqd; simpl. lra.
  - specialize (IH z ltac:(lia) (fun b Hb => Hz b (or_intror Hb))). specialize (Hz a (or_introl eq_refl)).
    unfold sqd in *; simpl. unfold idR at 1. simpl in *.
    set (m := Rmax (x - th) 0) in *.
    assert ((x - a) * (x - a) >= (x - m) * (x - m) + (m - a) * (m - a) - 2 * th * (a - m)); [|lra].
    unfold m, Rmax. destruct (Rle_dec (x - th) 0); nra.
Qed.

Lemma sqd_nonneg a b : 0 <= sqd a b.
Proof. apply sumf_nonneg; intros; apply sq_nonneg. Qed.

Lemma sqd_zero a b : length a = length b -> sqd a b = 0 -> a = b.
Proof.
  revert b; induction a as [|x a IH]; intros [|y b] Hl H; simpl in *; try discriminate; auto.
  unfold sqd in H. simpl in H. fold (sqd a b) in H. pose proof (sqd_nonneg a b).
  pose proof (sq_nonneg (x - y)). f_equal; [nra|apply IH; [lia|lra]].
Qed.

Theorem project_nearest v z : v <> [] -> length z = length v -> in_simplex z ->
  sqd v (project_simplex v) + sqd (project_simplex v) z <= sqd v z.
Proof.
  intros Hne Hl [Hz Hs]. destruct v as [|a v]; [congruence|].
  pose proof (kkt (a :: v) z (simplex_theta (a :: v)) Hl Hz) as H.
  rewrite (theta_mass (a :: v) Hne), Hs in H. unfold project_simplex. lra.
Qed.

Theorem project_unique v z : v <> [] -> length z = length v -> in_simplex z ->
  (forall z', length z' = length v -> in_simplex z' -> sqd v z <= sqd v z') -> z = project_simplex v.
Proof.
  intros Hne Hl Hz Hmin. symmetry.
  pose proof (project_nearest v z Hne Hl Hz) as H.
  specialize (Hmin (project_simplex v) (project_length v) (project_in_simplex v Hne)).
  apply sqd_zero; [rewrite project_length; auto|]. pose proof (sqd_nonneg (project_simplex v) z). lra.
Qed.

Lemma sqd_refl a : sqd a a = 0.
Proof. induction a as [|x a IH]; unfold sqd in *; simpl; auto. rewrite IH. ring. Qed.

Theorem project_idempotent z : in_simplex z -> project_simplex z = z.
Proof.
  intros Hz. destruct z as [|a z]; [reflexivity|]. symmetry. apply project_unique; auto; [discriminate|].
  intros z' _ _. rewrite sqd_refl. apply sqd_nonneg.
Qed.

Theorem project_monotone v i j : (i < length v)%nat -> (j < length v)%nat -> nth i v 0 <= nth j v 0 ->
  nth i (project_simplex v) 0 <= nth j (project_simplex v) 0.
Proof.
  intros Hi Hj H. destruct v as [|a v]; [simpl in *; lia|]. unfold project_simplex.
  set (f := fun x => Rmax (x - simplex_theta (a :: v)) 0).
  assert (E : forall k, (k < length (a :: v))%nat -> nth k (map f (a :: v)) 0 = f (nth k (a :: v) 0)).
  { intros k Hk. rewrite nth_indep with (d' := f 0) by (rewrite map_length; auto). apply map_nth. }
  rewrite !E by auto. unfold f. apply Rmax_case; [|apply Rmax_r].
  apply Rle_trans with (nth j (a :: v) 0 - simplex_theta (a :: v)); [lra|apply Rmax_l].
Qed.

(* adding a constant to every coordinate does not change the projection *)
Lemma sqd_shift v z c : length z = length v ->
  sqd (map (fun x => x + c) v) z = sqd v z + 2 * c * (sumf idR v - sumf idR z) + INR (length v) * (c * c).
Proof.
  revert z; induction v as [|x v IH]; intros [|a z] Hl; simpl in Hl; try discriminate.
  - unfold sqd; simpl; ring.
  - specialize (IH z ltac:(lia)). unfold sqd in *. simpl map. simpl combine. simpl sumf. simpl length. rewrite S_INR.
    cbn [fst snd]. rewrite IH. unfold idR at 3 6. unfold idR. ring.
Qed.

Theorem project_shift v c : project_simplex (map (fun x => x + c) v) = project_simplex v.
Proof.
  destruct v as [|a v]; [reflexivity|]. set (w := a :: v). assert (Hne : w <> []) by discriminate.
  apply project_unique; auto.
  - rewrite project_length, map_length. reflexivity.
  - apply project_in_simplex. discriminate.
  - intros z' Hl Hz'.
    assert (Hp : length (project_simplex (map (fun x => x + c) w)) = length w) by (rewrite project_length, map_length; auto).
    assert (Hs : in_simplex (project_simplex (map (fun x => x + c) w))) by (apply project_in_simplex; discriminate).
    assert (Hl' : length z' = length (map (fun x => x + c) w)) by (rewrite map_length; auto).
    assert (Hne' : map (fun x => x + c) w <> []) by discriminate.
    pose proof (project_nearest (map (fun x => x + c) w) z' Hne' Hl' Hz') as H.
    pose proof (sqd_nonneg (project_simplex (map (fun x => x + c) w)) z').
    rewrite !sqd_shift in H by auto. destruct Hs as [_ Hs], Hz' as [_ Hz']. rewrite Hs, Hz' in H. lra.
Qed.

(* ---- Rust backend ---- *)
Lemma rust_fold u : forall k, (k <= length u)%nat ->
  fold_left (rust_loop u) (firstn k u) (0, 0%nat, 0%nat) = (psum u k, last (filter (simplex_cond u) (seq 0 k)) O, k).
Proof.
  induction k as [|k IH]; intros Hk; [reflexivity|].
  assert (E : firstn (S k) u = firstn k u ++ [nth k u 0]).
  { clear IH. revert k Hk. induction u as [|x u IHu]; intros k Hk; simpl in *; [lia|].
    destruct k; simpl; auto. f_equal. apply IHu. lia. }
  rewrite E, fold_left_app, IH by lia. simpl fold_left. unfold rust_loop.
  rewrite seq_S, filter_app. simpl Nat.add. rewrite psum_S by lia.
  assert (Hc : (if Rlt_dec 0 (nth k u 0 + (1 - (psum u k + nth k u 0)) / (INR k + 1)) then true else false)
               = simplex_cond u k).
  { pose proof (pos_INR k).
    assert (Hi : nth k u 0 + (1 - (psum u k + nth k u 0)) / (INR k + 1)
                 = nth k u 0 - (psum u (S k) - 1) / INR (S k)).
    { rewrite psum_S, S_INR by lia. field. lra. }
    rewrite Hi. destruct (Rlt_dec _ _) as [H1|H1]; destruct (simplex_cond u k) eqn:Es; auto.
    - assert (simplex_cond u k = true); [apply simplex_cond_true; lra|congruence].
    - apply simplex_cond_true in Es. lra. }
  simpl filter. rewrite <- Hc.
  destruct (Rlt_dec 0 (nth k u 0 + (1 - (psum u k + nth k u 0)) / (INR k + 1))).
  - rewrite last_app_single. reflexivity.
  - rewrite app_nil_r. reflexivity.
Qed.

Theorem project_rust_eq v : project_simplex_rust v = project_simplex v.
Proof.
  unfold project_simplex_rust. pose proof (rust_fold (rdesc v) (length (rdesc v)) (le_n _)) as H.
  rewrite firstn_all in H. rewrite H. destruct v as [|a v]; [reflexivity|].
  unfold project_simplex. apply map_ext. intros x. unfold simplex_theta, psum.
  fold (simplex_rho (rdesc (a :: v))). rewrite Nat.add_1_r, S_INR. reflexivity.
Qed.

(* ---- weights ---- *)
Lemma repeat_sum c n : sumf idR (repeat c n) = INR n * c.
Proof. induction n as [|n IH]; [simpl; ring|]. rewrite S_INR. simpl repeat. simpl sumf. rewrite IH. unfold idR. ring. Qed.

Lemma uniform_in_simplex n : (0 < n)%nat -> in_simplex (uniform_w n).
Proof.
  intros Hn. assert (0 < INR n) by (apply lt_0_INR; auto). split.
  - intros x Hx. apply repeat_spec in Hx. subst. left. unfold Rdiv. rewrite Rmult_1_l. apply Rinv_0_lt_compat; auto.
  - unfold uniform_w. rewrite repeat_sum. field. lra.
Qed.

Lemma pgd_invariant (P : list R -> Prop) stp iter w : P w -> (forall w, P w -> P (stp w)) -> P (pgd iter stp w).
Proof.
  revert w; induction iter as [|k IH]; intros w H Hs; simpl; auto.
  destruct (Rlt_dec _ _); auto.
Qed.

Lemma grad_step_simplex n step grad w : (0 < n)%nat ->
  in_simplex (grad_step project_simplex n step grad w) /\ length (grad_step project_simplex n step grad w) = n.
Proof.
  intros Hn. unfold grad_step. rewrite project_length, map_length, seq_length. split; auto.
  apply project_in_simplex. destruct n; [lia|discriminate].
Qed.

Lemma finish_simplex m w : w <> [] -> in_simplex w -> in_simplex (finish_weights m w) /\ length (finish_weights m w) = length w.
Proof.
  intros Hne [H0 H1]. unfold finish_weights. set (w1 := map _ w).
  destruct (Rlt_dec 0 (sumf idR w1)) as [H|H].
  - split; [|unfold w1; rewrite !map_length; auto]. split.
    + intros x Hx. apply in_map_iff in Hx as (y & <- & Hy). unfold w1 in Hy. apply in_map_iff in Hy as (a & <- & Ha).
      unfold Rdiv. apply Rmult_le_pos; [destruct (Rlt_dec a m); [lra|auto]|]. left; apply Rinv_0_lt_compat; auto.
    + rewrite sumf_map. rewrite (sumf_ext_all (fun x => idR (x / sumf idR w1)) (fun x => / sumf idR w1 * idR x))
        by (intros; unfold idR, Rdiv; ring).
      rewrite sumf_scal. apply Rinv_l. lra.
  - split; [apply uniform_in_simplex; destruct w; simpl; [congruence|lia]|apply repeat_length].
Qed.

(* C26, unit weights: NumPy and Rust backends, any iteration count, step, penalty, threshold *)
Theorem unit_weights_simplex {T} iter nrm (pre : list T) cols y lambda m : cols <> [] ->
  in_simplex (synthetic_weights (synth_numpy iter nrm pre cols y lambda) (length cols) m) /\
  length (synthetic_weights (synth_numpy iter nrm pre cols y lambda) (length cols) m) = length cols /\
  in_simplex (synthetic_weights (synth_rust iter pre cols y lambda) (length cols) m) /\
  length (synthetic_weights (synth_rust iter pre cols y lambda) (length cols) m) = length cols.
Proof.
  intros Hne. assert (Hn : (0 < length cols)%nat) by (destruct cols; simpl; [congruence|lia]).
  assert (Hcore : forall step grad, let w := pgd iter (grad_step project_simplex (length cols) step grad) (uniform_w (length cols)) in
     in_simplex w /\ length w = length cols).
  { intros step grad. apply (pgd_invariant (fun w => in_simplex w /\ length w = length cols)).
    - split; [apply uniform_in_simplex; auto|apply repeat_length].
    - intros w _. apply grad_step_simplex; auto. }
  assert (Hrust : forall step grad w, grad_step project_simplex_rust (length cols) step grad w
                   = grad_step project_simplex (length cols) step grad w).
  { intros. unfold grad_step. apply project_rust_eq. }
  assert (Hpg : forall k step grad w, pgd k (grad_step project_simplex_rust (length cols) step grad) w
                   = pgd k (grad_step project_simplex (length cols) step grad) w).
  { induction k as [|k IH]; intros; simpl; auto. rewrite Hrust, IH. reflexivity. }
  assert (Hfin : forall w, in_simplex w -> length w = length cols ->
    in_simplex (synthetic_weights w (length cols) m) /\ length (synthetic_weights w (length cols) m) = length cols).
  { intros w Hw Hl. unfold synthetic_weights. destruct (length cols) as [|[|k]] eqn:E; [lia| |].
    - split; auto. split; [intros x [<-|[]]; lra|simpl; unfold idR; lra].
    - destruct (finish_simplex m w) as [Ha Hb]; auto; [destruct w; simpl in *; [lia|discriminate]|].
      split; auto. lia. }
  split; [|split]; [| |split].
  - apply Hfin; apply Hcore.
  - apply Hfin; apply Hcore.
  - apply Hfin; unfold synth_rust; rewrite Hpg; apply Hcore.
  - apply Hfin; unfold synth_rust; rewrite Hpg; apply Hcore.
Qed.

(* C26, time weights *)
Theorem time_weights_simplex {T J} (Y : T -> J -> R) pre ctrl y zeta : pre <> [] -> 0 <= zeta ->
  in_simplex (time_weights Y pre ctrl y zeta) /\ length (time_weights Y pre ctrl y zeta) = length pre.
Proof.
  intros Hne Hz. unfold time_weights. destruct pre as [|a [|b r]]; [congruence| |].
  - split; auto. split; [intros x [<-|[]]; lra|simpl; unfold idR; lra].
  - set (pre := a :: b :: r). set (diffs := map (fun t => Rabs (y t - meanf (Y t) ctrl)) pre).
    set (inv := map (fun d => 1 / (d + zeta * std 0 diffs + eps10)) diffs).
    assert (Hd : forall d, In d diffs -> 0 < 1 / (d + zeta * std 0 diffs + eps10)).
    { intros d Hd. apply in_map_iff in Hd as (t & <- & _). unfold Rdiv. rewrite Rmult_1_l. apply Rinv_0_lt_compat.
      pose proof (Rabs_pos (y t - meanf (Y t) ctrl)). pose proof (std_nonneg 0 diffs).
      assert (0 <= zeta * std 0 diffs) by (apply Rmult_le_pos; auto). unfold eps10. lra. }
    assert (Hpos : forall x, In x inv -> 0 < x) by (intros x Hx; apply in_map_iff in Hx as (d & <- & Hx); auto).
    assert (HS : 0 < sumf idR inv).
    { apply sumf_pos; [intros x Hx; apply Hpos in Hx; unfold idR; lra|].
      eexists. split; [left; reflexivity|]. apply (Hpos _ (or_introl eq_refl)). }
    split; [|unfold inv, diffs; rewrite !map_length; auto]. split.
    + intros x Hx. apply in_map_iff in Hx as (z & <- & Hx). unfold Rdiv. apply Rmult_le_pos.
      * left; auto.
      * left; apply Rinv_0_lt_compat; auto.
    + rewrite sumf_map. rewrite (sumf_ext_all (fun x => idR (x / sumf idR inv)) (fun x => / sumf idR inv * idR x))
        by (intros; unfold idR, Rdiv; ring).
      rewrite sumf_scal. apply Rinv_l. lra.
Qed.

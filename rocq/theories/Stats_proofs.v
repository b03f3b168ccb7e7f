(* Facts about sorting, percentiles, standard deviations and shares. *)
From Verif Require Import Prelude Flt Stats_model.
From Coq Require Import Arith ZArith List Sorting.Sorted.
Import ListNotations.
Open Scope R_scope.

Lemma rinsert_perm x l : Permutation (rinsert x l) (x :: l).
Proof.
  induction l as [|y l IH]; simpl; auto. destruct (Rle_dec x y); auto.
  rewrite IH. apply perm_swap.
Qed.

Lemma rsort_perm l : Permutation (rsort l) l.
Proof. induction l as [|x l IH]; simpl; auto. rewrite rinsert_perm. auto. Qed.

Lemma rsort_length l : length (rsort l) = length l.
Proof. apply Permutation_length, rsort_perm. Qed.

Lemma rinsert_sorted x l : StronglySorted Rle l -> StronglySorted Rle (rinsert x l).
Proof.
  induction 1 as [|y l Hs IH Hf]; simpl; [repeat constructor|].
  destruct (Rle_dec x y) as [H|H].
  - constructor; [constructor; auto|]. constructor; auto.
    rewrite Forall_forall in *. intros z Hz. specialize (Hf z Hz). lra.
  - constructor; auto. rewrite Forall_forall in *. intros z Hz.
    apply (Permutation_in z (rinsert_perm x l)) in Hz. destruct Hz as [<-|Hz]; [lra|auto].
Qed.

Lemma rsort_sorted l : StronglySorted Rle (rsort l).
Proof. induction l; simpl; [constructor|apply rinsert_sorted; auto]. Qed.

Lemma sorted_nth (s : list R) i j : StronglySorted Rle s -> (i <= j)%nat -> (j < length s)%nat -> nth i s 0 <= nth j s 0.
Proof.
  intros H; revert i j; induction H as [|x l Hs IH Hf]; intros i j Hij Hj; simpl in *; [lia|].
  destruct i, j; try lia; [lra| |].
  - rewrite Forall_forall in Hf. apply Hf. apply nth_In. lia.
  - apply IH; lia.
Qed.

Lemma sorted_unique (a b : list R) : StronglySorted Rle a -> StronglySorted Rle b -> Permutation a b -> a = b.
Proof.
  intros Ha; revert b; induction Ha as [|x a Hs IH Hf]; intros b Hb P.
  - apply Permutation_nil in P. auto.
  - destruct b as [|y b]; [apply Permutation_sym, Permutation_nil in P; discriminate|].
    inversion Hb as [|? ? Hs' Hf']; subst. rewrite Forall_forall in *.
    assert (x = y).
    { assert (In x (y :: b)) as H1 by (apply (Permutation_in x P); simpl; auto).
      assert (In y (x :: a)) as H2 by (apply (Permutation_in y (Permutation_sym P)); simpl; auto).
      destruct H1 as [->|H1]; auto. destruct H2 as [<-|H2]; auto.
      specialize (Hf y H2). specialize (Hf' x H1). lra. }
    subst y. f_equal. apply IH; auto. apply (Permutation_cons_inv P).
Qed.

Lemma rsort_perm_eq a b : Permutation a b -> rsort a = rsort b.
Proof.
  intros P. apply sorted_unique; try apply rsort_sorted.
  rewrite !rsort_perm. exact P.
Qed.

Theorem percentile_perm a b q : Permutation a b -> percentile a q = percentile b q.
Proof. intros P. unfold percentile. rewrite (rsort_perm_eq a b P). reflexivity. Qed.

(* the value at a real index of a sorted list *)
Definition interp (s : list R) (v : R) : R :=
  let i := Z.to_nat (Int_part v) in
  let j := Nat.min (S i) (length s - 1) in
  nth i s 0 + (nth j s 0 - nth i s 0) * frac_part v.

Lemma percentile_interp l q : percentile l q = interp (rsort l) (q * (INR (length (rsort l)) - 1)).
Proof. reflexivity. Qed.

Lemma int_part_spec v : IZR (Int_part v) <= v < IZR (Int_part v) + 1.
Proof. pose proof (base_Int_part v) as [H1 H2]. lra. Qed.

Lemma frac_spec v : v = IZR (Int_part v) + frac_part v /\ 0 <= frac_part v < 1.
Proof. pose proof (base_fp v). unfold frac_part in *. lra. Qed.

Lemma int_part_nonneg v : 0 <= v -> (0 <= Int_part v)%Z.
Proof.
  intros H. pose proof (int_part_spec v). assert (-1 < Int_part v)%Z; [|lia]. apply lt_IZR. lra.
Qed.

Lemma int_part_mono v w : v <= w -> (Int_part v <= Int_part w)%Z.
Proof.
  intros H. pose proof (int_part_spec v). pose proof (int_part_spec w).
  assert (Int_part v < Int_part w + 1)%Z; [|lia]. apply lt_IZR. rewrite plus_IZR. lra.
Qed.

(* index bounds *)
Lemma idx_bound n v : 0 <= v <= INR n -> (Z.to_nat (Int_part v) <= n)%nat /\
  INR (Z.to_nat (Int_part v)) = IZR (Int_part v).
Proof.
  intros H. pose proof (int_part_nonneg v (proj1 H)). pose proof (int_part_spec v).
  split.
  - apply INR_le. rewrite INR_IZR_INZ, Z2Nat.id by auto. lra.
  - rewrite INR_IZR_INZ, Z2Nat.id by auto. reflexivity.
Qed.

Lemma interp_between (s : list R) v :
  StronglySorted Rle s -> s <> [] -> 0 <= v <= INR (length s) - 1 ->
  let i := Z.to_nat (Int_part v) in
  (i < length s)%nat /\
  nth i s 0 <= interp s v <= nth (Nat.min (S i) (length s - 1)) s 0.
Proof.
  intros Hs Hne Hv i.
  assert (Hl : (0 < length s)%nat) by (destruct s; simpl; [congruence|lia]).
  assert (Hi : (i <= length s - 1)%nat).
  { apply (idx_bound (length s - 1) v). rewrite minus_INR by lia. simpl; lra. }
  pose proof (frac_spec v) as [_ Hf].
  assert (Hm : nth i s 0 <= nth (Nat.min (S i) (length s - 1)) s 0) by (apply sorted_nth; auto; lia).
  split; [lia|]. unfold interp. fold i. nra.
Qed.

Lemma interp_mono (s : list R) v w :
  StronglySorted Rle s -> s <> [] -> 0 <= v -> v <= w -> w <= INR (length s) - 1 -> interp s v <= interp s w.
Proof.
  intros Hs Hne H0 Hvw Hw.
  destruct (interp_between s v Hs Hne) as [Hi [_ Hhi]]; [lra|].
  destruct (interp_between s w Hs Hne) as [Hj [Hlo _]]; [lra|].
  pose proof (int_part_mono v w Hvw) as Hm. pose proof (int_part_nonneg v H0).
  destruct (Z.eq_dec (Int_part v) (Int_part w)) as [E|E].
  - unfold interp. rewrite <- E. pose proof (frac_spec v) as [Ev _]. pose proof (frac_spec w) as [Ew _].
    set (i := Z.to_nat (Int_part v)) in *.
    assert (nth i s 0 <= nth (Nat.min (S i) (length s - 1)) s 0) by (apply sorted_nth; auto; lia).
    assert (frac_part v <= frac_part w) by (rewrite E in Ev; lra). nra.
  - apply Rle_trans with (nth (Nat.min (S (Z.to_nat (Int_part v))) (length s - 1)) s 0); auto.
    apply Rle_trans with (nth (Z.to_nat (Int_part w)) s 0); auto.
    apply sorted_nth; auto. lia.
Qed.

Lemma ridx (l : list R) q : l <> [] -> 0 <= q <= 1 ->
  0 <= q * (INR (length (rsort l)) - 1) <= INR (length (rsort l)) - 1.
Proof.
  intros Hne Hq. rewrite rsort_length. assert (1 <= INR (length l)).
  { change 1 with (INR 1). apply le_INR. destruct l; simpl; [congruence|lia]. }
  split; nra.
Qed.

Lemma rsort_ne l : l <> [] -> rsort l <> [].
Proof. intros H E. apply H. apply length_zero_iff_nil. rewrite <- rsort_length, E. reflexivity. Qed.

(* lower quantile below upper quantile: a percentile interval is ordered *)
Theorem percentile_mono l q q' : l <> [] -> 0 <= q -> q <= q' -> q' <= 1 -> percentile l q <= percentile l q'.
Proof.
  intros Hne H0 H H1. rewrite !percentile_interp.
  pose proof (ridx l q Hne ltac:(lra)). pose proof (ridx l q' Hne ltac:(lra)).
  apply interp_mono; auto using rsort_sorted, rsort_ne; try lra.
  rewrite rsort_length in *. assert (1 <= INR (length l)).
  { change 1 with (INR 1). apply le_INR. destruct l; simpl; [congruence|lia]. } nra.
Qed.

(* percentiles stay within the range of the data *)
Theorem percentile_range l q lo hi :
  l <> [] -> 0 <= q <= 1 -> (forall x, In x l -> lo <= x <= hi) -> lo <= percentile l q <= hi.
Proof.
  intros Hne Hq Hr. rewrite percentile_interp.
  pose proof (ridx l q Hne Hq) as Hv.
  destruct (interp_between (rsort l) _ (rsort_sorted l) (rsort_ne l Hne) Hv) as [Hi Hb].
  assert (Hin : forall k, (k < length (rsort l))%nat -> lo <= nth k (rsort l) 0 <= hi).
  { intros k Hk. apply Hr. apply (Permutation_in _ (rsort_perm l)). apply nth_In; auto. }
  pose proof (Hin _ Hi). assert (Hl : (0 < length (rsort l))%nat) by lia.
  pose proof (Hin (Nat.min (S (Z.to_nat (Int_part (q * (INR (length (rsort l)) - 1))))) (length (rsort l) - 1)) ltac:(lia)).
  lra.
Qed.

(* translation and positive scaling *)
Lemma rinsert_map (f : R -> R) x l : (forall a b, a <= b <-> f a <= f b) -> rinsert (f x) (map f l) = map f (rinsert x l).
Proof.
  intros Hf. induction l as [|y l IH]; simpl; auto.
  destruct (Rle_dec x y) as [H|H], (Rle_dec (f x) (f y)) as [H'|H']; simpl; auto.
  - exfalso; exact (H' (proj1 (Hf x y) H)).
  - exfalso; exact (H (proj2 (Hf x y) H')).
  - rewrite IH; auto.
Qed.
Lemma rsort_map (f : R -> R) l : (forall a b, a <= b <-> f a <= f b) -> rsort (map f l) = map f (rsort l).
Proof. intros Hf. induction l as [|x l IH]; simpl; auto. rewrite IH, rinsert_map; auto. Qed.

Theorem percentile_affine l q s c : l <> [] -> 0 < s -> 0 <= q <= 1 ->
  percentile (map (fun x => s * x + c) l) q = s * percentile l q + c.
Proof.
  intros Hne Hs Hq. unfold percentile.
  rewrite rsort_map by (intros; split; intros; nra). rewrite map_length.
  pose proof (ridx l q Hne Hq) as Hv.
  destruct (interp_between (rsort l) _ (rsort_sorted l) (rsort_ne l Hne) Hv) as [Hi _].
  set (i := Z.to_nat _) in *. set (j := Nat.min (S i) (length (rsort l) - 1)).
  assert (Hn : forall k, (k < length (rsort l))%nat -> nth k (map (fun x => s * x + c) (rsort l)) 0 = s * nth k (rsort l) 0 + c).
  { intros k Hk. rewrite nth_indep with (d' := (fun x => s * x + c) 0) by (rewrite map_length; auto).
    apply (map_nth (fun x => s * x + c)). }
  rewrite !Hn by (unfold j; lia). ring.
Qed.

(* ---- standard deviation ---- *)
Lemma sumsq_nonneg l : 0 <= sumsq_dev l.
Proof. apply sumf_nonneg; intros; apply sq_nonneg. Qed.

Lemma variance_nonneg ddof l : INR ddof < len l -> 0 <= variance ddof l.
Proof.
  intros H. unfold variance. apply Rmult_le_pos; [apply sumsq_nonneg|]. left; apply Rinv_0_lt_compat; lra.
Qed.

Lemma std_nonneg ddof l : 0 <= std ddof l.
Proof. apply sqrt_pos. Qed.

Theorem std_zero_iff ddof l : INR ddof < len l -> (std ddof l = 0 <-> forall x, In x l -> x = meanf idR l).
Proof.
  intros H. pose proof (variance_nonneg ddof l H) as Hv. unfold std. split.
  - intros E x Hx. apply sqrt_eq_0 in E; auto. unfold variance in E.
    assert (sumsq_dev l = 0).
    { assert (len l - INR ddof <> 0) by lra. apply (Rmult_eq_reg_r (/ (len l - INR ddof))).
      - unfold Rdiv in E. lra.
      - apply Rinv_neq_0_compat; auto. }
    pose proof (sumf_nonneg_0 (fun x => (x - meanf idR l) * (x - meanf idR l)) l
       (fun x _ => sq_nonneg _) H0 x Hx) as Hz. simpl in Hz. nra.
  - intros E. replace (variance ddof l) with 0; [apply sqrt_0|]. unfold variance, sumsq_dev.
    rewrite sumf_zero; [unfold Rdiv; ring|]. intros x Hx. rewrite <- (E x Hx). ring.
Qed.

Lemma sumsq_affine l s c : l <> [] -> sumsq_dev (map (fun x => s * x + c) l) = s * s * sumsq_dev l.
Proof.
  intros Hne. unfold sumsq_dev. rewrite sumf_map.
  assert (E : meanf idR (map (fun x => s * x + c) l) = s * meanf idR l + c).
  { rewrite meanf_map. unfold idR at 1. rewrite meanf_add, meanf_scal, meanf_const by auto. reflexivity. }
  rewrite E, <- sumf_scal. apply sumf_ext_all; intros; ring.
Qed.

Theorem std_affine ddof l s c : l <> [] -> INR ddof < len l ->
  std ddof (map (fun x => s * x + c) l) = Rabs s * std ddof l.
Proof.
  intros Hne H. unfold std, variance. rewrite sumsq_affine, len_map by auto.
  replace (s * s * sumsq_dev l / (len l - INR ddof)) with (s * s * (sumsq_dev l / (len l - INR ddof))) by (unfold Rdiv; ring).
  rewrite sqrt_mult.
  - f_equal. rewrite <- sqrt_Rsqr_abs. reflexivity.
  - apply sq_nonneg.
  - apply variance_nonneg; auto.
Qed.

Lemma std_perm ddof a b : Permutation a b -> std ddof a = std ddof b.
Proof.
  intros P. unfold std, variance, sumsq_dev. rewrite (meanf_perm _ _ _ P), (sumf_perm _ _ _ P), (len_perm _ _ P). reflexivity.
Qed.

(* ---- shares ---- *)
Lemma share_count {A} (p : A -> bool) l : share p l = INR (length (filter p l)) / len l.
Proof. unfold share, meanf. fold (len (filter p l)). rewrite len_filter. reflexivity. Qed.

Lemma share_bounds {A} (p : A -> bool) (l : list A) : l <> [] -> 0 <= share p l <= 1.
Proof. intros H. apply meanf_bounds; auto. intros; apply ind_01. Qed.

Lemma share_mono {A} (p q : A -> bool) (l : list A) :
  (forall x, In x l -> p x = true -> q x = true) -> share p l <= share q l.
Proof.
  intros H. unfold share, meanf. destruct l as [|a l]; [simpl; lra|].
  pose proof (len_pos (a :: l) ltac:(discriminate)). unfold Rdiv. apply Rmult_le_compat_r.
  - left; apply Rinv_0_lt_compat; auto.
  - apply sumf_le. intros x Hx. specialize (H x Hx). destruct (p x), (q x); simpl; lra || (specialize (H eq_refl); discriminate).
Qed.

Lemma share_all {A} (p : A -> bool) (l : list A) : l <> [] -> (forall x, In x l -> p x = true) -> share p l = 1.
Proof.
  intros Hne H. unfold share. rewrite (meanf_ext _ (fun _ => 1)).
  - apply meanf_const; auto.
  - intros x Hx. rewrite H by auto. reflexivity.
Qed.

Lemma share_none {A} (p : A -> bool) (l : list A) : (forall x, In x l -> p x = false) -> share p l = 0.
Proof.
  intros H. unfold share, meanf. rewrite sumf_zero; [unfold Rdiv; ring|].
  intros x Hx. rewrite H by auto. reflexivity.
Qed.

(* non-vacuity: the median of three values *)
Example percentile_median : percentile [3; 1; 2] (1/2) = 2.
Proof.
  unfold percentile. simpl rsort.
  destruct (Rle_dec 1 2); [|lra]. simpl. destruct (Rle_dec 3 1); [lra|]. destruct (Rle_dec 3 2); [lra|]. simpl length.
  replace (1 / 2 * (INR 3 - 1)) with 1 by (simpl; lra).
  assert (Hi : Int_part 1 = 1%Z).
  { pose proof (int_part_spec 1). assert (Int_part 1 < 2 /\ 0 < Int_part 1)%Z; [|lia].
    split; apply lt_IZR; simpl; lra. }
  unfold frac_part. rewrite Hi. simpl. lra.
Qed.

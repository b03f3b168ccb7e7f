(* Truncated-SVD least squares (both backends) and the routing between the backends. *)
From Verif Require Import Prelude Flt Linalg_model Linalg_proofs Linalg_vcov Linalg_minnorm Rust_ols.
From Coq Require Import Arith ZArith String List.
Import ListNotations.
Open Scope R_scope.

Lemma kron_sum (c : nat -> R) L l : NoDup L -> sumf (fun m => c m * kron l m) L = if existsb (Nat.eqb l) L then c l else 0.
Proof.
  induction L as [|a L IH]; intros H; simpl; [easy|]. inversion H as [|? ? Ha HL]; subst. rewrite IH by easy. unfold kron.
  destruct (Nat.eqb l a) eqn:E; simpl; [|ring]. apply Nat.eqb_eq in E; subst.
  destruct (existsb (Nat.eqb a) L) eqn:X; [|ring]. apply existsb_exists in X. destruct X as (b & Hb & Eb). apply Nat.eqb_eq in Eb; subst. easy.
Qed.
Lemma kron_sym a b : kron a b = kron b a.
Proof. unfold kron. now rewrite Nat.eqb_sym. Qed.
Lemma existsb_In l L : existsb (Nat.eqb l) L = true <-> In l L.
Proof.
  rewrite existsb_exists. split; [intros (b & Hb & Eb); apply Nat.eqb_eq in Eb; now subst|]. intros H; exists l. now rewrite Nat.eqb_refl.
Qed.
Lemma kron_sum_in (c : nat -> R) L l : NoDup L -> In l L -> sumf (fun m => c m * kron l m) L = c l.
Proof. intros N H. rewrite kron_sum by easy. now rewrite (proj2 (existsb_In l L) H). Qed.
Lemma kron_sum_out (c : nat -> R) L l : NoDup L -> ~ In l L -> sumf (fun m => c m * kron l m) L = 0.
Proof. intros N H. rewrite kron_sum by easy. destruct (existsb _ L) eqn:E; [|easy]. now apply existsb_In in E. Qed.
Lemma sumf_part {A} (p : A -> bool) f l : sumf f l = sumf f (filter p l) + sumf f (filter (fun x => negb (p x)) l).
Proof. induction l as [|a l IH]; simpl; [ring|]. destruct (p a); simpl; rewrite IH; ring. Qed.

Lemma fold_max_ge L : forall a, a <= fold_left Rmax L a.
Proof. induction L as [|x L IH]; intros a; simpl; [lra|]. eapply Rle_trans; [apply Rmax_l|apply IH]. Qed.
Lemma fold_max_in L : forall a x, In x L -> x <= fold_left Rmax L a.
Proof.
  induction L as [|z L IH]; intros a x; simpl; [easy|]. intros [->|H]; [|now apply IH]. eapply Rle_trans; [apply (Rmax_r a)|apply fold_max_ge].
Qed.
Lemma fold_max_val L : forall a, fold_left Rmax L a = a \/ In (fold_left Rmax L a) L.
Proof.
  induction L as [|z L IH]; intros a; simpl; [now left|]. destruct (IH (Rmax a z)) as [E|E]; [|now right; right].
  rewrite E. unfold Rmax. destruct (Rle_dec a z); [right; now left|now left].
Qed.
Lemma rcond_pos : 0 < rcond.
Proof. unfold rcond. apply Rinv_0_lt_compat. lra. Qed.

Section S1.
Context {I : Type}.
Implicit Types (rows : list I) (cols : list (I -> R)) (y : I -> R) (d : svd_val I).

Lemma s_max_nonneg d : 0 <= s_max d.
Proof. apply fold_max_ge. Qed.
Lemma s_max_ge d l : (l < d_r d)%nat -> d_s d l <= s_max d.
Proof. intros H. apply fold_max_in, in_map, in_seq. lia. Qed.
Lemma s_max_attained d : s_max d = 0 \/ exists l, (l < d_r d)%nat /\ d_s d l = s_max d.
Proof.
  destruct (fold_max_val (map (d_s d) (seq 0 (d_r d))) 0) as [E|E]; [now left|right].
  apply in_map_iff in E. destruct E as (l & E & Hl). exists l. apply in_seq in Hl. split; [lia|exact E].
Qed.
Lemma s_cut_nonneg d : 0 <= s_cut d.
Proof. apply Rmult_le_pos; [apply s_max_nonneg|apply Rlt_le, rcond_pos]. Qed.
Lemma kept_iff d l : In l (s_kept d) <-> (l < d_r d)%nat /\ s_cut d < d_s d l.
Proof. unfold s_kept. rewrite filter_In, in_seq, Rltb_true. intuition lia. Qed.
Lemma kept_pos d l : In l (s_kept d) -> 0 < d_s d l.
Proof. intros H. apply kept_iff in H. assert (A := s_cut_nonneg d). lra. Qed.
Lemma kept_nodup d : NoDup (s_kept d).
Proof. apply NoDup_filter, seq_NoDup. Qed.
Lemma kept_dec d l : (l < d_r d)%nat -> {In l (s_kept d)} + {~ In l (s_kept d)}.
Proof. intros _. apply In_dec, Nat.eq_dec. Qed.

Definition s_coef d rows y l : R := ip rows (d_u d l) y / d_s d l.

Lemma svd_solve_length d rows cols y : length (svd_solve d rows cols y) = length cols.
Proof. unfold svd_solve. now rewrite map_length, seq_length. Qed.
Lemma svd_solve_nth d rows cols y j : (j < length cols)%nat ->
  nth j (svd_solve d rows cols y) 0 = sumf (fun l => d_v d l j * s_coef d rows y l) (s_kept d).
Proof.
  intros H. unfold svd_solve. set (f := fun j0 : nat => _).
  rewrite (nth_indep _ 0 (f 0%nat)) by now rewrite map_length, seq_length. rewrite map_nth, seq_nth by easy. reflexivity.
Qed.

(* the coordinates of the answer along the right singular vectors *)
Lemma svd_solve_dot d rows cols y l : is_svd rows cols d -> (l < d_r d)%nat ->
  sumf (fun j => nth j (svd_solve d rows cols y) 0 * d_v d l j) (seq 0 (length cols))
  = if in_dec Nat.eq_dec l (s_kept d) then s_coef d rows y l else 0.
Proof.
  intros (_ & _ & _ & HV & _) Hl.
  rewrite (sumf_ext _ (fun j => sumf (fun m => s_coef d rows y m * (d_v d l j * d_v d m j)) (s_kept d))).
  2:{ intros j Hj. apply in_seq in Hj. rewrite svd_solve_nth by lia. rewrite <- sumf_scal_r. apply sumf_ext_all; intros; ring. }
  rewrite sumf_swap. rewrite (sumf_ext _ (fun m => s_coef d rows y m * kron l m)).
  2:{ intros m Hm. rewrite sumf_scal. f_equal. apply HV; [easy|]. now apply kept_iff in Hm. }
  destruct (in_dec Nat.eq_dec l (s_kept d)) as [H|H]; [apply kron_sum_in|apply kron_sum_out]; auto using kept_nodup.
Qed.

(* X b through the decomposition *)
Lemma lc_svd d rows cols (b : list R) i : is_svd rows cols d -> length b = length cols -> In i rows ->
  lc cols b i = sumf (fun l => d_s d l * d_u d l i * sumf (fun j => nth j b 0 * d_v d l j) (seq 0 (length cols))) (seq 0 (d_r d)).
Proof.
  intros (_ & _ & _ & _ & HX & _) Hb Hi. rewrite lc_index by easy.
  rewrite (sumf_ext _ (fun j => sumf (fun l => d_s d l * d_u d l i * (nth j b 0 * d_v d l j)) (seq 0 (d_r d)))).
  2:{ intros j Hj. apply in_seq in Hj. rewrite HX by (easy || lia). rewrite <- sumf_scal. apply sumf_ext_all; intros; ring. }
  rewrite sumf_swap. apply sumf_ext_all. intros l. apply sumf_scal.
Qed.

Lemma sum_kept d (f g : nat -> R) : (forall l, In l (s_kept d) -> f l = g l) -> (forall l, (l < d_r d)%nat -> ~ In l (s_kept d) -> f l = 0) ->
  sumf f (seq 0 (d_r d)) = sumf g (s_kept d).
Proof.
  intros H1 H2. rewrite (sumf_part (fun l => Rltb (s_cut d) (d_s d l))). fold (s_kept d).
  rewrite (sumf_ext f g) by easy. rewrite (sumf_zero f (filter _ _)); [ring|]. intros l Hl. apply filter_In in Hl. destruct Hl as [Hl E].
  apply in_seq in Hl. apply H2; [lia|]. intros K. unfold s_kept in K. apply filter_In in K. destruct K as [_ K]. now rewrite K in E.
Qed.

(* the fitted values are the projection of y on the kept left singular vectors *)
Theorem svd_fit d rows cols y i : is_svd rows cols d -> In i rows ->
  lc cols (svd_solve d rows cols y) i = sumf (fun l => ip rows (d_u d l) y * d_u d l i) (s_kept d).
Proof.
  intros H Hi. rewrite (lc_svd d rows) by (easy || apply svd_solve_length).
  apply sum_kept.
  - intros l Hl. rewrite svd_solve_dot by (easy || now apply kept_iff in Hl). destruct (in_dec _ _ _); [|easy].
    unfold s_coef. assert (K := kept_pos d l Hl). field. lra.
  - intros l Hl K. rewrite svd_solve_dot by easy. destruct (in_dec _ _ _); [easy|ring].
Qed.

Lemma ip_u_fit d rows cols y l : is_svd rows cols d -> (l < d_r d)%nat ->
  ip rows (d_u d l) (lc cols (svd_solve d rows cols y)) = if in_dec Nat.eq_dec l (s_kept d) then ip rows (d_u d l) y else 0.
Proof.
  intros H Hl. assert (HU := proj1 (proj2 (proj2 H))).
  rewrite (ip_ext rows _ (d_u d l) _ (fun i => sumf (fun m => ip rows (d_u d m) y * d_u d m i) (s_kept d))) by (easy || now intros; apply svd_fit).
  unfold ip at 1. rewrite (sumf_ext_all _ (fun i => sumf (fun m => ip rows (d_u d m) y * (d_u d l i * d_u d m i)) (s_kept d))).
  2:{ intros i. rewrite <- sumf_scal. apply sumf_ext_all; intros; ring. }
  rewrite sumf_swap. rewrite (sumf_ext _ (fun m => ip rows (d_u d m) y * kron l m)).
  2:{ intros m Hm. rewrite sumf_scal. f_equal. apply HU; [easy|]. now apply kept_iff in Hm. }
  destruct (in_dec Nat.eq_dec l (s_kept d)) as [K|K]; [apply (kron_sum_in (fun m => ip rows (d_u d m) y))|apply kron_sum_out]; auto using kept_nodup.
Qed.

Lemma ip_col_svd d rows cols f j : is_svd rows cols d -> (j < length cols)%nat ->
  ip rows (colx cols j) f = sumf (fun l => d_s d l * d_v d l j * ip rows (d_u d l) f) (seq 0 (d_r d)).
Proof.
  intros (_ & _ & _ & _ & HX & _) Hj. unfold ip at 1.
  rewrite (sumf_ext _ (fun i => sumf (fun l => d_s d l * d_v d l j * (d_u d l i * f i)) (seq 0 (d_r d)))).
  2:{ intros i Hi. rewrite HX by easy. rewrite <- sumf_scal_r. apply sumf_ext_all; intros; ring. }
  rewrite sumf_swap. apply sumf_ext_all. intros l. apply sumf_scal.
Qed.

(* gradient of the sum of squares at the answer: exactly the truncated components *)
Theorem svd_gradient d rows cols y j : is_svd rows cols d -> (j < length cols)%nat ->
  ip rows (colx cols j) (fun i => y i - lc cols (svd_solve d rows cols y) i)
  = sumf (fun l => d_s d l * d_v d l j * ip rows (d_u d l) y) (s_dropped d).
Proof.
  intros H Hj. rewrite (ip_col_svd d) by easy.
  rewrite (sumf_part (fun l => Rltb (s_cut d) (d_s d l))). fold (s_kept d). fold (s_dropped d).
  rewrite (sumf_zero _ (s_kept d)).
  2:{ intros l Hl. rewrite ip_sub_r, ip_u_fit by (easy || now apply kept_iff in Hl). destruct (in_dec _ _ _); [ring|easy]. }
  rewrite Rplus_0_l. apply sumf_ext. intros l Hl. unfold s_dropped in Hl. apply filter_In in Hl. destruct Hl as [Hl E]. apply in_seq in Hl.
  rewrite ip_sub_r, ip_u_fit by (easy || lia). destruct (in_dec Nat.eq_dec l (s_kept d)) as [K|K]; [|ring].
  unfold s_kept in K. apply filter_In in K. destruct K as [_ K]. now rewrite K in E.
Qed.

Definition exact_cut d : Prop := forall l, (l < d_r d)%nat -> ~ s_cut d < d_s d l -> d_s d l = 0.

Lemma in_colx cols (c : I -> R) : In c cols -> exists j, (j < length cols)%nat /\ colx cols j = c.
Proof. intros H. apply In_nth with (d := fun _ => 0) in H. destruct H as (j & Hj & E). now exists j. Qed.

(* when only zero singular values are cut, the answer is the minimum-norm least-squares solution *)
Theorem svd_solve_mn d rows cols y : is_svd rows cols d -> exact_cut d -> is_mn rows cols y (svd_solve d rows cols y).
Proof.
  intros H Z. split.
  - split; [apply svd_solve_length|]. apply Forall_forall. intros c Hc. apply in_colx in Hc. destruct Hc as (j & Hj & <-).
    rewrite svd_gradient by easy. apply sumf_zero. intros l Hl. unfold s_dropped in Hl. apply filter_In in Hl. destruct Hl as [Hl E].
    apply in_seq in Hl. rewrite Z; [ring|lia|]. intros K. apply Rltb_true in K. now rewrite K in E.
  - intros v [Lv Kv]. rewrite dotl_index by (now rewrite svd_solve_length). rewrite Lv.
    rewrite (sumf_ext _ (fun j => sumf (fun l => s_coef d rows y l * (nth j v 0 * d_v d l j)) (s_kept d))).
    2:{ intros j Hj. apply in_seq in Hj. rewrite svd_solve_nth by lia. rewrite <- sumf_scal_r. apply sumf_ext_all; intros; ring. }
    rewrite sumf_swap. apply sumf_zero. intros l Hl. rewrite sumf_scal.
    assert (E : d_s d l * sumf (fun j => nth j v 0 * d_v d l j) (seq 0 (length cols)) = 0).
    { assert (A : ip rows (d_u d l) (lc cols v) = 0) by (rewrite ip_sym; apply ip_zero_l, Kv).
      rewrite (ip_ext rows _ (d_u d l) _ (fun i => sumf (fun m => d_s d m * d_u d m i * sumf (fun j => nth j v 0 * d_v d m j) (seq 0 (length cols))) (seq 0 (d_r d)))) in A
        by (easy || intros; now apply (lc_svd d rows)).
      unfold ip in A. rewrite (sumf_ext_all _ (fun i => sumf (fun m => d_s d m * sumf (fun j => nth j v 0 * d_v d m j) (seq 0 (length cols)) * (d_u d l i * d_u d m i)) (seq 0 (d_r d)))) in A
        by (intros i; rewrite <- sumf_scal; apply sumf_ext_all; intros; ring).
      rewrite sumf_swap in A.
      assert (Hl' := proj1 (proj1 (kept_iff d l) Hl)). assert (HU := proj1 (proj2 (proj2 H))).
      rewrite (sumf_ext _ (fun m => d_s d m * sumf (fun j => nth j v 0 * d_v d m j) (seq 0 (length cols)) * kron l m)) in A
        by (intros m Hm; apply in_seq in Hm; rewrite sumf_scal; f_equal; apply HU; lia).
      rewrite (kron_sum_in (fun m => d_s d m * sumf (fun j => nth j v 0 * d_v d m j) (seq 0 (length cols)))) in A; [easy|apply seq_NoDup|apply in_seq; lia]. }
    assert (K := kept_pos d l Hl). apply Rmult_integral in E. destruct E as [E|E]; [lra|]. rewrite E. ring.
Qed.

(* in general it is the minimum-norm least-squares solution of the design with the small singular values
   replaced by zero *)
Definition cut_svd d : svd_val I :=
  {| d_r := d_r d; d_s := fun l => if Rltb (s_cut d) (d_s d l) then d_s d l else 0; d_u := d_u d; d_v := d_v d |}.
Definition cut_cols d cols : list (I -> R) :=
  map (fun j i => sumf (fun l => d_s (cut_svd d) l * d_u d l i * d_v d l j) (seq 0 (d_r d))) (seq 0 (length cols)).
Lemma cut_cols_length d cols : length (cut_cols d cols) = length cols.
Proof. unfold cut_cols. now rewrite map_length, seq_length. Qed.
Lemma cut_is_svd d rows cols : is_svd rows cols d -> is_svd rows (cut_cols d cols) (cut_svd d).
Proof.
  intros (H1 & H2 & H3 & H4 & H5 & H6). unfold is_svd. rewrite cut_cols_length. cbn [cut_svd d_r d_s d_u d_v]. repeat split; auto.
  - intros l Hl. destruct (Rltb _ _); [now apply H2|lra].
  - intros j i Hj Hi. unfold colx, cut_cols. set (f := fun (j0 : nat) (i0 : I) => _).
    rewrite (nth_indep _ _ (f 0%nat)) by now rewrite map_length, seq_length. rewrite map_nth, seq_nth by easy. reflexivity.
Qed.
Lemma cut_le_max d l : (l < d_r d)%nat -> s_max d <> 0 -> d_s d l = s_max d -> Rltb (s_cut d) (d_s d l) = true.
Proof.
  intros Hl H E. apply Rltb_true. unfold s_cut. assert (A := s_max_nonneg d). rewrite E.
  assert (B : rcond < 1) by (unfold rcond; rewrite <- Rinv_1; apply Rinv_lt_contravar; lra). 
  replace (s_max d) with (s_max d * 1) at 2 by ring. apply Rmult_lt_compat_l; lra.
Qed.
Lemma cut_s_max d : (forall l, (l < d_r d)%nat -> 0 <= d_s d l) -> s_max (cut_svd d) = s_max d.
Proof.
  intros P. apply Rle_antisym.
  - destruct (s_max_attained (cut_svd d)) as [E|(l & Hl & E)]; [rewrite E; apply s_max_nonneg|]. rewrite <- E. cbn [cut_svd d_r d_s] in *.
    destruct (Rltb _ _); [now apply s_max_ge|apply s_max_nonneg].
  - destruct (s_max_attained d) as [E|(l & Hl & E)]; [rewrite E; apply s_max_nonneg|]. destruct (Req_dec (s_max d) 0) as [Z|Z]; [rewrite Z; apply s_max_nonneg|].
    assert (A := s_max_ge (cut_svd d) l Hl). cbn [cut_svd d_s] in A. rewrite (cut_le_max d l Hl Z E) in A. lra.
Qed.
Lemma cut_kept d : (forall l, (l < d_r d)%nat -> 0 <= d_s d l) -> s_kept (cut_svd d) = s_kept d.
Proof.
  intros P. unfold s_kept. cbn [cut_svd d_r]. apply filter_ext_in. intros l Hl. unfold s_cut at 1. rewrite cut_s_max by easy. fold (s_cut d). cbn [cut_svd d_s].
  destruct (Rltb (s_cut d) (d_s d l)) eqn:E; [now rewrite E|]. apply Rltb_false. apply s_cut_nonneg.
Qed.
Theorem svd_solve_cut d rows cols y : is_svd rows cols d -> is_mn rows (cut_cols d cols) y (svd_solve d rows cols y).
Proof.
  intros H. assert (P := proj1 (proj2 H)).
  replace (svd_solve d rows cols y) with (svd_solve (cut_svd d) rows (cut_cols d cols) y).
  - apply svd_solve_mn; [now apply cut_is_svd|]. intros l Hl K. cbn [cut_svd d_r d_s] in *. unfold s_cut in K at 1. rewrite cut_s_max in K by easy. fold (s_cut d) in K.
    destruct (Rltb (s_cut d) (d_s d l)) eqn:E; [|easy]. apply Rltb_true in E. contradiction.
  - unfold svd_solve. rewrite cut_cols_length, cut_kept by easy. apply map_ext_in. intros j _. apply sumf_ext. intros l Hl. cbn [cut_svd d_s d_u d_v].
    unfold s_kept in Hl. apply filter_In in Hl. destruct Hl as [_ E]. now rewrite E.
Qed.

(* no truncation: the ordinary least-squares coefficients *)
Lemma full_rank_indep d rows cols : is_svd rows cols d -> (length cols <= length rows)%nat -> (forall l, (l < d_r d)%nat -> 0 < d_s d l) -> indep rows cols.
Proof.
  intros H Hn P a La Ka. apply nth_ext with (d := 0) (d' := 0); [now rewrite repeat_length|]. intros j Hj. rewrite nth_repeat. rewrite La in Hj.
  assert (HU := proj1 (proj2 (proj2 H))). assert (HC := proj2 (proj2 (proj2 (proj2 (proj2 H)))) Hn).
  assert (D : forall l, (l < d_r d)%nat -> sumf (fun j => nth j a 0 * d_v d l j) (seq 0 (length cols)) = 0).
  { intros l Hl. assert (A : ip rows (d_u d l) (lc cols a) = 0) by (rewrite ip_sym; apply ip_zero_l, Ka).
    rewrite (ip_ext rows _ (d_u d l) _ (fun i => sumf (fun m => d_s d m * d_u d m i * sumf (fun j => nth j a 0 * d_v d m j) (seq 0 (length cols))) (seq 0 (d_r d)))) in A
      by (easy || intros; now apply (lc_svd d rows)).
    unfold ip in A. rewrite (sumf_ext_all _ (fun i => sumf (fun m => d_s d m * sumf (fun j => nth j a 0 * d_v d m j) (seq 0 (length cols)) * (d_u d l i * d_u d m i)) (seq 0 (d_r d)))) in A
      by (intros i; rewrite <- sumf_scal; apply sumf_ext_all; intros; ring).
    rewrite sumf_swap in A.
    rewrite (sumf_ext _ (fun m => d_s d m * sumf (fun j => nth j a 0 * d_v d m j) (seq 0 (length cols)) * kron l m)) in A
      by (intros m Hm; apply in_seq in Hm; rewrite sumf_scal; f_equal; apply HU; lia).
    rewrite (kron_sum_in (fun m => d_s d m * sumf (fun j => nth j a 0 * d_v d m j) (seq 0 (length cols)))) in A; [|apply seq_NoDup|apply in_seq; lia].
    apply Rmult_integral in A. specialize (P l Hl). destruct A; [lra|easy]. }
  rewrite <- (kron_sum_in (fun m => nth m a 0) (seq 0 (length cols)) j); [|apply seq_NoDup|apply in_seq; lia].
  rewrite (sumf_ext _ (fun m => sumf (fun l => d_v d l j * (nth m a 0 * d_v d l m)) (seq 0 (d_r d)))).
  2:{ intros m Hm. apply in_seq in Hm. rewrite <- (HC j m) by lia. rewrite <- sumf_scal. apply sumf_ext_all; intros; ring. }
  rewrite sumf_swap. apply sumf_zero. intros l Hl. apply in_seq in Hl. rewrite sumf_scal, D by lia. ring.
Qed.
End S1.

(* ---- the answer does not depend on which singular value decomposition the library returns ---- *)
Lemma find_nonzero (f : nat -> R) L : (exists m, In m L /\ f m <> 0) \/ (forall m, In m L -> f m = 0).
Proof.
  induction L as [|a L IH]; [right; easy|]. destruct (Req_dec (f a) 0) as [E|E]; [|left; exists a; split; [now left|easy]].
  destruct IH as [(m & Hm & Em)|IH]; [left; exists m; split; [now right|easy]|right]. intros m [<-|Hm]; [easy|now apply IH].
Qed.

Section Unique.
Context {I : Type}.
Implicit Types (rows : list I) (cols : list (I -> R)) (y : I -> R) (d : svd_val I).

Lemma svd_Xv d rows cols l i : is_svd rows cols d -> (l < d_r d)%nat -> In i rows ->
  sumf (fun j => d_v d l j * colx cols j i) (seq 0 (length cols)) = d_s d l * d_u d l i.
Proof.
  intros (_ & _ & _ & HV & HX & _) Hl Hi.
  rewrite (sumf_ext _ (fun j => sumf (fun m => d_s d m * d_u d m i * (d_v d l j * d_v d m j)) (seq 0 (d_r d)))).
  2:{ intros j Hj. apply in_seq in Hj. rewrite HX by (easy || lia). rewrite <- sumf_scal. apply sumf_ext_all; intros; ring. }
  rewrite sumf_swap. rewrite (sumf_ext _ (fun m => d_s d m * d_u d m i * kron l m)).
  2:{ intros m Hm. apply in_seq in Hm. rewrite sumf_scal. f_equal. apply HV; lia. }
  rewrite (kron_sum_in (fun m => d_s d m * d_u d m i)); [easy|apply seq_NoDup|apply in_seq; lia].
Qed.
Lemma svd_ux d rows cols l j : is_svd rows cols d -> (l < d_r d)%nat -> (j < length cols)%nat ->
  ip rows (d_u d l) (colx cols j) = d_s d l * d_v d l j.
Proof.
  intros H Hl Hj. rewrite ip_sym, (ip_col_svd d) by easy. assert (HU := proj1 (proj2 (proj2 H))).
  rewrite (sumf_ext _ (fun m => d_s d m * d_v d m j * kron l m)).
  2:{ intros m Hm. apply in_seq in Hm. f_equal. rewrite HU by lia. apply kron_sym. }
  rewrite (kron_sum_in (fun m => d_s d m * d_v d m j)); [easy|apply seq_NoDup|apply in_seq; lia].
Qed.
Definition vdot (k : nat) (f g : nat -> R) : R := ip (seq 0 k) f g.
Lemma svd_cross1 d rows cols l (w : nat -> R) : is_svd rows cols d -> (l < d_r d)%nat ->
  sumf (fun i => sumf (fun j => d_v d l j * colx cols j i) (seq 0 (length cols)) * sumf (fun j => w j * colx cols j i) (seq 0 (length cols))) rows
  = d_s d l * d_s d l * vdot (length cols) (d_v d l) w.
Proof.
  intros H Hl. rewrite (sumf_ext _ (fun i => sumf (fun j => d_s d l * w j * (d_u d l i * colx cols j i)) (seq 0 (length cols)))).
  2:{ intros i Hi. rewrite (svd_Xv d rows) by easy. rewrite <- sumf_scal. apply sumf_ext_all; intros; ring. }
  rewrite sumf_swap. unfold vdot, ip. rewrite <- sumf_scal. apply sumf_ext. intros j Hj. apply in_seq in Hj. rewrite sumf_scal.
  change (sumf (fun i => d_u d l i * colx cols j i) rows) with (ip rows (d_u d l) (colx cols j)). rewrite svd_ux by (easy || lia). ring.
Qed.
Lemma svd_cross d d' rows cols l m : is_svd rows cols d -> is_svd rows cols d' -> (l < d_r d)%nat -> (m < d_r d')%nat ->
  vdot (length cols) (d_v d l) (d_v d' m) <> 0 -> d_s d l = d_s d' m.
Proof.
  intros H H' Hl Hm T. assert (A := svd_cross1 d rows cols l (d_v d' m) H Hl). assert (B := svd_cross1 d' rows cols m (d_v d l) H' Hm).
  rewrite (sumf_ext_all _ (fun i => sumf (fun j => d_v d' m j * colx cols j i) (seq 0 (length cols)) * sumf (fun j => d_v d l j * colx cols j i) (seq 0 (length cols)))) in A by (intros; ring).
  rewrite A in B. unfold vdot in B. rewrite (ip_sym _ (d_v d' m)) in B. fold (vdot (length cols) (d_v d l) (d_v d' m)) in B.
  apply Rmult_eq_reg_r in B; [|easy]. assert (P := proj1 (proj2 H) l Hl). assert (P' := proj1 (proj2 H') m Hm).
  assert (E : (d_s d l - d_s d' m) * (d_s d l + d_s d' m) = 0) by (ring_simplify; lra). apply Rmult_integral in E. destruct E; lra.
Qed.
Lemma svd_complete d rows cols (w : nat -> R) j : is_svd rows cols d -> (length cols <= length rows)%nat -> (j < length cols)%nat ->
  w j = sumf (fun m => d_v d m j * vdot (length cols) w (d_v d m)) (seq 0 (d_r d)).
Proof.
  intros H Hn Hj. assert (HC := proj2 (proj2 (proj2 (proj2 (proj2 H)))) Hn).
  rewrite (sumf_ext_all _ (fun m => sumf (fun q => w q * (d_v d m j * d_v d m q)) (seq 0 (length cols)))).
  2:{ intros m. unfold vdot, ip. rewrite <- sumf_scal. apply sumf_ext_all; intros; ring. }
  rewrite sumf_swap. rewrite (sumf_ext _ (fun q => w q * kron j q)).
  2:{ intros q Hq. apply in_seq in Hq. rewrite sumf_scal. f_equal. apply HC; lia. }
  rewrite kron_sum_in; [easy|apply seq_NoDup|apply in_seq; lia].
Qed.
Lemma s_max_le d d' rows cols : is_svd rows cols d -> is_svd rows cols d' -> (length cols <= length rows)%nat -> s_max d <= s_max d'.
Proof.
  intros H H' Hn. destruct (s_max_attained d) as [E|(l & Hl & E)]; [rewrite E; apply s_max_nonneg|].
  destruct (find_nonzero (fun m => vdot (length cols) (d_v d l) (d_v d' m)) (seq 0 (d_r d'))) as [(m & Hm & T)|Z].
  - apply in_seq in Hm. rewrite <- E, (svd_cross d d' rows cols l m) by (easy || lia). apply s_max_ge. lia.
  - exfalso. assert (A := proj1 (proj2 (proj2 (proj2 H))) l l Hl Hl). unfold kron in A. rewrite Nat.eqb_refl in A.
    rewrite ip_zero_l in A; [lra|]. intros j Hj. apply in_seq in Hj. rewrite (svd_complete d' rows cols (d_v d l) j) by (easy || lia).
    apply sumf_zero. intros m Hm. rewrite Z by easy. ring.
Qed.
Lemma s_coef_alt d rows cols y l : is_svd rows cols d -> In l (s_kept d) ->
  s_coef d rows y l = vdot (length cols) (d_v d l) (fun j => ip rows (colx cols j) y) / (d_s d l * d_s d l).
Proof.
  intros H Hl. assert (K := kept_pos d l Hl). assert (Hr := proj1 (proj1 (kept_iff d l) Hl)).
  replace (vdot (length cols) (d_v d l) (fun j => ip rows (colx cols j) y)) with (d_s d l * ip rows (d_u d l) y); [unfold s_coef; field; lra|].
  unfold vdot, ip. rewrite (sumf_ext_all _ (fun j => sumf (fun i => d_v d l j * colx cols j i * y i) rows)).
  2:{ intros j. rewrite <- sumf_scal. apply sumf_ext_all; intros; ring. }
  rewrite sumf_swap, <- sumf_scal. apply sumf_ext. intros i Hi. rewrite sumf_scal_r. rewrite (svd_Xv d rows) by easy. ring.
Qed.

Theorem svd_solve_unique d d' rows cols y : is_svd rows cols d -> is_svd rows cols d' -> (length cols <= length rows)%nat ->
  svd_solve d rows cols y = svd_solve d' rows cols y.
Proof.
  intros H H' Hn. assert (EM : s_cut d = s_cut d') by (unfold s_cut; f_equal; apply Rle_antisym; eapply s_max_le; eauto).
  apply nth_ext with (d := 0) (d' := 0); [now rewrite !svd_solve_length|]. intros j Hj. rewrite svd_solve_length in Hj.
  rewrite (svd_complete d' rows cols (fun j => nth j (svd_solve d rows cols y) 0) j) by easy.
  rewrite (svd_complete d' rows cols (fun j => nth j (svd_solve d' rows cols y) 0) j) by easy.
  apply sumf_ext. intros m Hm. apply in_seq in Hm. f_equal. unfold vdot at 2. unfold ip. rewrite (svd_solve_dot d' rows) by (easy || lia).
  unfold vdot, ip. set (k := length cols) in *. set (z := fun j => ip rows (colx cols j) y).
  rewrite (sumf_ext _ (fun q => sumf (fun l => s_coef d rows y l * (d_v d l q * d_v d' m q)) (s_kept d))).
  2:{ intros q Hq. apply in_seq in Hq. rewrite svd_solve_nth by (fold k; lia). rewrite <- sumf_scal_r. apply sumf_ext_all; intros; ring. }
  rewrite sumf_swap. rewrite (sumf_ext_all _ (fun l => s_coef d rows y l * vdot k (d_v d l) (d_v d' m))) by (intros; apply sumf_scal).
  destruct (in_dec Nat.eq_dec m (s_kept d')) as [K|K].
  - assert (Kp := kept_pos d' m K). assert (Kc := proj2 (proj1 (kept_iff d' m) K)). rewrite s_coef_alt with (cols := cols) by easy. fold k z.
    transitivity (sumf (fun l => vdot k (d_v d l) z * vdot k (d_v d l) (d_v d' m) / (d_s d' m * d_s d' m)) (seq 0 (d_r d))).
    + symmetry. apply sum_kept.
      * intros l Hl. destruct (Req_dec (vdot k (d_v d l) (d_v d' m)) 0) as [E|E]; [rewrite E; unfold Rdiv; ring|].
        rewrite s_coef_alt with (cols := cols) by easy. fold k z. rewrite <- (svd_cross d d' rows cols l m) by (easy || lia || now apply kept_iff in Hl).
        assert (Kl := kept_pos d l Hl). field. lra.
      * intros l Hl Hn'. destruct (Req_dec (vdot k (d_v d l) (d_v d' m)) 0) as [E|E]; [rewrite E; unfold Rdiv; ring|].
        exfalso. apply Hn', kept_iff. split; [easy|]. rewrite EM, (svd_cross d d' rows cols l m) by (easy || lia). easy.
    + unfold Rdiv. rewrite sumf_scal_r. f_equal. unfold vdot at 3. unfold ip.
      rewrite (sumf_ext _ (fun q => sumf (fun l => z q * d_v d l q * vdot k (d_v d' m) (d_v d l)) (seq 0 (d_r d))) (seq 0 k)).
      2:{ intros q Hq. apply in_seq in Hq. rewrite (svd_complete d rows cols (d_v d' m) q) by (fold k; easy || lia). fold k. rewrite Rmult_comm, <- sumf_scal. apply sumf_ext_all; intros; ring. }
      rewrite sumf_swap. apply sumf_ext_all. intros l. rewrite sumf_scal_r. unfold vdot. rewrite (ip_sym _ (d_v d' m)). f_equal. unfold ip. apply sumf_ext_all; intros; ring.
  - apply sumf_zero. intros l Hl. destruct (Req_dec (vdot k (d_v d l) (d_v d' m)) 0) as [E|E]; [rewrite E; ring|].
    exfalso. apply K, kept_iff. split; [lia|]. apply kept_iff in Hl. rewrite <- EM, <- (svd_cross d d' rows cols l m) by (easy || lia). easy.
Qed.
End Unique.

(* ---- n = k: the left singular vectors are complete and the fit is exact ---- *)
Section Square.
Context {I : Type}.
Implicit Types (rows : list I) (cols : list (I -> R)) (y : I -> R) (d : svd_val I).

Definition proj d (i j : I) : R := sumf (fun l => d_u d l i * d_u d l j) (seq 0 (d_r d)).
Lemma proj_idem d rows cols i : is_svd rows cols d -> ip rows (proj d i) (proj d i) = proj d i i.
Proof.
  intros H. assert (HU := proj1 (proj2 (proj2 H))). unfold ip.
  rewrite (sumf_ext_all _ (fun j => sumf (fun l => sumf (fun m => d_u d l i * d_u d m i * (d_u d l j * d_u d m j)) (seq 0 (d_r d))) (seq 0 (d_r d)))).
  2:{ intros j. unfold proj at 1. rewrite <- sumf_scal_r. apply sumf_ext_all. intros l. unfold proj. rewrite <- sumf_scal. apply sumf_ext_all; intros; ring. }
  rewrite sumf_swap. unfold proj. apply sumf_ext. intros l Hl. apply in_seq in Hl. rewrite sumf_swap.
  rewrite (sumf_ext _ (fun m => d_u d l i * d_u d m i * kron l m)).
  2:{ intros m Hm. apply in_seq in Hm. rewrite sumf_scal. f_equal. apply HU; lia. }
  rewrite (kron_sum_in (fun m => d_u d l i * d_u d m i)); [easy|apply seq_NoDup|apply in_seq; lia].
Qed.
Lemma proj_le1 d rows cols i : is_svd rows cols d -> In i rows -> proj d i i <= 1.
Proof.
  intros H Hi. assert (A := proj_idem d rows cols i H).
  assert (B : proj d i i * proj d i i <= ip rows (proj d i) (proj d i)).
  { apply (sumf_In_le (fun j => proj d i j * proj d i j)); [intros; apply Rle_0_sqr|easy]. }
  rewrite A in B. assert (C : 0 <= proj d i i) by (rewrite <- A; apply ip_pos). nra.
Qed.
Lemma proj_trace d rows cols : is_svd rows cols d -> sumf (fun i => proj d i i) rows = INR (d_r d).
Proof.
  intros H. assert (HU := proj1 (proj2 (proj2 H))). unfold proj. rewrite sumf_swap.
  rewrite (sumf_ext _ (fun _ => 1)).
  - rewrite sumf_const, Rmult_1_r. unfold len. now rewrite seq_length.
  - intros l Hl. apply in_seq in Hl. change (ip rows (d_u d l) (d_u d l) = 1). rewrite HU by lia. unfold kron. now rewrite Nat.eqb_refl.
Qed.
Lemma square_proj d rows cols y i : is_svd rows cols d -> d_r d = length rows -> In i rows ->
  sumf (fun l => ip rows (d_u d l) y * d_u d l i) (seq 0 (d_r d)) = y i.
Proof.
  intros H Hr Hi.
  assert (One : proj d i i = 1).
  { assert (Z : sumf (fun j => 1 - proj d j j) rows = 0).
    { rewrite sumf_sub, sumf_const, (proj_trace d rows cols) by easy. rewrite Hr. unfold len. ring. }
    assert (A := sumf_nonneg_0 (fun j => 1 - proj d j j) rows).
    assert (B : 1 - proj d i i = 0). { apply A; [|exact Z|exact Hi]. intros j Hj. assert (C := proj_le1 d rows cols j H Hj). lra. }
    lra. }
  destruct (in_split _ _ Hi) as (r1 & r2 & E).
  assert (Off : forall j, In j (r1 ++ r2) -> proj d i j = 0).
  { assert (A := proj_idem d rows cols i H). rewrite One in A. unfold ip in A. rewrite E, sumf_app in A. simpl in A. rewrite One in A.
    assert (Z : sumf (fun j => proj d i j * proj d i j) (r1 ++ r2) = 0) by (rewrite sumf_app; lra).
    intros j Hj. assert (Q : proj d i j * proj d i j = 0) by (apply (sumf_nonneg_0 (fun j => proj d i j * proj d i j) (r1 ++ r2)); [intros; apply Rle_0_sqr|exact Z|exact Hj]).
    apply Rmult_integral in Q. tauto. }
  transitivity (sumf (fun j => proj d i j * y j) rows).
  - unfold ip. rewrite (sumf_ext_all _ (fun l => sumf (fun j => d_u d l i * d_u d l j * y j) rows)).
    2:{ intros l. rewrite <- sumf_scal_r. apply sumf_ext_all; intros; ring. }
    rewrite sumf_swap. apply sumf_ext_all. intros j. now rewrite sumf_scal_r.
  - rewrite E, sumf_app. simpl. rewrite One.
    rewrite (sumf_zero _ r1), (sumf_zero _ r2); [ring| |]; intros j Hj; rewrite Off by (apply in_or_app; tauto); ring.
Qed.
Lemma filter_all {A} (p : A -> bool) l : length (filter p l) = length l -> filter p l = l.
Proof.
  induction l as [|a l IH]; simpl; [easy|]. destruct (p a); simpl; intros H; [f_equal; apply IH; lia|].
  assert (B : forall m : list A, (length (filter p m) <= length m)%nat) by (induction m as [|b m IHm]; simpl; [lia|]; destruct (p b); simpl; lia). specialize (B l). lia.
Qed.
Lemma kept_full d rows cols : is_svd rows cols d -> (length cols <= length rows)%nat -> Nat.ltb (length (s_kept d)) (length cols) = false -> s_kept d = seq 0 (d_r d).
Proof.
  intros H Hn E. apply Nat.ltb_ge in E. assert (R := proj1 H). rewrite Nat.min_r in R by easy. apply filter_all. rewrite seq_length.
  assert (B : forall (p : nat -> bool) (m : list nat), (length (filter p m) <= length m)%nat) by (intros p m; induction m as [|b m IHm]; simpl; [lia|]; destruct (p b); simpl; lia).
  specialize (B (fun l => Rltb (s_cut d) (d_s d l)) (seq 0 (d_r d))). fold (s_kept d) in B. rewrite seq_length in B. unfold s_kept in E, B. lia.
Qed.
Theorem square_fit d rows cols y i : is_svd rows cols d -> length rows = length cols -> Nat.ltb (length (s_kept d)) (length cols) = false -> In i rows ->
  lc cols (svd_solve d rows cols y) i = y i.
Proof.
  intros H Hn E Hi. rewrite (svd_fit d rows) by easy. rewrite (kept_full d rows cols) by (easy || lia). apply (square_proj d rows cols); [easy| |easy].
  rewrite (proj1 H), Hn. apply Nat.min_id.
Qed.
End Square.

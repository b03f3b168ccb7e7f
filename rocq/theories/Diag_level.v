(* The rejection probability of the permutation test's p-value (diagnostics.py 660-665, [perm_pvalue]) under exchangeability.
   [tuples n A] lists all n-tuples over the equally likely assignments A (rng.choice draws them independently); the rejection
   probability of (observed, permuted_1 .. permuted_n) drawn uniformly from A^(n+1) is a count over [tuples (n+1) A]. *)
From Verif Require Import Prelude Flt Stats_model Stats_proofs Diag_model.
From Coq Require Import Arith ZArith List Permutation Psatz.
Import ListNotations.
Open Scope R_scope.

Fixpoint tuples {A} (n : nat) (l : list A) : list (list A) :=
  match n with O => [[]] | S n => flat_map (fun a => map (cons a) (tuples n l)) l end.
Fixpoint picks {A} (w : list A) : list (A * list A) :=
  match w with [] => [] | x :: r => (x, r) :: map (fun q => (fst q, x :: snd q)) (picks r) end.

Lemma tuples_length {A} (n : nat) (l : list A) w : In w (tuples n l) -> length w = n.
Proof.
  revert w. induction n as [|n IH]; simpl; intros w H; [destruct H as [<-|[]]; reflexivity|].
  apply in_flat_map in H. destruct H as [a [_ H]]. apply in_map_iff in H. destruct H as [v [<- H]]. simpl. f_equal. auto.
Qed.
Lemma tuples_in {A} (n : nat) (l : list A) w : In w (tuples n l) -> forall x, In x w -> In x l.
Proof.
  revert w. induction n as [|n IH]; simpl; intros w H x X; [destruct H as [<-|[]]; destruct X|].
  apply in_flat_map in H. destruct H as [a [Ha H]]. apply in_map_iff in H. destruct H as [v [<- H]].
  destruct X as [<-|X]; [exact Ha|]. exact (IH v H x X).
Qed.
Lemma sumf_tuples_S {A} (F : list A -> R) n (l : list A) : sumf F (tuples (S n) l) = sumf (fun a => sumf (fun v => F (a :: v)) (tuples n l)) l.
Proof. simpl. rewrite sumf_flat_map. apply sumf_ext_all. intros a. apply sumf_map. Qed.
Lemma tuples_count {A} n (l : list A) : len (tuples n l) = len l ^ n.
Proof.
  induction n as [|n IH]; [unfold len; simpl; lra|].
  replace (len (tuples (S n) l)) with (sumf (fun _ => 1) (tuples (S n) l)) by (rewrite sumf_const; lra).
  rewrite sumf_tuples_S. rewrite (sumf_ext_all _ (fun _ => len l ^ n)); [rewrite sumf_const; reflexivity|].
  intros a. rewrite sumf_const, IH. lra.
Qed.

(* exchangeability: moving each coordinate of a uniform (n+1)-tuple in front in turn *)
Lemma sum_picks {A} (l : list A) n : forall F : A -> list A -> R,
  sumf (fun w => sumf (fun q => F (fst q) (snd q)) (picks w)) (tuples (S n) l) =
  INR (S n) * sumf (fun a => sumf (fun v => F a v) (tuples n l)) l.
Proof.
  induction n as [|n IH]; intros F.
  - rewrite sumf_tuples_S. simpl. rewrite Rmult_1_l. apply sumf_ext_all. intros a. simpl. lra.
  - rewrite sumf_tuples_S.
    rewrite (sumf_ext_all _ (fun a => sumf (fun v => F a v) (tuples (S n) l) + sumf (fun v => sumf (fun q => F (fst q) (a :: snd q)) (picks v)) (tuples (S n) l))).
    2:{ intros a. rewrite <- sumf_add. apply sumf_ext_all. intros v. cbn [picks sumf fst snd]. rewrite sumf_map. reflexivity. }
    rewrite sumf_add.
    rewrite (sumf_ext_all (fun a => sumf (fun v => sumf (fun q => F (fst q) (a :: snd q)) (picks v)) (tuples (S n) l))
               (fun a => INR (S n) * sumf (fun b => sumf (fun v => F b (a :: v)) (tuples n l)) l))
      by (intros a; exact (IH (fun b v => F b (a :: v)))).
    rewrite sumf_scal, (sumf_swap (fun a b => sumf (fun v => F b (a :: v)) (tuples n l)) l l).
    rewrite (sumf_ext_all (fun b => sumf (fun a => sumf (fun v => F b (a :: v)) (tuples n l)) l) (fun b => sumf (fun v => F b v) (tuples (S n) l)))
      by (intros b; rewrite sumf_tuples_S; reflexivity).
    rewrite (S_INR (S n)). lra.
Qed.

(* ---------- one tuple: at most c of its coordinates are beaten or tied by fewer than c others ---------- *)
Lemma picks_perm {A} (w : list A) q : In q (picks w) -> Permutation (fst q :: snd q) w.
Proof.
  revert q. induction w as [|x w IH]; simpl; intros q H; [destruct H|].
  destruct H as [<-|H]; [apply Permutation_refl|].
  apply in_map_iff in H. destruct H as [q' [<- H]]. simpl.
  transitivity (x :: fst q' :: snd q'); [apply perm_swap|]. constructor. auto.
Qed.
Lemma picks_fst {A} (w : list A) : map fst (picks w) = w.
Proof. induction w as [|x w IH]; simpl; [reflexivity|]. rewrite map_map. simpl. f_equal. exact IH. Qed.

Lemma filter_length_le {A} (p q : A -> bool) l : (forall x, In x l -> p x = true -> q x = true) -> (length (filter p l) <= length (filter q l))%nat.
Proof.
  induction l as [|a l IH]; simpl; intros H; [lia|].
  assert (G := IH (fun x X => H x (or_intror X))).
  destruct (p a) eqn:E; [rewrite (H a (or_introl eq_refl) E); simpl; lia|destruct (q a); simpl; lia].
Qed.
Lemma minimum (l : list R) : l <> [] -> exists m, In m l /\ forall x, In x l -> m <= x.
Proof.
  induction l as [|a l IH]; intros H; [congruence|]. destruct l as [|b l].
  - exists a. split; [left; reflexivity|]. intros x [<-|[]]; lra.
  - destruct IH as [m [M1 M2]]; [discriminate|]. destruct (Rle_dec a m).
    + exists a. split; [left; reflexivity|]. intros x [<-|X]; [lra|]. specialize (M2 x X). lra.
    + exists m. split; [right; exact M1|]. intros x [<-|X]; [lra|]. auto.
Qed.
Definition beats {A} (s : A -> R) (x : A) (l : list A) : nat := length (filter (fun v => Rleb (s x) (s v)) l).
Lemma few_extremes {A} (s : A -> R) (w : list A) (c : nat) : (length (filter (fun x => beats s x w <=? c)%nat w) <= c)%nat.
Proof.
  set (S0 := filter (fun x => (beats s x w <=? c)%nat) w).
  destruct S0 as [|z r] eqn:E; [simpl; lia|]. rewrite <- E.
  destruct (minimum (map s S0)) as [m [M1 M2]]; [rewrite E; discriminate|].
  apply in_map_iff in M1. destruct M1 as [x [<- X]]. pose proof X as X'. unfold S0 in X'. apply filter_In in X'. destruct X' as [Xw Xc].
  apply Nat.leb_le in Xc. apply Nat.le_trans with (beats s x w); [|exact Xc].
  unfold beats, S0. apply filter_length_le. intros y Y Yc. apply Rleb_true. apply M2. apply in_map. apply filter_In. auto.
Qed.
Lemma filter_length_perm {A} (p : A -> bool) l l' : Permutation l l' -> length (filter p l) = length (filter p l').
Proof. intros P. apply INR_eq. change (len (filter p l) = len (filter p l')). rewrite !len_filter. apply sumf_perm. exact P. Qed.
Lemma filter_length_map {A B} (h : A -> B) (p : B -> bool) l : length (filter (fun x => p (h x)) l) = length (filter p (map h l)).
Proof. induction l as [|a l IH]; simpl; [reflexivity|]. destruct (p (h a)); simpl; rewrite IH; reflexivity. Qed.
Lemma few_picks {A} (s : A -> R) (w : list A) (c : nat) :
  (length (filter (fun q => beats s (fst q) (snd q) <? c)%nat (picks w)) <= c)%nat.
Proof.
  transitivity (length (filter (fun q => beats s (fst q) w <=? c)%nat (picks w))).
  - apply filter_length_le. intros q Q H. apply Nat.ltb_lt in H. apply Nat.leb_le.
    pose proof (picks_perm w q Q) as P.
    assert (beats s (fst q) w = beats s (fst q) (fst q :: snd q)) as ->.
    { unfold beats. apply filter_length_perm. apply Permutation_sym. exact P. }
    unfold beats in *. simpl. rewrite (proj2 (Rleb_true _ _)) by lra. simpl. lia.
  - pose proof (few_extremes s w c) as F.
    rewrite (filter_length_map fst (fun x => (beats s x w <=? c)%nat)), picks_fst. exact F.
Qed.

(* ---------- the p-value ---------- *)
Definition rejects (alpha orig : R) (perm : list R) : bool := Rltb (perm_pvalue (Fin orig) (map Fin perm)) alpha.
Lemma share_map {A B} (h : A -> B) (p : B -> bool) l : share p (map h l) = share (fun x => p (h x)) l.
Proof. exact (meanf_map h (fun b => ind (p b)) l). Qed.
Lemma perm_pvalue_fin (x : R) (v : list R) : perm_pvalue (Fin x) (map Fin v) = Rmax (share (fun r => Rleb (Rabs x) (Rabs r)) v) (1 / (INR (length v) + 1)).
Proof. unfold perm_pvalue. rewrite share_map, map_length. reflexivity. Qed.
Lemma rejects_iff alpha x (v : list R) : v <> [] ->
  (rejects alpha x v = true <-> INR (beats Rabs x v) < alpha * len v /\ 1 < alpha * (len v + 1)).
Proof.
  intros N. pose proof (len_pos v N) as L. unfold rejects. rewrite Rltb_true, perm_pvalue_fin.
  rewrite share_count. fold (len v). fold (beats Rabs x v).
  assert (E1 : INR (beats Rabs x v) / len v < alpha <-> INR (beats Rabs x v) < alpha * len v).
  { split; intros H.
    - apply (Rmult_lt_compat_r (len v)) in H; [|exact L]. unfold Rdiv in H. rewrite Rmult_assoc, Rinv_l, Rmult_1_r in H by lra. exact H.
    - apply (Rmult_lt_reg_r (len v)); [exact L|]. unfold Rdiv. rewrite Rmult_assoc, Rinv_l, Rmult_1_r by lra. exact H. }
  assert (E2 : 1 / (len v + 1) < alpha <-> 1 < alpha * (len v + 1)).
  { split; intros H.
    - apply (Rmult_lt_compat_r (len v + 1)) in H; [|lra]. unfold Rdiv in H. rewrite Rmult_assoc, Rinv_l, Rmult_1_r in H by lra. exact H.
    - apply (Rmult_lt_reg_r (len v + 1)); [lra|]. unfold Rdiv. rewrite Rmult_assoc, Rinv_l, Rmult_1_r by lra. exact H. }
  split; [intros H|intros [H1 H2]].
  - split; [apply E1|apply E2]; eapply Rle_lt_trans; [apply Rmax_l|exact H|apply Rmax_r|exact H].
  - apply Rmax_lub_lt; [apply E1|apply E2]; assumption.
Qed.

(* the number of rejections over all equally likely draws, as a probability *)
Definition reject_prob {A} (s : A -> R) (alpha : R) (n : nat) (l : list A) : R :=
  sumf (fun a => sumf (fun v => ind (rejects alpha (s a) (map s v))) (tuples n l)) l / len l ^ S n.

Lemma beats_map {A} (s : A -> R) x (v : list A) : beats Rabs (s x) (map s v) = beats (fun a => Rabs (s a)) x v.
Proof. unfold beats. induction v as [|a v IH]; simpl; [reflexivity|]. destruct (Rleb _ _); simpl; rewrite IH; reflexivity. Qed.

(* at level alpha with n permutations: at most ceil(n alpha)/(n+1) *)
Lemma level_bound {A} (s : A -> R) (alpha : R) (n c : nat) (l : list A) :
  l <> [] -> (1 <= n)%nat -> alpha * INR n <= INR c -> reject_prob s alpha n l <= INR c / INR (S n).
Proof.
  intros Nl N C. pose proof (len_pos l Nl) as L. assert (P := pow_lt (len l) (S n) L).
  assert (IN : 0 < INR (S n)) by (apply lt_0_INR; lia).
  unfold reject_prob. apply (Rmult_le_reg_r (len l ^ S n)); [exact P|].
  unfold Rdiv at 1. rewrite Rmult_assoc, Rinv_l, Rmult_1_r by lra.
  apply (Rmult_le_reg_l (INR (S n))); [exact IN|].
  replace (INR (S n) * (INR c / INR (S n) * len l ^ S n)) with (len l ^ S n * INR c) by (field; lra).
  rewrite <- (sum_picks l n (fun a v => ind (rejects alpha (s a) (map s v)))), <- tuples_count, <- sumf_const.
  apply sumf_le. intros w W. pose proof (tuples_length _ _ _ W) as LW.
  rewrite <- len_filter. apply le_INR.
  etransitivity; [|apply (few_picks (fun a => Rabs (s a)) w c)].
  apply filter_length_le. intros q Q H. apply Nat.ltb_lt.
  assert (LQ : length (snd q) = n) by (pose proof (Permutation_length (picks_perm w q Q)) as E; simpl in E; lia).
  apply rejects_iff in H; [|destruct (snd q); [simpl in LQ; lia|discriminate]].
  destruct H as [H _]. rewrite beats_map, len_map in H. unfold len in H. rewrite LQ in H.
  apply INR_lt. lra.
Qed.
(* no rejection at all unless alpha (n+1) > 1 *)
Lemma level_zero {A} (s : A -> R) (alpha : R) (n : nat) (l : list A) : (1 <= n)%nat -> alpha * INR (S n) <= 1 -> reject_prob s alpha n l = 0.
Proof.
  intros N H. unfold reject_prob. rewrite sumf_zero; [unfold Rdiv; ring|]. intros a _. apply sumf_zero. intros v V.
  pose proof (tuples_length _ _ _ V) as LV. destruct (rejects alpha (s a) (map s v)) eqn:E; [|reflexivity].
  apply rejects_iff in E; [|destruct v; [simpl in LV; lia|discriminate]]. destruct E as [_ E]. rewrite len_map in E. unfold len in E. rewrite LV, <- S_INR in E. lra.
Qed.

Lemma ceil_exists (x : R) : 0 <= x -> exists c, x <= INR c < x + 1.
Proof.
  intros H. exists (Z.to_nat (up x - 1 + (if Req_EM_T (IZR (up x) - 1) x then 0 else 1))).
  pose proof (archimed x) as [A1 A2].
  rewrite INR_IZR_INZ, Z2Nat.id.
  - destruct (Req_EM_T _ _); rewrite ?plus_IZR, ?minus_IZR; lra.
  - destruct (Req_EM_T _ _) as [E|E]; apply le_IZR; rewrite plus_IZR, minus_IZR; lra.
Qed.
(* for every alpha and every n the excess over alpha is below 1/(n+1) *)
Lemma level_excess {A} (s : A -> R) (alpha : R) (n : nat) (l : list A) :
  l <> [] -> (1 <= n)%nat -> 0 <= alpha -> reject_prob s alpha n l < alpha + 1 / INR (S n).
Proof.
  intros Nl N H. assert (IN : 0 < INR (S n)) by (apply lt_0_INR; lia). pose proof (pos_INR n) as Pn.
  destruct (ceil_exists (alpha * INR n)) as [c [C1 C2]]; [apply Rmult_le_pos; lra|].
  eapply Rle_lt_trans; [apply (level_bound s alpha n c l Nl N C1)|].
  apply (Rmult_lt_reg_r (INR (S n))); [exact IN|]. unfold Rdiv.
  rewrite Rmult_plus_distr_r, !Rmult_assoc, Rinv_l, !Rmult_1_r by lra. rewrite S_INR. nra.
Qed.
(* exact level whenever alpha (n+1), or alpha n with the usual n = 999.. convention, is an integer *)
Lemma level_exact {A} (s : A -> R) (alpha : R) (n c : nat) (l : list A) :
  l <> [] -> (1 <= n)%nat -> 0 <= alpha -> alpha * INR (S n) = INR c \/ alpha * INR n = INR c -> reject_prob s alpha n l <= alpha.
Proof.
  intros Nl N A0 H. assert (IN : 0 < INR (S n)) by (apply lt_0_INR; lia).
  assert (C : alpha * INR n <= INR c) by (rewrite S_INR in H; destruct H; nra).
  eapply Rle_trans; [apply (level_bound s alpha n c l Nl N C)|].
  apply (Rmult_le_reg_r (INR (S n))); [exact IN|]. unfold Rdiv. rewrite Rmult_assoc, Rinv_l, Rmult_1_r by lra.
  rewrite S_INR in *. destruct H; nra.
Qed.

(* ---------- the level is exceeded for alpha = 1/20, 21 permutations, 20 equally likely assignments ---------- *)
Lemma count0 {A} (p : A -> bool) (l : list A) n :
  sumf (fun v => ind (length (filter p v) =? 0)%nat) (tuples n l) = (len l - len (filter p l)) ^ n.
Proof.
  induction n as [|n IH]; [simpl; lra|]. rewrite sumf_tuples_S.
  rewrite (sumf_ext_all _ (fun a => (1 - ind (p a)) * (len l - len (filter p l)) ^ n)).
  - rewrite sumf_scal_r, sumf_sub, sumf_const, <- len_filter. simpl. ring.
  - intros a. rewrite <- IH. destruct (p a) eqn:E; simpl.
    + rewrite sumf_zero; [ring|]. intros v _. simpl. rewrite E. reflexivity.
    + rewrite Rminus_0_r, Rmult_1_l. apply sumf_ext_all. intros v. rewrite E. reflexivity.
Qed.
Lemma count1 {A} (p : A -> bool) (l : list A) n :
  sumf (fun v => ind (length (filter p v) =? 1)%nat) (tuples (S n) l) = INR (S n) * len (filter p l) * (len l - len (filter p l)) ^ n.
Proof.
  induction n as [|n IH]; rewrite sumf_tuples_S.
  - cbn [tuples sumf]. rewrite (sumf_ext_all _ (fun a => ind (p a))).
    + rewrite <- len_filter. simpl. ring.
    + intros a. simpl. destruct (p a); simpl; ring.
  - rewrite (sumf_ext_all _ (fun a => ind (p a) * (len l - len (filter p l)) ^ S n + (1 - ind (p a)) * (INR (S n) * len (filter p l) * (len l - len (filter p l)) ^ n))).
    + rewrite sumf_add, !sumf_scal_r, sumf_sub, sumf_const, <- len_filter. rewrite (S_INR (S n)). simpl pow. ring.
    + intros a. destruct (p a) eqn:E.
      * change (ind true) with 1. rewrite Rmult_1_l. replace (1 - 1) with 0 by ring. rewrite Rmult_0_l, Rplus_0_r, <- count0.
        apply sumf_ext_all. intros v. simpl. rewrite E. reflexivity.
      * change (ind false) with 0. rewrite Rmult_0_l, Rplus_0_l, Rminus_0_r, Rmult_1_l, <- IH.
        apply sumf_ext_all. intros v. simpl. rewrite E. reflexivity.
Qed.

Definition twenty : list nat := seq 1 20.
Lemma beats_seq a (v : list nat) : beats (fun k => Rabs (INR k)) a v = length (filter (fun k => a <=? k)%nat v).
Proof.
  unfold beats. f_equal. apply filter_ext. intros k. rewrite !Rabs_pos_eq by apply pos_INR.
  destruct (a <=? k)%nat eqn:E; [apply Nat.leb_le in E; apply Rleb_true; apply le_INR; exact E|
    apply Nat.leb_gt in E; apply Rleb_false; apply lt_INR; exact E].
Qed.
Lemma rejects_21 a v : length v = 21%nat ->
  ind (rejects (/ 20) (INR a) (map INR v)) = ind (length (filter (fun k => a <=? k) v) =? 0)%nat + ind (length (filter (fun k => a <=? k) v) =? 1)%nat.
Proof.
  intros L. assert (N : map INR v <> []) by (destruct v; discriminate).
  pose proof (rejects_iff (/ 20) (INR a) (map INR v) N) as H.
  rewrite beats_map, beats_seq in H. set (k := length (filter (fun k => (a <=? k)%nat) v)) in *.
  assert (EL : len (map INR v) = 21) by (rewrite len_map; unfold len; rewrite L; simpl; lra). rewrite EL in H.
  destruct k as [|[|k]].
  - rewrite (proj2 H); [simpl; ring|]. simpl; split; lra.
  - rewrite (proj2 H); [simpl; ring|]. simpl; split; lra.
  - destruct (rejects _ _ _); [|simpl; ring]. destruct (proj1 H eq_refl) as [H1 _]. rewrite !S_INR in H1. pose proof (pos_INR k). lra.
Qed.
Lemma len_INR {A} (l : list A) : len l = IZR (Z.of_nat (length l)).
Proof. unfold len. apply INR_IZR_INZ. Qed.
Lemma level_exceeded : / 20 < reject_prob INR (/ 20) 21 twenty.
Proof.
  unfold reject_prob.
  rewrite (sumf_ext _ (fun a => IZR (let g := Z.of_nat (length (filter (fun k => (a <=? k)%nat) twenty)) in
                                     let b := (20 - g)%Z in b ^ 21 + 21 * g * b ^ 20)%Z)).
  2:{ intros a _. rewrite (sumf_ext _ (fun v => ind (length (filter (fun k => (a <=? k)%nat) v) =? 0)%nat + ind (length (filter (fun k => (a <=? k)%nat) v) =? 1)%nat))
        by (intros v V; apply rejects_21; exact (tuples_length _ _ _ V)).
      rewrite sumf_add, count0, count1, !len_INR.
      change (Z.of_nat (length twenty)) with 20%Z. set (g := Z.of_nat (length (filter (fun k => (a <=? k)%nat) twenty))).
      cbv zeta. rewrite plus_IZR, !mult_IZR. change 21%Z with (Z.of_nat 21). change 20%Z with (Z.of_nat 20) at 5.
      rewrite <- !pow_IZR, minus_IZR. rewrite INR_IZR_INZ. reflexivity. }
  rewrite len_INR, pow_IZR. cbv [twenty seq sumf]. rewrite Rplus_0_r, <- !plus_IZR.
  match goal with |- _ < IZR ?a / IZR ?b => 
    assert (Hb : (0 < b)%Z) by (vm_compute; reflexivity); assert (Hab : (b < 20 * a)%Z) by (vm_compute; reflexivity);
    apply IZR_lt in Hb, Hab; rewrite mult_IZR in Hab; set (x := IZR a) in *; set (z := IZR b) in * end.
  apply (Rmult_lt_reg_r z); [exact Hb|]. unfold Rdiv. rewrite Rmult_assoc, Rinv_l, Rmult_1_r by lra. lra.
Qed.

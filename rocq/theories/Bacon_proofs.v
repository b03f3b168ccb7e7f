(* Proofs about the Goodman-Bacon decomposition (bacon.py). *)
From Verif Require Import Prelude Flt Linalg_model Linalg_proofs Did_model Within_proofs Multi_model Multi_proofs Bacon_model.
From Coq Require Import Arith ZArith String List Permutation.
Import ListNotations.
Open Scope R_scope.

(* ---------- pairwise form of the two-way projection ---------- *)
Section Algebra.
Context {A B : Type}.

Lemma pair_expand (l : list A) f h :
  sumf (fun a => sumf (fun a' => (f a - f a') * (h a - h a')) l) l
  = 2 * len l * sumf (fun a => f a * h a) l - 2 * (sumf f l * sumf h l).
Proof.
  rewrite (sumf_ext_all _ (fun a => len l * (f a * h a) - f a * sumf h l - sumf f l * h a + sumf (fun a' => f a' * h a') l)).
  - rewrite !sumf_add, !sumf_sub, sumf_scal, sumf_scal_r, sumf_scal, sumf_const. ring.
  - intros a. rewrite (sumf_ext_all _ (fun a' => f a * h a - f a * h a' - f a' * h a + f a' * h a')) by (intros; ring).
    rewrite sumf_add, !sumf_sub, sumf_const, sumf_scal, sumf_scal_r. ring.
Qed.

Variables (Us : list A) (Ts : list B) (D S : A -> B -> R).
Let N := len Us.
Let T := len Ts.
Hypotheses (HN : N <> 0) (HT : T <> 0).

(* sum of products of the doubly demeaned D with S *)
Definition quad : R :=
  sumf (fun a => sumf (fun b => D a b * S a b) Ts) Us
  - / T * sumf (fun a => sumf (D a) Ts * sumf (S a) Ts) Us
  - / N * sumf (fun b => sumf (fun a => D a b) Us * sumf (fun a => S a b) Us) Ts
  + / (N * T) * (sumf (fun a => sumf (D a) Ts) Us * sumf (fun a => sumf (S a) Ts) Us).

Definition pairf (a a' : A) : R :=
  sumf (fun b => (D a b - D a' b) * (S a b - S a' b)) Ts
  - / T * (sumf (fun b => D a b - D a' b) Ts * sumf (fun b => S a b - S a' b) Ts).

Lemma pairwise : sumf (fun a => sumf (pairf a) Us) Us = 2 * N * quad.
Proof.
  unfold pairf.
  rewrite (sumf_ext_all _ (fun a => sumf (fun a' => sumf (fun b => (D a b - D a' b) * (S a b - S a' b)) Ts) Us
     - / T * sumf (fun a' => (sumf (D a) Ts - sumf (D a') Ts) * (sumf (S a) Ts - sumf (S a') Ts)) Us)).
  2:{ intros a. rewrite <- sumf_scal, <- sumf_sub. apply sumf_ext_all. intros a'. rewrite !sumf_sub. reflexivity. }
  rewrite sumf_sub, sumf_scal.
  rewrite (pair_expand Us (fun a => sumf (D a) Ts) (fun a => sumf (S a) Ts)).
  rewrite (sumf_ext_all (fun a => sumf _ Us) (fun a => sumf (fun b => sumf (fun a' => (D a b - D a' b) * (S a b - S a' b)) Us) Ts))
    by (intros; apply sumf_swap).
  rewrite sumf_swap.
  rewrite (sumf_ext_all _ (fun b => 2 * N * sumf (fun a => D a b * S a b) Us - 2 * (sumf (fun a => D a b) Us * sumf (fun a => S a b) Us)))
    by (intros b; apply (pair_expand Us (fun a => D a b) (fun a => S a b))).
  rewrite sumf_sub, !sumf_scal. rewrite (sumf_swap (fun b a => D a b * S a b)). unfold quad. fold N. field. auto.
Qed.

(* grouping the units by a key on which D depends *)
Context {K : Type} (keq : forall x y : K, {x = y} + {x <> y}).
Variables (key : A -> K) (ks : list K) (delta : K -> B -> R).
Hypotheses (Hnd : NoDup ks) (Hcov : forall a, In a Us -> In (key a) ks)
           (HD : forall a b, In a Us -> In b Ts -> D a b = delta (key a) b).

Definition members (k : K) : list A := filter (fun a => keqb keq (key a) k) Us.
Definition gsum (k : K) (b : B) : R := sumf (fun a => S a b) (members k).
Definition gap (k l : K) (b : B) : R := len (members l) * gsum k b - len (members k) * gsum l b.
Definition hpair (k l : K) : R :=
  sumf (fun b => (delta k b - delta l b) * gap k l b) Ts
  - / T * (sumf (fun b => delta k b - delta l b) Ts * sumf (gap k l) Ts).

Lemma members_in a k : In a (members k) -> In a Us /\ key a = k.
Proof. intros H. apply filter_In in H as [H1 H2]. apply keqb_true in H2. auto. Qed.

Lemma gap_sum k l b : sumf (fun a => sumf (fun a' => S a b - S a' b) (members l)) (members k) = gap k l b.
Proof.
  unfold gap, gsum. rewrite (sumf_ext_all _ (fun a => len (members l) * S a b - sumf (fun a' => S a' b) (members l))).
  - rewrite sumf_sub, sumf_scal, sumf_const. ring.
  - intros a. rewrite sumf_sub, sumf_const. ring.
Qed.

Lemma group_pairs k l : sumf (fun a => sumf (pairf a) (members l)) (members k) = hpair k l.
Proof.
  rewrite (sumf_ext _ (fun a => sumf (fun a' => sumf (fun b => (delta k b - delta l b) * (S a b - S a' b)) Ts
     - / T * (sumf (fun b => delta k b - delta l b) Ts * sumf (fun b => S a b - S a' b) Ts)) (members l))).
  2:{ intros a Ha. apply sumf_ext. intros a' Ha'. apply members_in in Ha as [Ha <-]. apply members_in in Ha' as [Ha' <-].
      unfold pairf. f_equal; [|f_equal; f_equal]; apply sumf_ext; intros b Hb; rewrite !HD by auto; ring. }
  unfold hpair.
  rewrite (sumf_ext_all _ (fun a => sumf (fun b => (delta k b - delta l b) * sumf (fun a' => S a b - S a' b) (members l)) Ts
     - / T * (sumf (fun b => delta k b - delta l b) Ts * sumf (fun b => sumf (fun a' => S a b - S a' b) (members l)) Ts))).
  2:{ intros a. rewrite sumf_sub, !sumf_scal. f_equal; [|f_equal; f_equal].
      - rewrite sumf_swap. apply sumf_ext_all; intros; apply sumf_scal.
      - apply sumf_swap. }
  rewrite sumf_sub, !sumf_scal. f_equal; [|f_equal; f_equal].
  - rewrite sumf_swap. apply sumf_ext_all. intros b. rewrite sumf_scal, gap_sum. reflexivity.
  - rewrite sumf_swap. apply sumf_ext_all. intros b. apply gap_sum.
Qed.

Lemma pairs_by_key : sumf (fun a => sumf (pairf a) Us) Us = sumf (fun k => sumf (hpair k) ks) ks.
Proof.
  rewrite <- (sumf_group keq key ks (fun a => sumf (pairf a) Us) Us Hnd Hcov).
  apply sumf_ext_all. intros k. fold (members k).
  rewrite (sumf_ext_all (fun a => sumf (pairf a) Us) (fun a => sumf (fun l => sumf (pairf a) (members l)) ks))
    by (intros a; symmetry; apply (sumf_group keq key ks (pairf a) Us Hnd Hcov)).
  rewrite sumf_swap. apply sumf_ext_all. intros l. apply group_pairs.
Qed.

Lemma hpair_sym k l : hpair k l = hpair l k.
Proof.
  unfold hpair. f_equal; [apply sumf_ext_all; intros; unfold gap; ring|].
  rewrite (sumf_ext_all (fun b => delta k b - delta l b) (fun b => - (delta l b - delta k b))) by (intros; ring).
  rewrite (sumf_ext_all (gap k l) (fun b => - gap l k b)) by (intros; unfold gap; ring).
  rewrite !sumf_opp. ring.
Qed.
Lemma hpair_diag k : hpair k k = 0.
Proof.
  unfold hpair. rewrite (sumf_zero (fun b => (delta k b - delta k b) * _)) by (intros; ring).
  rewrite (sumf_zero (gap k k)) by (intros; unfold gap; ring). ring.
Qed.
Lemma hpair_empty k l : members k = [] -> hpair k l = 0.
Proof.
  intros E. assert (G : forall b, gap k l b = 0) by (intros; unfold gap, gsum; rewrite E; simpl; unfold len; simpl; ring).
  unfold hpair. rewrite (sumf_zero (fun b => (delta k b - delta l b) * _)) by (intros; rewrite G; ring).
  rewrite (sumf_zero (gap k l)) by (intros; apply G). ring.
Qed.
End Algebra.

(* sum over the pairs of a list, earlier element first *)
Fixpoint pairsum {K} (H : K -> K -> R) (l : list K) : R :=
  match l with [] => 0 | k :: r => sumf (H k) r + pairsum H r end.
Lemma sym_pairs {K} (H : K -> K -> R) l : (forall k k', H k k' = H k' k) -> (forall k, H k k = 0) ->
  sumf (fun k => sumf (H k) l) l = 2 * pairsum H l.
Proof.
  intros Hs Hd. induction l as [|k l IH]; simpl; [ring|]. rewrite Hd, sumf_add, IH.
  rewrite (sumf_ext_all (fun a => H a k) (H k)) by (intros; apply Hs). ring.
Qed.
Lemma pairsum_map {K L} (f : L -> K) H l : pairsum H (map f l) = pairsum (fun a b => H (f a) (f b)) l.
Proof. induction l as [|a l IH]; simpl; auto. rewrite IH, sumf_map. reflexivity. Qed.
Lemma pairsum_scal {K} c (H : K -> K -> R) l : pairsum (fun a b => c * H a b) l = c * pairsum H l.
Proof. induction l as [|a l IH]; simpl; [ring|]. rewrite IH, sumf_scal. ring. Qed.
Lemma pairsum_ext_sorted (H H' : Z -> Z -> R) l : zsorted l -> NoDup l ->
  (forall a b, In a l -> In b l -> (a < b)%Z -> H a b = H' a b) -> pairsum H l = pairsum H' l.
Proof.
  induction l as [|a l IH]; intros Hs Hn E; simpl; auto. destruct Hs as [Hs1 Hs2]. inversion Hn; subst. f_equal.
  - apply sumf_ext. intros b Hb. apply E; simpl; auto. specialize (Hs1 b Hb). assert (a <> b) by (intros ->; auto). lia.
  - apply IH; auto. intros; apply E; simpl; auto.
Qed.

Section Panel.
Context {I : Type}.
Variables (rows : list I) (u t : I -> Z) (g : I -> coh) (m : nat) (C : Z -> coh).
Hypothesis Hbal : balanced Z.eq_dec Z.eq_dec rows u t m.
Hypothesis HC : forall i, In i rows -> g i = C (u i).
Hypothesis Hvalid : forall i, In i rows -> c_never (g i) = true \/ exists z, (0 < z)%Z /\ g i = CFin z.

Notation Us := (nodup Z.eq_dec (map u rows)).
Notation Ts := (bperiods rows t).
Notation W := (within Z.eq_dec Z.eq_dec rows u t).

Definition cellsum (y : I -> R) (a b : Z) : R :=
  sumf y (filter (fun i => keqb Z.eq_dec (u i) a && keqb Z.eq_dec (t i) b) rows).
Definition bkey (a : Z) : option Z :=
  if c_never (C a) then None else match C a with CFin z => Some z | _ => None end.
Definition bdelta (k : option Z) (b : Z) : R := match k with None => 0 | Some z => ind (Z.leb z b) end.

Lemma Ts_perm : Permutation Ts (times Z.eq_dec rows t).
Proof. apply zsort_perm. Qed.
Lemma Ts_in b : In b Ts <-> In b (map t rows).
Proof. unfold bperiods. rewrite zsort_In, nodup_In. tauto. Qed.
Lemma Ts_nodup : NoDup Ts.
Proof. apply zsort_NoDup, NoDup_nodup. Qed.
Lemma Us_in a : In a Us <-> In a (map u rows).
Proof. apply nodup_In. Qed.
Lemma Us_nodup : NoDup Us.
Proof. apply NoDup_nodup. Qed.

Lemma btreat_delta i : In i rows -> btreat t g i = bdelta (bkey (u i)) (t i).
Proof.
  intros Hi. unfold btreat, bdelta, bkey. rewrite <- (HC i Hi).
  destruct (c_never (g i)) eqn:E; simpl; [reflexivity|].
  destruct (Hvalid i Hi) as [H|(z & Hz & H)]; [congruence|]. rewrite H. reflexivity.
Qed.

Lemma rows_by_cell (F : Z -> Z -> R) y :
  sumf (fun i => F (u i) (t i) * y i) rows = sumf (fun a => sumf (fun b => F a b * cellsum y a b) Ts) Us.
Proof.
  rewrite <- (sumf_group Z.eq_dec u Us) by (auto using Us_nodup; intros; apply Us_in, in_map; auto).
  apply sumf_ext_all. intros a.
  rewrite <- (sumf_group Z.eq_dec t Ts).
  2: apply Ts_nodup. 2:{ intros x Hx. apply filter_In in Hx as [Hx _]. apply Ts_in, in_map; auto. }
  apply sumf_ext_all. intros b. rewrite filter_filter. unfold cellsum. rewrite <- sumf_scal.
  apply sumf_ext. intros i Hi. apply filter_In in Hi as [_ Hi]. apply andb_true_iff in Hi as [H1 H2].
  apply keqb_true in H1. apply keqb_true in H2. subst. reflexivity.
Qed.

Lemma mean_times (h : Z -> R) : meanf h (times Z.eq_dec rows t) = meanf h Ts.
Proof. apply meanf_perm, Permutation_sym, Ts_perm. Qed.

Lemma within_quad y : rows <> [] ->
  sumf (fun i => W (btreat t g) i * W y i) rows = quad Us Ts (fun a b => bdelta (bkey a) b) (cellsum y).
Proof.
  intros Hne. change (ip rows (W (btreat t g)) (W y) = quad Us Ts (fun a b => bdelta (bkey a) b) (cellsum y)).
  rewrite <- (within_ip Z.eq_dec Z.eq_dec rows u t m Hbal). unfold ip.
  assert (Hi0 : exists i, In i rows) by (destruct rows as [|i l]; [congruence|exists i; left; auto]).
  destruct Hi0 as [i0 Hi0].
  assert (HN : len Us <> 0). { apply Rgt_not_eq, len_pos. intros E. apply (in_map u), Us_in in Hi0. rewrite E in Hi0. destruct Hi0. }
  assert (HT : len Ts <> 0). { apply Rgt_not_eq, len_pos. intros E. apply (in_map t), Ts_in in Hi0. rewrite E in Hi0. destruct Hi0. }
  set (d := fun a b => bdelta (bkey a) b).
  set (F := fun a b => d a b - meanf (d a) Ts - meanf (fun a' => d a' b) Us + sumf (fun a' => sumf (d a') Ts) Us / (len Us * len Ts)).
  rewrite (sumf_ext _ (fun i => F (u i) (t i) * y i)).
  - rewrite rows_by_cell. unfold F, quad, meanf.
    rewrite (sumf_ext_all _ (fun a => sumf (fun b => d a b * cellsum y a b) Ts - / len Ts * (sumf (d a) Ts * sumf (cellsum y a) Ts)
       - / len Us * sumf (fun b => sumf (fun a' => d a' b) Us * cellsum y a b) Ts
       + / (len Us * len Ts) * sumf (fun a' => sumf (d a') Ts) Us * sumf (cellsum y a) Ts)).
    + rewrite sumf_add, !sumf_sub, !sumf_scal.
      rewrite (sumf_swap (fun a b => sumf (fun a' => d a' b) Us * cellsum y a b)).
      rewrite (sumf_ext_all (fun b => sumf (fun a => sumf (fun a' => d a' b) Us * cellsum y a b) Us)
                            (fun b => sumf (fun a' => d a' b) Us * sumf (fun a => cellsum y a b) Us)) by (intros; apply sumf_scal).
      ring.
    + intros a.
      rewrite (sumf_ext_all _ (fun b => d a b * cellsum y a b - (/ len Ts * sumf (d a) Ts) * cellsum y a b
         - / len Us * (sumf (fun a' => d a' b) Us * cellsum y a b)
         + (/ (len Us * len Ts) * sumf (fun a' => sumf (d a') Ts) Us) * cellsum y a b)) by (intros; unfold Rdiv; ring).
      rewrite sumf_add, !sumf_sub, !sumf_scal. ring.
  - intros i Hi. f_equal. unfold F, within.
    f_equal; [f_equal; [f_equal|]|].
    + apply btreat_delta; auto.
    + rewrite <- mean_times, <- (unit_mean_of_time Z.eq_dec Z.eq_dec rows u t m Hbal _ i Hi).
      apply meanf_ext. intros j Hj. apply filter_In in Hj as [Hj E]. apply keqb_true in E. rewrite btreat_delta, E by auto. reflexivity.
    + change Us with (units Z.eq_dec rows u).
      rewrite <- (time_mean_of_unit Z.eq_dec Z.eq_dec rows u t m Hbal (fun a => d a (t i)) i Hi).
      apply meanf_ext. intros j Hj. apply filter_In in Hj as [Hj E]. apply keqb_true in E. rewrite btreat_delta, E by auto. reflexivity.
    + unfold meanf. rewrite (sumf_ext _ (fun i => d (u i) (t i) * 1)) by (intros j Hj; rewrite btreat_delta by auto; unfold d; ring).
      rewrite (rows_by_cell d (fun _ => 1)).
      assert (Hc : forall a b, In a Us -> In b Ts -> cellsum (fun _ => 1) a b = INR m).
      { intros a b Ha Hb. unfold cellsum. rewrite sumf_const, Rmult_1_r. unfold len. f_equal. apply Hbal; [apply Us_in|apply Ts_in]; auto. }
      rewrite (sumf_ext _ (fun a => INR m * sumf (d a) Ts)).
      2:{ intros a Ha. rewrite <- sumf_scal. apply sumf_ext. intros b Hb. rewrite Hc by auto. ring. }
      rewrite sumf_scal, (rows_size Z.eq_dec Z.eq_dec rows u t m Hbal).
      assert (ET : len (times Z.eq_dec rows t) = len Ts) by (symmetry; unfold len; f_equal; apply Permutation_length, Ts_perm).
      rewrite ET. change (units Z.eq_dec rows u) with Us. field. repeat split; auto.
      apply Rgt_not_eq. apply (mpos Z.eq_dec Z.eq_dec rows u t m Hbal).
Qed.

Definition oz_dec (a b : option Z) : {a = b} + {a <> b}.
Proof. decide equality. apply Z.eq_dec. Defined.
Notation mem := (members Us oz_dec bkey).
Notation gs y := (gsum Us (cellsum y) oz_dec bkey).
Notation hp y := (hpair Us Ts (cellsum y) oz_dec bkey bdelta).

Definition sel (k : option Z) (i : I) : bool := match k with None => c_never (g i) | Some z => c_is (g i) z end.
Lemma sel_key k i : k <> Some 0%Z -> In i rows -> sel k i = keqb oz_dec (bkey (u i)) k.
Proof.
  intros Hk Hi. unfold sel, bkey. rewrite <- (HC i Hi). destruct k as [z|].
  - destruct (Hvalid i Hi) as [H|(z' & Hz & H)].
    + rewrite H. rewrite (proj2 (keqb_false oz_dec None (Some z))) by discriminate.
      destruct (g i); simpl in *; auto. apply Z.eqb_eq in H. subst. apply Z.eqb_neq. intros E. apply Hk. congruence.
    + rewrite H. simpl. destruct (Z.eqb z' 0) eqn:E; [apply Z.eqb_eq in E; lia|].
      unfold keqb. destruct (oz_dec (Some z') (Some z)) as [E1|E1]; [apply Z.eqb_eq; congruence|apply Z.eqb_neq; congruence].
  - destruct (c_never (g i)) eqn:E; [symmetry; apply keqb_refl|].
    destruct (Hvalid i Hi) as [H|(z' & Hz & H)]; [congruence|]. rewrite H.
    symmetry. apply keqb_false. discriminate.
Qed.

Lemma mem_in a k : In a (mem k) <-> In a (map u rows) /\ bkey a = k.
Proof. unfold members. rewrite filter_In, Us_in, keqb_true. tauto. Qed.

Lemma nunique_members k : k <> Some 0%Z -> nunique_units u (filter (sel k) rows) = length (mem k).
Proof.
  intros Hk. unfold nunique_units. apply Permutation_length, NoDup_Permutation.
  - apply NoDup_nodup.
  - apply NoDup_filter, Us_nodup.
  - intros a. rewrite nodup_In, mem_in, !in_map_iff. split.
    + intros (i & <- & Hi). apply filter_In in Hi as [Hi Hs]. rewrite sel_key in Hs by auto. apply keqb_true in Hs.
      split; [exists i; auto|auto].
    + intros ((i & <- & Hi) & Hk'). exists i. split; auto. apply filter_In. rewrite sel_key by auto. split; auto. apply keqb_true; auto.
Qed.

Lemma sel_nonempty k : k <> Some 0%Z -> nonempty (filter (sel k) rows) = nonempty (mem k).
Proof.
  intros Hk. pose proof (nunique_members k Hk) as H. unfold nunique_units in H.
  destruct (filter (sel k) rows) as [|i l] eqn:E; destruct (mem k) as [|a l'] eqn:E'; auto; exfalso.
  - discriminate H.
  - assert (Hin : In (u i) (nodup Z.eq_dec (map u (i :: l)))) by (apply nodup_In; simpl; auto).
    destruct (nodup Z.eq_dec (map u (i :: l))); [destruct Hin|discriminate H].
Qed.

Lemma window_sum y k ps : k <> Some 0%Z -> NoDup ps -> sumf y (in_periods t ps (filter (sel k) rows)) = sumf (gs y k) ps.
Proof.
  intros Hk Hn. unfold in_periods.
  rewrite <- (sumf_group Z.eq_dec t ps) by
    (auto; intros x Hx; apply filter_In in Hx as [_ Hx]; apply existsb_exists in Hx as (b & Hb & E); apply Z.eqb_eq in E; rewrite E; auto).
  apply sumf_ext. intros b Hb. unfold gsum, cellsum.
  rewrite !filter_filter.
  rewrite <- (sumf_group Z.eq_dec u (mem k)).
  - apply sumf_ext. intros a Ha. apply mem_in in Ha as [Ha Ek]. rewrite filter_filter. f_equal. apply filter_ext_in.
    intros i Hi. rewrite sel_key by auto.
    destruct (keqb Z.eq_dec (u i) a) eqn:E1; [|destruct (keqb oz_dec (bkey (u i)) k), (existsb (Z.eqb (t i)) ps), (keqb Z.eq_dec (t i) b); reflexivity]. apply keqb_true in E1.
    destruct (keqb Z.eq_dec (t i) b) eqn:E2; [|destruct (keqb oz_dec (bkey (u i)) k), (existsb (Z.eqb (t i)) ps); reflexivity]. apply keqb_true in E2.
    rewrite E1, Ek, keqb_refl. replace (existsb (Z.eqb (t i)) ps) with true; auto.
    symmetry. apply existsb_exists. exists b. split; auto. apply Z.eqb_eq; auto.
  - apply NoDup_filter, Us_nodup.
  - intros i Hi. apply filter_In in Hi as [Hi H]. apply andb_true_iff in H as [H _].
    rewrite sel_key in H by auto. apply keqb_true in H. apply mem_in. split; auto. apply in_map; auto.
Qed.

Lemma window_len k ps : k <> Some 0%Z -> NoDup ps -> incl ps Ts ->
  len (in_periods t ps (filter (sel k) rows)) = INR m * len (mem k) * len ps.
Proof.
  intros Hk Hn Hp. assert (E : forall l : list I, len l = sumf (fun _ => 1) l) by (intros; rewrite sumf_const; ring).
  rewrite E, window_sum by auto. rewrite (sumf_ext _ (fun _ => INR m * len (mem k))).
  - rewrite sumf_const. ring.
  - intros b Hb. unfold gsum. rewrite (sumf_ext _ (fun _ => INR m)).
    + rewrite sumf_const. ring.
    + intros a Ha. apply mem_in in Ha as [Ha _]. unfold cellsum. rewrite sumf_const, Rmult_1_r. unfold len. f_equal.
      apply Hbal; auto. apply Ts_in, Hp; auto.
Qed.

Lemma smean_window y k ps : k <> Some 0%Z -> NoDup ps -> incl ps Ts -> ps <> [] -> mem k <> [] ->
  smean y (in_periods t ps (filter (sel k) rows)) = Fin (sumf (gs y k) ps / (INR m * len (mem k) * len ps)).
Proof.
  intros Hk Hn Hp Hne Hm. pose proof (window_len k ps Hk Hn Hp) as HL.
  assert (Hpos : 0 < INR m * len (mem k) * len ps).
  { repeat apply Rmult_lt_0_compat; try (apply len_pos; auto). apply (mpos Z.eq_dec Z.eq_dec rows u t m Hbal). }
  unfold smean. destruct (in_periods t ps (filter (sel k) rows)) as [|i l] eqn:E.
  - unfold len at 1 in HL; simpl in HL. lra.
  - rewrite <- E. unfold meanf. rewrite window_sum by auto. rewrite E, HL. reflexivity.
Qed.

(* the windows *)
Lemma filter_incl {X} (p : X -> bool) l : incl (filter p l) l.
Proof. intros x Hx. apply filter_In in Hx; tauto. Qed.
Lemma pre_incl ty k l : incl (pre_of rows t ty k l) Ts.
Proof. unfold pre_of. destruct ty, l; apply filter_incl. Qed.
Lemma post_incl ty k l : incl (post_of rows t ty k l) Ts.
Proof. unfold post_of. destruct ty, l; apply filter_incl. Qed.
Lemma pre_nodup ty k l : NoDup (pre_of rows t ty k l).
Proof. unfold pre_of. destruct ty, l; apply NoDup_filter, Ts_nodup. Qed.
Lemma post_nodup ty k l : NoDup (post_of rows t ty k l).
Proof. unfold post_of. destruct ty, l; apply NoDup_filter, Ts_nodup. Qed.

(* Goodman-Bacon weight of a comparison, up to a common factor: treated units x control units x
   pre-periods x post-periods *)
Definition gb_weight (c : comparison) : R :=
  INR (cmp_nt c) * INR (cmp_nc c) * len (pre_of rows t (cmp_type c) (cmp_treated c) (cmp_control c))
  * len (post_of rows t (cmp_type c) (cmp_treated c) (cmp_control c)).
Definition gb_term (c : comparison) : R := gb_weight c * toR (cmp_est c).

Lemma est_value y k l pre post : k <> Some 0%Z -> l <> Some 0%Z ->
  NoDup pre -> NoDup post -> incl pre Ts -> incl post Ts -> pre <> [] -> post <> [] -> mem k <> [] -> mem l <> [] ->
  did22 (smean y (in_periods t post (filter (sel k) rows))) (smean y (in_periods t pre (filter (sel k) rows)))
        (smean y (in_periods t post (filter (sel l) rows))) (smean y (in_periods t pre (filter (sel l) rows)))
  = Fin ((sumf (gap Us (cellsum y) oz_dec bkey k l) post / len post - sumf (gap Us (cellsum y) oz_dec bkey k l) pre / len pre)
         / (INR m * len (mem k) * len (mem l))).
Proof.
  intros. rewrite !smean_window by auto. unfold did22. cbn. f_equal.
  assert (Hm : 0 < INR m) by apply (mpos Z.eq_dec Z.eq_dec rows u t m Hbal).
  assert (0 < len (mem k)) by (apply len_pos; auto). assert (0 < len (mem l)) by (apply len_pos; auto).
  assert (0 < len pre) by (apply len_pos; auto). assert (0 < len post) by (apply len_pos; auto).
  unfold gap. rewrite !sumf_sub, !sumf_scal. field. repeat split; lra.
Qed.

Notation gp y := (gap Us (cellsum y) oz_dec bkey).
Lemma gap_empty_l y k l b : mem k = [] -> gp y k l b = 0.
Proof. intros E. unfold gap, gsum. rewrite E. unfold len; simpl. ring. Qed.
Lemma gap_empty_r y k l b : mem l = [] -> gp y k l b = 0.
Proof. intros E. unfold gap, gsum. rewrite E. unfold len; simpl. ring. Qed.

Lemma nonempty_false {X} (l : list X) : nonempty l = false -> l = [].
Proof. destruct l; simpl; congruence. Qed.
Lemma nonempty_true {X} (l : list X) : nonempty l = true -> l <> [].
Proof. destruct l; simpl; congruence. Qed.

Lemma timing_term y ty k l : k <> 0%Z -> l <> 0%Z ->
  let pre := pre_of rows t ty k (Some l) in let post := post_of rows t ty k (Some l) in
  INR m * sumf gb_term (olist (timing_comparison rows u t g y ty k l))
  = len pre * sumf (gp y (Some k) (Some l)) post - len post * sumf (gp y (Some k) (Some l)) pre.
Proof.
  intros Hk Hl pre post. assert (Hk' : Some k <> Some 0%Z) by congruence. assert (Hl' : Some l <> Some 0%Z) by congruence.
  unfold timing_comparison. fold pre post.
  change (fun i : I => c_is (g i) k) with (sel (Some k)). change (fun i : I => c_is (g i) l) with (sel (Some l)).
  rewrite !sel_nonempty by auto.
  destruct (nonempty (mem (Some k))) eqn:Ek.
  2:{ apply nonempty_false in Ek. cbn [negb orb olist sumf].
      rewrite !(sumf_zero (gp y (Some k) (Some l))) by (intros; apply gap_empty_l; auto). ring. }
  destruct (nonempty (mem (Some l))) eqn:El.
  2:{ apply nonempty_false in El. cbn [negb orb olist sumf].
      rewrite !(sumf_zero (gp y (Some k) (Some l))) by (intros; apply gap_empty_r; auto). ring. }
  cbn [negb orb].
  destruct (nonempty pre) eqn:Ep.
  2:{ apply nonempty_false in Ep. cbn [negb orb olist sumf]. rewrite Ep. unfold len; simpl. ring. }
  destruct (nonempty post) eqn:Eq.
  2:{ apply nonempty_false in Eq. cbn [negb orb olist sumf]. rewrite Eq. unfold len; simpl. ring. }
  cbn [negb orb]. apply nonempty_true in Ek, El, Ep, Eq.
  pose proof (pre_nodup ty k (Some l)) as N1. pose proof (post_nodup ty k (Some l)) as N2.
  pose proof (pre_incl ty k (Some l)) as I1. pose proof (post_incl ty k (Some l)) as I2. fold pre in N1, I1. fold post in N2, I2.
  rewrite (smean_window y (Some k) pre), (smean_window y (Some k) post), (smean_window y (Some l) pre), (smean_window y (Some l) post) by auto.
  cbn [fisnan orb olist sumf]. unfold gb_term, gb_weight. cbn [cmp_nt cmp_nc cmp_type cmp_treated cmp_control cmp_est].
  fold pre post. rewrite <- !smean_window by auto. rewrite est_value by auto. cbn [toR].
  rewrite !nunique_members by auto. fold (len (mem (Some k))). fold (len (mem (Some l))).
  assert (Hm : 0 < INR m) by apply (mpos Z.eq_dec Z.eq_dec rows u t m Hbal).
  assert (0 < len (mem (Some k))) by (apply len_pos; auto). assert (0 < len (mem (Some l))) by (apply len_pos; auto).
  assert (0 < len pre) by (apply len_pos; auto). assert (0 < len post) by (apply len_pos; auto).
  field. repeat split; lra.
Qed.

Lemma never_term y k : k <> 0%Z ->
  let pre := pre_of rows t TreatedNever k None in let post := post_of rows t TreatedNever k None in
  INR m * sumf gb_term (olist (vs_never rows u t g y k))
  = len pre * sumf (gp y (Some k) None) post - len post * sumf (gp y (Some k) None) pre.
Proof.
  intros Hk pre post. assert (Hk' : Some k <> Some 0%Z) by congruence. assert (Hl' : None <> Some 0%Z) by congruence.
  unfold vs_never. fold pre post.
  change (fun i : I => c_is (g i) k) with (sel (Some k)). change (fun i : I => c_never (g i)) with (sel None).
  rewrite !sel_nonempty by auto.
  destruct (nonempty (mem (Some k))) eqn:Ek.
  2:{ apply nonempty_false in Ek. cbn [negb orb olist sumf].
      rewrite !(sumf_zero (gp y (Some k) None)) by (intros; apply gap_empty_l; auto). ring. }
  destruct (nonempty (mem None)) eqn:El.
  2:{ apply nonempty_false in El. cbn [negb orb olist sumf].
      rewrite !(sumf_zero (gp y (Some k) None)) by (intros; apply gap_empty_r; auto). ring. }
  cbn [negb orb].
  destruct (nonempty pre) eqn:Ep.
  2:{ apply nonempty_false in Ep. cbn [negb orb olist sumf]. rewrite Ep. unfold len; simpl. ring. }
  destruct (nonempty post) eqn:Eq.
  2:{ apply nonempty_false in Eq. cbn [negb orb olist sumf]. rewrite Eq. unfold len; simpl. ring. }
  cbn [negb orb]. apply nonempty_true in Ek, El, Ep, Eq.
  pose proof (pre_nodup TreatedNever k None) as N1. pose proof (post_nodup TreatedNever k None) as N2.
  pose proof (pre_incl TreatedNever k None) as I1. pose proof (post_incl TreatedNever k None) as I2. fold pre in N1, I1. fold post in N2, I2.
  cbn [olist sumf]. unfold gb_term, gb_weight. cbn [cmp_nt cmp_nc cmp_type cmp_treated cmp_control cmp_est].
  fold pre post. rewrite est_value by auto. cbn [toR].
  rewrite !nunique_members by auto. fold (len (mem (Some k))). fold (len (mem None)).
  assert (Hm : 0 < INR m) by apply (mpos Z.eq_dec Z.eq_dec rows u t m Hbal).
  assert (0 < len (mem (Some k))) by (apply len_pos; auto). assert (0 < len (mem None)) by (apply len_pos; auto).
  assert (0 < len pre) by (apply len_pos; auto). assert (0 < len post) by (apply len_pos; auto).
  field. repeat split; lra.
Qed.

(* splitting the periods at one or two dates *)
Lemma split2 (f : Z -> R) k (l : list Z) :
  sumf f l = sumf f (filter (fun s => Z.ltb s k) l) + sumf f (filter (fun s => Z.leb k s) l).
Proof.
  rewrite !sumf_filter, <- sumf_add. apply sumf_ext_all. intros s.
  destruct (Z.ltb_spec s k), (Z.leb_spec k s); try lia; unfold ind; ring.
Qed.
Lemma split3 (f : Z -> R) a b (l : list Z) : (a < b)%Z ->
  sumf f l = sumf f (filter (fun s => Z.ltb s a) l) + sumf f (filter (fun s => Z.leb a s && Z.ltb s b) l)
           + sumf f (filter (fun s => Z.leb b s) l).
Proof.
  intros H. rewrite !sumf_filter, <- !sumf_add. apply sumf_ext_all. intros s.
  destruct (Z.ltb_spec s a), (Z.leb_spec a s), (Z.ltb_spec s b), (Z.leb_spec b s); try lia; unfold ind; simpl; ring.
Qed.
Lemma len_sum {X} (l : list X) : len l = sumf (fun _ => 1) l.
Proof. rewrite sumf_const. ring. Qed.

Lemma pair_value y a b : rows <> [] -> (0 < a)%Z -> (a < b)%Z ->
  INR m * (sumf gb_term (olist (timing_comparison rows u t g y EarlierLater a b))
           + sumf gb_term (olist (timing_comparison rows u t g y LaterEarlier b a)))
  = len Ts * hp y (Some a) (Some b).
Proof.
  intros Hne Ha Hab. rewrite Rmult_plus_distr_l, !timing_term by lia. cbn [pre_of post_of].
  set (P := filter (fun s => Z.ltb s a) Ts). set (M := filter (fun s => Z.leb a s && Z.ltb s b) Ts).
  set (Q := filter (fun s => Z.leb b s) Ts).
  set (G := gp y (Some a) (Some b)).
  rewrite !(sumf_ext_all (gp y (Some b) (Some a)) (fun s => - G s)) by (intros; unfold G, gap; ring).
  rewrite !sumf_opp.
  assert (ET : len Ts = len P + len M + len Q).
  { rewrite (len_sum Ts), (len_sum P), (len_sum M), (len_sum Q). apply split3; auto. }
  assert (HT : len Ts <> 0).
  { apply Rgt_not_eq, len_pos. destruct rows as [|i l]; [congruence|]. intros E.
    assert (In (t i) (bperiods (i :: l) t)) by (unfold bperiods; apply zsort_In, nodup_In; simpl; auto). rewrite E in H; destruct H. }
  unfold hpair. fold G.
  rewrite (sumf_ext_all (fun s => (bdelta (Some a) s - bdelta (Some b) s) * G s) (fun s => ind (Z.leb a s && Z.ltb s b) * G s)).
  2:{ intros s. unfold bdelta. destruct (Z.leb_spec a s), (Z.ltb_spec s b), (Z.leb_spec b s); try lia; unfold ind; simpl; ring. }
  rewrite <- (sumf_filter (fun s => Z.leb a s && Z.ltb s b) G). fold M.
  rewrite (sumf_ext_all (fun s => bdelta (Some a) s - bdelta (Some b) s) (fun s => ind (Z.leb a s && Z.ltb s b) * 1)).
  2:{ intros s. unfold bdelta. destruct (Z.leb_spec a s), (Z.ltb_spec s b), (Z.leb_spec b s); try lia; unfold ind; simpl; ring. }
  rewrite <- (sumf_filter (fun s => Z.leb a s && Z.ltb s b) (fun _ => 1)). fold M. rewrite <- len_sum.
  rewrite (split3 G a b Ts Hab). fold P M Q.
  replace (len Ts * (sumf G M - / len Ts * (len M * (sumf G P + sumf G M + sumf G Q))))
    with (len Ts * sumf G M - len M * (sumf G P + sumf G M + sumf G Q)) by (field; auto).
  rewrite ET. ring.
Qed.

Lemma never_value y a : rows <> [] -> (0 < a)%Z ->
  INR m * sumf gb_term (olist (vs_never rows u t g y a)) = len Ts * hp y None (Some a).
Proof.
  intros Hne Ha. rewrite never_term by lia. cbn [pre_of post_of]. rewrite hpair_sym.
  set (P := filter (fun s => Z.ltb s a) Ts). set (Q := filter (fun s => Z.leb a s) Ts).
  set (G := gp y (Some a) None).
  assert (ET : len Ts = len P + len Q). { rewrite (len_sum Ts), (len_sum P), (len_sum Q). apply split2. }
  assert (HT : len Ts <> 0).
  { apply Rgt_not_eq, len_pos. destruct rows as [|i l]; [congruence|]. intros E.
    assert (In (t i) (bperiods (i :: l) t)) by (unfold bperiods; apply zsort_In, nodup_In; simpl; auto). rewrite E in H; destruct H. }
  unfold hpair. fold G.
  rewrite (sumf_ext_all (fun s => (bdelta (Some a) s - bdelta None s) * G s) (fun s => ind (Z.leb a s) * G s)) by (intros; unfold bdelta; ring).
  rewrite <- (sumf_filter (fun s => Z.leb a s) G). fold Q.
  rewrite (sumf_ext_all (fun s => bdelta (Some a) s - bdelta None s) (fun s => ind (Z.leb a s) * 1)) by (intros; unfold bdelta; ring).
  rewrite <- (sumf_filter (fun s => Z.leb a s) (fun _ => 1)). fold Q. rewrite <- len_sum.
  rewrite (split2 G a Ts). fold P Q.
  replace (len Ts * (sumf G Q - / len Ts * (len Q * (sumf G P + sumf G Q))))
    with (len Ts * sumf G Q - len Q * (sumf G P + sumf G Q)) by (field; auto).
  rewrite ET. ring.
Qed.

Lemma group_in a : In a (timing_groups rows g) <-> (0 < a)%Z /\ exists i, In i rows /\ g i = CFin a.
Proof.
  unfold timing_groups. rewrite zsort_In, nodup_In. unfold finite_cohorts. rewrite in_flat_map. split.
  - intros (i & Hi & H). destruct (g i) as [z| |] eqn:E; try destruct H. destruct (Z.ltb_spec 0 z); [|destruct H].
    destruct H as [<-|[]]. split; auto. exists i; auto.
  - intros (Hp & i & Hi & E). exists i. split; auto. rewrite E. destruct (Z.ltb_spec 0 a); [simpl; auto|lia].
Qed.
Lemma groups_nodup : NoDup (timing_groups rows g).
Proof. apply zsort_NoDup, NoDup_nodup. Qed.
Lemma groups_sorted : zsorted (timing_groups rows g).
Proof. apply zsort_sorted. Qed.

Lemma sum_timing_pairs (F : comparison -> R) y l :
  sumf F (timing_pairs rows u t g y l)
  = pairsum (fun a b => sumf F (olist (timing_comparison rows u t g y EarlierLater a b))
                      + sumf F (olist (timing_comparison rows u t g y LaterEarlier b a))) l.
Proof.
  induction l as [|a l IH]; simpl; auto. rewrite sumf_app, IH. f_equal. rewrite sumf_flat_map.
  apply sumf_ext_all. intros b. apply sumf_app.
Qed.

Lemma n_never_zero i : n_never rows u g = 0%nat -> In i rows -> c_never (g i) = false.
Proof.
  intros H Hi. destruct (c_never (g i)) eqn:E; auto. exfalso. unfold n_never in H.
  apply length_zero_iff_nil in H.
  assert (Hin : In (u i) (filter (fun a => c_never (unit_cohort rows u g a)) Us)).
  { apply filter_In. split; [apply Us_in, in_map; auto|].
    assert (Hu : forall c, In c (map g (filter (fun j => Z.eqb (u j) (u i)) rows)) -> c = g i).
    { intros c Hc. apply in_map_iff in Hc as (j & <- & Hj). apply filter_In in Hj as [Hj Ej]. apply Z.eqb_eq in Ej.
      rewrite (HC j Hj), (HC i Hi), Ej. reflexivity. }
    unfold unit_cohort.
    destruct (filter _ (map g (filter (fun j => Z.eqb (u j) (u i)) rows))) as [|c l] eqn:Ef.
    - exfalso. assert (Hg : In (g i) (filter (fun c => match c with CNaN => false | _ => true end) (map g (filter (fun j => Z.eqb (u j) (u i)) rows)))).
      { apply filter_In. split; [apply in_map, filter_In; split; auto; apply Z.eqb_refl|]. destruct (g i); simpl in *; auto. }
      rewrite Ef in Hg. destruct Hg.
    - rewrite (Hu c); auto. assert (In c (c :: l)) by (left; auto). rewrite <- Ef in H0. apply filter_In in H0; tauto. }
  rewrite H in Hin. destruct Hin.
Qed.

Lemma sum_never_pairs (F : comparison -> R) y :
  sumf F (never_pairs rows u t g y) = sumf (fun a => sumf F (olist (vs_never rows u t g y a))) (timing_groups rows g).
Proof.
  unfold never_pairs. destruct (Nat.ltb 0 (n_never rows u g)) eqn:E; [apply sumf_flat_map|].
  apply Nat.ltb_ge in E. symmetry. apply sumf_zero. intros a _.
  assert (Hf : filter (fun i => c_never (g i)) rows = []).
  { destruct (filter (fun i => c_never (g i)) rows) as [|i l] eqn:Ef; auto. exfalso.
    assert (Hin : In i (i :: l)) by (left; auto). rewrite <- Ef in Hin. apply filter_In in Hin as [Hi Hn].
    rewrite (n_never_zero i) in Hn by (auto; lia). discriminate. }
  unfold vs_never. rewrite Hf. cbn [nonempty negb]. rewrite orb_true_r. reflexivity.
Qed.

(* the sum of the 2x2 estimates with the Goodman-Bacon weights is the two-way covariance *)
Lemma sum_terms y : rows <> [] ->
  INR m * sumf gb_term (comparisons0 rows u t g y)
  = len Ts * len Us * quad Us Ts (fun a b => bdelta (bkey a) b) (cellsum y).
Proof.
  intros Hne. unfold comparisons0. rewrite sumf_app, sum_timing_pairs, sum_never_pairs, Rmult_plus_distr_l.
  rewrite <- sumf_scal, <- pairsum_scal.
  rewrite (sumf_ext _ (fun a => len Ts * hp y None (Some a))) by (intros a Ha; apply never_value; auto; apply group_in in Ha; tauto).
  rewrite (pairsum_ext_sorted _ (fun a b => len Ts * hp y (Some a) (Some b))).
  2: apply groups_sorted. 2: apply groups_nodup. 2:{ intros a b Ha Hb Hab. apply pair_value; auto. apply group_in in Ha; tauto. }
  rewrite sumf_scal, pairsum_scal.
  assert (E : sumf (fun a => hp y None (Some a)) (timing_groups rows g) + pairsum (fun a b => hp y (Some a) (Some b)) (timing_groups rows g)
              = pairsum (hp y) (None :: map Some (timing_groups rows g))).
  { simpl. rewrite pairsum_map, sumf_map. reflexivity. }
  rewrite <- Rmult_plus_distr_l, E.
  assert (Hi0 : exists i, In i rows) by (destruct rows as [|i l]; [congruence|exists i; left; auto]). destruct Hi0 as [i0 Hi0].
  assert (HN : len Us <> 0). { apply Rgt_not_eq, len_pos. intros E0. apply (in_map u), Us_in in Hi0. rewrite E0 in Hi0. destruct Hi0. }
  assert (HT : len Ts <> 0). { apply Rgt_not_eq, len_pos. intros E0. apply (in_map t), Ts_in in Hi0. rewrite E0 in Hi0. destruct Hi0. }
  pose proof (pairwise Us Ts (fun a b => bdelta (bkey a) b) (cellsum y) HN HT) as P1.
  rewrite (pairs_by_key Us Ts (fun a b => bdelta (bkey a) b) (cellsum y) oz_dec bkey (None :: map Some (timing_groups rows g)) bdelta) in P1.
  - rewrite sym_pairs in P1 by (intros; first [apply hpair_diag|apply hpair_sym]). rewrite Rmult_assoc. f_equal. lra.
  - constructor.
    + intros H. apply in_map_iff in H as (? & ? & _). discriminate.
    + apply FinFun.Injective_map_NoDup; [intros ? ? HH; congruence|apply groups_nodup].
  - intros a Ha. apply Us_in, in_map_iff in Ha as (i & <- & Hi). unfold bkey. rewrite <- (HC i Hi).
    destruct (c_never (g i)) eqn:En; [left; auto|]. destruct (Hvalid i Hi) as [H|(z & Hz & H)]; [congruence|]. rewrite H.
    right. apply in_map, group_in. split; auto. exists i; auto.
  - reflexivity.
Qed.

(* every comparison compares a group that changes status with one that does not *)
Lemma comparisons_inv y c : In c (comparisons0 rows u t g y) ->
  (exists k, (0 < k)%Z /\ vs_never rows u t g y k = Some c) \/
  (exists a b, (0 < a)%Z /\ (a < b)%Z /\ (timing_comparison rows u t g y EarlierLater a b = Some c \/
                           timing_comparison rows u t g y LaterEarlier b a = Some c)).
Proof.
  intros H. unfold comparisons0 in H. apply in_app_or in H as [H|H].
  - left. unfold never_pairs in H. destruct (Nat.ltb 0 (n_never rows u g)); [|destruct H].
    apply in_flat_map in H as (k & Hk & H). apply group_in in Hk as [Hk _]. exists k. split; auto.
    destruct (vs_never rows u t g y k); [destruct H as [->|[]]; auto|destruct H].
  - right. pose proof groups_sorted as Hs. pose proof groups_nodup as Hn.
    assert (Hp : forall a, In a (timing_groups rows g) -> (0 < a)%Z) by (intros a Ha; apply group_in in Ha; tauto).
    revert Hs Hn Hp H. generalize (timing_groups rows g) as l. induction l as [|a l IH]; intros Hs Hn Hp H; [destruct H|].
    cbn [timing_pairs] in H. destruct Hs as [Hs1 Hs2]. inversion Hn; subst. apply in_app_or in H as [H|H].
    + apply in_flat_map in H as (b & Hb & H). exists a, b. split; [apply Hp; left; auto|].
      specialize (Hs1 b Hb). assert (a <> b) by (intros ->; auto). split; [lia|].
      apply in_app_or in H as [H|H].
      * left. destruct (timing_comparison rows u t g y EarlierLater a b); [destruct H as [->|[]]; auto|destruct H].
      * right. destruct (timing_comparison rows u t g y LaterEarlier b a); [destruct H as [->|[]]; auto|destruct H].
    + apply IH; auto. intros; apply Hp; right; auto.
Qed.

Definition cpre (c : comparison) := pre_of rows t (cmp_type c) (cmp_treated c) (cmp_control c).
Definition cpost (c : comparison) := post_of rows t (cmp_type c) (cmp_treated c) (cmp_control c).
Definition ctreated (c : comparison) := filter (sel (Some (cmp_treated c))) rows.
Definition ccontrol (c : comparison) := filter (sel (cmp_control c)) rows.

Lemma cmp_facts y c : In c (comparisons0 rows u t g y) ->
  (0 < cmp_treated c)%Z /\
  match cmp_type c with
  | TreatedNever => cmp_control c = None
  | EarlierLater => exists b, cmp_control c = Some b /\ (cmp_treated c < b)%Z
  | LaterEarlier => exists a, cmp_control c = Some a /\ (0 < a)%Z /\ (a < cmp_treated c)%Z
  end /\
  (cpre c <> [] /\ cpost c <> [] /\ ctreated c <> [] /\ ccontrol c <> []) /\
  (cmp_nt c = nunique_units u (ctreated c) /\ cmp_nc c = nunique_units u (ccontrol c)) /\
  cmp_est c = did22 (smean y (in_periods t (cpost c) (ctreated c))) (smean y (in_periods t (cpre c) (ctreated c)))
                    (smean y (in_periods t (cpost c) (ccontrol c))) (smean y (in_periods t (cpre c) (ccontrol c))) /\
  (let nk := INR (cmp_nt c) / INR (cmp_nt c + cmp_nc c) in
   let dk := len (cpost c) / INR (length (cpre c) + length (cpost c)) in
   cmp_weight c = nk * (1 - nk) * dk * (1 - dk) * (INR (length (cpre c) + length (cpost c)) / len Ts)).
Proof.
  intros H. apply comparisons_inv in H as [(k & Hk & H)|(a & b & Ha & Hab & [H|H])].
  - unfold vs_never in H.
    change (fun i : I => c_is (g i) k) with (sel (Some k)) in H. change (fun i : I => c_never (g i)) with (sel None) in H.
    destruct (nonempty (filter (sel (Some k)) rows)) eqn:E1; [|discriminate H].
    destruct (nonempty (filter (sel None) rows)) eqn:E2; [|discriminate H].
    destruct (nonempty (pre_of rows t TreatedNever k None)) eqn:E3; [|discriminate H].
    destruct (nonempty (post_of rows t TreatedNever k None)) eqn:E4; [|discriminate H].
    cbn [negb orb] in H. apply nonempty_true in E1, E2, E3, E4. injection H as <-.
    unfold cpre, cpost, ctreated, ccontrol. cbn [cmp_treated cmp_control cmp_type cmp_nt cmp_nc cmp_est cmp_weight].
    assert (EL : INR (length (pre_of rows t TreatedNever k None) + length (post_of rows t TreatedNever k None)) = len Ts).
    { rewrite plus_INR. fold (len (pre_of rows t TreatedNever k None)). fold (len (post_of rows t TreatedNever k None)).
      rewrite (len_sum Ts), (len_sum (pre_of _ _ _ _ _)), (len_sum (post_of _ _ _ _ _)). symmetry. apply split2. }
    refine (conj Hk (conj eq_refl (conj (conj E3 (conj E4 (conj E1 E2))) (conj (conj eq_refl eq_refl) (conj eq_refl _))))).
    assert (HT : len Ts <> 0).
    { rewrite <- EL. apply Rgt_not_eq, lt_0_INR. destruct (post_of rows t TreatedNever k None); [congruence|cbn [length]; lia]. }
    cbv zeta. rewrite EL. replace (len Ts / len Ts) with 1 by (field; auto). rewrite Rmult_1_r. reflexivity.
  - unfold timing_comparison in H.
    change (fun i : I => c_is (g i) a) with (sel (Some a)) in H. change (fun i : I => c_is (g i) b) with (sel (Some b)) in H.
    destruct (nonempty (filter (sel (Some a)) rows)) eqn:E1; [|discriminate H].
    destruct (nonempty (filter (sel (Some b)) rows)) eqn:E2; [|discriminate H].
    destruct (nonempty (pre_of rows t EarlierLater a (Some b))) eqn:E3; [|discriminate H].
    destruct (nonempty (post_of rows t EarlierLater a (Some b))) eqn:E4; [|discriminate H].
    cbn [negb orb] in H. apply nonempty_true in E1, E2, E3, E4.
    destruct (_ || _) in H; [discriminate H|]. destruct (_ || _) in H; [discriminate H|].
    injection H as <-.
    unfold cpre, cpost, ctreated, ccontrol. cbn [cmp_treated cmp_control cmp_type cmp_nt cmp_nc cmp_est cmp_weight].
    refine (conj Ha (conj (ex_intro _ b (conj eq_refl Hab)) (conj (conj E3 (conj E4 (conj E1 E2))) (conj (conj eq_refl eq_refl) (conj eq_refl _))))).
    cbv zeta. replace (Nat.ltb 0 _) with true; [reflexivity|]. symmetry. apply Nat.ltb_lt.
    assert (H4 : (0 < length (post_of rows t EarlierLater a (Some b)))%nat) by (destruct (post_of rows t EarlierLater a (Some b)); [congruence|cbn [length]; lia]).
    cbn [post_of pre_of] in *. lia.
  - unfold timing_comparison in H.
    change (fun i : I => c_is (g i) a) with (sel (Some a)) in H. change (fun i : I => c_is (g i) b) with (sel (Some b)) in H.
    destruct (nonempty (filter (sel (Some b)) rows)) eqn:E1; [|discriminate H].
    destruct (nonempty (filter (sel (Some a)) rows)) eqn:E2; [|discriminate H].
    destruct (nonempty (pre_of rows t LaterEarlier b (Some a))) eqn:E3; [|discriminate H].
    destruct (nonempty (post_of rows t LaterEarlier b (Some a))) eqn:E4; [|discriminate H].
    cbn [negb orb] in H. apply nonempty_true in E1, E2, E3, E4.
    destruct (_ || _) in H; [discriminate H|]. destruct (_ || _) in H; [discriminate H|].
    injection H as <-.
    unfold cpre, cpost, ctreated, ccontrol. cbn [cmp_treated cmp_control cmp_type cmp_nt cmp_nc cmp_est cmp_weight].
    refine (conj _ (conj (ex_intro _ a (conj eq_refl (conj Ha Hab))) (conj (conj E3 (conj E4 (conj E1 E2))) (conj (conj eq_refl eq_refl) (conj eq_refl _))))); [lia|].
    cbv zeta. replace (Nat.ltb 0 _) with true; [reflexivity|]. symmetry. apply Nat.ltb_lt.
    assert (H4 : (0 < length (post_of rows t LaterEarlier b (Some a)))%nat) by (destruct (post_of rows t LaterEarlier b (Some a)); [congruence|cbn [length]; lia]).
    cbn [post_of pre_of] in *. lia.
Qed.

Lemma nunique_pos (l : list I) : l <> [] -> (0 < nunique_units u l)%nat.
Proof.
  destruct l as [|i l]; [congruence|]. intros _. unfold nunique_units.
  assert (In (u i) (nodup Z.eq_dec (map u (i :: l)))) by (apply nodup_In; simpl; auto).
  destruct (nodup Z.eq_dec (map u (i :: l))); [contradiction|simpl; lia].
Qed.

Lemma existsb_Z x l : existsb (Z.eqb x) l = true <-> In x l.
Proof.
  rewrite existsb_exists. split; [intros (z & Hz & E); apply Z.eqb_eq in E; subst; auto|intros H; exists x; split; auto; apply Z.eqb_refl].
Qed.

(* status of the rows inside the window *)
Theorem window_status y c i : In c (comparisons0 rows u t g y) -> In i rows ->
  (sel (Some (cmp_treated c)) i = true -> In (t i) (cpre c) -> btreat t g i = 0) /\
  (sel (Some (cmp_treated c)) i = true -> In (t i) (cpost c) -> btreat t g i = 1) /\
  (sel (cmp_control c) i = true -> In (t i) (cpre c) \/ In (t i) (cpost c) ->
     btreat t g i = match cmp_type c with LaterEarlier => 1 | _ => 0 end).
Proof.
  intros Hc Hi. destruct (cmp_facts y c Hc) as (Hk & Hty & _). unfold cpre, cpost, pre_of, post_of, sel, btreat.
  assert (Hs : forall z, c_is (g i) z = true -> g i = CFin z) by (intros z; destruct (g i); simpl; try discriminate; intros E; apply Z.eqb_eq in E; congruence).
  destruct (cmp_type c) eqn:Et.
  - rewrite Hty. split; [|split].
    + intros E H. apply Hs in E. rewrite E. simpl. apply filter_In in H as [_ H]. apply Z.ltb_lt in H.
      destruct (Z.leb_spec (cmp_treated c) (t i)); [lia|]. rewrite andb_false_r. reflexivity.
    + intros E H. apply Hs in E. rewrite E. simpl. apply filter_In in H as [_ H]. rewrite H.
      destruct (Z.eqb_spec (cmp_treated c) 0); [lia|reflexivity].
    + intros E _. rewrite E. reflexivity.
  - destruct Hty as (b & Hb & Hlt). rewrite Hb. split; [|split].
    + intros E H. apply Hs in E. rewrite E. simpl. apply filter_In in H as [_ H]. apply Z.ltb_lt in H.
      destruct (Z.leb_spec (cmp_treated c) (t i)); [lia|]. rewrite andb_false_r. reflexivity.
    + intros E H. apply Hs in E. rewrite E. simpl. apply filter_In in H as [_ H]. apply andb_true_iff in H as [H _]. rewrite H.
      destruct (Z.eqb_spec (cmp_treated c) 0); [lia|reflexivity].
    + intros E H. apply Hs in E. rewrite E. simpl. destruct (Z.leb_spec b (t i)); [exfalso|rewrite andb_false_r; reflexivity].
      destruct H as [H|H]; apply filter_In in H as [_ H]; [apply Z.ltb_lt in H; lia|].
      apply andb_true_iff in H as [_ H]. apply Z.ltb_lt in H. lia.
  - destruct Hty as (b & Hb & Hb0 & Hlt). rewrite Hb. split; [|split].
    + intros E H. apply Hs in E. rewrite E. simpl. apply filter_In in H as [_ H]. apply andb_true_iff in H as [_ H]. apply Z.ltb_lt in H.
      destruct (Z.leb_spec (cmp_treated c) (t i)); [lia|]. rewrite andb_false_r. reflexivity.
    + intros E H. apply Hs in E. rewrite E. simpl. apply filter_In in H as [_ H]. rewrite H.
      destruct (Z.eqb_spec (cmp_treated c) 0); [lia|reflexivity].
    + intros E H. apply Hs in E. rewrite E. simpl. destruct (Z.eqb_spec b 0); [lia|]. destruct (Z.leb_spec b (t i)); [reflexivity|exfalso].
      destruct H as [H|H]; apply filter_In in H as [_ H].
      * apply andb_true_iff in H as [H _]. apply Z.leb_le in H. lia.
      * apply Z.leb_le in H. lia.
Qed.

Lemma smean_const (y : I -> R) c l : l <> [] -> (forall i, In i l -> y i = c) -> smean y l = Fin c.
Proof.
  intros Hne H. assert (E : meanf y l = c) by (rewrite (meanf_ext y (fun _ => c)) by auto; apply meanf_const; auto).
  unfold smean. destruct l; [congruence|]. rewrite E. reflexivity.
Qed.
Lemma sel_rows_window k i ps : In i (in_periods t ps (filter (sel k) rows)) -> In i rows /\ sel k i = true /\ In (t i) ps.
Proof. intros H. apply filter_In in H as [H1 H2]. apply filter_In in H1 as [H1 H3]. apply existsb_Z in H2. auto. Qed.

Lemma window_nonempty k ps : k <> Some 0%Z -> NoDup ps -> incl ps Ts -> ps <> [] -> filter (sel k) rows <> [] ->
  in_periods t ps (filter (sel k) rows) <> [].
Proof.
  intros Hk Hn Hp Hne Hs E. pose proof (window_len k ps Hk Hn Hp) as HL. rewrite E in HL.
  assert (Hm : mem k <> []). { apply nonempty_true. rewrite <- sel_nonempty by auto. destruct (filter (sel k) rows); [congruence|reflexivity]. }
  assert (Hpos : 0 < INR m * len (mem k) * len ps).
  { repeat apply Rmult_lt_0_compat; try (apply len_pos; auto). apply (mpos Z.eq_dec Z.eq_dec rows u t m Hbal). }
  unfold len at 1 in HL; simpl in HL. lra.
Qed.

Lemma control_not_zero y c : In c (comparisons0 rows u t g y) -> cmp_control c <> Some 0%Z.
Proof.
  intros H. destruct (cmp_facts y c H) as (Hk & Hty & _). destruct (cmp_type c).
  - rewrite Hty; discriminate.
  - destruct Hty as (b & -> & Hb). intros E. assert (b = 0)%Z by congruence. lia.
  - destruct Hty as (b & -> & Hb & _). intros E. assert (b = 0)%Z by congruence. lia.
Qed.

Lemma est_of_treatment c : In c (comparisons0 rows u t g (btreat t g)) -> cmp_est c = Fin 1.
Proof.
  intros Hc. destruct (cmp_facts _ c Hc) as (Hk & Hty & (N1 & N2 & N3 & N4) & _ & -> & _).
  pose proof (control_not_zero _ c Hc) as Hc0. assert (Hk0 : Some (cmp_treated c) <> Some 0%Z) by (intros E; assert (cmp_treated c = 0)%Z by congruence; lia).
  rewrite (smean_const _ 1 (in_periods t (cpost c) (ctreated c))).
  2: apply window_nonempty; auto; [apply post_nodup|apply post_incl].
  2:{ intros i Hi. apply sel_rows_window in Hi as (Hi & Hs & Ht). apply (window_status _ c i Hc Hi); auto. }
  rewrite (smean_const _ 0 (in_periods t (cpre c) (ctreated c))).
  2: apply window_nonempty; auto; [apply pre_nodup|apply pre_incl].
  2:{ intros i Hi. apply sel_rows_window in Hi as (Hi & Hs & Ht). apply (window_status _ c i Hc Hi); auto. }
  set (d := match cmp_type c with LaterEarlier => 1 | _ => 0 end).
  rewrite (smean_const _ d (in_periods t (cpost c) (ccontrol c))).
  2: apply window_nonempty; auto; [apply post_nodup|apply post_incl].
  2:{ intros i Hi. apply sel_rows_window in Hi as (Hi & Hs & Ht). apply (window_status _ c i Hc Hi); auto. }
  rewrite (smean_const _ d (in_periods t (cpre c) (ccontrol c))).
  2: apply window_nonempty; auto; [apply pre_nodup|apply pre_incl].
  2:{ intros i Hi. apply sel_rows_window in Hi as (Hi & Hs & Ht). apply (window_status _ c i Hc Hi); auto. }
  unfold did22. simpl. f_equal. ring.
Qed.

(* the comparisons made do not depend on the outcome *)
Definition cdesc (c : comparison) := (cmp_treated c, cmp_control c, cmp_type c, cmp_weight c, (cmp_nt c, cmp_nc c, cmp_window c)).
Lemma smean_isnan (y : I -> R) l : fisnan (smean y l) = negb (nonempty l).
Proof. destruct l; reflexivity. Qed.
Lemma tc_desc y y' ty k l : map cdesc (olist (timing_comparison rows u t g y ty k l)) = map cdesc (olist (timing_comparison rows u t g y' ty k l)).
Proof.
  unfold timing_comparison. rewrite !smean_isnan.
  destruct (negb _ || negb _); [reflexivity|]. destruct (negb _ || negb _); [reflexivity|].
  destruct (negb _ || negb _); [reflexivity|]. destruct (negb _ || negb _); [reflexivity|]. reflexivity.
Qed.
Lemma vn_desc y y' k : map cdesc (olist (vs_never rows u t g y k)) = map cdesc (olist (vs_never rows u t g y' k)).
Proof.
  unfold vs_never. destruct (negb _ || negb _); [reflexivity|]. destruct (negb _ || negb _); reflexivity.
Qed.
Lemma map_flat_map {X Y V} (F : Y -> V) (f f' : X -> list Y) l : (forall a, map F (f a) = map F (f' a)) ->
  map F (flat_map f l) = map F (flat_map f' l).
Proof. intros H. induction l as [|a l IH]; simpl; auto. rewrite !map_app, H, IH. reflexivity. Qed.
Theorem comparisons_desc y y' : map cdesc (comparisons0 rows u t g y) = map cdesc (comparisons0 rows u t g y').
Proof.
  unfold comparisons0. rewrite !map_app. f_equal.
  - unfold never_pairs. destruct (Nat.ltb 0 (n_never rows u g)); [|reflexivity]. apply map_flat_map. intros; apply vn_desc.
  - induction (timing_groups rows g) as [|a l IH]; simpl; auto. rewrite !map_app, IH. f_equal. apply map_flat_map.
    intros b. rewrite !map_app. f_equal; apply tc_desc.
Qed.
Lemma gb_weight_desc c c' : cdesc c = cdesc c' -> gb_weight c = gb_weight c'.
Proof. unfold cdesc, gb_weight. intros H. injection H as -> -> -> _ -> -> _. reflexivity. Qed.
Lemma sum_gb_desc l l' : map cdesc l = map cdesc l' -> sumf gb_weight l = sumf gb_weight l'.
Proof.
  revert l'. induction l as [|a l IH]; intros [|a' l'] H; try discriminate; auto. cbn [map] in H.
  assert (H1 : cdesc a = cdesc a') by congruence. assert (H2 : map cdesc l = map cdesc l') by congruence.
  simpl. rewrite (IH l' H2), (gb_weight_desc a a' H1). reflexivity.
Qed.

Lemma sum_weights y : rows <> [] ->
  INR m * sumf gb_weight (comparisons0 rows u t g y)
  = len Ts * len Us * quad Us Ts (fun a b => bdelta (bkey a) b) (cellsum (btreat t g)).
Proof.
  intros Hne. rewrite <- sum_terms by auto. f_equal. rewrite (sum_gb_desc _ _ (comparisons_desc y (btreat t g))).
  apply sumf_ext. intros c Hc. unfold gb_term. rewrite est_of_treatment by auto. simpl. ring.
Qed.

Lemma gb_weight_pos y c : In c (comparisons0 rows u t g y) -> 0 < gb_weight c.
Proof.
  intros Hc. destruct (cmp_facts _ c Hc) as (Hk & Hty & (N1 & N2 & N3 & N4) & (E1 & E2) & _).
  unfold gb_weight. fold (cpre c). fold (cpost c). rewrite E1, E2.
  repeat apply Rmult_lt_0_compat; [apply lt_0_INR, nunique_pos; auto|apply lt_0_INR, nunique_pos; auto|apply len_pos; auto|apply len_pos; auto].
Qed.

(* Goodman-Bacon (2021), Theorem 1, for the comparisons the code makes *)
Theorem goodman_bacon y : 
  (comparisons0 rows u t g y = [] -> btwfe rows u t g y = 0) /\
  (comparisons0 rows u t g y <> [] ->
     btwfe rows u t g y = sumf (fun c => gb_weight c * toR (cmp_est c)) (comparisons0 rows u t g y)
                          / sumf gb_weight (comparisons0 rows u t g y)).
Proof.
  assert (Hm : 0 < INR m) by apply (mpos Z.eq_dec Z.eq_dec rows u t m Hbal).
  assert (Hrows : rows = [] -> comparisons0 rows u t g y = []).
  { intros E. destruct (comparisons0 rows u t g y) as [|c l] eqn:Ec; auto. exfalso.
    assert (Hc : In c (comparisons0 rows u t g y)) by (rewrite Ec; left; auto).
    destruct (cmp_facts _ c Hc) as (_ & _ & (_ & _ & N3 & _) & _). apply N3. unfold ctreated. rewrite E. reflexivity. }
  assert (Hdec : rows = [] \/ rows <> []) by (destruct rows; [left; auto|right; congruence]).
  destruct Hdec as [E|Hne].
  { split; [|intros H; exfalso; auto]. intros _. unfold btwfe. rewrite E. simpl. destruct (Rlt_dec 0 0); [lra|reflexivity]. }
  pose proof (sum_terms y Hne) as HA. pose proof (sum_weights y Hne) as HB.
  rewrite <- (within_quad y Hne) in HA. rewrite <- (within_quad (btreat t g) Hne) in HB.
  assert (Hi0 : exists i, In i rows) by (destruct rows as [|i l]; [congruence|exists i; left; auto]). destruct Hi0 as [i0 Hi0].
  assert (HN : 0 < len Us). { apply len_pos. intros E0. apply (in_map u), Us_in in Hi0. rewrite E0 in Hi0. destruct Hi0. }
  assert (HT : 0 < len Ts). { apply len_pos. intros E0. apply (in_map t), Ts_in in Hi0. rewrite E0 in Hi0. destruct Hi0. }
  set (dv := sumf (fun i => W (btreat t g) i * W (btreat t g) i) rows) in *.
  set (cv := sumf (fun i => W (btreat t g) i * W y i) rows) in *.
  set (K := len Ts * len Us) in *. assert (HK : 0 < K) by (apply Rmult_lt_0_compat; auto).
  split.
  - intros E. rewrite E in HB. simpl in HB. unfold btwfe. fold dv. destruct (Rlt_dec 0 dv) as [H|H]; [|reflexivity].
    assert (0 < K * dv) by (apply Rmult_lt_0_compat; auto). lra.
  - intros Hc. change (fun c => gb_weight c * toR (cmp_est c)) with gb_term.
    assert (Hs : 0 < sumf gb_weight (comparisons0 rows u t g y)).
    { destruct (comparisons0 rows u t g y) as [|c l] eqn:Ec; [congruence|]. simpl.
      assert (0 < gb_weight c) by (apply (gb_weight_pos y); rewrite Ec; left; auto).
      assert (0 <= sumf gb_weight l) by (apply sumf_nonneg; intros x Hx; apply Rlt_le, (gb_weight_pos y); rewrite Ec; right; auto). lra. }
    assert (Hdv : 0 < dv).
    { apply (Rmult_lt_reg_l K); auto. rewrite Rmult_0_r, <- HB. apply Rmult_lt_0_compat; auto. }
    unfold btwfe. fold dv cv. destruct (Rlt_dec 0 dv) as [_|H]; [|contradiction].
    assert (EA : sumf gb_term (comparisons0 rows u t g y) = K * cv / INR m) by (rewrite <- HA; field; lra).
    assert (EB : sumf gb_weight (comparisons0 rows u t g y) = K * dv / INR m) by (rewrite <- HB; field; lra).
    rewrite EA, EB. field. repeat split; lra.
Qed.
End Panel.

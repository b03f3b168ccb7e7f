(* BaconDecomposition does not depend on the order of the rows or on the unit labels. *)
From Verif Require Import Prelude Flt Linalg_model Linalg_proofs Linalg_vcov Did_model Within_proofs Multi_model Multi_proofs Bacon_model Bacon_proofs Bacon_thms.
From Coq Require Import Arith ZArith String List Permutation.
Import ListNotations.
Open Scope R_scope.

Lemma zsorted_unique a b : zsorted a -> zsorted b -> NoDup a -> NoDup b -> (forall x, In x a <-> In x b) -> a = b.
Proof.
  revert b. induction a as [|x a IH]; intros [|y b] Sa Sb Na Nb H; auto.
  - exfalso. apply (H y). left; auto.
  - exfalso. apply (H x). left; auto.
  - destruct Sa as [Sa1 Sa2], Sb as [Sb1 Sb2]. inversion Na; subst. inversion Nb; subst.
    assert (E : x = y).
    { destruct (proj1 (H x) (or_introl eq_refl)) as [E|E]; auto. destruct (proj2 (H y) (or_introl eq_refl)) as [E'|E']; auto.
      specialize (Sa1 y E'). specialize (Sb1 x E). lia. }
    subst y. f_equal. apply IH; auto. intros z. split; intros Hz.
    + destruct (proj1 (H z) (or_intror Hz)); [subst; contradiction|auto].
    + destruct (proj2 (H z) (or_intror Hz)); [subst; contradiction|auto].
Qed.
Lemma zsort_same l l' : (forall x, In x l <-> In x l') -> zsort (nodup Z.eq_dec l) = zsort (nodup Z.eq_dec l').
Proof.
  intros H. apply zsorted_unique; try apply zsort_sorted; try (apply zsort_NoDup, NoDup_nodup).
  intros x. rewrite !zsort_In, !nodup_In. auto.
Qed.
Lemma nodup_perm {A} (dec : forall x y : A, {x = y} + {x <> y}) l l' : Permutation l l' -> Permutation (nodup dec l) (nodup dec l').
Proof.
  intros P. apply NoDup_Permutation; try apply NoDup_nodup. intros x. rewrite !nodup_In.
  split; apply Permutation_in; [|symmetry]; auto.
Qed.
Lemma nodup_inj (f : Z -> Z) l : (forall a b, f a = f b -> a = b) -> nodup Z.eq_dec (map f l) = map f (nodup Z.eq_dec l).
Proof.
  intros Hf. induction l as [|a l IH]; auto. cbn [map nodup].
  destruct (in_dec Z.eq_dec a l) as [Ha|Ha], (in_dec Z.eq_dec (f a) (map f l)) as [Hb|Hb]; auto.
  - exfalso. apply Hb, in_map; auto.
  - exfalso. apply in_map_iff in Hb as (b & E & Hb). apply Hf in E. subst. auto.
  - cbn [map]. rewrite IH. reflexivity.
Qed.
Lemma nonempty_perm {A} (l l' : list A) : Permutation l l' -> nonempty l = nonempty l'.
Proof. intros P. apply Permutation_length in P. destruct l, l'; simpl in *; auto; discriminate. Qed.

(* ---------- unit labels ---------- *)
Section Relabel.
Context {I : Type}.
Variables (rows : list I) (u t : I -> Z) (g : I -> coh) (y : I -> R) (f : Z -> Z).
Hypothesis Hf : forall a b, f a = f b -> a = b.
Notation v := (fun i => f (u i)).

Lemma feqb a b : Z.eqb (f a) (f b) = Z.eqb a b.
Proof. destruct (Z.eqb_spec a b) as [->|N]; [apply Z.eqb_refl|]. apply Z.eqb_neq. auto. Qed.
Lemma rl_units l : nodup Z.eq_dec (map v l) = map f (nodup Z.eq_dec (map u l)).
Proof. rewrite <- nodup_inj by auto. rewrite map_map. reflexivity. Qed.
Lemma rl_cohort a : unit_cohort rows v g (f a) = unit_cohort rows u g a.
Proof. unfold unit_cohort. rewrite (filter_ext _ (fun i => Z.eqb (u i) a)) by (intros; apply feqb). reflexivity. Qed.
Lemma rl_never : n_never rows v g = n_never rows u g.
Proof.
  unfold n_never. rewrite rl_units. induction (nodup Z.eq_dec (map u rows)) as [|a l IH]; auto.
  cbn [map filter]. rewrite rl_cohort. destruct (c_never _); cbn [length]; auto.
Qed.
Lemma rl_nunique l : nunique_units v l = nunique_units u l.
Proof. unfold nunique_units. rewrite rl_units. apply map_length. Qed.
Lemma rl_within x i : within Z.eq_dec Z.eq_dec rows v t x i = within Z.eq_dec Z.eq_dec rows u t x i.
Proof.
  unfold within, group_mean. rewrite (filter_ext (fun j => keqb Z.eq_dec (f (u j)) (f (u i))) (fun j => keqb Z.eq_dec (u j) (u i))); auto.
  intros j. unfold keqb. destruct (Z.eq_dec (u j) (u i)) as [E|N], (Z.eq_dec (f (u j)) (f (u i))) as [E'|N']; auto; exfalso; [congruence|apply Hf in E'; congruence].
Qed.
Lemma rl_btwfe : btwfe rows v t g y = btwfe rows u t g y.
Proof.
  unfold btwfe. rewrite !(sumf_ext_all (fun i => within Z.eq_dec Z.eq_dec rows v t (btreat t g) i * within Z.eq_dec Z.eq_dec rows v t (btreat t g) i)
    (fun i => within Z.eq_dec Z.eq_dec rows u t (btreat t g) i * within Z.eq_dec Z.eq_dec rows u t (btreat t g) i)) by (intros; rewrite rl_within; reflexivity).
  destruct (Rlt_dec 0 _); auto. f_equal. apply sumf_ext_all. intros i. rewrite !rl_within. reflexivity.
Qed.
Lemma rl_vs k : vs_never rows v t g y k = vs_never rows u t g y k.
Proof. unfold vs_never. rewrite !rl_nunique. reflexivity. Qed.
Lemma rl_tc ty k l : timing_comparison rows v t g y ty k l = timing_comparison rows u t g y ty k l.
Proof. unfold timing_comparison. rewrite !rl_nunique. reflexivity. Qed.
Lemma rl_comparisons : comparisons0 rows v t g y = comparisons0 rows u t g y.
Proof.
  unfold comparisons0. f_equal.
  - unfold never_pairs. rewrite rl_never. destruct (Nat.ltb 0 _); auto. apply flat_map_ext. intros k. rewrite rl_vs. reflexivity.
  - induction (timing_groups rows g) as [|a l IH]; auto. cbn [timing_pairs]. rewrite IH. f_equal. apply flat_map_ext.
    intros b. rewrite !rl_tc. reflexivity.
Qed.
Lemma rl_existsb x l : existsb (Z.eqb (f x)) (map f l) = existsb (Z.eqb x) l.
Proof. induction l as [|a l IH]; auto. cbn. rewrite feqb, IH. reflexivity. Qed.
Lemma rl_exact c : exact_weight rows v t g c = exact_weight rows u t g c.
Proof.
  unfold exact_weight. rewrite !rl_units, !map_length, <- !map_app.
  erewrite (filter_ext (fun i => existsb (Z.eqb (f (u i))) (map f _) && _)); [reflexivity|].
  intros i. cbn beta. rewrite rl_existsb. reflexivity.
Qed.
Theorem bacon_unit_labels exact : bacon_fit rows v t g y exact = bacon_fit rows u t g y exact.
Proof.
  assert (E : reweighted rows v t g y exact = reweighted rows u t g y exact).
  { unfold reweighted. rewrite rl_comparisons. destruct exact; auto. apply map_ext. intros c. rewrite rl_exact. reflexivity. }
  unfold bacon_fit. rewrite E, rl_btwfe, rl_never. f_equal. f_equal. f_equal. f_equal. rewrite rl_units, map_map. apply map_ext.
  intros a. f_equal. apply filter_ext. intros i. apply feqb.
Qed.
End Relabel.

(* ---------- row order ---------- *)
Section Order.
Context {I : Type}.
Variables (rows rows' : list I) (u t : I -> Z) (g : I -> coh) (y : I -> R) (C : Z -> coh).
Hypothesis P : Permutation rows rows'.
Hypothesis HC : forall i, In i rows -> g i = C (u i).

Lemma ro_in i : In i rows' <-> In i rows.
Proof. split; apply Permutation_in; [symmetry|]; auto. Qed.
Lemma ro_map_in {A} (h : I -> A) x : In x (map h rows') <-> In x (map h rows).
Proof. rewrite !in_map_iff. split; intros (i & E & Hi); exists i; split; auto; apply ro_in; auto. Qed.
Lemma ro_periods : bperiods rows' t = bperiods rows t.
Proof. apply zsort_same. intros; apply ro_map_in. Qed.
Lemma ro_groups : timing_groups rows' g = timing_groups rows g.
Proof. apply zsort_same. intros x. unfold finite_cohorts. rewrite !in_flat_map. split; intros (i & Hi & H); exists i; split; auto; apply ro_in; auto. Qed.
Lemma ro_units : Permutation (nodup Z.eq_dec (map u rows')) (nodup Z.eq_dec (map u rows)).
Proof. apply nodup_perm, Permutation_map. symmetry; auto. Qed.
Lemma cohort_of_unit l a : (forall i, In i l -> g i = C (u i)) -> In a (map u l) -> unit_cohort l u g a = C a.
Proof.
  intros H Ha. unfold unit_cohort.
  assert (E : map g (filter (fun i => Z.eqb (u i) a) l) = repeat (C a) (length (filter (fun i => Z.eqb (u i) a) l))).
  { assert (Hx : forall i, In i (filter (fun i => Z.eqb (u i) a) l) -> g i = C a).
    { intros i Hi. apply filter_In in Hi as [Hi E]. apply Z.eqb_eq in E. rewrite H by auto. congruence. }
    induction (filter (fun i => Z.eqb (u i) a) l) as [|i r IH]; auto. cbn. rewrite Hx by (left; auto). f_equal. apply IH. intros; apply Hx; right; auto. }
  rewrite E.
  assert (N : length (filter (fun i => Z.eqb (u i) a) l) <> 0%nat).
  { apply in_map_iff in Ha as (i & <- & Hi). assert (Hin : In i (filter (fun j => Z.eqb (u j) (u i)) l)) by (apply filter_In; split; auto; apply Z.eqb_refl).
    destruct (filter (fun j => Z.eqb (u j) (u i)) l); [destruct Hin|discriminate]. }
  destruct (length (filter (fun i => Z.eqb (u i) a) l)) as [|n]; [congruence|]. cbn [repeat filter].
  destruct (C a) eqn:Ec; auto. clear. induction n; simpl; auto.
Qed.
Lemma never_count l : (forall i, In i l -> g i = C (u i)) -> n_never l u g = length (filter (fun a => c_never (C a)) (nodup Z.eq_dec (map u l))).
Proof.
  intros H. unfold n_never. f_equal. apply filter_ext_in. intros a Ha. apply nodup_In in Ha. rewrite (cohort_of_unit l a H Ha). reflexivity.
Qed.
Lemma ro_never : n_never rows' u g = n_never rows u g.
Proof.
  rewrite !never_count; auto; [|intros i Hi; apply HC, ro_in; auto]. apply Permutation_length, filter_perm, ro_units.
Qed.
Lemma ro_smean (x : I -> R) l l' : Permutation l l' -> smean x l' = smean x l.
Proof.
  intros Q. pose proof (Permutation_length Q) as L. destruct l as [|a l], l' as [|b l']; try discriminate; auto. 
  unfold smean. rewrite (meanf_perm x _ _ Q). reflexivity.
Qed.
Lemma ro_nunique l l' : Permutation l l' -> nunique_units u l' = nunique_units u l.
Proof. intros Q. unfold nunique_units. apply Permutation_length, nodup_perm, Permutation_map. symmetry; auto. Qed.
Lemma ro_within x i : within Z.eq_dec Z.eq_dec rows' u t x i = within Z.eq_dec Z.eq_dec rows u t x i.
Proof.
  unfold within, group_mean. rewrite (meanf_perm x _ _ P).
  rewrite (meanf_perm x _ _ (filter_perm (fun j => keqb Z.eq_dec (u j) (u i)) _ _ P)).
  rewrite (meanf_perm x _ _ (filter_perm (fun j => keqb Z.eq_dec (t j) (t i)) _ _ P)). reflexivity.
Qed.
Lemma ro_btwfe : btwfe rows' u t g y = btwfe rows u t g y.
Proof.
  unfold btwfe.
  assert (E : forall x z, sumf (fun i => within Z.eq_dec Z.eq_dec rows' u t x i * within Z.eq_dec Z.eq_dec rows' u t z i) rows'
     = sumf (fun i => within Z.eq_dec Z.eq_dec rows u t x i * within Z.eq_dec Z.eq_dec rows u t z i) rows).
  { intros x z. rewrite (sumf_perm _ _ _ P). apply sumf_ext_all. intros i. rewrite !ro_within. reflexivity. }
  rewrite !E. reflexivity.
Qed.
Lemma ro_pre ty k l : pre_of rows' t ty k l = pre_of rows t ty k l.
Proof. unfold pre_of. rewrite ro_periods. reflexivity. Qed.
Lemma ro_post ty k l : post_of rows' t ty k l = post_of rows t ty k l.
Proof. unfold post_of. rewrite ro_periods. reflexivity. Qed.
Lemma ro_filter p : Permutation (filter p rows) (filter p rows').
Proof. apply filter_perm, P. Qed.
Lemma ro_window ps p : Permutation (in_periods t ps (filter p rows)) (in_periods t ps (filter p rows')).
Proof. unfold in_periods. apply filter_perm, ro_filter. Qed.
Lemma ro_vs k : vs_never rows' u t g y k = vs_never rows u t g y k.
Proof.
  unfold vs_never. rewrite ro_pre, ro_post, ro_periods.
  rewrite <- !(nonempty_perm _ _ (ro_filter _)), !(ro_nunique _ _ (ro_filter _)), !(ro_smean y _ _ (ro_window _ _)). reflexivity.
Qed.
Lemma ro_tc ty k l : timing_comparison rows' u t g y ty k l = timing_comparison rows u t g y ty k l.
Proof.
  unfold timing_comparison. rewrite ro_pre, ro_post, ro_periods.
  rewrite <- !(nonempty_perm _ _ (ro_filter _)), !(ro_nunique _ _ (ro_filter _)), !(ro_smean y _ _ (ro_window _ _)). reflexivity.
Qed.
Lemma ro_comparisons : comparisons0 rows' u t g y = comparisons0 rows u t g y.
Proof.
  unfold comparisons0. rewrite ro_groups. f_equal.
  - unfold never_pairs. rewrite ro_never, ro_groups. destruct (Nat.ltb 0 _); auto. apply flat_map_ext. intros k. rewrite ro_vs. reflexivity.
  - induction (timing_groups rows g) as [|a l IH]; auto. cbn [timing_pairs]. rewrite IH. f_equal. apply flat_map_ext.
    intros b. rewrite !ro_tc. reflexivity.
Qed.
Lemma existsb_perm {A} (p : A -> bool) l l' : Permutation l l' -> existsb p l = existsb p l'.
Proof.
  intros Q. destruct (existsb p l') eqn:E.
  - apply existsb_exists in E as (x & Hx & E). apply existsb_exists. exists x. split; auto. apply (Permutation_in x (Permutation_sym Q)); auto.
  - destruct (existsb p l) eqn:E'; auto. apply existsb_exists in E' as (x & Hx & E'). 
    assert (existsb p l' = true) by (apply existsb_exists; exists x; split; auto; apply (Permutation_in x Q); auto). congruence.
Qed.
Lemma ro_exact c : exact_weight rows' u t g c = exact_weight rows u t g c.
Proof.
  unfold exact_weight. rewrite ro_pre, ro_post. cbv zeta.
  set (p1 := fun i => c_is (g i) (cmp_treated c)). set (p2 := fun i => match cmp_control c with None => c_never (g i) | Some l => c_is (g i) l end).
  assert (U : forall p, Permutation (nodup Z.eq_dec (map u (filter p rows'))) (nodup Z.eq_dec (map u (filter p rows)))).
  { intros p. apply nodup_perm, Permutation_map. symmetry. apply ro_filter. }
  pose proof (Permutation_length (U p1)) as L1. pose proof (Permutation_length (U p2)) as L2.
  rewrite L1, L2, (Permutation_length ro_units).
  set (d' := filter (fun i => existsb (Z.eqb (u i)) (nodup Z.eq_dec (map u (filter p1 rows')) ++ nodup Z.eq_dec (map u (filter p2 rows'))) && existsb (Z.eqb (t i)) (pre_of rows t (cmp_type c) (cmp_treated c) (cmp_control c) ++ post_of rows t (cmp_type c) (cmp_treated c) (cmp_control c))) rows').
  set (d := filter (fun i => existsb (Z.eqb (u i)) (nodup Z.eq_dec (map u (filter p1 rows)) ++ nodup Z.eq_dec (map u (filter p2 rows))) && existsb (Z.eqb (t i)) (pre_of rows t (cmp_type c) (cmp_treated c) (cmp_control c) ++ post_of rows t (cmp_type c) (cmp_treated c) (cmp_control c))) rows).
  assert (D : Permutation d' d).
  { unfold d', d. erewrite filter_ext; [apply filter_perm; symmetry; exact P|]. intros i. cbn beta. f_equal. apply existsb_perm, Permutation_app; apply U. }
  rewrite (nonempty_perm _ _ D), (len_perm _ _ D), (len_perm _ _ P). reflexivity.
Qed.
Theorem bacon_row_order exact : bacon_fit rows' u t g y exact = bacon_fit rows u t g y exact.
Proof.
  assert (E : reweighted rows' u t g y exact = reweighted rows u t g y exact).
  { unfold reweighted. rewrite ro_comparisons. destruct exact; auto. apply map_ext. intros c. rewrite ro_exact. reflexivity. }
  unfold bacon_fit. rewrite E, ro_btwfe, ro_never, ro_groups, <- (Permutation_length P). f_equal. f_equal. apply Permutation_length, nodup_perm.
  erewrite map_ext; [apply Permutation_map, ro_units|]. intros a. cbn beta. apply Permutation_length. symmetry. apply ro_filter.
Qed.
End Order.

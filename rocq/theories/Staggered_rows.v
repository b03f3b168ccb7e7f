(* CallawaySantAnna does not depend on the order of the rows. *)
From Verif Require Import Prelude Flt Stats_model Stats_proofs Linalg_model Linalg_proofs Did_model Multi_model Multi_proofs Bacon_model Staggered_model Trop_rows.
From Coq Require Import Arith ZArith String List Permutation FunctionalExtensionality.
Import ListNotations.
Open Scope R_scope.

Section Rows.
Context {I : Type}.
Variables (rows rows' : list I) (u t : I -> Z) (g : I -> coh) (y : I -> option R) (covs : list (I -> option R)).
Hypothesis P : Permutation rows rows'.
(* first_treat is an attribute of the unit *)
Hypothesis Hg : forall i j, In i rows -> In j rows -> u i = u j -> g i = g j.

Lemma p_units : cs_units rows' u = cs_units rows u.
Proof. symmetry. apply zsort_nodup_perm, Permutation_map, P. Qed.
Lemma p_periods : cs_periods rows' t = cs_periods rows t.
Proof. symmetry. apply zsort_nodup_perm, Permutation_map, P. Qed.
Lemma const_head {A} (f : A -> bool) (l m : list A) d : Permutation l m -> (forall a b, In a l -> In b l -> a = b) ->
  match filter f l with [] => d | c :: _ => c end = match filter f m with [] => d | c :: _ => c end.
Proof.
  intros Q Hc. pose proof (perm_filter f l m Q) as QF. destruct (filter f l) as [|a l'] eqn:El.
  - apply Permutation_nil in QF. rewrite QF. reflexivity.
  - destruct (filter f m) as [|b m'] eqn:Em; [apply Permutation_sym, Permutation_nil in QF; discriminate|].
    assert (Ha : In a (filter f l)) by (rewrite El; left; reflexivity). assert (Hb : In b (filter f m)) by (rewrite Em; left; reflexivity).
    apply filter_In in Ha as [Ha _]. apply filter_In in Hb as [Hb _]. apply Hc; [exact Ha|]. apply (Permutation_in _ (Permutation_sym Q)). exact Hb.
Qed.
Lemma p_cohort : cs_cohort rows' u g = cs_cohort rows u g.
Proof.
  apply functional_extensionality. intros a. unfold cs_cohort, unit_cohort. symmetry. apply const_head.
  - apply Permutation_map, perm_filter, P.
  - intros c d H1 H2. apply in_map_iff in H1 as (i & <- & H1). apply in_map_iff in H2 as (j & <- & H2).
    apply filter_In in H1 as [H1 E1]. apply filter_In in H2 as [H2 E2]. apply Z.eqb_eq in E1, E2. apply Hg; congruence.
Qed.
Lemma p_first : first_never rows' u g = first_never rows u g.
Proof.
  apply functional_extensionality. intros a. unfold first_never. symmetry.
  pose proof (perm_filter (fun i => Z.eqb (u i) a) rows rows' P) as QF. destruct (filter (fun i => Z.eqb (u i) a) rows) as [|i l] eqn:El.
  - apply Permutation_nil in QF. rewrite QF. reflexivity.
  - destruct (filter (fun i => Z.eqb (u i) a) rows') as [|j m] eqn:Em; [apply Permutation_sym, Permutation_nil in QF; discriminate|].
    assert (Hi : In i (filter (fun i => Z.eqb (u i) a) rows)) by (rewrite El; left; reflexivity).
    assert (Hj : In j (filter (fun i => Z.eqb (u i) a) rows')) by (rewrite Em; left; reflexivity).
    apply filter_In in Hi as [Hi Ei]. apply filter_In in Hj as [Hj Ej]. apply Z.eqb_eq in Ei, Ej.
    rewrite (Hg i j Hi (Permutation_in _ (Permutation_sym P) Hj)) by congruence. reflexivity.
Qed.
Lemma p_flat {A B} (f : A -> list B) l m : Permutation l m -> Permutation (flat_map f l) (flat_map f m).
Proof. apply Permutation_flat_map. Qed.
Lemma p_groups : cs_groups rows' g = cs_groups rows g.
Proof.
  unfold cs_groups. rewrite (perm_existsb (fun i => c_eqb (g i) CInf) rows rows' P). do 2 f_equal. symmetry.
  unfold timing_groups, finite_cohorts. apply zsort_nodup_perm. apply Permutation_flat_map, P.
Qed.
Lemma p_dup : cs_duplicates rows' u t = cs_duplicates rows u t.
Proof.
  unfold cs_duplicates. rewrite (perm_existsb _ rows rows' P). 
  assert (E : forall i, length (cell_rows rows' u t (u i) (t i)) = length (cell_rows rows u t (u i) (t i))).
  { intros i. symmetry. apply Permutation_length, perm_filter, P. }
  induction rows' as [|i l IH]; [reflexivity|]. clear IH.
  assert (G : forall m, existsb (fun i0 => Nat.ltb 1 (length (cell_rows (i :: l) u t (u i0) (t i0)))) m = existsb (fun i0 => Nat.ltb 1 (length (cell_rows rows u t (u i0) (t i0)))) m).
  { induction m as [|j m IH]; cbn [existsb]; [reflexivity|]. rewrite IH, E. reflexivity. }
  apply G.
Qed.
Lemma p_size gr : group_size rows' u g gr = group_size rows u g gr.
Proof.
  unfold group_size. assert (Q : Permutation (nodup Z.eq_dec (map u (filter (fun i => c_eqb (g i) gr) rows'))) (nodup Z.eq_dec (map u (filter (fun i => c_eqb (g i) gr) rows)))).
  { apply NoDup_Permutation; try apply NoDup_nodup. intros x. rewrite !nodup_In.
    assert (Q : Permutation (map u (filter (fun i => c_eqb (g i) gr) rows)) (map u (filter (fun i => c_eqb (g i) gr) rows'))) by (apply Permutation_map, perm_filter, P).
    split; [apply (Permutation_in _ (Permutation_sym Q))|apply (Permutation_in _ Q)]. }
  apply Permutation_length. exact Q.
Qed.

Section NoDup.
Hypothesis Hd : cs_duplicates rows u t = false.
Lemma p_cell a p : cell_rows rows' u t a p = cell_rows rows u t a p.
Proof.
  symmetry. apply perm_short; [apply perm_filter, P|]. destruct (cell_rows rows u t a p) as [|i l] eqn:E; [simpl; lia|]. rewrite <- E.
  assert (Hi : In i (cell_rows rows u t a p)) by (rewrite E; left; reflexivity). apply filter_In in Hi as [Hi K].
  apply andb_true_iff in K as [K1 K2]. apply Z.eqb_eq in K1, K2. unfold cs_duplicates in Hd.
  destruct (Nat.ltb_spec 1 (length (cell_rows rows u t a p))) as [L|L]; [|exact L]. exfalso.
  assert (X : existsb (fun i => Nat.ltb 1 (length (cell_rows rows u t (u i) (t i)))) rows = true).
  { apply existsb_exists. exists i. split; [exact Hi|]. rewrite K1, K2. apply Nat.ltb_lt. exact L. }
  rewrite X in Hd. discriminate.
Qed.
Lemma p_outcome : cs_outcome rows' u t y = cs_outcome rows u t y.
Proof. apply functional_extensionality. intros a. apply functional_extensionality. intros p. unfold cs_outcome. rewrite p_cell. reflexivity. Qed.
Lemma p_cov : cs_cov rows' u t = cs_cov rows u t.
Proof. apply functional_extensionality. intros c. apply functional_extensionality. intros a. apply functional_extensionality. intros p. unfold cs_cov. rewrite p_cell. reflexivity. Qed.

Variable qr : list Z -> list (Z -> R) -> list nat.
Variable lstsq : list Z -> list (Z -> R) -> (Z -> R) -> list R.
Variable inv : list Z -> list (Z -> R) -> option (nat -> nat -> R).
Variable logit : list Z -> list Z -> list (Z -> R) -> option (Z -> R).
Lemma p_effects cfg : all_effects qr lstsq inv logit rows' u t g y covs cfg = all_effects qr lstsq inv logit rows u t g y covs cfg.
Proof.
  unfold all_effects, valid_periods. rewrite p_groups, p_periods. f_equal. apply functional_extensionality. intros [gr s]. cbn [fst snd].
  unfold att_gt, treated_units, control_units, change, has_pair, is_control, cov_columns.
  rewrite p_periods, p_outcome, p_cohort, p_units, p_cov. reflexivity.
Qed.
End NoDup.
End Rows.

Theorem cs_fit_row_order {I} qr lstsq inv logit sf ppf (rows rows' : list I) u t g y covs cfg agg bal ws :
  Permutation rows rows' -> (forall i j, In i rows -> In j rows -> u i = u j -> g i = g j) ->
  cs_fit qr lstsq inv logit sf ppf rows' u t g y covs cfg agg bal ws = cs_fit qr lstsq inv logit sf ppf rows u t g y covs cfg agg bal ws.
Proof.
  intros P Hg. unfold cs_fit, n_nev, n_gt0. rewrite (p_cohort rows rows' u g P Hg), (p_first rows rows' u g P Hg), (p_units rows rows' u P), (p_dup rows rows' u t P), (p_groups rows rows' g P), (p_periods rows rows' t P).
  rewrite <- (Permutation_length P).
  replace (group_size rows' u g) with (group_size rows u g) by (apply functional_extensionality; intros gr; symmetry; apply (p_size rows rows' u g P)).
  destruct (Nat.eqb _ 0); [reflexivity|]. destruct (cs_duplicates rows u t) eqn:Hd; [reflexivity|].
  rewrite (p_effects rows rows' u t g y covs P Hg Hd). reflexivity.
Qed.

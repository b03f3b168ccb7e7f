(* A balanced panel with one treatment date (C132): what each estimator reports. *)
From Coq Require Import Reals Lra Lia.
From Verif Require Import Prelude Flt Stats_model Linalg_model Linalg_proofs Did_model Did_spec Did_proofs Within_proofs Multi_model Multi_proofs Multi_thms.
From Coq Require Import Arith ZArith String List Permutation.
Import ListNotations.
Open Scope R_scope.

Section Pool.
Context {I : Type}.
Variables (rows : list I) (t : I -> Z) (y : I -> R).
(* sums over a set of periods *)
Lemma pooled_sum (P : I -> bool) (f : I -> R) ps : NoDup ps ->
  sumf (fun p => sumf f (filter (fun i => P i && Z.eqb (t i) p) rows)) ps = sumf f (filter (fun i => P i && zmem (t i) ps) rows).
Proof.
  induction ps as [|p ps IH]; intros N.
  - cbn [sumf]. rewrite sumf_filter. symmetry. apply sumf_zero. intros i _. cbn. rewrite andb_false_r. unfold ind. ring.
  - inversion N as [|p' l Np Nl]; subst. cbn [sumf]. rewrite (IH Nl), !sumf_filter, <- sumf_add. apply sumf_ext. intros i _. unfold zmem. cbn [existsb].
    fold (zmem (t i) ps). destruct (P i); cbn [andb]; [|unfold ind; ring]. destruct (Z.eqb_spec (t i) p) as [E|E]; cbn [orb].
    + replace (zmem (t i) ps) with false; [unfold ind; ring|]. symmetry. apply zmem_false. rewrite E. exact Np.
    + unfold ind. ring.
Qed.
Lemma pooled_mean (P : I -> bool) ps c : NoDup ps -> ps <> [] -> c <> 0 ->
  (forall p, In p ps -> len (filter (fun i => P i && Z.eqb (t i) p) rows) = c) ->
  meanf (fun p => meanf y (filter (fun i => P i && Z.eqb (t i) p) rows)) ps = meanf y (filter (fun i => P i && zmem (t i) ps) rows).
Proof.
  intros N N0 Hc Hl. unfold meanf at 1 3. rewrite <- (pooled_sum P y ps N).
  assert (L : len (filter (fun i => P i && zmem (t i) ps) rows) = len ps * c).
  { pose proof (pooled_sum P (fun _ => 1) ps N) as S. rewrite sumf_const, Rmult_1_r in S. rewrite <- S.
    rewrite (sumf_ext _ (fun _ => c)); [rewrite sumf_const; ring|]. intros p Hp. rewrite sumf_const, Rmult_1_r. auto. }
  rewrite L. rewrite (sumf_ext _ (fun p => / c * sumf y (filter (fun i => P i && Z.eqb (t i) p) rows))).
  - rewrite sumf_scal. assert (0 < len ps) by (apply len_pos; exact N0). field. lra.
  - intros p Hp. unfold meanf. rewrite (Hl p Hp). field. exact Hc.
Qed.
End Pool.

Section Panel.
Context {I : Type}.
Variables (rows : list I) (u t : I -> Z) (dU : Z -> R) (m : nat) (post : list Z).
Hypothesis Hbal : Within_proofs.balanced Z.eq_dec Z.eq_dec rows u t m.
Hypothesis Hd : forall i, In i rows -> dU (u i) = 0 \/ dU (u i) = 1.
Notation d := (fun i => dU (u i)).
Notation pst := (fun i => ind (zmem (t i) post)).

Definition n_of (a : R) : R := INR m * sumf (fun x => ind (Reqb (dU x) a)) (nodup Z.eq_dec (map u rows)).
Lemma mcell_len a p : In p (map t rows) -> len (mcell rows d t a p) = n_of a.
Proof.
  intros Hp. unfold mcell, n_of. pose proof (time_sum Z.eq_dec Z.eq_dec rows u t m Hbal (fun x => ind (Reqb (dU x) a)) p Hp) as S.
  unfold units in S. rewrite <- S. rewrite len_filter, sumf_filter. apply sumf_ext_all. intros i. unfold keqb.
  destruct (Z.eq_dec (t i) p) as [E|E]; [rewrite E, Z.eqb_refl, andb_true_r|apply Z.eqb_neq in E; rewrite E, andb_false_r]; unfold ind; ring.
Qed.
Lemma n_of_pos a i : In i rows -> dU (u i) = a -> 0 < n_of a.
Proof.
  intros Hi Ha. rewrite <- (mcell_len a (t i)) by (apply in_map; exact Hi). apply len_pos. intros E.
  assert (X : In i (mcell rows d t a (t i))); [|rewrite E in X; destruct X]. apply filter_In. split; [exact Hi|]. rewrite Z.eqb_refl, andb_true_r. apply Reqb_true. exact Ha.
Qed.
Lemma mcell_full a i p : In i rows -> dU (u i) = a -> In p (map t rows) -> mcell rows d t a p <> [].
Proof. intros Hi Ha Hp E. pose proof (mcell_len a p Hp) as L. rewrite E in L. pose proof (n_of_pos a i Hi Ha). unfold len in L. simpl in L. lra. Qed.

(* the four cells are the pooled period cells *)
Lemma cell_post a : cell rows d pst a 1 = filter (fun i => Reqb (d i) a && zmem (t i) post) rows.
Proof.
  unfold cell. apply filter_ext. intros i. f_equal. destruct (zmem (t i) post); unfold ind; [apply Reqb_true; reflexivity|apply Reqb_false; lra].
Qed.
Lemma cell_pre a : cell rows d pst a 0 = filter (fun i => Reqb (d i) a && negb (zmem (t i) post)) rows.
Proof.
  unfold cell. apply filter_ext. intros i. f_equal. destruct (zmem (t i) post); unfold ind; cbn [negb]; [apply Reqb_false; lra|apply Reqb_true; reflexivity].
Qed.
Definition pre_periods : list Z := filter (fun p => negb (zmem p post)) (nodup Z.eq_dec (map t rows)).
Lemma pre_mem i : In i rows -> zmem (t i) pre_periods = negb (zmem (t i) post).
Proof.
  intros Hi. destruct (zmem (t i) post) eqn:E; cbn [negb].
  - apply zmem_false. intros H. apply filter_In in H as [_ H]. rewrite E in H. discriminate.
  - apply zmem_In. apply filter_In. split; [apply nodup_In, in_map; exact Hi|]. now rewrite E.
Qed.
Lemma cell_pre_periods a : cell rows d pst a 0 = filter (fun i => Reqb (d i) a && zmem (t i) pre_periods) rows.
Proof. rewrite cell_pre. apply filter_ext_in. intros i Hi. rewrite (pre_mem i Hi). reflexivity. Qed.

Hypothesis Hpost : NoDup post /\ incl post (map t rows).
Variables (i0 i1 : I).
Hypothesis H0 : In i0 rows /\ dU (u i0) = 0.
Hypothesis H1 : In i1 rows /\ dU (u i1) = 1.
Lemma mean_post y a i : In i rows -> dU (u i) = a -> post <> [] -> meanf (fun p => meanf y (mcell rows d t a p)) post = cell_mean rows d pst y a 1.
Proof.
  intros Hi Ha Hne. unfold cell_mean. rewrite cell_post. unfold mcell. apply (pooled_mean rows t y (fun i => Reqb (d i) a) post (n_of a)); [apply Hpost|exact Hne| |].
  - pose proof (n_of_pos a i Hi Ha). lra.
  - intros p Hp. apply (mcell_len a p). apply (proj2 Hpost). exact Hp.
Qed.
Lemma mean_pre y a i : In i rows -> dU (u i) = a -> pre_periods <> [] -> meanf (fun p => meanf y (mcell rows d t a p)) pre_periods = cell_mean rows d pst y a 0.
Proof.
  intros Hi Ha Hne. unfold cell_mean. rewrite cell_pre_periods. unfold mcell. apply (pooled_mean rows t y (fun i => Reqb (d i) a) pre_periods (n_of a)).
  - apply NoDup_filter, NoDup_nodup.
  - exact Hne.
  - pose proof (n_of_pos a i Hi Ha). lra.
  - intros p Hp. apply (mcell_len a p). apply filter_In in Hp as [Hp _]. apply nodup_In in Hp. exact Hp.
Qed.
Lemma panel_four_cells p : post <> [] -> In p rows -> zmem (t p) post = false -> four_cells rows d pst.
Proof.
  intros Hne Hp Hz. assert (A : forall a i, In i rows -> dU (u i) = a -> cell rows d pst a 0 <> [] /\ cell rows d pst a 1 <> []).
  { intros a i Hi Ha. split.
    - intros E. apply (mcell_full a i (t p) Hi Ha (in_map t rows p Hp)). destruct (mcell rows d t a (t p)) as [|j l] eqn:Em; [reflexivity|]. exfalso.
      assert (Hj : In j (mcell rows d t a (t p))) by (rewrite Em; left; reflexivity). apply filter_In in Hj as [Hj Hc]. apply andb_true_iff in Hc as [Hc Ht]. apply Z.eqb_eq in Ht.
      assert (X : In j (cell rows d pst a 0)); [|rewrite E in X; destruct X]. rewrite cell_pre. apply filter_In. split; [exact Hj|]. rewrite Hc, Ht, Hz. reflexivity.
    - destruct post as [|q ps] eqn:Eq; [congruence|]. rewrite <- Eq in *. assert (Hq : In q post) by (rewrite Eq; left; reflexivity). intros E.
      apply (mcell_full a i q Hi Ha (proj2 Hpost q Hq)). destruct (mcell rows d t a q) as [|j l] eqn:Em; [reflexivity|]. exfalso.
      assert (Hj : In j (mcell rows d t a q)) by (rewrite Em; left; reflexivity). apply filter_In in Hj as [Hj Hc]. apply andb_true_iff in Hc as [Hc Ht]. apply Z.eqb_eq in Ht.
      assert (X : In j (cell rows d pst a 1)); [|rewrite E in X; destruct X]. rewrite cell_post. apply filter_In. split; [exact Hj|]. rewrite Hc. apply zmem_In. rewrite Ht. exact Hq. }
  destruct (A 0 i0 (proj1 H0) (proj2 H0)), (A 1 i1 (proj1 H1) (proj2 H1)). repeat split; assumption.
Qed.
(* treatment shares are the same in every period *)
Lemma d_split i : In i rows -> d i = ind (Reqb (d i) 1) /\ ind (Reqb (d i) 0) + ind (Reqb (d i) 1) = 1.
Proof.
  intros Hi. destruct (Hd i Hi) as [E|E]; rewrite E.
  - replace (Reqb 0 1) with false by (symmetry; apply Reqb_false; lra). replace (Reqb 0 0) with true by (symmetry; apply Reqb_true; lra). unfold ind. lra.
  - replace (Reqb 1 0) with false by (symmetry; apply Reqb_false; lra). replace (Reqb 1 1) with true by (symmetry; apply Reqb_true; lra). unfold ind. lra.
Qed.
Lemma share i : In i rows -> meanf d (period_rows rows t (t i)) = n_of 1 / (n_of 0 + n_of 1).
Proof.
  intros Hi. pose proof (mcell_len 1 (t i) (in_map t rows i Hi)) as L1. pose proof (mcell_len 0 (t i) (in_map t rows i Hi)) as L0.
  unfold meanf. assert (S : sumf d (period_rows rows t (t i)) = n_of 1).
  { rewrite <- L1. unfold mcell, period_rows. rewrite len_filter, sumf_filter. apply sumf_ext. intros j Hj. rewrite (proj1 (d_split j Hj)) at 1.
    destruct (Z.eqb (t j) (t i)); [rewrite andb_true_r|rewrite andb_false_r]; unfold ind; destruct (Reqb _ _); ring. }
  assert (Ln : len (period_rows rows t (t i)) = n_of 0 + n_of 1).
  { rewrite <- L0, <- L1. unfold mcell, period_rows. rewrite !len_filter, <- sumf_add. apply sumf_ext. intros j Hj. pose proof (proj2 (d_split j Hj)) as Q.
    destruct (Z.eqb (t j) (t i)); [rewrite !andb_true_r|rewrite !andb_false_r; unfold ind; ring]. rewrite Q. reflexivity. }
  rewrite S, Ln. reflexivity.
Qed.
Lemma pre_sum (f : I -> R) : sumf f (pre_rows rows t post) = sumf f (cell rows d pst 0 0) + sumf f (cell rows d pst 1 0).
Proof.
  rewrite !cell_pre. unfold pre_rows. rewrite !sumf_filter, <- sumf_add. apply sumf_ext. intros i Hi. pose proof (proj2 (d_split i Hi)) as Q.
  destruct (negb (zmem (t i) post)); [rewrite !andb_true_r|rewrite !andb_false_r; unfold ind; ring]. replace (ind true) with (ind (Reqb (dU (u i)) 0) + ind (Reqb (dU (u i)) 1)) by (rewrite Q; reflexivity). ring.
Qed.
Lemma pre_len a i : In i rows -> dU (u i) = a -> len (cell rows d pst a 0) = len pre_periods * n_of a.
Proof.
  intros Hi Ha. rewrite cell_pre_periods. assert (N : NoDup pre_periods) by (apply NoDup_filter, NoDup_nodup).
  pose proof (pooled_sum rows t (fun i => Reqb (d i) a) (fun _ => 1) pre_periods N) as S. rewrite sumf_const, Rmult_1_r in S. rewrite <- S.
  rewrite (sumf_ext _ (fun _ => n_of a)); [rewrite sumf_const; ring|]. intros p Hp. rewrite sumf_const, Rmult_1_r. apply (mcell_len a p). apply filter_In in Hp as [Hp _]. apply nodup_In in Hp. exact Hp.
Qed.
Lemma pre_gap_value y p : In p rows -> zmem (t p) post = false ->
  pre_gap rows d t post y = cell_mean rows d pst y 1 0 - cell_mean rows d pst y 0 0 /\
  sumf (fun i => dev rows d t i * dev rows d t i) (pre_rows rows t post) <> 0.
Proof.
  intros Hp Hz. assert (Np : 0 < len pre_periods).
  { apply len_pos. intros E. assert (X : In (t p) pre_periods); [|rewrite E in X; destruct X]. apply zmem_In. rewrite (pre_mem p Hp), Hz. reflexivity. }
  pose proof (n_of_pos 0 i0 (proj1 H0) (proj2 H0)) as P0. pose proof (n_of_pos 1 i1 (proj1 H1) (proj2 H1)) as P1.
  pose proof (pre_len 0 i0 (proj1 H0) (proj2 H0)) as L0. pose proof (pre_len 1 i1 (proj1 H1) (proj2 H1)) as L1.
  set (q := n_of 1 / (n_of 0 + n_of 1)) in *.
  assert (D : forall a i, In i (cell rows d pst a 0) -> dev rows d t i = a - q).
  { intros a i Hi. apply filter_In in Hi as [Hi Hc]. apply andb_true_iff in Hc as [Hc _]. apply Reqb_true in Hc. unfold dev. rewrite (share i Hi), Hc. reflexivity. }
  assert (S2 : sumf (fun i => dev rows d t i * dev rows d t i) (pre_rows rows t post) = len pre_periods * (n_of 0 * n_of 1 / (n_of 0 + n_of 1))).
  { rewrite pre_sum. rewrite (sumf_ext _ (fun _ => (0 - q) * (0 - q)) (cell rows d pst 0 0)) by (intros i Hi; rewrite (D 0 i Hi); reflexivity).
    rewrite (sumf_ext _ (fun _ => (1 - q) * (1 - q)) (cell rows d pst 1 0)) by (intros i Hi; rewrite (D 1 i Hi); reflexivity).
    rewrite !sumf_const, L0, L1. unfold q. field. lra. }
  assert (S1 : sumf (fun i => dev rows d t i * y i) (pre_rows rows t post) = (1 - q) * sumf y (cell rows d pst 1 0) - q * sumf y (cell rows d pst 0 0)).
  { rewrite pre_sum. rewrite (sumf_ext _ (fun i => (0 - q) * y i) (cell rows d pst 0 0)) by (intros i Hi; rewrite (D 0 i Hi); reflexivity).
    rewrite (sumf_ext _ (fun i => (1 - q) * y i) (cell rows d pst 1 0)) by (intros i Hi; rewrite (D 1 i Hi); reflexivity).
    rewrite !sumf_scal. ring. }
  split.
  - unfold pre_gap. rewrite S1, S2. unfold cell_mean, meanf. rewrite L0, L1. unfold q. field. lra.
  - rewrite S2. apply Rgt_not_eq. apply Rmult_lt_0_compat; [exact Np|]. apply Rmult_lt_0_compat; [apply Rmult_lt_0_compat; assumption|]. apply Rinv_0_lt_compat. lra.
Qed.
End Panel.

(* DifferenceInDifferences with absorb= (diff_diff/estimators.py:226-241) against fixed_effects= (diff_diff/estimators.py:259-270). *)
From Coq Require Import Reals Lra Lia.
From Verif Require Import Prelude Flt Linalg_model Linalg_proofs Linalg_vcov Linalg_thms Linalg_dual Did_model Did_spec Did_proofs Did_equiv.
From Coq Require Import Arith ZArith String List.
Import ListNotations.
Open Scope R_scope.

(* ---- the interaction's dual vector is the double difference of cell means ---- *)
Section Cells.
Context {I : Type} (rows : list I) (d t : I -> R).
Hypothesis Zd : zero_one rows d.
Hypothesis Zt : zero_one rows t.

Lemma ip_did_q f : four_cells rows d t -> ip rows f (did_q rows d t) = did_of_means rows d t f.
Proof.
  intros (H00 & H01 & H10 & H11). unfold ip. rewrite (cell_sum rows d t Zd Zt).
  assert (C : forall a b c, (forall i, d i = a -> t i = b -> did_q rows d t i = c) -> sumf (fun i => f i * did_q rows d t i) (cell rows d t a b) = c * sumf f (cell rows d t a b)).
  { intros a b c H. rewrite <- sumf_scal. apply sumf_ext. intros i Hi. apply cell_in in Hi. rewrite H by easy. ring. }
  rewrite (C 0 0 (/ len (cell rows d t 0 0))) by (intros i Ed Et; unfold did_q; rewrite Ed, Et, Reqb_01; reflexivity).
  rewrite (C 0 1 (- / len (cell rows d t 0 1))) by (intros i Ed Et; unfold did_q; rewrite Ed, Et, Reqb_01, Reqb_refl; reflexivity).
  rewrite (C 1 0 (- / len (cell rows d t 1 0))) by (intros i Ed Et; unfold did_q; rewrite Ed, Et, Reqb_01, Reqb_refl; reflexivity).
  rewrite (C 1 1 (/ len (cell rows d t 1 1))) by (intros i Ed Et; unfold did_q; rewrite Ed, Et, Reqb_refl; reflexivity).
  unfold did_of_means, cell_mean, meanf, Rdiv. ring.
Qed.
Lemma did_of_means_cells (h : R -> R -> R) : four_cells rows d t -> did_of_means rows d t (fun i => h (d i) (t i)) = h 1 1 - h 1 0 - (h 0 1 - h 0 0).
Proof.
  intros (H00 & H01 & H10 & H11). unfold did_of_means, cell_mean.
  assert (C : forall a b, cell rows d t a b <> [] -> meanf (fun i => h (d i) (t i)) (cell rows d t a b) = h a b).
  { intros a b Hne. unfold meanf. rewrite (cell_sum_const rows d t _ a b (h a b)) by (intros; congruence). assert (P := len_pos _ Hne). field. lra. }
  now rewrite !C.
Qed.
Lemma did_of_means_sub f f' : did_of_means rows d t (fun i => f i - f' i) = did_of_means rows d t f - did_of_means rows d t f'.
Proof. unfold did_of_means, cell_mean. unfold meanf. rewrite !sumf_sub. unfold Rdiv. ring. Qed.

Lemma did_q_span : span rows (did_design d t []) (did_q rows d t).
Proof.
  apply (sat_span rows d t Zd Zt (fun a b => let n a b := len (cell rows d t a b) in
      if Reqb a 1 then (if Reqb b 1 then / n 1 1 else - / n 1 0) else (if Reqb b 1 then - / n 0 1 else / n 0 0))).
Qed.
(* with extra columns whose own double difference is zero, the dual vector stays the same *)
Lemma did_q_is_dual extra : four_cells rows d t -> (forall c, In c extra -> did_of_means rows d t c = 0) -> dual rows (did_design d t extra) 3 (did_q rows d t).
Proof.
  intros H4 Hx. split; [unfold did_design; cbn [length]; lia|]. split.
  - apply (span_trans rows (did_design d t [])); [|apply did_q_span]. intros c Hc. apply span_in. unfold did_design in *. cbn [In] in *. tauto.
  - intros a Ha. rewrite ip_did_q by easy. destruct a as [|[|[|[|a]]]]; cbn [Nat.eqb].
    + change (colx (did_design d t extra) 0) with (fun i => (fun _ _ : R => 1) (d i) (t i)). rewrite did_of_means_cells by easy. ring.
    + change (colx (did_design d t extra) 1) with (fun i => (fun x _ : R => x) (d i) (t i)). rewrite did_of_means_cells by easy. ring.
    + change (colx (did_design d t extra) 2) with (fun i => (fun _ x : R => x) (d i) (t i)). rewrite did_of_means_cells by easy. ring.
    + change (colx (did_design d t extra) 3) with (fun i => (fun x z : R => x * z) (d i) (t i)). rewrite did_of_means_cells by easy. ring.
    + apply Hx. unfold colx, did_design. cbn [nth]. apply nth_In. unfold did_design in Ha. cbn [length] in Ha. lia.
Qed.
End Cells.

Lemma span_wider {I} (rows : list I) cols cols' f : (forall c, In c cols -> In c cols') -> span rows cols f -> span rows cols' f.
Proof. intros H. apply span_trans. intros c Hc. apply span_in. auto. Qed.

(* ---- balanced panel nested in the treatment arms ---- *)
Section Balanced.
Context {I G : Type} (geq : forall x y : G, {x = y} + {x <> y}).
(* every group lies in one arm and has p pre rows and q post rows *)
Definition balanced (rows : list I) (d t : I -> R) (g : I -> G) (p q : R) : Prop :=
  0 < p /\ 0 < q /\
  forall i, In i rows ->
    (forall j, In j rows -> g j = g i -> d j = d i) /\
    len (filter (fun j => keqb geq (g j) (g i) && Reqb (t j) 0) rows) = p /\
    len (filter (fun j => keqb geq (g j) (g i) && Reqb (t j) 1) rows) = q.
Context (rows : list I) (d t : I -> R) (g : I -> G) (p q : R).
Hypothesis B : balanced rows d t g p q.

Lemma bal_count a b b' i : In i (cell rows d t a b) -> len (filter (fun j => keqb geq (g j) (g i)) (cell rows d t a b')) = len (filter (fun j => keqb geq (g j) (g i) && Reqb (t j) b') rows).
Proof.
  intros Hi. apply cell_in in Hi. destruct Hi as (Hi & Ed & Et). destruct B as (_ & _ & H). destruct (H i Hi) as (Hd & _). unfold cell. rewrite !len_filter, sumf_filter.
  apply sumf_ext. intros j Hj. destruct (keqb geq (g j) (g i)) eqn:E; cbn [andb].
  - apply keqb_true in E. rewrite (Hd j Hj E), Ed, Reqb_refl. cbn [andb]. unfold ind. destruct (Reqb (t j) b'); ring.
  - unfold ind. destruct (Reqb (d j) a && Reqb (t j) b'); ring.
Qed.
Lemma bal_sum h a : (forall i j, In i rows -> In j rows -> g i = g j -> h i = h j) -> q * sumf h (cell rows d t a 0) = p * sumf h (cell rows d t a 1).
Proof.
  intros Hh. destruct B as (Pp & Pq & H).
  transitivity (sumf (fun i => sumf (fun j => ind (keqb geq (g j) (g i)) * h i) (cell rows d t a 1)) (cell rows d t a 0)).
  - rewrite <- sumf_scal. apply sumf_ext. intros i Hi. rewrite sumf_scal_r, <- len_filter, (bal_count a 0 1 i Hi). apply cell_in in Hi. destruct (H i (proj1 Hi)) as (_ & _ & ->). easy.
  - rewrite sumf_swap, <- sumf_scal. apply sumf_ext. intros j Hj.
    rewrite (sumf_ext _ (fun i => ind (keqb geq (g i) (g j)) * h j)).
    + rewrite sumf_scal_r, <- len_filter, (bal_count a 1 0 j Hj). apply cell_in in Hj. destruct (H j (proj1 Hj)) as (_ & -> & _). easy.
    + intros i Hi. apply cell_in in Hi. apply cell_in in Hj. destruct (keqb geq (g j) (g i)) eqn:E.
      * apply keqb_true in E. rewrite E, keqb_refl. rewrite (Hh i j); easy.
      * apply keqb_false in E. replace (keqb geq (g i) (g j)) with false by (symmetry; apply keqb_false; congruence). unfold ind. ring.
Qed.
Lemma bal_len a : q * len (cell rows d t a 0) = p * len (cell rows d t a 1).
Proof. assert (K := bal_sum (fun _ => 1) a ltac:(easy)). rewrite !sumf_const in K. lra. Qed.
(* a function of the group has the same mean before and after, within each arm *)
Lemma bal_mean h a : (forall i j, In i rows -> In j rows -> g i = g j -> h i = h j) -> cell rows d t a 0 <> [] -> cell rows d t a 1 <> [] -> cell_mean rows d t h a 1 = cell_mean rows d t h a 0.
Proof.
  intros Hh H0 H1. assert (K := bal_sum h a Hh). assert (K1 := bal_len a). destruct B as (Pp & Pq & H). unfold cell_mean, meanf.
  apply len_pos in H0. apply len_pos in H1. set (n0 := len (cell rows d t a 0)) in *. set (n1 := len (cell rows d t a 1)) in *.
  set (s0 := sumf h (cell rows d t a 0)) in *. set (s1 := sumf h (cell rows d t a 1)) in *. clearbody n0 n1 s0 s1. clear H B.
  assert (E : s1 * n0 = s0 * n1).
  { apply (Rmult_eq_reg_l (p * q)); [|apply Rgt_not_eq; now apply Rmult_lt_0_compat]. 
    replace (p * q * (s1 * n0)) with ((p * s1) * (q * n0)) by ring. replace (p * q * (s0 * n1)) with ((q * s0) * (p * n1)) by ring. rewrite <- K. replace (q * n0) with (p * n1) by lra. ring. }
  apply (Rmult_eq_reg_r (n0 * n1)); [|apply Rgt_not_eq; now apply Rmult_lt_0_compat]. replace (s1 / n1 * (n0 * n1)) with (s1 * n0) by (field; lra). replace (s0 / n0 * (n0 * n1)) with (s0 * n1) by (field; lra). easy.
Qed.
Lemma bal_did0 h : four_cells rows d t -> (forall i j, In i rows -> In j rows -> g i = g j -> h i = h j) -> did_of_means rows d t h = 0.
Proof. intros (H00 & H01 & H10 & H11) Hh. unfold did_of_means. rewrite (bal_mean h 1), (bal_mean h 0) by easy. ring. Qed.

(* a demeaned column is orthogonal to every function of the group *)
Lemma demean_orth h x : (forall i j, In i rows -> In j rows -> g i = g j -> h i = h j) -> ip rows h (demean geq rows g x) = 0.
Proof.
  intros Hh. unfold demean. rewrite ip_sub_r. unfold ip.
  assert (E : sumf (fun i => h i * group_mean geq rows g x i) rows = sumf (fun i => sumf (fun j => ind (keqb geq (g j) (g i)) * (h i * x j / len (filter (fun m => keqb geq (g m) (g i)) rows))) rows) rows).
  { apply sumf_ext. intros i Hi. unfold group_mean, meanf. rewrite sumf_filter. unfold Rdiv. rewrite <- sumf_scal_r, <- sumf_scal. apply sumf_ext_all. intros j. ring. }
  rewrite E, sumf_swap. enough (X : sumf (fun j => sumf (fun i => ind (keqb geq (g j) (g i)) * (h i * x j / len (filter (fun m => keqb geq (g m) (g i)) rows))) rows) rows = sumf (fun i => h i * x i) rows) by lra.
  apply sumf_ext. intros j Hj.
  rewrite (sumf_ext _ (fun i => ind (keqb geq (g i) (g j)) * (h j * x j / len (filter (fun m => keqb geq (g m) (g j)) rows)))).
  - rewrite sumf_scal_r, <- len_filter. assert (P : 0 < len (filter (fun m => keqb geq (g m) (g j)) rows)).
    { apply len_pos. intros X. assert (Hin : In j (filter (fun m => keqb geq (g m) (g j)) rows)) by (apply filter_In; split; [easy|apply keqb_refl]). rewrite X in Hin. easy. }
    field. lra.
  - intros i Hi. destruct (keqb geq (g j) (g i)) eqn:Ek.
    + apply keqb_true in Ek. rewrite Ek, keqb_refl. rewrite (Hh i j); easy.
    + apply keqb_false in Ek. replace (keqb geq (g i) (g j)) with false by (symmetry; apply keqb_false; congruence). unfold ind. ring.
Qed.
(* the cell means of the demeaned outcome average to zero over the rows of a group *)
Lemma bal_cell_avg a x : four_cells rows d t -> a = 0 \/ a = 1 -> zero_one rows t ->
  p * cell_mean rows d t (demean geq rows g x) a 0 + q * cell_mean rows d t (demean geq rows g x) a 1 = 0.
Proof.
  intros (H00 & H01 & H10 & H11) Ha Zt. set (y' := demean geq rows g x).
  assert (Hne : cell rows d t a 0 <> [] /\ cell rows d t a 1 <> []) by (destruct Ha as [-> | ->]; easy). destruct Hne as [N0 N1].
  assert (L := bal_len a). destruct B as (Pp & Pq & Hb).
  assert (O : sumf y' (cell rows d t a 0) + sumf y' (cell rows d t a 1) = 0).
  { transitivity (ip rows (fun i => ind (Reqb (d i) a)) (demean geq rows g x)); [|apply demean_orth].
    - fold y'. unfold cell. rewrite !sumf_filter, <- sumf_add. unfold ip. apply sumf_ext. intros i Hi. destruct (Reqb (d i) a); cbn [andb]; [|unfold ind; ring].
      destruct (Zt i Hi) as [-> | ->]; rewrite ?Reqb_refl, ?Reqb_01, ?Reqb_10; unfold ind; ring.
    - intros i j Hi Hj E. destruct (Hb j Hj) as (Hd & _). now rewrite (Hd i Hi E). }
  apply len_pos in N0. apply len_pos in N1. unfold cell_mean, meanf. set (n0 := len (cell rows d t a 0)) in *. set (n1 := len (cell rows d t a 1)) in *.
  set (s0 := sumf y' (cell rows d t a 0)) in *. set (s1 := sumf y' (cell rows d t a 1)) in *. clearbody n0 n1 s0 s1. clear -L O N0 N1 Pp Pq.
  replace s1 with (- s0) by lra. apply (Rmult_eq_reg_r (n0 * n1)); [|apply Rgt_not_eq; now apply Rmult_lt_0_compat].
  replace ((p * (s0 / n0) + q * (- s0 / n1)) * (n0 * n1)) with (s0 * (p * n1 - q * n0)) by (field; lra). rewrite L. ring.
Qed.
Lemma group_mean_same x i j : g i = g j -> group_mean geq rows g x i = group_mean geq rows g x j.
Proof. intros E. unfold group_mean. now rewrite E. Qed.

(* indicator columns of the groups other than the first *)
Definition dummies (ks : list G) : list (I -> R) := map (fun k i => ind (keqb geq (g i) k)) ks.
Lemma group_span k0 ks (h : G -> R) : NoDup (k0 :: ks) -> (forall i, In i rows -> In (g i) (k0 :: ks)) -> span rows (did_design d t (dummies ks)) (fun i => h (g i)).
Proof.
  intros Nd Hc. exists (h k0 :: 0 :: 0 :: 0 :: map (fun k => h k - h k0) ks). split; [unfold did_design, dummies; cbn [length]; now rewrite !map_length|].
  intros i Hi. unfold did_design. cbn [lc].
  assert (E : lc (dummies ks) (map (fun k => h k - h k0) ks) i = if keqb geq (g i) k0 then 0 else h (g i) - h k0).
  { unfold dummies. specialize (Hc i Hi). inversion Nd as [|? ? N0 N1]; subst. clear Nd.
    assert (Gz : forall l, ~ In (g i) l -> lc (map (fun k i => ind (keqb geq (g i) k)) l) (map (fun k => h k - h k0) l) i = 0).
    { induction l as [|k l IH]; intros Hn; [easy|]. cbn [map lc]. cbn [In] in Hn. rewrite IH by tauto. replace (keqb geq (g i) k) with false by (symmetry; apply keqb_false; intuition congruence). unfold ind. ring. }
    destruct (keqb geq (g i) k0) eqn:E0.
    - apply keqb_true in E0. apply Gz. now rewrite E0.
    - apply keqb_false in E0. destruct Hc as [Hc|Hc]; [congruence|]. revert N1 Hc. clear N0. induction ks as [|k l IH]; intros N1 Hc; [easy|]. inversion N1; subst. cbn [map lc].
      destruct (geq k (g i)) as [->|Hk].
      + rewrite keqb_refl, Gz by easy. unfold ind. ring.
      + destruct Hc as [Hc|Hc]; [congruence|]. rewrite IH by easy. replace (keqb geq (g i) k) with false by (symmetry; apply keqb_false; congruence). unfold ind. ring. }
  rewrite E. destruct (keqb geq (g i) k0) eqn:E0; [apply keqb_true in E0; rewrite E0|]; ring.
Qed.
End Balanced.

(* ---- a design with a one-dimensional kernel loses exactly one column ---- *)
Lemma nth_map_d {A} (f : A -> R) l m a : (m < length l)%nat -> nth m (map f l) 0 = f (nth m l a).
Proof. intros H. rewrite nth_indep with (d' := f a) by (now rewrite map_length). apply map_nth. Qed.
Lemma nth_map_seq (f : nat -> R) k m : (m < k)%nat -> nth m (map f (seq 0 k)) 0 = f m.
Proof. intros H. rewrite nth_indep with (d' := f O) by (now rewrite map_length, seq_length). now rewrite map_nth, seq_nth by easy. Qed.
Lemma lc_unit {I} (cols : list (I -> R)) j i : (j < length cols)%nat -> lc cols (map (fun a => if (a =? j)%nat then 1 else 0) (seq 0 (length cols))) i = colx cols j i.
Proof.
  intros Hj. rewrite lc_index by (now rewrite map_length, seq_length).
  rewrite (sumf_ext _ (fun a => ind (keqb Nat.eq_dec j a) * colx cols j i)).
  - rewrite sumf_ind_key; [easy|apply seq_NoDup|apply in_seq; lia].
  - intros a Ha. apply in_seq in Ha. rewrite nth_map_seq by lia.
    destruct (a =? j)%nat eqn:E; [apply Nat.eqb_eq in E; subst a; rewrite keqb_refl; unfold ind; ring|]. apply Nat.eqb_neq in E. replace (keqb Nat.eq_dec j a) with false by (symmetry; apply keqb_false; congruence). unfold ind. ring.
Qed.
Lemma one_dropped {I} (qr : list I -> list (I -> R) -> list nat) rows cols v0 :
  qr_ok qr -> length v0 = length cols -> (forall i, In i rows -> lc cols v0 i = 0) -> (exists j, nth j v0 0 <> 0) ->
  (forall v, length v = length cols -> (forall i, In i rows -> lc cols v i = 0) -> exists c, forall j, nth j v 0 = c * nth j v0 0) ->
  Datatypes.S (length (kept_cols (length cols) (qr rows cols))) = length cols.
Proof.
  intros Hqr Lv Kv (jn & Hjn) Hk. destruct (Hqr rows cols) as [Hsp Hin]. set (D := qr rows cols) in *. set (k := length cols) in *.
  assert (Hker : forall j, In j D -> exists w, length w = k /\ (forall i, In i rows -> lc cols w i = 0) /\ nth j w 0 = 1 /\ forall m, In m D -> m <> j -> nth m w 0 = 0).
  { intros j Hj. destruct (Hsp j Hj) as [Lj (b & Lb & Eb)].
    assert (Lx : length b = length (kept_cols k D)) by (rewrite Lb; unfold select_cols; now rewrite map_length).
    exists (vadd (map (fun a => if (a =? j)%nat then 1 else 0) (seq 0 k)) (vscal (-1) (map nan_to_zero (expand_coef b k (kept_cols k D))))).
    assert (L1 : length (map (fun a => if (a =? j)%nat then 1 else 0) (seq 0 k)) = k) by now rewrite map_length, seq_length.
    assert (L2 : length (vscal (-1) (map nan_to_zero (expand_coef b k (kept_cols k D)))) = k) by (unfold vscal; now rewrite !map_length, expand_coef_length).
    assert (N1 : forall m, (m < k)%nat -> nth m (map (fun a => if (a =? j)%nat then 1 else 0) (seq 0 k)) 0 = if (m =? j)%nat then 1 else 0).
    { intros m Hm. now rewrite nth_map_seq by lia. }
    assert (N2 : forall m, In m D -> nth m (map nan_to_zero (expand_coef b k (kept_cols k D))) 0 = 0).
    { intros m Hm. destruct (Hsp m Hm) as [Lm _]. replace 0 with (nan_to_zero NaN) at 1 by reflexivity. rewrite map_nth, expand_coef_nth by easy.
      destruct (index_of m (kept_cols k D)) as [p|] eqn:E; [|easy]. exfalso. assert (X : In m (kept_cols k D)) by (apply index_of_in; eauto). apply kept_cols_lt in X. easy. }
    split; [|split; [|split]].
    - now apply vadd_length.
    - intros i Hi. rewrite lc_vadd by assumption. rewrite lc_vscal. unfold k at 1. rewrite lc_unit by easy.
      assert (Pe := predict_expand cols b (kept_cols k D) i (kept_cols_nodup k D) ltac:(intros m Hm; apply kept_cols_lt in Hm; easy) Lx). unfold predict in Pe. fold k in Pe. rewrite Pe, <- Eb by easy. ring.
    - rewrite vadd_nth by congruence. rewrite vscal_nth, N1, N2, Nat.eqb_refl by easy. ring.
    - intros m Hm Hne. rewrite vadd_nth by congruence. rewrite vscal_nth, N2 by easy. rewrite N1 by (now destruct (Hsp m Hm)). apply Nat.eqb_neq in Hne. rewrite Hne. ring. }
  assert (Hone : exists j0, (j0 < k)%nat /\ In j0 D /\ forall j, In j D -> j = j0).
  { destruct D as [|j0 D'] eqn:ED.
    - exfalso. apply Hjn. rewrite kept_cols_nil in Hin. unfold k in Hin. rewrite <- kept_cols_nil, select_cols_full in Hin.
      rewrite (Hin v0 Lv Kv). apply nth_repeat.
    - exists j0. split; [apply (Hsp j0); now left|]. split; [now left|]. intros j Hj. destruct (Nat.eq_dec j j0) as [|Hne]; [easy|]. exfalso.
      destruct (Hker j0 (or_introl eq_refl)) as (w & Lw & Kw & W1 & W2). destruct (Hker j Hj) as (w' & Lw' & Kw' & W1' & W2').
      destruct (Hk w Lw Kw) as [c Hc]. destruct (Hk w' Lw' Kw') as [c' Hc'].
      specialize (W2 j Hj Hne). rewrite Hc in W1, W2. rewrite Hc' in W1'. apply Rmult_integral in W2. destruct W2 as [W2|W2]; rewrite W2 in *; lra. }
  destruct Hone as (j0 & L0 & I0 & U0).
  assert (P : Permutation.Permutation (j0 :: kept_cols k D) (seq 0 k)).
  { apply Permutation.NoDup_Permutation; [constructor; [intros X; apply kept_cols_lt in X; easy|apply kept_cols_nodup]|apply seq_NoDup|].
    intros x. rewrite in_seq. cbn [In]. rewrite kept_cols_lt. split; [intros [<-|[? ?]]; lia|]. intros [_ Hx]. destruct (Nat.eq_dec j0 x) as [|Hne]; [now left|]. right. split; [lia|]. intros X. apply Hne. symmetry. auto. }
  apply Permutation.Permutation_length in P. cbn [length] in P. now rewrite seq_length in P.
Qed.

(* ---- the estimator ---- *)
Section Fit.
Context {I K G : Type} (keq : forall x y : K, {x = y} + {x <> y}) (geq : forall x y : G, {x = y} + {x <> y}).
Variable qr : list I -> list (I -> R) -> list nat.
Variable lstsq : list I -> list (I -> R) -> (I -> R) -> list R.
Variable inv : list I -> list (I -> R) -> option (nat -> nat -> R).
Variable pinv : list I -> list (I -> R) -> nat -> nat -> R.
Variable sf : option Z -> fl -> fl.
Variable ppf : option Z -> R -> R.
Hypothesis Hqr : qr_ok qr.
Hypothesis Hls : lstsq_ok lstsq.
Hypothesis Hinv : inv_ok inv.
Notation fit := (did_fit keq geq qr lstsq inv pinv sf ppf).
Notation fR x := (fun i => toR (x i)).

(* the sandwich is requested *)
Definition sandwiched (cfg : did_config I K) : Prop := c_cluster cfg <> None \/ c_robust cfg = true.
(* the variance of the functional q of the residuals e with k reported coefficients *)
Definition dual_var (cfg : did_config I K) (rows : list I) (k : nat) (q e : I -> R) : R := adj_k keq rows k (c_cluster cfg) * score_ss keq rows q e (c_cluster cfg).

Lemma did_fit_dual cfg rows y d t covs dums absorb r y' covs' nabs q :
  fit cfg rows y d t covs dums absorb = Ok r ->
  absorb_loop geq rows absorb (fR y) (map (fun c => fR c) covs) = (y', covs', nabs) ->
  dual rows (did_design (fR d) (fR t) (covs' ++ dums)) 3 q ->
  r_att r = Fin (ip rows q y') /\
  (sandwiched cfg -> r_se r = Fin (sqrt (dual_var cfg rows (n_reported (r_coef r)) q (r_resid r))) /\ 0 <= dual_var cfg rows (n_reported (r_coef r)) q (r_resid r) /\ (n_reported (r_coef r) < length rows)%nat) /\
  is_ls rows (did_design (fR d) (fR t) (covs' ++ dums)) y' (map nan_to_zero (r_coef r)) /\
  (forall i, r_resid r i = y' i - lc (did_design (fR d) (fR t) (covs' ++ dums)) (map nan_to_zero (r_coef r)) i) /\
  n_reported (r_coef r) = length (kept_cols (length (did_design (fR d) (fR t) (covs' ++ dums))) (qr rows (did_design (fR d) (fR t) (covs' ++ dums)))).
Proof.
  intros H EA Hd. destruct (did_fit_inv _ _ _ _ _ _ _ _ _ _ _ _ _ _ _ _ _ H) as (_ & _ & _ & _ & _ & _ & y1 & c1 & n1 & reg & EA' & ER & Ha & (Hse & _) & Hc & _ & Hr & _).
  rewrite EA in EA'. injection EA' as <- <- <-.
  destruct (linreg_fit_inv keq qr lstsq inv pinv _ _ _ _ _ _ _ _ ER) as (o & Ho & Hco & Hro & _ & _ & HV).
  destruct (ols_dual keq qr lstsq inv Hqr Hls Hinv _ _ _ _ _ _ _ _ _ Ho Hd) as (D1 & D2 & D3 & D4).
  assert (D4' := D4).
  destruct (resid_coef keq qr lstsq inv pinv Hqr Hls _ _ _ _ _ _ _ _ ER) as (R1 & R2 & R3).
  split; [rewrite Ha, Hco; exact D1|]. split; [|split; [rewrite Hc; exact R2|split; [rewrite Hc, Hr; exact R3|rewrite Hc, Hco; destruct (solve_ols_shape keq qr lstsq inv Hls _ _ _ _ _ _ _ Ho) as (_ & -> & _); apply n_reported_kept]]].
  intros Hs. assert (Erv : match c_cluster cfg with Some _ => true | None => c_robust cfg end = true) by (destruct Hs as [Hs|Hs]; [destruct (c_cluster cfg); congruence|rewrite Hs; now destruct (c_cluster cfg)]).
  destruct (D2 Erv) as (W & EW & EWj & Pos). rewrite EW in HV. rewrite Hc, Hco. rewrite Hr, Hro. unfold dual_var. split; [|split; [easy|now apply D4']].
  rewrite Hse. unfold get_inference; cbn [i_se]. rewrite HV, EWj. apply sqrt_fin. easy.
Qed.

(* a fit is returned whenever the columns are finite, the design has no more columns than rows, not every row is used up by the
   independent columns, and there are two clusters *)
Lemma did_fit_defined_fe cfg rows (y d t : I -> fl) dums absorb :
  finite_col rows y -> finite_col rows d -> finite_col rows t ->
  zero_one rows (fR d) -> zero_one rows (fR t) -> four_cells rows (fR d) (fR t) ->
  (4 + length dums <= length rows)%nat -> (length (kept_cols (4 + length dums) (qr rows (did_design (fR d) (fR t) dums))) < length rows)%nat ->
  c_action cfg = "warn"%string ->
  (forall cl, c_cluster cfg = Some cl -> (2 <= length (cl_keys keq rows cl))%nat) ->
  exists r, fit cfg rows y d t [] dums absorb = Ok r.
Proof.
  intros Fy Fd Ft Zd Zt H4 Hn Hk Hact Hcl.
  destruct (finite_col_checks rows y Fy) as (N1 & I1 & E1).
  destruct (finite_col_checks rows d Fd) as (N2 & I2 & E2).
  destruct (finite_col_checks rows t Ft) as (N3 & I3 & E3).
  destruct (four_cells_two_values rows d t Zd Zt E2 E3 H4) as [T1 T2].
  assert (Bi : forall x, (forall i, In i rows -> x i = Fin (toR (x i))) -> zero_one rows (fR x) -> binary rows x = true).
  { intros x Ex Zx. unfold binary. apply forallb_forall. intros i Hi. rewrite (Ex i Hi). destruct (Zx i Hi) as [-> | ->]; cbn [fisnan feqb orb]; rewrite ?Reqb_refl, ?Bool.orb_true_r; easy. }
  unfold did_fit. cbn [existsb]. rewrite N1, N2, N3. cbn [orb]. rewrite T1, T2, (Bi d E2 Zd), (Bi t E3 Zt). cbn [negb]. rewrite I1. cbn [orb map].
  assert (EA : exists y' n, absorb_loop geq rows absorb (fR y) [] = (y', [], n)).
  { generalize (fR y). induction absorb as [|g gs IH]; intros z; cbn [absorb_loop map]; [eauto|]. destruct (IH (demean geq rows g z)) as (y' & n & ->). eauto. }
  destruct EA as (y' & n & ->). cbn [app]. set (cols := did_design (fR d) (fR t) dums) in *.
  assert (Lc : length cols = (4 + length dums)%nat) by reflexivity. rewrite <- Lc in Hn, Hk.
  set (kept := kept_cols (length cols) (qr rows cols)) in *. set (xr := select_cols cols kept).
  assert (Lx : length xr = length kept) by (unfold xr, select_cols; now rewrite map_length).
  assert (HV : forall e, exists V, robust_vcov keq inv rows xr e (c_cluster cfg) = Ok V).
  { intros e. assert (Hi := Hinv rows xr). destruct (inv rows xr) as [Bv|] eqn:EB; [|exfalso; apply Hi; apply (Hqr rows cols)].
    assert (Hne : Nat.eqb (length rows) (length xr) = false) by (apply Nat.eqb_neq; lia).
    unfold robust_vcov. rewrite Hne, EB. destruct (c_cluster cfg) as [cl|]; [|eauto]. specialize (Hcl cl eq_refl). rewrite (proj2 (Nat.ltb_ge _ 2)) by lia. eauto. }
  assert (K0 : Nat.eqb (length kept) 0 = false).
  { destruct rows as [|i0 rows0] eqn:ER; [cbn in Hn; lia|]. apply (kept_nonzero qr _ cols (fun _ => 1) i0 Hqr); [now left|now left|lra]. }
  assert (Hs : exists o, solve_ols keq qr lstsq inv rows cols y' (c_cluster cfg) (match c_cluster cfg with Some _ => true | None => c_robust cfg end) (c_action cfg) = Ok o).
  { unfold solve_ols. rewrite (proj2 (Nat.ltb_ge _ _)) by lia. rewrite Hact. cbn [parse_action]. replace (parse_action "warn") with (Some ActWarn) by reflexivity.
    destruct (qr rows cols) as [|a l] eqn:EQ.
    - destruct (match c_cluster cfg with Some _ => true | None => c_robust cfg end); [|eauto].
      assert (Ex : xr = cols) by (unfold xr, kept; apply select_cols_full). rewrite Ex in HV. edestruct HV as [V ->]. cbn [bind]. eauto.
    - fold kept. rewrite K0. fold xr. destruct (match c_cluster cfg with Some _ => true | None => c_robust cfg end); [|eauto]. edestruct HV as [V ->]. cbn [bind]. eauto. }
  destruct Hs as [o Ho]. unfold linreg_fit. rewrite Ho. cbn [bind]. eauto.
Qed.

(* what absorb= reports: the double difference of the demeaned outcome, with the variance of a fit with four parameters *)
Theorem absorb_report cfg rows y d t absorb r :
  fit cfg rows y d t [] [] absorb = Ok r -> four_cells rows (fR d) (fR t) ->
  let y' := fst (fst (absorb_loop geq rows absorb (fR y) [])) in
  r_att r = Fin (did_of_means rows (fR d) (fR t) y') /\
  n_reported (r_coef r) = 4%nat /\
  (forall i, In i rows -> r_resid r i = y' i - cell_mean rows (fR d) (fR t) y' (toR (d i)) (toR (t i))) /\
  (sandwiched cfg -> r_se r = Fin (sqrt (dual_var cfg rows 4 (did_q rows (fR d) (fR t)) (r_resid r))) /\ 0 <= dual_var cfg rows 4 (did_q rows (fR d) (fR t)) (r_resid r) /\ (4 < length rows)%nat).
Proof.
  intros H H4. cbv zeta. destruct (did_fit_inv _ _ _ _ _ _ _ _ _ _ _ _ _ _ _ _ _ H) as (_ & _ & _ & _ & Zd & Zt & y' & covs' & n & reg & EA & _).
  cbn [map] in EA. assert (Ec : covs' = []).
  { clear -EA. revert EA. generalize (fR y) n. induction absorb as [|g gs IH]; intros z m; cbn [absorb_loop map]; [congruence|].
    destruct (absorb_loop geq rows gs (demean geq rows g z) []) as [[y1 c1] n1] eqn:E. intros X. injection X as <- <- <-. eapply IH; eauto. }
  rewrite EA. cbn [fst]. subst covs'.
  assert (D : dual rows (did_design (fR d) (fR t) ([] ++ [])) 3 (did_q rows (fR d) (fR t))) by (apply did_q_is_dual; easy).
  destruct (did_fit_dual _ _ _ _ _ _ _ _ _ _ _ _ _ H EA D) as (A1 & A2 & A3 & A4 & A5). cbn [app] in *.
  assert (N4 : n_reported (r_coef r) = 4%nat).
  { rewrite A5. rewrite (qr_indep_none qr rows _ Hqr (sat_indep rows _ _ H4)). rewrite kept_cols_nil. now rewrite seq_length. }
  split; [|split; [easy|split]].
  - rewrite A1. f_equal. rewrite ip_sym. now apply ip_did_q.
  - intros i Hi. rewrite A4. f_equal. rewrite (ls_fitted_unique rows _ y' _ _ A3 (sat_is_ls rows (fR d) (fR t) Zd Zt y') i Hi). rewrite (sat_value rows (fR d) (fR t) Zd Zt) by easy.
    destruct (Zd i Hi) as [E|E], (Zt i Hi) as [E'|E']; rewrite E, E', ?Reqb_refl, ?Reqb_01; easy.
  - intros Hs. destruct (A2 Hs) as (S1 & S2 & S3). rewrite N4 in *. easy.
Qed.

(* one absorbed column: the ATT is the double difference of the outcome minus that of its group means *)
Theorem absorb_one_att cfg rows y d t g r : fit cfg rows y d t [] [] [g] = Ok r -> four_cells rows (fR d) (fR t) ->
  r_att r = Fin (did_of_means rows (fR d) (fR t) (fR y) - did_of_means rows (fR d) (fR t) (group_mean geq rows g (fR y))).
Proof. intros H H4. destruct (absorb_report _ _ _ _ _ _ _ H H4) as (-> & _). cbn [absorb_loop map fst]. unfold demean. now rewrite did_of_means_sub. Qed.

(* balanced panel: absorbing, including dummies (or any columns constant within units), and doing neither agree *)
Theorem balanced_att cfg cfg' rows y d t g p q ra rf ds :
  balanced geq rows (fR d) (fR t) g p q -> four_cells rows (fR d) (fR t) ->
  (forall c, In c ds -> forall i j, In i rows -> In j rows -> g i = g j -> c i = c j) ->
  fit cfg rows y d t [] [] [g] = Ok ra -> fit cfg' rows y d t [] ds [] = Ok rf ->
  r_att ra = Fin (did_of_means rows (fR d) (fR t) (fR y)) /\ r_att rf = Fin (did_of_means rows (fR d) (fR t) (fR y)).
Proof.
  intros B H4 Hds Ha Hf. split.
  - rewrite (absorb_one_att _ _ _ _ _ _ _ Ha H4). rewrite (bal_did0 geq rows _ _ g p q B (group_mean geq rows g (fR y))); [f_equal; ring|easy|]. intros i j _ _ E. unfold group_mean. now rewrite E.
  - destruct (did_fit_inv _ _ _ _ _ _ _ _ _ _ _ _ _ _ _ _ _ Hf) as (_ & _ & _ & _ & Zd & Zt & _).
    assert (D : dual rows (did_design (fR d) (fR t) ([] ++ ds)) 3 (did_q rows (fR d) (fR t))) by (apply did_q_is_dual; try easy; intros c Hc; apply (bal_did0 geq rows _ _ g p q B); auto).
    destruct (did_fit_dual _ _ _ _ _ _ _ _ _ _ _ _ _ Hf eq_refl D) as (-> & _). f_equal. rewrite ip_sym. now apply ip_did_q.
Qed.

(* with the dummies of all groups but the first, the residuals agree too, so the variances differ only by the number of parameters counted *)
Theorem balanced_se cfg rows y d t g p q ra rf k0 ks :
  balanced geq rows (fR d) (fR t) g p q -> four_cells rows (fR d) (fR t) ->
  NoDup (k0 :: ks) -> (forall i, In i rows -> In (g i) (k0 :: ks)) -> sandwiched cfg ->
  fit cfg rows y d t [] [] [g] = Ok ra -> fit cfg rows y d t [] (dummies geq g ks) [] = Ok rf ->
  (forall i, In i rows -> r_resid ra i = r_resid rf i) /\
  exists s, 0 <= s /\
    r_se ra = Fin (sqrt (adj_k keq rows 4 (c_cluster cfg) * s)) /\
    r_se rf = Fin (sqrt (adj_k keq rows (n_reported (r_coef rf)) (c_cluster cfg) * s)) /\
    (4 < length rows)%nat /\ (n_reported (r_coef rf) < length rows)%nat.
Proof.
  intros B H4 Nd Hc Hs Ha Hf.
  destruct (did_fit_inv _ _ _ _ _ _ _ _ _ _ _ _ _ _ _ _ _ Hf) as (_ & _ & _ & _ & Zd & Zt & _).
  assert (Gc : forall c, In c (dummies geq g ks) -> forall i j, In i rows -> In j rows -> g i = g j -> c i = c j).
  { intros c Hin i j _ _ E. unfold dummies in Hin. apply in_map_iff in Hin. destruct Hin as (k & <- & _). now rewrite E. }
  assert (D : dual rows (did_design (fR d) (fR t) ([] ++ dummies geq g ks)) 3 (did_q rows (fR d) (fR t))) by (apply did_q_is_dual; try easy; intros c Hin; apply (bal_did0 geq rows _ _ g p q B); auto).
  destruct (did_fit_dual _ _ _ _ _ _ _ _ _ _ _ _ _ Hf eq_refl D) as (_ & F2 & F3 & F4 & _). cbn [app] in *. destruct (F2 Hs) as (S1 & _ & S3).
  destruct (absorb_report _ _ _ _ _ _ _ Ha H4) as (_ & _ & A3 & A4). destruct (A4 Hs) as (T1 & _ & T3). cbn [absorb_loop map fst] in A3.
  set (y' := demean geq rows g (fR y)) in *. set (cols := did_design (fR d) (fR t) (dummies geq g ks)) in *.
  set (m := fun i => group_mean geq rows g (fR y) i + cell_mean rows (fR d) (fR t) y' (toR (d i)) (toR (t i))).
  assert (Re : forall i, In i rows -> r_resid ra i = toR (y i) - m i) by (intros i Hi; rewrite A3 by easy; assert (Ey : y' i = toR (y i) - group_mean geq rows g (fR y) i) by reflexivity; rewrite Ey; unfold m; ring).
  assert (Sm : span rows cols m).
  { apply span_add.
    - set (h := fun k => meanf (fR y) (filter (fun j => keqb geq (g j) k) rows)). apply (group_span geq rows (fR d) (fR t) g k0 ks h Nd Hc).
    - apply (span_wider rows (did_design (fR d) (fR t) [])); [intros c; unfold cols, did_design; cbn [In]; tauto|]. apply (sat_span rows (fR d) (fR t) Zd Zt (fun a b => cell_mean rows (fR d) (fR t) y' a b)). }
  destruct Sm as (b & Lb & Eb).
  assert (Ls : is_ls rows cols (fR y) b).
  { split; [easy|]. apply Forall_forall. intros c Hin.
    assert (X : ip rows c (r_resid ra) = 0).
    { unfold cols, did_design in Hin. assert (Cases : In c (did_design (fR d) (fR t) []) \/ In c (dummies geq g ks)) by (unfold did_design; cbn [In] in *; tauto). clear Hin. destruct Cases as [Hin|Hin].
      - destruct (sat_is_ls rows (fR d) (fR t) Zd Zt y') as [_ F]. rewrite Forall_forall in F. specialize (F c Hin). cbv beta in F. refine (eq_trans _ F). apply ip_ext; [easy|]. intros i Hi. rewrite A3 by easy. f_equal. rewrite (sat_value rows (fR d) (fR t) Zd Zt) by easy.
        destruct (Zd i Hi) as [E|E], (Zt i Hi) as [E'|E']; rewrite E, E', ?Reqb_refl, ?Reqb_01; easy.
      - assert (E : ip rows c (r_resid ra) = ip rows c y' - ip rows c (fun i => cell_mean rows (fR d) (fR t) y' (toR (d i)) (toR (t i)))).
        { rewrite <- ip_sub_r. apply ip_ext; [easy|]. intros i Hi. now rewrite A3. }
        unfold dummies in Hin. apply in_map_iff in Hin. destruct Hin as (k & <- & _).
        assert (Z1 : ip rows (fun i => ind (keqb geq (g i) k)) y' = 0).
        { unfold ip. rewrite <- sumf_filter. unfold y', demean, group_mean. destruct (filter (fun i => keqb geq (g i) k) rows) as [|i0 l] eqn:EF; [easy|]. rewrite <- EF.
          rewrite (sumf_ext _ (fun i => toR (y i) - meanf (fR y) (filter (fun i => keqb geq (g i) k) rows))).
          - apply sumf_dev. rewrite EF. discriminate.
          - intros i Hi. apply filter_In in Hi. destruct Hi as [_ Hi]. apply keqb_true in Hi. now rewrite Hi. }
        rewrite E, Z1. enough (Z2 : ip rows (fun i => ind (keqb geq (g i) k)) (fun i => cell_mean rows (fR d) (fR t) y' (toR (d i)) (toR (t i))) = 0) by lra.
        (* within a group: p times the pre mean plus q times the post mean, which vanishes because each group's demeaned outcomes sum to zero *)
        destruct (filter (fun i => keqb geq (g i) k) rows) as [|i0 l] eqn:EF.
        { unfold ip. rewrite <- sumf_filter, EF. easy. }
        assert (Hi0 : In i0 (filter (fun i => keqb geq (g i) k) rows)) by (rewrite EF; now left). apply filter_In in Hi0. destruct Hi0 as [Hi0 Ek]. apply keqb_true in Ek.
        assert (B' := B). destruct B' as (_ & _ & Hb). destruct (Hb i0 Hi0) as (Hd & Hp & Hq). rewrite Ek in *.
        transitivity (p * cell_mean rows (fR d) (fR t) y' (toR (d i0)) 0 + q * cell_mean rows (fR d) (fR t) y' (toR (d i0)) 1); [|apply (bal_cell_avg geq rows (fR d) (fR t) g p q B (toR (d i0)) (fR y) H4 (Zd i0 Hi0) Zt)].
        rewrite <- Hp, <- Hq. rewrite !len_filter, <- !sumf_scal_r, <- sumf_add. unfold ip. apply sumf_ext. intros i Hi.
        destruct (keqb geq (g i) k) eqn:Ei; cbn [andb]; [|unfold ind; ring]. apply keqb_true in Ei. rewrite (Hd i Hi Ei).
        destruct (Zt i Hi) as [-> | ->]; rewrite ?Reqb_refl, ?Reqb_01, ?Reqb_10; unfold ind; ring. }
    refine (eq_trans _ X). apply ip_ext; [easy|]. intros i Hi. rewrite Re, Eb by easy. easy. }
  assert (Er : forall i, In i rows -> r_resid ra i = r_resid rf i).
  { intros i Hi. rewrite Re, F4, Eb by easy. f_equal. apply (ls_fitted_unique rows cols (fR y)); easy. }
  split; [easy|]. exists (score_ss keq rows (did_q rows (fR d) (fR t)) (r_resid ra) (c_cluster cfg)).
  assert (Q : forall i, In i rows -> did_q rows (fR d) (fR t) i = did_q rows (fR d) (fR t) i) by easy.
  split; [destruct (c_cluster cfg); cbn [score_ss]; apply sumf_nonneg; intros; apply Rle_0_sqr|]. unfold dual_var in *. rewrite S1, T1.
  rewrite (score_ss_ext keq rows _ _ (r_resid rf) (r_resid ra) (c_cluster cfg) Q (fun i Hi => eq_sym (Er i Hi))). easy.
Qed.

(* the dummy fit reports one coefficient fewer than it has columns: the intercept, the arm and the dummies are collinear *)
Lemma balanced_kernel rows (d t : I -> R) g p q k0 ks : zero_one rows d -> zero_one rows t ->
  balanced geq rows d t g p q -> four_cells rows d t -> NoDup (k0 :: ks) -> (forall k, In k (k0 :: ks) <-> In k (map g rows)) ->
  Datatypes.S (length (kept_cols (4 + length ks) (qr rows (did_design d t (dummies geq g ks))))) = (4 + length ks)%nat.
Proof.
  intros Zd Zt (Pp & Pq & Hb) H4 Nd Hks. set (cols := did_design d t (dummies geq g ks)).
  assert (Lc : length cols = (4 + length ks)%nat) by (unfold cols, did_design, dummies; cbn [length]; now rewrite map_length).
  set (dk := fun k => match find (fun j => keqb geq (g j) k) rows with Some j => d j | None => 0 end).
  assert (Edk : forall i, In i rows -> dk (g i) = d i).
  { intros i Hi. unfold dk. destruct (find (fun j => keqb geq (g j) (g i)) rows) as [j|] eqn:E.
    - apply find_some in E. destruct E as [Hj E]. apply keqb_true in E. destruct (Hb i Hi) as (Hd & _). auto.
    - exfalso. assert (X := find_none _ _ E i Hi). cbn in X. rewrite keqb_refl in X. easy. }
  (* each group has a pre row and a post row *)
  assert (Hrow : forall k b, In k (k0 :: ks) -> b = 0 \/ b = 1 -> exists i, In i rows /\ g i = k /\ t i = b).
  { intros k b Hk Hb01. apply Hks in Hk. apply in_map_iff in Hk. destruct Hk as (i & <- & Hi). destruct (Hb i Hi) as (_ & Hp & Hq).
    assert (X : filter (fun j => keqb geq (g j) (g i) && Reqb (t j) b) rows <> []) by (intros X; destruct Hb01; subst b; rewrite X in *; unfold len in *; cbn in *; lra).
    destruct (filter (fun j => keqb geq (g j) (g i) && Reqb (t j) b) rows) as [|j l] eqn:E; [congruence|]. exists j.
    assert (Hj : In j (filter (fun j => keqb geq (g j) (g i) && Reqb (t j) b) rows)) by (rewrite E; now left). apply filter_In in Hj. destruct Hj as [Hj Ej]. apply andb_prop in Ej. destruct Ej as [E1 E2]. apply keqb_true in E1. apply Reqb_true in E2. easy. }
  (* the dummies pick out one entry *)
  assert (Base : forall w i, g i = k0 -> lc (dummies geq g ks) w i = 0).
  { intros w i E. inversion Nd as [|? ? N0 _]; subst. unfold dummies. revert w N0. generalize ks. induction ks0 as [|k l IH]; intros [|x w] N0; cbn [map lc]; try easy. cbn [In] in N0. rewrite IH by tauto. replace (keqb geq (g i) k) with false by (symmetry; apply keqb_false; intuition congruence). unfold ind. ring. }
  assert (Pick : forall w m i, length w = length ks -> (m < length ks)%nat -> g i = nth m ks k0 -> lc (dummies geq g ks) w i = nth m w 0).
  { inversion Nd as [|? ? _ N1]; subst. clear -N1. intros w m i. unfold dummies. revert w m N1. generalize ks. induction ks0 as [|k l IH]; intros [|x w] m N1 L1 L2 E; cbn [length] in *; try lia. inversion N1 as [|? ? Nk Nl]; subst. cbn [map lc].
    destruct m as [|m]; cbn [nth] in *.
    - rewrite E, keqb_refl. assert (Z : lc (map (fun k0 i0 => ind (keqb geq (g i0) k0)) l) w i = 0).
      { rewrite <- E in Nk. clear -Nk. revert w Nk. induction l as [|k' l IH]; intros [|x w] Nk; cbn [map lc]; try easy. cbn [In] in Nk. rewrite IH by tauto. replace (keqb geq (g i) k') with false by (symmetry; apply keqb_false; intuition congruence). unfold ind. ring. }
      rewrite Z. unfold ind. ring.
    - rewrite (IH w m) by (try easy; lia). replace (keqb geq (g i) k) with false; [unfold ind; ring|]. symmetry. apply keqb_false. rewrite E. intros X. apply Nk. rewrite <- X. apply nth_In. lia. }
  rewrite <- Lc.
  apply (one_dropped qr rows cols (- dk k0 :: 1 :: 0 :: 0 :: map (fun k => dk k0 - dk k) ks)); try easy.
  - rewrite Lc. cbn [length]. now rewrite map_length.
  - intros i Hi. unfold cols, did_design. cbn [lc].
    assert (Hg : In (g i) (k0 :: ks)) by (apply Hks; now apply in_map).
    destruct (geq (g i) k0) as [E|E].
    + rewrite Base by easy. rewrite <- (Edk i Hi), E. ring.
    + destruct Hg as [Hg|Hg]; [congruence|]. apply (In_nth _ _ k0) in Hg. destruct Hg as (m & Lm & Em).
      rewrite (Pick _ m) by (rewrite ?map_length; easy). rewrite (nth_map_d (fun k => dk k0 - dk k) ks m k0) by easy. rewrite Em, (Edk i Hi). ring.
  - exists 1%nat. cbn [nth]. lra.
  - intros v Lv Kv. rewrite Lc in Lv. destruct v as [|a0 [|a1 [|a2 [|a3 w]]]]; cbn [length] in Lv; try lia. assert (Lw : length w = length ks) by lia.
    exists a1. unfold cols, did_design in Kv. cbn [lc] in Kv.
    assert (Slope : forall k, In k (k0 :: ks) -> a2 + a3 * dk k = 0).
    { intros k Hk. destruct (Hrow k 0 Hk ltac:(now left)) as (i & Hi & Ei & Ti). destruct (Hrow k 1 Hk ltac:(now right)) as (j & Hj & Ej & Tj).
      assert (Ki := Kv i Hi). assert (Kj := Kv j Hj). rewrite Ti in Ki. rewrite Tj in Kj. rewrite <- (Edk i Hi), Ei in Ki. rewrite <- (Edk j Hj), Ej in Kj.
      assert (El : lc (dummies geq g ks) w i = lc (dummies geq g ks) w j).
      { destruct (geq k k0) as [->|Ne]; [now rewrite !Base|]. destruct Hk as [Hk|Hk]; [congruence|]. apply (In_nth _ _ k0) in Hk. destruct Hk as (m & Lm & Em). now rewrite !(Pick w m) by congruence. }
      lra. }
    assert (Arm : forall a, a = 0 \/ a = 1 -> a2 + a3 * a = 0).
    { intros a Ha. assert (Hne : cell rows d t a 0 <> []) by (destruct H4 as (H00 & _ & H10 & _); destruct Ha as [-> | ->]; easy).
      destruct (cell rows d t a 0) as [|i l] eqn:E; [congruence|]. assert (Hi : In i (cell rows d t a 0)) by (rewrite E; now left). apply cell_in in Hi. destruct Hi as (Hi & Ed & _).
      rewrite <- Ed, <- (Edk i Hi). apply Slope. apply Hks. now apply in_map. }
    assert (A2 : a2 = 0) by (specialize (Arm 0 ltac:(now left)); lra). assert (A3 : a3 = 0) by (specialize (Arm 1 ltac:(now right)); lra). subst a2 a3.
    assert (A0 : a0 = - a1 * dk k0).
    { destruct (Hrow k0 0 ltac:(now left) ltac:(now left)) as (i & Hi & Ei & Ti). assert (Ki := Kv i Hi). rewrite Base, <- (Edk i Hi), Ei in Ki by easy. lra. }
    intros [|[|[|[|m]]]]; cbn [nth]; try lra.
    destruct (Nat.lt_ge_cases m (length ks)) as [Lm|Lm].
    + destruct (Hrow (nth m ks k0) 0 ltac:(right; now apply nth_In) ltac:(now left)) as (i & Hi & Ei & Ti). assert (Ki := Kv i Hi). rewrite (Pick w m i Lw Lm Ei), <- (Edk i Hi), Ei in Ki.
      rewrite (nth_map_d (fun k => dk k0 - dk k) ks m k0) by easy. lra.
    + rewrite !nth_overflow by (rewrite ?map_length; lia). ring.
Qed.

(* the dummy fit counts N + 2 parameters for N groups, the absorb fit four *)
Theorem balanced_count cfg rows y d t g p q rf k0 ks :
  balanced geq rows (fR d) (fR t) g p q -> four_cells rows (fR d) (fR t) ->
  NoDup (k0 :: ks) -> (forall k, In k (k0 :: ks) <-> In k (map g rows)) ->
  fit cfg rows y d t [] (dummies geq g ks) [] = Ok rf -> n_reported (r_coef rf) = (length (k0 :: ks) + 2)%nat.
Proof.
  intros B H4 Nd Hks Hf. destruct (did_fit_inv _ _ _ _ _ _ _ _ _ _ _ _ _ _ _ _ _ Hf) as (_ & _ & _ & _ & Zd & Zt & _).
  assert (D : dual rows (did_design (fR d) (fR t) ([] ++ dummies geq g ks)) 3 (did_q rows (fR d) (fR t))).
  { apply did_q_is_dual; try easy. intros c Hin. apply (bal_did0 geq rows _ _ g p q B); [easy|]. cbn [app] in Hin. unfold dummies in Hin. apply in_map_iff in Hin. destruct Hin as (k & <- & _). intros i j _ _ E. now rewrite E. }
  destruct (did_fit_dual _ _ _ _ _ _ _ _ _ _ _ _ _ Hf eq_refl D) as (_ & _ & _ & _ & ->). cbn [app map].
  assert (L : length (did_design (fR d) (fR t) (dummies geq g ks)) = (4 + length ks)%nat) by (unfold did_design, dummies; cbn [length]; now rewrite map_length).
  rewrite L. assert (X := balanced_kernel rows (fR d) (fR t) g p q k0 ks Zd Zt B H4 Nd Hks). cbn [length]. lia.
Qed.

(* so the squared standard errors are in the ratio (n - 4) : (n - N - 2) *)
Theorem balanced_ratio cfg rows y d t g p q ra rf k0 ks :
  balanced geq rows (fR d) (fR t) g p q -> four_cells rows (fR d) (fR t) ->
  NoDup (k0 :: ks) -> (forall k, In k (k0 :: ks) <-> In k (map g rows)) -> sandwiched cfg ->
  fit cfg rows y d t [] [] [g] = Ok ra -> fit cfg rows y d t [] (dummies geq g ks) [] = Ok rf ->
  exists sa sf, r_se ra = Fin sa /\ r_se rf = Fin sf /\ 0 <= sa /\ 0 <= sf /\
    len (k0 :: ks) + 2 < len rows /\
    sf * sf * (len rows - (len (k0 :: ks) + 2)) = sa * sa * (len rows - 4).
Proof.
  intros B H4 Nd Hks Hs Ha Hf.
  assert (Hc : forall i, In i rows -> In (g i) (k0 :: ks)) by (intros i Hi; apply Hks; now apply in_map).
  destruct (balanced_se cfg rows y d t g p q ra rf k0 ks B H4 Nd Hc Hs Ha Hf) as (_ & s & Ps & Ea & Ef & L4 & Lk).
  rewrite (balanced_count cfg rows y d t g p q rf k0 ks B H4 Nd Hks Hf) in Ef, Lk.
  apply lt_INR in L4. apply lt_INR in Lk. rewrite plus_INR in Lk. change (INR 2) with 2 in Lk. replace (INR 4) with 4 in L4 by (simpl; lra).
  exists (sqrt (adj_k keq rows 4 (c_cluster cfg) * s)), (sqrt (adj_k keq rows (length (k0 :: ks) + 2) (c_cluster cfg) * s)).
  do 2 (split; [easy|]). do 2 (split; [apply sqrt_pos|]). unfold len at 1 2. split; [easy|].
  assert (F : forall k, INR k < INR (length rows) -> exists c, 0 <= c /\ (forall k, INR k < INR (length rows) -> adj_k keq rows k (c_cluster cfg) * s = c / (INR (length rows) - INR k))).
  { intros k _. destruct (c_cluster cfg) as [cl|] eqn:Ecl; cbn [adj_k].
    - set (Gn := INR (length (cl_keys keq rows cl))). exists (Gn / (Gn - 1) * (INR (length rows) - 1) * s). split.
      + assert (P1 : 0 <= Gn / (Gn - 1) * (INR (length rows) - 1)); [|now apply Rmult_le_pos].
        apply Rmult_le_pos; [|lra]. destruct (length (cl_keys keq rows cl)) as [|[|m]] eqn:El; unfold Gn; cbn [INR].
        * unfold Rdiv. lra.
        * replace (1 - 1) with 0 by ring. unfold Rdiv. rewrite Rinv_0. lra.
        * assert (Pm := pos_INR m). destruct m; [cbn [INR]; apply Rmult_le_pos; [lra|left; apply Rinv_0_lt_compat; lra]|].
          apply Rmult_le_pos; [lra|left; apply Rinv_0_lt_compat; lra].
      + intros k1 H1. unfold Rdiv. ring.
    - exists (INR (length rows) * s). split; [apply Rmult_le_pos; [apply pos_INR|easy]|]. intros k1 H1. unfold Rdiv. ring. }
  destruct (F 4%nat ltac:(simpl; lra)) as (c & Pc & Ec). rewrite (Ec 4%nat) by (simpl; lra). rewrite (Ec (length (k0 :: ks) + 2)%nat) by (rewrite plus_INR; change (INR 2) with 2; lra).
  rewrite plus_INR. change (INR 2) with 2. replace (INR 4) with 4 by (simpl; lra). unfold len.
  set (n := INR (length rows)) in *. set (N := INR (length (k0 :: ks))) in *. clearbody n N.
  rewrite !sqrt_sqrt by (apply Rmult_le_pos; [easy|left; apply Rinv_0_lt_compat; lra]). field. lra.
Qed.

(* two rows per group: the dummy standard error is the square root of two times the absorb standard error *)
Theorem two_row_ratio cfg rows y d t g p q ra rf k0 ks :
  balanced geq rows (fR d) (fR t) g p q -> four_cells rows (fR d) (fR t) ->
  NoDup (k0 :: ks) -> (forall k, In k (k0 :: ks) <-> In k (map g rows)) -> sandwiched cfg -> len rows = 2 * len (k0 :: ks) ->
  fit cfg rows y d t [] [] [g] = Ok ra -> fit cfg rows y d t [] (dummies geq g ks) [] = Ok rf ->
  exists sa, 0 <= sa /\ r_se ra = Fin sa /\ r_se rf = Fin (sqrt 2 * sa).
Proof.
  intros B H4 Nd Hks Hs E2 Ha Hf. destruct (balanced_ratio cfg rows y d t g p q ra rf k0 ks B H4 Nd Hks Hs Ha Hf) as (sa & sf' & Ea & Ef & Pa & Pf & Ln & Er).
  exists sa. do 2 (split; [easy|]). rewrite Ef. apply (f_equal Fin). apply Rsqr_inj; [easy|apply Rmult_le_pos; [apply sqrt_pos|easy]|]. unfold Rsqr.
  replace (sqrt 2 * sa * (sqrt 2 * sa)) with ((sqrt 2 * sqrt 2) * (sa * sa)) by ring. rewrite sqrt_sqrt by lra. rewrite E2 in *.
  set (N := len (k0 :: ks)) in *. clearbody N. apply (Rmult_eq_reg_r (N - 2)); [|lra]. replace (2 * N - (N + 2)) with (N - 2) in Er by ring. rewrite Er. ring.
Qed.
End Fit.

(* Proofs about TripleDifference. *)
From Verif Require Import Prelude Flt Stats_model Stats_proofs Linalg_model Linalg_proofs Linalg_vcov Linalg_thms
  Did_model Did_spec Did_proofs Multi_model Triple_model.
From Coq Require Import Arith ZArith String List.
Import ListNotations.
Open Scope R_scope.

(* Specification: the difference-in-differences among the eligible minus that among the ineligible. *)
Definition part {I} (rows : list I) (P : I -> R) (p : R) : list I := filter (fun i => Reqb (P i) p) rows.
Definition ddd_of_dids {I} (rows : list I) (G P T y : I -> R) : R :=
  did_of_means (part rows P 1) G T y - did_of_means (part rows P 0) G T y.
Definition eight_cells {I} (rows : list I) (G P T : I -> R) : Prop :=
  four_cells (part rows P 1) G T /\ four_cells (part rows P 0) G T.
Definition cells_var {I} (rows : list I) (G T y : I -> R) : R :=
  cell_var rows G T y 0 0 + cell_var rows G T y 0 1 + cell_var rows G T y 1 0 + cell_var rows G T y 1 1.
(* heteroskedasticity-robust variance of eight independent means, with n/(n-8) *)
Definition ddd_hc1 {I} (rows : list I) (G P T y : I -> R) : R :=
  len rows / (len rows - 8) * (cells_var (part rows P 1) G T y + cells_var (part rows P 0) G T y).

Lemma filter_filter {A} (p q : A -> bool) l : filter p (filter q l) = filter (fun x => q x && p x) l.
Proof. induction l as [|a l IH]; simpl; auto. destruct (q a) eqn:E; simpl; rewrite IH; auto. Qed.

Section Cells.
Context {I : Type}.
Variables (rows : list I) (G P T : I -> R).

Lemma cell8_part g p t : cell8 rows G P T g p t = cell (part rows P p) G T g t.
Proof.
  unfold cell8, cell, part. rewrite filter_filter. apply filter_ext. intros i.
  destruct (Reqb (G i) g), (Reqb (P i) p), (Reqb (T i) t); reflexivity.
Qed.

Lemma cell8_in g p t i : In i (cell8 rows G P T g p t) <-> In i rows /\ G i = g /\ P i = p /\ T i = t.
Proof. unfold cell8. rewrite filter_In, !Bool.andb_true_iff, !Reqb_true. tauto. Qed.

Lemma eight_ne : eight_cells rows G P T ->
  forall g p t, (g = 0 \/ g = 1) -> (p = 0 \/ p = 1) -> (t = 0 \/ t = 1) -> cell8 rows G P T g p t <> [].
Proof.
  intros [(H1 & H2 & H3 & H4) (H5 & H6 & H7 & H8)] g p t [->| ->] [->| ->] [->| ->]; rewrite cell8_part; assumption.
Qed.

Hypothesis HG : zero_one rows G.
Hypothesis HP : zero_one rows P.
Hypothesis HT : zero_one rows T.

Lemma part_01 p x : zero_one rows x -> zero_one (part rows P p) x.
Proof. intros H i Hi. apply filter_In in Hi. apply H; tauto. Qed.

Lemma part_sum f : sumf f rows = sumf f (part rows P 0) + sumf f (part rows P 1).
Proof.
  unfold part. clear HG HT. revert HP. induction rows as [|i l IH]; intros H; simpl; [lra|].
  rewrite IH by (intros j Hj; apply H; simpl; auto).
  destruct (H i (or_introl eq_refl)) as [->| ->]; rewrite ?Reqb_refl, ?Reqb_01, ?Reqb_10; simpl; lra.
Qed.

Lemma cell8_sum f : sumf f rows =
  sumf f (cell8 rows G P T 0 0 0) + sumf f (cell8 rows G P T 0 0 1) + sumf f (cell8 rows G P T 1 0 0) + sumf f (cell8 rows G P T 1 0 1)
  + (sumf f (cell8 rows G P T 0 1 0) + sumf f (cell8 rows G P T 0 1 1) + sumf f (cell8 rows G P T 1 1 0) + sumf f (cell8 rows G P T 1 1 1)).
Proof.
  rewrite !cell8_part, part_sum.
  rewrite (cell_sum_gen (part rows P 0) G T f) by (apply part_01; auto).
  rewrite (cell_sum_gen (part rows P 1) G T f) by (apply part_01; auto). lra.
Qed.

Lemma cell8_const f g p t c :
  (forall i, In i rows -> G i = g -> P i = p -> T i = t -> f i = c) ->
  sumf f (cell8 rows G P T g p t) = len (cell8 rows G P T g p t) * c.
Proof.
  intros H. rewrite <- sumf_const. apply sumf_ext. intros i Hi. apply cell8_in in Hi. apply H; tauto.
Qed.

Lemma ddd_comb_dids y : ddd_comb (fun g p t => meanf y (cell8 rows G P T g p t)) = ddd_of_dids rows G P T y.
Proof.
  unfold ddd_comb, ddd_of_dids, did_of_means, cell_mean. rewrite !cell8_part. ring.
Qed.

Notation design := (ddd_design G P T []).

Definition h_fit (h : R -> R -> R -> R) : list R :=
  [h 0 0 0; h 1 0 0 - h 0 0 0; h 0 1 0 - h 0 0 0; h 0 0 1 - h 0 0 0;
   h 1 1 0 - h 1 0 0 - h 0 1 0 + h 0 0 0;
   h 1 0 1 - h 1 0 0 - h 0 0 1 + h 0 0 0;
   h 0 1 1 - h 0 1 0 - h 0 0 1 + h 0 0 0;
   ddd_comb h].

Lemma h_value h i : In i rows -> lc design (h_fit h) i = h (G i) (P i) (T i).
Proof.
  intros Hi. unfold h_fit, ddd_comb. simpl.
  destruct (HG i Hi) as [->| ->], (HP i Hi) as [->| ->], (HT i Hi) as [->| ->]; ring.
Qed.

Lemma h_span h : span rows design (fun i => h (G i) (P i) (T i)).
Proof. exists (h_fit h). split; [reflexivity|]. intros i Hi. rewrite h_value by auto. reflexivity. Qed.

Lemma design_h c : In c design -> exists h, forall i, c i = h (G i) (P i) (T i).
Proof.
  simpl. intros [<-|[<-|[<-|[<-|[<-|[<-|[<-|[<-|[]]]]]]]]].
  - exists (fun _ _ _ => 1); auto.
  - exists (fun g _ _ => g); auto.
  - exists (fun _ p _ => p); auto.
  - exists (fun _ _ t => t); auto.
  - exists (fun g p _ => g * p); auto.
  - exists (fun g _ t => g * t); auto.
  - exists (fun _ p t => p * t); auto.
  - exists (fun g p t => g * p * t); auto.
Qed.

Definition m8 (y : I -> R) (g p t : R) : R := meanf y (cell8 rows G P T g p t).

Lemma cell8_dev y g p t : sumf (fun i => y i - m8 y g p t) (cell8 rows G P T g p t) = 0.
Proof.
  unfold m8. destruct (cell8 rows G P T g p t) as [|i l] eqn:E; [reflexivity|]. apply sumf_dev. discriminate.
Qed.

Lemma ddd_is_ls y : is_ls rows design y (h_fit (m8 y)).
Proof.
  split; [reflexivity|]. apply Forall_forall. intros c Hc.
  destruct (design_h c Hc) as [h Hh]. unfold ip. rewrite cell8_sum.
  assert (Hz : forall g p t, sumf (fun i => c i * (y i - lc design (h_fit (m8 y)) i)) (cell8 rows G P T g p t) = 0).
  { intros g p t. rewrite (sumf_ext _ (fun i => h g p t * (y i - m8 y g p t))).
    - rewrite sumf_scal, cell8_dev. ring.
    - intros i Hi. apply cell8_in in Hi. destruct Hi as (Hi & Eg & Ep & Et).
      rewrite Hh, h_value by auto. rewrite Eg, Ep, Et. reflexivity. }
  rewrite !Hz. ring.
Qed.

Lemma ddd_indep : eight_cells rows G P T -> indep rows design.
Proof.
  intros He a La Ha.
  assert (Hex : forall g p t, (g = 0 \/ g = 1) -> (p = 0 \/ p = 1) -> (t = 0 \/ t = 1) ->
     exists i, In i rows /\ G i = g /\ P i = p /\ T i = t).
  { intros g p t A B C. pose proof (eight_ne He g p t A B C) as Hn.
    destruct (cell8 rows G P T g p t) as [|i l] eqn:E; [congruence|]. exists i.
    apply cell8_in. rewrite E. simpl; auto. }
  destruct a as [|b0 [|b1 [|b2 [|b3 [|b4 [|b5 [|b6 [|b7 [|]]]]]]]]]; try discriminate.
  assert (E : forall g p t, (g = 0 \/ g = 1) -> (p = 0 \/ p = 1) -> (t = 0 \/ t = 1) ->
    b0 + b1 * g + b2 * p + b3 * t + b4 * (g * p) + b5 * (g * t) + b6 * (p * t) + b7 * (g * p * t) = 0).
  { intros g p t A B C. destruct (Hex g p t A B C) as (i & Hi & Eg & Ep & Et).
    pose proof (Ha i Hi) as E. simpl in E. rewrite Eg, Ep, Et in E. lra. }
  assert (H0 : (0 = 0 \/ 0 = 1)) by (left; reflexivity). assert (H1 : (1 = 0 \/ 1 = 1)) by (right; reflexivity).
  pose proof (E 0 0 0 H0 H0 H0). pose proof (E 0 0 1 H0 H0 H1). pose proof (E 0 1 0 H0 H1 H0). pose proof (E 0 1 1 H0 H1 H1).
  pose proof (E 1 0 0 H1 H0 H0). pose proof (E 1 0 1 H1 H0 H1). pose proof (E 1 1 0 H1 H1 H0). pose proof (E 1 1 1 H1 H1 H1).
  simpl. repeat f_equal; lra.
Qed.

(* the dual vector of the triple interaction: +-1/n_cell *)
Definition sgn3 (g p t : R) : R := (2 * g - 1) * (2 * p - 1) * (2 * t - 1).
Definition ddd_q (i : I) : R := sgn3 (G i) (P i) (T i) / len (cell8 rows G P T (G i) (P i) (T i)).

Lemma ddd_q_dual B : eight_cells rows G P T -> is_inverse rows design B ->
  forall i, In i rows -> qcol design B 7 i = ddd_q i.
Proof.
  intros He HB. apply (qcol_unique rows design B 7); auto.
  - apply (h_span (fun g p t => sgn3 g p t / len (cell8 rows G P T g p t))).
  - assert (L : forall g p t, (g = 0 \/ g = 1) -> (p = 0 \/ p = 1) -> (t = 0 \/ t = 1) -> len (cell8 rows G P T g p t) <> 0).
    { intros g p t A C D. pose proof (len_pos _ (eight_ne He g p t A C D)). lra. }
    assert (Hcell : forall h : R -> R -> R -> R, ip rows (fun i => h (G i) (P i) (T i)) ddd_q = ddd_comb h).
    { intros h. unfold ip. rewrite cell8_sum.
      assert (Hc : forall g p t, (g = 0 \/ g = 1) -> (p = 0 \/ p = 1) -> (t = 0 \/ t = 1) ->
         sumf (fun i => h (G i) (P i) (T i) * ddd_q i) (cell8 rows G P T g p t) = sgn3 g p t * h g p t).
      { intros g p t A C D. rewrite (cell8_const _ g p t (h g p t * (sgn3 g p t / len (cell8 rows G P T g p t)))).
        - field. apply L; auto.
        - intros i _ Eg Ep Et. unfold ddd_q. rewrite Eg, Ep, Et. reflexivity. }
      rewrite !Hc by auto. unfold sgn3, ddd_comb. ring. }
    intros a Ha. simpl in Ha.
    destruct a as [|[|[|[|[|[|[|[|a]]]]]]]]; [| | | | | | | |lia].
    + change (colx design 0) with (fun i => (fun _ _ _ : R => 1) (G i) (P i) (T i)). rewrite Hcell. unfold ddd_comb; simpl; ring.
    + change (colx design 1) with (fun i => (fun g _ _ : R => g) (G i) (P i) (T i)). rewrite Hcell. unfold ddd_comb; simpl; ring.
    + change (colx design 2) with (fun i => (fun _ p _ : R => p) (G i) (P i) (T i)). rewrite Hcell. unfold ddd_comb; simpl; ring.
    + change (colx design 3) with (fun i => (fun _ _ t : R => t) (G i) (P i) (T i)). rewrite Hcell. unfold ddd_comb; simpl; ring.
    + change (colx design 4) with (fun i => (fun g p _ : R => g * p) (G i) (P i) (T i)). rewrite Hcell. unfold ddd_comb; simpl; ring.
    + change (colx design 5) with (fun i => (fun g _ t : R => g * t) (G i) (P i) (T i)). rewrite Hcell. unfold ddd_comb; simpl; ring.
    + change (colx design 6) with (fun i => (fun _ p t : R => p * t) (G i) (P i) (T i)). rewrite Hcell. unfold ddd_comb; simpl; ring.
    + change (colx design 7) with (fun i => (fun g p t : R => g * p * t) (G i) (P i) (T i)). rewrite Hcell. unfold ddd_comb; simpl; ring.
Qed.

Lemma ddd_hc1_closed y B b : eight_cells rows G P T -> is_inverse rows design B -> is_ls rows design y b ->
  sandwich 8 (INR (length rows) / (INR (length rows) - 8)) B
     (hc1_meat rows design (fun i => y i - lc design b i)) 7 7 = ddd_hc1 rows G P T y.
Proof.
  intros He HB Hb. change 8%nat with (length design). rewrite hc1_dual. unfold ddd_hc1, len at 1 2. f_equal.
  rewrite (sumf_ext _ (fun i => ddd_q i * ddd_q i * ((y i - lc design b i) * (y i - lc design b i)))).
  2:{ intros i Hi. rewrite (ddd_q_dual B He HB i Hi). ring. }
  rewrite cell8_sum.
  assert (Hc : forall g p t, (g = 0 \/ g = 1) -> (p = 0 \/ p = 1) -> (t = 0 \/ t = 1) ->
     sumf (fun i => ddd_q i * ddd_q i * ((y i - lc design b i) * (y i - lc design b i))) (cell8 rows G P T g p t)
     = cell_var (part rows P p) G T y g t).
  { intros g p t A C D. unfold cell_var, cell_mean. rewrite <- cell8_part.
    pose proof (len_pos _ (eight_ne He g p t A C D)) as HL.
    rewrite (sumf_ext _ (fun i => (y i - m8 y g p t) * (y i - m8 y g p t)
                                  * / (len (cell8 rows G P T g p t) * len (cell8 rows G P T g p t)))).
    - rewrite sumf_scal_r. reflexivity.
    - intros i Hi. apply cell8_in in Hi. destruct Hi as (Hi & Eg & Ep & Et).
      rewrite (ls_fitted_unique rows design y b _ Hb (ddd_is_ls y) i Hi), h_value by auto.
      unfold ddd_q. rewrite Eg, Ep, Et.
      assert (Hs : sgn3 g p t * sgn3 g p t = 1).
      { unfold sgn3. destruct A as [->| ->], C as [->| ->], D as [->| ->]; ring. }
      transitivity (sgn3 g p t * sgn3 g p t * ((y i - m8 y g p t) * (y i - m8 y g p t) *
         / (len (cell8 rows G P T g p t) * len (cell8 rows G P T g p t)))); [field; lra|]. rewrite Hs. ring. }
  rewrite !Hc by auto. unfold cells_var. ring.
Qed.

End Cells.

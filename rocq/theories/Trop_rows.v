(* TROP: the data frame enters only through the pivoted matrices. *)
From Verif Require Import Prelude Flt Multi_model Multi_proofs Trop_model Trop_proofs Trop_thms Trop_conv Trop_rec.
From Coq Require Import Arith ZArith String List FunctionalExtensionality Permutation.
Import ListNotations.
Open Scope R_scope.

Lemma zsorted_eq (a : list Z) : forall b, zsorted a -> zsorted b -> Permutation a b -> a = b.
Proof.
  induction a as [|x a IH]; intros b Ha Hb P.
  - now apply Permutation_nil in P.
  - destruct b as [|y b]; [apply Permutation_sym, Permutation_nil in P; easy|]. cbn [zsorted] in Ha, Hb. destruct Ha as [Ha1 Ha2], Hb as [Hb1 Hb2].
    assert (E : x = y).
    { assert (Hx : In x (y :: b)) by (eapply Permutation_in; [exact P|now left]). assert (Hy : In y (x :: a)) by (eapply Permutation_in; [apply Permutation_sym, P|now left]).
      destruct Hx as [->|Hx]; [easy|]. destruct Hy as [->|Hy]; [easy|]. specialize (Ha1 y Hy). specialize (Hb1 x Hx). lia. }
    subst y. f_equal. apply IH; auto. now apply Permutation_cons_inv in P.
Qed.
Lemma zsort_nodup_perm (l m : list Z) : Permutation l m -> zsort (nodup Z.eq_dec l) = zsort (nodup Z.eq_dec m).
Proof.
  intros P. apply zsorted_eq; try apply zsort_sorted. rewrite !zsort_perm. apply NoDup_Permutation; try apply NoDup_nodup.
  intros x. rewrite !nodup_In. split; apply Permutation_in; [exact P|apply Permutation_sym, P].
Qed.
Lemma perm_filter {A} (f : A -> bool) l m : Permutation l m -> Permutation (filter f l) (filter f m).
Proof.
  induction 1; simpl; auto.
  - destruct (f x); auto.
  - destruct (f x), (f y); auto. apply perm_swap.
  - eapply perm_trans; eauto.
Qed.
Lemma perm_short {A} (l m : list A) : Permutation l m -> (length l <= 1)%nat -> l = m.
Proof.
  intros P H. destruct l as [|x [|y l]]; simpl in H; [| |lia].
  - now apply Permutation_nil in P.
  - now apply Permutation_length_1_inv in P.
Qed.
Lemma perm_existsb {A} (f : A -> bool) l m : Permutation l m -> existsb f l = existsb f m.
Proof.
  intros P. apply Bool.eq_true_iff_eq. rewrite !existsb_exists. split; intros (x & Hx & E); exists x; split; auto; [|apply Permutation_sym in P]; eapply Permutation_in; eauto.
Qed.

Section Rows.
Context {I : Type}.
Variables (rows rows' : list I) (u tm : I -> Z) (y : I -> option R) (d : I -> option Z).
Hypothesis P : Permutation rows rows'.
Lemma units_perm : t_units rows u = t_units rows' u. Proof. apply zsort_nodup_perm, Permutation_map, P. Qed.
Lemma periods_perm : t_periods rows tm = t_periods rows' tm. Proof. apply zsort_nodup_perm, Permutation_map, P. Qed.
Lemma at_cell_perm p x : Permutation (at_cell rows u tm p x) (at_cell rows' u tm p x). Proof. apply perm_filter, P. Qed.
Lemma pdup_perm : pdup rows u tm = pdup rows' u tm.
Proof.
  unfold pdup. rewrite (perm_existsb _ _ _ P). induction rows' as [|r l IH] at 1 3; [easy|]. cbn [existsb]. f_equal; [|exact IH].
  now rewrite (Permutation_length (at_cell_perm (tm r) (u r))).
Qed.
Lemma pdup_short : pdup rows u tm = false <-> forall p x, (length (at_cell rows u tm p x) <= 1)%nat.
Proof.
  unfold pdup. split.
  - intros H p x. destruct (at_cell rows u tm p x) as [|r l] eqn:E; [simpl; lia|].
    assert (Hr : In r (at_cell rows u tm p x)) by (rewrite E; now left). unfold at_cell in Hr. apply filter_In in Hr. destruct Hr as [Hr Hk].
    apply andb_true_iff in Hk. destruct Hk as [K1 K2]. apply Z.eqb_eq in K1, K2.
    destruct (Nat.le_gt_cases (length (r :: l)) 1) as [|G]; [easy|exfalso].
    assert (B : existsb (fun r => (1 <? length (at_cell rows u tm (tm r) (u r)))%nat) rows = true).
    { apply existsb_exists. exists r. split; [easy|]. rewrite K1, K2, E. now apply Nat.ltb_lt. }
    congruence.
  - intros H. apply Bool.not_true_iff_false. intros B. apply existsb_exists in B. destruct B as (r & _ & B). apply Nat.ltb_lt in B. specialize (H (tm r) (u r)). lia.
Qed.
Lemma cell_row_perm : pdup rows u tm = false -> cell_row rows u tm = cell_row rows' u tm.
Proof.
  intros H. apply functional_extensionality; intros t; apply functional_extensionality; intros i. unfold cell_row. rewrite <- units_perm, <- periods_perm.
  f_equal. apply perm_short; [apply at_cell_perm|]. now apply pdup_short.
Qed.
Theorem fit_rows_perm svd sub odd sf ppf cfg name draws :
  trop_fit_rows svd sub odd sf ppf cfg rows u tm y d name draws = trop_fit_rows svd sub odd sf ppf cfg rows' u tm y d name draws.
Proof.
  unfold trop_fit_rows. rewrite <- pdup_perm. destruct (pdup rows u tm) eqn:E; [easy|].
  unfold pY, pD, pmiss. rewrite <- (cell_row_perm E), <- units_perm, <- periods_perm. now rewrite (Permutation_length P).
Qed.
End Rows.

Section RowsRec.
Context {I : Type}.
Variables (rows : list I) (u tm : I -> Z) (y : I -> option R) (d : I -> option Z).
Lemma cell_row_spec t i r : cell_row rows u tm t i = Some r -> In r rows /\ u r = nth i (t_units rows u) 0%Z /\ tm r = nth t (t_periods rows tm) 0%Z.
Proof.
  unfold cell_row. intros H. assert (Hi : In r (at_cell rows u tm (nth t (t_periods rows tm) 0%Z) (nth i (t_units rows u) 0%Z))).
  { destruct (at_cell _ _ _ _ _); [easy|]. injection H as ->. now left. }
  apply filter_In in Hi. destruct Hi as [Hr Hk]. apply andb_true_iff in Hk. rewrite !Z.eqb_eq in Hk. tauto.
Qed.
(* outcomes of the data frame: unit effect + period effect (+ effect when treated) *)
Definition rows_additive (a b : Z -> R) (eff : I -> R) : Prop := forall r v, In r rows -> y r = Some v ->
  v = a (u r) + b (tm r) + (if match d r with Some z => (z =? 1)%Z | None => false end then eff r else 0).
Lemma rows_additive_panel a b eff : rows_additive a b eff ->
  additive (length (t_periods rows tm)) (length (t_units rows u)) (pY rows u tm y) (pD rows u tm d)
    (fun i => a (nth i (t_units rows u) 0%Z)) (fun t => b (nth t (t_periods rows tm) 0%Z))
    (fun t i => match cell_row rows u tm t i with Some r => eff r | None => 0 end).
Proof.
  intros H t i v _ _. unfold pY, pD. destruct (cell_row rows u tm t i) as [r|] eqn:E; [|easy]. intros Hv.
  destruct (cell_row_spec _ _ _ E) as (Hr & E1 & E2). specialize (H r v Hr Hv). rewrite E1, E2 in H. rewrite H.
  split; intros K; destruct (d r) as [z|]; try discriminate; [subst z|..|subst z]; cbn; ring.
Qed.
Theorem fit_rows_recovers svd sub odd sf ppf cfg name draws res a b eff A lo hi k :
  svd_ok svd -> trop_fit_rows svd sub odd sf ppf cfg rows u tm y d name draws = TOk res -> rows_additive a b eff ->
  let T := length (t_periods rows tm) in let N := length (t_units rows u) in
  let Y := pY rows u tm y in let D := pD rows u tm d in
  (0 < n_full T N Y D)%nat ->
  (forall t i, (t < T)%nat -> (i < N)%nat -> D t i = 1%Z -> has Y t i = true /\ exists s, (s < T)%nat /\ D s i = 0%Z /\ has Y s i = true) ->
  (forall r s, In r rows -> In s rows -> Rabs (a (u r) - a (u s)) <= A) -> (forall s, In s rows -> lo <= b (tm s) <= hi) ->
  tc_maxit cfg = S k -> 0 <= tc_tol cfg -> 0 <= conv_w (snd (fst (tr_lambda res))) -> off T N (Some (conv_nn (snd (tr_lambda res)))) (hi - lo) ->
  let share := INR (n_full T N Y D) * exp (- conv_w (snd (fst (tr_lambda res))) * A) / INR N in
  exists x, tr_att res = Fin x /\
    Rabs (x - meanf (fun c => match cell_row rows u tm (fst c) (snd c) with Some r => eff r | None => 0 end) (treated_obs T N D))
      <= Rmax ((1 - share) ^ k * (hi - lo)) (2 * tc_tol cfg / share).
Proof.
  intros Hs Hfit Hadd T N Y D Hf Htr HA Hb Hk Htol Hl Ho share. unfold trop_fit_rows in Hfit. destruct (pdup rows u tm); [easy|].
  assert (U : forall i, (i < N)%nat -> exists r, In r rows /\ u r = nth i (t_units rows u) 0%Z).
  { intros i Hi. assert (Hin := nth_In (t_units rows u) 0%Z Hi). unfold t_units in Hin at 2. rewrite zsort_In, nodup_In in Hin. apply in_map_iff in Hin.
    destruct Hin as (r & E & Hr). exists r. now split. }
  assert (V : forall t, (t < T)%nat -> exists r, In r rows /\ tm r = nth t (t_periods rows tm) 0%Z).
  { intros t Ht. assert (Hin := nth_In (t_periods rows tm) 0%Z Ht). unfold t_periods in Hin at 2. rewrite zsort_In, nodup_In in Hin. apply in_map_iff in Hin.
    destruct Hin as (r & E & Hr). exists r. now split. }
  refine (fit_recovers svd sub odd sf ppf Hs cfg T N (length rows) Y D (pmiss rows u tm d) name draws res _ _ _ A lo hi k
    Hfit (rows_additive_panel a b eff Hadd) Hf Htr _ _ Hk Htol Hl Ho).
  - intros i j Hi Hj. destruct (U i Hi) as (r & Hr & <-), (U j Hj) as (s & Hss & <-). auto.
  - intros t Ht. destruct (V t Ht) as (r & Hr & <-). auto.
Qed.
End RowsRec.

(* a bootstrap sample contains exactly the drawn units, as often as they were drawn *)
Lemma sinsert_perm x l : Permutation (sinsert x l) (x :: l).
Proof. induction l as [|z l IH]; simpl; auto. destruct (String.leb (fst x) (fst z)); auto. rewrite IH. apply perm_swap. Qed.
Lemma lsort_perm l : Permutation (lsort l) l.
Proof. induction l as [|x l IH]; simpl; auto. rewrite sinsert_perm. auto. Qed.
Lemma labels_snd name smp : forall k, map snd (labels name k smp) = smp.
Proof. induction smp as [|x l IH]; intros k; simpl; [easy|]. now rewrite IH. Qed.
Theorem boot_cols_perm name smp : Permutation (boot_cols name smp) smp.
Proof. unfold boot_cols. rewrite lsort_perm, labels_snd. reflexivity. Qed.

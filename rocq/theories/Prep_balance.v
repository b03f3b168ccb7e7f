(* balance_panel: proofs. *)
From Verif Require Import Prelude Flt Prep_model Prep_proofs.
From Coq Require Import Arith ZArith String List Bool Lia Permutation Sorting.Sorted.
Import ListNotations.
Open Scope Z_scope.

Section B.
Context {C V : Type}.
Notation obs := (obs C V).
Implicit Types (data : list obs) (o : obs).

Lemma of_unit_in u data o : In o (of_unit u data) <-> In o data /\ o_unit o = u.
Proof. unfold of_unit. rewrite filter_In, Z.eqb_eq. tauto. Qed.
Lemma cell_rows_in u t data o : In o (cell_rows data u t) <-> In o data /\ o_unit o = u /\ o_time o = t.
Proof. unfold cell_rows. rewrite filter_In, andb_true_iff, !Z.eqb_eq. tauto. Qed.
Lemma periods_in data t : In t (periods data) <-> exists o, In o data /\ o_time o = t.
Proof.
  unfold periods, zuniq. split.
  - intros H. apply (Permutation_in _ (isort_perm Z.leb _)) in H. apply nodup_In, in_map_iff in H as (o & E & H). eauto.
  - intros (o & H & E). apply (Permutation_in _ (Permutation_sym (isort_perm Z.leb _))). apply nodup_In, in_map_iff. eauto.
Qed.
Lemma units_in data u : In u (units data) <-> exists o, In o data /\ o_unit o = u.
Proof. unfold units, zuniq. rewrite nodup_In, in_map_iff. firstorder. Qed.
Lemma periods_nodup data : NoDup (periods data).
Proof. unfold periods. eapply Permutation_NoDup; [apply Permutation_sym, isort_perm|apply NoDup_nodup]. Qed.
Lemma units_nodup data : NoDup (units data). Proof. apply NoDup_nodup. Qed.
Lemma periods_sorted data : StronglySorted Z.le (periods data).
Proof.
  unfold periods. pose proof (isort_sorted Z.leb ltac:(intros; rewrite !Z.leb_le; lia) ltac:(intros a b c; rewrite !Z.leb_le; lia) (zuniq (map o_time data))) as S.
  induction S as [|x l S IH F]; constructor; auto. eapply Forall_impl; [|exact F]. intros y. apply Z.leb_le.
Qed.

(* inner: exactly the rows of the units observed in every period, untouched and in order *)
Definition complete data (u : Z) : Prop := forall o, In o data -> exists o', In o' data /\ o_unit o' = u /\ o_time o' = o_time o.
Theorem inner_spec data : exists p, balance_inner data = filter p data /\ forall o, In o data -> (p o = true <-> complete data (o_unit o)).
Proof.
  eexists. split; [reflexivity|]. intros o Ho. rewrite Nat.eqb_eq. unfold complete.
  assert (L : length (periods data) = length (zuniq (map o_time data))) by (unfold periods; apply Permutation_length, isort_perm).
  rewrite L. assert (I : incl (zuniq (map o_time (of_unit (o_unit o) data))) (zuniq (map o_time data))).
  { intros t Ht. unfold zuniq in *. rewrite nodup_In in *. apply in_map_iff in Ht as (q & E & Hq). apply of_unit_in in Hq as [Hq _]. apply in_map_iff. eauto. }
  split.
  - intros E q Hq. assert (J : incl (zuniq (map o_time data)) (zuniq (map o_time (of_unit (o_unit o) data)))) by (apply NoDup_length_incl; auto; [apply NoDup_nodup|lia]).
    assert (K : In (o_time q) (zuniq (map o_time data))) by (apply nodup_In, in_map_iff; eauto). apply J in K. unfold zuniq in K. rewrite nodup_In in K. apply in_map_iff in K as (q' & E' & K).
    apply of_unit_in in K as [K1 K2]. eauto.
  - intros H. apply Nat.le_antisymm; [apply NoDup_incl_length; auto; apply NoDup_nodup|]. apply NoDup_incl_length; [apply NoDup_nodup|]. intros t Ht. unfold zuniq in *. rewrite nodup_In in *.
    apply in_map_iff in Ht as (q & <- & Hq). destruct (H q Hq) as (q' & Hq' & E1 & E2). apply in_map_iff. exists q'. split; auto. apply of_unit_in. auto.
Qed.
(* the kept units are observed in every period of the data: balanced *)
Theorem inner_balanced data o t : In o (balance_inner data) -> In t (map o_time data) ->
  exists o', In o' (balance_inner data) /\ o_unit o' = o_unit o /\ o_time o' = t.
Proof.
  destruct (inner_spec data) as (p & E & H). rewrite E. intros Ho Ht. apply filter_In in Ho as [Ho Hp]. apply in_map_iff in Ht as (q & <- & Hq).
  pose proof (proj1 (H o Ho) Hp) as Hc. destruct (Hc q Hq) as (o' & Ho' & E1 & E2). exists o'. split; [|auto]. apply filter_In. split; auto. apply H; auto. rewrite E1. exact Hc.
Qed.
Theorem inner_one_row data u t : NoDup (map (fun o : obs => (o_unit o, o_time o)) data) -> In u (map o_unit (balance_inner data)) -> In t (map o_time data) ->
  length (cell_rows (balance_inner data) u t) = 1%nat.
Proof.
  intros ND Hu Ht. apply in_map_iff in Hu as (o & <- & Ho). destruct (inner_balanced data o t Ho Ht) as (o' & Ho' & E1 & E2).
  assert (K : In o' (cell_rows (balance_inner data) (o_unit o) t)) by (apply cell_rows_in; auto).
  assert (ND' : NoDup (map (fun o : obs => (o_unit o, o_time o)) (cell_rows (balance_inner data) (o_unit o) t))).
  { assert (F : forall p l, NoDup (map (fun o : obs => (o_unit o, o_time o)) l) -> NoDup (map (fun o : obs => (o_unit o, o_time o)) (filter p l))).
    { intros p l. induction l as [|x l IH]; simpl; auto. intros N. inversion N; subst. destruct (p x); simpl; auto. constructor; auto. intros G. apply H1. apply in_map_iff in G as (z & Ez & Hz). apply filter_In in Hz as [Hz _]. apply in_map_iff. eauto. }
    apply F. unfold balance_inner. apply F. auto. }
  destruct (cell_rows (balance_inner data) (o_unit o) t) as [|a [|b l]] eqn:Ec; [destruct K|reflexivity|exfalso].
  assert (Ha : In a (cell_rows (balance_inner data) (o_unit o) t)) by (rewrite Ec; left; auto). assert (Hb : In b (cell_rows (balance_inner data) (o_unit o) t)) by (rewrite Ec; right; left; auto).
  apply cell_rows_in in Ha as (_ & A1 & A2). apply cell_rows_in in Hb as (_ & B1 & B2). simpl in ND'. inversion ND'; subst. apply H1. left. congruence.
Qed.

(* outer: every cell of the grid holds its observed rows, or one row of missing values *)
Lemma filter_flat {A B} (p : B -> bool) (f : A -> list B) l : filter p (flat_map f l) = flat_map (fun x => filter p (f x)) l.
Proof. induction l as [|x l IH]; simpl; auto. rewrite filter_app, IH. reflexivity. Qed.
Lemma flat_one {B} (f : Z -> list B) l x : NoDup l -> In x l -> (forall y, y <> x -> f y = []) -> flat_map f l = f x.
Proof.
  induction l as [|y l IH]; intros N H F; [destruct H|]. inversion N; subst. simpl. destruct (Z.eq_dec y x) as [->|D].
  - replace (flat_map f l) with (@nil B); [apply app_nil_r|]. symmetry. clear -F H2. induction l as [|z l IH]; simpl; auto. rewrite F, IH; auto; simpl in H2; intuition.
  - rewrite F by auto. simpl. apply IH; auto. destruct H; [congruence|auto].
Qed.
Definition grid_cell data (u t : Z) : list obs :=
  match cell_rows data u t with [] => [{| o_unit := u; o_time := t; o_val := missing |}] | l => l end.
Lemma grid_key data u t o : In o (grid_cell data u t) -> o_unit o = u /\ o_time o = t.
Proof.
  unfold grid_cell. destruct (cell_rows data u t) as [|a l] eqn:E; [intros [<-|[]]; auto|]. intros H. rewrite <- E in H. apply cell_rows_in in H. tauto.
Qed.
Theorem outer_cells data u t : In u (units data) -> In t (periods data) -> cell_rows (balance_outer data) u t = grid_cell data u t.
Proof.
  intros Hu Ht. unfold balance_outer. change (cell_rows (flat_map (fun u => flat_map (fun t => grid_cell data u t) (periods data)) (units data)) u t = grid_cell data u t). unfold cell_rows at 1.
  assert (Z0 : forall u' t', u' <> u \/ t' <> t -> filter (fun o : obs => (o_unit o =? u) && (o_time o =? t)) (grid_cell data u' t') = []).
  { intros u' t' D. destruct (filter _ (grid_cell data u' t')) as [|a l] eqn:E; auto. exfalso. assert (H : In a (filter (fun o : obs => (o_unit o =? u) && (o_time o =? t)) (grid_cell data u' t'))) by (rewrite E; left; auto).
    apply filter_In in H as [H K]. apply grid_key in H as [H1 H2]. apply andb_true_iff in K as [K1 K2]. apply Z.eqb_eq in K1, K2. subst. destruct D; congruence. }
  rewrite filter_flat. rewrite (flat_one _ (units data) u (units_nodup data) Hu).
  - rewrite filter_flat. rewrite (flat_one _ (periods data) t (periods_nodup data) Ht).
    + assert (Al : forall l, (forall o, In o l -> o_unit o = u /\ o_time o = t) -> filter (fun o : obs => (o_unit o =? u) && (o_time o =? t)) l = l).
      { induction l as [|a l IH]; simpl; auto. intros H. destruct (H a (or_introl eq_refl)) as [-> ->]. rewrite !Z.eqb_refl. simpl. f_equal. apply IH. auto. }
      apply Al. intros o. apply grid_key.
    + intros t' D. apply Z0. auto.
  - intros u' D. rewrite filter_flat. clear Ht. induction (periods data) as [|p ps IH]; [reflexivity|]. cbn [flat_map]. rewrite Z0 by auto. exact IH.
Qed.
Theorem outer_keys data o : In o (balance_outer data) -> In (o_unit o) (units data) /\ In (o_time o) (periods data).
Proof.
  unfold balance_outer. intros H. apply in_flat_map in H as (u & Hu & H). apply in_flat_map in H as (t & Ht & H). apply (grid_key data u t) in H as [-> ->]. auto.
Qed.
(* observed rows are kept as they are; every other row is missing and was not observed *)
Theorem outer_rows data o : In o (balance_outer data) <-> In o data \/
  (In (o_unit o) (map o_unit data) /\ In (o_time o) (map o_time data) /\ o = {| o_unit := o_unit o; o_time := o_time o; o_val := missing |} /\ cell_rows data (o_unit o) (o_time o) = []).
Proof.
  split.
  - intros H. destruct (outer_keys _ _ H) as [Hu Ht]. assert (K : In o (cell_rows (balance_outer data) (o_unit o) (o_time o))) by (apply cell_rows_in; auto).
    rewrite outer_cells in K by auto. unfold grid_cell in K. destruct (cell_rows data (o_unit o) (o_time o)) as [|a l] eqn:E.
    + right. destruct K as [K|[]]. apply units_in in Hu as (q & Hq & Eq). apply periods_in in Ht as (q' & Hq' & Eq'). rewrite !in_map_iff. repeat split; eauto.
    + left. rewrite <- E in K. apply cell_rows_in in K. tauto.
  - intros H. assert (K : In (o_unit o) (units data) /\ In (o_time o) (periods data) /\ In o (grid_cell data (o_unit o) (o_time o))).
    { destruct H as [H|(H1 & H2 & H3 & H4)].
      - split; [apply units_in; eauto|]. split; [apply periods_in; eauto|]. unfold grid_cell. assert (In o (cell_rows data (o_unit o) (o_time o))) by (apply cell_rows_in; auto).
        destruct (cell_rows data (o_unit o) (o_time o)); [contradiction|auto].
      - apply in_map_iff in H1 as (q & Eq & Hq). apply in_map_iff in H2 as (q' & Eq' & Hq'). split; [apply units_in; eauto|]. split; [apply periods_in; eauto|]. unfold grid_cell. rewrite H4. left. congruence. }
    destruct K as (Hu & Ht & K). rewrite <- outer_cells in K by auto. apply cell_rows_in in K. tauto.
Qed.
(* with unique keys: one row per cell, units x periods rows *)
Theorem outer_one_row data : NoDup (map (fun o : obs => (o_unit o, o_time o)) data) ->
  map (fun o : obs => (o_unit o, o_time o)) (balance_outer data) = list_prod (units data) (periods data) /\
  length (balance_outer data) = (length (units data) * length (periods data))%nat.
Proof.
  intros ND.
  assert (G : forall u t, map (fun o : obs => (o_unit o, o_time o)) (grid_cell data u t) = [(u, t)]).
  { intros u t. pose proof (grid_key data u t) as K. unfold grid_cell in *. destruct (cell_rows data u t) as [|a [|b l]] eqn:E; [reflexivity| |exfalso].
    - simpl. destruct (K a (or_introl eq_refl)) as [-> ->]. reflexivity.
    - assert (ND' : NoDup (map (fun o : obs => (o_unit o, o_time o)) (cell_rows data u t))).
      { unfold cell_rows. clear -ND. induction data as [|x l IH]; simpl; auto. simpl in ND. inversion ND; subst. destruct (_ && _); simpl; auto. constructor; auto. intros G. apply H1. apply in_map_iff in G as (z & Ez & Hz). apply filter_In in Hz as [Hz _]. apply in_map_iff. eauto. }
      rewrite E in ND'. simpl in ND'. inversion ND'; subst. apply H1. left. destruct (K a (or_introl eq_refl)), (K b (or_intror (or_introl eq_refl))). congruence. }
  assert (E : map (fun o : obs => (o_unit o, o_time o)) (balance_outer data) = list_prod (units data) (periods data)).
  { unfold balance_outer. change (map (fun o : obs => (o_unit o, o_time o)) (flat_map (fun u => flat_map (fun t => grid_cell data u t) (periods data)) (units data)) = list_prod (units data) (periods data)).
    induction (units data) as [|u us IH]; simpl; auto. rewrite map_app, IH. f_equal. clear IH. induction (periods data) as [|t ts IH]; simpl; auto. rewrite map_app, G, IH. reflexivity. }
  split; auto. rewrite <- (map_length (fun o : obs => (o_unit o, o_time o))), E. apply prod_length.
Qed.

(* fill with a value: numeric columns have no missing entry, observed entries are untouched *)
Theorem fill_spec (numeric : C -> bool) (v : V) (l : list obs) :
  Forall2 (fun o o' => o_unit o' = o_unit o /\ o_time o' = o_time o /\
    (forall c x, o_val o c = Some x -> o_val o' c = Some x) /\
    (forall c, o_val o c = None -> o_val o' c = if numeric c then Some v else None)) l (fill_with numeric v l).
Proof.
  unfold fill_with. induction l as [|o l IH]; simpl; constructor; auto. simpl. repeat split.
  - intros c x ->. reflexivity.
  - intros c ->. reflexivity.
Qed.

(* forward/backward fill *)
Lemma first_val_none (l : list (option V)) : first_val l = None <-> forall x, In x l -> x = None.
Proof.
  induction l as [|[v|] l IH]; simpl.
  - split; auto. contradiction.
  - split; [discriminate|]. intros H. specialize (H (Some v) (or_introl eq_refl)). discriminate.
  - rewrite IH. split; [intros H x [<-|Hx]; auto|auto].
Qed.
Lemma ffill_app (b l r : list obs) : ffill b (l ++ r) = ffill b l ++ ffill (rev l ++ b) r.
Proof. revert b. induction l as [|o l IH]; intros b; simpl; auto. rewrite IH, <- app_assoc. reflexivity. Qed.
Lemma bfill_app (l r : list obs) : exists l', bfill (l ++ r) = l' ++ bfill r /\ length l' = length l.
Proof. induction l as [|o l (l' & E & L)]; simpl; [exists []; auto|]. rewrite E. eexists (_ :: l'). split; [reflexivity|simpl; auto]. Qed.
Lemma ffill_keys (b l : list obs) : map (fun o : obs => (o_unit o, o_time o)) (ffill b l) = map (fun o : obs => (o_unit o, o_time o)) l.
Proof. revert b. induction l as [|o l IH]; intros b; simpl; auto. rewrite IH. reflexivity. Qed.
Lemma bfill_keys (l : list obs) : map (fun o : obs => (o_unit o, o_time o)) (bfill l) = map (fun o : obs => (o_unit o, o_time o)) l.
Proof. induction l as [|o l IH]; simpl; auto. rewrite IH. reflexivity. Qed.
Lemma vals_app u c (l r : list obs) : vals_of u c (l ++ r) = vals_of u c l ++ vals_of u c r.
Proof. unfold vals_of, of_unit. rewrite filter_app, map_app. reflexivity. Qed.
Lemma ffill_first u c (b l : list obs) : first_val (vals_of u c b) = None -> first_val (vals_of u c (ffill b l)) = first_val (vals_of u c l).
Proof.
  revert b. induction l as [|o l IH]; intros b H; cbn [ffill]; auto. unfold vals_of, of_unit in *. cbn [filter o_unit].
  destruct (o_unit o =? u) eqn:E.
  - cbn [map]. apply Z.eqb_eq in E. cbn [first_val o_val]. unfold vals_of, of_unit. rewrite E. destruct (o_val o c) eqn:Ev; [reflexivity|]. rewrite H.
    apply (IH (o :: b)). cbn [filter]. rewrite E, Z.eqb_refl. cbn [map first_val]. rewrite Ev. exact H.
  - apply (IH (o :: b)). cbn [filter]. rewrite E. exact H.
Qed.
(* in sorted order, an entry becomes the nearest earlier observed one, else the nearest later one *)
Theorem fill_around_value (l pre : list obs) o post : isort key_le l = pre ++ o :: post ->
  exists pre' o' post', fill_around l = pre' ++ o' :: post' /\ length pre' = length pre /\ o_unit o' = o_unit o /\ o_time o' = o_time o /\
   forall c, o_val o' c = match first_val (o_val o c :: vals_of (o_unit o) c (rev pre)) with
                          | Some v => Some v | None => first_val (vals_of (o_unit o) c post) end.
Proof.
  intros E. unfold fill_around. rewrite E, ffill_app, app_nil_r. cbn [ffill].
  destruct (bfill_app (ffill [] pre) ({| o_unit := o_unit o; o_time := o_time o; o_val := fun c => first_val (o_val o c :: vals_of (o_unit o) c (rev pre)) |} :: ffill (o :: rev pre) post)) as (pre' & E' & L).
  exists pre'. cbn [bfill] in E'. eexists _, _. split; [exact E'|]. split; [rewrite L; clear; generalize (@nil obs); induction pre as [|x p IH]; intros b; simpl; auto|].
  cbn [o_unit o_time o_val]. split; auto. split; auto. intros c. destruct (first_val (o_val o c :: vals_of (o_unit o) c (rev pre))) eqn:F; cbn [first_val]; [reflexivity|].
  apply ffill_first. unfold vals_of, of_unit. cbn [filter]. rewrite Z.eqb_refl. cbn [map]. exact F.
Qed.
Lemma fill_around_keys (l : list obs) : map (fun o : obs => (o_unit o, o_time o)) (fill_around l) = map (fun o : obs => (o_unit o, o_time o)) (isort key_le l).
Proof. unfold fill_around. rewrite bfill_keys, ffill_keys. reflexivity. Qed.
Lemma nth_split_eq {A} (l : list A) d i : (i < length l)%nat -> l = firstn i l ++ nth i l d :: skipn (S i) l.
Proof. revert i. induction l as [|x l IH]; intros [|i] H; simpl in *; try lia; auto. f_equal. apply IH. lia. Qed.
(* observed entries are never changed; an entry stays missing exactly when the unit has no observed entry in that column *)
Theorem fill_around_spec (l : list obs) : Forall2 (fun o o' => o_unit o' = o_unit o /\ o_time o' = o_time o /\
    (forall c x, o_val o c = Some x -> o_val o' c = Some x) /\
    (forall c, o_val o' c = None <-> forall q, In q l -> o_unit q = o_unit o -> o_val q c = None) /\
    (forall c x, o_val o' c = Some x -> exists q, In q l /\ o_unit q = o_unit o /\ o_val q c = Some x)) (isort key_le l) (fill_around l).
Proof.
  set (s := isort key_le l).
  assert (P : forall q, In q s <-> In q l) by (intros q; split; apply Permutation_in; [apply isort_perm|apply Permutation_sym, isort_perm]).
  assert (L : length (fill_around l) = length s) by (rewrite <- (map_length (fun o : obs => (o_unit o, o_time o))), fill_around_keys, map_length; reflexivity).
  assert (N : forall i d, (i < length s)%nat -> (fun o o' => o_unit o' = o_unit o /\ o_time o' = o_time o /\
    (forall c x, o_val o c = Some x -> o_val o' c = Some x) /\
    (forall c, o_val o' c = None <-> forall q, In q l -> o_unit q = o_unit o -> o_val q c = None) /\
    (forall c x, o_val o' c = Some x -> exists q, In q l /\ o_unit q = o_unit o /\ o_val q c = Some x)) (nth i s d) (nth i (fill_around l) d)).
  { intros i d Hi. pose proof (nth_split_eq s d i Hi) as E. set (pre := firstn i s) in *. set (o := nth i s d) in *. set (post := skipn (S i) s) in *.
    destruct (fill_around_value l pre o post E) as (pre' & o' & post' & E' & Lp & Eu & Et & Ev). cbv beta.
    assert (Lp' : length pre' = i) by (rewrite Lp; unfold pre; rewrite firstn_length; lia).
    rewrite E', app_nth2 by lia. rewrite Lp', Nat.sub_diag. cbn [nth].
    assert (M : forall q, In q l -> o_unit q = o_unit o -> forall c, o_val q c = o_val o c \/ In (o_val q c) (vals_of (o_unit o) c (rev pre)) \/ In (o_val q c) (vals_of (o_unit o) c post)).
    { intros q Hq Eq c. apply P in Hq. rewrite E in Hq. apply in_app_iff in Hq as [Hq|[Hq|Hq]].
      - right. left. apply in_map_iff. exists q. split; auto. apply of_unit_in. split; auto. apply -> in_rev. auto.
      - left. congruence.
      - right. right. apply in_map_iff. exists q. split; auto. apply of_unit_in. auto. }
    assert (W : forall c r x, (forall q, In q r -> In q s) -> In x (vals_of (o_unit o) c r) -> exists q, In q l /\ o_unit q = o_unit o /\ o_val q c = x).
    { intros c r x Hr Hx. apply in_map_iff in Hx as (q & Eq & Hq). apply of_unit_in in Hq as [Hq1 Hq2]. exists q. split; auto. apply P. auto. }
    assert (R1 : forall q, In q (rev pre) -> In q s) by (intros q Hq; apply in_rev in Hq; rewrite E; apply in_app_iff; auto).
    assert (R2 : forall q, In q post -> In q s) by (intros q Hq; rewrite E; apply in_app_iff; right; right; auto).
    assert (R3 : In o l) by (apply P; rewrite E; apply in_app_iff; right; left; auto).
    assert (FV : forall (r : list (option V)) x, first_val r = Some x -> In (Some x) r).
    { clear. induction r as [|[v|] r IH]; simpl; intros x H; [discriminate|injection H as ->; auto|right; auto]. }
    split; auto. split; auto. split; [|split].
    - intros c x Hx. rewrite Ev. cbn [first_val]. rewrite Hx. reflexivity.
    - intros c. rewrite Ev. split.
      + destruct (first_val (o_val o c :: _)) eqn:F; [discriminate|]. intros F2 q Hq Eq. rewrite first_val_none in F, F2. destruct (M q Hq Eq c) as [K|[K|K]].
        * rewrite K. apply F. left. auto.
        * apply F. right. auto.
        * apply F2. auto.
      + intros H. rewrite (proj2 (first_val_none _)); [apply first_val_none|].
        * intros x Hx. destruct (W c post x R2 Hx) as (q & Hq & Eq & <-). auto.
        * intros x [<-|Hx]; [auto|]. destruct (W c (rev pre) x R1 Hx) as (q & Hq & Eq & <-). auto.
    - intros c x. rewrite Ev. destruct (first_val (o_val o c :: vals_of (o_unit o) c (rev pre))) as [w|] eqn:F.
      + intros K. injection K as ->. apply FV in F as [F|F]; [exists o; auto|]. apply (W c (rev pre)); auto.
      + intros K. apply FV in K. apply (W c post); auto. }
  clear P. revert L N. generalize (fill_around l). generalize s. intros a b Lb N. revert b Lb N. induction a as [|x a IH]; intros [|y b] Lb N; simpl in Lb; try lia; constructor.
  - apply (N 0%nat x). simpl. lia.
  - apply IH; [lia|]. intros i d Hi. apply (N (S i) d). simpl. lia.
Qed.
(* the value carried is the last one observed before *)
Lemma key_total (a b : obs) : key_le a b = true \/ key_le b a = true.
Proof. unfold key_le. rewrite !orb_true_iff, !andb_true_iff, !Z.ltb_lt, !Z.eqb_eq, !Z.leb_le. lia. Qed.
Lemma key_trans (a b c : obs) : key_le a b = true -> key_le b c = true -> key_le a c = true.
Proof. unfold key_le. rewrite !orb_true_iff, !andb_true_iff, !Z.ltb_lt, !Z.eqb_eq, !Z.leb_le. lia. Qed.
Theorem carry_forward (l : list obs) o' c s v : NoDup (map (fun o : obs => (o_unit o, o_time o)) l) -> In o' (fill_around l) ->
  In s l -> o_unit s = o_unit o' -> o_time s <= o_time o' -> o_val s c = Some v ->
  (forall q, In q l -> o_unit q = o_unit o' -> o_time s < o_time q <= o_time o' -> o_val q c = None) -> o_val o' c = Some v.
Proof.
  intros ND Ho Hs Es Ls Ev Hb. destruct (In_nth _ _ o' Ho) as (i & Hi & Ei).
  set (st := isort key_le l) in *.
  assert (L : length (fill_around l) = length st) by (rewrite <- (map_length (fun o : obs => (o_unit o, o_time o))), fill_around_keys, map_length; reflexivity).
  rewrite L in Hi. pose proof (nth_split_eq st o' i Hi) as E. set (pre := firstn i st) in *. set (o := nth i st o') in *. set (post := skipn (S i) st) in *.
  destruct (fill_around_value l pre o post E) as (pre' & o2 & post' & E' & Lp & Eu & Et & Val).
  assert (Lp' : length pre' = i) by (rewrite Lp; unfold pre; rewrite firstn_length; lia).
  assert (o2 = o') by (rewrite <- Ei, E', app_nth2, Lp', Nat.sub_diag by lia; reflexivity). subst o2. rewrite Val. clear Val Ei E' pre' post' Lp Lp'.
  assert (P : forall q, In q st <-> In q l) by (intros q; split; apply Permutation_in; [apply isort_perm|apply Permutation_sym, isort_perm]).
  assert (SS : StronglySorted (fun a b => key_le a b = true) st) by (apply isort_sorted; [apply key_total|apply key_trans]).
  assert (SS2 : StronglySorted (fun a b => key_le a b = true) (pre ++ o :: post)) by (rewrite <- E; exact SS).
  assert (ND2 : NoDup (map (fun o : obs => (o_unit o, o_time o)) (pre ++ o :: post))) by (rewrite <- E; eapply Permutation_NoDup; [apply Permutation_map, Permutation_sym, isort_perm|exact ND]).
  (* the s row lies in pre or is o *)
  assert (In s (o :: rev pre)).
  { assert (K : In s (pre ++ o :: post)) by (rewrite <- E; apply P; auto). apply in_app_iff in K as [K|[K|K]]; [right; apply -> in_rev; auto|left; auto|exfalso].
    clear -K SS2 ND2 Es Ls Eu Et. assert (key_le o s = true).
    { induction pre as [|x p IH]; simpl in SS2; [inversion SS2; subst; rewrite Forall_forall in H2; auto|]. inversion SS2; subst. simpl in ND2. inversion ND2; subst. auto. }
    assert (D : (o_unit o, o_time o) <> (o_unit s, o_time s)).
    { intros F. rewrite map_app in ND2. simpl in ND2. apply NoDup_remove_2 in ND2. apply ND2. rewrite F. apply in_app_iff. right. apply in_map_iff. eauto. }
    unfold key_le in H. rewrite orb_true_iff, andb_true_iff, Z.ltb_lt, Z.eqb_eq, Z.leb_le in H. rewrite Eu, Et in *. apply D. f_equal; lia. }
  (* rows of the list o :: rev pre come in decreasing order *)
  assert (DS : StronglySorted (fun a b : obs => key_le b a = true) (o :: rev pre)).
  { clear -SS2. assert (G : forall p q : list obs, StronglySorted (fun a b => key_le a b = true) (p ++ q) -> StronglySorted (fun a b : obs => key_le b a = true) q -> forall r, r = rev q ++ [] -> True) by auto. clear G.
    assert (F : forall p o0, StronglySorted (fun a b => key_le a b = true) (p ++ [o0]) -> StronglySorted (fun a b : obs => key_le b a = true) (o0 :: rev p)).
    { intros p. induction p as [|x p IH]; intros o0 H; simpl; [repeat constructor|]. simpl in H. inversion H; subst. specialize (IH o0 H2). rewrite Forall_forall in H3.
      rewrite app_comm_cons. assert (App : forall a : list obs, StronglySorted (fun a b : obs => key_le b a = true) a -> (forall z, In z a -> key_le x z = true) -> StronglySorted (fun a b : obs => key_le b a = true) (a ++ [x])).
      { intros a Sa. induction Sa as [|z a Sa IHa Fa]; intros Ha; simpl; [repeat constructor|]. constructor; [apply IHa; intros; apply Ha; right; auto|]. rewrite Forall_forall in *. intros w Hw. apply in_app_iff in Hw as [Hw|[<-|[]]]; auto. apply Ha. left; auto. }
      apply App; auto. intros z Hz. apply H3. apply in_app_iff. destruct Hz as [<-|Hz]; [right; left; auto|left; apply in_rev; auto]. }
    apply F. clear F. revert SS2. induction pre as [|x p IH]; simpl; intros H; inversion H; subst; [repeat constructor|].
    constructor; auto. rewrite Forall_forall in *. intros z Hz. apply H3. apply in_app_iff in Hz. apply in_app_iff. destruct Hz as [Hz|[<-|[]]]; [auto|right; left; auto]. }
  assert (B : forall q, In q (o :: rev pre) -> In q l /\ (o_unit q = o_unit o -> o_time q <= o_time o)).
  { intros q Hq. split; [apply P; rewrite E; apply in_app_iff; destruct Hq as [<-|Hq]; [right; left; auto|left; apply in_rev; auto]|].
    intros Eq. destruct Hq as [<-|Hq]; [lia|]. inversion DS; subst. rewrite Forall_forall in H3. specialize (H3 q Hq). unfold key_le in H3. rewrite orb_true_iff, andb_true_iff, Z.ltb_lt, Z.eqb_eq, Z.leb_le in H3. lia. }
  assert (R : first_val (o_val o c :: vals_of (o_unit o) c (rev pre)) = Some v).
  { assert (E0 : o_val o c :: vals_of (o_unit o) c (rev pre) = vals_of (o_unit o) c (o :: rev pre)) by (unfold vals_of, of_unit; cbn [filter]; rewrite Z.eqb_refl; reflexivity).
    rewrite E0. rewrite Eu, Et in *. clear E0 Ho E ND2 SS2 SS. assert (Hb' : forall q, In q (o :: rev pre) -> o_unit q = o_unit o -> o_time s < o_time q -> o_val q c = None).
    { intros q Hq Eq Lq. destruct (B q Hq) as [B1 B2]. apply Hb; auto. }
    clear Hb B. assert (NDk : NoDup (map (fun o : obs => (o_unit o, o_time o)) l)) by auto.
    assert (IL : forall q, In q (o :: rev pre) -> In q l) by (intros q Hq; apply P; rewrite (nth_split_eq st o' i Hi); apply in_app_iff; destruct Hq as [<-|Hq]; [right; left; auto|left; apply in_rev in Hq; auto]).
    revert H DS Hb' IL. generalize (o :: rev pre). intros r. induction r as [|q r IH]; intros Hin DS Hb' IL; [destruct Hin|].
    unfold vals_of, of_unit in *. cbn [filter]. inversion DS; subst. destruct (o_unit q =? o_unit o) eqn:Eq.
    - cbn [map first_val]. destruct (o_val q c) as [w|] eqn:Ew.
      + apply Z.eqb_eq in Eq. assert (q = s \/ In s r) as [->|Hr] by (destruct Hin; auto); [congruence|].
        rewrite Forall_forall in H2. specialize (H2 s Hr). unfold key_le in H2. rewrite orb_true_iff, andb_true_iff, Z.ltb_lt, Z.eqb_eq, Z.leb_le in H2.
        destruct (Z.eq_dec (o_time s) (o_time q)) as [Et'|Nt].
        * assert (K : q = s). { assert (U : forall a b, In a l -> In b l -> (o_unit a, o_time a) = (o_unit b, o_time b) -> a = b).
            { clear -NDk. induction l as [|x l0 IH]; intros a b Ha Hb E; [destruct Ha|]. simpl in NDk. inversion NDk; subst. destruct Ha as [<-|Ha], Hb as [<-|Hb]; auto.
              - exfalso. apply H1. rewrite E. apply in_map_iff. eauto.
              - exfalso. apply H1. rewrite <- E. apply in_map_iff. eauto. }
            apply U; auto; [apply IL; left; auto|congruence]. }
          subst. congruence.
        * rewrite (Hb' q (or_introl eq_refl) Eq ltac:(lia)) in Ew. discriminate.
      + apply IH; auto. * destruct Hin as [->|Hin]; auto. congruence. * intros z Hz. apply Hb'. right; auto. * intros z Hz. apply IL. right; auto.
    - apply IH; auto. + destruct Hin as [->|Hin]; auto. apply Z.eqb_neq in Eq. congruence. + intros z Hz. apply Hb'. right; auto. + intros z Hz. apply IL. right; auto. }
  rewrite R. reflexivity.
Qed.
Theorem balance_methods (numeric : C -> bool) method fill data : (exists r, balance_panel numeric method fill data = Ok r) <->
  method = "inner"%string \/ method = "outer"%string \/ method = "fill"%string.
Proof.
  unfold balance_panel. destruct (String.eqb_spec method "inner"); [split; eauto|]. destruct (String.eqb_spec method "outer"); [split; eauto|]. destruct (String.eqb_spec method "fill"); [split; eauto|].
  split; [intros (r & H); discriminate|tauto].
Qed.
End B.

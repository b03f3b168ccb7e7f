(* Derived columns of downloaded files, and the effect built into the fallback data *)
From Verif Require Import Prelude Flt Multi_model Data_model Data_proofs.
From Coq Require Import Arith ZArith String List Lia.
Import ListNotations.
Open Scope R_scope.

Lemma zmin_of_spec l y : zmin_of l = Some y -> In y l /\ forall z, In z l -> (y <= z)%Z.
Proof.
  revert y. induction l as [|a l IH]; intros y; simpl; [discriminate|]. destruct (zmin_of l) as [b|] eqn:E.
  - intros H; injection H as <-. destruct (IH b eq_refl) as [A B]. split.
    + destruct (Z.min_spec a b) as [[_ ->]|[_ ->]]; auto.
    + intros z [<-|Hz]; [lia|]. specialize (B z Hz). lia.
  - intros H; injection H as <-. split; [now left|]. intros z [<-|Hz]; [lia|]. destruct l as [|c l]; [destruct Hz|].
    simpl in E. destruct (zmin_of l); discriminate.
Qed.
Lemma zmin_of_none l : zmin_of l = None -> l = [].
Proof. destruct l as [|a l]; simpl; [auto|]. destruct (zmin_of l); discriminate. Qed.

(* a 0/1 indicator that stays on: the derived adoption year says exactly when it is on *)
Theorem divorce_first_spec rows r :
  (forall q, In q rows -> lr_unilateral q = 0 \/ lr_unilateral q = 1) ->
  (forall q q', In q rows -> In q' rows -> lr_state q = lr_state q' -> (lr_year q <= lr_year q')%Z -> lr_unilateral q = 1 -> lr_unilateral q' = 1) ->
  (forall q, In q rows -> (0 < lr_year q)%Z) -> In r rows ->
  (lr_unilateral r = 1 <-> (0 < divorce_first rows (lr_state r) <= lr_year r)%Z) /\
  (divorce_first rows (lr_state r) = 0%Z <-> forall q, In q rows -> lr_state q = lr_state r -> lr_unilateral q = 0).
Proof.
  intros B A Y Hr. unfold divorce_first. set (mine := filter _ rows).
  assert (M : forall q, In q mine <-> In q rows /\ lr_state q = lr_state r).
  { intros q. unfold mine. rewrite filter_In, String.eqb_eq. tauto. }
  set (on := filter (fun q => Reqb (lr_unilateral q) 1) mine).
  assert (O : forall q, In q on <-> In q rows /\ lr_state q = lr_state r /\ lr_unilateral q = 1).
  { intros q. unfold on. rewrite filter_In, M, Reqb_true. tauto. }
  destruct (Rltb 0 (sumf lr_unilateral mine)) eqn:E.
  - destruct (zmin_of (map lr_year on)) as [y|] eqn:Ey.
    + destruct (zmin_of_spec _ _ Ey) as [H1 H2]. apply in_map_iff in H1. destruct H1 as (q & <- & Hq). apply O in Hq. destruct Hq as (Q1 & Q2 & Q3).
      split; split.
      * intros Hu. split; [now apply Y|]. apply H2. apply in_map. apply O. auto.
      * intros [_ H]. apply (A q r); auto.
      * intros H. specialize (Y q Q1). lia.
      * intros H. specialize (H q Q1 Q2). lra.
    + apply zmin_of_none, map_eq_nil in Ey.
      assert (N : forall q, In q rows -> lr_state q = lr_state r -> lr_unilateral q = 0).
      { intros q H1 H2. destruct (B q H1) as [|H3]; [auto|]. exfalso. assert (In q on) by (apply O; auto). rewrite Ey in H. destruct H. }
      split; split; intros; auto; try lia. specialize (N r Hr eq_refl). lra.
  - apply Rltb_false in E.
    assert (N : forall q, In q rows -> lr_state q = lr_state r -> lr_unilateral q = 0).
    { assert (P : forall q, In q mine -> 0 <= lr_unilateral q) by (intros q Hq; apply M in Hq; destruct (B q (proj1 Hq)); lra).
      intros q H1 H2. assert (Hq : In q mine) by (apply M; auto). clearbody mine.
      assert (lr_unilateral q <= sumf lr_unilateral mine).
      { clear -P Hq. induction mine as [|x m IH]; [destruct Hq|]. simpl. assert (0 <= sumf lr_unilateral m).
        { clear -P. induction m as [|y m IH]; simpl; [lra|]. assert (0 <= lr_unilateral y) by (apply P; simpl; auto).
          assert (0 <= sumf lr_unilateral m) by (apply IH; intros; apply P; simpl in *; tauto). lra. }
        destruct Hq as [->|Hq]; [lra|]. assert (0 <= lr_unilateral x) by (apply P; now left).
        assert (lr_unilateral q <= sumf lr_unilateral m) by (apply IH; [intros; apply P; now right|exact Hq]). lra. }
      specialize (P q Hq). lra. }
    split; split; intros; auto; try lia. specialize (N r Hr eq_refl). lra.
Qed.
(* a repealed law: the indicator is off while the derived adoption year says it is on *)
Definition repealed : list law_row :=
  [ {| lr_state := "A"; lr_year := 1970; lr_unilateral := 1 |}; {| lr_state := "A"; lr_year := 1971; lr_unilateral := 0 |} ].
Theorem repealed_refuted : exists r, In r repealed /\ lr_unilateral r = 0 /\ (0 < divorce_first repealed (lr_state r) <= lr_year r)%Z.
Proof.
  exists {| lr_state := "A"; lr_year := 1971; lr_unilateral := 0 |}. split; [simpl; auto|]. split; [reflexivity|]. cbn [lr_state lr_year].
  unfold divorce_first, repealed. cbn [filter lr_state String.eqb Ascii.eqb Bool.eqb sumf lr_unilateral].
  replace (Rltb 0 (1 + (0 + 0))) with true by (symmetry; apply Rltb_true; lra).
  replace (Reqb 1 1) with true by (symmetry; now apply Reqb_true).
  replace (Reqb 0 1) with false by (symmetry; apply Reqb_false; lra). simpl. lia.
Qed.
(* two states, one adopting in 1970 *)
Definition two_laws : list law_row :=
  [ {| lr_state := "A"; lr_year := 1969; lr_unilateral := 0 |}; {| lr_state := "A"; lr_year := 1970; lr_unilateral := 1 |};
    {| lr_state := "B"; lr_year := 1969; lr_unilateral := 0 |}; {| lr_state := "B"; lr_year := 1970; lr_unilateral := 0 |} ].
Theorem two_laws_case : divorce_first two_laws "A" = 1970%Z /\ divorce_first two_laws "B" = 0%Z.
Proof.
  unfold divorce_first, two_laws. cbn [filter lr_state String.eqb Ascii.eqb Bool.eqb sumf lr_unilateral].
  replace (Rltb 0 (0 + (1 + 0))) with true by (symmetry; apply Rltb_true; lra).
  replace (Rltb 0 (0 + (0 + 0))) with false by (symmetry; apply Rltb_false; lra).
  replace (Reqb 1 1) with true by (symmetry; now apply Reqb_true).
  replace (Reqb 0 1) with false by (symmetry; apply Reqb_false; lra). split; reflexivity.
Qed.

(* card_krueger: the difference in differences of the fallback data *)
Theorem ck_did rnd d : let rows := ck_rows rnd d in let nj := filter st_nj rows in let pa := filter (fun r => negb (st_nj r)) rows in
  (meanf st_post nj - meanf st_pre nj) - (meanf st_post pa - meanf st_pre pa) = meanf st_change nj - meanf st_change pa.
Proof.
  cbv zeta. set (rows := ck_rows rnd d).
  assert (E : forall l, (forall r, In r l -> In r rows) -> meanf st_change l = meanf st_post l - meanf st_pre l).
  { intros l H. rewrite <- meanf_sub. apply meanf_ext. intros r Hr. exact (proj1 (proj2 (proj2 (ck_stores rnd d)) r (H r Hr))). }
  rewrite !E; [reflexivity| |]; intros r Hr; apply filter_In in Hr; tauto.
Qed.
Lemma ck_change_draw d r : In r (ck_rows (fun x => x) d) -> 0 <= fst (d (st_id r)) -> 0 <= fst (d (st_id r)) + snd (d (st_id r)) ->
  st_change r = snd (d (st_id r)).
Proof.
  intros H. apply in_map_iff in H. destruct H as ((i, (nj, ch)) & <- & _). cbn [st_id st_change fst]. intros A B.
  rewrite !Rmax_right by assumption. ring.
Qed.
Lemma ck_slot rnd d r : In r (ck_rows rnd d) -> (1 <= st_id r <= 310)%Z /\ (st_nj r = true <-> (st_id r <= 231)%Z).
Proof.
  intros H. assert (I1 : In (st_id r) (map st_id (ck_rows rnd d))) by now apply in_map.
  rewrite (proj1 (ck_stores rnd d)) in I1. apply zrange_In in I1. split; [lia|].
  apply in_map_iff in H. destruct H as ((i, (nj, ch)) & <- & H). cbn [st_id st_nj fst snd].
  assert (G : forallb (fun x : nat * (bool * string) => Bool.eqb (fst (snd x)) (Nat.ltb (fst x) 231)) (combine (seq 0 (length ck_slots)) ck_slots) = true)
    by (vm_compute; reflexivity).
  rewrite forallb_forall in G. specialize (G _ H). cbn [fst snd] in G. apply Bool.eqb_prop in G. rewrite G, Nat.ltb_lt. lia.
Qed.
(* the published means without noise give 0.59 - (-2.16) *)
Theorem ck_published : let d := fun i : Z => if Z_le_dec i 231 then (2044/100, 59/100) else (2333/100, -216/100) in
  let rows := ck_rows (fun x => x) d in let nj := filter st_nj rows in let pa := filter (fun r => negb (st_nj r)) rows in
  (meanf st_post nj - meanf st_pre nj) - (meanf st_post pa - meanf st_pre pa) = 275/100.
Proof.
  intros d rows nj pa. assert (E := ck_did (fun x => x) d). cbv zeta in E. fold rows in E. fold nj in E. fold pa in E. rewrite E.
  assert (N1 : length nj = 231%nat) by reflexivity. assert (N2 : length pa = 79%nat) by reflexivity.
  rewrite (meanf_ext st_change (fun _ => 59/100) nj), (meanf_ext st_change (fun _ => -216/100) pa).
  - rewrite !meanf_const; [lra| |]; intros Z0; [rewrite Z0 in N2|rewrite Z0 in N1]; discriminate.
  - intros r Hr. apply filter_In in Hr. destruct Hr as [Hr Hn]. destruct (ck_slot _ _ _ Hr) as [A B].
    rewrite (ck_change_draw d r Hr); unfold d; destruct (Z_le_dec (st_id r) 231) as [L|L]; cbn [fst snd]; try lra.
    all: apply B in L; rewrite L in Hn; discriminate.
  - intros r Hr. apply filter_In in Hr. destruct Hr as [Hr Hn]. destruct (ck_slot _ _ _ Hr) as [A B]. apply B in Hn.
    rewrite (ck_change_draw d r Hr); unfold d; destruct (Z_le_dec (st_id r) 231) as [L|L]; cbn [fst snd]; try lra; contradiction.
Qed.

(* Proofs about Data_model.v *)
From Verif Require Import Prelude Flt Multi_model Data_model.
From Coq Require Import Arith ZArith String List Lia.
Import ListNotations.
Open Scope R_scope.

Section CacheP.
Context {C D : Type}.
Variable parse : C -> res D.
Variable fallback : string -> D.
Variable finish : string -> D -> res D.
Notation load_ds := (load_dataset parse fallback finish).
Notation run_ops := (run parse fallback finish).

Lemma known_true name : In name dataset_names -> existsb (String.eqb name) dataset_names = true.
Proof. intros H. apply existsb_exists. exists name. split; [exact H|apply String.eqb_refl]. Qed.
Lemma known_false name : ~ In name dataset_names -> existsb (String.eqb name) dataset_names = false.
Proof.
  intros H. destruct (existsb _ _) eqn:E; [|reflexivity]. apply existsb_exists in E. destruct E as (x & Hx & E).
  apply String.eqb_eq in E. subst. contradiction.
Qed.
Lemma put_same w k (c : C) : put w k c k = Some c.
Proof. unfold put. now rewrite String.eqb_refl. Qed.
Lemma put_other w k j (c : C) : j <> k -> put w k c j = w j.
Proof. intros N. unfold put. destruct (String.eqb_spec j k); [contradiction|reflexivity]. Qed.

(* the value a file content stands for *)
Definition value_of (name : string) (c : C) : outcome D :=
  match parse c with
  | Ok d => match finish name d with Ok d' => Got d' | Err e => Raised e end
  | Err e => Raised e
  end.
Lemma lift_value name c : lift (do d <- parse c ; finish name d) = value_of name c.
Proof. unfold value_of, lift, bind. destruct (parse c) as [d|]; [destruct (finish name d)|]; reflexivity. Qed.

(* an operation that neither forces a download of [name] nor clears the cache *)
Definition leaves (name : string) (o : op C) : Prop :=
  match o with OLoad n force _ _ => n = name -> force = false | OClear => False end.

Theorem other_names (w : cache C) name other force n wr : other <> name -> snd (load_ds w name force n wr) other = w other.
Proof.
  intros N. unfold load_dataset, load, download. destruct (existsb _ _); [|reflexivity].
  destruct (w name) eqn:E, force, n as [c1| |]; try destruct wr; cbn [fst snd]; try reflexivity; now apply put_other.
Qed.
Theorem cached_load (w : cache C) name c n wr : In name dataset_names -> w name = Some c ->
  load_ds w name false n wr = (value_of name c, w).
Proof. intros H E. unfold load_dataset, load, download. now rewrite (known_true _ H), E, lift_value. Qed.
Lemma step_keeps (w : cache C) name c o : w name = Some c -> leaves name o -> step parse fallback finish w o name = Some c.
Proof.
  intros E L. destruct o as [m force n wr|]; [|destruct L]. cbn [step]. destruct (string_dec name m) as [->|N].
  - rewrite (L eq_refl). unfold load_dataset. destruct (existsb _ _); [|exact E]. unfold load, download. rewrite E. cbn. exact E.
  - now rewrite other_names.
Qed.
Theorem cached_history l : forall (w : cache C) name c, w name = Some c -> (forall o, In o l -> leaves name o) -> run_ops w l name = Some c.
Proof.
  induction l as [|o l IH]; intros w name c E H; [exact E|]. unfold run. cbn [fold_left]. apply IH.
  - apply step_keeps; [exact E|]. apply H. now left.
  - intros o' Ho. apply H. now right.
Qed.
(* a completed download is what every later plain load returns, whatever the network does *)
Theorem download_kept (w : cache C) name force c l n wr : In name dataset_names -> (w name = None \/ force = true) ->
  (forall o, In o l -> leaves name o) ->
  fst (load_ds w name force (NetOk c) WDone) = value_of name c /\
  load_ds (run_ops (snd (load_ds w name force (NetOk c) WDone)) l) name false n wr
  = (value_of name c, run_ops (snd (load_ds w name force (NetOk c) WDone)) l).
Proof.
  intros Hn Hw Hl.
  assert (E : load_ds w name force (NetOk c) WDone = (value_of name c, put w name c)).
  { unfold load_dataset, load, download. rewrite (known_true _ Hn). destruct Hw as [->| ->].
    - now rewrite lift_value. - destruct (w name); now rewrite lift_value. }
  rewrite E. cbn [fst snd]. split; [reflexivity|]. apply cached_load; [exact Hn|].
  apply cached_history; [apply put_same|exact Hl].
Qed.
(* the fallback never enters the cache: cached contents come from the network *)
Theorem cache_origin l : forall (w : cache C) name c, run_ops w l name = Some c -> w name = Some c \/
  exists force n wr, In (OLoad name force n wr) l /\ ((n = NetOk c /\ wr = WDone) \/ exists c0, n = NetOk c0 /\ wr = WCrash c).
Proof.
  induction l as [|o l IH]; intros w name c H; [now left|]. unfold run in H. cbn [fold_left] in H. apply IH in H. destruct H as [H|(f & n & wr & Hin & H)].
  - destruct o as [m force n wr|]; [|discriminate H]. cbn [step] in H. destruct (string_dec name m) as [->|N]; [|left; now rewrite other_names in H].
    unfold load_dataset in H. destruct (existsb _ _); [|now left]. unfold load, download in H.
    destruct (w m) as [c1|] eqn:E, force, n as [c2| |]; try destruct wr as [|c3]; cbn [fst snd] in H;
      rewrite ?E, ?put_same in H; auto; injection H as <-; right;
      (eexists; eexists; eexists; split; [left; reflexivity|]; eauto).
  - right. exists f, n, wr. split; [now right|exact H].
Qed.
Theorem fallback_not_cached (w : cache C) name force wr : In name dataset_names -> w name = None ->
  load_ds w name force NetUrlError wr = (match finish name (fallback name) with Ok d => Got d | Err e => Raised e end, w).
Proof. intros H E. unfold load_dataset, load, download. rewrite (known_true _ H), E. reflexivity. Qed.
Theorem other_failure (w : cache C) name force wr : In name dataset_names -> (w name = None \/ force = true) ->
  load_ds w name force NetOther wr = (NetFailure, w).
Proof.
  intros H [E| ->]; unfold load_dataset, load, download; rewrite (known_true _ H); [now rewrite E|].
  destruct (w name); reflexivity.
Qed.
Theorem forced_failure (w : cache C) name c wr : In name dataset_names -> w name = Some c ->
  load_ds w name true NetUrlError wr = (value_of name c, w).
Proof. intros H E. unfold load_dataset, load, download. now rewrite (known_true _ H), E, lift_value. Qed.
(* an interrupted write is served by every later plain load *)
Theorem interrupted_write (w : cache C) name force c c' l n wr : In name dataset_names -> (w name = None \/ force = true) ->
  (forall o, In o l -> leaves name o) ->
  fst (load_ds w name force (NetOk c) (WCrash c')) = Killed /\
  fst (load_ds (run_ops (snd (load_ds w name force (NetOk c) (WCrash c'))) l) name false n wr) = value_of name c'.
Proof.
  intros Hn Hw Hl.
  assert (E : load_ds w name force (NetOk c) (WCrash c') = (Killed, put w name c')).
  { unfold load_dataset, load, download. rewrite (known_true _ Hn). destruct Hw as [->| ->]; [reflexivity|]. destruct (w name); reflexivity. }
  rewrite E. cbn [fst snd]. split; [reflexivity|]. rewrite (cached_load _ name c'); [reflexivity|exact Hn|].
  apply cached_history; [apply put_same|exact Hl].
Qed.
Theorem clear_forgets l (w : cache C) name : run_ops w (l ++ [OClear]) name = None.
Proof. unfold run. rewrite fold_left_app. reflexivity. Qed.
Theorem unknown_name (w : cache C) name force n wr : ~ In name dataset_names -> load_ds w name force n wr = (Raised ValueError, w).
Proof. intros H. unfold load_dataset. now rewrite known_false. Qed.
End CacheP.

(* the same call, with and without network: two data sets, no error *)
Theorem offline_refuted : exists (w : cache nat) name a b wr,
  fst (load_dataset (fun c => Ok c) (fun _ => 0%nat) (fun _ d => Ok d) w name false (NetOk 7%nat) wr) = Got a /\
  fst (load_dataset (fun c => Ok c) (fun _ => 0%nat) (fun _ d => Ok d) w name false NetUrlError wr) = Got b /\ a <> b.
Proof. exists (fun _ => None), "mpdta"%string, 7%nat, 0%nat, WDone. repeat split. discriminate. Qed.
(* forcing a download while offline returns the old copy *)
Theorem forced_refuted : exists (w : cache nat) name wr,
  w name = Some 3%nat /\
  fst (load_dataset (fun c => Ok c) (fun _ => 0%nat) (fun _ d => Ok d) w name true NetUrlError wr) = Got 3%nat.
Proof. exists (fun _ => Some 3%nat), "mpdta"%string, WDone. split; reflexivity. Qed.
(* after an interrupted write of 7 that left 1, plain loads return 1 although the network works again *)
Theorem interrupted_refuted : exists name (c c' : nat), c <> c' /\
  forall n wr, fst (load_dataset (fun c => Ok c) (fun _ => 0%nat) (fun _ d => Ok d)
     (snd (load_dataset (fun c => Ok c) (fun _ => 0%nat) (fun _ d => Ok d) empty_cache name false (NetOk c) (WCrash c'))) name false n wr) = Got c'.
Proof. exists "mpdta"%string, 7%nat, 1%nat. split; [discriminate|]. intros; reflexivity. Qed.

(* ---- panels ---- *)
Lemma zrange_In a n z : In z (zrange a n) <-> (a <= z < a + Z.of_nat n)%Z.
Proof.
  unfold zrange. rewrite in_map_iff. split.
  - intros (i & <- & H). apply in_seq in H. lia.
  - intros H. exists (Z.to_nat (z - a)). split; [lia|]. apply in_seq. lia.
Qed.
Lemma zrange_NoDup a n : NoDup (zrange a n).
Proof.
  unfold zrange. generalize (seq_NoDup n 0). induction 1 as [|x l Hx _ IH]; simpl; constructor; [|exact IH].
  rewrite in_map_iff. intros (y & E & Hy). assert (x = y) by lia. congruence.
Qed.
Lemma grid_NoDup {A X Y} (f : A -> X) (l : list A) (ys : list Y) : NoDup (map f l) -> NoDup ys ->
  NoDup (flat_map (fun a => map (fun y => (f a, y)) ys) l).
Proof.
  intros H Hy. induction l as [|a l IH]; simpl; [constructor|]. inversion H as [|? ? Hn Hl]; subst.
  assert (N : NoDup (map (fun y => (f a, y)) ys)).
  { clear -Hy. induction Hy as [|y ys Hn _ IH]; simpl; constructor; [|exact IH].
    rewrite in_map_iff. intros (z & E & Hz). injection E as ->. contradiction. }
  specialize (IH Hl). assert (G : forall x, In x (map (fun y => (f a, y)) ys) -> ~ In x (flat_map (fun a0 => map (fun y => (f a0, y)) ys) l)).
  { intros x Hx Hf. apply in_map_iff in Hx. destruct Hx as (y & <- & _). apply in_flat_map in Hf. destruct Hf as (b & Hb & Hf).
    apply in_map_iff in Hf. destruct Hf as (z & E & _). injection E as E _. apply Hn. rewrite <- E. now apply in_map. }
  induction (map (fun y => (f a, y)) ys) as [|x m IHm]; simpl; [exact IH|]. inversion N; subst. constructor.
  - rewrite in_app_iff. intros [X0|X0]; [contradiction|]. exact (G x (or_introl eq_refl) X0).
  - apply IHm; [assumption|]. intros z Hz. apply G. now right.
Qed.
Lemma flat_map_map {A B X Y} (g : X -> Y) (f : A -> list B -> list X) (bs : list B) l :
  map g (flat_map (fun a => f a bs) l) = flat_map (fun a => map g (f a bs)) l.
Proof. induction l as [|a l IH]; simpl; [reflexivity|]. now rewrite map_app, IH. Qed.
Lemma flat_map_cells {A B X Y} (h : A -> B -> X) (g : X -> Y) (k : A -> B -> Y) bs l : (forall a b, g (h a b) = k a b) ->
  map g (flat_map (fun a => map (h a) bs) l) = flat_map (fun a => map (k a) bs) l.
Proof.
  intros H. induction l as [|a l IH]; simpl; [reflexivity|]. rewrite map_app, IH, map_map. f_equal. apply map_ext. auto.
Qed.
Fixpoint sdup (l : list string) : bool :=
  match l with [] => false | x :: r => existsb (String.eqb x) r || sdup r end.
Lemma sdup_NoDup l : sdup l = false -> NoDup l.
Proof.
  induction l as [|x l IH]; simpl; intros H; constructor; apply orb_false_iff in H; destruct H as [H1 H2]; auto.
  intros Hin. assert (E : existsb (String.eqb x) l = true) by (apply existsb_exists; exists x; split; [exact Hin|apply String.eqb_refl]).
  congruence.
Qed.

(* a balanced panel: one row for every state of [adopt] and every year of the window, labels consistent *)
Record panel_ok (adopt : list (string * Z)) (lo hi : Z) (rows : list panel_row) : Prop := {
  po_unique : NoDup (map (fun r => (pr_state r, pr_year r)) rows);
  po_complete : forall s y, (exists r, In r rows /\ pr_state r = s /\ pr_year r = y) <-> In s (map fst adopt) /\ (lo <= y <= hi)%Z;
  po_first : forall r, In r rows -> In (pr_state r, pr_first r) adopt;
  po_treated : forall r, In r rows -> pr_treated r = 1%Z /\ (0 < pr_first r <= pr_year r)%Z \/
                                      pr_treated r = 0%Z /\ ~ (0 < pr_first r <= pr_year r)%Z }.
Lemma active_spec f y : active f y = true <-> (0 < f <= y)%Z.
Proof. unfold active. rewrite andb_true_iff, Z.ltb_lt, Z.leb_le. tauto. Qed.
Lemma grid_panel adopt lo n (fst' : Z -> Z) (o : string * Z -> Z -> R) : NoDup (map fst adopt) ->
  (forall x, In x adopt -> fst' (snd x) = snd x) ->
  panel_ok adopt lo (lo + Z.of_nat n - 1)
    (flat_map (fun sf => map (fun y => {| pr_state := fst sf; pr_year := y; pr_first := fst' (snd sf);
        pr_treated := if active (fst' (snd sf)) y then 1%Z else 0%Z; pr_outcome := o sf y |}) (zrange lo n)) adopt).
Proof.
  intros ND HF. constructor.
  - rewrite (flat_map_cells _ _ (fun (sf : string * Z) (y : Z) => (fst sf, y))) by reflexivity. apply grid_NoDup; [exact ND|apply zrange_NoDup].
  - intros s y. split.
    + intros (r & Hr & <- & <-). apply in_flat_map in Hr. destruct Hr as (sf & Hs & Hr). apply in_map_iff in Hr.
      destruct Hr as (z & <- & Hz). apply zrange_In in Hz. cbn [pr_state pr_year]. split; [now apply in_map|lia].
    + intros [Hs Hy]. apply in_map_iff in Hs. destruct Hs as (sf & <- & Hs). eexists. split; [|split].
      * apply in_flat_map. exists sf. split; [exact Hs|]. apply in_map_iff. exists y. split; [reflexivity|]. apply zrange_In. lia.
      * reflexivity.
      * reflexivity.
  - intros r Hr. apply in_flat_map in Hr. destruct Hr as ((s, f) & Hs & Hr). apply in_map_iff in Hr. destruct Hr as (z & <- & Hz).
    cbn [pr_state pr_first fst snd]. specialize (HF _ Hs). cbn [snd] in HF. now rewrite HF.
  - intros r Hr. apply in_flat_map in Hr. destruct Hr as (sf & Hs & Hr). apply in_map_iff in Hr. destruct Hr as (z & <- & Hz).
    cbn [pr_treated pr_first pr_year]. destruct (active (fst' (snd sf)) z) eqn:E.
    + left. split; [reflexivity|]. now apply active_spec.
    + right. split; [reflexivity|]. rewrite <- active_spec. congruence.
Qed.

(* castle: adoption years after 2010 count as never *)
Theorem castle_panel rnd base noise :
  panel_ok (map (fun x => (fst x, if Z_le_dec (snd x) 2010 then snd x else 0%Z)) castle_adoption) 2000 2010 (castle_rows rnd base noise).
Proof.
  match goal with |- panel_ok ?l _ _ _ => assert (E : l = castle_states) by (vm_compute; reflexivity); rewrite E; clear E end.
  apply (grid_panel castle_states 2000 11 (fun z => z)); [|auto]. apply sdup_NoDup. vm_compute. reflexivity.
Qed.
Theorem castle_cohorts rnd base noise r : In r (castle_rows rnd base noise) -> pr_first r = 0%Z \/ (2005 <= pr_first r <= 2010)%Z.
Proof.
  intros H. apply (po_first _ _ _ _ (castle_panel rnd base noise)) in H.
  assert (A : forallb (fun x => Z.eqb (snd x) 0 || (Z.leb 2005 (snd x) && Z.leb (snd x) 2010)) castle_states = true) by (vm_compute; reflexivity).
  rewrite forallb_forall in A. specialize (A (pr_state r, pr_first r)). 
  assert (B : In (pr_state r, pr_first r) castle_states) by exact H. apply A in B. cbn [snd] in B.
  apply orb_true_iff in B. destruct B as [B|B]; [left; now apply Z.eqb_eq|]. right. apply andb_true_iff in B. destruct B as [B1 B2].
  apply Z.leb_le in B1. apply Z.leb_le in B2. lia.
Qed.
Theorem castle_size rnd base noise : length (castle_rows rnd base noise) = (49 * 11)%nat.
Proof. reflexivity. Qed.
Lemma castle_In rnd base noise r : In r (castle_rows rnd base noise) ->
  pr_outcome r = rnd (Rmax 0 (base (pr_state r) + IZR (pr_year r - 2005) * (1/10) + (if Z.eqb (pr_treated r) 1 then base (pr_state r) * (8/100) else 0) + noise (pr_state r) (pr_year r))).
Proof.
  intros H. apply in_flat_map in H. destruct H as (sf & _ & H). apply in_map_iff in H. destruct H as (y & <- & _). cbn [pr_outcome pr_state pr_year pr_treated].
  destruct (active (snd sf) y); reflexivity.
Qed.
(* without noise and rounding the treated rate exceeds the state's trend by 8% of its base *)
Theorem castle_effect base r : (forall s, 1 <= base s) -> In r (castle_rows (fun x => x) base (fun _ _ => 0)) ->
  pr_outcome r - (base (pr_state r) + IZR (pr_year r - 2005) * (1/10)) = if Z.eqb (pr_treated r) 1 then base (pr_state r) * (8/100) else 0.
Proof.
  intros Hb H. assert (Y := proj1 (po_complete _ _ _ _ (castle_panel (fun x => x) base (fun _ _ => 0)) (pr_state r) (pr_year r)) (ex_intro _ r (conj H (conj eq_refl eq_refl)))).
  destruct Y as [_ Y]. rewrite (castle_In _ _ _ _ H). specialize (Hb (pr_state r)).
  assert (T : - (1/2) <= IZR (pr_year r - 2005) * (1/10)).
  { assert (IZR (-5) <= IZR (pr_year r - 2005)) by (apply IZR_le; lia). lra. }
  destruct (Z.eqb _ 1); rewrite Rmax_right; lra.
Qed.

Lemma divorce_states_first x : In x divorce_states -> (if Z.leb 1968 (snd x) then snd x else 0%Z) = snd x.
Proof.
  assert (G : forallb (fun x : string * Z => Z.eqb (if Z.leb 1968 (snd x) then snd x else 0%Z) (snd x)) divorce_states = true) by (vm_compute; reflexivity).
  rewrite forallb_forall in G. intros H. apply G in H. now apply Z.eqb_eq in H.
Qed.
Lemma divorce_states_nodup : NoDup (map fst divorce_states).
Proof. apply sdup_NoDup. vm_compute. reflexivity. Qed.
Lemma divorce_states_eq :
  filter (fun x : string * Z => if Z.eq_dec (snd x) 0 then true else if Z_lt_dec (snd x) 1968 then false else true) divorce_adoption = divorce_states.
Proof. vm_compute. reflexivity. Qed.
Lemma divorce_rows_eq rnd base noise : exists o, divorce_rows rnd base noise =
  flat_map (fun sf => map (fun y => {| pr_state := fst sf; pr_year := y; pr_first := (fun z => if Z.leb 1968 z then z else 0%Z) (snd sf);
        pr_treated := if active ((fun z => if Z.leb 1968 z then z else 0%Z) (snd sf)) y then 1%Z else 0%Z; pr_outcome := o sf y |}) (zrange 1968 21)) divorce_states.
Proof.
  exists (fun sf y => rnd (Rmax 0 (base (fst sf) + IZR (y - 1978) * (5/100) + (if active (snd sf) y then divorce_effect (y - snd sf) else 0) + noise (fst sf) y))).
  unfold divorce_rows. generalize divorce_states. generalize (zrange 1968 21). intros ys l.
  induction l as [|sf l IH]; [reflexivity|]. cbn [flat_map]. now f_equal.
Qed.
Theorem divorce_panel rnd base noise :
  panel_ok (filter (fun x => if Z.eq_dec (snd x) 0 then true else if Z_lt_dec (snd x) 1968 then false else true) divorce_adoption)
    1968 1988 (divorce_rows rnd base noise).
Proof.
  rewrite divorce_states_eq. destruct (divorce_rows_eq rnd base noise) as [o ->].
  exact (grid_panel divorce_states 1968 21 (fun z => if Z.leb 1968 z then z else 0%Z) o divorce_states_nodup divorce_states_first).
Qed.
Theorem divorce_size rnd base noise : length (divorce_rows rnd base noise) = (41 * 21)%nat.
Proof. reflexivity. Qed.
(* Delaware is treated in every year: no row before treatment *)
Theorem divorce_always_refuted rnd base noise : exists s, (exists r, In r (divorce_rows rnd base noise) /\ pr_state r = s) /\
  forall r, In r (divorce_rows rnd base noise) -> pr_state r = s -> pr_treated r = 1%Z.
Proof.
  assert (E : forall r, In r (divorce_rows rnd base noise) -> pr_state r = "DE"%string -> pr_treated r = 1%Z).
  { intros r Hr Hs. destruct (po_treated _ _ _ _ (divorce_panel rnd base noise) r Hr) as [[H _]|[_ H]]; [exact H|]. exfalso. apply H.
    assert (F := po_first _ _ _ _ (divorce_panel rnd base noise) r Hr). rewrite Hs in F.
    destruct (proj1 (po_complete _ _ _ _ (divorce_panel rnd base noise) (pr_state r) (pr_year r)) (ex_intro _ r (conj Hr (conj eq_refl eq_refl)))) as [_ Y].
    assert (G : forallb (fun x => negb (String.eqb (fst x) "DE") || Z.eqb (snd x) 1968) divorce_states = true) by (vm_compute; reflexivity).
    rewrite forallb_forall in G. specialize (G ("DE"%string, pr_first r) F). cbn [fst snd] in G. rewrite String.eqb_refl in G. simpl in G.
    apply Z.eqb_eq in G. lia. }
  exists "DE"%string. split; [|exact E].
  destruct (proj2 (po_complete _ _ _ _ (divorce_panel rnd base noise) "DE"%string 1968%Z)) as (r & Hr & Hs & _); [|eauto].
  split; [|lia]. vm_compute. tauto.
Qed.
(* mpdta *)
Theorem mpdta_panel rnd cohort base noise : let rows := mpdta_rows rnd cohort base noise in
  NoDup (map (fun r => (cr_county r, cr_year r)) rows) /\
  (forall c y, (exists r, In r rows /\ cr_county r = c /\ cr_year r = y) <-> (1 <= c <= 500)%Z /\ (2003 <= y <= 2007)%Z) /\
  (forall r, In r rows -> cr_first r = cohort (cr_county r) /\ (cr_treat r = 1%Z <-> (0 < cr_first r)%Z)).
Proof.
  cbv zeta. split; [|split].
  - unfold mpdta_rows. rewrite (flat_map_cells _ _ (fun (c y : Z) => (c, y))) by reflexivity. apply (grid_NoDup (fun c : Z => c)).
    + rewrite map_id. apply zrange_NoDup.
    + repeat constructor; simpl; intuition discriminate.
  - intros c y. split.
    + intros (r & Hr & <- & <-). apply in_flat_map in Hr. destruct Hr as (c0 & Hc & Hr). apply in_map_iff in Hr. destruct Hr as (y0 & <- & Hy).
      cbn [cr_county cr_year]. apply zrange_In in Hc. simpl in Hy. lia.
    + intros [Hc Hy]. eexists. split; [|split; [|]].
      * apply in_flat_map. exists c. split; [apply zrange_In; lia|]. apply in_map_iff. exists y. split; [reflexivity|]. simpl. lia.
      * reflexivity.
      * reflexivity.
  - intros r Hr. apply in_flat_map in Hr. destruct Hr as (c0 & Hc & Hr). apply in_map_iff in Hr. destruct Hr as (y0 & <- & Hy).
    cbn [cr_first cr_county cr_treat]. split; [reflexivity|]. destruct (Z.ltb_spec 0 (cohort c0)); split; intros; try lia; try discriminate; auto.
Qed.
Theorem mpdta_did cohort base c g y : (1 <= c <= 500)%Z -> cohort c = g -> (2003 <= y <= 2007)%Z -> (2003 < g)%Z ->
  forall r r0, In r (mpdta_rows (fun x => x) cohort base (fun _ _ => 0)) -> In r0 (mpdta_rows (fun x => x) cohort base (fun _ _ => 0)) ->
  cr_county r = c -> cr_county r0 = c -> cr_year r = y -> cr_year r0 = (g - 1)%Z ->
  cr_lemp r - cr_lemp r0 = IZR (y - (g - 1)) * (2/100)
    + (if Z_lt_dec y g then 0 else if Z.eq_dec g 2004 then -4/100 + IZR (y - g) * (1/100)
       else if Z.eq_dec g 2006 then -3/100 + IZR (y - g) * (1/100) else -25/1000).
Proof.
  intros Hc Hg Hy Hg0 r r0 Hr Hr0 E1 E2 E3 E4.
  assert (K : forall q, In q (mpdta_rows (fun x => x) cohort base (fun _ _ => 0)) ->
    cr_lemp q = base (cr_county q) + IZR (cr_year q - 2003) * (2/100) + mpdta_effect (cohort (cr_county q)) (cr_year q) + 0).
  { intros q Hq. apply in_flat_map in Hq. destruct Hq as (c0 & _ & Hq). apply in_map_iff in Hq. destruct Hq as (y0 & <- & _). reflexivity. }
  rewrite (K _ Hr), (K _ Hr0), E1, E2, E3, E4, Hg. unfold mpdta_effect.
  assert (A0 : active g (g - 1) = false) by (destruct (active g (g - 1)) eqn:E; [apply active_spec in E; lia|reflexivity]).
  rewrite A0. rewrite !minus_IZR. destruct (active g y) eqn:Ea.
  - apply active_spec in Ea. destruct (Z_lt_dec y g); [lia|]. destruct (Z.eqb_spec g 2004), (Z.eq_dec g 2004); try contradiction; [lra|].
    destruct (Z.eqb_spec g 2006), (Z.eq_dec g 2006); try contradiction; lra.
  - destruct (Z_lt_dec y g) as [|N]; [lra|]. exfalso. assert (active g y = true) by (apply active_spec; lia). congruence.
Qed.
(* card_krueger *)
Theorem ck_stores rnd d : let rows := ck_rows rnd d in
  map st_id rows = zrange 1 310 /\ length (filter st_nj rows) = 231%nat /\
  (forall r, In r rows -> st_change r = st_post r - st_pre r /\ (st_treated r = 1%Z <-> st_nj r = true)).
Proof.
  cbv zeta. split; [|split].
  - unfold ck_rows. rewrite map_map. cbn [st_id].
    vm_compute. reflexivity.
  - reflexivity.
  - intros r Hr. apply in_map_iff in Hr. destruct Hr as ((i, (nj, ch)) & <- & _). cbn. split; [reflexivity|]. destruct nj; split; congruence || discriminate || auto.
Qed.

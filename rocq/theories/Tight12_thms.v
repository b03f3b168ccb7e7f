(* When rank_control_units ranks, and which exception it raises otherwise (C45). *)
From Verif Require Import Prelude Flt Prep_model Prep_proofs Prep_rank.
From Coq Require Import Arith ZArith String List Bool Lia Permutation Sorting.Sorted.
Import ListNotations.
Open Scope R_scope.

Section RankDefined.
Context {I U : Type} (ueq : forall x y : U, {x = y} + {x <> y}).
Variable dsort : list (rank_row U) -> list (rank_row U).
Variable rows : list I.
Variable u : I -> U.
Variable t : I -> Z.
Variable y : I -> fl.
Notation rank := (rank_control_units ueq dsort rows u t y).
Notation treatedS := (treated_set ueq rows u).

(* the first row of unit x with a recorded treatment says 1 *)
Definition first_says_treated (d : I -> fl) (x : U) : Prop :=
  exists l1 i l2, rows = l1 ++ i :: l2 /\ u i = x /\ d i = Fin 1 /\ forall j, In j l1 -> u j = x -> d j = NaN.
Definition counts_treated (tu : option (list U)) (d : option (I -> fl)) (x : U) : Prop :=
  match tu, d with Some l, _ => In x l | None, Some d => first_says_treated d x | None, None => False end.

Lemma first_treat_spec d x : first_treat ueq rows u d x = Fin 1 <-> first_says_treated d x.
Proof.
  unfold first_treat, first_says_treated. induction rows as [|i l IH]; simpl.
  - split; [discriminate|]. intros ([|a0 l0] & i & l2 & E & _); discriminate.
  - destruct (keqb ueq (u i) x) eqn:E; simpl.
    + apply keqb_true in E. destruct (notna (d i)) eqn:N.
      * split.
        -- intros H. exists [], i, l. split; [reflexivity|]. split; [exact E|]. split; [exact H|]. intros j [].
        -- intros ([|j l1] & i' & l2 & E' & E1 & E2 & E3).
           ++ injection E' as <- <-. exact E2.
           ++ injection E' as <- ->. unfold notna in N. rewrite (E3 i (or_introl eq_refl) E) in N. discriminate.
      * rewrite IH. split.
        -- intros (l1 & i' & l2 & -> & E1 & E2 & E3). exists (i :: l1), i', l2. split; [reflexivity|]. split; [exact E1|]. split; [exact E2|].
           intros j [<-|Hj] Hu; [|auto]. unfold notna in N. destruct (d i); simpl in N; try discriminate. reflexivity.
        -- intros ([|j l1] & i' & l2 & E' & E1 & E2 & E3).
           ++ injection E' as <- <-. unfold notna in N. rewrite E2 in N. discriminate.
           ++ injection E' as <- ->. exists l1, i', l2. split; [reflexivity|]. split; [exact E1|]. split; [exact E2|]. intros k Hk. apply E3. right. exact Hk.
    + assert (Ne : u i <> x) by (intros F; apply (proj2 (keqb_true ueq (u i) x)) in F; congruence).
      rewrite IH. split.
      * intros (l1 & i' & l2 & -> & E1 & E2 & E3). exists (i :: l1), i', l2. split; [reflexivity|]. split; [exact E1|]. split; [exact E2|].
        intros j [<-|Hj] Hu; [contradiction|auto].
      * intros ([|j l1] & i' & l2 & E' & E1 & E2 & E3).
        -- injection E' as <- <-. contradiction.
        -- injection E' as <- ->. exists l1, i', l2. split; [reflexivity|]. split; [exact E1|]. split; [exact E2|]. intros k Hk. apply E3. right. exact Hk.
Qed.

Theorem treated_set_spec tu d suggest l : treatedS tu d suggest = Ok l -> forall x, In x l <-> counts_treated tu d x.
Proof.
  unfold treated_set, counts_treated. destruct tu as [l0|].
  - intros H x. injection H as <-. apply nodup_In.
  - destruct d as [d|].
    + intros H x. injection H as <-. rewrite filter_In, <- first_treat_spec. split.
      * intros [_ H]. destruct (first_treat ueq rows u d x); simpl in H; try discriminate. apply Reqb_true in H. subst. reflexivity.
      * intros H. split.
        -- apply first_treat_spec in H. destruct H as (l1 & i & l2 & -> & E & _). unfold all_units. rewrite <- in_rev, nodup_In, <- in_rev.
           apply in_map_iff. exists i. split; auto. apply in_or_app. right. left. reflexivity.
        -- rewrite H. simpl. apply Reqb_true. reflexivity.
    + destruct suggest; [|discriminate]. intros H x. injection H as <-. reflexivity.
Qed.
Lemma treated_defined tu d : (exists x, counts_treated tu d x) -> forall suggest, exists l, treatedS tu d suggest = Ok l.
Proof. intros (x & H) suggest. unfold treated_set. destruct tu; [eauto|]. destruct d; [eauto|]. destruct H. Qed.

Definition ut_dec (a b : U * Z) : {a = b} + {a <> b}.
Proof. decide equality. apply Z.eq_dec. Defined.
Lemma pivot_dup_spec pd : pivot_dup ueq u t pd = false <-> NoDup (map (fun i => (u i, t i)) pd).
Proof.
  unfold pivot_dup, at_cell.
  assert (Cnt : forall x p l, length (filter (fun i => keqb ueq (u i) x && Z.eqb (t i) p) l) = count_occ ut_dec (map (fun i => (u i, t i)) l) (x, p)).
  { intros x p l. induction l as [|i l IH]; [reflexivity|]. cbn [filter map count_occ]. destruct (ut_dec (u i, t i) (x, p)) as [E|Ne].
    - injection E as -> ->. rewrite keqb_refl, Z.eqb_refl. simpl. f_equal. exact IH.
    - destruct (keqb ueq (u i) x && Z.eqb (t i) p) eqn:C; [|exact IH]. exfalso. apply andb_true_iff in C as [C1 C2]. apply keqb_true in C1. apply Z.eqb_eq in C2. congruence. }
  rewrite (NoDup_count_occ ut_dec). split.
  - intros H [x p]. rewrite <- Cnt. destruct (filter (fun i => keqb ueq (u i) x && Z.eqb (t i) p) pd) as [|i l] eqn:E; [simpl; lia|].
    assert (Hi : In i (filter (fun i => keqb ueq (u i) x && Z.eqb (t i) p) pd)) by (rewrite E; left; reflexivity).
    apply filter_In in Hi as [Hi C]. apply andb_true_iff in C as [C1 C2]. apply keqb_true in C1. apply Z.eqb_eq in C2. subst x p.
    destruct (1 <? length (i :: l))%nat eqn:L; [|apply Nat.ltb_ge in L; exact L].
    exfalso. rewrite <- E in L.
    assert (T : existsb (fun i => (1 <? length (filter (fun i0 => keqb ueq (u i0) (u i) && Z.eqb (t i0) (t i)) pd))%nat) pd = true) by (apply existsb_exists; exists i; split; auto).
    congruence.
  - intros H. destruct (existsb _ pd) eqn:E; [|reflexivity]. apply existsb_exists in E as (i & Hi & L). rewrite Cnt in L. apply Nat.ltb_lt in L. specialize (H (u i, t i)). lia.
Qed.

(* what the caller must supply *)
Definition rankable (d : option (I -> fl)) (tu : option (list U)) (pre : option (list Z)) (ow cw : R) (exclude require : option (list U)) : Prop :=
  let early i := In i rows /\ In (t i) (rank_periods rows t pre) in
  0 <= ow <= 1 /\ 0 <= cw <= 1 /\ (tu = None \/ d = None) /\
  (forall rq ex x, require = Some rq -> exclude = Some ex -> In x rq -> ~ In x ex) /\
  NoDup (map (fun i => (u i, t i)) (filter (fun i => existsb (Z.eqb (t i)) (rank_periods rows t pre)) rows)) /\
  (exists i, early i /\ ~ counts_treated tu d (u i) /\ forall ex, exclude = Some ex -> ~ In (u i) ex) /\
  (exists i, early i /\ counts_treated tu d (u i)).

Lemma len0_in {A} (l : list A) x : In x l -> (length l =? 0)%nat = false.
Proof. destruct l; [intros []|reflexivity]. Qed.

Theorem rank_defined d tu pre covs ow cw exclude require n_top suggest :
  (exists out, rank d tu pre covs ow cw exclude require n_top suggest = Ok (Some out)) <->
  rankable d tu pre ow cw exclude require /\
  (covs <> [] -> forall x, counts_treated tu d x -> exists i, In i rows /\ u i = x /\ In (t i) (rank_periods rows t pre)).
Proof.
  split.
  - intros (out & H). destruct (rank_inv ueq dsort rows u t y d tu pre covs ow cw exclude require n_top suggest out H) as (l & El & Nl & A & B & C & D & E & F & G & K & _). cbv zeta in C, D, E, F, G.
    pose proof (treated_set_spec tu d suggest l El) as Sp. split.
    + unfold rankable. split; [exact A|]. split; [exact B|]. split.
      { revert H. unfold rank_control_units. destruct tu, d; auto. destruct (negb (Rleb 0 ow && Rleb ow 1)); [discriminate|]. destruct (negb (Rleb 0 cw && Rleb cw 1)); discriminate. }
      split; [exact K|]. split; [apply pivot_dup_spec; exact F|]. split.
      * destruct (candidates ueq rows u t l exclude (rank_periods rows t pre)) as [|x cs] eqn:Ec; [congruence|].
        assert (Hx : In x (candidates ueq rows u t l exclude (rank_periods rows t pre))) by (rewrite Ec; left; reflexivity).
        apply (candidates_in ueq rows u t y) in Hx as ((i & H1 & <- & H3) & H4 & H5). exists i. split; [split; assumption|]. split; [intros Q; apply H4; apply Sp; exact Q|exact H5].
      * destruct (seen ueq rows u t (rank_periods rows t pre) l) as [|x cs] eqn:Ec; [congruence|].
        assert (Hx : In x (seen ueq rows u t (rank_periods rows t pre) l)) by (rewrite Ec; left; reflexivity).
        apply filter_In in Hx as (H1 & H2). apply in_pivot_iff in H2 as (i & H2 & <-). apply pre_data_in in H2. exists i. split; [exact H2|]. apply Sp. exact H1.
    + intros Nc x Hx. rewrite <- Sp in Hx. rewrite <- (G Nc) in Hx. apply filter_In in Hx as (_ & Hx). apply in_pivot_iff in Hx as (i & Hi & E'). apply pre_data_in in Hi. exists i. tauto.
  - intros ((A & B & C & D & E & (i & (Hi & Hp) & Hn & He) & (j & (Hj & Hq) & Ht)) & G).
    destruct (treated_defined tu d (ex_intro _ _ Ht) suggest) as (l & El). pose proof (treated_set_spec tu d suggest l El) as Sp.
    unfold rank_control_units.
    assert (W : forall w, 0 <= w <= 1 -> negb (Rleb 0 w && Rleb w 1) = false) by (intros w (W1 & W2); apply (proj2 (Rleb_true _ _)) in W1, W2; rewrite W1, W2; reflexivity).
    rewrite (W ow A), (W cw B).
    replace (match tu, d with Some _, Some _ => true | _, _ => false end) with false by (destruct C as [-> | ->]; [reflexivity|destruct tu; reflexivity]).
    replace (match require, exclude with Some rq, Some ex => existsb (fun x => umem ueq x ex) rq | _, _ => false end) with false.
    2:{ destruct require as [rq|]; [|reflexivity]. destruct exclude as [ex|]; [|reflexivity]. destruct (existsb _ rq) eqn:X; [|reflexivity].
        apply existsb_exists in X as (x & X1 & X2). apply umem_in in X2. exfalso. exact (D rq ex x eq_refl eq_refl X1 X2). }
    set (ps := rank_periods rows t pre) in *.
    rewrite (len0_in _ _ Hp). rewrite El. cbn [bind].
    assert (Hl : (length l =? 0)%nat = false) by (apply (len0_in l (u j)); apply Sp; exact Ht). rewrite Hl, andb_false_r.
    set (c0 := match exclude with Some ex => _ | None => _ end).
    assert (Hc : In (u i) c0).
    { assert (H0 : In (u i) (filter (fun x => negb (umem ueq x l)) (all_units ueq rows u))).
      { apply filter_In. split; [apply all_units_in; eauto|]. apply negb_true_iff. destruct (umem ueq (u i) l) eqn:X; [|reflexivity]. apply umem_in in X. apply Sp in X. contradiction. }
      unfold c0. destruct exclude as [ex|]; [|exact H0]. apply filter_In. split; [exact H0|]. apply negb_true_iff. destruct (umem ueq (u i) ex) eqn:X; [|reflexivity]. apply umem_in in X. destruct (He ex eq_refl X). }
    rewrite (len0_in _ _ Hc).
    change (filter (fun i => existsb (Z.eqb (t i)) ps) rows) with (pre_data rows t ps) in E.
    rewrite (proj2 (pivot_dup_spec (pre_data rows t ps)) E).
    assert (Pi : In i (pre_data rows t ps)) by (apply pre_data_in; auto). assert (Pj : In j (pre_data rows t ps)) by (apply pre_data_in; auto).
    assert (Hv : In (t i) (filter (fun p => existsb (fun i => Z.eqb (t i) p) (pre_data rows t ps)) ps)) by (apply filter_In; split; [exact Hp|]; apply existsb_exists; exists i; split; [exact Pi|apply Z.eqb_refl]).
    rewrite (len0_in _ _ Hv).
    assert (Hc' : In (u i) (filter (in_pivot ueq u (pre_data rows t ps)) c0)) by (apply filter_In; split; [exact Hc|]; apply in_pivot_iff; eauto).
    rewrite (len0_in _ _ Hc').
    assert (Hs : In (u j) (filter (in_pivot ueq u (pre_data rows t ps)) l)) by (apply filter_In; split; [apply Sp; exact Ht|]; apply in_pivot_iff; eauto).
    rewrite (len0_in _ _ Hs).
    replace (negb (length covs =? 0)%nat && existsb (fun x => negb (in_pivot ueq u (pre_data rows t ps) x)) l) with false; [eauto|].
    destruct covs as [|c covs]; [reflexivity|]. simpl. symmetry. destruct (existsb _ l) eqn:X; [|reflexivity]. apply existsb_exists in X as (x & X1 & X2).
    apply negb_true_iff in X2. apply Sp in X1. destruct (G ltac:(discriminate) x X1) as (k & K1 & K2 & K3).
    assert (T : in_pivot ueq u (pre_data rows t ps) x = true) by (apply in_pivot_iff; exists k; split; [apply pre_data_in; auto|exact K2]). congruence.
Qed.

(* the exception *)
Theorem rank_error d tu pre covs ow cw exclude require n_top suggest e :
  rank d tu pre covs ow cw exclude require n_top suggest = Err e ->
  e = ValueError \/
  (e = KeyError /\ rankable d tu pre ow cw exclude require /\ covs <> [] /\
   exists x, counts_treated tu d x /\ forall i, In i rows -> u i = x -> ~ In (t i) (rank_periods rows t pre)).
Proof.
  intros H. destruct (rank d tu pre [] ow cw exclude require n_top suggest) as [[out|]|e'] eqn:R0.
  - assert (Rk : rankable d tu pre ow cw exclude require) by (apply (rank_defined d tu pre [] ow cw exclude require n_top suggest); eauto).
    revert H R0. unfold rank_control_units.
    repeat (match goal with |- context [if ?b then Err ValueError else _] => destruct b; [intros _; discriminate|] end).
    destruct (treatedS tu d suggest) as [l|e2] eqn:El; [|intros _ ?; discriminate]. cbn [bind].
    destruct (suggest && (length l =? 0)%nat); [discriminate|].
    repeat (match goal with |- context [if ?b then Err ValueError else _] => destruct b; [intros _; discriminate|] end).
    destruct (negb (length covs =? 0)%nat && existsb (fun x => negb (in_pivot ueq u (pre_data rows t (rank_periods rows t pre)) x)) l) eqn:K; [|discriminate].
    intros [= <-] _. right. split; [reflexivity|]. split; [exact Rk|]. apply andb_true_iff in K as [K1 K2]. split; [destruct covs; [discriminate|congruence]|].
    apply existsb_exists in K2 as (x & X1 & X2). exists x. split; [apply (treated_set_spec tu d suggest l El); exact X1|].
    intros i Hi Ui Ti. apply negb_true_iff in X2. assert (T : in_pivot ueq u (pre_data rows t (rank_periods rows t pre)) x = true) by (apply in_pivot_iff; exists i; split; [apply pre_data_in; auto|exact Ui]). congruence.
  - exfalso. revert H R0. unfold rank_control_units.
    repeat (match goal with |- context [if ?b then Err ValueError else _] => destruct b; [intros _; discriminate|] end).
    destruct (treatedS tu d suggest) as [l|e2]; [|intros _ ?; discriminate]. cbn [bind].
    destruct (suggest && (length l =? 0)%nat); [intros ?; discriminate|].
    repeat (match goal with |- context [if ?b then Err ValueError else _] => destruct b; [intros _; discriminate|] end).
    intros _. simpl. discriminate.
  - left. revert H R0. unfold rank_control_units.
    repeat (match goal with |- context [if ?b then Err ValueError else _] => destruct b; [intros [= <-] _; reflexivity|] end).
    destruct (treatedS tu d suggest) as [l|e2] eqn:El.
    2:{ cbn [bind]. intros [= <-] _. revert El. unfold treated_set. destruct tu; [discriminate|]. destruct d; [discriminate|]. destruct suggest; congruence. }
    cbn [bind]. destruct (suggest && (length l =? 0)%nat); [discriminate|].
    repeat (match goal with |- context [if ?b then Err ValueError else _] => destruct b; [intros [= <-] _; reflexivity|] end).
    intros _. simpl. discriminate.
Qed.
End RankDefined.

(* the pre-periods taken when none are given: the lower half of the distinct periods *)
Lemma firstn_below l : StronglySorted (fun a b : Z => (a < b)%Z) l -> forall m p,
  In p (firstn m l) <-> In p l /\ (length (filter (fun q => Z.leb q p) l) <= m)%nat.
Proof.
  induction 1 as [|a l Hs IH Ha]; intros m p.
  - rewrite firstn_nil. simpl. tauto.
  - destruct m as [|m].
    + simpl. split; [tauto|]. intros [[->|Hp] L].
      * rewrite Z.leb_refl in L. simpl in L. lia.
      * rewrite Forall_forall in Ha. specialize (Ha p Hp). rewrite (proj2 (Z.leb_le a p)) in L by lia. simpl in L. lia.
    + cbn [firstn In filter]. split.
      * intros [->|Hp].
        -- split; [auto|]. rewrite Z.leb_refl. cbn [length].
           replace (filter (fun q => Z.leb q p) l) with (@nil Z); [simpl; lia|].
           symmetry. rewrite Forall_forall in Ha. clear -Ha. induction l as [|b l IH]; [reflexivity|]. simpl.
           rewrite (proj2 (Z.leb_gt b p)) by (apply Ha; left; reflexivity). apply IH. intros x Hx. apply Ha. right. exact Hx.
        -- apply IH in Hp as [Hp L]. split; [auto|]. destruct (Z.leb a p); cbn [length]; lia.
      * intros [[->|Hp] L]; [auto|]. right. apply IH. split; [exact Hp|]. rewrite Forall_forall in Ha. specialize (Ha p Hp).
        rewrite (proj2 (Z.leb_le a p)) in L by lia. cbn [length] in L. lia.
Qed.
Lemma strictly_sorted l : NoDup l -> StronglySorted (fun a b => Z.leb a b = true) l -> StronglySorted (fun a b : Z => (a < b)%Z) l.
Proof.
  induction 2 as [|a l Hs IH Ha]; [constructor|]. inversion H as [|? ? Na Nl]; subst. constructor; [auto|].
  rewrite Forall_forall in *. intros x Hx. specialize (Ha x Hx). apply Z.leb_le in Ha. assert (a <> x) by (intros ->; contradiction). lia.
Qed.
Lemma filter_perm_length {A} (p : A -> bool) l l' : Permutation l l' -> length (filter p l) = length (filter p l').
Proof. induction 1; simpl; repeat match goal with |- context [if p ?x then _ else _] => destruct (p x) end; simpl; congruence. Qed.
Theorem default_pre_periods {I} (rows : list I) (t : I -> Z) p :
  In p (rank_periods rows t None) <->
  In p (map t rows) /\ (2 * length (filter (fun q => Z.leb q p) (nodup Z.eq_dec (map t rows))) <= length (nodup Z.eq_dec (map t rows)))%nat.
Proof.
  unfold rank_periods. set (n := nodup Z.eq_dec (map t rows)). pose proof (isort_perm Z.leb n) as Hp.
  assert (Ss : StronglySorted (fun a b : Z => (a < b)%Z) (isort Z.leb n)).
  { apply strictly_sorted.
    - eapply Permutation_NoDup; [apply Permutation_sym, Hp|apply NoDup_nodup].
    - apply isort_sorted; [intros a b; rewrite !Z.leb_le; lia|intros a b c A B; apply Z.leb_le in A, B; apply Z.leb_le; lia]. }
  rewrite (firstn_below _ Ss). rewrite (filter_perm_length _ _ _ Hp), (Permutation_length Hp).
  assert (M : In p (isort Z.leb n) <-> In p (map t rows)).
  { rewrite <- (nodup_In Z.eq_dec (map t rows)). fold n. split; apply Permutation_in; [exact Hp|apply Permutation_sym, Hp]. }
  rewrite M. pose proof (Nat.div_mod (length n) 2 ltac:(lia)) as D. pose proof (Nat.mod_upper_bound (length n) 2 ltac:(lia)).
  split; intros [A B]; split; auto; lia.
Qed.
Theorem given_pre_periods {I} (rows : list I) (t : I -> Z) l : rank_periods rows t (Some l) = l.
Proof. reflexivity. Qed.

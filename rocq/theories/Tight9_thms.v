(* The outcome changes of the pre-trend tests (utils.py:784-834), described without sorting: a unit's
   change is the outcome of a row minus the outcome of the same unit's previous observed period. *)
From Verif Require Import Prelude Flt Stats_model Multi_model Multi_proofs Trends_model.
From Coq Require Import Arith ZArith String List Permutation Sorted Lia.
Import ListNotations.
Open Scope R_scope.

(* a is the row of b's unit in the last observed period before b's *)
Definition just_before (rows : list trow) (a b : trow) : bool :=
  Z.eqb (tr_u a) (tr_u b) && Z.ltb (tr_t a) (tr_t b) &&
  negb (existsb (fun c => Z.eqb (tr_u c) (tr_u b) && Z.ltb (tr_t a) (tr_t c) && Z.ltb (tr_t c) (tr_t b)) rows).
Definition own_changes (g : Z) (rows : list trow) : list R :=
  flat_map (fun b => map (fun a => tr_y b - tr_y a) (filter (fun a => just_before rows a b) rows))
           (filter (fun b => Z.eqb (tr_g b) g) rows).

Definition row_lt (a b : trow) : Prop := (tr_u a < tr_u b)%Z \/ (tr_u a = tr_u b /\ (tr_t a < tr_t b)%Z).

Lemma row_insert_perm x l : Permutation (row_insert x l) (x :: l).
Proof.
  induction l as [|y r IH]; simpl; [auto|]. destruct (row_le x y); [auto|].
  rewrite IH. apply perm_swap.
Qed.
Lemma row_sort_perm l : Permutation (row_sort l) l.
Proof. induction l as [|x l IH]; simpl; [auto|]. rewrite row_insert_perm. now constructor. Qed.

Definition keyof (r : trow) : Z * Z := (tr_u r, tr_t r).
Lemma row_insert_sorted x l : StronglySorted row_lt l -> ~ In (keyof x) (map keyof l) -> StronglySorted row_lt (row_insert x l).
Proof.
  induction l as [|y r IH]; simpl; intros S N.
  - constructor; auto.
  - apply StronglySorted_inv in S as [S F]. destruct (row_le x y) eqn:E.
    + assert (L : row_lt x y).
      { unfold row_le in E. apply Bool.orb_true_iff in E as [E|E]; [left; now apply Z.ltb_lt|].
        apply andb_prop in E as [E1 E2]. apply Z.eqb_eq in E1. apply Z.leb_le in E2. right. split; auto.
        assert (tr_t x <> tr_t y) by (intros E3; apply N; left; unfold keyof; now rewrite E1, E3). lia. }
      constructor; [now constructor|]. constructor; auto. rewrite Forall_forall in *. intros z Hz.
      specialize (F z Hz). unfold row_lt in *. lia.
    + assert (L : row_lt y x).
      { unfold row_le in E. apply Bool.orb_false_iff in E as [E1 E2]. apply Z.ltb_ge in E1.
        unfold row_lt. destruct (Z.eq_dec (tr_u x) (tr_u y)) as [E3|E3]; [|lia].
        rewrite E3, Z.eqb_refl in E2. simpl in E2. apply Z.leb_gt in E2. lia. }
      constructor; [apply IH; auto|]. rewrite Forall_forall in *. intros z Hz.
      apply (Permutation_in _ (row_insert_perm x r)) in Hz as [<-|Hz]; auto.
Qed.
Lemma row_sort_sorted l : NoDup (map keyof l) -> StronglySorted row_lt (row_sort l).
Proof.
  induction l as [|x l IH]; simpl; intros N; [constructor|].
  apply NoDup_cons_iff in N as [N1 N2]. apply row_insert_sorted; auto.
  intros H. apply N1. revert H. apply Permutation_in. apply Permutation_map, row_sort_perm.
Qed.

(* pairs (group of the later row, change) *)
Definition pchanges (all rows : list trow) : list (Z * R) :=
  flat_map (fun b => map (fun a => (tr_g b, tr_y b - tr_y a)) (filter (fun a => just_before all a b) all)) rows.

Lemma just_before_cons a l x b : StronglySorted row_lt (a :: l) -> In x l ->
  just_before (a :: l) x b = just_before l x b.
Proof.
  intros S Hx. unfold just_before.
  apply StronglySorted_inv in S as [_ F]. rewrite Forall_forall in F. pose proof (F x Hx) as L.
  destruct (Z.eqb (tr_u x) (tr_u b)) eqn:Ex; simpl; [|reflexivity].
  destruct (Z.eqb (tr_u a) (tr_u b)) eqn:E; simpl; [|reflexivity].
  apply Z.eqb_eq in E, Ex. unfold row_lt in L.
  assert (Z.ltb (tr_t x) (tr_t a) = false) as -> by (apply Z.ltb_ge; lia). reflexivity.
Qed.
Lemma filter_false {A} (p : A -> bool) l : (forall x, In x l -> p x = false) -> filter p l = [].
Proof. induction l as [|x l IH]; simpl; intros H; auto. rewrite (H x) by auto. apply IH. auto. Qed.
Lemma filter_ext_on {A} (p q : A -> bool) l : (forall x, In x l -> p x = q x) -> filter p l = filter q l.
Proof. intros H. now apply filter_ext_in. Qed.
Lemma filter_step {A} (p : A -> bool) x l : filter p (x :: l) = (if p x then [x] else []) ++ filter p l.
Proof. simpl. now destruct (p x). Qed.
Lemma not_before_itself all x b : (tr_u x = tr_u b -> (tr_t b <= tr_t x)%Z) -> just_before all x b = false.
Proof.
  intros H. unfold just_before. destruct (Z.eqb (tr_u x) (tr_u b)) eqn:E; simpl; [|reflexivity].
  apply Z.eqb_eq in E. assert (Z.ltb (tr_t x) (tr_t b) = false) as -> by (apply Z.ltb_ge; auto). reflexivity.
Qed.
Lemma before_next a b l : StronglySorted row_lt (a :: b :: l) ->
  just_before (a :: b :: l) a b = Z.eqb (tr_u a) (tr_u b).
Proof.
  intros S. unfold just_before. apply StronglySorted_inv in S as [S F]. apply StronglySorted_inv in S as [_ F2].
  rewrite Forall_forall in *. pose proof (F b (or_introl eq_refl)) as L.
  destruct (Z.eqb (tr_u a) (tr_u b)) eqn:E; simpl; [|reflexivity]. apply Z.eqb_eq in E.
  assert (Z.ltb (tr_t a) (tr_t b) = true) as -> by (apply Z.ltb_lt; unfold row_lt in L; lia).
  rewrite !Z.ltb_irrefl. rewrite Z.eqb_refl. rewrite !Bool.andb_false_r. simpl.
  match goal with |- negb ?e = true => assert (e = false) as ->; [|reflexivity] end.
  apply Bool.not_true_iff_false. intros H. apply existsb_exists in H as (c & Hc & H).
  apply andb_prop in H as [H H3]. apply andb_prop in H as [H1 H2].
  apply Z.eqb_eq in H1. apply Z.ltb_lt in H2, H3. pose proof (F2 c Hc) as Lc. unfold row_lt in Lc. lia.
Qed.
Lemma before_later a b l c : StronglySorted row_lt (a :: b :: l) -> In c l ->
  just_before (a :: b :: l) a c = false.
Proof.
  intros S Hc. unfold just_before. apply StronglySorted_inv in S as [S F]. apply StronglySorted_inv in S as [_ F2].
  rewrite Forall_forall in *. pose proof (F b (or_introl eq_refl)) as L. pose proof (F2 c Hc) as Lc.
  destruct (Z.eqb (tr_u a) (tr_u c)) eqn:E; simpl; [|reflexivity]. apply Z.eqb_eq in E.
  destruct (Z.ltb (tr_t a) (tr_t c)); simpl; [|reflexivity]. unfold row_lt in *.
  assert (Eb : tr_u b = tr_u c) by lia.
  assert (Z.eqb (tr_u b) (tr_u c) = true) as -> by now apply Z.eqb_eq.
  assert (Z.ltb (tr_t a) (tr_t b) = true) as -> by (apply Z.ltb_lt; lia).
  assert (Z.ltb (tr_t b) (tr_t c) = true) as -> by (apply Z.ltb_lt; lia).
  simpl. now rewrite Bool.orb_true_r.
Qed.
Lemma row_diffs_pairs l : StronglySorted row_lt l -> row_diffs l = pchanges l l.
Proof.
  induction l as [|a l IH]; intros S; [reflexivity|].
  pose proof S as S0. apply StronglySorted_inv in S0 as [S' F]. rewrite Forall_forall in F.
  unfold pchanges. cbn [flat_map].
  rewrite (filter_false (fun x => just_before (a :: l) x a)).
  2: { intros x [<-|Hx]; apply not_before_itself; [lia|]. intros E. pose proof (F x Hx) as L. unfold row_lt in L. lia. }
  cbn [map app].
  destruct l as [|b l]; [reflexivity|].
  assert (G : forall c, In c (b :: l) ->
     filter (fun x => just_before (a :: b :: l) x c) (a :: b :: l)
     = (if just_before (a :: b :: l) a c then [a] else []) ++ filter (fun x => just_before (b :: l) x c) (b :: l)).
  { intros c Hc. rewrite filter_step. f_equal.
    apply filter_ext_on. intros x Hx. apply just_before_cons; assumption. }
  cbn [row_diffs]. cbn [flat_map]. rewrite (G b) by (simpl; auto). rewrite (before_next a b l S).
  assert (T : flat_map (fun b0 => map (fun a0 => (tr_g b0, tr_y b0 - tr_y a0)) (filter (fun a0 => just_before (a :: b :: l) a0 b0) (a :: b :: l))) l
            = flat_map (fun b0 => map (fun a0 => (tr_g b0, tr_y b0 - tr_y a0)) (filter (fun a0 => just_before (b :: l) a0 b0) (b :: l))) l).
  { assert (X : forall m, (forall c, In c m -> In c l) ->
      flat_map (fun b0 => map (fun a0 => (tr_g b0, tr_y b0 - tr_y a0)) (filter (fun a0 => just_before (a :: b :: l) a0 b0) (a :: b :: l))) m
      = flat_map (fun b0 => map (fun a0 => (tr_g b0, tr_y b0 - tr_y a0)) (filter (fun a0 => just_before (b :: l) a0 b0) (b :: l))) m).
    { induction m as [|c m IHm]; intros Hm; [reflexivity|]. cbn [flat_map]. rewrite IHm by (intros; apply Hm; simpl; auto).
      rewrite (G c) by (right; apply Hm; simpl; auto). rewrite (before_later a b l c S) by (apply Hm; simpl; auto). reflexivity. }
    apply X. auto. }
  rewrite T. specialize (IH S'). cbn [row_diffs] in IH. unfold pchanges in IH. cbn [flat_map] in IH.
  destruct (Z.eqb (tr_u a) (tr_u b)) eqn:E.
  - rewrite map_app. cbn [map app]. f_equal. exact IH.
  - cbn [app]. exact IH.
Qed.
Lemma pchanges_group g all rows :
  map snd (filter (fun p => Z.eqb (fst p) g) (pchanges all rows))
  = flat_map (fun b => map (fun a => tr_y b - tr_y a) (filter (fun a => just_before all a b) all))
             (filter (fun b => Z.eqb (tr_g b) g) rows).
Proof.
  induction rows as [|b rows IH]; [reflexivity|].
  unfold pchanges in *. cbn [flat_map filter]. rewrite filter_app, map_app, IH.
  destruct (Z.eqb (tr_g b) g) eqn:E; cbn [flat_map].
  - f_equal. generalize (filter (fun a => just_before all a b) all) as m. intros m. induction m as [|x m IHm]; [reflexivity|]. cbn [map filter fst]. rewrite E. cbn [map snd]. now rewrite IHm.
  - generalize (filter (fun a => just_before all a b) all) as m. intros m. replace (map snd (filter (fun p : Z * R => (fst p =? g)%Z) (map (fun a => (tr_g b, tr_y b - tr_y a)) m))) with (@nil R); [reflexivity|].
    induction m as [|x m IHm]; [reflexivity|]. cbn [map filter fst]. rewrite E. exact IHm.
Qed.
Lemma existsb_perm {A} (p : A -> bool) l l' : Permutation l l' -> existsb p l = existsb p l'.
Proof.
  intros H. apply Bool.eq_iff_eq_true. rewrite !existsb_exists.
  split; intros (x & Hx & E); exists x; split; auto; [|apply Permutation_sym in H]; now apply (Permutation_in _ H).
Qed.
Lemma just_before_perm l l' a b : Permutation l l' -> just_before l a b = just_before l' a b.
Proof. intros H. unfold just_before. now rewrite (existsb_perm _ l l' H). Qed.
Lemma flat_map_perm {A B} (f f' : A -> list B) l l' : Permutation l l' -> (forall x, Permutation (f x) (f' x)) ->
  Permutation (flat_map f l) (flat_map f' l').
Proof.
  intros P H. induction P; simpl.
  - auto.
  - now apply Permutation_app.
  - rewrite !app_assoc. apply Permutation_app; [rewrite Permutation_app_comm; now apply Permutation_app|].
    clear - H. induction l as [|z l IH]; simpl; [auto|]. now apply Permutation_app.
  - rewrite IHP1. assert (S : Permutation (flat_map f' l') (flat_map f l')).
    { clear - H. induction l' as [|z l IH]; simpl; [auto|]. apply Permutation_app; auto. now apply Permutation_sym. }
    now rewrite S.
Qed.
Lemma filter_perm {A} (p : A -> bool) l l' : Permutation l l' -> Permutation (filter p l) (filter p l').
Proof.
  intros P. induction P; simpl; auto.
  - destruct (p x); auto.
  - destruct (p x), (p y); auto. apply perm_swap.
  - eapply Permutation_trans; eauto.
Qed.
Lemma own_changes_perm g l l' : Permutation l l' -> Permutation (own_changes g l) (own_changes g l').
Proof.
  intros P. unfold own_changes. apply flat_map_perm; [now apply filter_perm|]. intros b. apply Permutation_map.
  rewrite (filter_ext_on (fun a => just_before l a b) (fun a => just_before l' a b)) by (intros; now apply just_before_perm).
  now apply filter_perm.
Qed.

(* by unit: up to order, the changes of a group's rows over their unit's previous observed period *)
Theorem unit_changes_spec g rows : NoDup (map keyof rows) -> Permutation (unit_changes g rows) (own_changes g rows).
Proof.
  intros N. unfold unit_changes. rewrite (row_diffs_pairs _ (row_sort_sorted rows N)), pchanges_group.
  apply own_changes_perm, row_sort_perm.
Qed.
Lemma np_diff_nth l k : (S k < length l)%nat -> nth k (np_diff l) 0 = nth (S k) l 0 - nth k l 0.
Proof.
  revert k. induction l as [|a l IH]; intros k H; [simpl in H; lia|].
  destruct l as [|b l]; [simpl in H; lia|]. destruct k; [reflexivity|].
  change (nth (S k) (np_diff (a :: b :: l)) 0) with (nth k (np_diff (b :: l)) 0).
  rewrite IH by (simpl in *; lia). reflexivity.
Qed.
Lemma np_diff_length l : length (np_diff l) = (length l - 1)%nat.
Proof. induction l as [|a [|b l] IH]; auto. change (length (np_diff (a :: b :: l))) with (S (length (np_diff (b :: l)))). rewrite IH. simpl. lia. Qed.

(* without units: from each observed period of the group to the next, later minus earlier mean *)
Theorem agg_changes_spec g rows : exists ps,
  zsorted ps /\ NoDup ps /\ (forall p, In p ps <-> exists r, In r rows /\ tr_g r = g /\ tr_t r = p) /\
  length (agg_changes g rows) = (length ps - 1)%nat /\
  (forall k, (S k < length ps)%nat ->
     nth k (agg_changes g rows) 0
     = meanf tr_y (filter (fun r => Z.eqb (tr_g r) g && Z.eqb (tr_t r) (nth (S k) ps 0%Z)) rows)
       - meanf tr_y (filter (fun r => Z.eqb (tr_g r) g && Z.eqb (tr_t r) (nth k ps 0%Z)) rows)).
Proof.
  exists (zsort (nodup Z.eq_dec (map tr_t (group_rows g rows)))). unfold agg_changes. cbv zeta.
  split; [apply zsort_sorted|]. split; [apply zsort_NoDup, NoDup_nodup|]. split; [|split].
  - intros p. rewrite zsort_In, nodup_In, in_map_iff. unfold group_rows. split.
    + intros (r & E & H). apply filter_In in H as [H1 H2]. apply Z.eqb_eq in H2. eauto.
    + intros (r & H1 & H2 & H3). exists r. split; auto. apply filter_In. split; auto. now apply Z.eqb_eq.
  - now rewrite np_diff_length, map_length.
  - intros k Hk. rewrite np_diff_nth by now rewrite map_length.
    assert (M : forall j, (j < length (zsort (nodup Z.eq_dec (map tr_t (group_rows g rows)))))%nat ->
      nth j (map (fun p => meanf tr_y (filter (fun r => (tr_t r =? p)%Z) (group_rows g rows))) (zsort (nodup Z.eq_dec (map tr_t (group_rows g rows))))) 0
      = meanf tr_y (filter (fun r => Z.eqb (tr_g r) g && Z.eqb (tr_t r) (nth j (zsort (nodup Z.eq_dec (map tr_t (group_rows g rows)))) 0%Z)) rows)).
    { intros j Hj. set (f := fun p => _). rewrite (nth_indep _ 0 (f 0%Z)) by now rewrite map_length.
      rewrite map_nth. unfold f. f_equal. unfold group_rows.
      generalize (nth j (zsort (nodup Z.eq_dec (map tr_t (filter (fun r => (tr_g r =? g)%Z) rows)))) 0%Z) as q. intros q.
      clear. induction rows as [|x l IH]; [reflexivity|]. simpl. destruct (tr_g x =? g)%Z; simpl; [destruct (tr_t x =? q)%Z; simpl; now rewrite IH|exact IH]. }
    now rewrite !M by lia.
Qed.

Lemma meanf_perm (l l' : list R) : Permutation l l' -> meanf idR l = meanf idR l'.
Proof.
  intros P. unfold meanf, len. rewrite (Permutation_length P). f_equal.
  induction P; simpl; lra.
Qed.

(* the tests compare the group-1 changes with the group-0 changes, in this order *)
Theorem robust_mean_difference wd perms thr pre rows (d := pre_select rows pre) : NoDup (map keyof d) ->
  (2 <= length (own_changes 1 d))%nat -> (2 <= length (own_changes 0 d))%nat ->
  rb_mean_diff (check_robust wd perms thr true pre rows) = Fin (meanf idR (own_changes 1 d) - meanf idR (own_changes 0 d)).
Proof.
  intros N H1 H0. subst d. unfold check_robust, outcome_changes, robust_core.
  pose proof (unit_changes_spec 1 _ N) as P1. pose proof (unit_changes_spec 0 _ N) as P0.
  rewrite (Permutation_length P1), (Permutation_length P0).
  assert (Nat.ltb (length (own_changes 1 (pre_select rows pre))) 2 = false) as -> by (apply Nat.ltb_ge; lia).
  assert (Nat.ltb (length (own_changes 0 (pre_select rows pre))) 2 = false) as -> by (apply Nat.ltb_ge; lia).
  cbn [orb rb_mean_diff]. now rewrite (meanf_perm _ _ P1), (meanf_perm _ _ P0).
Qed.
(* without units the same with the changes of the period means *)
Theorem robust_mean_difference_agg wd perms thr pre rows (d := pre_select rows pre) :
  (2 <= length (agg_changes 1 d))%nat -> (2 <= length (agg_changes 0 d))%nat ->
  rb_mean_diff (check_robust wd perms thr false pre rows) = Fin (meanf idR (agg_changes 1 d) - meanf idR (agg_changes 0 d)).
Proof.
  intros H1 H0. subst d. unfold check_robust, outcome_changes, robust_core.
  assert (Nat.ltb (length (agg_changes 1 (pre_select rows pre))) 2 = false) as -> by (apply Nat.ltb_ge; lia).
  assert (Nat.ltb (length (agg_changes 0 (pre_select rows pre))) 2 = false) as -> by (apply Nat.ltb_ge; lia).
  reflexivity.
Qed.
(* the equivalence test reports the same mean difference whenever both groups have two changes *)
Theorem tost_mean_difference tsf tcdf margin pre rows (d := pre_select rows pre) : NoDup (map keyof d) ->
  (2 <= length (own_changes 1 d))%nat -> (2 <= length (own_changes 0 d))%nat ->
  ts_mean (equivalence_test tsf tcdf true pre margin rows) = Fin (meanf idR (own_changes 1 d) - meanf idR (own_changes 0 d)).
Proof.
  intros N H1 H0. subst d. unfold equivalence_test, outcome_changes, tost.
  pose proof (unit_changes_spec 1 _ N) as P1. pose proof (unit_changes_spec 0 _ N) as P0.
  rewrite (Permutation_length P1), (Permutation_length P0).
  assert (Nat.ltb (length (own_changes 1 (pre_select rows pre))) 2 = false) as -> by (apply Nat.ltb_ge; lia).
  assert (Nat.ltb (length (own_changes 0 (pre_select rows pre))) 2 = false) as -> by (apply Nat.ltb_ge; lia).
  cbn [orb]. rewrite (meanf_perm _ _ P1), (meanf_perm _ _ P0).
  destruct (_ && _); [reflexivity|]. destruct (Req_EM_T _ 0); reflexivity.
Qed.

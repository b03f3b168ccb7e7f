(* Proofs about the data preparation helpers. *)
From Verif Require Import Prelude Flt Prep_model.
From Coq Require Import Arith ZArith String List Bool Lia Permutation Sorting.Sorted.
Import ListNotations.
Open Scope R_scope.

(* ---- generic ---- *)
Lemma mapM_inv {A B} (f : A -> res B) l ys : mapM f l = Ok ys -> Forall2 (fun x y => f x = Ok y) l ys.
Proof.
  revert ys. induction l as [|x l IH]; intros ys; simpl; [intros H; injection H as <-; constructor|].
  destruct (f x) as [y|] eqn:E; [|discriminate]. simpl. destruct (mapM f l) as [zs|] eqn:E2; [|discriminate]. simpl. intros H. injection H as <-. constructor; auto.
Qed.
Lemma mapM_ok {A B} (f : A -> res B) l : (forall x, In x l -> exists y, f x = Ok y) -> exists ys, mapM f l = Ok ys.
Proof.
  induction l as [|x l IH]; intros H; simpl; [eauto|]. destruct (H x (or_introl eq_refl)) as (y & ->). simpl.
  destruct IH as (ys & ->); [intros; apply H; right; auto|]. simpl. eauto.
Qed.
Lemma mapM_err {A B} (f : A -> res B) l e : (forall x, In x l -> (exists y, f x = Ok y) \/ f x = Err e) ->
  (exists x, In x l /\ f x = Err e) -> mapM f l = Err e.
Proof.
  induction l as [|x l IH]; intros H (z & Hz & Ez); [destruct Hz|]. simpl. destruct (H x (or_introl eq_refl)) as [(y & E)|E]; rewrite E; simpl; auto.
  destruct Hz as [->|Hz]; [congruence|]. rewrite IH; eauto. intros; apply H; right; auto.
Qed.
Lemma has_col_in df c : has_col df c = true <-> In c (f_cols df).
Proof. unfold has_col. rewrite existsb_exists. split; [intros (x & H & E); apply String.eqb_eq in E; subst; auto|intros H; exists c; split; auto; apply String.eqb_refl]. Qed.
Lemma upd_same r c v : upd r c v c = v. Proof. unfold upd. rewrite String.eqb_refl. reflexivity. Qed.
Lemma upd_other r c v c' : c' <> c -> upd r c v c' = r c'. Proof. intros H. unfold upd. destruct (String.eqb_spec c' c); congruence. Qed.
Lemma feqb_eq x y : feqb x y = true <-> x = y /\ x <> NaN.
Proof.
  destruct x, y; simpl; try (split; [discriminate|intros [? ?]; congruence]); try (split; auto; intros _; split; congruence).
  rewrite Reqb_true. split; [intros ->; split; congruence|intros [E _]; congruence].
Qed.
Lemma veqb_eq a b : veqb a b = true <-> a = b /\ visna a = false.
Proof.
  destruct a as [x|s], b as [y|t]; simpl; try (split; [discriminate|intros [? ?]; congruence]).
  - rewrite feqb_eq. split; [intros [-> N]; split; auto; destruct y; auto; congruence|intros [E N]; injection E as ->; split; auto; destruct y; congruence].
  - rewrite String.eqb_eq. split; [intros ->; auto|intros [E _]; congruence].
Qed.
(* isin is membership, missing values included *)
Lemma visin_in v l : visin v l = true <-> In v l.
Proof.
  unfold visin. rewrite existsb_exists. split.
  - intros (w & Hw & E). apply orb_true_iff in E as [E|E]; [apply veqb_eq in E as [-> _]; auto|].
    apply andb_true_iff in E as [A B]. destruct v as [[]|], w as [[]|]; simpl in *; try discriminate; auto.
  - intros H. exists v. split; auto. apply orb_true_iff. destruct (visna v) eqn:E; [right; reflexivity|left; apply veqb_eq; auto].
Qed.

(* a 0/1 column that marks exactly the rows satisfying P, and nothing else changes *)
Definition marks (df df' : frame) (new : string) (P : row -> Prop) : Prop :=
  f_cols df' = add_name new (f_cols df) /\
  Forall2 (fun r r' => (r' new = Num (Fin 1) /\ P r \/ r' new = Num (Fin 0) /\ ~ P r) /\ forall c, c <> new -> r' c = r c) (f_rows df) (f_rows df').
Lemma set_col_marks df new (f : row -> res bool) (P : row -> Prop) : (forall r b, In r (f_rows df) -> f r = Ok b -> (b = true <-> P r)) ->
  (forall r, In r (f_rows df) -> exists b, f r = Ok b) ->
  exists df', set_col df new (fun r => do c <- f r ; Ok (of_bool c)) = Ok df' /\ marks df df' new P.
Proof.
  intros HP HO. unfold set_col.
  destruct (mapM_ok (fun r => do v <- (do c <- f r ; Ok (of_bool c)) ; Ok (upd r new v)) (f_rows df)) as (ys & E).
  { intros r Hr. destruct (HO r Hr) as (b & ->). simpl. eauto. }
  rewrite E. simpl. eexists. split; [reflexivity|]. split; [reflexivity|]. simpl. pose proof (mapM_inv _ _ _ E) as F. clear E.
  assert (G : forall l0 z0, Forall2 (fun r y => (do v <- (do c <- f r ; Ok (of_bool c)) ; Ok (upd r new v)) = Ok y) l0 z0 -> (forall r, In r l0 -> In r (f_rows df)) ->
     Forall2 (fun r r' => (r' new = Num (Fin 1) /\ P r \/ r' new = Num (Fin 0) /\ ~ P r) /\ forall c, c <> new -> r' c = r c) l0 z0).
  { clear F. intros l0 z0 F. induction F as [|r y l0 z0 H F IH]; intros Hin; constructor; [|apply IH; intros; apply Hin; right; auto].
    destruct (f r) as [b|] eqn:Er; [|discriminate]. simpl in H. injection H as <-. specialize (HP r b (Hin r (or_introl eq_refl)) Er).
    split; [|intros; apply upd_other; auto]. rewrite upd_same. unfold of_bool. destruct b; [left; split; auto; apply HP; auto|right; split; auto; intros K; apply HP in K; discriminate]. }
  apply G; auto.
Qed.

Theorem treatment_by_values df column s above new : has_col df column = true ->
  exists df', make_treatment_indicator df column (Some s) None above new = Ok df' /\
    marks df df' new (fun r => In (r column) (spec_list s)).
Proof.
  intros H. unfold make_treatment_indicator. rewrite H. simpl.
  destruct (set_col_marks df new (fun r => Ok (visin (r column) (spec_list s))) (fun r => In (r column) (spec_list s))) as (df' & E & M).
  - intros r b _ E. injection E as <-. apply visin_in.
  - eauto.
  - exists df'. split; auto.
Qed.
(* a numeric threshold: NaN is never treated *)
Definition above_thr (b : R) (v : val) : Prop := (exists x, v = Num (Fin x) /\ b <= x) \/ v = Num PInf.
Definition below_thr (b : R) (v : val) : Prop := (exists x, v = Num (Fin x) /\ x <= b) \/ v = Num NInf.
Lemma vge_above v b c : vge v (Num (Fin b)) = Ok c -> (c = true <-> above_thr b v).
Proof.
  unfold above_thr. destruct v as [[x| | |]|s]; simpl; intros H; try discriminate; injection H as <-.
  - unfold fge. simpl. rewrite Rleb_true. split; [eauto|intros [(y & E & L)|E]; [injection E as ->; auto|discriminate]].
  - unfold fge; simpl. split; [discriminate|intros [(y & E & L)|E]; discriminate].
  - unfold fge; simpl. split; auto.
  - unfold fge; simpl. split; [discriminate|intros [(y & E & L)|E]; discriminate].
Qed.
Lemma vle_below v b c : vle v (Num (Fin b)) = Ok c -> (c = true <-> below_thr b v).
Proof.
  unfold below_thr. destruct v as [[x| | |]|s]; simpl; intros H; try discriminate; injection H as <-.
  - rewrite Rleb_true. split; [eauto|intros [(y & E & L)|E]; [injection E as ->; auto|discriminate]].
  - split; [discriminate|intros [(y & E & L)|E]; discriminate].
  - split; [discriminate|intros [(y & E & L)|E]; discriminate].
  - split; auto.
Qed.
Definition numeric_col (df : frame) (c : string) : Prop := forall r, In r (f_rows df) -> exists x, r c = Num x.
Theorem treatment_by_threshold df column b above new : has_col df column = true -> numeric_col df column ->
  exists df', make_treatment_indicator df column None (Some (Num (Fin b))) above new = Ok df' /\
    marks df df' new (fun r => if above then above_thr b (r column) else below_thr b (r column)).
Proof.
  intros H N. unfold make_treatment_indicator. rewrite H. simpl.
  apply (set_col_marks df new (fun r => if above then vge (r column) (Num (Fin b)) else vle (r column) (Num (Fin b)))).
  - intros r c _ E. destruct above; [apply vge_above; auto|apply vle_below; auto].
  - intros r Hr. destruct (N r Hr) as (x & ->). destruct above; simpl; eauto.
Qed.
Theorem threshold_type_error df column b above new : has_col df column = true -> (exists r s, In r (f_rows df) /\ r column = Str s) ->
  make_treatment_indicator df column None (Some (Num (Fin b))) above new = Err TypeError.
Proof.
  intros H (r & s & Hr & E). unfold make_treatment_indicator. rewrite H. simpl. unfold set_col.
  rewrite (mapM_err _ _ TypeError); [reflexivity| |exists r; split; auto; rewrite E; destruct above; reflexivity].
  intros q Hq. destruct (q column) as [x|z]; destruct above; simpl; eauto.
Qed.
(* every other call is an error *)
Theorem treatment_errors df column tv thr above new :
  (tv <> None /\ thr <> None) \/ (tv = None /\ thr = None) \/ has_col df column = false ->
  make_treatment_indicator df column tv thr above new = Err ValueError.
Proof.
  unfold make_treatment_indicator. intros [[A B]|[[-> ->]|C]]; [destruct tv, thr; congruence|reflexivity|].
  rewrite C. destruct tv, thr; reflexivity.
Qed.
Theorem post_by_periods df column s new : has_col df column = true ->
  exists df', make_post_indicator df column (Some s) None new = Ok df' /\ marks df df' new (fun r => In (r column) (spec_list s)).
Proof.
  intros H. unfold make_post_indicator. rewrite H. simpl.
  destruct (set_col_marks df new (fun r => Ok (visin (r column) (spec_list s))) (fun r => In (r column) (spec_list s))) as (df' & E & M); eauto.
  intros r b _ E. injection E as <-. apply visin_in.
Qed.
Theorem post_by_start df column b new : has_col df column = true -> numeric_col df column ->
  exists df', make_post_indicator df column None (Some (Num (Fin b))) new = Ok df' /\ marks df df' new (fun r => above_thr b (r column)).
Proof.
  intros H N. unfold make_post_indicator. rewrite H. simpl. apply (set_col_marks df new (fun r => vge (r column) (Num (Fin b)))).
  - intros r c _ E. apply vge_above; auto.
  - intros r Hr. destruct (N r Hr) as (x & ->). simpl. eauto.
Qed.
Theorem post_errors df column pp st new :
  (pp <> None /\ st <> None) \/ (pp = None /\ st = None) \/ has_col df column = false ->
  make_post_indicator df column pp st new = Err ValueError.
Proof.
  unfold make_post_indicator. intros [[A B]|[[-> ->]|C]]; [destruct pp, st; congruence|reflexivity|].
  rewrite C. destruct pp, st; reflexivity.
Qed.
(* naming the periods from the start on is the same as naming the start *)
Lemma marks_unique df a b new P Q : marks df a new P -> marks df b new Q -> (forall r, In r (f_rows df) -> P r <-> Q r) ->
  f_cols a = f_cols b /\ Forall2 (fun r r' => forall c, r c = r' c) (f_rows a) (f_rows b).
Proof.
  intros [Ca Ma] [Cb Mb] H. split; [congruence|]. revert Ma Mb H. generalize (f_rows df) (f_rows a) (f_rows b). intros l la lb Ma. revert lb.
  induction Ma as [|r ra l la [Hn Ho] Ma IH]; intros lb Mb H; inversion Mb; subst; constructor.
  - destruct H2 as [Hn' Ho']. specialize (H r (or_introl eq_refl)). intros c. destruct (string_dec c new) as [->|Nc]; [|rewrite Ho, Ho'; auto].
    destruct Hn as [[-> p]|[-> p]], Hn' as [[-> q]|[-> q]]; auto; tauto.
  - apply IH; auto. intros; apply H; right; auto.
Qed.
Theorem post_agree df column b l new a c : has_col df column = true -> numeric_col df column ->
  (forall r, In r (f_rows df) -> In (r column) l <-> above_thr b (r column)) ->
  make_post_indicator df column (Some (Many l)) None new = Ok a -> make_post_indicator df column None (Some (Num (Fin b))) new = Ok c ->
  f_cols a = f_cols c /\ Forall2 (fun r r' => forall k, r k = r' k) (f_rows a) (f_rows c).
Proof.
  intros H N E Ea Ec. destruct (post_by_periods df column (Many l) new H) as (a' & Ea' & Ma). destruct (post_by_start df column b new H N) as (c' & Ec' & Mc).
  rewrite Ea in Ea'. injection Ea' as <-. rewrite Ec in Ec'. injection Ec' as <-. eapply marks_unique; eauto.
Qed.
(* event time *)
Theorem event_time_spec df time treat new : has_col df time = true -> has_col df treat = true -> numeric_col df time -> numeric_col df treat ->
  exists df', create_event_time df time treat new = Ok df' /\ f_cols df' = add_name new (f_cols df) /\
  Forall2 (fun r r' => (forall c, c <> new -> r' c = r c) /\
     (forall t g, r time = Num (Fin t) -> r treat = Num (Fin g) -> r' new = Num (Fin (t - g))) /\
     (r treat = Num NaN \/ r treat = Num PInf \/ r treat = Num NInf -> r' new = Num NaN)) (f_rows df) (f_rows df').
Proof.
  intros H1 H2 N1 N2. unfold create_event_time. rewrite H1, H2. cbn [negb].
  match goal with |- context [set_col df new ?g] => set (f := g) end. unfold set_col.
  destruct (mapM_ok (fun r => do v <- f r ; Ok (upd r new v)) (f_rows df)) as (ys & E).
  { intros r Hr. unfold f. destruct (N1 r Hr) as (x & ->). destruct (N2 r Hr) as (z & ->). simpl. eauto. }
  rewrite E. simpl. eexists. split; [reflexivity|]. split; [reflexivity|]. simpl. apply mapM_inv in E. clear -E. induction E as [|r y l z H E IH]; constructor; auto.
  unfold f in H. destruct (r time) as [t|] eqn:Et; [|discriminate]. destruct (r treat) as [g|] eqn:Eg; [|discriminate]. simpl in H. injection H as <-.
  split; [intros; apply upd_other; auto|]. rewrite upd_same. split.
  - intros t0 g0 A B. injection A as ->. injection B as ->. reflexivity.
  - intros K. assert (G : g = NaN \/ g = PInf \/ g = NInf) by (destruct K as [K|[K|K]]; injection K as ->; auto). destruct G as [->|[->| ->]]; reflexivity.
Qed.
Theorem event_time_errors df time treat new : has_col df time = false \/ has_col df treat = false -> create_event_time df time treat new = Err ValueError.
Proof. unfold create_event_time. intros [-> | ->]; simpl; [reflexivity|]. destruct (has_col df time); reflexivity. Qed.

(* ---- sorting ---- *)
Section SortFacts.
Context {A : Type} (le : A -> A -> bool).
Lemma insert_perm x l : Permutation (insert le x l) (x :: l).
Proof. induction l as [|y l IH]; simpl; auto. destruct (le x y); auto. rewrite IH. apply perm_swap. Qed.
Lemma isort_perm l : Permutation (isort le l) l.
Proof. induction l as [|x l IH]; simpl; auto. rewrite insert_perm. auto. Qed.
Hypothesis total : forall a b, le a b = true \/ le b a = true.
Hypothesis trans : forall a b c, le a b = true -> le b c = true -> le a c = true.
Lemma insert_sorted x l : StronglySorted (fun a b => le a b = true) l -> StronglySorted (fun a b => le a b = true) (insert le x l).
Proof.
  induction 1 as [|y l S IH F]; simpl; [repeat constructor|]. destruct (le x y) eqn:E.
  - constructor; [constructor; auto|]. constructor; auto. eapply Forall_impl; [|exact F]. intros z Hz. eapply trans; eauto.
  - constructor; auto. rewrite Forall_forall in *. intros z Hz. apply (Permutation_in z (insert_perm x l)) in Hz. destruct Hz as [<-|Hz]; auto.
    destruct (total x y); congruence.
Qed.
Lemma isort_sorted l : StronglySorted (fun a b => le a b = true) (isort le l).
Proof. induction l as [|x l IH]; simpl; [constructor|]. apply insert_sorted; auto. Qed.
End SortFacts.

Lemma acompare_N a b : Ascii.compare a b = N.compare (Ascii.N_of_ascii a) (Ascii.N_of_ascii b). Proof. reflexivity. Qed.
Lemma leb_trans s t u : String.leb s t = true -> String.leb t u = true -> String.leb s u = true.
Proof.
  unfold String.leb. revert t u. induction s as [|a s IH]; intros [|b t] [|c u]; simpl; try discriminate; auto.
  rewrite !acompare_N. destruct (N.compare_spec (Ascii.N_of_ascii a) (Ascii.N_of_ascii b)) as [E1|E1|E1], (N.compare_spec (Ascii.N_of_ascii b) (Ascii.N_of_ascii c)) as [E2|E2|E2]; try discriminate; intros H1 H2.
  - rewrite E1, E2, N.compare_refl. eapply IH; eauto.
  - rewrite E1. rewrite (proj2 (N.compare_lt_iff _ _)) by auto. auto.
  - rewrite <- E2. rewrite (proj2 (N.compare_lt_iff _ _)) by auto. auto.
  - rewrite (proj2 (N.compare_lt_iff _ _)) by lia. auto.
Qed.
Lemma fle_total x y : x <> NaN -> y <> NaN -> fle x y = true \/ fle y x = true.
Proof. destruct x, y; simpl; try congruence; auto. intros _ _. rewrite !Rleb_true. lra. Qed.
Lemma fle_trans x y z : fle x y = true -> fle y z = true -> fle x z = true.
Proof. destruct x, y, z; simpl; try congruence; auto. rewrite !Rleb_true. lra. Qed.
Lemma val_le_total a b : val_le a b = true \/ val_le b a = true.
Proof.
  destruct a as [x|s], b as [y|t]; [| | |apply String.leb_total].
  - destruct x, y; simpl; auto. rewrite !Rleb_true. lra.
  - destruct x; simpl; auto.
  - destruct y; simpl; auto.
Qed.
Lemma val_le_trans a b c : val_le a b = true -> val_le b c = true -> val_le a c = true.
Proof.
  destruct a as [x|s], b as [y|t], c as [z|u];
    repeat match goal with |- context [Num ?v] => is_var v; destruct v end; simpl; try congruence; auto; try (rewrite !Rleb_true; lra). apply leb_trans.
Qed.
Lemma val_le_antisym a b : val_le a b = true -> val_le b a = true -> a = b.
Proof.
  destruct a as [x|s], b as [y|t];
    repeat match goal with |- context [Num ?v] => is_var v; destruct v end; simpl; try congruence; auto.
  - rewrite !Rleb_true. intros. do 2 f_equal. lra.
  - intros. f_equal. apply String.leb_antisym; auto.
Qed.
Lemma lex_total k1 k2 a b : lex_le k1 k2 a b = true \/ lex_le k1 k2 b a = true.
Proof.
  unfold lex_le. destruct (val_le (k1 a) (k1 b)) eqn:E1, (val_le (k1 b) (k1 a)) eqn:E2; auto; [apply val_le_total|].
  destruct (val_le_total (k1 a) (k1 b)); congruence.
Qed.
Lemma lex_trans k1 k2 a b c : lex_le k1 k2 a b = true -> lex_le k1 k2 b c = true -> lex_le k1 k2 a c = true.
Proof.
  unfold lex_le. destruct (val_le (k1 a) (k1 b)) eqn:E1; [|discriminate]. destruct (val_le (k1 b) (k1 c)) eqn:E2; [|destruct (val_le (k1 b) (k1 a)); discriminate].
  rewrite (val_le_trans _ _ _ E1 E2). intros H1 H2. destruct (val_le (k1 c) (k1 a)) eqn:E3; auto.
  rewrite (val_le_trans _ _ _ E2 E3) in H1. rewrite (val_le_trans _ _ _ E3 E1) in H2. eapply val_le_trans; eauto.
Qed.

(* ---- wide_to_long ---- *)
Lemma zip_get_nth names times k : NoDup names -> length times = length names -> (k < length names)%nat ->
  zip_get names times (nth k names EmptyString) = nth k times (Num NaN).
Proof.
  revert times k. induction names as [|n ns IH]; intros [|v vs] k ND L Hk; simpl in *; try lia. inversion ND; subst. destruct k as [|k].
  - destruct (existsb (String.eqb n) ns) eqn:E; [|rewrite String.eqb_refl; reflexivity]. apply existsb_exists in E as (x & Hx & E). apply String.eqb_eq in E. subst. contradiction.
  - replace (existsb (String.eqb (nth k ns EmptyString)) ns) with true; [apply IH; auto; lia|]. symmetry. apply existsb_exists. exists (nth k ns EmptyString). split; [apply nth_In; lia|apply String.eqb_refl].
Qed.
Lemma distinct_nodup l : distinct l = true <-> NoDup l.
Proof. unfold distinct. destruct (list_eq_dec string_dec (nodup string_dec l) l) as [E|E]; split; auto; [intros _; rewrite <- E; apply NoDup_nodup|discriminate|]. intros H. exfalso. apply E. apply nodup_fixed_point; auto. Qed.
Definition default_times (n : nat) : list val := map (fun k => Num (Fin (INR k))) (seq 0 n).
Theorem wide_inv df vc id tn vn tv df' : wide_to_long df vc id tn vn tv = Ok df' ->
  let times := match tv with Some l => l | None => default_times (length vc) end in
  vc <> [] /\ has_col df id = true /\ (forall c, In c vc -> has_col df c = true) /\ length times = length vc /\ has_col df vn = false /\
  exists others, f_cols df' = id :: tn :: vn :: others /\ NoDup (f_cols df') /\
    (forall c, In c others <-> In c (f_cols df) /\ c <> id /\ ~ In c vc) /\
    Permutation (f_rows df') (flat_map (fun c => map (fun r => upd (upd r vn (r c)) tn (zip_get vc times c)) (f_rows df)) vc) /\
    StronglySorted (fun a b => lex_le (fun r => r id) (fun r => r tn) a b = true) (f_rows df').
Proof.
  intros H times. destruct vc as [|v0 vc0]; [discriminate H|]. remember (v0 :: vc0) as vc eqn:Evc.
  assert (H' : (if negb (has_col df id) then Err ValueError
      else if negb (forallb (has_col df) vc) then Err ValueError else
      if negb (length times =? length vc)%nat then Err ValueError else
      if has_col df vn then Err ValueError else
      if negb (distinct (id :: tn :: vn :: filter (fun c => negb (String.eqb c id) && negb (existsb (String.eqb c) vc)) (f_cols df))) then Err ValueError else
      Ok {| f_cols := id :: tn :: vn :: filter (fun c => negb (String.eqb c id) && negb (existsb (String.eqb c) vc)) (f_cols df);
            f_rows := isort (lex_le (fun r => r id) (fun r => r tn)) (flat_map (fun c => map (fun r => upd (upd r vn (r c)) tn (zip_get vc times c)) (f_rows df)) vc) |}) = Ok df').
  { rewrite <- H. subst vc. reflexivity. }
  clear H. clearbody times. set (others := filter _ (f_cols df)) in H'.
  destruct (has_col df id) eqn:H1; [|discriminate H']. destruct (forallb (has_col df) vc) eqn:H2; [|discriminate H'].
  destruct (length times =? length vc)%nat eqn:H3; [|discriminate H']. destruct (has_col df vn) eqn:H4; [discriminate H'|].
  destruct (distinct (id :: tn :: vn :: others)) eqn:H5; [|discriminate H']. cbn [negb] in H'. injection H' as <-.
  split; [subst vc; discriminate|]. split; auto. split; [apply forallb_forall; auto|]. split; [apply Nat.eqb_eq; auto|]. split; auto.
  exists others. cbn [f_cols f_rows]. split; auto. split; [apply distinct_nodup; auto|]. split.
  - intros c. unfold others. rewrite filter_In, andb_true_iff, !negb_true_iff, String.eqb_neq. split.
    + intros (A & B & D). repeat split; auto. intros K. enough (existsb (String.eqb c) vc = true) by congruence. apply existsb_exists. exists c. split; auto. apply String.eqb_refl.
    + intros (A & B & D). repeat split; auto. destruct (existsb (String.eqb c) vc) eqn:E; auto. apply existsb_exists in E as (x & Hx & E). apply String.eqb_eq in E. subst. contradiction.
  - split; [apply isort_perm|apply isort_sorted; [apply lex_total|apply lex_trans]].
Qed.
Lemma melt_length {A B C} (f : A -> B -> C) (rows : list B) (l : list A) : length (flat_map (fun c => map (f c) rows) l) = (length l * length rows)%nat.
Proof. induction l as [|c l IH]; simpl; auto. rewrite app_length, map_length, IH. reflexivity. Qed.
(* every wide value appears once, at its period, with the unit's other columns; nothing else appears *)
Theorem wide_cells df vc id tn vn tv df' : wide_to_long df vc id tn vn tv = Ok df' -> NoDup vc ->
  let times := match tv with Some l => l | None => default_times (length vc) end in
  length (f_rows df') = (length vc * length (f_rows df))%nat /\
  (forall r k, In r (f_rows df) -> (k < length vc)%nat ->
     exists q, In q (f_rows df') /\ q id = r id /\ q tn = nth k times (Num NaN) /\ q vn = r (nth k vc EmptyString) /\
       forall c, In c (f_cols df') -> c <> tn -> c <> vn -> q c = r c) /\
  (forall q, In q (f_rows df') -> exists r k, In r (f_rows df) /\ (k < length vc)%nat /\
     q id = r id /\ q tn = nth k times (Num NaN) /\ q vn = r (nth k vc EmptyString)).
Proof.
  intros H ND times. destruct (wide_inv _ _ _ _ _ _ _ H) as (Hne & H1 & H2 & H3 & H4 & others & Ec & NC & Ho & P & S). fold times in H3, P.
  assert (NIT : id <> tn /\ id <> vn /\ tn <> vn). { rewrite Ec in NC. inversion NC as [|a l0 N1 N2]; subst. inversion N2 as [|a l1 N3 N4]; subst. simpl in *. repeat split; intros E; subst; tauto. }
  destruct NIT as (Nit & Niv & Ntv).
  assert (Q : forall r c, upd (upd r vn (r c)) tn (zip_get vc times c) id = r id /\ upd (upd r vn (r c)) tn (zip_get vc times c) tn = zip_get vc times c /\ upd (upd r vn (r c)) tn (zip_get vc times c) vn = r c).
  { intros r c. rewrite !upd_same. rewrite !(upd_other _ tn) by auto. rewrite upd_same, upd_other by auto. auto. }
  split; [|split].
  - rewrite (Permutation_length P). apply melt_length.
  - intros r k Hr Hk. exists (upd (upd r vn (r (nth k vc EmptyString))) tn (zip_get vc times (nth k vc EmptyString))). split.
    + apply (Permutation_in _ (Permutation_sym P)). apply in_flat_map. exists (nth k vc EmptyString). split; [apply nth_In; auto|]. apply in_map_iff. eauto.
    + destruct (Q r (nth k vc EmptyString)) as (Q1 & Q2 & Q3). rewrite Q1, Q2, Q3. split; auto. split; [apply zip_get_nth; auto|]. split; auto.
      intros c _ A B. rewrite !upd_other by auto. auto.
  - intros q Hq. apply (Permutation_in _ P) in Hq. apply in_flat_map in Hq as (c & Hc & Hq). apply in_map_iff in Hq as (r & <- & Hr).
    destruct (In_nth _ _ EmptyString Hc) as (k & Hk & <-). exists r, k. destruct (Q r (nth k vc EmptyString)) as (Q1 & Q2 & Q3). rewrite Q1, Q2, Q3. rewrite zip_get_nth by auto. auto.
Qed.
(* one row per unit and period *)
Theorem wide_keys_unique df vc id tn vn tv df' : wide_to_long df vc id tn vn tv = Ok df' -> NoDup vc ->
  let times := match tv with Some l => l | None => default_times (length vc) end in
  NoDup times -> NoDup (map (fun r => r id) (f_rows df)) ->
  NoDup (map (fun q => (q id, q tn)) (f_rows df')).
Proof.
  intros H ND times NT NI. destruct (wide_inv _ _ _ _ _ _ _ H) as (Hne & H1 & H2 & H3 & H4 & others & Ec & NC & Ho & P & S). fold times in H3, P.
  assert (Nit : id <> tn /\ id <> vn). { rewrite Ec in NC. inversion NC as [|a l0 N1 N2]; subst. simpl in *. split; intros E; subst; tauto. } destruct Nit as [Nit Niv].
  cut (NoDup (map (fun q : row => (q id, q tn)) (flat_map (fun c => map (fun r => upd (upd r vn (r c)) tn (zip_get vc times c)) (f_rows df)) vc))).
  { intros K. eapply Permutation_NoDup; [apply Permutation_map; apply Permutation_sym; exact P|exact K]. }
  assert (E : map (fun q : row => (q id, q tn)) (flat_map (fun c => map (fun r => upd (upd r vn (r c)) tn (zip_get vc times c)) (f_rows df)) vc)
            = flat_map (fun c => map (fun r => (r id, zip_get vc times c)) (f_rows df)) vc).
  { clear -Nit Niv. generalize (zip_get vc times). intros z. induction vc as [|c vc0 IH]; simpl; auto. rewrite map_app, IH, map_map. f_equal. apply map_ext. intros r. rewrite upd_same, !upd_other by auto. reflexivity. }
  rewrite E. clear E.
  assert (INJ : forall c c', In c vc -> In c' vc -> zip_get vc times c = zip_get vc times c' -> c = c').
  { intros c c' Hc Hc' Ez. destruct (In_nth _ _ EmptyString Hc) as (k & Hk & <-). destruct (In_nth _ _ EmptyString Hc') as (k' & Hk' & <-).
    rewrite !zip_get_nth in Ez by auto. rewrite (proj1 (NoDup_nth times (Num NaN)) NT k k' ltac:(lia) ltac:(lia) Ez). auto. }
  assert (G : forall l, NoDup l -> incl l vc -> NoDup (flat_map (fun c => map (fun r : row => (r id, zip_get vc times c)) (f_rows df)) l)).
  { induction l as [|c l IH]; intros Nl Hl; simpl; [constructor|]. inversion Nl as [|c0 l0 Nc Nl0 E0]; subst.
    assert (D : forall x, In x (map (fun r : row => (r id, zip_get vc times c)) (f_rows df)) -> ~ In x (flat_map (fun c => map (fun r : row => (r id, zip_get vc times c)) (f_rows df)) l)).
    { intros x Hx K. apply in_map_iff in Hx as (r & <- & _). apply in_flat_map in K as (c' & Hc' & K). apply in_map_iff in K as (r' & E & _). injection E as _ E.
      assert (c = c'). { apply INJ; [apply Hl; left; auto|apply Hl; right; auto|auto]. } subst. contradiction. }
    assert (N1 : NoDup (map (fun r : row => (r id, zip_get vc times c)) (f_rows df))).
    { rewrite <- (map_map (fun r : row => r id) (fun i => (i, zip_get vc times c))). apply FinFun.Injective_map_NoDup; auto. intros x y E. congruence. }
    specialize (IH Nl0 ltac:(intros x Hx; apply Hl; right; auto)). clear -D N1 IH.
    induction (map (fun r : row => (r id, zip_get vc times c)) (f_rows df)) as [|x xs IHx]; simpl; auto. inversion N1; subst. constructor.
    - rewrite in_app_iff. intros [K|K]; auto. apply (D x); auto. left; auto.
    - apply IHx; auto. intros y Hy. apply D. right; auto. }
  apply G; auto. intros x; auto.
Qed.
Theorem wide_errors df vc id tn vn tv :
  vc = [] \/ has_col df id = false \/ (exists c, In c vc /\ has_col df c = false) \/ (exists l, tv = Some l /\ length l <> length vc) ->
  wide_to_long df vc id tn vn tv = Err ValueError.
Proof.
  intros H. destruct (wide_to_long df vc id tn vn tv) as [df'|e] eqn:E.
  - exfalso. destruct (wide_inv _ _ _ _ _ _ _ E) as (H1 & H2 & H3 & H4 & _). destruct H as [H|[H|[(c & Hc & H)|(l & -> & H)]]]; try congruence. rewrite (H3 c Hc) in H. discriminate.
  - unfold wide_to_long in E. destruct vc; [congruence|]. repeat match type of E with (if ?b then _ else _) = _ => destruct b end; congruence.
Qed.
(* a label that clashes with a kept column is refused, not overwritten *)
Theorem wide_clash df vc id tn vn tv : (In vn (f_cols df) \/ tn = id \/ tn = vn \/ (In tn (f_cols df) /\ ~ In tn vc)) ->
  wide_to_long df vc id tn vn tv = Err ValueError.
Proof.
  intros H. destruct (wide_to_long df vc id tn vn tv) as [df'|e] eqn:E.
  - exfalso. destruct (wide_inv _ _ _ _ _ _ _ E) as (H1 & H2 & H3 & H4 & H5 & others & Ec & NC & Ho & _). rewrite Ec in NC. inversion NC as [|a l0 N1 N2]; subst. inversion N2 as [|a l1 N3 N4]; subst. simpl in *.
    destruct H as [H|[H|[H|[H K]]]].
    + apply has_col_in in H. congruence.
    + subst. tauto.
    + subst. tauto.
    + destruct (string_dec tn id) as [->|Nt]; [tauto|]. apply N3. right. apply Ho. auto.
  - unfold wide_to_long in E. destruct vc; [congruence|]. repeat match type of E with (if ?b then _ else _) = _ => destruct b end; congruence.
Qed.

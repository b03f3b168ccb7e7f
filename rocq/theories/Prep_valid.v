(* validate_did_data, summarize_did_data, aggregate_to_cohorts: proofs. *)
From Verif Require Import Prelude Flt Linalg_model Linalg_proofs Linalg_vcov Linalg_thms Did_model Did_spec Did_proofs Did_equiv Prep_model Prep_proofs.
From Coq Require Import Arith ZArith String List Bool Lia Permutation Sorting.Sorted.
Import ListNotations.
Open Scope R_scope.

(* ---- distinct values ---- *)
Lemma uniq_in (l : list val) v : (forall x, In x l -> visna x = false) -> In v (uniq veqb l) <-> In v l.
Proof.
  induction l as [|x l IH]; intros H; simpl; [tauto|]. rewrite filter_In, IH by (intros; apply H; right; auto). split; [tauto|].
  intros [->|Hv]; auto. destruct (veqb x v) eqn:E; [apply veqb_eq in E as [-> _]; auto|right; auto].
Qed.
Lemma uniq_nodup (l : list val) : (forall x, In x l -> visna x = false) -> NoDup (uniq veqb l).
Proof.
  induction l as [|x l IH]; intros H; simpl; constructor.
  - intros K. apply filter_In in K as [_ K]. rewrite (proj2 (veqb_eq x x)) in K; [discriminate|]. split; auto. apply H. left; auto.
  - apply NoDup_filter, IH. intros; apply H; right; auto.
Qed.
Lemma present_na rows c x : In x (present rows c) -> visna x = false.
Proof. unfold present. rewrite filter_In, negb_true_iff. tauto. Qed.
Lemma values_in rows c v : In v (values rows c) <-> visna v = false /\ exists r, In r rows /\ r c = v.
Proof.
  unfold values. rewrite uniq_in by apply present_na. unfold present. rewrite filter_In, negb_true_iff, in_map_iff. split; [intros ((r & E & H) & N); eauto|intros (N & r & H & E); eauto].
Qed.
Lemma values_nodup rows c : NoDup (values rows c). Proof. apply uniq_nodup, present_na. Qed.
Lemma two_distinct (l : list val) : NoDup l -> (2 <= length l)%nat <-> exists a b, In a l /\ In b l /\ a <> b.
Proof.
  intros N. split.
  - destruct l as [|a [|b l]]; simpl; try lia. intros _. inversion N; subst. exists a, b. repeat split; auto. intros ->. apply H1. left; auto.
  - intros (a & b & Ha & Hb & D). destruct l as [|x [|y l]]; simpl in *; try tauto; try lia. destruct Ha as [->|[]], Hb as [->|[]]; congruence.
Qed.
Lemma sel_in rows c v r : In r (sel rows c v) <-> In r rows /\ r c = v /\ visna v = false.
Proof. unfold sel. rewrite filter_In, veqb_eq. split; intros; intuition; subst; auto. Qed.

(* the data a two-group, several-period comparison needs *)
Definition usable (df : frame) (outcome treatment time : string) (unit : option string) : Prop :=
  (forall c, In c ([outcome; treatment; time] ++ match unit with Some u => [u] | None => [] end) -> In c (f_cols df)) /\
  (forall r, In r (f_rows df) -> exists x, r outcome = Num x /\ x <> NaN) /\
  (forall r, In r (f_rows df) -> r treatment = Num (Fin 0) \/ r treatment = Num (Fin 1)) /\
  (forall r, In r (f_rows df) -> r time <> Num NaN) /\
  (forall u, unit = Some u -> forall r, In r (f_rows df) -> r u <> Num NaN) /\
  (forall a, a = 0 \/ a = 1 -> exists r r', In r (f_rows df) /\ In r' (f_rows df) /\ r treatment = Num (Fin a) /\ r' treatment = Num (Fin a) /\ r time <> r' time).
(* the time column does not mix numbers and strings *)
Definition uniform_col (df : frame) (c : string) : Prop := (forall r, In r (f_rows df) -> exists x, r c = Num x) \/ (forall r, In r (f_rows df) -> exists s, r c = Str s).

Lemma uniform_not_mixed df c : uniform_col df c -> mixed (values (f_rows df) c) = false.
Proof.
  intros U. unfold mixed. destruct U as [U|U].
  - destruct (existsb (fun v => negb (is_num v)) (values (f_rows df) c)) eqn:E; [|apply andb_false_r]. exfalso. apply existsb_exists in E as (v & Hv & E). apply values_in in Hv as (_ & r & Hr & <-). destruct (U r Hr) as (x & Ex). rewrite Ex in E. discriminate.
  - destruct (existsb is_num (values (f_rows df) c)) eqn:E; [|reflexivity]. exfalso. apply existsb_exists in E as (v & Hv & E). apply values_in in Hv as (_ & r & Hr & <-). destruct (U r Hr) as (x & Ex). rewrite Ex in E. discriminate.
Qed.
Lemma visna_iff v : visna v = true <-> v = Num NaN.
Proof. destruct v as [[]|]; simpl; split; congruence. Qed.
Lemma filter_nil {A} (p : A -> bool) l : filter p l = [] <-> forall x, In x l -> p x = false.
Proof.
  induction l as [|y l IH]; simpl; [split; auto; contradiction|]. destruct (p y) eqn:E; split; try discriminate.
  - intros H. rewrite (H y (or_introl eq_refl)) in E. discriminate.
  - intros H x [<-|Hx]; auto. apply IH; auto.
  - intros H. apply IH. auto.
Qed.
Lemma flat_nil {A B} (f : A -> list B) l : flat_map f l = [] <-> forall x, In x l -> f x = [].
Proof.
  induction l as [|y l IH]; simpl; [split; auto; contradiction|]. split.
  - intros H. apply app_eq_nil in H as [H1 H2]. intros x [<-|Hx]; auto. apply IH; auto.
  - intros H. rewrite (H y) by auto. simpl. apply IH. auto.
Qed.
Lemma len0 {A} (l : list A) : (length l =? 0)%nat = true <-> l = []. Proof. rewrite Nat.eqb_eq. destruct l; simpl; split; congruence. Qed.

Lemma finish_valid raise errs ws s r : v_finish raise errs ws s = Ok r -> (v_valid r = true <-> errs = []).
Proof. unfold v_finish. destruct errs; [intros H; injection H as <-; simpl; tauto|]. destruct raise; [discriminate|]. intros H. injection H as <-. simpl. split; discriminate. Qed.
Lemma finish_errors raise errs ws s r : v_finish raise errs ws s = Ok r -> v_errors r = errs /\ v_valid r = (match errs with [] => true | _ => false end) /\ v_summary r = s.
Proof. unfold v_finish. destruct errs; [intros H; injection H as <-; auto|]. destruct raise; [discriminate|]. intros H. injection H as <-. auto. Qed.

(* the checks as one list: what validate reports *)
Definition checks (df : frame) (outcome treatment time : string) (unit : option string) : list verr :=
  let rows := f_rows df in
  let n_t := length (sel rows treatment (level true)) in
  let n_c := length (sel rows treatment (level false)) in
  let pv := values rows time in
  ((if (n_t =? 0)%nat then [ENoTreated] else []) ++ (if (n_c =? 0)%nat then [ENoControl] else [])) ++
  (if (length pv =? 2)%nat then
     flat_map (fun a => flat_map (fun p => match sel (sel rows treatment (level a)) time p with [] => [EEmptyCell a p] | _ => [] end) pv) [false; true]
   else flat_map (fun a => let n := length (values (sel rows treatment (level a)) time) in if (n <? 2)%nat then [EFewPeriods a n] else []) [false; true]).
Lemma checks_nil df outcome treatment time unit :
  (forall r, In r (f_rows df) -> r treatment = Num (Fin 0) \/ r treatment = Num (Fin 1)) ->
  (forall r, In r (f_rows df) -> r time <> Num NaN) ->
  checks df outcome treatment time unit = [] <->
  (forall a, a = 0 \/ a = 1 -> exists r r', In r (f_rows df) /\ In r' (f_rows df) /\ r treatment = Num (Fin a) /\ r' treatment = Num (Fin a) /\ r time <> r' time).
Proof.
  intros Ht Hp. set (rows := f_rows df) in *.
  assert (LV : forall a, visna (level a) = false) by (intros []; reflexivity).
  assert (VT : forall r, In r rows -> In (r time) (values rows time)).
  { intros r Hr. apply values_in. split; [|eauto]. destruct (visna (r time)) eqn:E; auto. apply visna_iff in E. apply Hp in E; tauto. }
  assert (VS : forall a v, In v (values (sel rows treatment (level a)) time) <-> exists r, In r rows /\ r treatment = level a /\ r time = v).
  { intros a v. rewrite values_in. split.
    - intros (N & r & Hr & E). apply sel_in in Hr as (Hr & E2 & _). eauto.
    - intros (r & Hr & E1 & E2). split.
      + destruct (visna v) eqn:E; auto. apply visna_iff in E. subst. apply Hp in E; tauto.
      + exists r. split; auto. apply sel_in. auto. }
  assert (TWO : (forall a, exists r r', In r rows /\ In r' rows /\ r treatment = level a /\ r' treatment = level a /\ r time <> r' time) <->
                forall a, (2 <= length (values (sel rows treatment (level a)) time))%nat).
  { split; intros H a.
    - apply two_distinct; [apply values_nodup|]. destruct (H a) as (r & r' & A & B & D & E & F). exists (r time), (r' time). rewrite !VS. split; [exists r; auto|]. split; [exists r'; auto|auto].
    - specialize (H a). apply two_distinct in H; [|apply values_nodup]. destruct H as (x & y & Hx & Hy & D). apply VS in Hx as (r & A & B & <-). apply VS in Hy as (r' & A' & B' & <-). exists r, r'. auto 6. }
  assert (QQ : (forall a, a = 0 \/ a = 1 -> exists r r', In r rows /\ In r' rows /\ r treatment = Num (Fin a) /\ r' treatment = Num (Fin a) /\ r time <> r' time) <->
               (forall a, exists r r', In r rows /\ In r' rows /\ r treatment = level a /\ r' treatment = level a /\ r time <> r' time)).
  { split; [intros H []; apply H; auto|]. intros H a [->| ->]; [apply (H false)|apply (H true)]. }
  rewrite QQ, TWO. unfold checks. fold rows. set (pv := values rows time) in *.
  assert (E4 : (forall a, sel rows treatment (level a) <> []) -> ((if (length (sel rows treatment (level true)) =? 0)%nat then [ENoTreated] else []) ++ (if (length (sel rows treatment (level false)) =? 0)%nat then [ENoControl] else [])) = []).
  { intros H. destruct (length (sel rows treatment (level true)) =? 0)%nat eqn:E1; [apply len0 in E1; destruct (H true E1)|]. destruct (length (sel rows treatment (level false)) =? 0)%nat eqn:E2; [apply len0 in E2; destruct (H false E2)|]. reflexivity. }
  assert (SUB : forall a, incl (values (sel rows treatment (level a)) time) pv).
  { intros a v Hv. apply VS in Hv as (r & Hr & _ & <-). apply VT; auto. }
  split.
  - intros H. apply app_eq_nil in H as [_ H]. destruct (length pv =? 2)%nat eqn:E.
    + apply Nat.eqb_eq in E. intros a. rewrite <- E. apply NoDup_incl_length; [apply values_nodup|]. intros p Hpv. apply VS.
      rewrite flat_nil in H. specialize (H a ltac:(destruct a; simpl; auto)). rewrite flat_nil in H. specialize (H p Hpv).
      destruct (sel (sel rows treatment (level a)) time p) as [|r l] eqn:Es; [discriminate|]. assert (K : In r (sel (sel rows treatment (level a)) time p)) by (rewrite Es; left; auto).
      apply sel_in in K as (K & K2 & _). apply sel_in in K as (K & K3 & _). eauto.
    + intros a. rewrite flat_nil in H. specialize (H a ltac:(destruct a; simpl; auto)). cbv zeta in H. destruct (length (values (sel rows treatment (level a)) time) <? 2)%nat eqn:L; [discriminate|]. apply Nat.ltb_ge in L. auto.
  - intros H. rewrite E4.
    + simpl. destruct (length pv =? 2)%nat eqn:E.
      * apply Nat.eqb_eq in E. change (flat_map (fun a => flat_map (fun p => match sel (sel rows treatment (level a)) time p with [] => [EEmptyCell a p] | _ => [] end) pv) [false; true] = []).
        apply flat_nil. intros a _. apply flat_nil. intros p Hpv. assert (J : incl pv (values (sel rows treatment (level a)) time)) by (apply NoDup_length_incl; [apply values_nodup|specialize (H a); lia|apply SUB]).
        apply J, VS in Hpv as (r & A & B & D). assert (K : In r (sel (sel rows treatment (level a)) time p)).
        { apply sel_in. split; [apply sel_in; auto|]. split; auto. destruct (visna p) eqn:E'; auto. apply visna_iff in E'. subst p. exfalso. eapply Hp; eauto. }
        destruct (sel (sel rows treatment (level a)) time p); [destruct K|reflexivity].
      * change (flat_map (fun a => let n := length (values (sel rows treatment (level a)) time) in if (n <? 2)%nat then [EFewPeriods a n] else []) [false; true] = []).
        apply flat_nil. intros a _. cbv zeta. destruct (Nat.ltb_spec (length (values (sel rows treatment (level a)) time)) 2); auto. specialize (H a). lia.
    + intros a E. specialize (H a). rewrite E in H. simpl in H. lia.
Qed.

(* valid data are exactly the usable data *)
Theorem validate_iff df outcome treatment time unit : uniform_col df time ->
  ((exists r, validate_did_data df outcome treatment time unit false = Ok r /\ v_valid r = true) <-> usable df outcome treatment time unit).
Proof.
  intros UT. pose proof (uniform_not_mixed df time UT) as NM. unfold usable.
  set (req := [outcome; treatment; time] ++ match unit with Some u => [u] | None => [] end). set (rows := f_rows df) in *.
  assert (AB : filter (fun c => negb (has_col df c)) req = [] <-> forall c, In c req -> In c (f_cols df)).
  { rewrite filter_nil. split; intros H c Hc; specialize (H c Hc); [apply negb_false_iff in H; apply has_col_in; auto|apply negb_false_iff, has_col_in; auto]. }
  assert (MISS : forall c, (length (filter (fun r : row => visna (r c)) rows) =? 0)%nat = true <-> forall r, In r rows -> r c <> Num NaN).
  { intros c. rewrite len0, filter_nil. split; intros H r Hr; specialize (H r Hr); [intros E; apply visna_iff in E; congruence|destruct (visna (r c)) eqn:E; auto; apply visna_iff in E; congruence]. }
  unfold validate_did_data. fold rows. fold req.
  destruct (filter (fun c => negb (has_col df c)) req) as [|c0 ab] eqn:EA.
  2:{ split.
      - intros (r & H & V). apply (finish_valid _ _ _ _ _ H) in V. discriminate.
      - intros (H & _). apply AB in H. discriminate. }
  pose proof (proj1 AB eq_refl) as COLS.
  set (tv := values rows treatment). set (pv := values rows time) in *.
  destruct (negb (forallb is01 tv) && mixed tv) eqn:TE.
  { split; [intros (r & H & _); discriminate|]. intros (_ & _ & H & _). exfalso. apply andb_true_iff in TE as [TE _]. apply negb_true_iff in TE. enough (forallb is01 tv = true) by congruence.
    apply forallb_forall. intros v Hv. apply values_in in Hv as (_ & r & Hr & <-). unfold is01. destruct (H r Hr) as [-> | ->]; simpl; rewrite ?Reqb_refl; auto. apply orb_true_r. }
  rewrite NM, andb_false_r.
  set (e1 := if forallb (fun r : row => is_num (r outcome)) rows then [] else [ENotNumeric]).
  set (e2 := if forallb is01 tv then [] else [ENotBinary]).
  set (e3 := flat_map (fun c => if (length (filter (fun r : row => visna (r c)) rows) =? 0)%nat then [] else [EMissing c (length (filter (fun r : row => visna (r c)) rows))]) req).
  assert (E3 : e3 = [] <-> forall c, In c req -> forall r, In r rows -> r c <> Num NaN).
  { unfold e3. rewrite flat_nil. split; intros H c Hc; specialize (H c Hc).
    - apply MISS. destruct (_ =? 0)%nat; [auto|discriminate].
    - apply MISS in H. rewrite H. reflexivity. }
  assert (E1 : e1 = [] <-> forall r, In r rows -> exists x, r outcome = Num x).
  { unfold e1. destruct (forallb (fun r : row => is_num (r outcome)) rows) eqn:F; split; auto; try discriminate.
    - intros _ r Hr. rewrite forallb_forall in F. specialize (F r Hr). destruct (r outcome); [eauto|discriminate].
    - intros H. exfalso. enough (forallb (fun r : row => is_num (r outcome)) rows = true) by congruence. apply forallb_forall. intros r Hr. destruct (H r Hr) as (x & ->). reflexivity. }
  assert (E2 : e2 = [] <-> forall r, In r rows -> r treatment = Num NaN \/ r treatment = Num (Fin 0) \/ r treatment = Num (Fin 1)).
  { unfold e2. destruct (forallb is01 tv) eqn:F; split; auto; try discriminate.
    - intros _ r Hr. rewrite forallb_forall in F. destruct (visna (r treatment)) eqn:N; [left; apply visna_iff; auto|]. right. assert (K : In (r treatment) tv) by (apply values_in; split; eauto).
      apply F in K. unfold is01 in K. apply orb_true_iff in K as [K|K]; apply veqb_eq in K as [K _]; auto.
    - intros H. exfalso. enough (forallb is01 tv = true) by congruence. apply forallb_forall. intros v Hv. apply values_in in Hv as (N & r & Hr & <-). unfold is01. destruct (H r Hr) as [E|[-> | ->]]; [rewrite E in N; discriminate| |]; simpl; rewrite ?Reqb_refl; auto. apply orb_true_r. }
  set (w1 := if _ && negb (forallb is01 pv) then [WTimeNot01] else []).
  assert (CLEAN : e1 ++ e2 ++ e3 = [] <-> (forall r, In r rows -> exists x, r outcome = Num x /\ x <> NaN) /\
     (forall r, In r rows -> r treatment = Num (Fin 0) \/ r treatment = Num (Fin 1)) /\ (forall r, In r rows -> r time <> Num NaN) /\
     (forall u, unit = Some u -> forall r, In r rows -> r u <> Num NaN)).
  { split.
    - intros H. apply app_eq_nil in H as [H1 H]. apply app_eq_nil in H as [H2 H3]. rewrite E1 in H1. rewrite E2 in H2. rewrite E3 in H3. repeat split.
      + intros r Hr. destruct (H1 r Hr) as (x & Ex). exists x. split; auto. intros ->. apply (H3 outcome) in Ex; auto. unfold req. simpl; auto.
      + intros r Hr. destruct (H2 r Hr) as [K|K]; auto. apply (H3 treatment) in K; auto; [tauto|unfold req; simpl; auto].
      + intros r Hr. apply H3; auto. unfold req; simpl; auto.
      + intros u -> r Hr. apply H3; auto. unfold req; simpl; auto.
    - intros (H1 & H2 & H3 & H4). rewrite (proj2 E1), (proj2 E2), (proj2 E3); auto.
      + intros c Hc r Hr. unfold req in Hc. apply in_app_iff in Hc as [[<-|[<-|[<-|[]]]]|Hc].
        * destruct (H1 r Hr) as (x & -> & N). congruence.
        * destruct (H2 r Hr) as [-> | ->]; intros E; injection E; congruence.
        * auto.
        * destruct unit as [u|]; [|destruct Hc]. destruct Hc as [<-|[]]. apply H4; auto.
      + intros r Hr. destruct (H1 r Hr) as (x & -> & _). eauto. }
  destruct (e1 ++ e2 ++ e3) as [|e0 es] eqn:EE.
  2:{ split.
      - intros (r & H & V). apply (finish_valid _ _ _ _ _ H) in V. discriminate.
      - intros (_ & H1 & H2 & H3 & H4 & _). assert (K : e0 :: es = []) by (apply CLEAN; auto). discriminate. }
  destruct (proj1 CLEAN eq_refl) as (C1 & C2 & C3 & C4).
  pose proof (checks_nil df outcome treatment time unit C2 C3) as CK.
  assert (EQ : (exists r, (match unit, checks df outcome treatment time unit with
          | Some u, [] =>
              v_finish false [] (w1 ++ (if (0 <? length (filter (fun x => (1 <? length (values (sel rows u x) treatment))%nat) (values rows u)))%nat then [WVarying (length (filter (fun x => (1 <? length (values (sel rows u x) treatment))%nat) (values rows u)))] else [])
                  ++ (if (min_nat (map (fun x => length (values (sel rows u x) time)) (values rows u)) =? max_nat (map (fun x => length (values (sel rows u x) time)) (values rows u)))%nat then [] else [WUnbalanced (min_nat (map (fun x => length (values (sel rows u x) time)) (values rows u))) (max_nat (map (fun x => length (values (sel rows u x) time)) (values rows u)))]))
                 (Some {| s_obs := length rows; s_treated := length (sel rows treatment (level true)); s_control := length (sel rows treatment (level false)); s_periods := length pv; s_units := match unit with Some u => Some (length (values rows u)) | None => None end |})
          | _, errs => v_finish false errs w1 (Some {| s_obs := length rows; s_treated := length (sel rows treatment (level true)); s_control := length (sel rows treatment (level false)); s_periods := length pv; s_units := match unit with Some u => Some (length (values rows u)) | None => None end |})
          end) = Ok r /\ v_valid r = true) <-> checks df outcome treatment time unit = []).
  { split.
    - intros (r & H & V). destruct unit as [u|].
      + destruct (checks df outcome treatment time (Some u)) eqn:Ek; auto. apply (finish_valid _ _ _ _ _ H) in V. discriminate.
      + apply (finish_valid _ _ _ _ _ H) in V. auto.
    - intros ->. destruct unit as [u|]; eexists; split; reflexivity. }
  etransitivity; [exact EQ|]. rewrite CK. tauto.
Qed.
(* raise_on_error=True: an exception exactly when the report says invalid *)
Theorem validate_raise df outcome treatment time unit r : validate_did_data df outcome treatment time unit false = Ok r ->
  validate_did_data df outcome treatment time unit true = (if v_valid r then Ok r else Err ValueError) /\ (v_valid r = true <-> v_errors r = []).
Proof.
  assert (F : forall errs ws s r, v_finish false errs ws s = Ok r -> v_finish true errs ws s = (if v_valid r then Ok r else Err ValueError) /\ (v_valid r = true <-> v_errors r = [])).
  { unfold v_finish. intros [|e errs] ws s r0 H; injection H as <-; simpl; split; auto; split; auto; discriminate. }
  unfold validate_did_data. destruct (filter _ _); [|apply F]. destruct (negb _ && _); [discriminate|]. destruct (_ && mixed _); [discriminate|].
  destruct (_ ++ _ ++ _); [|apply F]. destruct unit as [u|]; [|apply F]. destruct (_ ++ _); apply F.
Qed.
(* the summary counts *)
Theorem validate_summary df outcome treatment time unit r s : validate_did_data df outcome treatment time unit false = Ok r -> v_summary r = Some s -> v_valid r = true ->
  s_obs s = length (f_rows df) /\ (s_treated s + s_control s = s_obs s)%nat /\
  s_treated s = length (filter (fun q => veqb (q treatment) (Num (Fin 1))) (f_rows df)).
Proof.
  intros H S V.
  assert (T : (forall q, In q (f_rows df) -> q treatment = Num (Fin 0) \/ q treatment = Num (Fin 1)) /\ s = {| s_obs := length (f_rows df); s_treated := length (sel (f_rows df) treatment (level true)); s_control := length (sel (f_rows df) treatment (level false)); s_periods := s_periods s; s_units := s_units s |}).
  { unfold validate_did_data in H. destruct (filter _ (_ ++ _)) in H; [|apply (finish_valid _ _ _ _ _ H) in V; discriminate].
    destruct (negb _ && _) in H; [discriminate|]. destruct (_ && mixed _) in H; [discriminate|].
    destruct ((if forallb (fun r : row => is_num (r outcome)) (f_rows df) then [] else [ENotNumeric]) ++ _) eqn:E in H; [|apply (finish_valid _ _ _ _ _ H) in V; discriminate].
    split.
    - apply app_eq_nil in E as [_ E]. apply app_eq_nil in E as [E2 E3]. intros q Hq. destruct (forallb is01 (values (f_rows df) treatment)) eqn:F; [|discriminate].
      rewrite flat_nil in E3. specialize (E3 treatment ltac:(simpl; auto)). destruct (length (filter (fun r : row => visna (r treatment)) (f_rows df)) =? 0)%nat eqn:N; [|discriminate].
      apply len0 in N. rewrite filter_nil in N. specialize (N q Hq). rewrite forallb_forall in F. assert (K : In (q treatment) (values (f_rows df) treatment)) by (apply values_in; split; eauto).
      apply F in K. unfold is01 in K. apply orb_true_iff in K as [K|K]; apply veqb_eq in K as [K _]; auto.
    - destruct unit as [u|].
      + destruct (_ ++ _) in H; apply finish_errors in H as (_ & _ & H); rewrite S in H; injection H as ->; reflexivity.
      + apply finish_errors in H as (_ & _ & H). rewrite S in H. injection H as ->. reflexivity. }
  destruct T as [T ->]. cbn [s_obs s_treated s_control]. split; auto. split; [|reflexivity]. unfold sel, level. clear -T. induction (f_rows df) as [|q l IH]; [reflexivity|].
  cbn [filter length]. specialize (IH ltac:(intros; apply T; right; auto)). destruct (T q (or_introl eq_refl)) as [-> | ->]; simpl; rewrite ?Reqb_refl, ?Reqb_01, ?Reqb_10; simpl; lia.
Qed.

(* ---- validated data and DifferenceInDifferences.fit ---- *)
Section Fit.
Context {K G : Type} (keq : forall x y : K, {x = y} + {x <> y}) (geq : forall x y : G, {x = y} + {x <> y}).
Variable qr : list row -> list (row -> R) -> list nat.
Variable lstsq : list row -> list (row -> R) -> (row -> R) -> list R.
Variable inv : list row -> list (row -> R) -> option (nat -> nat -> R).
Variable pinv : list row -> list (row -> R) -> nat -> nat -> R.
Variable sf : option Z -> fl -> fl.
Variable ppf : option Z -> R -> R.
Hypothesis Hls : lstsq_ok lstsq.
Hypothesis Hinv : inv_ok inv.
Hypothesis Hqr : qr_ok qr.
Notation fit := (did_fit keq geq qr lstsq inv pinv sf ppf).
Definition colf (c : string) : row -> fl := fun r => num (r c).

Lemma usable_cells df outcome treatment time unit : usable df outcome treatment time unit ->
  (forall r, In r (f_rows df) -> exists x, r outcome = Num (Fin x)) ->
  (forall r, In r (f_rows df) -> r time = Num (Fin 0) \/ r time = Num (Fin 1)) ->
  finite_col (f_rows df) (colf outcome) /\ finite_col (f_rows df) (colf treatment) /\ finite_col (f_rows df) (colf time) /\
  zero_one (f_rows df) (fun r => toR (colf treatment r)) /\ zero_one (f_rows df) (fun r => toR (colf time r)) /\
  four_cells (f_rows df) (fun r => toR (colf treatment r)) (fun r => toR (colf time r)).
Proof.
  intros (_ & _ & U2 & _ & _ & U5) FY FT. unfold colf.
  assert (C : forall a b, (a = 0 \/ a = 1) -> (b = 0 \/ b = 1) -> cell (f_rows df) (fun r => toR (num (r treatment))) (fun r => toR (num (r time))) a b <> []).
  { intros a b Ha Hb E. destruct (U5 a Ha) as (r & r' & H1 & H2 & E1 & E2 & D).
    assert (X : exists q, In q (f_rows df) /\ q treatment = Num (Fin a) /\ q time = Num (Fin b)).
    { destruct (FT r H1) as [F1|F1], (FT r' H2) as [F2|F2]; rewrite F1, F2 in D; try congruence; destruct Hb as [-> | ->]; eauto. }
    destruct X as (q & Hq & Q1 & Q2). assert (I : In q (cell (f_rows df) (fun r => toR (num (r treatment))) (fun r => toR (num (r time))) a b)).
    { apply cell_in. rewrite Q1, Q2. simpl. auto. }
    rewrite E in I. destruct I. }
  repeat split; try (apply C; auto).
  - intros r Hr. destruct (FY r Hr) as (x & ->). simpl; eauto.
  - intros r Hr. destruct (U2 r Hr) as [-> | ->]; simpl; eauto.
  - intros r Hr. destruct (FT r Hr) as [-> | ->]; simpl; eauto.
  - intros r Hr. destruct (U2 r Hr) as [-> | ->]; simpl; auto.
  - intros r Hr. destruct (FT r Hr) as [-> | ->]; simpl; auto.
Qed.
(* valid, 0/1 periods, finite outcomes, more than four rows: the estimator returns a result *)
Theorem valid_fit cfg df outcome treatment time unit r :
  validate_did_data df outcome treatment time unit false = Ok r -> v_valid r = true ->
  (forall r, In r (f_rows df) -> exists x, r outcome = Num (Fin x)) ->
  (forall r, In r (f_rows df) -> r time = Num (Fin 0) \/ r time = Num (Fin 1)) ->
  (4 < length (f_rows df))%nat -> parse_action (c_action cfg) <> None ->
  (forall cl, c_cluster cfg = Some cl -> (2 <= length (cl_keys keq (f_rows df) cl))%nat) ->
  exists s se, fit cfg (f_rows df) (colf outcome) (colf treatment) (colf time) [] [] [] = Ok s /\ r_se s = Fin se /\ 0 <= se.
Proof.
  intros H V FY FT L A CL. assert (U : usable df outcome treatment time unit).
  { apply validate_iff; eauto. left. intros q Hq. destruct (FT q Hq) as [-> | ->]; eauto. }
  destruct (usable_cells _ _ _ _ _ U FY FT) as (F1 & F2 & F3 & Z1 & Z2 & C4). eapply did_fit_defined; eauto.
Qed.
(* valid 0/1 data pass every check of fit except infinite outcomes *)
Theorem valid_checks df outcome treatment time unit r :
  validate_did_data df outcome treatment time unit false = Ok r -> v_valid r = true ->
  (forall r, In r (f_rows df) -> r time = Num (Fin 0) \/ r time = Num (Fin 1)) ->
  existsb (has_nan (f_rows df)) [colf outcome; colf treatment; colf time] = false /\
  two_values (f_rows df) (colf treatment) = true /\ two_values (f_rows df) (colf time) = true /\
  binary (f_rows df) (colf treatment) = true /\ binary (f_rows df) (colf time) = true.
Proof.
  intros H V FT. assert (U : usable df outcome treatment time unit).
  { apply validate_iff; eauto. left. intros q Hq. destruct (FT q Hq) as [-> | ->]; eauto. }
  destruct U as (U0 & U1 & U2 & U3 & U4 & U5). unfold colf.
  split; [|split; [|split; [|split]]].
  - destruct (existsb _ _) eqn:E; auto. apply existsb_exists in E as (f & Hf & E). apply existsb_exists in E as (q & Hq & E). exfalso. destruct Hf as [<-|[<-|[<-|[]]]].
    + destruct (U1 q Hq) as (x & Ex & N). rewrite Ex in E. simpl in E. destruct x; try discriminate. congruence.
    + destruct (U2 q Hq) as [Ex|Ex]; rewrite Ex in E; discriminate.
    + destruct (FT q Hq) as [Ex|Ex]; rewrite Ex in E; discriminate.
  - destruct (U5 0 (or_introl eq_refl)) as (a & _ & Ha & _ & Ea & _). destruct (U5 1 (or_intror eq_refl)) as (b & _ & Hb & _ & Eb & _).
    apply existsb_exists. exists a. split; auto. apply existsb_exists. exists b. split; auto. rewrite Ea, Eb. simpl. rewrite Reqb_01. reflexivity.
  - destruct (U5 0 (or_introl eq_refl)) as (a & b & Ha & Hb & _ & _ & D). apply existsb_exists. exists a. split; auto. apply existsb_exists. exists b. split; auto.
    destruct (FT a Ha) as [Ea|Ea], (FT b Hb) as [Eb|Eb]; rewrite Ea, Eb in *; try congruence; simpl; rewrite ?Reqb_01, ?Reqb_10; reflexivity.
  - apply forallb_forall. intros q Hq. destruct (U2 q Hq) as [-> | ->]; simpl; rewrite ?Reqb_refl; auto. rewrite orb_true_r. auto.
  - apply forallb_forall. intros q Hq. destruct (FT q Hq) as [-> | ->]; simpl; rewrite ?Reqb_refl; auto. rewrite orb_true_r. auto.
Qed.
(* usable data whose period column has another value: refused by fit *)
Theorem valid_time_refused cfg df outcome treatment time unit : usable df outcome treatment time unit ->
  (exists r v, In r (f_rows df) /\ r time = v /\ is01 v = false) ->
  fit cfg (f_rows df) (colf outcome) (colf treatment) (colf time) [] [] [] = Err ValueError.
Proof.
  intros U (q & v & Hq & Ev & Nv). unfold did_fit.
  destruct (existsb (has_nan (f_rows df)) [colf outcome; colf treatment; colf time]) eqn:E; [reflexivity|].
  destruct (negb (two_values (f_rows df) (colf treatment))); [reflexivity|]. destruct (negb (two_values (f_rows df) (colf time))); [reflexivity|].
  destruct (negb (binary (f_rows df) (colf treatment))); [reflexivity|]. replace (binary (f_rows df) (colf time)) with false; [reflexivity|]. symmetry.
  destruct (binary (f_rows df) (colf time)) eqn:B; auto. exfalso. unfold binary in B. rewrite forallb_forall in B. specialize (B q Hq). unfold colf in B. rewrite Ev in B.
  destruct U as (_ & _ & _ & U3 & _). specialize (U3 q Hq). rewrite Ev in U3.
  destruct v as [x|s].
  - unfold is01 in Nv. simpl in *. destruct x; try discriminate; try congruence. simpl in Nv, B. congruence.
  - simpl in E. apply orb_false_iff in E as [_ E]. apply orb_false_iff in E as [_ E]. apply orb_false_iff in E as [E _]. unfold has_nan in E.
    assert (existsb (fun i : row => fisnan (colf time i)) (f_rows df) = true) by (apply existsb_exists; exists q; split; auto; unfold colf; rewrite Ev; reflexivity). congruence.
Qed.
(* four valid rows, one per cell: the default robust fit divides by zero *)
Theorem valid_four_rows_refuted cfg df outcome treatment time unit : usable df outcome treatment time unit ->
  (forall r, In r (f_rows df) -> exists x, r outcome = Num (Fin x)) ->
  (forall r, In r (f_rows df) -> r time = Num (Fin 0) \/ r time = Num (Fin 1)) ->
  length (f_rows df) = 4%nat -> parse_action (c_action cfg) <> None -> c_robust cfg = true -> c_cluster cfg = None ->
  fit cfg (f_rows df) (colf outcome) (colf treatment) (colf time) [] [] [] = Err ZeroDivisionError.
Proof.
  intros U FY FT L A R0 CL. destruct (usable_cells _ _ _ _ _ U FY FT) as (F1 & F2 & F3 & Z1 & Z2 & C4). apply (did_fit_n_equals_k keq geq qr lstsq inv pinv sf ppf Hqr); auto.
Qed.
Theorem valid_infinite_refuted cfg df outcome treatment time unit : usable df outcome treatment time unit ->
  (exists r, In r (f_rows df) /\ (r outcome = Num PInf \/ r outcome = Num NInf)) ->
  fit cfg (f_rows df) (colf outcome) (colf treatment) (colf time) [] [] [] = Err ValueError.
Proof.
  intros U (q & Hq & Eq). unfold did_fit.
  destruct (existsb (has_nan (f_rows df)) [colf outcome; colf treatment; colf time]); [reflexivity|].
  destruct (negb (two_values (f_rows df) (colf treatment))); [reflexivity|]. destruct (negb (two_values (f_rows df) (colf time))); [reflexivity|].
  destruct (negb (binary (f_rows df) (colf treatment))); [reflexivity|]. destruct (negb (binary (f_rows df) (colf time))); [reflexivity|].
  replace (existsb (has_inf (f_rows df)) [colf outcome]) with true; [reflexivity|]. symmetry. simpl. apply orb_true_iff. left. apply existsb_exists. exists q. split; auto. unfold colf. destruct Eq as [-> | ->]; reflexivity.
Qed.
End Fit.

(* concrete frames *)
Definition mk_row (y d p : R) : row := fun c => if String.eqb c "y" then Num (Fin y) else if String.eqb c "d" then Num (Fin d) else if String.eqb c "p" then Num (Fin p) else Num NaN.
Definition mk_frame (l : list (R * R * R)) : frame := {| f_cols := ["y"; "d"; "p"]%string; f_rows := map (fun q => mk_row (fst (fst q)) (snd (fst q)) (snd q)) l |}.
Lemma mk_usable l : (forall q, In q l -> snd (fst q) = 0 \/ snd (fst q) = 1) ->
  (forall a, a = 0 \/ a = 1 -> exists q q', In q l /\ In q' l /\ snd (fst q) = a /\ snd (fst q') = a /\ snd q <> snd q') -> usable (mk_frame l) "y" "d" "p" None.
Proof.
  intros H1 H2. unfold usable, mk_frame; cbn [f_cols f_rows].
  assert (M : forall r, In r (map (fun q => mk_row (fst (fst q)) (snd (fst q)) (snd q)) l) -> exists q, In q l /\ r = mk_row (fst (fst q)) (snd (fst q)) (snd q)) by (intros r Hr; apply in_map_iff in Hr as (q & <- & Hq); eauto).
  split; [intros c Hc; rewrite app_nil_r in Hc; exact Hc|]. split; [intros r Hr; destruct (M r Hr) as (q & Hq & ->); simpl; eexists; split; [reflexivity|discriminate]|].
  split; [intros r Hr; destruct (M r Hr) as (q & Hq & ->); simpl; destruct (H1 q Hq) as [-> | ->]; auto|].
  split; [intros r Hr; destruct (M r Hr) as (q & Hq & ->); simpl; discriminate|]. split; [discriminate|].
  intros a Ha. destruct (H2 a Ha) as (q & q' & I1 & I2 & E1 & E2 & D). exists (mk_row (fst (fst q)) (snd (fst q)) (snd q)), (mk_row (fst (fst q')) (snd (fst q')) (snd q')).
  split; [apply in_map_iff; eauto|]. split; [apply in_map_iff; eauto|]. simpl. rewrite E1, E2. repeat split; auto. intros E. injection E as E. contradiction.
Qed.
Lemma mk_uniform l : uniform_col (mk_frame l) "p".
Proof. left. unfold mk_frame; cbn [f_rows]. intros r Hr. apply in_map_iff in Hr as (q & <- & Hq). exists (Fin (snd q)). reflexivity. Qed.
(* the docstring example of validate_did_data, 432-439 *)
Definition doc_frame : frame := mk_frame [(1, 0, 0); (2, 0, 1); (3, 1, 0); (4, 1, 1)].
Theorem doc_valid : (exists r, validate_did_data doc_frame "y" "d" "p" None false = Ok r /\ v_valid r = true) /\ usable doc_frame "y" "d" "p" None.
Proof.
  assert (U : usable doc_frame "y" "d" "p" None).
  { apply mk_usable; [intros q Hq; simpl in Hq; intuition; subst; simpl; auto|].
    intros a [-> | ->]; [exists (1, 0, 0), (2, 0, 1)|exists (3, 1, 0), (4, 1, 1)]; simpl; repeat split; auto; lra. }
  split; auto. apply validate_iff; auto. apply mk_uniform.
Qed.
(* the same rows with periods 1 and 2 *)
Definition shifted_frame : frame := mk_frame [(1, 0, 1); (2, 0, 2); (3, 1, 1); (4, 1, 2); (5, 1, 2)].
Theorem shifted_valid : (exists r, validate_did_data shifted_frame "y" "d" "p" None false = Ok r /\ v_valid r = true) /\ usable shifted_frame "y" "d" "p" None /\
  exists r v, In r (f_rows shifted_frame) /\ r "p"%string = v /\ is01 v = false.
Proof.
  assert (U : usable shifted_frame "y" "d" "p" None).
  { apply mk_usable; [intros q Hq; simpl in Hq; intuition; subst; simpl; auto|].
    intros a [-> | ->]; [exists (1, 0, 1), (2, 0, 2)|exists (3, 1, 1), (4, 1, 2)]; simpl; repeat split; auto; lra. }
  split; [apply validate_iff; auto; apply mk_uniform|]. split; auto.
  exists (mk_row 2 0 2), (Num (Fin 2)). split; [simpl; auto|]. split; [reflexivity|]. unfold is01, veqb, feqb. rewrite (proj2 (Reqb_false 2 0)), (proj2 (Reqb_false 2 1)) by lra. reflexivity.
Qed.

(* ---- summaries ---- *)
Section Summary.
Context {I : Type}.
Lemma rins_in x l v : In v (rins x l) <-> v = x \/ In v l.
Proof.
  induction l as [|y l IH]; simpl; [firstorder|]. destruct (Rltb x y) eqn:E; simpl; [firstorder|]. destruct (Reqb x y) eqn:E2; simpl; [apply Reqb_true in E2; subst; firstorder|]. rewrite IH. firstorder.
Qed.
Lemma rvalues_in l v : In v (rvalues l) <-> In v l.
Proof. unfold rvalues. induction l as [|x l IH]; simpl; [tauto|]. rewrite rins_in, IH. firstorder. Qed.
Lemma rins_sorted x l : StronglySorted Rlt l -> StronglySorted Rlt (rins x l).
Proof.
  induction 1 as [|y l S IH F]; simpl; [repeat constructor|]. destruct (Rltb x y) eqn:E.
  - apply Rltb_true in E. constructor; [constructor; auto|]. constructor; auto. eapply Forall_impl; [|exact F]. intros; lra.
  - apply Rltb_false in E. destruct (Reqb x y) eqn:E2; [constructor; auto|]. apply Reqb_false in E2. constructor; auto. rewrite Forall_forall in *. intros z Hz. apply rins_in in Hz as [->|Hz]; auto. lra.
Qed.
Lemma rvalues_sorted l : StronglySorted Rlt (rvalues l).
Proof. unfold rvalues. induction l as [|x l IH]; simpl; [constructor|]. apply rins_sorted; auto. Qed.
Lemma rvalues_01 (l : list R) : (forall x, In x l -> x = 0 \/ x = 1) -> In 0 l -> In 1 l -> rvalues l = [0; 1].
Proof.
  intros H H0 H1. pose proof (rvalues_sorted l) as S. assert (I0 : forall v, In v (rvalues l) <-> v = 0 \/ v = 1).
  { intros v. rewrite rvalues_in. split; [apply H|intros [-> | ->]; auto]. }
  destruct (rvalues l) as [|a [|b [|c r]]].
  - specialize (I0 0). simpl in I0. tauto.
  - pose proof (proj2 (I0 0) (or_introl eq_refl)) as A. pose proof (proj2 (I0 1) (or_intror eq_refl)) as B. simpl in *. destruct A as [A|[]], B as [B|[]]. lra.
  - pose proof (StronglySorted_inv S) as [_ F]. rewrite Forall_forall in F. pose proof (F b (or_introl eq_refl)).
    pose proof (proj1 (I0 a) (or_introl eq_refl)). pose proof (proj1 (I0 b) (or_intror (or_introl eq_refl))). f_equal; [|f_equal]; lra.
  - pose proof (StronglySorted_inv S) as [S2 F]. pose proof (StronglySorted_inv S2) as [_ F2]. rewrite Forall_forall in F, F2. pose proof (F b (or_introl eq_refl)). pose proof (F2 c (or_introl eq_refl)).
    pose proof (proj1 (I0 a) (or_introl eq_refl)). pose proof (proj1 (I0 b) (or_intror (or_introl eq_refl))). pose proof (proj1 (I0 c) (or_intror (or_intror (or_introl eq_refl)))). lra.
Qed.
Lemma fmeanR_mean (y : I -> R) l : l <> [] -> fmeanR y l = Fin (meanf y l).
Proof.
  intros H. unfold fmeanR, fmean. destruct l as [|i l]; [congruence|]. set (k := i :: l).
  change (map (fun i => Fin (y i)) k) with (map (fun i => Fin (y i)) k). destruct (map (fun i => Fin (y i)) k) eqn:E; [discriminate|]. rewrite <- E.
  replace (fsum (map (fun i => Fin (y i)) k)) with (Fin (sumf y k)) by (clear; induction k as [|a k IH]; simpl; auto; rewrite <- IH; reflexivity).
  unfold fdiv. assert (L : len (map (fun i => Fin (y i)) k) = len k) by (unfold len; rewrite map_length; reflexivity). rewrite L.
  assert (0 < len k) by (unfold len; apply lt_0_INR; simpl; lia). destruct (Req_EM_T (len k) 0); [lra|]. reflexivity.
Qed.
(* the DiD row of the table is the difference in differences of the cell means, and hence the estimator's ATT *)
Theorem summary_did (rows : list I) (y d t : I -> R) pre post : rvalues (map t rows) = [pre; post] ->
  scell rows d t 1 post <> [] -> scell rows d t 1 pre <> [] -> scell rows d t 0 post <> [] -> scell rows d t 0 pre <> [] ->
  snd (summarize rows y d t) = Some (Fin ((meanf y (scell rows d t 1 post) - meanf y (scell rows d t 1 pre)) - (meanf y (scell rows d t 0 post) - meanf y (scell rows d t 0 pre)))) /\ pre < post.
Proof.
  intros E A B C D. unfold summarize. rewrite E. cbn [snd]. rewrite !fmeanR_mean by auto. split; [reflexivity|].
  pose proof (rvalues_sorted (map t rows)) as S. rewrite E in S. pose proof (StronglySorted_inv S) as [_ F]. rewrite Forall_forall in F. apply F. left; auto.
Qed.
Theorem summary_did_01 (rows : list I) (y d t : I -> R) : zero_one rows t -> four_cells rows d t -> snd (summarize rows y d t) = Some (Fin (did_of_means rows d t y)).
Proof.
  intros Z (H00 & H01 & H10 & H11).
  assert (X : forall a b, cell rows d t a b <> [] -> In b (map t rows)).
  { intros a b H. destruct (cell rows d t a b) as [|i l] eqn:E; [congruence|]. assert (K : In i (cell rows d t a b)) by (rewrite E; left; auto). apply cell_in in K as (K1 & _ & K2). apply in_map_iff. eauto. }
  destruct (summary_did rows y d t 0 1) as [S _]; auto. apply rvalues_01; eauto. intros x Hx. apply in_map_iff in Hx as (i & <- & Hi). auto.
Qed.
(* the table: one line per non-empty cell, which counts and averages its rows *)
Theorem summary_lines (rows : list I) (y d t : I -> R) c : In c (group_stats rows y d t) <->
  scell rows d t (cs_d c) (cs_t c) <> [] /\ cs_n c = length (scell rows d t (cs_d c) (cs_t c)) /\ cs_mean c = meanf y (scell rows d t (cs_d c) (cs_t c)).
Proof.
  unfold group_stats. rewrite in_flat_map. split.
  - intros (a & Ha & H). apply in_flat_map in H as (b & Hb & H). destruct (scell rows d t a b) as [|i l] eqn:E; [destruct H|]. destruct H as [<-|[]]. cbn [cs_d cs_t cs_n cs_mean]. rewrite E. repeat split; auto. discriminate.
  - intros (N & E1 & E2). destruct (scell rows d t (cs_d c) (cs_t c)) as [|i l] eqn:E; [congruence|].
    assert (K : In i (cell rows d t (cs_d c) (cs_t c))) by (unfold scell in E; unfold cell; rewrite E; left; auto). apply cell_in in K as (K1 & K2 & K3).
    exists (cs_d c). split; [apply rvalues_in, in_map_iff; eauto|]. apply in_flat_map. exists (cs_t c). split; [apply rvalues_in, in_map_iff; eauto|]. rewrite E. left. destruct c; simpl in *; subst; reflexivity.
Qed.
(* a treatment level that is neither 0 nor 1 is labelled Control yet left out of the DiD row *)
Theorem summary_label times c : cs_d c <> 1 -> fst (fst (label times c)) = "Control"%string.
Proof. intros H. unfold label. rewrite (proj2 (Reqb_false _ _) H). destruct times as [|a [|b [|x r]]]; reflexivity. Qed.
Theorem summary_ignores (rows extra : list I) (y d t : I -> R) : (forall i, In i extra -> d i <> 0 /\ d i <> 1) -> (forall i, In i extra -> In (t i) (map t rows)) ->
  snd (summarize (rows ++ extra) y d t) = snd (summarize rows y d t).
Proof.
  intros H T. unfold summarize. cbn [snd].
  assert (E : rvalues (map t (rows ++ extra)) = rvalues (map t rows)).
  { assert (U : forall a b, StronglySorted Rlt a -> StronglySorted Rlt b -> (forall x, In x a <-> In x b) -> a = b).
    { induction a as [|x a IH]; intros [|z b] Sa Sb Hab; auto.
      - specialize (Hab z). simpl in Hab. tauto.
      - specialize (Hab x). simpl in Hab. tauto.
      - pose proof (StronglySorted_inv Sa) as [Sa' H3]. pose proof (StronglySorted_inv Sb) as [Sb' H5]. rewrite Forall_forall in H3, H5. assert (x = z).
        { destruct (proj1 (Hab x) (or_introl eq_refl)) as [K|K]; auto. destruct (proj2 (Hab z) (or_introl eq_refl)) as [L|L]; auto. pose proof (H3 z L). pose proof (H5 x K). lra. }
        subst z. f_equal. apply IH; auto. intros v. split; intros Hv.
        + destruct (proj1 (Hab v) (or_intror Hv)) as [->|]; auto. pose proof (H3 v Hv). lra.
        + destruct (proj2 (Hab v) (or_intror Hv)) as [->|]; auto. pose proof (H5 v Hv). lra. }
    apply U; try apply rvalues_sorted. intros x. rewrite !rvalues_in, map_app, in_app_iff. split; [|auto]. intros [K|K]; auto. apply in_map_iff in K as (i & <- & Hi). auto. }
  rewrite E. destruct (rvalues (map t rows)) as [|pre [|post [|]]]; auto.
  assert (C : forall a b, a = 0 \/ a = 1 -> scell (rows ++ extra) d t a b = scell rows d t a b).
  { intros a b Ha. unfold scell. rewrite filter_app. rewrite (proj2 (filter_nil _ extra)); [apply app_nil_r|]. intros i Hi. destruct (H i Hi) as [N0 N1].
    rewrite (proj2 (Reqb_false _ _)); auto. destruct Ha; congruence. }
  rewrite !C by auto. reflexivity.
Qed.
(* cohort table *)
Context {U : Type} (ueq : forall x y : U, {x = y} + {x <> y}).
Theorem cohorts_lines (rows : list I) (u : I -> U) (y d t : I -> R) covs a b m n cm : In (a, b, m, n, cm) (cohorts ueq rows u y d t covs) <->
  scell rows d t a b <> [] /\ m = meanf y (scell rows d t a b) /\ n = length (nodup ueq (map u (scell rows d t a b))) /\ cm = map (fun c => meanf c (scell rows d t a b)) covs.
Proof.
  unfold cohorts. rewrite in_flat_map. split.
  - intros (a' & Ha & H). apply in_flat_map in H as (b' & Hb & H). destruct (scell rows d t a' b') as [|i l] eqn:E; [destruct H|]. destruct H as [H|[]].
    pose proof (f_equal (fun x => fst (fst (fst (fst x)))) H) as E1. pose proof (f_equal (fun x => snd (fst (fst (fst x)))) H) as E2. pose proof (f_equal (fun x => snd (fst (fst x))) H) as E3.
    pose proof (f_equal (fun x => snd (fst x)) H) as E4. pose proof (f_equal snd H) as E5. cbn [fst snd] in *. subst a' b'. rewrite E. repeat split; auto. discriminate.
  - intros (N & -> & -> & ->). destruct (scell rows d t a b) as [|i l] eqn:E; [congruence|].
    assert (K : In i (cell rows d t a b)) by (unfold scell in E; unfold cell; rewrite E; left; auto). apply cell_in in K as (K1 & K2 & K3).
    exists a. split; [apply rvalues_in, in_map_iff; eauto|]. apply in_flat_map. exists b. split; [apply rvalues_in, in_map_iff; eauto|]. rewrite E. left. reflexivity.
Qed.
End Summary.

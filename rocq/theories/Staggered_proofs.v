(* Facts about the Callaway-Sant'Anna model. *)
From Verif Require Import Prelude Flt Stats_model Stats_proofs Linalg_model Linalg_proofs Linalg_vcov Linalg_thms Did_model Did_proofs Multi_model Multi_proofs Multi_thms Bacon_model Staggered_model.
From Coq Require Import Arith ZArith String List.
Import ListNotations.
Open Scope R_scope.

Lemma c_eqb_true a b : c_eqb a b = true <-> a = b.
Proof. unfold c_eqb. destruct (coh_eq_dec a b); split; congruence. Qed.
Lemma c_eqb_refl a : c_eqb a a = true.
Proof. apply c_eqb_true; reflexivity. Qed.
Lemma c_eqb_false a b : c_eqb a b = false <-> a <> b.
Proof. unfold c_eqb. destruct (coh_eq_dec a b); split; congruence. Qed.
Lemma zmem_true a l : zmem a l = true <-> In a l.
Proof. unfold zmem. rewrite existsb_exists. split; [intros (x & H & E); apply Z.eqb_eq in E; congruence|intros H; exists a; split; auto; apply Z.eqb_refl]. Qed.
Lemma zmem_false a l : zmem a l = false <-> ~ In a l.
Proof. rewrite <- zmem_true. destruct (zmem a l); split; congruence. Qed.

Lemma collect_In {A B} (f : A -> res (option B)) l r : collect f l = Ok r ->
  forall b, In b r <-> exists a, In a l /\ f a = Ok (Some b).
Proof.
  revert r. induction l as [|a l IH]; simpl; intros r H b.
  - injection H as <-. split; [contradiction|intros (x & [] & _)].
  - destruct (f a) as [o|] eqn:E; [|discriminate]. destruct (collect f l) as [bs|] eqn:E2; [|discriminate]. simpl in H. injection H as <-.
    specialize (IH bs eq_refl b). destruct o as [b0|].
    + simpl. rewrite IH. split.
      * intros [<-|(x & Hx & Hf)]; [exists a; auto|exists x; auto].
      * intros (x & [<-|Hx] & Hf); [left; congruence|right; exists x; auto].
    + rewrite IH. split; [intros (x & Hx & Hf); exists x; auto|intros (x & [<-|Hx] & Hf); [congruence|exists x; auto]].
Qed.
Lemma collect_total {A B} (f : A -> res (option B)) l : (forall a, In a l -> exists o, f a = Ok o) -> exists r, collect f l = Ok r.
Proof.
  induction l as [|a l IH]; simpl; intros H; [eexists; reflexivity|].
  destruct (H a (or_introl eq_refl)) as [o ->]. destruct IH as [r ->]; [auto|]. simpl. eexists; reflexivity.
Qed.
Lemma collect_map {A B} (f : A -> res (option B)) (h : A -> option B) l : (forall a, In a l -> f a = Ok (h a)) ->
  collect f l = Ok (flat_map (fun a => match h a with Some b => [b] | None => [] end) l).
Proof.
  induction l as [|a l IH]; simpl; intros H; [reflexivity|]. rewrite (H a (or_introl eq_refl)), IH by auto. simpl.
  destruct (h a); reflexivity.
Qed.

Section Fit.
Context {I : Type}.
Variable qr : list Z -> list (Z -> R) -> list nat.
Variable lstsq : list Z -> list (Z -> R) -> (Z -> R) -> list R.
Variable inv : list Z -> list (Z -> R) -> option (nat -> nat -> R).
Variable logit : list Z -> list Z -> list (Z -> R) -> option (Z -> R).
Variable sf : option Z -> fl -> fl.
Variable ppf : option Z -> R -> R.
Variables (rows : list I) (u t : I -> Z) (g : I -> coh) (y : I -> option R) (covs : list (I -> option R)).
Notation est := (estimate qr lstsq inv logit).
Notation agt := (att_gt qr lstsq inv logit rows u t g y covs).
Notation cohort := (cs_cohort rows u g).
Notation periods := (cs_periods rows t).
Notation units := (cs_units rows u).
Notation fit := (cs_fit qr lstsq inv logit sf ppf rows u t g y covs).

Lemma cs_units_In a : In a units <-> exists i, In i rows /\ u i = a.
Proof.
  unfold cs_units. rewrite zsort_In, nodup_In, in_map_iff. split; intros (i & A & B); exists i; auto.
Qed.
Lemma cs_periods_In p : In p periods <-> exists i, In i rows /\ t i = p.
Proof.
  unfold cs_periods. rewrite zsort_In, nodup_In, in_map_iff. split; intros (i & A & B); exists i; auto.
Qed.
Lemma cs_units_NoDup : NoDup units.
Proof. unfold cs_units. apply zsort_NoDup, NoDup_nodup. Qed.

Theorem att_gt_inv cfg gr s e : agt cfg gr s = Ok (Some e) ->
  ge_g e = gr /\ ge_t e = s /\ cs_base cfg gr s = Some (ge_base e) /\ In (ge_base e) periods /\ In s periods /\
  ge_T e = treated_units rows u t g y gr (ge_base e) s /\ ge_C e = control_units rows u t g y cfg gr (ge_base e) s /\
  ge_T e <> [] /\ ge_C e <> [] /\
  exists r, est cfg (ge_T e) (ge_C e) (change rows u t y (ge_base e) s) (cov_columns rows u t covs (ge_base e) (ge_T e ++ ge_C e)) = Ok r /\
    ge_eff e = ce_att r /\ ge_se e = ce_se r /\ ge_tinf e = ce_tinf r /\ ge_cinf e = ce_cinf r.
Proof.
  unfold att_gt. intros H. destruct (cs_base cfg gr s) as [b|] eqn:Eb; [|discriminate].
  destruct (zmem b periods) eqn:Ep; cbn [negb] in H; [|discriminate].
  destruct (zmem s periods) eqn:Es; cbn [negb] in H; [|discriminate].
  apply zmem_true in Ep, Es.
  destruct (treated_units rows u t g y gr b s) as [|a T] eqn:ET; [discriminate|].
  destruct (control_units rows u t g y cfg gr b s) as [|c C] eqn:EC; [discriminate|].
  destruct (est cfg (a :: T) (c :: C) _ _) as [r|] eqn:Er; [|discriminate]. cbn [bind] in H. injection H as <-.
  cbn [ge_g ge_t ge_base ge_eff ge_se ge_T ge_C ge_tinf ge_cinf].
  rewrite ET, EC. do 7 (split; [first [reflexivity|assumption]|]). split; [discriminate|]. split; [discriminate|].
  exists r. auto 10.
Qed.

Lemma effects_In cfg l e : all_effects qr lstsq inv logit rows u t g y covs cfg = Ok l -> In e l ->
  exists gr s, In gr (cs_groups rows g) /\ In s (valid_periods rows t cfg gr) /\ agt cfg gr s = Ok (Some e).
Proof.
  unfold all_effects. intros H He. apply (proj1 (collect_In _ _ _ H e)) in He as ((gr & s) & Hin & Hf).
  apply in_flat_map in Hin as (g0 & Hg & Hin). apply in_map_iff in Hin as (s0 & E & Hs). injection E as <- <-.
  exists g0, s0. auto.
Qed.

Lemma first_never_cohort a : (forall i, In i rows -> g i <> CNaN) -> first_never rows u g a = c_never (cs_cohort rows u g a).
Proof.
  intros H. unfold first_never, cs_cohort, unit_cohort. destruct (filter (fun i => Z.eqb (u i) a) rows) as [|i l] eqn:E; [reflexivity|].
  assert (Hi : In i rows) by (apply (proj1 (filter_In (fun i => Z.eqb (u i) a) i rows)); rewrite E; left; reflexivity).
  specialize (H i Hi). cbn [map filter]. destruct (g i); [reflexivity|reflexivity|congruence].
Qed.

Theorem fit_inv cfg agg bal ws r : fit cfg agg bal ws = Ok r ->
  n_nev rows u g <> 0%nat /\ cs_duplicates rows u t = false /\
  all_effects qr lstsq inv logit rows u t g y covs cfg = Ok (cr_effects r) /\ cr_effects r <> [] /\
  cr_att r = fst (agg_simple (group_size rows u g) cohort (cs_anticipation cfg) (cr_effects r)) /\
  (ws = [] -> cr_se r = snd (agg_simple (group_size rows u g) cohort (cs_anticipation cfg) (cr_effects r))) /\
  cr_groups r = cs_groups rows g /\ cr_n_treated r = n_gt0 rows u g /\ cr_n_control r = n_nev rows u g /\
  (forall l, cr_es r = Some l -> l = agg_event_study sf ppf cfg bal (cr_effects r)) /\
  (forall l, cr_group r = Some l -> l = agg_by_group sf ppf cfg (cs_groups rows g) (cr_effects r)) /\
  (forall b, cr_boot r = Some b -> exists es grp, b = run_bootstrap cfg ws (cs_groups rows g) es grp bal (cr_effects r)).
Proof.
  unfold cs_fit. intros H. destruct (Nat.eqb_spec (n_nev rows u g) 0) as [|Hn]; [discriminate|].
  destruct (cs_duplicates rows u t) eqn:Ed; [discriminate|].
  destruct (all_effects _ _ _ _ _ _ _ _ _ _ cfg) as [l|] eqn:El; [|discriminate]. cbn [bind] in H.
  destruct l as [|e0 l0] eqn:E0; [discriminate|]. rewrite <- E0 in *.
  destruct (agg_simple _ _ _ l) as [att se] eqn:Ea. injection H as <-.
  cbn [cr_effects cr_att cr_se cr_groups cr_n_treated cr_n_control cr_es cr_group cr_boot]. rewrite Ea.
  split; [exact Hn|]. split; [reflexivity|]. split; [reflexivity|]. split; [congruence|]. split; [reflexivity|].
  split; [intros ->; reflexivity|]. do 3 (split; [reflexivity|]).
  split; [intros x Hx; match type of Hx with (if ?b then _ else _) = _ => destruct b end; congruence|].
  split; [intros x Hx; match type of Hx with (if ?b then _ else _) = _ => destruct b end; congruence|].
  intros b Hb. destruct ws; [discriminate|]. injection Hb as <-. eexists _, _. reflexivity.
Qed.

(* ---- C17: who the controls are ---- *)
Theorem control_cohorts cfg l e a : all_effects qr lstsq inv logit rows u t g y covs cfg = Ok l -> In e l -> In a (ge_C e) ->
  c_never (cohort a) = true \/
  (cs_control cfg <> "never_treated"%string /\ exists k, cohort a = CFin k /\ (ge_t e < k)%Z /\ CFin k <> ge_g e).
Proof.
  intros Hl He Ha. destruct (effects_In cfg l e Hl He) as (gr & s & _ & _ & Hag).
  destruct (att_gt_inv _ _ _ _ Hag) as (Eg & Et & _ & _ & _ & _ & EC & _). rewrite EC in Ha.
  apply filter_In in Ha as [_ Ha]. apply andb_true_iff in Ha as [Ha _]. unfold is_control in Ha.
  destruct (String.eqb_spec (cs_control cfg) "never_treated") as [E|E]; [left; exact Ha|].
  destruct (c_never (cohort a)) eqn:En; [left; reflexivity|right]. cbn [orb] in Ha. apply andb_true_iff in Ha as [Ha Hb].
  split; [exact E|]. destruct (cohort a) as [k| |] eqn:Ec; cbn [c_gt] in Ha; try discriminate.
  exists k. split; [reflexivity|]. apply Z.ltb_lt in Ha. rewrite Et, Eg. split; [exact Ha|].
  apply negb_true_iff, c_eqb_false in Hb. exact Hb.
Qed.

Theorem base_facts cfg l e : all_effects qr lstsq inv logit rows u t g y covs cfg = Ok l -> In e l ->
  In (ge_base e) periods /\ In (ge_t e) periods /\ ge_base e <> ge_t e /\
  (forall k, ge_g e = CFin k ->
     (ge_base e < k - cs_anticipation cfg)%Z /\
     ((k - cs_anticipation cfg <= ge_t e)%Z -> ge_base e = (k - 1 - cs_anticipation cfg)%Z /\ (ge_base e < ge_t e)%Z) /\
     (cs_universal cfg = true -> ge_base e = (k - 1 - cs_anticipation cfg)%Z) /\
     (cs_universal cfg = false -> (ge_base e < ge_t e)%Z /\ ((ge_t e < k - cs_anticipation cfg)%Z -> ge_base e = (ge_t e - 1)%Z))) /\
  (ge_g e = CInf -> cs_universal cfg = false /\ ge_base e = (ge_t e - 1)%Z).
Proof.
  intros Hl He. destruct (effects_In cfg l e Hl He) as (gr & s & _ & Hv & Hag).
  destruct (att_gt_inv _ _ _ _ Hag) as (Eg & Et & Eb & Hb & Hs & _). rewrite Et, Eg.
  split; [exact Hb|]. split; [exact Hs|]. unfold cs_base in Eb.
  unfold valid_periods in Hv. destruct (cs_universal cfg) eqn:Eu.
  - apply filter_In in Hv as [_ Hv]. destruct gr as [k| |]; try discriminate. injection Eb as Eb. apply negb_true_iff, Z.eqb_neq in Hv.
    split; [lia|]. split; [|discriminate]. intros k0 E. injection E as <-. split; [lia|]. split; [lia|]. split; [lia|discriminate].
  - unfold before in Eb. destruct gr as [k| |]; try discriminate.
    + destruct (Z.ltb_spec s (k - cs_anticipation cfg)); injection Eb as Eb; (split; [lia|]); (split; [|discriminate]);
        intros k0 E; injection E as <-; (split; [lia|]); (split; [lia|]); (split; [discriminate|lia]).
    + injection Eb as Eb. split; [lia|]. split; [discriminate|]. intros _. split; [reflexivity|lia].
Qed.

(* treated groups *)
Theorem treated_cohort cfg l e a : all_effects qr lstsq inv logit rows u t g y covs cfg = Ok l -> In e l -> In a (ge_T e) -> cohort a = ge_g e.
Proof.
  intros Hl He Ha. destruct (effects_In cfg l e Hl He) as (gr & s & _ & _ & Hag).
  destruct (att_gt_inv _ _ _ _ Hag) as (Eg & Et & _ & _ & _ & ET & _). rewrite ET in Ha.
  apply filter_In in Ha as [_ Ha]. apply andb_true_iff in Ha as [Ha _]. apply c_eqb_true in Ha. congruence.
Qed.

(* no unit on either side is under treatment at the base period, and no control is at the period itself *)
Definition under_treatment (c : coh) (s : Z) : bool := negb (c_never c) && c_started c s.
Theorem clean_controls cfg l e a : all_effects qr lstsq inv logit rows u t g y covs cfg = Ok l -> In e l -> In a (ge_C e) ->
  (cs_control cfg = "never_treated"%string \/ cs_universal cfg = false \/ (ge_base e <= ge_t e)%Z) ->
  ge_g e <> CInf -> ge_g e <> CNaN ->
  under_treatment (cohort a) (ge_t e) = false /\ under_treatment (cohort a) (ge_base e) = false.
Proof.
  intros Hl He Ha Hc Hi Hn. unfold under_treatment.
  destruct (control_cohorts cfg l e a Hl He Ha) as [->|(Hne & k & -> & Hk & _)]; [auto|].
  destruct (base_facts cfg l e Hl He) as (_ & _ & _ & HF & _).
  destruct (ge_g e) as [k0| |]; try congruence. destruct (HF k0 eq_refl) as (B1 & B2 & B3 & B4).
  assert (Hb : (ge_base e <= ge_t e)%Z). { destruct Hc as [Hc|[Hc|Hc]]; [contradiction| |exact Hc]. destruct (B4 Hc); lia. }
  unfold c_started. destruct (Z.leb_spec k (ge_t e)); [lia|]. destruct (Z.leb_spec k (ge_base e)); [lia|]. rewrite !andb_false_r. auto.
Qed.

End Fit.

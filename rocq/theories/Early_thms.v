(* CallawaySantAnna and units that are treated in every period of the data. *)
From Verif Require Import Prelude Flt Stats_model Stats_proofs Linalg_model Linalg_proofs Linalg_vcov Linalg_thms Did_model Did_proofs Multi_model Multi_proofs Multi_thms Bacon_model Bacon_proofs Bacon_rows Staggered_model Staggered_proofs Staggered_est Staggered_thms Staggered_more Scale_flt Staggered_scale Staggered_equiv.
From Coq Require Import Arith ZArith String List.
Import ListNotations.
Open Scope R_scope.

(* treated (first_treat a date other than the code 0) no later than the first period of the data *)
Definition from_start {I} (rows : list I) (t : I -> Z) (c : coh) : bool :=
  match c with CFin k => negb (Z.eqb k 0) && forallb (fun i => Z.leb k (t i)) rows | _ => false end.
Definition without_early {I} (rows : list I) (t : I -> Z) (g : I -> coh) : list I := filter (fun i => negb (from_start rows t (g i))) rows.

Lemma sorted_filter p l : zsorted l -> zsorted (filter p l).
Proof.
  induction l as [|a l IH]; intros H; [exact H|]. destruct H as [H1 H2]. cbn [filter]. destruct (p a); [|auto]. split; [|auto].
  intros b Hb. apply filter_In in Hb. apply H1, Hb.
Qed.
Lemma sorted_kept l m p : (forall x, In x m <-> In x l /\ p x = true) -> zsort (nodup Z.eq_dec m) = filter p (zsort (nodup Z.eq_dec l)).
Proof.
  intros H. apply zsorted_unique; [apply zsort_sorted|apply sorted_filter, zsort_sorted|apply zsort_NoDup, NoDup_nodup|apply NoDup_filter, zsort_NoDup, NoDup_nodup|].
  intros x. rewrite filter_In, !zsort_In, !nodup_In. apply H.
Qed.
Lemma filter_map_comm {A B} (f : A -> B) (p : B -> bool) l : filter p (map f l) = map f (filter (fun a => p (f a)) l).
Proof. induction l as [|a l IH]; cbn [map filter]; [reflexivity|]. rewrite IH. destruct (p (f a)); reflexivity. Qed.
Lemma filter_pairs {A B} (q : A -> bool) (h : A -> list B) l :
  filter (fun x => q (fst x)) (flat_map (fun a => map (fun b => (a, b)) (h a)) l) = flat_map (fun a => map (fun b => (a, b)) (h a)) (filter q l).
Proof.
  induction l as [|a l IH]; cbn [flat_map filter]; [reflexivity|]. rewrite filter_app, IH, filter_map_comm. cbn [fst]. destruct (q a) eqn:E.
  - cbn [flat_map]. f_equal. f_equal. induction (h a) as [|b m IHm]; cbn [filter]; [reflexivity|]. f_equal. exact IHm.
  - induction (h a) as [|b m IHm]; cbn [filter]; [reflexivity|]. exact IHm.
Qed.
Lemma flat_map_kept {A B} (F : A -> list B) q l : (forall x, In x l -> q x = false -> F x = []) -> flat_map F l = flat_map F (filter q l).
Proof.
  induction l as [|a l IH]; intros H; cbn [flat_map filter]; [reflexivity|]. rewrite IH by (intros; apply H; [right|]; assumption).
  destruct (q a) eqn:E; [reflexivity|]. rewrite (H a (or_introl eq_refl) E). reflexivity.
Qed.
Lemma collect_skip {A B} (P : B -> B -> Prop) (f f' : A -> res (option B)) p l :
  (forall x, In x l -> p x = true -> res_rel (opt_rel P) (f x) (f' x)) -> (forall x, In x l -> p x = false -> f x = Ok None) ->
  res_rel (Forall2 P) (collect f l) (collect f' (filter p l)).
Proof.
  induction l as [|a l IH]; intros H1 H2; [constructor|].
  specialize (IH (fun x Hx => H1 x (or_intror Hx)) (fun x Hx => H2 x (or_intror Hx))). cbn [filter collect]. destruct (p a) eqn:E.
  - cbn [collect]. specialize (H1 a (or_introl eq_refl) E). destruct (f a) as [o|], (f' a) as [o'|]; try contradiction H1; cbn [bind]; [|exact H1].
    destruct (collect f l) as [bs|], (collect f' (filter p l)) as [bs'|]; try contradiction IH; cbn [bind res_rel] in *; [|exact IH].
    destruct o as [b|], o' as [b'|]; try contradiction H1; cbn [opt_rel] in H1; auto.
  - rewrite (H2 a (or_introl eq_refl) E). cbn [bind]. destruct (collect f l); cbn [bind]; exact IH.
Qed.

(* ---- relations at factor 1 are equalities ---- *)
Lemma sc2_1 p : sc2 1 p = p.
Proof. destruct p. unfold sc2. cbn [fst snd]. rewrite !sc_1. reflexivity. Qed.
Lemma eff_rel_1 x x' : eff_rel 1 x x' -> x' = x.
Proof. destruct x as [x1 x2 x3 x4 x5 x6], x' as [y1 y2 y3 y4 y5 y6]. unfold eff_rel. cbn [ef_eff ef_se ef_t ef_p ef_ci ef_n]. rewrite !sc_1, sc2_1. intros (-> & -> & -> & -> & -> & ->). reflexivity. Qed.
Lemma stats_rel_1 x x' : stats_rel 1 x x' -> x' = x.
Proof. destruct x as [x1 x2 x3], x' as [y1 y2 y3]. unfold stats_rel. cbn [bs_se bs_ci bs_p]. rewrite !sc_1, sc2_1. intros (-> & -> & ->). reflexivity. Qed.
Lemma F2_eq {A} (P : A -> A -> Prop) l l' : (forall a b, P a b -> b = a) -> Forall2 P l l' -> l' = l.
Proof. intros H F. induction F as [|a b l l' Hab F IH]; [reflexivity|]. rewrite IH, (H a b Hab). reflexivity. Qed.
Lemma keyed_1 {K A} (P : A -> A -> Prop) (x x' : K * A) : (forall a b, P a b -> b = a) -> keyed P x x' -> x' = x.
Proof. intros H [E F]. destruct x, x'. cbn [fst snd] in *. rewrite E, (H _ _ F). reflexivity. Qed.
Lemma boot_rel_1 b b' : boot_rel 1 b b' -> b' = b.
Proof.
  destruct b as [x1 x2 x3 x4 x5], b' as [y1 y2 y3 y4 y5]. unfold boot_rel. cbn [cb_gt cb_overall cb_dist cb_es cb_group]. intros (H1 & H2 & H3 & H4 & H5). apply stats_rel_1 in H2. subst.
  apply (F2_eq _ _ _ (fun a b => keyed_1 (stats_rel 1) a b stats_rel_1)) in H1, H4, H5. subst.
  f_equal. rewrite (map_ext _ (fun x => x)) by apply sc_1. apply map_id.
Qed.

Section Early.
Context {I : Type}.
Variable qr : list Z -> list (Z -> R) -> list nat.
Variable lstsq : list Z -> list (Z -> R) -> (Z -> R) -> list R.
Variable inv : list Z -> list (Z -> R) -> option (nat -> nat -> R).
Variable logit : list Z -> list Z -> list (Z -> R) -> option (Z -> R).
Variable sf : option Z -> fl -> fl.
Variable ppf : option Z -> R -> R.
Hypothesis Hqr : qr_ok qr.
Hypothesis Hls : lstsq_ok lstsq.
Variables (rows : list I) (u t : I -> Z) (g : I -> coh) (y : I -> option R) (C : Z -> coh).
Hypothesis HC : forall i, In i rows -> g i = C (u i).
Notation early := (from_start rows t).
Notation kept := (without_early rows t g).
Hypothesis Hper : forall i, In i rows -> exists j, In j kept /\ t j = t i.
Notation fit rows := (cs_fit qr lstsq inv logit sf ppf rows u t g y []).
Notation agt rows := (att_gt qr lstsq inv logit rows u t g y []).

Lemma e_filter P a : (forall i, P i = true -> u i = a) -> early (C a) = false -> filter P kept = filter P rows.
Proof.
  intros HP Ha. unfold without_early. rewrite filter_filter. apply filter_ext_in. intros i Hi. destruct (P i) eqn:E; [|apply andb_false_r].
  rewrite (HC i Hi), (HP i E), Ha. reflexivity.
Qed.
Lemma e_none P a : (forall i, P i = true -> u i = a) -> early (C a) = true -> filter P kept = [].
Proof.
  intros HP Ha. unfold without_early. rewrite filter_filter. rewrite (filter_ext_in _ (fun _ => false)).
  - generalize rows as l. induction l as [|a' l IH]; [reflexivity|exact IH].
  - intros i Hi. destruct (P i) eqn:E; [|apply andb_false_r]. rewrite (HC i Hi), (HP i E), Ha. reflexivity.
Qed.
Lemma e_units : cs_units kept u = filter (fun a => negb (early (C a))) (cs_units rows u).
Proof.
  unfold cs_units. apply sorted_kept. intros x. rewrite !in_map_iff. split.
  - intros (i & Eu & Hi). apply filter_In in Hi as [Hi He]. split; [exists i; auto|]. rewrite <- Eu, <- (HC i Hi). exact He.
  - intros [(i & Eu & Hi) He]. exists i. split; [exact Eu|]. apply filter_In. split; [exact Hi|]. rewrite (HC i Hi), Eu. exact He.
Qed.
Lemma e_periods : cs_periods kept t = cs_periods rows t.
Proof.
  unfold cs_periods. apply zsort_same. intros x. rewrite !in_map_iff. split.
  - intros (i & E & Hi). apply filter_In in Hi as [Hi _]. exists i. auto.
  - intros (i & E & Hi). destruct (Hper i Hi) as (j & Hj & Ej). exists j. split; [congruence|exact Hj].
Qed.
Lemma e_unit_eq a i : Z.eqb (u i) a = true -> u i = a.
Proof. apply Z.eqb_eq. Qed.
Lemma e_cell_eq a p i : Z.eqb (u i) a && Z.eqb (t i) p = true -> u i = a.
Proof. intros H. apply andb_true_iff in H as [H _]. now apply Z.eqb_eq. Qed.
Lemma e_cohort a : early (C a) = false -> cs_cohort kept u g a = cs_cohort rows u g a.
Proof. intros H. unfold cs_cohort, unit_cohort. rewrite (e_filter _ a (e_unit_eq a) H). reflexivity. Qed.
Lemma e_cohort_gone a : early (C a) = true -> cs_cohort kept u g a = CNaN.
Proof. intros H. unfold cs_cohort, unit_cohort. rewrite (e_none _ a (e_unit_eq a) H). reflexivity. Qed.
Lemma e_cohort_C a : In a (cs_units rows u) -> cs_cohort rows u g a = C a.
Proof. intros H. apply (cohort_of_unit u g C rows a HC). unfold cs_units in H. rewrite zsort_In, nodup_In in H. exact H. Qed.
Lemma e_outcome a p : early (C a) = false -> cs_outcome kept u t y a p = cs_outcome rows u t y a p.
Proof. intros H. unfold cs_outcome, cell_rows. rewrite (e_filter _ a (e_cell_eq a p) H). reflexivity. Qed.

Lemma e_treated gr b s : early gr = false -> treated_units kept u t g y gr b s = treated_units rows u t g y gr b s.
Proof.
  intros Hg. unfold treated_units. rewrite e_units, filter_filter. apply filter_ext_in. intros a Ha. destruct (early (C a)) eqn:E; cbn [negb andb].
  - rewrite (e_cohort_C a Ha). destruct (c_eqb (C a) gr) eqn:Eq; [|reflexivity]. apply c_eqb_true in Eq. congruence.
  - unfold has_pair. rewrite !e_outcome, e_cohort by exact E. reflexivity.
Qed.
Lemma e_control cfg gr b s : In s (cs_periods rows t) -> control_units kept u t g y cfg gr b s = control_units rows u t g y cfg gr b s.
Proof.
  intros Hs. unfold control_units. rewrite e_units, filter_filter. apply filter_ext_in. intros a Ha. destruct (early (C a)) eqn:E; cbn [negb andb].
  - unfold is_control. cbv zeta. rewrite (e_cohort_C a Ha). unfold from_start in E. destruct (C a) as [k| |]; try discriminate.
    apply andb_true_iff in E as [E0 E1]. cbn [c_never c_gt]. apply negb_true_iff in E0. rewrite E0. rewrite forallb_forall in E1.
    unfold cs_periods in Hs. rewrite zsort_In, nodup_In in Hs. apply in_map_iff in Hs as (i & Et & Hi). specialize (E1 i Hi). apply Z.leb_le in E1.
    replace (Z.ltb s k) with false by (symmetry; apply Z.ltb_ge; rewrite <- Et; exact E1). destruct (String.eqb _ _); reflexivity.
  - unfold is_control, has_pair. cbv zeta. rewrite !e_outcome, e_cohort by exact E. reflexivity.
Qed.
Lemma e_att cfg gr s : early gr = false -> res_rel (opt_rel (gte_rel 1)) (agt rows cfg gr s) (agt kept cfg gr s).
Proof.
  intros Hg. unfold att_gt. destruct (cs_base cfg gr s) as [b|]; [|exact Logic.I]. rewrite e_periods.
  destruct (negb (zmem b (cs_periods rows t))); [exact Logic.I|]. destruct (zmem s (cs_periods rows t)) eqn:Es; cbn [negb]; [|exact Logic.I].
  apply zmem_true in Es. cbv zeta. rewrite (e_treated gr b s Hg), (e_control cfg gr b s Es).
  remember (treated_units rows u t g y gr b s) as T eqn:HT. remember (control_units rows u t g y cfg gr b s) as D eqn:HD.
  destruct T as [|a0 T0] eqn:E0; [exact Logic.I|]. rewrite <- E0 in *. destruct D as [|c0 C0] eqn:E1; [destruct T; exact Logic.I|]. rewrite <- E1 in *.
  assert (NT : T <> []) by congruence. assert (NC : D <> []) by congruence. clear E0 E1.
  assert (HS := est_scale qr lstsq inv logit Hqr Hls 1 0 Rlt_0_1 cfg T D (change rows u t y b s) (change kept u t y b s) None NT NC).
  assert (Hch : forall a, In a T \/ In a D -> change kept u t y b s a = 1 * change rows u t y b s a + 0).
  { intros a Ha. assert (E : early (C a) = false).
    { assert (Hk : In a (cs_units kept u)).
      { destruct Ha as [Ha|Ha]; [rewrite HT, <- (e_treated gr b s Hg) in Ha|rewrite HD, <- (e_control cfg gr b s Es) in Ha]; apply filter_In in Ha; apply Ha. }
      rewrite e_units in Hk. apply filter_In in Hk as [_ Hk]. now apply negb_true_iff. }
    unfold change. rewrite !e_outcome by exact E. ring. }
  specialize (HS Hch). unfold cov_columns. destruct T as [|a1 T1]; [congruence|]. destruct D as [|c1 C1]; [congruence|].
  destruct (estimate _ _ _ _ _ _ _ (change rows u t y b s) _) as [e|], (estimate _ _ _ _ _ _ _ (change kept u t y b s) _) as [e'|];
    try contradiction HS; [|exact HS]. cbn [bind res_rel opt_rel]. destruct HS as (H1 & H2 & H3 & H4).
  unfold gte_rel. cbn [ge_g ge_t ge_base ge_T ge_C ge_eff ge_se ge_tinf ge_cinf]. repeat (split; [solve [reflexivity|assumption]|]). assumption.
Qed.
Lemma e_att_none cfg gr s : (0 <= cs_anticipation cfg)%Z -> early gr = true -> In s (cs_periods rows t) -> agt rows cfg gr s = Ok None.
Proof.
  intros Ha E Hs. unfold from_start in E. destruct gr as [k| |]; try discriminate. apply andb_true_iff in E as [_ E1]. rewrite forallb_forall in E1.
  assert (Hp : forall p, In p (cs_periods rows t) -> (k <= p)%Z).
  { intros p Hp. unfold cs_periods in Hp. rewrite zsort_In, nodup_In in Hp. apply in_map_iff in Hp as (i & <- & Hi). apply Z.leb_le. auto. }
  unfold att_gt. assert (Eb : cs_base cfg (CFin k) s = Some (k - 1 - cs_anticipation cfg)%Z).
  { unfold cs_base, before. destruct (cs_universal cfg); [reflexivity|]. specialize (Hp s Hs). replace (Z.ltb s (k - cs_anticipation cfg)) with false; [reflexivity|].
    symmetry. apply Z.ltb_ge. lia. }
  rewrite Eb. destruct (zmem (k - 1 - cs_anticipation cfg) (cs_periods rows t)) eqn:Em; [|reflexivity].
  apply zmem_true in Em. specialize (Hp _ Em). lia.
Qed.
Lemma e_groups : cs_groups kept g = filter (fun c => negb (early c)) (cs_groups rows g).
Proof.
  unfold cs_groups. rewrite filter_app, filter_map_comm. f_equal.
  - f_equal. apply zsorted_unique; [apply groups_sorted|apply sorted_filter, groups_sorted|apply groups_nodup|apply NoDup_filter, groups_nodup|].
    intros x. rewrite filter_In, !group_in. split.
    + intros [Hx (i & Hi & Eg)]. apply filter_In in Hi as [Hi He]. rewrite Eg in He. split; [split; [exact Hx|exists i; auto]|exact He].
    + intros [[Hx (i & Hi & Eg)] He]. split; [exact Hx|]. exists i. split; [apply filter_In; split; [exact Hi|rewrite Eg; exact He]|exact Eg].
  - assert (E : existsb (fun i => c_eqb (g i) CInf) kept = existsb (fun i => c_eqb (g i) CInf) rows).
    { apply eq_true_iff_eq. rewrite !existsb_exists. split.
      - intros (i & Hi & E). apply filter_In in Hi as [Hi _]. exists i. auto.
      - intros (i & Hi & E). exists i. split; [|exact E]. apply filter_In. split; [exact Hi|]. apply c_eqb_true in E. rewrite E. reflexivity. }
    rewrite E. destruct (existsb _ rows); reflexivity.
Qed.
Lemma e_effects cfg : (0 <= cs_anticipation cfg)%Z ->
  res_rel (Forall2 (gte_rel 1)) (all_effects qr lstsq inv logit rows u t g y [] cfg) (all_effects qr lstsq inv logit kept u t g y [] cfg).
Proof.
  intros Ha. unfold all_effects. rewrite e_groups. assert (EV : forall gr, valid_periods kept t cfg gr = valid_periods rows t cfg gr) by (intros gr; unfold valid_periods; rewrite e_periods; reflexivity).
  assert (EF : forall l, flat_map (fun gr => map (fun s => (gr, s)) (valid_periods kept t cfg gr)) l = flat_map (fun gr => map (fun s => (gr, s)) (valid_periods rows t cfg gr)) l)
    by (intros l; apply flat_map_ext; intros gr; rewrite EV; reflexivity).
  rewrite EF. clear EF EV.
  rewrite <- (filter_pairs (fun c => negb (early c)) (valid_periods rows t cfg)). apply collect_skip.
  - intros [gr s] _ E. cbn [fst snd] in *. apply e_att. now apply negb_true_iff.
  - intros [gr s] Hin E. cbn [fst snd] in *. apply e_att_none; [exact Ha|now apply negb_false_iff|].
    apply in_flat_map in Hin as (gr' & _ & Hin). apply in_map_iff in Hin as (s' & Es & Hin). injection Es as <- <-.
    unfold valid_periods in Hin. destruct (cs_universal cfg); apply filter_In in Hin; apply Hin.
Qed.
Lemma e_size gr : early gr = false -> group_size kept u g gr = group_size rows u g gr.
Proof.
  intros H. unfold group_size. do 3 f_equal. unfold without_early. rewrite filter_filter. apply filter_ext_in. intros i _.
  destruct (c_eqb (g i) gr) eqn:E; [|apply andb_false_r]. apply c_eqb_true in E. rewrite E, H. reflexivity.
Qed.
Lemma e_cohort_eqb gr a : early gr = false -> gr <> CNaN -> c_eqb (cs_cohort kept u g a) gr = c_eqb (cs_cohort rows u g a) gr.
Proof.
  intros H Hn. destruct (early (C a)) eqn:E; [|rewrite e_cohort by exact E; reflexivity]. rewrite (e_cohort_gone a E).
  destruct (in_dec Z.eq_dec a (cs_units rows u)) as [Hi|Hi].
  - rewrite (e_cohort_C a Hi). transitivity false; [|symmetry]; apply not_true_iff_false; intros X; apply c_eqb_true in X; congruence.
  - f_equal. unfold cs_cohort, unit_cohort. replace (filter (fun i => Z.eqb (u i) a) rows) with (@nil I); [reflexivity|]. symmetry.
    destruct (filter (fun i => Z.eqb (u i) a) rows) as [|i l] eqn:El; [reflexivity|]. exfalso. apply Hi. apply cs_units_In.
    assert (Hin : In i (filter (fun i => Z.eqb (u i) a) rows)) by (rewrite El; left; reflexivity). apply filter_In in Hin as [Hin Eu]. apply Z.eqb_eq in Eu. exists i. auto.
Qed.
Lemma e_nev : n_nev kept u g = n_nev rows u g.
Proof.
  unfold n_nev. f_equal. rewrite e_units, filter_filter. apply filter_ext_in. intros a Ha. destruct (early (C a)) eqn:E; cbn [negb andb].
  - unfold first_never. destruct (filter (fun i => Z.eqb (u i) a) rows) as [|i l] eqn:El; [reflexivity|].
    assert (Hin : In i (filter (fun i => Z.eqb (u i) a) rows)) by (rewrite El; left; reflexivity). apply filter_In in Hin as [Hin Eu]. apply Z.eqb_eq in Eu.
    rewrite (HC i Hin), Eu. unfold from_start in E. destruct (C a) as [k| |]; try discriminate. apply andb_true_iff in E as [E _]. apply negb_true_iff in E. cbn [c_never]. auto.
  - unfold first_never. rewrite (e_filter _ a (e_unit_eq a) E). reflexivity.
Qed.
Lemma e_gt0 : n_gt0 rows u g = (n_gt0 kept u g + length (filter (fun a => early (C a) && c_gt (C a) 0) (cs_units rows u)))%nat.
Proof.
  unfold n_gt0. rewrite e_units, filter_filter.
  assert (G : forall l, incl l (cs_units rows u) ->
    length (filter (fun a => c_gt (cs_cohort rows u g a) 0) l) =
    (length (filter (fun a => negb (early (C a)) && c_gt (cs_cohort kept u g a) 0) l) + length (filter (fun a => early (C a) && c_gt (C a) 0) l))%nat).
  { induction l as [|a l IH]; intros Hi; [reflexivity|]. specialize (IH (fun z Hz => Hi z (or_intror Hz))). cbn [filter].
    destruct (early (C a)) eqn:E; cbn [negb andb].
    - rewrite (e_cohort_C a) by (apply Hi; left; reflexivity). destruct (c_gt (C a) 0); cbn [length]; lia.
    - rewrite (e_cohort a E). destruct (c_gt (cs_cohort rows u g a) 0); cbn [length]; lia. }
  apply G, incl_refl.
Qed.
Lemma e_dup : cs_duplicates rows u t = false -> cs_duplicates kept u t = false.
Proof.
  intros H. apply not_true_iff_false. intros X. apply existsb_exists in X as (i & Hi & Hl). apply filter_In in Hi as [Hi He].
  rewrite (HC i Hi) in He. apply negb_true_iff in He. unfold cell_rows in Hl. rewrite (e_filter _ (u i) (e_cell_eq (u i) (t i)) He) in Hl.
  apply not_true_iff_false in H. apply H. apply existsb_exists. exists i. auto.
Qed.

Theorem early_ignored cfg agg bal ws : (0 <= cs_anticipation cfg)%Z -> (ws = [] \/ 0 <= cs_alpha cfg <= 1) ->
  (forall a p, (length (filter (fun i => Z.eqb (u i) a && Z.eqb (t i) p) rows) <= 1)%nat) ->
  match fit rows cfg agg bal ws, fit kept cfg agg bal ws with
  | Ok r, Ok r' =>
      map (fun e => (ge_g e, ge_t e, ge_base e, ge_eff e, ge_se e, ge_T e, ge_C e)) (cr_effects r') =
      map (fun e => (ge_g e, ge_t e, ge_base e, ge_eff e, ge_se e, ge_T e, ge_C e)) (cr_effects r) /\
      cr_reports r' = cr_reports r /\ cr_att r' = cr_att r /\ cr_se r' = cr_se r /\ cr_t r' = cr_t r /\ cr_p r' = cr_p r /\ cr_ci r' = cr_ci r /\
      cr_periods r' = cr_periods r /\ cr_n_control r' = cr_n_control r /\ cr_es r' = cr_es r /\ cr_group r' = cr_group r /\ cr_boot r' = cr_boot r /\
      cr_groups r' = filter (fun c => negb (from_start rows t c)) (cr_groups r) /\
      cr_n_treated r = (cr_n_treated r' + length (filter (fun a => early (C a) && c_gt (C a) 0) (cs_units rows u)))%nat /\
      cr_n_obs r = length rows /\ cr_n_obs r' = length kept
  | Err e, Err f => e = f
  | _, _ => False
  end.
Proof.
  intros Ha Hw Hd0. assert (Hd : cs_duplicates rows u t = false).
  { apply not_true_iff_false. intros X. apply existsb_exists in X as (i & _ & Hl). apply Nat.ltb_lt in Hl. specialize (Hd0 (u i) (t i)). unfold cell_rows in Hl. lia. }
  unfold cs_fit. rewrite e_nev, Hd, (e_dup Hd). destruct (Nat.eqb (n_nev rows u g) 0); [reflexivity|].
  pose proof (e_effects cfg Ha) as HE.
  destruct (all_effects qr lstsq inv logit rows u t g y [] cfg) as [l|] eqn:EL, (all_effects qr lstsq inv logit kept u t g y [] cfg) as [l'|] eqn:EL';
    try contradiction HE; cbn [bind]; [|exact HE]. cbn [res_rel] in HE.
  assert (HG : forall e, In e l' -> early (ge_g e) = false /\ ge_g e <> CNaN).
  { intros e He. destruct (effects_In _ _ _ _ _ _ _ _ _ _ cfg l' e EL' He) as (gr & s & Hgr & _ & Hag).
    destruct (att_gt_inv _ _ _ _ _ _ _ _ _ _ _ _ _ _ Hag) as (E & _). rewrite E. split; [|eapply groups_not_nan; exact Hgr].
    rewrite e_groups in Hgr. apply filter_In in Hgr as [_ Hgr]. now apply negb_true_iff. }
  assert (HG' : forall e, In e l -> early (ge_g e) = false).
  { intros e He. assert (X : exists e', In e' l' /\ ge_g e' = ge_g e).
    { clear -HE He. induction HE as [|a b m m' Hab F IH]; [contradiction He|]. destruct He as [->|He]; [exists b; split; [left; reflexivity|apply Hab]|].
      destruct (IH He) as (e' & H1 & H2). exists e'. split; [right; exact H1|exact H2]. }
    destruct X as (e' & H1 & H2). rewrite <- H2. apply (HG e' H1). }
  assert (EA : agg_simple (group_size kept u g) (cs_cohort kept u g) (cs_anticipation cfg) l' = agg_simple (group_size rows u g) (cs_cohort rows u g) (cs_anticipation cfg) l').
  { unfold agg_simple. destruct (filter (ge_post (cs_anticipation cfg)) l') as [|e m] eqn:Ef; [reflexivity|]. rewrite <- Ef. f_equal. apply agg_se_wif_ext. intros ew Hew.
    unfold by_size in Hew. apply in_map_iff in Hew as (e1 & <- & He1). cbn [fst]. apply filter_In in He1 as [He1 _]. destruct (HG e1 He1) as [G1 G2].
    split; [apply e_size; exact G1|]. intros a. apply e_cohort_eqb; assumption. }
  destruct l as [|e0 l0] eqn:E0, l' as [|e0' l0'] eqn:E0'; [reflexivity|inversion HE|inversion HE|].
  rewrite <- E0, <- E0' in *. clear E0 E0' e0 l0 e0' l0'.
  rewrite EA, (agg_simple_rel 1 Rlt_0_1 (group_size rows u g) (cs_cohort rows u g) (cs_anticipation cfg) l l' HE), sc2_1.
  destruct (agg_simple (group_size rows u g) (cs_cohort rows u g) (cs_anticipation cfg) l) as [att se].
  set (es := match agg with Some s => _ | None => false end). set (grp := match agg with Some s => String.eqb s "group" || _ | None => false end).
  assert (NG : forall m, (forall e, In e m -> early (ge_g e) = false) -> forall gr, negb (early gr) = false -> group_cells (cs_anticipation cfg) m gr = []).
  { intros m Hm gr Hgr. apply negb_false_iff in Hgr. unfold group_cells. destruct (filter _ m) as [|e r] eqn:Ef; [reflexivity|].
    assert (He : In e (filter (fun e => c_eqb (ge_g e) gr && ge_post (cs_anticipation cfg) e) m)) by (rewrite Ef; left; reflexivity).
    apply filter_In in He as [He Hk]. apply andb_true_iff in Hk as [Hk _]. apply c_eqb_true in Hk. specialize (Hm e He). congruence. }
  assert (EGr : agg_by_group sf ppf cfg (cs_groups kept g) l' = agg_by_group sf ppf cfg (cs_groups rows g) l).
  { rewrite e_groups. transitivity (agg_by_group sf ppf cfg (cs_groups rows g) l').
    - unfold agg_by_group. symmetry. apply flat_map_kept. intros gr _ Hgr. rewrite (NG l' (fun e He => proj1 (HG e He)) gr Hgr). reflexivity.
    - apply (F2_eq _ _ _ (fun a b => keyed_1 (eff_rel 1) a b eff_rel_1)). apply (group_rel 1 Rlt_0_1). exact HE. }
  assert (EB : match ws with [] => None | _ => Some (run_bootstrap cfg ws (cs_groups kept g) es grp bal l') end = match ws with [] => None | _ => Some (run_bootstrap cfg ws (cs_groups rows g) es grp bal l) end).
  { destruct ws as [|w ws']; [reflexivity|]. destruct Hw as [Hw|Hw]; [discriminate|]. f_equal.
    transitivity (run_bootstrap cfg (w :: ws') (cs_groups rows g) es grp bal l').
    - unfold run_bootstrap. cbv zeta. f_equal. destruct grp; [|reflexivity]. f_equal. rewrite e_groups. unfold prepare_group. symmetry.
      apply flat_map_kept. intros gr _ Hgr. rewrite (NG l' (fun e He => proj1 (HG e He)) gr Hgr). reflexivity.
    - apply boot_rel_1. apply (bootstrap_rel 1 Rlt_0_1); [exact Hw|discriminate|exact HE]. }
  rewrite EB, EGr. cbv zeta.
  cbn [cr_effects cr_reports cr_att cr_se cr_t cr_p cr_ci cr_groups cr_periods cr_n_obs cr_n_treated cr_n_control cr_es cr_group cr_boot].
  split.
  { apply (F2_map_eq (gte_rel 1)); [|exact HE]. intros a b (H1 & H2 & H3 & H4 & H5 & H6 & H7 & _). rewrite H1, H2, H3, H4, H5, H6, H7, !sc_1. reflexivity. }
  split.
  { apply (F2_map_eq (gte_rel 1)); [|exact HE]. intros a b (H1 & H2 & H3 & H4 & H5 & H6 & H7 & _). rewrite H4, H6, H7, !sc_1. reflexivity. }
  do 5 (split; [reflexivity|]). split; [apply e_periods|]. split; [first [apply e_nev|reflexivity]|]. split.
  { destruct es; [|reflexivity]. f_equal. apply (F2_eq _ _ _ (fun a b => keyed_1 (eff_rel 1) a b eff_rel_1)). apply (es_rel 1 Rlt_0_1). exact HE. }
  do 2 (split; [reflexivity|]). split; [apply e_groups|]. split; [apply e_gt0|]. split; reflexivity.
Qed.
End Early.

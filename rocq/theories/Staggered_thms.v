(* Callaway-Sant'Anna: exact recovery, aggregation weights, base-period mode, codings of never-treated. *)
From Verif Require Import Prelude Flt Stats_model Stats_proofs Linalg_model Linalg_proofs Linalg_vcov Linalg_thms Did_model Did_proofs Multi_model Multi_proofs Multi_thms Bacon_model Staggered_model Staggered_proofs Staggered_est.
From Coq Require Import Arith ZArith String List.
Import ListNotations.
Open Scope R_scope.

(* ---- weighted sums of cells ---- *)
Lemma weighted_fin l : (forall ew, In ew l -> exists x, ge_eff (fst ew) = Fin x) ->
  weighted l = Fin (sumf (fun ew => snd ew * toR (ge_eff (fst ew))) l).
Proof.
  induction l as [|ew l IH]; intros H; [reflexivity|]. unfold weighted in *. cbn [map].
  change (fadd (fmul (Fin (snd ew)) (ge_eff (fst ew))) (fsum (map (fun ew => fmul (Fin (snd ew)) (ge_eff (fst ew))) l))
          = Fin (sumf (fun ew => snd ew * toR (ge_eff (fst ew))) (ew :: l))).
  rewrite IH by (intros; apply H; right; auto). destruct (H ew (or_introl eq_refl)) as (x & E). simpl. rewrite E. reflexivity.
Qed.
Lemma fsum_in_nan l : In NaN l -> fsum l = NaN.
Proof. apply fsum_nan. Qed.
Lemma weighted_nan l ew : In ew l -> ge_eff (fst ew) = NaN -> weighted l = NaN.
Proof. intros H E. apply fsum_nan. apply in_map_iff. exists ew. rewrite E. auto. Qed.

Lemma size_pos l : (forall e, In e l -> ge_T e <> []) -> l <> [] -> 0 < sumf ge_n l.
Proof.
  intros H Hne. destruct l as [|e l]; [congruence|]. simpl. assert (0 < ge_n e) by (apply len_pos, H; left; auto).
  assert (0 <= sumf ge_n l) by (apply sumf_nonneg; intros; apply len_nonneg). lra.
Qed.
Lemma by_size_weights l : (forall e, In e l -> ge_T e <> []) -> l <> [] ->
  (forall ew, In ew (by_size l) -> In (fst ew) l /\ 0 < snd ew <= 1) /\ sumf snd (by_size l) = 1.
Proof.
  intros H Hne. pose proof (size_pos l H Hne) as P. split.
  - intros ew Hew. apply in_map_iff in Hew as (e & <- & He). cbn [fst snd]. split; [exact He|].
    assert (0 < ge_n e) by (apply len_pos, H; auto). split; [apply Rdiv_lt_0_compat; auto|].
    apply (Rmult_le_reg_r (sumf ge_n l)); [exact P|]. unfold Rdiv. rewrite Rmult_assoc, Rinv_l, Rmult_1_r, Rmult_1_l by lra.
    apply in_split in He as (l1 & l2 & ->). rewrite sumf_app. simpl.
    assert (0 <= sumf ge_n l1) by (apply sumf_nonneg; intros; apply len_nonneg).
    assert (0 <= sumf ge_n l2) by (apply sumf_nonneg; intros; apply len_nonneg). lra.
  - unfold by_size. rewrite (sumf_map (fun e => (e, ge_n e / sumf ge_n l)) snd l). cbn [snd]. rewrite sumf_div. field. lra.
Qed.
Lemma equally_weights (l : list gte) : l <> [] ->
  (forall ew, In ew (equally l) -> In (fst ew) l /\ snd ew = 1 / len l) /\ sumf snd (equally l) = 1.
Proof.
  intros Hne. pose proof (len_pos _ Hne). split.
  - intros ew Hew. apply in_map_iff in Hew as (e & <- & He). auto.
  - unfold equally. rewrite (sumf_map (fun e => (e, 1 / len l)) snd l). cbn [snd]. rewrite sumf_const. field. lra.
Qed.
Lemma by_size_value l : (forall e, In e l -> exists x, ge_eff e = Fin x) ->
  weighted (by_size l) = Fin (sumf (fun e => ge_n e * toR (ge_eff e)) l / sumf ge_n l).
Proof.
  intros H. rewrite weighted_fin.
  - unfold by_size. rewrite (sumf_map (fun e => (e, ge_n e / sumf ge_n l)) (fun ew => snd ew * toR (ge_eff (fst ew))) l). cbn [fst snd].
    rewrite <- sumf_div. f_equal. apply sumf_ext_all. intros. unfold Rdiv. ring.
  - intros ew Hew. apply in_map_iff in Hew as (e & <- & He). apply H. exact He.
Qed.
Lemma equally_value (l : list gte) : (forall e, In e l -> exists x, ge_eff e = Fin x) ->
  weighted (equally l) = Fin (meanf (fun e => toR (ge_eff e)) l).
Proof.
  intros H. rewrite weighted_fin.
  - unfold equally. rewrite (sumf_map (fun e => (e, 1 / len l)) (fun ew => snd ew * toR (ge_eff (fst ew))) l). cbn [fst snd].
    unfold meanf. f_equal. rewrite sumf_scal. unfold Rdiv. ring.
  - intros ew Hew. apply in_map_iff in Hew as (e & <- & He). apply H. exact He.
Qed.
(* any weighted average with nonnegative weights summing to one stays within the bounds of its cells *)
Lemma convex_bounds (l : list (gte * R)) lo hi : sumf snd l = 1 -> (forall ew, In ew l -> 0 <= snd ew) ->
  (forall ew, In ew l -> exists x, ge_eff (fst ew) = Fin x /\ lo <= x <= hi) -> exists v, weighted l = Fin v /\ lo <= v <= hi.
Proof.
  intros H1 Hw Hb. exists (sumf (fun ew => snd ew * toR (ge_eff (fst ew))) l). split.
  { apply weighted_fin. intros ew Hew. destruct (Hb ew Hew) as (x & E & _). exists x. exact E. }
  split.
  - rewrite <- (Rmult_1_r lo), <- H1, <- sumf_scal. apply sumf_le. intros ew Hew. destruct (Hb ew Hew) as (x & E & [? ?]). rewrite E. cbn [toR].
    rewrite (Rmult_comm lo). apply Rmult_le_compat_l; auto.
  - rewrite <- (Rmult_1_r hi), <- H1, <- sumf_scal. apply sumf_le. intros ew Hew. destruct (Hb ew Hew) as (x & E & [? ?]). rewrite E. cbn [toR].
    rewrite (Rmult_comm hi). apply Rmult_le_compat_l; auto.
Qed.

Lemma collect_filter {A B} (f : A -> res (option B)) (p : B -> bool) (pk : A -> bool) l r :
  collect f l = Ok r -> (forall a b, In a l -> f a = Ok (Some b) -> p b = pk a) -> collect f (filter pk l) = Ok (filter p r).
Proof.
  revert r. induction l as [|a l IH]; intros r H Hp; simpl in H.
  - injection H as <-. reflexivity.
  - destruct (f a) as [o|] eqn:E; [|discriminate]. destruct (collect f l) as [bs|] eqn:E2; [|discriminate]. simpl in H. injection H as <-.
    specialize (IH bs eq_refl (fun a0 b Ha => Hp a0 b (or_intror Ha))). cbn [filter].
    destruct o as [b|].
    + specialize (Hp a b (or_introl eq_refl) E). cbn [filter]. rewrite Hp. destruct (pk a); [|exact IH]. simpl. rewrite E, IH. reflexivity.
    + destruct (pk a); [|exact IH]. simpl. rewrite E, IH. reflexivity.
Qed.
Lemma collect_ext {A B} (f f' : A -> res (option B)) l : (forall a, In a l -> f a = f' a) -> collect f l = collect f' l.
Proof. induction l as [|a l IH]; simpl; intros H; auto. rewrite H by auto. rewrite IH by auto. reflexivity. Qed.
Lemma filter_flat_map {A B} (f : A -> list B) p l : filter p (flat_map f l) = flat_map (fun a => filter p (f a)) l.
Proof. induction l as [|a l IH]; simpl; auto. rewrite filter_app, IH. reflexivity. Qed.
Lemma filter_pairs {A B} (a : A) (p : A * B -> bool) (l : list B) : filter p (map (pair a) l) = map (pair a) (filter (fun b => p (a, b)) l).
Proof. induction l as [|b l IH]; simpl; auto. rewrite IH. destruct (p (a, b)); reflexivity. Qed.
Lemma filter_filter {A} (p q : A -> bool) l : filter p (filter q l) = filter (fun a => q a && p a) l.
Proof. induction l as [|a l IH]; simpl; auto. destruct (q a); simpl; rewrite IH; reflexivity. Qed.

Lemma rel_keys_In l e : In e (rel_keys l) <-> exists c, In c l /\ rel_time c = e.
Proof.
  unfold rel_keys. rewrite in_app_iff. split.
  - intros [H|H].
    + destruct (existsb _ l) eqn:E; [|contradiction]. destruct H as [<-|[]]. apply existsb_exists in E as (c & Hc & E).
      exists c. split; auto. destruct (rel_time c); [discriminate|reflexivity].
    + apply in_map_iff in H as (z & <- & H). rewrite zsort_In, nodup_In in H. apply in_flat_map in H as (c & Hc & H). exists c. split; auto.
      destruct (rel_time c); [|contradiction]. destruct H as [->|[]]. reflexivity.
  - intros (c & Hc & E). destruct e as [z|].
    + right. apply in_map_iff. exists z. split; auto. rewrite zsort_In, nodup_In. apply in_flat_map. exists c. split; auto. rewrite E. left; auto.
    + left. assert (X : existsb (fun e => negb (is_some (rel_time e))) l = true) by (apply existsb_exists; exists c; split; [auto|rewrite E; reflexivity]).
      rewrite X. left; auto.
Qed.
Lemma oz_eqb_true a b : oz_eqb a b = true <-> a = b.
Proof. destruct a, b; simpl; try rewrite Z.eqb_eq; split; congruence. Qed.
Lemma cells_at_In l e c : In c (cells_at l e) <-> In c l /\ rel_time c = e.
Proof. unfold cells_at. rewrite filter_In, oz_eqb_true. tauto. Qed.

Section Fit.
Context {I : Type}.
Variable qr : list Z -> list (Z -> R) -> list nat.
Variable lstsq : list Z -> list (Z -> R) -> (Z -> R) -> list R.
Variable inv : list Z -> list (Z -> R) -> option (nat -> nat -> R).
Variable logit : list Z -> list Z -> list (Z -> R) -> option (Z -> R).
Variable sf : option Z -> fl -> fl.
Variable ppf : option Z -> R -> R.
Hypothesis Hqr : qr_ok qr.
Hypothesis Hls : lstsq_ok lstsq.
Variables (rows : list I) (u t : I -> Z) (g : I -> coh) (y : I -> option R) (covs : list (I -> option R)).
Notation est := (estimate qr lstsq inv logit).
Notation agt := (att_gt qr lstsq inv logit rows u t g y covs).
Notation cohort := (cs_cohort rows u g).
Notation periods := (cs_periods rows t).
Notation units := (cs_units rows u).
Notation effs := (all_effects qr lstsq inv logit rows u t g y covs).
Notation fit := (cs_fit qr lstsq inv logit sf ppf rows u t g y covs).

Lemma outcome_row a p v : cs_outcome rows u t y a p = Some v -> exists i, In i rows /\ u i = a /\ t i = p /\ y i = Some v.
Proof.
  unfold cs_outcome. destruct (cell_rows rows u t a p) as [|i l] eqn:E; [discriminate|]. intros H.
  assert (Hi : In i (cell_rows rows u t a p)) by (rewrite E; left; auto).
  apply filter_In in Hi as [Hi Hb]. apply andb_true_iff in Hb as [H1 H2]. apply Z.eqb_eq in H1, H2. exists i. auto.
Qed.
Lemma cohort_const Cf a : (forall i, In i rows -> g i = Cf (u i)) -> In a units -> cohort a = Cf a.
Proof.
  intros H Ha. unfold cs_cohort, unit_cohort. apply cs_units_In in Ha as (i0 & Hi0 & Eu).
  assert (G : forall l, (forall i, In i l -> In i rows /\ u i = a) -> l <> [] ->
     match filter (fun c => match c with CNaN => false | _ => true end) (map g l) with [] => CNaN | c :: _ => c end = Cf a).
  { induction l as [|i l IH]; intros Hl Hne; [congruence|]. destruct (Hl i (or_introl eq_refl)) as [Hi E]. simpl.
    rewrite H, E by auto. destruct (Cf a) eqn:Ec; auto. destruct l as [|j l]; [reflexivity|]. apply IH; [intros; apply Hl; right; auto|discriminate]. }
  apply G.
  - intros i Hi. apply filter_In in Hi as [Hi E]. apply Z.eqb_eq in E. auto.
  - intros E. assert (F : In i0 (filter (fun i => Z.eqb (u i) a) rows)) by (apply filter_In; split; [auto|apply Z.eqb_eq; auto]). rewrite E in F. contradiction.
Qed.

(* the cells of a fit: both sides nonempty, units from the data *)
Lemma cell_facts cfg l e : effs cfg = Ok l -> In e l ->
  ge_T e <> [] /\ ge_C e <> [] /\
  (forall a, In a (ge_T e ++ ge_C e) -> In a units /\ exists vb vs, cs_outcome rows u t y a (ge_base e) = Some vb /\ cs_outcome rows u t y a (ge_t e) = Some vs).
Proof.
  intros Hl He. destruct (effects_In _ _ _ _ _ _ _ _ _ _ cfg l e Hl He) as (gr & s & _ & _ & Hag).
  destruct (att_gt_inv _ _ _ _ _ _ _ _ _ _ _ _ _ _ Hag) as (Eg & Et & _ & _ & _ & ET & EC & H1 & H2 & _).
  split; [exact H1|]. split; [exact H2|]. intros a Ha. rewrite Et.
  assert (Hp : In a units /\ has_pair rows u t y (ge_base e) s a = true).
  { apply in_app_iff in Ha as [Ha|Ha]; [rewrite ET in Ha|rewrite EC in Ha]; apply filter_In in Ha as [Ha Hb];
      apply andb_true_iff in Hb as [_ Hb]; auto. }
  destruct Hp as [Hu Hp]. split; [exact Hu|]. unfold has_pair in Hp. apply andb_true_iff in Hp as [A B]. unfold isS in A, B.
  destruct (cs_outcome rows u t y a (ge_base e)) as [vb|]; [|discriminate]. destruct (cs_outcome rows u t y a s) as [vs|]; [|discriminate].
  exists vb, vs. auto.
Qed.

(* ---- exact recovery ---- *)
(* outcomes with unit effects, period effects, and effects tau(g,t) from the treatment date on *)
Definition teff (tau : Z -> Z -> R) (c : coh) (s : Z) : R :=
  match c with CFin k => if Z.ltb 0 k && Z.leb k s then tau k s else 0 | _ => 0 end.
Variables (Cf : Z -> coh) (al be : Z -> R) (tau : Z -> Z -> R).

Lemma change_value (HC : forall i, In i rows -> g i = Cf (u i))
  (Hy : forall i v, In i rows -> y i = Some v -> v = al (u i) + be (t i) + teff tau (Cf (u i)) (t i)) cfg l e a :
  effs cfg = Ok l -> In e l -> In a (ge_T e ++ ge_C e) ->
  change rows u t y (ge_base e) (ge_t e) a = be (ge_t e) - be (ge_base e) + (teff tau (cohort a) (ge_t e) - teff tau (cohort a) (ge_base e)).
Proof.
  intros Hl He Ha. destruct (cell_facts cfg l e Hl He) as (_ & _ & HF). destruct (HF a Ha) as (Hu & vb & vs & Eb & Es).
  unfold change. rewrite Eb, Es. cbn [oR]. rewrite (cohort_const Cf a HC Hu).
  apply outcome_row in Eb as (i & Hi & Ei & Ti & Yi). apply outcome_row in Es as (j & Hj & Ej & Tj & Yj).
  rewrite (Hy i vb Hi Yi), (Hy j vs Hj Yj). rewrite Ei, Ti, Ej, Tj. ring.
Qed.

Theorem exact_recovery cfg l e x :
  (forall i, In i rows -> g i = Cf (u i)) ->
  (forall i v, In i rows -> y i = Some v -> v = al (u i) + be (t i) + teff tau (Cf (u i)) (t i)) ->
  (0 <= cs_anticipation cfg)%Z ->
  effs cfg = Ok l -> In e l -> ge_eff e = Fin x ->
  (cs_control cfg = "never_treated"%string \/ cs_universal cfg = false \/ (ge_base e <= ge_t e)%Z) ->
  forall k, ge_g e = CFin k -> x = if Z.leb k (ge_t e) then tau k (ge_t e) else 0.
Proof.
  intros HC Hy Ha Hl He Hx Hc k Hk.
  destruct (cell_facts cfg l e Hl He) as (HT & HCn & HF).
  destruct (effects_In _ _ _ _ _ _ _ _ _ _ cfg l e Hl He) as (gr & s & Hgr & _ & Hag).
  destruct (att_gt_inv _ _ _ _ _ _ _ _ _ _ _ _ _ _ Hag) as (Eg & Et & _ & _ & _ & _ & _ & _ & _ & r & Hr & Er & _).
  assert (Hk0 : (0 < k)%Z).
  { rewrite <- Eg, Hk in Hgr. unfold cs_groups in Hgr. apply in_app_iff in Hgr as [Hgr|Hgr].
    - apply in_map_iff in Hgr as (z & E & Hz). injection E as ->. unfold timing_groups, finite_cohorts in Hz.
      rewrite zsort_In, nodup_In in Hz. apply in_flat_map in Hz as (i & _ & Hz). destruct (g i) as [z| |]; try contradiction.
      destruct (Z.ltb_spec 0 z); [|contradiction]. destruct Hz as [->|[]]. exact H.
    - destruct (existsb _ _); [|contradiction]. destruct Hgr as [?|[]]; discriminate. }
  rewrite Er in Hx. rewrite <- Et in Hr.
  rewrite (common_trend_exact qr lstsq inv logit Hqr Hls cfg _ _ _ _ r x (be (ge_t e) - be (ge_base e)) Hr Hx HT HCn).
  - rewrite (meanf_ext _ (fun _ => be (ge_t e) - be (ge_base e) + (if Z.leb k (ge_t e) then tau k (ge_t e) else 0))).
    + rewrite meanf_const by auto. ring.
    + intros a Hi. rewrite (change_value HC Hy cfg l e a Hl He) by (apply in_app_iff; auto).
      rewrite (treated_cohort _ _ _ _ _ _ _ _ _ _ cfg l e a Hl He Hi), Hk.
      destruct (base_facts _ _ _ _ _ _ _ _ _ _ cfg l e Hl He) as (_ & _ & _ & HB & _). destruct (HB k Hk) as (B1 & _).
      unfold teff. destruct (Z.ltb_spec 0 k); [|lia]. destruct (Z.leb_spec k (ge_base e)); [lia|]. cbn [andb]. ring.
  - intros a Hi. rewrite (change_value HC Hy cfg l e a Hl He) by (apply in_app_iff; auto).
    destruct (clean_controls _ _ _ _ _ _ _ _ _ _ cfg l e a Hl He Hi Hc) as [C1 C2]; [rewrite Hk; discriminate|rewrite Hk; discriminate|].
    assert (Z0 : forall s0, under_treatment (cohort a) s0 = false -> teff tau (cohort a) s0 = 0).
    { intros s0. unfold under_treatment, teff. destruct (cohort a) as [k0| |]; auto. cbn [c_never c_started].
      destruct (Z.ltb_spec 0 k0); cbn [andb]; auto. destruct (Z.eqb_spec k0 0); [lia|]. cbn [negb andb]. destruct (Z.leb k0 s0); [discriminate|auto]. }
    rewrite !Z0 by auto. ring.
Qed.

(* without covariates every cell is a number and no step fails *)
Theorem no_cov_total cfg : covs = [] -> exists l, effs cfg = Ok l /\ forall e, In e l -> exists x, ge_eff e = Fin x.
Proof.
  intros Hc. assert (H : forall gr s, exists o, agt cfg gr s = Ok o /\ forall e, o = Some e -> exists x, ge_eff e = Fin x).
  { intros gr s. unfold att_gt. destruct (cs_base cfg gr s); [|eexists; split; [reflexivity|discriminate]].
    destruct (negb _); [eexists; split; [reflexivity|discriminate]|]. destruct (negb _); [eexists; split; [reflexivity|discriminate]|].
    cbv zeta. destruct (treated_units _ _ _ _ _ _ _ _) as [|a T]; [eexists; split; [reflexivity|discriminate]|].
    destruct (control_units _ _ _ _ _ _ _ _ _) as [|c C]; [eexists; split; [reflexivity|discriminate]|].
    unfold cov_columns. rewrite Hc. destruct (methods_agree qr lstsq inv logit cfg (a :: T) (c :: C) (change rows u t y z s)) as (r & Hr & Ha & _).
    rewrite Hr. cbn [bind]. eexists. split; [reflexivity|]. intros e E. injection E as <-. cbn [ge_eff]. eexists. exact Ha. }
  destruct (collect_total (fun gs => agt cfg (fst gs) (snd gs)) (flat_map (fun gr => map (fun s => (gr, s)) (valid_periods rows t cfg gr)) (cs_groups rows g))) as [l Hl].
  { intros gs _. destruct (H (fst gs) (snd gs)) as (o & Ho & _). exists o. exact Ho. }
  exists l. split; [exact Hl|]. intros e He. destruct (effects_In _ _ _ _ _ _ _ _ _ _ cfg l e Hl He) as (gr & s & _ & _ & Hag).
  destruct (H gr s) as (o & Ho & Hx). rewrite Hag in Ho. injection Ho as <-. apply Hx. reflexivity.
Qed.

(* ---- aggregation ---- *)
Lemma agg_simple_cases a l att se : agg_simple (group_size rows u g) cohort a l = (att, se) ->
  (filter (ge_post a) l = [] /\ att = NaN /\ se = NaN) \/
  (filter (ge_post a) l <> [] /\ att = weighted (by_size (filter (ge_post a) l)) /\ se = agg_se_wif (group_size rows u g) cohort (by_size (filter (ge_post a) l))).
Proof.
  unfold agg_simple. destruct (filter (ge_post a) l) as [|e0 l0] eqn:E; intros H; injection H as <- <-; [left; auto|right].
  split; [discriminate|]. split; reflexivity.
Qed.

Theorem overall_aggregation cfg agg bal ws r : fit cfg agg bal ws = Ok r ->
  let post := filter (ge_post (cs_anticipation cfg)) (cr_effects r) in
  (forall e, In e post <-> In e (cr_effects r) /\ exists k, ge_g e = CFin k /\ (k - cs_anticipation cfg <= ge_t e)%Z) /\
  (post = [] -> cr_att r = NaN) /\
  (post <> [] -> cr_att r = weighted (by_size post) /\ sumf snd (by_size post) = 1 /\
     (forall ew, In ew (by_size post) -> In (fst ew) post /\ 0 < snd ew <= 1 /\ snd ew = len (ge_T (fst ew)) / sumf (fun e => len (ge_T e)) post)).
Proof.
  intros H post. destruct (fit_inv _ _ _ _ _ _ _ _ _ _ _ _ _ _ _ _ _ H) as (_ & _ & Hl & _ & Ha & _). split; [|split].
  - intros e. unfold post. rewrite filter_In. unfold ge_post, before.
    split; intros [He Hp]; (split; [exact He|]); destruct (ge_g e) as [k| |] eqn:Eg; try discriminate.
    + exists k. split; auto. apply negb_true_iff, Z.ltb_ge in Hp. lia.
    + exfalso. destruct (effects_In _ _ _ _ _ _ _ _ _ _ cfg _ e Hl He) as (gr & s & Hgr & _ & Hag).
      destruct (att_gt_inv _ _ _ _ _ _ _ _ _ _ _ _ _ _ Hag) as (E & _). rewrite Eg in E. subst gr. unfold cs_groups in Hgr.
      apply in_app_iff in Hgr as [Hgr|Hgr]; [apply in_map_iff in Hgr as (? & ? & _); discriminate|].
      destruct (existsb _ _); [destruct Hgr as [?|[]]; discriminate|contradiction].
    + destruct Hp as (k0 & E & Hk). injection E as <-. apply negb_true_iff, Z.ltb_ge. lia.
    + destruct Hp as (k0 & E & _). discriminate.
    + destruct Hp as (k0 & E & _). discriminate.
  - intros Hp. destruct (agg_simple _ _ _ _) as [att se] eqn:E in Ha. cbn [fst] in Ha. rewrite Ha.
    destruct (agg_simple_cases _ _ _ _ E) as [(_ & -> & _)|(Hn & _)]; [reflexivity|contradiction].
  - intros Hp. destruct (agg_simple _ _ _ _) as [att se] eqn:E in Ha. cbn [fst] in Ha. rewrite Ha.
    destruct (agg_simple_cases _ _ _ _ E) as [(Hn & _)|(_ & -> & _)]; [contradiction|].
    assert (HT : forall e, In e post -> ge_T e <> []).
    { intros e He. apply filter_In in He as [He _]. apply (cell_facts cfg _ e Hl He). }
    destruct (by_size_weights post HT Hp) as [W1 W2]. split; [reflexivity|]. split; [exact W2|].
    intros ew Hew. destruct (W1 ew Hew) as [A B]. split; [exact A|]. split; [exact B|].
    apply in_map_iff in Hew as (e & <- & _). reflexivity.
Qed.

(* the overall ATT under exact recovery: the size-weighted mean of the true effects *)
Theorem overall_recovery cfg agg bal ws r :
  (forall i, In i rows -> g i = Cf (u i)) ->
  (forall i v, In i rows -> y i = Some v -> v = al (u i) + be (t i) + teff tau (Cf (u i)) (t i)) ->
  cs_anticipation cfg = 0%Z -> fit cfg agg bal ws = Ok r ->
  (forall e, In e (cr_effects r) -> exists x, ge_eff e = Fin x) ->
  let post := filter (ge_post 0) (cr_effects r) in
  post <> [] ->
  cr_att r = Fin (sumf (fun e => len (ge_T e) * match ge_g e with CFin k => tau k (ge_t e) | _ => 0 end) post / sumf (fun e => len (ge_T e)) post).
Proof.
  intros HC Hy Ha H Hfin post Hp. destruct (overall_aggregation cfg agg bal ws r H) as (O1 & _ & O2). rewrite Ha in *.
  destruct (O2 Hp) as (-> & _). destruct (fit_inv _ _ _ _ _ _ _ _ _ _ _ _ _ _ _ _ _ H) as (_ & _ & Hl & _).
  fold post. rewrite by_size_value by (intros e He; apply filter_In in He as [He _]; auto). f_equal. f_equal.
  apply sumf_ext. intros e He. destruct (proj1 (O1 e) He) as (Hin & k & Ek & Hk). destruct (Hfin e Hin) as (x & Ex).
  rewrite Ek, Ex. cbn [toR]. unfold ge_n. f_equal.
  rewrite (exact_recovery cfg _ e x HC Hy (eq_ind_r (fun z => (0 <= z)%Z) (Z.le_refl 0) Ha) Hl Hin Ex) with (k := k); auto.
  - rewrite Z.sub_0_r in Hk. destruct (Z.leb_spec k (ge_t e)); [reflexivity|lia].
  - right; right. destruct (base_facts _ _ _ _ _ _ _ _ _ _ cfg _ e Hl Hin) as (_ & _ & _ & HB & _).
    destruct (HB k Ek) as (_ & B2 & _). rewrite Ha in B2. destruct (B2 Hk). lia.
Qed.

(* event study: at each event time the size-weighted mean of exactly the cells at that time *)
Theorem event_study_aggregation cfg agg bal ws r l e ef : fit cfg agg bal ws = Ok r -> cr_es r = Some l -> In (e, ef) l ->
  (ef = es_reference /\ cs_universal cfg = true /\ e = Some (-1 - cs_anticipation cfg)%Z /\ cells_at (balanced_effects bal (cr_effects r)) e = []) \/
  (let cells := cells_at (balanced_effects bal (cr_effects r)) e in
   cells <> [] /\ ef_eff ef = weighted (by_size cells) /\ ef_se ef = agg_se (by_size cells) /\ ef_n ef = length cells /\ sumf snd (by_size cells) = 1 /\
   (forall c, In c cells -> In c (cr_effects r) /\ rel_time c = e) /\
   (forall ew, In ew (by_size cells) -> In (fst ew) cells /\ 0 < snd ew <= 1)).
Proof.
  clear Cf al be tau. intros H Hes Hin. destruct (fit_inv _ _ _ _ _ _ _ _ _ _ _ _ _ _ _ _ _ H) as (_ & _ & Hl & _ & _ & _ & _ & _ & _ & HE & _).
  rewrite (HE l Hes) in Hin. unfold agg_event_study in Hin. cbv zeta in Hin. set (B := balanced_effects bal (cr_effects r)) in *.
  set (es := map (fun e => (e, es_effect sf ppf (cs_alpha cfg) B e)) (rel_keys B)) in *.
  assert (HB : forall c, In c B -> In c (cr_effects r)).
  { intros c. unfold B, balanced_effects. destruct bal; auto. intros Hc. apply filter_In in Hc. tauto. }
  assert (K : In (e, ef) es -> let cells := cells_at B e in
   cells <> [] /\ ef_eff ef = weighted (by_size cells) /\ ef_se ef = agg_se (by_size cells) /\ ef_n ef = length cells /\ sumf snd (by_size cells) = 1 /\
   (forall c, In c cells -> In c (cr_effects r) /\ rel_time c = e) /\
   (forall ew, In ew (by_size cells) -> In (fst ew) cells /\ 0 < snd ew <= 1)).
  { intros Hi cells. apply in_map_iff in Hi as (e0 & E & Hk). injection E as -> <-.
    apply rel_keys_In in Hk as (c & Hc & Ec). assert (Hcc : In c cells) by (apply cells_at_In; auto).
    assert (Hne : cells <> []) by (intros E; rewrite E in Hcc; contradiction).
    assert (HT : forall x, In x cells -> ge_T x <> []).
    { intros x Hx. apply cells_at_In in Hx as [Hx _]. apply (cell_facts cfg _ x Hl). auto. }
    destruct (by_size_weights cells HT Hne) as [W1 W2]. split; [exact Hne|].
    split; [reflexivity|]. split; [reflexivity|]. split; [cbn; unfold by_size; rewrite map_length; reflexivity|]. split; [exact W2|].
    split; [|exact W1]. intros x Hx. apply cells_at_In in Hx as [Hx ?]. auto. }
  destruct (cs_universal cfg) eqn:Eu; cbn [andb] in Hin; [|right; apply K; exact Hin].
  destruct (nonempty es); cbn [andb] in Hin; [|right; apply K; exact Hin].
  destruct (existsb _ es) eqn:Ex; cbn [negb] in Hin; [right; apply K; exact Hin|].
  apply in_app_iff in Hin as [Hin|[E|[]]]; [right; apply K; exact Hin|]. left. apply pair_equal_spec in E as [<- <-]. do 3 (split; [reflexivity|]).
  destruct (cells_at B (Some (-1 - cs_anticipation cfg)%Z)) as [|c l0] eqn:Ec; [reflexivity|exfalso].
  assert (Hc : In c (cells_at B (Some (-1 - cs_anticipation cfg)%Z))) by (rewrite Ec; left; auto).
  apply cells_at_In in Hc as [Hc1 Hc2].
  assert (X : existsb (fun p => oz_eqb (fst p) (Some (-1 - cs_anticipation cfg)%Z)) es = true).
  { apply existsb_exists. eexists. split; [apply in_map_iff; eexists; split; [reflexivity|apply rel_keys_In; exists c; split; [exact Hc1|exact Hc2]]|].
    apply oz_eqb_true. reflexivity. }
  congruence.
Qed.

(* group effects: the plain mean of the group's post-treatment cells *)
Theorem group_aggregation cfg agg bal ws r l gr ef : fit cfg agg bal ws = Ok r -> cr_group r = Some l -> In (gr, ef) l ->
  let cells := filter (fun e => c_eqb (ge_g e) gr && ge_post (cs_anticipation cfg) e) (cr_effects r) in
  cells <> [] /\ In gr (cr_groups r) /\ ef_eff ef = weighted (equally cells) /\ ef_se ef = agg_se (equally cells) /\ ef_n ef = length cells /\ sumf snd (equally cells) = 1 /\
  (forall ew, In ew (equally cells) -> In (fst ew) cells /\ snd ew = 1 / len cells).
Proof.
  intros H Hg Hin cells. destruct (fit_inv _ _ _ _ _ _ _ _ _ _ _ _ _ _ _ _ _ H) as (_ & _ & _ & _ & _ & _ & Egr & _ & _ & _ & HG & _).
  rewrite (HG l Hg) in Hin. unfold agg_by_group in Hin. apply in_flat_map in Hin as (g0 & Hg0 & Hin).
  destruct (group_cells (cs_anticipation cfg) (cr_effects r) g0) as [|c0 l0] eqn:E; [contradiction|].
  cbv zeta in Hin. destruct Hin as [Hin|[]]. apply pair_equal_spec in Hin as [<- <-]. rewrite <- E.
  unfold group_cells in E |- *. fold cells in E |- *.
  assert (Hne : cells <> []) by congruence. destruct (equally_weights cells Hne) as [W1 W2].
  split; [exact Hne|]. split; [rewrite Egr; exact Hg0|]. split; [reflexivity|]. split; [reflexivity|].
  split; [cbn; unfold equally; rewrite map_length; reflexivity|]. auto.
Qed.

(* ---- the base-period mode only matters before treatment ---- *)
Definition same_but_mode (c c' : cs_config) : Prop :=
  cs_control c = cs_control c' /\ cs_anticipation c = cs_anticipation c' /\ cs_method c = cs_method c' /\ cs_action c = cs_action c'.

Lemma att_mode cfg cfg' gr s : same_but_mode cfg cfg' -> before (cs_anticipation cfg) gr s = false -> agt cfg gr s = agt cfg' gr s.
Proof.
  intros (E1 & E2 & E3 & E4) Hb. unfold att_gt.
  assert (EB : cs_base cfg gr s = cs_base cfg' gr s).
  { unfold cs_base. rewrite <- E2, Hb. destruct (cs_universal cfg), (cs_universal cfg'); reflexivity. }
  rewrite EB. destruct (cs_base cfg' gr s) as [b|]; [|reflexivity].
  assert (EC : control_units rows u t g y cfg gr b s = control_units rows u t g y cfg' gr b s).
  { unfold control_units, is_control. rewrite E1. reflexivity. }
  rewrite EC. unfold estimate. rewrite E3, E4. reflexivity.
Qed.
Lemma valid_post cfg gr : gr <> CNaN ->
  filter (fun s => negb (before (cs_anticipation cfg) gr s)) (valid_periods rows t cfg gr) = filter (fun s => negb (before (cs_anticipation cfg) gr s)) periods.
Proof.
  intros Hn. unfold valid_periods. destruct (cs_universal cfg); rewrite filter_filter; apply filter_ext; intros s.
  - destruct gr as [k| |]; cbn [before]; try reflexivity; try congruence. destruct (Z.ltb_spec s (k - cs_anticipation cfg)); cbn [negb]; [apply andb_false_r|].
    destruct (Z.eqb_spec s (k - 1 - cs_anticipation cfg)); [lia|reflexivity].
  - destruct (negb (before (cs_anticipation cfg) gr s)); [reflexivity|apply andb_false_r].
Qed.
Lemma groups_not_nan gr : In gr (cs_groups rows g) -> gr <> CNaN.
Proof.
  unfold cs_groups. intros H E. subst. apply in_app_iff in H as [H|H]; [apply in_map_iff in H as (? & ? & _); discriminate|].
  destruct (existsb _ _); [destruct H as [?|[]]; discriminate|contradiction].
Qed.
Lemma post_collect cfg l : effs cfg = Ok l ->
  collect (fun gs => agt cfg (fst gs) (snd gs))
    (flat_map (fun gr => map (pair gr) (filter (fun s => negb (before (cs_anticipation cfg) gr s)) periods)) (cs_groups rows g))
  = Ok (filter (ge_post (cs_anticipation cfg)) l).
Proof.
  intros H. unfold all_effects in H.
  rewrite <- (collect_filter _ (ge_post (cs_anticipation cfg)) (fun gs => negb (before (cs_anticipation cfg) (fst gs) (snd gs))) _ _ H).
  - f_equal. rewrite filter_flat_map. symmetry.
    assert (G : forall L, (forall gr, In gr L -> gr <> CNaN) ->
      flat_map (fun a => filter (fun gs => negb (before (cs_anticipation cfg) (fst gs) (snd gs))) (map (fun s => (a, s)) (valid_periods rows t cfg a))) L
      = flat_map (fun gr => map (pair gr) (filter (fun s => negb (before (cs_anticipation cfg) gr s)) periods)) L).
    { induction L as [|a L IH]; intros HL; [reflexivity|]. cbn [flat_map]. rewrite IH by (intros; apply HL; right; auto). f_equal.
      change (map (fun s => (a, s)) (valid_periods rows t cfg a)) with (map (pair a) (valid_periods rows t cfg a)). rewrite filter_pairs. cbn [fst snd].
      rewrite valid_post by (apply HL; left; auto). reflexivity. }
    apply G. apply groups_not_nan.
  - intros (gr, s) e _ He. cbn [fst snd] in *. destruct (att_gt_inv _ _ _ _ _ _ _ _ _ _ _ _ _ _ He) as (Eg & Et & _). unfold ge_post. rewrite Eg, Et. reflexivity.
Qed.
Theorem mode_irrelevant_post cfg cfg' l l' : same_but_mode cfg cfg' -> effs cfg = Ok l -> effs cfg' = Ok l' ->
  filter (ge_post (cs_anticipation cfg)) l = filter (ge_post (cs_anticipation cfg)) l'.
Proof.
  intros HS H H'. pose proof (post_collect cfg l H) as P. pose proof (post_collect cfg' l' H') as P'.
  pose proof HS as (E1 & E2 & _). rewrite <- E2 in P'.
  rewrite (collect_ext _ (fun gs => agt cfg' (fst gs) (snd gs))) in P; [congruence|].
  intros (gr, s) Hin. cbn [fst snd]. apply att_mode; auto. apply in_flat_map in Hin as (g0 & _ & Hin). apply in_map_iff in Hin as (s0 & E & Hs).
  injection E as <- <-. apply filter_In in Hs as [_ Hs]. apply negb_true_iff in Hs. exact Hs.
Qed.
Theorem mode_irrelevant_overall cfg cfg' agg agg' bal bal' r r' : same_but_mode cfg cfg' ->
  fit cfg agg bal [] = Ok r -> fit cfg' agg' bal' [] = Ok r' -> cr_att r = cr_att r' /\ cr_se r = cr_se r'.
Proof.
  intros HS H H'. destruct (fit_inv _ _ _ _ _ _ _ _ _ _ _ _ _ _ _ _ _ H) as (_ & _ & Hl & _ & Ha & Hse & _).
  destruct (fit_inv _ _ _ _ _ _ _ _ _ _ _ _ _ _ _ _ _ H') as (_ & _ & Hl' & _ & Ha' & Hse' & _).
  rewrite Ha, Ha', (Hse eq_refl), (Hse' eq_refl). pose proof (mode_irrelevant_post cfg cfg' _ _ HS Hl Hl') as E.
  pose proof HS as (_ & E2 & _). rewrite <- E2. unfold agg_simple. rewrite E. auto.
Qed.

(* the cluster column is never used *)
Definition set_cluster (cfg : cs_config) (c : option string) : cs_config :=
  {| cs_control := cs_control cfg; cs_anticipation := cs_anticipation cfg; cs_method := cs_method cfg; cs_alpha := cs_alpha cfg;
     cs_cluster := c; cs_action := cs_action cfg; cs_basemode := cs_basemode cfg |}.
Theorem cluster_unused cfg c agg bal ws : fit (set_cluster cfg c) agg bal ws = fit cfg agg bal ws.
Proof. reflexivity. Qed.
End Fit.

(* Callaway-Sant'Anna at the level of a fit: bootstrap and analytic variances, worked examples, counterexamples. *)
From Verif Require Import Prelude Flt Stats_model Stats_proofs Linalg_model Linalg_proofs Linalg_vcov Linalg_thms Did_model Did_proofs Boot_model Boot_proofs Multi_model Multi_proofs Multi_thms Bacon_model Bacon_proofs Bacon_thms Staggered_model Staggered_proofs Staggered_est Staggered_thms Staggered_more.
From Coq Require Import Arith ZArith String List Permutation.
Import ListNotations.
Open Scope R_scope.

Section Fit.
Context {I : Type}.
Variable qr : list Z -> list (Z -> R) -> list nat.
Variable lstsq : list Z -> list (Z -> R) -> (Z -> R) -> list R.
Variable inv : list Z -> list (Z -> R) -> option (nat -> nat -> R).
Variable logit : list Z -> list Z -> list (Z -> R) -> option (Z -> R).
Variable sf : option Z -> fl -> fl.
Variable ppf : option Z -> R -> R.
Hypothesis Hqr : qr_ok qr.
Hypothesis Hls : lstsq_ok lstsq.
Variables (rows : list I) (u t : I -> Z) (g : I -> coh) (y : I -> option R) (covs : list (I -> option R)).
Notation est := (estimate qr lstsq inv logit).
Notation agt := (att_gt qr lstsq inv logit rows u t g y covs).
Notation cohort := (cs_cohort rows u g).
Notation periods := (cs_periods rows t).
Notation units := (cs_units rows u).
Notation effs := (all_effects qr lstsq inv logit rows u t g y covs).
Notation fit := (cs_fit qr lstsq inv logit sf ppf rows u t g y covs).

Lemma est_inf_fin cfg T C dy xs e att : est cfg T C dy xs = Ok e -> ce_att e = Fin att ->
  (forall a, exists x, ce_tinf e a = Fin x) /\ (forall a, exists x, ce_cinf e a = Fin x).
Proof.
  intros H Ha. pose proof (est_cases qr lstsq inv logit Hqr Hls cfg T C dy xs e att H Ha) as HE. destruct xs as [x|]; cbv zeta in HE.
  - destruct HE as [[_ ->]|(_ & _ & b & _ & _ & [(_ & _ & _ & Et & Ec)|(_ & _ & Et & Ec)])].
    + split; intros a; eexists; reflexivity.
    + split; intros a; eexists; [apply Et|apply Ec].
    + split; intros a; eexists; [apply Et|apply Ec].
  - destruct HE as [_ [->| ->]]; split; intros a; eexists; reflexivity.
Qed.
Lemma effects_inf_fin cfg l L : effs cfg = Ok l -> (forall ew, In ew L -> In (fst ew) l /\ exists x, ge_eff (fst ew) = Fin x) -> inf_fin L.
Proof.
  intros Hl HL ew Hew. destruct (HL ew Hew) as [He (x & Ex)]. split; [exists x; exact Ex|].
  destruct (effects_In _ _ _ _ _ _ _ _ _ _ cfg l _ Hl He) as (gr & s & _ & _ & Hag).
  destruct (att_gt_inv _ _ _ _ _ _ _ _ _ _ _ _ _ _ Hag) as (_ & _ & _ & _ & _ & ET & EC & _ & _ & r & Hr & Er & _ & E1 & E2).
  rewrite ET, EC, E1, E2. split; [apply NoDup_filter, cs_units_NoDup|]. split; [apply NoDup_filter, cs_units_NoDup|].
  rewrite Er in Ex. destruct (est_inf_fin _ _ _ _ _ _ _ Hr Ex) as [A B]. split; intros a _; auto.
Qed.

(* every bootstrap draw of an event-study effect has the analytic variance of that effect *)
Theorem es_bootstrap_variance cfg agg bal ws r l e ef d U : standardised d -> fit cfg agg bal ws = Ok r -> cr_es r = Some l -> In (e, ef) l ->
  ef <> es_reference ->
  let cells := by_size (cells_at (balanced_effects bal (cr_effects r)) e) in
  (forall c, In c cells -> exists x, ge_eff (fst c) = Fin x) -> NoDup U -> incl (agg_units cells) U ->
  exists x s, ef_eff ef = Fin x /\ ef_se ef = Fin s /\ 0 <= s /\
    Exv (draws d (length U)) (fun w => toR (boot_agg (at_unit U w) cells)) = x /\
    Exv (draws d (length U)) (fun w => (toR (boot_agg (at_unit U w) cells) - x) * (toR (boot_agg (at_unit U w) cells) - x)) = s * s.
Proof.
  intros Hd H Hes Hin Hne cells Hfin HU Hi. destruct (fit_inv _ _ _ _ _ _ _ _ _ _ _ _ _ _ _ _ _ H) as (_ & _ & Hl & _).
  pose proof H as HX. eapply event_study_aggregation in HX; [|exact Hes|exact Hin]. destruct HX as [(E & _)|(_ & E1 & E2 & _ & _ & Hc & Hw)]; [contradiction|].
  assert (HF : inf_fin cells).
  { apply (effects_inf_fin cfg _ _ Hl). intros ew Hew. split; [|apply Hfin; exact Hew]. apply Hc. apply (Hw ew Hew). }
  destruct (boot_moments d cells U Hd HF HU Hi) as [M V].
  assert (Ew : exists x, weighted cells = Fin x) by (eexists; apply weighted_fin; exact Hfin). destruct Ew as [x Ex].
  exists x, (sqrt (sumf (fun a => psiR cells a * psiR cells a) (agg_units cells))). rewrite E1, E2.
  split; [exact Ex|]. split; [apply agg_se_value; exact HF|]. split; [apply sqrt_pos|]. rewrite Ex in M, V. cbn [toR] in M, V.
  split; [exact M|]. rewrite sqrt_sqrt by (apply sumf_nonneg; intros; apply sq_nonneg). exact V.
Qed.
Theorem group_bootstrap_variance cfg agg bal ws r l gr ef d U : standardised d -> fit cfg agg bal ws = Ok r -> cr_group r = Some l -> In (gr, ef) l ->
  let cells := equally (group_cells (cs_anticipation cfg) (cr_effects r) gr) in
  (forall c, In c cells -> exists x, ge_eff (fst c) = Fin x) -> NoDup U -> incl (agg_units cells) U ->
  exists x s, ef_eff ef = Fin x /\ ef_se ef = Fin s /\ 0 <= s /\
    Exv (draws d (length U)) (fun w => toR (boot_agg (at_unit U w) cells)) = x /\
    Exv (draws d (length U)) (fun w => (toR (boot_agg (at_unit U w) cells) - x) * (toR (boot_agg (at_unit U w) cells) - x)) = s * s.
Proof.
  intros Hd H Hg Hin cells Hfin HU Hi. destruct (fit_inv _ _ _ _ _ _ _ _ _ _ _ _ _ _ _ _ _ H) as (_ & _ & Hl & _).
  pose proof H as HX. eapply group_aggregation in HX; [|exact Hg|exact Hin]. destruct HX as (_ & _ & E1 & E2 & _ & _ & Hw).
  assert (HF : inf_fin cells).
  { apply (effects_inf_fin cfg _ _ Hl). intros ew Hew. split; [|apply Hfin; exact Hew]. destruct (Hw ew Hew) as [A _]. apply filter_In in A. tauto. }
  destruct (boot_moments d cells U Hd HF HU Hi) as [M V].
  assert (Ew : exists x, weighted cells = Fin x) by (eexists; apply weighted_fin; exact Hfin). destruct Ew as [x Ex].
  exists x, (sqrt (sumf (fun a => psiR cells a * psiR cells a) (agg_units cells))). rewrite E1, E2.
  split; [exact Ex|]. split; [apply agg_se_value; exact HF|]. split; [apply sqrt_pos|]. rewrite Ex in M, V. cbn [toR] in M, V.
  split; [exact M|]. rewrite sqrt_sqrt by (apply sumf_nonneg; intros; apply sq_nonneg). exact V.
Qed.

(* the overall effect: same when all post-treatment effects are equal *)
Lemma group_size_pos cfg l e : effs cfg = Ok l -> In e l -> ge_post (cs_anticipation cfg) e = true -> (0 < group_size rows u g (ge_g e))%nat.
Proof.
  intros Hl He Hp. destruct (cell_facts _ _ _ _ _ _ _ _ _ _ cfg l e Hl He) as (HT & _ & HF).
  destruct (ge_T e) as [|a T] eqn:ET; [congruence|].
  assert (Hc : cohort a = ge_g e) by (apply (treated_cohort _ _ _ _ _ _ _ _ _ _ cfg l e a Hl He); rewrite ET; left; auto).
  assert (Hn : ge_g e <> CNaN) by (eapply (effects_not_nan qr lstsq inv logit rows u t y covs g); eauto).
  assert (Hex : exists i, In i rows /\ g i = ge_g e).
  { unfold cs_cohort, unit_cohort in Hc. destruct (filter _ (map g (filter (fun i => Z.eqb (u i) a) rows))) as [|c l0] eqn:E; [congruence|].
    assert (Hin : In c (filter (fun c => match c with CNaN => false | _ => true end) (map g (filter (fun i => Z.eqb (u i) a) rows)))) by (rewrite E; left; auto).
    apply filter_In in Hin as [Hin _]. apply in_map_iff in Hin as (i & Ei & Hi). apply filter_In in Hi as [Hi _]. exists i. split; [exact Hi|congruence]. }
  destruct Hex as (i & Hi & Eg). unfold group_size.
  assert (X : In (u i) (nodup Z.eq_dec (map u (filter (fun i => c_eqb (g i) (ge_g e)) rows)))).
  { apply nodup_In, in_map, filter_In. split; [exact Hi|apply c_eqb_true; exact Eg]. }
  destruct (nodup _ _); [contradiction|simpl; lia].
Qed.
Lemma wif_sum_pos cfg l : effs cfg = Ok l -> filter (ge_post (cs_anticipation cfg)) l <> [] ->
  wif_sum (group_size rows u g) (by_size (filter (ge_post (cs_anticipation cfg)) l)) <> 0.
Proof.
  intros Hl Hne. set (post := filter (ge_post (cs_anticipation cfg)) l) in *. set (L := by_size post). unfold wif_sum.
  destruct post as [|e0 p0] eqn:E; [congruence|].
  assert (Hlen : 0 < len (agg_units L)).
  { apply len_pos. assert (He : In e0 post) by (unfold post; fold post; rewrite E; left; auto). unfold post in He. apply filter_In in He as [He _].
    destruct (cell_facts _ _ _ _ _ _ _ _ _ _ cfg l e0 Hl He) as (HT & _). destruct (ge_T e0) as [|a T] eqn:ET; [congruence|].
    intros EN. assert (X : In a (agg_units L)). { apply agg_units_In. exists (e0, ge_n e0 / sumf ge_n (e0 :: p0)). split; [left; reflexivity|]. cbn [fst]. rewrite ET. left; left; auto. }
    rewrite EN in X. contradiction. }
  assert (P : forall ew, In ew L -> 0 < wif_pg (group_size rows u g) L (fst ew)).
  { intros ew Hew. apply in_map_iff in Hew as (e & <- & He). cbn [fst]. unfold wif_pg. apply Rdiv_lt_0_compat; [|exact Hlen].
    assert (He2 : In e post) by (rewrite E; exact He). unfold post in He2. apply filter_In in He2 as [H1 H2].
    apply lt_0_INR. eapply group_size_pos; eauto. }
  unfold L, by_size. cbn [map]. change (map _ p0) with (map (fun e => (e, ge_n e / sumf ge_n (e0 :: p0))) p0).
  change ((e0, ge_n e0 / sumf ge_n (e0 :: p0)) :: map (fun e => (e, ge_n e / sumf ge_n (e0 :: p0))) p0) with L.
  assert (0 < sumf (fun ew => wif_pg (group_size rows u g) L (fst ew)) L); [|lra].
  destruct L as [|x L0] eqn:EL; [discriminate|]. simpl. 
  assert (0 < wif_pg (group_size rows u g) (x :: L0) (fst x)) by (apply P; left; auto).
  assert (0 <= sumf (fun ew => wif_pg (group_size rows u g) (x :: L0) (fst ew)) L0) by (apply sumf_nonneg; intros; left; apply P; right; auto). lra.
Qed.
Theorem overall_bootstrap_variance cfg agg bal r c d U : standardised d -> fit cfg agg bal [] = Ok r ->
  let post := filter (ge_post (cs_anticipation cfg)) (cr_effects r) in
  post <> [] -> (forall e, In e post -> ge_eff e = Fin c) -> NoDup U -> incl (agg_units (by_size post)) U ->
  exists s, cr_att r = Fin c /\ cr_se r = Fin s /\ 0 <= s /\
    Exv (draws d (length U)) (fun w => toR (boot_agg (at_unit U w) (by_size post))) = c /\
    Exv (draws d (length U)) (fun w => (toR (boot_agg (at_unit U w) (by_size post)) - c) * (toR (boot_agg (at_unit U w) (by_size post)) - c)) = s * s.
Proof.
  intros Hd H post Hne Hc HU Hi. destruct (fit_inv _ _ _ _ _ _ _ _ _ _ _ _ _ _ _ _ _ H) as (_ & _ & Hl & _ & Ha & Hse & _).
  specialize (Hse eq_refl). destruct (agg_simple _ _ _ _) as [att se] eqn:E in Ha, Hse. cbn [fst snd] in *.
  destruct (agg_simple_cases _ _ _ _ _ _ _ E) as [(Hn & _)|(_ & E1 & E2)]; [contradiction|]. fold post in E1, E2.
  assert (HT : forall e, In e post -> ge_T e <> []).
  { intros e He. apply filter_In in He as [He _]. apply (cell_facts _ _ _ _ _ _ _ _ _ _ cfg _ e Hl He). }
  destruct (by_size_weights post HT Hne) as [W1 W2].
  assert (HC : forall ew, In ew (by_size post) -> ge_eff (fst ew) = Fin c) by (intros ew Hew; apply Hc, (W1 ew Hew)).
  assert (HF : inf_fin (by_size post)).
  { apply (effects_inf_fin cfg _ _ Hl). intros ew Hew. split; [|exists c; auto]. destruct (W1 ew Hew) as [A _]. apply filter_In in A. tauto. }
  assert (Ex : weighted (by_size post) = Fin c).
  { rewrite weighted_fin by (intros; exists c; auto). f_equal. rewrite (sumf_ext _ (fun ew => c * snd ew)) by (intros ew Hew; rewrite HC by auto; cbn [toR]; ring).
    rewrite sumf_scal, W2. ring. }
  rewrite (agg_se_wif_homogeneous _ _ _ c HF (wif_sum_pos cfg _ Hl Hne) HC), agg_se_value in E2 by exact HF.
  destruct (boot_moments d _ U Hd HF HU Hi) as [M V]. rewrite Ex in M, V. cbn [toR] in M, V.
  exists (sqrt (sumf (fun a => psiR (by_size post) a * psiR (by_size post) a) (agg_units (by_size post)))).
  rewrite Ha, Hse, E1, E2, Ex. split; [reflexivity|]. split; [reflexivity|]. split; [apply sqrt_pos|]. split; [exact M|].
  rewrite sqrt_sqrt by (apply sumf_nonneg; intros; apply sq_nonneg). exact V.
Qed.

(* a single cell without covariates: the bootstrap variance is the analytic one with n instead of n - 1 *)
Theorem cell_bootstrap_variance cfg l e : covs = [] -> effs cfg = Ok l -> In e l -> (1 < length (ge_T e))%nat -> (1 < length (ge_C e))%nat ->
  (forall a, In a (ge_T e) -> ~ In a (ge_C e)) ->
  let dy := change rows u t y (ge_base e) (ge_t e) in
  let nt := len (ge_T e) in let nc := len (ge_C e) in
  sumf (fun a => psiR [(e, 1)] a * psiR [(e, 1)] a) (agg_units [(e, 1)])
    = (nt - 1) / nt * (variance 1 (map dy (ge_T e)) / nt) + (nc - 1) / nc * (variance 1 (map dy (ge_C e)) / nc) /\
  (cs_method cfg <> "ipw"%string -> ge_se e = Fin (sqrt (variance 1 (map dy (ge_T e)) / nt + variance 1 (map dy (ge_C e)) / nc))).
Proof.
  intros Hc Hl He H1 H2 Hdis dy nt nc.
  destruct (effects_In _ _ _ _ _ _ _ _ _ _ cfg l _ Hl He) as (gr & s & _ & _ & Hag).
  destruct (att_gt_inv _ _ _ _ _ _ _ _ _ _ _ _ _ _ Hag) as (_ & Et & _ & _ & _ & ET & EC & NT & NC & r & Hr & Er & Ese & E1 & E2).
  unfold cov_columns in Hr. rewrite Hc in Hr. rewrite <- Et in Hr. fold dy in Hr.
  destruct (methods_agree qr lstsq inv logit cfg (ge_T e) (ge_C e) dy) as (r' & Hr' & _ & Ht & Hcc). rewrite Hr in Hr'. injection Hr' as <-.
  assert (DT : NoDup (ge_T e)) by (rewrite ET; apply NoDup_filter, cs_units_NoDup).
  assert (DC : NoDup (ge_C e)) by (rewrite EC; apply NoDup_filter, cs_units_NoDup).
  pose proof (len_pos _ NT) as PT. pose proof (len_pos _ NC) as PC. fold nt in PT. fold nc in PC.
  assert (N1 : 1 < nt) by (apply lt_INR in H1; exact H1). assert (N2 : 1 < nc) by (apply lt_INR in H2; exact H2).
  split.
  - set (U := agg_units [(e, 1)]). assert (HU : NoDup U) by apply agg_units_NoDup.
    set (ft := fun a => (dy a - meanf dy (ge_T e)) / nt). set (fc := fun a => (dy a - meanf dy (ge_C e)) / nc).
    rewrite (sumf_ext_all _ (fun a => ind (zmem a (ge_T e)) * (ft a * ft a) + ind (zmem a (ge_C e)) * (fc a * fc a))).
    + rewrite sumf_add.
      rewrite <- (sum_over (ge_T e) U (fun a => ft a * ft a) DT HU) by (intros a Ha; apply agg_units_In; exists (e, 1); split; [left; auto|left; exact Ha]).
      rewrite <- (sum_over (ge_C e) U (fun a => fc a * fc a) DC HU) by (intros a Ha; apply agg_units_In; exists (e, 1); split; [left; auto|right; exact Ha]).
      assert (V : forall L n, n = len L -> 1 < n -> sumf (fun a => (dy a - meanf dy L) / n * ((dy a - meanf dy L) / n)) L = (n - 1) / n * (variance 1 (map dy L) / n)).
      { intros L n En Hn. unfold variance, sumsq_dev.
        rewrite (sumf_map dy (fun x => (x - meanf idR (map dy L)) * (x - meanf idR (map dy L))) L).
        assert (EM : meanf idR (map dy L) = meanf dy L). { unfold meanf. rewrite len_map, (sumf_map dy idR L). reflexivity. }
        rewrite EM, len_map, <- En. rewrite (sumf_ext_all _ (fun a => / n * / n * ((dy a - meanf dy L) * (dy a - meanf dy L)))) by (intros; unfold Rdiv; ring).
        rewrite sumf_scal. simpl INR. field. lra. }
      unfold ft, fc. rewrite (V (ge_T e) nt eq_refl N1), (V (ge_C e) nc eq_refl N2). reflexivity.
    + intros a. unfold psiR, inf1. cbn [sumf fst snd]. rewrite E1, E2, Ht, Hcc. cbn [toR]. fold nt nc. fold (ft a) (fc a).
      destruct (zmem a (ge_T e)) eqn:Z1, (zmem a (ge_C e)) eqn:Z2; unfold ind; try ring.
      exfalso. apply zmem_true in Z1, Z2. exact (Hdis a Z1 Z2).
  - intros Hm. rewrite Ese, (se_no_covariates qr lstsq inv logit cfg (ge_T e) (ge_C e) dy r Hr NT NC).
    destruct (String.eqb_spec (cs_method cfg) "ipw"); [contradiction|]. unfold var1. rewrite !map_length.
    rewrite (proj2 (Nat.ltb_lt _ _) H1), (proj2 (Nat.ltb_lt _ _) H2). reflexivity.
Qed.

(* ---- existence of cells and of a fit, for concrete data ---- *)
Lemma cell_exists cfg gr s b T C l : covs = [] -> effs cfg = Ok l -> cs_base cfg gr s = Some b -> zmem b periods = true -> zmem s periods = true ->
  treated_units rows u t g y gr b s = T -> control_units rows u t g y cfg gr b s = C -> T <> [] -> C <> [] ->
  In gr (cs_groups rows g) -> In s (valid_periods rows t cfg gr) ->
  exists e, In e l /\ ge_g e = gr /\ ge_t e = s /\ ge_base e = b /\ ge_T e = T /\ ge_C e = C /\
    ge_eff e = Fin (meanf (change rows u t y b s) T - meanf (change rows u t y b s) C).
Proof.
  intros Hc Hl Hb H1 H2 HT HC NT NC Hg Hs.
  destruct (methods_agree qr lstsq inv logit cfg T C (change rows u t y b s)) as (r & Hr & Ea & _).
  assert (Hag : agt cfg gr s = Ok (Some {| ge_g := gr; ge_t := s; ge_base := b; ge_eff := ce_att r; ge_se := ce_se r; ge_T := T; ge_C := C; ge_tinf := ce_tinf r; ge_cinf := ce_cinf r |})).
  { unfold att_gt. rewrite Hb, H1, H2. cbn [negb]. cbv zeta. rewrite HT, HC. destruct T as [|a T]; [congruence|]. destruct C as [|c C]; [congruence|].
    unfold cov_columns. rewrite Hc, Hr. reflexivity. }
  eexists {| ge_g := gr; ge_t := s; ge_base := b; ge_eff := ce_att r; ge_se := ce_se r; ge_T := T; ge_C := C; ge_tinf := ce_tinf r; ge_cinf := ce_cinf r |}.
  split; [|cbn [ge_g ge_t ge_base ge_T ge_C ge_eff]; do 5 (split; [reflexivity|]); exact Ea].
  apply (proj2 (collect_In _ _ _ Hl _)). exists (gr, s). split; [|exact Hag].
  apply in_flat_map. exists gr. split; [exact Hg|]. apply in_map_iff. exists s. auto.
Qed.
Lemma fit_ok cfg agg bal ws l : n_nev rows u g <> 0%nat -> cs_duplicates rows u t = false -> effs cfg = Ok l -> l <> [] ->
  exists r, fit cfg agg bal ws = Ok r /\ cr_effects r = l.
Proof.
  intros H1 H2 Hl Hne. unfold cs_fit. destruct (Nat.eqb_spec (n_nev rows u g) 0); [contradiction|]. rewrite H2, Hl. cbn [bind].
  destruct l as [|e l0]; [congruence|]. destruct (agg_simple _ _ _ _) as [att se]. eexists. split; reflexivity.
Qed.

(* ---- C21, what does hold: every remaining group has a cell at event time balance_e ---- *)
Theorem balance_partial b effects e : In e (balanced_effects (Some b) effects) <->
  In e effects /\ exists e', In e' effects /\ ge_g e' = ge_g e /\ rel_time e' = Some b.
Proof.
  unfold balanced_effects. rewrite filter_In. split.
  - intros [He H]. split; [exact He|]. apply existsb_exists in H as (gr & Hin & E). apply c_eqb_true in E. apply in_map_iff in Hin as (e' & Eg & Hin).
    apply filter_In in Hin as [Hin Hr]. apply oz_eqb_true in Hr. exists e'. split; [exact Hin|]. split; congruence.
  - intros [He (e' & Hin & Eg & Hr)]. split; [exact He|]. apply existsb_exists. exists (ge_g e'). split; [|apply c_eqb_true; auto].
    apply in_map, filter_In. split; [exact Hin|apply oz_eqb_true; exact Hr].
Qed.
End Fit.

(* ---- concrete panels ---- *)
Fixpoint zseq (a : Z) (n : nat) : list Z := match n with O => [] | S m => a :: zseq (a + 1) m end.
(* units 1..n observed in periods 1..p *)
Definition panel (n p : nat) : list (Z * Z) := flat_map (fun a => map (pair a) (zseq 1 p)) (zseq 1 n).
Definition demo_y (al be : Z -> R) (C : Z -> coh) (tau : Z -> Z -> R) (i : Z * Z) : option R :=
  Some (al (fst i) + be (snd i) + teff tau (C (fst i)) (snd i)).
Definition demo_cfg ctrl ant meth mode : cs_config :=
  {| cs_control := ctrl; cs_anticipation := ant; cs_method := meth; cs_alpha := 1/20; cs_cluster := None; cs_action := "warn"; cs_basemode := mode |}.

(* cohorts: unit 1 -> 3, unit 2 -> 5, unit 3 never *)
Definition C35 (a : Z) : coh := if Z.eqb a 1 then CFin 3 else if Z.eqb a 2 then CFin 5 else CFin 0.
Definition C35inf (a : Z) : coh := if Z.eqb a 1 then CFin 3 else if Z.eqb a 2 then CFin 5 else CInf.
Definition rows35 : list (Z * Z) := panel 3 6.
Definition y35 : Z * Z -> option R := demo_y (fun a => IZR a) (fun s => IZR s) C35 (fun k s => IZR (s - k)).

Section Examples.
Variable qr : list Z -> list (Z -> R) -> list nat.
Variable lstsq : list Z -> list (Z -> R) -> (Z -> R) -> list R.
Variable inv : list Z -> list (Z -> R) -> option (nat -> nat -> R).
Variable logit : list Z -> list Z -> list (Z -> R) -> option (Z -> R).
Variable sf : option Z -> fl -> fl.
Variable ppf : option Z -> R -> R.
Notation effs g y cfg := (all_effects qr lstsq inv logit rows35 fst snd (fun i => g (fst i)) y [] cfg).
Notation fit g y := (cs_fit qr lstsq inv logit sf ppf rows35 fst snd (fun i => g (fst i)) y []).

Ltac cell l gr s b T C Hl := destruct (cell_exists qr lstsq inv logit rows35 fst snd _ _ [] _ gr s b T C l eq_refl Hl) as (e & He & Eg & Et & Eb & ET & EC & Eeff);
  [reflexivity|vm_compute; reflexivity|vm_compute; reflexivity|vm_compute; reflexivity|vm_compute; reflexivity|discriminate|discriminate|vm_compute; tauto|vm_compute; tauto|].

(* a not-yet-treated control inside its anticipation window *)
Theorem nyt_anticipation : exists cfg l e a k,
  cs_control cfg = "not_yet_treated"%string /\ effs C35 y35 cfg = Ok l /\ In e l /\ In a (ge_C e) /\
  cs_cohort rows35 fst (fun i => C35 (fst i)) a = CFin k /\ (k - cs_anticipation cfg <= ge_t e)%Z.
Proof.
  set (cfg := demo_cfg "not_yet_treated" 1 "dr" "varying").
  destruct (no_cov_total qr lstsq inv logit rows35 fst snd (fun i => C35 (fst i)) y35 [] cfg eq_refl) as (l & Hl & _).
  cell l (CFin 3) 4%Z 1%Z [1%Z] [2%Z; 3%Z] Hl.
  exists cfg, l, e, 2%Z, 5%Z. split; [reflexivity|]. split; [exact Hl|]. split; [exact He|]. rewrite EC, Et. split; [left; reflexivity|].
  split; [vm_compute; reflexivity|]. vm_compute. discriminate.
Qed.
(* universal base period: a control already treated at the base period *)
Theorem universal_base : exists cfg l e a,
  cs_control cfg = "not_yet_treated"%string /\ cs_anticipation cfg = 0%Z /\ effs C35 y35 cfg = Ok l /\ In e l /\ In a (ge_C e) /\
  under_treatment (cs_cohort rows35 fst (fun i => C35 (fst i)) a) (ge_base e) = true.
Proof.
  set (cfg := demo_cfg "not_yet_treated" 0 "dr" "universal").
  destruct (no_cov_total qr lstsq inv logit rows35 fst snd (fun i => C35 (fst i)) y35 [] cfg eq_refl) as (l & Hl & _).
  cell l (CFin 5) 2%Z 4%Z [2%Z] [1%Z; 3%Z] Hl.
  exists cfg, l, e, 1%Z. split; [reflexivity|]. split; [reflexivity|]. split; [exact Hl|]. split; [exact He|]. rewrite EC, Eb. split; [left; reflexivity|].
  vm_compute. reflexivity.
Qed.
(* and the resulting pre-treatment estimate is not zero although trends are parallel *)
Theorem universal_base_biased : exists cfg l e x,
  cs_control cfg = "not_yet_treated"%string /\ cs_anticipation cfg = 0%Z /\ effs C35 y35 cfg = Ok l /\ In e l /\ ge_g e = CFin 5 /\ (ge_t e < 5)%Z /\
  ge_eff e = Fin x /\ x <> 0.
Proof.
  set (cfg := demo_cfg "not_yet_treated" 0 "dr" "universal").
  destruct (no_cov_total qr lstsq inv logit rows35 fst snd (fun i => C35 (fst i)) y35 [] cfg eq_refl) as (l & Hl & _).
  cell l (CFin 5) 2%Z 4%Z [2%Z] [1%Z; 3%Z] Hl.
  exists cfg, l, e. eexists. split; [reflexivity|]. split; [reflexivity|]. split; [exact Hl|]. split; [exact He|]. split; [exact Eg|]. rewrite Et. split; [reflexivity|].
  split; [exact Eeff|].
  assert (Q : forall a, change rows35 fst snd y35 4 2 a = oR (cs_outcome rows35 fst snd y35 a 2) - oR (cs_outcome rows35 fst snd y35 a 4)) by reflexivity.
  unfold meanf, len. cbn [sumf length INR]. rewrite !Q.
  assert (V : forall a s v, cs_outcome rows35 fst snd y35 a s = Some v -> oR (cs_outcome rows35 fst snd y35 a s) = v) by (intros a s v E; rewrite E; reflexivity).
  rewrite (V 2%Z 2%Z (2 + 2 + 0)), (V 2%Z 4%Z (2 + 4 + 0)), (V 1%Z 2%Z (1 + 2 + 0)), (V 1%Z 4%Z (1 + 4 + 1)), (V 3%Z 2%Z (3 + 2 + 0)), (V 3%Z 4%Z (3 + 4 + 0)) by reflexivity.
  lra.
Qed.

(* balance_e = 0 keeps groups 3 and 5; group 5 contributes to e = 0 but not to e = 2 *)
Theorem balance_refuted : exists cfg agg bal r l e e' ef ef' gr,
  fit C35 y35 cfg agg (Some bal) [] = Ok r /\ cr_es r = Some l /\ In (e, ef) l /\ In (e', ef') l /\
  (exists c, In c (cells_at (balanced_effects (Some bal) (cr_effects r)) e) /\ ge_g c = gr) /\
  (forall c, In c (cells_at (balanced_effects (Some bal) (cr_effects r)) e') -> ge_g c <> gr).
Proof.
  set (cfg := demo_cfg "never_treated" 0 "dr" "varying").
  destruct (no_cov_total qr lstsq inv logit rows35 fst snd (fun i => C35 (fst i)) y35 [] cfg eq_refl) as (l & Hl & _).
  cell l (CFin 5) 5%Z 4%Z [2%Z] [3%Z] Hl.
  destruct (fit_ok qr lstsq inv logit sf ppf rows35 fst snd (fun i => C35 (fst i)) y35 [] cfg (Some "event_study"%string) (Some 0%Z) [] l) as (r & Hr & Er);
    [vm_compute; discriminate|vm_compute; reflexivity|exact Hl|intros E; rewrite E in He; contradiction|].
  assert (Hes : cr_es r = Some (agg_event_study sf ppf cfg (Some 0%Z) (cr_effects r))).
  { pose proof Hr as Hr'. unfold cs_fit in Hr'. destruct (Nat.eqb _ 0); [discriminate|]. destruct (cs_duplicates _ _ _); [discriminate|].
    rewrite Hl in Hr'. cbn [bind] in Hr'. destruct l; [discriminate|]. destruct (agg_simple _ _ _ _). injection Hr' as <-. reflexivity. }
  destruct (cell_exists qr lstsq inv logit rows35 fst snd _ _ [] cfg (CFin 3) 3 2 [1%Z] [3%Z] l eq_refl Hl) as (e3 & He3 & Eg3 & Et3 & _);
    [reflexivity|vm_compute; reflexivity|vm_compute; reflexivity|vm_compute; reflexivity|vm_compute; reflexivity|discriminate|discriminate|vm_compute; tauto|vm_compute; tauto|].
  destruct (cell_exists qr lstsq inv logit rows35 fst snd _ _ [] cfg (CFin 3) 5 2 [1%Z] [3%Z] l eq_refl Hl) as (e5 & He5 & Eg5 & Et5 & _);
    [reflexivity|vm_compute; reflexivity|vm_compute; reflexivity|vm_compute; reflexivity|vm_compute; reflexivity|discriminate|discriminate|vm_compute; tauto|vm_compute; tauto|].
  assert (R0 : rel_time e = Some 0%Z) by (unfold rel_time; rewrite Eg, Et; reflexivity).
  assert (R3 : rel_time e3 = Some 0%Z) by (unfold rel_time; rewrite Eg3, Et3; reflexivity).
  assert (R5 : rel_time e5 = Some 2%Z) by (unfold rel_time; rewrite Eg5, Et5; reflexivity).
  assert (B0 : In e (balanced_effects (Some 0%Z) l)) by (apply balance_partial; split; [exact He|exists e; auto]).
  assert (B5 : In e5 (balanced_effects (Some 0%Z) l)) by (apply balance_partial; split; [exact He5|exists e3; split; [exact He3|split; [congruence|exact R3]]]).
  exists cfg, (Some "event_study"%string), 0%Z, r, (agg_event_study sf ppf cfg (Some 0%Z) (cr_effects r)), (Some 0%Z), (Some 2%Z),
    (es_effect sf ppf (cs_alpha cfg) (balanced_effects (Some 0%Z) (cr_effects r)) (Some 0%Z)),
    (es_effect sf ppf (cs_alpha cfg) (balanced_effects (Some 0%Z) (cr_effects r)) (Some 2%Z)), (CFin 5).
  rewrite Er. rewrite Er in Hes. split; [exact Hr|]. split; [exact Hes|].
  assert (K : forall z, (exists c, In c (balanced_effects (Some 0%Z) l) /\ rel_time c = Some z) ->
     In (Some z, es_effect sf ppf (cs_alpha cfg) (balanced_effects (Some 0%Z) l) (Some z)) (agg_event_study sf ppf cfg (Some 0%Z) l)).
  { intros z Hz. unfold agg_event_study. change (cs_universal cfg) with false. cbn [andb]. apply in_map_iff. exists (Some z). split; [reflexivity|].
    apply rel_keys_In. exact Hz. }
  split; [apply K; exists e; auto|]. split; [apply K; exists e5; auto|].
  split; [exists e; split; [apply cells_at_In; auto|exact Eg]|].
  intros c Hc E. apply cells_at_In in Hc as [Hc1 Hc2]. apply balance_partial in Hc1 as [Hc1 _].
  destruct (base_facts qr lstsq inv logit rows35 fst snd (fun i => C35 (fst i)) y35 [] cfg l c Hl Hc1) as (_ & HP & _).
  unfold rel_time in Hc2. rewrite E in Hc2. injection Hc2 as Hc2. assert (E7 : ge_t c = 7%Z) by lia. rewrite E7 in HP. vm_compute in HP.
  repeat (destruct HP as [HP|HP]; [discriminate|]). contradiction.
Qed.

(* coding the never-treated unit as inf: another group, another event time, one more treated unit *)
Theorem recode_refuted : exists cfg r r',
  fit C35 y35 cfg (Some "event_study"%string) None [] = Ok r /\ fit C35inf y35 cfg (Some "event_study"%string) None [] = Ok r' /\
  cr_n_treated r = 2%nat /\ cr_n_treated r' = 3%nat /\ cr_groups r = [CFin 3; CFin 5] /\ cr_groups r' = [CFin 3; CFin 5; CInf] /\
  (exists e a, In e (cr_effects r') /\ ge_g e = CInf /\ In a (ge_T e) /\ In a (ge_C e)) /\
  (exists es es' ef, cr_es r = Some es /\ cr_es r' = Some es' /\ In (None, ef) es' /\ ~ In None (map fst es)).
Proof.
  set (cfg := demo_cfg "never_treated" 0 "dr" "varying").
  destruct (no_cov_total qr lstsq inv logit rows35 fst snd (fun i => C35 (fst i)) y35 [] cfg eq_refl) as (l & Hl & _).
  destruct (no_cov_total qr lstsq inv logit rows35 fst snd (fun i => C35inf (fst i)) y35 [] cfg eq_refl) as (l' & Hl' & _).
  cell l (CFin 5) 5%Z 4%Z [2%Z] [3%Z] Hl.
  destruct (cell_exists qr lstsq inv logit rows35 fst snd _ _ [] cfg CInf 2 1 [3%Z] [3%Z] l' eq_refl Hl') as (e' & He' & Eg' & Et' & Eb' & ET' & EC' & _);
    [reflexivity|vm_compute; reflexivity|vm_compute; reflexivity|vm_compute; reflexivity|vm_compute; reflexivity|discriminate|discriminate|vm_compute; tauto|vm_compute; tauto|].
  assert (HE : forall g r l0, fit g y35 cfg (Some "event_study"%string) None [] = Ok r -> effs g y35 cfg = Ok l0 -> cr_es r = Some (agg_event_study sf ppf cfg None l0)).
  { intros g r l0 Hr Hl0. unfold cs_fit in Hr. destruct (Nat.eqb _ 0); [discriminate|]. destruct (cs_duplicates _ _ _); [discriminate|].
    rewrite Hl0 in Hr. cbn [bind] in Hr. destruct l0; [discriminate|]. destruct (agg_simple _ _ _ _). injection Hr as <-. reflexivity. }
  destruct (fit_ok qr lstsq inv logit sf ppf rows35 fst snd (fun i => C35 (fst i)) y35 [] cfg (Some "event_study"%string) None [] l) as (r & Hr & Er);
    [vm_compute; discriminate|vm_compute; reflexivity|exact Hl|intros E; rewrite E in He; contradiction|].
  destruct (fit_ok qr lstsq inv logit sf ppf rows35 fst snd (fun i => C35inf (fst i)) y35 [] cfg (Some "event_study"%string) None [] l') as (r' & Hr' & Er');
    [vm_compute; discriminate|vm_compute; reflexivity|exact Hl'|intros E; rewrite E in He'; contradiction|].
  exists cfg, r, r'. split; [exact Hr|]. split; [exact Hr'|].
  destruct (fit_inv _ _ _ _ _ _ _ _ _ _ _ _ _ _ _ _ _ Hr) as (_ & _ & _ & _ & _ & _ & Hg & Hn & _).
  destruct (fit_inv _ _ _ _ _ _ _ _ _ _ _ _ _ _ _ _ _ Hr') as (_ & _ & _ & _ & _ & _ & Hg' & Hn' & _).
  rewrite Hg, Hn, Hg', Hn'. do 4 (split; [vm_compute; reflexivity|]).
  split; [exists e', 3%Z; rewrite Er', ET', EC'; simpl; tauto|].
  exists (agg_event_study sf ppf cfg None l), (agg_event_study sf ppf cfg None l'), (es_effect sf ppf (cs_alpha cfg) l' None).
  split; [exact (HE _ _ _ Hr Hl)|]. split; [exact (HE _ _ _ Hr' Hl')|].
  split.
  - unfold agg_event_study. change (cs_universal cfg) with false. cbn [andb]. apply in_map_iff. exists None. split; [reflexivity|].
    apply rel_keys_In. exists e'. split; [exact He'|]. unfold rel_time. rewrite Eg'. reflexivity.
  - unfold agg_event_study. change (cs_universal cfg) with false. cbn [andb]. rewrite map_map. intros Hin. apply in_map_iff in Hin as (k & Ek & Hk). cbn [fst] in Ek. subst k.
    apply rel_keys_In in Hk as (c & Hc & Erc). unfold rel_time in Erc.
    destruct (effects_In _ _ _ _ _ _ _ _ _ _ cfg _ c Hl Hc) as (gr & s & Hgr & _ & Hag).
    destruct (att_gt_inv _ _ _ _ _ _ _ _ _ _ _ _ _ _ Hag) as (Egc & _). rewrite Egc in Erc. vm_compute in Hgr.
    destruct Hgr as [<-|[<-|[]]]; discriminate.
Qed.

(* one unit per cohort: every influence function is zero, the weight influence function is not *)
Definition C23 (a : Z) : coh := if Z.eqb a 1 then CFin 2 else if Z.eqb a 2 then CFin 3 else CFin 0.
Definition rows23 : list (Z * Z) := panel 3 3.
Definition y23 : Z * Z -> option R := demo_y (fun a => IZR a) (fun s => IZR s) C23 (fun k s => IZR (3 - k)).
Definition mkc gr s b T C := let dy := change rows23 fst snd y23 b s in let e := est_means T C dy in
  {| ge_g := gr; ge_t := s; ge_base := b; ge_eff := ce_att e; ge_se := ce_se e; ge_T := T; ge_C := C; ge_tinf := ce_tinf e; ge_cinf := ce_cinf e |}.
Definition cells23 := [mkc (CFin 2) 2 1 [1%Z] [3%Z]; mkc (CFin 2) 3 1 [1%Z] [3%Z]; mkc (CFin 3) 2 1 [2%Z] [3%Z]; mkc (CFin 3) 3 2 [2%Z] [3%Z]].
Lemma effects23 : all_effects qr lstsq inv logit rows23 fst snd (fun i => C23 (fst i)) y23 [] (demo_cfg "never_treated" 0 "dr" "varying") = Ok cells23.
Proof. reflexivity. Qed.
Notation cfg23 := (demo_cfg "never_treated" 0 "dr" "varying").
Notation size23 := (group_size rows23 fst (fun i : Z * Z => C23 (fst i))).
Notation coh23 := (cs_cohort rows23 fst (fun i : Z * Z => C23 (fst i))).
Lemma eff23 : map ge_eff cells23 = [Fin 1; Fin 1; Fin 0; Fin 0].
Proof.
  assert (Q : forall b s a, change rows23 fst snd y23 b s a = oR (cs_outcome rows23 fst snd y23 a s) - oR (cs_outcome rows23 fst snd y23 a b)) by reflexivity.
  assert (V : forall a s v, cs_outcome rows23 fst snd y23 a s = Some v -> oR (cs_outcome rows23 fst snd y23 a s) = v) by (intros a s v E; rewrite E; reflexivity).
  unfold cells23, mkc. cbn [map ge_eff est_means ce_att]. unfold meanf, len. cbn [sumf length INR]. rewrite !Q.
  rewrite (V 1%Z 1%Z (1+1+0)), (V 1%Z 2%Z (1+2+1)), (V 1%Z 3%Z (1+3+1)), (V 2%Z 1%Z (2+1+0)), (V 2%Z 2%Z (2+2+0)), (V 2%Z 3%Z (2+3+0)),
    (V 3%Z 1%Z (3+1+0)), (V 3%Z 2%Z (3+2+0)), (V 3%Z 3%Z (3+3+0)) by reflexivity.
  repeat apply (f_equal2 cons); try reflexivity; f_equal; lra.
Qed.
(* the influence functions vanish, since every group has one unit *)
Lemma inf23 e a : In e cells23 -> inf1 e a = 0.
Proof.
  intros He. unfold inf1.
  assert (M : forall (f : Z -> R) b, meanf f [b] = f b) by (intros f b; unfold meanf, len; cbn [sumf length INR]; field).
  destruct He as [<-|[<-|[<-|[<-|[]]]]]; unfold mkc; cbn [ge_T ge_C ge_tinf ge_cinf est_means ce_tinf ce_cinf toR]; rewrite !M; unfold zmem; cbn [existsb];
    rewrite !Bool.orb_false_r; repeat match goal with |- context [Z.eqb a ?b] => destruct (Z.eqb_spec a b); subst end; unfold ind, Rdiv; cbn [Z.eqb Pos.eqb]; cbv beta iota zeta; ring.
Qed.
Theorem overall_bootstrap_refuted : exists r s,
  cs_fit qr lstsq inv logit sf ppf rows23 fst snd (fun i => C23 (fst i)) y23 [] cfg23 None None [] = Ok r /\
  cr_se r = Fin s /\ 0 < s /\
  (forall w, boot_agg w (by_size (filter (ge_post 0) (cr_effects r))) = cr_att r).
Proof.
  destruct (fit_ok qr lstsq inv logit sf ppf rows23 fst snd (fun i => C23 (fst i)) y23 [] cfg23 None None [] cells23) as (r & Hr & Er);
    [vm_compute; discriminate|vm_compute; reflexivity|apply effects23|discriminate|].
  destruct (fit_inv _ _ _ _ _ _ _ _ _ _ _ _ _ _ _ _ _ Hr) as (_ & _ & Hl & _ & Ha & Hse & _). specialize (Hse eq_refl). rewrite Er in *.
  pose (L := by_size (filter (ge_post 0) cells23)).
  assert (EL : filter (ge_post 0) cells23 = [mkc (CFin 2) 2 1 [1%Z] [3%Z]; mkc (CFin 2) 3 1 [1%Z] [3%Z]; mkc (CFin 3) 3 2 [2%Z] [3%Z]]) by reflexivity.
  assert (EA : agg_simple size23 coh23 0 cells23 = (weighted L, agg_se_wif size23 coh23 L)) by (unfold agg_simple, L; rewrite EL; reflexivity).
  change (cs_anticipation cfg23) with 0%Z in *. rewrite EA in Ha, Hse. cbn [fst snd] in Ha, Hse.
  assert (Hsub : forall ew, In ew L -> In (fst ew) cells23).
  { intros ew Hew. apply in_map_iff in Hew as (e & <- & He). apply filter_In in He. apply He. }
  assert (Hfin : forall e, In e cells23 -> exists x, ge_eff e = Fin x).
  { intros e He. assert (X : In (ge_eff e) (map ge_eff cells23)) by (apply in_map; exact He). rewrite eff23 in X.
    destruct X as [<-|[<-|[<-|[<-|[]]]]]; eexists; reflexivity. }
  assert (HF : inf_fin L).
  { intros ew Hew. specialize (Hsub ew Hew). split; [auto|].
    destruct Hsub as [<-|[<-|[<-|[<-|[]]]]]; (split; [repeat constructor; auto|]); (split; [repeat constructor; auto|]); split; intros a _; eexists; reflexivity. }
  assert (HP : forall a, psiR L a = 0).
  { intros a. unfold psiR. apply sumf_zero. intros ew Hew. rewrite inf23 by auto. ring. }
  assert (EU : agg_units L = [1%Z; 2%Z; 3%Z]) by (vm_compute; reflexivity).
  assert (Sz2 : size23 (CFin 2) = 1%nat) by (vm_compute; reflexivity). assert (Sz3 : size23 (CFin 3) = 1%nat) by (vm_compute; reflexivity).
  assert (PG : forall e, In e cells23 -> wif_pg size23 L e = 1 / 3).
  { intros e He. unfold wif_pg. rewrite EU. unfold len. cbn [length INR].
    destruct He as [<-|[<-|[<-|[<-|[]]]]]; unfold mkc; cbn [ge_g]; rewrite ?Sz2, ?Sz3; cbn [INR]; field. }
  pose (c1 := mkc (CFin 2) 2 1 [1%Z] [3%Z]). pose (c2 := mkc (CFin 2) 3 1 [1%Z] [3%Z]). pose (c4 := mkc (CFin 3) 3 2 [2%Z] [3%Z]).
  assert (I1 : In c1 cells23) by (left; reflexivity). assert (I2 : In c2 cells23) by (right; left; reflexivity). assert (I4 : In c4 cells23) by (right; right; right; left; reflexivity).
  assert (SL : forall f, sumf (fun ew => f (fst ew)) L = f c1 + (f c2 + f c4)).
  { intros f. unfold L. rewrite EL. unfold by_size. cbn [map sumf fst]. fold c1 c2 c4. ring. }
  assert (WS : wif_sum size23 L = 1) by (unfold wif_sum; rewrite (SL (wif_pg size23 L)), !PG by auto; field).
  assert (F1 : ge_eff c1 = Fin 1) by exact (f_equal (fun l => nth 0 l NaN) eff23).
  assert (F2 : ge_eff c2 = Fin 1) by exact (f_equal (fun l => nth 1 l NaN) eff23).
  assert (F4 : ge_eff c4 = Fin 0) by exact (f_equal (fun l => nth 3 l NaN) eff23).
  assert (WC : wif_contrib size23 coh23 L (fun e => toR (ge_eff e)) 1 = 2 / 3).
  { unfold wif_contrib. rewrite WS, (SL (fun e => wif_ind coh23 1 e - wif_pg size23 L e)).
    rewrite (SL (fun e => ((wif_ind coh23 1 e - wif_pg size23 L e) / 1 - (wif_ind coh23 1 c1 - wif_pg size23 L c1 + (wif_ind coh23 1 c2 - wif_pg size23 L c2 + (wif_ind coh23 1 c4 - wif_pg size23 L c4))) * wif_pg size23 L e / (1 * 1)) * toR (ge_eff e))).
    rewrite !PG, F1, F2, F4 by auto. unfold wif_ind. cbn [c1 c2 c4 mkc ge_g toR].
    change (coh23 1) with (CFin 2). change (c_eqb (CFin 2) (CFin 2)) with true. change (c_eqb (CFin 2) (CFin 3)) with false. unfold ind. field. }
  exists r. eexists. split; [exact Hr|]. rewrite Hse. split; [apply agg_se_wif_value; [exact HF|rewrite WS; lra]|]. split.
  - apply sqrt_lt_R0. rewrite EU. cbn [sumf]. rewrite !HP. unfold len. cbn [length INR].
    set (k2 := wif_contrib _ _ _ _ 2). set (k3 := wif_contrib _ _ _ _ 3). rewrite WC.
    match goal with |- 0 < ?x * ?x + (?y * ?y + (?z * ?z + 0)) => pose proof (sq_nonneg y); pose proof (sq_nonneg z); assert (0 < x * x) by (replace x with (2/9) by field; lra) end. lra.
  - intros w. rewrite Ha. destruct (boot_draw w L (agg_units L) HF (agg_units_NoDup L) (incl_refl _)) as (x & Ex & Ed).
    rewrite Er. fold L. rewrite Ed, Ex. f_equal. rewrite (sumf_zero (fun a => w a * psiR L a)) by (intros; rewrite HP; ring). ring.
Qed.
End Examples.

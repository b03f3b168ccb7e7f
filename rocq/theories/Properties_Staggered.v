(* Properties of CallawaySantAnna: statements only. *)
From Verif Require Import Prelude Flt Stats_model Linalg_model Linalg_proofs Linalg_vcov Linalg_thms Did_model Boot_model Boot_proofs Multi_model Bacon_model Bacon_thms Staggered_model Staggered_proofs Staggered_est Staggered_thms Staggered_more Staggered_fit.
From Coq Require Import Arith ZArith String List.
Import ListNotations.
Open Scope R_scope.

Section P.
Context {I : Type}.
Variable qr : list Z -> list (Z -> R) -> list nat.
Variable lstsq : list Z -> list (Z -> R) -> (Z -> R) -> list R.
Variable inv : list Z -> list (Z -> R) -> option (nat -> nat -> R).
Variable logit : list Z -> list Z -> list (Z -> R) -> option (Z -> R).
Variable sf : option Z -> fl -> fl.
Variable ppf : option Z -> R -> R.
Hypothesis Hqr : qr_ok qr.
Hypothesis Hls : lstsq_ok lstsq.
Hypothesis Hd : dist_ok sf ppf.
Variables (rows : list I) (u t : I -> Z) (g : I -> coh) (y : I -> option R) (covs : list (I -> option R)).
Notation est := (estimate qr lstsq inv logit).
Notation cohort := (cs_cohort rows u g).
Notation fit := (cs_fit qr lstsq inv logit sf ppf rows u t g y covs).

(* ---- C17 ---- *)
(* controls are never treated, or (not_yet_treated) treated strictly after t and of another cohort *)
Theorem C17_controls cfg agg bal ws r e a : fit cfg agg bal ws = Ok r -> In e (cr_effects r) -> In a (ge_C e) ->
  (cohort a = CFin 0 \/ cohort a = CInf) \/
  (cs_control cfg <> "never_treated"%string /\ exists k, cohort a = CFin k /\ (ge_t e < k)%Z /\ CFin k <> ge_g e).
Proof.
  intros H He Ha. destruct (fit_inv _ _ _ _ _ _ _ _ _ _ _ _ _ _ _ _ _ H) as (_ & _ & Hl & _).
  destruct (control_cohorts _ _ _ _ _ _ _ _ _ _ cfg _ e a Hl He Ha) as [Hn|Hk]; [left|right; exact Hk].
  destruct (cohort a) as [z| |]; [apply Z.eqb_eq in Hn; left; congruence|right; reflexivity|discriminate].
Qed.
Theorem C17_treated cfg agg bal ws r e a : fit cfg agg bal ws = Ok r -> In e (cr_effects r) -> In a (ge_T e) -> cohort a = ge_g e.
Proof. intros H He. destruct (fit_inv _ _ _ _ _ _ _ _ _ _ _ _ _ _ _ _ _ H) as (_ & _ & Hl & _). exact (treated_cohort _ _ _ _ _ _ _ _ _ _ cfg _ e a Hl He). Qed.
Theorem C17_base_period cfg agg bal ws r e k : fit cfg agg bal ws = Ok r -> In e (cr_effects r) -> ge_g e = CFin k ->
  (ge_base e < k - cs_anticipation cfg)%Z /\ ge_base e <> ge_t e /\
  ((k - cs_anticipation cfg <= ge_t e)%Z -> ge_base e = (k - 1 - cs_anticipation cfg)%Z) /\
  (cs_basemode cfg = "universal"%string -> ge_base e = (k - 1 - cs_anticipation cfg)%Z) /\
  (cs_basemode cfg <> "universal"%string -> (ge_t e < k - cs_anticipation cfg)%Z -> ge_base e = (ge_t e - 1)%Z).
Proof.
  intros H He Hk. destruct (fit_inv _ _ _ _ _ _ _ _ _ _ _ _ _ _ _ _ _ H) as (_ & _ & Hl & _).
  destruct (base_facts _ _ _ _ _ _ _ _ _ _ cfg _ e Hl He) as (_ & _ & Hn & HB & _). destruct (HB k Hk) as (B1 & B2 & B3 & B4).
  unfold cs_universal in *. split; [exact B1|]. split; [exact Hn|]. split; [intros X; apply B2; exact X|].
  split; [intros E; apply B3; rewrite E; reflexivity|]. intros E X. apply B4; [|exact X]. apply String.eqb_neq. exact E.
Qed.
(* with never_treated controls, or varying base period, or t after the base period: no control is under
   treatment at t or at the base period *)
Theorem C17_clean_controls_partial cfg agg bal ws r e a : fit cfg agg bal ws = Ok r -> In e (cr_effects r) -> In a (ge_C e) ->
  (cs_control cfg = "never_treated"%string \/ cs_basemode cfg <> "universal"%string \/ (ge_base e <= ge_t e)%Z) ->
  ge_g e <> CInf ->
  let treated_at s := exists k, cohort a = CFin k /\ k <> 0%Z /\ (k <= s)%Z in ~ treated_at (ge_t e) /\ ~ treated_at (ge_base e).
Proof.
  intros H He Ha Hc Hi. destruct (fit_inv _ _ _ _ _ _ _ _ _ _ _ _ _ _ _ _ _ H) as (_ & _ & Hl & _).
  destruct (clean_controls _ _ _ _ _ _ _ _ _ _ cfg _ e a Hl He Ha) as [A B]; [|exact Hi|eapply effects_not_nan; eauto|].
  - destruct Hc as [Hc|[Hc|Hc]]; auto. right; left. apply String.eqb_neq. exact Hc.
  - cbv zeta. split; intros (k & E & N & K); [rewrite E in A|rewrite E in B]; unfold under_treatment in *; cbn [c_never c_started] in *;
      destruct (Z.eqb_spec k 0); try contradiction; cbn [negb andb] in *; [destruct (Z.leb_spec k (ge_t e))|destruct (Z.leb_spec k (ge_base e))]; try discriminate; lia.
Qed.

(* ---- C18 ---- *)
Theorem C18_exact_recovery cfg agg bal ws r e (C : Z -> coh) (al be : Z -> R) (tau : Z -> Z -> R) x k :
  (forall i, In i rows -> g i = C (u i)) ->
  (forall i v, In i rows -> y i = Some v ->
     v = al (u i) + be (t i) + match C (u i) with CFin k => if Z.ltb 0 k && Z.leb k (t i) then tau k (t i) else 0 | _ => 0 end) ->
  (0 <= cs_anticipation cfg)%Z ->
  fit cfg agg bal ws = Ok r -> In e (cr_effects r) -> ge_g e = CFin k -> ge_eff e = Fin x ->
  (cs_control cfg = "never_treated"%string \/ cs_basemode cfg <> "universal"%string \/ (ge_base e <= ge_t e)%Z) ->
  x = if Z.leb k (ge_t e) then tau k (ge_t e) else 0.
Proof.
  intros HC Hy Ha H He Hk Hx Hc. destruct (fit_inv _ _ _ _ _ _ _ _ _ _ _ _ _ _ _ _ _ H) as (_ & _ & Hl & _).
  apply (exact_recovery qr lstsq inv logit Hqr Hls rows u t g y covs C al be tau cfg _ e x HC Hy Ha Hl He Hx); [|exact Hk].
  destruct Hc as [Hc|[Hc|Hc]]; auto. right; left. apply String.eqb_neq. exact Hc.
Qed.
Theorem C18_overall cfg agg bal ws r (C : Z -> coh) (al be : Z -> R) (tau : Z -> Z -> R) :
  (forall i, In i rows -> g i = C (u i)) ->
  (forall i v, In i rows -> y i = Some v ->
     v = al (u i) + be (t i) + match C (u i) with CFin k => if Z.ltb 0 k && Z.leb k (t i) then tau k (t i) else 0 | _ => 0 end) ->
  cs_anticipation cfg = 0%Z -> fit cfg agg bal ws = Ok r ->
  (forall e, In e (cr_effects r) -> exists x, ge_eff e = Fin x) ->
  let post := filter (fun e => match ge_g e with CFin k => Z.leb k (ge_t e) | _ => false end) (cr_effects r) in
  post <> [] ->
  cr_att r = Fin (sumf (fun e => len (ge_T e) * match ge_g e with CFin k => tau k (ge_t e) | _ => 0 end) post / sumf (fun e => len (ge_T e)) post).
Proof.
  intros HC Hy Ha H Hfin post Hp. destruct (fit_inv _ _ _ _ _ _ _ _ _ _ _ _ _ _ _ _ _ H) as (_ & _ & Hl & _).
  assert (E : post = filter (ge_post 0) (cr_effects r)).
  { apply filter_ext_in. intros e He. unfold ge_post, before. pose proof (effects_not_nan qr lstsq inv logit rows u t y covs g cfg _ e Hl He).
    destruct (ge_g e) as [k| |]; [|reflexivity|congruence]. rewrite Z.sub_0_r, Z.ltb_antisym, negb_involutive. reflexivity. }
  rewrite E in *. exact (overall_recovery qr lstsq inv logit sf ppf Hqr Hls rows u t g y covs C al be tau cfg agg bal ws r HC Hy Ha H Hfin Hp).
Qed.
(* without covariates every reported cell is a number *)
Theorem C18_defined cfg agg bal ws r : covs = [] -> fit cfg agg bal ws = Ok r -> forall e, In e (cr_effects r) -> exists x, ge_eff e = Fin x.
Proof.
  intros Hc H. destruct (fit_inv _ _ _ _ _ _ _ _ _ _ _ _ _ _ _ _ _ H) as (_ & _ & Hl & _).
  destruct (no_cov_total qr lstsq inv logit rows u t g y covs cfg Hc) as (l & Hl' & HF). rewrite Hl in Hl'. injection Hl' as <-. exact HF.
Qed.

(* ---- C19 ---- *)
Theorem C19_methods_agree cfg T C dy : exists e, est cfg T C dy None = Ok e /\ ce_att e = Fin (meanf dy T - meanf dy C) /\
  (forall a, ce_tinf e a = Fin ((dy a - meanf dy T) / len T)) /\ (forall a, ce_cinf e a = Fin (- ((dy a - meanf dy C) / len C))).
Proof. exact (methods_agree qr lstsq inv logit cfg T C dy). Qed.
Theorem C19_influence_sums_to_zero cfg T C dy xs e att : est cfg T C dy xs = Ok e -> ce_att e = Fin att -> T <> [] -> C <> [] ->
  fadd (fsum (map (ce_tinf e) T)) (fsum (map (ce_cinf e) C)) = Fin 0.
Proof. exact (influence_sums_to_zero qr lstsq inv logit Hqr Hls cfg T C dy xs e att). Qed.
(* the standard errors do not agree: ipw divides the controls' variance by the number of treated units *)
Theorem C19_standard_errors cfg T C dy e : est cfg T C dy None = Ok e -> T <> [] -> C <> [] ->
  ce_se e = Fin (sqrt (var1 (map dy T) / len T + var1 (map dy C) / (if String.eqb (cs_method cfg) "ipw" then len T else len C))).
Proof. exact (se_no_covariates qr lstsq inv logit cfg T C dy e). Qed.

(* ---- C20 ---- *)
Theorem C20_overall cfg agg bal ws r : fit cfg agg bal ws = Ok r ->
  let post := filter (ge_post (cs_anticipation cfg)) (cr_effects r) in
  (forall e, In e post <-> In e (cr_effects r) /\ exists k, ge_g e = CFin k /\ (k - cs_anticipation cfg <= ge_t e)%Z) /\
  (post = [] -> cr_att r = NaN) /\
  (post <> [] -> exists l, cr_att r = fsum (map (fun ew => fmul (Fin (snd ew)) (ge_eff (fst ew))) l) /\
     map fst l = post /\ sumf snd l = 1 /\
     (forall ew, In ew l -> 0 < snd ew <= 1 /\ snd ew = len (ge_T (fst ew)) / sumf (fun e => len (ge_T e)) post)).
Proof.
  intros H. destruct (overall_aggregation qr lstsq inv logit sf ppf rows u t g y covs cfg agg bal ws r H) as (A & B & D). cbv zeta.
  split; [exact A|]. split; [exact B|]. intros Hp. destruct (D Hp) as (E & F & G). exists (by_size (filter (ge_post (cs_anticipation cfg)) (cr_effects r))).
  split; [exact E|]. split; [unfold by_size; rewrite map_map; cbn [fst]; apply map_id|]. split; [exact F|]. intros ew Hew. apply (G ew Hew).
Qed.
Theorem C20_event_study cfg agg bal ws r l e ef : fit cfg agg bal ws = Ok r -> cr_es r = Some l -> In (e, ef) l ->
  let cells := filter (fun x => oz_eqb (rel_time x) e) (balanced_effects bal (cr_effects r)) in
  (ef = es_reference /\ cs_universal cfg = true /\ e = Some (-1 - cs_anticipation cfg)%Z /\ cells = []) \/
  (cells <> [] /\ ef_n ef = length cells /\ (forall c, In c cells -> In c (cr_effects r) /\ rel_time c = e) /\
   exists w, ef_eff ef = fsum (map (fun ew => fmul (Fin (snd ew)) (ge_eff (fst ew))) w) /\ map fst w = cells /\ sumf snd w = 1 /\
     (forall ew, In ew w -> 0 < snd ew <= 1 /\ snd ew = len (ge_T (fst ew)) / sumf (fun e => len (ge_T e)) cells)).
Proof.
  intros H Hes Hin cells. destruct (event_study_aggregation qr lstsq inv logit sf ppf rows u t g y covs cfg agg bal ws r l e ef H Hes Hin) as [X|X]; [left; exact X|right].
  destruct X as (A & B & _ & D & E & F & G). split; [exact A|]. split; [exact D|]. split; [exact F|]. exists (by_size cells).
  split; [exact B|]. split; [unfold by_size; rewrite map_map; cbn [fst]; apply map_id|]. split; [exact E|].
  intros ew Hew. split; [apply (G ew Hew)|]. apply in_map_iff in Hew as (c & <- & _). reflexivity.
Qed.
Theorem C20_by_group cfg agg bal ws r l gr ef : fit cfg agg bal ws = Ok r -> cr_group r = Some l -> In (gr, ef) l ->
  let cells := filter (fun e => c_eqb (ge_g e) gr && ge_post (cs_anticipation cfg) e) (cr_effects r) in
  cells <> [] /\ ef_n ef = length cells /\
  exists w, ef_eff ef = fsum (map (fun ew => fmul (Fin (snd ew)) (ge_eff (fst ew))) w) /\ map fst w = cells /\ sumf snd w = 1 /\
     (forall ew, In ew w -> snd ew = 1 / len cells).
Proof.
  intros H Hg Hin cells. destruct (group_aggregation qr lstsq inv logit sf ppf rows u t g y covs cfg agg bal ws r l gr ef H Hg Hin) as (A & _ & B & _ & D & E & F).
  split; [exact A|]. split; [exact D|]. exists (equally cells). split; [exact B|]. split; [unfold equally; rewrite map_map; cbn [fst]; apply map_id|].
  split; [exact E|]. intros ew Hew. apply (F ew Hew).
Qed.
(* such averages stay between the smallest and the largest effect *)
Theorem C20_between (l : list (gte * R)) lo hi : sumf snd l = 1 -> (forall ew, In ew l -> 0 <= snd ew) ->
  (forall ew, In ew l -> exists x, ge_eff (fst ew) = Fin x /\ lo <= x <= hi) ->
  exists v, fsum (map (fun ew => fmul (Fin (snd ew)) (ge_eff (fst ew))) l) = Fin v /\ lo <= v <= hi.
Proof. exact (convex_bounds l lo hi). Qed.

(* ---- C21 ---- *)
(* the groups kept are those with a cell at event time balance_e *)
Theorem C21_groups_have_anchor_partial b effects e : In e (balanced_effects (Some b) effects) <->
  In e effects /\ exists e', In e' effects /\ ge_g e' = ge_g e /\ rel_time e' = Some b.
Proof. exact (balance_partial b effects e). Qed.

(* ---- C22 ---- *)
Theorem C22_cs_estimates_agree_partial (g' : I -> coh) cfg agg bal r r' :
  (forall i, In i rows -> g' i = g i \/ ((g i = CFin 0 \/ g i = CInf) /\ (g' i = CFin 0 \/ g' i = CInf))) ->
  fit cfg agg bal [] = Ok r -> cs_fit qr lstsq inv logit sf ppf rows u t g' y covs cfg agg bal [] = Ok r' ->
  let finite e := match ge_g e with CFin _ => true | _ => false end in
  cr_att r' = cr_att r /\ cr_se r' = cr_se r /\ cr_n_control r' = cr_n_control r /\
  filter finite (cr_effects r') = filter finite (cr_effects r).
Proof.
  intros H. apply recode_overall. intros i Hi. destruct (H i Hi) as [E|[E1 E2]]; [left; exact E|right].
  split; [destruct E1 as [->| ->]|destruct E2 as [->| ->]]; reflexivity.
Qed.

(* ---- C23 ---- *)
Theorem C23_statistics alpha orig d : 0 < alpha < 1 -> d <> [] ->
  let s := boot_effect_stats alpha orig d in let v := fin_values d in
  (len v < len d / 2 -> bs_se s = NaN /\ bs_ci s = (NaN, NaN) /\ bs_p s = NaN) /\
  (len d / 2 <= len v ->
     (exists p, bs_p s = Fin p /\ 1 / (len v + 1) <= p <= 1) /\
     (exists lo hi, bs_ci s = (Fin lo, Fin hi) /\ lo <= hi /\ (forall a b, (forall x, In x v -> a <= x <= b) -> a <= lo /\ hi <= b)) /\
     (1 < len v -> exists se, bs_se s = Fin se /\ 0 <= se /\ (se = 0 <-> forall x, In x v -> x = meanf idR v)) /\
     (len v = 1 -> bs_se s = NaN)).
Proof.
  intros Ha Hn s v. destruct (boot_stats_wf alpha orig d Ha Hn) as [A B]. split; [|exact B]. intros X. unfold s. rewrite (A X). auto.
Qed.
Theorem C23_pvalue alpha orig d : 0 < alpha < 1 -> d <> [] -> let v := fin_values d in len d / 2 <= len v ->
  bs_p (boot_effect_stats alpha orig d)
  = Fin (Rmax (Rmin (2 * (if fge orig (Fin 0) then INR (length (filter (fun x => Rleb x 0) v)) / len v else INR (length (filter (fun x => Rleb 0 x) v)) / len v)) 1) (1 / (len v + 1))).
Proof.
  intros Ha Hn v Hv. unfold boot_effect_stats. cbv zeta. fold v. destruct (Rlt_dec (len v) (len d * (1/2))); [lra|]. cbn [bs_p].
  unfold boot_pvalue. rewrite !Stats_proofs.share_count. reflexivity.
Qed.
Theorem C23_same_weights cfg ws groups es grp bal effects :
  let b := run_bootstrap cfg ws groups es grp bal effects in
  let post := filter (ge_post (cs_anticipation cfg)) effects in
  let B := balanced_effects bal effects in
  let stats l := boot_effect_stats (cs_alpha cfg) (weighted l) (map (fun w => boot_agg w l) ws) in
  (post = [] -> cb_overall b = nan_stats) /\ (post <> [] -> cb_overall b = stats (by_size post)) /\
  (forall e st, In (e, st) (cb_es b) -> st = stats (by_size (cells_at B e)) /\ cells_at B e <> []) /\
  (forall gr st, In (gr, st) (cb_group b) -> st = stats (equally (group_cells (cs_anticipation cfg) effects gr)) /\ In gr groups).
Proof. exact (boot_weights cfg ws groups es grp bal effects). Qed.

(* ---- C56 ---- *)
Theorem C56_event_study cfg agg bal ws r l e ef d U : standardised d -> fit cfg agg bal ws = Ok r -> cr_es r = Some l -> In (e, ef) l ->
  ef <> es_reference ->
  let cells := by_size (cells_at (balanced_effects bal (cr_effects r)) e) in
  (forall c, In c cells -> exists x, ge_eff (fst c) = Fin x) -> NoDup U -> incl (agg_units cells) U ->
  exists x s, ef_eff ef = Fin x /\ ef_se ef = Fin s /\ 0 <= s /\
    Exv (draws d (length U)) (fun w => toR (boot_agg (at_unit U w) cells)) = x /\
    Exv (draws d (length U)) (fun w => (toR (boot_agg (at_unit U w) cells) - x) * (toR (boot_agg (at_unit U w) cells) - x)) = s * s.
Proof. exact (es_bootstrap_variance qr lstsq inv logit sf ppf Hqr Hls rows u t g y covs cfg agg bal ws r l e ef d U). Qed.
Theorem C56_group cfg agg bal ws r l gr ef d U : standardised d -> fit cfg agg bal ws = Ok r -> cr_group r = Some l -> In (gr, ef) l ->
  let cells := equally (group_cells (cs_anticipation cfg) (cr_effects r) gr) in
  (forall c, In c cells -> exists x, ge_eff (fst c) = Fin x) -> NoDup U -> incl (agg_units cells) U ->
  exists x s, ef_eff ef = Fin x /\ ef_se ef = Fin s /\ 0 <= s /\
    Exv (draws d (length U)) (fun w => toR (boot_agg (at_unit U w) cells)) = x /\
    Exv (draws d (length U)) (fun w => (toR (boot_agg (at_unit U w) cells) - x) * (toR (boot_agg (at_unit U w) cells) - x)) = s * s.
Proof. exact (group_bootstrap_variance qr lstsq inv logit sf ppf Hqr Hls rows u t g y covs cfg agg bal ws r l gr ef d U). Qed.
Theorem C56_overall_partial cfg agg bal r c d U : standardised d -> fit cfg agg bal [] = Ok r ->
  let post := filter (ge_post (cs_anticipation cfg)) (cr_effects r) in
  post <> [] -> (forall e, In e post -> ge_eff e = Fin c) -> NoDup U -> incl (agg_units (by_size post)) U ->
  exists s, cr_att r = Fin c /\ cr_se r = Fin s /\ 0 <= s /\
    Exv (draws d (length U)) (fun w => toR (boot_agg (at_unit U w) (by_size post))) = c /\
    Exv (draws d (length U)) (fun w => (toR (boot_agg (at_unit U w) (by_size post)) - c) * (toR (boot_agg (at_unit U w) (by_size post)) - c)) = s * s.
Proof. exact (overall_bootstrap_variance qr lstsq inv logit sf ppf Hqr Hls rows u t g y covs cfg agg bal r c d U). Qed.
Theorem C56_single_cell cfg agg bal ws r e : covs = [] -> fit cfg agg bal ws = Ok r -> In e (cr_effects r) ->
  (1 < length (ge_T e))%nat -> (1 < length (ge_C e))%nat -> (forall a, In a (ge_T e) -> ~ In a (ge_C e)) ->
  let dy := change rows u t y (ge_base e) (ge_t e) in
  let nt := len (ge_T e) in let nc := len (ge_C e) in
  sumf (fun a => psiR [(e, 1)] a * psiR [(e, 1)] a) (agg_units [(e, 1)])
    = (nt - 1) / nt * (variance 1 (map dy (ge_T e)) / nt) + (nc - 1) / nc * (variance 1 (map dy (ge_C e)) / nc) /\
  (cs_method cfg <> "ipw"%string -> ge_se e = Fin (sqrt (variance 1 (map dy (ge_T e)) / nt + variance 1 (map dy (ge_C e)) / nc))).
Proof.
  intros Hc H He. destruct (fit_inv _ _ _ _ _ _ _ _ _ _ _ _ _ _ _ _ _ H) as (_ & _ & Hl & _).
  exact (cell_bootstrap_variance qr lstsq inv logit rows u t g y covs cfg _ e Hc Hl He).
Qed.

(* ---- C57 ---- *)
Theorem C57_outcome_model cfg T C dy x e att beta tau : est cfg T C dy (Some x) = Ok e -> ce_att e = Fin att -> cs_method cfg <> "ipw"%string ->
  length beta = S (length x) ->
  (forall a, In a C -> dy a = lc ((fun _ => 1) :: x) beta a) -> (forall a, In a T -> dy a = lc ((fun _ => 1) :: x) beta a + tau a) ->
  att = meanf tau T.
Proof. exact (outcome_model_exact qr lstsq inv logit Hqr Hls cfg T C dy x e att beta tau). Qed.
Theorem C57_balancing_weights cfg T C dy x e att : est cfg T C dy (Some x) = Ok e -> ce_att e = Fin att ->
  cs_method cfg <> "ipw"%string -> cs_method cfg <> "reg"%string -> T <> [] ->
  (forall c, In c ((fun _ => 1) :: x) -> sumf (fun a => odds logit T C x a * c a) C = sumf c T) ->
  att = meanf dy T - sumf (fun a => odds logit T C x a * dy a) C / len T /\ ce_att (est_ipw logit T C dy x) = Fin att.
Proof. exact (dr_equals_ipw qr lstsq inv logit Hqr Hls cfg T C dy x e att). Qed.
Theorem C57_affine cfg T C dy dy' xs e e' att att' s c : est cfg T C dy xs = Ok e -> est cfg T C dy' xs = Ok e' ->
  ce_att e = Fin att -> ce_att e' = Fin att' -> T <> [] -> C <> [] ->
  (forall a, In a T \/ In a C -> dy' a = s * dy a + c) -> att' = s * att.
Proof. exact (est_affine qr lstsq inv logit Hqr Hls cfg T C dy dy' xs e e' att att' s c). Qed.

(* ---- C58 ---- *)
Theorem C58_base_mode cfg cfg' agg agg' bal bal' r r' :
  cs_control cfg = cs_control cfg' -> cs_anticipation cfg = cs_anticipation cfg' -> cs_method cfg = cs_method cfg' -> cs_action cfg = cs_action cfg' ->
  fit cfg agg bal [] = Ok r -> fit cfg' agg' bal' [] = Ok r' ->
  cr_att r = cr_att r' /\ cr_se r = cr_se r' /\
  filter (ge_post (cs_anticipation cfg)) (cr_effects r) = filter (ge_post (cs_anticipation cfg)) (cr_effects r').
Proof.
  intros E1 E2 E3 E4 H H'. assert (HS : same_but_mode cfg cfg') by (repeat split; assumption).
  destruct (mode_irrelevant_overall qr lstsq inv logit sf ppf rows u t g y covs cfg cfg' agg agg' bal bal' r r' HS H H') as [A B].
  split; [exact A|]. split; [exact B|].
  destruct (fit_inv _ _ _ _ _ _ _ _ _ _ _ _ _ _ _ _ _ H) as (_ & _ & Hl & _). destruct (fit_inv _ _ _ _ _ _ _ _ _ _ _ _ _ _ _ _ _ H') as (_ & _ & Hl' & _).
  exact (mode_irrelevant_post qr lstsq inv logit rows u t g y covs cfg cfg' _ _ HS Hl Hl').
Qed.
(* ---- C59 ---- *)
Theorem C59_coherent alpha b se n : 0 < se -> 0 < alpha < 1 ->
  let r := cs_report sf ppf alpha (Fin b) (Fin se) n in
  exists p lo hi, ef_t r = Fin (b / se) /\ ef_p r = Fin p /\ ef_ci r = (Fin lo, Fin hi) /\
    0 < p <= 1 /\ lo < b < hi /\ b - lo = hi - b /\ (p < alpha <-> (hi < 0 \/ 0 < lo)).
Proof. exact (report_coherent sf ppf Hd alpha b se n). Qed.
Theorem C59_nan alpha eff se n : (eff = NaN /\ (forall s, se = Fin s -> 0 < s)) \/ se = NaN ->
  let r := cs_report sf ppf alpha eff se n in ef_t r = NaN /\ ef_p r = NaN /\ ef_ci r = (NaN, NaN).
Proof. exact (report_nan sf ppf Hd alpha eff se n). Qed.
(* se = 0: no test, but a one-point interval *)
Theorem C59_zero_se_refuted alpha b n : let r := cs_report sf ppf alpha (Fin b) (Fin 0) n in
  ef_t r = NaN /\ ef_p r = NaN /\ ef_ci r = (Fin b, Fin b).
Proof. exact (report_zero_se sf ppf Hd alpha b n). Qed.
End P.

(* ---- counterexamples, for any oracles ---- *)
Section R.
Variable qr : list Z -> list (Z -> R) -> list nat.
Variable lstsq : list Z -> list (Z -> R) -> (Z -> R) -> list R.
Variable inv : list Z -> list (Z -> R) -> option (nat -> nat -> R).
Variable logit : list Z -> list Z -> list (Z -> R) -> option (Z -> R).
Variable sf : option Z -> fl -> fl.
Variable ppf : option Z -> R -> R.
Notation effs g y cfg := (all_effects qr lstsq inv logit rows35 fst snd (fun i => g (fst i)) y [] cfg).
Notation fit g y := (cs_fit qr lstsq inv logit sf ppf rows35 fst snd (fun i => g (fst i)) y []).
Theorem C17_anticipation_refuted : exists cfg l e a k,
  cs_control cfg = "not_yet_treated"%string /\ effs C35 y35 cfg = Ok l /\ In e l /\ In a (ge_C e) /\
  cs_cohort rows35 fst (fun i => C35 (fst i)) a = CFin k /\ (k - cs_anticipation cfg <= ge_t e)%Z.
Proof. exact (nyt_anticipation qr lstsq inv logit). Qed.
Theorem C17_universal_base_refuted : exists cfg l e a,
  cs_control cfg = "not_yet_treated"%string /\ cs_anticipation cfg = 0%Z /\ effs C35 y35 cfg = Ok l /\ In e l /\ In a (ge_C e) /\
  under_treatment (cs_cohort rows35 fst (fun i => C35 (fst i)) a) (ge_base e) = true.
Proof. exact (universal_base qr lstsq inv logit). Qed.
Theorem C18_universal_base_refuted : exists cfg l e x,
  cs_control cfg = "not_yet_treated"%string /\ cs_anticipation cfg = 0%Z /\ effs C35 y35 cfg = Ok l /\ In e l /\ ge_g e = CFin 5 /\ (ge_t e < 5)%Z /\
  ge_eff e = Fin x /\ x <> 0.
Proof. exact (universal_base_biased qr lstsq inv logit). Qed.
Theorem C21_refuted : exists cfg agg bal r l e e' ef ef' gr,
  fit C35 y35 cfg agg (Some bal) [] = Ok r /\ cr_es r = Some l /\ In (e, ef) l /\ In (e', ef') l /\
  (exists c, In c (cells_at (balanced_effects (Some bal) (cr_effects r)) e) /\ ge_g c = gr) /\
  (forall c, In c (cells_at (balanced_effects (Some bal) (cr_effects r)) e') -> ge_g c <> gr).
Proof. exact (balance_refuted qr lstsq inv logit sf ppf). Qed.
Theorem C22_cs_refuted : exists cfg r r',
  fit C35 y35 cfg (Some "event_study"%string) None [] = Ok r /\ fit C35inf y35 cfg (Some "event_study"%string) None [] = Ok r' /\
  cr_n_treated r = 2%nat /\ cr_n_treated r' = 3%nat /\ cr_groups r = [CFin 3; CFin 5] /\ cr_groups r' = [CFin 3; CFin 5; CInf] /\
  (exists e a, In e (cr_effects r') /\ ge_g e = CInf /\ In a (ge_T e) /\ In a (ge_C e)) /\
  (exists es es' ef, cr_es r = Some es /\ cr_es r' = Some es' /\ In (None, ef) es' /\ ~ In None (map fst es)).
Proof. exact (recode_refuted qr lstsq inv logit sf ppf). Qed.
Theorem C56_overall_refuted : exists r s,
  cs_fit qr lstsq inv logit sf ppf rows23 fst snd (fun i => C23 (fst i)) y23 [] (demo_cfg "never_treated" 0 "dr" "varying") None None [] = Ok r /\
  cr_se r = Fin s /\ 0 < s /\ (forall w, boot_agg w (by_size (filter (ge_post 0) (cr_effects r))) = cr_att r).
Proof. exact (overall_bootstrap_refuted qr lstsq inv logit sf ppf). Qed.
End R.
(* the cluster column changes nothing *)
Theorem C58_cluster_refuted {I} qr lstsq inv logit sf ppf (rows : list I) u t g y covs cfg c agg bal ws :
  cs_fit qr lstsq inv logit sf ppf rows u t g y covs
    {| cs_control := cs_control cfg; cs_anticipation := cs_anticipation cfg; cs_method := cs_method cfg; cs_alpha := cs_alpha cfg;
       cs_cluster := c; cs_action := cs_action cfg; cs_basemode := cs_basemode cfg |} agg bal ws
  = cs_fit qr lstsq inv logit sf ppf rows u t g y covs cfg agg bal ws.
Proof. exact (cluster_unused qr lstsq inv logit sf ppf rows u t g y covs cfg c agg bal ws). Qed.

(* ---- cases ---- *)
Example C17_oracles : qr_ok (@gs_dropped Z) /\ lstsq_ok (@gs Z) /\ dist_ok toy_sf toy_ppf.
Proof. exact (conj (@gs_dropped_ok Z) (conj (@gs_ok Z) toy_dist_ok)). Qed.
Example C18_case : exists r, cs_fit gs_dropped gs gs_inv (fun _ _ _ => None) toy_sf toy_ppf rows23 fst snd (fun i => C23 (fst i)) y23 []
  (demo_cfg "never_treated" 0 "dr" "varying") (Some "all"%string) None [] = Ok r /\ length (cr_effects r) = 4%nat /\
  cr_att r = Fin (2 / 3).
Proof.
  destruct (fit_ok gs_dropped gs gs_inv (fun _ _ _ => None) toy_sf toy_ppf rows23 fst snd (fun i => C23 (fst i)) y23 [] (demo_cfg "never_treated" 0 "dr" "varying") (Some "all"%string) None [] cells23) as (r & Hr & Er);
    [vm_compute; discriminate|vm_compute; reflexivity|reflexivity|discriminate|].
  exists r. split; [exact Hr|]. split; [rewrite Er; reflexivity|].
  assert (Hqr : qr_ok (@gs_dropped Z)) by exact (@gs_dropped_ok Z).
  assert (Hls : lstsq_ok (@gs Z)) by exact (@gs_ok Z).
  rewrite (C18_overall (@gs_dropped Z) (@gs Z) (@gs_inv Z) (fun _ _ _ => None) toy_sf toy_ppf Hqr Hls rows23 fst snd (fun i => C23 (fst i)) y23 [] (demo_cfg "never_treated" 0 "dr" "varying") (Some "all"%string) None [] r
     C23 (fun a => IZR a) (fun s => IZR s) (fun k s => IZR (3 - k))).
  - rewrite Er. change (filter _ cells23) with [mkc (CFin 2) 2 1 [1%Z] [3%Z]; mkc (CFin 2) 3 1 [1%Z] [3%Z]; mkc (CFin 3) 3 2 [2%Z] [3%Z]].
    cbn [sumf mkc ge_T ge_g ge_t]. unfold len. cbn [length INR]. change (3 - 2)%Z with 1%Z. change (3 - 3)%Z with 0%Z. f_equal. field.
  - reflexivity.
  - intros i v _ E. unfold y23, demo_y in E. injection E as <-. reflexivity.
  - reflexivity.
  - exact Hr.
  - apply (C18_defined gs_dropped gs gs_inv (fun _ _ _ => None) toy_sf toy_ppf rows23 fst snd (fun i => C23 (fst i)) y23 [] _ _ _ _ r eq_refl Hr).
  - rewrite Er. discriminate.
Qed.
Example C23_case : bs_p (boot_effect_stats (1/20) (Fin 1) [Fin 1; Fin 2; NaN]) = Fin (1 / 3).
Proof.
  rewrite C23_pvalue; [|lra|discriminate|unfold len; simpl; lra]. cbn [fin_values flat_map app]. cbn [fge fle].
  assert (E : Rleb 0 1 = true) by (apply Rleb_true; lra). rewrite E. cbn [filter].
  assert (E1 : Rleb 1 0 = false) by (apply Rleb_false; lra). assert (E2 : Rleb 2 0 = false) by (apply Rleb_false; lra). rewrite E1, E2.
  unfold len. cbn [length INR]. rewrite Rmin_left by lra. rewrite Rmax_right by lra. f_equal. field.
Qed.
(* the balance condition of C57 can hold: equal scores of one half *)
Example C57_case : let x := [(fun a : Z => IZR (Z.abs a))] in let T := [1%Z; 2%Z] in let C := [(-1)%Z; (-2)%Z] in
  forall c, In c ((fun _ => 1) :: x) -> sumf (fun a => odds (fun _ _ _ => None) T C x a * c a) C = sumf c T.
Proof.
  intros x T C c Hc. assert (O : forall a, odds (fun _ _ _ => None) T C x a = 1).
  { intros a. unfold odds. assert (E : len T / (len T + len C) = 1/2) by (unfold len; simpl; field). rewrite E. unfold clip_ps. rewrite Rmax_left, Rmin_left by lra. field. }
  rewrite (sumf_ext_all _ c) by (intros; rewrite O; ring). destruct Hc as [<-|[<-|[]]]; reflexivity.
Qed.

Print Assumptions C17_controls.
Print Assumptions C17_treated.
Print Assumptions C17_base_period.
Print Assumptions C17_clean_controls_partial.
Print Assumptions C17_anticipation_refuted.
Print Assumptions C17_universal_base_refuted.
Print Assumptions C18_exact_recovery.
Print Assumptions C18_overall.
Print Assumptions C18_defined.
Print Assumptions C18_universal_base_refuted.
Print Assumptions C19_methods_agree.
Print Assumptions C19_influence_sums_to_zero.
Print Assumptions C19_standard_errors.
Print Assumptions C20_overall.
Print Assumptions C20_event_study.
Print Assumptions C20_by_group.
Print Assumptions C20_between.
Print Assumptions C21_groups_have_anchor_partial.
Print Assumptions C21_refuted.
Print Assumptions C22_cs_estimates_agree_partial.
Print Assumptions C22_cs_refuted.
Print Assumptions C23_statistics.
Print Assumptions C23_pvalue.
Print Assumptions C23_same_weights.
Print Assumptions C56_event_study.
Print Assumptions C56_group.
Print Assumptions C56_overall_partial.
Print Assumptions C56_overall_refuted.
Print Assumptions C56_single_cell.
Print Assumptions C57_outcome_model.
Print Assumptions C57_balancing_weights.
Print Assumptions C57_affine.
Print Assumptions C58_base_mode.
Print Assumptions C58_cluster_refuted.
Print Assumptions C59_coherent.
Print Assumptions C59_nan.
Print Assumptions C59_zero_se_refuted.

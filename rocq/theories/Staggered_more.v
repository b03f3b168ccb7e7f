(* Callaway-Sant'Anna: multiplier bootstrap, analytic variances, codings, inference. *)
From Verif Require Import Prelude Flt Stats_model Stats_proofs Linalg_model Linalg_proofs Linalg_vcov Linalg_thms Did_model Did_proofs Boot_model Boot_proofs Multi_model Multi_proofs Multi_thms Bacon_model Bacon_proofs Bacon_thms Staggered_model Staggered_proofs Staggered_est Staggered_thms.
From Coq Require Import Arith ZArith String List Permutation.
Import ListNotations.
Open Scope R_scope.

(* ---- reported inference (utils.py p value and interval) ---- *)
Section Inference.
Variable sf : option Z -> fl -> fl.
Variable ppf : option Z -> R -> R.
Hypothesis Hd : dist_ok sf ppf.
Theorem u_coherent b se alpha df : 0 < se -> 0 < alpha < 1 -> (forall d, df = Some d -> (0 < d)%Z) ->
  exists p lo hi, u_p_value sf (Fin (b / se)) df = Fin p /\ u_ci ppf (Fin b) (Fin se) alpha df = (Fin lo, Fin hi) /\
    0 < p <= 1 /\ lo < b < hi /\ b - lo = hi - b /\ (p < alpha <-> (hi < 0 \/ 0 < lo)).
Proof.
  intros Hs Ha Hdf. set (c := ppf df (1 - alpha / 2)). assert (Hc : 0 < c) by (apply (d_pos _ _ Hd); auto).
  destruct (d_fin _ _ Hd df (Rabs (b / se))) as (p0 & Hp0 & Hp1).
  assert (E1 : u_sf sf df (Fin (Rabs (b / se))) = Fin p0).
  { unfold u_sf. destruct df as [d|]; auto. specialize (Hdf d eq_refl). destruct (Z.ltb_spec 0 d); [exact Hp0|lia]. }
  assert (E2 : u_ppf ppf df (1 - alpha / 2) = Fin c).
  { unfold u_ppf. destruct df as [d|]; auto. specialize (Hdf d eq_refl). destruct (Z.ltb_spec 0 d); [reflexivity|lia]. }
  assert (Hcs : 0 < c * se) by (apply Rmult_lt_0_compat; auto).
  exists (2 * p0), (b + - (c * se)), (b + c * se).
  split. { unfold u_p_value. cbn [fabs]. rewrite E1. reflexivity. }
  split. { unfold u_ci. rewrite E2. reflexivity. }
  pose proof (d_half _ _ Hd df _ p0 (Rabs_pos (b / se)) Hp0) as Hhalf. do 3 (split; [lra|]).
  rewrite (d_dual _ _ Hd df (Rabs (b / se)) p0 alpha) by (auto; apply Rabs_pos). fold c.
  assert (Hdiv : Rabs (b / se) = Rabs b / se).
  { unfold Rdiv. rewrite Rabs_mult. f_equal. apply Rabs_right. left. apply Rinv_0_lt_compat; auto. }
  rewrite Hdiv.
  assert (H : c < Rabs b / se <-> c * se < Rabs b).
  { split; intros H.
    - apply (Rmult_lt_compat_r se) in H; auto. unfold Rdiv in H. rewrite Rmult_assoc, Rinv_l in H by lra. lra.
    - apply (Rmult_lt_reg_r se); auto. unfold Rdiv. rewrite Rmult_assoc, Rinv_l by lra. lra. }
  rewrite H. unfold Rabs. destruct (Rcase_abs b); split; intros; lra.
Qed.

Theorem report_coherent alpha b se n : 0 < se -> 0 < alpha < 1 ->
  let r := cs_report sf ppf alpha (Fin b) (Fin se) n in
  exists p lo hi, ef_t r = Fin (b / se) /\ ef_p r = Fin p /\ ef_ci r = (Fin lo, Fin hi) /\
    0 < p <= 1 /\ lo < b < hi /\ b - lo = hi - b /\ (p < alpha <-> (hi < 0 \/ 0 < lo)).
Proof.
  intros Hs Ha r. destruct (u_coherent b se alpha None Hs Ha ltac:(discriminate)) as (p & lo & hi & E1 & E2 & E3).
  assert (Et : cs_t (Fin b) (Fin se) = Fin (b / se)).
  { unfold cs_t, fdiv. destruct (Rlt_dec 0 se); [|lra]. destruct (Req_EM_T se 0); [lra|reflexivity]. }
  exists p, lo, hi. unfold r, cs_report. cbn [ef_t ef_p ef_ci]. rewrite Et. auto 6.
Qed.
(* se = 0: t and p are NaN, the interval is the single point *)
Theorem report_zero_se alpha b n : let r := cs_report sf ppf alpha (Fin b) (Fin 0) n in
  ef_t r = NaN /\ ef_p r = NaN /\ ef_ci r = (Fin b, Fin b).
Proof.
  cbv zeta. unfold cs_report, cs_t, u_p_value, u_ci, u_sf, u_ppf. cbn [ef_t ef_p ef_ci].
  destruct (Rlt_dec 0 0) as [H|_]; [lra|]. cbn [fabs]. rewrite (d_nan _ _ Hd). split; [reflexivity|]. split; [reflexivity|].
  cbn [fmul fsub fneg fadd]. rewrite Rmult_0_r, Ropp_0, Rplus_0_r. reflexivity.
Qed.
Theorem report_nan alpha eff se n : (eff = NaN /\ (forall s, se = Fin s -> 0 < s)) \/ se = NaN ->
  let r := cs_report sf ppf alpha eff se n in ef_t r = NaN /\ ef_p r = NaN /\ ef_ci r = (NaN, NaN).
Proof.
  intros H. cbv zeta. unfold cs_report. cbn [ef_t ef_p ef_ci].
  assert (Et : cs_t eff se = NaN).
  { unfold cs_t. destruct H as [[-> _]| ->]; [|reflexivity]. destruct se; try reflexivity. destruct (Rlt_dec 0 r); reflexivity. }
  rewrite Et. split; [reflexivity|]. split; [unfold u_p_value; cbn [fabs u_sf]; rewrite (d_nan _ _ Hd); reflexivity|].
  unfold u_ci, u_ppf. destruct H as [[-> _]| ->].
  - reflexivity.
  - cbn [fmul fneg fsub]. destruct eff; reflexivity.
Qed.
End Inference.

(* ---- bootstrap statistics ---- *)
Theorem boot_stats_wf alpha orig d : 0 < alpha < 1 -> d <> [] ->
  let s := boot_effect_stats alpha orig d in let v := fin_values d in
  (len v < len d / 2 -> s = nan_stats) /\
  (len d / 2 <= len v ->
     (exists p, bs_p s = Fin p /\ 1 / (len v + 1) <= p <= 1) /\
     (exists lo hi, bs_ci s = (Fin lo, Fin hi) /\ lo <= hi /\
        (forall a b, (forall x, In x v -> a <= x <= b) -> a <= lo /\ hi <= b)) /\
     (1 < len v -> exists se, bs_se s = Fin se /\ 0 <= se /\ (se = 0 <-> forall x, In x v -> x = meanf idR v)) /\
     (len v = 1 -> bs_se s = NaN)).
Proof.
  intros Ha Hd s v. unfold s, boot_effect_stats. cbv zeta. fold v. pose proof (len_pos _ Hd) as Pd.
  destruct (Rlt_dec (len v) (len d * (1/2))) as [Hlt|Hge]; (split; [intros; first [reflexivity|lra]|]); intros Hv; [lra|].
  cbn [bs_se bs_ci bs_p].
  assert (Hne : v <> []) by (intros E; rewrite E in Hv; unfold len in Hv at 2; simpl in Hv; lra).
  pose proof (len_pos _ Hne) as Pv.
  assert (P1 : 1 <= len v). { destruct v as [|x l]; [congruence|]. rewrite len_cons. pose proof (len_nonneg l). lra. }
  split; [|split; [|split]].
  - eexists. split; [reflexivity|]. unfold boot_pvalue. set (one := if fge orig (Fin 0) then share (fun x => Rleb x 0) v else share (fun x => Rleb 0 x) v).
    assert (H1 : 1 / (len v + 1) <= 1).
    { apply (Rmult_le_reg_r (len v + 1)); [lra|]. unfold Rdiv. rewrite Rmult_assoc, Rinv_l by lra. lra. }
    split; [apply Rmax_r|]. apply Rmax_lub; [apply Rmin_r|exact H1].
  - exists (percentile v (alpha / 2)), (percentile v (1 - alpha / 2)). split; [reflexivity|].
    split; [apply percentile_mono; auto; lra|]. intros a b Hab.
    split; [apply (percentile_range v (alpha/2) a b); auto; lra|apply (percentile_range v (1 - alpha/2) a b); auto; lra].
  - intros H1. exists (std 1 v). split; [|split; [apply std_nonneg|apply std_zero_iff; simpl; lra]].
    unfold fdiv. destruct (Req_EM_T (len v - 1) 0); [lra|]. rewrite sqrt_fin.
    + unfold std, variance. reflexivity.
    + apply Rmult_le_pos; [apply sumsq_nonneg|left; apply Rinv_0_lt_compat; lra].
  - intros H1. unfold fdiv. rewrite H1. destruct (Req_EM_T (1 - 1) 0) as [_|N]; [|lra].
    destruct v as [|x [|x2 l]]; [congruence| |rewrite !len_cons in H1; pose proof (len_nonneg l); lra].
    assert (E : sumsq_dev [x] = 0). { unfold sumsq_dev, meanf, idR, len. simpl. field. }
    rewrite E. unfold fsgn_inf. repeat match goal with |- context [Rlt_dec 0 0] => destruct (Rlt_dec 0 0); [lra|] | |- context [Req_EM_T 0 0] => destruct (Req_EM_T 0 0); [|lra] end. reflexivity.
Qed.

(* the bootstrap uses the weights of the point estimate *)
Theorem boot_weights cfg ws groups es grp bal effects :
  let b := run_bootstrap cfg ws groups es grp bal effects in
  let post := filter (ge_post (cs_anticipation cfg)) effects in
  let B := balanced_effects bal effects in
  let stats l := boot_effect_stats (cs_alpha cfg) (weighted l) (map (fun w => boot_agg w l) ws) in
  (post = [] -> cb_overall b = nan_stats) /\ (post <> [] -> cb_overall b = stats (by_size post)) /\
  (forall e st, In (e, st) (cb_es b) -> st = stats (by_size (cells_at B e)) /\ cells_at B e <> []) /\
  (forall gr st, In (gr, st) (cb_group b) -> st = stats (equally (group_cells (cs_anticipation cfg) effects gr)) /\ In gr groups).
Proof.
  cbv zeta. unfold run_bootstrap. cbn [cb_overall cb_es cb_group]. split; [intros ->; reflexivity|].
  split. { destruct (filter (ge_post (cs_anticipation cfg)) effects); [congruence|reflexivity]. }
  split.
  - intros e st H. destruct es; [|contradiction]. apply in_map_iff in H as ([e0 l0] & E & H). cbn [fst snd] in E. apply pair_equal_spec in E as [-> <-].
    unfold prepare_es in H. apply in_map_iff in H as (e1 & E & H). apply pair_equal_spec in E as [-> <-]. split; [reflexivity|].
    apply rel_keys_In in H as (c & Hc & Ec). intros E. assert (F : In c (cells_at (balanced_effects bal effects) e)) by (apply cells_at_In; auto). rewrite E in F. contradiction.
  - intros gr st H. destruct grp; [|contradiction]. apply in_map_iff in H as ([g0 l0] & E & H). cbn [fst snd] in E. apply pair_equal_spec in E as [-> <-].
    unfold prepare_group in H. apply in_flat_map in H as (g1 & Hg & H). destruct (group_cells (cs_anticipation cfg) effects g1) as [|c l] eqn:Ec; [contradiction|].
    destruct H as [H|[]]. apply pair_equal_spec in H as [-> <-]. rewrite Ec. auto.
Qed.

(* ---- the law of the bootstrap draws ---- *)
(* finite influence functions *)
Definition inf_fin (l : list (gte * R)) : Prop := forall ew, In ew l ->
  (exists x, ge_eff (fst ew) = Fin x) /\ NoDup (ge_T (fst ew)) /\ NoDup (ge_C (fst ew)) /\
  (forall a, In a (ge_T (fst ew)) -> exists x, ge_tinf (fst ew) a = Fin x) /\ (forall a, In a (ge_C (fst ew)) -> exists x, ge_cinf (fst ew) a = Fin x).
Definition inf1 (e : gte) (a : Z) : R := ind (zmem a (ge_T e)) * toR (ge_tinf e a) + ind (zmem a (ge_C e)) * toR (ge_cinf e a).
Definition psiR (l : list (gte * R)) (a : Z) : R := sumf (fun ew => snd ew * inf1 (fst ew) a) l.

Lemma fsum_app_fin a b x y : fsum a = Fin x -> fsum b = Fin y -> fsum (a ++ b) = Fin (x + y).
Proof.
  revert x. induction a as [|v a IH]; intros x Ha Hb.
  - simpl in *. injection Ha as <-. rewrite Hb. f_equal. ring.
  - change (fsum (v :: a)) with (fadd v (fsum a)) in Ha. change (fsum ((v :: a) ++ b)) with (fadd v (fsum (a ++ b))).
    destruct v, (fsum a) as [z| | |] eqn:E; simpl in Ha; try discriminate. injection Ha as <-. rewrite (IH z eq_refl Hb). simpl. f_equal. ring.
Qed.
Lemma psi_fin l a : inf_fin l -> psi l a = Fin (psiR l a).
Proof.
  unfold psi, psiR. induction l as [|ew l IH]; intros H; [reflexivity|]. cbn [flat_map].
  destruct (H ew (or_introl eq_refl)) as (_ & _ & _ & HT & HC).
  rewrite (fsum_app_fin _ _ (snd ew * inf1 (fst ew) a) (sumf (fun ew => snd ew * inf1 (fst ew) a) l)); [reflexivity| |apply IH; intros x Hx; apply H; right; exact Hx].
  unfold inf1. destruct (zmem a (ge_T (fst ew))) eqn:E1, (zmem a (ge_C (fst ew))) eqn:E2; cbn [app ind].
  - apply zmem_true in E1, E2. destruct (HT a E1) as (x & ->), (HC a E2) as (z & ->). simpl. f_equal. ring.
  - apply zmem_true in E1. destruct (HT a E1) as (x & ->). simpl. f_equal. ring.
  - apply zmem_true in E2. destruct (HC a E2) as (x & ->). simpl. f_equal. ring.
  - simpl. f_equal. ring.
Qed.
Lemma sum_over (T U : list Z) f : NoDup T -> NoDup U -> incl T U -> sumf f T = sumf (fun a => ind (zmem a T) * f a) U.
Proof.
  intros HT HU Hi. rewrite <- sumf_filter. apply sumf_perm. apply NoDup_Permutation; [exact HT|apply NoDup_filter; exact HU|].
  intros a. rewrite filter_In, zmem_true. split; [auto|tauto].
Qed.
Lemma agg_units_In l a : In a (agg_units l) <-> exists ew, In ew l /\ (In a (ge_T (fst ew)) \/ In a (ge_C (fst ew))).
Proof.
  unfold agg_units. rewrite zsort_In, nodup_In, in_flat_map. split; intros (ew & H & K); exists ew; (split; [exact H|]); apply in_app_iff; exact K.
Qed.
Lemma agg_units_NoDup l : NoDup (agg_units l).
Proof. unfold agg_units. apply zsort_NoDup, NoDup_nodup. Qed.
Lemma psiR_outside l a : ~ In a (agg_units l) -> psiR l a = 0.
Proof.
  intros H. unfold psiR. apply sumf_zero. intros ew Hew. unfold inf1.
  assert (E1 : zmem a (ge_T (fst ew)) = false) by (apply zmem_false; intros K; apply H, agg_units_In; exists ew; auto).
  assert (E2 : zmem a (ge_C (fst ew)) = false) by (apply zmem_false; intros K; apply H, agg_units_In; exists ew; auto).
  rewrite E1, E2. unfold ind. ring.
Qed.
Lemma fsum_fin_map {A} (f : A -> fl) (h : A -> R) l : (forall a, In a l -> f a = Fin (h a)) -> fsum (map f l) = Fin (sumf h l).
Proof.
  intros H. rewrite <- fsum_map_fin. f_equal. apply map_ext_in. exact H.
Qed.
Lemma boot_gt_fin w ew l U : inf_fin l -> In ew l -> NoDup U -> incl (agg_units l) U ->
  boot_gt w (fst ew) = Fin (toR (ge_eff (fst ew)) + sumf (fun a => w a * inf1 (fst ew) a) U).
Proof.
  intros H Hew HU Hi. destruct (H ew Hew) as ((x & Ex) & NT & NC & HT & HC). unfold boot_gt. rewrite Ex.
  rewrite (fsum_fin_map _ (fun a => w a * toR (ge_tinf (fst ew) a))) by (intros a Ha; destruct (HT a Ha) as (z & ->); reflexivity).
  rewrite (fsum_fin_map _ (fun a => w a * toR (ge_cinf (fst ew) a))) by (intros a Ha; destruct (HC a Ha) as (z & ->); reflexivity).
  cbn [fadd toR]. f_equal. f_equal.
  rewrite (sum_over _ U _ NT HU) by (intros a Ha; apply Hi, agg_units_In; exists ew; auto).
  rewrite (sum_over _ U (fun a => w a * toR (ge_cinf (fst ew) a)) NC HU) by (intros a Ha; apply Hi, agg_units_In; exists ew; auto).
  rewrite <- sumf_add. apply sumf_ext_all. intros a. unfold inf1. ring.
Qed.
(* one draw of an aggregate = point estimate + weighted sum of the aggregate's influence function *)
Theorem boot_draw w l U : inf_fin l -> NoDup U -> incl (agg_units l) U ->
  exists x, weighted l = Fin x /\ boot_agg w l = Fin (x + sumf (fun a => w a * psiR l a) U).
Proof.
  intros H HU Hi. exists (sumf (fun ew => snd ew * toR (ge_eff (fst ew))) l). split.
  { apply weighted_fin. intros ew Hew. apply (H ew Hew). }
  unfold boot_agg. rewrite (fsum_fin_map _ (fun ew => snd ew * toR (ge_eff (fst ew)) + snd ew * sumf (fun a => w a * inf1 (fst ew) a) U)).
  2:{ intros ew Hew. rewrite (boot_gt_fin w ew l U H Hew HU Hi). cbn [fmul]. f_equal. ring. }
  rewrite sumf_add. f_equal. f_equal.
  rewrite (sumf_ext_all (fun ew => snd ew * sumf (fun a => w a * inf1 (fst ew) a) U) (fun ew => sumf (fun a => w a * (snd ew * inf1 (fst ew) a)) U)).
  2:{ intros ew. rewrite <- sumf_scal. apply sumf_ext_all. intros. ring. }
  rewrite (sumf_swap (fun ew a => w a * (snd ew * inf1 (fst ew) a)) l U). apply sumf_ext_all. intros a. rewrite sumf_scal. reflexivity.
Qed.

(* a draw of the weight vector, as a function of the unit *)
Fixpoint at_unit (U : list Z) (w : list R) (a : Z) : R :=
  match U, w with u :: U', x :: w' => if Z.eqb u a then x else at_unit U' w' a | _, _ => 0 end.
Lemma at_unit_dot U w (c : Z -> R) : NoDup U -> length w = length U -> sumf (fun a => at_unit U w a * c a) U = dot (map c U) w.
Proof.
  revert w. induction U as [|u U IH]; intros w HN HL; [reflexivity|]. destruct w as [|x w]; [discriminate|]. apply NoDup_cons_iff in HN as [Hu HN].
  cbn [map dot sumf at_unit]. rewrite Z.eqb_refl. rewrite <- IH by (auto; injection HL; auto). f_equal; [ring|].
  apply sumf_ext. intros a Ha. destruct (Z.eqb_spec u a); [subst; contradiction|reflexivity].
Qed.
Lemma draws_length d n w : In w (map fst (draws d n)) -> length w = n.
Proof.
  revert w. induction n as [|n IH]; intros w H; simpl in H.
  - destruct H as [<-|[]]. reflexivity.
  - apply in_map_iff in H as ((w0 & p) & <- & H). apply in_flat_map in H as (vp & _ & H). apply in_map_iff in H as (wp & E & H).
    injection E as <- _. simpl. f_equal. apply IH. apply in_map. exact H.
Qed.
Lemma Exv_ext_in ds f h : (forall w, In w (map fst ds) -> f w = h w) -> Exv ds f = Exv ds h.
Proof. intros H. unfold Exv. apply sumf_ext. intros wp Hw. rewrite H; auto. apply in_map. exact Hw. Qed.

Theorem boot_moments d l U : standardised d -> inf_fin l -> NoDup U -> incl (agg_units l) U ->
  let draw w := toR (boot_agg (at_unit U w) l) in
  Exv (draws d (length U)) draw = toR (weighted l) /\
  Exv (draws d (length U)) (fun w => (draw w - toR (weighted l)) * (draw w - toR (weighted l))) = sumf (fun a => psiR l a * psiR l a) (agg_units l).
Proof.
  intros Hd H HU Hi draw.
  assert (E : forall w, In w (map fst (draws d (length U))) -> draw w = toR (weighted l) + dot (map (psiR l) U) w).
  { intros w Hw. apply draws_length in Hw. unfold draw. destruct (boot_draw (at_unit U w) l U H HU Hi) as (x & -> & ->). cbn [toR].
    rewrite at_unit_dot by auto. reflexivity. }
  destruct Hd as (H1 & Hn & H0 & H2).
  assert (EL : length U = length (map (psiR l) U)) by (rewrite map_length; reflexivity).
  split.
  - rewrite (Exv_ext_in _ _ _ E), Exv_add, EL, draws_mean by auto.
    rewrite (Exv_ext _ (fun _ => toR (weighted l)) (fun _ => toR (weighted l) * 1)) by (intros; ring).
    rewrite Exv_scal, draws_mass by auto. ring.
  - rewrite (Exv_ext_in _ _ (fun w => dot (map (psiR l) U) w * dot (map (psiR l) U) w)) by (intros w Hw; rewrite E by auto; ring).
    rewrite EL, draws_variance by (repeat split; auto). rewrite (sumf_map (psiR l) (fun a => a * a) U).
    rewrite (sum_over (agg_units l) U _ (agg_units_NoDup l) HU Hi). apply sumf_ext. intros a Ha.
    destruct (zmem a (agg_units l)) eqn:Em; unfold ind; [ring|]. apply zmem_false in Em. rewrite psiR_outside by auto. ring.
Qed.
(* the analytic standard error of an aggregate (event study, group) *)
Theorem agg_se_value l : inf_fin l -> agg_se l = Fin (sqrt (sumf (fun a => psiR l a * psiR l a) (agg_units l))).
Proof.
  intros H. unfold agg_se. rewrite (fsum_fin_map _ (fun a => psiR l a * psiR l a)) by (intros a _; rewrite psi_fin by auto; reflexivity).
  apply sqrt_fin. apply sumf_nonneg. intros; apply sq_nonneg.
Qed.

(* ---- the weight influence function ---- *)
Section Wif.
Variable size : coh -> nat.
Variable cohort : Z -> coh.
Lemma wif_constant l (effs : gte -> R) c a : wif_sum size l <> 0 -> (forall ew, In ew l -> effs (fst ew) = c) -> wif_contrib size cohort l effs a = 0.
Proof.
  intros Hs Hc. unfold wif_contrib. set (s := wif_sum size l) in *. set (isum := sumf (fun ew => wif_ind cohort a (fst ew) - wif_pg size l (fst ew)) l).
  rewrite (sumf_ext _ (fun ew => c / s * (wif_ind cohort a (fst ew) - wif_pg size l (fst ew)) - c * isum / (s * s) * wif_pg size l (fst ew))).
  2:{ intros ew Hew. rewrite Hc by auto. field. auto. }
  rewrite sumf_sub, !sumf_scal. fold isum. change (sumf (fun ew => wif_pg size l (fst ew)) l) with s. field. auto.
Qed.
Theorem agg_se_wif_value l : inf_fin l -> wif_sum size l <> 0 ->
  let p a := psiR l a + wif_contrib size cohort l (fun e => toR (ge_eff e)) a / len (agg_units l) in
  agg_se_wif size cohort l = Fin (sqrt (sumf (fun a => p a * p a) (agg_units l))).
Proof.
  intros H Hs p. unfold agg_se_wif. destruct (Req_EM_T (wif_sum size l) 0); [contradiction|].
  assert (Hf : forallb (fun ew => eff_fin (fst ew)) l = true).
  { apply forallb_forall. intros ew Hew. destruct (H ew Hew) as ((x & E) & _). unfold eff_fin. rewrite E. reflexivity. }
  rewrite Hf. rewrite (fsum_fin_map _ (fun a => p a * p a)) by (intros a _; rewrite psi_fin by auto; reflexivity).
  apply sqrt_fin. apply sumf_nonneg. intros; apply sq_nonneg.
Qed.
Theorem agg_se_wif_homogeneous l c : inf_fin l -> wif_sum size l <> 0 -> (forall ew, In ew l -> ge_eff (fst ew) = Fin c) ->
  agg_se_wif size cohort l = agg_se l.
Proof.
  intros H Hs Hc. rewrite agg_se_wif_value, agg_se_value by auto. cbv zeta. f_equal. f_equal. apply sumf_ext_all. intros a.
  rewrite (wif_constant l _ c a Hs) by (intros ew Hew; rewrite Hc by auto; reflexivity). unfold Rdiv. ring.
Qed.
End Wif.

(* ---- the two codings ---- *)
Section Recode.
Context {I : Type}.
Variable qr : list Z -> list (Z -> R) -> list nat.
Variable lstsq : list Z -> list (Z -> R) -> (Z -> R) -> list R.
Variable inv : list Z -> list (Z -> R) -> option (nat -> nat -> R).
Variable logit : list Z -> list Z -> list (Z -> R) -> option (Z -> R).
Variable sf : option Z -> fl -> fl.
Variable ppf : option Z -> R -> R.
Variables (rows : list I) (u t : I -> Z) (g g' : I -> coh) (y : I -> option R) (covs : list (I -> option R)).
Hypothesis Hre : forall i, In i rows -> g' i = g i \/ (c_never (g i) = true /\ c_never (g' i) = true).
Notation agt := (fun g => att_gt qr lstsq inv logit rows u t g y covs).
Notation effs := (fun g => all_effects qr lstsq inv logit rows u t g y covs).

Lemma re_cohort a : cs_cohort rows u g' a = cs_cohort rows u g a \/ (c_never (cs_cohort rows u g a) = true /\ c_never (cs_cohort rows u g' a) = true).
Proof.
  unfold cs_cohort, unit_cohort.
  assert (F : forall l, incl l rows ->
     let c1 := match filter (fun c => match c with CNaN => false | _ => true end) (map g' l) with [] => CNaN | c :: _ => c end in
     let c2 := match filter (fun c => match c with CNaN => false | _ => true end) (map g l) with [] => CNaN | c :: _ => c end in
     c1 = c2 \/ (c_never c2 = true /\ c_never c1 = true)).
  { induction l as [|i l IH]; intros Hl; [left; reflexivity|].
    assert (Hi : In i rows) by (apply Hl; left; auto). assert (Hl' : incl l rows) by (intros x Hx; apply Hl; right; auto).
    cbv zeta in *. cbn [map filter]. destruct (Hre i Hi) as [->|[H1 H2]].
    - destruct (g i); auto.
    - destruct (g i), (g' i); simpl in *; try discriminate; auto. }
  apply F. intros i Hi. apply filter_In in Hi; tauto.
Qed.
Lemma re_coh_never a : c_never (cs_cohort rows u g' a) = c_never (cs_cohort rows u g a).
Proof. destruct (re_cohort a) as [->|[-> ->]]; reflexivity. Qed.
Lemma never_eqb c k : c_never c = true -> k <> 0%Z -> c_eqb c (CFin k) = false.
Proof. intros H Hk. apply c_eqb_false. intros ->. simpl in H. apply Z.eqb_eq in H. auto. Qed.
Lemma re_coh_is a k : k <> 0%Z -> c_eqb (cs_cohort rows u g' a) (CFin k) = c_eqb (cs_cohort rows u g a) (CFin k).
Proof. intros Hk. destruct (re_cohort a) as [->|[H1 H2]]; [reflexivity|]. rewrite !never_eqb; auto. Qed.
Lemma re_att cfg k s : k <> 0%Z -> agt g' cfg (CFin k) s = agt g cfg (CFin k) s.
Proof.
  intros Hk. unfold att_gt. destruct (cs_base cfg (CFin k) s) as [b|]; [|reflexivity].
  assert (ET : treated_units rows u t g' y (CFin k) b s = treated_units rows u t g y (CFin k) b s).
  { unfold treated_units. apply filter_ext. intros a. rewrite re_coh_is by auto. reflexivity. }
  assert (EC : control_units rows u t g' y cfg (CFin k) b s = control_units rows u t g y cfg (CFin k) b s).
  { unfold control_units. apply filter_ext. intros a. f_equal. unfold is_control. rewrite re_coh_never. destruct (String.eqb _ _); [reflexivity|].
    destruct (re_cohort a) as [->|[-> _]]; [reflexivity|]. reflexivity. }
  rewrite ET, EC. reflexivity.
Qed.
Lemma re_n_nev : n_nev rows u g' = n_nev rows u g.
Proof.
  unfold n_nev. f_equal. apply filter_ext. intros a. unfold first_never. destruct (filter _ rows) as [|i l] eqn:E; [reflexivity|].
  assert (Hi : In i rows) by (apply (proj1 (filter_In (fun i => Z.eqb (u i) a) i rows)); rewrite E; left; reflexivity).
  destruct (Hre i Hi) as [->|[H1 H2]]; [reflexivity|]. congruence.
Qed.
Lemma re_groups_cs : exists x x', cs_groups rows g = map CFin (timing_groups rows g) ++ x /\ cs_groups rows g' = map CFin (timing_groups rows g) ++ x' /\
  (x = [] \/ x = [CInf]) /\ (x' = [] \/ x' = [CInf]).
Proof.
  unfold cs_groups. rewrite (re_groups rows g g' Hre). eexists _, _. split; [reflexivity|]. split; [reflexivity|].
  split; destruct (existsb _ _); auto.
Qed.
Definition fin_group (e : gte) : bool := match ge_g e with CFin _ => true | _ => false end.
Definition fin_key (gs : coh * Z) : bool := match fst gs with CFin _ => true | _ => false end.
Lemma fin_collect g0 cfg l : effs g0 cfg = Ok l ->
  collect (fun gs => agt g0 cfg (fst gs) (snd gs)) (flat_map (fun k => map (pair (CFin k)) (valid_periods rows t cfg (CFin k))) (timing_groups rows g0))
  = Ok (filter fin_group l).
Proof.
  intros H. unfold all_effects in H. rewrite <- (collect_filter _ fin_group fin_key _ _ H).
  - f_equal. rewrite filter_flat_map. unfold cs_groups. rewrite flat_map_app.
    match goal with |- ?L = _ => rewrite <- (app_nil_r L) end. f_equal; symmetry.
    + induction (timing_groups rows g0) as [|k L IH]; [reflexivity|]. cbn [map flat_map]. rewrite IH. f_equal.
      change (map (fun s => (CFin k, s)) (valid_periods rows t cfg (CFin k))) with (map (pair (CFin k)) (valid_periods rows t cfg (CFin k))). rewrite filter_pairs. f_equal.
      induction (valid_periods rows t cfg (CFin k)) as [|s V IHV]; [reflexivity|]. cbn. f_equal. exact IHV.
    + destruct (existsb _ _); [|reflexivity]. cbn [flat_map]. rewrite app_nil_r.
      induction (valid_periods rows t cfg CInf) as [|s V IHV]; [reflexivity|]. cbn. exact IHV.
  - intros (gr, s) e _ He. cbn [fst snd] in *. destruct (att_gt_inv _ _ _ _ _ _ _ _ _ _ _ _ _ _ He) as (Eg & _). unfold fin_group, fin_key. rewrite Eg. reflexivity.
Qed.
Theorem recode_effects cfg l l' : effs g cfg = Ok l -> effs g' cfg = Ok l' -> filter fin_group l' = filter fin_group l.
Proof.
  intros H H'. pose proof (fin_collect g cfg l H) as P. pose proof (fin_collect g' cfg l' H') as P'. rewrite (re_groups rows g g' Hre) in P'.
  rewrite (collect_ext _ (fun gs => agt g cfg (fst gs) (snd gs))) in P'.
  { pose proof (eq_trans (eq_sym P') P) as X. injection X as X. exact X. }
  intros (gr, s) Hin. cbn [fst snd]. apply in_flat_map in Hin as (k & Hk & Hin). apply in_map_iff in Hin as (s0 & E & _). injection E as <- <-.
  apply re_att. apply group_in in Hk as [Hk _]. lia.
Qed.
Lemma post_fin a l : (forall e, In e l -> ge_g e <> CNaN) -> filter (ge_post a) l = filter (ge_post a) (filter fin_group l).
Proof.
  intros H. rewrite filter_filter. apply filter_ext_in. intros e He. unfold ge_post, fin_group. specialize (H e He).
  destruct (ge_g e); cbn [before negb andb]; congruence.
Qed.
Lemma effects_not_nan g0 cfg l e : effs g0 cfg = Ok l -> In e l -> ge_g e <> CNaN.
Proof.
  intros H He. destruct (effects_In _ _ _ _ _ _ _ _ _ _ cfg l e H He) as (gr & s & Hgr & _ & Hag).
  destruct (att_gt_inv _ _ _ _ _ _ _ _ _ _ _ _ _ _ Hag) as (E & _). rewrite E. eapply groups_not_nan. exact Hgr.
Qed.
Lemma re_group_size k : k <> 0%Z -> group_size rows u g' (CFin k) = group_size rows u g (CFin k).
Proof.
  intros Hk. unfold group_size. do 3 f_equal. apply filter_ext_in. intros i Hi. destruct (Hre i Hi) as [->|[H1 H2]]; [reflexivity|].
  rewrite !never_eqb; auto.
Qed.
Lemma agg_se_wif_ext size size' cohort cohort' l :
  (forall ew, In ew l -> size (ge_g (fst ew)) = size' (ge_g (fst ew)) /\ forall a, c_eqb (cohort a) (ge_g (fst ew)) = c_eqb (cohort' a) (ge_g (fst ew))) ->
  agg_se_wif size cohort l = agg_se_wif size' cohort' l.
Proof.
  intros H. unfold agg_se_wif.
  assert (E1 : forall ew, In ew l -> wif_pg size l (fst ew) = wif_pg size' l (fst ew)).
  { intros ew Hew. unfold wif_pg. destruct (H ew Hew) as [-> _]. reflexivity. }
  assert (E2 : wif_sum size l = wif_sum size' l) by (apply sumf_ext; auto).
  rewrite E2. destruct (Req_EM_T _ 0); [reflexivity|]. destruct (forallb _ l); [|reflexivity].
  assert (E3 : forall f a, wif_contrib size cohort l f a = wif_contrib size' cohort' l f a).
  { intros f a. unfold wif_contrib. rewrite E2.
    assert (E4 : forall ew, In ew l -> wif_ind cohort a (fst ew) = wif_ind cohort' a (fst ew)).
    { intros ew Hew. unfold wif_ind. destruct (H ew Hew) as [_ Hc]. rewrite Hc. reflexivity. }
    assert (E5 : sumf (fun ew => wif_ind cohort a (fst ew) - wif_pg size l (fst ew)) l = sumf (fun ew => wif_ind cohort' a (fst ew) - wif_pg size' l (fst ew)) l).
    { apply sumf_ext. intros ew Hew. rewrite E1, E4 by auto. reflexivity. }
    rewrite E5. apply sumf_ext. intros ew Hew. rewrite E1, E4 by auto. reflexivity. }
  cbv zeta. rewrite (map_ext _ (fun a => fmul (fadd (psi l a) (Fin (wif_contrib size' cohort' l (fun e => toR (ge_eff e)) a / len (agg_units l))))
                              (fadd (psi l a) (Fin (wif_contrib size' cohort' l (fun e => toR (ge_eff e)) a / len (agg_units l)))))) by (intros a; rewrite E3; reflexivity).
  reflexivity.
Qed.
Theorem recode_overall cfg agg agg' bal bal' r r' :
  cs_fit qr lstsq inv logit sf ppf rows u t g y covs cfg agg bal [] = Ok r ->
  cs_fit qr lstsq inv logit sf ppf rows u t g' y covs cfg agg' bal' [] = Ok r' ->
  cr_att r' = cr_att r /\ cr_se r' = cr_se r /\ cr_n_control r' = cr_n_control r /\
  filter fin_group (cr_effects r') = filter fin_group (cr_effects r).
Proof.
  intros H H'. destruct (fit_inv _ _ _ _ _ _ _ _ _ _ _ _ _ _ _ _ _ H) as (_ & _ & Hl & _ & Ha & Hse & _ & _ & Hn & _).
  destruct (fit_inv _ _ _ _ _ _ _ _ _ _ _ _ _ _ _ _ _ H') as (_ & _ & Hl' & _ & Ha' & Hse' & _ & _ & Hn' & _).
  pose proof (recode_effects cfg _ _ Hl Hl') as E.
  assert (EA : agg_simple (group_size rows u g') (cs_cohort rows u g') (cs_anticipation cfg) (cr_effects r')
             = agg_simple (group_size rows u g) (cs_cohort rows u g) (cs_anticipation cfg) (cr_effects r)).
  { assert (EP : filter (ge_post (cs_anticipation cfg)) (cr_effects r') = filter (ge_post (cs_anticipation cfg)) (cr_effects r)).
    { rewrite (post_fin _ (cr_effects r')) by (intros e He; eapply (effects_not_nan g'); eauto).
      rewrite (post_fin _ (cr_effects r)) by (intros e He; eapply (effects_not_nan g); eauto). rewrite E. reflexivity. }
    unfold agg_simple. rewrite EP. destruct (filter (ge_post (cs_anticipation cfg)) (cr_effects r)) as [|e0 l0] eqn:E0; [reflexivity|]. f_equal.
    apply agg_se_wif_ext. intros ew Hew. apply in_map_iff in Hew as (e & <- & He). cbn [fst]. rewrite <- E0 in He.
    apply filter_In in He as [He Hp]. destruct (effects_In _ _ _ _ _ _ _ _ _ _ cfg _ e Hl He) as (gr & s & Hgr & _ & Hag).
    destruct (att_gt_inv _ _ _ _ _ _ _ _ _ _ _ _ _ _ Hag) as (Eg & _). rewrite Eg.
    unfold ge_post in Hp. rewrite Eg in Hp. destruct gr as [k| |]; try discriminate.
    - assert (Hk : k <> 0%Z).
      { unfold cs_groups in Hgr. apply in_app_iff in Hgr as [Hgr|Hgr].
        - apply in_map_iff in Hgr as (z & Ez & Hz). injection Ez as ->. apply group_in in Hz as [Hz _]. lia.
        - destruct (existsb _ _); [destruct Hgr as [?|[]]; discriminate|contradiction]. }
      split; [apply re_group_size; auto|intros a; apply re_coh_is; auto].
    - exfalso. eapply groups_not_nan; eauto. }
  rewrite Ha', Ha, (Hse' eq_refl), (Hse eq_refl), EA, Hn', Hn. split; [reflexivity|]. split; [reflexivity|]. split; [apply re_n_nev|exact E].
Qed.
(* what the codings do change: a unit coded inf is counted as treated as well *)
Theorem inf_counted_as_treated :
  n_gt0 rows u g = (length (filter (fun a => match cs_cohort rows u g a with CFin k => Z.ltb 0 k | _ => false end) (cs_units rows u))
                  + length (filter (fun a => match cs_cohort rows u g a with CInf => true | _ => false end) (cs_units rows u)))%nat.
Proof.
  unfold n_gt0. induction (cs_units rows u) as [|a l IH]; [reflexivity|]. cbn [filter].
  destruct (cs_cohort rows u g a) as [k| |]; cbn [c_gt]; [destruct (Z.ltb 0 k)| |]; cbn [length]; rewrite IH; lia.
Qed.
End Recode.

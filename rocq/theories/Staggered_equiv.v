(* CallawaySantAnna under y -> c y + alpha_unit + lambda_period (c > 0): aggregation, bootstrap, fit. *)
From Verif Require Import Prelude Flt Stats_model Stats_proofs Linalg_model Linalg_proofs Linalg_vcov Linalg_thms Did_model Did_proofs Multi_model Multi_proofs Multi_thms Bacon_model Staggered_model Staggered_proofs Staggered_est Scale_flt Staggered_scale.
From Coq Require Import Arith ZArith String List.
Import ListNotations.
Open Scope R_scope.

(* the same cell: effect, standard error and the influence values of its units multiplied by c *)
Definition gte_rel (c : R) (e e' : gte) : Prop :=
  ge_g e' = ge_g e /\ ge_t e' = ge_t e /\ ge_base e' = ge_base e /\ ge_T e' = ge_T e /\ ge_C e' = ge_C e /\
  ge_eff e' = sc c (ge_eff e) /\ ge_se e' = sc c (ge_se e) /\
  (forall a, In a (ge_T e) -> ge_tinf e' a = sc c (ge_tinf e a)) /\ (forall a, In a (ge_C e) -> ge_cinf e' a = sc c (ge_cinf e a)).
Definition sc2 (c : R) (p : fl * fl) : fl * fl := (sc c (fst p), sc c (snd p)).
(* a reported effect: estimate, standard error and interval multiplied by c, the test unchanged *)
Definition eff_rel (c : R) (x x' : cs_eff) : Prop :=
  ef_eff x' = sc c (ef_eff x) /\ ef_se x' = sc c (ef_se x) /\ ef_t x' = ef_t x /\ ef_p x' = ef_p x /\ ef_ci x' = sc2 c (ef_ci x) /\ ef_n x' = ef_n x.
Definition stats_rel (c : R) (s s' : boot_stats) : Prop :=
  bs_se s' = sc c (bs_se s) /\ bs_ci s' = sc2 c (bs_ci s) /\ bs_p s' = bs_p s.
Definition keyed {K A} (P : A -> A -> Prop) (x x' : K * A) : Prop := fst x' = fst x /\ P (snd x) (snd x').
Definition boot_rel (c : R) (b b' : cs_boot) : Prop :=
  Forall2 (keyed (stats_rel c)) (cb_gt b) (cb_gt b') /\ stats_rel c (cb_overall b) (cb_overall b') /\
  cb_dist b' = map (sc c) (cb_dist b) /\ Forall2 (keyed (stats_rel c)) (cb_es b) (cb_es b') /\ Forall2 (keyed (stats_rel c)) (cb_group b) (cb_group b').
Definition opt_rel {A} (P : A -> A -> Prop) (x x' : option A) : Prop :=
  match x, x' with Some a, Some b => P a b | None, None => True | _, _ => False end.
Definition result_rel (c : R) (r r' : cs_result) : Prop :=
  Forall2 (gte_rel c) (cr_effects r) (cr_effects r') /\ Forall2 (eff_rel c) (cr_reports r) (cr_reports r') /\
  cr_att r' = sc c (cr_att r) /\ cr_se r' = sc c (cr_se r) /\ cr_t r' = cr_t r /\ cr_p r' = cr_p r /\ cr_ci r' = sc2 c (cr_ci r) /\
  cr_groups r' = cr_groups r /\ cr_periods r' = cr_periods r /\ cr_n_obs r' = cr_n_obs r /\ cr_n_treated r' = cr_n_treated r /\ cr_n_control r' = cr_n_control r /\
  opt_rel (Forall2 (keyed (eff_rel c))) (cr_es r) (cr_es r') /\ opt_rel (Forall2 (keyed (eff_rel c))) (cr_group r) (cr_group r') /\
  opt_rel (boot_rel c) (cr_boot r) (cr_boot r').

(* ---- Forall2 ---- *)
Lemma F2_map {A B A' B'} (P : A -> B -> Prop) (Q : A' -> B' -> Prop) f h l l' : (forall a b, P a b -> Q (f a) (h b)) -> Forall2 P l l' -> Forall2 Q (map f l) (map h l').
Proof. intros H F. induction F; simpl; constructor; auto. Qed.
Lemma F2_filter {A B} (P : A -> B -> Prop) p q l l' : (forall a b, P a b -> p a = q b) -> Forall2 P l l' -> Forall2 P (filter p l) (filter q l').
Proof. intros H F. induction F as [|a b l l' Hab F IH]; simpl; [constructor|]. rewrite <- (H a b Hab). destruct (p a); [constructor; auto|auto]. Qed.
Lemma F2_map_eq {A B C} (P : A -> B -> Prop) (f : A -> C) (h : B -> C) l l' : (forall a b, P a b -> h b = f a) -> Forall2 P l l' -> map h l' = map f l.
Proof. intros H F. induction F as [|a b l l' Hab F IH]; simpl; [reflexivity|]. rewrite IH, (H a b Hab). reflexivity. Qed.
Lemma F2_flat_eq {A B C} (P : A -> B -> Prop) (f : A -> list C) (h : B -> list C) l l' : (forall a b, P a b -> h b = f a) -> Forall2 P l l' -> flat_map h l' = flat_map f l.
Proof. intros H F. induction F as [|a b l l' Hab F IH]; simpl; [reflexivity|]. rewrite IH, (H a b Hab). reflexivity. Qed.
Lemma F2_sumf {A B} (P : A -> B -> Prop) (f : A -> R) (h : B -> R) l l' : (forall a b, P a b -> h b = f a) -> Forall2 P l l' -> sumf h l' = sumf f l.
Proof. intros H F. induction F as [|a b l l' Hab F IH]; cbn [sumf]; [reflexivity|]. rewrite IH, (H a b Hab). reflexivity. Qed.
Lemma F2_len {A B} (P : A -> B -> Prop) l l' : Forall2 P l l' -> length l' = length l.
Proof. intros F. induction F; simpl; auto. Qed.
Lemma F2_existsb {A B} (P : A -> B -> Prop) p q l l' : (forall a b, P a b -> q b = p a) -> Forall2 P l l' -> existsb q l' = existsb p l.
Proof. intros H F. induction F as [|a b l l' Hab F IH]; simpl; [reflexivity|]. rewrite IH, (H a b Hab). reflexivity. Qed.
Lemma F2_forallb {A B} (P : A -> B -> Prop) p q l l' : (forall a b, P a b -> q b = p a) -> Forall2 P l l' -> forallb q l' = forallb p l.
Proof. intros H F. induction F as [|a b l l' Hab F IH]; simpl; [reflexivity|]. rewrite IH, (H a b Hab). reflexivity. Qed.
Lemma F2_refl {A} (P : A -> A -> Prop) l : (forall a, In a l -> P a a) -> Forall2 P l l.
Proof. induction l; intros H; constructor; auto with datatypes. Qed.
Lemma F2_app {A B} (P : A -> B -> Prop) l l' m m' : Forall2 P l l' -> Forall2 P m m' -> Forall2 P (l ++ m) (l' ++ m').
Proof. intros F G. induction F; simpl; auto. Qed.
Lemma F2_mapmap {K A B} (Q : A -> B -> Prop) (f : K -> A) (h : K -> B) l : (forall k, In k l -> Q (f k) (h k)) -> Forall2 Q (map f l) (map h l).
Proof. induction l; intros H; simpl; constructor; auto with datatypes. Qed.

Section Rel.
Variable c : R.
Hypothesis Hc : 0 < c.
Notation grel := (gte_rel c).
Definition wrel (p p' : gte * R) : Prop := grel (fst p) (fst p') /\ snd p' = snd p.

Lemma rel_n e e' : grel e e' -> ge_n e' = ge_n e.
Proof. intros (_ & _ & _ & ET & _). unfold ge_n. rewrite ET. reflexivity. Qed.
Lemma by_size_rel l l' : Forall2 grel l l' -> Forall2 wrel (by_size l) (by_size l').
Proof.
  intros F. unfold by_size. rewrite (F2_sumf grel ge_n ge_n l l' rel_n F). eapply F2_map; [|exact F].
  intros a b H. split; [exact H|]. cbn [snd]. rewrite (rel_n a b H). reflexivity.
Qed.
Lemma equally_rel l l' : Forall2 grel l l' -> Forall2 wrel (equally l) (equally l').
Proof.
  intros F. unfold equally, len. rewrite (F2_len _ _ _ F). eapply F2_map; [|exact F]. intros a b H. split; [exact H|reflexivity].
Qed.
Lemma weighted_rel l l' : Forall2 wrel l l' -> weighted l' = sc c (weighted l).
Proof.
  intros F. unfold weighted. rewrite <- (sc_sum c Hc), map_map. f_equal. eapply F2_map_eq; [|exact F].
  intros a b (G & E). destruct G as (_ & _ & _ & _ & _ & Ee & _). rewrite E, Ee. apply (sc_mul c Hc).
Qed.
Lemma agg_units_rel l l' : Forall2 wrel l l' -> agg_units l' = agg_units l.
Proof.
  intros F. unfold agg_units. do 2 f_equal. eapply F2_flat_eq; [|exact F].
  intros a b ((_ & _ & _ & ET & EC & _) & _). rewrite ET, EC. reflexivity.
Qed.
Lemma psi_rel l l' a : Forall2 wrel l l' -> psi l' a = sc c (psi l a).
Proof.
  intros F. unfold psi. rewrite <- (sc_sum c Hc). f_equal. induction F as [|p p' l l' H F IH]; cbn [flat_map map]; [reflexivity|].
  rewrite map_app, IH. f_equal. destruct H as ((_ & _ & _ & ET & EC & _ & _ & Ht & Hci) & Ew).
  rewrite ET, EC, Ew, map_app. f_equal.
  - destruct (zmem a (ge_T (fst p))) eqn:E; [|reflexivity]. apply zmem_true in E. rewrite (Ht a E). cbn [map]. rewrite (sc_mul c Hc). reflexivity.
  - destruct (zmem a (ge_C (fst p))) eqn:E; [|reflexivity]. apply zmem_true in E. rewrite (Hci a E). cbn [map]. rewrite (sc_mul c Hc). reflexivity.
Qed.
Lemma root_rel (f f' : Z -> fl) l : (forall a, f' a = sc c (f a)) -> fsqrt (fsum (map (fun a => fmul (f' a) (f' a)) l)) = sc c (fsqrt (fsum (map (fun a => fmul (f a) (f a)) l))).
Proof.
  intros H. assert (H2 : 0 < c * c) by (apply Rmult_lt_0_compat; exact Hc).
  rewrite <- (sc_sqrt c Hc), <- (sc_sum (c * c) H2), map_map. do 2 f_equal. apply map_ext. intros a. rewrite H. apply (sc_sq c Hc).
Qed.
Lemma agg_se_rel l l' : Forall2 wrel l l' -> agg_se l' = sc c (agg_se l).
Proof. intros F. unfold agg_se. rewrite (agg_units_rel l l' F). apply root_rel. intros a. apply psi_rel. exact F. Qed.

Lemma wif_rel size cohort l l' : Forall2 wrel l l' -> agg_se_wif size cohort l' = sc c (agg_se_wif size cohort l).
Proof.
  intros F. unfold agg_se_wif.
  assert (Hpg : forall p p', wrel p p' -> wif_pg size l' (fst p') = wif_pg size l (fst p)).
  { intros p p' ((Eg & _) & _). unfold wif_pg. rewrite Eg, (agg_units_rel l l' F). reflexivity. }
  assert (ES : wif_sum size l' = wif_sum size l) by (unfold wif_sum; apply (F2_sumf wrel); [exact Hpg|exact F]).
  rewrite ES. destruct (Req_EM_T (wif_sum size l) 0); [rewrite sc_fin; apply (f_equal Fin); ring|].
  rewrite (F2_forallb wrel (fun ew => eff_fin (fst ew)) (fun ew => eff_fin (fst ew)) l l'); [| |exact F].
  2:{ intros p p' ((_ & _ & _ & _ & _ & Ee & _) & _). unfold eff_fin. rewrite Ee. destruct (ge_eff (fst p)); try reflexivity;
        [rewrite (sc_pinf c Hc)|rewrite (sc_ninf c Hc)]; reflexivity. }
  destruct (forallb (fun ew => eff_fin (fst ew)) l) eqn:EF; [|reflexivity].
  rewrite (agg_units_rel l l' F). apply root_rel. intros a. rewrite (psi_rel l l' a F), (sc_add c Hc). f_equal. rewrite sc_fin. apply (f_equal Fin).
  assert (EW : wif_contrib size cohort l' (fun e => toR (ge_eff e)) a = c * wif_contrib size cohort l (fun e => toR (ge_eff e)) a).
  { unfold wif_contrib. cbv zeta. rewrite ES.
    rewrite (F2_sumf wrel (fun ew => wif_ind cohort a (fst ew) - wif_pg size l (fst ew)) (fun ew => wif_ind cohort a (fst ew) - wif_pg size l' (fst ew)) l l'); [| |exact F].
    2:{ intros p p' H. rewrite (Hpg p p' H). destruct H as ((Eg & _) & _). unfold wif_ind. rewrite Eg. reflexivity. }
    rewrite <- sumf_scal. rewrite forallb_forall in EF.
    assert (FI : Forall2 (fun p p' => wrel p p' /\ In p l) l l').
    { clear -F. assert (G : forall m m', Forall2 wrel m m' -> incl m l -> Forall2 (fun p p' => wrel p p' /\ In p l) m m').
      { intros m m' Fm. induction Fm; intros Hi; constructor; [split; [assumption|apply Hi; left; reflexivity]|apply IHFm; intros z Hz; apply Hi; right; exact Hz]. }
      apply G; [exact F|apply incl_refl]. }
    apply (F2_sumf (fun p p' => wrel p p' /\ In p l)); [|exact FI].
    intros p p' [H Hin]. rewrite (Hpg p p' H). destruct H as ((Eg & _ & _ & _ & _ & Ee & _) & _). unfold wif_ind. rewrite Eg, Ee.
    specialize (EF p Hin). unfold eff_fin in EF. destruct (ge_eff (fst p)); try discriminate. rewrite sc_fin. cbn [toR]. ring. }
  rewrite EW. unfold Rdiv. ring.
Qed.

Lemma post_rel a e e' : grel e e' -> ge_post a e = ge_post a e'.
Proof. intros (Eg & Et & _). unfold ge_post. rewrite Eg, Et. reflexivity. Qed.
Lemma rel_time_rel e e' : grel e e' -> rel_time e' = rel_time e.
Proof. intros (Eg & Et & _). unfold rel_time. rewrite Eg, Et. reflexivity. Qed.
Lemma agg_simple_rel size cohort a l l' : Forall2 grel l l' -> agg_simple size cohort a l' = sc2 c (agg_simple size cohort a l).
Proof.
  intros F. unfold agg_simple. pose proof (F2_filter grel (ge_post a) (ge_post a) l l' (post_rel a) F) as G.
  destruct G as [|e e' m m' He G]; [reflexivity|]. assert (G' : Forall2 grel (e :: m) (e' :: m')) by (constructor; assumption).
  pose proof (by_size_rel _ _ G') as W. unfold sc2. cbn [fst snd]. rewrite (weighted_rel _ _ W), (wif_rel size cohort _ _ W). reflexivity.
Qed.
Lemma rel_keys_rel l l' : Forall2 grel l l' -> rel_keys l' = rel_keys l.
Proof.
  intros F. unfold rel_keys. f_equal.
  - rewrite (F2_existsb grel (fun e => negb (is_some (rel_time e))) (fun e => negb (is_some (rel_time e))) l l'); [reflexivity| |exact F].
    intros a b H. rewrite (rel_time_rel a b H). reflexivity.
  - do 3 f_equal. eapply F2_flat_eq; [|exact F]. intros a b H. cbv beta. rewrite (rel_time_rel a b H). reflexivity.
Qed.
Lemma balanced_rel bal l l' : Forall2 grel l l' -> Forall2 grel (balanced_effects bal l) (balanced_effects bal l').
Proof.
  intros F. unfold balanced_effects. destruct bal as [b|]; [|exact F].
  assert (E : map ge_g (filter (fun e => oz_eqb (rel_time e) (Some b)) l') = map ge_g (filter (fun e => oz_eqb (rel_time e) (Some b)) l)).
  { eapply F2_map_eq; [|apply F2_filter; [|exact F]]. { intros x y (Eg & _). exact Eg. } intros x y H. rewrite (rel_time_rel x y H). reflexivity. }
  rewrite E. apply F2_filter; [|exact F]. intros x y (Eg & _). rewrite Eg. reflexivity.
Qed.
Lemma cells_at_rel l l' e : Forall2 grel l l' -> Forall2 grel (cells_at l e) (cells_at l' e).
Proof. intros F. apply F2_filter; [|exact F]. intros x y H. rewrite (rel_time_rel x y H). reflexivity. Qed.
Lemma group_cells_rel a l l' g : Forall2 grel l l' -> Forall2 grel (group_cells a l g) (group_cells a l' g).
Proof. intros F. apply F2_filter; [|exact F]. intros x y H. rewrite (post_rel a x y H). destruct H as (Eg & _). rewrite Eg. reflexivity. Qed.

Section Report.
Variable sf : option Z -> fl -> fl.
Variable ppf : option Z -> R -> R.
Lemma cs_t_rel eff se : cs_t (sc c eff) (sc c se) = cs_t eff se.
Proof.
  destruct se as [s| | |]; [|reflexivity|rewrite (sc_pinf c Hc); reflexivity|rewrite (sc_ninf c Hc); reflexivity].
  rewrite sc_fin. unfold cs_t. destruct (Rlt_dec 0 s) as [H|H], (Rlt_dec 0 (c * s)) as [H'|H']; try reflexivity.
  - apply (sc_div c Hc). exact H.
  - exfalso. apply H'. apply Rmult_lt_0_compat; assumption.
  - exfalso. apply H. destruct (Rlt_le_dec 0 s) as [|L]; [assumption|]. exfalso. assert (0 <= c * - s) by (apply Rmult_le_pos; lra). lra.
Qed.
Lemma u_ci_rel eff se alpha df : u_ci ppf (sc c eff) (sc c se) alpha df = sc2 c (u_ci ppf eff se alpha df).
Proof.
  unfold u_ci, sc2. cbn [fst snd]. destruct (u_ppf ppf df (1 - alpha / 2)) as [q| | |] eqn:E.
  - rewrite (sc_mul c Hc), (sc_sub c Hc), (sc_add c Hc). reflexivity.
  - rewrite !fmul_nan_l. unfold fsub. cbn [fneg]. rewrite !fadd_nan_r. reflexivity.
  - unfold u_ppf in E. destruct df as [d|]; [destruct (Z.ltb 0 d)|]; discriminate.
  - unfold u_ppf in E. destruct df as [d|]; [destruct (Z.ltb 0 d)|]; discriminate.
Qed.
Lemma report_rel alpha eff eff' se se' n : eff' = sc c eff -> se' = sc c se -> eff_rel c (cs_report sf ppf alpha eff se n) (cs_report sf ppf alpha eff' se' n).
Proof.
  intros -> ->. unfold eff_rel, cs_report. cbn [ef_eff ef_se ef_t ef_p ef_ci ef_n]. rewrite cs_t_rel, u_ci_rel. repeat split.
Qed.
Lemma nonempty_len {A B} (l : list A) (m : list B) : length l = length m -> nonempty l = nonempty m.
Proof. destruct l, m; simpl; intros; congruence. Qed.
Lemma es_rel cfg bal l l' : Forall2 grel l l' -> Forall2 (keyed (eff_rel c)) (agg_event_study sf ppf cfg bal l) (agg_event_study sf ppf cfg bal l').
Proof.
  intros F0. unfold agg_event_study. cbv zeta. pose proof (balanced_rel bal l l' F0) as F. rewrite (rel_keys_rel _ _ F).
  set (m := balanced_effects bal l) in *. set (m' := balanced_effects bal l') in *.
  set (E := map (fun e => (e, es_effect sf ppf (cs_alpha cfg) m e)) (rel_keys m)). set (E' := map (fun e => (e, es_effect sf ppf (cs_alpha cfg) m' e)) (rel_keys m)).
  assert (FE : Forall2 (keyed (eff_rel c)) E E').
  { apply F2_mapmap. intros e _. split; [reflexivity|]. cbn [snd]. unfold es_effect. cbv zeta.
    pose proof (by_size_rel _ _ (cells_at_rel m m' e F)) as W. rewrite (F2_len _ _ _ W). apply report_rel; [apply weighted_rel|apply agg_se_rel]; exact W. }
  rewrite (nonempty_len E' E) by (apply (F2_len _ _ _ FE)).
  rewrite (F2_existsb (keyed (eff_rel c)) (fun p => oz_eqb (fst p) (Some (-1 - cs_anticipation cfg)%Z)) (fun p => oz_eqb (fst p) (Some (-1 - cs_anticipation cfg)%Z)) E E'); [| |exact FE].
  2:{ intros p p' [Ek _]. rewrite Ek. reflexivity. }
  destruct (_ && _ && _)%bool; [|exact FE]. apply F2_app; [exact FE|]. constructor; [|constructor]. split; [reflexivity|].
  cbn [snd]. unfold eff_rel, es_reference. cbn [ef_eff ef_se ef_t ef_p ef_ci ef_n]. repeat split. rewrite sc_fin. apply (f_equal Fin). ring.
Qed.
Lemma group_rel cfg groups l l' : Forall2 grel l l' -> Forall2 (keyed (eff_rel c)) (agg_by_group sf ppf cfg groups l) (agg_by_group sf ppf cfg groups l').
Proof.
  intros F. unfold agg_by_group. induction groups as [|g groups IH]; cbn [flat_map]; [constructor|]. apply F2_app; [|exact IH].
  pose proof (group_cells_rel (cs_anticipation cfg) l l' g F) as G. destruct G as [|e e' m m' He G]; [constructor|].
  assert (G' : Forall2 grel (e :: m) (e' :: m')) by (constructor; assumption). pose proof (equally_rel _ _ G') as W.
  constructor; [|constructor]. split; [reflexivity|]. cbn [snd]. rewrite (F2_len _ _ _ W). apply report_rel; [apply weighted_rel|apply agg_se_rel]; exact W.
Qed.
End Report.

(* ---- bootstrap ---- *)
Lemma boot_gt_rel w e e' : grel e e' -> boot_gt w e' = sc c (boot_gt w e).
Proof.
  intros (_ & _ & _ & ET & EC & Ee & _ & Ht & Hci). unfold boot_gt. rewrite Ee, ET, EC, !(sc_add c Hc), <- !(sc_sum c Hc), !map_map.
  do 3 f_equal; apply map_ext_in; intros a Ha; [rewrite (Ht a Ha)|rewrite (Hci a Ha)]; apply (sc_mul c Hc).
Qed.
Lemma boot_agg_rel w l l' : Forall2 wrel l l' -> boot_agg w l' = sc c (boot_agg w l).
Proof.
  intros F. unfold boot_agg. rewrite <- (sc_sum c Hc), map_map. f_equal. eapply F2_map_eq; [|exact F].
  intros p p' (G & Ew). rewrite Ew, (boot_gt_rel w _ _ G). apply (sc_mul c Hc).
Qed.
Lemma fin_values_sc d : fin_values (map (sc c) d) = map (Rmult c) (fin_values d).
Proof.
  induction d as [|x d IH]; [reflexivity|]. unfold fin_values in *. cbn [map flat_map]. rewrite IH, map_app. f_equal.
  destruct x; [reflexivity|reflexivity|rewrite (sc_pinf c Hc); reflexivity|rewrite (sc_ninf c Hc); reflexivity].
Qed.
Lemma stats_scale alpha orig d : 0 <= alpha <= 1 -> d <> [] ->
  stats_rel c (boot_effect_stats alpha orig d) (boot_effect_stats alpha (sc c orig) (map (sc c) d)).
Proof.
  intros Ha Hd. unfold boot_effect_stats. cbv zeta. rewrite fin_values_sc. set (v := fin_values d).
  assert (El : len (map (Rmult c) v) = len v) by (unfold len; rewrite map_length; reflexivity).
  assert (Ed : len (map (sc c) d) = len d) by (unfold len; rewrite map_length; reflexivity). rewrite El, Ed.
  destruct (Rlt_dec (len v) (len d * (1 / 2))) as [H|H]; [repeat split|].
  assert (Hv : v <> []). { intros Ev. apply H. rewrite Ev. pose proof (len_pos d Hd). unfold len at 1. cbn [length INR]. lra. }
  unfold stats_rel. cbn [bs_se bs_ci bs_p]. split.
  { rewrite (sumsq_sc c), <- (sc_sqrt c Hc). f_equal. cbn [fdiv]. unfold sc. destruct (Req_EM_T (len v - 1) 0) as [E|E].
    - assert (L1 : length v = 1%nat). { apply INR_eq. unfold len in E. cbn [INR]. lra. }
      destruct v as [|x [|z v']]; try discriminate. assert (E0 : sumsq_dev [x] = 0). { unfold sumsq_dev, meanf, len, idR. cbn [sumf length INR]. field. }
      rewrite E0. replace (c * c * 0) with 0 by ring. unfold fsgn_inf. destruct (Rlt_dec 0 0) as [Q|Q]; [lra|]. reflexivity.
    - cbn [fmul]. apply (f_equal Fin). field. lra. }
  split.
  { unfold sc2. cbn [fst snd]. rewrite !(percentile_sc c Hc) by (auto; lra). reflexivity. }
  apply (f_equal Fin). unfold boot_pvalue. rewrite (sc_ge0 c Hc), El, (share_le0_sc c Hc), (share_ge0_sc c Hc). reflexivity.
Qed.
Lemma stats_scale' alpha orig orig' ws (f f' : (Z -> R) -> fl) : 0 <= alpha <= 1 -> ws <> [] -> orig' = sc c orig -> (forall w, f' w = sc c (f w)) ->
  stats_rel c (boot_effect_stats alpha orig (map f ws)) (boot_effect_stats alpha orig' (map f' ws)).
Proof.
  intros Ha Hw -> Hf. rewrite (map_ext f' (fun w => sc c (f w)) Hf), <- (map_map f (sc c)). apply stats_scale; [exact Ha|].
  destruct ws; [congruence|discriminate].
Qed.
Lemma bootstrap_rel cfg ws groups es grp bal l l' : 0 <= cs_alpha cfg <= 1 -> ws <> [] -> Forall2 grel l l' ->
  boot_rel c (run_bootstrap cfg ws groups es grp bal l) (run_bootstrap cfg ws groups es grp bal l').
Proof.
  intros Ha Hw F. unfold run_bootstrap, boot_rel. cbv zeta. cbn [cb_gt cb_overall cb_dist cb_es cb_group].
  pose proof (F2_filter grel (ge_post (cs_anticipation cfg)) (ge_post (cs_anticipation cfg)) l l' (post_rel _) F) as P.
  split.
  { eapply F2_map; [|exact F]. intros e e' H. split.
    - destruct H as (Eg & Et & _). cbn [fst]. rewrite Eg, Et. reflexivity.
    - cbn [snd]. apply stats_scale'; [exact Ha|exact Hw| |intros w; apply boot_gt_rel; exact H]. apply H. }
  split.
  { destruct P as [|e e' m m' He P]; [repeat split|]. assert (P' : Forall2 grel (e :: m) (e' :: m')) by (constructor; assumption).
    pose proof (by_size_rel _ _ P') as W. apply stats_scale'; [exact Ha|exact Hw|apply weighted_rel; exact W|intros w; apply boot_agg_rel; exact W]. }
  split.
  { destruct P as [|e e' m m' He P]; [rewrite map_map; apply map_ext; reflexivity|]. assert (P' : Forall2 grel (e :: m) (e' :: m')) by (constructor; assumption).
    pose proof (by_size_rel _ _ P') as W. rewrite map_map. apply map_ext. intros w. apply boot_agg_rel. exact W. }
  split.
  { destruct es; [|constructor]. unfold prepare_es. cbv zeta. pose proof (balanced_rel bal l l' F) as B. rewrite (rel_keys_rel _ _ B), !map_map.
    apply F2_mapmap. intros k _. split; [reflexivity|]. cbn [fst snd]. pose proof (by_size_rel _ _ (cells_at_rel _ _ k B)) as W.
    apply stats_scale'; [exact Ha|exact Hw|apply weighted_rel; exact W|intros w; apply boot_agg_rel; exact W]. }
  destruct grp; [|constructor]. unfold prepare_group. induction groups as [|g groups IH]; cbn [flat_map]; [constructor|].
  rewrite !map_app. apply F2_app; [|exact IH].
  pose proof (group_cells_rel (cs_anticipation cfg) l l' g F) as G. destruct G as [|e e' m m' He G]; [constructor|].
  assert (G' : Forall2 grel (e :: m) (e' :: m')) by (constructor; assumption). pose proof (equally_rel _ _ G') as W.
  constructor; [|constructor]. split; [reflexivity|]. cbn [fst snd].
  apply stats_scale'; [exact Ha|exact Hw|apply weighted_rel; exact W|intros w; apply boot_agg_rel; exact W].
Qed.
End Rel.

(* ---- fit ---- *)
Section Fit.
Context {I : Type}.
Variable qr : list Z -> list (Z -> R) -> list nat.
Variable lstsq : list Z -> list (Z -> R) -> (Z -> R) -> list R.
Variable inv : list Z -> list (Z -> R) -> option (nat -> nat -> R).
Variable logit : list Z -> list Z -> list (Z -> R) -> option (Z -> R).
Variable sf : option Z -> fl -> fl.
Variable ppf : option Z -> R -> R.
Hypothesis Hqr : qr_ok qr.
Hypothesis Hls : lstsq_ok lstsq.
Variables (rows : list I) (u t : I -> Z) (g : I -> coh) (y y' : I -> option R) (covs : list (I -> option R)).
Variables (c : R) (al la : Z -> R).
Hypothesis Hc : 0 < c.
Hypothesis Hy : forall i, In i rows -> y' i = match y i with Some v => Some (c * v + al (u i) + la (t i)) | None => None end.
Notation fit y := (cs_fit qr lstsq inv logit sf ppf rows u t g y covs).
Notation agt y := (att_gt qr lstsq inv logit rows u t g y covs).

Lemma outcome_shift a p : cs_outcome rows u t y' a p = match cs_outcome rows u t y a p with Some v => Some (c * v + al a + la p) | None => None end.
Proof.
  unfold cs_outcome. destruct (cell_rows rows u t a p) as [|i r] eqn:E; [reflexivity|].
  assert (Hi : In i (cell_rows rows u t a p)) by (rewrite E; left; reflexivity). unfold cell_rows in Hi. apply filter_In in Hi as [Hi Hk].
  apply andb_true_iff in Hk as [H1 H2]. apply Z.eqb_eq in H1, H2. rewrite (Hy i Hi), H1, H2. reflexivity.
Qed.
Lemma has_pair_shift b s a : has_pair rows u t y' b s a = has_pair rows u t y b s a.
Proof. unfold has_pair. rewrite !outcome_shift. destruct (cs_outcome rows u t y a b), (cs_outcome rows u t y a s); reflexivity. Qed.
Lemma change_shift b s a : has_pair rows u t y b s a = true -> change rows u t y' b s a = c * change rows u t y b s a + (la s - la b).
Proof.
  unfold has_pair, change. rewrite !outcome_shift. destruct (cs_outcome rows u t y a b), (cs_outcome rows u t y a s); try discriminate.
  intros _. cbn [oR]. ring.
Qed.

Lemma att_gt_scale cfg gr s : res_rel (opt_rel (gte_rel c)) (agt y cfg gr s) (agt y' cfg gr s).
Proof.
  unfold att_gt. destruct (cs_base cfg gr s) as [b|]; [|exact Logic.I].
  destruct (negb (zmem b (cs_periods rows t))); [exact Logic.I|]. destruct (negb (zmem s (cs_periods rows t))); [exact Logic.I|].
  assert (ET : treated_units rows u t g y' gr b s = treated_units rows u t g y gr b s).
  { unfold treated_units. apply filter_ext. intros a. rewrite has_pair_shift. reflexivity. }
  assert (EC : control_units rows u t g y' cfg gr b s = control_units rows u t g y cfg gr b s).
  { unfold control_units. apply filter_ext. intros a. rewrite has_pair_shift. reflexivity. }
  cbv zeta. rewrite ET, EC. remember (treated_units rows u t g y gr b s) as T eqn:HT. remember (control_units rows u t g y cfg gr b s) as C eqn:HC.
  destruct T as [|a0 T0] eqn:E0; [exact Logic.I|]. rewrite <- E0 in *. destruct C as [|c0 C0] eqn:E1; [destruct T; exact Logic.I|]. rewrite <- E1 in *.
  assert (NT : T <> []) by congruence. assert (NC : C <> []) by congruence. clear E0 E1.
  assert (HS := est_scale qr lstsq inv logit Hqr Hls c (la s - la b) Hc cfg T C (change rows u t y b s) (change rows u t y' b s)
                   (cov_columns rows u t covs b (T ++ C)) NT NC).
  assert (HD : forall a, In a T \/ In a C -> change rows u t y' b s a = c * change rows u t y b s a + (la s - la b)).
  { intros a [Ha|Ha]; apply change_shift; [rewrite HT in Ha|rewrite HC in Ha]; apply filter_In in Ha as [_ Ha]; apply andb_true_iff in Ha; apply Ha. }
  specialize (HS HD). destruct T as [|a1 T1]; [congruence|]. destruct C as [|c1 C1]; [congruence|].
  destruct (estimate _ _ _ _ _ _ _ (change rows u t y b s) _) as [e|], (estimate _ _ _ _ _ _ _ (change rows u t y' b s) _) as [e'|];
    try contradiction HS; [|exact HS]. cbn [bind res_rel opt_rel]. destruct HS as (H1 & H2 & H3 & H4).
  unfold gte_rel. cbn [ge_g ge_t ge_base ge_T ge_C ge_eff ge_se ge_tinf ge_cinf]. repeat (split; [solve [reflexivity|assumption]|]). assumption.
Qed.

Lemma collect_rel {A B} (P : B -> B -> Prop) (f f' : A -> res (option B)) l : (forall a, res_rel (opt_rel P) (f a) (f' a)) ->
  res_rel (Forall2 P) (collect f l) (collect f' l).
Proof.
  intros H. induction l as [|a l IH]; cbn [collect]; [constructor|]. specialize (H a).
  destruct (f a) as [o|], (f' a) as [o'|]; try contradiction H; cbn [bind]; [|exact H].
  destruct (collect f l) as [bs|], (collect f' l) as [bs'|]; try contradiction IH; cbn [bind res_rel] in *; [|exact IH].
  destruct o as [b|], o' as [b'|]; try contradiction H; cbn [opt_rel] in H; auto.
Qed.

Theorem cs_fit_equivariant cfg agg bal ws : (ws = [] \/ 0 <= cs_alpha cfg <= 1) ->
  res_rel (result_rel c) (fit y cfg agg bal ws) (fit y' cfg agg bal ws).
Proof.
  intros Hw. unfold cs_fit. destruct (Nat.eqb (n_nev rows u g) 0); [reflexivity|]. destruct (cs_duplicates rows u t); [reflexivity|].
  assert (HE : res_rel (Forall2 (gte_rel c)) (all_effects qr lstsq inv logit rows u t g y covs cfg) (all_effects qr lstsq inv logit rows u t g y' covs cfg)).
  { unfold all_effects. apply collect_rel. intros gs. apply att_gt_scale. }
  destruct (all_effects qr lstsq inv logit rows u t g y covs cfg) as [l|], (all_effects qr lstsq inv logit rows u t g y' covs cfg) as [l'|];
    try contradiction HE; cbn [bind]; [|exact HE]. cbn [res_rel] in HE.
  destruct l as [|e0 l0] eqn:E0, l' as [|e0' l0'] eqn:E0'; [reflexivity|inversion HE|inversion HE|].
  rewrite <- E0, <- E0' in *. clear E0 E0' e0 l0 e0' l0'.
  rewrite (agg_simple_rel c Hc (group_size rows u g) (cs_cohort rows u g) (cs_anticipation cfg) l l' HE).
  destruct (agg_simple (group_size rows u g) (cs_cohort rows u g) (cs_anticipation cfg) l) as [att se] eqn:EA. unfold sc2. cbn [fst snd].
  set (es := match agg with Some s => _ | None => false end). set (grp := match agg with Some s => String.eqb s "group" || _ | None => false end).
  set (bt := match ws with [] => None | _ => Some (run_bootstrap cfg ws (cs_groups rows g) es grp bal l) end).
  set (bt' := match ws with [] => None | _ => Some (run_bootstrap cfg ws (cs_groups rows g) es grp bal l') end).
  assert (HB : opt_rel (boot_rel c) bt bt').
  { unfold bt, bt'. destruct ws as [|w ws']; [exact Logic.I|]. destruct Hw as [Hw|Hw]; [discriminate|]. apply (bootstrap_rel c Hc); [exact Hw|discriminate|exact HE]. }
  cbn [res_rel]. unfold result_rel.
  cbn [cr_effects cr_reports cr_att cr_se cr_t cr_p cr_ci cr_groups cr_periods cr_n_obs cr_n_treated cr_n_control cr_es cr_group cr_boot].
  split; [exact HE|]. split.
  { eapply F2_map; [|exact HE]. intros e e' H. destruct H as (_ & _ & _ & ET & _ & Ee & Es & _). rewrite ET. apply (report_rel c Hc); assumption. }
  split; [reflexivity|].
  split; [destruct bt, bt'; try contradiction HB; [apply HB|reflexivity]|].
  split.
  { destruct bt as [b|], bt' as [b'|]; try contradiction HB; [|apply (cs_t_rel c Hc)].
    destruct HB as (_ & (Hs & _) & _). rewrite Hs. apply (cs_t_rel c Hc). }
  split.
  { destruct bt as [b|], bt' as [b'|]; try contradiction HB; [destruct HB as (_ & (_ & _ & Hp) & _); exact Hp|].
    rewrite (cs_t_rel c Hc). destruct se as [s| | |]; [|reflexivity|rewrite (sc_pinf c Hc); reflexivity|rewrite (sc_ninf c Hc); reflexivity].
    rewrite sc_fin. destruct (Rlt_dec 0 s) as [H|H], (Rlt_dec 0 (c * s)) as [H'|H']; try reflexivity.
    - exfalso. apply H'. apply Rmult_lt_0_compat; assumption.
    - exfalso. apply H. destruct (Rlt_le_dec 0 s) as [|L]; [assumption|]. exfalso. assert (0 <= c * - s) by (apply Rmult_le_pos; lra). lra. }
  split.
  { destruct bt as [b|], bt' as [b'|]; try contradiction HB; [destruct HB as (_ & (_ & Hci & _) & _); exact Hci|].
    rewrite (u_ci_rel c Hc). reflexivity. }
  do 5 (split; [reflexivity|]).
  split; [destruct es; [apply (es_rel c Hc); exact HE|exact Logic.I]|].
  split; [destruct grp; [apply (group_rel c Hc); exact HE|exact Logic.I]|]. exact HB.
Qed.
End Fit.

(* The three ATT(g,t) estimators: influence functions, exactness, double robustness. *)
From Verif Require Import Prelude Flt Stats_model Stats_proofs Linalg_model Linalg_proofs Linalg_vcov Linalg_thms Did_model Did_proofs Multi_model Multi_proofs Multi_thms Bacon_model Staggered_model Staggered_proofs.
From Coq Require Import Arith ZArith String List.
Import ListNotations.
Open Scope R_scope.

Lemma all_fin_some l b : all_fin l = Some b -> l = map Fin b.
Proof.
  revert b. induction l as [|x l IH]; simpl; intros b H; [injection H as <-; reflexivity|].
  destruct x; try discriminate. destruct (all_fin l); [|discriminate]. injection H as <-. simpl. rewrite (IH l0); auto.
Qed.
Lemma all_fin_map b : all_fin (map Fin b) = Some b.
Proof. induction b; simpl; auto. rewrite IHb. reflexivity. Qed.

Lemma fsum_map_fin {A} (f : A -> R) l : fsum (map (fun a => Fin (f a)) l) = Fin (sumf f l).
Proof. rewrite <- (map_map f Fin), fsum_fin. f_equal. apply (sumf_map f idR l). Qed.

Section Est.
Variable qr : list Z -> list (Z -> R) -> list nat.
Variable lstsq : list Z -> list (Z -> R) -> (Z -> R) -> list R.
Variable inv : list Z -> list (Z -> R) -> option (nat -> nat -> R).
Variable logit : list Z -> list Z -> list (Z -> R) -> option (Z -> R).
Hypothesis Hqr : qr_ok qr.
Hypothesis Hls : lstsq_ok lstsq.
Notation est := (estimate qr lstsq inv logit).
Notation solve C cols dy action := (solve_ols unit_eqd qr lstsq inv C cols dy None false action).

Lemma solve_all_fin C cols dy action o b : solve C cols dy action = Ok o -> all_fin (o_coef o) = Some b ->
  qr C cols = [] /\ b = lstsq C cols dy /\ is_ls C cols dy b /\ indep C cols /\ forall a, o_resid o a = dy a - lc cols b a.
Proof.
  intros H Hb. apply all_fin_some in Hb.
  destruct (solve_ols_nan_exactly_dropped unit_eqd qr lstsq inv Hls _ _ _ _ _ _ _ H) as (HL & HN & _).
  assert (Hq : qr C cols = []).
  { destruct (qr C cols) as [|j r] eqn:E; [reflexivity|exfalso].
    destruct (Hqr C cols) as [Hd _]. destruct (Hd j) as [Hj _]; [rewrite E; left; reflexivity|].
    assert (HNj := proj2 (HN j Hj)). specialize (HNj (or_introl eq_refl)). rewrite Hb in HNj.
    rewrite (nth_indep _ NaN (Fin 0)) in HNj by (rewrite <- Hb, HL; exact Hj). rewrite (map_nth Fin b 0) in HNj. discriminate. }
  destruct (solve_ols_shape unit_eqd qr lstsq inv Hls _ _ _ _ _ _ _ H) as (Lb & Hc & _ & Hr & _).
  destruct (Hqr C cols) as [_ Hi]. rewrite Hq in *. rewrite select_cols_full in *.
  assert (Eb : b = lstsq C cols dy).
  { rewrite Hc, expand_coef_full in Hb by apply Hls. 
    assert (G : forall l l' : list R, map Fin l = map Fin l' -> l = l').
    { induction l; destruct l'; simpl; intros E; try discriminate; auto. injection E as -> E. f_equal; auto. }
    symmetry. apply G. exact Hb. }
  split; [reflexivity|]. split; [exact Eb|]. rewrite Eb. split; [apply Hls|]. split; [exact Hi|exact Hr].
Qed.

(* a finite estimate, method by method *)
Lemma est_cases cfg T C dy xs e att : est cfg T C dy xs = Ok e -> ce_att e = Fin att ->
  match xs with
  | None => att = meanf dy T - meanf dy C /\ (e = est_means T C dy \/ e = est_ipw_means T C dy)
  | Some x =>
      let cols := (fun _ => 1) :: x in
      (cs_method cfg = "ipw"%string /\ e = est_ipw logit T C dy x) \/
      (cs_method cfg <> "ipw"%string /\ indep C cols /\ exists b, is_ls C cols dy b /\ b = lstsq C cols dy /\
        let r := fun a => dy a - lc cols b a in
        ((cs_method cfg = "reg"%string /\ att = meanf r T /\
          ce_se e = fsqrt (Fin (var1 (map r T) / len T + var1 (map r C) / len C)) /\
          (forall a, ce_tinf e a = Fin ((r a - meanf r T) / len T)) /\ (forall a, ce_cinf e a = Fin (- r a / len C))) \/
         (cs_method cfg <> "reg"%string /\
          att = meanf r T - sumf (fun a => odds logit T C x a * r a) C / len T /\
          (forall a, ce_tinf e a = Fin ((r a - att) / len T)) /\
          (forall a, ce_cinf e a = Fin (- (odds logit T C x a * r a) / len T)))))
  end.
Proof.
  unfold estimate. intros H Ha. destruct (String.eqb_spec (cs_method cfg) "reg") as [Er|Er].
  - destruct xs as [x|].
    + cbv zeta. right. split; [rewrite Er; discriminate|]. unfold est_reg in H.
      destruct (solve C ((fun _ => 1) :: x) dy (cs_action cfg)) as [o|] eqn:Eo; [|discriminate]. cbn [bind] in H.
      destruct (all_fin (o_coef o)) as [b|] eqn:Eb; [|injection H as <-; discriminate]. injection H as <-.
      destruct (solve_all_fin _ _ _ _ _ _ Eo Eb) as (_ & E1 & E2 & E3 & E4). split; [exact E3|]. exists b. split; [exact E2|]. split; [exact E1|].
      left. cbn [ce_att ce_se ce_tinf ce_cinf] in *. injection Ha as Ha. split; [exact Er|]. split; [symmetry; exact Ha|].
      split. { rewrite (map_ext _ _ E4). reflexivity. }
      split; [reflexivity|]. intros a. rewrite E4. reflexivity.
    + injection H as <-. injection Ha as <-. split; [reflexivity|left; reflexivity].
  - destruct (String.eqb_spec (cs_method cfg) "ipw") as [Ei|Ei].
    + destruct xs as [x|]; injection H as <-; [left; auto|]. injection Ha as <-. split; [reflexivity|right; reflexivity].
    + destruct xs as [x|].
      * cbv zeta. right. split; [exact Ei|]. unfold est_dr in H.
        destruct (solve C ((fun _ => 1) :: x) dy (cs_action cfg)) as [o|] eqn:Eo; [|discriminate]. cbn [bind] in H.
        destruct (all_fin (o_coef o)) as [b|] eqn:Eb; [|injection H as <-; discriminate]. injection H as <-.
        destruct (solve_all_fin _ _ _ _ _ _ Eo Eb) as (_ & E1 & E2 & E3 & E4). split; [exact E3|]. exists b. split; [exact E2|]. split; [exact E1|].
        right. cbn [ce_att ce_se ce_tinf ce_cinf] in *. injection Ha as Ha. split; [exact Er|].
        assert (ES : sumf (fun a => odds logit T C x a * (lc ((fun _ => 1) :: x) b a - dy a)) C
                     = - sumf (fun a => odds logit T C x a * (dy a - lc ((fun _ => 1) :: x) b a)) C).
        { rewrite <- sumf_opp. apply sumf_ext_all. intros a. ring. }
        split. { rewrite <- Ha. change (meanf (fun a => dy a - lc ((fun _ => 1) :: x) b a) T
                   + sumf (fun a => odds logit T C x a * (lc ((fun _ => 1) :: x) b a - dy a)) C / len T
                   = meanf (fun a => dy a - lc ((fun _ => 1) :: x) b a) T
                     - sumf (fun a => odds logit T C x a * (dy a - lc ((fun _ => 1) :: x) b a)) C / len T).
                 rewrite ES. unfold Rdiv. ring. }
        split; intros a; [rewrite <- Ha; reflexivity|].
        change (Fin (odds logit T C x a * (lc ((fun _ => 1) :: x) b a - dy a) / len T) = Fin (- (odds logit T C x a * (dy a - lc ((fun _ => 1) :: x) b a)) / len T)).
        f_equal. unfold Rdiv. ring.
      * injection H as <-. injection Ha as <-. split; [reflexivity|left; reflexivity].
Qed.
Lemma clip_range p : 1/100 <= clip_ps p <= 99/100.
Proof. unfold clip_ps, Rmin, Rmax. repeat (destruct (Rle_dec _ _)); lra. Qed.
Lemma odds_pos T C xs a : 0 < odds logit T C xs a.
Proof.
  unfold odds. pose proof (clip_range (match logit T C xs with Some f => f a | None => len T / (len T + len C) end)).
  apply Rdiv_lt_0_compat; lra.
Qed.
Lemma odds_sum_pos T C xs : C <> [] -> 0 < sumf (odds logit T C xs) C.
Proof.
  intros H. destruct C as [|c C]; [congruence|]. set (f := odds logit T (c :: C) xs).
  assert (P : forall a, 0 < f a) by (intros; apply odds_pos). simpl. pose proof (P c).
  assert (0 <= sumf f C) by (apply sumf_nonneg; intros; left; apply P). lra.
Qed.

(* the intercept makes the residuals of the controls sum to zero *)
Lemma resid_sum0 (C : list Z) x (dy : Z -> R) b : is_ls C ((fun _ => 1) :: x) dy b -> sumf (fun a => dy a - lc ((fun _ => 1) :: x) b a) C = 0.
Proof.
  intros [_ F]. rewrite Forall_forall in F. specialize (F _ (or_introl eq_refl)). unfold ip in F.
  rewrite <- F. apply sumf_ext_all. intros; ring.
Qed.

Theorem influence_sums_to_zero cfg T C dy xs e att : est cfg T C dy xs = Ok e -> ce_att e = Fin att -> T <> [] -> C <> [] ->
  fadd (fsum (map (ce_tinf e) T)) (fsum (map (ce_cinf e) C)) = Fin 0.
Proof.
  intros H Ha HT HC. pose proof (len_pos _ HT) as PT. pose proof (len_pos _ HC) as PC.
  assert (Hfin : forall f h, (forall a, ce_tinf e a = Fin (f a)) -> (forall a, ce_cinf e a = Fin (h a)) ->
      sumf f T + sumf h C = 0 -> fadd (fsum (map (ce_tinf e) T)) (fsum (map (ce_cinf e) C)) = Fin 0).
  { intros f h Hf Hh Hs. rewrite (map_ext _ _ Hf), (map_ext _ _ Hh), !fsum_map_fin. cbn [fadd]. f_equal. exact Hs. }
  pose proof (est_cases cfg T C dy xs e att H Ha) as HE. destruct xs as [x|]; cbv zeta in HE.
  - destruct HE as [[_ ->]|(_ & _ & b & Hb & _ & [(_ & Eatt & _ & Et & Ec)|(_ & Eatt & Et & Ec)])].
    + eapply Hfin; [intros; reflexivity|intros; reflexivity|].
      rewrite sumf_div, sumf_dev by auto. unfold Rdiv at 1. rewrite Rmult_0_l, Rplus_0_l.
      pose proof (odds_sum_pos T C x HC) as Hp. set (tot := sumf (odds logit T C x) C) in *.
      set (mc := sumf (fun a => odds logit T C x a / tot * dy a) C).
      rewrite (sumf_ext_all _ (fun a => mc / tot * odds logit T C x a - odds logit T C x a / tot * dy a)) by (intros; unfold Rdiv; ring).
      rewrite sumf_sub, sumf_scal. fold mc. fold tot. field. lra.
    + eapply Hfin; [exact Et|exact Ec|]. rewrite !sumf_div, sumf_dev by auto. rewrite sumf_opp, (resid_sum0 _ _ _ _ Hb). field. lra.
    + eapply Hfin; [exact Et|exact Ec|]. rewrite !sumf_div, sumf_sub, sumf_const, sumf_opp, (sumf_meanf _ T HT), Eatt. field. lra.
  - destruct HE as [_ [->| ->]]; (eapply Hfin; [intros; reflexivity|intros; reflexivity|]);
      rewrite sumf_opp, !sumf_div, !sumf_dev by auto; field; lra.
Qed.

(* ---- exactness ---- *)
Theorem outcome_model_exact cfg T C dy x e att beta tau : est cfg T C dy (Some x) = Ok e -> ce_att e = Fin att -> cs_method cfg <> "ipw"%string ->
  length beta = S (length x) ->
  (forall a, In a C -> dy a = lc ((fun _ => 1) :: x) beta a) -> (forall a, In a T -> dy a = lc ((fun _ => 1) :: x) beta a + tau a) ->
  att = meanf tau T.
Proof.
  intros H Ha Hm HL HC HT. pose proof (est_cases cfg T C dy (Some x) e att H Ha) as HE. cbv zeta in HE.
  destruct HE as [[E _]|(_ & Hind & b & Hb & _ & HE)]; [contradiction|].
  assert (Eb : b = beta).
  { apply (ls_coef_unique C ((fun _ => 1) :: x) dy); auto. apply ls_exact; auto. }
  subst b. destruct HE as [(_ & -> & _)|(_ & -> & _)].
  - apply meanf_ext. intros a Hi. rewrite HT by auto. ring.
  - rewrite (sumf_ext (fun a => odds logit T C x a * (dy a - lc ((fun _ => 1) :: x) beta a)) (fun _ => 0)).
    + rewrite sumf_0. unfold Rdiv. rewrite Rmult_0_l, Rminus_0_r. apply meanf_ext. intros a Hi. rewrite HT by auto. ring.
    + intros a Hi. rewrite HC by auto. ring.
Qed.

(* equal changes among the controls: every method, with or without covariates *)
Theorem common_trend_exact cfg T C dy xs e att delta : est cfg T C dy xs = Ok e -> ce_att e = Fin att -> T <> [] -> C <> [] ->
  (forall a, In a C -> dy a = delta) -> att = meanf dy T - delta.
Proof.
  intros H Ha HT HC Hd. destruct xs as [x|].
  - destruct (String.eqb_spec (cs_method cfg) "ipw") as [Ei|Ei].
    + pose proof (est_cases cfg T C dy (Some x) e att H Ha) as HE. cbv zeta in HE.
      destruct HE as [[_ ->]|[HE _]]; [|contradiction]. injection Ha as <-. f_equal.
      pose proof (odds_sum_pos T C x HC).
      rewrite (sumf_ext _ (fun a => delta / sumf (odds logit T C x) C * odds logit T C x a)) by (intros a Hi; rewrite Hd by auto; unfold Rdiv; ring).
      rewrite sumf_scal. field. lra.
    + rewrite (outcome_model_exact cfg T C dy x e att (delta :: repeat 0 (length x)) (fun a => dy a - delta) H Ha Ei).
      * rewrite meanf_sub, meanf_const by auto. reflexivity.
      * simpl. rewrite repeat_length. reflexivity.
      * intros a Hi. simpl. rewrite lc_repeat0, Hd by auto. ring.
      * intros a Hi. simpl. rewrite lc_repeat0. ring.
  - pose proof (est_cases cfg T C dy None e att H Ha) as [-> _]. f_equal. rewrite (meanf_ext dy (fun _ => delta)) by auto. apply meanf_const; auto.
Qed.

(* weights that balance the covariates: dr does not depend on the outcome model and equals ipw *)
Theorem dr_equals_ipw cfg T C dy x e att : est cfg T C dy (Some x) = Ok e -> ce_att e = Fin att ->
  cs_method cfg <> "ipw"%string -> cs_method cfg <> "reg"%string -> T <> [] ->
  (forall c, In c ((fun _ => 1) :: x) -> sumf (fun a => odds logit T C x a * c a) C = sumf c T) ->
  att = meanf dy T - sumf (fun a => odds logit T C x a * dy a) C / len T /\ ce_att (est_ipw logit T C dy x) = Fin att.
Proof.
  intros H Ha Hi Hr HT Hbal. pose proof (len_pos _ HT) as PT.
  pose proof (est_cases cfg T C dy (Some x) e att H Ha) as HE. cbv zeta in HE.
  destruct HE as [[E _]|(_ & _ & b & _ & _ & [(E & _)|(_ & Eatt & _)])]; try contradiction.
  assert (Hlc : forall cols b, (forall c, In c cols -> sumf (fun a => odds logit T C x a * c a) C = sumf c T) ->
       sumf (fun a => odds logit T C x a * lc cols b a) C = sumf (lc cols b) T).
  { induction cols as [|c cols IH]; intros b0 Hc; simpl.
    - transitivity 0; [|symmetry]; apply sumf_zero; intros; destruct b0; ring.
    - destruct b0 as [|b0 bs].
      + transitivity 0; [|symmetry]; apply sumf_zero; intros; ring.
      + rewrite (sumf_ext_all _ (fun a => b0 * (odds logit T C x a * c a) + odds logit T C x a * lc cols bs a)) by (intros; ring).
        rewrite !sumf_add, !sumf_scal, Hc by (left; reflexivity). rewrite IH by (intros; apply Hc; right; auto). reflexivity. }
  specialize (Hlc _ b Hbal).
  assert (E : att = meanf dy T - sumf (fun a => odds logit T C x a * dy a) C / len T).
  { rewrite Eatt, meanf_sub. rewrite (sumf_ext_all _ (fun a => odds logit T C x a * dy a - odds logit T C x a * lc ((fun _ => 1) :: x) b a)) by (intros; ring).
    rewrite sumf_sub, Hlc. unfold meanf. field. lra. }
  split; [exact E|]. rewrite E. cbn [est_ipw ce_att]. do 2 f_equal.
  assert (Htot : sumf (odds logit T C x) C = len T).
  { transitivity (sumf (fun a => odds logit T C x a * 1) C); [apply sumf_ext_all; intros; ring|].
    rewrite (Hbal (fun _ => 1)) by (left; reflexivity). rewrite sumf_const. ring. }
  rewrite Htot. rewrite <- sumf_div. apply sumf_ext_all. intros. unfold Rdiv. ring.
Qed.

(* ---- equivariance: y -> s y + c changes the estimate by the factor s ---- *)
Theorem est_affine cfg T C dy dy' xs e e' att att' s c : est cfg T C dy xs = Ok e -> est cfg T C dy' xs = Ok e' ->
  ce_att e = Fin att -> ce_att e' = Fin att' -> T <> [] -> C <> [] ->
  (forall a, In a T \/ In a C -> dy' a = s * dy a + c) -> att' = s * att.
Proof.
  intros H H' Ha Ha' HT HC Hd. pose proof (len_pos _ HT) as PT.
  assert (HdT : forall a, In a T -> dy' a = s * dy a + c) by auto. assert (HdC : forall a, In a C -> dy' a = s * dy a + c) by auto.
  assert (MT : meanf dy' T = s * meanf dy T + c).
  { rewrite (meanf_ext _ _ _ HdT), meanf_add, meanf_scal, meanf_const by auto. reflexivity. }
  pose proof (est_cases cfg T C dy xs e att H Ha) as HE. pose proof (est_cases cfg T C dy' xs e' att' H' Ha') as HE'.
  destruct xs as [x|]; cbv zeta in *.
  - set (cols := (fun _ => 1) :: x) in *.
    destruct HE as [[Ei ->]|(Ni & Hind & b & Hb & _ & HE)], HE' as [[Ei' ->]|(Ni' & _ & b' & Hb' & _ & HE')]; try contradiction.
    + injection Ha as <-. injection Ha' as <-. rewrite MT. pose proof (odds_sum_pos T C x HC).
      rewrite (sumf_ext (fun a => odds logit T C x a / sumf (odds logit T C x) C * dy' a)
        (fun a => s * (odds logit T C x a / sumf (odds logit T C x) C * dy a) + c / sumf (odds logit T C x) C * odds logit T C x a))
        by (intros a Hi; rewrite HdC by auto; unfold Rdiv; ring).
      rewrite sumf_add, !sumf_scal. field. lra.
    + assert (Eb : b' = vadd (vscal s b) (c :: repeat 0 (length x))).
      { apply (ls_coef_unique C cols dy'); auto.
        apply (ls_ext C cols (fun a => s * dy a + c)); [intros; rewrite HdC; auto|].
        apply (ls_add C cols (fun a => s * dy a) (fun _ => c)); [apply ls_scal; exact Hb|].
        apply ls_exact; [simpl; rewrite repeat_length; reflexivity|]. intros a _. simpl. rewrite lc_repeat0. ring. }
      assert (Er : forall a, In a T \/ In a C -> dy' a - lc cols b' a = s * (dy a - lc cols b a)).
      { intros a Hi. rewrite Hd by auto. rewrite Eb, lc_vadd, lc_vscal.
        - simpl. rewrite lc_repeat0. ring.
        - destruct Hb as [Lb _]. unfold vscal. rewrite map_length. exact Lb.
        - simpl. rewrite repeat_length. reflexivity. }
      destruct HE as [(Er1 & -> & _)|(Nr & -> & _)], HE' as [(Er2 & -> & _)|(Nr2 & -> & _)]; try contradiction.
      * rewrite (meanf_ext _ _ _ (fun a Hi => Er a (or_introl Hi))), meanf_scal. reflexivity.
      * rewrite (meanf_ext _ _ _ (fun a Hi => Er a (or_introl Hi))), meanf_scal.
        rewrite (sumf_ext (fun a => odds logit T C x a * (dy' a - lc cols b' a)) (fun a => s * (odds logit T C x a * (dy a - lc cols b a))))
          by (intros a Hi; rewrite Er by auto; ring).
        rewrite sumf_scal. field. lra.
  - destruct HE as [-> _], HE' as [-> _]. rewrite MT, (meanf_ext dy' _ _ HdC), meanf_add, meanf_scal, meanf_const by auto. ring.
Qed.

(* ---- no covariates ---- *)
Theorem methods_agree cfg T C dy : exists e, est cfg T C dy None = Ok e /\ ce_att e = Fin (meanf dy T - meanf dy C) /\ (forall a, ce_tinf e a = Fin ((dy a - meanf dy T) / len T)) /\ (forall a, ce_cinf e a = Fin (- ((dy a - meanf dy C) / len C))).
Proof. unfold estimate. destruct (String.eqb _ _); [|destruct (String.eqb _ _)]; eexists; (split; [reflexivity|]); repeat split; reflexivity. Qed.

Lemma var1_nonneg l : 0 <= var1 l.
Proof.
  unfold var1. destruct (Nat.ltb_spec 1 (length l)) as [H|H]; [|lra]. apply variance_nonneg.
  apply lt_INR in H. exact H.
Qed.
Theorem se_no_covariates cfg T C dy e : est cfg T C dy None = Ok e -> T <> [] -> C <> [] ->
  ce_se e = Fin (sqrt (var1 (map dy T) / len T + var1 (map dy C) / (if String.eqb (cs_method cfg) "ipw" then len T else len C))).
Proof.
  intros H HT HC. pose proof (len_pos _ HT) as PT. pose proof (len_pos _ HC) as PC.
  pose proof (var1_nonneg (map dy T)). pose proof (var1_nonneg (map dy C)).
  assert (Q : forall a b, 0 <= a -> 0 < b -> 0 <= a / b) by (intros; apply Rmult_le_pos; [auto|left; apply Rinv_0_lt_compat; auto]).
  unfold estimate in H. destruct (String.eqb_spec (cs_method cfg) "reg") as [Er|Er].
  - injection H as <-. rewrite Er. cbn [ce_se est_means String.eqb Ascii.eqb Bool.eqb]. apply sqrt_fin. apply Rplus_le_le_0_compat; auto.
  - destruct (String.eqb_spec (cs_method cfg) "ipw") as [Ei|Ei]; injection H as <-.
    + cbn [ce_se est_ipw_means]. destruct (Rlt_dec 0 (len T / (len T + len C))) as [_|Hp].
      * assert (E : var1 (map dy C) * (1 - len T / (len T + len C)) / (len C * (len T / (len T + len C))) = var1 (map dy C) / len T) by (field; lra).
        rewrite E. apply sqrt_fin. apply Rplus_le_le_0_compat; auto.
      * exfalso. apply Hp. apply Rdiv_lt_0_compat; lra.
    + cbn [ce_se est_means]. apply sqrt_fin. apply Rplus_le_le_0_compat; auto.
Qed.
End Est.

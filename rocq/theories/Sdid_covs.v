(* SyntheticDiD with covariates: what the residualised fit estimates *)
From Verif Require Import Prelude Flt Stats_model Linalg_model Linalg_proofs Linalg_vcov Linalg_thms Did_model Multi_model Multi_proofs Staggered_model Synth_model Synth_proofs Synth_more Sdid_model Sdid_proofs Sdid_thms Sdid_rows Sdid_ex.
From Coq Require Import Arith ZArith String List Permutation.
Import ListNotations.
Open Scope R_scope.

Lemma effects_span {I} (rows : list I) (f : I -> Z) (h : Z -> R) X :
  (forall c, In c ((fun _ => 1) :: sd_dummies f (zsort (nodup Z.eq_dec (map f rows)))) -> In c X) -> span rows X (fun i => h (f i)).
Proof.
  intros Hin. set (ks := zsort (nodup Z.eq_dec (map f rows))) in *.
  assert (Sp : span rows ((fun _ => 1) :: sd_dummies f ks) (fun i => h (f i))).
  { assert (Hks : forall i, In i rows -> In (f i) ks) by (intros i Hi; apply zsort_In, nodup_In, in_map; auto).
    assert (Nk : NoDup ks) by (apply zsort_NoDup, NoDup_nodup).
    clearbody ks. destruct ks as [|k0 kt]; [exists [0]; split; [reflexivity|intros i Hi; destruct (Hks i Hi)]|].
    exists (h k0 :: map (fun k => h k - h k0) kt). split; [unfold sd_dummies; cbn; rewrite !map_length; reflexivity|].
    intros i Hi. cbn [lc sd_dummies tl]. unfold sd_dummies. cbn [tl].
    assert (Q : forall l, NoDup l -> lc (map (fun k i0 => ind (Z.eqb (f i0) k)) l) (map (fun k => h k - h k0) l) i = (if zmem (f i) l then h (f i) - h k0 else 0)).
    { induction l as [|k l IH]; intros ND; cbn; [reflexivity|]. inversion ND as [|? ? Nin ND']; subst. rewrite IH by auto. unfold zmem in *. cbn.
      destruct (Z.eqb (f i) k) eqn:E; cbn.
      - apply Z.eqb_eq in E. subst k. replace (existsb (Z.eqb (f i)) l) with false; [ring|]. symmetry. apply Bool.not_true_iff_false. intros X0. apply existsb_exists in X0 as (q & Hq & Eq). apply Z.eqb_eq in Eq. subst q. auto.
      - ring. }
    inversion Nk as [|? ? Nin Nt]; subst. rewrite Q by auto. destruct (Hks i Hi) as [E|E].
    - replace (zmem (f i) kt) with false; [rewrite <- E; ring|]. symmetry. apply Bool.not_true_iff_false. intros X0. apply zmem_In in X0. rewrite <- E in X0. auto.
    - rewrite (proj2 (zmem_In (f i) kt) E). ring. }
  apply (span_trans rows ((fun _ => 1) :: sd_dummies f ks)); auto. intros c Hc. apply span_in; auto.
Qed.

Section Covs.
Variable backend : list Z -> list (Z -> R) -> (Z -> R) -> R -> list R.
Context {I : Type}.
Variable qr : list I -> list (I -> R) -> list nat.
Variable lstsq : list I -> list (I -> R) -> (I -> R) -> list R.
Variable inv : list I -> list (I -> R) -> option (nat -> nat -> R).
Variables (sf z : R -> R).
Hypothesis Hqr : qr_ok qr.
Hypothesis Hls : lstsq_ok lstsq.
Hypothesis Hbe : be_simplex backend.
Notation fit := (sd_fit backend qr lstsq inv sf z).
Variables (rows : list I) (u t : I -> Z) (d : I -> R).
Hypothesis Hcm : sd_complete rows u t.

(* the contrast of a variable with the weights of a fit: treated minus weighted controls, post minus weighted pre *)
Definition sd_contrast (r : sd_result) (f : I -> R) : R :=
  sdid (sd_cell rows u t f) (sr_pre r) (sr_post r) (sd_control rows u d) (fun s => meanf (sd_cell rows u t f s) (sd_treated rows u d))
    (map snd (sr_unit_w r)) (map snd (sr_time_w r)).

Lemma sd_cell_lin s f g p a : sd_cell rows u t (fun i => s * f i + g i) p a = s * sd_cell rows u t f p a + sd_cell rows u t g p a.
Proof. unfold sd_cell. destruct (sd_rows rows u t p a); ring. Qed.

Lemma contrast_lin r s f g : sd_contrast r (fun i => s * f i + g i) = s * sd_contrast r f + sd_contrast r g.
Proof.
  unfold sd_contrast. rewrite <- sdid_linear. apply sdid_local; intros.
  - apply sd_cell_lin.
  - rewrite (meanf_ext _ (fun a => s * sd_cell rows u t f t0 a + sd_cell rows u t g t0 a)) by (intros; apply sd_cell_lin).
    rewrite meanf_add, meanf_scal. reflexivity.
Qed.

Section One.
Variables (cfg : sd_config) (y : I -> R) (covs : list (I -> R)) (post : option (list Z)) (draws : list (list Z)) (perms : list (list nat)) (r : sd_result).
Hypothesis Hz : 0 <= sd_zeta cfg.
Hypothesis Hfit : fit rows u t d cfg y covs post draws perms = Ok r.

Lemma fit_dup : sd_dup rows u t = false.
Proof. apply sd_fit_ok in Hfit as (pre & pst & w & _ & _ & _ & _ & _ & ED & _). exact ED. Qed.

Lemma contrast_ext f g : (forall i, In i rows -> f i = g i) -> sd_contrast r f = sd_contrast r g.
Proof.
  intros H. unfold sd_contrast. rewrite (q_cell_ext rows u t g f H). reflexivity.
Qed.

(* unit effects and period effects drop out, an effect on the treated cells is averaged over the post periods *)
Lemma contrast_additive (a b tau : Z -> R) :
  sd_contrast r (fun i => a (u i) + b (t i) + (if zmem (u i) (sd_treated rows u d) && zmem (t i) (sr_post r) then tau (t i) else 0)) = meanf tau (sr_post r).
Proof.
  destruct (sd_fit_report backend qr lstsq inv sf z rows u t d cfg y covs post draws perms r Hbe Hz Hfit)
    as (E1 & [_ S1] & E2 & [_ S2] & Pi & Pd & _).
  assert (F := Hfit). apply sd_fit_ok in F as (pre & pst & w & _ & EP & Ht & Hc & _ & ED & F).
  assert (Er : sr_post r = pst).
  { unfold sd_finish in F. match type of F with bind ?x _ = _ => destruct x as [[se eff]|e]; [|discriminate] end. cbn [bind] in F. injection F as <-. auto. }
  destruct (sd_periods_in _ _ _ _ _ EP) as (Pn & Qn & _ & _).
  assert (L1 : length (map snd (sr_unit_w r)) = length (sd_control rows u d)) by (rewrite <- E1, !map_length; reflexivity).
  assert (L2 : length (map snd (sr_time_w r)) = length (sr_pre r)) by (rewrite <- E2, !map_length; reflexivity).
  assert (Q' : sr_post r <> []) by (rewrite Er; auto).
  set (f := fun i => a (u i) + b (t i) + (if zmem (u i) (sd_treated rows u d) && zmem (t i) (sr_post r) then tau (t i) else 0)).
  assert (Dj : forall j, In j (sd_control rows u d) -> zmem j (sd_treated rows u d) = false).
  { intros j Hj. destruct (zmem j (sd_treated rows u d)) eqn:E; [|reflexivity]. apply zmem_In in E.
    apply filter_In in E as [_ E]. apply filter_In in Hj as [_ Hj]. apply Reqb_true in E, Hj. lra. }
  assert (C : forall p j, In p (sr_pre r ++ sr_post r) -> In j (sd_treated rows u d ++ sd_control rows u d) ->
     sd_cell rows u t f p j = a j + b p + (if zmem j (sd_treated rows u d) && zmem p (sr_post r) then tau p else 0)).
  { intros p j Hp Hj. apply sd_groups_units in Hj. apply in_app_or, Pi in Hp. destruct (sd_cell_at rows u t p j Hcm Hp Hj) as (i & Hi & <- & <-).
    rewrite sd_cell_row by auto. reflexivity. }
  assert (Pz : forall p, In p (sr_pre r) -> zmem p (sr_post r) = false).
  { intros p Hp. apply Bool.not_true_iff_false. intros E. apply zmem_In in E. exact (Pd p Hp E). }
  unfold sd_contrast. apply (sdid_exact _ _ _ _ _ L1 L2 S1 S2 Q' _ _ a (meanf a (sd_treated rows u d)) b tau).
  - intros p j Hp Hj. rewrite C by (auto; apply in_or_app; auto). rewrite Dj by auto. cbn [andb]. ring.
  - intros p Hp. apply meanf_shift; auto. intros j Hj. rewrite C by (apply in_or_app; auto). rewrite Pz, Bool.andb_false_r by auto. ring.
  - intros p Hp. rewrite (meanf_shift a _ (b p + tau p) (sd_treated rows u d) Ht); [ring|]. intros j Hj. rewrite C by (apply in_or_app; auto).
    rewrite (proj2 (zmem_In j _) Hj), (proj2 (zmem_In p _) Hp). cbn [andb]. ring.
Qed.

Lemma contrast_effects (a b : Z -> R) : sd_contrast r (fun i => a (u i) + b (t i)) = 0.
Proof.
  transitivity (meanf (fun _ => 0) (sr_post r)).
  - rewrite <- (contrast_additive a b (fun _ => 0)). apply contrast_ext. intros i _. destruct (_ && _); ring.
  - unfold meanf. rewrite sumf_0. unfold Rdiv. ring.
Qed.

(* the treatment indicator: treated units in the post periods *)
Definition sd_W (r : sd_result) (i : I) : R := ind (zmem (u i) (sd_treated rows u d) && zmem (t i) (sr_post r)).
Lemma contrast_W : sd_contrast r (sd_W r) = 1.
Proof.
  assert (Q : sr_post r <> []).
  { assert (F := Hfit). apply sd_fit_ok in F as (pre & pst & w & _ & EP & _ & _ & _ & _ & F). destruct (sd_periods_in _ _ _ _ _ EP) as (_ & Qn & _).
    unfold sd_finish in F. match type of F with bind ?x _ = _ => destruct x as [[se eff]|e]; [|discriminate] end. cbn [bind] in F. injection F as <-. auto. }
  rewrite <- (meanf_const 1 (sr_post r) Q), <- (contrast_additive (fun _ => 0) (fun _ => 0) (fun _ => 1)).
  apply contrast_ext. intros i _. unfold sd_W, ind. destruct (_ && _); ring.
Qed.

Lemma lc_dummies (f : I -> Z) ks g : exists h : Z -> R, forall i, lc (sd_dummies f ks) g i = h (f i).
Proof.
  unfold sd_dummies. generalize (tl ks). clear. intros l. revert g; induction l as [|k l IH]; intros [|x g]; cbn; try (exists (fun _ => 0); reflexivity).
  destruct (IH g) as [h Hh]. exists (fun v => x * ind (Z.eqb v k) + h v). intros i. rewrite <- Hh. reflexivity.
Qed.

(* a linear combination of the design has the contrast of its covariate part *)
Lemma lc_split (A B : list (I -> R)) : forall b i, lc (A ++ B) b i = lc A (firstn (length A) b) i + lc B (skipn (length A) b) i.
Proof.
  induction A as [|a A IH]; intros [|x b] i; cbn [app length firstn skipn].
  - destruct B; cbn; ring.
  - replace (lc [] [] i) with 0 by reflexivity. ring.
  - destruct B; cbn; ring.
  - cbn [lc]. rewrite IH. ring.
Qed.

Lemma contrast_zero : sd_contrast r (fun _ => 0) = 0.
Proof. etransitivity; [|exact (contrast_effects (fun _ => 0) (fun _ => 0))]. apply contrast_ext. intros; ring. Qed.

Lemma contrast_lc : forall (cs : list (I -> R)) g, sd_contrast r (lc cs g) = sumf (fun p => fst p * sd_contrast r (snd p)) (combine g cs).
Proof.
  induction cs as [|c cs IH]; intros [|x g]; cbn [lc combine sumf fst snd]; try apply contrast_zero.
  rewrite <- IH, <- contrast_lin. apply contrast_ext. intros; reflexivity.
Qed.

Lemma contrast_design cs beta : sd_contrast r (lc (sd_design rows u t cs) beta)
  = sumf (fun p => fst p * sd_contrast r (snd p)) (combine (firstn (length cs) (tl beta)) cs).
Proof.
  rewrite <- contrast_lc. destruct beta as [|b0 beta]; cbn [tl].
  { rewrite firstn_nil. transitivity (sd_contrast r (fun _ => 0)); [apply contrast_ext; reflexivity|].
    symmetry. apply contrast_ext. intros. destruct cs; reflexivity. }
  destruct (lc_dummies u (sd_units rows u) (firstn (length (sd_dummies u (sd_units rows u))) (skipn (length cs) beta))) as [h1 H1].
  destruct (lc_dummies t (sd_periods rows t) (skipn (length (sd_dummies u (sd_units rows u))) (skipn (length cs) beta))) as [h2 H2].
  transitivity (sd_contrast r (fun i => 1 * lc cs (firstn (length cs) beta) i + ((b0 + h1 (u i)) + h2 (t i)))).
  - apply contrast_ext. intros i _. unfold sd_design. cbn [lc]. rewrite lc_split, lc_split, H1, H2. ring.
  - rewrite contrast_lin, (contrast_effects (fun v => b0 + h1 v) h2). ring.
Qed.

Lemma sd_fit_att : exists w, (match covs with [] => Ok y | _ => sd_residualize qr lstsq inv rows u t y covs end) = Ok w /\ sr_att r = sd_contrast r w.
Proof.
  assert (F := Hfit). apply sd_fit_ok in F as (pre & pst & w & _ & EP & Ht & Hc & Ew & ED & F). exists w. split; [exact Ew|].
  destruct (sd_periods_in _ _ _ _ _ EP) as (Pn & Qn & _ & _).
  destruct (sd_omega_simplex backend Hbe cfg (sd_cell rows u t w) pre (sd_treated rows u d) (sd_control rows u d) Hc) as [_ Lw].
  destruct (sd_tw_simplex cfg (sd_cell rows u t w) pre (sd_treated rows u d) (sd_control rows u d) Pn Hz) as [_ Ll].
  unfold sd_finish in F. match type of F with bind ?x _ = _ => destruct x as [[se eff]|e]; [|discriminate] end. cbn [bind] in F. injection F as <-.
  unfold sd_contrast. cbn [sr_att sr_pre sr_post sr_unit_w sr_time_w].
  assert (M1 : forall (l : list Z) (m : list R), length m = length l -> map snd (combine l m) = m).
  { induction l as [|a l IH]; intros [|b m] Hl; cbn in *; try discriminate; auto. rewrite IH by lia. auto. }
  rewrite (M1 _ _ Lw), (M1 _ _ Ll). reflexivity.
Qed.

(* the estimate subtracts the covariates' contrasts times the coefficients of a regression
   of the outcome on covariates, units and periods; the treatment is not in that regression *)
Theorem sd_covariate_estimate : covs <> [] ->
  exists beta, is_ls rows (sd_design rows u t covs) y beta /\
    sr_att r = sd_contrast r y - sumf (fun p => fst p * sd_contrast r (snd p)) (combine (firstn (length covs) (tl beta)) covs).
Proof.
  intros Hne. destruct sd_fit_att as (w & Ew & Ea). destruct covs as [|x xs] eqn:Ec; [congruence|]. rewrite <- Ec in *.
  destruct (sd_resid_ls qr lstsq inv Hqr Hls rows u t y covs w Ew) as (beta & B1 & B2). exists beta. split; [exact B1|].
  rewrite Ea. transitivity (sd_contrast r (fun i => -1 * lc (sd_design rows u t covs) beta i + (1 * y i + (meanf y rows + 0)))).
  - apply contrast_ext. intros i _. rewrite B2. ring.
  - rewrite contrast_lin, contrast_lin, contrast_design, (contrast_effects (fun _ => meanf y rows) (fun _ => 0)). ring.
Qed.

(* outcomes made of unit effects, period effects, covariate effects and a constant effect tau on the treated cells *)
Theorem sd_covariate_bias (a b : Z -> R) gamma tau delta : covs <> [] -> length gamma = length covs ->
  (forall i, In i rows -> y i = a (u i) + b (t i) + lc covs gamma i + tau * sd_W r i) ->
  is_ls rows (sd_design rows u t covs) (sd_W r) delta ->
  sr_att r = tau * (1 - sumf (fun p => fst p * sd_contrast r (snd p)) (combine (firstn (length covs) (tl delta)) covs)).
Proof.
  intros Hne Hg Hy Hd. assert (HW := contrast_W). set (W := sd_W r) in *. destruct (sd_covariate_estimate Hne) as (beta & Bl & ->).
  rewrite <- !contrast_design. set (X := sd_design rows u t covs) in *.
  assert (Ey : sd_contrast r y = sd_contrast r (lc covs gamma) + tau).
  { transitivity (sd_contrast r (fun i => tau * W i + (1 * lc covs gamma i + (a (u i) + b (t i))))).
    - apply contrast_ext. intros i Hi. rewrite Hy by auto. ring.
    - rewrite contrast_lin, contrast_lin, contrast_effects, HW. ring. }
  assert (Rs : forall i, In i rows -> y i - lc X beta i = tau * (W i - lc X delta i)).
  { assert (Sp : span rows X (fun i => a (u i) + b (t i) + lc covs gamma i)).
    { apply span_add; [apply span_add|].
      - apply (effects_span rows u a). intros c [<-|Hc]; [left; reflexivity|]. right. apply in_or_app. right. apply in_or_app. left. exact Hc.
      - apply (effects_span rows t b). intros c [<-|Hc]; [left; reflexivity|]. right. apply in_or_app. right. apply in_or_app. right. exact Hc.
      - apply (span_trans rows covs); [|apply span_lc; auto]. intros c Hc. apply span_in. right. apply in_or_app. auto. }
    destruct Sp as (g & Lg & Hg').
    assert (L : is_ls rows X y (vadd g (vscal tau delta))).
    { apply (ls_ext rows X (fun i => (a (u i) + b (t i) + lc covs gamma i) + tau * W i)); [intros i Hi; symmetry; apply Hy; auto|].
      apply ls_add; [apply ls_exact; [exact Lg|intros i Hi; apply Hg'; auto]|apply ls_scal; exact Hd]. }
    intros i Hi. rewrite (ls_fitted_unique rows X y beta _ Bl L i Hi), Hy by auto.
    destruct Hd as [Ld _]. rewrite lc_vadd by (rewrite ?vscal_length; congruence). rewrite lc_vscal, <- Hg' by auto. ring. }
  assert (E1 : sd_contrast r (lc X beta) = sd_contrast r (fun i => tau * lc X delta i + (- tau * W i + (1 * y i + (0 + 0))))).
  { apply contrast_ext. intros i Hi. specialize (Rs i Hi). lra. }
  rewrite E1, !contrast_lin, (contrast_effects (fun _ => 0) (fun _ => 0)), HW. lra.
Qed.

(* outcomes that the regression reproduces exactly: the estimate is zero *)
Theorem sd_saturated : covs <> [] -> span rows (sd_design rows u t covs) y -> sr_att r = 0.
Proof.
  intros Hne (g & Lg & Hg). destruct sd_fit_att as (w & Ew & ->). destruct covs as [|x xs] eqn:Ec; [congruence|]. rewrite <- Ec in *.
  destruct (sd_resid_ls qr lstsq inv Hqr Hls rows u t y covs w Ew) as (beta & B1 & B2).
  rewrite <- (contrast_effects (fun _ => meanf y rows) (fun _ => 0)). apply contrast_ext. intros i Hi.
  rewrite B2, (ls_fitted_unique rows _ y beta g B1) by (auto; apply ls_exact; auto). rewrite (Hg i Hi). ring.
Qed.
End One.

Lemma sd_fit_placebo0 cfg y post draws perms pre pst : sd_method cfg = "placebo"%string -> sd_binary rows d ->
  sdid_periods zmem (sd_periods rows t) post = Ok (pre, pst) -> sd_treated rows u d <> [] -> sd_control rows u d <> [] ->
  sd_dup rows u t = false -> exists r, fit rows u t d cfg y [] post draws perms = Ok r.
Proof.
  intros Hm Hb EP Ht Hc ED.
  destruct (sd_finish backend sf z cfg (sd_cell rows u t y) pre pst (sd_treated rows u d) (sd_control rows u d) (length rows) draws perms) as [r|e] eqn:F.
  - exists r. apply sd_fit_ok. exists pre, pst, y. auto 8.
  - exfalso. unfold sd_finish in F. rewrite Hm in F. cbn [String.eqb Ascii.eqb Bool.eqb bind] in F. destruct (placebo_se _ _ _); discriminate.
Qed.
Lemma sd_fit_placebo cfg y covs post draws perms pre pst : sd_method cfg = "placebo"%string -> sd_binary rows d ->
  sdid_periods zmem (sd_periods rows t) post = Ok (pre, pst) -> sd_treated rows u d <> [] -> sd_control rows u d <> [] ->
  (covs <> [] -> (length (sd_design rows u t covs) <= length rows)%nat) -> sd_dup rows u t = false ->
  exists r, fit rows u t d cfg y covs post draws perms = Ok r.
Proof.
  intros Hm Hb EP Ht Hc Hl ED.
  assert (exists w, (match covs with [] => Ok y | _ => sd_residualize qr lstsq inv rows u t y covs end) = Ok w) as [w Ew].
  { destruct covs as [|x xs] eqn:Ec; [eauto|]. rewrite <- Ec in *. assert (K := sd_residualize_ok qr lstsq inv Hqr rows u t y covs).
    rewrite (proj2 (Nat.leb_le _ _)) in K by (apply Hl; rewrite Ec; discriminate). destruct (sd_residualize _ _ _ _ _ _ _ _); [eauto|discriminate]. }
  destruct (sd_finish backend sf z cfg (sd_cell rows u t w) pre pst (sd_treated rows u d) (sd_control rows u d) (length rows) draws perms) as [r|e] eqn:F.
  - exists r. apply sd_fit_ok. exists pre, pst, w. auto 8.
  - exfalso. unfold sd_finish in F. rewrite Hm in F. cbn [String.eqb Ascii.eqb Bool.eqb bind] in F. destruct (placebo_se _ _ _); discriminate.
Qed.
End Covs.

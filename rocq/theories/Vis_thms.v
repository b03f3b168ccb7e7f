(* Theorems about the plots of visualization.py *)
From Verif Require Import Prelude Flt Linalg_thms Multi_model Multi_proofs Honest_model Honest_ex Lp Bacon_model Trop_sel Vis_model Vis_proofs.
From Coq Require Import Arith ZArith String List Sorting.Sorted.
Import ListNotations.
Open Scope R_scope.

(* ---- shading of the pre-treatment event times ---- *)
Fixpoint zinc (l : list Z) : Prop := match l with [] => True | x :: r => (forall y, In y r -> (x < y)%Z) /\ zinc r end.
Lemma zsorted_inc l : zsorted l -> NoDup l -> zinc l.
Proof.
  induction l as [|x l IH]; simpl; [tauto|]. intros [A B] ND. inversion ND as [|? ? Hn ND']; subst.
  split; [|auto]. intros y Hy. specialize (A y Hy). assert (x <> y) by congruence. lia.
Qed.
Lemma zinc_nth l : zinc l -> forall i j a b, (i < j)%nat -> nth_error l i = Some a -> nth_error l j = Some b -> (a < b)%Z.
Proof.
  induction l as [|x l IH]; intros H i j a b Hij Ha Hb; [destruct i; discriminate|].
  destruct H as [H1 H2]. destruct j as [|j]; [lia|]. destruct i as [|i]; simpl in *.
  - injection Ha as ->. apply H1. now apply nth_error_In in Hb.
  - apply (IH H2 i j); auto; lia.
Qed.
Lemma keepo_sub_inc (f : Z -> option es_point) l : zinc l -> (forall p q, f p = Some q -> sp_period q = p) ->
  zinc (map sp_period (keepo f l)).
Proof.
  intros H Hf. induction l as [|x l IH]; simpl; [auto|]. destruct H as [H1 H2]. specialize (IH H2). unfold keepo in *. simpl.
  destruct (f x) as [q|] eqn:E; simpl; [|exact IH]. split; [|exact IH].
  intros y Hy. apply in_map_iff in Hy. destruct Hy as (q' & <- & Hq'). apply (in_keepo f) in Hq'. destruct Hq' as (z & Hz & Ez).
  rewrite (Hf _ _ E), (Hf _ _ Ez). auto.
Qed.
Lemma last_pos_some p l : forall i j, last_pos p i l = Some j -> (i <= j)%nat /\ nth_error l (j - i) = Some p.
Proof.
  induction l as [|q l IH]; intros i j; simpl; [discriminate|].
  destruct (last_pos p (S i) l) as [k|] eqn:E.
  - intros H; injection H as <-. destruct (IH _ _ E) as [A B]. split; [lia|].
    replace (k - i)%nat with (S (k - S i)) by lia. exact B.
  - destruct (Z.eqb_spec p q) as [->|N]; [|discriminate]. intros H; injection H as <-. split; [lia|]. now rewrite Nat.sub_diag.
Qed.
Lemma last_pos_none p l : forall i, last_pos p i l = None -> ~ In p l.
Proof.
  induction l as [|q l IH]; intros i; simpl; [tauto|]. destruct (last_pos p (S i) l) eqn:E; [discriminate|].
  destruct (Z.eqb_spec p q); [discriminate|]. intros _ [X|X]; [congruence|]. exact (IH _ E X).
Qed.
Lemma fold_min_le a l : (fold_right Nat.min a l <= a)%nat /\ (forall x, In x l -> (fold_right Nat.min a l <= x)%nat) /\ In (fold_right Nat.min a l) (a :: l).
Proof.
  induction l as [|y l (A & B & C)]; simpl; [split; [lia|split; [tauto|auto]]|]. split; [lia|]. split.
  - intros x [->|H]; [lia|]. specialize (B x H). lia.
  - destruct (Nat.min_spec y (fold_right Nat.min a l)) as [[_ ->]|[_ ->]]; simpl; [tauto|]. simpl in C. tauto.
Qed.
Lemma fold_max_ge a l : (a <= fold_right Nat.max a l)%nat /\ (forall x, In x l -> (x <= fold_right Nat.max a l)%nat) /\ In (fold_right Nat.max a l) (a :: l).
Proof.
  induction l as [|y l (A & B & C)]; simpl; [split; [lia|split; [tauto|auto]]|]. split; [lia|]. split.
  - intros x [->|H]; [lia|]. specialize (B x H). lia.
  - destruct (Nat.max_spec y (fold_right Nat.max a l)) as [[_ ->]|[_ ->]]; simpl; [|tauto]. simpl in C. tauto.
Qed.
Lemma es_point_period ppf alpha e s r p q : es_point_of ppf alpha e s r p = Some q -> sp_period q = p.
Proof. unfold es_point_of. destruct (fisnan _); [discriminate|]. intros H; injection H as <-. reflexivity. Qed.

Section T.
Variable ppf : option Z -> R -> R.

(* event-study results plotted with default periods: increasing event times, and the shaded stretch is
   exactly the negative event times *)
Theorem event_shading es ref alpha sr pl : NoDup (zkeys es) ->
  plot_event_study ppf (Some (VEvent (Some es))) None None None None None ref alpha true sr = Ok pl ->
  zinc (map sp_period (ep_points pl)) /\
  forall i p, nth_error (ep_points pl) i = Some p ->
    ((exists a b, ep_shade pl = Some (a, b) /\ (a <= i <= b)%nat) <-> (sp_period p < 0)%Z).
Proof.
  intros ND. unfold plot_event_study, extract_plot_data, or_else. cbn [bind vd_effects vd_se vd_periods vd_pre vd_ref vd_inferred].
  match goal with |- context [keepo ?f ?l] => set (g := f); set (ps := l) end.
  destruct (keepo g ps) as [|q0 pts0] eqn:E; [discriminate|]. rewrite <- E.
  assert (INC : zinc (map sp_period (keepo g ps))).
  { apply keepo_sub_inc; [apply zsorted_inc; [apply zsort_sorted|now apply zsort_NoDup]|]. intros p q. apply es_point_period. }
  set (pts := keepo g ps) in *. intros H. injection H as <-. cbn [ep_points ep_shade]. split; [exact INC|].
  intros i p Hi. set (xs := map sp_period pts) in *.
  assert (Hx : nth_error xs i = Some (sp_period p)) by (unfold xs; now apply map_nth_error).
  set (prex := keepo (fun q => last_pos q 0 xs) (filter (fun q => Z.ltb q 0) ps)).
  assert (PX : forall j, In j prex <-> exists q, (q < 0)%Z /\ nth_error xs j = Some q).
  { intros j. unfold prex. rewrite in_keepo. split.
    - intros (q & Hq & Hj). apply filter_In in Hq. destruct Hq as [_ Hq]. apply Z.ltb_lt in Hq.
      apply last_pos_some in Hj. destruct Hj as [_ Hj]. rewrite Nat.sub_0_r in Hj. eauto.
    - intros (q & Hq & Hj). exists q. split.
      + apply filter_In. split; [|now apply Z.ltb_lt]. apply nth_error_In in Hj. unfold xs in Hj. apply in_map_iff in Hj.
        destruct Hj as (pt & <- & Hpt). unfold pts in Hpt. apply in_keepo in Hpt. destruct Hpt as (z & Hz & Ez).
        rewrite (es_point_period _ _ _ _ _ _ _ Ez). exact Hz.
      + destruct (last_pos q 0 xs) as [k|] eqn:EK.
        * apply last_pos_some in EK. destruct EK as [_ EK]. rewrite Nat.sub_0_r in EK. f_equal.
          destruct (lt_eq_lt_dec k j) as [[L|L]|L]; auto; exfalso; [pose proof (zinc_nth _ INC _ _ _ _ L EK Hj)|pose proof (zinc_nth _ INC _ _ _ _ L Hj EK)]; lia.
        * exfalso. apply last_pos_none in EK. apply EK. now apply nth_error_In in Hj. }
  destruct prex as [|a r] eqn:EP.
  - split; [intros (x & y & X & _); discriminate|]. intros Hp. exfalso. apply (proj2 (PX i)). eauto.
  - destruct (fold_min_le a r) as (_ & M1 & M2). destruct (fold_max_ge a r) as (X0 & X1 & X2).
    destruct (fold_min_le a r) as (M0 & _ & _). split.
    + intros (x & y & X & L1 & L2). injection X as <- <-. apply PX in X2. destruct X2 as (q & Hq & Hj).
      destruct (le_lt_eq_dec _ _ L2) as [L|L]; [pose proof (zinc_nth _ INC _ _ _ _ L Hx Hj); lia|]. rewrite <- L in Hj. congruence.
    + intros Hp. assert (In i (a :: r)) by (apply PX; eauto). do 2 eexists. split; [reflexivity|].
      destruct H as [->|H]; [split; auto|]. split; [now apply M1|now apply X1].
Qed.

(* the hollow marker of event-study results: the given reference, else the entry with n_groups = 0, else -1 *)
Theorem event_marker es periods pre post alpha sh sr pl : NoDup (zkeys es) ->
  plot_event_study ppf (Some (VEvent (Some es))) None None periods pre post None alpha sh sr = Ok pl ->
  forall p, In p (ep_points pl) -> (sp_ref p = true <->
    match find_marker es with Some q => sp_period p = q | None => sp_period p = (-1)%Z end).
Proof.
  intros ND H p Hp. destruct (points_gen ppf (VEvent (Some es)) _ _ _ _ _ _ _ _ ND H) as (d & Ed & Ep). rewrite Ep in Hp.
  apply in_keepo in Hp. destruct Hp as (q & _ & Hq). unfold es_point_of in Hq. destruct (fisnan _); [discriminate|].
  injection Hq as <-. cbn [sp_ref sp_period]. simpl in Ed. injection Ed as <-. cbn [vd_ref]. unfold infer_ref.
  destruct (find_marker es); rewrite Z.eqb_eq; tauto.
Qed.

(* the optional interval columns of a data frame are not read *)
Theorem frame_interval_unused rows rows' e s periods pre post ref alpha sh sr :
  map fst rows = map fst rows' ->
  plot_event_study ppf (Some (VFrame true true true rows)) e s periods pre post ref alpha sh sr
  = plot_event_study ppf (Some (VFrame true true true rows')) e s periods pre post ref alpha sh sr.
Proof.
  intros E. assert (G : forall (A : Type) (f : Z * fl * fl -> A), map (fun x => f (fst x)) rows = map (fun x : Z*fl*fl*option (fl*fl) => f (fst x)) rows').
  { intros A f. rewrite <- (map_map fst f rows), <- (map_map fst f rows'). now rewrite E. }
  unfold plot_event_study, extract_plot_data. cbn [negb].
  rewrite (G _ (fun y => (fst (fst y), snd (fst y)))), (G _ (fun y => (fst (fst y), snd y))), (G _ (fun y => fst (fst y))). reflexivity.
Qed.

(* ---- bars and inference ---- *)
Theorem bar_is_normal_ci alpha e s : bar (ppf None (1 - alpha / 2)) e (Fin s) = u_ci ppf e (Fin s) alpha None.
Proof. reflexivity. Qed.

Theorem bar_verdict sf alpha e s : dist_ok sf ppf -> 0 < alpha < 1 -> 0 < s ->
  let b := bar (ppf None (1 - alpha / 2)) (Fin e) (Fin s) in
  ((flt (snd b) (Fin 0) || flt (Fin 0) (fst b) = true) <->
   exists p, u_p_value sf (Fin (e / s)) None = Fin p /\ p < alpha).
Proof.
  intros D Ha Hs. cbv zeta. unfold bar. cbn [fst snd fmul fsub fadd fneg flt]. set (z := ppf None (1 - alpha / 2)).
  unfold u_p_value, u_sf. cbn [fabs]. destruct (d_fin _ _ D None (Rabs (e / s))) as (p & Ep & Hp). rewrite Ep. cbn [fmul].
  assert (Hz := d_pos _ _ D None alpha Ha). fold z in Hz.
  assert (K := d_dual _ _ D None (Rabs (e / s)) p alpha (Rabs_pos _) Ep Ha). fold z in K.
  assert (Q : (z < Rabs (e / s)) <-> z * s < Rabs e).
  { unfold Rdiv. rewrite Rabs_mult, (Rabs_pos_eq (/ s)) by (apply Rlt_le, Rinv_0_lt_compat; lra).
    split; intros X.
    - apply (Rmult_lt_compat_r s) in X; [|lra]. rewrite Rmult_assoc, Rinv_l in X by lra. lra.
    - apply (Rmult_lt_reg_r s); [lra|]. rewrite Rmult_assoc, Rinv_l by lra. lra. }
  rewrite orb_true_iff, !Rltb_true. split.
  - intros X. exists (2 * p). split; [reflexivity|]. apply K, Q. assert (0 < z * s) by (apply Rmult_lt_0_compat; lra).
    unfold Rabs. destruct (Rcase_abs e); destruct X as [X|X]; lra.
  - intros (q & Eq & Hq). injection Eq as <-. apply K, Q in Hq. unfold Rabs in Hq. destruct (Rcase_abs e); [left|right]; lra.
Qed.

(* MultiPeriodDiD reports t intervals; the bar agrees only if the two quantiles do *)
Theorem mp_bar_iff sf alpha df coef V p idx e s : (0 < df)%Z -> 0 < s ->
  let pe := mp_effect sf ppf alpha df coef V p idx in
  pe_effect pe = Fin e -> pe_se pe = Fin s ->
  (bar (ppf None (1 - alpha / 2)) (pe_effect pe) (pe_se pe) = pe_ci pe
   <-> ppf None (1 - alpha / 2) = ppf (Some df) (1 - alpha / 2)).
Proof.
  intros Hd Hs. cbv zeta. unfold mp_effect. cbn [pe_effect pe_se pe_ci]. intros -> ->.
  unfold bar, u_ci, u_ppf. apply Z.ltb_lt in Hd. rewrite Hd. cbn [fmul fsub fadd fneg]. split.
  - intros H. injection H as H1 H2. apply (Rmult_eq_reg_r s); lra.
  - intros ->. reflexivity.
Qed.

(* ---- plot_group_effects ---- *)
Lemma tinsert_perm {A} (x : Z * A) l : Permutation (tinsert x l) (x :: l).
Proof.
  induction l as [|y l IH]; simpl; [reflexivity|]. destruct (Z.leb (fst x) (fst y)); [reflexivity|].
  rewrite IH. apply perm_swap.
Qed.
Lemma tsort_perm {A} (l : list (Z * A)) : Permutation (tsort l) l.
Proof. induction l as [|x l IH]; simpl; [constructor|]. rewrite tinsert_perm. now constructor. Qed.
Lemma tinsert_sorted {A} (x : Z * A) l : zsorted (map fst l) -> zsorted (map fst (tinsert x l)).
Proof.
  induction l as [|y l IH]; simpl; [tauto|]. intros [H1 H2]. destruct (Z.leb_spec (fst x) (fst y)) as [L|L]; simpl.
  - split; [|auto]. intros z [<-|Hz]; [lia|]. specialize (H1 z Hz). lia.
  - split; [|auto]. intros z Hz. apply in_map_iff in Hz. destruct Hz as (w & <- & Hw).
    apply (Permutation_in _ (tinsert_perm x l)) in Hw. destruct Hw as [<-|Hw]; [lia|]. apply H1. now apply in_map.
Qed.
Lemma tsort_sorted {A} (l : list (Z * A)) : zsorted (map fst (tsort l)).
Proof. induction l as [|x l IH]; simpl; [auto|]. now apply tinsert_sorted. Qed.

Theorem group_effects_spec gt groups alpha g l :
  In (g, l) (plot_group_effects ppf gt groups alpha) ->
  (forall t e b, In (t, (e, b)) l <-> exists s, In (g, t, (e, s)) gt /\ b = ge_bar ppf alpha e s)
  /\ zsorted (map fst l).
Proof.
  unfold plot_group_effects. rewrite in_keepo. intros (g' & _ & H).
  match type of H with match tsort ?x with _ => _ end = _ => set (cells := x) in H end.
  assert (E : g' = g /\ l = map (fun x => (fst x, (fst (snd x), ge_bar ppf alpha (fst (snd x)) (snd (snd x))))) (tsort cells)).
  { destruct (tsort cells); [discriminate|]. injection H as -> <-. auto. }
  destruct E as [-> ->]. split.
  - intros t e b. rewrite in_map_iff. split.
    + intros ((t', (e', s)) & Eq & Hin). cbn in Eq. injection Eq as -> -> <-.
      apply (Permutation_in _ (tsort_perm _)) in Hin. unfold cells in Hin. apply in_map_iff in Hin. destruct Hin as (((g2, t2), (e2, s2)) & Eq & Hf).
      cbn in Eq. injection Eq as -> -> ->. apply filter_In in Hf. destruct Hf as [Hf Hg]. apply Z.eqb_eq in Hg. cbn in Hg. subst g2.
      exists s. auto.
    + intros (s & Hin & ->). exists (t, (e, s)). split; [reflexivity|]. apply (Permutation_in _ (Permutation_sym (tsort_perm _))).
      unfold cells. apply in_map_iff. exists (g, t, (e, s)). split; [reflexivity|]. apply filter_In. split; auto. apply Z.eqb_refl.
  - rewrite map_map. cbn [fst]. apply (tsort_sorted cells).
Qed.
Theorem group_effects_groups gt groups alpha g :
  (exists l, In (g, l) (plot_group_effects ppf gt groups alpha)) <->
  (exists t d, In (g, t, d) gt) /\ match groups with Some gs => In g gs | None => True end.
Proof.
  unfold plot_group_effects. split.
  - intros [l Hl]. apply in_keepo in Hl. destruct Hl as (g' & Hg & H).
    match type of H with match tsort ?x with _ => _ end = _ => set (cells := x) in H end.
    destruct (tsort cells) as [|(t, d) r] eqn:E; [discriminate|]. injection H as -> _. split.
    + assert (X : In (t, d) cells) by (apply (Permutation_in _ (tsort_perm _)); rewrite E; now left).
      unfold cells in X. apply in_map_iff in X. destruct X as (((g2, t2), d2) & Eq & Hf). cbn in Eq. injection Eq as -> ->.
      apply filter_In in Hf. destruct Hf as [Hf Hg2]. apply Z.eqb_eq in Hg2. cbn in Hg2. subst g2. eauto.
    + destruct groups; auto.
  - intros [(t & d & Hin) Hg]. 
    assert (X : In (t, d) (tsort (map (fun x => (snd (fst x), snd x)) (filter (fun x => Z.eqb (fst (fst x)) g) gt)))).
    { apply (Permutation_in _ (Permutation_sym (tsort_perm _))). apply in_map_iff. exists (g, t, d). split; [reflexivity|].
      apply filter_In. split; auto. apply Z.eqb_refl. }
    destruct (tsort _) as [|x r] eqn:E in X; [destruct X|].
    eexists. apply in_keepo. exists g. split.
    + destruct groups as [gs|]; [exact Hg|]. apply zsort_In, nodup_In. apply in_map_iff. exists (g, t, d). auto.
    + rewrite E. reflexivity.
Qed.
Theorem group_bar_finite alpha e s : ge_bar ppf alpha (Fin e) (Fin s)
  = (Fin (ppf None (1 - alpha / 2) * s), Fin (ppf None (1 - alpha / 2) * s)).
Proof. unfold ge_bar, zcrit. cbn [fmul fsub fadd fneg]. f_equal; f_equal; ring. Qed.

(* ---- plot_honest_event_study ---- *)
Lemma zgets_spec {A} (d : list (Z * A)) ps : forall l, zgets d ps = Ok l <-> map Some l = map (fun p => zget p d) ps.
Proof.
  induction ps as [|p ps IH]; intros l; simpl.
  - split; [intros H; injection H as <-; reflexivity|]. destruct l; [reflexivity|discriminate].
  - destruct (zget p d) as [v|]; simpl.
    + destruct (zgets d ps) as [l'|e]; simpl.
      * split; [intros H; injection H as <-; simpl; f_equal; now apply IH|].
        destruct l as [|a l]; simpl; [discriminate|]. intros H. injection H as -> H. apply IH in H. injection H as ->. reflexivity.
      * split; [discriminate|]. destruct l as [|a l]; simpl; [discriminate|]. intros H. injection H as -> H. apply IH in H. discriminate.
    + split; [discriminate|]. destruct l; discriminate.
Qed.

(* every interval drawn from HonestDiD.fit's results is the one interval of the summary parameter *)
Theorem honest_same_interval orig o periods pts :
  plot_honest_event_study ppf (honest_view_of orig o) periods = Ok pts ->
  forall p, In p pts -> hp_honest p = (ho_ci_lb o, ho_ci_ub o).
Proof.
  unfold plot_honest_event_study, honest_view_of. cbn [hv_original hv_alpha hv_ci hv_bounds].
  match goal with |- context [bind ?x _] => destruct x as [[d ps]|] eqn:E0 end; cbn [bind]; [|discriminate].
  cbn [fst snd]. destruct (zgets d ps) as [es|]; cbn [bind]; [|discriminate].
  destruct (_ && _) ; [|discriminate]. intros H. injection H as <-. clear E0.
  revert es. induction ps as [|q ps IH]; intros es p; destruct es as [|e es]; simpl; try tauto.
  intros [<-|H]; [reflexivity|]. exact (IH es p H).
Qed.

(* an effect outside that interval makes the drawing fail *)
Lemma errorbar_false l a b : In (a, b) l -> flt a (Fin 0) = true \/ flt b (Fin 0) = true -> errorbar_ok l = false.
Proof.
  intros H C. unfold errorbar_ok. destruct (forallb _ l) eqn:E; [|reflexivity].
  rewrite forallb_forall in E. specialize (E _ H). cbn in E. destruct C as [C|C]; rewrite C in E; simpl in E; [discriminate|].
  rewrite andb_false_r in E. discriminate.
Qed.

Definition effects_of (r : vresults) : list (Z * (fl * fl)) :=
  match r with
  | VMulti pe _ _ => pe
  | VEvent (Some es) => map (fun x => (fst x, (ev_effect (snd x), ev_se (snd x)))) es
  | _ => []
  end.

Lemma bar_test e lo hi : ((flt (fsub (Fin e) (Fin lo)) (Fin 0) = true) <-> e < lo) /\ ((flt (fsub (Fin hi) (Fin e)) (Fin 0) = true) <-> hi < e).
Proof. cbn [fsub fadd fneg flt]. rewrite !Rltb_true. split; split; intros; lra. Qed.

(* with finite effects and non-negative standard errors: the plot fails exactly when some plotted effect lies
   outside the interval *)
Theorem honest_fails_iff orig o lo hi : keys_ok orig ->
  match orig with VMulti _ _ _ | VEvent (Some _) => True | _ => False end ->
  ho_ci_lb o = Fin lo -> ho_ci_ub o = Fin hi -> 0 <= ppf None (1 - ho_alpha o / 2) ->
  (forall p e s, In (p, (e, s)) (effects_of orig) -> exists a b, e = Fin a /\ s = Fin b /\ 0 <= b) ->
  (plot_honest_event_study ppf (honest_view_of orig o) None = Err ValueError
     <-> exists p e s, In (p, (Fin e, s)) (effects_of orig) /\ (e < lo \/ hi < e))
  /\ (is_ok (plot_honest_event_study ppf (honest_view_of orig o) None) = true
     <-> forall p e s, In (p, (Fin e, s)) (effects_of orig) -> lo <= e <= hi).
Proof.
  intros HK HT HL HH HZ HF.
  assert (P : exists ps, plot_honest_event_study ppf (honest_view_of orig o) None
     = (do es <- zgets (effects_of orig) ps ; do hs <- Ok (map (fun _ : Z => (Fin lo, Fin hi)) ps) ;
        let z := zcrit ppf (ho_alpha o) in
        let pts := zip3 (fun p e h => {| hp_period := p; hp_effect := fst e;
                                   hp_standard := (fsub (fst e) (fmul z (snd e)), fadd (fst e) (fmul z (snd e)));
                                   hp_honest := h |}) ps es hs in
        let bar f q := (fsub (hp_effect q) (fst (f q)), fsub (snd (f q)) (hp_effect q)) in
        if errorbar_ok (map (bar hp_standard) pts) && errorbar_ok (map (bar hp_honest) pts) then Ok pts else Err ValueError)
     /\ (forall p, In p ps <-> In p (zkeys (effects_of orig)))).
  { unfold plot_honest_event_study, honest_view_of. cbn [hv_original hv_alpha hv_ci hv_bounds]. rewrite HL, HH.
    destruct orig as [| pe pre post | [es|] |]; try contradiction; cbn [bind fst snd].
    - exists (zkeys pe). split; [reflexivity|]. tauto.
    - exists (zsort (zkeys es)). split; [reflexivity|]. intros p. rewrite zsort_In. simpl.
      rewrite (zkeys_map (fun v => (ev_effect v, ev_se v))). tauto. }
  destruct P as (ps & -> & Hps).
  assert (ND : NoDup (zkeys (effects_of orig))).
  { destruct orig as [| pe pre post | [es|] |]; try contradiction; simpl; [exact HK|].
    rewrite (zkeys_map (fun v => (ev_effect v, ev_se v))). exact HK. }
  assert (L : exists es, zgets (effects_of orig) ps = Ok es).
  { assert (A : forall p, In p ps -> exists v, zget p (effects_of orig) = Some v).
    { intros p Hp. apply Hps in Hp. destruct (zget p (effects_of orig)) eqn:E; [eauto|]. apply zget_none in E. contradiction. }
    clear Hps. induction ps as [|p ps IH]; simpl; [eauto|]. destruct (A p (or_introl eq_refl)) as [v Ev]. rewrite Ev.
    destruct IH as [es Ees]; [intros q Hq; apply A; now right|]. rewrite Ees. simpl. eauto. }
  destruct L as [es Ees]. rewrite Ees. cbn [bind]. cbv zeta.
  match goal with |- context [zip3 ?f ps es ?h] => set (pts := zip3 f ps es h) end.
  assert (IN : forall q, In q pts <-> exists p e s, In p ps /\ zget p (effects_of orig) = Some (e, s) /\
      q = {| hp_period := p; hp_effect := e; hp_standard := (fsub e (fmul (zcrit ppf (ho_alpha o)) s), fadd e (fmul (zcrit ppf (ho_alpha o)) s)); hp_honest := (Fin lo, Fin hi) |}).
  { apply zgets_spec in Ees. unfold pts. clear - Ees. revert es Ees. induction ps as [|p ps IH]; intros es Ees q.
    - destruct es; [|discriminate]. simpl. split; [tauto|]. intros (p & _ & _ & [] & _).
    - destruct es as [|(e, s) es]; [discriminate|]. simpl in Ees. injection Ees as E1 E2. simpl. rewrite (IH es E2 q). split.
      + intros [<-|(p' & e' & s' & Hp & H)]; [exists p, e, s|exists p', e', s']; auto.
      + intros (p' & e' & s' & [<-|Hp] & Hz & ->); [left; rewrite Hz in E1; injection E1 as -> ->; reflexivity|right; eauto 6]. }
  set (ok1 := errorbar_ok (map _ pts)).
  assert (O1 : ok1 = true).
  { unfold ok1, errorbar_ok. apply forallb_forall. intros x Hx. apply in_map_iff in Hx. destruct Hx as (q & <- & Hq).
    apply IN in Hq. destruct Hq as (p & e & s & Hp & Hz & ->). apply zget_in in Hz. destruct (HF _ _ _ Hz) as (a & b & -> & -> & Hb).
    unfold zcrit. cbn [hp_effect hp_standard fst snd fmul fsub fadd fneg flt].
    assert (0 <= ppf None (1 - ho_alpha o / 2) * b) by (apply Rmult_le_pos; auto).
    apply andb_true_intro; split; apply negb_true_iff; apply Rltb_false; lra. }
  rewrite O1. cbn [andb]. 
  match goal with |- context [if ?b then _ else _] => set (ok2 := b) end.
  assert (O2 : ok2 = true <-> forall p e s, In (p, (Fin e, s)) (effects_of orig) -> lo <= e <= hi).
  { unfold ok2, errorbar_ok. rewrite forallb_forall. split.
    - intros H p e s Hin. assert (Hz := in_zget _ _ _ ND Hin).
      assert (Hq : In p ps) by (apply Hps; apply in_map_iff; eexists; split; [|exact Hin]; reflexivity).
      specialize (H (fsub (Fin e) (Fin lo), fsub (Fin hi) (Fin e))). destruct (bar_test e lo hi) as [B1 B2].
      assert (T : negb (flt (fsub (Fin e) (Fin lo)) (Fin 0)) && negb (flt (fsub (Fin hi) (Fin e)) (Fin 0)) = true).
      { apply H. apply in_map_iff. eexists. split; [|apply IN; exists p, (Fin e), s; repeat split; eauto]. reflexivity. }
      apply andb_prop in T. destruct T as [T1 T2]. apply negb_true_iff in T1, T2.
      split; apply Rnot_lt_le; intros X; [apply B1 in X|apply B2 in X]; congruence.
    - intros H x Hx. apply in_map_iff in Hx. destruct Hx as (q & <- & Hq).
      apply IN in Hq. destruct Hq as (p & e & s & Hp & Hz & ->). apply zget_in in Hz. destruct (HF _ _ _ Hz) as (a & b & -> & -> & Hb).
      cbn [hp_effect hp_honest fst snd]. destruct (bar_test a lo hi) as [B1 B2]. specialize (H _ _ _ Hz).
      apply andb_true_intro; split; apply negb_true_iff; apply Bool.not_true_iff_false; intros X;
      [apply B1 in X|apply B2 in X]; lra. }
  clearbody ok2. split.
  - split.
    + intros H. destruct ok2 eqn:Eo; [discriminate|].
      (* some effect lies outside *)
      assert (X : exists p e s, In (p, (Fin e, s)) (effects_of orig) /\ (e < lo \/ hi < e)).
      { assert (D : forall l : list (Z * (fl * fl)), (forall p e s, In (p, (e, s)) l -> exists a b, e = Fin a /\ s = Fin b /\ 0 <= b) ->
           (exists p e s, In (p, (Fin e, s)) l /\ (e < lo \/ hi < e)) \/ (forall p e s, In (p, (Fin e, s)) l -> lo <= e <= hi)).
        { induction l as [|(p, (e, s)) l IH]; intros Hl; [right; intros ? ? ? []|].
          destruct (Hl p e s (or_introl eq_refl)) as (a & b & -> & -> & _).
          destruct (Rlt_dec a lo) as [L1|L1]; [left; exists p, a, (Fin b); split; [now left|auto]|].
          destruct (Rlt_dec hi a) as [L2|L2]; [left; exists p, a, (Fin b); split; [now left|auto]|].
          destruct IH as [(p' & e' & s' & Hin & C)|R0]; [intros; eapply Hl; right; eauto|left; exists p', e', s'; split; [now right|auto]|].
          right. intros p' e' s' [Eq|Hin]; [injection Eq as <- <- <-; lra|eauto]. }
        destruct (D _ HF) as [Y|Y]; [exact Y|]. apply O2 in Y. discriminate. }
      exact X.
    + intros (p & e & s & Hin & C). destruct ok2; [|reflexivity]. exfalso. assert (T := proj1 O2 eq_refl _ _ _ Hin). lra.
  - rewrite <- O2. destruct ok2; cbn; split; intros H; try reflexivity; discriminate H.
Qed.
End T.

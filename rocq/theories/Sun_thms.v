(* SunAbraham.fit: weights, the equivalence with 2x2 comparisons, exact recovery, options without effect. *)
From Verif Require Import Prelude Flt Stats_model Stats_proofs Linalg_model Linalg_proofs Linalg_vcov Linalg_thms Did_model Did_proofs Within_proofs Multi_model Multi_proofs Multi_thms Bacon_model Bacon_proofs Staggered_model Staggered_proofs Staggered_thms Staggered_more Sun_model Sun_proofs.
From Coq Require Import Arith ZArith String List Permutation.
Import ListNotations.
Open Scope R_scope.

Lemma cs_groups_In {I} (rows : list I) g c : In c (cs_groups rows g) <-> c_gt c 0 = true /\ exists i, In i rows /\ g i = c.
Proof.
  unfold cs_groups. rewrite in_app_iff, in_map_iff. split.
  - intros [(z & <- & Hz)|H].
    + apply group_in in Hz as [Hz (i & Hi & E)]. split; [apply Z.ltb_lt; exact Hz|exists i; auto].
    + destruct (existsb _ rows) eqn:E; [|destruct H]. destruct H as [<-|[]]. split; [reflexivity|].
      apply existsb_exists in E as (i & Hi & E). apply c_eqb_true in E. exists i; auto.
  - intros (Hc & i & Hi & E). destruct c as [z| |]; cbn [c_gt] in Hc; try discriminate.
    + left. exists z. split; [reflexivity|]. apply group_in. apply Z.ltb_lt in Hc. split; [exact Hc|exists i; auto].
    + right. assert (X : existsb (fun i => c_eqb (g i) CInf) rows = true) by (apply existsb_exists; exists i; split; [exact Hi|apply c_eqb_true; exact E]).
      rewrite X. left; reflexivity.
Qed.
Lemma cs_groups_NoDup {I} (rows : list I) g : NoDup (cs_groups rows g).
Proof.
  unfold cs_groups. assert (H : NoDup (map CFin (timing_groups rows g))).
  { apply FinFun.Injective_map_NoDup; [intros a b E; injection E; auto|]. apply zsort_NoDup, NoDup_nodup. }
  destruct (existsb _ rows); [|rewrite app_nil_r; exact H].
  revert H. generalize (timing_groups rows g). intros l. induction l as [|z l IH]; intros H; cbn [map app]; [constructor; [intros []|constructor]|].
  inversion H; subst. constructor; [|apply IH; assumption]. rewrite in_app_iff. intros [X|[X|[]]]; [contradiction|discriminate].
Qed.
Lemma NoDup_app_disj {A} (a b : list A) : NoDup a -> NoDup b -> (forall x, In x a -> ~ In x b) -> NoDup (a ++ b).
Proof.
  intros Ha Hb H. induction Ha as [|x l Hx Ha IH]; simpl; [exact Hb|]. constructor.
  - rewrite in_app_iff. intros [X|X]; [contradiction|]. apply (H x); [left; reflexivity|exact X].
  - apply IH. intros z Hz. apply H. right; exact Hz.
Qed.
Lemma NoDup_pairs (gs : list coh) (es : list Z) : NoDup gs -> NoDup es -> NoDup (flat_map (fun gr => map (fun e => (gr, e)) es) gs).
Proof.
  intros Hg He. induction Hg as [|x l Hx Hg IH]; simpl; [constructor|]. apply NoDup_app_disj.
  - apply FinFun.Injective_map_NoDup; [intros a b E; injection E; auto|exact He].
  - exact IH.
  - intros k Hk Hk'. apply in_map_iff in Hk as (e & <- & _). apply in_flat_map in Hk' as (y & Hy & Hk'). apply in_map_iff in Hk' as (e' & E & _). congruence.
Qed.
Lemma sorted_bounds l x : zsorted l -> In x l -> (hd 0 l <= x)%Z /\ (x <= last l 0)%Z.
Proof.
  destruct l as [|z l]; intros Hs Hx; [destruct Hx|]. cbn [hd]. split.
  - destruct Hx as [<-|Hx]; [lia|]. apply (proj1 Hs). exact Hx.
  - revert z x Hs Hx. induction l as [|w l IH]; intros z x Hs Hx; [destruct Hx as [<-|[]]; simpl; lia|].
    change (last (z :: w :: l) 0%Z) with (last (w :: l) 0%Z). destruct Hs as [H1 H2]. destruct Hx as [<-|Hx].
    + transitivity w; [apply H1; left; reflexivity|]. apply IH; [exact H2|left; reflexivity].
    + apply IH; assumption.
Qed.

Section Fit.
Context {I : Type}.
Variable qr : list I -> list (I -> R) -> list nat.
Variable lstsq : list I -> list (I -> R) -> (I -> R) -> list R.
Variable inv : list I -> list (I -> R) -> option (nat -> nat -> R).
Variable pinv : list I -> list (I -> R) -> nat -> nat -> R.
Variable sf : option Z -> fl -> fl.
Variable ppf : option Z -> R -> R.
Hypothesis Hqr : qr_ok qr.
Hypothesis Hls : lstsq_ok lstsq.
Hypothesis Hinv : inv_ok inv.
Variables (u t : I -> Z) (g : I -> coh) (y : I -> R) (covs : list (I -> R)) (cluster : option (I -> Z)).
Notation fit := (sa_fit qr lstsq inv pinv sf ppf u t g y covs cluster).
Notation satur := (sa_saturated qr lstsq inv pinv u t g y covs cluster).
Notation iw := (sa_iw sf ppf u g).
Notation keysof := (sa_keys t g).
Notation rel := (sa_rel t g).

Theorem sa_fit_inv cfg rows r : fit cfg rows = Ok r ->
  sa_n_control u g rows <> 0%nat /\ sa_groups g rows <> [] /\
  exists reg, satur cfg (sa_groups g rows) (sa_rel_periods t g cfg rows) (sa_sample g cfg rows) = Ok reg /\
    let es := iw cfg (sa_groups g rows) (sa_rel_periods t g cfg rows) reg rows in
    sa_es r = map (fun p => (fst p, snd (snd p))) es /\ sa_cweights r = map (fun p => (fst p, fst (snd p))) es /\
    sa_att r = fst (sa_overall t g rows reg es) /\ sa_se r = snd (sa_overall t g rows reg es) /\
    sa_tt r = sa_t (sa_att r) (sa_se r) /\ sa_p r = u_p_value sf (sa_tt r) None /\ sa_ci r = u_ci ppf (sa_att r) (sa_se r) (sa_alpha cfg) None /\
    sa_rgroups r = sa_groups g rows /\ sa_rn_treated r = sa_n_treated u g rows /\ sa_rn_control r = sa_n_control u g rows /\ sa_rn_obs r = length rows /\
    sa_coh_effects r = map (fun k => (k, (sr_eff reg k, fsqrt (sr_vcov reg (sr_idx reg k) (sr_idx reg k)), sa_weight_of es k))) (sr_keys reg).
Proof.
  unfold sa_fit. intros H. destruct (Nat.eqb_spec (sa_n_control u g rows) 0) as [|Hn]; [discriminate|]. split; [exact Hn|].
  destruct (sa_groups g rows) as [|g0 gs] eqn:Eg; [discriminate|]. split; [congruence|]. rewrite <- Eg in *.
  unfold sa_estimate in H. destruct (satur cfg _ _ _) as [reg|] eqn:Er; [|discriminate]. cbn [bind] in H.
  exists reg. split; [reflexivity|]. cbv zeta. destruct (sa_overall t g rows reg _) as [att se] eqn:Eo. injection H as <-.
  cbn [sa_es sa_cweights sa_att sa_se sa_tt sa_p sa_ci sa_rgroups sa_rn_treated sa_rn_control sa_rn_obs sa_coh_effects]. repeat (split; [reflexivity|]). reflexivity.
Qed.

Lemma saturated_inv cfg groups rels rows reg : satur cfg groups rels rows = Ok reg ->
  sr_keys reg = keysof groups rels rows /\ sr_keys reg <> [] /\
  exists o, solve_ols Z.eq_dec qr lstsq inv rows (sa_cols u t g covs (sr_keys reg) rows) (within Z.eq_dec Z.eq_dec rows u t y)
     (Some match cluster with Some c => c | None => u end) true (sa_action cfg) = Ok o /\
     sr_coef reg = o_coef o /\ o_vcov o = Some (sr_vcov reg).
Proof.
  unfold sa_saturated. intros H. destruct (keysof groups rels rows) as [|k0 ks] eqn:Ek; [discriminate|]. rewrite <- Ek in *.
  destruct (linreg_fit _ _ _ _ _ _ _ _ _ _ _ _) as [l|] eqn:El; [|discriminate]. cbn [bind] in H. injection H as <-.
  cbn [sr_keys sr_coef sr_vcov]. split; [reflexivity|]. split; [congruence|].
  destruct (linreg_fit_inv _ _ _ _ _ _ _ _ _ _ _ _ _ El) as (o & Ho & Hc & _ & _ & _ & Hv). exists o. split; [exact Ho|]. split; [exact Hc|].
  destruct (solve_ols_shape Z.eq_dec qr lstsq inv Hls _ _ _ _ _ _ _ Ho) as (_ & _ & _ & _ & _ & (V & _ & W & HW & _) & _).
  rewrite HW in Hv |- *. rewrite Hv. reflexivity.
Qed.

Lemma keys_In groups rels rows gr e : In (gr, e) (keysof groups rels rows) <->
  In gr groups /\ In e rels /\ exists i, In i rows /\ g i = gr /\ rel i = Some e.
Proof.
  unfold sa_keys. rewrite filter_In, in_flat_map, existsb_exists. split.
  - intros [(g0 & Hg & Hk) (i & Hi & Hin)]. apply in_map_iff in Hk as (e0 & E & He). injection E as -> ->.
    split; [exact Hg|]. split; [exact He|]. exists i. split; [exact Hi|]. unfold sa_in in Hin. cbn [fst snd] in Hin.
    apply andb_true_iff in Hin as [A B]. apply c_eqb_true in A. destruct (rel i) as [e'|]; [|discriminate]. apply Z.eqb_eq in B. subst. auto.
  - intros (Hg & He & i & Hi & Eg & Er). split.
    + exists gr. split; [exact Hg|]. apply in_map. exact He.
    + exists i. split; [exact Hi|]. unfold sa_in. cbn [fst snd]. rewrite Eg, Er, c_eqb_refl, Z.eqb_refl. reflexivity.
Qed.
Lemma keys_NoDup groups rels rows : NoDup groups -> NoDup rels -> NoDup (keysof groups rels rows).
Proof. intros A B. apply NoDup_filter. apply NoDup_pairs; assumption. Qed.
Lemma rel_periods_NoDup cfg rows : NoDup (sa_rel_periods t g cfg rows).
Proof. apply NoDup_filter, zsort_NoDup, NoDup_nodup. Qed.
Lemma rel_times_In rows e : In e (sa_rel_times t g rows) <-> exists i, In i rows /\ rel i = Some e.
Proof.
  unfold sa_rel_times. rewrite zsort_In, nodup_In, in_flat_map. split.
  - intros (i & Hi & H). destruct (rel i) as [e'|] eqn:E; [|destruct H]. destruct H as [<-|[]]. exists i; auto.
  - intros (i & Hi & E). exists i. split; [exact Hi|]. rewrite E. left; reflexivity.
Qed.
Lemma rel_periods_In cfg rows e : In e (sa_rel_periods t g cfg rows) <->
  (exists i, In i rows /\ rel i = Some e) /\ (-20 <= e <= 20)%Z /\ e <> sa_ref cfg.
Proof.
  unfold sa_rel_periods. rewrite filter_In, rel_times_In, !andb_true_iff, !Z.leb_le, negb_true_iff, Z.eqb_neq. split.
  - intros (Hi & (A & B) & D). split; [exact Hi|]. split; [|exact D]. unfold sa_min_rel, sa_max_rel in *. destruct (sa_has_inf g rows); lia.
  - intros (Hi & H & D). split; [exact Hi|]. split; [|exact D].
    destruct (sorted_bounds (sa_rel_times t g rows) e) as [B1 B2]; [apply zsort_sorted|apply rel_times_In; exact Hi|].
    unfold sa_min_rel, sa_max_rel. destruct (sa_has_inf g rows); lia.
Qed.

(* ---- C24: weights ---- *)
Lemma has_iff reg k : sr_has reg k = true <-> In k (sr_keys reg).
Proof.
  unfold sr_has, sr_at. destruct (in_dec key_eq_dec k (sr_keys reg)) as [H|H].
  - destruct (key_index_in k _ H) as [j ->]. tauto.
  - rewrite (key_index_none k _ H). split; [discriminate|contradiction].
Qed.
Theorem iw_weights cfg groups rels reg rows e w ef : In (e, (w, ef)) (iw cfg groups rels reg rows) ->
  In e rels /\ w <> [] /\ w = sa_weights u g groups reg rows e /\ ef = sa_effect sf ppf (sa_alpha cfg) reg e w /\
  let at_e := filter (fun gr => sr_has reg (gr, e)) groups in
  map fst w = at_e /\ sumf snd w = 1 /\
  (forall gw, In gw w -> 0 <= snd gw /\ snd gw = INR (sa_size u g rows (fst gw)) / sumf (fun gr => INR (sa_size u g rows gr)) at_e) /\
  se_eff ef = fsum (map (fun gw => fmul (Fin (snd gw)) (sr_eff reg (fst gw, e))) w) /\ se_n ef = length at_e.
Proof.
  intros H. apply in_flat_map in H as (e0 & He & H). destruct (sa_weights u g groups reg rows e0) as [|x l] eqn:Ew; [destruct H|].
  destruct H as [H|[]]. rewrite <- Ew in H. injection H as <- <- <-. split; [exact He|]. split; [congruence|]. split; [reflexivity|]. split; [reflexivity|].
  cbv zeta. unfold sa_weights in *. set (at_e := filter (fun gr => sr_has reg (gr, e0)) groups) in *.
  destruct (Req_EM_T (sumf (fun gr => INR (sa_size u g rows gr)) at_e) 0) as [E0|N0]; [discriminate|].
  assert (Hpos : 0 < sumf (fun gr => INR (sa_size u g rows gr)) at_e).
  { pose proof (sumf_nonneg (fun gr => INR (sa_size u g rows gr)) at_e (fun gr _ => pos_INR _)). lra. }
  split; [rewrite map_map; cbn [fst]; apply map_id|]. split.
  - rewrite sumf_map. cbn [snd]. rewrite sumf_div. field. exact N0.
  - split; [|split; [reflexivity|cbn [se_n sa_effect]; rewrite map_length; reflexivity]].
    intros gw Hg. apply in_map_iff in Hg as (gr & <- & _). cbn [fst snd]. split; [|reflexivity].
    apply Rmult_le_pos; [apply pos_INR|]. left. apply Rinv_0_lt_compat. exact Hpos.
Qed.

Lemma n_at_sum_pos rows (l : list (Z * (list (coh * R) * sa_eff))) : l <> [] -> 0 < sumf (fun p => INR (Nat.max (sa_n_at t g rows (fst p)) 1)) l.
Proof.
  intros H. destruct l as [|p l]; [congruence|]. cbn [sumf].
  assert (0 < INR (Nat.max (sa_n_at t g rows (fst p)) 1)) by (apply lt_0_INR; lia).
  pose proof (sumf_nonneg (fun p => INR (Nat.max (sa_n_at t g rows (fst p)) 1)) l (fun p _ => pos_INR _)). lra.
Qed.
Theorem overall_weights rows reg es :
  let post := sa_post es in
  (post = [] -> sa_overall t g rows reg es = (Fin 0, Fin 0)) /\
  (post <> [] ->
     fst (sa_overall t g rows reg es) = fsum (map (fun p => fmul (Fin (sa_pw t g rows es (fst p))) (se_eff (snd (snd p)))) post) /\
     sumf (fun p => sa_pw t g rows es (fst p)) post = 1 /\
     (forall p, In p post -> 0 < sa_pw t g rows es (fst p) /\ (0 <= fst p)%Z) /\
     ((forall p, In p post -> (0 < sa_n_at t g rows (fst p))%nat) ->
       forall p, In p post -> sa_pw t g rows es (fst p) = INR (sa_n_at t g rows (fst p)) / sumf (fun q => INR (sa_n_at t g rows (fst q))) post)).
Proof.
  cbv zeta. unfold sa_overall. split; [intros ->; reflexivity|]. intros Hp. pose proof (n_at_sum_pos rows (sa_post es) Hp) as Hs. split.
  - destruct (sa_post es); [congruence|]. destruct (sa_overall_weights _ _ _ _); reflexivity.
  - split; [unfold sa_pw; rewrite sumf_div; field; lra|]. split.
    + intros p Hin. split; [|apply filter_In in Hin as [_ B]; apply Z.leb_le in B; exact B].
      unfold sa_pw. apply Rmult_lt_0_compat; [apply lt_0_INR; lia|apply Rinv_0_lt_compat; exact Hs].
    + intros Hn p Hin. unfold sa_pw. f_equal; [f_equal; specialize (Hn p Hin); lia|]. apply sumf_ext. intros q Hq. f_equal. specialize (Hn q Hq). lia.
Qed.

(* the rows at a reported relative time are rows of the cohorts reported *)
Lemma n_at_pos cfg groups rels rows reg e w ef : satur cfg groups rels (sa_sample g cfg rows) = Ok reg ->
  In (e, (w, ef)) (iw cfg groups rels reg rows) -> (0 < sa_n_at t g rows e)%nat.
Proof.
  intros Hs Hin. destruct (iw_weights _ _ _ _ _ _ _ _ Hin) as (_ & Hne & _ & _ & Hf & _). destruct w as [|[gr x] w]; [congruence|].
  assert (Hg : In gr (filter (fun gr => sr_has reg (gr, e)) groups)) by (rewrite <- Hf; left; reflexivity).
  apply filter_In in Hg as [_ Hh]. apply has_iff in Hh. destruct (saturated_inv _ _ _ _ _ Hs) as (Ek & _). rewrite Ek in Hh.
  apply keys_In in Hh as (_ & _ & i & Hi & _ & Er). unfold sa_n_at.
  assert (Hi' : In i rows) by (unfold sa_sample in Hi; destruct (String.eqb _ _); [apply filter_In in Hi; tauto|exact Hi]).
  assert (X : In i (filter (fun i => match rel i with Some e' => Z.eqb e' e | None => false end) rows)) by (apply filter_In; split; [exact Hi'|rewrite Er; apply Z.eqb_refl]).
  destruct (filter _ rows); [destruct X|simpl; lia].
Qed.

(* ---- C25: control_group ---- *)
Definition set_control (cfg : sa_config) (s : string) : sa_config :=
  {| sa_control := s; sa_anticipation := sa_anticipation cfg; sa_alpha := sa_alpha cfg; sa_action := sa_action cfg |}.
Theorem control_irrelevant cfg s rows : (forall i, In i rows -> valid_coh (g i) = true) -> fit (set_control cfg s) rows = fit cfg rows.
Proof.
  intros H. assert (E : forall cfg, sa_sample g cfg rows = rows).
  { intros c. unfold sa_sample. destruct (String.eqb _ _); [|reflexivity]. clear -H. induction rows as [|i l IH]; simpl; [reflexivity|].
    assert (E := H i (or_introl eq_refl)). unfold valid_coh in E. rewrite E, IH by (intros; apply H; right; assumption). reflexivity. }
  unfold sa_fit, sa_estimate. rewrite !E. reflexivity.
Qed.
Theorem never_treated_required cfg rows : (forall i, In i rows -> c_never (g i) = false) -> fit cfg rows = Err ValueError.
Proof.
  intros H. unfold sa_fit. assert (E : sa_n_control u g rows = 0%nat); [|rewrite E; reflexivity].
  unfold sa_n_control. match goal with |- length ?l = _ => destruct l as [|a l0] eqn:E end; [reflexivity|].
  exfalso. assert (X : In a (a :: l0)) by (left; reflexivity). rewrite <- E in X. apply filter_In in X as [_ X].
  unfold sa_never in X. destruct (filter (fun i => Z.eqb (u i) a) rows) as [|i l1] eqn:Ef; [discriminate|].
  assert (Hi : In i rows) by (apply (proj1 (filter_In (fun i => Z.eqb (u i) a) i rows)); rewrite Ef; left; reflexivity). rewrite (H i Hi) in X. discriminate.
Qed.
End Fit.

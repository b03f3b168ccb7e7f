(* SunAbraham and CallawaySantAnna agree on balanced panels without covariates. *)
From Verif Require Import Prelude Flt Stats_model Stats_proofs Linalg_model Linalg_proofs Linalg_vcov Linalg_thms Did_model Did_proofs Within_proofs Multi_model Multi_proofs Multi_thms Bacon_model Bacon_proofs Boot_model Boot_proofs Staggered_model Staggered_proofs Staggered_est Staggered_thms Staggered_more Staggered_fit Sun_model Sun_proofs Sun_thms Sun_more.
From Coq Require Import Arith ZArith String List Permutation.
Import ListNotations.
Open Scope R_scope.

Lemma sumf_in_le {A} (h : A -> R) L x : (forall a, In a L -> 0 <= h a) -> In x L -> h x <= sumf h L.
Proof.
  intros H Hx. induction L as [|a L IH]; [destruct Hx|]. cbn [sumf]. assert (0 <= h a) by (apply H; left; reflexivity).
  assert (0 <= sumf h L) by (apply sumf_nonneg; intros; apply H; right; assumption).
  destruct Hx as [<-|Hx]; [lra|]. specialize (IH (fun b Hb => H b (or_intror Hb)) Hx). lra.
Qed.

Section Agree.
Context {I : Type}.
Variable qr : list I -> list (I -> R) -> list nat.
Variable lstsq : list I -> list (I -> R) -> (I -> R) -> list R.
Variable inv : list I -> list (I -> R) -> option (nat -> nat -> R).
Variable pinv : list I -> list (I -> R) -> nat -> nat -> R.
Variable sf : option Z -> fl -> fl.
Variable ppf : option Z -> R -> R.
Hypothesis Hqr : qr_ok qr.
Hypothesis Hls : lstsq_ok lstsq.
(* the oracles of the other estimator, never reached without covariates *)
Variable qr2 : list Z -> list (Z -> R) -> list nat.
Variable lstsq2 : list Z -> list (Z -> R) -> (Z -> R) -> list R.
Variable inv2 : list Z -> list (Z -> R) -> option (nat -> nat -> R).
Variable logit : list Z -> list Z -> list (Z -> R) -> option (Z -> R).
Variables (u t : I -> Z) (g : I -> coh) (y : I -> R) (cluster : option (I -> Z)).
Variables (rows : list I) (C : Z -> coh).
Hypothesis Hbal : balanced Z.eq_dec Z.eq_dec rows u t 1.
Hypothesis HC : forall i, In i rows -> g i = C (u i).
Hypothesis Hval : forall i, In i rows -> valid_coh (g i) = true.
Notation units := (cs_units rows u).
Notation periods := (cs_periods rows t).
Notation out f := (cs_outcome rows u t (fun i => Some (f i))).
Notation yo := (fun i => Some (y i)).
Notation rel := (sa_rel t g).

Definition class (c : coh) : list Z := filter (fun a => c_eqb (norm (C a)) c) units.

Lemma out_some (f : I -> R) a s : In a units -> In s periods -> exists i, In i rows /\ u i = a /\ t i = s /\ cell_rows rows u t a s = [i] /\ out f a s = Some (f i).
Proof.
  intros Ha Hs. apply cs_units_In in Ha as (i1 & H1 & E1). apply cs_periods_In in Hs as (i2 & H2 & E2).
  destruct Hbal as [_ HB]. specialize (HB a s). rewrite in_map_iff, in_map_iff in HB. specialize (HB (ex_intro _ i1 (conj E1 H1)) (ex_intro _ i2 (conj E2 H2))).
  assert (E : cell_rows rows u t a s = filter (fun i => keqb Z.eq_dec (u i) a && keqb Z.eq_dec (t i) s) rows).
  { apply filter_ext. intros i. unfold keqb. destruct (Z.eq_dec (u i) a) as [->|N]; [rewrite Z.eqb_refl|apply Z.eqb_neq in N; rewrite N; reflexivity].
    destruct (Z.eq_dec (t i) s) as [->|N]; [rewrite Z.eqb_refl; reflexivity|apply Z.eqb_neq in N; rewrite N; reflexivity]. }
  rewrite <- E in HB. destruct (cell_rows rows u t a s) as [|i [|j l]] eqn:Ec; try discriminate. exists i.
  assert (Hi : In i (cell_rows rows u t a s)) by (rewrite Ec; left; reflexivity). apply filter_In in Hi as [Hi B]. apply andb_true_iff in B as [B1 B2].
  apply Z.eqb_eq in B1, B2. do 4 (split; [assumption || reflexivity|]). unfold cs_outcome. rewrite Ec. reflexivity.
Qed.

Lemma cell_sum (f : I -> R) c s : In s periods -> sumf f (cell rows t g c s) = sumf (fun a => oR (out f a s)) (class c).
Proof.
  intros Hs. rewrite <- (sumf_group Z.eq_dec u (class c)).
  - apply sumf_ext. intros a Ha. apply filter_In in Ha as [Ha Hc]. destruct (out_some f a s Ha Hs) as (i & Hi & Eu & Et & Ec & Eo). rewrite Eo. cbn [oR].
    replace (filter (fun x => keqb Z.eq_dec (u x) a) (cell rows t g c s)) with (cell_rows rows u t a s); [rewrite Ec; cbn [sumf]; ring|].
    unfold cell, cell_rows. rewrite Staggered_thms.filter_filter. apply filter_ext_in. intros j Hj. unfold keqb.
    destruct (Z.eq_dec (u j) a) as [E|N].
    + rewrite E, Z.eqb_refl, (HC j Hj), E, Hc. rewrite andb_true_r. reflexivity.
    + rewrite andb_false_r. apply Z.eqb_neq in N. rewrite N. reflexivity.
  - apply NoDup_filter, cs_units_NoDup.
  - intros j Hj. apply filter_In in Hj as [Hj B]. apply andb_true_iff in B as [B _]. apply filter_In. split; [apply cs_units_In; exists j; auto|].
    rewrite <- (HC j Hj). exact B.
Qed.
Lemma cell_len c s : In s periods -> len (cell rows t g c s) = len (class c).
Proof.
  intros Hs. pose proof (cell_sum (fun _ => 1) c s Hs) as E. rewrite sumf_const in E.
  rewrite (sumf_ext _ (fun _ => 1)) in E; [rewrite sumf_const in E; lra|]. intros a Ha. apply filter_In in Ha as [Ha _].
  destruct (out_some (fun _ => 1) a s Ha Hs) as (? & _ & _ & _ & _ & ->). reflexivity.
Qed.
Lemma cmean_class c s : In s periods -> cmean rows t g y c s = meanf (fun a => oR (out y a s)) (class c).
Proof. intros Hs. unfold cmean, meanf. rewrite (cell_sum y c s Hs), (cell_len c s Hs). reflexivity. Qed.
Lemma cohort_C a : In a units -> cs_cohort rows u g a = C a.
Proof. apply (cohort_const rows u g). exact HC. Qed.
Lemma pair_true a b s : In a units -> In b periods -> In s periods -> has_pair rows u t yo b s a = true.
Proof.
  intros Ha Hb Hs. unfold has_pair. destruct (out_some y a b Ha Hb) as (? & _ & _ & _ & _ & ->). destruct (out_some y a s Ha Hs) as (? & _ & _ & _ & _ & ->). reflexivity.
Qed.
Lemma norm_fin c z : z <> 0%Z -> c_eqb (norm c) (CFin z) = c_eqb c (CFin z).
Proof.
  intros Hz. unfold norm. destruct c as [k| |]; cbn [c_never]; try reflexivity. destruct (Z.eqb_spec k 0) as [->|]; [|reflexivity].
  symmetry. apply c_eqb_false. congruence.
Qed.
Lemma norm_inf c : c_eqb (norm c) CInf = c_never c.
Proof. unfold norm. destruct c as [k| |]; cbn [c_never]; try reflexivity. destruct (Z.eqb k 0); reflexivity. Qed.
Lemma treated_class z b s : z <> 0%Z -> In b periods -> In s periods -> treated_units rows u t g yo (CFin z) b s = class (CFin z).
Proof.
  intros Hz Hb Hs. apply filter_ext_in. intros a Ha. rewrite (pair_true a b s Ha Hb Hs), andb_true_r, (cohort_C a Ha), norm_fin by exact Hz. reflexivity.
Qed.
Lemma control_class cfg gr b s : cs_control cfg = "never_treated"%string -> In b periods -> In s periods ->
  control_units rows u t g yo cfg gr b s = class CInf.
Proof.
  intros Hc Hb Hs. apply filter_ext_in. intros a Ha. rewrite (pair_true a b s Ha Hb Hs), andb_true_r. unfold is_control. rewrite Hc.
  cbn [String.eqb]. rewrite (cohort_C a Ha), norm_inf. reflexivity.
Qed.
Lemma change_mean c b s : In b periods -> In s periods ->
  meanf (change rows u t yo b s) (class c) = cmean rows t g y c s - cmean rows t g y c b.
Proof.
  intros Hb Hs. rewrite !cmean_class by assumption. unfold change.
  unfold meanf. rewrite sumf_sub. unfold Rdiv. ring.
Qed.

Notation satur := (sa_saturated qr lstsq inv pinv u t g y [] cluster).
Notation effs := (all_effects qr2 lstsq2 inv2 logit rows u t g yo []).
Notation sfit := (sa_fit qr lstsq inv pinv sf ppf u t g y [] cluster).
Notation cfit := (cs_fit qr2 lstsq2 inv2 logit sf ppf rows u t g yo []).

(* one cell of the other estimator *)
Lemma cs_cell_value cfg l c z : cs_control cfg = "never_treated"%string -> effs cfg = Ok l -> In c l -> ge_g c = CFin z ->
  In (ge_base c) periods /\ In (ge_t c) periods /\ ge_T c = class (CFin z) /\
  ge_eff c = Fin ((cmean rows t g y (CFin z) (ge_t c) - cmean rows t g y (CFin z) (ge_base c)) - (cmean rows t g y CInf (ge_t c) - cmean rows t g y CInf (ge_base c))).
Proof.
  intros Hc Hl Hin Hg. destruct (effects_In _ _ _ _ _ _ _ _ _ _ cfg l c Hl Hin) as (gr & s & Hgr & _ & Hag).
  destruct (att_gt_inv _ _ _ _ _ _ _ _ _ _ _ _ _ _ Hag) as (Eg & Et & _ & Eb & Es & ET & EC & _ & _ & r & Hr & Er & _).
  rewrite Hg in Eg. subst gr. assert (Hz : z <> 0%Z).
  { apply cs_groups_In in Hgr as [Hz _]. apply Z.ltb_lt in Hz. lia. }
  rewrite <- Et in *. split; [exact Eb|]. split; [exact Es|]. rewrite (treated_class z (ge_base c) (ge_t c) Hz Eb Es) in ET. split; [exact ET|].
  rewrite (control_class cfg (CFin z) (ge_base c) (ge_t c) Hc Eb Es) in EC.
  destruct (methods_agree qr2 lstsq2 inv2 logit cfg (ge_T c) (ge_C c) (change rows u t yo (ge_base c) (ge_t c))) as (r' & Hr' & Ea & _).
  rewrite Er. cbn [cov_columns] in Hr. rewrite Hr' in Hr. injection Hr as <-. rewrite Ea, ET, EC, !change_mean by assumption. f_equal.
Qed.

Section Cells.
Variables (cfg : sa_config) (ccfg : cs_config) (reg : sa_reg) (l : list gte).
Hypothesis Hant : sa_anticipation cfg = cs_anticipation ccfg.
Hypothesis Hctl : cs_control ccfg = "never_treated"%string.
Hypothesis Href : ref_observed t g rows cfg.
Hypothesis Hrng : forall i e, In i rows -> rel i = Some e -> (-20 <= e <= 20)%Z.
Hypothesis Hnev : sa_n_control u g rows <> 0%nat.
Hypothesis Hs : satur cfg (sa_groups g rows) (sa_rel_periods t g cfg rows) rows = Ok reg.
Hypothesis Hl : effs ccfg = Ok l.
Notation f := (did rows t g y (sa_ref cfg)).

Lemma reg_keys : sr_keys reg = sa_keys t g (sa_groups g rows) (sa_rel_periods t g cfg rows) rows.
Proof. apply (saturated_inv qr lstsq inv pinv Hls u t g y [] cluster _ _ _ _ _ Hs). Qed.
Lemma reg_eff k : In k (sr_keys reg) -> sr_eff reg k = Fin (f k).
Proof. exact (fit_is_did qr lstsq inv pinv Hqr Hls u t g y [] cluster rows C 1 Hbal HC Hval cfg reg eq_refl Href Hnev Hrng Hs k). Qed.

Theorem cell_agrees c z e : In c l -> ge_g c = CFin z -> ge_t c = (z + e)%Z -> ge_base c = (z + sa_ref cfg)%Z ->
  In (CFin z, e) (sr_keys reg) -> ge_eff c = sr_eff reg (CFin z, e).
Proof.
  intros Hc Eg Et Eb Hk. rewrite (reg_eff _ Hk). destruct (cs_cell_value ccfg l c z Hctl Hl Hc Eg) as (_ & _ & _ & ->).
  rewrite Et, Eb. unfold did. cbn [fst snd]. reflexivity.
Qed.
Lemma key_row z e : In (CFin z, e) (sr_keys reg) <-> exists i, In i rows /\ g i = CFin z /\ (0 < z)%Z /\ t i = (z + e)%Z /\ e <> sa_ref cfg.
Proof.
  rewrite reg_keys. split.
  - intros H. apply keys_In in H as (_ & He & i & Hi & Eg & Er). exists i. split; [exact Hi|]. split; [exact Eg|].
    destruct (rel_cohort t g i e Er) as (k & Eg' & Hk & Et). rewrite Eg in Eg'. injection Eg' as <-. split; [exact Hk|]. split; [exact Et|].
    apply rel_periods_In in He. tauto.
  - intros (i & Hi & Eg & Hz & Et & Hne). assert (Er : rel i = Some e). { unfold sa_rel. rewrite Eg. apply Z.ltb_lt in Hz. rewrite Hz. f_equal. lia. }
    rewrite <- Eg. apply (fit_keys_In t g cfg rows i e Hi Er). split; [exact Hne|]. eapply Hrng; eauto.
Qed.
Lemma class_never : class CInf <> [].
Proof.
  destruct (never_row u g rows Hnev) as (i & Hi & Hn). intros E. assert (X : In (u i) (class CInf)); [|rewrite E in X; destruct X].
  apply filter_In. split; [apply cs_units_In; exists i; auto|]. rewrite norm_inf, <- (HC i Hi). exact Hn.
Qed.
(* every coefficient of the saturated regression is a cell of the other estimator *)
Theorem cell_found z e : In (CFin z, e) (sr_keys reg) -> (cs_universal ccfg = true \/ - cs_anticipation ccfg <= e)%Z ->
  exists c, In c l /\ ge_g c = CFin z /\ ge_t c = (z + e)%Z /\ ge_eff c = sr_eff reg (CFin z, e).
Proof.
  intros Hk Hm. destruct (proj1 (key_row z e) Hk) as (i & Hi & Eg & Hz & Et & Hne).
  assert (Hb : In (z + sa_ref cfg)%Z periods). { apply cs_periods_In. specialize (Href i z Hi Eg Hz). apply in_map_iff in Href as (j & Ej & Hj). exists j; auto. }
  assert (Hp : In (z + e)%Z periods) by (apply cs_periods_In; exists i; auto).
  assert (Eb : (z + sa_ref cfg = z - 1 - cs_anticipation ccfg)%Z) by (unfold sa_ref; lia).
  assert (Ebase : cs_base ccfg (CFin z) (z + e) = Some (z + sa_ref cfg)%Z).
  { unfold cs_base. destruct (cs_universal ccfg); [rewrite Eb; reflexivity|]. destruct Hm as [Hm|Hm]; [discriminate|].
    unfold before. destruct (Z.ltb_spec (z + e) (z - cs_anticipation ccfg)); [lia|]. rewrite Eb; reflexivity. }
  destruct (cell_exists qr2 lstsq2 inv2 logit rows u t g yo [] ccfg (CFin z) (z + e) (z + sa_ref cfg) (class (CFin z)) (class CInf) l eq_refl Hl Ebase)
    as (c & Hc & E1 & E2 & E3 & _).
  - apply zmem_true; exact Hb.
  - apply zmem_true; exact Hp.
  - apply treated_class; [lia|exact Hb|exact Hp].
  - apply control_class; assumption.
  - intros E. assert (X : In (u i) (class (CFin z))); [|rewrite E in X; destruct X].
    apply filter_In. split; [apply cs_units_In; exists i; auto|]. rewrite norm_fin by lia. rewrite <- (HC i Hi), Eg. apply c_eqb_refl.
  - exact class_never.
  - apply cs_groups_In. split; [apply Z.ltb_lt; exact Hz|exists i; auto].
  - unfold valid_periods. destruct (cs_universal ccfg).
    + apply filter_In. split; [exact Hp|]. apply negb_true_iff, Z.eqb_neq. unfold sa_ref in *. lia.
    + destruct Hm as [Hm|Hm]; [discriminate|]. apply filter_In. split; [exact Hp|]. unfold before. destruct (Z.ltb_spec (z + e) (z - cs_anticipation ccfg)); [lia|]. reflexivity.
  - exists c. split; [exact Hc|]. split; [exact E1|]. split; [exact E2|]. apply cell_agrees; assumption.
Qed.

(* ---- the overall effect ---- *)
Notation es := (sa_iw sf ppf u g cfg (sa_groups g rows) (sa_rel_periods t g cfg rows) reg rows).
Notation size gr := (INR (sa_size u g rows gr)).
Definition at_e (e : Z) : list coh := filter (fun gr => sr_has reg (gr, e)) (sa_groups g rows).
Definition tot (e : Z) : R := sumf (fun gr => size gr) (at_e e).

Lemma size_class z : (0 < z)%Z -> size (CFin z) = len (class (CFin z)).
Proof.
  intros Hz. unfold sa_size, len, class. do 2 f_equal. apply filter_ext_in. intros a Ha. unfold sa_cohort. fold (cs_cohort rows u g a).
  rewrite (cohort_C a Ha), norm_fin by lia. destruct (c_eqb (C a) (CFin z)) eqn:E; [|apply andb_false_r].
  apply c_eqb_true in E. rewrite E. apply Z.ltb_lt in Hz. cbn [c_gt]. rewrite Hz. reflexivity.
Qed.
Lemma at_e_In gr e : In gr (at_e e) <-> In (gr, e) (sr_keys reg).
Proof.
  unfold at_e. rewrite filter_In, has_iff. split; [tauto|]. intros H. split; [|exact H]. rewrite reg_keys in H. apply keys_In in H. tauto.
Qed.
Lemma key_fin gr e : In (gr, e) (sr_keys reg) -> exists z, gr = CFin z /\ (0 < z)%Z.
Proof.
  rewrite reg_keys. intros H. apply keys_In in H as (_ & _ & i & _ & Eg & Er). destruct (rel_cohort t g i e Er) as (k & Eg' & Hk & _).
  exists k. split; [congruence|exact Hk].
Qed.
Lemma size_pos_key gr e : In (gr, e) (sr_keys reg) -> 0 < size gr.
Proof.
  intros H. destruct (key_fin gr e H) as (z & -> & Hz). rewrite (size_class z Hz). apply len_pos.
  destruct (proj1 (key_row z e) H) as (i & Hi & Eg & _). intros E. assert (X : In (u i) (class (CFin z))); [|rewrite E in X; destruct X].
  apply filter_In. split; [apply cs_units_In; exists i; auto|]. rewrite norm_fin by lia. rewrite <- (HC i Hi), Eg. apply c_eqb_refl.
Qed.
Lemma tot_pos e : at_e e <> [] -> 0 < tot e.
Proof.
  intros H. unfold tot. destruct (at_e e) as [|gr l0] eqn:E; [congruence|]. cbn [sumf].
  assert (Hg : In gr (at_e e)) by (rewrite E; left; reflexivity). apply at_e_In in Hg. pose proof (size_pos_key gr e Hg).
  pose proof (sumf_nonneg (fun gr => size gr) l0 (fun gr _ => pos_INR _)). lra.
Qed.
Lemma weights_value e : sa_weights u g (sa_groups g rows) reg rows e = map (fun gr => (gr, size gr / tot e)) (at_e e).
Proof.
  unfold sa_weights. fold (at_e e). fold (tot e). destruct (Req_EM_T (tot e) 0) as [E|N]; [|reflexivity].
  destruct (at_e e) as [|gr l0] eqn:Ea; [reflexivity|]. exfalso. pose proof (tot_pos e). rewrite Ea in H. specialize (H ltac:(discriminate)). lra.
Qed.
(* observations at a relative time: one per unit of the cohorts estimated there *)
Lemma n_at_tot e : at_e e <> [] -> INR (sa_n_at t g rows e) = tot e.
Proof.
  intros Hne. set (L := filter (fun i => match rel i with Some e' => Z.eqb e' e | None => false end) rows).
  change (INR (sa_n_at t g rows e)) with (len L).
  assert (Href0 : e <> sa_ref cfg).
  { destruct (at_e e) as [|gr l0] eqn:E; [congruence|]. assert (Hg : In gr (at_e e)) by (rewrite E; left; reflexivity). apply at_e_In in Hg.
    rewrite reg_keys in Hg. apply keys_In in Hg as (_ & Hg & _). apply rel_periods_In in Hg. tauto. }
  assert (E1 : len L = sumf (fun _ => 1) L) by (rewrite sumf_const; ring). rewrite E1.
  rewrite <- (sumf_group coh_eq_dec g (at_e e)).
  - unfold tot. apply sumf_ext. intros gr Hg. apply at_e_In in Hg. destruct (key_fin gr e Hg) as (z & -> & Hz). rewrite (size_class z Hz), sumf_const, Rmult_1_r.
    destruct (proj1 (key_row z e) Hg) as (i & Hi & _ & _ & Et & _).
    rewrite <- (cell_len (CFin z) (z + e)) by (apply cs_periods_In; exists i; auto). f_equal. unfold L, cell.
    rewrite Staggered_thms.filter_filter. apply filter_ext_in. intros j Hj. unfold sa_rel. rewrite norm_fin by lia. unfold keqb.
    destruct (coh_eq_dec (g j) (CFin z)) as [E|N].
    + rewrite E, c_eqb_refl, andb_true_r. assert (Hz' := Hz). apply Z.ltb_lt in Hz'. rewrite Hz'. cbn [andb].
      destruct (Z.eqb_spec (t j - z) e); destruct (Z.eqb_spec (t j) (z + e)); try reflexivity; lia.
    + rewrite andb_false_r. symmetry. apply andb_false_iff. left. apply c_eqb_false. exact N.
  - apply NoDup_filter, cs_groups_NoDup.
  - intros i Hi. apply filter_In in Hi as [Hi B]. destruct (rel i) as [e'|] eqn:Er; [|discriminate]. apply Z.eqb_eq in B. subst e'.
    apply at_e_In. rewrite reg_keys. apply (fit_keys_In t g cfg rows i e Hi Er). split; [exact Href0|eapply Hrng; eauto].
Qed.
(* sums over the reported event times *)
Lemma post_sum (h : Z -> R) : (forall e, at_e e = [] -> h e = 0) ->
  sumf (fun p => h (fst p)) (sa_post es) = sumf h (filter (Z.leb 0) (sa_rel_periods t g cfg rows)).
Proof.
  intros H0. unfold sa_post, sa_iw. generalize (sa_rel_periods t g cfg rows). intros L0. induction L0 as [|e L IH]; [reflexivity|]. cbn [flat_map].
  rewrite filter_app, sumf_app. cbn [filter]. rewrite IH.
  destruct (sa_weights u g (sa_groups g rows) reg rows e) as [|x l0] eqn:Ew.
  - cbn [filter sumf]. rewrite weights_value in Ew. apply map_eq_nil in Ew. destruct (Z.leb 0 e); [cbn [sumf]; rewrite (H0 e Ew)|]; ring.
  - cbn [filter fst]. destruct (Z.leb 0 e); cbn [sumf fst]; ring.
Qed.
Lemma double_sum (h : sa_key -> R) :
  sumf (fun e => sumf (fun gr => h (gr, e)) (at_e e)) (filter (Z.leb 0) (sa_rel_periods t g cfg rows)) = sumf h (filter (fun k => Z.leb 0 (snd k)) (sr_keys reg)).
Proof.
  rewrite !sumf_filter.
  transitivity (sumf (fun e => sumf (fun gr => ind (sr_has reg (gr, e)) * (ind (Z.leb 0 e) * h (gr, e))) (sa_groups g rows)) (sa_rel_periods t g cfg rows)).
  { apply sumf_ext_all. intros e. unfold at_e. rewrite sumf_filter, <- sumf_scal. apply sumf_ext_all. intros; ring. }
  rewrite sumf_swap. rewrite (sumf_ext_all _ (fun gr => sumf (fun k => ind (sr_has reg k) * (ind (Z.leb 0 (snd k)) * h k)) (map (fun e => (gr, e)) (sa_rel_periods t g cfg rows)))).
  2:{ intros gr. rewrite sumf_map. reflexivity. }
  transitivity (sumf (fun k => ind (sr_has reg k) * (ind (Z.leb 0 (snd k)) * h k)) (flat_map (fun gr => map (fun e => (gr, e)) (sa_rel_periods t g cfg rows)) (sa_groups g rows))).
  { symmetry. apply sumf_flat_map. }
  rewrite reg_keys. unfold sa_keys. rewrite sumf_filter. apply sumf_ext. intros k Hk.
  assert (E : sr_has reg k = existsb (sa_in t g k) rows); [|rewrite E; reflexivity].
  apply eq_true_iff_eq. rewrite has_iff, reg_keys. unfold sa_keys. rewrite filter_In. tauto.
Qed.

Theorem sa_att_value : sa_post es <> [] ->
  let K := filter (fun k => Z.leb 0 (snd k)) (sr_keys reg) in
  fst (sa_overall t g rows reg es) = Fin (sumf (fun k => size (fst k) * f k) K / sumf (fun k => size (fst k)) K).
Proof.
  intros Hp K. rewrite (att_value sf ppf u t g cfg _ _ reg rows f reg_eff Hp).
  assert (Hpos : forall p, In p (sa_post es) -> at_e (fst p) <> [] /\ fst (snd p) = map (fun gr => (gr, size gr / tot (fst p))) (at_e (fst p))).
  { intros [e [w ef]] Hin. apply filter_In in Hin as [Hin _]. cbn [fst snd]. destruct (iw_weights sf ppf u g cfg _ _ _ _ _ _ _ Hin) as (_ & Hne & Ew & _).
    rewrite weights_value in Ew. split; [|exact Ew]. intros E. rewrite E in Ew. contradiction. }
  assert (Hmax : forall e, at_e e <> [] -> INR (Nat.max (sa_n_at t g rows e) 1) = tot e).
  { intros e He. rewrite <- (n_at_tot e He). f_equal. pose proof (tot_pos e He) as X. rewrite <- (n_at_tot e He) in X. apply (INR_lt 0) in X. lia. }
  set (N := sumf (fun k => size (fst k)) K).
  assert (EN : sumf (fun p => INR (Nat.max (sa_n_at t g rows (fst p)) 1)) (sa_post es) = N).
  { unfold N, K. refine (eq_trans _ (double_sum (fun k => size (fst k)))). cbn [fst]. rewrite <- (post_sum (fun e => sumf (fun gr => size gr) (at_e e))) by (intros e ->; reflexivity).
    apply sumf_ext. intros p Hin. apply Hmax. apply Hpos. exact Hin. }
  f_equal. unfold sa_pw. rewrite EN.
  replace (sumf (fun k => size (fst k) * f k) K) with (sumf (fun e => sumf (fun gr => size gr * f (gr, e)) (at_e e)) (filter (Z.leb 0) (sa_rel_periods t g cfg rows))) by (exact (double_sum (fun k => size (fst k) * f k))).
  rewrite <- (post_sum (fun e => sumf (fun gr => size gr * f (gr, e)) (at_e e))) by (intros e ->; reflexivity).
  rewrite <- sumf_div. apply sumf_ext. intros p Hin. destruct (Hpos p Hin) as [Hne ->]. rewrite (Hmax _ Hne), sumf_map. cbn [fst snd].
  pose proof (tot_pos _ Hne). rewrite (sumf_ext_all (fun gr => size gr / tot (fst p) * f (gr, fst p)) (fun gr => / tot (fst p) * (size gr * f (gr, fst p)))) by (intros; unfold Rdiv; ring).
  rewrite sumf_scal. set (S0 := sumf _ _). transitivity ((tot (fst p) * / tot (fst p)) * (S0 / N)); [unfold Rdiv; ring|]. rewrite Rinv_r by lra. ring.
Qed.

(* ---- the overall effect of the other estimator ---- *)
Definition keyof (c : gte) : sa_key := (ge_g c, match ge_g c with CFin z => ge_t c - z | _ => ge_t c end)%Z.
Lemma collect_NoDup {A B} (h : A -> res (option B)) (ky : B -> A) L r : (forall a b, h a = Ok (Some b) -> ky b = a) -> NoDup L -> collect h L = Ok r -> NoDup (map ky r).
Proof.
  intros Hk. revert r. induction L as [|a L IH]; intros r Hn H; cbn [collect] in H.
  - injection H as <-. constructor.
  - inversion Hn; subst. destruct (h a) as [o|] eqn:E; [|discriminate]. cbn [bind] in H. destruct (collect h L) as [bs|] eqn:Ec; [|discriminate]. cbn [bind] in H.
    injection H as <-. specialize (IH bs H3 eq_refl). destruct o as [b|]; [|exact IH]. cbn [map]. constructor; [|exact IH].
    rewrite (Hk a b E). intros X. apply in_map_iff in X as (b' & Eb & Hb). apply (proj1 (collect_In _ _ _ Ec b')) in Hb as (a' & Ha' & Hf).
    rewrite (Hk a' b' Hf) in Eb. congruence.
Qed.
Lemma cells_NoDup : NoDup (map keyof l).
Proof.
  replace (map keyof l) with (map (fun p : coh * Z => (fst p, match fst p with CFin z => snd p - z | _ => snd p end)%Z) (map (fun c => (ge_g c, ge_t c)) l)) by (rewrite map_map; reflexivity).
  apply FinFun.Injective_map_NoDup.
  - intros [c1 s1] [c2 s2] E. cbn [fst snd] in E. apply pair_equal_spec in E as [E1 E2]. subst c2. destruct c1; [f_equal; lia|congruence|congruence].
  - refine (collect_NoDup _ _ _ l _ _ Hl).
    + intros [gr s] c Hc. cbn [fst snd] in Hc. destruct (att_gt_inv _ _ _ _ _ _ _ _ _ _ _ _ _ _ Hc) as (-> & -> & _). reflexivity.
    + pose proof (cs_groups_NoDup rows g) as Hg. induction Hg as [|x L Hx Hg IH]; cbn [flat_map]; [constructor|]. apply NoDup_app_disj.
      * apply FinFun.Injective_map_NoDup; [intros a b E; congruence|]. unfold valid_periods. destruct (cs_universal ccfg); apply NoDup_filter; apply zsort_NoDup, NoDup_nodup.
      * exact IH.
      * intros k Hk Hk'. apply in_map_iff in Hk as (s & <- & _). apply in_flat_map in Hk' as (x' & Hx' & Hk'). apply in_map_iff in Hk' as (s' & E & _). congruence.
Qed.
Lemma post_keys : cs_anticipation ccfg = 0%Z ->
  Permutation (map keyof (filter (ge_post 0) l)) (filter (fun k => Z.leb 0 (snd k)) (sr_keys reg)).
Proof.
  intros H0. apply NoDup_Permutation.
  - assert (X := cells_NoDup). revert X. generalize l. intros L. induction L as [|c L IH]; cbn [map filter]; intros X; [constructor|]. inversion X as [|x0 L0 HX1 HX2]; subst.
    destruct (ge_post 0 c); cbn [map]; [|apply IH; assumption]. constructor; [|apply IH; assumption]. intros Y. apply HX1. apply in_map_iff in Y as (c' & E & Hc'). apply filter_In in Hc' as [Hc' _]. rewrite <- E. apply in_map. exact Hc'.
  - apply NoDup_filter. rewrite reg_keys. apply keys_NoDup; [apply cs_groups_NoDup|apply rel_periods_NoDup].
  - intros [gr e]. rewrite in_map_iff, filter_In. cbn [snd]. split.
    + intros (c & E & Hc). apply filter_In in Hc as [Hc Hp]. destruct (effects_In _ _ _ _ _ _ _ _ _ _ ccfg l c Hl Hc) as (gr0 & s & Hgr & _ & Hag).
      destruct (att_gt_inv _ _ _ _ _ _ _ _ _ _ _ _ _ _ Hag) as (Eg & Et & _ & _ & _ & _ & _ & HT & _).
      unfold keyof in E. unfold ge_post in Hp. destruct (ge_g c) as [z| |] eqn:Ez; cbn [before negb] in Hp; try discriminate.
      * apply pair_equal_spec in E as [<- <-]. apply negb_true_iff, Z.ltb_ge in Hp. split; [|apply Z.leb_le; lia].
        destruct (cs_cell_value ccfg l c z Hctl Hl Hc Ez) as (_ & Hs' & ET & _). destruct (ge_T c) as [|a T0]; [congruence|].
        assert (Ha : In a (class (CFin z))) by (rewrite <- ET; left; reflexivity). apply filter_In in Ha as [Ha Hca].
        assert (Hz : (0 < z)%Z) by (subst gr0; apply cs_groups_In in Hgr as [Hz _]; apply Z.ltb_lt in Hz; exact Hz).
        rewrite norm_fin in Hca by lia. apply c_eqb_true in Hca. destruct (out_some y a (ge_t c) Ha Hs') as (i & Hi & Eu & Ei & _).
        apply key_row. exists i. split; [exact Hi|]. split; [rewrite (HC i Hi), Eu; exact Hca|]. split; [exact Hz|]. split; [lia|]. unfold sa_ref. rewrite Hant, H0. lia.
      * exfalso. subst gr0. apply cs_groups_In in Hgr as [Hz _]. discriminate.
    + intros [Hk He]. apply Z.leb_le in He. destruct (key_fin gr e Hk) as (z & -> & Hz). destruct (cell_found z e Hk) as (c & Hc & Eg & Et & _); [right; lia|].
      exists c. unfold keyof. rewrite Eg, Et. split; [f_equal; lia|]. apply filter_In. split; [exact Hc|]. unfold ge_post. rewrite Eg. cbn [before].
      apply negb_true_iff, Z.ltb_ge. lia.
Qed.
Lemma cs_cell_key c : cs_anticipation ccfg = 0%Z -> In c (filter (ge_post 0) l) -> ge_n c = size (fst (keyof c)) /\ ge_eff c = Fin (f (keyof c)).
Proof.
  intros H0 Hc. assert (Hk : In (keyof c) (filter (fun k => Z.leb 0 (snd k)) (sr_keys reg))) by (apply (Permutation_in _ (post_keys H0)); apply in_map; exact Hc).
  apply filter_In in Hk as [Hk He]. apply Z.leb_le in He. apply filter_In in Hc as [Hc Hp]. unfold keyof in *. destruct (ge_g c) as [z| |] eqn:Ez.
  - cbn [fst snd] in *. destruct (key_fin _ _ Hk) as (z' & E & Hz). injection E as <-. destruct (cs_cell_value ccfg l c z Hctl Hl Hc Ez) as (_ & _ & ET & Ee).
    split; [rewrite (size_class z Hz); unfold ge_n; rewrite ET; reflexivity|]. rewrite <- (reg_eff _ Hk).
    destruct (base_facts _ _ _ _ _ _ _ _ _ _ ccfg l c Hl Hc) as (_ & _ & _ & HB & _). destruct (HB z Ez) as (_ & B2 & _). rewrite H0 in B2.
    assert (Hge : (z - 0 <= ge_t c)%Z) by lia. specialize (B2 Hge). apply cell_agrees; [exact Hc|exact Ez|lia| |exact Hk]. unfold sa_ref. rewrite Hant, H0. lia.
  - destruct (key_fin _ _ Hk) as (z & E & _). discriminate.
  - destruct (key_fin _ _ Hk) as (z & E & _). discriminate.
Qed.
Theorem overall_agrees : cs_anticipation ccfg = 0%Z -> filter (ge_post 0) l <> [] ->
  sa_post es <> [] /\ fst (sa_overall t g rows reg es) = weighted (by_size (filter (ge_post 0) l)).
Proof.
  intros H0 Hp. assert (Hpe : sa_post es <> []).
  { destruct (filter (ge_post 0) l) as [|c L] eqn:E; [congruence|]. assert (Hc : In c (filter (ge_post 0) l)) by (rewrite E; left; reflexivity).
    assert (Hk : In (keyof c) (filter (fun k => Z.leb 0 (snd k)) (sr_keys reg))) by (apply (Permutation_in _ (post_keys H0)); apply in_map; exact Hc).
    apply filter_In in Hk as [Hk He]. destruct (keyof c) as [gr e]. cbn [snd] in He. intros Ep.
    assert (Z0 : sumf (fun p => tot (fst p)) (sa_post es) = 0) by (rewrite Ep; reflexivity).
    rewrite (post_sum tot) in Z0 by (intros e0 E0; unfold tot; rewrite E0; reflexivity).
    assert (Hin : In e (filter (Z.leb 0) (sa_rel_periods t g cfg rows))).
    { apply filter_In. split; [|exact He]. rewrite reg_keys in Hk. apply keys_In in Hk. tauto. }
    pose proof (sumf_in_le tot (filter (Z.leb 0) (sa_rel_periods t g cfg rows)) e) as X.
    assert (at_e e <> []). { intros E1. apply at_e_In in Hk. rewrite E1 in Hk. destruct Hk. }
    pose proof (tot_pos e H). assert (tot e <= 0); [|lra]. rewrite <- Z0. apply X; [|exact Hin]. intros e0 _. apply sumf_nonneg. intros; apply pos_INR. }
  split; [exact Hpe|]. rewrite (sa_att_value Hpe).
  assert (HF : forall c, In c (filter (ge_post 0) l) -> exists x, ge_eff c = Fin x) by (intros c Hc; destruct (cs_cell_key c H0 Hc) as [_ ->]; eexists; reflexivity).
  rewrite (by_size_value _ HF). rewrite <- !(sumf_perm _ _ _ (post_keys H0)), !sumf_map. f_equal. f_equal; apply sumf_ext; intros c Hc; destruct (cs_cell_key c H0 Hc) as [E1 E2].
  - rewrite E1, E2. reflexivity.
  - rewrite E1. reflexivity.
Qed.
End Cells.

(* ---- fit level ---- *)
Theorem fits_agree cfg ccfg agg bal ws r c : sa_anticipation cfg = cs_anticipation ccfg -> cs_control ccfg = "never_treated"%string ->
  ref_observed t g rows cfg -> (forall i e, In i rows -> rel i = Some e -> (-20 <= e <= 20)%Z) ->
  sfit cfg rows = Ok r -> cfit ccfg agg bal ws = Ok c ->
  (forall z e x, In ((CFin z, e), x) (sa_coh_effects r) -> (cs_basemode ccfg = "universal"%string \/ - cs_anticipation ccfg <= e)%Z ->
     exists d, In d (cr_effects c) /\ ge_g d = CFin z /\ ge_t d = (z + e)%Z /\ ge_eff d = fst (fst x)) /\
  (cs_anticipation ccfg = 0%Z -> filter (ge_post 0) (cr_effects c) <> [] -> sa_att r = cr_att c).
Proof.
  intros Hant Hctl Href Hrng Hr Hc. destruct (sa_fit_inv qr lstsq inv pinv sf ppf u t g y [] cluster cfg rows r Hr) as (Hn & _ & reg & Hs & _ & _ & Ha & _ & _ & _ & _ & _ & _ & _ & _ & Hce).
  rewrite (sample_all g cfg rows Hval) in Hs. destruct (fit_inv _ _ _ _ _ _ _ _ _ _ _ _ _ _ _ _ _ Hc) as (_ & _ & Hl & _). split.
  - intros z e x Hin Hm. rewrite Hce in Hin. apply in_map_iff in Hin as (k & E & Hk). apply pair_equal_spec in E as [-> <-]. cbn [fst].
    apply (cell_found cfg ccfg reg (cr_effects c) Hant Hctl Href Hrng Hn Hs Hl z e Hk). destruct Hm as [Hm|Hm]; [left|right; exact Hm]. unfold cs_universal. rewrite Hm. reflexivity.
  - intros H0 Hp. destruct (overall_agrees cfg ccfg reg (cr_effects c) Hant Hctl Href Hrng Hn Hs Hl H0 Hp) as [_ E]. rewrite Ha, E.
    destruct (overall_aggregation qr2 lstsq2 inv2 logit sf ppf rows u t g yo [] ccfg agg bal ws c Hc) as (_ & _ & O2). rewrite H0 in O2. destruct (O2 Hp) as (-> & _). reflexivity.
Qed.
End Agree.

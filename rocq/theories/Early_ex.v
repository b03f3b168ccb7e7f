(* A panel with one unit that is treated in every period. *)
From Coq Require Import Reals Lra Lia FunctionalExtensionality.
From Verif Require Import Prelude Flt Stats_model Stats_proofs Linalg_model Linalg_proofs Linalg_vcov Linalg_thms Did_model Did_proofs Within_proofs Multi_model Multi_proofs Multi_thms Bacon_model Bacon_proofs Bacon_thms Staggered_model Staggered_proofs Staggered_est Staggered_thms Staggered_fit Boot_model Boot_proofs Sun_model Sun_proofs Sun_thms Sun_more Sun_cs Sun_inf Sun_ex Staggered_more Shift_proofs Mono_proofs Mono_bacon Scale_flt Staggered_scale Staggered_equiv One_ex Mono_ex Early_thms.
From Coq Require Import Arith ZArith String List.
Import ListNotations.
Open Scope R_scope.

(* SunAbraham: the dummies of such a cohort add up to its unit effects *)
Section SA.
Context {I : Type}.
Variable qr : list I -> list (I -> R) -> list nat.
Variable lstsq : list I -> list (I -> R) -> (I -> R) -> list R.
Variable inv : list I -> list (I -> R) -> option (nat -> nat -> R).
Variable pinv : list I -> list (I -> R) -> nat -> nat -> R.
Variable sf : option Z -> fl -> fl.
Variable ppf : option Z -> R -> R.
Hypothesis Hqr : qr_ok qr.
Hypothesis Hls : lstsq_ok lstsq.
Hypothesis Hd : dist_ok sf ppf.
Variables (u t : I -> Z) (g : I -> coh) (y : I -> R) (cluster : option (I -> Z)) (C : Z -> coh) (rows : list I) (m : nat).
Hypothesis Hbal : Within_proofs.balanced Z.eq_dec Z.eq_dec rows u t m.
Hypothesis HC : forall i, In i rows -> g i = C (u i).
Hypothesis Hval : forall i, In i rows -> valid_coh (g i) = true.
Theorem sun_early cfg r i0 k : (0 <= sa_anticipation cfg)%Z -> In i0 rows -> g i0 = CFin k -> (0 < k)%Z ->
  (forall j, In j rows -> (k <= t j <= k + 20)%Z) -> sa_fit qr lstsq inv pinv sf ppf u t g y [] cluster cfg rows = Ok r ->
  exists e ef, In (e, ef) (sa_es r) /\ se_eff ef = NaN /\ se_se ef = NaN /\ se_t ef = Fin 0 /\ se_p ef = Fin 1 /\ se_ci ef = (NaN, NaN) /\
    ((0 <= e)%Z -> sa_att r = NaN /\ sa_se r = NaN /\ sa_tt r = Fin 0 /\ sa_p r = Fin 1).
Proof.
  intros Ha Hi Eg Hk Ht Hr. apply (sun_gap qr lstsq inv pinv sf ppf Hqr Hls Hd u t g y cluster C rows m Hbal HC Hval cfg r i0 k Hi Eg Hk); [|exact Hr].
  intros j Hj _. specialize (Ht j Hj). unfold sa_ref. lia.
Qed.
End SA.

(* only the cohorts of the rows matter *)
Lemma cs_fit_cohorts {I} qr lstsq inv logit sf ppf (rows : list I) u t g g' y covs cfg agg bal ws : (forall i, In i rows -> g' i = g i) ->
  cs_fit qr lstsq inv logit sf ppf rows u t g' y covs cfg agg bal ws = cs_fit qr lstsq inv logit sf ppf rows u t g y covs cfg agg bal ws.
Proof.
  intros H.
  assert (EC : cs_cohort rows u g' = cs_cohort rows u g).
  { apply functional_extensionality. intros a. unfold cs_cohort, unit_cohort. rewrite (map_ext_in g' g); [reflexivity|]. intros i Hi. apply filter_In in Hi. apply H, Hi. }
  assert (EN : n_nev rows u g' = n_nev rows u g).
  { unfold n_nev. f_equal. apply filter_ext. intros a. unfold first_never. destruct (filter (fun i => Z.eqb (u i) a) rows) as [|i l] eqn:E; [reflexivity|].
    rewrite H; [reflexivity|]. assert (Hi : In i (filter (fun i => Z.eqb (u i) a) rows)) by (rewrite E; left; reflexivity). apply filter_In in Hi. apply Hi. }
  assert (ES : group_size rows u g' = group_size rows u g).
  { apply functional_extensionality. intros gr. unfold group_size. do 3 f_equal. apply filter_ext_in. intros i Hi. rewrite (H i Hi). reflexivity. }
  assert (EG : cs_groups rows g' = cs_groups rows g).
  { unfold cs_groups. f_equal.
    - f_equal. apply Bacon_rows.zsorted_unique; [apply groups_sorted|apply groups_sorted|apply groups_nodup|apply groups_nodup|].
      intros x. rewrite !group_in. split; intros [Hx (i & Hi & E)]; (split; [exact Hx|]); exists i; (split; [exact Hi|]); [rewrite <- (H i Hi)|rewrite (H i Hi)]; exact E.
    - replace (existsb (fun i => c_eqb (g' i) CInf) rows) with (existsb (fun i => c_eqb (g i) CInf) rows); [reflexivity|].
      apply eq_true_iff_eq. rewrite !existsb_exists. split; intros (i & Hi & E); exists i; (split; [exact Hi|]); [rewrite (H i Hi)|rewrite <- (H i Hi)]; exact E. }
  assert (EA : all_effects qr lstsq inv logit rows u t g' y covs cfg = all_effects qr lstsq inv logit rows u t g y covs cfg).
  { unfold all_effects. rewrite EG. apply collect_ext. intros x _. unfold att_gt, treated_units, control_units, is_control. rewrite EC. reflexivity. }
  unfold cs_fit, n_gt0. rewrite EN, EA, EG, EC, ES. reflexivity.
Qed.

Definition early_rows : list (Z * Z) := panel 4 4.
Definition early_C (a : Z) : coh := if Z.eqb a 4 then CFin 1 else o_C a.
(* units 1 to 3 as in C132; the outcomes of unit 4 are arbitrary *)
Definition early_y (z : Z -> R) (i : Z * Z) : R := if Z.eqb (fst i) 4 then z (snd i) else o_y i.
Lemma early_kept : without_early early_rows snd (gco early_C) = o_rows.
Proof. vm_compute. reflexivity. Qed.
Lemma early_bal : Within_proofs.balanced Z.eq_dec Z.eq_dec early_rows fst snd 1.
Proof.
  split; [lia|]. intros a b Ha Hb. vm_compute in Ha, Hb.
  repeat (destruct Ha as [<-|Ha]; [repeat (destruct Hb as [<-|Hb]; [vm_compute; reflexivity|]); destruct Hb|]); destruct Ha.
Qed.
Section Ex.
Variable qr : list (Z * Z) -> list (Z * Z -> R) -> list nat.
Variable lstsq : list (Z * Z) -> list (Z * Z -> R) -> (Z * Z -> R) -> list R.
Variable inv : list (Z * Z) -> list (Z * Z -> R) -> option (nat -> nat -> R).
Variable pinv : list (Z * Z) -> list (Z * Z -> R) -> nat -> nat -> R.
Variable sf : option Z -> fl -> fl.
Variable ppf : option Z -> R -> R.
Hypothesis Hqr : qr_ok qr.
Hypothesis Hls : lstsq_ok lstsq.
Hypothesis Hinv : inv_ok inv.
Hypothesis Hd : dist_ok sf ppf.
Variable qr2 : list Z -> list (Z -> R) -> list nat.
Variable lstsq2 : list Z -> list (Z -> R) -> (Z -> R) -> list R.
Variable inv2 : list Z -> list (Z -> R) -> option (nat -> nat -> R).
Variable logit : list Z -> list Z -> list (Z -> R) -> option (Z -> R).
Hypothesis Hqr2 : qr_ok qr2.
Hypothesis Hls2 : lstsq_ok lstsq2.
Notation cs rows C y := (cs_fit qr2 lstsq2 inv2 logit sf ppf rows fst snd (gco C) y [] (demo_cfg "never_treated" 0 "reg" "varying") None None []).
Notation sa rows C y := (sa_fit qr lstsq inv pinv sf ppf fst snd (gco C) y [] None (sa_demo "never_treated" 0) rows).

Theorem early_case z : exists r rs rs', cs early_rows early_C (fun i => Some (early_y z i)) = Ok r /\ cr_att r = Fin (17 / 2) /\ cr_n_treated r = 2%nat /\
  sa o_rows o_C o_y = Ok rs /\ sa_att rs = Fin (17 / 2) /\ sa early_rows early_C (early_y z) = Ok rs' /\
  exists e ef, In (e, ef) (sa_es rs') /\ se_eff ef = NaN /\ se_p ef = Fin 1.
Proof.
  destruct (one_date_case qr lstsq inv pinv sf ppf Hqr Hls Hinv qr2 lstsq2 inv2 logit) as (_ & rm & rs & rc & _ & Hm & Hs & Hc & _ & Am & Ab & As & Ac).
  assert (HG : cs o_rows early_C (fun i => Some (early_y z i)) = cs o_rows o_C (fun i => Some (early_y z i))).
  { apply cs_fit_cohorts. intros i Hi. vm_compute in Hi. repeat (destruct Hi as [<-|Hi]; [reflexivity|]). destruct Hi. }
  pose proof (cs_fit_equivariant qr2 lstsq2 inv2 logit sf ppf Hqr2 Hls2 o_rows fst snd (gco o_C) (fun i => Some (o_y i)) (fun i => Some (early_y z i)) [] 1 (fun _ => 0) (fun _ => 0) Rlt_0_1) as HY.
  specialize (HY ltac:(intros i Hi; vm_compute in Hi; repeat (destruct Hi as [<-|Hi]; [unfold early_y; cbn [fst]; apply (f_equal Some); simpl Z.eqb; cbv iota; ring|]); destruct Hi)
    (demo_cfg "never_treated" 0 "reg" "varying") None None [] (or_introl eq_refl)).
  rewrite Hc, <- HG in HY.
  pose proof (early_ignored qr2 lstsq2 inv2 logit sf ppf Hqr2 Hls2 early_rows fst snd (gco early_C) (fun i => Some (early_y z i)) early_C (fun i _ => eq_refl)) as HE.
  rewrite early_kept in HE.
  specialize (HE ltac:(intros i Hi; vm_compute in Hi; repeat (destruct Hi as [<-|Hi]; [first [exists (1, 1)%Z; split; [vm_compute; tauto|reflexivity]|exists (1, 2)%Z; split; [vm_compute; tauto|reflexivity]|exists (1, 3)%Z; split; [vm_compute; tauto|reflexivity]|exists (1, 4)%Z; split; [vm_compute; tauto|reflexivity]]|]); destruct Hi)
    (demo_cfg "never_treated" 0 "reg" "varying") None None [] (Z.le_refl 0) (or_introl eq_refl)).
  assert (HD : forall a p, (length (filter (fun i => Z.eqb (fst i) a && Z.eqb (snd i) p) early_rows) <= 1)%nat).
  { intros a p. destruct (filter (fun i => Z.eqb (fst i) a && Z.eqb (snd i) p) early_rows) as [|i l] eqn:El; [simpl; lia|]. rewrite <- El.
    assert (Hi : In i (filter (fun i => Z.eqb (fst i) a && Z.eqb (snd i) p) early_rows)) by (rewrite El; left; reflexivity).
    apply filter_In in Hi as [Hi Hk]. apply andb_true_iff in Hk as [H1 H2]. apply Z.eqb_eq in H1, H2. subst a p. clear El.
    vm_compute in Hi. repeat (destruct Hi as [<-|Hi]; [vm_compute; lia|]). destruct Hi. }
  specialize (HE HD).
  destruct (cs o_rows early_C (fun i => Some (early_y z i))) as [r0|]; [|contradiction HY].
  destruct (cs early_rows early_C (fun i => Some (early_y z i))) as [r|] eqn:Hr; [|contradiction HE].
  destruct HE as (_ & _ & Ea & _ & _ & _ & _ & _ & _ & _ & _ & _ & _ & En & _).
  assert (ES : sa_sample (gco early_C) (sa_demo "never_treated" 0) early_rows = early_rows) by (vm_compute; reflexivity).
  destruct (fit_succeeds qr lstsq inv pinv sf ppf Hqr Hinv fst snd (gco early_C) (early_y z) [] None (sa_demo "never_treated" 0) early_rows) as (rs' & Hs' & _).
  { vm_compute. discriminate. }
  { left. reflexivity. }
  { rewrite ES. vm_compute. discriminate. }
  { rewrite ES. apply Nat.ltb_lt. vm_compute. reflexivity. }
  { rewrite ES. apply Nat.leb_le. vm_compute. reflexivity. }
  { rewrite ES; apply (sa_cols_nonzero _ fst snd _ [] _ (CFin 3, 0%Z) (1, 3)%Z (1, 2)%Z (3, 3)%Z (3, 2)%Z); try reflexivity; vm_compute; auto 30. }
  exists r, rs, rs'. split; [reflexivity|]. split; [|split; [|split; [exact Hs|split; [exact As|split; [exact Hs'|]]]]].
  - destruct HY as (_ & _ & E & _). rewrite <- Ea, E, Ac. apply sc_1.
  - destruct (fit_inv _ _ _ _ _ _ _ _ _ _ _ _ _ _ _ _ _ Hr) as (_ & _ & _ & _ & _ & _ & _ & Ht & _). rewrite Ht. vm_compute. reflexivity.
  - destruct (sun_early qr lstsq inv pinv sf ppf Hqr Hls Hd fst snd (gco early_C) (early_y z) None early_C early_rows 1 early_bal (fun i _ => eq_refl)) with (cfg := sa_demo "never_treated" 0) (r := rs') (i0 := (4, 1)%Z) (k := 1%Z) as (e & ef & A & B & _ & _ & P & _).
    + intros i _. unfold gco, early_C, o_C. destruct (Z.eqb (fst i) 4), (Z.eqb (fst i) 1); reflexivity.
    + apply Z.le_refl.
    + vm_compute; tauto.
    + reflexivity.
    + lia.
    + intros j Hj. vm_compute in Hj. repeat (destruct Hj as [<-|Hj]; [cbn [snd]; lia|]). destruct Hj.
    + exact Hs'.
    + exists e, ef. auto.
Qed.
End Ex.
Lemma kept_iff {I} (rows : list I) t g i : In i (without_early rows t g) <->
  In i rows /\ ~ (exists k, g i = CFin k /\ k <> 0%Z /\ forall j, In j rows -> (k <= t j)%Z).
Proof.
  unfold without_early. rewrite filter_In. split; intros [Hi H]; (split; [exact Hi|]).
  - intros (k & Eg & Hk & Hj). rewrite Eg in H. apply negb_true_iff in H. cbn [from_start] in H. apply Z.eqb_neq in Hk. rewrite Hk in H. cbn [negb andb] in H.
    apply not_true_iff_false in H. apply H. apply forallb_forall. intros j Hin. apply Z.leb_le. auto.
  - apply negb_true_iff, not_true_iff_false. intros E. apply H. unfold from_start in E. destruct (g i) as [k| |]; try discriminate. apply andb_true_iff in E as [E0 E1].
    exists k. split; [reflexivity|]. apply negb_true_iff, Z.eqb_neq in E0. split; [exact E0|]. intros j Hj. rewrite forallb_forall in E1. apply Z.leb_le. auto.
Qed.

(* Gaps between the periods: CallawaySantAnna and SunAbraham look for the base period one step before treatment (C134). *)
From Coq Require Import Reals Lra Lia.
From Verif Require Import Prelude Flt Stats_model Stats_proofs Linalg_model Linalg_proofs Linalg_vcov Linalg_thms Did_model Did_spec Did_proofs Did_equiv Within_proofs Multi_model Multi_proofs Multi_thms Bacon_model Bacon_proofs Bacon_thms Boot_model Boot_proofs Staggered_model Staggered_proofs Staggered_est Staggered_thms Staggered_more Staggered_fit Sun_model Sun_proofs Sun_thms Sun_more Sun_cs Sun_inf Sun_ex One_ex Shift_proofs Mono_proofs Mono_bacon.
From Coq Require Import Arith ZArith String List.
Import ListNotations.
Open Scope R_scope.

(* ---- CallawaySantAnna ---- *)
Lemma collect_nothing {A B} (f : A -> res (option B)) l : (forall a, In a l -> f a = Ok None) -> collect f l = Ok [].
Proof. induction l as [|a l IH]; intros H; [reflexivity|]. cbn [collect]. rewrite H by now left. cbn [bind]. rewrite IH by (intros; apply H; now right). reflexivity. Qed.
Section CS.
Context {I : Type}.
Variables (qr : list Z -> list (Z -> R) -> list nat) (lstsq : list Z -> list (Z -> R) -> (Z -> R) -> list R) (inv : list Z -> list (Z -> R) -> option (nat -> nat -> R)).
Variable logit : list Z -> list Z -> list (Z -> R) -> option (Z -> R).
Variables (sf : option Z -> fl -> fl) (ppf : option Z -> R -> R).
Variables (rows : list I) (u t : I -> Z) (g : I -> coh) (y : I -> option R) (covs : list (I -> option R)).
Notation fit := (cs_fit qr lstsq inv logit sf ppf rows u t g y covs).
Theorem cs_gaps cfg agg bal ws : (forall i j, In i rows -> In j rows -> t i <> (t j - 1)%Z) ->
  (forall i j k, In i rows -> In j rows -> g i = CFin k -> (0 < k)%Z -> t j <> (k - 1 - cs_anticipation cfg)%Z) ->
  fit cfg agg bal ws = Err ValueError.
Proof.
  intros H1 H2. unfold cs_fit. destruct (Nat.eqb _ 0); [reflexivity|]. destruct (cs_duplicates _ _ _); [reflexivity|].
  unfold all_effects. rewrite collect_nothing; [reflexivity|]. intros [gr s] Hin. cbn [fst snd].
  apply in_flat_map in Hin as (g0 & Hg & Hs). apply in_map_iff in Hs as (s0 & E & Hs). injection E as -> ->.
  assert (Ps : In s (cs_periods rows t)) by (unfold valid_periods in Hs; destruct (cs_universal cfg); apply filter_In in Hs; tauto).
  apply cs_periods_In in Ps as (j & Hj & Ej). unfold att_gt. destruct (cs_base cfg gr s) as [b|] eqn:Eb; [|reflexivity].
  destruct (zmem b (cs_periods rows t)) eqn:Mb; [|reflexivity]. exfalso. apply zmem_In, cs_periods_In in Mb as (i & Hi & Ei).
  assert (K : forall k, gr = CFin k -> b <> (k - 1 - cs_anticipation cfg)%Z).
  { intros k Ek Ebk. apply cs_groups_In in Hg as (Hp & i0 & Hi0 & E0). rewrite Ek in *. apply Z.ltb_lt in Hp. apply (H2 i0 i k Hi0 Hi E0 Hp). lia. }
  unfold cs_base in Eb. destruct (cs_universal cfg).
  - destruct gr as [k| |]; try discriminate. injection Eb as Eb. exact (K k eq_refl (eq_sym Eb)).
  - destruct (before _ _ _).
    + injection Eb as Eb. apply (H1 i j Hi Hj). lia.
    + destruct gr as [k| |]; try discriminate. injection Eb as Eb. exact (K k eq_refl (eq_sym Eb)).
Qed.
End CS.
(* every date doubled: no data set can be fitted *)
Definition twice (z : Z) : Z := (2 * z)%Z.
Lemma twice_inc : increasing twice.
Proof. intros a b H. unfold twice. lia. Qed.
Theorem cs_doubled {I} qr lstsq inv logit sf ppf (rows : list I) u t g y covs cfg agg bal ws : Z.Even (cs_anticipation cfg) ->
  cs_fit qr lstsq inv logit sf ppf rows u (fun i => twice (t i)) (fun i => crename twice (g i)) y covs cfg agg bal ws = Err ValueError.
Proof.
  intros (m & Em). apply cs_gaps.
  - intros i j _ _. unfold twice. lia.
  - intros i j k _ _ E Hk. destruct (g i) as [k0| |]; cbn [crename] in E; try discriminate. destruct (Z.eqb_spec k0 0); injection E as <-; unfold twice in *; lia.
Qed.

(* ---- SunAbraham ---- *)
Section SA.
Context {I : Type}.
Variable qr : list I -> list (I -> R) -> list nat.
Variable lstsq : list I -> list (I -> R) -> (I -> R) -> list R.
Variable inv : list I -> list (I -> R) -> option (nat -> nat -> R).
Variable pinv : list I -> list (I -> R) -> nat -> nat -> R.
Variable sf : option Z -> fl -> fl.
Variable ppf : option Z -> R -> R.
Hypothesis Hqr : qr_ok qr.
Hypothesis Hls : lstsq_ok lstsq.
Hypothesis Hd : dist_ok sf ppf.
Variables (u t : I -> Z) (g : I -> coh) (y : I -> R) (cluster : option (I -> Z)) (C : Z -> coh) (rows : list I) (m : nat).
Hypothesis Hbal : Within_proofs.balanced Z.eq_dec Z.eq_dec rows u t m.
Hypothesis HC : forall i, In i rows -> g i = C (u i).
Hypothesis Hval : forall i, In i rows -> valid_coh (g i) = true.
Notation fit := (sa_fit qr lstsq inv pinv sf ppf u t g y [] cluster).

Lemma cohort_at i : In i rows -> g i <> CNaN -> unit_cohort rows u g (u i) = g i.
Proof.
  intros Hi Hn. unfold unit_cohort. assert (X : In (g i) (filter (fun c => match c with CNaN => false | _ => true end) (map g (filter (fun j => Z.eqb (u j) (u i)) rows)))).
  { apply filter_In. split; [|destruct (g i); congruence]. apply in_map, filter_In. split; [exact Hi|apply Z.eqb_refl]. }
  destruct (filter _ (map g _)) as [|c l] eqn:E; [destruct X|].
  assert (Y : In c (c :: l)) by now left. rewrite <- E in Y. apply filter_In in Y as [Y _]. apply in_map_iff in Y as (j & <- & Hj). apply filter_In in Hj as [Hj Ej]. apply Z.eqb_eq in Ej.
  rewrite (HC j Hj), (HC i Hi), Ej. reflexivity.
Qed.
Lemma size_pos i k : In i rows -> g i = CFin k -> (0 < k)%Z -> (0 < sa_size u g rows (CFin k))%nat.
Proof.
  intros Hi Eg Hk. unfold sa_size. assert (X : In (u i) (filter (fun a => c_gt (sa_cohort u g rows a) 0 && c_eqb (sa_cohort u g rows a) (CFin k)) (sa_units u rows))).
  { apply filter_In. split; [unfold sa_units; rewrite zsort_In, nodup_In; now apply in_map|]. unfold sa_cohort. rewrite cohort_at by (auto; congruence). rewrite Eg, c_eqb_refl, andb_true_r. now apply Z.ltb_lt. }
  destruct (filter _ (sa_units u rows)); [destruct X|cbn; lia].
Qed.
(* a cohort with no row at the reference: its dummies add up to the cohort indicator *)
Lemma gap_dep cfg i0 k : In i0 rows -> g i0 = CFin k -> (0 < k)%Z ->
  (forall j, In j rows -> g j = CFin k -> (t j - k <> sa_ref cfg /\ -20 <= t j - k <= 20)%Z) ->
  ~ indep rows (sa_cols u t g [] (sa_keys t g (sa_groups g rows) (sa_rel_periods t g cfg rows) rows) rows).
Proof.
  intros Hi Eg Hk Hgap. set (keys := sa_keys t g _ _ rows).
  assert (Hnd : NoDup keys) by (apply keys_NoDup; [apply cs_groups_NoDup|apply rel_periods_NoDup]).
  set (b := fun q : sa_key => if c_eqb (fst q) (CFin k) then 1 else 0).
  assert (Krow : forall j, In j rows -> g j = CFin k -> In (CFin k, (t j - k)%Z) keys).
  { intros j Hj Ej. assert (Er : sa_rel t g j = Some (t j - k)%Z) by (unfold sa_rel; rewrite Ej; apply Z.ltb_lt in Hk; rewrite Hk; reflexivity).
    rewrite <- Ej at 1. apply (fit_keys_In t g cfg rows j _ Hj Er). apply (Hgap j Hj Ej). }
  intros Hind. unfold sa_cols in Hind. cbn [map] in Hind. rewrite app_nil_r in Hind. specialize (Hind (map b keys)). rewrite !map_length in Hind. specialize (Hind eq_refl).
  assert (Z0 : map b keys = repeat 0 (length keys)).
  { apply Hind. intros i Hir. rewrite (lc_keys (fun q => within Z.eq_dec Z.eq_dec rows u t (sa_dummy t g q)) b keys i).
    rewrite <- (within_sumf rows u t b (sa_dummy t g) keys i).
    rewrite (within_ext Z.eq_dec Z.eq_dec rows u t _ (fun j => (if c_eqb (C (u j)) (CFin k) then 1 else 0) + 0) i Hir).
    - exact (within_additive Z.eq_dec Z.eq_dec rows u t m Hbal (fun a => if c_eqb (C a) (CFin k) then 1 else 0) (fun _ => 0) i Hir).
    - intros j Hj. rewrite (dummy_sum t g keys b j Hnd), Rplus_0_r, <- (HC j Hj). unfold b. cbn [fst]. destruct (c_eqb (g j) (CFin k)) eqn:E.
      + apply c_eqb_true in E. assert (Er : sa_rel t g j = Some (t j - k)%Z) by (unfold sa_rel; rewrite E; apply Z.ltb_lt in Hk; rewrite Hk; reflexivity).
        rewrite Er. replace (existsb _ keys) with true; [reflexivity|]. symmetry. apply existsb_exists. exists (CFin k, (t j - k)%Z). split; [now apply Krow|]. rewrite E. apply key_eqb_true. reflexivity.
      + destruct (sa_rel t g j); [|reflexivity]. destruct (existsb _ keys); reflexivity. }
  assert (V : In (b (CFin k, (t i0 - k)%Z)) (map b keys)) by (apply in_map; now apply Krow). rewrite Z0 in V. apply repeat_spec in V. unfold b in V. cbn [fst] in V. rewrite c_eqb_refl in V. lra.
Qed.
Theorem sun_gap cfg r i0 k : In i0 rows -> g i0 = CFin k -> (0 < k)%Z ->
  (forall j, In j rows -> g j = CFin k -> (t j - k <> sa_ref cfg /\ -20 <= t j - k <= 20)%Z) ->
  fit cfg rows = Ok r ->
  exists e ef, In (e, ef) (sa_es r) /\ se_eff ef = NaN /\ se_se ef = NaN /\ se_t ef = Fin 0 /\ se_p ef = Fin 1 /\ se_ci ef = (NaN, NaN) /\
    ((0 <= e)%Z -> sa_att r = NaN /\ sa_se r = NaN /\ sa_tt r = Fin 0 /\ sa_p r = Fin 1).
Proof.
  intros Hi Eg Hk Hgap Hr. destruct (sa_fit_inv qr lstsq inv pinv sf ppf u t g y [] cluster cfg rows r Hr) as (_ & _ & reg & Hs & _ & _ & _ & _ & _ & _ & _ & _ & _ & _ & _ & Hce).
  rewrite (sample_all g cfg rows Hval) in Hs. assert (Ek : map fst (sa_coh_effects r) = sr_keys reg) by (rewrite Hce, map_map; cbn [fst]; apply map_id).
  destruct (saturated_inv qr lstsq inv pinv Hls u t g y [] cluster _ _ _ _ _ Hs) as (Es & _).
  apply (rank_deficient qr lstsq inv pinv sf ppf Hqr Hls Hd u t g y [] cluster cfg rows r eq_refl Hval Hr); rewrite Ek, Es.
  - now apply (gap_dep cfg i0 k).
  - intros gr e Hin. apply keys_In in Hin as (_ & _ & i & Hir & Eg' & Er). destruct (rel_cohort t g i e Er) as (k' & Ec & Hk' & _). rewrite <- Eg', Ec. now apply (size_pos i).
Qed.
End SA.

(* ---- the panel of C132 with every date doubled ---- *)
Section Ex.
Variable qr : list (Z * Z) -> list (Z * Z -> R) -> list nat.
Variable lstsq : list (Z * Z) -> list (Z * Z -> R) -> (Z * Z -> R) -> list R.
Variable inv : list (Z * Z) -> list (Z * Z -> R) -> option (nat -> nat -> R).
Variable pinv : list (Z * Z) -> list (Z * Z -> R) -> nat -> nat -> R.
Variable sf : option Z -> fl -> fl.
Variable ppf : option Z -> R -> R.
Hypothesis Hqr : qr_ok qr.
Hypothesis Hls : lstsq_ok lstsq.
Hypothesis Hinv : inv_ok inv.
Hypothesis Hd : dist_ok sf ppf.
Notation t2 := (fun i : Z * Z => twice (snd i)).
Notation g2 := (fun i : Z * Z => crename twice (gco o_C i)).
Lemma o_rename i : rename_ok twice (gco o_C i).
Proof. unfold gco, o_C. destruct (Z.eqb (fst i) 1); cbn; lia. Qed.
Lemma o_bal2 : Within_proofs.balanced Z.eq_dec Z.eq_dec o_rows fst t2 1.
Proof.
  split; [lia|]. intros a b Ha Hb. vm_compute in Ha, Hb.
  repeat (destruct Ha as [<-|Ha]; [repeat (destruct Hb as [<-|Hb]; [vm_compute; reflexivity|]); destruct Hb|]); destruct Ha.
Qed.
Theorem spacing_case qr2 lstsq2 inv2 logit : exists rm rs rc rs',
  mp_fit Z.eq_dec Z.eq_dec qr lstsq inv sf ppf o_cfg o_rows o_y o_d snd (Some [3; 4]%Z) None [] [] [] = Ok rm /\
  mp_fit Z.eq_dec Z.eq_dec qr lstsq inv sf ppf o_cfg o_rows o_y o_d t2 (Some [6; 8]%Z) None [] [] [] = Ok (rename_mp twice rm) /\ mp_avg rm = Fin 10 /\
  bo_twfe (bacon_fit o_rows fst snd (gco o_C) o_y true) = 10 /\ bo_twfe (bacon_fit o_rows fst t2 g2 o_y true) = 10 /\ bo_groups (bacon_fit o_rows fst t2 g2 o_y true) = [6%Z] /\
  cs_fit qr2 lstsq2 inv2 logit sf ppf o_rows fst snd (gco o_C) (fun i => Some (o_y i)) [] (demo_cfg "never_treated" 0 "reg" "varying") None None [] = Ok rc /\ cr_att rc = Fin (17 / 2) /\
  cs_fit qr2 lstsq2 inv2 logit sf ppf o_rows fst t2 g2 (fun i => Some (o_y i)) [] (demo_cfg "never_treated" 0 "reg" "varying") None None [] = Err ValueError /\
  sa_fit qr lstsq inv pinv sf ppf fst snd (gco o_C) o_y [] None (sa_demo "never_treated" 0) o_rows = Ok rs /\ sa_att rs = Fin (17 / 2) /\
  sa_fit qr lstsq inv pinv sf ppf fst t2 g2 o_y [] None (sa_demo "never_treated" 0) o_rows = Ok rs' /\
  exists e ef, In (e, ef) (sa_es rs') /\ se_eff ef = NaN /\ se_p ef = Fin 1.
Proof.
  destruct (one_date_case qr lstsq inv pinv sf ppf Hqr Hls Hinv qr2 lstsq2 inv2 logit) as (_ & rm & rs & rc & _ & Hm & Hs & Hc & _ & Am & Ab & As & Ac).
  assert (ES : sa_sample g2 (sa_demo "never_treated" 0) o_rows = o_rows) by (vm_compute; reflexivity).
  destruct (fit_succeeds qr lstsq inv pinv sf ppf Hqr Hinv fst t2 g2 o_y [] None (sa_demo "never_treated" 0) o_rows) as (rs' & Hs' & _).
  { vm_compute. discriminate. }
  { left. reflexivity. }
  { rewrite ES. vm_compute. discriminate. }
  { rewrite ES. apply Nat.ltb_lt. vm_compute. reflexivity. }
  { rewrite ES. apply Nat.leb_le. vm_compute. reflexivity. }
  { rewrite ES; apply (sa_cols_nonzero _ fst t2 _ [] _ (CFin 6, 0%Z) (1, 3)%Z (1, 2)%Z (3, 3)%Z (3, 2)%Z); try reflexivity; vm_compute; auto 30. }
  exists rm, rs, rc, rs'. split; [exact Hm|]. split.
  { change (Some [6; 8]%Z) with (option_map (map twice) (Some [3; 4]%Z)). change (@None Z) with (option_map twice None) at 1.
    rewrite (mp_rename twice twice_inc Z.eq_dec Z.eq_dec qr lstsq inv sf ppf o_cfg o_rows o_y o_d snd (Some [3; 4]%Z) None [] [] []), Hm. reflexivity. }
  split; [exact Am|]. split; [exact Ab|].
  assert (NE : o_rows <> []) by (vm_compute; discriminate).
  rewrite !(bacon_rename o_rows fst snd (gco o_C) o_y twice twice_inc o_rename NE true). split; [exact Ab|]. split; [cbn [rename_bacon bo_groups bacon_fit]; vm_compute; reflexivity|].
  split; [exact Hc|]. split; [exact Ac|]. split; [apply cs_doubled; exists 0%Z; reflexivity|]. split; [exact Hs|]. split; [exact As|]. split; [exact Hs'|].
  destruct (sun_gap qr lstsq inv pinv sf ppf Hqr Hls Hd fst t2 g2 o_y None (fun a => crename twice (o_C a)) o_rows 1 o_bal2) with (cfg := sa_demo "never_treated" 0) (r := rs') (i0 := (1, 3)%Z) (k := 6%Z) as (e & ef & A & B & _ & _ & P & _).
  - reflexivity.
  - intros i _. unfold gco, o_C. destruct (Z.eqb (fst i) 1); reflexivity.
  - vm_compute; tauto.
  - reflexivity.
  - lia.
  - intros j Hj _. vm_compute in Hj. unfold sa_ref. cbn [sa_anticipation sa_demo]. unfold twice.
    repeat (destruct Hj as [<-|Hj]; [cbn [snd]; lia|]). destruct Hj.
  - exact Hs'.
  - exists e, ef. auto.
Qed.
End Ex.

(* Repeated data in SunAbraham (C131). *)
From Coq Require Import Reals Lra Lia.
From Verif Require Import Prelude Flt Linalg_model Linalg_proofs Linalg_vcov Linalg_thms Linalg_rank Linalg_span Did_model Did_proofs Bacon_model Multi_model Multi_proofs Staggered_model Sun_model Sun_proofs Sun_thms Sun_more Sun_equiv Sun_rows Rep_proofs Rep_thms Rep_multi.
From Coq Require Import Arith ZArith String List FunctionalExtensionality.
Import ListNotations.
Open Scope R_scope.

Section C.
Context {I : Type}.
Variables (u t : I -> Z) (g : I -> coh) (k : nat).
Hypothesis Hk : (1 <= k)%nat.
Lemma cp_units (rows : list I) : sa_units u (copies k rows) = sa_units u rows.
Proof. unfold sa_units. now rewrite copies_map, copies_nodup. Qed.
Lemma cp_cohort (rows : list I) : sa_cohort u g (copies k rows) = sa_cohort u g rows.
Proof. apply functional_extensionality. intros a. apply (b_cohort rows u g k Hk). Qed.
Lemma cp_never (rows : list I) : sa_never u g (copies k rows) = sa_never u g rows.
Proof.
  apply functional_extensionality. intros a. unfold sa_never. rewrite copies_filter. pose proof (hd_copies k Hk (filter (fun i => Z.eqb (u i) a) rows)) as H.
  destruct (copies k _), (filter _ rows); cbn in H; try discriminate; [reflexivity|injection H as ->; reflexivity].
Qed.
Lemma cp_groups (rows : list I) : sa_groups g (copies k rows) = sa_groups g rows.
Proof. unfold sa_groups, cs_groups. now rewrite (b_groups rows g k Hk), copies_existsb. Qed.
Lemma cp_rel_times (rows : list I) : sa_rel_times t g (copies k rows) = sa_rel_times t g rows.
Proof. unfold sa_rel_times. now rewrite flat_map_copies, copies_nodup. Qed.
Lemma cp_rel_periods cfg (rows : list I) : sa_rel_periods t g cfg (copies k rows) = sa_rel_periods t g cfg rows.
Proof. unfold sa_rel_periods, sa_min_rel, sa_max_rel, sa_has_inf. now rewrite cp_rel_times, copies_existsb. Qed.
Lemma cp_sample cfg (rows : list I) : sa_sample g cfg (copies k rows) = copies k (sa_sample g cfg rows).
Proof. unfold sa_sample. destruct (String.eqb _ _); [apply copies_filter|reflexivity]. Qed.
Lemma cp_n_at (rows : list I) e : sa_n_at t g (copies k rows) e = (k * sa_n_at t g rows e)%nat.
Proof. unfold sa_n_at. now rewrite copies_filter, copies_length. Qed.
Lemma cp_size (rows : list I) : sa_size u g (copies k rows) = sa_size u g rows.
Proof. apply functional_extensionality. intros gr. unfold sa_size. now rewrite cp_units, cp_cohort. Qed.
Lemma cp_keys groups rels (rows : list I) : sa_keys t g groups rels (copies k rows) = sa_keys t g groups rels rows.
Proof. unfold sa_keys. apply filter_ext. intros x. now apply copies_existsb. Qed.
Lemma cp_cols covs keys (rows : list I) : sa_cols u t g covs keys (copies k rows) = sa_cols u t g covs keys rows.
Proof. unfold sa_cols. f_equal; apply map_ext; intros x; now apply within_copies. Qed.
Lemma seen_at (rows : list I) e : In e (sa_rel_times t g rows) -> (1 <= sa_n_at t g rows e)%nat.
Proof.
  unfold sa_rel_times. rewrite zsort_In, nodup_In, in_flat_map. intros (i & Hi & H). unfold sa_n_at.
  destruct (sa_rel t g i) as [e'|] eqn:E; [|destruct H]. destruct H as [->|[]].
  assert (X : In i (filter (fun i => match sa_rel t g i with Some e' => Z.eqb e' e | None => false end) rows)) by (apply filter_In; split; [exact Hi|rewrite E; apply Z.eqb_refl]).
  destruct (filter _ rows); [destruct X|cbn; lia].
Qed.
End C.

Lemma quad_scaled c n V V' l : scaled c n V V' -> (forall p, In p l -> (fst p < n)%nat) -> exists v, quad V l = Fin v /\ quad V' l = Fin (c * v).
Proof.
  intros H Hl. unfold quad. apply fsum_scaled. intros a Ha. apply fsum_scaled. intros b Hb. destruct (H (fst a) (fst b) (Hl a Ha) (Hl b Hb)) as (v & -> & ->).
  cbn [fmul]. eexists. split; [reflexivity|]. f_equal. ring.
Qed.
Lemma root_max0 c v : 0 < c -> fsqrt (max0 (Fin (c * v))) = fmul (Fin (sqrt c)) (fsqrt (max0 (Fin v))).
Proof.
  intros Hc. assert (E : max0 (Fin (c * v)) = Fin (c * (if Rltb v 0 then 0 else v)) /\ max0 (Fin v) = Fin (if Rltb v 0 then 0 else v)).
  { unfold max0, flt. destruct (Rltb v 0) eqn:A, (Rltb (c * v) 0) eqn:B; try (apply Rltb_true in A || apply Rltb_false in A); try (apply Rltb_true in B || apply Rltb_false in B); try (exfalso; nra); split; try reflexivity.
    f_equal. ring. }
  destruct E as [-> ->]. now apply root_factor.
Qed.

Section Fit.
Context {I : Type}.
Variable qr : list I -> list (I -> R) -> list nat.
Variable lstsq : list I -> list (I -> R) -> (I -> R) -> list R.
Variable inv : list I -> list (I -> R) -> option (nat -> nat -> R).
Variable pinv : list I -> list (I -> R) -> nat -> nat -> R.
Variable sf : option Z -> fl -> fl.
Variable ppf : option Z -> R -> R.
Hypothesis Hqr : qr_ok qr.
Hypothesis Hls : lstsq_ok lstsq.
Hypothesis Hinv : inv_ok inv.
Variables (u t : I -> Z) (g : I -> coh) (y : I -> R) (covs : list (I -> R)) (cluster : option (I -> Z)).
Notation fit := (sa_fit qr lstsq inv pinv sf ppf u t g y covs cluster).

Definition sr_times (c : R) (a b : sa_reg) : Prop :=
  sr_keys b = sr_keys a /\ sr_keys a <> [] /\ sr_coef b = sr_coef a /\ scaled c (length (sr_keys a)) (sr_vcov a) (sr_vcov b).
Lemma times_idx c a b x : sr_times c a b -> sr_idx b x = sr_idx a x /\ (sr_idx a x < length (sr_keys a))%nat /\ sr_eff b x = sr_eff a x /\ sr_has b x = sr_has a x.
Proof. intros (Hx & Hn & Hc & _). pose proof (idx_lt a x Hn) as L. unfold sr_idx, sr_eff, sr_has, sr_at in *. rewrite Hx, Hc. auto. Qed.
Lemma times_effect c alpha a b e w : 0 < c -> sr_times c a b -> let x := sa_effect sf ppf alpha a e w in let z := sa_effect sf ppf alpha b e w in
  se_eff z = se_eff x /\ se_se z = fmul (Fin (sqrt c)) (se_se x) /\ se_n z = se_n x.
Proof.
  intros Hc H. cbv zeta. unfold sa_effect. cbn [se_eff se_se se_n].
  split; [f_equal; apply map_ext; intros gw; now rewrite (proj1 (proj2 (proj2 (times_idx c a b (fst gw, e) H))))|]. split; [|reflexivity].
  replace (map (fun gw => (sr_idx b (fst gw, e), snd gw)) w) with (map (fun gw : coh * R => (sr_idx a (fst gw, e), snd gw)) w)
    by (apply map_ext; intros gw; now rewrite (proj1 (times_idx c a b (fst gw, e) H))).
  destruct (quad_scaled c (length (sr_keys a)) (sr_vcov a) (sr_vcov b) (map (fun gw => (sr_idx a (fst gw, e), snd gw)) w)) as (v & -> & ->); [apply H| |now apply root_max0].
  intros p Hp. apply in_map_iff in Hp as (gw & <- & _). apply (times_idx c a b (fst gw, e) H).
Qed.

Variables (rows : list I) (cfg : sa_config) (k : nat).
Hypothesis Hk : (1 <= k)%nat.
(* the columns of the saturated regression *)
Definition sun_cols : list (I -> R) :=
  sa_cols u t g covs (sa_keys t g (sa_groups g rows) (sa_rel_periods t g cfg rows) (sa_sample g cfg rows)) (sa_sample g cfg rows).
Definition sun_factor : R := rep_factor true k (length (sa_sample g cfg rows)) (length sun_cols).

Lemma sat_copies : indep (sa_sample g cfg rows) sun_cols -> (length sun_cols < length (sa_sample g cfg rows))%nat ->
  match sa_saturated qr lstsq inv pinv u t g y covs cluster cfg (sa_groups g rows) (sa_rel_periods t g cfg rows) (sa_sample g cfg rows),
        sa_saturated qr lstsq inv pinv u t g y covs cluster cfg (sa_groups g rows) (sa_rel_periods t g cfg rows) (copies k (sa_sample g cfg rows)) with
  | Ok a, Ok b => sr_times sun_factor a b
  | Err e, Err f => e = f
  | _, _ => False
  end.
Proof.
  intros Hi Hn. unfold sun_factor, sun_cols in *. set (s := sa_sample g cfg rows) in *. unfold sa_saturated. rewrite cp_keys by exact Hk.
  set (keys := sa_keys _ _ _ _ s) in *. destruct keys as [|k0 ks] eqn:Ek; [reflexivity|]. assert (Hne : keys <> []) by congruence. rewrite <- Ek in *. clear Ek k0 ks.
  rewrite cp_cols, within_copies by exact Hk. set (cl := match cluster with Some c => c | None => u end).
  pose proof (linreg_copies Z.eq_dec qr lstsq inv pinv Hqr Hls Hinv true (Some cl) (sa_action cfg) 0 k s (sa_cols u t g covs keys s) (within Z.eq_dec Z.eq_dec s u t y) Hk Hi Hn) as H.
  destruct (linreg_fit _ _ _ _ _ _ _ _ _ s _ _) as [a|e], (linreg_fit _ _ _ _ _ _ _ _ _ (copies k s) _ _) as [b|f]; cbn [bind rep_reg] in *; try contradiction; [|exact H].
  destruct H as (Hc & _ & _ & _ & _ & _ & HV). split; [reflexivity|]. cbn [sr_keys sr_coef sr_vcov]. split; [exact Hne|]. split; [exact Hc|].
  assert (L : (length keys <= length (sa_cols u t g covs keys s))%nat) by (unfold sa_cols; rewrite app_length, !map_length; lia).
  intros j m Hj Hm. apply HV; lia.
Qed.

Theorem sun_copies : indep (sa_sample g cfg rows) sun_cols -> (length sun_cols < length (sa_sample g cfg rows))%nat ->
  match fit cfg rows, fit cfg (copies k rows) with
  | Ok a, Ok b => let s := Fin (sqrt sun_factor) in
      map (fun p => (fst p, se_eff (snd p), se_se (snd p), se_n (snd p))) (sa_es b) = map (fun p => (fst p, se_eff (snd p), fmul s (se_se (snd p)), se_n (snd p))) (sa_es a) /\
      sa_cweights b = sa_cweights a /\ sa_att b = sa_att a /\ sa_se b = fmul s (sa_se a) /\
      sa_coh_effects b = map (fun x => (fst x, (fst (fst (snd x)), fmul s (snd (fst (snd x))), snd (snd x)))) (sa_coh_effects a) /\
      sa_rgroups b = sa_rgroups a /\ sa_rn_treated b = sa_rn_treated a /\ sa_rn_control b = sa_rn_control a /\ sa_rn_obs b = (k * sa_rn_obs a)%nat
  | Err e, Err f => e = f
  | _, _ => False
  end.
Proof.
  intros Hi Hn. unfold sa_fit. 
  replace (sa_n_control u g (copies k rows)) with (sa_n_control u g rows) by (unfold sa_n_control; now rewrite cp_units, cp_never).
  replace (sa_n_treated u g (copies k rows)) with (sa_n_treated u g rows) by (unfold sa_n_treated; now rewrite cp_units, cp_cohort).
  rewrite cp_groups by exact Hk. destruct (Nat.eqb _ 0); [reflexivity|]. pose proof (sat_copies Hi Hn) as H.
  destruct (sa_groups g rows) as [|g0 gs] eqn:Eg; [reflexivity|]. rewrite <- Eg in *. rewrite cp_rel_periods, cp_sample by exact Hk. 
  set (rels := sa_rel_periods t g cfg rows) in *. unfold sa_estimate.
  destruct (sa_saturated _ _ _ _ _ _ _ _ _ _ _ _ _ (sa_sample g cfg rows)) as [a|e] eqn:Esat, (sa_saturated _ _ _ _ _ _ _ _ _ _ _ _ _ (copies k (sa_sample g cfg rows))) as [b|f]; cbn [bind]; try contradiction; [|exact H].
  assert (Hcols : (1 <= length sun_cols)%nat).
  { destruct H as (_ & Hne & _). unfold sun_cols. fold rels. unfold sa_saturated in Esat. destruct (sa_keys t g (sa_groups g rows) rels (sa_sample g cfg rows)) eqn:K; [discriminate|]. unfold sa_cols. cbn. lia. }
  assert (Pc : 0 < sun_factor) by (apply rep_factor_pos; [exact Hk|exact Hn|intros _; lia]).
  assert (EW : forall e, sa_weights u g (sa_groups g rows) b (copies k rows) e = sa_weights u g (sa_groups g rows) a rows e).
  { intros e. unfold sa_weights. rewrite cp_size by exact Hk. rewrite (filter_ext (fun gr => sr_has b (gr, e)) (fun gr => sr_has a (gr, e))); [reflexivity|].
    intros gr. apply (times_idx _ a b (gr, e) H). }
  set (redo := fun p : Z * (list (coh * R) * sa_eff) => (fst p, (fst (snd p), sa_effect sf ppf (sa_alpha cfg) b (fst p) (fst (snd p))))).
  set (es := sa_iw sf ppf u g cfg (sa_groups g rows) rels a rows).
  assert (Hes : forall p, In p es -> (1 <= sa_n_at t g rows (fst p))%nat /\ fst (snd p) <> [] /\ snd (snd p) = sa_effect sf ppf (sa_alpha cfg) a (fst p) (fst (snd p))).
  { intros p Hp. unfold es, sa_iw in Hp. apply in_flat_map in Hp as (e & He & Hp). destruct (sa_weights u g (sa_groups g rows) a rows e) as [|w ws] eqn:Ew; [destruct Hp|].
    destruct Hp as [<-|[]]. cbn [fst snd]. split; [|split; [discriminate|reflexivity]]. apply (seen_at t g k Hk). unfold rels, sa_rel_periods in He. apply filter_In in He as [He _]. exact He. }
  assert (EI : sa_iw sf ppf u g cfg (sa_groups g rows) rels b (copies k rows) = map redo es).
  { unfold es, sa_iw. generalize rels as l. induction l as [|e l IH]; [reflexivity|]. cbn [flat_map]. rewrite map_app, <- IH, EW. f_equal.
    destruct (sa_weights u g (sa_groups g rows) a rows e); reflexivity. }
  rewrite EI.
  assert (EP : sa_post (map redo es) = map redo (sa_post es)).
  { unfold sa_post. clear. induction es as [|p l IH]; [reflexivity|]. cbn [map filter]. change (fst (redo p)) with (fst p). destruct (Z.leb 0 (fst p)); cbn [map]; now rewrite IH. }
  assert (Kp : 0 < INR k) by (apply lt_0_INR; lia).
  assert (Nat1 : forall p, In p es -> INR (Nat.max (sa_n_at t g (copies k rows) (fst p)) 1) = INR k * INR (Nat.max (sa_n_at t g rows (fst p)) 1)).
  { intros p Hp. destruct (Hes p Hp) as [Hp1 _]. rewrite cp_n_at by exact Hk. rewrite !Nat.max_l by nia. apply mult_INR. }
  assert (Pes : forall p, In p (sa_post es) -> In p es) by (intros p Hp; unfold sa_post in Hp; apply filter_In in Hp; apply Hp).
  assert (Epw : forall p, In p es -> sa_pw t g (copies k rows) (map redo es) (fst p) = sa_pw t g rows es (fst p)).
  { intros p Hp. unfold sa_pw. rewrite EP, sumf_map. rewrite (Nat1 p Hp).
    rewrite (sumf_ext (fun x => INR (Nat.max (sa_n_at t g (copies k rows) (fst (redo x))) 1)) (fun x => INR k * INR (Nat.max (sa_n_at t g rows (fst x)) 1)) (sa_post es))
      by (intros x Hx; change (fst (redo x)) with (fst x); apply Nat1, Pes, Hx).
    rewrite sumf_scal. set (S := sumf _ (sa_post es)). destruct (Req_dec S 0) as [->|NS]; [rewrite Rmult_0_r; unfold Rdiv; rewrite Rinv_0; ring|field; split; lra]. }
  assert (Eow : sa_overall_weights t g (copies k rows) (map redo es) = sa_overall_weights t g rows es).
  { unfold sa_overall_weights. rewrite EP. revert Pes. generalize (sa_post es) as l. induction l as [|p l IH]; intros Pl; [reflexivity|]. cbn [map flat_map].
    rewrite IH by (intros q Hq; apply Pl; right; exact Hq). f_equal. change (fst (redo p)) with (fst p). change (fst (snd (redo p))) with (fst (snd p)). rewrite (Epw p) by (apply Pl; left; reflexivity). reflexivity. }
  assert (EO : fst (sa_overall t g (copies k rows) b (map redo es)) = fst (sa_overall t g rows a es) /\
    snd (sa_overall t g (copies k rows) b (map redo es)) = fmul (Fin (sqrt sun_factor)) (snd (sa_overall t g rows a es))).
  { unfold sa_overall. rewrite EP. clear EP. destruct (sa_post es) as [|p l] eqn:Epost; [cbn [map fst snd fmul]; rewrite Rmult_0_r; split; reflexivity|]. rewrite <- Epost in *.
    assert (NE : map redo (sa_post es) <> []) by (rewrite Epost; discriminate). destruct (map redo (sa_post es)) as [|q m] eqn:Em; [congruence|]. rewrite <- Em. clear NE q m Em.
    rewrite Eow. assert (Ews : sa_overall_weights t g rows es <> []).
    { unfold sa_overall_weights. rewrite Epost. cbn [flat_map]. destruct (Hes p (Pes p ltac:(rewrite Epost; left; reflexivity))) as (_ & Hw & _). destruct (fst (snd p)); [congruence|discriminate]. }
    destruct (sa_overall_weights t g rows es) as [|kw ws] eqn:Eq; [congruence|]. rewrite <- Eq. cbn [fst snd]. split.
    - f_equal. rewrite map_map. apply map_ext_in. intros x Hx. change (fst (redo x)) with (fst x). rewrite (Epw x (Pes x Hx)). f_equal.
      destruct (Hes x (Pes x Hx)) as (_ & _ & ->). apply (times_effect _ (sa_alpha cfg) a b (fst x) (fst (snd x)) Pc H).
    - replace (map (fun kw => (sr_idx b (fst kw), snd kw)) (sa_overall_weights t g rows es)) with (map (fun kw : sa_key * R => (sr_idx a (fst kw), snd kw)) (sa_overall_weights t g rows es))
        by (apply map_ext; intros x; now rewrite (proj1 (times_idx _ a b (fst x) H))).
      destruct (quad_scaled sun_factor (length (sr_keys a)) (sr_vcov a) (sr_vcov b) (map (fun kw => (sr_idx a (fst kw), snd kw)) (sa_overall_weights t g rows es))) as (v & -> & ->); [apply H| |now apply root_max0].
      intros q Hq. apply in_map_iff in Hq as (x & <- & _). apply (times_idx _ a b (fst x) H). }
  destruct (sa_overall t g rows a es) as [att se], (sa_overall t g (copies k rows) b (map redo es)) as [att' se']. cbn [fst snd] in EO. destruct EO as [-> ->].
  cbv zeta. cbn [sa_es sa_cweights sa_att sa_se sa_coh_effects sa_rgroups sa_rn_treated sa_rn_control sa_rn_obs].
  split.
  { rewrite !map_map. apply map_ext_in. intros p Hp. cbn [fst snd redo]. destruct (Hes p Hp) as (_ & _ & ->). 
    destruct (times_effect _ (sa_alpha cfg) a b (fst p) (fst (snd p)) Pc H) as (-> & -> & ->). reflexivity. }
  split; [rewrite map_map; reflexivity|]. split; [reflexivity|]. split; [reflexivity|]. split.
  { rewrite (proj1 H), map_map. apply map_ext. intros x. cbn [fst snd]. destruct (times_idx _ a b x H) as (-> & L & -> & _).
    destruct H as (_ & _ & _ & HV). destruct (HV _ _ L L) as (v & -> & ->). rewrite (root_factor _ v Pc).
    f_equal. f_equal. unfold sa_weight_of. clear -es. subst redo. induction es as [|p l IH]; [reflexivity|]. cbn [map filter fst snd]. destruct (Z.eqb (fst p) (snd x)); [reflexivity|exact IH]. }
  do 3 (split; [reflexivity|]). apply copies_length.
Qed.
End Fit.

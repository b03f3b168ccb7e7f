(* SunAbraham: the two codings of never-treated units, the pairs bootstrap, concrete panels. *)
From Verif Require Import Prelude Flt Stats_model Stats_proofs Linalg_model Linalg_proofs Linalg_vcov Linalg_thms Did_model Did_proofs Within_proofs Multi_model Multi_proofs Multi_thms Bacon_model Bacon_proofs Bacon_thms Boot_model Boot_proofs Staggered_model Staggered_proofs Staggered_est Staggered_thms Staggered_more Staggered_fit Sun_model Sun_proofs Sun_thms Sun_more Sun_cs Sun_inf.
From Coq Require Import Arith ZArith String List Permutation FunctionalExtensionality.
Import ListNotations.
Open Scope R_scope.

(* ---- never-treated units coded 0 or inf ---- *)
Section Recode.
Context {I : Type}.
Variable qr : list I -> list (I -> R) -> list nat.
Variable lstsq : list I -> list (I -> R) -> (I -> R) -> list R.
Variable inv : list I -> list (I -> R) -> option (nat -> nat -> R).
Variable pinv : list I -> list (I -> R) -> nat -> nat -> R.
Variable sf : option Z -> fl -> fl.
Variable ppf : option Z -> R -> R.
Variables (u t : I -> Z) (g g' : I -> coh) (y : I -> R) (covs : list (I -> R)) (cluster : option (I -> Z)).
Hypothesis Hre : forall i, g' i = g i \/ (c_never (g i) = true /\ c_never (g' i) = true).

Lemma never_rel h i : c_never (h i) = true -> sa_rel t h i = None.
Proof. unfold sa_rel. destruct (h i) as [k| |]; simpl; try reflexivity. intros H. apply Z.eqb_eq in H as ->. reflexivity. Qed.
Lemma re_rel i : sa_rel t g' i = sa_rel t g i.
Proof. destruct (Hre i) as [E|[A B]]; [unfold sa_rel; rewrite E; reflexivity|rewrite !never_rel; auto]. Qed.
Lemma re_in k i : sa_in t g' k i = sa_in t g k i.
Proof.
  unfold sa_in. rewrite re_rel. destruct (Hre i) as [->|[A _]]; [reflexivity|]. rewrite (never_rel g i A). rewrite !andb_false_r. reflexivity.
Qed.
Lemma re_dummy k : sa_dummy t g' k = sa_dummy t g k.
Proof. apply functional_extensionality. intros i. unfold sa_dummy. rewrite re_in. reflexivity. Qed.
Lemma re_cols keys rows : sa_cols u t g' covs keys rows = sa_cols u t g covs keys rows.
Proof. unfold sa_cols. f_equal. apply map_ext. intros k. rewrite re_dummy. reflexivity. Qed.
Lemma inf_in h e i : sa_in t h (CInf, e) i = false.
Proof. unfold sa_in, sa_rel. cbn [fst snd]. destruct (h i) as [k| |]; try reflexivity. Qed.
Lemma keys_tail h A x rels rows : (x = [] \/ x = [CInf]) -> sa_keys t h (A ++ x) rels rows = sa_keys t h A rels rows.
Proof.
  intros [->| ->]; [rewrite app_nil_r; reflexivity|]. unfold sa_keys. rewrite flat_map_app, filter_app. cbn [flat_map]. rewrite app_nil_r.
  assert (T : filter (fun k => existsb (sa_in t h k) rows) (map (fun e => (CInf, e)) rels) = []).
  { induction rels as [|e l IH]; [reflexivity|]. cbn [map filter].
    assert (E : existsb (sa_in t h (CInf, e)) rows = false). { clear. induction rows as [|i l IH]; [reflexivity|]. cbn [existsb]. rewrite inf_in, IH. reflexivity. }
    rewrite E. exact IH. }
  exact (eq_trans (f_equal (app _) T) (app_nil_r _)).
Qed.
Lemma re_keys groups rels rows : sa_keys t g' groups rels rows = sa_keys t g groups rels rows.
Proof.
  unfold sa_keys. apply filter_ext. intros k. clear -Hre. induction rows as [|i l IH]; [reflexivity|]. cbn [existsb]. rewrite re_in, IH. reflexivity.
Qed.
Lemma re_satur cfg A x x' rels rows : (x = [] \/ x = [CInf]) -> (x' = [] \/ x' = [CInf]) ->
  sa_saturated qr lstsq inv pinv u t g' y covs cluster cfg (A ++ x') rels rows = sa_saturated qr lstsq inv pinv u t g y covs cluster cfg (A ++ x) rels rows.
Proof.
  intros Hx Hx'. unfold sa_saturated. rewrite (keys_tail g' A x' rels rows Hx'), (keys_tail g A x rels rows Hx), re_keys.
  destruct (sa_keys t g A rels rows); [reflexivity|]. rewrite re_cols. reflexivity.
Qed.
Lemma re_size rows k : k <> 0%Z -> sa_size u g' rows (CFin k) = sa_size u g rows (CFin k).
Proof.
  intros Hk. unfold sa_size, sa_cohort. f_equal. apply filter_ext. intros a. fold (cs_cohort rows u g' a). fold (cs_cohort rows u g a).
  destruct (re_cohort rows u t g g' (fun _ => None) (fun i _ => Hre i) a) as [->|[H1 H2]]; [reflexivity|]. rewrite !never_eqb by auto. rewrite !andb_false_r. reflexivity.
Qed.
Lemma re_times rows : sa_rel_times t g' rows = sa_rel_times t g rows.
Proof. unfold sa_rel_times. do 2 f_equal. induction rows as [|i l IH]; [reflexivity|]. cbn [flat_map]. rewrite re_rel, IH. reflexivity. Qed.
Lemma re_periods cfg rows : sa_rel_periods t g' cfg rows = sa_rel_periods t g cfg rows.
Proof.
  unfold sa_rel_periods, sa_max_rel, sa_min_rel. rewrite re_times. apply filter_ext_in. intros e He. f_equal. f_equal.
  assert (Hlo : (hd 0 (sa_rel_times t g rows) <= e)%Z) by (apply sorted_bounds; [apply zsort_sorted|exact He]).
  destruct (sa_has_inf g' rows), (sa_has_inf g rows); try reflexivity.
  - destruct (Z.leb_spec (-20) e), (Z.leb_spec (Z.max (hd 0%Z (sa_rel_times t g rows)) (-20)) e); lia.
  - destruct (Z.leb_spec (-20) e), (Z.leb_spec (Z.max (hd 0%Z (sa_rel_times t g rows)) (-20)) e); lia.
Qed.
Lemma re_sample cfg rows : sa_sample g' cfg rows = sa_sample g cfg rows.
Proof.
  unfold sa_sample. destruct (String.eqb _ _); [|reflexivity]. apply filter_ext. intros i. destruct (Hre i) as [->|[-> ->]]; reflexivity.
Qed.
Lemma re_nat rows e : sa_n_at t g' rows e = sa_n_at t g rows e.
Proof. unfold sa_n_at. f_equal. apply filter_ext. intros i. rewrite re_rel. reflexivity. Qed.
Lemma re_control rows : sa_n_control u g' rows = sa_n_control u g rows.
Proof.
  unfold sa_n_control. f_equal. apply filter_ext. intros a. unfold sa_never. destruct (filter _ rows) as [|i l]; [reflexivity|].
  destruct (Hre i) as [->|[-> ->]]; reflexivity.
Qed.
Lemma re_weights A x x' reg rows e : (forall gr, In gr A -> exists k, gr = CFin k /\ k <> 0%Z) -> (x = [] \/ x = [CInf]) -> (x' = [] \/ x' = [CInf]) ->
  sr_has reg (CInf, e) = false -> sa_weights u g' (A ++ x') reg rows e = sa_weights u g (A ++ x) reg rows e.
Proof.
  intros HA Hx Hx' Hinf. unfold sa_weights.
  assert (F : forall z, (z = [] \/ z = [CInf]) -> filter (fun gr => sr_has reg (gr, e)) (A ++ z) = filter (fun gr => sr_has reg (gr, e)) A).
  { intros z [->| ->]; [rewrite app_nil_r; reflexivity|]. rewrite filter_app. cbn [filter]. rewrite Hinf. apply app_nil_r. }
  rewrite (F x Hx), (F x' Hx').
  assert (S : forall gr, In gr (filter (fun gr => sr_has reg (gr, e)) A) -> INR (sa_size u g' rows gr) = INR (sa_size u g rows gr)).
  { intros gr Hg. apply filter_In in Hg as [Hg _]. destruct (HA gr Hg) as (k & -> & Hk). rewrite re_size by exact Hk. reflexivity. }
  rewrite (sumf_ext (fun gr => INR (sa_size u g' rows gr)) (fun gr => INR (sa_size u g rows gr)) _ S).
  destruct (Req_EM_T _ 0); [reflexivity|]. apply map_ext_in. intros gr Hg. rewrite (S gr Hg). reflexivity.
Qed.
Lemma re_iw cfg A x x' rels reg rows : (forall gr, In gr A -> exists k, gr = CFin k /\ k <> 0%Z) -> (x = [] \/ x = [CInf]) -> (x' = [] \/ x' = [CInf]) ->
  (forall e, sr_has reg (CInf, e) = false) -> sa_iw sf ppf u g' cfg (A ++ x') rels reg rows = sa_iw sf ppf u g cfg (A ++ x) rels reg rows.
Proof.
  intros HA Hx Hx' Hinf. unfold sa_iw. induction rels as [|e l IH]; [reflexivity|]. cbn [flat_map]. rewrite IH, (re_weights A x x' reg rows e HA Hx Hx' (Hinf e)). reflexivity.
Qed.
Lemma re_overall reg es rows : sa_overall t g' rows reg es = sa_overall t g rows reg es.
Proof.
  assert (P : forall e, sa_pw t g' rows es e = sa_pw t g rows es e).
  { intros e. unfold sa_pw. rewrite re_nat. f_equal. apply sumf_ext. intros p _. rewrite re_nat. reflexivity. }
  assert (W : sa_overall_weights t g' rows es = sa_overall_weights t g rows es).
  { unfold sa_overall_weights. induction (sa_post es) as [|p l IH]; [reflexivity|]. cbn [flat_map]. rewrite IH. f_equal. apply map_ext. intros gw. rewrite P. reflexivity. }
  unfold sa_overall. rewrite W. destruct (sa_post es) as [|p0 l0]; [reflexivity|].
  assert (E : forall q : Z * (list (coh * R) * sa_eff), fmul (Fin (sa_pw t g' rows es (fst q))) (se_eff (snd (snd q))) = fmul (Fin (sa_pw t g rows es (fst q))) (se_eff (snd (snd q)))) by (intros q; rewrite P; reflexivity).
  rewrite (map_ext _ _ E). destruct (sa_overall_weights t g rows es); [|reflexivity]. do 3 f_equal. apply map_ext. intros q. rewrite P. reflexivity.
Qed.
(* everything but the group list and the treated-unit count *)
Definition same_estimates (r r' : sa_result) : Prop :=
  sa_es r' = sa_es r /\ sa_cweights r' = sa_cweights r /\ sa_att r' = sa_att r /\ sa_se r' = sa_se r /\ sa_tt r' = sa_tt r /\
  sa_p r' = sa_p r /\ sa_ci r' = sa_ci r /\ sa_rn_obs r' = sa_rn_obs r /\ sa_rn_control r' = sa_rn_control r /\ sa_coh_effects r' = sa_coh_effects r.
Theorem sa_recode cfg rows :
  match sa_fit qr lstsq inv pinv sf ppf u t g y covs cluster cfg rows, sa_fit qr lstsq inv pinv sf ppf u t g' y covs cluster cfg rows with
  | Ok r, Ok r' => same_estimates r r'
  | Err a, Err b => a = b
  | _, _ => False
  end.
Proof.
  unfold sa_fit. rewrite re_control. destruct (Nat.eqb (sa_n_control u g rows) 0); [reflexivity|].
  unfold sa_groups. destruct (re_groups_cs rows g g' (fun i _ => Hre i)) as (x & x' & E & E' & Hx & Hx'). rewrite E, E'.
  set (A := map CFin (timing_groups rows g)).
  assert (HA : forall gr, In gr A -> exists k, gr = CFin k /\ k <> 0%Z).
  { intros gr Hg. apply in_map_iff in Hg as (k & <- & Hk). exists k. split; [reflexivity|]. apply group_in in Hk as [Hk _]. lia. }
  assert (S := fun cfg rels rs => re_satur cfg A x x' rels rs Hx Hx').
  assert (K : forall h z rels rs reg, sa_saturated qr lstsq inv pinv u t h y covs cluster cfg z rels rs = Ok reg -> forall e, sr_has reg (CInf, e) = false).
  { intros h z rels rs reg Hr e. destruct (sr_has reg (CInf, e)) eqn:X; [|reflexivity]. exfalso. apply has_iff in X.
    unfold sa_saturated in Hr. destruct (sa_keys t h z rels rs) as [|k0 ks] eqn:Ek; [discriminate|]. rewrite <- Ek in *.
    destruct (linreg_fit _ _ _ _ _ _ _ _ _ _ _ _) as [lr|ex]; [|discriminate]. cbn [bind] in Hr. injection Hr as <-. cbn [sr_keys] in X.
    apply filter_In in X as [_ X]. apply existsb_exists in X as (i & _ & X). rewrite inf_in in X. discriminate. }
  assert (B : forall z rs, sa_keys t g (A ++ z) (sa_rel_periods t g cfg rows) rs = [] ->
      sa_saturated qr lstsq inv pinv u t g y covs cluster cfg (A ++ z) (sa_rel_periods t g cfg rows) rs = Err ValueError) by (intros z rs H; unfold sa_saturated; rewrite H; reflexivity).
  assert (M : forall z, (z = [] \/ z = [CInf]) ->
     (A ++ z = [] -> sa_saturated qr lstsq inv pinv u t g y covs cluster cfg (A ++ x) (sa_rel_periods t g cfg rows) (sa_sample g cfg rows) = Err ValueError)).
  { intros z Hz H. apply app_eq_nil in H as [H _]. apply B. rewrite (keys_tail g A x _ _ Hx), H. reflexivity. }
  specialize (S cfg (sa_rel_periods t g cfg rows) (sa_sample g cfg rows)).
  assert (IW := fun reg Es => re_iw cfg A x x' (sa_rel_periods t g cfg rows) reg rows HA Hx Hx' (K g (A ++ x) (sa_rel_periods t g cfg rows) (sa_sample g cfg rows) reg Es)).
  assert (M1 := M x Hx). assert (M2 := M x' Hx'). clear M B K.
  unfold sa_estimate. rewrite re_periods, re_sample. clear E E'.
  destruct (A ++ x) as [|a0 l0]; destruct (A ++ x') as [|a1 l1].
  - reflexivity.
  - rewrite S, (M1 eq_refl). reflexivity.
  - rewrite (M2 eq_refl). reflexivity.
  - rewrite S. destruct (sa_saturated _ _ _ _ _ _ g _ _ _ _ _ _ _) as [reg|ex]; [|reflexivity]. cbn [bind]. rewrite (IW reg eq_refl), re_overall.
    destruct (sa_overall t g rows reg _) as [att se]. cbn [bind]. repeat split.
Qed.
End Recode.

(* ---- resampling ---- *)
Section Resample.
Context {I : Type}.
Variables (label : I -> nat) (u : I -> Z) (rows : list I).
Lemma opt_all_some {A} (l : list A) : opt_all (map Some l) = Some l.
Proof. induction l as [|a l IH]; simpl; [reflexivity|]. rewrite IH. reflexivity. Qed.
(* the intended resample: all rows of each drawn unit, under a new id per draw *)
Definition drawn_rows (drawn : list Z) : list (Z * I) :=
  flat_map (fun ka => map (pair (Z.of_nat (fst ka))) (filter (fun i => Z.eqb (u i) (snd ka)) rows)) (combine (seq 0 (length drawn)) drawn).
Lemma combine_app {A B} (a1 a2 : list A) (b1 b2 : list B) : length a1 = length b1 -> combine (a1 ++ a2) (b1 ++ b2) = combine a1 b1 ++ combine a2 b2.
Proof. revert b1. induction a1 as [|x a1 IH]; intros [|z b1] H; simpl in *; try discriminate; [reflexivity|]. rewrite IH by lia. reflexivity. Qed.
Lemma sample_aligned n drawn :
  combine (flat_map (fun ka => map (fun _ => Z.of_nat (fst ka)) (filter (fun i => Z.eqb (u i) (snd ka)) rows)) (combine (seq n (length drawn)) drawn))
          (flat_map (fun a => filter (fun i => Z.eqb (u i) a) rows) drawn)
  = flat_map (fun ka => map (pair (Z.of_nat (fst ka))) (filter (fun i => Z.eqb (u i) (snd ka)) rows)) (combine (seq n (length drawn)) drawn).
Proof.
  revert n. induction drawn as [|a l IH]; intros n; [reflexivity|]. cbn [length seq combine flat_map fst snd]. rewrite combine_app by (rewrite map_length; reflexivity). rewrite IH. f_equal.
  induction (filter (fun i => Z.eqb (u i) a) rows) as [|i r IHr]; [reflexivity|]. cbn. rewrite IHr. reflexivity.
Qed.
Theorem boot_sample_ok drawn : (forall k i, nth_error rows k = Some i -> label i = k) -> boot_sample label u rows drawn = Some (drawn_rows drawn).
Proof.
  intros Hl. unfold boot_sample, boot_taken, boot_labels.
  assert (E : map (nth_error rows) (flat_map (fun a => map label (filter (fun i => Z.eqb (u i) a) rows)) drawn)
            = map Some (flat_map (fun a => filter (fun i => Z.eqb (u i) a) rows) drawn)).
  { induction drawn as [|a l IH]; [reflexivity|]. cbn [flat_map]. rewrite !map_app, IH. f_equal. rewrite map_map. apply map_ext_in. intros i Hi.
    apply filter_In in Hi as [Hi _]. apply In_nth_error in Hi as [k Hk]. rewrite (Hl k i Hk). exact Hk. }
  rewrite E, opt_all_some. f_equal. apply sample_aligned.
Qed.
Theorem drawn_rows_In drawn k i : In (k, i) (drawn_rows drawn) <-> In i rows /\ exists j, k = Z.of_nat j /\ nth_error drawn j = Some (u i).
Proof.
  unfold drawn_rows. rewrite in_flat_map.
  assert (X : forall n (l : list Z) j a, In (j, a) (combine (seq n (length l)) l) <-> exists m, j = (n + m)%nat /\ nth_error l m = Some a).
  { clear. intros n l. revert n. induction l as [|x l IH]; intros n j a; cbn [length seq combine].
    - split; [intros []|]. intros (m & _ & H). destruct m; discriminate.
    - cbn [In]. rewrite IH. split.
      + intros [E|(m & -> & H)]; [injection E as <- <-; exists 0%nat; split; [lia|reflexivity]|]. exists (S m). split; [lia|exact H].
      + intros ([|m] & -> & H); [left; injection H as ->; f_equal; lia|]. right. exists m. split; [lia|exact H]. }
  split.
  - intros ((j, a) & Hja & H). cbn [fst snd] in H. apply in_map_iff in H as (i' & E & Hi). apply pair_equal_spec in E as [<- ->]. apply filter_In in Hi as [Hi Hu]. apply Z.eqb_eq in Hu.
    split; [exact Hi|]. exists j. split; [reflexivity|]. apply X in Hja as (m & -> & H). cbn. rewrite Hu. exact H.
  - intros (Hi & j & -> & Hj). exists (j, u i). split; [apply X; exists j; auto|]. cbn [fst snd]. apply in_map, filter_In. split; [exact Hi|apply Z.eqb_refl].
Qed.
End Resample.

(* two rows, unit 1 then unit 2, whose index labels are swapped: drawing unit 1 twice takes unit 2's row twice *)
Theorem boot_labels_refuted : exists (rows : list (Z * nat)) (label : Z * nat -> nat) drawn,
  Permutation (map label rows) (seq 0 (length rows)) /\ (forall a, In a drawn -> In a (map fst rows)) /\
  exists b, boot_sample label fst rows drawn = Some b /\ (forall p, In p b -> ~ In (fst (snd p)) drawn).
Proof.
  exists [(1%Z, 1%nat); (2%Z, 0%nat)], snd, [1%Z; 1%Z]. split; [apply perm_swap|]. split; [intros a [<-|[<-|[]]]; left; reflexivity|].
  eexists. split; [reflexivity|]. cbn. intros p [<-|[<-|[]]] [H|[H|[]]]; discriminate.
Qed.
(* labels that are not positions at all, e.g. after filtering the data frame *)
Theorem boot_index_error : exists (rows : list (Z * nat)) (label : Z * nat -> nat) drawn,
  NoDup (map label rows) /\ (forall a, In a drawn -> In a (map fst rows)) /\ boot_sample label fst rows drawn = None.
Proof.
  exists [(1%Z, 2%nat); (2%Z, 3%nat)], snd, [1%Z; 2%Z]. split; [repeat constructor; cbn; intuition discriminate|]. split; [|reflexivity].
  intros a [<-|[<-|[]]]; cbn; auto.
Qed.

(* ---- bootstrap statistics ---- *)
Theorem sa_boot_p_bounds orig d : d <> [] -> 1 / (len d + 1) <= sa_boot_p orig d <= 1.
Proof.
  intros Hd. unfold sa_boot_p. split; [apply Rmax_r|]. apply Rmax_lub; [apply Rmin_r|].
  assert (H : 1 <= len d) by (unfold len; destruct d; [congruence|]; simpl length; rewrite S_INR; pose proof (pos_INR (length d)); lra).
  apply (Rmult_le_reg_r (len d + 1)); [lra|]. unfold Rdiv. rewrite Rmult_assoc, Rinv_l by lra. lra.
Qed.
Theorem sa_boot_p_value (o : R) (d : list R) : d <> [] ->
  sa_boot_p (Fin o) (map Fin d) = Rmax (Rmin (2 * (INR (length (filter (fun x => if Rle_dec 0 o then Rleb x 0 else Rleb 0 x) d)) / len d)) 1) (1 / (len d + 1)).
Proof.
  intros Hd. unfold sa_boot_p. rewrite len_map.
  assert (L : forall a b, fle (Fin a) (Fin b) = Rleb a b) by (intros a b; reflexivity).
  assert (E : forall q q', (forall x, q (Fin x) = q' x) -> share q (map Fin d) = INR (length (filter q' d)) / len d).
  { intros q q' Hq. rewrite share_count, len_map. f_equal. f_equal. clear -Hq. induction d as [|x l IH]; [reflexivity|]. cbn [map filter]. rewrite Hq. destruct (q' x); cbn [length]; rewrite IH; reflexivity. }
  unfold fge. rewrite L. destruct (Rle_dec 0 o) as [H|H].
  - rewrite (proj2 (Rleb_true 0 o) H). rewrite (E _ (fun x => Rleb x 0)) by (intros; apply L). reflexivity.
  - destruct (Rleb 0 o) eqn:B; [apply Rleb_true in B; contradiction|]. rewrite (E _ (fun x => Rleb 0 x)) by (intros; apply L). reflexivity.
Qed.
(* a single NaN replicate: no standard error, no interval, a p value all the same *)
Theorem sa_boot_nan alpha orig d : In NaN d -> let s := sa_boot_stats alpha orig d in
  bs_se s = NaN /\ bs_ci s = (NaN, NaN) /\ sa_t orig (bs_se s) = Fin 0 /\ exists p, bs_p s = Fin p /\ 1 / (len d + 1) <= p <= 1.
Proof.
  intros H. cbv zeta. unfold sa_boot_stats. destruct (all_fin d) as [v|] eqn:E.
  - apply all_fin_some in E. subst. apply in_map_iff in H as (x & H & _). discriminate.
  - cbn [bs_se bs_ci bs_p]. do 3 (split; [reflexivity|]). eexists. split; [reflexivity|]. apply sa_boot_p_bounds. intros ->. destruct H.
Qed.
Lemma repeat_map {A B} (f : A -> B) a n : repeat (f a) n = map f (repeat a n).
Proof. induction n as [|n IH]; cbn; [reflexivity|]. rewrite IH. reflexivity. Qed.
(* every replicate failed: the distribution is the estimate repeated *)
Theorem all_failed_stats alpha o B : (2 <= B)%nat -> o <> 0 -> let s := sa_boot_stats alpha (Fin o) (repeat (Fin o) B) in
  bs_se s = Fin 0 /\ sa_t (Fin o) (bs_se s) = Fin 0 /\ bs_p s = Fin (1 / (INR B + 1)).
Proof.
  intros HB Ho. cbv zeta. unfold sa_boot_stats. rewrite repeat_map, all_fin_map. cbn [bs_se bs_p].
  assert (HL : len (repeat o B) = INR B) by (unfold len; rewrite repeat_length; reflexivity).
  assert (H2 : 2 <= INR B) by (change 2 with (INR 2); apply le_INR; exact HB).
  assert (Hne : repeat o B <> []) by (destruct B; [lia|discriminate]).
  assert (S : sumsq_dev (repeat o B) = 0).
  { unfold sumsq_dev. apply sumf_zero. intros x Hx. apply repeat_spec in Hx as ->.
    assert (M : meanf idR (repeat o B) = o).
    { rewrite (meanf_ext _ (fun _ => o)) by (intros x Hx; apply repeat_spec in Hx; exact Hx). apply meanf_const. exact Hne. }
    rewrite M. ring. }
  assert (E1 : fsqrt (fdiv (Fin (sumsq_dev (repeat o B))) (Fin (len (repeat o B) - 1))) = Fin 0).
  { rewrite S, HL. unfold fdiv. destruct (Req_EM_T (INR B - 1) 0); [lra|]. unfold fsqrt. replace (0 / (INR B - 1)) with 0 by (unfold Rdiv; ring).
    destruct (Rlt_dec 0 0); [lra|]. rewrite sqrt_0. reflexivity. }
  rewrite E1. split; [reflexivity|]. split.
  { unfold sa_t, fgt. destruct (flt (Fin 0) (Fin 0)) eqn:E; [apply flt_fin in E; lra|reflexivity]. }
  f_equal. rewrite (sa_boot_p_value o (repeat o B) Hne), HL.
  assert (F : filter (fun x => if Rle_dec 0 o then Rleb x 0 else Rleb 0 x) (repeat o B) = []).
  { clear -Ho. induction B as [|B IH]; [reflexivity|]. cbn [repeat filter]. destruct (Rle_dec 0 o) as [H|H].
    - destruct (Rleb o 0) eqn:X; [apply Rleb_true in X; lra|exact IH].
    - destruct (Rleb 0 o) eqn:X; [apply Rleb_true in X; lra|exact IH]. }
  rewrite F. cbn [length INR]. replace (2 * (0 / INR B)) with 0 by (unfold Rdiv; ring). rewrite Rmin_left by lra. apply Rmax_right.
  apply Rlt_le. apply Rmult_lt_0_compat; [lra|apply Rinv_0_lt_compat; lra].
Qed.

Section BootFit.
Context {I : Type}.
Variable qr : list I -> list (I -> R) -> list nat.
Variable lstsq : list I -> list (I -> R) -> (I -> R) -> list R.
Variable inv : list I -> list (I -> R) -> option (nat -> nat -> R).
Variable pinv : list I -> list (I -> R) -> nat -> nat -> R.
Variable qrb : list (Z * I) -> list (Z * I -> R) -> list nat.
Variable lstsqb : list (Z * I) -> list (Z * I -> R) -> (Z * I -> R) -> list R.
Variable invb : list (Z * I) -> list (Z * I -> R) -> option (nat -> nat -> R).
Variable pinvb : list (Z * I) -> list (Z * I -> R) -> nat -> nat -> R.
Variable sf : option Z -> fl -> fl.
Variable ppf : option Z -> R -> R.
Variables (label : I -> nat) (u t : I -> Z) (g : I -> coh) (y : I -> R) (covs : list (I -> R)) (cluster : option (I -> Z)).
Notation fit := (sa_fit qr lstsq inv pinv sf ppf u t g y covs cluster).
Notation bfit := (sa_fit_boot qr lstsq inv pinv qrb lstsqb invb pinvb sf ppf label u t g y covs cluster).
Notation iter := (sa_boot_iter qrb lstsqb invb pinvb sf ppf label u t g y covs cluster).
Notation est := (sa_estimate qrb lstsqb invb pinvb sf ppf fst (lift t) (lift g) (lift y) (map lift covs) (option_map lift cluster)).

Lemma iters_forall f draws reps : sa_boot_iters f draws = Ok reps -> length reps = length draws /\
  forall b d, nth_error draws b = Some d -> exists x, nth_error reps b = Some x /\ f d = Ok x.
Proof.
  revert reps. induction draws as [|d l IH]; intros reps H; cbn [sa_boot_iters] in H; [injection H as <-; split; [reflexivity|intros [|b] d E; discriminate]|].
  destruct (f d) as [x|] eqn:Ed; [|discriminate]. cbn [bind] in H. destruct (sa_boot_iters f l) as [r|] eqn:Er; [|discriminate]. cbn [bind] in H. injection H as <-.
  destruct (IH r eq_refl) as [IL IH']. split; [cbn; rewrite IL; reflexivity|]. intros [|b] d' E; cbn in E |- *; [injection E as <-; eauto|apply IH'; exact E].
Qed.
(* point estimates are the analytical ones; inference comes from the replicates *)
Theorem bfit_inv cfg rows draws s : bfit cfg rows draws = Ok s -> exists r, fit cfg rows = Ok r /\ sb_att s = sa_att r /\
  map (fun p => (fst p, fst (fst (snd p)))) (sb_es s) = map (fun p => (fst p, se_eff (snd p))) (sa_es r) /\
  length (sb_dist s) = length draws /\ sb_overall s = sa_boot_stats (sa_alpha cfg) (sa_att r) (sb_dist s) /\ sb_t s = sa_t (sb_att s) (bs_se (sb_overall s)) /\
  forall b d, nth_error draws b = Some d -> exists smp, boot_sample label u (sa_sample g cfg rows) d = Some smp /\
    match est cfg (sa_rgroups r) (sa_rel_periods t g cfg rows) smp smp with
    | Ok (_, _, (att, _)) => nth_error (sb_dist s) b = Some att
    | Err x => (x = ValueError \/ x = LinAlgError) /\ nth_error (sb_dist s) b = Some (sa_att r)
    end.
Proof.
  unfold sa_fit_boot. destruct (fit cfg rows) as [r|] eqn:Er; [|discriminate]. cbn [bind]. set (orig := fun e : Z => _).
  destruct (sa_boot_iters _ draws) as [reps|] eqn:Ei; [|discriminate]. cbn [bind]. intros H. injection H as <-. cbn [sb_att sb_es sb_dist sb_overall sb_t].
  exists r. split; [reflexivity|]. split; [reflexivity|]. split; [rewrite map_map; apply map_ext; intros p; reflexivity|].
  destruct (iters_forall _ _ _ Ei) as [HL HN]. split; [rewrite map_length; exact HL|]. split; [reflexivity|]. split; [reflexivity|].
  intros b d Hb. destruct (HN b d Hb) as (x & Hx & Hi). unfold sa_boot_iter in Hi. destruct (boot_sample label u (sa_sample g cfg rows) d) as [smp|]; [|discriminate].
  exists smp. split; [reflexivity|]. rewrite nth_error_map, Hx. cbn [option_map].
  destruct (est cfg (sa_rgroups r) (sa_rel_periods t g cfg rows) smp smp) as [[[reg es] [att se]]|ex].
  - injection Hi as <-. reflexivity.
  - destruct ex; try discriminate; injection Hi as <-; cbn [sa_replicate snd]; auto.
Qed.
(* IndexError escapes *)
Theorem bfit_index_error cfg rows d l r : fit cfg rows = Ok r -> boot_sample label u (sa_sample g cfg rows) d = None -> bfit cfg rows (d :: l) = Err IndexError.
Proof. intros Hr Hd. unfold sa_fit_boot. rewrite Hr. cbn [bind sa_boot_iters]. unfold sa_boot_iter at 1. rewrite Hd. reflexivity. Qed.

(* a resample without treated rows always fails, and counts as the estimate itself *)
Theorem no_treated_replicate cfg groups rels smp : (forall p, In p smp -> sa_rel t g (snd p) = None) -> est cfg groups rels smp smp = Err ValueError.
Proof.
  intros H. unfold sa_estimate, sa_saturated. assert (E : sa_keys (lift t) (lift g) groups rels smp = []).
  { unfold sa_keys. induction (flat_map _ groups) as [|k l IH]; [reflexivity|]. cbn [filter].
    assert (X : existsb (sa_in (lift t) (lift g) k) smp = false); [|rewrite X; exact IH].
    destruct (existsb _ smp) eqn:X; [|reflexivity]. apply existsb_exists in X as (p & Hp & X). unfold sa_in in X. apply andb_true_iff in X as [_ X].
    change (sa_rel (lift t) (lift g) p) with (sa_rel t g (snd p)) in X. rewrite (H p Hp) in X. discriminate. }
  rewrite E. reflexivity.
Qed.
(* a resample whose units all belong to one cohort: the dummies are functions of the period, the within transformation removes them,
   no column is left and IndexError escapes the try *)
Theorem one_cohort_replicate cfg groups rels smp c m : qr_ok qrb -> covs = [] -> sa_action cfg = "warn"%string \/ sa_action cfg = "silent"%string ->
  balanced Z.eq_dec Z.eq_dec smp fst (lift t) m -> (forall p, In p smp -> g (snd p) = c) ->
  let keys := sa_keys (lift t) (lift g) groups rels smp in keys <> [] -> (length keys <= length smp)%nat ->
  est cfg groups rels smp smp = Err IndexError.
Proof.
  intros Hq Hcv Ha Hb Hc keys Hk Hl. unfold sa_estimate. rewrite (saturated_absorbed qrb lstsqb invb pinvb Hq); auto.
  - rewrite Hcv. cbn [map length]. fold keys. lia.
  - intros x i Hx Hi. rewrite Hcv in Hx. unfold sa_cols in Hx. cbn [map] in Hx. rewrite app_nil_r in Hx. apply in_map_iff in Hx as (k & <- & _).
    set (f := fun s => ind (c_eqb c (fst k) && match (match c with CFin z => if Z.ltb 0 z then Some (s - z)%Z else None | _ => None end) with Some e => Z.eqb e (snd k) | None => false end)).
    rewrite (within_ext Z.eq_dec Z.eq_dec smp fst (lift t) _ (fun p => 0 + f (lift t p)) i Hi).
    + exact (within_additive Z.eq_dec Z.eq_dec smp fst (lift t) m Hb (fun _ => 0) f i Hi).
    + intros p Hp. unfold sa_dummy, sa_in, f, sa_rel, lift. rewrite (Hc p Hp). rewrite Rplus_0_l. reflexivity.
Qed.
Theorem bfit_one_cohort cfg rows d l r smp c m : qr_ok qrb -> covs = [] -> sa_action cfg = "warn"%string \/ sa_action cfg = "silent"%string ->
  fit cfg rows = Ok r -> boot_sample label u (sa_sample g cfg rows) d = Some smp ->
  balanced Z.eq_dec Z.eq_dec smp fst (lift t) m -> (forall p, In p smp -> g (snd p) = c) ->
  let keys := sa_keys (lift t) (lift g) (sa_rgroups r) (sa_rel_periods t g cfg rows) smp in keys <> [] -> (length keys <= length smp)%nat ->
  bfit cfg rows (d :: l) = Err IndexError.
Proof.
  intros Hq Hcv Ha Hr Hs Hb Hc keys Hk Hl. unfold sa_fit_boot. rewrite Hr. cbn [bind sa_boot_iters]. unfold sa_boot_iter at 1. rewrite Hs.
  rewrite (one_cohort_replicate cfg _ _ smp c m); auto.
Qed.
Theorem failed_replicates cfg rows draws r o : fit cfg rows = Ok r -> sa_att r = Fin o -> o <> 0 -> (2 <= length draws)%nat ->
  (forall i, In i rows -> valid_coh (g i) = true) -> (forall k i, nth_error rows k = Some i -> label i = k) ->
  (forall d a, In d draws -> In a d -> forall i, In i rows -> u i = a -> sa_rel t g i = None) ->
  exists s, bfit cfg rows draws = Ok s /\ sb_att s = Fin o /\ bs_se (sb_overall s) = Fin 0 /\ sb_t s = Fin 0 /\ bs_p (sb_overall s) = Fin (1 / (INR (length draws) + 1)).
Proof.
  intros Hr Ho Hne HB Hval Hlab Hd. unfold sa_fit_boot. rewrite Hr. cbn [bind]. set (orig := fun e : Z => _). rewrite (sample_all g cfg rows Hval).
  assert (E : forall l, (forall d, In d l -> In d draws) -> sa_boot_iters (iter cfg (sa_rgroups r) (sa_rel_periods t g cfg rows) rows orig (sa_att r)) l = Ok (repeat (orig, sa_att r) (length l))).
  { induction l as [|d l IH]; intros Hl; [reflexivity|]. cbn [sa_boot_iters length repeat]. unfold sa_boot_iter at 1. rewrite (boot_sample_ok label u rows d Hlab).
    rewrite no_treated_replicate; [cbn [bind sa_replicate]; rewrite IH by (intros; apply Hl; right; assumption); reflexivity|].
    intros (k, i) Hp. cbn [snd]. apply drawn_rows_In in Hp as (Hi & j & _ & Hj). apply (Hd d (u i)); [apply Hl; left; reflexivity|eapply nth_error_In; exact Hj|exact Hi|reflexivity]. }
  rewrite (E draws (fun d H => H)). cbn [bind]. eexists. split; [reflexivity|]. cbn [sb_att sb_overall sb_t].
  assert (M : map snd (repeat (orig, sa_att r) (length draws)) = repeat (Fin o) (length draws)).
  { rewrite Ho. clear. induction (length draws) as [|n IH]; [reflexivity|]. cbn [repeat map snd]. rewrite IH. reflexivity. }
  rewrite M, Ho. destruct (all_failed_stats (sa_alpha cfg) o (length draws) HB Hne) as (A & B & C). auto.
Qed.
End BootFit.

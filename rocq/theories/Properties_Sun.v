(* Properties of SunAbraham: statements only. *)
From Verif Require Import Prelude Flt Stats_model Linalg_model Linalg_proofs Linalg_vcov Linalg_thms Did_model Within_proofs Multi_model Multi_thms Bacon_model Boot_model Boot_proofs Staggered_model Staggered_proofs Staggered_fit Sun_model Sun_proofs Sun_thms Sun_more Sun_cs Sun_inf Sun_boot Sun_ex.
From Coq Require Import Arith ZArith String List Permutation.
Import ListNotations.
Open Scope R_scope.

Section P.
Context {I : Type}.
Variable qr : list I -> list (I -> R) -> list nat.
Variable lstsq : list I -> list (I -> R) -> (I -> R) -> list R.
Variable inv : list I -> list (I -> R) -> option (nat -> nat -> R).
Variable pinv : list I -> list (I -> R) -> nat -> nat -> R.
Variable sf : option Z -> fl -> fl.
Variable ppf : option Z -> R -> R.
Hypothesis Hqr : qr_ok qr.
Hypothesis Hls : lstsq_ok lstsq.
Hypothesis Hinv : inv_ok inv.
Hypothesis Hd : dist_ok sf ppf.
Variables (u t : I -> Z) (g : I -> coh) (y : I -> R) (covs : list (I -> R)) (cluster : option (I -> Z)).
Notation fit := (sa_fit qr lstsq inv pinv sf ppf u t g y covs cluster).

(* ---- C24 ---- *)
(* the weights at a relative time are the cohort shares among the cohorts estimated there *)
Theorem C24_cohort_shares cfg rows r e w : fit cfg rows = Ok r -> In (e, w) (sa_cweights r) ->
  let size gr := INR (length (filter (fun a => c_gt (unit_cohort rows u g a) 0 && c_eqb (unit_cohort rows u g a) gr) (zsort (nodup Z.eq_dec (map u rows))))) in
  w <> [] /\ sumf snd w = 1 /\
  (forall gr, In gr (map fst w) <-> In gr (sa_rgroups r) /\ In (gr, e) (map fst (sa_coh_effects r))) /\
  (forall gr x, In (gr, x) w -> 0 <= x /\ x = size gr / sumf (fun gw => size (fst gw)) w) /\
  exists ef, In (e, ef) (sa_es r) /\ se_n ef = length w /\
    forall f, (forall k x, In (k, x) (sa_coh_effects r) -> snd k = e -> fst (fst x) = Fin (f k)) -> se_eff ef = Fin (sumf (fun gw => snd gw * f (fst gw, e)) w).
Proof. exact (fit_weights qr lstsq inv pinv sf ppf u t g y covs cluster cfg rows r e w). Qed.
(* the overall effect weights the effects at e >= 0 by the number of treated observations at e *)
Theorem C24_overall cfg rows r : fit cfg rows = Ok r -> (exists e, In e (map fst (sa_es r)) /\ (0 <= e)%Z) ->
  let post := filter (fun p => Z.leb 0 (fst p)) (sa_es r) in
  let n e := INR (length (filter (fun i => match g i with CFin k => Z.ltb 0 k && Z.eqb (t i) (k + e) | _ => false end) rows)) in
  0 < sumf (fun p => n (fst p)) post /\ (forall p, In p post -> 0 < n (fst p)) /\
  forall f, (forall p, In p post -> se_eff (snd p) = Fin (f (fst p))) ->
    sa_att r = Fin (sumf (fun p => n (fst p) / sumf (fun q => n (fst q)) post * f (fst p)) post).
Proof. exact (fit_overall qr lstsq inv pinv sf ppf Hls u t g y covs cluster cfg rows r). Qed.
(* exact recovery; covariates allowed *)
Theorem C24_exact cfg rows m r (al be : Z -> R) (tau : coh -> Z -> R) (beta : list R) :
  balanced Z.eq_dec Z.eq_dec rows u t m -> (forall i, In i rows -> valid_coh (g i) = true) ->
  fit cfg rows = Ok r -> indep rows (sa_cols u t g covs (map fst (sa_coh_effects r)) rows) -> length beta = length covs ->
  (forall i, In i rows -> y i = al (u i) + be (t i) + (match sa_rel t g i with Some e => tau (g i) e | None => 0 end) + lc covs beta i) ->
  (forall i e, In i rows -> sa_rel t g i = Some e -> (e = sa_ref cfg \/ e < -20 \/ 20 < e)%Z -> tau (g i) e = 0) ->
  (forall k x, In (k, x) (sa_coh_effects r) -> fst (fst x) = Fin (tau (fst k) (snd k))) /\
  (forall e w, In (e, w) (sa_cweights r) -> exists ef, In (e, ef) (sa_es r) /\ se_eff ef = Fin (sumf (fun gw => snd gw * tau (fst gw) e) w)).
Proof. exact (fit_exact_level qr lstsq inv pinv sf ppf Hqr Hls u t g y covs cluster cfg rows m r al be tau beta). Qed.
(* full rank on a balanced panel without covariates in which each cohort's reference period is observed *)
Theorem C24_full_rank cfg rows C m reg : balanced Z.eq_dec Z.eq_dec rows u t m -> (forall i, In i rows -> g i = C (u i)) ->
  covs = [] -> ref_observed t g rows cfg -> sa_n_control u g rows <> 0%nat ->
  sa_saturated qr lstsq inv pinv u t g y covs cluster cfg (sa_groups g rows) (sa_rel_periods t g cfg rows) rows = Ok reg ->
  indep rows (sa_cols u t g covs (sr_keys reg) rows).
Proof. exact (fun Hb HC => fit_full_rank qr lstsq inv pinv Hls u t g y covs cluster rows C m Hb HC cfg reg). Qed.

(* ---- C25 ---- *)
(* the full statement is false: control_group changes nothing when the cohorts are validly coded *)
Theorem C25_control_group_refuted cfg s rows : (forall i, In i rows -> valid_coh (g i) = true) -> fit (set_control cfg s) rows = fit cfg rows.
Proof. exact (control_irrelevant qr lstsq inv pinv sf ppf u t g y covs cluster cfg s rows). Qed.
Theorem C25_never_treated_required_refuted cfg rows : (forall i, In i rows -> c_never (g i) = false) -> fit cfg rows = Err ValueError.
Proof. exact (never_treated_required qr lstsq inv pinv sf ppf u t g y covs cluster cfg rows). Qed.

(* ---- C60 ---- *)
(* standard errors come from the clustered variance of the combination actually reported *)
Theorem C60_standard_errors cfg rows r m : (forall i, In i rows -> valid_coh (g i) = true) ->
  (forall reg, sa_saturated qr lstsq inv pinv u t g y covs cluster cfg (sa_groups g rows) (sa_rel_periods t g cfg rows) rows = Ok reg -> indep rows (sa_cols u t g covs (sr_keys reg) rows)) ->
  fit cfg rows = Ok r -> m = length (sa_coh_effects r) ->
  exists V e, robust_vcov Z.eq_dec inv rows (sa_cols u t g covs (map fst (sa_coh_effects r)) rows) e (Some match cluster with Some c => c | None => u end) = Ok V /\
  (forall e ef, In (e, ef) (sa_es r) -> exists w, In (e, w) (sa_cweights r) /\
     exists ix, map snd ix = map snd w /\ (forall p, In p ix -> (fst p < m)%nat) /\
       (forall p q, In (p, q) (combine ix w) -> nth_error (map fst (sa_coh_effects r)) (fst p) = Some (fst q, e)) /\
       0 <= quadR V ix /\ se_se ef = Fin (sqrt (quadR V ix))) /\
  ((exists e w, In (e, w) (sa_cweights r) /\ (0 <= e)%Z) ->
     exists ix, (forall p, In p ix -> (fst p < m)%nat) /\ 0 <= quadR V ix /\ sa_se r = Fin (sqrt (quadR V ix)) /\
       sumf snd ix = 1 /\
       (forall f, (forall p, In p ix -> exists k s w, nth_error (sa_coh_effects r) (fst p) = Some (k, (Fin (f k), s, w))) ->
          sa_att r = Fin (sumf (fun p => snd p * match nth_error (sa_coh_effects r) (fst p) with Some (k, _) => f k | None => 0 end) ix))).
Proof. exact (standard_errors qr lstsq inv pinv sf ppf Hqr Hls Hinv u t g y covs cluster cfg rows r m). Qed.
(* with a positive standard error the t statistic, p value and interval agree *)
Theorem C60_coherent alpha b se : 0 < se -> 0 < alpha < 1 ->
  exists p lo hi, sa_t (Fin b) (Fin se) = Fin (b / se) /\ u_p_value sf (sa_t (Fin b) (Fin se)) None = Fin p /\ u_ci ppf (Fin b) (Fin se) alpha None = (Fin lo, Fin hi) /\
    0 < p <= 1 /\ lo < b < hi /\ b - lo = hi - b /\ (p < alpha <-> (hi < 0 \/ 0 < lo)).
Proof. exact (sa_coherent sf ppf Hd alpha b se). Qed.
Theorem C60_reported cfg rows r : fit cfg rows = Ok r ->
  sa_tt r = sa_t (sa_att r) (sa_se r) /\ sa_p r = u_p_value sf (sa_tt r) None /\ sa_ci r = u_ci ppf (sa_att r) (sa_se r) (sa_alpha cfg) None.
Proof.
  intros H. destruct (sa_fit_inv qr lstsq inv pinv sf ppf u t g y covs cluster cfg rows r H) as (_ & _ & _ & _ & _ & _ & _ & _ & A & B & C & _).
  exact (conj A (conj B C)).
Qed.
(* rank deficiency and absence of post-treatment effects are reported as p = 1 *)
Theorem C60_rank_deficient cfg rows r : covs = [] -> (forall i, In i rows -> valid_coh (g i) = true) -> fit cfg rows = Ok r ->
  ~ indep rows (sa_cols u t g covs (map fst (sa_coh_effects r)) rows) ->
  (forall gr e, In (gr, e) (map fst (sa_coh_effects r)) -> (0 < sa_size u g rows gr)%nat) ->
  exists e ef, In (e, ef) (sa_es r) /\ se_eff ef = NaN /\ se_se ef = NaN /\ se_t ef = Fin 0 /\ se_p ef = Fin 1 /\ se_ci ef = (NaN, NaN) /\
    ((0 <= e)%Z -> sa_att r = NaN /\ sa_se r = NaN /\ sa_tt r = Fin 0 /\ sa_p r = Fin 1).
Proof. exact (rank_deficient qr lstsq inv pinv sf ppf Hqr Hls Hd u t g y covs cluster cfg rows r). Qed.
Theorem C60_no_post_effects cfg rows r : fit cfg rows = Ok r -> (forall e ef, In (e, ef) (sa_es r) -> (e < 0)%Z) ->
  sa_att r = Fin 0 /\ sa_se r = Fin 0 /\ sa_tt r = Fin 0 /\ sa_p r = Fin 1 /\ sa_ci r = (Fin 0, Fin 0).
Proof. exact (no_post_effects qr lstsq inv pinv sf ppf Hd u t g y covs cluster cfg rows r). Qed.
(* when the estimator returns at all *)
Theorem C60_fit_succeeds cfg rows : sa_n_control u g rows <> 0%nat -> (sa_action cfg = "warn"%string \/ sa_action cfg = "silent"%string) ->
  let keys := sa_keys t g (sa_groups g rows) (sa_rel_periods t g cfg rows) (sa_sample g cfg rows) in
  keys <> [] -> (length keys + length covs < length (sa_sample g cfg rows))%nat ->
  (2 <= length (cl_keys Z.eq_dec (sa_sample g cfg rows) match cluster with Some c => c | None => u end))%nat ->
  (exists c i, In c (sa_cols u t g covs keys (sa_sample g cfg rows)) /\ In i (sa_sample g cfg rows) /\ c i <> 0) ->
  exists r, fit cfg rows = Ok r /\ map fst (sa_coh_effects r) = keys.
Proof. exact (fit_succeeds qr lstsq inv pinv sf ppf Hqr Hinv u t g y covs cluster cfg rows). Qed.

(* and when every column is absorbed by the unit and period effects it raises IndexError, not a NaN result *)
Theorem C60_absorbed_design_refuted cfg rows : sa_n_control u g rows <> 0%nat -> sa_action cfg = "warn"%string \/ sa_action cfg = "silent"%string ->
  let keys := sa_keys t g (sa_groups g rows) (sa_rel_periods t g cfg rows) (sa_sample g cfg rows) in
  keys <> [] -> (length keys + length covs <= length (sa_sample g cfg rows))%nat ->
  (forall c i, In c (sa_cols u t g covs keys (sa_sample g cfg rows)) -> In i (sa_sample g cfg rows) -> c i = 0) -> fit cfg rows = Err IndexError.
Proof. exact (fit_absorbed qr lstsq inv pinv sf ppf Hqr u t g y covs cluster cfg rows). Qed.

(* ---- C22 for SunAbraham ---- *)
Theorem C22_sa_estimates_agree_partial g' : (forall i, g' i = g i \/ (c_never (g i) = true /\ c_never (g' i) = true)) -> forall cfg rows,
  match fit cfg rows, sa_fit qr lstsq inv pinv sf ppf u t g' y covs cluster cfg rows with
  | Ok r, Ok r' =>
      sa_es r' = sa_es r /\ sa_cweights r' = sa_cweights r /\ sa_att r' = sa_att r /\ sa_se r' = sa_se r /\ sa_tt r' = sa_tt r /\
      sa_p r' = sa_p r /\ sa_ci r' = sa_ci r /\ sa_rn_obs r' = sa_rn_obs r /\ sa_rn_control r' = sa_rn_control r /\ sa_coh_effects r' = sa_coh_effects r
  | Err a, Err b => a = b
  | _, _ => False
  end.
Proof. exact (sa_recode qr lstsq inv pinv sf ppf u t g g' y covs cluster). Qed.
End P.

(* ---- C61 ---- *)
Section Agree.
Context {I : Type}.
Variable qr : list I -> list (I -> R) -> list nat.
Variable lstsq : list I -> list (I -> R) -> (I -> R) -> list R.
Variable inv : list I -> list (I -> R) -> option (nat -> nat -> R).
Variable pinv : list I -> list (I -> R) -> nat -> nat -> R.
Variable sf : option Z -> fl -> fl.
Variable ppf : option Z -> R -> R.
Hypothesis Hqr : qr_ok qr.
Hypothesis Hls : lstsq_ok lstsq.
Variable qr2 : list Z -> list (Z -> R) -> list nat.
Variable lstsq2 : list Z -> list (Z -> R) -> (Z -> R) -> list R.
Variable inv2 : list Z -> list (Z -> R) -> option (nat -> nat -> R).
Variable logit : list Z -> list Z -> list (Z -> R) -> option (Z -> R).
Variables (u t : I -> Z) (g : I -> coh) (y : I -> R) (cluster : option (I -> Z)) (rows : list I) (C : Z -> coh).
Hypothesis Hbal : balanced Z.eq_dec Z.eq_dec rows u t 1.
Hypothesis HC : forall i, In i rows -> g i = C (u i).
Hypothesis Hval : forall i, In i rows -> valid_coh (g i) = true.
Theorem C61_two_estimators_agree cfg ccfg agg bal ws r c : sa_anticipation cfg = cs_anticipation ccfg -> cs_control ccfg = "never_treated"%string ->
  ref_observed t g rows cfg -> (forall i e, In i rows -> sa_rel t g i = Some e -> (-20 <= e <= 20)%Z) ->
  sa_fit qr lstsq inv pinv sf ppf u t g y [] cluster cfg rows = Ok r ->
  cs_fit qr2 lstsq2 inv2 logit sf ppf rows u t g (fun i => Some (y i)) [] ccfg agg bal ws = Ok c ->
  (forall z e x, In ((CFin z, e), x) (sa_coh_effects r) -> (cs_basemode ccfg = "universal"%string \/ - cs_anticipation ccfg <= e)%Z ->
     exists d, In d (cr_effects c) /\ ge_g d = CFin z /\ ge_t d = (z + e)%Z /\ ge_eff d = fst (fst x)) /\
  (cs_anticipation ccfg = 0%Z -> filter (ge_post 0) (cr_effects c) <> [] -> sa_att r = cr_att c).
Proof. exact (fits_agree qr lstsq inv pinv sf ppf Hqr Hls qr2 lstsq2 inv2 logit u t g y cluster rows C Hbal HC Hval cfg ccfg agg bal ws r c). Qed.
(* the common value: the difference in differences against the never-treated *)
Theorem C61_is_did cfg reg : ref_observed t g rows cfg -> sa_n_control u g rows <> 0%nat ->
  (forall i e, In i rows -> sa_rel t g i = Some e -> (-20 <= e <= 20)%Z) ->
  sa_saturated qr lstsq inv pinv u t g y [] cluster cfg (sa_groups g rows) (sa_rel_periods t g cfg rows) rows = Ok reg ->
  forall z e, In (CFin z, e) (sr_keys reg) ->
    let mean c s := meanf y (filter (fun i => c_eqb (if c_never (g i) then CInf else g i) c && Z.eqb (t i) s) rows) in
    sr_eff reg (CFin z, e) = Fin ((mean (CFin z) (z + e)%Z - mean (CFin z) (z + sa_ref cfg)%Z) - (mean CInf (z + e)%Z - mean CInf (z + sa_ref cfg)%Z)).
Proof. exact (fun H1 H2 H3 Hs z e Hk => fit_is_did qr lstsq inv pinv Hqr Hls u t g y [] cluster rows C 1 Hbal HC Hval cfg reg eq_refl H1 H2 H3 Hs (CFin z, e) Hk). Qed.
End Agree.

(* ---- C62 ---- *)
Section Boot.
Context {I : Type}.
Variable qr : list I -> list (I -> R) -> list nat.
Variable lstsq : list I -> list (I -> R) -> (I -> R) -> list R.
Variable inv : list I -> list (I -> R) -> option (nat -> nat -> R).
Variable pinv : list I -> list (I -> R) -> nat -> nat -> R.
Variable qrb : list (Z * I) -> list (Z * I -> R) -> list nat.
Variable lstsqb : list (Z * I) -> list (Z * I -> R) -> (Z * I -> R) -> list R.
Variable invb : list (Z * I) -> list (Z * I -> R) -> option (nat -> nat -> R).
Variable pinvb : list (Z * I) -> list (Z * I -> R) -> nat -> nat -> R.
Variable sf : option Z -> fl -> fl.
Variable ppf : option Z -> R -> R.
Variables (label : I -> nat) (u t : I -> Z) (g : I -> coh) (y : I -> R) (covs : list (I -> R)) (cluster : option (I -> Z)).
Notation fit := (sa_fit qr lstsq inv pinv sf ppf u t g y covs cluster).
Notation bfit := (sa_fit_boot qr lstsq inv pinv qrb lstsqb invb pinvb sf ppf label u t g y covs cluster).
Theorem C62_bootstrap cfg rows draws s : bfit cfg rows draws = Ok s -> exists r, fit cfg rows = Ok r /\ sb_att s = sa_att r /\
  map (fun p => (fst p, fst (fst (snd p)))) (sb_es s) = map (fun p => (fst p, se_eff (snd p))) (sa_es r) /\
  length (sb_dist s) = length draws /\ sb_overall s = sa_boot_stats (sa_alpha cfg) (sa_att r) (sb_dist s) /\ sb_t s = sa_t (sb_att s) (bs_se (sb_overall s)) /\
  forall b d, nth_error draws b = Some d -> exists smp, boot_sample label u (sa_sample g cfg rows) d = Some smp /\
    match sa_estimate qrb lstsqb invb pinvb sf ppf fst (lift t) (lift g) (lift y) (map lift covs) (option_map lift cluster) cfg (sa_rgroups r) (sa_rel_periods t g cfg rows) smp smp with
    | Ok (_, _, (att, _)) => nth_error (sb_dist s) b = Some att
    | Err x => (x = ValueError \/ x = LinAlgError) /\ nth_error (sb_dist s) b = Some (sa_att r)
    end.
Proof. exact (bfit_inv qr lstsq inv pinv qrb lstsqb invb pinvb sf ppf label u t g y covs cluster cfg rows draws s). Qed.
(* with a default index each resample is the rows of the drawn units, one new unit per draw *)
Theorem C62_resample_partial rows drawn : (forall k i, nth_error rows k = Some i -> label i = k) ->
  exists b, boot_sample label u rows drawn = Some b /\ forall k i, In (k, i) b <-> In i rows /\ exists j, k = Z.of_nat j /\ nth_error drawn j = Some (u i).
Proof. exact (fun H => ex_intro _ (drawn_rows u rows drawn) (conj (boot_sample_ok label u rows drawn H) (drawn_rows_In u rows drawn))). Qed.
Theorem C62_index_error_escapes cfg rows d l r : fit cfg rows = Ok r -> boot_sample label u (sa_sample g cfg rows) d = None -> bfit cfg rows (d :: l) = Err IndexError.
Proof. exact (bfit_index_error qr lstsq inv pinv qrb lstsqb invb pinvb sf ppf label u t g y covs cluster cfg rows d l r). Qed.
(* resamples without treated rows are replaced by the estimate: they shrink the standard error to zero *)
Theorem C62_failed_replicates_refuted cfg rows draws r o : fit cfg rows = Ok r -> sa_att r = Fin o -> o <> 0 -> (2 <= length draws)%nat ->
  (forall i, In i rows -> valid_coh (g i) = true) -> (forall k i, nth_error rows k = Some i -> label i = k) ->
  (forall d a, In d draws -> In a d -> forall i, In i rows -> u i = a -> sa_rel t g i = None) ->
  exists s, bfit cfg rows draws = Ok s /\ sb_att s = Fin o /\ bs_se (sb_overall s) = Fin 0 /\ sb_t s = Fin 0 /\ bs_p (sb_overall s) = Fin (1 / (INR (length draws) + 1)).
Proof. exact (failed_replicates qr lstsq inv pinv qrb lstsqb invb pinvb sf ppf label u t g y covs cluster cfg rows draws r o). Qed.
(* a draw of units from a single cohort aborts the whole fit: the IndexError of the empty design is not among the exceptions caught *)
Theorem C62_one_cohort_draw_refuted cfg rows d l r smp c m : qr_ok qrb -> covs = [] -> sa_action cfg = "warn"%string \/ sa_action cfg = "silent"%string ->
  fit cfg rows = Ok r -> boot_sample label u (sa_sample g cfg rows) d = Some smp ->
  balanced Z.eq_dec Z.eq_dec smp fst (lift t) m -> (forall p, In p smp -> g (snd p) = c) ->
  let keys := sa_keys (lift t) (lift g) (sa_rgroups r) (sa_rel_periods t g cfg rows) smp in keys <> [] -> (length keys <= length smp)%nat ->
  bfit cfg rows (d :: l) = Err IndexError.
Proof. exact (bfit_one_cohort qr lstsq inv pinv qrb lstsqb invb pinvb sf ppf label u t g y covs cluster cfg rows d l r smp c m). Qed.
End Boot.
(* index labels that are not the row positions select rows of units that were not drawn *)
Theorem C62_index_labels_refuted : exists (rows : list (Z * nat)) (label : Z * nat -> nat) drawn,
  Permutation (map label rows) (seq 0 (length rows)) /\ (forall a, In a drawn -> In a (map fst rows)) /\
  exists b, boot_sample label fst rows drawn = Some b /\ (forall p, In p b -> ~ In (fst (snd p)) drawn).
Proof. exact boot_labels_refuted. Qed.
Theorem C62_index_error : exists (rows : list (Z * nat)) (label : Z * nat -> nat) drawn,
  NoDup (map label rows) /\ (forall a, In a drawn -> In a (map fst rows)) /\ boot_sample label fst rows drawn = None.
Proof. exact boot_index_error. Qed.
Theorem C62_pvalue (o : R) (d : list R) : d <> [] ->
  bs_p (sa_boot_stats (1/20) (Fin o) (map Fin d)) =
    Fin (Rmax (Rmin (2 * (INR (length (filter (fun x => if Rle_dec 0 o then Rleb x 0 else Rleb 0 x) d)) / len d)) 1) (1 / (len d + 1))) /\
  1 / (len d + 1) <= sa_boot_p (Fin o) (map Fin d) <= 1.
Proof.
  intros H. split.
  - rewrite <- (sa_boot_p_value o d H). unfold sa_boot_stats. destruct (all_fin (map Fin d)); reflexivity.
  - rewrite <- (len_map Fin). apply sa_boot_p_bounds. destruct d; [congruence|discriminate].
Qed.
(* one undefined replicate: no standard error, no interval, but a p value *)
Theorem C62_nan_replicate_refuted alpha orig d : In NaN d -> let s := sa_boot_stats alpha orig d in
  bs_se s = NaN /\ bs_ci s = (NaN, NaN) /\ sa_t orig (bs_se s) = Fin 0 /\ exists p, bs_p s = Fin p /\ 1 / (len d + 1) <= p <= 1.
Proof. exact (sa_boot_nan alpha orig d). Qed.

(* ---- concrete cases ---- *)
Notation G := (@gs (Z * Z)).
Notation GI := (@gs_inv (Z * Z)).
Notation GQ := (@gs_dropped (Z * Z)).
Notation demo C y cfg rows := (sa_fit GQ G GI (fun _ _ _ _ => 0) toy_sf toy_ppf fst snd (gco C) y [] None cfg rows).
(* 3 units, 6 periods, cohorts 3 and 5: the true effects e + 1 come back *)
Example C24_case : exists r, demo C35 y35r (sa_demo "never_treated" 0) rows35 = Ok r /\
  forall k x, In (k, x) (sa_coh_effects r) -> fst (fst x) = Fin (if Z.leb 0 (snd k) then IZR (snd k + 1) else 0).
Proof. exact (exact35 GQ G GI (fun _ _ _ _ => 0) toy_sf toy_ppf (@gs_dropped_ok (Z * Z)) (@gs_ok (Z * Z)) (@gs_inv_ok (Z * Z))). Qed.
Example C25_case : exists r, demo C35 y35r (sa_demo "never_treated" 0) rows35 = Ok r /\ demo C35 y35r (sa_demo "not_yet_treated" 0) rows35 = Ok r /\
  length (sa_coh_effects r) = 10%nat /\ ref_observed snd (gco C35) rows35 (sa_demo "never_treated" 0).
Proof.
  destruct (fit35 GQ G GI (fun _ _ _ _ => 0) toy_sf toy_ppf (@gs_dropped_ok (Z * Z)) (@gs_inv_ok (Z * Z)) "never_treated" y35r) as (r & A & B & C). exists r. split; [exact A|]. split; [|auto].
  rewrite <- A. exact (C25_control_group_refuted GQ G GI (fun _ _ _ _ => 0) toy_sf toy_ppf fst snd (gco C35) y35r [] None (sa_demo "never_treated" 0) "not_yet_treated" rows35 (fun i _ => valid35 i)).
Qed.
Theorem C22_sa_refuted : exists r r', demo C35 y35r (sa_demo "never_treated" 0) rows35 = Ok r /\ demo C35inf y35r (sa_demo "never_treated" 0) rows35 = Ok r' /\
  same_estimates r r' /\ ~ In CInf (sa_rgroups r) /\ In CInf (sa_rgroups r') /\ sa_rn_treated r = 2%nat /\ sa_rn_treated r' = 3%nat /\ sa_rn_control r' = 1%nat.
Proof. exact (inf_counted GQ G GI (fun _ _ _ _ => 0) toy_sf toy_ppf (@gs_dropped_ok (Z * Z)) (@gs_inv_ok (Z * Z)) y35r "never_treated"). Qed.
Theorem C60_undefined_p_one_refuted : forall y, exists r, demo C1 y (sa_demo "never_treated" 0) (panel 2 3) = Ok r /\
  exists e ef, In (e, ef) (sa_es r) /\ (0 <= e)%Z /\ se_eff ef = NaN /\ se_p ef = Fin 1 /\ sa_att r = NaN /\ sa_se r = NaN /\ sa_p r = Fin 1.
Proof. exact (undefined1 GQ G GI (fun _ _ _ _ => 0) toy_sf toy_ppf (@gs_dropped_ok (Z * Z)) (@gs_ok (Z * Z)) (@gs_inv_ok (Z * Z)) toy_dist_ok). Qed.
Theorem C60_no_post_zero_refuted : forall y, exists r, demo C7 y (sa_demo "never_treated" 0) (panel 2 6) = Ok r /\
  sa_att r = Fin 0 /\ sa_se r = Fin 0 /\ sa_p r = Fin 1 /\ sa_ci r = (Fin 0, Fin 0).
Proof. exact (no_post7 GQ G GI (fun _ _ _ _ => 0) toy_sf toy_ppf (@gs_dropped_ok (Z * Z)) (@gs_inv_ok (Z * Z)) toy_dist_ok). Qed.
Example C61_case : balanced Z.eq_dec Z.eq_dec rows35 fst snd 1 /\ (forall i, valid_coh (gco C35 i) = true) /\ exists r c,
  demo C35 y35r (sa_demo "never_treated" 0) rows35 = Ok r /\
  cs_fit (@gs_dropped Z) (@gs Z) (@gs_inv Z) (fun _ _ _ => None) toy_sf toy_ppf rows35 fst snd (gco C35) (fun i => Some (y35r i)) [] (demo_cfg "never_treated" 0 "reg" "universal") None None [] = Ok c /\
  sa_att r = cr_att c.
Proof.
  exact (conj bal35 (conj valid35 (agree35 GQ G GI (fun _ _ _ _ => 0) toy_sf toy_ppf (@gs_dropped_ok (Z * Z)) (@gs_ok (Z * Z)) (@gs_inv_ok (Z * Z))
    (@gs_dropped Z) (@gs Z) (@gs_inv Z) (fun _ _ _ => None) y35r))).
Qed.
Example C62_case : boot_sample (fun i => Z.to_nat (3 * (fst i - 1) + (snd i - 1))) fst (panel 2 3) [2%Z; 2%Z] =
  Some [(0%Z, (2%Z, 1%Z)); (0%Z, (2%Z, 2%Z)); (0%Z, (2%Z, 3%Z)); (1%Z, (2%Z, 1%Z)); (1%Z, (2%Z, 2%Z)); (1%Z, (2%Z, 3%Z))].
Proof. reflexivity. Qed.

(* three units, the first drawn three times *)
Theorem C62_one_cohort_draw_case y l : sa_fit_boot GQ G GI (fun _ _ _ _ => 0) (@gs_dropped (Z * (Z * Z))) (@gs (Z * (Z * Z))) (@gs_inv (Z * (Z * Z))) (fun _ _ _ _ => 0) toy_sf toy_ppf
  (fun i => Z.to_nat (6 * (fst i - 1) + (snd i - 1))) fst snd (gco C35) y [] None (sa_demo "never_treated" 0) rows35 ([1; 1; 1]%Z :: l) = Err IndexError.
Proof. exact (one_cohort35 GQ G GI (fun _ _ _ _ => 0) toy_sf toy_ppf (@gs_dropped_ok (Z * Z)) (@gs_inv_ok (Z * Z)) y l). Qed.

Print Assumptions C24_cohort_shares.
Print Assumptions C60_absorbed_design_refuted.
Print Assumptions C62_one_cohort_draw_refuted.
Print Assumptions C62_one_cohort_draw_case.
Print Assumptions C24_overall.
Print Assumptions C24_exact.
Print Assumptions C24_full_rank.
Print Assumptions C25_control_group_refuted.
Print Assumptions C25_never_treated_required_refuted.
Print Assumptions C60_standard_errors.
Print Assumptions C60_coherent.
Print Assumptions C60_reported.
Print Assumptions C60_rank_deficient.
Print Assumptions C60_no_post_effects.
Print Assumptions C60_fit_succeeds.
Print Assumptions C22_sa_estimates_agree_partial.
Print Assumptions C61_two_estimators_agree.
Print Assumptions C61_is_did.
Print Assumptions C62_bootstrap.
Print Assumptions C62_resample_partial.
Print Assumptions C62_index_error_escapes.
Print Assumptions C62_failed_replicates_refuted.
Print Assumptions C62_index_labels_refuted.
Print Assumptions C62_index_error.
Print Assumptions C62_pvalue.
Print Assumptions C62_nan_replicate_refuted.
Print Assumptions C24_case.
Print Assumptions C25_case.
Print Assumptions C22_sa_refuted.
Print Assumptions C60_undefined_p_one_refuted.
Print Assumptions C60_no_post_zero_refuted.
Print Assumptions C61_case.
Print Assumptions C62_case.

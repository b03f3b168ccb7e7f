(* Pre-trends power analysis: statements only. *)
From Verif Require Import Prelude Flt Linalg_model Linalg_proofs Linalg_vcov Linalg_thms Did_model Multi_model Multi_proofs Multi_thms
  Results_model Honest_model Honest_fit Pretrends_model Pretrends_proofs Pretrends_thms Pretrends_ex.
From Coq Require Import Arith ZArith String List.
Import ListNotations.
Open Scope R_scope.

Section P.
Variable chi2_ppf : R -> nat -> R.
Variable ncx2_sf ncx2_cdf : R -> nat -> R -> R.
Variable norm_ppf : R -> R.
Variable brentq : (R -> R) -> R -> R -> option R.
Variable minv : nat -> (nat -> nat -> R) -> option (nat -> nat -> R).
Variable mpinv : nat -> (nat -> nat -> R) -> nat -> nat -> R.
Hypothesis Hx : ncx2_ok chi2_ppf ncx2_sf ncx2_cdf.
Hypothesis Hb : brentq_ok brentq.
Hypothesis Hm : minv_ok minv.
Notation vq := (vquad minv mpinv).
Notation full := (pt_power chi2_ppf ncx2_cdf minv mpinv).
Notation power cfg M w V := (fst (fst (fst (full cfg M w V)))).
Notation mdv := (pt_mdv chi2_ppf ncx2_sf norm_ppf brentq minv mpinv).
Notation fit := (pt_fit chi2_ppf ncx2_sf ncx2_cdf norm_ppf brentq minv mpinv).
Notation curve := (pt_curve chi2_ppf ncx2_sf ncx2_cdf norm_ppf brentq minv mpinv).
Notation res_at := (res_power_at ncx2_cdf minv mpinv).
Notation sens := (pt_sensitivity chi2_ppf ncx2_sf ncx2_cdf norm_ppf brentq minv mpinv).

Theorem C40_power_zero cfg w V : power cfg (Fin 0) w V = pc_alpha cfg.
Proof. eapply power_zero; eauto. Qed.
Theorem C40_power_even cfg m w V : full cfg (Fin (- m)) w V = full cfg (Fin m) w V.
Proof. eapply power_even; eauto. Qed.
Theorem C40_power_increasing cfg m m' w V q : size_ok cfg -> w <> [] -> vq (length w) V w = Fin q -> 0 < q ->
  Rabs m < Rabs m' -> power cfg (Fin m) w V < power cfg (Fin m') w V.
Proof. eapply power_increasing; eauto. Qed.
Theorem C40_power_range cfg m w V q : size_ok cfg -> w <> [] -> vq (length w) V w = Fin q -> 0 < q -> m <> 0 ->
  pc_alpha cfg < power cfg (Fin m) w V < 1.
Proof. eapply power_range; eauto. Qed.
Theorem C40_power_reaches cfg w V q t : size_ok cfg -> w <> [] -> vq (length w) V w = Fin q -> 0 < q -> t < 1 ->
  exists m, 0 <= m /\ t < power cfg (Fin m) w V.
Proof. eapply power_reaches; eauto. Qed.
Theorem C40_mdv_attains cfg w V m : size_ok cfg -> w <> [] -> pc_alpha cfg <= pc_target cfg ->
  mdv cfg w V = Fin m ->
  0 <= m /\ power cfg (Fin m) w V = pc_target cfg /\
  (forall M, Rabs M < m -> power cfg (Fin M) w V < pc_target cfg) /\
  (forall M, m < Rabs M -> pc_target cfg < power cfg (Fin M) w V).
Proof. eapply mdv_attains; eauto. Qed.
Theorem C40_mdv_finite_iff cfg w V : size_ok cfg -> w <> [] -> pc_alpha cfg <= pc_target cfg ->
  ((exists m, mdv cfg w V = Fin m) <->
   (exists q, vq (length w) V w = Fin q /\ 0 < q) /\
   pc_target cfg <= ncx2_sf (chi2_ppf (1 - pc_alpha cfg) (length w)) (length w) 512) /\
  ((exists m, mdv cfg w V = Fin m) \/ mdv cfg w V = PInf).
Proof. eapply mdv_finite_iff; eauto. Qed.
Theorem C40_mdv_inf_refuted alpha ty ws w V q : 0 < alpha < 1 -> w <> [] -> vq (length w) V w = Fin q -> 0 < q ->
  exists t, alpha < t < 1 /\ let cfg := {| pc_alpha := alpha; pc_target := t; pc_type := ty; pc_weights := ws |} in
    mdv cfg w V = PInf /\ exists m, 0 <= m /\ pc_target cfg < power cfg (Fin m) w V.
Proof. eapply mdv_inf_refuted; eauto. Qed.
Theorem C40_target_below_size cfg w V m : size_ok cfg -> w <> [] -> 0 < pc_target cfg < pc_alpha cfg ->
  mdv cfg w V = Fin m -> pc_target cfg < power cfg (Fin m) w V /\ pc_target cfg < power cfg (Fin 0) w V.
Proof. eapply mdv_target_below_size; eauto. Qed.
Theorem C40_zero_weights cfg w V M : size_ok cfg -> (forall x, In x w -> x = 0) -> mdv cfg w V = PInf /\ power cfg M w V = pc_alpha cfg.
Proof. eapply zero_weights; eauto. Qed.
Theorem C40_units cfg w V V' A c : size_ok cfg -> w <> [] -> 0 < c ->
  let n := length w in
  pos_def n A -> (forall i j, (i < n)%nat -> (j < n)%nat -> V i j = Fin (A i j)) ->
  (forall i j, (i < n)%nat -> (j < n)%nat -> V' i j = Fin (c * c * A i j)) ->
  mdv cfg w V' = fmul (Fin c) (mdv cfg w V) /\
  forall M, power cfg (Fin (c * M)) w V' = power cfg (Fin M) w V.
Proof. eapply mdv_units; eauto. Qed.
Theorem C40_fit_default cfg r pre x m : size_ok cfg -> pc_alpha cfg <= pc_target cfg ->
  fit cfg r None pre = Ok x -> pr_mdv x = Fin m ->
  pr_M x = Fin m /\ pr_power x = pc_target cfg /\ res_adequate x = true.
Proof. eapply fit_default; eauto. Qed.
Theorem C40_fit_statistics cfg r M pre x p w q : fit cfg r (Some M) pre = Ok x -> pt_extract r pre = Ok p ->
  pt_weights cfg (pp_n p) = Ok w -> vq (pp_n p) (pp_vcov p) w = Fin q ->
  pr_nc x = Fin (M * M * q) /\ pr_stat x = Fin (INR (pp_n p) + M * M * q) /\ pr_cv x = chi2_ppf (1 - pc_alpha cfg) (pp_n p).
Proof. eapply fit_statistics; eauto. Qed.
Theorem C40_power_at_agrees cfg r M0 M pre x q : size_ok cfg -> pc_type cfg <> "custom"%string ->
  fit cfg r M0 pre = Ok x -> vq (pr_n x) (pr_vcov x) (res_weights (pr_type x) (pr_n x)) = Fin q -> 0 <= q ->
  exists x', fit cfg r (Some M) pre = Ok x' /\ res_at x M = Fin (pr_power x').
Proof. eapply power_at_agrees; eauto. Qed.
Theorem C40_curve_points cfg r grid n pre l m : curve cfg r grid n pre = Ok (l, m) ->
  exists p w, pt_extract r pre = Ok p /\ pt_weights cfg (pp_n p) = Ok w /\ w <> [] /\ m = mdv cfg w (pp_vcov p) /\
    (forall k, In k l -> snd k = power cfg (fst k) w (pp_vcov p)) /\
    (forall g, grid = Some g -> map fst l = map Fin g) /\
    (grid = None -> forall mm, m = Fin mm -> map fst l = map Fin (linspace0 (Rmin (5 / 2 * mm) 100) n)).
Proof. eapply curve_inv; eauto. Qed.
Theorem C40_curve_misses_target_refuted cfg r n pre l m : size_ok cfg -> pc_alpha cfg <= pc_target cfg ->
  curve cfg r None n pre = Ok (l, Fin m) -> 100 < m -> forall k, In k l -> snd k < pc_target cfg.
Proof. eapply curve_misses_target_refuted; eauto. Qed.
Theorem C40_curve_reaches_target cfg r n pre l m : size_ok cfg -> pc_alpha cfg < pc_target cfg -> (2 <= n)%nat ->
  curve cfg r None n pre = Ok (l, Fin m) -> m < 100 ->
  (exists k, In k l /\ pc_target cfg < snd k) /\ (exists k, In k l /\ fst k = Fin 0 /\ snd k = pc_alpha cfg) /\ length l = n.
Proof. eapply curve_reaches_target; eauto. Qed.
Theorem C40_curve_monotone cfg r grid n pre l m k k' a b : size_ok cfg ->
  curve cfg r grid n pre = Ok (l, Fin m) -> pc_alpha cfg <= pc_target cfg -> In k l -> In k' l -> fst k = Fin a -> fst k' = Fin b ->
  Rabs a < Rabs b -> snd k < snd k'.
Proof. eapply curve_monotone; eauto. Qed.
Theorem C40_missing_variance cfg w V M i j : (i < length w)%nat -> (j < length w)%nat -> ffinite (V i j) = false ->
  mdv cfg w V = PInf /\ power cfg M w V = pc_alpha cfg.
Proof. eapply nan_variance; eauto. Qed.
Theorem C40_sensitivity_verdict cfg r pre x m s : fit cfg r None pre = Ok x -> pr_mdv x = Fin m -> np_max (pr_ses x) = Fin s -> 0 < s ->
  exists v, sens cfg r pre = Ok (Fin m, Fin s, Fin (m / s), v) /\
    (v = Sensitive <-> m < s) /\ (v = Moderate <-> s <= m < 2 * s) /\ (v = LowPower <-> 2 * s <= m) /\
    (res_informative x = true <-> v = Sensitive \/ v = Moderate).
Proof. eapply sensitivity_verdict; eauto. Qed.
Theorem C40_custom_power_at_refuted a t M : 0 < a < 1 -> M <> 0 ->
  exists x x', fit (exc_cfg a t) exc_es None None = Ok x /\ fit (exc_cfg a t) exc_es (Some M) None = Ok x' /\
    exists p, res_at x M = Fin p /\ p < pr_power x'.
Proof. eapply custom_power_at_refuted; eauto. Qed.
End P.

Theorem C40_init alpha power ty w :
  (exists cfg, pt_init alpha power ty w = Ok cfg) <->
  0 < alpha < 1 /\ 0 < power < 1 /\ In ty pt_types /\ (ty = "custom"%string -> w <> None).
Proof. exact (init_ok_iff alpha power ty w). Qed.
Theorem C40_patterns n i : (i < n)%nat ->
  nth i (linear_w n) 0 = INR (n - 1) - INR i /\ nth i (repeat 1 n) 0 = 1 /\
  nth i (last_w n) 0 = if Nat.eqb i (n - 1) then 1 else 0.
Proof. exact (patterns n i). Qed.
Theorem C40_weights_unit cfg n w : pt_weights cfg n = Ok w -> (forall x, In x w -> x = 0) \/ sumf (fun x => x * x) w = 1.
Proof. exact (weights_unit cfg n w). Qed.
Theorem C40_linear_one_period cfg w : pc_type cfg = "linear"%string -> pt_weights cfg 1 = Ok w -> w = [0].
Proof. exact (linear_one cfg w). Qed.
Theorem C40_event_study l p : pt_extract_es l = Ok p -> exists kept, es_sorted kept /\
  (forall e, In e kept <-> In e l /\ key_neg (ee_t e) = true /\ (0 < ee_n e)%nat /\ ffinite (ee_se e) = true) /\
  length kept = length (filter (fun e => key_neg (ee_t e) && Nat.ltb 0 (ee_n e) && ffinite (ee_se e)) l) /\
  pp_n p = length kept /\ pp_eff p = map ee_eff kept /\ pp_ses p = map ee_se kept /\
  (forall i j, pp_vcov p i j = if Nat.eqb i j then fmul (nth i (map ee_se kept) NaN) (nth i (map ee_se kept) NaN) else Fin 0).
Proof. exact (es_extract l p). Qed.
Theorem C40_event_study_fails l : pt_extract_es l = Err ValueError <->
  forall e, In e l -> ~ (key_neg (ee_t e) = true /\ (0 < ee_n e)%nat /\ ffinite (ee_se e) = true).
Proof. exact (es_extract_fails l). Qed.

(* repeated coefficient names: the dictionary stores the last value, and later names move to an earlier position
   than their row of the covariance matrix (key_index is the position pretrends.py:604-612 reads) *)
Theorem C40_repeated_name_value l k v l' : ~ In k (map fst l') -> dict_find (dict_of (l ++ (k, v) :: l')) k = Some v.
Proof. exact (dict_of_last l k v l'). Qed.
Theorem C40_repeated_name_position_refuted a b c k1 k2 : key_eqb k1 k2 = false -> let l := [(k1, a); (k1, b); (k2, c)] in
  dict_of l = [(k1, b); (k2, c)] /\ key_index (dict_of l) k2 = 1%nat /\ nth_error l 2 = Some (k2, c).
Proof. exact (dict_of_shift a b c k1 k2). Qed.

Section M.
Context {I K G : Type} (keq : forall x y : K, {x = y} + {x <> y}) (geq : forall x y : G, {x = y} + {x <> y}).
Variable qr : list I -> list (I -> R) -> list nat.
Variable lstsq : list I -> list (I -> R) -> (I -> R) -> list R.
Variable inv : list I -> list (I -> R) -> option (nat -> nat -> R).
Variable sf : option Z -> fl -> fl.
Variable ppf : option Z -> R -> R.
Hypothesis Hls : lstsq_ok lstsq.
Notation fit := (mp_fit keq geq qr lstsq inv sf ppf).
Theorem C40_multi_period_default_refuted cfg rows y d t post ref covs dums absorb r treatment ne :
  fit cfg rows y d t post ref covs dums absorb = Ok r ->
  pt_extract (pt_of_mp treatment (data_periods rows t) ne r) None = Err ValueError.
Proof. apply (mp_default_fails keq geq qr lstsq inv sf ppf Hls). Qed.
Theorem C40_multi_period_name_refuted cfg rows y d t post ref covs dums absorb r treatment ne pre :
  fit cfg rows y d t post ref covs dums absorb = Ok r -> treatment <> "treated"%string ->
  pt_extract (pt_of_mp treatment (data_periods rows t) ne r) pre = Err ValueError.
Proof. apply (mp_name_required keq geq qr lstsq inv sf ppf Hls). Qed.
Theorem C40_multi_period_explicit cfg rows y d t post ref covs dums absorb r ne ps :
  fit cfg rows y d t post ref covs dums absorb = Ok r -> NoDup (mp_post r) ->
  let est := filter (fun p => zmem p (mp_post r)) ps in
  (est = [] -> pt_extract (pt_of_mp "treated" (data_periods rows t) ne r) (Some ps) = Err ValueError) /\
  (est <> [] -> exists p, pt_extract (pt_of_mp "treated" (data_periods rows t) ne r) (Some ps) = Ok p /\
     pp_n p = length est /\ length (pp_eff p) = length est /\ length (pp_ses p) = length est /\
     forall i, (i < length est)%nat -> exists e ki, In e (mp_effects r) /\ pe_period e = nth i est 0%Z /\
       nth i (pp_eff p) NaN = pe_effect e /\ nth i (pp_ses p) NaN = pe_se e /\
       nth_error (mp_post r) ki = Some (nth i est 0%Z) /\ fsqrt (pp_vcov p i i) = pe_se e /\
       forall j kj, (j < length est)%nat -> nth_error (mp_post r) kj = Some (nth j est 0%Z) ->
         pp_vcov p i j = mp_vcov r (mp_index (data_periods rows t) (mp_ref r) ki) (mp_index (data_periods rows t) (mp_ref r) kj)).
Proof. apply (mp_explicit keq geq qr lstsq inv sf ppf Hls). Qed.
End M.

Theorem C40_mdv_case : toy_mdv one_cfg [1] (diag_sq [Fin 2]) = Fin (sqrt 300).
Proof. exact toy_mdv_value. Qed.
Theorem C40_custom_case : exists x x', toy_fit (exc_cfg (1/20) (4/5)) exc_es None None = Ok x /\ toy_fit (exc_cfg (1/20) (4/5)) exc_es (Some 1) None = Ok x' /\
    exists p, res_power_at toy_ncx2_cdf gs_minv (fun _ _ _ _ => 0) x 1 = Fin p /\ p < pr_power x'.
Proof. exact custom_case. Qed.
Theorem C40_multi_period_case robust y : exists r, exm_fit (exm_cfg robust None) (seq 0 12) y exm_d exm_t None None [] [] [] = Ok r /\
  pt_extract (pt_of_mp "treated" (data_periods (seq 0 12) exm_t) 0 r) None = Err ValueError /\
  exists p, pt_extract (pt_of_mp "treated" (data_periods (seq 0 12) exm_t) 0 r) (Some [1]%Z) = Ok p /\ pp_n p = 1%nat.
Proof. exact (mp_case robust y). Qed.
Example C40_oracles : ncx2_ok toy_chi2_ppf toy_ncx2_sf toy_ncx2_cdf /\ brentq_ok sup_brentq /\ minv_ok gs_minv.
Proof. exact (conj toy_ncx2_ok (conj sup_brentq_ok gs_minv_ok)). Qed.

Print Assumptions C40_power_zero.
Print Assumptions C40_power_even.
Print Assumptions C40_power_increasing.
Print Assumptions C40_power_range.
Print Assumptions C40_power_reaches.
Print Assumptions C40_mdv_attains.
Print Assumptions C40_mdv_finite_iff.
Print Assumptions C40_mdv_inf_refuted.
Print Assumptions C40_target_below_size.
Print Assumptions C40_zero_weights.
Print Assumptions C40_units.
Print Assumptions C40_fit_default.
Print Assumptions C40_fit_statistics.
Print Assumptions C40_power_at_agrees.
Print Assumptions C40_curve_points.
Print Assumptions C40_curve_misses_target_refuted.
Print Assumptions C40_curve_reaches_target.
Print Assumptions C40_curve_monotone.
Print Assumptions C40_missing_variance.
Print Assumptions C40_sensitivity_verdict.
Print Assumptions C40_custom_power_at_refuted.
Print Assumptions C40_init.
Print Assumptions C40_patterns.
Print Assumptions C40_weights_unit.
Print Assumptions C40_linear_one_period.
Print Assumptions C40_event_study.
Print Assumptions C40_event_study_fails.
Print Assumptions C40_multi_period_default_refuted.
Print Assumptions C40_multi_period_name_refuted.
Print Assumptions C40_multi_period_explicit.
Print Assumptions C40_mdv_case.
Print Assumptions C40_custom_case.
Print Assumptions C40_multi_period_case.
Print Assumptions C40_repeated_name_value.
Print Assumptions C40_repeated_name_position_refuted.

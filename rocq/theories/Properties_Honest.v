(* HonestDiD: statements only. *)
From Verif Require Import Prelude Flt Linalg_model Linalg_proofs Linalg_vcov Linalg_thms Did_model Did_spec Did_proofs
  Did_equiv Did_more Multi_model Multi_proofs Multi_thms Results_model Results_proofs Lp Honest_model Honest_proofs Honest_sd Honest_fit Honest_ex.
From Coq Require Import Arith ZArith String List Lra.
Import ListNotations.
Open Scope R_scope.

Section H.
Variable lp : nat -> list con -> list R -> option R.
Variable ppf : option Z -> R -> R.
Hypothesis Hlp : lp_ok lp.

(* C35: relative magnitudes.  [id_set l b B v]: v = l'b - l'delta for some delta with every |delta_t| <= B. *)
Theorem C35_bounds_and_interval cfg r M o th s m :
  hd_method cfg = "relative_magnitude"%string -> hd_fit lp ppf cfg r M = Ok o ->
  ho_est o = Fin th -> ho_se o = Fin s -> max_pre r = Fin m ->
  ho_lb o = Fin (th - ho_M o * m) /\ ho_ub o = Fin (th + ho_M o * m) /\
  ho_ci_lb o = Fin (th - ho_M o * m - ppf None (1 - hd_alpha cfg / 2) * s) /\
  ho_ci_ub o = Fin (th + ho_M o * m + ppf None (1 - hd_alpha cfg / 2) * s).
Proof. exact (rm_values lp ppf cfg r M o th s m). Qed.

Theorem C35_sharp_for_default_weights cfg r M o p b s m :
  hd_method cfg = "relative_magnitude"%string -> hd_l cfg = None -> hd_fit lp ppf cfg r (Some M) = Ok o ->
  hd_extract r = Ok p -> post_beta p = map Fin b -> b <> [] ->
  ho_se o = Fin s -> max_pre r = Fin m -> 0 <= m -> 0 <= M ->
  exists lo hi, ho_lb o = Fin lo /\ ho_ub o = Fin hi /\
    forall v, lo <= v <= hi <-> id_set (repeat (1 / INR (length b)) (length b)) b (M * m) v.
Proof. exact (rm_sharp_uniform lp ppf cfg r M o p b s m). Qed.

Theorem C35_sharp_iff_unit_norm cfg r M o p l b s m :
  hd_method cfg = "relative_magnitude"%string -> hd_fit lp ppf cfg r (Some M) = Ok o ->
  hd_extract r = Ok p -> post_beta p = map Fin b -> hd_weights (hd_l cfg) (length b) = Ok l ->
  ho_se o = Fin s -> max_pre r = Fin m -> 0 <= m -> 0 <= M ->
  exists lo hi, ho_lb o = Fin lo /\ ho_ub o = Fin hi /\
    ((forall v, lo <= v <= hi <-> id_set l b (M * m) v) <-> (norm1 l = 1 \/ M * m = 0)).
Proof. exact (rm_sharp_iff lp ppf cfg r M o p l b s m). Qed.

Theorem C35_nested_and_collapse cfg r M M' o o' th s m :
  hd_method cfg = "relative_magnitude"%string -> hd_fit lp ppf cfg r (Some M) = Ok o -> hd_fit lp ppf cfg r (Some M') = Ok o' ->
  ho_est o = Fin th -> ho_se o = Fin s -> max_pre r = Fin m -> 0 <= m -> M <= M' ->
  exists lo hi lo' hi' cl ch cl' ch',
    ho_lb o = Fin lo /\ ho_ub o = Fin hi /\ ho_lb o' = Fin lo' /\ ho_ub o' = Fin hi' /\
    ho_ci_lb o = Fin cl /\ ho_ci_ub o = Fin ch /\ ho_ci_lb o' = Fin cl' /\ ho_ci_ub o' = Fin ch' /\
    lo' <= lo /\ hi <= hi' /\ cl' <= cl /\ ch <= ch' /\ (M = 0 -> lo = th /\ hi = th).
Proof. exact (rm_nested lp ppf cfg r M M' o o' th s m). Qed.

(* the linear program over the (unused) box constraints gives the sharp set for every weight vector *)
Theorem C35_box_program npre b l M m : l <> [] -> length b = length l -> 0 <= M * m ->
  solve_bounds lp (map Fin b) l (cons_rm npre (length l) M m) npre
  = (Fin (ldot l b - norm1 l * (M * m)), Fin (ldot l b + norm1 l * (M * m))).
Proof. exact (rm_lp lp npre b l M m Hlp). Qed.

Theorem C35_pre_violation_is_the_maximum es ose v : cs_pre es <> [] -> map ee_eff (cs_pre es) = map Fin v ->
  exists m, max_pre (HCS {| hc_es := Some es; hc_overall_se := ose |}) = Fin m /\ 0 <= m /\
    (exists a, In a v /\ m = Rabs a) /\ forall a, In a v -> Rabs a <= m.
Proof. exact (cs_max_pre es ose v). Qed.

Theorem C35_estimate_and_variance cfg es ose M o l ses :
  hd_fit lp ppf cfg (HCS {| hc_es := Some es; hc_overall_se := ose |}) M = Ok o ->
  hd_weights (hd_l cfg) (length (cs_post es)) = Ok l -> map ee_se (cs_post es) = map Fin ses ->
  ho_se o = Fin (sqrt (sumf (fun i => nth i l 0 * nth i l 0 * (nth i ses 0 * nth i ses 0)) (seq 0 (length l)))) /\
  ho_est o = fdot l (map ee_eff (cs_post es)).
Proof. exact (cs_se lp ppf cfg es ose M o l ses). Qed.

Theorem C35_defined cfg es ose M l : hd_method cfg = "relative_magnitude"%string ->
  hd_weights (hd_l cfg) (length (cs_post es)) = Ok l ->
  exists o, hd_fit lp ppf cfg (HCS {| hc_es := Some es; hc_overall_se := ose |}) M = Ok o.
Proof. exact (cs_rm_defined lp ppf cfg es ose M l). Qed.

(* C36: smoothness.  Informative weights annihilate constants and linear trends. *)
Theorem C36_exact cfg r M o p b l s :
  hd_method cfg = "smoothness"%string -> hd_fit lp ppf cfg r (Some M) = Ok o ->
  hd_extract r = Ok p -> post_beta p = map Fin b -> hd_weights (hd_l cfg) (length b) = Ok l ->
  ho_se o = Fin s -> 0 <= M ->
  0 < s /\
  (~ ((3 <= ep_npre p + length l)%nat /\ suml l = 0 /\ moml l = 0) ->
     ho_lb o = NInf /\ ho_ub o = PInf /\ ho_ci_lb o = NInf /\ ho_ci_ub o = PInf /\ ho_significant o = false) /\
  ((3 <= ep_npre p + length l)%nat /\ suml l = 0 /\ moml l = 0 ->
     exists lo hi, ho_lb o = Fin lo /\ ho_ub o = Fin hi /\
       ho_ci_lb o = Fin (lo - ppf None (1 - hd_alpha cfg / 2) * s) /\ ho_ci_ub o = Fin (hi + ppf None (1 - hd_alpha cfg / 2) * s) /\
       (forall v, lo <= v <= hi <->
          exists delta, length delta = (ep_npre p + length l)%nat /\
            (forall i, (i + 2 < ep_npre p + length l)%nat -> Rabs (diff2 delta i) <= M) /\
            v = ldot l b - ldot l (skipn (ep_npre p) delta)) /\
       (M = 0 -> lo = ldot l b /\ hi = ldot l b)).
Proof. exact (smooth_fit lp ppf Hlp cfg r M o p b l s). Qed.

Theorem C36_default_breakdown_is_zero cfg r M o p b s fuel tol :
  hd_method cfg = "smoothness"%string -> hd_l cfg = None -> hd_fit lp ppf cfg r (Some M) = Ok o ->
  hd_extract r = Ok p -> post_beta p = map Fin b -> b <> [] -> ho_se o = Fin s ->
  breakdown_value lp ppf fuel cfg r tol = Some (Ok (Some 0)).
Proof. exact (smooth_breakdown_zero lp ppf Hlp cfg r M o p b s fuel tol). Qed.

Theorem C36_combined_is_relative_magnitude cfg r M o p b l s m :
  hd_method cfg = "combined"%string -> hd_fit lp ppf cfg r (Some M) = Ok o ->
  hd_extract r = Ok p -> post_beta p = map Fin b -> hd_weights (hd_l cfg) (length b) = Ok l ->
  ho_se o = Fin s -> max_pre r = Fin m -> 0 <= M -> 0 <= m ->
  ~ ((3 <= ep_npre p + length l)%nat /\ suml l = 0 /\ moml l = 0) ->
  ho_lb o = Fin (ldot l b - M * m) /\ ho_ub o = Fin (ldot l b + M * m) /\
  ho_ci_lb o = Fin (ldot l b - M * m - ppf None (1 - hd_alpha cfg / 2) * s) /\
  ho_ci_ub o = Fin (ldot l b + M * m + ppf None (1 - hd_alpha cfg / 2) * s).
Proof. exact (combined_is_rm lp ppf Hlp cfg r M o p b l s m). Qed.

(* C38: breakdown *)
Theorem C38_brackets cfg r f tol fuel q :
  (forall M, includes lp ppf cfg r M = Ok (f M)) -> (forall a b, a <= b -> f a = true -> f b = true) ->
  breakdown_value lp ppf fuel cfg r tol = Some q ->
  exists v, q = Ok v /\
  match v with
  | None => forall M, M <= 10 -> f M = false
  | Some m => (m = 0 /\ f 0 = true) \/
              (0 <= m <= 10 /\ f 0 = false /\ f 10 = true /\
               (forall M, M <= m - tol / 2 -> f M = false) /\ (forall M, m + tol / 2 <= M -> f M = true))
  end.
Proof. exact (breakdown_brackets lp ppf cfg r f tol fuel q). Qed.

Theorem C38_terminates cfg r f tol :
  (forall M, includes lp ppf cfg r M = Ok (f M)) -> 0 < tol ->
  exists n, forall fuel, (n <= fuel)%nat -> breakdown_value lp ppf fuel cfg r tol <> None.
Proof. exact (breakdown_terminates lp ppf cfg r f tol). Qed.

Theorem C38_relative_magnitude_value cfg r M0 o th s m tol :
  hd_method cfg = "relative_magnitude"%string -> hd_fit lp ppf cfg r M0 = Ok o ->
  ho_est o = Fin th -> ho_se o = Fin s -> max_pre r = Fin m -> 0 < m -> 0 < tol ->
  let exact := (Rabs th - ppf None (1 - hd_alpha cfg / 2) * s) / m in
  (forall M, includes lp ppf cfg r M = Ok (Rleb exact M)) /\
  exists n, forall fuel, (n <= fuel)%nat -> exists v, breakdown_value lp ppf fuel cfg r tol = Some (Ok v) /\
    (exact <= 0 -> v = Some 0) /\ (10 < exact -> v = None) /\
    (0 < exact <= 10 -> exists b, v = Some b /\ Rabs (b - exact) <= tol / 2).
Proof. exact (rm_breakdown lp ppf cfg r M0 o th s m tol). Qed.

Theorem C38_sensitivity_analysis cfg r M0 o th s m grid :
  hd_method cfg = "relative_magnitude"%string -> hd_fit lp ppf cfg r M0 = Ok o ->
  ho_est o = Fin th -> ho_se o = Fin s -> max_pre r = Fin m -> 0 < m -> increasing grid -> grid <> [] ->
  let exact := (Rabs th - ppf None (1 - hd_alpha cfg / 2) * s) / m in
  exists q, hd_sensitivity lp ppf cfg r (Some grid) = Ok q /\
    hs_M q = grid /\ hs_est q = Fin th /\ hs_se q = Fin s /\
    hs_bounds q = map (fun M => (Fin (th - M * m), Fin (th + M * m))) grid /\
    hs_cis q = map (fun M => (Fin (th - M * m - ppf None (1 - hd_alpha cfg / 2) * s),
                              Fin (th + M * m + ppf None (1 - hd_alpha cfg / 2) * s))) grid /\
    ((forall g, In g grid -> g < exact) -> hs_breakdown q = None) /\
    ((forall g, In g grid -> exact <= g) -> hs_breakdown q = Some 0) /\
    ((exists g, In g grid /\ g < exact) -> (exists g, In g grid /\ exact <= g) ->
     exists bd a b, hs_breakdown q = Some bd /\ consecutive grid a b /\ a < exact <= b /\
                    Rabs (bd - exact) <= (b - a) / 2 ^ 21).
Proof. exact (rm_sensitivity lp ppf cfg r M0 o th s m grid). Qed.

(* C39 *)
Theorem C39_relative_magnitude_nan cfg r M o : hd_method cfg = "relative_magnitude"%string -> hd_fit lp ppf cfg r M = Ok o ->
  ho_est o = NaN -> ho_lb o = NaN /\ ho_ub o = NaN /\ ho_ci_lb o = NaN /\ ho_ci_ub o = NaN.
Proof. exact (rm_nan lp ppf cfg r M o). Qed.
End H.

Theorem C35_sharp_refuted : exists o p b, hd_fit fm_lp toy_ppf rm_diff two_post (Some 1) = Ok o /\
  hd_extract two_post = Ok p /\ post_beta p = map Fin b /\ max_pre two_post = Fin 1 /\
  exists lo hi v, ho_lb o = Fin lo /\ ho_ub o = Fin hi /\ id_set [1; -1] b (1 * 1) v /\ ~ lo <= v <= hi.
Proof. exact rm_sharp_refuted. Qed.
Theorem C35_negative_override_refuted : exists o, hd_fit fm_lp toy_ppf rm_cfg (one_post (Fin 2)) (Some (-1)) = Ok o /\
  ho_lb o = Fin 3 /\ ho_ub o = Fin 1 /\ hd_init "relative_magnitude" (Some (-1)) (1/20) None = Err ValueError.
Proof. exact negative_M_refuted. Qed.
Theorem C35_no_post_effects : exists o, hd_fit fm_lp toy_ppf rm_cfg no_post None = Ok o /\ ho_est o = Fin 0 /\ ho_se o = Fin 0 /\
  ho_lb o = Fin (-1) /\ ho_ub o = Fin 1.
Proof. exact no_post_case. Qed.

Theorem C36_bounded_refuted M : 0 <= M -> exists o, hd_fit fm_lp toy_ppf (sd_cfg None) two_post (Some M) = Ok o /\
  ho_est o = Fin (3/2) /\ ho_lb o = NInf /\ ho_ub o = PInf /\ ho_ci_lb o = NInf /\ ho_ci_ub o = PInf.
Proof. exact (smooth_unbounded_case M). Qed.
(* the oracle specification is satisfiable: Fourier-Motzkin elimination *)
Theorem C36_solver_exists : lp_ok fm_lp.
Proof. exact fm_lp_ok. Qed.
Theorem C36_solver_answers lp n cs c v : lp_ok lp -> wide n cs -> length c = n -> (lp n cs c = Some v <-> is_min n cs c v).
Proof. exact (lp_some lp n cs c v). Qed.

(* C37 *)
Section MP.
Context {I K G : Type} (keq : forall x y : K, {x = y} + {x <> y}) (geq : forall x y : G, {x = y} + {x <> y}).
Variable qr : list I -> list (I -> R) -> list nat.
Variable lstsq : list I -> list (I -> R) -> (I -> R) -> list R.
Variable inv : list I -> list (I -> R) -> option (nat -> nat -> R).
Variable sf : option Z -> fl -> fl.
Variable ppf : option Z -> R -> R.
Variable lp : nat -> list con -> list R -> option R.
Hypothesis Hqr : qr_ok qr.
Hypothesis Hls : lstsq_ok lstsq.
Hypothesis Hinv : inv_ok inv.

Theorem C37_leading_block cfg rows y d t post ref covs dums absorb r name p :
  mp_fit keq geq qr lstsq inv sf ppf cfg rows y d t post ref covs dums absorb = Ok r -> hd_extract (of_mp name r) = Ok p ->
  length (post_beta p) = length (mp_post r) /\
  post_sigma p = (length (mp_post r), mp_vcov r) /\ max_pre (of_mp name r) = mp_avg_se r.
Proof. exact (mp_leading_block keq geq qr lstsq inv sf ppf Hls cfg rows y d t post ref covs dums absorb r name p). Qed.
Theorem C37_standard_error cfg rows y d t post ref covs dums absorb r name hcfg M o l :
  mp_fit keq geq qr lstsq inv sf ppf cfg rows y d t post ref covs dums absorb = Ok r ->
  hd_fit lp ppf hcfg (of_mp name r) M = Ok o -> hd_weights (hd_l hcfg) (length (mp_post r)) = Ok l ->
  ho_se o = fsqrt (qform l (mp_vcov r)).
Proof. exact (mp_honest_se keq geq qr lstsq inv sf ppf lp Hls cfg rows y d t post ref covs dums absorb r name hcfg M o l). Qed.
Theorem C37_effects_used cfg rows y d t post ref covs dums absorb r name :
  mp_fit keq geq qr lstsq inv sf ppf cfg rows y d t post ref covs dums absorb = Ok r -> NoDup (mp_post r) ->
  exists p, hd_extract (of_mp name r) = Ok p /\ post_beta p = map pe_effect (mp_effects r) /\ ep_npre p = length (mp_pre r).
Proof. exact (mp_extract_ok keq geq qr lstsq inv sf ppf cfg rows y d t post ref covs dums absorb r name). Qed.
Theorem C37_two_periods cfg rows y d t r name hcfg M o p0 p1 :
  mp_fit keq geq qr lstsq inv sf ppf cfg rows y d t None None [] [] [] = Ok r ->
  c_robust cfg = true -> c_cluster cfg = None -> data_periods rows t = [p0; p1] ->
  four_cells rows d (at_period t p1) ->
  hd_fit lp ppf hcfg (of_mp name r) M = Ok o -> hd_l hcfg = None ->
  ho_se o = Fin (sqrt (control_pre_var rows d (at_period t p1) y)) /\
  0 <= did_hc1 rows d (at_period t p1) y /\
  mp_avg_se r = Fin (sqrt (did_hc1 rows d (at_period t p1) y)).
Proof. exact (two_period_se keq geq qr lstsq inv sf ppf lp Hqr Hls Hinv cfg rows y d t r name hcfg M o p0 p1). Qed.
End MP.
Theorem C37_avg_se_refuted name : exists r o,
  exm_fit (exm_cfg true None) (seq 0 8) x8_y exm_d exm_t None None [] [] [] = Ok r /\
  hd_fit fm_lp toy_ppf {| hd_method := "relative_magnitude"%string; hd_M := 1; hd_alpha := 1/20; hd_l := None |} (of_mp name r) (Some 0) = Ok o /\
  mp_avg_se r = Fin (1 / 2) /\ ho_se o = Fin 0 /\ ho_se o <> mp_avg_se r.
Proof. exact (honest_se_refuted name). Qed.

Theorem C38_none_refuted : exists cfg r tol,
  0 < tol /\ (forall fuel, breakdown_value fm_lp toy_ppf fuel cfg r tol = Some (Ok None)) /\
  exists M, includes fm_lp toy_ppf cfg r M = Ok true.
Proof. exact breakdown_none_refuted. Qed.
Theorem C38_agreement_refuted : exists cfg r,
  (exists q, hd_sensitivity fm_lp toy_ppf cfg r None = Ok q /\ hs_breakdown q = None) /\
  exists n, forall fuel, (n <= fuel)%nat -> exists b,
    breakdown_value fm_lp toy_ppf fuel cfg r (1/100) = Some (Ok (Some b)) /\ Rabs (b - 3) <= 1/200.
Proof. exact grid_disagrees. Qed.
Theorem C38_grid_zero_refuted : exists cfg r grid q,
  hd_sensitivity fm_lp toy_ppf cfg r (Some grid) = Ok q /\ hs_breakdown q = Some 0 /\
  includes fm_lp toy_ppf cfg r 0 = Ok false.
Proof. exact grid_zero_refuted. Qed.
(* __repr__ prints "None" for a breakdown value of zero, so it does not tell it from no breakdown value *)
Theorem C38_repr_zero_refuted : breakdown_shown (Some 0) = breakdown_shown None /\ forall m, m <> 0 -> breakdown_shown (Some m) = Some m.
Proof. exact repr_zero. Qed.
Theorem C38_all_tolerances_refuted : exists cfg r, forall fuel, breakdown_value fm_lp toy_ppf fuel cfg r 0 = None.
Proof. exact breakdown_loops_refuted. Qed.

Theorem C39_nan_interval_refuted : exists o, hd_fit fm_lp toy_ppf rm_cfg (one_post NaN) None = Ok o /\
  ho_est o = NaN /\ ho_ci_lb o = NaN /\ ho_ci_ub o = NaN /\
  ho_significant o = true /\ ho_stars o = "*"%string /\ ho_verdict o = Negative.
Proof. exact nan_interval_refuted. Qed.
Theorem C39_always_when_nan o : ho_ci_lb o = NaN \/ ho_ci_ub o = NaN -> ho_significant o = true /\ ho_stars o = "*"%string.
Proof. exact (nan_significant o). Qed.
Theorem C39_otherwise_excludes_zero o lo hi : ho_ci_lb o = Fin lo -> ho_ci_ub o = Fin hi ->
  (ho_significant o = true <-> (0 < lo \/ hi < 0)).
Proof. exact (nonnan_significant o lo hi). Qed.
Theorem C39_p_value_classes r p i alpha : rp_p r = NaN -> p = NaN -> i_p i = NaN ->
  rep_significant r = false /\ period_significant p = false /\ is_significant i alpha = false.
Proof. exact (nan_p_not_significant r p i alpha). Qed.

(* the hypotheses hold for concrete results *)
Example C35_case : exists o, hd_fit fm_lp toy_ppf rm_cfg (one_post (Fin 22)) None = Ok o /\ ho_est o = Fin 22 /\ ho_se o = Fin 1 /\
  max_pre (one_post (Fin 22)) = Fin 1.
Proof. destruct (one_post_exact 22) as (o & H1 & H2 & H3 & _). exists o. repeat split; auto. apply one_post_max. Qed.
Example C36_informative : (3 <= 1 + length [1; -2; 1]%R)%nat /\ suml [1; -2; 1] = 0 /\ moml [1; -2; 1] = 0.
Proof. cbn. unfold suml, moml, idR. cbn. repeat split; [repeat constructor|lra|lra]. Qed.

Print Assumptions C35_bounds_and_interval.
Print Assumptions C35_sharp_for_default_weights.
Print Assumptions C35_sharp_iff_unit_norm.
Print Assumptions C35_nested_and_collapse.
Print Assumptions C35_box_program.
Print Assumptions C35_pre_violation_is_the_maximum.
Print Assumptions C35_estimate_and_variance.
Print Assumptions C35_defined.
Print Assumptions C36_exact.
Print Assumptions C36_default_breakdown_is_zero.
Print Assumptions C36_combined_is_relative_magnitude.
Print Assumptions C38_brackets.
Print Assumptions C38_terminates.
Print Assumptions C38_relative_magnitude_value.
Print Assumptions C38_sensitivity_analysis.
Print Assumptions C39_relative_magnitude_nan.
Print Assumptions C35_sharp_refuted.
Print Assumptions C35_negative_override_refuted.
Print Assumptions C35_no_post_effects.
Print Assumptions C36_bounded_refuted.
Print Assumptions C36_solver_exists.
Print Assumptions C36_solver_answers.
Print Assumptions C37_leading_block.
Print Assumptions C37_standard_error.
Print Assumptions C37_effects_used.
Print Assumptions C37_two_periods.
Print Assumptions C37_avg_se_refuted.
Print Assumptions C38_none_refuted.
Print Assumptions C38_agreement_refuted.
Print Assumptions C38_grid_zero_refuted.
Print Assumptions C38_all_tolerances_refuted.
Print Assumptions C38_repr_zero_refuted.
Print Assumptions C39_nan_interval_refuted.
Print Assumptions C39_always_when_nan.
Print Assumptions C39_otherwise_excludes_zero.
Print Assumptions C39_p_value_classes.

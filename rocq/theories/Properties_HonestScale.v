(* HonestDiD and the unit of the outcome (C124). *)
From Coq Require Import Reals.
From Verif Require Import Prelude Flt Stats_model Linalg_thms Lp Multi_model Results_model Honest_model Honest_proofs Honest_sd Honest_fit
  Honest_ex Scale_flt Honest_scale Honest_smooth Honest_scex.
From Coq Require Import Arith ZArith String List.
Import ListNotations.
Open Scope R_scope.

Section S.
Variable lp : nat -> list con -> list R -> option R.
Variable ppf : option Z -> R -> R.
Hypothesis Hlp : lp_ok lp.
Variable s : R.
Hypothesis Hs : 0 < s.
Theorem C124_relative_fit cfg r M : hd_method cfg = "relative_magnitude"%string ->
  hd_fit lp ppf cfg (scale_results s r) M
  = res_map (fun o => scale_out s (ho_M o) o) (hd_fit lp ppf cfg r M).
Proof. exact (rm_fit_scale lp ppf s Hs cfg r M). Qed.
Theorem C124_relative_breakdown cfg r fuel tol : hd_method cfg = "relative_magnitude"%string ->
  breakdown_value lp ppf fuel cfg (scale_results s r) tol = breakdown_value lp ppf fuel cfg r tol.
Proof. exact (rm_breakdown_scale lp ppf s Hs cfg r fuel tol). Qed.
Theorem C124_relative_sensitivity cfg r grid : hd_method cfg = "relative_magnitude"%string ->
  hd_sensitivity lp ppf cfg (scale_results s r) grid = res_map (scale_sens s) (hd_sensitivity lp ppf cfg r grid).
Proof. exact (rm_sensitivity_scale lp ppf s Hs cfg r grid). Qed.
Theorem C124_smoothness_fit cfg r M : hd_method cfg = "smoothness"%string ->
  hd_fit lp ppf cfg (scale_results s r) (Some (s * M))
  = res_map (scale_out s (s * M)) (hd_fit lp ppf cfg r (Some M)).
Proof. exact (sd_fit_scale lp ppf Hlp s Hs cfg r M). Qed.
Theorem C124_smoothness_includes cfg r M : hd_method cfg = "smoothness"%string ->
  includes lp ppf cfg (scale_results s r) (s * M) = includes lp ppf cfg r M.
Proof. exact (sd_includes_scale lp ppf Hlp s Hs cfg r M). Qed.
Theorem C124_smoothness_grid cfg r g : hd_method cfg = "smoothness"%string ->
  mapr (fun M => hd_fit lp ppf cfg (scale_results s r) (Some M)) (map (Rmult s) g)
  = res_map (map (fun o => scale_out s (s * ho_M o) o)) (mapr (fun M => hd_fit lp ppf cfg r (Some M)) g).
Proof. exact (sd_grid_scale lp ppf Hlp s Hs cfg r g). Qed.
Theorem C124_conclusion M' o : ho_significant (scale_out s M' o) = ho_significant o /\
  ho_stars (scale_out s M' o) = ho_stars o /\ ho_verdict (scale_out s M' o) = ho_verdict o.
Proof. exact (conclusion_scale s Hs M' o). Qed.
End S.
Section L.
Variable lp : nat -> list con -> list R -> option R.
Variable ppf : option Z -> R -> R.
Hypothesis Hlp : lp_ok lp.
Theorem C124_smoothness_linear cfg r M0 o p b l s : hd_method cfg = "smoothness"%string -> hd_fit lp ppf cfg r (Some M0) = Ok o ->
  hd_extract r = Ok p -> post_beta p = map Fin b -> hd_weights (hd_l cfg) (length b) = Ok l -> ho_se o = Fin s ->
  informative (ep_npre p) l ->
  exists w, 0 <= w /\ (norm1 l <> 0 -> 0 < w) /\
    forall M, 0 <= M -> exists o', hd_fit lp ppf cfg r (Some M) = Ok o' /\
      ho_lb o' = Fin (ldot l b - M * w) /\ ho_ub o' = Fin (ldot l b + M * w) /\
      ho_ci_lb o' = Fin (ldot l b - M * w - ppf None (1 - hd_alpha cfg / 2) * s) /\
      ho_ci_ub o' = Fin (ldot l b + M * w + ppf None (1 - hd_alpha cfg / 2) * s) /\
      includes lp ppf cfg r M = Ok (Rleb (Rabs (ldot l b)) (M * w + ppf None (1 - hd_alpha cfg / 2) * s)).
Proof. exact (smooth_profile lp ppf Hlp cfg r M0 o p b l s). Qed.
Theorem C124_smoothness_breakdown_partial cfg r M0 o p b l s tol : hd_method cfg = "smoothness"%string -> hd_fit lp ppf cfg r (Some M0) = Ok o ->
  hd_extract r = Ok p -> post_beta p = map Fin b -> hd_weights (hd_l cfg) (length b) = Ok l -> ho_se o = Fin s ->
  informative (ep_npre p) l -> norm1 l <> 0 -> 0 < tol ->
  exists w, 0 < w /\
    (forall M, 0 <= M -> includes lp ppf cfg r M = Ok (Rleb ((Rabs (ldot l b) - ppf None (1 - hd_alpha cfg / 2) * s) / w) M)) /\
    exists n, forall fuel, (n <= fuel)%nat -> exists v, breakdown_value lp ppf fuel cfg r tol = Some (Ok v) /\
      ((Rabs (ldot l b) - ppf None (1 - hd_alpha cfg / 2) * s) / w <= 0 -> v = Some 0) /\
      (10 < (Rabs (ldot l b) - ppf None (1 - hd_alpha cfg / 2) * s) / w -> v = None) /\
      (0 < (Rabs (ldot l b) - ppf None (1 - hd_alpha cfg / 2) * s) / w <= 10 ->
         exists m, v = Some m /\ Rabs (m - (Rabs (ldot l b) - ppf None (1 - hd_alpha cfg / 2) * s) / w) <= tol / 2).
Proof. exact (smooth_breakdown_exact lp ppf Hlp cfg r M0 o p b l s tol). Qed.
Theorem C124_combined_default s cfg r M p b l : 0 < s -> hd_method cfg = "combined"%string -> 0 <= M ->
  hd_extract r = Ok p -> post_beta p = map Fin b -> hd_weights (hd_l cfg) (length b) = Ok l -> ~ informative (ep_npre p) l ->
  hd_fit lp ppf cfg (scale_results s r) (Some M) = res_map (scale_out s M) (hd_fit lp ppf cfg r (Some M)).
Proof. exact (combined_fit_scale lp ppf Hlp s cfg r M p b l). Qed.
End L.
Theorem C124_breakdown_unit_refuted : exists cfg r s,
  hd_method cfg = "smoothness"%string /\ 0 < s /\
  (exists n, forall fuel, (n <= fuel)%nat -> exists b,
     breakdown_value fm_lp toy_ppf fuel cfg r (1/100) = Some (Ok (Some b)) /\ Rabs (b - 5) <= 1/200) /\
  (forall fuel, breakdown_value fm_lp toy_ppf fuel cfg (scale_results s r) (1/100) = Some (Ok None)) /\
  includes fm_lp toy_ppf cfg (scale_results s r) (s * 5) = Ok true.
Proof. exact breakdown_unit_refuted. Qed.
Theorem C124_default_grid_unit_refuted : exists cfg r s g, hd_method cfg = "smoothness"%string /\ 0 < s /\
  default_grid (hd_method cfg) = g /\
  (forall M, In M g -> includes fm_lp toy_ppf cfg r M = Ok false) /\
  exists M, In M g /\ includes fm_lp toy_ppf cfg (scale_results s r) M = Ok true.
Proof. exact default_grid_unit_refuted. Qed.
Theorem C124_combined_unit_refuted : exists cfg r s o, hd_method cfg = "combined"%string /\ 0 < s /\
  hd_fit fm_lp toy_ppf cfg r (Some 1) = Ok o /\
  exists o', hd_fit fm_lp toy_ppf cfg (scale_results s r) (Some 1) = Ok o' /\ ho_lb o' <> sc s (ho_lb o) /\ ho_ub o' <> sc s (ho_ub o).
Proof. exact combined_unit_refuted. Qed.
Theorem C124_case : exists o p, hd_fit fm_lp toy_ppf (curve_cfg "smoothness") (curve 1) (Some 1) = Ok o /\
  hd_extract (curve 1) = Ok p /\ post_beta p = map Fin [1 * 8; 1 * 0; 1 * 0] /\
  hd_weights (hd_l (curve_cfg "smoothness")) (length [1 * 8; 1 * 0; 1 * 0]) = Ok [1; -2; 1] /\
  ho_se o = Fin (1 * 3) /\ informative (ep_npre p) [1; -2; 1] /\ norm1 [1; -2; 1] <> 0 /\ ho_lb o = Fin 7 /\ ho_ub o = Fin 9.
Proof. exact curve_case. Qed.
Print Assumptions C124_relative_fit.
Print Assumptions C124_relative_breakdown.
Print Assumptions C124_relative_sensitivity.
Print Assumptions C124_smoothness_fit.
Print Assumptions C124_smoothness_includes.
Print Assumptions C124_smoothness_grid.
Print Assumptions C124_conclusion.
Print Assumptions C124_smoothness_linear.
Print Assumptions C124_smoothness_breakdown_partial.
Print Assumptions C124_combined_default.
Print Assumptions C124_breakdown_unit_refuted.
Print Assumptions C124_default_grid_unit_refuted.
Print Assumptions C124_combined_unit_refuted.
Print Assumptions C124_case.

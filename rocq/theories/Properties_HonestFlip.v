(* HonestDiD: the sign of the outcome and the order of the event-study dictionary (C128). *)
From Coq Require Import Reals.
From Verif Require Import Prelude Flt Lp Multi_model Results_model Linalg_thms Honest_model Honest_proofs Honest_ex Honest_scale Honest_flip.
From Coq Require Import Arith ZArith String List Permutation.
Import ListNotations.
Open Scope R_scope.

Section S.
Variable lp : nat -> list con -> list R -> option R.
Variable ppf : option Z -> R -> R.
Hypothesis Hlp : lp_ok lp.
Theorem C128_fit cfg r M : hd_fit lp ppf cfg (flip_results r) M = res_map flip_out (hd_fit lp ppf cfg r M).
Proof. exact (hd_fit_flip lp ppf Hlp cfg r M). Qed.
Theorem C128_breakdown cfg r fuel tol : breakdown_value lp ppf fuel cfg (flip_results r) tol = breakdown_value lp ppf fuel cfg r tol.
Proof. exact (breakdown_flip lp ppf Hlp cfg r fuel tol). Qed.
Theorem C128_sensitivity cfg r grid : hd_sensitivity lp ppf cfg (flip_results r) grid = res_map flip_sens (hd_sensitivity lp ppf cfg r grid).
Proof. exact (sensitivity_flip lp ppf Hlp cfg r grid). Qed.
End S.
Theorem C128_conclusion o : ho_significant (flip_out o) = ho_significant o /\ ho_stars (flip_out o) = ho_stars o /\
  (fle (ho_ci_lb o) (ho_ci_ub o) = true -> ho_verdict (flip_out o) = flip_verdict (ho_verdict o)).
Proof. exact (flip_conclusion o). Qed.
Theorem C128_pre_violation m v : v <> [] -> keep_some (map (hm_key m) (hm_pre m)) = map Fin v ->
  exists x, max_pre (HMP m) = Fin x /\ 0 <= x /\ (exists a, In a v /\ x = Rabs a) /\ forall a, In a v -> Rabs a <= x.
Proof. exact (mp_max_pre m v). Qed.
Theorem C128_dict_order lp ppf cfg es es' ose M : Permutation es es' -> NoDup (map ee_t es) -> Forall (fun e => ffinite (ee_eff e) = true) (cs_pre es) ->
  hd_fit lp ppf cfg (HCS {| hc_es := Some es'; hc_overall_se := ose |}) M = hd_fit lp ppf cfg (HCS {| hc_es := Some es; hc_overall_se := ose |}) M.
Proof. exact (dict_order lp ppf cfg es es' ose M). Qed.
Theorem C128_case : exists o, hd_fit fm_lp toy_ppf rm_cfg (one_post (Fin 39)) None = Ok o /\ fle (ho_ci_lb o) (ho_ci_ub o) = true /\
  ho_verdict o = Positive /\ ho_verdict (flip_out o) = Negative /\ hd_fit fm_lp toy_ppf rm_cfg (flip_results (one_post (Fin 39))) None = Ok (flip_out o).
Proof. exact flip_case. Qed.
Theorem C128_nan_verdict_refuted : exists o, hd_fit fm_lp toy_ppf rm_cfg (one_post NaN) None = Ok o /\ ho_verdict o = Negative /\
  hd_fit fm_lp toy_ppf rm_cfg (flip_results (one_post NaN)) None = Ok (flip_out o) /\ ho_verdict (flip_out o) = Negative.
Proof. exact flip_nan_refuted. Qed.
Print Assumptions C128_fit.
Print Assumptions C128_breakdown.
Print Assumptions C128_sensitivity.
Print Assumptions C128_conclusion.
Print Assumptions C128_pre_violation.
Print Assumptions C128_dict_order.
Print Assumptions C128_case.
Print Assumptions C128_nan_verdict_refuted.

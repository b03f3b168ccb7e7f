(* The sensitivity plot (C138): statements only. *)
From Verif Require Import Prelude Flt Multi_model Linalg_thms Lp Honest_model Honest_proofs Honest_ex Sensplot_model Sensplot_thms.
From Coq Require Import Arith ZArith String List.
Import ListNotations.
Open Scope R_scope.

Section SP.
Variable lp : nat -> list con -> list R -> option R.
Variable ppf : option Z -> R -> R.
(* covers_zero o: the interval of o has ci_lb <= 0 and 0 <= ci_ub *)
Theorem C138_shows_the_fits cfg r grid q b1 b2 b3 : hd_sensitivity lp ppf cfg r grid = Ok q -> hs_M q <> [] ->
  exists p o0, plot_sensitivity q b1 b2 b3 = Ok p /\
    hd_fit lp ppf cfg r (Some 0) = Ok o0 /\ sq_hlines p = [ho_est o0; Fin 0] /\
    sq_vline p = (if b3 then hs_breakdown q else None) /\
    (if b1 then exists band, sq_band p = Some band /\ length band = length (hs_M q) /\
       (forall k M, nth_error (hs_M q) k = Some M -> exists o, hd_fit lp ppf cfg r (Some M) = Ok o /\ nth_error band k = Some (M, ho_lb o, ho_ub o))
     else sq_band p = None) /\
    (if b2 then exists lower upper, sq_lines p = Some (lower, upper) /\ length lower = length (hs_M q) /\ length upper = length (hs_M q) /\
       (forall k M, nth_error (hs_M q) k = Some M -> exists o, hd_fit lp ppf cfg r (Some M) = Ok o /\
          nth_error lower k = Some (M, ho_ci_lb o) /\ nth_error upper k = Some (M, ho_ci_ub o))
     else sq_lines p = None).
Proof. exact (sens_plot_shows lp ppf cfg r grid q b1 b2 b3). Qed.
Theorem C138_both_functions_agree q b1 b2 b3 : sens_plot_method q b1 b2 b3 = plot_sensitivity q b1 b2 b3.
Proof. exact (sens_plots_agree q b1 b2 b3). Qed.
Theorem C138_line_position cfg r grid q : hd_sensitivity lp ppf cfg r grid = Ok q -> increasing (hs_M q) -> (forall M, In M (hs_M q) -> 0 <= M) ->
  (hs_breakdown q = None <-> forall M o, In M (hs_M q) -> hd_fit lp ppf cfg r (Some M) = Ok o -> ~ covers_zero o) /\
  (forall bd, hs_breakdown q = Some bd ->
     (forall M o, In M (hs_M q) -> M < bd -> hd_fit lp ppf cfg r (Some M) = Ok o -> ~ covers_zero o) /\
     exists M o, In M (hs_M q) /\ bd <= M /\ hd_fit lp ppf cfg r (Some M) = Ok o /\ covers_zero o /\
       forall M', In M' (hs_M q) -> M' < M -> M' < bd).
Proof. exact (sens_line lp ppf cfg r grid q). Qed.
Theorem C138_has_breakdown cfg r grid q : hd_sensitivity lp ppf cfg r grid = Ok q -> increasing (hs_M q) -> (forall M, In M (hs_M q) -> 0 <= M) ->
  (has_breakdown q = true <-> exists M o, In M (hs_M q) /\ hd_fit lp ppf cfg r (Some M) = Ok o /\ covers_zero o).
Proof. exact (sens_has_breakdown lp ppf cfg r grid q). Qed.
Theorem C138_line_separates cfg r grid q : hd_sensitivity lp ppf cfg r grid = Ok q -> increasing (hs_M q) -> (forall M, In M (hs_M q) -> 0 <= M) ->
  (forall M1 M2 o1 o2, M1 <= M2 -> hd_fit lp ppf cfg r (Some M1) = Ok o1 -> hd_fit lp ppf cfg r (Some M2) = Ok o2 -> covers_zero o1 -> covers_zero o2) ->
  forall bd, hs_breakdown q = Some bd -> forall M o, In M (hs_M q) -> hd_fit lp ppf cfg r (Some M) = Ok o -> (covers_zero o <-> bd <= M).
Proof. exact (sens_line_monotone lp ppf cfg r grid q). Qed.
Theorem C138_line_separates_relative cfg r grid q M0 o0 th s m : hd_method cfg = "relative_magnitude"%string ->
  hd_fit lp ppf cfg r M0 = Ok o0 -> ho_est o0 = Fin th -> ho_se o0 = Fin s -> max_pre r = Fin m -> 0 <= m ->
  hd_sensitivity lp ppf cfg r grid = Ok q -> increasing (hs_M q) -> (forall M, In M (hs_M q) -> 0 <= M) ->
  forall bd, hs_breakdown q = Some bd -> forall M o, In M (hs_M q) -> hd_fit lp ppf cfg r (Some M) = Ok o -> (covers_zero o <-> bd <= M).
Proof. exact (sens_line_relative lp ppf cfg r grid q M0 o0 th s m). Qed.
Theorem C138_empty_grid cfg r o : hd_fit lp ppf cfg r (Some 0) = Ok o ->
  exists q, hd_sensitivity lp ppf cfg r (Some []) = Ok q /\ hs_breakdown q = None /\ has_breakdown q = false /\
    forall b1 b2 b3, plot_sensitivity q b1 b2 b3 = (if b1 || b2 then Err IndexError
      else Ok {| sq_hlines := [ho_est o; Fin 0]; sq_band := None; sq_lines := None; sq_vline := None |}).
Proof. exact (sens_empty lp ppf cfg r o). Qed.
End SP.
Theorem C138_unsorted_refuted : exists cfg r q M o, hd_sensitivity fm_lp toy_ppf cfg r (Some [5; 1]) = Ok q /\
  hs_breakdown q = Some 0 /\ In M (hs_M q) /\ 0 < M /\ hd_fit fm_lp toy_ppf cfg r (Some M) = Ok o /\ ~ covers_zero o.
Proof. exact sens_unsorted_refuted. Qed.
Theorem C138_case : exists q p bd, hd_sensitivity fm_lp toy_ppf rm_cfg (one_post (Fin 22)) (Some [0; 2; 5]) = Ok q /\
  plot_sensitivity q true true true = Ok p /\ sq_vline p = Some bd /\ Rabs (bd - 3) <= 1 / 100 /\
  sq_band p = Some [(0, Fin 22, Fin 22); (2, Fin 20, Fin 24); (5, Fin 17, Fin 27)] /\
  sq_lines p = Some ([(0, Fin 3); (2, Fin 1); (5, Fin (-2))], [(0, Fin 41); (2, Fin 43); (5, Fin 46)]).
Proof. exact sens_case. Qed.
Print Assumptions C138_shows_the_fits.
Print Assumptions C138_both_functions_agree.
Print Assumptions C138_line_position.
Print Assumptions C138_has_breakdown.
Print Assumptions C138_line_separates.
Print Assumptions C138_line_separates_relative.
Print Assumptions C138_empty_grid.
Print Assumptions C138_unsorted_refuted.
Print Assumptions C138_case.

(* Properties of the plots of visualization.py. *)
From Verif Require Import Prelude Flt Linalg_thms Multi_model Multi_proofs Honest_model Honest_proofs Honest_ex Lp Bacon_model Trop_sel
  Vis_model Vis_proofs Vis_thms Vis_power Vis_ex.
From Coq Require Import Arith ZArith String List.
Import ListNotations.
Open Scope R_scope.

(* C90 *)
Section C90.
Variable ppf : option Z -> R -> R.
Theorem C90_points r periods pre post alpha sh sr pl : keys_ok r ->
  plot_event_study ppf (Some r) None None periods pre post None alpha sh sr = Ok pl ->
  forall p e s ci, (exists f, In {| sp_period := p; sp_effect := e; sp_se := s; sp_ci := ci; sp_ref := f |} (ep_points pl))
    <-> on_axis r periods post p /\ reported r p e s /\ e <> NaN /\ ci = bar (ppf None (1 - alpha / 2)) e s.
Proof. eapply points_no_ref; eauto. Qed.
Theorem C90_normalised_points r periods pre post q v sq alpha sh sr pl : keys_ok r ->
  reported r q (Fin v) sq ->
  plot_event_study ppf (Some r) None None periods pre post (Some q) alpha sh sr = Ok pl ->
  forall p e s ci f, In {| sp_period := p; sp_effect := e; sp_se := s; sp_ci := ci; sp_ref := f |} (ep_points pl)
    <-> on_axis r periods post p
        /\ (exists e0 s0, reported r p e0 s0 /\ e0 <> NaN /\ e = fsub e0 (Fin v)
            /\ s = (if Z.eq_dec p q then NaN else s0))
        /\ ci = bar (ppf None (1 - alpha / 2)) e s /\ f = (if Z.eq_dec p q then true else false).
Proof. eapply points_ref; eauto. Qed.
Theorem C90_shading es ref alpha sr pl : NoDup (zkeys es) ->
  plot_event_study ppf (Some (VEvent (Some es))) None None None None None ref alpha true sr = Ok pl ->
  zinc (map sp_period (ep_points pl)) /\
  forall i p, nth_error (ep_points pl) i = Some p ->
    ((exists a b, ep_shade pl = Some (a, b) /\ (a <= i <= b)%nat) <-> (sp_period p < 0)%Z).
Proof. eapply event_shading; eauto. Qed.
Theorem C90_marker es periods pre post alpha sh sr pl : NoDup (zkeys es) ->
  plot_event_study ppf (Some (VEvent (Some es))) None None periods pre post None alpha sh sr = Ok pl ->
  forall p, In p (ep_points pl) -> (sp_ref p = true <->
    match find_marker es with Some q => sp_period p = q | None => sp_period p = (-1)%Z end).
Proof. eapply event_marker; eauto. Qed.
Theorem C90_normal_interval alpha e s : bar (ppf None (1 - alpha / 2)) e (Fin s) = u_ci ppf e (Fin s) alpha None.
Proof. eapply bar_is_normal_ci; eauto. Qed.
Theorem C90_verdict sf alpha e s : dist_ok sf ppf -> 0 < alpha < 1 -> 0 < s ->
  let b := bar (ppf None (1 - alpha / 2)) (Fin e) (Fin s) in
  ((flt (snd b) (Fin 0) || flt (Fin 0) (fst b) = true) <->
   exists p, u_p_value sf (Fin (e / s)) None = Fin p /\ p < alpha).
Proof. eapply bar_verdict; eauto. Qed.
Theorem C90_period_effects_iff sf alpha df coef V p idx e s : (0 < df)%Z -> 0 < s ->
  let pe := mp_effect sf ppf alpha df coef V p idx in
  pe_effect pe = Fin e -> pe_se pe = Fin s ->
  (bar (ppf None (1 - alpha / 2)) (pe_effect pe) (pe_se pe) = pe_ci pe
   <-> ppf None (1 - alpha / 2) = ppf (Some df) (1 - alpha / 2)).
Proof. eapply mp_bar_iff; eauto. Qed.
Theorem C90_frame_interval_ignored rows rows' e s periods pre post ref alpha sh sr :
  map fst rows = map fst rows' ->
  plot_event_study ppf (Some (VFrame true true true rows)) e s periods pre post ref alpha sh sr
  = plot_event_study ppf (Some (VFrame true true true rows')) e s periods pre post ref alpha sh sr.
Proof. eapply frame_interval_unused; eauto. Qed.
End C90.
Theorem C90_t_interval_refuted : exists pl p,
  plot_event_study heavy_ppf (Some (VMulti [(pe_period one_pe, (pe_effect one_pe, pe_se one_pe))] [0%Z] [1%Z]))
     None None None None None None (1/20) true true = Ok pl /\
  ep_points pl = [p] /\ sp_effect p = pe_effect one_pe /\ sp_se p = pe_se one_pe /\
  (exists q, pe_p one_pe = Fin q /\ 1/20 < q) /\ (exists lo hi, pe_ci one_pe = (Fin lo, Fin hi) /\ lo < 0 < hi) /\
  exists lo hi, sp_ci p = (Fin lo, Fin hi) /\ 0 < lo /\ lo < hi.
Proof. eapply mp_plot_refuted; eauto. Qed.
Theorem C90_normalised_width_refuted (ppf : option Z -> R -> R) : 0 < ppf None (1 - 1/20/2) ->
  let V := fun i j : nat => if Nat.eqb i j then 1 else 0 in
  exists pl p, plot_event_study ppf None (Some [((-1)%Z, Fin 1); (0%Z, Fin 3)]) (Some [((-1)%Z, Fin (sqrt (V 0%nat 0%nat))); (0%Z, Fin (sqrt (V 1%nat 1%nat)))])
     None None None (Some (-1)%Z) (1/20) true true = Ok pl /\ In p (ep_points pl) /\ sp_period p = 0%Z /\ sp_effect p = Fin (3 - 1) /\
  exists lo hi, sp_ci p = (Fin lo, Fin hi) /\
    hi - lo < 2 * ppf None (1 - 1/20/2) * sqrt (V 0%nat 0%nat + V 1%nat 1%nat - 2 * V 0%nat 1%nat).
Proof. eapply normalised_width_refuted; eauto. Qed.
Theorem C90_repeated_rows_refuted (ppf : option Z -> R -> R) : exists pl,
  plot_event_study ppf (Some (VFrame true true true [(1%Z, Fin 2, Fin 1, None); (1%Z, Fin 5, Fin 1, None)]))
    None None None None None None (1/20) true true = Ok pl /\ map sp_effect (ep_points pl) = [Fin 5; Fin 5].
Proof. eapply frame_rows_refuted; eauto. Qed.
Theorem C90_case (ppf : option Z -> R -> R) :
  (exists pl, plot_event_study ppf (Some (VEvent (Some ev3))) None None None None None None (1/20) true true = Ok pl /\
     map sp_period (ep_points pl) = [-2; -1; 0]%Z /\ map sp_effect (ep_points pl) = [Fin 1; Fin 0; Fin 3] /\
     map sp_ref (ep_points pl) = [false; true; false] /\ ep_shade pl = Some (0, 1)%nat /\ ep_refline pl = Some 1%nat) /\
  (exists pl, plot_event_study ppf (Some (VEvent (Some ev3))) None None None None None (Some (-2)%Z) (1/20) true true = Ok pl /\
     map sp_effect (ep_points pl) = [Fin (1 + - 1); Fin (0 + - 1); Fin (3 + - 1)]).
Proof. eapply ev3_plot; eauto. Qed.
(* C91 *)
Section C91.
Variable ppf : option Z -> R -> R.
Theorem C91_one_interval orig o periods pts :
  plot_honest_event_study ppf (honest_view_of orig o) periods = Ok pts ->
  forall p, In p pts -> hp_honest p = (ho_ci_lb o, ho_ci_ub o).
Proof. eapply honest_same_interval; eauto. Qed.
Theorem C91_fails_iff orig o lo hi : keys_ok orig ->
  match orig with VMulti _ _ _ | VEvent (Some _) => True | _ => False end ->
  ho_ci_lb o = Fin lo -> ho_ci_ub o = Fin hi -> 0 <= ppf None (1 - ho_alpha o / 2) ->
  (forall p e s, In (p, (e, s)) (effects_of orig) -> exists a b, e = Fin a /\ s = Fin b /\ 0 <= b) ->
  (plot_honest_event_study ppf (honest_view_of orig o) None = Err ValueError
     <-> exists p e s, In (p, (Fin e, s)) (effects_of orig) /\ (e < lo \/ hi < e))
  /\ (is_ok (plot_honest_event_study ppf (honest_view_of orig o) None) = true
     <-> forall p e s, In (p, (Fin e, s)) (effects_of orig) -> lo <= e <= hi).
Proof. eapply honest_fails_iff; eauto. Qed.
End C91.
Theorem C91_case_refuted : exists es o,
  hd_fit fm_lp toy_ppf rm_cfg (HCS {| hc_es := Some es; hc_overall_se := Fin 1 |}) None = Ok o /\
  ho_ci_lb o = Fin 10 /\ ho_ci_ub o = Fin 50 /\ ho_significant o = true /\
  plot_honest_event_study toy_ppf (honest_view_of (VEvent (Some (ev_of es))) o) None = Err ValueError.
Proof. eapply honest_plot_refuted; eauto. Qed.
(* C92 *)
Theorem C92_interp_case : interp_ok lin_interp.
Proof. eapply lin_interp_ok; eauto. Qed.
Section C92.
Variable interp : R -> list R -> list R -> R.
Hypothesis HI : interp_ok interp.
Theorem C92_marker src sizes powers mde target ea sm st pl :
  plot_power_curve interp src sizes powers mde target ea sm st = Ok pl ->
  increasing (fst (pp_curve pl)) -> length (snd (pp_curve pl)) = length (fst (pp_curve pl)) ->
  forall x, pp_mde pl = Some x ->
  (forall y, pp_marker pl = Some y -> on_curve (fst (pp_curve pl)) (snd (pp_curve pl)) x y) /\
  (pp_marker pl = None <-> forall a, In a (fst (pp_curve pl)) -> x < a \/ a < x /\ forall b, In b (fst (pp_curve pl)) -> b < x).
Proof. eapply power_marker; eauto. Qed.
Theorem C92_simulation_line s p te target ea st pl :
  plot_power_curve interp (Some (PCSim s p te)) None None None target ea true st = Ok pl -> pp_mde pl = Some te.
Proof. eapply simulation_line; eauto. Qed.
Theorem C92_simulation_mde_refuted : exists s p te pl,
  plot_power_curve interp (Some (PCSim s p te)) None None None (4/5) true true true = Ok pl /\
  pp_mde pl = Some te /\ pp_marker pl = Some (1/20) /\ increasing s /\ pp_target pl = Some (4/5).
Proof. eapply simulation_line_refuted; eauto. Qed.
Theorem C92_decreasing_refuted : exists s p mde pl,
  plot_power_curve interp None (Some s) (Some p) (Some mde) (4/5) true true true = Ok pl /\
  pp_curve pl = (s, p) /\ pp_marker pl = Some (1/5) /\ forall y, on_curve s p mde y -> y = 2/5.
Proof. eapply marker_order_refuted; eauto. Qed.
End C92.
(* C93 *)
Section C93.
Variable interp : R -> list R -> list R -> R.
Hypothesis HI : interp_ok interp.
Theorem C93_marker src M p mdv target sm st pl xs ys x y :
  plot_pretrends_power interp src M p mdv target sm st = Ok pl -> pq_curve pl = Some (xs, ys) ->
  increasing xs -> length ys = length xs -> (1 < length xs)%nat -> pq_mdv pl = Some x -> pq_marker pl = Some y -> on_curve xs ys x y.
Proof. eapply pretrends_marker; eauto. Qed.
Theorem C93_target xs ys mdv tg target sm pl :
  plot_pretrends_power interp (Some (PTCurve xs ys mdv tg)) None None None target sm true = Ok pl ->
  pq_target pl = Some (match target with Some t => t | None => tg end).
Proof. eapply pretrends_target; eauto. Qed.
Theorem C93_target_refuted xs ys mdv tg sm pl : tg <> 4/5 ->
  plot_pretrends_power interp (Some (PTCurve xs ys mdv tg)) None None None (Some (4/5)) sm true = Ok pl ->
  pq_target pl <> Some tg.
Proof. eapply pretrends_target_refuted; eauto. Qed.
Theorem C93_single mdv target sm st pl :
  plot_pretrends_power interp (Some (PTSingle mdv)) None None None target sm st = Ok pl -> pq_curve pl = None /\ pq_marker pl = None.
Proof. eapply pretrends_single; eauto. Qed.
End C93.
(* C94 *)
Theorem C94_scatter_complete o ty e w :
  (exists l, In (ty, l) (bacon_scatter o) /\ In (e, w) l) <->
  exists c, In c (bo_comparisons o) /\ cmp_type c = ty /\ cmp_est c = e /\ cmp_weight c = w.
Proof. eapply bacon_scatter_complete; eauto. Qed.
Theorem C94_scatter_once o : length (flat_map snd (bacon_scatter o)) = length (bo_comparisons o).
Proof. eapply bacon_scatter_once; eauto. Qed.
Theorem C94_bars_total {I} (rows : list I) u t g y exact :
  sumf snd (bacon_bars (bacon_fit rows u t g y exact)) = sumf cmp_weight (bo_comparisons (bacon_fit rows u t g y exact)).
Proof. eapply bacon_bars_total; eauto. Qed.
Section C94.
Variable ppf : option Z -> R -> R.
Theorem C94_group_lines gt groups alpha g l :
  In (g, l) (plot_group_effects ppf gt groups alpha) ->
  (forall t e b, In (t, (e, b)) l <-> exists s, In (g, t, (e, s)) gt /\ b = ge_bar ppf alpha e s)
  /\ zsorted (map fst l).
Proof. eapply group_effects_spec; eauto. Qed.
Theorem C94_groups_shown gt groups alpha g :
  (exists l, In (g, l) (plot_group_effects ppf gt groups alpha)) <->
  (exists t d, In (g, t, d) gt) /\ match groups with Some gs => In g gs | None => True end.
Proof. eapply group_effects_groups; eauto. Qed.
Theorem C94_group_bar alpha e s : ge_bar ppf alpha (Fin e) (Fin s)
  = (Fin (ppf None (1 - alpha / 2) * s), Fin (ppf None (1 - alpha / 2) * s)).
Proof. eapply group_bar_finite; eauto. Qed.
End C94.
Theorem C94_group_case (ppf : option Z -> R -> R) :
  map (fun x => (fst x, map fst (snd x)))
    (plot_group_effects ppf [(4, 6, (Fin 2, Fin 1)); (5, 6, (Fin 7, Fin 1)); (4, 5, (Fin 3, Fin 1))]%Z None (1/20))
  = [(4, [5; 6]); (5, [6])]%Z.
Proof. eapply group_plot_case; eauto. Qed.
Print Assumptions C90_points.
Print Assumptions C90_normalised_points.
Print Assumptions C90_shading.
Print Assumptions C90_marker.
Print Assumptions C90_normal_interval.
Print Assumptions C90_verdict.
Print Assumptions C90_period_effects_iff.
Print Assumptions C90_frame_interval_ignored.
Print Assumptions C90_t_interval_refuted.
Print Assumptions C90_normalised_width_refuted.
Print Assumptions C90_repeated_rows_refuted.
Print Assumptions C90_case.
Print Assumptions C91_one_interval.
Print Assumptions C91_fails_iff.
Print Assumptions C91_case_refuted.
Print Assumptions C92_interp_case.
Print Assumptions C92_marker.
Print Assumptions C92_simulation_line.
Print Assumptions C92_simulation_mde_refuted.
Print Assumptions C92_decreasing_refuted.
Print Assumptions C93_marker.
Print Assumptions C93_target.
Print Assumptions C93_target_refuted.
Print Assumptions C93_single.
Print Assumptions C94_scatter_complete.
Print Assumptions C94_scatter_once.
Print Assumptions C94_bars_total.
Print Assumptions C94_group_lines.
Print Assumptions C94_groups_shown.
Print Assumptions C94_group_bar.
Print Assumptions C94_group_case.

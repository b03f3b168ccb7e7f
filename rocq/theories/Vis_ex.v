(* Concrete plots *)
From Verif Require Import Prelude Flt Linalg_thms Multi_model Multi_proofs Honest_model Honest_proofs Honest_ex Lp Bacon_model Trop_sel Vis_model Vis_proofs Vis_thms.
From Coq Require Import Arith ZArith String List.
Import ListNotations.
Open Scope R_scope.

Lemma z19h : heavy_ppf None (1 - 1/20/2) = 19.
Proof. unfold heavy_ppf. apply z19. Qed.

(* one effect of 30 with standard error 1: MultiPeriodDiD reports [-8, 68] and a p-value above 0.05, the plot
   shows [11, 49] *)
Definition one_coef : list fl := [Fin 30].
Definition one_var : nat -> nat -> fl := fun _ _ => Fin 1.
Definition one_pe : period_effect := mp_effect heavy_sf heavy_ppf (1/20) 5 one_coef one_var 1 0.
Theorem mp_plot_refuted : exists pl p,
  plot_event_study heavy_ppf (Some (VMulti [(pe_period one_pe, (pe_effect one_pe, pe_se one_pe))] [0%Z] [1%Z]))
     None None None None None None (1/20) true true = Ok pl /\
  ep_points pl = [p] /\ sp_effect p = pe_effect one_pe /\ sp_se p = pe_se one_pe /\
  (exists q, pe_p one_pe = Fin q /\ 1/20 < q) /\ (exists lo hi, pe_ci one_pe = (Fin lo, Fin hi) /\ lo < 0 < hi) /\
  exists lo hi, sp_ci p = (Fin lo, Fin hi) /\ 0 < lo /\ lo < hi.
Proof.
  assert (S1 : pe_se one_pe = Fin 1).
  { unfold one_pe, mp_effect. cbn. destruct (Rlt_dec 1 0); [lra|]. now rewrite sqrt_1. }
  assert (T1 : pe_t one_pe = Fin 30).
  { unfold one_pe, mp_effect. cbn. destruct (Rlt_dec 1 0); [lra|]. rewrite sqrt_1. cbn.
    destruct (Req_EM_T 1 0); [lra|]. f_equal. field. }
  do 2 eexists. split.
  - unfold plot_event_study. cbn [extract_plot_data bind vd_periods or_else vd_effects vd_se vd_ref map fst snd normalise_ref].
    unfold keepo, es_point_of. cbn [flat_map]. change (zget 1%Z [(pe_period one_pe, pe_effect one_pe)]) with (Some (Fin 30)).
    cbn [fisnan]. reflexivity.
  - cbn [ep_points app]. split; [reflexivity|]. cbn [sp_effect sp_se sp_ci]. split; [reflexivity|].
    change (zget 1%Z [(pe_period one_pe, pe_se one_pe)]) with (Some (pe_se one_pe)). rewrite S1. split; [reflexivity|].
    split; [|split].
    + change (pe_p one_pe) with (u_p_value heavy_sf (pe_t one_pe) (Some 5%Z)). rewrite T1. unfold u_p_value, u_sf. cbn [fabs].
      change (Z.ltb 0 5) with true. cbv iota. rewrite (Rabs_pos_eq 30) by lra. unfold heavy_sf. rewrite fdiv2. unfold toy_sf.
      destruct (Rle_dec 0 (30 / 2)); [|lra]. cbn [fmul]. eexists. split; [reflexivity|]. lra.
    + change (pe_ci one_pe) with (u_ci heavy_ppf (Fin 30) (pe_se one_pe) (1/20) (Some 5%Z)). rewrite S1. unfold u_ci, u_ppf. change (Z.ltb 0 5) with true.
      cbv iota. unfold heavy_ppf. rewrite z19. cbn [fmul fsub fadd fneg]. do 2 eexists. split; [reflexivity|]. lra.
    + unfold zcrit. rewrite z19h. cbn [ffinite fmul fsub fadd fneg]. do 2 eexists. split; [reflexivity|]. lra.
Qed.

(* two uncorrelated estimates with standard error 1: the interval of the normalised effect keeps half width z,
   the standard error of the difference is sqrt 2 *)
Theorem normalised_width_refuted (ppf : option Z -> R -> R) : 0 < ppf None (1 - 1/20/2) ->
  let V := fun i j : nat => if Nat.eqb i j then 1 else 0 in
  exists pl p, plot_event_study ppf None (Some [((-1)%Z, Fin 1); (0%Z, Fin 3)]) (Some [((-1)%Z, Fin (sqrt (V 0%nat 0%nat))); (0%Z, Fin (sqrt (V 1%nat 1%nat)))])
     None None None (Some (-1)%Z) (1/20) true true = Ok pl /\ In p (ep_points pl) /\ sp_period p = 0%Z /\ sp_effect p = Fin (3 - 1) /\
  exists lo hi, sp_ci p = (Fin lo, Fin hi) /\
    hi - lo < 2 * ppf None (1 - 1/20/2) * sqrt (V 0%nat 0%nat + V 1%nat 1%nat - 2 * V 0%nat 1%nat).
Proof.
  intros Hz V. do 2 eexists. split.
  - unfold plot_event_study. cbn [bind vd_periods vd_effects vd_se vd_ref vd_inferred negb].
    unfold normalise_ref. cbn [zget Z.eqb Z.compare Pos.compare Pos.compare_cont ffinite andb].
    unfold keepo, es_point_of. cbn. reflexivity.
  - cbn [ep_points]. split; [right; left; reflexivity|]. cbn [sp_period sp_effect sp_ci]. split; [reflexivity|]. split; [reflexivity|].
    do 2 eexists. split; [reflexivity|]. unfold V. simpl Nat.eqb. cbv iota. rewrite sqrt_1.
    replace (1 + 1 - 2 * 0) with 2 by ring. assert (1 < sqrt 2) by (rewrite <- sqrt_1 at 1; apply sqrt_lt_1; lra).
    set (z := ppf None (1 - 1 / 20 / 2)) in *. assert (z * 1 < z * sqrt 2) by (apply Rmult_lt_compat_l; lra). lra.
Qed.

(* a frame with two rows for period 1: both marks are drawn at the second effect *)
Theorem frame_rows_refuted (ppf : option Z -> R -> R) : exists pl,
  plot_event_study ppf (Some (VFrame true true true [(1%Z, Fin 2, Fin 1, None); (1%Z, Fin 5, Fin 1, None)]))
    None None None None None None (1/20) true true = Ok pl /\ map sp_effect (ep_points pl) = [Fin 5; Fin 5].
Proof.
  eexists. split.
  - unfold plot_event_study. cbn. reflexivity.
  - reflexivity.
Qed.

(* an event study with reference entry, drawn without and with an explicit reference *)
Definition ev3 : list (Z * ev_entry) :=
  [(0%Z, {| ev_effect := Fin 3; ev_se := Fin 1; ev_n_groups := Some 2%nat |});
   ((-1)%Z, {| ev_effect := Fin 0; ev_se := Fin 0; ev_n_groups := Some 0%nat |});
   ((-2)%Z, {| ev_effect := Fin 1; ev_se := NaN; ev_n_groups := Some 1%nat |});
   (1%Z, {| ev_effect := NaN; ev_se := NaN; ev_n_groups := Some 1%nat |})].
Theorem ev3_plot (ppf : option Z -> R -> R) :
  (exists pl, plot_event_study ppf (Some (VEvent (Some ev3))) None None None None None None (1/20) true true = Ok pl /\
     map sp_period (ep_points pl) = [-2; -1; 0]%Z /\ map sp_effect (ep_points pl) = [Fin 1; Fin 0; Fin 3] /\
     map sp_ref (ep_points pl) = [false; true; false] /\ ep_shade pl = Some (0, 1)%nat /\ ep_refline pl = Some 1%nat) /\
  (exists pl, plot_event_study ppf (Some (VEvent (Some ev3))) None None None None None (Some (-2)%Z) (1/20) true true = Ok pl /\
     map sp_effect (ep_points pl) = [Fin (1 + - 1); Fin (0 + - 1); Fin (3 + - 1)]).
Proof.
  split; eexists; (split; [unfold plot_event_study; cbn; reflexivity|]); cbn; repeat split; reflexivity.
Qed.

(* HonestDiD on an event study with a pre-period effect of 1 and a post-period effect of 30 (both with standard
   error 1): the robust interval is [10, 50], it excludes zero, and the plot raises *)
Definition ev_of (l : list es_entry) : list (Z * ev_entry) :=
  keepo (fun e => match ee_t e with Some t => Some (t, {| ev_effect := ee_eff e; ev_se := ee_se e; ev_n_groups := Some (ee_n e) |}) | None => None end) l.
Theorem honest_plot_refuted : exists es o,
  hd_fit fm_lp toy_ppf rm_cfg (HCS {| hc_es := Some es; hc_overall_se := Fin 1 |}) None = Ok o /\
  ho_ci_lb o = Fin 10 /\ ho_ci_ub o = Fin 50 /\ ho_significant o = true /\
  plot_honest_event_study toy_ppf (honest_view_of (VEvent (Some (ev_of es))) o) None = Err ValueError.
Proof.
  exists [ent 0 (Fin 30) (Fin 1); ent (-1) (Fin 1) (Fin 1)].
  destruct (one_post_fit (Fin 30) None) as (o & Ho). exists o. split; [exact Ho|].
  destruct (one_post_vals _ _ _ Ho) as (Hse & Hest & _). specialize (Hest 30 eq_refl).
  assert (HM : ho_M o = 1 /\ ho_alpha o = 1/20).
  { unfold hd_fit in Ho. cbv zeta in Ho. destruct (hd_extract _) as [p|] in Ho; [|discriminate]. cbn [bind] in Ho.
    destruct (post_sigma p) as [sz Sg]. destruct (hd_weights _ _) in Ho; [|discriminate]. cbn [bind] in Ho.
    destruct (negb _) in Ho; [discriminate|]. match type of Ho with bind ?b _ = _ => destruct b as [[[[? ?] ?] ?]|] in Ho; [|discriminate] end.
    cbn [bind] in Ho. injection Ho as <-. auto. }
  destruct HM as [HM HA].
  destruct (rm_values fm_lp toy_ppf rm_cfg _ _ _ 30 1 1 eq_refl Ho Hest Hse (one_post_max _)) as (_ & _ & C1 & C2).
  rewrite HM in C1, C2. cbn [rm_cfg hd_alpha] in C1, C2. rewrite z19 in C1, C2.
  replace (30 - 1 * 1 - 19 * 1) with 10 in C1 by ring. replace (30 + 1 * 1 + 19 * 1) with 50 in C2 by ring.
  split; [exact C1|]. split; [exact C2|]. split.
  - unfold ho_significant, has_zero. rewrite C1, C2. cbn [fle].
    replace (Rleb 10 0) with false by (symmetry; apply Rleb_false; lra). reflexivity.
  - apply (proj1 (honest_fails_iff toy_ppf (VEvent (Some (ev_of [ent 0 (Fin 30) (Fin 1); ent (-1) (Fin 1) (Fin 1)]))) o 10 50
             ltac:(cbn; repeat constructor; cbn; intuition discriminate) Logic.I C1 C2 ltac:(rewrite HA, z19; lra)
             ltac:(cbn; intros p e s [H|[H|[]]]; injection H as <- <- <-; do 2 eexists; repeat split; lra))).
    exists (-1)%Z, 1, (Fin 1). split; [cbn; auto|lra].
Qed.

(* two cohorts, cells given out of order: the line of cohort 4 is in time order *)
Theorem group_plot_case (ppf : option Z -> R -> R) :
  map (fun x => (fst x, map fst (snd x)))
    (plot_group_effects ppf [(4, 6, (Fin 2, Fin 1)); (5, 6, (Fin 7, Fin 1)); (4, 5, (Fin 3, Fin 1))]%Z None (1/20))
  = [(4, [5; 6]); (5, [6])]%Z.
Proof. reflexivity. Qed.

(* HonestDiD and the unit of the outcome: a concrete analysis, in two units. *)
From Verif Require Import Prelude Flt Stats_model Linalg_model Linalg_proofs Linalg_vcov Linalg_thms Did_equiv Lp Multi_model Results_model
  Honest_model Honest_proofs Honest_sd Honest_fit Honest_ex Scale_flt Honest_scale Honest_smooth.
From Coq Require Import Arith ZArith String List Lia Lra.
Import ListNotations.
Open Scope R_scope.

(* effects 8, 0, 0 after treatment and 5 before, in multiples of k *)
Definition curve (k : R) : hd_results :=
  HCS {| hc_es := Some [ent 0 (Fin (k * 8)) (Fin (k * 2)); ent 1 (Fin (k * 0)) (Fin (k * 1)); ent 2 (Fin (k * 0)) (Fin (k * 1));
                        ent (-1) (Fin (k * 5)) (Fin (k * 1))]; hc_overall_se := Fin (k * 1) |}.
Definition curve_cfg (m : string) : hd_cfg := {| hd_method := m; hd_M := 1; hd_alpha := 1/2; hd_l := Some [1; -2; 1] |}.
Lemma curve_scaled s k : scale_results s (curve k) = curve (s * k).
Proof.
  unfold curve, scale_results, scale_cs, scale_entry, ent. cbn [hc_es hc_overall_se option_map map ee_t ee_eff ee_se ee_n]. rewrite !sc_fin.
  rewrite <- !Rmult_assoc. reflexivity.
Qed.
Lemma z1 : toy_ppf None (1 - 1/2/2) = 1.
Proof. unfold toy_ppf. field. Qed.

Lemma curve_informative : informative 1 [1; -2; 1].
Proof. split; [simpl; lia|]. unfold suml, moml, idR. simpl. split; ring. Qed.
Lemma curve_norm : norm1 [1; -2; 1] <> 0.
Proof. simpl. rewrite Rabs_R1. pose proof (Rabs_pos (-2)). lra. Qed.
Lemma curve_dot k : ldot [1; -2; 1] [k * 8; k * 0; k * 0] = k * 8.
Proof. simpl. ring. Qed.

(* for these weights the half-width is M itself *)
Lemma curve_solve b M : length b = 3%nat -> 0 <= M ->
  solve_bounds fm_lp (map Fin b) [1; -2; 1] (cons_sd 1 3 M) 1
  = (Fin (ldot [1; -2; 1] b - M), Fin (ldot [1; -2; 1] b + M)).
Proof.
  intros Lb HM. destruct (smooth_linear fm_lp fm_lp_ok 1 b [1; -2; 1] Lb curve_informative) as (w & W0 & _ & HW).
  change 3%nat with (length [1; -2; 1]). rewrite HW by exact HM.
  assert (E : w = 1); [|rewrite E, Rmult_1_r; reflexivity].
  destruct (smooth_sharp fm_lp fm_lp_ok 1 b [1; -2; 1] 1 Lb ltac:(lra) (proj1 curve_informative)
    (proj1 (proj2 curve_informative)) (proj2 (proj2 curve_informative))) as (lo & hi & E1 & A1 & _).
  rewrite (HW 1) in E1 by lra. injection E1 as <- <-. set (th := ldot [1; -2; 1] b) in *. apply Rle_antisym.
  - assert (V : th - 1 * w <= th + 1 * w <= th + 1 * w) by lra. apply A1 in V. destruct V as (d & L & F & E).
    do 4 (destruct d as [|? d]; [discriminate L|]). destruct d; [|discriminate L].
    specialize (F 1%nat ltac:(simpl; lia)). unfold diff2 in F. cbn [nth Nat.add] in F. apply Rabs_le_inv in F.
    cbn [skipn ldot] in E. unfold th in *. lra.
  - assert (V : th - 1 * w <= th + 1 <= th + 1 * w); [|lra].
    apply A1. exists [0; 0; 0; -1]. split; [reflexivity|]. split; [|cbn [skipn ldot]; unfold th; ring].
    intros i Hi. cbn [length] in Hi. unfold diff2. apply Rabs_le. destruct i as [|[|i]]; cbn [nth Nat.add]; [lra|lra|lia].
Qed.

Lemma curve_extract k : exists p, hd_extract (curve k) = Ok p /\ post_beta p = map Fin [k * 8; k * 0; k * 0] /\ ep_npre p = 1%nat /\
  fst (post_sigma p) = 3%nat /\ qform [1; -2; 1] (snd (post_sigma p)) = Fin (k * 3 * (k * 3)).
Proof.
  unfold curve. match goal with |- context [Some ?e] => set (es := e) end.
  destruct (cs_extract es (Fin (k * 1))) as (p & E1 & E2 & E3 & E4). exists p. split; [exact E1|]. split; [exact E2|].
  split; [cbn in E1; injection E1 as <-; reflexivity|]. split; [exact E3|].
  rewrite (qform_diag _ [k * 2; k * 1; k * 1]); [f_equal; cbn; ring|reflexivity|]. intros i j Hi Hj. exact (E4 i j Hi Hj).
Qed.

Lemma curve_fit k M : 0 < k -> 0 <= M -> exists o, hd_fit fm_lp toy_ppf (curve_cfg "smoothness") (curve k) (Some M) = Ok o /\
  ho_se o = Fin (k * 3) /\ ho_lb o = Fin (k * 8 - M) /\ ho_ub o = Fin (k * 8 + M) /\
  ho_ci_lb o = Fin (k * 8 - M - k * 3) /\ ho_ci_ub o = Fin (k * 8 + M + k * 3).
Proof.
  intros Hk HM. destruct (curve_extract k) as (p & E1 & E2 & E3 & E4 & E5). unfold hd_fit. cbv zeta. rewrite E1. cbn [bind].
  destruct (post_sigma p) as [sz Sg]. cbn [fst snd] in *. subst sz. rewrite E2, E3. rewrite map_length.
  change (hd_weights (hd_l (curve_cfg "smoothness")) (length [k * 8; k * 0; k * 0])) with (Ok [1; -2; 1]). cbn [bind].
  change (negb (Nat.eqb 3 (length [k * 8; k * 0; k * 0]))) with false. cbn iota.
  change (String.eqb (hd_method (curve_cfg "smoothness")) "smoothness") with true. cbn iota. unfold smooth_bounds.
  change (length [k * 8; k * 0; k * 0]) with 3%nat. rewrite curve_solve by auto. rewrite curve_dot, E5.
  rewrite sqrt_fin by nra. rewrite sqrt_square by lra. unfold flci. cbn [fle]. rewrite (proj2 (Rleb_false (k * 3) 0)) by lra.
  change (hd_alpha (curve_cfg "smoothness")) with (1/2).
  destruct (Rlt_dec 0 (1/2)); [|lra]. destruct (Rlt_dec (1/2) 1); [|lra]. rewrite z1. cbn [bind fst snd].
  eexists. split; [reflexivity|]. cbn [ho_se ho_lb ho_ub ho_ci_lb ho_ci_ub]. unfold fsub. cbn [fmul fneg fadd].
  repeat split; f_equal; ring.
Qed.
Lemma curve_includes k M : 0 < k -> 0 <= M -> includes fm_lp toy_ppf (curve_cfg "smoothness") (curve k) M = Ok (Rleb (k * 5) M).
Proof.
  intros Hk HM. destruct (curve_fit k M Hk HM) as (o & Ho & _ & _ & _ & C1 & C2). unfold includes. rewrite Ho. cbn [bind]. rewrite C1, C2.
  unfold has_zero. cbn [fle]. f_equal. rewrite (proj2 (Rleb_true 0 (k * 8 + M + k * 3))) by lra. rewrite Bool.andb_true_r.
  destruct (Rleb (k * 5) M) eqn:E; [apply Rleb_true in E; apply Rleb_true; lra|apply Rleb_false in E; apply Rleb_false; lra].
Qed.

(* the breakdown value 5 becomes "no breakdown" when the outcome is reported in a unit ten times smaller, although the
   interval at 50 of the new unit contains zero *)
Theorem breakdown_unit_refuted : exists cfg r s,
  hd_method cfg = "smoothness"%string /\ 0 < s /\
  (exists n, forall fuel, (n <= fuel)%nat -> exists b,
     breakdown_value fm_lp toy_ppf fuel cfg r (1/100) = Some (Ok (Some b)) /\ Rabs (b - 5) <= 1/200) /\
  (forall fuel, breakdown_value fm_lp toy_ppf fuel cfg (scale_results s r) (1/100) = Some (Ok None)) /\
  includes fm_lp toy_ppf cfg (scale_results s r) (s * 5) = Ok true.
Proof.
  exists (curve_cfg "smoothness"), (curve 1), 10. split; [reflexivity|]. split; [lra|]. split; [|split].
  - destruct (threshold_search fm_lp toy_ppf (curve_cfg "smoothness") (curve 1) 5 (1/100)) as (n & Hn).
    + intros M HM. rewrite curve_includes by lra. rewrite Rmult_1_l. reflexivity.
    + lra.
    + exists n. intros fuel Hf. destruct (Hn fuel Hf) as (v & E & _ & _ & H). destruct (H ltac:(lra)) as (b & -> & Hb).
      exists b. split; [exact E|]. lra.
  - intros fuel. rewrite curve_scaled. unfold breakdown_value. rewrite !curve_includes by lra.
    rewrite (proj2 (Rleb_false (10 * 1 * 5) 0)) by lra. rewrite (proj2 (Rleb_false (10 * 1 * 5) 10)) by lra. reflexivity.
  - rewrite curve_scaled, curve_includes by lra. rewrite (proj2 (Rleb_true (10 * 1 * 5) (10 * 5))) by lra. reflexivity.
Qed.

(* the default grid of a smoothness analysis is in absolute units as well: significant at every grid point in one unit,
   not at every one in another *)
Theorem default_grid_unit_refuted : exists cfg r s g, hd_method cfg = "smoothness"%string /\ 0 < s /\
  default_grid (hd_method cfg) = g /\
  (forall M, In M g -> includes fm_lp toy_ppf cfg r M = Ok false) /\
  exists M, In M g /\ includes fm_lp toy_ppf cfg (scale_results s r) M = Ok true.
Proof.
  exists (curve_cfg "smoothness"), (curve 1), (1/10), (default_grid "smoothness"). split; [reflexivity|]. split; [lra|]. split; [reflexivity|]. split.
  - intros M HM. cbn in HM.
    assert (B : 0 <= M <= 1) by (repeat (destruct HM as [<-|HM]; [lra|]); destruct HM).
    rewrite curve_includes by lra. rewrite (proj2 (Rleb_false (1 * 5) M)) by lra. reflexivity.
  - exists 1. split; [cbn; intuition auto|]. rewrite curve_scaled, curve_includes by lra.
    rewrite (proj2 (Rleb_true (1/10 * 1 * 5) 1)) by lra. reflexivity.
Qed.

Lemma curve_combined k : 1 <= k -> exists o, hd_fit fm_lp toy_ppf (curve_cfg "combined") (curve k) (Some 1) = Ok o /\
  ho_lb o = Fin (k * 8 - 1) /\ ho_ub o = Fin (k * 8 + 1).
Proof.
  intros Hk. destruct (curve_extract k) as (p & E1 & E2 & E3 & E4 & E5). unfold hd_fit. cbv zeta. rewrite E1. cbn [bind].
  destruct (post_sigma p) as [sz Sg]. cbn [fst snd] in *. subst sz. rewrite E2, E3. rewrite map_length.
  change (hd_weights (hd_l (curve_cfg "combined")) (length [k * 8; k * 0; k * 0])) with (Ok [1; -2; 1]). cbn [bind].
  change (negb (Nat.eqb 3 (length [k * 8; k * 0; k * 0]))) with false. cbn iota.
  change (String.eqb (hd_method (curve_cfg "combined")) "smoothness") with false.
  change (String.eqb (hd_method (curve_cfg "combined")) "relative_magnitude") with false. cbn iota. unfold combined_bounds, smooth_bounds.
  change (length [k * 8; k * 0; k * 0]) with 3%nat. rewrite curve_solve by (auto; lra).
  assert (EM : max_pre (curve k) = Fin (k * 5)) by (cbn; rewrite Rabs_pos_eq by lra; reflexivity).
  unfold rm_bounds, clf_ci. rewrite EM. rewrite fdot_fin, curve_dot, E5. rewrite sqrt_fin by nra. rewrite sqrt_square by lra.
  cbn [feqb]. destruct (Reqb (k * 5) 0) eqn:EZ; [apply Reqb_true in EZ; lra|].
  unfold flci at 1. cbn [fle]. rewrite (proj2 (Rleb_false (k * 3) 0)) by lra.
  change (hd_alpha (curve_cfg "combined")) with (1/2).
  destruct (Rlt_dec 0 (1/2)); [|lra]. destruct (Rlt_dec (1/2) 1); [|lra]. cbn [bind fst snd].
  unfold py_max2, py_min2, fgt, fsub. cbn [fmul fneg fadd flt].
  rewrite (proj2 (Rltb_false (k * 8 - 1) (k * 8 + - (1 * (k * 5))))) by lra.
  rewrite (proj2 (Rltb_false (k * 8 + 1 * (k * 5)) (k * 8 + 1))) by lra. cbn [flt].
  rewrite (proj2 (Rltb_false (k * 8 + 1) (k * 8 - 1))) by lra.
  unfold flci. cbn [fle]. rewrite (proj2 (Rleb_false (k * 3) 0)) by lra.
  destruct (Rlt_dec 0 (1/2)); [|lra]. destruct (Rlt_dec (1/2) 1); [|lra]. cbn [bind fst snd].
  eexists. split; [reflexivity|]. split; reflexivity.
Qed.

(* combined: one M plays both roles, so no choice of M' for the new unit reproduces the bounds of the old one *)
Theorem combined_unit_refuted : exists cfg r s o, hd_method cfg = "combined"%string /\ 0 < s /\
  hd_fit fm_lp toy_ppf cfg r (Some 1) = Ok o /\
  exists o', hd_fit fm_lp toy_ppf cfg (scale_results s r) (Some 1) = Ok o' /\ ho_lb o' <> sc s (ho_lb o) /\ ho_ub o' <> sc s (ho_ub o).
Proof.
  destruct (curve_combined 1 ltac:(lra)) as (o & Ho & L & U). destruct (curve_combined 10 ltac:(lra)) as (o' & Ho' & L' & U').
  exists (curve_cfg "combined"), (curve 1), 10, o. split; [reflexivity|]. split; [lra|]. split; [exact Ho|].
  exists o'. rewrite curve_scaled, Rmult_1_r. split; [exact Ho'|]. rewrite L, L', U, U', !sc_fin. split; intros K; injection K; lra.
Qed.

(* the hypotheses of the positive statements hold here *)
Lemma curve_case : exists o p, hd_fit fm_lp toy_ppf (curve_cfg "smoothness") (curve 1) (Some 1) = Ok o /\
  hd_extract (curve 1) = Ok p /\ post_beta p = map Fin [1 * 8; 1 * 0; 1 * 0] /\
  hd_weights (hd_l (curve_cfg "smoothness")) (length [1 * 8; 1 * 0; 1 * 0]) = Ok [1; -2; 1] /\
  ho_se o = Fin (1 * 3) /\ informative (ep_npre p) [1; -2; 1] /\ norm1 [1; -2; 1] <> 0 /\ ho_lb o = Fin 7 /\ ho_ub o = Fin 9.
Proof.
  destruct (curve_fit 1 1 ltac:(lra) ltac:(lra)) as (o & Ho & S & L & U & _). destruct (curve_extract 1) as (p & E1 & E2 & E3 & _).
  exists o, p. rewrite E3, L, U. repeat split; auto; try apply curve_informative; try apply curve_norm; f_equal; ring.
Qed.

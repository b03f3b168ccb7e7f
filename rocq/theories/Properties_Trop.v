(* Properties of TROP (two-step method). *)
From Verif Require Import Prelude Flt Stats_model Stats_proofs Linalg_model Linalg_thms Multi_model Multi_proofs Trop_model Trop_proofs Trop_thms Trop_conv Trop_rec
  Trop_obj Trop_sel Trop_ex Trop_rows.
From Coq Require Import Arith ZArith String List Permutation.
Import ListNotations.
Open Scope R_scope.

(* C73 *)
Section C73.
Variable svd : svd_fn.
Variable sub : nat -> nat -> list nat.
Variable odd : lam3 -> option R.
Variable sf : option Z -> fl -> fl.
Variable ppf : option Z -> R -> R.
Hypothesis Hsub : sub_ok sub.
Notation fit := (trop_fit svd sub odd sf ppf).
Theorem C73_treated_outcomes cfg T N nobs Y D miss name draws e r :
  fit cfg T N nobs Y D miss name draws = TOk r ->
  exists r', fit cfg T N nobs (add_effect Y D e) D miss name draws = TOk r' /\
    tr_lambda r' = tr_lambda r /\ tr_score r' = tr_score r /\
    tr_n_treated_obs r' = tr_n_treated_obs r /\
    tr_effects r' = map (fun x => (fst x, fadd (snd x) (Fin (e (fst (fst x)) (snd (fst x)))))) (tr_effects r) /\
    tr_att r' = fadd (tr_att r) (Fin (meanf (fun c => e (fst c) (snd c)) (treated_obs T N D))).
Proof. eapply fit_add; eauto. Qed.
Theorem C73_constant_effect cfg T N nobs Y D miss name draws d r :
  fit cfg T N nobs Y D miss name draws = TOk r ->
  exists r', fit cfg T N nobs (add_effect Y D (fun _ _ => d)) D miss name draws = TOk r' /\
    tr_att r' = fadd (tr_att r) (Fin d) /\ tr_se r' = tr_se r.
Proof. eapply fit_add_const; eauto. Qed.
End C73.
Section C73x.
Variables (svd : svd_fn) (odd : lam3 -> option R) (sf : option Z -> fl -> fl) (ppf : option Z -> R -> R) (name : nat -> string) (draws : list (list nat)).
Notation xfit nn := (trop_fit svd sub_first odd sf ppf (xcfg nn) 3 2 6 xY xD xmiss name draws).
Theorem C73_case nn : exists r, xfit nn = TOk r /\ tr_lambda r = (Some 0, Some 0, Some nn) /\
  tr_att r = att_of (effects svd (Some (xY, xD)) 3 2 xY xD 0 0 (Some nn) 100 (/ (10 ^ 6))).
Proof. eapply x_fit; eauto. Qed.
End C73x.
Theorem C73_subsample_case: sub_ok sub_first.
Proof. eapply sub_first_ok; eauto. Qed.
(* C74 *)
Section C74.
Variable svd : svd_fn.
Variable sub : nat -> nat -> list nat.
Variable odd : lam3 -> option R.
Variable sf : option Z -> fl -> fl.
Variable ppf : option Z -> R -> R.
Hypothesis Hsvd : svd_ok svd.
Notation fit := (trop_fit svd sub odd sf ppf).
Theorem C74_recovery_partial cfg T N nobs Y D miss name draws r a b eff A lo hi k :
  trop_fit svd sub odd sf ppf cfg T N nobs Y D miss name draws = TOk r ->
  additive T N Y D a b eff -> (0 < n_full T N Y D)%nat ->
  (forall t i, (t < T)%nat -> (i < N)%nat -> D t i = 1%Z -> has Y t i = true /\ exists s, (s < T)%nat /\ D s i = 0%Z /\ has Y s i = true) ->
  (forall i j, (i < N)%nat -> (j < N)%nat -> Rabs (a i - a j) <= A) -> (forall s, (s < T)%nat -> lo <= b s <= hi) ->
  tc_maxit cfg = S k -> 0 <= tc_tol cfg -> 0 <= conv_w (snd (fst (tr_lambda r))) -> off T N (Some (conv_nn (snd (tr_lambda r)))) (hi - lo) ->
  let d := INR (n_full T N Y D) * exp (- conv_w (snd (fst (tr_lambda r))) * A) / INR N in
  exists x, tr_att r = Fin x /\
    Rabs (x - meanf (fun c => eff (fst c) (snd c)) (treated_obs T N D)) <= Rmax ((1 - d) ^ k * (hi - lo)) (2 * tc_tol cfg / d).
Proof. eapply fit_recovers; eauto. Qed.
Context {I : Type}.
Variables (rows : list I) (u tm : I -> Z) (y : I -> option R) (d : I -> option Z).
Notation rows_additive := (rows_additive rows u tm y d).
Theorem C74_recovery_rows_partial cfg name draws res a b eff A lo hi k :
  trop_fit_rows svd sub odd sf ppf cfg rows u tm y d name draws = TOk res -> rows_additive a b eff ->
  let T := length (t_periods rows tm) in let N := length (t_units rows u) in
  let Y := pY rows u tm y in let D := pD rows u tm d in
  (0 < n_full T N Y D)%nat ->
  (forall t i, (t < T)%nat -> (i < N)%nat -> D t i = 1%Z -> has Y t i = true /\ exists s, (s < T)%nat /\ D s i = 0%Z /\ has Y s i = true) ->
  (forall r s, In r rows -> In s rows -> Rabs (a (u r) - a (u s)) <= A) -> (forall s, In s rows -> lo <= b (tm s) <= hi) ->
  tc_maxit cfg = S k -> 0 <= tc_tol cfg -> 0 <= conv_w (snd (fst (tr_lambda res))) -> off T N (Some (conv_nn (snd (tr_lambda res)))) (hi - lo) ->
  let share := INR (n_full T N Y D) * exp (- conv_w (snd (fst (tr_lambda res))) * A) / INR N in
  exists x, tr_att res = Fin x /\
    Rabs (x - meanf (fun c => match cell_row rows u tm (fst c) (snd c) with Some r => eff r | None => 0 end) (treated_obs T N D))
      <= Rmax ((1 - share) ^ k * (hi - lo)) (2 * tc_tol cfg / share).
Proof. eapply fit_rows_recovers; eauto. Qed.
End C74.
Theorem C74_zero_penalty_bias svd T N Y D lt lu h maxit tol t i a b eff :
  h <= 0 -> additive T N Y D a b eff -> (t < T)%nat -> (i < N)%nat -> D t i = 1%Z -> has Y t i = true ->
  let W := masked Y D None (obs_w (Some (Y, D)) T Y D lt lu i t) in
  let um := unit_mean T W (fun s _ => b s) in
  0 < sumf (fun s => W s i) (seq 0 T) -> 0 < sumf (fun j => W t j) (seq 0 N) ->
  fit_at svd (Some (Y, D)) T N Y D lt lu (Some h) (S maxit) tol None (t, i) =
  Fin (eff t i + (sumf (fun j => W t j * um j) (seq 0 N) / sumf (fun j => W t j) (seq 0 N) - um i)).
Proof. eapply nn0_bias; eauto. Qed.
Section C74x.
Variables (svd : svd_fn) (odd : lam3 -> option R) (sf : option Z -> fl -> fl) (ppf : option Z -> R -> R) (name : nat -> string) (draws : list (list nat)).
Notation xfit nn := (trop_fit svd sub_first odd sf ppf (xcfg nn) 3 2 6 xY xD xmiss name draws).
Theorem C74_case : svd_ok svd -> exists r x, xfit 100 = TOk r /\ tr_att r = Fin x /\ Rabs (x - 3) <= Rmax ((1/2) ^ 99 * 2) (4 / (10 ^ 6)).
Proof. eapply x_recovers; eauto. Qed.
Theorem C74_zero_penalty_refuted : exists r, xfit 0 = TOk r /\ tr_att r = Fin (7/2).
Proof. eapply x_nn0; eauto. Qed.
End C74x.
Theorem C74_svd_case : svd_ok svd_row.
Proof. eapply svd_row_ok; eauto. Qed.
(* C75 *)
Theorem C75_unit_levels_partial svd T N Y D a lt lu h maxit tol ex t i :
  bounded T Y -> (lu = 0 \/ exists c, forall i, a i = c) -> (0 < maxit)%nat ->
  (exists s, (s < T)%nat /\ mask Y D ex s i = true) ->
  ~ stops_at_once svd T N Y D (obs_w (Some (Y, D)) T Y D lt lu i t) h tol ex ->
  ~ stops_at_once svd T N (add_unit Y a) D (obs_w (Some (Y, D)) T Y D lt lu i t) h tol ex ->
  fit_at svd (Some (add_unit Y a, D)) T N (add_unit Y a) D lt lu h maxit tol ex (t, i) =
  fit_at svd (Some (Y, D)) T N Y D lt lu h maxit tol ex (t, i).
Proof. eapply fit_at_unit; eauto. Qed.
Theorem C75_unit_levels_case svd c : 0 <= c -> fit_at svd (Some (add_unit xY (fun _ => c), xD)) 3 2 (add_unit xY (fun _ => c)) xD 0 0 (Some 100) 100 (/ (10 ^ 6)) None (2, 1)%nat =
  fit_at svd (Some (xY, xD)) 3 2 xY xD 0 0 (Some 100) 100 (/ (10 ^ 6)) None (2, 1)%nat.
Proof. eapply x_unit_case; eauto. Qed.
Section C75r.
Context {I : Type}.
Variables (rows rows' : list I) (u tm : I -> Z) (y : I -> option R) (d : I -> option Z).
Hypothesis P : Permutation rows rows'.
Theorem C75_row_order svd sub odd sf ppf cfg name draws :
  trop_fit_rows svd sub odd sf ppf cfg rows u tm y d name draws = trop_fit_rows svd sub odd sf ppf cfg rows' u tm y d name draws.
Proof. eapply fit_rows_perm; eauto. Qed.
End C75r.
(* C76 *)
Section C76.
Variable svd : svd_fn.
Variable sub : nat -> nat -> list nat.
Variable odd : lam3 -> option R.
Variable sf : option Z -> fl -> fl.
Variable ppf : option Z -> R -> R.
Hypothesis Hsub : sub_ok sub.
Notation fit := (trop_fit svd sub odd sf ppf).
Theorem C76_mean_of_cells cfg T N nobs Y D miss name draws r :
  fit cfg T N nobs Y D miss name draws = TOk r ->
  map fst (tr_effects r) = treated_obs T N D /\ tr_att r = fmean (map snd (tr_effects r)) /\
  tr_n_treated_obs r = length (treated_obs T N D) /\ (1 <= tr_n_treated_obs r)%nat /\
  (tr_n_treated r + tr_n_control r = N)%nat /\ (1 <= tr_n_treated r)%nat /\ (1 <= tr_n_control r)%nat /\ (2 <= tr_n_pre r)%nat /\
  ((exists c, In c (treated_obs T N D) /\ has Y (fst c) (snd c) = false) -> tr_att r = NaN) /\
  ((forall c, In c (treated_obs T N D) -> has Y (fst c) (snd c) = true) -> exists a, tr_att r = Fin a).
Proof. eapply fit_effects; eauto. Qed.
End C76.
(* C77 *)
Theorem C77_range T Y D lt lu i t s j : 0 <= lt -> 0 <= lu -> 0 <= obs_w (Some (Y, D)) T Y D lt lu i t s j <= 1.
Proof. eapply weights_range; eauto. Qed.
Theorem C77_shape T Y D lt lu i t : 0 <= lt -> 0 <= lu ->
  obs_w (Some (Y, D)) T Y D lt lu i t t i = 1 /\
  (forall s j, j <> i -> D t j <> 0%Z -> obs_w (Some (Y, D)) T Y D lt lu i t s j = 0) /\
  (forall s s' j, Rabs (INR t - INR s) <= Rabs (INR t - INR s') -> obs_w (Some (Y, D)) T Y D lt lu i t s' j <= obs_w (Some (Y, D)) T Y D lt lu i t s j) /\
  (forall s j k d d', j <> i -> k <> i -> D t j = 0%Z -> D t k = 0%Z -> dist_obs T Y D j i t = Some d -> dist_obs T Y D k i t = Some d' -> d <= d' ->
     obs_w (Some (Y, D)) T Y D lt lu i t s k <= obs_w (Some (Y, D)) T Y D lt lu i t s j).
Proof. eapply weights_shape; eauto. Qed.
Theorem C77_distance T Y D j i t : dist_obs T Y D j i t = dist_obs T Y D i j t /\
  (forall c, dist_obs T (add_time Y c) D j i t = dist_obs T Y D j i t) /\ (forall e, dist_obs T (add_effect Y D e) D j i t = dist_obs T Y D j i t).
Proof. eapply dist_facts; eauto. Qed.
Theorem C77_bootstrap_sample name smp : Permutation (boot_cols name smp) smp.
Proof. eapply boot_cols_perm; eauto. Qed.
Theorem C77_bootstrap_weights_refuted svd : vrep svd (Some (vY, vD)) = Some (Fin 5) /\
  vrep svd (Some (sel_o vY [0; 0; 1]%nat, sel_d vD [0; 0; 1]%nat)) = Some (Fin (5/3)).
Proof. eapply boot_weights; eauto. Qed.
(* C78 *)
Theorem C78_prox svd T N M l h : svd_ok svd -> 0 < h -> svd T N M = Some l ->
  nuc_is T N (soft_svd svd T N M (Some h)) (sumf (psoft h) l) /\
  forall X c, nuc_le T N X c ->
    prox_obj T N M (soft_svd svd T N M (Some h)) h (sumf (psoft h) l) <= prox_obj T N M X h c + len l * (svd_tol * svd_tol / 2).
Proof. eapply soft_svd_prox; eauto. Qed.
Section C78.
Variable svd : svd_fn.
Variables (T N : nat).
Hypothesis Hok : svd_ok svd.
Hypothesis Hlen : svd_len svd.
Hypothesis Htot : forall M, svd T N M <> None.
Notation ssr := (ssr T N).
Theorem C78_descent_partial W Yz h tol k : (forall t i, 0 <= W t i) -> 0 < h -> forall s n, nuc_is T N (tlo s) n ->
  exists n', nuc_is T N (tlo (est_loop svd T N W Yz (Some h) tol k s)) n' /\
    ssr W Yz (est_loop svd T N W Yz (Some h) tol k s) + wmax T N W * h * n' <= ssr W Yz s + wmax T N W * h * n + INR k * (wmax T N W * (10 * slack T N)).
Proof. eapply estimate_mono; eauto. Qed.
End C78.
Theorem C78_svd_row: svd_ok svd_row.
Proof. eapply svd_row_ok; eauto. Qed.
Theorem C78_svd_row_len: svd_len svd_row.
Proof. eapply svd_row_len; eauto. Qed.
Theorem C78_svd_row_total N M : svd_row 1%nat N M <> None.
Proof. eapply svd_row_total; eauto. Qed.
Theorem C78_documented_objective_refuted : exists L, (forall tol, nn_solve svd_row 1 1 (m1 1) (m1 2) (fun _ => 0) (fun _ => 0) (Some 1) tol zmat = L) /\
  exists L', forall c c', nuc_is 1 1 L c -> nuc_is 1 1 L' c' ->
    sumf (fun x => 1 * ((2 - L' (fst x) (snd x)) * (2 - L' (fst x) (snd x)))) (cells 1 1) + 1 * c' <
    sumf (fun x => 1 * ((2 - L (fst x) (snd x)) * (2 - L (fst x) (snd x)))) (cells 1 1) + 1 * c.
Proof. eapply nn_objective; eauto. Qed.
(* C79 *)
Theorem C79_one_dimension score grid : grid <> [] -> let r := uni_search score grid in
  In (fst r) grid /\ (forall v, In v grid -> ole (score (fst r)) (score v)) /\ ole (snd r) (score (fst r)) /\
  (snd r <> None -> snd r = score (fst r)).
Proof. eapply uni_search_best; eauto. Qed.
Section C79.
Variable score : lam -> lam -> lam -> option R.
Variables gt gu gn : list lam.
Hypothesis Hgt : gt <> [].
Hypothesis Hgu : gu <> [].
Hypothesis Hgn : gn <> [].
Notation sc3 := (sc3 score).
Notation in3 := (in3 gt gu gn).
Theorem C79_refinement_partial k : forall prev l, in3 l ->
  in3 (cycling score gt gu gn k prev l) /\ ole (sc3 (cycling score gt gu gn k prev l)) (sc3 l) /\
  ((0 < k)%nat -> forall v, In v gn -> ole (sc3 (cycling score gt gu gn k prev l)) (score (fst (fst (cycling score gt gu gn k prev l))) (snd (fst (cycling score gt gu gn k prev l))) v)).
Proof. eapply cycling_ok; eauto. Qed.
Theorem C79_in_grid : in3 (two_stage score gt gu gn).
Proof. eapply two_stage_in; eauto. Qed.
End C79.
Theorem C79_optimal_refuted : two_stage corner3 [Some 0; Some 1] [Some 0; Some 1] [Some 0] = (Some 0, Some 0, Some 0) /\
  corner3 (Some 0) (Some 0) (Some 0) = Some 1 /\ corner3 (Some 1) (Some 1) (Some 0) = Some 0.
Proof. eapply two_stage_corner; eauto. Qed.
Section C79b.
Variables (svd : svd_fn) (sub : nat -> nat -> list nat) (odd : lam3 -> option R).
Theorem C79_fit_in_grid cfg T N Y D : tc_gt cfg <> [] -> tc_gu cfg <> [] -> tc_gn cfg <> [] ->
  in3 (tc_gt cfg) (tc_gu cfg) (tc_gn cfg) (fst (tune svd sub odd cfg T N Y D)) \/
  tune svd sub odd cfg T N Y D = ((Some 1, Some 1, Some (1/10)), NaN).
Proof. eapply tune_in; eauto. Qed.
Theorem C79_infinite_time_refuted cfg T N Y D : tc_gt cfg = [None] -> loocv_obs sub (tc_maxs cfg) (control_obs T N Y D) <> [] ->
  fst (fst (fst (tune svd sub odd cfg T N Y D))) = None /\
  snd (tune svd sub odd cfg T N Y D) = Fin (sumf (fun c => ysafe Y (fst c) (snd c) * ysafe Y (fst c) (snd c)) (loocv_obs sub (tc_maxs cfg) (control_obs T N Y D))).
Proof. eapply tune_inf_score; eauto. Qed.
End C79b.
(* C80 *)
Theorem C80_iff T N D miss : check_panel T N D miss = TOk tt <->
  (forall i s t, (i < N)%nat -> (s < t)%nat -> (t < T)%nat -> miss s i = false -> miss t i = false -> (D s i <= D t i)%Z) /\
  (exists t i, (t < T)%nat /\ (i < N)%nat /\ D t i = 1%Z) /\
  (exists i, (i < N)%nat /\ forall t, (t < T)%nat -> D t i <> 1%Z) /\
  (forall t i, (t < 2)%nat -> (t < T)%nat -> (i < N)%nat -> D t i <> 1%Z).
Proof. eapply check_panel_iff; eauto. Qed.
Theorem C80_case: check_panel 3 2 xD xmiss = TOk tt.
Proof. eapply x_check; eauto. Qed.
(* C81 *)
Section C81.
Variables (sf : option Z -> fl -> fl) (ppf : option Z -> R -> R).
Hypothesis Hd : dist_ok sf ppf.
Theorem C81_t_p_ci att se n alpha : 0 < se -> 0 < alpha < 1 ->
  let df := Some (Z.max 1 (Z.of_nat n - 1)) in
  let r := trop_inf sf ppf (Fin att) (Fin se) n alpha in
  exists p lo hi, ti_t r = Fin (att / se) /\ ti_p r = Fin p /\ ti_ci r = (Fin lo, Fin hi) /\ lo < att < hi /\
    (p < alpha <-> ppf df (1 - alpha / 2) < Rabs (att / se)) /\
    ((0 < lo \/ hi < 0) <-> ppf None (1 - alpha / 2) < Rabs (att / se)).
Proof. eapply trop_inf_ok; eauto. Qed.
End C81.
Theorem C81_heavy_case : dist_ok heavy_sf heavy_ppf.
Proof. eapply heavy_dist_ok; eauto. Qed.
Theorem C81_agreement_refuted : let r := trop_inf heavy_sf heavy_ppf (Fin 30) (Fin 1) 5 (1/20) in
  exists p lo hi, ti_p r = Fin p /\ ti_ci r = (Fin lo, Fin hi) /\ 0 < lo /\ 1/20 < p.
Proof. eapply trop_inf_disagree; eauto. Qed.
Theorem C81_degenerate x : boot_se [] = Fin 0 /\ boot_se [x] = NaN /\ jack_se [] = Fin 0 /\ jack_se [x] = Fin 0.
Proof. eapply resample_degenerate; eauto. Qed.
Theorem C81_left_out_unit svd T N Y Y' D k lt h maxit tol :
  (forall t i, i <> k -> Y' t i = Y t i) ->
  att_of (effects svd (Some (Y', D)) T N (drop_o Y' k) (drop_d D k) lt 0 h maxit tol) =
  att_of (effects svd (Some (Y, D)) T N (drop_o Y k) (drop_d D k) lt 0 h maxit tol).
Proof. eapply jack_blind; eauto. Qed.
Section C81b.
Variables (svd : svd_fn) (sub : nat -> nat -> list nat) (odd : lam3 -> option R) (sf : option Z -> fl -> fl) (ppf : option Z -> R -> R).
Theorem C81_one_treated_unit cfg T N nobs Y D miss name draws r : tc_boot cfg = false ->
  trop_fit svd sub odd sf ppf cfg T N nobs Y D miss name draws = TOk r -> tr_n_treated r = 1%nat ->
  tr_se r = Fin 0 /\ tr_inf r = {| ti_t := NaN; ti_p := NaN; ti_ci := (NaN, NaN) |}.
Proof. eapply one_treated_jackknife; eauto. Qed.
End C81b.
Print Assumptions C73_treated_outcomes.
Print Assumptions C73_constant_effect.
Print Assumptions C73_case.
Print Assumptions C73_subsample_case.
Print Assumptions C74_recovery_partial.
Print Assumptions C74_recovery_rows_partial.
Print Assumptions C74_zero_penalty_bias.
Print Assumptions C74_case.
Print Assumptions C74_zero_penalty_refuted.
Print Assumptions C74_svd_case.
Print Assumptions C75_unit_levels_partial.
Print Assumptions C75_unit_levels_case.
Print Assumptions C75_row_order.
Print Assumptions C76_mean_of_cells.
Print Assumptions C77_range.
Print Assumptions C77_shape.
Print Assumptions C77_distance.
Print Assumptions C77_bootstrap_sample.
Print Assumptions C77_bootstrap_weights_refuted.
Print Assumptions C78_prox.
Print Assumptions C78_descent_partial.
Print Assumptions C78_svd_row.
Print Assumptions C78_svd_row_len.
Print Assumptions C78_svd_row_total.
Print Assumptions C78_documented_objective_refuted.
Print Assumptions C79_one_dimension.
Print Assumptions C79_refinement_partial.
Print Assumptions C79_in_grid.
Print Assumptions C79_optimal_refuted.
Print Assumptions C79_fit_in_grid.
Print Assumptions C79_infinite_time_refuted.
Print Assumptions C80_iff.
Print Assumptions C80_case.
Print Assumptions C81_t_p_ci.
Print Assumptions C81_heavy_case.
Print Assumptions C81_agreement_refuted.
Print Assumptions C81_degenerate.
Print Assumptions C81_left_out_unit.
Print Assumptions C81_one_treated_unit.

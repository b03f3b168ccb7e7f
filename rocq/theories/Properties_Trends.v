(* Properties of the pre-trend checks and of the result objects: statements only. *)
From Verif Require Import Prelude Flt Stats_model Linalg_thms Multi_model Trends_model Trends_proofs Results_model Results_proofs.
From Coq Require Import Arith ZArith Ascii String List.
Import ListNotations.
Open Scope R_scope.

(* ---- C50: equivalence test ---- *)
Section Tost.
Variables (tsf tcdf : R -> R -> R) (q95 : R -> R).
Hypothesis Ht : t_ok tsf tcdf q95.

(* a verdict is given exactly when each group has two changes and some variance is positive *)
Theorem C50_verdict_defined margin tc cc :
  ts_equivalent (tost tsf tcdf margin tc cc) <> None <->
  (2 <= length tc)%nat /\ (2 <= length cc)%nat /\ (variance 1 tc <> 0 \/ variance 1 cc <> 0).
Proof. exact (tost_defined tsf tcdf margin tc cc). Qed.

(* "equivalent" iff the 90% interval for the mean gap lies inside the margins iff both one-sided tests reject *)
Theorem C50_interval_inside_margins margin tc cc : enough tc cc ->
  let r := tost tsf tcdf margin tc cc in
  let m := match margin with Some m => m | None => 1 / 2 * std 1 (tc ++ cc) end in
  let gap := meanf idR tc - meanf idR cc in
  let se := sqrt (variance 1 tc / len tc + variance 1 cc / len cc) in
  let q := q95 (welch_df tc cc) in
  (ts_equivalent r = Some true <-> - m < gap - q * se /\ gap + q * se < m) /\
  (ts_equivalent r = Some true <-> flt (ts_p_lower r) (Fin (1/20)) = true /\ flt (ts_p_upper r) (Fin (1/20)) = true).
Proof. exact (tost_iff tsf tcdf q95 Ht margin tc cc). Qed.
Theorem C50_reported_statistics margin tc cc : enough tc cc ->
  let r := tost tsf tcdf margin tc cc in
  let m := match margin with Some m => m | None => 1 / 2 * std 1 (tc ++ cc) end in
  let gap := meanf idR tc - meanf idR cc in
  let se := sqrt (variance 1 tc / len tc + variance 1 cc / len cc) in
  let pl := tsf (welch_df tc cc) ((gap + m) / se) in let pu := tcdf (welch_df tc cc) ((gap - m) / se) in
  r = {| ts_mean := Fin gap; ts_se := Fin se; ts_margin := Fin m;
         ts_t_lower := Fin ((gap + m) / se); ts_t_upper := Fin ((gap - m) / se);
         ts_p_lower := Fin pl; ts_p_upper := Fin pu; ts_p := Fin (Rmax pl pu); ts_df := Fin (welch_df tc cc);
         ts_equivalent := Some (Rltb (Rmax pl pu) (1/20)) |}.
Proof. exact (tost_enough tsf tcdf margin tc cc). Qed.
Theorem C50_margin_monotone m m' tc cc : m <= m' ->
  ts_equivalent (tost tsf tcdf (Some m) tc cc) = Some true -> ts_equivalent (tost tsf tcdf (Some m') tc cc) = Some true.
Proof. exact (tost_margin_monotone tsf tcdf q95 Ht m m' tc cc). Qed.
Theorem C50_margin_positive m tc cc :
  ts_equivalent (tost tsf tcdf (Some m) tc cc) = Some true -> 0 < m /\ Rabs (meanf idR tc - meanf idR cc) < m.
Proof. exact (tost_margin_positive tsf tcdf q95 Ht m tc cc). Qed.
Theorem C50_groups_symmetric margin tc cc :
  ts_equivalent (tost tsf tcdf margin cc tc) = ts_equivalent (tost tsf tcdf margin tc cc) /\
  ts_p (tost tsf tcdf margin cc tc) = ts_p (tost tsf tcdf margin tc cc).
Proof. exact (tost_swap tsf tcdf q95 Ht margin tc cc). Qed.
Theorem C50_unit_of_measurement tc cc s c : 0 < s ->
  let f := map (fun x => s * x + c) in
  ts_p (tost tsf tcdf None (f tc) (f cc)) = ts_p (tost tsf tcdf None tc cc) /\
  ts_equivalent (tost tsf tcdf None (f tc) (f cc)) = ts_equivalent (tost tsf tcdf None tc cc) /\
  (forall m, ts_equivalent (tost tsf tcdf (Some (s * m)) (f tc) (f cc)) = ts_equivalent (tost tsf tcdf (Some m) tc cc)).
Proof. exact (tost_scale_invariant tsf tcdf tc cc s c). Qed.
End Tost.
(* Welch-Satterthwaite degrees of freedom *)
Theorem C50_welch_bounds tc cc : enough tc cc ->
  Rmin (len tc - 1) (len cc - 1) <= welch_df tc cc <= len tc + len cc - 2.
Proof. exact (welch_bounds tc cc). Qed.
Example C50_case : t_ok toy_tsf toy_tcdf toy_q /\ enough [0; 1] [0; 2].
Proof.
  split; [exact toy_t_ok|]. split; [auto|]. split; [auto|]. left.
  unfold variance, sumsq_dev, meanf, len, idR; simpl. lra.
Qed.

(* ---- C54: slope test ---- *)
Theorem C54_slope_is_least_squares l : l <> [] -> tvar l <> 0 ->
  sumf (tresid l) l = 0 /\ sumf (fun p => fst p * tresid l p) l = 0.
Proof. exact (slope_is_ols l). Qed.
Theorem C54_trend l : l <> [] ->
  compute_trend l =
  if Nat.ltb (length l) 2 then Ok (NaN, NaN)
  else if Req_EM_T (tvar l) 0 then Ok (NaN, NaN)
  else Ok (Fin (tslope l), fsqrt (fdiv (fdiv (Fin (tssr l)) (Fin (INR (length l) - 2))) (Fin (tvar l)))).
Proof. exact (trend_closed l). Qed.
Theorem C54_levels_and_common_trend_irrelevant sf rows pre (a : Z -> R) b :
  match check_parallel_trends sf rows pre, check_parallel_trends sf (map (shift_rows (fun r => a (tr_g r) + b * IZR (tr_t r))) rows) pre with
  | Ok r, Ok r' => pt_diff r' = pt_diff r /\ pt_diff_se r' = pt_diff_se r /\ pt_t r' = pt_t r /\ pt_p r' = pt_p r /\
                   pt_plausible r' = pt_plausible r
  | Err e, Err e' => e = e'
  | _, _ => False
  end.
Proof. exact (parallel_trends_invariant sf rows pre a b). Qed.
(* exact linear trends are recovered; but no verdict is given, however different they are: refutes
   "unequal trends are declared implausible" *)
Theorem C54_exact_trends_no_verdict_refuted sf rows pre (a c : Z -> R) :
  (forall g, (g = 0 \/ g = 1)%Z -> let l := map (fun r => (IZR (tr_t r), tr_y r)) (group_rows g (pre_select rows pre)) in
     (3 <= length l)%nat /\ tvar l <> 0 /\ (forall p, In p l -> snd p = a g + c g * fst p)) ->
  exists r, check_parallel_trends sf rows pre = Ok r /\
    pt_treated r = Fin (c 1%Z) /\ pt_control r = Fin (c 0%Z) /\ pt_diff r = Fin (c 1%Z - c 0%Z) /\
    pt_diff_se r = Fin 0 /\ pt_plausible r = None.
Proof. exact (parallel_trends_exact sf rows pre a c). Qed.
Definition ex_trend_row (g t : Z) (y : R) : trow := {| tr_u := g; tr_t := t; tr_g := g; tr_y := y |}.
Definition ex_trend_rows : list trow :=
  [ex_trend_row 0 0 0; ex_trend_row 0 1 0; ex_trend_row 0 2 0; ex_trend_row 1 0 0; ex_trend_row 1 1 5; ex_trend_row 1 2 10].
Example C54_case : forall g, (g = 0 \/ g = 1)%Z ->
  let l := map (fun r => (IZR (tr_t r), tr_y r)) (group_rows g (pre_select ex_trend_rows (Some [0; 1; 2]%Z))) in
  (3 <= length l)%nat /\ tvar l <> 0 /\ (forall p, In p l -> snd p = (fun _ => 0) g + (fun g => 5 * IZR g) g * fst p).
Proof.
  intros g [->| ->]; simpl; (split; [auto|]); (split; [unfold tvar, tdev, meanf, len; simpl; lra|]);
    intros p [<-|[<-|[<-|[]]]]; simpl; lra.
Qed.

(* ---- C55: changes and permutation test ---- *)
Theorem C55_unit_effects_differenced (a : Z -> R) pre rows :
  (forall tsf tcdf margin, equivalence_test tsf tcdf true pre margin (map (shift_rows (fun r => a (tr_u r))) rows)
                         = equivalence_test tsf tcdf true pre margin rows) /\
  (forall wd perms thr, check_robust wd perms thr true pre (map (shift_rows (fun r => a (tr_u r))) rows)
                      = check_robust wd perms thr true pre rows).
Proof. exact (tests_ignore_unit_effects a pre rows). Qed.
Theorem C55_group_levels_differenced (a : Z -> R) g rows :
  agg_changes g (map (shift_rows (fun r => a (tr_g r))) rows) = agg_changes g rows.
Proof. exact (group_levels_differenced a g rows). Qed.
Theorem C55_p_value wd perms thr tc cc : (2 <= length tc)%nat -> (2 <= length cc)%nat -> perms <> [] ->
  exists p, rb_p (robust_core wd perms thr tc cc) = Fin p /\ 0 <= p <= 1 /\
    p = INR (length (filter (fun pi => Rleb (wd tc cc) (perm_dist wd tc cc pi)) perms)) / len perms.
Proof. exact (robust_p wd perms thr tc cc). Qed.
Theorem C55_p_positive_with_identity wd perms thr tc cc p : (2 <= length tc)%nat -> (2 <= length cc)%nat ->
  In (seq 0 (length tc + length cc)) perms ->
  rb_p (robust_core wd perms thr tc cc) = Fin p -> / len perms <= p.
Proof. exact (robust_p_identity wd perms thr tc cc p). Qed.
(* the observed assignment is not counted, so a p-value of 0 is reported: refutes p in (0,1] *)
Theorem C55_p_zero_refuted wd n thr : (1 <= n)%nat ->
  (forall a, wd a a = 0) -> 0 < wd [1; 1] [0; 0] ->
  exists perms, length perms = n /\ (forall pi, In pi perms -> Permutation pi (seq 0 4)) /\
    rb_p (robust_core wd perms thr [1; 1] [0; 0]) = Fin 0.
Proof. exact (robust_p_zero_refuted wd n thr). Qed.
Example C55_case : let wd a b := Rabs (meanf idR a - meanf idR b) in (forall a, wd a a = 0) /\ 0 < wd [1; 1] [0; 0].
Proof.
  cbv zeta. split.
  - intros a. rewrite Rminus_diag_eq by reflexivity. apply Rabs_R0.
  - unfold meanf, len, idR; simpl. rewrite Rabs_right; lra.
Qed.

(* ---- C49: reporting ---- *)
Theorem C49_thresholds p :
  get_stars (Fin p) = (if Rlt_dec p (1/1000) then "***" else if Rlt_dec p (1/100) then "**"
                       else if Rlt_dec p (1/20) then "*" else if Rlt_dec p (1/10) then "." else "")%string.
Proof. exact (stars_table p). Qed.
Theorem C49_monotone p q : p <= q -> (rank (get_stars (Fin q)) <= rank (get_stars (Fin p)))%nat.
Proof. exact (stars_monotone p q). Qed.
Theorem C49_significant_iff_star r : rp_alpha r = 1/20 -> rep_significant r = has_star (get_stars (rp_p r)).
Proof. exact (significant_iff_star r). Qed.
Theorem C49_nan r : rp_p r = NaN -> rep_significant r = false /\ get_stars (rp_p r) = ""%string.
Proof. exact (nan_not_significant r). Qed.
Theorem C49_default_label r k : (0 <= k <= 100)%Z -> rp_alpha r = IZR k / 100 ->
  fst (summary_ci None r) = (100 - k)%Z /\ snd (summary_ci None r) = rp_ci r.
Proof. exact (summary_label_whole r k). Qed.
Theorem C49_summary_only_relabels r k : (1 <= k <= 100)%Z -> summary_ci (Some (IZR k / 100)) r = ((100 - k)%Z, rp_ci r).
Proof. exact (summary_alpha_relabels r k). Qed.
(* refuted: the interval labelled 99% is the stored 95% interval *)
Theorem C49_summary_interval_refuted (ppf : R -> R) est se : 0 < se -> ppf (1 - (1/20) / 2) < ppf (1 - (1/100) / 2) ->
  exists r, rp_est r = Fin est /\ rp_se r = Fin se /\
    rp_ci r = (Fin (est - ppf (1 - rp_alpha r / 2) * se), Fin (est + ppf (1 - rp_alpha r / 2) * se)) /\
    fst (summary_ci (Some (1/100)) r) = 99%Z /\
    snd (summary_ci (Some (1/100)) r) <> (Fin (est - ppf (1 - (1/100) / 2) * se), Fin (est + ppf (1 - (1/100) / 2) * se)).
Proof. exact (summary_interval_refuted ppf est se). Qed.
Theorem C49_zero_level_refuted r : summary_ci (Some 0) r = summary_ci None r.
Proof. exact (summary_zero_refuted r). Qed.
Theorem C49_fractional_label_refuted r : fst (summary_ci (Some (1/200)) r) = 99%Z.
Proof. exact (summary_label_truncated_refuted r). Qed.
Theorem C49_period_effect_alpha_refuted :
  exists p alpha, 0 < alpha < 1 /\ period_significant (Fin p) = true /\ flt (Fin p) (Fin alpha) = false.
Proof. exact period_alpha_refuted. Qed.
Theorem C49_get_effect l p : (exists e, get_effect l p = Ok e /\ In e l /\ pe_period e = p) <-> In p (map pe_period l).
Proof. exact (get_effect_ok l p). Qed.
Theorem C49_get_effect_missing l p : get_effect l p = Err KeyError <-> ~ In p (map pe_period l).
Proof. exact (get_effect_missing l p). Qed.
Example C49_case : toy_ppf None (1 - (1/20) / 2) < toy_ppf None (1 - (1/100) / 2).
Proof. unfold toy_ppf. lra. Qed.

Print Assumptions C50_interval_inside_margins.
Print Assumptions C50_margin_monotone.
Print Assumptions C50_groups_symmetric.
Print Assumptions C50_unit_of_measurement.
Print Assumptions C50_welch_bounds.
Print Assumptions C54_levels_and_common_trend_irrelevant.
Print Assumptions C54_exact_trends_no_verdict_refuted.
Print Assumptions C55_unit_effects_differenced.
Print Assumptions C55_p_zero_refuted.
Print Assumptions C49_significant_iff_star.
Print Assumptions C49_summary_interval_refuted.
Print Assumptions C49_get_effect.

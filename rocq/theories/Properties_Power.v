(* Power analysis: statements only. *)
From Verif Require Import Prelude Flt Power_model Power_proofs Power_thms.
From Coq Require Import Arith ZArith String List.
Import ListNotations.
Open Scope R_scope.

Section P.
Variable cdf ppf : R -> R.
Hypothesis Hn : norm_ok cdf ppf.
Notation za := (z_alpha ppf).
Notation zb := (z_beta ppf).
Notation power := (pa_power cdf ppf).
Notation required := (pa_required ppf).
Notation sample_size := (pa_sample_size ppf).
Notation rej := (reject cdf ppf).
Notation reject := (reject cdf ppf).
Notation need := (need ppf).

Theorem C41_power_value cfg e n_t n_c sigma n_pre n_post rho : good n_t n_c n_pre n_post sigma rho ->
  exists r, power cfg e n_t n_c sigma n_pre n_post rho = Ok r /\
    pw_power r = Fin (reject cfg (e / design_se n_t n_c n_pre n_post sigma rho)) /\
    pw_mde r = Fin ((za cfg + zb cfg) * design_se n_t n_c n_pre n_post sigma rho) /\
    pw_effect r = Fin e /\ pw_nt r = n_t /\ pw_nc r = n_c.
Proof. eapply power_ok; eauto. Qed.
Theorem C41_mde_power cfg n_t n_c sigma n_pre n_post rho : cfg_ok cfg -> good n_t n_c n_pre n_post sigma rho -> pa_alt cfg <> Less ->
  exists m r e p, pa_mde ppf cfg n_t n_c sigma n_pre n_post rho = Ok m /\ pw_mde m = Fin e /\ pw_effect m = Fin e /\
    power cfg e n_t n_c sigma n_pre n_post rho = Ok r /\ pw_power r = Fin p /\ pw_mde r = Fin e /\ pa_target cfg <= p /\
    (pa_alt cfg = Greater -> p = pa_target cfg) /\
    (pa_alt cfg = TwoSided -> pa_target cfg < p /\ (pa_alpha cfg / 2 <= pa_target cfg -> 0 <= e /\ p <= pa_target cfg + pa_alpha cfg / 2)).
Proof. eapply mde_power; eauto. Qed.
Theorem C41_mde_less_refuted cfg n_t n_c sigma n_pre n_post rho : cfg_ok cfg -> good n_t n_c n_pre n_post sigma rho -> pa_alt cfg = Less ->
  pa_alpha cfg < pa_target cfg ->
  exists m r r' e p, pa_mde ppf cfg n_t n_c sigma n_pre n_post rho = Ok m /\ pw_mde m = Fin e /\ 0 < e /\ pw_power m = Fin (pa_target cfg) /\
    power cfg e n_t n_c sigma n_pre n_post rho = Ok r /\ pw_power r = Fin p /\ p < pa_alpha cfg /\
    power cfg (- e) n_t n_c sigma n_pre n_post rho = Ok r' /\ pw_power r' = Fin (pa_target cfg).
Proof. eapply mde_less_refuted; eauto. Qed.
Theorem C41_in_effect cfg e e' n_t n_c sigma n_pre n_post rho : cfg_ok cfg -> good n_t n_c n_pre n_post sigma rho ->
  exists r r' p p', power cfg e n_t n_c sigma n_pre n_post rho = Ok r /\ power cfg e' n_t n_c sigma n_pre n_post rho = Ok r' /\
    pw_power r = Fin p /\ pw_power r' = Fin p' /\ 0 < p < 1 /\ (e = 0 -> p = pa_alpha cfg) /\
    match pa_alt cfg with
    | TwoSided => Rabs e < Rabs e' -> p < p'
    | Greater => e < e' -> p < p'
    | Less => e < e' -> p' < p
    end.
Proof. eapply power_in_effect; eauto. Qed.
Theorem C41_in_sample cfg e a b c d sigma n_pre n_post rho : cfg_ok cfg -> good a b n_pre n_post sigma rho ->
  (a <= c)%Z -> (b <= d)%Z -> (a < c \/ b < d)%Z ->
  match pa_alt cfg with TwoSided => e <> 0 | Greater => 0 < e | Less => e < 0 end ->
  exists r r' p p', power cfg e a b sigma n_pre n_post rho = Ok r /\ power cfg e c d sigma n_pre n_post rho = Ok r' /\
    pw_power r = Fin p /\ pw_power r' = Fin p' /\ p < p'.
Proof. eapply power_in_sample; eauto. Qed.
Theorem C41_in_noise cfg e n_t n_c sigma sigma' n_pre n_post rho rho' : cfg_ok cfg ->
  good n_t n_c n_pre n_post sigma rho -> Rabs sigma <= Rabs sigma' -> rho <= rho' ->
  (Rabs sigma < Rabs sigma' \/ ((2 < n_pre + n_post)%Z /\ rho < rho')) ->
  match pa_alt cfg with TwoSided => e <> 0 | Greater => 0 < e | Less => e < 0 end ->
  exists r r' p p', power cfg e n_t n_c sigma n_pre n_post rho = Ok r /\ power cfg e n_t n_c sigma' n_pre n_post rho' = Ok r' /\
    pw_power r = Fin p /\ pw_power r' = Fin p' /\ p' < p.
Proof. eapply power_in_noise; eauto. Qed.
Theorem C41_noiseless cfg effect : effect <> 0 -> 
  pa_power_se cdf ppf cfg effect (Fin 0) = match pa_alt cfg with TwoSided => Fin 1 | Greater => if Rltb 0 effect then Fin 1 else Fin 0 | Less => if Rltb 0 effect then Fin 0 else Fin 1 end.
Proof. eapply noiseless; eauto. Qed.
Theorem C41_bad_correlation_refuted cfg e n_t n_c sigma n_pre n_post rho : (0 < n_t)%Z -> (0 < n_c)%Z -> sigma <> 0 -> (2 < n_pre + n_post)%Z ->
  1 + (IZR (n_pre + n_post) - 1) * rho < 0 ->
  exists r, power cfg e n_t n_c sigma n_pre n_post rho = Ok r /\ pw_power r = NaN /\ pw_mde r = NaN /\ (e <> 0 -> pw_n r = 4%Z).
Proof. eapply bad_correlation; eauto. Qed.
Theorem C41_required_value cfg e sigma n_pre n_post rho f : e <> 0 -> 0 < f < 1 ->
  required cfg e sigma n_pre n_post rho f = Ok (Z.max 4 (ceilZ (need cfg e sigma n_pre n_post rho f))).
Proof. eapply required_eq; eauto. Qed.
Theorem C41_required_zero cfg sigma n_pre n_post rho f : required cfg 0 sigma n_pre n_post rho f = Ok max_n.
Proof. eapply required_zero; eauto. Qed.
Theorem C41_required_monotone cfg e e' sigma sigma' n_pre n_post rho f n n' : e <> 0 -> Rabs e <= Rabs e' -> Rabs sigma' <= Rabs sigma -> 0 < f < 1 ->
  ((2 < n_pre + n_post)%Z -> 0 <= 1 + (IZR (n_pre + n_post) - 1) * rho) ->
  required cfg e sigma n_pre n_post rho f = Ok n -> required cfg e' sigma' n_pre n_post rho f = Ok n' -> (n' <= n)%Z.
Proof. eapply required_monotone; eauto. Qed.
Theorem C41_sample_size_bound cfg e sigma n_pre n_post rho f : e <> 0 -> 0 < f < 1 -> good 1 1 n_pre n_post sigma rho ->
  exists r N m, sample_size cfg e sigma n_pre n_post rho f = Ok r /\ required cfg e sigma n_pre n_post rho f = Ok N /\ pw_mde r = Fin m /\
    kfac n_pre n_post * (m * m) * (IZR (pw_nt r) * IZR (pw_nc r)) <= e * e * (f * (1 - f)) * IZR N * IZR (pw_n r).
Proof. eapply sample_size_bound; eauto. Qed.
Theorem C41_sample_size_balanced cfg e sigma n_pre n_post rho : e <> 0 -> good 1 1 n_pre n_post sigma rho ->
  exists r N m, sample_size cfg e sigma n_pre n_post rho (1/2) = Ok r /\ required cfg e sigma n_pre n_post rho (1/2) = Ok N /\
    pw_n r = N /\ pw_mde r = Fin m /\ (Z.even N = true -> pw_nt r = pw_nc r /\ kfac n_pre n_post * (m * m) <= e * e) /\
    kfac n_pre n_post * (m * m) <= 25/24 * (e * e) /\ (is_panel n_pre n_post = true -> m * m <= e * e).
Proof. eapply sample_size_balanced; eauto. Qed.
Theorem C41_sample_size_refuted cfg : za cfg + zb cfg > 0 ->
  let e := (za cfg + zb cfg) * sqrt (8/5) in
  exists r m, sample_size cfg e 1 1 1 0 (1/2) = Ok r /\ pw_n r = 5%Z /\ pw_mde r = Fin m /\ 0 < e < m.
Proof. eapply sample_size_refuted; eauto. Qed.
Theorem C41_panel_overstated_refuted cfg e sigma n_pre n_post rho N k : e <> 0 -> good 1 1 n_pre n_post sigma rho -> (2 < n_pre + n_post)%Z ->
  required cfg e sigma n_pre n_post rho (1/2) = Ok N -> N = (4 * k)%Z ->
  exists r m, pa_mde ppf cfg k k sigma n_pre n_post rho = Ok r /\ pw_n r = (2 * k)%Z /\ pw_mde r = Fin m /\ m * m <= e * e.
Proof. eapply panel_overstated; eauto. Qed.
Theorem C41_basic_minimal cfg e sigma n_pre n_post rho N k r m : e <> 0 -> sigma <> 0 -> (n_pre + n_post <= 2)%Z ->
  required cfg e sigma n_pre n_post rho (1/2) = Ok N -> (4 < N)%Z -> (0 < k)%Z -> (2 * k < N)%Z ->
  pa_mde ppf cfg k k sigma n_pre n_post rho = Ok r -> pw_mde r = Fin m -> e * e < m * m.
Proof. eapply basic_minimal; eauto. Qed.
Theorem C41_curve_values cfg n_t n_c sigma effects n_pre n_post rho : good n_t n_c n_pre n_post sigma rho ->
  let s := design_se n_t n_c n_pre n_post sigma rho in
  pa_power_curve cdf ppf cfg n_t n_c sigma effects n_pre n_post rho
  = Some (Ok (map (fun e => (e, Fin (rej cfg (e / s))))
      (match effects with Some l => l | None => pa_grid (5/2 * ((za cfg + zb cfg) * s)) 50 end))).
Proof. eapply curve_values; eauto. Qed.
Theorem C41_curve_spans cfg n_t n_c sigma n_pre n_post rho : cfg_ok cfg -> good n_t n_c n_pre n_post sigma rho -> pa_alt cfg <> Less ->
  pa_alpha cfg < pa_target cfg ->
  exists l, pa_power_curve cdf ppf cfg n_t n_c sigma None n_pre n_post rho = Some (Ok l) /\ length l = 50%nat /\
    In (0, Fin (pa_alpha cfg)) l /\ exists e p, In (e, Fin p) l /\ pa_target cfg < p.
Proof. eapply curve_spans; eauto. Qed.
Theorem C41_curve_less_refuted cfg n_t n_c sigma n_pre n_post rho : cfg_ok cfg -> good n_t n_c n_pre n_post sigma rho -> pa_alt cfg = Less ->
  pa_alpha cfg <= pa_target cfg ->
  exists l, pa_power_curve cdf ppf cfg n_t n_c sigma None n_pre n_post rho = Some (Ok l) /\ length l = 50%nat /\
    forall e p, In (e, Fin p) l -> p <= pa_alpha cfg.
Proof. eapply curve_less_refuted; eauto. Qed.
Theorem C41_size_curve_monotone cfg e sigma sizes n_pre n_post rho f l n n' p p' : cfg_ok cfg -> good 1 1 n_pre n_post sigma rho -> 0 <= f <= 1 ->
  match pa_alt cfg with TwoSided => e <> 0 | Greater => 0 < e | Less => e < 0 end ->
  pa_size_curve cdf ppf cfg e sigma sizes n_pre n_post rho f = Ok l -> In (n, p) l -> In (n', p') l -> (0 <= n <= n')%Z ->
  exists q q', p = Fin q /\ p' = Fin q' /\ q <= q'.
Proof. eapply size_curve_monotone; eauto. Qed.
Theorem C41_wrappers n_t n_c sigma pw alpha n_pre n_post rho : good n_t n_c n_pre n_post sigma rho -> 0 < alpha < 1 -> 0 < pw < 1 ->
  exists e p, compute_mde ppf n_t n_c sigma pw alpha n_pre n_post rho = Ok (Fin e) /\
    compute_power cdf ppf e n_t n_c sigma alpha n_pre n_post rho = Ok (Fin p) /\ pw < p.
Proof. eapply wrappers; eauto. Qed.
Theorem C41_wrapper_size effect sigma pw alpha n_pre n_post rho f n : compute_sample_size ppf effect sigma pw alpha n_pre n_post rho f = Ok n ->
  exists r, pa_sample_size ppf {| pa_alpha := alpha; pa_target := pw; pa_alt := TwoSided |} effect sigma n_pre n_post rho f = Ok r /\ n = pw_n r /\ 0 < alpha < 1 /\ 0 < pw < 1.
Proof. eapply wrapper_size; eauto. Qed.
End P.

Theorem C41_init alpha power alt : (exists cfg, pa_init alpha power alt = Ok cfg) <->
  0 < alpha < 1 /\ 0 < power < 1 /\ In alt ["two-sided"; "greater"; "less"]%string.
Proof. eapply init_iff; eauto. Qed.
Theorem C41_variance_basic n_t n_c n_pre n_post sigma rho : (n_pre + n_post <= 2)%Z -> n_t <> 0%Z -> n_c <> 0%Z ->
  pa_variance n_t n_c n_pre n_post sigma rho = Ok (2 * (sigma * sigma) * (1 / IZR n_t + 1 / IZR n_c)).
Proof. eapply variance_basic; eauto. Qed.
Theorem C41_variance_zero n_t n_c n_pre n_post sigma rho : n_t = 0%Z \/ n_c = 0%Z <-> pa_variance n_t n_c n_pre n_post sigma rho = Err ZeroDivisionError.
Proof. eapply variance_zero; eauto. Qed.
Theorem C41_variance_split n_t n_c a b c d sigma rho : (a + b = c + d)%Z ->
  pa_variance n_t n_c a b sigma rho = pa_variance n_t n_c c d sigma rho.
Proof. eapply variance_split; eauto. Qed.
Theorem C41_design_jump_refuted n_t n_c sigma rho v v' : (0 < n_t)%Z -> (0 < n_c)%Z ->
  pa_variance n_t n_c 1 1 sigma rho = Ok v -> pa_variance n_t n_c 1 2 sigma rho = Ok v' -> v' = (1 + 2 * rho) / 6 * v.
Proof. eapply design_jump; eauto. Qed.
Theorem C41_case : exists r, pa_power toy_cdf toy_nppf (toy_cfg Greater) 11 2 2 (1/2) 1 1 0 = Ok r /\ pw_mde r = Fin (11/2 * sqrt (1/2)) /\
  good 2 2 1 1 (1/2) 0 /\ cfg_ok (toy_cfg Greater).
Proof. eapply toy_power_case; eauto. Qed.
Example C41_oracle : norm_ok toy_cdf toy_nppf.
Proof. exact toy_norm_ok. Qed.

Section S.
Context {D : Type}.
Variable gen : R -> Z -> res D.
Variable fit : D -> res obj.
Variable rng : nat -> Z.
Variable ppf : R -> R.
Notation simulate := (simulate_power gen fit rng ppf).
Notation outcome := (outcome gen fit rng).
Notation outcomes := (outcomes gen fit rng).
Theorem C42_share te es n alpha r : simulate te es n alpha = Ok r -> 0 <= ppf (975 / 1000) ->
  let effects := match es with Some l => l | None => [te] end in
  si_effects r = effects /\ length (si_powers r) = length effects /\ In (si_true r) effects /\ (0 < n)%Z /\
  exists k, (k < length effects)%nat /\ si_true r = nth k effects 0 /\
    let rows := outcomes (si_true r) (k * Z.to_nat n) (Z.to_nat n) in
    si_n r = length rows /\ rows <> [] /\ (si_n r <= Z.to_nat n)%nat /\
    si_power r = INR (length (filter (fun x => flt (sr_p x) (Fin alpha)) rows)) / INR (length rows) /\
    0 <= si_power r <= 1 /\ 0 <= fst (si_ci r) <= si_power r /\ si_power r <= snd (si_ci r) <= 1 /\
    si_coverage r = INR (length (filter (covers (si_true r)) rows)) / INR (length rows) /\ 0 <= si_coverage r <= 1 /\
    si_mean r = fmean (map sr_att rows) /\
    (forall i, (i < length effects)%nat -> nth i (si_powers r) 0 =
       INR (length (filter (fun x => flt (sr_p x) (Fin alpha)) (outcomes (nth i effects 0) (i * Z.to_nat n) (Z.to_nat n)))) /
       INR (length (outcomes (nth i effects 0) (i * Z.to_nat n) (Z.to_nat n)))).
Proof. eapply simulate_share; eauto. Qed.
Theorem C42_all_fail te es n alpha : (forall e k, exists d, gen e (rng k) = Ok d) -> n <> 0%Z ->
  (match es with Some l => l <> [] | None => True end) ->
  (forall e k, outcome e k = None) -> simulate te es n alpha = Err RuntimeError.
Proof. eapply simulate_all_fail; eauto. Qed.
Theorem C42_overall_refuted te es n alpha : (forall e k, exists d, gen e (rng k) = Ok d) -> n <> 0%Z ->
  (match es with Some l => l <> [] | None => True end) ->
  (forall d, fit d = Ok obj_overall \/ exists e, fit d = Err e) -> simulate te es n alpha = Err RuntimeError.
Proof. eapply simulate_overall_refuted; eauto. Qed.
Theorem C42_none te es alpha : (match es with Some l => l <> [] | None => True end) -> simulate te es 0 alpha = Err ZeroDivisionError.
Proof. eapply simulate_none; eauto. Qed.
Theorem C42_no_effects te n alpha : simulate te (Some []) n alpha = Err IndexError.
Proof. eapply simulate_no_effects; eauto. Qed.
End S.

Theorem C42_extract_known att se p ci : extract_obj (obj_did att se p ci) = Ok {| sr_att := att; sr_se := se; sr_p := p; sr_lo := fst ci; sr_hi := snd ci |} /\
  extract_obj (obj_mp att se p ci) = Ok {| sr_att := att; sr_se := se; sr_p := p; sr_lo := fst ci; sr_hi := snd ci |} /\
  (p = NaN -> forall alpha, rejected alpha {| sr_att := att; sr_se := se; sr_p := p; sr_lo := fst ci; sr_hi := snd ci |} = false).
Proof. eapply extract_known; eauto. Qed.
Theorem C42_primary_choice effects te : effects <> [] ->
  let k := primary_index effects te in
  (exists e, effects = [e] /\ k = 0%nat) \/
  (Rabs (nth k effects 0 - te) <= 1 / 100000000 + 1 / 100000 * Rabs te /\ forall i, (i < k)%nat -> 1 / 100000000 + 1 / 100000 * Rabs te < Rabs (nth i effects 0 - te)) \/
  (k = (length effects - 1)%nat /\ forall i, (i < length effects)%nat -> 1 / 100000000 + 1 / 100000 * Rabs te < Rabs (nth i effects 0 - te)).
Proof. exact (primary_choice_tol effects te). Qed.
Theorem C42_rejected_monotone a b r : a <= b -> rejected a r = true -> rejected b r = true.
Proof. eapply rejected_monotone; eauto. Qed.
Theorem C42_case : exists r, simulate_power (fun e s => Ok (e, s)) (fun d => if Z.eqb (snd d) 1 then Err ValueError else Ok (obj_did (Fin (fst d)) (Fin 1) (if Z.eqb (snd d) 0 then Fin 0 else Fin 1) (Fin 0, Fin 10)))
    (fun k => Z.of_nat (k mod 3)) (fun _ => 2) 5 None 4 (1/20) = Ok r /\ si_n r = 3%nat /\ si_power r = 2/3 /\ si_coverage r = 1.
Proof. eapply toy_sim_case; eauto. Qed.
Print Assumptions C41_power_value.
Print Assumptions C41_mde_power.
Print Assumptions C41_mde_less_refuted.
Print Assumptions C41_in_effect.
Print Assumptions C41_in_sample.
Print Assumptions C41_in_noise.
Print Assumptions C41_noiseless.
Print Assumptions C41_bad_correlation_refuted.
Print Assumptions C41_required_value.
Print Assumptions C41_required_zero.
Print Assumptions C41_required_monotone.
Print Assumptions C41_sample_size_bound.
Print Assumptions C41_sample_size_balanced.
Print Assumptions C41_sample_size_refuted.
Print Assumptions C41_panel_overstated_refuted.
Print Assumptions C41_basic_minimal.
Print Assumptions C41_curve_values.
Print Assumptions C41_curve_spans.
Print Assumptions C41_curve_less_refuted.
Print Assumptions C41_size_curve_monotone.
Print Assumptions C41_wrappers.
Print Assumptions C41_wrapper_size.
Print Assumptions C41_init.
Print Assumptions C41_variance_basic.
Print Assumptions C41_variance_zero.
Print Assumptions C41_variance_split.
Print Assumptions C41_design_jump_refuted.
Print Assumptions C41_case.
Print Assumptions C42_share.
Print Assumptions C42_all_fail.
Print Assumptions C42_overall_refuted.
Print Assumptions C42_none.
Print Assumptions C42_no_effects.
Print Assumptions C42_extract_known.
Print Assumptions C42_primary_choice.
Print Assumptions C42_rejected_monotone.
Print Assumptions C42_case.

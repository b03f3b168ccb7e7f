(* Generated data and backend choice: statements only. *)
From Verif Require Import Prelude Flt Stats_model Stats_proofs Linalg_model Linalg_proofs Linalg_vcov Linalg_thms Did_model Within_proofs Multi_model Bacon_model
  Staggered_model Staggered_fit Triple_model Triple_fit Sun_model Sun_proofs Sun_inf Sun_ex Power_model Power_thms Diag_model Diag_proofs Diag_ex
  Dgp_model Dgp_proofs Dgp_thms Dgp_event Dgp_more Dgp_stag Dgp_ex.
From Coq Require Import Arith ZArith String List.
Import ListNotations.
Open Scope R_scope.

Section Gen.
Variables (n T : nat) (effect fraction : R) (tp : Z) (fe_sd noise_sd : R) (zu : nat -> R) (ze : nat -> nat -> R).
Notation k := (n_first n fraction).
Theorem C69_did_rows trend rows : generate_did_data n T effect fraction tp fe_sd trend noise_sd zu ze = Ok rows -> panel_shape n T k tp effect rows.
Proof. eapply did_data_shape; eauto. Qed.
Theorem C69_panel_rows parallel violation rows : generate_panel_data n T tp fraction effect parallel violation fe_sd noise_sd zu ze = Ok rows ->
  panel_shape n T k tp effect rows /\ (1 <= tp < Z.of_nat T)%Z.
Proof. eapply panel_data_shape; eauto. Qed.
End Gen.
Theorem C69_balanced n T k tp effect rows : panel_shape n T k tp effect rows ->
  length rows = (n * T)%nat /\ NoDup (map (fun i => (pr_unit i, pr_period i)) rows) /\
  (forall u t, (u < n)%nat -> (t < T)%nat -> exists i, In i rows /\ pr_unit i = u /\ pr_period i = t) /\
  (forall i, In i rows -> (pr_unit i < n)%nat /\ (pr_period i < T)%nat).
Proof. eapply shape_facts; eauto. Qed.
Section Stag.
Variables (n T : nat) (cohorts : option (list Z)) (never_frac effect : R) (dynamic : bool) (growth fe_sd trend noise_sd : R)
  (pick : nat -> nat) (zu : nat -> R) (ze : nat -> nat -> R).
Notation gen := (generate_staggered_data n T cohorts never_frac effect dynamic growth fe_sd trend noise_sd pick zu ze).
Notation cps := (cps T cohorts).
Notation first_of := (first_of n T cohorts never_frac pick).
Notation k := (truncZ (INR n * never_frac)).
Theorem C69_staggered_rows rows : gen = Ok rows ->
  (forall c, In c cps -> (1 <= c < Z.of_nat T)%Z) /\ (0 <= k)%Z /\ ((k < Z.of_nat n)%Z -> cps <> []) /\
  map (fun i => (sg_unit i, sg_period i)) rows = grid n T /\
  (forall i, In i rows -> sg_first i = first_of (sg_unit i) /\ sg_treated i = (Z.ltb 0 (sg_first i) && Z.leb (sg_first i) (Z.of_nat (sg_period i))) /\
     sg_effect i = (if sg_treated i then true_att effect dynamic growth (sg_first i) (Z.of_nat (sg_period i)) else 0) /\
     sg_y i = 10 + fe_sd * zu (sg_unit i) + trend * INR (sg_period i) + sg_effect i + noise_sd * ze (sg_unit i) (sg_period i)).
Proof. eapply stag_inv; eauto. Qed.
Theorem C69_staggered_balanced rows : gen = Ok rows ->
  length rows = (n * T)%nat /\ NoDup (map (fun i => (sg_unit i, sg_period i)) rows) /\
  (forall u t, (u < n)%nat -> (t < T)%nat -> exists i, In i rows /\ sg_unit i = u /\ sg_period i = t) /\
  (forall i j, In i rows -> In j rows -> sg_unit i = sg_unit j -> sg_first i = sg_first j) /\
  (forall i, In i rows -> (sg_unit i < n)%nat /\ (sg_period i < T)%nat /\ (sg_first i = 0 \/ 1 <= sg_first i < Z.of_nat T)%Z) /\
  (forall i, In i rows -> (Z.of_nat (sg_unit i) < k)%Z -> sg_first i = 0%Z) /\
  ((forall j, (pick j < length cps)%nat) -> forall i, In i rows -> (k <= Z.of_nat (sg_unit i))%Z -> In (sg_first i) cps).
Proof. eapply stag_shape; eauto. Qed.
End Stag.
Theorem C69_ddd_rows m effect ge pe te noise_sd addc age educ ze rows : (0 < m)%nat -> generate_ddd_data m effect ge pe te noise_sd addc age educ ze = Ok rows ->
  length rows = (8 * m)%nat /\ forall g p t, exists i, In i rows /\ dr_g i = g /\ dr_p i = p /\ dr_t i = t.
Proof. eapply ddd_data_rows; eauto. Qed.
Theorem C69_did_ok n T effect fraction tp fe_sd trend noise_sd zu ze : 0 <= fe_sd -> 0 <= noise_sd ->
  exists rows, generate_did_data n T effect fraction tp fe_sd trend noise_sd zu ze = Ok rows.
Proof. eapply did_data_ok; eauto. Qed.
Theorem C69_panel_ok n T effect fraction tp fe_sd noise_sd zu ze parallel violation : 0 <= fe_sd -> 0 <= noise_sd -> (1 <= tp < Z.of_nat T)%Z ->
  exists rows, generate_panel_data n T tp fraction effect parallel violation fe_sd noise_sd zu ze = Ok rows.
Proof. eapply panel_data_ok; eauto. Qed.
Theorem C69_panel_errors n T effect fraction tp fe_sd noise_sd zu ze parallel violation : (tp < 1 \/ Z.of_nat T <= tp)%Z ->
  generate_panel_data n T tp fraction effect parallel violation fe_sd noise_sd zu ze = Err ValueError.
Proof. eapply panel_data_errors; eauto. Qed.
Theorem C69_event_ok n n_pre n_post fraction effect fe_sd noise_sd zu ze : 0 <= fe_sd -> 0 <= noise_sd ->
  exists rows, generate_event_study_data n n_pre n_post fraction effect fe_sd noise_sd zu ze = Ok rows.
Proof. eapply event_data_ok; eauto. Qed.
Theorem C69_factor_ok n n_pre n_post n_treated n_factors effect strength shift fe_sd noise_sd zf zl zu ze : 0 <= fe_sd -> 0 <= noise_sd -> (1 <= n_treated <= Z.of_nat n)%Z ->
  exists rows, generate_factor_data n n_pre n_post n_treated n_factors effect strength shift fe_sd noise_sd zf zl zu ze = Ok rows.
Proof. eapply factor_data_ok; eauto. Qed.
Theorem C69_factor_errors n n_pre n_post n_treated n_factors effect strength shift fe_sd noise_sd zf zl zu ze : (n_treated < 1 \/ Z.of_nat n < n_treated)%Z ->
  generate_factor_data n n_pre n_post n_treated n_factors effect strength shift fe_sd noise_sd zf zl zu ze = Err ValueError.
Proof. eapply factor_data_errors; eauto. Qed.
Theorem C69_staggered_errors n T cohorts never_frac effect dynamic growth fe_sd trend noise_sd pick zu ze c : In c cohorts -> (c < 1 \/ Z.of_nat T <= c)%Z ->
  generate_staggered_data n T (Some cohorts) never_frac effect dynamic growth fe_sd trend noise_sd pick zu ze = Err ValueError.
Proof. eapply stag_errors; eauto. Qed.
Theorem C69_staggered_default_ok n T never_frac effect dynamic growth fe_sd trend noise_sd pick zu ze : (3 <= T)%nat -> 0 <= never_frac -> 0 <= fe_sd -> 0 <= noise_sd ->
  exists rows, generate_staggered_data n T None never_frac effect dynamic growth fe_sd trend noise_sd pick zu ze = Ok rows.
Proof. eapply stag_default_ok; eauto. Qed.
Theorem C69_staggered_default_refuted n T never_frac effect dynamic growth fe_sd trend noise_sd pick zu ze : (T <= 2)%nat ->
  generate_staggered_data n T None never_frac effect dynamic growth fe_sd trend noise_sd pick zu ze = Err ValueError.
Proof. eapply stag_default_error; eauto. Qed.
Section P.
Context {K G : Type} (keq : forall x y : K, {x = y} + {x <> y}) (geq : forall x y : G, {x = y} + {x <> y}).
Variable qr : list prow -> list (prow -> R) -> list nat.
Variable lstsq : list prow -> list (prow -> R) -> (prow -> R) -> list R.
Variable inv : list prow -> list (prow -> R) -> option (nat -> nat -> R).
Variable pinv : list prow -> list (prow -> R) -> nat -> nat -> R.
Variable sf : option Z -> fl -> fl.
Variable ppf : option Z -> R -> R.
Hypothesis Hqr : qr_ok qr.
Hypothesis Hls : lstsq_ok lstsq.
Hypothesis Hinv : inv_ok inv.
Notation did_on := (did_on keq geq qr lstsq inv pinv sf ppf).
Notation multi_on := (multi_on keq geq qr lstsq inv sf ppf).
Theorem C70_did n T effect fraction tp fe_sd trend noise_sd zu ze rows cfg :
  let k := n_first n fraction in
  (0 < k < Z.of_nat n)%Z -> (0 < tp < Z.of_nat T)%Z -> generate_did_data n T effect fraction tp fe_sd trend noise_sd zu ze = Ok rows ->
  (forall r, did_on cfg rows = Ok r -> r_att r = Fin (effect + noise_sd * noise_did n T k tp ze)) /\
  ((4 < n * T)%nat -> parse_action (c_action cfg) <> None -> (forall cl, c_cluster cfg = Some cl -> (2 <= length (cl_keys keq rows cl))%nat) ->
   exists r, did_on cfg rows = Ok r).
Proof. eapply did_data_recovery; eauto. Qed.
Theorem C70_event_study n n_pre n_post fraction effect fe_sd noise_sd zu ze rows cfg ref :
  let k := n_first n fraction in let T := (n_pre + n_post)%nat in
  let posts := map Z.of_nat (seq n_pre n_post) in
  (0 < k < Z.of_nat n)%Z -> (0 < n_pre)%nat -> (0 < n_post)%nat ->
  generate_event_study_data n n_pre n_post fraction effect fe_sd noise_sd zu ze = Ok rows ->
  (forall r, multi_on cfg rows posts ref = Ok r ->
     map pe_effect (mp_effects r) = map (fun p => Fin (effect + noise_sd * noise_at n T k n_pre ze p)) posts) /\
  ((1 + T + n_post < n * T)%nat -> (forall p, ref = Some p -> (0 <= p < Z.of_nat T)%Z) ->
   parse_action (c_action cfg) <> None -> (forall cl, c_cluster cfg = Some cl -> (2 <= length (cl_keys keq rows cl))%nat) ->
   exists r, multi_on cfg rows posts ref = Ok r).
Proof. eapply event_data_recovery; eauto. Qed.
Theorem C71_panel_bias n T effect fraction tp fe_sd noise_sd zu ze parallel violation rows cfg :
  let k := n_first n fraction in
  (0 < k < Z.of_nat n)%Z -> generate_panel_data n T tp fraction effect parallel violation fe_sd noise_sd zu ze = Ok rows ->
  (forall r, did_on cfg rows = Ok r -> r_att r = Fin (effect + (if parallel then 0 else violation * (INR T / 2)) + noise_sd * noise_did n T k tp ze)) /\
  ((4 < n * T)%nat -> parse_action (c_action cfg) <> None -> (forall cl, c_cluster cfg = Some cl -> (2 <= length (cl_keys keq rows cl))%nat) ->
   exists r, did_on cfg rows = Ok r).
Proof. eapply panel_data_recovery; eauto. Qed.
End P.
Section F.
Context {K G : Type} (keq : forall x y : K, {x = y} + {x <> y}) (geq : forall x y : G, {x = y} + {x <> y}).
Variable qr : list frow -> list (frow -> R) -> list nat.
Variable lstsq : list frow -> list (frow -> R) -> (frow -> R) -> list R.
Variable inv : list frow -> list (frow -> R) -> option (nat -> nat -> R).
Variable pinv : list frow -> list (frow -> R) -> nat -> nat -> R.
Variable sf : option Z -> fl -> fl.
Variable ppf : option Z -> R -> R.
Hypothesis Hqr : qr_ok qr.
Hypothesis Hls : lstsq_ok lstsq.
Hypothesis Hinv : inv_ok inv.
Notation did_on_factor := (did_on_factor keq geq qr lstsq inv pinv sf ppf).
Theorem C71_factor_bias n n_pre n_post n_treated n_factors effect strength shift fe_sd noise_sd zf zl zu ze rows cfg :
  let T := (n_pre + n_post)%nat in
  let tgap f := gap (fun u => before u n_treated) f (seq 0 n) in                (* treated minus control mean over units *)
  let pgap f := gap (fun t => Nat.leb n_pre t) f (seq 0 T) in                    (* post minus pre mean over periods *)
  (n_treated < Z.of_nat n)%Z -> (0 < n_pre)%nat -> (0 < n_post)%nat ->
  generate_factor_data n n_pre n_post n_treated n_factors effect strength shift fe_sd noise_sd zf zl zu ze = Ok rows ->
  (forall r, did_on_factor cfg n_pre rows = Ok r ->
     r_att r = Fin (effect + strength * sumf (fun j => (shift + tgap (zl j)) * pgap (fun t => zf t j)) (seq 0 n_factors)
                    + noise_sd * noise_did n T n_treated (Z.of_nat n_pre) ze)) /\
  ((4 < n * T)%nat -> parse_action (c_action cfg) <> None -> (forall cl, c_cluster cfg = Some cl -> (2 <= length (cl_keys keq rows cl))%nat) ->
   exists r, did_on_factor cfg n_pre rows = Ok r).
Proof. eapply factor_data_bias; eauto. Qed.
End F.
Section D.
Context {K G : Type} (keq : forall x y : K, {x = y} + {x <> y}) (geq : forall x y : G, {x = y} + {x <> y}).
Variable qr : list drow -> list (drow -> R) -> list nat.
Variable lstsq : list drow -> list (drow -> R) -> (drow -> R) -> list R.
Variable inv : list drow -> list (drow -> R) -> option (nat -> nat -> R).
Variable pinv : list drow -> list (drow -> R) -> nat -> nat -> R.
Variable sf : option Z -> fl -> fl.
Variable ppf : option Z -> R -> R.
Hypothesis Hqr : qr_ok qr.
Hypothesis Hls : lstsq_ok lstsq.
Hypothesis Hinv : inv_ok inv.
Variable logit : list drow -> list (drow -> R) -> (drow -> R) -> option (drow -> R).
Notation ddd_on := (ddd_on keq qr lstsq inv pinv sf ppf logit).
Theorem C70_triple m effect ge pe te noise_sd addc age educ ze rows cfg cl r :
  (0 < m)%nat -> generate_ddd_data m effect ge pe te noise_sd addc age educ ze = Ok rows ->
  (dd_method cfg = "reg" \/ (dd_method cfg = "ipw" /\ dd_trim cfg < 1) \/ (dd_method cfg = "dr" /\ dd_trim cfg <= 1/4))%string ->
  ddd_on cfg cl rows = Ok r ->
  tr_att r = Fin (effect + (if addc then 1/10 * ddd8 dr_age rows + 1/2 * ddd8 dr_educ rows else 0)
                  + noise_sd * ddd8 (fun i => ze (dr_unit i)) rows).
Proof. eapply ddd_data_recovery; eauto. Qed.
End D.
Theorem C70_triple_fits {K} (keq : forall x y : K, {x = y} + {x <> y}) qr lstsq inv pinv sf ppf logit m effect ge pe te noise_sd addc age educ ze rows cfg cl :
  (0 < m)%nat -> generate_ddd_data m effect ge pe te noise_sd addc age educ ze = Ok rows -> dd_method cfg <> "reg"%string ->
  exists r, ddd_on keq qr lstsq inv pinv sf ppf logit cfg cl rows = Ok r.
Proof. eapply ddd_data_fits; eauto. Qed.
Section CS.
Variable qr : list Z -> list (Z -> R) -> list nat.
Variable lstsq : list Z -> list (Z -> R) -> (Z -> R) -> list R.
Variable inv : list Z -> list (Z -> R) -> option (nat -> nat -> R).
Variable logit : list Z -> list Z -> list (Z -> R) -> option (Z -> R).
Variable sf : option Z -> fl -> fl.
Variable ppf : option Z -> R -> R.
Hypothesis Hqr : qr_ok qr.
Hypothesis Hls : lstsq_ok lstsq.
Variables (n T : nat) (cohorts : option (list Z)) (never_frac effect : R) (dynamic : bool) (growth fe_sd trend : R)
  (pick : nat -> nat) (zu : nat -> R) (ze : nat -> nat -> R).
Notation gen := (generate_staggered_data n T cohorts never_frac effect dynamic growth fe_sd trend 0 pick zu ze).
Notation k := (truncZ (INR n * never_frac)).
Notation fo := (first_of n T cohorts never_frac pick).
Notation cs_on := (cs_on qr lstsq inv logit sf ppf).
Theorem C70_staggered_cells rows cfg agg bal ws r e g : gen = Ok rows -> (0 <= cs_anticipation cfg)%Z ->
  cs_on cfg rows agg bal ws = Ok r -> In e (cr_effects r) -> ge_g e = CFin g ->
  (cs_control cfg = "never_treated"%string \/ cs_basemode cfg <> "universal"%string \/ (ge_base e <= ge_t e)%Z) ->
  ge_eff e = Fin (if Z.leb g (ge_t e) then true_att effect dynamic growth g (ge_t e) else 0).
Proof. eapply stag_cs_cells; eauto. Qed.
Theorem C70_staggered_overall rows cfg agg bal ws r : gen = Ok rows -> dynamic = false -> cs_anticipation cfg = 0%Z ->
  cs_on cfg rows agg bal ws = Ok r -> (exists e g, In e (cr_effects r) /\ ge_g e = CFin g /\ (g <= ge_t e)%Z) -> cr_att r = Fin effect.
Proof. eapply stag_cs_overall; eauto. Qed.
Theorem C70_staggered_fits rows cfg agg bal ws a : gen = Ok rows -> cs_anticipation cfg = 0%Z -> (0 < k)%Z ->
  (a < n)%nat -> (0 < fo a)%Z ->
  exists r, cs_on cfg rows agg bal ws = Ok r /\
    forall b p, (b < n)%nat -> (0 < fo b)%Z -> (fo b <= Z.of_nat p)%Z -> (p < T)%nat ->
      exists e, In e (cr_effects r) /\ ge_g e = CFin (fo b) /\ ge_t e = Z.of_nat p /\ ge_base e = (fo b - 1)%Z.
Proof. eapply stag_cs_defined; eauto. Qed.
End CS.
Section SA.
Variable qr : list srow -> list (srow -> R) -> list nat.
Variable lstsq : list srow -> list (srow -> R) -> (srow -> R) -> list R.
Variable inv : list srow -> list (srow -> R) -> option (nat -> nat -> R).
Variable pinv : list srow -> list (srow -> R) -> nat -> nat -> R.
Variable sf : option Z -> fl -> fl.
Variable ppf : option Z -> R -> R.
Hypothesis Hqr : qr_ok qr.
Hypothesis Hls : lstsq_ok lstsq.
Variables (n T : nat) (cohorts : option (list Z)) (never_frac effect : R) (dynamic : bool) (growth fe_sd trend : R)
  (pick : nat -> nat) (zu : nat -> R) (ze : nat -> nat -> R).
Notation gen := (generate_staggered_data n T cohorts never_frac effect dynamic growth fe_sd trend 0 pick zu ze).
Notation sa_on := (sa_on qr lstsq inv pinv sf ppf).
Theorem C70_sun_abraham rows cfg r : gen = Ok rows -> (T <= 21)%nat -> sa_anticipation cfg = 0%Z -> sa_on cfg rows = Ok r ->
  forall g e x, In ((CFin g, e), x) (sa_coh_effects r) -> fst (fst x) = Fin (if Z.leb 0 e then true_att effect dynamic growth g (g + e) else 0).
Proof. eapply stag_sa_effects; eauto. Qed.
End SA.
Theorem C70_staggered_default qr lstsq inv logit sf ppf : qr_ok qr -> lstsq_ok lstsq -> forall n T never_frac effect dynamic growth fe_sd trend pick zu ze cfg agg bal ws,
  (3 <= T)%nat -> 0 <= never_frac -> 0 <= fe_sd -> (0 < truncZ (INR n * never_frac) < Z.of_nat n)%Z -> (forall j, (pick j < length (default_cohorts T))%nat) -> cs_anticipation cfg = 0%Z ->
  exists rows r, generate_staggered_data n T None never_frac effect dynamic growth fe_sd trend 0 pick zu ze = Ok rows /\
    cs_on qr lstsq inv logit sf ppf cfg rows agg bal ws = Ok r /\
    (exists e g, In e (cr_effects r) /\ ge_g e = CFin g /\ (g <= ge_t e)%Z) /\
    (dynamic = false -> cr_att r = Fin effect).
Proof. eapply stag_cs_default; eauto. Qed.
Theorem C70_did_case effect trend zu : exists rows r,
  generate_did_data 4 3 effect (1/2) 1 2 trend 0 zu (fun _ _ => 0) = Ok rows /\ xdid_on rows = Ok r /\ r_att r = Fin effect.
Proof. eapply did_data_case; eauto. Qed.
Theorem C70_event_case effect zu : exists rows r,
  generate_event_study_data 4 2 2 (1/2) effect 2 0 zu (fun _ _ => 0) = Ok rows /\
  multi_on Nat.eq_dec Nat.eq_dec (@gs_dropped prow) (@gs prow) (@gs_inv prow) toy_sf toy_ppf pcfg rows [2; 3]%Z None = Ok r /\
  map pe_effect (mp_effects r) = [Fin effect; Fin effect].
Proof. eapply event_data_case; eauto. Qed.
Theorem C70_triple_case effect ge pe te : exists rows r,
  generate_ddd_data 2 effect ge pe te 0 false (fun _ => 0) (fun _ => 0) (fun _ => 0) = Ok rows /\
  ddd_on Nat.eq_dec (@gs_dropped drow) (@gs drow) (@gs_inv drow) (fun _ _ _ _ => 0) toy_sf toy_ppf (fun _ _ _ => None)
    {| dd_method := "dr"; dd_robust := true; dd_alpha := 5/100; dd_trim := 1/100; dd_action := "warn" |}%string None rows = Ok r /\ tr_att r = Fin effect.
Proof. eapply ddd_data_case; eauto. Qed.
Theorem C70_sun_abraham_case effect growth trend zu : exists rows r,
  generate_staggered_data 4 3 None (1/2) effect true growth 2 trend 0 (fun j => j mod 2)%nat zu (fun _ _ => 0) = Ok rows /\
  sa_on (@gs_dropped srow) (@gs srow) (@gs_inv srow) (fun _ _ _ _ => 0) toy_sf toy_ppf (sa_demo "never_treated" 0) rows = Ok r /\
  map fst (sa_coh_effects r) = [(CFin 1, 0%Z); (CFin 1, 1%Z); (CFin 2, (-2)%Z); (CFin 2, 0%Z)] /\
  forall x, In ((CFin 1, 1%Z), x) (sa_coh_effects r) -> fst (fst x) = Fin (effect * (1 + growth)).
Proof. eapply stag_sa_case; eauto. Qed.
Theorem C71_panel_refuted effect violation zu : violation <> 0 -> exists rows r,
  generate_panel_data 4 4 2 (1/2) effect false violation 2 0 zu (fun _ _ => 0) = Ok rows /\
  (forall i, In i rows -> pr_effect i = if pr_treated i && pr_post i then effect else 0) /\
  xdid_on rows = Ok r /\ r_att r = Fin (effect + 2 * violation) /\ r_att r <> Fin effect.
Proof. eapply panel_data_case; eauto. Qed.
Theorem C71_factor_refuted effect strength shift zu : strength * shift <> 0 -> exists rows r,
  generate_factor_data 4 1 1 2 1 effect strength shift 2 0 (fun t _ => INR t) (fun _ _ => 0) zu (fun _ _ => 0) = Ok rows /\
  did_on_factor Nat.eq_dec Nat.eq_dec (@gs_dropped frow) (@gs frow) (@gs_inv frow) (fun _ _ _ _ => 0) toy_sf toy_ppf pcfg 1 rows = Ok r /\
  r_att r = Fin (effect + strength * shift) /\ r_att r <> Fin effect.
Proof. eapply factor_data_case; eauto. Qed.
Theorem C72_choice env avail :
  (env = Some "python"%string -> backend env avail = Ok (false, false)) /\
  (env = Some "rust"%string -> backend env avail = if avail then Ok (true, true) else Err ImportError) /\
  (env <> Some "python"%string -> env <> Some "rust"%string -> backend env avail = Ok (avail, avail)).
Proof. eapply backend_spec; eauto. Qed.
Theorem C72_unknown_refuted avail : backend (Some "pyhton"%string) avail = Ok (avail, avail).
Proof. apply backend_spec; discriminate. Qed.
Print Assumptions C69_did_rows.
Print Assumptions C69_panel_rows.
Print Assumptions C69_balanced.
Print Assumptions C69_staggered_rows.
Print Assumptions C69_staggered_balanced.
Print Assumptions C69_ddd_rows.
Print Assumptions C69_did_ok.
Print Assumptions C69_panel_ok.
Print Assumptions C69_panel_errors.
Print Assumptions C69_event_ok.
Print Assumptions C69_factor_ok.
Print Assumptions C69_factor_errors.
Print Assumptions C69_staggered_errors.
Print Assumptions C69_staggered_default_ok.
Print Assumptions C69_staggered_default_refuted.
Print Assumptions C70_did.
Print Assumptions C70_event_study.
Print Assumptions C70_triple.
Print Assumptions C70_triple_fits.
Print Assumptions C70_staggered_cells.
Print Assumptions C70_staggered_overall.
Print Assumptions C70_staggered_fits.
Print Assumptions C70_sun_abraham.
Print Assumptions C70_staggered_default.
Print Assumptions C70_did_case.
Print Assumptions C70_event_case.
Print Assumptions C70_triple_case.
Print Assumptions C70_sun_abraham_case.
Print Assumptions C71_panel_bias.
Print Assumptions C71_factor_bias.
Print Assumptions C71_panel_refuted.
Print Assumptions C71_factor_refuted.
Print Assumptions C72_choice.
Print Assumptions C72_unknown_refuted.

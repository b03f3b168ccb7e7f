(* Concrete generated data sets: the hypotheses of the Dgp theorems are met, and the refuted readings. *)
From Verif Require Import Prelude Flt Stats_model Stats_proofs Linalg_model Linalg_proofs Linalg_vcov Linalg_thms Did_model Within_proofs Multi_model Bacon_model
  Staggered_model Staggered_fit Triple_model Triple_fit Sun_model Sun_proofs Sun_inf Sun_ex Power_model Power_thms Diag_model Diag_proofs Diag_ex Dgp_model Dgp_proofs Dgp_thms Dgp_event Dgp_more Dgp_stag.
From Coq Require Import Arith ZArith String List Bool Lia.
Import ListNotations.
Open Scope R_scope.

Lemma truncZ_int z : (0 <= z)%Z -> truncZ (IZR z) = z.
Proof. intros H. pose proof (trunc_nonneg (IZR z) ltac:(apply (IZR_le 0); lia)) as [A B]. rewrite <- plus_IZR in B. apply le_IZR in A. apply lt_IZR in B. lia. Qed.
Lemma n_first_half m : n_first (2 * m) (1/2) = Z.of_nat m.
Proof. unfold n_first. replace (INR (2 * m) * (1/2)) with (IZR (Z.of_nat m)) by (rewrite <- INR_IZR_INZ, mult_INR; simpl; field). apply truncZ_int. lia. Qed.

Lemma Rltb_nonneg r : 0 <= r -> Rltb r 0 = false.
Proof. intros H. unfold Rltb. destruct (Rlt_dec r 0); [lra|reflexivity]. Qed.
Theorem did_data_ok n T effect fraction tp fe_sd trend noise_sd zu ze : 0 <= fe_sd -> 0 <= noise_sd ->
  exists rows, generate_did_data n T effect fraction tp fe_sd trend noise_sd zu ze = Ok rows.
Proof. intros H1 H2. unfold generate_did_data. rewrite !Rltb_nonneg by assumption. cbn. eexists. reflexivity. Qed.
Theorem panel_data_ok n T effect fraction tp fe_sd noise_sd zu ze parallel violation : 0 <= fe_sd -> 0 <= noise_sd -> (1 <= tp < Z.of_nat T)%Z ->
  exists rows, generate_panel_data n T tp fraction effect parallel violation fe_sd noise_sd zu ze = Ok rows.
Proof.
  intros H1 H2 H3. unfold generate_panel_data. rewrite (proj2 (Z.ltb_ge _ _)), (proj2 (Z.leb_gt _ _)), !Rltb_nonneg by (assumption || lia). cbn. eexists. reflexivity.
Qed.
Theorem panel_data_errors n T effect fraction tp fe_sd noise_sd zu ze parallel violation : (tp < 1 \/ Z.of_nat T <= tp)%Z ->
  generate_panel_data n T tp fraction effect parallel violation fe_sd noise_sd zu ze = Err ValueError.
Proof.
  intros H. unfold generate_panel_data. destruct (Z.ltb_spec tp 1); [reflexivity|]. rewrite (proj2 (Z.leb_le _ _)) by lia. reflexivity.
Qed.
Theorem event_data_ok n n_pre n_post fraction effect fe_sd noise_sd zu ze : 0 <= fe_sd -> 0 <= noise_sd ->
  exists rows, generate_event_study_data n n_pre n_post fraction effect fe_sd noise_sd zu ze = Ok rows.
Proof. intros H1 H2. unfold generate_event_study_data. rewrite !Rltb_nonneg by assumption. cbn. eexists. reflexivity. Qed.
Theorem factor_data_ok n n_pre n_post n_treated n_factors effect strength shift fe_sd noise_sd zf zl zu ze : 0 <= fe_sd -> 0 <= noise_sd -> (1 <= n_treated <= Z.of_nat n)%Z ->
  exists rows, generate_factor_data n n_pre n_post n_treated n_factors effect strength shift fe_sd noise_sd zf zl zu ze = Ok rows.
Proof.
  intros H1 H2 H3. unfold generate_factor_data. rewrite (proj2 (Z.ltb_ge _ _)), (proj2 (Z.ltb_ge _ _)), !Rltb_nonneg by (assumption || lia). cbn. eexists. reflexivity.
Qed.
Theorem factor_data_errors n n_pre n_post n_treated n_factors effect strength shift fe_sd noise_sd zf zl zu ze : (n_treated < 1 \/ Z.of_nat n < n_treated)%Z ->
  generate_factor_data n n_pre n_post n_treated n_factors effect strength shift fe_sd noise_sd zf zl zu ze = Err ValueError.
Proof. intros H. unfold generate_factor_data. destruct (Z.ltb_spec (Z.of_nat n) n_treated); [reflexivity|]. rewrite (proj2 (Z.ltb_lt _ _)) by lia. reflexivity. Qed.
Theorem stag_errors n T cohorts never_frac effect dynamic growth fe_sd trend noise_sd pick zu ze c : In c cohorts -> (c < 1 \/ Z.of_nat T <= c)%Z ->
  generate_staggered_data n T (Some cohorts) never_frac effect dynamic growth fe_sd trend noise_sd pick zu ze = Err ValueError.
Proof.
  intros Hc H. unfold generate_staggered_data. rewrite (proj2 (existsb_exists _ cohorts)); [reflexivity|]. exists c. split; [exact Hc|]. apply orb_true_iff.
  destruct H as [H|H]; [left; apply Z.ltb_lt|right; apply Z.leb_le]; exact H.
Qed.

Definition pcfg {I} : did_config I nat := {| c_robust := true; c_cluster := None; c_alpha := 5/100; c_action := "warn"%string |}.
Definition xdid_on := did_on Nat.eq_dec Nat.eq_dec (@gs_dropped prow) (@gs prow) (@gs_inv prow) (fun _ _ _ _ => 0) toy_sf toy_ppf pcfg.

(* the default-style design, no noise: the estimate is the effect *)
Theorem did_data_case effect trend zu : exists rows r,
  generate_did_data 4 3 effect (1/2) 1 2 trend 0 zu (fun _ _ => 0) = Ok rows /\ xdid_on rows = Ok r /\ r_att r = Fin effect.
Proof.
  destruct (did_data_ok 4 3 effect (1/2) 1 2 trend 0 zu (fun _ _ => 0)) as [rows E]; [lra|lra|].
  assert (K : n_first 4 (1/2) = 2%Z) by exact (n_first_half 2).
  destruct (did_data_recovery Nat.eq_dec Nat.eq_dec (@gs_dropped prow) (@gs prow) (@gs_inv prow) (fun _ _ _ _ => 0) toy_sf toy_ppf (@gs_dropped_ok prow) (@gs_ok prow) (@gs_inv_ok prow)
    4 3 effect (1/2) 1 2 trend 0 zu (fun _ _ => 0) rows pcfg) as [A B]; [rewrite K; lia|lia|exact E|].
  destruct B as [r Hr]; [lia|discriminate|discriminate|]. exists rows, r. split; [exact E|]. split; [exact Hr|]. rewrite (A r Hr). f_equal. ring.
Qed.
(* a violation of parallel trends continues after treatment: the generated true_effect column says [effect],
   the 2x2 estimate is [effect + violation * T / 2] *)
Theorem panel_data_case effect violation zu : violation <> 0 -> exists rows r,
  generate_panel_data 4 4 2 (1/2) effect false violation 2 0 zu (fun _ _ => 0) = Ok rows /\
  (forall i, In i rows -> pr_effect i = if pr_treated i && pr_post i then effect else 0) /\
  xdid_on rows = Ok r /\ r_att r = Fin (effect + 2 * violation) /\ r_att r <> Fin effect.
Proof.
  intros Hv. destruct (panel_data_ok 4 4 effect (1/2) 2 2 0 zu (fun _ _ => 0) false violation) as [rows E]; [lra|lra|cbn; lia|].
  assert (K : n_first 4 (1/2) = 2%Z) by exact (n_first_half 2).
  destruct (panel_data_recovery Nat.eq_dec Nat.eq_dec (@gs_dropped prow) (@gs prow) (@gs_inv prow) (fun _ _ _ _ => 0) toy_sf toy_ppf (@gs_dropped_ok prow) (@gs_ok prow) (@gs_inv_ok prow)
    4 4 effect (1/2) 2 2 0 zu (fun _ _ => 0) false violation rows pcfg) as [A B]; [rewrite K; lia|exact E|].
  destruct B as [r Hr]; [lia|discriminate|discriminate|].
  assert (At : r_att r = Fin (effect + 2 * violation)) by (rewrite (A r Hr); f_equal; simpl INR; field).
  exists rows, r. split; [exact E|]. split.
  { intros i Hi. pose proof (panel_data_shape _ _ _ _ _ _ _ _ _ _ _ _ E) as [[_ S] _]. destruct (S i Hi) as (_ & _ & _ & X). exact X. }
  split; [exact Hr|]. split; [exact At|]. rewrite At. intros C. injection C as C. lra.
Qed.
Theorem event_data_case effect zu : exists rows r,
  generate_event_study_data 4 2 2 (1/2) effect 2 0 zu (fun _ _ => 0) = Ok rows /\
  multi_on Nat.eq_dec Nat.eq_dec (@gs_dropped prow) (@gs prow) (@gs_inv prow) toy_sf toy_ppf pcfg rows [2; 3]%Z None = Ok r /\
  map pe_effect (mp_effects r) = [Fin effect; Fin effect].
Proof.
  destruct (event_data_ok 4 2 2 (1/2) effect 2 0 zu (fun _ _ => 0)) as [rows E]; [lra|lra|].
  assert (K : n_first 4 (1/2) = 2%Z) by exact (n_first_half 2).
  destruct (event_data_recovery Nat.eq_dec Nat.eq_dec (@gs_dropped prow) (@gs prow) (@gs_inv prow) toy_sf toy_ppf (@gs_dropped_ok prow) (@gs_ok prow) (@gs_inv_ok prow)
    4 2 2 (1/2) effect 2 0 zu (fun _ _ => 0) rows pcfg None) as [A B]; [rewrite K; lia|lia|lia|exact E|].
  destruct B as [r Hr]; [lia|discriminate|discriminate|discriminate|]. exists rows, r. split; [exact E|]. split; [exact Hr|]. rewrite (A r Hr). cbn [map seq]. f_equal; [f_equal; ring|f_equal; f_equal; ring].
Qed.
(* one factor with a post-period shift: the 2x2 estimate misses the effect, with no noise at all *)
Theorem factor_data_case effect strength shift zu : strength * shift <> 0 -> exists rows r,
  generate_factor_data 4 1 1 2 1 effect strength shift 2 0 (fun t _ => INR t) (fun _ _ => 0) zu (fun _ _ => 0) = Ok rows /\
  did_on_factor Nat.eq_dec Nat.eq_dec (@gs_dropped frow) (@gs frow) (@gs_inv frow) (fun _ _ _ _ => 0) toy_sf toy_ppf pcfg 1 rows = Ok r /\
  r_att r = Fin (effect + strength * shift) /\ r_att r <> Fin effect.
Proof.
  intros Hs. destruct (factor_data_ok 4 1 1 2 1 effect strength shift 2 0 (fun t _ => INR t) (fun _ _ => 0) zu (fun _ _ => 0)) as [rows E]; [lra|lra|cbn; lia|].
  destruct (factor_data_bias Nat.eq_dec Nat.eq_dec (@gs_dropped frow) (@gs frow) (@gs_inv frow) (fun _ _ _ _ => 0) toy_sf toy_ppf (@gs_dropped_ok frow) (@gs_ok frow) (@gs_inv_ok frow)
    4 1 1 2 1 effect strength shift 2 0 (fun t _ => INR t) (fun _ _ => 0) zu (fun _ _ => 0) rows pcfg) as [A B]; [cbn; lia|lia|lia|exact E|].
  destruct B as [r Hr]; [lia|discriminate|discriminate|].
  assert (At : r_att r = Fin (effect + strength * shift)).
  { rewrite (A r Hr). f_equal. cbn. unfold gap, meanf, len. cbn. lra. }
  exists rows, r. split; [exact E|]. split; [exact Hr|]. split; [exact At|]. rewrite At. intros C. injection C as C. lra.
Qed.
(* a default staggered design: the fit exists, and with constant effects the overall estimate is the effect *)
Theorem stag_cs_default qr lstsq inv logit sf ppf : qr_ok qr -> lstsq_ok lstsq -> forall n T never_frac effect dynamic growth fe_sd trend pick zu ze cfg agg bal ws,
  (3 <= T)%nat -> 0 <= never_frac -> 0 <= fe_sd -> (0 < truncZ (INR n * never_frac) < Z.of_nat n)%Z -> (forall j, (pick j < length (default_cohorts T))%nat) -> cs_anticipation cfg = 0%Z ->
  exists rows r, generate_staggered_data n T None never_frac effect dynamic growth fe_sd trend 0 pick zu ze = Ok rows /\
    cs_on qr lstsq inv logit sf ppf cfg rows agg bal ws = Ok r /\
    (exists e g, In e (cr_effects r) /\ ge_g e = CFin g /\ (g <= ge_t e)%Z) /\
    (dynamic = false -> cr_att r = Fin effect).
Proof.
  intros Hqr Hls n T never_frac effect dynamic growth fe_sd trend pick zu ze cfg agg bal ws HT Hf Hs Hk Hp Ha.
  destruct (stag_default_ok n T never_frac effect dynamic growth fe_sd trend 0 pick zu ze HT Hf Hs ltac:(lra)) as [rows E].
  set (a := (n - 1)%nat). assert (Han : (a < n)%nat) by (unfold a; lia).
  destruct (stag_shape _ _ _ _ _ _ _ _ _ _ _ _ _ rows E) as (_ & _ & _ & _ & _ & _ & Hc).
  assert (Fa : first_of n T None never_frac pick a = nth (pick (a - Z.to_nat (truncZ (INR n * never_frac)))%nat) (default_cohorts T) 0%Z).
  { unfold first_of, Dgp_model.before. rewrite (proj2 (Z.ltb_ge _ _)) by (unfold a; lia). reflexivity. }
  assert (Hin : In (first_of n T None never_frac pick a) (default_cohorts T)) by (rewrite Fa; apply nth_In, Hp).
  destruct (stag_inv _ _ _ _ _ _ _ _ _ _ _ _ _ rows E) as (Rg & _). pose proof (Rg _ Hin) as Rng.
  destruct (stag_cs_defined qr lstsq inv logit sf ppf n T None never_frac effect dynamic growth fe_sd trend pick zu ze rows cfg agg bal ws a E Ha (proj1 Hk) Han ltac:(lia)) as (r & Hr & Cells).
  assert (X : exists e g, In e (cr_effects r) /\ ge_g e = CFin g /\ (g <= ge_t e)%Z).
  { destruct (Cells a (Z.to_nat (first_of n T None never_frac pick a)) Han) as (e & He & Eg & Et & _); [lia|lia|lia|].
    exists e, (first_of n T None never_frac pick a). rewrite Et. split; [exact He|]. split; [exact Eg|lia]. }
  exists rows, r. split; [exact E|]. split; [exact Hr|]. split; [exact X|]. intros Hd.
  exact (stag_cs_overall qr lstsq inv logit sf ppf Hqr Hls n T None never_frac effect dynamic growth fe_sd trend pick zu ze rows cfg agg bal ws r E Hd Ha Hr X).
Qed.
Lemma Ok_inj {A} (a b : A) : Ok a = Ok b -> a = b.
Proof. intros E. injection E. auto. Qed.
(* generated triple-difference data always passes validation *)
Lemma ddd_data_rows m effect ge pe te noise_sd addc age educ ze rows : (0 < m)%nat -> generate_ddd_data m effect ge pe te noise_sd addc age educ ze = Ok rows ->
  length rows = (8 * m)%nat /\ forall g p t, exists i, In i rows /\ dr_g i = g /\ dr_p i = p /\ dr_t i = t.
Proof.
  intros Hm. unfold generate_ddd_data. destruct (Rltb noise_sd 0 && _); [discriminate|]. intros E. apply Ok_inj in E. subst rows. split.
  - rewrite map_length, prod_length, seq_length. reflexivity.
  - intros g p t. set (mk := fun x : bool * bool * bool * nat => _). exists (mk (g, p, t, 0%nat)). split; [|cbn; auto].
    apply in_map. apply in_prod; [destruct g, p, t; cbn; tauto|apply in_seq; lia].
Qed.
Theorem ddd_data_fits {K} (keq : forall x y : K, {x = y} + {x <> y}) qr lstsq inv pinv sf ppf logit m effect ge pe te noise_sd addc age educ ze rows cfg cl :
  (0 < m)%nat -> generate_ddd_data m effect ge pe te noise_sd addc age educ ze = Ok rows -> dd_method cfg <> "reg"%string ->
  exists r, ddd_on keq qr lstsq inv pinv sf ppf logit cfg cl rows = Ok r.
Proof.
  intros Hm E Hr. destruct (ddd_data_rows _ _ _ _ _ _ _ _ _ _ _ Hm E) as [_ Rw]. apply valid_fits; [|exact Hr].
  unfold ddd_validate. cbv zeta.
  assert (Na : forall l : list (drow -> option R), (forall x, In x l -> forall i, x i <> None) -> existsb (fun x => existsb (fun i => o_isna (x i)) rows) l = false).
  { intros l Hl. apply Bool.not_true_is_false. intros X. apply existsb_exists in X as (x & Hx & X). apply existsb_exists in X as (i & _ & X). specialize (Hl x Hx i). destruct (x i); [discriminate|congruence]. }
  rewrite Na. 2:{ intros x [<-|[<-|[<-|[<-|[]]]]] i; discriminate. }
  assert (Bc : forall b : drow -> bool, (exists i, In i rows /\ b i = true) -> (exists i, In i rows /\ b i = false) -> bin_col rows (fun i => Triple_model.oR (Some (ind (b i)))) = true).
  { intros b (i1 & H1 & E1) (i0 & H0 & E0). unfold bin_col. change 0 with (ind false). change 1 with (ind true). rewrite !andb_true_iff. repeat split.
    - apply forallb_forall. intros i _. cbn [Triple_model.oR]. rewrite !Reqb_ind. destruct (b i); reflexivity.
    - apply existsb_exists. exists i0. split; [exact H0|]. cbn [Triple_model.oR]. rewrite Reqb_ind, E0. reflexivity.
    - apply existsb_exists. exists i1. split; [exact H1|]. cbn [Triple_model.oR]. rewrite Reqb_ind, E1. reflexivity. }
  cbn [forallb]. rewrite !Bc.
  2-7: first [solve [destruct (Rw true true true) as (i & Hi & ? & ? & ?); exists i; auto] | solve [destruct (Rw false false false) as (i & Hi & ? & ? & ?); exists i; auto]].
  cbn [andb negb].
  assert (Ce : existsb (fun c => let '(g, p, t) := c in Nat.eqb (length (cell8 rows (fun i => Triple_model.oR (Some (ind (dr_g i)))) (fun i => Triple_model.oR (Some (ind (dr_p i)))) (fun i => Triple_model.oR (Some (ind (dr_t i)))) g p t)) 0) all_cells = false).
  { assert (L : forall g p t, Nat.eqb (length (cell8 rows (fun i => Triple_model.oR (Some (ind (dr_g i)))) (fun i => Triple_model.oR (Some (ind (dr_p i)))) (fun i => Triple_model.oR (Some (ind (dr_t i)))) (ind g) (ind p) (ind t))) 0 = false).
    { intros g p t. destruct (Rw g p t) as (i & Hi & Eg & Ep & Et). apply Nat.eqb_neq. intros X. apply length_zero_iff_nil in X. revert X. apply (in_filter_ne _ _ i Hi).
      cbn [Triple_model.oR]. rewrite !Reqb_ind, Eg, Ep, Et, !Bool.eqb_reflx. reflexivity. }
    unfold all_cells. change 1 with (ind true). change 0 with (ind false). cbn [existsb]. rewrite !L. reflexivity. }
  rewrite Ce. reflexivity.
Qed.
Theorem ddd_data_case effect ge pe te : exists rows r,
  generate_ddd_data 2 effect ge pe te 0 false (fun _ => 0) (fun _ => 0) (fun _ => 0) = Ok rows /\
  ddd_on Nat.eq_dec (@gs_dropped drow) (@gs drow) (@gs_inv drow) (fun _ _ _ _ => 0) toy_sf toy_ppf (fun _ _ _ => None)
    {| dd_method := "dr"; dd_robust := true; dd_alpha := 5/100; dd_trim := 1/100; dd_action := "warn" |}%string None rows = Ok r /\ tr_att r = Fin effect.
Proof.
  assert (E : exists rows, generate_ddd_data 2 effect ge pe te 0 false (fun _ => 0) (fun _ => 0) (fun _ => 0) = Ok rows).
  { unfold generate_ddd_data. rewrite Rltb_nonneg by lra. eexists. reflexivity. }
  destruct E as [rows E]. set (cfg := Build_ddd_config _ _ _ _ _).
  destruct (ddd_data_fits Nat.eq_dec (@gs_dropped drow) (@gs drow) (@gs_inv drow) (fun _ _ _ _ => 0) toy_sf toy_ppf (fun _ _ _ => None) 2 effect ge pe te 0 false (fun _ => 0) (fun _ => 0) (fun _ => 0) rows cfg None ltac:(lia) E) as [r Hr]; [discriminate|].
  exists rows, r. split; [exact E|]. split; [exact Hr|].
  rewrite (ddd_data_recovery Nat.eq_dec (@gs_dropped drow) (@gs drow) (@gs_inv drow) (fun _ _ _ _ => 0) toy_sf toy_ppf (fun _ _ _ => None) (@gs_dropped_ok drow) (@gs_ok drow) 2 effect ge pe te 0 false (fun _ => 0) (fun _ => 0) (fun _ => 0) rows cfg None r ltac:(lia) E); [f_equal; ring|right; right; cbn; split; [reflexivity|lra]|exact Hr].
Qed.
(* Sun-Abraham on a small default design *)
Theorem stag_sa_case effect growth trend zu : exists rows r,
  generate_staggered_data 4 3 None (1/2) effect true growth 2 trend 0 (fun j => j mod 2)%nat zu (fun _ _ => 0) = Ok rows /\
  sa_on (@gs_dropped srow) (@gs srow) (@gs_inv srow) (fun _ _ _ _ => 0) toy_sf toy_ppf (sa_demo "never_treated" 0) rows = Ok r /\
  map fst (sa_coh_effects r) = [(CFin 1, 0%Z); (CFin 1, 1%Z); (CFin 2, (-2)%Z); (CFin 2, 0%Z)] /\
  forall x, In ((CFin 1, 1%Z), x) (sa_coh_effects r) -> fst (fst x) = Fin (effect * (1 + growth)).
Proof.
  destruct (stag_default_ok 4 3 (1/2) effect true growth 2 trend 0 (fun j => j mod 2)%nat zu (fun _ _ => 0)) as [rows E]; [lia|lra|lra|lra|].
  assert (K : truncZ (INR 4 * (1/2)) = 2%Z) by exact (n_first_half 2).
  assert (RE : exists y : nat * nat -> R, exists e : nat * nat -> R, rows = map (fun ut => let '(u, t) := ut in
     mk_srow u t (y ut) (nth u [0; 0; 1; 2]%Z 0%Z) (Z.ltb 0 (nth u [0; 0; 1; 2]%Z 0%Z) && Z.leb (nth u [0; 0; 1; 2]%Z 0%Z) (Z.of_nat t)) (e ut)) (grid 4 3)).
  { pose proof E as E'. unfold generate_staggered_data in E'. rewrite K in E'. rewrite !Rltb_nonneg in E' by lra. cbn [default_cohorts existsb Z.ltb] in E'.
    match type of E' with (if ?b then _ else _) = _ => change b with false in E' end. cbv iota in E'.
    match type of E' with (if ?b then _ else _) = _ => change b with false in E' end. cbv iota in E'.
    match type of E' with (if ?b then _ else _) = _ => change b with false in E' end. cbv iota in E'. cbn [andb] in E'. apply Ok_inj in E'. rewrite <- E'.
    set (mk := fun ut : nat * nat => _). exists (fun ut => sg_y (mk ut)), (fun ut => sg_effect (mk ut)). apply map_ext_in. intros [u t] Hu. apply in_prod_iff in Hu as [Hu _]. apply in_seq in Hu.
    destruct u as [|[|[|[|u]]]]; [reflexivity|reflexivity|reflexivity|reflexivity|lia]. }
  destruct RE as (y & e & ER).
  destruct (fit_succeeds (@gs_dropped srow) (@gs srow) (@gs_inv srow) (fun _ _ _ _ => 0) toy_sf toy_ppf (@gs_dropped_ok srow) (@gs_inv_ok srow)
    (fun i => Z.of_nat (sg_unit i)) (fun i => Z.of_nat (sg_period i)) (fun i => CFin (sg_first i)) sg_y [] None (sa_demo "never_treated" 0) rows) as (r & Hr & Hk).
  - rewrite ER. vm_compute. discriminate.
  - left. reflexivity.
  - rewrite ER. vm_compute. discriminate.
  - rewrite ER. vm_compute. lia.
  - rewrite ER. vm_compute. lia.
  - set (d0 := mk_srow 0 0 0 0%Z false 0). apply (sa_cols_nonzero _ _ _ _ [] _ (CFin 1, 0%Z) (nth 7 rows d0) (nth 6 rows d0) (nth 1 rows d0) (nth 0 rows d0)); rewrite ER; try reflexivity; vm_compute; auto 30.
  - exists rows, r. split; [exact E|]. split; [exact Hr|]. split; [rewrite Hk, ER; vm_compute; reflexivity|].
    intros x Hx. rewrite (stag_sa_effects (@gs_dropped srow) (@gs srow) (@gs_inv srow) (fun _ _ _ _ => 0) toy_sf toy_ppf (@gs_dropped_ok srow) (@gs_ok srow)
      4 3 None (1/2) effect true growth 2 trend (fun j => j mod 2)%nat zu (fun _ _ => 0) rows (sa_demo "never_treated" 0) r E ltac:(lia) eq_refl Hr 1 1 x Hx).
    cbn [Z.leb Z.compare]. unfold true_att. f_equal. replace (IZR (1 + 1) - IZR 1) with 1 by (rewrite plus_IZR; ring). ring.
Qed.

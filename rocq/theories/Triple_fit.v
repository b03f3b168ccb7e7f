(* Theorems about TripleDifference.fit as a whole. *)
From Verif Require Import Prelude Flt Stats_model Stats_proofs Linalg_model Linalg_proofs Linalg_vcov Linalg_thms
  Did_model Did_spec Did_proofs Multi_model Triple_model Triple_proofs Triple_thms Staggered_more.
From Coq Require Import Arith ZArith String List Permutation.
Import ListNotations.
Open Scope R_scope.

Section Fit.
Context {I K : Type} (keq : forall x y : K, {x = y} + {x <> y}).
Variable qr : list I -> list (I -> R) -> list nat.
Variable lstsq : list I -> list (I -> R) -> (I -> R) -> list R.
Variable inv : list I -> list (I -> R) -> option (nat -> nat -> R).
Variable pinv : list I -> list (I -> R) -> nat -> nat -> R.
Variable sf : option Z -> fl -> fl.
Variable ppf : option Z -> R -> R.
Variable logit : list I -> list (I -> R) -> (I -> R) -> option (I -> R).
Notation fit := (ddd_fit keq qr lstsq inv pinv sf ppf logit).
Notation f x := (fun i => oR (x i)).

Definition ddd_est (cfg : ddd_config) (rows : list I) (y G P T : I -> R) (X : list (I -> R)) : res ddd_out :=
  if String.eqb (dd_method cfg) "reg" then ddd_reg keq qr lstsq inv pinv sf ppf cfg rows y G P T X
  else if String.eqb (dd_method cfg) "ipw" then Ok (ddd_ipw logit cfg rows y G P T X)
  else Ok (ddd_dr keq qr lstsq inv logit cfg rows y G P T X).

Definition ddd_df (n k : nat) : Z := Z.max (Z.of_nat n - 8 - Z.of_nat k) 1.

Lemma fit_inv cfg cl rows y G P T covs r : fit cfg cl rows y G P T covs = Ok r ->
  ddd_validate rows y G P T covs = Ok tt /\
  exists out, ddd_est cfg rows (f y) (f G) (f P) (f T) (map (fun c => f c) covs) = Ok out /\
    tr_att r = do_att out /\ tr_se r = do_se out /\ tr_r2 r = do_r2 out /\
    tr_t r = (if fgt (do_se out) (Fin 0) then fdiv (do_att out) (do_se out) else Fin 0) /\
    tr_p r = u_p_value sf (tr_t r) (Some (ddd_df (length rows) (length covs))) /\
    tr_ci r = u_ci ppf (do_att out) (do_se out) (dd_alpha cfg) (Some (ddd_df (length rows) (length covs))) /\
    tr_n_obs r = length rows /\
    tr_n r = (let n4 g p := length (cell4 rows (f G) (f P) g p) in [n4 1 1; n4 1 0; n4 0 1; n4 0 0]) /\
    tr_means r = cell_means rows (f y) (f G) (f P) (f T) /\
    tr_method r = dd_method cfg /\ tr_alpha r = dd_alpha cfg /\
    tr_n_clusters r = option_map (fun c => length (cl_keys keq rows c)) cl.
Proof.
  unfold ddd_fit. intros H. destruct (ddd_validate rows y G P T covs) as [[]|] eqn:EV; [|discriminate].
  cbn [bind] in H. split; auto. fold (ddd_est cfg rows (f y) (f G) (f P) (f T) (map (fun c => f c) covs)) in H.
  destruct (ddd_est cfg rows (f y) (f G) (f P) (f T) (map (fun c => f c) covs)) as [out|] eqn:EO; [|discriminate].
  cbn [bind] in H. exists out. split; auto. injection H as <-. simpl. repeat split.
Qed.

(* data lacking one of the eight cells is rejected whatever the method *)
Theorem missing_cell_rejected cfg cl rows y G P T covs g p t :
  In (g, p, t) all_cells -> cell8 rows (f G) (f P) (f T) g p t = [] ->
  fit cfg cl rows y G P T covs = Err ValueError.
Proof.
  intros Hin E. unfold ddd_fit. destruct (validate_err rows y G P T covs) as [H|H]; rewrite H; [|reflexivity].
  exfalso. apply validate_ok in H. destruct H as (_ & _ & _ & _ & _ & _ & _ & _ & H8).
  assert (Hz : (g = 0 \/ g = 1) /\ (p = 0 \/ p = 1) /\ (t = 0 \/ t = 1)).
  { unfold all_cells in Hin. simpl in Hin. repeat destruct Hin as [Hin|Hin]; try contradiction; injection Hin as <- <- <-; auto. }
  apply (eight_ne rows (f G) (f P) (f T) H8 g p t); tauto.
Qed.

Theorem no_row_rejected cfg cl rows y G P T covs g p t :
  In (g, p, t) all_cells -> (forall i, In i rows -> ~ (oR (G i) = g /\ oR (P i) = p /\ oR (T i) = t)) ->
  fit cfg cl rows y G P T covs = Err ValueError.
Proof.
  intros Hin Hno. apply (missing_cell_rejected cfg cl rows y G P T covs g p t Hin).
  destruct (cell8 rows (f G) (f P) (f T) g p t) as [|i l] eqn:E; auto. exfalso.
  assert (Hi : In i (cell8 rows (f G) (f P) (f T) g p t)) by (rewrite E; simpl; auto).
  apply cell8_in in Hi. apply (Hno i); tauto.
Qed.

(* with ipw or dr every valid data set yields a result *)
Theorem valid_fits cfg cl rows y G P T covs :
  ddd_validate rows y G P T covs = Ok tt -> dd_method cfg <> "reg"%string ->
  exists r, fit cfg cl rows y G P T covs = Ok r.
Proof.
  intros HV Hm. unfold ddd_fit. rewrite HV. cbn [bind]. apply String.eqb_neq in Hm. rewrite Hm.
  destruct (String.eqb (dd_method cfg) "ipw"); eexists; reflexivity.
Qed.

(* the cluster column changes nothing but the reported number of clusters *)
Theorem cluster_ignored cfg cl cl' rows y G P T covs r : fit cfg cl rows y G P T covs = Ok r ->
  fit cfg cl' rows y G P T covs = Ok
    {| tr_att := tr_att r; tr_se := tr_se r; tr_t := tr_t r; tr_p := tr_p r; tr_ci := tr_ci r;
       tr_n_obs := tr_n_obs r; tr_n := tr_n r; tr_means := tr_means r; tr_method := tr_method r;
       tr_alpha := tr_alpha r; tr_r2 := tr_r2 r;
       tr_n_clusters := option_map (fun c => length (cl_keys keq rows c)) cl' |}.
Proof.
  intros H. destruct (fit_inv _ _ _ _ _ _ _ _ _ H) as (HV & out & HO & E1 & E2 & E3 & E4 & E5 & E6 & E7 & E8 & E9 & E10 & E11 & _).
  unfold ddd_fit. rewrite HV. cbn [bind]. fold (ddd_est cfg rows (f y) (f G) (f P) (f T) (map (fun c => f c) covs)). rewrite HO. cbn [bind].
  rewrite E11, E10, E9, E8, E7, E6, E5, E4, E3, E2, E1. reflexivity.
Qed.

(* with ipw and dr, robust changes nothing at all *)
Theorem robust_ignored cfg cl rows y G P T covs b : dd_method cfg <> "reg"%string ->
  fit cfg cl rows y G P T covs =
  fit {| dd_method := dd_method cfg; dd_robust := b; dd_alpha := dd_alpha cfg; dd_trim := dd_trim cfg; dd_action := dd_action cfg |}
      cl rows y G P T covs.
Proof. intros Hm. unfold ddd_fit. simpl. apply String.eqb_neq in Hm. rewrite Hm. reflexivity. Qed.

(* a zero (or undefined) standard error is reported with t = 0, p = 1 *)
Theorem zero_se_p_one cfg cl rows y G P T covs r : dist_ok sf ppf ->
  fit cfg cl rows y G P T covs = Ok r -> fgt (tr_se r) (Fin 0) = false ->
  tr_t r = Fin 0 /\ tr_p r = Fin 1.
Proof.
  intros Hd H Hs. destruct (fit_inv _ _ _ _ _ _ _ _ _ H) as (_ & out & _ & _ & E2 & _ & E4 & E5 & _).
  rewrite <- E2, Hs in E4. split; auto. rewrite E5, E4. unfold u_p_value, u_sf. cbn [fabs].
  unfold ddd_df. destruct (Z.ltb_spec 0 (Z.max (Z.of_nat (length rows) - 8 - Z.of_nat (length covs)) 1)); [|lia].
  rewrite Rabs_R0, (d_zero _ _ Hd). simpl. f_equal. lra.
Qed.

Theorem ddd_coherent cfg cl rows y G P T covs r a se : dist_ok sf ppf ->
  fit cfg cl rows y G P T covs = Ok r -> tr_att r = Fin a -> tr_se r = Fin se -> 0 < se -> 0 < dd_alpha cfg < 1 ->
  exists p lo hi, tr_t r = Fin (a / se) /\ tr_p r = Fin p /\ tr_ci r = (Fin lo, Fin hi) /\
    0 < p <= 1 /\ lo < a < hi /\ a - lo = hi - a /\ (p < dd_alpha cfg <-> (hi < 0 \/ 0 < lo)).
Proof.
  intros Hd H Ha Hse Hs Hal. destruct (fit_inv _ _ _ _ _ _ _ _ _ H) as (_ & out & _ & E1 & E2 & _ & E4 & E5 & E6 & _).
  rewrite <- E2, <- E1, Ha, Hse in E4. rewrite <- E1, <- E2, Ha, Hse in E6.
  assert (E : fgt (Fin se) (Fin 0) = true) by (apply flt_fin; auto). rewrite E in E4. cbn [fdiv] in E4.
  destruct (Req_EM_T se 0) as [C|_]; [lra|].
  destruct (u_coherent sf ppf Hd a se (dd_alpha cfg) (Some (ddd_df (length rows) (length covs))) Hs Hal) as (p & lo & hi & F1 & F2 & F3).
  { intros d Ed. injection Ed as <-. unfold ddd_df. lia. }
  exists p, lo, hi. rewrite E5, E6, E4, F1, F2. tauto.
Qed.

(* reported counts *)
Theorem counts cfg cl rows y G P T covs r : fit cfg cl rows y G P T covs = Ok r ->
  tr_n_obs r = length rows /\ fold_right Nat.add 0%nat (tr_n r) = length rows /\ Forall (fun n => (2 <= n)%nat) (tr_n r) /\
  length (tr_means r) = 8%nat.
Proof.
  intros H. destruct (fit_inv _ _ _ _ _ _ _ _ _ H) as (HV & out & _ & _ & _ & _ & _ & _ & _ & E7 & E8 & E9 & _).
  apply validate_ok in HV. destruct HV as (_ & _ & _ & _ & _ & ZG & ZP & _ & H8).
  split; auto. split; [|split; [|rewrite E9; reflexivity]].
  - rewrite E8. cbv zeta. simpl. unfold cell4. clear -ZG ZP. induction rows as [|i l IH]; [reflexivity|].
    simpl. rewrite <- IH at 1; try (intros j Hj; first [apply ZG|apply ZP]; simpl; auto).
    destruct (ZG i (or_introl eq_refl)) as [->| ->], (ZP i (or_introl eq_refl)) as [->| ->];
      rewrite ?Reqb_refl, ?Reqb_01, ?Reqb_10; simpl; lia.
  - assert (Hn : forall g p, (g = 0 \/ g = 1) -> (p = 0 \/ p = 1) -> (2 <= length (cell4 rows (f G) (f P) g p))%nat).
    { intros g p A B.
      pose proof (eight_ne rows (f G) (f P) (f T) H8 g p 0 A B ltac:(auto)) as N0.
      pose proof (eight_ne rows (f G) (f P) (f T) H8 g p 1 A B ltac:(auto)) as N1.
      assert (Hx : forall t, cell8 rows (f G) (f P) (f T) g p t <> [] -> exists i, In i (cell4 rows (f G) (f P) g p) /\ oR (T i) = t).
      { intros t N. destruct (cell8 rows (f G) (f P) (f T) g p t) as [|i l] eqn:E; [congruence|]. exists i.
        assert (Hi : In i (cell8 rows (f G) (f P) (f T) g p t)) by (rewrite E; simpl; auto).
        apply cell8_in in Hi. destruct Hi as (Hi & Eg & Ep & Et). split; auto.
        unfold cell4. apply filter_In. rewrite Bool.andb_true_iff, !Reqb_true. auto. }
      destruct (Hx 0 N0) as (i & Hi & Ei). destruct (Hx 1 N1) as (j & Hj & Ej).
      destruct (cell4 rows (f G) (f P) g p) as [|a [|b l]]; simpl in *; try contradiction; try lia.
      destruct Hi as [<-|[]]. destruct Hj as [<-|[]]. lra. }
    rewrite E8. cbv zeta. repeat constructor; apply Hn; auto.
Qed.

(* ---- ipw and dr without covariates ---- *)
Theorem ipw_fit cfg cl rows y G P T r : dd_method cfg = "ipw"%string -> dd_trim cfg < 1 ->
  fit cfg cl rows y G P T [] = Ok r -> tr_att r = Fin (ddd_of_dids rows (f G) (f P) (f T) (f y)).
Proof.
  intros Hm Ht H. destruct (fit_inv _ _ _ _ _ _ _ _ _ H) as (HV & out & HO & E1 & _).
  apply validate_ok in HV. destruct HV as (_ & _ & _ & _ & _ & _ & _ & _ & H8).
  unfold ddd_est in HO. rewrite Hm in HO. simpl in HO. injection HO as <-. rewrite E1. simpl. f_equal.
  apply ipw_is_ddd; auto.
Qed.

Theorem dr_fit cfg cl rows y G P T r : dd_method cfg = "dr"%string -> unclipped rows (f G) (f P) cfg ->
  fit cfg cl rows y G P T [] = Ok r ->
  tr_att r = Fin (ddd_comb (fun g p t => meanf (f y) (cell8 rows (f G) (f P) (f T) g p t) *
    ((len (cell8 rows (f G) (f P) (f T) g p t) / len (cell4 rows (f G) (f P) g p)) / (len (part rows (f T) t) / len rows)))) /\
  tr_se r = Fin (dr_se rows (f y) (f G) (f P) (f T)).
Proof.
  intros Hm Hu H. destruct (fit_inv _ _ _ _ _ _ _ _ _ H) as (HV & out & HO & E1 & E2 & _).
  apply validate_ok in HV. destruct HV as (_ & _ & _ & _ & _ & _ & _ & _ & H8).
  unfold ddd_est in HO. rewrite Hm in HO. simpl in HO. injection HO as <-. rewrite E1, E2. simpl. split; auto. f_equal.
  apply dr_nocov; auto.
Qed.

Theorem dr_fit_balanced cfg cl rows y G P T r : dd_method cfg = "dr"%string -> unclipped rows (f G) (f P) cfg ->
  (forall g p t, (g = 0 \/ g = 1) -> (p = 0 \/ p = 1) -> (t = 0 \/ t = 1) ->
     len (cell8 rows (f G) (f P) (f T) g p t) / len (cell4 rows (f G) (f P) g p) = len (part rows (f T) t) / len rows) ->
  fit cfg cl rows y G P T [] = Ok r -> tr_att r = Fin (ddd_of_dids rows (f G) (f P) (f T) (f y)).
Proof.
  intros Hm Hu Hb H. destruct (fit_inv _ _ _ _ _ _ _ _ _ H) as (HV & out & HO & E1 & _).
  apply validate_ok in HV. destruct HV as (_ & _ & _ & _ & _ & _ & _ & _ & H8).
  unfold ddd_est in HO. rewrite Hm in HO. simpl in HO. injection HO as <-. rewrite E1. simpl. f_equal.
  apply dr_balanced; auto.
Qed.

(* dr's standard error: eight independent cell means, unbiased cell variances *)
Theorem dr_se_closed rows (y G P T : I -> R) : eight_cells rows G P T ->
  (forall g p t, In (g, p, t) all_cells -> (2 <= length (cell8 rows G P T g p t))%nat) ->
  dr_se rows y G P T = sqrt (sumf (fun c => let '(g, p, t) := c in
     let l := cell8 rows G P T g p t in
     sumf (fun i => (y i - meanf y l) * (y i - meanf y l)) l / (len l - 1) / len l) all_cells).
Proof.
  intros He H2. unfold dr_se. f_equal. apply sumf_ext. intros [[g p] t] Hin. specialize (H2 g p t Hin).
  unfold dr_cell_var. destruct (Nat.ltb_spec 1 (length (cell8 rows G P T g p t))); [|lia].
  unfold variance, sumsq_dev. rewrite len_map. f_equal. simpl INR. f_equal.
  rewrite sumf_map. rewrite meanf_map. unfold idR. reflexivity.
Qed.

(* ---- reg ---- *)
Hypothesis Hqr : qr_ok qr.
Hypothesis Hls : lstsq_ok lstsq.
Hypothesis Hinv : inv_ok inv.

Lemma reg_inv cfg rows (y G P T : I -> R) X out : ddd_reg keq qr lstsq inv pinv sf ppf cfg rows y G P T X = Ok out ->
  exists reg, linreg_fit keq qr lstsq inv pinv (dd_robust cfg) None (dd_action cfg) 0 rows (ddd_design G P T X) y = Ok reg /\
    do_att out = nth 7 (l_coef reg) NaN /\ do_se out = fsqrt (l_vcov reg 7%nat 7%nat).
Proof.
  unfold ddd_reg. intros H. destruct (linreg_fit _ _ _ _ _ _ _ _ _ _ _ _) as [reg|] eqn:E; [|discriminate].
  cbn [bind] in H. injection H as <-. exists reg. simpl. auto.
Qed.

Lemma design_app (G P T : I -> R) X : ddd_design G P T X = ddd_design G P T [] ++ X.
Proof. reflexivity. Qed.

(* with covariates: the coefficients are least squares and the ATT is the triple difference of the
   covariate-adjusted outcome *)
Theorem reg_fit_covs cfg cl rows y G P T covs r : dd_method cfg = "reg"%string ->
  fit cfg cl rows y G P T covs = Ok r ->
  exists b, is_ls rows (ddd_design (f G) (f P) (f T) (map (fun c => f c) covs)) (f y) b /\
    nan_to_zero (tr_att r) = nth 7 b 0 /\
    nth 7 b 0 = ddd_of_dids rows (f G) (f P) (f T) (fun i => oR (y i) - lc (map (fun c => f c) covs) (skipn 8 b) i).
Proof.
  intros Hm H. destruct (fit_inv _ _ _ _ _ _ _ _ _ H) as (HV & out & HO & E1 & _).
  apply validate_ok in HV. destruct HV as (_ & _ & _ & _ & _ & ZG & ZP & ZT & H8).
  unfold ddd_est in HO. rewrite Hm in HO. simpl in HO. set (X := map (fun c => f c) covs) in *.
  destruct (reg_inv _ _ _ _ _ _ _ _ HO) as (reg & ER & EA & _).
  destruct (resid_coef keq qr lstsq inv pinv Hqr Hls _ _ _ _ _ _ _ _ ER) as (HL & HLS & _).
  exists (map nan_to_zero (l_coef reg)). split; [exact HLS|].
  assert (Lc : length (l_coef reg) = (8 + length X)%nat) by (rewrite HL; reflexivity).
  destruct (l_coef reg) as [|b0 [|b1 [|b2 [|b3 [|b4 [|b5 [|b6 [|b7 rest]]]]]]]] eqn:EL; simpl in Lc; try lia.
  split; [rewrite E1, EA; reflexivity|].
  set (z := fun i => oR (y i) - lc X (skipn 8 (map nan_to_zero (b0 :: b1 :: b2 :: b3 :: b4 :: b5 :: b6 :: b7 :: rest))) i).
  assert (H8' : is_ls rows (ddd_design (f G) (f P) (f T) []) z (map nan_to_zero [b0; b1; b2; b3; b4; b5; b6; b7])).
  { destruct HLS as [_ F]. split; [reflexivity|]. rewrite Forall_forall in *. intros c Hin.
    etransitivity; [|apply (F c); rewrite design_app; apply in_or_app; auto].
    apply ip_ext; auto. intros i _. unfold z. simpl. ring. }
  pose proof (ddd_is_ls rows (f G) (f P) (f T) ZG ZP ZT z) as Hsat.
  pose proof (ls_coef_unique rows _ _ _ _ (ddd_indep rows _ _ _ H8) H8' Hsat) as E.
  rewrite <- ddd_comb_dids. simpl map in E. unfold h_fit in E. injection E as _ _ _ _ _ _ _ E7. simpl nth. exact E7.
Qed.

Theorem reg_fit cfg cl rows y G P T r : dd_method cfg = "reg"%string ->
  fit cfg cl rows y G P T [] = Ok r -> tr_att r = Fin (ddd_of_dids rows (f G) (f P) (f T) (f y)).
Proof.
  intros Hm H. destruct (reg_fit_covs _ _ _ _ _ _ _ _ _ Hm H) as (b & _ & Ea & Eb).
  destruct (fit_inv _ _ _ _ _ _ _ _ _ H) as (HV & out & HO & E1 & _).
  apply validate_ok in HV. destruct HV as (_ & _ & _ & _ & _ & ZG & ZP & ZT & H8).
  unfold ddd_est in HO. rewrite Hm in HO. simpl in HO.
  destruct (reg_inv _ _ _ _ _ _ _ _ HO) as (reg & ER & EA & _).
  destruct (linreg_fit_inv keq qr lstsq inv pinv _ _ _ _ _ _ _ _ ER) as (o & Ho & Hco & _).
  destruct (solve_ols_full_rank keq qr lstsq inv Hqr Hls _ _ _ _ _ _ _ (ddd_indep rows _ _ _ H8) Ho) as (bb & Ebb & Lb & _).
  assert (Hfin : exists x, tr_att r = Fin x).
  { rewrite E1, EA, Hco, Ebb. exists (nth 7 bb 0).
    rewrite nth_indep with (d' := Fin 0) by (rewrite map_length; simpl in Lb; lia). apply map_nth. }
  destruct Hfin as [x Hx]. rewrite Hx in *. simpl in Ea. rewrite Ea, Eb. f_equal.
  rewrite <- !ddd_comb_dids. unfold ddd_comb. simpl map. cbn [lc].
  assert (M : forall l, meanf (fun i => oR (y i) - 0) l = meanf (f y) l) by (intros; apply meanf_ext; intros; ring).
  rewrite !M. reflexivity.
Qed.

(* exact recovery with covariates: no pairwise-interaction pattern nor covariate effect can move the
   estimate away from tau *)
Theorem reg_exact cfg cl rows y G P T covs r (h1 h2 h3 : R -> R -> R) gamma tau :
  dd_method cfg = "reg"%string -> fit cfg cl rows y G P T covs = Ok r ->
  let X := map (fun c => f c) covs in
  indep rows (ddd_design (f G) (f P) (f T) X) -> length gamma = length covs ->
  (forall i, In i rows -> oR (y i) = h1 (oR (G i)) (oR (P i)) + h2 (oR (G i)) (oR (T i)) + h3 (oR (P i)) (oR (T i))
                          + lc X gamma i + tau * (oR (G i) * oR (P i) * oR (T i))) ->
  tr_att r = Fin tau.
Proof.
  intros Hm H X Hind Lg Hy.
  destruct (fit_inv _ _ _ _ _ _ _ _ _ H) as (HV & out & HO & E1 & _).
  apply validate_ok in HV. destruct HV as (_ & _ & _ & _ & _ & ZG & ZP & ZT & H8).
  unfold ddd_est in HO. rewrite Hm in HO. simpl in HO. fold X in HO.
  destruct (reg_inv _ _ _ _ _ _ _ _ HO) as (reg & ER & EA & _).
  destruct (linreg_fit_inv keq qr lstsq inv pinv _ _ _ _ _ _ _ _ ER) as (o & Ho & Hco & _).
  destruct (solve_ols_full_rank keq qr lstsq inv Hqr Hls _ _ _ _ _ _ _ Hind Ho) as (bb & Ebb & Lb & Hbb).
  set (h := fun g p t => h1 g p + h2 g t + h3 p t + tau * (g * p * t)).
  assert (Hex : is_ls rows (ddd_design (f G) (f P) (f T) X) (f y) (h_fit h ++ gamma)).
  { apply ls_exact.
    - rewrite design_app, !app_length. unfold X. rewrite map_length, Lg. reflexivity.
    - intros i Hi. rewrite design_app, lc_app by reflexivity.
      rewrite (h_value rows (f G) (f P) (f T) ZG ZP ZT h i Hi). rewrite Hy by auto. unfold h. ring. }
  pose proof (proj1 (Hbb _) Hex) as E. symmetry in E.
  rewrite E1, EA, Hco, Ebb, E. rewrite map_app, app_nth1 by (rewrite map_length; simpl; lia).
  unfold h_fit, ddd_comb, h. simpl. f_equal. ring.
Qed.

Theorem reg_hc1_se cfg cl rows y G P T r : dd_method cfg = "reg"%string -> dd_robust cfg = true ->
  fit cfg cl rows y G P T [] = Ok r ->
  tr_se r = Fin (sqrt (ddd_hc1 rows (f G) (f P) (f T) (f y))) /\ 0 <= ddd_hc1 rows (f G) (f P) (f T) (f y).
Proof.
  intros Hm Hrob H. destruct (fit_inv _ _ _ _ _ _ _ _ _ H) as (HV & out & HO & _ & E2 & _).
  apply validate_ok in HV. destruct HV as (_ & _ & _ & _ & _ & ZG & ZP & ZT & H8).
  unfold ddd_est in HO. rewrite Hm in HO. simpl in HO.
  destruct (reg_inv _ _ _ _ _ _ _ _ HO) as (reg & ER & _ & ES). rewrite Hrob in ER.
  destruct (linreg_fit_inv keq qr lstsq inv pinv _ _ _ _ _ _ _ _ ER) as (o & Ho & Hco & _ & _ & _ & HVc).
  destruct (solve_ols_shape keq qr lstsq inv Hls _ _ _ _ _ _ _ Ho) as (Lb & _ & _ & _ & _ & HW & _ & Hle).
  pose proof (qr_indep_none qr rows _ Hqr (ddd_indep rows _ _ _ H8)) as Hq.
  rewrite Hq in *. rewrite select_cols_full in *.
  destruct HW as (V & EV & W & EW & HE).
  destruct (robust_vcov_shape keq inv Hinv _ _ _ _ _ EV) as (Hne & _ & B & HB & EVB).
  pose proof (ddd_hc1_closed rows (f G) (f P) (f T) ZG ZP ZT (f y) B _ H8 HB (Hls rows _ (f y))) as Hclosed.
  pose proof (robust_vcov_diag_nonneg keq inv Hinv _ _ _ _ _ Hle EV 7) as Hnn.
  rewrite EW in HVc.
  assert (EV7 : V 7%nat 7%nat = ddd_hc1 rows (f G) (f P) (f T) (f y)).
  { rewrite EVB, <- Hclosed. unfold adj_of, meat_of. cbn [length ddd_design app]. f_equal. simpl INR. f_equal. lra. }
  assert (E77 : l_vcov reg 7%nat 7%nat = Fin (ddd_hc1 rows (f G) (f P) (f T) (f y))).
  { rewrite HVc, HE by (simpl; lia). rewrite kept_cols_nil. unfold expand_vcov.
    rewrite !index_of_seq by (simpl; lia). rewrite EV7. reflexivity. }
  rewrite EV7 in Hnn. split; auto. rewrite E2, ES, E77. apply sqrt_fin; auto.
Qed.

(* eight observations, one per cell: robust regression cannot compute a variance *)
Theorem reg_eight_rows cfg cl rows y G P T : dd_method cfg = "reg"%string -> dd_robust cfg = true ->
  parse_action (dd_action cfg) <> None ->
  ddd_validate rows y G P T [] = Ok tt -> length rows = 8%nat ->
  fit cfg cl rows y G P T [] = Err ZeroDivisionError.
Proof.
  intros Hm Hrob Hact HV Hn. unfold ddd_fit. rewrite HV. cbn [bind]. rewrite Hm. simpl String.eqb. cbn iota.
  apply validate_ok in HV. destruct HV as (_ & _ & _ & _ & _ & ZG & ZP & ZT & H8).
  assert (E : ddd_reg keq qr lstsq inv pinv sf ppf cfg rows (f y) (f G) (f P) (f T) (map (fun c => f c) []) = Err ZeroDivisionError).
  { unfold ddd_reg, linreg_fit, solve_ols. rewrite Hrob. simpl map.
    change (length (ddd_design (f G) (f P) (f T) [])) with 8%nat. rewrite Hn.
    change (Nat.ltb 8 8) with false. cbn iota.
    destruct (parse_action (dd_action cfg)) as [act|]; [|congruence].
    rewrite (qr_indep_none qr rows _ Hqr (ddd_indep rows _ _ _ H8)).
    unfold robust_vcov. rewrite Hn. change (length (ddd_design (f G) (f P) (f T) [])) with 8%nat. reflexivity. }
  simpl map in E. simpl map. rewrite E. reflexivity.
Qed.

(* outcome models of dr: T is constant within a cell, so [1, X, T] is always rank-deficient; with
   rank_deficient_action="error" the exception is swallowed and covariates play no part *)
Lemma cell_dependent (rows : list I) (G P T : I -> R) X g p t :
  cell8 rows G P T g p t <> [] -> ~ indep (cell8 rows G P T g p t) ((fun _ => 1) :: X ++ [T]).
Proof.
  intros Hne Hind. set (b := (- t) :: repeat 0 (length X) ++ [1]).
  assert (E : b = repeat 0 (length ((fun _ : I => 1) :: X ++ [T]))).
  { apply Hind.
    - unfold b. simpl. rewrite !app_length, repeat_length. reflexivity.
    - intros i Hi. apply cell8_in in Hi. destruct Hi as (_ & _ & _ & Et). unfold b. cbn [lc].
      rewrite lc_app by (rewrite repeat_length; reflexivity). rewrite lc_repeat0. simpl. rewrite Et. ring. }
  unfold b in E. simpl in E. apply (f_equal (fun l => last l 0)) in E.
  rewrite app_comm_cons, last_last in E.
  change (0 :: repeat 0 (length (X ++ [T]))) with (repeat 0 (S (length (X ++ [T])))) in E.
  assert (Hr : forall n, last (repeat 0 n) 0 = 0).
  { induction n as [|n IH]; [reflexivity|]. destruct n; [reflexivity|]. exact IH. }
  rewrite Hr in E. lra.
Qed.

Theorem dr_error_action_no_model rows (y G P T : I -> R) X i : X <> [] -> In i rows ->
  (2 <= length (cell8 rows G P T (G i) (P i) (T i)))%nat ->
  mu_fit keq qr lstsq inv "error" rows y G P T X i = meanf y (cell8 rows G P T (G i) (P i) (T i)).
Proof.
  intros HX Hi H2. unfold mu_fit, mu_cell. destruct X as [|x X]; [congruence|].
  set (c := cell8 rows G P T (G i) (P i) (T i)) in *.
  destruct (Nat.ltb_spec 1 (length c)); [|lia].
  assert (E : solve_ols keq qr lstsq inv c ((fun _ => 1) :: (x :: X) ++ [T]) y None false "error" = Err ValueError).
  { unfold solve_ols. destruct (Nat.ltb _ _); [reflexivity|]. simpl parse_action. cbn iota.
    destruct (qr c ((fun _ => 1) :: (x :: X) ++ [T])) eqn:EQ; [|reflexivity].
    exfalso. apply (cell_dependent rows G P T (x :: X) (G i) (P i) (T i)).
    - fold c. intros Ec. rewrite Ec in H2. simpl in H2. lia.
    - fold c. destruct (Hqr c ((fun _ => 1) :: (x :: X) ++ [T])) as [_ Hk]. rewrite EQ in Hk.
      rewrite select_cols_full in Hk. exact Hk. }
  rewrite E. reflexivity.
Qed.

(* adding a constant to the outcome *)
Definition oshift (y : I -> option R) (c : R) (i : I) : option R := option_map (fun v => v + c) (y i).
Lemma oshift_R rows (y : I -> option R) c i : no_missing rows y -> In i rows -> oR (oshift y c i) = oR (y i) + c.
Proof. intros H Hi. specialize (H i Hi). unfold oshift. destruct (y i); [reflexivity|congruence]. Qed.

Lemma meanf_shift (y y' : I -> R) c l : l <> [] -> (forall i, In i l -> y' i = y i + c) -> meanf y' l = meanf y l + c.
Proof.
  intros Hl H. rewrite (meanf_ext y' (fun i => y i + c)) by auto. rewrite meanf_add, meanf_const by auto. reflexivity.
Qed.

Lemma cell_var_shift rows (G T y y' : I -> R) c g t : (forall i, In i rows -> y' i = y i + c) ->
  cell_var rows G T y' g t = cell_var rows G T y g t.
Proof.
  intros H. unfold cell_var, cell_mean. destruct (cell rows G T g t) as [|a l] eqn:E; [reflexivity|].
  assert (H' : forall i, In i (a :: l) -> y' i = y i + c).
  { intros i Hi. rewrite <- E in Hi. apply filter_In in Hi. apply H; tauto. }
  rewrite (meanf_shift y y' c) by (auto; discriminate). f_equal. apply sumf_ext. intros i Hi. rewrite H' by auto. ring.
Qed.

Lemma dr_cell_var_shift (y y' : I -> R) c l : (forall i, In i l -> y' i = y i + c) -> dr_cell_var l y' = dr_cell_var l y.
Proof.
  intros H. unfold dr_cell_var. destruct (Nat.ltb_spec 1 (length l)) as [L|L]; [|reflexivity].
  f_equal. unfold variance, sumsq_dev. rewrite !len_map. f_equal.
  assert (Hne : l <> []) by (intros ->; simpl in L; lia).
  rewrite !sumf_map, !meanf_map. unfold idR. rewrite (meanf_shift y y' c) by auto.
  apply sumf_ext. intros i Hi. rewrite H by auto. change (meanf (fun x : I => y x) l) with (meanf y l). ring.
Qed.

Theorem se_shift cfg cl rows y G P T c r r' :
  (dd_method cfg = "reg"%string /\ dd_robust cfg = true \/ dd_method cfg = "dr"%string) ->
  fit cfg cl rows y G P T [] = Ok r -> fit cfg cl rows (oshift y c) G P T [] = Ok r' -> tr_se r' = tr_se r.
Proof.
  intros Hm H H'.
  destruct (fit_inv _ _ _ _ _ _ _ _ _ H) as (HV & out & HO & _ & E2 & _).
  destruct (fit_inv _ _ _ _ _ _ _ _ _ H') as (_ & out' & HO' & _ & E2' & _).
  apply validate_ok in HV. destruct HV as (Ny & _).
  assert (Hs : forall i, In i rows -> oR (oshift y c i) = oR (y i) + c) by (intros; apply (oshift_R rows); auto).
  destruct Hm as [[Hm Hr]|Hm].
  - destruct (reg_hc1_se _ _ _ _ _ _ _ _ Hm Hr H) as [-> _]. destruct (reg_hc1_se _ _ _ _ _ _ _ _ Hm Hr H') as [-> _].
    f_equal. f_equal. unfold ddd_hc1, cells_var. f_equal.
    rewrite !(cell_var_shift (part rows (f P) 1) (f G) (f T) (f y) (f (oshift y c)) c)
      by (intros i Hi; apply filter_In in Hi; apply Hs; tauto).
    rewrite !(cell_var_shift (part rows (f P) 0) (f G) (f T) (f y) (f (oshift y c)) c)
      by (intros i Hi; apply filter_In in Hi; apply Hs; tauto). reflexivity.
  - unfold ddd_est in HO, HO'. rewrite Hm in HO, HO'. simpl in HO, HO'. injection HO as <-. injection HO' as <-.
    rewrite E2, E2'. simpl. f_equal. unfold dr_se. f_equal. apply sumf_ext. intros [[g p] t] _.
    apply (dr_cell_var_shift (f y) (f (oshift y c)) c). intros i Hi. apply cell8_in in Hi. apply Hs; tauto.
Qed.
End Fit.

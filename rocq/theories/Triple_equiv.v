(* TripleDifference: what happens to the reported numbers when terms that cancel in a triple difference are added to the outcome,
   when it is rescaled, and when the rows are reordered. *)
From Coq Require Import Reals Lra Lia.
From Verif Require Import Prelude Flt Stats_model Stats_proofs Linalg_model Linalg_proofs Linalg_vcov Linalg_thms Linalg_dual Linalg_rank Linalg_span
  Did_model Did_spec Did_proofs Did_equiv Multi_model Triple_model Triple_proofs Triple_thms Triple_fit Absorb_thms Span_thms Absorb_ex Reg_equiv Reg_effects.
From Coq Require Import Arith ZArith String List Permutation.
Import ListNotations.
Open Scope R_scope.

(* the reported numbers after multiplying by s *)
Definition ddd_scaled (s : R) (r r' : ddd_result) : Prop :=
  tr_att r' = fmul (Fin s) (tr_att r) /\ tr_se r' = fmul (Fin (Rabs s)) (tr_se r) /\ tr_p r' = tr_p r /\
  (0 < s -> tr_t r' = tr_t r /\ tr_ci r' = fscale s (tr_ci r)) /\
  (s < 0 -> tr_t r' = fneg (tr_t r) /\ tr_ci r' = fswap (fscale s (tr_ci r))).
(* outcome effects of at most two of the three dimensions *)
Definition pairwise (h1 h2 h3 : R -> R -> R) (g p t : R) : R := h1 g p + h2 g t + h3 p t.

Section S.
Context {I K : Type} (keq : forall x y : K, {x = y} + {x <> y}).
Variable qr : list I -> list (I -> R) -> list nat.
Variable lstsq : list I -> list (I -> R) -> (I -> R) -> list R.
Variable inv : list I -> list (I -> R) -> option (nat -> nat -> R).
Variable pinv : list I -> list (I -> R) -> nat -> nat -> R.
Variable sf : option Z -> fl -> fl.
Variable ppf : option Z -> R -> R.
Variable logit : list I -> list (I -> R) -> (I -> R) -> option (I -> R).
Notation fit := (ddd_fit keq qr lstsq inv pinv sf ppf logit).
Notation est := (ddd_est keq qr lstsq inv pinv sf ppf logit).
Notation f x := (fun i => oR (x i)).

Lemma pairwise_comb h1 h2 h3 : ddd_comb (pairwise h1 h2 h3) = 0.
Proof. unfold ddd_comb, pairwise. ring. Qed.

(* the outcome enters the result only through the estimation step *)
Lemma fit_from_est cfg cl rows y y' G P T covs r out' : fit cfg cl rows y G P T covs = Ok r -> no_missing rows y' ->
  est cfg rows (f y') (f G) (f P) (f T) (map (fun c => f c) covs) = Ok out' ->
  exists r', fit cfg cl rows y' G P T covs = Ok r' /\
    tr_att r' = do_att out' /\ tr_se r' = do_se out' /\
    tr_t r' = (if fgt (do_se out') (Fin 0) then fdiv (do_att out') (do_se out') else Fin 0) /\
    tr_p r' = u_p_value sf (tr_t r') (Some (ddd_df (length rows) (length covs))) /\
    tr_ci r' = u_ci ppf (do_att out') (do_se out') (dd_alpha cfg) (Some (ddd_df (length rows) (length covs))).
Proof.
  intros H Hn E. destruct (fit_inv keq qr lstsq inv pinv sf ppf logit _ _ _ _ _ _ _ _ _ H) as (HV & _).
  assert (HV' : ddd_validate rows y' G P T covs = Ok tt) by (apply validate_ok in HV; apply validate_ok; tauto).
  unfold ddd_fit. rewrite HV'. cbn [bind]. unfold ddd_est in E. rewrite E. cbn [bind]. eexists. split; [reflexivity|]. cbn. repeat split.
Qed.

Lemma outs_scaled cfg cl rows y y' G P T covs r out out' s a : s <> 0 ->
  fit cfg cl rows y G P T covs = Ok r -> no_missing rows y' ->
  est cfg rows (f y) (f G) (f P) (f T) (map (fun c => f c) covs) = Ok out ->
  est cfg rows (f y') (f G) (f P) (f T) (map (fun c => f c) covs) = Ok out' ->
  do_att out = Fin a -> do_att out' = Fin (s * a) ->
  (do_se out = NaN /\ do_se out' = NaN \/ exists e, 0 <= e /\ do_se out = Fin e /\ do_se out' = Fin (Rabs s * e)) ->
  exists r', fit cfg cl rows y' G P T covs = Ok r' /\ ddd_scaled s r r'.
Proof.
  intros Hs H Hn E E' Ea Ea' Hse. destruct (fit_from_est _ _ _ _ _ _ _ _ _ _ _ H Hn E') as (r' & H' & A1' & A2' & A3' & A4' & A5').
  destruct (fit_inv keq qr lstsq inv pinv sf ppf logit _ _ _ _ _ _ _ _ _ H) as (HV & o & HO & A1 & A2 & _ & A3 & A4 & A5 & _).
  rewrite E in HO. injection HO as <-. exists r'. split; [exact H'|]. rewrite Ea in *. rewrite Ea' in *.
  assert (Ha : 0 < Rabs s) by (apply Rabs_pos_lt; auto). unfold ddd_scaled.
  destruct Hse as [[N N']|(e & He & N & N')]; rewrite N in *; rewrite N' in *.
  - cbn in A3, A3'. rewrite A1, A1', A2, A2', A4, A4', A3, A3', A5, A5'.
    split; [reflexivity|]. split; [reflexivity|]. split; [reflexivity|]. split; intros; (split; [cbn; f_equal; try lra|]); unfold u_ci; destruct (u_ppf _ _ _); reflexivity.
  - assert (ET : tr_t r' = if Rlt_dec 0 s then tr_t r else fneg (tr_t r)).
    { rewrite A3, A3'. unfold fgt. cbn [flt]. destruct (Req_dec e 0) as [->|Hne].
      - rewrite Rmult_0_r. replace (Rltb 0 0) with false by (symmetry; apply Rltb_false; lra). destruct (Rlt_dec 0 s); cbn; [reflexivity|]. f_equal; lra.
      - assert (0 < Rabs s * e) by (apply Rmult_lt_0_compat; lra).
        replace (Rltb 0 e) with true by (symmetry; apply Rltb_true; lra). replace (Rltb 0 (Rabs s * e)) with true by (symmetry; apply Rltb_true; lra).
        apply fdiv_sign; auto. }
    split; [rewrite A1, A1'; reflexivity|]. split; [rewrite A2, A2'; reflexivity|]. split.
    { rewrite A4, A4', ET. destruct (Rlt_dec 0 s); [reflexivity|]. unfold u_p_value. f_equal. f_equal. destruct (tr_t r); cbn; try reflexivity. now rewrite Rabs_Ropp. }
    rewrite A5, A5', ci_scale by auto. split; intros Hs'; rewrite ET; destruct (Rlt_dec 0 s); try lra; split; reflexivity.
Qed.

(* ---- regression ---- *)
Section Reg.
Hypothesis Hqr : qr_ok qr.
Hypothesis Hls : lstsq_ok lstsq.
Hypothesis Hinv : inv_ok inv.
Theorem reg_pairwise cfg cl rows y y' G P T covs r s h1 h2 h3 gamma :
  let X := map (fun c => f c) covs in
  dd_method cfg = "reg"%string -> s <> 0 -> fit cfg cl rows y G P T covs = Ok r -> length gamma = length covs ->
  (forall i, In i rows -> y' i = Some (s * oR (y i) + (pairwise h1 h2 h3 (oR (G i)) (oR (P i)) (oR (T i)) + lc X gamma i))) ->
  identified_col rows (ddd_design (f G) (f P) (f T) X) 7 ->
  dd_robust cfg = true \/ (8 + length covs < length rows)%nat ->
  exists r', fit cfg cl rows y' G P T covs = Ok r' /\ ddd_scaled s r r'.
Proof.
  intros X Hm Hs H Lg Hy Hid Hvd.
  destruct (fit_inv keq qr lstsq inv pinv sf ppf logit _ _ _ _ _ _ _ _ _ H) as (HV & out & HO & _). fold X in HO.
  pose proof HV as HV0. apply validate_ok in HV. destruct HV as (_ & _ & _ & _ & _ & ZG & ZP & ZT & H8).
  assert (HO0 := HO). unfold ddd_est in HO. rewrite Hm in HO. simpl in HO.
  destruct (reg_inv keq qr lstsq inv pinv sf ppf _ _ _ _ _ _ _ _ HO) as (reg & ER & EA & ES).
  set (cols := ddd_design (f G) (f P) (f T) X) in *.
  set (m := fun i => pairwise h1 h2 h3 (oR (G i)) (oR (P i)) (oR (T i)) + lc X gamma i).
  assert (Hy2 : forall i, In i rows -> oR (y' i) = s * oR (y i) + m i) by (intros i Hi; rewrite Hy by auto; reflexivity).
  destruct (linreg_ok_outcome_ex keq qr lstsq inv pinv _ _ _ _ _ _ (f y) (f y') _ ER) as [reg' ER'].
  assert (Ho : forall i, In i rows -> m i = lc (others cols 7) (firstn 7 (h_fit (pairwise h1 h2 h3)) ++ gamma) i).
  { intros i Hi. unfold m. rewrite <- (h_value rows (f G) (f P) (f T) ZG ZP ZT (pairwise h1 h2 h3) i Hi).
    unfold cols. unfold h_fit. rewrite pairwise_comb. cbn. ring. }
  assert (Hsp : span rows (others cols 7) m).
  { exists (firstn 7 (h_fit (pairwise h1 h2 h3)) ++ gamma). split; [|exact Ho]. unfold cols, X. cbn. rewrite map_length, Lg. reflexivity. }
  assert (Hm' : span rows cols m).
  { apply (span_trans rows (others cols 7)); [|exact Hsp]. intros c Hc. apply span_in. eapply others_in; eauto. }
  pose proof (identified_dual rows cols _ Hid) as D. set (q := fwl_q rows _ _) in D.
  destruct (linreg_shift keq qr lstsq inv pinv Hqr Hls Hinv _ _ _ _ rows cols (f y) (f y') s m reg reg' 7%nat q Hs Hy2 Hm' D ER ER') as (C1 & C2 & V & _ & _).
  rewrite (dual_orth rows cols _ q m D Hsp), Rplus_0_r in C2.
  assert (HO' : exists out', est cfg rows (f y') (f G) (f P) (f T) X = Ok out' /\ do_att out' = nth 7 (l_coef reg') NaN /\ do_se out' = fsqrt (l_vcov reg' 7%nat 7%nat)).
  { unfold ddd_est. rewrite Hm. simpl. unfold ddd_reg. fold cols. rewrite ER'. cbn [bind]. eexists. split; [reflexivity|]. split; reflexivity. }
  destruct HO' as (out' & HO' & EA' & ES').
  assert (Hfv : fin_or_nan (l_vcov reg 7%nat 7%nat)).
  { apply (linreg_vcov_fin keq qr lstsq inv pinv Hls _ _ _ _ _ _ _ _ 7%nat 7%nat ER); try apply Hid.
    destruct Hvd as [Hvd|Hvd]; [left; exact Hvd|]. right; right.
    destruct (linreg_fit_inv keq qr lstsq inv pinv _ _ _ _ _ _ _ _ ER) as (o & Hoo & -> & _).
    pose proof (n_reported_le keq qr lstsq inv Hls _ _ _ _ _ _ _ Hoo) as L.
    assert (length cols = (8 + length covs)%nat) by (unfold cols, X, ddd_design; rewrite app_length, map_length; reflexivity). lia. }
  apply (outs_scaled cfg cl rows y y' G P T covs r out out' s (ip rows q (f y)) Hs H).
  - intros i Hi. rewrite Hy by auto. discriminate.
  - exact HO0.
  - exact HO'.
  - rewrite EA, C1. reflexivity.
  - rewrite EA', C2. reflexivity.
  - rewrite ES, ES', V. destruct Hfv as [->|[v ->]]; [left; split; reflexivity|]. cbn [fmul fsqrt].
    assert (0 < s * s) by (destruct (Rlt_dec 0 s); nra).
    destruct (Rlt_dec v 0) as [Hv|Hv].
    + destruct (Rlt_dec (s * s * v) 0); [left; split; reflexivity|nra].
    + destruct (Rlt_dec (s * s * v) 0); [nra|]. right. exists (sqrt v). split; [apply sqrt_pos|]. split; [reflexivity|].
      f_equal. rewrite sqrt_mult by lra. f_equal. rewrite <- sqrt_Rsqr_abs. reflexivity.
Qed.
End Reg.

(* ---- inverse probability weighting ---- *)
Lemma pcell_pos cfg rows (G P : I -> R) X g p i : 0 < dd_trim cfg < 1 -> 0 < ddd_pcell logit cfg rows G P X g p i.
Proof.
  intros Ht. unfold ddd_pcell, clip. cbv zeta. apply Rmin_glb_lt; [lra|]. eapply Rlt_le_trans; [|apply Rmax_r]. lra.
Qed.
Lemma ratio_pos cfg rows (G P : I -> R) X g p i : 0 < dd_trim cfg < 1 -> 0 < ddd_ratio logit cfg rows G P X g p i.
Proof. intros Ht. unfold ddd_ratio. apply Rdiv_lt_0_compat; apply pcell_pos; auto. Qed.

Lemma ipw_mean_affine cfg rows (y y' G P T : I -> R) X s h g p t : 0 < dd_trim cfg < 1 -> cell8 rows G P T g p t <> [] ->
  (forall i, In i rows -> y' i = s * y i + h (G i) (P i) (T i)) ->
  ipw_mean logit cfg rows y' G P T X g p t = s * ipw_mean logit cfg rows y G P T X g p t + h g p t.
Proof.
  intros Ht Hne Hy. unfold ipw_mean. destruct (Reqb g 1 && Reqb p 1).
  - destruct (cell8 rows G P T g p t) as [|a l] eqn:E; [congruence|]. cbn [length Nat.ltb]. rewrite <- E in *. cbn.
    rewrite (meanf_ext y' (fun i => s * y i + h g p t)).
    + unfold meanf. rewrite sumf_add, sumf_scal, sumf_const. assert (0 < len (cell8 rows G P T g p t)) by (apply len_pos; auto). field. lra.
    + intros i Hi. apply cell8_in in Hi. destruct Hi as (Hi & <- & <- & <-). auto.
  - unfold wmean. set (w := fun i => ind (in4 G P g p i && Reqb (T i) t) * ddd_ratio logit cfg rows G P X g p i).
    assert (Hw : 0 < sumf w rows).
    { destruct (cell8 rows G P T g p t) as [|a l] eqn:E; [congruence|].
      assert (Ha : In a (cell8 rows G P T g p t)) by (rewrite E; left; reflexivity). apply cell8_in in Ha as (Ha & Eg & Ep & Et).
      apply (sumf_pos w rows); [|exists a; split; [exact Ha|]].
      - intros i _. unfold w. pose proof (ratio_pos cfg rows G P X g p i Ht). destruct (in4 G P g p i && Reqb (T i) t); unfold ind; lra.
      - unfold w, in4. rewrite Eg, Ep, Et, !Reqb_refl. cbn. pose proof (ratio_pos cfg rows G P X g p a Ht). lra. }
    destruct (Rle_dec (sumf w rows) 0) as [Hc|Hc]; [lra|]. clear Hc.
    fold w. rewrite (sumf_ext (fun i => y' i * w i) (fun i => s * (y i * w i) + h g p t * w i)).
    + rewrite sumf_add, (sumf_scal s), (sumf_scal (h g p t)). change (sumf (fun i => y i * (ind (in4 G P g p i && Reqb (T i) t) * ddd_ratio logit cfg rows G P X g p i)) rows) with (sumf (fun x => y x * w x) rows). field. lra.
    + intros i Hi. unfold w. destruct (in4 G P g p i && Reqb (T i) t) eqn:E; unfold ind; [|ring].
      apply Bool.andb_true_iff in E as [E Et]. unfold in4 in E. apply Bool.andb_true_iff in E as [Eg Ep]. apply Reqb_true in Eg, Ep, Et.
      rewrite Hy, Eg, Ep, Et by auto. ring.
Qed.

Theorem ipw_pairwise cfg cl rows y y' G P T covs r r' s h1 h2 h3 : dd_method cfg = "ipw"%string -> 0 < dd_trim cfg < 1 ->
  fit cfg cl rows y G P T covs = Ok r -> fit cfg cl rows y' G P T covs = Ok r' ->
  (forall i, In i rows -> y' i = Some (s * oR (y i) + pairwise h1 h2 h3 (oR (G i)) (oR (P i)) (oR (T i)))) ->
  tr_att r' = fmul (Fin s) (tr_att r).
Proof.
  intros Hm Ht H H' Hy.
  destruct (fit_inv keq qr lstsq inv pinv sf ppf logit _ _ _ _ _ _ _ _ _ H) as (HV & out & HO & E1 & _).
  destruct (fit_inv keq qr lstsq inv pinv sf ppf logit _ _ _ _ _ _ _ _ _ H') as (_ & out' & HO' & E1' & _).
  apply validate_ok in HV. destruct HV as (_ & _ & _ & _ & _ & ZG & ZP & ZT & H8).
  unfold ddd_est in HO, HO'. rewrite Hm in HO, HO'. simpl in HO, HO'. injection HO as <-. injection HO' as <-.
  rewrite E1, E1'. cbn [ddd_ipw do_att fmul]. f_equal.
  set (X := map (fun c => f c) covs).
  assert (A : forall g p t, (g = 0 \/ g = 1) -> (p = 0 \/ p = 1) -> (t = 0 \/ t = 1) ->
    ipw_mean logit cfg rows (f y') (f G) (f P) (f T) X g p t = s * ipw_mean logit cfg rows (f y) (f G) (f P) (f T) X g p t + pairwise h1 h2 h3 g p t).
  { intros g p t Hg Hp Ht'. apply ipw_mean_affine; auto; [apply eight_ne; auto|]. intros i Hi. rewrite Hy by auto. reflexivity. }
  pose proof (pairwise_comb h1 h2 h3) as Z. unfold ddd_comb in *. rewrite !A by auto. nra.
Qed.

(* ---- doubly robust ---- *)
(* the estimate is linear in the outcome, so an added term drops out exactly when its own estimate is zero *)
Lemma dr_att_affine cfg rows (y y' m G P T : I -> R) mu mu' mu1 X s : (forall i, In i rows -> y' i = s * y i + m i) ->
  dr_att logit cfg rows y' mu' G P T X = s * dr_att logit cfg rows y mu G P T X + dr_att logit cfg rows m mu1 G P T X.
Proof.
  intros Hy. unfold dr_att, ddd_comb. rewrite !dr_mean_closed.
  assert (H : forall g p t, sumf (fun i => dr_w logit rows G P cfg X g p i * y' i) (cell8 rows G P T g p t)
     = s * sumf (fun i => dr_w logit rows G P cfg X g p i * y i) (cell8 rows G P T g p t) + sumf (fun i => dr_w logit rows G P cfg X g p i * m i) (cell8 rows G P T g p t)).
  { intros. rewrite <- sumf_scal, <- sumf_add. apply sumf_ext. intros i Hi. apply cell8_in in Hi. rewrite Hy by tauto. ring. }
  rewrite !H. unfold Rdiv. ring.
Qed.
Lemma dr_cell_var_affine (y y' : I -> R) s c l : (forall i, In i l -> y' i = s * y i + c) -> dr_cell_var l y' = s * s * dr_cell_var l y.
Proof.
  intros H. unfold dr_cell_var. destruct (Nat.ltb_spec 1 (length l)) as [L|L]; [|unfold Rdiv; ring].
  assert (E : variance 1 (map y' l) = s * s * variance 1 (map y l)).
  { unfold variance, sumsq_dev. rewrite !len_map, !sumf_map, !meanf_map. unfold idR.
    assert (Hne : l <> []) by (intros ->; simpl in L; lia). apply len_pos in Hne.
    assert (M : meanf (fun x => y' x) l = s * meanf (fun x => y x) l + c).
    { rewrite (meanf_ext (fun x => y' x) (fun i => s * y i + c)) by auto. unfold meanf. rewrite sumf_add, sumf_scal, sumf_const.
      change (sumf (fun x => y x) l) with (sumf y l). field. lra. }
    rewrite M. unfold Rdiv. rewrite <- Rmult_assoc. f_equal. rewrite <- sumf_scal. apply sumf_ext. intros i Hi. rewrite H by auto. ring. }
  rewrite E. unfold Rdiv. ring.
Qed.
Lemma dr_se_affine rows (y y' G P T : I -> R) s h : (forall i, In i rows -> y' i = s * y i + h (G i) (P i) (T i)) ->
  dr_se rows y' G P T = Rabs s * dr_se rows y G P T.
Proof.
  intros Hy. unfold dr_se.
  assert (Hv : forall l, 0 <= dr_cell_var l y).
  { intros l. unfold dr_cell_var. destruct (Nat.ltb_spec 1 (length l)) as [L|L]; [|unfold Rdiv; rewrite Rmult_0_l; lra].
    apply Rmult_le_pos; [|apply Rlt_le, Rinv_0_lt_compat, len_pos; intros ->; simpl in L; lia].
    unfold variance. apply Rmult_le_pos; [|apply Rlt_le, Rinv_0_lt_compat].
    - unfold sumsq_dev. apply sumf_nonneg. intros. apply sq_nonneg.
    - rewrite len_map. unfold len. apply lt_INR in L. simpl in *. lra. }
  rewrite (sumf_ext _ (fun c => s * s * (let '(g, p, t) := c in dr_cell_var (cell8 rows G P T g p t) y))).
  - rewrite sumf_scal, sqrt_mult.
    + f_equal. rewrite <- sqrt_Rsqr_abs. reflexivity.
    + apply sq_nonneg.
    + apply sumf_nonneg. intros [[g p] t] _. apply Hv.
  - intros [[g p] t] _. apply dr_cell_var_affine with (c := h g p t). intros i Hi. apply cell8_in in Hi. destruct Hi as (Hi & <- & <- & <-). auto.
Qed.

Theorem dr_terms cfg cl rows y y' G P T covs r s h : dd_method cfg = "dr"%string -> s <> 0 ->
  fit cfg cl rows y G P T covs = Ok r ->
  (forall i, In i rows -> y' i = Some (s * oR (y i) + h (oR (G i)) (oR (P i)) (oR (T i)))) ->
  exists r', fit cfg cl rows y' G P T covs = Ok r' /\ tr_se r' = fmul (Fin (Rabs s)) (tr_se r) /\
    (forall rh, fit cfg cl rows (fun i => Some (h (oR (G i)) (oR (P i)) (oR (T i)))) G P T covs = Ok rh ->
       tr_att r' = fadd (fmul (Fin s) (tr_att r)) (tr_att rh) /\ (tr_att rh = Fin 0 -> ddd_scaled s r r')).
Proof.
  intros Hm Hs H Hy.
  destruct (fit_inv keq qr lstsq inv pinv sf ppf logit _ _ _ _ _ _ _ _ _ H) as (HV & out & HO & E1 & E2 & _).
  assert (Ny : no_missing rows y') by (intros i Hi; rewrite Hy by auto; discriminate).
  set (X := map (fun c => f c) covs) in *.
  assert (HOy : est cfg rows (f y') (f G) (f P) (f T) X = Ok (ddd_dr keq qr lstsq inv logit cfg rows (f y') (f G) (f P) (f T) X)) by (unfold ddd_est; rewrite Hm; reflexivity).
  assert (HO1 := HO). unfold ddd_est in HO1. rewrite Hm in HO1. cbn in HO1. injection HO1 as Eout.
  destruct (fit_from_est _ _ _ _ _ _ _ _ _ _ _ H Ny HOy) as (r' & H' & A1 & A2 & A3 & A4 & A5).
  assert (ESE : dr_se rows (f y') (f G) (f P) (f T) = Rabs s * dr_se rows (f y) (f G) (f P) (f T)).
  { apply dr_se_affine with (h := h). intros i Hi. rewrite Hy by auto. reflexivity. }
  exists r'. split; [exact H'|]. split.
  { rewrite A2, E2, <- Eout. cbn [ddd_dr do_se fmul]. f_equal. exact ESE. }
  intros rh Hh. destruct (fit_inv keq qr lstsq inv pinv sf ppf logit _ _ _ _ _ _ _ _ _ Hh) as (_ & outh & HOh & F1 & _).
  unfold ddd_est in HOh. rewrite Hm in HOh. cbn in HOh. injection HOh as <-.
  assert (EA : tr_att r' = fadd (fmul (Fin s) (tr_att r)) (tr_att rh)).
  { rewrite A1, E1, F1, <- Eout. cbn [ddd_dr do_att fmul fadd]. f_equal. apply dr_att_affine. intros i Hi. rewrite Hy by auto. reflexivity. }
  split; [exact EA|]. intros Z.
  destruct (outs_scaled cfg cl rows y y' G P T covs r out _ s (dr_att logit cfg rows (f y) (mu_fit keq qr lstsq inv (dd_action cfg) rows (f y) (f G) (f P) (f T) X) (f G) (f P) (f T) X) Hs H Ny HO HOy) as (r2 & H2 & S2).
  - rewrite <- Eout. reflexivity.
  - rewrite <- A1, EA, Z, E1, <- Eout. cbn [ddd_dr do_att fmul fadd]. f_equal. ring.
  - right. exists (dr_se rows (f y) (f G) (f P) (f T)). split; [apply sqrt_pos|]. rewrite <- Eout. split; [reflexivity|]. cbn [ddd_dr do_se]. f_equal. exact ESE.
  - rewrite H' in H2. injection H2 as <-. exact S2.
Qed.

(* equal post shares in the four groups: pairwise terms drop out *)
Theorem dr_pairwise_balanced cfg cl rows y y' G P T r s h1 h2 h3 : dd_method cfg = "dr"%string -> s <> 0 -> unclipped rows (f G) (f P) cfg ->
  (forall g p t, (g = 0 \/ g = 1) -> (p = 0 \/ p = 1) -> (t = 0 \/ t = 1) ->
     len (cell8 rows (f G) (f P) (f T) g p t) / len (cell4 rows (f G) (f P) g p) = len (part rows (f T) t) / len rows) ->
  fit cfg cl rows y G P T [] = Ok r ->
  (forall i, In i rows -> y' i = Some (s * oR (y i) + pairwise h1 h2 h3 (oR (G i)) (oR (P i)) (oR (T i)))) ->
  exists r', fit cfg cl rows y' G P T [] = Ok r' /\ ddd_scaled s r r'.
Proof.
  intros Hm Hs Hu Hb H Hy. destruct (dr_terms _ _ _ _ _ _ _ _ _ _ _ (pairwise h1 h2 h3) Hm Hs H Hy) as (r' & H' & _ & HT).
  exists r'. split; [exact H'|].
  destruct (fit_inv keq qr lstsq inv pinv sf ppf logit _ _ _ _ _ _ _ _ _ H) as (HV & _).
  assert (HO : est cfg rows (f (fun i => Some (pairwise h1 h2 h3 (oR (G i)) (oR (P i)) (oR (T i))))) (f G) (f P) (f T) [] = Ok (ddd_dr keq qr lstsq inv logit cfg rows (f (fun i => Some (pairwise h1 h2 h3 (oR (G i)) (oR (P i)) (oR (T i))))) (f G) (f P) (f T) [])) by (unfold ddd_est; rewrite Hm; reflexivity).
  destruct (fit_from_est _ _ _ _ (fun i => Some (pairwise h1 h2 h3 (oR (G i)) (oR (P i)) (oR (T i)))) _ _ _ _ _ _ H ltac:(intros i _; discriminate) HO) as (rh & Hh & _).
  apply (HT rh Hh). rewrite (dr_fit_balanced keq qr lstsq inv pinv sf ppf logit _ _ _ _ _ _ _ _ Hm Hu Hb Hh). f_equal.
  rewrite <- ddd_comb_dids. apply validate_ok in HV. destruct HV as (_ & _ & _ & _ & _ & _ & _ & _ & H8).
  rewrite <- (pairwise_comb h1 h2 h3).
  assert (A : forall g p t, (g = 0 \/ g = 1) -> (p = 0 \/ p = 1) -> (t = 0 \/ t = 1) ->
    meanf (f (fun i => Some (pairwise h1 h2 h3 (oR (G i)) (oR (P i)) (oR (T i))))) (cell8 rows (f G) (f P) (f T) g p t) = pairwise h1 h2 h3 g p t).
  { intros g p t Hg Hp Ht. rewrite (meanf_ext _ (fun _ => pairwise h1 h2 h3 g p t)); [apply meanf_const, eight_ne; auto|].
    intros i Hi. apply cell8_in in Hi. destruct Hi as (_ & <- & <- & <-). reflexivity. }
  unfold ddd_comb. rewrite !A by auto. reflexivity.
Qed.

(* ---- rescaling, any covariates ---- *)
Lemma ipw_inf_scale cfg rows (y y' G P T : I -> R) X s att i : y' i = s * y i ->
  ipw_inf logit cfg rows y' G P T X (s * att) i = s * ipw_inf logit cfg rows y G P T X att i.
Proof.
  intros Hy. unfold ipw_inf. cbv zeta. rewrite Hy. destruct (in4 G P 1 1 i); [unfold Rdiv; ring|]. destruct (in4 G P 1 0 i); [unfold Rdiv; ring|].
  destruct (in4 G P 0 1 i); [unfold Rdiv; ring|]. destruct (in4 G P 0 0 i); [unfold Rdiv; ring|ring].
Qed.
Lemma wmean_scale rows (y y' w : I -> R) s : (forall i, In i rows -> y' i = s * y i) -> wmean rows y' w = s * wmean rows y w.
Proof.
  intros Hy. unfold wmean. destruct (Rle_dec (sumf w rows) 0); [ring|]. rewrite (sumf_ext (fun i => y' i * w i) (fun i => s * (y i * w i))) by (intros i Hi; rewrite Hy by auto; ring).
  rewrite sumf_scal. unfold Rdiv. ring.
Qed.
Lemma variance_scale s (l : list R) : variance 1 (map (Rmult s) l) = s * s * variance 1 l.
Proof.
  unfold variance, sumsq_dev. rewrite len_map, sumf_map.
  assert (M : meanf idR (map (Rmult s) l) = s * meanf idR l) by (unfold meanf; rewrite len_map, sumf_map; unfold idR; rewrite sumf_scal; unfold Rdiv; ring).
  rewrite M. unfold Rdiv. rewrite <- Rmult_assoc. f_equal. rewrite <- sumf_scal. apply sumf_ext_all. intros x. ring.
Qed.
Theorem ipw_scale cfg cl rows y y' G P T covs r s : dd_method cfg = "ipw"%string -> s <> 0 ->
  fit cfg cl rows y G P T covs = Ok r -> (forall i, In i rows -> y' i = Some (s * oR (y i))) ->
  exists r', fit cfg cl rows y' G P T covs = Ok r' /\ ddd_scaled s r r'.
Proof.
  intros Hm Hs H Hy. set (X := map (fun c => f c) covs).
  assert (Ny : no_missing rows y') by (intros i Hi; rewrite Hy by auto; discriminate).
  assert (Hy2 : forall i, In i rows -> oR (y' i) = s * oR (y i)) by (intros i Hi; rewrite Hy by auto; reflexivity).
  assert (HO : est cfg rows (f y) (f G) (f P) (f T) X = Ok (ddd_ipw logit cfg rows (f y) (f G) (f P) (f T) X)) by (unfold ddd_est; rewrite Hm; reflexivity).
  assert (HO' : est cfg rows (f y') (f G) (f P) (f T) X = Ok (ddd_ipw logit cfg rows (f y') (f G) (f P) (f T) X)) by (unfold ddd_est; rewrite Hm; reflexivity).
  assert (EM : forall g p t, ipw_mean logit cfg rows (f y') (f G) (f P) (f T) X g p t = s * ipw_mean logit cfg rows (f y) (f G) (f P) (f T) X g p t).
  { intros g p t. unfold ipw_mean. destruct (Reqb g 1 && Reqb p 1).
    - destruct (Nat.ltb 0 _); [|ring]. rewrite (meanf_ext (f y') (fun i => s * oR (y i))) by (intros i Hi; apply cell8_in in Hi; apply Hy2; tauto).
      unfold meanf. rewrite sumf_scal. unfold Rdiv. ring.
    - apply wmean_scale. exact Hy2. }
  set (att := ddd_comb (ipw_mean logit cfg rows (f y) (f G) (f P) (f T) X)).
  assert (EA : ddd_comb (ipw_mean logit cfg rows (f y') (f G) (f P) (f T) X) = s * att).
  { unfold att, ddd_comb. rewrite !EM. ring. }
  assert (Hne : rows <> []).
  { destruct (fit_inv keq qr lstsq inv pinv sf ppf logit _ _ _ _ _ _ _ _ _ H) as (HV & _). apply validate_ok in HV. destruct HV as (_ & _ & _ & _ & _ & _ & _ & _ & [(H8 & _) _]).
    intros ->. apply H8. reflexivity. }
  apply (outs_scaled cfg cl rows y y' G P T covs r _ _ s att Hs H Ny HO HO').
  - reflexivity.
  - cbn [ddd_ipw do_att]. now rewrite EA.
  - right. exists (ipw_se logit cfg rows (f y) (f G) (f P) (f T) X att). split; [apply sqrt_pos|]. split; [reflexivity|].
    cbn [ddd_ipw do_se]. f_equal. rewrite EA. unfold ipw_se.
    rewrite (map_ext_in (ipw_inf logit cfg rows (f y') (f G) (f P) (f T) X (s * att)) (fun i => s * ipw_inf logit cfg rows (f y) (f G) (f P) (f T) X att i)).
    2:{ intros i Hi. apply ipw_inf_scale. auto. }
    rewrite <- (map_map (ipw_inf logit cfg rows (f y) (f G) (f P) (f T) X att) (Rmult s)), variance_scale.
    replace (s * s * variance 1 (map (ipw_inf logit cfg rows (f y) (f G) (f P) (f T) X att) rows) / len rows)
      with (s * s * (variance 1 (map (ipw_inf logit cfg rows (f y) (f G) (f P) (f T) X att) rows) / len rows)) by (unfold Rdiv; ring).
    rewrite sqrt_mult_alt by apply sq_nonneg. f_equal. rewrite <- sqrt_Rsqr_abs. reflexivity.
Qed.
Theorem dr_scale cfg cl rows y y' G P T covs r s : dd_method cfg = "dr"%string -> s <> 0 ->
  fit cfg cl rows y G P T covs = Ok r -> (forall i, In i rows -> y' i = Some (s * oR (y i))) ->
  exists r', fit cfg cl rows y' G P T covs = Ok r' /\ ddd_scaled s r r'.
Proof.
  intros Hm Hs H Hy. destruct (dr_terms cfg cl rows y y' G P T covs r s (fun _ _ _ => 0) Hm Hs H) as (r' & H' & _ & HT).
  { intros i Hi. rewrite Hy by auto. f_equal. ring. }
  exists r'. split; [exact H'|]. set (z := fun _ : I => Some 0).
  assert (HO : est cfg rows (f z) (f G) (f P) (f T) (map (fun c => f c) covs) = Ok (ddd_dr keq qr lstsq inv logit cfg rows (f z) (f G) (f P) (f T) (map (fun c => f c) covs))) by (unfold ddd_est; rewrite Hm; reflexivity).
  destruct (fit_from_est _ _ _ _ z _ _ _ _ _ _ H ltac:(intros i _; discriminate) HO) as (rh & Hh & A1 & _).
  apply (HT rh Hh). rewrite A1. cbn [ddd_dr do_att]. f_equal. unfold dr_att, ddd_comb. rewrite !dr_mean_closed.
  assert (Z : forall g p t, sumf (fun i => dr_w logit rows (f G) (f P) cfg (map (fun c => f c) covs) g p i * oR (z i)) (cell8 rows (f G) (f P) (f T) g p t) = 0).
  { intros. apply sumf_zero. intros i _. cbn. ring. }
  rewrite !Z. unfold Rdiv. ring.
Qed.

(* ---- row order ---- *)
Section Order.
(* the logistic regression does not depend on the order of the rows *)
Hypothesis Hlogit : forall r1 r2 X z, Permutation r1 r2 -> logit r1 X z = logit r2 X z.
Lemma cell8_perm (r1 r2 : list I) (G P T : I -> R) g p t : Permutation r1 r2 -> Permutation (cell8 r1 G P T g p t) (cell8 r2 G P T g p t).
Proof. intros Hp. unfold cell8. apply filter_perm; auto. Qed.
Lemma pcell_perm cfg r1 r2 (G P : I -> R) X g p i : Permutation r1 r2 -> ddd_pcell logit cfg r1 G P X g p i = ddd_pcell logit cfg r2 G P X g p i.
Proof.
  intros Hp. unfold ddd_pcell. cbv zeta. destruct X as [|c X].
  - unfold cell4. rewrite (len_perm _ _ Hp), (len_perm _ _ (filter_perm (fun i => Reqb (G i) g && Reqb (P i) p) _ _ Hp)). reflexivity.
  - rewrite !(Hlogit r1 r2) by auto. rewrite !(meanf_perm _ r1 r2) by auto. reflexivity.
Qed.
Lemma ratio_perm cfg r1 r2 (G P : I -> R) X g p i : Permutation r1 r2 -> ddd_ratio logit cfg r1 G P X g p i = ddd_ratio logit cfg r2 G P X g p i.
Proof. intros Hp. unfold ddd_ratio. rewrite !(pcell_perm cfg r1 r2) by auto. reflexivity. Qed.
Lemma pref_perm (r1 r2 : list I) (G P : I -> R) : Permutation r1 r2 -> len (cell4 r1 G P 1 1) / len r1 = len (cell4 r2 G P 1 1) / len r2.
Proof. intros Hp. unfold cell4. rewrite (len_perm _ _ Hp), (len_perm _ _ (filter_perm (fun i => Reqb (G i) 1 && Reqb (P i) 1) _ _ Hp)). reflexivity. Qed.
Lemma variance_perm (l1 l2 : list R) : Permutation l1 l2 -> variance 1 l1 = variance 1 l2.
Proof. intros Hp. unfold variance, sumsq_dev. rewrite (meanf_perm _ _ _ Hp), (len_perm _ _ Hp). f_equal. apply sumf_perm; auto. Qed.
Lemma ipw_perm cfg r1 r2 (y G P T : I -> R) X : Permutation r1 r2 -> ddd_ipw logit cfg r1 y G P T X = ddd_ipw logit cfg r2 y G P T X.
Proof.
  intros Hp. unfold ddd_ipw. cbv zeta.
  assert (EM : forall g p t, ipw_mean logit cfg r1 y G P T X g p t = ipw_mean logit cfg r2 y G P T X g p t).
  { intros g p t. unfold ipw_mean. destruct (Reqb g 1 && Reqb p 1).
    - pose proof (cell8_perm r1 r2 G P T g p t Hp) as Hc. rewrite (Permutation_length Hc), (meanf_perm y _ _ Hc). reflexivity.
    - unfold wmean.
      assert (E1 : forall h : I -> R, sumf (fun i => h i * (ind (in4 G P g p i && Reqb (T i) t) * ddd_ratio logit cfg r1 G P X g p i)) r1
         = sumf (fun i => h i * (ind (in4 G P g p i && Reqb (T i) t) * ddd_ratio logit cfg r2 G P X g p i)) r2).
      { intros h. rewrite (sumf_perm _ _ _ Hp). apply sumf_ext_all. intros i. rewrite (ratio_perm cfg r1 r2) by auto. reflexivity. }
      assert (E2 : sumf (fun i => ind (in4 G P g p i && Reqb (T i) t) * ddd_ratio logit cfg r1 G P X g p i) r1
         = sumf (fun i => ind (in4 G P g p i && Reqb (T i) t) * ddd_ratio logit cfg r2 G P X g p i) r2).
      { rewrite (sumf_perm _ _ _ Hp). apply sumf_ext_all. intros i. rewrite (ratio_perm cfg r1 r2) by auto. reflexivity. }
      rewrite E1, E2. reflexivity. }
  assert (EA : ddd_comb (ipw_mean logit cfg r1 y G P T X) = ddd_comb (ipw_mean logit cfg r2 y G P T X)) by (unfold ddd_comb; rewrite !EM; reflexivity).
  rewrite EA. f_equal. f_equal. unfold ipw_se. rewrite (len_perm _ _ Hp). f_equal. f_equal.
  rewrite (variance_perm _ (map (ipw_inf logit cfg r1 y G P T X (ddd_comb (ipw_mean logit cfg r2 y G P T X))) r2)) by (apply Permutation_map; auto).
  f_equal. apply map_ext. intros i. unfold ipw_inf. cbv zeta. rewrite (pref_perm r1 r2), !(ratio_perm cfg r1 r2) by auto. reflexivity.
Qed.
Lemma dr_perm cfg r1 r2 (y mu mu' G P T : I -> R) X : Permutation r1 r2 ->
  dr_att logit cfg r1 y mu G P T X = dr_att logit cfg r2 y mu' G P T X /\ dr_se r1 y G P T = dr_se r2 y G P T.
Proof.
  intros Hp. split.
  - unfold dr_att, ddd_comb. rewrite !dr_mean_closed.
    assert (EN : forall g p t, sumf (fun i => dr_w logit r1 G P cfg X g p i * y i) (cell8 r1 G P T g p t) = sumf (fun i => dr_w logit r2 G P cfg X g p i * y i) (cell8 r2 G P T g p t)).
    { intros g p t. rewrite (sumf_perm _ _ _ (cell8_perm r1 r2 G P T g p t Hp)). apply sumf_ext_all. intros i. f_equal.
      unfold dr_w. rewrite !(ratio_perm cfg r1 r2) by auto. reflexivity. }
    assert (EF : forall t, len (filter (fun i => Reqb (T i) t) r1) = len (filter (fun i => Reqb (T i) t) r2)) by (intros t; apply len_perm, filter_perm; auto).
    unfold part. rewrite !EN, !EF, !(pref_perm r1 r2) by auto. reflexivity.
  - unfold dr_se. f_equal. apply sumf_ext_all. intros [[g p] t]. pose proof (cell8_perm r1 r2 G P T g p t Hp) as Hc.
    unfold dr_cell_var. rewrite (Permutation_length Hc), (len_perm _ _ Hc), (variance_perm _ (map y (cell8 r2 G P T g p t))) by (apply Permutation_map; auto). reflexivity.
Qed.

Definition same_numbers (a b : ddd_result) : Prop :=
  tr_att a = tr_att b /\ tr_se a = tr_se b /\ tr_t a = tr_t b /\ tr_p a = tr_p b /\ tr_ci a = tr_ci b.
Lemma est_same cfg cl r1 r2 y G P T covs a b oa ob : Permutation r1 r2 ->
  fit cfg cl r1 y G P T covs = Ok a -> fit cfg cl r2 y G P T covs = Ok b ->
  est cfg r1 (f y) (f G) (f P) (f T) (map (fun c => f c) covs) = Ok oa -> est cfg r2 (f y) (f G) (f P) (f T) (map (fun c => f c) covs) = Ok ob ->
  do_att oa = do_att ob -> do_se oa = do_se ob -> same_numbers a b.
Proof.
  intros Hp H1 H2 E1 E2 Ea Es.
  destruct (fit_inv keq qr lstsq inv pinv sf ppf logit _ _ _ _ _ _ _ _ _ H1) as (_ & o1 & HO1 & A1 & A2 & _ & A3 & A4 & A5 & _).
  destruct (fit_inv keq qr lstsq inv pinv sf ppf logit _ _ _ _ _ _ _ _ _ H2) as (_ & o2 & HO2 & B1 & B2 & _ & B3 & B4 & B5 & _).
  rewrite E1 in HO1. injection HO1 as <-. rewrite E2 in HO2. injection HO2 as <-. rewrite (Permutation_length Hp) in *.
  unfold same_numbers. rewrite A1, B1, A2, B2, A4, B4, A5, B5, A3, B3, Ea, Es. repeat split.
Qed.
Theorem weighting_row_order cfg cl r1 r2 y G P T covs a b : Permutation r1 r2 -> dd_method cfg <> "reg"%string ->
  fit cfg cl r1 y G P T covs = Ok a -> fit cfg cl r2 y G P T covs = Ok b -> same_numbers a b.
Proof.
  intros Hp Hm H1 H2. set (X := map (fun c => f c) covs).
  destruct (String.eqb_spec (dd_method cfg) "ipw") as [Hi|Hi].
  - assert (E : forall rows, est cfg rows (f y) (f G) (f P) (f T) X = Ok (ddd_ipw logit cfg rows (f y) (f G) (f P) (f T) X)).
    { intros rows. unfold ddd_est. rewrite Hi. reflexivity. }
    apply (est_same cfg cl r1 r2 y G P T covs a b _ _ Hp H1 H2 (E r1) (E r2)); rewrite (ipw_perm cfg r1 r2) by auto; reflexivity.
  - assert (E : forall rows, est cfg rows (f y) (f G) (f P) (f T) X = Ok (ddd_dr keq qr lstsq inv logit cfg rows (f y) (f G) (f P) (f T) X)).
    { intros rows. unfold ddd_est. destruct (String.eqb_spec (dd_method cfg) "reg"); [contradiction|]. destruct (String.eqb_spec (dd_method cfg) "ipw"); [contradiction|]. reflexivity. }
    apply (est_same cfg cl r1 r2 y G P T covs a b _ _ Hp H1 H2 (E r1) (E r2)); cbn [ddd_dr do_att do_se]; f_equal.
    + exact (proj1 (dr_perm cfg r1 r2 (f y) _ _ (f G) (f P) (f T) X Hp)).
    + exact (proj2 (dr_perm cfg r1 r2 (f y) (f y) (f y) (f G) (f P) (f T) X Hp)).
Qed.
End Order.

Theorem reg_row_order cfg cl r1 r2 y G P T covs a b : qr_ok qr -> lstsq_ok lstsq -> inv_ok inv -> Permutation r1 r2 -> dd_method cfg = "reg"%string ->
  identified_col r1 (ddd_design (f G) (f P) (f T) (map (fun c => f c) covs)) 7 ->
  fit cfg cl r1 y G P T covs = Ok a -> fit cfg cl r2 y G P T covs = Ok b -> same_numbers a b.
Proof.
  intros Hqr Hls Hinv Hp Hm Hid H1 H2. set (X := map (fun c => f c) covs) in *.
  destruct (fit_inv keq qr lstsq inv pinv sf ppf logit _ _ _ _ _ _ _ _ _ H1) as (_ & o1 & HO1 & _).
  destruct (fit_inv keq qr lstsq inv pinv sf ppf logit _ _ _ _ _ _ _ _ _ H2) as (_ & o2 & HO2 & _).
  fold X in HO1, HO2. assert (HO1' := HO1). assert (HO2' := HO2). unfold ddd_est in HO1, HO2. rewrite Hm in HO1, HO2. simpl in HO1, HO2.
  destruct (reg_inv keq qr lstsq inv pinv sf ppf _ _ _ _ _ _ _ _ HO1) as (g1 & ER1 & EA1 & ES1).
  destruct (reg_inv keq qr lstsq inv pinv sf ppf _ _ _ _ _ _ _ _ HO2) as (g2 & ER2 & EA2 & ES2).
  pose proof (identified_dual r1 _ _ Hid) as D.
  destruct (linreg_perm keq qr lstsq inv pinv Hqr Hls Hinv _ _ _ _ r1 r2 _ (f y) g1 g2 7%nat _ Hp D ER1 ER2) as (C & V & _).
  eapply (est_same cfg cl r1 r2); eauto.
  - rewrite EA1, EA2, C. reflexivity.
  - rewrite ES1, ES2, V. reflexivity.
Qed.
End S.

(* ---- concrete data ---- *)
From Verif Require Import Staggered_more Triple_ex.
Section Ex.
Variable pinv : list b3 -> list (b3 -> R) -> nat -> nat -> R.
Variable logit : list b3 -> list (b3 -> R) -> (b3 -> R) -> option (b3 -> R).
Notation fit := (ddd_fit Z.eq_dec (@gs_dropped b3) (@gs b3) (@gs_inv b3) pinv toy_sf toy_ppf logit).
Notation f x := (fun i => oR (x i)).

Lemma ex9_identified : identified_col rows9 (ddd_design (f gB) (f pB) (f tB) []) 7.
Proof.
  assert (HV : ddd_validate rows9 (cst 0) gB pB tB [] = Ok tt) by (apply valid9; [intros i; discriminate|constructor]).
  apply validate_ok in HV. destruct HV as (_ & _ & _ & _ & _ & ZG & ZP & ZT & H8).
  apply indep_identified; [|cbn; lia]. apply ddd_indep; auto.
Qed.
Theorem ex9_fits m cl y : m <> "reg"%string -> (forall i, y i <> None) -> exists r, fit (cfgm m) cl rows9 y gB pB tB [] = Ok r.
Proof.
  intros Hm Hy. assert (HV : ddd_validate rows9 y gB pB tB [] = Ok tt) by (apply valid9; [exact Hy|constructor]).
  apply valid_fits; auto.
Qed.
Theorem ex9_fits_reg cl y : (forall i, y i <> None) -> exists r, fit cfgc cl rows9 y gB pB tB [] = Ok r.
Proof.
  intros Hy. assert (HV : ddd_validate rows9 y gB pB tB [] = Ok tt) by (apply valid9; [exact Hy|constructor]).
  unfold ddd_fit. rewrite HV. cbn [bind dd_method cfgc]. change (String.eqb "reg" "reg") with true. cbn iota.
  unfold ddd_reg, linreg_fit, solve_ols. cbn [dd_robust cfgc dd_action map].
  change (Nat.ltb (length rows9) (length (ddd_design (f gB) (f pB) (f tB) []))) with false.
  change (parse_action "warn") with (Some ActWarn). cbn iota.
  destruct (gs_dropped rows9 (ddd_design (f gB) (f pB) (f tB) [])) as [|d0 ds] eqn:EQ; [cbn [bind]; eexists; reflexivity|]. rewrite <- EQ.
  cbv zeta. rewrite (kept_nonzero (@gs_dropped b3) rows9 (ddd_design (f gB) (f pB) (f tB) []) (fun _ => 1) (hd (true,true,true) rows9) gs_dropped_ok);
    [cbn [bind]; eexists; reflexivity|now left|now left|lra].
Qed.
(* the standard error of ipw moves with the level of the outcome, the estimate of dr too *)
Theorem level_not_ignored cl : exists a b c d,
  fit (cfgm "ipw") cl rows8 (cst 0) gB pB tB [] = Ok a /\ fit (cfgm "ipw") cl rows8 (cst 1) gB pB tB [] = Ok b /\ tr_se a <> tr_se b /\
  fit (cfgm "dr") cl rows9 (cst 0) gB pB tB [] = Ok c /\ fit (cfgm "dr") cl rows9 (cst 1) gB pB tB [] = Ok d /\ tr_att c <> tr_att d.
Proof.
  destruct (ipw8 (@gs_dropped b3) (@gs b3) (@gs_inv b3) pinv toy_sf toy_ppf logit cl 0) as (a & Ha & _ & Sa).
  destruct (ipw8 (@gs_dropped b3) (@gs b3) (@gs_inv b3) pinv toy_sf toy_ppf logit cl 1) as (b & Hb & _ & Sb).
  destruct (dr9 (@gs_dropped b3) (@gs b3) (@gs_inv b3) pinv toy_sf toy_ppf logit cl 0) as (c & Hc & Ac & _).
  destruct (dr9 (@gs_dropped b3) (@gs b3) (@gs_inv b3) pinv toy_sf toy_ppf logit cl 1) as (d & Hd & Ad & _).
  exists a, b, c, d. split; [exact Ha|]. split; [exact Hb|]. split.
  { rewrite Sa, Sb. intros E. injection E as E. replace (16 * (0 * 0) / 7) with 0 in E by field. rewrite sqrt_0 in E.
    assert (0 < sqrt (16 * (1 * 1) / 7)) by (apply sqrt_lt_R0; lra). lra. }
  split; [exact Hc|]. split; [exact Hd|]. rewrite Ac, Ad. intros E. injection E as E. lra.
Qed.
End Ex.

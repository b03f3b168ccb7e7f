(* What the regression layer reports for an identified coefficient when the outcome is rescaled and a
   combination of the regressors is added to it, and when the rows are permuted. *)
From Verif Require Import Prelude Flt Linalg_model Linalg_proofs Linalg_vcov Linalg_thms Linalg_dual Linalg_rank Did_proofs Did_equiv Linalg_span.
From Coq Require Import Arith ZArith String List Permutation.
Import ListNotations.
Open Scope R_scope.

Lemma fdiv_scale2 s x d : s <> 0 -> fdiv (Fin (s * s * x)) (Fin d) = fmul (Fin (s * s)) (fdiv (Fin x) (Fin d)).
Proof.
  intros Hs. assert (0 < s * s) by (destruct (Rlt_dec 0 s); nra). simpl. destruct (Req_EM_T d 0) as [->|Hd].
  - unfold fsgn_inf. destruct (Rlt_dec 0 x).
    + destruct (Rlt_dec 0 (s * s * x)); [|nra]. simpl. unfold fsgn_inf. destruct (Rlt_dec 0 (s * s)); [reflexivity|lra].
    + destruct (Rlt_dec x 0).
      * destruct (Rlt_dec 0 (s * s * x)); [nra|]. destruct (Rlt_dec (s * s * x) 0); [|nra]. simpl. unfold fsgn_inf. destruct (Rlt_dec 0 (s * s)); [reflexivity|lra].
      * destruct (Rlt_dec 0 (s * s * x)); [nra|]. destruct (Rlt_dec (s * s * x) 0); [nra|]. reflexivity.
  - simpl. f_equal. field. exact Hd.
Qed.
Lemma fmul_scale2 s m b : s <> 0 -> fmul (fmul (Fin (s * s)) m) (Fin b) = fmul (Fin (s * s)) (fmul m (Fin b)).
Proof.
  intros Hs. assert (Hp : 0 < s * s) by (destruct (Rlt_dec 0 s); nra). revert Hp. generalize (s * s). intros c Hp.
  assert (P : forall x y z : fl, fsgn_inf c x y z = x) by (intros; unfold fsgn_inf; destruct (Rlt_dec 0 c); [reflexivity|lra]).
  destruct m as [r| | |]; simpl; rewrite ?P; try reflexivity.
  - f_equal; ring.
  - cbn [fmul]. unfold fsgn_inf at 1 2. destruct (Rlt_dec 0 b); [simpl; rewrite ?P; reflexivity|]. destruct (Rlt_dec b 0); [simpl; rewrite ?P; reflexivity|reflexivity].
  - cbn [fmul]. unfold fsgn_inf at 1 2. destruct (Rlt_dec 0 b); [simpl; rewrite ?P; reflexivity|]. destruct (Rlt_dec b 0); [simpl; rewrite ?P; reflexivity|reflexivity].
Qed.

Section S.
Context {I K : Type} (eqd : forall x y : K, {x = y} + {x <> y}).
Variable qr : list I -> list (I -> R) -> list nat.
Variable lstsq : list I -> list (I -> R) -> (I -> R) -> list R.
Variable inv : list I -> list (I -> R) -> option (nat -> nat -> R).
Variable pinv : list I -> list (I -> R) -> nat -> nat -> R.
Hypothesis Hqr : qr_ok qr.
Hypothesis Hls : lstsq_ok lstsq.
Hypothesis Hinv : inv_ok inv.
Notation solve := (solve_ols eqd qr lstsq inv).
Notation lfit := (linreg_fit eqd qr lstsq inv pinv).

Lemma score_ss_scale (rows : list I) q e s cluster : score_ss eqd rows q (fun i => s * e i) cluster = s * s * score_ss eqd rows q e cluster.
Proof.
  destruct cluster as [cl|]; cbn [score_ss]; rewrite <- sumf_scal; apply sumf_ext_all; intros a.
  - rewrite (sumf_ext_all (fun i => q i * (s * e i)) (fun i => s * (q i * e i))) by (intros; ring). rewrite sumf_scal. ring.
  - ring.
Qed.

(* success does not depend on the outcome *)
Lemma linreg_ok_outcome robust cluster action nabs rows cols y y' :
  is_ok (lfit robust cluster action nabs rows cols y) = is_ok (lfit robust cluster action nabs rows cols y').
Proof.
  unfold linreg_fit.
  pose proof (solve_ols_defined eqd qr lstsq inv rows cols y y' cluster (match cluster with Some _ => true | None => robust end) action) as H.
  destruct (solve_ols _ _ _ _ _ _ y _ _ _), (solve_ols _ _ _ _ _ _ y' _ _ _); simpl in *; congruence.
Qed.
Lemma linreg_ok_outcome_ex robust cluster action nabs rows cols y y' reg :
  lfit robust cluster action nabs rows cols y = Ok reg -> exists reg', lfit robust cluster action nabs rows cols y' = Ok reg'.
Proof. intros H. apply is_ok_ex. rewrite (linreg_ok_outcome _ _ _ _ _ _ y' y), H. reflexivity. Qed.

Lemma is_ls_shift (rows : list I) cols y y' s m b b' :
  (forall i, In i rows -> y' i = s * y i + m i) -> span rows cols m ->
  is_ls rows cols y b -> is_ls rows cols y' b' ->
  forall i, In i rows -> y' i - lc cols b' i = s * (y i - lc cols b i).
Proof.
  intros Hy [c [Lc Hm]] Hb Hb' i Hi.
  assert (Hx : is_ls rows cols y' (vadd (vscal s b) c)).
  { apply (ls_ext rows _ (fun i => s * y i + m i)); [intros; symmetry; auto|].
    apply (ls_add rows _ (fun i => s * y i) m); [apply ls_scal; auto|]. apply ls_exact; auto. }
  rewrite (ls_fitted_unique rows cols y' b' _ Hb' Hx i Hi).
  rewrite lc_vadd by (rewrite ?vscal_length; first [apply Hb|exact Lc]).
  rewrite lc_vscal, <- Hm, Hy by auto. ring.
Qed.

Theorem linreg_shift robust cluster action nabs rows cols y y' s m reg reg' j q :
  s <> 0 -> (forall i, In i rows -> y' i = s * y i + m i) -> span rows cols m -> dual rows cols j q ->
  lfit robust cluster action nabs rows cols y = Ok reg -> lfit robust cluster action nabs rows cols y' = Ok reg' ->
  nth j (l_coef reg) NaN = Fin (ip rows q y) /\ nth j (l_coef reg') NaN = Fin (s * ip rows q y + ip rows q m) /\
  l_vcov reg' j j = fmul (Fin (s * s)) (l_vcov reg j j) /\ l_df reg' = l_df reg /\
  (forall i, In i rows -> l_resid reg' i = s * l_resid reg i).
Proof.
  intros Hs Hy Hm D H H'.
  destruct (linreg_fit_inv eqd qr lstsq inv pinv _ _ _ _ _ _ _ _ H) as (o & Ho & Ec & Er & Ef & Ed & EV).
  destruct (linreg_fit_inv eqd qr lstsq inv pinv _ _ _ _ _ _ _ _ H') as (o' & Ho' & Ec' & Er' & Ef' & Ed' & EV').
  destruct (solve_ols_shape eqd qr lstsq inv Hls _ _ _ _ _ _ _ Ho) as (_ & C & _ & _ & _ & Hv & _).
  destruct (solve_ols_shape eqd qr lstsq inv Hls _ _ _ _ _ _ _ Ho') as (_ & C' & _ & _ & _ & Hv' & _).
  assert (N : n_reported (o_coef o') = n_reported (o_coef o)) by (rewrite C, C', !n_reported_kept; reflexivity).
  destruct (resid_coef eqd qr lstsq inv pinv Hqr Hls _ _ _ _ _ _ _ _ H) as (_ & L1 & R1).
  destruct (resid_coef eqd qr lstsq inv pinv Hqr Hls _ _ _ _ _ _ _ _ H') as (_ & L1' & R1').
  assert (RE : forall i, In i rows -> l_resid reg' i = s * l_resid reg i).
  { intros i Hi. rewrite R1, R1'. exact (is_ls_shift rows cols y y' s m _ _ Hy Hm L1 L1' i Hi). }
  destruct (ols_dual eqd qr lstsq inv Hqr Hls Hinv _ _ _ _ _ _ _ _ _ Ho D) as (A1 & A2 & _ & _).
  destruct (ols_dual eqd qr lstsq inv Hqr Hls Hinv _ _ _ _ _ _ _ _ _ Ho' D) as (A1' & A2' & _ & _).
  split; [now rewrite Ec, A1|]. split.
  { rewrite Ec', A1'. f_equal. unfold ip. rewrite <- sumf_scal, <- sumf_add. apply sumf_ext. intros i Hi. rewrite Hy by auto. ring. }
  split; [|split; [|exact RE]].
  - rewrite EV, EV'. pose proof (classical_dual eqd qr lstsq inv pinv Hqr Hls Hinv _ _ _ _ _ _ _ _ _ Ho D) as K1.
    pose proof (classical_dual eqd qr lstsq inv pinv Hqr Hls Hinv _ _ _ _ _ _ _ _ _ Ho' D) as K2.
    destruct (match cluster with Some _ => true | None => robust end) eqn:Erv.
    + destruct (A2 eq_refl) as (W & -> & -> & _). destruct (A2' eq_refl) as (W' & -> & -> & _). rewrite N. simpl fmul. f_equal.
      rewrite (score_ss_ext eqd rows q q (o_resid o') (fun i => s * o_resid o i)); [|auto|intros i Hi; rewrite <- Er, <- Er'; auto].
      rewrite score_ss_scale. ring.
    + rewrite Hv, Hv', K1, K2, N.
      rewrite (sumf_ext (fun i => o_resid o' i * o_resid o' i) (fun i => s * s * (o_resid o i * o_resid o i)))
        by (intros i Hi; rewrite <- Er, <- Er'; rewrite RE by auto; ring).
      rewrite sumf_scal, fdiv_scale2, fmul_scale2 by auto. reflexivity.
  - rewrite Ed, Ed'. unfold fit_df. rewrite !n_effective_reported, N. reflexivity.
Qed.

Lemma ols_is_ls rows cols y cluster rv action o : solve rows cols y cluster rv action = Ok o ->
  is_ls rows cols y (map nan_to_zero (o_coef o)) /\ (forall i, o_resid o i = y i - lc cols (map nan_to_zero (o_coef o)) i).
Proof.
  intros Ho.
  destruct (solve_ols_projection eqd qr lstsq inv Hqr Hls _ _ _ _ _ _ _ Ho) as (Horth & _ & Hres).
  pose proof (solve_ols_predict eqd qr lstsq inv Hls _ _ _ _ _ _ _ Ho) as Hp.
  destruct (solve_ols_nan_exactly_dropped eqd qr lstsq inv Hls _ _ _ _ _ _ _ Ho) as (HL & _).
  unfold predict in Hp.
  assert (HE : forall i, o_resid o i = y i - lc cols (map nan_to_zero (o_coef o)) i).
  { intros i. rewrite Hres, <- Hp. reflexivity. }
  split; [|exact HE]. split; [rewrite map_length; exact HL|].
  apply Forall_forall. intros c Hc. rewrite <- (Horth c Hc). apply sumf_ext; intros; rewrite HE; reflexivity.
Qed.

(* the whole covariance matrix, identified or not *)
Lemma solve_shift rows cols y y' s m cluster rv action o o' :
  s <> 0 -> (forall i, In i rows -> y' i = s * y i + m i) -> span rows cols m ->
  solve rows cols y cluster rv action = Ok o -> solve rows cols y' cluster rv action = Ok o' ->
  (forall i, In i rows -> o_resid o' i = s * o_resid o i) /\ n_reported (o_coef o') = n_reported (o_coef o) /\
  finite_positions (o_coef o') = finite_positions (o_coef o) /\
  (rv = true -> exists V V', o_vcov o = Some V /\ o_vcov o' = Some V' /\
     forall a b, (a < length cols)%nat -> (b < length cols)%nat -> V' a b = fmul (Fin (s * s)) (V a b)).
Proof.
  intros Hs Hy Hm Ho Ho'.
  destruct (solve_ols_shape eqd qr lstsq inv Hls _ _ _ _ _ _ _ Ho) as (_ & C & _ & Rs & _ & Hv & _).
  destruct (solve_ols_shape eqd qr lstsq inv Hls _ _ _ _ _ _ _ Ho') as (_ & C' & _ & Rs' & _ & Hv' & _).
  destruct (ols_is_ls _ _ _ _ _ _ _ Ho) as (L1 & R1).
  destruct (ols_is_ls _ _ _ _ _ _ _ Ho') as (L1' & R1').
  assert (RE : forall i, In i rows -> o_resid o' i = s * o_resid o i).
  { intros i Hi. rewrite R1, R1'. exact (is_ls_shift rows cols y y' s m _ _ Hy Hm L1 L1' i Hi). }
  split; [exact RE|]. split; [rewrite C, C', !n_reported_kept; reflexivity|]. split; [rewrite C, C', !finite_positions_kept; reflexivity|].
  intros ->. destruct Hv as (V & V1 & W & EV & HE). destruct Hv' as (V' & V1' & W' & EV' & HE').
  exists W, W'. split; [exact EV|]. split; [exact EV'|]. intros a b Ha Hb. rewrite HE, HE' by auto. unfold expand_vcov.
  set (kept := kept_cols (length cols) (qr rows cols)) in *. set (xr := select_cols cols kept) in *.
  assert (Hlx : length xr = length kept) by (unfold xr, select_cols; apply map_length).
  destruct (index_of a kept) as [p|] eqn:Ep; [|reflexivity]. destruct (index_of b kept) as [q|] eqn:Eq; [|reflexivity].
  destruct (index_of_some _ _ _ Ep) as [Hp _]. destruct (index_of_some _ _ _ Eq) as [Hq0 _]. simpl. f_equal.
  rewrite <- Hlx in Hp, Hq0. set (e := fun i => y i - lc xr (lstsq rows xr y) i) in *.
  assert (Hsok : is_ok (robust_vcov eqd inv rows xr (fun i => s * e i) cluster) = true).
  { rewrite (robust_vcov_defined eqd inv rows xr _ e), V1. reflexivity. }
  destruct (is_ok_ex _ Hsok) as [Vs EVs].
  rewrite (robust_vcov_resid_ext eqd inv Hinv rows xr _ (fun i => s * e i) cluster V' Vs) with (2 := V1') (3 := EVs); auto.
  - exact (robust_vcov_scale eqd inv Hinv rows xr _ s cluster V Vs V1 EVs p q Hp Hq0).
  - intros i Hi. unfold e. rewrite <- Rs, <- Rs'. auto.
Qed.

Theorem linreg_shift_vcov robust cluster action nabs rows cols y y' s m reg reg' :
  s <> 0 -> (forall i, In i rows -> y' i = s * y i + m i) -> span rows cols m ->
  lfit robust cluster action nabs rows cols y = Ok reg -> lfit robust cluster action nabs rows cols y' = Ok reg' ->
  (forall a b, (a < length cols)%nat -> (b < length cols)%nat -> l_vcov reg' a b = fmul (Fin (s * s)) (l_vcov reg a b)) /\
  l_df reg' = l_df reg /\ (forall i, In i rows -> l_resid reg' i = s * l_resid reg i).
Proof.
  intros Hs Hy Hm H H'.
  destruct (linreg_fit_inv eqd qr lstsq inv pinv _ _ _ _ _ _ _ _ H) as (o & Ho & Ec & Er & Ef & Ed & EV).
  destruct (linreg_fit_inv eqd qr lstsq inv pinv _ _ _ _ _ _ _ _ H') as (o' & Ho' & Ec' & Er' & Ef' & Ed' & EV').
  destruct (solve_ols_shape eqd qr lstsq inv Hls _ _ _ _ _ _ _ Ho) as (_ & _ & _ & _ & _ & Hv & _).
  destruct (solve_ols_shape eqd qr lstsq inv Hls _ _ _ _ _ _ _ Ho') as (_ & _ & _ & _ & _ & Hv' & _).
  destruct (solve_shift _ _ _ _ _ _ _ _ _ _ _ Hs Hy Hm Ho Ho') as (RE & N & F & VV).
  split; [|split; [|intros i Hi; rewrite Er, Er'; auto]].
  - intros a b Ha Hb. rewrite EV, EV'. destruct (match cluster with Some _ => true | None => robust end) eqn:Erv.
    + destruct (VV eq_refl) as (V & V' & -> & -> & HV). auto.
    + rewrite Hv, Hv'. unfold classical_vcov. rewrite F.
      destruct (_ =? _)%nat; [reflexivity|]. destruct (index_of a _); [|reflexivity]. destruct (index_of b _); [|reflexivity].
      rewrite (sumf_ext (fun i => o_resid o' i * o_resid o' i) (fun i => s * s * (o_resid o i * o_resid o i))) by (intros i Hi; rewrite RE by auto; ring).
      rewrite sumf_scal, fdiv_scale2, fmul_scale2 by auto. reflexivity.
  - rewrite Ed, Ed'. unfold fit_df. rewrite !n_effective_reported, N. reflexivity.
Qed.

(* ---- permuted rows ---- *)
Lemma span_perm (r1 r2 : list I) cols m : Permutation r1 r2 -> span r1 cols m -> span r2 cols m.
Proof. intros P [c [L H]]. exists c. split; auto. intros i Hi. apply H. apply (Permutation_in _ (Permutation_sym P)); auto. Qed.
Lemma ip_perm (r1 r2 : list I) f h : Permutation r1 r2 -> ip r1 f h = ip r2 f h.
Proof. intros P. apply sumf_perm; auto. Qed.
Lemma dual_perm (r1 r2 : list I) cols j q : Permutation r1 r2 -> dual r1 cols j q -> dual r2 cols j q.
Proof.
  intros P (Hj & Hs & Hq). split; auto. split; [apply (span_perm r1); auto|]. intros a Ha. rewrite <- (ip_perm r1 r2) by auto. auto.
Qed.
Lemma score_ss_perm (r1 r2 : list I) q e cluster : Permutation r1 r2 -> score_ss eqd r1 q e cluster = score_ss eqd r2 q e cluster.
Proof.
  intros P. destruct cluster as [cl|]; cbn [score_ss]; [|apply sumf_perm; auto].
  rewrite (sumf_perm _ _ _ (cl_keys_perm eqd r1 r2 cl P)). apply sumf_ext_all. intros g.
  rewrite (sumf_perm _ _ _ (filter_perm (fun i => keqb eqd (cl i) g) r1 r2 P)). reflexivity.
Qed.
Lemma adj_k_perm (r1 r2 : list I) k cluster : Permutation r1 r2 -> adj_k eqd r1 k cluster = adj_k eqd r2 k cluster.
Proof.
  intros P. unfold adj_k. rewrite (Permutation_length P). destruct cluster as [cl|]; auto.
  rewrite (Permutation_length (cl_keys_perm eqd r1 r2 cl P)). reflexivity.
Qed.
Lemma rank_perm r1 r2 cols : Permutation r1 r2 ->
  length (kept_cols (length cols) (qr r1 cols)) = length (kept_cols (length cols) (qr r2 cols)).
Proof.
  intros P. assert (P' := Permutation_sym P).
  pose proof (kept_same_span qr r1 cols Hqr) as K1. pose proof (kept_same_span qr r2 cols Hqr) as K2.
  destruct (Hqr r1 cols) as [_ B1]. destruct (Hqr r2 cols) as [_ B2].
  assert (E : same_span r1 (select_cols cols (kept_cols (length cols) (qr r1 cols))) (select_cols cols (kept_cols (length cols) (qr r2 cols)))).
  { apply (same_span_trans _ _ cols); [exact K1|]. destruct K2 as [S1 S2]. apply same_span_sym.
    split; intros c Hc; apply (span_perm r2); auto. }
  apply (indep_same_length r1 _ _ B1 (indep_perm r2 r1 _ P' B2)) in E.
  unfold select_cols in E. rewrite !map_length in E. exact E.
Qed.

Theorem linreg_perm robust cluster action nabs r1 r2 cols y reg1 reg2 j q :
  Permutation r1 r2 -> dual r1 cols j q ->
  lfit robust cluster action nabs r1 cols y = Ok reg1 -> lfit robust cluster action nabs r2 cols y = Ok reg2 ->
  nth j (l_coef reg1) NaN = nth j (l_coef reg2) NaN /\ l_vcov reg1 j j = l_vcov reg2 j j /\ l_df reg1 = l_df reg2 /\
  (forall i, In i r1 -> l_resid reg1 i = l_resid reg2 i).
Proof.
  intros P D H H'. assert (D' := dual_perm r1 r2 cols j q P D).
  destruct (linreg_fit_inv eqd qr lstsq inv pinv _ _ _ _ _ _ _ _ H) as (o & Ho & Ec & Er & Ef & Ed & EV).
  destruct (linreg_fit_inv eqd qr lstsq inv pinv _ _ _ _ _ _ _ _ H') as (o' & Ho' & Ec' & Er' & Ef' & Ed' & EV').
  destruct (solve_ols_shape eqd qr lstsq inv Hls _ _ _ _ _ _ _ Ho) as (_ & C & _ & _ & _ & Hv & _).
  destruct (solve_ols_shape eqd qr lstsq inv Hls _ _ _ _ _ _ _ Ho') as (_ & C' & _ & _ & _ & Hv' & _).
  assert (N : n_reported (o_coef o') = n_reported (o_coef o)) by (rewrite C, C', !n_reported_kept; symmetry; apply rank_perm; auto).
  destruct (resid_coef eqd qr lstsq inv pinv Hqr Hls _ _ _ _ _ _ _ _ H) as (_ & L1 & R1).
  destruct (resid_coef eqd qr lstsq inv pinv Hqr Hls _ _ _ _ _ _ _ _ H') as (_ & L1' & R1').
  assert (RE : forall i, In i r1 -> l_resid reg1 i = l_resid reg2 i).
  { intros i Hi. rewrite R1, R1'. f_equal. apply (ls_fitted_unique r1 cols y); auto. apply (ls_perm r2); [apply Permutation_sym; auto|auto]. }
  destruct (ols_dual eqd qr lstsq inv Hqr Hls Hinv _ _ _ _ _ _ _ _ _ Ho D) as (A1 & A2 & _ & _).
  destruct (ols_dual eqd qr lstsq inv Hqr Hls Hinv _ _ _ _ _ _ _ _ _ Ho' D') as (A1' & A2' & _ & _).
  split; [rewrite Ec, Ec', A1, A1'; f_equal; apply ip_perm; auto|].
  split; [|split; [|exact RE]].
  - rewrite EV, EV'. pose proof (classical_dual eqd qr lstsq inv pinv Hqr Hls Hinv _ _ _ _ _ _ _ _ _ Ho D) as K1.
    pose proof (classical_dual eqd qr lstsq inv pinv Hqr Hls Hinv _ _ _ _ _ _ _ _ _ Ho' D') as K2.
    destruct (match cluster with Some _ => true | None => robust end) eqn:Erv.
    + destruct (A2 eq_refl) as (W & -> & -> & _). destruct (A2' eq_refl) as (W' & -> & -> & _). rewrite N. f_equal.
      rewrite (adj_k_perm r1 r2) by auto. f_equal.
      rewrite (score_ss_ext eqd r1 q q (o_resid o) (o_resid o')); [|auto|intros i Hi; rewrite <- Er, <- Er'; auto].
      apply score_ss_perm; auto.
    + rewrite Hv, Hv', K1, K2, N, (Permutation_length P), (ip_perm r1 r2) by auto.
      rewrite <- (sumf_perm (fun i => o_resid o' i * o_resid o' i) r1 r2 P).
      rewrite (sumf_ext (fun i => o_resid o' i * o_resid o' i) (fun i => o_resid o i * o_resid o i))
        by (intros i Hi; rewrite <- Er, <- Er'; rewrite RE by auto; ring). reflexivity.
  - rewrite Ed, Ed'. unfold fit_df. rewrite !n_effective_reported, N, (Permutation_length P). reflexivity.
Qed.
End S.

(* DifferenceInDifferences and MultiPeriodDiD: terms that the design already contains (group and period effects, covariates,
   dummies) can be added to the outcome without changing the estimates or their inference; rescaling the outcome rescales them. *)
From Coq Require Import Reals Lra Lia.
From Verif Require Import Prelude Flt Linalg_model Linalg_proofs Linalg_vcov Linalg_thms Linalg_dual Linalg_rank Linalg_span Did_model Did_spec Did_proofs Did_equiv Multi_model Multi_proofs Multi_thms Fit_more Scale_flt Absorb_thms Span_thms Absorb_ex Reg_equiv.
From Coq Require Import Arith ZArith String List.
Import ListNotations.
Open Scope R_scope.

(* every column but the j-th, and: the j-th column is not a combination of them *)
Definition others {I} (cols : list (I -> R)) (j : nat) : list (I -> R) := firstn j cols ++ skipn (S j) cols.
Definition identified_col {I} (rows : list I) (cols : list (I -> R)) (j : nat) : Prop :=
  (j < length cols)%nat /\ ~ span rows (others cols j) (colx cols j).

Section Others.
Context {I : Type}.
Implicit Types (rows : list I) (cols : list (I -> R)).
Lemma others_in cols j c : In c (others cols j) -> In c cols.
Proof.
  unfold others. revert j. induction cols as [|x cols IH]; intros [|j] H; cbn in H; try contradiction; [right; exact H|]. destruct H as [H|H]; [left; auto|right; apply (IH j H)].
Qed.
Lemma others_colx cols j a : (a < length cols)%nat -> a <> j -> In (colx cols a) (others cols j).
Proof.
  unfold others, colx. revert j a. induction cols as [|x cols IH]; intros j a Ha Hn; cbn in Ha; [lia|].
  destruct j as [|j], a as [|a]; cbn.
  - congruence.
  - apply nth_In. lia.
  - left; reflexivity.
  - right. apply IH; lia.
Qed.
Lemma identified_dual rows cols j : identified_col rows cols j -> dual rows cols j (fwl_q rows (others cols j) (colx cols j)).
Proof.
  intros [Hj Hn]. apply fwl_dual; auto.
  - intros x Hx. apply span_in. eapply others_in; eauto.
  - intros a Ha Hne. apply span_in. apply others_colx; auto.
Qed.
(* the two notions of identification agree *)
Lemma dual_identified_col rows cols j q : dual rows cols j q -> identified_col rows cols j.
Proof.
  intros (Hj & Hs & Hq). split; auto. intros Hsp.
  assert (Z : ip rows (colx cols j) q = 0).
  { refine (orth_span rows (others cols j) q (colx cols j) _ Hsp). apply Forall_forall. intros c Hc.
    unfold others in Hc. assert (exists a, (a < length cols)%nat /\ a <> j /\ c = colx cols a) as (a & Ha & Hne & ->).
    { clear - Hc. unfold colx. revert j Hc. induction cols as [|x cols IH]; intros [|j] Hc; cbn in Hc; try contradiction.
      - apply (In_nth _ _ (fun _ => 0)) in Hc as (n & Hn & <-). exists (Datatypes.S n). cbn. split; [lia|]. split; [lia|reflexivity].
      - destruct Hc as [<-|Hc]; [exists O; cbn; split; [lia|split; [lia|reflexivity]]|].
        destruct (IH j Hc) as (a & Ha & Hne & ->). exists (Datatypes.S a). cbn. split; [lia|]. split; [lia|reflexivity]. }
    rewrite Hq by auto. apply Nat.eqb_neq in Hne. rewrite Hne. reflexivity. }
  rewrite Hq, Nat.eqb_refl in Z by auto. lra.
Qed.
Lemma dual_orth rows cols j q m : dual rows cols j q -> span rows (others cols j) m -> ip rows q m = 0.
Proof.
  intros D Hm. rewrite ip_sym. refine (orth_span rows (others cols j) q m _ Hm). apply Forall_forall. intros c Hc.
  destruct D as (Hj & _ & Hq).
  assert (exists a, (a < length cols)%nat /\ a <> j /\ c = colx cols a) as (a & Ha & Hne & ->).
  { clear - Hc. unfold others, colx in *. revert j Hc. induction cols as [|x cols IH]; intros [|j] Hc; cbn in Hc; try contradiction.
    - apply (In_nth _ _ (fun _ => 0)) in Hc as (n & Hn & <-). exists (Datatypes.S n). cbn. split; [lia|]. split; [lia|reflexivity].
    - destruct Hc as [<-|Hc]; [exists O; cbn; split; [lia|split; [lia|reflexivity]]|].
      destruct (IH j Hc) as (a & Ha & Hne & ->). exists (Datatypes.S a). cbn. split; [lia|]. split; [lia|reflexivity]. }
  rewrite Hq by auto. apply Nat.eqb_neq in Hne. rewrite Hne. reflexivity.
Qed.
End Others.

(* the t statistics and intervals of the multi-period estimator under rescaling *)
Section Uinf.
Variable sf : option Z -> fl -> fl.
Variable ppf : option Z -> R -> R.
Lemma fabs_scale s x e : s <> 0 -> 0 <= e -> fabs (fdiv (Fin (s * x)) (Fin (Rabs s * e))) = fabs (fdiv (Fin x) (Fin e)).
Proof.
  intros Hs He. assert (Ha : 0 < Rabs s) by (apply Rabs_pos_lt; auto). cbn [fdiv].
  destruct (Req_EM_T e 0) as [->|Hne].
  - destruct (Req_EM_T (Rabs s * 0) 0) as [_|C]; [|exfalso; apply C; ring]. unfold fsgn_inf.
    destruct (Rlt_dec 0 x), (Rlt_dec x 0), (Rlt_dec 0 (s * x)), (Rlt_dec (s * x) 0); try reflexivity; exfalso; try nra.
    all: assert (x = 0) by lra; subst; lra.
  - destruct (Req_EM_T (Rabs s * e) 0) as [C|_]; [exfalso; apply Rmult_integral in C as [C|C]; lra|]. cbn [fabs]. f_equal.
    unfold Rdiv. rewrite !Rabs_mult, !Rabs_inv, Rabs_mult, (Rabs_right e), Rabs_Rabsolu by lra. field. split; [exact Hne|lra].
Qed.
Lemma ci_scale s x e alpha df : s <> 0 -> u_ci ppf (Fin (s * x)) (Fin (Rabs s * e)) alpha df
  = if Rlt_dec 0 s then fscale s (u_ci ppf (Fin x) (Fin e) alpha df) else fswap (fscale s (u_ci ppf (Fin x) (Fin e) alpha df)).
Proof.
  intros Hs. unfold u_ci. destruct (Rlt_dec 0 s).
  - rewrite Rabs_right by lra. destruct (u_ppf ppf df (1 - alpha / 2)) as [c| | |] eqn:E.
    + unfold fscale, fsub. cbn. f_equal; f_equal; ring.
    + reflexivity.
    + exfalso. unfold u_ppf in E. destruct df; [destruct (Z.ltb 0 z)|]; discriminate.
    + exfalso. unfold u_ppf in E. destruct df; [destruct (Z.ltb 0 z)|]; discriminate.
  - rewrite Rabs_left by lra. destruct (u_ppf ppf df (1 - alpha / 2)) as [c| | |] eqn:E.
    + unfold fscale, fswap, fsub. cbn. f_equal; f_equal; ring.
    + reflexivity.
    + exfalso. unfold u_ppf in E. destruct df; [destruct (Z.ltb 0 z)|]; discriminate.
    + exfalso. unfold u_ppf in E. destruct df; [destruct (Z.ltb 0 z)|]; discriminate.
Qed.
End Uinf.

(* sandwich variances, or fewer estimated coefficients than rows *)
Definition variance_defined (robust : bool) {C} (cluster : option C) (n k : nat) : Prop :=
  robust = true \/ cluster <> None \/ (k < n)%nat.

Section Did.
Context {I K G : Type} (keq : forall x y : K, {x = y} + {x <> y}) (geq : forall x y : G, {x = y} + {x <> y}).
Variable qr : list I -> list (I -> R) -> list nat.
Variable lstsq : list I -> list (I -> R) -> (I -> R) -> list R.
Variable inv : list I -> list (I -> R) -> option (nat -> nat -> R).
Variable pinv : list I -> list (I -> R) -> nat -> nat -> R.
Variable sf : option Z -> fl -> fl.
Variable ppf : option Z -> R -> R.
Hypothesis Hqr : qr_ok qr.
Hypothesis Hls : lstsq_ok lstsq.
Hypothesis Hinv : inv_ok inv.
Notation fit := (did_fit keq geq qr lstsq inv pinv sf ppf).
Notation fR x := (fun i => toR (x i)).

Lemma linreg_vcov_fin robust cluster action nabs rows cols y reg a b :
  linreg_fit keq qr lstsq inv pinv robust cluster action nabs rows cols y = Ok reg ->
  variance_defined robust cluster (length rows) (n_reported (l_coef reg)) -> (a < length cols)%nat -> (b < length cols)%nat ->
  fin_or_nan (l_vcov reg a b).
Proof.
  intros H Hvd Ha Hb. destruct (linreg_fit_inv keq qr lstsq inv pinv _ _ _ _ _ _ _ _ H) as (o & Ho & Ec & Er & Ef & Ed & EV).
  destruct (solve_ols_shape keq qr lstsq inv Hls _ _ _ _ _ _ _ Ho) as (_ & C & _ & Rs & _ & Hv & _).
  rewrite EV. destruct (match cluster with Some _ => true | None => robust end) eqn:Erv.
  - destruct Hv as (V & _ & W & -> & HE). rewrite HE by auto. unfold expand_vcov.
    destruct (index_of _ _); [|left; reflexivity]. destruct (index_of _ _); [right; eauto|left; reflexivity].
  - rewrite Hv. unfold classical_vcov. destruct (_ =? _)%nat; [left; reflexivity|].
    destruct (index_of _ _); [|left; reflexivity]. destruct (index_of _ _); [|left; reflexivity].
    right. assert (Hk : (n_reported (l_coef reg) < length rows)%nat).
    { destruct Hvd as [->|[Hc|Hc]]; [destruct cluster; discriminate|destruct cluster; [discriminate|congruence]|exact Hc]. }
    rewrite Ec in Hk. rewrite C, finite_positions_kept in *. rewrite n_reported_kept in Hk. apply lt_INR in Hk.
    cbn [fdiv]. destruct (Req_EM_T _ 0) as [Z|_]; [lra|]. cbn [fmul]. eauto.
Qed.

Theorem did_ignores_design_terms cfg rows y y' d t covs dums r s m :
  let extra := map (fun c => fR c) covs ++ dums in
  s <> 0 -> (forall i, In i rows -> y' i = Fin (s * toR (y i) + m i)) ->
  span rows (main_cols (fR d) (fR t) extra) m -> ~ span rows (main_cols (fR d) (fR t) extra) (inter (fR d) (fR t)) ->
  fit cfg rows y d t covs dums [] = Ok r -> variance_defined (c_robust cfg) (c_cluster cfg) (length rows) (n_reported (r_coef r)) ->
  exists r', fit cfg rows y' d t covs dums [] = Ok r' /\
    r_att r' = fmul (Fin s) (r_att r) /\ r_se r' = fmul (Fin (Rabs s)) (r_se r) /\ r_p r' = r_p r /\ r_signif r' = r_signif r /\
    (0 < s -> r_t r' = r_t r /\ r_ci r' = fscale s (r_ci r)) /\
    (s < 0 -> r_t r' = fneg (r_t r) /\ r_ci r' = fswap (fscale s (r_ci r))) /\
    (forall i, In i rows -> r_resid r' i = s * r_resid r i).
Proof.
  intros extra Hs Hy Hm Hn H Hvd.
  destruct (did_fit_inv keq geq qr lstsq inv pinv sf ppf _ _ _ _ _ _ _ _ _ H)
    as (Ny & Iy & Td & Tt & Zd & Zt & y1 & covs' & nabs & reg & EA & ER & Ha & (Hse & Htt & Hp & Hci & Hsg) & Hcf & _ & Hrs & _).
  cbn [absorb_loop] in EA. injection EA as <- <- <-. fold extra in ER.
  assert (Hy2 : forall i, In i rows -> toR (y' i) = s * toR (y i) + m i) by (intros i Hi; rewrite Hy by auto; reflexivity).
  set (cols := did_design (fR d) (fR t) extra) in *.
  destruct (linreg_ok_outcome_ex keq qr lstsq inv pinv _ _ _ _ _ _ (fR y) (fR y') _ ER) as [reg' ER'].
  assert (Hm' : span rows cols m).
  { apply (span_trans rows (main_cols (fR d) (fR t) extra)); [|exact Hm]. intros c Hc. apply span_in. unfold main_cols in Hc. unfold cols, did_design. cbn [In] in *. tauto. }
  assert (D := did_fwl_dual pinv rows (fR d) (fR t) extra (main_cols (fR d) (fR t) extra) (conj (fun c => span_in _ _ c) (fun c => span_in _ _ c)) Hn).
  fold cols in D. set (q := fwl_q rows (main_cols (fR d) (fR t) extra) (inter (fR d) (fR t))) in *.
  assert (Hqm : ip rows q m = 0).
  { rewrite ip_sym. unfold q, fwl_q. rewrite ip_scal_r, (partial_out_orth rows (main_cols (fR d) (fR t) extra) _ m Hm). ring. }
  destruct (linreg_shift keq qr lstsq inv pinv Hqr Hls Hinv _ _ _ _ rows cols (fR y) (fR y') s m reg reg' 3%nat q Hs Hy2 Hm' D ER ER') as (C1 & C2 & V & Df & Re).
  rewrite Hqm, Rplus_0_r in C2.
  unfold did_fit.
  assert (HN : has_nan rows y' = has_nan rows y).
  { rewrite Ny. unfold has_nan. apply Bool.not_true_iff_false. intros E. apply existsb_exists in E as (i & Hi & E). rewrite Hy in E by auto. discriminate. }
  assert (HI : has_inf rows y' = has_inf rows y).
  { rewrite Iy. unfold has_inf. apply Bool.not_true_iff_false. intros E. apply existsb_exists in E as (i & Hi & E). rewrite Hy in E by auto. discriminate. }
  pose proof (linreg_vcov_fin _ _ _ _ _ _ _ _ 3%nat 3%nat ER) as Hfv. rewrite <- Hcf in Hfv.
  assert (L3 : (3 < length cols)%nat) by (unfold cols, did_design; cbn; lia). specialize (Hfv Hvd L3 L3).
  unfold did_fit in H. cbn [existsb] in H |- *. rewrite HN, HI.
  destruct (has_nan rows y || (has_nan rows d || (has_nan rows t || existsb (has_nan rows) covs))); [discriminate|].
  destruct (negb (two_values rows d)); [discriminate|]. destruct (negb (two_values rows t)); [discriminate|].
  destruct (negb (binary rows d)); [discriminate|]. destruct (negb (binary rows t)); [discriminate|].
  destruct (has_inf rows y || existsb (has_inf rows) covs); [discriminate|]. clear H.
  cbn [absorb_loop]. fold extra. fold cols. rewrite ER'. cbn [bind].
  eexists; split; [reflexivity|]. cbn [r_att r_se r_t r_p r_ci r_signif r_resid].
  rewrite Ha, C1 in Hse, Htt, Hp, Hci, Hsg.
  rewrite Hse, Htt, Hp, Hci, Hsg, Ha, C1, C2, V, Df, Hrs.
  destruct (inference_scale sf ppf (Fin (ip rows q (fR y))) (l_vcov reg 3%nat 3%nat) s None None (c_alpha cfg) (l_df reg) Hs) as (S1 & S2 & S3 & S4).
  { right; eauto. } { exact Hfv. }
  change (fmul (Fin s) (Fin (ip rows q (fR y)))) with (Fin (s * ip rows q (fR y))) in *.
  split; [reflexivity|]. split; [exact S1|]. split; [exact S2|]. split; [rewrite S2; reflexivity|]. split; [exact S3|]. split; [exact S4|exact Re].
Qed.
End Did.

(* the multi-period design without the interactions *)
Definition mp_main {I} (d : I -> R) (t : I -> Z) (all : list Z) (ref : Z) (extra : list (I -> R)) : list (I -> R) :=
  [(fun _ => 1); d] ++ map (at_period t) (filter (fun p => negb (Z.eqb p ref)) all) ++ extra.

(* one period's estimate and inference after rescaling by s *)
Definition effect_scaled (s : R) (e e' : period_effect) : Prop :=
  pe_period e' = pe_period e /\ pe_effect e' = fmul (Fin s) (pe_effect e) /\ pe_se e' = fmul (Fin (Rabs s)) (pe_se e) /\ pe_p e' = pe_p e /\
  (0 < s -> pe_t e' = pe_t e /\ pe_ci e' = fscale s (pe_ci e)) /\
  (s < 0 -> pe_t e' = fneg (pe_t e) /\ pe_ci e' = fswap (fscale s (pe_ci e))).

Section Mp.
Context {I K G : Type} (keq : forall x y : K, {x = y} + {x <> y}) (geq : forall x y : G, {x = y} + {x <> y}).
Variable qr : list I -> list (I -> R) -> list nat.
Variable lstsq : list I -> list (I -> R) -> (I -> R) -> list R.
Variable inv : list I -> list (I -> R) -> option (nat -> nat -> R).
Variable sf : option Z -> fl -> fl.
Variable ppf : option Z -> R -> R.
Hypothesis Hqr : qr_ok qr.
Hypothesis Hls : lstsq_ok lstsq.
Hypothesis Hinv : inv_ok inv.
Notation fit := (mp_fit keq geq qr lstsq inv sf ppf).

Lemma fdiv_sign s x e : s <> 0 -> 0 <= e -> fdiv (Fin (s * x)) (Fin (Rabs s * e)) = if Rlt_dec 0 s then fdiv (Fin x) (Fin e) else fneg (fdiv (Fin x) (Fin e)).
Proof.
  intros Hs He. assert (Ha : 0 < Rabs s) by (apply Rabs_pos_lt; auto). cbn [fdiv].
  destruct (Req_EM_T e 0) as [->|Hne].
  - destruct (Req_EM_T (Rabs s * 0) 0) as [_|C]; [|exfalso; apply C; ring]. unfold fsgn_inf.
    destruct (Rlt_dec 0 s); destruct (Rlt_dec 0 x), (Rlt_dec x 0), (Rlt_dec 0 (s * x)), (Rlt_dec (s * x) 0); try reflexivity; exfalso; try nra.
    all: assert (x = 0) by lra; subst; lra.
  - destruct (Req_EM_T (Rabs s * e) 0) as [C|_]; [exfalso; apply Rmult_integral in C as [C|C]; lra|].
    destruct (Rlt_dec 0 s); cbn [fneg]; f_equal; [rewrite Rabs_right by lra|rewrite Rabs_left by lra]; field; split; lra.
Qed.

Lemma mp_effect_scale alpha df coef coef' (V V' : nat -> nat -> fl) p j s x v : s <> 0 ->
  nth j coef NaN = Fin x -> nth j coef' NaN = Fin (s * x) -> V j j = Fin v -> V' j j = Fin (s * s * v) ->
  effect_scaled s (mp_effect sf ppf alpha df coef V p j) (mp_effect sf ppf alpha df coef' V' p j).
Proof.
  intros Hs E E' EV EV'. unfold mp_effect, effect_scaled. cbn [pe_period pe_effect pe_se pe_t pe_p pe_ci]. rewrite E, E', EV, EV'.
  assert (0 < s * s) by (destruct (Rlt_dec 0 s); nra). cbn [fsqrt].
  destruct (Rlt_dec v 0) as [Hv|Hv].
  - destruct (Rlt_dec (s * s * v) 0); [|nra]. repeat (split; [reflexivity|]). split; intros; unfold u_ci; destruct (u_ppf ppf (Some df) (1 - alpha / 2)); split; reflexivity.
  - destruct (Rlt_dec (s * s * v) 0); [nra|].
    assert (Q : sqrt (s * s * v) = Rabs s * sqrt v) by (rewrite sqrt_mult by lra; f_equal; rewrite <- sqrt_Rsqr_abs; reflexivity).
    rewrite Q. pose proof (sqrt_pos v) as Hq. rewrite fdiv_sign, ci_scale by auto.
    split; [reflexivity|]. split; [reflexivity|]. split; [reflexivity|]. split.
    { unfold u_p_value. destruct (Rlt_dec 0 s); [reflexivity|]. f_equal. f_equal.
      destruct (fdiv (Fin x) (Fin (sqrt v))); cbn; try reflexivity. now rewrite Rabs_Ropp. }
    split; intros; destruct (Rlt_dec 0 s); try lra; split; reflexivity.
Qed.

Lemma mp_vcov_fin rows cols y cfg o V a b :
  solve_ols keq qr lstsq inv rows cols y (c_cluster cfg) true (c_action cfg) = Ok o ->
  (if negb (c_robust cfg) && (match c_cluster cfg with None => true | _ => false end)
   then mp_classical inv rows cols (o_coef o) (o_resid o) else match o_vcov o with Some V => Ok V | None => Err TypeError end) = Ok V ->
  variance_defined (c_robust cfg) (c_cluster cfg) (length rows) (n_reported (o_coef o)) ->
  (a < length cols)%nat -> (b < length cols)%nat -> ~ In a (qr rows cols) -> ~ In b (qr rows cols) ->
  exists v, V a b = Fin v.
Proof.
  intros Ho EV Hvd Ha Hb Na Nb. destruct (solve_ols_shape keq qr lstsq inv Hls _ _ _ _ _ _ _ Ho) as (_ & C & _ & _ & _ & (V1 & _ & W & EW & HE) & _).
  assert (Ka : In a (kept_cols (length cols) (qr rows cols))) by (apply kept_cols_lt; auto).
  assert (Kb : In b (kept_cols (length cols) (qr rows cols))) by (apply kept_cols_lt; auto).
  apply index_of_in in Ka as [pa Ea]. apply index_of_in in Kb as [pb Eb].
  destruct (negb (c_robust cfg) && _) eqn:Ec.
  - apply Bool.andb_true_iff in Ec as [E1 E2]. unfold mp_classical in EV. rewrite C, finite_positions_kept in EV.
    destruct (inv rows _) as [B|]; [|discriminate]. injection EV as <-. rewrite Ea, Eb.
    assert (Hk : (n_reported (o_coef o) < length rows)%nat).
    { destruct Hvd as [Hc|[Hc|Hc]]; [rewrite Hc in E1; discriminate|destruct (c_cluster cfg); [discriminate|congruence]|exact Hc]. }
    rewrite C, n_reported_kept in Hk. apply lt_INR in Hk. cbn [fdiv]. destruct (Req_EM_T _ 0) as [Z|_]; [lra|]. cbn [fmul]. eauto.
  - rewrite EW in EV. injection EV as <-. rewrite HE by auto. unfold expand_vcov. rewrite Ea, Eb. eauto.
Qed.

Lemma mp_vcov_shift rows cols y y' s m cfg o o' V :
  s <> 0 -> (forall i, In i rows -> y' i = s * y i + m i) -> span rows cols m ->
  solve_ols keq qr lstsq inv rows cols y (c_cluster cfg) true (c_action cfg) = Ok o ->
  solve_ols keq qr lstsq inv rows cols y' (c_cluster cfg) true (c_action cfg) = Ok o' ->
  (if negb (c_robust cfg) && (match c_cluster cfg with None => true | _ => false end)
   then mp_classical inv rows cols (o_coef o) (o_resid o) else match o_vcov o with Some V => Ok V | None => Err TypeError end) = Ok V ->
  exists V', (if negb (c_robust cfg) && (match c_cluster cfg with None => true | _ => false end)
   then mp_classical inv rows cols (o_coef o') (o_resid o') else match o_vcov o' with Some V => Ok V | None => Err TypeError end) = Ok V' /\
   forall a b, (a < length cols)%nat -> (b < length cols)%nat -> V' a b = fmul (Fin (s * s)) (V a b).
Proof.
  intros Hs Hy Hm Ho Ho' EV.
  destruct (solve_shift keq qr lstsq inv Hqr Hls Hinv _ _ _ _ _ _ _ _ _ _ _ Hs Hy Hm Ho Ho') as (RE & N & F & VV).
  destruct (negb (c_robust cfg) && _).
  - unfold mp_classical in *. rewrite F. destruct (inv rows _) as [B|]; [|discriminate]. injection EV as <-.
    eexists. split; [reflexivity|]. intros a b Ha Hb. cbv beta. destruct (index_of a _); [|reflexivity]. destruct (index_of b _); [|reflexivity].
    rewrite (sumf_ext (fun i => o_resid o' i * o_resid o' i) (fun i => s * s * (o_resid o i * o_resid o i))) by (intros i Hi; rewrite RE by auto; ring).
    rewrite sumf_scal, fdiv_scale2, fmul_scale2 by auto. reflexivity.
  - destruct (VV eq_refl) as (W & W' & E1 & E2 & HW). rewrite E1 in EV. injection EV as <-. rewrite E2. eexists. split; [reflexivity|exact HW].
Qed.

Lemma mp_idx_lt d t all post ref (extra : list (I -> R)) j : (j < length post)%nat -> (mp_index all ref j < length (mp_design d t all post ref extra))%nat.
Proof. intros H. unfold mp_index, mp_design. rewrite !app_length, !map_length. cbn. lia. Qed.
Lemma mp_main_others d t all post ref (extra : list (I -> R)) j : (j < length post)%nat ->
  forall c, In c (mp_main d t all ref extra) -> In c (others (mp_design d t all post ref extra) (mp_index all ref j)).
Proof.
  intros Hj c Hc. set (A := [(fun _ => 1); d] ++ map (at_period t) (filter (fun p => negb (Z.eqb p ref)) all)).
  set (B := map (fun p i => d i * at_period t p i) post).
  assert (E : mp_design d t all post ref extra = A ++ B ++ extra) by (unfold mp_design, A, B; rewrite <- !app_assoc; reflexivity).
  assert (L : mp_index all ref j = (length A + j)%nat) by (unfold mp_index, A; rewrite app_length, map_length; cbn; lia).
  assert (LB : length B = length post) by apply map_length.
  rewrite E, L. unfold others. apply in_or_app.
  assert (Hc' : In c A \/ In c extra) by (unfold mp_main in Hc; rewrite app_assoc in Hc; apply in_app_or in Hc; exact Hc).
  destruct Hc' as [Hc'|Hc'].
  - left. rewrite firstn_app_2. apply in_or_app. left. exact Hc'.
  - right. rewrite skipn_app. apply in_or_app. right. replace (Datatypes.S (length A + j) - length A)%nat with (Datatypes.S j) by lia.
    rewrite skipn_app. apply in_or_app. right. replace (Datatypes.S j - length B)%nat with O by lia. exact Hc'.
Qed.

Theorem mp_ignores_design_terms cfg rows y y' d t post ref covs dums r s m :
  let all := data_periods rows t in
  let cols := mp_design d t all (mp_post r) (mp_ref r) (covs ++ dums) in
  s <> 0 -> (forall i, In i rows -> y' i = s * y i + m i) ->
  fit cfg rows y d t post ref covs dums [] = Ok r ->
  span rows (mp_main d t all (mp_ref r) (covs ++ dums)) m ->
  (forall j, (j < length (mp_post r))%nat -> identified_col rows cols (mp_index all (mp_ref r) j)) ->
  variance_defined (c_robust cfg) (c_cluster cfg) (length rows) (n_reported (mp_coef r)) ->
  exists r', fit cfg rows y' d t post ref covs dums [] = Ok r' /\
    mp_pre r' = mp_pre r /\ mp_post r' = mp_post r /\ mp_ref r' = mp_ref r /\ mp_df r' = mp_df r /\
    Forall2 (effect_scaled s) (mp_effects r) (mp_effects r') /\
    mp_avg r' = fmul (Fin s) (mp_avg r) /\ mp_avg_se r' = fmul (Fin (Rabs s)) (mp_avg_se r) /\ mp_avg_p r' = mp_avg_p r /\
    (0 < s -> mp_avg_t r' = mp_avg_t r /\ mp_avg_ci r' = fscale s (mp_avg_ci r)) /\
    (s < 0 -> mp_avg_t r' = fneg (mp_avg_t r) /\ mp_avg_ci r' = fswap (fscale s (mp_avg_ci r))).
Proof.
  intros all cols Hs Hy H Hm Hid Hvd.
  destruct (mp_fit_inv keq geq qr lstsq inv sf ppf _ _ _ _ _ _ _ _ _ _ _ H)
    as (Zd & S0 & y0 & covs0 & nabs0 & o & idxs & EA & Ho & Hco & Hre & _ & Hdf & Eidx & Heff & Havg).
  simpl in EA. injection EA as <- <- <-. fold all in S0, Ho, Eidx. fold cols in Ho.
  unfold mp_fit in H. cbv zeta in H. fold (data_periods rows t) in H. fold all in H. unfold mp_fit. cbv zeta. fold (data_periods rows t). fold all.
  destruct (negb _) eqn:E1 in H; [discriminate|]. rewrite E1. destruct (negb _) eqn:E2 in H; [discriminate|]. rewrite E2.
  destruct (Nat.ltb _ 2) eqn:E3 in H; [discriminate|]. rewrite E3. rewrite S0 in H |- *. cbn [bind absorb_loop] in H |- *. fold cols in H |- *.
  rewrite Ho in H. cbn [bind] in H.
  match type of H with bind ?x _ = _ => destruct x as [V|] eqn:EV end; [|discriminate]. cbn [bind] in H.
  assert (EVr : V = mp_vcov r).
  { match type of H with context [mp_average ?a ?b ?c ?dd ?e ?f ?g] => destruct (mp_average a b c dd e f g) as [[[[av se] ts] pv] ci] end.
    injection H as E. exact (f_equal mp_vcov E). }
  clear H.
  assert (Hsub : forall j, (j < length (mp_post r))%nat -> span rows (others cols (mp_index all (mp_ref r) j)) m).
  { intros j Hj. apply (span_trans rows (mp_main d t all (mp_ref r) (covs ++ dums))); [|exact Hm]. intros c Hc. apply span_in. now apply mp_main_others. }
  assert (Hm' : span rows cols m).
  { apply (span_trans rows (mp_main d t all (mp_ref r) (covs ++ dums))); [|exact Hm]. intros c Hc. apply span_in. unfold cols, mp_main in *. unfold mp_design.
    apply in_app_or in Hc as [Hc|Hc]; [apply in_or_app; left; exact Hc|]. apply in_or_app. right. apply in_app_or in Hc as [Hc|Hc]; apply in_or_app; [left; exact Hc|].
    right. apply in_or_app. right. exact Hc. }
  assert (Hok : is_ok (solve_ols keq qr lstsq inv rows cols y' (c_cluster cfg) true (c_action cfg)) = true).
  { rewrite (solve_ols_defined keq qr lstsq inv rows cols y' y), Ho. reflexivity. }
  destruct (is_ok_ex _ Hok) as [o' Ho']. rewrite Ho'. cbn [bind].
  destruct (mp_vcov_shift _ _ _ _ _ _ cfg _ _ _ Hs Hy Hm' Ho Ho' EV) as (V' & EV' & HV).
  rewrite EV'. cbn [bind].
  destruct (solve_shift keq qr lstsq inv Hqr Hls Hinv _ _ _ _ _ _ _ _ _ _ _ Hs Hy Hm' Ho Ho') as (RE & N & F & _).
  rewrite n_effective_reported, N, <- n_effective_reported, <- Hdf. rewrite <- Eidx.
  (* each coefficient *)
  assert (HC : forall j, (j < length (mp_post r))%nat -> exists x v, nth (mp_index all (mp_ref r) j) (o_coef o) NaN = Fin x /\
     nth (mp_index all (mp_ref r) j) (o_coef o') NaN = Fin (s * x) /\ ~ In (mp_index all (mp_ref r) j) (qr rows cols) /\
     V (mp_index all (mp_ref r) j) (mp_index all (mp_ref r) j) = Fin v /\ V' (mp_index all (mp_ref r) j) (mp_index all (mp_ref r) j) = Fin (s * s * v)).
  { intros j Hj. pose proof (identified_dual rows cols _ (Hid j Hj)) as D. set (q := fwl_q rows _ _) in D.
    destruct (ols_dual keq qr lstsq inv Hqr Hls Hinv _ _ _ _ _ _ _ _ _ Ho D) as (A1 & _).
    destruct (ols_dual keq qr lstsq inv Hqr Hls Hinv _ _ _ _ _ _ _ _ _ Ho' D) as (A1' & _).
    pose proof (dual_kept qr Hqr rows cols _ q D) as Nk.
    assert (Hlt : (mp_index all (mp_ref r) j < length cols)%nat) by apply D.
    assert (Hvd' : variance_defined (c_robust cfg) (c_cluster cfg) (length rows) (n_reported (o_coef o))) by (rewrite <- Hco; exact Hvd).
    destruct (mp_vcov_fin rows cols y cfg o V _ _ Ho EV Hvd' Hlt Hlt Nk Nk) as [v Ev].
    exists (ip rows q y), v. split; [exact A1|]. split.
    { rewrite A1'. f_equal. transitivity (s * ip rows q y + ip rows q m).
      - unfold ip. rewrite <- sumf_scal, <- sumf_add. apply sumf_ext. intros i Hi. rewrite Hy by auto. ring.
      - rewrite (dual_orth rows cols _ q m D (Hsub j Hj)). ring. }
    split; [exact Nk|]. split; [exact Ev|]. rewrite HV, Ev by auto. reflexivity. }
  set (effs' := map _ (combine (mp_post r) idxs)).
  assert (FE : Forall2 (effect_scaled s) (mp_effects r) effs').
  { rewrite Heff. unfold effs'. rewrite Eidx, combine_idx, !map_map.
    assert (GG : forall l, (forall j, In j l -> (j < length (mp_post r))%nat) -> Forall2 (effect_scaled s)
       (map (fun x => mp_effect sf ppf (c_alpha cfg) (mp_df r) (mp_coef r) (mp_vcov r) (fst (nth x (mp_post r) 0%Z, mp_index all (mp_ref r) x)) (snd (nth x (mp_post r) 0%Z, mp_index all (mp_ref r) x))) l)
       (map (fun x => mp_effect sf ppf (c_alpha cfg) (mp_df r) (o_coef o') V' (fst (nth x (mp_post r) 0%Z, mp_index all (mp_ref r) x)) (snd (nth x (mp_post r) 0%Z, mp_index all (mp_ref r) x))) l)).
    { induction l as [|j l IH]; intros Hl; cbn [map]; constructor; [|apply IH; intros; apply Hl; right; auto].
      destruct (HC j (Hl j (or_introl eq_refl))) as (x & v & X1 & X2 & _ & X3 & X4). cbn [fst snd]. rewrite <- EVr, Hco. eapply mp_effect_scale; eauto. }
    apply GG. intros j Hj. apply in_seq in Hj. lia. }
  (* the average *)
  assert (HX : exists es : list R, map pe_effect (mp_effects r) = map Fin es /\ map pe_effect effs' = map Fin (map (Rmult s) es) /\ length es = length (mp_post r)).
  { rewrite Heff. unfold effs'. rewrite Eidx, combine_idx, !map_map. unfold mp_effect. cbn [pe_effect fst snd]. rewrite Hco.
    assert (GG : forall l, (forall j, In j l -> (j < length (mp_post r))%nat) -> exists es,
       map (fun x => nth (mp_index all (mp_ref r) x) (o_coef o) NaN) l = map Fin es /\ map (fun x => nth (mp_index all (mp_ref r) x) (o_coef o') NaN) l = map Fin (map (Rmult s) es) /\ length es = length l).
    { induction l as [|j l IH]; intros Hl; [exists []; repeat split; reflexivity|]. destruct (HC j (Hl j (or_introl eq_refl))) as (x & v & X1 & X2 & _).
      destruct IH as (es & Y1 & Y2 & Y3); [intros; apply Hl; right; auto|]. exists (x :: es). cbn [map length]. rewrite X1, X2, Y1, Y2, Y3. repeat split; reflexivity. }
    destruct (GG (seq 0 (length (mp_post r)))) as (es & Y1 & Y2 & Y3); [intros j Hj; apply in_seq in Hj; lia|].
    exists es. rewrite seq_length in Y3. auto. }
  destruct HX as (es & X1 & X2 & X3).
  assert (Hpost : mp_post r <> []).
  { exact (proj1 (proj2 (mp_setup_ok _ _ _ _ _ _ S0 (data_periods_nodup rows t)))). }
  assert (Hes : es <> []) by (intros E; apply Hpost; apply length_zero_iff_nil; rewrite <- X3, E; reflexivity).
  assert (Hlen : length idxs = length es) by (rewrite Eidx, map_length, seq_length; auto).
  assert (Hfin : forall a b, In a idxs -> In b idxs -> V a b = Fin (toR (V a b)) /\ V' a b = Fin (s * s * toR (V a b))).
  { intros a b Ha Hb. rewrite Eidx in Ha, Hb. apply in_map_iff in Ha as (ja & <- & Ha). apply in_map_iff in Hb as (jb & <- & Hb). apply in_seq in Ha, Hb.
    destruct (HC ja ltac:(lia)) as (_ & _ & _ & _ & Na & _). destruct (HC jb ltac:(lia)) as (_ & _ & _ & _ & Nb & _).
    assert (Hvd' : variance_defined (c_robust cfg) (c_cluster cfg) (length rows) (n_reported (o_coef o))) by (rewrite <- Hco; exact Hvd).
    assert (La : (mp_index all (mp_ref r) ja < length cols)%nat) by (apply mp_idx_lt; lia).
    assert (Lb : (mp_index all (mp_ref r) jb < length cols)%nat) by (apply mp_idx_lt; lia).
    destruct (mp_vcov_fin rows cols y cfg o V _ _ Ho EV Hvd' La Lb Na Nb) as [v Ev]. rewrite HV, Ev by auto. split; reflexivity. }
  rewrite X1 in Havg. rewrite <- EVr in Havg.
  rewrite (mp_average_fin sf ppf (c_alpha cfg) (mp_df r) es (fun a b => toR (V a b)) V idxs Hes Hlen) in Havg by (intros; apply Hfin; auto).
  rewrite X2. rewrite (mp_average_fin sf ppf (c_alpha cfg) (mp_df r) (map (Rmult s) es) (fun a b => s * s * toR (V a b)) V' idxs).
  2:{ destruct es as [|x es]; [congruence|]. cbn [map]. intros E; discriminate E. } 2:{ rewrite map_length; auto. } 2:{ intros; apply Hfin; auto. }
  assert (EL : len (map (Rmult s) es) = len es) by apply len_map.
  assert (EM : meanf idR (map (Rmult s) es) = s * meanf idR es).
  { unfold meanf. rewrite EL, sumf_map. unfold idR. rewrite sumf_scal. unfold Rdiv. ring. }
  cbv zeta in Havg |- *. rewrite EL, EM.
  set (w := sumf (fun a => sumf (fun b => toR (V a b)) idxs) idxs / (len es * len es)) in *.
  assert (EW : sumf (fun a => sumf (fun b => s * s * toR (V a b)) idxs) idxs / (len es * len es) = s * s * w).
  { unfold w. rewrite (sumf_ext_all (fun a => sumf (fun b => s * s * toR (V a b)) idxs) (fun a => s * s * sumf (fun b => toR (V a b)) idxs)) by (intros; apply sumf_scal).
    rewrite sumf_scal. unfold Rdiv. ring. }
  rewrite EW. clear EW. clearbody w.
  assert (0 < s * s) by (destruct (Rlt_dec 0 s); nra). assert (Ha : 0 < Rabs s) by (apply Rabs_pos_lt; auto).
  destruct (Rlt_dec w 0) as [Hw|Hw].
  { destruct (Rlt_dec (s * s * w) 0); [|nra]. injection Havg as -> -> -> -> ->. eexists. split; [reflexivity|].
    cbn [mp_pre mp_post mp_ref mp_df mp_effects mp_avg mp_avg_se mp_avg_t mp_avg_p mp_avg_ci]. repeat (split; [first [exact FE|reflexivity]|]). split; intros; split; reflexivity. }
  destruct (Rlt_dec (s * s * w) 0); [nra|].
  assert (Q : sqrt (s * s * w) = Rabs s * sqrt w) by (rewrite sqrt_mult by lra; f_equal; rewrite <- sqrt_Rsqr_abs; reflexivity).
  rewrite Q. pose proof (sqrt_pos w) as Hsq. destruct (Rlt_dec 0 (sqrt w)) as [Hp|Hp].
  - destruct (Rlt_dec 0 (Rabs s * sqrt w)) as [_|C]; [|exfalso; apply C; apply Rmult_lt_0_compat; auto].
    injection Havg as -> -> -> -> ->. eexists. split; [reflexivity|].
    cbn [mp_pre mp_post mp_ref mp_df mp_effects mp_avg mp_avg_se mp_avg_t mp_avg_p mp_avg_ci].
    split; [reflexivity|]. split; [reflexivity|]. split; [reflexivity|]. split; [reflexivity|]. split; [exact FE|]. split; [reflexivity|]. split; [reflexivity|].
    rewrite ci_scale by auto.
    assert (ET : s * meanf idR es / (Rabs s * sqrt w) = if Rlt_dec 0 s then meanf idR es / sqrt w else - (meanf idR es / sqrt w)).
    { destruct (Rlt_dec 0 s); [rewrite Rabs_right by lra|rewrite Rabs_left by lra]; field; split; lra. }
    rewrite ET. split.
    { destruct (Rlt_dec 0 s); [reflexivity|]. unfold u_p_value. cbn [fabs]. now rewrite Rabs_Ropp. }
    split; intros; destruct (Rlt_dec 0 s); try lra; split; reflexivity.
  - destruct (Rlt_dec 0 (Rabs s * sqrt w)) as [C|_]; [exfalso; apply Hp; assert (sqrt w <> 0) by (intros E; rewrite E in C; lra); lra|].
    injection Havg as -> -> -> -> ->. eexists. split; [reflexivity|].
    cbn [mp_pre mp_post mp_ref mp_df mp_effects mp_avg mp_avg_se mp_avg_t mp_avg_p mp_avg_ci]. repeat (split; [first [exact FE|reflexivity]|]). split; intros; split; reflexivity.
Qed.
End Mp.

(* ---- without covariates, in terms of the data ---- *)
Lemma indep_identified {I} (rows : list I) cols j : indep rows cols -> (j < length cols)%nat -> identified_col rows cols j.
Proof.
  intros Hi Hj. split; [exact Hj|]. intros (v & Lv & Ev). unfold others in Lv, Ev. rewrite app_length, firstn_length, Nat.min_l in Lv by lia.
  set (A := firstn j cols) in *. set (B := skipn (Datatypes.S j) cols) in *.
  assert (LA : length A = j) by (unfold A; rewrite firstn_length; lia).
  assert (Ec : cols = A ++ colx cols j :: B).
  { unfold A, B, colx. clear - Hj. revert j Hj. induction cols as [|x cols IH]; intros j Hj; [cbn in Hj; lia|]. destruct j; [reflexivity|]. cbn. f_equal. apply IH. cbn in Hj. lia. }
  assert (Evv : v = firstn j v ++ skipn j v) by (symmetry; apply firstn_skipn).
  assert (L1 : length (firstn j v) = length A) by (rewrite firstn_length; lia).
  assert (Z := Hi (firstn j v ++ (-1) :: skipn j v)).
  assert (W : firstn j v ++ -1 :: skipn j v = repeat 0 (length cols)).
  { apply Z.
    - rewrite app_length. cbn. rewrite firstn_length, skipn_length. assert (length B = length cols - S j)%nat by (unfold B; apply skipn_length). lia.
    - intros i Hin. rewrite Ec. rewrite lc_app by auto. cbn [lc]. specialize (Ev i Hin). rewrite Evv, lc_app in Ev by auto. rewrite Ev. ring. }
  assert (E : nth j (firstn j v ++ -1 :: skipn j v) 0 = nth j (repeat 0 (length cols)) 0) by now rewrite W.
  rewrite nth_repeat, app_nth2 in E by lia. replace (j - length (firstn j v))%nat with O in E by lia. cbn in E. lra.
Qed.

Section DidData.
Context {I K G : Type} (keq : forall x y : K, {x = y} + {x <> y}) (geq : forall x y : G, {x = y} + {x <> y}).
Variable qr : list I -> list (I -> R) -> list nat.
Variable lstsq : list I -> list (I -> R) -> (I -> R) -> list R.
Variable inv : list I -> list (I -> R) -> option (nat -> nat -> R).
Variable pinv : list I -> list (I -> R) -> nat -> nat -> R.
Variable sf : option Z -> fl -> fl.
Variable ppf : option Z -> R -> R.
Hypothesis Hqr : qr_ok qr.
Hypothesis Hls : lstsq_ok lstsq.
Hypothesis Hinv : inv_ok inv.
Notation fR x := (fun i => toR (x i)).
Lemma n_reported_le rows cols y cluster rv action o : solve_ols keq qr lstsq inv rows cols y cluster rv action = Ok o -> (n_reported (o_coef o) <= length cols)%nat.
Proof.
  intros Ho. destruct (solve_ols_shape keq qr lstsq inv Hls _ _ _ _ _ _ _ Ho) as (_ & C & _). rewrite C, n_reported_kept. apply kept_le.
Qed.

(* any group effect and any period effect may be added to the outcome *)
Theorem did_group_period_effects cfg rows y y' d t r a b c :
  (forall i, In i rows -> y' i = Fin (toR (y i) + (a + b * toR (d i) + c * toR (t i)))) ->
  four_cells rows (fR d) (fR t) -> (4 < length rows)%nat \/ c_robust cfg = true \/ c_cluster cfg <> None ->
  did_fit keq geq qr lstsq inv pinv sf ppf cfg rows y d t [] [] [] = Ok r ->
  exists r', did_fit keq geq qr lstsq inv pinv sf ppf cfg rows y' d t [] [] [] = Ok r' /\
    r_att r' = r_att r /\ r_se r' = r_se r /\ r_t r' = r_t r /\ r_p r' = r_p r /\ r_ci r' = r_ci r /\ r_signif r' = r_signif r /\
    (forall i, In i rows -> r_resid r' i = r_resid r i).
Proof.
  intros Hy H4 Hvd H.
  destruct (did_fit_inv keq geq qr lstsq inv pinv sf ppf _ _ _ _ _ _ _ _ _ H)
    as (_ & _ & _ & _ & Zd & Zt & y1 & covs' & nabs & reg & EA & ER & _ & _ & Hcf & _).
  cbn [absorb_loop] in EA. injection EA as <- <- <-.
  assert (Hn : ~ span rows (main_cols (fR d) (fR t) []) (inter (fR d) (fR t))).
  { pose proof (indep_identified rows (did_design (fR d) (fR t) []) 3 (sat_indep rows (fR d) (fR t) H4)) as [_ Hn]; [cbn; lia|]. exact Hn. }
  destruct (did_ignores_design_terms keq geq qr lstsq inv pinv sf ppf Hqr Hls Hinv cfg rows y y' d t [] [] r 1
    (fun i => a + b * toR (d i) + c * toR (t i))) as (r' & E & E1 & E2 & E3 & E4 & E5 & _ & E7); auto.
  - intros i Hi. rewrite Hy by auto. f_equal. ring.
  - exists [a; b; c]. split; [reflexivity|]. intros i _. cbn. ring.
  - rewrite Hcf. destruct (linreg_fit_inv keq qr lstsq inv pinv _ _ _ _ _ _ _ _ ER) as (o & Ho & -> & _).
    pose proof (n_reported_le _ _ _ _ _ _ _ Ho) as L. cbn in L. unfold variance_defined. destruct Hvd as [Hvd|[Hvd|Hvd]]; [right; right; lia|auto|auto].
  - exists r'. split; [exact E|]. destruct (E5 ltac:(lra)) as [E51 E52].
    split; [rewrite E1; apply Scale_flt.sc_1|]. split; [rewrite E2, Rabs_R1; apply Scale_flt.sc_1|]. split; [exact E51|]. split; [exact E3|].
    split. { rewrite E52. unfold fscale. destruct (r_ci r) as [l u]. cbn [fst snd]. f_equal; apply Scale_flt.sc_1. }
    split; [exact E4|]. intros i Hi. rewrite E7 by auto. ring.
Qed.

Lemma span_periods rows d (t : I -> Z) all ref extra (g : Z -> R) : NoDup all -> (forall i, In i rows -> In (t i) all) ->
  span rows (mp_main d t all ref extra) (fun i => g (t i)).
Proof.
  intros Hnd Hall. set (nr := filter (fun p => negb (Z.eqb p ref)) all).
  apply (span_ext rows _ (fun i => g ref * 1 + sumf (fun p => (g p - g ref) * at_period t p i) nr)).
  - intros i Hi. destruct (Z.eq_dec (t i) ref) as [E|E].
    + rewrite sumf_zero; [rewrite E; ring|]. intros p Hp. unfold nr in Hp. apply filter_In in Hp as [_ Hp]. apply Bool.negb_true_iff, Z.eqb_neq in Hp.
      unfold at_period. rewrite E. destruct (Z.eqb_spec ref p); [congruence|]. unfold ind. ring.
    + rewrite (sumf_ext _ (fun p => ind (keqb Z.eq_dec (t i) p) * (g (t i) - g ref))).
      * rewrite sumf_ind_key; [ring|apply NoDup_filter; auto|]. apply filter_In. split; [auto|]. apply Bool.negb_true_iff, Z.eqb_neq; auto.
      * intros p _. unfold at_period, keqb. destruct (Z.eqb_spec (t i) p) as [<-|N]; destruct (Z.eq_dec (t i) _); try congruence; unfold ind; ring.
  - apply span_add.
    + apply (span_scal rows _ (g ref) (fun _ => 1)). apply span_in. left. reflexivity.
    + assert (GG : forall l, incl l nr -> span rows (mp_main d t all ref extra) (fun i => sumf (fun p => (g p - g ref) * at_period t p i) l)).
      { induction l as [|p l IH]; intros Hl; [apply span_zero|]. cbn [sumf]. apply span_add; [|apply IH; intros x Hx; apply Hl; right; auto].
        apply span_scal, span_in. unfold mp_main. apply in_or_app. right. apply in_or_app. left. apply in_map. apply Hl. left. reflexivity. }
      apply GG. apply incl_refl.
Qed.

(* any group effect and any effect of the period may be added to the outcome *)
Theorem mp_group_period_effects cfg rows y y' d t post ref r s b (g : Z -> R) :
  s <> 0 -> (forall i, In i rows -> y' i = s * y i + (b * d i + g (t i))) ->
  mp_fit keq geq qr lstsq inv sf ppf cfg rows y d t post ref [] [] [] = Ok r -> identified rows d t (mp_post r) ->
  c_robust cfg = true \/ c_cluster cfg <> None \/ (2 + length (data_periods rows t) + length (mp_post r) <= length rows)%nat ->
  exists r', mp_fit keq geq qr lstsq inv sf ppf cfg rows y' d t post ref [] [] [] = Ok r' /\
    mp_pre r' = mp_pre r /\ mp_post r' = mp_post r /\ mp_ref r' = mp_ref r /\ mp_df r' = mp_df r /\
    Forall2 (effect_scaled s) (mp_effects r) (mp_effects r') /\
    mp_avg r' = fmul (Fin s) (mp_avg r) /\ mp_avg_se r' = fmul (Fin (Rabs s)) (mp_avg_se r) /\ mp_avg_p r' = mp_avg_p r /\
    (0 < s -> mp_avg_t r' = mp_avg_t r /\ mp_avg_ci r' = fscale s (mp_avg_ci r)) /\
    (s < 0 -> mp_avg_t r' = fneg (mp_avg_t r) /\ mp_avg_ci r' = fswap (fscale s (mp_avg_ci r))).
Proof.
  intros Hs Hy H (Hn & Hc & Hss) Hvd.
  destruct (mp_fit_inv keq geq qr lstsq inv sf ppf _ _ _ _ _ _ _ _ _ _ _ H)
    as (Zd & S0 & y0 & covs0 & nabs0 & o & idxs & EA & Ho & Hco & _).
  simpl in EA. injection EA as <- <- <-.
  destruct (mp_setup_ok _ _ _ _ _ _ S0 (data_periods_nodup rows t)) as (_ & _ & Hincl & Href & _).
  assert (Hall : forall i, In i rows -> In (t i) (data_periods rows t)) by (intros i Hi; apply data_periods_in; eauto).
  pose proof (mp_indep rows d t (data_periods rows t) (mp_post r) (mp_ref r) Zd Hall
    (data_periods_occ rows t) (data_periods_nodup rows t) Hn Hincl Href Hc Hss) as Hi.
  apply (mp_ignores_design_terms keq geq qr lstsq inv sf ppf Hqr Hls Hinv cfg rows y y' d t post ref [] [] r s (fun i => b * d i + g (t i))); auto.
  - apply span_add; [|apply span_periods; auto; apply data_periods_nodup]. apply span_scal, span_in. right. left. reflexivity.
  - intros j Hj. apply indep_identified; [exact Hi|]. apply mp_idx_lt. exact Hj.
  - unfold variance_defined. destruct Hvd as [Hvd|[Hvd|Hvd]]; [auto|auto|]. right. right. rewrite Hco.
    pose proof (n_reported_le _ _ _ _ _ _ _ Ho) as L. unfold mp_design in L. rewrite !app_length, !map_length in L. cbn in L.
    assert (length (filter (fun p => negb (Z.eqb p (mp_ref r))) (data_periods rows t)) < length (data_periods rows t))%nat; [|lia].
    assert (F := Fit_more.filter_split (fun p => negb (Z.eqb p (mp_ref r))) (data_periods rows t)). rewrite F.
    assert (In (mp_ref r) (filter (fun x => negb (negb (x =? mp_ref r)%Z)) (data_periods rows t))) as Hin.
    { apply filter_In. split; [exact Href|]. rewrite Z.eqb_refl. reflexivity. }
    destruct (filter (fun x => negb (negb (x =? mp_ref r)%Z)) (data_periods rows t)); [contradiction|]. cbn. lia.
Qed.
End DidData.

(* Analytical power: proofs. *)
From Verif Require Import Prelude Flt Stats_model Linalg_thms Power_model.
From Coq Require Import ZArith String List Lia Lra Psatz.
Import ListNotations.
Open Scope R_scope.

(* what is asked of scipy's normal distribution: increasing, symmetric, strictly concave on the positive half-line,
   ppf its inverse *)
Record norm_ok (cdf ppf : R -> R) : Prop := {
  n_mono : forall x y, x < y -> cdf x < cdf y;
  n_range : forall x, 0 < cdf x < 1;
  n_sym : forall x, cdf (- x) = 1 - cdf x;
  n_ppf : forall q, 0 < q < 1 -> cdf (ppf q) = q;
  n_concave : forall a b h, 0 <= a < b -> 0 < h -> cdf (b + h) - cdf b < cdf (a + h) - cdf a }.

Definition toy_cdf (x : R) : R := 1/2 + x / (2 * (1 + Rabs x)).
Definition toy_nppf (q : R) : R := if Rleb (1/2) q then (2 * q - 1) / (2 - 2 * q) else - ((1 - 2 * q) / (2 * q)).
Lemma toy_cdf_pos x : 0 <= x -> toy_cdf x = 1 - 1 / (2 * (1 + x)).
Proof. intros H. unfold toy_cdf. rewrite Rabs_right by lra. field. lra. Qed.
Lemma toy_cdf_sym x : toy_cdf (- x) = 1 - toy_cdf x.
Proof. unfold toy_cdf. rewrite Rabs_Ropp. pose proof (Rabs_pos x). field. lra. Qed.
Lemma inv_lt a b : 0 < a < b -> 1 / b < 1 / a.
Proof. intros H. unfold Rdiv. rewrite !Rmult_1_l. apply Rinv_lt_contravar; nra. Qed.
Theorem toy_norm_ok : norm_ok toy_cdf toy_nppf.
Proof.
  assert (P : forall x y, 0 <= x < y -> toy_cdf x < toy_cdf y).
  { intros x y H. rewrite !toy_cdf_pos by lra. pose proof (inv_lt (2 * (1 + x)) (2 * (1 + y))). lra. }
  assert (Rg : forall x, 0 <= x -> 1/2 <= toy_cdf x < 1).
  { intros x H. rewrite toy_cdf_pos by lra. assert (0 < 1 / (2 * (1 + x))) by (apply Rdiv_lt_0_compat; lra).
    destruct (Req_dec x 0) as [->|N]; [lra|]. pose proof (inv_lt 2 (2 * (1 + x))). lra. }
  constructor.
  - intros x y H. destruct (Rle_lt_dec 0 x) as [Hx|Hx]; [apply P; lra|]. destruct (Rle_lt_dec 0 y) as [Hy|Hy].
    + pose proof (Rg y Hy). pose proof (toy_cdf_sym x) as S0. pose proof (P 0 (- x) ltac:(lra)). pose proof (Rg 0 (Rle_refl 0)). lra.
    + pose proof (toy_cdf_sym x) as S0. pose proof (toy_cdf_sym y). pose proof (P (- y) (- x) ltac:(lra)). lra.
  - intros x. destruct (Rle_lt_dec 0 x) as [Hx|Hx]; [pose proof (Rg x Hx); lra|]. pose proof (Rg (- x) ltac:(lra)). rewrite toy_cdf_sym in H. lra.
  - apply toy_cdf_sym.
  - intros q Hq. unfold toy_nppf. destruct (Rleb (1/2) q) eqn:E.
    + apply Rleb_true in E. rewrite toy_cdf_pos. { field. lra. } apply Rmult_le_pos; [lra|]. left. apply Rinv_0_lt_compat; lra.
    + apply Rleb_false in E. rewrite toy_cdf_sym, toy_cdf_pos. { field. lra. } apply Rmult_le_pos; [lra|]. left. apply Rinv_0_lt_compat; lra.
  - intros a b h Ha Hh. rewrite !toy_cdf_pos by lra.
    assert (E : forall u, 0 <= u -> 1 / (2 * (1 + u)) - 1 / (2 * (1 + (u + h))) = h / (2 * ((1 + u) * (1 + u + h)))) by (intros; field; lra).
    pose proof (E a ltac:(lra)). pose proof (E b ltac:(lra)).
    assert (h / (2 * ((1 + b) * (1 + b + h))) < h / (2 * ((1 + a) * (1 + a + h)))); [|lra].
    apply Rmult_lt_compat_l; auto. apply Rinv_lt_contravar; [|nra]. assert (0 < (1 + a) * (1 + a + h)) by nra. assert (0 < (1 + b) * (1 + b + h)) by nra. nra.
Qed.

(* ---- integer rounding ---- *)
Lemma ceil_spec r : IZR (ceilZ r) - 1 < r <= IZR (ceilZ r).
Proof. unfold ceilZ. rewrite opp_IZR. pose proof (base_Int_part (- r)). lra. Qed.
Lemma ceil_unique r n : IZR n - 1 < r <= IZR n -> ceilZ r = n.
Proof.
  intros H. pose proof (ceil_spec r). assert (IZR (ceilZ r) < IZR n + 1) by lra. assert (IZR n < IZR (ceilZ r) + 1) by lra.
  rewrite <- plus_IZR in H1, H2. apply lt_IZR in H1. apply lt_IZR in H2. lia.
Qed.
Lemma ceil_le r r' : r <= r' -> (ceilZ r <= ceilZ r')%Z.
Proof.
  intros H. pose proof (ceil_spec r). pose proof (ceil_spec r'). assert (IZR (ceilZ r) < IZR (ceilZ r') + 1) by lra.
  rewrite <- plus_IZR in H2. apply lt_IZR in H2. lia.
Qed.
Lemma ceil_Z n : ceilZ (IZR n) = n.
Proof. apply ceil_unique. lra. Qed.

(* ---- variance ---- *)
Definition good (n_t n_c n_pre n_post : Z) (sigma rho : R) : Prop :=
  (0 < n_t)%Z /\ (0 < n_c)%Z /\ sigma <> 0 /\ ((2 < n_pre + n_post)%Z -> 0 < 1 + (IZR (n_pre + n_post) - 1) * rho).
(* the two variance formulas as one: a positive factor times (1/n_t + 1/n_c) *)
Definition vfactor (n_pre n_post : Z) (sigma rho : R) : R :=
  if is_panel n_pre n_post then sigma * sigma * (1 + (IZR (n_pre + n_post) - 1) * rho) / IZR (n_pre + n_post) else 2 * (sigma * sigma).
Lemma variance_eq n_t n_c n_pre n_post sigma rho : (0 < n_t)%Z -> (0 < n_c)%Z ->
  pa_variance n_t n_c n_pre n_post sigma rho = Ok (vfactor n_pre n_post sigma rho * (1 / IZR n_t + 1 / IZR n_c)).
Proof.
  intros Ht Hc. unfold pa_variance, vfactor.
  replace (Z.eqb n_t 0) with false by (symmetry; apply Z.eqb_neq; lia). replace (Z.eqb n_c 0) with false by (symmetry; apply Z.eqb_neq; lia).
  simpl. pose proof (IZR_lt _ _ Ht). pose proof (IZR_lt _ _ Hc).
  destruct (is_panel n_pre n_post) eqn:E; f_equal.
  - unfold is_panel in E. apply Z.ltb_lt in E. apply IZR_lt in E. field. lra.
  - field. lra.
Qed.
Lemma vfactor_pos n_t n_c n_pre n_post sigma rho : good n_t n_c n_pre n_post sigma rho -> 0 < vfactor n_pre n_post sigma rho.
Proof.
  intros (_ & _ & Hs & Hd). unfold vfactor, is_panel. assert (0 < sigma * sigma) by nra.
  destruct (Z.ltb_spec 2 (n_pre + n_post)).
  - apply Rdiv_lt_0_compat; [apply Rmult_lt_0_compat; auto|]. apply IZR_lt in H0. lra.
  - lra.
Qed.
Lemma inv_sum_pos n_t n_c : (0 < n_t)%Z -> (0 < n_c)%Z -> 0 < 1 / IZR n_t + 1 / IZR n_c.
Proof. intros Ht Hc. apply IZR_lt in Ht. apply IZR_lt in Hc. apply Rplus_lt_0_compat; apply Rdiv_lt_0_compat; lra. Qed.
Definition design_se (n_t n_c n_pre n_post : Z) (sigma rho : R) : R :=
  sqrt (vfactor n_pre n_post sigma rho * (1 / IZR n_t + 1 / IZR n_c)).
Lemma design_se_pos n_t n_c n_pre n_post sigma rho : good n_t n_c n_pre n_post sigma rho -> 0 < design_se n_t n_c n_pre n_post sigma rho.
Proof.
  intros H. pose proof (vfactor_pos _ _ _ _ _ _ H). destruct H as (Ht & Hc & _). apply sqrt_lt_R0. apply Rmult_lt_0_compat; auto. apply inv_sum_pos; auto.
Qed.
Lemma se_eq n_t n_c n_pre n_post sigma rho : good n_t n_c n_pre n_post sigma rho ->
  exists v, pa_variance n_t n_c n_pre n_post sigma rho = Ok v /\ 0 < v /\ fsqrt (Fin v) = Fin (design_se n_t n_c n_pre n_post sigma rho).
Proof.
  intros H. pose proof (vfactor_pos _ _ _ _ _ _ H). destruct H as (Ht & Hc & _).
  eexists. split; [apply variance_eq; auto|]. assert (0 < vfactor n_pre n_post sigma rho * (1 / IZR n_t + 1 / IZR n_c)) by (apply Rmult_lt_0_compat; auto; apply inv_sum_pos; auto).
  split; auto. apply sqrt_fin. lra.
Qed.

Section Norm.
Variable cdf ppf : R -> R.
Hypothesis Hn : norm_ok cdf ppf.
Notation za := (z_alpha ppf).
Notation zb := (z_beta ppf).

Definition cfg_ok (cfg : pa_cfg) : Prop := 0 < pa_alpha cfg < 1 /\ 0 < pa_target cfg < 1.
Lemma init_ok alpha power alt cfg : pa_init alpha power alt = Ok cfg ->
  cfg_ok cfg /\ pa_alpha cfg = alpha /\ pa_target cfg = power.
Proof.
  unfold pa_init, cfg_ok. intros H.
  destruct (Rltb 0 alpha && Rltb alpha 1) eqn:E1; [|discriminate]. destruct (Rltb 0 power && Rltb power 1) eqn:E2; [|discriminate]. simpl in H.
  apply Bool.andb_true_iff in E1 as [A1 A2]. apply Bool.andb_true_iff in E2 as [B1 B2]. apply Rltb_true in A1, A2, B1, B2.
  destruct (String.eqb alt "two-sided"); [injection H as <-; simpl; auto|].
  destruct (String.eqb alt "greater"); [injection H as <-; simpl; auto|].
  destruct (String.eqb alt "less"); [injection H as <-; simpl; auto|discriminate].
Qed.
Theorem init_iff alpha power alt : (exists cfg, pa_init alpha power alt = Ok cfg) <->
  0 < alpha < 1 /\ 0 < power < 1 /\ In alt ["two-sided"; "greater"; "less"]%string.
Proof.
  split.
  - intros (cfg & H). destruct (init_ok _ _ _ _ H) as ((A & B) & E1 & E2). rewrite E1 in A. rewrite E2 in B. split; auto. split; auto.
    unfold pa_init in H. destruct (negb _); [discriminate|]. destruct (negb _); [discriminate|].
    destruct (String.eqb_spec alt "two-sided"); [simpl; auto|]. destruct (String.eqb_spec alt "greater"); [simpl; auto|].
    destruct (String.eqb_spec alt "less"); [simpl; auto|discriminate].
  - intros ([A1 A2] & [B1 B2] & H). unfold pa_init. apply Rltb_true in A1, A2, B1, B2. rewrite A1, A2, B1, B2. simpl.
    destruct H as [<-|[<-|[<-|[]]]]; simpl; eexists; reflexivity.
Qed.

Lemma cdf_inj x y : cdf x = cdf y -> x = y.
Proof.
  intros H. destruct (Rtotal_order x y) as [L|[E|L]]; auto; apply (n_mono _ _ Hn) in L; lra.
Qed.
Lemma cdf_le x y : x <= y -> cdf x <= cdf y.
Proof. intros [H| ->]; [left; apply (n_mono _ _ Hn); auto|lra]. Qed.
Lemma cdf_0 : cdf 0 = 1/2.
Proof. pose proof (n_sym _ _ Hn 0). rewrite Ropp_0 in H. lra. Qed.
Lemma ppf_lt p q : 0 < p -> p < q -> q < 1 -> ppf p < ppf q.
Proof.
  intros Hp Hpq Hq. destruct (Rlt_le_dec (ppf p) (ppf q)) as [|L]; auto. apply cdf_le in L. rewrite !(n_ppf _ _ Hn) in L by lra. lra.
Qed.
Lemma ppf_half : ppf (1/2) = 0.
Proof. apply cdf_inj. rewrite (n_ppf _ _ Hn), cdf_0 by lra. reflexivity. Qed.
Lemma za_two_pos cfg : cfg_ok cfg -> pa_alt cfg = TwoSided -> 0 < za cfg.
Proof. intros [Ha _] E. unfold z_alpha. rewrite E, <- ppf_half. apply ppf_lt; lra. Qed.
Lemma cdf_za cfg : cfg_ok cfg -> cdf (za cfg) = match pa_alt cfg with TwoSided => 1 - pa_alpha cfg / 2 | _ => 1 - pa_alpha cfg end.
Proof. intros [Ha _]. unfold z_alpha. destruct (pa_alt cfg); apply (n_ppf _ _ Hn); lra. Qed.
Lemma cdf_zb cfg : cfg_ok cfg -> cdf (zb cfg) = pa_target cfg.
Proof. intros [_ Ht]. apply (n_ppf _ _ Hn); auto. Qed.

(* the rejection probability of the nominal test, as a function of effect/se *)
Definition reject (cfg : pa_cfg) (d : R) : R :=
  match pa_alt cfg with
  | TwoSided => 1 - cdf (za cfg - d) + cdf (- za cfg - d)
  | Greater => 1 - cdf (za cfg - d)
  | Less => cdf (- za cfg - d)
  end.
Lemma power_real cfg e s : 0 < s -> pa_power_se cdf ppf cfg e (Fin s) = Fin (reject cfg (e / s)).
Proof.
  intros Hs. unfold pa_power_se, reject, fdiv. destruct (Req_EM_T s 0); [lra|]. destruct (pa_alt cfg); simpl; unfold Rminus; auto; repeat f_equal; ring.
Qed.

Lemma interval_shrinks z d d' : 0 < z -> 0 <= d < d' -> cdf (z - d') - cdf (- z - d') < cdf (z - d) - cdf (- z - d).
Proof.
  intros Hz Hd. pose proof (n_sym _ _ Hn) as Sy. pose proof (n_concave _ _ Hn) as C.
  replace (- z - d') with (- (z + d')) by ring. replace (- z - d) with (- (z + d)) by ring. rewrite !Sy.
  set (h := d' - d). assert (Hh : 0 < h) by (unfold h; lra).
  assert (cdf (z + d') - cdf (z + d) < cdf (z - d) - cdf (z - d')); [|lra].
  replace (z + d') with (z + d + h) by (unfold h; ring).
  destruct (Rle_lt_dec d' z) as [A|A].
  - pose proof (C (z - d') (z + d) h ltac:(lra) Hh) as K. replace (z - d' + h) with (z - d) in K by (unfold h; ring). exact K.
  - destruct (Rle_lt_dec z d) as [B|B].
    + pose proof (C (d - z) (z + d) h ltac:(lra) Hh) as K. replace (d - z + h) with (- (z - d')) in K by (unfold h; ring).
      replace (d - z) with (- (z - d)) in K by ring. rewrite !Sy in K. lra.
    + pose proof (C 0 (z + d) (z - d) ltac:(lra) ltac:(lra)) as K1.
      pose proof (C 0 (z + d + (z - d)) (d' - z) ltac:(lra) ltac:(lra)) as K2.
      replace (z + d + (z - d) + (d' - z)) with (z + d + h) in K2 by (unfold h; ring). rewrite !Rplus_0_l in *.
      replace (z - d') with (- (d' - z)) by ring. rewrite Sy. pose proof cdf_0. lra.
Qed.
Lemma reject_even cfg d : pa_alt cfg = TwoSided -> reject cfg (- d) = reject cfg d.
Proof.
  intros E. unfold reject. rewrite E. pose proof (n_sym _ _ Hn) as Sy.
  replace (za cfg - - d) with (- (- za cfg - d)) by ring. replace (- za cfg - - d) with (- (za cfg - d)) by ring. rewrite !Sy. ring.
Qed.
Lemma reject_two cfg d d' : cfg_ok cfg -> pa_alt cfg = TwoSided -> Rabs d < Rabs d' -> reject cfg d < reject cfg d'.
Proof.
  intros Hc E H. assert (A : forall x, reject cfg x = reject cfg (Rabs x)).
  { intros x. unfold Rabs. destruct (Rcase_abs x); auto. symmetry. apply reject_even; auto. }
  rewrite (A d), (A d'). pose proof (interval_shrinks (za cfg) (Rabs d) (Rabs d') (za_two_pos cfg Hc E)) as K.
  pose proof (Rabs_pos d). unfold reject. rewrite E. lra.
Qed.
Lemma reject_greater cfg d d' : pa_alt cfg = Greater -> d < d' -> reject cfg d < reject cfg d'.
Proof. intros E H. unfold reject. rewrite E. pose proof (n_mono _ _ Hn (za cfg - d') (za cfg - d) ltac:(lra)). lra. Qed.
Lemma reject_less cfg d d' : pa_alt cfg = Less -> d < d' -> reject cfg d' < reject cfg d.
Proof. intros E H. unfold reject. rewrite E. apply (n_mono _ _ Hn). lra. Qed.
Lemma reject_0 cfg : cfg_ok cfg -> reject cfg 0 = pa_alpha cfg.
Proof.
  intros Hc. pose proof (cdf_za cfg Hc) as Z. unfold reject. rewrite !Rminus_0_r. rewrite !(n_sym _ _ Hn). rewrite Z.
  destruct (pa_alt cfg); field.
Qed.
Lemma reject_range cfg d : cfg_ok cfg -> 0 < reject cfg d < 1.
Proof.
  intros Hc. unfold reject. pose proof (n_range _ _ Hn (za cfg - d)). pose proof (n_range _ _ Hn (- za cfg - d)).
  destruct (pa_alt cfg) eqn:E; try lra. pose proof (za_two_pos cfg Hc E). pose proof (n_mono _ _ Hn (- za cfg - d) (za cfg - d) ltac:(lra)). lra.
Qed.

(* ---- power ---- *)
Notation power := (pa_power cdf ppf).
Lemma required_ok cfg effect sigma n_pre n_post rho frac : 0 < frac < 1 ->
  exists n, pa_required ppf cfg effect sigma n_pre n_post rho frac = Ok n /\ (4 <= n)%Z.
Proof.
  intros Hf. unfold pa_required. destruct (Reqb effect 0) eqn:E; [eexists; split; [reflexivity|unfold max_n; lia]|].
  assert (E0 : effect <> 0) by (intros K; apply (proj2 (Reqb_true _ _)) in K; congruence).
  assert (D : effect * effect * frac * (1 - frac) <> 0).
  { apply Rgt_not_eq. assert (0 < effect * effect) by nra. assert (0 < frac * (1 - frac)) by nra. nra. }
  destruct (is_panel n_pre n_post) eqn:P; unfold fdiv.
  - unfold is_panel in P. apply Z.ltb_lt in P. apply IZR_lt in P.
    destruct (Req_EM_T _ 0) as [K|K]; [exfalso; apply Rmult_integral in K as [K|K]; [auto|lra]|]. eexists; split; [reflexivity|lia].
  - destruct (Req_EM_T _ 0) as [K|K]; [exfalso; auto|]. eexists; split; [reflexivity|lia].
Qed.
Lemma power_ok cfg e n_t n_c sigma n_pre n_post rho : good n_t n_c n_pre n_post sigma rho ->
  exists r, power cfg e n_t n_c sigma n_pre n_post rho = Ok r /\
    pw_power r = Fin (reject cfg (e / design_se n_t n_c n_pre n_post sigma rho)) /\
    pw_mde r = Fin ((za cfg + zb cfg) * design_se n_t n_c n_pre n_post sigma rho) /\
    pw_effect r = Fin e /\ pw_nt r = n_t /\ pw_nc r = n_c.
Proof.
  intros H. destruct (se_eq _ _ _ _ _ _ H) as (v & Ev & Hv & Es). pose proof (design_se_pos _ _ _ _ _ _ H) as Hp. destruct H as (Ht & Hc & _).
  unfold pa_power. rewrite Ev. cbn [bind]. rewrite Es. replace (Z.eqb (n_t + n_c) 0) with false by (symmetry; apply Z.eqb_neq; lia).
  destruct (required_ok cfg e sigma n_pre n_post rho (IZR n_t / IZR (n_t + n_c))) as (n & En & _).
  { apply IZR_lt in Ht. apply IZR_lt in Hc. rewrite plus_IZR. split; [apply Rdiv_lt_0_compat; lra|].
    apply (Rmult_lt_reg_r (IZR n_t + IZR n_c)); [lra|]. unfold Rdiv. rewrite Rmult_assoc, Rinv_l by lra. lra. }
  rewrite En. cbn [bind]. eexists. split; [reflexivity|]. cbn [pw_power pw_mde pw_effect pw_nt pw_nc].
  rewrite power_real by auto. repeat split; auto.
Qed.

(* the minimum detectable effect is detected with at least the target power; exactly the target for a one-sided test *)
Theorem mde_power cfg n_t n_c sigma n_pre n_post rho : cfg_ok cfg -> good n_t n_c n_pre n_post sigma rho -> pa_alt cfg <> Less ->
  exists m r e p, pa_mde ppf cfg n_t n_c sigma n_pre n_post rho = Ok m /\ pw_mde m = Fin e /\ pw_effect m = Fin e /\
    power cfg e n_t n_c sigma n_pre n_post rho = Ok r /\ pw_power r = Fin p /\ pw_mde r = Fin e /\ pa_target cfg <= p /\
    (pa_alt cfg = Greater -> p = pa_target cfg) /\
    (pa_alt cfg = TwoSided -> pa_target cfg < p /\ (pa_alpha cfg / 2 <= pa_target cfg -> 0 <= e /\ p <= pa_target cfg + pa_alpha cfg / 2)).
Proof.
  intros Hc H HL. destruct (se_eq _ _ _ _ _ _ H) as (v & Ev & Hv & Es). pose proof (design_se_pos _ _ _ _ _ _ H) as Hp.
  set (s := design_se n_t n_c n_pre n_post sigma rho) in *.
  unfold pa_mde. rewrite Ev. cbn [bind]. rewrite Es. cbn [pa_mde_se fmul].
  destruct (power_ok cfg ((za cfg + zb cfg) * s) n_t n_c sigma n_pre n_post rho H) as (r & Er & Ep & Em & _). fold s in Ep, Em.
  eexists _, r, _, _. split; [reflexivity|]. cbn [pw_mde pw_effect]. split; [reflexivity|]. split; [reflexivity|]. split; [exact Er|]. split; [exact Ep|]. split; [exact Em|].
  replace ((za cfg + zb cfg) * s / s) with (za cfg + zb cfg) by (field; lra).
  assert (R1 : za cfg - (za cfg + zb cfg) = - zb cfg) by ring.
  pose proof (n_range _ _ Hn (- za cfg - (za cfg + zb cfg))) as Rg.
  unfold reject. rewrite R1, (n_sym _ _ Hn), (cdf_zb cfg Hc).
  destruct (pa_alt cfg) eqn:E; [|split; [lra|split; [intros; lra|discriminate]]|congruence].
  split; [lra|]. split; [discriminate|]. intros _. split; [lra|]. intros G.
  pose proof (cdf_za cfg Hc) as Hz. rewrite E in Hz.
  assert (K : 0 <= za cfg + zb cfg).
  { destruct (Rle_lt_dec 0 (za cfg + zb cfg)) as [|L]; auto. exfalso. pose proof (n_mono _ _ Hn (zb cfg) (- za cfg) ltac:(lra)) as K.
    rewrite (cdf_zb cfg Hc), (n_sym _ _ Hn), Hz in K. lra. }
  split; [apply Rmult_le_pos; lra|]. pose proof (cdf_le (- za cfg - (za cfg + zb cfg)) (- za cfg) ltac:(lra)) as L. rewrite (n_sym _ _ Hn (za cfg)), Hz in L. lra.
Qed.
(* alternative = "less": the reported effect has the wrong sign; its power is below alpha whenever it is positive, its
   mirror image has the target power *)
Theorem mde_less_refuted cfg n_t n_c sigma n_pre n_post rho : cfg_ok cfg -> good n_t n_c n_pre n_post sigma rho -> pa_alt cfg = Less ->
  pa_alpha cfg < pa_target cfg ->
  exists m r r' e p, pa_mde ppf cfg n_t n_c sigma n_pre n_post rho = Ok m /\ pw_mde m = Fin e /\ 0 < e /\ pw_power m = Fin (pa_target cfg) /\
    power cfg e n_t n_c sigma n_pre n_post rho = Ok r /\ pw_power r = Fin p /\ p < pa_alpha cfg /\
    power cfg (- e) n_t n_c sigma n_pre n_post rho = Ok r' /\ pw_power r' = Fin (pa_target cfg).
Proof.
  intros Hc H E Ht. destruct (se_eq _ _ _ _ _ _ H) as (v & Ev & Hv & Es). pose proof (design_se_pos _ _ _ _ _ _ H) as Hp.
  set (s := design_se n_t n_c n_pre n_post sigma rho) in *.
  unfold pa_mde. rewrite Ev. cbn [bind]. rewrite Es. cbn [pa_mde_se fmul].
  destruct (power_ok cfg ((za cfg + zb cfg) * s) n_t n_c sigma n_pre n_post rho H) as (r & Er & Ep & _). fold s in Ep.
  destruct (power_ok cfg (- ((za cfg + zb cfg) * s)) n_t n_c sigma n_pre n_post rho H) as (r' & Er' & Ep' & _). fold s in Ep'.
  pose proof (cdf_za cfg Hc) as Hz. rewrite E in Hz.
  assert (K : 0 < za cfg + zb cfg).
  { destruct (Rlt_le_dec 0 (za cfg + zb cfg)) as [|L]; auto. exfalso. pose proof (cdf_le (zb cfg) (- za cfg) ltac:(lra)) as K.
    rewrite (cdf_zb cfg Hc), (n_sym _ _ Hn), Hz in K. lra. }
  eexists _, r, r', _, _. split; [reflexivity|]. cbn [pw_mde pw_power]. split; [reflexivity|]. split; [apply Rmult_lt_0_compat; auto|]. split; [reflexivity|].
  split; [exact Er|]. split; [exact Ep|]. split; [|split; [exact Er'|]].
  - rewrite <- (reject_0 cfg Hc). apply reject_less; auto. apply Rdiv_lt_0_compat; auto. apply Rmult_lt_0_compat; auto.
  - rewrite Ep'. f_equal. replace (- ((za cfg + zb cfg) * s) / s) with (- (za cfg + zb cfg)) by (field; lra).
    unfold reject. rewrite E. replace (- za cfg - - (za cfg + zb cfg)) with (zb cfg) by ring. apply cdf_zb; auto.
Qed.

Lemma div_abs_lt e e' s : 0 < s -> Rabs e < Rabs e' -> Rabs (e / s) < Rabs (e' / s).
Proof.
  intros Hs H. unfold Rdiv. rewrite !Rabs_mult. apply Rmult_lt_compat_r; auto. apply Rabs_pos_lt. apply Rinv_neq_0_compat. lra.
Qed.
Lemma div_lt e e' s : 0 < s -> e < e' -> e / s < e' / s.
Proof. intros Hs H. apply Rmult_lt_compat_r; auto. apply Rinv_0_lt_compat; auto. Qed.
(* power against a larger effect is larger; no effect gives the size; power lies strictly between 0 and 1 *)
Theorem power_in_effect cfg e e' n_t n_c sigma n_pre n_post rho : cfg_ok cfg -> good n_t n_c n_pre n_post sigma rho ->
  exists r r' p p', power cfg e n_t n_c sigma n_pre n_post rho = Ok r /\ power cfg e' n_t n_c sigma n_pre n_post rho = Ok r' /\
    pw_power r = Fin p /\ pw_power r' = Fin p' /\ 0 < p < 1 /\ (e = 0 -> p = pa_alpha cfg) /\
    match pa_alt cfg with
    | TwoSided => Rabs e < Rabs e' -> p < p'
    | Greater => e < e' -> p < p'
    | Less => e < e' -> p' < p
    end.
Proof.
  intros Hc H. destruct (power_ok cfg e _ _ _ _ _ _ H) as (r & Er & Ep & _). destruct (power_ok cfg e' _ _ _ _ _ _ H) as (r' & Er' & Ep' & _).
  pose proof (design_se_pos _ _ _ _ _ _ H) as Hp. exists r, r'. do 2 eexists. repeat (split; [eassumption|]).
  split; [apply reject_range; auto|]. split.
  { intros ->. replace (0 / _) with 0 by (field; lra). apply reject_0; auto. }
  destruct (pa_alt cfg) eqn:E; intros L.
  - apply reject_two; auto. apply div_abs_lt; auto.
  - apply reject_greater; auto. apply div_lt; auto.
  - apply reject_less; auto. apply div_lt; auto.
Qed.
(* a smaller standard error gives more power against an effect in the direction tested *)
Lemma reject_se cfg e s s' : cfg_ok cfg -> 0 < s' < s ->
  match pa_alt cfg with TwoSided => e <> 0 | Greater => 0 < e | Less => e < 0 end -> reject cfg (e / s) < reject cfg (e / s').
Proof.
  intros Hc Hs H. assert (I : / s < / s') by (apply Rinv_lt_contravar; nra). assert (0 < / s) by (apply Rinv_0_lt_compat; lra).
  destruct (pa_alt cfg) eqn:E.
  - apply reject_two; auto. unfold Rdiv. rewrite !Rabs_mult. apply Rmult_lt_compat_l; [apply Rabs_pos_lt; auto|]. rewrite !Rabs_right; lra.
  - apply reject_greater; auto. unfold Rdiv. nra.
  - apply reject_less; auto. unfold Rdiv. nra.
Qed.
Lemma inv_le_Z a b : (0 < a <= b)%Z -> 1 / IZR b <= 1 / IZR a.
Proof. intros [H H']. apply IZR_lt in H. apply IZR_le in H'. unfold Rdiv. rewrite !Rmult_1_l. apply Rinv_le_contravar; auto. Qed.
Lemma inv_lt_Z a b : (0 < a < b)%Z -> 1 / IZR b < 1 / IZR a.
Proof. intros [H H']. apply IZR_lt in H. apply IZR_lt in H'. apply inv_lt. auto. Qed.
Lemma se_lt a b c d n_pre n_post sigma rho : good a b n_pre n_post sigma rho -> (a <= c)%Z -> (b <= d)%Z -> (a < c \/ b < d)%Z ->
  good c d n_pre n_post sigma rho /\ 0 < design_se c d n_pre n_post sigma rho < design_se a b n_pre n_post sigma rho.
Proof.
  intros H Hac Hbd Hs. assert (G : good c d n_pre n_post sigma rho) by (destruct H as (? & ? & ? & ?); repeat split; auto; lia).
  split; auto. split; [apply design_se_pos; auto|]. pose proof (vfactor_pos _ _ _ _ _ _ H) as V. destruct H as (Ha & Hb & _). destruct G as (Hc & Hd & _).
  unfold design_se. apply sqrt_lt_1.
  - left. apply Rmult_lt_0_compat; auto. apply inv_sum_pos; auto.
  - left. apply Rmult_lt_0_compat; auto. apply inv_sum_pos; auto.
  - apply Rmult_lt_compat_l; auto. destruct Hs as [K|K].
    + pose proof (inv_lt_Z a c ltac:(lia)). pose proof (inv_le_Z b d ltac:(lia)). lra.
    + pose proof (inv_le_Z a c ltac:(lia)). pose proof (inv_lt_Z b d ltac:(lia)). lra.
Qed.
Theorem power_in_sample cfg e a b c d sigma n_pre n_post rho : cfg_ok cfg -> good a b n_pre n_post sigma rho ->
  (a <= c)%Z -> (b <= d)%Z -> (a < c \/ b < d)%Z ->
  match pa_alt cfg with TwoSided => e <> 0 | Greater => 0 < e | Less => e < 0 end ->
  exists r r' p p', power cfg e a b sigma n_pre n_post rho = Ok r /\ power cfg e c d sigma n_pre n_post rho = Ok r' /\
    pw_power r = Fin p /\ pw_power r' = Fin p' /\ p < p'.
Proof.
  intros Hc H Hac Hbd Hs He. destruct (se_lt a b c d n_pre n_post sigma rho H Hac Hbd Hs) as [G L].
  destruct (power_ok cfg e _ _ _ _ _ _ H) as (r & Er & Ep & _). destruct (power_ok cfg e _ _ _ _ _ _ G) as (r' & Er' & Ep' & _).
  exists r, r'. do 2 eexists. repeat (split; [eassumption|]). apply reject_se; auto.
Qed.
(* more noise, or more intra-unit correlation in a panel, gives less power *)
Theorem power_in_noise cfg e n_t n_c sigma sigma' n_pre n_post rho rho' : cfg_ok cfg ->
  good n_t n_c n_pre n_post sigma rho -> Rabs sigma <= Rabs sigma' -> rho <= rho' ->
  (Rabs sigma < Rabs sigma' \/ ((2 < n_pre + n_post)%Z /\ rho < rho')) ->
  match pa_alt cfg with TwoSided => e <> 0 | Greater => 0 < e | Less => e < 0 end ->
  exists r r' p p', power cfg e n_t n_c sigma n_pre n_post rho = Ok r /\ power cfg e n_t n_c sigma' n_pre n_post rho' = Ok r' /\
    pw_power r = Fin p /\ pw_power r' = Fin p' /\ p' < p.
Proof.
  intros Hc H Hs Hr Hst He.
  assert (S2 : sigma * sigma <= sigma' * sigma').
  { rewrite <- (Rabs_pos_eq (sigma * sigma)), <- (Rabs_pos_eq (sigma' * sigma')), !Rabs_mult by apply sq_nonneg. pose proof (Rabs_pos sigma). nra. }
  assert (S3 : Rabs sigma < Rabs sigma' -> sigma * sigma < sigma' * sigma').
  { intros L. rewrite <- (Rabs_pos_eq (sigma * sigma)), <- (Rabs_pos_eq (sigma' * sigma')), !Rabs_mult by apply sq_nonneg. pose proof (Rabs_pos sigma). nra. }
  destruct H as (Ht & Hcc & Hsg & Hd). assert (S0 : 0 < sigma * sigma) by nra.
  assert (G : good n_t n_c n_pre n_post sigma rho) by (repeat split; auto).
  assert (G' : good n_t n_c n_pre n_post sigma' rho').
  { repeat split; auto. - intros ->. rewrite Rmult_0_l in S2. lra. - intros K. pose proof (Hd K). apply IZR_lt in K. nra. }
  assert (V : vfactor n_pre n_post sigma rho < vfactor n_pre n_post sigma' rho').
  { unfold vfactor, is_panel. destruct (Z.ltb_spec 2 (n_pre + n_post)) as [K|K].
    - pose proof (Hd K). apply IZR_lt in K. unfold Rdiv. apply Rmult_lt_compat_r; [apply Rinv_0_lt_compat; lra|].
      set (T := IZR (n_pre + n_post)) in *. assert (D : 1 + (T - 1) * rho <= 1 + (T - 1) * rho') by nra.
      destruct Hst as [L|[_ L]]; [specialize (S3 L); nra|]. assert (1 + (T - 1) * rho < 1 + (T - 1) * rho') by nra. nra.
    - destruct Hst as [L|[L _]]; [specialize (S3 L); lra|lia]. }
  destruct (power_ok cfg e _ _ _ _ _ _ G) as (r & Er & Ep & _). destruct (power_ok cfg e _ _ _ _ _ _ G') as (r' & Er' & Ep' & _).
  exists r, r'. do 2 eexists. repeat (split; [eassumption|]). apply reject_se; auto. split; [apply design_se_pos; auto|].
  pose proof (inv_sum_pos n_t n_c Ht Hcc). pose proof (vfactor_pos _ _ _ _ _ _ G). unfold design_se. apply sqrt_lt_1; [left; apply Rmult_lt_0_compat; auto|left; apply Rmult_lt_0_compat; lra|].
  apply Rmult_lt_compat_r; auto.
Qed.
End Norm.

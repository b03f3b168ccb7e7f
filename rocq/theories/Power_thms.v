(* Sample size, curves, wrappers and simulated power: proofs. *)
From Verif Require Import Prelude Flt Stats_model Linalg_thms Power_model Power_proofs.
From Coq Require Import Arith ZArith String List Lia Lra Psatz.
Import ListNotations.
Open Scope R_scope.

(* ---- variance ---- *)
Theorem variance_basic n_t n_c n_pre n_post sigma rho : (n_pre + n_post <= 2)%Z -> n_t <> 0%Z -> n_c <> 0%Z ->
  pa_variance n_t n_c n_pre n_post sigma rho = Ok (2 * (sigma * sigma) * (1 / IZR n_t + 1 / IZR n_c)).
Proof.
  intros H Ht Hc. unfold pa_variance, is_panel. replace (Z.eqb n_t 0) with false by (symmetry; apply Z.eqb_neq; lia).
  replace (Z.eqb n_c 0) with false by (symmetry; apply Z.eqb_neq; lia). replace (Z.ltb 2 (n_pre + n_post)) with false by (symmetry; apply Z.ltb_ge; lia).
  simpl. f_equal. ring.
Qed.
Theorem variance_zero n_t n_c n_pre n_post sigma rho : n_t = 0%Z \/ n_c = 0%Z <-> pa_variance n_t n_c n_pre n_post sigma rho = Err ZeroDivisionError.
Proof.
  unfold pa_variance. destruct (Z.eqb_spec n_t 0) as [E|E], (Z.eqb_spec n_c 0) as [E'|E']; simpl; try tauto.
  destruct (is_panel n_pre n_post); split; [tauto|discriminate|tauto|discriminate].
Qed.
(* only the number of periods enters, not how they split around treatment *)
Theorem variance_split n_t n_c a b c d sigma rho : (a + b = c + d)%Z ->
  pa_variance n_t n_c a b sigma rho = pa_variance n_t n_c c d sigma rho.
Proof. intros H. unfold pa_variance, is_panel. rewrite H. reflexivity. Qed.
(* from two to three periods the variance falls by a factor of six (no correlation), not by a third *)
Theorem design_jump n_t n_c sigma rho v v' : (0 < n_t)%Z -> (0 < n_c)%Z ->
  pa_variance n_t n_c 1 1 sigma rho = Ok v -> pa_variance n_t n_c 1 2 sigma rho = Ok v' -> v' = (1 + 2 * rho) / 6 * v.
Proof.
  intros Ht Hc. rewrite !variance_eq by auto. unfold vfactor, is_panel. simpl. intros E E'. injection E as <-. injection E' as <-. field.
  apply IZR_lt in Ht. apply IZR_lt in Hc. lra.
Qed.

Section Norm.
Variable cdf ppf : R -> R.
Hypothesis Hn : norm_ok cdf ppf.
Notation za := (z_alpha ppf).
Notation zb := (z_beta ppf).
Notation power := (pa_power cdf ppf).
Notation required := (pa_required ppf).
Notation sample_size := (pa_sample_size ppf).
Notation rej := (reject cdf ppf).

(* noise-free and impossible designs do not raise *)
Theorem noiseless cfg effect : effect <> 0 -> 
  pa_power_se cdf ppf cfg effect (Fin 0) = match pa_alt cfg with TwoSided => Fin 1 | Greater => if Rltb 0 effect then Fin 1 else Fin 0 | Less => if Rltb 0 effect then Fin 0 else Fin 1 end.
Proof.
  intros H. unfold pa_power_se, fdiv. destruct (Req_EM_T 0 0); [|lra]. unfold fsgn_inf.
  destruct (Rlt_dec 0 effect) as [L|L].
  - replace (Rltb 0 effect) with true by (symmetry; apply Rltb_true; auto). destruct (pa_alt cfg); simpl; f_equal; ring.
  - replace (Rltb 0 effect) with false by (symmetry; apply Rltb_false; lra). destruct (Rlt_dec effect 0); [|lra]. destruct (pa_alt cfg); simpl; f_equal; ring.
Qed.
Theorem noiseless_zero cfg : pa_power_se cdf ppf cfg 0 (Fin 0) = NaN.
Proof.
  unfold pa_power_se, fdiv. destruct (Req_EM_T 0 0); [|lra]. unfold fsgn_inf. destruct (Rlt_dec 0 0); [lra|]. destruct (pa_alt cfg); reflexivity.
Qed.
Theorem bad_correlation cfg e n_t n_c sigma n_pre n_post rho : (0 < n_t)%Z -> (0 < n_c)%Z -> sigma <> 0 -> (2 < n_pre + n_post)%Z ->
  1 + (IZR (n_pre + n_post) - 1) * rho < 0 ->
  exists r, power cfg e n_t n_c sigma n_pre n_post rho = Ok r /\ pw_power r = NaN /\ pw_mde r = NaN /\ (e <> 0 -> pw_n r = 4%Z).
Proof.
  intros Ht Hc Hs HT Hd. unfold pa_power. rewrite variance_eq by auto. cbn [bind].
  assert (S2 : 0 < sigma * sigma) by nra. pose proof (IZR_lt _ _ HT) as HTr.
  set (T := IZR (n_pre + n_post)) in *.
  assert (V : vfactor n_pre n_post sigma rho < 0).
  { unfold vfactor, is_panel. rewrite (proj2 (Z.ltb_lt _ _) HT). fold T.
    replace (sigma * sigma * (1 + (T - 1) * rho) / T) with (- (sigma * sigma * - (1 + (T - 1) * rho) / T)) by (field; lra).
    assert (0 < sigma * sigma * - (1 + (T - 1) * rho) / T) by (apply Rdiv_lt_0_compat; [apply Rmult_lt_0_compat; lra|lra]). lra. }
  pose proof (inv_sum_pos n_t n_c Ht Hc) as Ip.
  assert (Vn : vfactor n_pre n_post sigma rho * (1 / IZR n_t + 1 / IZR n_c) < 0) by nra.
  assert (Es : fsqrt (Fin (vfactor n_pre n_post sigma rho * (1 / IZR n_t + 1 / IZR n_c))) = NaN) by (unfold fsqrt; destruct (Rlt_dec _ 0); auto; lra).
  rewrite Es. replace (Z.eqb (n_t + n_c) 0) with false by (symmetry; apply Z.eqb_neq; lia).
  apply IZR_lt in Ht. apply IZR_lt in Hc. set (f := IZR n_t / IZR (n_t + n_c)).
  assert (Hf : 0 < f < 1).
  { unfold f. rewrite plus_IZR. split; [apply Rdiv_lt_0_compat; lra|]. apply (Rmult_lt_reg_r (IZR n_t + IZR n_c)); [lra|]. unfold Rdiv. rewrite Rmult_assoc, Rinv_l by lra. lra. }
  clearbody f.
  assert (Pn : pa_power_se cdf ppf cfg e NaN = NaN) by (unfold pa_power_se; rewrite fdiv_nan_r, !fsub_nan_r; destruct (pa_alt cfg); reflexivity).
  assert (Rq : e <> 0 -> required cfg e sigma n_pre n_post rho f = Ok 4%Z).
  { intros He. unfold pa_required. replace (Reqb e 0) with false by (symmetry; apply Reqb_false; auto).
    unfold is_panel. rewrite (proj2 (Z.ltb_lt _ _) HT). cbv zeta. fold T. set (z := za cfg + zb cfg). unfold fdiv.
    assert (De : 0 < e * e * f * (1 - f) * T).
    { assert (0 < e * e) by nra. assert (0 < f * (1 - f)) by nra. replace (e * e * f * (1 - f) * T) with (e * e * (f * (1 - f)) * T) by ring.
      apply Rmult_lt_0_compat; [apply Rmult_lt_0_compat; auto|lra]. }
    destruct (Req_EM_T _ 0); [lra|]. f_equal. apply Z.max_l. assert (L : (ceilZ (2 * (sigma * sigma) * (z * z) * (1 + (T - 1) * rho) / (e * e * f * (1 - f) * T)) <= ceilZ 0)%Z); [|rewrite (ceil_Z 0) in L; lia].
    apply ceil_le. apply (Rmult_le_reg_r (e * e * f * (1 - f) * T)); auto. unfold Rdiv. rewrite Rmult_assoc, Rinv_l by lra. rewrite Rmult_0_l, Rmult_1_r.
    pose proof (sq_nonneg z). assert (0 <= 2 * (sigma * sigma) * (z * z)) by (apply Rmult_le_pos; lra). nra. }
  rewrite Pn. unfold pa_mde_se. rewrite fmul_nan_r.
  destruct (Req_dec e 0) as [->|He].
  - unfold pa_required. replace (Reqb 0 0) with true by (symmetry; apply Reqb_true; auto). cbn [bind]. eexists. split; [reflexivity|]. cbn [pw_power pw_mde]. repeat split; auto. congruence.
  - rewrite (Rq He). cbn [bind]. eexists. split; [reflexivity|]. cbn [pw_power pw_mde pw_n]. auto.
Qed.

(* ---- sample size ---- *)
Definition kfac (n_pre n_post : Z) : R := if is_panel n_pre n_post then 2 else 1.
Definition need (cfg : pa_cfg) (e sigma : R) (n_pre n_post : Z) (rho f : R) : R :=
  kfac n_pre n_post * vfactor n_pre n_post sigma rho * ((za cfg + zb cfg) * (za cfg + zb cfg)) / (e * e * (f * (1 - f))).
Lemma required_eq cfg e sigma n_pre n_post rho f : e <> 0 -> 0 < f < 1 ->
  required cfg e sigma n_pre n_post rho f = Ok (Z.max 4 (ceilZ (need cfg e sigma n_pre n_post rho f))).
Proof.
  intros He Hf. unfold pa_required, need, kfac, vfactor. replace (Reqb e 0) with false by (symmetry; apply Reqb_false; auto).
  set (z := za cfg + zb cfg). assert (E2 : 0 < e * e) by nra. assert (F2 : 0 < f * (1 - f)) by nra. assert (EF : 0 < e * e * (f * (1 - f))) by (apply Rmult_lt_0_compat; auto).
  destruct (is_panel n_pre n_post) eqn:P; unfold fdiv.
  - unfold is_panel in P. apply Z.ltb_lt in P. apply IZR_lt in P. set (T := IZR (n_pre + n_post)) in *.
    assert (0 < e * e * (f * (1 - f)) * T) by (apply Rmult_lt_0_compat; lra).
    destruct (Req_EM_T _ 0) as [K|K]; [lra|]. do 3 f_equal. field. repeat split; try lra; nra.
  - destruct (Req_EM_T _ 0) as [K|K]; [lra|]. do 3 f_equal. field. repeat split; try lra; nra.
Qed.
Theorem required_zero cfg sigma n_pre n_post rho f : required cfg 0 sigma n_pre n_post rho f = Ok max_n.
Proof. unfold pa_required. replace (Reqb 0 0) with true by (symmetry; apply Reqb_true; auto). reflexivity. Qed.
Lemma need_le cfg e e' sigma sigma' n_pre n_post rho f : e <> 0 -> Rabs e <= Rabs e' -> Rabs sigma' <= Rabs sigma -> 0 < f < 1 ->
  ((2 < n_pre + n_post)%Z -> 0 <= 1 + (IZR (n_pre + n_post) - 1) * rho) ->
  need cfg e' sigma' n_pre n_post rho f <= need cfg e sigma n_pre n_post rho f.
Proof.
  intros He Hee Hss Hf Hd. unfold need. set (z2 := (za cfg + zb cfg) * (za cfg + zb cfg)). assert (Z2 : 0 <= z2) by apply sq_nonneg.
  assert (Sq : forall a b, Rabs a <= Rabs b -> a * a <= b * b).
  { intros a b H. rewrite <- (Rabs_pos_eq (a * a)), <- (Rabs_pos_eq (b * b)), !Rabs_mult by apply sq_nonneg. pose proof (Rabs_pos a). nra. }
  pose proof (Sq _ _ Hee) as E2. pose proof (Sq _ _ Hss) as S2. assert (E0 : 0 < e * e) by nra. assert (F2 : 0 < f * (1 - f)) by nra.
  assert (V : 0 <= kfac n_pre n_post * vfactor n_pre n_post sigma' rho <= kfac n_pre n_post * vfactor n_pre n_post sigma rho).
  { unfold kfac, vfactor, is_panel. pose proof (sq_nonneg sigma'). destruct (Z.ltb_spec 2 (n_pre + n_post)) as [K|K]; [|lra].
    specialize (Hd K). apply IZR_lt in K. set (T := IZR (n_pre + n_post)) in *. assert (0 < / T) by (apply Rinv_0_lt_compat; lra).
    unfold Rdiv. assert (0 <= sigma' * sigma' * (1 + (T - 1) * rho) <= sigma * sigma * (1 + (T - 1) * rho)) by (split; [apply Rmult_le_pos; auto|apply Rmult_le_compat_r; auto]). nra. }
  unfold Rdiv. apply Rmult_le_compat.
  - apply Rmult_le_pos; tauto.
  - left. apply Rinv_0_lt_compat. nra.
  - apply Rmult_le_compat_r; tauto.
  - apply Rinv_le_contravar; nra.
Qed.
(* a larger effect or less noise never needs a larger sample *)
Theorem required_monotone cfg e e' sigma sigma' n_pre n_post rho f n n' : e <> 0 -> Rabs e <= Rabs e' -> Rabs sigma' <= Rabs sigma -> 0 < f < 1 ->
  ((2 < n_pre + n_post)%Z -> 0 <= 1 + (IZR (n_pre + n_post) - 1) * rho) ->
  required cfg e sigma n_pre n_post rho f = Ok n -> required cfg e' sigma' n_pre n_post rho f = Ok n' -> (n' <= n)%Z.
Proof.
  intros He Hee Hss Hf Hd. rewrite !required_eq; auto.
  - intros E E'. injection E as <-. injection E' as <-. pose proof (ceil_le _ _ (need_le cfg e e' sigma sigma' n_pre n_post rho f He Hee Hss Hf Hd)). lia.
  - intros ->. rewrite Rabs_R0 in Hee. pose proof (Rabs_pos_lt e He). lra.
Qed.

Lemma sample_size_ok cfg e sigma n_pre n_post rho f : e <> 0 -> 0 < f < 1 -> good 1 1 n_pre n_post sigma rho ->
  exists r N, sample_size cfg e sigma n_pre n_post rho f = Ok r /\ N = Z.max 4 (ceilZ (need cfg e sigma n_pre n_post rho f)) /\
    required cfg e sigma n_pre n_post rho f = Ok N /\
    pw_nt r = fst (pa_split N f) /\ pw_nc r = snd (pa_split N f) /\ (2 <= pw_nt r)%Z /\ (2 <= pw_nc r)%Z /\
    pw_n r = (pw_nt r + pw_nc r)%Z /\ (N <= pw_n r)%Z /\
    good (pw_nt r) (pw_nc r) n_pre n_post sigma rho /\
    pw_mde r = Fin ((za cfg + zb cfg) * design_se (pw_nt r) (pw_nc r) n_pre n_post sigma rho) /\
    pw_power r = Fin (pa_target cfg) /\
    need cfg e sigma n_pre n_post rho f <= IZR N.
Proof.
  intros He Hf G. unfold pa_sample_size. rewrite required_eq by auto. cbn [bind]. set (N := Z.max 4 _).
  destruct (pa_split N f) as [t c] eqn:Es. assert (Ht : (2 <= t)%Z /\ (2 <= c)%Z /\ (N <= t + c)%Z).
  { unfold pa_split in Es. injection Es as <- <-. lia. }
  assert (G' : good t c n_pre n_post sigma rho) by (destruct G as (_ & _ & ? & ?); repeat split; auto; lia).
  destruct (se_eq _ _ _ _ _ _ G') as (v & Ev & _ & Esq). rewrite Ev. cbn [bind]. rewrite Esq.
  eexists _, N. split; [reflexivity|]. cbn [pw_nt pw_nc pw_n pw_mde pw_power fst snd].
  do 2 (split; [reflexivity|]). split; [rewrite Es; reflexivity|]. split; [rewrite Es; reflexivity|].
  do 2 (split; [tauto|]). split; [reflexivity|]. split; [tauto|]. split; [exact G'|]. do 2 (split; [reflexivity|]).
  pose proof (ceil_spec (need cfg e sigma n_pre n_post rho f)). assert (IZR (ceilZ (need cfg e sigma n_pre n_post rho f)) <= IZR N) by (apply IZR_le; unfold N; lia). lra.
Qed.
(* how far the MDE of the recommended sample can be from the effect: the loss comes from splitting N into integers *)
Theorem sample_size_bound cfg e sigma n_pre n_post rho f : e <> 0 -> 0 < f < 1 -> good 1 1 n_pre n_post sigma rho ->
  exists r N m, sample_size cfg e sigma n_pre n_post rho f = Ok r /\ required cfg e sigma n_pre n_post rho f = Ok N /\ pw_mde r = Fin m /\
    kfac n_pre n_post * (m * m) * (IZR (pw_nt r) * IZR (pw_nc r)) <= e * e * (f * (1 - f)) * IZR N * IZR (pw_n r).
Proof.
  intros He Hf G. destruct (sample_size_ok cfg e sigma n_pre n_post rho f He Hf G) as (r & N & Er & EN & Rq & _ & _ & Ht & Hc & En & _ & G' & Em & _ & Hneed).
  exists r, N. eexists. split; [exact Er|]. split; [exact Rq|]. split; [exact Em|].
  pose proof (vfactor_pos _ _ _ _ _ _ G') as V. set (z := za cfg + zb cfg) in *. set (t := pw_nt r) in *. set (c := pw_nc r) in *.
  assert (T0 : 2 <= IZR t) by (apply (IZR_le 2); auto). assert (C0 : 2 <= IZR c) by (apply (IZR_le 2); auto).
  assert (Q : design_se t c n_pre n_post sigma rho * design_se t c n_pre n_post sigma rho = vfactor n_pre n_post sigma rho * (1 / IZR t + 1 / IZR c)).
  { unfold design_se. apply sqrt_sqrt. left. apply Rmult_lt_0_compat; auto. apply inv_sum_pos; lia. }
  replace (z * design_se t c n_pre n_post sigma rho * (z * design_se t c n_pre n_post sigma rho)) with (z * z * (design_se t c n_pre n_post sigma rho * design_se t c n_pre n_post sigma rho)) by ring.
  rewrite Q, En, plus_IZR. fold t c.
  replace (kfac n_pre n_post * (z * z * (vfactor n_pre n_post sigma rho * (1 / IZR t + 1 / IZR c))) * (IZR t * IZR c))
    with (kfac n_pre n_post * vfactor n_pre n_post sigma rho * (z * z) * (IZR t + IZR c)) by (field; lra).
  apply Rmult_le_compat_r; [lra|].
  assert (E2 : 0 < e * e) by nra. assert (F2 : 0 < f * (1 - f)) by nra. assert (EF : 0 < e * e * (f * (1 - f))) by (apply Rmult_lt_0_compat; auto).
  unfold need in Hneed. fold z in Hneed. apply (Rmult_le_compat_l (e * e * (f * (1 - f)))) in Hneed; [|lra].
  replace (e * e * (f * (1 - f)) * (kfac n_pre n_post * vfactor n_pre n_post sigma rho * (z * z) / (e * e * (f * (1 - f))))) with (kfac n_pre n_post * vfactor n_pre n_post sigma rho * (z * z)) in Hneed by (field; split; nra).
  exact Hneed.
Qed.
Lemma split_even k : (2 <= k)%Z -> pa_split (2 * k) (1/2) = (k, k).
Proof.
  intros H. unfold pa_split. replace (IZR (2 * k) * (1 / 2)) with (IZR k) by (rewrite mult_IZR; field). rewrite ceil_Z.
  f_equal; lia.
Qed.
Lemma split_odd k : (2 <= k)%Z -> pa_split (2 * k + 1) (1/2) = ((k + 1)%Z, k).
Proof.
  intros H. unfold pa_split. replace (ceilZ (IZR (2 * k + 1) * (1 / 2))) with (k + 1)%Z.
  - f_equal; lia.
  - symmetry. apply ceil_unique. rewrite !plus_IZR, mult_IZR. lra.
Qed.
(* balanced designs: the effect is detectable when N is even, and within 25/24 in squared terms always *)
Theorem sample_size_balanced cfg e sigma n_pre n_post rho : e <> 0 -> good 1 1 n_pre n_post sigma rho ->
  exists r N m, sample_size cfg e sigma n_pre n_post rho (1/2) = Ok r /\ required cfg e sigma n_pre n_post rho (1/2) = Ok N /\
    pw_n r = N /\ pw_mde r = Fin m /\ (Z.even N = true -> pw_nt r = pw_nc r /\ kfac n_pre n_post * (m * m) <= e * e) /\
    kfac n_pre n_post * (m * m) <= 25/24 * (e * e) /\ (is_panel n_pre n_post = true -> m * m <= e * e).
Proof.
  intros He G. destruct (sample_size_bound cfg e sigma n_pre n_post rho (1/2) He ltac:(lra) G) as (r & N & m & Er & ER & Em & B).
  destruct (sample_size_ok cfg e sigma n_pre n_post rho (1/2) He ltac:(lra) G) as (r' & N' & Er' & EN & Rq & E1 & E2 & Ht & Hc & En & _).
  rewrite Er in Er'. injection Er' as <-. rewrite ER in Rq. injection Rq as <-.
  assert (N4 : (4 <= N)%Z) by lia. exists r, N, m. split; auto. split; auto.
  set (k := (N / 2)%Z). set (m2 := kfac n_pre n_post * (m * m)) in *. assert (KF : 1 <= kfac n_pre n_post) by (unfold kfac; destruct (is_panel _ _); lra).
  assert (E3 : 0 < e * e) by nra.
  destruct (Z.even N) eqn:EV.
  - apply Z.even_spec in EV as (j & Ej). assert (J : (2 <= j)%Z) by lia. rewrite Ej, split_even in E1, E2 by auto. simpl in E1, E2.
    rewrite E1, E2 in *. split; [lia|]. split; auto. rewrite En in B. rewrite Ej in B. rewrite plus_IZR, mult_IZR in B. assert (J2 : 2 <= IZR j) by (apply (IZR_le 2); auto).
    assert (m2 <= e * e).
    { apply (Rmult_le_reg_r (IZR j * IZR j)); [nra|]. replace (e * e * (1 / 2 * (1 - 1 / 2)) * (2 * IZR j) * (IZR j + IZR j)) with (e * e * (IZR j * IZR j)) in B by field. exact B. }
    split; [auto|]. split; [lra|]. intros P. unfold m2, kfac in H. rewrite P in H. pose proof (sq_nonneg m). lra.
  - assert (OD : Z.odd N = true) by (rewrite <- Z.negb_even, EV; reflexivity). apply Z.odd_spec in OD as (j & Ej).
    assert (J : (2 <= j)%Z) by lia. rewrite Ej, split_odd in E1, E2 by auto. simpl in E1, E2. rewrite E1, E2 in *.
    split; [lia|]. split; auto. split; [discriminate|]. assert (J2 : 2 <= IZR j) by (apply (IZR_le 2); auto).
    rewrite En, Ej in B. rewrite !plus_IZR, mult_IZR in B. set (x := IZR j) in *.
    assert (H : m2 <= 25 / 24 * (e * e)).
    { apply (Rmult_le_reg_r ((x + 1) * x)); [nra|]. eapply Rle_trans; [exact B|].
      replace (e * e * (1 / 2 * (1 - 1 / 2)) * (2 * x + 1) * (x + 1 + x)) with (e * e * ((2 * x + 1) * (2 * x + 1) / 4)) by field.
      replace (25 / 24 * (e * e) * ((x + 1) * x)) with (e * e * (25 / 24 * ((x + 1) * x))) by ring. apply Rmult_le_compat_l; [lra|]. nra. }
    split; auto. intros P. unfold m2, kfac in H. rewrite P in H. lra.
Qed.
(* the claim that the recommended sample detects the effect fails already for N = 5 *)
Theorem sample_size_refuted cfg : za cfg + zb cfg > 0 ->
  let e := (za cfg + zb cfg) * sqrt (8/5) in
  exists r m, sample_size cfg e 1 1 1 0 (1/2) = Ok r /\ pw_n r = 5%Z /\ pw_mde r = Fin m /\ 0 < e < m.
Proof.
  intros Hz e. set (z := za cfg + zb cfg) in *. assert (S0 : 0 < sqrt (8/5)) by (apply sqrt_lt_R0; lra). assert (Sq : sqrt (8/5) * sqrt (8/5) = 8/5) by (apply sqrt_sqrt; lra).
  assert (He : 0 < e) by (unfold e; apply Rmult_lt_0_compat; auto). assert (E2 : e * e = 8/5 * (z * z)) by (transitivity (sqrt (8/5) * sqrt (8/5) * (z * z)); [unfold e; ring|rewrite Sq; reflexivity]).
  assert (G : good 1 1 1 1 1 0) by (repeat split; try lia; lra).
  destruct (sample_size_ok cfg e 1 1 1 0 (1/2) ltac:(lra) ltac:(lra) G) as (r & N & Er & EN & _ & E1 & E2' & _ & _ & En & _ & _ & Em & _).
  assert (Hneed : need cfg e 1 1 1 0 (1/2) = IZR 5).
  { unfold need, kfac, vfactor, is_panel. simpl. fold z. rewrite E2. field. nra. }
  rewrite Hneed, ceil_Z in EN. change (Z.max 4 5) with 5%Z in EN. subst N. pose proof (split_odd 2 ltac:(lia)) as Sp. change (2 * 2 + 1)%Z with 5%Z in Sp. rewrite Sp in E1, E2'. simpl in E1, E2'.
  eexists r, _. split; [exact Er|]. rewrite En, E1, E2'. split; [reflexivity|]. split; [exact Em|]. rewrite E1, E2'. split; auto.
  fold z. unfold e. apply Rmult_lt_compat_l; auto. unfold design_se, vfactor, is_panel. simpl. apply sqrt_lt_1; lra.
Qed.
(* panel designs ask for twice the sample: half of it already detects the effect *)
Theorem panel_overstated cfg e sigma n_pre n_post rho N k : e <> 0 -> good 1 1 n_pre n_post sigma rho -> (2 < n_pre + n_post)%Z ->
  required cfg e sigma n_pre n_post rho (1/2) = Ok N -> N = (4 * k)%Z ->
  exists r m, pa_mde ppf cfg k k sigma n_pre n_post rho = Ok r /\ pw_n r = (2 * k)%Z /\ pw_mde r = Fin m /\ m * m <= e * e.
Proof.
  intros He G HT Rq EN. rewrite required_eq in Rq by (auto; lra). injection Rq as EN'.
  assert (K0 : (1 <= k)%Z) by lia. assert (G' : good k k n_pre n_post sigma rho) by (destruct G as (_ & _ & ? & ?); repeat split; auto; lia).
  destruct (se_eq _ _ _ _ _ _ G') as (v & Ev & _ & Es). unfold pa_mde. rewrite Ev. cbn [bind]. rewrite Es. eexists _, _. split; [reflexivity|].
  cbn [pw_n pw_mde]. split; [lia|]. split; [reflexivity|].
  pose proof (vfactor_pos _ _ _ _ _ _ G') as V. assert (K1 : 1 <= IZR k) by (apply (IZR_le 1); auto).
  set (z := za cfg + zb cfg). replace (z * design_se k k n_pre n_post sigma rho * (z * design_se k k n_pre n_post sigma rho)) with (z * z * (design_se k k n_pre n_post sigma rho * design_se k k n_pre n_post sigma rho)) by ring.
  unfold design_se. rewrite sqrt_sqrt by (left; apply Rmult_lt_0_compat; auto; apply inv_sum_pos; lia).
  assert (Hneed : need cfg e sigma n_pre n_post rho (1/2) <= IZR N).
  { pose proof (ceil_spec (need cfg e sigma n_pre n_post rho (1/2))). assert (IZR (ceilZ (need cfg e sigma n_pre n_post rho (1/2))) <= IZR N) by (apply IZR_le; lia). lra. }
  unfold need, kfac in Hneed. replace (is_panel n_pre n_post) with true in Hneed by (symmetry; apply Z.ltb_lt; auto). fold z in Hneed.
  rewrite EN, mult_IZR in Hneed. assert (E2 : 0 < e * e) by nra.
  apply (Rmult_le_compat_l (e * e * (1 / 2 * (1 - 1 / 2)))) in Hneed; [|lra].
  replace (e * e * (1 / 2 * (1 - 1 / 2)) * (2 * vfactor n_pre n_post sigma rho * (z * z) / (e * e * (1 / 2 * (1 - 1 / 2))))) with (2 * vfactor n_pre n_post sigma rho * (z * z)) in Hneed by (field; nra).
  replace (z * z * (vfactor n_pre n_post sigma rho * (1 / IZR k + 1 / IZR k))) with (2 * vfactor n_pre n_post sigma rho * (z * z) * / IZR k) by (field; lra).
  apply (Rmult_le_reg_r (IZR k)); [lra|]. rewrite Rmult_assoc, Rinv_l by lra. lra.
Qed.
(* two-period designs: no smaller balanced sample detects the effect *)
Theorem basic_minimal cfg e sigma n_pre n_post rho N k r m : e <> 0 -> sigma <> 0 -> (n_pre + n_post <= 2)%Z ->
  required cfg e sigma n_pre n_post rho (1/2) = Ok N -> (4 < N)%Z -> (0 < k)%Z -> (2 * k < N)%Z ->
  pa_mde ppf cfg k k sigma n_pre n_post rho = Ok r -> pw_mde r = Fin m -> e * e < m * m.
Proof.
  intros He Hs HT Rq N4 K0 KN Em Emm. rewrite required_eq in Rq by (auto; lra). injection Rq as EN.
  assert (G' : good k k n_pre n_post sigma rho) by (repeat split; auto; lia).
  destruct (se_eq _ _ _ _ _ _ G') as (v & Ev & _ & Es). unfold pa_mde in Em. rewrite Ev in Em. cbn [bind] in Em. rewrite Es in Em. injection Em as <-.
  cbn [pw_mde] in Emm. injection Emm as <-. pose proof (vfactor_pos _ _ _ _ _ _ G') as V.
  set (z := za cfg + zb cfg) in *. replace (z * design_se k k n_pre n_post sigma rho * (z * design_se k k n_pre n_post sigma rho)) with (z * z * (design_se k k n_pre n_post sigma rho * design_se k k n_pre n_post sigma rho)) by ring.
  unfold design_se. rewrite sqrt_sqrt by (left; apply Rmult_lt_0_compat; auto; apply inv_sum_pos; lia).
  assert (Hneed : IZR (2 * k) < need cfg e sigma n_pre n_post rho (1/2)).
  { pose proof (ceil_spec (need cfg e sigma n_pre n_post rho (1/2))) as [C1 _]. assert (IZR (2 * k) <= IZR (ceilZ (need cfg e sigma n_pre n_post rho (1/2))) - 1); [|lra].
    rewrite <- minus_IZR. apply IZR_le. lia. }
  unfold need, kfac in Hneed. replace (is_panel n_pre n_post) with false in Hneed by (symmetry; apply Z.ltb_ge; auto). fold z in Hneed.
  rewrite mult_IZR in Hneed. assert (E2 : 0 < e * e) by nra. apply IZR_lt in K0.
  apply (Rmult_lt_compat_l (e * e * (1 / 2 * (1 - 1 / 2)))) in Hneed; [|lra].
  replace (e * e * (1 / 2 * (1 - 1 / 2)) * (1 * vfactor n_pre n_post sigma rho * (z * z) / (e * e * (1 / 2 * (1 - 1 / 2))))) with (vfactor n_pre n_post sigma rho * (z * z)) in Hneed by (field; nra).
  replace (z * z * (vfactor n_pre n_post sigma rho * (1 / IZR k + 1 / IZR k))) with (2 * (vfactor n_pre n_post sigma rho * (z * z)) * / IZR k) by (field; lra).
  apply (Rmult_lt_reg_r (IZR k)); [lra|]. rewrite (Rmult_assoc _ (/ IZR k)), Rinv_l by lra. lra.
Qed.

(* ---- curves ---- *)
Lemma seq_res_map {A B} (f : A -> res B) (g : A -> B) l : (forall x, In x l -> f x = Ok (g x)) -> seq_res f l = Ok (map g l).
Proof. induction l as [|x l IH]; intros H; simpl; auto. rewrite H by (left; auto). cbn [bind]. rewrite IH by (intros; apply H; right; auto). reflexivity. Qed.
Theorem curve_values cfg n_t n_c sigma effects n_pre n_post rho : good n_t n_c n_pre n_post sigma rho ->
  let s := design_se n_t n_c n_pre n_post sigma rho in
  pa_power_curve cdf ppf cfg n_t n_c sigma effects n_pre n_post rho
  = Some (Ok (map (fun e => (e, Fin (rej cfg (e / s))))
      (match effects with Some l => l | None => pa_grid (5/2 * ((za cfg + zb cfg) * s)) 50 end))).
Proof.
  intros G s. destruct (se_eq _ _ _ _ _ _ G) as (v & Ev & _ & Es). unfold pa_power_curve, pa_mde. rewrite Ev. cbn [bind]. rewrite Es. fold s. cbn [pw_mde pa_mde_se fmul].
  assert (R0 : forall l, seq_res (fun e => do r <- power cfg e n_t n_c sigma n_pre n_post rho; Ok (e, pw_power r)) l = Ok (map (fun e => (e, Fin (rej cfg (e / s)))) l)).
  { intros l. apply seq_res_map. intros e _. destruct (power_ok cdf ppf cfg e _ _ _ _ _ _ G) as (r & Er & Ep & _). rewrite Er. cbn [bind]. rewrite Ep. reflexivity. }
  destruct effects; rewrite R0; reflexivity.
Qed.
Lemma grid_in b x : 0 <= b -> In x (pa_grid b 50) -> 0 <= x <= b.
Proof.
  intros Hb H. unfold pa_grid in H. apply in_map_iff in H as (i & <- & Hi). apply in_seq in Hi.
  assert (I : 0 <= INR i <= 49) by (split; [apply pos_INR|replace 49 with (INR 49) by (simpl; lra); apply le_INR; lia]).
  replace (INR (50 - 1)) with 49 by (simpl; lra). split; [apply Rmult_le_pos; [apply Rmult_le_pos; lra|lra]|].
  apply (Rmult_le_reg_r 49); [lra|]. unfold Rdiv. rewrite Rmult_assoc, Rinv_l by lra. nra.
Qed.
Lemma grid_ends b : In 0 (pa_grid b 50) /\ In b (pa_grid b 50) /\ length (pa_grid b 50) = 50%nat.
Proof.
  unfold pa_grid. split; [|split; [|rewrite map_length, seq_length; reflexivity]].
  - apply in_map_iff. exists 0%nat. split; [simpl INR; field; simpl; lra|apply in_seq; lia].
  - apply in_map_iff. exists 49%nat. split; [|apply in_seq; lia]. change (50 - 1)%nat with 49%nat. field. simpl. lra.
Qed.
(* the automatic curve runs from the size past the target power *)
Theorem curve_spans cfg n_t n_c sigma n_pre n_post rho : cfg_ok cfg -> good n_t n_c n_pre n_post sigma rho -> pa_alt cfg <> Less ->
  pa_alpha cfg < pa_target cfg ->
  exists l, pa_power_curve cdf ppf cfg n_t n_c sigma None n_pre n_post rho = Some (Ok l) /\ length l = 50%nat /\
    In (0, Fin (pa_alpha cfg)) l /\ exists e p, In (e, Fin p) l /\ pa_target cfg < p.
Proof.
  intros Hc G HL Ht. pose proof (design_se_pos _ _ _ _ _ _ G) as Hs. rewrite curve_values by auto. cbv zeta.
  set (s := design_se n_t n_c n_pre n_post sigma rho) in *. set (b := 5/2 * ((za cfg + zb cfg) * s)). destruct (grid_ends b) as (G0 & G1 & GL).
  eexists. split; [reflexivity|]. split; [rewrite map_length; auto|]. split.
  - apply in_map_iff. exists 0. split; auto. f_equal. f_equal. replace (0 / s) with 0 by (field; lra). apply reject_0; auto.
  - exists b, (rej cfg (b / s)). split; [apply in_map_iff; exists b; auto|].
    assert (Hz : 0 < za cfg + zb cfg).
    { destruct (Rlt_le_dec 0 (za cfg + zb cfg)) as [|L]; auto. exfalso. pose proof (cdf_le cdf ppf Hn (zb cfg) (- za cfg) ltac:(lra)) as K.
      rewrite (cdf_zb cdf ppf Hn cfg Hc), (n_sym _ _ Hn), (cdf_za cdf ppf Hn cfg Hc) in K. destruct Hc as [? ?]. destruct (pa_alt cfg); lra. }
    replace (b / s) with (5/2 * (za cfg + zb cfg)) by (unfold b; field; lra).
    assert (M : pa_target cfg <= rej cfg (za cfg + zb cfg)).
    { unfold reject. replace (za cfg - (za cfg + zb cfg)) with (- zb cfg) by ring. rewrite (n_sym _ _ Hn), (cdf_zb cdf ppf Hn cfg Hc).
      pose proof (n_range _ _ Hn (- za cfg - (za cfg + zb cfg))). destruct (pa_alt cfg); try lra. congruence. }
    eapply Rle_lt_trans; [exact M|]. destruct (pa_alt cfg) eqn:E; [|apply (reject_greater cdf ppf Hn); auto; lra|congruence].
    apply (reject_two cdf ppf Hn); auto. rewrite !Rabs_right; lra.
Qed.
(* alternative = "less": no point of the automatic curve exceeds alpha *)
Theorem curve_less_refuted cfg n_t n_c sigma n_pre n_post rho : cfg_ok cfg -> good n_t n_c n_pre n_post sigma rho -> pa_alt cfg = Less ->
  pa_alpha cfg <= pa_target cfg ->
  exists l, pa_power_curve cdf ppf cfg n_t n_c sigma None n_pre n_post rho = Some (Ok l) /\ length l = 50%nat /\
    forall e p, In (e, Fin p) l -> p <= pa_alpha cfg.
Proof.
  intros Hc G HL Ht. pose proof (design_se_pos _ _ _ _ _ _ G) as Hs. rewrite curve_values by auto. cbv zeta.
  set (s := design_se n_t n_c n_pre n_post sigma rho) in *. set (b := 5/2 * ((za cfg + zb cfg) * s)). destruct (grid_ends b) as (_ & _ & GL).
  eexists. split; [reflexivity|]. split; [rewrite map_length; auto|]. intros e p H. apply in_map_iff in H as (x & E & Hx). injection E as <- <-.
  assert (Hz : 0 <= za cfg + zb cfg).
  { destruct (Rle_lt_dec 0 (za cfg + zb cfg)) as [|L]; auto. exfalso. pose proof (n_mono _ _ Hn (zb cfg) (- za cfg) ltac:(lra)) as K.
    rewrite (cdf_zb cdf ppf Hn cfg Hc), (n_sym _ _ Hn), (cdf_za cdf ppf Hn cfg Hc), HL in K. lra. }
  assert (B : 0 <= b) by (unfold b; apply Rmult_le_pos; [lra|apply Rmult_le_pos; lra]). apply grid_in in Hx; auto.
  rewrite <- (reject_0 cdf ppf Hn cfg Hc). assert (0 <= x / s) by (apply Rmult_le_pos; [lra|left; apply Rinv_0_lt_compat; auto]).
  destruct H as [H|H]; [left; apply (reject_less cdf ppf Hn); auto|rewrite <- H; lra].
Qed.

Lemma trunc_nonneg r : 0 <= r -> IZR (truncZ r) <= r < IZR (truncZ r) + 1.
Proof. intros H. unfold truncZ. rewrite (proj2 (Rleb_true 0 r) H). pose proof (base_Int_part r). lra. Qed.
Lemma curve_split_le n n' f : 0 <= f <= 1 -> (0 <= n <= n')%Z ->
  (2 <= fst (curve_split n f) <= fst (curve_split n' f))%Z /\ (2 <= snd (curve_split n f) <= snd (curve_split n' f))%Z.
Proof.
  intros Hf Hn'. unfold curve_split. cbn [fst snd]. destruct Hn' as [N0 N1]. pose proof (IZR_le _ _ N0). pose proof (IZR_le _ _ N1).
  pose proof (trunc_nonneg (IZR n * f) ltac:(nra)) as A. pose proof (trunc_nonneg (IZR n' * f) ltac:(nra)) as B.
  assert (T1 : (truncZ (IZR n * f) <= truncZ (IZR n' * f))%Z).
  { assert (IZR (truncZ (IZR n * f)) < IZR (truncZ (IZR n' * f)) + 1) by nra. rewrite <- plus_IZR in H1. apply lt_IZR in H1. lia. }
  assert (T2 : (n - truncZ (IZR n * f) <= n' - truncZ (IZR n' * f))%Z).
  { assert (IZR (n - truncZ (IZR n * f)) < IZR (n' - truncZ (IZR n' * f)) + 1). { rewrite !minus_IZR. nra. }
    rewrite <- plus_IZR in H1. apply lt_IZR in H1. lia. }
  split; [lia|]. lia.
Qed.
(* the power reported for a larger total sample is never smaller *)
Theorem size_curve_monotone cfg e sigma sizes n_pre n_post rho f l n n' p p' : cfg_ok cfg -> good 1 1 n_pre n_post sigma rho -> 0 <= f <= 1 ->
  match pa_alt cfg with TwoSided => e <> 0 | Greater => 0 < e | Less => e < 0 end ->
  pa_size_curve cdf ppf cfg e sigma sizes n_pre n_post rho f = Ok l -> In (n, p) l -> In (n', p') l -> (0 <= n <= n')%Z ->
  exists q q', p = Fin q /\ p' = Fin q' /\ q <= q'.
Proof.
  intros Hc G Hf He H Hi Hi' Hle. unfold pa_size_curve in H. destruct (sample_size cfg e sigma n_pre n_post rho f) as [req|]; [|discriminate]. cbn [bind] in H.
  set (ns := match sizes with Some l => l | None => _ end) in H. clearbody ns.
  assert (V : forall m q, In (m, q) l -> q = Fin (rej cfg (e / design_se (fst (curve_split m f)) (snd (curve_split m f)) n_pre n_post sigma rho)) /\
     good (fst (curve_split m f)) (snd (curve_split m f)) n_pre n_post sigma rho).
  { assert (G2 : forall m, good (fst (curve_split m f)) (snd (curve_split m f)) n_pre n_post sigma rho).
    { intros m. destruct G as (_ & _ & ? & ?). unfold curve_split. cbn [fst snd]. repeat split; auto; lia. }
    rewrite (seq_res_map _ (fun m => (m, Fin (rej cfg (e / design_se (fst (curve_split m f)) (snd (curve_split m f)) n_pre n_post sigma rho))))) in H.
    - injection H as <-. intros m q Hm. apply in_map_iff in Hm as (m' & E & _). injection E as <- <-. auto.
    - intros m _. destruct (curve_split m f) as [t c] eqn:Es. destruct (power_ok cdf ppf cfg e t c sigma n_pre n_post rho) as (r & Er & Ep & _).
      { pose proof (G2 m) as Gm. rewrite Es in Gm. exact Gm. }
      rewrite Er. cbn [bind]. rewrite Ep. reflexivity. }
  destruct (V n p Hi) as [-> G1]. destruct (V n' p' Hi') as [-> G2]. do 2 eexists. split; [reflexivity|]. split; [reflexivity|].
  destruct (curve_split_le n n' f Hf Hle) as [A B].
  set (t := fst (curve_split n f)) in *. set (t' := fst (curve_split n' f)) in *. set (c := snd (curve_split n f)) in *. set (c' := snd (curve_split n' f)) in *.
  destruct (Z.eq_dec t t') as [E1|E1]; [destruct (Z.eq_dec c c') as [E2|E2]; [rewrite E1, E2; lra|]|];
    (left; apply (reject_se cdf ppf Hn); auto; apply (se_lt t c t' c' n_pre n_post sigma rho G1); lia).
Qed.
(* ---- convenience wrappers ---- *)
Theorem wrappers n_t n_c sigma pw alpha n_pre n_post rho : good n_t n_c n_pre n_post sigma rho -> 0 < alpha < 1 -> 0 < pw < 1 ->
  exists e p, compute_mde ppf n_t n_c sigma pw alpha n_pre n_post rho = Ok (Fin e) /\
    compute_power cdf ppf e n_t n_c sigma alpha n_pre n_post rho = Ok (Fin p) /\ pw < p.
Proof.
  intros G Ha Hp. unfold compute_mde, compute_power, pa_init.
  replace (Rltb 0 alpha && Rltb alpha 1) with true by (symmetry; apply Bool.andb_true_iff; rewrite !Rltb_true; tauto).
  replace (Rltb 0 pw && Rltb pw 1) with true by (symmetry; apply Bool.andb_true_iff; rewrite !Rltb_true; tauto).
  replace (Rltb 0 (4/5) && Rltb (4/5) 1) with true by (symmetry; apply Bool.andb_true_iff; rewrite !Rltb_true; lra). cbn [negb String.eqb Ascii.eqb Bool.eqb bind].
  set (cfg := {| pa_alpha := alpha; pa_target := pw; pa_alt := TwoSided |}). set (cfg' := {| pa_alpha := alpha; pa_target := 4/5; pa_alt := TwoSided |}).
  destruct (mde_power cdf ppf Hn cfg n_t n_c sigma n_pre n_post rho) as (m & r & e & p & Em & E1 & _ & Er & Ep & _ & _ & _ & T); [split; simpl; auto|auto|discriminate|].
  destruct (T eq_refl) as [Tl _]. exists e, p. rewrite Em. cbn [bind]. rewrite E1. split; auto.
  destruct (power_ok cdf ppf cfg e n_t n_c sigma n_pre n_post rho G) as (r1 & Er1 & Ep1 & _). rewrite Er in Er1. injection Er1 as <-. rewrite Ep in Ep1. injection Ep1 as ->.
  destruct (power_ok cdf ppf cfg' e n_t n_c sigma n_pre n_post rho G) as (r2 & Er2 & Ep2 & _).
  assert (E2 : bind (power cfg' e n_t n_c sigma n_pre n_post rho) (fun r => Ok (pw_power r)) = Ok (Fin (rej cfg (e / design_se n_t n_c n_pre n_post sigma rho)))).
  { rewrite Er2. cbn [bind]. rewrite Ep2. reflexivity. }
  split; [exact E2|exact Tl].
Qed.
Theorem wrapper_size effect sigma pw alpha n_pre n_post rho f n : compute_sample_size ppf effect sigma pw alpha n_pre n_post rho f = Ok n ->
  exists r, pa_sample_size ppf {| pa_alpha := alpha; pa_target := pw; pa_alt := TwoSided |} effect sigma n_pre n_post rho f = Ok r /\ n = pw_n r /\ 0 < alpha < 1 /\ 0 < pw < 1.
Proof.
  unfold compute_sample_size. destruct (pa_init alpha pw "two-sided") as [cfg|] eqn:E; [|discriminate]. cbn [bind]. intros H.
  destruct (init_ok _ _ _ _ E) as [[A B] [EA EB]]. unfold pa_init in E. destruct (negb _); [discriminate|]. destruct (negb _); [discriminate|]. simpl in E. injection E as <-.
  destruct (sample_size _ _ _ _ _ _ _) as [r|] eqn:Es; [|discriminate]. simpl in *. injection H as <-. eauto.
Qed.
End Norm.

(* ---- simulated power ---- *)
Section Sim.
Context {D : Type}.
Variable gen : R -> Z -> res D.
Variable fit : D -> res obj.
Variable rng : nat -> Z.
Variable ppf : R -> R.
Notation simulate := (simulate_power gen fit rng ppf).

(* the outcome of the k-th draw at a given effect *)
Definition outcome (effect : R) (k : nat) : option sim_row :=
  match gen effect (rng k) with Ok d => match (do o <- fit d ; extract_obj o) with Ok r => Some r | Err _ => None end | Err _ => None end.
Definition outcomes (effect : R) (start n : nat) : list sim_row :=
  flat_map (fun k => match outcome effect k with Some r => [r] | None => [] end) (seq start n).
Lemma sims_eq effect start n rows : sims gen fit rng effect start n = Ok rows -> rows = outcomes effect start n.
Proof.
  revert start rows. induction n as [|n IH]; intros start rows; cbn [sims]; [intros H; injection H as <-; reflexivity|].
  unfold one_sim. destruct (gen effect (rng start)) as [d|] eqn:G; [|discriminate]. cbn [bind].
  destruct (sims gen fit rng effect (S start) n) as [rest|] eqn:E; [|discriminate]. cbn [bind]. intros H. injection H as <-.
  unfold outcomes. cbn [seq flat_map]. assert (O : outcome effect start = match (do o <- fit d ; extract_obj o) with Ok r => Some r | Err _ => None end) by (unfold outcome; rewrite G; reflexivity).
  rewrite O. rewrite (IH _ _ E). destruct (do o <- fit d ; extract_obj o); reflexivity.
Qed.
Lemma sims_gen_ok effect start n : (forall k, exists d, gen effect (rng k) = Ok d) -> sims gen fit rng effect start n = Ok (outcomes effect start n).
Proof.
  intros H. revert start. induction n as [|n IH]; intros start; cbn [sims]; [reflexivity|]. unfold one_sim. destruct (H start) as (d & G). rewrite G. cbn [bind]. rewrite IH. cbn [bind].
  unfold outcomes. cbn [seq flat_map]. assert (O : outcome effect start = match (do o <- fit d ; extract_obj o) with Ok r => Some r | Err _ => None end) by (unfold outcome; rewrite G; reflexivity).
  rewrite O. destruct (do o <- fit d ; extract_obj o); reflexivity.
Qed.
Lemma sim_effects_ok effects start n all : sim_effects gen fit rng effects start n = Ok all ->
  length all = length effects /\
  forall i, (i < length effects)%nat -> nth i all [] = outcomes (nth i effects 0) (start + i * Z.to_nat n) (Z.to_nat n) /\ nth i all [] <> [] /\ n <> 0%Z.
Proof.
  revert start all. induction effects as [|e effects IH]; intros start all; cbn [sim_effects]; [intros H; injection H as <-; split; auto; intros; simpl in *; lia|].
  unfold sim_effect. destruct (sims gen fit rng e start (Z.to_nat n)) as [rows|] eqn:E; [|discriminate]. cbn [bind].
  destruct (Z.eqb_spec n 0) as [|Nn]; [discriminate|]. destruct rows as [|r0 rows0] eqn:ER; [discriminate|]. cbn [bind]. rewrite <- ER in *.
  destruct (sim_effects gen fit rng effects (start + Z.to_nat n) n) as [rest|] eqn:E2; [|discriminate]. cbn [bind]. intros H. injection H as <-.
  destruct (IH _ _ E2) as [L P]. split; [simpl; congruence|]. intros [|i] Hi.
  - simpl nth. rewrite Nat.mul_0_l, Nat.add_0_r. split; [apply sims_eq; auto|]. split; auto. congruence.
  - simpl in Hi. destruct (P i ltac:(lia)) as (P1 & P2 & P3). cbn [nth]. split; auto. rewrite P1. f_equal. lia.
Qed.
Lemma outcomes_len effect start n : (length (outcomes effect start n) <= n)%nat.
Proof.
  unfold outcomes. revert start. induction n as [|n IH]; intros start; [simpl; lia|]. cbn [seq flat_map]. rewrite app_length.
  specialize (IH (Datatypes.S start)). destruct (outcome effect start); cbn [length]; lia.
Qed.
Lemma primary_lt effects te : effects <> [] -> (primary_index effects te < length effects)%nat.
Proof.
  assert (F : forall l i j, first_close l te i = Some j -> (i <= j < i + length l)%nat).
  { induction l as [|e l IH]; intros i j; simpl; [discriminate|]. destruct (isclose e te); [intros K; injection K as <-; lia|]. intros K. apply IH in K. lia. }
  intros H. unfold primary_index. destruct effects as [|e [|e' l]]; [congruence|simpl; lia|].
  destruct (first_close (e :: e' :: l) te 0) as [j|] eqn:E; [apply F in E; lia|simpl; lia].
Qed.
Lemma mean_b_range l : 0 <= mean_b l <= 1.
Proof.
  unfold mean_b. destruct l as [|b l]; [simpl; unfold Rdiv; rewrite Rmult_0_l; lra|]. set (n := length (b :: l)).
  assert (Hn : 0 < INR n) by (apply lt_0_INR; unfold n; simpl; lia).
  assert (L : (length (filter (fun b => b) (b :: l)) <= n)%nat).
  { unfold n. generalize (b :: l). induction l0 as [|x l0 IH]; simpl; auto. destruct x; simpl; lia. }
  apply le_INR in L. pose proof (pos_INR (length (filter (fun b => b) (b :: l)))). split; [apply Rmult_le_pos; [auto|left; apply Rinv_0_lt_compat; auto]|].
  apply (Rmult_le_reg_r (INR n)); auto. unfold Rdiv. rewrite Rmult_assoc, Rinv_l by lra. lra.
Qed.
(* the reported power is the share of the successful replications with p < alpha *)
Theorem simulate_share te es n alpha r : simulate te es n alpha = Ok r -> 0 <= ppf (975 / 1000) ->
  let effects := match es with Some l => l | None => [te] end in
  si_effects r = effects /\ length (si_powers r) = length effects /\ In (si_true r) effects /\ (0 < n)%Z /\
  exists k, (k < length effects)%nat /\ si_true r = nth k effects 0 /\
    let rows := outcomes (si_true r) (k * Z.to_nat n) (Z.to_nat n) in
    si_n r = length rows /\ rows <> [] /\ (si_n r <= Z.to_nat n)%nat /\
    si_power r = INR (length (filter (fun x => flt (sr_p x) (Fin alpha)) rows)) / INR (length rows) /\
    0 <= si_power r <= 1 /\ 0 <= fst (si_ci r) <= si_power r /\ si_power r <= snd (si_ci r) <= 1 /\
    si_coverage r = INR (length (filter (covers (si_true r)) rows)) / INR (length rows) /\ 0 <= si_coverage r <= 1 /\
    si_mean r = fmean (map sr_att rows) /\
    (forall i, (i < length effects)%nat -> nth i (si_powers r) 0 =
       INR (length (filter (fun x => flt (sr_p x) (Fin alpha)) (outcomes (nth i effects 0) (i * Z.to_nat n) (Z.to_nat n)))) /
       INR (length (outcomes (nth i effects 0) (i * Z.to_nat n) (Z.to_nat n)))).
Proof.
  intros H Hz effects. unfold simulate_power in H. fold effects in H.
  assert (NE : effects <> []) by (destruct effects; [discriminate|congruence]).
  set (k := primary_index effects te) in *. assert (Hk : (k < length effects)%nat) by (apply primary_lt; auto).
  destruct effects as [|e0 ef] eqn:EE; [congruence|]. rewrite <- EE in *. clear EE.
  destruct (sim_effects gen fit rng effects 0 n) as [all|] eqn:EA; [|discriminate]. cbn [bind] in H. injection H as <-.
  destruct (sim_effects_ok _ _ _ _ EA) as [L P]. cbn [si_effects si_powers si_true si_n si_power si_ci si_coverage si_mean].
  assert (MB : forall (p : sim_row -> bool) l, mean_b (map p l) = INR (length (filter p l)) / INR (length l)).
  { intros p l. unfold mean_b. rewrite map_length. do 2 f_equal. induction l as [|x l IH]; simpl; auto. destruct (p x); simpl; auto. }
  assert (PW : forall i, (i < length effects)%nat -> nth i (map (fun rows => mean_b (map (rejected alpha) rows)) all) 0 = mean_b (map (rejected alpha) (nth i all []))).
  { intros i Hi. rewrite (nth_indep _ 0 ((fun rows => mean_b (map (rejected alpha) rows)) [])) by (rewrite map_length; lia). apply map_nth with (f := fun rows => mean_b (map (rejected alpha) rows)). }
  split; auto. split; [rewrite map_length; auto|]. split; [apply nth_In; auto|].
  destruct (P k Hk) as (P1 & P2 & P3). split.
  { destruct (Z_lt_dec 0 n); auto. exfalso. assert (Z.to_nat n = 0%nat) by lia. rewrite H in P1. apply P2. rewrite P1. reflexivity. }
  exists k. split; auto. split; auto. rewrite Nat.add_0_l in P1. rewrite <- P1. split; auto. split; auto. split.
  { rewrite P1. apply outcomes_len. }
  rewrite PW by auto. rewrite MB. split; [reflexivity|].
  pose proof (mean_b_range (map (rejected alpha) (nth k all []))) as R1. rewrite MB in R1. split; auto.
  set (pw := INR (length (filter (rejected alpha) (nth k all []))) / INR (length (nth k all []))) in *.
  assert (SE : 0 <= ppf (975 / 1000) * sqrt (pw * (1 - pw) / INR (length (nth k all [])))) by (apply Rmult_le_pos; auto; apply sqrt_pos).
  cbn [fst snd]. split; [split; [apply Rmax_l|apply Rmax_lub; lra]|]. split; [split; [apply Rmin_glb; lra|apply Rmin_l]|].
  split; [apply MB|]. split; [apply mean_b_range|]. split; auto.
  intros i Hi. rewrite PW by auto. destruct (P i Hi) as (Q1 & _). rewrite Nat.add_0_l in Q1. rewrite Q1, MB. reflexivity.
Qed.
(* every replication fails: RuntimeError; no replication: ZeroDivisionError; no effect size: IndexError *)
Theorem simulate_all_fail te es n alpha : (forall e k, exists d, gen e (rng k) = Ok d) -> n <> 0%Z ->
  (match es with Some l => l <> [] | None => True end) ->
  (forall e k, outcome e k = None) -> simulate te es n alpha = Err RuntimeError.
Proof.
  intros Hg Hn He Ho. unfold simulate_power. set (effects := match es with Some l => l | None => [te] end).
  assert (NE : effects <> []) by (unfold effects; destruct es; [auto|discriminate]). destruct effects as [|e l]; [congruence|].
  cbn [sim_effects]. unfold sim_effect. rewrite sims_gen_ok by auto. cbn [bind]. destruct (Z.eqb_spec n 0); [congruence|].
  replace (outcomes e 0 (Z.to_nat n)) with (@nil sim_row); [reflexivity|]. unfold outcomes. generalize (seq 0 (Z.to_nat n)). intros l0. induction l0 as [|x l0 IH]; simpl; auto. rewrite Ho. auto.
Qed.
(* results with only overall_* attributes (CallawaySantAnna, SunAbraham) can never be used *)
Theorem simulate_overall_refuted te es n alpha : (forall e k, exists d, gen e (rng k) = Ok d) -> n <> 0%Z ->
  (match es with Some l => l <> [] | None => True end) ->
  (forall d, fit d = Ok obj_overall \/ exists e, fit d = Err e) -> simulate te es n alpha = Err RuntimeError.
Proof.
  intros Hg Hn He Hf. apply simulate_all_fail; auto. intros e k. unfold outcome. destruct (gen e (rng k)) as [d|]; auto. destruct (Hf d) as [->|(x & ->)]; reflexivity.
Qed.
Theorem simulate_none te es alpha : (match es with Some l => l <> [] | None => True end) -> simulate te es 0 alpha = Err ZeroDivisionError.
Proof. intros H. unfold simulate_power. destruct es as [[|e l]|]; [congruence| |]; reflexivity. Qed.
Theorem simulate_no_effects te n alpha : simulate te (Some []) n alpha = Err IndexError.
Proof. reflexivity. Qed.
(* results of DifferenceInDifferences, TwoWayFixedEffects and MultiPeriodDiD are read; a missing p-value counts as no rejection *)
Theorem extract_known att se p ci : extract_obj (obj_did att se p ci) = Ok {| sr_att := att; sr_se := se; sr_p := p; sr_lo := fst ci; sr_hi := snd ci |} /\
  extract_obj (obj_mp att se p ci) = Ok {| sr_att := att; sr_se := se; sr_p := p; sr_lo := fst ci; sr_hi := snd ci |} /\
  (p = NaN -> forall alpha, rejected alpha {| sr_att := att; sr_se := se; sr_p := p; sr_lo := fst ci; sr_hi := snd ci |} = false).
Proof. repeat split. intros -> alpha. reflexivity. Qed.
(* which effect is reported *)
Theorem primary_choice effects te : effects <> [] ->
  let k := primary_index effects te in
  (exists e, effects = [e] /\ k = 0%nat) \/
  (isclose (nth k effects 0) te = true /\ forall i, (i < k)%nat -> isclose (nth i effects 0) te = false) \/
  (k = (length effects - 1)%nat /\ forall i, (i < length effects)%nat -> isclose (nth i effects 0) te = false).
Proof.
  intros NE k. unfold k, primary_index.
  assert (F : forall l i, (forall j, first_close l te i = Some j -> (i <= j)%nat /\ (j - i < length l)%nat /\ isclose (nth (j - i) l 0) te = true /\ forall x, (x < j - i)%nat -> isclose (nth x l 0) te = false) /\
                     (first_close l te i = None -> forall x, (x < length l)%nat -> isclose (nth x l 0) te = false)).
  { induction l as [|e l IH]; intros i; cbn [first_close]; [split; [discriminate|intros _ x Hx; simpl in Hx; lia]|]. destruct (isclose e te) eqn:C.
    - split; [|discriminate]. intros j K. injection K as <-. rewrite Nat.sub_diag. simpl. repeat split; auto; try lia.
    - destruct (IH (S i)) as [A B]. split.
      + intros j K. destruct (A j K) as (A1 & A2 & A3 & A4). replace (j - i)%nat with (S (j - S i)) by lia. cbn [nth length]. repeat split; auto; try lia.
        intros [|x] Hx; auto. apply A4. lia.
      + intros K [|x] Hx; auto. cbn [nth]. apply B; auto. simpl in Hx. lia. }
  destruct effects as [|e [|e' l]]; [congruence|left; eauto|]. right. destruct (F (e :: e' :: l) 0%nat) as [A B].
  destruct (first_close (e :: e' :: l) te 0) as [j|] eqn:E.
  - left. destruct (A j eq_refl) as (_ & _ & A3 & A4). rewrite Nat.sub_0_r in *. auto.
  - right. auto.
Qed.
Theorem primary_choice_tol effects te : effects <> [] ->
  let k := primary_index effects te in
  (exists e, effects = [e] /\ k = 0%nat) \/
  (Rabs (nth k effects 0 - te) <= 1 / 100000000 + 1 / 100000 * Rabs te /\ forall i, (i < k)%nat -> 1 / 100000000 + 1 / 100000 * Rabs te < Rabs (nth i effects 0 - te)) \/
  (k = (length effects - 1)%nat /\ forall i, (i < length effects)%nat -> 1 / 100000000 + 1 / 100000 * Rabs te < Rabs (nth i effects 0 - te)).
Proof.
  intros NE k. assert (T : forall a, isclose a te = true <-> Rabs (a - te) <= 1 / 100000000 + 1 / 100000 * Rabs te) by (intros a; apply Rleb_true).
  assert (F : forall a, isclose a te = false <-> 1 / 100000000 + 1 / 100000 * Rabs te < Rabs (a - te)) by (intros a; apply Rleb_false).
  destruct (primary_choice effects te NE) as [H|[[H1 H2]|[H1 H2]]]; [now left|right; left|right; right].
  - split; [now apply T|]. intros i Hi. now apply F, H2.
  - split; [exact H1|]. intros i Hi. now apply F, H2.
Qed.
End Sim.
(* a stricter level rejects less often *)
Theorem rejected_monotone a b r : a <= b -> rejected a r = true -> rejected b r = true.
Proof. unfold rejected. intros H. destruct (sr_p r); simpl; auto. rewrite !Rltb_true. lra. Qed.

(* concrete cases *)
Definition toy_cfg (alt : alternative) : pa_cfg := {| pa_alpha := 1/10; pa_target := 4/5; pa_alt := alt |}.
Lemma toy_za : z_alpha toy_nppf (toy_cfg TwoSided) = 9 /\ z_alpha toy_nppf (toy_cfg Greater) = 4 /\ z_alpha toy_nppf (toy_cfg Less) = 4 /\ forall a, z_beta toy_nppf (toy_cfg a) = 3/2.
Proof.
  assert (P : forall q, 1/2 <= q -> toy_nppf q = (2 * q - 1) / (2 - 2 * q)) by (intros q H; unfold toy_nppf; rewrite (proj2 (Rleb_true _ _) H); reflexivity).
  unfold z_alpha, z_beta, toy_cfg; simpl. rewrite !P by lra. repeat split; intros; try rewrite P by lra; field.
Qed.
Theorem toy_power_case : exists r, pa_power toy_cdf toy_nppf (toy_cfg Greater) 11 2 2 (1/2) 1 1 0 = Ok r /\ pw_mde r = Fin (11/2 * sqrt (1/2)) /\
  good 2 2 1 1 (1/2) 0 /\ cfg_ok (toy_cfg Greater).
Proof.
  assert (G : good 2 2 1 1 (1/2) 0) by (repeat split; try lia; lra). destruct (power_ok toy_cdf toy_nppf (toy_cfg Greater) 11 _ _ _ _ _ _ G) as (r & Er & _ & Em & _).
  exists r. split; auto. split; [|split; [auto|split; simpl; lra]]. rewrite Em. destruct toy_za as (_ & -> & _ & ->). f_equal. f_equal; [field|].
  unfold design_se, vfactor, is_panel. simpl. f_equal. field.
Qed.
Theorem toy_sim_case : exists r, simulate_power (fun e s => Ok (e, s)) (fun d => if Z.eqb (snd d) 1 then Err ValueError else Ok (obj_did (Fin (fst d)) (Fin 1) (if Z.eqb (snd d) 0 then Fin 0 else Fin 1) (Fin 0, Fin 10)))
    (fun k => Z.of_nat (k mod 3)) (fun _ => 2) 5 None 4 (1/20) = Ok r /\ si_n r = 3%nat /\ si_power r = 2/3 /\ si_coverage r = 1.
Proof.
  unfold simulate_power. cbv [sim_effects sim_effect]. change (Z.to_nat 4) with 4%nat. cbv [sims one_sim bind]. simpl. eexists. split; [reflexivity|]. cbn [si_n si_power si_coverage].
  split; [reflexivity|]. unfold mean_b, rejected, covers. cbn [map sr_p sr_lo sr_hi flt fle nth filter].
  assert (A : Rltb 0 (1/20) = true) by (apply Rltb_true; lra). assert (B : Rltb 1 (1/20) = false) by (apply Rltb_false; lra).
  assert (C : Rleb 0 5 = true) by (apply Rleb_true; lra). assert (E : Rleb 5 10 = true) by (apply Rleb_true; lra). rewrite A, B, C, E. simpl. split; field.
Qed.

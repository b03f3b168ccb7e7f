(* Pre-trend checks: equivalence test, trend slopes, permutation p-value. *)
From Verif Require Import Prelude Flt Stats_model Stats_proofs Linalg_thms Multi_model Multi_proofs Trends_model.
From Coq Require Import Arith ZArith String List Lia.
Import ListNotations.
Open Scope R_scope.

(* what is assumed of Student's t with real degrees of freedom; q95 is its 95% quantile *)
Record t_ok (tsf tcdf : R -> R -> R) (q95 : R -> R) : Prop := {
  t_sym : forall df x, 0 < df -> tsf df x = tcdf df (- x);
  t_inc : forall df x y, 0 < df -> x < y -> tcdf df x < tcdf df y;
  t_q : forall df, 0 < df -> tcdf df (- q95 df) = 1 / 20;
  t_qpos : forall df, 0 < df -> 0 < q95 df }.
Definition toy_tcdf (df x : R) : R := 1 / 2 * (1 + x / (1 + Rabs x)).
Definition toy_tsf (df x : R) : R := toy_tcdf df (- x).
Definition toy_q (df : R) : R := 9.
Lemma toy_t_ok : t_ok toy_tsf toy_tcdf toy_q.
Proof.
  constructor; intros; try reflexivity.
  - unfold toy_tcdf. apply Rmult_lt_compat_l; [lra|]. apply Rplus_lt_compat_l.
    assert (P : forall z, 0 < 1 + Rabs z) by (intros z; pose proof (Rabs_pos z); lra).
    apply (Rmult_lt_reg_r ((1 + Rabs x) * (1 + Rabs y))); [apply Rmult_lt_0_compat; auto|].
    pose proof (P x). pose proof (P y).
    replace (x / (1 + Rabs x) * ((1 + Rabs x) * (1 + Rabs y))) with (x * (1 + Rabs y)) by (field; lra).
    replace (y / (1 + Rabs y) * ((1 + Rabs x) * (1 + Rabs y))) with (y * (1 + Rabs x)) by (field; lra).
    unfold Rabs. destruct (Rcase_abs x), (Rcase_abs y); nra.
  - unfold toy_tcdf, toy_q. rewrite Rabs_Ropp, Rabs_right by lra. lra.
  - unfold toy_q. lra.
Qed.

Lemma len_ge2 {A} (l : list A) : (2 <= length l)%nat -> 2 <= len l.
Proof. intros H. unfold len. apply le_INR in H. simpl in H. lra. Qed.
Lemma ltb2_or {A B} (l : list A) (m : list B) :
  Nat.ltb (length l) 2 || Nat.ltb (length m) 2 = false <-> (2 <= length l)%nat /\ (2 <= length m)%nat.
Proof. rewrite Bool.orb_false_iff, !Nat.ltb_ge. tauto. Qed.

Section Tost.
Variables (tsf tcdf : R -> R -> R) (q95 : R -> R).
Hypothesis Ht : t_ok tsf tcdf q95.

Definition welch_df (tc cc : list R) : R :=
  let a := variance 1 tc / len tc in let c := variance 1 cc / len cc in
  (a + c) * (a + c) / (a * a / (len tc - 1) + c * c / (len cc - 1)).
Definition diff_se (tc cc : list R) : R := sqrt (variance 1 tc / len tc + variance 1 cc / len cc).
Definition mean_gap (tc cc : list R) : R := meanf idR tc - meanf idR cc.
Definition the_margin (margin : option R) (tc cc : list R) : R :=
  match margin with Some m => m | None => 1 / 2 * std 1 (tc ++ cc) end.
Definition enough (tc cc : list R) : Prop :=
  (2 <= length tc)%nat /\ (2 <= length cc)%nat /\ (variance 1 tc <> 0 \/ variance 1 cc <> 0).

Lemma var1_nonneg (l : list R) : (2 <= length l)%nat -> 0 <= variance 1 l.
Proof. intros H. apply variance_nonneg. simpl. apply len_ge2 in H. lra. Qed.

Lemma share_pos (tc cc : list R) : enough tc cc ->
  0 <= variance 1 tc / len tc /\ 0 <= variance 1 cc / len cc /\
  0 < variance 1 tc / len tc + variance 1 cc / len cc.
Proof.
  intros (H1 & H2 & H3). pose proof (var1_nonneg tc H1) as V1. pose proof (var1_nonneg cc H2) as V2.
  apply len_ge2 in H1. apply len_ge2 in H2.
  assert (I1 : 0 < / len tc) by (apply Rinv_0_lt_compat; lra).
  assert (I2 : 0 < / len cc) by (apply Rinv_0_lt_compat; lra).
  unfold Rdiv. assert (0 <= variance 1 tc * / len tc) by (apply Rmult_le_pos; lra).
  assert (0 <= variance 1 cc * / len cc) by (apply Rmult_le_pos; lra).
  split; auto. split; auto. destruct H3 as [H3|H3].
  - assert (0 < variance 1 tc * / len tc) by (apply Rmult_lt_0_compat; lra). lra.
  - assert (0 < variance 1 cc * / len cc) by (apply Rmult_lt_0_compat; lra). lra.
Qed.
Lemma se_pos tc cc : enough tc cc -> 0 < diff_se tc cc.
Proof. intros H. apply sqrt_lt_R0. apply share_pos; auto. Qed.

(* Welch-Satterthwaite degrees of freedom lie between the two classical choices *)
Theorem welch_bounds tc cc : enough tc cc ->
  Rmin (len tc - 1) (len cc - 1) <= welch_df tc cc <= len tc + len cc - 2.
Proof.
  intros H. destruct (share_pos tc cc H) as (A0 & C0 & AC). unfold welch_df.
  set (a := variance 1 tc / len tc) in *. set (c := variance 1 cc / len cc) in *.
  destruct H as (H1 & H2 & _). apply len_ge2 in H1. apply len_ge2 in H2.
  set (p := len tc - 1). set (q := len cc - 1).
  assert (Hp : 0 < p) by (unfold p; lra). assert (Hq : 0 < q) by (unfold q; lra).
  assert (D : 0 < a * a / p + c * c / q).
  { assert (0 <= a * a / p) by (apply Rmult_le_pos; [nra|left; apply Rinv_0_lt_compat; auto]).
    assert (0 <= c * c / q) by (apply Rmult_le_pos; [nra|left; apply Rinv_0_lt_compat; auto]).
    destruct (Req_dec a 0) as [Ea|Ea].
    - assert (0 < c * c / q) by (apply Rmult_lt_0_compat; [nra|apply Rinv_0_lt_compat; auto]). lra.
    - assert (0 < a * a / p) by (apply Rmult_lt_0_compat; [nra|apply Rinv_0_lt_compat; auto]). lra. }
  split.
  - set (m := Rmin p q). assert (Hm : 0 < m) by (unfold m; apply Rmin_glb_lt; auto).
    apply (Rmult_le_reg_r (a * a / p + c * c / q)); auto. unfold Rdiv at 3. rewrite Rmult_assoc, Rinv_l by lra. rewrite Rmult_1_r.
    assert (B : forall x r, 0 < r -> m <= r -> m * (x * x / r) <= x * x).
    { intros x r Hr Hmr. replace (m * (x * x / r)) with ((m / r) * (x * x)) by (field; lra).
      assert (m / r <= 1) by (apply (Rmult_le_reg_r r); auto; unfold Rdiv; rewrite Rmult_assoc, Rinv_l by lra; lra).
      pose proof (sq_nonneg x). nra. }
    pose proof (B a p Hp (Rmin_l p q)). pose proof (B c q Hq (Rmin_r p q)).
    rewrite Rmult_plus_distr_l. nra.
  - apply (Rmult_le_reg_r (a * a / p + c * c / q)); auto. unfold Rdiv at 1. rewrite Rmult_assoc, Rinv_l by lra. rewrite Rmult_1_r.
    replace (len tc + len cc - 2) with (p + q) by (unfold p, q; ring).
    assert (E : (p + q) * (a * a / p + c * c / q) - (a + c) * (a + c) = (q * a - p * c) * (q * a - p * c) / (p * q)) by (field; lra).
    assert (0 <= (q * a - p * c) * (q * a - p * c) / (p * q)); [|lra].
    apply Rmult_le_pos; [apply sq_nonneg|]. left. apply Rinv_0_lt_compat. nra.
Qed.
Lemma welch_pos tc cc : enough tc cc -> 0 < welch_df tc cc.
Proof.
  intros H. pose proof (welch_bounds tc cc H) as [B _]. destruct H as (H1 & H2 & _).
  apply len_ge2 in H1. apply len_ge2 in H2. assert (0 < Rmin (len tc - 1) (len cc - 1)) by (apply Rmin_glb_lt; lra). lra.
Qed.

(* the code's zero-variance guards do not change the degrees of freedom *)
Lemma guarded_df tc cc : enough tc cc ->
  let vt := variance 1 tc in let vc := variance 1 cc in let nt := len tc in let nc := len cc in
  let dt := if Rlt_dec 0 vt then (vt / nt) * (vt / nt) / (nt - 1) else 0 in
  let dc := if Rlt_dec 0 vc then (vc / nc) * (vc / nc) / (nc - 1) else 0 in
  (if Req_EM_T (dt + dc) 0 then Rmin (nt - 1) (nc - 1)
   else (vt / nt + vc / nc) * (vt / nt + vc / nc) / (dt + dc)) = welch_df tc cc.
Proof.
  intros H vt vc nt nc dt dc. pose proof (welch_pos tc cc H) as Hw.
  pose proof H as (H1 & H2 & H3). pose proof (var1_nonneg tc H1) as V1. pose proof (var1_nonneg cc H2) as V2.
  apply len_ge2 in H1. apply len_ge2 in H2. fold nt in H1. fold nc in H2. fold vt in V1. fold vc in V2.
  assert (E1 : dt = (vt / nt) * (vt / nt) / (nt - 1)).
  { unfold dt. destruct (Rlt_dec 0 vt) as [|N]; auto. assert (E0 : vt = 0) by lra. rewrite E0. field. lra. }
  assert (E2 : dc = (vc / nc) * (vc / nc) / (nc - 1)).
  { unfold dc. destruct (Rlt_dec 0 vc) as [|N]; auto. assert (E0 : vc = 0) by lra. rewrite E0. field. lra. }
  rewrite E1, E2. unfold welch_df in Hw |- *. fold vt vc nt nc in Hw.
  destruct (Req_EM_T _ 0) as [Z0|N]; [|reflexivity]. exfalso. rewrite Z0 in Hw. unfold Rdiv in Hw at 1. rewrite Rinv_0 in Hw. lra.
Qed.

Lemma tost_enough margin tc cc : enough tc cc ->
  let df := welch_df tc cc in let se := diff_se tc cc in let m := the_margin margin tc cc in
  let pl := tsf df ((mean_gap tc cc + m) / se) in let pu := tcdf df ((mean_gap tc cc - m) / se) in
  tost tsf tcdf margin tc cc =
  {| ts_mean := Fin (mean_gap tc cc); ts_se := Fin se; ts_margin := Fin m;
     ts_t_lower := Fin ((mean_gap tc cc + m) / se); ts_t_upper := Fin ((mean_gap tc cc - m) / se);
     ts_p_lower := Fin pl; ts_p_upper := Fin pu; ts_p := Fin (Rmax pl pu); ts_df := Fin df;
     ts_equivalent := Some (Rltb (Rmax pl pu) (1/20)) |}.
Proof.
  intros H df se m pl pu. pose proof H as (H1 & H2 & H3). unfold tost.
  rewrite (proj2 (ltb2_or tc cc)) by auto. cbv zeta. rewrite (guarded_df tc cc H).
  fold df. fold (diff_se tc cc). fold se. fold (mean_gap tc cc). fold (the_margin margin tc cc). fold m.
  destruct (Req_EM_T (variance 1 tc) 0), (Req_EM_T (variance 1 cc) 0); simpl andb; cbv iota;
    try (exfalso; tauto);
    (destruct (Req_EM_T se 0) as [Z0|_]; [pose proof (se_pos tc cc H); unfold se in Z0; lra|]);
    replace (mean_gap tc cc - - m) with (mean_gap tc cc + m) by ring; reflexivity.
Qed.

Lemma tost_not_enough margin tc cc : ~ enough tc cc ->
  ts_equivalent (tost tsf tcdf margin tc cc) = None /\ ts_p (tost tsf tcdf margin tc cc) = NaN.
Proof.
  intros H. unfold tost. destruct (Nat.ltb _ 2 || Nat.ltb _ 2) eqn:E; [auto|]. apply ltb2_or in E.
  destruct (Req_EM_T (variance 1 tc) 0) as [E1|E1]; [destruct (Req_EM_T (variance 1 cc) 0) as [E2|E2]; [auto|]|];
  exfalso; apply H; unfold enough; tauto.
Qed.

Theorem tost_defined margin tc cc : ts_equivalent (tost tsf tcdf margin tc cc) <> None <-> enough tc cc.
Proof.
  split.
  - intros H. destruct (le_dec 2 (length tc)), (le_dec 2 (length cc)), (Req_EM_T (variance 1 tc) 0), (Req_EM_T (variance 1 cc) 0);
      try (unfold enough; tauto); exfalso; apply H; apply tost_not_enough; unfold enough; tauto.
  - intros H. rewrite (tost_enough margin tc cc H). discriminate.
Qed.

Lemma cdf_lt df x y : 0 < df -> (tcdf df x < tcdf df y <-> x < y).
Proof.
  intros Hdf. split; [|apply (t_inc _ _ _ Ht); auto]. intros H. destruct (Rlt_le_dec x y) as [|L]; auto. exfalso.
  destruct L as [L|L]; [pose proof (t_inc _ _ _ Ht df y x Hdf L); lra|subst; lra].
Qed.

(* the decision: both one-sided tests reject at 5%, i.e. the 90% interval lies inside the margins *)
Theorem tost_iff margin tc cc : enough tc cc ->
  let r := tost tsf tcdf margin tc cc in
  let m := the_margin margin tc cc in let se := diff_se tc cc in let q := q95 (welch_df tc cc) in
  (ts_equivalent r = Some true <->
     - m < mean_gap tc cc - q * se /\ mean_gap tc cc + q * se < m) /\
  (ts_equivalent r = Some true <-> flt (ts_p_lower r) (Fin (1/20)) = true /\ flt (ts_p_upper r) (Fin (1/20)) = true).
Proof.
  intros H r m se q. pose proof (se_pos tc cc H) as Hse. pose proof (welch_pos tc cc H) as Hdf. fold se in Hse.
  pose proof (tost_enough margin tc cc H) as E. cbv zeta in E. fold m se in E.
  assert (B : ts_equivalent r = Some true <->
     tsf (welch_df tc cc) ((mean_gap tc cc + m) / se) < 1/20 /\ tcdf (welch_df tc cc) ((mean_gap tc cc - m) / se) < 1/20).
  { unfold r. rewrite E. cbn [ts_equivalent]. split.
    - intros K. injection K as K. apply Rltb_true in K.
      pose proof (Rmax_l (tsf (welch_df tc cc) ((mean_gap tc cc + m) / se)) (tcdf (welch_df tc cc) ((mean_gap tc cc - m) / se))).
      pose proof (Rmax_r (tsf (welch_df tc cc) ((mean_gap tc cc + m) / se)) (tcdf (welch_df tc cc) ((mean_gap tc cc - m) / se))). lra.
    - intros [K1 K2]. f_equal. apply Rltb_true. apply Rmax_lub_lt; auto. }
  split.
  - rewrite B. rewrite (t_sym _ _ _ Ht) by auto.
    rewrite <- (t_q _ _ _ Ht (welch_df tc cc) Hdf). fold q. rewrite !cdf_lt by auto.
    assert (S : forall x, x / se * se = x) by (intros x; field; lra).
    split; intros [K1 K2]; split.
    + apply Ropp_lt_cancel in K1. apply (Rmult_lt_compat_r se) in K1; auto. rewrite S in K1. lra.
    + apply (Rmult_lt_compat_r se) in K2; auto. rewrite S in K2. lra.
    + apply Ropp_lt_contravar. apply (Rmult_lt_reg_r se); auto. rewrite S. lra.
    + apply (Rmult_lt_reg_r se); auto. rewrite S. lra.
  - rewrite B. unfold r. rewrite E. cbn [ts_p_lower ts_p_upper]. rewrite !flt_fin. tauto.
Qed.

Theorem tost_margin_monotone m m' tc cc : m <= m' ->
  ts_equivalent (tost tsf tcdf (Some m) tc cc) = Some true -> ts_equivalent (tost tsf tcdf (Some m') tc cc) = Some true.
Proof.
  intros Hm H. assert (He : enough tc cc) by (apply (tost_defined (Some m)); congruence).
  apply (proj1 (tost_iff (Some m') tc cc He)). apply (proj1 (proj1 (tost_iff (Some m) tc cc He))) in H. simpl the_margin in *. destruct H; split; lra.
Qed.
Theorem tost_margin_positive m tc cc : ts_equivalent (tost tsf tcdf (Some m) tc cc) = Some true -> 0 < m /\ Rabs (mean_gap tc cc) < m.
Proof.
  intros H. assert (He : enough tc cc) by (apply (tost_defined (Some m)); congruence).
  apply (proj1 (proj1 (tost_iff (Some m) tc cc He))) in H. simpl the_margin in *.
  pose proof (se_pos tc cc He). pose proof (t_qpos _ _ _ Ht _ (welch_pos tc cc He)).
  assert (0 < q95 (welch_df tc cc) * diff_se tc cc) by (apply Rmult_lt_0_compat; auto).
  unfold Rabs. destruct (Rcase_abs (mean_gap tc cc)); split; lra.
Qed.

(* which group is called treated does not matter *)
Lemma enough_swap tc cc : enough tc cc -> enough cc tc.
Proof. unfold enough. tauto. Qed.
Theorem tost_swap margin tc cc :
  ts_equivalent (tost tsf tcdf margin cc tc) = ts_equivalent (tost tsf tcdf margin tc cc) /\
  ts_p (tost tsf tcdf margin cc tc) = ts_p (tost tsf tcdf margin tc cc).
Proof.
  assert (D : enough tc cc \/ ~ enough tc cc).
  { destruct (le_dec 2 (length tc)), (le_dec 2 (length cc)), (Req_EM_T (variance 1 tc) 0), (Req_EM_T (variance 1 cc) 0); unfold enough; tauto. }
  destruct D as [D|D].
  - assert (D' := enough_swap _ _ D). rewrite (tost_enough margin tc cc D), (tost_enough margin cc tc D').
    cbn [ts_equivalent ts_p].
    assert (E1 : welch_df cc tc = welch_df tc cc).
    { unfold welch_df. rewrite (Rplus_comm (variance 1 cc / len cc)), (Rplus_comm (_ / (len cc - 1))). reflexivity. }
    assert (E2 : diff_se cc tc = diff_se tc cc) by (unfold diff_se; rewrite Rplus_comm; reflexivity).
    assert (E3 : the_margin margin cc tc = the_margin margin tc cc).
    { unfold the_margin. destruct margin; auto. rewrite (std_perm 1 (cc ++ tc) (tc ++ cc)); auto. apply Permutation_app_comm. }
    assert (E4 : mean_gap cc tc = - mean_gap tc cc) by (unfold mean_gap; ring).
    rewrite E1, E2, E3, E4. pose proof (welch_pos _ _ D) as Hdf.
    rewrite !(t_sym _ _ _ Ht) by auto.
    pose proof (se_pos tc cc D) as Hse.
    replace (- ((- mean_gap tc cc + the_margin margin tc cc) / diff_se tc cc)) with ((mean_gap tc cc - the_margin margin tc cc) / diff_se tc cc) by (field; lra).
    replace ((- mean_gap tc cc - the_margin margin tc cc) / diff_se tc cc) with (- ((mean_gap tc cc + the_margin margin tc cc) / diff_se tc cc)) by (field; lra).
    rewrite (Rmax_comm (tcdf _ ((mean_gap tc cc - _) / _))). auto.
  - assert (D' : ~ enough cc tc) by (intros K; apply D; apply enough_swap; auto).
    destruct (tost_not_enough margin tc cc D) as [-> ->]. destruct (tost_not_enough margin cc tc D') as [-> ->]. auto.
Qed.

(* units: changing the outcome's origin and scale leaves the default-margin decision alone *)
Lemma ge2_ne {A} (l : list A) : (2 <= length l)%nat -> l <> [].
Proof. destruct l; simpl; [lia|discriminate]. Qed.
Lemma variance_affine l s c : (2 <= length l)%nat -> variance 1 (map (fun x => s * x + c) l) = s * s * variance 1 l.
Proof.
  intros H. unfold variance. rewrite sumsq_affine by (apply ge2_ne; auto). rewrite len_map. apply len_ge2 in H. simpl. field. lra.
Qed.
Lemma mean_affine l s c : l <> [] -> meanf idR (map (fun x => s * x + c) l) = s * meanf idR l + c.
Proof.
  intros H. rewrite meanf_map. unfold idR at 1.
  transitivity (meanf (fun x => s * x) l + meanf (fun _ => c) l); [apply meanf_add|].
  rewrite meanf_const by auto. rewrite (meanf_scal s idR). reflexivity.
Qed.
Theorem tost_scale_invariant tc cc s c : 0 < s ->
  let f := map (fun x => s * x + c) in
  ts_p (tost tsf tcdf None (f tc) (f cc)) = ts_p (tost tsf tcdf None tc cc) /\
  ts_equivalent (tost tsf tcdf None (f tc) (f cc)) = ts_equivalent (tost tsf tcdf None tc cc) /\
  (forall m, ts_equivalent (tost tsf tcdf (Some (s * m)) (f tc) (f cc)) = ts_equivalent (tost tsf tcdf (Some m) tc cc)).
Proof.
  intros Hs f.
  assert (D : enough tc cc \/ ~ enough tc cc).
  { destruct (le_dec 2 (length tc)), (le_dec 2 (length cc)), (Req_EM_T (variance 1 tc) 0), (Req_EM_T (variance 1 cc) 0); unfold enough; tauto. }
  assert (Lf : forall l, length (f l) = length l) by (intros; unfold f; apply map_length).
  assert (Vf : forall l, (2 <= length l)%nat -> variance 1 (f l) = s * s * variance 1 l) by (intros; apply variance_affine; auto).
  assert (Ef : enough (f tc) (f cc) <-> enough tc cc).
  { unfold enough. rewrite !Lf. split; intros (A & B & C); split; auto; split; auto; rewrite !Vf in * by auto.
    - destruct C as [C|C]; [left|right]; intros E; apply C; rewrite E; ring.
    - destruct C as [C|C]; [left|right]; intros E; apply C; apply (Rmult_eq_reg_l (s * s)); nra. }
  destruct D as [D|D].
  - pose proof (proj2 Ef D) as D'. pose proof D as (H1 & H2 & _). pose proof (se_pos tc cc D) as Hse.
    pose proof (share_pos tc cc D) as (A0 & C0 & AC).
    assert (N1 := len_ge2 _ H1). assert (N2 := len_ge2 _ H2).
    assert (E1 : welch_df (f tc) (f cc) = welch_df tc cc).
    { pose proof (welch_pos tc cc D) as W. unfold welch_df in *. rewrite !Vf by auto. unfold f. rewrite !len_map.
      set (a := variance 1 tc / len tc) in *. set (b := variance 1 cc / len cc) in *.
      replace (s * s * variance 1 tc / len tc) with (s * s * a) by (unfold a; field; lra).
      replace (s * s * variance 1 cc / len cc) with (s * s * b) by (unfold b; field; lra).
      assert (Dn : a * a / (len tc - 1) + b * b / (len cc - 1) <> 0).
      { intros Z0. rewrite Z0 in W. unfold Rdiv in W at 1. rewrite Rinv_0 in W. lra. }
      replace (s * s * a * (s * s * a) / (len tc - 1) + s * s * b * (s * s * b) / (len cc - 1))
        with ((s * s * (s * s)) * (a * a / (len tc - 1) + b * b / (len cc - 1))) by (field; lra).
      set (dn := a * a / (len tc - 1) + b * b / (len cc - 1)) in *. field. split; [auto|lra]. }
    assert (E2 : diff_se (f tc) (f cc) = s * diff_se tc cc).
    { unfold diff_se. rewrite !Vf by auto. unfold f. rewrite !len_map.
      replace (s * s * variance 1 tc / len tc + s * s * variance 1 cc / len cc)
        with ((s * s) * (variance 1 tc / len tc + variance 1 cc / len cc)) by (field; lra).
      rewrite sqrt_mult by nra. rewrite sqrt_square by lra. reflexivity. }
    assert (E4 : mean_gap (f tc) (f cc) = s * mean_gap tc cc).
    { unfold mean_gap, f. rewrite !mean_affine by (apply ge2_ne; auto). ring. }
    assert (E3 : the_margin None (f tc) (f cc) = s * the_margin None tc cc).
    { unfold the_margin, f. rewrite <- map_app. rewrite std_affine.
      - rewrite Rabs_right by lra. ring.
      - intros K. apply (ge2_ne tc H1). destruct tc; [auto|discriminate].
      - rewrite len_app. simpl. lra. }
    assert (Q : forall x y : R, (s * x + s * y) / (s * diff_se tc cc) = (x + y) / diff_se tc cc) by (intros; field; lra).
    assert (Q' : forall x y : R, (s * x - s * y) / (s * diff_se tc cc) = (x - y) / diff_se tc cc) by (intros; field; lra).
    split; [|split].
    + rewrite (tost_enough None _ _ D), (tost_enough None _ _ D'). cbn [ts_p]. rewrite E1, E2, E3, E4, Q, Q'. reflexivity.
    + rewrite (tost_enough None _ _ D), (tost_enough None _ _ D'). cbn [ts_equivalent]. rewrite E1, E2, E3, E4, Q, Q'. reflexivity.
    + intros m. rewrite (tost_enough (Some m) _ _ D), (tost_enough (Some (s * m)) _ _ D'). cbn [ts_equivalent the_margin].
      rewrite E1, E2, E4, Q, Q'. reflexivity.
  - assert (D' : ~ enough (f tc) (f cc)) by (rewrite Ef; auto).
    split; [|split]; [| |intros m];
      repeat match goal with |- context [tost _ _ ?x ?a ?b] =>
        first [destruct (tost_not_enough x a b D) as [Z1 Z2]; rewrite ?Z1, ?Z2; clear Z1 Z2; revert D; intros D |
               destruct (tost_not_enough x a b D') as [Z1 Z2]; rewrite ?Z1, ?Z2; clear Z1 Z2] end; reflexivity.
Qed.
End Tost.

(* ---- trend slopes ---- *)
Definition tdev (l : list (R * R)) (p : R * R) : R := fst p - meanf fst l.
Definition tvar (l : list (R * R)) : R := sumf (fun p => tdev l p * tdev l p) l.
Definition tslope (l : list (R * R)) : R := sumf (fun p => tdev l p * (snd p - meanf snd l)) l / tvar l.
Definition tresid (l : list (R * R)) (p : R * R) : R := snd p - (meanf snd l + tslope l * tdev l p).
Definition tssr (l : list (R * R)) : R := sumf (fun p => tresid l p * tresid l p) l.

(* the normalisation of time to start at zero is irrelevant *)
Lemma trend_closed l : l <> [] ->
  compute_trend l =
  if Nat.ltb (length l) 2 then Ok (NaN, NaN)
  else if Req_EM_T (tvar l) 0 then Ok (NaN, NaN)
  else Ok (Fin (tslope l), fsqrt (fdiv (fdiv (Fin (tssr l)) (Fin (INR (length l) - 2))) (Fin (tvar l)))).
Proof.
  intros H. unfold compute_trend. destruct l as [|p0 r]; [congruence|].
  set (m := fold_right Rmin (fst p0) (map fst r)). set (l := p0 :: r) in *. cbv zeta.
  destruct (Nat.ltb (length l) 2); [reflexivity|].
  assert (E : forall p : R * R, fst p - m - meanf (fun p => fst p - m) l = tdev l p).
  { intros p. rewrite meanf_sub. rewrite meanf_const by discriminate. unfold tdev. ring. }
  rewrite (sumf_ext_all (fun p => (fst p - m - meanf (fun p0 => fst p0 - m) l) * (fst p - m - meanf (fun p0 => fst p0 - m) l))
             (fun p => tdev l p * tdev l p)) by (intros p; rewrite E; reflexivity).
  fold (tvar l). destruct (Req_EM_T (tvar l) 0); [reflexivity|].
  rewrite (sumf_ext_all (fun p => (fst p - m - meanf (fun p0 => fst p0 - m) l) * (snd p - meanf snd l))
             (fun p => tdev l p * (snd p - meanf snd l))) by (intros p; rewrite E; reflexivity).
  fold (tslope l).
  rewrite (sumf_ext_all (fun p => (snd p - (meanf snd l + tslope l * (fst p - m - meanf (fun p0 => fst p0 - m) l)))
                                * (snd p - (meanf snd l + tslope l * (fst p - m - meanf (fun p0 => fst p0 - m) l))))
             (fun p => tresid l p * tresid l p)) by (intros p; rewrite E; reflexivity).
  reflexivity.
Qed.

Lemma tdev_sum l : l <> [] -> sumf (tdev l) l = 0.
Proof. intros H. exact (sumf_dev fst l H). Qed.

(* the slope is the least-squares one: residuals are orthogonal to the constant and to time *)
Theorem slope_is_ols l : l <> [] -> tvar l <> 0 ->
  sumf (tresid l) l = 0 /\ sumf (fun p => fst p * tresid l p) l = 0.
Proof.
  intros H V.
  assert (S0 : sumf (tresid l) l = 0).
  { unfold tresid. rewrite (sumf_ext_all _ (fun p => (snd p - meanf snd l) - tslope l * tdev l p)) by (intros; ring).
    rewrite sumf_sub, sumf_scal, tdev_sum by auto. rewrite (sumf_dev snd l H). ring. }
  split; auto.
  assert (S1 : sumf (fun p => tdev l p * tresid l p) l = 0).
  { unfold tresid. rewrite (sumf_ext_all _ (fun p => tdev l p * (snd p - meanf snd l) - tslope l * (tdev l p * tdev l p))) by (intros; ring).
    rewrite sumf_sub, sumf_scal. fold (tvar l). unfold tslope. field. auto. }
  rewrite (sumf_ext_all _ (fun p => tdev l p * tresid l p + meanf fst l * tresid l p)) by (intros; unfold tdev; ring).
  rewrite sumf_add, sumf_scal, S1, S0. ring.
Qed.

(* adding a level and a linear trend adds the trend to the slope and nothing else *)
Definition tilt (a b : R) (p : R * R) : R * R := (fst p, snd p + (a + b * fst p)).
Lemma tilt_parts l a b : l <> [] ->
  tvar (map (tilt a b) l) = tvar l /\
  (tvar l <> 0 -> tslope (map (tilt a b) l) = tslope l + b /\ tssr (map (tilt a b) l) = tssr l).
Proof.
  intros H.
  assert (Mf : meanf fst (map (tilt a b) l) = meanf fst l) by (rewrite meanf_map; reflexivity).
  assert (Ms : meanf snd (map (tilt a b) l) = meanf snd l + (a + b * meanf fst l)).
  { rewrite meanf_map. simpl. rewrite meanf_add. f_equal. rewrite meanf_add, meanf_const, meanf_scal by auto. reflexivity. }
  assert (Td : forall p, tdev (map (tilt a b) l) (tilt a b p) = tdev l p) by (intros p; unfold tdev; rewrite Mf; reflexivity).
  assert (E1 : tvar (map (tilt a b) l) = tvar l).
  { unfold tvar. rewrite sumf_map. apply sumf_ext_all. intros p. rewrite Td. reflexivity. }
  split; auto. intros V.
  assert (E2 : tslope (map (tilt a b) l) = tslope l + b).
  { unfold tslope. rewrite E1, sumf_map.
    rewrite (sumf_ext_all _ (fun p => tdev l p * (snd p - meanf snd l) + b * (tdev l p * tdev l p))).
    - rewrite sumf_add, sumf_scal. fold (tvar l). field. auto.
    - intros p. rewrite Td, Ms. unfold tilt, tdev. simpl. ring. }
  split; auto. unfold tssr. rewrite sumf_map. apply sumf_ext_all. intros p. unfold tresid. rewrite E2, Td, Ms.
  unfold tilt, tdev. simpl. ring.
Qed.
Theorem trend_tilt l a b :
  compute_trend (map (tilt a b) l) =
  match compute_trend l with
  | Ok (Fin s, e) => Ok (Fin (s + b), e)
  | o => o
  end.
Proof.
  destruct l as [|p0 r]; [reflexivity|]. set (l := p0 :: r). assert (H : l <> []) by discriminate.
  rewrite !trend_closed by (auto; discriminate). rewrite map_length.
  destruct (Nat.ltb (length l) 2); [reflexivity|].
  destruct (tilt_parts l a b H) as [E1 E2]. rewrite E1.
  destruct (Req_EM_T (tvar l) 0) as [|V]; [reflexivity|]. destruct (E2 V) as [-> ->]. reflexivity.
Qed.
Theorem trend_exact l a b : (2 <= length l)%nat -> tvar l <> 0 -> (forall p, In p l -> snd p = a + b * fst p) ->
  tslope l = b /\ tssr l = 0.
Proof.
  intros H V Hy. assert (Hne : l <> []) by (destruct l; [simpl in H; lia|discriminate]).
  set (l0 := map (fun p => (fst p, 0)) l).
  assert (E : l = map (tilt a b) l0).
  { unfold l0. rewrite map_map. rewrite <- (map_id l) at 1. apply map_ext_in. intros [t y] Hp. specialize (Hy _ Hp). simpl in Hy.
    unfold tilt. simpl. f_equal. rewrite Hy. ring. }
  assert (Hne0 : l0 <> []) by (unfold l0; destruct l; [congruence|discriminate]).
  destruct (tilt_parts l0 a b Hne0) as [E1 E2]. rewrite <- E in E1, E2.
  assert (V0 : tvar l0 <> 0) by (rewrite <- E1; auto). destruct (E2 V0) as [-> ->].
  assert (M0 : meanf snd l0 = 0) by (unfold l0; rewrite meanf_map; simpl; apply meanf_const; auto).
  assert (Z0 : forall p, In p l0 -> snd p = 0) by (intros p Hp; unfold l0 in Hp; apply in_map_iff in Hp as (q & <- & _); reflexivity).
  assert (S0 : tslope l0 = 0).
  { unfold tslope. rewrite sumf_zero; [unfold Rdiv; ring|]. intros p Hp. rewrite M0, (Z0 p Hp). ring. }
  split; [rewrite S0; ring|]. unfold tssr. apply sumf_zero. intros p Hp. unfold tresid. rewrite S0, M0, (Z0 p Hp). ring.
Qed.

(* ---- check_parallel_trends ---- *)
Definition shift_rows (f : trow -> R) (r : trow) : trow :=
  {| tr_u := tr_u r; tr_t := tr_t r; tr_g := tr_g r; tr_y := tr_y r + f r |}.
Lemma filter_map_same {A B} (g : A -> B) (p : B -> bool) (q : A -> bool) l :
  (forall x, p (g x) = q x) -> filter p (map g l) = map g (filter q l).
Proof. intros H. induction l as [|x l IH]; simpl; auto. rewrite H. destruct (q x); simpl; rewrite IH; reflexivity. Qed.
Lemma pre_select_shift f rows pre : pre_select (map (shift_rows f) rows) pre = map (shift_rows f) (pre_select rows pre).
Proof. unfold pre_select. rewrite map_map. apply filter_map_same. reflexivity. Qed.
Lemma group_shift f g rows : group_rows g (map (shift_rows f) rows) = map (shift_rows f) (group_rows g rows).
Proof. unfold group_rows. apply filter_map_same. reflexivity. Qed.

(* group levels and a common linear trend leave the test unchanged *)
Theorem parallel_trends_invariant sf rows pre (a : Z -> R) b :
  match check_parallel_trends sf rows pre, check_parallel_trends sf (map (shift_rows (fun r => a (tr_g r) + b * IZR (tr_t r))) rows) pre with
  | Ok r, Ok r' => pt_diff r' = pt_diff r /\ pt_diff_se r' = pt_diff_se r /\ pt_t r' = pt_t r /\ pt_p r' = pt_p r /\
                   pt_plausible r' = pt_plausible r
  | Err e, Err e' => e = e'
  | _, _ => False
  end.
Proof.
  set (f := fun r => a (tr_g r) + b * IZR (tr_t r)).
  unfold check_parallel_trends. rewrite pre_select_shift. set (d := pre_select rows pre).
  assert (E : forall g, map (fun r => (IZR (tr_t r), tr_y r)) (group_rows g (map (shift_rows f) d))
                     = map (tilt (a g) b) (map (fun r => (IZR (tr_t r), tr_y r)) (group_rows g d))).
  { intros g. rewrite group_shift, !map_map. apply map_ext_in. intros r Hr. apply filter_In in Hr as [_ Hr].
    apply Z.eqb_eq in Hr. unfold tilt, f. simpl. rewrite Hr. reflexivity. }
  rewrite !E, !trend_tilt.
  set (l1 := map (fun r => (IZR (tr_t r), tr_y r)) (group_rows 1 d)).
  set (l0 := map (fun r => (IZR (tr_t r), tr_y r)) (group_rows 0 d)).
  assert (Sh : forall l, compute_trend l = Err ValueError \/ compute_trend l = Ok (NaN, NaN) \/ exists s e, compute_trend l = Ok (Fin s, e)).
  { intros l. destruct l as [|p r]; [left; reflexivity|]. rewrite trend_closed by discriminate.
    destruct (Nat.ltb _ 2); [auto|]. destruct (Req_EM_T _ 0); [auto|]. right. right. eauto. }
  destruct (Sh l1) as [->|[->|(s1 & e1 & ->)]]; cbn [bind]; auto;
    destruct (Sh l0) as [->|[->|(s0 & e0 & ->)]]; cbn [bind fst snd pt_diff pt_diff_se pt_t pt_p pt_plausible]; auto.
  simpl fsub. replace (s1 + b + - (s0 + b)) with (s1 + - s0) by ring. auto.
Qed.

(* exact linear trends: the reported difference is the difference of slopes, but with no residual
   variance the test gives no verdict, however different the trends *)
Lemma fsqrt0 : fsqrt (Fin 0) = Fin 0.
Proof. rewrite sqrt_fin by lra. rewrite sqrt_0. reflexivity. Qed.
Theorem parallel_trends_exact sf rows pre (a c : Z -> R) :
  (forall g, (g = 0 \/ g = 1)%Z -> let l := map (fun r => (IZR (tr_t r), tr_y r)) (group_rows g (pre_select rows pre)) in
     (3 <= length l)%nat /\ tvar l <> 0 /\ (forall p, In p l -> snd p = a g + c g * fst p)) ->
  exists r, check_parallel_trends sf rows pre = Ok r /\
    pt_treated r = Fin (c 1%Z) /\ pt_control r = Fin (c 0%Z) /\ pt_diff r = Fin (c 1%Z - c 0%Z) /\
    pt_diff_se r = Fin 0 /\ pt_plausible r = None.
Proof.
  intros H. unfold check_parallel_trends.
  assert (E : forall g, (g = 0 \/ g = 1)%Z ->
     compute_trend (map (fun r => (IZR (tr_t r), tr_y r)) (group_rows g (pre_select rows pre))) = Ok (Fin (c g), Fin 0)).
  { intros g Hg. destruct (H g Hg) as (L & V & Hy).
    set (l := map (fun r => (IZR (tr_t r), tr_y r)) (group_rows g (pre_select rows pre))) in *.
    rewrite trend_closed by (destruct l; [simpl in L; lia|discriminate]).
    rewrite (proj2 (Nat.ltb_ge _ _)) by lia. destruct (Req_EM_T (tvar l) 0); [contradiction|].
    destruct (trend_exact l (a g) (c g)) as [-> ->]; auto; [lia|]. do 2 f_equal.
    unfold fdiv at 2. assert (3 <= INR (length l)) by (apply le_INR in L; simpl in L; lra).
    destruct (Req_EM_T (INR (length l) - 2) 0); [lra|]. unfold fdiv. destruct (Req_EM_T (tvar l) 0); [contradiction|].
    replace (0 / (INR (length l) - 2) / tvar l) with 0 by (unfold Rdiv; ring). apply fsqrt0. }
  rewrite (E 1%Z), (E 0%Z) by auto. cbn [bind fst snd]. eexists. split; [reflexivity|].
  cbn [pt_treated pt_control pt_diff pt_diff_se pt_plausible]. simpl fmul. simpl fadd.
  replace (0 * 0 + 0 * 0) with 0 by ring. rewrite fsqrt0.
  unfold fgt. simpl flt. rewrite (proj2 (Rltb_false 0 0)) by lra. simpl. auto.
Qed.

(* ---- outcome changes ---- *)
Lemma row_insert_shift f x l : row_insert (shift_rows f x) (map (shift_rows f) l) = map (shift_rows f) (row_insert x l).
Proof.
  induction l as [|y l IH]; simpl; auto.
  change (row_le (shift_rows f x) (shift_rows f y)) with (row_le x y). destruct (row_le x y); simpl; [reflexivity|rewrite IH; reflexivity].
Qed.
Lemma row_sort_shift f l : row_sort (map (shift_rows f) l) = map (shift_rows f) (row_sort l).
Proof. induction l as [|x l IH]; simpl; auto. rewrite IH. apply row_insert_shift. Qed.
Lemma row_diffs_unit (a : Z -> R) l : row_diffs (map (shift_rows (fun r => a (tr_u r))) l) = row_diffs l.
Proof.
  induction l as [|x l IH]; [reflexivity|]. destruct l as [|y l]; [reflexivity|].
  change (row_diffs (map (shift_rows (fun r => a (tr_u r))) (x :: y :: l)))
    with (if Z.eqb (tr_u x) (tr_u y)
          then (tr_g y, (tr_y y + a (tr_u y)) - (tr_y x + a (tr_u x))) :: row_diffs (map (shift_rows (fun r => a (tr_u r))) (y :: l))
          else row_diffs (map (shift_rows (fun r => a (tr_u r))) (y :: l))).
  change (row_diffs (x :: y :: l)) with (if Z.eqb (tr_u x) (tr_u y) then (tr_g y, tr_y y - tr_y x) :: row_diffs (y :: l) else row_diffs (y :: l)).
  rewrite IH. destruct (Z.eqb (tr_u x) (tr_u y)) eqn:E; auto. apply Z.eqb_eq in E. rewrite E. f_equal. f_equal. ring.
Qed.
(* unit effects are differenced out, so both distributional tests ignore them *)
Theorem unit_effects_differenced (a : Z -> R) g rows :
  unit_changes g (map (shift_rows (fun r => a (tr_u r))) rows) = unit_changes g rows.
Proof. unfold unit_changes. rewrite row_sort_shift, row_diffs_unit. reflexivity. Qed.
Theorem tests_ignore_unit_effects (a : Z -> R) pre rows :
  (forall tsf tcdf margin, equivalence_test tsf tcdf true pre margin (map (shift_rows (fun r => a (tr_u r))) rows)
                         = equivalence_test tsf tcdf true pre margin rows) /\
  (forall wd perms thr, check_robust wd perms thr true pre (map (shift_rows (fun r => a (tr_u r))) rows)
                      = check_robust wd perms thr true pre rows).
Proof.
  split; intros; unfold equivalence_test, check_robust, outcome_changes; rewrite pre_select_shift, !unit_effects_differenced; reflexivity.
Qed.
(* without a unit column, group levels are differenced out *)
Lemma np_diff_shift c l : np_diff (map (fun x => x + c) l) = np_diff l.
Proof.
  induction l as [|x l IH]; [reflexivity|]. destruct l as [|y l]; [reflexivity|].
  simpl in *. rewrite IH. f_equal. ring.
Qed.
Theorem group_levels_differenced (a : Z -> R) g rows :
  agg_changes g (map (shift_rows (fun r => a (tr_g r))) rows) = agg_changes g rows.
Proof.
  unfold agg_changes. rewrite group_shift. set (gr := group_rows g rows). rewrite map_map.
  change (map (fun x => tr_t (shift_rows (fun r => a (tr_g r)) x)) gr) with (map tr_t gr).
  rewrite <- (np_diff_shift (a g) (map (fun p => meanf tr_y (filter (fun r => Z.eqb (tr_t r) p) gr)) _)). rewrite map_map.
  f_equal. apply map_ext_in. intros p Hp. apply (proj1 (zsort_In _ _)) in Hp. apply nodup_In in Hp. apply in_map_iff in Hp as (r0 & Hr0 & Hin).
  rewrite (filter_map_same (shift_rows (fun r => a (tr_g r))) (fun r => Z.eqb (tr_t r) p) (fun r => Z.eqb (tr_t r) p)) by reflexivity.
  rewrite meanf_map. set (c := filter (fun r => Z.eqb (tr_t r) p) gr).
  assert (c <> []).
  { intros E. assert (In r0 c) as K by (apply filter_In; split; auto; apply Z.eqb_eq; auto). rewrite E in K. destruct K. }
  rewrite <- (meanf_const (a g) c) by auto. rewrite <- meanf_add. apply meanf_ext. intros r Hr. apply filter_In in Hr as [Hr _].
  apply filter_In in Hr as [_ Hr]. apply Z.eqb_eq in Hr. simpl. rewrite Hr. reflexivity.
Qed.

(* ---- the permutation p-value ---- *)
Section Perm.
Variable wd : list R -> list R -> R.
Notation core := (robust_core wd).
Definition perm_dist (tc cc : list R) (pi : list nat) : R :=
  wd (apply_perm (tc ++ cc) (firstn (length tc) pi)) (apply_perm (tc ++ cc) (skipn (length tc) pi)).
Theorem robust_p perms thr tc cc : (2 <= length tc)%nat -> (2 <= length cc)%nat -> perms <> [] ->
  exists p, rb_p (core perms thr tc cc) = Fin p /\ 0 <= p <= 1 /\
    p = INR (length (filter (fun pi => Rleb (wd tc cc) (perm_dist tc cc pi)) perms)) / len perms.
Proof.
  intros H1 H2 Hp. unfold robust_core. rewrite (proj2 (ltb2_or tc cc)) by auto. cbn [rb_p].
  destruct perms as [|q qs] eqn:E; [congruence|]. rewrite <- E in *. clear E q qs.
  eexists. split; [reflexivity|]. split.
  - apply share_bounds. destruct perms; [congruence|discriminate].
  - rewrite share_count, len_map. f_equal.
    rewrite (filter_map_same _ _ (fun pi => Rleb (wd tc cc) (perm_dist tc cc pi))) by reflexivity.
    rewrite map_length. reflexivity.
Qed.
Lemma apply_id (l : list R) k : apply_perm l (seq k (length l - k)) = skipn k l.
Proof.
  unfold apply_perm. revert k. induction l as [|x l IH]; intros k.
  - simpl. destruct k; reflexivity.
  - destruct k as [|k].
    + simpl. f_equal. rewrite <- seq_shift, map_map. rewrite <- (IH 0%nat) at 2. rewrite Nat.sub_0_r. reflexivity.
    + simpl length. rewrite Nat.sub_succ. rewrite <- seq_shift, map_map. simpl. apply IH.
Qed.
(* if the identity is among the drawn permutations the p-value is positive *)
Theorem robust_p_identity perms thr tc cc p : (2 <= length tc)%nat -> (2 <= length cc)%nat ->
  In (seq 0 (length tc + length cc)) perms ->
  rb_p (core perms thr tc cc) = Fin p -> / len perms <= p.
Proof.
  intros H1 H2 Hin Hp. assert (Hne : perms <> []) by (destruct perms; [destruct Hin|discriminate]).
  destruct (robust_p perms thr tc cc H1 H2 Hne) as (q & Hq & _ & E). rewrite Hp in Hq. injection Hq as ->. rewrite E.
  assert (Hid : perm_dist tc cc (seq 0 (length tc + length cc)) = wd tc cc).
  { unfold perm_dist. rewrite seq_app. rewrite firstn_app, skipn_app. rewrite !seq_length, Nat.sub_diag.
    rewrite firstn_O, skipn_O, app_nil_r.
    rewrite (firstn_all2 (seq 0 (length tc))) by (rewrite seq_length; lia).
    rewrite (skipn_all2 (seq 0 (length tc))) by (rewrite seq_length; lia). cbn [app]. rewrite Nat.add_0_l.
    f_equal.
    - unfold apply_perm. rewrite (list_as_map tc 0) at 2. apply map_ext_in. intros j Hj. apply in_seq in Hj. apply app_nth1. lia.
    - pose proof (apply_id (tc ++ cc) (length tc)) as A. rewrite app_length in A.
      replace (length tc + length cc - length tc)%nat with (length cc) in A by lia. rewrite A.
      rewrite skipn_app, Nat.sub_diag, (skipn_all2 tc) by lia. reflexivity. }
  assert (1 <= INR (length (filter (fun pi => Rleb (wd tc cc) (perm_dist tc cc pi)) perms))).
  { change 1 with (INR 1). apply le_INR.
    assert (K : In (seq 0 (length tc + length cc)) (filter (fun pi => Rleb (wd tc cc) (perm_dist tc cc pi)) perms)).
    { apply filter_In. split; auto. apply Rleb_true. rewrite Hid. lra. }
    destruct (filter _ perms); [destruct K|simpl; lia]. }
  apply len_pos in Hne. unfold Rdiv. assert (0 < / len perms) by (apply Rinv_0_lt_compat; auto). nra.
Qed.
(* a reported p-value of exactly zero, with as many permutations as one likes *)
Theorem robust_p_zero_refuted n thr : (1 <= n)%nat ->
  (forall a, wd a a = 0) -> 0 < wd [1; 1] [0; 0] ->
  exists perms, length perms = n /\ (forall pi, In pi perms -> Permutation pi (seq 0 4)) /\
    rb_p (core perms thr [1; 1] [0; 0]) = Fin 0.
Proof.
  intros Hn Hz Hpos. exists (repeat [0; 2; 1; 3]%nat n). split; [apply repeat_length|]. split.
  - intros pi Hpi. apply repeat_spec in Hpi as ->. simpl. constructor. apply perm_swap.
  - destruct (robust_p (repeat [0; 2; 1; 3]%nat n) thr [1; 1] [0; 0]) as (p & Hp & _ & E); [simpl; lia|simpl; lia| |].
    + destruct n; [lia|discriminate].
    + rewrite Hp, E. f_equal.
      replace (filter _ (repeat [0; 2; 1; 3]%nat n)) with (@nil (list nat)); [simpl; unfold Rdiv; ring|].
      symmetry. assert (F : Rleb (wd [1;1] [0;0]) (perm_dist [1; 1] [0; 0] [0; 2; 1; 3]%nat) = false).
      { apply Rleb_false. unfold perm_dist, apply_perm. simpl. rewrite Hz. auto. }
      clear - F. induction n; simpl; auto. rewrite F. auto.
Qed.
End Perm.

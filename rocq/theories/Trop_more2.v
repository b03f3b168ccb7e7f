(* Further facts about TROP: the documented objective of the joint method never exceeds that of any fit without a
   low-rank part, and unit levels matter for the two-step method when the iteration stops in its first round. *)
From Coq Require Import Reals Lra Lia FunctionalExtensionality.
From Coq Require Import Arith ZArith String List. Import ListNotations. Open Scope R_scope.
From Verif Require Import Prelude Flt Linalg_model Linalg_proofs Linalg_minnorm Trop_model Trop_proofs Trop_conv Trop_obj Trop_thms Trop_ex Did_proofs Trop_joint Trop_jproofs Trop_jthms Trop_jmore Trop_svd2.

Lemma nuc_unique T N L n m : nuc_is T N L n -> nuc_is T N L m -> n = m.
Proof. intros [H1 (A & OA & EA)] [H2 (B & OB & EB)]. apply Rle_antisym; [rewrite <- EA; now apply H2|rewrite <- EB; now apply H1]. Qed.
Lemma nuc_nonneg T N L n : nuc_is T N L n -> 0 <= n.
Proof.
  intros [H _]. assert (Z : mip T N zmat L = 0) by (unfold mip, zmat; rewrite (sumf_ext _ (fun _ => 0)) by (intros; ring); now apply sumf_zero).
  rewrite <- Z. apply H. intros x z _ _. unfold mip, zmat. rewrite (sumf_ext _ (fun _ => 0)) by (intros; ring). rewrite sumf_zero by easy. lra.
Qed.
Lemma qloss_mono0 T N V Rm L : (forall t i, (t < T)%nat -> (i < N)%nat -> 0 <= V t i <= 1) ->
  qloss T N V Rm (fun t i => L t i + V t i * (Rm t i - L t i)) <= qloss T N V Rm L.
Proof.
  intros HV. unfold qloss. apply sumf_le. intros [t i] Hc. apply in_cells in Hc. cbn [fst snd]. specialize (HV t i (proj1 Hc) (proj2 Hc)).
  set (v := V t i) in *. set (e := Rm t i - L t i).
  replace (Rm t i - (L t i + v * e)) with ((1 - v) * e) by (unfold e; ring). clearbody e v.
  unfold Rdiv. apply Rmult_le_compat_r; [lra|]. apply Rmult_le_compat_l; [lra|].
  replace ((1 - v) * e * ((1 - v) * e)) with (((1 - v) * (1 - v)) * (e * e)) by ring.
  assert (0 <= e * e) by apply Rle_0_sqr. assert ((1 - v) * (1 - v) <= 1).
  { replace 1 with (1 * 1) at 3 by ring. apply Rmult_le_compat; lra. }
  rewrite <- (Rmult_1_l (e * e)) at 2. apply Rmult_le_compat_r; easy.
Qed.

Section Doc.
Variable lstsq : lstsq_fn.
Variable svd : svd_fn.
Hypothesis Hmn : mn_ok lstsq.
Hypothesis Hok : svd_ok svd.
Hypothesis Hlen : svd_len svd.
Variables (T N : nat).
Hypothesis Htot : forall M, svd T N M <> None.

Lemma low_descent0 y D w tol k : (forall t i, 0 <= w t i) -> 0 < wmax T N w ->
  forall L prev c L1 bound,
    (match prev with Some c0 => qloss T N w (j_resid y D c0) L <= bound | None => exists c0, qloss T N w (j_resid y D c0) L <= bound end) ->
    low_loop lstsq svd T N y D w 0 tol k L prev = JOk (c, L1) -> qloss T N w (j_resid y D c) L1 <= bound.
Proof.
  intros Hw Hm. induction k as [|k IH]; intros L prev c L1 bound Hb; cbn [low_loop].
  - destruct prev as [c0|]; [|easy]. now intros [= <- <-].
  - assert (Hb' : exists c0, qloss T N w (j_resid y D c0) L <= bound) by (destruct prev; eauto). destruct Hb' as (c0 & Hc0).
    destruct (wls lstsq T N (fun t i => y t i - L t i) D w) as [cc| |] eqn:Ew; [|easy|easy].
    assert (M := wls_min lstsq Hmn T N y D w cc L c0 (fun t i _ _ => Hw t i) Ew).
    unfold prox_step. rewrite Rmult_0_r, (soft_svd_le0 svd T N _ 0) by lra.
    set (L' := fun t i => L t i + wnorm T N w t i * (j_resid y D cc t i - L t i)).
    assert (B2 : qloss T N w (j_resid y D cc) L' <= bound).
    { eapply Rle_trans; [|exact (Rle_trans _ _ _ M Hc0)]. rewrite (qloss_norm T N w _ L), (qloss_norm T N w _ L') by easy.
      apply Rmult_le_compat_l; [lra|]. unfold L'. apply qloss_mono0. intros; now apply wnorm_bounds. }
    destruct (Rltb _ _).
    + now intros [= <- <-].
    + intros E. exact (IH L' (Some cc) c L1 bound B2 E).
Qed.

(* sum of weighted squared residuals + lambda_nn * nuclear norm, the objective in the docstring of _solve_joint_with_lowrank *)
Definition doc_obj (Y : omat) (D : dmat) (w : mat) (h : R) (c : jcoef) (L : mat) (n : R) : R :=
  sumf (fun x => let e := ysafe Y (fst x) (snd x) - jmu c - ja c (snd x) - jb c (fst x) - IZR (D (fst x) (snd x)) * jtau c - L (fst x) (snd x) in
    seen Y w (fst x) (snd x) * (e * e)) (cells T N) + h * n.
Lemma doc_qloss Y D w h c L n : doc_obj Y D w h c L n = 2 * qloss T N (seen Y w) (j_resid (ysafe Y) D c) L + h * n.
Proof.
  unfold doc_obj, qloss. f_equal. rewrite <- sumf_scal. apply sumf_ext_all. intros [t i]. cbn [fst snd]. unfold j_resid. cbv zeta. field.
Qed.
Theorem joint_descent_doc Y D w h maxit tol c L n mu a b tau : (forall t i, 0 <= w t i) -> 0 <= h ->
  j_solve lstsq svd T N Y D w h maxit tol = JOk (c, L) -> nuc_is T N L n ->
  doc_obj Y D w h c L n <= doc_obj Y D w h (mkc mu a b tau) zmat 0 + INR maxit * (wmax T N (seen Y w) * INR (Nat.min T N) * / 10 ^ 20).
Proof.
  intros Hw Hh E Hn. rewrite !doc_qloss, Rmult_0_r, Rplus_0_r.
  assert (Hs : forall t i, 0 <= seen Y w t i) by (intros t i; unfold seen; destruct (has Y t i); [apply Hw|lra]).
  assert (Wm : 0 <= wmax T N (seen Y w)) by apply maxabs_nonneg.
  assert (Sl : 0 <= INR maxit * (wmax T N (seen Y w) * INR (Nat.min T N) * / 10 ^ 20)).
  { apply Rmult_le_pos; [apply pos_INR|]. apply Rmult_le_pos; [apply Rmult_le_pos; [easy|apply pos_INR]|]. left. apply Rinv_0_lt_compat, pow_lt. lra. }
  assert (N0 := nuc_nonneg _ _ _ _ Hn).
  destruct (Rle_dec (10 ^ 10) h) as [Hb|Hb].
  - unfold j_solve in E. destruct (Rle_dec _ h); [|easy]. destruct (wls lstsq T N (ysafe Y) D (seen Y w)) as [cc| |] eqn:Ew; [|easy|easy].
    injection E as <- <-. rewrite (nuc_unique T N zmat n 0 Hn (nuc_zero T N)).
    assert (Ew' : wls lstsq T N (fun t i => ysafe Y t i - zmat t i) D (seen Y w) = JOk cc).
    { rewrite <- Ew. f_equal. apply functional_extensionality; intros t. apply functional_extensionality; intros i. unfold zmat. ring. }
    assert (M := wls_min lstsq Hmn T N (ysafe Y) D (seen Y w) cc zmat (mkc mu a b tau) (fun t i _ _ => Hs t i) Ew'). lra.
  - destruct (Req_dec h 0) as [->|Hz].
    + unfold j_solve in E. destruct (Rle_dec _ 0); [easy|].
      assert (Hm : 0 < wmax T N (seen Y w)).
      { destruct maxit as [|k]; [easy|]. cbn [low_loop] in E. unfold wls in E. destruct (Rltb _ _) eqn:Eb; [easy|]. apply Rltb_false in Eb.
        apply wmax_pos; [easy|]. assert (0 < / 10 ^ 10) by (apply Rinv_0_lt_compat, pow_lt; lra). lra. }
      assert (M := low_descent0 (ysafe Y) D (seen Y w) tol maxit Hs Hm zmat None c L (qloss T N (seen Y w) (j_resid (ysafe Y) D (mkc mu a b tau)) zmat)).
      specialize (M ltac:(eexists; apply Rle_refl) E). lra.
    + destruct (joint_descent lstsq svd Hmn Hok Hlen T N Htot Y D w h maxit tol c L mu a b tau Hw ltac:(lra) E) as (n' & Hn' & M).
      rewrite (nuc_unique T N L n' n Hn' Hn) in M. assert (0 <= h * n) by (apply Rmult_le_pos; lra).
      assert (Es : 2 * slack T N = INR (Nat.min T N) * / 10 ^ 20).
      { unfold slack, svd_tol. replace (/ 10 ^ 20) with (/ 10 ^ 10 * / 10 ^ 10); [field; apply pow_nonzero; lra|].
        rewrite <- Rinv_mult. f_equal. rewrite <- pow_add. reflexivity. }
      replace (wmax T N (seen Y w) * INR (Nat.min T N) * / 10 ^ 20) with (wmax T N (seen Y w) * (2 * slack T N)) by (rewrite Es; ring). lra.
Qed.
End Doc.

(* ------------------------------------------------------------------------------------------- *)
(* Unit levels and the first-round stop.  Two periods, two units, cell (1,1) treated; outcomes below the tolerance.
   The first iteration is accepted because it is compared with zero starting values; after adding 1 to every outcome it
   is not, and a second pass is made. *)
Definition uY (d c : R) : omat := fun t i =>
  if (2 <=? t)%nat || (2 <=? i)%nat then None else Some (c + if (t =? 1)%nat && (i =? 0)%nat then d else 0).
Definition uD : dmat := fun t i => if (t =? 1)%nat && (i =? 1)%nat then 1%Z else 0%Z.
Definition uW : mat := fun t i => if (2 <=? t)%nat || (2 <=? i)%nat then 0 else if (t =? 1)%nat && (i =? 1)%nat then 0 else 1.

Lemma rabs_inv a b : Rabs a <= b -> - b <= a <= b.
Proof. unfold Rabs. destruct (Rcase_abs a); lra. Qed.
Lemma unit_mean_some T W Z i s x : sumf (fun t => W t i) (seq 0 T) = s -> 0 < s -> sumf (fun t => W t i * Z t i) (seq 0 T) = x * s -> unit_mean T W Z i = x.
Proof. intros E P X. unfold unit_mean. rewrite E, X. destruct (Rlt_dec 0 s); [field; lra|lra]. Qed.
Lemma time_mean_some N W Z t s x : sumf (fun i => W t i) (seq 0 N) = s -> 0 < s -> sumf (fun i => W t i * Z t i) (seq 0 N) = x * s -> time_mean N W Z t = x.
Proof. intros E P X. unfold time_mean. rewrite E, X. destruct (Rlt_dec 0 s); [field; lra|lra]. Qed.

(* the values of one step from (b0, b1) with L = 0 *)
Lemma u_step svd d c h tol (s : tstate) : svd_ok svd -> Rabs c <= 2 -> Rabs d <= 1 -> 100 <= h -> tlo s = zmat -> Rabs (tb s 0%nat) <= 1 -> Rabs (tb s 1%nat) <= 1 ->
  let s' := est_step svd 2 2 uW (ysafe (uY d c)) (Some h) tol s in
  ta s' 0%nat = c + d / 2 - (tb s 0%nat + tb s 1%nat) / 2 /\ ta s' 1%nat = c - tb s 0%nat /\
  tb s' 0%nat = c - (ta s' 0%nat + ta s' 1%nat) / 2 /\ tb s' 1%nat = c + d - ta s' 0%nat /\ tlo s' = zmat.
Proof.
  intros Hok Hc Hd Hh Hl B0 B1 s'.
  assert (A0 : ta s' 0%nat = c + d / 2 - (tb s 0%nat + tb s 1%nat) / 2).
  { cbn [s' est_step ta]. apply unit_mean_some with 2; [cbn; ring|lra|]. rewrite Hl. unfold zmat, ysafe, uY, uW. cbn. field. }
  assert (A1 : ta s' 1%nat = c - tb s 0%nat).
  { cbn [s' est_step ta]. apply unit_mean_some with 1; [cbn; ring|lra|]. rewrite Hl. unfold zmat, ysafe, uY, uW. cbn. field. }
  assert (T0 : tb s' 0%nat = c - (ta s' 0%nat + ta s' 1%nat) / 2).
  { cbn [s' est_step ta tb] in *. apply time_mean_some with 2; [cbn; ring|lra|]. rewrite Hl in *. cbn [seq sumf]. rewrite A0, A1.
    unfold zmat, ysafe, uY, uW. cbn. field. }
  assert (T1 : tb s' 1%nat = c + d - ta s' 0%nat).
  { cbn [s' est_step ta tb] in *. apply time_mean_some with 1; [cbn; ring|lra|]. rewrite Hl in *. cbn [seq sumf]. rewrite A0.
    unfold zmat, ysafe, uY, uW. cbn. field. }
  repeat split; try easy.
  change (nn_solve svd 2 2 uW (ysafe (uY d c)) (ta s') (tb s') (Some h) tol (tlo s) = zmat). rewrite Hl.
  apply (nn_solve_off svd 2 2 uW (ysafe (uY d c)) (ta s') (tb s') (Some h) tol 10); auto; [|lra| |].
  - intros t i. unfold uW. destruct (_ || _); [lra|]. destruct (_ && _); lra.
  - intros t i Ht Hi Hp. apply Rabs_le. rewrite A0 in *. rewrite A1 in *. apply rabs_inv in B0. apply rabs_inv in B1. apply rabs_inv in Hd. apply rabs_inv in Hc.
    destruct t as [|[|t]]; [| |lia]; (destruct i as [|[|i]]; [| |lia]); rewrite ?A0, ?A1, ?T0, ?T1; unfold ysafe, uY; cbn; lra.
  - cbn [off]. split; [lra|]. simpl. nra.
Qed.

Lemma u_diff T N s s' x : (forall i, (i < N)%nat -> Rabs (ta s' i - ta s i) <= x) -> (forall t, (t < T)%nat -> Rabs (tb s' t - tb s t) <= x) ->
  tlo s = zmat -> tlo s' = zmat -> 0 <= x -> st_diff T N s s' <= x.
Proof.
  intros Ha Hb Hl Hl' Hx. unfold st_diff, mdiff. rewrite Hl, Hl'. apply Rmax_lub; [apply Rmax_lub|]; apply maxabs_le; try easy.
  - intros i Hi. apply in_seq in Hi. apply Ha. lia.
  - intros i Hi. apply in_seq in Hi. apply Hb. lia.
  - intros c _. unfold zmat. rewrite Rminus_diag_eq by easy. rewrite Rabs_R0. lra.
Qed.
Lemma u_masked d c : masked (uY d c) uD None (obs_w (Some (uY d c, uD)) 2 (uY d c) uD 0 0 1 1) = uW.
Proof.
  apply functional_extensionality; intros t; apply functional_extensionality; intros i. unfold masked, mask, uW, has, uY, uD, obs_w. rewrite time_w0.
  destruct t as [|[|t]]; [| |now cbn]; (destruct i as [|[|i]]; [| |now cbn]); cbn; rewrite ?Reqb_refl; try ring; reflexivity.
Qed.
(* any outcome difference d below the tolerance: 1/2 of it reaches the counterfactual, 7/8 after adding 1 everywhere *)
Theorem unit_level_stop svd d h maxit tol : svd_ok svd -> 0 < d < tol -> tol <= / 10 -> 100 <= h ->
  fit_at svd (Some (uY d 0, uD)) 2 2 (uY d 0) uD 0 0 (Some h) (S (S maxit)) tol None (1, 1)%nat = Fin (- (d / 2)) /\
  add_unit (uY d 0) (fun _ => 1) = uY d 1 /\
  fit_at svd (Some (uY d 1, uD)) 2 2 (uY d 1) uD 0 0 (Some h) (S (S maxit)) tol None (1, 1)%nat = Fin (- (7 / 8 * d)).
Proof.
  intros Hok Hd Ht Hh.
  assert (Ad : Rabs d <= 1) by (apply Rabs_le; lra).
  assert (A00 : Rabs 0 <= 1) by (rewrite Rabs_R0; lra).
  split; [|split].
  - unfold fit_at, estimate. rewrite u_masked. cbn [est_loop].
    destruct (u_step svd d 0 h tol tzero Hok ltac:(rewrite Rabs_R0; lra) Ad Hh eq_refl A00 A00) as (E0 & E1 & F0 & F1 & EL).
    set (s1 := est_step svd 2 2 uW (ysafe (uY d 0)) (Some h) tol tzero) in *. clearbody s1. cbn [tzero tb] in E0, E1.
    assert (Sd : Rltb (st_diff 2 2 tzero s1) tol = true).
    { apply Rltb_true. apply Rle_lt_trans with (d / 2); [|lra].
      apply u_diff; [intros [|[|k]] Hk; [| |lia]|intros [|[|k]] Hk; [| |lia]|first [reflexivity|exact EL]|first [exact EL|exact EM]|lra]; cbn [tzero ta tb]; rewrite ?F0, ?F1, ?E0, ?E1; apply Rabs_le; lra. }
    rewrite Sd. unfold tau, uY. cbn [Nat.leb Nat.eqb orb andb]. rewrite E1, F1, E0, EL. unfold zmat. f_equal. field.
  - apply functional_extensionality; intros t; apply functional_extensionality; intros i. unfold add_unit, uY. destruct (_ || _); [easy|]. destruct (_ && _); f_equal; ring.
  - unfold fit_at, estimate. rewrite u_masked. cbn [est_loop].
    destruct (u_step svd d 1 h tol tzero Hok ltac:(rewrite Rabs_R1; lra) Ad Hh eq_refl A00 A00) as (E0 & E1 & F0 & F1 & EL).
    set (s1 := est_step svd 2 2 uW (ysafe (uY d 1)) (Some h) tol tzero) in *. cbn [tzero tb] in E0, E1.
    assert (Sd : Rltb (st_diff 2 2 tzero s1) tol = false).
    { apply Rltb_false. apply Rle_trans with 1; [lra|]. unfold st_diff. eapply Rle_trans; [|apply Rmax_l]. eapply Rle_trans; [|apply Rmax_l].
      eapply Rle_trans; [|apply (maxabs_ge _ (seq 0 2) 1%nat); cbn; tauto]. cbn [tzero ta]. rewrite E1. rewrite Rabs_pos_eq; lra. }
    rewrite Sd.
    destruct (u_step svd d 1 h tol s1 Hok ltac:(rewrite Rabs_R1; lra) Ad Hh EL ltac:(rewrite F0, E0, E1; apply Rabs_le; lra) ltac:(rewrite F1, E0; apply Rabs_le; lra)) as (G0 & G1 & H0 & H1 & EM).
    set (s2 := est_step svd 2 2 uW (ysafe (uY d 1)) (Some h) tol s1) in *. clearbody s2. clearbody s1.
    rewrite F0, F1, E0, E1 in G0. rewrite F0, E0, E1 in G1. rewrite G0 in H1. rewrite G0, G1 in H0.
    assert (Sd2 : Rltb (st_diff 2 2 s1 s2) tol = true).
    { apply Rltb_true. apply Rle_lt_trans with (d / 2); [|lra].
      apply u_diff; [intros [|[|k]] Hk; [| |lia]|intros [|[|k]] Hk; [| |lia]|first [reflexivity|exact EL]|first [exact EL|exact EM]|lra]; rewrite ?H0, ?H1, ?G0, ?G1, ?F0, ?F1, ?E0, ?E1; apply Rabs_le; lra. }
    rewrite Sd2. unfold tau, uY. cbn [Nat.leb Nat.eqb orb andb]. rewrite G1, H1, EM. unfold zmat. f_equal. field.
Qed.
Lemma joint_doc_case : exists c L n, j_solve (@mn_solve cell2) svd_two 2 2 (uY 3 1) uD (fun _ _ => 1) 1 2 (/ 10 ^ 6) = JOk (c, L) /\ nuc_is 2 2 L n.
Proof.
  assert (Tot : forall M, svd_two 2%nat 2%nat M <> None) by (intros; apply svd_two_total; lia).
  assert (E : exists c L, j_solve (@mn_solve cell2) svd_two 2 2 (uY 3 1) uD (fun _ _ => 1) 1 2 (/ 10 ^ 6) = JOk (c, L)).
  { assert (W : forall y, exists c, wls (@mn_solve cell2) 2 2 y uD (seen (uY 3 1) (fun _ _ => 1)) = JOk c).
    { intros y. unfold wls. destruct (Rltb _ _) eqn:Eb; [|eauto]. exfalso. apply Rltb_true in Eb. revert Eb. apply Rle_not_lt.
      replace (sumf _ _) with 4 by (cbn; ring). apply Rle_trans with (/ 1); [|lra]. apply Rinv_le_contravar; [lra|]. apply pow_R1_Rle. lra. }
    unfold j_solve. destruct (Rle_dec (10 ^ 10) 1) as [H|H].
    - exfalso. revert H. apply Rlt_not_le. apply Rlt_pow_R1; [lra|lia].
    - cbn [low_loop]. destruct (W (fun t i => ysafe (uY 3 1) t i - zmat t i)) as [c0 ->]. destruct (Rltb _ _); [eauto|].
      match goal with |- context [wls _ _ _ ?y _ _] => destruct (W y) as [c1 ->] end. destruct (Rltb _ _); eauto. }
  destruct E as (c & L & E). exists c, L.
  destruct (joint_descent (@mn_solve cell2) svd_two mn_solve_ok svd_two_ok svd_two_len 2 2 Tot (uY 3 1) uD (fun _ _ => 1) 1 2 (/ 10 ^ 6) c L 0 (fun _ => 0) (fun _ => 0) 0) as (n & Hn & _).
  - intros; lra.
  - split; [lra|]. apply Rlt_pow_R1; [lra|lia].
  - exact E.
  - eauto.
Qed.

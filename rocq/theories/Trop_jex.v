(* TROP method="joint": a fit exists for single-point grids without low-rank part; concrete panels; departures. *)
From Verif Require Import Prelude Flt Stats_model Stats_proofs Linalg_model Linalg_proofs Linalg_minnorm Multi_model Trop_model Trop_proofs Trop_thms Trop_conv Trop_rec Trop_obj Trop_sel Trop_rows Trop_ex Trop_joint Trop_jproofs Trop_jfit Trop_jthms Trop_jmore Trop_jfin.
From Coq Require Import Arith ZArith String List FunctionalExtensionality Permutation.
Import ListNotations.
Open Scope R_scope.

Section Single.
Variable lstsq : lstsq_fn.
Variable svd : svd_fn.
Variable sub : nat -> nat -> list nat.
Variable sf : option Z -> fl -> fl.
Variable ppf : option Z -> R -> R.
Definition jcfg (lt lu ln : lam) : tcfg := {| tc_gt := [lt]; tc_gu := [lu]; tc_gn := [ln]; tc_maxit := 100; tc_tol := / (10 ^ 6); tc_alpha := 1/20;
                                             tc_boot := false; tc_maxs := 100 |}.
Lemma solve_plain T N Y D w maxit tol c : (forall t i, 0 <= w t i) -> In c (cells T N) -> 1 <= seen Y w (fst c) (snd c) ->
  exists r, j_solve lstsq svd T N Y D w (10 ^ 10) maxit tol = JOk r.
Proof.
  intros Hw Hc H1. unfold j_solve. destruct (Rle_dec _ _); [|lra]. unfold wls.
  assert (G : 1 <= sumf (fun c => seen Y w (fst c) (snd c)) (cells T N)).
  { eapply Rle_trans; [exact H1|]. apply (sumf_In_le (fun c => seen Y w (fst c) (snd c))); [|easy]. intros x _. unfold seen. destruct (has Y _ _); [apply Hw|lra]. }
  rewrite (proj2 (Rltb_false _ _)); [eauto|]. assert (0 < / 10 ^ 10 < 1); [|lra]. assert (1 < 10 ^ 10) by (apply Rlt_pow_R1; [lra|lia]).
  split; [apply Rinv_0_lt_compat; lra|]. rewrite <- Rinv_1. apply Rinv_lt_contravar; lra.
Qed.
Lemma collect_plain {A} (f : A -> jout (jcoef * mat)) l : (forall x, f x <> JUnbound) -> exists r, j_collect f l = JOk r.
Proof.
  intros H. induction l as [|x l [r IH]]; [exists []; easy|]. cbn [j_collect]. rewrite IH. specialize (H x). destruct (f x); eauto. easy.
Qed.
Theorem joint_single lt lu T N Y D miss name draws : sub_ok sub -> check_joint T N D miss = TOk tt -> control_obs T N Y D <> [] ->
  (forall w, j_weights T N (T - first_treat T N D) Y D (conv_w lt) (conv_w lu) = JOk w ->
     exists c1 c2, c1 <> c2 /\ In c1 (cells T N) /\ In c2 (cells T N) /\ 1 <= seen Y w (fst c1) (snd c1) /\ 1 <= seen Y w (fst c2) (snd c2)) ->
  exists att se inf effs score reps, joint_fit lstsq svd sub sf ppf (jcfg lt lu None) T N Y D miss name draws = FOk att se inf effs (lt, lu, None) score reps.
Proof.
  intros Hs Hk Ho Hw. unfold joint_fit. rewrite Hk. assert (Ok := check_joint_ok T N D miss Hk). destruct Ok as (Hf & (t & i & Ht' & Hi & E) & _).
  set (p := (T - first_treat T N D)%nat) in *. assert (Hh := first_treat_hit T N D t i Ht' Hi E). destruct Hh as [Hh _].
  assert (Wk : exists w, j_weights T N p Y D (conv_w lt) (conv_w lu) = JOk w).
  { unfold j_weights. destruct (sets_ne T N D miss Hk) as (S1 & _). destruct (filter (ever T D) (seq 0 N)); [easy|]. cbn [length Nat.eqb].
    destruct (T - p =? 0)%nat eqn:E0; [apply Nat.eqb_eq in E0; unfold p in E0; lia|eauto]. }
  destruct Wk as (w & Ew). destruct (Hw w Ew) as (c1 & c2 & Hne & I1 & I2 & G1 & G2).
  assert (Wn : forall t i, 0 <= w t i) by (intros; now apply (j_weights_nonneg T N p Y D (conv_w lt) (conv_w lu))).
  assert (Tn : exists s, j_tune lstsq svd sub (jcfg lt lu None) T N p Y D = JOk ((lt, lu, None), Fin s)).
  { unfold j_tune. cbn [jcfg tc_gt tc_gu tc_gn tc_maxit tc_tol tc_maxs grid3 list_prod map app]. cbn [j_search]. unfold j_score. cbn [fst snd]. rewrite Ew.
    assert (On : loocv_obs sub 100 (control_obs T N Y D) <> []).
    { unfold loocv_obs. destruct (_ <? _)%nat eqn:El; [|easy]. apply Nat.ltb_lt in El. destruct (Hs (length (control_obs T N Y D)) (Nat.min 100 (length (control_obs T N Y D)))) as (Ls & _); [lia|].
      intros E0. apply map_eq_nil in E0. rewrite E0 in Ls. destruct (control_obs T N Y D); [easy|]. cbn [length] in Ls. lia. }
    destruct (loocv_obs sub 100 (control_obs T N Y D)) as [|x r]; [easy|].
    assert (Sm : forall obs acc, exists s, j_sum lstsq svd T N Y D w (conv_nn None) 100 (/ 10 ^ 6) obs acc = JOk (Some s)).
    { induction obs as [|z obs IH]; intros acc; [exists acc; easy|]. cbn [j_sum].
      assert (Sz : forall t i, 0 <= skip w z t i) by (intros; unfold skip; destruct (_ && _); [lra|apply Wn]).
      assert (Ps : forall c, c <> z -> 1 <= seen Y w (fst c) (snd c) -> 1 <= seen Y (skip w z) (fst c) (snd c)).
      { intros c Hcz G. unfold seen, skip in *. destruct (has Y (fst c) (snd c)); [|easy]. destruct ((fst c =? fst z)%nat && (snd c =? snd z)%nat) eqn:Eb; [|easy].
        exfalso. apply Hcz. apply andb_prop in Eb. destruct Eb as [E1 E2]. apply Nat.eqb_eq in E1, E2. destruct c, z. cbn [fst snd] in *. congruence. }
      assert (Ex : exists rr, j_solve lstsq svd T N Y D (skip w z) (10 ^ 10) 100 (/ 10 ^ 6) = JOk rr).
      { assert (Dec : c1 = z \/ c1 <> z) by (destruct c1 as [a b], z as [a' b']; destruct (Nat.eq_dec a a'), (Nat.eq_dec b b'); [left; congruence|right; congruence|right; congruence|right; congruence]).
        destruct Dec as [->|Hz]; [apply (solve_plain T N Y D (skip w z) 100 _ c2 Sz I2), Ps; [congruence|easy]|apply (solve_plain T N Y D (skip w z) 100 _ c1 Sz I1), Ps; easy]. }
      destruct Ex as (rr & Er). cbn [conv_nn]. rewrite Er. apply IH. }
    destruct (Sm (x :: r) 0) as (s & Es). rewrite Es. eauto. }
  destruct Tn as (s & ->). unfold j_fixed. rewrite Ew. cbn [jcfg tc_maxit tc_tol tc_boot conv_nn].
  destruct (solve_plain T N Y D w 100 (/ 10 ^ 6) c1 Wn I1 G1) as ([co L] & ->).
  destruct (collect_plain (j_jack1 lstsq svd T N p Y D (conv_w lt) (conv_w lu) (10 ^ 10) 100 (/ 10 ^ 6)) (filter (ever T D) (seq 0 N))) as (reps & Er).
  { intros k. unfold j_jack1. destruct (j_weights T N p Y (drop_d D k) (conv_w lt) (conv_w lu)) as [w'| |] eqn:Ew'; [|easy|unfold j_weights in Ew'; destruct (_ =? _)%nat; [easy|]; destruct (_ =? _)%nat; easy].
    unfold j_solve. destruct (Rle_dec _ _); [|lra]. unfold wls. destruct (Rltb _ _); easy. }
  unfold j_jack. rewrite Er. do 6 eexists. reflexivity.
Qed.
End Single.

(* ------------------------------------------------------------------------------------------- *)
(* three periods, four units; units 2 and 3 are treated in the last period with effects e2 and e3 *)
Definition jD : dmat := fun t i => if (t =? 2)%nat && ((i =? 2)%nat || (i =? 3)%nat) then 1%Z else 0%Z.
Definition jeff (e2 e3 : R) : mat := fun _ i => if (i =? 2)%nat then e2 else e3.
Definition jY (e2 e3 : R) : omat := fun t i => Some (10 * INR i + INR t + jeff e2 e3 t i * IZR (jD t i)).
Lemma jD_panel : dpanel 3 4 jD.
Proof.
  intros t i. unfold jD. destruct (t =? 2)%nat eqn:E1; cbn [andb]; [|now left]. apply Nat.eqb_eq in E1. destruct (i =? 2)%nat eqn:E2; cbn [orb].
  - apply Nat.eqb_eq in E2. right. repeat split; lia.
  - destruct (i =? 3)%nat eqn:E3; [|now left]. apply Nat.eqb_eq in E3. right. repeat split; lia.
Qed.
Lemma jD_check : check_joint 3 4 jD (fun _ _ => false) = TOk tt. Proof. reflexivity. Qed.
Lemma jD_first : first_treat 3 4 jD = 2%nat. Proof. reflexivity. Qed.
Lemma jY_complete e2 e3 : complete 3 4 (jY e2 e3). Proof. easy. Qed.
Lemma jD_two : two_controls 3 4 jD. Proof. exists 0%nat, 1%nat. repeat split; lia. Qed.
(* weights are 1 when both penalties vanish and the first period is observed *)
Lemma w_one T N p Y D w : j_weights T N p Y D 0 0 = JOk w -> (forall i, (i < N)%nat -> has Y 0 i = true) -> forall t i, (i < N)%nat -> w t i = 1.
Proof.
  intros Ew Hy t i Hi. assert (H := j_weights_inv _ _ _ _ _ _ _ _ Ew). destruct H as ((k & Hk & He) & Hp & ->).
  assert (U : 0 < j_unit_w T N p Y D 0 i) by (apply (j_unit_pos T N p Y D 0 i 0 k); auto; lia).
  unfold j_time_w, j_unit_w in *. destruct (j_valid T N p Y D i); [lra|]. replace (- 0 * Rabs (INR t - j_center T p)) with 0 by ring. replace (- 0 * j_dist T N p Y D i) with 0 by ring. rewrite exp_0. ring.
Qed.
Section Ex.
Variables (lstsq : lstsq_fn) (svd : svd_fn) (sf : option Z -> fl -> fl) (ppf : option Z -> R -> R) (name : nat -> string) (draws : list (list nat)).
Hypothesis Hmn : mn_ok lstsq.
Lemma jx_fit e2 e3 : exists att se inf effs score reps,
  joint_fit lstsq svd sub_first sf ppf (jcfg (Some 0) (Some 0) None) 3 4 (jY e2 e3) jD (fun _ _ => false) name draws = FOk att se inf effs (Some 0, Some 0, None) score reps.
Proof.
  apply joint_single; [apply sub_first_ok|apply jD_check|easy|]. intros w Ew. cbn [conv_w] in Ew.
  assert (W := w_one _ _ _ _ _ _ Ew (fun i Hi => jY_complete e2 e3 0%nat i ltac:(lia) Hi)).
  exists (0, 0)%nat, (0, 1)%nat. split; [easy|]. split; [apply in_cells; lia|]. split; [apply in_cells; lia|]. unfold seen. cbn [fst snd]. cbn [has jY]. rewrite !W by lia. lra.
Qed.
(* effects 2 and 6: the estimate is 4, and 4 is reported for both treated cells *)
Theorem joint_pooled_effects : exists se inf score reps,
  joint_fit lstsq svd sub_first sf ppf (jcfg (Some 0) (Some 0) None) 3 4 (jY 2 6) jD (fun _ _ => false) name draws =
    FOk 4 se inf [((2, 2)%nat, 4); ((2, 3)%nat, 4)] (Some 0, Some 0, None) score reps /\
  jeff 2 6 2%nat 2%nat = 2 /\ jeff 2 6 2%nat 3%nat = 6.
Proof.
  destruct (jx_fit 2 6) as (att & se & inf & effs & score & reps & HF).
  assert (H := joint_average lstsq svd sub_first sf ppf Hmn _ _ _ _ _ _ _ _ (fun i => 10 * INR i) INR (jeff 2 6) _ _ _ _ _ _ _ HF (jY_complete 2 6) jD_panel (fun _ _ => eq_refl) ltac:(cbn [snd conv_nn]; lra) ltac:(intros; reflexivity)).
  destruct H as (Ea & _ & _). assert (HI := joint_fit_inv _ _ _ _ _ _ _ _ _ _ _ _ _ _ _ _ _ _ _ _ HF). destruct HI as (_ & (w & co & L & Ew & _) & _ & He & _).
  cbn [fst snd conv_w] in Ew. assert (W := w_one _ _ _ _ _ _ Ew (fun i Hi => jY_complete 2 6 0%nat i ltac:(lia) Hi)). assert (Wi := j_weights_inv _ _ _ _ _ _ _ _ Ew). destruct Wi as (_ & _ & Ww).
  assert (Ev : filter (ever 3 jD) (seq 0 4) = [2; 3]%nat) by reflexivity. assert (Ep : filter (is_post 3 4 jD) (seq 0 3) = [2]%nat) by reflexivity.
  rewrite Ev, Ep in Ea. assert (E4 : att = 4).
  { rewrite Ea. unfold bmean, bsum. cbn [sumf]. unfold dw, uw. cbn [fst snd conv_w]. rewrite jD_first. cbn [jeff Nat.eqb].
    assert (A2 := W 2%nat 2%nat ltac:(lia)). assert (A3 := W 2%nat 3%nat ltac:(lia)). rewrite Ww in A2, A3. rewrite jD_first in A2, A3.
    assert (Dt : j_time_w 3 (3 - 2) 0 2 = 1) by (unfold j_time_w; replace (- 0 * _) with 0 by ring; apply exp_0).
    rewrite Dt in *. rewrite Rmult_1_l in A2, A3. rewrite A2, A3. field. }
  rewrite E4 in HF, He. exists se, inf, score, reps. rewrite HF, He. split; [reflexivity|]. split; reflexivity.
Qed.
(* equal effects are recovered *)
Theorem joint_recovers_ex e : svd_ok svd -> exists se inf effs score reps,
  joint_fit lstsq svd sub_first sf ppf (jcfg (Some 0) (Some 0) None) 3 4 (jY e e) jD (fun _ _ => false) name draws = FOk e se inf effs (Some 0, Some 0, None) score reps.
Proof.
  intros Hsvd. destruct (jx_fit e e) as (att & se & inf & effs & score & reps & HF).
  destruct (joint_recovers lstsq svd sub_first sf ppf Hmn _ _ _ _ _ _ _ _ (fun i => 10 * INR i) INR e _ _ _ _ _ _ _ 2 0 0 2 Hsvd HF) as [-> _]; try reflexivity; try lia.
  - intros t i r _ _ [= <-]. unfold jeff. destruct (i =? 2)%nat; reflexivity.
  - rewrite jD_first. lia.
  - exists se, inf, effs, score, reps. exact HF.
Qed.
(* all treated outcomes missing: an effect of 0 is reported *)
Definition mY : omat := fun t i => if (jD t i =? 1)%Z then None else Some (10 * INR i + INR t).
Theorem joint_missing_zero : exists se inf score reps,
  joint_fit lstsq svd sub_first sf ppf (jcfg (Some 0) (Some 0) None) 3 4 mY jD (fun _ _ => false) name draws =
    FOk 0 se inf [((2, 2)%nat, 0); ((2, 3)%nat, 0)] (Some 0, Some 0, None) score reps.
Proof.
  assert (HF : exists att se inf effs score reps, joint_fit lstsq svd sub_first sf ppf (jcfg (Some 0) (Some 0) None) 3 4 mY jD (fun _ _ => false) name draws = FOk att se inf effs (Some 0, Some 0, None) score reps).
  { apply joint_single; [apply sub_first_ok|apply jD_check|easy|]. intros w Ew. cbn [conv_w] in Ew. assert (W := w_one _ _ _ _ _ _ Ew (fun i Hi => eq_refl)).
    exists (0, 0)%nat, (0, 1)%nat. split; [easy|]. split; [apply in_cells; lia|]. split; [apply in_cells; lia|]. unfold seen. cbn [fst snd].
    change (has mY 0 0) with true. change (has mY 0 1) with true. cbn iota. rewrite !W by lia. lra. }
  destruct HF as (att & se & inf & effs & score & reps & HF).
  assert (Ea := joint_no_treated lstsq svd sub_first sf ppf Hmn _ _ _ _ _ _ _ _ _ _ _ _ _ _ _ HF).
  assert (HI := joint_fit_inv _ _ _ _ _ _ _ _ _ _ _ _ _ _ _ _ _ _ _ _ HF). destruct HI as (_ & _ & _ & He & _).
  exists se, inf, score, reps. rewrite HF, He. rewrite Ea; [reflexivity|]. intros t i _ _ HD. unfold has, mY. destruct (jD_panel t i) as [E|(_ & _ & E)]; [easy|]. rewrite E. reflexivity.
Qed.
(* ------------------------------------------------------------------------------------------- *)
(* A constant added to one control unit changes the estimate when lambda_unit > 0: the unit distances are taken
   between outcome levels.  Control 0: 0,0,0; control 1: c,c,c+1; treated unit: 0,0,0. *)
Definition vD : dmat := fun t i => if (t =? 2)%nat && (i =? 2)%nat then 1%Z else 0%Z.
Definition vY (c : R) : omat := fun t i => Some (if (i =? 1)%nat then c + (if (t =? 2)%nat then 1 else 0) else 0).
Lemma v_check : check_joint 3 3 vD (fun _ _ => false) = TOk tt. Proof. reflexivity. Qed.
Lemma v_panel : dpanel 3 3 vD.
Proof.
  intros t i. unfold vD. destruct (t =? 2)%nat eqn:E1; cbn [andb]; [|now left]. apply Nat.eqb_eq in E1. destruct (i =? 2)%nat eqn:E2; [|now left]. apply Nat.eqb_eq in E2. right. repeat split; lia.
Qed.
Lemma v_unit c i : 0 <= c -> (i < 3)%nat -> j_unit_w 3 3 1 (vY c) vD 1 i = if (i =? 1)%nat then exp (- c) else 1.
Proof.
  intros Hc Hi. assert (A : forall t, avg_treated 3 3 (vY c) vD t = Some 0) by (intros t; unfold avg_treated; change (filter (fun i => ever 3 vD i && has (vY c) t i) (seq 0 3)) with [2%nat]; cbn; unfold meanf, len; cbn; f_equal; field).
  assert (V : j_valid 3 3 1 (vY c) vD i = [0; 1]%nat).
  { unfold j_valid. cbn [seq filter]. rewrite !A. reflexivity. }
  unfold j_unit_w. rewrite V. assert (Dd : j_dist 3 3 1 (vY c) vD i = if (i =? 1)%nat then c else 0).
  { unfold j_dist. rewrite V. unfold j_gap. cbn [sumf len length]. rewrite !A. unfold len. cbn [length]. rewrite Rmax_left by (simpl; lra). unfold ysafe, vY. destruct (i =? 1)%nat.
    - cbn [Nat.eqb]. replace (((0 - (c + 0)) * (0 - (c + 0)) + ((0 - (c + 0)) * (0 - (c + 0)) + 0)) / INR 2) with (c * c) by (simpl; field). now apply sqrt_square.
    - replace (((0 - 0) * (0 - 0) + ((0 - 0) * (0 - 0) + 0)) / INR 2) with 0 by (simpl; field). apply sqrt_0. }
  rewrite Dd. destruct (i =? 1)%nat; [f_equal; ring|]. replace (- (1) * 0) with 0 by ring. apply exp_0.
Qed.
Lemma v_fit c : 0 <= c -> exists se inf effs score reps,
  joint_fit lstsq svd sub_first sf ppf (jcfg (Some 0) (Some 1) None) 3 3 (vY c) vD (fun _ _ => false) name draws = FOk (- (exp (- c) / (1 + exp (- c)))) se inf effs (Some 0, Some 1, None) score reps.
Proof.
  intros Hc. assert (F1 : first_treat 3 3 vD = 2%nat) by reflexivity.
  assert (HF : exists att se inf effs score reps, joint_fit lstsq svd sub_first sf ppf (jcfg (Some 0) (Some 1) None) 3 3 (vY c) vD (fun _ _ => false) name draws = FOk att se inf effs (Some 0, Some 1, None) score reps).
  { apply joint_single; [apply sub_first_ok|apply v_check|easy|]. intros w Ew. cbn [conv_w] in Ew. apply j_weights_inv in Ew. destruct Ew as (_ & _ & ->). rewrite F1.
    exists (0, 0)%nat, (0, 2)%nat. split; [easy|]. split; [apply in_cells; lia|]. split; [apply in_cells; lia|]. unfold seen. cbn [fst snd has vY]. change (3 - 2)%nat with 1%nat.
    rewrite !v_unit by (easy || lia). cbn [Nat.eqb]. unfold j_time_w. replace (- 0 * Rabs (INR 0 - j_center 3 1)) with 0 by ring. rewrite exp_0. lra. }
  destruct HF as (att & se & inf & effs & score & reps & HF).
  assert (Ea := joint_did lstsq svd sub_first sf ppf Hmn _ _ _ _ _ _ _ _ _ _ _ _ _ _ _ HF ltac:(easy) v_panel (fun _ _ => eq_refl) ltac:(cbn [snd conv_nn]; lra)).
  exists se, inf, effs, score, reps. rewrite HF. f_equal. rewrite Ea. unfold wdid. cbv zeta.
  change (filter (ever 3 vD) (seq 0 3)) with [2%nat]. change (filter (fun i => negb (ever 3 vD i)) (seq 0 3)) with [0; 1]%nat.
  change (filter (is_post 3 3 vD) (seq 0 3)) with [2%nat]. change (filter (fun t => negb (is_post 3 3 vD t)) (seq 0 3)) with [0; 1]%nat.
  assert (Dt : forall t, dw 3 3 vD (Some 0, Some 1, None) t = 1) by (intros t; unfold dw, j_time_w; cbn [fst snd conv_w]; replace (- 0 * _) with 0 by ring; apply exp_0).
  assert (Ut : forall i, (i < 3)%nat -> uw 3 3 (vY c) vD (Some 0, Some 1, None) i = if (i =? 1)%nat then exp (- c) else 1) by (intros i Hi; unfold uw; rewrite F1; cbn [fst snd conv_w]; now apply v_unit).
  unfold bmean, bsum. cbn [sumf]. rewrite !Dt, !Ut by lia. cbn [Nat.eqb]. unfold ysafe, vY. cbn [Nat.eqb]. assert (P := exp_pos (- c)). field. lra.
Qed.
Theorem joint_unit_shift : exists a0 a1 se0 se1 i0 i1 f0 f1 s0 s1 r0 r1,
  joint_fit lstsq svd sub_first sf ppf (jcfg (Some 0) (Some 1) None) 3 3 (vY 0) vD (fun _ _ => false) name draws = FOk a0 se0 i0 f0 (Some 0, Some 1, None) s0 r0 /\
  joint_fit lstsq svd sub_first sf ppf (jcfg (Some 0) (Some 1) None) 3 3 (vY 1) vD (fun _ _ => false) name draws = FOk a1 se1 i1 f1 (Some 0, Some 1, None) s1 r1 /\
  (forall t i, ysafe (vY 1) t i = ysafe (vY 0) t i + (if (i =? 1)%nat then 1 else 0)) /\ a0 = - (1/2) /\ a0 < a1.
Proof.
  destruct (v_fit 0 ltac:(lra)) as (se0 & i0 & f0 & s0 & r0 & E0). destruct (v_fit 1 ltac:(lra)) as (se1 & i1 & f1 & s1 & r1 & E1).
  do 12 eexists. split; [exact E0|]. split; [exact E1|]. split; [intros t i; unfold ysafe, vY; destruct (i =? 1)%nat, (t =? 2)%nat; ring|].
  rewrite Ropp_0, exp_0. split; [field; lra|]. assert (P := exp_pos (- (1))). assert (Q : exp (- (1)) < 1) by (apply Rlt_le_trans with (exp 0); [apply exp_increasing; lra|rewrite exp_0; lra]).
  apply Ropp_lt_contravar. apply (Rmult_lt_reg_r (2 * (1 + exp (- (1))))); [lra|]. replace (exp (- (1)) / (1 + exp (- (1))) * (2 * (1 + exp (- (1))))) with (2 * exp (- (1))) by (field; lra).
  replace (1 / (1 + 1) * (2 * (1 + exp (- (1))))) with (1 + exp (- (1))) by field. lra.
Qed.
End Ex.

(* With lambda_unit = 0 the unit effects are absorbed. *)
Definition add_units (Y : omat) (a : nat -> R) : omat := fun t i => match Y t i with Some r => Some (r + a i) | None => None end.
Lemma j_weights_unit0 T N p Y D a lt : j_weights T N p (add_units Y a) D lt 0 = j_weights T N p Y D lt 0.
Proof.
  assert (Hh : forall t i, has (add_units Y a) t i = has Y t i) by (intros; unfold has, add_units; now destruct (Y t i)).
  assert (V : forall i, j_valid T N p (add_units Y a) D i = j_valid T N p Y D i).
  { intros i. unfold j_valid. apply filter_ext. intros t. rewrite Hh. unfold avg_treated. rewrite (filter_ext (fun i0 => ever T D i0 && has (add_units Y a) t i0) (fun i0 => ever T D i0 && has Y t i0)) by (intros; now rewrite Hh).
    now destruct (filter _ (seq 0 N)). }
  unfold j_weights. destruct (_ =? 0)%nat; [easy|]. destruct (_ =? 0)%nat; [easy|]. f_equal.
  apply functional_extensionality; intros t; apply functional_extensionality; intros i. f_equal. unfold j_unit_w. rewrite V. destruct (j_valid T N p Y D i); [easy|]. f_equal. ring.
Qed.
Theorem fixed_unit0 lstsq svd T N Y D miss a lt h maxit tol : mn_ok lstsq -> soft_local svd -> complete T N Y -> dpanel T N D -> check_joint T N D miss = TOk tt ->
  match j_fixed lstsq svd T N (T - first_treat T N D) Y D lt 0 h maxit tol, j_fixed lstsq svd T N (T - first_treat T N D) (add_units Y a) D lt 0 h maxit tol with
  | JOk r, JOk r' => jtau (fst r') = jtau (fst r) | JVal, JVal => True | JUnbound, JUnbound => True | _, _ => False end.
Proof.
  intros Hmn Hloc Hc Hd Ek. apply check_joint_ok in Ek. destruct Ek as (Hf & Htr & (j & Hj & Hej)). unfold j_fixed. rewrite j_weights_unit0.
  destruct (j_weights T N _ Y D lt 0) as [w| |] eqn:Ew; [|easy|easy].
  assert (Wn : forall t i, 0 <= w t i) by (intros; now apply (j_weights_nonneg T N (T - first_treat T N D) Y D lt 0)).
  apply (same_tau (fun _ => 0) T N (seen Y w) D a). apply (solve_fe lstsq svd Hmn T N Y (add_units Y a) D w h maxit tol a (fun _ => 0) Hloc Wn).
  - apply (full_block T N D Y w Hc Hd (fun t i _ Hi => complete_pos T N _ Y D lt 0 w Hc Ew t i Hi) Hf Htr j Hj Hej).
  - intros t i. unfold add_units. destruct (Y t i); [|easy]. f_equal. ring.
Qed.

(* Backends, optimality, exactness and inference of synthetic DiD. *)
From Verif Require Import Prelude Flt Stats_model Stats_proofs Linalg_model Linalg_proofs Linalg_vcov Linalg_thms
  Did_equiv Synth_model Synth_proofs.
From Coq Require Import Arith ZArith String List Permutation.
Import ListNotations.
Open Scope R_scope.

(* ---- the two backends take the same step for the same step size ---- *)
Theorem backends_same_step {T} (pre : list T) cols y lambda step w :
  grad_step project_simplex_rust (length cols) step (grad_rust pre cols y lambda) w
  = grad_step project_simplex (length cols) step (grad_py pre cols y lambda) w.
Proof.
  unfold grad_step. rewrite project_rust_eq.
  rewrite <- (project_shift (map (fun j => nth j w 0 - step * grad_rust pre cols y lambda w j) (seq 0 (length cols)))
              (step * (lambda * (1 / INR (length cols))))).
  rewrite map_map. f_equal. apply map_ext. intros j. unfold grad_py, grad_rust. ring.
Qed.

(* ---- fixed points of the iteration are minimisers of the penalised fit ---- *)
Definition objective {T} (pre : list T) (cols : list (T -> R)) (y : T -> R) (lambda : R) (w : list R) : R :=
  sumf (fun t => (y t - lc cols w t) * (y t - lc cols w t)) pre
  + lambda * sqd w (uniform_w (length cols)).

Lemma sqd_index a b n : length a = n -> length b = n ->
  sqd a b = sumf (fun j => (nth j a 0 - nth j b 0) * (nth j a 0 - nth j b 0)) (seq 0 n).
Proof.
  revert b n; induction a as [|x a IH]; intros [|z b] n Ha Hb; simpl in *; subst; try discriminate; [reflexivity|].
  unfold sqd in *. simpl. rewrite (IH b (length a)) by lia. rewrite <- seq_shift, sumf_map. reflexivity.
Qed.

Lemma sum_index (a : list R) n : length a = n -> sumf idR a = sumf (fun j => nth j a 0) (seq 0 n).
Proof.
  revert n; induction a as [|x a IH]; intros n Ha; simpl in *; subst; [reflexivity|].
  rewrite (IH (length a)) by auto. simpl. rewrite <- seq_shift, sumf_map. reflexivity.
Qed.

Theorem fixed_point_optimal {T} (pre : list T) cols y lambda step w z :
  0 < step -> 0 <= lambda -> cols <> [] ->
  grad_step project_simplex (length cols) step (grad_py pre cols y lambda) w = w ->
  length z = length cols -> in_simplex z ->
  objective pre cols y lambda w <= objective pre cols y lambda z.
Proof.
  intros Hs Hl Hne Hfix Lz Hz. set (n := length cols) in *.
  assert (Hn : (0 < n)%nat) by (unfold n; destruct cols; simpl; [congruence|lia]).
  set (g := grad_py pre cols y lambda w).
  set (v := map (fun j => nth j w 0 - step * g j) (seq 0 n)).
  assert (Lv : length v = n) by (unfold v; rewrite map_length, seq_length; auto).
  assert (Hpw : project_simplex v = w) by exact Hfix.
  assert (Lw : length w = n) by (rewrite <- Hpw, project_length; auto).
  assert (Hne' : v <> []) by (intros E; rewrite E in Lv; simpl in Lv; lia).
  pose proof (project_nearest v z Hne' ltac:(lia) Hz) as Hnear. rewrite Hpw in Hnear.
  rewrite !(sqd_index _ _ n) in Hnear by auto.
  (* <g, z - w> >= 0 *)
  assert (Hg : 0 <= sumf (fun j => g j * (nth j z 0 - nth j w 0)) (seq 0 n)).
  { assert (E : sumf (fun j => (nth j v 0 - nth j z 0) * (nth j v 0 - nth j z 0)) (seq 0 n)
              = sumf (fun j => (nth j v 0 - nth j w 0) * (nth j v 0 - nth j w 0)) (seq 0 n)
              + sumf (fun j => (nth j w 0 - nth j z 0) * (nth j w 0 - nth j z 0)) (seq 0 n)
              + 2 * step * sumf (fun j => g j * (nth j z 0 - nth j w 0)) (seq 0 n)).
    { rewrite <- sumf_scal, <- !sumf_add. apply sumf_ext. intros j Hj. apply in_seq in Hj.
      unfold v. rewrite nth_map_seq by lia. ring. }
    nra. }
  unfold objective. fold n.
  assert (Lu : length (uniform_w n) = n) by apply repeat_length.
  rewrite !(sqd_index _ (uniform_w n) n) by auto.
  (* quadratic expansion around w *)
  set (dl := fun t => lc cols z t - lc cols w t).
  assert (E1 : sumf (fun t => (y t - lc cols z t) * (y t - lc cols z t)) pre
             = sumf (fun t => (y t - lc cols w t) * (y t - lc cols w t)) pre
             - 2 * sumf (fun t => (y t - lc cols w t) * dl t) pre + sumf (fun t => dl t * dl t) pre).
  { rewrite <- sumf_scal, <- sumf_sub, <- sumf_add. apply sumf_ext_all. intros t. unfold dl. ring. }
  assert (E2 : sumf (fun t => (y t - lc cols w t) * dl t) pre
             = - sumf (fun j => (ip pre (colx cols j) (lc cols w) - ip pre (colx cols j) y) * (nth j z 0 - nth j w 0)) (seq 0 n)).
  { rewrite <- sumf_opp.
    rewrite (sumf_ext_all _ (fun t => sumf (fun j => (y t - lc cols w t) * colx cols j t * (nth j z 0 - nth j w 0)) (seq 0 n))).
    - rewrite sumf_swap. apply sumf_ext_all. intros j. unfold ip. rewrite <- sumf_sub.
      rewrite Ropp_mult_distr_l, <- sumf_opp, <- sumf_scal_r. apply sumf_ext_all. intros t. ring.
    - intros t. unfold dl. generalize (y t - lc cols w t); intros rr.
      rewrite (lc_index cols z t), (lc_index cols w t) by auto. fold n. rewrite <- sumf_sub, <- sumf_scal.
      apply sumf_ext_all. intros j. ring. }
  assert (E3 : sumf (fun j => (nth j z 0 - nth j (uniform_w n) 0) * (nth j z 0 - nth j (uniform_w n) 0)) (seq 0 n)
             = sumf (fun j => (nth j w 0 - nth j (uniform_w n) 0) * (nth j w 0 - nth j (uniform_w n) 0)) (seq 0 n)
             + 2 * sumf (fun j => (nth j w 0 - 1 / INR n) * (nth j z 0 - nth j w 0)) (seq 0 n)
             + sumf (fun j => (nth j z 0 - nth j w 0) * (nth j z 0 - nth j w 0)) (seq 0 n)).
  { rewrite <- sumf_scal, <- !sumf_add. apply sumf_ext. intros j Hj. apply in_seq in Hj.
    assert (nth j (uniform_w n) 0 = 1 / INR n) as ->.
    { unfold uniform_w. apply (repeat_spec n (1 / INR n)). apply nth_In. rewrite repeat_length. lia. }
    ring. }
  assert (E4 : sumf (fun j => g j * (nth j z 0 - nth j w 0)) (seq 0 n)
             = sumf (fun j => (ip pre (colx cols j) (lc cols w) - ip pre (colx cols j) y) * (nth j z 0 - nth j w 0)) (seq 0 n)
             + lambda * sumf (fun j => (nth j w 0 - 1 / INR n) * (nth j z 0 - nth j w 0)) (seq 0 n)).
  { rewrite <- sumf_scal, <- sumf_add. apply sumf_ext_all. intros j. unfold g, grad_py. fold n. ring. }
  rewrite E1, E2, E3.
  assert (0 <= sumf (fun t => dl t * dl t) pre) by (apply sumf_nonneg; intros; apply sq_nonneg).
  assert (0 <= sumf (fun j => (nth j z 0 - nth j w 0) * (nth j z 0 - nth j w 0)) (seq 0 n))
    by (apply sumf_nonneg; intros; apply sq_nonneg).
  assert (0 <= lambda * sumf (fun j => (nth j z 0 - nth j w 0) * (nth j z 0 - nth j w 0)) (seq 0 n))
    by (apply Rmult_le_pos; auto).
  nra.
Qed.

(* ---- two controls, one pre-period: outcomes 10 and 0, treated outcome 6 ---- *)
Definition two_cols : list (unit -> R) := [fun _ => 10; fun _ => 0].
Definition two_y : unit -> R := fun _ => 6.
Definition two_pre : list unit := [tt].

Lemma project_two a b :
  project_simplex [a; b] =
  let x := if Rle_dec (a - b) (-1) then 0 else if Rle_dec 1 (a - b) then 1 else (a - b + 1) / 2 in [x; 1 - x].
Proof.
  symmetry. apply project_unique; [discriminate|reflexivity| |].
  - simpl. destruct (Rle_dec (a - b) (-1)); [|destruct (Rle_dec 1 (a - b))];
      (split; [intros x [<-|[<-|[]]]; lra|simpl; unfold idR; lra]).
  - intros z' Hl [Hz Hs]. destruct z' as [|p [|q [|]]]; simpl in Hl; try discriminate.
    assert (0 <= p) by (apply Hz; simpl; auto). assert (0 <= q) by (apply Hz; simpl; auto).
    simpl in Hs. unfold idR in Hs. assert (q = 1 - p) by lra. subst q.
    unfold sqd; simpl. destruct (Rle_dec (a - b) (-1)); [|destruct (Rle_dec 1 (a - b))].
    + nra.
    + nra.
    + assert (H0' := sq_nonneg (2 * p - (a - b + 1))). nra.
Qed.

Lemma two_step x step grad :
  grad [x; 1 - x] 0%nat = (10 * x - 6) * 10 -> grad [x; 1 - x] 1%nat = 0 ->
  grad_step project_simplex 2 step grad [x; 1 - x] =
  project_simplex [x - step * ((10 * x - 6) * 10); 1 - x].
Proof. intros H1 H2. unfold grad_step. simpl map. rewrite H1, H2. rewrite Rmult_0_r, Rminus_0_r. reflexivity. Qed.

Lemma two_grad x : grad_rust two_pre two_cols two_y 0 [x; 1 - x] 0%nat = (10 * x - 6) * 10 /\
  grad_rust two_pre two_cols two_y 0 [x; 1 - x] 1%nat = 0.
Proof. unfold grad_rust, ip, colx, two_pre, two_cols, two_y; simpl. split; ring. Qed.

Definition rust_step := grad_step project_simplex_rust 2 (1 / 10) (grad_rust two_pre two_cols two_y 0).
Definition py_step := grad_step project_simplex 2 (1 / (100 + eps10)) (grad_py two_pre two_cols two_y 0).

Lemma rust_step_eq x : rust_step [x; 1 - x] = project_simplex [x - 1 / 10 * ((10 * x - 6) * 10); 1 - x].
Proof.
  unfold rust_step. destruct (two_grad x).
  assert (E : grad_step project_simplex_rust 2 (1 / 10) (grad_rust two_pre two_cols two_y 0) [x; 1 - x]
       = grad_step project_simplex 2 (1 / 10) (grad_rust two_pre two_cols two_y 0) [x; 1 - x])
    by (unfold grad_step; apply project_rust_eq).
  rewrite E. apply two_step; auto.
Qed.

Lemma rust_step_half : rust_step [1 / 2; 1 - 1 / 2] = [1; 1 - 1].
Proof.
  rewrite rust_step_eq, project_two. cbv zeta.
  destruct (Rle_dec _ (-1)) as [H|H]; [lra|]. destruct (Rle_dec 1 _) as [H'|H']; [reflexivity|lra].
Qed.
Lemma rust_step_one : rust_step [1; 1 - 1] = [0; 1 - 0].
Proof.
  rewrite rust_step_eq, project_two. cbv zeta.
  destruct (Rle_dec _ (-1)) as [H|H]; [reflexivity|lra].
Qed.
Lemma rust_step_zero : rust_step [0; 1 - 0] = [1; 1 - 1].
Proof.
  rewrite rust_step_eq, project_two. cbv zeta.
  destruct (Rle_dec _ (-1)) as [H|H]; [lra|]. destruct (Rle_dec 1 _) as [H'|H']; [reflexivity|lra].
Qed.

Lemma dist_big a b : a <> b -> (a - b) * (a - b) >= 1 / 4 -> ~ dist2 [a; 1 - a] [b; 1 - b] < opt_tol.
Proof.
  intros _ H Hd. unfold dist2, sqd in Hd; simpl in Hd.
  assert (sqrt (1 / 4) <= sqrt ((a - b) * (a - b) + ((1 - a - (1 - b)) * (1 - a - (1 - b)) + 0))) by (apply sqrt_le_1_alt; nra).
  replace (1 / 4) with ((1 / 2) * (1 / 2)) in H0 by lra. rewrite sqrt_square in H0 by lra. unfold opt_tol in Hd. lra.
Qed.

Lemma rust_cycle k : pgd (2 * k) rust_step [0; 1 - 0] = [0; 1 - 0] /\ pgd (S (2 * k)) rust_step [1; 1 - 1] = [0; 1 - 0].
Proof.
  induction k as [|k [IH1 IH2]].
  - split; [reflexivity|]. simpl. rewrite rust_step_one. destruct (Rlt_dec _ _); reflexivity.
  - assert (H1 : pgd (2 * S k) rust_step [0; 1 - 0] = [0; 1 - 0]).
    { replace (2 * S k)%nat with (S (S (2 * k))) by lia.
      change (pgd (S (S (2 * k))) rust_step [0; 1 - 0]) with
        (if Rlt_dec (dist2 (rust_step [0; 1 - 0]) [0; 1 - 0]) opt_tol then rust_step [0; 1 - 0]
         else pgd (S (2 * k)) rust_step (rust_step [0; 1 - 0])).
      rewrite rust_step_zero. destruct (Rlt_dec _ _) as [H|H]; [|exact IH2].
      exfalso; revert H; apply dist_big; lra. }
    split; auto.
    change (pgd (S (2 * S k)) rust_step [1; 1 - 1]) with
      (if Rlt_dec (dist2 (rust_step [1; 1 - 1]) [1; 1 - 1]) opt_tol then rust_step [1; 1 - 1]
       else pgd (2 * S k) rust_step (rust_step [1; 1 - 1])).
    rewrite rust_step_one. destruct (Rlt_dec _ _) as [H|H]; [reflexivity|exact H1].
Qed.

(* the Rust backend ends on the wrong vertex: all weight on the second control, residual 6 *)
Theorem rust_weights_bad k : (1 <= k)%nat ->
  synth_rust (2 * k) two_pre two_cols two_y 0 = [0; 1] /\
  objective two_pre two_cols two_y 0 [0; 1] = 36 /\
  objective two_pre two_cols two_y 0 [6 / 10; 4 / 10] = 0.
Proof.
  intros Hk. split.
  - unfold synth_rust. change (length two_cols) with 2%nat. fold rust_step.
    assert (E2 : uniform_w 2 = [1 / 2; 1 - 1 / 2])
      by (unfold uniform_w; assert (E3 : 1 - 1 / 2 = 1 / 2) by lra; rewrite E3; reflexivity).
    rewrite E2.
    destruct k as [|k]; [lia|]. replace (2 * S k)%nat with (S (S (2 * k))) by lia.
    change (pgd (S (S (2 * k))) rust_step [1 / 2; 1 - 1 / 2]) with
      (if Rlt_dec (dist2 (rust_step [1 / 2; 1 - 1 / 2]) [1 / 2; 1 - 1 / 2]) opt_tol then rust_step [1 / 2; 1 - 1 / 2]
       else pgd (S (2 * k)) rust_step (rust_step [1 / 2; 1 - 1 / 2])).
    rewrite rust_step_half. destruct (Rlt_dec _ _) as [H|H].
    + exfalso; revert H; apply dist_big; lra.
    + rewrite (proj2 (rust_cycle k)). f_equal. f_equal. lra.
  - split; unfold objective; rewrite Rmult_0_l; unfold two_pre, two_cols, two_y; simpl; field.
Qed.

(* the NumPy backend contracts towards the optimum 6/10: after every step the error is at most 0.51 times the
   previous one, and it stays in between *)
Theorem py_step_contracts x : 0 <= x <= 1 ->
  exists x', py_step [x; 1 - x] = [x'; 1 - x'] /\ 0 <= x' <= 1 /\ Rabs (x' - 6 / 10) <= 51 / 100 * Rabs (x - 6 / 10).
Proof.
  intros Hx. unfold py_step.
  assert (Hg : grad_py two_pre two_cols two_y 0 [x; 1 - x] 0%nat = (10 * x - 6) * 10 /\ grad_py two_pre two_cols two_y 0 [x; 1 - x] 1%nat = 0).
  { unfold grad_py, ip, colx, two_pre, two_cols, two_y; simpl. split; field. }
  destruct Hg as [Hg1 Hg2]. rewrite (two_step x _ _ Hg1 Hg2), project_two. cbv zeta.
  set (s := 1 / (100 + eps10)).
  assert (Hs : 99 / 10000 <= s <= 1 / 100).
  { unfold s, eps10. split.
    - apply Rmult_le_reg_r with (100 + 1 / 10000000000); [lra|]. unfold Rdiv at 3. rewrite Rmult_assoc, Rinv_l by lra. lra.
    - apply Rmult_le_reg_r with (100 + 1 / 10000000000); [lra|]. unfold Rdiv at 1. rewrite Rmult_assoc, Rinv_l by lra. lra. }
  set (d := x - s * ((10 * x - 6) * 10) - (1 - x)).
  assert (Hd : (d + 1) / 2 - 6 / 10 = (1 - 50 * s) * (x - 6 / 10)) by (unfold d; field).
  assert (Hr : 0 <= (d + 1) / 2 <= 1).
  { assert (0 <= 1 - 50 * s <= 51/100) by lra.
    destruct (Rle_or_lt x (6/10)); nra. }
  exists ((d + 1) / 2). split; [|split; [exact Hr|]].
  - destruct (Rle_dec d (-1)) as [H|H]; [|destruct (Rle_dec 1 d) as [H'|H']]; f_equal; try (f_equal; lra); lra.
  - rewrite Hd, Rabs_mult. apply Rmult_le_compat_r; [apply Rabs_pos|]. rewrite Rabs_right; lra.
Qed.

(* ---- the SDID estimator ---- *)
Lemma wdot_add {A} w f g (l : list A) : wdot w (fun x => f x + g x) l = wdot w f l + wdot w g l.
Proof. unfold wdot. rewrite <- sumf_add. apply sumf_ext_all. intros; ring. Qed.
Lemma wdot_sub {A} w f g (l : list A) : wdot w (fun x => f x - g x) l = wdot w f l - wdot w g l.
Proof. unfold wdot. rewrite <- sumf_sub. apply sumf_ext_all. intros; ring. Qed.
Lemma wdot_scal {A} w c f (l : list A) : wdot w (fun x => c * f x) l = c * wdot w f l.
Proof. unfold wdot. rewrite <- sumf_scal. apply sumf_ext_all. intros; ring. Qed.
Lemma wdot_const {A} w c (l : list A) : length w = length l -> wdot w (fun _ => c) l = c * sumf idR w.
Proof.
  unfold wdot. revert l; induction w as [|x w IH]; intros [|a l] H; simpl in *; try discriminate; [ring|].
  rewrite IH by lia. unfold idR at 2. ring.
Qed.
Lemma wdot_ext {A} w f g (l : list A) : (forall x, In x l -> f x = g x) -> wdot w f l = wdot w g l.
Proof.
  intros H. unfold wdot. apply sumf_ext. intros [a x] Hx. simpl. rewrite H; auto.
  apply in_combine_r in Hx; auto.
Qed.
Lemma wdot_uniform {A} f (l : list A) : l <> [] -> wdot (uniform_w (length l)) f l = meanf f l.
Proof.
  intros Hne. unfold wdot, uniform_w, meanf. set (c := 1 / INR (length l)).
  assert (E : forall l' : list A, sumf (fun p => fst p * f (snd p)) (combine (repeat c (length l')) l') = c * sumf f l').
  { induction l' as [|a l' IH]; simpl; [ring|]. rewrite IH. ring. }
  rewrite E. unfold c, len, Rdiv. ring.
Qed.

Section Sdid.
Context {T J : Type}.
Variables (pre post : list T) (ctrl : list J) (omega lambda : list R).

Theorem sdid_linear (Y1 Y2 : T -> J -> R) y1 y2 s :
  sdid (fun t j => s * Y1 t j + Y2 t j) pre post ctrl (fun t => s * y1 t + y2 t) omega lambda
  = s * sdid Y1 pre post ctrl y1 omega lambda + sdid Y2 pre post ctrl y2 omega lambda.
Proof.
  unfold sdid. rewrite meanf_add, meanf_scal, wdot_add, wdot_scal.
  rewrite (wdot_ext omega _ (fun j => s * (meanf (fun t => Y1 t j) post - wdot lambda (fun t => Y1 t j) pre)
       + (meanf (fun t => Y2 t j) post - wdot lambda (fun t => Y2 t j) pre))).
  - rewrite wdot_add, wdot_scal. ring.
  - intros j _. rewrite meanf_add, meanf_scal, wdot_add, wdot_scal. ring.
Qed.

Hypothesis Lo : length omega = length ctrl.
Hypothesis Ll : length lambda = length pre.
Hypothesis So : sumf idR omega = 1.
Hypothesis Sl : sumf idR lambda = 1.
Hypothesis Hpost : post <> [].

(* additive unit and period effects plus period-specific effects on the treated mean *)
Theorem sdid_exact (Y : T -> J -> R) (y : T -> R) (a : J -> R) aT (b tau : T -> R) :
  (forall t j, In t (pre ++ post) -> In j ctrl -> Y t j = a j + b t) ->
  (forall t, In t pre -> y t = aT + b t) ->
  (forall t, In t post -> y t = aT + b t + tau t) ->
  sdid Y pre post ctrl y omega lambda = meanf tau post.
Proof.
  intros HY Hpre Hpst. unfold sdid.
  rewrite (meanf_ext y (fun t => (aT + b t) + tau t)) by auto.
  rewrite (meanf_add (fun t => aT + b t)), (meanf_add (fun _ => aT)), meanf_const by auto.
  rewrite (wdot_ext lambda y (fun t => aT + b t)) by auto.
  rewrite wdot_add, wdot_const by auto.
  rewrite (wdot_ext omega _ (fun j => meanf b post - wdot lambda b pre)).
  - rewrite wdot_const by auto. rewrite So, Sl. ring.
  - intros j Hj. rewrite (meanf_ext _ (fun t => a j + b t)) by (intros t Ht; apply HY; auto; apply in_or_app; auto).
    rewrite meanf_add, meanf_const by auto.
    rewrite (wdot_ext lambda _ (fun t => a j + b t)) by (intros t Ht; apply HY; auto; apply in_or_app; auto).
    rewrite wdot_add, wdot_const, Sl by auto. ring.
Qed.

(* adding unit effects and common period effects changes nothing *)
Theorem sdid_invariant (Y : T -> J -> R) (y : T -> R) (a : J -> R) aT (b : T -> R) :
  sdid (fun t j => Y t j + (a j + b t)) pre post ctrl (fun t => y t + (aT + b t)) omega lambda
  = sdid Y pre post ctrl y omega lambda.
Proof.
  pose proof (sdid_linear Y (fun t j => a j + b t) y (fun t => aT + b t) 1) as H.
  rewrite (sdid_exact (fun t j => a j + b t) (fun t => aT + b t) a aT b (fun _ => 0)) in H
    by (intros; ring).
  rewrite meanf_const in H by auto.
  transitivity (1 * sdid Y pre post ctrl y omega lambda + 0); [|ring]. rewrite <- H.
  unfold sdid. f_equal; [f_equal; [apply meanf_ext; intros; ring|apply wdot_ext; intros; ring]|].
  apply wdot_ext. intros j _. f_equal; [apply meanf_ext; intros; ring|apply wdot_ext; intros; ring].
Qed.

(* adding c to the treated outcomes in the post periods adds c to the estimate *)
Theorem sdid_shift_post (Y : T -> J -> R) (y y' : T -> R) c :
  (forall t, In t pre -> y' t = y t) -> (forall t, In t post -> y' t = y t + c) ->
  sdid Y pre post ctrl y' omega lambda = sdid Y pre post ctrl y omega lambda + c.
Proof.
  intros H1 H2. unfold sdid. rewrite (meanf_ext y' (fun t => y t + c)), (wdot_ext lambda y' y) by auto.
  rewrite meanf_add, meanf_const by auto. ring.
Qed.
End Sdid.

Lemma meanf_swap {A B} (f : A -> B -> R) l m :
  meanf (fun b => meanf (fun a => f a b) l) m = meanf (fun a => meanf (f a) m) l.
Proof.
  unfold meanf. rewrite !sumf_div. rewrite (sumf_swap (fun b a => f a b)). cbv beta.
  change (fun a => sumf (f a) m) with (fun a => sumf (fun b => f a b) m).
  set (S := sumf _ l). unfold Rdiv. ring.
Qed.

(* uniform weights: plain difference in differences of group means *)
Theorem sdid_uniform_is_did {T J} (Y : T -> J -> R) (y : T -> R) pre post (ctrl : list J) :
  pre <> [] -> post <> [] -> ctrl <> [] ->
  sdid Y pre post ctrl y (uniform_w (length ctrl)) (uniform_w (length pre))
  = (meanf y post - meanf y pre)
    - (meanf (fun t => meanf (Y t) ctrl) post - meanf (fun t => meanf (Y t) ctrl) pre).
Proof.
  intros H1 H2 H3. unfold sdid. rewrite !wdot_uniform by auto. f_equal.
  rewrite (meanf_ext _ (fun j => meanf (fun t => Y t j) post - meanf (fun t => Y t j) pre))
    by (intros; rewrite wdot_uniform; auto).
  rewrite meanf_sub. f_equal; apply meanf_swap.
Qed.

(* ---- placebo replications ---- *)
Lemma placebo_weights_ok n_pseudo {J} (perm : list (J * R)) : (0 < n_pseudo <= length perm)%nat ->
  let pc := firstn n_pseudo perm in let s := sumf snd pc in
  let w := if Rlt_dec 0 s then map (fun p => snd p / s) pc else repeat (1 / INR n_pseudo) n_pseudo in
  length w = length (map fst pc) /\ sumf idR w = 1.
Proof.
  intros Hn pc s w. assert (Lp : length pc = n_pseudo) by (unfold pc; rewrite firstn_length; lia).
  unfold w. destruct (Rlt_dec 0 s) as [H|H].
  - rewrite !map_length. split; auto. rewrite sumf_map.
    rewrite (sumf_ext_all _ (fun p => / s * snd p)) by (intros; unfold idR, Rdiv; ring).
    rewrite sumf_scal. fold s. apply Rinv_l. lra.
  - rewrite repeat_length, map_length. split; auto. rewrite repeat_sum.
    assert (0 < INR n_pseudo) by (apply lt_0_INR; lia). field. lra.
Qed.

(* parallel controls: every placebo effect is zero *)
Theorem placebo_zero {T J} (Y : T -> J -> R) pre post lambda n_pseudo (perm : list (J * R)) (a : J -> R) (b : T -> R) :
  (0 < n_pseudo < length perm)%nat -> length lambda = length pre -> sumf idR lambda = 1 -> post <> [] ->
  (forall t j, In t (pre ++ post) -> In j (map fst perm) -> Y t j = a j + b t) ->
  placebo_one Y pre post lambda n_pseudo perm = 0.
Proof.
  intros Hn Ll Sl Hp HY. unfold placebo_one.
  destruct (placebo_weights_ok n_pseudo perm ltac:(lia)) as [Lw Sw].
  assert (Hpt : map fst (skipn n_pseudo perm) <> []).
  { intros E. apply (f_equal (@length _)) in E. rewrite map_length, skipn_length in E. simpl in E. lia. }
  assert (Hin : forall j, In j (map fst (skipn n_pseudo perm)) \/ In j (map fst (firstn n_pseudo perm)) -> In j (map fst perm)).
  { intros j H. rewrite <- (firstn_skipn n_pseudo perm), map_app. apply in_or_app. tauto. }
  rewrite (sdid_exact pre post _ _ lambda Lw Ll Sw Sl Hp Y _ a (meanf a (map fst (skipn n_pseudo perm))) b (fun _ => 0)).
  - apply meanf_const; auto.
  - intros t j Ht Hj. apply HY; auto.
  - intros t Ht. rewrite (meanf_ext _ (fun j => a j + b t)).
    + rewrite meanf_add, meanf_const by auto. ring.
    + intros j Hj. apply HY; auto. apply in_or_app; auto.
  - intros t Ht. rewrite (meanf_ext _ (fun j => a j + b t)).
    + rewrite meanf_add, meanf_const by auto. ring.
    + intros j Hj. apply HY; auto. apply in_or_app; auto.
Qed.

Theorem placebo_se_is_sd nc nt effects : (nt < nc)%nat -> (2 <= length effects)%nat ->
  placebo_se nc nt effects = (std 0 effects, effects).
Proof.
  intros H1 H2. unfold placebo_se. rewrite (proj2 (Nat.leb_gt _ _)) by lia.
  destruct effects as [|x [|z l]]; simpl in H2; try lia. set (e := x :: z :: l).
  assert (Hr : 2 <= len e) by (unfold len; change 2 with (INR 2); apply le_INR; simpl; lia).
  f_equal. unfold std. rewrite <- sqrt_mult.
  - f_equal. unfold variance. simpl INR. field. lra.
  - apply Rmult_le_pos; [lra|]. left; apply Rinv_0_lt_compat; lra.
  - apply variance_nonneg. simpl; lra.
Qed.

Theorem sdid_p_bounds sf z att se alpha draws : 0 < se -> draws <> [] ->
  let r := sdid_inference sf z att se alpha draws in
  1 / (len draws + 1) <= s_p r <= 1 /\ s_t r * se = att /\
  (s_p r = 1 / (len draws + 1) \/ s_p r = share (fun d => Rleb (Rabs att) (Rabs d)) draws).
Proof.
  intros Hse Hne r. unfold r, sdid_inference. destruct (Rlt_dec 0 se); [|lra].
  destruct draws as [|d ds]; [congruence|]. set (dr := d :: ds) in *. cbn [s_p s_t].
  pose proof (share_bounds (fun d => Rleb (Rabs att) (Rabs d)) dr Hne) as Hs.
  assert (Hl : 0 < len dr) by (apply len_pos; auto).
  assert (Hi : 1 / (len dr + 1) <= 1).
  { unfold Rdiv. rewrite Rmult_1_l, <- Rinv_1. apply Rinv_le_contravar; lra. }
  split; [split; [apply Rmax_r|apply Rmax_lub; lra]|]. split; [field; lra|].
  unfold Rmax. destruct (Rle_dec _ _); auto.
Qed.

(* bootstrap draws centred at the estimate: p = 1/2 although the interval excludes zero *)
Theorem sdid_bootstrap_p_incoherent sf z : 0 < z (1 - (5 / 100) / 2) < 5 ->
  let r := sdid_inference sf z 10 (std 1 [9; 11]) (5 / 100) [9; 11] in
  bootstrap_se 2 [9; 11] = Ok (std 1 [9; 11], [9; 11]) /\ s_p r = 1 / 2 /\ 0 < fst (s_ci r).
Proof.
  intros Hz r. split; [reflexivity|].
  assert (Hv : variance 1 [9; 11] = 2).
  { unfold variance, sumsq_dev, meanf, len; simpl. unfold idR. field. }
  assert (Hs : 1 < std 1 [9; 11] < 2).
  { unfold std. rewrite Hv. pose proof (sqrt_sqrt 2 ltac:(lra)). pose proof (sqrt_pos 2). split; nra. }
  unfold r, sdid_inference. destruct (Rlt_dec 0 (std 1 [9; 11])); [|lra]. cbn [s_p s_ci fst]. split.
  - unfold share, meanf, len; simpl. rewrite !Rabs_right by lra.
    assert (Rleb 10 9 = false) as -> by (apply Rleb_false; lra).
    assert (Rleb 10 11 = true) as -> by (apply Rleb_true; lra). simpl.
    rewrite Rmax_left; lra.
  - nra.
Qed.

(* zero placebo spread: p = 1 while the interval is the point estimate itself *)
Theorem sdid_zero_se sf z att alpha draws :
  let r := sdid_inference sf z att 0 alpha draws in s_p r = 1 /\ s_t r = 0 /\ s_ci r = (att, att).
Proof.
  unfold sdid_inference. destruct (Rlt_dec 0 0); [lra|]. cbn. repeat split. f_equal; ring.
Qed.

(* periods *)
Lemma NoDup_app_disjoint {T} (l1 l2 : list T) x : NoDup (l1 ++ l2) -> In x l1 -> In x l2 -> False.
Proof.
  induction l1 as [|y l1 IH]; simpl; intros Hnd H1 H2; [contradiction|].
  inversion Hnd; subst. destruct H1 as [->|H1]; [apply H3; apply in_or_app; auto|auto].
Qed.
Theorem sdid_periods_spec {T} (mem : T -> list T -> bool) all post pre pst :
  (forall x l, mem x l = true <-> In x l) -> NoDup all ->
  sdid_periods mem all post = Ok (pre, pst) ->
  pre <> [] /\ pst <> [] /\ (forall x, In x all <-> In x pre \/ In x pst) /\
  (forall x, In x pre -> ~ In x pst).
Proof.
  intros Hm Hnd. unfold sdid_periods. destruct (Nat.ltb _ 2); [discriminate|].
  set (pp := match post with None => _ | Some p => _ end). destruct pp as [a b] eqn:E.
  destruct (Nat.eqb (length b) 0) eqn:E1; [discriminate|]. destruct (Nat.eqb (length a) 0) eqn:E2; [discriminate|].
  destruct (forallb _ b) eqn:E3; [|discriminate]. intros H; inversion H; subst a b; clear H.
  apply Nat.eqb_neq in E1, E2.
  split; [intros ->; simpl in E2; lia|]. split; [intros ->; simpl in E1; lia|].
  unfold pp in E. destruct post as [p|]; inversion E; subst; clear E.
  - rewrite forallb_forall in E3. split.
    + intros x. rewrite filter_In. split.
      * intros Hx. destruct (mem x pst) eqn:Ex; [right; apply Hm; auto|left; split; auto].
      * intros [[Hx _]|Hx]; auto. apply Hm. apply E3; auto.
    + intros x Hx Hx'. apply filter_In in Hx as [_ Hx]. apply Hm in Hx'. rewrite Hx' in Hx. discriminate.
  - split.
    + intros x. rewrite <- in_app_iff, firstn_skipn. tauto.
    + intros x H1 H2. rewrite <- (firstn_skipn (length all / 2) all) in Hnd.
      exact (NoDup_app_disjoint _ _ x Hnd H1 H2).
Qed.

(* SyntheticDiD: period effects, unit effects, structure of the fit *)
From Verif Require Import Prelude Flt Stats_model Linalg_model Linalg_proofs Did_model Multi_model Staggered_model Synth_model Synth_proofs Synth_more Sdid_model.
From Coq Require Import Arith ZArith String List Permutation.
Import ListNotations.
Open Scope R_scope.

(* ---- the trace is an instance of the norm oracle ---- *)
Lemma sumsq_ip {T} (pre : list T) f : 0 <= ip pre f f.
Proof. unfold ip. apply sumf_nonneg. intros; nra. Qed.

Lemma lc_cauchy (pre : list Z) cols : forall w, length w = length cols ->
  ip pre (lc cols w) (lc cols w) <= htrace pre cols 0 * sumf (fun x => x * x) w.
Proof.
  intros w Hw. unfold ip at 1.
  apply (Rle_trans _ (sumf (fun t => sumf (fun x => x * x) w * sumf (fun c : Z -> R => c t * c t) cols) pre)).
  - apply sumf_le. intros t _.
    assert (E : lc cols w t = sumf (fun p => fst p * snd p) (combine w (map (fun c : Z -> R => c t) cols))).
    { clear Hw. revert w; induction cols as [|c cols IH]; intros [|x w]; cbn; try reflexivity. rewrite IH. reflexivity. }
    rewrite E.
    assert (C := cauchy_schwarz (fun p : R * R => fst p) (fun p => snd p) (combine w (map (fun c : Z -> R => c t) cols))).
    unfold Rsqr in C. cbv beta in C.
    replace (sumf (fun p : R * R => fst p * fst p) (combine w (map (fun c : Z -> R => c t) cols))) with (sumf (fun x => x * x) w) in C.
    2:{ clear C E. revert cols Hw; induction w as [|x w IH]; intros [|c cols] H; cbn in *; try discriminate; [reflexivity|].
        rewrite <- IH by lia. reflexivity. }
    replace (sumf (fun p : R * R => snd p * snd p) (combine w (map (fun c : Z -> R => c t) cols))) with (sumf (fun c : Z -> R => c t * c t) cols) in C.
    2:{ clear C E. revert cols Hw; induction w as [|x w IH]; intros [|c cols] H; cbn in *; try discriminate; [reflexivity|].
        rewrite <- IH by lia. reflexivity. }
    exact C.
  - rewrite sumf_scal. apply Req_le. rewrite Rmult_comm. f_equal. rewrite sumf_swap. unfold htrace. apply sumf_ext_all.
    intros c. rewrite Rplus_0_r. reflexivity.
Qed.

Theorem htrace_norm2_ok : norm2_ok htrace.
Proof.
  intros pre cols lambda Hl. split; [|apply Rle_refl]. intros w Hw. unfold hform.
  assert (H := lc_cauchy pre cols w Hw).
  assert (E : htrace pre cols lambda = htrace pre cols 0 + lambda * len cols).
  { unfold htrace. rewrite !sumf_add, !sumf_const. ring. }
  rewrite E. assert (Q : 0 <= sumf (fun x => x * x) w) by (apply sumf_nonneg; intros; nra).
  destruct cols as [|c cols].
  - destruct w; [|discriminate]. cbn in *. lra.
  - assert (1 <= len (c :: cols)) by (rewrite len_cons; assert (P := len_nonneg cols); lra).
    assert (lambda * 1 <= lambda * len (c :: cols)) by (apply Rmult_le_compat_l; auto).
    assert (lambda * sumf (fun x => x * x) w <= lambda * len (c :: cols) * sumf (fun x => x * x) w) by (apply Rmult_le_compat_r; lra).
    lra.
Qed.

(* ---- period effects: the compiled iteration does not see them ---- *)
Definition shift_cols (pre : list Z) (b : Z -> R) (cols cols' : list (Z -> R)) : Prop :=
  Forall2 (fun c c' => forall t, In t pre -> c' t = c t + b t) cols cols'.

Lemma shift_cols_length pre b cols cols' : shift_cols pre b cols cols' -> length cols' = length cols.
Proof. induction 1; cbn; congruence. Qed.

Lemma shift_lc pre b cols cols' : shift_cols pre b cols cols' -> forall w t, length w = length cols -> In t pre ->
  lc cols' w t = lc cols w t + b t * sumf idR w.
Proof.
  induction 1 as [|c c' cols cols' Hc _ IH]; intros [|x w] t Hw Ht; cbn in *; try discriminate; [ring|].
  rewrite Hc, IH by (auto; lia). unfold idR at 2. ring.
Qed.

Lemma shift_colx pre b cols cols' j t : shift_cols pre b cols cols' -> (j < length cols)%nat -> In t pre ->
  colx cols' j t = colx cols j t + b t.
Proof.
  intros H. revert j; induction H as [|c c' cols cols' Hc _ IH]; intros j Hj Ht; cbn in *; [lia|].
  destruct j; cbn; auto. unfold colx in IH. apply IH; auto; lia.
Qed.

Lemma shift_grad pre b cols cols' y y' lambda w :
  shift_cols pre b cols cols' -> (forall t, In t pre -> y' t = y t + b t) -> length w = length cols -> sumf idR w = 1 ->
  forall j, (j < length cols)%nat ->
  grad_rust pre cols' y' lambda w j = grad_rust pre cols y lambda w j + ip pre b (fun t => lc cols w t - y t).
Proof.
  intros Hc Hy Hw Hs j Hj. unfold grad_rust.
  assert (E : ip pre (colx cols' j) (lc cols' w) - ip pre (colx cols' j) y' =
              ip pre (colx cols j) (lc cols w) - ip pre (colx cols j) y + ip pre b (fun t => lc cols w t - y t)).
  { unfold ip. rewrite <- !sumf_sub, <- sumf_add. apply sumf_ext. intros t Ht.
    rewrite (shift_colx _ _ _ _ j t Hc Hj Ht), (shift_lc _ _ _ _ Hc w t Hw Ht), Hy, Hs by auto. ring. }
  lra.
Qed.

Lemma grad_step_shift n step g g' w c : (forall j, (j < n)%nat -> g' w j = g w j + c) ->
  grad_step project_simplex n step g' w = grad_step project_simplex n step g w.
Proof.
  intros H. unfold grad_step.
  rewrite <- (project_shift (map (fun j => nth j w 0 - step * g w j) (seq 0 n)) (- (step * c))). f_equal.
  rewrite map_map. apply map_ext_in. intros j Hj. apply in_seq in Hj. rewrite H by lia. ring.
Qed.

Lemma pgd_ext (P : list R -> Prop) s s' iter : (forall w, P w -> s' w = s w /\ P (s w)) ->
  forall w, P w -> pgd iter s' w = pgd iter s w.
Proof.
  intros H. induction iter as [|k IH]; intros w Pw; cbn; [reflexivity|].
  destruct (H w Pw) as [E Q]. rewrite E. rewrite IH by auto. reflexivity.
Qed.

Theorem pgd_shift pre b cols cols' y y' lambda step iter : cols <> [] ->
  shift_cols pre b cols cols' -> (forall t, In t pre -> y' t = y t + b t) ->
  pgd iter (grad_step project_simplex (length cols') step (grad_rust pre cols' y' lambda)) (uniform_w (length cols'))
  = pgd iter (grad_step project_simplex (length cols) step (grad_rust pre cols y lambda)) (uniform_w (length cols)).
Proof.
  intros Hne Hc Hy. rewrite (shift_cols_length _ _ _ _ Hc).
  assert (Hn : (0 < length cols)%nat) by (destruct cols; [congruence|cbn; lia]).
  apply (pgd_ext (fun w => in_simplex w /\ length w = length cols)).
  - intros w [[Hw Hs] Hl]. split.
    + apply (grad_step_shift _ _ _ _ _ (ip pre b (fun t => lc cols w t - y t))). intros j Hj.
      apply shift_grad; auto.
    + apply (grad_step_simplex (length cols)). exact Hn.
  - split; [apply uniform_in_simplex; auto|apply repeat_length].
Qed.

Definition be_shift (backend : list Z -> list (Z -> R) -> (Z -> R) -> R -> list R) : Prop :=
  forall pre b cols cols' y y' lambda, cols <> [] -> shift_cols pre b cols cols' ->
    (forall t, In t pre -> y' t = y t + b t) -> backend pre cols' y' lambda = backend pre cols y lambda.

Theorem rust_shift iter : be_shift (be_rust iter).
Proof.
  intros pre b cols cols' y y' lambda Hne Hc Hy. unfold be_rust, synth_rust.
  assert (E : forall n g w, grad_step project_simplex_rust n (1 / 10) g w = grad_step project_simplex n (1 / 10) g w)
    by (intros; unfold grad_step; apply project_rust_eq).
  assert (F : forall n g w, pgd iter (grad_step project_simplex_rust n (1 / 10) g) w = pgd iter (grad_step project_simplex n (1 / 10) g) w)
    by (intros; apply (pgd_ext (fun _ => True)); auto).
  rewrite !F.
  apply (pgd_shift pre b); auto.
Qed.

(* the NumPy iteration with a given step size does not see them either; its step depends on the level *)
Theorem numpy_shift_same_norm iter nrm pre b cols cols' y y' lambda : cols <> [] -> shift_cols pre b cols cols' ->
  (forall t, In t pre -> y' t = y t + b t) ->
  synth_numpy iter nrm pre cols' y' lambda = synth_numpy iter nrm pre cols y lambda.
Proof.
  intros Hne Hc Hy. unfold synth_numpy. set (s := 1 / (nrm + eps10)).
  assert (E : forall c yy w, grad_step project_simplex (length c) s (grad_py pre c yy lambda) w =
                             grad_step project_simplex (length c) s (grad_rust pre c yy lambda) w).
  { intros. rewrite <- backends_same_step. unfold grad_step. apply project_rust_eq. }
  assert (F : forall c yy w, pgd iter (grad_step project_simplex (length c) s (grad_py pre c yy lambda)) w =
                             pgd iter (grad_step project_simplex (length c) s (grad_rust pre c yy lambda)) w)
    by (intros; apply (pgd_ext (fun _ => True)); auto).
  rewrite !F.
  apply (pgd_shift pre b); auto.
Qed.

(* the documented problem itself does not change *)
Theorem objective_shift (pre : list Z) b cols cols' y y' lambda w : shift_cols pre b cols cols' ->
  (forall t, In t pre -> y' t = y t + b t) -> length w = length cols -> sumf idR w = 1 ->
  objective pre cols' y' lambda w = objective pre cols y lambda w.
Proof.
  intros Hc Hy Hw Hs. unfold objective. rewrite (shift_cols_length _ _ _ _ Hc). f_equal.
  apply sumf_ext. intros t Ht. rewrite (shift_lc _ _ _ _ Hc w t Hw Ht), Hy, Hs by auto. ring.
Qed.

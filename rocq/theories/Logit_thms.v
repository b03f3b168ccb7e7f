(* The objective of the logistic regressions and the gradient handed to the optimiser. *)
From Coq Require Import Reals Lra Lia.
From Verif Require Import Prelude Stats_model Linalg_model Triple_model Triple_thms PScore_model PScore_thms Logit_model.
From Coq Require Import Arith ZArith List.
Import ListNotations.
Open Scope R_scope.

Fixpoint bump (b : list R) (j : nat) (h : R) : list R :=
  match b, j with
  | x :: r, O => x + h :: r
  | x :: r, S k => x :: bump r k h
  | [], _ => []
  end.
Lemma lc_bump {I} (cols : list (I -> R)) : forall b j h i, length b = length cols -> (j < length cols)%nat ->
  lc cols (bump b j h) i = lc cols b i + h * nth j cols (fun _ => 0) i.
Proof.
  induction cols as [|c cs IH]; intros b j h i HL Hj; [simpl in Hj; lia|].
  destruct b as [|x xs]; [discriminate|]. injection HL as HL. destruct j as [|k]; cbn [bump lc nth].
  - ring.
  - rewrite IH by (auto; simpl in Hj; lia). ring.
Qed.

Lemma dlim_local f g x l d : 0 < d -> (forall h, Rabs h < d -> f (x + h) = g (x + h)) ->
  derivable_pt_lim g x l -> derivable_pt_lim f x l.
Proof.
  intros Hd E H eps He. destruct (H eps He) as [del Hdel].
  assert (Hm : 0 < Rmin del d) by (apply Rmin_glb_lt; [apply cond_pos|exact Hd]).
  exists (mkposreal _ Hm). intros h Hh Hb. simpl in Hb.
  assert (E0 : f x = g x). { specialize (E 0). rewrite Rabs_R0, Rplus_0_r in E. apply E. exact Hd. }
  rewrite E, E0; [apply Hdel; [exact Hh|]|]; eapply Rlt_le_trans; try exact Hb; [apply Rmin_l|apply Rmin_r].
Qed.
Lemma dlim_sumf {A} (F : A -> R -> R) (D : A -> R) x l : (forall a, In a l -> derivable_pt_lim (F a) x (D a)) ->
  derivable_pt_lim (fun h => sumf (fun a => F a h) l) x (sumf D l).
Proof.
  induction l as [|a r IH]; intros H; cbn [sumf].
  - apply derivable_pt_lim_const.
  - apply (derivable_pt_lim_plus (F a) (fun h => sumf (fun a => F a h) r)); [apply H; left; reflexivity|].
    apply IH. intros b Hb. apply H. right. exact Hb.
Qed.
Lemma dlim_term y u c : derivable_pt_lim (fun h => y * (u + h * c) - ln (1 + exp (u + h * c))) 0 (c * (y - 1 / (1 + exp (- u)))).
Proof.
  assert (L : derivable_pt_lim (fun h => u + h * c) 0 c).
  { assert (L0 : derivable_pt_lim (fun h => u + h * c) 0 (0 + (1 * c + 0 * 0))); [|replace (0 + (1 * c + 0 * 0)) with c in L0 by ring; exact L0].
    apply (derivable_pt_lim_plus (fct_cte u) (fun h => h * c)); [apply derivable_pt_lim_const|].
    apply (derivable_pt_lim_mult id (fct_cte c)); [apply derivable_pt_lim_id|apply derivable_pt_lim_const]. }
  assert (P : 0 < 1 + exp u) by (pose proof (exp_pos u); lra).
  assert (E : derivable_pt_lim (fun h => 1 + exp (u + h * c)) 0 (exp u * c)).
  { replace (exp u * c) with (0 + exp u * c) by ring.
    apply (derivable_pt_lim_plus (fct_cte 1) (fun h => exp (u + h * c))); [apply derivable_pt_lim_const|].
    apply (derivable_pt_lim_comp (fun h => u + h * c) exp); [exact L|].
    replace (u + 0 * c) with u by ring. apply derivable_pt_lim_exp. }
  assert (N : derivable_pt_lim (fun h => ln (1 + exp (u + h * c))) 0 (/ (1 + exp u) * (exp u * c))).
  { apply (derivable_pt_lim_comp (fun h => 1 + exp (u + h * c)) ln); [exact E|].
    replace (u + 0 * c) with u by ring. apply derivable_pt_lim_ln. exact P. }
  replace (c * (y - 1 / (1 + exp (- u)))) with (y * c - / (1 + exp u) * (exp u * c)).
  - apply (derivable_pt_lim_minus (fun h => y * (u + h * c)) (fun h => ln (1 + exp (u + h * c)))); [|exact N].
    apply (derivable_pt_lim_scal (fun h => u + h * c)). exact L.
  - rewrite exp_Ropp. pose proof (exp_pos u). field. split; lra.
Qed.

(* near a predictor strictly inside the cut-off, clipping does nothing *)
Lemma clip_near u c : -500 < u < 500 -> exists d, 0 < d /\ forall h, Rabs h < d -> clip (u + h * c) (-500) 500 = u + h * c.
Proof.
  intros Hu. set (m := Rmin (u + 500) (500 - u)). assert (Hm : 0 < m) by (apply Rmin_glb_lt; lra).
  pose proof (Rabs_pos c). exists (m / (1 + Rabs c)).
  split; [apply Rdiv_lt_0_compat; lra|]. intros h Hh. apply clip_id.
  assert (B : Rabs (h * c) <= m).
  { rewrite Rabs_mult. apply Rle_trans with (m / (1 + Rabs c) * Rabs c).
    - apply Rmult_le_compat_r; lra.
    - apply (Rmult_le_reg_r (1 + Rabs c)); [lra|]. replace (m / (1 + Rabs c) * Rabs c * (1 + Rabs c)) with (m * Rabs c) by (field; lra). nra. }
  pose proof (Rmin_l (u + 500) (500 - u)). pose proof (Rmin_r (u + 500) (500 - u)). fold m in H0, H1.
  pose proof (Rle_abs (h * c)). pose proof (Rle_abs (- (h * c))). rewrite Rabs_Ropp in H3. lra.
Qed.

Section Grad.
Context {I : Type}.
Variables (rows : list I) (X : list (I -> R)) (z : I -> R) (b : list R).
Notation cols := ((fun _ : I => 1) :: X).
Hypothesis HL : length b = length cols.

Theorem gradient_right j : (j < length cols)%nat -> (forall i, In i rows -> -500 < lc cols b i < 500) ->
  derivable_pt_lim (fun h => lg_nll rows X z (bump b j h)) 0 (lg_grad rows X z b (nth j cols (fun _ => 0))).
Proof.
  intros Hj Hin. unfold lg_nll, lg_grad.
  apply (derivable_pt_lim_opp (fun h => sumf (fun i => let u := clip (lc cols (bump b j h) i) (-500) 500 in z i * u - ln (1 + exp u)) rows)).
  apply (dlim_sumf (fun i h => let u := clip (lc cols (bump b j h) i) (-500) 500 in z i * u - ln (1 + exp u))
           (fun i => nth j cols (fun _ => 0) i * (z i - lg_prob X b i))).
  intros i Hi. specialize (Hin i Hi). destruct (clip_near _ (nth j cols (fun _ => 0) i) Hin) as (d & Hd & E).
  eapply (dlim_local _ (fun h => z i * (lc cols b i + h * nth j cols (fun _ => 0) i) - ln (1 + exp (lc cols b i + h * nth j cols (fun _ => 0) i)))); [exact Hd| |].
  - intros h Hh. rewrite Rplus_0_l. cbv zeta. rewrite (lc_bump cols b j h i HL Hj). rewrite (E h Hh). reflexivity.
  - unfold lg_prob. rewrite (clip_id (lc cols b i)) by lra. apply dlim_term.
Qed.
End Grad.

(* one untreated row with predictor 600: the objective is flat there, the gradient is not *)
Theorem gradient_refuted : exists (b : list R) (z : unit -> R),
  (forall h, Rabs h < 100 -> lg_nll [tt] [] z (bump b 0 h) = lg_nll [tt] [] z b) /\
  derivable_pt_lim (fun h => lg_nll [tt] [] z (bump b 0 h)) 0 0 /\ 1 / 2 < lg_grad [tt] [] z b (fun _ => 1).
Proof.
  exists [600], (fun _ => 0).
  assert (F : forall h, Rabs h < 100 -> lg_nll [tt] [] (fun _ => 0) (bump [600] 0 h) = lg_nll [tt] [] (fun _ : unit => 0) [600]).
  { intros h Hh. apply Rabs_def2 in Hh. unfold lg_nll. cbn [bump lc sumf].
    assert (C : forall x, 500 <= x -> clip x (-500) 500 = 500).
    { intros x Hx. unfold clip. rewrite Rmax_left by lra. apply Rmin_left. exact Hx. }
    rewrite !C by lra. reflexivity. }
  split; [exact F|]. split.
  - apply (dlim_local _ (fct_cte (lg_nll [tt] [] (fun _ => 0) [600])) 0 0 100); [lra| |apply derivable_pt_lim_const].
    intros h Hh. rewrite Rplus_0_l. apply F. exact Hh.
  - unfold lg_grad, lg_prob. cbn [sumf lc].
    assert (C : clip (600 * 1 + 0) (-500) 500 = 500) by (unfold clip; rewrite Rmax_left by lra; apply Rmin_left; lra).
    rewrite C. assert (exp (- (500)) < 1) by (rewrite <- exp_0; apply exp_increasing; lra). pose proof (exp_pos (- (500))).
    assert (1 / 2 < 1 / (1 + exp (- (500)))).
    { unfold Rdiv. rewrite !Rmult_1_l. apply Rinv_lt_contravar; [|lra]. nra. }
    lra.
Qed.

(* a covariate, three rows, predictors -1, 0 and 2 *)
Theorem gradient_case : let X := [fun i : nat => match i with O => -1 | S O => 0 | _ => 2 end] in let z i := match i with O => 0 | _ => 1 end in
  length [0; 1] = length ((fun _ : nat => 1) :: X) /\ (forall i, In i [0; 1; 2]%nat -> -500 < lc ((fun _ => 1) :: X) [0; 1] i < 500) /\
  lg_grad [0; 1; 2]%nat X z [0; 1] (fun _ => 1) < 0 /\
  derivable_pt_lim (fun h => lg_nll [0; 1; 2]%nat X z [h; 1]) 0 (lg_grad [0; 1; 2]%nat X z [0; 1] (fun _ => 1)).
Proof.
  intros X z. split; [reflexivity|].
  assert (B : forall i, In i [0; 1; 2]%nat -> -500 < lc ((fun _ => 1) :: X) [0; 1] i < 500).
  { intros i [<-|[<-|[<-|[]]]]; cbn; lra. }
  split; [exact B|]. split.
  - unfold lg_grad, lg_prob, X, z. cbn [sumf lc]. rewrite !clip_id by lra.
    pose proof (exp_pos (- (0 * 1 + (1 * 0 + 0)))). pose proof (exp_pos (- (0 * 1 + (1 * 2 + 0)))).
    replace (- (0 * 1 + (1 * 0 + 0))) with 0 by ring. rewrite exp_0.
    replace (- (0 * 1 + (1 * -1 + 0))) with (- - (1)) by ring. rewrite Ropp_involutive.
    replace (- (0 * 1 + (1 * 2 + 0))) with (- (2)) by ring.
    assert (E1 : 1 < exp 1) by (rewrite <- exp_0 at 1; apply exp_increasing; lra).
    assert (A1 : 1 / (1 + exp 1) < 1 / 2) by (unfold Rdiv; rewrite !Rmult_1_l; apply Rinv_lt_contravar; nra).
    assert (A2 : 1 / (1 + exp (- (2))) < 1).
    { pose proof (exp_pos (- (2))). apply (Rmult_lt_reg_r (1 + exp (- (2)))); [lra|]. unfold Rdiv. rewrite Rmult_assoc, Rinv_l by lra. lra. }
    lra.
  - apply (dlim_local _ (fun h => lg_nll [0; 1; 2]%nat X z (bump [0; 1] 0 h)) 0 _ 1); [lra| |].
    + intros h _. cbn [bump]. rewrite !Rplus_0_l. reflexivity.
    + apply (gradient_right [0; 1; 2]%nat X z [0; 1] eq_refl 0 ltac:(simpl; lia) B).
Qed.

(* The compiled joint solver: weights, descent, fixed points, equivariance. *)
From Verif Require Import Prelude Flt Stats_model Linalg_model Linalg_proofs Linalg_minnorm Multi_model Trop_model Trop_proofs Trop_joint Trop_jproofs Trop_jthms Trop_rust Trop_rjoint.
From Coq Require Import Arith ZArith String List FunctionalExtensionality Lia Lra.
Import ListNotations.
Open Scope R_scope.

(* ------------------------------------------------------------------------------------------- *)
(* weights *)
Lemma rj_weights_some T N p Y D lt lu w t i : j_weights T N p Y D lt lu = JOk w -> j_valid T N p Y D i <> [] \/ lu <> 0 ->
  rj_weights T N p Y D lt lu t i = Some (w t i).
Proof.
  unfold j_weights. destruct (_ =? 0)%nat; [easy|]. destruct (T - p =? 0)%nat eqn:E; [easy|]. apply Nat.eqb_neq in E.
  intros [= <-] H. unfold rj_weights, rj_unit_w, j_unit_w, j_dist. rewrite (proj2 (Nat.ltb_lt 0 (T - p))) by lia.
  destruct (j_valid T N p Y D i) as [|x v] eqn:Ev.
  - destruct H as [H|H]; [easy|]. rewrite (proj2 (Reqb_false lu 0)) by easy. reflexivity.
  - cbv zeta iota. cbn [option_map]. rewrite Rmax_left by (rewrite <- len_1 || (unfold len; cbn [length]; rewrite S_INR; assert (Q := pos_INR (length v)); lra)).
    reflexivity.
Qed.
Lemma rj_weights_nan T N p Y D lt i t : (0 < T - p)%nat -> j_valid T N p Y D i = [] -> rj_weights T N p Y D lt 0 t i = None.
Proof.
  intros H E. unfold rj_weights, rj_unit_w. rewrite (proj2 (Nat.ltb_lt 0 (T - p))) by lia. rewrite E. rewrite (proj2 (Reqb_true 0 0)) by easy. reflexivity.
Qed.

(* ------------------------------------------------------------------------------------------- *)
(* weighted means *)
Lemma wmean_min {X} (w r : X -> R) l u : 0 < sumf w l ->
  sumf (fun x => w x * (r x - sumf (fun x => w x * r x) l / sumf w l) * (r x - sumf (fun x => w x * r x) l / sumf w l)) l
  <= sumf (fun x => w x * (r x - u) * (r x - u)) l.
Proof.
  intros Hs. set (s := sumf w l) in *. set (m := sumf (fun x => w x * r x) l). 
  assert (G : forall v, sumf (fun x => w x * (r x - v) * (r x - v)) l = sumf (fun x => w x * (r x * r x)) l - 2 * v * m + v * v * s).
  { intros v. rewrite (sumf_ext _ (fun x => (w x * (r x * r x) - 2 * v * (w x * r x)) + v * v * w x)) by (intros; ring).
    rewrite sumf_add, sumf_sub. unfold m, s. rewrite !sumf_scal. ring. }
  rewrite !G. assert (Q : 0 <= s * ((u - m / s) * (u - m / s))) by (apply Rmult_le_pos; [lra|apply Rle_0_sqr]).
  replace (sumf (fun x => w x * (r x * r x)) l - 2 * (m / s) * m + m / s * (m / s) * s) with (sumf (fun x => w x * (r x * r x)) l - m * m / s) by (field; lra).
  replace (s * ((u - m / s) * (u - m / s))) with (u * u * s - 2 * u * m + m * m / s) in Q by (field; lra). lra.
Qed.
Lemma wmean_orth {X} (w r : X -> R) l u : 0 < sumf w l -> u = sumf (fun x => w x * r x) l / sumf w l -> sumf (fun x => w x * (r x - u)) l = 0.
Proof.
  intros Hs ->. rewrite (sumf_ext _ (fun x => w x * r x - (sumf (fun x => w x * r x) l / sumf w l) * w x)) by (intros; ring).
  rewrite sumf_sub, sumf_scal. field. lra.
Qed.

(* ------------------------------------------------------------------------------------------- *)
(* descent *)
Definition wssr (T N : nat) (y : mat) (D : dmat) (w : mat) (c : jcoef) : R :=
  bsum (seq 0 N) (seq 0 T) (fun t i => w t i * (y t i - fitv D c t i) * (y t i - fitv D c t i)).
Lemma tiny_pos : 0 < tiny.
Proof. unfold tiny. apply Rinv_0_lt_compat, pow_lt. lra. Qed.
Lemma bsum_swap A B g : bsum A B g = sumf (fun i => sumf (fun t => g t i) B) A.
Proof. unfold bsum. apply sumf_swap. Qed.
Lemma seq_lt n x : In x (seq 0 n) <-> (x < n)%nat.
Proof. rewrite in_seq. lia. Qed.
Lemma le_via (a x z b : R) : x <= z -> a = x -> z = b -> a <= b. Proof. intros; lra. Qed.

Lemma Some_inj {A} (a b : A) : Some a = Some b -> a = b.
Proof. intros H. now injection H. Qed.
Lemma rj_solve_inv T N y D w c : rj_solve T N y D w = Some c ->
  tiny <= sumf (fun x => w (fst x) (snd x)) (cells T N) /\ c = rj_bcd T N y D w rj_iters (rj_start T N y w).
Proof.
  unfold rj_solve. destruct (Rltb _ tiny) eqn:E; [easy|]. intros H. apply Some_inj in H. apply Rltb_false in E. split; [exact E|symmetry; exact H].
Qed.

Section Descent.
Variables (T N : nat) (y : mat) (D : dmat) (w : mat).
Hypothesis HD : forall t i, D t i = 0%Z \/ D t i = 1%Z.
Notation S0 := (wssr T N y D w).

Lemma alpha_descent c : S0 {| jmu := jmu c; ja := rj_alpha T N y D w c; jb := jb c; jtau := jtau c |} <= S0 c.
Proof.
  unfold wssr. rewrite !bsum_swap. apply sumf_le. intros i Hi. unfold fitv. cbn [jmu ja jb jtau]. unfold rj_alpha.
  destruct (((1 <=? i) && (i <? N))%nat && Rltb tiny (sumf (fun t => w t i) (seq 0 T))) eqn:E; [|right; reflexivity].
  apply andb_prop in E. destruct E as [_ E]. apply Rltb_true in E. assert (P := tiny_pos).
  set (r := fun t => y t i - jmu c - jb c t - jtau c * IZR (D t i)).
  eapply le_via; [apply (wmean_min (fun t => w t i) r (seq 0 T) (ja c i)); lra| |]; apply sumf_ext; intros t _; unfold r; ring.
Qed.
Lemma beta_descent c : S0 {| jmu := jmu c; ja := ja c; jb := rj_beta T N y D w c; jtau := jtau c |} <= S0 c.
Proof.
  unfold wssr, bsum. apply sumf_le. intros t Ht. unfold fitv. cbn [jmu ja jb jtau]. unfold rj_beta.
  destruct (((1 <=? t) && (t <? T))%nat && Rltb tiny (sumf (fun i => w t i) (seq 0 N))) eqn:E; [|right; reflexivity].
  apply andb_prop in E. destruct E as [_ E]. apply Rltb_true in E. assert (P := tiny_pos).
  set (r := fun i => y t i - jmu c - ja c i - jtau c * IZR (D t i)).
  eapply le_via; [apply (wmean_min (fun i => w t i) r (seq 0 N) (jb c t)); lra| |]; apply sumf_ext; intros i _; unfold r; ring.
Qed.
Lemma wssr_cells c : S0 c = sumf (fun x => w (fst x) (snd x) * (y (fst x) (snd x) - fitv D c (fst x) (snd x)) * (y (fst x) (snd x) - fitv D c (fst x) (snd x))) (cells T N).
Proof. unfold wssr. symmetry. apply (cells_bsum T N (fun t i => w t i * (y t i - fitv D c t i) * (y t i - fitv D c t i))). Qed.
Lemma tau_descent c : S0 {| jmu := jmu c; ja := ja c; jb := jb c; jtau := rj_tau T N y D w c |} <= S0 c.
Proof.
  rewrite !wssr_cells. rewrite !(sumf_part (fun x => (D (fst x) (snd x) =? 1)%Z) _ (cells T N)). unfold fitv. cbn [jmu ja jb jtau].
  apply Rplus_le_compat.
  - fold (treated_obs T N D). unfold rj_tau. cbv zeta. destruct (Rltb tiny _) eqn:E; [|right; reflexivity]. apply Rltb_true in E. assert (P := tiny_pos).
    set (q := fun x : nat * nat => w (fst x) (snd x)) in *.
    set (r := fun x : nat * nat => y (fst x) (snd x) - jmu c - ja c (snd x) - jb c (fst x)).
    assert (D1 : forall x, In x (treated_obs T N D) -> IZR (D (fst x) (snd x)) = 1).
    { intros x Hx. apply filter_In in Hx. destruct Hx as [_ Hx]. apply Z.eqb_eq in Hx. now rewrite Hx. }
    eapply le_via; [apply (wmean_min q r (treated_obs T N D) (jtau c)); lra| |]; apply sumf_ext; intros x Hx; rewrite (D1 x Hx); unfold r, q; ring.
  - right. apply sumf_ext. intros x Hx. apply filter_In in Hx. destruct Hx as [_ Hx]. apply negb_true_iff, Z.eqb_neq in Hx.
    destruct (HD (fst x) (snd x)) as [E|E]; [rewrite E; ring|easy].
Qed.
Lemma mu_descent c : 0 < sumf (fun x => w (fst x) (snd x)) (cells T N) ->
  S0 {| jmu := rj_mu T N y D w c; ja := ja c; jb := jb c; jtau := jtau c |} <= S0 c.
Proof.
  intros P. rewrite !wssr_cells. unfold fitv. cbn [jmu ja jb jtau]. unfold rj_mu.
  set (q := fun x : nat * nat => w (fst x) (snd x)) in *.
  set (r := fun x : nat * nat => y (fst x) (snd x) - ja c (snd x) - jb c (fst x) - jtau c * IZR (D (fst x) (snd x))).
  eapply le_via; [apply (wmean_min q r (cells T N) (jmu c)); lra| |]; apply sumf_ext; intros x Hx; unfold r, q; ring.
Qed.
Theorem sweep_descent c : 0 < sumf (fun x => w (fst x) (snd x)) (cells T N) -> S0 (rj_sweep T N y D w c) <= S0 c.
Proof.
  intros P. unfold rj_sweep. cbv zeta. cbn [jmu ja jb jtau].
  set (c1 := {| jmu := jmu c; ja := rj_alpha T N y D w c; jb := jb c; jtau := jtau c |}).
  set (c2 := {| jmu := jmu c; ja := rj_alpha T N y D w c; jb := rj_beta T N y D w c1; jtau := jtau c |}).
  set (c3 := {| jmu := jmu c; ja := rj_alpha T N y D w c; jb := rj_beta T N y D w c1; jtau := rj_tau T N y D w c2 |}).
  eapply Rle_trans; [apply (mu_descent c3 P)|]. eapply Rle_trans; [apply (tau_descent c2)|]. eapply Rle_trans; [apply (beta_descent c1)|]. apply (alpha_descent c).
Qed.
Lemma bcd_descent k : forall c, 0 < sumf (fun x => w (fst x) (snd x)) (cells T N) -> S0 (rj_bcd T N y D w k c) <= S0 c.
Proof.
  induction k as [|k IH]; intros c P; cbn [rj_bcd]; [lra|]. assert (Q := sweep_descent c P). destruct (rj_stop c _); [easy|].
  eapply Rle_trans; [apply IH; easy|easy].
Qed.
Theorem solve_descent c : rj_solve T N y D w = Some c -> S0 c <= S0 (rj_start T N y w).
Proof.
  intros H. apply rj_solve_inv in H. destruct H as [E H]. rewrite H. assert (P := tiny_pos). apply (bcd_descent rj_iters). lra.
Qed.
(* in particular not worse than the best constant *)
Lemma start_const m : 0 < sumf (fun x => w (fst x) (snd x)) (cells T N) ->
  S0 (rj_start T N y w) <= bsum (seq 0 N) (seq 0 T) (fun t i => w t i * (y t i - m) * (y t i - m)).
Proof.
  intros P. rewrite wssr_cells. rewrite <- (cells_bsum T N (fun t i => w t i * (y t i - m) * (y t i - m))). unfold fitv, rj_start. cbn [jmu ja jb jtau].
  set (q := fun x : nat * nat => w (fst x) (snd x)) in *. set (r := fun x : nat * nat => y (fst x) (snd x)).
  eapply le_via; [apply (wmean_min q r (cells T N) m); exact P| |]; apply sumf_ext; intros x Hx; unfold r, q; ring.
Qed.
End Descent.

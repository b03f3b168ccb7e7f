(* TROP method="joint": effect of a shift of the treated outcomes, exact recovery, weighted
   difference-in-differences form, what the estimate depends on. *)
From Verif Require Import Prelude Flt Stats_model Stats_proofs Linalg_model Linalg_proofs Linalg_minnorm Multi_model Trop_model Trop_proofs Trop_thms Trop_conv Trop_rec Trop_sel Trop_rows Trop_joint Trop_jproofs.
From Coq Require Import Arith ZArith String List FunctionalExtensionality Permutation.
Import ListNotations.
Open Scope R_scope.

(* ------------------------------------------------------------------------------------------- *)
(* weights *)
Lemma avg_treated_ext T N Y Y' D t : (forall i, Y' t i = Y t i) -> avg_treated T N Y' D t = avg_treated T N Y D t.
Proof.
  intros H. unfold avg_treated. rewrite (filter_ext (fun i => ever T D i && has Y' t i) (fun i => ever T D i && has Y t i)).
  - destruct (filter _ _) as [|x l]; [easy|]. f_equal. apply meanf_ext. intros i _. unfold ysafe. now rewrite H.
  - intros i. unfold has. now rewrite H.
Qed.
(* the weights use outcomes of the periods before the treated block only *)
Lemma j_valid_pre T N p Y Y' D i : (forall t i, (t < T - p)%nat -> Y' t i = Y t i) -> j_valid T N p Y' D i = j_valid T N p Y D i.
Proof.
  intros H. unfold j_valid. apply filter_ext. intros t. destruct (t <? T - p)%nat eqn:E; [|easy]. apply Nat.ltb_lt in E. cbn [andb].
  rewrite (avg_treated_ext T N Y Y') by auto. unfold has. now rewrite H.
Qed.
Lemma j_weights_pre T N p Y Y' D lt lu : (forall t i, (t < T - p)%nat -> Y' t i = Y t i) -> j_weights T N p Y' D lt lu = j_weights T N p Y D lt lu.
Proof.
  intros H. unfold j_weights. destruct (_ =? 0)%nat; [easy|]. destruct (_ =? 0)%nat; [easy|]. f_equal.
  apply functional_extensionality; intros t; apply functional_extensionality; intros i. f_equal. unfold j_unit_w. rewrite (j_valid_pre T N p Y Y' D i H).
  assert (E : j_dist T N p Y' D i = j_dist T N p Y D i).
  { unfold j_dist. rewrite (j_valid_pre T N p Y Y' D i H). f_equal. f_equal. apply sumf_ext. intros s Hs. unfold j_valid in Hs. apply filter_In in Hs. destruct Hs as [_ Hs].
    apply andb_prop in Hs. destruct Hs as [Hs _]. apply Nat.ltb_lt in Hs. unfold j_gap, ysafe. rewrite (avg_treated_ext T N Y Y') by auto. now rewrite H. }
  now rewrite E.
Qed.
Lemma j_weights_inv T N p Y D lt lu w : j_weights T N p Y D lt lu = JOk w ->
  (exists i, (i < N)%nat /\ ever T D i = true) /\ (p < T)%nat /\ w = fun t i => j_time_w T p lt t * j_unit_w T N p Y D lu i.
Proof.
  unfold j_weights. destruct (_ =? 0)%nat eqn:E1; [easy|]. destruct (T - p =? 0)%nat eqn:E2; [easy|]. intros [= <-].
  apply Nat.eqb_neq in E1, E2. split; [|split; [lia|easy]].
  destruct (filter (ever T D) (seq 0 N)) as [|i l] eqn:E; [easy|]. exists i. assert (Hi : In i (filter (ever T D) (seq 0 N))) by (rewrite E; now left).
  apply filter_In in Hi. destruct Hi as [Hi He]. apply in_seq in Hi. split; [lia|easy].
Qed.
Lemma j_time_pos T p lt t : 0 < j_time_w T p lt t. Proof. apply exp_pos. Qed.
Lemma j_unit_nonneg T N p Y D lu i : 0 <= j_unit_w T N p Y D lu i.
Proof. unfold j_unit_w. destruct (j_valid T N p Y D i); [lra|]. left. apply exp_pos. Qed.
Lemma j_weights_nonneg T N p Y D lt lu w t i : j_weights T N p Y D lt lu = JOk w -> 0 <= w t i.
Proof. intros H. apply j_weights_inv in H. destruct H as (_ & _ & ->). apply Rmult_le_pos; [left; apply j_time_pos|apply j_unit_nonneg]. Qed.
(* a unit has weight as soon as it and some treated unit are observed together in one pre-period *)
Lemma j_unit_pos T N p Y D lu i s k : (s < T - p)%nat -> has Y s i = true -> (k < N)%nat -> ever T D k = true -> has Y s k = true ->
  0 < j_unit_w T N p Y D lu i.
Proof.
  intros Hs Hi Hk He Hy. unfold j_unit_w. assert (V : In s (j_valid T N p Y D i)).
  { apply filter_In. split; [apply in_seq; lia|]. rewrite (proj2 (Nat.ltb_lt _ _) Hs), Hi. cbn [andb]. unfold avg_treated.
    assert (K : In k (filter (fun i => ever T D i && has Y s i) (seq 0 N))) by (apply filter_In; split; [apply in_seq; lia|now rewrite He, Hy]).
    destruct (filter _ _); [easy|easy]. }
  destruct (j_valid T N p Y D i); [easy|]. apply exp_pos.
Qed.
Lemma j_weights_pos T N p Y D lt lu w t i s k : j_weights T N p Y D lt lu = JOk w -> (s < T - p)%nat -> has Y s i = true -> (k < N)%nat ->
  ever T D k = true -> has Y s k = true -> 0 < w t i.
Proof.
  intros H. intros. apply j_weights_inv in H. destruct H as (_ & _ & ->). apply Rmult_lt_0_compat; [apply j_time_pos|]. now apply (j_unit_pos T N p Y D lu i s k).
Qed.
Definition complete (T N : nat) (Y : omat) : Prop := forall t i, (t < T)%nat -> (i < N)%nat -> has Y t i = true.
Lemma complete_pos T N p Y D lt lu w : complete T N Y -> j_weights T N p Y D lt lu = JOk w -> forall t i, (i < N)%nat -> 0 < w t i.
Proof.
  intros Hc H t i Hi. assert (H' := H). apply j_weights_inv in H'. destruct H' as ((k & Hk & He) & Hp & _).
  apply (j_weights_pos T N p Y D lt lu w t i 0 k H); [lia|apply Hc; lia|easy|easy|apply Hc; lia].
Qed.

(* ------------------------------------------------------------------------------------------- *)
(* the solver sees outcomes with weight only *)
Lemma wnorm_0 T N w t i : w t i = 0 -> wnorm T N w t i = 0.
Proof. intros H. unfold wnorm. rewrite H. destruct (Rlt_dec _ _); [field; lra|easy]. Qed.
Lemma prox_cong svd T N w R1 R2 h L : (forall t i, w t i <> 0 -> R1 t i = R2 t i) -> prox_step svd T N w R1 h L = prox_step svd T N w R2 h L.
Proof.
  intros H. unfold prox_step. f_equal. apply functional_extensionality; intros t; apply functional_extensionality; intros i.
  destruct (Req_dec (w t i) 0) as [E|E]; [rewrite wnorm_0 by easy; ring|now rewrite H].
Qed.
Definition rshift (c : R) (x : jout (jcoef * mat)) : jout (jcoef * mat) :=
  match x with JOk (co, L) => JOk (addtau c co, L) | e => e end.

Section Solve.
Variable lstsq : lstsq_fn.
Variable svd : svd_fn.
Hypothesis Hmn : mn_ok lstsq.

Lemma low_shift T N y y' D w h tol c k : ident T N D w ->
  (forall t i, w t i <> 0 -> y' t i = y t i + c * IZR (D t i)) ->
  forall L prev, low_loop lstsq svd T N y' D w h tol k L (option_map (addtau c) prev) = rshift c (low_loop lstsq svd T N y D w h tol k L prev).
Proof.
  intros Hid Hy. induction k as [|k IH]; intros L prev; [now destruct prev|]. cbn [low_loop].
  rewrite (wls_shift lstsq Hmn T N D w (fun t i => y t i - L t i) (fun t i => y' t i - L t i) c Hid) by (intros t i _ _ Hz; rewrite Hy by easy; ring).
  destruct (wls lstsq T N (fun t i => y t i - L t i) D w) as [co| |]; [|easy|easy].
  rewrite (prox_cong svd T N w (j_resid y' D (addtau c co)) (j_resid y D co)).
  - destruct (Rltb _ _); [easy|]. apply (IH _ (Some co)).
  - intros t i Hz. unfold j_resid, addtau. cbn [jmu ja jb jtau]. rewrite Hy by easy. ring.
Qed.
Lemma low_cong T N y y' D w h tol k : (forall t i, w t i <> 0 -> y' t i = y t i) ->
  forall L prev, low_loop lstsq svd T N y' D w h tol k L prev = low_loop lstsq svd T N y D w h tol k L prev.
Proof.
  intros Hy. induction k as [|k IH]; intros L prev; [easy|]. cbn [low_loop].
  rewrite (wls_cong lstsq Hmn T N D w (fun t i => y' t i - L t i) (fun t i => y t i - L t i)) by (intros t i _ _ Hz; rewrite Hy by easy; ring).
  destruct (wls lstsq T N (fun t i => y t i - L t i) D w) as [co| |]; [|easy|easy].
  rewrite (prox_cong svd T N w (j_resid y' D co) (j_resid y D co)).
  - destruct (Rltb _ _); [easy|]. apply IH.
  - intros t i Hz. unfold j_resid. now rewrite Hy.
Qed.

Lemma seen_eq Y Y' w : (forall t i, w t i <> 0 -> has Y' t i = has Y t i) -> seen Y' w = seen Y w.
Proof.
  intros H. apply functional_extensionality; intros t; apply functional_extensionality; intros i. unfold seen.
  destruct (Req_dec (w t i) 0) as [E|E]; [rewrite E; now destruct (has Y' t i), (has Y t i)|now rewrite H].
Qed.
Lemma seen_pos T N Y w : (forall t i, 0 <= w t i) -> wpos2 T N (seen Y w).
Proof. intros H t i _ _. unfold seen. destruct (has Y t i); [apply H|lra]. Qed.
Lemma seen_nz Y w t i : seen Y w t i <> 0 -> has Y t i = true /\ w t i <> 0.
Proof. unfold seen. destruct (has Y t i); [easy|intros H; now destruct H]. Qed.

Theorem solve_shift T N Y Y' D w h maxit tol c : (forall t i, 0 <= w t i) -> ident T N D (seen Y w) ->
  (forall t i, w t i <> 0 -> Y' t i = match Y t i with Some r => Some (r + c * IZR (D t i)) | None => None end) ->
  j_solve lstsq svd T N Y' D w h maxit tol = rshift c (j_solve lstsq svd T N Y D w h maxit tol).
Proof.
  intros Hw Hid Hy. assert (ES : seen Y' w = seen Y w) by (apply seen_eq; intros t i Hz; unfold has; rewrite Hy by easy; now destruct (Y t i)).
  assert (EY : forall t i, seen Y w t i <> 0 -> ysafe Y' t i = ysafe Y t i + c * IZR (D t i)).
  { intros t i Hz. apply seen_nz in Hz. destruct Hz as [Hh Hz]. unfold ysafe. rewrite Hy by easy. unfold has in Hh. now destruct (Y t i). }
  unfold j_solve. rewrite ES. destruct (Rle_dec _ h).
  - rewrite (wls_shift lstsq Hmn T N D (seen Y w) (ysafe Y) (ysafe Y') c Hid) by (intros; now apply EY).
    now destruct (wls lstsq T N (ysafe Y) D (seen Y w)).
  - apply (low_shift T N (ysafe Y) (ysafe Y') D (seen Y w) h tol c maxit Hid EY zmat None).
Qed.
Theorem solve_cong T N Y Y' D w h maxit tol : (forall t i, 0 <= w t i) -> (forall t i, w t i <> 0 -> Y' t i = Y t i) ->
  j_solve lstsq svd T N Y' D w h maxit tol = j_solve lstsq svd T N Y D w h maxit tol.
Proof.
  intros Hw Hy. assert (ES : seen Y' w = seen Y w) by (apply seen_eq; intros t i Hz; unfold has; now rewrite Hy).
  assert (EY : forall t i, seen Y w t i <> 0 -> ysafe Y' t i = ysafe Y t i).
  { intros t i Hz. apply seen_nz in Hz. unfold ysafe. now rewrite Hy. }
  unfold j_solve. rewrite ES. destruct (Rle_dec _ h).
  - rewrite (wls_cong lstsq Hmn T N D (seen Y w) (ysafe Y') (ysafe Y)) by (intros; now apply EY). reflexivity.
  - now apply low_cong.
Qed.

(* exact recovery by the solver, with any penalty *)
Hypothesis Hsvd : svd_ok svd.
Lemma low_exact T N y D w h tol mu a b tau : wpos2 T N w -> ident T N D w ->
  (forall t i, (t < T)%nat -> (i < N)%nat -> w t i <> 0 -> y t i = mu + a i + b t + tau * IZR (D t i)) ->
  forall k L prev co L', (forall t i, (t < T)%nat -> (i < N)%nat -> L t i = 0) -> (forall p, prev = Some p -> jtau p = tau) ->
  low_loop lstsq svd T N y D w h tol k L prev = JOk (co, L') -> jtau co = tau /\ forall t i, (t < T)%nat -> (i < N)%nat -> L' t i = 0.
Proof.
  intros Hw Hid Hy. induction k as [|k IH]; intros L prev co L' HL Hp; cbn [low_loop].
  - destruct prev as [p|]; [|easy]. intros [= <- <-]. split; [now apply Hp|easy].
  - destruct (wls lstsq T N (fun t i => y t i - L t i) D w) as [c| |] eqn:Ew; [|easy|easy].
    destruct (wls_exact lstsq Hmn T N D w Hw _ _ mu a b tau Ew) as [F1 F2]; [intros t i Ht Hi Hz; rewrite HL, Hy by easy; ring|].
    specialize (F2 Hid). set (L1 := prox_step svd T N w (j_resid y D c) (Some (j_eta T N w * h)) L).
    assert (Z1 : forall t i, (t < T)%nat -> (i < N)%nat -> L1 t i = 0).
    { assert (M0 : forall t i, (t < T)%nat -> (i < N)%nat -> L t i + wnorm T N w t i * (j_resid y D c t i - L t i) = 0).
      { intros t i Ht Hi. rewrite HL by easy. destruct (Req_dec (w t i) 0) as [E|E]; [rewrite wnorm_0 by easy; ring|].
        specialize (F1 t i Ht Hi E). unfold fitv in F1. rewrite HL in F1 by easy. unfold j_resid.
        replace (y t i - jmu c - ja c i - jb c t - jtau c * IZR (D t i) - 0) with 0 by lra. ring. }
      unfold L1, prox_step. destruct (Rle_dec (j_eta T N w * h) 0) as [Hh|Hh].
      - unfold soft_svd. destruct (Rle_dec _ 0); [|lra]. exact M0.
      - rewrite soft_svd_zero; [easy|easy|lra|]. unfold mip. rewrite (sumf_ext _ (fun _ => 0)).
        + rewrite sumf_zero by easy. apply Rle_0_sqr.
        + intros [t i] Hc. apply in_cells in Hc. cbn [fst snd]. rewrite M0 by easy. ring. }
    destruct (Rltb _ _).
    + intros [= <- <-]. split; [easy|exact Z1].
    + apply IH; [exact Z1|intros p [= <-]; exact F2].
Qed.
Theorem solve_exact T N Y D w h maxit tol mu a b tau co L : (forall t i, 0 <= w t i) -> ident T N D (seen Y w) ->
  (forall t i r, (t < T)%nat -> (i < N)%nat -> Y t i = Some r -> r = mu + a i + b t + tau * IZR (D t i)) ->
  j_solve lstsq svd T N Y D w h maxit tol = JOk (co, L) -> jtau co = tau /\ forall t i, (t < T)%nat -> (i < N)%nat -> L t i = 0.
Proof.
  intros Hw Hid Hy. assert (P := seen_pos T N Y w Hw).
  assert (EY : forall t i, (t < T)%nat -> (i < N)%nat -> seen Y w t i <> 0 -> ysafe Y t i = mu + a i + b t + tau * IZR (D t i)).
  { intros t i Ht Hi Hz. apply seen_nz in Hz. destruct Hz as [Hh Hz]. unfold has in Hh. unfold ysafe. destruct (Y t i) as [r|] eqn:E; [|easy]. now apply Hy. }
  unfold j_solve. destruct (Rle_dec _ h).
  - destruct (wls lstsq T N (ysafe Y) D (seen Y w)) as [c| |] eqn:Ew; [|easy|easy]. intros [= <- <-].
    destruct (wls_exact lstsq Hmn T N D (seen Y w) P _ _ mu a b tau Ew EY) as [_ F2]. split; [now apply F2|easy].
  - intros E. refine (low_exact T N (ysafe Y) D (seen Y w) h tol mu a b tau P Hid EY maxit zmat None co L _ _ E); easy.
Qed.
End Solve.

(* ------------------------------------------------------------------------------------------- *)
(* panels *)
Definition dpanel (T N : nat) (D : dmat) : Prop := forall t i, D t i = 0%Z \/ ((t < T)%nat /\ (i < N)%nat /\ D t i = 1%Z).
Lemma first_treat_before T N D t i : (t < first_treat T N D)%nat -> (t < T)%nat -> (i < N)%nat -> D t i <> 1%Z.
Proof.
  intros Ht HT Hi E. unfold first_treat in Ht.
  assert (G : In t (filter (fun t => existsb (fun i => (D t i =? 1)%Z) (seq 0 N)) (seq 0 T))).
  { apply filter_In. split; [apply in_seq; lia|]. apply existsb_exists. exists i. split; [apply in_seq; lia|]. now apply Z.eqb_eq. }
  assert (Sd : forall n a f, In t (filter f (seq a n)) -> (hd (a + n) (filter f (seq a n)) <= t)%nat).
  { clear. induction n as [|n IH]; intros a f H; [easy|]. cbn [seq filter] in *. destruct (f a) eqn:Ef.
    - cbn [hd]. destruct H as [->|H]; [lia|]. apply filter_In in H. destruct H as [H _]. apply in_seq in H. lia.
    - specialize (IH (S a) f H). replace (a + S n)%nat with (S a + n)%nat by lia. exact IH. }
  specialize (Sd T 0%nat _ G). cbn [Nat.add] in Sd. lia.
Qed.
Lemma first_treat_le T N D : (first_treat T N D <= T)%nat.
Proof.
  unfold first_treat. destruct (filter _ (seq 0 T)) as [|x l] eqn:E; cbn [hd]; [lia|]. assert (H : In x (x :: l)) by now left. rewrite <- E in H. apply filter_In in H. destruct H as [H _]. apply in_seq in H. lia.
Qed.
Lemma first_treat_hit T N D t i : (t < T)%nat -> (i < N)%nat -> D t i = 1%Z ->
  (first_treat T N D < T)%nat /\ exists k, (k < N)%nat /\ D (first_treat T N D) k = 1%Z.
Proof.
  intros Ht Hi E. unfold first_treat. assert (G : In t (filter (fun t => existsb (fun i => (D t i =? 1)%Z) (seq 0 N)) (seq 0 T))).
  { apply filter_In. split; [apply in_seq; lia|]. apply existsb_exists. exists i. split; [apply in_seq; lia|]. now apply Z.eqb_eq. }
  destruct (filter _ _) as [|x l] eqn:Ef; [easy|]. cbn [hd]. assert (H : In x (x :: l)) by now left. rewrite <- Ef in H. apply filter_In in H. destruct H as [H1 H2].
  apply in_seq in H1. split; [lia|]. apply existsb_exists in H2. destruct H2 as (k & Hk & H2). apply in_seq in Hk. exists k. split; [lia|]. now apply Z.eqb_eq.
Qed.
Lemma ever_true T D i : ever T D i = true <-> exists t, (t < T)%nat /\ D t i = 1%Z.
Proof.
  unfold ever. rewrite existsb_exists. split; intros (t & H1 & H2); exists t; [apply in_seq in H1; apply Z.eqb_eq in H2; split; [lia|easy]|split; [apply in_seq; lia|now apply Z.eqb_eq]].
Qed.
Lemma ever_false T D i : ever T D i = false <-> forall t, (t < T)%nat -> D t i <> 1%Z.
Proof.
  split.
  - intros H t Ht E. assert (X : ever T D i = true) by (apply ever_true; eauto). congruence.
  - intros H. destruct (ever T D i) eqn:E; [|easy]. apply ever_true in E. destruct E as (t & Ht & E). now destruct (H t Ht).
Qed.
Lemma dpanel_pre T N D t i : dpanel T N D -> (t < T - (T - first_treat T N D))%nat -> D t i = 0%Z.
Proof.
  intros Hd Ht. destruct (Hd t i) as [E|(H1 & H2 & E)]; [easy|]. exfalso. apply (first_treat_before T N D t i); [lia|easy|easy|easy].
Qed.
Lemma ident_block T N D w i j s t : (i < N)%nat -> (j < N)%nat -> (s < T)%nat -> (t < T)%nat -> D t i = 1%Z -> D t j = 0%Z -> D s i = 0%Z -> D s j = 0%Z ->
  0 < w s i -> 0 < w s j -> 0 < w t i -> 0 < w t j -> ident T N D w.
Proof. intros. exists i, j, s, t. repeat split; try easy. rewrite H3, H4, H5, H6. lra. Qed.
Lemma add_eff_eq Y D c t i : D t i = 0%Z \/ D t i = 1%Z ->
  add_effect Y D (fun _ _ => c) t i = match Y t i with Some r => Some (r + c * IZR (D t i)) | None => None end.
Proof.
  intros H. unfold add_effect. destruct (Y t i); [|easy]. f_equal.
  destruct H as [E|E]; rewrite E; [change (0 =? 1)%Z with false|change (1 =? 1)%Z with true]; cbn iota; ring.
Qed.

Section Fit.
Variable lstsq : lstsq_fn.
Variable svd : svd_fn.
Variable sub : nat -> nat -> list nat.
Variable sf : option Z -> fl -> fl.
Variable ppf : option Z -> R -> R.
Hypothesis Hmn : mn_ok lstsq.

(* the cross-validation score does not move *)
Lemma j_sum_shift T N Y D w h maxit tol c : (forall t i, 0 <= w t i) -> (forall t i, D t i = 0%Z \/ D t i = 1%Z) ->
  forall obs acc, (forall x, In x obs -> D (fst x) (snd x) = 0%Z /\ ident T N D (seen Y (skip w x))) ->
  j_sum lstsq svd T N (add_effect Y D (fun _ _ => c)) D w h maxit tol obs acc = j_sum lstsq svd T N Y D w h maxit tol obs acc.
Proof.
  intros Hw HD. induction obs as [|x r IH]; intros acc Ho; [easy|]. cbn [j_sum].
  destruct (Ho x (or_introl eq_refl)) as [Ex Ix].
  rewrite (solve_shift lstsq svd Hmn T N Y (add_effect Y D (fun _ _ => c)) D (skip w x) h maxit tol c).
  - destruct (j_solve lstsq svd T N Y D (skip w x) h maxit tol) as [[co L]| |]; [|easy|easy]. cbn [rshift]. rewrite IH by (intros z Hz; apply Ho; now right).
    f_equal. unfold j_pseudo, addtau. cbn [jmu ja jb]. now rewrite ysafe_add_ctl.
  - intros t i. unfold skip. destruct (_ && _); [lra|apply Hw].
  - exact Ix.
  - intros t i _. apply add_eff_eq, HD.
Qed.

Definition two_controls (T N : nat) (D : dmat) : Prop :=
  exists i j, (i < N)%nat /\ (j < N)%nat /\ i <> j /\ ever T D i = false /\ ever T D j = false.

Lemma full_block T N D Y w : complete T N Y -> dpanel T N D -> (forall t i, (t < T)%nat -> (i < N)%nat -> 0 < w t i) ->
  (2 <= first_treat T N D)%nat -> (exists t i, (t < T)%nat /\ (i < N)%nat /\ D t i = 1%Z) -> forall j, (j < N)%nat -> ever T D j = false ->
  ident T N D (seen Y w).
Proof.
  intros Hc Hd Hw Hf (t & i & Ht & Hi & E) j Hj Hej. assert (S : forall t i, (t < T)%nat -> (i < N)%nat -> 0 < seen Y w t i) by (intros; unfold seen; rewrite Hc by easy; auto).
  assert (F := first_treat_le T N D). assert (Z : forall t', D t' j = 0%Z).
  { intros t'. destruct (Hd t' j) as [Z|(A & B & Z)]; [easy|]. now destruct (proj1 (ever_false T D j) Hej t' A). }
  assert (Z0 : forall i', D 0%nat i' = 0%Z) by (intros i'; apply (dpanel_pre T N D); [easy|lia]).
  apply (ident_block T N D _ i j 0 t); try easy; try (apply S); try easy; try lia.
Qed.
Lemma skip_block T N D Y w x : complete T N Y -> dpanel T N D -> (forall t i, (t < T)%nat -> (i < N)%nat -> 0 < w t i) ->
  (2 <= first_treat T N D)%nat -> (exists t i, (t < T)%nat /\ (i < N)%nat /\ D t i = 1%Z) -> two_controls T N D -> D (fst x) (snd x) = 0%Z ->
  ident T N D (seen Y (skip w x)).
Proof.
  intros Hc Hd Hw Hf (t & i & Ht & Hi & E) (j1 & j2 & Hj1 & Hj2 & Hne & He1 & He2) Hx. destruct x as [t0 i0]. cbn [fst snd] in *.
  assert (F := first_treat_le T N D).
  assert (Pick : exists j, (j < N)%nat /\ ever T D j = false /\ j <> i0) by (destruct (Nat.eq_dec j1 i0); [exists j2; repeat split; [easy|easy|congruence]|exists j1; easy]).
  assert (Pick2 : exists s, (s < 2)%nat /\ s <> t0) by (destruct t0 as [|t0]; [exists 1%nat|exists 0%nat]; lia).
  destruct Pick as (j & Hj & He & Hji). destruct Pick2 as (s & Hs & Hst).
  assert (Z : forall t', D t' j = 0%Z).
  { intros t'. destruct (Hd t' j) as [Z|(A & B & Z)]; [easy|]. now destruct (proj1 (ever_false T D j) He t' A). }
  assert (Z0 : forall i', D s i' = 0%Z) by (intros i'; apply (dpanel_pre T N D); [easy|lia]).
  assert (S : forall t i, (t < T)%nat -> (i < N)%nat -> t <> t0 \/ i <> i0 -> 0 < seen Y (skip w (t0, i0)) t i).
  { intros t' i' Ht' Hi' Hor. unfold seen, skip. rewrite Hc by easy. cbn [fst snd]. destruct (t' =? t0)%nat eqn:E1; cbn [andb]; [|now apply Hw].
    destruct (i' =? i0)%nat eqn:E2; [|now apply Hw]. apply Nat.eqb_eq in E1, E2. lia. }
  apply (ident_block T N D _ i j s t); try easy; try lia; try (apply S; try easy; try lia).
  destruct (Nat.eq_dec t t0) as [->|]; [|now left]. right. intros ->. congruence.
Qed.

Lemma j_search_ext f g : (forall l, f l = g l) -> forall gr best, j_search f gr best = j_search g gr best.
Proof. intros H. induction gr as [|l r IH]; intros best; [easy|]. cbn [j_search]. rewrite H. destruct (g l) as [[s|]| |]; auto. Qed.

Lemma check_joint_ok T N D miss : check_joint T N D miss = TOk tt -> (2 <= first_treat T N D)%nat /\ (exists t i, (t < T)%nat /\ (i < N)%nat /\ D t i = 1%Z) /\
  (exists j, (j < N)%nat /\ ever T D j = false).
Proof.
  unfold check_joint, check_panel. destruct (negb _); [easy|]. destruct (length (treated_obs T N D) =? 0)%nat eqn:E1; [easy|].
  destruct (length (filter _ (seq 0 N)) =? 0)%nat eqn:E2; [easy|]. destruct (first_treat T N D <? 2)%nat eqn:E3; [easy|]. intros _.
  apply Nat.eqb_neq in E1, E2. apply Nat.ltb_ge in E3. split; [easy|]. split.
  - unfold treated_obs in E1. destruct (filter _ (cells T N)) as [|[t i] l] eqn:E; [easy|]. assert (H : In (t, i) ((t, i) :: l)) by now left. rewrite <- E in H. apply filter_In in H.
    destruct H as [H1 H2]. apply in_cells in H1. exists t, i. repeat split; try easy. now apply Z.eqb_eq.
  - destruct (filter _ (seq 0 N)) as [|j l] eqn:E; [easy|]. assert (H : In j (j :: l)) by now left. rewrite <- E in H. apply filter_In in H. destruct H as [H1 H2]. apply in_seq in H1. exists j.
    split; [lia|]. now apply negb_true_iff.
Qed.

Lemma j_collect_shift {A} (f g : A -> jout (jcoef * mat)) c l : (forall x, In x l -> g x = rshift c (f x)) ->
  j_collect g l = match j_collect f l with JOk v => JOk (map (fshift c) v) | e => e end.
Proof.
  induction l as [|x l IH]; intros H; [easy|]. cbn [j_collect]. rewrite (H x) by now left. specialize (IH (fun z Hz => H z (or_intror Hz))).
  destruct (f x) as [[co L]| |]; cbn [rshift]; [|easy|easy]. rewrite IH. destruct (j_collect f l); easy.
Qed.

Section Shift.
Variables (T N : nat) (Y : omat) (D : dmat) (c : R).
Hypothesis Hc : complete T N Y.
Hypothesis Hd : dpanel T N D.
Hypothesis Hf : (2 <= first_treat T N D)%nat.
Hypothesis Htr : exists t i, (t < T)%nat /\ (i < N)%nat /\ D t i = 1%Z.
Notation Y' := (add_effect Y D (fun _ _ => c)).
Notation p := (T - first_treat T N D)%nat.
Lemma bin t i : D t i = 0%Z \/ D t i = 1%Z. Proof. destruct (Hd t i) as [E|(_ & _ & E)]; auto. Qed.
Lemma pre_same t i : (t < T - p)%nat -> Y' t i = Y t i.
Proof. intros Ht. unfold add_effect. rewrite (dpanel_pre T N D t i Hd Ht). change (0 =? 1)%Z with false. cbn iota. now destruct (Y t i). Qed.

Lemma j_fixed_shift lt lu h maxit tol : (exists j, (j < N)%nat /\ ever T D j = false) ->
  j_fixed lstsq svd T N p Y' D lt lu h maxit tol = rshift c (j_fixed lstsq svd T N p Y D lt lu h maxit tol).
Proof.
  intros (j & Hj & Hej). unfold j_fixed. rewrite (j_weights_pre T N p Y Y' D lt lu pre_same). destruct (j_weights T N p Y D lt lu) as [w| |] eqn:Ew; [|easy|easy].
  apply (solve_shift lstsq svd Hmn).
  - intros t i. now apply (j_weights_nonneg T N p Y D lt lu).
  - apply (full_block T N D Y w Hc Hd (fun t i _ Hi => complete_pos T N p Y D lt lu w Hc Ew t i Hi) Hf Htr j Hj Hej).
  - intros t i _. apply add_eff_eq, bin.
Qed.
Lemma j_score_shift obs maxit tol lt lu h : two_controls T N D -> (forall x, In x obs -> D (fst x) (snd x) = 0%Z) ->
  j_score lstsq svd T N p Y' D obs maxit tol lt lu h = j_score lstsq svd T N p Y D obs maxit tol lt lu h.
Proof.
  intros H2 Ho. unfold j_score. rewrite (j_weights_pre T N p Y Y' D lt lu pre_same). destruct (j_weights T N p Y D lt lu) as [w| |] eqn:Ew; [|easy|easy].
  destruct obs as [|x r]; [easy|]. apply j_sum_shift.
  - intros t i. now apply (j_weights_nonneg T N p Y D lt lu).
  - apply bin.
  - intros z Hz. split; [now apply Ho|]. apply (skip_block T N D Y w z Hc Hd (fun t i _ Hi => complete_pos T N p Y D lt lu w Hc Ew t i Hi) Hf Htr H2). now apply Ho.
Qed.
Lemma j_tune_shift cfg : sub_ok sub -> two_controls T N D -> j_tune lstsq svd sub cfg T N p Y' D = j_tune lstsq svd sub cfg T N p Y D.
Proof.
  intros Hs H2. unfold j_tune. rewrite control_obs_add. rewrite (j_search_ext _ (fun l => j_score lstsq svd T N p Y D (loocv_obs sub (tc_maxs cfg) (control_obs T N Y D)) (tc_maxit cfg) (tc_tol cfg) (conv_w (fst (fst l))) (conv_w (snd (fst l))) (conv_nn (snd l)))); [easy|].
  intros l. apply j_score_shift; [easy|]. intros x Hx. apply loocv_obs_incl in Hx; [|easy]. unfold control_obs in Hx. apply filter_In in Hx. destruct Hx as [_ Hx].
  apply andb_prop in Hx. now apply Z.eqb_eq.
Qed.
(* replicates *)
Lemma jack1_shift lt lu h maxit tol k : (exists j, (j < N)%nat /\ ever T D j = false) -> ever T D k = true ->
  j_jack1 lstsq svd T N p Y' D lt lu h maxit tol k = rshift c (j_jack1 lstsq svd T N p Y D lt lu h maxit tol k).
Proof.
  intros (j & Hj & Hej) Hk. unfold j_jack1. rewrite (j_weights_pre T N p Y Y' (drop_d D k) lt lu pre_same).
  destruct (j_weights T N p Y (drop_d D k) lt lu) as [w| |] eqn:Ew; [|easy|easy].
  assert (Wn : forall t i, 0 <= w t i) by (intros; now apply (j_weights_nonneg T N p Y (drop_d D k) lt lu)).
  assert (Sz : forall t i, 0 <= skip_unit w k t i) by (intros; unfold skip_unit; destruct (_ =? _)%nat; [lra|apply Wn]).
  apply (solve_shift lstsq svd Hmn); [easy| |].
  - assert (W := complete_pos T N p Y (drop_d D k) lt lu w Hc Ew). apply j_weights_inv in Ew. destruct Ew as ((i & Hi & He) & _ & _).
    apply ever_true in He. destruct He as (t & Ht & E). unfold drop_d in E. destruct (i =? k)%nat eqn:Eik; [easy|]. apply Nat.eqb_neq in Eik.
    assert (Hjk : j <> k) by (intros ->; congruence).
    assert (S : forall t i, (t < T)%nat -> (i < N)%nat -> i <> k -> 0 < seen Y (skip_unit w k) t i).
    { intros t' i' Ht' Hi' Hne. unfold seen, skip_unit. rewrite Hc by easy. rewrite (proj2 (Nat.eqb_neq i' k) Hne). now apply W. }
    assert (F := first_treat_le T N D).
    assert (Z : forall t', D t' j = 0%Z).
    { intros t'. destruct (Hd t' j) as [Z|(A & B & Z)]; [easy|]. now destruct (proj1 (ever_false T D j) Hej t' A). }
    assert (Z0 : forall i', D 0%nat i' = 0%Z) by (intros i'; apply (dpanel_pre T N D); [easy|lia]).
    apply (ident_block T N (drop_d D k) _ i j 0 t); try easy; try lia; try (apply S; try easy; lia); unfold drop_d;
      rewrite ?(proj2 (Nat.eqb_neq i k) Eik), ?(proj2 (Nat.eqb_neq j k) Hjk); auto.
  - intros t i Hz. unfold skip_unit in Hz. destruct (i =? k)%nat eqn:E; [easy|]. unfold drop_d. rewrite E. apply add_eff_eq, bin.
Qed.
Lemma boot1_shift lt lu h maxit tol cols : (forall x, In x cols -> (x < N)%nat) -> (exists j, In j cols /\ ever T D j = false) ->
  j_fixed lstsq svd T (length cols) p (sel_o Y' cols) (sel_d D cols) lt lu h maxit tol = rshift c (j_fixed lstsq svd T (length cols) p (sel_o Y cols) (sel_d D cols) lt lu h maxit tol).
Proof.
  intros Hcols (j & Hj & Hej). unfold j_fixed.
  assert (Wp : forall t i, (t < T - p)%nat -> sel_o Y' cols t i = sel_o Y cols t i) by (intros; unfold sel_o; now apply pre_same).
  rewrite (j_weights_pre T (length cols) p (sel_o Y cols) (sel_o Y' cols) (sel_d D cols) lt lu Wp).
  destruct (j_weights T (length cols) p (sel_o Y cols) (sel_d D cols) lt lu) as [w| |] eqn:Ew; [|easy|easy].
  assert (Cc : complete T (length cols) (sel_o Y cols)).
  { intros t i Ht Hi. unfold sel_o, has. apply (Hc t (nth i cols 0%nat) Ht). apply Hcols, nth_In, Hi. }
  apply (solve_shift lstsq svd Hmn).
  - intros t i. now apply (j_weights_nonneg T (length cols) p (sel_o Y cols) (sel_d D cols) lt lu).
  - assert (W := complete_pos T (length cols) p (sel_o Y cols) (sel_d D cols) lt lu w Cc Ew). apply j_weights_inv in Ew. destruct Ew as ((i & Hi & He) & _ & _).
    apply ever_true in He. destruct He as (t & Ht & E).
    apply (In_nth cols j 0%nat) in Hj. destruct Hj as (jj & Hjj & Ej).
    assert (S : forall t i, (t < T)%nat -> (i < length cols)%nat -> 0 < seen (sel_o Y cols) w t i).
    { intros t' i' Ht' Hi'. unfold seen. rewrite Cc by easy. now apply W. }
    assert (F := first_treat_le T N D).
    assert (Z : forall t', sel_d D cols t' jj = 0%Z).
    { intros t'. unfold sel_d. rewrite Ej. destruct (Hd t' j) as [Z|(A & B & Z)]; [easy|]. now destruct (proj1 (ever_false T D j) Hej t' A). }
    assert (Z0 : forall i', sel_d D cols 0%nat i' = 0%Z) by (intros i'; unfold sel_d; apply (dpanel_pre T N D); [easy|lia]).
    apply (ident_block T (length cols) (sel_d D cols) _ i jj 0 t); try easy; try lia; try (apply S; try easy; lia); auto.
  - intros t i _. unfold sel_o, sel_d. apply add_eff_eq, bin.
Qed.
End Shift.

(* Adding c to every treated outcome moves the ATT, every reported effect and every replicate by c; the penalties,
   the cross-validation score and the standard error stay. *)
Theorem joint_shift cfg T N Y D miss name draws c att se inf effs l score reps :
  sub_ok sub -> complete T N Y -> dpanel T N D -> two_controls T N D ->
  (forall smp, In smp draws -> (forall x, In x smp -> (x < N)%nat) /\ exists j, In j smp /\ ever T D j = false) ->
  joint_fit lstsq svd sub sf ppf cfg T N Y D miss name draws = FOk att se inf effs l score reps ->
  joint_fit lstsq svd sub sf ppf cfg T N (add_effect Y D (fun _ _ => c)) D miss name draws =
    FOk (att + c) se (trop_inf sf ppf (Fin (att + c)) se (length (treated_obs T N D)) (tc_alpha cfg))
        (map (fun x => (fst x, snd x + c)) effs) l score (map (fshift c) reps).
Proof.
  intros Hs Hc Hd H2 Hdr. unfold joint_fit. destruct (check_joint T N D miss) as [[]|] eqn:Ek; [|easy].
  apply check_joint_ok in Ek. destruct Ek as (Hf & Htr & Hct).
  rewrite (j_tune_shift T N Y D c Hc Hd Hf Htr cfg Hs H2). destruct (j_tune lstsq svd sub cfg T N (T - first_treat T N D) Y D) as [[l0 sc]| |]; [|easy|easy].
  destruct l0 as [[lt lu] ln]. rewrite (j_fixed_shift T N Y D c Hc Hd Hf Htr) by easy.
  destruct (j_fixed lstsq svd T N (T - first_treat T N D) Y D (conv_w lt) (conv_w lu) (conv_nn ln) (tc_maxit cfg) (tc_tol cfg)) as [[co L]| |]; cbn [rshift]; [|easy|easy].
  assert (E : (if tc_boot cfg
       then j_boot lstsq svd T (T - first_treat T N D) (add_effect Y D (fun _ _ => c)) D (conv_w lt) (conv_w lu) (conv_nn ln) (tc_maxit cfg) (tc_tol cfg) name draws
       else j_jack lstsq svd T N (T - first_treat T N D) (add_effect Y D (fun _ _ => c)) D (conv_w lt) (conv_w lu) (conv_nn ln) (tc_maxit cfg) (tc_tol cfg)) =
    match (if tc_boot cfg
       then j_boot lstsq svd T (T - first_treat T N D) Y D (conv_w lt) (conv_w lu) (conv_nn ln) (tc_maxit cfg) (tc_tol cfg) name draws
       else j_jack lstsq svd T N (T - first_treat T N D) Y D (conv_w lt) (conv_w lu) (conv_nn ln) (tc_maxit cfg) (tc_tol cfg)) with JOk v => JOk (map (fshift c) v) | e => e end).
  { destruct (tc_boot cfg).
    - unfold j_boot. apply j_collect_shift. intros smp Hsmp. destruct (Hdr smp Hsmp) as [H3 (j & Hj & Hej)].
      assert (Pm := boot_cols_perm name smp). apply (boot1_shift T N Y D c Hc Hd Hf).
      + intros x Hx. apply H3. eapply Permutation_in; eassumption.
      + exists j. split; [|easy]. eapply Permutation_in; [symmetry; exact Pm|easy].
    - unfold j_jack. apply j_collect_shift. intros k Hk. apply filter_In in Hk. now apply (jack1_shift T N Y D c Hc Hd Hf). }
  rewrite E. match type of E with _ = match ?x with _ => _ end => destruct x as [r| |]; [|easy|easy] end.
  intros [= <- <- <- <- <- <- <-]. cbn [addtau jtau]. rewrite map_map. cbn [fst snd].
  f_equal; destruct (tc_boot cfg); rewrite ?boot_se_shift, ?jack_se_shift; reflexivity.
Qed.

(* Untreated outcomes a_i + b_t, constant effect, any missing cells: the estimate is the effect, whatever the
   penalties selected, as soon as one 2 x 2 block of cells is observed. *)
Theorem joint_recovers cfg T N Y D miss name draws a b tau att se inf effs l score reps i j s t :
  svd_ok svd -> joint_fit lstsq svd sub sf ppf cfg T N Y D miss name draws = FOk att se inf effs l score reps ->
  (forall t i r, (t < T)%nat -> (i < N)%nat -> Y t i = Some r -> r = a i + b t + tau * IZR (D t i)) ->
  (i < N)%nat -> (j < N)%nat -> (s < first_treat T N D)%nat -> (t < T)%nat -> D t i = 1%Z -> D t j = 0%Z -> D s i = 0%Z -> D s j = 0%Z ->
  has Y s i = true -> has Y s j = true -> has Y t i = true -> has Y t j = true ->
  att = tau /\ forall x, In x effs -> snd x = tau.
Proof.
  intros Hsvd HF HY Hi Hj Hs Ht D1 D2 D3 D4 Y1 Y2 Y3 Y4. unfold joint_fit in HF. destruct (check_joint T N D miss) as [[]|]; [|easy].
  destruct (j_tune _ _ _ _ _ _ _ _ _) as [[[[lt lu] ln] sc]| |]; [|easy|easy]. unfold j_fixed in HF.
  set (p := (T - first_treat T N D)%nat) in *. assert (F := first_treat_le T N D).
  destruct (j_weights T N p Y D (conv_w lt) (conv_w lu)) as [w| |] eqn:Ew; [|easy|easy].
  destruct (j_solve lstsq svd T N Y D w (conv_nn ln) (tc_maxit cfg) (tc_tol cfg)) as [[co L]| |] eqn:Es; [|easy|easy].
  assert (He : ever T D i = true) by (apply ever_true; eauto).
  assert (Wn : forall t i, 0 <= w t i) by (intros; now apply (j_weights_nonneg T N p Y D (conv_w lt) (conv_w lu))).
  assert (Wi : forall t', 0 < w t' i) by (intros; apply (j_weights_pos T N p Y D (conv_w lt) (conv_w lu) w t' i s i Ew); try easy; unfold p; lia).
  assert (Wj : forall t', 0 < w t' j) by (intros; apply (j_weights_pos T N p Y D (conv_w lt) (conv_w lu) w t' j s i Ew); try easy; unfold p; lia).
  assert (Hid : ident T N D (seen Y w)).
  { apply (ident_block T N D _ i j s t); try easy; try lia; unfold seen; rewrite ?Y1, ?Y2, ?Y3, ?Y4; auto. }
  destruct (solve_exact lstsq svd Hmn Hsvd T N Y D w (conv_nn ln) (tc_maxit cfg) (tc_tol cfg) 0 a b tau co L Wn Hid) as [Et _]; [|exact Es|].
  { intros t' i' r Ht' Hi' E. rewrite (HY t' i' r Ht' Hi' E). ring. }
  destruct (if tc_boot cfg then j_boot _ _ _ _ _ _ _ _ _ _ _ _ _ else _) as [r| |] in HF; [|easy|easy].
  injection HF as <- _ _ <- _ _ _. split; [easy|]. intros x Hx. apply in_map_iff in Hx. destruct Hx as (z & <- & _). exact Et.
Qed.
End Fit.

(* Least squares, projection and sandwich facts used by every regression-based estimator. *)
From Verif Require Import Prelude Flt Linalg_model.
From Coq Require Import Arith ZArith String List.
Import ListNotations.
Open Scope R_scope.

(* vectors *)
Fixpoint vadd (a b : list R) : list R :=
  match a, b with x :: xs, y :: ys => (x + y) :: vadd xs ys | _, _ => [] end.
Definition vscal (t : R) (a : list R) : list R := map (Rmult t) a.

Lemma vadd_length a b n : length a = n -> length b = n -> length (vadd a b) = n.
Proof.
  revert b n; induction a as [|x a IH]; intros [|y b] n Ha Hb; simpl in *; subst; try discriminate; try reflexivity.
  f_equal; apply IH; lia.
Qed.
Lemma vscal_length t a : length (vscal t a) = length a.
Proof. unfold vscal; apply map_length. Qed.

Section LS.
Context {I : Type}.
Implicit Types (rows : list I) (cols : list (I -> R)) (f g y : I -> R) (b : list R).

Lemma lc_vadd cols a b i :
  length a = length cols -> length b = length cols ->
  lc cols (vadd a b) i = lc cols a i + lc cols b i.
Proof.
  revert a b; induction cols as [|c cs IH]; intros [|x a] [|z b] Ha Hb; simpl in *; try lra; try discriminate.
  rewrite IH by lia. lra.
Qed.

Lemma lc_vscal cols t a i : lc cols (vscal t a) i = t * lc cols a i.
Proof.
  revert a; induction cols as [|c cs IH]; intros [|x a]; simpl; try lra.
  fold (vscal t a). rewrite IH. lra.
Qed.

Lemma lc_repeat0 cols i n : lc cols (repeat 0 n) i = 0.
Proof. revert n; induction cols as [|c cs IH]; intros [|n]; simpl; try lra. rewrite IH; lra. Qed.

Lemma lc_app cols1 cols2 b1 b2 i :
  length b1 = length cols1 -> lc (cols1 ++ cols2) (b1 ++ b2) i = lc cols1 b1 i + lc cols2 b2 i.
Proof.
  revert b1; induction cols1 as [|c cs IH]; intros [|x b1] H; simpl in *; try lra; try discriminate.
  rewrite IH by lia. lra.
Qed.

(* index form of X @ b *)
Lemma lc_index cols b i :
  length b = length cols ->
  lc cols b i = sumf (fun j => nth j b 0 * colx cols j i) (seq 0 (length cols)).
Proof.
  revert b; induction cols as [|c cs IH]; intros [|x b] H; simpl in *; try discriminate; auto.
  rewrite IH by lia. f_equal.
  rewrite <- seq_shift, sumf_map. apply sumf_ext_all; reflexivity.
Qed.

(* ---- inner product ---- *)
Lemma ip_ext rows f f' g g' :
  (forall i, In i rows -> f i = f' i) -> (forall i, In i rows -> g i = g' i) ->
  ip rows f g = ip rows f' g'.
Proof. intros Hf Hg. apply sumf_ext; intros i Hi. rewrite Hf, Hg by auto; reflexivity. Qed.

Lemma ip_sym rows f g : ip rows f g = ip rows g f.
Proof. apply sumf_ext_all; intros; ring. Qed.
Lemma ip_add_r rows f g h : ip rows f (fun i => g i + h i) = ip rows f g + ip rows f h.
Proof. unfold ip; rewrite <- sumf_add; apply sumf_ext_all; intros; ring. Qed.
Lemma ip_sub_r rows f g h : ip rows f (fun i => g i - h i) = ip rows f g - ip rows f h.
Proof. unfold ip; rewrite <- sumf_sub; apply sumf_ext_all; intros; ring. Qed.
Lemma ip_scal_r rows f t g : ip rows f (fun i => t * g i) = t * ip rows f g.
Proof. unfold ip; rewrite <- sumf_scal; apply sumf_ext_all; intros; ring. Qed.
Lemma ip_add_l rows f g h : ip rows (fun i => g i + h i) f = ip rows g f + ip rows h f.
Proof. unfold ip; rewrite <- sumf_add; apply sumf_ext_all; intros; ring. Qed.
Lemma ip_sub_l rows f g h : ip rows (fun i => g i - h i) f = ip rows g f - ip rows h f.
Proof. unfold ip; rewrite <- sumf_sub; apply sumf_ext_all; intros; ring. Qed.
Lemma ip_scal_l rows f t g : ip rows (fun i => t * g i) f = t * ip rows g f.
Proof. unfold ip; rewrite <- sumf_scal; apply sumf_ext_all; intros; ring. Qed.
Lemma ip_pos rows f : 0 <= ip rows f f.
Proof. apply sumf_nonneg; intros; nra. Qed.
Lemma ip_def rows f : ip rows f f = 0 -> forall i, In i rows -> f i = 0.
Proof.
  intros H i Hi. assert (f i * f i = 0) as H1.
  { apply (sumf_nonneg_0 (fun i => f i * f i) rows); auto. intros; nra. }
  nra.
Qed.
Lemma ip_zero_l rows f g : (forall i, In i rows -> f i = 0) -> ip rows f g = 0.
Proof. intros H; apply sumf_zero; intros i Hi; rewrite H by auto; ring. Qed.
Lemma ip_perm r1 r2 f g : Permutation r1 r2 -> ip r1 f g = ip r2 f g.
Proof. intros H; apply sumf_perm; auto. Qed.

(* a vector orthogonal to every column is orthogonal to every combination *)
Lemma orth_lc rows cols b f :
  Forall (fun c => ip rows c f = 0) cols -> ip rows (lc cols b) f = 0.
Proof.
  revert b; induction cols as [|c cs IH]; intros b H.
  - apply ip_zero_l; intros; destruct b; reflexivity.
  - inversion H; subst. destruct b as [|x b].
    + apply ip_zero_l; reflexivity.
    + replace (ip rows (lc (c :: cs) (x :: b)) f)
        with (ip rows (fun i => x * c i + lc cs b i) f) by (apply ip_ext; reflexivity).
      rewrite ip_add_l, ip_scal_l, IH, H2 by auto. ring.
Qed.

Definition span rows cols f : Prop :=
  exists a, length a = length cols /\ forall i, In i rows -> f i = lc cols a i.

Definition indep rows cols : Prop :=
  forall a, length a = length cols -> (forall i, In i rows -> lc cols a i = 0) ->
            a = repeat 0 (length cols).

Lemma orth_span rows cols f g :
  Forall (fun c => ip rows c f = 0) cols -> span rows cols g -> ip rows g f = 0.
Proof.
  intros H (a & La & Ha). rewrite (ip_ext rows g (lc cols a) f f) by auto.
  apply orth_lc; auto.
Qed.

Lemma span_in rows cols c : In c cols -> span rows cols c.
Proof.
  induction cols as [|c' cs IH]; [contradiction|].
  intros [<-|H].
  - exists (1 :: repeat 0 (length cs)). split; [simpl; rewrite repeat_length; reflexivity|].
    intros i _; simpl. rewrite lc_repeat0. lra.
  - destruct (IH H) as (a & La & Ha). exists (0 :: a). split; [simpl; lia|].
    intros i Hi; simpl. rewrite Ha by auto. lra.
Qed.

Lemma span_lc rows cols b : length b = length cols -> span rows cols (lc cols b).
Proof. intros H; exists b; auto. Qed.

Lemma span_add rows cols f g : span rows cols f -> span rows cols g -> span rows cols (fun i => f i + g i).
Proof.
  intros (a & La & Ha) (b & Lb & Hb). exists (vadd a b). split; [apply vadd_length; auto|].
  intros i Hi. rewrite lc_vadd, Ha, Hb by auto. reflexivity.
Qed.
Lemma span_scal rows cols t f : span rows cols f -> span rows cols (fun i => t * f i).
Proof.
  intros (a & La & Ha). exists (vscal t a). split; [rewrite vscal_length; auto|].
  intros i Hi. rewrite lc_vscal, Ha by auto. reflexivity.
Qed.
Lemma span_ext rows cols f g : (forall i, In i rows -> f i = g i) -> span rows cols f -> span rows cols g.
Proof. intros H (a & La & Ha). exists a; split; auto. intros i Hi; rewrite <- H; auto. Qed.
Lemma span_zero rows cols : span rows cols (fun _ => 0).
Proof. exists (repeat 0 (length cols)). split; [apply repeat_length|]. intros; rewrite lc_repeat0; auto. Qed.
Lemma span_sub rows cols f g : span rows cols f -> span rows cols g -> span rows cols (fun i => f i - g i).
Proof.
  intros Hf Hg. eapply span_ext; [|apply span_add; [exact Hf|apply (span_scal _ _ (-1)); exact Hg]].
  intros; simpl; ring.
Qed.

Lemma span_trans rows cols cols' f :
  (forall c, In c cols -> span rows cols' c) -> span rows cols f -> span rows cols' f.
Proof.
  intros H (a & La & Ha).
  assert (Hl : forall cs b, (forall c, In c cs -> span rows cols' c) -> length b = length cs -> span rows cols' (lc cs b)).
  { induction cs as [|c cs IH]; intros [|x b] Hc Hb; simpl in *; try discriminate.
    - apply span_zero.
    - apply (span_add _ _ (fun i => x * c i) (lc cs b)); [apply span_scal; auto|]. apply IH; auto; lia. }
  eapply span_ext; [|apply (Hl cols a); auto]. intros i Hi; symmetry; auto.
Qed.

(* ---- fitted values are unique ---- *)
Theorem ls_fitted_unique rows cols y b b' :
  is_ls rows cols y b -> is_ls rows cols y b' ->
  forall i, In i rows -> lc cols b i = lc cols b' i.
Proof.
  intros [Lb Hb] [Lb' Hb'] i Hi.
  set (d := fun i => lc cols b i - lc cols b' i).
  assert (Hd : Forall (fun c => ip rows c d = 0) cols).
  { rewrite Forall_forall in *. intros c Hc. specialize (Hb c Hc). specialize (Hb' c Hc).
    unfold d. rewrite ip_sub_r in *. lra. }
  assert (H0 : ip rows d d = 0).
  { apply (orth_span rows cols); auto. apply span_sub; apply span_lc; auto. }
  pose proof (ip_def _ _ H0 i Hi) as H1. unfold d in H1. lra.
Qed.

(* same as above when the second design has the same column space *)
Theorem ls_fitted_unique_span rows cols cols' y b b' :
  is_ls rows cols y b -> is_ls rows cols' y b' ->
  (forall c, In c cols -> span rows cols' c) -> (forall c, In c cols' -> span rows cols c) ->
  forall i, In i rows -> lc cols b i = lc cols' b' i.
Proof.
  intros [Lb Hb] [Lb' Hb'] S1 S2 i Hi.
  set (d := fun i => lc cols b i - lc cols' b' i).
  assert (Hd : Forall (fun c => ip rows c d = 0) cols).
  { rewrite Forall_forall in *. intros c Hc. specialize (Hb c Hc).
    assert (Hc' : ip rows c (fun i => y i - lc cols' b' i) = 0).
    { apply (orth_span rows cols'); auto. apply Forall_forall; auto. }
    unfold d. rewrite ip_sub_r in *. lra. }
  assert (H0 : ip rows d d = 0).
  { apply (orth_span rows cols); auto. apply span_sub; [apply span_lc; auto|].
    apply (span_trans rows cols' cols); auto. apply span_lc; auto. }
  pose proof (ip_def _ _ H0 i Hi) as H1. unfold d in H1. lra.
Qed.

Lemma list_sub_zero (a b : list R) n :
  length a = n -> length b = n -> vadd a (vscal (-1) b) = repeat 0 n -> a = b.
Proof.
  revert b n; induction a as [|x a IH]; intros [|z b] n La Lb H; simpl in *; subst; auto; try discriminate.
  simpl in H. injection H as H1 H2. f_equal; [lra|]. apply (IH b (length a)); auto; lia.
Qed.

Theorem ls_coef_unique rows cols y b b' :
  indep rows cols -> is_ls rows cols y b -> is_ls rows cols y b' -> b = b'.
Proof.
  intros Hi H H'. pose proof (ls_fitted_unique _ _ _ _ _ H H') as Hf.
  destruct H as [L _], H' as [L' _].
  apply (list_sub_zero b b' (length cols)); auto.
  apply Hi.
  - apply vadd_length; auto. rewrite vscal_length; auto.
  - intros i Hin. rewrite lc_vadd, lc_vscal; auto; [|rewrite vscal_length; auto].
    rewrite (Hf i Hin). lra.
Qed.

(* exact fit is least squares *)
Lemma ls_exact rows cols y b :
  length b = length cols -> (forall i, In i rows -> y i = lc cols b i) -> is_ls rows cols y b.
Proof.
  intros L H; split; auto. apply Forall_forall; intros c Hc.
  rewrite ip_sym. apply ip_zero_l. intros i Hi. rewrite H by auto; lra.
Qed.

Lemma ls_ext rows cols y y' b :
  (forall i, In i rows -> y i = y' i) -> is_ls rows cols y b -> is_ls rows cols y' b.
Proof.
  intros H [L F]; split; auto. rewrite Forall_forall in *. intros c Hc.
  etransitivity; [|exact (F c Hc)]. apply ip_ext; auto. intros i Hi; rewrite H; auto.
Qed.

(* ---- linearity in y ---- *)
Lemma ls_add rows cols y y' b b' :
  is_ls rows cols y b -> is_ls rows cols y' b' -> is_ls rows cols (fun i => y i + y' i) (vadd b b').
Proof.
  intros [L F] [L' F']; split; [apply vadd_length; auto|].
  rewrite Forall_forall in *. intros c Hc. specialize (F c Hc); specialize (F' c Hc).
  rewrite (ip_ext rows c c _ (fun i => (y i - lc cols b i) + (y' i - lc cols b' i))); auto.
  - rewrite ip_add_r; lra.
  - intros; rewrite lc_vadd by auto; ring.
Qed.
Lemma ls_scal rows cols t y b : is_ls rows cols y b -> is_ls rows cols (fun i => t * y i) (vscal t b).
Proof.
  intros [L F]; split; [rewrite vscal_length; auto|].
  rewrite Forall_forall in *. intros c Hc. specialize (F c Hc).
  rewrite (ip_ext rows c c _ (fun i => t * (y i - lc cols b i))); auto.
  - rewrite ip_scal_r, F; ring.
  - intros; rewrite lc_vscal; ring.
Qed.
Lemma ls_perm r1 r2 cols y b : Permutation r1 r2 -> is_ls r1 cols y b -> is_ls r2 cols y b.
Proof.
  intros P [L F]; split; auto. rewrite Forall_forall in *. intros c Hc.
  etransitivity; [|exact (F c Hc)]. apply ip_perm. apply Permutation_sym; auto.
Qed.
Lemma indep_perm r1 r2 cols : Permutation r1 r2 -> indep r1 cols -> indep r2 cols.
Proof.
  intros P H a La Ha. apply H; auto. intros i Hi. apply Ha. eapply Permutation_in; eauto.
Qed.
Lemma span_perm r1 r2 cols f : Permutation r1 r2 -> span r1 cols f -> span r2 cols f.
Proof.
  intros P (a & La & Ha); exists a; split; auto. intros i Hi; apply Ha.
  eapply Permutation_in; [apply Permutation_sym; eauto|auto].
Qed.

(* ---- least squares is the minimiser ---- *)
Theorem ls_minimises rows cols y b b' :
  is_ls rows cols y b -> length b' = length cols ->
  ip rows (fun i => y i - lc cols b i) (fun i => y i - lc cols b i)
  <= ip rows (fun i => y i - lc cols b' i) (fun i => y i - lc cols b' i).
Proof.
  intros [L F] L'. set (e := fun i => y i - lc cols b i). set (d := fun i => lc cols b i - lc cols b' i).
  assert (Hde : ip rows d e = 0).
  { apply (orth_span rows cols); auto. apply span_sub; apply span_lc; auto. }
  rewrite (ip_ext rows (fun i => y i - lc cols b' i) (fun i => e i + d i) (fun i => y i - lc cols b' i) (fun i => e i + d i))
    by (intros; unfold e, d; ring).
  rewrite ip_add_l, !ip_add_r, (ip_sym rows e d), Hde.
  pose proof (ip_pos rows d). lra.
Qed.

(* ---- existence: Gram-Schmidt.  A concrete solver, used to show that the oracle's
   specification is satisfiable. ---- *)
Fixpoint gs rows cols y : list R :=
  match cols with
  | [] => []
  | c :: cs =>
      let a := gs rows cs c in
      let r := fun i => c i - lc cs a i in
      if Req_EM_T (ip rows r r) 0 then 0 :: gs rows cs y
      else let t := ip rows r y / ip rows r r in
           t :: vadd (gs rows cs y) (vscal (- t) a)
  end.

Theorem gs_is_ls rows cols y : is_ls rows cols y (gs rows cols y).
Proof.
  revert y; induction cols as [|c cs IH]; intros y.
  - split; [reflexivity|constructor].
  - simpl. destruct (IH c) as [La Fa]. destruct (IH y) as [Lb Fb].
    set (a := gs rows cs c) in *. set (b := gs rows cs y) in *.
    set (r := fun i => c i - lc cs a i) in *.
    set (e := fun i => y i - lc cs b i) in *.
    assert (Hc : ip rows c e = ip rows r e).
    { replace (ip rows c e) with (ip rows (fun i => r i + lc cs a i) e)
        by (apply ip_ext; intros; unfold r; ring).
      rewrite ip_add_l, (orth_lc rows cs a e) by auto; ring. }
    destruct (Req_EM_T (ip rows r r) 0) as [Hr|Hr].
    + pose proof (ip_def _ _ Hr) as Hr0. split; [simpl; lia|].
      constructor.
      * rewrite (ip_ext rows c c _ e) by (auto; intros; unfold e; simpl; lra).
        rewrite Hc. apply ip_zero_l; auto.
      * rewrite Forall_forall in *. intros c' Hc'. etransitivity; [|exact (Fb c' Hc')].
        apply ip_ext; auto. intros; unfold e; simpl; lra.
    + set (t := ip rows r y / ip rows r r).
      assert (Lv : length (vadd b (vscal (- t) a)) = length cs)
        by (apply vadd_length; auto; rewrite vscal_length; auto).
      split; [simpl; lia|].
      assert (He : forall i, y i - lc (c :: cs) (t :: vadd b (vscal (- t) a)) i = e i - t * r i).
      { intros i. simpl. rewrite lc_vadd, lc_vscal; auto; [|rewrite vscal_length; auto].
        unfold e, r. ring. }
      assert (Hre : ip rows r e = ip rows r y).
      { unfold e. rewrite ip_sub_r. rewrite (ip_sym rows r (lc cs b)).
        rewrite (orth_lc rows cs b r) by auto; ring. }
      constructor.
      * rewrite (ip_ext rows c c _ (fun i => e i - t * r i)) by auto.
        rewrite ip_sub_r, ip_scal_r, Hc, Hre.
        replace (ip rows c r) with (ip rows r r).
        -- unfold t; field; auto.
        -- replace (ip rows c r) with (ip rows (fun i => r i + lc cs a i) r)
             by (apply ip_ext; intros; unfold r; ring).
           rewrite ip_add_l, (orth_lc rows cs a r) by auto; ring.
      * rewrite Forall_forall in *. intros c' Hc'.
        rewrite (ip_ext rows c' c' _ (fun i => e i - t * r i)) by auto.
        rewrite ip_sub_r, ip_scal_r, (Fb c' Hc'), (Fa c' Hc'). ring.
Qed.

End LS.

(* ---- small matrices as functions with explicit size ---- *)
Section Mat.
Variable k : nat.
Implicit Types (A B C : nat -> nat -> R).
Definition mmul A B (i j : nat) : R := sumf (fun l => A i l * B l j) (seq 0 k).
Definition meq A B : Prop := forall i j, (i < k)%nat -> (j < k)%nat -> A i j = B i j.
Definition mid (i j : nat) : R := if Nat.eqb i j then 1 else 0.
Definition mtr A (i j : nat) : R := A j i.

Lemma in_seq0 i : In i (seq 0 k) <-> (i < k)%nat.
Proof. rewrite in_seq; lia. Qed.

Lemma mid_sum_l (f : nat -> R) i : (i < k)%nat -> sumf (fun l => mid i l * f l) (seq 0 k) = f i.
Proof.
  intros Hi. rewrite (sumf_ext _ (fun l => ind (keqb Nat.eq_dec i l) * f i)).
  - apply sumf_ind_key; [apply seq_NoDup|apply in_seq0; auto].
  - intros l _. unfold mid, keqb. destruct (Nat.eq_dec i l) as [->|Hn].
    + rewrite Nat.eqb_refl; reflexivity.
    + apply Nat.eqb_neq in Hn; rewrite Hn. simpl; ring.
Qed.
Lemma mid_sum_r (f : nat -> R) i : (i < k)%nat -> sumf (fun l => f l * mid l i) (seq 0 k) = f i.
Proof.
  intros Hi. rewrite <- (mid_sum_l f i Hi). apply sumf_ext_all. intros l.
  unfold mid. rewrite Nat.eqb_sym. ring.
Qed.

Lemma mmul_assoc A B C : forall i j, mmul (mmul A B) C i j = mmul A (mmul B C) i j.
Proof.
  intros i j. unfold mmul.
  rewrite (sumf_ext_all _ (fun l => sumf (fun m => A i m * B m l * C l j) (seq 0 k)))
    by (intros; rewrite sumf_scal_r; reflexivity).
  rewrite sumf_swap. apply sumf_ext_all; intros m.
  rewrite <- sumf_scal. apply sumf_ext_all; intros; ring.
Qed.

(* a right inverse of a symmetric matrix is symmetric, and is a left inverse *)
Lemma inverse_symmetric G B :
  meq (mtr G) G -> meq (mmul G B) mid -> meq (mtr B) B.
Proof.
  intros Gs Hr i j Hi Hj.
  (* B^T G = I *)
  assert (Hl : meq (mmul (mtr B) G) mid).
  { intros a c Ha Hc. unfold mmul, mtr.
    rewrite (sumf_ext _ (fun l => G c l * B l a)).
    - pose proof (Hr c a Hc Ha) as H. unfold mmul in H. rewrite H. unfold mid. rewrite Nat.eqb_sym; reflexivity.
    - intros l Hl. apply in_seq0 in Hl. rewrite <- (Gs c l) by auto. unfold mtr; ring. }
  transitivity (mmul (mmul (mtr B) G) B i j).
  - rewrite mmul_assoc. unfold mmul at 1.
    rewrite (sumf_ext _ (fun l => mtr B i l * mid l j)).
    + rewrite mid_sum_r by auto. reflexivity.
    + intros l Hl0. apply in_seq0 in Hl0. rewrite (Hr l j) by auto. reflexivity.
  - unfold mmul at 1.
    rewrite (sumf_ext _ (fun l => mid i l * B l j)).
    + rewrite mid_sum_l by auto. reflexivity.
    + intros l Hl0. apply in_seq0 in Hl0. rewrite (Hl i l) by auto. reflexivity.
Qed.

Lemma inverse_left G B : meq (mtr G) G -> meq (mmul G B) mid -> meq (mmul B G) mid.
Proof.
  intros Gs Hr. pose proof (inverse_symmetric G B Gs Hr) as Bs.
  intros a c Ha Hc. unfold mmul.
  rewrite (sumf_ext _ (fun l => G c l * B l a)).
  - pose proof (Hr c a Hc Ha) as H. unfold mmul in H. rewrite H. unfold mid. rewrite Nat.eqb_sym; reflexivity.
  - intros l Hl. apply in_seq0 in Hl. rewrite <- (Gs c l), <- (Bs l a) by auto. unfold mtr; ring.
Qed.
End Mat.

Section Inverse.
Context {I : Type}.
Implicit Types (rows : list I) (cols : list (I -> R)) (f g y : I -> R).

Definition gram rows cols (a b : nat) : R := ip rows (colx cols a) (colx cols b).

Lemma gram_sym rows cols k : meq k (mtr (gram rows cols)) (gram rows cols).
Proof. intros i j _ _. apply ip_sym. Qed.

Lemma is_inverse_meq rows cols B :
  is_inverse rows cols B <-> meq (length cols) (mmul (length cols) (gram rows cols) B) mid.
Proof. unfold is_inverse, meq, mmul, gram, mid. split; intros H i j; apply H. Qed.

Lemma is_inverse_sym rows cols B :
  is_inverse rows cols B -> forall a b, (a < length cols)%nat -> (b < length cols)%nat -> B a b = B b a.
Proof.
  intros H0 a b Ha Hb. pose proof (proj1 (is_inverse_meq _ _ _) H0) as H.
  symmetry. apply (inverse_symmetric (length cols) _ _ (gram_sym rows cols _) H a b Ha Hb).
Qed.

(* q_j(i) = sum_a B_ja x_a(i): row j of (X'X)^-1 X' *)
Definition qcol (cols : list (I -> R)) (B : nat -> nat -> R) (j : nat) (i : I) : R :=
  sumf (fun a => B j a * colx cols a i) (seq 0 (length cols)).

Lemma colx_in cols j : (j < length cols)%nat -> In (colx cols j) cols.
Proof. intros H; apply nth_In; auto. Qed.

Lemma in_colx cols c : In c cols -> exists j, (j < length cols)%nat /\ colx cols j = c.
Proof. intros H. apply (In_nth cols c (fun _ => 0)) in H. destruct H as (j & Hj & E). exists j; auto. Qed.

Lemma qcol_span rows cols B j : span rows cols (qcol cols B j).
Proof.
  exists (map (B j) (seq 0 (length cols))). split; [rewrite map_length, seq_length; reflexivity|].
  intros i _. rewrite lc_index by (rewrite map_length, seq_length; reflexivity).
  unfold qcol. apply sumf_ext. intros a Ha. apply in_seq in Ha.
  rewrite nth_indep with (d' := B j 0%nat) by (rewrite map_length, seq_length; lia).
  rewrite map_nth, seq_nth by lia. reflexivity.
Qed.

Lemma qcol_dual rows cols B j a :
  is_inverse rows cols B -> (j < length cols)%nat -> (a < length cols)%nat ->
  ip rows (colx cols a) (qcol cols B j) = if Nat.eqb a j then 1 else 0.
Proof.
  intros H Hj Ha. rewrite <- (H a j Ha Hj). unfold ip, qcol.
  rewrite (sumf_ext_all _ (fun i => sumf (fun l => colx cols a i * colx cols l i * B j l) (seq 0 (length cols))))
    by (intros; rewrite <- sumf_scal; apply sumf_ext_all; intros; ring).
  rewrite sumf_swap. apply sumf_ext. intros l Hl. apply in_seq in Hl.
  rewrite sumf_scal_r. rewrite (is_inverse_sym rows cols B H j l) by lia. reflexivity.
Qed.

(* the dual vector is unique *)
Lemma qcol_unique rows cols B j q :
  is_inverse rows cols B -> (j < length cols)%nat ->
  span rows cols q -> (forall a, (a < length cols)%nat -> ip rows (colx cols a) q = if Nat.eqb a j then 1 else 0) ->
  forall i, In i rows -> qcol cols B j i = q i.
Proof.
  intros H Hj Hs Hq i Hi.
  set (d := fun i => qcol cols B j i - q i).
  assert (H0 : ip rows d d = 0).
  { apply (orth_span rows cols); [|apply span_sub; [apply qcol_span|auto]].
    apply Forall_forall; intros c Hc. apply in_colx in Hc. destruct Hc as (a & Ha & <-).
    unfold d. rewrite ip_sub_r, (qcol_dual rows cols B j a), Hq by auto. ring. }
  pose proof (ip_def _ _ H0 i Hi) as H1. unfold d in H1. lra.
Qed.

(* the j-th least squares coefficient is <q_j, y> *)
Lemma ls_coef_dual rows cols B y b j :
  is_inverse rows cols B -> is_ls rows cols y b -> (j < length cols)%nat ->
  nth j b 0 = ip rows (qcol cols B j) y.
Proof.
  intros H [L F] Hj.
  replace (ip rows (qcol cols B j) y) with (ip rows (qcol cols B j) (lc cols b)).
  2:{ assert (E : ip rows (qcol cols B j) (fun i => y i - lc cols b i) = 0)
        by (apply (orth_span rows cols); auto; apply qcol_span).
      rewrite ip_sub_r in E. lra. }
  transitivity (sumf (fun l => nth l b 0 * ip rows (colx cols l) (qcol cols B j)) (seq 0 (length cols))).
  - rewrite (sumf_ext _ (fun l => ind (keqb Nat.eq_dec j l) * nth j b 0)).
    + rewrite sumf_ind_key; auto; [apply seq_NoDup|apply in_seq; lia].
    + intros l Hl. apply in_seq in Hl. rewrite qcol_dual by (auto; lia).
      unfold keqb. destruct (Nat.eq_dec j l) as [->|Hn].
      * rewrite Nat.eqb_refl. simpl; ring.
      * rewrite (proj2 (Nat.eqb_neq l j)) by auto. simpl; ring.
  - unfold ip. rewrite (sumf_ext_all (fun i => qcol cols B j i * lc cols b i)
       (fun i => sumf (fun l => nth l b 0 * (colx cols l i * qcol cols B j i)) (seq 0 (length cols)))).
    + rewrite sumf_swap. apply sumf_ext_all; intros l. rewrite sumf_scal; reflexivity.
    + intros i. rewrite lc_index by auto. rewrite <- sumf_scal. apply sumf_ext_all; intros; ring.
Qed.

Lemma inverse_indep rows cols B : is_inverse rows cols B -> indep rows cols.
Proof.
  intros H a La Ha.
  assert (Hls : is_ls rows cols (fun _ => 0) a) by (apply ls_exact; auto; intros; symmetry; auto).
  apply nth_ext with (d := 0) (d' := 0); [rewrite repeat_length; auto|].
  intros j Hj. rewrite La in Hj.
  rewrite (ls_coef_dual rows cols B (fun _ => 0) a j H Hls Hj).
  rewrite nth_repeat. rewrite ip_sym. apply ip_zero_l; auto.
Qed.

End Inverse.

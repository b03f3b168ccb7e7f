(* The minimum-norm least-squares solution (numpy.linalg.lstsq, numpy.linalg.pinv): a least-squares
   solution orthogonal to the kernel of the design. *)
From Verif Require Import Prelude Flt Linalg_model Linalg_proofs Linalg_vcov.
From Coq Require Import Arith ZArith String List.
Import ListNotations.
Open Scope R_scope.

Fixpoint dotl (a b : list R) : R := match a, b with x :: xs, y :: ys => x * y + dotl xs ys | _, _ => 0 end.
Lemma dotl_vadd a : forall b v, length a = length v -> length b = length v -> dotl (vadd a b) v = dotl a v + dotl b v.
Proof.
  induction a as [|x a IH]; intros [|z b] [|w v] Ha Hb; simpl in *; try discriminate; try lra. rewrite IH by lia. ring.
Qed.
Lemma dotl_vscal t a : forall v, dotl (vscal t a) v = t * dotl a v.
Proof. induction a as [|x a IH]; intros [|w v]; simpl; try ring. fold (vscal t a). rewrite IH. ring. Qed.
Lemma dotl_self v : 0 <= dotl v v.
Proof. induction v; simpl; [lra|]. assert (0 <= a * a) by apply Rle_0_sqr. lra. Qed.
Lemma dotl_zero v : dotl v v = 0 -> forall x, In x v -> x = 0.
Proof.
  induction v as [|z v IH]; simpl; [easy|]. intros H. assert (A := Rle_0_sqr z). unfold Rsqr in A. assert (B := dotl_self v).
  intros x [<-|Hx]; [|apply IH; [lra|easy]]. assert (E : z * z = 0) by lra. apply Rmult_integral in E. tauto.
Qed.
Lemma dotl_index a : forall v, length a = length v -> dotl a v = sumf (fun j => nth j a 0 * nth j v 0) (seq 0 (length v)).
Proof.
  induction a as [|x a IH]; intros [|w v] H; simpl in *; try discriminate; [easy|]. rewrite IH by lia. f_equal. rewrite <- seq_shift, sumf_map. reflexivity.
Qed.

Section MN.
Context {I : Type}.
Implicit Types (rows : list I) (cols : list (I -> R)) (y : I -> R).
Definition kernel rows cols (v : list R) : Prop := length v = length cols /\ forall i, In i rows -> lc cols v i = 0.
Definition is_mn rows cols y (b : list R) : Prop := is_ls rows cols y b /\ forall v, kernel rows cols v -> dotl b v = 0.
Definition mn_ok (lstsq : list I -> list (I -> R) -> (I -> R) -> list R) : Prop := forall rows cols y, is_mn rows cols y (lstsq rows cols y).

Lemma vsub_zero (a : list R) : forall b, length a = length b -> (forall x, In x (vadd a (vscal (-1) b)) -> x = 0) -> a = b.
Proof.
  induction a as [|x a IH]; intros [|z b] H K; simpl in *; try discriminate; [easy|]. f_equal.
  - specialize (K (x + -1 * z) (or_introl eq_refl)). lra.
  - apply IH; [lia|]. intros w Hw. apply K. now right.
Qed.
Theorem mn_unique rows cols y y' b b' : (forall i, In i rows -> y i = y' i) -> is_mn rows cols y b -> is_mn rows cols y' b' -> b = b'.
Proof.
  intros Hy [Hb Kb] [Hb' Kb']. assert (Hb2 := ls_ext rows cols y' y b' (fun i Hi => eq_sym (Hy i Hi)) Hb').
  assert (L := proj1 Hb). assert (L' := proj1 Hb').
  assert (Lv : length (vscal (-1) b') = length cols) by (rewrite vscal_length; easy).
  set (v := vadd b (vscal (-1) b')). assert (Hv : length v = length cols) by (now apply vadd_length).
  assert (K : kernel rows cols v).
  { split; [easy|]. intros i Hi. unfold v. rewrite lc_vadd, lc_vscal by easy. rewrite (ls_fitted_unique rows cols y b b' Hb Hb2 i Hi). ring. }
  assert (E : dotl v v = 0).
  { unfold v at 1. rewrite dotl_vadd, dotl_vscal by congruence. rewrite (Kb v K), (Kb' v K). ring. }
  apply vsub_zero; [congruence|]. apply dotl_zero, E.
Qed.
Corollary mn_cong lstsq : mn_ok lstsq -> forall rows cols y y', (forall i, In i rows -> y i = y' i) -> lstsq rows cols y = lstsq rows cols y'.
Proof. intros H rows cols y y' E. eapply mn_unique; [exact E|apply H|apply H]. Qed.

(* an instance: project a least-squares solution on the row space *)
Definition rowcols rows cols : list (nat -> R) := map (fun i j => colx cols j i) rows.
Definition mn_solve rows cols y : list R :=
  let k := length cols in let b0 := gs rows cols y in
  map (lc (rowcols rows cols) (gs (seq 0 k) (rowcols rows cols) (fun j => nth j b0 0))) (seq 0 k).
Theorem mn_solve_ok : mn_ok mn_solve.
Proof.
  intros rows cols y. unfold mn_solve. set (k := length cols). set (b0 := gs rows cols y). set (rc := rowcols rows cols).
  set (g := gs (seq 0 k) rc (fun j => nth j b0 0)). set (b1 := map (lc rc g) (seq 0 k)).
  assert (H0 : is_ls rows cols y b0) by apply gs_is_ls. assert (Hg : is_ls (seq 0 k) rc (fun j => nth j b0 0) g) by apply gs_is_ls.
  assert (L1 : length b1 = length cols) by (unfold b1; rewrite map_length, seq_length; easy).
  assert (N1 : forall j, (j < k)%nat -> nth j b1 0 = lc rc g j).
  { intros j Hj. unfold b1. rewrite (nth_indep _ 0 (lc rc g 0%nat)) by (rewrite map_length, seq_length; easy). rewrite map_nth, seq_nth by easy. easy. }
  assert (F : forall i, In i rows -> lc cols b1 i = lc cols b0 i).
  { intros i Hi. rewrite !lc_index by (easy || apply H0). fold k.
    assert (E := proj1 (Forall_forall _ _) (proj2 Hg) (fun j => colx cols j i)).
    assert (Hin : In (fun j => colx cols j i) rc) by (unfold rc, rowcols; apply in_map_iff; exists i; easy).
    specialize (E Hin). unfold ip in E.
    rewrite (sumf_ext _ (fun j => colx cols j i * nth j b0 0 - colx cols j i * lc rc g j)) in E by (intros; ring). rewrite sumf_sub in E.
    rewrite (sumf_ext (fun j => nth j b1 0 * colx cols j i) (fun j => colx cols j i * lc rc g j)) by (intros j Hj; apply in_seq in Hj; rewrite N1 by lia; ring).
    rewrite (sumf_ext (fun j => nth j b0 0 * colx cols j i) (fun j => colx cols j i * nth j b0 0)) by (intros; ring). lra. }
  split.
  - split; [easy|]. apply Forall_forall. intros c Hc. assert (E := proj1 (Forall_forall _ _) (proj2 H0) c Hc). rewrite <- E. apply ip_ext; [easy|].
    intros i Hi. now rewrite F.
  - intros v [Lv Kv]. rewrite dotl_index by congruence. rewrite Lv. fold k.
    rewrite (sumf_ext _ (fun j => lc rc g j * nth j v 0)) by (intros j Hj; apply in_seq in Hj; rewrite N1 by lia; ring).
    change (ip (seq 0 k) (lc rc g) (fun j => nth j v 0) = 0). apply orth_lc.
    apply Forall_forall. intros c Hc. unfold rc, rowcols in Hc. apply in_map_iff in Hc. destruct Hc as (i & <- & Hi).
    specialize (Kv i Hi). rewrite lc_index in Kv by easy. unfold ip. fold k in Kv. etransitivity; [|exact Kv]. apply sumf_ext_all. intros; ring.
Qed.
End MN.

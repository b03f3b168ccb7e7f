(* The compiled joint TROP fit and its bootstrap replicates under a shift of the outcome (complete panels). *)
From Coq Require Import Reals Lra Lia FunctionalExtensionality.
From Verif Require Import Prelude Flt Stats_model Linalg_model Linalg_minnorm Multi_model Trop_model Trop_proofs Trop_joint Trop_jproofs Trop_jthms Trop_rust
  Trop_rjoint Trop_rjoint_proofs Trop_rjoint_thms Trop_rjoint_ex.
From Coq Require Import Arith ZArith String List.
Import ListNotations.
Open Scope R_scope.

Definition shift_o (k : R) (Y : omat) : omat := fun t i => option_map (fun r => r + k) (Y t i).
Section Sh.
Variable Y : omat.
Variable k : R.
Hypothesis HY : forall t i, has Y t i = true.
Lemma has_shift t i : has (shift_o k Y) t i = has Y t i.
Proof. unfold has, shift_o. destruct (Y t i); reflexivity. Qed.
Lemma ysafe_shift : ysafe (shift_o k Y) = (fun t i => ysafe Y t i + k).
Proof.
  apply functional_extensionality. intros t. apply functional_extensionality. intros i. specialize (HY t i).
  unfold ysafe, shift_o, has in *. destruct (Y t i); [reflexivity|discriminate].
Qed.
Variables (T N p : nat) (D : dmat).
Lemma avg_shift t : avg_treated T N (shift_o k Y) D t = option_map (fun m => m + k) (avg_treated T N Y D t).
Proof.
  unfold avg_treated. rewrite (filter_ext (fun i => ever T D i && has (shift_o k Y) t i) (fun i => ever T D i && has Y t i))
    by (intros; rewrite has_shift; reflexivity).
  destruct (filter _ _) as [|i l]; [reflexivity|]. cbn [option_map]. rewrite ysafe_shift, meanf_add, meanf_const by discriminate. reflexivity.
Qed.
Lemma valid_shift i : j_valid T N p (shift_o k Y) D i = j_valid T N p Y D i.
Proof. unfold j_valid. apply filter_ext. intros t. rewrite has_shift, avg_shift. destruct (avg_treated T N Y D t); reflexivity. Qed.
Lemma gap_shift t i : match avg_treated T N Y D t with Some _ => True | None => False end -> j_gap T N (shift_o k Y) D t i = j_gap T N Y D t i.
Proof. unfold j_gap. rewrite avg_shift, ysafe_shift. destruct (avg_treated T N Y D t); cbn [option_map]; intros []; ring. Qed.
Lemma weights_shift lt lu : rj_weights T N p (shift_o k Y) D lt lu = rj_weights T N p Y D lt lu.
Proof.
  apply functional_extensionality. intros t. apply functional_extensionality. intros i. unfold rj_weights. f_equal. unfold rj_unit_w.
  rewrite valid_shift. destruct (0 <? T - p)%nat; [|reflexivity].
  assert (E : forall x, In x (j_valid T N p Y D i) -> j_gap T N (shift_o k Y) D x i = j_gap T N Y D x i).
  { intros x Hx. apply gap_shift. unfold j_valid in Hx. apply filter_In in Hx as [_ Hx]. destruct (avg_treated T N Y D x); auto.
    rewrite !andb_false_r in Hx. discriminate. }
  destruct (j_valid T N p Y D i) as [|v0 v]; [reflexivity|]. do 5 f_equal. apply sumf_ext. intros x Hx. rewrite E by auto. reflexivity.
Qed.
Lemma seen_shift W : rj_seen (shift_o k Y) W = rj_seen Y W.
Proof. apply functional_extensionality. intros t. apply functional_extensionality. intros i. unfold rj_seen. rewrite has_shift. reflexivity. Qed.

Lemma low_shift svd y v w h tol n : forall L, rj_low svd T N (fun t i => y t i + k) D v w h tol n L = rj_low svd T N y D v w h tol n L.
Proof.
  induction n as [|n IH]; intros L; cbn [rj_low]; [reflexivity|].
  assert (E : (fun t i : nat => y t i + k - L t i) = (fun t i => (y t i - L t i) + k))
    by (apply functional_extensionality; intros; apply functional_extensionality; intros; ring).
  rewrite E, solve_shift. destruct (rj_solve T N (fun t i => y t i - L t i) D w) as [c|]; [|reflexivity]. cbn [option_map].
  assert (Er : j_resid (fun t i => y t i + k) D (shift_c k c) = j_resid y D c).
  { apply functional_extensionality; intros t; apply functional_extensionality; intros i. unfold j_resid, shift_c. cbn [jmu ja jb jtau]. ring. }
  rewrite Er. destruct (Rltb _ tol); [reflexivity|apply IH].
Qed.

Definition shift_fit (r : rj_out) : rj_out := match r with RFit c L => RFit (shift_c k c) L | o => o end.
Theorem rj_fit_shift svd W h maxit tol :
  rj_fit svd T N (shift_o k Y) D W h maxit tol = shift_fit (rj_fit svd T N Y D W h maxit tol).
Proof.
  unfold rj_fit. cbv zeta. rewrite seen_shift, ysafe_shift. destruct (existsb _ (cells T N)); [reflexivity|].
  destruct (Rle_dec (10 ^ 10) h).
  - rewrite solve_shift. destruct (rj_solve T N (ysafe Y) D _); reflexivity.
  - rewrite low_shift. destruct (rj_low _ _ _ _ _ _ _ _ _ _ _) as [L|]; [|reflexivity].
    assert (E : (fun t i : nat => ysafe Y t i + k - L t i) = (fun t i => (ysafe Y t i - L t i) + k))
      by (apply functional_extensionality; intros; apply functional_extensionality; intros; ring).
    rewrite E, solve_shift. destruct (rj_solve T N (fun t i => ysafe Y t i - L t i) D _); reflexivity.
Qed.
End Sh.

(* the level of the outcome moves no bootstrap replicate *)
Theorem rj_boot_shift svd T p Y D k lt lu h maxit tol draws : (forall t i, has Y t i = true) ->
  rj_boot svd T p (shift_o k Y) D lt lu h maxit tol draws = rj_boot svd T p Y D lt lu h maxit tol draws.
Proof.
  intros HY. unfold rj_boot. apply flat_map_ext. intros cols. unfold rj_boot_rep. cbv zeta.
  change (sel_o (shift_o k Y) cols) with (shift_o k (sel_o Y cols)).
  assert (H' : forall t i, has (sel_o Y cols) t i = true) by (intros; apply HY).
  rewrite weights_shift, rj_fit_shift by auto. destruct (rj_fit _ _ _ _ _ _ _ _ _); reflexivity.
Qed.
(* a resample that draws every unit once returns the treatment effect of the fit on the panel itself *)
Theorem rj_boot_identity svd T N p Y D lt lu h maxit tol c L :
  (forall t i, (N <= i)%nat -> Y t i = Y t 0%nat /\ D t i = D t 0%nat) ->
  rj_fit svd T N Y D (rj_weights T N p Y D lt lu) h maxit tol = RFit c L ->
  rj_boot svd T p Y D lt lu h maxit tol [seq 0 N] = [Fin (jtau c)].
Proof.
  intros HN H. unfold rj_boot. cbn [flat_map]. unfold rj_boot_rep. cbv zeta. rewrite seq_length.
  assert (E1 : sel_o Y (seq 0 N) = Y).
  { apply functional_extensionality; intros t; apply functional_extensionality; intros i. unfold sel_o. destruct (Nat.lt_ge_cases i N).
    - rewrite seq_nth by auto. reflexivity.
    - rewrite nth_overflow by (rewrite seq_length; auto). symmetry. apply HN; auto. }
  assert (E2 : sel_d D (seq 0 N) = D).
  { apply functional_extensionality; intros t; apply functional_extensionality; intros i. unfold sel_d. destruct (Nat.lt_ge_cases i N).
    - rewrite seq_nth by auto. reflexivity.
    - rewrite nth_overflow by (rewrite seq_length; auto). symmetry. apply HN; auto. }
  rewrite E1, E2, H. reflexivity.
Qed.
(* concrete: a two-unit, two-period panel, one resample that draws each unit once *)
Theorem rj_boot_case svd lu maxit tol c : 0 < c -> exists x, x <= c / 2 /\
  rj_boot svd 2 1 (Y22 c) D22 5 lu (10 ^ 10) maxit tol [[0; 1]%nat] = [Fin x].
Proof.
  intros Hc. destruct (compiled_half (@mn_solve cell2 : lstsq_fn) svd lu maxit tol c mn_solve_ok Hc) as [(co & E & H) _].
  exists (jtau co). split; [exact H|]. apply (rj_boot_identity svd 2 2 1 (Y22 c) D22 5 lu (10 ^ 10) maxit tol co zmat); [|exact E].
  intros t i Hi. unfold Y22, y22, D22. destruct i as [|[|i]]; [lia|lia|]. cbn [Nat.eqb]. rewrite !andb_false_r. auto.
Qed.

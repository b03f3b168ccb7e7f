(* TROP method="joint": weighted difference-in-differences form, heterogeneous effects, missing treated outcomes,
   tuning, resampling, adoption check, descent of the criterion. *)
From Verif Require Import Prelude Flt Stats_model Stats_proofs Linalg_model Linalg_proofs Linalg_minnorm Multi_model Trop_model Trop_proofs Trop_thms Trop_conv Trop_rec Trop_obj Trop_sel Trop_rows Trop_joint Trop_jproofs Trop_jfit.
From Coq Require Import Arith ZArith String List FunctionalExtensionality Permutation.
Import ListNotations.
Open Scope R_scope.

Definition bsum (A B : list nat) (g : mat) : R := sumf (fun t => sumf (fun i => g t i) A) B.
Lemma bsum_ext A B g g' : (forall t i, In t B -> In i A -> g t i = g' t i) -> bsum A B g = bsum A B g'.
Proof. intros H. apply sumf_ext. intros t Ht. apply sumf_ext. intros i Hi. now apply H. Qed.
Lemma bsum_add A B f g : bsum A B (fun t i => f t i + g t i) = bsum A B f + bsum A B g.
Proof. unfold bsum. rewrite <- sumf_add. apply sumf_ext. intros t _. apply sumf_add. Qed.
Lemma bsum_sub A B f g : bsum A B (fun t i => f t i - g t i) = bsum A B f - bsum A B g.
Proof. unfold bsum. rewrite <- sumf_sub. apply sumf_ext. intros t _. apply sumf_sub. Qed.
Lemma bsum_scal A B f k : bsum A B (fun t i => k * f t i) = k * bsum A B f.
Proof. unfold bsum. rewrite <- sumf_scal. apply sumf_ext. intros t _. apply sumf_scal. Qed.
Lemma sumf_part {X} (q : X -> bool) (f : X -> R) l : sumf f l = sumf f (filter q l) + sumf f (filter (fun x => negb (q x)) l).
Proof. induction l as [|x l IH]; cbn [sumf filter]; [ring|]. rewrite IH. destruct (q x); cbn [negb sumf]; ring. Qed.
Lemma sumf_allpos {X} (f : X -> R) l : (forall x, In x l -> 0 < f x) -> l <> [] -> 0 < sumf f l.
Proof. intros H Hl. apply sumf_pos; [intros x Hx; left; now apply H|]. destruct l as [|x l]; [easy|]. exists x. split; [now left|]. apply H. now left. Qed.
Lemma bsum_part_t A q B g : bsum A B g = bsum A (filter q B) g + bsum A (filter (fun t => negb (q t)) B) g.
Proof. apply sumf_part. Qed.
Lemma bsum_part_i q A B g : bsum A B g = bsum (filter q A) B g + bsum (filter (fun i => negb (q i)) A) B g.
Proof. unfold bsum. rewrite <- sumf_add. apply sumf_ext. intros t _. apply sumf_part. Qed.
Lemma bsum_prod A B (d u : nat -> R) : bsum A B (fun t i => d t * u i) = sumf d B * sumf u A.
Proof. unfold bsum. rewrite <- sumf_scal_r. apply sumf_ext. intros t _. apply sumf_scal. Qed.
Lemma bsum_nonneg A B g : (forall t i, In t B -> In i A -> 0 <= g t i) -> 0 <= bsum A B g.
Proof. intros H. apply sumf_nonneg. intros t Ht. apply sumf_nonneg. intros i Hi. now apply H. Qed.
Lemma cells_bsum T N (g : mat) : sumf (fun c => g (fst c) (snd c)) (cells T N) = bsum (seq 0 N) (seq 0 T) g.
Proof. apply sumf_cells. Qed.

Section Did.
Variable lstsq : lstsq_fn.
Hypothesis Hmn : mn_ok lstsq.

(* normal equations: the residual is orthogonal, in the weighted inner product, to unit, period and treatment functions *)
Lemma wls_normal T N y D w c mu a b tau : wpos2 T N w -> wls lstsq T N y D w = JOk c ->
  bsum (seq 0 N) (seq 0 T) (fun t i => w t i * (mu + a i + b t + tau * IZR (D t i)) * (y t i - fitv D c t i)) = 0.
Proof.
  intros Hw Hc. destruct (wls_inv lstsq Hmn T N D w y c Hc) as (bl & -> & [[Lb Nb] _]). rewrite wcols_length in Lb.
  assert (O := orth_lc (cells T N) (wcols T N D w) (coefs T N mu a b tau) _ Nb). unfold ip in O.
  rewrite <- cells_bsum. etransitivity; [|exact O]. apply sumf_ext. intros [t i] Hx. apply in_cells in Hx. destruct Hx as [Ht Hi].
  rewrite !lc_wcols by (apply coefs_length || easy). rewrite fitv_coefs by easy. unfold yw. cbn [fst snd].
  rewrite <- (sqw_sq w t i (Hw t i Ht Hi)) at 1. ring.
Qed.

(* weighted mean of a block of cells *)
Definition bmean (d u : nat -> R) (A B : list nat) (f : mat) : R := bsum A B (fun t i => d t * u i * f t i) / (sumf d B * sumf u A).
(* difference-in-differences of the four block means *)
Definition wdid (d u : nat -> R) (tr po : nat -> bool) (T N : nat) (f : mat) : R :=
  let Tr := filter tr (seq 0 N) in let Co := filter (fun i => negb (tr i)) (seq 0 N) in
  let Po := filter po (seq 0 T) in let Pr := filter (fun t => negb (po t)) (seq 0 T) in
  (bmean d u Tr Po f - bmean d u Tr Pr f) - (bmean d u Co Po f - bmean d u Co Pr f).
Lemma bmean_fe d u A B mu a b : sumf d B <> 0 -> sumf u A <> 0 ->
  bmean d u A B (fun t i => mu + a i + b t) = mu + sumf (fun i => u i * a i) A / sumf u A + sumf (fun t => d t * b t) B / sumf d B.
Proof.
  intros Hd Hu. unfold bmean.
  rewrite (bsum_ext A B _ (fun t i => mu * (d t * u i) + (d t * (u i * a i) + (d t * b t) * u i))) by (intros; ring).
  rewrite !bsum_add, bsum_scal, bsum_prod. rewrite (bsum_prod A B d (fun i => u i * a i)), (bsum_prod A B (fun t => d t * b t) u). field. easy.
Qed.
Lemma bmean_add d u A B f g : bmean d u A B (fun t i => f t i + g t i) = bmean d u A B f + bmean d u A B g.
Proof. unfold bmean. rewrite (bsum_ext A B _ (fun t i => d t * u i * f t i + d t * u i * g t i)) by (intros; ring). rewrite bsum_add. unfold Rdiv. ring. Qed.
Lemma bmean_ext d u A B f g : (forall t i, In t B -> In i A -> f t i = g t i) -> bmean d u A B f = bmean d u A B g.
Proof. intros H. unfold bmean. f_equal. apply bsum_ext. intros t i Ht Hi. now rewrite H. Qed.
Lemma bmean_const d u A B k : sumf d B <> 0 -> sumf u A <> 0 -> bmean d u A B (fun _ _ => k) = k.
Proof. intros H1 H2. unfold bmean. rewrite (bsum_ext A B _ (fun t i => k * (d t * u i))) by (intros; ring). rewrite bsum_scal, bsum_prod. field. easy. Qed.
Lemma bmean_bounds d u A B f lo hi : (forall t, In t B -> 0 < d t) -> (forall i, In i A -> 0 < u i) -> A <> [] -> B <> [] ->
  (forall t i, In t B -> In i A -> lo <= f t i <= hi) -> lo <= bmean d u A B f <= hi.
Proof.
  intros Hd Hu HA HB H. assert (PA : 0 < sumf u A) by now apply sumf_allpos. assert (PB : 0 < sumf d B) by now apply sumf_allpos.
  assert (P : 0 < sumf d B * sumf u A) by now apply Rmult_lt_0_compat.
  assert (G : forall k, bsum A B (fun t i => k * (d t * u i)) = k * (sumf d B * sumf u A)) by (intros; now rewrite bsum_scal, bsum_prod).
  unfold bmean. split; apply (Rmult_le_reg_r (sumf d B * sumf u A)); try easy; (replace (bsum A B (fun t i => d t * u i * f t i) / (sumf d B * sumf u A) * (sumf d B * sumf u A)) with (bsum A B (fun t i => d t * u i * f t i)) by (field; lra)); rewrite <- G;
  apply sumf_le; intros t Ht; apply sumf_le; intros i Hi; specialize (H t i Ht Hi); assert (0 < d t * u i) by (apply Rmult_lt_0_compat; auto); nra.
Qed.
Lemma wdid_add d u tr po T N f g : wdid d u tr po T N (fun t i => f t i + g t i) = wdid d u tr po T N f + wdid d u tr po T N g.
Proof. unfold wdid. cbv zeta. rewrite !bmean_add. ring. Qed.

Section Block.
Variables (T N : nat) (d u : nat -> R) (tr po : nat -> bool).
Notation Tr := (filter tr (seq 0 N)).
Notation Co := (filter (fun i => negb (tr i)) (seq 0 N)).
Notation Po := (filter po (seq 0 T)).
Notation Pr := (filter (fun t => negb (po t)) (seq 0 T)).
Hypothesis Hd : forall t, (t < T)%nat -> 0 < d t.
Hypothesis Hu : forall i, (i < N)%nat -> 0 < u i.
Hypothesis H1 : Tr <> [].
Hypothesis H2 : Co <> [].
Hypothesis H3 : Po <> [].
Hypothesis H4 : Pr <> [].
Lemma fpos (f : nat -> R) q n : (forall x, (x < n)%nat -> 0 < f x) -> filter q (seq 0 n) <> [] -> 0 < sumf f (filter q (seq 0 n)).
Proof. intros H G. apply sumf_allpos; [|easy]. intros x Hx. apply filter_In in Hx. destruct Hx as [Hx _]. apply in_seq in Hx. apply H. lia. Qed.
Lemma wdid_fe mu a b : wdid d u tr po T N (fun t i => mu + a i + b t) = 0.
Proof.
  unfold wdid. cbv zeta. assert (A1 := fpos u tr N Hu H1). assert (A2 := fpos u _ N Hu H2). assert (A3 := fpos d po T Hd H3). assert (A4 := fpos d _ T Hd H4).
  rewrite !bmean_fe by lra. field. lra.
Qed.
(* the treatment column *)
Lemma wdid_d (e : mat) D : (forall t i, (t < T)%nat -> (i < N)%nat -> D t i = if tr i && po t then 1%Z else 0%Z) ->
  wdid d u tr po T N (fun t i => e t i * IZR (D t i)) = bmean d u Tr Po e.
Proof.
  intros HD. unfold wdid. cbv zeta.
  assert (F : forall q n x, In x (filter q (seq 0 n)) -> (x < n)%nat /\ q x = true) by (intros q n x Hx; apply filter_In in Hx; destruct Hx as [Hx Hq]; apply in_seq in Hx; split; [lia|easy]).
  rewrite (bmean_ext d u Tr Po _ e).
  2:{ intros t i Ht Hi. apply F in Ht, Hi. rewrite HD by tauto. rewrite (proj2 Ht), (proj2 Hi). cbn [andb]. ring. }
  assert (Z : forall A B, (forall t i, In t B -> In i A -> (t < T)%nat /\ (i < N)%nat /\ tr i && po t = false) -> bmean d u A B (fun t i => e t i * IZR (D t i)) = 0).
  { intros A B H. unfold bmean. rewrite (bsum_ext A B _ (fun t i => 0 * (d t * u i))).
    - rewrite bsum_scal. unfold Rdiv. ring.
    - intros t i Ht Hi. destruct (H t i Ht Hi) as (A1 & A2 & A3). rewrite HD, A3 by easy. ring. }
  rewrite !Z; [ring| | |]; intros t i Ht Hi; apply F in Ht, Hi; destruct Ht as [Ht Ht'], Hi as [Hi Hi']; (split; [easy|split; [easy|]]); try (apply negb_true_iff in Ht'; rewrite Ht', andb_false_r; easy); apply negb_true_iff in Hi'; rewrite Hi'; easy.
Qed.
(* The coefficient of the treatment indicator is the difference-in-differences of the four weighted block means. *)
Theorem wls_did y D w c : (forall t i, (t < T)%nat -> (i < N)%nat -> D t i = if tr i && po t then 1%Z else 0%Z) ->
  (forall t i, (t < T)%nat -> (i < N)%nat -> w t i = d t * u i) -> wls lstsq T N y D w = JOk c -> jtau c = wdid d u tr po T N y.
Proof.
  intros HD Hw Hc. assert (Wp : wpos2 T N w) by (intros t i Ht Hi; rewrite Hw by easy; left; apply Rmult_lt_0_compat; auto).
  set (e := fun t i => y t i - fitv D c t i). set (g := fun t i => d t * u i * e t i).
  assert (F : forall q n x, In x (filter q (seq 0 n)) -> (x < n)%nat /\ q x = true) by (intros q n x Hx; apply filter_In in Hx; destruct Hx as [Hx Hq]; apply in_seq in Hx; split; [lia|easy]).
  assert (Nq : forall mu a b tau, bsum (seq 0 N) (seq 0 T) (fun t i => (mu + a i + b t + tau * IZR (D t i)) * g t i) = 0).
  { intros mu a b tau. etransitivity; [|exact (wls_normal T N y D w c mu a b tau Wp Hc)]. apply bsum_ext. intros t i Ht Hi. apply in_seq in Ht, Hi. rewrite Hw by lia. unfold g, e. ring. }
  assert (Sel : forall (q r : nat -> bool), bsum (seq 0 N) (seq 0 T) (fun t i => ind (q i) * ind (r t) * g t i) = bsum (filter q (seq 0 N)) (filter r (seq 0 T)) g).
  { intros q r. unfold bsum. rewrite sumf_filter. apply sumf_ext. intros t _. rewrite sumf_filter, <- sumf_scal. apply sumf_ext. intros i _. ring. }
  assert (Q1 : bsum Tr Po g = 0).
  { rewrite <- Sel. etransitivity; [|exact (Nq 0 (fun _ => 0) (fun _ => 0) 1)]. apply bsum_ext. intros t i Ht Hi. apply in_seq in Ht, Hi. rewrite HD by lia.
    unfold ind. destruct (tr i), (po t); cbn [andb]; ring. }
  assert (Ft : forall n, filter (fun _ : nat => true) (seq 0 n) = seq 0 n).
  { intros n. generalize (seq 0 n). induction l as [|x l IH]; cbn; [easy|]. now rewrite IH. }
  assert (Q2 : bsum Tr (seq 0 T) g = 0).
  { assert (S := Sel tr (fun _ => true)). rewrite Ft in S. rewrite <- S. etransitivity; [|exact (Nq 0 (fun i => ind (tr i)) (fun _ => 0) 0)]. apply bsum_ext. intros. unfold ind. ring. }
  assert (Q3 : bsum (seq 0 N) Po g = 0).
  { assert (S := Sel (fun _ => true) po). rewrite Ft in S. rewrite <- S. etransitivity; [|exact (Nq 0 (fun _ => 0) (fun t => ind (po t)) 0)]. apply bsum_ext. intros. unfold ind. ring. }
  assert (Q4 : bsum (seq 0 N) (seq 0 T) g = 0).
  { etransitivity; [|exact (Nq 1 (fun _ => 0) (fun _ => 0) 0)]. apply bsum_ext. intros. ring. }
  assert (P2 := bsum_part_t Tr po (seq 0 T) g). assert (P3 := bsum_part_i tr (seq 0 N) Po g). assert (P4 := bsum_part_i tr (seq 0 N) (seq 0 T) g).
  assert (P5 := bsum_part_t Co po (seq 0 T) g).
  assert (E0 : wdid d u tr po T N e = 0).
  { unfold wdid, bmean. cbv zeta. change (fun t i => d t * u i * e t i) with g. replace (bsum Tr Pr g) with 0 by lra. replace (bsum Co Po g) with 0 by lra. replace (bsum Co Pr g) with 0 by lra.
    rewrite Q1. unfold Rdiv. ring. }
  assert (Ey : wdid d u tr po T N y = wdid d u tr po T N e + (wdid d u tr po T N (fun t i => jmu c + ja c i + jb c t) + wdid d u tr po T N (fun t i => jtau c * IZR (D t i)))).
  { rewrite <- !wdid_add. f_equal. apply functional_extensionality; intros t; apply functional_extensionality; intros i. unfold e, fitv. ring. }
  rewrite Ey, E0, wdid_fe, (wdid_d (fun _ _ => jtau c) D HD). rewrite bmean_const; [ring| |].
  - assert (X := fpos d po T Hd H3). lra.
  - assert (X := fpos u tr N Hu H1). lra.
Qed.
End Block.
End Did.

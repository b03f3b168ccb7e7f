(* A singular value decomposition that meets svd_ok and svd_len and never fails on matrices with two rows: the hypotheses
   of the descent theorems are satisfiable for panels with two periods. *)
From Coq Require Import Reals Lra Lia FunctionalExtensionality.
From Coq Require Import Arith ZArith String List. Import ListNotations. Open Scope R_scope.
From Verif Require Import Prelude Flt Linalg_model Trop_model Trop_proofs Trop_conv Trop_obj.

Definition dot2 (N : nat) (f g : nat -> R) : R := sumf (fun i => f i * g i) (seq 0 N).
(* a rotation that makes the two rows orthogonal *)
Definition rot2 (p q r : R) : R * R :=
  if Req_EM_T q 0 then (1, 0)
  else let x := ((r - p) + sqrt ((r - p) * (r - p) + 4 * (q * q))) / 2 in
       let h := sqrt (q * q + x * x) in (q / h, x / h).
Definition part2 (N : nat) (u v : nat -> R) : list (R * (nat -> R) * (nat -> R)) :=
  if Req_EM_T (dot2 N v v) 0 then [] else [(sqrt (dot2 N v v), u, fun i => v i / sqrt (dot2 N v v))].
Definition svd_two : svd_fn := fun T N M =>
  if (T =? 2)%nat && (2 <=? N)%nat then
    let '(c, s) := rot2 (dot2 N (M 0%nat) (M 0%nat)) (dot2 N (M 0%nat) (M 1%nat)) (dot2 N (M 1%nat) (M 1%nat)) in
    Some (part2 N (fun t => if (t =? 0)%nat then c else s) (fun i => c * M 0%nat i + s * M 1%nat i)
       ++ part2 N (fun t => if (t =? 0)%nat then - s else c) (fun i => - s * M 0%nat i + c * M 1%nat i))
  else None.

Lemma rot2_ok p q r c s : rot2 p q r = (c, s) -> c * c + s * s = 1 /\ c * s * (r - p) + (c * c - s * s) * q = 0.
Proof.
  unfold rot2. destruct (Req_EM_T q 0) as [->|Hq]; [intros [= <- <-]; split; ring|].
  set (d := sqrt ((r - p) * (r - p) + 4 * (q * q))). set (x := ((r - p) + d) / 2). set (h := sqrt (q * q + x * x)). intros [= <- <-].
  assert (Hqq : 0 < q * q) by nra.
  assert (Hd : d * d = (r - p) * (r - p) + 4 * (q * q)) by (apply sqrt_sqrt; assert (0 <= (r - p) * (r - p)) by apply Rle_0_sqr; lra).
  assert (Hh : h * h = q * q + x * x) by (apply sqrt_sqrt; assert (0 <= x * x) by apply Rle_0_sqr; lra).
  assert (H0 : 0 < h) by (apply sqrt_lt_R0; assert (0 <= x * x) by apply Rle_0_sqr; lra).
  assert (Hx : x * x = x * (r - p) + q * q) by (unfold x; field_simplify; replace (d ^ 2) with (d * d) by ring; rewrite Hd; field).
  split.
  - replace (q / h * (q / h) + x / h * (x / h)) with ((q * q + x * x) / (h * h)) by (field; lra). rewrite <- Hh. field. lra.
  - replace (q / h * (x / h) * (r - p) + (q / h * (q / h) - x / h * (x / h)) * q) with (q * (x * (r - p) + q * q - x * x) / (h * h)) by (field; lra).
    rewrite Hx. replace (x * (r - p) + q * q - (x * (r - p) + q * q)) with 0 by ring. field. lra.
Qed.
Lemma dot2_nonneg N f : 0 <= dot2 N f f.
Proof. apply sumf_nonneg. intros. apply Rle_0_sqr. Qed.
Lemma dot2_zero N f i : dot2 N f f = 0 -> (i < N)%nat -> f i = 0.
Proof.
  intros H Hi. assert (P : f i * f i = 0) by (apply (sumf_nonneg_0 (fun i => f i * f i) (seq 0 N)); [intros; apply Rle_0_sqr|exact H|apply in_seq; lia]).
  apply Rmult_integral in P. tauto.
Qed.
Lemma dot2_comm N f g : dot2 N f g = dot2 N g f.
Proof. apply sumf_ext_all. intros. ring. Qed.
Lemma dot2_scal N f g a b : dot2 N (fun i => f i / a) (fun i => g i / b) = dot2 N f g / a / b.
Proof. unfold dot2, Rdiv. rewrite <- sumf_scal_r, <- sumf_scal_r. apply sumf_ext_all. intros. ring. Qed.

Theorem svd_two_ok : svd_ok svd_two.
Proof.
  intros T N M l. unfold svd_two. destruct (T =? 2)%nat eqn:ET; [|easy]. apply Nat.eqb_eq in ET. subst T. destruct (2 <=? N)%nat; [|easy]. cbn [andb].
  destruct (rot2 _ _ _) as [c s] eqn:Er. apply rot2_ok in Er. destruct Er as [Hcs Hor].
  set (v1 := fun i => c * M 0%nat i + s * M 1%nat i). set (v2 := fun i => - s * M 0%nat i + c * M 1%nat i).
  set (u1 := fun t => if (t =? 0)%nat then c else s). set (u2 := fun t => if (t =? 0)%nat then - s else c).
  assert (O12 : dot2 N v1 v2 = 0).
  { rewrite <- Hor. unfold dot2, v1, v2.
    rewrite (sumf_ext_all _ (fun i => c * s * (M 1%nat i * M 1%nat i) - c * s * (M 0%nat i * M 0%nat i) + (c * c - s * s) * (M 0%nat i * M 1%nat i))) by (intros; ring).
    rewrite sumf_add, sumf_sub, !sumf_scal. ring. }
  assert (R0 : forall i, M 0%nat i = c * v1 i - s * v2 i).
  { intros i. unfold v1, v2. replace (c * (c * M 0%nat i + s * M 1%nat i) - s * (- s * M 0%nat i + c * M 1%nat i)) with ((c * c + s * s) * M 0%nat i) by ring. rewrite Hcs. ring. }
  assert (R1 : forall i, M 1%nat i = s * v1 i + c * v2 i).
  { intros i. unfold v1, v2. replace (s * (c * M 0%nat i + s * M 1%nat i) + c * (- s * M 0%nat i + c * M 1%nat i)) with ((c * c + s * s) * M 1%nat i) by ring. rewrite Hcs. ring. }
  clearbody v1 v2.
  assert (U11 : sumf (fun t => u1 t * u1 t) (seq 0 2) = 1) by (cbn; lra). assert (U22 : sumf (fun t => u2 t * u2 t) (seq 0 2) = 1) by (cbn; lra).
  assert (U12 : sumf (fun t => u1 t * u2 t) (seq 0 2) = 0) by (cbn; lra). assert (U21 : sumf (fun t => u2 t * u1 t) (seq 0 2) = 0) by (cbn; lra).
  assert (Nv : forall v, dot2 N v v <> 0 -> let q := sqrt (dot2 N v v) in 0 < q /\ dot2 N (fun i => v i / q) (fun i => v i / q) = 1).
  { intros v Hv q. assert (P := dot2_nonneg N v). assert (Q : 0 < q) by (apply sqrt_lt_R0; lra). split; [easy|]. rewrite dot2_scal.
    replace (dot2 N v v) with (q * q) by (apply sqrt_sqrt; easy). field. lra. }
  assert (V12 : forall a b, dot2 N (fun i => v1 i / a) (fun i => v2 i / b) = 0) by (intros; rewrite dot2_scal, O12; unfold Rdiv; ring).
  assert (V21 : forall a b, dot2 N (fun i => v2 i / a) (fun i => v1 i / b) = 0) by (intros; rewrite dot2_scal, dot2_comm, O12; unfold Rdiv; ring).
  intros [= <-]. unfold part2. destruct (Req_EM_T (dot2 N v1 v1) 0) as [Z1|Z1]; destruct (Req_EM_T (dot2 N v2 v2) 0) as [Z2|Z2]; cbn [app].
  - split; [easy|]. split; [intros [|j] k x y H; easy|]. split; [intros [|j] k x y H; easy|]. intros t i Ht Hi. cbn [sumf].
    destruct t as [|[|t]]; [rewrite R0|rewrite R1|lia]; rewrite (dot2_zero N v1 i Z1 Hi), (dot2_zero N v2 i Z2 Hi); ring.
  - destruct (Nv v2 Z2) as [P2 Q2]. split; [intros x [<-|[]]; unfold trip_s; simpl; lra|]. split; [|split].
    + intros [|[|j]] [|[|k]] x y Hj Hk; try easy. injection Hj as <-. injection Hk as <-. exact U22.
    + intros [|[|j]] [|[|k]] x y Hj Hk; try easy. injection Hj as <-. injection Hk as <-. exact Q2.
    + intros t i Ht Hi. unfold trip_s, trip_u, trip_v. cbn [sumf fst snd]. destruct t as [|[|t]]; [rewrite R0|rewrite R1|lia]; rewrite (dot2_zero N v1 i Z1 Hi); cbn [u2 Nat.eqb]; field; lra.
  - destruct (Nv v1 Z1) as [P1 Q1]. split; [intros x [<-|[]]; unfold trip_s; simpl; lra|]. split; [|split].
    + intros [|[|j]] [|[|k]] x y Hj Hk; try easy. injection Hj as <-. injection Hk as <-. exact U11.
    + intros [|[|j]] [|[|k]] x y Hj Hk; try easy. injection Hj as <-. injection Hk as <-. exact Q1.
    + intros t i Ht Hi. unfold trip_s, trip_u, trip_v. cbn [sumf fst snd]. destruct t as [|[|t]]; [rewrite R0|rewrite R1|lia]; rewrite (dot2_zero N v2 i Z2 Hi); cbn [u1 Nat.eqb]; field; lra.
  - destruct (Nv v1 Z1) as [P1 Q1]. destruct (Nv v2 Z2) as [P2 Q2]. split; [intros x [<-|[<-|[]]]; unfold trip_s; simpl; lra|]. split; [|split].
    + intros [|[|[|j]]] [|[|[|k]]] x y Hj Hk; try easy; injection Hj as <-; injection Hk as <-; assumption.
    + intros [|[|[|j]]] [|[|[|k]]] x y Hj Hk; try easy; injection Hj as <-; injection Hk as <-; first [exact Q1|exact Q2|apply V12|apply V21].
    + intros t i Ht Hi. unfold trip_s, trip_u, trip_v. cbn [sumf fst snd]. destruct t as [|[|t]]; [rewrite R0|rewrite R1|lia]; cbn [u1 u2 Nat.eqb]; field; lra.
Qed.
Theorem svd_two_len : svd_len svd_two.
Proof.
  intros T N M l. unfold svd_two. destruct (T =? 2)%nat eqn:ET; [|easy]. apply Nat.eqb_eq in ET. subst T. destruct (2 <=? N)%nat eqn:EN; [|easy]. apply Nat.leb_le in EN. cbn [andb].
  destruct (rot2 _ _ _) as [c s]. intros [= <-]. rewrite app_length. unfold part2. destruct (Req_EM_T _ _), (Req_EM_T _ _); cbn [length]; lia.
Qed.
Theorem svd_two_total N M : (2 <= N)%nat -> svd_two 2%nat N M <> None.
Proof. intros H. unfold svd_two. apply Nat.leb_le in H. rewrite H. cbn [Nat.eqb andb]. now destruct (rot2 _ _ _). Qed.

(* TROP: what the low-rank step minimises, and monotonicity of the alternating estimation. *)
From Verif Require Import Prelude Flt Stats_model Stats_proofs Linalg_model Multi_model Trop_model Trop_proofs Trop_thms Trop_conv.
From Coq Require Import Arith ZArith String List FunctionalExtensionality.
Import ListNotations.
Open Scope R_scope.

(* operator norm at most h, nuclear norm at most c (dual norm), nuclear norm equal to c *)
Definition vn (dim : nat) (x : nat -> R) : R := sumf (fun t => x t * x t) (seq 0 dim).
Definition opn (T N : nat) (A : mat) (h : R) : Prop :=
  forall x y, vn T x <= 1 -> vn N y <= 1 -> mip T N (fun t i => x t * y i) A <= h.
Definition nuc_le (T N : nat) (X : mat) (c : R) : Prop := forall A, opn T N A 1 -> mip T N A X <= c.
Definition nuc_is (T N : nat) (X : mat) (c : R) : Prop := nuc_le T N X c /\ exists A, opn T N A 1 /\ mip T N A X = c.

Section Mip.
Variables (T N : nat).
Notation mip := (mip T N).
Lemma mip_comm A B : mip A B = mip B A.
Proof. unfold Trop_conv.mip. apply sumf_ext_all. intros. ring. Qed.
Lemma mip_add_r A B C : mip A (fun t i => B t i + C t i) = mip A B + mip A C.
Proof. unfold Trop_conv.mip. rewrite <- sumf_add. apply sumf_ext_all. intros. ring. Qed.
Lemma mip_sub_r A B C : mip A (fun t i => B t i - C t i) = mip A B - mip A C.
Proof. unfold Trop_conv.mip. rewrite <- sumf_sub. apply sumf_ext_all. intros. ring. Qed.
Lemma mip_scal_r A c B : mip A (fun t i => c * B t i) = c * mip A B.
Proof. unfold Trop_conv.mip. rewrite <- sumf_scal. apply sumf_ext_all. intros. ring. Qed.
Lemma mip_ext A A' B B' : (forall t i, (t < T)%nat -> (i < N)%nat -> A t i = A' t i) ->
  (forall t i, (t < T)%nat -> (i < N)%nat -> B t i = B' t i) -> mip A B = mip A' B'.
Proof. intros H K. unfold Trop_conv.mip. apply sumf_ext. intros [t i] Hc. apply in_cells in Hc. cbn [fst snd]. rewrite H, K by tauto. reflexivity. Qed.
Lemma mip_nonneg A : 0 <= mip A A.
Proof. unfold Trop_conv.mip. apply sumf_nonneg. intros. nra. Qed.
Lemma mip_sumf_r {X} (A : mat) (f : X -> mat) l : mip A (fun t i => sumf (fun x => f x t i) l) = sumf (fun x => mip A (f x)) l.
Proof. unfold Trop_conv.mip. rewrite sumf_swap. apply sumf_ext_all. intros c. rewrite <- sumf_scal. reflexivity. Qed.

(* ------------------------------------------------------------------------------------------- *)
(* matrices sharing the singular vectors of a decomposition *)
Notation trip := (R * (nat -> R) * (nat -> R))%type.
Variable l : list trip.
Hypothesis Hu : orth l T trip_u.
Hypothesis Hv : orth l N trip_v.
Definition comb (f : trip -> R) : mat := fun t i => sumf (fun x => f x * trip_u x t * trip_v x i) l.
Definition dotu (x : nat -> R) (y : trip) : R := sumf (fun t => x t * trip_u y t) (seq 0 T).
Definition dotv (x : nat -> R) (y : trip) : R := sumf (fun t => x t * trip_v y t) (seq 0 N).

Lemma mip_rank (x y : nat -> R) (u v : nat -> R) : mip (fun t i => x t * y i) (fun t i => u t * v i) =
  sumf (fun t => x t * u t) (seq 0 T) * sumf (fun i => y i * v i) (seq 0 N).
Proof.
  unfold Trop_conv.mip. rewrite (sumf_cells (fun t i => x t * y i * (u t * v i))). rewrite <- sumf_scal_r. apply sumf_ext_all. intros t.
  rewrite <- sumf_scal. apply sumf_ext_all. intros i. ring.
Qed.
Lemma mip_comb A f : mip A (comb f) = sumf (fun x => f x * mip A (fun t i => trip_u x t * trip_v x i)) l.
Proof.
  unfold comb. rewrite (mip_sumf_r A (fun x t i => f x * trip_u x t * trip_v x i)). apply sumf_ext_all. intros x.
  rewrite <- mip_scal_r. apply mip_ext; intros; ring.
Qed.
Lemma mip_unit_comb g x k : nth_error l k = Some x -> mip (comb g) (fun t i => trip_u x t * trip_v x i) = g x.
Proof.
  intros Hk. rewrite mip_comm, mip_comb. apply (sumf_nth_delta _ l g k x Hk). intros j y Hj.
  rewrite mip_rank, (Hu k j x y Hk Hj), (Hv k j x y Hk Hj). destruct (k =? j)%nat eqn:E; [|ring]. apply Nat.eqb_eq in E. subst j.
  rewrite Hk in Hj. injection Hj as ->. ring.
Qed.
Lemma mip_comb2 f g : mip (comb g) (comb f) = sumf (fun x => f x * g x) l.
Proof.
  rewrite mip_comb. apply sumf_ext. intros x Hx. apply In_nth_error in Hx. destruct Hx as [k Hk]. now rewrite (mip_unit_comb g x k Hk).
Qed.

(* Bessel *)
Lemma bessel dim (vec : trip -> nat -> R) (x : nat -> R) : orth l dim vec ->
  sumf (fun y => sumf (fun t => x t * vec y t) (seq 0 dim) * sumf (fun t => x t * vec y t) (seq 0 dim)) l <= vn dim x.
Proof.
  intros Ho. set (c := fun y => sumf (fun t => x t * vec y t) (seq 0 dim)).
  assert (P : 0 <= sumf (fun t => (x t - sumf (fun y => c y * vec y t) l) * (x t - sumf (fun y => c y * vec y t) l)) (seq 0 dim)).
  { apply sumf_nonneg. intros. apply Rle_0_sqr. }
  assert (E1 : sumf (fun t => x t * sumf (fun y => c y * vec y t) l) (seq 0 dim) = sumf (fun y => c y * c y) l).
  { rewrite (sumf_ext _ (fun t => sumf (fun y => c y * (x t * vec y t)) l)) by (intros t _; rewrite <- sumf_scal; apply sumf_ext_all; intros; ring).
    rewrite sumf_swap. apply sumf_ext_all. intros y. rewrite sumf_scal. reflexivity. }
  assert (E2 : sumf (fun t => sumf (fun y => c y * vec y t) l * sumf (fun y => c y * vec y t) l) (seq 0 dim) = sumf (fun y => c y * c y) l).
  { rewrite (sumf_ext _ (fun t => sumf (fun z => sumf (fun y => c z * c y * (vec z t * vec y t)) l) l)).
    - rewrite sumf_swap. apply sumf_ext. intros z Hz. apply In_nth_error in Hz. destruct Hz as [k Hk]. rewrite sumf_swap.
      apply (sumf_nth_delta _ l (fun z => c z * c z) k z Hk). intros j y Hj. rewrite sumf_scal, (Ho k j z y Hk Hj).
      destruct (k =? j)%nat eqn:E; [|ring]. apply Nat.eqb_eq in E. subst j. rewrite Hk in Hj. injection Hj as ->. ring.
    - intros t _. rewrite <- sumf_scal_r. apply sumf_ext_all. intros z. rewrite <- sumf_scal. apply sumf_ext_all. intros y. ring. }
  rewrite (sumf_ext _ (fun t => x t * x t - 2 * (x t * sumf (fun y => c y * vec y t) l) + sumf (fun y => c y * vec y t) l * sumf (fun y => c y * vec y t) l)) in P
    by (intros; ring).
  rewrite sumf_add, sumf_sub, sumf_scal, E1, E2 in P. unfold vn. change (sumf (fun y => c y * c y) l <= sumf (fun t => x t * x t) (seq 0 dim)). lra.
Qed.

Lemma opn_comb g h : 0 <= h -> (forall x, In x l -> 0 <= g x <= h) -> opn T N (comb g) h.
Proof.
  intros Hh Hg x y Hx Hy. rewrite mip_comb.
  rewrite (sumf_ext _ (fun z => g z * (dotu x z * dotv y z))) by (intros z _; now rewrite mip_rank).
  apply Rle_trans with (sumf (fun z => h * ((dotu x z * dotu x z + dotv y z * dotv y z) / 2)) l).
  - apply sumf_le. intros z Hz. specialize (Hg z Hz).
    generalize (dotu x z) (dotv y z). intros u v. assert (P := Rle_0_sqr (u - v)). assert (Q := Rle_0_sqr (u + v)). unfold Rsqr in P, Q.
    assert (u * v <= (u * u + v * v) / 2) by lra. assert (0 <= (u * u + v * v) / 2) by lra.
    apply Rle_trans with (g z * ((u * u + v * v) / 2)); [apply Rmult_le_compat_l; lra|apply Rmult_le_compat_r; lra].
  - rewrite sumf_scal, sumf_div, sumf_add.
    assert (B1 := bessel T trip_u x Hu). assert (B2 := bessel N trip_v y Hv).
    change (sumf (fun y0 => dotu x y0 * dotu x y0) l <= vn T x) in B1. change (sumf (fun z => dotv y z * dotv y z) l <= vn N y) in B2. nra.
Qed.
Lemma unit_vecs x : In x l -> vn T (trip_u x) = 1 /\ vn N (trip_v x) = 1.
Proof. intros Hx. split; [apply (orth_unit l T trip_u x Hu Hx)|apply (orth_unit l N trip_v x Hv Hx)]. Qed.
Lemma nuc_comb f : (forall x, In x l -> 0 <= f x) -> nuc_is T N (comb f) (sumf f l).
Proof.
  intros Hf. split.
  - intros A HA. rewrite mip_comb. apply sumf_le. intros x Hx. destruct (unit_vecs x Hx) as [E1 E2].
    assert (P := HA (trip_u x) (trip_v x) ltac:(lra) ltac:(lra)). rewrite mip_comm. specialize (Hf x Hx). nra.
  - exists (comb (fun _ => 1)). split; [apply opn_comb; [lra|intros; lra]|]. rewrite mip_comb2. apply sumf_ext_all. intros. ring.
Qed.
End Mip.

(* ------------------------------------------------------------------------------------------- *)
(* soft-thresholding is the proximal map of h * nuclear norm, up to the truncation at 1e-10 *)
Definition psoft (h : R) (x : R * (nat -> R) * (nat -> R)) : R :=
  if Rltb svd_tol (Rmax (trip_s x - h) 0) then trip_s x - h else 0.
Definition prox_obj (T N : nat) (M X : mat) (h c : R) : R := mip T N (fun t i => X t i - M t i) (fun t i => X t i - M t i) / 2 + h * c.

Lemma svd_tol_pos : 0 < svd_tol.
Proof. apply Rinv_0_lt_compat, pow_lt. lra. Qed.
Lemma psoft_nonneg h x : 0 <= psoft h x.
Proof.
  unfold psoft. destruct (Rltb _ _) eqn:E; [|lra]. apply Rltb_true in E. assert (P := svd_tol_pos).
  destruct (Rle_dec 0 (trip_s x - h)); [easy|]. rewrite Rmax_right in E by lra. lra.
Qed.
Lemma soft_comb svd T N M l h : 0 < h -> svd T N M = Some l -> forall t i, soft_svd svd T N M (Some h) t i = comb l (psoft h) t i.
Proof.
  intros Hh E t i. unfold soft_svd. destruct (Rle_dec h 0); [lra|]. rewrite E. unfold comb. clear E.
  induction l as [|x l IH]; [easy|]. simpl. unfold trip_s, trip_u, trip_v in IH |- *. unfold psoft at 1, trip_s. destruct (Rltb _ _) eqn:Eb; simpl; rewrite IH.
  - apply Rltb_true in Eb. assert (P := svd_tol_pos).
    assert (Rmax (fst (fst x) - h) 0 = fst (fst x) - h). { destruct (Rle_dec 0 (fst (fst x) - h)); [now apply Rmax_left|]. rewrite Rmax_right in Eb by lra. lra. }
    rewrite H. f_equal. ring.
  - ring.
Qed.

Theorem soft_svd_prox svd T N M l h : svd_ok svd -> 0 < h -> svd T N M = Some l ->
  nuc_is T N (soft_svd svd T N M (Some h)) (sumf (psoft h) l) /\
  forall X c, nuc_le T N X c ->
    prox_obj T N M (soft_svd svd T N M (Some h)) h (sumf (psoft h) l) <= prox_obj T N M X h c + len l * (svd_tol * svd_tol / 2).
Proof.
  intros Hok Hh E. destruct (Hok T N M l E) as (Hs & Hu & Hv & HM).
  assert (EL := soft_comb svd T N M l h Hh E).
  replace (soft_svd svd T N M (Some h)) with (comb l (psoft h)).
  2:{ apply functional_extensionality; intros t; apply functional_extensionality; intros i. now rewrite EL. }
  clear EL. split; [apply nuc_comb; auto; intros; apply psoft_nonneg|]. intros X c HX.
  assert (HMc : forall t i, (t < T)%nat -> (i < N)%nat -> M t i = comb l trip_s t i) by (intros; now apply HM).
  (* value at the result *)
  assert (V : prox_obj T N M (comb l (psoft h)) h (sumf (psoft h) l) = sumf (fun x => (trip_s x - psoft h x) * (trip_s x - psoft h x) / 2 + h * psoft h x) l).
  { unfold prox_obj. rewrite sumf_add, sumf_div, <- sumf_scal. f_equal. f_equal.
    rewrite <- (mip_comb2 T N l Hu Hv (fun x => trip_s x - psoft h x) (fun x => trip_s x - psoft h x)).
    rewrite (mip_ext T N (fun t i => comb l (psoft h) t i - M t i) (fun t i => (-1) * comb l (fun x => trip_s x - psoft h x) t i)
                     (fun t i => comb l (psoft h) t i - M t i) (fun t i => (-1) * comb l (fun x => trip_s x - psoft h x) t i)).
    - rewrite mip_scal_r, mip_comm, mip_scal_r. ring.
    - intros t i Ht Hi. rewrite HMc by easy. unfold comb. rewrite <- sumf_sub, <- sumf_scal. apply sumf_ext_all. intros. ring.
    - intros t i Ht Hi. rewrite HMc by easy. unfold comb. rewrite <- sumf_sub, <- sumf_scal. apply sumf_ext_all. intros. ring. }
  (* lower bound at X *)
  set (g := fun x => Rmin (trip_s x) h). set (p := fun x => Rmax (trip_s x - h) 0).
  assert (Eg : forall x, In x l -> 0 <= g x <= h) by (intros x Hx; unfold g; split; [apply Rmin_glb; [auto|lra]|apply Rmin_r]).
  assert (HG : mip T N (comb l g) X <= h * c).
  { assert (O : opn T N (comb l (fun x => g x / h)) 1).
    { apply opn_comb; auto; [lra|]. intros x Hx. specialize (Eg x Hx). split; [apply Rmult_le_pos; [easy|left; now apply Rinv_0_lt_compat]|].
      apply Rmult_le_reg_r with h; [easy|]. unfold Rdiv. rewrite Rmult_assoc, Rinv_l by lra. lra. }
    specialize (HX _ O). replace (mip T N (comb l g) X) with (h * mip T N (comb l (fun x => g x / h)) X); [nra|].
    rewrite (mip_comm T N (comb l g)), (mip_comm T N (comb l (fun x => g x / h))), !mip_comb, <- sumf_scal. apply sumf_ext_all. intros x. field. lra. }
  assert (LB : sumf (fun x => g x * g x / 2 + h * p x) l <= prox_obj T N M X h c).
  { unfold prox_obj.
    assert (Egp : forall x, trip_s x = g x + p x).
    { intros x. unfold g, p. destruct (Rle_dec (trip_s x) h); [rewrite Rmin_left, Rmax_right by lra; lra|rewrite Rmin_right, Rmax_left by lra; lra]. }
    set (Xp := fun t i => X t i - comb l p t i).
    rewrite (mip_ext T N (fun t i => X t i - M t i) (fun t i => Xp t i - comb l g t i) (fun t i => X t i - M t i) (fun t i => Xp t i - comb l g t i)).
    2,3: intros t i Ht Hi; rewrite HMc by easy; unfold Xp, comb; rewrite (sumf_ext (fun x => trip_s x * trip_u x t * trip_v x i) (fun x => p x * trip_u x t * trip_v x i + g x * trip_u x t * trip_v x i)) by (intros x _; rewrite Egp; ring);
      rewrite sumf_add; ring.
    rewrite mip_sub_r, (mip_comm T N _ Xp), (mip_comm T N _ (comb l g)), !mip_sub_r. rewrite (mip_comm T N Xp (comb l g)).
    assert (EZ : mip T N (comb l g) Xp = mip T N (comb l g) X - sumf (fun x => p x * g x) l) by (unfold Xp; now rewrite mip_sub_r, mip_comb2).
    assert (PZ := mip_nonneg T N Xp). rewrite EZ. rewrite mip_comb2 by easy.
    assert (E3 : sumf (fun x => p x * g x) l = sumf (fun x => h * p x) l).
    { apply sumf_ext. intros x Hx. unfold g, p. destruct (Rle_dec (trip_s x) h); [rewrite Rmax_right by lra; ring|rewrite Rmin_right by lra; ring]. }
    rewrite sumf_add, sumf_div, <- E3. lra. }
  rewrite V. apply Rle_trans with (sumf (fun x => g x * g x / 2 + h * p x + svd_tol * svd_tol / 2) l).
  - apply sumf_le. intros x Hx. unfold psoft, g, p. assert (P := svd_tol_pos). destruct (Rltb _ _) eqn:Eb.
    + apply Rltb_true in Eb. destruct (Rle_dec (trip_s x) h); [rewrite Rmax_right in Eb by lra; lra|]. rewrite Rmin_right, Rmax_left by lra. nra.
    + apply Rltb_false in Eb. destruct (Rle_dec (trip_s x) h).
      * rewrite Rmin_left, Rmax_right by lra. nra.
      * rewrite Rmax_left in Eb by lra. rewrite Rmin_right, Rmax_left by lra. nra.
  - rewrite sumf_add, sumf_const. lra.
Qed.
Lemma soft_svd_le0 svd T N M h : h <= 0 -> soft_svd svd T N M (Some h) = M.
Proof. intros H. unfold soft_svd. now destruct (Rle_dec h 0). Qed.

(* ------------------------------------------------------------------------------------------- *)
(* the inner iterations never increase sum W/Wmax (R - L)^2 / 2 + lambda_nn * nuclear norm *)
Definition svd_len (svd : svd_fn) : Prop := forall T N M l, svd T N M = Some l -> (length l <= Nat.min T N)%nat.
Definition slack (T N : nat) : R := INR (Nat.min T N) * (svd_tol * svd_tol / 2).
Definition qloss (T N : nat) (W Rm L : mat) : R := sumf (fun c => W (fst c) (snd c) * ((Rm (fst c) (snd c) - L (fst c) (snd c)) * (Rm (fst c) (snd c) - L (fst c) (snd c))) / 2) (cells T N).

Section Mono.
Variable svd : svd_fn.
Variables (T N : nat).
Hypothesis Hok : svd_ok svd.
Hypothesis Hlen : svd_len svd.
Hypothesis Htot : forall M, svd T N M <> None.

Lemma prox_step_mono V Rm L h n : (forall t i, (t < T)%nat -> (i < N)%nat -> 0 <= V t i <= 1) -> 0 < h -> nuc_le T N L n ->
  let L' := soft_svd svd T N (fun t i => L t i + V t i * (Rm t i - L t i)) (Some h) in
  exists n', nuc_is T N L' n' /\ qloss T N V Rm L' + h * n' <= qloss T N V Rm L + h * n + slack T N.
Proof.
  intros HV Hh Hn L'. set (M := fun t i => L t i + V t i * (Rm t i - L t i)) in *.
  destruct (svd T N M) as [l|] eqn:E; [|now apply Htot in E].
  destruct (soft_svd_prox svd T N M l h Hok Hh E) as [P Q]. fold L' in P, Q. exists (sumf (psoft h) l). split; [easy|].
  specialize (Q L n Hn). unfold prox_obj in Q.
  assert (S1 : qloss T N V Rm L' <= qloss T N V Rm L + mip T N (fun t i => L' t i - M t i) (fun t i => L' t i - M t i) / 2 - mip T N (fun t i => L t i - M t i) (fun t i => L t i - M t i) / 2).
  { unfold qloss, mip. rewrite <- !sumf_div, <- sumf_add, <- sumf_sub. apply sumf_le. intros [t i] Hc. apply in_cells in Hc. destruct Hc as [Ht Hi].
    cbn [fst snd]. specialize (HV t i Ht Hi). unfold M. set (x := L' t i). set (y := L t i). set (r := Rm t i). set (w := V t i) in *.
    replace ((x - (y + w * (r - y))) * (x - (y + w * (r - y))) / 2) with (((x - y) * (x - y) - 2 * w * (r - y) * (x - y) + w * (r - y) * (w * (r - y))) / 2) by field.
    replace ((y - (y + w * (r - y))) * (y - (y + w * (r - y))) / 2) with (w * (r - y) * (w * (r - y)) / 2) by field.
    clearbody x y r w. assert (A : 0 <= (1 - w) * ((x - y) * (x - y))) by (apply Rmult_le_pos; [lra|apply Rle_0_sqr]).
    apply Rmult_le_reg_r with 2; [lra|].
    replace (w * ((r - x) * (r - x)) / 2 * 2) with (w * ((r - x) * (r - x))) by field.
    match goal with |- _ <= ?e => replace e with (w * ((r - x) * (r - x)) + (1 - w) * ((x - y) * (x - y))) by field end. lra. }
  assert (S2 : len l * (svd_tol * svd_tol / 2) <= slack T N).
  { unfold slack, len. assert (X := svd_tol_pos). apply Rmult_le_compat_r; [nra|]. apply le_INR, (Hlen T N M l E). }
  lra.
Qed.

Lemma slack_nonneg : 0 <= slack T N.
Proof. unfold slack. assert (X := svd_tol_pos). apply Rmult_le_pos; [apply pos_INR|nra]. Qed.

Lemma nn_loop_mono W Rm h tol k : (forall t i, 0 <= W t i) -> 0 < h -> forall L n, nuc_is T N L n ->
  exists n', nuc_is T N (nn_loop svd T N W Rm (Some h) tol k L) n' /\
    qloss T N (wnorm T N W) Rm (nn_loop svd T N W Rm (Some h) tol k L) + h * n' <= qloss T N (wnorm T N W) Rm L + h * n + INR k * slack T N.
Proof.
  intros HW Hh. induction k as [|k IH]; intros L n Hn.
  - exists n. cbn [nn_loop]. simpl INR. split; [easy|lra].
  - cbn [nn_loop]. unfold prox_step.
    destruct (prox_step_mono (wnorm T N W) Rm L h n) as (n1 & N1 & B1); [intros; now apply wnorm_bounds|easy|apply Hn|].
    set (L' := soft_svd svd T N (fun t i => L t i + wnorm T N W t i * (Rm t i - L t i)) (Some h)) in *.
    assert (Sn := slack_nonneg). rewrite S_INR. destruct (Rltb _ _).
    + exists n1. split; [easy|]. assert (0 <= INR k) by apply pos_INR. nra.
    + destruct (IH L' n1 N1) as (n2 & N2 & B2). exists n2. split; [easy|]. lra.
Qed.

(* weighted means minimise the weighted sum of squares *)
Lemma wmean_min {X} (w f : X -> R) l m : (forall x, In x l -> 0 <= w x) ->
  let c := if Rlt_dec 0 (sumf w l) then sumf (fun x => w x * f x) l / sumf w l else 0 in
  sumf (fun x => w x * ((f x - c) * (f x - c))) l <= sumf (fun x => w x * ((f x - m) * (f x - m))) l.
Proof.
  intros Hw c. unfold c. destruct (Rlt_dec 0 (sumf w l)) as [P|P].
  - set (cc := sumf (fun x => w x * f x) l / sumf w l).
    assert (E : sumf (fun x => w x * ((f x - m) * (f x - m))) l = sumf (fun x => w x * ((f x - cc) * (f x - cc))) l + (cc - m) * (cc - m) * sumf w l).
    { rewrite (sumf_ext (fun x => w x * ((f x - m) * (f x - m)))
        (fun x => w x * ((f x - cc) * (f x - cc)) + (2 * (cc - m)) * (w x * f x - w x * cc) + (cc - m) * (cc - m) * w x)) by (intros; ring).
      rewrite !sumf_add, !sumf_scal, sumf_sub, sumf_scal_r. replace (sumf (fun x => w x * f x) l) with (cc * sumf w l) by (unfold cc; field; lra).
      change (sumf (fun x => w x) l) with (sumf w l). ring. }
    rewrite E. assert (0 <= (cc - m) * (cc - m) * sumf w l) by (apply Rmult_le_pos; [apply Rle_0_sqr|lra]). lra.
  - assert (Z : forall x, In x l -> w x = 0).
    { intros x Hx. destruct (Req_dec (w x) 0); [easy|]. exfalso. apply P. apply sumf_pos; [easy|]. exists x. split; [easy|]. specialize (Hw x Hx). lra. }
    apply Req_le. apply sumf_ext. intros x Hx. rewrite (Z x Hx). ring.
Qed.

(* the estimation objective: half the weighted sum of squared residuals + Wmax * lambda_nn * nuclear norm *)
Definition ssr (W Yz : mat) (s : tstate) : R :=
  sumf (fun c => let e := Yz (fst c) (snd c) - ta s (snd c) - tb s (fst c) - tlo s (fst c) (snd c) in W (fst c) (snd c) * (e * e) / 2) (cells T N).
Lemma ssr_rows W Yz s : ssr W Yz s = sumf (fun t => sumf (fun i => W t i * ((Yz t i - tlo s t i - ta s i - tb s t) * (Yz t i - tlo s t i - ta s i - tb s t))) (seq 0 N)) (seq 0 T) / 2.
Proof.
  unfold ssr. rewrite (sumf_cells (fun t i => let e := Yz t i - ta s i - tb s t - tlo s t i in W t i * (e * e) / 2)). rewrite <- sumf_div.
  apply sumf_ext_all. intros t. rewrite <- sumf_div. apply sumf_ext_all. intros i. cbv zeta. field.
Qed.
Lemma ssr_cols W Yz s : ssr W Yz s = sumf (fun i => sumf (fun t => W t i * ((Yz t i - tlo s t i - tb s t - ta s i) * (Yz t i - tlo s t i - tb s t - ta s i))) (seq 0 T)) (seq 0 N) / 2.
Proof.
  rewrite ssr_rows. f_equal. rewrite sumf_swap. apply sumf_ext_all. intros i. apply sumf_ext_all. intros t. ring.
Qed.
Lemma alpha_step W Yz s : (forall t i, 0 <= W t i) ->
  ssr W Yz {| ta := unit_mean T W (fun t i => Yz t i - tlo s t i - tb s t); tb := tb s; tlo := tlo s |} <= ssr W Yz s.
Proof.
  intros HW. rewrite !ssr_cols. cbn [ta tb tlo]. apply Rmult_le_compat_r; [lra|]. apply sumf_le. intros i Hi.
  apply (wmean_min (fun t => W t i) (fun t => Yz t i - tlo s t i - tb s t) (seq 0 T) (ta s i)). auto.
Qed.
Lemma beta_step W Yz s : (forall t i, 0 <= W t i) ->
  ssr W Yz {| ta := ta s; tb := time_mean N W (fun t i => Yz t i - tlo s t i - ta s i); tlo := tlo s |} <= ssr W Yz s.
Proof.
  intros HW. rewrite !ssr_rows. cbn [ta tb tlo]. apply Rmult_le_compat_r; [lra|]. apply sumf_le. intros t Ht.
  apply (wmean_min (fun i => W t i) (fun i => Yz t i - tlo s t i - ta s i) (seq 0 N) (tb s t)). auto.
Qed.

Lemma wnorm_scale W : (forall t i, 0 <= W t i) -> forall t i, (t < T)%nat -> (i < N)%nat -> W t i = wmax T N W * wnorm T N W t i.
Proof.
  intros HW t i Ht Hi. unfold wnorm. destruct (Rlt_dec 0 (wmax T N W)); [field; lra|].
  assert (A : Rabs (W t i) <= wmax T N W).
  { unfold wmax. apply (maxabs_ge (fun c => W (fst c) (snd c)) (cells T N) (t, i)). apply in_cells. auto. }
  rewrite Rabs_pos_eq in A by auto. specialize (HW t i). assert (W t i = 0) by lra. rewrite H. ring.
Qed.
Lemma qloss_ssr W Yz a b L0 L : (forall t i, 0 <= W t i) ->
  wmax T N W * qloss T N (wnorm T N W) (masked_target W Yz a b L0) L = ssr W Yz {| ta := a; tb := b; tlo := L |}.
Proof.
  intros HW. unfold qloss, ssr. rewrite <- sumf_scal. apply sumf_ext. intros [t i] Hc. apply in_cells in Hc. destruct Hc as [Ht Hi]. cbn [fst snd ta tb tlo]. cbv zeta.
  rewrite (wnorm_scale W HW t i Ht Hi). unfold masked_target. destruct (Rlt_dec 0 (W t i)) as [P|P]; [field|].
  assert (Z : wmax T N W * wnorm T N W t i = 0) by (rewrite <- wnorm_scale by easy; specialize (HW t i); lra).
  unfold Rdiv. rewrite <- !Rmult_assoc, !Z. ring.
Qed.
Lemma wmax_nonneg W : 0 <= wmax T N W.
Proof. apply maxabs_nonneg. Qed.

(* one pass of the alternating estimation does not increase the objective (up to the truncation) *)
Theorem est_step_mono W Yz h tol s n : (forall t i, 0 <= W t i) -> 0 < h -> nuc_is T N (tlo s) n ->
  exists n', nuc_is T N (tlo (est_step svd T N W Yz (Some h) tol s)) n' /\
    ssr W Yz (est_step svd T N W Yz (Some h) tol s) + wmax T N W * h * n' <= ssr W Yz s + wmax T N W * h * n + wmax T N W * (10 * slack T N).
Proof.
  intros HW Hh Hn. unfold est_step.
  set (A := unit_mean T W (fun t i => Yz t i - tlo s t i - tb s t)). set (B := time_mean N W (fun t i => Yz t i - tlo s t i - A i)). cbn [tlo].
  unfold nn_solve. destruct (Rle_dec h 0); [lra|].
  destruct (nn_loop_mono W (masked_target W Yz A B (tlo s)) h tol 10 HW Hh (tlo s) n Hn) as (n' & N' & B').
  exists n'. split; [easy|].
  assert (Sa := alpha_step W Yz s HW). fold A in Sa.
  assert (Sb := beta_step W Yz {| ta := A; tb := tb s; tlo := tlo s |} HW). cbn [ta tlo] in Sb. fold B in Sb.
  rewrite <- (qloss_ssr W Yz A B (tlo s) (tlo s) HW) in Sb.
  rewrite <- (qloss_ssr W Yz A B (tlo s) _ HW).
  assert (P := wmax_nonneg W). replace (INR 10) with 10 in B' by (simpl; lra).
  apply (Rmult_le_compat_l (wmax T N W)) in B'; [|easy]. rewrite !Rmult_plus_distr_l in B'. lra.
Qed.
Lemma nuc_zero : nuc_is T N zmat 0.
Proof.
  split.
  - intros A _. unfold mip. rewrite sumf_zero; [lra|]. intros; unfold zmat; ring.
  - exists zmat. split; [|unfold mip; apply sumf_zero; intros; unfold zmat; ring].
    intros x y _ _. unfold mip. rewrite sumf_zero; [lra|]. intros; unfold zmat; ring.
Qed.
(* so the objective at the returned estimate is at most its value at alpha = beta = L = 0 *)
Theorem estimate_mono W Yz h tol k : (forall t i, 0 <= W t i) -> 0 < h -> forall s n, nuc_is T N (tlo s) n ->
  exists n', nuc_is T N (tlo (est_loop svd T N W Yz (Some h) tol k s)) n' /\
    ssr W Yz (est_loop svd T N W Yz (Some h) tol k s) + wmax T N W * h * n' <= ssr W Yz s + wmax T N W * h * n + INR k * (wmax T N W * (10 * slack T N)).
Proof.
  intros HW Hh. induction k as [|k IH]; intros s n Hn.
  - exists n. cbn [est_loop]. simpl INR. split; [easy|lra].
  - cbn [est_loop]. destruct (est_step_mono W Yz h tol s n HW Hh Hn) as (n1 & N1 & B1).
    set (s' := est_step svd T N W Yz (Some h) tol s) in *. rewrite S_INR.
    assert (P := wmax_nonneg W). assert (Q := slack_nonneg). assert (Z : 0 <= INR k * (wmax T N W * (10 * slack T N))).
    { apply Rmult_le_pos; [apply pos_INR|]. apply Rmult_le_pos; lra. }
    destruct (Rltb _ _); [exists n1; split; [easy|lra]|]. destruct (IH s' n1 N1) as (n2 & N2 & B2). exists n2. split; [easy|]. lra.
Qed.
End Mono.

(* TROP: the compiled fast paths against the Python code. *)
From Verif Require Import Prelude Flt Stats_model Stats_proofs Linalg_model Linalg_thms Multi_model Trop_model Trop_proofs Trop_thms Trop_conv Trop_obj Trop_sel Trop_rust.
From Coq Require Import Arith ZArith String List FunctionalExtensionality.
Import ListNotations.
Open Scope R_scope.

(* ------------------------------------------------------------------------------------------- *)
(* distances *)
Lemma fold_acc (f : nat -> R) (p : nat -> bool) (step : R * nat -> nat -> R * nat) l :
  (forall acc t, step acc t = if p t then (fst acc + f t, S (snd acc)) else acc) -> forall q n,
  fold_left step l (q, n) = (q + sumf f (filter p l), (n + length (filter p l))%nat).
Proof.
  intros Hs. induction l as [|t l IH]; intros q n; cbn [fold_left filter].
  - simpl. f_equal; [ring|lia].
  - rewrite Hs. destruct (p t); rewrite IH; cbn [fst snd sumf length]; f_equal; try ring; lia.
Qed.
Lemma r_pair_eq T Y D j i : r_pair T Y D j i =
  match filter (avalid Y D j i) (seq 0 T) with
  | [] => None
  | v => Some (sqrt (sumf (fun s => (ysafe Y s j - ysafe Y s i) * (ysafe Y s j - ysafe Y s i)) v / len v))
  end.
Proof.
  unfold r_pair. rewrite (fold_acc (fun t => (ysafe Y t i - ysafe Y t j) * (ysafe Y t i - ysafe Y t j)) (avalid Y D j i)) by reflexivity.
  set (v := filter _ _). destruct v as [|x v']; [reflexivity|]. set (w := x :: v') in *.
  replace (0 <? 0 + length w)%nat with true by reflexivity. do 2 f_equal. unfold Rdiv. f_equal. rewrite Rplus_0_l. apply sumf_ext_all. intros. ring.
Qed.
Lemma avalid_sym Y D j i s : avalid Y D j i s = avalid Y D i j s.
Proof. apply andb_comm. Qed.
Theorem r_dist_all_eq T Y D j i : r_dist_all T Y D j i = dist_all T Y D j i.
Proof.
  unfold r_dist_all, dist_all. destruct (j =? i)%nat; [easy|]. destruct (j <? i)%nat; rewrite r_pair_eq; [easy|].
  rewrite (filter_ext _ _ (avalid_sym Y D i j)). destruct (filter _ _) as [|x v]; [easy|]. cbv zeta iota. do 3 f_equal.
  apply sumf_ext_all. intros. ring.
Qed.
Theorem r_dist_obs_eq T Y D j i t : r_dist_obs T Y D j i t = dist_obs T Y D j i t.
Proof.
  unfold r_dist_obs, dist_obs.
  rewrite (fold_acc (fun s => (ysafe Y s i - ysafe Y s j) * (ysafe Y s i - ysafe Y s j)) (dvalid Y D j i t)).
  - set (v := filter _ _). destruct v as [|x v']; [reflexivity|]. set (w := x :: v') in *.
    replace (0 <? 0 + length w)%nat with true by reflexivity. unfold meanf, len. rewrite Rplus_0_l. reflexivity.
  - intros acc s. unfold r_acc_obs, dvalid. destruct (s =? t)%nat; [easy|]. cbn [negb andb]. reflexivity.
Qed.

(* ------------------------------------------------------------------------------------------- *)
(* weights *)
Lemma time_w_pos lt t s : 0 < time_w lt t s.
Proof. apply exp_pos. Qed.
Lemma r_unit_raw_nonneg T Y D lu i t j : 0 <= r_unit_raw T Y D lu i t j.
Proof.
  unfold r_unit_raw. destruct (j =? i)%nat; [lra|]. destruct (Reqb lu 0); [lra|]. destruct (r_dist_obs _ _ _ _ _ _); [left; apply exp_pos|lra].
Qed.
Lemma time_sum_pos lt t T : (0 < T)%nat -> 0 < sumf (time_w lt t) (seq 0 T).
Proof.
  intros HT. apply Rlt_le_trans with (time_w lt t 0); [apply time_w_pos|].
  apply (sumf_In_le (time_w lt t)); [intros; left; apply time_w_pos|apply in_seq; lia].
Qed.
Lemma raw_sum_pos T N Y D lu i t : (i < N)%nat -> 0 < sumf (r_unit_raw T Y D lu i t) (seq 0 N).
Proof.
  intros Hi. apply Rlt_le_trans with (r_unit_raw T Y D lu i t i).
  - unfold r_unit_raw. rewrite Nat.eqb_refl. lra.
  - apply (sumf_In_le (r_unit_raw T Y D lu i t)); [intros; apply r_unit_raw_nonneg|apply in_seq; lia].
Qed.
Lemma r_w_eq T N Y D lt lu i t s j : (0 < T)%nat -> (i < N)%nat ->
  r_w T N Y D lt lu i t s j = (time_w lt t s * r_unit_raw T Y D lu i t j) / (sumf (time_w lt t) (seq 0 T) * sumf (r_unit_raw T Y D lu i t) (seq 0 N)).
Proof.
  intros HT Hi. assert (A := time_sum_pos lt t T HT). assert (B := raw_sum_pos T N Y D lu i t Hi). unfold r_w, r_normalised.
  destruct (Rlt_dec _ _); [|lra]. destruct (Rlt_dec _ _); [|lra]. field. lra.
Qed.
Lemma r_w_nonneg T N Y D lt lu i t s j : (0 < T)%nat -> (i < N)%nat -> 0 <= r_w T N Y D lt lu i t s j.
Proof.
  intros HT Hi. rewrite r_w_eq by easy. assert (A := time_sum_pos lt t T HT). assert (B := raw_sum_pos T N Y D lu i t Hi).
  apply Rmult_le_pos; [apply Rmult_le_pos; [left; apply time_w_pos|apply r_unit_raw_nonneg]|]. left. apply Rinv_0_lt_compat. now apply Rmult_lt_0_compat.
Qed.
Lemma r_w_le1 T N Y D lt lu i t s j : (i < N)%nat -> (s < T)%nat -> (j < N)%nat -> r_w T N Y D lt lu i t s j <= 1.
Proof.
  intros Hi Hs Hj. assert (HT : (0 < T)%nat) by lia. rewrite r_w_eq by easy. assert (A := time_sum_pos lt t T HT). assert (B := raw_sum_pos T N Y D lu i t Hi).
  assert (C : 0 < sumf (time_w lt t) (seq 0 T) * sumf (r_unit_raw T Y D lu i t) (seq 0 N)) by now apply Rmult_lt_0_compat.
  apply Rmult_le_reg_r with (sumf (time_w lt t) (seq 0 T) * sumf (r_unit_raw T Y D lu i t) (seq 0 N)); [easy|].
  unfold Rdiv. rewrite Rmult_assoc, Rinv_l, Rmult_1_r, Rmult_1_l by lra. apply Rmult_le_compat; [left; apply time_w_pos|apply r_unit_raw_nonneg| |].
  - apply (sumf_In_le (time_w lt t)); [intros; left; apply time_w_pos|apply in_seq; lia].
  - apply (sumf_In_le (r_unit_raw T Y D lu i t)); [intros; apply r_unit_raw_nonneg|apply in_seq; lia].
Qed.
Theorem r_w_total T N Y D lt lu i t : (0 < T)%nat -> (i < N)%nat ->
  sumf (fun s => sumf (fun j => r_w T N Y D lt lu i t s j) (seq 0 N)) (seq 0 T) = 1.
Proof.
  intros HT Hi. assert (A := time_sum_pos lt t T HT). assert (B := raw_sum_pos T N Y D lu i t Hi).
  rewrite (sumf_ext _ (fun s => / sumf (time_w lt t) (seq 0 T) * time_w lt t s)).
  - rewrite sumf_scal. field. lra.
  - intros s _. rewrite (sumf_ext _ (fun j => (time_w lt t s / (sumf (time_w lt t) (seq 0 T) * sumf (r_unit_raw T Y D lu i t) (seq 0 N))) * r_unit_raw T Y D lu i t j)).
    + rewrite sumf_scal. field. lra.
    + intros j _. rewrite r_w_eq by easy. field. lra.
Qed.
(* where no unit is treated in the target period the two weight matrices are proportional *)
Definition w_scale (T N : nat) (Y : omat) (D : dmat) (lt lu : R) (i t : nat) : R :=
  / (sumf (time_w lt t) (seq 0 T) * sumf (r_unit_raw T Y D lu i t) (seq 0 N)).
Lemma w_scale_pos T N Y D lt lu i t : (0 < T)%nat -> (i < N)%nat -> 0 < w_scale T N Y D lt lu i t.
Proof. intros. apply Rinv_0_lt_compat, Rmult_lt_0_compat; [now apply time_sum_pos|now apply raw_sum_pos]. Qed.
Lemma r_w_prop T N Y D lt lu i t s j : (0 < T)%nat -> (i < N)%nat -> D t j = 0%Z ->
  r_w T N Y D lt lu i t s j = w_scale T N Y D lt lu i t * obs_w (Some (Y, D)) T Y D lt lu i t s j.
Proof.
  intros HT Hi Hd. rewrite r_w_eq by easy. unfold w_scale, obs_w, unit_w, r_unit_raw at 1. rewrite Hd, r_dist_obs_eq. cbn [negb Z.eqb]. unfold Rdiv. ring.
Qed.
(* where unit j is treated in the target period Python drops it and the compiled code does not *)
Theorem r_w_treated T N Y D lt i t s j : (0 < T)%nat -> (i < N)%nat -> j <> i -> D t j = 1%Z ->
  obs_w (Some (Y, D)) T Y D lt 0 i t s j = 0 /\ 0 < r_w T N Y D lt 0 i t s j.
Proof.
  intros HT Hi Hj Hd. split.
  - unfold obs_w, unit_w. apply Nat.eqb_neq in Hj. rewrite Hj, Hd. cbn. ring.
  - rewrite r_w_eq by easy. apply Rmult_lt_0_compat; [|now apply w_scale_pos].
    apply Rmult_lt_0_compat; [apply time_w_pos|]. unfold r_unit_raw. rewrite Reqb_refl. destruct (j =? i)%nat; lra.
Qed.

(* ------------------------------------------------------------------------------------------- *)
(* only the ratio of penalty and weights matters to the compiled fit *)
Lemma wmax_scal T N W c : 0 <= c -> wmax T N (fun t i => c * W t i) = c * wmax T N W.
Proof.
  intros Hc. unfold wmax, maxabs. induction (cells T N) as [|x l IH]; simpl; [ring|]. rewrite IH, Rabs_mult, (Rabs_pos_eq c) by easy.
  now rewrite RmaxRmult.
Qed.
Lemma r_alpha_scal T W Z old c : 0 < c -> r_alpha T (fun t i => c * W t i) Z old = r_alpha T W Z old.
Proof.
  intros Hc. apply functional_extensionality. intros i. unfold r_alpha. cbv zeta. rewrite sumf_scal.
  replace (sumf (fun t => c * W t i * Z t i) (seq 0 T)) with (c * sumf (fun t => W t i * Z t i) (seq 0 T))
    by (rewrite <- sumf_scal; apply sumf_ext_all; intros; ring).
  destruct (Rlt_dec 0 (c * _)) as [H|H]; destruct (Rlt_dec 0 (sumf _ _)) as [H'|H']; try reflexivity; [field; split; lra| |]; exfalso; nra.
Qed.
Lemma r_beta_scal N W Z old c : 0 < c -> r_beta N (fun t i => c * W t i) Z old = r_beta N W Z old.
Proof.
  intros Hc. apply functional_extensionality. intros t. unfold r_beta. cbv zeta.
  replace (sumf (fun i => c * W t i) (seq 0 N)) with (c * sumf (fun i => W t i) (seq 0 N)) by (rewrite <- sumf_scal; reflexivity).
  replace (sumf (fun i => c * W t i * Z t i) (seq 0 N)) with (c * sumf (fun i => W t i * Z t i) (seq 0 N))
    by (rewrite <- sumf_scal; apply sumf_ext_all; intros; ring).
  destruct (Rlt_dec 0 (c * _)) as [H|H]; destruct (Rlt_dec 0 (sumf _ _)) as [H'|H']; try reflexivity; [field; split; lra| |]; exfalso; nra.
Qed.
Lemma r_step_scal svd T N W Yz h s c : 0 < c -> 0 < wmax T N W -> r_step svd T N (fun t i => c * W t i) Yz (c * h) s = r_step svd T N W Yz h s.
Proof.
  intros Hc Hw. unfold r_step. rewrite r_alpha_scal, r_beta_scal by easy. cbv zeta.
  assert (Eeta : r_eta T N (fun t i => c * W t i) = r_eta T N W / c).
  { unfold r_eta. rewrite wmax_scal by lra. destruct (Rlt_dec _ _) as [H|H]; [|exfalso; apply H; now apply Rmult_lt_0_compat].
    destruct (Rlt_dec _ _); [|lra]. field. lra. }
  f_equal. rewrite Eeta. replace (r_eta T N W / c * (c * h)) with (r_eta T N W * h) by (field; lra). f_equal.
  unfold r_grad. rewrite Eeta. apply functional_extensionality. intros t. apply functional_extensionality. intros i. field. lra.
Qed.
Theorem r_loop_scal svd T N W Yz h tol c k s : 0 < c -> 0 < wmax T N W ->
  r_loop svd T N (fun t i => c * W t i) Yz (c * h) tol k s = r_loop svd T N W Yz h tol k s.
Proof.
  intros Hc Hw. revert s. induction k; intros s; [easy|]. cbn [r_loop]. rewrite r_step_scal by easy. cbv zeta. destruct (Rltb _ _); [easy|apply IHk].
Qed.

(* ------------------------------------------------------------------------------------------- *)
(* agreement when the low-rank component is off *)
Lemma wavg_abs {A} (w f : A -> R) l B : (forall x, In x l -> 0 <= w x) -> 0 < sumf w l -> (forall x, In x l -> Rabs (f x) <= B) ->
  Rabs (sumf (fun x => w x * f x) l / sumf w l) <= B.
Proof.
  intros Hw Hs Hf. assert (P := wmean_bounds w f l (- B) B Hw Hs). apply Rabs_le. apply P. intros x Hx _. specialize (Hf x Hx).
  split; [|apply Rle_trans with (Rabs (f x)); [apply Rle_abs|easy]]. assert (Q := Rle_abs (- f x)). rewrite Rabs_Ropp in Q. lra.
Qed.
Lemma maxabs_mult {A} (f : A -> R) l b : 0 <= b -> (forall x, In x l -> Rabs (f x) <= b) -> maxabs f l <= b.
Proof. apply maxabs_le. Qed.

Section Agree.
Variable svd : svd_fn.
Variables (T N : nat) (W W' Yz : mat) (h tol c M : R) (K : nat).
Hypothesis Hsvd : svd_ok svd.
Hypothesis HW : forall t i, 0 <= W t i.
Hypothesis HW' : forall t i, 0 <= W' t i.
Hypothesis Hc : 0 < c.
Hypothesis Hprop : forall t i, (t < T)%nat -> (i < N)%nat -> W' t i = c * W t i.
Hypothesis HW1 : forall t i, (t < T)%nat -> (i < N)%nat -> W' t i <= 1.
Hypothesis HM : forall t i, (t < T)%nat -> (i < N)%nat -> Rabs (Yz t i) <= M.
Hypothesis HM0 : 0 <= M.
Hypothesis Hoff : off T N (Some h) (4 * INR K * M).

Definition agree (n : nat) (s s' : tstate) : Prop :=
  (forall i, (i < N)%nat -> ta s' i = ta s i) /\ (forall t, (t < T)%nat -> tb s' t = tb s t) /\ tlo s = zmat /\ tlo s' = zmat /\
  (forall t, (t < T)%nat -> Rabs (tb s t) <= 2 * INR n * M) /\
  (forall i, (i < N)%nat -> ~ 0 < sumf (fun t => W t i) (seq 0 T) -> ta s i = 0) /\
  (forall t, (t < T)%nat -> ~ 0 < sumf (fun i => W t i) (seq 0 N) -> tb s t = 0).

Lemma sum_col i : (i < N)%nat -> sumf (fun t => W' t i) (seq 0 T) = c * sumf (fun t => W t i) (seq 0 T).
Proof. intros Hi. rewrite <- sumf_scal. apply sumf_ext. intros t Ht. apply in_seq in Ht. apply Hprop; [lia|easy]. Qed.
Lemma sum_row t : (t < T)%nat -> sumf (fun i => W' t i) (seq 0 N) = c * sumf (fun i => W t i) (seq 0 N).
Proof. intros Ht. rewrite <- sumf_scal. apply sumf_ext. intros i Hi. apply in_seq in Hi. apply Hprop; [easy|lia]. Qed.
Lemma eta_ge1 : 1 <= r_eta T N W'.
Proof.
  unfold r_eta. destruct (Rlt_dec _ _) as [H|H]; [|lra].
  assert (A : wmax T N W' <= 1).
  { unfold wmax. apply maxabs_le; [lra|]. intros [t i] Hx. apply in_cells in Hx. cbn [fst snd]. rewrite Rabs_pos_eq by apply HW'. apply HW1; tauto. }
  apply Rmult_le_reg_r with (wmax T N W'); [easy|]. unfold Rdiv. rewrite Rmult_assoc, Rinv_l by lra. lra.
Qed.
Lemma eta_w t i : (t < T)%nat -> (i < N)%nat -> 0 <= r_eta T N W' * W' t i <= 1.
Proof.
  intros Ht Hi. assert (A := wnorm_bounds T N W' t i HW' Ht Hi). unfold wnorm in A. unfold r_eta. destruct (Rlt_dec _ _) as [H|H]; [|lra].
  replace (1 / wmax T N W' * W' t i) with (W' t i / wmax T N W') by (field; lra). easy.
Qed.

Lemma agree_step n s s' : (n < K)%nat -> agree n s s' -> agree (S n) (est_step svd T N W Yz (Some h) tol s) (r_step svd T N W' Yz h s').
Proof.
  intros Hn (Ha & Hb & Hl & Hl' & Bb & Za & Zb).
  set (a := unit_mean T W (fun t i => Yz t i - tlo s t i - tb s t)).
  set (a' := r_alpha T W' (fun t i => Yz t i - tlo s' t i - tb s' t) (ta s')).
  set (b := time_mean N W (fun t i => Yz t i - tlo s t i - a i)).
  set (b' := r_beta N W' (fun t i => Yz t i - tlo s' t i - a' i) (tb s')).
  assert (Hn0 : 0 <= INR n) by apply pos_INR.
  assert (Hn1 : INR n + 1 <= INR K) by (rewrite <- S_INR; apply le_INR; lia).
  assert (Ea : forall i, (i < N)%nat -> a' i = a i).
  { intros i Hi. unfold a', a, r_alpha, unit_mean. rewrite sum_col by easy. rewrite Hl, Hl'.
    assert (Za' := Za i Hi). set (w := sumf (fun t => W t i) (seq 0 T)) in *.
    replace (sumf (fun t => W' t i * (Yz t i - zmat t i - tb s' t)) (seq 0 T)) with (c * sumf (fun t => W t i * (Yz t i - zmat t i - tb s t)) (seq 0 T)).
    2:{ rewrite <- sumf_scal. apply sumf_ext. intros t Ht. apply in_seq in Ht. rewrite Hprop, Hb by (easy || lia). ring. }
    destruct (Rlt_dec 0 (c * w)) as [H|H]; destruct (Rlt_dec 0 w) as [H'|H']; [field; split; lra|exfalso; nra|exfalso; nra|].
    rewrite Ha by easy. now apply Za'. }
  assert (Eb : forall t, (t < T)%nat -> b' t = b t).
  { intros t Ht. unfold b', b, r_beta, time_mean. rewrite sum_row by easy. rewrite Hl, Hl'.
    assert (Zb' := Zb t Ht). set (w := sumf (fun i => W t i) (seq 0 N)) in *.
    replace (sumf (fun i => W' t i * (Yz t i - zmat t i - a' i)) (seq 0 N)) with (c * sumf (fun i => W t i * (Yz t i - zmat t i - a i)) (seq 0 N)).
    2:{ rewrite <- sumf_scal. apply sumf_ext. intros i Hi. apply in_seq in Hi. rewrite Hprop, Ea by (easy || lia). ring. }
    destruct (Rlt_dec 0 (c * w)) as [H|H]; destruct (Rlt_dec 0 w) as [H'|H']; [field; split; lra|exfalso; nra|exfalso; nra|].
    rewrite Hb by easy. now apply Zb'. }
  assert (Ba : forall i, (i < N)%nat -> Rabs (a i) <= (2 * INR n + 1) * M).
  { intros i Hi. unfold a, unit_mean. destruct (Rlt_dec _ _) as [H|H]; [|rewrite Rabs_R0; nra].
    apply (wavg_abs (fun t => W t i) (fun t => Yz t i - tlo s t i - tb s t)); [auto|easy|]. intros t Ht. apply in_seq in Ht.
    rewrite Hl. unfold zmat. replace (Yz t i - 0 - tb s t) with (Yz t i + - tb s t) by ring. eapply Rle_trans; [apply Rabs_triang|].
    rewrite Rabs_Ropp. assert (Rabs (Yz t i) <= M) by (apply HM; [lia|easy]). assert (Rabs (tb s t) <= 2 * INR n * M) by (apply Bb; lia). lra. }
  assert (Bb1 : forall t, (t < T)%nat -> Rabs (b t) <= (2 * INR n + 2) * M).
  { intros t Ht. unfold b, time_mean. destruct (Rlt_dec _ _) as [H|H]; [|rewrite Rabs_R0; nra].
    apply (wavg_abs (fun i => W t i) (fun i => Yz t i - tlo s t i - a i)); [auto|easy|]. intros i Hi. apply in_seq in Hi.
    rewrite Hl. unfold zmat. replace (Yz t i - 0 - a i) with (Yz t i + - a i) by ring. eapply Rle_trans; [apply Rabs_triang|].
    rewrite Rabs_Ropp. assert (Rabs (Yz t i) <= M) by (apply HM; [easy|lia]). assert (Rabs (a i) <= (2 * INR n + 1) * M) by (apply Ba; lia). lra. }
  assert (BR : forall t i, (t < T)%nat -> (i < N)%nat -> Rabs (Yz t i - a i - b t) <= 4 * INR K * M).
  { intros t i Ht Hi. replace (Yz t i - a i - b t) with (Yz t i + (- a i + - b t)) by ring. eapply Rle_trans; [apply Rabs_triang|].
    assert (Q := Rabs_triang (- a i) (- b t)). rewrite !Rabs_Ropp in Q.
    assert (Q1 := HM t i Ht Hi). assert (Q2 := Ba i Hi). assert (Q3 := Bb1 t Ht). apply Rle_trans with ((4 * INR n + 4) * M); [lra|].
    apply Rmult_le_compat_r; lra. }
  assert (Hc0 : 0 <= 4 * INR K * M) by (assert (P := pos_INR K); nra).
  assert (L1 : nn_solve svd T N W Yz a b (Some h) tol (tlo s) = zmat).
  { rewrite Hl. apply (nn_solve_off svd T N W Yz a b (Some h) tol (4 * INR K * M)); auto. }
  assert (L2 : soft_svd svd T N (r_grad T N W' Yz a' b' (tlo s')) (Some (r_eta T N W' * h)) = zmat).
  { destruct Hoff as [Hh Hf]. assert (E1 := eta_ge1). assert (E0 : h <= r_eta T N W' * h) by nra. apply soft_svd_zero; [easy|lra|].
    apply Rle_trans with (h * h); [|apply Rmult_le_compat; lra]. eapply Rle_trans; [|exact Hf]. apply mip_le; [easy|]. intros t i Ht Hi. unfold r_grad.
    rewrite Hl'. unfold zmat. rewrite Ea, Eb by easy. rewrite Rplus_0_l, Rminus_0_r, Rabs_mult.
    assert (E2 := eta_w t i Ht Hi). rewrite (Rabs_pos_eq (r_eta T N W' * W' t i)) by lra. assert (E3 := BR t i Ht Hi).
    assert (E4 := Rabs_pos (Yz t i - a i - b t)). nra. }
  unfold agree, est_step, r_step. cbv zeta. fold a b a' b'. cbn [ta tb tlo]. rewrite L1, L2. repeat split; auto.
  - intros t Ht. rewrite S_INR. replace (2 * (INR n + 1) * M) with ((2 * INR n + 2) * M) by ring. now apply Bb1.
  - intros i Hi H. unfold a, unit_mean. destruct (Rlt_dec _ _); [easy|reflexivity].
  - intros t Ht H. unfold b, time_mean. destruct (Rlt_dec _ _); [easy|reflexivity].
Qed.
Lemma agree_diff n m s s' s1 s1' : agree n s s' -> agree m s1 s1' -> st_diff T N s s1 = st_diff T N s' s1'.
Proof.
  intros (A1 & A2 & A3 & A4 & _) (B1 & B2 & B3 & B4 & _). unfold st_diff, mdiff. rewrite A3, A4, B3, B4. f_equal. f_equal.
  - apply maxabs_ext. intros i Hi. apply in_seq in Hi. rewrite A1, B1 by lia. reflexivity.
  - apply maxabs_ext. intros t Ht. apply in_seq in Ht. rewrite A2, B2 by lia. reflexivity.
Qed.
Lemma agree_loop k : forall n s s', (n + k <= K)%nat -> agree n s s' ->
  exists m, agree m (est_loop svd T N W Yz (Some h) tol k s) (r_loop svd T N W' Yz h tol k s').
Proof.
  induction k; intros n s s' Hk H; [now exists n|]. cbn [est_loop r_loop]. cbv zeta.
  assert (H1 := agree_step n s s' ltac:(lia) H). rewrite <- (agree_diff _ _ _ _ _ _ H H1). destruct (Rltb _ _); [now exists (S n)|].
  apply (IHk (S n)); [lia|easy].
Qed.
Lemma agree_zero : agree 0 tzero tzero.
Proof. repeat split; auto. intros t Ht. cbn. rewrite Rabs_R0. lra. Qed.
End Agree.

(* pseudo-effects and effects in a period without treated units *)
Theorem r_fit_agrees svd T N Y D lt lu h maxit tol ex t i M : svd_ok svd -> (t < T)%nat -> (i < N)%nat ->
  (forall j, (j < N)%nat -> D t j = 0%Z) -> 0 <= M -> (forall s j, (s < T)%nat -> (j < N)%nat -> Rabs (ysafe Y s j) <= M) ->
  0 < h -> INR T * INR N * ((4 * INR maxit * M) * (4 * INR maxit * M)) <= h * h ->
  r_fit_at svd T N Y D lt lu h maxit tol ex (t, i) = fit_at svd (Some (Y, D)) T N Y D lt lu (Some h) maxit tol ex (t, i).
Proof.
  intros Hok Ht Hi HD HM0 HM Hh Hoff. unfold r_fit_at, fit_at, tau. destruct (Y t i) as [r|]; [|easy].
  set (W := masked Y D ex (obs_w (Some (Y, D)) T Y D lt lu i t)). set (W' := masked Y D ex (r_w T N Y D lt lu i t)).
  assert (HT : (0 < T)%nat) by lia.
  destruct (agree_loop svd T N W W' (ysafe Y) h tol (w_scale T N Y D lt lu i t) M maxit Hok) with (k := maxit) (n := 0%nat) (s := tzero) (s' := tzero) as [m (A1 & A2 & A3 & A4 & _)]; auto.
  - intros s j. unfold W, masked. destruct (mask _ _ _ _ _); [apply obs_w_nonneg|lra].
  - intros s j. unfold W', masked. destruct (mask _ _ _ _ _); [now apply r_w_nonneg|lra].
  - now apply w_scale_pos.
  - intros s j Hs Hj. unfold W, W', masked. destruct (mask _ _ _ _ _); [apply r_w_prop; auto|ring].
  - intros s j Hs Hj. unfold W', masked. destruct (mask _ _ _ _ _); [now apply r_w_le1|lra].
  - split; easy.
  - apply agree_zero.
  - unfold estimate, r_estimate. fold W W'. rewrite A3, A4, A1, A2 by easy. reflexivity.
Qed.

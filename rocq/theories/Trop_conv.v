(* TROP: the alternating estimation recovers the effect when the control cells are additive. *)
From Verif Require Import Prelude Flt Stats_model Stats_proofs Linalg_model Multi_model Trop_model Trop_proofs Trop_thms.
From Coq Require Import Arith ZArith String List FunctionalExtensionality.
Import ListNotations.
Open Scope R_scope.

(* weighted means *)
Lemma wmean_bounds {A} (w f : A -> R) l lo hi : (forall x, In x l -> 0 <= w x) -> 0 < sumf w l ->
  (forall x, In x l -> w x <> 0 -> lo <= f x <= hi) -> lo <= sumf (fun x => w x * f x) l / sumf w l <= hi.
Proof.
  intros Hw Hs Hf. split.
  - apply Rmult_le_reg_r with (sumf w l); [easy|]. unfold Rdiv. rewrite Rmult_assoc, Rinv_l, Rmult_1_r by lra.
    rewrite <- sumf_scal. apply sumf_le. intros x Hx. specialize (Hw x Hx). destruct (Req_dec (w x) 0) as [E|E]; [rewrite E; lra|].
    destruct (Hf x Hx E). nra.
  - apply Rmult_le_reg_r with (sumf w l); [easy|]. unfold Rdiv. rewrite Rmult_assoc, Rinv_l, Rmult_1_r by lra.
    rewrite <- sumf_scal. apply sumf_le. intros x Hx. specialize (Hw x Hx). destruct (Req_dec (w x) 0) as [E|E]; [rewrite E; lra|].
    destruct (Hf x Hx E). nra.
Qed.
Lemma wmean_bounds_c {A} (w f : A -> R) l lo hi m d (c : A -> bool) : (forall x, In x l -> 0 <= w x) -> 0 < sumf w l ->
  (forall x, In x l -> w x <> 0 -> lo <= f x <= hi) -> (forall x, In x l -> c x = true -> f x = m) ->
  lo <= m <= hi -> 0 <= d -> d * sumf w l <= sumf w (filter c l) ->
  d * m + (1 - d) * lo <= sumf (fun x => w x * f x) l / sumf w l <= d * m + (1 - d) * hi.
Proof.
  intros Hw Hs Hf Hc Hm Hd Hsh.
  assert (P : forall g b, (forall x, In x l -> w x * g x <= w x * (if c x then m else b)) -> m <= b ->
     sumf (fun x => w x * g x) l <= (d * m + (1 - d) * b) * sumf w l).
  { intros g b Hg Hb. apply Rle_trans with (sumf (fun x => w x * (if c x then m else b)) l); [now apply sumf_le|].
    replace (sumf (fun x => w x * (if c x then m else b)) l) with (b * sumf w l + (m - b) * sumf w (filter c l)); [nra|].
    clear. induction l as [|x r IH]; simpl; [ring|]. destruct (c x); simpl; rewrite <- IH; ring. }
  assert (Q : forall g b, (forall x, In x l -> w x * (if c x then m else b) <= w x * g x) -> b <= m ->
     (d * m + (1 - d) * b) * sumf w l <= sumf (fun x => w x * g x) l).
  { intros g b Hg Hb. apply Rle_trans with (sumf (fun x => w x * (if c x then m else b)) l); [|now apply sumf_le].
    replace (sumf (fun x => w x * (if c x then m else b)) l) with (b * sumf w l + (m - b) * sumf w (filter c l)); [nra|].
    clear. induction l as [|x r IH]; simpl; [ring|]. destruct (c x); simpl; rewrite <- IH; ring. }
  split.
  - apply Rmult_le_reg_r with (sumf w l); [easy|]. unfold Rdiv. rewrite (Rmult_assoc (sumf _ l)), Rinv_l, Rmult_1_r by lra.
    apply Q; [|lra]. intros x Hx. specialize (Hw x Hx). destruct (Req_dec (w x) 0) as [E|E]; [rewrite E; lra|].
    destruct (c x) eqn:Ec; [rewrite (Hc x Hx Ec); lra|]. destruct (Hf x Hx E). nra.
  - apply Rmult_le_reg_r with (sumf w l); [easy|]. unfold Rdiv. rewrite (Rmult_assoc (sumf _ l)), Rinv_l, Rmult_1_r by lra.
    apply P; [|lra]. intros x Hx. specialize (Hw x Hx). destruct (Req_dec (w x) 0) as [E|E]; [rewrite E; lra|].
    destruct (c x) eqn:Ec; [rewrite (Hc x Hx Ec); lra|]. destruct (Hf x Hx E). nra.
Qed.

(* ------------------------------------------------------------------------------------------- *)
(* the singular value decomposition: what is assumed of np.linalg.svd *)
Definition mip (T N : nat) (A B : mat) : R := sumf (fun c => A (fst c) (snd c) * B (fst c) (snd c)) (cells T N).
Definition orth {X} (l : list X) (dim : nat) (vec : X -> nat -> R) : Prop :=
  forall j k x y, nth_error l j = Some x -> nth_error l k = Some y ->
    sumf (fun t => vec x t * vec y t) (seq 0 dim) = if (j =? k)%nat then 1 else 0.
Definition trip_s (x : R * (nat -> R) * (nat -> R)) : R := fst (fst x).
Definition trip_u (x : R * (nat -> R) * (nat -> R)) : nat -> R := snd (fst x).
Definition trip_v (x : R * (nat -> R) * (nat -> R)) : nat -> R := snd x.
Definition svd_ok (svd : svd_fn) : Prop :=
  forall T N M l, svd T N M = Some l ->
    (forall x, In x l -> 0 <= trip_s x) /\ orth l T trip_u /\ orth l N trip_v /\
    (forall t i, (t < T)%nat -> (i < N)%nat -> M t i = sumf (fun x => trip_s x * trip_u x t * trip_v x i) l).

Lemma sumf_cells (f : nat -> nat -> R) T N : sumf (fun c => f (fst c) (snd c)) (cells T N) = sumf (fun t => sumf (fun i => f t i) (seq 0 N)) (seq 0 T).
Proof. unfold cells. rewrite sumf_list_prod. reflexivity. Qed.

Lemma sumf_nth_delta {X} (f : X -> R) (l : list X) (g : X -> R) k x : nth_error l k = Some x ->
  (forall j y, nth_error l j = Some y -> f y = if (k =? j)%nat then g x else 0) -> sumf f l = g x.
Proof.
  revert k. induction l as [|a l IH]; intros k Hk Hf; [now destruct k|]. destruct k; simpl in Hk |- *.
  - injection Hk as ->. assert (E0 := Hf 0%nat x eq_refl). simpl in E0. rewrite E0.
    rewrite (sumf_zero f l); [ring|]. intros y Hy. apply In_nth_error in Hy. destruct Hy as [j Hj]. now rewrite (Hf (S j) y Hj).
  - rewrite (Hf 0%nat a eq_refl). simpl. rewrite (IH k Hk); [ring|]. intros j y Hj. now rewrite (Hf (S j) y Hj).
Qed.

Lemma orth_unit {X} (l : list X) dim vec x : orth l dim vec -> In x l -> sumf (fun t => vec x t * vec x t) (seq 0 dim) = 1.
Proof. intros H Hx. apply In_nth_error in Hx. destruct Hx as [k Hk]. rewrite (H k k x x Hk Hk). now rewrite Nat.eqb_refl. Qed.

(* u' M v of the k-th pair is the k-th singular value *)
Lemma svd_form svd T N M l x : svd_ok svd -> svd T N M = Some l -> In x l ->
  mip T N (fun t i => trip_u x t * trip_v x i) M = trip_s x.
Proof.
  intros Hok E Hx. destruct (Hok T N M l E) as (_ & Hu & Hv & HM). apply In_nth_error in Hx. destruct Hx as [k Hk].
  unfold mip. rewrite (sumf_ext _ (fun c => sumf (fun y => trip_s y * (trip_u x (fst c) * trip_u y (fst c)) * (trip_v x (snd c) * trip_v y (snd c))) l)).
  - rewrite sumf_swap.
    apply (sumf_nth_delta _ l trip_s k x Hk). intros j y Hj.
    rewrite (sumf_cells (fun t i => trip_s y * (trip_u x t * trip_u y t) * (trip_v x i * trip_v y i))).
    rewrite (sumf_ext _ (fun t => trip_s y * (trip_u x t * trip_u y t) * (if (k =? j)%nat then 1 else 0))).
    + rewrite sumf_scal_r, sumf_scal, (Hu k j x y Hk Hj). destruct (k =? j)%nat eqn:Ej; [|ring]. apply Nat.eqb_eq in Ej. subst j.
      rewrite Hk in Hj. injection Hj as ->. ring.
    + intros t _. rewrite sumf_scal, (Hv k j x y Hk Hj). reflexivity.
  - intros [t i] Hc. apply in_cells in Hc. cbn [fst snd]. rewrite HM by tauto. rewrite <- sumf_scal. apply sumf_ext_all. intros y. ring.
Qed.
Lemma mip_cs T N A B : mip T N A B * mip T N A B <= mip T N A A * mip T N B B.
Proof. unfold mip. apply (cauchy_schwarz (fun c => A (fst c) (snd c)) (fun c => B (fst c) (snd c))). Qed.
Lemma mip_rank1 T N (u v : nat -> R) : mip T N (fun t i => u t * v i) (fun t i => u t * v i) =
  sumf (fun t => u t * u t) (seq 0 T) * sumf (fun i => v i * v i) (seq 0 N).
Proof.
  unfold mip. rewrite (sumf_cells (fun t i => u t * v i * (u t * v i))). rewrite <- sumf_scal_r. apply sumf_ext_all. intros t.
  rewrite <- sumf_scal. apply sumf_ext_all. intros i. ring.
Qed.
(* every singular value is at most the Frobenius norm *)
Lemma svd_le_frob svd T N M l x : svd_ok svd -> svd T N M = Some l -> In x l -> trip_s x * trip_s x <= mip T N M M.
Proof.
  intros Hok E Hx. rewrite <- (svd_form svd T N M l x Hok E Hx) at 1 2. eapply Rle_trans; [apply mip_cs|].
  destruct (Hok T N M l E) as (_ & Hu & Hv & _). rewrite mip_rank1, (orth_unit l T trip_u x Hu Hx), (orth_unit l N trip_v x Hv Hx). lra.
Qed.
(* a matrix with Frobenius norm at most the threshold is mapped to 0 *)
Lemma soft_svd_zero svd T N M h : svd_ok svd -> 0 < h -> mip T N M M <= h * h -> soft_svd svd T N M (Some h) = zmat.
Proof.
  intros Hok Hh HM. unfold soft_svd. destruct (Rle_dec h 0); [lra|]. destruct (svd T N M) as [l|] eqn:E; [|easy].
  assert (F : filter (fun x => Rltb svd_tol (Rmax (fst (fst x) - h) 0)) l = []).
  { assert (Hs : forall x, In x l -> trip_s x <= h).
    { intros x Hx. assert (A := svd_le_frob svd T N M l x Hok E Hx). destruct (Hok T N M l E) as (P & _). specialize (P x Hx). nra. }
    clear E HM. induction l as [|x l IH]; [easy|]. simpl. rewrite IH by (intros; apply Hs; now right).
    replace (Rltb svd_tol (Rmax (fst (fst x) - h) 0)) with false; [easy|]. symmetry. apply Rltb_false.
    assert (A := Hs x (or_introl eq_refl)). unfold trip_s in A. rewrite Rmax_right by lra. unfold svd_tol.
    left. apply Rinv_0_lt_compat. apply pow_lt. lra. }
  rewrite F. reflexivity.
Qed.

Lemma wnorm_bounds T N W t i : (forall t i, 0 <= W t i) -> (t < T)%nat -> (i < N)%nat -> 0 <= wnorm T N W t i <= 1.
Proof.
  intros HW Ht Hi. assert (A : Rabs (W t i) <= wmax T N W).
  { unfold wmax. apply (maxabs_ge (fun c => W (fst c) (snd c)) (cells T N) (t, i)). apply in_cells. auto. }
  rewrite Rabs_pos_eq in A by auto. unfold wnorm. destruct (Rlt_dec 0 (wmax T N W)).
  - split; [apply Rmult_le_pos; [auto|left; now apply Rinv_0_lt_compat]|].
    apply Rmult_le_reg_r with (wmax T N W); [easy|]. unfold Rdiv. rewrite Rmult_assoc, Rinv_l by lra. lra.
  - specialize (HW t i). lra.
Qed.

(* the low-rank step leaves a zero L at zero when the residuals are small compared with the threshold *)
Definition off (T N : nat) (h : lam) (c : R) : Prop := match h with None => True | Some h => 0 < h /\ INR T * INR N * (c * c) <= h * h end.
Lemma mip_le T N A c : 0 <= c -> (forall t i, (t < T)%nat -> (i < N)%nat -> Rabs (A t i) <= c) -> mip T N A A <= INR T * INR N * (c * c).
Proof.
  intros Hc H. unfold mip. rewrite (sumf_cells (fun t i => A t i * A t i)).
  apply Rle_trans with (sumf (fun _ => INR N * (c * c)) (seq 0 T)).
  - apply sumf_le. intros t Ht. apply in_seq in Ht. apply Rle_trans with (sumf (fun _ => c * c) (seq 0 N)).
    + apply sumf_le. intros i Hi. apply in_seq in Hi. specialize (H t i). assert (Rabs (A t i) <= c) by (apply H; lia).
      rewrite <- (Rabs_pos_eq (A t i * A t i)) by nra. rewrite Rabs_mult. assert (0 <= Rabs (A t i)) by apply Rabs_pos. nra.
    + rewrite sumf_const. unfold len. rewrite seq_length. lra.
  - rewrite sumf_const. unfold len. rewrite seq_length. lra.
Qed.
Lemma nn_solve_off svd T N W Yz a b h tol c : svd_ok svd -> (forall t i, 0 <= W t i) -> 0 <= c ->
  (forall t i, (t < T)%nat -> (i < N)%nat -> 0 < W t i -> Rabs (Yz t i - a i - b t) <= c) -> off T N h c ->
  nn_solve svd T N W Yz a b h tol zmat = zmat.
Proof.
  intros Hok HW Hc HR Hoff.
  assert (P : prox_step svd T N W (masked_target W Yz a b zmat) h zmat = zmat).
  { unfold prox_step. destruct h as [h|]; [|reflexivity]. destruct Hoff as [Hh Hf]. apply soft_svd_zero; [easy|easy|].
    eapply Rle_trans; [|exact Hf]. apply mip_le; [easy|]. intros t i Ht Hi.
    replace (zmat t i + wnorm T N W t i * (masked_target W Yz a b zmat t i - zmat t i)) with (wnorm T N W t i * masked_target W Yz a b zmat t i)
      by (unfold zmat; ring).
    unfold masked_target. assert (B := wnorm_bounds T N W t i HW Ht Hi). rewrite Rabs_mult, (Rabs_pos_eq (wnorm T N W t i)) by lra.
    destruct (Rlt_dec 0 (W t i)) as [Hp|Hp].
    - specialize (HR t i Ht Hi Hp). assert (0 <= Rabs (Yz t i - a i - b t)) by apply Rabs_pos. nra.
    - unfold zmat. rewrite Rabs_R0. lra. }
  assert (L : forall k, nn_loop svd T N W (masked_target W Yz a b zmat) h tol k zmat = zmat).
  { induction k; [easy|]. cbn [nn_loop]. rewrite P. destruct (Rltb _ _); easy. }
  unfold nn_solve. destruct h as [h|]; [|apply L]. destruct Hoff. destruct (Rle_dec h 0); [lra|apply L].
Qed.

(* ------------------------------------------------------------------------------------------- *)
Section Conv.
Variable svd : svd_fn.
Variables (T N : nat) (W Yz : mat) (h : lam) (tol : R) (a b : nat -> R) (lo hi d : R) (full : nat -> bool) (th : nat -> R).
Hypothesis Hsvd : svd_ok svd.
Hypothesis HW : forall t i, 0 <= W t i.
Hypothesis HY : forall t i, (t < T)%nat -> (i < N)%nat -> W t i <> 0 -> Yz t i = a i + b t.
Hypothesis Hb : forall t, (t < T)%nat -> lo <= b t <= hi.
(* "full" units: weight proportional to th in every period; they carry at least a share d of every row *)
Hypothesis Hth : 0 < sumf th (seq 0 T).
Hypothesis Hth0 : forall t, 0 <= th t.
Hypothesis Hfull : forall i, (i < N)%nat -> full i = true -> exists w, 0 < w /\ forall t, (t < T)%nat -> W t i = w * th t.
Hypothesis Hd : 0 < d <= 1.
Hypothesis Hrow : forall t, (t < T)%nat -> 0 < sumf (fun i => W t i) (seq 0 N).
Hypothesis Hshare : forall t, (t < T)%nat -> d * sumf (fun i => W t i) (seq 0 N) <= sumf (fun i => W t i) (filter full (seq 0 N)).
Hypothesis Hoff : off T N h (hi - lo).

Definition wm (e : nat -> R) (i : nat) : R := unit_mean T W (fun t _ => e t) i.
Definition colpos (i : nat) : Prop := 0 < sumf (fun t => W t i) (seq 0 T).

Lemma colpos_of t i : (t < T)%nat -> W t i <> 0 -> colpos i.
Proof. intros Ht H. unfold colpos. apply sumf_pos; [intros; auto|]. exists t. split; [apply in_seq; lia|]. specialize (HW t i). lra. Qed.

Lemma wm_bounds e l u i : colpos i -> (forall t, (t < T)%nat -> l <= e t <= u) -> l <= wm e i <= u.
Proof.
  intros Hc H. unfold wm, unit_mean. unfold colpos in Hc. destruct (Rlt_dec _ _); [|lra].
  apply (wmean_bounds (fun t => W t i) e); auto. intros t Ht _. apply in_seq in Ht. apply H. lia.
Qed.
Definition mm (e : nat -> R) : R := sumf (fun t => th t * e t) (seq 0 T) / sumf th (seq 0 T).
Lemma wm_full e i : (i < N)%nat -> full i = true -> wm e i = mm e.
Proof.
  intros Hi Hf. destruct (Hfull i Hi Hf) as (w & Hw & E). unfold wm, unit_mean, mm.
  rewrite (sumf_ext (fun t => W t i) (fun t => w * th t)) by (intros t Ht; apply in_seq in Ht; apply E; lia).
  rewrite (sumf_ext (fun t => W t i * e t) (fun t => w * (th t * e t))) by (intros t Ht; apply in_seq in Ht; rewrite E by lia; ring).
  rewrite !sumf_scal. destruct (Rlt_dec _ _) as [P|P]; [field; lra|]. exfalso. apply P. apply Rmult_lt_0_compat; easy.
Qed.
Lemma mm_bounds e l u : (forall t, (t < T)%nat -> l <= e t <= u) -> l <= mm e <= u.
Proof. intros H. unfold mm. apply wmean_bounds; auto. intros t Ht _. apply in_seq in Ht. apply H. lia. Qed.

(* errors of the period effects: beta = b - e *)
Definition err (s : tstate) (t : nat) : R := b t - tb s t.
Definition est (s : tstate) (l u : R) : Prop := (forall t, (t < T)%nat -> l <= err s t <= u) /\ tlo s = zmat.

(* one pass: alpha_i = a_i + wm e i, and the new error is a row average of the wm e j *)
Lemma step_alpha s i : tlo s = zmat -> (i < N)%nat -> colpos i -> ta (est_step svd T N W Yz h tol s) i = a i + wm (err s) i.
Proof.
  intros E Hi Hc. unfold est_step. cbn [ta]. rewrite E. unfold wm, unit_mean. unfold colpos in Hc. destruct (Rlt_dec _ _); [|lra].
  rewrite (sumf_ext (fun t => W t i * (Yz t i - zmat t i - tb s t)) (fun t => W t i * err s t + W t i * a i)).
  - rewrite sumf_add, sumf_scal_r. field. lra.
  - intros t Ht. apply in_seq in Ht. destruct (Req_dec (W t i) 0) as [E0|E0]; [rewrite E0; ring|]. rewrite HY by (auto; lia). unfold zmat, err. ring.
Qed.
Lemma step_err s t : tlo s = zmat -> (t < T)%nat ->
  err (est_step svd T N W Yz h tol s) t = sumf (fun i => W t i * wm (err s) i) (seq 0 N) / sumf (fun i => W t i) (seq 0 N).
Proof.
  intros E Ht. unfold err at 1. assert (Hr := Hrow t Ht). set (A := ta (est_step svd T N W Yz h tol s)).
  assert (EB : tb (est_step svd T N W Yz h tol s) t = time_mean N W (fun t i => Yz t i - tlo s t i - A i) t) by reflexivity.
  rewrite EB. unfold time_mean. destruct (Rlt_dec _ _); [|lra].
  rewrite (sumf_ext (fun i => W t i * (Yz t i - tlo s t i - A i)) (fun i => W t i * b t - W t i * wm (err s) i)).
  - rewrite sumf_sub, sumf_scal_r. change (sumf (W t) (seq 0 N)) with (sumf (fun i => W t i) (seq 0 N)). field. lra.
  - intros i Hi. apply in_seq in Hi. destruct (Req_dec (W t i) 0) as [E0|E0]; [rewrite E0; ring|].
    unfold A. rewrite step_alpha by first [easy|lia|now apply colpos_of with t]. rewrite HY by (auto; lia). rewrite E. unfold zmat. ring.
Qed.

Lemma step_bounds s l u : est s l u -> lo <= hi -> u - l <= hi - lo ->
  est (est_step svd T N W Yz h tol s) (d * mm (err s) + (1 - d) * l) (d * mm (err s) + (1 - d) * u).
Proof.
  intros [H E] Hlh Hu. assert (Hm := mm_bounds (err s) l u H).
  assert (HE : forall t, (t < T)%nat -> d * mm (err s) + (1 - d) * l <= err (est_step svd T N W Yz h tol s) t <= d * mm (err s) + (1 - d) * u).
  { intros t Ht. rewrite step_err by easy. apply wmean_bounds_c with (c := full); auto.
    - intros i Hi E0. apply in_seq in Hi. apply wm_bounds; [|easy]. now apply colpos_of with t.
    - intros i Hi Hf. apply in_seq in Hi. apply wm_full; [lia|easy].
    - lra. }
  split; [easy|].
  set (s' := est_step svd T N W Yz h tol s) in *.
  assert (EL : tlo s' = nn_solve svd T N W Yz (ta s') (tb s') h tol (tlo s)) by reflexivity.
  rewrite EL, E. apply nn_solve_off with (hi - lo); auto; [lra|]. intros t i Ht Hi Hp.
  assert (Hc : colpos i) by (apply colpos_of with t; [easy|lra]).
  unfold s' at 1. rewrite step_alpha by auto. rewrite HY by (auto; lra).
  replace (a i + b t - (a i + wm (err s) i) - tb s' t) with (err s' t - wm (err s) i) by (unfold err; ring).
  specialize (HE t Ht). assert (Hw := wm_bounds (err s) l u i Hc H). apply Rabs_le.
  assert (l <= err s' t <= u). { split; [|]; nra. }
  lra.
Qed.

(* effect error after a step, at a cell whose unit has positive weight *)
Definition miss_at (s : tstate) (t i : nat) : R := a i + b t - ta s i - tb s t - tlo s t i.
Lemma step_miss s l u t i : est s l u -> lo <= hi -> u - l <= hi - lo -> (t < T)%nat -> (i < N)%nat -> colpos i ->
  Rabs (miss_at (est_step svd T N W Yz h tol s) t i) <= u - l.
Proof.
  intros H Hlh Hu Ht Hi Hc. assert (H' := step_bounds s l u H Hlh Hu). destruct H as [H E]. destruct H' as [H' E'].
  unfold miss_at. rewrite E'. rewrite step_alpha by auto.
  replace (a i + b t - (a i + wm (err s) i) - tb (est_step svd T N W Yz h tol s) t - zmat t i)
    with (err (est_step svd T N W Yz h tol s) t - wm (err s) i) by (unfold err, zmat; ring).
  specialize (H' t Ht). assert (Hw := wm_bounds (err s) l u i Hc H). assert (Hm := mm_bounds (err s) l u H).
  apply Rabs_le. assert (l <= err (est_step svd T N W Yz h tol s) t <= u) by (split; nra). lra.
Qed.

(* stopping by the tolerance: the errors moved by less than tol, so their spread is below 2 tol / d *)
Definition spread (s : tstate) (v : R) : Prop := forall t t', (t < T)%nat -> (t' < T)%nat -> err s t - err s t' <= v.
Lemma stop_spread s l u : (0 < T)%nat -> est s l u -> lo <= hi -> u - l <= hi - lo -> 0 <= tol ->
  st_diff T N s (est_step svd T N W Yz h tol s) < tol -> exists l' u', est s l' u' /\ u' - l' <= 2 * tol / d /\ u' - l' <= u - l.
Proof.
  intros HT H Hlh Hu Htol Hst. set (s' := est_step svd T N W Yz h tol s) in *.
  (* attained bounds *)
  assert (Ex : forall n, (0 < n)%nat -> exists t0 t1, (t0 < n)%nat /\ (t1 < n)%nat /\ forall t, (t < n)%nat -> err s t0 <= err s t <= err s t1).
  { induction n as [|n IH]; [lia|]. intros _. destruct n as [|n].
    - exists 0%nat, 0%nat. repeat split; try lia; replace t with 0%nat by lia; lra.
    - destruct IH as (t0 & t1 & A & B & C); [lia|].
      exists (if Rle_dec (err s t0) (err s (S n)) then t0 else S n), (if Rle_dec (err s (S n)) (err s t1) then t1 else S n).
      split; [destruct (Rle_dec _ _); lia|]. split; [destruct (Rle_dec _ _); lia|]. intros t Ht.
      destruct (Nat.eq_dec t (S n)) as [->|Hn].
      + destruct (Rle_dec (err s t0) (err s (S n))), (Rle_dec (err s (S n)) (err s t1)); lra.
      + specialize (C t ltac:(lia)). destruct (Rle_dec (err s t0) (err s (S n))), (Rle_dec (err s (S n)) (err s t1)); lra. }
  destruct (Ex T HT) as (t0 & t1 & A & B & C). clear Ex.
  exists (err s t0), (err s t1). destruct H as [H E].
  assert (HE : est s (err s t0) (err s t1)) by (split; auto).
  assert (Hsp : err s t1 - err s t0 <= u - l) by (assert (X := H t0 A); assert (Y := H t1 B); lra).
  split; [easy|]. split; [|easy].
  assert (Hb' := step_bounds s _ _ HE Hlh ltac:(lra)). fold s' in Hb'. destruct Hb' as [Hb' _].
  assert (M : forall t, (t < T)%nat -> Rabs (err s t - err s' t) < tol).
  { intros t Ht. eapply Rle_lt_trans; [|exact Hst]. unfold st_diff. eapply Rle_trans; [|apply Rmax_l]. eapply Rle_trans; [|apply Rmax_r].
    replace (err s t - err s' t) with (tb s' t - tb s t) by (unfold err; ring).
    apply (maxabs_ge (fun t => tb s' t - tb s t)). apply in_seq. lia. }
  assert (M0 := M t0 A). assert (M1 := M t1 B). apply Rabs_def2 in M0. apply Rabs_def2 in M1.
  assert (X := Hb' t0 A). assert (Y := Hb' t1 B).
  assert (Z1 : d * (err s t1 - err s t0) <= 2 * tol) by nra.
  apply Rmult_le_reg_l with d; [lra|]. replace (d * (2 * tol / d)) with (2 * tol) by (field; lra). exact Z1.
Qed.

Lemma loop_miss k : forall s l u t i, (0 < T)%nat -> 0 <= tol -> est s l u -> lo <= hi -> u - l <= hi - lo -> (t < T)%nat -> (i < N)%nat -> colpos i ->
  Rabs (miss_at (est_loop svd T N W Yz h tol (S k) s) t i) <= Rmax ((1 - d) ^ k * (u - l)) (2 * tol / d).
Proof.
  induction k as [|k IH]; intros s l u t i HT Htol H Hlh Hu Ht Hi Hc.
  - cbn [est_loop]. assert (X := step_miss s l u t i H Hlh Hu Ht Hi Hc).
    eapply Rle_trans; [|apply Rmax_l]. simpl. destruct (Rltb _ _); lra.
  - remember (S k) as k1 eqn:Ek. cbn [est_loop]. destruct (Rltb _ _) eqn:El.
    + apply Rltb_true in El. destruct (stop_spread s l u HT H Hlh Hu Htol El) as (l' & u' & H' & B1 & B2).
      eapply Rle_trans; [|apply Rmax_r]. eapply Rle_trans; [apply (step_miss s l' u' t i H' Hlh ltac:(lra) Ht Hi Hc)|easy].
    + assert (X := step_bounds s l u H Hlh Hu).
      eapply Rle_trans; [apply (IH _ _ _ t i HT Htol X Hlh)|]; auto.
      * assert (0 <= u - l). { destruct H as [H _]. specialize (H t Ht). lra. }
        nra.
      * apply Req_le. rewrite Ek. f_equal. simpl. ring.
Qed.

(* starting from zero *)
Theorem loop_recovers k t i : (0 < T)%nat -> 0 <= tol -> (t < T)%nat -> (i < N)%nat -> colpos i ->
  Rabs (miss_at (est_loop svd T N W Yz h tol (S k) tzero) t i) <= Rmax ((1 - d) ^ k * (hi - lo)) (2 * tol / d).
Proof.
  intros HT Htol Ht Hi Hc. apply loop_miss; auto.
  - split; [|easy]. intros s Hs. unfold err. cbn [tzero tb]. rewrite Rminus_0_r. now apply Hb.
  - assert (X := Hb t Ht). lra.
  - lra.
Qed.
End Conv.

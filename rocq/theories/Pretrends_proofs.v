(* Pre-trends power: distribution, root-finder and inverse oracles, power and minimum detectable violation. *)
From Verif Require Import Prelude Flt Linalg_model Linalg_proofs Linalg_vcov Multi_model Honest_model Pretrends_model.
From Coq Require Import Arith ZArith String List Lia Lra Ranalysis1 Rtopology.
Import ListNotations.
Open Scope R_scope.

(* ---- what is asked of the oracles, and instances ---- *)
Record ncx2_ok (ppf : R -> nat -> R) (sf cdf : R -> nat -> R -> R) : Prop := {
  x_cdf : forall x n c, 0 <= c -> cdf x n c = 1 - sf x n c;
  x_cv : forall a n, 0 < a < 1 -> (0 < n)%nat -> 0 < ppf (1 - a) n;
  x_size : forall a n, 0 < a < 1 -> (0 < n)%nat -> sf (ppf (1 - a) n) n 0 = a;
  x_mono : forall x n c c', 0 < x -> (0 < n)%nat -> 0 <= c < c' -> sf x n c < sf x n c';
  x_lt1 : forall x n c, 0 < x -> (0 < n)%nat -> 0 <= c -> sf x n c < 1;
  x_lim : forall x n t, 0 < x -> (0 < n)%nat -> t < 1 -> exists c, 0 <= c /\ t < sf x n c;
  x_cont : forall x n c, 0 < x -> (0 < n)%nat -> continuity_pt (fun u => sf x n (Rmax u 0)) c }.

Definition toy_chi2_ppf (q : R) (n : nat) : R := q / (1 - q).
Definition toy_ncx2_sf (x : R) (n : nat) (c : R) : R := (1 + c) / (1 + c + x).
Definition toy_ncx2_cdf (x : R) (n : nat) (c : R) : R := 1 - toy_ncx2_sf x n c.

Lemma rmax_cont c : continuity_pt (fun u => Rmax u 0) c.
Proof.
  intros eps He. exists eps. split; [exact He|]. intros y [_ Hy]. unfold dist in *. simpl in *. unfold R_dist in *.
  unfold Rmax. destruct (Rle_dec y 0); destruct (Rle_dec c 0); revert Hy; unfold Rabs; repeat destruct (Rcase_abs _); lra.
Qed.

Theorem toy_ncx2_ok : ncx2_ok toy_chi2_ppf toy_ncx2_sf toy_ncx2_cdf.
Proof.
  constructor.
  - reflexivity.
  - intros a n Ha _. unfold toy_chi2_ppf. apply Rmult_lt_0_compat; [lra|]. apply Rinv_0_lt_compat. lra.
  - intros a n Ha _. unfold toy_ncx2_sf, toy_chi2_ppf. field. lra.
  - intros x n c c' Hx _ Hc. unfold toy_ncx2_sf. apply (Rmult_lt_reg_r ((1 + c + x) * (1 + c' + x))); [nra|].
    replace ((1 + c) / (1 + c + x) * ((1 + c + x) * (1 + c' + x))) with ((1 + c) * (1 + c' + x)) by (field; lra).
    replace ((1 + c') / (1 + c' + x) * ((1 + c + x) * (1 + c' + x))) with ((1 + c') * (1 + c + x)) by (field; lra). nra.
  - intros x n c Hx _ Hc. unfold toy_ncx2_sf. apply (Rmult_lt_reg_r (1 + c + x)); [lra|].
    replace ((1 + c) / (1 + c + x) * (1 + c + x)) with (1 + c) by (field; lra). lra.
  - intros x n t Hx _ Ht. set (c := Rmax 0 (t * x / (1 - t))). exists c.
    assert (0 <= c) by apply Rmax_l. assert (Hc : t * x / (1 - t) <= c) by apply Rmax_r. split; auto.
    apply (Rmult_le_compat_r (1 - t)) in Hc; [|lra]. replace (t * x / (1 - t) * (1 - t)) with (t * x) in Hc by (field; lra).
    unfold toy_ncx2_sf. apply (Rmult_lt_reg_r (1 + c + x)); [lra|].
    replace ((1 + c) / (1 + c + x) * (1 + c + x)) with (1 + c) by (field; lra). nra.
  - intros x n c Hx _. unfold toy_ncx2_sf.
    assert (C1 : continuity_pt (fun u => 1 + Rmax u 0) c).
    { apply (continuity_pt_plus (fun _ => 1) (fun u => Rmax u 0)); [apply continuity_pt_const; intros ? ?; reflexivity|apply rmax_cont]. }
    apply (continuity_pt_div (fun u => 1 + Rmax u 0) (fun u => 1 + Rmax u 0 + x)); auto.
    + apply (continuity_pt_plus (fun u => 1 + Rmax u 0) (fun _ => x)); auto. apply continuity_pt_const; intros ? ?; reflexivity.
    + pose proof (Rmax_r c 0). lra.
Qed.

(* scipy.optimize.brentq, exact arithmetic *)
Definition brentq_ok (brentq : (R -> R) -> R -> R -> option R) : Prop :=
  forall f a b, a <= b ->
    (f a * f b > 0 -> brentq f a b = None) /\
    (f a * f b <= 0 -> (forall x, continuity_pt f x) -> exists r, brentq f a b = Some r /\ a <= r <= b /\ f r = 0).

(* an instance: the last point up to which f stays on the side of f a *)
Definition below (f : R -> R) (a b x : R) : Prop := a <= x <= b /\ forall y, a <= y <= x -> f y <= 0.
Lemma below_bound f a b : bound (below f a b).
Proof. exists b. intros x [H _]. lra. Qed.
Definition first_zero (f : R -> R) (a b : R) (H : exists x, below f a b x) : R :=
  proj1_sig (completeness _ (below_bound f a b) H).
Lemma below_a f a b : a <= b -> f a <= 0 -> exists x, below f a b x.
Proof. intros H H0. exists a. split; [lra|]. intros y Hy. replace y with a by lra. exact H0. Qed.
Lemma first_zero_ok f a b H : a <= b -> f a <= 0 -> 0 <= f b -> (forall x, continuity_pt f x) ->
  let r := first_zero f a b H in a <= r <= b /\ f r = 0.
Proof.
  intros Hab Ha Hb Hc r. unfold r, first_zero. destruct (completeness _ _ H) as [m [Hu Hl]]. simpl. clear r.
  assert (Ba : below f a b a) by (split; [lra|]; intros y Hy; replace y with a by lra; exact Ha).
  assert (Ham : a <= m) by (apply Hu; exact Ba).
  assert (Hmb : m <= b) by (apply Hl; intros x [Hx _]; lra).
  assert (Hlt : forall y, a <= y < m -> f y <= 0).
  { intros y Hy. destruct (Rle_dec (f y) 0) as [|N]; auto. exfalso.
    assert (m <= y); [|lra]. apply Hl. intros x [Hx Hx2]. destruct (Rle_dec x y); auto. exfalso. apply N. apply Hx2. lra. }
  split; [lra|]. destruct (Rtotal_order (f m) 0) as [L|[E|G]]; auto; exfalso.
  - (* f m < 0: extend *)
    assert (Hm : m < b) by (destruct (Rle_lt_or_eq_dec m b Hmb) as [|E]; auto; subst; lra).
    destruct (Hc m (- f m)) as (d & Hd & Hd2); [lra|].
    set (e := Rmin (d / 2) (b - m)). assert (0 < e) by (unfold e; apply Rmin_pos; lra).
    assert (Bm : below f a b (m + e)).
    { assert (e <= b - m) by apply Rmin_r. assert (e <= d / 2) by apply Rmin_l. split; [lra|]. intros y Hy.
      destruct (Rlt_dec y m); [apply Hlt; lra|]. destruct (Req_EM_T y m) as [->|Ny]; [lra|].
      specialize (Hd2 y). unfold D_x, no_cond, dist in Hd2. simpl in Hd2. unfold R_dist in Hd2.
      assert (Q : Rabs (f y - f m) < - f m). { apply Hd2. split; [split; auto|]. rewrite Rabs_right; lra. }
      apply Rabs_def2 in Q. lra. }
    apply Hu in Bm. lra.
  - (* f m > 0: points just below m are positive *)
    assert (Hm : a < m) by (destruct (Rle_lt_or_eq_dec a m Ham) as [|E]; auto; subst; lra).
    destruct (Hc m (f m)) as (d & Hd & Hd2); [lra|].
    set (y := Rmax a (m - d / 2)). assert (a <= y) by apply Rmax_l. assert (m - d/2 <= y) by apply Rmax_r.
    assert (y < m) by (unfold y; apply Rmax_lub_lt; lra).
    specialize (Hd2 y). unfold D_x, no_cond, dist in Hd2. simpl in Hd2. unfold R_dist in Hd2.
    assert (Q : Rabs (f y - f m) < f m). { apply Hd2. split; [split; auto; lra|]. rewrite Rabs_left; lra. }
    apply Rabs_def2 in Q. assert (f y <= 0) by (apply Hlt; lra). lra.
Qed.

Definition sup_brentq (f : R -> R) (a b : R) : option R :=
  if Rlt_dec 0 (f a * f b) then None
  else match Rle_dec a b with
       | right _ => None
       | left Hab =>
           match Rle_dec (f a) 0 with
           | left H => if Rle_dec 0 (f b) then Some (first_zero f a b (below_a f a b Hab H)) else Some a
           | right H => match Rle_dec (- f a) 0 with
                        | left H' => Some (first_zero (fun x => - f x) a b (below_a (fun x => - f x) a b Hab H'))
                        | right _ => None
                        end
           end
       end.
Theorem sup_brentq_ok : brentq_ok sup_brentq.
Proof.
  intros f a b Hab. unfold sup_brentq. split.
  - intros H. destruct (Rlt_dec 0 (f a * f b)); [reflexivity|lra].
  - intros H Hc. destruct (Rlt_dec 0 (f a * f b)); [lra|]. destruct (Rle_dec a b) as [Hab'|]; [|lra].
    destruct (Rle_dec (f a) 0) as [Ha|Ha].
    + destruct (Rle_dec 0 (f b)) as [Hb|Hb].
      * eexists. split; [reflexivity|]. apply first_zero_ok; auto.
      * exists a. split; auto. split; [lra|]. destruct (Rle_lt_or_eq_dec _ _ Ha); auto. nra.
    + destruct (Rle_dec (- f a) 0) as [Ha'|]; [|lra].
      eexists. split; [reflexivity|].
      assert (Hb : 0 <= - f b) by nra.
      destruct (first_zero_ok (fun x => - f x) a b (below_a _ a b Hab' Ha') Hab Ha' Hb) as [H1 H2].
      * intros x. apply (continuity_pt_opp f). apply Hc.
      * split; auto. lra.
Qed.

(* numpy.linalg.inv of an n x n matrix *)
Definition minv_ok (minv : nat -> (nat -> nat -> R) -> option (nat -> nat -> R)) : Prop :=
  forall n A, match minv n A with
              | Some B => meq n (mmul n B A) mid
              | None => ~ (forall x, (forall i, (i < n)%nat -> sumf (fun j => A i j * x j) (seq 0 n) = 0) ->
                                     forall j, (j < n)%nat -> x j = 0)
              end.
(* (A'A)^-1 A' *)
Definition mcols (n : nat) (A : nat -> nat -> R) : list (nat -> R) := map (fun j i => A i j) (seq 0 n).
Definition gs_minv (n : nat) (A : nat -> nat -> R) : option (nat -> nat -> R) :=
  match gs_inv (seq 0 n) (mcols n A) with
  | Some B => Some (fun i k => sumf (fun j => B i j * A k j) (seq 0 n))
  | None => None
  end.
Lemma mcols_nth n A j : (j < n)%nat -> colx (mcols n A) j = (fun i => A i j).
Proof.
  intros H. unfold colx, mcols. rewrite (nth_indep _ _ ((fun j i => A i j) 0%nat)) by (rewrite map_length, seq_length; auto).
  rewrite (map_nth (fun j i => A i j)). rewrite seq_nth by auto. reflexivity.
Qed.
Lemma lc_mcols n A b i : length b = n -> lc (mcols n A) b i = sumf (fun j => A i j * nth j b 0) (seq 0 n).
Proof.
  unfold mcols. revert b A. induction n as [|n IH]; intros b A H; destruct b as [|x b]; simpl in *; try discriminate; [reflexivity|].
  rewrite <- seq_shift, map_map. rewrite (IH b (fun i j => A i (S j))) by lia. rewrite sumf_map. ring_simplify. reflexivity.
Qed.
Theorem gs_minv_ok : minv_ok gs_minv.
Proof.
  intros n A. unfold gs_minv. assert (L : length (mcols n A) = n) by (unfold mcols; rewrite map_length, seq_length; reflexivity).
  pose proof (gs_inv_ok (seq 0 n) (mcols n A)) as H. destruct (gs_inv (seq 0 n) (mcols n A)) as [B|].
  - apply (proj1 (is_inverse_meq _ _ _)) in H. apply (inverse_left _ _ _ (gram_sym _ _ _)) in H. rewrite L in H.
    intros i k Hi Hk. rewrite <- (H i k Hi Hk). unfold mmul.
    rewrite (sumf_ext _ (fun l => sumf (fun j => B i j * (A l j * A l k)) (seq 0 n))).
    2:{ intros l _. rewrite <- sumf_scal_r. apply sumf_ext_all; intros; ring. }
    rewrite sumf_swap. apply sumf_ext. intros j Hj. apply in_seq in Hj. unfold gram, ip. rewrite !mcols_nth by lia.
    rewrite sumf_scal. reflexivity.
  - intros K. apply H. intros b Lb Hb. rewrite L in *. assert (E : forall j, (j < n)%nat -> nth j b 0 = 0).
    { apply K. intros i Hi. rewrite <- (lc_mcols n A b i Lb). apply Hb. apply in_seq; lia. }
    clear - Lb E. revert n Lb E. induction b as [|x b IH]; intros n <- E; simpl; [reflexivity|].
    rewrite <- (IH (length b)); auto. + f_equal. apply (E 0%nat). simpl; lia. + intros j Hj. apply (E (S j)). simpl; lia.
Qed.

(* ---- weights ---- *)
Lemma l2_pos w : 0 < l2 w <-> exists x, In x w /\ x <> 0.
Proof.
  unfold l2. split.
  - intros H. destruct (Req_EM_T (sumf (fun x => x * x) w) 0) as [E|N]; [rewrite E, sqrt_0 in H; lra|].
    clear H. induction w as [|x w IH]; simpl in *; [lra|]. destruct (Req_EM_T x 0) as [->|Nx]; [|exists x; auto].
    destruct IH as (y & Hy & Hn); [intros E; apply N; rewrite E; ring|]. exists y; auto.
  - intros (x & Hx & Hn). apply sqrt_lt_R0. induction w as [|y w IH]; simpl; [destruct Hx|].
    assert (0 <= sumf (fun x => x * x) w) by (apply sumf_nonneg; intros; apply sq_nonneg).
    destruct Hx as [->|Hx]; [nra|]. specialize (IH Hx). pose proof (sq_nonneg y). lra.
Qed.
Lemma l2_nonneg w : 0 <= l2 w. Proof. apply sqrt_pos. Qed.
Lemma l2_sq w : l2 w * l2 w = sumf (fun x => x * x) w.
Proof. unfold l2. apply sqrt_sqrt. apply sumf_nonneg; intros; apply sq_nonneg. Qed.
Lemma normalise_length w : length (normalise w) = length w.
Proof. unfold normalise. destruct (Rltb 0 (l2 w)); [apply map_length|reflexivity]. Qed.
(* unit length, unless every weight is zero *)
Theorem normalise_unit w : (exists x, In x w /\ x <> 0) -> sumf (fun x => x * x) (normalise w) = 1 /\
  forall i, nth i (normalise w) 0 = nth i w 0 / l2 w.
Proof.
  intros H. apply l2_pos in H. unfold normalise. replace (Rltb 0 (l2 w)) with true by (symmetry; apply Rltb_true; auto). split.
  - rewrite sumf_map. rewrite (sumf_ext_all _ (fun x => / (l2 w * l2 w) * (x * x))) by (intros; field; lra).
    rewrite sumf_scal, <- l2_sq. field. lra.
  - intros i. destruct (Nat.lt_ge_cases i (length w)) as [Hi|Hi].
    + rewrite (nth_indep _ 0 (0 / l2 w)) by (rewrite map_length; auto). rewrite (map_nth (fun x => x / l2 w)). reflexivity.
    + rewrite !nth_overflow by (rewrite ?map_length; auto). unfold Rdiv. ring.
Qed.
Theorem normalise_zero w : (forall x, In x w -> x = 0) -> normalise w = w.
Proof.
  intros H. unfold normalise. replace (Rltb 0 (l2 w)) with false; auto. symmetry. apply Rltb_false.
  destruct (Rle_lt_dec (l2 w) 0) as [|K]; auto. apply l2_pos in K as (x & Hx & Hn). exfalso. apply Hn, H, Hx.
Qed.
Theorem normalise_scale c w : 0 < c -> normalise (map (Rmult c) w) = normalise w \/ (forall x, In x w -> x = 0).
Proof.
  intros Hc. destruct (Rlt_dec 0 (l2 w)) as [H|H].
  - left. assert (E : l2 (map (Rmult c) w) = c * l2 w).
    { unfold l2. rewrite sumf_map. rewrite (sumf_ext_all _ (fun x => (c * c) * (x * x))) by (intros; ring). rewrite sumf_scal.
      rewrite sqrt_mult by (try apply sumf_nonneg; intros; try apply sq_nonneg; nra). rewrite sqrt_square by lra. reflexivity. }
    unfold normalise. rewrite E. replace (Rltb 0 (l2 w)) with true by (symmetry; apply Rltb_true; auto).
    replace (Rltb 0 (c * l2 w)) with true by (symmetry; apply Rltb_true; nra). rewrite map_map. apply map_ext. intros x. field. lra.
  - right. intros x Hx. destruct (Req_EM_T x 0); auto. exfalso. apply H. apply l2_pos. eauto.
Qed.
Lemma raw_length cfg n w : pt_raw cfg n = Ok w -> length w = n.
Proof.
  unfold pt_raw. destruct (String.eqb _ "custom").
  - destruct (pc_weights cfg) as [v|]; [|discriminate]. destruct (Nat.eqb (length v) n) eqn:E; [|discriminate]. cbn [negb].
    intros H. injection H as <-. apply Nat.eqb_eq; auto.
  - destruct (String.eqb _ "linear"); [intros H; injection H as <-; unfold linear_w; rewrite map_length, seq_length; auto|].
    destruct (String.eqb _ "constant"); [intros H; injection H as <-; apply repeat_length|].
    destruct (String.eqb _ "last_period"); [|discriminate]. destruct n; [discriminate|]. intros H; injection H as <-. unfold last_w; rewrite map_length, seq_length; auto.
Qed.
Lemma weights_length cfg n w : pt_weights cfg n = Ok w -> length w = n.
Proof.
  unfold pt_weights. destruct (pt_raw cfg n) as [v|] eqn:E; [|discriminate]. cbn [bind]. intros H; injection H as <-.
  rewrite normalise_length. apply (raw_length cfg); auto.
Qed.

(* ---- quadratic forms ---- *)
Lemma quad_scale n B m w : quad n B (map (Rmult m) w) = m * m * quad n B w.
Proof.
  assert (E : forall i, nth i (map (Rmult m) w) 0 = m * nth i w 0).
  { intros i. destruct (Nat.lt_ge_cases i (length w)) as [Hi|Hi].
    - rewrite (nth_indep _ 0 (m * 0)) by (rewrite map_length; auto). apply (map_nth (Rmult m)).
    - rewrite !nth_overflow by (rewrite ?map_length; auto). ring. }
  unfold quad. rewrite <- sumf_scal. apply sumf_ext_all. intros j. rewrite E.
  rewrite (sumf_ext_all _ (fun i => m * (nth i w 0 * B i j))) by (intros; rewrite E; ring). rewrite sumf_scal. ring.
Qed.
Lemma quad_ext n B w w' : (forall i, (i < n)%nat -> nth i w 0 = nth i w' 0) -> quad n B w = quad n B w'.
Proof.
  intros H. unfold quad. apply sumf_ext. intros j Hj. apply in_seq in Hj. rewrite (H j) by lia. f_equal.
  apply sumf_ext. intros i Hi. apply in_seq in Hi. rewrite (H i) by lia. reflexivity.
Qed.
Lemma quad_zero n B w : (forall x, In x w -> x = 0) -> quad n B w = 0.
Proof.
  intros H. unfold quad. apply sumf_zero. intros j _.
  replace (nth j w 0) with 0; [ring|]. destruct (Nat.lt_ge_cases j (length w)); [symmetry; apply H, nth_In; auto|rewrite nth_overflow; auto].
Qed.
Definition sym_mat (n : nat) (A : nat -> nat -> R) : Prop := forall i j, (i < n)%nat -> (j < n)%nat -> A i j = A j i.
Definition pos_def (n : nat) (A : nat -> nat -> R) : Prop :=
  sym_mat n A /\
  forall x : nat -> R, (exists j, (j < n)%nat /\ x j <> 0) ->
    0 < sumf (fun i => sumf (fun j => x i * A i j * x j) (seq 0 n)) (seq 0 n).
(* the inverse of a symmetric matrix, applied: w'A^-1 w = w'x for the solution x of A x = w *)
Lemma quad_solution n A B w (x : nat -> R) : meq n (mmul n B A) mid ->
  (forall i, (i < n)%nat -> sumf (fun j => A i j * x j) (seq 0 n) = nth i w 0) ->
  quad n B w = sumf (fun i => nth i w 0 * x i) (seq 0 n).
Proof.
  intros HB Hx. unfold quad.
  assert (E : forall i, (i < n)%nat -> sumf (fun j => B i j * nth j w 0) (seq 0 n) = x i).
  { intros i Hi. rewrite (sumf_ext _ (fun j => sumf (fun l => B i j * A j l * x l) (seq 0 n))).
    2:{ intros j Hj. apply in_seq in Hj. rewrite <- (Hx j) by lia. rewrite <- sumf_scal. apply sumf_ext_all; intros; ring. }
    rewrite sumf_swap. rewrite (sumf_ext _ (fun l => mid i l * x l)); [apply mid_sum_l; auto|].
    intros l Hl. apply in_seq in Hl. rewrite <- (HB i l Hi) by lia. unfold mmul. rewrite sumf_scal_r. reflexivity. }
  rewrite (sumf_ext_all _ (fun j => sumf (fun i => nth i w 0 * (B i j * nth j w 0)) (seq 0 n))).
  2:{ intros j. rewrite <- sumf_scal_r. apply sumf_ext_all; intros; ring. }
  rewrite sumf_swap. apply sumf_ext. intros i Hi. apply in_seq in Hi. rewrite sumf_scal. rewrite E by lia. reflexivity.
Qed.

Section Quad.
Variable minv : nat -> (nat -> nat -> R) -> option (nat -> nat -> R).
Variable mpinv : nat -> (nat -> nat -> R) -> nat -> nat -> R.
Hypothesis Hm : minv_ok minv.
Notation vq := (vquad minv mpinv).

Lemma vquad_scale n V m w : vq n V (map (Rmult m) w) = match vq n V w with Fin q => Fin (m * m * q) | x => x end.
Proof. unfold vquad. destruct (all_fin n V); [|reflexivity]. rewrite quad_scale. reflexivity. Qed.
Lemma vquad_cases n V w : vq n V w = NaN \/ exists q, vq n V w = Fin q.
Proof. unfold vquad. destruct (all_fin n V); eauto. Qed.
Lemma all_fin_mat n (A : nat -> nat -> R) (V : nat -> nat -> fl) :
  (forall i j, (i < n)%nat -> (j < n)%nat -> V i j = Fin (A i j)) -> all_fin n V = true.
Proof.
  intros H. unfold all_fin. apply forallb_forall. intros i Hi. apply in_seq in Hi. apply forallb_forall. intros j Hj. apply in_seq in Hj.
  rewrite H by lia. reflexivity.
Qed.
(* symmetric positive definite variance matrix *)
Lemma pd_right n A B : sym_mat n A -> meq n (mmul n B A) mid -> meq n (mmul n A B) mid.
Proof.
  intros Hs HB. assert (R1 : meq n (mmul n A (mtr B)) mid).
  { intros i j Hi Hj. unfold mmul, mtr. rewrite (sumf_ext _ (fun l => B j l * A l i)).
    - pose proof (HB j i Hj Hi) as E. unfold mmul in E. rewrite E. unfold mid. rewrite Nat.eqb_sym. reflexivity.
    - intros l Hl. apply in_seq in Hl. rewrite (Hs i l) by lia. ring. }
  assert (Gs : meq n (mtr A) A) by (intros i j Hi Hj; unfold mtr; symmetry; apply Hs; auto).
  pose proof (inverse_symmetric n A (mtr B) Gs R1) as Bs.
  intros i j Hi Hj. rewrite <- (R1 i j Hi Hj). unfold mmul. apply sumf_ext. intros l Hl. apply in_seq in Hl.
  pose proof (Bs l j ltac:(lia) Hj) as E. unfold mtr in E. unfold mtr. rewrite E. reflexivity.
Qed.
Theorem vquad_pd n A V w : pos_def n A -> (forall i j, (i < n)%nat -> (j < n)%nat -> V i j = Fin (A i j)) -> length w = n ->
  exists x, (forall i, (i < n)%nat -> sumf (fun j => A i j * x j) (seq 0 n) = nth i w 0) /\
    vq n V w = Fin (sumf (fun i => nth i w 0 * x i) (seq 0 n)) /\
    ((exists y, In y w /\ y <> 0) -> 0 < sumf (fun i => nth i w 0 * x i) (seq 0 n)).
Proof.
  intros [Hs Hp] HV Hw. unfold vquad. rewrite (all_fin_mat n A V HV). cbv zeta.
  set (A' := fun i j => flval (V i j)).
  assert (EA : forall i j, (i < n)%nat -> (j < n)%nat -> A' i j = A i j) by (intros; unfold A'; rewrite HV by auto; reflexivity).
  pose proof (Hm n A') as HI. destruct (minv n A') as [B|].
  2:{ exfalso. apply HI. intros x Hx j Hj. destruct (Req_EM_T (x j) 0) as [|N]; auto. exfalso.
      assert (0 < sumf (fun i => sumf (fun j => x i * A i j * x j) (seq 0 n)) (seq 0 n)) by (apply Hp; eauto).
      assert (sumf (fun i => sumf (fun j => x i * A i j * x j) (seq 0 n)) (seq 0 n) = 0); [|lra].
      apply sumf_zero. intros i Hi. apply in_seq in Hi. transitivity (x i * sumf (fun j => A' i j * x j) (seq 0 n)).
      - rewrite <- sumf_scal. apply sumf_ext. intros l Hl. apply in_seq in Hl. rewrite EA by lia. ring.
      - rewrite Hx by lia. ring. }
  assert (HB : meq n (mmul n B A) mid).
  { intros i j Hi Hj. rewrite <- (HI i j Hi Hj). unfold mmul. apply sumf_ext. intros l Hl. apply in_seq in Hl. rewrite EA by lia. reflexivity. }
  pose proof (pd_right n A B Hs HB) as HR.
  set (x := fun j => sumf (fun l => B j l * nth l w 0) (seq 0 n)). exists x.
  assert (HX : forall i, (i < n)%nat -> sumf (fun j => A i j * x j) (seq 0 n) = nth i w 0).
  { intros i Hi. unfold x. rewrite (sumf_ext_all _ (fun j => sumf (fun l => A i j * B j l * nth l w 0) (seq 0 n))).
    2:{ intros j. rewrite <- sumf_scal. apply sumf_ext_all; intros; ring. }
    rewrite sumf_swap. rewrite (sumf_ext _ (fun l => mid i l * nth l w 0)); [apply (mid_sum_l n (fun l => nth l w 0)); auto|].
    intros l Hl. apply in_seq in Hl. rewrite <- (HR i l Hi) by lia. unfold mmul. rewrite sumf_scal_r. reflexivity. }
  split; auto. split.
  - f_equal. apply (quad_solution n A B w _ HB HX).
  - intros (y & Hy & Ny). clearbody x.
    rewrite (sumf_ext _ (fun i => sumf (fun j => x i * A i j * x j) (seq 0 n))).
    + apply Hp. destruct (In_nth _ _ 0 Hy) as (k & Hk & Ek).
      destruct (Classical_Prop.classic (exists j, (j < n)%nat /\ x j <> 0)) as [|K]; auto. exfalso. apply Ny. rewrite <- Ek, <- (HX k) by lia.
      apply sumf_zero. intros j Hj. apply in_seq in Hj. change (A k j * x j = 0). destruct (Req_EM_T (x j) 0) as [E|N]; [rewrite E; ring|]. exfalso. apply K. exists j. split; [lia|auto].
    + intros i Hi. apply in_seq in Hi. rewrite <- (HX i) by lia. rewrite <- sumf_scal_r. apply sumf_ext_all; intros; ring.
Qed.
(* the value is determined by the matrix *)
Lemma vquad_unique n A V w (x : nat -> R) : pos_def n A -> (forall i j, (i < n)%nat -> (j < n)%nat -> V i j = Fin (A i j)) -> length w = n ->
  (forall i, (i < n)%nat -> sumf (fun j => A i j * x j) (seq 0 n) = nth i w 0) ->
  vq n V w = Fin (sumf (fun i => nth i w 0 * x i) (seq 0 n)).
Proof.
  intros [Hs Hp] HV Hw Hx. destruct (vquad_pd n A V w (conj Hs Hp) HV Hw) as (z & Hz & E & _). rewrite E. f_equal.
  (* w'z = x'A z = z'A x = w'x ... *)
  apply sumf_ext. intros i Hi. apply in_seq in Hi. f_equal.
  destruct (Req_EM_T (z i) (x i)) as [|N]; auto. exfalso.
  assert (0 < sumf (fun i => sumf (fun j => (z i - x i) * A i j * (z j - x j)) (seq 0 n)) (seq 0 n)).
  { apply (Hp (fun j => z j - x j)). exists i. split; [lia|lra]. }
  assert (sumf (fun i => sumf (fun j => (z i - x i) * A i j * (z j - x j)) (seq 0 n)) (seq 0 n) = 0); [|lra].
  apply sumf_zero. intros k Hk. apply in_seq in Hk.
  transitivity ((z k - x k) * (sumf (fun j => A k j * z j) (seq 0 n) - sumf (fun j => A k j * x j) (seq 0 n))).
  - rewrite <- sumf_sub, <- sumf_scal. apply sumf_ext_all; intros; ring.
  - rewrite Hz, Hx by lia. ring.
Qed.
Lemma diag_pos_def n (s : nat -> R) : (forall i, (i < n)%nat -> s i <> 0) ->
  pos_def n (fun i j => if Nat.eqb i j then s i * s i else 0).
Proof.
  intros Hs. split.
  - intros i j _ _. rewrite (Nat.eqb_sym j i). destruct (Nat.eqb i j) eqn:E; auto. apply Nat.eqb_eq in E. subst. reflexivity.
  - intros x (j & Hj & Nj).
    assert (E : forall i, (i < n)%nat -> sumf (fun j => x i * (if Nat.eqb i j then s i * s i else 0) * x j) (seq 0 n) = (x i * s i) * (x i * s i)).
    { intros i Hi. rewrite (sumf_ext_all _ (fun j => mid i j * (x i * (s i * s i) * x j))).
      - rewrite (mid_sum_l n (fun j => x i * (s i * s i) * x j)) by auto. ring.
      - intros l. unfold mid. destruct (Nat.eqb i l); ring. }
    rewrite (sumf_ext _ (fun i => (x i * s i) * (x i * s i))) by (intros i Hi; apply in_seq in Hi; apply E; lia).
    assert (G : 0 < (x j * s j) * (x j * s j)). { pose proof (Hs j Hj). assert (x j * s j <> 0) by (apply Rmult_integral_contrapositive; auto). nra. }
    assert (Hin : In j (seq 0 n)) by (apply in_seq; lia).
    clear - G Hin. induction (seq 0 n) as [|a l IH]; [destruct Hin|]. simpl.
    assert (0 <= sumf (fun i => x i * s i * (x i * s i)) l) by (apply sumf_nonneg; intros; apply sq_nonneg).
    destruct Hin as [->|Hin]; [lra|]. specialize (IH Hin). pose proof (sq_nonneg (x a * s a)). lra.
Qed.
(* event-study input: standard errors only *)
Theorem vquad_diag ses w : length ses = length w -> (forall s, In s ses -> s <> 0) ->
  vq (length w) (diag_sq (map Fin ses)) w
  = Fin (sumf (fun i => nth i w 0 * nth i w 0 / (nth i ses 0 * nth i ses 0)) (seq 0 (length w))).
Proof.
  intros HL Hs. assert (Hn : forall i, (i < length w)%nat -> nth i ses 0 <> 0) by (intros i Hi; apply Hs, nth_In; lia).
  rewrite (vquad_unique (length w) (fun i j => if Nat.eqb i j then nth i ses 0 * nth i ses 0 else 0) _ w
             (fun i => nth i w 0 / (nth i ses 0 * nth i ses 0)) (diag_pos_def _ _ Hn)); auto.
  - f_equal. apply sumf_ext_all. intros; unfold Rdiv; ring.
  - intros i j Hi Hj. unfold diag_sq. destruct (Nat.eqb i j); [|reflexivity].
    rewrite (nth_indep _ NaN (Fin 0)) by (rewrite map_length; lia). rewrite (map_nth Fin). reflexivity.
  - intros i Hi. rewrite (sumf_ext_all _ (fun j => mid i j * (nth i ses 0 * nth i ses 0 * (nth j w 0 / (nth j ses 0 * nth j ses 0))))).
    + rewrite (mid_sum_l _ (fun j => nth i ses 0 * nth i ses 0 * (nth j w 0 / (nth j ses 0 * nth j ses 0)))) by auto.
      specialize (Hn i Hi). field. auto.
    + intros l. unfold mid. destruct (Nat.eqb i l); ring.
Qed.
End Quad.

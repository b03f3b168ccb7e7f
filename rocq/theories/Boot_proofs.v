(* Moments of the bootstrap weights and properties of the wild cluster bootstrap. *)
From Verif Require Import Prelude Flt Stats_model Stats_proofs Linalg_model Linalg_proofs Linalg_vcov Linalg_thms
  Did_model Did_spec Did_proofs Did_equiv Did_more Boot_model.
From Coq Require Import Arith ZArith String List.
Import ListNotations.
Open Scope R_scope.

Definition standardised (d : dist) : Prop :=
  Ex d (fun _ => 1) = 1 /\ (forall vp, In vp d -> 0 <= snd vp) /\ Ex d (fun w => w) = 0 /\ Ex d (fun w => w * w) = 1.

Lemma rademacher_std : standardised rademacher.
Proof.
  unfold standardised, rademacher, Ex, uniform, len; simpl. repeat split; try lra.
  intros vp [<-|[<-|[]]]; simpl; lra.
Qed.

Lemma sqrt_sq x : 0 <= x -> sqrt x * sqrt x = x.
Proof. intros; apply sqrt_sqrt; auto. Qed.

Lemma webb_std : standardised webb.
Proof.
  unfold standardised, webb, Ex, uniform, len; simpl.
  pose proof (sqrt_sq (3/2) ltac:(lra)). pose proof (sqrt_sq (2/2) ltac:(lra)). pose proof (sqrt_sq (1/2) ltac:(lra)).
  split; [lra|]. split; [|split; lra].
  intros vp Hv. repeat (destruct Hv as [<-|Hv]; [simpl; lra|]). destruct Hv.
Qed.

Lemma sqrt5_facts : 2 < sqrt 5 < 3 /\ sqrt 5 * sqrt 5 = 5.
Proof.
  pose proof (sqrt_sq 5 ltac:(lra)) as H. pose proof (sqrt_lt_R0 5 ltac:(lra)). split; auto. split; nra.
Qed.

Lemma mammen_std : standardised mammen.
Proof.
  destruct sqrt5_facts as [H1 H2]. unfold standardised, mammen, Ex; simpl.
  set (s := sqrt 5) in *.
  assert (Hinv : s * / s = 1) by (apply Rinv_r; lra).
  assert (Hp : (s + 1) / (2 * s) = 1 / 2 + s / 10).
  { apply (Rmult_eq_reg_r (2 * s)); [|lra]. unfold Rdiv at 1. rewrite Rmult_assoc, Rinv_l by lra. nra. }
  rewrite Hp. repeat split; try nra.
  intros vp [<-|[<-|[]]]; simpl; nra.
Qed.

Lemma mammen_third : Ex mammen (fun w => w * w * w) = 1.
Proof.
  destruct sqrt5_facts as [H1 H2]. unfold mammen, Ex; simpl.
  set (s := sqrt 5) in *.
  assert (Hp : (s + 1) / (2 * s) = 1 / 2 + s / 10).
  { apply (Rmult_eq_reg_r (2 * s)); [|lra]. unfold Rdiv at 1. rewrite Rmult_assoc, Rinv_l by lra. nra. }
  rewrite Hp.
  replace (- (s - 1) / 2 * (- (s - 1) / 2) * (- (s - 1) / 2)) with (- (s * (s * s) - 3 * (s * s) + 3 * s - 1) / 8) by field.
  replace ((s + 1) / 2 * ((s + 1) / 2) * ((s + 1) / 2)) with ((s * (s * s) + 3 * (s * s) + 3 * s + 1) / 8) by field.
  rewrite H2. nra.
Qed.

(* Rust and NumPy sample from the same distributions *)
Lemma sqrt_22 : sqrt (2 / 2) = 1.
Proof. replace (2/2) with 1 by lra. apply sqrt_1. Qed.

Theorem rust_numpy_same_law s d : boot_dist_py s = Ok d ->
  exists d', boot_dist_rust s = Ok d' /\ forall f, Ex d' f = Ex d f.
Proof.
  unfold boot_dist_py.
  destruct (String.eqb s "rademacher") eqn:E1; [|destruct (String.eqb s "mammen") eqn:E2; [|destruct (String.eqb s "webb") eqn:E3]];
   intros H; inversion H; subst; clear H.
  - apply String.eqb_eq in E1; subst. exists rademacher_rust. split; [reflexivity|].
    intros f. unfold rademacher_rust, rademacher, uniform, Ex, len; simpl. field_simplify. lra.
  - apply String.eqb_eq in E2; subst. exists mammen_rust. split; [reflexivity|]. intros f. reflexivity.
  - apply String.eqb_eq in E3; subst. exists webb_rust. split; [reflexivity|].
    intros f. unfold webb_rust, webb. rewrite sqrt_22. reflexivity.
Qed.

(* ... but not the same set of accepted names *)
Lemma rust_accepts_more : boot_dist_rust "Rademacher" = Ok rademacher_rust /\ boot_dist_py "Rademacher" = Err ValueError.
Proof. split; reflexivity. Qed.

(* ---- expectation over independent weights ---- *)
Lemma Ex_ext d f g : (forall w, f w = g w) -> Ex d f = Ex d g.
Proof. intros H. apply sumf_ext_all. intros; rewrite H; auto. Qed.
Lemma Ex_add d f g : Ex d (fun w => f w + g w) = Ex d f + Ex d g.
Proof. unfold Ex. rewrite <- sumf_add. apply sumf_ext_all; intros; ring. Qed.
Lemma Ex_scal d c f : Ex d (fun w => c * f w) = c * Ex d f.
Proof. unfold Ex. rewrite <- sumf_scal. apply sumf_ext_all; intros; ring. Qed.

Lemma Exv_ext ds f g : (forall w, f w = g w) -> Exv ds f = Exv ds g.
Proof. intros H. apply sumf_ext_all. intros; rewrite H; auto. Qed.
Lemma Exv_add ds f g : Exv ds (fun w => f w + g w) = Exv ds f + Exv ds g.
Proof. unfold Exv. rewrite <- sumf_add. apply sumf_ext_all; intros; ring. Qed.
Lemma Exv_scal ds c f : Exv ds (fun w => c * f w) = c * Exv ds f.
Proof. unfold Exv. rewrite <- sumf_scal. apply sumf_ext_all; intros; ring. Qed.

Lemma draws_S d n f :
  Exv (draws d (S n)) f = Ex d (fun v => Exv (draws d n) (fun w => f (v :: w))).
Proof.
  unfold Exv, Ex. simpl draws. rewrite sumf_flat_map. apply sumf_ext_all. intros vp.
  rewrite sumf_map, <- sumf_scal. apply sumf_ext_all. intros; simpl; ring.
Qed.

Lemma draws_mass d n : Ex d (fun _ => 1) = 1 -> Exv (draws d n) (fun _ => 1) = 1.
Proof.
  intros H. induction n as [|n IH]; [unfold Exv; simpl; ring|].
  rewrite draws_S, (Ex_ext d _ (fun _ => 1)); auto.
Qed.

Lemma draws_nonneg d n : (forall vp, In vp d -> 0 <= snd vp) -> forall wp, In wp (draws d n) -> 0 <= snd wp.
Proof.
  intros H. induction n as [|n IH]; simpl; intros wp Hw.
  - destruct Hw as [<-|[]]; simpl; lra.
  - apply in_flat_map in Hw as (vp & Hv & Hw). apply in_map_iff in Hw as (x & <- & Hx). simpl.
    apply Rmult_le_pos; auto.
Qed.

(* dot product of coefficients and weights (multiplier-bootstrap perturbation) *)
Fixpoint dot (c w : list R) : R :=
  match c, w with a :: c', x :: w' => a * x + dot c' w' | _, _ => 0 end.

Theorem draws_mean d c : Ex d (fun _ => 1) = 1 -> Ex d (fun w => w) = 0 ->
  Exv (draws d (length c)) (dot c) = 0.
Proof.
  intros H1 H0. induction c as [|a c IH]; [unfold Exv; simpl; ring|].
  simpl length. rewrite draws_S.
  rewrite (Ex_ext d _ (fun v => a * v + 0)).
  - rewrite Ex_add, Ex_scal, H0. rewrite (Ex_ext d (fun _ => 0) (fun _ => 0 * 1)) by (intros; ring).
    rewrite Ex_scal. ring.
  - intros v. simpl dot. rewrite Exv_add, IH.
    rewrite (Exv_ext _ (fun _ => a * v) (fun _ => a * v * 1)) by (intros; ring).
    rewrite Exv_scal, draws_mass; auto. ring.
Qed.

(* the variance of the perturbation is the sum of the squared coefficients *)
Theorem draws_variance d c : standardised d ->
  Exv (draws d (length c)) (fun w => dot c w * dot c w) = sumf (fun a => a * a) c.
Proof.
  intros (H1 & _ & H0 & H2). induction c as [|a c IH]; [unfold Exv; simpl; ring|].
  simpl length. rewrite draws_S.
  rewrite (Ex_ext d _ (fun v => a * a * (v * v) + sumf (fun a => a * a) c * 1)).
  - rewrite Ex_add, !Ex_scal, H1, H2. simpl. ring.
  - intros v. simpl dot.
    rewrite (Exv_ext _ _ (fun w => (a * v) * (a * v) * 1 + ((2 * (a * v)) * dot c w + dot c w * dot c w)))
      by (intros; ring).
    rewrite !Exv_add, !Exv_scal, IH, (draws_mean d c H1 H0), draws_mass by auto. ring.
Qed.

(* ---- wild cluster bootstrap ---- *)
Section Wild.
Context {I K : Type} (eqd : forall x y : K, {x = y} + {x <> y}).
Variable qr : list I -> list (I -> R) -> list nat.
Variable lstsq : list I -> list (I -> R) -> (I -> R) -> list R.
Variable inv : list I -> list (I -> R) -> option (nat -> nat -> R).
Hypothesis Hqr : qr_ok qr.
Hypothesis Hls : lstsq_ok lstsq.
Hypothesis Hinv : inv_ok inv.
Notation solve := (solve_ols eqd qr lstsq inv).
Notation wb := (wild_bootstrap eqd qr lstsq inv).

Lemma mapM_spec {A B} (f : A -> res B) l ys : mapM f l = Ok ys <-> Forall2 (fun x y => f x = Ok y) l ys.
Proof.
  revert ys; induction l as [|x l IH]; intros ys; simpl.
  - split; [intros H; inversion H; constructor|intros H; inversion H; auto].
  - split.
    + destruct (f x) as [y|] eqn:E; simpl; [|discriminate].
      destruct (mapM f l) as [zs|] eqn:E2; simpl; [|discriminate].
      intros H; inversion H; subst. constructor; auto. apply IH; auto.
    + intros H; inversion H as [|? y ? zs Hy Hz]; subst. rewrite Hy. simpl.
      apply IH in Hz. rewrite Hz. reflexivity.
Qed.

Lemma Forall2_len {A B} (P : A -> B -> Prop) l l' : Forall2 P l l' -> length l = length l'.
Proof. induction 1; simpl; auto. Qed.

(* anatomy of a successful run *)
Lemma wild_inv rows cols y cl j wt null alpha ws r :
  wb rows cols y cl j wt null alpha ws = Ok r ->
  ws <> [] /\ (j < length cols)%nat /\ (2 <= length (cl_keys eqd rows cl))%nat /\
  exists o orr reps,
    solve rows cols y (Some cl) true "warn" = Ok o /\
    solve rows cols (fun i => y i - colx cols j i * null) (Some cl) false "warn" = Ok orr /\
    existsb fisnan (o_coef orr) = false /\
    Forall2 (fun w ct => wild_rep eqd qr lstsq inv rows cols cl j null (map nan_to_zero (o_coef orr)) (o_resid orr) w = Ok ct) ws reps /\
    w_coefs r = map fst reps /\
    w_t r = fdiv (fsub (nth j (o_coef o) NaN) (Fin null)) (fsqrt (diag (o_vcov o) j)) /\
    w_p r = Rmax (share (fun ct => fge (fabs (Fin (snd ct))) (fabs (w_t r))) reps) (1 / (len ws + 1)) /\
    w_ci r = (percentile (w_coefs r) (alpha / 2), percentile (w_coefs r) (1 - alpha / 2)) /\
    w_se r = (if Nat.eqb (length ws) 1 then NaN else Fin (std 1 (w_coefs r))) /\
    w_nboot r = length ws /\ w_nclusters r = length (cl_keys eqd rows cl).
Proof.
  unfold wild_bootstrap. destruct (negb _); [discriminate|].
  destruct (Nat.ltb _ 2) eqn:EG; [discriminate|]. apply Nat.ltb_ge in EG.
  destruct (solve rows cols y (Some cl) true "warn") as [o|] eqn:Eo; cbn [bind]; [|discriminate].
  destruct (Nat.leb (length cols) j) eqn:Ej; [discriminate|]. apply Nat.leb_gt in Ej.
  destruct (solve rows cols (fun i => y i - colx cols j i * null) (Some cl) false "warn") as [orr|] eqn:Er; cbn [bind]; [|discriminate].
  destruct ws as [|w0 ws0]; [discriminate|]. set (ws := w0 :: ws0).
  destruct (existsb fisnan (o_coef orr)) eqn:En; [discriminate|].
  destruct (mapM _ ws) as [reps|] eqn:Em; cbn [bind]; [|discriminate].
  intros H; inversion H; subst r; clear H. cbn [w_coefs w_t w_p w_ci w_se w_nboot w_nclusters].
  split; [discriminate|]. split; [exact Ej|]. split; [exact EG|].
  exists o, orr, reps. apply mapM_spec in Em. fold ws. unfold len.
  repeat split; auto.
Qed.

(* p in [1/(B+1), 1] *)
Theorem wild_p_bounds rows cols y cl j wt null alpha ws r :
  wb rows cols y cl j wt null alpha ws = Ok r ->
  1 / (len ws + 1) <= w_p r <= 1 /\ 0 < w_p r.
Proof.
  intros H. apply wild_inv in H as (Hne & _ & _ & o & orr & reps & _ & _ & _ & HF & _ & _ & Hp & _).
  assert (Hl : 0 < len ws) by (apply len_pos; auto).
  assert (Hr : reps <> []) by (intros ->; inversion HF; subst; auto).
  pose proof (share_bounds (fun ct => fge (fabs (Fin (snd ct))) (fabs (w_t r))) reps Hr) as Hs.
  assert (0 < 1 / (len ws + 1) <= 1).
  { unfold Rdiv. rewrite Rmult_1_l. split; [apply Rinv_0_lt_compat; lra|].
    rewrite <- Rinv_1. apply Rinv_le_contravar; lra. }
  rewrite Hp. pose proof (Rmax_r (share (fun ct => fge (fabs (Fin (snd ct))) (fabs (w_t r))) reps) (1 / (len ws + 1))).
  split; [split; auto|lra]. apply Rmax_lub; lra.
Qed.

(* the percentile interval is ordered and within the range of the replicates *)
Theorem wild_ci_ordered rows cols y cl j wt null alpha ws r :
  0 <= alpha <= 1 ->
  wb rows cols y cl j wt null alpha ws = Ok r ->
  fst (w_ci r) <= snd (w_ci r) /\ length (w_coefs r) = length ws.
Proof.
  intros Ha H. apply wild_inv in H as (Hne & _ & _ & o & orr & reps & _ & _ & _ & HF & Hc & _ & _ & Hci & _).
  assert (Hl : length (w_coefs r) = length ws) by (rewrite Hc, map_length; symmetry; eapply Forall2_len; eauto).
  split; auto. rewrite Hci. simpl. apply percentile_mono; try lra.
  intros E. rewrite E in Hl. simpl in Hl. destruct ws; simpl in *; congruence.
Qed.

(* rank-deficient designs always raise: beta_restricted contains NaN *)
Theorem wild_rank_deficient rows cols y cl j wt null alpha ws :
  qr rows cols <> [] -> forall r, wb rows cols y cl j wt null alpha ws <> Ok r.
Proof.
  intros Hd r H. apply wild_inv in H as (_ & _ & _ & o & orr & reps & _ & Er & En & _).
  destruct (qr rows cols) as [|k ks] eqn:E; [congruence|].
  destruct (solve_ols_nan_exactly_dropped eqd qr lstsq inv Hls _ _ _ _ _ _ _ Er) as (Hlen & Hn & _).
  assert (Hk : (k < length cols)%nat).
  { destruct (Hqr rows cols) as [Hk _]. apply Hk. rewrite E. simpl; auto. }
  specialize (Hn k Hk). rewrite E in Hn.
  assert (nth k (o_coef orr) NaN = NaN) by (apply Hn; simpl; auto).
  assert (existsb fisnan (o_coef orr) = true).
  { apply existsb_exists. exists NaN. split; auto. rewrite <- H. apply nth_In. lia. }
  congruence.
Qed.

Lemma fin_map_nan (b : list R) : map nan_to_zero (map Fin b) = b.
Proof. rewrite map_map. simpl. apply map_id. Qed.

Lemma not_dropped_indep rows cols : qr rows cols = [] -> indep rows cols.
Proof.
  intros E. destruct (Hqr rows cols) as [_ H]. rewrite E, select_cols_full in H. exact H.
Qed.

(* unit vector *)
Definition unitv (k j : nat) : list R := map (fun l => if Nat.eqb l j then 1 else 0) (seq 0 k).
Lemma unitv_nth k j l : (l < k)%nat -> nth l (unitv k j) 0 = if Nat.eqb l j then 1 else 0.
Proof. intros H. unfold unitv. rewrite nth_map_seq; auto. Qed.
Lemma unitv_lc cols j (i : I) : (j < length cols)%nat -> lc cols (unitv (length cols) j) i = colx cols j i.
Proof.
  intros Hj. rewrite lc_index by (unfold unitv; rewrite map_length, seq_length; auto).
  rewrite (sumf_ext _ (fun l => mid j l * colx cols l i)).
  - apply (mid_sum_l (length cols) (fun l => colx cols l i)); auto.
  - intros l Hl. apply in_seq in Hl. rewrite unitv_nth by lia. unfold mid. rewrite Nat.eqb_sym. reflexivity.
Qed.

(* the anatomy in terms of least squares: beta_hat of the data and, for every draw, the least squares
   fit of the bootstrap outcome *)
Lemma wild_ls rows cols y cl j wt null alpha ws r :
  wb rows cols y cl j wt null alpha ws = Ok r ->
  exists bh bs,
    indep rows cols /\ (j < length cols)%nat /\ is_ls rows cols y bh /\
    Forall2 (fun w b => is_ls rows cols (fun i => lc cols bh i - null * colx cols j i
                                        + (y i - lc cols bh i) * w (cl i)) b) ws bs /\
    w_coefs r = map (fun b => nth j b 0) bs.
Proof.
  intros H. pose proof (fun Hd => wild_rank_deficient rows cols y cl j wt null alpha ws Hd r H) as Hd.
  assert (Hq : qr rows cols = []).
  { destruct (qr rows cols); auto. exfalso; apply Hd; discriminate. }
  pose proof (not_dropped_indep rows cols Hq) as Hind.
  apply wild_inv in H as (_ & Hj & _ & o & orr & reps & Eo & Er & En & HF & Hc & _).
  destruct (solve_ols_full_rank eqd qr lstsq inv Hqr Hls _ _ _ _ _ _ _ Hind Eo) as (bh & Hbh & Hlbh & Hu).
  destruct (solve_ols_full_rank eqd qr lstsq inv Hqr Hls _ _ _ _ _ _ _ Hind Er) as (br & Hbr & Hlbr & Hur).
  assert (Hlsh : is_ls rows cols y bh) by (apply Hu; auto).
  assert (Hbr' : br = vadd bh (vscal (- null) (unitv (length cols) j))).
  { symmetry. apply Hur. eapply ls_ext; [|apply ls_add; [exact Hlsh|apply ls_scal, ls_exact with (y := colx cols j)]].
    - intros i Hi; simpl. ring.
    - unfold unitv. rewrite map_length, seq_length; auto.
    - intros i Hi. rewrite unitv_lc; auto. }
  assert (Hfit : forall i, lc cols br i = lc cols bh i - null * colx cols j i).
  { intros i. rewrite Hbr', lc_vadd.
    - rewrite lc_vscal, unitv_lc by auto. ring.
    - auto.
    - rewrite vscal_length. unfold unitv. rewrite map_length, seq_length; auto. }
  assert (Hres : forall i, In i rows -> o_resid orr i = y i - lc cols bh i).
  { intros i Hi.
    destruct (solve_ols_projection eqd qr lstsq inv Hqr Hls _ _ _ _ _ _ _ Er) as (_ & Hf & Hre).
    rewrite Hre, (Hf br (proj2 (Hur br) eq_refl) i Hi), Hfit. ring. }
  rewrite Hbr, fin_map_nan in HF.
  assert (exists bs, Forall2 (fun w b => is_ls rows cols (fun i => lc cols bh i - null * colx cols j i
                                        + (y i - lc cols bh i) * w (cl i)) b) ws bs /\
                     map fst reps = map (fun b => nth j b 0) bs) as (bs & HB & Hm).
  { clear Hc. induction HF as [|w ct ws reps Hw HF IH]; [exists []; split; [constructor|reflexivity]|].
    destruct IH as (bs & HB & Hm).
    unfold wild_rep in Hw.
    destruct (solve rows cols (fun i => lc cols br i + o_resid orr i * w (cl i)) (Some cl) true "warn") as [os|] eqn:Es;
      cbn [bind] in Hw; [|discriminate].
    destruct (solve_ols_full_rank eqd qr lstsq inv Hqr Hls _ _ _ _ _ _ _ Hind Es) as (b & Hb & Hlb & Hub).
    inversion Hw; subst ct; clear Hw. exists (b :: bs). split.
    - constructor; auto. eapply ls_ext; [|apply Hub; reflexivity].
      intros i Hi; simpl. rewrite Hfit, Hres; auto.
    - simpl. f_equal; auto. rewrite Hb.
      rewrite nth_indep with (d' := Fin 0) by (rewrite map_length; lia).
      rewrite (map_nth Fin). reflexivity. }
  exists bh, bs. split; [exact Hind|]. split; [exact Hj|]. split; [exact Hlsh|]. split; [exact HB|].
  rewrite Hc; auto.
Qed.

(* The replicates are centred at beta_hat_j - null whatever the (mean zero) weights: the null is not
   imposed.  Probabilities pi, one per draw. *)
Theorem wild_centre rows cols y cl j wt null alpha ws r (pi : list R) bh :
  wb rows cols y cl j wt null alpha ws = Ok r ->
  is_ls rows cols y bh ->
  length pi = length ws -> sumf idR pi = 1 ->
  (forall g, In g (map cl rows) -> sumf (fun wp => snd wp * fst wp g) (combine ws pi) = 0) ->
  sumf (fun cp => fst cp * snd cp) (combine (w_coefs r) pi) = nth j bh 0 - null.
Proof.
  intros H Hbh Hlen Hpi Hmean.
  destruct (wild_ls _ _ _ _ _ _ _ _ _ _ H) as (bh' & bs & Hind & Hj & Hbh' & HB & ->).
  assert (bh' = bh) by (eapply ls_coef_unique; eauto). subst bh'.
  assert (Hgen : forall S m, sumf idR pi = S ->
    (forall i, In i rows -> sumf (fun wp => snd wp * fst wp (cl i)) (combine ws pi) = m i) ->
    exists b, is_ls rows cols (fun i => S * (lc cols bh i - null * colx cols j i) + (y i - lc cols bh i) * m i) b /\
       nth j b 0 = sumf (fun cp => fst cp * snd cp) (combine (map (fun b => nth j b 0) bs) pi)).
  { clear Hpi Hmean H. revert pi Hlen. induction HB as [|w b ws bs Hw HB IH]; intros pi Hlen S m HS Hm.
    - destruct pi; [|discriminate]. simpl in *. exists (repeat 0 (length cols)). split.
      + apply ls_exact; [apply repeat_length|]. intros i Hi. rewrite lc_repeat0, <- HS, <- Hm by auto. ring.
      + rewrite nth_repeat. reflexivity.
    - destruct pi as [|p pi]; [discriminate|]. simpl in *.
      destruct (IH pi ltac:(lia) (S - p) (fun i => m i - p * w (cl i))) as (b' & Hb' & Hn).
      + rewrite <- HS. unfold idR at 2. ring.
      + intros i Hi. rewrite <- Hm by auto. ring.
      + exists (vadd (vscal p b) b'). split.
        * eapply ls_ext; [|apply ls_add; [apply ls_scal; exact Hw|exact Hb']]. intros i Hi; simpl. ring.
        * rewrite vadd_nth, vscal_nth, Hn; [ring|].
          rewrite vscal_length. destruct Hw as [-> _], Hb' as [-> _]. reflexivity. }
  destruct (Hgen 1 (fun _ => 0) Hpi) as (b & Hb & <-).
  - intros i Hi. apply Hmean. apply in_map; auto.
  - assert (b = vadd bh (vscal (- null) (unitv (length cols) j))) as ->.
    { eapply ls_coef_unique; [exact Hind|exact Hb|].
      apply ls_exact.
      - rewrite vadd_length with (n := length cols); auto; [apply Hbh|rewrite vscal_length; unfold unitv; rewrite map_length, seq_length; auto].
      - intros i Hi. rewrite lc_vadd, lc_vscal, unitv_lc; auto; [ring|apply Hbh|].
        rewrite vscal_length. unfold unitv. rewrite map_length, seq_length; auto. }
    rewrite vadd_nth, vscal_nth, unitv_nth, Nat.eqb_refl by
      (auto; rewrite vscal_length; unfold unitv; rewrite map_length, seq_length; apply Hbh). ring.
Qed.

(* Same for any list of draws containing with w also -w equally often: the average replicate. *)
Theorem wild_centre_symmetric rows cols y cl j wt null alpha ws r bh :
  wb rows cols y cl j wt null alpha (ws ++ map (fun w g => - w g) ws) = Ok r ->
  is_ls rows cols y bh ->
  meanf idR (w_coefs r) = nth j bh 0 - null.
Proof.
  intros H Hbh.
  set (ds := ws ++ map (fun w g => - w g) ws) in *.
  assert (Hne : ds <> []) by (apply wild_inv in H as [Hne _]; exact Hne).
  pose proof (len_pos ds Hne) as Hl.
  assert (Hc : forall (l : list (K -> R)) g c, sumf (fun wp : (K -> R) * R => snd wp * fst wp g) (combine l (repeat c (length l))) = c * sumf (fun w => w g) l).
  { intros l g c. induction l as [|w l IH]; simpl; [ring|]. rewrite IH. ring. }
  assert (Hlc : length (w_coefs r) = length ds).
  { destruct (wild_ls _ _ _ _ _ _ _ _ _ _ H) as (? & bs & _ & _ & _ & HB & ->). rewrite map_length. symmetry; eapply Forall2_len; eauto. }
  rewrite <- (wild_centre rows cols y cl j wt null alpha ds r (repeat (1 / len ds) (length ds)) bh H Hbh).
  - unfold meanf. rewrite <- Hlc. replace (len ds) with (len (w_coefs r)) by (unfold len; rewrite Hlc; reflexivity).
    replace (sumf idR (w_coefs r) / len (w_coefs r)) with (sumf idR (w_coefs r) * (1 / len (w_coefs r))) by (unfold Rdiv; ring).
    assert (Hs : forall l c, sumf idR l * c = sumf (fun cp : R * R => fst cp * snd cp) (combine l (repeat c (length l)))).
    { intros l c. induction l as [|x l IH]; simpl; [ring|]. rewrite <- IH. unfold idR at 1. ring. }
    apply Hs.
  - apply repeat_length.
  - assert (Hr : forall c n, sumf idR (repeat c n) = c * INR n).
    { intros c n. induction n as [|n IH]; [simpl; ring|]. rewrite S_INR. simpl repeat. simpl sumf. rewrite IH. unfold idR. ring. }
    rewrite Hr. fold (len ds). unfold Rdiv. rewrite Rmult_1_l. apply Rinv_l. lra.
  - intros g _. rewrite Hc. unfold ds. rewrite sumf_app, sumf_map.
    rewrite (sumf_ext_all (fun w : K -> R => - w g) (fun w => (-1) * w g)) by (intros; ring).
    rewrite sumf_scal. ring.
Qed.

(* ---- when it succeeds ---- *)
Lemma solve_defined rows cols y cl rv action :
  indep rows cols -> (length cols < length rows)%nat -> (2 <= length (cl_keys eqd rows cl))%nat ->
  parse_action action <> None ->
  exists o, solve rows cols y (Some cl) rv action = Ok o.
Proof.
  intros Hind Hlt HG Ha. unfold solve_ols.
  rewrite (proj2 (Nat.ltb_ge _ _)) by lia. destruct (parse_action action) as [act|]; [|congruence].
  rewrite (qr_indep_none qr rows cols Hqr Hind).
  destruct rv; [|eauto].
  unfold robust_vcov. rewrite (proj2 (Nat.ltb_ge _ 2)) by lia. rewrite (proj2 (Nat.eqb_neq _ _)) by lia.
  destruct (inv rows cols) as [B|] eqn:EB; simpl; [eauto|].
  pose proof (Hinv rows cols) as Hi. rewrite EB in Hi. contradiction.
Qed.

Definition known_weights (wt : string) : Prop :=
  wt = "rademacher"%string \/ wt = "webb"%string \/ wt = "mammen"%string.

Theorem wild_defined rows cols y cl j wt null alpha ws :
  known_weights wt -> indep rows cols -> (length cols < length rows)%nat ->
  (2 <= length (cl_keys eqd rows cl))%nat -> (j < length cols)%nat -> ws <> [] ->
  exists r, wb rows cols y cl j wt null alpha ws = Ok r.
Proof.
  intros Hw Hind Hlt HG Hj Hne. unfold wild_bootstrap.
  assert (negb (String.eqb wt "rademacher" || String.eqb wt "webb" || String.eqb wt "mammen") = false) as ->.
  { destruct Hw as [->|[->| ->]]; reflexivity. }
  rewrite (proj2 (Nat.ltb_ge _ 2)) by lia.
  destruct (solve_defined rows cols y cl true "warn" Hind Hlt HG ltac:(discriminate)) as [o ->]. cbn [bind].
  rewrite (proj2 (Nat.leb_gt _ _)) by lia.
  destruct (solve_defined rows cols (fun i => y i - colx cols j i * null) cl false "warn" Hind Hlt HG ltac:(discriminate)) as [orr Er].
  rewrite Er. cbn [bind]. destruct ws as [|w0 ws0]; [congruence|].
  destruct (solve_ols_full_rank eqd qr lstsq inv Hqr Hls _ _ _ _ _ _ _ Hind Er) as (b & Hb & _).
  assert (existsb fisnan (o_coef orr) = false) as ->.
  { rewrite Hb. clear. induction b; simpl; auto. }
  assert (Hm : forall l, exists reps, mapM (wild_rep eqd qr lstsq inv rows cols cl j null (map nan_to_zero (o_coef orr)) (o_resid orr)) l = Ok reps).
  { induction l as [|w l [reps IH]]; simpl; [eauto|]. unfold wild_rep at 1.
    edestruct solve_defined as [os ->]; eauto; [discriminate|]. cbn [bind]. rewrite IH. simpl. eauto. }
  destruct (Hm (w0 :: ws0)) as [reps ->]. cbn [bind]. eauto.
Qed.
End Wild.

(* ---- the null hypothesis is not imposed: 2x2 data of Did_more, clusters i / 2, tested coefficient the
   interaction, null 0, Rademacher draws closed under negation ---- *)
Definition wx_cols : list (nat -> R) := did_design (fR ex_d) (fR ex_t) [].
Definition wx_run (ws : list (nat -> R)) : res wild :=
  wild_bootstrap Nat.eq_dec (@gs_dropped nat) (@gs nat) (@gs_inv nat) (seq 0 8) wx_cols (fR ex_y)
    (fun i => i / 2)%nat 3 "rademacher" 0 (5/100) ws.

Lemma wx_indep : indep (seq 0 8) wx_cols.
Proof. apply sat_indep. apply ex_four; lia. Qed.

Lemma wx_ls : is_ls (seq 0 8) wx_cols (fR ex_y) [8; 5; 12; 4].
Proof.
  split; [reflexivity|]. unfold wx_cols, did_design, ip.
  repeat constructor; cbn [seq sumf lc ex_y ex_d ex_t toR Nat.modulo Nat.div Nat.divmod fst snd Nat.sub Nat.mul Nat.add INR]; simpl; lra.
Qed.

Lemma wx_ok ws : ws <> [] -> exists r, wx_run ws = Ok r.
Proof.
  intros H. apply wild_defined; auto using gs_dropped_ok, gs_ok, gs_inv_ok, wx_indep.
  - left; reflexivity.
  - simpl; lia.
  - vm_compute. lia.
Qed.

Theorem wild_null_not_imposed (ws : list (nat -> R)) : ws <> [] ->
  exists r, wx_run (ws ++ map (fun w g => - w g) ws) = Ok r /\ meanf idR (w_coefs r) = 4.
Proof.
  intros H. destruct (wx_ok (ws ++ map (fun w g => - w g) ws)) as [r Hr].
  { destruct ws; [congruence|discriminate]. }
  exists r. split; auto.
  rewrite (wild_centre_symmetric Nat.eq_dec (@gs_dropped nat) (@gs nat) (@gs_inv nat) gs_dropped_ok gs_ok _ _ _ _ _ _ _ _ _ _ _ Hr wx_ls).
  simpl. ring.
Qed.

(* Pre-trends power: the power function, the minimum detectable violation, fit, power_at, power_curve. *)
From Verif Require Import Prelude Flt Linalg_model Linalg_proofs Linalg_vcov Multi_model Honest_model Pretrends_model
  Pretrends_proofs.
From Coq Require Import Arith ZArith String List Lia Lra Ranalysis1 Rtopology.
Import ListNotations.
Open Scope R_scope.

(* ---- bound expansion ---- *)
Lemma grow_pow fuel f k : exists j, grow fuel f (2 ^ k) = 2 ^ (k + j) /\ (j <= fuel)%nat /\
  (forall i, (i < j)%nat -> f (2 ^ (k + i)) < 0 /\ 2 ^ (k + i) < 1000) /\
  (j = fuel \/ 0 <= f (2 ^ (k + j)) \/ 1000 <= 2 ^ (k + j)).
Proof.
  revert k. induction fuel as [|fuel IH]; intros k.
  - exists 0%nat. simpl. rewrite Nat.add_0_r. split; auto. split; auto. split; [intros; lia|auto].
  - cbn [grow]. destruct (Rltb (f (2 ^ k)) 0 && Rltb (2 ^ k) 1000) eqn:E.
    + apply Bool.andb_true_iff in E as [E1 E2]. apply Rltb_true in E1. apply Rltb_true in E2.
      destruct (IH (S k)) as (j & Ej & Lj & Hj & Hs). exists (S j).
      change (2 * 2 ^ k) with (2 ^ (S k)). rewrite Ej. replace (k + S j)%nat with (S k + j)%nat by lia.
      split; auto. split; [lia|]. split.
      * intros [|i] Hi; [rewrite Nat.add_0_r; auto|]. replace (k + S i)%nat with (S k + i)%nat by lia. apply Hj. lia.
      * destruct Hs as [->|Hs]; auto.
    + exists 0%nat. rewrite Nat.add_0_r. split; auto. split; [lia|]. split; [intros; lia|].
      apply Bool.andb_false_iff in E as [E|E]; apply Rltb_false in E; auto.
Qed.
Lemma pow9 : 2 ^ 9 = 512. Proof. simpl; lra. Qed.
Lemma pow10 : 2 ^ 10 = 1024. Proof. simpl; lra. Qed.
Lemma pow2_le k : (k <= 9)%nat -> 1 <= 2 ^ k <= 512.
Proof. intros H. do 10 (destruct k as [|k]; [simpl; lra|]). lia. Qed.
Lemma grow_11 f : (grow 11 f 1 = 1024 /\ f 512 < 0) \/ (exists k, (k <= 9)%nat /\ grow 11 f 1 = 2 ^ k /\ 0 <= f (2 ^ k)).
Proof.
  destruct (grow_pow 11 f 0) as (j & Ej & Lj & Hj & Hs). change (2 ^ 0) with 1 in Ej. simpl (0 + _)%nat in *. rewrite Ej.
  assert (J : (j <= 10)%nat). { destruct (Nat.le_gt_cases j 10); auto. destruct (Hj 10%nat) as [_ K]; [lia|]. rewrite ?Nat.add_0_l, pow10 in K. lra. }
  destruct (Nat.eq_dec j 10) as [->|N].
  - left. split; [apply pow10|]. destruct (Hj 9%nat) as [K _]; [lia|]. rewrite ?Nat.add_0_l, pow9 in K. exact K.
  - right. exists j. split; [lia|]. split; auto. pose proof (pow2_le j ltac:(lia)). destruct Hs as [->|[Ha|Hb]]; auto; [lia|lra].
Qed.

Section Power.
Variable chi2_ppf : R -> nat -> R.
Variable ncx2_sf ncx2_cdf : R -> nat -> R -> R.
Variable norm_ppf : R -> R.
Variable brentq : (R -> R) -> R -> R -> option R.
Variable minv : nat -> (nat -> nat -> R) -> option (nat -> nat -> R).
Variable mpinv : nat -> (nat -> nat -> R) -> nat -> nat -> R.
Hypothesis Hx : ncx2_ok chi2_ppf ncx2_sf ncx2_cdf.
Hypothesis Hb : brentq_ok brentq.
Hypothesis Hm : minv_ok minv.
Notation vq := (vquad minv mpinv).
Notation full := (pt_power chi2_ppf ncx2_cdf minv mpinv).
Notation power cfg M w V := (fst (fst (fst (full cfg M w V)))).
Notation mdv := (pt_mdv chi2_ppf ncx2_sf norm_ppf brentq minv mpinv).
Notation fit := (pt_fit chi2_ppf ncx2_sf ncx2_cdf norm_ppf brentq minv mpinv).
Notation curve := (pt_curve chi2_ppf ncx2_sf ncx2_cdf norm_ppf brentq minv mpinv).
Notation res_at := (res_power_at ncx2_cdf minv mpinv).

Definition size_ok (cfg : pt_cfg) : Prop := 0 < pc_alpha cfg < 1.

Lemma power_nc cfg m w V q : size_ok cfg -> w <> [] -> vq (length w) V w = Fin q -> 0 <= m * m * q ->
  power cfg (Fin m) w V = ncx2_sf (chi2_ppf (1 - pc_alpha cfg) (length w)) (length w) (m * m * q).
Proof.
  intros Ha Hw Hq Hn. unfold pt_power. rewrite vquad_scale, Hq. cbn [fst].
  assert (Hl : (0 < length w)%nat) by (destruct w; [congruence|simpl; lia]).
  destruct (Rltb 0 (m * m * q)) eqn:E.
  - rewrite (x_cdf _ _ _ Hx) by auto. ring.
  - apply Rltb_false in E. replace (m * m * q) with 0 by lra. rewrite (x_size _ _ _ Hx) by auto. reflexivity.
Qed.

(* a violation of size zero is rejected with probability alpha *)
Theorem power_zero cfg w V : power cfg (Fin 0) w V = pc_alpha cfg.
Proof.
  unfold pt_power. rewrite vquad_scale. cbn [fst]. destruct (vquad_cases minv mpinv (length w) V w) as [->|(q & ->)]; auto.
  replace (Rltb 0 (0 * 0 * q)) with false; auto. symmetry. apply Rltb_false. lra.
Qed.
Theorem power_even cfg m w V : full cfg (Fin (- m)) w V = full cfg (Fin m) w V.
Proof.
  unfold pt_power. rewrite !vquad_scale. destruct (vquad_cases minv mpinv (length w) V w) as [->|(q & ->)]; [reflexivity|].
  replace (- m * - m * q) with (m * m * q) by ring. reflexivity.
Qed.
Lemma sq_mono a b : Rabs a < Rabs b -> a * a < b * b.
Proof. intros H. pose proof (Rabs_pos a). rewrite <- (Rabs_right (a * a)), <- (Rabs_right (b * b)) by (apply Rle_ge, sq_nonneg). rewrite !Rabs_mult. nra. Qed.
Theorem power_increasing cfg m m' w V q : size_ok cfg -> w <> [] -> vq (length w) V w = Fin q -> 0 < q ->
  Rabs m < Rabs m' -> power cfg (Fin m) w V < power cfg (Fin m') w V.
Proof.
  intros Ha Hw Hq Hp Hlt. apply sq_mono in Hlt. pose proof (sq_nonneg m).
  rewrite !(power_nc cfg _ w V q) by (auto; nra).
  assert (Hl : (0 < length w)%nat) by (destruct w; [congruence|simpl; lia]).
  apply (x_mono _ _ _ Hx); auto. { apply (x_cv _ _ _ Hx); auto. } nra.
Qed.
Theorem power_range cfg m w V q : size_ok cfg -> w <> [] -> vq (length w) V w = Fin q -> 0 < q -> m <> 0 ->
  pc_alpha cfg < power cfg (Fin m) w V < 1.
Proof.
  intros Ha Hw Hq Hp Hn. split.
  - rewrite <- (power_zero cfg w V). apply (power_increasing cfg 0 m w V q); auto. rewrite Rabs_R0. apply Rabs_pos_lt; auto.
  - assert (0 <= m * m * q) by (pose proof (sq_nonneg m); nra). rewrite (power_nc cfg _ w V q) by auto.
    assert (Hl : (0 < length w)%nat) by (destruct w; [congruence|simpl; lia]).
    apply (x_lt1 _ _ _ Hx); auto. apply (x_cv _ _ _ Hx); auto.
Qed.
(* any power below 1 is reached by a large enough violation *)
Theorem power_reaches cfg w V q t : size_ok cfg -> w <> [] -> vq (length w) V w = Fin q -> 0 < q -> t < 1 ->
  exists m, 0 <= m /\ t < power cfg (Fin m) w V.
Proof.
  intros Ha Hw Hq Hp Ht. assert (Hl : (0 < length w)%nat) by (destruct w; [congruence|simpl; lia]).
  destruct (x_lim _ _ _ Hx (chi2_ppf (1 - pc_alpha cfg) (length w)) (length w) t) as (c & Hc & Hcl); auto.
  { apply (x_cv _ _ _ Hx); auto. }
  exists (sqrt (c / q)). split; [apply sqrt_pos|].
  assert (E : sqrt (c / q) * sqrt (c / q) * q = c).
  { rewrite sqrt_sqrt; [field; lra|]. apply Rmult_le_pos; [auto|left; apply Rinv_0_lt_compat; auto]. }
  rewrite (power_nc cfg _ w V q) by (auto; lra). rewrite E. exact Hcl.
Qed.

(* ---- minimum detectable violation ---- *)
Lemma pmt_eq cfg n c : size_ok cfg -> (0 < n)%nat ->
  power_minus_target ncx2_sf cfg (chi2_ppf (1 - pc_alpha cfg) n) n c
  = ncx2_sf (chi2_ppf (1 - pc_alpha cfg) n) n (Rmax c 0) - pc_target cfg.
Proof.
  intros Ha Hn. unfold power_minus_target. destruct (Rleb c 0) eqn:E.
  - apply Rleb_true in E. rewrite Rmax_right by auto. rewrite (x_size _ _ _ Hx) by auto. reflexivity.
  - apply Rleb_false in E. rewrite Rmax_left by lra. reflexivity.
Qed.

Lemma mdv_root cfg n : size_ok cfg -> (0 < n)%nat -> pc_alpha cfg <= pc_target cfg ->
  let cv := chi2_ppf (1 - pc_alpha cfg) n in let f := power_minus_target ncx2_sf cfg cv n in
  (Rleb 1000 (grow 11 f 1) = true /\ ncx2_sf cv n 512 < pc_target cfg) \/
  (Rleb 1000 (grow 11 f 1) = false /\ exists r, brentq f 0 (grow 11 f 1) = Some r /\ 0 <= r <= 512 /\ ncx2_sf cv n r = pc_target cfg).
Proof.
  intros Ha Hn Ht cv f. assert (Hcv : 0 < cv) by (apply (x_cv _ _ _ Hx); auto).
  assert (Ef : forall c, f c = ncx2_sf cv n (Rmax c 0) - pc_target cfg) by (intros; apply pmt_eq; auto).
  destruct (grow_11 f) as [[E F]|(k & Hk & E & F)].
  - left. rewrite E. split; [apply Rleb_true; lra|]. rewrite Ef, Rmax_left in F by lra. lra.
  - right. rewrite E. pose proof (pow2_le k Hk). split; [apply Rleb_false; lra|].
    destruct (Hb f 0 (2 ^ k)) as [_ HB]; [lra|]. destruct HB as (r & E1 & E2 & E3).
    + assert (f 0 <= 0). { rewrite Ef, Rmax_left by lra. unfold cv. rewrite (x_size _ _ _ Hx) by auto. lra. } nra.
    + intros x eps He. destruct (x_cont _ _ _ Hx cv n x Hcv Hn eps He) as (d & Hd & D). exists d. split; auto.
      intros y Hy. specialize (D y Hy). unfold dist in *. simpl in *. unfold R_dist in *. rewrite !Ef.
      replace (ncx2_sf cv n (Rmax y 0) - pc_target cfg - (ncx2_sf cv n (Rmax x 0) - pc_target cfg))
        with (ncx2_sf cv n (Rmax y 0) - ncx2_sf cv n (Rmax x 0)) by ring. exact D.
    + exists r. split; auto. split; [lra|]. rewrite Ef, Rmax_left in E3 by lra. lra.
Qed.

(* the MDV has exactly the target power, smaller violations have less *)
Theorem mdv_attains cfg w V m : size_ok cfg -> w <> [] -> pc_alpha cfg <= pc_target cfg ->
  mdv cfg w V = Fin m ->
  0 <= m /\ power cfg (Fin m) w V = pc_target cfg /\
  (forall M, Rabs M < m -> power cfg (Fin M) w V < pc_target cfg) /\
  (forall M, m < Rabs M -> pc_target cfg < power cfg (Fin M) w V).
Proof.
  intros Ha Hw Ht H. assert (Hl : (0 < length w)%nat) by (destruct w; [congruence|simpl; lia]).
  unfold pt_mdv in H. cbv zeta in H. destruct (mdv_root cfg (length w) Ha Hl Ht) as [[E _]|(E & r & Er & Hr & Es)].
  { rewrite E in H. discriminate. }
  rewrite E, Er in H. destruct (vquad_cases minv mpinv (length w) V w) as [Eq|(q & Eq)]; rewrite Eq in H; [discriminate|].
  destruct (Rltb 0 q) eqn:Ep; [|discriminate]. apply Rltb_true in Ep.
  assert (Hrq : 0 <= r / q) by (apply Rmult_le_pos; [lra|left; apply Rinv_0_lt_compat; auto]).
  unfold fsqrt in H. destruct (Rlt_dec (r / q) 0); [lra|]. injection H as <-.
  assert (E2 : sqrt (r / q) * sqrt (r / q) * q = r) by (rewrite sqrt_sqrt by auto; field; lra).
  assert (P : power cfg (Fin (sqrt (r / q))) w V = pc_target cfg).
  { rewrite (power_nc cfg _ w V q) by (auto; lra). rewrite E2. exact Es. }
  pose proof (sqrt_pos (r / q)). split; auto. split; auto. rewrite <- P. split; intros M HM.
  - apply (power_increasing cfg _ _ w V q); auto. rewrite (Rabs_right (sqrt _)) by lra. exact HM.
  - apply (power_increasing cfg _ _ w V q); auto. rewrite (Rabs_right (sqrt _)) by lra. exact HM.
Qed.
(* when it is finite *)
Theorem mdv_finite_iff cfg w V : size_ok cfg -> w <> [] -> pc_alpha cfg <= pc_target cfg ->
  ((exists m, mdv cfg w V = Fin m) <->
   (exists q, vq (length w) V w = Fin q /\ 0 < q) /\
   pc_target cfg <= ncx2_sf (chi2_ppf (1 - pc_alpha cfg) (length w)) (length w) 512) /\
  ((exists m, mdv cfg w V = Fin m) \/ mdv cfg w V = PInf).
Proof.
  intros Ha Hw Ht. assert (Hl : (0 < length w)%nat) by (destruct w; [congruence|simpl; lia]).
  unfold pt_mdv. cbv zeta. destruct (mdv_root cfg (length w) Ha Hl Ht) as [[E E2]|(E & r & Er & Hr & Es)]; rewrite E.
  { split; [|auto]. split; [intros (m & K); discriminate|]. intros [_ K]. lra. }
  rewrite Er.
  assert (T : pc_target cfg <= ncx2_sf (chi2_ppf (1 - pc_alpha cfg) (length w)) (length w) 512).
  { rewrite <- Es. destruct (Req_EM_T r 512) as [->|N]; [lra|]. left. apply (x_mono _ _ _ Hx); auto; [apply (x_cv _ _ _ Hx); auto|lra]. }
  destruct (vquad_cases minv mpinv (length w) V w) as [Eq|(q & Eq)]; rewrite Eq.
  { split; [|auto]. split; [intros (m & K); discriminate|]. intros [(q & K & _) _]. discriminate. }
  destruct (Rltb 0 q) eqn:Ep.
  - apply Rltb_true in Ep. assert (Hrq : 0 <= r / q) by (apply Rmult_le_pos; [lra|left; apply Rinv_0_lt_compat; auto]).
    unfold fsqrt. destruct (Rlt_dec (r / q) 0); [lra|]. split; [|left; eauto]. split; eauto.
  - apply Rltb_false in Ep. split; [|auto]. split; [intros (m & K); discriminate|].
    intros [(q' & K & K2) _]. injection K as <-. lra.
Qed.
(* a target power that is attainable but reported as an infinite MDV exists for every size and dimension *)
Theorem mdv_inf_refuted alpha ty ws w V q : 0 < alpha < 1 -> w <> [] -> vq (length w) V w = Fin q -> 0 < q ->
  exists t, alpha < t < 1 /\ let cfg := {| pc_alpha := alpha; pc_target := t; pc_type := ty; pc_weights := ws |} in
    mdv cfg w V = PInf /\ exists m, 0 <= m /\ pc_target cfg < power cfg (Fin m) w V.
Proof.
  intros Ha Hw Hq Hp. assert (Hl : (0 < length w)%nat) by (destruct w; [congruence|simpl; lia]).
  set (s := ncx2_sf (chi2_ppf (1 - alpha) (length w)) (length w) 512).
  assert (Hc : 0 < chi2_ppf (1 - alpha) (length w)) by (apply (x_cv _ _ _ Hx); auto).
  assert (S1 : s < 1) by (apply (x_lt1 _ _ _ Hx); auto; lra).
  assert (S2 : alpha < s). { unfold s. rewrite <- (x_size _ _ _ Hx alpha (length w) Ha Hl) at 1. apply (x_mono _ _ _ Hx); auto. lra. }
  exists ((s + 1) / 2). split; [lra|]. intros cfg.
  assert (Hcfg : size_ok cfg) by exact Ha. assert (Ht : pc_alpha cfg <= pc_target cfg) by (simpl; lra).
  destruct (mdv_finite_iff cfg w V Hcfg Hw Ht) as [K [K2|K2]].
  - exfalso. apply K in K2 as [_ K2]. simpl in K2. fold s in K2. lra.
  - split; auto. apply (power_reaches cfg w V q); auto. simpl. lra.
Qed.
(* a target below the size of the test *)
Theorem mdv_target_below_size cfg w V m : size_ok cfg -> w <> [] -> 0 < pc_target cfg < pc_alpha cfg ->
  mdv cfg w V = Fin m -> pc_target cfg < power cfg (Fin m) w V /\ pc_target cfg < power cfg (Fin 0) w V.
Proof.
  intros Ha Hw Ht H. rewrite power_zero. split; [|lra].
  assert (Hq : exists q, vq (length w) V w = Fin q /\ 0 < q).
  { unfold pt_mdv in H. cbv zeta in H. destruct (Rleb 1000 _); [discriminate|].
    destruct (vquad_cases minv mpinv (length w) V w) as [Eq|(q & Eq)]; rewrite Eq in H; [discriminate|].
    destruct (Rltb 0 q) eqn:Ep; [|discriminate]. apply Rltb_true in Ep. eauto. }
  destruct Hq as (q & Hq & Hp). destruct (Req_EM_T m 0) as [->|N]; [rewrite power_zero; lra|].
  pose proof (power_range cfg m w V q Ha Hw Hq Hp N). lra.
Qed.
(* no variation in the violation pattern *)
Theorem zero_weights cfg w V M : size_ok cfg -> (forall x, In x w -> x = 0) -> mdv cfg w V = PInf /\ power cfg M w V = pc_alpha cfg.
Proof.
  intros Ha Hz. assert (E : vq (length w) V w = NaN \/ vq (length w) V w = Fin 0).
  { unfold vquad. destruct (all_fin _ _); auto. right. rewrite quad_zero; auto. }
  split.
  - unfold pt_mdv. cbv zeta. destruct (Rleb 1000 _); auto. destruct E as [->| ->]; auto.
    replace (Rltb 0 0) with false; auto. symmetry. apply Rltb_false. lra.
  - unfold pt_power. cbn [fst]. destruct M; auto. rewrite vquad_scale. destruct E as [->| ->]; auto.
    replace (Rltb 0 (r * r * 0)) with false; auto. symmetry. apply Rltb_false. lra.
Qed.
(* outcomes in other units: the MDV scales *)
Theorem mdv_units cfg w V V' A c : size_ok cfg -> w <> [] -> 0 < c ->
  let n := length w in
  pos_def n A -> (forall i j, (i < n)%nat -> (j < n)%nat -> V i j = Fin (A i j)) ->
  (forall i j, (i < n)%nat -> (j < n)%nat -> V' i j = Fin (c * c * A i j)) ->
  mdv cfg w V' = fmul (Fin c) (mdv cfg w V) /\
  forall M, power cfg (Fin (c * M)) w V' = power cfg (Fin M) w V.
Proof.
  intros Ha Hw Hc n HA HV HV'. assert (Hl : (0 < length w)%nat) by (destruct w; [congruence|simpl; lia]).
  destruct (vquad_pd minv mpinv Hm n A V w HA HV eq_refl) as (x & Hsol & Eq & Hpos).
  set (q := sumf (fun i => nth i w 0 * x i) (seq 0 n)) in *.
  assert (HA' : pos_def n (fun i j => c * c * A i j)).
  { destruct HA as [Hs Hp]. split; [intros i j Hi Hj; rewrite (Hs i j) by auto; reflexivity|]. intros z Hz. specialize (Hp z Hz).
    rewrite (sumf_ext_all _ (fun i => c * c * sumf (fun j => z i * A i j * z j) (seq 0 n))).
    - rewrite sumf_scal. apply Rmult_lt_0_compat; [nra|exact Hp].
    - intros i. rewrite <- sumf_scal. apply sumf_ext_all; intros; ring. }
  assert (Eq' : vq n V' w = Fin (q / (c * c))).
  { rewrite (vquad_unique minv mpinv Hm n _ V' w (fun i => x i / (c * c)) HA' HV' eq_refl).
    - f_equal. unfold q. unfold Rdiv. rewrite <- sumf_scal_r. apply sumf_ext_all; intros; ring.
    - intros i Hi. rewrite <- (Hsol i Hi). apply sumf_ext_all. intros j. field. lra. }
  split.
  - unfold pt_mdv. cbv zeta. fold n. rewrite Eq, Eq'. destruct (Rleb 1000 _).
    { simpl. unfold fsgn_inf. destruct (Rlt_dec 0 c); [reflexivity|lra]. }
    set (nc := match brentq _ _ _ with Some r => r | None => _ end).
    destruct (Rlt_dec 0 q) as [P|P].
    + replace (Rltb 0 q) with true by (symmetry; apply Rltb_true; auto).
      assert (0 < q / (c * c)) by (apply Rdiv_lt_0_compat; nra).
      replace (Rltb 0 (q / (c * c))) with true by (symmetry; apply Rltb_true; auto).
      replace (nc / (q / (c * c))) with (c * c * (nc / q)) by (field; lra).
      set (z := nc / q). unfold fsqrt. assert (Hcc : 0 < c * c) by nra. destruct (Rlt_dec z 0) as [L|L].
      { destruct (Rlt_dec (c * c * z) 0) as [L'|L']; [reflexivity|]. exfalso. apply L'. apply Rmult_lt_reg_r with (/ (c * c)); [apply Rinv_0_lt_compat; auto|].
        replace (c * c * z * / (c * c)) with z by (field; lra). lra. }
      destruct (Rlt_dec (c * c * z) 0) as [L'|L']. { exfalso. assert (0 <= c * c * z) by (apply Rmult_le_pos; lra). lra. }
      cbn [fmul]. f_equal. rewrite sqrt_mult by lra. rewrite sqrt_square by lra. reflexivity.
    + replace (Rltb 0 q) with false by (symmetry; apply Rltb_false; lra).
      assert (q / (c * c) <= 0). { assert (0 < / (c * c)) by (apply Rinv_0_lt_compat; nra). unfold Rdiv. nra. }
      replace (Rltb 0 (q / (c * c))) with false by (symmetry; apply Rltb_false; auto).
      simpl. unfold fsgn_inf. destruct (Rlt_dec 0 c); [reflexivity|lra].
  - intros M. unfold pt_power. cbn [fst]. rewrite !vquad_scale. fold n. rewrite Eq, Eq'.
    replace (c * M * (c * M) * (q / (c * c))) with (M * M * q) by (field; lra). reflexivity.
Qed.

(* ---- fit ---- *)
Lemma fit_inv cfg r M pre x : fit cfg r M pre = Ok x ->
  exists p w, pt_extract r pre = Ok p /\ pt_weights cfg (pp_n p) = Ok w /\ length w = pp_n p /\
    pr_mdv x = mdv cfg w (pp_vcov p) /\
    pr_M x = (match M with Some m => Fin m | None => if ffinite (pr_mdv x) then pr_mdv x else np_max (pp_ses p) end) /\
    full cfg (pr_M x) w (pp_vcov p) = (pr_power x, pr_nc x, pr_stat x, pr_cv x) /\
    pr_type x = pc_type cfg /\ pr_alpha x = pc_alpha cfg /\ pr_target x = pc_target cfg /\
    pr_n x = pp_n p /\ pr_eff x = pp_eff p /\ pr_ses x = pp_ses p /\ pr_vcov x = pp_vcov p.
Proof.
  unfold pt_fit. destruct (pt_extract r pre) as [p|]; [|discriminate]. cbn [bind].
  destruct (pt_weights cfg (pp_n p)) as [w|] eqn:Ew; [|discriminate]. cbn [bind].
  set (MM := match M with Some m => Fin m | None => _ end). destruct (full cfg MM w (pp_vcov p)) as [[[po nc] st] cv] eqn:EP.
  intros H. injection H as <-. exists p, w. cbn. repeat (split; auto). apply (weights_length cfg); auto.
Qed.
Lemma extract_pos r pre p : pt_extract r pre = Ok p -> (0 < pp_n p)%nat.
Proof.
  assert (ES : forall l, pt_extract_es l = Ok p -> (0 < pp_n p)%nat).
  { intros l. unfold pt_extract_es. cbv zeta. destruct (es_sort _) eqn:E; [discriminate|]. intros H; injection H as <-. simpl. lia. }
  destruct r as [m|[l|]|l|]; cbn [pt_extract]; try discriminate; try apply ES.
  unfold pt_extract_mp. cbv zeta. set (al := match pre with Some l => l | None => _ end). destruct al as [|z al]; [discriminate|].
  destruct (pm_coef m).
  - destruct (filter _ (z :: al)) eqn:E; [discriminate|]. intros H; injection H as <-. simpl. lia.
  - destruct (filter _ (z :: al)) eqn:E; [discriminate|]. intros H; injection H as <-. simpl. lia.
Qed.
(* default violation size: the target power is reported *)
Theorem fit_default cfg r pre x m : size_ok cfg -> pc_alpha cfg <= pc_target cfg ->
  fit cfg r None pre = Ok x -> pr_mdv x = Fin m ->
  pr_M x = Fin m /\ pr_power x = pc_target cfg /\ res_adequate x = true.
Proof.
  intros Ha Ht H Em. destruct (fit_inv _ _ _ _ _ H) as (p & w & Hp & Hw & Lw & E1 & E2 & E3 & _ & _ & E4 & _).
  rewrite Em in E2. cbn [ffinite] in E2. rewrite E2 in E3. rewrite E1 in Em.
  assert (Hne : w <> []) by (intros ->; pose proof (extract_pos _ _ _ Hp); simpl in Lw; lia).
  destruct (mdv_attains cfg w (pp_vcov p) m Ha Hne Ht Em) as (_ & P & _). rewrite E3 in P. cbn [fst] in P.
  split; auto. split; auto. unfold res_adequate. rewrite P, E4. apply Rleb_true. lra.
Qed.
(* the noncentrality and expected statistic *)
Theorem fit_statistics cfg r M pre x p w q : fit cfg r (Some M) pre = Ok x -> pt_extract r pre = Ok p ->
  pt_weights cfg (pp_n p) = Ok w -> vq (pp_n p) (pp_vcov p) w = Fin q ->
  pr_nc x = Fin (M * M * q) /\ pr_stat x = Fin (INR (pp_n p) + M * M * q) /\ pr_cv x = chi2_ppf (1 - pc_alpha cfg) (pp_n p).
Proof.
  intros H Hp Hw Hq. destruct (fit_inv _ _ _ _ _ H) as (p' & w' & Hp' & Hw' & Lw & _ & E2 & E3 & _).
  rewrite Hp in Hp'. injection Hp' as <-. rewrite Hw in Hw'. injection Hw' as <-. rewrite E2 in E3. unfold pt_power in E3.
  rewrite Lw, vquad_scale, Hq in E3. injection E3 as _ <- <- <-. auto.
Qed.

(* ---- PreTrendsPowerResults.power_at against refitting ---- *)
Lemma res_weights_builtin cfg n w : pt_weights cfg n = Ok w -> pc_type cfg <> "custom"%string -> res_weights (pc_type cfg) n = w.
Proof.
  unfold pt_weights, pt_raw, res_weights. intros H Hn. apply String.eqb_neq in Hn. rewrite Hn in H.
  destruct (String.eqb (pc_type cfg) "linear"); [injection H as <-; reflexivity|].
  destruct (String.eqb (pc_type cfg) "constant"); [injection H as <-; reflexivity|].
  destruct (String.eqb (pc_type cfg) "last_period"); [|discriminate]. destruct n; [discriminate|]. injection H as <-; reflexivity.
Qed.
Theorem power_at_agrees cfg r M0 M pre x q : size_ok cfg -> pc_type cfg <> "custom"%string ->
  fit cfg r M0 pre = Ok x -> vq (pr_n x) (pr_vcov x) (res_weights (pr_type x) (pr_n x)) = Fin q -> 0 <= q ->
  exists x', fit cfg r (Some M) pre = Ok x' /\ res_at x M = Fin (pr_power x').
Proof.
  intros Ha Hn H Hq H0. destruct (fit_inv _ _ _ _ _ H) as (p & w & Hp & Hw & Lw & E1 & E2 & E3 & E4 & E5 & E6 & E7 & E8 & E9 & E10).
  assert (Ecv : pr_cv x = chi2_ppf (1 - pc_alpha cfg) (pp_n p)).
  { unfold pt_power in E3. rewrite Lw in E3. injection E3 as _ _ _ <-. reflexivity. }
  rewrite E4, E7, E10 in Hq. rewrite (res_weights_builtin cfg (pp_n p) w Hw Hn) in Hq.
  destruct (fit cfg r (Some M) pre) as [x'|] eqn:F.
  2:{ exfalso. unfold pt_fit in F. rewrite Hp in F. cbn [bind] in F. rewrite Hw in F. cbn [bind] in F.
      destruct (full cfg (Fin M) w (pp_vcov p)) as [[[? ?] ?] ?]. discriminate. }
  exists x'. split; auto. destruct (fit_inv _ _ _ _ _ F) as (p' & w' & Hp' & Hw' & _ & _ & F2 & F3 & _).
  rewrite Hp in Hp'. injection Hp' as <-. rewrite Hw in Hw'. injection Hw' as <-.
  assert (Hne : w <> []) by (intros ->; pose proof (extract_pos _ _ _ Hp); simpl in Lw; lia).
  assert (Hnn : 0 <= M * M * q) by (pose proof (sq_nonneg M); nra).
  rewrite <- Lw in Hq. pose proof (power_nc cfg M w (pp_vcov p) q Ha Hne Hq Hnn) as P. rewrite F2 in F3. rewrite F3 in P. cbn [fst] in P.
  unfold res_power_at. rewrite E4, E7, E10, Ecv, (res_weights_builtin cfg (pp_n p) w Hw Hn). rewrite <- Lw, Hq.
  rewrite (x_cdf _ _ _ Hx) by auto. rewrite P. f_equal. ring.
Qed.

(* ---- power_curve ---- *)
Theorem curve_inv cfg r grid n pre l m : curve cfg r grid n pre = Ok (l, m) ->
  exists p w, pt_extract r pre = Ok p /\ pt_weights cfg (pp_n p) = Ok w /\ w <> [] /\ m = mdv cfg w (pp_vcov p) /\
    (forall k, In k l -> snd k = power cfg (fst k) w (pp_vcov p)) /\
    (forall g, grid = Some g -> map fst l = map Fin g) /\
    (grid = None -> forall mm, m = Fin mm -> map fst l = map Fin (linspace0 (Rmin (5 / 2 * mm) 100) n)).
Proof.
  unfold pt_curve. destruct (pt_extract r pre) as [p|] eqn:Hp; [|discriminate]. cbn [bind].
  destruct (pt_weights cfg (pp_n p)) as [w|] eqn:Ew; [|discriminate]. cbn [bind]. intros H. apply (f_equal (fun z => match z with Ok u => u | Err _ => ([], NaN) end)) in H.
  apply pair_equal_spec in H as [Hl Hm2]. exists p, w. split; auto. split; auto.
  split. { intros ->. pose proof (weights_length _ _ _ Ew). pose proof (extract_pos _ _ _ Hp). simpl in *. lia. }
  split; auto. split; [|split].
  - intros k Hk. rewrite <- Hl in Hk. apply in_map_iff in Hk as (M & <- & _). reflexivity.
  - intros g ->. rewrite <- Hl, map_map. cbn [fst]. apply map_id.
  - intros -> mm ->. rewrite <- Hl, map_map. cbn [fst]. rewrite map_id. rewrite Hm2. cbn [ffinite fmul flt].
    unfold Rmin. destruct (Rltb 100 (5 / 2 * mm)) eqn:E.
    + apply Rltb_true in E. destruct (Rle_dec (5 / 2 * mm) 100); [lra|reflexivity].
    + apply Rltb_false in E. destruct (Rle_dec (5 / 2 * mm) 100); [reflexivity|lra].
Qed.
Lemma linspace0_bounds b n x : 0 <= b -> In x (linspace0 b n) -> 0 <= x <= b.
Proof.
  intros Hb0 H. unfold linspace0 in H. destruct n as [|[|n]]; [destruct H|destruct H as [<-|[]]; lra|].
  apply in_map_iff in H as (i & <- & Hi). apply in_seq in Hi. simpl (S (S n) - 1)%nat.
  assert (0 < INR (S n)) by (apply lt_0_INR; lia). assert (0 <= INR i <= INR (S n)) by (split; [apply pos_INR|apply le_INR; lia]).
  replace (b * INR i / INR (S n)) with (b * (INR i / INR (S n))) by (field; lra).
  assert (0 <= INR i / INR (S n) <= 1).
  { split; [apply Rmult_le_pos; [lra|left; apply Rinv_0_lt_compat; lra]|]. apply (Rmult_le_reg_r (INR (S n))); [lra|]. unfold Rdiv. rewrite Rmult_assoc, Rinv_l by lra. lra. }
  split; nra.
Qed.
(* the automatic grid stops at 100: with an MDV above that, no point of the curve reaches the target *)
Theorem curve_misses_target_refuted cfg r n pre l m : size_ok cfg -> pc_alpha cfg <= pc_target cfg ->
  curve cfg r None n pre = Ok (l, Fin m) -> 100 < m -> forall k, In k l -> snd k < pc_target cfg.
Proof.
  intros Ha Ht H Hm100 k Hk. destruct (curve_inv _ _ _ _ _ _ _ H) as (p & w & _ & _ & Hw & Em & Hpow & _ & Hg).
  specialize (Hg eq_refl m eq_refl). rewrite (Hpow k Hk).
  assert (Hf : In (fst k) (map fst l)) by (apply in_map; auto). rewrite Hg in Hf. apply in_map_iff in Hf as (x & Ex & Hin). rewrite <- Ex.
  rewrite Rmin_right in Hin by lra. apply linspace0_bounds in Hin; [|lra].
  destruct (mdv_attains cfg w (pp_vcov p) m Ha Hw Ht (eq_sym Em)) as (_ & _ & P & _). apply P. rewrite Rabs_right; lra.
Qed.
(* below that, the last of at least two points exceeds it *)
Theorem curve_reaches_target cfg r n pre l m : size_ok cfg -> pc_alpha cfg < pc_target cfg -> (2 <= n)%nat ->
  curve cfg r None n pre = Ok (l, Fin m) -> m < 100 ->
  (exists k, In k l /\ pc_target cfg < snd k) /\ (exists k, In k l /\ fst k = Fin 0 /\ snd k = pc_alpha cfg) /\ length l = n.
Proof.
  intros Ha Ht Hn H Hm100. destruct (curve_inv _ _ _ _ _ _ _ H) as (p & w & _ & _ & Hw & Em & Hpow & _ & Hg).
  specialize (Hg eq_refl m eq_refl). destruct (mdv_attains cfg w (pp_vcov p) m Ha Hw (Rlt_le _ _ Ht) (eq_sym Em)) as (M0 & M1 & _ & P).
  assert (m <> 0). { intros ->. rewrite power_zero in M1. lra. }
  assert (L : length l = n).
  { rewrite <- (map_length fst), Hg, map_length. unfold linspace0. destruct n as [|[|n]]; try lia. rewrite map_length, seq_length. reflexivity. }
  assert (G : forall x, In x (linspace0 (Rmin (5/2*m) 100) n) -> exists k, In k l /\ fst k = Fin x).
  { intros x Hin. assert (In (Fin x) (map fst l)) as K by (rewrite Hg; apply in_map; auto). apply in_map_iff in K as (k & E & Hk). eauto. }
  destruct n as [|[|n]]; try lia. split; [|split; auto].
  - destruct (G (Rmin (5/2*m) 100)) as (k & Hk & Ek).
    { unfold linspace0. apply in_map_iff. exists (S n). split; [|apply in_seq; lia]. simpl (S (S n) - 1)%nat. field. apply not_0_INR. lia. }
    exists k. split; auto. rewrite (Hpow k Hk), Ek. apply P. unfold Rmin. destruct (Rle_dec _ _); rewrite Rabs_right; lra.
  - destruct (G 0) as (k & Hk & Ek).
    { unfold linspace0. apply in_map_iff. exists 0%nat. split; [|apply in_seq; lia]. simpl INR. unfold Rdiv. ring. }
    exists k. split; auto. split; auto. rewrite (Hpow k Hk), Ek. apply power_zero.
Qed.
(* along the curve, power grows with the size of the violation *)
Theorem curve_monotone cfg r grid n pre l m k k' a b : size_ok cfg ->
  curve cfg r grid n pre = Ok (l, Fin m) -> pc_alpha cfg <= pc_target cfg -> In k l -> In k' l -> fst k = Fin a -> fst k' = Fin b ->
  Rabs a < Rabs b -> snd k < snd k'.
Proof.
  intros Ha H Ht Hk Hk' Ea Eb Hab. destruct (curve_inv _ _ _ _ _ _ _ H) as (p & w & _ & _ & Hw & Em & Hpow & _ & _).
  rewrite (Hpow k Hk), (Hpow k' Hk'), Ea, Eb.
  destruct (mdv_finite_iff cfg w (pp_vcov p) Ha Hw Ht) as [F _]. destruct (proj1 F) as [(q & Eq & Hp) _]; [eauto|].
  apply (power_increasing cfg a b w (pp_vcov p) q); auto.
Qed.
End Power.

(* ---- construction ---- *)
Theorem init_ok_iff alpha power ty w :
  (exists cfg, pt_init alpha power ty w = Ok cfg) <->
  0 < alpha < 1 /\ 0 < power < 1 /\ In ty pt_types /\ (ty = "custom"%string -> w <> None).
Proof.
  unfold pt_init.
  assert (B : forall a, negb (Rltb 0 a && Rltb a 1) = false <-> 0 < a < 1).
  { intros a. rewrite Bool.negb_false_iff, Bool.andb_true_iff, !Rltb_true. tauto. }
  assert (E : existsb (String.eqb ty) pt_types = true <-> In ty pt_types).
  { rewrite existsb_exists. split; [intros (s & Hs & Hq); apply String.eqb_eq in Hq; subst; auto|intros H; exists ty; split; auto; apply String.eqb_refl]. }
  split.
  - intros (cfg & H). destruct (negb _) eqn:E1 in H; [discriminate|]. destruct (negb _) eqn:E2 in H; [discriminate|].
    destruct (existsb _ _) eqn:E3 in H; [|discriminate]. cbn [negb] in H.
    destruct (_ && _) eqn:E4 in H; [discriminate|]. split; [apply B; auto|]. split; [apply B; auto|]. split; [apply E; auto|].
    intros -> ->. discriminate.
  - intros (H1 & H2 & H3 & H4). rewrite (proj2 (B alpha) H1), (proj2 (B power) H2), (proj2 E H3). cbn [negb].
    destruct (String.eqb ty "custom") eqn:Ec; [|eexists; reflexivity]. apply String.eqb_eq in Ec. destruct w as [w|]; [|exfalso; apply (H4 Ec); auto]. eexists; reflexivity.
Qed.
(* the documented patterns *)
Theorem patterns n i : (i < n)%nat ->
  nth i (linear_w n) 0 = INR (n - 1) - INR i /\ nth i (repeat 1 n) 0 = 1 /\
  nth i (last_w n) 0 = if Nat.eqb i (n - 1) then 1 else 0.
Proof.
  intros H. split; [|split].
  - unfold linear_w. rewrite (nth_indep _ 0 (INR (n - 1 - 0))) by (rewrite map_length, seq_length; auto).
    rewrite (map_nth (fun i => INR (n - 1 - i))), seq_nth by auto. simpl. rewrite minus_INR by lia. reflexivity.
  - rewrite (nth_indep _ 0 1) by (rewrite repeat_length; auto). apply nth_repeat.
  - unfold last_w. rewrite (nth_indep _ 0 ((fun i => if Nat.eqb (S i) n then 1 else 0) 0%nat)) by (rewrite map_length, seq_length; auto).
    rewrite (map_nth (fun i => if Nat.eqb (S i) n then 1 else 0)), seq_nth by auto. simpl (0 + i)%nat.
    destruct (Nat.eqb_spec (S i) n); destruct (Nat.eqb_spec i (n - 1)); auto; lia.
Qed.
Theorem weights_unit cfg n w : pt_weights cfg n = Ok w -> (forall x, In x w -> x = 0) \/ sumf (fun x => x * x) w = 1.
Proof.
  unfold pt_weights. destruct (pt_raw cfg n) as [v|]; [|discriminate]. cbn [bind]. intros H; injection H as <-.
  destruct (Classical_Prop.classic (exists x, In x v /\ x <> 0)) as [K|K].
  - right. apply normalise_unit. auto.
  - left. assert (Z : forall x, In x v -> x = 0). { intros x Hx. destruct (Req_EM_T x 0); auto. exfalso. apply K. eauto. }
    rewrite normalise_zero; auto.
Qed.
(* one pre-period, linear pattern: nothing to detect *)
Theorem linear_one cfg w : pc_type cfg = "linear"%string -> pt_weights cfg 1 = Ok w -> w = [0].
Proof.
  unfold pt_weights, pt_raw. intros ->. simpl. intros H; injection H as <-. unfold linear_w. simpl.
  rewrite normalise_zero; [reflexivity|]. intros x [<-|[]]. reflexivity.
Qed.

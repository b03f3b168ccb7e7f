(* SyntheticDiD: two control units, one pre-period.  The exact course of the weight iteration, and what
   happens to the estimate under unit effects, a shift of the level and a change of units. *)
From Verif Require Import Prelude Flt Stats_model Linalg_model Linalg_proofs Did_model Multi_model Staggered_model Synth_model Synth_proofs Synth_more Sdid_model Sdid_proofs Sdid_thms.
From Coq Require Import Arith ZArith String List Permutation.
Import ListNotations.
Open Scope R_scope.

(* controls 1 and 2 with pre-period outcomes a and b, treated unit 3 with y; changes ca, cb, cy *)
Definition two_mat (a b y ca cb cy : R) (t j : Z) : R :=
  (if Z.eqb j 1 then a else if Z.eqb j 2 then b else y)
  + (if Z.eqb t 1 then (if Z.eqb j 1 then ca else if Z.eqb j 2 then cb else cy) else 0).
Definition two_est (backend : list Z -> list (Z -> R) -> (Z -> R) -> R -> list R) cfg Y : R :=
  sd_point backend cfg Y [0%Z] [1%Z] [3%Z] [1%Z; 2%Z].

Definition two_c (a b : R) : list (Z -> R) := [fun _ => a; fun _ => b].

Lemma half_eq s a b y xs x : (a - b) * xs = y - b ->
  s * (a * (a * x + b * (1 - x) - y)) - s * (b * (a * x + b * (1 - x) - y)) = s * ((a - b) * (a - b)) * (x - xs).
Proof. intros H. assert (E : a * x + b * (1 - x) - y = (a - b) * (x - xs)) by (replace ((a - b) * (x - xs)) with ((a - b) * x - (a - b) * xs) by ring; rewrite H; ring). rewrite E. ring. Qed.

Lemma two_iter s a b y xs x : (a - b) * xs = y - b -> 0 <= xs <= 1 -> 0 <= x <= 1 ->
  let k := s * ((a - b) * (a - b)) / 2 in 0 <= k <= 1 ->
  grad_step project_simplex 2 s (grad_rust [0%Z] (two_c a b) (fun _ => y) 0) [x; 1 - x]
  = [x - k * (x - xs); 1 - (x - k * (x - xs))].
Proof.
  intros Hx Hxs H01 k Hk. unfold grad_step. cbn [seq map nth].
  set (r := a * x + b * (1 - x) - y).
  assert (G0 : grad_rust [0%Z] (two_c a b) (fun _ => y) 0 [x; 1 - x] 0 = a * r).
  { unfold grad_rust, ip, colx, two_c, lc, r; cbn. ring. }
  assert (G1 : grad_rust [0%Z] (two_c a b) (fun _ => y) 0 [x; 1 - x] 1 = b * r).
  { unfold grad_rust, ip, colx, two_c, lc, r; cbn. ring. }
  rewrite G0, G1, project_two. cbv zeta.
  assert (E := half_eq s a b y xs x Hx). fold r in E.
  assert (D : x - s * (a * r) - (1 - x - s * (b * r)) = 2 * (x - k * (x - xs)) - 1) by (unfold k; lra).
  rewrite D. set (x' := x - k * (x - xs)) in *.
  assert (B : 0 <= x' <= 1).
  { assert (Ex : x' = (1 - k) * x + k * xs) by (unfold x'; ring). rewrite Ex.
    assert (0 <= (1 - k) * x) by (apply Rmult_le_pos; lra). assert (0 <= k * xs) by (apply Rmult_le_pos; lra).
    assert ((1 - k) * x <= (1 - k) * 1) by (apply Rmult_le_compat_l; lra). assert (k * xs <= k * 1) by (apply Rmult_le_compat_l; lra). lra. }
  destruct (Rle_dec (2 * x' - 1) (-1)) as [L|L].
  - replace x' with 0 by lra. reflexivity.
  - destruct (Rle_dec 1 (2 * x' - 1)) as [L'|L'].
    + replace x' with 1 by lra. reflexivity.
    + replace ((2 * x' - 1 + 1) / 2) with x' by lra. reflexivity.
Qed.

Section Course.
Variables (s a b y xs : R).
Hypothesis Hx : (a - b) * xs = y - b.
Hypothesis Hxs : 0 <= xs <= 1.
Let k := s * ((a - b) * (a - b)) / 2.
Hypothesis Hk : 0 <= k <= 1.
Let stp := grad_step project_simplex 2 s (grad_rust [0%Z] (two_c a b) (fun _ => y) 0).
Let x1 := 1 / 2 - k * (1 / 2 - xs).

Lemma uniform_two : uniform_w 2 = [1 / 2; 1 - 1 / 2].
Proof. replace (1 - 1 / 2) with (1 / 2) by lra. reflexivity. Qed.

(* from the first step on, the weight of control 1 lies between the optimum and its value after one step *)
Lemma course n : exists x, pgd (S n) stp (uniform_w 2) = [x; 1 - x] /\ (xs <= 1 / 2 -> xs <= x <= x1) /\ (1 / 2 <= xs -> x1 <= x <= xs).
Proof.
  set (P := fun w => exists x, w = [x; 1 - x] /\ 0 <= x <= 1 /\ (xs <= 1 / 2 -> xs <= x <= x1) /\ (1 / 2 <= xs -> x1 <= x <= xs)).
  assert (Q1 : P (stp (uniform_w 2))).
  { rewrite uniform_two. unfold stp. rewrite (two_iter s a b y xs (1 / 2)) by (auto; lra). fold k.
    exists x1. unfold x1. split; [reflexivity|].
    assert (E1 : 1 / 2 - k * (1 / 2 - xs) = (1 - k) * (1 / 2) + k * xs) by ring.
    assert (0 <= k * xs) by (apply Rmult_le_pos; lra). assert (k * xs <= k * 1) by (apply Rmult_le_compat_l; lra).
    split; [lra|]. split; intros Hh.
    - split; [|lra]. assert (k * (1 / 2 - xs) <= 1 * (1 / 2 - xs)) by (apply Rmult_le_compat_r; lra). lra.
    - split; [lra|]. assert (k * (xs - 1 / 2) <= 1 * (xs - 1 / 2)) by (apply Rmult_le_compat_r; lra). lra. }
  assert (QS : forall w, P w -> P (stp w)).
  { intros w (x & -> & B & L & G). unfold stp. rewrite (two_iter s a b y xs x) by (auto; lra). fold k.
    exists (x - k * (x - xs)). split; [reflexivity|].
    assert (0 <= k * xs) by (apply Rmult_le_pos; lra). assert (k * xs <= k * 1) by (apply Rmult_le_compat_l; lra).
    assert (0 <= (1 - k) * x) by (apply Rmult_le_pos; lra). assert ((1 - k) * x <= (1 - k) * 1) by (apply Rmult_le_compat_l; lra).
    split; [lra|]. split; intros Hh.
    - specialize (L Hh). assert (0 <= k * (x - xs)) by (apply Rmult_le_pos; lra).
      assert (k * (x - xs) <= 1 * (x - xs)) by (apply Rmult_le_compat_r; lra). lra.
    - specialize (G Hh). assert (0 <= k * (xs - x)) by (apply Rmult_le_pos; lra).
      assert (k * (xs - x) <= 1 * (xs - x)) by (apply Rmult_le_compat_r; lra). lra. }
  assert (R : P (pgd (S n) stp (uniform_w 2))).
  { cbn [pgd]. destruct (Rlt_dec _ _); [exact Q1|]. apply pgd_invariant; auto. }
  destruct R as (x & E & _ & L & G). exists x. auto.
Qed.

(* a first movement below the tolerance ends the iteration *)
Lemma course_stop n : k <= 1 / 100000000 -> pgd (S n) stp (uniform_w 2) = [x1; 1 - x1].
Proof.
  intros Hs. cbn [pgd]. rewrite uniform_two.
  assert (ES : stp [1 / 2; 1 - 1 / 2] = [x1; 1 - x1]) by (unfold stp; rewrite (two_iter s a b y xs (1 / 2)) by (auto; lra); reflexivity).
  rewrite ES.
  destruct (Rlt_dec _ _) as [L|L]; [reflexivity|]. exfalso. apply L. clear L. unfold dist2, sqd. cbn. 
  set (m := k * (1 / 2 - xs)). assert (M : Rabs m <= 1 / 200000000).
  { unfold m. rewrite Rabs_mult. assert (Rabs (1 / 2 - xs) <= 1 / 2) by (apply Rabs_le; lra). rewrite (Rabs_right k) by lra.
    assert (k * Rabs (1 / 2 - xs) <= 1 / 100000000 * (1 / 2)).
    { apply Rmult_le_compat; try lra. apply Rabs_pos. }
    lra. }
  assert (M2 : m * m <= 1 / 200000000 * (1 / 200000000)).
  { rewrite <- (Rabs_right (m * m)) by (apply Rle_ge, sq_nonneg). rewrite Rabs_mult. apply Rmult_le_compat; auto; apply Rabs_pos. }
  replace ((x1 - 1 / 2) * (x1 - 1 / 2) + ((1 - x1 - (1 - 1 / 2)) * (1 - x1 - (1 - 1 / 2)) + 0)) with (2 * (m * m)) by (unfold x1, m; field).
  apply (Rle_lt_trans _ (sqrt (2 * (1 / 200000000 * (1 / 200000000))))); [apply sqrt_le_1_alt; lra|].
  unfold opt_tol. rewrite <- (sqrt_square (1 / 100000000)) by lra. apply sqrt_lt_1_alt. lra.
Qed.
End Course.

Lemma finish_two x : 0 <= x <= 1 -> exists x', finish_weights min_weight [x; 1 - x] = [x'; 1 - x'] /\
  (x <= 1 / 2 -> 0 <= x' <= x) /\ (1 / 2 <= x -> x <= x' <= 1) /\ (1 / 4 <= x <= 3 / 4 -> x' = x).
Proof.
  intros H. unfold finish_weights, min_weight. cbn [map].
  destruct (Rlt_dec x (1 / 1000000)) as [A|A]; destruct (Rlt_dec (1 - x) (1 / 1000000)) as [B|B]; cbn [sumf]; unfold idR.
  - lra.
  - destruct (Rlt_dec 0 (0 + (1 - x + 0))) as [C|C]; [|lra]. exists 0. cbn [map]. split; [f_equal; [field; lra|f_equal; field; lra]|]. lra.
  - destruct (Rlt_dec 0 (x + (0 + 0))) as [C|C]; [|lra]. exists 1. cbn [map]. split; [f_equal; [field; lra|f_equal; field; lra]|]. lra.
  - destruct (Rlt_dec 0 (x + (1 - x + 0))) as [C|C]; [|lra]. exists x. cbn [map]. split; [f_equal; [field; lra|f_equal; field; lra]|]. lra.
Qed.

(* ---- both backends in this problem ---- *)
Lemma numpy_norm nrm a b : norm2_ok nrm -> nrm [0%Z] (two_c a b) 0 = a * a + b * b.
Proof.
  intros H. destruct (H [0%Z] (two_c a b) 0 (Rle_refl 0)) as [U V].
  assert (T : htrace [0%Z] (two_c a b) 0 = a * a + b * b) by (unfold htrace, two_c, ip; cbn; ring). rewrite T in V.
  assert (W := U [a; b] eq_refl). unfold hform, ip, two_c, lc in W. cbn in W.
  assert (W1 := U [1; 0] eq_refl). unfold hform, ip, two_c, lc in W1. cbn in W1. fold (two_c a b) in *.
  set (n := nrm [0%Z] (two_c a b) 0) in *. change (nrm [0%Z] [fun _ => a; fun _ => b] 0) with n in *.
  assert (N0 : 0 <= n) by (assert (0 <= a * a) by apply sq_nonneg; lra).
  destruct (Req_dec (a * a + b * b) 0) as [Z0|Z0]; [lra|].
  assert (0 < a * a + b * b) by (assert (0 <= a * a) by apply sq_nonneg; assert (0 <= b * b) by apply sq_nonneg; lra).
  assert (L : (a * a + b * b) * (a * a + b * b) <= n * (a * a + b * b)) by (replace ((a * a + b * b) * (a * a + b * b)) with ((a * a + (b * b + 0) + 0) * (a * a + (b * b + 0) + 0)) by ring; lra).
  assert (a * a + b * b <= n) by (apply (Rmult_le_reg_r (a * a + b * b)); lra). lra.
Qed.

(* the step sizes *)
Definition step_of (rust : bool) (a b : R) : R := if rust then 1 / 10 else 1 / (a * a + b * b + eps10).
Definition be_of (rust : bool) nrm n := if rust then be_rust (S n) else be_numpy (S n) nrm.

Lemma be_two rust nrm n a b y : norm2_ok nrm ->
  be_of rust nrm n [0%Z] (two_c a b) (fun _ => y) 0
  = pgd (S n) (grad_step project_simplex 2 (step_of rust a b) (grad_rust [0%Z] (two_c a b) (fun _ => y) 0)) (uniform_w 2).
Proof.
  intros Hn. destruct rust; unfold be_of, step_of.
  - unfold be_rust, synth_rust. cbn [two_c length].
    apply (pgd_ext (fun _ => True)); auto. intros w _. split; auto. unfold grad_step. apply project_rust_eq.
  - unfold be_numpy, synth_numpy. rewrite (numpy_norm nrm a b Hn).
    apply (pgd_ext (fun _ => True)); auto. intros w _. split; auto.
    rewrite <- (backends_same_step [0%Z] (two_c a b)). unfold grad_step. apply project_rust_eq.
Qed.

(* Y agrees with the table on the panel *)
Definition on_grid (Y : Z -> Z -> R) a b y ca cb cy : Prop :=
  forall t j, In t [0%Z; 1%Z] -> In j [1%Z; 2%Z; 3%Z] -> Y t j = two_mat a b y ca cb cy t j.

Lemma two_est_eq backend cfg Y a b y ca cb cy x : on_grid Y a b y ca cb cy -> sd_lambda cfg = 0 ->
  finish_weights min_weight (backend [0%Z] (two_c a b) (fun _ => y) 0) = [x; 1 - x] ->
  (forall pre c c' g g' l, (forall t, In t pre -> g t = g' t) -> Forall2 (fun f f' => forall t, In t pre -> f t = f' t) c c' -> c <> [] -> backend pre c g l = backend pre c' g' l) ->
  two_est backend cfg Y = cy - (x * ca + (1 - x) * cb).
Proof.
  intros HY Hl Hb Hext. unfold two_est, sd_point.
  assert (G : forall t j, (t = 0 \/ t = 1)%Z -> (j = 1 \/ j = 2 \/ j = 3)%Z -> Y t j = two_mat a b y ca cb cy t j).
  { intros t j Ht Hj. apply HY; cbn; intuition. }
  assert (E : sd_omega backend cfg Y [0%Z] [3%Z] [1%Z; 2%Z] = [x; 1 - x]).
  { unfold sd_omega, synthetic_weights. cbn [length]. rewrite <- Hb, Hl. f_equal. apply Hext; [| |discriminate].
    - intros t [<-|[]]. unfold meanf; cbn. rewrite G by tauto. unfold two_mat; cbn. field.
    - repeat constructor; intros t [<-|[]]; rewrite G by tauto; unfold two_mat; cbn; ring. }
  rewrite E. unfold sd_tw, time_weights, sdid, wdot, meanf. cbn [combine sumf fst snd]. rewrite !G by tauto. unfold two_mat, len. cbn. field.
Qed.

Lemma be_ext rust nrm n : norm2_ok nrm ->
  (forall pre c c' l, Forall2 (fun f f' => forall t, In t pre -> f t = f' t) c c' -> nrm pre c l = nrm pre c' l) ->
  forall pre c c' g g' l, (forall t, In t pre -> g t = g' t) -> Forall2 (fun f f' => forall t, In t pre -> f t = f' t) c c' -> c <> [] ->
  be_of rust nrm n pre c g l = be_of rust nrm n pre c' g' l.
Proof.
  intros Hn Hex pre c c' g g' l Hg Hc Hne.
  assert (SC : shift_cols pre (fun _ => 0) c c').
  { unfold shift_cols. clear Hne. induction Hc; constructor; auto. intros t Ht. rewrite Rplus_0_r. symmetry; auto. }
  assert (SG : forall t, In t pre -> g' t = g t + 0) by (intros t Ht; rewrite Hg by auto; ring).
  destruct rust; unfold be_of.
  - symmetry. apply (rust_shift (S n) pre (fun _ => 0)); auto.
  - unfold be_numpy. rewrite (Hex pre c c' l Hc). symmetry. apply (numpy_shift_same_norm _ _ pre (fun _ => 0)); auto.
Qed.

Definition nrm_ext (nrm : list Z -> list (Z -> R) -> R -> R) : Prop :=
  forall pre c c' l, Forall2 (fun f f' => forall t, In t pre -> f t = f' t) c c' -> nrm pre c l = nrm pre c' l.
Lemma htrace_ext : nrm_ext htrace.
Proof.
  intros pre c c' l H. unfold htrace. induction H as [|f f' c c' Hf _ IH]; [reflexivity|]. cbn [sumf]. rewrite IH. f_equal. f_equal.
  unfold ip. apply sumf_ext. intros t Ht. rewrite Hf by auto. reflexivity.
Qed.

(* the estimate, with bounds on the weight of control 1 *)
Theorem two_est_bounds rust nrm n cfg Y a b y ca cb cy xs : on_grid Y a b y ca cb cy -> norm2_ok nrm -> nrm_ext nrm -> sd_lambda cfg = 0 ->
  (a - b) * xs = y - b -> 0 <= xs <= 1 -> let k := step_of rust a b * ((a - b) * (a - b)) / 2 in 0 <= k <= 1 ->
  exists x, two_est (be_of rust nrm n) cfg Y = cy - (x * ca + (1 - x) * cb) /\ 0 <= x <= 1 /\
    (xs <= 1 / 2 -> x <= 1 / 2 - k * (1 / 2 - xs)) /\ (1 / 2 <= xs -> 1 / 2 - k * (1 / 2 - xs) <= x) /\
    (k <= 1 / 100000000 -> x = 1 / 2 - k * (1 / 2 - xs)).
Proof.
  intros HY Hn Hex Hl Hx Hxs k Hk.
  destruct (course (step_of rust a b) a b y xs Hx Hxs Hk n) as (x0 & E0 & L0 & G0). fold k in L0, G0.
  assert (B0 : 0 <= x0 <= 1).
  { destruct (Rle_dec xs (1 / 2)) as [C|C]; [specialize (L0 C)|specialize (G0 ltac:(lra))]; split; try lra.
    - assert (0 <= k * (1 / 2 - xs)) by (apply Rmult_le_pos; lra). lra.
    - assert (k * (xs - 1 / 2) <= 1 * (xs - 1 / 2)) by (apply Rmult_le_compat_r; lra). assert (0 <= k * (xs - 1 / 2)) by (apply Rmult_le_pos; lra). lra. }
  destruct (finish_two x0 B0) as (x & Ef & F1 & F2 & F3). exists x. split; [|split; [|split; [|split]]].
  - apply (two_est_eq _ _ _ a b y); auto; [|apply be_ext; auto]. rewrite (be_two rust nrm n a b y Hn), E0. exact Ef.
  - destruct (Rle_dec x0 (1 / 2)); [specialize (F1 r)|specialize (F2 ltac:(lra))]; lra.
  - intros C. specialize (L0 C). assert (0 <= k * (1 / 2 - xs)) by (apply Rmult_le_pos; lra). specialize (F1 ltac:(lra)). lra.
  - intros C. specialize (G0 C). assert (0 <= k * (xs - 1 / 2)) by (apply Rmult_le_pos; lra). specialize (F2 ltac:(lra)). lra.
  - intros C. assert (Es := course_stop (step_of rust a b) a b y xs Hx Hxs Hk n C). fold k in Es. rewrite E0 in Es.
    injection Es as Es _. rewrite Es in F3. apply F3. assert (Rabs (k * (1 / 2 - xs)) <= 1 / 100000000 * (1 / 2)).
    { rewrite Rabs_mult. apply Rmult_le_compat; try apply Rabs_pos; [rewrite Rabs_right; lra|apply Rabs_le; lra]. }
    assert (Q := Rle_abs (k * (1 / 2 - xs))). assert (Q' := Rle_abs (- (k * (1 / 2 - xs)))). rewrite Rabs_Ropp in Q'. lra.
Qed.

Definition two_alpha (j : Z) : R := if Z.eqb j 1 then 3 else if Z.eqb j 2 then -3 else 0.

Lemma grid_self a b y ca cb cy : on_grid (two_mat a b y ca cb cy) a b y ca cb cy.
Proof. intros t j _ _. reflexivity. Qed.
Ltac on_cells := intros t j Ht Hj; cbn in Ht, Hj; destruct Ht as [<-|[<-|[]]]; destruct Hj as [<-|[<-|[<-|[]]]]; unfold two_mat, two_alpha; cbn; lra.

Lemma inv_bounds d lo hi : 0 < lo -> lo <= d <= hi -> 1 / hi <= 1 / d <= 1 / lo.
Proof. intros H0 H. unfold Rdiv. rewrite !Rmult_1_l. split; apply Rinv_le_contravar; lra. Qed.

(* ---- unit effects: both backends, any number of iterations ---- *)
Theorem sd_unit_effects_refuted rust nrm n cfg : norm2_ok nrm -> nrm_ext nrm -> sd_lambda cfg = 0 ->
  let Y := two_mat 0 3 3 0 6 0 in
  two_est (be_of rust nrm n) cfg Y <= - (435 / 100) /\
  two_est (be_of rust nrm n) cfg (fun t j => Y t j + two_alpha j) >= - (165 / 100).
Proof.
  intros Hn Hex Hl Y.
  assert (K : forall a b, a * a + b * b = 9 -> (a - b) * (a - b) = 9 ->
     9 / 20 <= step_of rust a b * ((a - b) * (a - b)) / 2 <= 1 / 2).
  { intros a b Q1 Q2. rewrite Q2. destruct rust; cbn [step_of]; [lra|]. rewrite Q1.
    destruct (inv_bounds (9 + eps10) 9 10) as [B1 B2]; [lra|unfold eps10; lra|]. lra. }
  split.
  - assert (K1 := K 0 3 ltac:(lra) ltac:(lra)).
    destruct (two_est_bounds rust nrm n cfg Y 0 3 3 0 6 0 0 (grid_self _ _ _ _ _ _) Hn Hex Hl ltac:(lra) ltac:(lra) ltac:(lra)) as (x & -> & B & L & _).
    specialize (L ltac:(lra)). lra.
  - assert (K1 := K 3 0 ltac:(lra) ltac:(lra)).
    assert (G : on_grid (fun t j => Y t j + two_alpha j) 3 0 3 0 6 0) by (unfold Y; on_cells).
    destruct (two_est_bounds rust nrm n cfg _ 3 0 3 0 6 0 1 G Hn Hex Hl ltac:(lra) ltac:(lra) ltac:(lra)) as (x & -> & B & _ & L & _).
    specialize (L ltac:(lra)). lra.
Qed.

(* ---- the level of the outcome, NumPy backend: the first step is below the tolerance ---- *)
Theorem sd_level_refuted nrm n cfg : norm2_ok nrm -> nrm_ext nrm -> sd_lambda cfg = 0 ->
  let Y := two_mat 0 1 1 0 10 0 in
  two_est (be_of false nrm n) cfg Y <= - (7) /\
  two_est (be_of false nrm n) cfg (fun t j => Y t j + 10000) >= - (51 / 10).
Proof.
  intros Hn Hex Hl Y. split.
  - assert (K : 45 / 100 <= step_of false 0 1 * ((0 - 1) * (0 - 1)) / 2 <= 1 / 2).
    { cbn [step_of]. destruct (inv_bounds (0 * 0 + 1 * 1 + eps10) 1 (10 / 9)) as [B1 B2]; [lra|unfold eps10; lra|]. lra. }
    destruct (two_est_bounds false nrm n cfg Y 0 1 1 0 10 0 0 (grid_self _ _ _ _ _ _) Hn Hex Hl ltac:(lra) ltac:(lra) ltac:(lra)) as (x & -> & B & L & _).
    specialize (L ltac:(lra)). lra.
  - assert (K : 0 <= step_of false 10000 10001 * ((10000 - 10001) * (10000 - 10001)) / 2 <= 1 / 100000000).
    { cbn [step_of]. destruct (inv_bounds (10000 * 10000 + 10001 * 10001 + eps10) 100000000 1000000000) as [B1 B2]; [lra|unfold eps10; lra|]. lra. }
    assert (G : on_grid (fun t j => Y t j + 10000) 10000 10001 10001 0 10 0) by (unfold Y; on_cells).
    destruct (two_est_bounds false nrm n cfg _ 10000 10001 10001 0 10 0 0 G Hn Hex Hl ltac:(lra) ltac:(lra) ltac:(lra)) as (x & -> & B & _ & _ & L).
    specialize (L ltac:(lra)). lra.
Qed.

(* ---- the unit of measurement, compiled backend: constant step ---- *)
Theorem sd_scale_refuted nrm n cfg : norm2_ok nrm -> nrm_ext nrm -> sd_lambda cfg = 0 ->
  let Y := two_mat 0 3 3 0 6 0 in let c := 1 / 10000 in
  two_est (be_of true nrm n) cfg Y <= - (435 / 100) /\
  two_est (be_of true nrm n) cfg (fun t j => c * Y t j) >= c * - (31 / 10).
Proof.
  intros Hn Hex Hl Y c. split; [apply sd_unit_effects_refuted; auto|].
  assert (G : on_grid (fun t j => c * Y t j) 0 (3 / 10000) (3 / 10000) 0 (6 / 10000) 0) by (unfold Y, c; on_cells).
  destruct (two_est_bounds true nrm n cfg _ 0 (3 / 10000) (3 / 10000) 0 (6 / 10000) 0 0 G Hn Hex Hl ltac:(lra) ltac:(lra) ltac:(cbn [step_of]; lra)) as (x & -> & B & _ & _ & L).
  cbn [step_of] in L. specialize (L ltac:(lra)). unfold c. lra.
Qed.

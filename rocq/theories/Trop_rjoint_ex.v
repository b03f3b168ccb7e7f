(* The compiled joint solver: where it departs from the exact least squares fit. *)
From Verif Require Import Prelude Flt Stats_model Linalg_model Linalg_proofs Linalg_minnorm Multi_model Trop_model Trop_proofs Trop_joint Trop_jproofs Trop_jthms Trop_rust Trop_rjoint Trop_rjoint_proofs Trop_rjoint_thms.
From Coq Require Import Arith ZArith String List FunctionalExtensionality Lia Lra.
Import ListNotations.
Open Scope R_scope.

(* ------------------------------------------------------------------------------------------- *)
(* an effect whose cells carry at most 1e-10 of weight is reported as 0 *)
Lemma bcd_tau0 T N y D w : sumf (fun x => w (fst x) (snd x)) (treated_obs T N D) <= tiny ->
  forall k c, jtau c = 0 -> jtau (rj_bcd T N y D w k c) = 0.
Proof.
  intros H. assert (Z : forall c, jtau c = 0 -> jtau (rj_sweep T N y D w c) = 0).
  { intros c Hc. unfold rj_sweep. cbv zeta. cbn [jtau]. unfold rj_tau. cbv zeta. rewrite (proj2 (Rltb_false _ _) H). exact Hc. }
  induction k as [|k IH]; intros c Hc; cbn [rj_bcd]; [easy|]. destruct (rj_stop _ _); [now apply Z|]. apply IH. now apply Z.
Qed.
Theorem light_tau0 T N y D w c : sumf (fun x => w (fst x) (snd x)) (treated_obs T N D) <= tiny -> rj_solve T N y D w = Some c -> jtau c = 0.
Proof. intros H E. apply rj_solve_inv in E. destruct E as [_ ->]. now apply bcd_tau0. Qed.

(* ------------------------------------------------------------------------------------------- *)
(* two units, two periods, cell (1,1) treated, outcome c in that cell and 0 elsewhere *)
Definition D22 : dmat := fun t i => if (t =? 1)%nat && (i =? 1)%nat then 1%Z else 0%Z.
Definition y22 (c : R) : mat := fun t i => if (t =? 1)%nat && (i =? 1)%nat then c else 0.
Definition w22 (p q : R) : mat := fun t _ => if (t =? 0)%nat then p else q.
Definition at22 (c : jcoef) (m a b g : R) : Prop := jmu c = m /\ ja c 0%nat = 0 /\ ja c 1%nat = a /\ jb c 0%nat = 0 /\ jb c 1%nat = b /\ jtau c = g.

Lemma sweep22 p q c co m a b g : tiny < p -> tiny < q -> at22 co m a b g ->
  let a' := (p * - m + q * (c - m - b - g)) / (p + q) in
  let b' := (c - g - a') / 2 - m in
  let g' := c - m - a' - b' in
  let m' := (- p * a' - q * b' + q * m) / (2 * p + 2 * q) in
  at22 (rj_sweep 2 2 (y22 c) D22 (w22 p q) co) m' a' b' g'.
Proof.
  intros Hp Hq (Em & Ea0 & Ea & Eb0 & Eb & Eg). cbv zeta. assert (P := tiny_pos).
  assert (F : forall x y : R, tiny < x -> tiny < y -> Rltb tiny (x + (y + 0)) = true) by (intros; apply Rltb_true; lra).
  unfold at22, rj_sweep. cbv zeta. cbn [jmu ja jb jtau].
  assert (A1 : rj_alpha 2 2 (y22 c) D22 (w22 p q) co 1 = (p * - m + q * (c - m - b - g)) / (p + q)).
  { unfold rj_alpha. cbn [seq sumf w22 y22 D22 Nat.eqb Nat.leb Nat.ltb andb]. rewrite F by easy. rewrite Em, Eb0, Eb, Eg. unfold Rdiv. f_equal; [ring|]. f_equal. ring. }
  assert (A0 : rj_alpha 2 2 (y22 c) D22 (w22 p q) co 0 = 0).
  { unfold rj_alpha. cbn [Nat.leb andb]. exact Ea0. }
  set (a' := (p * - m + q * (c - m - b - g)) / (p + q)) in *.
  set (c1 := {| jmu := jmu co; ja := rj_alpha 2 2 (y22 c) D22 (w22 p q) co; jb := jb co; jtau := jtau co |}).
  assert (B1 : rj_beta 2 2 (y22 c) D22 (w22 p q) c1 1 = (c - g - a') / 2 - m).
  { unfold rj_beta. cbn [seq sumf w22 y22 D22 Nat.eqb Nat.leb Nat.ltb andb]. rewrite F by easy. unfold c1. cbn [jmu ja jb jtau]. rewrite Em, A0, A1, Eg. field. lra. }
  assert (B0 : rj_beta 2 2 (y22 c) D22 (w22 p q) c1 0 = 0).
  { unfold rj_beta. cbn [Nat.leb andb]. exact Eb0. }
  set (b' := (c - g - a') / 2 - m) in *.
  set (c2 := {| jmu := jmu co; ja := rj_alpha 2 2 (y22 c) D22 (w22 p q) co; jb := rj_beta 2 2 (y22 c) D22 (w22 p q) c1; jtau := jtau co |}).
  assert (T1 : rj_tau 2 2 (y22 c) D22 (w22 p q) c2 = c - m - a' - b').
  { unfold rj_tau, treated_obs, cells. cbn [seq list_prod map app filter fst snd D22 y22 w22 Nat.eqb andb Z.eqb Pos.eqb sumf].
    rewrite (proj2 (Rltb_true tiny (q + 0))) by lra. unfold c2. cbn [jmu ja jb jtau]. rewrite Em, A1, B1. field. lra. }
  split; [|repeat split; try assumption].
  unfold rj_mu, cells. cbn [seq list_prod map app fst snd D22 y22 w22 Nat.eqb andb sumf ja jb jtau]. rewrite A0, A1, B0, B1, T1. field. lra.
Qed.

(* in units of c, with eps = p / (p + q): the coordinates s, r, e of the state move by O(eps) per sweep *)
Definition slow (eps kap : R) (m b g : R) : Prop := exists s r e, m = r + e / 3 /\ b = 2 * e / 3 - r /\ 1 - g = s + 2 * e / 3 /\
  2 / 3 - 28 / 100 * kap <= s <= 7 / 10 /\ 1 / 3 - kap <= r + eps <= 36 / 100 /\ - (7 / 10) * eps <= e <= 1 / 2.
Lemma slow_step eps kap m b g : 0 < eps -> eps <= 1 / 100 -> 0 <= kap -> kap <= 46 / 100 -> slow eps kap m b g ->
  let a' := - m + (1 - eps) * (1 - b - g) in
  let b' := (1 - g - a') / 2 - m in
  let g' := 1 - m - a' - b' in
  let m' := (- eps * a' - (1 - eps) * b' + (1 - eps) * m) / 2 in
  slow eps (kap + eps) m' b' g'.
Proof.
  intros He He2 Hk Hk2 (s & r & e & -> & -> & Hg & [S1 S2] & [R1 R2] & [E1 E2]). cbv zeta. assert (g = 1 - s - 2 * e / 3) by lra. subst g. clear Hg.
  exists (s - eps * (s / 3 + e / 18) - eps * (eps * (s + r)) / 2).
  exists (r - eps * (2 * (s + r) + r - e / 6) / 3 + eps * (eps * (s + r)) / 2).
  exists (e / 4 - eps * ((s + r) / 4 + r / 2 - e / 12) + 3 / 4 * (eps * (eps * (s + r)))).
  assert (B : forall x lo hi, lo <= x <= hi -> eps * lo <= eps * x <= eps * hi) by (intros x lo hi [L H]; split; apply Rmult_le_compat_l; lra).
  assert (Z : 0 <= s + r <= 106 / 100) by lra.
  assert (Z2 := B _ _ _ Z). assert (Z3 : eps * 0 <= eps * (eps * (s + r)) <= eps * (2 / 100)) by (apply B; lra).
  assert (Q1 := B (s / 3 + e / 18) 0 (265 / 1000) ltac:(lra)).
  assert (Q2 := B (2 * (s + r) + r - e / 6) (1 / 2) (29 / 10) ltac:(lra)).
  assert (Q3 := B ((s + r) / 4 + r / 2 - e / 12) (-1 / 10) (45 / 100) ltac:(lra)).
  repeat split; try field; try lra.
Qed.
Lemma pos_start22 p q c : tiny < p -> tiny < q -> at22 (rj_start 2 2 (y22 c) (w22 p q)) (q * c / (2 * p + 2 * q)) 0 0 0.
Proof.
  intros Hp Hq. assert (P := tiny_pos). unfold at22, rj_start. cbn [jmu ja jb jtau]. repeat split.
  unfold cells. cbn [seq list_prod map app fst snd y22 w22 Nat.eqb andb sumf]. field. lra.
Qed.
Section Cap.
Variables (p q c : R).
Hypothesis Hp : tiny < p.
Hypothesis Hq : 111 * p <= q.
Let eps := p / (p + q).
Lemma eps_bounds : 0 < eps /\ eps <= 1 / 112.
Proof.
  assert (P := tiny_pos). unfold eps. split; [apply Rdiv_lt_0_compat; lra|]. apply Rmult_le_reg_r with (p + q); [lra|].
  replace (p / (p + q) * (p + q)) with p by (field; lra). lra.
Qed.
Definition slow_c (k : nat) (co : jcoef) : Prop := exists m a b g, at22 co (c * m) (c * a) (c * b) (c * g) /\ slow eps (INR k * eps) m b g.
Lemma slow_start : slow_c 0 (rj_start 2 2 (y22 c) (w22 p q)).
Proof.
  assert (P := tiny_pos). assert (Hq2 : tiny < q) by lra. destruct eps_bounds as [B1 B2].
  exists ((1 - eps) / 2), 0, 0, 0. split.
  - assert (H := pos_start22 p q c Hp Hq2). rewrite !Rmult_0_r. replace (c * ((1 - eps) / 2)) with (q * c / (2 * p + 2 * q)) by (unfold eps; field; lra). exact H.
  - exists (1 - (1 - eps) / 3), ((1 - eps) / 3), ((1 - eps) / 2). cbn [INR]. repeat split; try field; lra.
Qed.
Lemma slow_next k co : (k < 50)%nat -> slow_c k co -> slow_c (S k) (rj_sweep 2 2 (y22 c) D22 (w22 p q) co).
Proof.
  intros Hk (m & a & b & g & Ha & Hs). assert (P := tiny_pos). assert (Hq2 : tiny < q) by lra. destruct eps_bounds as [B1 B2].
  assert (K : 0 <= INR k * eps <= 46 / 100).
  { assert (K1 := pos_INR k). assert (K2 : INR k <= 50) by (replace 50 with (INR 50) by (cbn; lra); apply le_INR; lia). split; [apply Rmult_le_pos; lra|].
    apply Rle_trans with (50 * eps); [apply Rmult_le_compat_r; lra|lra]. }
  assert (N1 := slow_step eps (INR k * eps) m b g B1 ltac:(lra) ltac:(lra) ltac:(lra) Hs). cbv zeta in N1.
  assert (N2 := sweep22 p q c co (c * m) (c * a) (c * b) (c * g) Hp Hq2 Ha). cbv zeta in N2.
  set (a' := - m + (1 - eps) * (1 - b - g)) in *. set (b' := (1 - g - a') / 2 - m) in *.
  exists ((- eps * a' - (1 - eps) * b' + (1 - eps) * m) / 2), a', b', (1 - m - a' - b'). split.
  - replace ((p * - (c * m) + q * (c - c * m - c * b - c * g)) / (p + q)) with (c * a') in N2 by (unfold a', eps; field; lra).
    replace ((c - c * g - c * a') / 2 - c * m) with (c * b') in N2 by (unfold b'; field).
    replace (c - c * m - c * a' - c * b') with (c * (1 - m - a' - b')) in N2 by ring.
    replace ((- p * (c * a') - q * (c * b') + q * (c * m)) / (2 * p + 2 * q)) with (c * ((- eps * a' - (1 - eps) * b' + (1 - eps) * m) / 2)) in N2 by (unfold eps; field; lra).
    exact N2.
  - rewrite S_INR. replace ((INR k + 1) * eps) with (INR k * eps + eps) by ring. exact N1.
Qed.
Lemma slow_bcd n : forall k co, (k + n <= 50)%nat -> slow_c k co -> exists k', (k' <= 50)%nat /\ slow_c k' (rj_bcd 2 2 (y22 c) D22 (w22 p q) n co).
Proof.
  induction n as [|n IH]; intros k co Hk Hs; cbn [rj_bcd]; [exists k; split; [lia|easy]|].
  assert (H := slow_next k co ltac:(lia) Hs). destruct (rj_stop _ _); [exists (S k); split; [lia|easy]|]. apply (IH (S k)); [lia|easy].
Qed.
(* at most half of the effect after the 50 sweeps *)
Theorem cap_half : 0 < c -> exists co, rj_solve 2 2 (y22 c) D22 (w22 p q) = Some co /\ jtau co <= c / 2.
Proof.
  intros Hc. assert (P := tiny_pos). destruct eps_bounds as [B1 B2]. exists (rj_bcd 2 2 (y22 c) D22 (w22 p q) rj_iters (rj_start 2 2 (y22 c) (w22 p q))). split.
  - unfold rj_solve. rewrite (proj2 (Rltb_false _ _)); [reflexivity|]. unfold cells. cbn [seq list_prod map app fst snd w22 Nat.eqb sumf]. lra.
  - destruct (slow_bcd rj_iters 0 _ (le_n 50) slow_start) as (k & Hk & m & a & b & g & (_ & _ & _ & _ & _ & Eg) & Hs). rewrite Eg.
    destruct Hs as (s & r & e & _ & _ & Hg & [S1 _] & _ & [E1 _]).
    assert (K2 : INR k <= 50) by (replace 50 with (INR 50) by (cbn; lra); apply le_INR; lia). assert (K1 := pos_INR k).
    assert (K : INR k * eps <= 50 * eps) by (apply Rmult_le_compat_r; lra).
    assert (G : g <= 1 / 2) by lra. replace (c / 2) with (c * (1 / 2)) by field. apply Rmult_le_compat_l; lra.
Qed.
End Cap.

(* the default grid's largest time penalty already gives these weights *)
Lemma exp_pow x : forall n, exp (INR n * x) = exp x ^ n.
Proof. induction n as [|n IH]; [cbn; rewrite Rmult_0_l; apply exp_0|]. rewrite S_INR, Rmult_plus_distr_r, Rmult_1_l, exp_plus, IH. cbn [pow]. ring. Qed.
Lemma exp5_lower : 111 <= exp 5.
Proof.
  replace 5 with (INR 40 * (1 / 8)) by (rewrite INR_IZR_INZ; cbn; field). rewrite exp_pow. apply Rle_trans with ((9 / 8) ^ 40).
  - replace ((9 / 8) ^ 40) with ((((9 / 8) ^ 5) ^ 2) ^ 4) by (rewrite <- !pow_mult; f_equal). 
    assert (A : 1802 / 1000 <= (9 / 8) ^ 5) by (cbn [pow]; lra). assert (B : 3247 / 1000 <= ((9 / 8) ^ 5) ^ 2).
    { apply Rle_trans with ((1802 / 1000) ^ 2); [cbn [pow]; lra|]. apply pow_incr. lra. }
    apply Rle_trans with ((3247 / 1000) ^ 4); [|apply pow_incr; lra]. cbn [pow].
    lra.
  - apply pow_incr. assert (E := exp_ineq1_le (1 / 8)). lra.
Qed.

(* ------------------------------------------------------------------------------------------- *)
(* the same data through the weights and both solvers *)
Definition Y22 (c : R) : omat := fun t i => Some (y22 c t i).
Lemma ysafe22 c : ysafe (Y22 c) = y22 c. Proof. reflexivity. Qed.
Lemma avg22 c t : avg_treated 2 2 (Y22 c) D22 t = Some (meanf (fun i => y22 c t i) [1%nat]).
Proof. reflexivity. Qed.
Lemma valid22 c i : j_valid 2 2 1 (Y22 c) D22 i = [0%nat].
Proof. reflexivity. Qed.
Lemma gap22 c i : j_gap 2 2 (Y22 c) D22 0 i = 0.
Proof. unfold j_gap. rewrite avg22. unfold meanf, len. cbn [sumf length INR]. change (ysafe (Y22 c) 0%nat i) with 0. change (y22 c 0%nat 1%nat) with 0. field. Qed.
Lemma unit22 c lu i : rj_unit_w 2 2 1 (Y22 c) D22 lu i = Some 1.
Proof.
  unfold rj_unit_w. cbn [Nat.sub Nat.ltb Nat.leb]. rewrite valid22. cbn [sumf]. rewrite gap22. 
  replace ((0 * 0 + 0) / len [0%nat]) with 0 by (unfold len; cbn [length INR]; field). rewrite sqrt_0, Rmult_0_r, exp_0. reflexivity.
Qed.
Lemma time22 lt t : (t < 2)%nat -> j_time_w 2 1 lt t = w22 (exp (- lt * (3 / 2))) (exp (- lt * (1 / 2))) t 0%nat.
Proof.
  intros Ht. unfold j_time_w, j_center. destruct t as [|[|t]]; [| |lia]; cbn [w22 Nat.eqb INR].
  - f_equal. f_equal. rewrite Rabs_left by lra. lra.
  - f_equal. f_equal. rewrite Rabs_left by lra. lra.
Qed.
Lemma weights22 c lt lu t i : (t < 2)%nat -> rj_weights 2 2 1 (Y22 c) D22 lt lu t i = Some (w22 (exp (- lt * (3 / 2))) (exp (- lt * (1 / 2))) t i).
Proof. intros Ht. unfold rj_weights. rewrite unit22. cbn [option_map]. rewrite Rmult_1_r, time22 by easy. reflexivity. Qed.

(* only the weights of the panel's cells matter *)
Lemma rj_solve_ext T N y y' D w w' : (forall t i, (t < T)%nat -> (i < N)%nat -> w t i = w' t i) -> (forall t i, (t < T)%nat -> (i < N)%nat -> y t i = y' t i) ->
  rj_solve T N y D w = rj_solve T N y' D w'.
Proof.
  intros H Hy. assert (E0 : sumf (fun x => w (fst x) (snd x)) (cells T N) = sumf (fun x => w' (fst x) (snd x)) (cells T N)).
  { apply sumf_ext. intros [t i] Hx. apply in_cells in Hx. now apply H. }
  assert (Es : rj_start T N y w = rj_start T N y' w').
  { unfold rj_start. rewrite E0. f_equal. f_equal. apply sumf_ext. intros [t i] Hx. apply in_cells in Hx. cbn [fst snd]. now rewrite H, Hy. }
  assert (Ea : forall c, rj_alpha T N y D w c = rj_alpha T N y' D w' c).
  { intros c. apply functional_extensionality. intros i. unfold rj_alpha. cbv zeta. destruct ((1 <=? i) && (i <? N))%nat eqn:Ei; [|reflexivity]. apply andb_prop in Ei. destruct Ei as [_ Ei]. apply Nat.ltb_lt in Ei.
    rewrite (sumf_ext (fun t => w t i) (fun t => w' t i)) by (intros t Ht; apply seq_lt in Ht; now apply H).
    rewrite (sumf_ext (fun t => w t i * _) (fun t => w' t i * (y' t i - jmu c - jb c t - jtau c * IZR (D t i)))) by (intros t Ht; apply seq_lt in Ht; now rewrite H, Hy). reflexivity. }
  assert (Eb : forall c, rj_beta T N y D w c = rj_beta T N y' D w' c).
  { intros c. apply functional_extensionality. intros t. unfold rj_beta. cbv zeta. destruct ((1 <=? t) && (t <? T))%nat eqn:Ei; [|reflexivity]. apply andb_prop in Ei. destruct Ei as [_ Ei]. apply Nat.ltb_lt in Ei.
    rewrite (sumf_ext (fun i => w t i) (fun i => w' t i)) by (intros i Hi; apply seq_lt in Hi; now apply H).
    rewrite (sumf_ext (fun i => w t i * _) (fun i => w' t i * (y' t i - jmu c - ja c i - jtau c * IZR (D t i)))) by (intros i Hi; apply seq_lt in Hi; now rewrite H, Hy). reflexivity. }
  assert (Et : forall c, rj_tau T N y D w c = rj_tau T N y' D w' c).
  { intros c. unfold rj_tau. cbv zeta.
    rewrite (sumf_ext (fun x => w (fst x) (snd x)) (fun x => w' (fst x) (snd x))) by (intros x Hx; apply in_tr in Hx; now apply H).
    rewrite (sumf_ext (fun x => w (fst x) (snd x) * _) (fun x => w' (fst x) (snd x) * (y' (fst x) (snd x) - jmu c - ja c (snd x) - jb c (fst x)))) by (intros x Hx; apply in_tr in Hx; now rewrite H, Hy). reflexivity. }
  assert (Em : forall c, rj_mu T N y D w c = rj_mu T N y' D w' c).
  { intros c. unfold rj_mu. rewrite E0. f_equal. apply sumf_ext. intros [t i] Hx. apply in_cells in Hx. cbn [fst snd]. now rewrite H, Hy. }
  assert (Esw : forall c, rj_sweep T N y D w c = rj_sweep T N y' D w' c).
  { intros c. unfold rj_sweep. cbv zeta. rewrite Ea. cbn [jmu ja jb jtau]. rewrite Eb, Et, Em. reflexivity. }
  assert (Ec : forall n c, rj_bcd T N y D w n c = rj_bcd T N y' D w' n c).
  { induction n as [|n IH]; intros c; cbn [rj_bcd]; [easy|]. rewrite Esw. destruct (rj_stop _ _); [easy|apply IH]. }
  unfold rj_solve. rewrite E0, Es, Ec. reflexivity.
Qed.
Lemma rj_fit_real svd T N Y D W w h maxit tol : (forall t i, (t < T)%nat -> (i < N)%nat -> W t i = Some (w t i)) -> 10 ^ 10 <= h ->
  rj_fit svd T N Y D W h maxit tol = match rj_solve T N (ysafe Y) D (seen Y w) with Some c => RFit c zmat | None => RNone end.
Proof.
  intros H Hh. unfold rj_fit. cbv zeta. assert (E : existsb (rj_isnan (rj_seen Y W)) (cells T N) = false).
  { apply not_true_is_false. intros E. apply existsb_exists in E. destruct E as ([t i] & Hx & E). apply in_cells in Hx. unfold rj_isnan, rj_seen in E. cbn [fst snd] in E.
    rewrite H in E by easy. now destruct (has Y t i). }
  rewrite E. destruct (Rle_dec (10 ^ 10) h) as [_|G]; [|easy].
  rewrite (rj_solve_ext T N (ysafe Y) (ysafe Y) D (rj_real (rj_seen Y W)) (seen Y w)); [reflexivity| |easy].
  intros t i Ht Hi. unfold rj_real, rj_seen, seen. rewrite H by easy. now destruct (has Y t i).
Qed.
Lemma exp_le x y : x <= y -> exp x <= exp y.
Proof. intros [H| ->]; [left; now apply exp_increasing|lra]. Qed.
Lemma tiny_exp : tiny < exp (- 5 * (3 / 2)).
Proof.
  replace (- 5 * (3 / 2)) with (- (15 / 2)) by field. rewrite exp_Ropp. unfold tiny. apply Rinv_lt_contravar.
  - apply Rmult_lt_0_compat; [apply exp_pos|apply pow_lt; lra].
  - apply Rle_lt_trans with (exp (INR 8 * 1)); [apply exp_le; cbn; lra|]. rewrite exp_pow. apply Rle_lt_trans with (3 ^ 8); [apply pow_incr; split; [left; apply exp_pos|apply exp_le_3]|]. lra.
Qed.
Theorem compiled_half lstsq svd lu maxit tol c : mn_ok lstsq -> 0 < c ->
  (exists co, rj_fit svd 2 2 (Y22 c) D22 (rj_weights 2 2 1 (Y22 c) D22 5 lu) (10 ^ 10) maxit tol = RFit co zmat /\ jtau co <= c / 2) /\
  (exists cp, j_fixed lstsq svd 2 2 1 (Y22 c) D22 5 lu (10 ^ 10) maxit tol = JOk (cp, zmat) /\ jtau cp = c).
Proof.
  intros Hmn Hc. set (p := exp (- 5 * (3 / 2))). set (q := exp (- 5 * (1 / 2))).
  assert (Q : 111 * p <= q).
  { unfold p, q. replace (- 5 * (1 / 2)) with (5 + - 5 * (3 / 2)) by field. rewrite exp_plus. apply Rmult_le_compat_r; [left; apply exp_pos|apply exp5_lower]. }
  assert (Pp := tiny_exp). fold p in Pp. assert (P := tiny_pos). split.
  - rewrite (rj_fit_real svd 2 2 (Y22 c) D22 _ (w22 p q)); [|intros t i Ht _; now apply weights22|lra].
    change (seen (Y22 c) (w22 p q)) with (w22 p q). rewrite ysafe22. destruct (cap_half p q c Pp Q Hc) as (co & -> & H). exists co. split; [reflexivity|exact H].
  - unfold j_fixed. unfold j_weights. 
    change (length (filter (ever 2 D22) (seq 0 2)) =? 0)%nat with false. change (2 - 1 =? 0)%nat with false. cbv iota.
    set (w := fun t i => j_time_w 2 1 5 t * j_unit_w 2 2 1 (Y22 c) D22 lu i).
    assert (W : forall t i, (t < 2)%nat -> (i < 2)%nat -> w t i = w22 p q t i).
    { intros t i Ht Hi. assert (E := rj_weights_some 2 2 1 (Y22 c) D22 5 lu w t i). rewrite weights22 in E by easy. 
      assert (E2 : Some (w22 p q t i) = Some (w t i)) by (apply E; [reflexivity|left; now rewrite valid22]). now injection E2. }
    unfold j_solve. destruct (Rle_dec (10 ^ 10) (10 ^ 10)) as [_|G]; [|lra].
    change (seen (Y22 c) w) with w. rewrite ysafe22.
    assert (Wp : wpos2 2 2 w) by (intros t i Ht Hi; rewrite W by easy; unfold w22; destruct (t =? 0)%nat; lra).
    assert (Sm : Rltb (sumf (fun c => w (fst c) (snd c)) (cells 2 2)) (/ 10 ^ 10) = false).
    { apply Rltb_false. fold tiny. rewrite (sumf_ext _ (fun x => w22 p q (fst x) (snd x))) by (intros [t i] Hx; apply in_cells in Hx; now apply W).
      unfold cells. cbn [seq list_prod map app fst snd w22 Nat.eqb sumf]. lra. }
    destruct (wls lstsq 2 2 (y22 c) D22 w) as [cp| |] eqn:E; try (unfold wls in E; rewrite Sm in E; discriminate).
    exists cp. split; [reflexivity|].
    apply (wls_exact lstsq Hmn 2 2 D22 w Wp (y22 c) cp 0 (fun _ => 0) (fun _ => 0) c E).
    + intros t i Ht Hi _. unfold y22, D22. destruct (_ && _); ring.
    + exists 1%nat, 0%nat, 0%nat, 1%nat. rewrite !W by lia. unfold w22, D22. cbn [Nat.eqb andb]. repeat split; try lia; lra.
Qed.

(* ------------------------------------------------------------------------------------------- *)
(* the stopping rule is absolute: with equal weights and an effect of 1e-9 the loop ends after one sweep at 3/8 of it *)
Theorem absolute_stop : exists co, rj_solve 2 2 (y22 (/ 10 ^ 9)) D22 (w22 1 1) = Some co /\ jtau co = 3 / 8 * / 10 ^ 9.
Proof.
  set (c := / 10 ^ 9). assert (C : 0 < c <= 1 / 1000000000) by (unfold c; split; [apply Rinv_0_lt_compat, pow_lt; lra|cbn [pow]; lra]).
  assert (T1 : tiny < 1) by (unfold tiny; cbn [pow]; lra).
  assert (S0 := pos_start22 1 1 c T1 T1). set (st := rj_start 2 2 (y22 c) (w22 1 1)) in *.
  assert (S1 := sweep22 1 1 c st _ _ _ _ T1 T1 S0). cbv zeta in S1. set (s1 := rj_sweep 2 2 (y22 c) D22 (w22 1 1) st) in *.
  destruct S0 as (M0 & _ & _ & _ & _ & G0). destruct S1 as (M1 & _ & _ & _ & _ & G1).
  exists s1. split.
  - unfold rj_solve. rewrite (proj2 (Rltb_false _ _)).
    + change rj_iters with (S 49). cbn [rj_bcd]. fold st. fold s1. replace (rj_stop st s1) with true; [reflexivity|]. symmetry. unfold rj_stop. rewrite M0, M1, G0, G1.
      apply andb_true_intro. split; apply Rltb_true; apply Rabs_def1; cbn [pow]; lra.
    + unfold cells. cbn [seq list_prod map app fst snd w22 Nat.eqb sumf]. lra.
  - rewrite G1. lra.
Qed.
Lemma weights22_flat c lu t i : (t < 2)%nat -> rj_weights 2 2 1 (Y22 c) D22 0 lu t i = Some (w22 1 1 t i).
Proof. intros Ht. rewrite weights22 by easy. replace (- 0 * (3 / 2)) with 0 by ring. replace (- 0 * (1 / 2)) with 0 by ring. now rewrite exp_0. Qed.
Lemma wls22 lstsq c : mn_ok lstsq -> exists cp, wls lstsq 2 2 (y22 c) D22 (w22 1 1) = JOk cp /\ jtau cp = c.
Proof.
  intros Hmn. assert (Sm : Rltb (sumf (fun c => w22 1 1 (fst c) (snd c)) (cells 2 2)) (/ 10 ^ 10) = false).
  { apply Rltb_false. unfold cells. cbn [seq list_prod map app fst snd w22 Nat.eqb sumf pow]. lra. }
  destruct (wls lstsq 2 2 (y22 c) D22 (w22 1 1)) as [cp| |] eqn:E; try (unfold wls in E; rewrite Sm in E; discriminate). exists cp. split; [reflexivity|].
  assert (Wp : wpos2 2 2 (w22 1 1)) by (intros t i Ht Hi; unfold w22; destruct (t =? 0)%nat; lra).
  apply (wls_exact lstsq Hmn 2 2 D22 (w22 1 1) Wp (y22 c) cp 0 (fun _ => 0) (fun _ => 0) c E).
  + intros t i Ht Hi _. unfold y22, D22. destruct (_ && _); ring.
  + exists 1%nat, 0%nat, 0%nat, 1%nat. unfold w22, D22. cbn [Nat.eqb andb]. repeat split; try lia; lra.
Qed.

(* ------------------------------------------------------------------------------------------- *)
(* treated units on both sides of their average: unit 0 is a control at 0, units 1 and 2 are treated at -5 and 5
   before treatment and gain c; lambda_unit = 5 gives the treated units weight exp(-25) each *)
Definition D23 : dmat := fun t i => if (t =? 1)%nat && (1 <=? i)%nat then 1%Z else 0%Z.
Definition base23 (i : nat) : R := match i with O => 0 | S O => -5 | _ => 5 end.
Definition y23 (c : R) : mat := fun t i => base23 i + c * IZR (D23 t i).
Definition Y23 (c : R) : omat := fun t i => Some (y23 c t i).
Lemma gap23 c i : (i < 3)%nat -> j_gap 2 3 (Y23 c) D23 0 i = - base23 i.
Proof.
  intros Hi. unfold j_gap. change (avg_treated 2 3 (Y23 c) D23 0) with (Some (meanf (fun i => y23 c 0%nat i) [1%nat; 2%nat])).
  cbv iota. change (ysafe (Y23 c) 0%nat i) with (y23 c 0%nat i). unfold meanf, len, y23, D23. cbn [sumf length INR base23 Nat.eqb andb]. field.
Qed.
Lemma unit23 c i : (i < 3)%nat -> j_unit_w 2 3 1 (Y23 c) D23 5 i = match i with O => 1 | _ => exp (- 25) end.
Proof.
  intros Hi. unfold j_unit_w, j_dist. change (j_valid 2 3 1 (Y23 c) D23 i) with [0%nat]. cbv zeta iota. cbn [sumf]. rewrite gap23 by easy.
  replace (Rmax (len [0%nat]) 1) with 1 by (unfold len; cbn [length INR]; symmetry; apply Rmax_left; lra).
  destruct i as [|[|[|i]]]; [| | |lia]; cbn [base23].
  - replace ((- 0 * - 0 + 0) / 1) with 0 by field. rewrite sqrt_0, Rmult_0_r. apply exp_0.
  - f_equal. replace ((- -5 * - -5 + 0) / 1) with (5 * 5) by field. rewrite sqrt_square by lra. ring.
  - f_equal. replace ((- (5) * - (5) + 0) / 1) with (5 * 5) by field. rewrite sqrt_square by lra. ring.
Qed.
Lemma exp25 : exp (- 25) <= 1 / 30000000000.
Proof.
  replace (- 25) with (- (25)) by ring. rewrite exp_Ropp. replace (1 / 30000000000) with (/ 30000000000) by field. apply Rinv_le_contravar; [lra|].
  replace 25 with (INR 5 * 5) by (cbn; ring). rewrite exp_pow. apply Rle_trans with (130 ^ 5); [lra|]. apply pow_incr. split; [lra|].
  replace 5 with (INR 80 * (1 / 16)) by (rewrite INR_IZR_INZ; cbn; field). rewrite exp_pow.
  assert (E : 1 + 1 / 16 + / 1024 <= exp (1 / 16)).
  { replace (exp (1 / 16)) with (exp (INR 2 * (1 / 32))) by (f_equal; cbn; field). rewrite exp_pow. cbn [pow]. assert (Q := exp_ineq1_le (1 / 32)).
    apply Rle_trans with ((1 + 1 / 32) * ((1 + 1 / 32) * 1)); [lra|]. apply Rmult_le_compat; lra. }
  apply Rle_trans with ((1 + 1 / 16 + / 1024) ^ 80); [|apply pow_incr; lra].
  replace ((1 + 1 / 16 + / 1024) ^ 80) with ((((1 + 1 / 16 + / 1024) ^ 4) ^ 4) ^ 5) by (rewrite <- !pow_mult; f_equal).
  apply Rle_trans with ((2648 / 1000) ^ 5); [cbn [pow]; lra|]. apply pow_incr. split; [lra|].
  apply Rle_trans with ((1279 / 1000) ^ 4); [cbn [pow]; lra|]. apply pow_incr. split; [lra|]. cbn [pow]; lra.
Qed.
Theorem far_treated lstsq svd maxit tol c : mn_ok lstsq ->
  (exists co, rj_fit svd 2 3 (Y23 c) D23 (rj_weights 2 3 1 (Y23 c) D23 0 5) (10 ^ 10) maxit tol = RFit co zmat /\ jtau co = 0) /\
  (exists cp, j_fixed lstsq svd 2 3 1 (Y23 c) D23 0 5 (10 ^ 10) maxit tol = JOk (cp, zmat) /\ jtau cp = c).
Proof.
  intros Hmn. assert (P := tiny_pos). unfold j_fixed. unfold j_weights.
  change (length (filter (ever 2 D23) (seq 0 3)) =? 0)%nat with false. change (2 - 1 =? 0)%nat with false. cbv iota.
  set (w := fun t i => j_time_w 2 1 0 t * j_unit_w 2 3 1 (Y23 c) D23 5 i).
  assert (W : forall t i, (i < 3)%nat -> w t i = match i with O => 1 | _ => exp (- 25) end).
  { intros t i Hi. unfold w. rewrite unit23 by easy. unfold j_time_w. rewrite Ropp_0, Rmult_0_l, exp_0. ring. }
  assert (E25 := exp25). assert (E25p := exp_pos (- 25)).
  assert (Wp : wpos2 2 3 w) by (intros t i Ht Hi; rewrite W by easy; destruct i; lra).
  assert (Sm : sumf (fun c => w (fst c) (snd c)) (cells 2 3) = 2 + 4 * exp (- 25)).
  { unfold cells. cbn [seq list_prod map app fst snd sumf]. rewrite !W by lia. ring. }
  assert (Tn : tiny = 1 / 10000000000) by (unfold tiny; cbn [pow]; field). split.
  - rewrite (rj_fit_real svd 2 3 (Y23 c) D23 _ w); [|intros t i Ht Hi; apply rj_weights_some; [reflexivity|left; discriminate]|lra].
    change (seen (Y23 c) w) with w. destruct (rj_solve 2 3 (ysafe (Y23 c)) D23 w) as [co|] eqn:E.
    + exists co. split; [reflexivity|]. refine (light_tau0 2 3 (ysafe (Y23 c)) D23 w co _ E). change (treated_obs 2 3 D23) with [(1, 1); (1, 2)]%nat. cbn [sumf fst snd]. rewrite !W by lia. lra.
    + unfold rj_solve in E. rewrite Sm in E. rewrite (proj2 (Rltb_false _ _)) in E by lra. discriminate.
  - unfold j_solve. destruct (Rle_dec (10 ^ 10) (10 ^ 10)) as [_|G]; [|lra]. change (seen (Y23 c) w) with w. change (ysafe (Y23 c)) with (y23 c).
    destruct (wls lstsq 2 3 (y23 c) D23 w) as [cp| |] eqn:E; try (unfold wls in E; rewrite Sm in E; rewrite (proj2 (Rltb_false _ _)) in E by (fold tiny; lra); discriminate).
    exists cp. split; [reflexivity|]. apply (wls_exact lstsq Hmn 2 3 D23 w Wp (y23 c) cp 0 base23 (fun _ => 0) c E).
    + intros t i Ht Hi _. unfold y23. ring.
    + exists 1%nat, 0%nat, 0%nat, 1%nat. rewrite !W by lia. unfold D23. cbn [Nat.eqb Nat.leb andb]. repeat split; try lia; lra.
Qed.

(* ------------------------------------------------------------------------------------------- *)
(* units without pre-period data when lambda_unit = 0.  Unit 0 control, unit 1 treated; unit 2 has no
   pre-period outcome and is treated ([tr] = true) or a control *)
Definition D3n (tr : bool) : dmat := fun t i => if (t =? 1)%nat && ((i =? 1)%nat || tr && (i =? 2)%nat) then 1%Z else 0%Z.
Definition Y3n (tr : bool) (c : R) : omat := fun t i => if (t =? 0)%nat && (i =? 2)%nat then None else Some (c * IZR (D3n tr t i)).
Lemma nan3_w tr c t i : (t < 2)%nat -> (i < 3)%nat -> rj_weights 2 3 1 (Y3n tr c) (D3n tr) 0 0 t i = if (i =? 2)%nat then None else Some 1.
Proof.
  intros Ht Hi. destruct (i =? 2)%nat eqn:E.
  - apply Nat.eqb_eq in E. subst i. apply rj_weights_nan; [lia|]. now destruct tr.
  - apply Nat.eqb_neq in E. unfold rj_weights, rj_unit_w. cbn [Nat.sub Nat.ltb Nat.leb].
    assert (V : j_valid 2 3 1 (Y3n tr c) (D3n tr) i = [0%nat]) by (destruct i as [|[|[|i]]]; try lia; now destruct tr).
    rewrite V. cbv iota. cbn [option_map]. unfold j_time_w. rewrite !Ropp_0, !Rmult_0_l, exp_0. now rewrite Rmult_1_r.
Qed.
Theorem nan_fit svd tr c h maxit tol :
  rj_fit svd 2 3 (Y3n tr c) (D3n tr) (rj_weights 2 3 1 (Y3n tr c) (D3n tr) 0 0) h maxit tol = RNanFit (if tr then Fin 0 else NaN).
Proof.
  unfold rj_fit. cbv zeta. set (V := rj_seen (Y3n tr c) _).
  assert (HV : forall t i, (t < 2)%nat -> (i < 3)%nat -> V t i = if (i =? 2)%nat then (if (t =? 0)%nat then Some 0 else None) else Some 1).
  { intros t i Ht Hi. unfold V, rj_seen, has, Y3n at 1. rewrite nan3_w by easy. destruct (i =? 2)%nat; destruct (t =? 0)%nat; reflexivity. }
  rewrite (existsb_intro _ (cells 2 3) (1, 2)%nat); [|apply in_cells; lia|unfold rj_isnan; cbn [fst snd]; now rewrite HV by lia].
  destruct tr.
  - rewrite (existsb_intro _ (treated_obs 2 3 (D3n true)) (1, 2)%nat); [reflexivity|vm_compute; tauto|unfold rj_isnan; cbn [fst snd]; now rewrite HV by lia].
  - change (treated_obs 2 3 (D3n false)) with [(1, 1)]%nat. cbn [existsb sumf fst snd]. unfold rj_isnan, rj_real. cbn [fst snd]. rewrite HV by lia. cbn [Nat.eqb orb].
    rewrite (proj2 (Rltb_true _ _)); [reflexivity|]. unfold tiny. cbn [pow]. lra.
Qed.
Theorem nan_fit_python lstsq svd tr c maxit tol : mn_ok lstsq ->
  exists cp, j_fixed lstsq svd 2 3 1 (Y3n tr c) (D3n tr) 0 0 (10 ^ 10) maxit tol = JOk (cp, zmat) /\ jtau cp = c.
Proof.
  intros Hmn. unfold j_fixed, j_weights. replace (length (filter (ever 2 (D3n tr)) (seq 0 3)) =? 0)%nat with false by (now destruct tr). change (2 - 1 =? 0)%nat with false. cbv iota.
  set (w := fun t i => j_time_w 2 1 0 t * j_unit_w 2 3 1 (Y3n tr c) (D3n tr) 0 i).
  assert (W : forall t i, (i < 3)%nat -> seen (Y3n tr c) w t i = if (i =? 2)%nat then 0 else 1).
  { intros t i Hi. unfold seen, has, Y3n at 1. destruct (i =? 2)%nat eqn:E.
    - apply Nat.eqb_eq in E. subst i. destruct (t =? 0)%nat; [reflexivity|]. cbn [andb]. unfold w, j_unit_w. replace (j_valid 2 3 1 (Y3n tr c) (D3n tr) 2) with (@nil nat) by (now destruct tr). ring.
    - rewrite andb_false_r. unfold w, j_unit_w. assert (V : j_valid 2 3 1 (Y3n tr c) (D3n tr) i = [0%nat]).
      { destruct i as [|[|[|i]]]; try lia; try discriminate; now destruct tr. }
      rewrite V. unfold j_time_w. rewrite !Ropp_0, !Rmult_0_l, exp_0. ring. }
  unfold j_solve. destruct (Rle_dec (10 ^ 10) (10 ^ 10)) as [_|G]; [|lra].
  assert (Wp : wpos2 2 3 (seen (Y3n tr c) w)) by (intros t i Ht Hi; rewrite W by easy; destruct (i =? 2)%nat; lra).
  assert (Sm : sumf (fun x => seen (Y3n tr c) w (fst x) (snd x)) (cells 2 3) = 4).
  { unfold cells. cbn [seq list_prod map app fst snd sumf]. rewrite !W by lia. cbn [Nat.eqb]. ring. }
  destruct (wls lstsq 2 3 (ysafe (Y3n tr c)) (D3n tr) (seen (Y3n tr c) w)) as [cp| |] eqn:E;
    try (unfold wls in E; rewrite Sm in E; rewrite (proj2 (Rltb_false _ _)) in E by (cbn [pow]; lra); discriminate).
  exists cp. split; [reflexivity|]. apply (wls_exact lstsq Hmn 2 3 (D3n tr) _ Wp _ cp 0 (fun _ => 0) (fun _ => 0) c E).
  - intros t i Ht Hi Hn. unfold ysafe, Y3n. destruct ((t =? 0)%nat && (i =? 2)%nat) eqn:Q; [|ring]. apply andb_prop in Q. destruct Q as [_ Q]. exfalso. apply Hn. rewrite W by easy. now rewrite Q.
  - exists 1%nat, 0%nat, 0%nat, 1%nat. rewrite !W by lia. unfold D3n. cbn [Nat.eqb andb orb]. rewrite !andb_false_r. repeat split; try lia; lra.
Qed.

(* one NaN replicate makes the standard error NaN; no usable replicate gives 0 *)
Lemma rj_boot_nan l : In NaN l -> rj_boot_se l = NaN.
Proof.
  intros H. unfold rj_boot_se, r_boot_se, fstd1. destruct l as [|x l]; [easy|]. destruct (length (x :: l) <? 2)%nat; [reflexivity|].
  replace (forallb ffinite (x :: l)) with false; [reflexivity|]. symmetry. apply not_true_is_false. intros F. rewrite forallb_forall in F. now specialize (F NaN H).
Qed.

(* ------------------------------------------------------------------------------------------- *)
(* a settled point with nonzero residuals: 3 units, 2 periods, unit 2 treated in period 1 *)
Definition D32 : dmat := fun t i => if (t =? 1)%nat && (i =? 2)%nat then 1%Z else 0%Z.
Definition y32 (g : R) : mat := fun t i => match t, i with
  | O, O => 1 | O, S O => -1 | S O, O => -1 | S O, S O => 1 | S O, S (S O) => g | _, _ => 0 end.
Definition one : mat := fun _ _ => 1.
Definition c32 (g : R) : jcoef := {| jmu := 0; ja := fun _ => 0; jb := fun _ => 0; jtau := g |}.
Lemma settled32 g : settled 2 3 (y32 g) D32 one (c32 g) /\ gates 2 3 D32 one /\ wpos2 2 3 one /\ ident 2 3 D32 one.
Proof.
  assert (Tn : tiny < 1) by (unfold tiny; cbn [pow]; lra).
  assert (R2 : Rltb tiny (1 + (1 + 0)) = true) by (apply Rltb_true; lra). assert (R3 : Rltb tiny (1 + (1 + (1 + 0))) = true) by (apply Rltb_true; lra).
  split; [|split; [|split]].
  - unfold settled. cbv zeta.
    assert (A : forall i, rj_alpha 2 3 (y32 g) D32 one (c32 g) i = 0).
    { intros i. unfold rj_alpha, one. cbv zeta. cbn [seq sumf]. rewrite R2, andb_true_r. destruct i as [|[|[|i]]]; cbn [Nat.leb Nat.ltb andb c32 jmu ja jb jtau]; try reflexivity; unfold y32, D32; cbn [Nat.eqb andb]; field. }
    assert (B : forall c, jmu c = 0 -> (forall i, ja c i = 0) -> (forall t, jb c t = 0) -> jtau c = g -> forall t, rj_beta 2 3 (y32 g) D32 one c t = 0).
    { intros c Hm Ha Hb Ht t. unfold rj_beta, one. cbv zeta. cbn [seq sumf]. rewrite R3, andb_true_r, Hm, Ht, !Ha. destruct t as [|[|t]]; cbn [Nat.leb Nat.ltb andb]; try apply Hb; unfold y32, D32; cbn [Nat.eqb andb]; field. }
    assert (G : forall c, jmu c = 0 -> (forall i, ja c i = 0) -> (forall t, jb c t = 0) -> rj_tau 2 3 (y32 g) D32 one c = g).
    { intros c Hm Ha Hb. unfold rj_tau. change (treated_obs 2 3 D32) with [(1, 2)]%nat. unfold one. cbn [sumf fst snd]. rewrite (proj2 (Rltb_true tiny (1 + 0))) by lra. rewrite Hm, Ha, Hb. unfold y32. field. }
    assert (M : forall c, (forall i, ja c i = 0) -> (forall t, jb c t = 0) -> jtau c = g -> rj_mu 2 3 (y32 g) D32 one c = 0).
    { intros c Ha Hb Ht. unfold rj_mu, cells, one. cbn [seq list_prod map app fst snd sumf]. rewrite Ht, !Ha, !Hb. unfold y32, D32. cbn [Nat.eqb andb]. field. }
    unfold rj_sweep. cbv zeta. cbn [jmu ja jb jtau].
    set (c1 := {| jmu := jmu (c32 g); ja := rj_alpha 2 3 (y32 g) D32 one (c32 g); jb := jb (c32 g); jtau := jtau (c32 g) |}).
    assert (B1 : forall t, rj_beta 2 3 (y32 g) D32 one c1 t = 0) by (apply B; try reflexivity; intros; apply A).
    set (c2 := {| jmu := jmu (c32 g); ja := rj_alpha 2 3 (y32 g) D32 one (c32 g); jb := rj_beta 2 3 (y32 g) D32 one c1; jtau := jtau (c32 g) |}).
    assert (T1 : rj_tau 2 3 (y32 g) D32 one c2 = g) by (apply G; [reflexivity|apply A|apply B1]).
    split; [apply M; [apply A|apply B1|exact T1]|]. split; [exact T1|]. split; [intros i _; apply A|intros t _; apply B1].
  - split; [|split].
    + intros i _. left. unfold one. cbn [seq sumf]. lra.
    + intros t _. left. unfold one. cbn [seq sumf]. lra.
    + left. change (treated_obs 2 3 D32) with [(1, 2)]%nat. unfold one. cbn [sumf]. lra.
  - intros t i _ _. unfold one. lra.
  - exists 2%nat, 0%nat, 0%nat, 1%nat. unfold one, D32. cbn [Nat.eqb andb]. repeat split; try lia; lra.
Qed.

(* ------------------------------------------------------------------------------------------- *)
(* both fits from the same panel, no low-rank part *)
Theorem fit_agrees lstsq svd T N p Y D lt lu h maxit tol w c L cp Lp : mn_ok lstsq -> (forall t i, D t i = 0%Z \/ D t i = 1%Z) ->
  j_weights T N p Y D lt lu = JOk w -> (forall i, (i < N)%nat -> j_valid T N p Y D i <> [] \/ lu <> 0) -> 10 ^ 10 <= h ->
  rj_fit svd T N Y D (rj_weights T N p Y D lt lu) h maxit tol = RFit c L -> j_fixed lstsq svd T N p Y D lt lu h maxit tol = JOk (cp, Lp) ->
  settled T N (ysafe Y) D (seen Y w) c -> gates T N D (seen Y w) ->
  L = Lp /\ (forall t i, (t < T)%nat -> (i < N)%nat -> 0 < seen Y w t i -> fitv D c t i = fitv D cp t i) /\
  (ident T N D (seen Y w) -> jtau c = jtau cp).
Proof.
  intros Hmn HD Hw Hv Hh Hr Hp Hs Hg.
  rewrite (rj_fit_real svd T N Y D _ w) in Hr; [|intros t i Ht Hi; now apply rj_weights_some; [|apply Hv]|easy].
  destruct (rj_solve T N (ysafe Y) D (seen Y w)) as [c0|] eqn:E; [|discriminate]. injection Hr as -> <-.
  unfold j_fixed in Hp. rewrite Hw in Hp. unfold j_solve in Hp. destruct (Rle_dec (10 ^ 10) h) as [_|G]; [|easy].
  destruct (wls lstsq T N (ysafe Y) D (seen Y w)) as [cp0| |] eqn:E2; try discriminate. injection Hp as -> <-. split; [reflexivity|].
  assert (Wp : wpos2 T N (seen Y w)).
  { intros t i Ht Hi. unfold seen. destruct (has Y t i); [|lra]. unfold j_weights in Hw. destruct (_ =? 0)%nat; [easy|]. destruct (_ =? 0)%nat; [easy|]. injection Hw as <-.
    apply Rmult_le_pos; [left; apply exp_pos|]. unfold j_unit_w. destruct (j_valid _ _ _ _ _ _); [lra|left; apply exp_pos]. }
  apply rj_solve_inv in E. destruct E as [E _]. assert (P := tiny_pos).
  apply (fix_is_wls T N (ysafe Y) D (seen Y w) c Wp HD Hs Hg ltac:(lra) lstsq cp Hmn E2).
Qed.
(* both give up on the same panels *)
Theorem fit_fails lstsq svd T N p Y D lt lu h maxit tol w : j_weights T N p Y D lt lu = JOk w ->
  (forall i, (i < N)%nat -> j_valid T N p Y D i <> [] \/ lu <> 0) -> 10 ^ 10 <= h ->
  (rj_fit svd T N Y D (rj_weights T N p Y D lt lu) h maxit tol = RNone <-> j_fixed lstsq svd T N p Y D lt lu h maxit tol = JVal).
Proof.
  intros Hw Hv Hh. rewrite (rj_fit_real svd T N Y D _ w); [|intros t i Ht Hi; now apply rj_weights_some; [|apply Hv]|easy].
  unfold j_fixed. rewrite Hw. unfold j_solve. destruct (Rle_dec (10 ^ 10) h) as [_|G]; [|easy]. unfold rj_solve, wls. fold tiny.
  destruct (Rltb _ tiny); split; easy.
Qed.

(* scaling the outcome: true of one sweep (sweep_scale), false of the whole solver *)
Theorem scale_breaks : exists y k, 0 < k /\
  rj_solve 2 2 (fun t i => k * y t i) D22 (w22 1 1) <> option_map (scale_c k) (rj_solve 2 2 y D22 (w22 1 1)).
Proof.
  exists (y22 1), (/ 10 ^ 9). split; [apply Rinv_0_lt_compat, pow_lt; lra|]. intros H.
  assert (T1 : tiny < 1) by (unfold tiny; cbn [pow]; lra). assert (P := tiny_pos).
  assert (Y : (fun t i => / 10 ^ 9 * y22 1 t i) = y22 (/ 10 ^ 9)).
  { apply functional_extensionality. intros t. apply functional_extensionality. intros i. unfold y22. destruct (_ && _); ring. }
  rewrite Y in H. destruct absolute_stop as (co & E & Et). rewrite E in H. destruct (rj_solve 2 2 (y22 1) D22 (w22 1 1)) as [c1|] eqn:E1; [|discriminate].
  cbn [option_map] in H. apply Some_inj in H.
  assert (G : jtau c1 = 3 / 8).
  { assert (Q : jtau co = / 10 ^ 9 * jtau c1) by (rewrite H; reflexivity). rewrite Et in Q. assert (K : 0 < / 10 ^ 9) by (apply Rinv_0_lt_compat, pow_lt; lra).
    apply Rmult_eq_reg_l with (/ 10 ^ 9); [|lra]. rewrite <- Q. ring. }
  (* the other coefficients of the one-sweep result are 1/4, 1/8 and -1/32 *)
  assert (S0 := pos_start22 1 1 1 T1 T1). assert (S1 := sweep22 1 1 1 _ _ _ _ _ T1 T1 S0). cbv zeta in S1.
  set (st := rj_start 2 2 (y22 1) (w22 1 1)) in *. set (s1 := rj_sweep 2 2 (y22 1) D22 (w22 1 1) st) in *.
  assert (S2 := sweep22 1 1 1 s1 _ _ _ _ T1 T1 S1). cbv zeta in S2. set (s2 := rj_sweep 2 2 (y22 1) D22 (w22 1 1) s1) in *.
  apply rj_solve_inv in E1. destruct E1 as [_ E1]. assert (I2 : exists n, rj_iters = S (S n)) by (now exists 48%nat). destruct I2 as [n I2]. rewrite I2 in E1. cbn [rj_bcd] in E1. fold st in E1. fold s1 in E1. fold s2 in E1.
  assert (N1 : rj_stop st s1 = false).
  { unfold rj_stop. destruct S0 as (_ & _ & _ & _ & _ & G0). destruct S1 as (_ & _ & _ & _ & _ & G1). rewrite G0, G1. apply andb_false_intro2. apply Rltb_false.
    rewrite Rabs_right by lra. cbn [pow]. lra. }
  rewrite N1 in E1.
  assert (HD : forall t i, D22 t i = 0%Z \/ D22 t i = 1%Z) by (intros t i; unfold D22; destruct (_ && _); tauto).
  assert (De : wssr 2 2 (y22 1) D22 (w22 1 1) c1 <= wssr 2 2 (y22 1) D22 (w22 1 1) s2).
  { rewrite E1. destruct (rj_stop s1 s2); [lra|]. apply bcd_descent; [exact HD|]. unfold cells. cbn [seq list_prod map app fst snd w22 Nat.eqb sumf]. lra. }
  (* the coefficients of c1 are 10^9 times those of co, which is the one-sweep result for the scaled outcome *)
  assert (C1 : at22 c1 (-1 / 32) (1 / 4) (1 / 8) (3 / 8)).
  { assert (K : 0 < / 10 ^ 9) by (apply Rinv_0_lt_compat, pow_lt; lra). set (k := / 10 ^ 9) in *.
    assert (Z0 := pos_start22 1 1 k T1 T1). assert (Z1 := sweep22 1 1 k _ _ _ _ _ T1 T1 Z0). cbv zeta in Z1.
    assert (Ec : co = rj_sweep 2 2 (y22 k) D22 (w22 1 1) (rj_start 2 2 (y22 k) (w22 1 1))).
    { apply rj_solve_inv in E. destruct E as [_ E]. rewrite I2 in E. cbn [rj_bcd] in E.
      rewrite E. set (zz := rj_sweep 2 2 (y22 k) D22 (w22 1 1) (rj_start 2 2 (y22 k) (w22 1 1))) in *. replace (rj_stop (rj_start 2 2 (y22 k) (w22 1 1)) zz) with true; [reflexivity|].
      symmetry. unfold rj_stop. destruct Z0 as (M0 & _ & _ & _ & _ & G0). destruct Z1 as (M1 & _ & _ & _ & _ & G1). rewrite M0, M1, G0, G1.
      assert (Kb : k <= 1 / 1000000000) by (unfold k; cbn [pow]; lra). apply andb_true_intro. split; apply Rltb_true; apply Rabs_def1; cbn [pow]; lra. }
    rewrite <- Ec, H in Z1. unfold at22, scale_c in Z1. cbn [jmu ja jb jtau] in Z1. destruct Z1 as (Z1 & Z2 & Z3 & Z4 & Z5 & Z6).
    repeat split; apply Rmult_eq_reg_l with k; try lra. }
  assert (F : forall c m a b g, at22 c m a b g -> wssr 2 2 (y22 1) D22 (w22 1 1) c = m * m + (m + a) * (m + a) + (m + b) * (m + b) + (1 - m - a - b - g) * (1 - m - a - b - g)).
  { intros c m a b g (Em & Ea0 & Ea & Eb0 & Eb & Eg). unfold wssr, bsum, fitv. cbn [seq sumf w22 y22 D22 Nat.eqb andb]. rewrite Em, Ea0, Ea, Eb0, Eb, Eg. ring. }
  rewrite (F c1 _ _ _ _ C1), (F s2 _ _ _ _ S2) in De. lra.
Qed.

(* tuning *)
Theorem rj_tune_spec lstsq svd sub rsub cfg T N p Y D :
  let obs := loocv_obs rsub (tc_maxs cfg) (control_obs T N Y D) in
  let score := fun l : lam3 => rj_score svd T N p Y D obs (tc_maxit cfg) (tc_tol cfg) (conv_w (fst (fst l))) (conv_w (snd (fst l))) (conv_nn (snd l)) in
  let g := grid3 (tc_gt cfg) (tc_gu cfg) (tc_gn cfg) in
  (exists l v, rj_tune lstsq svd sub rsub cfg T N p Y D = JOk (l, v) /\ ffinite v = true /\ In l g /\ score l = v /\ forall l', In l' g -> flt (score l') v = false)
  \/ ((forall l, In l g -> ffinite (score l) = false) /\ rj_tune lstsq svd sub rsub cfg T N p Y D = j_tune lstsq svd sub cfg T N p Y D).
Proof.
  cbv zeta. unfold rj_tune. cbv zeta.
  set (score := fun l : lam3 => rj_score svd T N p Y D (loocv_obs rsub (tc_maxs cfg) (control_obs T N Y D)) (tc_maxit cfg) (tc_tol cfg) (conv_w (fst (fst l))) (conv_w (snd (fst l))) (conv_nn (snd l))).
  set (g := grid3 (tc_gt cfg) (tc_gu cfg) (tc_gn cfg)). set (first := (hd (Some 0) (tc_gt cfg), hd (Some 0) (tc_gu cfg), hd (Some 0) (tc_gn cfg))).
  destruct (rj_search score g first) as [l v] eqn:E. cbn [snd]. destruct (ffinite v) eqn:F.
  - left. exists l, v. split; [reflexivity|]. split; [exact F|]. exact (rj_search_spec score g first l v E F).
  - right. split; [|reflexivity]. intros l' Hl. assert (M : (flt (snd (rj_search score g first)) PInf = true \/ snd (rj_search score g first) = PInf) /\ forall l, In l g -> flt (score l) (snd (rj_search score g first)) = false) by exact (rj_search_min score g (first, PInf)). rewrite E in M. cbn [snd] in M. destruct M as [M1 M2].
    specialize (M2 l' Hl). change (ffinite (score l') = false). destruct (score l') as [x| | |] eqn:Es; try reflexivity. exfalso.
    destruct M1 as [M1|M1]; [|rewrite M1 in M2; discriminate]. destruct v as [v| | |]; try discriminate.
    (* v = NInf cannot be a score: the sums of squares are finite, NaN or +inf *)
    assert (In l g /\ score l = NInf) as [_ Ev].
    { destruct (rj_search_inv score g (first, PInf) (l, NInf) E) as [Q|[Q1 Q2]]; [discriminate|]. split; [exact Q1|symmetry; exact Q2]. }
    unfold score, rj_score in Ev. destruct (loocv_obs _ _ _) as [|o os]; [discriminate|].
    assert (Nn : forall W h m tol obs acc, acc <> NInf -> rj_sum svd T N Y D W h m tol obs acc <> NInf).
    { intros W h m tol obs. induction obs as [|z obs IH]; intros acc Ha; cbn [rj_sum]; [exact Ha|]. destruct (rj_fit _ _ _ _ _ _ _ _ _); [discriminate|apply IH; discriminate|].
      apply IH. destruct acc; cbn [fadd]; try discriminate. easy. }
    revert Ev. apply Nn. discriminate.
Qed.
Lemma case22 c : (forall t i, D22 t i = 0%Z \/ D22 t i = 1%Z) /\ 0 < sumf (fun x => w22 1 1 (fst x) (snd x)) (cells 2 2)
  /\ exists co, rj_solve 2 2 (y22 c) D22 (w22 1 1) = Some co.
Proof.
  assert (S : sumf (fun x => w22 1 1 (fst x) (snd x)) (cells 2 2) = 4) by (unfold cells; cbn [seq list_prod map app fst snd w22 Nat.eqb sumf]; lra).
  split; [intros t i; unfold D22; destruct (_ && _); tauto|]. split; [rewrite S; lra|]. unfold rj_solve. rewrite S.
  rewrite (proj2 (Rltb_false _ _)) by (unfold tiny; cbn [pow]; lra). eexists. reflexivity.
Qed.

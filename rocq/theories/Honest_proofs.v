(* HonestDiD: relative-magnitude bounds, breakdown search, significance. *)
From Verif Require Import Prelude Flt Linalg_model Linalg_proofs Lp Multi_model Results_model Honest_model.
From Coq Require Import Arith ZArith String List Lia Lra.
Import ListNotations.
Open Scope R_scope.

Lemma Rabs_le_inv a b : Rabs a <= b -> - b <= a <= b.
Proof. intros H. unfold Rabs in H. destruct (Rcase_abs a); lra. Qed.

(* ---- vectors ---- *)
Definition norm1 (l : list R) : R := fold_right (fun a s => Rabs a + s) 0 l.
Definition sg (a : R) : R := if Rle_dec 0 a then 1 else -1.
Lemma sg_mul a : a * sg a = Rabs a.
Proof. unfold sg. destruct (Rle_dec 0 a); [rewrite Rabs_pos_eq by auto; ring|rewrite Rabs_left by lra; ring]. Qed.
Lemma norm1_nonneg l : 0 <= norm1 l.
Proof. induction l as [|a l IH]; simpl; [lra|]. pose proof (Rabs_pos a). lra. Qed.

Lemma ldot_sg l k : ldot l (map (fun a => sg a * k) l) = norm1 l * k.
Proof. induction l as [|a l IH]; simpl; [ring|]. rewrite IH, <- sg_mul. ring. Qed.
Lemma ldot_box l d B : length d = length l -> Forall (fun x => Rabs x <= B) d -> Rabs (ldot l d) <= norm1 l * B.
Proof.
  revert d. induction l as [|a l IH]; intros [|x d]; simpl; intros H F; try discriminate.
  - rewrite Rabs_R0. lra.
  - inversion F; subst. eapply Rle_trans; [apply Rabs_triang|]. rewrite Rabs_mult.
    assert (Rabs a * Rabs x <= Rabs a * B) by (apply Rmult_le_compat_l; [apply Rabs_pos|auto]).
    specialize (IH d ltac:(lia) H3). lra.
Qed.
Lemma sg_abs a k : Rabs (sg a * k) = Rabs k.
Proof. unfold sg. destruct (Rle_dec 0 a); [f_equal; ring|]. replace (-1 * k) with (- k) by ring. apply Rabs_Ropp. Qed.

(* the values of l'delta over the box |delta_t| <= B *)
Theorem box_values l B w : 0 <= B ->
  ((exists d, length d = length l /\ Forall (fun x => Rabs x <= B) d /\ ldot l d = w) <-> Rabs w <= norm1 l * B).
Proof.
  intros HB. split.
  - intros (d & L & F & <-). apply ldot_box; auto.
  - intros H. destruct (Req_EM_T (norm1 l) 0) as [E|N].
    + exists (map (fun a => sg a * 0) l). rewrite map_length, ldot_sg. split; auto. split.
      * rewrite Forall_forall. intros x Hx. apply in_map_iff in Hx as (a & <- & _). rewrite sg_abs, Rabs_R0. auto.
      * rewrite E in H. assert (Rabs w = 0) by (pose proof (Rabs_pos w); lra).
        destruct (Req_dec w 0) as [->|Hw]; [ring|]. apply Rabs_no_R0 in Hw. lra.
    + pose proof (norm1_nonneg l). assert (P : 0 < norm1 l) by lra.
      exists (map (fun a => sg a * (w / norm1 l)) l). rewrite map_length, ldot_sg. split; auto. split.
      * rewrite Forall_forall. intros x Hx. apply in_map_iff in Hx as (a & <- & _). rewrite sg_abs.
        unfold Rdiv. rewrite Rabs_mult, Rabs_inv, (Rabs_pos_eq (norm1 l)) by lra.
        apply Rmult_le_reg_r with (norm1 l); auto. rewrite Rmult_assoc, Rinv_l by lra. lra.
      * field. lra.
Qed.

Lemma norm1_uniform n : (0 < n)%nat -> norm1 (repeat (1 / INR n) n) = 1.
Proof.
  intros H. assert (G : forall k, norm1 (repeat (1 / INR n) k) = INR k * (1 / INR n)).
  { assert (0 < INR n) by (apply lt_0_INR; auto).
    assert (0 <= 1 / INR n) by (apply Rmult_le_pos; [lra|left; apply Rinv_0_lt_compat; auto]).
    induction k as [|k IH]; [simpl; ring|]. rewrite S_INR. simpl repeat.
    change (norm1 (1 / INR n :: repeat (1 / INR n) k)) with (Rabs (1 / INR n) + norm1 (repeat (1 / INR n) k)).
    rewrite IH, Rabs_pos_eq by auto. ring. }
  rewrite G. field. apply not_0_INR. lia.
Qed.

Lemma fdot_fin l b : fdot l (map Fin b) = Fin (ldot l b).
Proof.
  unfold fdot. revert b. induction l as [|a l IH]; intros [|x b]; simpl; auto. rewrite IH. reflexivity.
Qed.
Lemma fdot_nan l b : length l = length b -> In NaN b -> fdot l b = NaN.
Proof.
  intros L H. unfold fdot. apply fsum_nan. revert l L. induction b as [|x b IH]; [destruct H|].
  intros [|a l]; simpl; intros L; [discriminate|]. destruct H as [->|H]; [left; reflexivity|right; apply IH; auto].
Qed.

(* ---- fit ---- *)
Section Fit.
Variable lp : nat -> list con -> list R -> option R.
Variable ppf : option Z -> R -> R.
Notation fit := (hd_fit lp ppf).
Notation "'zc' cfg" := (ppf None (1 - hd_alpha cfg / 2)) (at level 10).

Theorem hd_fit_inv cfg r M o : fit cfg r M = Ok o ->
  exists p l lb ub cl cu,
    hd_extract r = Ok p /\ hd_weights (hd_l cfg) (length (post_beta p)) = Ok l /\
    fst (post_sigma p) = length (post_beta p) /\
    ho_est o = fdot l (post_beta p) /\ ho_se o = fsqrt (qform l (snd (post_sigma p))) /\
    ho_M o = match M with Some m => m | None => hd_M cfg end /\
    ho_lb o = lb /\ ho_ub o = ub /\ ho_ci_lb o = cl /\ ho_ci_ub o = cu /\
    (if String.eqb (hd_method cfg) "smoothness"
     then smooth_bounds lp ppf (hd_alpha cfg) (post_beta p) (snd (post_sigma p)) l (ep_npre p) (length (post_beta p)) (ho_M o)
     else if String.eqb (hd_method cfg) "relative_magnitude"
     then Ok (rm_bounds ppf (hd_alpha cfg) (post_beta p) (snd (post_sigma p)) l (ho_M o) r)
     else combined_bounds lp ppf (hd_alpha cfg) (post_beta p) (snd (post_sigma p)) l (ep_npre p) (length (post_beta p)) (ho_M o) r)
    = Ok (lb, ub, cl, cu).
Proof.
  unfold hd_fit. intros H. cbv zeta in H. destruct (hd_extract r) as [p|] eqn:E; [|discriminate].
  cbn [bind] in H. destruct (post_sigma p) as [sz Sg] eqn:ES.
  destruct (hd_weights (hd_l cfg) (length (post_beta p))) as [l|] eqn:EW; [|discriminate]. cbn [bind] in H.
  destruct (Nat.eqb sz (length (post_beta p))) eqn:EN; [|discriminate]. cbn [negb] in H. apply Nat.eqb_eq in EN.
  match type of H with bind ?b _ = _ => destruct b as [[[[lb ub] cl] cu]|] eqn:EB; [|discriminate] end.
  cbn [bind] in H. exists p, l, lb, ub, cl, cu. rewrite ES. injection H as <-. cbn [ho_est ho_se ho_M ho_lb ho_ub ho_ci_lb ho_ci_ub fst snd].
  refine (conj eq_refl (conj EW (conj EN (conj eq_refl (conj eq_refl (conj eq_refl (conj eq_refl (conj eq_refl (conj eq_refl (conj eq_refl EB)))))))))).
Qed.

(* relative magnitudes: everything reported, whenever the estimate, its standard error and the maximal
   pre-period violation are finite *)
Theorem rm_values cfg r M o th s m :
  hd_method cfg = "relative_magnitude"%string -> fit cfg r M = Ok o ->
  ho_est o = Fin th -> ho_se o = Fin s -> max_pre r = Fin m ->
  ho_lb o = Fin (th - ho_M o * m) /\ ho_ub o = Fin (th + ho_M o * m) /\
  ho_ci_lb o = Fin (th - ho_M o * m - zc cfg * s) /\ ho_ci_ub o = Fin (th + ho_M o * m + zc cfg * s).
Proof.
  intros Hm H Eth Es Em. apply hd_fit_inv in H as (p & l & lb & ub & cl & cu & E1 & E2 & E3 & E4 & E5 & E6 & E7 & E8 & E9 & E10 & E).
  rewrite Hm in E. cbn [String.eqb Ascii.eqb Bool.eqb] in E. injection E as E. unfold rm_bounds, clf_ci in E.
  rewrite <- E4, <- E5, Em, Eth, Es in E. rewrite E7, E8, E9, E10.
  cbn [feqb] in E. destruct (Reqb m 0) eqn:Q.
  - apply Reqb_true in Q. subst m. injection E as <- <- <- <-. unfold fsub. cbn [fadd fmul fneg].
    repeat split; f_equal; ring.
  - injection E as <- <- <- <-. unfold fsub. cbn [fadd fmul fneg]. repeat split; f_equal; ring.
Qed.

Theorem rm_any cfg r M M' o : hd_method cfg = "relative_magnitude"%string -> fit cfg r M = Ok o ->
  exists o', fit cfg r (Some M') = Ok o' /\ ho_M o' = M' /\ ho_est o' = ho_est o /\ ho_se o' = ho_se o.
Proof.
  intros Hm H. unfold hd_fit in *. cbv zeta in *. destruct (hd_extract r) as [p|]; [|discriminate].
  cbn [bind] in *. destruct (post_sigma p) as [sz Sg].
  destruct (hd_weights (hd_l cfg) (length (post_beta p))) as [l|]; [|discriminate]. cbn [bind] in *.
  destruct (negb _); [discriminate|]. rewrite Hm in *. cbn [String.eqb Ascii.eqb Bool.eqb bind] in *.
  destruct (rm_bounds ppf _ _ _ _ M' r) as [[[a b] c] d].
  destruct (rm_bounds ppf _ _ _ _ _ r) as [[[a' b'] c'] d']. injection H as <-.
  eexists. split; [reflexivity|]. cbn. auto.
Qed.

(* the identified set for given weights *)
Definition id_set (l b : list R) (B v : R) : Prop :=
  exists delta, length delta = length l /\ Forall (fun d => Rabs d <= B) delta /\ v = ldot l b - ldot l delta.

Lemma id_set_interval l b B v : 0 <= B ->
  (id_set l b B v <-> ldot l b - norm1 l * B <= v <= ldot l b + norm1 l * B).
Proof.
  intros HB. unfold id_set. pose proof (box_values l B (ldot l b - v) HB) as X. split.
  - intros (d & L & F & ->). assert (Rabs (ldot l b - (ldot l b - ldot l d)) <= norm1 l * B).
    { apply X. exists d. split; auto. split; auto. lra. }
    replace (ldot l b - (ldot l b - ldot l d)) with (ldot l d) in H by ring. apply Rabs_le_inv in H. lra.
  - intros H. destruct (proj2 X) as (d & L & F & E); [apply Rabs_le; lra|]. exists d. split; auto. split; auto. lra.
Qed.

(* exact iff the weights have unit l1 norm (or nothing is allowed to move) *)
Theorem rm_sharp_iff cfg r M o p l b s m :
  hd_method cfg = "relative_magnitude"%string -> fit cfg r (Some M) = Ok o ->
  hd_extract r = Ok p -> post_beta p = map Fin b -> hd_weights (hd_l cfg) (length b) = Ok l ->
  ho_se o = Fin s -> max_pre r = Fin m -> 0 <= m -> 0 <= M ->
  exists lo hi, ho_lb o = Fin lo /\ ho_ub o = Fin hi /\
    ((forall v, lo <= v <= hi <-> id_set l b (M * m) v) <-> (norm1 l = 1 \/ M * m = 0)).
Proof.
  intros Hm H Ep Eb El Es Em Hm0 HM.
  pose proof (hd_fit_inv _ _ _ _ H) as (p' & l' & lb & ub & cl & cu & E1 & E2 & E3 & E4 & E5 & E6 & _).
  rewrite Ep in E1. injection E1 as <-. rewrite Eb, map_length, El in E2. injection E2 as <-.
  rewrite Eb, fdot_fin in E4.
  destruct (rm_values _ _ _ _ _ _ _ Hm H E4 Es Em) as (A1 & A2 & _). rewrite E6 in A1, A2.
  exists (ldot l b - M * m), (ldot l b + M * m). split; auto. split; auto.
  assert (HB : 0 <= M * m) by (apply Rmult_le_pos; auto).
  split.
  - intros X. assert (Y : forall v, ldot l b - M * m <= v <= ldot l b + M * m <-> ldot l b - norm1 l * (M * m) <= v <= ldot l b + norm1 l * (M * m)).
    { intros v. rewrite X. apply id_set_interval. auto. }
    destruct (Req_EM_T (M * m) 0) as [Z|N]; [right; auto|left].
    pose proof (norm1_nonneg l).
    pose proof (proj1 (Y (ldot l b + M * m)) ltac:(lra)). pose proof (proj2 (Y (ldot l b + norm1 l * (M * m))) ltac:(nra)).
    apply Rmult_eq_reg_r with (M * m); auto. lra.
  - intros [N|Z] v; rewrite id_set_interval by auto; [rewrite N, Rmult_1_l; tauto|rewrite Z, Rmult_0_r; tauto].
Qed.

Theorem rm_sharp_uniform cfg r M o p b s m :
  hd_method cfg = "relative_magnitude"%string -> hd_l cfg = None -> fit cfg r (Some M) = Ok o ->
  hd_extract r = Ok p -> post_beta p = map Fin b -> b <> [] ->
  ho_se o = Fin s -> max_pre r = Fin m -> 0 <= m -> 0 <= M ->
  exists lo hi, ho_lb o = Fin lo /\ ho_ub o = Fin hi /\
    forall v, lo <= v <= hi <-> id_set (repeat (1 / INR (length b)) (length b)) b (M * m) v.
Proof.
  intros Hm Hl H Ep Eb Hb Es Em Hm0 HM.
  destruct (rm_sharp_iff cfg r M o p (repeat (1 / INR (length b)) (length b)) b s m) as (lo & hi & E1 & E2 & E3); auto.
  { rewrite Hl. reflexivity. }
  exists lo, hi. split; auto. split; auto. apply E3. left. apply norm1_uniform. destruct b; [congruence|simpl; lia].
Qed.

Theorem rm_nested cfg r M M' o o' th s m :
  hd_method cfg = "relative_magnitude"%string -> fit cfg r (Some M) = Ok o -> fit cfg r (Some M') = Ok o' ->
  ho_est o = Fin th -> ho_se o = Fin s -> max_pre r = Fin m -> 0 <= m -> M <= M' ->
  exists lo hi lo' hi' cl ch cl' ch',
    ho_lb o = Fin lo /\ ho_ub o = Fin hi /\ ho_lb o' = Fin lo' /\ ho_ub o' = Fin hi' /\
    ho_ci_lb o = Fin cl /\ ho_ci_ub o = Fin ch /\ ho_ci_lb o' = Fin cl' /\ ho_ci_ub o' = Fin ch' /\
    lo' <= lo /\ hi <= hi' /\ cl' <= cl /\ ch <= ch' /\ (M = 0 -> lo = th /\ hi = th).
Proof.
  intros Hm H H' Eth Es Em Hm0 HMM.
  destruct (rm_any _ _ _ M' _ Hm H) as (o2 & H2 & EM2 & Et2 & Es2). rewrite H' in H2. injection H2 as <-.
  assert (EM : ho_M o = M) by (destruct (rm_any _ _ _ M _ Hm H) as (o3 & H3 & EM3 & _); congruence).
  rewrite Eth in Et2. rewrite Es in Es2.
  destruct (rm_values _ _ _ _ _ _ _ Hm H Eth Es Em) as (A1 & A2 & A3 & A4).
  destruct (rm_values _ _ _ _ _ _ _ Hm H' Et2 Es2 Em) as (B1 & B2 & B3 & B4). rewrite EM in *. rewrite EM2 in *.
  exists (th - M * m), (th + M * m), (th - M' * m), (th + M' * m), (th - M * m - zc cfg * s), (th + M * m + zc cfg * s),
    (th - M' * m - zc cfg * s), (th + M' * m + zc cfg * s).
  assert (M * m <= M' * m) by (apply Rmult_le_compat_r; auto).
  repeat (split; [first [assumption | lra]|]). intros ->. lra.
Qed.

(* ---- the breakdown search ---- *)
Lemma while_bisect_brackets inc f tol fuel : (forall M, inc M = Ok (f M)) -> forall lo hi q,
  f lo = false -> f hi = true -> lo < hi -> while_bisect fuel inc tol lo hi = Some q ->
  exists a b, q = Ok (a, b) /\ lo <= a < b /\ b <= hi /\ f a = false /\ f b = true /\ b - a <= tol.
Proof.
  intros Hi. induction fuel as [|fuel IH]; intros lo hi q Hlo Hhi HL E; simpl in E.
  - destruct (Rlt_dec tol (hi - lo)); [discriminate|]. injection E as <-. exists lo, hi. repeat split; auto; lra.
  - destruct (Rlt_dec tol (hi - lo)).
    + rewrite Hi in E. destruct (f ((lo + hi) / 2)) eqn:Em.
      * destruct (IH _ _ _ Hlo Em ltac:(lra) E) as (a & b & -> & ? & ? & ? & ? & ?). exists a, b. repeat split; auto; lra.
      * destruct (IH _ _ _ Em Hhi ltac:(lra) E) as (a & b & -> & ? & ? & ? & ? & ?). exists a, b. repeat split; auto; lra.
    + injection E as <-. exists lo, hi. repeat split; auto; lra.
Qed.

Lemma while_bisect_stops inc f tol : (forall M, inc M = Ok (f M)) -> forall fuel lo hi,
  lo <= hi -> hi - lo <= tol * 2 ^ fuel -> while_bisect fuel inc tol lo hi <> None.
Proof.
  intros Hi. induction fuel as [|fuel IH]; intros lo hi HL H; simpl in *.
  - destruct (Rlt_dec tol (hi - lo)); [lra|discriminate].
  - destruct (Rlt_dec tol (hi - lo)); [|discriminate]. rewrite Hi.
    destruct (f _); apply IH; lra.
Qed.

Lemma while_bisect_runs inc f tol : (forall M, inc M = Ok (f M)) -> tol <= 0 -> forall fuel lo hi,
  lo < hi -> while_bisect fuel inc tol lo hi = None.
Proof.
  intros Hi Ht. induction fuel as [|fuel IH]; intros lo hi HL; simpl.
  - destruct (Rlt_dec tol (hi - lo)); [reflexivity|lra].
  - destruct (Rlt_dec tol (hi - lo)); [|lra]. rewrite Hi. destruct (f _); apply IH; lra.
Qed.

Lemma pow2_pos n : 0 < 2 ^ n.
Proof. apply pow_lt. lra. Qed.

Lemma enough_fuel tol : 0 < tol -> exists n, 10 <= tol * 2 ^ n.
Proof.
  intros H. destruct (archimed (10 / tol)) as [A _].
  set (k := Z.to_nat (up (10 / tol))). exists k.
  assert (INR k <= 2 ^ k).
  { clear. induction k as [|k IH]; [simpl; lra|]. rewrite S_INR. simpl.
    assert (1 <= 2 ^ k) by (clear; induction k; simpl; lra). lra. }
  assert (10 / tol <= INR k).
  { unfold k. rewrite INR_IZR_INZ, Z2Nat.id; [lra|]. apply le_IZR. assert (0 < 10 / tol) by (apply Rdiv_lt_0_compat; lra). lra. }
  replace 10 with (tol * (10 / tol)) by (field; lra). apply Rmult_le_compat_l; lra.
Qed.

(* any monotone profile *)
Theorem breakdown_brackets cfg r f tol fuel q :
  (forall M, includes lp ppf cfg r M = Ok (f M)) -> (forall a b, a <= b -> f a = true -> f b = true) ->
  breakdown_value lp ppf fuel cfg r tol = Some q ->
  exists v, q = Ok v /\
  match v with
  | None => forall M, M <= 10 -> f M = false
  | Some m => (m = 0 /\ f 0 = true) \/
              (0 <= m <= 10 /\ f 0 = false /\ f 10 = true /\
               (forall M, M <= m - tol / 2 -> f M = false) /\ (forall M, m + tol / 2 <= M -> f M = true))
  end.
Proof.
  intros Hi Hmono E. unfold breakdown_value in E. rewrite !Hi in E.
  destruct (f 0) eqn:F0.
  - injection E as <-. exists (Some 0). split; auto.
  - destruct (f 10) eqn:F10.
    + destruct (while_bisect fuel (includes lp ppf cfg r) tol 0 10) as [q'|] eqn:W; [|discriminate].
      destruct (while_bisect_brackets _ f tol fuel Hi 0 10 q' F0 F10 ltac:(lra) W) as (a & b & -> & Ha & Hb & Fa & Fb & Ht).
      injection E as <-. exists (Some ((a + b) / 2)). split; auto. right. split; [lra|]. split; auto. split; auto. split.
      * intros M HM. destruct (f M) eqn:FM; auto. assert (f a = true) by (apply (Hmono M a); [lra|auto]). congruence.
      * intros M HM. apply (Hmono b M); [lra|auto].
    + injection E as <-. exists None. split; auto. intros M HM. destruct (f M) eqn:FM; auto.
      assert (f 10 = true) by (apply (Hmono M 10); [lra|auto]). congruence.
Qed.
Theorem breakdown_terminates cfg r f tol :
  (forall M, includes lp ppf cfg r M = Ok (f M)) -> 0 < tol ->
  exists n, forall fuel, (n <= fuel)%nat -> breakdown_value lp ppf fuel cfg r tol <> None.
Proof.
  intros Hi Ht. destruct (enough_fuel tol Ht) as (n & Hn). exists n. intros fuel Hf. unfold breakdown_value. rewrite !Hi.
  destruct (f 0); [discriminate|]. destruct (f 10); [|discriminate].
  assert (W : while_bisect fuel (includes lp ppf cfg r) tol 0 10 <> None).
  { apply (while_bisect_stops _ f tol Hi); [lra|].
    assert (2 ^ n <= 2 ^ fuel) by (apply Rle_pow; [lra|auto]). nra. }
  destruct (while_bisect fuel _ tol 0 10) as [[[a b]|]|]; congruence.
Qed.

Theorem breakdown_loops cfg r f tol fuel :
  (forall M, includes lp ppf cfg r M = Ok (f M)) -> tol <= 0 -> f 0 = false -> f 10 = true ->
  breakdown_value lp ppf fuel cfg r tol = None.
Proof.
  intros Hi Ht F0 F10. unfold breakdown_value. rewrite !Hi, F0, F10.
  rewrite (while_bisect_runs _ f tol Hi Ht); auto. lra.
Qed.

(* relative magnitudes: the exact breakdown point *)
Theorem rm_includes cfg r M0 o th s m M :
  hd_method cfg = "relative_magnitude"%string -> fit cfg r M0 = Ok o ->
  ho_est o = Fin th -> ho_se o = Fin s -> max_pre r = Fin m ->
  includes lp ppf cfg r M = Ok (Rleb (Rabs th) (M * m + zc cfg * s)).
Proof.
  intros Hm H Eth Es Em. destruct (rm_any _ _ _ M _ Hm H) as (o' & H' & EM & Et & Es').
  rewrite Eth in Et. rewrite Es in Es'. unfold includes. rewrite H'. cbn [bind].
  destruct (rm_values _ _ _ _ _ _ _ Hm H' Et Es' Em) as (_ & _ & A3 & A4). rewrite A3, A4, EM. f_equal.
  unfold has_zero. cbn [fle].
  destruct (Rleb (Rabs th) (M * m + zc cfg * s)) eqn:E.
  - apply Rleb_true in E. apply Rabs_le_inv in E. apply andb_true_intro. split; apply Rleb_true; lra.
  - apply Bool.andb_false_iff.
    destruct (Rleb (th - M * m - zc cfg * s) 0) eqn:E1; [|auto].
    destruct (Rleb 0 (th + M * m + zc cfg * s)) eqn:E2; [|auto]. apply Rleb_true in E1, E2.
    assert (Rleb (Rabs th) (M * m + zc cfg * s) = true) by (apply Rleb_true, Rabs_le; lra). congruence.
Qed.

Lemma threshold th s z m M : 0 < m -> Rleb (Rabs th) (M * m + z * s) = Rleb ((Rabs th - z * s) / m) M.
Proof.
  intros Hm. assert (K : (Rabs th - z * s) / m * m = Rabs th - z * s) by (field; lra).
  destruct (Rleb ((Rabs th - z * s) / m) M) eqn:E.
  - apply Rleb_true in E. apply Rleb_true. nra.
  - apply Rleb_false in E. apply Rleb_false. nra.
Qed.

Theorem rm_breakdown cfg r M0 o th s m tol :
  hd_method cfg = "relative_magnitude"%string -> fit cfg r M0 = Ok o ->
  ho_est o = Fin th -> ho_se o = Fin s -> max_pre r = Fin m -> 0 < m -> 0 < tol ->
  let exact := (Rabs th - zc cfg * s) / m in
  (forall M, includes lp ppf cfg r M = Ok (Rleb exact M)) /\
  exists n, forall fuel, (n <= fuel)%nat -> exists v, breakdown_value lp ppf fuel cfg r tol = Some (Ok v) /\
    (exact <= 0 -> v = Some 0) /\ (10 < exact -> v = None) /\
    (0 < exact <= 10 -> exists b, v = Some b /\ Rabs (b - exact) <= tol / 2).
Proof.
  intros Hm H Eth Es Em Hm0 Ht exact.
  assert (Hi : forall M, includes lp ppf cfg r M = Ok (Rleb exact M)).
  { intros M. rewrite (rm_includes _ _ _ _ _ _ _ M Hm H Eth Es Em). f_equal. apply threshold. auto. }
  split; auto. destruct (breakdown_terminates cfg r (Rleb exact) tol Hi Ht) as (n & Hn). exists n. intros fuel Hf.
  specialize (Hn fuel Hf). unfold breakdown_value in *. rewrite !Hi in *.
  destruct (Rleb exact 0) eqn:F0.
  - apply Rleb_true in F0. exists (Some 0). split; auto. split; auto. split; [lra|lra].
  - apply Rleb_false in F0. destruct (Rleb exact 10) eqn:F10.
    + destruct (while_bisect fuel (includes lp ppf cfg r) tol 0 10) as [q|] eqn:W; [|congruence].
      assert (F0' : Rleb exact 0 = false) by (apply Rleb_false; lra).
      destruct (while_bisect_brackets _ (Rleb exact) tol fuel Hi 0 10 q F0' F10 ltac:(lra) W) as (a & b & -> & Ha & Hb & Fa & Fb & Hab).
      apply Rleb_false in Fa. apply Rleb_true in Fb. apply Rleb_true in F10.
      exists (Some ((a + b) / 2)). split; auto. split; [lra|]. split; [lra|]. intros _. exists ((a + b) / 2). split; auto.
      apply Rabs_le. lra.
    + apply Rleb_false in F10. exists None. split; auto. split; [lra|]. split; auto. lra.
Qed.

(* the grid search *)
Lemma bisect_threshold inc x n : (forall M, inc M = Ok (Rleb x M)) -> forall lo hi, lo < x <= hi ->
  exists a b, bisect n inc lo hi = Ok (a, b) /\ a < x <= b /\ b - a = (hi - lo) / 2 ^ n.
Proof.
  intros Hi. induction n as [|n IH]; intros lo hi H; simpl.
  - exists lo, hi. split; auto. split; auto. field.
  - rewrite Hi. cbn [bind]. destruct (Rleb x ((lo + hi) / 2)) eqn:E.
    + apply Rleb_true in E. destruct (IH lo ((lo + hi) / 2) ltac:(lra)) as (a & b & -> & Hx & Hd). exists a, b. split; auto. split; auto.
      rewrite Hd. pose proof (pow2_pos n). field. lra.
    + apply Rleb_false in E. destruct (IH ((lo + hi) / 2) hi ltac:(lra)) as (a & b & -> & Hx & Hd). exists a, b. split; auto. split; auto.
      rewrite Hd. pose proof (pow2_pos n). field. lra.
Qed.

(* consecutive grid points *)
Fixpoint consecutive (l : list R) (a b : R) : Prop :=
  match l with
  | x :: ((y :: _) as r) => (x = a /\ y = b) \/ consecutive r a b
  | _ => False
  end.
Fixpoint increasing (l : list R) : Prop :=
  match l with x :: ((y :: _) as r) => x < y /\ increasing r | _ => True end.

Lemma transition_found inc x : (forall M, inc M = Ok (Rleb x M)) -> forall l a0,
  increasing (a0 :: l) -> a0 < x -> (exists b, In b l /\ x <= b) ->
  exists bd a b, transition inc (Some (a0, false)) (combine l (map (Rleb x) l)) = Ok (Some bd) /\
    consecutive (a0 :: l) a b /\ a < x <= b /\ Rabs (bd - x) <= (b - a) / 2 ^ 21.
Proof.
  intros Hi. induction l as [|g l IH]; intros a0 Hs Ha (b & Hb & Hxb); [destruct Hb|].
  simpl combine. cbn [transition]. destruct (Rleb x g) eqn:E.
  - apply Rleb_true in E. destruct (bisect_threshold inc x 20 Hi a0 g ltac:(lra)) as (p & q & -> & Hx & Hd). cbn [bind fst snd].
    exists ((p + q) / 2), a0, g. split; auto. split; [simpl; auto|]. split; [lra|].
    replace ((g - a0) / 2 ^ 21) with ((q - p) / 2) by (rewrite Hd; simpl; lra). apply Rabs_le. lra.
  - apply Rleb_false in E. destruct Hs as [Hs1 Hs2]. destruct (IH g Hs2 E) as (bd & a & b' & E1 & E2 & E3).
    { destruct Hb as [<-|Hb]; [lra|]. eauto. }
    exists bd, a, b'. split; auto. split; [right; exact E2|]. exact E3.
Qed.

Theorem grid_breakdown inc x grid : (forall M, inc M = Ok (Rleb x M)) -> increasing grid -> grid <> [] ->
  exists v, find_breakdown inc grid (map (Rleb x) grid) = Ok v /\
    ((forall g, In g grid -> g < x) -> v = None) /\
    ((forall g, In g grid -> x <= g) -> v = Some 0) /\
    ((exists g, In g grid /\ g < x) -> (exists g, In g grid /\ x <= g) ->
     exists bd a b, v = Some bd /\ consecutive grid a b /\ a < x <= b /\ Rabs (bd - x) <= (b - a) / 2 ^ 21).
Proof.
  intros Hi Hs Hne. unfold find_breakdown.
  destruct (existsb (fun b => b) (map (Rleb x) grid)) eqn:EX.
  - cbn [negb]. assert (HX : exists g, In g grid /\ x <= g).
    { apply existsb_exists in EX as (b & Hb & ->). apply in_map_iff in Hb as (g & Hg & Hin). apply Rleb_true in Hg. eauto. }
    destruct (forallb (fun b => b) (map (Rleb x) grid)) eqn:EA.
    + exists (Some 0). split; auto.
      assert (HA : forall g, In g grid -> x <= g).
      { rewrite forallb_forall in EA. intros g Hg. apply Rleb_true. apply EA. apply in_map. auto. }
      split; [intros K; destruct HX as (g & Hg & ?); specialize (K g Hg); lra|]. split; auto.
      intros (g & Hg & L). specialize (HA g Hg). lra.
    + destruct grid as [|g0 l]; [congruence|]. simpl map. simpl combine. cbn [transition].
      destruct (Rleb x g0) eqn:E0.
      * (* first point includes zero, so every later point does too: contradiction with EA *)
        exfalso. apply Rleb_true in E0. enough (forallb (fun b => b) (map (Rleb x) (g0 :: l)) = true) by congruence.
        clear EX EA HX Hne. rewrite forallb_forall. intros b Hb. apply in_map_iff in Hb as (g & <- & Hg). apply Rleb_true.
        revert g0 E0 Hs Hg. induction l as [|g1 l IH]; intros g0 E0 Hs Hg.
        -- destruct Hg as [<-|[]]; auto.
        -- destruct Hs as [H1 H2]. destruct Hg as [<-|Hg]; auto. apply (IH g1); auto. lra.
      * apply Rleb_false in E0.
        destruct (transition_found inc x Hi l g0 Hs E0) as (bd & a & b & E1 & E2 & E3 & E4).
        { destruct HX as (g & [<-|Hg] & L); [lra|]. eauto. }
        exists (Some bd). split; [exact E1|]. split; [intros K; destruct HX as (g & Hg & ?); specialize (K g Hg); lra|].
        split; [intros K; specialize (K g0 (or_introl eq_refl)); lra|]. intros _ _. exists bd, a, b. auto.
  - cbn [negb]. exists None. split; auto.
    assert (HN : forall g, In g grid -> g < x).
    { intros g Hg. apply Rleb_false. destruct (Rleb x g) eqn:E; auto.
      enough (existsb (fun b => b) (map (Rleb x) grid) = true) by congruence.
      apply existsb_exists. exists true. split; auto. apply in_map_iff. eauto. }
    split; auto. split.
    + intros K. destruct grid as [|g l]; [congruence|]. specialize (K g (or_introl eq_refl)). specialize (HN g (or_introl eq_refl)). lra.
    + intros _ (g & Hg & L). specialize (HN g Hg). lra.
Qed.

Lemma mapr_all {A B} (f : A -> res B) (g : A -> B) l : (forall a, In a l -> f a = Ok (g a)) -> mapr f l = Ok (map g l).
Proof.
  induction l as [|a l IH]; simpl; intros H; [reflexivity|]. rewrite (H a) by auto. cbn [bind]. rewrite IH by auto. reflexivity.
Qed.

Theorem rm_sensitivity cfg r M0 o th s m grid :
  hd_method cfg = "relative_magnitude"%string -> fit cfg r M0 = Ok o ->
  ho_est o = Fin th -> ho_se o = Fin s -> max_pre r = Fin m -> 0 < m -> increasing grid -> grid <> [] ->
  let exact := (Rabs th - zc cfg * s) / m in
  exists q, hd_sensitivity lp ppf cfg r (Some grid) = Ok q /\
    hs_M q = grid /\ hs_est q = Fin th /\ hs_se q = Fin s /\
    hs_bounds q = map (fun M => (Fin (th - M * m), Fin (th + M * m))) grid /\
    hs_cis q = map (fun M => (Fin (th - M * m - zc cfg * s), Fin (th + M * m + zc cfg * s))) grid /\
    ((forall g, In g grid -> g < exact) -> hs_breakdown q = None) /\
    ((forall g, In g grid -> exact <= g) -> hs_breakdown q = Some 0) /\
    ((exists g, In g grid /\ g < exact) -> (exists g, In g grid /\ exact <= g) ->
     exists bd a b, hs_breakdown q = Some bd /\ consecutive grid a b /\ a < exact <= b /\
                    Rabs (bd - exact) <= (b - a) / 2 ^ 21).
Proof.
  intros Hm H Eth Es Em Hm0 Hs Hne exact.
  assert (Hi : forall M, includes lp ppf cfg r M = Ok (Rleb exact M)).
  { intros M. rewrite (rm_includes _ _ _ _ _ _ _ M Hm H Eth Es Em). f_equal. apply threshold. auto. }
  set (g := fun M => {| ho_lb := Fin (th - M * m); ho_ub := Fin (th + M * m); ho_ci_lb := Fin (th - M * m - zc cfg * s);
                        ho_ci_ub := Fin (th + M * m + zc cfg * s); ho_M := M; ho_method := hd_method cfg;
                        ho_est := Fin th; ho_se := Fin s; ho_alpha := hd_alpha cfg; ho_ci_method := "C-LF"%string |}).
  assert (Hg : forall M, fit cfg r (Some M) = Ok (g M)).
  { intros M. destruct (rm_any _ _ _ M _ Hm H) as (o' & H' & EM & Et & Es'). rewrite Eth in Et. rewrite Es in Es'.
    destruct (rm_values _ _ _ _ _ _ _ Hm H' Et Es' Em) as (A1 & A2 & A3 & A4). rewrite H'. f_equal.
    assert (K : ho_method o' = hd_method cfg /\ ho_alpha o' = hd_alpha cfg /\ ho_ci_method o' = "C-LF"%string).
    { clear -H' Hm. unfold hd_fit in H'. cbv zeta in H'. destruct (hd_extract r) as [p|]; [|discriminate].
      cbn [bind] in *. destruct (post_sigma p) as [sz Sg].
      destruct (hd_weights (hd_l cfg) (length (post_beta p))) as [l|]; [|discriminate]. cbn [bind] in *.
      destruct (negb _); [discriminate|]. destruct (String.eqb (hd_method cfg) "smoothness") eqn:X; [rewrite Hm in X; discriminate|].
      rewrite Hm in *. cbn [String.eqb Ascii.eqb Bool.eqb bind] in *.
      destruct (rm_bounds ppf _ _ _ _ M r) as [[[a b] c] d]. injection H' as <-. cbn. auto. }
    destruct K as (K1 & K2 & K3). rewrite EM in *. unfold g. destruct o'. cbn in *. subst. reflexivity. }
  unfold hd_sensitivity. cbv zeta. rewrite (mapr_all _ g) by (intros; apply Hg). cbn [bind].
  assert (EF : map (fun ci : fl * fl => has_zero (fst ci) (snd ci)) (map (fun o0 => (ho_ci_lb o0, ho_ci_ub o0)) (map g grid)) = map (Rleb exact) grid).
  { rewrite !map_map. apply map_ext. intros M. specialize (Hi M). unfold includes in Hi. rewrite Hg in Hi. cbn [bind] in Hi. injection Hi as Hi. exact Hi. }
  rewrite EF. destruct (grid_breakdown _ exact grid Hi Hs Hne) as (v & -> & V1 & V2 & V3). cbn [bind]. rewrite Hg. cbn [bind].
  eexists. split; [reflexivity|]. cbn [hs_M hs_est hs_se hs_bounds hs_cis hs_breakdown ho_est ho_se g].
  rewrite !map_map. refine (conj eq_refl (conj eq_refl (conj eq_refl (conj _ (conj _ (conj V1 (conj V2 V3))))))); apply map_ext; reflexivity.
Qed.

(* ---- significance ---- *)
Theorem nan_significant o : ho_ci_lb o = NaN \/ ho_ci_ub o = NaN -> ho_significant o = true /\ ho_stars o = "*"%string.
Proof.
  intros H. assert (E : ho_significant o = true).
  { unfold ho_significant, has_zero. destruct H as [->| ->]; [reflexivity|]. rewrite fle_nan_r, Bool.andb_false_r. reflexivity. }
  split; auto. unfold ho_stars. rewrite E. reflexivity.
Qed.
Theorem nonnan_significant o lo hi : ho_ci_lb o = Fin lo -> ho_ci_ub o = Fin hi ->
  (ho_significant o = true <-> (0 < lo \/ hi < 0)).
Proof.
  intros HA HB. unfold ho_significant, has_zero. rewrite HA, HB. cbn [fle].
  destruct (Rleb lo 0) eqn:E1, (Rleb 0 hi) eqn:E2; cbn; repeat match goal with
   | H : Rleb _ _ = true |- _ => apply Rleb_true in H | H : Rleb _ _ = false |- _ => apply Rleb_false in H end;
   split; intros; try discriminate; try lra; auto.
Qed.
End Fit.

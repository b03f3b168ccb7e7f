(* TROP: concrete panels; departures from the stated behaviour. *)
From Verif Require Import Prelude Flt Stats_model Stats_proofs Linalg_model Linalg_thms Multi_model Multi_proofs Trop_model Trop_proofs Trop_thms Trop_conv Trop_rec Trop_obj Trop_sel.
From Coq Require Import Arith ZArith String List FunctionalExtensionality Permutation.
Import ListNotations.
Open Scope R_scope.

(* ------------------------------------------------------------------------------------------- *)
(* a decomposition meeting svd_ok: exact for one-row matrices, LinAlgError otherwise *)
Definition svd_row : svd_fn := fun T N M =>
  if (T =? 1)%nat then
    let q := sumf (fun i => M 0%nat i * M 0%nat i) (seq 0 N) in
    if Req_EM_T q 0 then Some [] else Some [(sqrt q, (fun _ => 1), fun i => M 0%nat i / sqrt q)]
  else None.
Lemma svd_row_ok : svd_ok svd_row.
Proof.
  intros T N M l. unfold svd_row. destruct (T =? 1)%nat eqn:ET; [|easy]. apply Nat.eqb_eq in ET. subst T.
  set (q := sumf (fun i => M 0%nat i * M 0%nat i) (seq 0 N)).
  assert (Hq : 0 <= q) by (apply sumf_nonneg; intros; apply Rle_0_sqr).
  destruct (Req_EM_T q 0) as [E|E]; intros [= <-].
  - split; [easy|]. split; [intros [|j] k x y H; easy|]. split; [intros [|j] k x y H; easy|].
    intros t i Ht Hi. replace t with 0%nat by lia. cbn [sumf].
    assert (P : M 0%nat i * M 0%nat i = 0).
    { apply (sumf_nonneg_0 (fun i => M 0%nat i * M 0%nat i) (seq 0 N)); [intros; apply Rle_0_sqr|exact E|apply in_seq; lia]. }
    simpl. apply Rmult_integral in P. tauto.
  - assert (Hs : 0 < sqrt q) by (apply sqrt_lt_R0; lra). assert (Hss : sqrt q * sqrt q = q) by (apply sqrt_sqrt; lra).
    split; [intros x [<-|[]]; unfold trip_s; simpl; lra|].
    assert (N1 : forall (A : Type) (a : A) j x, nth_error [a] j = Some x -> j = 0%nat /\ x = a).
    { intros A a [|[|j]] x H; try easy. injection H as <-. easy. }
    split; [|split].
    + intros j k x y Hj Hk. apply N1 in Hj, Hk. destruct Hj as [-> ->], Hk as [-> ->]. unfold trip_u. simpl. ring.
    + intros j k x y Hj Hk. apply N1 in Hj, Hk. destruct Hj as [-> ->], Hk as [-> ->]. unfold trip_v. cbn [snd Nat.eqb].
      rewrite (sumf_ext _ (fun i => / (sqrt q * sqrt q) * (M 0%nat i * M 0%nat i))) by (intros i _; field; lra).
      rewrite sumf_scal, Hss. fold q. field. lra.
    + intros t i Ht Hi. replace t with 0%nat by lia. unfold trip_s, trip_u, trip_v. simpl. field. lra.
Qed.
Lemma svd_row_len : svd_len svd_row.
Proof.
  intros T N M l. unfold svd_row. destruct (T =? 1)%nat eqn:ET; [|easy]. apply Nat.eqb_eq in ET. subst T.
  destruct (Req_EM_T _ _) as [E|E]; intros [= <-]; [simpl; lia|]. cbn [length]. destruct N; [|simpl; lia]. exfalso. apply E. reflexivity.
Qed.
Lemma svd_row_total N M : svd_row 1%nat N M <> None.
Proof. unfold svd_row. cbn [Nat.eqb]. destruct (Req_EM_T _ _); easy. Qed.

(* nuclear norm of a 1 x 1 matrix *)
Definition m1 (x : R) : mat := fun _ _ => x.
Lemma mip11 A B : mip 1 1 A B = A 0%nat 0%nat * B 0%nat 0%nat.
Proof. unfold mip, cells. simpl. ring. Qed.
Lemma nuc11 x : nuc_is 1 1 (m1 x) (Rabs x).
Proof.
  split.
  - intros A HA. rewrite mip11. unfold m1.
    assert (P := HA (fun _ => 1) (fun _ => 1)). assert (Q := HA (fun _ => -1) (fun _ => 1)). rewrite mip11 in P, Q. unfold vn in P, Q. simpl in P, Q.
    specialize (P ltac:(lra) ltac:(lra)). specialize (Q ltac:(lra) ltac:(lra)). unfold Rabs. destruct (Rcase_abs x); nra.
  - exists (m1 (if Rcase_abs x then -1 else 1)). split.
    + intros u v Hu Hv. rewrite mip11. unfold m1, vn in *. simpl in Hu, Hv. destruct (Rcase_abs x); nra.
    + rewrite mip11. unfold m1, Rabs. destruct (Rcase_abs x); ring.
Qed.

(* The documented objective is sum W (R - L)^2 + lambda_nn * nuclear norm; the returned L does not minimise it
   (it minimises half the sum of squares plus the penalty). *)
Theorem nn_objective : exists L, (forall tol, nn_solve svd_row 1 1 (m1 1) (m1 2) (fun _ => 0) (fun _ => 0) (Some 1) tol zmat = L) /\
  exists L', forall c c', nuc_is 1 1 L c -> nuc_is 1 1 L' c' ->
    sumf (fun x => 1 * ((2 - L' (fst x) (snd x)) * (2 - L' (fst x) (snd x)))) (cells 1 1) + 1 * c' <
    sumf (fun x => 1 * ((2 - L (fst x) (snd x)) * (2 - L (fst x) (snd x)))) (cells 1 1) + 1 * c.
Proof.
  assert (Uq : forall X c c', nuc_is 1 1 X c -> nuc_is 1 1 X c' -> c = c').
  { intros X c c' [H1 (A & O1 & E1)] [H2 (B & O2 & E2)]. specialize (H1 B O2). specialize (H2 A O1). lra. }
  assert (W1 : wnorm 1 1 (m1 1) = m1 1).
  { apply functional_extensionality; intros t; apply functional_extensionality; intros i. unfold wnorm, wmax, cells, m1. simpl.
    rewrite (Rabs_pos_eq 1) by lra. rewrite Rmax_left by lra. destruct (Rlt_dec 0 1); lra. }
  assert (Px : forall L, L 0%nat 0%nat = 0 \/ L 0%nat 0%nat = 1 -> prox_step svd_row 1 1 (m1 1) (masked_target (m1 1) (m1 2) (fun _ => 0) (fun _ => 0) zmat) (Some 1) L = fun t i => sumf (fun x => (snd (fst x) t * Rmax (fst (fst x) - 1) 0) * snd x i) [(2, (fun _ => 1), fun i => (L 0%nat i + 1 * (2 - L 0%nat i)) / 2)]).
  { intros L HL. unfold prox_step. rewrite W1. unfold soft_svd. destruct (Rle_dec 1 0); [lra|]. unfold svd_row. cbn [Nat.eqb].
    assert (E : sumf (fun i => (L 0%nat i + m1 1 0%nat i * (masked_target (m1 1) (m1 2) (fun _ => 0) (fun _ => 0) zmat 0%nat i - L 0%nat i)) * (L 0%nat i + m1 1 0%nat i * (masked_target (m1 1) (m1 2) (fun _ => 0) (fun _ => 0) zmat 0%nat i - L 0%nat i))) (seq 0 1) = 4).
    { simpl. unfold masked_target, m1. destruct (Rlt_dec 0 1); [|lra]. ring. }
    rewrite E. destruct (Req_EM_T 4 0); [lra|]. replace (sqrt 4) with 2 by (replace 4 with (2 * 2) by ring; rewrite sqrt_square; lra).
    cbn [filter fst snd]. rewrite (Rmax_left (2 - 1) 0) by lra. replace (Rltb svd_tol (2 - 1)) with true.
    - apply functional_extensionality; intros t; apply functional_extensionality; intros i. cbn [sumf fst snd]. simpl. rewrite (Rmax_left (2 - 1) 0) by lra.
      unfold masked_target, m1. destruct (Rlt_dec 0 1); [|lra]. field.
    - symmetry. apply Rltb_true. unfold svd_tol. replace (2 - 1) with (/ 1) by field. apply Rinv_lt_contravar; [rewrite Rmult_1_l; apply pow_lt; lra|].
      apply Rlt_pow_R1; [lra|lia]. }
  set (L1 := fun (t i : nat) => 1).
  assert (F : forall L, L 0%nat 0%nat = 0 \/ L 0%nat 0%nat = 1 -> (forall i, L 0%nat i = L 0%nat 0%nat) ->
     prox_step svd_row 1 1 (m1 1) (masked_target (m1 1) (m1 2) (fun _ => 0) (fun _ => 0) zmat) (Some 1) L = L1).
  { intros L HL HLi. rewrite Px by easy. apply functional_extensionality; intros t; apply functional_extensionality; intros i. unfold L1. simpl. rewrite HLi.
    rewrite Rmax_left by lra. field. }
  exists L1. split.
  - intros tol. unfold nn_solve. destruct (Rle_dec 1 0); [lra|].
    assert (G : forall k, nn_loop svd_row 1 1 (m1 1) (masked_target (m1 1) (m1 2) (fun _ => 0) (fun _ => 0) zmat) (Some 1) tol k L1 = L1).
    { induction k; [easy|]. cbn [nn_loop]. rewrite F by (unfold L1; auto). destruct (Rltb _ _); easy. }
    cbn [nn_loop]. rewrite (F zmat) by (unfold zmat; auto). destruct (Rltb _ _); [easy|apply (G 9%nat)].
  - exists (m1 (3/2)). intros c c' Hc Hc'. assert (E1 := Uq _ _ _ Hc (nuc11 1)). assert (E2 := Uq _ _ _ Hc' (nuc11 (3/2))).
    rewrite E1, E2, !Rabs_pos_eq by lra. unfold cells, m1, L1. simpl. lra.
Qed.

(* ------------------------------------------------------------------------------------------- *)
(* two units, three periods, unit 1 treated in the last one; period effects 0, 1, 2; effect 3 *)
Definition xb (t : nat) : R := INR t.
Definition xa (i : nat) : R := 10 * INR i.
Definition xD : dmat := fun t i => if (t =? 2)%nat && (i =? 1)%nat then 1%Z else 0%Z.
Definition xeff : mat := fun _ _ => 3.
Definition xY : omat := fun t i => if (t <? 3)%nat then Some (xa i + xb t + (if (xD t i =? 1)%Z then xeff t i else 0)) else None.
Definition xmiss : nat -> nat -> bool := fun _ _ => false.
Definition xcfg (nn : R) : tcfg := {| tc_gt := [Some 0]; tc_gu := [Some 0]; tc_gn := [Some nn]; tc_maxit := 100; tc_tol := / (10 ^ 6); tc_alpha := 1/20;
                                    tc_boot := false; tc_maxs := 100 |}.
Lemma x_check : check_panel 3 2 xD xmiss = TOk tt. Proof. reflexivity. Qed.
Lemma x_treated : treated_obs 3 2 xD = [(2, 1)%nat]. Proof. reflexivity. Qed.
Lemma x_control : control_obs 3 2 xY xD = [(0,0); (0,1); (1,0); (1,1); (2,0)]%nat. Proof. reflexivity. Qed.
Lemma x_additive : additive 3 2 xY xD xa xb xeff.
Proof.
  intros t i r Ht Hi. unfold xY. apply Nat.ltb_lt in Ht. rewrite Ht. intros [= <-]. split; intros E; rewrite E; [change (0 =? 1)%Z with false|change (1 =? 1)%Z with true]; cbn iota; ring.
Qed.

Section XFit.
Variables (svd : svd_fn) (odd : lam3 -> option R) (sf : option Z -> fl -> fl) (ppf : option Z -> R -> R) (name : nat -> string) (draws : list (list nat)).
Notation xfit nn := (trop_fit svd sub_first odd sf ppf (xcfg nn) 3 2 6 xY xD xmiss name draws).
Lemma x_tune nn : fst (tune svd sub_first odd (xcfg nn) 3 2 xY xD) = (Some 0, Some 0, Some nn).
Proof. apply tune_single; try reflexivity. rewrite x_control. easy. Qed.
Lemma x_fit nn : exists r, xfit nn = TOk r /\ tr_lambda r = (Some 0, Some 0, Some nn) /\
  tr_att r = att_of (effects svd (Some (xY, xD)) 3 2 xY xD 0 0 (Some nn) 100 (/ (10 ^ 6))).
Proof.
  unfold trop_fit. rewrite x_check. assert (E := x_tune nn). destruct (tune svd sub_first odd (xcfg nn) 3 2 xY xD) as [[[lt lu] ln] sc]. cbn [fst] in E.
  injection E as -> -> ->. eexists. split; [reflexivity|]. split; reflexivity.
Qed.
(* a positive penalty: the effect 3 is recovered up to the stopping tolerance *)
Theorem x_recovers : svd_ok svd -> exists r x, xfit 100 = TOk r /\ tr_att r = Fin x /\ Rabs (x - 3) <= Rmax ((1/2) ^ 99 * 2) (4 / (10 ^ 6)).
Proof.
  intros Hsvd. destruct (x_fit 100) as (r & Hr & Hl & _).
  destruct (fit_recovers svd sub_first odd sf ppf Hsvd (xcfg 100) 3 2 6 xY xD xmiss name draws r xa xb xeff 10 0 2 99 Hr x_additive) as (x & Ex & Bx).
  - apply Nat.ltb_lt. reflexivity.
  - intros t i Ht Hi HD. unfold has, xY. apply Nat.ltb_lt in Ht. rewrite Ht. split; [easy|]. exists 0%nat. split; [lia|]. split; reflexivity.
  - intros i j Hi Hj. unfold xa. destruct i as [|[|i]]; [| |lia]; destruct j as [|[|j]]; try lia; simpl; unfold Rabs; destruct (Rcase_abs _); lra.
  - intros s Hs. unfold xb. destruct s as [|[|[|s]]]; simpl; try lra. lia.
  - reflexivity.
  - simpl. left. apply Rinv_0_lt_compat. lra.
  - rewrite Hl. simpl. lra.
  - rewrite Hl. cbn [snd conv_nn off]. split; [lra|]. simpl. lra.
  - exists r, x. split; [easy|]. split; [easy|]. rewrite Hl in Bx. cbn [fst snd conv_w] in Bx. rewrite x_treated in Bx.
    assert (En : n_full 3 2 xY xD = 1%nat) by reflexivity. rewrite En in Bx. unfold xeff in Bx. rewrite meanf_const in Bx by easy.
    replace (- 0 * 10) with 0 in Bx by ring. rewrite exp_0 in Bx.
    replace (1 - INR 1 * 1 / INR 2) with (1/2) in Bx by (simpl; field). replace (2 - 0) with 2 in Bx by ring.
    replace (2 * tc_tol (xcfg 100) / (INR 1 * 1 / INR 2)) with (4 / 10 ^ 6) in Bx; [exact Bx|].
    cbn [tc_tol xcfg]. simpl INR. field.
Qed.
(* lambda_nn = 0 (in the default grid): exact parallel trends, effect 3, estimate 7/2 *)
Lemma time_w0 t s : time_w 0 t s = 1.
Proof. unfold time_w. replace (- 0 * Rabs (INR t - INR s)) with 0 by ring. apply exp_0. Qed.
Theorem x_nn0 : exists r, xfit 0 = TOk r /\ tr_att r = Fin (7/2).
Proof.
  destruct (x_fit 0) as (r & Hr & _ & Ha). exists r. split; [easy|]. rewrite Ha. unfold att_of, effects. rewrite x_treated. cbn [map snd].
  rewrite (nn0_effect svd (Some (xY, xD)) 3 2 xY xD 0 0 0 99 (/ 10 ^ 6) None 2 1 (10 * 1 + 2 + 3)); [|lra| |reflexivity].
  2:{ unfold xY, xa, xb, xeff. cbn. reflexivity. }
  set (W := masked xY xD None (obs_w (Some (xY, xD)) 3 xY xD 0 0 1 2)).
  assert (EW : forall t i, (t < 3)%nat -> (i < 2)%nat -> W t i = if ((t =? 2)%nat && (i =? 1)%nat) then 0 else 1).
  { intros t i Ht Hi. unfold W, masked, obs_w. rewrite time_w0. unfold unit_w. replace (Reqb 0 0) with true by (symmetry; apply Reqb_refl).
    destruct t as [|[|[|t]]]; [| | |lia]; destruct i as [|[|i]]; try lia; cbn; ring. }
  rewrite <- (map_cons Fin _ []). rewrite fmean_fin by easy. f_equal. unfold meanf, idR, len. cbn [sumf length INR].
  unfold time_mean, unit_mean. cbn [seq sumf]. rewrite !EW by lia. cbn [Nat.eqb andb].
  assert (Ys : forall t i, (t < 3)%nat -> xD t i = 0%Z -> ysafe xY t i = 10 * INR i + INR t).
  { intros t i Ht HD. unfold ysafe, xY. apply Nat.ltb_lt in Ht. rewrite Ht, HD. cbn [Z.eqb]. unfold xa, xb. ring. }
  rewrite !Rmult_0_l. rewrite !Ys by (first [lia|reflexivity]). simpl INR.
  repeat (destruct (Rlt_dec _ _); [|lra]). field.
Qed.
End XFit.

(* lambda_nn <= 0 in general: the bias under exactly additive untreated outcomes is the comparison units'
   average of their mean period effect minus the treated unit's own mean period effect *)
Theorem nn0_bias svd T N Y D lt lu h maxit tol t i a b eff :
  h <= 0 -> additive T N Y D a b eff -> (t < T)%nat -> (i < N)%nat -> D t i = 1%Z -> has Y t i = true ->
  let W := masked Y D None (obs_w (Some (Y, D)) T Y D lt lu i t) in
  let um := unit_mean T W (fun s _ => b s) in
  0 < sumf (fun s => W s i) (seq 0 T) -> 0 < sumf (fun j => W t j) (seq 0 N) ->
  fit_at svd (Some (Y, D)) T N Y D lt lu (Some h) (S maxit) tol None (t, i) =
  Fin (eff t i + (sumf (fun j => W t j * um j) (seq 0 N) / sumf (fun j => W t j) (seq 0 N) - um i)).
Proof.
  intros Hh Hadd Ht Hi HD Hy W um Hc Hr. unfold has in Hy. destruct (Y t i) as [r|] eqn:Er; [|easy].
  assert (Hm : mask Y D None t i = false) by (unfold mask; rewrite HD; cbn; apply andb_false_r).
  rewrite (nn0_effect svd (Some (Y, D)) T N Y D lt lu h maxit tol None t i r Hh Er Hm). fold W. f_equal.
  destruct (Hadd t i r Ht Hi Er) as [_ E1]. specialize (E1 HD).
  assert (HW : forall s j, 0 <= W s j) by (intros s j; unfold W, masked; destruct (mask Y D None s j); [apply obs_w_nonneg|lra]).
  assert (HWz : forall s j, (s < T)%nat -> (j < N)%nat -> W s j <> 0 -> ysafe Y s j = a j + b s).
  { intros s j Hs Hj Hz. apply masked_nz in Hz. now apply (ysafe_additive T N Y D a b eff Hadd). }
  assert (U : forall j, (j < N)%nat -> 0 < sumf (fun s => W s j) (seq 0 T) -> unit_mean T W (ysafe Y) j = a j + um j).
  { intros j Hj Hp. unfold um, unit_mean. destruct (Rlt_dec _ _); [|lra].
    rewrite (sumf_ext (fun s => W s j * ysafe Y s j) (fun s => W s j * b s + W s j * a j)).
    - rewrite sumf_add, sumf_scal_r. change (sumf (fun x => W x j) (seq 0 T)) with (sumf (fun s => W s j) (seq 0 T)). field. lra.
    - intros s Hs. apply in_seq in Hs. destruct (Req_dec (W s j) 0) as [E|E]; [rewrite E; ring|]. rewrite HWz by (auto; lia). ring. }
  rewrite U by easy. unfold time_mean. destruct (Rlt_dec _ _); [|lra].
  rewrite (sumf_ext (fun j => W t j * (ysafe Y t j - unit_mean T W (ysafe Y) j)) (fun j => W t j * b t - W t j * um j)).
  - rewrite sumf_sub, sumf_scal_r, E1. change (sumf (W t) (seq 0 N)) with (sumf (fun j => W t j) (seq 0 N)). field. lra.
  - intros j Hj. apply in_seq in Hj. destruct (Req_dec (W t j) 0) as [E|E]; [rewrite E; ring|]. rewrite HWz by (auto; lia).
    rewrite U; [ring|lia|]. apply sumf_pos; [intros; apply HW|]. exists t. split; [apply in_seq; lia|]. specialize (HW t j). lra.
Qed.

(* ------------------------------------------------------------------------------------------- *)
(* bootstrap replicates are computed with the weights of the original panel's columns *)
(* units "0", "1", "2"; unit 1 is the control; units 0 and 2 are treated in the last of three periods *)
Definition vD : dmat := fun t i => if (t =? 2)%nat && negb (i =? 1)%nat then 1%Z else 0%Z.
Definition vY : omat := fun t i => if (t <? 3)%nat then Some (if (t =? 2)%nat then 5 else 0) else None.
Definition vname (i : nat) : string := nat_str i.
Lemma v_cols : boot_cols vname [1; 0; 0]%nat = [0; 0; 1]%nat. Proof. reflexivity. Qed.
Definition vrep (svd : svd_fn) (pre : option (omat * dmat)) : option fl := boot_rep svd pre 3 vY vD 0 0 (Some 0) 100 (/ (10 ^ 6)) (boot_cols vname [1; 0; 0]%nat).
(* drawing the control and twice unit 0: the replicate as computed, and the estimate on the drawn panel *)
Theorem boot_weights svd : vrep svd (Some (vY, vD)) = Some (Fin 5) /\
  vrep svd (Some (sel_o vY [0; 0; 1]%nat, sel_d vD [0; 0; 1]%nat)) = Some (Fin (5/3)).
Proof.
  unfold vrep, boot_rep. rewrite v_cols. cbn [length].
  set (Y := sel_o vY [0; 0; 1]%nat). set (D := sel_d vD [0; 0; 1]%nat).
  assert (Et : treated_obs 3 3 D = [(2,0); (2,1)]%nat) by reflexivity. rewrite Et.
  assert (Hm : forall i, (i < 2)%nat -> mask Y D None 2 i = false) by (intros i Hi; destruct i as [|[|i]]; [reflexivity|reflexivity|lia]).
  assert (Hy : forall i, Y 2%nat i = Some 5) by reflexivity.
  assert (Ys : forall t i, (t < 3)%nat -> ysafe Y t i = if (t =? 2)%nat then 5 else 0).
  { intros t i Ht. unfold Y, ysafe, sel_o, vY. apply Nat.ltb_lt in Ht. now rewrite Ht. }
  assert (Tw : forall P i s j, obs_w P 3 Y D 0 0 i 2 s j = match P with Some (Y', D') => unit_w 3 Y' D' 0 i 2 j | None => unit_w 3 Y D 0 i 2 j end).
  { intros P i s j. unfold obs_w. rewrite time_w0. apply Rmult_1_l. }
  assert (Own : forall Y' D' i, unit_w 3 Y' D' 0 i 2 i = 1) by (intros; unfold unit_w; now rewrite Nat.eqb_refl).
  assert (K : forall Y' D' i c, (i < 2)%nat -> unit_w 3 Y' D' 0 i 2 2 = c -> (c = 1 \/ c = 0) ->
    fit_at svd (Some (Y', D')) 3 3 Y D 0 0 (Some 0) 100 (/ 10 ^ 6) None (2, i)%nat = Fin (if Reqb c 0 then 5 else 5/3)).
  { intros Y' D' i c Hi Hc Hcc. set (P := Some (Y', D')).
    rewrite (nn0_effect svd P 3 3 Y D 0 0 0 99 (/ 10 ^ 6) None 2 i 5 ltac:(lra) (Hy i) (Hm i Hi)).
    set (W := masked Y D None (obs_w P 3 Y D 0 0 i 2)).
    assert (EWi : forall s, (s < 3)%nat -> W s i = if (s =? 2)%nat then 0 else 1).
    { intros s Hs. unfold W, masked. destruct s as [|[|[|s]]]; [| | |lia]; destruct i as [|[|i]]; try lia; cbn -[obs_w]; try reflexivity; rewrite Tw; apply Own. }
    assert (EW2 : forall s, (s < 3)%nat -> W s 2%nat = c).
    { intros s Hs. unfold W, masked. destruct s as [|[|[|s]]]; [| | |lia]; cbn -[obs_w]; rewrite Tw; exact Hc. }
    assert (EW3 : forall j, (j < 2)%nat -> W 2%nat j = 0).
    { intros j Hj. unfold W, masked. now rewrite Hm. }
    assert (Ui : unit_mean 3 W (ysafe Y) i = 0).
    { unfold unit_mean. cbn [seq sumf]. rewrite !EWi by lia. cbn [Nat.eqb]. rewrite !Ys by lia. cbn [Nat.eqb]. destruct (Rlt_dec _ _); lra. }
    rewrite Ui. f_equal. unfold time_mean. cbn [seq sumf]. rewrite (EW3 0%nat), (EW3 1%nat), EW2 by lia. rewrite !Rmult_0_l.
    destruct Hcc as [-> | ->].
    - destruct (Rlt_dec _ _); [|lra]. unfold unit_mean. cbn [seq sumf]. rewrite !EW2 by lia. rewrite !Ys by lia. cbn [Nat.eqb].
      destruct (Rlt_dec _ _); [|lra]. replace (Reqb 1 0) with false by (symmetry; apply Reqb_10). field.
    - destruct (Rlt_dec _ _); [lra|]. replace (Reqb 0 0) with true by (symmetry; apply Reqb_refl). ring. }
  assert (R0 : Reqb 0 0 = true) by apply Reqb_refl.
  split; f_equal; unfold att_of, effects; rewrite Et; cbn [map snd].
  - rewrite (K vY vD 0%nat 0), (K vY vD 1%nat 0) by (first [lia | right; reflexivity | reflexivity]).
    rewrite R0. change [Fin 5; Fin 5] with (map Fin [5; 5]). rewrite fmean_fin by easy. f_equal. unfold meanf, idR, len. simpl. field.
  - rewrite (K Y D 0%nat 1), (K Y D 1%nat 1) by (first [lia | left; reflexivity | unfold unit_w; cbn -[Reqb]; rewrite R0; reflexivity]).
    rewrite Reqb_10. change [Fin (5/3); Fin (5/3)] with (map Fin [5/3; 5/3]). rewrite fmean_fin by easy. f_equal. unfold meanf, idR, len. simpl. field.
Qed.


(* ------------------------------------------------------------------------------------------- *)
(* the first iteration is not the last one when some unit's mean outcome is not below the tolerance *)
Lemma not_at_once svd T N Y D W h tol ex i : (i < N)%nat -> tol <= Rabs (unit_mean T (masked Y D ex W) (ysafe Y) i) -> ~ stops_at_once svd T N Y D W h tol ex.
Proof.
  intros Hi Hm. unfold stops_at_once, st_diff, est_step. cbn [ta tb tlo tzero]. intros C.
  assert (E : unit_mean T (masked Y D ex W) (fun t i => ysafe Y t i - 0 - 0) = unit_mean T (masked Y D ex W) (ysafe Y)).
  { apply functional_extensionality; intros j. unfold unit_mean. destruct (Rlt_dec _ _); [|easy]. f_equal. apply sumf_ext_all. intros; f_equal; ring. }
  unfold zmat in C. rewrite E in C.
  assert (L := maxabs_ge (fun i => unit_mean T (masked Y D ex W) (ysafe Y) i - 0) (seq 0 N) i ltac:(apply in_seq; lia)). cbv beta in L. rewrite Rminus_0_r in L.
  eapply Rlt_irrefl, Rle_lt_trans; [|exact C]. eapply Rle_trans; [exact Hm|]. eapply Rle_trans; [exact L|].
  eapply Rle_trans; [apply Rmax_l|]. apply Rmax_l.
Qed.
Lemma x_unit_case svd c : 0 <= c -> fit_at svd (Some (add_unit xY (fun _ => c), xD)) 3 2 (add_unit xY (fun _ => c)) xD 0 0 (Some 100) 100 (/ (10 ^ 6)) None (2, 1)%nat =
  fit_at svd (Some (xY, xD)) 3 2 xY xD 0 0 (Some 100) 100 (/ (10 ^ 6)) None (2, 1)%nat.
Proof.
  intros Hc.
  assert (Hs : / (10 ^ 6) <= 1).
  { replace 1 with (/ 1) by field. apply Rinv_le_contravar; [lra|]. left. apply Rlt_pow_R1; [lra|lia]. }
  assert (EW : forall Y' t, (t < 3)%nat -> (forall t i, has Y' t i = has xY t i) ->
     masked Y' xD None (obs_w (Some (xY, xD)) 3 xY xD 0 0 1 2) t 1%nat = if (t =? 2)%nat then 0 else 1).
  { intros Y' t Ht HY. unfold masked, mask. rewrite HY. unfold obs_w. rewrite time_w0. destruct t as [|[|[|t]]]; [| | |lia]; cbn; ring. }
  assert (G : forall Y', (forall t i, has Y' t i = has xY t i) -> 10 <= ysafe Y' 0%nat 1%nat -> 10 <= ysafe Y' 1%nat 1%nat ->
    ~ stops_at_once svd 3 2 Y' xD (obs_w (Some (xY, xD)) 3 xY xD 0 0 1 2) (Some 100) (/ 10 ^ 6) None).
  { intros Y' HY H0 H1. apply (not_at_once _ _ _ _ _ _ _ _ _ 1%nat); [lia|]. unfold unit_mean. cbn [seq sumf]. rewrite !EW by (auto; lia). cbn [Nat.eqb].
    destruct (Rlt_dec _ _); [|lra]. rewrite Rabs_pos_eq by (apply Rle_mult_inv_pos; lra).
    apply Rle_trans with 1; [easy|]. apply (Rmult_le_reg_r 2); [lra|]. unfold Rdiv. rewrite Rmult_assoc. replace (/ (1 + (1 + (0 + 0))) * 2) with 1 by field. lra. }
  apply fit_at_unit; [| |lia| | |].
  - intros t i Ht. unfold xY. apply Nat.ltb_ge in Ht. now rewrite Ht.
  - right. now exists c.
  - exists 0%nat. split; [lia|reflexivity].
  - apply G; [easy| |]; unfold ysafe, xY, xa, xb; cbn; lra.
  - apply G; [intros; apply has_add_unit| |]; rewrite ysafe_add_unit by reflexivity; unfold ysafe, xY, xa, xb; cbn; lra.
Qed.

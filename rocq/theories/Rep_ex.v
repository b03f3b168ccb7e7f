(* Bounds on the factor of the covariance and a concrete panel. *)
From Coq Require Import Reals Lra Lia.
From Verif Require Import Prelude Flt Linalg_model Linalg_proofs Linalg_vcov Linalg_thms Linalg_dual Did_model Did_spec Did_proofs Did_equiv Did_more Absorb_thms Absorb_ex
  Twfe_model Bacon_model Multi_model Staggered_model Synth_model Sdid_model Trop_model Rep_proofs Rep_thms.
From Coq Require Import Arith ZArith String List.
Import ListNotations.
Open Scope R_scope.

(* without clusters the variance shrinks at least by the number of copies *)
Lemma iid_factor k n p : (1 <= k)%nat -> (p < n)%nat -> 0 < rep_factor false k n p <= 1 / INR k.
Proof.
  intros Hk Hn. split; [apply rep_factor_pos; auto; discriminate|]. unfold rep_factor.
  assert (1 <= INR k) by (change 1 with (INR 1); apply le_INR; lia). assert (INR p < INR n) by (apply lt_INR; lia).
  assert (0 <= INR p) by apply pos_INR. assert (INR p < INR k * INR n) by nra. rewrite Rmult_1_r.
  apply (Rmult_le_reg_r (INR k * INR n - INR p)); [lra|]. unfold Rdiv at 1. rewrite Rmult_assoc, Rinv_l by lra.
  apply (Rmult_le_reg_l (INR k)); [lra|]. replace (INR k * (1 / INR k * (INR k * INR n - INR p))) with (INR k * INR n - INR p) by (field; lra). nra.
Qed.
(* clustered on the original ids it stays within a fixed band, whatever the number of copies *)
Lemma cluster_factor k n p : (1 <= k)%nat -> (1 <= p)%nat -> (p < n)%nat -> (INR n - INR p) / (INR n - 1) <= rep_factor true k n p <= 1.
Proof.
  intros Hk Hp Hn. unfold rep_factor.
  assert (1 <= INR k) by (change 1 with (INR 1); apply le_INR; lia). assert (INR p < INR n) by (apply lt_INR; lia).
  assert (1 <= INR p) by (change 1 with (INR 1); apply le_INR; lia). assert (INR p < INR k * INR n) by nra.
  replace ((INR n - INR p) / (INR k * INR n - INR p) * ((INR k * INR n - 1) / (INR n - 1)))
    with ((INR n - INR p) / (INR n - 1) * ((INR k * INR n - 1) / (INR k * INR n - INR p))) by (field; lra).
  set (a := (INR n - INR p) / (INR n - 1)). set (b := (INR k * INR n - 1) / (INR k * INR n - INR p)).
  assert (Ha : 0 < a) by (apply Rdiv_lt_0_compat; lra).
  assert (Hb : 1 <= b).
  { unfold b. apply (Rmult_le_reg_r (INR k * INR n - INR p)); [lra|]. unfold Rdiv. rewrite Rmult_assoc, Rinv_l by lra. lra. }
  split; [nra|]. unfold a, b. replace ((INR n - INR p) / (INR n - 1) * ((INR k * INR n - 1) / (INR k * INR n - INR p)))
    with (((INR n - INR p) * (INR k * INR n - 1)) / ((INR n - 1) * (INR k * INR n - INR p))) by (field; lra).
  assert (P1 : 0 < (INR n - 1) * (INR k * INR n - INR p)) by (apply Rmult_lt_0_compat; lra).
  assert (P2 : 0 <= (INR p - 1) * (INR k - 1) * INR n) by (apply Rmult_le_pos; [apply Rmult_le_pos|]; lra).
  apply (Rmult_le_reg_r ((INR n - 1) * (INR k * INR n - INR p))); [exact P1|]. unfold Rdiv. rewrite Rmult_assoc, Rinv_l by lra. nra.
Qed.

(* four units before and after: the data twice *)
Theorem rep_case : exists a b c e,
  a_fit (a_cfg None) p_rows p_y p_d p_t [] [] [] = Ok a /\ a_fit (a_cfg None) (copies 2 p_rows) p_y p_d p_t [] [] [] = Ok b /\
  a_fit (a_cfg (Some p_g)) p_rows p_y p_d p_t [] [] [] = Ok c /\ a_fit (a_cfg (Some p_g)) (copies 2 p_rows) p_y p_d p_t [] [] [] = Ok e /\
  r_att b = r_att a /\ r_att e = r_att c /\ r_n_obs b = 16%nat /\
  r_se b = fmul (Fin (sqrt (1/3))) (r_se a) /\ r_se e = fmul (Fin (sqrt (5/7))) (r_se c).
Proof.
  assert (Hi : indep p_rows (did_cols Nat.eq_dec p_rows p_y p_d p_t [] [] [])).
  { apply (sat_indep p_rows); try exact p_four; apply zo_ind. }
  assert (Hn : (length (did_cols Nat.eq_dec p_rows p_y p_d p_t [] [] []) < length p_rows)%nat) by (vm_compute; lia).
  destruct (a_defined None p_rows p_yr p_b p_c [] p_g [] Logic.I p_four ltac:(vm_compute; lia)) as [a Ea].
  destruct (a_defined (Some p_g) p_rows p_yr p_b p_c [] p_g [] ltac:(vm_compute; lia) p_four ltac:(vm_compute; lia)) as [c Ec].
  pose proof (did_copies Nat.eq_dec Nat.eq_dec (@gs_dropped nat) (@gs nat) (@gs_inv nat) ex_pinv toy_sf toy_ppf gs_dropped_ok gs_ok gs_inv_ok (a_cfg None) 2 p_rows p_y p_d p_t [] [] [] ltac:(lia) Hi Hn) as H1.
  pose proof (did_copies Nat.eq_dec Nat.eq_dec (@gs_dropped nat) (@gs nat) (@gs_inv nat) ex_pinv toy_sf toy_ppf gs_dropped_ok gs_ok gs_inv_ok (a_cfg (Some p_g)) 2 p_rows p_y p_d p_t [] [] [] ltac:(lia) Hi Hn) as H2.
  change (a_fit (a_cfg None) p_rows p_y p_d p_t [] [] [] = Ok a) in Ea. change (a_fit (a_cfg (Some p_g)) p_rows p_y p_d p_t [] [] [] = Ok c) in Ec.
  unfold a_fit in *. rewrite Ea in H1. rewrite Ec in H2.
  destruct (did_fit _ _ _ _ _ _ _ _ (a_cfg None) (copies 2 p_rows) _ _ _ _ _ _) as [b|]; [|contradiction].
  destruct (did_fit _ _ _ _ _ _ _ _ (a_cfg (Some p_g)) (copies 2 p_rows) _ _ _ _ _ _) as [e|]; [|contradiction].
  destruct H1 as (A1 & _ & _ & _ & _ & S1 & N1 & _). destruct H2 as (A2 & _ & _ & _ & _ & S2 & _).
  exists a, b, c, e. repeat split; auto.
  - rewrite N1. assert (N : r_n_obs a = 8%nat); [|now rewrite N].
    revert Ea. unfold did_fit. match goal with |- context [if existsb ?f ?l then _ else _] => destruct (existsb f l); [discriminate|] end. repeat match goal with |- context [if negb ?x then _ else _] => destruct x; [cbn [negb]|discriminate] end.
    match goal with |- context [if existsb ?f ?l then _ else _] => destruct (existsb f l); [discriminate|] end. cbn [absorb_loop]. destruct (linreg_fit _ _ _ _ _ _ _ _ _ _ _ _); [|discriminate]. cbn [bind]. injection 1 as <-. reflexivity.
  - rewrite S1. change (fmul (Fin (sqrt (rep_factor false 2 8 4))) (r_se a) = fmul (Fin (sqrt (1/3))) (r_se a)).
    replace (rep_factor false 2 8 4) with (1/3) by (unfold rep_factor; simpl; field). reflexivity.
  - rewrite S2. change (fmul (Fin (sqrt (rep_factor true 2 8 4))) (r_se c) = fmul (Fin (sqrt (5/7))) (r_se c)).
    replace (rep_factor true 2 8 4) with (5/7) by (unfold rep_factor; simpl; field). reflexivity.
Qed.

(* SunAbraham on an incomplete panel: a unit effect is not removed. *)
From Coq Require Import Reals Lra Lia.
From Verif Require Import Prelude Flt Stats_model Stats_proofs Linalg_model Linalg_proofs Linalg_vcov Linalg_thms Linalg_dual Did_model Did_spec Did_proofs Did_equiv Within_proofs Multi_model Multi_proofs Multi_thms
  Boot_model Boot_proofs Bacon_model Bacon_proofs Bacon_thms Staggered_model Staggered_proofs Staggered_est Staggered_thms Staggered_more Staggered_fit Sun_model Sun_proofs Sun_thms Sun_more Sun_cs Sun_inf Sun_boot Sun_ex Sun_equiv.
From Coq Require Import Arith ZArith String List Permutation.
Import ListNotations.
Open Scope R_scope.

(* unit 1 treated in period 2, units 2 and 3 never; unit 3 is only seen in period 1 *)
Definition rows5 : list (Z * Z) := [(1, 1); (1, 2); (2, 1); (2, 2); (3, 1)]%Z.
Definition C2 (a : Z) : coh := if Z.eqb a 1 then CFin 2 else CFin 0.
Definition wd (i : Z * Z) : R := if Z.eqb (fst i) 3 then 1/5 else if Z.eqb (fst i) 1 then (if Z.eqb (snd i) 2 then 1/5 else -3/10) else if Z.eqb (snd i) 2 then -3/10 else 1/5.
Lemma in5 i : In i rows5 -> i = (1,1)%Z \/ i = (1,2)%Z \/ i = (2,1)%Z \/ i = (2,2)%Z \/ i = (3,1)%Z.
Proof. cbn. intuition. Qed.
Lemma within5 (x : Z * Z -> R) i : In i rows5 -> within Z.eq_dec Z.eq_dec rows5 fst snd x i =
  x i - (if Z.eqb (fst i) 1 then (x (1,1)%Z + x (1,2)%Z) / 2 else if Z.eqb (fst i) 2 then (x (2,1)%Z + x (2,2)%Z) / 2 else x (3,1)%Z)
      - (if Z.eqb (snd i) 1 then (x (1,1)%Z + x (2,1)%Z + x (3,1)%Z) / 3 else (x (1,2)%Z + x (2,2)%Z) / 2)
      + (x (1,1)%Z + x (1,2)%Z + x (2,1)%Z + x (2,2)%Z + x (3,1)%Z) / 5.
Proof.
  intros Hi. apply in5 in Hi. destruct Hi as [->|[->|[->|[->| ->]]]]; unfold within, group_mean, meanf, rows5, len; cbn; field.
Qed.
Lemma wd_within i : In i rows5 -> within Z.eq_dec Z.eq_dec rows5 fst snd (sa_dummy snd (gco C2) (CFin 2, 0%Z)) i = wd i.
Proof.
  intros Hi. rewrite within5 by auto. apply in5 in Hi. destruct Hi as [->|[->|[->|[->| ->]]]]; unfold sa_dummy, sa_in, sa_rel, gco, C2, wd; cbn; field.
Qed.
Section Ex.
Variable qr : list (Z * Z) -> list (Z * Z -> R) -> list nat.
Variable lstsq : list (Z * Z) -> list (Z * Z -> R) -> (Z * Z -> R) -> list R.
Variable inv : list (Z * Z) -> list (Z * Z -> R) -> option (nat -> nat -> R).
Variable pinv : list (Z * Z) -> list (Z * Z -> R) -> nat -> nat -> R.
Variable sf : option Z -> fl -> fl.
Variable ppf : option Z -> R -> R.
Hypothesis Hqr : qr_ok qr.
Hypothesis Hls : lstsq_ok lstsq.
Hypothesis Hinv : inv_ok inv.
Notation fit y := (sa_fit qr lstsq inv pinv sf ppf fst snd (gco C2) y [] None (sa_demo "never_treated" 0) rows5).
Theorem fit5 y : exists r, fit y = Ok r /\
  sa_att r = Fin (y (1, 2)%Z - 17/18 * y (1, 1)%Z + 13/18 * y (2, 1)%Z - 2/3 * y (2, 2)%Z - 1/9 * y (3, 1)%Z).
Proof.
  assert (ES : sa_sample (gco C2) (sa_demo "never_treated" 0) rows5 = rows5) by (apply sample_all; intros i _; unfold gco, C2; destruct (Z.eqb (fst i) 1); reflexivity).
  destruct (fit_succeeds qr lstsq inv pinv sf ppf Hqr Hinv fst snd (gco C2) y [] None (sa_demo "never_treated" 0) rows5) as (r & Hr & Hk).
  - vm_compute. discriminate.
  - left. reflexivity.
  - rewrite ES. vm_compute. discriminate.
  - rewrite ES. apply Nat.ltb_lt. vm_compute. reflexivity.
  - rewrite ES. apply Nat.leb_le. vm_compute. reflexivity.
  - rewrite ES; apply (sa_cols_nonzero _ fst snd _ [] _ (CFin 2, 0%Z) (1, 2)%Z (1, 1)%Z (2, 2)%Z (2, 1)%Z); try reflexivity; vm_compute; auto 30.
  - exists r. split; [exact Hr|].
    destruct (sa_fit_inv qr lstsq inv pinv sf ppf fst snd (gco C2) y [] None _ rows5 r Hr) as (_ & _ & reg & Hs & Hes & Hw & Ha & _ & _ & _ & _ & Hg & _ & _ & _ & Hce).
    rewrite ES in Hs. destruct (saturated_inv qr lstsq inv pinv Hls fst snd (gco C2) y [] None _ _ _ _ _ Hs) as (Ek & _ & o & Ho & Hc & _).
    assert (EK : sr_keys reg = [(CFin 2, 0%Z)]) by (rewrite Ek; vm_compute; reflexivity).
    set (v := y (1, 2)%Z - 17/18 * y (1, 1)%Z + 13/18 * y (2, 1)%Z - 2/3 * y (2, 2)%Z - 1/9 * y (3, 1)%Z).
    rewrite EK in Ho.
    set (q := fun i => within Z.eq_dec Z.eq_dec rows5 fst snd (sa_dummy snd (gco C2) (CFin 2, 0%Z)) i / (3/10)).
    assert (Hip : forall x, ip rows5 q x = (wd (1,1)%Z * x (1,1)%Z + wd (1,2)%Z * x (1,2)%Z + wd (2,1)%Z * x (2,1)%Z + wd (2,2)%Z * x (2,2)%Z + wd (3,1)%Z * x (3,1)%Z) / (3/10)).
    { intros x. unfold ip. rewrite (sumf_ext _ (fun i => wd i / (3/10) * x i)) by (intros i Hi; unfold q; rewrite wd_within by exact Hi; reflexivity). unfold rows5. cbn [sumf]. field. }
    assert (HD : dual rows5 (sa_cols fst snd (gco C2) [] [(CFin 2, 0%Z)] rows5) 0 q).
    { split; [cbn; lia|]. split.
      - exists [/ (3/10)]. split; [reflexivity|]. intros i _. unfold q, sa_cols. cbn [map app]. unfold lc. cbn. unfold Rdiv. ring.
      - intros k Hk0. cbn in Hk0. assert (k = 0%nat) by lia. subst k. rewrite ip_sym, Hip. unfold colx, sa_cols. cbn [map app nth]. rewrite !wd_within by (cbn; tauto). unfold wd. cbn. field. }
    destruct (ols_dual Z.eq_dec qr lstsq inv Hqr Hls Hinv _ _ _ _ _ _ _ _ _ Ho HD) as (Hv & _).
    assert (Hv2 : nth 0 (o_coef o) NaN = Fin v).
    { rewrite Hv. f_equal. rewrite Hip, !within5 by (cbn; tauto). unfold wd, v. cbn. field. }
    assert (HE : forall k, In k (sr_keys reg) -> sr_eff reg k = Fin v).
    { intros k Hin. rewrite EK in Hin. destruct Hin as [<-|[]]. unfold sr_eff, sr_at. rewrite EK. rewrite Hc. cbn. exact Hv2. }
    set (es := sa_iw sf ppf fst (gco C2) _ _ _ reg rows5) in *.
    assert (Hp : sa_post es <> []).
    { unfold es, sa_iw. replace (sa_rel_periods snd (gco C2) (sa_demo "never_treated" 0) rows5) with [0%Z] by (vm_compute; reflexivity).
      replace (sa_groups (gco C2) rows5) with [CFin 2] by (vm_compute; reflexivity).
      cbn [flat_map]. destruct (sa_weights _ _ _ _ _ _) as [|x l] eqn:E; [exfalso|cbn; discriminate].
      unfold sa_weights in E. replace (filter (fun gr => sr_has reg (gr, 0%Z)) [CFin 2]) with [CFin 2] in E.
      - destruct (Req_EM_T _ 0) as [E0|]; [|discriminate]. replace (sa_size fst (gco C2) rows5 (CFin 2)) with 1%nat in E0 by (vm_compute; reflexivity). cbn in E0. lra.
      - cbn. unfold sr_has, sr_at. rewrite EK. reflexivity. }
    rewrite Ha. refine (eq_trans (att_value sf ppf fst snd (gco C2) _ _ _ reg rows5 (fun _ => v) HE Hp) _). change (sa_iw sf ppf fst (gco C2) (sa_demo "never_treated" 0) (sa_groups (gco C2) rows5) (sa_rel_periods snd (gco C2) (sa_demo "never_treated" 0) rows5) reg rows5) with es.
    f_equal. destruct (overall_weights snd (gco C2) rows5 reg es) as [_ OW]. destruct (OW Hp) as (_ & O1 & _).
    rewrite (sumf_ext _ (fun p => sa_pw snd (gco C2) rows5 es (fst p) * v)).
    + rewrite sumf_scal_r, O1. ring.
    + intros [e [w ef]] Hin. cbn [fst snd]. apply filter_In in Hin as [Hin _]. destruct (iw_weights sf ppf fst (gco C2) _ _ _ _ _ _ _ _ Hin) as (_ & _ & _ & _ & _ & H1 & _).
      rewrite sumf_scal_r, H1. ring.
Qed.
(* adding 1 to the outcome of unit 3 moves the estimate *)
Theorem unit_effect_not_removed y : exists r r', fit y = Ok r /\ fit (fun i => y i + (if Z.eqb (fst i) 3 then 1 else 0)) = Ok r' /\ sa_att r' <> sa_att r.
Proof.
  destruct (fit5 y) as (r & H & E). destruct (fit5 (fun i => y i + (if Z.eqb (fst i) 3 then 1 else 0))) as (r' & H' & E'). exists r, r'.
  split; [exact H|]. split; [exact H'|]. rewrite E, E'. cbn [fst Z.eqb Pos.eqb]. intros X. injection X as X. lra.
Qed.
(* the complete panel of Sun_ex: unit and period effects *)
Theorem sa35_effects y s a b : s <> 0 -> exists r r',
  sa_fit qr lstsq inv pinv sf ppf fst snd (gco C35) y [] None (sa_demo "never_treated" 0) rows35 = Ok r /\
  sa_fit qr lstsq inv pinv sf ppf fst snd (gco C35) (fun i => s * y i + (a (fst i) + b (snd i))) [] None (sa_demo "never_treated" 0) rows35 = Ok r' /\ sa_scaled s r r'.
Proof.
  intros Hs. destruct (fit35 qr lstsq inv pinv sf ppf Hqr Hinv "never_treated" y) as (r & H & _). exists r.
  destruct (sa_unit_period_effects qr lstsq inv pinv sf ppf Hqr Hls Hinv fst snd (gco C35) [] None (sa_demo "never_treated" 0) rows35 y (fun i => s * y i + (a (fst i) + b (snd i))) s r 1 a b Hs) as (r' & H' & X).
  - rewrite (sample_all (gco C35) (sa_demo "never_treated" 0) rows35) by (intros i _; apply valid35). exact bal35.
  - reflexivity.
  - exact H.
  - exists r'. auto.
Qed.
End Ex.

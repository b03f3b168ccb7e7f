(* One treatment date: a concrete panel on which the estimators disagree (C132). *)
From Coq Require Import Reals Lra Lia.
From Verif Require Import Prelude Flt Stats_model Stats_proofs Linalg_model Linalg_proofs Linalg_vcov Linalg_thms Did_model Did_spec Did_proofs Did_equiv Within_proofs Multi_model Multi_proofs Multi_thms Bacon_model Bacon_proofs Bacon_thms Absorb_ex Boot_model Boot_proofs Staggered_model Staggered_proofs Staggered_est Staggered_thms Staggered_more Staggered_fit Sun_model Sun_proofs Sun_thms Sun_more Sun_cs Sun_inf Sun_ex One_proofs One_thms One_cs One_twfe.
From Coq Require Import Arith ZArith String List Permutation.
Import ListNotations.
Open Scope R_scope.

(* unit 1 is treated in period 3, units 2 and 3 never; periods 1 to 4; the treated unit's outcome grows with the square of time *)
Definition o_rows : list (Z * Z) := panel 3 4.
Definition o_C (a : Z) : coh := if Z.eqb a 1 then CFin 3 else CFin 0.
Definition o_y (i : Z * Z) : R := if Z.eqb (fst i) 1 then IZR (snd i * snd i) else 0.
Definition o_dU (a : Z) : R := ind (c_is (o_C a) 3).
Definition o_d (i : Z * Z) : R := o_dU (fst i).
Definition o_post (i : Z * Z) : R := ind (zmem (snd i) [3; 4]%Z).
Definition o_cfg : did_config (Z * Z) Z := {| c_robust := true; c_cluster := None; c_alpha := 1/20; c_action := "warn" |}.

Lemma o_bal : Within_proofs.balanced Z.eq_dec Z.eq_dec o_rows fst snd 1.
Proof. destruct (panel_bal 3 4) as [H|[H|H]]; [exact H|discriminate|discriminate]. Qed.
Lemma o_one i : In i o_rows -> c_never (gco o_C i) = true \/ gco o_C i = CFin 3.
Proof. intros _. unfold gco, o_C. destruct (Z.eqb (fst i) 1); auto. Qed.
Lemma o_value c : (forall i, In i o_rows -> Bool.eqb (c i) (zmem (snd i) [3; 4]%Z) = true) ->
  did_of_means o_rows o_d (fun i => ind (c i)) o_y = 10.
Proof.
  intros Hc. unfold o_d, o_dU. rewrite did_bool. cbv beta zeta.
  assert (E : forall x z, filter (fun i => Bool.eqb (c_is (o_C (fst i)) 3) x && Bool.eqb (c i) z) o_rows
    = filter (fun i : Z * Z => Bool.eqb (c_is (o_C (fst i)) 3) x && Bool.eqb (zmem (snd i) [3; 4]%Z) z) o_rows).
  { intros x z. apply filter_ext_in. intros i Hi. apply Hc, Bool.eqb_prop in Hi. rewrite Hi. reflexivity. }
  rewrite !E.
  replace (filter _ o_rows) with [(1, 3); (1, 4)]%Z at 1 by (vm_compute; reflexivity).
  replace (filter _ o_rows) with [(1, 1); (1, 2)]%Z at 1 by (vm_compute; reflexivity).
  replace (filter _ o_rows) with [(2, 3); (2, 4); (3, 3); (3, 4)]%Z at 1 by (vm_compute; reflexivity).
  replace (filter _ o_rows) with [(2, 1); (2, 2); (3, 1); (3, 2)]%Z at 1 by (vm_compute; reflexivity).
  unfold meanf, len, o_y. cbn. lra.
Qed.
Lemma o_late : did_of_means (filter (fun i => Z.leb (3 - 1) (snd i)) o_rows) (fun i => ind (c_is (gco o_C i) 3)) (fun i => ind (Z.leb 3 (snd i))) o_y = 17 / 2.
Proof.
  rewrite did_bool. cbv beta zeta. change (filter (fun i : Z * Z => Z.leb (3 - 1) (snd i)) o_rows) with [(1, 2); (1, 3); (1, 4); (2, 2); (2, 3); (2, 4); (3, 2); (3, 3); (3, 4)]%Z.
  cbn [filter gco o_C fst snd Z.eqb Pos.eqb c_is Bool.eqb andb Z.leb Z.compare Pos.compare Pos.compare_cont].
  unfold meanf, len, o_y. cbn. lra.
Qed.

Section Ex.
Variable qr : list (Z * Z) -> list (Z * Z -> R) -> list nat.
Variable lstsq : list (Z * Z) -> list (Z * Z -> R) -> (Z * Z -> R) -> list R.
Variable inv : list (Z * Z) -> list (Z * Z -> R) -> option (nat -> nat -> R).
Variable pinv : list (Z * Z) -> list (Z * Z -> R) -> nat -> nat -> R.
Variable sf : option Z -> fl -> fl.
Variable ppf : option Z -> R -> R.
Hypothesis Hqr : qr_ok qr.
Hypothesis Hls : lstsq_ok lstsq.
Hypothesis Hinv : inv_ok inv.

Theorem one_date_case qr2 lstsq2 inv2 logit : exists rd rm rs rc,
  did_fit Z.eq_dec Z.eq_dec qr lstsq inv pinv sf ppf o_cfg o_rows (fun i => Fin (o_y i)) (fun i => Fin (o_d i)) (fun i => Fin (o_post i)) [] [] [] = Ok rd /\
  mp_fit Z.eq_dec Z.eq_dec qr lstsq inv sf ppf o_cfg o_rows o_y o_d snd (Some [3; 4]%Z) None [] [] [] = Ok rm /\
  sa_fit qr lstsq inv pinv sf ppf fst snd (gco o_C) o_y [] None (sa_demo "never_treated" 0) o_rows = Ok rs /\
  cs_fit qr2 lstsq2 inv2 logit sf ppf o_rows fst snd (gco o_C) (fun i => Some (o_y i)) [] (demo_cfg "never_treated" 0 "reg" "varying") None None [] = Ok rc /\
  r_att rd = Fin 10 /\ mp_avg rm = Fin 10 /\ bo_twfe (bacon_fit o_rows fst snd (gco o_C) o_y true) = 10 /\
  sa_att rs = Fin (17 / 2) /\ cr_att rc = Fin (17 / 2).
Proof.
  assert (N34 : NoDup [3; 4]%Z) by (constructor; [intros [E|[]]; discriminate|constructor; [intros []|constructor]]).
  assert (I34 : incl [3; 4]%Z (map snd o_rows)) by (intros p [<-|[<-|[]]]; vm_compute; tauto).
  assert (R0 : In (2, 1)%Z o_rows /\ o_dU (fst (2, 1)%Z) = 0) by (split; [vm_compute; tauto|reflexivity]).
  assert (R1 : In (1, 1)%Z o_rows /\ o_dU (fst (1, 1)%Z) = 1) by (split; [vm_compute; tauto|reflexivity]).
  pose proof (panel_four_cells o_rows fst snd o_dU 1 [3; 4]%Z o_bal (conj N34 I34) (2, 1)%Z (1, 1)%Z R0 R1 (1, 1)%Z ltac:(discriminate) (proj1 R1) eq_refl) as F4.
  destruct (did_fit_defined Z.eq_dec Z.eq_dec qr lstsq inv pinv sf ppf Hqr Hls Hinv o_cfg o_rows (fun i => Fin (o_y i)) (fun i => Fin (o_d i)) (fun i => Fin (o_post i))) as (rd & se & Hd & _);
    [intros i _; eexists; reflexivity|intros i _; eexists; reflexivity|intros i _; eexists; reflexivity| | |exact F4|vm_compute; lia|discriminate|discriminate|].
  { intros i Hi. apply (zo_ind o_rows (fun i => c_is (o_C (fst i)) 3) i Hi). }
  { intros i Hi. apply (zo_ind o_rows (fun i => zmem (snd i) [3; 4]%Z) i Hi). }
  assert (Hset : mp_setup (data_periods o_rows snd) (Some [3; 4]%Z) None = Ok ([1; 2], [3; 4], 1)%Z) by (vm_compute; reflexivity).
  assert (Zd : zero_one o_rows o_d) by (intros i Hi; apply (zo_ind o_rows (fun i => c_is (o_C (fst i)) 3) i Hi)).
  destruct (pre_gap_value o_rows fst snd o_dU 1 [3; 4]%Z o_bal Zd (2, 1)%Z (1, 1)%Z R0 R1 o_y (1, 1)%Z (proj1 R1) eq_refl) as [_ Gd].
  destruct (mp_fit_defined Z.eq_dec Z.eq_dec qr lstsq inv sf ppf Hqr Hls Hinv o_cfg o_rows o_y o_d snd (Some [3; 4]%Z) None [1; 2]%Z [3; 4]%Z 1%Z Zd Hset) as (rm & Hm & _).
  { split; [exact N34|]. split; [|exact Gd]. intros q Hq.
    split; [apply (mcell_full o_rows fst snd o_dU 1 o_bal 0 (2, 1)%Z q (proj1 R0) (proj2 R0))|apply (mcell_full o_rows fst snd o_dU 1 o_bal 1 (1, 1)%Z q (proj1 R1) (proj2 R1))]; apply I34; exact Hq. }
  { vm_compute. lia. }
  { exact Logic.I. }
  { discriminate. }
  assert (V : forall i, In i o_rows -> valid_coh (gco o_C i) = true) by (intros i _; unfold gco, o_C; destruct (Z.eqb (fst i) 1); reflexivity).
  assert (ES : sa_sample (gco o_C) (sa_demo "never_treated" 0) o_rows = o_rows) by (apply sample_all; exact V).
  destruct (fit_succeeds qr lstsq inv pinv sf ppf Hqr Hinv fst snd (gco o_C) o_y [] None (sa_demo "never_treated" 0) o_rows) as (rs & Hs & _).
  { vm_compute. discriminate. }
  { left. reflexivity. }
  { rewrite ES. vm_compute. discriminate. }
  { rewrite ES. apply Nat.ltb_lt. vm_compute. reflexivity. }
  { rewrite ES. apply Nat.leb_le. vm_compute. reflexivity. }
  { rewrite ES; apply (sa_cols_nonzero _ fst snd _ [] _ (CFin 3, 0%Z) (1, 3)%Z (1, 2)%Z (3, 3)%Z (3, 2)%Z); try reflexivity; vm_compute; auto 30. }
  set (ccfg := demo_cfg "never_treated" 0 "reg" "varying").
  destruct (no_cov_total qr2 lstsq2 inv2 logit o_rows fst snd (gco o_C) (fun i => Some (o_y i)) [] ccfg eq_refl) as (l & Hl & _).
  destruct (cell_exists qr2 lstsq2 inv2 logit o_rows fst snd (gco o_C) (fun i => Some (o_y i)) [] ccfg (CFin 3) 3 2 [1%Z] [2%Z; 3%Z] l eq_refl Hl) as (e3 & He3 & _);
    [reflexivity|vm_compute; reflexivity|vm_compute; reflexivity|vm_compute; reflexivity|vm_compute; reflexivity|discriminate|discriminate|vm_compute; tauto|vm_compute; tauto|].
  destruct (fit_ok qr2 lstsq2 inv2 logit sf ppf o_rows fst snd (gco o_C) (fun i => Some (o_y i)) [] ccfg None None [] l) as (rc & Hc & _);
    [vm_compute; discriminate|vm_compute; reflexivity|exact Hl|intros E; rewrite E in He3; contradiction|].
  exists rd, rm, rs, rc. do 4 (split; [assumption|]).
  destruct (did_one_date Z.eq_dec Z.eq_dec qr lstsq inv pinv sf ppf Hqr Hls o_cfg o_cfg o_rows o_y fst snd o_dU 1 [3; 4]%Z None rd rm (2, 1)%Z (1, 1)%Z o_bal
    (proj1 R0) (proj2 R0) (proj1 R1) (proj2 R1) N34 Hd Hm) as [A1 A2].
  assert (E10 : r_att rd = Fin 10).
  { rewrite A1. f_equal. apply o_value. intros i _. destruct (zmem (snd i) [3; 4]%Z); reflexivity. }
  split; [exact E10|]. split; [rewrite A2; exact E10|]. split.
  - destruct (bacon_one_date o_rows fst snd (gco o_C) 1 o_C 3 o_bal (fun _ _ => eq_refl) ltac:(lia) o_one) with (y := o_y) (exact := true) as [B _].
    + apply (four_bool o_rows (fun i => c_is (gco o_C i) 3) (fun i => Z.leb 3 (snd i))). intros [|] [|]; vm_compute; discriminate.
    + rewrite B. apply (o_value (fun i => Z.leb 3 (snd i))). intros i Hi.
      assert (Q : forallb (fun i : Z * Z => Bool.eqb (Z.leb 3 (snd i)) (zmem (snd i) [3; 4]%Z)) o_rows = true) by (vm_compute; reflexivity).
      rewrite forallb_forall in Q. exact (Q i Hi).
  - destruct (sun_one_date qr lstsq inv pinv sf ppf Hqr Hls qr2 lstsq2 inv2 logit fst snd (gco o_C) o_y None o_rows o_C 3 o_bal (fun _ _ => eq_refl) ltac:(lia) o_one
      (sa_demo "never_treated" 0) ccfg None None [] rs rc (1, 1)%Z eq_refl eq_refl eq_refl (proj1 R1) eq_refl) as [S1 S2]; try assumption.
    + vm_compute. tauto.
    + exists 3%Z. split; [vm_compute; tauto|lia].
    + intros j Hj _. vm_compute in Hj. repeat (destruct Hj as [<-|Hj]; [cbn; lia|]). destruct Hj.
    + rewrite S1, S2, o_late. split; reflexivity.
Qed.
End Ex.

(* The panel of C61_case (18 rows, 10 interactions) twice over in SunAbraham. *)
From Coq Require Import Reals Lra Lia.
From Verif Require Import Prelude Flt Stats_model Stats_proofs Linalg_model Linalg_proofs Linalg_vcov Linalg_thms Linalg_dual Did_model Did_spec Did_proofs Did_equiv Within_proofs Multi_model Multi_proofs Multi_thms
  Boot_model Boot_proofs Bacon_model Bacon_proofs Bacon_thms Staggered_model Staggered_proofs Staggered_est Staggered_thms Staggered_more Staggered_fit Sun_model Sun_proofs Sun_thms Sun_more Sun_cs Sun_inf Sun_boot Sun_ex Sun_equiv Sun_rows Rep_proofs Rep_multi Rep_sun.
From Coq Require Import Arith ZArith String List.
Import ListNotations.
Open Scope R_scope.

Section Ex.
Variable qr : list (Z * Z) -> list (Z * Z -> R) -> list nat.
Variable lstsq : list (Z * Z) -> list (Z * Z -> R) -> (Z * Z -> R) -> list R.
Variable inv : list (Z * Z) -> list (Z * Z -> R) -> option (nat -> nat -> R).
Variable pinv : list (Z * Z) -> list (Z * Z -> R) -> nat -> nat -> R.
Variable sf : option Z -> fl -> fl.
Variable ppf : option Z -> R -> R.
Hypothesis Hqr : qr_ok qr.
Hypothesis Hls : lstsq_ok lstsq.
Hypothesis Hinv : inv_ok inv.
Notation fit35' rows y := (sa_fit qr lstsq inv pinv sf ppf fst snd (gco C35) y [] None (sa_demo "never_treated" 0) rows).

Theorem sun_copies35 y : exists a b, fit35' rows35 y = Ok a /\ fit35' (copies 2 rows35) y = Ok b /\
  indep (sa_sample (gco C35) (sa_demo "never_treated" 0) rows35) (sun_cols fst snd (gco C35) [] rows35 (sa_demo "never_treated" 0)) /\
  sa_att b = sa_att a /\ sa_se b = fmul (Fin (sqrt (140 / 221))) (sa_se a) /\ sa_rn_obs b = 36%nat /\ sa_rn_treated b = 2%nat.
Proof.
  destruct (fit35 qr lstsq inv pinv sf ppf Hqr Hinv "never_treated" y) as (a & Ha & _ & Href).
  assert (ES : sa_sample (gco C35) (sa_demo "never_treated" 0) rows35 = rows35) by (apply sample_all; intros i _; apply valid35).
  assert (Hi : indep (sa_sample (gco C35) (sa_demo "never_treated" 0) rows35) (sun_cols fst snd (gco C35) [] rows35 (sa_demo "never_treated" 0))).
  { unfold sun_cols. rewrite ES. destruct (sa_fit_inv qr lstsq inv pinv sf ppf fst snd (gco C35) y [] None _ rows35 a Ha) as (Hn & _ & reg & Hs & _). rewrite ES in Hs.
    destruct (saturated_inv qr lstsq inv pinv Hls fst snd (gco C35) y [] None _ _ _ _ _ Hs) as (Ek & _). rewrite <- Ek.
    exact (fit_full_rank qr lstsq inv pinv Hls fst snd (gco C35) y [] None rows35 C35 1 bal35 (gi35 C35) _ reg eq_refl Href Hn Hs). }
  assert (L : length (sun_cols fst snd (gco C35) [] rows35 (sa_demo "never_treated" 0)) = 10%nat) by (unfold sun_cols; rewrite ES; unfold sa_cols; rewrite app_length, !map_length; vm_compute; reflexivity).
  assert (L18 : length rows35 = 18%nat) by reflexivity.
  pose proof (sun_copies qr lstsq inv pinv sf ppf Hqr Hls Hinv fst snd (gco C35) y [] None rows35 (sa_demo "never_treated" 0) 2 ltac:(lia) Hi ltac:(rewrite L, ES, L18; lia)) as H.
  rewrite Ha in H. destruct (fit35' (copies 2 rows35) y) as [b|]; [|contradiction]. cbv zeta in H. destruct H as (_ & _ & H1 & H2 & _ & _ & H3 & _ & H4).
  exists a, b. split; [exact Ha|]. split; [reflexivity|]. split; [exact Hi|]. split; [exact H1|].
  unfold sun_factor in H2. rewrite L, ES, L18 in H2. replace (rep_factor true 2 18 10) with (140 / 221) in H2 by (unfold rep_factor; cbn [INR]; field).
  split; [exact H2|]. destruct (sa_fit_inv qr lstsq inv pinv sf ppf fst snd (gco C35) y [] None _ rows35 a Ha) as (_ & _ & reg & _ & Hr).
  cbv zeta in Hr. destruct Hr as (_ & _ & _ & _ & _ & _ & _ & _ & B & _ & D & _). rewrite H3, H4, B, D. split; reflexivity.
Qed.
End Ex.

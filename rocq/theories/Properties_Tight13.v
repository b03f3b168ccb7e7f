(* MultiPeriodDiD on repeated data (C131); when the penalty search of TROP stops (C79). *)
From Coq Require Import Reals.
From Verif Require Import Prelude Flt Linalg_model Linalg_proofs Linalg_vcov Linalg_thms Linalg_dual Did_model Did_proofs Multi_model Multi_proofs Multi_thms Rep_proofs Rep_multi Boot_model Boot_proofs Bacon_model Staggered_model Staggered_fit Sun_model Sun_ex Rep_sun Rep_sunex Trop_model Trop_sel Tight13_thms.
From Coq Require Import Arith ZArith String List.
Import ListNotations.
Open Scope R_scope.

Section Multi.
Context {I K G : Type} (keq : forall x y : K, {x = y} + {x <> y}) (geq : forall x y : G, {x = y} + {x <> y}).
Variable qr : list I -> list (I -> R) -> list nat.
Variable lstsq : list I -> list (I -> R) -> (I -> R) -> list R.
Variable inv : list I -> list (I -> R) -> option (nat -> nat -> R).
Variable sf : option Z -> fl -> fl.
Variable ppf : option Z -> R -> R.
Hypothesis Hqr : qr_ok qr.
Hypothesis Hls : lstsq_ok lstsq.
Hypothesis Hinv : inv_ok inv.
Notation mfit := (mp_fit keq geq qr lstsq inv sf ppf).
Notation mp_cols := (mp_cols geq).
Theorem C131_multi (cfg : did_config I K) k rows y d t post ref covs dums absorb : (1 <= k)%nat ->
  let cols := mp_cols rows y d t post ref covs dums absorb in
  indep rows cols -> (length cols < length rows)%nat ->
  match mfit cfg rows y d t post ref covs dums absorb, mfit cfg (copies k rows) y d t post ref covs dums absorb with
  | Ok a, Ok b =>
      let s := Fin (sqrt (rep_factor (match c_cluster cfg with Some _ => true | None => false end) k (length rows) (length cols))) in
      map (fun e => (pe_period e, pe_effect e, pe_se e)) (mp_effects b) = map (fun e => (pe_period e, pe_effect e, fmul s (pe_se e))) (mp_effects a) /\
      mp_avg b = mp_avg a /\ mp_avg_se b = fmul s (mp_avg_se a) /\
      mp_coef b = mp_coef a /\ mp_resid b = mp_resid a /\ mp_pre b = mp_pre a /\ mp_post b = mp_post a /\ mp_ref b = mp_ref a /\
      mp_n_obs b = (k * mp_n_obs a)%nat /\ mp_n_treated b = INR k * mp_n_treated a /\ mp_n_control b = INR k * mp_n_control a
  | Err e, Err f => e = f
  | _, _ => False
  end.
Proof. exact (mp_copies keq geq qr lstsq inv sf ppf Hqr Hls Hinv cfg k rows y d t post ref covs dums absorb). Qed.
End Multi.
(* the panel of C13_case twice over *)
Theorem C131_multi_case robust y : exists a b, exm_fit (exm_cfg robust None) (seq 0 12) y exm_d exm_t None None [] [] [] = Ok a /\
  exm_fit (exm_cfg robust None) (copies 2 (seq 0 12)) y exm_d exm_t None None [] [] [] = Ok b /\
  indep (seq 0 12) (mp_cols Nat.eq_dec (seq 0 12) y exm_d exm_t None None [] [] []) /\
  mp_avg b = mp_avg a /\ mp_avg_se b = fmul (Fin (sqrt (1/3))) (mp_avg_se a) /\ mp_n_obs b = 24%nat.
Proof. exact (exm_copies robust y). Qed.

Section Sun.
Context {I : Type}.
Variable qr : list I -> list (I -> R) -> list nat.
Variable lstsq : list I -> list (I -> R) -> (I -> R) -> list R.
Variable inv : list I -> list (I -> R) -> option (nat -> nat -> R).
Variable pinv : list I -> list (I -> R) -> nat -> nat -> R.
Variable sf : option Z -> fl -> fl.
Variable ppf : option Z -> R -> R.
Hypothesis Hqr : qr_ok qr.
Hypothesis Hls : lstsq_ok lstsq.
Hypothesis Hinv : inv_ok inv.
Variables (u t : I -> Z) (g : I -> coh) (y : I -> R) (covs : list (I -> R)) (cluster : option (I -> Z)).
Notation fit := (sa_fit qr lstsq inv pinv sf ppf u t g y covs cluster).

Variables (rows : list I) (cfg : sa_config) (k : nat).
Hypothesis Hk : (1 <= k)%nat.
Notation sun_cols := (sun_cols u t g covs rows cfg).
Notation sun_factor := (sun_factor u t g covs rows cfg k).
Theorem C131_sun : indep (sa_sample g cfg rows) sun_cols -> (length sun_cols < length (sa_sample g cfg rows))%nat ->
  match fit cfg rows, fit cfg (copies k rows) with
  | Ok a, Ok b => let s := Fin (sqrt sun_factor) in
      map (fun p => (fst p, se_eff (snd p), se_se (snd p), se_n (snd p))) (sa_es b) = map (fun p => (fst p, se_eff (snd p), fmul s (se_se (snd p)), se_n (snd p))) (sa_es a) /\
      sa_cweights b = sa_cweights a /\ sa_att b = sa_att a /\ sa_se b = fmul s (sa_se a) /\
      sa_coh_effects b = map (fun x => (fst x, (fst (fst (snd x)), fmul s (snd (fst (snd x))), snd (snd x)))) (sa_coh_effects a) /\
      sa_rgroups b = sa_rgroups a /\ sa_rn_treated b = sa_rn_treated a /\ sa_rn_control b = sa_rn_control a /\ sa_rn_obs b = (k * sa_rn_obs a)%nat
  | Err e, Err f => e = f
  | _, _ => False
  end.
Proof. exact (sun_copies qr lstsq inv pinv sf ppf Hqr Hls Hinv u t g y covs cluster rows cfg k Hk). Qed.
End Sun.
Theorem C131_sun_factor {I} (u t : I -> Z) (g : I -> coh) covs rows cfg k :
  sun_cols u t g covs rows cfg = sa_cols u t g covs (sa_keys t g (sa_groups g rows) (sa_rel_periods t g cfg rows) (sa_sample g cfg rows)) (sa_sample g cfg rows) /\
  sun_factor u t g covs rows cfg k = rep_factor true k (length (sa_sample g cfg rows)) (length (sun_cols u t g covs rows cfg)).
Proof. split; reflexivity. Qed.
(* the panel of C61_case twice over *)
Theorem C131_sun_case y : exists a b, sa_fit (@gs_dropped (Z * Z)) (@gs (Z * Z)) (@gs_inv (Z * Z)) (fun _ _ _ _ => 0) toy_sf toy_ppf fst snd (gco C35) y [] None (sa_demo "never_treated" 0) rows35 = Ok a /\ sa_fit (@gs_dropped (Z * Z)) (@gs (Z * Z)) (@gs_inv (Z * Z)) (fun _ _ _ _ => 0) toy_sf toy_ppf fst snd (gco C35) y [] None (sa_demo "never_treated" 0) (copies 2 rows35) = Ok b /\
  indep (sa_sample (gco C35) (sa_demo "never_treated" 0) rows35) (sun_cols fst snd (gco C35) [] rows35 (sa_demo "never_treated" 0)) /\
  sa_att b = sa_att a /\ sa_se b = fmul (Fin (sqrt (140 / 221))) (sa_se a) /\ sa_rn_obs b = 36%nat /\ sa_rn_treated b = 2%nat.
Proof. exact (sun_copies35 (@gs_dropped (Z * Z)) (@gs (Z * Z)) (@gs_inv (Z * Z)) (fun _ _ _ _ => 0) toy_sf toy_ppf (@gs_dropped_ok (Z * Z)) (@gs_ok (Z * Z)) (@gs_inv_ok (Z * Z)) y). Qed.

Section Stop.
Variable score : lam -> lam -> lam -> option R.
Variables gt gu gn : list lam.
Hypothesis Hgt : gt <> [].
Hypothesis Hgu : gu <> [].
Hypothesis Hgn : gn <> [].
Notation rounds := (rounds score gt gu gn).
Notation sc := (sc score).
Theorem C79_stopping : exists p n, 
  first_best (fun v => score v (Some 0) None) gt (fst (fst (p 0%nat))) /\ first_best (fun v => score (Some 0) v None) gu (snd (fst (p 0%nat))) /\
  first_best (fun v => score None (Some 0) v) gn (snd (p 0%nat)) /\
  rounds p n /\ p n = two_stage score gt gu gn /\ (1 <= n <= 10)%nat /\
  (forall i, (0 < i)%nat -> (S i < n)%nat -> ~ within6 (sc (p (S i))) (sc (p i))) /\
  (n = 10%nat \/ (2 <= n)%nat /\ within6 (sc (p n)) (sc (p (n - 1)%nat))).
Proof. exact (two_stage_stops score gt gu gn Hgt Hgu Hgn). Qed.
End Stop.
Theorem C79_stopping_case : two_stage sq_score [Some 0; Some 1] [Some 0; Some 1] [Some 0; Some 1] = (Some 1, Some 0, Some 0).
Proof. exact sq_case. Qed.
Print Assumptions C131_multi.
Print Assumptions C131_multi_case.
Print Assumptions C131_sun.
Print Assumptions C131_sun_factor.
Print Assumptions C131_sun_case.
Print Assumptions C79_stopping.
Print Assumptions C79_stopping_case.

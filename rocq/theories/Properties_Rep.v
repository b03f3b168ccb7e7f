(* Fitting on the data set repeated k times (C131). *)
From Coq Require Import Reals.
From Verif Require Import Prelude Flt Linalg_model Linalg_proofs Linalg_vcov Linalg_thms Linalg_dual Did_model Did_spec Did_proofs Did_equiv Absorb_ex
  Twfe_model Bacon_model Multi_model Staggered_model Synth_model Sdid_model Trop_model Rep_proofs Rep_thms Rep_ex.
From Coq Require Import Arith ZArith String List.
Import ListNotations.
Open Scope R_scope.

Section Reg.
Context {I K : Type} (keq : forall x y : K, {x = y} + {x <> y}).
Variable qr : list I -> list (I -> R) -> list nat.
Variable lstsq : list I -> list (I -> R) -> (I -> R) -> list R.
Variable inv : list I -> list (I -> R) -> option (nat -> nat -> R).
Variable pinv : list I -> list (I -> R) -> nat -> nat -> R.
Hypothesis Hqr : qr_ok qr.
Hypothesis Hls : lstsq_ok lstsq.
Hypothesis Hinv : inv_ok inv.
Notation lfit := (linreg_fit keq qr lstsq inv pinv).
Theorem C131_regression robust cluster action nabs k rows cols y : (1 <= k)%nat -> indep rows cols -> (length cols < length rows)%nat ->
  rep_reg (rep_factor (match cluster with Some _ => true | None => false end) k (length rows) (length cols)) k
    (lfit robust cluster action nabs rows cols y) (lfit robust cluster action nabs (copies k rows) cols y) (length rows) (length cols) nabs.
Proof. exact (linreg_copies keq qr lstsq inv pinv Hqr Hls Hinv robust cluster action nabs k rows cols y). Qed.
End Reg.
Section Did.
Context {I K G : Type} (keq : forall x y : K, {x = y} + {x <> y}) (geq : forall x y : G, {x = y} + {x <> y}).
Variable qr : list I -> list (I -> R) -> list nat.
Variable lstsq : list I -> list (I -> R) -> (I -> R) -> list R.
Variable inv : list I -> list (I -> R) -> option (nat -> nat -> R).
Variable pinv : list I -> list (I -> R) -> nat -> nat -> R.
Variable sf : option Z -> fl -> fl.
Variable ppf : option Z -> R -> R.
Hypothesis Hqr : qr_ok qr.
Hypothesis Hls : lstsq_ok lstsq.
Hypothesis Hinv : inv_ok inv.
Notation did_cols := (Rep_thms.did_cols geq).
Theorem C131_did (cfg : did_config I K) k rows y d t covs dums absorb : (1 <= k)%nat ->
  let cols := did_cols rows y d t covs dums absorb in
  indep rows cols -> (length cols < length rows)%nat ->
  match did_fit keq geq qr lstsq inv pinv sf ppf cfg rows y d t covs dums absorb,
        did_fit keq geq qr lstsq inv pinv sf ppf cfg (copies k rows) y d t covs dums absorb with
  | Ok a, Ok b =>
      r_att b = r_att a /\ r_coef b = r_coef a /\ r_resid b = r_resid a /\ r_fitted b = r_fitted a /\ r_r2 b = r_r2 a /\
      r_se b = fmul (Fin (sqrt (rep_factor (match c_cluster cfg with Some _ => true | None => false end) k (length rows) (length cols)))) (r_se a) /\
      r_n_obs b = (k * r_n_obs a)%nat /\ r_n_treated b = INR k * r_n_treated a /\ r_n_control b = INR k * r_n_control a
  | Err e, Err f => e = f
  | _, _ => False
  end.
Proof. exact (did_copies keq geq qr lstsq inv pinv sf ppf Hqr Hls Hinv cfg k rows y d t covs dums absorb). Qed.
End Did.
Section Twfe.
Context {I U : Type} (ueq : forall x y : U, {x = y} + {x <> y}).
Variable qr : list I -> list (I -> R) -> list nat.
Variable lstsq : list I -> list (I -> R) -> (I -> R) -> list R.
Variable inv : list I -> list (I -> R) -> option (nat -> nat -> R).
Variable pinv : list I -> list (I -> R) -> nat -> nat -> R.
Variable sf : option Z -> fl -> fl.
Variable ppf : option Z -> R -> R.
Hypothesis Hqr : qr_ok qr.
Hypothesis Hls : lstsq_ok lstsq.
Hypothesis Hinv : inv_ok inv.
Theorem C131_twfe cluster alpha action k rows y d tm u covs : (1 <= k)%nat ->
  let cols := twfe_design d tm (map (within ueq Req_EM_T rows u tm) covs) in
  indep rows cols -> (length cols < length rows)%nat ->
  match twfe_fit ueq qr lstsq inv pinv sf ppf cluster alpha action rows y d tm u covs,
        twfe_fit ueq qr lstsq inv pinv sf ppf cluster alpha action (copies k rows) y d tm u covs with
  | Ok a, Ok b =>
      tw_att b = tw_att a /\ tw_resid b = tw_resid a /\ tw_r2 b = tw_r2 a /\
      tw_se b = fmul (Fin (sqrt (rep_factor true k (length rows) (length cols)))) (tw_se a) /\
      tw_n_obs b = (k * tw_n_obs a)%nat /\ tw_n_treated b = tw_n_treated a /\ tw_n_control b = tw_n_control a
  | Err e, Err f => e = f
  | _, _ => False
  end.
Proof. exact (twfe_copies ueq qr lstsq inv pinv sf ppf Hqr Hls Hinv cluster alpha action k rows y d tm u covs). Qed.
End Twfe.
Theorem C131_independent_shrinks k n p : (1 <= k)%nat -> (p < n)%nat -> 0 < rep_factor false k n p <= 1 / INR k.
Proof. exact (iid_factor k n p). Qed.
Theorem C131_clustered_stays k n p : (1 <= k)%nat -> (1 <= p)%nat -> (p < n)%nat -> (INR n - INR p) / (INR n - 1) <= rep_factor true k n p <= 1.
Proof. exact (cluster_factor k n p). Qed.
Section Bacon.
Context {I : Type}.
Variables (rows : list I) (u t : I -> Z) (g : I -> coh) (y : I -> R) (k : nat).
Hypothesis Hk : (1 <= k)%nat.
Notation rr := (copies k rows).
Theorem C131_bacon exact :
  let a := bacon_fit rows u t g y exact in let b := bacon_fit rr u t g y exact in
  bo_twfe b = bo_twfe a /\ bo_comparisons b = bo_comparisons a /\ bo_weights b = bo_weights a /\ bo_averages b = bo_averages a /\
  bo_n_groups b = bo_n_groups a /\ bo_n_never b = bo_n_never a /\ bo_groups b = bo_groups a /\ bo_error b = bo_error a /\
  bo_unbalanced b = bo_unbalanced a /\ bo_nobs b = (k * bo_nobs a)%nat.
Proof. exact (bacon_copies rows u t g y k Hk exact). Qed.
End Bacon.
Section Pivot.
Context {I : Type}.
Variables (rows : list I) (u t : I -> Z) (k : nat).
Hypothesis Hk : (2 <= k)%nat.
Theorem C131_callaway_refuses qr lstsq inv logit sf ppf g y covs cfg agg bal ws :
  cs_fit qr lstsq inv logit sf ppf (copies k rows) u t g y covs cfg agg bal ws = Err ValueError.
Proof. exact (cs_copies rows u t k Hk qr lstsq inv logit sf ppf g y covs cfg agg bal ws). Qed.
Theorem C131_synthetic_refuses be qr lstsq inv sf z d cfg y covs post draws perms :
  is_ok (sd_fit be qr lstsq inv sf z (copies k rows) u t d cfg y covs post draws perms) = false.
Proof. exact (sd_copies rows u t k Hk be qr lstsq inv sf z d cfg y covs post draws perms). Qed.
Theorem C131_trop_refuses svd order score sf ppf cfg y d name draws : rows <> [] -> trop_fit_rows svd order score sf ppf cfg (copies k rows) u t y d name draws = TErr EDuplicate.
Proof. exact (trop_copies rows u t k Hk svd order score sf ppf cfg y d name draws). Qed.
End Pivot.
Theorem C131_case : exists a b c e,
  a_fit (a_cfg None) p_rows p_y p_d p_t [] [] [] = Ok a /\ a_fit (a_cfg None) (copies 2 p_rows) p_y p_d p_t [] [] [] = Ok b /\
  a_fit (a_cfg (Some p_g)) p_rows p_y p_d p_t [] [] [] = Ok c /\ a_fit (a_cfg (Some p_g)) (copies 2 p_rows) p_y p_d p_t [] [] [] = Ok e /\
  r_att b = r_att a /\ r_att e = r_att c /\ r_n_obs b = 16%nat /\
  r_se b = fmul (Fin (sqrt (1/3))) (r_se a) /\ r_se e = fmul (Fin (sqrt (5/7))) (r_se c).
Proof. exact rep_case. Qed.
Print Assumptions C131_regression.
Print Assumptions C131_did.
Print Assumptions C131_twfe.
Print Assumptions C131_independent_shrinks.
Print Assumptions C131_clustered_stays.
Print Assumptions C131_bacon.
Print Assumptions C131_callaway_refuses.
Print Assumptions C131_synthetic_refuses.
Print Assumptions C131_trop_refuses.
Print Assumptions C131_case.

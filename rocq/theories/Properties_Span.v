(* Covariates matter only through the space they span (C113). *)
From Coq Require Import Reals.
From Verif Require Import Prelude Flt Linalg_model Linalg_proofs Linalg_vcov Linalg_thms Linalg_dual Linalg_rank Linalg_span Did_model Did_spec Did_proofs Did_equiv Did_more Twfe_model Within_proofs Twfe_proofs Absorb_thms Absorb_ex Span_thms Span_ex.
From Coq Require Import Arith ZArith String List.
Import ListNotations.
Open Scope R_scope.

Section Fit.
Context {I K G : Type} (keq : forall x y : K, {x = y} + {x <> y}) (geq : forall x y : G, {x = y} + {x <> y}).
Variable qr : list I -> list (I -> R) -> list nat.
Variable lstsq : list I -> list (I -> R) -> (I -> R) -> list R.
Variable inv : list I -> list (I -> R) -> option (nat -> nat -> R).
Variable pinv : list I -> list (I -> R) -> nat -> nat -> R.
Variable sf : option Z -> fl -> fl.
Variable ppf : option Z -> R -> R.
Hypothesis Hqr : qr_ok qr.
Hypothesis Hls : lstsq_ok lstsq.
Hypothesis Hinv : inv_ok inv.
Notation fit := (did_fit keq geq qr lstsq inv pinv sf ppf).
Notation fR x := (fun i => toR (x i)).
(* C113 *)
Theorem C113_frisch_waugh cfg rows y d t covs dums r :
  fit cfg rows y d t covs dums [] = Ok r -> ~ span rows (main_cols (fR d) (fR t) (map (fun c => fR c) covs ++ dums)) (inter (fR d) (fR t)) ->
  let e := partial_out rows (main_cols (fR d) (fR t) (map (fun c => fR c) covs ++ dums)) (inter (fR d) (fR t)) in
  0 < ip rows e e /\ r_att r = Fin (ip rows e (fR y) / ip rows e e).
Proof. eapply did_fwl; eauto. Qed.
Theorem C113_same_space cfg rows y d t covs covs' dums dums' r r' :
  fit cfg rows y d t covs dums [] = Ok r -> fit cfg rows y d t covs' dums' [] = Ok r' ->
  same_span rows (main_cols (fR d) (fR t) (map (fun c => fR c) covs ++ dums)) (main_cols (fR d) (fR t) (map (fun c => fR c) covs' ++ dums')) ->
  ~ span rows (main_cols (fR d) (fR t) (map (fun c => fR c) covs ++ dums)) (inter (fR d) (fR t)) ->
  r_att r = r_att r' /\ r_se r = r_se r' /\ r_t r = r_t r' /\ r_p r = r_p r' /\ r_ci r = r_ci r' /\ r_signif r = r_signif r' /\ r_r2 r = r_r2 r' /\
  n_reported (r_coef r) = n_reported (r_coef r') /\ (forall i, In i rows -> r_resid r i = r_resid r' i) /\ (forall i, In i rows -> r_fitted r i = r_fitted r' i).
Proof. eapply did_span; eauto. Qed.
Theorem C113_units_of_covariate cfg rows y d t x x' covs a b r r' :
  a <> 0 -> (forall i, In i rows -> toR (x' i) = a * toR (x i) + b) ->
  fit cfg rows y d t (x :: covs) [] [] = Ok r -> fit cfg rows y d t (x' :: covs) [] [] = Ok r' ->
  ~ span rows (main_cols (fR d) (fR t) (map (fun c => fR c) (x :: covs))) (inter (fR d) (fR t)) ->
  r_att r = r_att r' /\ r_se r = r_se r' /\ r_t r = r_t r' /\ r_p r = r_p r' /\ r_ci r = r_ci r' /\ r_r2 r = r_r2 r'.
Proof. eapply did_rescaled_covariate; eauto. Qed.
Theorem C113_base_category cfg rows y d t covs g k0 ks k1 ks' r r' :
  NoDup (k0 :: ks) -> NoDup (k1 :: ks') -> (forall i, In i rows -> In (g i) (k0 :: ks)) -> (forall i, In i rows -> In (g i) (k1 :: ks')) ->
  fit cfg rows y d t covs (dummies geq g ks) [] = Ok r -> fit cfg rows y d t covs (dummies geq g ks') [] = Ok r' ->
  ~ span rows (main_cols (fR d) (fR t) (map (fun c => fR c) covs ++ dummies geq g ks)) (inter (fR d) (fR t)) ->
  r_att r = r_att r' /\ r_se r = r_se r' /\ r_t r = r_t r' /\ r_p r = r_p r' /\ r_ci r = r_ci r' /\ r_r2 r = r_r2 r'.
Proof. eapply did_base_category; eauto. Qed.
End Fit.
Section Two.
Context {I U : Type} (ueq : forall x y : U, {x = y} + {x <> y}).
Variable qr : list I -> list (I -> R) -> list nat.
Variable lstsq : list I -> list (I -> R) -> (I -> R) -> list R.
Variable inv : list I -> list (I -> R) -> option (nat -> nat -> R).
Variable pinv : list I -> list (I -> R) -> nat -> nat -> R.
Variable sf : option Z -> fl -> fl.
Variable ppf : option Z -> R -> R.
Hypothesis Hqr : qr_ok qr.
Hypothesis Hls : lstsq_ok lstsq.
Hypothesis Hinv : inv_ok inv.
Notation tfit := (twfe_fit ueq qr lstsq inv pinv sf ppf).
Theorem C113_twfe_same_space cluster alpha action rows y d tm u covs covs' r r' :
  let A := fun cs => (fun _ : I => 1) :: map (within ueq Req_EM_T rows u tm) cs in
  tfit cluster alpha action rows y d tm u covs = Ok r -> tfit cluster alpha action rows y d tm u covs' = Ok r' ->
  same_span rows (A covs) (A covs') -> ~ span rows (A covs) (inter d tm) ->
  tw_att r = tw_att r' /\ tw_se r = tw_se r' /\ tw_t r = tw_t r' /\ tw_p r = tw_p r' /\ tw_ci r = tw_ci r' /\ tw_df r = tw_df r' /\ tw_r2 r = tw_r2 r' /\
  forall i, In i rows -> tw_resid r i = tw_resid r' i.
Proof. eapply twfe_span; eauto. Qed.
Theorem C113_twfe_units_of_covariate cluster alpha action rows y d tm u x x' covs a b r r' :
  a <> 0 -> (forall i, In i rows -> x' i = a * x i + b) ->
  tfit cluster alpha action rows y d tm u (x :: covs) = Ok r -> tfit cluster alpha action rows y d tm u (x' :: covs) = Ok r' ->
  ~ span rows ((fun _ => 1) :: map (within ueq Req_EM_T rows u tm) (x :: covs)) (inter d tm) ->
  tw_att r = tw_att r' /\ tw_se r = tw_se r' /\ tw_t r = tw_t r' /\ tw_p r = tw_p r' /\ tw_ci r = tw_ci r' /\ tw_df r = tw_df r' /\ tw_r2 r = tw_r2 r'.
Proof. eapply twfe_rescaled_covariate; eauto. Qed.
End Two.
Theorem C113_twfe_identified {I U} (ueq : forall x y : U, {x = y} + {x <> y}) rows (u : I -> U) (d tm : I -> R) m covs a b :
  Within_proofs.balanced ueq Req_EM_T rows u tm m -> In a (map u rows) -> In b (map u rows) ->
  (forall i, In i rows -> u i = a -> d i * tm i = 0) -> (forall i, In i rows -> u i = b -> 0 <= d i * tm i) -> (exists i, In i rows /\ u i = b /\ 0 < d i * tm i) ->
  ~ span rows ((fun _ => 1) :: map (within ueq Req_EM_T rows u tm) covs) (inter d tm).
Proof. apply twfe_identified. Qed.
Theorem C113_base_category_case : exists r r',
  a_fit (a_cfg None) b_rows b_y b_d b_t [] (dummies Nat.eq_dec b_g [1; 2]%nat) [] = Ok r /\ a_fit (a_cfg None) b_rows b_y b_d b_t [] (dummies Nat.eq_dec b_g [0; 1]%nat) [] = Ok r' /\
  r_att r = Fin 4 /\ r_att r' = Fin 4 /\ r_se r = r_se r'.
Proof. exact base_category_case. Qed.
Theorem C113_units_case : exists r r', a_fit (a_cfg None) b_rows b_y b_d b_t [b_x] [] [] = Ok r /\ a_fit (a_cfg None) b_rows b_y b_d b_t [b_x'] [] [] = Ok r' /\
  r_att r = r_att r' /\ r_se r = r_se r' /\ r_p r = r_p r'.
Proof. exact covariate_units_case. Qed.
Theorem C113_twfe_units_case : exists r r', tw_fit_cov (fun i => INR (fst i * snd i)) = Ok r /\ tw_fit_cov (fun i => 2 * INR (fst i * snd i) + 3) = Ok r' /\
  tw_att r = tw_att r' /\ tw_se r = tw_se r' /\ tw_p r = tw_p r'.
Proof. exact twfe_units_case. Qed.
Print Assumptions C113_frisch_waugh.
Print Assumptions C113_same_space.
Print Assumptions C113_units_of_covariate.
Print Assumptions C113_base_category.
Print Assumptions C113_twfe_same_space.
Print Assumptions C113_twfe_units_of_covariate.
Print Assumptions C113_twfe_identified.
Print Assumptions C113_base_category_case.
Print Assumptions C113_units_case.
Print Assumptions C113_twfe_units_case.

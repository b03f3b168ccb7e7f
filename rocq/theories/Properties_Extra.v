(* Further statements about CallawaySantAnna with covariates and the triple-difference ipw standard error. *)
From Verif Require Import Prelude Flt Stats_model Stats_proofs Linalg_model Linalg_proofs Linalg_vcov Linalg_thms Did_model Did_spec Multi_model Bacon_model
  Staggered_model Staggered_fit Staggered_cov Triple_model Triple_proofs Triple_thms Triple_more.
From Coq Require Import Arith ZArith String List.
Import ListNotations.
Open Scope R_scope.

Section Cov.
Context {I : Type}.
Variable qr : list Z -> list (Z -> R) -> list nat.
Variable lstsq : list Z -> list (Z -> R) -> (Z -> R) -> list R.
Variable inv : list Z -> list (Z -> R) -> option (nat -> nat -> R).
Variable logit : list Z -> list Z -> list (Z -> R) -> option (Z -> R).
Hypothesis Hqr : qr_ok qr.
Hypothesis Hls : lstsq_ok lstsq.
Variables (rows : list I) (u t : I -> Z) (g : I -> coh) (y : I -> option R) (covs : list (I -> option R)).
Notation effs := (all_effects qr lstsq inv logit rows u t g y covs).
Notation oR := Staggered_model.oR.
Theorem C57_base_period_covariates cfg l e att b0 (beta : list R) (tau : Z -> R) : effs cfg = Ok l -> In e l -> ge_eff e = Fin att -> cs_method cfg <> "ipw"%string ->
  covs <> [] -> length beta = length covs ->
  (forall a c, In a (ge_T e ++ ge_C e) -> In c covs -> cs_cov rows u t c a (ge_base e) <> None) ->
  (forall a, In a (ge_C e) -> change rows u t y (ge_base e) (ge_t e) a = b0 + lc (map (fun c a => oR (cs_cov rows u t c a (ge_base e))) covs) beta a) ->
  (forall a, In a (ge_T e) -> change rows u t y (ge_base e) (ge_t e) a = b0 + lc (map (fun c a => oR (cs_cov rows u t c a (ge_base e))) covs) beta a + tau a) ->
  att = meanf tau (ge_T e).
Proof. eapply cell_outcome_model; eauto. Qed.
Theorem C57_missing_covariate cfg l e a c : effs cfg = Ok l -> In e l ->
  In a (ge_T e ++ ge_C e) -> In c covs -> cs_cov rows u t c a (ge_base e) = None ->
  ge_eff e = Fin (meanf (change rows u t y (ge_base e) (ge_t e)) (ge_T e) - meanf (change rows u t y (ge_base e) (ge_t e)) (ge_C e)).
Proof. eapply cell_missing_covariate; eauto. Qed.
Theorem C57_adjusted_defined cfg T C dy x : (cs_action cfg = "warn"%string \/ cs_action cfg = "error"%string \/ cs_action cfg = "silent"%string) ->
  (S (length x) <= length C)%nat -> indep C ((fun _ => 1) :: x) -> cs_method cfg <> "ipw"%string ->
  exists e att, estimate qr lstsq inv logit cfg T C dy (Some x) = Ok e /\ ce_att e = Fin att.
Proof. eapply adjusted_defined; eauto. Qed.
Theorem C57_fit_case meth : meth = "reg"%string \/ meth = "dr"%string ->
  exists l e, all_effects qr lstsq inv logit rc fst snd gc yc [xc] (demo_cfg "never_treated" 0 meth "varying") = Ok l /\ In e l /\
    ge_T e = [1%Z] /\ ge_C e = [2; 3; 4]%Z /\ ge_base e = 1%Z /\ ge_eff e = Fin 7.
Proof. eapply cov_case; eauto. Qed.
End Cov.
Section Ipw.
Context {I K : Type} (keq : forall x y : K, {x = y} + {x <> y}).
Variable qr : list I -> list (I -> R) -> list nat.
Variable lstsq : list I -> list (I -> R) -> (I -> R) -> list R.
Variable inv : list I -> list (I -> R) -> option (nat -> nat -> R).
Variable pinv : list I -> list (I -> R) -> nat -> nat -> R.
Variable sf : option Z -> fl -> fl.
Variable ppf : option Z -> R -> R.
Variable logit : list I -> list (I -> R) -> (I -> R) -> option (I -> R).
Notation fit := (ddd_fit keq qr lstsq inv pinv sf ppf logit).
Notation f x := (fun i => Triple_model.oR (x i)).
Theorem C65_ipw_se cfg cl rows y G P T r : dd_method cfg = "ipw"%string -> dd_trim cfg < 1 -> unclipped rows (f G) (f P) cfg -> fit cfg cl rows y G P T [] = Ok r ->
  let att := ddd_of_dids rows (f G) (f P) (f T) (f y) in
  tr_att r = Fin att /\
  tr_se r = Fin (sqrt (variance 1 (map (ipw_psi rows (f y) (f G) (f P) (f T) att) rows) / len rows)).
Proof. eapply ipw_se_closed; eauto. Qed.
End Ipw.
Print Assumptions C57_base_period_covariates.
Print Assumptions C57_missing_covariate.
Print Assumptions C57_adjusted_defined.
Print Assumptions C57_fit_case.
Print Assumptions C65_ipw_se.

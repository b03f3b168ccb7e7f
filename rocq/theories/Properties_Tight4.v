(* Root mean squared error of simulated power (C42), periods and maximum of the pre-trends analysis (C40), number of columns of a prediction (C129). *)
From Coq Require Import Reals.
From Verif Require Import Prelude Flt Stats_model Linalg_model Power_model Pretrends_model Linreg_model Tight4_thms.
From Coq Require Import Arith ZArith String List.
Import ListNotations.
Open Scope R_scope.

Section Sim.
Context {D : Type}.
Variable gen : R -> Z -> res D.
Variable fit : D -> res obj.
Variable rng : nat -> Z.
Variable ppf : R -> R.
Notation simulate := (simulate_power gen fit rng ppf).
(* the reported rmse adds the n-1 variance: it exceeds the root of the mean squared error *)
Theorem C42_rmse te es n alpha r vs : simulate te es n alpha = Ok r -> map (fun x => sr_att (fst x)) (si_rows r) = map Fin vs -> (2 <= length vs)%nat ->
  let mse := meanf (fun a => (a - si_true r) * (a - si_true r)) vs in
  let var := sumf (fun a => (a - meanf idR vs) * (a - meanf idR vs)) vs / (len vs - 1) in
  exists e, si_rmse r = Fin e /\ 0 <= e /\ e * e = (meanf idR vs - si_true r) * (meanf idR vs - si_true r) + var /\ e * e = mse + var / len vs /\ mse <= e * e.
Proof. exact (sim_rmse gen fit rng ppf te es n alpha r vs). Qed.
Theorem C42_rmse_one_replication te es n alpha r v : simulate te es n alpha = Ok r -> map (fun x => sr_att (fst x)) (si_rows r) = [Fin v] -> si_rmse r = NaN.
Proof. exact (sim_rmse_one gen fit rng ppf te es n alpha r v). Qed.
End Sim.
Theorem C42_rmse_case ppf : exists r e, simulate_power two_gen two_fit Z.of_nat ppf 1 None 2 (1 / 20) = Ok r /\
  map (fun x => sr_att (fst x)) (si_rows r) = map Fin [2; 0] /\ si_true r = 1 /\
  meanf (fun a => (a - si_true r) * (a - si_true r)) [2; 0] = 1 /\ si_rmse r = Fin e /\ e * e = 2.
Proof. exact (rmse_case ppf). Qed.
Theorem C40_reported_periods m pre : pm_coef m = [] ->
  let all := match pre with Some l => l | None => pm_pre m end in
  let kept := filter (fun p => match pm_eff m p with Some (_, s) => fgt s (Fin 0) | None => false end) all in
  match pt_extract_mp m pre with
  | Err e => e = ValueError /\ kept = []
  | Ok p => kept <> [] /\ pp_n p = length kept /\
      map Some (combine (pp_eff p) (pp_ses p)) = map (pm_eff m) kept /\
      (forall s, In s (pp_ses p) -> fgt s (Fin 0) = true) /\
      (forall i j, pp_vcov p i j = if Nat.eqb i j then fmul (nth i (pp_ses p) NaN) (nth i (pp_ses p) NaN) else Fin 0)
  end.
Proof. exact (extract_mp_no_coef m pre). Qed.
Theorem C40_reported_periods_case : exists p,
  pt_extract_mp {| pm_pre := [1; 2; 3]%Z; pm_coef := []; pm_eff := (fun t => if Z.eqb t 1 then Some (Fin 4, Fin 2) else if Z.eqb t 2 then Some (Fin 0, Fin 0) else None);
     pm_avg_se := Fin 1; pm_vcov := None |} None = Ok p /\ pp_eff p = [Fin 4] /\ pp_ses p = [Fin 2] /\ pp_n p = 1%nat.
Proof. exact extract_mp_case. Qed.
Theorem C40_largest_se : (forall l s, np_max (map Fin l) = Fin s <-> In s l /\ forall v, In v l -> v <= s) /\ (forall l, In NaN l -> np_max l = NaN) /\ np_max [] = NaN.
Proof. exact np_max_spec. Qed.
Section LR.
Context {I K : Type}.
Theorem C129_predict_columns {J} (cfg : lr_cfg I K) (f : lr_fitted I) (X : list (J -> R)) :
  match lr_predict cfg (Some f) X with
  | Ok p => (length X + (if c_intercept cfg then 1 else 0))%nat = length (l_coef (f_reg f)) /\
            forall j, p j = lc (if c_intercept cfg then (fun _ => 1) :: X else X) (map nan_to_zero (l_coef (f_reg f))) j
  | Err e => e = ValueError /\ (length X + (if c_intercept cfg then 1 else 0))%nat <> length (l_coef (f_reg f))
  end.
Proof. exact (lr_predict_columns cfg f X). Qed.
End LR.
Print Assumptions C42_rmse.
Print Assumptions C42_rmse_one_replication.
Print Assumptions C42_rmse_case.
Print Assumptions C40_reported_periods.
Print Assumptions C40_reported_periods_case.
Print Assumptions C40_largest_se.
Print Assumptions C129_predict_columns.

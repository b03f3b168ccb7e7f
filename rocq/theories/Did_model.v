(* Model of DifferenceInDifferences.fit (diff_diff/estimators.py:146-359) and of the one-way and
   two-way demeaning helpers it uses (diff_diff/utils.py:1350-1484). *)
From Verif Require Import Prelude Flt Linalg_model.
From Coq Require Import Arith ZArith String List.
Import ListNotations.
Open Scope R_scope.

Section Demean.
Context {I G : Type} (geq : forall x y : G, {x = y} + {x <> y}).

(* groupby(g)[var].transform("mean") *)
Definition group_mean (rows : list I) (g : I -> G) (x : I -> R) (i : I) : R :=
  meanf x (filter (fun j => keqb geq (g j) (g i)) rows).

(* demean_by_group, utils.py:1350-1403: the column and nunique - 1 *)
Definition demean (rows : list I) (g : I -> G) (x : I -> R) : I -> R :=
  fun i => x i - group_mean rows g x i.
Definition n_effects (rows : list I) (g : I -> G) : Z :=
  (Z.of_nat (length (nodup geq (map g rows))) - 1)%Z.
End Demean.

(* within_transform, utils.py:1406-1484: x - unit mean - time mean + grand mean *)
Definition within {I U T} (ueq : forall x y : U, {x = y} + {x <> y}) (teq : forall x y : T, {x = y} + {x <> y})
    (rows : list I) (u : I -> U) (t : I -> T) (x : I -> R) : I -> R :=
  fun i => x i - group_mean ueq rows u x i - group_mean teq rows t x i + meanf x rows.

(* ---- validation (estimators.py:533-564 and utils.py:29-50) ---- *)
Definition has_nan {I} (rows : list I) (x : I -> fl) : bool := existsb (fun i => fisnan (x i)) rows.
Definition has_inf {I} (rows : list I) (x : I -> fl) : bool := existsb (fun i => fisinf (x i)) rows.
(* data[col].nunique() >= 2 on a NaN-free column *)
Definition two_values {I} (rows : list I) (x : I -> fl) : bool :=
  existsb (fun i => existsb (fun j => negb (feqb (x i) (x j))) rows) rows.
Definition binary {I} (rows : list I) (x : I -> fl) : bool :=
  forallb (fun i => fisnan (x i) || feqb (x i) (Fin 0) || feqb (x i) (Fin 1)) rows.

Definition toR (x : fl) : R := match x with Fin r => r | _ => 0 end.

Record did_config {I K : Type} := {
  c_robust : bool;
  c_cluster : option (I -> K);      (* self.cluster, resolved to the column's values *)
  c_alpha : R;
  c_action : string
}.
Arguments did_config : clear implicits.

Record did_result {I : Type} := {
  r_att : fl; r_se : fl; r_t : fl; r_p : fl; r_ci : fl * fl;
  r_n_obs : nat; r_n_treated : R; r_n_control : R; r_alpha : R;
  r_coef : list fl; r_vcov : nat -> nat -> fl;
  r_resid : I -> R; r_fitted : I -> R; r_r2 : R;
  r_signif : bool
}.
Arguments did_result : clear implicits.

Section Fit.
Context {I K G : Type} (keq : forall x y : K, {x = y} + {x <> y}) (geq : forall x y : G, {x = y} + {x <> y}).
Variable qr : list I -> list (I -> R) -> list nat.
Variable lstsq : list I -> list (I -> R) -> (I -> R) -> list R.
Variable inv : list I -> list (I -> R) -> option (nat -> nat -> R).
Variable pinv : list I -> list (I -> R) -> nat -> nat -> R.
Variable sf : option Z -> fl -> fl.
Variable ppf : option Z -> R -> R.

(* X = [1, d, t, d*t] + covariates + dummies, estimators.py:247-270 *)
Definition did_design (d t : I -> R) (extra : list (I -> R)) : list (I -> R) :=
  (fun _ => 1) :: d :: t :: (fun i => d i * t i) :: extra.

(* the absorb loop, estimators.py:226-241: sequential one-way demeaning of outcome and covariates,
   and only of those; the indicators stay raw *)
Fixpoint absorb_loop (rows : list I) (gs : list (I -> G)) (y : I -> R) (covs : list (I -> R))
    : (I -> R) * list (I -> R) * Z :=
  match gs with
  | [] => (y, covs, 0%Z)
  | g :: rest =>
      let '(y', covs', n) := absorb_loop rows rest (demean geq rows g y) (map (demean geq rows g) covs) in
      (y', covs', (n_effects geq rows g + n)%Z)
  end.

(* DifferenceInDifferences.fit with inference="analytical" (or without cluster): 146-359.
   [covs] are the covariate columns, [dums] the fixed-effect dummies (pd.get_dummies(drop_first=True)
   of the [fixed_effects] columns), [absorb] the absorbed group columns.
   Column-existence checks are the typing of the arguments (see the parser model for names). *)
Definition did_fit (cfg : did_config I K) (rows : list I) (y d t : I -> fl)
    (covs : list (I -> fl)) (dums : list (I -> R)) (absorb : list (I -> G)) : res (did_result I) :=
  if existsb (has_nan rows) (y :: d :: t :: covs) then Err ValueError
  else if negb (two_values rows d) then Err ValueError
  else if negb (two_values rows t) then Err ValueError
  else if negb (binary rows d) then Err ValueError
  else if negb (binary rows t) then Err ValueError
  else if existsb (has_inf rows) (y :: covs) then Err ValueError        (* linalg.py:470-480 *)
  else
    let fR := fun (x : I -> fl) i => toR (x i) in
    let '(y', covs', n_abs) := absorb_loop rows absorb (fR y) (map fR covs) in
    let cols := did_design (fR d) (fR t) (covs' ++ dums) in
    do reg <- linreg_fit keq qr lstsq inv pinv (c_robust cfg) (c_cluster cfg) (c_action cfg) n_abs rows cols y';
    let att := nth 3 (l_coef reg) NaN in
    let inf := get_inference sf ppf att (l_vcov reg 3%nat 3%nat) None None (c_alpha cfg) (l_df reg) in
    Ok {| r_att := att; r_se := i_se inf; r_t := i_t inf; r_p := i_p inf; r_ci := i_ci inf;
          r_n_obs := length rows;
          r_n_treated := sumf (fR d) rows;
          r_n_control := sumf (fun i => 1 - fR d i) rows;
          r_alpha := c_alpha cfg;
          r_coef := l_coef reg; r_vcov := l_vcov reg; r_resid := l_resid reg; r_fitted := l_fitted reg;
          r_r2 := r_squared rows y' (l_resid reg) false 0;
          r_signif := flt (i_p inf) (Fin (c_alpha cfg))    (* DiDResults.is_significant, results.py:172-175 *)
       |}.
End Fit.

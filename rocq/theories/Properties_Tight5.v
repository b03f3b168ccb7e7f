(* Names of the DiD coefficients and the period table (C122), grid of the pre-trends power curve (C40). *)
From Coq Require Import Reals.
From Verif Require Import Prelude Flt Results_model Multi_model Pretrends_model Export_model Tight5_thms.
From Coq Require Import Arith ZArith String List.
Import ListNotations.
Open Scope R_scope.

Theorem C122_did_coefficients treatment time covs fes coefs : NoDup (did_names treatment time covs fes) ->
  length coefs = length (did_names treatment time covs fes) ->
  let d := coef_dict (did_names treatment time covs fes) coefs in
  dget d "const" = Some (VF (nth 0 coefs NaN)) /\
  dget d treatment = Some (VF (nth 1 coefs NaN)) /\
  dget d time = Some (VF (nth 2 coefs NaN)) /\
  dget d (treatment ++ ":" ++ time)%string = Some (VF (nth 3 coefs NaN)) /\
  forall j x, nth_error covs j = Some x -> dget d x = Some (VF (nth (4 + j) coefs NaN)).
Proof. exact (did_coefficients treatment time covs fes coefs). Qed.
Theorem C122_did_coefficients_case c0 c1 c2 c3 c4 : NoDup (did_names "treated" "post" ["size"%string] []) /\
  dget (coef_dict (did_names "treated" "post" ["size"%string] []) [c0; c1; c2; c3; c4]) "treated:post" = Some (VF c3) /\
  dget (coef_dict (did_names "treated" "post" ["size"%string] []) [c0; c1; c2; c3; c4]) "treated" = Some (VF c1).
Proof. exact (did_coefficients_case c0 c1 c2 c3 c4). Qed.
Theorem C122_period_table l : length (mp_table l) = length l /\
  forall j e, nth_error l j = Some e -> exists w s, nth_error (mp_table l) j = Some (w, s) /\
    tw_key w = pe_period e /\ tw_eff w = pe_effect e /\ tw_se w = pe_se e /\ tw_t w = pe_t e /\ tw_p w = pe_p e /\
    pe_ci e = (tw_lo w, tw_hi w) /\
    (forall p, pe_p e = Fin p -> (s = true <-> p < 1 / 20)) /\ (pe_p e = NaN -> s = false).
Proof. exact (period_table l). Qed.
Theorem C122_period_table_case : 
  map snd (mp_table [{| pe_period := 3%Z; pe_effect := Fin 2; pe_se := Fin (1/100); pe_t := Fin 200; pe_p := Fin (1/10); pe_ci := (Fin 1, Fin 3) |};
                     {| pe_period := 4%Z; pe_effect := Fin 2; pe_se := Fin 1; pe_t := Fin 2; pe_p := Fin (1/25); pe_ci := (Fin 1, Fin 3) |}]) = [false; true].
Proof. exact period_table_case. Qed.
Theorem C40_grid_points b n : (2 <= n)%nat -> length (linspace0 b n) = n /\ nth 0 (linspace0 b n) (-1) = 0 /\
  nth (n - 1) (linspace0 b n) (-1) = b /\
  (forall k, (k < n - 1)%nat -> nth (S k) (linspace0 b n) (-1) - nth k (linspace0 b n) (-1) = b / (INR n - 1)).
Proof. exact (linspace_points b n). Qed.
Print Assumptions C122_did_coefficients.
Print Assumptions C122_did_coefficients_case.
Print Assumptions C122_period_table.
Print Assumptions C122_period_table_case.
Print Assumptions C40_grid_points.

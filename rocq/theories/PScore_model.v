(* TripleDifference: the propensity score diagnostics (pscore_stats) and the logistic fit behind them.
   Model of diff_diff/triple_diff.py. *)
From Verif Require Import Prelude Flt Stats_model Linalg_model Did_model Triple_model.
From Coq Require Import Arith ZArith String List.
Import ListNotations.
Open Scope R_scope.

(* the four entries of pscore_stats, 846-851 and 989-994 *)
Record pscore_stats := { ps_g_mean : R; ps_g_std : R; ps_p_mean : R; ps_p_std : R }.

Section PScore.
Context {I K : Type} (keq : forall x y : K, {x = y} + {x <> y}).
Variable qr : list I -> list (I -> R) -> list nat.
Variable lstsq : list I -> list (I -> R) -> (I -> R) -> list R.
Variable inv : list I -> list (I -> R) -> option (nat -> nat -> R).
Variable pinv : list I -> list (I -> R) -> nat -> nat -> R.
Variable sf : option Z -> fl -> fl.
Variable ppf : option Z -> R -> R.
Variable logit : list I -> list (I -> R) -> (I -> R) -> option (I -> R).

(* p_G (813-822, 837) and p_P (825-834, 838); the same in _doubly_robust (970-982): the fitted
   probabilities, the sample mean when the fit raises, clipped.  Warnings are not modelled. *)
Definition ps_score (trim : R) rows (X : list (I -> R)) (z : I -> R) (i : I) : R :=
  clip (match logit rows X z with Some f => f i | None => meanf z rows end) trim (1 - trim).

(* 846-858 and 989-1009: np.std has ddof 0 *)
Definition ps_stats (trim : R) rows (G P : I -> R) (X : list (I -> R)) : option pscore_stats :=
  match X with
  | [] => None
  | _ :: _ =>
      let s z := map (ps_score trim rows X z) rows in
      Some {| ps_g_mean := meanf idR (s G); ps_g_std := std 0 (s G);
              ps_p_mean := meanf idR (s P); ps_p_std := std 0 (s P) |}
  end.

(* fit, 515-637, with the field pscore_stats (630); _regression_adjustment returns None for it (775) *)
Definition ddd_fit_ps cfg (cluster : option (I -> K)) rows (y G P T : I -> option R) covs
    : res (ddd_result * option pscore_stats) :=
  do r <- ddd_fit keq qr lstsq inv pinv sf ppf logit cfg cluster rows y G P T covs;
  let f (x : I -> option R) i := oR (x i) in
  Ok (r, if String.eqb (dd_method cfg) "reg" then None
         else ps_stats (dd_trim cfg) rows (f G) (f P) (map f covs)).
End PScore.

Section Logistic.
Context {I : Type}.
(* result.x of scipy.optimize.minimize (314-320); None when it raises *)
Variable bfgs : list I -> list (I -> R) -> (I -> R) -> option (list R).

(* z and probs, 323-325, for coefficients [b] on a constant and X *)
Definition lg_prob (X : list (I -> R)) (b : list R) (i : I) : R :=
  1 / (1 + exp (- clip (lc ((fun _ => 1) :: X) b i) (-500) 500)).
(* gradient, 306-310: its component for one column of X_with_intercept *)
Definition lg_grad rows (X : list (I -> R)) (z : I -> R) (b : list R) (c : I -> R) : R :=
  - sumf (fun i => c i * (z i - lg_prob X b i)) rows.
(* _logistic_regression, 270-327: the probabilities *)
Definition logistic rows (X : list (I -> R)) (z : I -> R) : option (I -> R) :=
  option_map (lg_prob X) (bfgs rows X z).
End Logistic.

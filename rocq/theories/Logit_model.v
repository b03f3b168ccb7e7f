(* The objective that _logistic_regression minimises.  The gradient and the fitted probabilities are
   in PScore_model.  Model of diff_diff/triple_diff.py 300-304 (staggered.py:77-82 is the same code). *)
From Verif Require Import Prelude Linalg_model Triple_model PScore_model.
From Coq Require Import List.
Import ListNotations.
Open Scope R_scope.

(* neg_log_likelihood, 300-304 *)
Definition lg_nll {I} (rows : list I) (X : list (I -> R)) (z : I -> R) (b : list R) : R :=
  - sumf (fun i => let u := clip (lc ((fun _ => 1) :: X) b i) (-500) 500 in z i * u - ln (1 + exp u)) rows.

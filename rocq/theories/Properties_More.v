(* Further properties of the regression layer: statements only. *)
From Verif Require Import Prelude Flt Linalg_model Linalg_proofs Linalg_vcov Linalg_thms Did_model Did_spec Did_proofs Did_more Linalg_more.
From Coq Require Import Arith ZArith String List.
Import ListNotations.
Open Scope R_scope.

(* C49: the star labels of InferenceResult, exactly *)
Theorem C49_inference_stars p : stars_inference (Fin p) =
  (if Rlt_dec p (1/1000) then "***" else if Rlt_dec p (1/100) then "**" else if Rlt_dec p (5/100) then "*"
   else if Rlt_dec p (1/10) then "." else "")%string.
Proof. exact (stars_exact p). Qed.

Section P.
Context {I K G : Type} (keq : forall x y : K, {x = y} + {x <> y}) (geq : forall x y : G, {x = y} + {x <> y}).
Variable qr : list I -> list (I -> R) -> list nat.
Variable lstsq : list I -> list (I -> R) -> (I -> R) -> list R.
Variable inv : list I -> list (I -> R) -> option (nat -> nat -> R).
Variable pinv : list I -> list (I -> R) -> nat -> nat -> R.
Variable sf : option Z -> fl -> fl.
Variable ppf : option Z -> R -> R.
Hypothesis Hqr : qr_ok qr.
Hypothesis Hls : lstsq_ok lstsq.
Hypothesis Hinv : inv_ok inv.

(* C05: dropped columns do not use up degrees of freedom *)
Theorem C05_degrees_of_freedom robust cluster action adj rows cols y reg :
  linreg_fit keq qr lstsq inv pinv robust cluster action adj rows cols y = Ok reg ->
  l_df reg = (Z.of_nat (length rows)
              - Z.of_nat (length (filter (fun j => if in_dec Nat.eq_dec j (qr rows cols) then false else true) (seq 0 (length cols))))
              - adj)%Z.
Proof. exact (linreg_df keq qr lstsq inv pinv Hls robust cluster action adj rows cols y reg). Qed.

(* C01: with robust=False the standard error is the pooled two-by-two one *)
Theorem C01_classical_se cfg rows y d t r :
  did_fit keq geq qr lstsq inv pinv sf ppf cfg rows y d t [] [] [] = Ok r ->
  c_robust cfg = false -> c_cluster cfg = None ->
  four_cells rows (fun i => toR (d i)) (fun i => toR (t i)) -> (4 < length rows)%nat ->
  r_se r = Fin (sqrt (did_classical rows (fun i => toR (d i)) (fun i => toR (t i)) (fun i => toR (y i)))).
Proof. exact (did_classical_se keq geq qr lstsq inv pinv sf ppf Hqr Hls Hinv cfg rows y d t r). Qed.
End P.

Example C49_inference_case : stars_inference (Fin (3/100)) = "*"%string.
Proof. rewrite C49_inference_stars. repeat (destruct (Rlt_dec _ _); try lra); reflexivity. Qed.

Print Assumptions C49_inference_stars.
Print Assumptions C05_degrees_of_freedom.
Print Assumptions C01_classical_se.

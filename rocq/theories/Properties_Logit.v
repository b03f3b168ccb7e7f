(* The gradient of the logistic regressions (C143).  [bump b j h] adds h to the j-th coefficient. *)
From Coq Require Import Reals.
From Verif Require Import Prelude Stats_model Linalg_model Triple_model PScore_model Logit_model Logit_thms.
From Coq Require Import Arith ZArith List.
Import ListNotations.
Open Scope R_scope.

Section Grad.
Context {I : Type}.
Variables (rows : list I) (X : list (I -> R)) (z : I -> R) (b : list R).
Notation cols := ((fun _ : I => 1) :: X).
Hypothesis HL : length b = length cols.
Theorem C143_gradient_partial j : (j < length cols)%nat -> (forall i, In i rows -> -500 < lc cols b i < 500) ->
  derivable_pt_lim (fun h => lg_nll rows X z (bump b j h)) 0 (lg_grad rows X z b (nth j cols (fun _ => 0))).
Proof. exact (gradient_right rows X z b HL j). Qed.
End Grad.
(* one untreated row with predictor 600 *)
Theorem C143_cutoff_refuted : exists (b : list R) (z : unit -> R),
  (forall h, Rabs h < 100 -> lg_nll [tt] [] z (bump b 0 h) = lg_nll [tt] [] z b) /\
  derivable_pt_lim (fun h => lg_nll [tt] [] z (bump b 0 h)) 0 0 /\ 1 / 2 < lg_grad [tt] [] z b (fun _ => 1).
Proof. exact gradient_refuted. Qed.
Theorem C143_case : let X := [fun i : nat => match i with O => -1 | S O => 0 | _ => 2 end] in let z i := match i with O => 0 | _ => 1 end in
  length [0; 1] = length ((fun _ : nat => 1) :: X) /\ (forall i, In i [0; 1; 2]%nat -> -500 < lc ((fun _ => 1) :: X) [0; 1] i < 500) /\
  lg_grad [0; 1; 2]%nat X z [0; 1] (fun _ => 1) < 0 /\
  derivable_pt_lim (fun h => lg_nll [0; 1; 2]%nat X z [h; 1]) 0 (lg_grad [0; 1; 2]%nat X z [0; 1] (fun _ => 1)).
Proof. exact gradient_case. Qed.
Print Assumptions C143_gradient_partial.
Print Assumptions C143_cutoff_refuted.
Print Assumptions C143_case.

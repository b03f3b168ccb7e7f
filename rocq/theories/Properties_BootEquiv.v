(* The wild cluster bootstrap: unit of the outcome, other regressors, row order, restated hypotheses (C127). *)
From Coq Require Import Reals.
From Verif Require Import Prelude Flt Stats_model Linalg_model Linalg_proofs Linalg_vcov Linalg_thms Did_model Did_more Boot_model Boot_proofs Boot_more Boot_equiv.
From Coq Require Import Arith ZArith String List Permutation.
Import ListNotations.
Open Scope R_scope.

Theorem C127_percentile_reflection l q : l <> [] -> 0 <= q <= 1 -> percentile (map Ropp l) q = - percentile l (1 - q).
Proof. exact (percentile_opp l q). Qed.
Section W.
Context {I K : Type} (eqd : forall x y : K, {x = y} + {x <> y}).
Variable qr : list I -> list (I -> R) -> list nat.
Variable lstsq : list I -> list (I -> R) -> (I -> R) -> list R.
Variable inv : list I -> list (I -> R) -> option (nat -> nat -> R).
Hypothesis Hqr : qr_ok qr.
Hypothesis Hls : lstsq_ok lstsq.
Hypothesis Hinv : inv_ok inv.
Notation wb := (wild_bootstrap eqd qr lstsq inv).
Theorem C127_affine rows cols y y' cl j wt null alpha ws s g r r' :
  s <> 0 -> 0 <= alpha <= 1 -> length g = length cols -> nth j g 0 = 0 ->
  (forall i, In i rows -> y' i = s * y i + lc cols g i) ->
  wb rows cols y cl j wt null alpha ws = Ok r -> wb rows cols y' cl j wt (s * null) alpha ws = Ok r' ->
  w_p r' = w_p r /\
  w_t r' = (if Rlt_dec 0 s then w_t r else fneg (w_t r)) /\
  w_coefs r' = map (Rmult s) (w_coefs r) /\
  w_se r' = fmul (Fin (Rabs s)) (w_se r) /\
  w_ci r' = (if Rlt_dec 0 s then (s * fst (w_ci r), s * snd (w_ci r)) else (s * snd (w_ci r), s * fst (w_ci r))) /\
  w_nclusters r' = w_nclusters r /\ w_nboot r' = w_nboot r.
Proof. exact (wild_affine eqd qr lstsq inv Hqr Hls Hinv rows cols y y' cl j wt null alpha ws s g r r'). Qed.
Theorem C127_row_order r1 r2 cols y cl j wt null alpha ws a b : Permutation r1 r2 ->
  wb r1 cols y cl j wt null alpha ws = Ok a -> wb r2 cols y cl j wt null alpha ws = Ok b ->
  w_p b = w_p a /\ w_t b = w_t a /\ w_coefs b = w_coefs a /\ w_se b = w_se a /\ w_ci b = w_ci a /\ w_nclusters b = w_nclusters a /\ w_nboot b = w_nboot a.
Proof. exact (wild_row_order eqd qr lstsq inv Hqr Hls Hinv r1 r2 cols y cl j wt null alpha ws a b). Qed.
Theorem C127_same_hypothesis_law rows cols y y' cl j wt null alpha ws d r r' :
  (forall i, In i rows -> y' i = y i + d * colx cols j i) ->
  wb rows cols y cl j wt null alpha ws = Ok r -> wb rows cols y' cl j wt (null + d) alpha ws = Ok r' ->
  exists l, Forall2 (fun c bV => c = nth j (fst bV) 0) (w_coefs r) l /\
  w_t r' = w_t r /\ w_coefs r' = w_coefs r /\
  w_p r = Rmax (share (fun bV => fge (Fin (Rabs (tstat j null bV))) (fabs (w_t r))) l) (1 / (len ws + 1)) /\
  w_p r' = Rmax (share (fun bV => fge (Fin (Rabs (tstat j (null + d) bV))) (fabs (w_t r))) l) (1 / (len ws + 1)).
Proof. exact (wild_same_hypothesis eqd qr lstsq inv Hqr Hls Hinv rows cols y y' cl j wt null alpha ws d r r'). Qed.
End W.
Theorem C127_same_hypothesis_refuted B : (1 <= B)%nat -> exists r r',
  wrun 0 0 (repeat (fun _ => 1) B) = Ok r /\ wrun 4 4 (repeat (fun _ => 1) B) = Ok r' /\
  w_t r' = w_t r /\ w_coefs r' = w_coefs r /\ w_p r = 1 /\ w_p r' = 1 / (INR B + 1).
Proof. exact (wild_same_hypothesis_refuted B). Qed.
Theorem C127_case d null ws : ws <> [] -> exists r, wrun d null ws = Ok r.
Proof. exact (wrun_ok d null ws). Qed.
Print Assumptions C127_percentile_reflection.
Print Assumptions C127_affine.
Print Assumptions C127_row_order.
Print Assumptions C127_same_hypothesis_law.
Print Assumptions C127_same_hypothesis_refuted.
Print Assumptions C127_case.

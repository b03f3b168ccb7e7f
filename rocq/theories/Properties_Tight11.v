(* The outcome regressions of the doubly robust triple difference and the R-squared it reports (C31). *)
From Coq Require Import Reals.
From Verif Require Import Prelude Flt Stats_model Linalg_model Linalg_proofs Linalg_vcov Linalg_thms Did_model Did_spec Triple_model Triple_proofs Triple_thms Triple_fit Triple_ex Triple_equiv Tight11_thms.
From Coq Require Import Arith ZArith String List.
Import ListNotations.
Open Scope R_scope.

Section Dr.
Context {I K : Type} (keq : forall x y : K, {x = y} + {x <> y}).
Variable qr : list I -> list (I -> R) -> list nat.
Variable lstsq : list I -> list (I -> R) -> (I -> R) -> list R.
Variable inv : list I -> list (I -> R) -> option (nat -> nat -> R).
Variable pinv : list I -> list (I -> R) -> nat -> nat -> R.
Variable sf : option Z -> fl -> fl.
Variable ppf : option Z -> R -> R.
Variable logit : list I -> list (I -> R) -> (I -> R) -> option (I -> R).
Hypothesis Hqr : qr_ok qr.
Hypothesis Hls : lstsq_ok lstsq.
Hypothesis Hinv : inv_ok inv.
Notation fit := (ddd_fit keq qr lstsq inv pinv sf ppf logit).
Notation f x := (fun i => oR (x i)).
Notation mu := (mu_fit keq qr lstsq inv).
Theorem C31_outcome_regressions action rows (y G P T : I -> R) X i : X <> [] -> In i rows ->
  let c := cell8 rows G P T (G i) (P i) (T i) in let m := mu action rows y G P T X in
  (length c = 1%nat -> m i = y i) /\
  ((2 <= length c)%nat -> (length c < 2 + length X)%nat \/ (action <> "warn" /\ action <> "silent")%string -> m i = meanf y c) /\
  ((2 + length X <= length c)%nat -> action = "warn"%string \/ action = "silent"%string ->
     span c ((fun _ => 1) :: X) m /\ forall z, In z ((fun _ => 1) :: X) -> ip c z (fun k => y k - m k) = 0).
Proof. exact (dr_outcome_model keq qr lstsq inv pinv logit Hqr Hls Hinv action rows y G P T X i). Qed.
Theorem C31_r_squared cfg cl rows y G P T covs r : dd_method cfg = "dr"%string -> covs <> [] -> fit cfg cl rows y G P T covs = Ok r ->
  let m := mu (dd_action cfg) rows (f y) (f G) (f P) (f T) (map (fun c => f c) covs) in
  let ssr := sumf (fun i => (oR (y i) - m i) * (oR (y i) - m i)) rows in
  let sst := sumf (fun i => (oR (y i) - meanf (f y) rows) * (oR (y i) - meanf (f y) rows)) rows in
  ssr <= sst /\ exists r2, tr_r2 r = Some r2 /\ 0 <= r2 <= 1 /\ (0 < sst -> r2 = 1 - ssr / sst) /\ (sst = 0 -> r2 = 0).
Proof. exact (dr_r_squared keq qr lstsq inv pinv sf ppf logit Hqr Hls Hinv cfg cl rows y G P T covs r). Qed.
End Dr.
(* the nine-row data with a covariate *)
Example C31_r_squared_case pinv logit cl y : (forall i, y i <> None) -> exists r,
  ddd_fit Z.eq_dec (@gs_dropped b3) (@gs b3) (@gs_inv b3) pinv toy_sf toy_ppf logit (cfgm "dr") cl rows9 y gB pB tB [fun i : b3 => if snd i then Some 1 else Some 3] = Ok r.
Proof. intros Hy. apply valid_fits; [|discriminate]. apply valid9; [exact Hy|]. constructor; [intros i; destruct (snd i); discriminate|constructor]. Qed.
Print Assumptions C31_outcome_regressions.
Print Assumptions C31_r_squared.

(* Propensity score diagnostics of TripleDifference (C142). *)
From Coq Require Import Reals.
From Verif Require Import Prelude Flt Stats_model Linalg_model Linalg_proofs Linalg_vcov Linalg_thms Did_model Triple_model Triple_fit Triple_ex PScore_model PScore_thms.
From Coq Require Import Arith ZArith String List.
Import ListNotations.
Open Scope R_scope.

Section PS.
Context {I K : Type} (keq : forall x y : K, {x = y} + {x <> y}).
Variable qr : list I -> list (I -> R) -> list nat.
Variable lstsq : list I -> list (I -> R) -> (I -> R) -> list R.
Variable inv : list I -> list (I -> R) -> option (nat -> nat -> R).
Variable pinv : list I -> list (I -> R) -> nat -> nat -> R.
Variable sf : option Z -> fl -> fl.
Variable ppf : option Z -> R -> R.
Variable logit : list I -> list (I -> R) -> (I -> R) -> option (I -> R).
Notation fitps := (ddd_fit_ps keq qr lstsq inv pinv sf ppf logit).
Notation f x := (fun i => oR (x i)).

Theorem C142_present cfg cl rows y G P T covs r s : fitps cfg cl rows y G P T covs = Ok (r, s) ->
  (s <> None <-> dd_method cfg <> "reg"%string /\ covs <> []).
Proof. exact (ps_present keq qr lstsq inv pinv sf ppf logit cfg cl rows y G P T covs r s). Qed.
Theorem C142_range cfg cl rows y G P T covs r st : dd_trim cfg <= 1 / 2 -> fitps cfg cl rows y G P T covs = Ok (r, Some st) ->
  (dd_trim cfg <= ps_g_mean st <= 1 - dd_trim cfg /\ 0 <= ps_g_std st <= 1 / 2 - dd_trim cfg /\
   ps_g_std st * ps_g_std st <= (1 - dd_trim cfg - ps_g_mean st) * (ps_g_mean st - dd_trim cfg)) /\
  (dd_trim cfg <= ps_p_mean st <= 1 - dd_trim cfg /\ 0 <= ps_p_std st <= 1 / 2 - dd_trim cfg /\
   ps_p_std st * ps_p_std st <= (1 - dd_trim cfg - ps_p_mean st) * (ps_p_mean st - dd_trim cfg)).
Proof. exact (ps_range keq qr lstsq inv pinv sf ppf logit cfg cl rows y G P T covs r st). Qed.
Theorem C142_crossed_trim cfg cl rows y G P T covs r st : 1 / 2 < dd_trim cfg -> fitps cfg cl rows y G P T covs = Ok (r, Some st) ->
  ps_g_mean st = 1 - dd_trim cfg /\ ps_g_std st = 0 /\ ps_p_mean st = 1 - dd_trim cfg /\ ps_p_std st = 0.
Proof. exact (ps_crossed keq qr lstsq inv pinv sf ppf logit cfg cl rows y G P T covs r st). Qed.
Theorem C142_failed_fit cfg cl rows y G P T covs r st : fitps cfg cl rows y G P T covs = Ok (r, Some st) ->
  (logit rows (map (fun c => f c) covs) (f G) = None ->
     ps_g_mean st = Rmin (1 - dd_trim cfg) (Rmax (meanf (f G) rows) (dd_trim cfg)) /\ ps_g_std st = 0) /\
  (logit rows (map (fun c => f c) covs) (f P) = None ->
     ps_p_mean st = Rmin (1 - dd_trim cfg) (Rmax (meanf (f P) rows) (dd_trim cfg)) /\ ps_p_std st = 0).
Proof. exact (ps_failed keq qr lstsq inv pinv sf ppf logit cfg cl rows y G P T covs r st). Qed.
Theorem C142_used cfg rows G P X g p i : X <> [] ->
  let s z := ps_score logit (dd_trim cfg) rows X z i in
  ddd_pcell logit cfg rows G P X g p i =
  Rmin (1 - dd_trim cfg) (Rmax ((if Reqb g 1 then s G else 1 - s G) * (if Reqb p 1 then s P else 1 - s P)) (dd_trim cfg)).
Proof. exact (ps_used logit cfg rows G P X g p i). Qed.
End PS.

Section LG.
Context {I K : Type} (keq : forall x y : K, {x = y} + {x <> y}).
Variable qr : list I -> list (I -> R) -> list nat.
Variable lstsq : list I -> list (I -> R) -> (I -> R) -> list R.
Variable inv : list I -> list (I -> R) -> option (nat -> nat -> R).
Variable pinv : list I -> list (I -> R) -> nat -> nat -> R.
Variable sf : option Z -> fl -> fl.
Variable ppf : option Z -> R -> R.
Variable bfgs : list I -> list (I -> R) -> (I -> R) -> option (list R).
Notation fitps := (ddd_fit_ps keq qr lstsq inv pinv sf ppf (logistic bfgs)).
Notation f x := (fun i => oR (x i)).

Theorem C142_probabilities (X : list (I -> R)) b i : / (1 + exp 500) <= lg_prob X b i <= / (1 + exp (-500)) /\
  lg_prob X b i / (1 - lg_prob X b i) = exp (Rmin 500 (Rmax (lc ((fun _ => 1) :: X) b i) (-500))).
Proof. exact (lg_prob_range X b i). Qed.
Theorem C142_balanced cfg cl rows y G P T covs r st : fitps cfg cl rows y G P T covs = Ok (r, Some st) ->
  let X := map (fun c => f c) covs in
  (forall b, bfgs rows X (f G) = Some b -> lg_grad rows X (f G) b (fun _ => 1) = 0 ->
     (forall i, In i rows -> dd_trim cfg <= lg_prob X b i <= 1 - dd_trim cfg) -> ps_g_mean st = meanf (f G) rows) /\
  (forall b, bfgs rows X (f P) = Some b -> lg_grad rows X (f P) b (fun _ => 1) = 0 ->
     (forall i, In i rows -> dd_trim cfg <= lg_prob X b i <= 1 - dd_trim cfg) -> ps_p_mean st = meanf (f P) rows).
Proof. exact (ps_balanced keq qr lstsq inv pinv sf ppf bfgs cfg cl rows y G P T covs r st). Qed.
End LG.

(* eight rows, an uninformative fit: every score is one half *)
Section Case.
Variable pinv : list b3 -> list (b3 -> R) -> nat -> nat -> R.
Theorem C142_case cl y : (forall i, y i <> None) -> exists r st,
  ddd_fit_ps Z.eq_dec (@gs_dropped b3) (@gs b3) (@gs_inv b3) pinv toy_sf toy_ppf (logistic bf) (cfgm "ipw") cl rows8 y gB pB tB [cov1] = Ok (r, Some st) /\
  lg_grad rows8 [fun i => oR (cov1 i)] (fun i => oR (gB i)) [0; 0] (fun _ => 1) = 0 /\
  ps_g_mean st = 1 / 2 /\ ps_g_std st = 0 /\ ps_p_mean st = 1 / 2 /\ ps_p_std st = 0.
Proof. exact (ps_case pinv cl y). Qed.
End Case.

Print Assumptions C142_present.
Print Assumptions C142_range.
Print Assumptions C142_crossed_trim.
Print Assumptions C142_failed_fit.
Print Assumptions C142_used.
Print Assumptions C142_probabilities.
Print Assumptions C142_balanced.
Print Assumptions C142_case.

(* TROP's check of the treatment paths on the rows (C80); unsupported results of the pre-trends power analysis (C40); the sample-size cap (C41). *)
From Coq Require Import Reals Lra Lia.
From Verif Require Import Prelude Flt Stats_model Power_model Pretrends_model Trop_model Tight14_thms.
From Coq Require Import Arith ZArith String List.
Import ListNotations.
Open Scope R_scope.

Section Rows.
Context {I : Type}.
Variables (rows : list I) (u tm : I -> Z) (d : I -> option Z).
Hypothesis Hdup : forall p x, (length (filter (fun r => (tm r =? p)%Z && (u r =? x)%Z) rows) <= 1)%nat.
Theorem C80_refused_paths svd sub odd sf ppf cfg y name draws :
  trop_fit_rows svd sub odd sf ppf cfg rows u tm y d name draws <> TErr ENotAbsorbing <->
  (forall r r' a b, In r rows -> In r' rows -> u r = u r' -> (tm r < tm r')%Z -> d r = Some a -> d r' = Some b -> (a <= b)%Z).
Proof. exact (refused_paths rows u tm d Hdup svd sub odd sf ppf cfg y name draws). Qed.
End Rows.
(* unit 1 is treated in periods 1 and 3 and has no row in period 2 *)
Theorem C80_missing_row_case svd sub odd sf ppf cfg y name draws :
  trop_fit_rows svd sub odd sf ppf cfg [(1, 1); (1, 3); (2, 1); (2, 2); (2, 3)]%Z fst snd y (fun r => Some (if Z.eqb (fst r) 1 then 1 else 0)%Z) name draws <> TErr ENotAbsorbing.
Proof. exact (gap_not_refused svd sub odd sf ppf cfg y name draws). Qed.
Theorem C40_unsupported chi2_ppf ncx2_sf ncx2_cdf norm_ppf brentq minv mpinv cfg M pre : pt_fit chi2_ppf ncx2_sf ncx2_cdf norm_ppf brentq minv mpinv cfg POther M pre = Err TypeError.
Proof. exact (pt_unsupported chi2_ppf ncx2_sf ncx2_cdf norm_ppf brentq minv mpinv cfg M pre). Qed.
Theorem C41_cap ppf cfg sigma n_pre n_post rho f : pa_required ppf cfg 0 sigma n_pre n_post rho f = Ok 2147483647%Z.
Proof. exact (required_cap ppf cfg sigma n_pre n_post rho f). Qed.
Print Assumptions C80_refused_paths.
Print Assumptions C80_missing_row_case.
Print Assumptions C40_unsupported.
Print Assumptions C41_cap.

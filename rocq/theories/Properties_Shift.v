(* Moving the origin of the calendar (C133). *)
From Coq Require Import Reals.
From Verif Require Import Prelude Flt Stats_model Linalg_model Linalg_proofs Linalg_vcov Linalg_thms Did_model Did_spec Did_proofs Within_proofs Multi_model Multi_proofs
  Bacon_model Staggered_model Staggered_fit Sun_model Sun_proofs Sun_ex One_ex Shift_proofs Shift_sun Shift_bacon Shift_ex.
From Coq Require Import Arith ZArith String List.
Import ListNotations.
Open Scope R_scope.

Section CS.
Context {I : Type}.
Variable qr : list Z -> list (Z -> R) -> list nat.
Variable lstsq : list Z -> list (Z -> R) -> (Z -> R) -> list R.
Variable inv : list Z -> list (Z -> R) -> option (nat -> nat -> R).
Variable logit : list Z -> list Z -> list (Z -> R) -> option (Z -> R).
Variable sf : option Z -> fl -> fl.
Variable ppf : option Z -> R -> R.
Variables (rows : list I) (u t : I -> Z) (g : I -> coh) (y : I -> option R) (covs : list (I -> option R)) (d : Z).
Hypothesis Hok : forall i, In i rows -> origin_ok d (g i).
Notation t' := (fun i => (t i + d)%Z).
Notation g' := (fun i => cshift d (g i)).
Theorem C133_callaway cfg agg bal ws :
  cs_fit qr lstsq inv logit sf ppf rows u t' g' y covs cfg agg bal ws = on_ok (shift_cs d) (cs_fit qr lstsq inv logit sf ppf rows u t g y covs cfg agg bal ws).
Proof. exact (cs_origin qr lstsq inv logit sf ppf rows u t g y covs d Hok cfg agg bal ws). Qed.
End CS.
Section Sun.
Context {I : Type}.
Variable qr : list I -> list (I -> R) -> list nat.
Variable lstsq : list I -> list (I -> R) -> (I -> R) -> list R.
Variable inv : list I -> list (I -> R) -> option (nat -> nat -> R).
Variable pinv : list I -> list (I -> R) -> nat -> nat -> R.
Variable sf : option Z -> fl -> fl.
Variable ppf : option Z -> R -> R.
Variables (u t : I -> Z) (g : I -> coh) (y : I -> R) (covs : list (I -> R)) (cluster : option (I -> Z)) (d : Z).
Hypothesis Hok : forall i, origin_ok d (g i).
Notation t' := (fun i => (t i + d)%Z).
Notation g' := (fun i => cshift d (g i)).
Theorem C133_sun_abraham cfg rows :
  sa_fit qr lstsq inv pinv sf ppf u t' g' y covs cluster cfg rows = on_ok (shift_sa d) (sa_fit qr lstsq inv pinv sf ppf u t g y covs cluster cfg rows).
Proof. exact (sa_origin qr lstsq inv pinv sf ppf u t g y covs cluster d Hok cfg rows). Qed.
End Sun.
Section B.
Context {I : Type}.
Variables (rows : list I) (u t : I -> Z) (g : I -> coh) (y : I -> R) (d : Z).
Hypothesis Hok : forall i, origin_ok d (g i).
Hypothesis Hne : rows <> [].
Notation t' := (fun i => (t i + d)%Z).
Notation g' := (fun i => cshift d (g i)).
Theorem C133_bacon ex : bacon_fit rows u t' g' y ex = shift_bacon d (bacon_fit rows u t g y ex).
Proof. exact (bacon_origin rows u t g y d Hok Hne ex). Qed.
End B.
Section Lost.
Context {I : Type}.
Variables (rows : list I) (u t : I -> Z) (g : I -> coh) (d : Z).
Hypothesis Hl : forall i, In i rows -> lost d (g i).
Notation t' := (fun i => (t i + d)%Z).
Notation g' := (fun i => cshift d (g i)).
Theorem C133_lost_dates_callaway_refuted qr lstsq inv logit sf ppf y covs cfg agg bal ws :
  cs_fit qr lstsq inv logit sf ppf rows u t' g' y covs cfg agg bal ws = Err ValueError.
Proof. exact (lost_cs rows u t g d Hl qr lstsq inv logit sf ppf y covs cfg agg bal ws). Qed.
Theorem C133_lost_dates_sun_refuted qr lstsq inv pinv sf ppf y covs cluster cfg :
  sa_fit qr lstsq inv pinv sf ppf u t' g' y covs cluster cfg rows = Err ValueError.
Proof. exact (lost_sun rows u t g d Hl qr lstsq inv pinv sf ppf y covs cluster cfg). Qed.
Theorem C133_lost_dates_bacon_refuted y ex : bo_comparisons (bacon_fit rows u t' g' y ex) = [] /\ bo_error (bacon_fit rows u t' g' y ex) = Fin (Rabs (btwfe rows u t' g' y)) /\
  ((forall i k, g i = CFin k -> (k + d <> 0)%Z \/ k = 0%Z) -> bo_twfe (bacon_fit rows u t' g' y ex) = bo_twfe (bacon_fit rows u t g y ex)).
Proof. exact (lost_bacon rows u t g d Hl y ex). Qed.
End Lost.
Section Ex.
Variable qr : list Z -> list (Z -> R) -> list nat.
Variable lstsq : list Z -> list (Z -> R) -> (Z -> R) -> list R.
Variable inv : list Z -> list (Z -> R) -> option (nat -> nat -> R).
Variable logit : list Z -> list Z -> list (Z -> R) -> option (Z -> R).
Variable sf : option Z -> fl -> fl.
Variable ppf : option Z -> R -> R.
Notation fit d := (cs_fit qr lstsq inv logit sf ppf s_rows fst (fun i => (snd i + d)%Z) (fun i => cshift d (s_C (fst i))) s_y [] (demo_cfg "never_treated" 0 "dr" "varying") None None []).
Theorem C133_zero_date_refuted : exists r r', fit 0%Z = Ok r /\ fit (-2)%Z = Ok r' /\ cr_groups r = [CFin 2; CFin 4] /\ cr_groups r' = [CFin 2] /\
  cr_n_control r = 1%nat /\ cr_n_control r' = 2%nat /\ cr_att r = Fin (19 / 2) /\ cr_att r' = Fin (-1).
Proof. exact (zero_date qr lstsq inv logit sf ppf). Qed.
Theorem C133_case : (forall i : Z * Z, origin_ok 2000 (s_C (fst i))) /\ ~ (forall i : Z * Z, origin_ok (-2) (s_C (fst i))) /\
  exists r, fit 2000%Z = Ok r /\ cr_att r = Fin (19 / 2) /\ cr_groups r = [CFin 2002; CFin 2004].
Proof. exact (origin_case qr lstsq inv logit sf ppf). Qed.
End Ex.
Print Assumptions C133_callaway.
Print Assumptions C133_sun_abraham.
Print Assumptions C133_bacon.
Print Assumptions C133_lost_dates_callaway_refuted.
Print Assumptions C133_lost_dates_sun_refuted.
Print Assumptions C133_lost_dates_bacon_refuted.
Print Assumptions C133_zero_date_refuted.
Print Assumptions C133_case.

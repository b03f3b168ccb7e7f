(* The numbers of treated and never-treated units reported by CallawaySantAnna, SunAbraham and BaconDecomposition (C140). *)
From Verif Require Import Prelude Flt Stats_model Linalg_model Did_model Multi_model Multi_proofs Bacon_model Staggered_model Staggered_proofs Staggered_fit Sun_model Sun_thms Counts_thms.
From Coq Require Import Arith ZArith String List.
Import ListNotations.
Open Scope R_scope.

Section Cs.
Context {I : Type}.
Variable qr : list Z -> list (Z -> R) -> list nat.
Variable lstsq : list Z -> list (Z -> R) -> (Z -> R) -> list R.
Variable inv : list Z -> list (Z -> R) -> option (nat -> nat -> R).
Variable logit : list Z -> list Z -> list (Z -> R) -> option (Z -> R).
Variable sf : option Z -> fl -> fl.
Variable ppf : option Z -> R -> R.
Variables (rows : list I) (u t : I -> Z) (g : I -> coh) (y : I -> option R) (covs : list (I -> option R)).
Notation fit := (cs_fit qr lstsq inv logit sf ppf rows u t g y covs).
Theorem C140_cs_counts cfg agg bal ws r : fit cfg agg bal ws = Ok r ->
  cr_n_obs r = length rows /\ (0 < cr_n_control r)%nat /\
  counts rows u (first_row rows u (never_coded g)) (cr_n_control r) /\ counts rows u (first_recorded rows u g (after_zero g)) (cr_n_treated r).
Proof. exact (cs_counts qr lstsq inv logit sf ppf rows u t g y covs cfg agg bal ws r). Qed.
Theorem C140_cs_no_never cfg agg bal ws : (forall i, In i rows -> ~ never_coded g i) -> fit cfg agg bal ws = Err ValueError.
Proof. exact (cs_no_never qr lstsq inv logit sf ppf rows u t g y covs cfg agg bal ws). Qed.
Theorem C140_cs_partition cfg agg bal ws r (C : Z -> coh) : fit cfg agg bal ws = Ok r -> (forall i, In i rows -> g i = C (u i)) ->
  (forall i, In i rows -> exists k, g i = CFin k /\ (0 <= k)%Z) -> (cr_n_control r + cr_n_treated r = length (nodup Z.eq_dec (map u rows)))%nat.
Proof. exact (cs_partition qr lstsq inv logit sf ppf rows u t g y covs cfg agg bal ws r C). Qed.
Theorem C140_cs_infinite_refuted cfg agg bal ws r (C : Z -> coh) : fit cfg agg bal ws = Ok r -> (forall i, In i rows -> g i = C (u i)) ->
  (forall i, In i rows -> g i = CInf \/ exists k, g i = CFin k /\ (0 <= k)%Z) -> let U := nodup Z.eq_dec (map u rows) in
  (cr_n_control r + cr_n_treated r = length U + length (filter (fun a => match C a with CInf => true | _ => false end) U))%nat.
Proof. exact (cs_infinite qr lstsq inv logit sf ppf rows u t g y covs cfg agg bal ws r C). Qed.
End Cs.

Section Sa.
Context {I : Type}.
Variable qr : list I -> list (I -> R) -> list nat.
Variable lstsq : list I -> list (I -> R) -> (I -> R) -> list R.
Variable inv : list I -> list (I -> R) -> option (nat -> nat -> R).
Variable pinv : list I -> list (I -> R) -> nat -> nat -> R.
Variable sf : option Z -> fl -> fl.
Variable ppf : option Z -> R -> R.
Variables (u t : I -> Z) (g : I -> coh) (y : I -> R) (covs : list (I -> R)) (cluster : option (I -> Z)).
Notation fit := (sa_fit qr lstsq inv pinv sf ppf u t g y covs cluster).
Theorem C140_sa_counts cfg rows r : fit cfg rows = Ok r ->
  sa_rn_obs r = length rows /\ (0 < sa_rn_control r)%nat /\
  counts rows u (first_row rows u (never_coded g)) (sa_rn_control r) /\ counts rows u (first_recorded rows u g (after_zero g)) (sa_rn_treated r).
Proof. exact (sa_counts qr lstsq inv pinv sf ppf u t g y covs cluster cfg rows r). Qed.
Theorem C140_sa_no_never cfg rows : (forall i, In i rows -> ~ never_coded g i) -> fit cfg rows = Err ValueError.
Proof. exact (sa_no_never qr lstsq inv pinv sf ppf u t g y covs cluster cfg rows). Qed.
Theorem C140_sa_partition cfg rows r (C : Z -> coh) : fit cfg rows = Ok r -> (forall i, In i rows -> g i = C (u i)) ->
  (forall i, In i rows -> exists k, g i = CFin k /\ (0 <= k)%Z) -> (sa_rn_control r + sa_rn_treated r = length (nodup Z.eq_dec (map u rows)))%nat.
Proof. exact (sa_partition qr lstsq inv pinv sf ppf u t g y covs cluster cfg rows r C). Qed.
Theorem C140_sa_infinite_refuted cfg rows r (C : Z -> coh) : fit cfg rows = Ok r -> (forall i, In i rows -> g i = C (u i)) ->
  (forall i, In i rows -> g i = CInf \/ exists k, g i = CFin k /\ (0 <= k)%Z) -> let U := nodup Z.eq_dec (map u rows) in
  (sa_rn_control r + sa_rn_treated r = length U + length (filter (fun a => match C a with CInf => true | _ => false end) U))%nat.
Proof. exact (sa_infinite qr lstsq inv pinv sf ppf u t g y covs cluster cfg rows r C). Qed.
End Sa.

Section Ba.
Context {I : Type}.
Variables (rows : list I) (u t : I -> Z) (g : I -> coh) (y : I -> R).
Theorem C140_bacon_counts exact : let b := bacon_fit rows u t g y exact in
  bo_nobs b = length rows /\ counts rows u (first_recorded rows u g (never_coded g)) (bo_n_never b) /\
  bo_n_groups b = length (bo_groups b) /\ NoDup (bo_groups b) /\ (forall k, In k (bo_groups b) <-> (0 < k)%Z /\ exists i, In i rows /\ g i = CFin k).
Proof. exact (bacon_counts rows u t g y exact). Qed.
End Ba.

Theorem C140_same_never_count {I} (rows : list I) (u : I -> Z) (g : I -> coh) (C : Z -> coh) n m : (forall i, In i rows -> g i = C (u i)) ->
  counts rows u (first_row rows u (never_coded g)) n -> counts rows u (first_recorded rows u g (never_coded g)) m -> n = m.
Proof. exact (never_agree rows u g C n m). Qed.
(* unit 1 is never treated, but its first row has no cohort *)
Theorem C140_late_cohort_refuted qr lstsq inv logit sf ppf y cfg agg bal ws yb exact :
  cs_fit qr lstsq inv logit sf ppf late_rows fst snd late_g y [] cfg agg bal ws = Err ValueError /\
  bo_n_never (bacon_fit late_rows fst snd late_g yb exact) = 1%nat.
Proof. exact (late_case qr lstsq inv logit sf ppf y cfg agg bal ws yb exact). Qed.
(* the three-unit panel of C18: two treated units, one never treated *)
Theorem C140_counts_case qr lstsq inv logit sf ppf : exists cfg r,
  cs_fit qr lstsq inv logit sf ppf rows35 fst snd (fun i => C35 (fst i)) y35 [] cfg (Some "event_study"%string) None [] = Ok r /\
  cr_n_control r = 1%nat /\ cr_n_treated r = 2%nat /\ forall i, In i rows35 -> exists k, C35 (fst i) = CFin k /\ (0 <= k)%Z.
Proof. exact (counts35 qr lstsq inv logit sf ppf). Qed.
Print Assumptions C140_cs_counts.
Print Assumptions C140_cs_no_never.
Print Assumptions C140_cs_partition.
Print Assumptions C140_cs_infinite_refuted.
Print Assumptions C140_sa_counts.
Print Assumptions C140_sa_no_never.
Print Assumptions C140_sa_partition.
Print Assumptions C140_sa_infinite_refuted.
Print Assumptions C140_bacon_counts.
Print Assumptions C140_same_never_count.
Print Assumptions C140_late_cohort_refuted.
Print Assumptions C140_counts_case.

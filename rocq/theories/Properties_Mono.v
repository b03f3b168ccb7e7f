(* Order-preserving renaming of the periods, and gaps between them (C134). *)
From Coq Require Import Reals.
From Verif Require Import Prelude Flt Stats_model Linalg_model Linalg_proofs Linalg_vcov Linalg_thms Did_model Did_spec Did_proofs Within_proofs Multi_model Multi_proofs
  Bacon_model Staggered_model Staggered_fit Sun_model Sun_proofs Sun_ex One_ex Shift_proofs Shift_sun Shift_bacon Shift_ex Mono_proofs Mono_bacon Mono_ex.
From Coq Require Import Arith ZArith String List.
Import ListNotations.
Open Scope R_scope.

Section Mp.
Variable f : Z -> Z.
Hypothesis Hf : increasing f.
Context {I K G : Type} (keq : forall x y : K, {x = y} + {x <> y}) (geq : forall x y : G, {x = y} + {x <> y}).
Variable qr : list I -> list (I -> R) -> list nat.
Variable lstsq : list I -> list (I -> R) -> (I -> R) -> list R.
Variable inv : list I -> list (I -> R) -> option (nat -> nat -> R).
Variable pinv : list I -> list (I -> R) -> nat -> nat -> R.
Variable sf : option Z -> fl -> fl.
Variable ppf : option Z -> R -> R.
Theorem C134_multi_period cfg rows y d t post ref covs dums absorb :
  mp_fit keq geq qr lstsq inv sf ppf cfg rows y d (fun i => f (t i)) (option_map (map f) post) (option_map f ref) covs dums absorb
  = on_ok (rename_mp f) (mp_fit keq geq qr lstsq inv sf ppf cfg rows y d t post ref covs dums absorb).
Proof. exact (mp_rename f Hf keq geq qr lstsq inv sf ppf cfg rows y d t post ref covs dums absorb). Qed.
End Mp.
Section B.
Context {I : Type}.
Variables (rows : list I) (u t : I -> Z) (g : I -> coh) (y : I -> R) (f : Z -> Z).
Hypothesis Hf : increasing f.
Hypothesis Hok : forall i, rename_ok f (g i).
Hypothesis Hne : rows <> [].
Notation t' := (fun i => f (t i)).
Notation g' := (fun i => crename f (g i)).
Theorem C134_bacon ex : bacon_fit rows u t' g' y ex = rename_bacon f (bacon_fit rows u t g y ex).
Proof. exact (bacon_rename rows u t g y f Hf Hok Hne ex). Qed.
End B.
Section CS.
Context {I : Type}.
Variable qr : list Z -> list (Z -> R) -> list nat.
Variable lstsq : list Z -> list (Z -> R) -> (Z -> R) -> list R.
Variable inv : list Z -> list (Z -> R) -> option (nat -> nat -> R).
Variable logit : list Z -> list Z -> list (Z -> R) -> option (Z -> R).
Variable sf : option Z -> fl -> fl.
Variable ppf : option Z -> R -> R.
Variables (rows : list I) (u t : I -> Z) (g : I -> coh) (y : I -> option R) (covs : list (I -> option R)).
Notation fit := (cs_fit qr lstsq inv logit sf ppf rows u t g y covs).
Theorem C134_callaway_gaps_refuted cfg agg bal ws : (forall i j, In i rows -> In j rows -> t i <> (t j - 1)%Z) ->
  (forall i j k, In i rows -> In j rows -> g i = CFin k -> (0 < k)%Z -> t j <> (k - 1 - cs_anticipation cfg)%Z) ->
  fit cfg agg bal ws = Err ValueError.
Proof. exact (cs_gaps qr lstsq inv logit sf ppf rows u t g y covs cfg agg bal ws). Qed.
End CS.
Theorem C134_callaway_doubled_refuted {I} qr lstsq inv logit sf ppf (rows : list I) u t g y covs cfg agg bal ws : Z.Even (cs_anticipation cfg) ->
  cs_fit qr lstsq inv logit sf ppf rows u (fun i => twice (t i)) (fun i => crename twice (g i)) y covs cfg agg bal ws = Err ValueError.
Proof. exact (cs_doubled qr lstsq inv logit sf ppf rows u t g y covs cfg agg bal ws). Qed.
Section SA.
Context {I : Type}.
Variable qr : list I -> list (I -> R) -> list nat.
Variable lstsq : list I -> list (I -> R) -> (I -> R) -> list R.
Variable inv : list I -> list (I -> R) -> option (nat -> nat -> R).
Variable pinv : list I -> list (I -> R) -> nat -> nat -> R.
Variable sf : option Z -> fl -> fl.
Variable ppf : option Z -> R -> R.
Hypothesis Hqr : qr_ok qr.
Hypothesis Hls : lstsq_ok lstsq.
Hypothesis Hd : dist_ok sf ppf.
Variables (u t : I -> Z) (g : I -> coh) (y : I -> R) (cluster : option (I -> Z)) (C : Z -> coh) (rows : list I) (m : nat).
Hypothesis Hbal : Within_proofs.balanced Z.eq_dec Z.eq_dec rows u t m.
Hypothesis HC : forall i, In i rows -> g i = C (u i).
Hypothesis Hval : forall i, In i rows -> valid_coh (g i) = true.
Notation fit := (sa_fit qr lstsq inv pinv sf ppf u t g y [] cluster).
Theorem C134_sun_gap_refuted cfg r i0 k : In i0 rows -> g i0 = CFin k -> (0 < k)%Z ->
  (forall j, In j rows -> g j = CFin k -> (t j - k <> sa_ref cfg /\ -20 <= t j - k <= 20)%Z) ->
  fit cfg rows = Ok r ->
  exists e ef, In (e, ef) (sa_es r) /\ se_eff ef = NaN /\ se_se ef = NaN /\ se_t ef = Fin 0 /\ se_p ef = Fin 1 /\ se_ci ef = (NaN, NaN) /\
    ((0 <= e)%Z -> sa_att r = NaN /\ sa_se r = NaN /\ sa_tt r = Fin 0 /\ sa_p r = Fin 1).
Proof. exact (sun_gap qr lstsq inv pinv sf ppf Hqr Hls Hd u t g y cluster C rows m Hbal HC Hval cfg r i0 k). Qed.
End SA.
Section Ex.
Variable qr : list (Z * Z) -> list (Z * Z -> R) -> list nat.
Variable lstsq : list (Z * Z) -> list (Z * Z -> R) -> (Z * Z -> R) -> list R.
Variable inv : list (Z * Z) -> list (Z * Z -> R) -> option (nat -> nat -> R).
Variable pinv : list (Z * Z) -> list (Z * Z -> R) -> nat -> nat -> R.
Variable sf : option Z -> fl -> fl.
Variable ppf : option Z -> R -> R.
Hypothesis Hqr : qr_ok qr.
Hypothesis Hls : lstsq_ok lstsq.
Hypothesis Hinv : inv_ok inv.
Hypothesis Hd : dist_ok sf ppf.
Notation t2 := (fun i : Z * Z => twice (snd i)).
Notation g2 := (fun i : Z * Z => crename twice (gco o_C i)).
Theorem C134_case qr2 lstsq2 inv2 logit : exists rm rs rc rs',
  mp_fit Z.eq_dec Z.eq_dec qr lstsq inv sf ppf o_cfg o_rows o_y o_d snd (Some [3; 4]%Z) None [] [] [] = Ok rm /\
  mp_fit Z.eq_dec Z.eq_dec qr lstsq inv sf ppf o_cfg o_rows o_y o_d t2 (Some [6; 8]%Z) None [] [] [] = Ok (rename_mp twice rm) /\ mp_avg rm = Fin 10 /\
  bo_twfe (bacon_fit o_rows fst snd (gco o_C) o_y true) = 10 /\ bo_twfe (bacon_fit o_rows fst t2 g2 o_y true) = 10 /\ bo_groups (bacon_fit o_rows fst t2 g2 o_y true) = [6%Z] /\
  cs_fit qr2 lstsq2 inv2 logit sf ppf o_rows fst snd (gco o_C) (fun i => Some (o_y i)) [] (demo_cfg "never_treated" 0 "reg" "varying") None None [] = Ok rc /\ cr_att rc = Fin (17 / 2) /\
  cs_fit qr2 lstsq2 inv2 logit sf ppf o_rows fst t2 g2 (fun i => Some (o_y i)) [] (demo_cfg "never_treated" 0 "reg" "varying") None None [] = Err ValueError /\
  sa_fit qr lstsq inv pinv sf ppf fst snd (gco o_C) o_y [] None (sa_demo "never_treated" 0) o_rows = Ok rs /\ sa_att rs = Fin (17 / 2) /\
  sa_fit qr lstsq inv pinv sf ppf fst t2 g2 o_y [] None (sa_demo "never_treated" 0) o_rows = Ok rs' /\
  exists e ef, In (e, ef) (sa_es rs') /\ se_eff ef = NaN /\ se_p ef = Fin 1.
Proof. exact (spacing_case qr lstsq inv pinv sf ppf Hqr Hls Hinv Hd qr2 lstsq2 inv2 logit). Qed.
End Ex.
Print Assumptions C134_multi_period.
Print Assumptions C134_bacon.
Print Assumptions C134_callaway_gaps_refuted.
Print Assumptions C134_callaway_doubled_refuted.
Print Assumptions C134_sun_gap_refuted.
Print Assumptions C134_case.

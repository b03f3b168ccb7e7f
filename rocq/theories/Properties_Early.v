(* Units that are treated in every period of the data (C141). *)
From Verif Require Import Prelude Flt Stats_model Linalg_model Linalg_vcov Linalg_thms Did_model Within_proofs Multi_model Bacon_model Staggered_model Staggered_fit Boot_model Boot_proofs Sun_model Sun_proofs Sun_ex One_ex Early_thms Early_ex.
From Coq Require Import Arith ZArith String List.
Import ListNotations.
Open Scope R_scope.

(* the rows that are left *)
Theorem C141_left_rows {I} (rows : list I) t g i : In i (without_early rows t g) <->
  In i rows /\ ~ (exists k, g i = CFin k /\ k <> 0%Z /\ forall j, In j rows -> (k <= t j)%Z).
Proof. exact (kept_iff rows t g i). Qed.
Section Early.
Context {I : Type}.
Variable qr : list Z -> list (Z -> R) -> list nat.
Variable lstsq : list Z -> list (Z -> R) -> (Z -> R) -> list R.
Variable inv : list Z -> list (Z -> R) -> option (nat -> nat -> R).
Variable logit : list Z -> list Z -> list (Z -> R) -> option (Z -> R).
Variable sf : option Z -> fl -> fl.
Variable ppf : option Z -> R -> R.
Hypothesis Hqr : qr_ok qr.
Hypothesis Hls : lstsq_ok lstsq.
Variables (rows : list I) (u t : I -> Z) (g : I -> coh) (y : I -> option R) (C : Z -> coh).
Hypothesis HC : forall i, In i rows -> g i = C (u i).
Notation early := (from_start rows t).
Notation kept := (without_early rows t g).
Hypothesis Hper : forall i, In i rows -> exists j, In j kept /\ t j = t i.
Notation fit rows := (cs_fit qr lstsq inv logit sf ppf rows u t g y []).

Theorem C141_callaway cfg agg bal ws : (0 <= cs_anticipation cfg)%Z -> (ws = [] \/ 0 <= cs_alpha cfg <= 1) ->
  (forall a p, (length (filter (fun i => Z.eqb (u i) a && Z.eqb (t i) p) rows) <= 1)%nat) ->
  match fit rows cfg agg bal ws, fit kept cfg agg bal ws with
  | Ok r, Ok r' =>
      map (fun e => (ge_g e, ge_t e, ge_base e, ge_eff e, ge_se e, ge_T e, ge_C e)) (cr_effects r') =
      map (fun e => (ge_g e, ge_t e, ge_base e, ge_eff e, ge_se e, ge_T e, ge_C e)) (cr_effects r) /\
      cr_reports r' = cr_reports r /\ cr_att r' = cr_att r /\ cr_se r' = cr_se r /\ cr_t r' = cr_t r /\ cr_p r' = cr_p r /\ cr_ci r' = cr_ci r /\
      cr_periods r' = cr_periods r /\ cr_n_control r' = cr_n_control r /\ cr_es r' = cr_es r /\ cr_group r' = cr_group r /\ cr_boot r' = cr_boot r /\
      cr_groups r' = filter (fun c => negb (from_start rows t c)) (cr_groups r) /\
      cr_n_treated r = (cr_n_treated r' + length (filter (fun a => early (C a) && c_gt (C a) 0) (cs_units rows u)))%nat /\
      cr_n_obs r = length rows /\ cr_n_obs r' = length kept
  | Err e, Err f => e = f
  | _, _ => False
  end.
Proof. exact (early_ignored qr lstsq inv logit sf ppf Hqr Hls rows u t g y C HC Hper cfg agg bal ws). Qed.
End Early.

Section SA.
Context {I : Type}.
Variable qr : list I -> list (I -> R) -> list nat.
Variable lstsq : list I -> list (I -> R) -> (I -> R) -> list R.
Variable inv : list I -> list (I -> R) -> option (nat -> nat -> R).
Variable pinv : list I -> list (I -> R) -> nat -> nat -> R.
Variable sf : option Z -> fl -> fl.
Variable ppf : option Z -> R -> R.
Hypothesis Hqr : qr_ok qr.
Hypothesis Hls : lstsq_ok lstsq.
Hypothesis Hd : dist_ok sf ppf.
Variables (u t : I -> Z) (g : I -> coh) (y : I -> R) (cluster : option (I -> Z)) (C : Z -> coh) (rows : list I) (m : nat).
Hypothesis Hbal : Within_proofs.balanced Z.eq_dec Z.eq_dec rows u t m.
Hypothesis HC : forall i, In i rows -> g i = C (u i).
Hypothesis Hval : forall i, In i rows -> valid_coh (g i) = true.
Theorem C141_sun_refuted cfg r i0 k : (0 <= sa_anticipation cfg)%Z -> In i0 rows -> g i0 = CFin k -> (0 < k)%Z ->
  (forall j, In j rows -> (k <= t j <= k + 20)%Z) -> sa_fit qr lstsq inv pinv sf ppf u t g y [] cluster cfg rows = Ok r ->
  exists e ef, In (e, ef) (sa_es r) /\ se_eff ef = NaN /\ se_se ef = NaN /\ se_t ef = Fin 0 /\ se_p ef = Fin 1 /\ se_ci ef = (NaN, NaN) /\
    ((0 <= e)%Z -> sa_att r = NaN /\ sa_se r = NaN /\ sa_tt r = Fin 0 /\ sa_p r = Fin 1).
Proof. exact (sun_early qr lstsq inv pinv sf ppf Hqr Hls Hd u t g y cluster C rows m Hbal HC Hval cfg r i0 k). Qed.
End SA.

(* the panel of C132 with a fourth unit treated from the first period on, whatever its outcomes *)
Section Ex.
Variable qr : list (Z * Z) -> list (Z * Z -> R) -> list nat.
Variable lstsq : list (Z * Z) -> list (Z * Z -> R) -> (Z * Z -> R) -> list R.
Variable inv : list (Z * Z) -> list (Z * Z -> R) -> option (nat -> nat -> R).
Variable pinv : list (Z * Z) -> list (Z * Z -> R) -> nat -> nat -> R.
Variable sf : option Z -> fl -> fl.
Variable ppf : option Z -> R -> R.
Hypothesis Hqr : qr_ok qr.
Hypothesis Hls : lstsq_ok lstsq.
Hypothesis Hinv : inv_ok inv.
Hypothesis Hd : dist_ok sf ppf.
Variable qr2 : list Z -> list (Z -> R) -> list nat.
Variable lstsq2 : list Z -> list (Z -> R) -> (Z -> R) -> list R.
Variable inv2 : list Z -> list (Z -> R) -> option (nat -> nat -> R).
Variable logit : list Z -> list Z -> list (Z -> R) -> option (Z -> R).
Hypothesis Hqr2 : qr_ok qr2.
Hypothesis Hls2 : lstsq_ok lstsq2.
Notation cs rows C y := (cs_fit qr2 lstsq2 inv2 logit sf ppf rows fst snd (gco C) y [] (demo_cfg "never_treated" 0 "reg" "varying") None None []).
Notation sa rows C y := (sa_fit qr lstsq inv pinv sf ppf fst snd (gco C) y [] None (sa_demo "never_treated" 0) rows).

Theorem C141_case z : exists r rs rs', cs early_rows early_C (fun i => Some (early_y z i)) = Ok r /\ cr_att r = Fin (17 / 2) /\ cr_n_treated r = 2%nat /\
  sa o_rows o_C o_y = Ok rs /\ sa_att rs = Fin (17 / 2) /\ sa early_rows early_C (early_y z) = Ok rs' /\
  exists e ef, In (e, ef) (sa_es rs') /\ se_eff ef = NaN /\ se_p ef = Fin 1.
Proof. exact (early_case qr lstsq inv pinv sf ppf Hqr Hls Hinv Hd qr2 lstsq2 inv2 logit Hqr2 Hls2 z). Qed.
End Ex.

Print Assumptions C141_left_rows.
Print Assumptions C141_callaway.
Print Assumptions C141_sun_refuted.
Print Assumptions C141_case.

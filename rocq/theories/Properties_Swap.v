(* Exchanging the roles of the indicators and complementing them (C137). *)
From Coq Require Import Reals.
From Verif Require Import Prelude Flt Stats_model Linalg_model Linalg_proofs Linalg_vcov Did_model Did_spec Did_proofs Multi_model Reg_effects Triple_model Triple_proofs Triple_thms Triple_fit Triple_ex Triple_equiv Swap_proofs Linalg_thms Linalg_thms Swap_triple Swap_ex.
From Coq Require Import Arith ZArith String List.
Import ListNotations.
Open Scope R_scope.

(* ---- DifferenceInDifferences ---- *)
Section Did.
Context {I K G : Type} (keq : forall x y : K, {x = y} + {x <> y}) (geq : forall x y : G, {x = y} + {x <> y}).
Variable qr : list I -> list (I -> R) -> list nat.
Variable lstsq : list I -> list (I -> R) -> (I -> R) -> list R.
Variable inv : list I -> list (I -> R) -> option (nat -> nat -> R).
Variable pinv : list I -> list (I -> R) -> nat -> nat -> R.
Variable sf : option Z -> fl -> fl.
Variable ppf : option Z -> R -> R.
Hypothesis Hqr : qr_ok qr.
Hypothesis Hls : lstsq_ok lstsq.
Hypothesis Hinv : inv_ok inv.
Notation fit := (did_fit keq geq qr lstsq inv pinv sf ppf).
Notation fR x := (fun i => toR (x i)).
Notation did_identified := (did_identified geq).
Theorem C137_did_exchange cfg rows y d t covs dums absorb r : did_identified rows y d t covs dums absorb -> fit cfg rows y d t covs dums absorb = Ok r ->
  exists r', fit cfg rows y t d covs dums absorb = Ok r' /\ same_report rows r r' /\ r_n_obs r' = r_n_obs r /\
    r_n_treated r' = sumf (fR t) rows /\ r_n_control r' = sumf (fun i => 1 - toR (t i)) rows.
Proof. exact (did_swap keq geq qr lstsq inv pinv sf ppf Hqr Hls Hinv cfg rows y d t covs dums absorb r). Qed.
Theorem C137_did_treated_complement cfg rows y d t covs dums absorb r : did_identified rows y d t covs dums absorb -> fit cfg rows y d t covs dums absorb = Ok r ->
  exists r', fit cfg rows y (fcomp d) t covs dums absorb = Ok r' /\ opposite_report rows r r' /\ r_n_obs r' = r_n_obs r /\
    r_n_treated r' = r_n_control r /\ r_n_control r' = r_n_treated r.
Proof. exact (did_treated_complement keq geq qr lstsq inv pinv sf ppf Hqr Hls Hinv cfg rows y d t covs dums absorb r). Qed.
Theorem C137_did_time_complement cfg rows y d t covs dums absorb r : did_identified rows y d t covs dums absorb -> fit cfg rows y d t covs dums absorb = Ok r ->
  exists r', fit cfg rows y d (fcomp t) covs dums absorb = Ok r' /\ opposite_report rows r r' /\ r_n_obs r' = r_n_obs r /\
    r_n_treated r' = sumf (fR d) rows /\ r_n_control r' = sumf (fun i => 1 - toR (d i)) rows.
Proof. exact (did_time_complement keq geq qr lstsq inv pinv sf ppf Hqr Hls Hinv cfg rows y d t covs dums absorb r). Qed.
(* nine rows with the four cells filled meet the hypotheses for every outcome *)
End Did.
Theorem C137_did_case {K G} (keq : forall x y : K, {x = y} + {x <> y}) (geq : forall x y : G, {x = y} + {x <> y}) qr lstsq inv pinv sf ppf cfg (y : b3 -> R) :
  qr_ok qr -> lstsq_ok lstsq -> inv_ok inv -> parse_action (c_action cfg) <> None -> c_cluster cfg = None ->
  did_identified geq rows9 (fun i => Fin (y i)) dB sB [] [] [] /\ exists r, did_fit keq geq qr lstsq inv pinv sf ppf cfg rows9 (fun i => Fin (y i)) dB sB [] [] [] = Ok r.
Proof. exact (dB_fits keq geq qr lstsq inv pinv sf ppf cfg y). Qed.

(* ---- TripleDifference ---- *)
Section Triple.
Context {I K : Type} (keq : forall x y : K, {x = y} + {x <> y}).
Variable qr : list I -> list (I -> R) -> list nat.
Variable lstsq : list I -> list (I -> R) -> (I -> R) -> list R.
Variable inv : list I -> list (I -> R) -> option (nat -> nat -> R).
Variable pinv : list I -> list (I -> R) -> nat -> nat -> R.
Variable sf : option Z -> fl -> fl.
Variable ppf : option Z -> R -> R.
Variable logit : list I -> list (I -> R) -> (I -> R) -> option (I -> R).
Notation fit := (ddd_fit keq qr lstsq inv pinv sf ppf logit).
Notation f x := (fun i => oR (x i)).
Theorem C137_weighting_exchange cfg cl rows y G P T covs r : dd_method cfg <> "reg"%string -> fit cfg cl rows y G P T covs = Ok r ->
  exists r', fit cfg cl rows y P G T covs = Ok r' /\ same_numbers r r' /\ tr_r2 r' = tr_r2 r.
Proof. exact (weighting_swap keq qr lstsq inv pinv sf ppf logit cfg cl rows y G P T covs r). Qed.
Theorem C137_dr_reversed cfg cl rows y G P T covs r : dd_method cfg = "dr"%string -> fit cfg cl rows y G P T covs = Ok r ->
  exists r', fit cfg cl rows y G P (ocomp T) covs = Ok r' /\ opposite_numbers r r'.
Proof. exact (dr_reversed keq qr lstsq inv pinv sf ppf logit cfg cl rows y G P T covs r). Qed.
Theorem C137_ipw_reversed_estimate cfg cl rows y G P T covs r : dd_method cfg = "ipw"%string -> fit cfg cl rows y G P T covs = Ok r ->
  exists r', fit cfg cl rows y G P (ocomp T) covs = Ok r' /\ tr_att r' = fneg (tr_att r).
Proof. exact (ipw_reversed keq qr lstsq inv pinv sf ppf logit cfg cl rows y G P T covs r). Qed.
Theorem C137_dr_group_complement cfg cl rows y G P T r : dd_method cfg = "dr"%string -> unclipped rows (f G) (f P) cfg -> fit cfg cl rows y G P T [] = Ok r ->
  exists r', fit cfg cl rows y (ocomp G) P T [] = Ok r' /\ opposite_numbers r r'.
Proof. exact (dr_group_complement keq qr lstsq inv pinv sf ppf logit cfg cl rows y G P T r). Qed.
Theorem C137_dr_partition_complement cfg cl rows y G P T r : dd_method cfg = "dr"%string -> unclipped rows (f G) (f P) cfg -> fit cfg cl rows y G P T [] = Ok r ->
  exists r', fit cfg cl rows y G (ocomp P) T [] = Ok r' /\ opposite_numbers r r'.
Proof. exact (dr_partition_complement keq qr lstsq inv pinv sf ppf logit cfg cl rows y G P T r). Qed.
Theorem C137_ipw_group_complement_estimate cfg cl rows y G P T r : dd_method cfg = "ipw"%string -> dd_trim cfg < 1 -> fit cfg cl rows y G P T [] = Ok r ->
  exists r', fit cfg cl rows y (ocomp G) P T [] = Ok r' /\ tr_att r' = fneg (tr_att r).
Proof. exact (ipw_group_complement keq qr lstsq inv pinv sf ppf logit cfg cl rows y G P T r). Qed.
Theorem C137_ipw_partition_complement_estimate cfg cl rows y G P T r : dd_method cfg = "ipw"%string -> dd_trim cfg < 1 -> fit cfg cl rows y G P T [] = Ok r ->
  exists r', fit cfg cl rows y G (ocomp P) T [] = Ok r' /\ tr_att r' = fneg (tr_att r).
Proof. exact (ipw_partition_complement keq qr lstsq inv pinv sf ppf logit cfg cl rows y G P T r). Qed.
Section Reg.
Hypothesis Hqr : qr_ok qr.
Hypothesis Hls : lstsq_ok lstsq.
Hypothesis Hinv : inv_ok inv.
Theorem C137_reg_exchange cfg cl rows y G P T covs r : dd_method cfg = "reg"%string -> identified_col rows (ddd_design (f G) (f P) (f T) (map (fun c => f c) covs)) 7 ->
  fit cfg cl rows y G P T covs = Ok r ->
  (exists r', fit cfg cl rows y P G T covs = Ok r' /\ same_numbers r r' /\ tr_r2 r' = tr_r2 r) /\
  (exists r', fit cfg cl rows y G T P covs = Ok r' /\ same_numbers r r' /\ tr_r2 r' = tr_r2 r).
Proof. exact (reg_swap keq qr lstsq inv pinv sf ppf logit Hqr Hls Hinv cfg cl rows y G P T covs r). Qed.
Theorem C137_reg_complement cfg cl rows y G P T covs r : dd_method cfg = "reg"%string -> identified_col rows (ddd_design (f G) (f P) (f T) (map (fun c => f c) covs)) 7 ->
  fit cfg cl rows y G P T covs = Ok r ->
  (exists r', fit cfg cl rows y (ocomp G) P T covs = Ok r' /\ opposite_numbers r r' /\ tr_r2 r' = tr_r2 r) /\
  (exists r', fit cfg cl rows y G (ocomp P) T covs = Ok r' /\ opposite_numbers r r' /\ tr_r2 r' = tr_r2 r) /\
  (exists r', fit cfg cl rows y G P (ocomp T) covs = Ok r' /\ opposite_numbers r r' /\ tr_r2 r' = tr_r2 r).
Proof. exact (reg_complement keq qr lstsq inv pinv sf ppf logit Hqr Hls Hinv cfg cl rows y G P T covs r). Qed.
End Reg.
End Triple.

(* eight rows, one per cell: the standard error of ipw is 0.5, 1.18 with the periods reversed, 0.91 with the groups exchanged *)
Section Case.
Variable qr : list b3 -> list (b3 -> R) -> list nat.
Variable lstsq : list b3 -> list (b3 -> R) -> (b3 -> R) -> list R.
Variable inv : list b3 -> list (b3 -> R) -> option (nat -> nat -> R).
Variable pinv : list b3 -> list (b3 -> R) -> nat -> nat -> R.
Variable sf : option Z -> fl -> fl.
Variable ppf : option Z -> R -> R.
Variable logit : list b3 -> list (b3 -> R) -> (b3 -> R) -> option (b3 -> R).
Notation fit := (ddd_fit Z.eq_dec qr lstsq inv pinv sf ppf logit).
Theorem C137_ipw_error_refuted cl : exists a b c, fit (cfgm "ipw") cl rows8 (yspike 1) gB pB tB [] = Ok a /\ fit (cfgm "ipw") cl rows8 (yspike 1) gB pB (ocomp tB) [] = Ok b /\
  fit (cfgm "ipw") cl rows8 (yspike 1) (ocomp gB) pB tB [] = Ok c /\
  tr_att a = Fin 1 /\ tr_att b = Fin (-1) /\ tr_att c = Fin (-1) /\ tr_se a = Fin (sqrt (14 / 56)) /\ tr_se b = Fin (sqrt (78 / 56)) /\ tr_se c = Fin (sqrt (46 / 56)).
Proof. exact (ipw_reversed_se qr lstsq inv pinv sf ppf logit cl). Qed.
End Case.
(* the nine-row data of C120 meet the hypotheses of the regression and the weighting theorems *)
Example C137_triple_case pinv logit cl y : (forall i, y i <> None) ->
  identified_col rows9 (ddd_design (fun i => oR (gB i)) (fun i => oR (pB i)) (fun i => oR (tB i)) []) 7 /\
  (exists r, ddd_fit Z.eq_dec (@gs_dropped b3) (@gs b3) (@gs_inv b3) pinv toy_sf toy_ppf logit cfgc cl rows9 y gB pB tB [] = Ok r) /\
  unclipped rows9 (fun i => oR (gB i)) (fun i => oR (pB i)) (cfgm "dr") /\
  (exists r, ddd_fit Z.eq_dec (@gs_dropped b3) (@gs b3) (@gs_inv b3) pinv toy_sf toy_ppf logit (cfgm "dr") cl rows9 y gB pB tB [] = Ok r).
Proof. intros Hy. split; [exact ex9_identified|]. split; [exact (ex9_fits_reg pinv logit cl y Hy)|]. split; [exact (unclipped9 "dr")|]. exact (ex9_fits pinv logit "dr" cl y ltac:(discriminate) Hy). Qed.
Print Assumptions C137_did_exchange.
Print Assumptions C137_did_treated_complement.
Print Assumptions C137_did_time_complement.
Print Assumptions C137_did_case.
Print Assumptions C137_weighting_exchange.
Print Assumptions C137_dr_reversed.
Print Assumptions C137_ipw_reversed_estimate.
Print Assumptions C137_dr_group_complement.
Print Assumptions C137_dr_partition_complement.
Print Assumptions C137_ipw_group_complement_estimate.
Print Assumptions C137_ipw_partition_complement_estimate.
Print Assumptions C137_reg_exchange.
Print Assumptions C137_reg_complement.
Print Assumptions C137_ipw_error_refuted.

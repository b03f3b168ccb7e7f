(* Properties of MultiPeriodDiD: statements only. *)
From Verif Require Import Prelude Flt Linalg_model Linalg_proofs Linalg_vcov Linalg_thms Did_model Did_spec Did_proofs
  Multi_model Multi_proofs Multi_thms.
From Coq Require Import Arith ZArith String List.
Import ListNotations.
Open Scope R_scope.

Section P.
Context {I K G : Type} (keq : forall x y : K, {x = y} + {x <> y}) (geq : forall x y : G, {x = y} + {x <> y}).
Variable qr : list I -> list (I -> R) -> list nat.
Variable lstsq : list I -> list (I -> R) -> (I -> R) -> list R.
Variable inv : list I -> list (I -> R) -> option (nat -> nat -> R).
Variable sf : option Z -> fl -> fl.
Variable ppf : option Z -> R -> R.
Hypothesis Hqr : qr_ok qr.
Hypothesis Hls : lstsq_ok lstsq.
Hypothesis Hinv : inv_ok inv.
Notation fit := (mp_fit keq geq qr lstsq inv sf ppf).

(* C13: what each period effect is, with any number of pre-periods and any reference period *)
Theorem C13_period_effects cfg rows y d t post ref absorb r :
  fit cfg rows y d t post ref [] [] absorb = Ok r -> identified rows d t (mp_post r) ->
  let y' := fst (fst (absorb_loop geq rows absorb y [])) in
  map pe_effect (mp_effects r)
  = map (fun p => Fin (meanf y' (mcell rows d t 1 p) - meanf y' (mcell rows d t 0 p)
                       - pre_gap rows d t (mp_post r) y')) (mp_post r).
Proof. exact (mp_period_effects keq geq qr lstsq inv sf ppf Hqr Hls cfg rows y d t post ref absorb r). Qed.

(* C13: with a single pre-period q, a difference in differences of cell means *)
Theorem C13_one_pre_period cfg rows y d t post ref r q :
  fit cfg rows y d t post ref [] [] [] = Ok r -> mp_pre r = [q] -> NoDup (mp_post r) ->
  (forall p, In p (q :: mp_post r) -> mcell rows d t 0 p <> [] /\ mcell rows d t 1 p <> []) ->
  map pe_effect (mp_effects r)
  = map (fun p => Fin ((meanf y (mcell rows d t 1 p) - meanf y (mcell rows d t 1 q))
                     - (meanf y (mcell rows d t 0 p) - meanf y (mcell rows d t 0 q)))) (mp_post r).
Proof. exact (mp_one_pre_period keq geq qr lstsq inv sf ppf Hqr Hls cfg rows y d t post ref r q). Qed.

(* C13: the reference period changes nothing, even when it is a post period *)
Theorem C13_reference_irrelevant cfg cfg' rows y d t post ref ref' absorb r r' :
  fit cfg rows y d t post ref [] [] absorb = Ok r ->
  fit cfg' rows y d t post ref' [] [] absorb = Ok r' ->
  identified rows d t (mp_post r) ->
  mp_post r' = mp_post r /\ mp_pre r' = mp_pre r /\
  map pe_effect (mp_effects r') = map pe_effect (mp_effects r) /\ mp_avg r' = mp_avg r.
Proof. exact (mp_reference_irrelevant keq geq qr lstsq inv sf ppf Hqr Hls cfg cfg' rows y d t post ref ref' absorb r r'). Qed.

(* C13: the average *)
Theorem C13_average cfg rows y d t post ref covs dums absorb r :
  fit cfg rows y d t post ref covs dums absorb = Ok r ->
  (In NaN (map pe_effect (mp_effects r)) ->
     mp_avg r = NaN /\ mp_avg_se r = NaN /\ mp_avg_t r = NaN /\ mp_avg_p r = NaN /\ mp_avg_ci r = (NaN, NaN)) /\
  (forall es, map pe_effect (mp_effects r) = map Fin es -> mp_avg r = Fin (meanf idR es)).
Proof. exact (mp_avg_is_mean keq geq qr lstsq inv sf ppf cfg rows y d t post ref covs dums absorb r). Qed.

Theorem C13_average_se cfg rows y d t post ref absorb r :
  fit cfg rows y d t post ref [] [] absorb = Ok r ->
  identified rows d t (mp_post r) -> (c_robust cfg = true \/ c_cluster cfg <> None) ->
  let idxs := map (mp_index (data_periods rows t) (mp_ref r)) (seq 0 (length (mp_post r))) in
  exists v : nat -> nat -> R,
    (forall a b, mp_vcov r a b = Fin (v a b)) /\
    0 <= sumf (fun a => sumf (fun b => v a b) idxs) idxs /\
    mp_avg_se r = Fin (sqrt (sumf (fun a => sumf (fun b => v a b) idxs) idxs / (len (mp_post r) * len (mp_post r)))) /\
    (forall j, (j < length (mp_post r))%nat ->
       let a := nth j idxs O in
       pe_se (nth j (mp_effects r) (mp_effect sf ppf 0 0 [] (fun _ _ => NaN) 0 0)) = Fin (sqrt (v a a)) /\ 0 <= v a a).
Proof. exact (mp_avg_se_delta keq geq qr lstsq inv sf ppf Hqr Hls Hinv cfg rows y d t post ref absorb r). Qed.

(* C13: an unidentified period effect makes the average NaN *)
Theorem C13_no_treated_rows cfg rows y d t post ref covs dums absorb r j :
  fit cfg rows y d t post ref covs dums absorb = Ok r ->
  (j < length (mp_post r))%nat -> mcell rows d t 1 (nth j (mp_post r) 0%Z) = [] ->
  nth j (map pe_effect (mp_effects r)) (Fin 0) = NaN /\ mp_avg r = NaN /\ mp_avg_se r = NaN /\ mp_avg_p r = NaN.
Proof. exact (mp_no_treated_rows_nan keq geq qr lstsq inv sf ppf Hqr Hls cfg rows y d t post ref covs dums absorb r j). Qed.

(* C13: parallel trends *)
Theorem C13_exact_recovery cfg rows y d t post ref r (g : R) (lam tau : Z -> R) :
  fit cfg rows y d t post ref [] [] [] = Ok r -> identified rows d t (mp_post r) ->
  (forall i, In i rows -> y i = lam (t i) + g * d i + (if zmem (t i) (mp_post r) then tau (t i) * d i else 0)) ->
  map pe_effect (mp_effects r) = map (fun p => Fin (tau p)) (mp_post r).
Proof. exact (mp_exact_recovery keq geq qr lstsq inv sf ppf Hqr Hls cfg rows y d t post ref r g lam tau). Qed.

(* C13: which periods are pre, post and reference; the default split *)
Theorem C13_periods cfg rows y d t post ref covs dums absorb r :
  fit cfg rows y d t post ref covs dums absorb = Ok r ->
  map pe_period (mp_effects r) = mp_post r /\ mp_pre r <> [] /\ mp_post r <> [] /\
  (forall p, In p (mp_pre r) <-> (exists i, In i rows /\ t i = p) /\ ~ In p (mp_post r)) /\
  (forall p, In p (mp_post r) -> exists i, In i rows /\ t i = p) /\
  (post = None -> mp_pre r ++ mp_post r = data_periods rows t /\
                  length (mp_pre r) = Nat.div (length (data_periods rows t)) 2) /\
  (forall l, post = Some l -> mp_post r = l) /\ (forall p, ref = Some p -> mp_ref r = p) /\
  (ref = None -> hd_error (mp_pre r) = Some (mp_ref r)).
Proof. exact (mp_periods_thm keq geq qr lstsq inv sf ppf cfg rows y d t post ref covs dums absorb r). Qed.
Theorem C13_fit_defined cfg rows y d t post ref pre' post' ref' :
  zero_one rows d -> mp_setup (data_periods rows t) post ref = Ok (pre', post', ref') ->
  identified rows d t post' ->
  (1 + length (data_periods rows t) + length post' < length rows)%nat ->
  (match c_cluster cfg with None => True | Some cl => (2 <= length (cl_keys keq rows cl))%nat end) ->
  parse_action (c_action cfg) <> None ->
  exists r, fit cfg rows y d t post ref [] [] [] = Ok r /\ mp_pre r = pre' /\ mp_post r = post' /\ mp_ref r = ref'.
Proof. exact (mp_fit_defined keq geq qr lstsq inv sf ppf Hqr Hls Hinv cfg rows y d t post ref pre' post' ref'). Qed.
End P.

(* the data's periods are sorted, without repetition, and are exactly the labels that occur *)
Theorem C13_data_periods {I} (rows : list I) (t : I -> Z) :
  NoDup (data_periods rows t) /\ zsorted (data_periods rows t) /\
  (forall p, In p (data_periods rows t) <-> exists i, In i rows /\ t i = p).
Proof. exact (conj (data_periods_nodup rows t) (conj (zsort_sorted _) (data_periods_in rows t))). Qed.

(* non-vacuity: a panel with three periods, two treated and two control rows in each, any outcome *)
Example C13_case robust y :
  exists r, exm_fit (exm_cfg robust None) (seq 0 12) y exm_d exm_t None None [] [] [] = Ok r /\
    mp_pre r = [0]%Z /\ mp_post r = [1; 2]%Z /\ identified (seq 0 12) exm_d exm_t (mp_post r).
Proof. exact (exm_fit_ok robust y). Qed.

Print Assumptions C13_period_effects.
Print Assumptions C13_one_pre_period.
Print Assumptions C13_reference_irrelevant.
Print Assumptions C13_average.
Print Assumptions C13_average_se.
Print Assumptions C13_no_treated_rows.
Print Assumptions C13_exact_recovery.
Print Assumptions C13_periods.
Print Assumptions C13_fit_defined.
Print Assumptions C13_case.

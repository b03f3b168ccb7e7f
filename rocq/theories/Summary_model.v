(* The computed parts of the printed summaries: the contribution table of BaconDecompositionResults.summary (diff_diff/bacon.py:121-231), the
   interpretation of PlaceboTestResults.summary (diff_diff/diagnostics.py:86-160), the unit weights of SyntheticDiDResults.summary
   (diff_diff/results.py:602-621) and the breakdown line of SensitivityResults.summary (diff_diff/honest_did.py:391-428).
   Column widths and the number of printed digits are not modelled: a printed number is the number itself. *)
From Verif Require Import Prelude Flt Bacon_model Diag_model Honest_model Export_model.
From Coq Require Import Arith ZArith String List.
Import ListNotations.
Open Scope R_scope.

(* ---------- Goodman-Bacon, bacon.py:121-231 ---------- *)
(* x or 0: None and 0.0 are falsy, NaN is not *)
Definition or_zero (x : option fl) : fl := match x with Some v => if feqb v (Fin 0) then Fin 0 else v | None => Fin 0 end.
(* one line of the table, 160-196: type, weight, average, contribution *)
Record bline := { bl_type : ctype; bl_weight : R; bl_avg : fl; bl_contrib : fl }.
Definition bacon_line (o : bacon_out) (ty : ctype) : list bline :=
  if Rlt_dec 0 (bo_weights o ty)
  then [{| bl_type := ty; bl_weight := bo_weights o ty; bl_avg := or_zero (bo_averages o ty);
           bl_contrib := fmul (Fin (bo_weights o ty)) (or_zero (bo_averages o ty)) |}]
  else [].
Definition bacon_lines (o : bacon_out) : list bline := bacon_line o TreatedNever ++ bacon_line o EarlierLater ++ bacon_line o LaterEarlier.
(* the Total line, 198-204 with _total_weight and _weighted_sum, 223-231 *)
Definition bacon_total (o : bacon_out) : R * fl := (sumf cmp_weight (bo_comparisons o), weighted_sum (bo_comparisons o)).
(* the WARNING and its percentage, 207-218 *)
Definition bacon_warning (o : bacon_out) : option R :=
  if Rlt_dec (1/100) (bo_weights o LaterEarlier) then Some (bo_weights o LaterEarlier * 100) else None.

(* ---------- placebo tests, diagnostics.py:139-160 ---------- *)
(* the sentence "... detected (p < 0.05)." or "... detected (p >= 0.05)." as a statement about a p-value *)
Definition printed_claim {U} (r : placebo U) (p : fl) : bool := if pl_signif r then flt p (Fin (1/20)) else fge p (Fin (1/20)).

(* ---------- synthetic difference-in-differences, results.py:602-621 ---------- *)
(* sorted(..., reverse=True) is the argument [sort]; None: no block is printed for an empty dictionary.  The second part is n_nonzero. *)
Definition top_weights (sort : list (Z * R) -> list (Z * R)) (w : list (Z * R)) : option (list (Z * R) * nat) :=
  match w with
  | [] => None
  | _ => Some (filter (fun x => Rltb (1/1000) (snd x)) (firstn (Nat.min 5 (length w)) (sort w)),
               length (filter (fun x => Rltb (1/1000) (snd x)) w))
  end.

(* ---------- HonestDiD sensitivity, honest_did.py:404-412 ---------- *)
Inductive sens_line : Type := AlwaysSignificant | RobustUpTo (M : R).
Definition sens_text (q : hd_sens) : sens_line := match hs_breakdown q with Some M => RobustUpTo M | None => AlwaysSignificant end.

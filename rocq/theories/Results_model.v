(* Model of the result objects' reporting: diff_diff/results.py (DiDResults, PeriodEffect,
   MultiPeriodDiDResults, SyntheticDiDResults), staggered_results.py, sun_abraham.py:88-250,
   triple_diff.py:120-265 and trop.py:180-350, which all repeat the same three members:
   is_significant (p < alpha), significance_stars, and summary(alpha). *)
From Verif Require Import Prelude Flt Multi_model.
From Coq Require Import Arith ZArith String List.
Import ListNotations.
Open Scope R_scope.

(* _get_significance_stars, results.py:183-200 *)
Definition get_stars (p : fl) : string :=
  if fisnan p then ""
  else if flt p (Fin (1/1000)) then "***"
  else if flt p (Fin (1/100)) then "**"
  else if flt p (Fin (1/20)) then "*"
  else if flt p (Fin (1/10)) then "."
  else "".

Record report := { rp_est : fl; rp_se : fl; rp_p : fl; rp_ci : fl * fl; rp_alpha : R }.

(* DiDResults.is_significant 172-175, MultiPeriodDiDResults 472-475, SyntheticDiDResults 702-705 *)
Definition rep_significant (r : report) : bool := flt (rp_p r) (Fin (rp_alpha r)).
(* PeriodEffect.is_significant 239-242 *)
Definition period_significant (p : fl) : bool := flt p (Fin (1/20)).

(* int(x): truncation towards zero *)
Definition trunc (x : R) : Z := if Rle_dec 0 x then Int_part x else (- Int_part (- x))%Z.

(* summary(alpha), 85-86 and 117: `alpha or self.alpha` also replaces 0.0; the interval printed is
   the stored one *)
Definition summary_level (alpha : option R) (r : report) : R :=
  match alpha with
  | Some a => if Req_EM_T a 0 then rp_alpha r else a
  | None => rp_alpha r
  end.
Definition summary_ci (alpha : option R) (r : report) : Z * (fl * fl) :=
  (trunc ((1 - summary_level alpha r) * 100), rp_ci r).

(* MultiPeriodDiDResults.get_effect, 391-415: period_effects is a dict filled in post-period order
   (a later equal key overwrites) *)
Fixpoint dict_get (l : list period_effect) (p : Z) : option period_effect :=
  match l with
  | [] => None
  | e :: r => match dict_get r p with
              | Some x => Some x
              | None => if Z.eqb (pe_period e) p then Some e else None
              end
  end.
Definition get_effect (l : list period_effect) (p : Z) : res period_effect :=
  match dict_get l p with Some e => Ok e | None => Err KeyError end.
(* MultiPeriodDiDResults.to_dataframe, 449-470: one row per key; is_significant column is PeriodEffect's *)
Definition df_significant (l : list period_effect) : list bool := map (fun e => period_significant (pe_p e)) l.

(* CallawaySantAnnaResults.to_dataframe, staggered_results.py:229-286: which table, or which error *)
Inductive level_table := TGroupTime | TEvent | TGroup.
Definition cs_to_dataframe (level : string) (has_event has_group : bool) : res level_table :=
  if String.eqb level "group_time" then Ok TGroupTime
  else if String.eqb level "event_study" then (if has_event then Ok TEvent else Err ValueError)
  else if String.eqb level "group" then (if has_group then Ok TGroup else Err ValueError)
  else Err ValueError.

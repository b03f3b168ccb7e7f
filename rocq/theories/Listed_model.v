(* MultiPeriodDiD.fit with a post_periods argument that may list a period twice
   (diff_diff/estimators.py:870-997).  mp_fit (Multi_model) reads the j-th listed period at the j-th interaction
   column.  The code stores the positions in a dictionary keyed by the period (870-877), so that a period listed
   twice is read at its LAST column, both times; period_effects is a dictionary too (937-957), while effect_values
   and effect_indices are lists and keep one entry per listed period.  mp_fit_listed is the fit with these
   dictionaries; Listed_proofs shows that it is mp_fit when no period is repeated. *)
From Verif Require Import Prelude Flt Linalg_model Did_model Multi_model.
From Coq Require Import Arith ZArith String List.
Import ListNotations.
Open Scope R_scope.

(* interaction_indices[period] after the loop 872-877, counted from the first interaction column *)
Fixpoint last_pos (p : Z) (l : list Z) : nat :=
  match l with
  | [] => O
  | x :: r => if zmem p r then S (last_pos p r) else O
  end.

(* period_effects[period] = ... (949-956): a dictionary keeps the place of the first insertion and the last value *)
Fixpoint pe_set (l : list period_effect) (e : period_effect) : list period_effect :=
  match l with
  | [] => [e]
  | x :: r => if Z.eqb (pe_period x) (pe_period e) then e :: r else x :: pe_set r e
  end.
Definition pe_dict (l : list period_effect) : list period_effect := fold_left pe_set l [].

Section Listed.
Context {I K G : Type} (keq : forall x y : K, {x = y} + {x <> y}) (geq : forall x y : G, {x = y} + {x <> y}).
Variable qr : list I -> list (I -> R) -> list nat.
Variable lstsq : list I -> list (I -> R) -> (I -> R) -> list R.
Variable inv : list I -> list (I -> R) -> option (nat -> nat -> R).
Variable sf : option Z -> fl -> fl.
Variable ppf : option Z -> R -> R.

(* 932-997 for the fitted coefficients and variance *)
Definition mp_read (alpha : R) (all : list Z) (r : mp_result I) : mp_result I :=
  let idxs := map (fun p => mp_index all (mp_ref r) (last_pos p (mp_post r))) (mp_post r) in
  let effs := map (fun pj => mp_effect sf ppf alpha (mp_df r) (mp_coef r) (mp_vcov r) (fst pj) (snd pj))
                  (combine (mp_post r) idxs) in
  let '(avg, avg_se, avg_t, avg_p, avg_ci) :=
    mp_average sf ppf alpha (mp_df r) (map pe_effect effs) (mp_vcov r) idxs in
  {| mp_effects := pe_dict effs; mp_avg := avg; mp_avg_se := avg_se; mp_avg_t := avg_t;
     mp_avg_p := avg_p; mp_avg_ci := avg_ci; mp_n_obs := mp_n_obs r;
     mp_n_treated := mp_n_treated r; mp_n_control := mp_n_control r;
     mp_pre := mp_pre r; mp_post := mp_post r; mp_ref := mp_ref r;
     mp_coef := mp_coef r; mp_vcov := mp_vcov r; mp_resid := mp_resid r; mp_df := mp_df r |}.

(* estimators.py:716-1018 *)
Definition mp_fit_listed (cfg : did_config I K) (rows : list I) (y d : I -> R) (t : I -> Z)
    (post : option (list Z)) (ref : option Z)
    (covs : list (I -> R)) (dums : list (I -> R)) (absorb : list (I -> G)) : res (mp_result I) :=
  do r <- mp_fit keq geq qr lstsq inv sf ppf cfg rows y d t post ref covs dums absorb ;
  Ok (mp_read (c_alpha cfg) (zsort (nodup Z.eq_dec (map t rows))) r).
End Listed.

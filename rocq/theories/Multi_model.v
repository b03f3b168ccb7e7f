(* Model of MultiPeriodDiD.fit (diff_diff/estimators.py:716-1018).
   Periods are integer labels (any totally ordered label works the same way); outcome and treatment
   are real columns (NaN is rejected by _validate_data 533-564, inf by solve_ols, linalg.py:470-480).
   Column-existence checks are the typing of the arguments.
   The j-th listed post period is read at the j-th interaction column; lists with repetitions, where the code's
   dictionaries read the last copy, are handled by mp_fit_listed in Listed_model (equal without repetitions). *)
From Verif Require Import Prelude Flt Linalg_model Did_model.
From Coq Require Import Arith ZArith String List.
Import ListNotations.
Open Scope R_scope.

(* sorted(data[time].unique()) *)
Fixpoint zinsert (x : Z) (l : list Z) : list Z :=
  match l with
  | [] => [x]
  | y :: r => if Z.leb x y then x :: l else y :: zinsert x r
  end.
Definition zsort (l : list Z) : list Z := fold_right zinsert [] l.
Definition zmem (x : Z) (l : list Z) : bool := existsb (Z.eqb x) l.

(* estimators.py:785-818: pre and post periods, and the reference period *)
Definition mp_periods (all : list Z) (post : option (list Z)) : list Z * list Z :=
  match post with
  | None => (firstn (Nat.div (length all) 2) all, skipn (Nat.div (length all) 2) all)
  | Some l => (filter (fun p => negb (zmem p l)) all, l)
  end.

Definition mp_setup (all : list Z) (post : option (list Z)) (ref : option Z) : res (list Z * list Z * Z) :=
  let '(pre, post) := mp_periods all post in
  match post, pre with
  | [], _ => Err ValueError
  | _, [] => Err ValueError
  | _, p0 :: _ =>
      if negb (forallb (fun p => zmem p all) post) then Err ValueError
      else match ref with
           | None => Ok (pre, post, p0)
           | Some r => if zmem r all then Ok (pre, post, r) else Err ValueError
           end
  end.

(* utils.py:81-143: unlike linalg.py's helpers, any integer df is handed to scipy's t distribution,
   which answers nan for df <= 0 *)
Section UInf.
Variable sf : option Z -> fl -> fl.
Variable ppf : option Z -> R -> R.
Definition u_sf (df : option Z) (x : fl) : fl :=
  match df with Some d => if Z.ltb 0 d then sf df x else NaN | None => sf None x end.
Definition u_ppf (df : option Z) (q : R) : fl :=
  match df with Some d => if Z.ltb 0 d then Fin (ppf df q) else NaN | None => Fin (ppf None q) end.
Definition u_p_value (t : fl) (df : option Z) : fl := fmul (Fin 2) (u_sf df (fabs t)).
Definition u_ci (est se : fl) (alpha : R) (df : option Z) : fl * fl :=
  let cv := u_ppf df (1 - alpha / 2) in (fsub est (fmul cv se), fadd est (fmul cv se)).
End UInf.

Record period_effect := {
  pe_period : Z; pe_effect : fl; pe_se : fl; pe_t : fl; pe_p : fl; pe_ci : fl * fl }.

Record mp_result {I : Type} := {
  mp_effects : list period_effect;
  mp_avg : fl; mp_avg_se : fl; mp_avg_t : fl; mp_avg_p : fl; mp_avg_ci : fl * fl;
  mp_n_obs : nat; mp_n_treated : R; mp_n_control : R;
  mp_pre : list Z; mp_post : list Z; mp_ref : Z;
  mp_coef : list fl; mp_vcov : nat -> nat -> fl; mp_resid : I -> R; mp_df : Z }.
Arguments mp_result : clear implicits.

Section Fit.
Context {I K G : Type} (keq : forall x y : K, {x = y} + {x <> y}) (geq : forall x y : G, {x = y} + {x <> y}).
Variable qr : list I -> list (I -> R) -> list nat.
Variable lstsq : list I -> list (I -> R) -> (I -> R) -> list R.
Variable inv : list I -> list (I -> R) -> option (nat -> nat -> R).
Variable sf : option Z -> fl -> fl.
Variable ppf : option Z -> R -> R.

Definition at_period (t : I -> Z) (p : Z) (i : I) : R := ind (Z.eqb (t i) p).

(* estimators.py:846-885 *)
Definition mp_design (d : I -> R) (t : I -> Z) (all post : list Z) (ref : Z) (extra : list (I -> R))
  : list (I -> R) :=
  [(fun _ => 1); d]
  ++ map (at_period t) (filter (fun p => negb (Z.eqb p ref)) all)
  ++ map (fun p i => d i * at_period t p i) post
  ++ extra.

(* interaction_indices: position of the j-th post period's interaction *)
Definition mp_index (all : list Z) (ref : Z) (j : nat) : nat :=
  (2 + length (filter (fun p => negb (Z.eqb p ref)) all) + j)%nat.

(* estimators.py:911-930: homoskedastic variance when robust=False and no cluster; solve raises
   LinAlgError on a singular matrix *)
Definition mp_classical (rows : list I) (cols : list (I -> R)) (coef : list fl) (e : I -> R)
  : res (nat -> nat -> fl) :=
  let kept := finite_positions coef in
  let xr := select_cols cols kept in
  let mse := fdiv (Fin (sumf (fun i => e i * e i) rows)) (Fin (INR (length rows) - INR (length kept))) in
  match inv rows xr with
  | None => Err LinAlgError
  | Some B => Ok (fun a c => match index_of a kept, index_of c kept with
                             | Some p, Some q => fmul mse (Fin (B p q))
                             | _, _ => NaN
                             end)
  end.

(* estimators.py:937-957: no guard on se = 0 *)
Definition mp_effect (alpha : R) (df : Z) (coef : list fl) (V : nat -> nat -> fl) (p : Z) (idx : nat)
  : period_effect :=
  let est := nth idx coef NaN in
  let se := fsqrt (V idx idx) in
  let t := fdiv est se in
  {| pe_period := p; pe_effect := est; pe_se := se; pe_t := t;
     pe_p := u_p_value sf t (Some df); pe_ci := u_ci ppf est se alpha (Some df) |}.

(* estimators.py:959-997 *)
Definition mp_average (alpha : R) (df : Z) (effects : list fl) (V : nat -> nat -> fl) (idxs : list nat)
  : fl * fl * fl * fl * (fl * fl) :=
  if existsb fisnan effects then (NaN, NaN, NaN, NaN, (NaN, NaN))
  else
    let avg := fmean effects in
    let n := INR (length idxs) in
    let var := fdiv (fsum (map (fun a => fsum (map (fun b => V a b) idxs)) idxs)) (Fin (n * n)) in
    if fisnan var || flt var (Fin 0) then (avg, NaN, NaN, NaN, (NaN, NaN))
    else
      let se := fsqrt var in
      if fgt se (Fin 0) then
        let t := fdiv avg se in
        (avg, se, t, u_p_value sf t (Some df), u_ci ppf avg se alpha (Some df))
      else (avg, se, NaN, NaN, (NaN, NaN)).

Definition mp_fit (cfg : did_config I K) (rows : list I) (y d : I -> R) (t : I -> Z)
    (post : option (list Z)) (ref : option Z)
    (covs : list (I -> R)) (dums : list (I -> R)) (absorb : list (I -> G)) : res (mp_result I) :=
  if negb (two_values rows (fun i => Fin (d i))) then Err ValueError      (* _validate_data *)
  else if negb (binary rows (fun i => Fin (d i))) then Err ValueError     (* validate_binary *)
  else
    let all := zsort (nodup Z.eq_dec (map t rows)) in
    if Nat.ltb (length all) 2 then Err ValueError
    else
      do s <- mp_setup all post ref ;
      let '(pre, post, ref) := s in
      let '(y', covs', n_abs) := absorb_loop geq rows absorb y covs in
      let cols := mp_design d t all post ref (covs' ++ dums) in
      do o <- solve_ols keq qr lstsq inv rows cols y' (c_cluster cfg) true (c_action cfg) ;
      let k_eff := n_effective (o_coef o) in
      let df := (Z.of_nat (length rows) - k_eff - n_abs)%Z in
      do V <- (if negb (c_robust cfg) && (match c_cluster cfg with None => true | _ => false end)
               then mp_classical rows cols (o_coef o) (o_resid o)
               else match o_vcov o with Some V => Ok V | None => Err TypeError end) ;
      let idxs := map (mp_index all ref) (seq 0 (length post)) in
      let effs := map (fun pj => mp_effect (c_alpha cfg) df (o_coef o) V (fst pj) (snd pj)) (combine post idxs) in
      let '(avg, avg_se, avg_t, avg_p, avg_ci) :=
        mp_average (c_alpha cfg) df (map pe_effect effs) V idxs in
      Ok {| mp_effects := effs; mp_avg := avg; mp_avg_se := avg_se; mp_avg_t := avg_t;
            mp_avg_p := avg_p; mp_avg_ci := avg_ci; mp_n_obs := length rows;
            mp_n_treated := sumf d rows; mp_n_control := sumf (fun i => 1 - d i) rows;
            mp_pre := pre; mp_post := post; mp_ref := ref;
            mp_coef := o_coef o; mp_vcov := V; mp_resid := o_resid o; mp_df := df |}.
End Fit.

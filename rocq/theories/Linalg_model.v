(* Model of diff_diff/linalg.py (and of the parts of rust/src/linalg.rs it dispatches to).
   A design matrix is a list of columns, a column is a function of the row, rows are a list of any
   type: numpy's X[:, j][i] is [nth j cols _ i].  float64 is R (no rounding); NaN is explicit in the
   outputs through [fl]. *)
From Verif Require Import Prelude Flt.
From Coq Require Import Arith ZArith String List.
Import ListNotations.
Open Scope R_scope.

Section Design.
Context {I : Type}.

(* X @ b  (linalg.py:690,704; used as X_reduced @ coefficients_reduced and X @ coefficients) *)
Fixpoint lc (cols : list (I -> R)) (b : list R) (i : I) : R :=
  match cols, b with
  | c :: cs, x :: xs => x * c i + lc cs xs i
  | _, _ => 0
  end.

(* inner product of two columns over the rows: (X.T @ X)[j,l] = ip rows c_j c_l (linalg.py:822) *)
Definition ip (rows : list I) (f g : I -> R) : R := sumf (fun i => f i * g i) rows.

(* What scipy.linalg.lstsq (LAPACK gelsd; linalg.py:681-683, 701) guarantees of its first result:
   it minimises ||y - X b||, i.e. it solves the normal equations X'(y - X b) = 0. *)
Definition is_ls (rows : list I) (cols : list (I -> R)) (y : I -> R) (b : list R) : Prop :=
  length b = length cols /\
  Forall (fun c => ip rows c (fun i => y i - lc cols b i) = 0) cols.

(* Entry j of a list of columns; out of range gives the zero column (never used out of range:
   every index below ranges over 0 .. length cols - 1). *)
Definition colx (cols : list (I -> R)) (j : nat) : I -> R := nth j cols (fun _ => 0).

(* X'X B = I: what numpy.linalg.solve(XtX, .) (linalg.py:860-861) computes with. *)
Definition is_inverse (rows : list I) (cols : list (I -> R)) (B : nat -> nat -> R) : Prop :=
  forall a c, (a < length cols)%nat -> (c < length cols)%nat ->
    sumf (fun l => ip rows (colx cols a) (colx cols l) * B l c) (seq 0 (length cols))
    = if Nat.eqb a c then 1 else 0.

(* adjustment and meat of _compute_robust_vcov_numpy, linalg.py:824-829 (HC1) *)
Definition hc1_meat (rows : list I) (cols : list (I -> R)) (e : I -> R) (a b : nat) : R :=
  sumf (fun i => colx cols a i * (colx cols b i * (e i * e i))) rows.

(* cluster_scores = groupby(cluster_ids).sum(), meat = scores' scores, linalg.py:846-854 *)
Definition cl_score {K} (eqd : forall x y : K, {x = y} + {x <> y})
    (rows : list I) (cols : list (I -> R)) (e : I -> R) (cl : I -> K) (g : K) (a : nat) : R :=
  sumf (fun i => colx cols a i * e i) (filter (fun i => keqb eqd (cl i) g) rows).

Definition cl_keys {K} (eqd : forall x y : K, {x = y} + {x <> y}) (rows : list I) (cl : I -> K) : list K :=
  nodup eqd (map cl rows).

Definition cl_meat {K} (eqd : forall x y : K, {x = y} + {x <> y})
    (rows : list I) (cols : list (I -> R)) (e : I -> R) (cl : I -> K) (a b : nat) : R :=
  sumf (fun g => cl_score eqd rows cols e cl g a * cl_score eqd rows cols e cl g b)
       (cl_keys eqd rows cl).

(* temp = solve(XtX, meat); vcov = adjustment * solve(XtX, temp.T).T   (linalg.py:860-861),
   with B the inverse of XtX:  adj * B M B^T. *)
Definition sandwich (k : nat) (adj : R) (B M : nat -> nat -> R) (j m : nat) : R :=
  adj * sumf (fun a => sumf (fun b => B j a * M a b * B m b) (seq 0 k)) (seq 0 k).

(* _compute_robust_vcov_numpy, linalg.py:790-871.  [inv] is numpy.linalg.solve on X'X: None stands
   for LinAlgError "Singular matrix" (re-raised as ValueError, lines 862-869).
   n / (n - k) is Python integer arithmetic, so n = k raises ZeroDivisionError (lines 826, 842). *)
Definition robust_vcov {K} (eqd : forall x y : K, {x = y} + {x <> y})
    (inv : list I -> list (I -> R) -> option (nat -> nat -> R))
    (rows : list I) (cols : list (I -> R)) (e : I -> R) (cluster : option (I -> K))
    : res (nat -> nat -> R) :=
  let n := length rows in let k := length cols in
  let solve adj M :=
    match inv rows cols with
    | None => Err ValueError
    | Some B => Ok (sandwich k adj B M)
    end in
  match cluster with
  | None =>
      if Nat.eqb n k then Err ZeroDivisionError
      else solve (INR n / (INR n - INR k)) (hc1_meat rows cols e)
  | Some cl =>
      let G := length (cl_keys eqd rows cl) in
      if Nat.ltb G 2 then Err ValueError
      else if Nat.eqb n k then Err ZeroDivisionError
      else solve ((INR G / (INR G - 1)) * ((INR n - 1) / (INR n - INR k)))
                 (cl_meat eqd rows cols e cl)
  end.

(* rust/src/linalg.rs:193-277 compute_robust_vcov_internal: same meat and factors, but the sandwich is
   xtx_inv.dot(meat).dot(xtx_inv). *)
Definition sandwich_rust (k : nat) (adj : R) (B M : nat -> nat -> R) (j m : nat) : R :=
  adj * sumf (fun a => sumf (fun b => B j a * M a b * B b m) (seq 0 k)) (seq 0 k).

(* ---- rank handling ---- *)

(* kept_cols = [i for i in range(k) if i not in dropped_cols]  (linalg.py:676) *)
Definition kept_cols (k : nat) (dropped : list nat) : list nat :=
  filter (fun i => negb (existsb (Nat.eqb i) dropped)) (seq 0 k).

Definition select_cols (cols : list (I -> R)) (kept : list nat) : list (I -> R) :=
  map (colx cols) kept.

End Design.

(* position of i in a list of indices *)
Fixpoint index_of (i : nat) (l : list nat) : option nat :=
  match l with
  | [] => None
  | x :: r => if Nat.eqb x i then Some O else option_map S (index_of i r)
  end.

(* _expand_coefficients_with_nan, linalg.py:191-215 *)
Definition expand_coef (coef : list R) (k : nat) (kept : list nat) : list fl :=
  map (fun i => match index_of i kept with
                | Some p => Fin (nth p coef 0)
                | None => NaN end) (seq 0 k).

(* _expand_vcov_with_nan, linalg.py:218-244 *)
Definition expand_vcov (V : nat -> nat -> R) (kept : list nat) (i j : nat) : fl :=
  match index_of i kept, index_of j kept with
  | Some p, Some q => Fin (V p q)
  | _, _ => NaN
  end.

Inductive rank_action := ActWarn | ActError | ActSilent.

(* the string argument; anything else is rejected (linalg.py:461-467) *)
Definition parse_action (s : string) : option rank_action :=
  if String.eqb s "warn" then Some ActWarn
  else if String.eqb s "error" then Some ActError
  else if String.eqb s "silent" then Some ActSilent
  else None.

Record ols_out {I : Type} := {
  o_coef : list fl;
  o_resid : I -> R;
  o_fitted : I -> R;
  o_vcov : option (nat -> nat -> fl);
  o_warned : bool
}.
Arguments ols_out : clear implicits.

Section Solve.
Context {I K : Type} (eqd : forall x y : K, {x = y} + {x <> y}).
Variable qr_dropped : list I -> list (I -> R) -> list nat.        (* _detect_rank_deficiency 85-146 *)
Variable lstsq : list I -> list (I -> R) -> (I -> R) -> list R.   (* scipy.linalg.lstsq *)
Variable inv : list I -> list (I -> R) -> option (nat -> nat -> R). (* numpy.linalg.solve on X'X *)

(* solve_ols 338-580 with _solve_ols_numpy 583-715 (NumPy backend, skip_rank_check=False).
   The finiteness check (470-480) is the typing of columns as real functions.
   [is_2d]/shape checks (444-452) are the typing of columns as functions of the same rows. *)
Definition solve_ols (rows : list I) (cols : list (I -> R)) (y : I -> R)
    (cluster : option (I -> K)) (return_vcov : bool) (action : string) : res (ols_out I) :=
  let n := length rows in let k := length cols in
  if Nat.ltb n k then Err ValueError                                  (* 455-459 *)
  else match parse_action action with
  | None => Err ValueError                                            (* 463-467 *)
  | Some act =>
    let dropped := qr_dropped rows cols in                            (* 514-515 *)
    match dropped with
    | [] =>                                                           (* 698-710 *)
        let b := lstsq rows cols y in
        let fitted := lc cols b in
        let resid := fun i => y i - fitted i in
        if return_vcov then
          do V <- robust_vcov eqd inv rows cols resid cluster;
          Ok {| o_coef := map Fin b; o_resid := resid; o_fitted := fitted;
                o_vcov := Some (fun a c => Fin (V a c)); o_warned := false |}
        else Ok {| o_coef := map Fin b; o_resid := resid; o_fitted := fitted;
                   o_vcov := None; o_warned := false |}
    | _ :: _ =>                                                       (* 655-697 *)
        match act with
        | ActError => Err ValueError
        | _ =>
          let kept := kept_cols k dropped in
          (* 676-677: np.array([]) has dtype float64, so indexing with no kept column raises *)
          if Nat.eqb (length kept) 0 then Err IndexError else
          let xr := select_cols cols kept in
          let b := lstsq rows xr y in
          let fitted := lc xr b in
          let resid := fun i => y i - fitted i in
          let warned := match act with ActWarn => true | _ => false end in
          if return_vcov then
            do V <- robust_vcov eqd inv rows xr resid cluster;
            Ok {| o_coef := expand_coef b k kept; o_resid := resid; o_fitted := fitted;
                  o_vcov := Some (expand_vcov V kept); o_warned := warned |}
          else Ok {| o_coef := expand_coef b k kept; o_resid := resid; o_fitted := fitted;
                     o_vcov := None; o_warned := warned |}
        end
    end
  end.

End Solve.

(* compute_r_squared, linalg.py:874-913.  [y]/[e] are the columns, [rows] the rows. *)
Definition r_squared {I} (rows : list I) (y e : I -> R) (adjusted : bool) (n_params : nat) : R :=
  let ss_res := sumf (fun i => e i * e i) rows in
  let ss_tot := sumf (fun i => (y i - meanf y rows) * (y i - meanf y rows)) rows in
  if Req_EM_T ss_tot 0 then 0
  else let r2 := 1 - ss_res / ss_tot in
       if adjusted then
         let n := length rows in
         if Nat.leb n n_params then r2
         else 1 - (1 - r2) * (INR n - 1) / (INR n - INR n_params)
       else r2.

(* LinearRegression.predict, linalg.py:1431-1463 (X already has its intercept column):
   NaN coefficients are replaced by 0. *)
Definition nan_to_zero (x : fl) : R := match x with Fin r => r | _ => 0 end.
Definition predict {I} (cols : list (I -> R)) (coef : list fl) (i : I) : R :=
  lc cols (map nan_to_zero coef) i.

(* df_ = n_obs - n_params_effective - df_adjustment, linalg.py:1208-1210 *)
Definition n_effective (coef : list fl) : Z :=
  Z.of_nat (length (filter (fun x => negb (fisnan x)) coef)).
Definition fit_df (n : nat) (coef : list fl) (df_adj : Z) : Z :=
  (Z.of_nat n - n_effective coef - df_adj)%Z.

(* LinearRegression.fit, linalg.py:1107-1212, include_intercept=False (the intercept is a column).
   [pinv] is the numpy.linalg.pinv fallback of lines 1180-1193.  mse is a numpy float divided by an
   integer: n = k gives 0/0 = nan (a warning), not an exception. *)
Record linreg {I : Type} := {
  l_coef : list fl;
  l_vcov : nat -> nat -> fl;
  l_resid : I -> R;
  l_fitted : I -> R;
  l_df : Z
}.
Arguments linreg : clear implicits.

Section LinReg.
Context {I K : Type} (eqd : forall x y : K, {x = y} + {x <> y}).
Variable qr_dropped : list I -> list (I -> R) -> list nat.
Variable lstsq : list I -> list (I -> R) -> (I -> R) -> list R.
Variable inv : list I -> list (I -> R) -> option (nat -> nat -> R).
Variable pinv : list I -> list (I -> R) -> nat -> nat -> R.

Definition bread (rows : list I) (cols : list (I -> R)) : nat -> nat -> R :=
  match inv rows cols with Some B => B | None => pinv rows cols end.

(* np.where(~nan_mask)[0], linalg.py:1175 *)
Definition finite_positions (coef : list fl) : list nat :=
  filter (fun j => negb (fisnan (nth j coef NaN))) (seq 0 (length coef)).

Definition classical_vcov (rows : list I) (cols : list (I -> R)) (coef : list fl) (e : I -> R)
    : nat -> nat -> fl :=
  let kept := finite_positions coef in
  let keff := length kept in
  if Nat.eqb keff 0 then fun _ _ => NaN
  else
    let xr := select_cols cols kept in
    let mse := fdiv (Fin (sumf (fun i => e i * e i) rows)) (Fin (INR (length rows) - INR keff)) in
    let B := bread rows xr in
    fun a c => match index_of a kept, index_of c kept with
               | Some p, Some q => fmul mse (Fin (B p q))
               | _, _ => NaN
               end.

Definition linreg_fit (robust : bool) (cluster : option (I -> K)) (action : string) (df_adj : Z)
    (rows : list I) (cols : list (I -> R)) (y : I -> R) : res (linreg I) :=
  let use_sandwich := match cluster with Some _ => true | None => robust end in
  do o <- solve_ols eqd qr_dropped lstsq inv rows cols y cluster use_sandwich action;
  let V := match o_vcov o with
           | Some V => V
           | None => classical_vcov rows cols (o_coef o) (o_resid o)
           end in
  Ok {| l_coef := o_coef o; l_vcov := V; l_resid := o_resid o; l_fitted := o_fitted o;
        l_df := fit_df (length rows) (o_coef o) df_adj |}.
End LinReg.

(* ---- inference ---- *)
Section Inference.
(* scipy.stats: survival function and quantile of |.| statistics.  [None] = normal, [Some df] = t. *)
Variable sf : option Z -> fl -> fl.
Variable ppf : option Z -> R -> R.

Definition use_df (df : option Z) : option Z :=
  match df with Some d => if Z.ltb 0 d then Some d else None | None => None end.

(* _compute_p_value, linalg.py:1471-1501 (two_sided=True) *)
Definition compute_p_value (t : fl) (df : option Z) : fl :=
  fmul (Fin 2) (sf (use_df df) (fabs t)).

(* _compute_confidence_interval, linalg.py:1504-1537 *)
Definition compute_ci (est se : fl) (alpha : R) (df : option Z) : fl * fl :=
  let cv := Fin (ppf (use_df df) (1 - alpha / 2)) in
  (fsub est (fmul cv se), fadd est (fmul cv se)).

Record inference := {
  i_coef : fl; i_se : fl; i_t : fl; i_p : fl; i_ci : fl * fl; i_df : option Z; i_alpha : R
}.

(* LinearRegression.get_inference, linalg.py:1253-1343; [v] is vcov_[index,index];
   alpha_arg/df_arg are the optional arguments, self_alpha/self_df the fitted attributes. *)
Definition get_inference (coef v : fl) (alpha_arg : option R) (df_arg : option Z)
    (self_alpha : R) (self_df : Z) : inference :=
  let se := fsqrt v in
  let t := if fle se (Fin 0) then
             if fgt coef (Fin 0) then PInf else if flt coef (Fin 0) then NInf else Fin 0
           else fdiv coef se in
  let alpha := match alpha_arg with Some a => a | None => self_alpha end in
  let df0 := match df_arg with Some d => Some d | None => Some self_df end in
  let df := use_df df0 in                                              (* 1317-1327 *)
  {| i_coef := coef; i_se := se; i_t := t; i_p := compute_p_value t df;
     i_ci := compute_ci coef se alpha df; i_df := df; i_alpha := alpha |}.
End Inference.

(* InferenceResult.is_significant, linalg.py:966-974 *)
Definition is_significant (r : inference) (alpha : option R) : bool :=
  if fisnan (i_p r) then false
  else flt (i_p r) (Fin (match alpha with Some a => a | None => i_alpha r end)).

(* InferenceResult.significance_stars, linalg.py:976-991 *)
Definition stars_inference (p : fl) : string :=
  if fisnan p then ""
  else if flt p (Fin (1/1000)) then "***"
  else if flt p (Fin (1/100)) then "**"
  else if flt p (Fin (5/100)) then "*"
  else if flt p (Fin (1/10)) then "."
  else "".

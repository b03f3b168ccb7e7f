(* Model of diff_diff/triple_diff.py: TripleDifference (two-period triple difference).
   A column is a function of the row; [None] in an input column is a missing value (NaN); infinite
   input values are outside the model.  Column-existence checks (654-662) are the typing of the
   arguments. *)
From Verif Require Import Prelude Flt Stats_model Linalg_model Did_model Multi_model.
From Coq Require Import Arith ZArith String List.
Import ListNotations.
Open Scope R_scope.

Record ddd_config := {
  dd_method : string;        (* estimation_method *)
  dd_robust : bool;
  dd_alpha : R;
  dd_trim : R;               (* pscore_trim *)
  dd_action : string         (* rank_deficient_action *)
}.

(* __init__, triple_diff.py:486-513 *)
Definition ddd_init (m : string) (robust : bool) (alpha trim : R) (action : string) : res ddd_config :=
  if negb (existsb (String.eqb m) ["dr"; "reg"; "ipw"]%string) then Err ValueError
  else if negb (existsb (String.eqb action) ["warn"; "error"; "silent"]%string) then Err ValueError
  else Ok {| dd_method := m; dd_robust := robust; dd_alpha := alpha; dd_trim := trim; dd_action := action |}.

Definition oR (x : option R) : R := match x with Some r => r | None => 0 end.
Definition o_isna (x : option R) : bool := match x with Some _ => false | None => true end.

Section Cells.
Context {I : Type}.

(* (G == g) & (P == p) & (T == t) *)
Definition cell8 (rows : list I) (G P T : I -> R) (g p t : R) : list I :=
  filter (fun i => Reqb (G i) g && Reqb (P i) p && Reqb (T i) t) rows.

(* (G == g) & (P == p) *)
Definition cell4 (rows : list I) (G P : I -> R) (g p : R) : list I :=
  filter (fun i => Reqb (G i) g && Reqb (P i) p) rows.

(* the masks in the order of the code, 680-689 *)
Definition all_cells : list (R * R * R) :=
  [(1,1,0); (1,1,1); (1,0,0); (1,0,1); (0,1,0); (0,1,1); (0,0,0); (0,0,1)].

(* set(data[col].unique()) is a subset of {0, 1} with both values, 670-679 *)
Definition bin_col (rows : list I) (x : I -> R) : bool :=
  forallb (fun i => Reqb (x i) 0 || Reqb (x i) 1) rows &&
  existsb (fun i => Reqb (x i) 0) rows && existsb (fun i => Reqb (x i) 1) rows.

(* _validate_data, triple_diff.py:639-700, then the covariate check of fit, 571-575.
   Every failure is a ValueError. *)
Definition ddd_validate (rows : list I) (y G P T : I -> option R) (covs : list (I -> option R)) : res unit :=
  let na (x : I -> option R) := existsb (fun i => o_isna (x i)) rows in
  let f (x : I -> option R) i := oR (x i) in
  if existsb na [y; G; P; T] then Err ValueError
  else if negb (forallb (bin_col rows) [f G; f P; f T]) then Err ValueError
  else if existsb (fun c => let '(g, p, t) := c in Nat.eqb (length (cell8 rows (f G) (f P) (f T) g p t)) 0) all_cells
  then Err ValueError
  else if existsb na covs then Err ValueError
  else Ok tt.

(* _compute_cell_means, 702-717 (float(np.mean(y[mask])); the cells are non-empty) in the code's order *)
Definition cell_means (rows : list I) (y G P T : I -> R) : list R :=
  map (fun c => let '(g, p, t) := c in meanf y (cell8 rows G P T g p t)) all_cells.

(* design_cols of _regression_adjustment, 746-757 *)
Definition ddd_design (G P T : I -> R) (X : list (I -> R)) : list (I -> R) :=
  [fun _ => 1; G; P; T; fun i => G i * P i; fun i => G i * T i; fun i => P i * T i;
   fun i => G i * P i * T i] ++ X.

(* np.clip(x, lo, hi) = minimum(hi, maximum(x, lo)) *)
Definition clip (x lo hi : R) : R := Rmin hi (Rmax x lo).

(* weighted_mean, 874-879 *)
Definition wmean (rows : list I) (y w : I -> R) : R :=
  let s := sumf w rows in
  if Rle_dec s 0 then 0 else sumf (fun i => y i * w i) rows / s.

Definition in4 (G P : I -> R) (g p : R) (i : I) : bool := Reqb (G i) g && Reqb (P i) p.

(* a cell-time (T = t) combination of eight numbers, 906-911 and 1066-1071 *)
Definition ddd_comb (m : R -> R -> R -> R) : R :=
  (m 1 1 1 - m 1 1 0) - (m 1 0 1 - m 1 0 0) - (m 0 1 1 - m 0 1 0) + (m 0 0 1 - m 0 0 0).

End Cells.

Record ddd_out := { do_att : fl; do_se : fl; do_r2 : option R }.

Record ddd_result := {
  tr_att : fl; tr_se : fl; tr_t : fl; tr_p : fl; tr_ci : fl * fl;
  tr_n_obs : nat; tr_n : list nat;          (* the four group-partition counts, 580-583 *)
  tr_means : list R;                        (* group_means *)
  tr_method : string; tr_alpha : R; tr_r2 : option R;
  tr_n_clusters : option nat
}.

Section Estimation.
Context {I K : Type} (keq : forall x y : K, {x = y} + {x <> y}).
Variable qr : list I -> list (I -> R) -> list nat.
Variable lstsq : list I -> list (I -> R) -> (I -> R) -> list R.
Variable inv : list I -> list (I -> R) -> option (nat -> nat -> R).
Variable pinv : list I -> list (I -> R) -> nat -> nat -> R.
Variable sf : option Z -> fl -> fl.
Variable ppf : option Z -> R -> R.
(* _logistic_regression (270-327, scipy BFGS): fitted probabilities, None when it raises *)
Variable logit : list I -> list (I -> R) -> (I -> R) -> option (I -> R).

(* _regression_adjustment, 719-775 (self.cluster is not passed on) *)
Definition ddd_reg (cfg : ddd_config) (rows : list I) (y G P T : I -> R) (X : list (I -> R)) : res ddd_out :=
  do reg <- linreg_fit keq qr lstsq inv pinv (dd_robust cfg) None (dd_action cfg) 0 rows (ddd_design G P T X) y;
  let inf := get_inference sf ppf (nth 7 (l_coef reg) NaN) (l_vcov reg 7%nat 7%nat) None None
               (dd_alpha cfg) (l_df reg) in
  Ok {| do_att := i_coef inf; do_se := i_se inf; do_r2 := Some (r_squared rows y (l_resid reg) false 0) |}.

(* cell probabilities: 807-864 (ipw) and 971-1015 (dr) are the same code *)
Definition ddd_pcell (cfg : ddd_config) (rows : list I) (G P : I -> R) (X : list (I -> R)) (g p : R) (i : I) : R :=
  let tr x := clip x (dd_trim cfg) (1 - dd_trim cfg) in
  tr (match X with
      | [] => len (cell4 rows G P g p) / len rows
      | _ :: _ =>
          let pr z := tr (match logit rows X z with Some f => f i | None => meanf z rows end) in
          (if Reqb g 1 then pr G else 1 - pr G) * (if Reqb p 1 then pr P else 1 - pr P)
      end).

(* reweighting of a row of cell (g,p) to cell (1,1): p_cell_1 / p_cell_k *)
Definition ddd_ratio cfg rows (G P : I -> R) X (g p : R) (i : I) : R :=
  ddd_pcell cfg rows G P X 1 1 i / ddd_pcell cfg rows G P X g p i.

(* the eight cell-time means of _ipw_estimation, 881-903: cell (1,1) unweighted *)
Definition ipw_mean cfg rows (y G P T : I -> R) X (g p t : R) : R :=
  if Reqb g 1 && Reqb p 1 then
    let c := cell8 rows G P T g p t in if Nat.ltb 0 (length c) then meanf y c else 0
  else wmean rows y (fun i => ind (in4 G P g p i && Reqb (T i) t) * ddd_ratio cfg rows G P X g p i).

(* _compute_ipw_se, 1128-1175 *)
Definition ipw_inf cfg rows (y G P T : I -> R) X (att : R) (i : I) : R :=
  let p_ref := len (cell4 rows G P 1 1) / len rows in
  let sign := if Reqb (T i) 1 then 1 else -1 in
  if in4 G P 1 1 i then sign * (y i - att) / p_ref
  else if in4 G P 1 0 i then - sign * y i * ddd_ratio cfg rows G P X 1 0 i / p_ref
  else if in4 G P 0 1 i then - sign * y i * ddd_ratio cfg rows G P X 0 1 i / p_ref
  else if in4 G P 0 0 i then sign * y i * ddd_ratio cfg rows G P X 0 0 i / p_ref
  else 0.
Definition ipw_se cfg rows (y G P T : I -> R) X (att : R) : R :=
  sqrt (variance 1 (map (ipw_inf cfg rows y G P T X att) rows) / len rows).

(* _ipw_estimation, 777-920 *)
Definition ddd_ipw cfg rows (y G P T : I -> R) X : ddd_out :=
  let att := ddd_comb (ipw_mean cfg rows y G P T X) in
  {| do_att := Fin att; do_se := Fin (ipw_se cfg rows y G P T X att); do_r2 := None |}.

(* the outcome model of _doubly_robust: with covariates (943-966) one regression per cell and period
   on [1, X, T] (via _linear_regression, 330-373), any exception giving the cell mean and a single row
   its own outcome; without covariates (996-1002) the cell means *)
Definition mu_cell (action : string) (c : list I) (y T : I -> R) (X : list (I -> R)) (i : I) : R :=
  match X with
  | [] => meanf y c
  | _ :: _ =>
      if Nat.ltb 1 (length c) then
        match solve_ols keq qr lstsq inv c ((fun _ => 1) :: X ++ [T]) y None false action with
        | Ok o => o_fitted o i
        | Err _ => meanf y c
        end
      else y i
  end.
Definition mu_fit (action : string) rows (y G P T : I -> R) X (i : I) : R :=
  mu_cell action (cell8 rows G P T (G i) (P i) (T i)) y T X i.

(* inf_gp of _doubly_robust, 1024-1050, for any fitted outcome mu *)
Definition dr_inf cfg rows (y mu G P : I -> R) X (g p : R) (i : I) : R :=
  let p_ref := len (cell4 rows G P 1 1) / len rows in
  if Reqb g 1 && Reqb p 1 then
    (if in4 G P 1 1 i then (y i - mu i) / p_ref else 0) + mu i * ind (in4 G P 1 1 i) / p_ref
  else
    let w := ind (in4 G P g p i) * ddd_ratio cfg rows G P X g p i in
    w * (y i - mu i) / p_ref
    + (if in4 G P g p i then mu i * ddd_ratio cfg rows G P X g p i / p_ref else 0).

(* dr_mean, 1053-1063: mean over the rows of the period *)
Definition dr_mean cfg rows (y mu G P T : I -> R) X (g p t : R) : R :=
  meanf (dr_inf cfg rows y mu G P X g p) (filter (fun i => Reqb (T i) t) rows).
Definition dr_att cfg rows (y mu G P T : I -> R) X : R := ddd_comb (dr_mean cfg rows y mu G P T X).

(* cell_var and the sum of its components, 1078-1094 *)
Definition dr_cell_var (c : list I) (y : I -> R) : R :=
  if Nat.ltb 1 (length c) then variance 1 (map y c) / len c else 0 / INR (Nat.max 1 (length c)).
Definition dr_se rows (y G P T : I -> R) : R :=
  sqrt (sumf (fun c => let '(g, p, t) := c in dr_cell_var (cell8 rows G P T g p t) y) all_cells).

(* _doubly_robust, 922-1104 *)
Definition ddd_dr cfg rows (y G P T : I -> R) X : ddd_out :=
  let mu := mu_fit (dd_action cfg) rows y G P T X in
  {| do_att := Fin (dr_att cfg rows y mu G P T X);
     do_se := Fin (dr_se rows y G P T);
     do_r2 := match X with
              | [] => None
              | _ :: _ =>
                  let ss_res := sumf (fun i => (y i - mu i) * (y i - mu i)) rows in
                  let ss_tot := sumf (fun i => (y i - meanf y rows) * (y i - meanf y rows)) rows in
                  Some (if Rlt_dec 0 ss_tot then 1 - ss_res / ss_tot else 0)
              end |}.

(* fit, 515-637.  [cluster]: the values of the cluster column, if one is named. *)
Definition ddd_fit (cfg : ddd_config) (cluster : option (I -> K)) (rows : list I)
    (y G P T : I -> option R) (covs : list (I -> option R)) : res ddd_result :=
  do _ <- ddd_validate rows y G P T covs;
  let f (x : I -> option R) i := oR (x i) in
  let X := map f covs in
  do out <- (if String.eqb (dd_method cfg) "reg" then ddd_reg cfg rows (f y) (f G) (f P) (f T) X
             else if String.eqb (dd_method cfg) "ipw" then Ok (ddd_ipw cfg rows (f y) (f G) (f P) (f T) X)
             else Ok (ddd_dr cfg rows (f y) (f G) (f P) (f T) X));
  let t := if fgt (do_se out) (Fin 0) then fdiv (do_att out) (do_se out) else Fin 0 in
  let df := Z.max (Z.of_nat (length rows) - 8 - Z.of_nat (length covs)) 1 in
  let n4 g p := length (cell4 rows (f G) (f P) g p) in
  Ok {| tr_att := do_att out; tr_se := do_se out; tr_t := t;
        tr_p := u_p_value sf t (Some df);
        tr_ci := u_ci ppf (do_att out) (do_se out) (dd_alpha cfg) (Some df);
        tr_n_obs := length rows; tr_n := [n4 1 1; n4 1 0; n4 0 1; n4 0 0];
        tr_means := cell_means rows (f y) (f G) (f P) (f T);
        tr_method := dd_method cfg; tr_alpha := dd_alpha cfg; tr_r2 := do_r2 out;
        tr_n_clusters := option_map (fun cl => length (cl_keys keq rows cl)) cluster |}.
End Estimation.

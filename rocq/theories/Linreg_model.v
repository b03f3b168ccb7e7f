(* The LinearRegression helper object, linalg.py:1009-1463. *)
From Coq Require Import Reals Lra Lia.
From Verif Require Import Prelude Flt Linalg_model.
From Coq Require Import Arith ZArith String List.
Import ListNotations.
Open Scope R_scope.

Section LR.
Context {I K : Type} (eqd : forall x y : K, {x = y} + {x <> y}).
Variable qr : list I -> list (I -> R) -> list nat.
Variable lstsq : list I -> list (I -> R) -> (I -> R) -> list R.
Variable inv : list I -> list (I -> R) -> option (nat -> nat -> R).
Variable pinv : list I -> list (I -> R) -> nat -> nat -> R.
Variable sf : option Z -> fl -> fl.
Variable ppf : option Z -> R -> R.

(* __init__, linalg.py:1079-1105 *)
Record lr_cfg := { c_intercept : bool; c_robust : bool; c_cluster : option (I -> K); c_alpha : R; c_action : string }.

(* the fitted attributes, linalg.py:1196-1210; X includes the intercept column *)
Record lr_fitted := { f_reg : linreg I; f_rows : list I; f_y : I -> R; f_X : list (I -> R) }.
(* coefficients_ is None before the first fit *)
Definition lr_state := option lr_fitted.

(* np.column_stack([np.ones(n), X]), linalg.py:1141-1142 and 1455-1456 *)
Definition with_intercept (cfg : lr_cfg) (X : list (I -> R)) : list (I -> R) :=
  if c_intercept cfg then (fun _ => 1) :: X else X.

(* fit, linalg.py:1107-1212; the attributes are assigned after the last statement that can raise *)
Definition lr_fit (cfg : lr_cfg) (st : lr_state) (rows : list I) (X : list (I -> R)) (y : I -> R)
    (cluster : option (I -> K)) (df_adj : Z) : res unit * lr_state :=
  let X' := with_intercept cfg X in
  let cl := match cluster with Some c => Some c | None => c_cluster cfg end in
  match linreg_fit eqd qr lstsq inv pinv (c_robust cfg) cl (c_action cfg) df_adj rows X' y with
  | Err e => (Err e, st)
  | Ok reg => (Ok tt, Some {| f_reg := reg; f_rows := rows; f_y := y; f_X := X' |})
  end.

(* a[i] on a numpy axis of length k: negative indices count from the end *)
Definition py_index (k : nat) (i : Z) : res nat :=
  let j := if Z.ltb i 0 then (i + Z.of_nat k)%Z else i in
  if (Z.leb 0 j && Z.ltb j (Z.of_nat k))%bool then Ok (Z.to_nat j) else Err IndexError.

(* _check_fitted, linalg.py:1214-1217 *)
Definition checked {A} (st : lr_state) (k : lr_fitted -> res A) : res A :=
  match st with None => Err ValueError | Some f => k f end.

(* get_coefficient, linalg.py:1219-1234 *)
Definition lr_coefficient (st : lr_state) (i : Z) : res fl :=
  checked st (fun f => do j <- py_index (length (l_coef (f_reg f))) i; Ok (nth j (l_coef (f_reg f)) NaN)).

(* get_se, linalg.py:1236-1251 *)
Definition lr_se (st : lr_state) (i : Z) : res fl :=
  checked st (fun f => do j <- py_index (length (l_coef (f_reg f))) i; Ok (fsqrt (l_vcov (f_reg f) j j))).

(* get_inference, linalg.py:1253-1343 *)
Definition lr_inference (cfg : lr_cfg) (st : lr_state) (i : Z) (alpha : option R) (df : option Z) : res inference :=
  checked st (fun f => do j <- py_index (length (l_coef (f_reg f))) i;
    Ok (get_inference sf ppf (nth j (l_coef (f_reg f)) NaN) (l_vcov (f_reg f) j j) alpha df (c_alpha cfg) (l_df (f_reg f)))).

(* dict insertion: the position of the first insertion, the value of the last *)
Fixpoint put {A} (d : list (Z * A)) (k : Z) (v : A) : list (Z * A) :=
  match d with
  | [] => [(k, v)]
  | (k', v') :: d' => if Z.eqb k k' then (k', v) :: d' else (k', v') :: put d' k v
  end.
Fixpoint lookup {A} (d : list (Z * A)) (k : Z) : option A :=
  match d with [] => None | (k', v) :: d' => if Z.eqb k k' then Some v else lookup d' k end.

(* get_inference_batch, linalg.py:1345-1376: a dict comprehension, evaluated in the order of the indices *)
Fixpoint batch_from (cfg : lr_cfg) (st : lr_state) (d : list (Z * inference)) (l : list Z) (alpha : option R) (df : option Z) : res (list (Z * inference)) :=
  match l with
  | [] => Ok d
  | i :: l' => do r <- lr_inference cfg st i alpha df; batch_from cfg st (put d i r) l' alpha df
  end.
Definition lr_batch (cfg : lr_cfg) (st : lr_state) (l : list Z) alpha df : res (list (Z * inference)) :=
  checked st (fun _ => batch_from cfg st [] l alpha df).

(* get_all_inference, linalg.py:1378-1404 *)
Fixpoint all_from (cfg : lr_cfg) (st : lr_state) (l : list nat) (alpha : option R) (df : option Z) : res (list inference) :=
  match l with
  | [] => Ok []
  | j :: l' => do r <- lr_inference cfg st (Z.of_nat j) alpha df; do rs <- all_from cfg st l' alpha df; Ok (r :: rs)
  end.
Definition lr_all (cfg : lr_cfg) (st : lr_state) alpha df : res (list inference) :=
  checked st (fun f => all_from cfg st (seq 0 (length (l_coef (f_reg f)))) alpha df).

(* r_squared, linalg.py:1406-1429 *)
Definition lr_r2 (st : lr_state) (adjusted : bool) : res R :=
  checked st (fun f =>
    let n_params := if adjusted then Z.to_nat (n_effective (l_coef (f_reg f))) else length (f_X f) in
    Ok (r_squared (f_rows f) (f_y f) (l_resid (f_reg f)) adjusted n_params)).

(* predict, linalg.py:1431-1463, for new rows given by the columns [X] over any index type;
   X @ coef raises ValueError when the number of columns differs *)
Definition lr_predict {J} (cfg : lr_cfg) (st : lr_state) (X : list (J -> R)) : res (J -> R) :=
  checked st (fun f =>
    let X' := if c_intercept cfg then (fun _ : J => 1) :: X else X in
    if Nat.eqb (length X') (length (l_coef (f_reg f))) then Ok (predict X' (l_coef (f_reg f))) else Err ValueError).
End LR.
Arguments lr_cfg : clear implicits.
Arguments lr_fitted : clear implicits.
Arguments lr_state : clear implicits.

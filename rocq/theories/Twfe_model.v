(* Model of TwoWayFixedEffects.fit and of its staggered-adoption check (diff_diff/twfe.py:57-316), analytical
   inference.  Columns are real-valued (solve_ols rejects NaN and inf, linalg.py:470-480).
   Column-existence checks are the typing of the arguments. *)
From Verif Require Import Prelude Flt Linalg_model Did_model.
From Coq Require Import Arith ZArith String List.
Import ListNotations.
Open Scope R_scope.

Record twfe_result {I : Type} := {
  tw_att : fl; tw_se : fl; tw_t : fl; tw_p : fl; tw_ci : fl * fl;
  tw_n_obs : nat; tw_n_treated : nat; tw_n_control : Z; tw_alpha : R; tw_r2 : R; tw_resid : I -> R; tw_df : Z
}.
Arguments twfe_result : clear implicits.

Section Twfe.
Context {I U : Type} (ueq : forall x y : U, {x = y} + {x <> y}).
Variable qr : list I -> list (I -> R) -> list nat.
Variable lstsq : list I -> list (I -> R) -> (I -> R) -> list R.
Variable inv : list I -> list (I -> R) -> option (nat -> nat -> R).
Variable pinv : list I -> list (I -> R) -> nat -> nat -> R.
Variable sf : option Z -> fl -> fl.
Variable ppf : option Z -> R -> R.

(* data_demeaned[treatment] * data_demeaned[time]: the raw columns (twfe.py:104-106) *)
Definition twfe_design (d tm : I -> R) (covs : list (I -> R)) : list (I -> R) :=
  (fun _ => 1) :: (fun i => d i * tm i) :: covs.

(* the regression uses rank_deficient_action "error" or "silent" (twfe.py:135-156) *)
Definition twfe_action (s : string) : string := if String.eqb s "error" then "error"%string else "silent"%string.

(* fit, twfe.py:57-246; [cluster] is self.cluster resolved to the column (default: the unit, line 97) *)
Definition twfe_fit (cluster : option (I -> U)) (alpha : R) (action : string)
    (rows : list I) (y d tm : I -> R) (u : I -> U) (covs : list (I -> R)) : res (twfe_result I) :=
  let W := within ueq Req_EM_T rows u tm in
  let cl := match cluster with Some c => c | None => u end in
  let y' := W y in                                                     (* 100 *)
  let cols := twfe_design d tm (map W covs) in                         (* 104-117 *)
  let n_units := length (nodup ueq (map u rows)) in
  let n_times := length (nodup Req_EM_T (map tm rows)) in
  let df_adj := (Z.of_nat n_units + Z.of_nat n_times - 2)%Z in         (* 123-125 *)
  do reg <- linreg_fit ueq qr lstsq inv pinv true (Some cl) (twfe_action action) df_adj rows cols y';
  let att := nth 1 (l_coef reg) NaN in
  if fisnan att then Err ValueError                                    (* 170-186 *)
  else
  let inf := get_inference sf ppf att (l_vcov reg 1%nat 1%nat) None None alpha (l_df reg) in
  let treated := nodup ueq (map u (filter (fun i => Reqb (d i) 1) rows)) in
  Ok {| tw_att := att; tw_se := i_se inf; tw_t := i_t inf; tw_p := i_p inf; tw_ci := i_ci inf;
        tw_n_obs := length rows; tw_n_treated := length treated;
        tw_n_control := (Z.of_nat n_units - Z.of_nat (length treated))%Z;
        tw_alpha := alpha; tw_r2 := r_squared rows y' (l_resid reg) false 0; tw_resid := l_resid reg; tw_df := l_df reg |}.
End Twfe.

(* _check_staggered_treatment, twfe.py:283-316: does it warn?  Integer period labels. *)
Section Staggered.
Context {I U : Type} (ueq : forall x y : U, {x = y} + {x <> y}).
(* treated_obs.groupby(unit)[time].min() *)
Definition zmin (l : list Z) : option Z :=
  match l with [] => None | x :: r => Some (fold_left Z.min r x) end.
Definition first_treated (rows : list I) (d : I -> bool) (t : I -> Z) (u : I -> U) (a : U) : option Z :=
  zmin (map t (filter (fun i => d i && keqb ueq (u i) a) rows)).
Definition staggered_warns (rows : list I) (d : I -> bool) (t : I -> Z) (u : I -> U) : bool :=
  let treated_obs := filter d rows in
  match treated_obs with
  | [] => false
  | _ => let firsts := map (first_treated rows d t u) (nodup ueq (map u treated_obs)) in
         Nat.ltb 1 (length (nodup (fun x y : option Z => ltac:(decide equality; apply Z.eq_dec)) firsts))
  end.
End Staggered.

(* Model of the data preparation helpers (diff_diff/prep.py:34-1241).
   Data frames have named columns and hold numbers (with NaN), or strings; dates are not modelled
   (pd.to_datetime at 185-186 only converts the type of the bound). *)
From Verif Require Import Prelude Flt.
From Coq Require Import Arith ZArith String List Bool.
Import ListNotations.
Open Scope R_scope.

Inductive val : Type := Num (x : fl) | Str (s : string).
Definition row := string -> val.
Record frame := { f_cols : list string; f_rows : list row }.

Definition visna (v : val) : bool := match v with Num NaN => true | _ => false end.
Definition num (v : val) : fl := match v with Num x => x | Str _ => NaN end.
(* elementwise == *)
Definition veqb (a b : val) : bool := match a, b with Num x, Num y => feqb x y | Str s, Str t => String.eqb s t | _, _ => false end.
(* Series.isin: missing matches missing *)
Definition visin (v : val) (l : list val) : bool := existsb (fun w => veqb v w || (visna v && visna w)) l.
(* elementwise >= and <=; numbers and strings do not compare *)
Definition vge (a b : val) : res bool :=
  match a, b with Num x, Num y => Ok (fge x y) | Str s, Str t => Ok (String.leb t s) | _, _ => Err TypeError end.
Definition vle (a b : val) : res bool :=
  match a, b with Num x, Num y => Ok (fle x y) | Str s, Str t => Ok (String.leb s t) | _, _ => Err TypeError end.

Fixpoint mapM {A B} (f : A -> res B) (l : list A) : res (list B) :=
  match l with [] => Ok [] | x :: r => do y <- f x ; do ys <- mapM f r ; Ok (y :: ys) end.

Definition has_col (df : frame) (c : string) : bool := existsb (String.eqb c) (f_cols df).
Definition upd (r : row) (c : string) (v : val) : row := fun c' => if String.eqb c' c then v else r c'.
Definition add_name (c : string) (l : list string) : list string := if existsb (String.eqb c) l then l else l ++ [c].
(* df[new] = per-row values *)
Definition set_col (df : frame) (new : string) (f : row -> res val) : res frame :=
  do rows <- mapM (fun r => do v <- f r ; Ok (upd r new v)) (f_rows df) ;
  Ok {| f_cols := add_name new (f_cols df); f_rows := rows |}.
Definition of_bool (b : bool) : val := Num (Fin (if b then 1 else 0)).

(* a scalar or a list/tuple/set of values *)
Inductive spec : Type := One (v : val) | Many (l : list val).
Definition spec_list (s : spec) : list val := match s with One v => [v] | Many l => l end.

(* make_treatment_indicator, 34-113 *)
Definition make_treatment_indicator (df : frame) (column : string) (treated : option spec) (threshold : option val)
    (above : bool) (new : string) : res frame :=
  match treated, threshold with
  | Some _, Some _ => Err ValueError
  | None, None => Err ValueError
  | _, _ =>
      if negb (has_col df column) then Err ValueError else
      match treated, threshold with
      | Some s, _ => set_col df new (fun r => Ok (of_bool (visin (r column) (spec_list s))))
      | _, Some b => set_col df new (fun r => do c <- (if above then vge (r column) b else vle (r column) b) ; Ok (of_bool c))
      | None, None => Err ValueError
      end
  end.

(* make_post_indicator, 116-189 *)
Definition make_post_indicator (df : frame) (column : string) (periods : option spec) (start : option val) (new : string) : res frame :=
  match periods, start with
  | Some _, Some _ => Err ValueError
  | None, None => Err ValueError
  | _, _ =>
      if negb (has_col df column) then Err ValueError else
      match periods, start with
      | Some s, _ => set_col df new (fun r => Ok (of_bool (visin (r column) (spec_list s))))
      | _, Some b => set_col df new (fun r => do c <- vge (r column) b ; Ok (of_bool c))
      | None, None => Err ValueError
      end
  end.

(* create_event_time, 655-717, for numeric columns *)
Definition event_time (t g : fl) : fl := if fisnan g || fisinf g then NaN else fsub t g.
Definition create_event_time (df : frame) (time treat new : string) : res frame :=
  if negb (has_col df time) then Err ValueError
  else if negb (has_col df treat) then Err ValueError
  else set_col df new (fun r => match r time, r treat with
                                | Num t, Num g => Ok (Num (event_time t g))
                                | _, _ => Err TypeError
                                end).

(* stable sort; sort_values with several keys is a lexicographic stable sort *)
Section Sort.
Context {A : Type} (le : A -> A -> bool).
Fixpoint insert (x : A) (l : list A) : list A :=
  match l with [] => [x] | y :: r => if le x y then x :: l else y :: insert x r end.
Fixpoint isort (l : list A) : list A := match l with [] => [] | x :: r => insert x (isort r) end.
End Sort.

(* order of values: numbers increasing, strings alphabetical, missing last
   (a column mixing numbers and strings makes pandas raise TypeError; not modelled) *)
Definition fl_le (x y : fl) : bool := match x, y with _, NaN => true | NaN, _ => false | _, _ => fle x y end.
Definition val_le (a b : val) : bool :=
  match a, b with
  | Num NaN, Num NaN => true | _, Num NaN => true | Num NaN, _ => false
  | Num x, Num y => fle x y
  | Num _, Str _ => true | Str _, Num _ => false
  | Str s, Str t => String.leb s t
  end.
Definition lex_le (k1 k2 : row -> val) (a b : row) : bool :=
  if val_le (k1 a) (k1 b) then (if val_le (k1 b) (k1 a) then val_le (k2 a) (k2 b) else true) else false.

(* dict(zip(value_columns, time_values)) followed by .map: the last entry of a repeated name wins *)
Fixpoint zip_get (names : list string) (times : list val) (c : string) : val :=
  match names, times with
  | n :: ns, v :: vs => if existsb (String.eqb c) ns then zip_get ns vs c else if String.eqb c n then v else zip_get ns vs c
  | _, _ => Num NaN
  end.
Definition distinct (l : list string) : bool := if list_eq_dec string_dec (nodup string_dec l) l then true else false.

(* wide_to_long, 192-287.  pd.melt (pandas >= 2) refuses a value_name that is already a column;
   sort_values refuses a repeated label, so a time_name clashing with a kept column is an error *)
Definition wide_to_long (df : frame) (value_columns : list string) (id time_name value_name : string) (time_values : option (list val)) : res frame :=
  match value_columns with
  | [] => Err ValueError
  | _ =>
      if negb (has_col df id) then Err ValueError
      else if negb (forallb (has_col df) value_columns) then Err ValueError else
      let times := match time_values with Some l => l | None => map (fun k => Num (Fin (INR k))) (seq 0 (length value_columns)) end in
      if negb (length times =? length value_columns)%nat then Err ValueError else
      let others := filter (fun c => negb (String.eqb c id) && negb (existsb (String.eqb c) value_columns)) (f_cols df) in
      if has_col df value_name then Err ValueError else
      let cols := id :: time_name :: value_name :: others in
      if negb (distinct cols) then Err ValueError else
      let melted := flat_map (fun c => map (fun r => upd (upd r value_name (r c)) time_name (zip_get value_columns times c)) (f_rows df)) value_columns in
      Ok {| f_cols := cols; f_rows := isort (lex_le (fun r => r id) (fun r => r time_name)) melted |}
  end.

(* ---- balance_panel, 290-389; keys are integers here, cells of the other columns are option values ---- *)
Section Balance.
Context {C V : Type}.
Record obs := { o_unit : Z; o_time : Z; o_val : C -> option V }.
Definition missing : C -> option V := fun _ => None.
Definition zuniq (l : list Z) : list Z := nodup Z.eq_dec l.
Definition zmem (x : Z) (l : list Z) : bool := existsb (Z.eqb x) l.
Definition periods (data : list obs) : list Z := isort Z.leb (zuniq (map o_time data)).
Definition units (data : list obs) : list Z := zuniq (map o_unit data).
Definition of_unit (u : Z) (data : list obs) : list obs := filter (fun o => Z.eqb (o_unit o) u) data.
(* 346-350 *)
Definition balance_inner (data : list obs) : list obs :=
  filter (fun o => (length (zuniq (map o_time (of_unit (o_unit o) data))) =? length (periods data))%nat) data.
(* 354-361: full grid, left merge *)
Definition cell_rows (data : list obs) (u t : Z) : list obs := filter (fun o => Z.eqb (o_unit o) u && Z.eqb (o_time o) t) data.
Definition balance_outer (data : list obs) : list obs :=
  flat_map (fun u => flat_map (fun t => match cell_rows data u t with [] => [{| o_unit := u; o_time := t; o_val := missing |}] | l => l end) (periods data)) (units data).
(* 367-372: only the numeric columns are filled *)
Definition fill_with (numeric : C -> bool) (v : V) (l : list obs) : list obs :=
  map (fun o => {| o_unit := o_unit o; o_time := o_time o;
                   o_val := fun c => match o_val o c with None => if numeric c then Some v else None | x => x end |}) l.
(* 374-378: forward then backward fill within units, after sorting by unit and time *)
Definition key_le (a b : obs) : bool := Z.ltb (o_unit a) (o_unit b) || (Z.eqb (o_unit a) (o_unit b) && Z.leb (o_time a) (o_time b)).
(* the last non-missing value among [before] (nearest first) *)
Fixpoint first_val (l : list (option V)) : option V := match l with [] => None | Some v :: _ => Some v | None :: r => first_val r end.
Definition vals_of (u : Z) (c : C) (l : list obs) : list (option V) := map (fun o => o_val o c) (of_unit u l).
Fixpoint ffill (before : list obs) (l : list obs) : list obs :=
  match l with
  | [] => []
  | o :: r => {| o_unit := o_unit o; o_time := o_time o; o_val := fun c => first_val (o_val o c :: vals_of (o_unit o) c before) |} :: ffill (o :: before) r
  end.
Fixpoint bfill (l : list obs) : list obs :=
  match l with
  | [] => []
  | o :: r => {| o_unit := o_unit o; o_time := o_time o; o_val := fun c => first_val (o_val o c :: vals_of (o_unit o) c r) |} :: bfill r
  end.
Definition fill_around (l : list obs) : list obs := bfill (ffill [] (isort key_le l)).

Definition balance_panel (numeric : C -> bool) (method : string) (fill : option V) (data : list obs) : res (list obs) :=
  if String.eqb method "inner" then Ok (balance_inner data)
  else if String.eqb method "outer" then Ok (balance_outer data)
  else if String.eqb method "fill" then
    Ok (match fill with Some v => fill_with numeric v (balance_outer data) | None => fill_around (balance_outer data) end)
  else Err ValueError.
End Balance.
Arguments obs : clear implicits.

(* ---- validate_did_data, 392-560 ---- *)
Fixpoint uniq {A} (eqb : A -> A -> bool) (l : list A) : list A :=
  match l with [] => [] | x :: r => x :: filter (fun y => negb (eqb x y)) (uniq eqb r) end.
Inductive verr : Type := EMissingCol (c : string) | ENotNumeric | ENotBinary | EMissing (c : string) (n : nat)
  | ENoTreated | ENoControl | EEmptyCell (treated : bool) (p : val) | EFewPeriods (treated : bool) (n : nat).
Inductive vwarn : Type := WTimeNot01 | WVarying (n : nat) | WUnbalanced (lo hi : nat).
Record vsummary := { s_obs : nat; s_treated : nat; s_control : nat; s_periods : nat; s_units : option nat }.
Record vresult := { v_valid : bool; v_errors : list verr; v_warnings : list vwarn; v_summary : option vsummary }.

Definition is01 (v : val) : bool := veqb v (Num (Fin 0)) || veqb v (Num (Fin 1)).
Definition is_num (v : val) : bool := match v with Num _ => true | Str _ => false end.
Definition mixed (l : list val) : bool := existsb is_num l && existsb (fun v => negb (is_num v)) l.
Definition present (rows : list row) (c : string) : list val := filter (fun v => negb (visna v)) (map (fun r => r c) rows).
Definition values (rows : list row) (c : string) : list val := uniq veqb (present rows c).
Definition level (treated : bool) : val := Num (Fin (if treated then 1 else 0)).
Definition sel (rows : list row) (c : string) (v : val) : list row := filter (fun r => veqb (r c) v) rows.
Definition min_nat (l : list nat) : nat := match l with [] => 0%nat | x :: r => fold_left Nat.min r x end.
Definition max_nat (l : list nat) : nat := fold_left Nat.max l 0%nat.

Definition v_finish (raise : bool) (errs : list verr) (ws : list vwarn) (s : option vsummary) : res vresult :=
  match errs with
  | [] => Ok {| v_valid := true; v_errors := []; v_warnings := ws; v_summary := s |}
  | _ => if raise then Err ValueError else Ok {| v_valid := false; v_errors := errs; v_warnings := ws; v_summary := s |}
  end.

(* a column is numeric when all its entries are numbers *)
Definition validate_did_data (df : frame) (outcome treatment time : string) (unit : option string) (raise : bool) : res vresult :=
  let rows := f_rows df in
  let required := [outcome; treatment; time] ++ match unit with Some u => [u] | None => [] end in
  let absent := filter (fun c => negb (has_col df c)) required in
  match absent with
  | _ :: _ => v_finish raise (map EMissingCol absent) [] None
  | [] =>
      let e1 := if forallb (fun r : row => is_num (r outcome)) rows then [] else [ENotNumeric] in
      let tv := values rows treatment in
      if negb (forallb is01 tv) && mixed tv then Err TypeError else            (* sorted() in the message, 466 *)
      let e2 := if forallb is01 tv then [] else [ENotBinary] in
      let pv := values rows time in
      let warn := (length pv =? 2)%nat && negb (forallb is01 pv) in
      if warn && mixed pv then Err TypeError else                               (* 473 *)
      let w1 := if warn then [WTimeNot01] else [] in
      let nmiss c := length (filter (fun r : row => visna (r c)) rows) in
      let e3 := flat_map (fun c => if (nmiss c =? 0)%nat then [] else [EMissing c (nmiss c)]) required in
      match e1 ++ e2 ++ e3 with
      | _ :: _ => v_finish raise (e1 ++ e2 ++ e3) w1 None
      | [] =>
          let n_t := length (sel rows treatment (level true)) in
          let n_c := length (sel rows treatment (level false)) in
          let s := {| s_obs := length rows; s_treated := n_t; s_control := n_c; s_periods := length pv;
                      s_units := match unit with Some u => Some (length (values rows u)) | None => None end |} in
          let e4 := (if (n_t =? 0)%nat then [ENoTreated] else []) ++ (if (n_c =? 0)%nat then [ENoControl] else []) in
          let e5 := if (length pv =? 2)%nat then
                      flat_map (fun a => flat_map (fun p => match sel (sel rows treatment (level a)) time p with [] => [EEmptyCell a p] | _ => [] end) pv) [false; true]
                    else
                      flat_map (fun a => let n := length (values (sel rows treatment (level a)) time) in
                                         if (n <? 2)%nat then [EFewPeriods a n] else []) [false; true] in
          match unit, e4 ++ e5 with
          | Some u, [] =>
              let us := values rows u in
              let varying := length (filter (fun x => (1 <? length (values (sel rows u x) treatment))%nat) us) in
              let counts := map (fun x => length (values (sel rows u x) time)) us in
              let w2 := if (0 <? varying)%nat then [WVarying varying] else [] in
              let w3 := if (min_nat counts =? max_nat counts)%nat then [] else [WUnbalanced (min_nat counts) (max_nat counts)] in
              v_finish raise [] (w1 ++ w2 ++ w3) (Some s)
          | _, errs => v_finish raise errs w1 (Some s)
          end
      end
  end.

(* ---- summarize_did_data, 563-652, and aggregate_to_cohorts, 720-779; complete numeric data,
   the rounding of the table to four digits (602) is left out: the DiD row is not rounded ---- *)
Section Summary.
Context {I : Type}.
Definition scell (rows : list I) (d t : I -> R) (a b : R) : list I := filter (fun i => Reqb (d i) a && Reqb (t i) b) rows.
Fixpoint rins (x : R) (l : list R) : list R :=
  match l with [] => [x] | y :: r => if Rltb x y then x :: l else if Reqb x y then l else y :: rins x r end.
Definition rvalues (l : list R) : list R := fold_right rins [] l.      (* sorted(unique) *)
Record cell_stats := { cs_d : R; cs_t : R; cs_n : nat; cs_mean : R }.
Definition group_stats (rows : list I) (y d t : I -> R) : list cell_stats :=
  flat_map (fun a => flat_map (fun b => match scell rows d t a b with
      | [] => []
      | l => [{| cs_d := a; cs_t := b; cs_n := length l; cs_mean := meanf y l |}] end) (rvalues (map t rows))) (rvalues (map d rows)).
Definition label (times : list R) (c : cell_stats) : string * option string * R :=
  let g := if Reqb (cs_d c) 1 then "Treated"%string else "Control"%string in
  match times with
  | [_; post] => (g, Some (if Reqb (cs_t c) post then "Post"%string else "Pre"%string), cs_t c)
  | _ => (g, None, cs_t c)
  end.
Definition fmeanR (y : I -> R) (l : list I) : fl := fmean (map (fun i => Fin (y i)) l).
Definition summarize (rows : list I) (y d t : I -> R) : list (string * option string * R * nat * R) * option fl :=
  let times := rvalues (map t rows) in
  (map (fun c => (label times c, cs_n c, cs_mean c)) (group_stats rows y d t),
   match times with
   | [pre; post] =>
       let m a b := fmeanR y (scell rows d t a b) in
       Some (fsub (fsub (m 1 post) (m 1 pre)) (fsub (m 0 post) (m 0 pre)))
   | _ => None
   end).
(* rows of the cohort table: treatment, period, mean outcome, number of units, covariate means *)
Context {U : Type} (ueq : forall x y : U, {x = y} + {x <> y}).
Definition cohorts (rows : list I) (u : I -> U) (y d t : I -> R) (covs : list (I -> R)) : list (R * R * R * nat * list R) :=
  flat_map (fun a => flat_map (fun b => match scell rows d t a b with
      | [] => []
      | l => [(a, b, meanf y l, length (nodup ueq (map u l)), map (fun c => meanf c l) covs)] end) (rvalues (map t rows))) (rvalues (map d rows)).
End Summary.

(* ---- rank_control_units, 782-1123 ---- *)
Definition notna (x : fl) : bool := negb (fisnan x).
Definition nmean (l : list fl) : fl := fmean (filter notna l).                (* skipna / nanmean *)
Definition nstd (l : list fl) : fl :=                                         (* Series.std(), ddof = 1 *)
  let v := filter notna l in
  if (length v <=? 1)%nat then NaN
  else fsqrt (fdiv (fsum (map (fun x => fmul (fsub x (fmean v)) (fsub x (fmean v))) v)) (Fin (len v - 1))).
(* builtin max/min: the first element, replaced on a strict comparison *)
Definition pymax (l : list fl) (d : fl) : fl := match l with [] => d | x :: r => fold_left (fun m y => if fgt y m then y else m) r x end.
Definition pymin (l : list fl) (d : fl) : fl := match l with [] => d | x :: r => fold_left (fun m y => if flt y m then y else m) r x end.
(* ndarray.max()/min() propagate NaN *)
Definition npmax (l : list fl) (d : fl) : fl := if existsb fisnan l then NaN else pymax l d.
Definition npmin (l : list fl) (d : fl) : fl := if existsb fisnan l then NaN else pymin l d.

Record rank_row {U : Type} := { k_unit : U; k_quality : fl; k_trend : fl; k_cov : fl; k_rmse : fl; k_req : bool }.
Arguments rank_row : clear implicits.

Section Rank.
Context {I U : Type} (ueq : forall x y : U, {x = y} + {x <> y}).
Variable dsort : list (rank_row U) -> list (rank_row U).   (* sort_values('quality_score', ascending=False) *)
Variable rows : list I.
Variable u : I -> U.
Variable t : I -> Z.
Variable y : I -> fl.
Definition umem (x : U) (l : list U) : bool := existsb (keqb ueq x) l.

(* 938-945: the given periods, or the first half *)
Definition rank_periods (pre : option (list Z)) : list Z :=
  match pre with
  | Some l => l
  | None => let all := isort Z.leb (nodup Z.eq_dec (map t rows)) in firstn (Nat.div (length all) 2) all
  end.
(* groupby(unit)[treatment].first(): the first non-missing entry *)
Definition first_treat (d : I -> fl) (x : U) : fl :=
  match filter notna (map d (filter (fun i => keqb ueq (u i) x) rows)) with [] => NaN | v :: _ => v end.
Definition all_units : list U := rev (nodup ueq (rev (map u rows))).            (* order of first appearance *)
Definition treated_set (units : option (list U)) (d : option (I -> fl)) (suggest : bool) : res (list U) :=
  match units, d with
  | Some l, _ => Ok (nodup ueq l)
  | None, Some d => Ok (filter (fun x => feqb (first_treat d x) (Fin 1)) all_units)
  | None, None => if suggest then Ok [] else Err ValueError
  end.
Definition pre_data (pre : list Z) : list I := filter (fun i => existsb (Z.eqb (t i)) pre) rows.
Definition at_cell (pd : list I) (x : U) (p : Z) : list I := filter (fun i => keqb ueq (u i) x && Z.eqb (t i) p) pd.
Definition pivot_dup (pd : list I) : bool := existsb (fun i => (1 <? length (at_cell pd (u i) (t i)))%nat) pd.
Definition in_pivot (pd : list I) (x : U) : bool := existsb (fun i => keqb ueq (u i) x) pd.
Definition pivot (pd : list I) (x : U) (p : Z) : fl := match at_cell pd x p with i :: _ => y i | [] => NaN end.

(* 1019-1040 *)
Definition rmse (pd : list I) (ps : list Z) (treated : list U) (x : U) : fl :=
  fsqrt (nmean (map (fun p => let e := fsub (pivot pd x p) (nmean (map (fun v => pivot pd v p) treated)) in fmul e e) ps)).
Definition small (r : fl) : bool := flt r (Fin (/ 10000000000)).
Definition trend_scores (rs : list fl) : list fl :=
  let mx := pymax rs (Fin 1) in let mn := pymin rs (Fin 0) in
  let range := fsub mx mn in
  if small range then map (fun _ => Fin 1) rs else map (fun r => fsub (Fin 1) (fdiv (fsub r mn) range)) rs.

(* 1045-1080 *)
Definition unit_cov (pd : list I) (c : I -> fl) (x : U) : fl := nmean (map c (filter (fun i => keqb ueq (u i) x) pd)).
Definition cov_units (pd : list I) : list U := nodup ueq (map u pd).
Definition one_if_zero (s : fl) : fl := if feqb s (Fin 0) then Fin 1 else s.
Definition cov_dist (pd : list I) (covs : list (I -> fl)) (treated : list U) (x : U) : fl :=
  fsqrt (fsum (map (fun c =>
    let all := map (unit_cov pd c) (cov_units pd) in
    let m := nmean all in let s := one_if_zero (nstd all) in
    let z v := fdiv (fsub v m) s in
    let e := fsub (z (unit_cov pd c x)) (z (nmean (map (unit_cov pd c) treated))) in fmul e e) covs)).
Definition cov_scores (ds : list fl) : list fl :=
  let mx := npmax ds (Fin 1) in let mn := npmin ds (Fin 0) in
  let range := fsub mx mn in
  if small range then map (fun _ => Fin 1) ds else map (fun r => fsub (Fin 1) (fdiv (fsub r mn) range)) ds.

(* 1085-1106 *)
Definition combine_scores (ow cw : R) (o c : fl) : fl :=
  let total := ow + cw in
  let no := if Rltb 0 total then ow / total else 1 in
  let nc := if Rltb 0 total then cw / total else 0 in
  if fisnan c then o else fadd (fmul (Fin no) o) (fmul (Fin nc) c).

(* 1118-1133: limit to n_top, keeping the required units *)
Definition limit_top (n_top : option Z) (l : list (rank_row U)) : list (rank_row U) :=
  match n_top with
  | None => l
  | Some n =>
      if Z.ltb n (Z.of_nat (length l)) then
        let req := filter k_req l in
        let rest := filter (fun r => negb (k_req r)) l in
        dsort (req ++ firstn (Z.to_nat (Z.max 0 (n - Z.of_nat (length req)))) rest)
      else l
  end.

Definition rank_control_units (d : option (I -> fl)) (treated_units : option (list U)) (pre : option (list Z)) (covs : list (I -> fl))
    (ow cw : R) (exclude require : option (list U)) (n_top : option Z) (suggest : bool) : res (option (list (rank_row U))) :=
  if negb (Rleb 0 ow && Rleb ow 1) then Err ValueError
  else if negb (Rleb 0 cw && Rleb cw 1) then Err ValueError
  else if (match treated_units, d with Some _, Some _ => true | _, _ => false end) then Err ValueError
  else if (match require, exclude with Some rq, Some ex => existsb (fun x => umem x ex) rq | _, _ => false end) then Err ValueError
  else
  let ps := rank_periods pre in
  if (length ps =? 0)%nat then Err ValueError else
  do treated <- treated_set treated_units d suggest ;
  if suggest && (length treated =? 0)%nat then Ok None                          (* see suggest_candidates *)
  else if (length treated =? 0)%nat then Err ValueError
  else
  let cands := filter (fun x => negb (umem x treated)) all_units in
  let cands := match exclude with Some ex => filter (fun x => negb (umem x ex)) cands | None => cands end in
  if (length cands =? 0)%nat then Err ValueError else
  let pd := pre_data ps in
  if pivot_dup pd then Err ValueError else
  let vp := filter (fun p => existsb (fun i => Z.eqb (t i) p) pd) ps in
  if (length vp =? 0)%nat then Err ValueError else
  let cands := filter (in_pivot pd) cands in
  if (length cands =? 0)%nat then Err ValueError else
  let tl := filter (in_pivot pd) treated in
  if (length tl =? 0)%nat then Err ValueError else
  let rs := map (rmse pd vp tl) cands in
  let os := trend_scores rs in
  if negb (length covs =? 0)%nat && existsb (fun x => negb (in_pivot pd x)) treated then Err KeyError else   (* cov_data.loc *)
  let cs := if (length covs =? 0)%nat then map (fun _ => NaN) cands else cov_scores (map (cov_dist pd covs treated) cands) in
  let table := map (fun q => let '(x, (r, (o, c))) := q in
                   {| k_unit := x; k_quality := combine_scores ow cw o c; k_trend := o; k_cov := c; k_rmse := r;
                      k_req := match require with Some l => umem x l | None => false end |})
                 (combine cands (combine rs (combine os cs))) in
  Ok (Some (limit_top n_top (dsort table))).

(* ---- _suggest_treatment_candidates, 1126-1241 ---- *)
Record cand := { n_unit : U; n_level : fl; n_slope : fl; n_similar : nat; n_score : fl }.
Variable polyfit : list fl -> fl.      (* slope of np.polyfit(arange(n), outcomes, 1), or 0 when it raises *)
Definition of_u (pd : list I) (x : U) : list I := filter (fun i => keqb ueq (u i) x) pd.
Definition similar_count (pd : list I) (x : U) : nat :=
  let others := filter (fun v => negb (keqb ueq v x)) (cov_units pd) in
  let means := map (fun v => nmean (map y (of_u pd v))) others in
  let a := nmean (map y (of_u pd x)) in
  let sd := nstd means in
  if fgt sd (Fin 0) then length (filter (fun m => flt (fabs (fsub m a)) (fmul (Fin (1/2)) sd)) means) else length means.
Definition clip01 (x : fl) : fl := if flt x (Fin 0) then Fin 0 else if flt (Fin 1) x then Fin 1 else x.
Variable nlargest : nat -> list cand -> list cand.
Definition suggest_candidates (pre : list Z) (n : nat) : list cand :=
  let pd := pre_data pre in
  let us := filter (in_pivot pd) all_units in
  let lv x := nmean (map y (of_u pd x)) in
  let mx := fold_left Nat.max (map (similar_count pd) us) 0%nat in
  let sim x := if (0 <? mx)%nat then Fin (INR (similar_count pd x) / INR mx) else Fin 0 in
  let levels := map lv us in
  let z x := if fgt (nstd levels) (Fin 0) then fabs (fdiv (fsub (lv x) (nmean levels)) (nstd levels)) else Fin 0 in
  nlargest n (map (fun x =>
    {| n_unit := x; n_level := lv x;
       n_slope := (let l := of_u pd x in if (1 <? length l)%nat then polyfit (map y l) else Fin 0);
       n_similar := similar_count pd x;
       n_score := clip01 (fsub (sim x) (fmul (Fin (3/10)) (z x))) |}) us).
End Rank.

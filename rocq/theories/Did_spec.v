(* Textbook quantities for the 2x2 design, independent of any regression. *)
From Verif Require Import Prelude.
Open Scope R_scope.

(* the rows of group a in period b *)
Definition cell {I} (rows : list I) (d t : I -> R) (a b : R) : list I :=
  filter (fun i => Reqb (d i) a && Reqb (t i) b) rows.

Definition cell_mean {I} (rows : list I) (d t y : I -> R) (a b : R) : R := meanf y (cell rows d t a b).

(* (treated post - treated pre) - (control post - control pre) *)
Definition did_of_means {I} (rows : list I) (d t y : I -> R) : R :=
  (cell_mean rows d t y 1 1 - cell_mean rows d t y 1 0)
  - (cell_mean rows d t y 0 1 - cell_mean rows d t y 0 0).

Definition zero_one {I} (rows : list I) (x : I -> R) : Prop := forall i, In i rows -> x i = 0 \/ x i = 1.

Definition four_cells {I} (rows : list I) (d t : I -> R) : Prop :=
  cell rows d t 0 0 <> [] /\ cell rows d t 0 1 <> [] /\ cell rows d t 1 0 <> [] /\ cell rows d t 1 1 <> [].

(* sum over the cell of squared deviations from the cell mean, over the squared cell size *)
Definition cell_var {I} (rows : list I) (d t y : I -> R) (a b : R) : R :=
  sumf (fun i => (y i - cell_mean rows d t y a b) * (y i - cell_mean rows d t y a b)) (cell rows d t a b)
  / (len (cell rows d t a b) * len (cell rows d t a b)).

(* heteroskedasticity-robust variance of a difference of four independent means, with n/(n-4) *)
Definition did_hc1 {I} (rows : list I) (d t y : I -> R) : R :=
  len rows / (len rows - 4) *
  (cell_var rows d t y 0 0 + cell_var rows d t y 0 1 + cell_var rows d t y 1 0 + cell_var rows d t y 1 1).

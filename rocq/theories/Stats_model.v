(* numpy statistics used by the bootstrap and placebo code: np.sort, np.percentile, np.std, np.mean of
   a boolean mask. *)
From Verif Require Import Prelude Flt.
From Coq Require Import Arith ZArith List.
Import ListNotations.
Open Scope R_scope.

(* np.sort (ascending) *)
Fixpoint rinsert (x : R) (l : list R) : list R :=
  match l with
  | [] => [x]
  | y :: r => if Rle_dec x y then x :: l else y :: rinsert x r
  end.
Fixpoint rsort (l : list R) : list R :=
  match l with [] => [] | x :: r => rinsert x (rsort r) end.

(* np.percentile(a, 100 q), default linear interpolation, of a non-empty array:
   virtual index q (n-1), linear interpolation between the two neighbouring order statistics *)
Definition percentile (l : list R) (q : R) : R :=
  let s := rsort l in
  let n := length s in
  let v := q * (INR n - 1) in
  let i := Z.to_nat (Int_part v) in
  let j := Nat.min (S i) (n - 1) in
  nth i s 0 + (nth j s 0 - nth i s 0) * frac_part v.

(* np.std(a, ddof): sqrt(sum (x - mean)^2 / (n - ddof)) *)
Definition sumsq_dev (l : list R) : R := sumf (fun x => (x - meanf idR l) * (x - meanf idR l)) l.
Definition variance (ddof : nat) (l : list R) : R := sumsq_dev l / (len l - INR ddof).
Definition std (ddof : nat) (l : list R) : R := sqrt (variance ddof l).

(* np.mean of a boolean mask: share of elements satisfying the predicate *)
Definition share {A} (p : A -> bool) (l : list A) : R := meanf (fun x => ind (p x)) l.

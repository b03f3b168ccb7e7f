(* Model of the compiled least-squares solver rust/src/linalg.rs:44-277, of scipy's gelsd driver as the
   NumPy backend calls it (cond=1e-07, linalg.py:681-683, 701), of the numerical rank decision of
   _detect_rank_deficiency (linalg.py:85-146) and of the routing between the two backends in
   solve_ols (linalg.py:482-580).  float64 is R: rounding is not modelled, the tolerances are. *)
From Verif Require Import Prelude Flt Linalg_model.
From Coq Require Import Arith ZArith String List.
Import ListNotations.
Open Scope R_scope.

(* rcond = 1e-07: linalg.rs:111, linalg.py:682, 701 (cond) and 125 *)
Definition rcond : R := / IZR 10000000.

Section Svd.
Context {I : Type}.

(* The value of x_faer.thin_svd() (linalg.rs:69-100): [d_r] singular values, left vectors (columns of U,
   functions of the row), right vectors (columns of V, functions of the column index). *)
Record svd_val := { d_r : nat; d_s : nat -> R; d_u : nat -> I -> R; d_v : nat -> nat -> R }.

Definition kron (a b : nat) : R := if Nat.eqb a b then 1 else 0.

(* What a thin singular value decomposition guarantees: orthonormal columns of U and of V, nonnegative
   singular values, X = U diag(s) V', min(n, k) triples; V is square, hence V V' = I, when k <= n. *)
Definition is_svd (rows : list I) (cols : list (I -> R)) (d : svd_val) : Prop :=
  d_r d = Nat.min (length rows) (length cols) /\
  (forall l, (l < d_r d)%nat -> 0 <= d_s d l) /\
  (forall l m, (l < d_r d)%nat -> (m < d_r d)%nat -> ip rows (d_u d l) (d_u d m) = kron l m) /\
  (forall l m, (l < d_r d)%nat -> (m < d_r d)%nat ->
     ip (seq 0 (length cols)) (d_v d l) (d_v d m) = kron l m) /\
  (forall j i, (j < length cols)%nat -> In i rows ->
     colx cols j i = sumf (fun l => d_s d l * d_u d l i * d_v d l j) (seq 0 (d_r d))) /\
  ((length cols <= length rows)%nat -> forall a b, (a < length cols)%nat -> (b < length cols)%nat ->
     sumf (fun l => d_v d l a * d_v d l b) (seq 0 (d_r d)) = kron a b).

(* s_max = s.iter().cloned().fold(0.0, f64::max); threshold = s_max * rcond   (linalg.rs:112-113) *)
Definition s_max (d : svd_val) : R := fold_left Rmax (map (d_s d) (seq 0 (d_r d))) 0.
Definition s_cut (d : svd_val) : R := s_max d * rcond.
(* the singular values with s[i] > threshold (linalg.rs:123-129) *)
Definition s_kept (d : svd_val) : list nat := filter (fun l => Rltb (s_cut d) (d_s d l)) (seq 0 (d_r d)).
Definition s_dropped (d : svd_val) : list nat := filter (fun l => negb (Rltb (s_cut d) (d_s d l))) (seq 0 (d_r d)).

(* coefficients = V (S^{-1} U' y) with the small singular values left out (linalg.rs:117-132);
   LAPACK's gelsd with rcond = cond treats singular values s(i) <= rcond * s(1) as zero: same formula. *)
Definition svd_solve (d : svd_val) (rows : list I) (cols : list (I -> R)) (y : I -> R) : list R :=
  map (fun j => sumf (fun l => d_v d l j * (ip rows (d_u d l) y / d_s d l)) (s_kept d)) (seq 0 (length cols)).

End Svd.
Arguments svd_val : clear implicits.

(* _detect_rank_deficiency, linalg.py:115-146, from the diagonal of R and the pivots of scipy.linalg.qr.
   np.sort of the dropped positions is left out: solve_ols only tests membership in them. *)
Definition qr_rank (rdiag : list R) : nat :=
  match rdiag with
  | [] => 0%nat
  | r0 :: _ => if Reqb (Rabs r0) 0 then 0%nat
               else length (filter (fun r => Rltb (rcond * Rabs r0) (Rabs r)) rdiag)
  end.
Definition qr_cut (k : nat) (rdiag : list R) (pivot : list nat) : list nat :=
  if Nat.ltb (qr_rank rdiag) k then skipn (qr_rank rdiag) pivot else [].

Section Rust.
Context {I K : Type} (eqd : forall x y : K, {x = y} + {x <> y}).

(* compute_robust_vcov_internal, linalg.rs:193-277.  [rinv] is invert_symmetric (:295-386): None stands for
   either of its two errors ("Matrix inversion failed (singular matrix)", "... numerically unstable").
   Inversion comes before the cluster count; n as f64 / (n - k) as f64 is a float division, so n = k gives an
   infinite factor instead of an exception. *)
Inductive rust_err := RUnstable | RRaise (e : exc).
Inductive rust_res (A : Type) := ROk (a : A) | RErr (e : rust_err).
Arguments ROk {A}. Arguments RErr {A}.

Definition rust_vcov (rinv : list I -> list (I -> R) -> option (nat -> nat -> R))
    (rows : list I) (cols : list (I -> R)) (e : I -> R) (cluster : option (I -> K))
    : rust_res (nat -> nat -> fl) :=
  let n := INR (length rows) in let k := length cols in
  match rinv rows cols with
  | None => RErr RUnstable
  | Some B =>
    match cluster with
    | None => ROk (fun a c => fmul (fdiv (Fin n) (Fin (n - INR k)))
                                   (Fin (sandwich_rust k 1 B (hc1_meat rows cols e) a c)))
    | Some cl =>
        let G := length (cl_keys eqd rows cl) in
        if Nat.ltb G 2 then RErr (RRaise ValueError)
        else ROk (fun a c => fmul (fmul (Fin (INR G / (INR G - 1))) (fdiv (Fin (n - 1)) (Fin (n - INR k))))
                                  (Fin (sandwich_rust k 1 B (cl_meat eqd rows cols e cl) a c)))
    end
  end.

Record rust_out := { ro_coef : list R; ro_resid : I -> R; ro_vcov : option (nat -> nat -> fl) }.

(* solve_ols, linalg.rs:44-160; [thin_svd] returning None is the "SVD computation failed" error. *)
Definition rust_solve (thin_svd : list I -> list (I -> R) -> option (svd_val I))
    (rinv : list I -> list (I -> R) -> option (nat -> nat -> R))
    (rows : list I) (cols : list (I -> R)) (y : I -> R) (cluster : option (I -> K)) (return_vcov : bool)
    : rust_res rust_out :=
  match thin_svd rows cols with
  | None => RErr (RRaise ValueError)
  | Some d =>
    let b := svd_solve d rows cols y in
    let resid := fun i => y i - lc cols b i in
    if return_vcov then
      if Nat.ltb (length (s_kept d)) (length cols)
      then ROk {| ro_coef := b; ro_resid := resid; ro_vcov := Some (fun _ _ => NaN) |}
      else match rust_vcov rinv rows cols resid cluster with
           | RErr e => RErr e
           | ROk V => ROk {| ro_coef := b; ro_resid := resid; ro_vcov := Some V |}
           end
    else ROk {| ro_coef := b; ro_resid := resid; ro_vcov := None |}
  end.

(* np.any(np.isnan(vcov)), linalg.py:544 *)
Definition any_nan (k : nat) (V : nat -> nat -> fl) : bool :=
  existsb (fun a => existsb (fun c => fisnan (V a c)) (seq 0 k)) (seq 0 k).

(* solve_ols with the compiled extension installed: linalg.py:455-467 (argument checks), 482-505
   (skip_rank_check), 514-560 (routing), 306-336 (_solve_ols_rust: "numerically unstable"/"singular" errors
   give None, other ValueErrors propagate).  The UserWarnings of the two fall-backs (315-320, 546-551) are
   recorded in [o_warned]. *)
Variable qr_dropped : list I -> list (I -> R) -> list nat.
Variable lstsq : list I -> list (I -> R) -> (I -> R) -> list R.
Variable inv : list I -> list (I -> R) -> option (nat -> nat -> R).
Variable thin_svd : list I -> list (I -> R) -> option (svd_val I).
Variable rinv : list I -> list (I -> R) -> option (nat -> nat -> R).

Definition no_drop (rows : list I) (cols : list (I -> R)) : list nat := [].
Definition warned (r : res (ols_out I)) : res (ols_out I) :=
  do o <- r;
  Ok {| o_coef := o_coef o; o_resid := o_resid o; o_fitted := o_fitted o; o_vcov := o_vcov o; o_warned := true |}.
Definition of_rust (y : I -> R) (cols : list (I -> R)) (o : rust_out) : ols_out I :=
  {| o_coef := map Fin (ro_coef o); o_resid := ro_resid o; o_fitted := lc cols (ro_coef o);
     o_vcov := ro_vcov o; o_warned := false |}.

Definition solve_ols_ext (skip_rank_check : bool) (rows : list I) (cols : list (I -> R)) (y : I -> R)
    (cluster : option (I -> K)) (return_vcov : bool) (action : string) : res (ols_out I) :=
  if Nat.ltb (length rows) (length cols) then Err ValueError
  else match parse_action action with
  | None => Err ValueError
  | Some _ =>
    if skip_rank_check then                                                       (* 484-505 *)
      match rust_solve thin_svd rinv rows cols y cluster return_vcov with
      | RErr (RRaise e) => Err e
      | RErr RUnstable => warned (solve_ols eqd no_drop lstsq inv rows cols y cluster return_vcov action)
      | ROk o => Ok (of_rust y cols o)
      end
    else match qr_dropped rows cols with
    | [] =>                                                                       (* 522-560 *)
        match rust_solve thin_svd rinv rows cols y cluster return_vcov with
        | RErr (RRaise e) => Err e
        | RErr RUnstable => warned (solve_ols eqd qr_dropped lstsq inv rows cols y cluster return_vcov action)
        | ROk o =>
            match ro_vcov o with
            | Some V => if any_nan (length cols) V
                        then warned (solve_ols eqd qr_dropped lstsq inv rows cols y cluster return_vcov action)
                        else Ok (of_rust y cols o)
            | None => Ok (of_rust y cols o)
            end
        end
    | _ :: _ => solve_ols eqd qr_dropped lstsq inv rows cols y cluster return_vcov action   (* 562-580 *)
    end
  end.
End Rust.
Arguments ROk {A}. Arguments RErr {A}.

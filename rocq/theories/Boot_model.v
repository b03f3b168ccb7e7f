(* Bootstrap weights (utils.py:217-309, staggered_bootstrap.py:32-170, rust/src/bootstrap.rs:31-150) and the
   wild cluster bootstrap (utils.py:312-520).  A finite distribution is the list of the values the
   generator may return paired with the probability it gives them; a draw assigns a weight to every
   cluster.  The random stream itself is an input of the model (a list of draws). *)
From Verif Require Import Prelude Flt Stats_model Linalg_model.
From Coq Require Import Arith ZArith String Ascii List.
Import ListNotations.
Open Scope R_scope.

Definition dist := list (R * R).
Definition Ex (d : dist) (f : R -> R) : R := sumf (fun vp => snd vp * f (fst vp)) d.

(* rng.choice(values, size=n): equal probabilities *)
Definition uniform (vs : list R) : dist := map (fun v => (v, 1 / len vs)) vs.

(* utils.py:233 *)
Definition rademacher : dist := uniform [-(1); 1].
(* utils.py:267-271 *)
Definition webb : dist :=
  uniform [- sqrt (3 / 2); - sqrt (2 / 2); - sqrt (1 / 2); sqrt (1 / 2); sqrt (2 / 2); sqrt (3 / 2)].
(* utils.py:301-309 *)
Definition mammen : dist :=
  let sqrt5 := sqrt 5 in
  let val1 := - (sqrt5 - 1) / 2 in
  let val2 := (sqrt5 + 1) / 2 in
  let p1 := (sqrt5 + 1) / (2 * sqrt5) in
  [(val1, p1); (val2, 1 - p1)].

(* rust/src/bootstrap.rs:58-79, 88-118, 126-158 *)
Definition rademacher_rust : dist := [(1, 1 / 2); (-(1), 1 / 2)].
Definition mammen_rust : dist :=
  let sqrt5 := sqrt 5 in
  let val_neg := - (sqrt5 - 1) / 2 in
  let val_pos := (sqrt5 + 1) / 2 in
  let prob_neg := (sqrt5 + 1) / (2 * sqrt5) in
  [(val_neg, prob_neg); (val_pos, 1 - prob_neg)].
Definition webb_rust : dist :=
  let val1 := sqrt (3 / 2) in let val2 := 1 in let val3 := sqrt (1 / 2) in
  uniform [- val1; - val2; - val3; val3; val2; val1].

(* staggered_bootstrap.py:53-82, 142-170 *)
Definition boot_dist_py (s : string) : res dist :=
  if String.eqb s "rademacher" then Ok rademacher
  else if String.eqb s "mammen" then Ok mammen
  else if String.eqb s "webb" then Ok webb
  else Err ValueError.

(* weight_type.to_lowercase(), rust/src/bootstrap.rs:40; ASCII letters only *)
Definition lower_ascii (c : ascii) : ascii :=
  let n := nat_of_ascii c in
  if (Nat.leb 65 n && Nat.leb n 90)%bool then ascii_of_nat (n + 32) else c.
Fixpoint to_lower (s : string) : string :=
  match s with EmptyString => EmptyString | String c r => String (lower_ascii c) (to_lower r) end.
Definition boot_dist_rust (s : string) : res dist :=
  if String.eqb (to_lower s) "rademacher" then Ok rademacher_rust
  else if String.eqb (to_lower s) "mammen" then Ok mammen_rust
  else if String.eqb (to_lower s) "webb" then Ok webb_rust
  else Err ValueError.

(* independent weights for n clusters: all vectors with their probabilities *)
Fixpoint draws (d : dist) (n : nat) : list (list R * R) :=
  match n with
  | O => [([], 1)]
  | S m => flat_map (fun vp => map (fun wp => (fst vp :: fst wp, snd vp * snd wp)) (draws d m)) d
  end.
Definition Exv (ds : list (list R * R)) (f : list R -> R) : R := sumf (fun wp => snd wp * f (fst wp)) ds.

(* monadic map (Python loop that may raise) *)
Fixpoint mapM {A B} (f : A -> res B) (l : list A) : res (list B) :=
  match l with
  | [] => Ok []
  | x :: r => do y <- f x; do ys <- mapM f r; Ok (y :: ys)
  end.

(* WildBootstrapResults, utils.py:145-175 (numbers only) *)
Record wild := {
  w_se : fl; w_p : R; w_t : fl; w_ci : R * R; w_nclusters : nat; w_nboot : nat; w_coefs : list R
}.

Section Wild.
Context {I K : Type} (eqd : forall x y : K, {x = y} + {x <> y}).
Variable qr_dropped : list I -> list (I -> R) -> list nat.
Variable lstsq : list I -> list (I -> R) -> (I -> R) -> list R.
Variable inv : list I -> list (I -> R) -> option (nat -> nat -> R).

Definition diag (v : option (nat -> nat -> fl)) (j : nat) : fl :=
  match v with Some V => V j j | None => NaN end.

(* one replicate, utils.py:455-477: returns (coefficient, t statistic) *)
Definition wild_rep (rows : list I) (cols : list (I -> R)) (cl : I -> K) (j : nat) (null : R)
    (beta_r : list R) (e_r : I -> R) (w : K -> R) : res (R * R) :=
  let y_star := fun i => lc cols beta_r i + e_r i * w (cl i) in
  do o <- solve_ols eqd qr_dropped lstsq inv rows cols y_star (Some cl) true "warn";
  let b := nan_to_zero (nth j (o_coef o) NaN) in
  let se := fsqrt (diag (o_vcov o) j) in
  Ok (b, if fgt se (Fin 0) then (b - null) / nan_to_zero se else 0).

(* wild_bootstrap_se, utils.py:312-520.  [ws] are the weight draws (one function cluster -> weight per
   replicate).  A NaN in beta_restricted (rank-deficient X) makes y_star NaN, which solve_ols rejects
   (linalg.py:475-480).  An empty bootstrap (n_bootstrap = 0) fails in np.percentile.  The argument
   [residuals] of the Python function is never read. *)
Definition wild_bootstrap (rows : list I) (cols : list (I -> R)) (y : I -> R) (cl : I -> K) (j : nat)
    (weight_type : string) (null alpha : R) (ws : list (K -> R)) : res wild :=
  if negb (String.eqb weight_type "rademacher" || String.eqb weight_type "webb"
           || String.eqb weight_type "mammen")%bool then Err ValueError             (* 403-408 *)
  else
  let G := length (cl_keys eqd rows cl) in
  if Nat.ltb G 2 then Err ValueError                                                 (* 413-416 *)
  else
  do o <- solve_ols eqd qr_dropped lstsq inv rows cols y (Some cl) true "warn";      (* 441-443 *)
  if Nat.leb (length cols) j then Err IndexError
  else
  let coef := nth j (o_coef o) NaN in
  let t_orig := fdiv (fsub coef (Fin null)) (fsqrt (diag (o_vcov o) j)) in           (* 444-446 *)
  let y_r := fun i => y i - colx cols j i * null in                                  (* 451 *)
  do r <- solve_ols eqd qr_dropped lstsq inv rows cols y_r (Some cl) false "warn";   (* 456-458 *)
  match ws with
  | [] => Err IndexError
  | _ :: _ =>
    if existsb fisnan (o_coef r) then Err ValueError
    else
    let beta_r := map nan_to_zero (o_coef r) in
    do reps <- mapM (wild_rep rows cols cl j null beta_r (o_resid r)) ws;            (* 469-491 *)
    let coefs := map fst reps in
    let B := length ws in
    let p0 := share (fun ct => fge (fabs (Fin (snd ct))) (fabs t_orig)) reps in      (* 495 *)
    Ok {| w_se := if Nat.eqb B 1 then NaN else Fin (std 1 coefs);                    (* 502 *)
          w_p := Rmax p0 (1 / (INR B + 1));                                          (* 498 *)
          w_t := t_orig;
          w_ci := (percentile coefs (alpha / 2), percentile coefs (1 - alpha / 2));  (* 505-508 *)
          w_nclusters := G; w_nboot := B; w_coefs := coefs |}
  end.
End Wild.

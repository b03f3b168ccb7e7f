(* Synthetic difference in differences: utils.py:997-1347, synthetic_did.py, rust/src/weights.rs.
   An outcome matrix (n_periods, n_units) is a function period -> unit -> R together with the lists of
   periods and units; a weight vector is a list aligned with the list of units (or periods). *)
From Verif Require Import Prelude Flt Stats_model Linalg_model.
From Coq Require Import Arith ZArith String List.
Import ListNotations.
Open Scope R_scope.

(* ---- projection on the simplex, utils.py:1112-1147 ---- *)
(* np.cumsum(u)[k-1] *)
Definition psum (u : list R) (k : nat) : R := sumf idR (firstn k u).
(* np.sort(v)[::-1] *)
Definition rdesc (v : list R) : list R := rev (rsort v).
(* np.where(u > (cssv - 1) / np.arange(1, n + 1))[0]; the last such index, 0 if there is none *)
Definition simplex_cond (u : list R) (i : nat) : bool := Rltb ((psum u (S i) - 1) / INR (S i)) (nth i u 0).
Definition simplex_rho (u : list R) : nat := last (filter (simplex_cond u) (seq 0 (length u))) 0%nat.
Definition simplex_theta (v : list R) : R :=
  let u := rdesc v in let r := simplex_rho u in (psum u (S r) - 1) / INR (S r).
Definition project_simplex (v : list R) : list R :=
  match v with
  | [] => []
  | _ :: _ => let theta := simplex_theta v in map (fun x => Rmax (x - theta) 0) v
  end.

(* rust/src/weights.rs:132-162: running sum and running last index *)
Definition rust_loop (u : list R) (st : R * nat * nat) (ui : R) : R * nat * nat :=
  let '(cumsum, rho, i) := st in
  let cumsum' := cumsum + ui in
  (cumsum', if Rlt_dec 0 (ui + (1 - cumsum') / (INR i + 1)) then i else rho, S i).
Definition project_simplex_rust (v : list R) : list R :=
  let u := rdesc v in
  let '(_, rho, _) := fold_left (rust_loop u) u (0, 0%nat, 0%nat) in
  let theta := (sumf idR (firstn (rho + 1) u) - 1) / (INR rho + 1) in
  map (fun x => Rmax (x - theta) 0) v.

(* squared Euclidean distance, np.linalg.norm(a - b) *)
Definition sqd (a b : list R) : R := sumf (fun p => (fst p - snd p) * (fst p - snd p)) (combine a b).
Definition dist2 (a b : list R) : R := sqrt (sqd a b).

(* ---- unit weights, utils.py:997-1109 ---- *)
Definition eps10 : R := 1 / 10000000000.      (* _NUMERICAL_EPS, utils.py:26 *)
Definition opt_tol : R := 1 / 100000000.      (* _OPTIMIZATION_TOL, utils.py:25 *)

Section Weights.
Context {T : Type}.

(* grad = H @ weights - f with H = Y'Y + lambda I, f = Y'y + lambda / n (utils.py:1083-1100) *)
Definition grad_py (pre : list T) (cols : list (T -> R)) (y : T -> R) (lambda : R) (w : list R) (j : nat) : R :=
  ip pre (colx cols j) (lc cols w) + lambda * nth j w 0
  - (ip pre (colx cols j) y + lambda * (1 / INR (length cols))).
(* rust/src/weights.rs:64-88: the linear term has no lambda part *)
Definition grad_rust (pre : list T) (cols : list (T -> R)) (y : T -> R) (lambda : R) (w : list R) (j : nat) : R :=
  ip pre (colx cols j) (lc cols w) + lambda * nth j w 0 - ip pre (colx cols j) y.

Definition grad_step (proj : list R -> list R) (n : nat) (step : R) (grad : list R -> nat -> R) (w : list R) : list R :=
  proj (map (fun j => nth j w 0 - step * grad w j) (seq 0 n)).

(* for _ in range(max_iter): ... if norm(weights - weights_old) < tol: break *)
Fixpoint pgd (iter : nat) (stp : list R -> list R) (w : list R) : list R :=
  match iter with
  | O => w
  | S k => let w' := stp w in if Rlt_dec (dist2 w' w) opt_tol then w' else pgd k stp w'
  end.

Definition uniform_w (n : nat) : list R := repeat (1 / INR n) n.

(* _compute_synthetic_weights_numpy; [nrm] = np.linalg.norm(H, 2) *)
Definition synth_numpy (iter : nat) (nrm : R) (pre : list T) (cols : list (T -> R)) (y : T -> R) (lambda : R) : list R :=
  let n := length cols in
  pgd iter (grad_step project_simplex n (1 / (nrm + eps10)) (grad_py pre cols y lambda)) (uniform_w n).
(* compute_synthetic_weights_internal (Rust): constant step 0.1 *)
Definition synth_rust (iter : nat) (pre : list T) (cols : list (T -> R)) (y : T -> R) (lambda : R) : list R :=
  let n := length cols in
  pgd iter (grad_step project_simplex_rust n (1 / 10) (grad_rust pre cols y lambda)) (uniform_w n).

(* weights[weights < min_weight] = 0; renormalise or fall back to uniform (utils.py:1058-1064) *)
Definition finish_weights (m : R) (w : list R) : list R :=
  let w1 := map (fun x => if Rlt_dec x m then 0 else x) w in
  if Rlt_dec 0 (sumf idR w1) then map (fun x => x / sumf idR w1) w1
  else uniform_w (length w).

(* compute_synthetic_weights, utils.py:997-1066; [core] is the backend *)
Definition synthetic_weights (core : list R) (n : nat) (m : R) : list R :=
  match n with
  | O => []
  | 1%nat => [1]
  | _ => finish_weights m core
  end.

(* compute_time_weights, utils.py:1150-1200 *)
Definition time_weights {J} (Y : T -> J -> R) (pre : list T) (ctrl : list J) (y : T -> R) (zeta : R) : list R :=
  match pre with
  | [] => []
  | [_] => [1]
  | _ =>
    let diffs := map (fun t => Rabs (y t - meanf (Y t) ctrl)) pre in
    let inv := map (fun d => 1 / (d + zeta * std 0 diffs + eps10)) diffs in
    map (fun x => x / sumf idR inv) inv
  end.

(* w @ f over the aligned list *)
Definition wdot {A} (w : list R) (f : A -> R) (l : list A) : R :=
  sumf (fun p => fst p * f (snd p)) (combine w l).

(* compute_sdid_estimator, utils.py:1203-1263 *)
Definition sdid {J} (Y : T -> J -> R) (pre post : list T) (ctrl : list J) (ytr : T -> R)
    (omega lambda : list R) : R :=
  let weighted_pre_control := fun j => wdot lambda (fun t => Y t j) pre in
  let weighted_pre_treated := wdot lambda ytr pre in
  let mean_post_control := fun j => meanf (fun t => Y t j) post in
  let did_treated := meanf ytr post - weighted_pre_treated in
  let did_control := wdot omega (fun j => mean_post_control j - weighted_pre_control j) ctrl in
  did_treated - did_control.

(* _placebo_variance_se, synthetic_did.py:570-718.  [ctrl] lists control units with their weight;
   [perms] are the permutations drawn by the generator (each a reordering of [ctrl]). *)
Definition placebo_one {J} (Y : T -> J -> R) (pre post : list T) (lambda : list R) (n_pseudo : nat)
    (perm : list (J * R)) : R :=
  let pc := firstn n_pseudo perm in
  let pt := map fst (skipn n_pseudo perm) in
  let s := sumf snd pc in
  let w := if Rlt_dec 0 s then map (fun p => snd p / s) pc else repeat (1 / INR n_pseudo) n_pseudo in
  sdid Y pre post (map fst pc) (fun t => meanf (Y t) pt) w lambda.

Definition placebo_se (n_control n_treated : nat) (effects : list R) : R * list R :=
  if Nat.leb n_control n_treated then (0, [])                       (* n_pseudo_control < 1 *)
  else match effects with
       | [] | [_] => (0, effects)
       | _ => let r := len effects in (sqrt ((r - 1) / r) * std 1 effects, effects)
       end.

(* end of _bootstrap_se, synthetic_did.py:519-568: [n_bootstrap] attempted, [est] the successes *)
Definition bootstrap_se (n_bootstrap : nat) (est : list R) : res (R * list R) :=
  if Nat.eqb n_bootstrap 0 then Err ZeroDivisionError               (* failure_rate *)
  else match est with
       | [] => Err ValueError
       | [_] => Ok (0, est)
       | _ => Ok (std 1 est, est)
       end.
End Weights.

Record sdid_inf := { s_t : R; s_p : R; s_ci : R * R }.
(* test statistics of SyntheticDiD.fit, synthetic_did.py:320-345; [sf]/[z]: normal tail and quantile
   (compute_p_value and compute_confidence_interval without df, utils.py:81-143) *)
Definition sdid_inference (sf : R -> R) (z : R -> R) (att se alpha : R) (draws : list R) : sdid_inf :=
  let ci := (att - z (1 - alpha / 2) * se, att + z (1 - alpha / 2) * se) in
  if Rlt_dec 0 se then
    let t := att / se in
    let p := match draws with
             | [] => 2 * sf (Rabs t)
             | _ :: _ => Rmax (share (fun d => Rleb (Rabs att) (Rabs d)) draws) (1 / (len draws + 1))
             end in
    {| s_t := t; s_p := p; s_ci := ci |}
  else {| s_t := 0; s_p := 1; s_ci := ci |}.

(* period split of SyntheticDiD.fit, synthetic_did.py:222-250.  [all] = sorted(data[time].unique()) *)
Definition sdid_periods {T} (mem : T -> list T -> bool) (all : list T) (post : option (list T))
    : res (list T * list T) :=
  if Nat.ltb (length all) 2 then Err ValueError
  else
  let '(pre, pst) := match post with
                     | None => let mid := (length all / 2)%nat in (firstn mid all, skipn mid all)
                     | Some p => (filter (fun x => negb (mem x p)) all, p)
                     end in
  if Nat.eqb (length pst) 0 then Err ValueError
  else if Nat.eqb (length pre) 0 then Err ValueError
  else if forallb (fun x => mem x all) pst then Ok (pre, pst) else Err ValueError.

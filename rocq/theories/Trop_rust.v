(* rust/src/trop.rs: the compiled fast paths of the two-step TROP estimator, used when the extension is
   importable.  The final point estimates are always computed by the Python code (Trop_model.v); the pairwise
   distances, the tuning search and the bootstrap replicates come from here.
   Matrices as in Trop_model.v.  [svd] is faer's thin_svd, returning the same triples; real arithmetic.
   A fit never returns [None] in the Rust code (soft_threshold_svd always returns [Some]). *)
From Verif Require Import Prelude Flt Stats_model Linalg_model Multi_model Trop_model.
From Coq Require Import Arith ZArith String List.
Import ListNotations.
Open Scope R_scope.

(* ------------------------------------------------------------------------------------------- *)
(* compute_pair_distance, trop.rs:124-147: one pass, accumulating the sum of squares and the count.
   y_masked holds NaN in the invalid cells, which are never read. *)
Definition r_valid (Y : omat) (D : dmat) (t i : nat) : bool := (D t i =? 0)%Z && has Y t i.
Definition r_acc (Y : omat) (D : dmat) (j i : nat) (acc : R * nat) (t : nat) : R * nat :=
  if r_valid Y D t j && r_valid Y D t i
  then (fst acc + (ysafe Y t i - ysafe Y t j) * (ysafe Y t i - ysafe Y t j), S (snd acc))
  else acc.
Definition r_pair (T : nat) (Y : omat) (D : dmat) (j i : nat) : option R :=
  let '(q, n) := fold_left (r_acc Y D j i) (seq 0 T) (0, 0%nat) in
  if (0 <? n)%nat then Some (sqrt (q / INR n)) else None.
(* compute_unit_distance_matrix_internal, trop.rs:53-118: upper triangle, mirrored, zero diagonal *)
Definition r_dist_all (T : nat) (Y : omat) (D : dmat) (j i : nat) : option R :=
  if (j =? i)%nat then Some 0 else if (j <? i)%nat then r_pair T Y D j i else r_pair T Y D i j.

(* compute_unit_distance_for_obs, trop.rs:517-548 *)
Definition r_acc_obs (Y : omat) (D : dmat) (j i tgt : nat) (acc : R * nat) (t : nat) : R * nat :=
  if (t =? tgt)%nat then acc
  else if ((D t i =? 0)%Z && (D t j =? 0)%Z) && (has Y t i && has Y t j)
  then (fst acc + (ysafe Y t i - ysafe Y t j) * (ysafe Y t i - ysafe Y t j), S (snd acc))
  else acc.
Definition r_dist_obs (T : nat) (Y : omat) (D : dmat) (j i tgt : nat) : option R :=
  let '(q, n) := fold_left (r_acc_obs Y D j i tgt) (seq 0 T) (0, 0%nat) in
  if (0 <? n)%nat then Some (sqrt (q / INR n)) else None.

(* ------------------------------------------------------------------------------------------- *)
(* compute_weight_matrix, trop.rs:561-624: every unit is weighted, both factors are normalised to sum 1 *)
Definition r_normalised (f : nat -> R) (n : nat) (k : nat) : R :=
  if Rlt_dec 0 (sumf f (seq 0 n)) then f k / sumf f (seq 0 n) else f k.
Definition r_unit_raw (T : nat) (Y : omat) (D : dmat) (lu : R) (i t j : nat) : R :=
  if (j =? i)%nat then 1
  else if Reqb lu 0 then 1
  else match r_dist_obs T Y D j i t with None => 0 | Some d => exp (- lu * d) end.
Definition r_w (T N : nat) (Y : omat) (D : dmat) (lt lu : R) (i t : nat) : mat :=
  fun s j => r_normalised (time_w lt t) T s * r_normalised (r_unit_raw T Y D lu i t) N j.

(* estimate_model, trop.rs:636-768.  alpha and beta keep their previous value where there is no weight; one
   proximal step per iteration, with step 1/max(W) and threshold lambda_nn/max(W).
   soft_threshold_svd (trop.rs:771-852) is the function of the Python code. *)
Definition r_eta (T N : nat) (W : mat) : R := if Rlt_dec 0 (wmax T N W) then 1 / wmax T N W else 1.
Definition r_alpha (T : nat) (W Z : mat) (old : nat -> R) (i : nat) : R :=
  let w := sumf (fun t => W t i) (seq 0 T) in
  if Rlt_dec 0 w then sumf (fun t => W t i * Z t i) (seq 0 T) / w else old i.
Definition r_beta (N : nat) (W Z : mat) (old : nat -> R) (t : nat) : R :=
  let w := sumf (fun i => W t i) (seq 0 N) in
  if Rlt_dec 0 w then sumf (fun i => W t i * Z t i) (seq 0 N) / w else old t.
Definition r_grad (T N : nat) (W Yz : mat) (a b : nat -> R) (L : mat) : mat :=
  fun t i => L t i + r_eta T N W * W t i * (Yz t i - a i - b t - L t i).
Definition r_step (svd : svd_fn) (T N : nat) (W Yz : mat) (h : R) (s : tstate) : tstate :=
  let a := r_alpha T W (fun t i => Yz t i - tlo s t i - tb s t) (ta s) in
  let b := r_beta N W (fun t i => Yz t i - tlo s t i - a i) (tb s) in
  {| ta := a; tb := b; tlo := soft_svd svd T N (r_grad T N W Yz a b (tlo s)) (Some (r_eta T N W * h)) |}.
Fixpoint r_loop (svd : svd_fn) (T N : nat) (W Yz : mat) (h tol : R) (k : nat) (s : tstate) : tstate :=
  match k with
  | O => s
  | S k' => let s' := r_step svd T N W Yz h s in
            if Rltb (st_diff T N s s') tol then s' else r_loop svd T N W Yz h tol k' s'
  end.
Definition r_estimate (svd : svd_fn) (T N : nat) (Y : omat) (D : dmat) (W : mat) (h : R) (maxit : nat) (tol : R)
  (ex : option (nat * nat)) : tstate :=
  r_loop svd T N (masked Y D ex W) (ysafe Y) h tol maxit tzero.
Definition r_fit_at (svd : svd_fn) (T N : nat) (Y : omat) (D : dmat) (lt lu h : R) (maxit : nat) (tol : R)
  (ex : option (nat * nat)) (c : nat * nat) : fl :=
  let '(t, i) := c in
  tau Y (r_estimate svd T N Y D (r_w T N Y D lt lu i t) h maxit tol ex) t i.

(* ------------------------------------------------------------------------------------------- *)
(* loocv_score_for_params, trop.rs:446-512, and get_control_observations, 408-438: [sub n k] is the prefix of
   the shuffled positions *)
Definition r_score (svd : svd_fn) (T N : nat) (Y : omat) (D : dmat) (obs : list (nat * nat)) (maxit : nat) (tol : R)
  (lt lu h : R) : option R :=
  match obs with
  | [] => None
  | _ => Some (sumf (fun c => fsq (r_fit_at svd T N Y D lt lu h maxit tol (Some c) c)) obs)
  end.
(* loocv_grid_search, trop.rs:328-405 (univariate and cycling searches 170-296, the loops of the Python code),
   with the caller's fallback, trop.py:1983-2035: a non-finite score runs the Python search instead *)
Definition r_tune (svd : svd_fn) (sub rsub : nat -> nat -> list nat) (odd : lam3 -> option R) (cfg : tcfg) (T N : nat) (Y : omat) (D : dmat) : lam3 * fl :=
  let obs := loocv_obs rsub (tc_maxs cfg) (control_obs T N Y D) in
  let sc := fun a b c => r_score svd T N Y D obs (tc_maxit cfg) (tc_tol cfg) (conv_w a) (conv_w b) (conv_nn c) in
  let '(lt, lu, ln) := two_stage sc (tc_gt cfg) (tc_gu cfg) (tc_gn cfg) in
  match sc lt lu ln with
  | Some s => ((lt, lu, ln), Fin s)
  | None => tune svd sub odd cfg T N Y D
  end.

(* ------------------------------------------------------------------------------------------- *)
(* bootstrap_trop_variance, trop.rs:897-1055: [cols] = the drawn units, controls first, in the drawn order *)
Definition r_boot_rep (svd : svd_fn) (T : nat) (Y : omat) (D : dmat) (lt lu h : R) (maxit : nat) (tol : R)
  (cols : list nat) : option fl :=
  let N := length cols in
  let Y' := sel_o Y cols in
  let D' := sel_d D cols in
  match treated_obs T N D', filter (fun i => forallb (fun t => (D' t i =? 0)%Z) (seq 0 T)) (seq 0 N) with
  | [], _ => None
  | _, [] => None
  | l, _ => Some (fmean (map (r_fit_at svd T N Y' D' lt lu h maxit tol None) l))
  end.
Definition r_boot_reps (svd : svd_fn) (T : nat) (Y : omat) (D : dmat) (lt lu h : R) (maxit : nat) (tol : R)
  (draws : list (list nat)) : list fl :=
  flat_map (fun cols => match r_boot_rep svd T Y D lt lu h maxit tol cols with Some x => [x] | None => [] end) draws.
(* sample standard deviation; NaN below two replicates *)
Definition r_boot_se (l : list fl) : fl := if (length l <? 2)%nat then NaN else fstd1 l.
(* _bootstrap_variance, trop.py:2814-2842: the compiled replicates are used when there are at least ten *)
Definition boot_dispatch (svd : svd_fn) (T : nat) (Y : omat) (D : dmat) (lt lu h : R) (maxit : nat) (tol : R)
  (name : nat -> string) (rdraws draws : list (list nat)) : fl * list fl :=
  let r := r_boot_reps svd T Y D lt lu h maxit tol rdraws in
  if (10 <=? length r)%nat then (r_boot_se r, r)
  else let p := boot_reps svd (Some (Y, D)) T Y D lt lu (Some h) maxit tol name draws in (boot_se p, p).

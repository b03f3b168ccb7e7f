(* How close the unit weights are to the penalised minimiser, and how close the two backends are to each other (C52). *)
From Verif Require Import Prelude Flt Stats_model Stats_proofs Linalg_model Linalg_proofs Synth_model Synth_proofs Synth_more Synth_conv.
From Coq Require Import Arith ZArith String List.
Import ListNotations.
Open Scope R_scope.

(* NumPy: within max(1/iter, 4 tol) (||H|| + 1e-10) of every point of the simplex; [nrm] bounds d'Hd, H = Y'Y + lambda I *)
Theorem C52_numpy_near_optimal {T} (pre : list T) cols y lambda iter nrm z : 0 <= lambda -> cols <> [] -> (0 < iter)%nat -> 0 <= nrm ->
  (forall d, length d = length cols -> ip pre (lc cols d) (lc cols d) + lambda * sumf (fun x => x * x) d <= nrm * sumf (fun x => x * x) d) ->
  length z = length cols -> in_simplex z ->
  let w := synth_numpy iter nrm pre cols y lambda in
  length w = length cols /\ in_simplex w /\
  objective pre cols y lambda w <= objective pre cols y lambda z + Rmax (1 / INR iter) (4 * opt_tol) * (nrm + eps10).
Proof. exact (numpy_near_optimal pre cols y lambda iter nrm z). Qed.

(* Rust: the same with 10 for the norm, provided d'Hd is at most 10 |d|^2 *)
Theorem C52_rust_near_optimal {T} (pre : list T) cols y lambda iter z : 0 <= lambda -> cols <> [] -> (0 < iter)%nat ->
  (forall d, length d = length cols -> ip pre (lc cols d) (lc cols d) + lambda * sumf (fun x => x * x) d <= 10 * sumf (fun x => x * x) d) ->
  length z = length cols -> in_simplex z ->
  let w := synth_rust iter pre cols y lambda in
  length w = length cols /\ in_simplex w /\
  objective pre cols y lambda w <= objective pre cols y lambda z + Rmax (1 / INR iter) (4 * opt_tol) * 10.
Proof. exact (rust_near_optimal pre cols y lambda iter z). Qed.

(* the reported weights, after thresholding at m and rescaling *)
Theorem C52_backends_close {T} (pre : list T) cols y lambda iter nrm m : 0 < lambda -> cols <> [] -> (0 < iter)%nat -> 0 <= nrm <= 10 ->
  (forall d, length d = length cols -> ip pre (lc cols d) (lc cols d) + lambda * sumf (fun x => x * x) d <= nrm * sumf (fun x => x * x) d) ->
  0 <= m -> INR (length cols) * m < 1 ->
  let a := synthetic_weights (synth_numpy iter nrm pre cols y lambda) (length cols) m in
  let b := synthetic_weights (synth_rust iter pre cols y lambda) (length cols) m in
  length a = length cols /\ length b = length cols /\
  forall j, (j < length cols)%nat ->
    Rabs (nth j a 0 - nth j b 0) <= sqrt (2 * Rmax (1 / INR iter) (4 * opt_tol) * (nrm + eps10 + 10) / lambda) + 2 * (INR (length cols) * m).
Proof. exact (backends_close pre cols y lambda iter nrm m). Qed.

(* two controls with outcomes 1 and 0 in one period, penalty 1/2: the hypotheses hold with norm 2 *)
Example C52_close_case iter : (0 < iter)%nat ->
  let cols := [fun _ : unit => 1; fun _ => 0] in
  let a := synthetic_weights (synth_numpy iter 2 [tt] cols (fun _ => 6 / 10) (1 / 2)) 2 (1 / 1000000) in
  let b := synthetic_weights (synth_rust iter [tt] cols (fun _ => 6 / 10) (1 / 2)) 2 (1 / 1000000) in
  Rabs (nth 0 a 0 - nth 0 b 0) <= sqrt (2 * Rmax (1 / INR iter) (4 * opt_tol) * (2 + eps10 + 10) / (1 / 2)) + 2 * (2 * (1 / 1000000)).
Proof.
  intros Hi cols a b.
  destruct (C52_backends_close [tt] cols (fun _ => 6 / 10) (1 / 2) iter 2 (1 / 1000000)) as (_ & _ & H); try lra; try discriminate; auto.
  - intros d Ld. destruct d as [|d0 [|d1 [|]]]; try discriminate. unfold ip. cbn. pose proof (sq_nonneg d0). pose proof (sq_nonneg d1). nra.
  - cbn. lra.
  - specialize (H 0%nat). cbn [length cols] in H. replace (INR 2) with 2 in H by (cbn; lra). apply H. lia.
Qed.
Print Assumptions C52_numpy_near_optimal.
Print Assumptions C52_rust_near_optimal.
Print Assumptions C52_backends_close.

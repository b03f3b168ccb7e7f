(* rust/src/trop.rs:1077-1721: the compiled fast paths of the joint TROP estimator (tuning search and
   bootstrap; the reported point estimate always comes from the Python code, Trop_joint.v).
   Real arithmetic; a weight is [None] where the Rust code computes exp(-0 * inf) = NaN. *)
From Verif Require Import Prelude Flt Stats_model Linalg_model Multi_model Trop_model Trop_joint Trop_rust.
From Coq Require Import Arith ZArith String List.
Import ListNotations.
Open Scope R_scope.

(* ------------------------------------------------------------------------------------------- *)
(* compute_joint_weights, trop.rs:1077-1164.  No exceptions: without treated units the average is NaN and every
   distance infinite; without pre-periods the unit weight is 1.  lambda_unit is taken nonnegative. *)
Definition rj_unit_w (T N p : nat) (Y : omat) (D : dmat) (lu : R) (i : nat) : option R :=
  if (0 <? T - p)%nat then
    match j_valid T N p Y D i with
    | [] => if Reqb lu 0 then None else Some 0
    | v => Some (exp (- lu * sqrt (sumf (fun t => j_gap T N Y D t i * j_gap T N Y D t i) v / len v)))
    end
  else Some 1.
Definition rj_weights (T N p : nat) (Y : omat) (D : dmat) (lt lu : R) (t i : nat) : option R :=
  option_map (fun u => j_time_w T p lt t * u) (rj_unit_w T N p Y D lu i).
(* "NaN outcomes get zero weight" *)
Definition rj_seen (Y : omat) (W : nat -> nat -> option R) (t i : nat) : option R := if has Y t i then W t i else Some 0.
Definition rj_real (W : nat -> nat -> option R) : mat := fun t i => match W t i with Some w => w | None => 0 end.
Definition rj_isnan (W : nat -> nat -> option R) (c : nat * nat) : bool := match W (fst c) (snd c) with None => true | _ => false end.

(* ------------------------------------------------------------------------------------------- *)
(* solve_joint_no_lowrank, trop.rs:1172-1293: block coordinate descent; [w] already masked *)
Definition tiny : R := / (10 ^ 10).
Definition rj_alpha (T N : nat) (y : mat) (D : dmat) (w : mat) (c : jcoef) (i : nat) : R :=
  let s := sumf (fun t => w t i) (seq 0 T) in
  if ((1 <=? i) && (i <? N))%nat && Rltb tiny s
  then sumf (fun t => w t i * (y t i - jmu c - jb c t - jtau c * IZR (D t i))) (seq 0 T) / s else ja c i.
Definition rj_beta (T N : nat) (y : mat) (D : dmat) (w : mat) (c : jcoef) (t : nat) : R :=
  let s := sumf (fun i => w t i) (seq 0 N) in
  if ((1 <=? t) && (t <? T))%nat && Rltb tiny s
  then sumf (fun i => w t i * (y t i - jmu c - ja c i - jtau c * IZR (D t i))) (seq 0 N) / s else jb c t.
(* d_ti > 0.5 for a 0/1 indicator *)
Definition rj_tau (T N : nat) (y : mat) (D : dmat) (w : mat) (c : jcoef) : R :=
  let tr := treated_obs T N D in
  let s := sumf (fun x => w (fst x) (snd x)) tr in
  if Rltb tiny s then sumf (fun x => w (fst x) (snd x) * (y (fst x) (snd x) - jmu c - ja c (snd x) - jb c (fst x))) tr / s else jtau c.
Definition rj_mu (T N : nat) (y : mat) (D : dmat) (w : mat) (c : jcoef) : R :=
  sumf (fun x => w (fst x) (snd x) * (y (fst x) (snd x) - ja c (snd x) - jb c (fst x) - jtau c * IZR (D (fst x) (snd x)))) (cells T N)
  / sumf (fun x => w (fst x) (snd x)) (cells T N).
Definition rj_sweep (T N : nat) (y : mat) (D : dmat) (w : mat) (c : jcoef) : jcoef :=
  let c1 := {| jmu := jmu c; ja := rj_alpha T N y D w c; jb := jb c; jtau := jtau c |} in
  let c2 := {| jmu := jmu c; ja := ja c1; jb := rj_beta T N y D w c1; jtau := jtau c |} in
  let c3 := {| jmu := jmu c; ja := ja c1; jb := jb c2; jtau := rj_tau T N y D w c2 |} in
  {| jmu := rj_mu T N y D w c3; ja := ja c1; jb := jb c2; jtau := jtau c3 |}.
Definition rj_stop (c c' : jcoef) : bool := Rltb (Rabs (jmu c' - jmu c)) (/ 10 ^ 8) && Rltb (Rabs (jtau c' - jtau c)) (/ 10 ^ 8).
Fixpoint rj_bcd (T N : nat) (y : mat) (D : dmat) (w : mat) (k : nat) (c : jcoef) : jcoef :=
  match k with
  | O => c
  | S k' => let c' := rj_sweep T N y D w c in if rj_stop c c' then c' else rj_bcd T N y D w k' c'
  end.
Definition rj_start (T N : nat) (y w : mat) : jcoef :=
  {| jmu := sumf (fun x => w (fst x) (snd x) * y (fst x) (snd x)) (cells T N) / sumf (fun x => w (fst x) (snd x)) (cells T N);
     ja := fun _ => 0; jb := fun _ => 0; jtau := 0 |}.
Definition rj_iters : nat := 50.
Definition rj_solve (T N : nat) (y : mat) (D : dmat) (w : mat) : option jcoef :=
  if Rltb (sumf (fun x => w (fst x) (snd x)) (cells T N)) tiny then None
  else Some (rj_bcd T N y D w rj_iters (rj_start T N y w)).

(* solve_joint_with_lowrank, trop.rs:1301-1375; a last solve follows the loop.  [v] = the weights before missing
   outcomes are masked: the step size is 1 / max v, where Python takes the maximum of the masked weights *)
Definition rj_prox (svd : svd_fn) (T N : nat) (v w Rm : mat) (h : R) (L : mat) : mat :=
  soft_svd svd T N (fun t i => L t i + (if Rlt_dec 0 (wmax T N v) then w t i / wmax T N v else w t i) * (Rm t i - L t i))
    (Some (j_eta T N v * h)).
Fixpoint rj_low (svd : svd_fn) (T N : nat) (y : mat) (D : dmat) (v w : mat) (h tol : R) (k : nat) (L : mat) : option mat :=
  match k with
  | O => Some L
  | S k' =>
    match rj_solve T N (fun t i => y t i - L t i) D w with
    | None => None
    | Some c =>
      let L' := rj_prox svd T N v w (j_resid y D c) h L in
      if Rltb (mdiff T N L' L) tol then Some L' else rj_low svd T N y D v w h tol k' L'
    end
  end.
(* Fit of one weight matrix (the branch of trop.rs:1413-1421 and 1684-1698).  A NaN weight on an observed cell
   makes sum_w, hence mu and every alpha, beta with weight NaN from the first sweep on; tau keeps its initial 0
   when its denominator is NaN (a treated cell has NaN weight) or at most 1e-10, and is NaN otherwise.  With a
   positive penalty the gradient matrix is not finite, soft_threshold_svd returns zeros, the loop stops and the
   last solve gives the same values.  (NaN weights together with lambda_nn = 0 are not modelled.) *)
Inductive rj_out := RNone | RNanFit (tau : fl) | RFit (c : jcoef) (L : mat).
Definition rj_fit (svd : svd_fn) (T N : nat) (Y : omat) (D : dmat) (W : nat -> nat -> option R) (h : R) (maxit : nat) (tol : R) : rj_out :=
  let V := rj_seen Y W in
  let w := rj_real V in
  if existsb (rj_isnan V) (cells T N) then
    RNanFit (if existsb (rj_isnan V) (treated_obs T N D) then Fin 0
             else if Rltb tiny (sumf (fun x => w (fst x) (snd x)) (treated_obs T N D)) then NaN else Fin 0)
  else if Rle_dec (10 ^ 10) h then
    match rj_solve T N (ysafe Y) D w with Some c => RFit c zmat | None => RNone end
  else match rj_low svd T N (ysafe Y) D (rj_real W) w h tol maxit zmat with
       | None => RNone
       | Some L => match rj_solve T N (fun t i => ysafe Y t i - L t i) D w with Some c => RFit c L | None => RNone end
       end.

(* ------------------------------------------------------------------------------------------- *)
(* loocv_score_joint, trop.rs:1388-1448; the control observations are observed cells *)
Definition rj_skip (W : nat -> nat -> option R) (c : nat * nat) : nat -> nat -> option R :=
  fun t i => if (t =? fst c)%nat && (i =? snd c)%nat then Some 0 else W t i.
Fixpoint rj_sum (svd : svd_fn) (T N : nat) (Y : omat) (D : dmat) (W : nat -> nat -> option R) (h : R) (maxit : nat) (tol : R)
  (obs : list (nat * nat)) (acc : fl) : fl :=
  match obs with
  | [] => acc
  | c :: r =>
    match rj_fit svd T N Y D (rj_skip W c) h maxit tol with
    | RNone => PInf
    | RNanFit _ => rj_sum svd T N Y D W h maxit tol r NaN
    | RFit co L => let e := j_pseudo Y (co, L) c in rj_sum svd T N Y D W h maxit tol r (fadd acc (Fin (e * e)))
    end
  end.
Definition rj_score (svd : svd_fn) (T N p : nat) (Y : omat) (D : dmat) (obs : list (nat * nat)) (maxit : nat) (tol : R)
  (lt lu h : R) : fl :=
  match obs with [] => PInf | _ => rj_sum svd T N Y D (rj_weights T N p Y D lt lu) h maxit tol obs (Fin 0) end.
(* loocv_grid_search_joint, trop.rs:1472-1565, and the caller, trop.py:1355-1407: the best combination is used
   when its score is finite, otherwise the Python search runs *)
Definition rj_search (score : lam3 -> fl) (g : list lam3) (first : lam3) : lam3 * fl :=
  fold_left (fun best l => if flt (score l) (snd best) then (l, score l) else best) g (first, PInf).
Definition rj_tune (lstsq : lstsq_fn) (svd : svd_fn) (sub rsub : nat -> nat -> list nat) (cfg : tcfg) (T N p : nat) (Y : omat) (D : dmat)
  : jout (lam3 * fl) :=
  let obs := loocv_obs rsub (tc_maxs cfg) (control_obs T N Y D) in
  let best := rj_search (fun l => rj_score svd T N p Y D obs (tc_maxit cfg) (tc_tol cfg) (conv_w (fst (fst l))) (conv_w (snd (fst l))) (conv_nn (snd l)))
                (grid3 (tc_gt cfg) (tc_gu cfg) (tc_gn cfg))
                (hd (Some 0) (tc_gt cfg), hd (Some 0) (tc_gu cfg), hd (Some 0) (tc_gn cfg)) in
  if ffinite (snd best) then JOk best else j_tune lstsq svd sub cfg T N p Y D.

(* ------------------------------------------------------------------------------------------- *)
(* bootstrap_trop_variance_joint, trop.rs:1588-1721: failed fits are dropped, NaN replicates are kept *)
Definition rj_boot_rep (svd : svd_fn) (T p : nat) (Y : omat) (D : dmat) (lt lu h : R) (maxit : nat) (tol : R) (cols : list nat) : option fl :=
  let N := length cols in
  let Y' := sel_o Y cols in
  let D' := sel_d D cols in
  match rj_fit svd T N Y' D' (rj_weights T N p Y' D' lt lu) h maxit tol with
  | RNone => None
  | RNanFit x => Some x
  | RFit c _ => Some (Fin (jtau c))
  end.
Definition rj_boot (svd : svd_fn) (T p : nat) (Y : omat) (D : dmat) (lt lu h : R) (maxit : nat) (tol : R) (draws : list (list nat)) : list fl :=
  flat_map (fun cols => match rj_boot_rep svd T p Y D lt lu h maxit tol cols with Some x => [x] | None => [] end) draws.
(* the caller, trop.py:1595-1635: 0 for no replicate *)
Definition rj_boot_se (l : list fl) : fl := match l with [] => Fin 0 | _ => r_boot_se l end.

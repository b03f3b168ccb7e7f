(* diff_diff/trop.py: the Triply Robust Panel estimator.
   A panel is stored as in the code: a (n_periods x n_units) outcome matrix with NaN ([None]) where no
   outcome is observed, and an integer treatment matrix.  Infinite outcomes are not modelled.
   Penalties are real numbers or infinity ([None]); a cross-validation score is a real number or
   infinity ([None]).  Real arithmetic replaces floating point.  The Rust fast paths are in Trop_rust.v;
   this file is what runs when the extension is absent. *)
From Verif Require Import Prelude Flt Stats_model Linalg_model Multi_model.
From Coq Require Import Arith ZArith String List DecimalString.
Import ListNotations.
Open Scope R_scope.

Definition mat := nat -> nat -> R.            (* [period, unit] *)
Definition omat := nat -> nat -> option R.
Definition dmat := nat -> nat -> Z.
Definition zmat : mat := fun _ _ => 0.        (* np.zeros *)
Definition lam := option R.                   (* None = infinity *)
Definition lam3 := (lam * lam * lam)%type.

Definition has (Y : omat) (t i : nat) : bool := match Y t i with Some _ => true | None => false end.
(* np.where(np.isnan(Y), 0.0, Y), trop.py:2590 *)
Definition ysafe (Y : omat) : mat := fun t i => match Y t i with Some r => r | None => 0 end.
Definition yfl (Y : omat) (t i : nat) : fl := match Y t i with Some r => Fin r | None => NaN end.

(* [(t, i) for t in range(n_periods) for i in range(n_units)] *)
Definition cells (T N : nat) : list (nat * nat) := list_prod (seq 0 T) (seq 0 N).
Definition maxabs {A} (f : A -> R) (l : list A) : R := fold_right (fun x m => Rmax (Rabs (f x)) m) 0 l.

(* ------------------------------------------------------------------------------------------- *)
(* distances and weights *)

(* _compute_unit_distance_for_obs, trop.py:648-692: RMSE over periods other than the target in which
   both units are untreated and observed; np.inf if there is none *)
Definition dvalid (Y : omat) (D : dmat) (j i tgt s : nat) : bool :=
  negb (s =? tgt)%nat && ((D s i =? 0)%Z && (D s j =? 0)%Z) && (has Y s i && has Y s j).
Definition dist_obs (T : nat) (Y : omat) (D : dmat) (j i tgt : nat) : option R :=
  match filter (dvalid Y D j i tgt) (seq 0 T) with
  | [] => None
  | v => Some (sqrt (meanf (fun s => (ysafe Y s i - ysafe Y s j) * (ysafe Y s i - ysafe Y s j)) v))
  end.

(* _compute_all_unit_distances, trop.py:575-646: same without excluding a period, diagonal forced to 0 *)
Definition avalid (Y : omat) (D : dmat) (j i s : nat) : bool :=
  ((D s j =? 0)%Z && has Y s j) && ((D s i =? 0)%Z && has Y s i).
Definition dist_all (T : nat) (Y : omat) (D : dmat) (j i : nat) : option R :=
  if (j =? i)%nat then Some 0 else
  match filter (avalid Y D j i) (seq 0 T) with
  | [] => None
  | v => Some (sqrt (sumf (fun s => (ysafe Y s j - ysafe Y s i) * (ysafe Y s j - ysafe Y s i)) v / len v))
  end.

(* np.exp(-lambda_time * |t - s|), trop.py:2294 and 2329-2330 *)
Definition time_w (lt : R) (t s : nat) : R := exp (- lt * Rabs (INR t - INR s)).
(* trop.py:2296-2320 (stored matrices) and 2332-2353 (argument matrices): the same formula *)
Definition unit_w (T : nat) (Y : omat) (D : dmat) (lu : R) (i t j : nat) : R :=
  if (j =? i)%nat then 1
  else if negb (D t j =? 0)%Z then 0
  else if Reqb lu 0 then 1
  else match dist_obs T Y D j i t with None => 0 | Some d => exp (- lu * d) end.
(* _compute_observation_weights, trop.py:2236-2359: when self._precomputed is set, the STORED matrices
   are used instead of the arguments *)
Definition obs_w (pre : option (omat * dmat)) (T : nat) (Y : omat) (D : dmat) (lt lu : R) (i t : nat) : mat :=
  fun s j => time_w lt t s *
    match pre with
    | Some (Y', D') => unit_w T Y' D' lu i t j
    | None => unit_w T Y D lu i t j
    end.

(* ------------------------------------------------------------------------------------------- *)
(* the low-rank component *)

(* np.linalg.svd(M, full_matrices=False): singular triples (s, u, v), or LinAlgError ([None]) *)
Definition svd_fn := nat -> nat -> mat -> option (list (R * (nat -> R) * (nat -> R))).
Definition svd_tol : R := / (10 ^ 10).        (* CONVERGENCE_TOL_SVD, trop.py:444 *)

(* _soft_threshold_svd, trop.py:2361-2420.  Real inputs, so the non-finite branches do not occur. *)
Definition soft_svd (svd : svd_fn) (T N : nat) (M : mat) (h : lam) : mat :=
  match h with
  | None => zmat                               (* s - inf = -inf, so every singular value is cut *)
  | Some h =>
    if Rle_dec h 0 then M
    else match svd T N M with
         | None => zmat
         | Some l => fun t i =>
             sumf (fun x => (snd (fst x) t * Rmax (fst (fst x) - h) 0) * snd x i)
                  (filter (fun x => Rltb svd_tol (Rmax (fst (fst x) - h) 0)) l)
         end
  end.

(* _weighted_nuclear_norm_solve, trop.py:2422-2515 *)
Definition wmax (T N : nat) (W : mat) : R := maxabs (fun c => W (fst c) (snd c)) (cells T N).
Definition wnorm (T N : nat) (W : mat) : mat :=
  fun t i => if Rlt_dec 0 (wmax T N W) then W t i / wmax T N W else W t i.
Definition mdiff (T N : nat) (A B : mat) : R := maxabs (fun c => A (fst c) (snd c) - B (fst c) (snd c)) (cells T N).
Definition prox_step (svd : svd_fn) (T N : nat) (W Rm : mat) (h : lam) (L : mat) : mat :=
  soft_svd svd T N (fun t i => L t i + wnorm T N W t i * (Rm t i - L t i)) h.
Fixpoint nn_loop (svd : svd_fn) (T N : nat) (W Rm : mat) (h : lam) (tol : R) (k : nat) (L : mat) : mat :=
  match k with
  | O => L
  | S k' => let L' := prox_step svd T N W Rm h L in
            if Rltb (mdiff T N L' L) tol then L' else nn_loop svd T N W Rm h tol k' L'
  end.
Definition masked_target (W Yz : mat) (a b : nat -> R) (L0 : mat) : mat :=
  fun t i => if Rlt_dec 0 (W t i) then Yz t i - a i - b t else L0 t i.
Definition nn_solve (svd : svd_fn) (T N : nat) (W Yz : mat) (a b : nat -> R) (h : lam) (tol : R) (L0 : mat) : mat :=
  let Rm := masked_target W Yz a b L0 in
  match h with
  | Some r => if Rle_dec r 0 then Rm else nn_loop svd T N W Rm h tol 10 L0
  | None => nn_loop svd T N W Rm h tol 10 L0
  end.

(* ------------------------------------------------------------------------------------------- *)
(* _estimate_model, trop.py:2517-2636 *)
Record tstate := { ta : nat -> R; tb : nat -> R; tlo : mat }.
Definition tzero : tstate := {| ta := fun _ => 0; tb := fun _ => 0; tlo := zmat |}.

Definition unit_mean (T : nat) (W Z : mat) (i : nat) : R :=
  let w := sumf (fun t => W t i) (seq 0 T) in
  if Rlt_dec 0 w then sumf (fun t => W t i * Z t i) (seq 0 T) / w else 0.
Definition time_mean (N : nat) (W Z : mat) (t : nat) : R :=
  let w := sumf (fun i => W t i) (seq 0 N) in
  if Rlt_dec 0 w then sumf (fun i => W t i * Z t i) (seq 0 N) / w else 0.

Definition est_step (svd : svd_fn) (T N : nat) (W Yz : mat) (h : lam) (tol : R) (s : tstate) : tstate :=
  let a := unit_mean T W (fun t i => Yz t i - tlo s t i - tb s t) in
  let b := time_mean N W (fun t i => Yz t i - tlo s t i - a i) in
  {| ta := a; tb := b; tlo := nn_solve svd T N W Yz a b h tol (tlo s) |}.
Definition st_diff (T N : nat) (s s' : tstate) : R :=
  Rmax (Rmax (maxabs (fun i => ta s' i - ta s i) (seq 0 N)) (maxabs (fun t => tb s' t - tb s t) (seq 0 T)))
       (mdiff T N (tlo s') (tlo s)).
Fixpoint est_loop (svd : svd_fn) (T N : nat) (W Yz : mat) (h : lam) (tol : R) (k : nat) (s : tstate) : tstate :=
  match k with
  | O => s
  | S k' => let s' := est_step svd T N W Yz h tol s in
            if Rltb (st_diff T N s s') tol then s' else est_loop svd T N W Yz h tol k' s'
  end.
(* control observations with an outcome, minus the left-out one *)
Definition mask (Y : omat) (D : dmat) (ex : option (nat * nat)) (t i : nat) : bool :=
  has Y t i && ((D t i =? 0)%Z && match ex with Some (a, b) => negb ((t =? a)%nat && (i =? b)%nat) | None => true end).
Definition masked (Y : omat) (D : dmat) (ex : option (nat * nat)) (W : mat) : mat :=
  fun t i => if mask Y D ex t i then W t i else 0.
Definition estimate (svd : svd_fn) (T N : nat) (Y : omat) (D : dmat) (W : mat) (h : lam) (maxit : nat) (tol : R)
  (ex : option (nat * nat)) : tstate :=
  est_loop svd T N (masked Y D ex W) (ysafe Y) h tol maxit tzero.

(* Y[t, i] - alpha[i] - beta[t] - L[t, i] *)
Definition tau (Y : omat) (s : tstate) (t i : nat) : fl :=
  match Y t i with Some r => Fin (r - ta s i - tb s t - tlo s t i) | None => NaN end.
Definition fit_at (svd : svd_fn) (pre : option (omat * dmat)) (T N : nat) (Y : omat) (D : dmat) (lt lu : R) (h : lam)
  (maxit : nat) (tol : R) (ex : option (nat * nat)) (c : nat * nat) : fl :=
  let '(t, i) := c in
  tau Y (estimate svd T N Y D (obs_w pre T Y D lt lu i t) h maxit tol ex) t i.

(* ------------------------------------------------------------------------------------------- *)
(* cross-validation, trop.py:2638-2750.  [sub n k] = rng.choice(n, size=k, replace=False) with the
   estimator's seed; with seed=None the code redraws at every evaluation, which is not modelled. *)
Definition control_obs (T N : nat) (Y : omat) (D : dmat) : list (nat * nat) :=
  filter (fun c => (D (fst c) (snd c) =? 0)%Z && has Y (fst c) (snd c)) (cells T N).
Definition loocv_obs (sub : nat -> nat -> list nat) (maxs : nat) (l : list (nat * nat)) : list (nat * nat) :=
  let m := Nat.min maxs (length l) in
  if (m <? length l)%nat then map (fun k => nth k l (0, 0)%nat) (sub (length l) m) else l.
Definition fsq (x : fl) : R := match x with Fin r => r * r | _ => 0 end.   (* control cells are observed *)
Definition loocv_score (svd : svd_fn) (T N : nat) (Y : omat) (D : dmat) (obs : list (nat * nat)) (maxit : nat) (tol : R)
  (lt lu : R) (h : lam) : option R :=
  match obs with
  | [] => None
  | _ => Some (sumf (fun c => fsq (fit_at svd (Some (Y, D)) T N Y D lt lu h maxit tol (Some c) c)) obs)
  end.

(* infinity conversion, trop.py:758-763 and 2111-2116 *)
Definition conv_w (x : lam) : R := match x with Some r => r | None => 0 end.
Definition conv_nn (x : lam) : R := match x with Some r => r | None => 10 ^ 10 end.
Definition elt (a b : option R) : bool :=
  match a, b with Some x, Some y => Rltb x y | Some _, None => true | None, _ => false end.

(* _univariate_loocv_search, trop.py:694-777; the scores are real or infinite, no fit raises *)
Definition uni_search (score : lam -> option R) (grid : list lam) : lam * option R :=
  fold_left (fun bs v => if elt (score v) (snd bs) then (v, score v) else bs) grid (hd (Some 0) grid, None).
(* abs(score - prev_score) < 1e-6: inf - inf is NaN *)
Definition close6 (a b : option R) : bool :=
  match a, b with Some x, Some y => Rltb (Rabs (x - y)) (/ (10 ^ 6)) | _, _ => false end.
(* _cycling_parameter_search, trop.py:779-854 *)
Fixpoint cycling (score : lam -> lam -> lam -> option R) (gt gu gn : list lam) (k : nat) (prev : option R) (l : lam3) : lam3 :=
  match k with
  | O => l
  | S k' =>
    let '(lt, lu, ln) := l in
    let lu' := fst (uni_search (fun v => score lt v ln) gu) in
    let lt' := fst (uni_search (fun v => score v lu' ln) gt) in
    let r := uni_search (fun v => score lt' lu' v) gn in
    if close6 (snd r) prev then (lt', lu', fst r)
    else cycling score gt gu gn k' (snd r) (lt', lu', fst r)
  end.
(* stage 1 and 2 of fit, trop.py:2045-2074 *)
Definition two_stage (score : lam -> lam -> lam -> option R) (gt gu gn : list lam) : lam3 :=
  let lt := fst (uni_search (fun v => score v (Some 0) None) gt) in
  let ln := fst (uni_search (fun v => score None (Some 0) v) gn) in
  let lu := fst (uni_search (fun v => score (Some 0) v None) gu) in
  cycling score gt gu gn 10 None (lt, lu, ln).

(* The final score, trop.py:2076-2089, is computed with the UNCONVERTED penalties.
   lambda_time = inf: exp(-inf * 0) = exp(NaN) = NaN in the target row and exp(-inf) = 0 elsewhere, so every
   unit's weight sum is NaN and every other period's weight sum is 0 or NaN; no comparison "> 0" holds, alpha =
   beta = 0 and L stays 0 (the target of the L step is L itself, and NaN entries are replaced by 0): the
   pseudo-effect is the outcome itself.
   lambda_unit = inf (lambda_time finite): left uninterpreted as [odd].
   lambda_nn = inf: the threshold is infinite. *)
Definition final_score (score : R -> R -> lam -> option R) (odd : lam3 -> option R) (Y : omat) (obs : list (nat * nat))
  (l : lam3) : option R :=
  let '(lt, lu, ln) := l in
  match lt, lu with
  | None, _ => match obs with [] => None | _ => Some (sumf (fun c => fsq (yfl Y (fst c) (snd c))) obs) end
  | _, None => odd l
  | Some a, Some b => score a b ln
  end.

(* ------------------------------------------------------------------------------------------- *)
(* inference, trop.py:2188-2197 and 1511-1519: p-value from t with n_treated_obs - 1 degrees of freedom,
   interval from the normal distribution (compute_confidence_interval without df) *)
Record tinf := { ti_t : fl; ti_p : fl; ti_ci : fl * fl }.
Definition trop_inf (sf : option Z -> fl -> fl) (ppf : option Z -> R -> R) (att se : fl) (ntobs : nat) (alpha : R) : tinf :=
  if flt (Fin 0) se then
    let t := fdiv att se in
    {| ti_t := t; ti_p := fmul (Fin 2) (sf (Some (Z.max 1 (Z.of_nat ntobs - 1))) (fabs t));
       ti_ci := u_ci ppf att se alpha None |}
  else {| ti_t := NaN; ti_p := NaN; ti_ci := (NaN, NaN) |}.

(* np.std(x, ddof=1) of a possibly NaN array of length >= 1 *)
Definition reals (l : list fl) : list R := map (fun x => match x with Fin r => r | _ => 0 end) l.
Definition fstd1 (l : list fl) : fl :=
  if forallb ffinite l && (1 <? length l)%nat then Fin (std 1 (reals l)) else NaN.
(* trop.py:2894-2906 and 1682-1693 *)
Definition boot_se (l : list fl) : fl := match l with [] => Fin 0 | _ => fstd1 l end.
(* trop.py:2993-3003 and 1815-1825 *)
Definition jack_se (l : list fl) : fl :=
  if (length l <? 2)%nat then Fin 0
  else if forallb ffinite l then
    Fin (sqrt ((len l - 1) / len l * sumsq_dev (reals l)))
  else NaN.

(* ------------------------------------------------------------------------------------------- *)
(* two-step estimator on the matrices *)
Definition treated_obs (T N : nat) (D : dmat) : list (nat * nat) := filter (fun c => (D (fst c) (snd c) =? 1)%Z) (cells T N).
Definition ever (T : nat) (D : dmat) (i : nat) : bool := existsb (fun t => (D t i =? 1)%Z) (seq 0 T).

(* trop.py:2123-2158, and _fit_with_fixed_lambda 3005-3078 *)
Definition effects (svd : svd_fn) (pre : option (omat * dmat)) (T N : nat) (Y : omat) (D : dmat) (lt lu : R) (h : lam)
  (maxit : nat) (tol : R) : list ((nat * nat) * fl) :=
  map (fun c => (c, fit_at svd pre T N Y D lt lu h maxit tol None c)) (treated_obs T N D).
Definition att_of (l : list ((nat * nat) * fl)) : fl := fmean (map snd l).

(* unit labels of a bootstrap sample: f"{u}_{idx}" (trop.py:2878-2882), columns in sorted label order *)
Fixpoint sinsert (x : string * nat) (l : list (string * nat)) : list (string * nat) :=
  match l with
  | [] => [x]
  | y :: r => if String.leb (fst x) (fst y) then x :: l else y :: sinsert x r
  end.
Definition lsort (l : list (string * nat)) : list (string * nat) := fold_right sinsert [] l.
Definition nat_str (n : nat) : string := NilEmpty.string_of_uint (Nat.to_uint n).
Fixpoint labels (name : nat -> string) (k : nat) (us : list nat) : list (string * nat) :=
  match us with
  | [] => []
  | u :: r => (append (name u) (append "_" (nat_str k)), u) :: labels name (S k) r
  end.
Definition boot_cols (name : nat -> string) (sampled : list nat) : list nat := map snd (lsort (labels name 0 sampled)).
(* the pivoted matrices of the sample; every period is assumed to occur in it (always so for a balanced
   panel), so n_periods is unchanged *)
Definition sel_o (Y : omat) (cols : list nat) : omat := fun t j => Y t (nth j cols 0%nat).
Definition sel_d (D : dmat) (cols : list nat) : dmat := fun t j => D t (nth j cols 0%nat).
(* one replicate, trop.py:2853-2892; [None] = ValueError, the replicate is skipped *)
Definition boot_rep (svd : svd_fn) (pre : option (omat * dmat)) (T : nat) (Y : omat) (D : dmat) (lt lu : R) (h : lam)
  (maxit : nat) (tol : R) (cols : list nat) : option fl :=
  let N := length cols in
  match treated_obs T N (sel_d D cols) with
  | [] => None
  | _ => Some (att_of (effects svd pre T N (sel_o Y cols) (sel_d D cols) lt lu h maxit tol))
  end.
Definition boot_reps (svd : svd_fn) (pre : option (omat * dmat)) (T : nat) (Y : omat) (D : dmat) (lt lu : R) (h : lam)
  (maxit : nat) (tol : R) (name : nat -> string) (draws : list (list nat)) : list fl :=
  flat_map (fun smp => match boot_rep svd pre T Y D lt lu h maxit tol (boot_cols name smp) with
                       | Some x => [x] | None => [] end) draws.

(* _jackknife_variance, trop.py:2908-3003 *)
Definition drop_o (Y : omat) (k : nat) : omat := fun t i => if (i =? k)%nat then None else Y t i.
Definition drop_d (D : dmat) (k : nat) : dmat := fun t i => if (i =? k)%nat then 0%Z else D t i.
Definition jack_reps (svd : svd_fn) (T N : nat) (Y : omat) (D : dmat) (lt lu : R) (h : lam) (maxit : nat) (tol : R) : list fl :=
  flat_map (fun k =>
    match treated_obs T N (drop_d D k) with
    | [] => []
    | _ => [att_of (effects svd (Some (Y, D)) T N (drop_o Y k) (drop_d D k) lt lu h maxit tol)]
    end) (filter (ever T D) (seq 0 N)).

(* ------------------------------------------------------------------------------------------- *)
(* the panel built from the data frame, trop.py:1883-1911 *)
Inductive terr := EDuplicate | ENotAbsorbing | ENoTreated | ENoControl | EFewPre | EStaggered | ENoWeights.
Inductive tout (A : Type) := TOk (a : A) | TErr (e : terr).    (* every terr is a ValueError *)
Arguments TOk {A} _. Arguments TErr {A} _.

Section Panel.
Context {I : Type}.
Variables (rows : list I) (u tm : I -> Z) (y : I -> option R) (d : I -> option Z).
Definition t_units : list Z := zsort (nodup Z.eq_dec (map u rows)).
Definition t_periods : list Z := zsort (nodup Z.eq_dec (map tm rows)).
Definition at_cell (p x : Z) : list I := filter (fun r => (tm r =? p)%Z && (u r =? x)%Z) rows.
Definition pdup : bool := existsb (fun r => (1 <? length (at_cell (tm r) (u r)))%nat) rows.
Definition cell_row (t i : nat) : option I := hd_error (at_cell (nth t t_periods 0%Z) (nth i t_units 0%Z)).
Definition pY : omat := fun t i => match cell_row t i with Some r => y r | None => None end.
(* pd.isna(D_raw): no row, or a missing treatment value *)
Definition pmiss (t i : nat) : bool := match cell_row t i with Some r => match d r with Some _ => false | None => true end | None => true end.
(* D_raw.fillna(0) *)
Definition pD : dmat := fun t i => match cell_row t i with Some r => match d r with Some z => z | None => 0%Z end | None => 0%Z end.
End Panel.

(* checks of fit, trop.py:1913-1969 (two-step) and 1282-1326 (joint) *)
Fixpoint falls (l : list Z) : bool :=       (* np.any(np.diff(l) < 0) *)
  match l with a :: ((b :: _) as r) => (b <? a)%Z || falls r | _ => false end.
Definition observed_d (T : nat) (D : dmat) (miss : nat -> nat -> bool) (i : nat) : list Z :=
  map (fun t => D t i) (filter (fun t => negb (miss t i)) (seq 0 T)).
Definition violating (T N : nat) (D : dmat) (miss : nat -> nat -> bool) : list nat :=
  filter (fun i => falls (observed_d T D miss i)) (seq 0 N).
Definition first_treat (T N : nat) (D : dmat) : nat :=       (* None cannot happen once there is a treated cell *)
  hd T (filter (fun t => existsb (fun i => (D t i =? 1)%Z) (seq 0 N)) (seq 0 T)).
Definition n_post (T N : nat) (D : dmat) : nat :=
  length (filter (fun t => (first_treat T N D <=? t)%nat && existsb (fun i => (D t i =? 1)%Z) (seq 0 N)) (seq 0 T)).
Definition check_panel (T N : nat) (D : dmat) (miss : nat -> nat -> bool) : tout unit :=
  if negb (length (violating T N D miss) =? 0)%nat then TErr ENotAbsorbing
  else if (length (treated_obs T N D) =? 0)%nat then TErr ENoTreated
  else if (length (filter (fun i => negb (ever T D i)) (seq 0 N)) =? 0)%nat then TErr ENoControl
  else if (first_treat T N D <? 2)%nat then TErr EFewPre
  else TOk tt.

Record tcfg := { tc_gt : list lam; tc_gu : list lam; tc_gn : list lam; tc_maxit : nat; tc_tol : R; tc_alpha : R;
                 tc_boot : bool; tc_maxs : nat }.
Record tres := { tr_att : fl; tr_se : fl; tr_inf : tinf; tr_effects : list ((nat * nat) * fl); tr_lambda : lam3;
                 tr_score : fl; tr_n_obs : nat; tr_n_treated : nat; tr_n_control : nat; tr_n_treated_obs : nat;
                 tr_n_pre : nat; tr_n_post : nat; tr_reps : list fl }.

Section Fit.
Variable svd : svd_fn.
Variable sub : nat -> nat -> list nat.
Variable odd : lam3 -> option R.
Variable sf : option Z -> fl -> fl.
Variable ppf : option Z -> R -> R.

(* tuning, trop.py:2045-2097: (lambda, score); the fallback is (1.0, 1.0, 0.1) with a NaN score *)
Definition tune (cfg : tcfg) (T N : nat) (Y : omat) (D : dmat) : lam3 * fl :=
  let obs := loocv_obs sub (tc_maxs cfg) (control_obs T N Y D) in
  let sc := loocv_score svd T N Y D obs (tc_maxit cfg) (tc_tol cfg) in
  let l := two_stage (fun a b c => sc (conv_w a) (conv_w b) (Some (conv_nn c))) (tc_gt cfg) (tc_gu cfg) (tc_gn cfg) in
  match final_score sc odd Y obs l with
  | Some s => (l, Fin s)
  | None => ((Some 1, Some 1, Some (1/10)), NaN)
  end.

(* fit, method "twostep"; [draws] = the sampled unit positions (control units first) of each bootstrap replicate *)
Definition trop_fit (cfg : tcfg) (T N nobs : nat) (Y : omat) (D : dmat) (miss : nat -> nat -> bool) (name : nat -> string)
  (draws : list (list nat)) : tout tres :=
  match check_panel T N D miss with
  | TErr e => TErr e
  | TOk _ =>
    let '(l, score) := tune cfg T N Y D in
    let '(lt, lu, ln) := l in
    let h := Some (conv_nn ln) in
    let ef := effects svd (Some (Y, D)) T N Y D (conv_w lt) (conv_w lu) h (tc_maxit cfg) (tc_tol cfg) in
    let att := att_of ef in
    let reps := if tc_boot cfg
                then boot_reps svd (Some (Y, D)) T Y D (conv_w lt) (conv_w lu) h (tc_maxit cfg) (tc_tol cfg) name draws
                else jack_reps svd T N Y D (conv_w lt) (conv_w lu) h (tc_maxit cfg) (tc_tol cfg) in
    let se := if tc_boot cfg then boot_se reps else jack_se reps in
    let nto := length (treated_obs T N D) in
    TOk {| tr_att := att; tr_se := se; tr_inf := trop_inf sf ppf att se nto (tc_alpha cfg); tr_effects := ef;
           tr_lambda := l; tr_score := score; tr_n_obs := nobs;
           tr_n_treated := length (filter (ever T D) (seq 0 N));
           tr_n_control := length (filter (fun i => negb (ever T D i)) (seq 0 N));
           tr_n_treated_obs := nto; tr_n_pre := first_treat T N D; tr_n_post := n_post T N D; tr_reps := reps |}
  end.
(* from the data frame *)
Definition trop_fit_rows {I} (cfg : tcfg) (rows : list I) (u tm : I -> Z) (y : I -> option R) (d : I -> option Z)
  (name : nat -> string) (draws : list (list nat)) : tout tres :=
  if pdup rows u tm then TErr EDuplicate
  else trop_fit cfg (length (t_periods rows tm)) (length (t_units rows u)) (length rows)
         (pY rows u tm y) (pD rows u tm d) (pmiss rows u tm d) name draws.
End Fit.

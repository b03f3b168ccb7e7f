(* SyntheticDiD.fit on panels with gaps: a (period, unit) pair without a row, or with a NaN outcome, is NaN after
   data.pivot (synthetic_did.py:402) and fit has no balance check.  Same functions as Synth_model and Sdid_model with
   float values: utils.py:997-1263, synthetic_did.py:157-718, rust/src/weights.rs:54-162.
   Simplifications: outcomes are finite reals or NaN; with covariates a NaN outcome is refused by solve_ols
   (linalg.py:471-479); column checks and warnings are not modelled.  When all entries that enter the unit
   weights are finite the optimiser works on finite numbers and is the one of Synth_model. *)
From Verif Require Import Prelude Flt Stats_model Linalg_model Did_model Multi_model Staggered_model Synth_model Sdid_model.
From Coq Require Import Arith ZArith String List.
Import ListNotations.
Open Scope R_scope.

(* np.std(l, ddof) *)
Definition gstd (ddof : nat) (l : list fl) : fl :=
  let m := fmean l in
  fsqrt (fdiv (fsum (map (fun x => fmul (fsub x m) (fsub x m)) l)) (Fin (len l - INR ddof))).

(* w @ f over the aligned list; 0 * NaN is NaN *)
Definition gdot {A} (w : list fl) (f : A -> fl) (l : list A) : fl :=
  fsum (map (fun p => fmul (fst p) (f (snd p))) (combine w l)).

(* ---- unit weights when a pre-period entry is NaN ---- *)
(* which backend runs; for numpy, whether the SVD behind np.linalg.norm(H, 2) raises LinAlgError on NaN entries
   or returns NaN (this depends on the LAPACK build) *)
Inductive gbackend := BRust | BNumpy (svd_raises : bool).

(* np.maximum(x, 0) propagates NaN (utils.py:1147); f64::max(x, 0.0) drops it (weights.rs:161) *)
Definition gmax0 (b : gbackend) (x : fl) : fl :=
  match x, b with
  | NaN, BRust => Fin 0
  | NaN, BNumpy _ => NaN
  | _, _ => if flt (Fin 0) x then x else Fin 0
  end.

Section GapWeights.
Variable b : gbackend.
(* descending sort; the position of NaN entries depends on the library *)
Variable fsort : list fl -> list fl.
Variables (pre : list Z) (cols : list (Z -> fl)) (y : Z -> fl) (lambda : R).

Let n := length cols.
Definition gcol (j : nat) : Z -> fl := nth j cols (fun _ => Fin 0).
Definition gip (f g : Z -> fl) : fl := fsum (map (fun t => fmul (f t) (g t)) pre).
(* H = Y'Y + lambda I, utils.py:1083-1088, weights.rs:66-74 *)
Definition gH (i j : nat) : fl := fadd (gip (gcol i) (gcol j)) (Fin (if Nat.eqb i j then lambda else 0)).
(* f = Y'y (+ lambda / n in Python), utils.py:1084-1089, weights.rs:77 *)
Definition gf (i : nat) : fl :=
  match b with
  | BRust => gip (gcol i) y
  | BNumpy _ => fadd (gip (gcol i) y) (Fin (lambda * (1 / INR n)))
  end.
Definition ggrad (w : list fl) (i : nat) : fl :=
  fsub (fsum (map (fun j => fmul (gH i j) (nth j w (Fin 0))) (seq 0 n))) (gf i).

(* _project_simplex, utils.py:1112-1147; project_simplex_internal, weights.rs:132-162 *)
Definition gcond (u : list fl) (i : nat) : bool :=
  let cs := fsum (firstn (S i) u) in
  match b with
  | BRust => flt (Fin 0) (fadd (nth i u (Fin 0)) (fdiv (fsub (Fin 1) cs) (Fin (INR (S i)))))
  | BNumpy _ => flt (fdiv (fsub cs (Fin 1)) (Fin (INR (S i)))) (nth i u (Fin 0))
  end.
Definition gproj (v : list fl) : list fl :=
  let u := fsort v in
  let r := last (filter (gcond u) (seq 0 (length u))) 0%nat in
  let theta := fdiv (fsub (fsum (firstn (S r) u)) (Fin 1)) (Fin (INR (S r))) in
  map (fun x => gmax0 b (fsub x theta)) v.

Definition gstep (step : fl) (w : list fl) : list fl :=
  gproj (map (fun j => fsub (nth j w (Fin 0)) (fmul step (ggrad w j))) (seq 0 n)).
Definition gdist (a c : list fl) : fl :=
  fsqrt (fsum (map (fun p => fmul (fsub (fst p) (snd p)) (fsub (fst p) (snd p))) (combine a c))).
(* the loop, utils.py:1095-1107, weights.rs:86-107 *)
Fixpoint gpgd (iter : nat) (step : fl) (w : list fl) : list fl :=
  match iter with
  | O => w
  | S k => let w' := gstep step w in if flt (gdist w' w) (Fin opt_tol) then w' else gpgd k step w'
  end.

(* the backend on a matrix with NaN entries: [nrm] is the norm when numpy returns one, utils.py:1093 *)
Definition gcore (iter : nat) (nrm : fl) : res (list fl) :=
  let w0 := map Fin (uniform_w n) in
  match b with
  | BRust => Ok (gpgd iter (Fin (1 / 10)) w0)
  | BNumpy raises =>
    if raises && negb (forallb (fun c => forallb (fun t => ffinite (c t)) pre) cols) then Err LinAlgError
    else Ok (gpgd iter (fdiv (Fin 1) (fadd nrm (Fin eps10))) w0)
  end.

(* utils.py:1058-1064 *)
Definition gfinish (m : R) (w : list fl) : list fl :=
  let w1 := map (fun x => if flt x (Fin m) then Fin 0 else x) w in
  let s := fsum w1 in
  if flt (Fin 0) s then map (fun x => fdiv x s) w1 else map Fin (uniform_w n).
End GapWeights.

(* finite part, used only where all entries are finite *)
Definition unfin (x : fl) : R := match x with Fin r => r | _ => 0 end.
Definition all_finite {A} (f : A -> fl) (l : list A) : bool := forallb (fun a => ffinite (f a)) l.

Section GapCore.
(* the backend on finite numbers (Sdid_model), its name, the sort, the iteration limit, the norm of a matrix with NaN *)
Variable backend : list Z -> list (Z -> R) -> (Z -> R) -> R -> list R.
Variable b : gbackend.
Variable fsort : list fl -> list fl.
Variable iter : nat.
Variable gnrm : list Z -> list (Z -> fl) -> R -> fl.

(* compute_synthetic_weights, utils.py:997-1066 *)
Definition gap_weights (pre : list Z) (cols : list (Z -> fl)) (y : Z -> fl) (lambda : R) : res (list fl) :=
  match cols with
  | [] => Ok []
  | [_] => Ok [Fin 1]
  | _ =>
    if forallb (fun c => all_finite c pre) cols && all_finite y pre
    then Ok (map Fin (finish_weights min_weight (backend pre (map (fun c t => unfin (c t)) cols) (fun t => unfin (y t)) lambda)))
    else do w <- gcore b fsort pre cols y lambda iter (gnrm pre cols lambda);
         Ok (gfinish cols min_weight w)
  end.

(* compute_time_weights, utils.py:1150-1200 *)
Definition gap_time_weights (Y : Z -> Z -> fl) (pre ctrl : list Z) (y : Z -> fl) (zeta : R) : list fl :=
  match pre with
  | [] => []
  | [_] => [Fin 1]
  | _ =>
    let diffs := map (fun t => fabs (fsub (y t) (fmean (map (Y t) ctrl)))) pre in
    let inv := map (fun d => fdiv (Fin 1) (fadd (fadd d (fmul (Fin zeta) (gstd 0 diffs))) (Fin eps10))) diffs in
    map (fun x => fdiv x (fsum inv)) inv
  end.

(* compute_sdid_estimator, utils.py:1203-1263 *)
Definition gap_sdid (Y : Z -> Z -> fl) (pre post ctrl : list Z) (ytr : Z -> fl) (omega lam : list fl) : fl :=
  let did_treated := fsub (fmean (map ytr post)) (gdot lam ytr pre) in
  let did_control := gdot omega (fun j => fsub (fmean (map (fun t => Y t j) post)) (gdot lam (fun t => Y t j) pre)) ctrl in
  fsub did_treated did_control.

(* np.mean(Y, axis=1) *)
Definition gmean (Y : Z -> Z -> fl) (tr : list Z) (t : Z) : fl := fmean (map (Y t) tr).

Definition gap_omega (cfg : sd_config) (Y : Z -> Z -> fl) (pre tr ctrl : list Z) : res (list fl) :=
  gap_weights pre (map (fun j t => Y t j) ctrl) (gmean Y tr) (sd_lambda cfg).
Definition gap_tw (cfg : sd_config) (Y : Z -> Z -> fl) (pre tr ctrl : list Z) : list fl :=
  gap_time_weights Y pre ctrl (gmean Y tr) (sd_zeta cfg).
Definition gap_point (cfg : sd_config) (Y : Z -> Z -> fl) (pre post tr ctrl : list Z) : res fl :=
  do omega <- gap_omega cfg Y pre tr ctrl;
  Ok (gap_sdid Y pre post ctrl (gmean Y tr) omega (gap_tw cfg Y pre tr ctrl)).

(* one bootstrap draw, synthetic_did.py:480-525: None = skipped (a side empty, or LinAlgError caught) *)
Definition gap_boot_one (cfg : sd_config) (Y : Z -> Z -> fl) (pre post tr ctrl : list Z) (draw : list Z) : option fl :=
  let bt := filter (fun a => zmem a tr) draw in
  let bc := filter (fun a => zmem a ctrl) draw in
  match bt, bc with
  | [], _ | _, [] => None
  | _, _ => match gap_point cfg Y pre post bt bc with Ok x => Some x | Err _ => None end
  end.
(* end of _bootstrap_se, 519-568 *)
Definition gap_boot_se (n_bootstrap : nat) (est : list fl) : res (fl * list fl) :=
  if Nat.eqb n_bootstrap 0 then Err ZeroDivisionError
  else match est with
       | [] => Err ValueError
       | [_] => Ok (Fin 0, est)
       | _ => Ok (gstd 1 est, est)
       end.

(* one placebo draw, 640-683 *)
Definition gap_placebo_one (Y : Z -> Z -> fl) (pre post : list Z) (lam : list fl) (n_pseudo : nat)
    (perm : list (Z * fl)) : fl :=
  let pc := firstn n_pseudo perm in
  let pt := map fst (skipn n_pseudo perm) in
  let s := fsum (map snd pc) in
  let w := if flt (Fin 0) s then map (fun p => fdiv (snd p) s) pc else repeat (Fin (1 / INR n_pseudo)) n_pseudo in
  gap_sdid Y pre post (map fst pc) (gmean Y pt) w lam.
(* 622-632, 690-718 *)
Definition gap_placebo_se (n_control n_treated : nat) (effects : list fl) : fl * list fl :=
  if Nat.leb n_control n_treated then (Fin 0, [])
  else match effects with
       | [] | [_] => (Fin 0, effects)
       | _ => let r := len effects in (fmul (Fin (sqrt ((r - 1) / r))) (gstd 1 effects), effects)
       end.

Record gap_inf := { g_t : fl; g_p : fl; g_ci : fl * fl }.
(* 320-345: `se > 0` and `abs(draw) >= abs(att)` are False when a side is NaN *)
Definition gap_inference (sf z : R -> R) (att se : fl) (alpha : R) (draws : list fl) : gap_inf :=
  let h := fmul (Fin (z (1 - alpha / 2))) se in
  let ci := (fsub att h, fadd att h) in
  if flt (Fin 0) se then
    let t := fdiv att se in
    let p := match draws with
             | [] => match t with Fin r => Fin (2 * sf (Rabs r)) | NaN => NaN | _ => Fin 0 end
             | _ :: _ => Fin (Rmax (share (fun d => fle (fabs att) (fabs d)) draws) (1 / (len draws + 1)))
             end in
    {| g_t := t; g_p := p; g_ci := ci |}
  else {| g_t := Fin 0; g_p := Fin 1; g_ci := ci |}.

Record gap_result := {
  gr_att : fl; gr_se : fl; gr_inf : gap_inf;
  gr_n_obs : nat; gr_n_treated : nat; gr_n_control : nat;
  gr_unit_w : list (Z * fl); gr_time_w : list (Z * fl);
  gr_pre : list Z; gr_post : list Z; gr_method : string;
  gr_rmse : fl; gr_draws : option (list fl); gr_nboot : option nat; gr_alpha : R }.
(* SyntheticDiDResults.is_significant, results.py:702-705 *)
Definition gap_significant (r : gap_result) : bool := flt (g_p (gr_inf r)) (Fin (gr_alpha r)).

(* 273-379 *)
Definition gap_finish (sf z : R -> R) (cfg : sd_config) (Y : Z -> Z -> fl) (pre pst tr ctrl : list Z) (nobs : nat)
    (draws : list (list Z)) (perms : list (list nat)) : res gap_result :=
  do omega <- gap_omega cfg Y pre tr ctrl;
  let lam := gap_tw cfg Y pre tr ctrl in
  let att := gap_sdid Y pre pst ctrl (gmean Y tr) omega lam in
  let resid := fun s => fsub (gmean Y tr s) (gdot omega (fun j => Y s j) ctrl) in
  let rmse := fsqrt (fmean (map (fun s => fmul (resid s) (resid s)) pre)) in
  let boot := String.eqb (sd_method cfg) "bootstrap" in
  do sd <- (if boot
            then gap_boot_se (sd_nboot cfg) (somes (map (gap_boot_one cfg Y pre pst tr ctrl) draws))
            else Ok (gap_placebo_se (length ctrl) (length tr)
                       (map (fun p => gap_placebo_one Y pre pst lam (length ctrl - length tr)
                                        (map (fun k => (nth k ctrl 0%Z, nth k omega (Fin 0))) p)) perms)));
  let '(se, eff) := sd in
  Ok {| gr_att := att; gr_se := se; gr_inf := gap_inference sf z att se (sd_alpha cfg) eff;
        gr_n_obs := nobs; gr_n_treated := length tr; gr_n_control := length ctrl;
        gr_unit_w := combine ctrl omega; gr_time_w := combine pre lam;
        gr_pre := pre; gr_post := pst; gr_method := if boot then "bootstrap" else "placebo";
        gr_rmse := rmse; gr_draws := match eff with [] => None | _ => Some eff end;
        gr_nboot := if boot then Some (sd_nboot cfg) else None; gr_alpha := sd_alpha cfg |}.

Section Fit.
Context {I : Type}.
Variable qr : list I -> list (I -> R) -> list nat.
Variable lstsq : list I -> list (I -> R) -> (I -> R) -> list R.
Variable inv : list I -> list (I -> R) -> option (nat -> nat -> R).
Variables (sf z : R -> R).
Variables (rows : list I) (u t : I -> Z) (d : I -> R).

(* the pivot, 402: NaN where there is no row *)
Definition gap_cell (y : I -> fl) (p a : Z) : fl := match sd_rows rows u t p a with i :: _ => y i | [] => NaN end.

(* fit 157-379; the treatment column is assumed without NaN *)
Definition gap_fit (cfg : sd_config) (y : I -> fl) (covs : list (I -> R)) (post : option (list Z))
    (draws : list (list Z)) (perms : list (list nat)) : res gap_result :=
  if negb (forallb (fun i => Reqb (d i) 0 || Reqb (d i) 1) rows) then Err ValueError
  else
  do pp <- sdid_periods zmem (sd_periods rows t) post;
  let '(pre, pst) := pp in
  match sd_treated rows u d, sd_control rows u d with
  | [], _ | _, [] => Err ValueError
  | tr, ctrl =>
    do w <- (match covs with
             | [] => Ok y
             | _ => if all_finite y rows
                    then do v <- sd_residualize qr lstsq inv rows u t (fun i => unfin (y i)) covs; Ok (fun i => Fin (v i))
                    else Err ValueError
             end);
    if sd_dup rows u t then Err ValueError
    else gap_finish sf z cfg (gap_cell w) pre pst tr ctrl (length rows) draws perms
  end.
End Fit.
End GapCore.

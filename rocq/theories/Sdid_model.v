(* SyntheticDiD.fit, synthetic_did.py:157-568: preparation of the matrices, covariates, bootstrap and the
   reported result.  The weights, the estimator, the placebo draws and the test statistics are in Synth_model.
   Simplifications: unit ids and periods are integers; outcomes and covariates are finite reals; cells
   that are absent from the data (NaN after the pivot) are outside this file, sd_cell is 0 there and the
   theorems that need it assume a complete panel (Gap_model has the fit with absent cells); column checks and warnings are not modelled. *)
From Verif Require Import Prelude Flt Stats_model Linalg_model Did_model Multi_model Staggered_model Synth_model.
From Coq Require Import Arith ZArith String List.
Import ListNotations.
Open Scope R_scope.

(* constructor arguments, synthetic_did.py:131-156; the seed is the choice of draws *)
Record sd_config := { sd_lambda : R; sd_zeta : R; sd_alpha : R; sd_method : string; sd_nboot : nat }.
(* __init__ 147-153 *)
Definition sd_init_ok (cfg : sd_config) : bool := String.eqb (sd_method cfg) "bootstrap" || String.eqb (sd_method cfg) "placebo".

Record sd_result := {
  sr_att : R; sr_se : R; sr_inf : sdid_inf;
  sr_n_obs : nat; sr_n_treated : nat; sr_n_control : nat;
  sr_unit_w : list (Z * R); sr_time_w : list (Z * R);
  sr_pre : list Z; sr_post : list Z; sr_method : string;
  sr_rmse : R; sr_draws : option (list R); sr_nboot : option nat }.

Definition min_weight : R := 1 / 1000000.       (* default of compute_synthetic_weights, utils.py:1001 *)

(* the two backends of compute_synthetic_weights, utils.py:1043-1056 (at most 1000 iterations);
   [nrm] = np.linalg.norm(H, 2) *)
Definition be_rust (iter : nat) (pre : list Z) (cols : list (Z -> R)) (y : Z -> R) (lambda : R) : list R :=
  synth_rust iter pre cols y lambda.
Definition be_numpy (iter : nat) (nrm : list Z -> list (Z -> R) -> R -> R) (pre : list Z) (cols : list (Z -> R))
    (y : Z -> R) (lambda : R) : list R :=
  synth_numpy iter (nrm pre cols lambda) pre cols y lambda.
(* two facts about the spectral norm of H = Y'Y + lambda I with lambda >= 0: it bounds w'Hw over unit vectors,
   and it is at most the trace *)
Definition hform (pre : list Z) (cols : list (Z -> R)) (lambda : R) (w : list R) : R :=
  ip pre (lc cols w) (lc cols w) + lambda * sumf (fun x => x * x) w.
Definition htrace (pre : list Z) (cols : list (Z -> R)) (lambda : R) : R := sumf (fun c => ip pre c c + lambda) cols.
Definition norm2_ok (nrm : list Z -> list (Z -> R) -> R -> R) : Prop :=
  forall pre cols lambda, 0 <= lambda ->
    (forall w, length w = length cols -> hform pre cols lambda w <= nrm pre cols lambda * sumf (fun x => x * x) w)
    /\ nrm pre cols lambda <= htrace pre cols lambda.

Section Core.
(* one of the two backends: pre-periods, control columns, treated means, lambda_reg *)
Variable backend : list Z -> list (Z -> R) -> (Z -> R) -> R -> list R.

(* unit weights, time weights and estimate from an outcome matrix, 273-300 (and 504-519 in the bootstrap) *)
Definition sd_omega (cfg : sd_config) (Y : Z -> Z -> R) (pre tr ctrl : list Z) : list R :=
  synthetic_weights (backend pre (map (fun j t => Y t j) ctrl) (fun t => meanf (Y t) tr) (sd_lambda cfg)) (length ctrl) min_weight.
Definition sd_tw (cfg : sd_config) (Y : Z -> Z -> R) (pre tr ctrl : list Z) : list R :=
  time_weights Y pre ctrl (fun t => meanf (Y t) tr) (sd_zeta cfg).
Definition sd_point (cfg : sd_config) (Y : Z -> Z -> R) (pre post tr ctrl : list Z) : R :=
  sdid Y pre post ctrl (fun t => meanf (Y t) tr) (sd_omega cfg Y pre tr ctrl) (sd_tw cfg Y pre tr ctrl).

(* one bootstrap draw, 480-525: the sampled unit ids with repetition; None = skipped *)
Definition sd_boot_one (cfg : sd_config) (Y : Z -> Z -> R) (pre post tr ctrl : list Z) (draw : list Z) : option R :=
  let bt := filter (fun a => zmem a tr) draw in
  let bc := filter (fun a => zmem a ctrl) draw in
  match bt, bc with
  | [], _ | _, [] => None
  | _, _ => Some (sd_point cfg Y pre post bt bc)
  end.
Definition somes {A} (l : list (option A)) : list A := flat_map (fun o => match o with Some x => [x] | None => [] end) l.

(* everything after the outcome matrices, 273-379; [draws] = bootstrap samples of treated_units + control_units,
   [perms] = placebo permutations of the control positions (used according to variance_method) *)
Definition sd_finish (sf z : R -> R) (cfg : sd_config) (Y : Z -> Z -> R) (pre pst tr ctrl : list Z) (nobs : nat)
    (draws : list (list Z)) (perms : list (list nat)) : res sd_result :=
  let omega := sd_omega cfg Y pre tr ctrl in
  let lam := sd_tw cfg Y pre tr ctrl in
  let att := sd_point cfg Y pre pst tr ctrl in
  let fitted := lc (map (fun j s => Y s j) ctrl) omega in
  let rmse := sqrt (meanf (fun s => (meanf (Y s) tr - fitted s) * (meanf (Y s) tr - fitted s)) pre) in
  let boot := String.eqb (sd_method cfg) "bootstrap" in
  do sd <- (if boot
            then bootstrap_se (sd_nboot cfg) (somes (map (sd_boot_one cfg Y pre pst tr ctrl) draws))
            else Ok (placebo_se (length ctrl) (length tr)
                       (map (fun p => placebo_one Y pre pst lam (length ctrl - length tr)
                                        (map (fun k => (nth k ctrl 0%Z, nth k omega 0)) p)) perms)));
  let '(se, eff) := sd in
  Ok {| sr_att := att; sr_se := se; sr_inf := sdid_inference sf z att se (sd_alpha cfg) eff;
        sr_n_obs := nobs; sr_n_treated := length tr; sr_n_control := length ctrl;
        sr_unit_w := combine ctrl omega; sr_time_w := combine pre lam;
        sr_pre := pre; sr_post := pst; sr_method := if boot then "bootstrap" else "placebo";
        sr_rmse := rmse; sr_draws := match eff with [] => None | _ => Some eff end;
        sr_nboot := if boot then Some (sd_nboot cfg) else None |}.

Section Fit.
Context {I : Type}.
Variable qr : list I -> list (I -> R) -> list nat.
Variable lstsq : list I -> list (I -> R) -> (I -> R) -> list R.
Variable inv : list I -> list (I -> R) -> option (nat -> nat -> R).
Variables (sf z : R -> R).
Variables (rows : list I) (u t : I -> Z) (d : I -> R).

Definition sd_units : list Z := zsort (nodup Z.eq_dec (map u rows)).
Definition sd_periods : list Z := zsort (nodup Z.eq_dec (map t rows)).
(* data.groupby(unit)[treatment].first(), 249 *)
Definition sd_first (a : Z) : R := match filter (fun i => Z.eqb (u i) a) rows with i :: _ => d i | [] => 0 end.
Definition sd_treated : list Z := filter (fun a => Reqb (sd_first a) 1) sd_units.
Definition sd_control : list Z := filter (fun a => Reqb (sd_first a) 0) sd_units.
(* data.pivot, 402: raises on a repeated (time, unit) *)
Definition sd_rows (p a : Z) : list I := filter (fun i => Z.eqb (t i) p && Z.eqb (u i) a) rows.
Definition sd_dup : bool := existsb (fun i => Nat.ltb 1 (length (sd_rows (t i) (u i)))) rows.
Definition sd_cell (y : I -> R) (p a : Z) : R := match sd_rows p a with i :: _ => y i | [] => 0 end.

(* _residualize_covariates 417-454 *)
Definition sd_dummies (f : I -> Z) (ks : list Z) : list (I -> R) := map (fun k i => ind (Z.eqb (f i) k)) (tl ks).
Definition sd_design (covs : list (I -> R)) : list (I -> R) :=
  (fun _ => 1) :: covs ++ sd_dummies u sd_units ++ sd_dummies t sd_periods.
Definition sd_residualize (y : I -> R) (covs : list (I -> R)) : res (I -> R) :=
  do o <- solve_ols (K:=unit) unit_eqd qr lstsq inv rows (sd_design covs) y None false "warn";
  Ok (fun i => o_resid o i + meanf y rows).

(* fit 157-379 *)
Definition sd_fit (cfg : sd_config) (y : I -> R) (covs : list (I -> R)) (post : option (list Z))
    (draws : list (list Z)) (perms : list (list nat)) : res sd_result :=
  if negb (forallb (fun i => Reqb (d i) 0 || Reqb (d i) 1) rows) then Err ValueError            (* 220 *)
  else
  do pp <- sdid_periods zmem sd_periods post;                                                   (* 222-245 *)
  let '(pre, pst) := pp in
  match sd_treated, sd_control with
  | [], _ | _, [] => Err ValueError                                                             (* 253-256 *)
  | tr, ctrl =>
    do w <- (match covs with [] => Ok y | _ => sd_residualize y covs end);                      (* 259-263 *)
    if sd_dup then Err ValueError
    else sd_finish sf z cfg (sd_cell w) pre pst tr ctrl (length rows) draws perms
  end.
End Fit.
End Core.

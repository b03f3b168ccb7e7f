(* Model of diff_diff/power.py: PowerAnalysis (348-893), simulate_power (895-1209), compute_* (1212-1361). *)
From Verif Require Import Prelude Flt Stats_model.
From Coq Require Import ZArith String List.
Import ListNotations.
Open Scope R_scope.

Inductive alternative := TwoSided | Greater | Less.
Record pa_cfg := { pa_alpha : R; pa_target : R; pa_alt : alternative }.

(* __init__, 396-412 *)
Definition pa_init (alpha power : R) (alt : string) : res pa_cfg :=
  if negb (Rltb 0 alpha && Rltb alpha 1) then Err ValueError
  else if negb (Rltb 0 power && Rltb power 1) then Err ValueError
  else if String.eqb alt "two-sided" then Ok {| pa_alpha := alpha; pa_target := power; pa_alt := TwoSided |}
  else if String.eqb alt "greater" then Ok {| pa_alpha := alpha; pa_target := power; pa_alt := Greater |}
  else if String.eqb alt "less" then Ok {| pa_alpha := alpha; pa_target := power; pa_alt := Less |}
  else Err ValueError.

(* np.ceil then int; int() truncates toward zero *)
Definition ceilZ (r : R) : Z := (- Int_part (- r))%Z.
Definition truncZ (r : R) : Z := if Rleb 0 r then Int_part r else ceilZ r.

(* the power module's design switch, 535-536, 628-629, 737-738 *)
Definition is_panel (n_pre n_post : Z) : bool := Z.ltb 2 (n_pre + n_post).

(* _compute_variance, 423-485: python int division raises on a zero count *)
Definition pa_variance (n_t n_c n_pre n_post : Z) (sigma rho : R) : res R :=
  if Z.eqb n_t 0 || Z.eqb n_c 0 then Err ZeroDivisionError
  else if is_panel n_pre n_post then
    let T := IZR (n_pre + n_post) in
    Ok (sigma * sigma * (1 / IZR n_t + 1 / IZR n_c) * (1 + (T - 1) * rho) / T)
  else Ok (sigma * sigma * (1 / IZR n_t + 1 / IZR n_t + 1 / IZR n_c + 1 / IZR n_c)).

Record pa_result := {
  pw_power : fl; pw_mde : fl; pw_n : Z; pw_effect : fl; pw_alpha : R; pw_alt : alternative;
  pw_nt : Z; pw_nc : Z; pw_pre : Z; pw_post : Z; pw_sigma : R; pw_rho : R; pw_panel : bool }.

(* MAX_SAMPLE_SIZE, 33 *)
Definition max_n : Z := 2147483647%Z.

Section Norm.
Variable cdf : R -> R.    (* stats.norm.cdf *)
Variable ppf : R -> R.    (* stats.norm.ppf *)
Definition fcdf (x : fl) : fl := match x with Fin r => Fin (cdf r) | NaN => NaN | PInf => Fin 1 | NInf => Fin 0 end.

(* _get_critical_values, 414-421 *)
Definition z_alpha (cfg : pa_cfg) : R :=
  match pa_alt cfg with TwoSided => ppf (1 - pa_alpha cfg / 2) | _ => ppf (1 - pa_alpha cfg) end.
Definition z_beta (cfg : pa_cfg) : R := ppf (pa_target cfg).
(* _compute_mde_from_se, 574-577 *)
Definition pa_mde_se (cfg : pa_cfg) (se : fl) : fl := fmul (Fin (z_alpha cfg + z_beta cfg)) se.
(* 543-557 *)
Definition pa_power_se (cfg : pa_cfg) (effect : R) (se : fl) : fl :=
  let d := fdiv (Fin effect) se in
  let z := Fin (z_alpha cfg) in
  match pa_alt cfg with
  | TwoSided => fadd (fsub (Fin 1) (fcdf (fsub z d))) (fcdf (fsub (fneg z) d))
  | Greater => fsub (Fin 1) (fcdf (fsub z d))
  | Less => fcdf (fsub (fneg z) d)
  end.

(* _compute_required_n, 646-695.  numpy scalars: x/0 is inf or nan, and int(nan) raises ValueError *)
Definition pa_required (cfg : pa_cfg) (effect sigma : R) (n_pre n_post : Z) (rho frac : R) : res Z :=
  if Reqb effect 0 then Ok max_n
  else
    let z := z_alpha cfg + z_beta cfg in
    let n := if is_panel n_pre n_post then
               let T := IZR (n_pre + n_post) in
               fdiv (Fin (2 * (sigma * sigma) * (z * z) * (1 + (T - 1) * rho))) (Fin (effect * effect * frac * (1 - frac) * T))
             else fdiv (Fin (2 * (sigma * sigma) * (z * z))) (Fin (effect * effect * frac * (1 - frac))) in
    match n with
    | PInf | NInf => Ok max_n
    | NaN => Err ValueError
    | Fin r => Ok (Z.max 4 (ceilZ r))
    end.

(* power, 487-572 *)
Definition pa_power (cfg : pa_cfg) (effect : R) (n_t n_c : Z) (sigma : R) (n_pre n_post : Z) (rho : R) : res pa_result :=
  do v <- pa_variance n_t n_c n_pre n_post sigma rho ;
  let se := fsqrt (Fin v) in
  if Z.eqb (n_t + n_c) 0 then Err ZeroDivisionError
  else
    do n <- pa_required cfg effect sigma n_pre n_post rho (IZR n_t / IZR (n_t + n_c)) ;
    Ok {| pw_power := pa_power_se cfg effect se; pw_mde := pa_mde_se cfg se; pw_n := n; pw_effect := Fin effect;
          pw_alpha := pa_alpha cfg; pw_alt := pa_alt cfg; pw_nt := n_t; pw_nc := n_c; pw_pre := n_pre; pw_post := n_post;
          pw_sigma := sigma; pw_rho := rho; pw_panel := is_panel n_pre n_post |}.
(* mde, 579-644 *)
Definition pa_mde (cfg : pa_cfg) (n_t n_c : Z) (sigma : R) (n_pre n_post : Z) (rho : R) : res pa_result :=
  do v <- pa_variance n_t n_c n_pre n_post sigma rho ;
  let m := pa_mde_se cfg (fsqrt (Fin v)) in
  Ok {| pw_power := Fin (pa_target cfg); pw_mde := m; pw_n := (n_t + n_c)%Z; pw_effect := m;
        pw_alpha := pa_alpha cfg; pw_alt := pa_alt cfg; pw_nt := n_t; pw_nc := n_c; pw_pre := n_pre; pw_post := n_post;
        pw_sigma := sigma; pw_rho := rho; pw_panel := is_panel n_pre n_post |}.
(* sample_size, 697-767 *)
Definition pa_split (n : Z) (frac : R) : Z * Z :=
  let t := Z.max 2 (ceilZ (IZR n * frac)) in (t, Z.max 2 (n - t)).
Definition pa_sample_size (cfg : pa_cfg) (effect sigma : R) (n_pre n_post : Z) (rho frac : R) : res pa_result :=
  do n <- pa_required cfg effect sigma n_pre n_post rho frac ;
  let '(n_t, n_c) := pa_split n frac in
  do v <- pa_variance n_t n_c n_pre n_post sigma rho ;
  Ok {| pw_power := Fin (pa_target cfg); pw_mde := pa_mde_se cfg (fsqrt (Fin v)); pw_n := (n_t + n_c)%Z; pw_effect := Fin effect;
        pw_alpha := pa_alpha cfg; pw_alt := pa_alt cfg; pw_nt := n_t; pw_nc := n_c; pw_pre := n_pre; pw_post := n_post;
        pw_sigma := sigma; pw_rho := rho; pw_panel := is_panel n_pre n_post |}.

Fixpoint seq_res {A B} (f : A -> res B) (l : list A) : res (list B) :=
  match l with [] => Ok [] | x :: r => do y <- f x ; do ys <- seq_res f r ; Ok (y :: ys) end.

(* power_curve, 769-828; the automatic grid is np.linspace(0, 2.5 mde, 50).  A grid with an infinite or missing
   end (zero or negative variance) is not modelled: None *)
Definition pa_grid (b : R) (n : nat) : list R := map (fun i => b * INR i / INR (n - 1)) (seq 0 n).
Definition pa_power_curve (cfg : pa_cfg) (n_t n_c : Z) (sigma : R) (effects : option (list R)) (n_pre n_post : Z) (rho : R)
  : option (res (list (R * fl))) :=
  let run l := seq_res (fun e => do r <- pa_power cfg e n_t n_c sigma n_pre n_post rho ; Ok (e, pw_power r)) l in
  match pa_mde cfg n_t n_c sigma n_pre n_post rho with
  | Err e => Some (Err e)
  | Ok r => match effects with
            | Some l => Some (run l)
            | None => match pw_mde r with Fin m => Some (run (pa_grid (5/2 * m) 50)) | _ => None end
            end
  end.

(* sample_size_curve, 830-893; range(min_n, max_n + 1, step) with step >= 1 *)
Definition zrange (a b step : Z) : list Z :=
  map (fun i => (a + Z.of_nat i * step)%Z) (seq 0 (Z.to_nat ((b - a + step - 1) / step))).
Definition curve_split (n : Z) (frac : R) : Z * Z :=
  let t := Z.max 2 (truncZ (IZR n * frac)) in (t, Z.max 2 (n - t)).
Definition pa_size_curve (cfg : pa_cfg) (effect sigma : R) (sizes : option (list Z)) (n_pre n_post : Z) (rho frac : R)
  : res (list (Z * fl)) :=
  do req <- pa_sample_size cfg effect sigma n_pre n_post rho frac ;
  let l := match sizes with
           | Some l => l
           | None =>
               let lo := Z.max 10 (pw_n req / 4) in
               let hi := (pw_n req * 2)%Z in
               zrange lo (hi + 1) (Z.max 1 ((hi - lo) / 50))
           end in
  seq_res (fun n => let '(n_t, n_c) := curve_split n frac in
                    do r <- pa_power cfg effect n_t n_c sigma n_pre n_post rho ; Ok (n, pw_power r)) l.

(* compute_mde, compute_power, compute_sample_size, 1212-1361: two-sided; compute_power keeps the default power 0.80 *)
Definition compute_mde (n_t n_c : Z) (sigma power alpha : R) (n_pre n_post : Z) (rho : R) : res fl :=
  do cfg <- pa_init alpha power "two-sided" ; do r <- pa_mde cfg n_t n_c sigma n_pre n_post rho ; Ok (pw_mde r).
Definition compute_power (effect : R) (n_t n_c : Z) (sigma alpha : R) (n_pre n_post : Z) (rho : R) : res fl :=
  do cfg <- pa_init alpha (4/5) "two-sided" ; do r <- pa_power cfg effect n_t n_c sigma n_pre n_post rho ; Ok (pw_power r).
Definition compute_sample_size (effect sigma power alpha : R) (n_pre n_post : Z) (rho frac : R) : res Z :=
  do cfg <- pa_init alpha power "two-sided" ; do r <- pa_sample_size cfg effect sigma n_pre n_post rho frac ; Ok (pw_n r).
End Norm.

(* ---- simulate_power, 895-1209 ---- *)
(* a result object: the attributes simulate_power looks for; None = no such attribute *)
Record obj := {
  ob_att : option fl; ob_se : option fl; ob_p : option fl; ob_ci : option (fl * fl);
  ob_avg_att : option fl; ob_avg_se : option fl; ob_avg_p : option fl; ob_avg_ci : option (fl * fl) }.
Definition attr {A} (a b : option A) : res A :=
  match a with Some x => Ok x | None => match b with Some x => Ok x | None => Err AttributeError end end.
Record sim_row := { sr_att : fl; sr_se : fl; sr_p : fl; sr_lo : fl; sr_hi : fl }.
(* 1103-1106 *)
Definition extract_obj (o : obj) : res sim_row :=
  do a <- attr (ob_att o) (ob_avg_att o) ;
  do s <- attr (ob_se o) (ob_avg_se o) ;
  do p <- attr (ob_p o) (ob_avg_p o) ;
  do c <- attr (ob_ci o) (ob_avg_ci o) ;
  Ok {| sr_att := a; sr_se := s; sr_p := p; sr_lo := fst c; sr_hi := snd c |}.

Record sim_result := {
  si_power : R; si_power_se : R; si_ci : R * R; si_mean : fl; si_std : fl; si_mean_se : fl; si_coverage : R;
  si_n : nat; si_effects : list R; si_powers : list R; si_true : R; si_alpha : R; si_rows : list (sim_row * bool) }.

(* np.isclose, 1026 *)
Definition isclose (a b : R) : bool := Rleb (Rabs (a - b)) (1 / 100000000 + 1 / 100000 * Rabs b).
(* 1018-1031: first effect close to treatment_effect, else the last one *)
Fixpoint first_close (l : list R) (te : R) (i : nat) : option nat :=
  match l with [] => None | e :: r => if isclose e te then Some i else first_close r te (S i) end.
Definition primary_index (effects : list R) (te : R) : nat :=
  match effects with
  | [_] => 0%nat
  | _ => match first_close effects te 0 with Some i => i | None => (length effects - 1)%nat end
  end.

Section Sim.
Context {D : Type}.
Variable gen : R -> Z -> res D.     (* data_generator(effect, seed): its exceptions are not caught (1057-1066) *)
Variable fit : D -> res obj.        (* estimator.fit with the arguments chosen at 1069-1113 *)
Variable rng : nat -> Z.            (* the k-th rng.integers(0, 2**31) *)
Variable ppf : R -> R.

(* one replication, 1051-1121; None = failed and counted *)
Definition one_sim (effect : R) (seed : Z) : res (option sim_row) :=
  do d <- gen effect seed ;
  Ok (match (do o <- fit d ; extract_obj o) with Ok r => Some r | Err _ => None end).
Fixpoint sims (effect : R) (start n : nat) : res (list sim_row) :=
  match n with
  | O => Ok []
  | S k => do r <- one_sim effect (rng start) ;
           do rest <- sims effect (S start) k ;
           Ok (match r with Some x => x :: rest | None => rest end)
  end.
Definition rejected (alpha : R) (r : sim_row) : bool := flt (sr_p r) (Fin alpha).
Definition covers (effect : R) (r : sim_row) : bool := fle (sr_lo r) (Fin effect) && fle (Fin effect) (sr_hi r).
Definition mean_b (l : list bool) : R := INR (length (filter (fun b => b) l)) / INR (length l).
(* one effect size, 1043-1149; the failure rate is an int division *)
Definition sim_effect (effect : R) (start : nat) (n_sim : Z) : res (list sim_row) :=
  do rows <- sims effect start (Z.to_nat n_sim) ;
  if Z.eqb n_sim 0 then Err ZeroDivisionError
  else match rows with [] => Err RuntimeError | _ => Ok rows end.
Fixpoint sim_effects (effects : list R) (start : nat) (n_sim : Z) : res (list (list sim_row)) :=
  match effects with
  | [] => Ok []
  | e :: r => do rows <- sim_effect e start n_sim ;
              do rest <- sim_effects r (start + Z.to_nat n_sim) n_sim ; Ok (rows :: rest)
  end.
Definition fstd1 (l : list fl) : fl :=
  let m := fmean l in
  fsqrt (fdiv (fsum (map (fun x => fmul (fsub x m) (fsub x m)) l)) (Fin (INR (length l) - 1))).
Definition simulate_power (treatment_effect : R) (effect_sizes : option (list R)) (n_sim : Z) (alpha : R) : res sim_result :=
  let effects := match effect_sizes with Some l => l | None => [treatment_effect] end in
  match effects with
  | [] => Err IndexError
  | _ =>
      let pi := primary_index effects treatment_effect in
      let pe := nth pi effects 0 in
      do all <- sim_effects effects 0 n_sim ;
      let powers := map (fun rows => mean_b (map (rejected alpha) rows)) all in
      let rows := nth pi all [] in
      let pw := nth pi powers 0 in
      let n := length rows in
      let se := sqrt (pw * (1 - pw) / INR n) in
      let z := ppf (975 / 1000) in
      Ok {| si_power := pw; si_power_se := se; si_ci := (Rmax 0 (pw - z * se), Rmin 1 (pw + z * se));
            si_mean := fmean (map sr_att rows); si_std := fstd1 (map sr_att rows); si_mean_se := fmean (map sr_se rows);
            si_coverage := mean_b (map (covers pe) rows); si_n := n; si_effects := effects; si_powers := powers;
            si_true := pe; si_alpha := alpha; si_rows := map (fun r => (r, rejected alpha r)) rows |}
  end.
End Sim.

(* bias and rmse, 233-236 *)
Definition si_bias (r : sim_result) : fl := fsub (si_mean r) (Fin (si_true r)).
Definition si_rmse (r : sim_result) : fl := fsqrt (fadd (fmul (si_bias r) (si_bias r)) (fmul (si_std r) (si_std r))).

(* the attributes of the package's result classes: DiDResults (results.py:42-46; also TWFE), MultiPeriodDiDResults
   (results.py:285-289), CallawaySantAnnaResults (staggered_results.py: overall_att etc. only) *)
Definition obj_did (att se p : fl) (ci : fl * fl) : obj :=
  {| ob_att := Some att; ob_se := Some se; ob_p := Some p; ob_ci := Some ci; ob_avg_att := None; ob_avg_se := None; ob_avg_p := None; ob_avg_ci := None |}.
Definition obj_mp (att se p : fl) (ci : fl * fl) : obj :=
  {| ob_att := None; ob_se := None; ob_p := None; ob_ci := None; ob_avg_att := Some att; ob_avg_se := Some se; ob_avg_p := Some p; ob_avg_ci := Some ci |}.
Definition obj_overall : obj :=
  {| ob_att := None; ob_se := None; ob_p := None; ob_ci := None; ob_avg_att := None; ob_avg_se := None; ob_avg_p := None; ob_avg_ci := None |}.

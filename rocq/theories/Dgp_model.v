(* Model of diff_diff/prep_dgp.py (synthetic data generators) and diff_diff/_backend.py (backend choice).
   Random draws are arguments: a call rng.normal(0, sd) is [normal sd z] with z a standard draw, and
   rng.choice(k, size=n) is a function giving the n drawn positions; theorems quantify over all draws.
   Arithmetic is exact.  numpy's rng.normal raises ValueError for a negative scale. *)
From Verif Require Import Prelude Flt Power_model Did_model Staggered_model Diag_model.
From Coq Require Import Arith ZArith String List.
Import ListNotations.
Open Scope R_scope.

Definition normal (sd z : R) : R := sd * z.                                   (* rng.normal(0, sd) *)
(* for unit in range(n): for period in range(T): ... records.append(...) *)
Definition grid (n T : nat) : list (nat * nat) := list_prod (seq 0 n) (seq 0 T).
Definition n_first (n : nat) (fraction : R) : Z := truncZ (INR n * fraction).   (* int(n_units * treatment_fraction) *)
Definition before (u : nat) (k : Z) : bool := Z.ltb (Z.of_nat u) k.

(* one row of the 2x2 panels; event_time only exists in generate_event_study_data *)
Record prow := mk_prow { pr_unit : nat; pr_period : nat; pr_treated : bool; pr_post : bool; pr_y : R; pr_effect : R; pr_event : Z }.

(* ---- prep_dgp.py 15-120 generate_did_data ---- *)
Definition generate_did_data (n T : nat) (effect fraction : R) (tp : Z) (fe_sd trend noise_sd : R)
    (zu : nat -> R) (ze : nat -> nat -> R) : res (list prow) :=
  if Rltb fe_sd 0 then Err ValueError                                                        (* 90 *)
  else if Rltb noise_sd 0 && negb (Nat.eqb (n * T) 0) then Err ValueError                     (* 113 *)
  else
    let k := n_first n fraction in                                                            (* 86-87 *)
    Ok (map (fun ut => let '(u, t) := ut in
          let tr := before u k in                                                             (* 95 *)
          let post := Z.leb tp (Z.of_nat t) in                                                (* 98 *)
          let e := if tr && post then effect else 0 in                                        (* 106-110 *)
          mk_prow u t tr post (10 + normal fe_sd (zu u) + trend * INR t + e + normal noise_sd (ze u t)) e
                  (Z.of_nat t - tp)) (grid n T)).

(* ---- prep_dgp.py 548-665 generate_panel_data ---- *)
Definition generate_panel_data (n T : nat) (tp : Z) (fraction effect : R) (parallel : bool) (violation fe_sd noise_sd : R)
    (zu : nat -> R) (ze : nat -> nat -> R) : res (list prow) :=
  if Z.ltb tp 1 then Err ValueError                                                          (* 617 *)
  else if Z.leb (Z.of_nat T) tp then Err ValueError                                           (* 619 *)
  else if (Rltb fe_sd 0 || Rltb noise_sd 0) && negb (Nat.eqb n 0) then Err ValueError         (* 627, 653; T > 0 here *)
  else
    let k := n_first n fraction in
    Ok (map (fun ut => let '(u, t) := ut in
          let tr := before u k in
          let post := Z.leb tp (Z.of_nat t) in
          let te := if parallel then INR t * 1                                                (* 633-641 *)
                    else if tr then INR t * (1 + violation) else INR t * 1 in
          let e := if tr && post then effect else 0 in
          mk_prow u t tr post (10 + normal fe_sd (zu u) + te + e + normal noise_sd (ze u t)) e (Z.of_nat t - tp)) (grid n T)).

(* ---- prep_dgp.py 668-777 generate_event_study_data ---- *)
Definition generate_event_study_data (n n_pre n_post : nat) (fraction effect fe_sd noise_sd : R)
    (zu : nat -> R) (ze : nat -> nat -> R) : res (list prow) :=
  let T := (n_pre + n_post)%nat in
  let tp := Z.of_nat n_pre in
  if Rltb fe_sd 0 && negb (Nat.eqb n 0) then Err ValueError
  else if Rltb noise_sd 0 && negb (Nat.eqb (n * T) 0) then Err ValueError
  else
    let k := n_first n fraction in
    Ok (map (fun ut => let '(u, t) := ut in
          let tr := before u k in
          let post := Z.leb tp (Z.of_nat t) in
          let e := if tr && post then effect else 0 in
          mk_prow u t tr post (10 + normal fe_sd (zu u) + INR t * (1/2) + e + normal noise_sd (ze u t)) e (Z.of_nat t - tp)) (grid n T)).

(* ---- prep_dgp.py 265-407 generate_factor_data ---- *)
Record frow := mk_frow { fr_unit : nat; fr_period : nat; fr_y : R; fr_treated : bool; fr_treat : bool; fr_effect : R }.
(* np.linspace(0, 2, n): a single point is 0 *)
Definition linspace02 (n t : nat) : R := if Nat.leb n 1 then 0 else 2 * INR t / INR (n - 1).
(* zf t j: factor draws; zl j u: loading draws; factors are indexed 0..n_factors-1.  numpy's ValueError for
   negative n_factors or n_periods cannot arise (naturals). *)
Definition generate_factor_data (n n_pre n_post : nat) (n_treated : Z) (n_factors : nat)
    (effect strength shift fe_sd noise_sd : R) (zf zl : nat -> nat -> R) (zu : nat -> R) (ze : nat -> nat -> R) : res (list frow) :=
  let T := (n_pre + n_post)%nat in
  if Z.ltb (Z.of_nat n) n_treated then Err ValueError                                         (* 355 *)
  else if Z.ltb n_treated 1 then Err ValueError                                               (* 357 *)
  else if Rltb fe_sd 0 then Err ValueError                                                    (* 369; n >= 1 here *)
  else if Rltb noise_sd 0 && negb (Nat.eqb T 0) then Err ValueError                           (* 396 *)
  else
    Ok (map (fun ut => let '(u, t) := ut in
          let ever := before u n_treated in                                                   (* 378 *)
          let post := Nat.leb n_pre t in
          let load j := zl j u + (if ever then shift else 0) in                               (* 365-366 *)
          let alpha := normal fe_sd (zu u) + (if ever then 1 else 0) in                       (* 369-370 *)
          let e := if ever && post then effect else 0 in
          mk_frow u t (10 + alpha + linspace02 T t + strength * sumf (fun j => load j * zf t j) (seq 0 n_factors)
                       + e + normal noise_sd (ze u t))
                  (ever && post) ever e) (grid n T)).

(* ---- prep_dgp.py 410-545 generate_ddd_data ---- *)
Record drow := mk_drow { dr_y : R; dr_g : bool; dr_p : bool; dr_t : bool; dr_unit : nat; dr_effect : R; dr_age : R; dr_educ : R }.
(* rows are numbered in the order they are written: cell (g, p, t) comes at position 4g + 2p + t *)
Definition cell_index (g p t : bool) : nat := ((if g then 4 else 0) + (if p then 2 else 0) + (if t then 1 else 0))%nat.
Definition ddd_cells : list (bool * bool * bool) := list_prod (list_prod [false; true] [false; true]) [false; true].
(* age and education exist as columns only when add_covariates; they are drawn in any case (514-516) *)
Definition generate_ddd_data (m : nat) (effect ge pe te noise_sd : R) (add_covariates : bool)
    (age educ : nat -> R) (ze : nat -> R) : res (list drow) :=
  if Rltb noise_sd 0 && negb (Nat.eqb m 0) then Err ValueError
  else
    Ok (map (fun x : bool * bool * bool * nat => let '(g, p, t, j) := x in
          let id := (cell_index g p t * m + j)%nat in                                         (* 490, 541 *)
          let e := if g && p && t then effect else 0 in                                       (* 507-511 *)
          mk_drow (50 + ge * ind g + pe * ind p + te * ind t
                   + 3/2 * ind g * ind p + 1 * ind g * ind t + 1/2 * ind p * ind t + e
                   + (if add_covariates then 1/10 * age id + 1/2 * educ id else 0) + normal noise_sd (ze id))
                  g p t id e (age id) (educ id)) (list_prod ddd_cells (seq 0 m))).

(* ---- prep_dgp.py 123-262 generate_staggered_data ---- *)
Record srow := mk_srow { sg_unit : nat; sg_period : nat; sg_y : R; sg_first : Z; sg_treated : bool; sg_effect : R }.
Definition default_cohorts (T : nat) : list Z :=                                             (* 208-209 *)
  if Nat.leb 8 T then [3; 5; 7]%Z else [Z.of_nat T / 3; 2 * Z.of_nat T / 3]%Z.
(* pick: the drawn positions, each below len(cohort_periods).  rng.choice raises ValueError on an empty
   list of cohorts; a negative never_treated_frac makes the slice assignment of line 226 raise ValueError. *)
Definition generate_staggered_data (n T : nat) (cohorts : option (list Z)) (never_frac effect : R) (dynamic : bool) (growth : R)
    (fe_sd trend noise_sd : R) (pick : nat -> nat) (zu : nat -> R) (ze : nat -> nat -> R) : res (list srow) :=
  let cp := match cohorts with None => default_cohorts T | Some l => l end in
  if existsb (fun c => Z.ltb c 1 || Z.leb (Z.of_nat T) c) cp then Err ValueError              (* 212-216 *)
  else
    let n_never := truncZ (INR n * never_frac) in                                             (* 219 *)
    let n_treated := (Z.of_nat n - n_never)%Z in
    if Z.ltb n_never 0 then Err ValueError
    else if Z.ltb 0 n_treated && match cp with [] => true | _ => false end then Err ValueError  (* 225 *)
    else if Rltb fe_sd 0 then Err ValueError                                                  (* 229 *)
    else if Rltb noise_sd 0 && negb (Nat.eqb (n * T) 0) then Err ValueError                   (* 255 *)
    else
      let first u := if before u n_never then 0%Z                                             (* 223-226 *)
                     else nth (pick (u - Z.to_nat n_never)%nat) cp 0%Z in
      Ok (map (fun ut => let '(u, t) := ut in
            let g := first u in
            let tr := Z.ltb 0 g && Z.leb g (Z.of_nat t) in                                    (* 235-239 *)
            let e := if tr then (if dynamic then effect * (1 + growth * (INR t - IZR g)) else effect) else 0 in
            mk_srow u t (10 + normal fe_sd (zu u) + trend * INR t + e + normal noise_sd (ze u t)) g tr e) (grid n T)).

(* ---- _backend.py 11-73: which implementation is used ---- *)
(* env: the environment variable after .lower(), "auto" when unset; avail: the compiled module imports.
   The result is HAS_RUST_BACKEND and whether the references to the compiled functions are set. *)
Definition backend (env : option string) (avail : bool) : res (bool * bool) :=
  let e := match env with Some s => s | None => "auto"%string end in
  if String.eqb e "python" then Ok (false, false)
  else if String.eqb e "rust" then (if avail then Ok (true, true) else Err ImportError)
  else Ok (avail, avail).

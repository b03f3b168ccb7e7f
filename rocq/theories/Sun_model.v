(* Model of SunAbraham (diff_diff/sun_abraham.py:383-1159).
   Unit ids, periods, cluster ids and finite cohorts are integers; outcomes and covariates are real
   (LinearRegression.fit rejects NaN and inf, linalg.py:470-480).  Column-existence checks (475-481) are the
   typing of the arguments; warnings are not modelled. *)
From Verif Require Import Prelude Flt Stats_model Linalg_model Did_model Multi_model Bacon_model Staggered_model.
From Coq Require Import Arith ZArith String List.
Import ListNotations.
Open Scope R_scope.

(* constructor arguments (383-427); n_bootstrap is the number of resamples passed to sa_fit *)
Record sa_config := { sa_control : string; sa_anticipation : Z; sa_alpha : R; sa_action : string }.

(* one entry of event_study_effects *)
Record sa_eff := { se_eff : fl; se_se : fl; se_t : fl; se_p : fl; se_ci : fl * fl; se_n : nat }.

(* x / se if se > 0 else 0.0 (591, 651, 880) *)
Definition sa_t (eff se : fl) : fl := if fgt se (Fin 0) then fdiv eff se else Fin 0.
(* Python max(x, 0): 0 only when 0 > x, so NaN stays *)
Definition max0 (x : fl) : fl := if flt x (Fin 0) then Fin 0 else x.
(* w @ V[ix] @ w *)
Definition quad (V : nat -> nat -> fl) (l : list (nat * R)) : fl :=
  fsum (map (fun a => fsum (map (fun b => fmul (Fin (snd a)) (fmul (V (fst a) (fst b)) (Fin (snd b)))) l)) l).

Definition sa_key : Type := (coh * Z)%type.
Definition key_eqb (a b : sa_key) : bool := c_eqb (fst a) (fst b) && Z.eqb (snd a) (snd b).
Fixpoint key_index (k : sa_key) (l : list sa_key) : option nat :=
  match l with [] => None | x :: r => if key_eqb x k then Some O else option_map S (key_index k r) end.

Record sa_reg := { sr_keys : list sa_key; sr_coef : list fl; sr_vcov : nat -> nat -> fl }.
(* cohort_effects[(g, e)], a key of coef_index_map *)
Definition sr_at (r : sa_reg) (k : sa_key) : option nat := key_index k (sr_keys r).
Definition sr_eff (r : sa_reg) (k : sa_key) : fl := match sr_at r k with Some j => nth j (sr_coef r) NaN | None => NaN end.
Definition sr_idx (r : sa_reg) (k : sa_key) : nat := match sr_at r k with Some j => j | None => O end.
Definition sr_has (r : sa_reg) (k : sa_key) : bool := match sr_at r k with Some _ => true | None => false end.

Section Sun.
Context {I : Type}.
Variable qr : list I -> list (I -> R) -> list nat.
Variable lstsq : list I -> list (I -> R) -> (I -> R) -> list R.
Variable inv : list I -> list (I -> R) -> option (nat -> nat -> R).
Variable pinv : list I -> list (I -> R) -> nat -> nat -> R.
Variable sf : option Z -> fl -> fl.
Variable ppf : option Z -> R -> R.
Variables (u t : I -> Z) (g : I -> coh) (y : I -> R) (covs : list (I -> R)) (cluster : option (I -> Z)).

(* 491-492: inf > 0 is kept *)
Definition sa_groups (rows : list I) : list coh := cs_groups rows g.
(* unit_info, 498-502: "first" of a boolean column is the first row's *)
Definition sa_units (rows : list I) : list Z := zsort (nodup Z.eq_dec (map u rows)).
Definition sa_never (rows : list I) (a : Z) : bool :=
  match filter (fun i => Z.eqb (u i) a) rows with i :: _ => c_never (g i) | [] => false end.
Definition sa_cohort (rows : list I) (a : Z) : coh := unit_cohort rows u g a.
(* 504-505 *)
Definition sa_n_treated (rows : list I) : nat := length (filter (fun a => c_gt (sa_cohort rows a) 0) (sa_units rows)).
Definition sa_n_control (rows : list I) : nat := length (filter (sa_never rows) (sa_units rows)).

(* _rel_time (518-522): None = nan or -inf, which equals no integer *)
Definition sa_rel (i : I) : option Z :=
  match g i with CFin k => if Z.ltb 0 k then Some (t i - k)%Z else None | _ => None end.
(* finite relative times of the cohorts, 525-535 *)
Definition sa_rel_times (rows : list I) : list Z :=
  zsort (nodup Z.eq_dec (flat_map (fun i => match sa_rel i with Some e => [e] | None => [] end) rows)).
(* 538-549.  When the inf cohort is present the smallest relative time is -inf and the bound is -20 *)
Definition sa_has_inf (rows : list I) : bool := existsb (fun i => c_eqb (g i) CInf) rows.
Definition sa_min_rel (rows : list I) : Z :=
  if sa_has_inf rows then (-20)%Z else Z.max (hd 0%Z (sa_rel_times rows)) (-20).
Definition sa_max_rel (rows : list I) : Z := Z.min (last (sa_rel_times rows) 0%Z) 20.
Definition sa_ref (cfg : sa_config) : Z := (-1 - sa_anticipation cfg)%Z.
Definition sa_rel_periods (cfg : sa_config) (rows : list I) : list Z :=
  filter (fun e => Z.leb (sa_min_rel rows) e && Z.leb e (sa_max_rel rows) && negb (Z.eqb e (sa_ref cfg))) (sa_rel_times rows).

(* 554-560 *)
Definition sa_sample (cfg : sa_config) (rows : list I) : list I :=
  if String.eqb (sa_control cfg) "never_treated" then filter (fun i => c_never (g i) || c_gt (g i) 0) rows else rows.

(* (df[first_treat] == g) & (df["_rel_time"] == e), 723-728 *)
Definition sa_in (k : sa_key) (i : I) : bool :=
  c_eqb (g i) (fst k) && match sa_rel i with Some e => Z.eqb e (snd k) | None => false end.
Definition sa_dummy (k : sa_key) (i : I) : R := ind (sa_in k i).
(* the double loop 719-734 *)
Definition sa_keys (groups : list coh) (rels : list Z) (rows : list I) : list sa_key :=
  filter (fun k => existsb (sa_in k) rows) (flat_map (fun gr => map (fun e => (gr, e)) rels) groups).

(* _fit_saturated_regression 680-791 *)
Definition sa_cols (keys : list sa_key) (rows : list I) : list (I -> R) :=
  let W := within Z.eq_dec Z.eq_dec rows u t in
  map (fun k => W (sa_dummy k)) keys ++ map W covs.
Definition sa_saturated (cfg : sa_config) (groups : list coh) (rels : list Z) (rows : list I) : res sa_reg :=
  let keys := sa_keys groups rels rows in
  match keys with
  | [] => Err ValueError                                                          (* 742-746 *)
  | _ =>
    let W := within Z.eq_dec Z.eq_dec rows u t in
    let cl := match cluster with Some c => c | None => u end in                   (* 552 *)
    do reg <- linreg_fit Z.eq_dec qr lstsq inv pinv true (Some cl) (sa_action cfg) 0 rows (sa_cols keys rows) (W y);
    Ok {| sr_keys := keys; sr_coef := l_coef reg; sr_vcov := l_vcov reg |}
  end.

(* cohort_sizes.get(g, 0), 836-837 *)
Definition sa_size (rows : list I) (gr : coh) : nat :=
  length (filter (fun a => c_gt (sa_cohort rows a) 0 && c_eqb (sa_cohort rows a) gr) (sa_units rows)).

(* cohorts observed at e and their normalised weights, 839-862; [] when skipped *)
Definition sa_weights (groups : list coh) (reg : sa_reg) (rows : list I) (e : Z) : list (coh * R) :=
  let at_e := filter (fun gr => sr_has reg (gr, e)) groups in
  let total := sumf (fun gr => INR (sa_size rows gr)) at_e in
  if Req_EM_T total 0 then [] else map (fun gr => (gr, INR (sa_size rows gr) / total)) at_e.

Definition sa_effect (alpha : R) (reg : sa_reg) (e : Z) (w : list (coh * R)) : sa_eff :=
  let eff := fsum (map (fun gw => fmul (Fin (snd gw)) (sr_eff reg (fst gw, e))) w) in
  let var := quad (sr_vcov reg) (map (fun gw => (sr_idx reg (fst gw, e), snd gw)) w) in
  let se := fsqrt (max0 var) in
  {| se_eff := eff; se_se := se; se_t := sa_t eff se; se_p := u_p_value sf (sa_t eff se) None;
     se_ci := u_ci ppf eff se alpha None; se_n := length w |}.

(* _compute_iw_effects 807-894 *)
Definition sa_iw (cfg : sa_config) (groups : list coh) (rels : list Z) (reg : sa_reg) (rows : list I)
  : list (Z * (list (coh * R) * sa_eff)) :=
  flat_map (fun e => match sa_weights groups reg rows e with
                     | [] => [] | w => [(e, (w, sa_effect (sa_alpha cfg) reg e w))] end) rels.

(* len(df[(df["_rel_time"] == e) & (df[first_treat] > 0)]), 931 *)
Definition sa_n_at (rows : list I) (e : Z) : nat :=
  length (filter (fun i => match sa_rel i with Some e' => Z.eqb e' e | None => false end) rows).

(* _compute_overall_att 896-964.  Every key (g, e) met at 948-955 is met once and is in coef_index_map. *)
Definition sa_post (es : list (Z * (list (coh * R) * sa_eff))) := filter (fun p => Z.leb 0 (fst p)) es.
Definition sa_pw (rows : list I) (es : list (Z * (list (coh * R) * sa_eff))) (e : Z) : R :=
  INR (Nat.max (sa_n_at rows e) 1) / sumf (fun p => INR (Nat.max (sa_n_at rows (fst p)) 1)) (sa_post es).
Definition sa_overall_weights (rows : list I) (es : list (Z * (list (coh * R) * sa_eff))) : list (sa_key * R) :=
  flat_map (fun p => map (fun gw => ((fst gw, fst p), sa_pw rows es (fst p) * snd gw)) (fst (snd p))) (sa_post es).
Definition sa_overall (rows : list I) (reg : sa_reg) (es : list (Z * (list (coh * R) * sa_eff))) : fl * fl :=
  match sa_post es with
  | [] => (Fin 0, Fin 0)
  | post =>
    let att := fsum (map (fun p => fmul (Fin (sa_pw rows es (fst p))) (se_eff (snd (snd p)))) post) in
    let ws := sa_overall_weights rows es in
    match ws with
    | [] => (att, fsqrt (fsum (map (fun p => fmul (Fin (sa_pw rows es (fst p) * sa_pw rows es (fst p)))
                                               (fmul (se_se (snd (snd p))) (se_se (snd (snd p))))) post)))
    | _ => (att, fsqrt (max0 (quad (sr_vcov reg) (map (fun kw => (sr_idx reg (fst kw), snd kw)) ws))))
    end
  end.

(* estimates of one sample: saturated regression on [reg_rows], weights from [rows] *)
Definition sa_estimate (cfg : sa_config) (groups : list coh) (rels : list Z) (reg_rows rows : list I)
  : res (sa_reg * list (Z * (list (coh * R) * sa_eff)) * (fl * fl)) :=
  do reg <- sa_saturated cfg groups rels reg_rows;
  let es := sa_iw cfg groups rels reg rows in
  Ok (reg, es, sa_overall rows reg es).

Record sa_result := {
  sa_es : list (Z * sa_eff); sa_cweights : list (Z * list (coh * R));
  sa_att : fl; sa_se : fl; sa_tt : fl; sa_p : fl; sa_ci : fl * fl;
  sa_rgroups : list coh; sa_rn_obs : nat; sa_rn_treated : nat; sa_rn_control : nat;
  sa_coh_effects : list (sa_key * (fl * fl * R)) }.

(* cohort_weights.get(e, {}).get(g, 0.0), 662 *)
Definition sa_weight_of (es : list (Z * (list (coh * R) * sa_eff))) (k : sa_key) : R :=
  match filter (fun p => Z.eqb (fst p) (snd k)) es with
  | p :: _ => match filter (fun gw => c_eqb (fst gw) (fst k)) (fst (snd p)) with gw :: _ => snd gw | [] => 0 end
  | [] => 0 end.

(* fit 429-678 with n_bootstrap = 0 *)
Definition sa_fit (cfg : sa_config) (rows : list I) : res sa_result :=
  if Nat.eqb (sa_n_control rows) 0 then Err ValueError                            (* 507-510 *)
  else match sa_groups rows with
  | [] => Err ValueError                                                          (* 512-515 *)
  | groups =>
    do est <- sa_estimate cfg groups (sa_rel_periods cfg rows) (sa_sample cfg rows) rows;
    let '(reg, es, (att, se)) := est in
    Ok {| sa_es := map (fun p => (fst p, snd (snd p))) es; sa_cweights := map (fun p => (fst p, fst (snd p))) es;
          sa_att := att; sa_se := se; sa_tt := sa_t att se; sa_p := u_p_value sf (sa_t att se) None;
          sa_ci := u_ci ppf att se (sa_alpha cfg) None;
          sa_rgroups := groups; sa_rn_obs := length rows;
          sa_rn_treated := sa_n_treated rows; sa_rn_control := sa_n_control rows;
          sa_coh_effects := map (fun k => (k, (sr_eff reg k, fsqrt (sr_vcov reg (sr_idx reg k) (sr_idx reg k)), sa_weight_of es k))) (sr_keys reg) |}
  end.
End Sun.

(* ---- pairs bootstrap, 966-1133 ---- *)
(* df.index[df[unit] == u].values concatenated over the drawn units (1008-1010), then df.iloc[...]: index
   LABELS used as positions.  None = IndexError.  Labels are non-negative integers here. *)
Fixpoint opt_all {A} (l : list (option A)) : option (list A) :=
  match l with
  | [] => Some []
  | None :: _ => None
  | Some a :: r => match opt_all r with Some r' => Some (a :: r') | None => None end
  end.
Definition boot_labels {I} (label : I -> nat) (u : I -> Z) (rows : list I) (drawn : list Z) : list nat :=
  flat_map (fun a => map label (filter (fun i => Z.eqb (u i) a) rows)) drawn.
Definition boot_taken {I} (label : I -> nat) (u : I -> Z) (rows : list I) (drawn : list Z) : option (list I) :=
  opt_all (map (nth_error rows) (boot_labels label u rows drawn)).
(* new_unit_ids, 1015-1022 *)
Definition boot_ids {I} (u : I -> Z) (rows : list I) (drawn : list Z) : list Z :=
  flat_map (fun ka => map (fun _ => Z.of_nat (fst ka)) (filter (fun i => Z.eqb (u i) (snd ka)) rows))
           (combine (seq 0 (length drawn)) drawn).
Definition boot_sample {I} (label : I -> nat) (u : I -> Z) (rows : list I) (drawn : list Z) : option (list (Z * I)) :=
  match boot_taken label u rows drawn with
  | Some l => Some (combine (boot_ids u rows drawn) l)
  | None => None
  end.

(* the value stored for a replicate (1064-1098): the original estimate when the replicate fails or lacks e *)
Definition sa_replicate (orig : Z -> fl) (orig_att : fl) (r : res (list (Z * fl) * fl)) : (Z -> fl) * fl :=
  match r with
  | Ok (es, att) => (fun e => match filter (fun p => Z.eqb (fst p) e) es with p :: _ => snd p | [] => orig e end, att)
  | Err _ => (orig, orig_att)
  end.
(* np.std(ddof=1), _compute_percentile_ci (1135-1143), _compute_bootstrap_pvalue (1145-1159).
   np.std and np.percentile of an array with a NaN are NaN; a comparison with NaN is False. *)
Definition sa_boot_p (orig : fl) (d : list fl) : R :=
  let one := if fge orig (Fin 0) then share (fun x => fle x (Fin 0)) d else share (fun x => fge x (Fin 0)) d in
  Rmax (Rmin (2 * one) 1) (1 / (len d + 1)).
Definition sa_boot_stats (alpha : R) (orig : fl) (d : list fl) : boot_stats :=
  match all_fin d with
  | Some v => {| bs_se := fsqrt (fdiv (Fin (sumsq_dev v)) (Fin (len v - 1)));
                 bs_ci := (Fin (percentile v (alpha / 2)), Fin (percentile v (1 - alpha / 2)));
                 bs_p := Fin (sa_boot_p orig d) |}
  | None => {| bs_se := NaN; bs_ci := (NaN, NaN); bs_p := Fin (sa_boot_p orig d) |}
  end.

Section SunBoot.
Context {I : Type}.
(* regression oracles on the original rows and on resampled rows (new unit id, row) *)
Variable qr : list I -> list (I -> R) -> list nat.
Variable lstsq : list I -> list (I -> R) -> (I -> R) -> list R.
Variable inv : list I -> list (I -> R) -> option (nat -> nat -> R).
Variable pinv : list I -> list (I -> R) -> nat -> nat -> R.
Variable qrb : list (Z * I) -> list (Z * I -> R) -> list nat.
Variable lstsqb : list (Z * I) -> list (Z * I -> R) -> (Z * I -> R) -> list R.
Variable invb : list (Z * I) -> list (Z * I -> R) -> option (nat -> nat -> R).
Variable pinvb : list (Z * I) -> list (Z * I -> R) -> nat -> nat -> R.
Variable sf : option Z -> fl -> fl.
Variable ppf : option Z -> R -> R.
Variables (label : I -> nat) (u t : I -> Z) (g : I -> coh) (y : I -> R) (covs : list (I -> R)) (cluster : option (I -> Z)).
Definition lift {A} (f : I -> A) (p : Z * I) : A := f (snd p).

(* one iteration, 1002-1098.  boot_indices and iloc are outside the try (IndexError escapes); ValueError and
   LinAlgError give the original estimates, any other exception escapes *)
Definition sa_boot_iter (cfg : sa_config) (groups : list coh) (rels : list Z) (df_reg : list I)
    (orig : Z -> fl) (orig_att : fl) (drawn : list Z) : res ((Z -> fl) * fl) :=
  match boot_sample label u df_reg drawn with
  | None => Err IndexError
  | Some b =>
    match sa_estimate qrb lstsqb invb pinvb sf ppf fst (lift t) (lift g) (lift y) (map lift covs) (option_map lift cluster) cfg groups rels b b with
    | Ok (_, es, (att, _)) => Ok (sa_replicate orig orig_att (Ok (map (fun p => (fst p, se_eff (snd (snd p)))) es, att)))
    | Err ValueError => Ok (sa_replicate orig orig_att (Err ValueError))
    | Err LinAlgError => Ok (sa_replicate orig orig_att (Err LinAlgError))
    | Err x => Err x
    end
  end.
Fixpoint sa_boot_iters (f : list Z -> res ((Z -> fl) * fl)) (draws : list (list Z)) : res (list ((Z -> fl) * fl)) :=
  match draws with
  | [] => Ok []
  | d :: r => do x <- f d; do l <- sa_boot_iters f r; Ok (x :: l)
  end.

(* results after the bootstrap, 607-652; [draws] = the unit draws, n_bootstrap = length draws > 0 *)
Record sa_boot := { sb_att : fl; sb_overall : boot_stats; sb_t : fl; sb_es : list (Z * (fl * fl * boot_stats)); sb_dist : list fl }.
Definition sa_fit_boot (cfg : sa_config) (rows : list I) (draws : list (list Z)) : res sa_boot :=
  do r <- sa_fit qr lstsq inv pinv sf ppf u t g y covs cluster cfg rows;
  let orig := fun e => match filter (fun p => Z.eqb (fst p) e) (sa_es r) with p :: _ => se_eff (snd p) | [] => NaN end in
  do reps <- sa_boot_iters (sa_boot_iter cfg (sa_rgroups r) (sa_rel_periods t g cfg rows) (sa_sample g cfg rows) orig (sa_att r)) draws;
  let ov := sa_boot_stats (sa_alpha cfg) (sa_att r) (map snd reps) in
  Ok {| sb_att := sa_att r; sb_overall := ov; sb_t := sa_t (sa_att r) (bs_se ov);
        sb_es := map (fun p => let e := fst p in let eff := se_eff (snd p) in
                   let s := sa_boot_stats (sa_alpha cfg) eff (map (fun x => fst x e) reps) in
                   (e, (eff, sa_t eff (bs_se s), s))) (sa_es r);
        sb_dist := map snd reps |}.
End SunBoot.

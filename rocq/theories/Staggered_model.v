(* Model of CallawaySantAnna: staggered.py:371-1080, staggered_aggregation.py:40-492,
   staggered_bootstrap.py:255-753.
   Simplifications: unit ids, periods and finite cohorts are integers; outcomes and covariates are
   reals or missing (None), so infinite outcomes are outside the model; column-existence checks
   (staggered.py:619-627) are the typing of the arguments; warnings are not modelled;
   scipy.optimize.minimize inside _logistic_regression (46-105) is an oracle for the fitted
   probabilities, None standing for the caught exceptions. *)
From Verif Require Import Prelude Flt Stats_model Linalg_model Did_model Multi_model Bacon_model.
From Coq Require Import Arith ZArith String List.
Import ListNotations.
Open Scope R_scope.

(* constructor arguments, staggered.py:295-369 (validated there; see Estim_model for that part) *)
Record cs_config := {
  cs_control : string;          (* "never_treated" | "not_yet_treated" *)
  cs_anticipation : Z;
  cs_method : string;           (* "dr" | "ipw" | "reg" *)
  cs_alpha : R;
  cs_cluster : option string;   (* stored (359) and never read again *)
  cs_action : string;
  cs_basemode : string          (* "varying" | "universal" *)
}.
Definition cs_universal (cfg : cs_config) : bool := String.eqb (cs_basemode cfg) "universal".

(* first_treat > s *)
Definition c_gt (c : coh) (s : Z) : bool := match c with CFin k => Z.ltb s k | CInf => true | CNaN => false end.
Definition c_eqb (a b : coh) : bool := if coh_eq_dec a b then true else false.
(* t < g - anticipation, for a group g (finite or inf) *)
Definition before (a : Z) (g : coh) (s : Z) : bool :=
  match g with CFin k => Z.ltb s (k - a) | CInf => true | CNaN => false end.

(* base period value, staggered.py:464-474; None = inf - 1 - anticipation, which is no period *)
Definition cs_base (cfg : cs_config) (g : coh) (s : Z) : option Z :=
  let b := match g with CFin k => Some (k - 1 - cs_anticipation cfg)%Z | _ => None end in
  if cs_universal cfg then b
  else if before (cs_anticipation cfg) g s then Some (s - 1)%Z else b.

Definition oR (v : option R) : R := match v with Some r => r | None => 0 end.
Definition isS {A} (v : option A) : bool := match v with Some _ => true | None => false end.

(* the estimate, its standard error and the two halves of the influence function *)
Record cs_est := { ce_att : fl; ce_se : fl; ce_tinf : Z -> fl; ce_cinf : Z -> fl }.

(* np.var(., ddof=1) if n > 1 else 0.0 *)
Definition var1 (l : list R) : R := if Nat.ltb 1 (length l) then variance 1 l else 0.

(* np.clip(p, 0.01, 0.99) *)
Definition clip_ps (p : R) : R := Rmin (Rmax p (1/100)) (99/100).

(* all coefficients finite?  solve_ols returns Fin or NaN entries only *)
Fixpoint all_fin (l : list fl) : option (list R) :=
  match l with
  | [] => Some []
  | Fin r :: l' => match all_fin l' with Some b => Some (r :: b) | None => None end
  | _ :: _ => None
  end.

Definition unit_eqd (a b : unit) : {a = b} + {a <> b} := left (match a, b with tt, tt => eq_refl end).

Section Methods.
Variable qr : list Z -> list (Z -> R) -> list nat.
Variable lstsq : list Z -> list (Z -> R) -> (Z -> R) -> list R.
Variable inv : list Z -> list (Z -> R) -> option (nat -> nat -> R).
Variable logit : list Z -> list Z -> list (Z -> R) -> option (Z -> R).

(* the branches without covariates: reg 882-892, dr 1068-1078 *)
Definition est_means (T C : list Z) (dy : Z -> R) : cs_est :=
  let nt := len T in let nc := len C in
  let mt := meanf dy T in let mc := meanf dy C in
  {| ce_att := Fin (mt - mc);
     ce_se := fsqrt (Fin (var1 (map dy T) / nt + var1 (map dy C) / nc));
     ce_tinf := fun a => Fin ((dy a - mt) / nt);
     ce_cinf := fun a => Fin (- ((dy a - mc) / nc)) |}.
(* ipw without covariates, 968-983: another standard error *)
Definition est_ipw_means (T C : list Z) (dy : Z -> R) : cs_est :=
  let nt := len T in let nc := len C in
  let p := nt / (nt + nc) in
  {| ce_att := Fin (meanf dy T - meanf dy C);
     ce_se := if Rlt_dec 0 p then fsqrt (Fin (var1 (map dy T) / nt + var1 (map dy C) * (1 - p) / (nc * p))) else Fin 0;
     ce_tinf := fun a => Fin ((dy a - meanf dy T) / nt);
     ce_cinf := fun a => Fin (- ((dy a - meanf dy C) / nc)) |}.

(* _outcome_regression with covariates, 851-880; [cols] is the intercept followed by the covariates.
   A NaN coefficient makes X @ beta NaN in every row. *)
Definition est_reg (action : string) (T C : list Z) (dy : Z -> R) (cols : list (Z -> R)) : res cs_est :=
  let nt := len T in let nc := len C in
  do o <- solve_ols (K:=unit) unit_eqd qr lstsq inv C cols dy None false action;
  let vc := var1 (map (o_resid o) C) / nc in
  match all_fin (o_coef o) with
  | Some b =>
      let r := fun a => dy a - lc cols b a in
      Ok {| ce_att := Fin (meanf r T);
            ce_se := fsqrt (Fin (var1 (map r T) / nt + vc));
            ce_tinf := fun a => Fin ((r a - meanf r T) / nt);
            ce_cinf := fun a => Fin (- o_resid o a / nc) |}
  | None =>
      Ok {| ce_att := NaN;
            ce_se := if Nat.ltb 1 (length T) then NaN else fsqrt (Fin (0 / nt + vc));
            ce_tinf := fun _ => NaN;
            ce_cinf := fun a => Fin (- o_resid o a / nc) |}
  end.

(* odds of the clipped propensity score, with the fallback of 927-936 / 1038-1042 *)
Definition odds (T C : list Z) (xs : list (Z -> R)) (a : Z) : R :=
  let p := clip_ps (match logit T C xs with Some f => f a | None => len T / (len T + len C) end) in
  p / (1 - p).

(* _ipw_estimation with covariates, 918-967 *)
Definition est_ipw (T C : list Z) (dy : Z -> R) (xs : list (Z -> R)) : cs_est :=
  let nt := len T in
  let tot := sumf (odds T C xs) C in
  let w := fun a => odds T C xs a / tot in
  let mc := sumf (fun a => w a * dy a) C in
  {| ce_att := Fin (meanf dy T - mc);
     ce_se := fsqrt (Fin (var1 (map dy T) / nt + sumf (fun a => w a * ((dy a - mc) * (dy a - mc))) C));
     ce_tinf := fun a => Fin ((dy a - meanf dy T) / nt);
     ce_cinf := fun a => Fin (- w a * (dy a - mc)) |}.

(* _doubly_robust with covariates, 1013-1066.  NaN coefficients: var_psi > 0 is False, so se = 0.0 *)
Definition est_dr (action : string) (T C : list Z) (dy : Z -> R) (xs : list (Z -> R)) : res cs_est :=
  let nt := len T in
  let cols := (fun _ => 1) :: xs in
  do o <- solve_ols (K:=unit) unit_eqd qr lstsq inv C cols dy None false action;
  match all_fin (o_coef o) with
  | Some b =>
      let m := lc cols b in
      let w := odds T C xs in
      let att := meanf (fun a => dy a - m a) T + sumf (fun a => w a * (m a - dy a)) C / nt in
      let pt := fun a => (dy a - m a - att) / nt in
      let pc := fun a => w a * (m a - dy a) / nt in
      let v := sumf (fun a => pt a * pt a) T + sumf (fun a => pc a * pc a) C in
      Ok {| ce_att := Fin att;
            ce_se := if Rlt_dec 0 v then fsqrt (Fin v) else Fin 0;
            ce_tinf := fun a => Fin (pt a); ce_cinf := fun a => Fin (pc a) |}
  | None => Ok {| ce_att := NaN; ce_se := Fin 0; ce_tinf := fun _ => NaN; ce_cinf := fun _ => NaN |}
  end.

(* dispatch, staggered.py:544-557; [xs] = Some covariate columns unless absent or missing somewhere *)
Definition estimate (cfg : cs_config) (T C : list Z) (dy : Z -> R) (xs : option (list (Z -> R))) : res cs_est :=
  if String.eqb (cs_method cfg) "reg" then
    match xs with Some x => est_reg (cs_action cfg) T C dy ((fun _ => 1) :: x) | None => Ok (est_means T C dy) end
  else if String.eqb (cs_method cfg) "ipw" then
    match xs with Some x => Ok (est_ipw T C dy x) | None => Ok (est_ipw_means T C dy) end
  else
    match xs with Some x => est_dr (cs_action cfg) T C dy x | None => Ok (est_means T C dy) end.
End Methods.

(* one entry of group_time_effects together with its influence_func_info *)
Record gte := {
  ge_g : coh; ge_t : Z; ge_base : Z; ge_eff : fl; ge_se : fl;
  ge_T : list Z; ge_C : list Z; ge_tinf : Z -> fl; ge_cinf : Z -> fl }.
Definition ge_n (e : gte) : R := len (ge_T e).        (* n_treated *)

(* a reported effect; the event time is None for t - inf *)
Record cs_eff := { ef_eff : fl; ef_se : fl; ef_t : fl; ef_p : fl; ef_ci : fl * fl; ef_n : nat }.

Section Inf.
Variable sf : option Z -> fl -> fl.
Variable ppf : option Z -> R -> R.
(* att / se if np.isfinite(se) and se > 0 else np.nan *)
Definition cs_t (eff se : fl) : fl := match se with Fin s => if Rlt_dec 0 s then fdiv eff se else NaN | _ => NaN end.
Definition cs_report (alpha : R) (eff se : fl) (n : nat) : cs_eff :=
  {| ef_eff := eff; ef_se := se; ef_t := cs_t eff se; ef_p := u_p_value sf (cs_t eff se) None;
     ef_ci := u_ci ppf eff se alpha None; ef_n := n |}.
End Inf.

(* ---- aggregation (staggered_aggregation.py) ---- *)
Definition weighted (l : list (gte * R)) : fl := fsum (map (fun ew => fmul (Fin (snd ew)) (ge_eff (fst ew))) l).
Definition agg_units (l : list (gte * R)) : list Z :=
  zsort (nodup Z.eq_dec (flat_map (fun ew => ge_T (fst ew) ++ ge_C (fst ew)) l)).
Definition psi (l : list (gte * R)) (a : Z) : fl :=
  fsum (flat_map (fun ew =>
    (if zmem a (ge_T (fst ew)) then [fmul (Fin (snd ew)) (ge_tinf (fst ew) a)] else [])
    ++ (if zmem a (ge_C (fst ew)) then [fmul (Fin (snd ew)) (ge_cinf (fst ew) a)] else [])) l).
(* _compute_aggregated_se 108-166 *)
Definition agg_se (l : list (gte * R)) : fl :=
  fsqrt (fsum (map (fun a => fmul (psi l a) (psi l a)) (agg_units l))).

(* weights n_treated / sum *)
Definition by_size (l : list gte) : list (gte * R) := map (fun e => (e, ge_n e / sumf ge_n l)) l.
(* equal weights *)
Definition equally (l : list gte) : list (gte * R) := map (fun e => (e, 1 / len l)) l.

(* t >= g - anticipation *)
Definition ge_post (a : Z) (e : gte) : bool := negb (before a (ge_g e) (ge_t e)).

Section Wif.
Variable size : coh -> nat.        (* df[df['first_treat'] == g][unit].nunique() *)
Variable cohort : Z -> coh.        (* precomputed unit cohorts *)

(* _compute_aggregated_se_with_wif 168-336: the weight influence function of unit a *)
Definition wif_pg (l : list (gte * R)) (e : gte) : R := INR (size (ge_g e)) / len (agg_units l).
Definition wif_sum (l : list (gte * R)) : R := sumf (fun ew => wif_pg l (fst ew)) l.
Definition wif_ind (a : Z) (e : gte) : R := ind (c_eqb (cohort a) (ge_g e)).
Definition wif_contrib (l : list (gte * R)) (effs : gte -> R) (a : Z) : R :=
  let s := wif_sum l in
  let isum := sumf (fun ew => wif_ind a (fst ew) - wif_pg l (fst ew)) l in
  sumf (fun ew => ((wif_ind a (fst ew) - wif_pg l (fst ew)) / s - isum * wif_pg l (fst ew) / (s * s)) * effs (fst ew)) l.
Definition eff_fin (e : gte) : bool := match ge_eff e with Fin _ => true | _ => false end.
Definition agg_se_wif (l : list (gte * R)) : fl :=
  if Req_EM_T (wif_sum l) 0 then Fin 0                                         (* 243-244 *)
  else if forallb (fun ew => eff_fin (fst ew)) l then
    let p := fun a => fadd (psi l a) (Fin (wif_contrib l (fun e => toR (ge_eff e)) a / len (agg_units l))) in
    fsqrt (fsum (map (fun a => fmul (p a) (p a)) (agg_units l)))
  else NaN.                                                                    (* 308-320 *)

(* _aggregate_simple 40-106 *)
Definition agg_simple (a : Z) (effects : list gte) : fl * fl :=
  match filter (ge_post a) effects with
  | [] => (NaN, NaN)
  | l => (weighted (by_size l), agg_se_wif (by_size l))
  end.
End Wif.

(* e = t - g; None = -inf *)
Definition rel_time (e : gte) : option Z := match ge_g e with CFin k => Some (ge_t e - k)%Z | _ => None end.
Definition oz_eqb (a b : option Z) : bool :=
  match a, b with Some x, Some y => Z.eqb x y | None, None => true | _, _ => false end.
Definition is_some {A} (o : option A) : bool := match o with Some _ => true | None => false end.
(* sorted keys: -inf first *)
Definition rel_keys (l : list gte) : list (option Z) :=
  (if existsb (fun e => negb (is_some (rel_time e))) l then [None] else [])
  ++ map Some (zsort (nodup Z.eq_dec (flat_map (fun e => match rel_time e with Some z => [z] | None => [] end) l))).
(* balance_e, 371-392 *)
Definition balanced_effects (bal : option Z) (effects : list gte) : list gte :=
  match bal with
  | None => effects
  | Some b =>
      let at_e := map ge_g (filter (fun e => oz_eqb (rel_time e) (Some b)) effects) in
      filter (fun e => existsb (c_eqb (ge_g e)) at_e) effects
  end.
Definition cells_at (l : list gte) (e : option Z) : list gte := filter (fun x => oz_eqb (rel_time x) e) l.

Section Agg.
Variable sf : option Z -> fl -> fl.
Variable ppf : option Z -> R -> R.

Definition es_effect (alpha : R) (l : list gte) (e : option Z) : cs_eff :=
  let cs := by_size (cells_at l e) in
  cs_report sf ppf alpha (weighted cs) (agg_se cs) (length cs).
(* the injected reference period, 419-434 *)
Definition es_reference : cs_eff :=
  {| ef_eff := Fin 0; ef_se := NaN; ef_t := NaN; ef_p := NaN; ef_ci := (NaN, NaN); ef_n := 0 |}.
(* _aggregate_event_study 338-436 *)
Definition agg_event_study (cfg : cs_config) (bal : option Z) (effects : list gte) : list (option Z * cs_eff) :=
  let l := balanced_effects bal effects in
  let es := map (fun e => (e, es_effect (cs_alpha cfg) l e)) (rel_keys l) in
  let ref := Some (-1 - cs_anticipation cfg)%Z in
  if cs_universal cfg && nonempty es && negb (existsb (fun p => oz_eqb (fst p) ref) es)
  then es ++ [(ref, es_reference)] else es.

(* _aggregate_by_group 438-492 *)
Definition group_cells (a : Z) (effects : list gte) (g : coh) : list gte :=
  filter (fun e => c_eqb (ge_g e) g && ge_post a e) effects.
Definition agg_by_group (cfg : cs_config) (groups : list coh) (effects : list gte) : list (coh * cs_eff) :=
  flat_map (fun g =>
    match group_cells (cs_anticipation cfg) effects g with
    | [] => []
    | cells => let l := equally cells in
               [(g, cs_report sf ppf (cs_alpha cfg) (weighted l) (agg_se l) (length l))]
    end) groups.
End Agg.

(* ---- multiplier bootstrap (staggered_bootstrap.py) ---- *)
(* original_atts[j] + perturbations, 388-403; [w] = one draw of the unit weights *)
Definition boot_gt (w : Z -> R) (e : gte) : fl :=
  fadd (ge_eff e) (fadd (fsum (map (fun a => fmul (Fin (w a)) (ge_tinf e a)) (ge_T e)))
                        (fsum (map (fun a => fmul (Fin (w a)) (ge_cinf e a)) (ge_C e)))).
Definition boot_agg (w : Z -> R) (l : list (gte * R)) : fl :=
  fsum (map (fun ew => fmul (Fin (snd ew)) (boot_gt w (fst ew))) l).

Record boot_stats := { bs_se : fl; bs_ci : fl * fl; bs_p : fl }.
Definition fin_values (d : list fl) : list R := flat_map (fun x => match x with Fin r => [r] | _ => [] end) d.
(* _compute_bootstrap_pvalue 640-683 *)
Definition boot_pvalue (orig : fl) (d : list R) : R :=
  let one := if fge orig (Fin 0) then share (fun x => Rleb x 0) d else share (fun x => Rleb 0 x) d in
  Rmax (Rmin (2 * one) 1) (1 / (len d + 1)).
(* _compute_effect_bootstrap_stats 685-753 *)
Definition boot_effect_stats (alpha : R) (orig : fl) (d : list fl) : boot_stats :=
  let v := fin_values d in
  if Rlt_dec (len v) (len d * (1/2)) then {| bs_se := NaN; bs_ci := (NaN, NaN); bs_p := NaN |}
  else {| bs_se := fsqrt (fdiv (Fin (sumsq_dev v)) (Fin (len v - 1)));
          bs_ci := (Fin (percentile v (alpha / 2)), Fin (percentile v (1 - alpha / 2)));
          bs_p := Fin (boot_pvalue orig v) |}.

(* _run_multiplier_bootstrap 255-533; [ws] = the weight draws *)
Record cs_boot := {
  cb_gt : list (coh * Z * boot_stats);
  cb_overall : boot_stats; cb_dist : list fl;
  cb_es : list (option Z * boot_stats);
  cb_group : list (coh * boot_stats) }.
Definition nan_stats : boot_stats := {| bs_se := NaN; bs_ci := (NaN, NaN); bs_p := NaN |}.
(* _prepare_event_study_aggregation 535-591 and _prepare_group_aggregation 593-628; positions in
   gt_pairs are replaced by the cells at those positions *)
Definition prepare_es (bal : option Z) (effects : list gte) : list (option Z * list (gte * R)) :=
  let l := balanced_effects bal effects in map (fun e => (e, by_size (cells_at l e))) (rel_keys l).
Definition prepare_group (a : Z) (groups : list coh) (effects : list gte) : list (coh * list (gte * R)) :=
  flat_map (fun g => match group_cells a effects g with [] => [] | cells => [(g, equally cells)] end) groups.
Definition run_bootstrap (cfg : cs_config) (ws : list (Z -> R)) (groups : list coh) (es grp : bool)
    (bal : option Z) (effects : list gte) : cs_boot :=
  let stats := boot_effect_stats (cs_alpha cfg) in
  let post := filter (ge_post (cs_anticipation cfg)) effects in
  {| cb_gt := map (fun e => (ge_g e, ge_t e, stats (ge_eff e) (map (fun w => boot_gt w e) ws))) effects;
     cb_overall := match post with [] => nan_stats
                   | _ => stats (weighted (by_size post)) (map (fun w => boot_agg w (by_size post)) ws) end;
     cb_dist := match post with [] => map (fun _ => NaN) ws | _ => map (fun w => boot_agg w (by_size post)) ws end;
     cb_es := if es then map (fun p => (fst p, stats (weighted (snd p)) (map (fun w => boot_agg w (snd p)) ws))) (prepare_es bal effects) else [];
     cb_group := if grp then map (fun p => (fst p, stats (weighted (snd p)) (map (fun w => boot_agg w (snd p)) ws)))
                               (prepare_group (cs_anticipation cfg) groups effects) else [] |}.

(* ---- fit ---- *)
Record cs_result := {
  cr_effects : list gte; cr_reports : list cs_eff;
  cr_att : fl; cr_se : fl; cr_t : fl; cr_p : fl; cr_ci : fl * fl;
  cr_groups : list coh; cr_periods : list Z; cr_n_obs : nat; cr_n_treated : nat; cr_n_control : nat;
  cr_es : option (list (option Z * cs_eff)); cr_group : option (list (coh * cs_eff));
  cr_boot : option cs_boot }.

Section Fit.
Context {I : Type}.
Variable qr : list Z -> list (Z -> R) -> list nat.
Variable lstsq : list Z -> list (Z -> R) -> (Z -> R) -> list R.
Variable inv : list Z -> list (Z -> R) -> option (nat -> nat -> R).
Variable logit : list Z -> list Z -> list (Z -> R) -> option (Z -> R).
Variable sf : option Z -> fl -> fl.
Variable ppf : option Z -> R -> R.
Variables (rows : list I) (u t : I -> Z) (g : I -> coh) (y : I -> option R) (covs : list (I -> option R)).

Definition cs_units : list Z := zsort (nodup Z.eq_dec (map u rows)).
Definition cs_periods : list Z := zsort (nodup Z.eq_dec (map t rows)).
Definition cs_cohort (a : Z) : coh := unit_cohort rows u g a.
(* sorted([g for g in df[first_treat].unique() if g > 0]), 639: inf is kept *)
Definition cs_groups : list coh :=
  map CFin (timing_groups rows g) ++ (if existsb (fun i => c_eqb (g i) CInf) rows then [CInf] else []).
Definition cell_rows (a p : Z) : list I := filter (fun i => Z.eqb (u i) a && Z.eqb (t i) p) rows.
(* df.pivot raises on a duplicate (unit, time) *)
Definition cs_duplicates : bool := existsb (fun i => Nat.ltb 1 (length (cell_rows (u i) (t i)))) rows.
Definition cs_outcome (a p : Z) : option R := match cell_rows a p with i :: _ => y i | [] => None end.
Definition cs_cov (c : I -> option R) (a p : Z) : option R := match cell_rows a p with i :: _ => c i | [] => None end.

(* control mask, 494-501 *)
Definition is_control (cfg : cs_config) (gr : coh) (s : Z) (a : Z) : bool :=
  let c := cs_cohort a in
  if String.eqb (cs_control cfg) "never_treated" then c_never c
  else c_never c || (c_gt c s && negb (c_eqb c gr)).
Definition has_pair (b s a : Z) : bool := isS (cs_outcome a b) && isS (cs_outcome a s).
Definition change (b s a : Z) : R := oR (cs_outcome a s) - oR (cs_outcome a b).
Definition treated_units (gr : coh) (b s : Z) : list Z := filter (fun a => c_eqb (cs_cohort a) gr && has_pair b s a) cs_units.
Definition control_units (cfg : cs_config) (gr : coh) (b s : Z) : list Z :=
  filter (fun a => is_control cfg gr s a && has_pair b s a) cs_units.

(* covariates at the base period, 527-541: dropped when any is missing *)
Definition cov_columns (b : Z) (units : list Z) : option (list (Z -> R)) :=
  match covs with
  | [] => None
  | _ => if forallb (fun a => forallb (fun c => isS (cs_cov c a b)) covs) units
         then Some (map (fun c a => oR (cs_cov c a b)) covs) else None
  end.

(* _compute_att_gt_fast 442-570 *)
Definition att_gt (cfg : cs_config) (gr : coh) (s : Z) : res (option gte) :=
  match cs_base cfg gr s with
  | None => Ok None
  | Some b =>
    if negb (zmem b cs_periods) then Ok None
    else if negb (zmem s cs_periods) then Ok None
    else
      let T := treated_units gr b s in
      let C := control_units cfg gr b s in
      match T, C with
      | [], _ => Ok None
      | _, [] => Ok None
      | _, _ =>
        do e <- estimate qr lstsq inv logit cfg T C (change b s) (cov_columns b (T ++ C));
        Ok (Some {| ge_g := gr; ge_t := s; ge_base := b; ge_eff := ce_att e; ge_se := ce_se e;
                    ge_T := T; ge_C := C; ge_tinf := ce_tinf e; ge_cinf := ce_cinf e |})
      end
  end.

(* valid periods of a group, 676-686 *)
Definition valid_periods (cfg : cs_config) (gr : coh) : list Z :=
  if cs_universal cfg then
    filter (fun s => match gr with CFin k => negb (Z.eqb s (k - 1 - cs_anticipation cfg)) | _ => true end) cs_periods
  else
    filter (fun s => negb (before (cs_anticipation cfg) gr s)
                     || match cs_periods with p0 :: _ => Z.ltb p0 s | [] => false end) cs_periods.

Fixpoint collect {A B} (f : A -> res (option B)) (l : list A) : res (list B) :=
  match l with
  | [] => Ok []
  | a :: r => do o <- f a; do bs <- collect f r; Ok (match o with Some b => b :: bs | None => bs end)
  end.
Definition all_effects (cfg : cs_config) : res (list gte) :=
  collect (fun gs => att_gt cfg (fst gs) (snd gs))
          (flat_map (fun gr => map (fun s => (gr, s)) (valid_periods cfg gr)) cs_groups).

(* df[df['first_treat'] == g][unit].nunique() *)
Definition group_size (gr : coh) : nat := length (nodup Z.eq_dec (map u (filter (fun i => c_eqb (g i) gr) rows))).
Definition n_gt0 : nat := length (filter (fun a => c_gt (cs_cohort a) 0) cs_units).
(* "first" of the boolean column _never_treated is the flag of the unit's first row, 641-652 *)
Definition first_never (a : Z) : bool := match filter (fun i => Z.eqb (u i) a) rows with i :: _ => c_never (g i) | [] => false end.
Definition n_nev : nat := length (filter first_never cs_units).

(* fit 572-827; aggregate is "event_study" | "group" | "all" | anything else; [ws] = weight draws,
   [] when n_bootstrap = 0.  The bootstrap statistics are kept in cr_boot and overwrite the overall
   standard error, t, p and interval (734-747); the same overwriting of the per-effect entries
   (749-793) is not repeated in cr_reports/cr_es/cr_group. *)
Definition cs_fit (cfg : cs_config) (aggregate : option string) (bal : option Z) (ws : list (Z -> R)) : res cs_result :=
  if Nat.eqb n_nev 0 then Err ValueError
  else if cs_duplicates then Err ValueError
  else
    do effects <- all_effects cfg;
    match effects with
    | [] => Err ValueError
    | _ =>
      let es := match aggregate with Some s => String.eqb s "event_study" || String.eqb s "all" | None => false end in
      let grp := match aggregate with Some s => String.eqb s "group" || String.eqb s "all" | None => false end in
      let '(att, se) := agg_simple group_size cs_cohort (cs_anticipation cfg) effects in
      let tt := cs_t att se in
      let pp := match se with Fin s => if Rlt_dec 0 s then u_p_value sf tt None else NaN | _ => NaN end in
      let boot := match ws with [] => None | _ => Some (run_bootstrap cfg ws cs_groups es grp bal effects) end in
      Ok {| cr_effects := effects;
            cr_reports := map (fun e => cs_report sf ppf (cs_alpha cfg) (ge_eff e) (ge_se e) (length (ge_T e))) effects;
            cr_att := att;
            cr_se := match boot with Some b => bs_se (cb_overall b) | None => se end;
            cr_t := match boot with Some b => cs_t att (bs_se (cb_overall b)) | None => tt end;
            cr_p := match boot with Some b => bs_p (cb_overall b) | None => pp end;
            cr_ci := match boot with Some b => bs_ci (cb_overall b) | None => u_ci ppf att se (cs_alpha cfg) None end;
            cr_groups := cs_groups; cr_periods := cs_periods; cr_n_obs := length rows;
            cr_n_treated := n_gt0; cr_n_control := n_nev;
            cr_es := if es then Some (agg_event_study sf ppf cfg bal effects) else None;
            cr_group := if grp then Some (agg_by_group sf ppf cfg cs_groups effects) else None;
            cr_boot := boot |}
    end.
End Fit.

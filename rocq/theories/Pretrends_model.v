(* diff_diff/pretrends.py: power of pre-trend tests (Roth 2022).
   Modelled: PreTrendsPower.__init__, _get_violation_weights, _extract_pre_period_params, _compute_power,
   _compute_mdv, fit, power_at, power_curve, sensitivity_to_honest_did and PreTrendsPowerResults.power_at,
   is_informative, power_adequate.  Not modelled: plotting, formatting.
   scipy.stats.chi2/ncx2/norm, scipy.optimize.brentq and numpy's inv and pinv are oracles.
   An inverse of a matrix with a NaN or infinite entry is a matrix of NaNs (LAPACK raises only on an exact
   zero pivot). *)
From Verif Require Import Prelude Flt Multi_model Honest_model Results_model.
From Coq Require Import Arith ZArith String List.
Import ListNotations.
Open Scope R_scope.

Record pt_cfg := { pc_alpha : R; pc_target : R; pc_type : string; pc_weights : option (list R) }.

(* __init__, 436-462 *)
Definition pt_types : list string := ["linear"; "constant"; "last_period"; "custom"]%string.
Definition pt_init (alpha power : R) (ty : string) (w : option (list R)) : res pt_cfg :=
  if negb (Rltb 0 alpha && Rltb alpha 1) then Err ValueError
  else if negb (Rltb 0 power && Rltb power 1) then Err ValueError
  else if negb (existsb (String.eqb ty) pt_types) then Err ValueError
  else if String.eqb ty "custom" && (match w with None => true | Some _ => false end) then Err ValueError
  else Ok {| pc_alpha := alpha; pc_target := power; pc_type := ty; pc_weights := w |}.

(* np.linalg.norm; normalisation shared by 521-526 and 240-243 *)
Definition l2 (w : list R) : R := sqrt (sumf (fun x => x * x) w).
Definition normalise (w : list R) : list R :=
  let n := l2 w in if Rltb 0 n then map (fun x => x / n) w else w.
(* -arange(-n+1, 1) = [n-1, ..., 1, 0] *)
Definition linear_w (n : nat) : list R := map (fun i => INR (n - 1 - i)) (seq 0 n).
Definition last_w (n : nat) : list R := map (fun i => if Nat.eqb (S i) n then 1 else 0) (seq 0 n).

(* _get_violation_weights, 484-526.  set_params can leave "custom" without weights: len(None) is a TypeError.
   weights[-1] on an empty array is an IndexError. *)
Definition pt_raw (cfg : pt_cfg) (n : nat) : res (list R) :=
  if String.eqb (pc_type cfg) "custom" then
    match pc_weights cfg with
    | None => Err TypeError
    | Some w => if negb (Nat.eqb (length w) n) then Err ValueError else Ok w
    end
  else if String.eqb (pc_type cfg) "linear" then Ok (linear_w n)
  else if String.eqb (pc_type cfg) "constant" then Ok (repeat 1 n)
  else if String.eqb (pc_type cfg) "last_period" then (match n with O => Err IndexError | _ => Ok (last_w n) end)
  else Err ValueError.
Definition pt_weights (cfg : pt_cfg) (n : nat) : res (list R) := do w <- pt_raw cfg n ; Ok (normalise w).

(* ---- extraction, 528-711 ---- *)
(* keys of MultiPeriodDiDResults.coefficients (estimators.py:848-885); covariate and dummy names are taken
   never to look like an interaction *)
Inductive coef_key := KConst | KTreat | KPeriod (p : Z) | KInter (treatment : string) (p : Z) | KExtra (k : nat).
Definition key_eqb (a b : coef_key) : bool :=
  match a, b with
  | KConst, KConst | KTreat, KTreat => true
  | KPeriod p, KPeriod q => Z.eqb p q
  | KInter s p, KInter s' q => String.eqb s s' && Z.eqb p q
  | KExtra i, KExtra j => Nat.eqb i j
  | _, _ => false
  end.
(* a python dict: insertion keeps the first position and the last value *)
Fixpoint dict_set (d : list (coef_key * fl)) (k : coef_key) (v : fl) : list (coef_key * fl) :=
  match d with
  | [] => [(k, v)]
  | (k', v') :: r => if key_eqb k k' then (k', v) :: r else (k', v') :: dict_set r k v
  end.
Definition dict_of (l : list (coef_key * fl)) : list (coef_key * fl) :=
  fold_left (fun d kv => dict_set d (fst kv) (snd kv)) l [].
Definition dict_find (d : list (coef_key * fl)) (k : coef_key) : option fl :=
  option_map snd (find (fun kv => key_eqb k (fst kv)) d).
(* list(d.keys()).index(k) *)
Fixpoint key_index (d : list (coef_key * fl)) (k : coef_key) : nat :=
  match d with [] => 0%nat | (k', _) :: r => if key_eqb k k' then 0%nat else S (key_index r k) end.

Record pt_mp := {
  pm_pre : list Z; pm_coef : list (coef_key * fl); pm_eff : Z -> option (fl * fl); pm_avg_se : fl;
  pm_vcov : option (nat * (nat -> nat -> fl)) }.
Inductive pt_results := PMP (m : pt_mp) | PCS (es : option (list es_entry)) | PSA (es : list es_entry) | POther.

Record pre_params := { pp_eff : list fl; pp_ses : list fl; pp_vcov : nat -> nat -> fl; pp_n : nat }.

Definition inter (p : Z) : coef_key := KInter "treated" p.
Definition list_max_nat (l : list nat) : nat := fold_right Nat.max 0%nat l.

(* 556-650 *)
Definition pt_extract_mp (m : pt_mp) (pre_arg : option (list Z)) : res pre_params :=
  let all := match pre_arg with Some l => l | None => pm_pre m end in
  match all with
  | [] => Err ValueError
  | _ =>
    match pm_coef m with
    | _ :: _ =>
        let est := filter (fun p => match dict_find (pm_coef m) (inter p) with Some _ => true | None => false end) all in
        match est with
        | [] => Err ValueError
        | _ =>
            let effects := map (fun p => match dict_find (pm_coef m) (inter p) with Some v => v | None => NaN end) est in
            let ses := map (fun p => match pm_eff m p with Some e => snd e | None => pm_avg_se m end) est in
            let idxs := map (fun p => key_index (pm_coef m) (inter p)) est in
            let V := match pm_vcov m with
                     | Some (k, W) => if Nat.ltb (list_max_nat idxs) k
                                      then (fun i j => W (nth i idxs 0%nat) (nth j idxs 0%nat))
                                      else diag_sq ses
                     | None => diag_sq ses
                     end in
            Ok {| pp_eff := effects; pp_ses := ses; pp_vcov := V; pp_n := length est |}
        end
    | [] =>
        let est := filter (fun p => match pm_eff m p with Some e => fgt (snd e) (Fin 0) | None => false end) all in
        match est with
        | [] => Err ValueError
        | _ =>
            let ses := map (fun p => match pm_eff m p with Some e => snd e | None => NaN end) est in
            Ok {| pp_eff := map (fun p => match pm_eff m p with Some e => fst e | None => NaN end) est;
                  pp_ses := ses; pp_vcov := diag_sq ses; pp_n := length est |}
        end
    end
  end.

(* 652-706: CallawaySantAnna and SunAbraham event studies *)
Definition pt_extract_es (l : list es_entry) : res pre_params :=
  let kept := es_sort (filter (fun e => key_neg (ee_t e) && Nat.ltb 0 (ee_n e) && ffinite (ee_se e)) l) in
  match kept with
  | [] => Err ValueError
  | _ => Ok {| pp_eff := map ee_eff kept; pp_ses := map ee_se kept; pp_vcov := diag_sq (map ee_se kept);
               pp_n := length kept |}
  end.
Definition pt_extract (r : pt_results) (pre_arg : option (list Z)) : res pre_params :=
  match r with
  | PMP m => pt_extract_mp m pre_arg
  | PCS None => Err ValueError
  | PCS (Some l) => pt_extract_es l
  | PSA l => pt_extract_es l
  | POther => Err TypeError
  end.

(* ---- power ---- *)
Definition quad (n : nat) (B : nat -> nat -> R) (w : list R) : R :=
  sumf (fun j => sumf (fun i => nth i w 0 * B i j) (seq 0 n) * nth j w 0) (seq 0 n).
Definition all_fin (n : nat) (V : nat -> nat -> fl) : bool :=
  forallb (fun i => forallb (fun j => ffinite (V i j)) (seq 0 n)) (seq 0 n).
Definition flval (x : fl) : R := match x with Fin r => r | _ => 0 end.
(* np.max *)
Definition np_max (l : list fl) : fl :=
  match l with [] => NaN | x :: r => if existsb fisnan l then NaN else fold_left (fun a b => if fgt b a then b else a) r x end.

Record pt_result := {
  pr_power : R; pr_mdv : fl; pr_M : fl; pr_type : string; pr_alpha : R; pr_target : R; pr_n : nat;
  pr_stat : fl; pr_cv : R; pr_nc : fl; pr_eff : list fl; pr_ses : list fl; pr_vcov : nat -> nat -> fl }.

Section Power.
Variable chi2_ppf : R -> nat -> R.                 (* stats.chi2.ppf(q, df) *)
Variable ncx2_sf ncx2_cdf : R -> nat -> R -> R.    (* stats.ncx2.sf / cdf (x, df, nc) *)
Variable norm_ppf : R -> R.
Variable brentq : (R -> R) -> R -> R -> option R.  (* None: ValueError *)
Variable minv : nat -> (nat -> nat -> R) -> option (nat -> nat -> R).   (* None: LinAlgError *)
Variable mpinv : nat -> (nat -> nat -> R) -> nat -> nat -> R.

(* w @ inv(V) @ w with the pinv fallback (748-756, 830-836, 245-253) *)
Definition vquad (n : nat) (V : nat -> nat -> fl) (w : list R) : fl :=
  if all_fin n V then
    let A i j := flval (V i j) in
    Fin (quad n (match minv n A with Some B => B | None => mpinv n A end) w)
  else NaN.

(* _compute_power, 713-773: (power, noncentrality, test_stat, critical_value).  An infinite M is not modelled. *)
Definition pt_power (cfg : pt_cfg) (M : fl) (w : list R) (V : nat -> nat -> fl) : R * fl * fl * R :=
  let n := length w in
  let nc := match M with Fin m => vquad n V (map (Rmult m) w) | _ => NaN end in
  let cv := chi2_ppf (1 - pc_alpha cfg) n in
  let power := match nc with
               | Fin c => if Rltb 0 c then 1 - ncx2_cdf cv n c else pc_alpha cfg
               | _ => pc_alpha cfg
               end in
  (power, nc, fadd (Fin (INR n)) nc, cv).

(* 806-809 *)
Definition power_minus_target (cfg : pt_cfg) (cv : R) (n : nat) (nc : R) : R :=
  if Rleb nc 0 then pc_alpha cfg - pc_target cfg else ncx2_sf cv n nc - pc_target cfg.
(* 815-817; from 1 the bound reaches 1024 after ten doublings *)
Fixpoint grow (fuel : nat) (f : R -> R) (hi : R) : R :=
  match fuel with
  | O => hi
  | S k => if Rltb (f hi) 0 && Rltb hi 1000 then grow k f (2 * hi) else hi
  end.

(* _compute_mdv, 775-848 *)
Definition pt_mdv (cfg : pt_cfg) (w : list R) (V : nat -> nat -> fl) : fl :=
  let n := length w in
  let cv := chi2_ppf (1 - pc_alpha cfg) n in
  let f := power_minus_target cfg cv n in
  let hi := grow 11 f 1 in
  if Rleb 1000 hi then PInf
  else
    let target_nc := match brentq f 0 hi with
                     | Some r => r
                     | None => let s := norm_ppf (pc_target cfg) + sqrt (2 * cv) in 1/2 * (s * s)
                     end in
    match vquad n V w with
    | Fin q => if Rltb 0 q then fsqrt (Fin (target_nc / q)) else PInf
    | _ => PInf
    end.

(* fit, 850-910; the MDV is compared with np.isfinite, so NaN also selects max(ses) *)
Definition pt_fit (cfg : pt_cfg) (r : pt_results) (M : option R) (pre_arg : option (list Z)) : res pt_result :=
  do p <- pt_extract r pre_arg ;
  do w <- pt_weights cfg (pp_n p) ;
  let mdv := pt_mdv cfg w (pp_vcov p) in
  let M := match M with Some m => Fin m | None => if ffinite mdv then mdv else np_max (pp_ses p) end in
  let '(power, nc, stat, cv) := pt_power cfg M w (pp_vcov p) in
  Ok {| pr_power := power; pr_mdv := mdv; pr_M := M; pr_type := pc_type cfg; pr_alpha := pc_alpha cfg;
        pr_target := pc_target cfg; pr_n := pp_n p; pr_stat := stat; pr_cv := cv; pr_nc := nc;
        pr_eff := pp_eff p; pr_ses := pp_ses p; pr_vcov := pp_vcov p |}.

(* PreTrendsPower.power_at, 912-936 *)
Definition pt_power_at (cfg : pt_cfg) (r : pt_results) (M : R) (pre_arg : option (list Z)) : res R :=
  do x <- pt_fit cfg r (Some M) pre_arg ; Ok (pr_power x).

(* PreTrendsPowerResults.power_at, 205-260 *)
Definition res_weights (ty : string) (n : nat) : list R :=
  normalise (if String.eqb ty "linear" then linear_w n
             else if String.eqb ty "constant" then repeat 1 n
             else if String.eqb ty "last_period" then last_w n
             else repeat 1 n).
Definition res_power_at (r : pt_result) (M : R) : fl :=
  match vquad (pr_n r) (pr_vcov r) (res_weights (pr_type r) (pr_n r)) with
  | Fin q => Fin (1 - ncx2_cdf (pr_cv r) (pr_n r) (M * M * q))
  | x => x
  end.
(* 99-116 *)
Definition res_informative (r : pt_result) : bool :=
  flt (pr_mdv r) (fmul (Fin 2) (match pr_ses r with [] => Fin 1 | l => np_max l end)).
Definition res_adequate (r : pt_result) : bool := Rleb (pr_target r) (pr_power r).

(* np.linspace(0, b, n) *)
Definition linspace0 (b : R) (n : nat) : list R :=
  match n with 1%nat => [0] | _ => map (fun i => b * INR i / INR (n - 1)) (seq 0 n) end.
(* power_curve, 938-992: (M, power) pairs and the MDV.  ses are finite on every path that reaches the
   automatic grid with a finite variance matrix *)
Definition pt_curve (cfg : pt_cfg) (r : pt_results) (grid : option (list R)) (n_points : nat)
    (pre_arg : option (list Z)) : res (list (fl * R) * fl) :=
  do p <- pt_extract r pre_arg ;
  do w <- pt_weights cfg (pp_n p) ;
  let mdv := pt_mdv cfg w (pp_vcov p) in
  let Ms := match grid with
            | Some l => map Fin l
            | None =>
                let a := if ffinite mdv then fmul (Fin (5/2)) mdv else fmul (Fin 10) (np_max (pp_ses p)) in
                match (if flt (Fin 100) a then Fin 100 else a) with
                | Fin b => map Fin (linspace0 b n_points)
                | _ => repeat NaN n_points
                end
            end in
  Ok (map (fun M => (M, fst (fst (fst (pt_power cfg M w (pp_vcov p)))))) Ms, mdv).

(* sensitivity_to_honest_did, 994-1061: (mdv, max_pre_se, mdv_in_ses) and the verdict *)
Inductive sens_verdict := Sensitive | Moderate | LowPower | Unachievable.
Definition pt_sensitivity (cfg : pt_cfg) (r : pt_results) (pre_arg : option (list Z))
  : res (fl * fl * fl * sens_verdict) :=
  do x <- pt_fit cfg r None pre_arg ;
  let mdv := pr_mdv x in
  let ms := np_max (pr_ses x) in
  let ratio := if fgt ms (Fin 0) && ffinite mdv then fdiv mdv ms else PInf in
  let verdict := if ffinite mdv then
                   let m := if fgt ms (Fin 0) then fdiv mdv ms else PInf in
                   if flt m (Fin 1) then Sensitive else if flt m (Fin 2) then Moderate else LowPower
                 else Unachievable in
  Ok (mdv, ms, ratio, verdict).
End Power.

(* MultiPeriodDiDResults as built by MultiPeriodDiD.fit (estimators.py:848-885, 991); [ne] extra columns *)
Definition mp_names (treatment : string) (all post : list Z) (ref : Z) (ne : nat) : list coef_key :=
  [KConst; KTreat] ++ map KPeriod (filter (fun p => negb (Z.eqb p ref)) all)
  ++ map (KInter treatment) post ++ map KExtra (seq 0 ne).
Definition pt_of_mp {I} (treatment : string) (all : list Z) (ne : nat) (r : mp_result I) : pt_results :=
  PMP {| pm_pre := mp_pre r;
         pm_coef := dict_of (combine (mp_names treatment all (mp_post r) (mp_ref r) ne) (mp_coef r));
         pm_eff := (fun p => option_map (fun e => (pe_effect e, pe_se e)) (dict_get (mp_effects r) p));
         pm_avg_se := mp_avg_se r;
         pm_vcov := Some (length (mp_coef r), mp_vcov r) |}.

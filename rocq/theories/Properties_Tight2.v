(* Exact descriptions of reported quantities: reference period and bootstrap inference (C59), cohort weights
   (C60), bootstrap event study (C62), cell means (C64). *)
From Coq Require Import Reals.
From Verif Require Import Prelude Flt Stats_model Linalg_model Did_model Multi_model Bacon_model Staggered_model Sun_model Triple_model Tight2_thms.
From Coq Require Import Arith ZArith String List.
Import ListNotations.
Open Scope R_scope.

Theorem C59_reference_period sf ppf cfg bal effects :
  cs_universal cfg = true -> balanced_effects bal effects <> [] ->
  (forall e, In e (balanced_effects bal effects) -> rel_time e <> Some (-1 - cs_anticipation cfg)%Z) ->
  In (Some (-1 - cs_anticipation cfg)%Z,
      {| ef_eff := Fin 0; ef_se := NaN; ef_t := NaN; ef_p := NaN; ef_ci := (NaN, NaN); ef_n := 0 |})
     (agg_event_study sf ppf cfg bal effects).
Proof. exact (es_reference_injected sf ppf cfg bal effects). Qed.
Section Boot.
Context {I : Type}.
Variable qr : list Z -> list (Z -> R) -> list nat.
Variable lstsq : list Z -> list (Z -> R) -> (Z -> R) -> list R.
Variable inv : list Z -> list (Z -> R) -> option (nat -> nat -> R).
Variable logit : list Z -> list Z -> list (Z -> R) -> option (Z -> R).
Variable sf : option Z -> fl -> fl.
Variable ppf : option Z -> R -> R.
Variables (rows : list I) (u t : I -> Z) (g : I -> coh) (y : I -> option R) (covs : list (I -> option R)).
Theorem C59_bootstrap_reported cfg agg bal ws r :
  cs_fit qr lstsq inv logit sf ppf rows u t g y covs cfg agg bal ws = Ok r ->
  match cr_boot r with
  | Some b => ws <> [] /\ cr_se r = bs_se (cb_overall b) /\ cr_t r = cs_t (cr_att r) (bs_se (cb_overall b)) /\
              cr_p r = bs_p (cb_overall b) /\ cr_ci r = bs_ci (cb_overall b)
  | None => ws = [] /\ cr_ci r = u_ci ppf (cr_att r) (cr_se r) (cs_alpha cfg) None
  end.
Proof. exact (cs_bootstrap_reported qr lstsq inv logit sf ppf rows u t g y covs cfg agg bal ws r). Qed.
End Boot.
Section Sun.
Context {I : Type}.
Variable qr : list I -> list (I -> R) -> list nat.
Variable lstsq : list I -> list (I -> R) -> (I -> R) -> list R.
Variable inv : list I -> list (I -> R) -> option (nat -> nat -> R).
Variable pinv : list I -> list (I -> R) -> nat -> nat -> R.
Variable sf : option Z -> fl -> fl.
Variable ppf : option Z -> R -> R.
Variables (u t : I -> Z) (g : I -> coh) (y : I -> R) (covs : list (I -> R)) (cluster : option (I -> Z)).
Notation fit := (sa_fit qr lstsq inv pinv sf ppf u t g y covs cluster).
Theorem C60_cohort_weight cfg rows r gr e x s w : fit cfg rows = Ok r ->
  In ((gr, e), (x, s, w)) (sa_coh_effects r) ->
  (forall ws, In (e, ws) (sa_cweights r) -> (forall w', In (gr, w') ws -> w = w') /\ (~ In gr (map fst ws) -> w = 0)) /\
  (~ In e (map fst (sa_cweights r)) -> w = 0).
Proof. exact (sa_cohort_weight qr lstsq inv pinv sf ppf u t g y covs cluster cfg rows r gr e x s w). Qed.
End Sun.
Section SunBoot2.
Context {I : Type}.
Variable qr : list I -> list (I -> R) -> list nat.
Variable lstsq : list I -> list (I -> R) -> (I -> R) -> list R.
Variable inv : list I -> list (I -> R) -> option (nat -> nat -> R).
Variable pinv : list I -> list (I -> R) -> nat -> nat -> R.
Variable qrb : list (Z * I) -> list (Z * I -> R) -> list nat.
Variable lstsqb : list (Z * I) -> list (Z * I -> R) -> (Z * I -> R) -> list R.
Variable invb : list (Z * I) -> list (Z * I -> R) -> option (nat -> nat -> R).
Variable pinvb : list (Z * I) -> list (Z * I -> R) -> nat -> nat -> R.
Variable sf : option Z -> fl -> fl.
Variable ppf : option Z -> R -> R.
Variables (label : I -> nat) (u t : I -> Z) (g : I -> coh) (y : I -> R) (covs : list (I -> R)) (cluster : option (I -> Z)).
Notation fit := (sa_fit qr lstsq inv pinv sf ppf u t g y covs cluster).
Notation bfit := (sa_fit_boot qr lstsq inv pinv qrb lstsqb invb pinvb sf ppf label u t g y covs cluster).
Notation est := (sa_estimate qrb lstsqb invb pinvb sf ppf fst (lift t) (lift g) (lift y) (map lift covs) (option_map lift cluster)).
Theorem C62_event_study_distribution cfg rows draws s r e ef : bfit cfg rows draws = Ok s -> fit cfg rows = Ok r -> In (e, ef) (sa_es r) ->
  exists dist, length dist = length draws /\
    (let st := sa_boot_stats (sa_alpha cfg) (se_eff ef) dist in In (e, (se_eff ef, sa_t (se_eff ef) (bs_se st), st)) (sb_es s)) /\
    forall b d, nth_error draws b = Some d -> exists smp, boot_sample label u (sa_sample g cfg rows) d = Some smp /\
      match est cfg (sa_rgroups r) (sa_rel_periods t g cfg rows) smp smp with
      | Ok (_, es, _) => (forall w ef', In (e, (w, ef')) es -> nth_error dist b = Some (se_eff ef')) /\
                         (~ In e (map fst es) -> nth_error dist b = Some (se_eff ef))
      | Err _ => nth_error dist b = Some (se_eff ef)
      end.
Proof. exact (sa_boot_event_study qr lstsq inv pinv qrb lstsqb invb pinvb sf ppf label u t g y covs cluster cfg rows draws s r e ef). Qed.
End SunBoot2.
Section Triple.
Context {I K : Type} (keq : forall x y : K, {x = y} + {x <> y}).
Variable qr : list I -> list (I -> R) -> list nat.
Variable lstsq : list I -> list (I -> R) -> (I -> R) -> list R.
Variable inv : list I -> list (I -> R) -> option (nat -> nat -> R).
Variable pinv : list I -> list (I -> R) -> nat -> nat -> R.
Variable sf : option Z -> fl -> fl.
Variable ppf : option Z -> R -> R.
Variable logit : list I -> list (I -> R) -> (I -> R) -> option (I -> R).
Theorem C64_cell_means cfg cl rows (y G P T : I -> option R) covs r :
  ddd_fit keq qr lstsq inv pinv sf ppf logit cfg cl rows y G P T covs = Ok r ->
  let mean gv pv tv := meanf (fun i => oR (y i)) (filter (fun i => Reqb (oR (G i)) gv && Reqb (oR (P i)) pv && Reqb (oR (T i)) tv) rows) in
  let count gv pv := length (filter (fun i => Reqb (oR (G i)) gv && Reqb (oR (P i)) pv) rows) in
  tr_means r = [mean 1 1 0; mean 1 1 1; mean 1 0 0; mean 1 0 1; mean 0 1 0; mean 0 1 1; mean 0 0 0; mean 0 0 1] /\
  tr_n r = [count 1 1; count 1 0; count 0 1; count 0 0] /\ tr_n_obs r = length rows.
Proof. exact (ddd_means_reported keq qr lstsq inv pinv sf ppf logit cfg cl rows y G P T covs r). Qed.
End Triple.
Print Assumptions C59_reference_period.
Print Assumptions C59_bootstrap_reported.
Print Assumptions C60_cohort_weight.
Print Assumptions C62_event_study_distribution.
Print Assumptions C64_cell_means.

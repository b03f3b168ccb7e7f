(* Callaway-Sant'Anna with covariates at the level of the reported cells: the covariate values that
   enter a cell are those of its base period, and missing ones make the cell unadjusted. *)
From Verif Require Import Prelude Flt Stats_model Linalg_model Linalg_proofs Linalg_vcov Linalg_thms Did_model Multi_model Bacon_model
  Staggered_model Staggered_proofs Staggered_est Staggered_thms Staggered_more Staggered_fit.
From Coq Require Import Arith ZArith String List Bool Lia.
Import ListNotations.
Open Scope R_scope.

Section Cov.
Context {I : Type}.
Variable qr : list Z -> list (Z -> R) -> list nat.
Variable lstsq : list Z -> list (Z -> R) -> (Z -> R) -> list R.
Variable inv : list Z -> list (Z -> R) -> option (nat -> nat -> R).
Variable logit : list Z -> list Z -> list (Z -> R) -> option (Z -> R).
Hypothesis Hqr : qr_ok qr.
Hypothesis Hls : lstsq_ok lstsq.
Variables (rows : list I) (u t : I -> Z) (g : I -> coh) (y : I -> option R) (covs : list (I -> option R)).
Notation effs := (all_effects qr lstsq inv logit rows u t g y covs).

(* outcome changes linear in the base-period covariates (plus an effect on the treated): the cell is the mean effect *)
Theorem cell_outcome_model cfg l e att b0 (beta : list R) (tau : Z -> R) : effs cfg = Ok l -> In e l -> ge_eff e = Fin att -> cs_method cfg <> "ipw"%string ->
  covs <> [] -> length beta = length covs ->
  (forall a c, In a (ge_T e ++ ge_C e) -> In c covs -> cs_cov rows u t c a (ge_base e) <> None) ->
  (forall a, In a (ge_C e) -> change rows u t y (ge_base e) (ge_t e) a = b0 + lc (map (fun c a => oR (cs_cov rows u t c a (ge_base e))) covs) beta a) ->
  (forall a, In a (ge_T e) -> change rows u t y (ge_base e) (ge_t e) a = b0 + lc (map (fun c a => oR (cs_cov rows u t c a (ge_base e))) covs) beta a + tau a) ->
  att = meanf tau (ge_T e).
Proof.
  intros Hl He Ha Hm Hne Hb Hpres HC HT.
  destruct (effects_In _ _ _ _ _ _ _ _ _ _ cfg l e Hl He) as (gr & s & _ & _ & Hag).
  destruct (att_gt_inv _ _ _ _ _ _ _ _ _ _ _ _ _ _ Hag) as (Eg & Et & _ & _ & _ & ET & EC & _ & _ & r & Hr & Er & _).
  assert (Hcol : cov_columns rows u t covs (ge_base e) (ge_T e ++ ge_C e) = Some (map (fun c a => oR (cs_cov rows u t c a (ge_base e))) covs)).
  { unfold cov_columns. destruct covs as [|c0 cs] eqn:Ecov; [congruence|]. rewrite <- Ecov in *.
    rewrite (proj2 (forallb_forall _ _)); [reflexivity|]. intros a Hin. apply forallb_forall. intros c Hc. unfold isS. specialize (Hpres a c Hin Hc). destruct (cs_cov rows u t c a (ge_base e)); [reflexivity|congruence]. }
  rewrite Hcol in Hr. rewrite <- Et in Hr. rewrite Er in Ha.
  apply (outcome_model_exact qr lstsq inv logit Hqr Hls cfg _ _ _ _ r att (b0 :: beta) tau Hr Ha Hm).
  - cbn. rewrite map_length. congruence.
  - intros a Hin. rewrite HC by exact Hin. cbn. ring.
  - intros a Hin. rewrite HT by exact Hin. cbn. ring.
Qed.
(* one missing base-period covariate in the cell: no adjustment at all *)
Theorem cell_missing_covariate cfg l e a c : effs cfg = Ok l -> In e l ->
  In a (ge_T e ++ ge_C e) -> In c covs -> cs_cov rows u t c a (ge_base e) = None ->
  ge_eff e = Fin (meanf (change rows u t y (ge_base e) (ge_t e)) (ge_T e) - meanf (change rows u t y (ge_base e) (ge_t e)) (ge_C e)).
Proof.
  intros Hl He Ha Hc Hnone.
  destruct (effects_In _ _ _ _ _ _ _ _ _ _ cfg l e Hl He) as (gr & s & _ & _ & Hag).
  destruct (att_gt_inv _ _ _ _ _ _ _ _ _ _ _ _ _ _ Hag) as (Eg & Et & _ & _ & _ & ET & EC & _ & _ & r & Hr & Er & _).
  assert (Hcol : cov_columns rows u t covs (ge_base e) (ge_T e ++ ge_C e) = None).
  { unfold cov_columns. destruct covs as [|c0 cs] eqn:Ecov; [reflexivity|]. rewrite <- Ecov in *.
    destruct (forallb _ (ge_T e ++ ge_C e)) eqn:Ef; [|reflexivity]. exfalso. rewrite forallb_forall in Ef. specialize (Ef a Ha). rewrite forallb_forall in Ef. specialize (Ef c Hc). rewrite Hnone in Ef. discriminate. }
  rewrite Hcol in Hr. rewrite Et. destruct (methods_agree qr lstsq inv logit cfg (ge_T e) (ge_C e) (change rows u t y (ge_base e) s)) as (r' & Hr' & E & _).
  rewrite Hr in Hr'. injection Hr' as <-. rewrite Er. exact E.
Qed.
(* enough controls with linearly independent covariates: the adjusted estimate exists *)
Theorem adjusted_defined cfg T C dy x : (cs_action cfg = "warn"%string \/ cs_action cfg = "error"%string \/ cs_action cfg = "silent"%string) ->
  (S (length x) <= length C)%nat -> indep C ((fun _ => 1) :: x) -> cs_method cfg <> "ipw"%string ->
  exists e att, estimate qr lstsq inv logit cfg T C dy (Some x) = Ok e /\ ce_att e = Fin att.
Proof.
  intros Ha Hn Hi Hm. unfold estimate.
  assert (Hs : exists o, solve_ols unit_eqd qr lstsq inv C ((fun _ => 1) :: x) dy None false (cs_action cfg) = Ok o).
  { unfold solve_ols. cbn [length]. rewrite (proj2 (Nat.ltb_ge _ _)) by lia. rewrite (qr_indep_none qr _ _ Hqr Hi).
    destruct Ha as [-> |[-> | ->]]; cbn; eexists; reflexivity. }
  destruct Hs as [o Ho]. destruct (solve_ols_full_rank unit_eqd qr lstsq inv Hqr Hls _ _ _ _ _ _ _ Hi Ho) as (b & Hb & _).
  assert (Hf : all_fin (o_coef o) = Some b) by (rewrite Hb; clear; induction b as [|z l IH]; [reflexivity|cbn; rewrite IH; reflexivity]).
  destruct (String.eqb_spec (cs_method cfg) "reg"); [|destruct (String.eqb_spec (cs_method cfg) "ipw"); [congruence|]].
  - unfold est_reg. rewrite Ho. cbn [bind]. rewrite Hf. eexists. eexists. split; reflexivity.
  - unfold est_dr. rewrite Ho. cbn [bind]. rewrite Hf. eexists. eexists. split; reflexivity.
Qed.
End Cov.

(* four units, two periods; unit 1 adopts in period 2.  The covariate changes over time: unit number in period 1,
   unit number + 5 in period 2, and outcomes grow by 3 times the base-period value. *)
Section CovCase.
Variable qr : list Z -> list (Z -> R) -> list nat.
Variable lstsq : list Z -> list (Z -> R) -> (Z -> R) -> list R.
Variable inv : list Z -> list (Z -> R) -> option (nat -> nat -> R).
Variable logit : list Z -> list Z -> list (Z -> R) -> option (Z -> R).
Hypothesis Hqr : qr_ok qr.
Hypothesis Hls : lstsq_ok lstsq.
Definition rc : list (Z * Z) := panel 4 2.
Definition gc (i : Z * Z) : coh := if Z.eqb (fst i) 1 then CFin 2 else CFin 0.
Definition xc (i : Z * Z) : option R := Some (IZR (fst i) + (if Z.eqb (snd i) 2 then 5 else 0)).
Definition yc (i : Z * Z) : option R := Some (if Z.eqb (snd i) 2 then 1 + 3 * IZR (fst i) + (if Z.eqb (fst i) 1 then 7 else 0) else 0).
Theorem cov_case meth : meth = "reg"%string \/ meth = "dr"%string ->
  exists l e, all_effects qr lstsq inv logit rc fst snd gc yc [xc] (demo_cfg "never_treated" 0 meth "varying") = Ok l /\ In e l /\
    ge_T e = [1%Z] /\ ge_C e = [2; 3; 4]%Z /\ ge_base e = 1%Z /\ ge_eff e = Fin 7.
Proof.
  intros Hm. set (cfg := demo_cfg "never_treated" 0 meth "varying").
  set (x := map (fun c a => oR (cs_cov rc fst snd c a 1)) [xc]).
  assert (Hind : indep [2; 3; 4]%Z ((fun _ => 1) :: x)).
  { intros b L Hz. destruct b as [|b0 [|b1 [|]]]; try discriminate L.
    pose proof (Hz 2%Z ltac:(simpl; auto)) as H2. pose proof (Hz 3%Z ltac:(simpl; auto)) as H3. cbn in H2, H3.
    unfold cs_cov, cell_rows, rc in H2, H3. cbn in H2, H3. cbn. f_equal; [lra|f_equal; lra]. }
  destruct (adjusted_defined qr lstsq inv logit Hqr Hls cfg [1%Z] [2; 3; 4]%Z (change rc fst snd yc 1 2) x) as (r & att & Hr & Hatt);
    [left; reflexivity|cbn; lia|exact Hind|destruct Hm as [-> | ->]; discriminate|].
  assert (Hag : att_gt qr lstsq inv logit rc fst snd gc yc [xc] cfg (CFin 2) 2 =
    Ok (Some {| ge_g := CFin 2; ge_t := 2; ge_base := 1; ge_eff := ce_att r; ge_se := ce_se r; ge_T := [1%Z]; ge_C := [2; 3; 4]%Z; ge_tinf := ce_tinf r; ge_cinf := ce_cinf r |})).
  { unfold att_gt. change (cs_base cfg (CFin 2) 2) with (Some 1%Z). cbv iota.
    change (zmem 1 (cs_periods rc snd)) with true. change (zmem 2 (cs_periods rc snd)) with true. cbn [negb]. cbv zeta.
    replace (treated_units rc fst snd gc yc (CFin 2) 1 2) with [1%Z] by (vm_compute; reflexivity).
    replace (control_units rc fst snd gc yc cfg (CFin 2) 1 2) with [2; 3; 4]%Z by (vm_compute; reflexivity).
    replace (cov_columns rc fst snd [xc] 1 ([1%Z] ++ [2; 3; 4]%Z)) with (Some x) by reflexivity. cbv iota. rewrite Hr. reflexivity. }
  set (e := Build_gte _ _ _ _ _ _ _ _ _) in Hag.
  assert (Hl : all_effects qr lstsq inv logit rc fst snd gc yc [xc] cfg = Ok [e]).
  { unfold all_effects. replace (flat_map _ (cs_groups rc gc)) with [(CFin 2, 2%Z)] by (vm_compute; reflexivity). cbn [collect fst snd]. rewrite Hag. reflexivity. }
  exists [e], e. split; [exact Hl|]. split; [left; reflexivity|]. do 3 (split; [reflexivity|]).
  cbn [ge_eff e]. rewrite Hatt. f_equal.
  rewrite (cell_outcome_model qr lstsq inv logit Hqr Hls rc fst snd gc yc [xc] cfg [e] e att 1 [3] (fun _ => 7) Hl (or_introl eq_refl) Hatt).
  - unfold meanf, len. cbn. lra.
  - destruct Hm as [-> | ->]; discriminate.
  - discriminate.
  - reflexivity.
  - intros a c [<-|[<-|[<-|[<-|[]]]]] [<-|[]]; discriminate.
  - intros a Ha. change (ge_C e) with [2; 3; 4]%Z in Ha. destruct Ha as [<-|[<-|[<-|[]]]]; unfold change, cs_outcome, cs_cov, cell_rows, rc, e, xc, yc; cbn; lra.
  - intros a Ha. change (ge_T e) with [1%Z] in Ha. destruct Ha as [<-|[]]; unfold change, cs_outcome, cs_cov, cell_rows, rc, e, xc, yc; cbn; lra.
Qed.
End CovCase.

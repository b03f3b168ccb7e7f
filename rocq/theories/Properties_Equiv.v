(* CallawaySantAnna: unit and period effects drop out, rescaling, row order (C114). *)
From Coq Require Import Reals.
From Verif Require Import Prelude Flt Stats_model Linalg_model Linalg_proofs Linalg_vcov Did_model Multi_model Bacon_model Staggered_model Staggered_fit Scale_flt Staggered_scale Staggered_equiv Staggered_rows Staggered_equiv_ex.
From Coq Require Import Arith ZArith String List Permutation.
Import ListNotations.
Open Scope R_scope.

Section Fit.
Context {I : Type}.
Variable qr : list Z -> list (Z -> R) -> list nat.
Variable lstsq : list Z -> list (Z -> R) -> (Z -> R) -> list R.
Variable inv : list Z -> list (Z -> R) -> option (nat -> nat -> R).
Variable logit : list Z -> list Z -> list (Z -> R) -> option (Z -> R).
Variable sf : option Z -> fl -> fl.
Variable ppf : option Z -> R -> R.
Hypothesis Hqr : qr_ok qr.
Hypothesis Hls : lstsq_ok lstsq.
Section Scale.
Variables (rows : list I) (u t : I -> Z) (g : I -> coh) (y y' : I -> option R) (covs : list (I -> option R)).
Variables (c : R) (al la : Z -> R).
Hypothesis Hc : 0 < c.
Hypothesis Hy : forall i, In i rows -> y' i = match y i with Some v => Some (c * v + al (u i) + la (t i)) | None => None end.
Notation fit y := (cs_fit qr lstsq inv logit sf ppf rows u t g y covs).
Theorem C114_equivariant cfg agg bal ws : (ws = [] \/ 0 <= cs_alpha cfg <= 1) ->
  res_rel (result_rel c) (fit y cfg agg bal ws) (fit y' cfg agg bal ws).
Proof. eapply cs_fit_equivariant; eassumption. Qed.
End Scale.
Variables (rows : list I) (u t : I -> Z) (g : I -> coh) (y : I -> option R) (covs : list (I -> option R)).
Notation fit y := (cs_fit qr lstsq inv logit sf ppf rows u t g y covs).
Notation shifted := (shifted u t y).
Theorem C114_shift cfg agg bal ws al la r : (ws = [] \/ 0 <= cs_alpha cfg <= 1) -> fit y cfg agg bal ws = Ok r ->
  exists r', fit (shifted al la) cfg agg bal ws = Ok r' /\
    cr_reports r' = cr_reports r /\ cr_att r' = cr_att r /\ cr_se r' = cr_se r /\ cr_t r' = cr_t r /\ cr_p r' = cr_p r /\ cr_ci r' = cr_ci r /\
    cr_es r' = cr_es r /\ cr_group r' = cr_group r /\ cr_boot r' = cr_boot r /\
    map (fun e => (ge_g e, ge_t e, ge_base e, ge_eff e, ge_se e)) (cr_effects r') = map (fun e => (ge_g e, ge_t e, ge_base e, ge_eff e, ge_se e)) (cr_effects r).
Proof. apply cs_fit_shift; assumption. Qed.
End Fit.
Theorem C114_row_order {I} qr lstsq inv logit sf ppf (rows rows' : list I) u t g y covs cfg agg bal ws :
  Permutation rows rows' -> (forall i j, In i rows -> In j rows -> u i = u j -> g i = g j) ->
  cs_fit qr lstsq inv logit sf ppf rows' u t g y covs cfg agg bal ws = cs_fit qr lstsq inv logit sf ppf rows u t g y covs cfg agg bal ws.
Proof. apply cs_fit_row_order. Qed.
Section Case.
Variable inv : list Z -> list (Z -> R) -> option (nat -> nat -> R).
Variable logit : list Z -> list Z -> list (Z -> R) -> option (Z -> R).
Variable sf : option Z -> fl -> fl.
Variable ppf : option Z -> R -> R.
Theorem C114_case : exists r r' s,
  cs_fit (@gs_dropped Z) (@gs Z) inv logit sf ppf rows23 fst snd (fun i => C23 (fst i)) y23 [] (demo_cfg "never_treated" 0 "dr" "varying") (Some "all"%string) None [fun a => IZR a] = Ok r /\
  cs_fit (@gs_dropped Z) (@gs Z) inv logit sf ppf rows23 fst snd (fun i => C23 (fst i)) y23b [] (demo_cfg "never_treated" 0 "dr" "varying") (Some "all"%string) None [fun a => IZR a] = Ok r' /\
  map ge_eff (cr_effects r) = [Fin 1; Fin 1; Fin 0; Fin 0] /\ map ge_eff (cr_effects r') = [Fin 10; Fin 10; Fin 0; Fin 0] /\
  cr_boot r = Some s /\ result_rel 10 r r'.
Proof. apply cs_equivariant_case. Qed.
End Case.
Theorem C114_row_order_needs_cohort : Permutation [1; 2]%Z [2; 1]%Z /\ cs_cohort [1; 2]%Z (fun _ => 7%Z) gvar 7 = CFin 2 /\ cs_cohort [2; 1]%Z (fun _ => 7%Z) gvar 7 = CFin 0 /\
  n_nev [1; 2]%Z (fun _ => 7%Z) gvar = 0%nat /\ n_nev [2; 1]%Z (fun _ => 7%Z) gvar = 1%nat.
Proof. exact row_order_needs_cohort. Qed.
Print Assumptions C114_equivariant.
Print Assumptions C114_shift.
Print Assumptions C114_row_order.
Print Assumptions C114_case.
Print Assumptions C114_row_order_needs_cohort.

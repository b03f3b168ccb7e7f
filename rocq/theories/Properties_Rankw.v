(* The synthetic_weight column of rank_control_units (C139). *)
From Verif Require Import Prelude Flt Stats_model Did_model Synth_model Synth_proofs Sdid_model Sdid_thms Gap_model Gap_proofs Prep_model Prep_proofs Prep_rank Prep_ex Tight12_thms Rankw_model Rankw_thms.
From Coq Require Import Arith ZArith String List Permutation.
Import ListNotations.
Open Scope R_scope.

Section RankWeights.
Context {I U : Type} (ueq : forall x y : U, {x = y} + {x <> y}).
Variable dsort : list (rank_row U) -> list (rank_row U).
Hypothesis Hd : dsort_ok dsort.
Variable backend : list Z -> list (Z -> R) -> (Z -> R) -> R -> list R.
Variable b : gbackend.
Variable fsort : list fl -> list fl.
Variable iter : nat.
Variable gnrm : list Z -> list (Z -> fl) -> R -> fl.
Hypothesis Hbe : be_simplex backend.
Hypothesis Hit : (0 < iter)%nat.
Variable rows : list I.
Variable u : I -> U.
Variable t : I -> Z.
Variable y : I -> fl.
Notation rank := (rank_control_units ueq dsort rows u t y).
Notation full := (rank_full ueq dsort backend b fsort iter gnrm rows u t y).
Notation complete_pre := (complete_pre rows u t y).
Notation observed := (observed rows t).
Notation early_unit := (early_unit rows u t).
Notation pre_hole := (pre_hole rows u t y).
Theorem C139_same_table d tu pre covs ow cw exclude require n_top suggest lambda out :
  full d tu pre covs ow cw exclude require n_top suggest lambda = Ok (Some out) ->
  rank d tu pre covs ow cw exclude require n_top suggest = Ok (Some (map fst out)).
Proof. exact (full_table ueq dsort backend b fsort iter gnrm rows u t y d tu pre covs ow cw exclude require n_top suggest lambda out). Qed.
Theorem C139_shares d tu pre covs ow cw exclude require suggest lambda table :
  rank d tu pre covs ow cw exclude require None suggest = Ok (Some table) -> complete_pre pre ->
  exists out, full d tu pre covs ow cw exclude require None suggest lambda = Ok (Some out) /\ map fst out = table /\
  (forall r w, In (r, w) out -> exists v, w = Fin v /\ 0 <= v) /\ sumf (fun q => toR (snd q)) out = 1.
Proof. exact (full_weights ueq dsort Hd backend b fsort iter gnrm Hbe Hit rows u t y d tu pre covs ow cw exclude require suggest lambda table). Qed.
Theorem C139_own_column d tu pre covs ow cw exclude require n_top suggest lambda out :
  full d tu pre covs ow cw exclude require n_top suggest lambda = Ok (Some out) -> complete_pre pre ->
  exists vp cs cols ym tl, (forall p, In p vp <-> observed pre p) /\
  NoDup cs /\ (forall x, In x cs <-> early_unit pre x /\ ~ counts_treated rows u tu d x /\ forall ex, exclude = Some ex -> ~ In x ex) /\
  NoDup tl /\ (forall x, In x tl <-> early_unit pre x /\ counts_treated rows u tu d x) /\
  length cols = length cs /\
  (forall k x c i, nth_error cs k = Some x -> nth_error cols k = Some c -> In i rows -> u i = x -> observed pre (t i) -> y i = Fin (c (t i))) /\
  (forall p g, observed pre p -> (forall i, In i rows -> In (u i) tl -> t i = p -> y i = Fin (g (u i))) -> ym p = meanf g tl) /\
  (forall r v, In (r, v) out -> exists k z, nth_error cs k = Some (k_unit r) /\
     nth_error (synthetic_weights (backend vp cols ym lambda) (length cs) min_weight) k = Some z /\ v = Fin z).
Proof. exact (full_aligned ueq dsort Hd backend b fsort iter gnrm Hbe Hit rows u t y d tu pre covs ow cw exclude require n_top suggest lambda out). Qed.
Theorem C139_hole_equal_weights d tu pre covs ow cw exclude require n_top suggest lambda all table :
  rank d tu pre covs ow cw exclude require None suggest = Ok (Some all) ->
  rank d tu pre covs ow cw exclude require n_top suggest = Ok (Some table) -> (2 <= length all)%nat -> pre_hole tu d pre exclude ->
  full d tu pre covs ow cw exclude require n_top suggest lambda = Ok (Some (map (fun r => (r, Fin (1 / INR (length all)))) table)) \/
  full d tu pre covs ow cw exclude require n_top suggest lambda = Err LinAlgError /\ b = BNumpy true.
Proof. exact (full_hole ueq dsort Hd backend b fsort iter gnrm Hit rows u t y d tu pre covs ow cw exclude require n_top suggest lambda all table). Qed.
End RankWeights.
(* the panel of C45_case is complete before treatment *)
Theorem C139_complete_case : complete_pre rk_rows (fun i => fst (fst i)) (fun i => snd (fst i)) (fun i => Fin (snd i)) None.
Proof. exact rk_complete_pre. Qed.
(* unit 2 repeats the treated unit, unit 3 is 100 away and misses one period: both get one half *)
Theorem C139_match_refuted backend b fsort iter gnrm lambda : (0 < iter)%nat ->
  exists table, hw_rank None (Some [1%nat]) None [] (7/10) (3/10) None None None false = Ok (Some table) /\
  Permutation (map k_unit table) [2%nat; 3%nat] /\
  (hw_full backend b fsort iter gnrm None (Some [1%nat]) None [] (7/10) (3/10) None None None false lambda = Ok (Some (map (fun r => (r, Fin (1 / 2))) table)) \/
   hw_full backend b fsort iter gnrm None (Some [1%nat]) None [] (7/10) (3/10) None None None false lambda = Err LinAlgError).
Proof. exact (hw_case backend b fsort iter gnrm lambda). Qed.
Print Assumptions C139_same_table.
Print Assumptions C139_shares.
Print Assumptions C139_own_column.
Print Assumptions C139_hole_equal_weights.
Print Assumptions C139_complete_case.
Print Assumptions C139_match_refuted.

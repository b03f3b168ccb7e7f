(* The synthetic_weight column of rank_control_units (diff_diff/prep.py:1006-1009, 1097-1105): the weights of
   compute_synthetic_weights (utils.py:997-1066, Gap_model) on the matrix of pre-period outcomes of the control candidates,
   Y_control = pivot.loc[valid_pre_periods, control_candidates] (prep.py:995), against the mean of the treated units,
   pivot.loc[valid_pre_periods, treated_list].mean(axis=1) (prep.py:1001, missing entries skipped).
   Simplification inherited from Gap_model: outcomes are finite reals or NaN. *)
From Verif Require Import Prelude Flt Stats_model Linalg_model Did_model Multi_model Staggered_model Synth_model Sdid_model Gap_model Prep_model.
From Coq Require Import Arith ZArith String List.
Import ListNotations.
Open Scope R_scope.

Section RankWeights.
Context {I U : Type} (ueq : forall x y : U, {x = y} + {x <> y}).
Variable dsort : list (rank_row U) -> list (rank_row U).
(* the optimiser, as in Gap_model *)
Variable backend : list Z -> list (Z -> R) -> (Z -> R) -> R -> list R.
Variable b : gbackend.
Variable fsort : list fl -> list fl.
Variable iter : nat.
Variable gnrm : list Z -> list (Z -> fl) -> R -> fl.
Variable rows : list I.
Variable u : I -> U.
Variable t : I -> Z.
Variable y : I -> fl.

(* prep.py:1006-1009, the weights next to the candidates they belong to (control_candidates after 970-990) *)
Definition rank_weights (ps : list Z) (treated : list U) (exclude : option (list U)) (lambda : R) : res (list (U * fl)) :=
  let pd := pre_data rows t ps in
  let vp := filter (fun p => existsb (fun i => Z.eqb (t i) p) pd) ps in
  let cands := filter (fun x => negb (umem ueq x treated)) (all_units ueq rows u) in
  let cands := match exclude with Some ex => filter (fun x => negb (umem ueq x ex)) cands | None => cands end in
  let cands := filter (in_pivot ueq u pd) cands in
  let tl := filter (in_pivot ueq u pd) treated in
  do w <- gap_weights backend b fsort iter gnrm vp (map (fun x p => pivot ueq u t y pd x p) cands)
            (fun p => nmean (map (fun v => pivot ueq u t y pd v p) tl)) lambda;
  Ok (combine cands w).
(* the entry of the column in the line of unit x *)
Definition weight_of (w : list (U * fl)) (x : U) : fl :=
  match find (fun q => keqb ueq (fst q) x) w with Some q => snd q | None => NaN end.

(* prep.py:782-1123 with the column: every ValueError is raised before the weights are computed (901-1000), the KeyError of
   cov_data.loc (1038) after *)
Definition rank_full (d : option (I -> fl)) (treated_units : option (list U)) (pre : option (list Z)) (covs : list (I -> fl))
    (ow cw : R) (exclude require : option (list U)) (n_top : option Z) (suggest : bool) (lambda : R) : res (option (list (rank_row U * fl))) :=
  let column := do treated <- treated_set ueq rows u treated_units d suggest; rank_weights (rank_periods rows t pre) treated exclude lambda in
  match rank_control_units ueq dsort rows u t y d treated_units pre covs ow cw exclude require n_top suggest with
  | Ok (Some table) => do w <- column; Ok (Some (map (fun r => (r, weight_of w (k_unit r))) table))
  | Ok None => Ok None
  | Err KeyError => do w <- column; Err KeyError
  | Err e => Err e
  end.
End RankWeights.

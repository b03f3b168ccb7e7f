(* The two sensitivity plots: visualization.plot_sensitivity (visualization.py:535-689) and SensitivityResults.plot
   (honest_did.py:447-506).  What is modelled is the numbers handed to matplotlib; colours, labels, axes and the
   ImportError when matplotlib is missing are not. *)
From Verif Require Import Prelude Flt Multi_model Honest_model.
From Coq Require Import Arith ZArith String List.
Import ListNotations.
Open Scope R_scope.

(* the horizontal lines (estimate, zero), the shaded band, the two interval lines and the vertical line *)
Record sens_plot := {
  sq_hlines : list fl; sq_band : option (list (R * fl * fl)); sq_lines : option (list (R * fl) * list (R * fl)); sq_vline : option R }.

(* np.array(list of pairs)[:, 0]: an empty list gives a one-dimensional array, IndexError *)
Definition column {A} (f : fl * fl -> A) (l : list (fl * fl)) : res (list A) :=
  match l with [] => Err IndexError | _ => Ok (map f l) end.

(* visualization.py:615-689; the breakdown line tests `is not None`, so a breakdown at 0 is drawn *)
Definition plot_sensitivity (q : hd_sens) (show_bounds show_ci breakdown_line : bool) : res sens_plot :=
  do band <- (if show_bounds
              then do lo <- column fst (hs_bounds q); do hi <- column snd (hs_bounds q);
                   Ok (Some (combine (combine (hs_M q) lo) hi))
              else Ok None);
  do lines <- (if show_ci
               then do lo <- column fst (hs_cis q); do hi <- column snd (hs_cis q);
                    Ok (Some (combine (hs_M q) lo, combine (hs_M q) hi))
               else Ok None);
  Ok {| sq_hlines := [hs_est q; Fin 0]; sq_band := band; sq_lines := lines;
        sq_vline := if breakdown_line then hs_breakdown q else None |}.

(* honest_did.py:471-506, the method of the results object *)
Definition sens_plot_method (q : hd_sens) (show_bounds show_ci breakdown_line : bool) : res sens_plot :=
  do band <- (if show_bounds
              then do lo <- column fst (hs_bounds q); do hi <- column snd (hs_bounds q);
                   Ok (Some (combine (combine (hs_M q) lo) hi))
              else Ok None);
  do lines <- (if show_ci
               then do lo <- column fst (hs_cis q); do hi <- column snd (hs_cis q);
                    Ok (Some (combine (hs_M q) lo, combine (hs_M q) hi))
               else Ok None);
  Ok {| sq_hlines := [hs_est q; Fin 0]; sq_band := band; sq_lines := lines;
        sq_vline := match breakdown_line, hs_breakdown q with true, Some b => Some b | _, _ => None end |}.

(* SensitivityResults.has_breakdown, honest_did.py:386-389 *)
Definition has_breakdown (q : hd_sens) : bool := match hs_breakdown q with Some _ => true | None => false end.

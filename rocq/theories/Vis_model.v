(* visualization.py: the numbers that are handed to matplotlib.
   Not modelled: colours, markers, labels, axes and figures; the ImportError when matplotlib is missing.
   Periods are integers (any sortable label works the same way); plot_sensitivity is in Sensplot_model. *)
From Verif Require Import Prelude Flt Multi_model Honest_model Bacon_model.
From Coq Require Import Arith ZArith String List.
Import ListNotations.
Open Scope R_scope.

(* ---- Python dictionaries with integer keys: insertion order, the last value of a repeated key wins ---- *)
Fixpoint zget {A} (k : Z) (d : list (Z * A)) : option A :=
  match d with [] => None | (j, v) :: r => if Z.eqb k j then Some v else zget k r end.
Fixpoint zset {A} (k : Z) (v : A) (d : list (Z * A)) : list (Z * A) :=
  match d with [] => [(k, v)] | (j, w) :: r => if Z.eqb k j then (j, v) :: r else (j, w) :: zset k v r end.
(* dict(zip(keys, values)) *)
Definition zdict {A} (l : list (Z * A)) : list (Z * A) := fold_left (fun d p => zset (fst p) (snd p) d) l [].
Definition zkeys {A} (d : list (Z * A)) : list Z := map fst d.

(* ---- the result objects plot_event_study reads (visualization.py:325-422) ---- *)
Record ev_entry := { ev_effect : fl; ev_se : fl; ev_n_groups : option nat }.
(* VFrame: presence of the columns period, effect, se and the rows (period, effect, se, optional interval);
   VMulti: period_effects (MultiPeriodDiDResults), pre_periods, post_periods;
   VEvent: event_study_effects (CallawaySantAnnaResults, SunAbrahamResults), None when not aggregated *)
Inductive vresults :=
  | VFrame (has_period has_effect has_se : bool) (rows : list (Z * fl * fl * option (fl * fl)))
  | VMulti (pe : list (Z * (fl * fl))) (pre post : list Z)
  | VEvent (es : option (list (Z * ev_entry)))
  | VOther.

Record vdata := {
  vd_effects : list (Z * fl); vd_se : list (Z * fl); vd_periods : option (list Z);
  vd_pre : option (list Z); vd_post : option (list Z); vd_ref : option Z; vd_inferred : bool }.

Definition or_else {A} (a b : option A) : option A := match a with Some _ => a | None => b end.

(* first event time whose entry has n_groups = 0, else -1 (visualization.py:398-408) *)
Fixpoint find_marker (es : list (Z * ev_entry)) : option Z :=
  match es with
  | [] => None
  | (p, e) :: r => if Nat.eqb (match ev_n_groups e with Some n => n | None => 1%nat end) 0 then Some p else find_marker r
  end.
Definition infer_ref (es : list (Z * ev_entry)) : Z :=
  match find_marker es with Some p => p | None => (-1)%Z end.

(* _extract_plot_data, visualization.py:325-422 *)
Definition extract_plot_data (r : vresults) (periods pre post : option (list Z)) (ref : option Z) : res vdata :=
  match r with
  | VFrame hp he hs rows =>
      if negb hp then Err ValueError else if negb he then Err ValueError else if negb hs then Err ValueError
      else Ok {| vd_effects := zdict (map (fun x => (fst (fst (fst x)), snd (fst (fst x)))) rows);
                 vd_se := zdict (map (fun x => (fst (fst (fst x)), snd (fst x))) rows);
                 vd_periods := or_else periods (Some (map (fun x => fst (fst (fst x))) rows));
                 vd_pre := pre; vd_post := post; vd_ref := ref; vd_inferred := false |}
  | VMulti pe pre0 post0 =>
      let post' := or_else post (Some post0) in
      Ok {| vd_effects := map (fun x => (fst x, fst (snd x))) pe; vd_se := map (fun x => (fst x, snd (snd x))) pe;
            vd_periods := or_else periods post'; vd_pre := or_else pre (Some pre0); vd_post := post';
            vd_ref := ref; vd_inferred := false |}
  | VEvent (Some es) =>
      let ps := match periods with Some l => l | None => zsort (zkeys es) end in
      Ok {| vd_effects := map (fun x => (fst x, ev_effect (snd x))) es; vd_se := map (fun x => (fst x, ev_se (snd x))) es;
            vd_periods := Some ps;
            vd_pre := or_else pre (Some (filter (fun p => Z.ltb p 0) ps));
            vd_post := or_else post (Some (filter (fun p => Z.leb 0 p) ps));
            vd_ref := match ref with Some _ => ref | None => Some (infer_ref es) end;
            vd_inferred := match ref with Some _ => false | None => true end |}
  | VEvent None | VOther => Err TypeError
  end.

Record es_point := { sp_period : Z; sp_effect : fl; sp_se : fl; sp_ci : fl * fl; sp_ref : bool }.
(* the points, the shaded positions (first, last) and the position of the reference line *)
Record es_plot := { ep_points : list es_point; ep_shade : option (nat * nat); ep_refline : option nat }.

(* period_to_x, visualization.py:257: position of a period on the axis, the last one if it is repeated *)
Fixpoint last_pos (p : Z) (i : nat) (l : list Z) : option nat :=
  match l with
  | [] => None
  | q :: r => match last_pos p (S i) r with Some j => Some j | None => if Z.eqb p q then Some i else None end
  end.

Definition keepo {A B} (f : A -> option B) (l : list A) : list B :=
  flat_map (fun a => match f a with Some b => [b] | None => [] end) l.

Section Plots.
Variable ppf : option Z -> R -> R.
(* scipy.stats.norm.ppf(1 - alpha / 2) *)
Definition zcrit (alpha : R) : fl := Fin (ppf None (1 - alpha / 2)).

(* the loop of visualization.py:219-243: None = skipped because the effect is NaN or missing *)
Definition es_point_of (alpha : R) (effects se : list (Z * fl)) (ref : option Z) (p : Z) : option es_point :=
  let e := match zget p effects with Some v => v | None => NaN end in
  let s := match zget p se with Some v => v | None => NaN end in
  if fisnan e then None
  else Some {| sp_period := p; sp_effect := e; sp_se := s;
               sp_ci := if ffinite s then (fsub e (fmul (zcrit alpha) s), fadd e (fmul (zcrit alpha) s)) else (NaN, NaN);
               sp_ref := match ref with Some r => Z.eqb p r | None => false end |}.

(* visualization.py:206-217: subtract the effect of an explicitly given, finite reference *)
Definition normalise_ref (explicit : bool) (ref : option Z) (effects se : list (Z * fl)) : list (Z * fl) * list (Z * fl) :=
  match ref with
  | Some r =>
      match zget r effects with
      | Some v =>
          if explicit && ffinite v
          then (map (fun x => (fst x, fsub (snd x) v)) effects,
                map (fun x => (fst x, if Z.eqb (fst x) r then NaN else snd x)) se)
          else (effects, se)
      | None => (effects, se)
      end
  | None => (effects, se)
  end.

(* plot_event_study, visualization.py:176-302 *)
Definition plot_event_study (results : option vresults) (effects se : option (list (Z * fl)))
    (periods pre post : option (list Z)) (ref : option Z) (alpha : R) (shade_pre show_ref : bool) : res es_plot :=
  do d <- match results with
          | Some r => extract_plot_data r periods pre post ref
          | None => match effects, se with
                    | Some e, Some s => Ok {| vd_effects := e; vd_se := s; vd_periods := periods; vd_pre := pre;
                                              vd_post := post; vd_ref := ref; vd_inferred := false |}
                    | _, _ => Err ValueError
                    end
          end ;
  let explicit := match ref with Some _ => negb (vd_inferred d) | None => false end in
  let ps := match vd_periods d with Some l => l | None => zsort (zkeys (vd_effects d)) end in
  let es := normalise_ref explicit (vd_ref d) (vd_effects d) (vd_se d) in
  match keepo (es_point_of alpha (fst es) (snd es) (vd_ref d)) ps with
  | [] => Err ValueError
  | pts =>
      let xs := map sp_period pts in
      let pre_x := match vd_pre d with
                   | Some l => keepo (fun p => last_pos p 0 xs) l
                   | None => [] end in
      Ok {| ep_points := pts;
            ep_shade := if shade_pre then
                          match pre_x with
                          | [] => None
                          | a :: r => Some (fold_right Nat.min a r, fold_right Nat.max a r)
                          end else None;
            ep_refline := if show_ref then match vd_ref d with Some r => last_pos r 0 xs | None => None end else None |}
  end.

(* plot_group_effects, visualization.py:479-518: for every requested group with at least one cell, the times,
   effects and (lower, upper) bar lengths in time order.  list.sort is stable *)
Fixpoint tinsert {A} (x : Z * A) (l : list (Z * A)) : list (Z * A) :=
  match l with [] => [x] | y :: r => if Z.leb (fst x) (fst y) then x :: y :: r else y :: tinsert x r end.
Definition tsort {A} (l : list (Z * A)) : list (Z * A) := fold_right tinsert [] l.
Definition ge_bar (alpha : R) (e s : fl) : fl * fl :=
  (fsub e (fsub e (fmul (zcrit alpha) s)), fsub (fadd e (fmul (zcrit alpha) s)) e).
Definition plot_group_effects (gt : list (Z * Z * (fl * fl))) (groups : option (list Z)) (alpha : R)
  : list (Z * list (Z * (fl * (fl * fl)))) :=
  let gs := match groups with Some l => l | None => zsort (nodup Z.eq_dec (map (fun x => fst (fst x)) gt)) end in
  keepo (fun g =>
    match tsort (map (fun x => (snd (fst x), snd x)) (filter (fun x => Z.eqb (fst (fst x)) g) gt)) with
    | [] => None
    | l => Some (g, map (fun x => (fst x, (fst (snd x), ge_bar alpha (fst (snd x)) (snd (snd x))))) l)
    end) gs.

(* ---- plot_honest_event_study, visualization.py:767-854 ---- *)
Record honest_view := {
  hv_original : option vresults; hv_alpha : R; hv_ci : fl * fl;
  hv_bounds : option (list (Z * (fl * fl))) }.
(* what HonestDiD.fit stores (honest_did.py): event_study_bounds is a field that no code of the package sets *)
Definition honest_view_of (orig : vresults) (o : hd_out) : honest_view :=
  {| hv_original := Some orig; hv_alpha := ho_alpha o; hv_ci := (ho_ci_lb o, ho_ci_ub o); hv_bounds := None |}.

(* Axes.errorbar refuses negative bar lengths with ValueError; NaN lengths are accepted *)
Definition errorbar_ok (err : list (fl * fl)) : bool :=
  forallb (fun x => negb (flt (fst x) (Fin 0)) && negb (flt (snd x) (Fin 0))) err.

Fixpoint zgets {A} (d : list (Z * A)) (ps : list Z) : res (list A) :=
  match ps with
  | [] => Ok []
  | p :: r => match zget p d with None => Err KeyError | Some v => do l <- zgets d r ; Ok (v :: l) end
  end.

Record hes_point := { hp_period : Z; hp_effect : fl; hp_standard : fl * fl; hp_honest : fl * fl }.
Definition zip3 (f : Z -> fl * fl -> fl * fl -> hes_point) : list Z -> list (fl * fl) -> list (fl * fl) -> list hes_point :=
  fix go ps es hs := match ps, es, hs with
                     | p :: ps', e :: es', h :: hs' => f p e h :: go ps' es' hs'
                     | _, _, _ => []
                     end.
Definition plot_honest_event_study (v : honest_view) (periods : option (list Z)) : res (list hes_point) :=
  do dp <- match hv_original v with
           | None => Err ValueError
           | Some (VMulti pe _ _) => Ok (pe, match periods with Some l => l | None => zkeys pe end)
           | Some (VEvent (Some es)) => Ok (map (fun x => (fst x, (ev_effect (snd x), ev_se (snd x)))) es,
                                            match periods with Some l => l | None => zsort (zkeys es) end)
           | Some (VEvent None) => Err AttributeError      (* None.items() *)
           | Some (VFrame _ _ _ _) | Some VOther => Err TypeError
           end ;
  do es <- zgets (fst dp) (snd dp) ;
  do hs <- match hv_bounds v with
           | Some (b0 :: b) => zgets (b0 :: b) (snd dp)
           | _ => Ok (map (fun _ => hv_ci v) (snd dp))
           end ;
  let z := zcrit (hv_alpha v) in
  let pts := zip3 (fun p e h => {| hp_period := p; hp_effect := fst e;
                                   hp_standard := (fsub (fst e) (fmul z (snd e)), fadd (fst e) (fmul z (snd e)));
                                   hp_honest := h |}) (snd dp) es hs in
  let bar f q := (fsub (hp_effect q) (fst (f q)), fsub (snd (f q)) (hp_effect q)) in
  if errorbar_ok (map (bar hp_standard) pts) && errorbar_ok (map (bar hp_honest) pts) then Ok pts else Err ValueError.
End Plots.

(* ---- plot_power_curve, visualization.py:1317-1423 ---- *)
Inductive pc_source :=
  | PCFrame (effect_size sample_size : option (list R)) (power : list R)
  | PCSim (sizes powers : list R) (true_effect : R)      (* SimulationPowerResults *)
  | PCPower                                               (* PowerResults *)
  | PCOther.
Record pc_plot := {
  pp_curve : list R * list R; pp_effect_axis : bool; pp_target : option R; pp_mde : option R; pp_marker : option R }.

Fixpoint rindex (x : R) (l : list R) : option nat :=
  match l with [] => None | y :: r => if Reqb x y then Some O else match rindex x r with Some n => Some (S n) | None => None end end.
Definition rmin (l : list R) : R := match l with [] => 0 | a :: r => fold_right Rmin a r end.
Definition rmax (l : list R) : R := match l with [] => 0 | a :: r => fold_right Rmax a r end.

Section Power.
(* np.interp(x, xp, fp) *)
Variable interp : R -> list R -> list R -> R.
(* visualization.py:1404-1416 *)
Definition pc_marker (sizes powers : list R) (mde : R) : option R :=
  match rindex mde sizes with
  | Some i => nth_error powers i
  | None => if Rleb (rmin sizes) mde && Rleb mde (rmax sizes) then Some (interp mde sizes powers) else None
  end.
(* an empty list of effect sizes with an MDE makes effect_arr.min() raise ValueError *)
Definition plot_power_curve (src : option pc_source) (sizes powers : option (list R)) (mde : option R) (target : R)
    (effect_axis show_mde show_target : bool) : res pc_plot :=
  do d <- match src with
          | Some (PCFrame (Some e) _ p) => Ok (e, p, mde, true)
          | Some (PCFrame None (Some s) p) => Ok (s, p, mde, false)
          | Some (PCFrame None None _) => Err ValueError
          | Some (PCSim s p te) => Ok (s, p, match mde with None => Some te | _ => mde end, effect_axis)
          | Some PCPower => Err ValueError
          | Some PCOther => Err TypeError
          | None => match sizes, powers with Some s, Some p => Ok (s, p, mde, effect_axis) | _, _ => Err ValueError end
          end ;
  let '(s, p, m, ea) := d in
  let line := if show_mde then m else None in
  match line, s with
  | Some _, [] => Err ValueError
  | _, _ => Ok {| pp_curve := (s, p); pp_effect_axis := ea; pp_target := if show_target then Some target else None;
                  pp_mde := line;
                  pp_marker := match line with Some x => pc_marker s p x | None => None end |}
  end.

(* ---- plot_pretrends_power, visualization.py:1573-1657 ---- *)
Inductive pt_source :=
  | PTFrame (has_M has_power : bool) (M p : list R)
  | PTCurve (M p : list R) (mdv : fl) (target : R)        (* PreTrendsPowerCurve *)
  | PTSingle (mdv : fl)                                   (* PreTrendsPowerResults *)
  | PTOther.
Record ptp_plot := { pq_curve : option (list R * list R); pq_target : option R; pq_mdv : option R; pq_marker : option R }.
(* target is the argument target_power, whose default is 0.80; passing None is possible.  mdv None = not given *)
Definition plot_pretrends_power (src : option pt_source) (M p : option (list R)) (mdv : option fl) (target : option R)
    (show_mdv show_target : bool) : res ptp_plot :=
  do d <- match src with
          | Some (PTFrame hm hp m q) => if hm && hp then Ok (m, Some q, mdv, target) else Err ValueError
          | Some (PTCurve m q v tg) => Ok (m, Some q, or_else mdv (Some v), or_else target (Some tg))
          | Some (PTSingle v) => Ok (match or_else mdv (Some v) with
                                     | Some (Fin x) => [0; x * (1/2); x; x * (3/2); x * 2] | _ => [0; 1; 2; 3; 4] end,
                                     None, or_else mdv (Some v), target)
          | Some PTOther => Err TypeError
          | None => match M, p with Some m, Some q => Ok (m, Some q, mdv, target) | _, _ => Err ValueError end
          end ;
  let '(m, q, v, tg) := d in
  do tl <- (if show_target then match tg with Some x => Ok (Some x) | None => Err TypeError end else Ok None) ;
  let line := if show_mdv then match v with Some (Fin x) => Some x | _ => None end else None in
  match line, q, m with
  | Some _, Some _, [] => Err ValueError
  | _, _, _ =>
      Ok {| pq_curve := match q with Some ps => Some (m, ps) | None => None end; pq_target := tl; pq_mdv := line;
            pq_marker := match line, q with
                         | Some x, Some ps => if Rleb (rmin m) x && Rleb x (rmax m) then Some (interp x m ps) else None
                         | _, _ => None end |}
  end.
End Power.

(* ---- plot_bacon ---- *)
Definition bacon_types : list ctype := [TreatedNever; EarlierLater; LaterEarlier].
(* _plot_bacon_scatter, visualization.py:1039-1105: the points of each colour and the dashed lines *)
Definition bacon_scatter (o : bacon_out) : list (ctype * list (fl * R)) :=
  filter (fun x => match snd x with [] => false | _ => true end)
    (map (fun ty => (ty, map (fun c => (cmp_est c, cmp_weight c))
                             (filter (fun c => ctype_eqb (cmp_type c) ty) (bo_comparisons o)))) bacon_types).
Definition bacon_lines (o : bacon_out) : list (ctype * fl) :=
  keepo (fun ty => match bo_averages o ty with
                   | Some a => match filter (fun c => ctype_eqb (cmp_type c) ty) (bo_comparisons o) with
                               | [] => None | _ => Some (ty, a) end
                   | None => None end) bacon_types.
(* _plot_bacon_bar, visualization.py:1119-1200: the three bars and the printed averages *)
Definition bacon_bars (o : bacon_out) : list (ctype * R) := map (fun ty => (ty, bo_weights o ty)) bacon_types.
Definition bacon_bar_labels (o : bacon_out) : list (ctype * fl) :=
  keepo (fun ty => match bo_averages o ty with
                   | Some a => if Rltb (1/100) (bo_weights o ty) then Some (ty, a) else None
                   | None => None end) bacon_types.
(* visualization.py:1021-1029 *)
Definition plot_bacon (plot_type : string) (o : bacon_out) : res (list (ctype * list (fl * R)) + list (ctype * R)) :=
  if String.eqb plot_type "scatter" then Ok (inl (bacon_scatter o))
  else if String.eqb plot_type "bar" then Ok (inr (bacon_bars o))
  else Err ValueError.

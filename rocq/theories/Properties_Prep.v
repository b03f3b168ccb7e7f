(* Data-preparation helpers: statements only. *)
From Verif Require Import Prelude Flt Linalg_model Linalg_proofs Linalg_vcov Linalg_thms Did_model Did_spec Did_equiv Prep_model Prep_proofs Prep_balance Prep_valid Prep_rank Prep_ex.
From Coq Require Import Arith ZArith String List Permutation Sorting.Sorted.
Import ListNotations.
Open Scope R_scope.

Section B.
Context {C V : Type}.
Notation obs := (obs C V).
Implicit Types (data : list obs) (o : obs).
Open Scope Z_scope.
Theorem C43_inner_rows data : exists p, balance_inner data = filter p data /\ forall o, In o data -> (p o = true <-> complete data (o_unit o)).
Proof. eapply inner_spec; eauto. Qed.
Theorem C43_inner_balanced data o t : In o (balance_inner data) -> In t (map o_time data) ->
  exists o', In o' (balance_inner data) /\ o_unit o' = o_unit o /\ o_time o' = t.
Proof. eapply inner_balanced; eauto. Qed.
Theorem C43_inner_one_row data u t : NoDup (map (fun o : obs => (o_unit o, o_time o)) data) -> In u (map o_unit (balance_inner data)) -> In t (map o_time data) ->
  length (cell_rows (balance_inner data) u t) = 1%nat.
Proof. eapply inner_one_row; eauto. Qed.
Theorem C43_outer_rows data o : In o (balance_outer data) <-> In o data \/
  (In (o_unit o) (map o_unit data) /\ In (o_time o) (map o_time data) /\ o = {| o_unit := o_unit o; o_time := o_time o; o_val := missing |} /\ cell_rows data (o_unit o) (o_time o) = []).
Proof. eapply outer_rows; eauto. Qed.
Theorem C43_outer_grid data : NoDup (map (fun o : obs => (o_unit o, o_time o)) data) ->
  map (fun o : obs => (o_unit o, o_time o)) (balance_outer data) = list_prod (units data) (periods data) /\
  length (balance_outer data) = (length (units data) * length (periods data))%nat.
Proof. eapply outer_one_row; eauto. Qed.
Theorem C43_outer_cells_kept data o : In o (balance_outer data) -> In (o_unit o) (units data) /\ In (o_time o) (periods data).
Proof. eapply outer_keys; eauto. Qed.
Theorem C43_carry_value (l pre : list obs) o post : isort key_le l = pre ++ o :: post ->
  exists pre' o' post', fill_around l = pre' ++ o' :: post' /\ length pre' = length pre /\ o_unit o' = o_unit o /\ o_time o' = o_time o /\
   forall c, o_val o' c = match first_val (o_val o c :: vals_of (o_unit o) c (rev pre)) with
                          | Some v => Some v | None => first_val (vals_of (o_unit o) c post) end.
Proof. eapply fill_around_value; eauto. Qed.
Theorem C43_carry_spec (l : list obs) : Forall2 (fun o o' => o_unit o' = o_unit o /\ o_time o' = o_time o /\
    (forall c x, o_val o c = Some x -> o_val o' c = Some x) /\
    (forall c, o_val o' c = None <-> forall q, In q l -> o_unit q = o_unit o -> o_val q c = None) /\
    (forall c x, o_val o' c = Some x -> exists q, In q l /\ o_unit q = o_unit o /\ o_val q c = Some x)) (isort key_le l) (fill_around l).
Proof. eapply fill_around_spec; eauto. Qed.
Theorem C43_carry_forward (l : list obs) o' c s v : NoDup (map (fun o : obs => (o_unit o, o_time o)) l) -> In o' (fill_around l) ->
  In s l -> o_unit s = o_unit o' -> o_time s <= o_time o' -> o_val s c = Some v ->
  (forall q, In q l -> o_unit q = o_unit o' -> o_time s < o_time q <= o_time o' -> o_val q c = None) -> o_val o' c = Some v.
Proof. eapply carry_forward; eauto. Qed.
Theorem C43_methods (numeric : C -> bool) method fill data : (exists r, balance_panel numeric method fill data = Ok r) <->
  method = "inner"%string \/ method = "outer"%string \/ method = "fill"%string.
Proof. eapply balance_methods; eauto. Qed.
End B.
Theorem C43_fill_panel {C V} (numeric : C -> bool) (v : V) (data out : list (obs C V)) : balance_panel numeric "fill" (Some v) data = Ok out ->
  (forall o c, In o out -> numeric c = true -> o_val o c <> None) /\
  (forall o c x, In o data -> o_val o c = Some x -> exists o', In o' out /\ o_unit o' = o_unit o /\ o_time o' = o_time o /\ o_val o' c = Some x) /\
  (NoDup (map (fun o => (o_unit o, o_time o)) data) -> map (fun o => (o_unit o, o_time o)) out = list_prod (units data) (periods data)).
Proof. eapply fill_panel; eauto. Qed.
Theorem C43_carry_panel {C V} (numeric : C -> bool) (data out : list (obs C V)) : balance_panel numeric "fill" None data = Ok out ->
  forall o c, In o out -> (o_val o c = None <-> forall q, In q data -> o_unit q = o_unit o -> o_val q c = None).
Proof. eapply carry_panel; eauto. Qed.
Theorem C43_case :
  view (balance_panel (fun _ => true) "inner" None panel) = Some [(1, 0, Some 10); (1, 1, None); (3, 0, Some 5); (3, 1, Some 6)]%Z /\
  view (balance_panel (fun _ => true) "outer" None panel) = Some [(1, 0, Some 10); (1, 1, None); (2, 0, None); (2, 1, Some 20); (3, 0, Some 5); (3, 1, Some 6)]%Z /\
  view (balance_panel (fun _ => true) "fill" (Some 0%Z) panel) = Some [(1, 0, Some 10); (1, 1, Some 0); (2, 0, Some 0); (2, 1, Some 20); (3, 0, Some 5); (3, 1, Some 6)]%Z /\
  view (balance_panel (fun _ => true) "fill" None panel) = Some [(1, 0, Some 10); (1, 1, Some 10); (2, 0, Some 20); (2, 1, Some 20); (3, 0, Some 5); (3, 1, Some 6)]%Z /\
  NoDup (map (fun o => (o_unit o, o_time o)) panel).
Proof. eapply panel_case; eauto. Qed.
Theorem C44_treatment_by_values df column s above new : has_col df column = true ->
  exists df', make_treatment_indicator df column (Some s) None above new = Ok df' /\
    marks df df' new (fun r => In (r column) (spec_list s)).
Proof. eapply treatment_by_values; eauto. Qed.
Theorem C44_treatment_by_threshold df column b above new : has_col df column = true -> numeric_col df column ->
  exists df', make_treatment_indicator df column None (Some (Num (Fin b))) above new = Ok df' /\
    marks df df' new (fun r => if above then above_thr b (r column) else below_thr b (r column)).
Proof. eapply treatment_by_threshold; eauto. Qed.
Theorem C44_threshold_type_error df column b above new : has_col df column = true -> (exists r s, In r (f_rows df) /\ r column = Str s) ->
  make_treatment_indicator df column None (Some (Num (Fin b))) above new = Err TypeError.
Proof. eapply threshold_type_error; eauto. Qed.
Theorem C44_treatment_errors df column tv thr above new :
  (tv <> None /\ thr <> None) \/ (tv = None /\ thr = None) \/ has_col df column = false ->
  make_treatment_indicator df column tv thr above new = Err ValueError.
Proof. eapply treatment_errors; eauto. Qed.
Theorem C44_post_by_periods df column s new : has_col df column = true ->
  exists df', make_post_indicator df column (Some s) None new = Ok df' /\ marks df df' new (fun r => In (r column) (spec_list s)).
Proof. eapply post_by_periods; eauto. Qed.
Theorem C44_post_by_start df column b new : has_col df column = true -> numeric_col df column ->
  exists df', make_post_indicator df column None (Some (Num (Fin b))) new = Ok df' /\ marks df df' new (fun r => above_thr b (r column)).
Proof. eapply post_by_start; eauto. Qed.
Theorem C44_post_errors df column pp st new :
  (pp <> None /\ st <> None) \/ (pp = None /\ st = None) \/ has_col df column = false ->
  make_post_indicator df column pp st new = Err ValueError.
Proof. eapply post_errors; eauto. Qed.
Theorem C44_post_agree df column b l new a c : has_col df column = true -> numeric_col df column ->
  (forall r, In r (f_rows df) -> In (r column) l <-> above_thr b (r column)) ->
  make_post_indicator df column (Some (Many l)) None new = Ok a -> make_post_indicator df column None (Some (Num (Fin b))) new = Ok c ->
  f_cols a = f_cols c /\ Forall2 (fun r r' => forall k, r k = r' k) (f_rows a) (f_rows c).
Proof. eapply post_agree; eauto. Qed.
Theorem C44_event_time df time treat new : has_col df time = true -> has_col df treat = true -> numeric_col df time -> numeric_col df treat ->
  exists df', create_event_time df time treat new = Ok df' /\ f_cols df' = add_name new (f_cols df) /\
  Forall2 (fun r r' => (forall c, c <> new -> r' c = r c) /\
     (forall t g, r time = Num (Fin t) -> r treat = Num (Fin g) -> r' new = Num (Fin (t - g))) /\
     (r treat = Num NaN \/ r treat = Num PInf \/ r treat = Num NInf -> r' new = Num NaN)) (f_rows df) (f_rows df').
Proof. eapply event_time_spec; eauto. Qed.
Theorem C44_event_time_errors df time treat new : has_col df time = false \/ has_col df treat = false -> create_event_time df time treat new = Err ValueError.
Proof. eapply event_time_errors; eauto. Qed.
Theorem C44_wide_shape df vc id tn vn tv df' : wide_to_long df vc id tn vn tv = Ok df' ->
  let times := match tv with Some l => l | None => default_times (length vc) end in
  vc <> [] /\ has_col df id = true /\ (forall c, In c vc -> has_col df c = true) /\ length times = length vc /\ has_col df vn = false /\
  exists others, f_cols df' = id :: tn :: vn :: others /\ NoDup (f_cols df') /\
    (forall c, In c others <-> In c (f_cols df) /\ c <> id /\ ~ In c vc) /\
    Permutation (f_rows df') (flat_map (fun c => map (fun r => upd (upd r vn (r c)) tn (zip_get vc times c)) (f_rows df)) vc) /\
    StronglySorted (fun a b => lex_le (fun r => r id) (fun r => r tn) a b = true) (f_rows df').
Proof. eapply wide_inv; eauto. Qed.
Theorem C44_wide_cells df vc id tn vn tv df' : wide_to_long df vc id tn vn tv = Ok df' -> NoDup vc ->
  let times := match tv with Some l => l | None => default_times (length vc) end in
  length (f_rows df') = (length vc * length (f_rows df))%nat /\
  (forall r k, In r (f_rows df) -> (k < length vc)%nat ->
     exists q, In q (f_rows df') /\ q id = r id /\ q tn = nth k times (Num NaN) /\ q vn = r (nth k vc EmptyString) /\
       forall c, In c (f_cols df') -> c <> tn -> c <> vn -> q c = r c) /\
  (forall q, In q (f_rows df') -> exists r k, In r (f_rows df) /\ (k < length vc)%nat /\
     q id = r id /\ q tn = nth k times (Num NaN) /\ q vn = r (nth k vc EmptyString)).
Proof. eapply wide_cells; eauto. Qed.
Theorem C44_wide_keys_unique df vc id tn vn tv df' : wide_to_long df vc id tn vn tv = Ok df' -> NoDup vc ->
  let times := match tv with Some l => l | None => default_times (length vc) end in
  NoDup times -> NoDup (map (fun r => r id) (f_rows df)) ->
  NoDup (map (fun q => (q id, q tn)) (f_rows df')).
Proof. eapply wide_keys_unique; eauto. Qed.
Theorem C44_wide_errors df vc id tn vn tv :
  vc = [] \/ has_col df id = false \/ (exists c, In c vc /\ has_col df c = false) \/ (exists l, tv = Some l /\ length l <> length vc) ->
  wide_to_long df vc id tn vn tv = Err ValueError.
Proof. eapply wide_errors; eauto. Qed.
Theorem C44_wide_clash df vc id tn vn tv : (In vn (f_cols df) \/ tn = id \/ tn = vn \/ (In tn (f_cols df) /\ ~ In tn vc)) ->
  wide_to_long df vc id tn vn tv = Err ValueError.
Proof. eapply wide_clash; eauto. Qed.
Theorem C44_wide_case : exists df', wide_to_long wide_frame ["y0"; "y1"]%string "id" "t" "v" None = Ok df' /\
  f_cols df' = ["id"; "t"; "v"]%string /\ length (f_rows df') = 4%nat /\ NoDup (map (fun q : row => (q "id"%string, q "t"%string)) (f_rows df')).
Proof. eapply wide_case; eauto. Qed.
Theorem C44_indicator_case : exists df', make_post_indicator doc_frame "p" None (Some (Num (Fin 1))) "post" = Ok df' /\
  marks doc_frame df' "post" (fun r => above_thr 1 (r "p"%string)) /\ numeric_col doc_frame "p" /\ has_col doc_frame "p" = true.
Proof. eapply indicator_case; eauto. Qed.
Section Sm.
Context {I : Type}.
Theorem C44_summary_did (rows : list I) (y d t : I -> R) pre post : rvalues (map t rows) = [pre; post] ->
  scell rows d t 1 post <> [] -> scell rows d t 1 pre <> [] -> scell rows d t 0 post <> [] -> scell rows d t 0 pre <> [] ->
  snd (summarize rows y d t) = Some (Fin ((meanf y (scell rows d t 1 post) - meanf y (scell rows d t 1 pre)) - (meanf y (scell rows d t 0 post) - meanf y (scell rows d t 0 pre)))) /\ pre < post.
Proof. eapply summary_did; eauto. Qed.
Theorem C44_summary_att (rows : list I) (y d t : I -> R) : zero_one rows t -> four_cells rows d t -> snd (summarize rows y d t) = Some (Fin (did_of_means rows d t y)).
Proof. eapply summary_did_01; eauto. Qed.
Theorem C44_summary_lines (rows : list I) (y d t : I -> R) c : In c (group_stats rows y d t) <->
  scell rows d t (cs_d c) (cs_t c) <> [] /\ cs_n c = length (scell rows d t (cs_d c) (cs_t c)) /\ cs_mean c = meanf y (scell rows d t (cs_d c) (cs_t c)).
Proof. eapply summary_lines; eauto. Qed.
Theorem C44_summary_label times c : cs_d c <> 1 -> fst (fst (label times c)) = "Control"%string.
Proof. eapply summary_label; eauto. Qed.
Theorem C44_summary_label_refuted (rows extra : list I) (y d t : I -> R) : (forall i, In i extra -> d i <> 0 /\ d i <> 1) -> (forall i, In i extra -> In (t i) (map t rows)) ->
  snd (summarize (rows ++ extra) y d t) = snd (summarize rows y d t).
Proof. eapply summary_ignores; eauto. Qed.
Context {U : Type} (ueq : forall x y : U, {x = y} + {x <> y}).
Theorem C44_cohorts (rows : list I) (u : I -> U) (y d t : I -> R) covs a b m n cm : In (a, b, m, n, cm) (cohorts ueq rows u y d t covs) <->
  scell rows d t a b <> [] /\ m = meanf y (scell rows d t a b) /\ n = length (nodup ueq (map u (scell rows d t a b))) /\ cm = map (fun c => meanf c (scell rows d t a b)) covs.
Proof. eapply cohorts_lines; eauto. Qed.
End Sm.
Section R.
Context {I U : Type} (ueq : forall x y : U, {x = y} + {x <> y}).
Variable dsort : list (rank_row U) -> list (rank_row U).
Hypothesis Hd : dsort_ok dsort.
Variable rows : list I.
Variable u : I -> U.
Variable t : I -> Z.
Variable y : I -> fl.
Notation rank := (rank_control_units ueq dsort rows u t y).
Notation treatedS := (treated_set ueq rows u).
Notation is_candidate := (is_candidate rows u t).
Notation full_panel := (full_panel ueq rows u t y).
Notation candidates := (candidates ueq rows u t).
Notation seen := (seen ueq rows u t).
Notation valid_periods := (valid_periods rows t).
Theorem C45_table d tu pre covs ow cw exclude require n_top suggest out treated : rank d tu pre covs ow cw exclude require n_top suggest = Ok (Some out) -> treatedS tu d suggest = Ok treated ->
  StronglySorted (fun a b => q_le a b = true) out /\ NoDup (map k_unit out) /\
  (forall r, In r out -> is_candidate treated exclude (rank_periods rows t pre) (k_unit r)) /\
  (forall rq x, require = Some rq -> In x rq -> is_candidate treated exclude (rank_periods rows t pre) x -> In x (map k_unit out)) /\
  (forall r, In r out -> k_req r = true <-> exists rq, require = Some rq /\ In (k_unit r) rq) /\
  exists cands, NoDup cands /\ (forall x, In x cands <-> is_candidate treated exclude (rank_periods rows t pre) x) /\
    length out = match n_top with None => length cands | Some n => Z.to_nat (Z.min (Z.max n (Z.of_nat (length (filter (fun x => match require with Some rq => umem ueq x rq | None => false end) cands)))) (Z.of_nat (length cands))) end /\
    (n_top = None -> Permutation (map k_unit out) cands).
Proof. eapply rank_table; eauto. Qed.
Theorem C45_top d tu pre covs ow cw exclude require n suggest out full : rank d tu pre covs ow cw exclude require (Some n) suggest = Ok (Some out) -> rank d tu pre covs ow cw exclude require None suggest = Ok (Some full) ->
  incl out full /\ forall r r', In r out -> k_req r = false -> In r' full -> ~ In r' out -> q_le r r' = true.
Proof. eapply rank_top; eauto. Qed.
Theorem C45_scores d tu pre covs ow cw exclude require n_top suggest out treated : rank d tu pre covs ow cw exclude require n_top suggest = Ok (Some out) -> treatedS tu d suggest = Ok treated ->
  full_panel (rank_periods rows t pre) (candidates treated exclude (rank_periods rows t pre) ++ seen (rank_periods rows t pre) treated) ->
  (forall c i, In c covs -> In i (pre_data rows t (rank_periods rows t pre)) -> isfin (c i)) ->
  forall r, In r out -> (exists s, k_quality r = Fin s /\ 0 <= s <= 1) /\ (exists s, k_trend r = Fin s /\ 0 <= s <= 1) /\ (exists s, k_rmse r = Fin s /\ 0 <= s) /\
    (if (length covs =? 0)%nat then k_cov r = NaN else exists s, k_cov r = Fin s /\ 0 <= s <= 1).
Proof. eapply rank_scores; eauto. Qed.
Theorem C45_rmse d tu pre covs ow cw exclude require n_top suggest out treated : rank d tu pre covs ow cw exclude require n_top suggest = Ok (Some out) -> treatedS tu d suggest = Ok treated ->
  let ps := rank_periods rows t pre in forall r, In r out -> k_rmse r = rmse ueq u t y (pre_data rows t ps) (valid_periods ps) (seen ps treated) (k_unit r) /\ k_quality r = combine_scores ow cw (k_trend r) (k_cov r).
Proof. eapply rank_rmse; eauto. Qed.
Theorem C45_best d tu pre covs ow cw exclude require suggest out treated : rank d tu pre covs ow cw exclude require None suggest = Ok (Some out) -> treatedS tu d suggest = Ok treated ->
  full_panel (rank_periods rows t pre) (candidates treated exclude (rank_periods rows t pre) ++ seen (rank_periods rows t pre) treated) ->
  (exists r, In r out /\ k_trend r = Fin 1) /\
  ((exists r r' a b, In r out /\ In r' out /\ k_rmse r = Fin a /\ k_rmse r' = Fin b /\ / 10000000000 <= b - a) -> exists r, In r out /\ k_trend r = Fin 0) /\
  (forall r r' a b s s', In r out -> In r' out -> k_rmse r = Fin a -> k_rmse r' = Fin b -> a <= b -> k_trend r = Fin s -> k_trend r' = Fin s' -> s' <= s).
Proof. eapply rank_best; eauto. Qed.
Theorem C45_required_missing d tu pre covs ow cw exclude require n_top suggest out treated x : rank d tu pre covs ow cw exclude require n_top suggest = Ok (Some out) -> treatedS tu d suggest = Ok treated ->
  In x treated \/ (forall i, In i rows -> u i = x -> ~ In (t i) (rank_periods rows t pre)) -> ~ In x (map k_unit out).
Proof. eapply rank_required_missing; eauto. Qed.
Theorem C45_nan_first_refuted d tu pre ow cw exclude require n_top suggest out treated x0 cs : rank d tu pre [] ow cw exclude require n_top suggest = Ok (Some out) -> treatedS tu d suggest = Ok treated ->
  candidates treated exclude (rank_periods rows t pre) = x0 :: cs ->
  rmse ueq u t y (pre_data rows t (rank_periods rows t pre)) (valid_periods (rank_periods rows t pre)) (seen (rank_periods rows t pre) treated) x0 = NaN ->
  forall r, In r out -> k_quality r = NaN.
Proof. eapply rank_nan_first; eauto. Qed.
End R.
Section Sg.
Context {I U : Type} (ueq : forall x y : U, {x = y} + {x <> y}).
Variable u : I -> U.
Variable t : I -> Z.
Variable y : I -> fl.
Variable polyfit : list fl -> fl.
Variable nlargest : nat -> list (@cand U) -> list (@cand U).
Hypothesis Hn : nlargest_ok nlargest.
Theorem C45_suggest rows pre n : let out := suggest_candidates ueq rows u t y polyfit nlargest pre n in
  (length out <= n)%nat /\
  forall c, In c out -> (n_score c = NaN \/ exists s, n_score c = Fin s /\ 0 <= s <= 1) /\ (exists i, In i rows /\ u i = n_unit c /\ In (t i) pre) /\
    n_level c = nmean (map y (filter (fun i => keqb ueq (u i) (n_unit c)) (pre_data rows t pre))) /\
    (n_similar c <= length (filter (fun v => negb (keqb ueq v (n_unit c))) (cov_units ueq u (pre_data rows t pre))))%nat.
Proof. eapply suggest_spec; eauto. Qed.
End Sg.
Theorem C45_required_refuted : exists out, rk None (Some [1%nat]) None [] (7/10) (3/10) None (Some [1%nat; 3%nat]) (Some 1%Z) false = Ok (Some out) /\
  ~ In 1%nat (map k_unit out) /\ In 3%nat (map k_unit out) /\ length out = 1%nat.
Proof. eapply rank_required_refuted; eauto. Qed.
Theorem C45_nan_order_refuted : trend_scores [NaN; Fin 0; Fin 1] = [NaN; NaN; NaN] /\ trend_scores [Fin 0; NaN; Fin 1] = [Fin 1; NaN; Fin 0] /\ Permutation [NaN; Fin 0; Fin 1] [Fin 0; NaN; Fin 1].
Proof. eapply nan_order_refuted; eauto. Qed.
Theorem C45_slope_order_refuted : Permutation (sug_ex false) (sug_ex true) /\
  (exists s, In s (map n_slope (suggest_candidates Nat.eq_dec (sug_ex false) (fun i => fst (fst i)) (fun i => snd (fst i)) (fun i => Fin (snd i)) two_point nlargest_ex [0; 1]%Z 1)) /\ s = Fin 3) /\
  (exists s, In s (map n_slope (suggest_candidates Nat.eq_dec (sug_ex true) (fun i => fst (fst i)) (fun i => snd (fst i)) (fun i => Fin (snd i)) two_point nlargest_ex [0; 1]%Z 1)) /\ s = Fin (-3)).
Proof. eapply suggest_slope_refuted; eauto. Qed.
Theorem C45_complete_case : full_panel Nat.eq_dec rk_rows (fun i => fst (fst i)) (fun i => snd (fst i)) (fun i => Fin (snd i)) (rank_periods rk_rows (fun i => snd (fst i)) None) [1%nat; 2%nat; 3%nat].
Proof. eapply rk_complete; eauto. Qed.
Theorem C45_case n : exists out, rk None (Some [1%nat]) None [] (7/10) (3/10) None (Some [1%nat; 3%nat]) n false = Ok (Some out).
Proof. eapply rk_ok; eauto. Qed.
Theorem C45_sort_oracle {U} : dsort_ok (@dsort_ex U).
Proof. eapply dsort_ex_ok; eauto. Qed.
Theorem C45_nlargest_oracle {U} : nlargest_ok (@nlargest_ex U).
Proof. eapply nlargest_ex_ok; eauto. Qed.
Theorem C48_iff df outcome treatment time unit : uniform_col df time ->
  ((exists r, validate_did_data df outcome treatment time unit false = Ok r /\ v_valid r = true) <-> usable df outcome treatment time unit).
Proof. eapply validate_iff; eauto. Qed.
Theorem C48_raise df outcome treatment time unit r : validate_did_data df outcome treatment time unit false = Ok r ->
  validate_did_data df outcome treatment time unit true = (if v_valid r then Ok r else Err ValueError) /\ (v_valid r = true <-> v_errors r = []).
Proof. eapply validate_raise; eauto. Qed.
Theorem C48_summary df outcome treatment time unit r s : validate_did_data df outcome treatment time unit false = Ok r -> v_summary r = Some s -> v_valid r = true ->
  s_obs s = length (f_rows df) /\ (s_treated s + s_control s = s_obs s)%nat /\
  s_treated s = length (filter (fun q => veqb (q treatment) (Num (Fin 1))) (f_rows df)).
Proof. eapply validate_summary; eauto. Qed.
Section Ft.
Context {K G : Type} (keq : forall x y : K, {x = y} + {x <> y}) (geq : forall x y : G, {x = y} + {x <> y}).
Variable qr : list row -> list (row -> R) -> list nat.
Variable lstsq : list row -> list (row -> R) -> (row -> R) -> list R.
Variable inv : list row -> list (row -> R) -> option (nat -> nat -> R).
Variable pinv : list row -> list (row -> R) -> nat -> nat -> R.
Variable sf : option Z -> fl -> fl.
Variable ppf : option Z -> R -> R.
Hypothesis Hls : lstsq_ok lstsq.
Hypothesis Hinv : inv_ok inv.
Hypothesis Hqr : qr_ok qr.
Notation fit := (did_fit keq geq qr lstsq inv pinv sf ppf).
Theorem C48_fit_partial cfg df outcome treatment time unit r :
  validate_did_data df outcome treatment time unit false = Ok r -> v_valid r = true ->
  (forall r, In r (f_rows df) -> exists x, r outcome = Num (Fin x)) ->
  (forall r, In r (f_rows df) -> r time = Num (Fin 0) \/ r time = Num (Fin 1)) ->
  (4 < length (f_rows df))%nat -> parse_action (c_action cfg) <> None ->
  (forall cl, c_cluster cfg = Some cl -> (2 <= length (cl_keys keq (f_rows df) cl))%nat) ->
  exists s se, fit cfg (f_rows df) (colf outcome) (colf treatment) (colf time) [] [] [] = Ok s /\ r_se s = Fin se /\ 0 <= se.
Proof. eapply valid_fit; eauto. Qed.
Theorem C48_checks df outcome treatment time unit r :
  validate_did_data df outcome treatment time unit false = Ok r -> v_valid r = true ->
  (forall r, In r (f_rows df) -> r time = Num (Fin 0) \/ r time = Num (Fin 1)) ->
  existsb (has_nan (f_rows df)) [colf outcome; colf treatment; colf time] = false /\
  two_values (f_rows df) (colf treatment) = true /\ two_values (f_rows df) (colf time) = true /\
  binary (f_rows df) (colf treatment) = true /\ binary (f_rows df) (colf time) = true.
Proof. eapply valid_checks; eauto. Qed.
Theorem C48_time_refuted cfg df outcome treatment time unit : usable df outcome treatment time unit ->
  (exists r v, In r (f_rows df) /\ r time = v /\ is01 v = false) ->
  fit cfg (f_rows df) (colf outcome) (colf treatment) (colf time) [] [] [] = Err ValueError.
Proof. eapply valid_time_refused; eauto. Qed.
Theorem C48_four_rows_refuted cfg df outcome treatment time unit : usable df outcome treatment time unit ->
  (forall r, In r (f_rows df) -> exists x, r outcome = Num (Fin x)) ->
  (forall r, In r (f_rows df) -> r time = Num (Fin 0) \/ r time = Num (Fin 1)) ->
  length (f_rows df) = 4%nat -> parse_action (c_action cfg) <> None -> c_robust cfg = true -> c_cluster cfg = None ->
  fit cfg (f_rows df) (colf outcome) (colf treatment) (colf time) [] [] [] = Err ZeroDivisionError.
Proof. eapply valid_four_rows_refuted; eauto. Qed.
Theorem C48_infinite_refuted cfg df outcome treatment time unit : usable df outcome treatment time unit ->
  (exists r, In r (f_rows df) /\ (r outcome = Num PInf \/ r outcome = Num NInf)) ->
  fit cfg (f_rows df) (colf outcome) (colf treatment) (colf time) [] [] [] = Err ValueError.
Proof. eapply valid_infinite_refuted; eauto. Qed.
End Ft.
Theorem C48_case : (exists r, validate_did_data five_frame "y" "d" "p" None false = Ok r /\ v_valid r = true) /\
  (forall r, In r (f_rows five_frame) -> exists x, r "y"%string = Num (Fin x)) /\
  (forall r, In r (f_rows five_frame) -> r "p"%string = Num (Fin 0) \/ r "p"%string = Num (Fin 1)) /\ (4 < length (f_rows five_frame))%nat.
Proof. eapply five_valid; eauto. Qed.
Theorem C48_four_rows_case : (exists r, validate_did_data doc_frame "y" "d" "p" None false = Ok r /\ v_valid r = true) /\ usable doc_frame "y" "d" "p" None.
Proof. eapply doc_valid; eauto. Qed.
Theorem C48_time_case : (exists r, validate_did_data shifted_frame "y" "d" "p" None false = Ok r /\ v_valid r = true) /\ usable shifted_frame "y" "d" "p" None /\
  exists r v, In r (f_rows shifted_frame) /\ r "p"%string = v /\ is01 v = false.
Proof. eapply shifted_valid; eauto. Qed.
Theorem C48_infinite_case : (exists r, validate_did_data inf_frame "y" "d" "p" None false = Ok r /\ v_valid r = true) /\ usable inf_frame "y" "d" "p" None.
Proof. eapply inf_valid; eauto. Qed.
Print Assumptions C43_inner_rows.
Print Assumptions C43_inner_balanced.
Print Assumptions C43_inner_one_row.
Print Assumptions C43_outer_rows.
Print Assumptions C43_outer_grid.
Print Assumptions C43_outer_cells_kept.
Print Assumptions C43_carry_value.
Print Assumptions C43_carry_spec.
Print Assumptions C43_carry_forward.
Print Assumptions C43_methods.
Print Assumptions C43_fill_panel.
Print Assumptions C43_carry_panel.
Print Assumptions C43_case.
Print Assumptions C44_treatment_by_values.
Print Assumptions C44_treatment_by_threshold.
Print Assumptions C44_threshold_type_error.
Print Assumptions C44_treatment_errors.
Print Assumptions C44_post_by_periods.
Print Assumptions C44_post_by_start.
Print Assumptions C44_post_errors.
Print Assumptions C44_post_agree.
Print Assumptions C44_event_time.
Print Assumptions C44_event_time_errors.
Print Assumptions C44_wide_shape.
Print Assumptions C44_wide_cells.
Print Assumptions C44_wide_keys_unique.
Print Assumptions C44_wide_errors.
Print Assumptions C44_wide_clash.
Print Assumptions C44_wide_case.
Print Assumptions C44_indicator_case.
Print Assumptions C44_summary_did.
Print Assumptions C44_summary_att.
Print Assumptions C44_summary_lines.
Print Assumptions C44_summary_label.
Print Assumptions C44_summary_label_refuted.
Print Assumptions C44_cohorts.
Print Assumptions C45_table.
Print Assumptions C45_top.
Print Assumptions C45_scores.
Print Assumptions C45_rmse.
Print Assumptions C45_best.
Print Assumptions C45_required_missing.
Print Assumptions C45_nan_first_refuted.
Print Assumptions C45_suggest.
Print Assumptions C45_required_refuted.
Print Assumptions C45_nan_order_refuted.
Print Assumptions C45_slope_order_refuted.
Print Assumptions C45_complete_case.
Print Assumptions C45_case.
Print Assumptions C45_sort_oracle.
Print Assumptions C45_nlargest_oracle.
Print Assumptions C48_iff.
Print Assumptions C48_raise.
Print Assumptions C48_summary.
Print Assumptions C48_fit_partial.
Print Assumptions C48_checks.
Print Assumptions C48_time_refuted.
Print Assumptions C48_four_rows_refuted.
Print Assumptions C48_infinite_refuted.
Print Assumptions C48_case.
Print Assumptions C48_four_rows_case.
Print Assumptions C48_time_case.
Print Assumptions C48_infinite_case.

(* Exported dictionaries and tables carry the reported numbers (C122). *)
From Coq Require Import Reals Lra.
From Verif Require Import Prelude Flt Lp Linalg_model Did_model Multi_model Results_model Bacon_model Staggered_model Sun_model Synth_model Honest_model Sdid_model Export_model Export_proofs.
From Coq Require Import Arith ZArith String List Permutation.
Import ListNotations.
Open Scope R_scope.

Theorem C122_coefficient_names names coefs j c : NoDup names -> length coefs = length names -> nth_error coefs j = Some c ->
  exists n, nth_error names j = Some n /\ dget (coef_dict names coefs) n = Some (VF c).
Proof. exact (coef_dict_get names coefs j c). Qed.
Theorem C122_coefficient_keys names coefs : NoDup names -> length coefs = length names -> map fst (coef_dict names coefs) = names.
Proof. exact (coef_dict_keys names coefs). Qed.
Theorem C122_coefficient_last names1 n names2 coefs1 c coefs2 : length coefs1 = length names1 -> length coefs2 = length names2 -> ~ In n names2 ->
  dget (coef_dict (names1 ++ n :: names2) (coefs1 ++ c :: coefs2)) n = Some (VF c).
Proof. exact (coef_dict_last names1 n names2 coefs1 c coefs2). Qed.
Theorem C122_multiperiod_coefficient nonref post coefs j p c : NoDup nonref -> NoDup post -> length coefs = (2 + length nonref + length post)%nat ->
  nth_error post j = Some p -> nth_error coefs (2 + length nonref + j) = Some c ->
  dget (coef_dict (mp_names "treated" nonref post [] []) coefs) (cat "treated:period_" (show p)) = Some (VF c).
Proof. exact (mp_coefficient nonref post coefs j p c). Qed.
Theorem C122_period_names_refuted coefs : length coefs = 7%nat ->
  let names := mp_names "treated" [2; 3]%Z [3]%Z [] [("period", ["2"; "3"])]%string in
  length names = 7%nat /\ dget (coef_dict names coefs) "period_2" = Some (VF (nth 5 coefs NaN)) /\ dget (coef_dict names coefs) "period_3" = Some (VF (nth 6 coefs NaN)) /\
  length (coef_dict names coefs) = 5%nat.
Proof. exact (mp_names_collide coefs). Qed.
Theorem C122_covariate_names_refuted c0 c1 c2 c3 c4 : dget (coef_dict (did_names "treated" "post" ["treated"] []) [c0; c1; c2; c3; c4])%string "treated" = Some (VF c4).
Proof. exact (did_names_collide c0 c1 c2 c3 c4). Qed.
Theorem C122_did_dict {I} (r : did_result I) nt nc r2 method nboot ncl :
  let d := did_to_dict r nt nc r2 method nboot ncl in
  dget d "att" = Some (VF (r_att r)) /\ dget d "se" = Some (VF (r_se r)) /\ dget d "t_stat" = Some (VF (r_t r)) /\ dget d "p_value" = Some (VF (r_p r)) /\
  dget d "conf_int_lower" = Some (VF (fst (r_ci r))) /\ dget d "conf_int_upper" = Some (VF (snd (r_ci r))) /\
  dget d "n_obs" = Some (VN (r_n_obs r)) /\ dget d "inference_method" = Some (VS method) /\
  dget d "n_bootstrap" = option_map VN nboot /\ dget d "n_clusters" = option_map VN ncl /\ NoDup (map fst d).
Proof. exact (did_to_dict_fields r nt nc r2 method nboot ncl). Qed.
Theorem C122_multiperiod_periods {I} (r : mp_result I) nt nc r2 e : NoDup (map pe_period (mp_effects r)) -> In e (mp_effects r) ->
  let d := mp_to_dict r nt nc r2 in
  dget d (cat "effect_period_" (show (pe_period e))) = Some (VF (pe_effect e)) /\
  dget d (cat "se_period_" (show (pe_period e))) = Some (VF (pe_se e)) /\
  dget d (cat "pval_period_" (show (pe_period e))) = Some (VF (pe_p e)).
Proof. exact (mp_to_dict_periods r nt nc r2 e). Qed.
Theorem C122_multiperiod_summary {I} (r : mp_result I) nt nc r2 :
  let d := mp_to_dict r nt nc r2 in
  dget d "avg_att" = Some (VF (mp_avg r)) /\ dget d "avg_se" = Some (VF (mp_avg_se r)) /\ dget d "avg_t_stat" = Some (VF (mp_avg_t r)) /\ dget d "avg_p_value" = Some (VF (mp_avg_p r)) /\
  dget d "avg_conf_int_lower" = Some (VF (fst (mp_avg_ci r))) /\ dget d "avg_conf_int_upper" = Some (VF (snd (mp_avg_ci r))) /\
  dget d "n_obs" = Some (VN (mp_n_obs r)) /\ dget d "n_treated" = Some (VN nt) /\ dget d "n_control" = Some (VN nc) /\
  dget d "n_pre_periods" = Some (VN (length (mp_pre r))) /\ dget d "n_post_periods" = Some (VN (length (mp_post r))).
Proof. exact (mp_to_dict_summary r nt nc r2). Qed.
Theorem C122_multiperiod_size {I} (r : mp_result I) nt nc r2 : NoDup (map pe_period (mp_effects r)) ->
  length (mp_to_dict r nt nc r2) = (12 + 3 * length (mp_effects r))%nat.
Proof. exact (mp_to_dict_size r nt nc r2). Qed.
Theorem C122_cs_cells r : length (cr_reports r) = length (cr_effects r) -> exists l, cs_export r "group_time" = Ok (TabGT l) /\
  map tw_key l = map (fun e => (ge_g e, ge_t e)) (cr_effects r) /\ map tw_eff l = map ef_eff (cr_reports r) /\ map tw_se l = map ef_se (cr_reports r) /\
  map tw_t l = map ef_t (cr_reports r) /\ map tw_p l = map ef_p (cr_reports r) /\ map (fun w => (tw_lo w, tw_hi w)) l = map ef_ci (cr_reports r).
Proof. exact (cs_export_cells r). Qed.
Theorem C122_cs_event r : match cr_es r with
  | None => cs_export r "event_study" = Err ValueError
  | Some l => exists l', Permutation l' l /\ ksorted ev_leb l' /\
      cs_export r "event_study" = Ok (TabEvent (map (fun p => mk_trow (option Z) (fst p) (ef_eff (snd p)) (ef_se (snd p)) (ef_t (snd p)) (ef_p (snd p)) (fst (ef_ci (snd p))) (snd (ef_ci (snd p)))) l'))
  end.
Proof. exact (cs_export_event r). Qed.
Theorem C122_cs_group r : match cr_group r with
  | None => cs_export r "group" = Err ValueError
  | Some l => exists l', Permutation l' l /\ ksorted coh_leb l' /\
      cs_export r "group" = Ok (TabGroup (map (fun p => mk_trow coh (fst p) (ef_eff (snd p)) (ef_se (snd p)) (ef_t (snd p)) (ef_p (snd p)) (fst (ef_ci (snd p))) (snd (ef_ci (snd p)))) l'))
  end.
Proof. exact (cs_export_group r). Qed.
Theorem C122_cs_levels r level : is_ok (cs_export r level) = true <->
  level = "group_time"%string \/ level = "event_study"%string /\ cr_es r <> None \/ level = "group"%string /\ cr_group r <> None.
Proof. exact (cs_export_level r level). Qed.
Theorem C122_sa_event r : exists l', Permutation l' (sa_es r) /\ ksorted Z.leb l' /\
  sa_export r "event_study" = Ok (SaEvent (map (fun p => mk_trow Z (fst p) (se_eff (snd p)) (se_se (snd p)) (se_t (snd p)) (se_p (snd p)) (fst (se_ci (snd p))) (snd (se_ci (snd p)))) l')).
Proof. exact (sa_export_event r). Qed.
Theorem C122_sa_cohort r : exists l', Permutation l' (sa_coh_effects r) /\ sa_export r "cohort" = Ok (SaCohort l').
Proof. exact (sa_export_cohort r). Qed.
Theorem C122_weights_table sort w : (forall l, Permutation (sort l) l /\ desc (sort l)) -> w <> [] ->
  exists x r, weights_table sort w = x :: r /\ In x w /\ (forall z, In z w -> snd z <= snd x) /\ Permutation (x :: r) w.
Proof. exact (weights_table_top sort w). Qed.
Theorem C122_weights_sort_exists l : Permutation (wsort l) l /\ desc (wsort l).
Proof. exact (wsort_ok l). Qed.
Section Sens.
Variable lp : nat -> list con -> list R -> option R.
Variable ppf : option Z -> R -> R.
Theorem C122_sensitivity_rows cfg r grid q : hd_sensitivity lp ppf cfg r grid = Ok q ->
  Forall2 (fun M row => exists o, hd_fit lp ppf cfg r (Some M) = Ok o /\
      row = (M, (ho_lb o, ho_ub o), (ho_ci_lb o, ho_ci_ub o), ho_significant o))
    (match grid with Some g => g | None => default_grid (hd_method cfg) end) (sens_table q).
Proof. exact (sens_table_rows lp ppf cfg r grid q). Qed.
End Sens.
(* a result with two post periods *)
Definition ex_effects : list period_effect :=
  [{| pe_period := 2; pe_effect := Fin 1; pe_se := Fin (1/2); pe_t := Fin 2; pe_p := Fin (1/25); pe_ci := (Fin 0, Fin 2) |};
   {| pe_period := -10; pe_effect := Fin 3; pe_se := Fin 1; pe_t := Fin 3; pe_p := Fin (1/100); pe_ci := (Fin 1, Fin 5) |}].
Example C122_case : NoDup (map pe_period ex_effects) /\ cat "effect_period_" (show (-10)) = "effect_period_-10"%string /\
  dget (dputs [] (mp_entries ex_effects)) "effect_period_-10" = Some (VF (Fin 3)) /\ dget (dputs [] (mp_entries ex_effects)) "pval_period_2" = Some (VF (Fin (1/25))).
Proof. split; [repeat constructor; cbn; intuition discriminate|]. repeat split; reflexivity. Qed.
Example C122_wsort_case : wsort [(7%Z, 1/4); (8%Z, 3/4)] = [(8%Z, 3/4); (7%Z, 1/4)].
Proof. unfold wsort. cbn [fold_right winsert snd]. destruct (Rleb (3/4) (1/4)) eqn:E; [apply Rleb_true in E; exfalso; lra|reflexivity]. Qed.
Print Assumptions C122_coefficient_names.
Print Assumptions C122_coefficient_keys.
Print Assumptions C122_coefficient_last.
Print Assumptions C122_multiperiod_coefficient.
Print Assumptions C122_period_names_refuted.
Print Assumptions C122_covariate_names_refuted.
Print Assumptions C122_did_dict.
Print Assumptions C122_multiperiod_periods.
Print Assumptions C122_multiperiod_summary.
Print Assumptions C122_multiperiod_size.
Print Assumptions C122_cs_cells.
Print Assumptions C122_cs_event.
Print Assumptions C122_cs_group.
Print Assumptions C122_cs_levels.
Print Assumptions C122_sa_event.
Print Assumptions C122_sa_cohort.
Print Assumptions C122_weights_table.
Print Assumptions C122_weights_sort_exists.
Print Assumptions C122_sensitivity_rows.

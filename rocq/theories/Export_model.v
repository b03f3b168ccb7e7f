(* Dictionaries and tables exported by the result classes:
   coefficient dictionaries (estimators.py:323, 991), DiDResults.to_dict (results.py:133-159),
   MultiPeriodDiDResults.to_dict and to_dataframe (results.py:417-470), SyntheticDiDResults.to_dict and weight
   tables (results.py:634-700), CallawaySantAnnaResults.to_dataframe (staggered_results.py:224-286),
   SunAbrahamResults.to_dataframe (sun_abraham.py:182-233), SensitivityResults.to_dataframe (honest_did.py:434-449).
   Periods are integers and are formatted by f"{period}" in decimal. *)
From Verif Require Import Prelude Flt Linalg_model Did_model Multi_model Results_model Bacon_model Staggered_model Sun_model Synth_model Honest_model Sdid_model.
From Coq Require Import Arith ZArith String List DecimalString Decimal DecimalZ.
Import ListNotations.
Open Scope R_scope.

(* Python values that occur in the exports *)
Inductive cell := VF (x : fl) | VN (n : nat) | VS (s : string) | VNone.
(* an insertion-ordered dict: assigning to an existing key replaces its value in place *)
Definition dict : Type := list (string * cell).
Fixpoint dput (d : dict) (k : string) (v : cell) : dict :=
  match d with
  | [] => [(k, v)]
  | (k', v') :: r => if String.eqb k' k then (k', v) :: r else (k', v') :: dput r k v
  end.
Fixpoint dget (d : dict) (k : string) : option cell :=
  match d with
  | [] => None
  | (k', v) :: r => if String.eqb k' k then Some v else dget r k
  end.
Definition dputs (d : dict) (l : list (string * cell)) : dict := fold_left (fun d kv => dput d (fst kv) (snd kv)) l d.

(* f"{n}" of an int *)
Definition show (z : Z) : string := NilEmpty.string_of_int (Z.to_int z).
Definition cat (a b : string) : string := String.append a b.

(* coef_dict = {name: coef for name, coef in zip(var_names, coefficients)} *)
Definition coef_dict (names : list string) (coefs : list fl) : dict :=
  dputs [] (map (fun nc => (fst nc, VF (snd nc))) (combine names coefs)).
(* DifferenceInDifferences.fit 258-275; fixed-effect dummies are named column_level by pd.get_dummies(prefix=column) *)
Definition did_names (treatment time : string) (covs : list string) (fes : list (string * list string)) : list string :=
  ["const"%string; treatment; time; cat treatment (cat ":" time)] ++ covs
  ++ flat_map (fun f => map (fun lv => cat (fst f) (cat "_" lv)) (snd f)) fes.
(* MultiPeriodDiD.fit 848-882 *)
Definition mp_names (treatment : string) (nonref post : list Z) (covs : list string) (fes : list (string * list string)) : list string :=
  ["const"%string; treatment] ++ map (fun p => cat "period_" (show p)) nonref
  ++ map (fun p => cat treatment (cat ":period_" (show p))) post ++ covs
  ++ flat_map (fun f => map (fun lv => cat (fst f) (cat "_" lv)) (snd f)) fes.

(* DiDResults.to_dict, 133-159 *)
Definition did_to_dict {I} (r : did_result I) (nt nc : nat) (r2 : option fl) (method : string) (nboot nclusters : option nat) : dict :=
  [("att", VF (r_att r)); ("se", VF (r_se r)); ("t_stat", VF (r_t r)); ("p_value", VF (r_p r));
   ("conf_int_lower", VF (fst (r_ci r))); ("conf_int_upper", VF (snd (r_ci r)));
   ("n_obs", VN (r_n_obs r)); ("n_treated", VN nt); ("n_control", VN nc);
   ("r_squared", match r2 with Some x => VF x | None => VNone end); ("inference_method", VS method)]%string
  ++ match nboot with Some n => [("n_bootstrap"%string, VN n)] | None => [] end
  ++ match nclusters with Some n => [("n_clusters"%string, VN n)] | None => [] end.

(* MultiPeriodDiDResults.to_dict, 417-447 *)
Definition mp_base {I} (r : mp_result I) (nt nc : nat) (r2 : option fl) : dict :=
  [("avg_att", VF (mp_avg r)); ("avg_se", VF (mp_avg_se r)); ("avg_t_stat", VF (mp_avg_t r)); ("avg_p_value", VF (mp_avg_p r));
   ("avg_conf_int_lower", VF (fst (mp_avg_ci r))); ("avg_conf_int_upper", VF (snd (mp_avg_ci r)));
   ("n_obs", VN (mp_n_obs r)); ("n_treated", VN nt); ("n_control", VN nc);
   ("n_pre_periods", VN (length (mp_pre r))); ("n_post_periods", VN (length (mp_post r)));
   ("r_squared", match r2 with Some x => VF x | None => VNone end)]%string.
Definition mp_entries (l : list period_effect) : list (string * cell) :=
  flat_map (fun e => [(cat "effect_period_" (show (pe_period e)), VF (pe_effect e));
                      (cat "se_period_" (show (pe_period e)), VF (pe_se e));
                      (cat "pval_period_" (show (pe_period e)), VF (pe_p e))]) l.
Definition mp_to_dict {I} (r : mp_result I) (nt nc : nat) (r2 : option fl) : dict :=
  dputs (mp_base r nt nc r2) (mp_entries (mp_effects r)).
(* to_dataframe 449-470: one row per entry of the dict period_effects *)
Record trow {K : Type} := mk_trow { tw_key : K; tw_eff : fl; tw_se : fl; tw_t : fl; tw_p : fl; tw_lo : fl; tw_hi : fl }.
Arguments trow : clear implicits.
Definition mp_table (l : list period_effect) : list (trow Z * bool) :=
  map (fun e => (mk_trow Z (pe_period e) (pe_effect e) (pe_se e) (pe_t e) (pe_p e) (fst (pe_ci e)) (snd (pe_ci e)), period_significant (pe_p e))) l.

(* get_unit_weights_df 674-686: sort_values(ascending=False); the order of ties is not specified *)
Definition desc (l : list (Z * R)) : Prop := forall i j, (i < j < length l)%nat -> snd (nth j l (0%Z, 0)) <= snd (nth i l (0%Z, 0)).
Definition weights_table (sort : list (Z * R) -> list (Z * R)) (w : list (Z * R)) : list (Z * R) := sort w.
(* a sort with the required result exists *)
Fixpoint winsert (x : Z * R) (l : list (Z * R)) : list (Z * R) :=
  match l with [] => [x] | y :: r => if Rleb (snd y) (snd x) then x :: l else y :: winsert x r end.
Definition wsort (l : list (Z * R)) : list (Z * R) := fold_right winsert [] l.

(* sorted(d.items()) on distinct keys: compares the keys only *)
Section Sort.
Context {K V : Type} (leb : K -> K -> bool).
Fixpoint kinsert (x : K * V) (l : list (K * V)) : list (K * V) :=
  match l with [] => [x] | y :: r => if leb (fst x) (fst y) then x :: l else y :: kinsert x r end.
Definition ksort (l : list (K * V)) : list (K * V) := fold_right kinsert [] l.
End Sort.
Definition cs_row {K} (k : K) (e : cs_eff) : trow K := mk_trow K k (ef_eff e) (ef_se e) (ef_t e) (ef_p e) (fst (ef_ci e)) (snd (ef_ci e)).
(* None is the event time -inf of a group coded inf; cohorts: CFin k before CInf *)
Definition ev_leb (a b : option Z) : bool := match a, b with None, _ => true | Some _, None => false | Some x, Some y => Z.leb x y end.
Definition coh_leb (a b : coh) : bool := match a, b with CFin x, CFin y => Z.leb x y | CFin _, _ => true | _, CFin _ => false | _, _ => true end.
Inductive cs_table := TabGT (l : list (trow (coh * Z))) | TabEvent (l : list (trow (option Z))) | TabGroup (l : list (trow coh)).
(* to_dataframe, staggered_results.py:224-286 *)
Definition cs_export (r : cs_result) (level : string) : res cs_table :=
  if String.eqb level "group_time" then Ok (TabGT (map (fun p => cs_row (ge_g (fst p), ge_t (fst p)) (snd p)) (combine (cr_effects r) (cr_reports r))))
  else if String.eqb level "event_study" then
    match cr_es r with None => Err ValueError | Some l => Ok (TabEvent (map (fun p => cs_row (fst p) (snd p)) (ksort ev_leb l))) end
  else if String.eqb level "group" then
    match cr_group r with None => Err ValueError | Some l => Ok (TabGroup (map (fun p => cs_row (fst p) (snd p)) (ksort coh_leb l))) end
  else Err ValueError.

(* SunAbrahamResults.to_dataframe, sun_abraham.py:182-233 *)
Inductive sa_table := SaEvent (l : list (trow Z)) | SaCohort (l : list (coh * Z * (fl * fl * R))).
Definition key_leb (a b : coh * Z) : bool := if c_eqb (fst a) (fst b) then Z.leb (snd a) (snd b) else coh_leb (fst a) (fst b).
Definition sa_export (r : sa_result) (level : string) : res sa_table :=
  if String.eqb level "event_study" then
    Ok (SaEvent (map (fun p => mk_trow Z (fst p) (se_eff (snd p)) (se_se (snd p)) (se_t (snd p)) (se_p (snd p)) (fst (se_ci (snd p))) (snd (se_ci (snd p))))
       (ksort Z.leb (sa_es r))))
  else if String.eqb level "cohort" then Ok (SaCohort (ksort key_leb (sa_coh_effects r)))
  else Err ValueError.

(* SensitivityResults.to_dataframe, honest_did.py:434-449: M, lb, ub, ci_lb, ci_ub, is_significant *)
Definition sens_row : Type := (R * (fl * fl) * (fl * fl) * bool)%type.
Definition sens_table (s : hd_sens) : list sens_row :=
  map (fun x => let '(M, (b, ci)) := x in (M, b, ci, negb (has_zero (fst ci) (snd ci)))) (combine (hs_M s) (combine (hs_bounds s) (hs_cis s))).

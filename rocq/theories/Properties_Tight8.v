(* What the placebo results report (C46, C67, C68). *)
From Coq Require Import Reals.
From Verif Require Import Prelude Flt Stats_model Did_model Multi_model Boot_model Prep_model Bacon_model Staggered_model Sun_model Diag_model Tight8_thms.
From Coq Require Import Arith ZArith String List.
Import ListNotations.
Open Scope R_scope.

Section Reports.
Context {I U : Type} (ueq : forall x y : U, {x = y} + {x <> y}).
Variable fit : list I -> (I -> fl) -> (I -> fl) -> (I -> fl) -> res (did_result I).
Variable sf : option Z -> fl -> fl.
Variable ppf : option Z -> R -> R.
Variable choice : list U -> nat -> nat -> list U.
(* the nine keys every result has *)
Notation base_keys := (["test_type"; "placebo_effect"; "se"; "t_stat"; "p_value"; "conf_int_lower"; "conf_int_upper"; "n_obs"; "is_significant"]%string).
Theorem C46_reported_statistic rows u y d tc n alpha r o : permutation_test ueq fit choice rows u y d tc n alpha = Ok r -> fit rows y d tc = Ok o ->
  exists v, pl_perm r = Some v /\ v <> [] /\ (forall x, In x v -> x <> NaN) /\ pl_effect r = fmean v /\ pl_nperm r = Some (length v) /\
  pl_orig r = Some (r_att o) /\ pl_orig_se r = Some (r_se o) /\ pl_n r = length rows /\
  pl_se r = (if (length v <=? 1)%nat then NaN else Fin (std 1 (map toR v))) /\
  (forall s, pl_se r = Fin s -> 0 < s -> pl_t r = fdiv (r_att o) (Fin s)) /\
  ((forall s, pl_se r = Fin s -> ~ 0 < s) -> pl_t r = Fin 0).
Proof. exact (perm_report ueq fit choice rows u y d tc n alpha r o). Qed.
Theorem C68_exported_keys rows u y d t tc fake g post n alpha r :
  (timing_test (U:=U) fit rows y d t fake post alpha = Ok r -> to_dict_keys r = base_keys ++ ["original_effect"; "original_se"]%string) /\
  (group_test ueq fit rows u y t g post alpha = Ok r -> to_dict_keys r = base_keys) /\
  (permutation_test ueq fit choice rows u y d tc n alpha = Ok r -> to_dict_keys r = base_keys ++ ["original_effect"; "original_se"; "n_permutations"]%string) /\
  (leave_one_out_test ueq fit sf ppf rows u y d tc alpha = Ok r -> to_dict_keys r = base_keys ++ ["original_effect"; "original_se"]%string).
Proof. exact (dict_keys ueq fit sf ppf choice rows u y d t tc fake g post n alpha r). Qed.
Theorem C67_printed_mean rows u y d tc alpha r : leave_one_out_test ueq fit sf ppf rows u y d tc alpha = Ok r ->
  exists es, pl_loo r = Some es /\ pl_effect r = fmean (filter notna (map snd es)) /\
  ((forall a x, In (a, x) es -> x <> NaN) -> loo_summary_mean r = Some (pl_effect r)) /\
  ((exists a, In (a, NaN) es) -> loo_summary_mean r = Some NaN).
Proof. exact (loo_printed_mean ueq fit sf ppf rows u y d tc alpha r). Qed.
End Reports.
Print Assumptions C46_reported_statistic.
Print Assumptions C68_exported_keys.
Print Assumptions C67_printed_mean.

(* What the placebo results report: t statistic of the permutation test, exported keys, leave-one-out mean (C46, C67, C68). *)
From Coq Require Import Reals Lra Lia.
From Verif Require Import Prelude Flt Stats_model Stats_proofs Did_model Multi_model Boot_model Prep_model Bacon_model Staggered_model Staggered_est Sun_model Diag_model Tight7_thms.
From Coq Require Import Arith ZArith String List.
Import ListNotations.
Open Scope R_scope.

Section Reports.
Context {I U : Type} (ueq : forall x y : U, {x = y} + {x <> y}).
Variable fit : list I -> (I -> fl) -> (I -> fl) -> (I -> fl) -> res (did_result I).
Variable sf : option Z -> fl -> fl.
Variable ppf : option Z -> R -> R.
Variable choice : list U -> nat -> nat -> list U.

(* the original estimate over the spread of the permuted ones; the placebo effect is their mean *)
Theorem perm_report rows u y d tc n alpha r o : permutation_test ueq fit choice rows u y d tc n alpha = Ok r -> fit rows y d tc = Ok o ->
  exists v, pl_perm r = Some v /\ v <> [] /\ (forall x, In x v -> x <> NaN) /\ pl_effect r = fmean v /\ pl_nperm r = Some (length v) /\
  pl_orig r = Some (r_att o) /\ pl_orig_se r = Some (r_se o) /\ pl_n r = length rows /\
  pl_se r = (if (length v <=? 1)%nat then NaN else Fin (std 1 (map toR v))) /\
  (forall s, pl_se r = Fin s -> 0 < s -> pl_t r = fdiv (r_att o) (Fin s)) /\
  ((forall s, pl_se r = Fin s -> ~ 0 < s) -> pl_t r = Fin 0).
Proof.
  intros H Ho. unfold permutation_test in H. rewrite Ho in H. cbn [bind] in H.
  destruct (perm_effects ueq fit choice rows u y d tc n) as [es|e]; cbn [bind] in H; [|discriminate].
  assert (HN : forall x, In x (filter notna es) -> x <> NaN) by (intros x Hx; apply filter_In in Hx; destruct Hx as [_ Hx]; intros ->; discriminate).
  destruct (filter notna es) as [|v0 v] eqn:EV; [discriminate|]. injection H as <-. exists (v0 :: v).
  cbn [pl_perm pl_effect pl_nperm pl_orig pl_orig_se pl_n pl_se pl_t].
  split; [reflexivity|]. split; [discriminate|]. split; [exact HN|]. repeat (split; [reflexivity|]). split.
  - intros s Hs Hp. assert (E : fgt (Fin s) (Fin 0) = true) by (apply flt_fin; exact Hp). change (std1 (v0 :: v) = Fin s) in Hs.
    change ((if fgt (std1 (v0 :: v)) (Fin 0) then fdiv (r_att o) (std1 (v0 :: v)) else Fin 0) = fdiv (r_att o) (Fin s)). rewrite Hs, E. reflexivity.
  - intros Hs. change (forall s, std1 (v0 :: v) = Fin s -> ~ 0 < s) in Hs.
    change ((if fgt (std1 (v0 :: v)) (Fin 0) then fdiv (r_att o) (std1 (v0 :: v)) else Fin 0) = Fin 0).
    destruct (fgt (std1 (v0 :: v)) (Fin 0)) eqn:E; [|reflexivity]. exfalso.
    destruct (std1 (v0 :: v)) as [s| | |] eqn:ES; [|discriminate| |discriminate].
    + apply flt_fin in E. exact (Hs s eq_refl E).
    + unfold std1 in ES. destruct (length (v0 :: v) <=? 1)%nat; discriminate.
Qed.

(* the keys of to_dict for the four tests *)
Definition base_keys : list string :=
  ["test_type"; "placebo_effect"; "se"; "t_stat"; "p_value"; "conf_int_lower"; "conf_int_upper"; "n_obs"; "is_significant"]%string.
Theorem dict_keys rows u y d t tc fake g post n alpha r :
  (timing_test (U:=U) fit rows y d t fake post alpha = Ok r -> to_dict_keys r = base_keys ++ ["original_effect"; "original_se"]%string) /\
  (group_test ueq fit rows u y t g post alpha = Ok r -> to_dict_keys r = base_keys) /\
  (permutation_test ueq fit choice rows u y d tc n alpha = Ok r -> to_dict_keys r = base_keys ++ ["original_effect"; "original_se"; "n_permutations"]%string) /\
  (leave_one_out_test ueq fit sf ppf rows u y d tc alpha = Ok r -> to_dict_keys r = base_keys ++ ["original_effect"; "original_se"]%string).
Proof.
  repeat split; intros H.
  - unfold timing_test in H. destruct fake as [f|]; [|discriminate]. destruct (zin f _); [discriminate|].
    destruct (fit _ _ _ _); cbn [bind] in H; [|discriminate]. destruct (fit _ _ _ _); cbn [bind] in H; [|discriminate]. injection H as <-. reflexivity.
  - unfold group_test in H. destruct g as [[|g0 g]|]; try discriminate. destruct (fit _ _ _ _); cbn [bind] in H; [|discriminate]. injection H as <-. reflexivity.
  - unfold permutation_test in H. destruct (fit _ _ _ _); cbn [bind] in H; [|discriminate]. destruct (perm_effects _ _ _ _ _ _ _ _ _); cbn [bind] in H; [|discriminate].
    destruct (filter notna _); [discriminate|]. injection H as <-. reflexivity.
  - unfold leave_one_out_test in H. destruct (fit _ _ _ _); cbn [bind] in H; [|discriminate]. destruct (loo_effects _ _ _ _ _ _ _); cbn [bind] in H; [|discriminate].
    destruct (filter notna _); [discriminate|]. injection H as <-. reflexivity.
Qed.

(* the mean printed by summary() is the reported effect when no refit failed, and NaN as soon as one did *)
Theorem loo_printed_mean rows u y d tc alpha r : leave_one_out_test ueq fit sf ppf rows u y d tc alpha = Ok r ->
  exists es, pl_loo r = Some es /\ pl_effect r = fmean (filter notna (map snd es)) /\
  ((forall a x, In (a, x) es -> x <> NaN) -> loo_summary_mean r = Some (pl_effect r)) /\
  ((exists a, In (a, NaN) es) -> loo_summary_mean r = Some NaN).
Proof.
  intros H. unfold leave_one_out_test in H. destruct (fit rows y d tc) as [o|]; cbn [bind] in H; [|discriminate].
  destruct (loo_effects ueq fit rows u y d tc) as [es|]; cbn [bind] in H; [|discriminate].
  destruct (filter notna (map snd es)) as [|v0 v] eqn:EV; [discriminate|]. injection H as <-. exists es.
  cbn [pl_loo pl_effect]. unfold loo_summary_mean. cbn [pl_loo]. rewrite EV.
  split; [reflexivity|]. split; [reflexivity|]. split.
  - intros Hn. change (Some (fmean (map snd es)) = Some (fmean (v0 :: v))). rewrite <- EV. clear EV. f_equal. f_equal.
    induction es as [|[a x] es IH]; [reflexivity|]. cbn. assert (K : notna x = true) by (specialize (Hn a x (or_introl eq_refl)); destruct x; cbn; congruence).
    rewrite K. f_equal. apply IH. intros b z Hz. apply (Hn b z). right; exact Hz.
  - intros [a Ha]. f_equal. apply fmean_nan. apply in_map_iff. exists (a, NaN). auto.
Qed.
End Reports.

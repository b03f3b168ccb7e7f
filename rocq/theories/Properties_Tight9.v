(* Which outcome changes the pre-trend tests compare (C55). *)
From Coq Require Import Reals.
From Verif Require Import Prelude Flt Stats_model Multi_model Multi_proofs Trends_model Tight9_thms.
From Coq Require Import Arith ZArith String List Permutation.
Import ListNotations.
Open Scope R_scope.

Theorem C55_unit_changes g rows : NoDup (map keyof rows) -> Permutation (unit_changes g rows) (own_changes g rows).
Proof. exact (unit_changes_spec g rows). Qed.
Theorem C55_period_mean_changes g rows : exists ps,
  zsorted ps /\ NoDup ps /\ (forall p, In p ps <-> exists r, In r rows /\ tr_g r = g /\ tr_t r = p) /\
  length (agg_changes g rows) = (length ps - 1)%nat /\
  (forall k, (S k < length ps)%nat ->
     nth k (agg_changes g rows) 0
     = meanf tr_y (filter (fun r => Z.eqb (tr_g r) g && Z.eqb (tr_t r) (nth (S k) ps 0%Z)) rows)
       - meanf tr_y (filter (fun r => Z.eqb (tr_g r) g && Z.eqb (tr_t r) (nth k ps 0%Z)) rows)).
Proof. exact (agg_changes_spec g rows). Qed.
Theorem C55_robust_mean_difference wd perms thr pre rows (d := pre_select rows pre) : NoDup (map keyof d) ->
  (2 <= length (own_changes 1 d))%nat -> (2 <= length (own_changes 0 d))%nat ->
  rb_mean_diff (check_robust wd perms thr true pre rows) = Fin (meanf idR (own_changes 1 d) - meanf idR (own_changes 0 d)).
Proof. exact (robust_mean_difference wd perms thr pre rows). Qed.
Theorem C55_robust_mean_difference_periods wd perms thr pre rows (d := pre_select rows pre) :
  (2 <= length (agg_changes 1 d))%nat -> (2 <= length (agg_changes 0 d))%nat ->
  rb_mean_diff (check_robust wd perms thr false pre rows) = Fin (meanf idR (agg_changes 1 d) - meanf idR (agg_changes 0 d)).
Proof. exact (robust_mean_difference_agg wd perms thr pre rows). Qed.
Theorem C55_equivalence_mean_difference tsf tcdf margin pre rows (d := pre_select rows pre) : NoDup (map keyof d) ->
  (2 <= length (own_changes 1 d))%nat -> (2 <= length (own_changes 0 d))%nat ->
  ts_mean (equivalence_test tsf tcdf true pre margin rows) = Fin (meanf idR (own_changes 1 d) - meanf idR (own_changes 0 d)).
Proof. exact (tost_mean_difference tsf tcdf margin pre rows). Qed.
(* unit 1 (group 1) is observed in periods 0, 1, 2 and unit 0 (group 0) in 0, 2, 3, listed out of order *)
Definition ch_row (u t : Z) (y : R) : trow := {| tr_u := u; tr_t := t; tr_g := u; tr_y := y |}.
Definition ch_rows : list trow := [ch_row 1 2 9; ch_row 0 3 4; ch_row 1 0 1; ch_row 0 0 2; ch_row 1 1 4; ch_row 0 2 3].
Example C55_changes_case :
  let d := pre_select ch_rows (Some [0; 1; 2; 3]%Z) in
  NoDup (map keyof d) /\ own_changes 1 d = [9 - 4; 4 - 1] /\ own_changes 0 d = [4 - 3; 3 - 2].
Proof.
  cbv zeta. split; [|split; reflexivity].
  cbn. repeat constructor; simpl; intuition discriminate.
Qed.
Print Assumptions C55_unit_changes.
Print Assumptions C55_period_mean_changes.
Print Assumptions C55_robust_mean_difference.
Print Assumptions C55_robust_mean_difference_periods.
Print Assumptions C55_equivalence_mean_difference.

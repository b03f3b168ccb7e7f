(* Failed refits of the permutation and leave-one-out tests (C46, C67); order statistics of the bootstrap interval (C62). *)
From Coq Require Import Reals Lra Lia Permutation Sorted.
From Verif Require Import Prelude Flt Stats_model Did_model Multi_model Boot_model Prep_model Bacon_model Staggered_model Sun_model Diag_model Tight7_thms.
From Coq Require Import Arith ZArith String List.
Import ListNotations.
Open Scope R_scope.

Section Refits.
Context {I U : Type} (ueq : forall x y : U, {x = y} + {x <> y}).
Variable fit : list I -> (I -> fl) -> (I -> fl) -> (I -> fl) -> res (did_result I).
Variable choice : list U -> nat -> nat -> list U.
Variables (rows : list I) (u : I -> U) (y d tc : I -> fl).
(* the fit of the i-th random assignment *)
Notation refit := (fun i : nat => fit rows y (fun j => ofb (mem ueq (u j) (choice (unit_list ueq rows u) (n_treated_units ueq rows u d) i))) tc).
Theorem C46_failed_refits n : (forall i x, (i < n)%nat -> refit i = Err x -> tolerated x) ->
  perm_effects ueq fit choice rows u y d tc n = Ok (map (fun i => att_of (refit i)) (seq 0 n)).
Proof. exact (perm_tolerated ueq fit choice rows u y d tc n). Qed.
Theorem C46_stopping_refits n k x : (k < n)%nat -> (forall i z, (i < k)%nat -> refit i = Err z -> tolerated z) -> refit k = Err x -> ~ tolerated x ->
  perm_effects ueq fit choice rows u y d tc n = Err x.
Proof. exact (perm_stops ueq fit choice rows u y d tc n k x). Qed.
Theorem C67_failed_refits : let xs := filter (fun x => negb (feqb (fsum (map d (loo_rows ueq rows u x))) (Fin 0))) (treated_list ueq rows u d) in
  (forall a x, In a xs -> fit (loo_rows ueq rows u a) y d tc = Err x -> tolerated x) ->
  loo_effects ueq fit rows u y d tc = Ok (map (fun a => (a, att_of (fit (loo_rows ueq rows u a) y d tc))) xs).
Proof. exact (loo_tolerated ueq fit rows u y d tc). Qed.
Theorem C67_stopping_refits l1 a l2 x : filter (fun x => negb (feqb (fsum (map d (loo_rows ueq rows u x))) (Fin 0))) (treated_list ueq rows u d) = l1 ++ a :: l2 ->
  (forall b z, In b l1 -> fit (loo_rows ueq rows u b) y d tc = Err z -> tolerated z) -> fit (loo_rows ueq rows u a) y d tc = Err x -> ~ tolerated x ->
  loo_effects ueq fit rows u y d tc = Err x.
Proof. exact (loo_stops ueq fit rows u y d tc l1 a l2 x). Qed.
End Refits.
Theorem C62_interval_order_statistics alpha orig (d : list R) k : alpha / 2 * (len d - 1) = INR k -> (k < length d)%nat ->
  exists s, Permutation s d /\ StronglySorted Rle s /\
    bs_ci (sa_boot_stats alpha orig (map Fin d)) = (Fin (nth k s 0), Fin (nth (length d - 1 - k) s 0)).
Proof. exact (boot_interval alpha orig d k). Qed.
Theorem C62_bootstrap_se alpha orig (d : list R) : (2 <= length d)%nat -> let m := meanf idR d in
  bs_se (sa_boot_stats alpha orig (map Fin d)) = Fin (sqrt (sumf (fun x => (x - m) * (x - m)) d / (len d - 1))).
Proof. exact (boot_se alpha orig d). Qed.
(* 41 replicates at alpha = 1/10: the third smallest and the third largest *)
Theorem C62_interval_case : 1 / 10 / 2 * (len (map INR (seq 0 41)) - 1) = INR 2 /\ (2 < length (map INR (seq 0 41)))%nat.
Proof. split; [unfold len; rewrite map_length, seq_length; rewrite INR_IZR_INZ; cbn; lra|rewrite map_length, seq_length; lia]. Qed.
Print Assumptions C46_failed_refits.
Print Assumptions C46_stopping_refits.
Print Assumptions C67_failed_refits.
Print Assumptions C67_stopping_refits.
Print Assumptions C62_interval_order_statistics.
Print Assumptions C62_bootstrap_se.
Print Assumptions C62_interval_case.

(* Failed refits of the permutation and leave-one-out tests (C46, C67); order statistics of the bootstrap interval (C62). *)
From Coq Require Import Reals Lra Lia Permutation Sorted.
From Verif Require Import Prelude Flt Stats_model Stats_proofs Did_model Multi_model Boot_model Prep_model Bacon_model Staggered_model Staggered_est Sun_model Diag_model.
From Coq Require Import Arith ZArith String List.
Import ListNotations.
Open Scope R_scope.

(* the exceptions that a refit may raise without stopping the test *)
Definition tolerated (x : exc) : Prop := x = ValueError \/ x = KeyError \/ x = LinAlgError.

Lemma mapM_total {A B} (f : A -> res B) (h : A -> B) l : (forall a, In a l -> f a = Ok (h a)) -> Prep_model.mapM f l = Ok (map h l).
Proof. induction l as [|a l IH]; intros H; [reflexivity|]. cbn. rewrite (H a) by now left. cbn [bind]. rewrite IH by (intros; apply H; now right). reflexivity. Qed.
Lemma mapM_first_err {A B} (f : A -> res B) (h : A -> B) l1 a l2 x : (forall b, In b l1 -> f b = Ok (h b)) -> f a = Err x -> Prep_model.mapM f (l1 ++ a :: l2) = Err x.
Proof. induction l1 as [|b l1 IH]; intros H E; cbn; [now rewrite E|]. rewrite (H b) by now left. cbn [bind]. rewrite IH; auto. intros; apply H; now right. Qed.

Section Refits.
Context {I U : Type} (ueq : forall x y : U, {x = y} + {x <> y}).
Variable fit : list I -> (I -> fl) -> (I -> fl) -> (I -> fl) -> res (did_result I).
Variable choice : list U -> nat -> nat -> list U.
Definition att_of (r : res (did_result I)) : fl := match r with Ok s => r_att s | Err _ => NaN end.
Lemma att_or_nan_ok (r : res (did_result I)) : (forall x, r = Err x -> tolerated x) -> att_or_nan r = Ok (att_of r).
Proof. intros H. destruct r as [s|x]; [reflexivity|]. destruct (H x eq_refl) as [->|[->| ->]]; reflexivity. Qed.
Lemma att_or_nan_err (r : res (did_result I)) x : r = Err x -> ~ tolerated x -> att_or_nan r = Err x.
Proof. intros -> H. unfold tolerated in H. destruct x; try reflexivity; exfalso; tauto. Qed.

Section Perm.
Variables (rows : list I) (u : I -> U) (y d tc : I -> fl).
Definition refit (i : nat) : res (did_result I) :=
  fit rows y (fun j => ofb (mem ueq (u j) (choice (unit_list ueq rows u) (n_treated_units ueq rows u d) i))) tc.
Theorem perm_tolerated n : (forall i x, (i < n)%nat -> refit i = Err x -> tolerated x) ->
  perm_effects ueq fit choice rows u y d tc n = Ok (map (fun i => att_of (refit i)) (seq 0 n)).
Proof.
  intros H. unfold perm_effects. apply (mapM_total _ (fun i => att_of (refit i))). intros i Hi. apply in_seq in Hi. cbv zeta. apply att_or_nan_ok. intros x. apply H. lia.
Qed.
Theorem perm_stops n k x : (k < n)%nat -> (forall i z, (i < k)%nat -> refit i = Err z -> tolerated z) -> refit k = Err x -> ~ tolerated x ->
  perm_effects ueq fit choice rows u y d tc n = Err x.
Proof.
  intros Hk H E N. unfold perm_effects. replace n with (k + S (n - S k))%nat by lia. rewrite seq_app. cbn [seq plus].
  apply (mapM_first_err _ (fun i => att_of (refit i))).
  - intros i Hi. apply in_seq in Hi. cbv zeta. apply att_or_nan_ok. intros z. apply H. lia.
  - cbv zeta. apply att_or_nan_err; assumption.
Qed.
Theorem loo_tolerated : let xs := filter (fun x => negb (feqb (fsum (map d (loo_rows ueq rows u x))) (Fin 0))) (treated_list ueq rows u d) in
  (forall a x, In a xs -> fit (loo_rows ueq rows u a) y d tc = Err x -> tolerated x) ->
  loo_effects ueq fit rows u y d tc = Ok (map (fun a => (a, att_of (fit (loo_rows ueq rows u a) y d tc))) xs).
Proof.
  intros xs H. unfold loo_effects. fold xs. apply (mapM_total _ (fun a => (a, att_of (fit (loo_rows ueq rows u a) y d tc)))). intros a Ha. rewrite att_or_nan_ok; [reflexivity|]. intros x. now apply H.
Qed.
Theorem loo_stops l1 a l2 x : filter (fun x => negb (feqb (fsum (map d (loo_rows ueq rows u x))) (Fin 0))) (treated_list ueq rows u d) = l1 ++ a :: l2 ->
  (forall b z, In b l1 -> fit (loo_rows ueq rows u b) y d tc = Err z -> tolerated z) -> fit (loo_rows ueq rows u a) y d tc = Err x -> ~ tolerated x ->
  loo_effects ueq fit rows u y d tc = Err x.
Proof.
  intros Hs H E N. unfold loo_effects. rewrite Hs. apply (mapM_first_err _ (fun a => (a, att_of (fit (loo_rows ueq rows u a) y d tc)))).
  - intros b Hb. rewrite att_or_nan_ok; [reflexivity|]. intros z. now apply H.
  - now rewrite (att_or_nan_err _ x E N).
Qed.
End Perm.
End Refits.

(* np.percentile at an integral position is an order statistic *)
Lemma percentile_at l q k : q * (len l - 1) = INR k -> percentile l q = nth k (rsort l) 0.
Proof.
  intros H. unfold percentile. rewrite rsort_length. fold (len l). change (INR (length l)) with (len l). rewrite H.
  assert (F : frac_part (INR k) = 0 /\ Int_part (INR k) = Z.of_nat k).
  { rewrite INR_IZR_INZ. pose proof (int_part_spec (IZR (Z.of_nat k))) as [A B]. assert (E : Int_part (IZR (Z.of_nat k)) = Z.of_nat k).
    { apply le_IZR in A. rewrite <- plus_IZR in B. apply lt_IZR in B. lia. }
    split; [unfold frac_part; rewrite E; lra|exact E]. }
  destruct F as [-> ->]. rewrite Nat2Z.id. lra.
Qed.
Theorem boot_interval alpha orig (d : list R) k : alpha / 2 * (len d - 1) = INR k -> (k < length d)%nat ->
  exists s, Permutation s d /\ StronglySorted Rle s /\
    bs_ci (sa_boot_stats alpha orig (map Fin d)) = (Fin (nth k s 0), Fin (nth (length d - 1 - k) s 0)).
Proof.
  intros H Hk. exists (rsort d). split; [apply rsort_perm|]. split; [apply rsort_sorted|].
  unfold sa_boot_stats. rewrite all_fin_map. cbn [bs_ci]. f_equal; f_equal; apply percentile_at; [exact H|].
  rewrite !minus_INR by lia. unfold len in *. cbn [INR]. lra.
Qed.
Theorem boot_se alpha orig (d : list R) : (2 <= length d)%nat -> let m := meanf idR d in
  bs_se (sa_boot_stats alpha orig (map Fin d)) = Fin (sqrt (sumf (fun x => (x - m) * (x - m)) d / (len d - 1))).
Proof.
  intros H m. unfold sa_boot_stats. rewrite all_fin_map. cbn [bs_se].
  assert (L : 0 < len d - 1) by (unfold len; apply le_INR in H; cbn in H; lra). unfold fdiv. destruct (Req_EM_T (len d - 1) 0) as [E|N]; [lra|]. 
  unfold fsqrt. destruct (Rlt_dec _ 0) as [E|E]; [|reflexivity]. exfalso. revert E. apply Rle_not_lt. unfold Rdiv. apply Rmult_le_pos.
  - apply sumf_nonneg. intros x _. apply Rle_0_sqr.
  - left. now apply Rinv_0_lt_compat.
Qed.

(* TROP method="joint": statements about a whole fit; concrete panels. *)
From Verif Require Import Prelude Flt Stats_model Stats_proofs Linalg_model Linalg_proofs Linalg_minnorm Multi_model Trop_model Trop_proofs Trop_thms Trop_conv Trop_rec Trop_obj Trop_sel Trop_rows Trop_ex Trop_joint Trop_jproofs Trop_jfit Trop_jthms Trop_jmore.
From Coq Require Import Arith ZArith String List FunctionalExtensionality Permutation.
Import ListNotations.
Open Scope R_scope.

(* what a successful fit consists of *)
Section Inv.
Variable lstsq : lstsq_fn.
Variable svd : svd_fn.
Variable sub : nat -> nat -> list nat.
Variable sf : option Z -> fl -> fl.
Variable ppf : option Z -> R -> R.
Lemma joint_fit_inv cfg T N Y D miss name draws att se inf effs l score reps :
  joint_fit lstsq svd sub sf ppf cfg T N Y D miss name draws = FOk att se inf effs l score reps ->
  let p := (T - first_treat T N D)%nat in
  check_joint T N D miss = TOk tt /\
  (exists w co L, j_weights T N p Y D (conv_w (fst (fst l))) (conv_w (snd (fst l))) = JOk w /\
     j_solve lstsq svd T N Y D w (conv_nn (snd l)) (tc_maxit cfg) (tc_tol cfg) = JOk (co, L) /\ att = jtau co) /\
  j_tune lstsq svd sub cfg T N p Y D = JOk (l, score) /\
  effs = map (fun x => (x, att)) (treated_obs T N D) /\
  (if tc_boot cfg then j_boot lstsq svd T p Y D (conv_w (fst (fst l))) (conv_w (snd (fst l))) (conv_nn (snd l)) (tc_maxit cfg) (tc_tol cfg) name draws
                  else j_jack lstsq svd T N p Y D (conv_w (fst (fst l))) (conv_w (snd (fst l))) (conv_nn (snd l)) (tc_maxit cfg) (tc_tol cfg)) = JOk reps /\
  se = (if tc_boot cfg then boot_se reps else jack_se reps) /\
  inf = trop_inf sf ppf (Fin att) se (length (treated_obs T N D)) (tc_alpha cfg).
Proof.
  intros HF p. unfold joint_fit in HF. fold p in HF. destruct (check_joint T N D miss) as [[]|]; [|easy]. split; [easy|].
  destruct (j_tune lstsq svd sub cfg T N p Y D) as [[[[lt lu] ln] sc]| |]; [|easy|easy]. unfold j_fixed in HF.
  destruct (j_weights T N p Y D (conv_w lt) (conv_w lu)) as [w| |] eqn:Ew; [|easy|easy].
  destruct (j_solve lstsq svd T N Y D w (conv_nn ln) (tc_maxit cfg) (tc_tol cfg)) as [[co L]| |] eqn:Es; [|easy|easy].
  match type of HF with match ?x with _ => _ end = _ => destruct x as [r| |] eqn:Er; [|easy|easy] end.
  injection HF as <- <- <- <- <- <- <-. cbn [fst snd]. split; [exists w, co, L; easy|]. easy.
Qed.
End Inv.

(* ------------------------------------------------------------------------------------------- *)
(* period effects *)
Lemma has_time Y b t i : has (add_time Y b) t i = has Y t i.
Proof. unfold has, add_time. now destruct (Y t i). Qed.
Lemma ysafe_time Y b t i : has Y t i = true -> ysafe (add_time Y b) t i = ysafe Y t i + b t.
Proof. unfold has, ysafe, add_time. now destruct (Y t i). Qed.
Lemma avg_time T N Y D b t : avg_treated T N (add_time Y b) D t = option_map (fun m => m + b t) (avg_treated T N Y D t).
Proof.
  unfold avg_treated. rewrite (filter_ext (fun i => ever T D i && has (add_time Y b) t i) (fun i => ever T D i && has Y t i)) by (intros i; now rewrite has_time).
  assert (F : forall i, In i (filter (fun i => ever T D i && has Y t i) (seq 0 N)) -> has Y t i = true) by (intros i Hi; apply filter_In in Hi; destruct Hi as [_ Hi]; now apply andb_prop in Hi).
  destruct (filter _ (seq 0 N)) as [|x l] eqn:E; [easy|]. cbn [option_map]. f_equal.
  rewrite (meanf_ext _ (fun i => ysafe Y t i + b t)) by (intros i Hi; apply ysafe_time, F, Hi). rewrite meanf_add, meanf_const by easy. reflexivity.
Qed.
Lemma j_weights_time T N p Y D b lt lu : j_weights T N p (add_time Y b) D lt lu = j_weights T N p Y D lt lu.
Proof.
  assert (V : forall i, j_valid T N p (add_time Y b) D i = j_valid T N p Y D i).
  { intros i. unfold j_valid. apply filter_ext. intros t. rewrite has_time, avg_time. now destruct (avg_treated T N Y D t). }
  unfold j_weights. destruct (_ =? 0)%nat; [easy|]. destruct (_ =? 0)%nat; [easy|]. f_equal.
  apply functional_extensionality; intros t; apply functional_extensionality; intros i. f_equal. unfold j_unit_w. rewrite V.
  assert (E : j_dist T N p (add_time Y b) D i = j_dist T N p Y D i); [|now rewrite E].
  unfold j_dist. rewrite V. f_equal. f_equal. apply sumf_ext. intros s Hs. unfold j_valid in Hs. apply filter_In in Hs. destruct Hs as [_ Hs].
  apply andb_prop in Hs. destruct Hs as [_ Hs]. apply andb_prop in Hs. destruct Hs as [Hs1 Hs2].
  assert (G : j_gap T N (add_time Y b) D s i = j_gap T N Y D s i); [|now rewrite G].
  unfold j_gap. rewrite avg_time. destruct (avg_treated T N Y D s); [|easy]. cbn [option_map]. rewrite ysafe_time by easy. ring.
Qed.
Lemma control_time T N Y D b : control_obs T N (add_time Y b) D = control_obs T N Y D.
Proof. unfold control_obs. apply filter_ext. intros c. now rewrite has_time. Qed.

Section Time.
Variable lstsq : lstsq_fn.
Variable svd : svd_fn.
Variable sub : nat -> nat -> list nat.
Variable sf : option Z -> fl -> fl.
Variable ppf : option Z -> R -> R.
Hypothesis Hmn : mn_ok lstsq.
Hypothesis Hloc : soft_local svd.
Variables (T N : nat) (Y : omat) (D : dmat) (b : nat -> R).
Hypothesis Hc : complete T N Y.
Hypothesis Hd : dpanel T N D.
Hypothesis Hf : (2 <= first_treat T N D)%nat.
Hypothesis Htr : exists t i, (t < T)%nat /\ (i < N)%nat /\ D t i = 1%Z.
Hypothesis H2 : two_controls T N D.
Notation p := (T - first_treat T N D)%nat.
Notation Y' := (add_time Y b).
Lemma time_eq (Z : omat) t i : add_time Z b t i = match Z t i with Some r => Some (r + 0 + b t) | None => None end.
Proof. unfold add_time. destruct (Z t i); [|easy]. f_equal. ring. Qed.
Lemma j_sum_time w h maxit tol : (forall t i, 0 <= w t i) -> (forall t i, (t < T)%nat -> (i < N)%nat -> 0 < w t i) ->
  forall obs acc, (forall x, In x obs -> D (fst x) (snd x) = 0%Z /\ (fst x < T)%nat /\ (snd x < N)%nat) ->
  j_sum lstsq svd T N Y' D w h maxit tol obs acc = j_sum lstsq svd T N Y D w h maxit tol obs acc.
Proof.
  intros Hw Hp. induction obs as [|x r IH]; intros acc Ho; [easy|]. cbn [j_sum]. destruct (Ho x (or_introl eq_refl)) as (Ex & Xt & Xi).
  assert (Hid := skip_block T N D Y w x Hc Hd Hp Hf Htr H2 Ex).
  assert (Hs : forall t i, 0 <= skip w x t i) by (intros t i; unfold skip; destruct (_ && _); [lra|apply Hw]).
  assert (E := solve_fe lstsq svd Hmn T N Y Y' D (skip w x) h maxit tol (fun _ => 0) b Hloc Hs Hid (time_eq Y)).
  assert (SP : forall t i, (t < T)%nat -> (i < N)%nat -> t <> fst x \/ i <> snd x -> seen Y (skip w x) t i <> 0).
  { intros t i Ht Hi Hor. unfold seen, skip. rewrite Hc by easy. destruct ((t =? fst x)%nat && (i =? snd x)%nat) eqn:Eb.
    - apply andb_prop in Eb. destruct Eb as [E1 E2]. apply Nat.eqb_eq in E1, E2. lia.
    - specialize (Hp t i Ht Hi). lra. }
  destruct (j_solve lstsq svd T N Y D (skip w x) h maxit tol) as [[co L]| |], (j_solve lstsq svd T N Y' D (skip w x) h maxit tol) as [[co' L']| |]; try easy.
  cbn [same_out] in E. destruct E as (Et & EL & EF). cbn [fst snd] in *.
  assert (Ep : j_pseudo Y' (co', L') x = j_pseudo Y (co, L) x).
  { destruct x as [t0 i0]. cbn [fst snd] in *. unfold j_pseudo. cbn [fst snd]. rewrite EL, ysafe_time by (easy || now apply Hc).
    destruct H2 as (j1 & j2 & Hj1 & Hj2 & Hne & He1 & He2).
    assert (Pick : exists j, (j < N)%nat /\ ever T D j = false /\ j <> i0) by (destruct (Nat.eq_dec j1 i0); [exists j2; repeat split; [easy|easy|congruence]|exists j1; easy]).
    assert (Pick2 : exists s, (s < 2)%nat /\ s <> t0) by (destruct t0 as [|t0]; [exists 1%nat|exists 0%nat]; lia).
    destruct Pick as (j & Hj & He & Hji). destruct Pick2 as (s & Hs' & Hst). assert (F := first_treat_le T N D).
    assert (Z : forall t', D t' j = 0%Z).
    { intros t'. destruct (Hd t' j) as [Z|(A & B & Z)]; [easy|]. now destruct (proj1 (ever_false T D j) He t' A). }
    assert (Z0 : forall i', D s i' = 0%Z) by (intros i'; apply (dpanel_pre T N D); [easy|lia]).
    assert (A1 := EF t0 j Xt Hj (SP t0 j Xt Hj (or_intror Hji))). assert (A2 := EF s i0 ltac:(lia) Xi (SP s i0 ltac:(lia) Xi (or_introl Hst))).
    assert (A3 := EF s j ltac:(lia) Hj (SP s j ltac:(lia) Hj (or_introl Hst))). unfold fitv in A1, A2, A3. rewrite !Z in A1. rewrite !Z0 in A2, A3. lra. }
  rewrite Ep. apply IH. intros z Hz. apply Ho. now right.
Qed.
Lemma j_score_time obs maxit tol lt lu h : (forall x, In x obs -> D (fst x) (snd x) = 0%Z /\ (fst x < T)%nat /\ (snd x < N)%nat) ->
  j_score lstsq svd T N p Y' D obs maxit tol lt lu h = j_score lstsq svd T N p Y D obs maxit tol lt lu h.
Proof.
  intros Ho. unfold j_score. rewrite j_weights_time. destruct (j_weights T N p Y D lt lu) as [w| |] eqn:Ew; [|easy|easy].
  destruct obs as [|x r]; [easy|]. apply j_sum_time; [|intros t i _ Hi; now apply (complete_pos T N p Y D lt lu w Hc Ew)|easy].
  intros t i. now apply (j_weights_nonneg T N p Y D lt lu).
Qed.
Lemma j_tune_time cfg : sub_ok sub -> j_tune lstsq svd sub cfg T N p Y' D = j_tune lstsq svd sub cfg T N p Y D.
Proof.
  intros Hs. unfold j_tune. rewrite control_time. rewrite (j_search_ext _ (fun l => j_score lstsq svd T N p Y D (loocv_obs sub (tc_maxs cfg) (control_obs T N Y D)) (tc_maxit cfg) (tc_tol cfg) (conv_w (fst (fst l))) (conv_w (snd (fst l))) (conv_nn (snd l)))); [easy|].
  intros l. apply j_score_time. intros [t i] Hx. apply loocv_obs_incl in Hx; [|easy]. unfold control_obs in Hx. apply filter_In in Hx. destruct Hx as [Hx1 Hx].
  apply in_cells in Hx1. apply andb_prop in Hx. destruct Hx as [Hx _]. apply Z.eqb_eq in Hx. cbn [fst snd] in *. easy.
Qed.
Lemma j_collect_time {A} (f g : A -> jout (jcoef * mat)) l :
  (forall x, In x l -> match f x, g x with JOk r, JOk r' => jtau (fst r') = jtau (fst r) | JVal, JVal => True | JUnbound, JUnbound => True | _, _ => False end) ->
  j_collect g l = j_collect f l.
Proof.
  induction l as [|x l IH]; intros H; [easy|]. cbn [j_collect]. assert (E := H x (or_introl eq_refl)). specialize (IH (fun z Hz => H z (or_intror Hz))).
  destruct (f x) as [[co L]| |], (g x) as [[co' L']| |]; try easy. cbn [fst] in *. rewrite IH, E. reflexivity.
Qed.
Lemma same_tau T' N' w D' a x x' : same_out T' N' w D' a b x x' ->
  match x, x' with JOk r, JOk r' => jtau (fst r') = jtau (fst r) | JVal, JVal => True | JUnbound, JUnbound => True | _, _ => False end.
Proof. destruct x, x'; try easy. intros (E & _). exact E. Qed.
Lemma jack1_time lt lu h maxit tol k : (exists j, (j < N)%nat /\ ever T D j = false) -> ever T D k = true ->
  match j_jack1 lstsq svd T N p Y D lt lu h maxit tol k, j_jack1 lstsq svd T N p Y' D lt lu h maxit tol k with
  | JOk r, JOk r' => jtau (fst r') = jtau (fst r) | JVal, JVal => True | JUnbound, JUnbound => True | _, _ => False end.
Proof.
  intros (j & Hj & Hej) Hk. unfold j_jack1. rewrite j_weights_time. destruct (j_weights T N p Y (drop_d D k) lt lu) as [w| |] eqn:Ew; [|easy|easy].
  assert (Wn : forall t i, 0 <= w t i) by (intros; now apply (j_weights_nonneg T N p Y (drop_d D k) lt lu)).
  assert (Sz : forall t i, 0 <= skip_unit w k t i) by (intros; unfold skip_unit; destruct (_ =? _)%nat; [lra|apply Wn]).
  eapply same_tau, (solve_fe lstsq svd Hmn T N Y Y' (drop_d D k) (skip_unit w k) h maxit tol (fun _ => 0) b Hloc Sz); [|apply time_eq].
  assert (W := complete_pos T N p Y (drop_d D k) lt lu w Hc Ew). apply j_weights_inv in Ew. destruct Ew as ((i & Hi & He) & _ & _).
  apply ever_true in He. destruct He as (t & Ht & E). unfold drop_d in E. destruct (i =? k)%nat eqn:Eik; [easy|]. apply Nat.eqb_neq in Eik.
  assert (Hjk : j <> k) by (intros ->; congruence).
  assert (S : forall t i, (t < T)%nat -> (i < N)%nat -> i <> k -> 0 < seen Y (skip_unit w k) t i).
  { intros t' i' Ht' Hi' Hne. unfold seen, skip_unit. rewrite Hc by easy. rewrite (proj2 (Nat.eqb_neq i' k) Hne). now apply W. }
  assert (F := first_treat_le T N D).
  assert (Z : forall t', D t' j = 0%Z).
  { intros t'. destruct (Hd t' j) as [Z|(A & B & Z)]; [easy|]. now destruct (proj1 (ever_false T D j) Hej t' A). }
  assert (Z0 : forall i', D 0%nat i' = 0%Z) by (intros i'; apply (dpanel_pre T N D); [easy|lia]).
  apply (ident_block T N (drop_d D k) _ i j 0 t); try easy; try lia; try (apply S; try easy; lia); unfold drop_d;
    rewrite ?(proj2 (Nat.eqb_neq i k) Eik), ?(proj2 (Nat.eqb_neq j k) Hjk); auto.
Qed.
Lemma boot1_time lt lu h maxit tol cols : (forall x, In x cols -> (x < N)%nat) -> (exists j, In j cols /\ ever T D j = false) ->
  match j_fixed lstsq svd T (length cols) p (sel_o Y cols) (sel_d D cols) lt lu h maxit tol, j_fixed lstsq svd T (length cols) p (sel_o Y' cols) (sel_d D cols) lt lu h maxit tol with
  | JOk r, JOk r' => jtau (fst r') = jtau (fst r) | JVal, JVal => True | JUnbound, JUnbound => True | _, _ => False end.
Proof.
  intros Hcols (j & Hj & Hej). unfold j_fixed. change (sel_o Y' cols) with (add_time (sel_o Y cols) b). rewrite j_weights_time.
  destruct (j_weights T (length cols) p (sel_o Y cols) (sel_d D cols) lt lu) as [w| |] eqn:Ew; [|easy|easy].
  assert (Cc : complete T (length cols) (sel_o Y cols)).
  { intros t i Ht Hi. unfold sel_o, has. apply (Hc t (nth i cols 0%nat) Ht). apply Hcols, nth_In, Hi. }
  assert (Wn : forall t i, 0 <= w t i) by (intros; now apply (j_weights_nonneg T (length cols) p (sel_o Y cols) (sel_d D cols) lt lu)).
  eapply same_tau, (solve_fe lstsq svd Hmn T (length cols) (sel_o Y cols) (add_time (sel_o Y cols) b) (sel_d D cols) w h maxit tol (fun _ => 0) b Hloc Wn); [|apply time_eq].
  assert (W := complete_pos T (length cols) p (sel_o Y cols) (sel_d D cols) lt lu w Cc Ew). apply j_weights_inv in Ew. destruct Ew as ((i & Hi & He) & _ & _).
  apply ever_true in He. destruct He as (t & Ht & E).
  apply (In_nth cols j 0%nat) in Hj. destruct Hj as (jj & Hjj & Ej).
  assert (S : forall t i, (t < T)%nat -> (i < length cols)%nat -> 0 < seen (sel_o Y cols) w t i).
  { intros t' i' Ht' Hi'. unfold seen. rewrite Cc by easy. now apply W. }
  assert (F := first_treat_le T N D).
  assert (Z : forall t', sel_d D cols t' jj = 0%Z).
  { intros t'. unfold sel_d. rewrite Ej. destruct (Hd t' j) as [Z|(A & B & Z)]; [easy|]. now destruct (proj1 (ever_false T D j) Hej t' A). }
  assert (Z0 : forall i', sel_d D cols 0%nat i' = 0%Z) by (intros i'; unfold sel_d; apply (dpanel_pre T N D); [easy|lia]).
  apply (ident_block T (length cols) (sel_d D cols) _ i jj 0 t); try easy; try lia; try (apply S; try easy; lia); auto.
Qed.
Lemma j_fixed_time lt lu h maxit tol : (exists j, (j < N)%nat /\ ever T D j = false) ->
  match j_fixed lstsq svd T N p Y D lt lu h maxit tol, j_fixed lstsq svd T N p Y' D lt lu h maxit tol with
  | JOk r, JOk r' => jtau (fst r') = jtau (fst r) | JVal, JVal => True | JUnbound, JUnbound => True | _, _ => False end.
Proof.
  intros (j & Hj & Hej). unfold j_fixed. rewrite j_weights_time. destruct (j_weights T N p Y D lt lu) as [w| |] eqn:Ew; [|easy|easy].
  assert (Wn : forall t i, 0 <= w t i) by (intros; now apply (j_weights_nonneg T N p Y D lt lu)).
  eapply same_tau, (solve_fe lstsq svd Hmn T N Y Y' D w h maxit tol (fun _ => 0) b Hloc Wn); [|apply time_eq].
  apply (full_block T N D Y w Hc Hd (fun t i _ Hi => complete_pos T N p Y D lt lu w Hc Ew t i Hi) Hf Htr j Hj Hej).
Qed.
End Time.

(* Adding the same period effect to every unit changes nothing in the result. *)
Theorem joint_time lstsq svd sub sf ppf cfg T N Y D miss name draws b :
  mn_ok lstsq -> soft_local svd -> sub_ok sub -> complete T N Y -> dpanel T N D -> two_controls T N D ->
  (forall smp, In smp draws -> (forall x, In x smp -> (x < N)%nat) /\ exists j, In j smp /\ ever T D j = false) ->
  joint_fit lstsq svd sub sf ppf cfg T N (add_time Y b) D miss name draws = joint_fit lstsq svd sub sf ppf cfg T N Y D miss name draws.
Proof.
  intros Hmn Hloc Hs Hc Hd H2 Hdr. unfold joint_fit. destruct (check_joint T N D miss) as [[]|] eqn:Ek; [|easy].
  apply check_joint_ok in Ek. destruct Ek as (Hf & Htr & Hct).
  rewrite (j_tune_time lstsq svd sub Hmn Hloc T N Y D b Hc Hd Hf Htr H2 cfg Hs). destruct (j_tune lstsq svd sub cfg T N (T - first_treat T N D) Y D) as [[[[lt lu] ln] sc]| |]; [|easy|easy].
  assert (F := j_fixed_time lstsq svd Hmn Hloc T N Y D b Hc Hd Hf Htr (conv_w lt) (conv_w lu) (conv_nn ln) (tc_maxit cfg) (tc_tol cfg) Hct).
  destruct (j_fixed lstsq svd T N _ Y D _ _ _ _ _) as [[co L]| |], (j_fixed lstsq svd T N _ (add_time Y b) D _ _ _ _ _) as [[co' L']| |]; try easy. cbn [fst] in F. rewrite F.
  assert (E : (if tc_boot cfg
       then j_boot lstsq svd T (T - first_treat T N D) (add_time Y b) D (conv_w lt) (conv_w lu) (conv_nn ln) (tc_maxit cfg) (tc_tol cfg) name draws
       else j_jack lstsq svd T N (T - first_treat T N D) (add_time Y b) D (conv_w lt) (conv_w lu) (conv_nn ln) (tc_maxit cfg) (tc_tol cfg)) =
      (if tc_boot cfg
       then j_boot lstsq svd T (T - first_treat T N D) Y D (conv_w lt) (conv_w lu) (conv_nn ln) (tc_maxit cfg) (tc_tol cfg) name draws
       else j_jack lstsq svd T N (T - first_treat T N D) Y D (conv_w lt) (conv_w lu) (conv_nn ln) (tc_maxit cfg) (tc_tol cfg))).
  { destruct (tc_boot cfg).
    - unfold j_boot. apply j_collect_time. intros smp Hsmp. destruct (Hdr smp Hsmp) as [H3 (j & Hj & Hej)].
      assert (Pm := boot_cols_perm name smp). apply (boot1_time lstsq svd Hmn Hloc T N Y D b Hc Hd Hf).
      + intros x Hx. apply H3. eapply Permutation_in; eassumption.
      + exists j. split; [|easy]. eapply Permutation_in; [symmetry; exact Pm|easy].
    - unfold j_jack. apply j_collect_time. intros k Hk. apply filter_In in Hk. now apply (jack1_time lstsq svd Hmn Hloc T N Y D b Hc Hd Hf). }
  rewrite E. reflexivity.
Qed.

(* ------------------------------------------------------------------------------------------- *)
(* complete panel, no low-rank part *)
Section Did.
Variable lstsq : lstsq_fn.
Variable svd : svd_fn.
Variable sub : nat -> nat -> list nat.
Variable sf : option Z -> fl -> fl.
Variable ppf : option Z -> R -> R.
Hypothesis Hmn : mn_ok lstsq.
Definition dw (T N : nat) (D : dmat) (l : lam3) : nat -> R := j_time_w T (T - first_treat T N D) (conv_w (fst (fst l))).
Definition uw (T N : nat) (Y : omat) (D : dmat) (l : lam3) : nat -> R := j_unit_w T N (T - first_treat T N D) Y D (conv_w (snd (fst l))).
Definition is_post (T N : nat) (D : dmat) (t : nat) : bool := (first_treat T N D <=? t)%nat.
Lemma sets_ne T N D miss : check_joint T N D miss = TOk tt ->
  filter (ever T D) (seq 0 N) <> [] /\ filter (fun i => negb (ever T D i)) (seq 0 N) <> [] /\
  filter (is_post T N D) (seq 0 T) <> [] /\ filter (fun t => negb (is_post T N D t)) (seq 0 T) <> [].
Proof.
  intros H. apply check_joint_ok in H. destruct H as (Hf & (t & i & Ht & Hi & E) & (j & Hj & Hej)).
  assert (G : forall q n x, (x < n)%nat -> q x = true -> filter q (seq 0 n) <> []).
  { intros q n x Hx Hq E0. assert (X : In x (filter q (seq 0 n))) by (apply filter_In; split; [apply in_seq; lia|easy]). rewrite E0 in X. easy. }
  assert (F := first_treat_hit T N D t i Ht Hi E). destruct F as [F _].
  split; [apply (G _ N i Hi); apply ever_true; eauto|]. split; [apply (G _ N j Hj); now rewrite Hej|].
  split; [apply (G _ T (first_treat T N D) F); apply Nat.leb_refl|]. apply (G _ T 0%nat); [lia|]. unfold is_post. apply negb_true_iff, Nat.leb_gt. lia.
Qed.
Theorem joint_did cfg T N Y D miss name draws att se inf effs l score reps :
  joint_fit lstsq svd sub sf ppf cfg T N Y D miss name draws = FOk att se inf effs l score reps ->
  complete T N Y -> dpanel T N D -> (forall t i, miss t i = false) -> 10 ^ 10 <= conv_nn (snd l) ->
  att = wdid (dw T N D l) (uw T N Y D l) (ever T D) (is_post T N D) T N (ysafe Y).
Proof.
  intros HF Hc Hd Hm Hn. apply joint_fit_inv in HF. destruct HF as (Hk & (w & co & L & Ew & Es & ->) & _).
  destruct (sets_ne T N D miss Hk) as (S1 & S2 & S3 & S4). assert (B := joint_block T N D miss Hk Hd Hm).
  set (p := (T - first_treat T N D)%nat) in *.
  assert (Wp := complete_pos T N p Y D _ _ w Hc Ew). assert (Wi := j_weights_inv _ _ _ _ _ _ _ _ Ew). destruct Wi as (_ & Hp & Ww).
  unfold j_solve in Es. destruct (Rle_dec _ _) as [_|Hbad]; [|lra]. destruct (wls lstsq T N (ysafe Y) D (seen Y w)) as [c| |] eqn:E; [|easy|easy]. injection Es as -> _.
  apply (wls_did lstsq Hmn T N (dw T N D l) (uw T N Y D l) (ever T D) (is_post T N D)) with (y := ysafe Y) (D := D) (w := seen Y w); try easy.
  - intros t Ht. apply j_time_pos.
  - intros i Hi. specialize (Wp 0%nat i Hi). rewrite Ww in Wp. assert (P := j_time_pos T p (conv_w (fst (fst l))) 0). assert (Q := j_unit_nonneg T N p Y D (conv_w (snd (fst l))) i).
    unfold uw. fold p. destruct (Rle_lt_or_eq_dec _ _ Q) as [G|G]; [easy|]. rewrite <- G in Wp. rewrite Rmult_0_r in Wp. lra.
  - intros t i Ht Hi. unfold seen. rewrite Hc by easy. rewrite Ww. reflexivity.
Qed.
(* heterogeneous effects: a weighted average of the effects of the treated cells, with positive weights *)
Theorem joint_average cfg T N Y D miss name draws a b eff att se inf effs l score reps :
  joint_fit lstsq svd sub sf ppf cfg T N Y D miss name draws = FOk att se inf effs l score reps ->
  complete T N Y -> dpanel T N D -> (forall t i, miss t i = false) -> 10 ^ 10 <= conv_nn (snd l) ->
  (forall t i, (t < T)%nat -> (i < N)%nat -> ysafe Y t i = a i + b t + eff t i * IZR (D t i)) ->
  att = bmean (dw T N D l) (uw T N Y D l) (filter (ever T D) (seq 0 N)) (filter (is_post T N D) (seq 0 T)) eff /\
  (forall lo hi, (forall t i, (t < T)%nat -> (i < N)%nat -> D t i = 1%Z -> lo <= eff t i <= hi) -> lo <= att <= hi) /\
  (forall t i, (t < T)%nat -> (i < N)%nat -> D t i = 1%Z -> In ((t, i), att) effs).
Proof.
  intros HF Hc Hd Hm Hn HY. assert (E := joint_did _ _ _ _ _ _ _ _ _ _ _ _ _ _ _ HF Hc Hd Hm Hn). apply joint_fit_inv in HF. destruct HF as (Hk & (w & co & L & Ew & _) & _ & Heff & _).
  destruct (sets_ne T N D miss Hk) as (S1 & S2 & S3 & S4). assert (B := joint_block T N D miss Hk Hd Hm).
  set (p := (T - first_treat T N D)%nat) in *.
  assert (Pd : forall t, (t < T)%nat -> 0 < dw T N D l t) by (intros; apply j_time_pos).
  assert (Pu : forall i, (i < N)%nat -> 0 < uw T N Y D l i).
  { intros i Hi. assert (Wp := complete_pos T N p Y D _ _ w Hc Ew 0%nat i Hi). assert (Wi := j_weights_inv _ _ _ _ _ _ _ _ Ew). destruct Wi as (_ & Hp & Ww). rewrite Ww in Wp.
    assert (Q := j_unit_nonneg T N p Y D (conv_w (snd (fst l))) i). unfold uw. fold p. destruct (Rle_lt_or_eq_dec _ _ Q) as [G|G]; [easy|]. rewrite <- G in Wp. rewrite Rmult_0_r in Wp. lra. }
  assert (Fm : forall q n x, In x (filter q (seq 0 n)) -> (x < n)%nat /\ q x = true) by (intros q n x Hx; apply filter_In in Hx; destruct Hx as [Hx Hq]; apply in_seq in Hx; split; [lia|easy]).
  assert (E2 : att = bmean (dw T N D l) (uw T N Y D l) (filter (ever T D) (seq 0 N)) (filter (is_post T N D) (seq 0 T)) eff).
  { rewrite E. transitivity (wdid (dw T N D l) (uw T N Y D l) (ever T D) (is_post T N D) T N (fun t i => (0 + a i + b t) + eff t i * IZR (D t i))).
    - unfold wdid. cbv zeta. f_equal; f_equal; apply bmean_ext; intros t i Ht Hi; apply Fm in Ht, Hi; rewrite HY by tauto; ring.
    - rewrite wdid_add, wdid_fe by easy. rewrite (wdid_d T N _ _ (ever T D) (is_post T N D) eff D B). ring. }
  split; [easy|]. split.
  - intros lo hi Hlh. rewrite E2. apply bmean_bounds; try easy.
    + intros t Ht. apply Fm in Ht. now apply Pd.
    + intros i Hi. apply Fm in Hi. now apply Pu.
    + intros t i Ht Hi. apply Fm in Ht, Hi. apply Hlh; try tauto. rewrite B by tauto. unfold is_post in Ht. rewrite (proj2 Hi), (proj2 Ht). reflexivity.
  - intros t i Ht Hi HD. rewrite Heff. apply in_map_iff. exists (t, i). split; [easy|]. apply in_treated. easy.
Qed.
(* no treated outcome observed at all: the estimate is 0 *)
Lemma low_no_treated T N y D w h tol : (forall t i, (t < T)%nat -> (i < N)%nat -> D t i <> 0%Z -> w t i = 0) ->
  forall k L prev co L', (forall c, prev = Some c -> jtau c = 0) -> low_loop lstsq svd T N y D w h tol k L prev = JOk (co, L') -> jtau co = 0.
Proof.
  intros H. induction k as [|k IH]; intros L prev co L' Hp; cbn [low_loop].
  - destruct prev; [|easy]. intros [= <- <-]. now apply Hp.
  - destruct (wls lstsq T N (fun t i => y t i - L t i) D w) as [c| |] eqn:E; [|easy|easy]. apply (wls_no_treated lstsq Hmn) in E; [|easy].
    destruct (Rltb _ _); [intros [= <- <-]; easy|]. apply IH. intros c' [= <-]. easy.
Qed.
Theorem joint_no_treated cfg T N Y D miss name draws att se inf effs l score reps :
  joint_fit lstsq svd sub sf ppf cfg T N Y D miss name draws = FOk att se inf effs l score reps ->
  (forall t i, (t < T)%nat -> (i < N)%nat -> D t i <> 0%Z -> has Y t i = false) -> att = 0.
Proof.
  intros HF H. apply joint_fit_inv in HF. destruct HF as (Hk & (w & co & L & Ew & Es & ->) & _).
  assert (H' : forall t i, (t < T)%nat -> (i < N)%nat -> D t i <> 0%Z -> seen Y w t i = 0) by (intros; unfold seen; now rewrite H).
  unfold j_solve in Es. destruct (Rle_dec _ _).
  - destruct (wls lstsq T N (ysafe Y) D (seen Y w)) as [c| |] eqn:E; [|easy|easy]. injection Es as -> _. now apply (wls_no_treated lstsq Hmn) in E.
  - apply low_no_treated in Es; easy.
Qed.
(* leaving unit k out: its outcomes play no part *)
Theorem joint_jack_blind T N p Y Y' D lt lu h maxit tol k : (forall t i, i <> k -> Y' t i = Y t i) ->
  j_jack1 lstsq svd T N p Y' D lt lu h maxit tol k = j_jack1 lstsq svd T N p Y D lt lu h maxit tol k.
Proof.
  intros H. unfold j_jack1.
  assert (Ek : ever T (drop_d D k) k = false).
  { apply ever_false. intros t _. unfold drop_d. rewrite Nat.eqb_refl. easy. }
  assert (Av : forall t, avg_treated T N Y' (drop_d D k) t = avg_treated T N Y (drop_d D k) t).
  { intros t. unfold avg_treated. rewrite (filter_ext (fun i => ever T (drop_d D k) i && has Y' t i) (fun i => ever T (drop_d D k) i && has Y t i)).
    - assert (F : forall i, In i (filter (fun i => ever T (drop_d D k) i && has Y t i) (seq 0 N)) -> i <> k).
      { intros i Hi ->. apply filter_In in Hi. destruct Hi as [_ Hi]. now rewrite Ek in Hi. }
      destruct (filter _ _) as [|x l]; [easy|]. f_equal. apply meanf_ext. intros i Hi. unfold ysafe. rewrite H; [easy|now apply F].
    - intros i. destruct (Nat.eq_dec i k) as [->|Hne]; [now rewrite Ek|]. unfold has. now rewrite H. }
  assert (Eu : forall i, i <> k -> j_unit_w T N p Y' (drop_d D k) lu i = j_unit_w T N p Y (drop_d D k) lu i).
  { intros i Hi. assert (V : j_valid T N p Y' (drop_d D k) i = j_valid T N p Y (drop_d D k) i) by (unfold j_valid; apply filter_ext; intros t; rewrite Av; unfold has; now rewrite H).
    unfold j_unit_w. rewrite V. assert (Dd : j_dist T N p Y' (drop_d D k) i = j_dist T N p Y (drop_d D k) i); [|now rewrite Dd].
    unfold j_dist. rewrite V. f_equal. f_equal. apply sumf_ext. intros s _. unfold j_gap, ysafe. rewrite Av. now rewrite H. }
  unfold j_weights. destruct (_ =? 0)%nat; [easy|]. destruct (_ =? 0)%nat; [easy|].
  assert (ES : skip_unit (fun t i => j_time_w T p lt t * j_unit_w T N p Y' (drop_d D k) lu i) k = skip_unit (fun t i => j_time_w T p lt t * j_unit_w T N p Y (drop_d D k) lu i) k).
  { apply functional_extensionality; intros t; apply functional_extensionality; intros i. unfold skip_unit. destruct (i =? k)%nat eqn:E; [easy|]. apply Nat.eqb_neq in E. now rewrite Eu. }
  rewrite ES. apply (solve_cong lstsq svd Hmn).
  - intros t i. unfold skip_unit. destruct (i =? k)%nat; [lra|]. apply Rmult_le_pos; [left; apply j_time_pos|apply j_unit_nonneg].
  - intros t i Hz. apply H. intros ->. unfold skip_unit in Hz. rewrite Nat.eqb_refl in Hz. easy.
Qed.
(* a single treated unit: no replicate, standard error 0, no inference *)
Theorem joint_one_treated cfg T N Y D miss name draws att se inf effs l score reps k :
  joint_fit lstsq svd sub sf ppf cfg T N Y D miss name draws = FOk att se inf effs l score reps -> tc_boot cfg = false ->
  (forall i, (i < N)%nat -> ever T D i = true -> i = k) -> reps = [] /\ se = Fin 0 /\ ti_t inf = NaN /\ ti_p inf = NaN /\ ti_ci inf = (NaN, NaN).
Proof.
  intros HF Hb H. apply joint_fit_inv in HF. destruct HF as (Hk & _ & _ & _ & Hr & Hse & Hinf). rewrite Hb in Hr, Hse.
  assert (E : reps = []).
  { unfold j_jack in Hr. assert (G : forall ks, (forall x, In x ks -> x = k) -> forall r, j_collect (j_jack1 lstsq svd T N (T - first_treat T N D) Y D (conv_w (fst (fst l))) (conv_w (snd (fst l))) (conv_nn (snd l)) (tc_maxit cfg) (tc_tol cfg)) ks = JOk r -> r = []).
    { induction ks as [|x ks IH]; intros Hx r; [intros [= <-]; easy|]. cbn [j_collect].
      assert (Ej : j_jack1 lstsq svd T N (T - first_treat T N D) Y D (conv_w (fst (fst l))) (conv_w (snd (fst l))) (conv_nn (snd l)) (tc_maxit cfg) (tc_tol cfg) x = JVal).
      { rewrite (Hx x (or_introl eq_refl)). unfold j_jack1, j_weights. destruct (length (filter (ever T (drop_d D k)) (seq 0 N)) =? 0)%nat eqn:E0; [easy|]. exfalso. apply Nat.eqb_neq in E0. apply E0.
        destruct (filter (ever T (drop_d D k)) (seq 0 N)) as [|i r0] eqn:Ef; [easy|]. exfalso. assert (Hi : In i (i :: r0)) by now left. rewrite <- Ef in Hi. apply filter_In in Hi. destruct Hi as [Hi He].
        apply in_seq in Hi. apply ever_true in He. destruct He as (t & Ht & HD). unfold drop_d in HD. destruct (i =? k)%nat eqn:Eik; [easy|]. apply Nat.eqb_neq in Eik. apply Eik, H; [lia|]. apply ever_true. eauto. }
      rewrite Ej. apply IH. intros z Hz. apply Hx. now right. }
    refine (G _ _ reps Hr). intros x Hx. apply filter_In in Hx. destruct Hx as [Hx He]. apply in_seq in Hx. apply H; [lia|easy]. }
  split; [easy|]. rewrite E in Hse. unfold jack_se in Hse. cbn in Hse. split; [easy|]. rewrite Hinf, Hse. unfold trop_inf, flt. rewrite (proj2 (Rltb_false 0 0)) by lra. easy.
Qed.
(* max_iter = 0 with a finite nuclear-norm penalty: the solver returns variables it never assigned *)
Theorem joint_max_iter0 cfg T N Y D miss name draws : check_joint T N D miss = TOk tt -> tc_maxit cfg = 0%nat ->
  (forall x, In x (tc_gn cfg) -> conv_nn x < 10 ^ 10) -> tc_gt cfg <> [] -> tc_gu cfg <> [] -> tc_gn cfg <> [] ->
  joint_fit lstsq svd sub sf ppf cfg T N Y D miss name draws = FUnbound.
Proof.
  intros Hk Hm Hg Ht Hu Hn. unfold joint_fit. rewrite Hk. assert (Ok := check_joint_ok T N D miss Hk). destruct Ok as (Hf & (t & i & Ht' & Hi & E) & _).
  set (p := (T - first_treat T N D)%nat). assert (Hh := first_treat_hit T N D t i Ht' Hi E). destruct Hh as [Hh _].
  assert (Wk : forall lt lu, exists w, j_weights T N p Y D lt lu = JOk w).
  { intros lt lu. unfold j_weights. destruct (sets_ne T N D miss Hk) as (S1 & _). destruct (filter (ever T D) (seq 0 N)); [easy|]. cbn [length Nat.eqb].
    destruct (T - p =? 0)%nat eqn:E0; [apply Nat.eqb_eq in E0; unfold p in E0; lia|eauto]. }
  assert (Sv : forall D w h, h < 10 ^ 10 -> j_solve lstsq svd T N Y D w h 0 (tc_tol cfg) = JUnbound) by (intros; unfold j_solve; destruct (Rle_dec _ _); [lra|easy]).
  unfold j_tune. rewrite Hm. set (obs := loocv_obs _ _ _).
  assert (Fx : forall ln lt lu, conv_nn ln < 10 ^ 10 -> j_fixed lstsq svd T N p Y D lt lu (conv_nn ln) 0 (tc_tol cfg) = JUnbound).
  { intros. unfold j_fixed. destruct (Wk lt lu) as (w & ->). now apply Sv. }
  destruct obs as [|x obs].
  - assert (Sc : forall g, j_search (fun l => j_score lstsq svd T N p Y D [] 0 (tc_tol cfg) (conv_w (fst (fst l))) (conv_w (snd (fst l))) (conv_nn (snd l))) g None = JOk None).
    { induction g as [|l0 g IH]; [easy|]. cbn [j_search]. unfold j_score at 1. destruct (Wk (conv_w (fst (fst l0))) (conv_w (snd (fst l0)))) as (w & ->). exact IH. }
    rewrite Sc. rewrite Fx; [easy|]. cbn [conv_nn]. assert (1 < 10 ^ 10) by (apply Rlt_pow_R1; [lra|lia]). lra.
  - destruct (tc_gt cfg) as [|a gt]; [easy|]. destruct (tc_gu cfg) as [|b gu]; [easy|]. destruct (tc_gn cfg) as [|c gn]; [easy|].
    unfold grid3. cbn [list_prod map app]. cbn [j_search]. unfold j_score at 1. cbn [fst snd]. destruct (Wk (conv_w a) (conv_w b)) as (w & ->). cbn [j_sum]. rewrite Sv by (apply Hg; now left). easy.
Qed.
End Did.

(* ------------------------------------------------------------------------------------------- *)
(* "distance to center of treated block": the centre used lies half a period after the mean of the treated periods *)
Lemma sum_INR n : forall a, sumf INR (seq a n) = INR n * INR a + INR n * (INR n - 1) / 2.
Proof. induction n as [|n IH]; intros a; [simpl; field|]. cbn [seq sumf]. rewrite IH, !S_INR. field. Qed.
Theorem joint_center_off T q : (0 < q <= T)%nat -> j_center T q = meanf INR (seq (T - q) q) + 1/2.
Proof.
  intros H. unfold meanf. rewrite sum_INR. unfold len. rewrite seq_length. unfold j_center. rewrite minus_INR by lia. assert (0 < INR q) by (apply lt_0_INR; lia). field. lra.
Qed.
(* so the first and the last treated period, equally far from the middle of the block, get different weights *)
Theorem joint_center_asym T q lt : (2 <= q <= T)%nat -> 0 < lt -> j_time_w T q lt (T - q) < j_time_w T q lt (T - 1).
Proof.
  intros H Hl. unfold j_time_w, j_center. apply exp_increasing. assert (2 <= INR q) by (replace 2 with (INR 2) by (simpl; ring); apply le_INR; lia).
  rewrite !minus_INR by lia. simpl (INR 1).
  replace (INR T - INR q - (INR T - INR q / 2)) with (- (INR q / 2)) by field. replace (INR T - 1 - (INR T - INR q / 2)) with (INR q / 2 - 1) by field.
  rewrite Rabs_Ropp. rewrite !Rabs_pos_eq by lra. replace (- lt * (INR q / 2 - 1)) with (- lt * (INR q / 2) + lt) by ring. lra.
Qed.

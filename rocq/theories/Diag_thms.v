(* Leave-one-out average and standard error, the full battery, dispatch and interpretation of the placebo diagnostics. *)
From Verif Require Import Prelude Flt Stats_model Stats_proofs Linalg_model Linalg_proofs Linalg_vcov Linalg_thms Did_model Did_spec Did_proofs Did_equiv
  Multi_model Boot_model Prep_model Prep_proofs Diag_model Diag_level Diag_proofs.
From Coq Require Import Arith ZArith String List Bool Lia Permutation Psatz.
Import ListNotations.
Open Scope R_scope.

(* ---------- averages over dropped units ---------- *)
Section Loo.
Context {I U : Type} (ueq : forall x y : U, {x = y} + {x <> y}).
Lemma loo_sum (u : I -> U) (f : I -> R) (l : list I) (x : U) :
  sumf f (filter (fun i => negb (keqb ueq (u i) x)) l) = sumf f l - sumf f (filter (fun i => keqb ueq (u i) x) l).
Proof. rewrite !sumf_filter. rewrite <- sumf_sub. apply sumf_ext_all. intros i. rewrite ind_negb. ring. Qed.
Lemma loo_len (u : I -> U) (l : list I) (x : U) :
  len (filter (fun i => negb (keqb ueq (u i) x)) l) = len l - len (filter (fun i => keqb ueq (u i) x) l).
Proof. rewrite !len_filter. replace (len l) with (sumf (fun _ => 1) l) by (rewrite sumf_const; lra). rewrite <- sumf_sub. apply sumf_ext_all. intros i. rewrite ind_negb. ring. Qed.
Lemma group_total (u : I -> U) (ks : list U) (f : I -> R) (l : list I) : NoDup ks -> (forall i, In i l -> In (u i) ks) ->
  sumf (fun x => sumf f (filter (fun i => keqb ueq (u i) x) l)) ks = sumf f l.
Proof.
  apply sumf_group.
Qed.
(* equally many rows m per unit: the leave-one-unit-out means average to the mean *)
Lemma loo_mean_average (u : I -> U) (f : I -> R) (l : list I) (ks : list U) (m : nat) :
  NoDup ks -> (forall i, In i l -> In (u i) ks) -> (2 <= length ks)%nat -> (1 <= m)%nat ->
  (forall x, In x ks -> length (filter (fun i => keqb ueq (u i) x) l) = m) ->
  meanf (fun x => meanf f (filter (fun i => negb (keqb ueq (u i) x)) l)) ks = meanf f l.
Proof.
  intros ND H K M E. set (k := len ks). assert (Kk : 2 <= k) by (unfold k, len; apply (le_INR 2) in K; simpl in K; lra).
  assert (Mm : 1 <= INR m) by (apply (le_INR 1) in M; simpl in M; lra).
  assert (L : len l = k * INR m).
  { replace (len l) with (sumf (fun _ : I => 1) l) by (rewrite sumf_const; lra). rewrite <- (group_total u ks (fun _ => 1) l ND H).
    rewrite (sumf_ext _ (fun _ => INR m)); [rewrite sumf_const; reflexivity|]. intros x Hx. rewrite sumf_const. unfold len. rewrite (E x Hx). lra. }
  unfold meanf at 1. rewrite (sumf_ext _ (fun x => (sumf f l - sumf f (filter (fun i => keqb ueq (u i) x) l)) * / ((k - 1) * INR m))).
  - rewrite sumf_scal_r, sumf_sub, sumf_const, (group_total u ks f l ND H). fold k. unfold meanf. rewrite L. field. repeat split; lra.
  - intros x Hx. unfold meanf. rewrite loo_sum, loo_len, L. unfold len at 1. rewrite (E x Hx). replace (k * INR m - INR m) with ((k - 1) * INR m) by ring. reflexivity.
Qed.
(* the 2x2 estimate averaged over the treated units left out in turn *)
Theorem loo_did_average (rows : list I) (u : I -> U) (d t y : I -> R) (ks : list U) (m1 m0 : nat) :
  NoDup ks -> (2 <= length ks)%nat -> (1 <= m1)%nat -> (1 <= m0)%nat ->
  (forall i, In i rows -> d i = 1 -> In (u i) ks) -> (forall i, In i rows -> In (u i) ks -> d i = 1) ->
  (forall x, In x ks -> length (filter (fun i => keqb ueq (u i) x) (cell rows d t 1 1)) = m1) ->
  (forall x, In x ks -> length (filter (fun i => keqb ueq (u i) x) (cell rows d t 1 0)) = m0) ->
  meanf (fun x => did_of_means (loo_rows ueq rows u x) d t y) ks = did_of_means rows d t y.
Proof.
  intros ND K M1 M0 HD HK E1 E0.
  assert (CC : forall a b x, cell (loo_rows ueq rows u x) d t a b = filter (fun i => negb (keqb ueq (u i) x)) (cell rows d t a b)).
  { intros a b x. unfold cell, loo_rows. induction rows as [|i l IH]; [reflexivity|]. simpl.
    assert (IH' : filter (fun i => Reqb (d i) a && Reqb (t i) b) (filter (fun i => negb (keqb ueq (u i) x)) l) = filter (fun i => negb (keqb ueq (u i) x)) (filter (fun i => Reqb (d i) a && Reqb (t i) b) l)).
    { clear. induction l as [|j l IH]; [reflexivity|]. simpl. destruct (negb (keqb ueq (u j) x)) eqn:N, (Reqb (d j) a && Reqb (t j) b) eqn:C; simpl; rewrite ?N, ?C, IH; reflexivity. }
    destruct (negb (keqb ueq (u i) x)) eqn:N, (Reqb (d i) a && Reqb (t i) b) eqn:C; simpl; rewrite ?N, ?C, IH'; reflexivity. }
  assert (C0 : forall b x, In x ks -> filter (fun i => negb (keqb ueq (u i) x)) (cell rows d t 0 b) = cell rows d t 0 b).
  { intros b x Hx. unfold cell.
    assert (G : forall l, (forall i, In i l -> In i rows) -> filter (fun i => negb (keqb ueq (u i) x)) (filter (fun i => Reqb (d i) 0 && Reqb (t i) b) l) = filter (fun i => Reqb (d i) 0 && Reqb (t i) b) l).
    { induction l as [|i l IH]; intros Hl; [reflexivity|]. simpl. destruct (Reqb (d i) 0 && Reqb (t i) b) eqn:C; simpl; [|apply IH; intros; apply Hl; simpl; auto].
      rewrite IH by (intros; apply Hl; simpl; auto). apply andb_true_iff in C. destruct C as [C _]. apply Reqb_true in C.
      rewrite (proj2 (keqb_false ueq (u i) x)); [reflexivity|]. intros E. subst x. rewrite (HK i (Hl i (or_introl eq_refl)) Hx) in C. lra. }
    apply G. auto. }
  assert (HI : forall b i, In i (cell rows d t 1 b) -> In (u i) ks).
  { intros b i Hi. unfold cell in Hi. apply filter_In in Hi. destruct Hi as [Hi C]. apply andb_true_iff in C. destruct C as [C _]. apply Reqb_true in C. auto. }
  assert (Nk : ks <> []) by (destruct ks; [simpl in K; lia|discriminate]).
  unfold did_of_means at 1, cell_mean.
  rewrite (meanf_ext _ (fun x => (meanf y (filter (fun i => negb (keqb ueq (u i) x)) (cell rows d t 1 1)) - meanf y (filter (fun i => negb (keqb ueq (u i) x)) (cell rows d t 1 0)))
     - (meanf y (cell rows d t 0 1) - meanf y (cell rows d t 0 0)))).
  - rewrite meanf_sub, meanf_const by exact Nk. rewrite meanf_sub.
    rewrite (loo_mean_average u y (cell rows d t 1 1) ks m1) by eauto. rewrite (loo_mean_average u y (cell rows d t 1 0) ks m0) by eauto. reflexivity.
  - intros x Hx. rewrite !CC, !(C0 _ x Hx). reflexivity.
Qed.
End Loo.

Section D.
Context {I U : Type} (ueq : forall x y : U, {x = y} + {x <> y}).
Context {K G : Type} (keq : forall x y : K, {x = y} + {x <> y}) (geq : forall x y : G, {x = y} + {x <> y}).
Variable qr : list I -> list (I -> R) -> list nat.
Variable lstsq : list I -> list (I -> R) -> (I -> R) -> list R.
Variable inv : list I -> list (I -> R) -> option (nat -> nat -> R).
Variable pinv : list I -> list (I -> R) -> nat -> nat -> R.
Variable sf : option Z -> fl -> fl.
Variable ppf : option Z -> R -> R.
Hypothesis Hls : lstsq_ok lstsq.
Hypothesis Hinv : inv_ok inv.
Hypothesis Hqr : qr_ok qr.
Hypothesis Hd : dist_ok sf ppf.
Variable cfg : did_config I K.
Variable choice : list U -> nat -> nat -> list U.
Notation fR x := (fun i => toR (x i)).
Notation fit := (fun rows y d t => did_fit keq geq qr lstsq inv pinv sf ppf cfg rows y d t [] [] []).
Notation timing := (timing_test (U := U) fit).
Notation group := (group_test ueq fit).
Notation perm := (permutation_test ueq fit choice).
Notation loo := (leave_one_out_test ueq fit sf ppf).

(* leave-one-out estimates that are all equal: standard error 0, t = 0, p-value 1, however large the estimates *)
Theorem loo_identical rows u y d tc alpha r es e : loo rows u y d tc alpha = Ok r -> pl_loo r = Some es -> (forall x, In x (map snd es) -> x = Fin e) -> alpha <= 1 ->
  pl_effect r = Fin e /\ pl_se r = Fin 0 /\ pl_t r = Fin 0 /\ pl_p r = Fin 1 /\ pl_signif r = false.
Proof.
  intros H He Ha Al. apply loo_inv in H. destruct H as (o & es' & _ & _ & N & H). cbv zeta in H.
  destruct H as (_ & A2 & A3 & A4 & A5 & A6 & _ & A8 & _). rewrite He in A2. injection A2 as <-.
  set (valid := filter notna (map snd es)) in *.
  assert (V : valid = map Fin (repeat e (length valid))).
  { assert (X : forall x, In x valid -> x = Fin e) by (intros x Hx; apply notna_In in Hx; apply Ha; tauto). clear -X.
    induction valid as [|v l IH]; [reflexivity|]. simpl. f_equal; [apply X; simpl; auto|]. apply IH. intros; apply X; simpl; auto. }
  set (k := length valid) in *. assert (Kp : (1 <= k)%nat) by (unfold k; destruct valid; [congruence|simpl; lia]).
  assert (Rk : 0 < INR k) by (apply lt_0_INR; lia).
  assert (MS : meanf idR (repeat e k) = e).
  { unfold meanf. rewrite (sumf_ext _ (fun _ => e)) by (intros x Hx; apply repeat_spec in Hx; exact Hx). rewrite sumf_const. unfold len. rewrite repeat_length. field. lra. }
  assert (SE : pl_se r = Fin 0).
  { rewrite A4. destruct (1 <? k)%nat eqn:Ek; [|reflexivity]. apply Nat.ltb_lt in Ek. unfold std1. fold k. rewrite (proj2 (Nat.leb_gt _ _) Ek).
    f_equal. rewrite V, map_map. simpl. rewrite map_id. apply std_zero_iff.
    - unfold len. rewrite repeat_length. apply lt_INR. exact Ek.
    - intros x Hx. apply repeat_spec in Hx. rewrite MS. exact Hx. }
  assert (T : pl_t r = Fin 0) by (rewrite A5, SE; unfold fgt; simpl; rewrite (proj2 (Rltb_false 0 0)) by lra; reflexivity).
  assert (P : pl_p r = Fin 1).
  { rewrite A6, T. unfold u_p_value. simpl fabs. rewrite Rabs_R0. unfold u_sf. destruct (1 <? k)%nat eqn:Ek.
    - apply Nat.ltb_lt in Ek. rewrite (proj2 (Z.ltb_lt _ _)) by lia. rewrite (d_zero _ _ Hd). simpl. f_equal. lra.
    - simpl. rewrite (d_zero _ _ Hd). simpl. f_equal. lra. }
  split; [|split; [exact SE|split; [exact T|split; [exact P|]]]].
  - rewrite A3, V. rewrite fmean_fin; [rewrite MS; reflexivity|]. destruct k; [lia|discriminate].
  - rewrite A8, P. simpl. apply Rltb_false. exact Al.
Qed.
(* balanced panels (every treated unit has m1 rows after and m0 rows before): the leave-one-out estimates average to the original one *)
Theorem loo_average rows u y d tc alpha r es m1 m0 : loo rows u y d tc alpha = Ok r -> pl_loo r = Some es -> ~ In NaN (map snd es) ->
  (2 <= length es)%nat -> (1 <= m1)%nat -> (1 <= m0)%nat ->
  (forall i j, In i rows -> In j rows -> u i = u j -> d i = d j) ->
  four_cells rows (fR d) (fR tc) ->
  (forall x, In x (map fst es) -> length (filter (fun i => keqb ueq (u i) x) (cell rows (fR d) (fR tc) 1 1)) = m1) ->
  (forall x, In x (map fst es) -> length (filter (fun i => keqb ueq (u i) x) (cell rows (fR d) (fR tc) 1 0)) = m0) ->
  pl_orig r = Some (pl_effect r) /\
  (forall x e, In (x, e) es -> e = Fin (did_of_means (loo_rows ueq rows u x) (fR d) (fR tc) (fR y))).
Proof.
  intros H He Nn L M1 M0 DC H4 C1 C0. apply loo_inv in H. destruct H as (o & es' & F & E & N & H). cbv zeta in H.
  destruct H as (A1 & A2 & A3 & _). rewrite He in A2. injection A2 as <-.
  destruct (loo_keys ueq keq geq qr lstsq inv pinv sf ppf cfg rows u y d tc o es F E) as (Kiff & ND & Ent).
  assert (D01 := fit_ok_01 keq geq qr lstsq inv pinv sf ppf cfg _ _ _ _ _ F).
  assert (HK : forall i, In i rows -> In (u i) (map fst es) -> toR (d i) = 1).
  { intros i Hi Hx. apply Kiff in Hx. destruct Hx as [Hx _]. apply treated_list_In in Hx. destruct Hx as (j & Hj & Ej & Dj). rewrite (DC i j Hi Hj (eq_sym Ej)), Dj. reflexivity. }
  assert (HD : forall i, In i rows -> toR (d i) = 1 -> In (u i) (map fst es)).
  { intros i Hi Di. assert (Di' : d i = Fin 1) by (destruct (D01 i Hi) as [X|X]; [rewrite X in Di; simpl in Di; lra|exact X]).
    apply Kiff. split; [apply treated_list_In; eauto|].
    destruct es as [|[x1 e1] [|[x2 e2] es]]; simpl in L; try lia.
    assert (W : forall x, In x [x1; x2] -> exists j, In j rows /\ u j = x /\ d j = Fin 1).
    { intros x Hx. assert (Y : In x (map fst ((x1, e1) :: (x2, e2) :: es))) by (destruct Hx as [<-|[<-|[]]]; simpl; auto). apply Kiff in Y. destruct Y as [Y _]. apply treated_list_In in Y. exact Y. }
    assert (Ne : x1 <> x2) by (inversion ND as [|? ? Nx _]; subst; intros X; apply Nx; simpl; auto).
    destruct (ueq (u i) x1) as [E1|E1].
    - destruct (W x2) as (j & Hj & Ej & Dj); [simpl; auto|]. exists j. repeat split; auto. congruence.
    - destruct (W x1) as (j & Hj & Ej & Dj); [simpl; auto|]. exists j. repeat split; auto. congruence. }
  assert (Four : forall x, In x (map fst es) -> four_cells (loo_rows ueq rows u x) (fR d) (fR tc)).
  { intros x Hx. destruct H4 as (H00 & H01 & H10 & H11).
    assert (Keep : forall a b j, In j (cell rows (fR d) (fR tc) a b) -> u j <> x -> cell (loo_rows ueq rows u x) (fR d) (fR tc) a b <> []).
    { intros a b j Hj Nj Em. unfold cell in Hj. apply filter_In in Hj. destruct Hj as [Hj Cj].
      assert (X : In j (cell (loo_rows ueq rows u x) (fR d) (fR tc) a b)) by (apply filter_In; split; [apply filter_In; split; [exact Hj|apply Bool.negb_true_iff, keqb_false; exact Nj]|exact Cj]).
      rewrite Em in X. destruct X. }
    assert (Other : exists x', In x' (map fst es) /\ x' <> x).
    { destruct es as [|[x1 e1] [|[x2 e2] es]]; simpl in L; try lia. assert (Ne : x1 <> x2) by (inversion ND as [|? ? Nx _]; subst; intros X; apply Nx; simpl; auto).
      destruct (ueq x1 x) as [<-|N1]; [exists x2|exists x1]; simpl; auto. }
    destruct Other as (x' & Hx' & Nx').
    assert (Pick : forall b m, (1 <= m)%nat -> length (filter (fun i => keqb ueq (u i) x') (cell rows (fR d) (fR tc) 1 b)) = m -> cell (loo_rows ueq rows u x) (fR d) (fR tc) 1 b <> []).
    { intros b m Hm Lm. destruct (filter _ (cell rows _ _ 1 b)) as [|j l] eqn:Ej; [simpl in Lm; lia|]. assert (X : In j (j :: l)) by (simpl; auto). rewrite <- Ej in X.
      apply filter_In in X. destruct X as [X1 X2]. apply keqb_true in X2. apply (Keep 1 b j X1). congruence. }
    assert (Ctl : forall b, cell rows (fR d) (fR tc) 0 b <> [] -> cell (loo_rows ueq rows u x) (fR d) (fR tc) 0 b <> []).
    { intros b Hb. destruct (cell rows (fR d) (fR tc) 0 b) as [|j l] eqn:Ej; [congruence|]. assert (X : In j (cell rows (fR d) (fR tc) 0 b)) by (rewrite Ej; simpl; auto).
      apply (Keep 0 b j X). intros Eu. unfold cell in X. apply filter_In in X. destruct X as [X1 X2]. apply andb_true_iff in X2. destruct X2 as [X2 _]. apply Reqb_true in X2.
      rewrite (HK j X1) in X2; [lra|]. rewrite Eu. exact Hx. }
    repeat split; [apply Ctl; auto|apply Ctl; auto|exact (Pick 0 m0 M0 (C0 x' Hx'))|exact (Pick 1 m1 M1 (C1 x' Hx'))]. }
  assert (Val : forall x e, In (x, e) es -> e = Fin (did_of_means (loo_rows ueq rows u x) (fR d) (fR tc) (fR y))).
  { intros x e Hin. destruct (Ent x e Hin) as [->|(s & Es & ->)]; [destruct Nn; exact (in_map snd es (x, NaN) Hin)|].
    eapply (did_att_is_did_of_means keq geq qr lstsq inv pinv sf ppf); eauto. apply Four. exact (in_map fst es (x, r_att s) Hin). }
  split; [|exact Val]. rewrite A1, A3. f_equal.
  rewrite (did_att_is_did_of_means keq geq qr lstsq inv pinv sf ppf Hqr Hls cfg rows y d tc o F H4).
  assert (VM : filter notna (map snd es) = map Fin (map (fun x => did_of_means (loo_rows ueq rows u x) (fR d) (fR tc) (fR y)) (map fst es))).
  { clear -Val. induction es as [|[x e] es IH]; [reflexivity|]. simpl. rewrite (Val x e) by (simpl; auto). simpl. f_equal. apply IH. intros; apply Val; simpl; auto. }
  rewrite VM, fmean_fin by (destruct es; [simpl in L; lia|discriminate]). f_equal. rewrite meanf_map.
  symmetry. apply (loo_did_average ueq rows u (fR d) (fR tc) (fR y) (map fst es) m1 m0); auto. rewrite map_length. exact L.
Qed.

(* ---------- the full battery ---------- *)
Lemma three_periods_fail rows y d t : (exists i j k, In i rows /\ In j rows /\ In k rows /\ t i <> t j /\ t i <> t k /\ t j <> t k) ->
  fit rows y d (tcol t) = Err ValueError.
Proof.
  intros (i & j & k & Hi & Hj & Hk & N1 & N2 & N3). apply fit_bad. right. right. right.
  destruct (binary rows (tcol t)) eqn:E; [|reflexivity]. exfalso. unfold binary in E. rewrite forallb_forall in E.
  assert (B : forall x, In x rows -> t x = 0%Z \/ t x = 1%Z).
  { intros x Hx. specialize (E x Hx). unfold tcol in E. simpl in E. apply orb_true_iff in E. destruct E as [E|E]; apply Reqb_true in E; [left|right]; apply eq_IZR; exact E. }
  destruct (B i Hi), (B j Hj), (B k Hk); congruence.
Qed.
(* three distinct periods: the permutation and leave-one-out tests of run_placebo_test and run_all_placebo_tests are errors *)
Theorem multi_period_errors rows u y d t n alpha :
  (exists i j k, In i rows /\ In j rows /\ In k rows /\ t i <> t j /\ t i <> t k /\ t j <> t k) ->
  perm rows u y d (tcol t) n alpha = Err ValueError /\ loo rows u y d (tcol t) alpha = Err ValueError.
Proof. intros H. pose proof (three_periods_fail rows y d t H) as E. unfold permutation_test, leave_one_out_test. rewrite E. split; reflexivity. Qed.
Lemma timing_ok_three rows y d t f post alpha r : timing rows y d t (Some f) (Some post) alpha = Ok r ->
  exists i j k, In i rows /\ In j rows /\ In k rows /\ t i <> t j /\ t i <> t k /\ t j <> t k.
Proof.
  intros H. apply timing_inv in H. destruct H as (f' & rp & rf & Ef & _ & F1 & F2 & _). injection Ef as <-. simpl in F1, F2.
  apply did_fit_inv in F1, F2. destruct F1 as (_ & _ & _ & T1 & _). destruct F2 as (_ & _ & _ & T2 & _).
  apply two_values_ofb in T1. destruct T1 as ((i & Hi & Li) & (j & Hj & Lj)). apply two_values_ofb in T2. destruct T2 as ((k & Hk & Pk) & _).
  apply filter_In in Hi, Hj. destruct Hi as [Hi Pi], Hj as [Hj Pj]. apply Bool.negb_true_iff in Pi, Pj. apply Z.leb_le in Li. apply Z.leb_gt in Lj.
  exists i, j, k. repeat split; auto; intros C; try lia; rewrite C in *; congruence.
Qed.
(* whenever one fake-timing test of the battery succeeds, its permutation and leave-one-out entries are errors *)
Theorem run_all_errors rows u y d t pre post n alpha : let out := run_all ueq fit sf ppf choice rows u y d t pre post n alpha in
  (exists p r, In (KTiming p, Ok r) out) ->
  In (KPermutation, Err ValueError) out /\ In (KLeaveOneOut, Err ValueError) out /\
  (forall r, ~ In (KPermutation, Ok r) out) /\ (forall r, ~ In (KLeaveOneOut, Ok r) out).
Proof.
  intros out (p & r & H). unfold out, run_all in *.
  assert (T : timing rows y d t (Some p) (Some post) alpha = Ok r).
  { apply in_app_or in H. destruct H as [H|[H|[H|[]]]]; try discriminate. apply in_map_iff in H. destruct H as (q & E & _). congruence. }
  destruct (multi_period_errors rows u y d t n alpha (timing_ok_three _ _ _ _ _ _ _ _ T)) as [E1 E2]. rewrite E1, E2.
  split; [apply in_or_app; right; simpl; auto|]. split; [apply in_or_app; right; simpl; auto|].
  split; intros r' X; (apply in_app_or in X; destruct X as [X|[X|[X|[]]]]; try discriminate; apply in_map_iff in X; destruct X as (q & E & _); discriminate).
Qed.
(* one fake-timing entry per pre-period other than the first, in order, then the two other tests *)
Theorem run_all_keys rows u y d t pre post n alpha :
  map fst (run_all ueq fit sf ppf choice rows u y d t pre post n alpha) = map KTiming (tl pre) ++ [KPermutation; KLeaveOneOut] /\
  (forall p r, In (KTiming p, r) (run_all ueq fit sf ppf choice rows u y d t pre post n alpha) -> In p (tl pre) /\ r = timing rows y d t (Some p) (Some post) alpha).
Proof.
  unfold run_all. split.
  - rewrite map_app, map_map. reflexivity.
  - intros p r H. apply in_app_or in H. destruct H as [H|[H|[H|[]]]]; try discriminate. apply in_map_iff in H. destruct H as (q & E & Hq). injection E as <- <-. auto.
Qed.

(* ---------- dispatch ---------- *)
Notation run := (run_placebo_test ueq fit sf ppf choice).
Theorem dispatch rows u y d t ty fake g post n alpha :
  (to_lower ty = "fake_timing"%string -> run rows u y d t ty fake g post n alpha = timing rows y d t fake post alpha) /\
  (to_lower ty = "fake_group"%string -> run rows u y d t ty fake g post n alpha = match u with Some u => group rows u y t g post alpha | None => Err ValueError end) /\
  (to_lower ty = "permutation"%string -> run rows u y d t ty fake g post n alpha = match u with Some u => perm rows u y d (tcol t) n alpha | None => Err ValueError end) /\
  (to_lower ty = "leave_one_out"%string -> run rows u y d t ty fake g post n alpha = match u with Some u => loo rows u y d (tcol t) alpha | None => Err ValueError end) /\
  (~ In (to_lower ty) ["fake_timing"; "fake_group"; "permutation"; "leave_one_out"]%string -> run rows u y d t ty fake g post n alpha = Err ValueError).
Proof.
  unfold run_placebo_test. repeat split; intros E; try (rewrite E; simpl; reflexivity).
  - rewrite E. simpl. destruct u as [u|]; [|reflexivity]. destruct g as [[|g0 g]|]; reflexivity.
  - assert (X : forall a, In a ["fake_timing"; "fake_group"; "permutation"; "leave_one_out"]%string -> String.eqb (to_lower ty) a = false)
      by (intros a Ha; apply String.eqb_neq; intros C; subst a; auto).
    rewrite !X by (simpl; auto 6). reflexivity.
Qed.

(* ---------- the printed interpretation ---------- *)
(* a permutation result is called a violation of parallel trends exactly when the ORIGINAL estimate is more extreme than the permuted ones *)
Theorem interpretation_permutation rows u y d tc n alpha r x v : perm rows u y d tc n alpha = Ok r -> pl_orig r = Some (Fin x) -> pl_perm r = Some (map Fin v) ->
  (interpretation r = Violation <-> INR (length (filter (fun w => Rleb (Rabs x) (Rabs w)) v)) < alpha * len v /\ 1 < alpha * (len v + 1)).
Proof.
  intros H H1 H2. pose proof (perm_signif_rejects ueq keq geq qr lstsq inv pinv sf ppf cfg choice _ _ _ _ _ _ _ _ _ _ H H1 H2) as S0.
  assert (N : v <> []).
  { destruct (perm_result ueq keq geq qr lstsq inv pinv sf ppf Hls Hqr cfg choice _ _ _ _ _ _ _ _ H) as (valid & o & p & m & P1 & _ & _ & _ & P5 & P6 & _).
    rewrite H2 in P1. injection P1 as <-. intros ->. simpl in P5. lia. }
  unfold interpretation. rewrite S0. rewrite <- (rejects_iff alpha x v N). destruct (rejects alpha x v); split; intros; congruence.
Qed.
(* for the fake-timing and fake-group tests the printed verdict is significance of the placebo effect itself *)
Theorem interpretation_timing rows y d t f post alpha r : timing rows y d t f post alpha = Ok r -> (interpretation r = Violation <-> flt (pl_p r) (Fin alpha) = true).
Proof.
  intros H. apply timing_inv in H. destruct H as (f1 & rp & rf & _ & _ & _ & _ & _ & _ & _ & _ & _ & _ & A7 & _).
  unfold interpretation. rewrite A7. destruct (flt _ _); split; intros; congruence.
Qed.
End D.

(* Placebo diagnostics (Diag_model.v) with [fit] the modelled DifferenceInDifferences.fit. *)
From Verif Require Import Prelude Flt Stats_model Stats_proofs Linalg_model Linalg_proofs Linalg_vcov Linalg_thms Did_model Did_spec Did_proofs Did_equiv
  Multi_model Boot_model Prep_model Prep_proofs Diag_model Diag_level.
From Coq Require Import Arith ZArith String List Bool Lia Permutation Psatz.
Import ListNotations.
Open Scope R_scope.

Lemma zin_In x l : zin x l = true <-> In x l.
Proof. unfold zin. rewrite existsb_exists. split; [intros (y & H & E); apply Z.eqb_eq in E; subst; auto|intros H; exists x; split; [auto|apply Z.eqb_refl]]. Qed.
Lemma ofb_toR b : toR (ofb b) = ind b.
Proof. destruct b; reflexivity. Qed.
Lemma isort_In (l : list Z) x : In x (isort Z.leb l) <-> In x l.
Proof.
  assert (G : forall a m, In x (insert Z.leb a m) <-> x = a \/ In x m).
  { intros a m. induction m as [|b m IH]; simpl; [firstorder congruence|]. destruct (Z.leb a b); simpl; [|rewrite IH]; firstorder congruence. }
  induction l as [|a l IH]; simpl; [tauto|]. rewrite G, IH. firstorder congruence.
Qed.
Lemma zperiods_In {I} (rows : list I) (t : I -> Z) x : In x (zperiods rows t) <-> exists i, In i rows /\ t i = x.
Proof. unfold zperiods. rewrite isort_In, nodup_In, in_map_iff. firstorder. Qed.
Lemma flen {A} (p : A -> bool) l : (length (filter p l) <= length l)%nat.
Proof. induction l as [|a l IH]; simpl; [lia|]. destruct (p a); simpl; lia. Qed.
Lemma F2_length {A B} {P : A -> B -> Prop} {l m} : Forall2 P l m -> length l = length m.
Proof. induction 1; simpl; congruence. Qed.

Section D.
Context {I U : Type} (ueq : forall x y : U, {x = y} + {x <> y}).
Context {K G : Type} (keq : forall x y : K, {x = y} + {x <> y}) (geq : forall x y : G, {x = y} + {x <> y}).
Variable qr : list I -> list (I -> R) -> list nat.
Variable lstsq : list I -> list (I -> R) -> (I -> R) -> list R.
Variable inv : list I -> list (I -> R) -> option (nat -> nat -> R).
Variable pinv : list I -> list (I -> R) -> nat -> nat -> R.
Variable sf : option Z -> fl -> fl.
Variable ppf : option Z -> R -> R.
Hypothesis Hls : lstsq_ok lstsq.
Hypothesis Hinv : inv_ok inv.
Hypothesis Hqr : qr_ok qr.
Variable cfg : did_config I K.
Variable choice : list U -> nat -> nat -> list U.
Notation fR x := (fun i => toR (x i)).
Notation fit := (fun rows y d t => did_fit keq geq qr lstsq inv pinv sf ppf cfg rows y d t [] [] []).
Notation timing := (timing_test (U := U) fit).
Notation group := (group_test ueq fit).
Notation perm := (permutation_test ueq fit choice).
Notation loo := (leave_one_out_test ueq fit sf ppf).

Lemma fit_bad rows y d t : two_values rows d = false \/ two_values rows t = false \/ binary rows d = false \/ binary rows t = false ->
  fit rows y d t = Err ValueError.
Proof.
  intros H. cbv beta. unfold did_fit. destruct (existsb _ _); [reflexivity|].
  destruct (two_values rows d); [|reflexivity]. destruct (two_values rows t); [|reflexivity].
  destruct (binary rows d); [|reflexivity]. destruct (binary rows t); [|reflexivity].
  destruct H as [H|[H|[H|H]]]; discriminate.
Qed.
Lemma two_values_const rows (x : I -> fl) v : (forall i, In i rows -> x i = Fin v) -> two_values rows x = false.
Proof.
  intros H. destruct (two_values rows x) eqn:E; [|reflexivity]. apply existsb_exists in E. destruct E as (i & Hi & E).
  apply existsb_exists in E. destruct E as (j & Hj & E). rewrite (H i Hi), (H j Hj) in E. simpl in E. rewrite (proj2 (Reqb_true v v) eq_refl) in E. discriminate.
Qed.
Lemma two_values_ofb rows (b : I -> bool) : two_values rows (fun i => ofb (b i)) = true -> (exists i, In i rows /\ b i = true) /\ (exists i, In i rows /\ b i = false).
Proof.
  intros H. split.
  - destruct (existsb b rows) eqn:E; [apply existsb_exists in E; exact E|].
    rewrite (two_values_const rows _ 0) in H; [discriminate|]. intros i Hi. destruct (b i) eqn:Ei; [|reflexivity].
    exfalso. assert (existsb b rows = true) by (apply existsb_exists; eauto). congruence.
  - destruct (forallb b rows) eqn:E.
    + rewrite forallb_forall in E. rewrite (two_values_const rows _ 1) in H; [discriminate|]. intros i Hi. rewrite (E i Hi). reflexivity.
    + clear H. induction rows as [|a l IH]; simpl in E; [discriminate|]. destruct (b a) eqn:Ea; [|exists a; simpl; auto].
      destruct (IH E) as (i & Hi & Ei). exists i. simpl. auto.
Qed.

(* ---------- fake timing ---------- *)
Definition pre_rows (rows : list I) (t : I -> Z) (post : list Z) : list I := filter (fun i => negb (zin (t i) post)) rows.
Lemma pre_rows_eq rows t post :
  filter (fun i => zin (t i) (filter (fun p => negb (zin p post)) (zperiods rows t))) rows = pre_rows rows t post.
Proof.
  unfold pre_rows. apply filter_ext_in. intros i Hi. destruct (zin (t i) post) eqn:E; cbn [negb].
  - apply Bool.not_true_is_false. intros E2. apply zin_In, filter_In in E2. rewrite E in E2. destruct E2; discriminate.
  - apply zin_In, filter_In. split; [apply zperiods_In; eauto|]. rewrite E. reflexivity.
Qed.
Lemma timing_inv rows y d t fake post alpha r : timing rows y d t fake post alpha = Ok r ->
  exists f rp rf, fake = Some f /\ ~ In f (post_of rows t post) /\
    fit (pre_rows rows t (post_of rows t post)) y d (fun i => ofb (Z.leb f (t i))) = Ok rp /\
    fit rows y d (fun i => ofb (zin (t i) (post_of rows t post))) = Ok rf /\
    pl_effect r = r_att rp /\ pl_se r = r_se rp /\ pl_t r = r_t rp /\ pl_p r = r_p rp /\ pl_ci r = r_ci rp /\ pl_n r = r_n_obs rp /\
    pl_signif r = flt (pl_p r) (Fin alpha) /\ pl_alpha r = alpha /\ pl_orig r = Some (r_att rf) /\ pl_orig_se r = Some (r_se rf) /\
    pl_type r = "fake_timing"%string /\ pl_period r = Some f.
Proof.
  intros H. unfold timing_test in H. destruct fake as [f|]; [|discriminate].
  destruct (zin f (post_of rows t post)) eqn:E; [discriminate|]. cbv zeta in H. rewrite pre_rows_eq in H.
  destruct (did_fit keq geq qr lstsq inv pinv sf ppf cfg (pre_rows _ _ _) _ _ _ _ _ _) as [rp|] eqn:E1; [|discriminate].
  destruct (did_fit keq geq qr lstsq inv pinv sf ppf cfg rows _ _ _ _ _ _) as [rf|] eqn:E2; [|discriminate].
  cbn [bind] in H. injection H as <-. exists f, rp, rf. repeat split; auto.
  intros C. apply zin_In in C. congruence.
Qed.
(* the reported effect, standard error, t, p, interval, size and verdict depend on the rows of the pre-treatment periods only *)
Theorem timing_only_pre rows rows' y d t f post alpha r r' :
  pre_rows rows t post = pre_rows rows' t post ->
  timing rows y d t (Some f) (Some post) alpha = Ok r -> timing rows' y d t (Some f) (Some post) alpha = Ok r' ->
  pl_effect r = pl_effect r' /\ pl_se r = pl_se r' /\ pl_t r = pl_t r' /\ pl_p r = pl_p r' /\ pl_ci r = pl_ci r' /\ pl_n r = pl_n r' /\ pl_signif r = pl_signif r'.
Proof.
  intros E H H'. apply timing_inv in H, H'.
  destruct H as (f1 & rp & rf & Ef & _ & F1 & _ & A1 & A2 & A3 & A4 & A5 & A6 & A7 & _).
  destruct H' as (f2 & rp' & rf' & Ef' & _ & F1' & _ & B1 & B2 & B3 & B4 & B5 & B6 & B7 & _).
  injection Ef as <-. injection Ef' as <-. simpl in F1, F1'. rewrite E in F1. rewrite F1 in F1'. injection F1' as <-.
  repeat split; congruence.
Qed.
Theorem timing_effect rows y d t f post alpha r :
  timing rows y d t (Some f) post alpha = Ok r ->
  let pp := post_of rows t post in
  let pre := pre_rows rows t pp in
  let fake := fun i => ind (Z.leb f (t i)) in
  four_cells pre (fR d) fake ->
  pl_effect r = Fin (did_of_means pre (fR d) fake (fR y)) /\ pl_n r = length pre /\ (pl_signif r = flt (pl_p r) (Fin alpha)).
Proof.
  intros H pp pre fake H4. apply timing_inv in H.
  destruct H as (f1 & rp & rf & Ef & _ & F1 & _ & A1 & A2 & A3 & A4 & A5 & A6 & A7 & _). injection Ef as <-.
  assert (X : forall i, toR (ofb (Z.leb f (t i))) = fake i) by (intros i; apply ofb_toR).
  assert (XC : forall a b, cell pre (fR d) (fun i => toR (ofb (Z.leb f (t i)))) a b = cell pre (fR d) fake a b)
    by (intros a b; unfold cell; apply filter_ext; intros i; rewrite X; reflexivity).
  split; [|split].
  - rewrite A1. erewrite (did_att_is_did_of_means keq geq qr lstsq inv pinv sf ppf); eauto.
    + f_equal. unfold did_of_means, cell_mean. fold pp pre. rewrite !XC. reflexivity.
    + unfold four_cells. fold pp pre. rewrite !XC. exact H4.
  - rewrite A6. apply did_fit_inv in F1. destruct F1 as (_ & _ & _ & _ & _ & _ & y' & c' & na & reg & F1). apply F1.
  - exact A7.
Qed.
(* a common trend before treatment: no placebo effect.  Differences of the group means constant over the fake date. *)
Theorem timing_parallel rows y d t f post alpha r :
  timing rows y d t (Some f) post alpha = Ok r ->
  let pre := pre_rows rows t (post_of rows t post) in
  let fake := fun i => ind (Z.leb f (t i)) in
  four_cells pre (fR d) fake ->
  (pl_effect r = Fin 0 <-> cell_mean pre (fR d) fake (fR y) 1 1 - cell_mean pre (fR d) fake (fR y) 0 1 = cell_mean pre (fR d) fake (fR y) 1 0 - cell_mean pre (fR d) fake (fR y) 0 0).
Proof.
  intros H pre fake H4. destruct (timing_effect _ _ _ _ _ _ _ _ H H4) as (E & _). rewrite E. unfold did_of_means. fold pre fake.
  split; [intros X; injection X as X; lra|intros X; f_equal; lra].
Qed.
Theorem timing_errors rows y d t post alpha :
  timing rows y d t None post alpha = Err TypeError /\
  (forall f, In f (post_of rows t post) -> timing rows y d t (Some f) post alpha = Err ValueError) /\
  (forall f, (forall i, In i rows -> ~ In (t i) (post_of rows t post) -> (f <= t i)%Z) -> timing rows y d t (Some f) post alpha = Err ValueError) /\
  (forall f, (forall i, In i rows -> ~ In (t i) (post_of rows t post) -> (t i < f)%Z) -> timing rows y d t (Some f) post alpha = Err ValueError).
Proof.
  split; [reflexivity|]. split; [|split]; intros f H; unfold timing_test.
  - rewrite (proj2 (zin_In _ _) H). reflexivity.
  - destruct (zin f _); [reflexivity|]. cbv zeta. rewrite pre_rows_eq.
    rewrite (fit_bad (pre_rows rows t (post_of rows t post))); [reflexivity|]. right; left. apply (two_values_const _ _ 1).
    intros i Hi. apply filter_In in Hi. destruct Hi as [Hi N]. apply Bool.negb_true_iff in N.
    rewrite (proj2 (Z.leb_le _ _)); [reflexivity|]. apply H; auto. intros C. apply zin_In in C. congruence.
  - destruct (zin f _); [reflexivity|]. cbv zeta. rewrite pre_rows_eq.
    rewrite (fit_bad (pre_rows rows t (post_of rows t post))); [reflexivity|]. right; left. apply (two_values_const _ _ 0).
    intros i Hi. apply filter_In in Hi. destruct Hi as [Hi N]. apply Bool.negb_true_iff in N.
    rewrite (proj2 (Z.leb_gt _ _)); [reflexivity|]. apply H; auto. intros C. apply zin_In in C. congruence.
Qed.
(* the default post-periods are the later half of the distinct period values *)
Theorem default_post (rows : list I) t : post_of rows t None = skipn (Nat.div (length (zperiods rows t)) 2) (zperiods rows t) /\
  (forall l, post_of rows t (Some l) = l) /\ (forall p, In p (post_of rows t None) -> exists i, In i rows /\ t i = p).
Proof.
  split; [reflexivity|]. split; [reflexivity|]. intros p H. apply zperiods_In. simpl in H.
  rewrite <- (firstn_skipn (Nat.div (length (zperiods rows t)) 2)). apply in_or_app. right. exact H.
Qed.

(* ---------- fake group ---------- *)
Lemma mem_In x l : mem ueq x l = true <-> In x l.
Proof. unfold mem. rewrite existsb_exists. split; [intros (y & H & E); apply keqb_true in E; subst; auto|intros H; exists x; split; [auto|apply keqb_refl]]. Qed.
(* every other unit of the data is a control, treated ones included: the result is a function of the outcome, unit and period columns alone *)
Theorem group_effect rows u y t g post alpha r :
  group rows u y t (Some g) post alpha = Ok r ->
  let fake := fun i => ind (mem ueq (u i) g) in
  let after := fun i => ind (zin (t i) (post_of rows t post)) in
  four_cells rows fake after ->
  pl_effect r = Fin (did_of_means rows fake after (fR y)) /\ pl_signif r = flt (pl_p r) (Fin alpha) /\ pl_group r = Some g.
Proof.
  intros H fake after H4. unfold group_test in H. destruct g as [|g0 g]; [discriminate|]. cbv zeta in H.
  destruct (did_fit keq geq qr lstsq inv pinv sf ppf cfg rows _ _ _ _ _ _) as [rp|] eqn:E; [|discriminate]. cbn [bind] in H. injection H as <-. cbn [pl_effect pl_signif pl_group pl_p].
  assert (XC : forall a b, cell rows (fun i => toR (ofb (mem ueq (u i) (g0 :: g)))) (fun i => toR (ofb (zin (t i) (post_of rows t post)))) a b = cell rows fake after a b)
    by (intros a b; unfold cell; apply filter_ext; intros i; rewrite !ofb_toR; reflexivity).
  split; [|split; reflexivity].
  erewrite (did_att_is_did_of_means keq geq qr lstsq inv pinv sf ppf); eauto.
  - f_equal. unfold did_of_means, cell_mean. rewrite !XC. reflexivity.
  - unfold four_cells. rewrite !XC. exact H4.
Qed.
Theorem group_errors rows u y t post alpha :
  group rows u y t None post alpha = Err ValueError /\ group rows u y t (Some []) post alpha = Err ValueError /\
  (forall g, (forall i, In i rows -> ~ In (u i) g) -> group rows u y t (Some g) post alpha = Err ValueError) /\
  (forall g, (forall i, In i rows -> In (u i) g) -> group rows u y t (Some g) post alpha = Err ValueError).
Proof.
  split; [reflexivity|]. split; [reflexivity|]. split; intros g H; unfold group_test; (destruct g as [|g0 g]; [reflexivity|]); cbv zeta;
    (rewrite fit_bad; [reflexivity|]); left.
  - apply (two_values_const _ _ 0). intros i Hi. destruct (mem ueq (u i) (g0 :: g)) eqn:E; [|reflexivity]. apply mem_In in E. destruct (H i Hi E).
  - apply (two_values_const _ _ 1). intros i Hi. rewrite (proj2 (mem_In _ _) (H i Hi)). reflexivity.
Qed.

(* ---------- permutation test ---------- *)
Lemma perm_inv rows u y d tc n alpha r : perm rows u y d tc n alpha = Ok r ->
  exists o es, fit rows y d tc = Ok o /\ perm_effects ueq fit choice rows u y d tc n = Ok es /\ filter notna es <> [] /\
    let valid := filter notna es in
    pl_orig r = Some (r_att o) /\ pl_orig_se r = Some (r_se o) /\ pl_perm r = Some valid /\ pl_nperm r = Some (length valid) /\
    pl_effect r = fmean valid /\ pl_p r = Fin (perm_pvalue (r_att o) valid) /\
    pl_ci r = (Fin (percentile (map toR valid) (alpha / 2)), Fin (percentile (map toR valid) (1 - alpha / 2))) /\
    pl_signif r = Rltb (perm_pvalue (r_att o) valid) alpha /\ pl_alpha r = alpha /\ pl_n r = length rows /\ pl_type r = "permutation"%string.
Proof.
  intros H. unfold permutation_test in H.
  destruct (did_fit keq geq qr lstsq inv pinv sf ppf cfg rows y d tc _ _ _) as [o|] eqn:E; [|discriminate]. cbn [bind] in H.
  destruct (perm_effects _ _ _ _ _ _ _ _ _) as [es|] eqn:E2; [|discriminate]. cbn [bind] in H. cbv zeta in H.
  exists o, es. destruct (filter notna es) as [|v l] eqn:Ev; [discriminate|]. injection H as <-. repeat split; auto. discriminate.
Qed.
Lemma att_or_nan_spec res' e : att_or_nan (I := I) res' = Ok e -> (exists s, res' = Ok s /\ e = r_att s) \/ (e = NaN /\ exists x, res' = Err x).
Proof. destruct res' as [s|x]; simpl; [intros H; injection H as <-; left; eauto|]. destruct x; intros H; try discriminate; injection H as <-; right; eauto. Qed.
(* the i-th entry is the 2x2 estimate with treatment "unit in the i-th random group" *)
Theorem perm_entries rows u y d tc n es : perm_effects ueq fit choice rows u y d tc n = Ok es -> length es = n /\
  forall i, (i < n)%nat ->
    let g := choice (unit_list ueq rows u) (n_treated_units ueq rows u d) i in
    let dg := fun j => ind (mem ueq (u j) g) in
    nth i es NaN = NaN \/ exists s, fit rows y (fun j => ofb (mem ueq (u j) g)) tc = Ok s /\ nth i es NaN = r_att s /\
      (four_cells rows dg (fR tc) -> nth i es NaN = Fin (did_of_means rows dg (fR tc) (fR y))).
Proof.
  intros H. apply mapM_inv in H. assert (L := F2_length H). rewrite seq_length in L. split; [auto|]. intros i Hi g dg.
  assert (X : forall (l : list nat) (es' : list fl) k, Forall2 (fun x z => att_or_nan (fit rows y (fun j => ofb (mem ueq (u j) (choice (unit_list ueq rows u) (n_treated_units ueq rows u d) x))) tc) = Ok z) l es' ->
      (k < length l)%nat -> att_or_nan (fit rows y (fun j => ofb (mem ueq (u j) (choice (unit_list ueq rows u) (n_treated_units ueq rows u d) (nth k l 0%nat)))) tc) = Ok (nth k es' NaN)).
  { intros l es' k F. revert k. induction F as [|a b l es' R0 F IH]; intros k Hk; simpl in Hk; [lia|]. destruct k as [|k]; [exact R0|]. simpl. apply IH. lia. }
  specialize (X _ _ i H). rewrite seq_length in X. specialize (X Hi). rewrite seq_nth in X by exact Hi. simpl in X. fold g in X.
  apply att_or_nan_spec in X. destruct X as [(s & Es & X)|(X & _)]; [right|left; exact X].
  exists s. split; [exact Es|]. split; [exact X|]. intros H4. rewrite X.
  assert (XC : forall a b, cell rows (fun j => toR (ofb (mem ueq (u j) g))) (fR tc) a b = cell rows dg (fR tc) a b)
    by (intros a b; unfold cell; apply filter_ext; intros j; rewrite ofb_toR; reflexivity).
  erewrite (did_att_is_did_of_means keq geq qr lstsq inv pinv sf ppf); eauto.
  - f_equal. unfold did_of_means, cell_mean. rewrite !XC. reflexivity.
  - unfold four_cells. rewrite !XC. exact H4.
Qed.
Lemma notna_In l x : In x (filter notna l) <-> In x l /\ x <> NaN.
Proof. rewrite filter_In. unfold notna. destruct x; simpl; intuition congruence. Qed.
Theorem perm_p_bounds orig valid : valid <> [] -> 1 / (INR (length valid) + 1) <= perm_pvalue orig valid <= 1.
Proof.
  intros H. unfold perm_pvalue. split; [apply Rmax_r|]. apply Rmax_lub; [apply share_bounds; auto|].
  pose proof (pos_INR (length valid)). apply (Rmult_le_reg_r (INR (length valid) + 1)); [lra|]. unfold Rdiv. rewrite Rmult_assoc, Rinv_l, !Rmult_1_l by lra. lra.
Qed.
(* p-value bounds, verdict and interval of any completed test *)
Theorem perm_result rows u y d tc n alpha r : perm rows u y d tc n alpha = Ok r ->
  exists valid orig p m, pl_perm r = Some valid /\ pl_orig r = Some orig /\ pl_p r = Fin p /\ pl_nperm r = Some m /\ m = length valid /\ (1 <= m <= n)%nat /\
    1 / (INR m + 1) <= p <= 1 /\ p = perm_pvalue orig valid /\ (pl_signif r = true <-> p < alpha) /\ (alpha * (INR m + 1) <= 1 -> pl_signif r = false).
Proof.
  intros H. apply perm_inv in H. destruct H as (o & es & E & E2 & N & H). cbv zeta in H.
  destruct H as (A1 & _ & A3 & A4 & _ & A6 & _ & A8 & _).
  pose proof (perm_p_bounds (r_att o) _ N) as B.
  exists (filter notna es), (r_att o), (perm_pvalue (r_att o) (filter notna es)), (length (filter notna es)).
  repeat split; auto; try tauto.
  - destruct (filter notna es); [congruence|simpl; lia].
  - pose proof (perm_entries _ _ _ _ _ _ _ E2) as (L & _). rewrite <- L. apply flen.
  - rewrite A8. apply Rltb_true.
  - rewrite A8. apply Rltb_true.
  - intros X. rewrite A8. apply Rltb_false. apply Rle_trans with (1 / (INR (length (filter notna es)) + 1)); [|tauto].
    pose proof (pos_INR (length (filter notna es))). apply (Rmult_le_reg_r (INR (length (filter notna es)) + 1)); [lra|].
    unfold Rdiv. rewrite Rmult_assoc, Rinv_l, !Rmult_1_l by lra. exact X.
Qed.
(* monotone: a larger absolute estimate has a smaller p-value *)
Theorem perm_p_mono (x x' : R) valid : Rabs x <= Rabs x' -> perm_pvalue (Fin x') valid <= perm_pvalue (Fin x) valid.
Proof.
  intros H. unfold perm_pvalue. apply Rle_max_compat_r. apply share_mono. intros v _. unfold fge, fabs.
  destruct v; simpl; auto; rewrite !Rleb_true; lra.
Qed.
(* sign does not matter *)
Theorem perm_p_sign (x : R) valid : perm_pvalue (Fin (- x)) valid = perm_pvalue (Fin x) valid.
Proof. unfold perm_pvalue. simpl. rewrite Rabs_Ropp. reflexivity. Qed.
(* an undefined original estimate receives the smallest p-value possible *)
Theorem perm_p_nan valid orig : valid <> [] -> perm_pvalue NaN valid = 1 / (INR (length valid) + 1) /\ perm_pvalue NaN valid <= perm_pvalue orig valid.
Proof.
  intros N. assert (E : perm_pvalue NaN valid = 1 / (INR (length valid) + 1)).
  { unfold perm_pvalue. rewrite share_none.
    - apply Rmax_right. pose proof (pos_INR (length valid)). unfold Rdiv. rewrite Rmult_1_l. left. apply Rinv_0_lt_compat. lra.
    - intros v _. unfold fge. simpl. destruct v; reflexivity. }
  split; [exact E|]. rewrite E. apply perm_p_bounds. exact N.
Qed.
(* with finite estimates the verdict is the event whose probability Diag_level bounds *)
Theorem perm_signif_rejects rows u y d tc n alpha r x v : perm rows u y d tc n alpha = Ok r -> pl_orig r = Some (Fin x) -> pl_perm r = Some (map Fin v) -> pl_signif r = rejects alpha x v.
Proof.
  intros H H1 H2. apply perm_inv in H. destruct H as (o & es & E & E2 & N & H). cbv zeta in H.
  destruct H as (A1 & _ & A3 & A4 & _ & A6 & _ & A8 & _). rewrite A8. unfold rejects. rewrite H1 in A1. rewrite H2 in A3. injection A1 as ->. injection A3 as ->. reflexivity.
Qed.
(* the interval is the central part of the null distribution: ordered and within its range *)
Theorem perm_ci rows u y d tc n alpha r lo hi v : perm rows u y d tc n alpha = Ok r -> 0 <= alpha <= 1 -> pl_perm r = Some (map Fin v) ->
  (forall x, In x v -> lo <= x <= hi) ->
  exists a b, pl_ci r = (Fin a, Fin b) /\ lo <= a /\ a <= b /\ b <= hi.
Proof.
  intros H A Hv B. apply perm_inv in H. destruct H as (o & es & E & E2 & N & H). cbv zeta in H.
  destruct H as (A1 & _ & A3 & A4 & _ & A6 & A7 & A8 & _). rewrite A3 in Hv. injection Hv as Hv. rewrite Hv in *.
  assert (M : map toR (map Fin v) = v) by (rewrite map_map; apply map_id). rewrite M in A7.
  assert (Nv : v <> []) by (destruct v; [simpl in N; congruence|discriminate]).
  exists (percentile v (alpha / 2)), (percentile v (1 - alpha / 2)). split; [exact A7|].
  split; [apply (percentile_range v (alpha / 2) lo hi); auto; lra|]. split; [apply percentile_mono; auto; lra|apply (percentile_range v (1 - alpha / 2) lo hi); auto; lra].
Qed.
(* random groups of the right size, drawn without replacement from the units *)
Definition choice_ok : Prop := forall units k i, (k <= length units)%nat -> NoDup units -> length (choice units k i) = k /\ NoDup (choice units k i) /\ incl (choice units k i) units.
Theorem perm_assignment (rows : list I) u d i : choice_ok ->
  let g := choice (unit_list ueq rows u) (n_treated_units ueq rows u d) i in
  length g = n_treated_units ueq rows u d /\ NoDup g /\ (forall x, In x g -> exists j, In j rows /\ u j = x).
Proof.
  intros C g. assert (N : NoDup (unit_list ueq rows u)) by apply NoDup_nodup.
  destruct (C (unit_list ueq rows u) (n_treated_units ueq rows u d) i) as (L & ND & IN); auto.
  - unfold n_treated_units. apply flen.
  - split; [exact L|]. split; [exact ND|]. intros x X. apply IN in X. unfold unit_list in X. rewrite nodup_In, in_map_iff in X. destruct X as (j & E & X). eauto.
Qed.
Theorem perm_zero rows u y d tc alpha o : fit rows y d tc = Ok o -> perm rows u y d tc 0 alpha = Err RuntimeError.
Proof. intros H. unfold permutation_test. rewrite H. reflexivity. Qed.
(* time-varying treatment columns, 0 on every unit's first row: no permutation can be estimated *)
Theorem perm_time_varying rows u y d tc n alpha o : choice_ok -> fit rows y d tc = Ok o ->
  (forall x, unit_first ueq rows u d x <> Fin 1) -> perm rows u y d tc n alpha = Err RuntimeError.
Proof.
  intros C H F. unfold permutation_test. rewrite H. cbn [bind].
  assert (Z0 : n_treated_units ueq rows u d = 0%nat).
  { unfold n_treated_units. rewrite (proj2 (length_zero_iff_nil _)); [reflexivity|].
    destruct (filter _ _) as [|x l] eqn:E; [reflexivity|]. assert (X : In x (x :: l)) by (simpl; auto). rewrite <- E in X. apply filter_In in X.
    destruct X as [_ X]. specialize (F x). destruct (unit_first ueq rows u d x); simpl in X; try discriminate. apply Reqb_true in X. subst. congruence. }
  assert (E : forall l, mapM (fun i => let g := choice (unit_list ueq rows u) (n_treated_units ueq rows u d) i in att_or_nan (fit rows y (fun j => ofb (mem ueq (u j) g)) tc)) l = Ok (map (fun _ => NaN) l)).
  { induction l as [|i l IH]; [reflexivity|]. simpl. cbv zeta in IH. rewrite IH. clear IH.
    destruct (C (unit_list ueq rows u) (n_treated_units ueq rows u d) i) as (L & _); [rewrite Z0; lia|apply NoDup_nodup|].
    rewrite Z0 in L at 2. apply length_zero_iff_nil in L. rewrite L. rewrite (fit_bad rows y); [reflexivity|]. left. apply (two_values_const _ _ 0). reflexivity. }
  unfold perm_effects. cbv zeta in E |- *. rewrite E. cbn [bind].
  replace (filter notna (map (fun _ => NaN) (seq 0 n))) with (@nil fl); [reflexivity|]. induction (seq 0 n) as [|a l IH]; simpl; auto.
Qed.

(* ---------- leave one out ---------- *)
Lemma treated_list_In (rows : list I) u d x : In x (treated_list ueq rows u d) <-> exists i, In i rows /\ u i = x /\ d i = Fin 1.
Proof.
  unfold treated_list. rewrite <- in_rev, nodup_In, <- in_rev, in_map_iff. split.
  - intros (i & E & H). apply filter_In in H. destruct H as [H1 H2]. exists i. repeat split; auto. destruct (d i); simpl in H2; try discriminate. apply Reqb_true in H2. congruence.
  - intros (i & Hi & E & H). exists i. split; auto. apply filter_In. split; auto. rewrite H. simpl. apply Reqb_true. reflexivity.
Qed.
Lemma treated_list_NoDup (rows : list I) u d : NoDup (treated_list ueq rows u d).
Proof. unfold treated_list. apply NoDup_rev, NoDup_nodup. Qed.
Lemma fsum_ind (l : list I) (d : I -> fl) : (forall i, In i l -> d i = Fin 0 \/ d i = Fin 1) -> fsum (map d l) = Fin (sumf (fR d) l).
Proof.
  intros H. replace (map d l) with (map Fin (map (fR d) l)); [rewrite fsum_fin, sumf_map; reflexivity|].
  rewrite map_map. apply map_ext_in. intros i Hi. destruct (H i Hi) as [->| ->]; reflexivity.
Qed.
Lemma fit_ok_01 rows y d t o : fit rows y d t = Ok o -> forall i, In i rows -> d i = Fin 0 \/ d i = Fin 1.
Proof.
  intros H i Hi. cbv beta in H. unfold did_fit in H.
  destruct (existsb (has_nan rows) (y :: d :: t :: [])) eqn:E1; [discriminate|].
  destruct (two_values rows d); [|discriminate]. destruct (two_values rows t); [|discriminate].
  destruct (binary rows d) eqn:E4; [|discriminate]. clear H.
  unfold binary in E4. rewrite forallb_forall in E4. specialize (E4 i Hi).
  simpl in E1. apply orb_false_iff in E1. destruct E1 as [_ E1]. apply orb_false_iff in E1. destruct E1 as [Nd _].
  pose proof (has_nan_false rows d Nd i Hi) as Hne.
  destruct (d i) as [v| | |]; simpl in E4; try congruence; try discriminate.
  apply orb_true_iff in E4. destruct E4 as [E|E]; apply Reqb_true in E; subst; auto.
Qed.
(* every treated unit is dropped in turn whenever at least one other treated row remains *)
Lemma loo_keys rows u y d tc o es : fit rows y d tc = Ok o -> loo_effects ueq fit rows u y d tc = Ok es ->
  (forall x, In x (map fst es) <-> In x (treated_list ueq rows u d) /\ exists i, In i rows /\ u i <> x /\ d i = Fin 1) /\
  NoDup (map fst es) /\
  (forall x e, In (x, e) es -> e = NaN \/ exists s, fit (loo_rows ueq rows u x) y d tc = Ok s /\ e = r_att s).
Proof.
  clear choice. intros F H. assert (D := fit_ok_01 _ _ _ _ _ F). unfold loo_effects in H. apply mapM_inv in H.
  set (ks := filter _ (treated_list ueq rows u d)) in H.
  assert (M : map fst es = ks).
  { revert H. generalize ks. intros l H. induction H as [|x p l es' R0 H IH]; [reflexivity|]. simpl. f_equal; auto.
    destruct (att_or_nan _) as [e|] eqn:E; [|discriminate]. simpl in R0. injection R0 as <-. reflexivity. }
  split; [|split; [rewrite M; apply NoDup_filter, treated_list_NoDup|]].
  - intros x. rewrite M. unfold ks. rewrite filter_In. apply and_iff_compat_l.
    rewrite (fsum_ind (loo_rows ueq rows u x) d) by (intros i Hi; apply filter_In in Hi; apply D; tauto). simpl. split.
    + intros E. apply Bool.negb_true_iff, Reqb_false in E.
      destruct (existsb (fun i => feqb (d i) (Fin 1)) (loo_rows ueq rows u x)) eqn:Ex.
      * apply existsb_exists in Ex. destruct Ex as (i & Hi & Ei). apply filter_In in Hi. destruct Hi as [Hi Ni]. exists i. split; auto.
        apply Bool.negb_true_iff, keqb_false in Ni. split; [exact Ni|]. destruct (D i Hi) as [X|X]; [|exact X]. rewrite X in Ei. simpl in Ei. apply Reqb_true in Ei. lra.
      * exfalso. apply E. apply sumf_zero. intros i Hi. assert (Hr : In i rows) by (apply filter_In in Hi; tauto). destruct (D i Hr) as [X|X]; rewrite X; [reflexivity|].
        assert (C : existsb (fun i => feqb (d i) (Fin 1)) (loo_rows ueq rows u x) = true) by (apply existsb_exists; exists i; split; [auto|rewrite X; simpl; apply Reqb_true; reflexivity]). congruence.
    + intros (i & Hi & Ni & X). apply Bool.negb_true_iff, Reqb_false.
      assert (P : 0 < sumf (fR d) (loo_rows ueq rows u x)); [|lra]. apply sumf_pos.
      * intros j Hj. apply filter_In in Hj. destruct (D j (proj1 Hj)) as [-> | ->]; simpl; lra.
      * exists i. split; [apply filter_In; split; [exact Hi|apply Bool.negb_true_iff, keqb_false; exact Ni]|]. rewrite X. simpl. lra.
  - intros x e Hin. clear M. revert H Hin. generalize ks. intros l H. induction H as [|x' p l es' R0 H IH]; [intros []|]. intros [E|Hin]; [|exact (IH Hin)].
    destruct (att_or_nan _) as [e'|] eqn:E'; [|discriminate]. simpl in R0. injection R0 as R0. rewrite E in R0. injection R0 as -> ->.
    apply att_or_nan_spec in E'. destruct E' as [(s & Es & ->)|(-> & _)]; [right; eauto|left; reflexivity].
Qed.
Lemma loo_inv rows u y d tc alpha r : loo rows u y d tc alpha = Ok r ->
  exists o es, fit rows y d tc = Ok o /\ loo_effects ueq fit rows u y d tc = Ok es /\ filter notna (map snd es) <> [] /\
    let valid := filter notna (map snd es) in
    pl_orig r = Some (r_att o) /\ pl_loo r = Some es /\ pl_effect r = fmean valid /\
    pl_se r = (if (1 <? length valid)%nat then std1 valid else Fin 0) /\
    pl_t r = (if fgt (pl_se r) (Fin 0) then fdiv (pl_effect r) (pl_se r) else Fin 0) /\
    pl_p r = u_p_value sf (pl_t r) (Some (if (1 <? length valid)%nat then (Z.of_nat (length valid) - 1)%Z else 1%Z)) /\
    pl_ci r = u_ci ppf (pl_effect r) (pl_se r) alpha (Some (if (1 <? length valid)%nat then (Z.of_nat (length valid) - 1)%Z else 1%Z)) /\
    pl_signif r = flt (pl_p r) (Fin alpha) /\ pl_n r = length rows /\ pl_type r = "leave_one_out"%string.
Proof.
  intros H. unfold leave_one_out_test in H.
  destruct (did_fit keq geq qr lstsq inv pinv sf ppf cfg rows y d tc _ _ _) as [o|] eqn:E; [|discriminate]. cbn [bind] in H.
  destruct (loo_effects _ _ _ _ _ _ _) as [es|] eqn:E2; [|discriminate]. cbn [bind] in H. cbv zeta in H.
  exists o, es. destruct (filter notna (map snd es)) as [|v l] eqn:Ev; [discriminate|]. injection H as <-. cbv zeta. repeat split; auto. discriminate.
Qed.
(* one treated unit: nothing to leave out *)
Theorem loo_single rows u y d tc alpha o x : fit rows y d tc = Ok o -> (forall i, In i rows -> d i = Fin 1 -> u i = x) -> loo rows u y d tc alpha = Err RuntimeError.
Proof.
  intros F H. unfold leave_one_out_test. rewrite F. cbn [bind]. unfold loo_effects.
  replace (filter _ (treated_list ueq rows u d)) with (@nil U); [reflexivity|]. symmetry.
  destruct (filter _ (treated_list ueq rows u d)) as [|k l] eqn:E; [reflexivity|]. exfalso.
  assert (X : In k (k :: l)) by (simpl; auto). rewrite <- E in X. apply filter_In in X. destruct X as [X1 X2].
  apply treated_list_In in X1. destruct X1 as (i & Hi & Ei & Di). pose proof (H i Hi Di) as Ex. subst x.
  apply Bool.negb_true_iff in X2. assert (D := fit_ok_01 _ _ _ _ _ F).
  rewrite (fsum_ind (loo_rows ueq rows u k) d) in X2 by (intros j Hj; apply filter_In in Hj; apply D; tauto). simpl in X2. apply Reqb_false in X2. apply X2.
  apply sumf_zero. intros j Hj. apply filter_In in Hj. destruct Hj as [Hj Nj]. apply Bool.negb_true_iff, keqb_false in Nj.
  destruct (D j Hj) as [Z0|Z1]; [rewrite Z0; reflexivity|]. exfalso. apply Nj. rewrite <- Ei. exact (H j Hj Z1).
Qed.
End D.

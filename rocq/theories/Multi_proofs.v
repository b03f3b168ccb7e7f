(* MultiPeriodDiD: what the period effects and their average are. *)
From Verif Require Import Prelude Flt Linalg_model Linalg_proofs Linalg_vcov Linalg_thms Did_model Did_spec Did_proofs
  Within_proofs Multi_model.
From Coq Require Import Arith ZArith String List.
Import ListNotations.
Open Scope R_scope.

(* ---- specification vocabulary ---- *)
Definition mcell {I} (rows : list I) (d : I -> R) (t : I -> Z) (a : R) (p : Z) : list I :=
  filter (fun i => Reqb (d i) a && Z.eqb (t i) p) rows.
Definition mmean {I} (rows : list I) (d : I -> R) (t : I -> Z) (y : I -> R) (a : R) (p : Z) : R :=
  meanf y (mcell rows d t a p).
Definition period_rows {I} (rows : list I) (t : I -> Z) (p : Z) : list I := filter (fun i => Z.eqb (t i) p) rows.
Definition pre_rows {I} (rows : list I) (t : I -> Z) (post : list Z) : list I :=
  filter (fun i => negb (zmem (t i) post)) rows.
(* treatment minus its share in the row's period *)
Definition dev {I} (rows : list I) (d : I -> R) (t : I -> Z) (i : I) : R :=
  d i - meanf d (period_rows rows t (t i)).
(* the treated-control gap of the pre-periods, net of period effects *)
Definition pre_gap {I} (rows : list I) (d : I -> R) (t : I -> Z) (post : list Z) (y : I -> R) : R :=
  sumf (fun i => dev rows d t i * y i) (pre_rows rows t post)
  / sumf (fun i => dev rows d t i * dev rows d t i) (pre_rows rows t post).

Lemma zmem_In x l : zmem x l = true <-> In x l.
Proof.
  unfold zmem. rewrite existsb_exists. split.
  - intros (y & Hy & E). apply Z.eqb_eq in E. subst; auto.
  - intros H. exists x. split; auto. apply Z.eqb_refl.
Qed.
Lemma zmem_false x l : zmem x l = false <-> ~ In x l.
Proof. rewrite <- zmem_In. destruct (zmem x l); split; congruence. Qed.

(* ---- sorting ---- *)
Lemma zinsert_perm x l : Permutation (zinsert x l) (x :: l).
Proof.
  induction l as [|y l IH]; simpl; auto. destruct (Z.leb x y); auto.
  rewrite IH. apply perm_swap.
Qed.
Lemma zsort_perm l : Permutation (zsort l) l.
Proof. induction l as [|x l IH]; simpl; auto. rewrite zinsert_perm. auto. Qed.
Lemma zsort_In x l : In x (zsort l) <-> In x l.
Proof. split; apply Permutation_in; [|apply Permutation_sym]; apply zsort_perm. Qed.
Lemma zsort_NoDup l : NoDup l -> NoDup (zsort l).
Proof. intros H. eapply Permutation_NoDup; [apply Permutation_sym, zsort_perm|exact H]. Qed.

Fixpoint zsorted (l : list Z) : Prop :=
  match l with [] => True | x :: r => (forall y, In y r -> (x <= y)%Z) /\ zsorted r end.
Lemma zinsert_sorted x l : zsorted l -> zsorted (zinsert x l).
Proof.
  induction l as [|y l IH]; simpl; [intros _; split; auto; intros ? []|].
  intros [H1 H2]. destruct (Z.leb x y) eqn:E.
  - apply Z.leb_le in E. split; [|simpl; auto]. intros z [<-|Hz]; auto. specialize (H1 z Hz). lia.
  - apply Z.leb_gt in E. split; [|auto]. intros z Hz.
    apply (Permutation_in _ (zinsert_perm x l)) in Hz. destruct Hz as [<-|Hz]; [lia|auto].
Qed.
Lemma zsort_sorted l : zsorted (zsort l).
Proof. induction l; simpl; auto. apply zinsert_sorted; auto. Qed.

(* ---- combinations of indicator columns ---- *)
Fixpoint coefat (l : list Z) (b : list R) (p : Z) : R :=
  match l, b with
  | q :: l', x :: b' => if Z.eqb p q then x else coefat l' b' p
  | _, _ => 0
  end.
Lemma coefat_notin l b p : ~ In p l -> coefat l b p = 0.
Proof.
  revert b. induction l as [|q l IH]; intros [|x b] H; simpl; auto.
  destruct (Z.eqb p q) eqn:E; [apply Z.eqb_eq in E; subst; exfalso; apply H; left; auto|].
  apply IH. intros K; apply H; right; auto.
Qed.
Lemma coefat_nth l b j : NoDup l -> length b = length l -> (j < length l)%nat -> coefat l b (nth j l 0%Z) = nth j b 0.
Proof.
  revert b j. induction l as [|q l IH]; intros [|x b] j Hn Hb Hj; simpl in *; try lia.
  inversion Hn; subst. destruct j as [|j].
  - rewrite Z.eqb_refl. reflexivity.
  - destruct (Z.eqb (nth j l 0%Z) q) eqn:E.
    + apply Z.eqb_eq in E. exfalso. apply H1. rewrite <- E. apply nth_In. lia.
    + apply IH; auto; lia.
Qed.
Lemma lc_indicators {I} (t : I -> Z) (h : Z -> I -> R) (g : R) l b i :
  (forall p, h p i = g * at_period t p i) -> NoDup l -> length b = length l ->
  lc (map h l) b i = g * coefat l b (t i).
Proof.
  intros Hh. revert b. induction l as [|q l IH]; intros [|x b] Hn Hb; simpl in *; try lia; try ring.
  inversion Hn as [|? ? Hq Hn']; subst. rewrite Hh, IH by (auto; lia). unfold at_period.
  destruct (Z.eqb (t i) q) eqn:E; simpl ind; [|ring].
  apply Z.eqb_eq in E. rewrite E. rewrite (coefat_notin l b q Hq). ring.
Qed.

(* all-zero coefficients from zero at every label *)
Lemma coefat_zero l b : NoDup l -> length b = length l -> (forall p, In p l -> coefat l b p = 0) -> b = repeat 0 (length l).
Proof.
  intros Hn Hb H. apply nth_ext with (d := 0) (d' := 0); [rewrite repeat_length; auto|].
  intros j Hj. rewrite nth_repeat. rewrite <- (coefat_nth l b j Hn Hb) by lia. apply H. apply nth_In. lia.
Qed.

Section Normal.
Context {I : Type}.
Variables (rows : list I) (d : I -> R) (t : I -> Z) (all post : list Z) (ref : Z).
Hypothesis Hd : zero_one rows d.
Hypothesis Hall : forall i, In i rows -> In (t i) all.
Hypothesis Hocc : forall p, In p all -> period_rows rows t p <> [].
Hypothesis Hnd : NoDup all.
Hypothesis Hpost : NoDup post.
Hypothesis Hincl : incl post all.
Hypothesis Href : In ref all.
Notation nonref := (filter (fun p => negb (Z.eqb p ref)) all).
Notation cols := (mp_design d t all post ref []).
Notation A := (period_rows rows t).
Notation pre := (filter (fun p => negb (zmem p post)) all).

Lemma nonref_nodup : NoDup nonref. Proof. apply NoDup_filter; auto. Qed.
Lemma nonref_in p : In p nonref <-> In p all /\ p <> ref.
Proof. rewrite filter_In, Bool.negb_true_iff, Z.eqb_neq. tauto. Qed.

Lemma by_period (f : I -> R) : sumf f rows = sumf (fun p => sumf f (A p)) all.
Proof.
  rewrite <- (sumf_group Z.eq_dec t all f rows Hnd Hall). apply sumf_ext. intros p _. f_equal.
  unfold period_rows. apply filter_ext. intros i. unfold keqb.
  destruct (Z.eq_dec (t i) p) as [->|N]; [rewrite Z.eqb_refl; auto|]. symmetry. apply Z.eqb_neq; auto.
Qed.
Lemma pre_by_period (f : I -> R) : sumf f (pre_rows rows t post) = sumf (fun p => sumf f (A p)) pre.
Proof.
  unfold pre_rows. rewrite sumf_filter. rewrite by_period. rewrite (sumf_filter _ _ all).
  apply sumf_ext. intros p _. rewrite <- sumf_scal. apply sumf_ext. intros i Hi.
  apply filter_In in Hi as [_ Hi]. apply Z.eqb_eq in Hi. rewrite Hi. reflexivity.
Qed.
Lemma A_in p i : In i (A p) <-> In i rows /\ t i = p.
Proof. unfold period_rows. rewrite filter_In, Z.eqb_eq. tauto. Qed.

(* shape of a coefficient vector *)
Lemma coef_shape (b : list R) : length b = length cols ->
  exists b0 dl ga ta, b = [b0; dl] ++ ga ++ ta /\ length ga = length nonref /\ length ta = length post.
Proof.
  intros L. unfold mp_design in L. rewrite !app_length, !map_length in L. simpl length in L.
  destruct b as [|b0 [|dl b]]; simpl in L; try lia.
  exists b0, dl, (firstn (length nonref) b), (skipn (length nonref) b).
  split; [simpl; rewrite firstn_skipn; reflexivity|].
  rewrite firstn_length, skipn_length. lia.
Qed.
Lemma fitted_shape b0 dl ga ta i : length ga = length nonref -> length ta = length post ->
  lc cols ([b0; dl] ++ ga ++ ta) i = b0 + dl * d i + coefat nonref ga (t i) + d i * coefat post ta (t i).
Proof.
  intros Lg Lt. unfold mp_design. rewrite app_nil_r.
  rewrite (lc_app [(fun _ => 1); d] _ [b0; dl]) by reflexivity.
  rewrite lc_app by (rewrite map_length; auto).
  rewrite (lc_indicators t (at_period t) 1 nonref ga i) by (auto using nonref_nodup; intros; ring).
  rewrite (lc_indicators t (fun p i => d i * at_period t p i) (d i) post ta i) by auto.
  simpl. ring.
Qed.

Section LS.
Variables (y : I -> R) (b0 dl : R) (ga ta : list R).
Hypothesis Lg : length ga = length nonref.
Hypothesis Lt : length ta = length post.
Hypothesis Hls : is_ls rows cols y ([b0; dl] ++ ga ++ ta).
Let fit (i : I) : R := b0 + dl * d i + coefat nonref ga (t i) + d i * coefat post ta (t i).
Let e (i : I) : R := y i - fit i.
Let F (p : Z) : R := b0 + coefat nonref ga p.

Lemma orth c : In c cols -> sumf (fun i => c i * e i) rows = 0.
Proof.
  intros Hc. destruct Hls as [_ Hf]. rewrite Forall_forall in Hf. specialize (Hf c Hc).
  unfold ip in Hf. rewrite <- Hf. apply sumf_ext_all. intros i. rewrite fitted_shape by auto. reflexivity.
Qed.
Lemma at_sum (f : I -> R) p : sumf (fun i => at_period t p i * f i) rows = sumf f (A p).
Proof. unfold period_rows. rewrite sumf_filter. reflexivity. Qed.

Lemma resid_period p : In p all -> sumf e (A p) = 0.
Proof.
  assert (Hn : forall q, In q all -> q <> ref -> sumf e (A q) = 0).
  { intros q Hq Nq. rewrite <- at_sum. apply orth. unfold mp_design. apply in_or_app. right. apply in_or_app. left.
    apply in_map. apply nonref_in. auto. }
  intros Hp. destruct (Z.eq_dec p ref) as [->|N]; [|apply Hn; auto].
  assert (H0 : sumf (fun i => 1 * e i) rows = 0) by (apply (orth (fun _ => 1)); left; reflexivity).
  rewrite (sumf_ext_all _ e) in H0 by (intros; ring). rewrite by_period in H0.
  rewrite (sumf_ext _ (fun q => ind (keqb Z.eq_dec ref q) * sumf e (A ref))) in H0.
  - rewrite (sumf_ind_key Z.eq_dec all ref (sumf e (A ref))) in H0 by auto. exact H0.
  - intros q Hq. unfold keqb. destruct (Z.eq_dec ref q) as [->|N]; simpl ind; [ring|].
    rewrite Hn by auto. ring.
Qed.
Lemma resid_post p : In p post -> sumf (fun i => d i * e i) (A p) = 0.
Proof.
  intros Hp. rewrite <- at_sum. rewrite (sumf_ext_all _ (fun i => d i * at_period t p i * e i)) by (intros; ring).
  apply (orth (fun i => d i * at_period t p i)). unfold mp_design. rewrite app_nil_r.
  apply in_or_app. right. apply in_or_app. right. exact (in_map (fun p i => d i * at_period t p i) post p Hp).
Qed.
Lemma resid_pre_d : sumf (fun i => d i * e i) (pre_rows rows t post) = 0.
Proof.
  rewrite pre_by_period.
  assert (H0 : sumf (fun i => d i * e i) rows = 0) by (apply (orth d); right; left; reflexivity).
  rewrite by_period in H0. rewrite (sumf_ind_split (fun p => zmem p post)) in H0.
  rewrite (sumf_zero _ (filter (fun p => zmem p post) all)) in H0; [lra|].
  intros p Hp. apply filter_In in Hp as [_ Hp]. apply zmem_In in Hp. apply resid_post; auto.
Qed.

Lemma d_idem i : In i rows -> d i * d i = d i.
Proof. intros Hi. destruct (Hd i Hi) as [->| ->]; ring. Qed.

Lemma mcell_sum (f : I -> R) a p : (a = 0 \/ a = 1) ->
  sumf f (mcell rows d t a p) = sumf (fun i => (if Reqb a 1 then d i else 1 - d i) * f i) (A p).
Proof.
  intros Ha. unfold mcell, period_rows. rewrite !sumf_filter. apply sumf_ext. intros i Hi.
  destruct (Z.eqb (t i) p); rewrite ?Bool.andb_true_r, ?Bool.andb_false_r; simpl ind; [|ring].
  destruct Ha as [->| ->], (Hd i Hi) as [->| ->]; rewrite ?Reqb_refl, ?Reqb_01, ?Reqb_10; simpl; ring.
Qed.

Lemma e_in p i : In i (A p) -> e i = y i - (b0 + dl * d i + coefat nonref ga p + d i * coefat post ta p).
Proof. intros Hi. apply A_in in Hi as [_ <-]. reflexivity. Qed.

(* saturated post cells *)
Lemma post_cells p : In p post -> mcell rows d t 0 p <> [] -> mcell rows d t 1 p <> [] ->
  mmean rows d t y 0 p = F p /\ mmean rows d t y 1 p = F p + dl + coefat post ta p.
Proof.
  intros Hp H0 H1.
  assert (Ha : In p all) by (apply Hincl; auto).
  pose proof (resid_period p Ha) as E0. pose proof (resid_post p Hp) as E1.
  assert (G : forall a c, (a = 0 \/ a = 1) -> mcell rows d t a p <> [] ->
     sumf (fun i => (if Reqb a 1 then d i else 1 - d i) * (y i - c)) (A p) = 0 -> mmean rows d t y a p = c).
  { intros a c Haa Hne Hs. rewrite <- (mcell_sum (fun i => y i - c) a p Haa) in Hs.
    rewrite sumf_sub, sumf_const, (sumf_meanf y _ Hne) in Hs. apply len_pos in Hne. unfold mmean.
    apply (Rmult_eq_reg_l (len (mcell rows d t a p))); lra. }
  split.
  - apply G; auto. rewrite Reqb_01.
    rewrite (sumf_ext _ (fun i => e i - d i * e i)); [rewrite sumf_sub; lra|].
    intros i Hi. rewrite (e_in p i Hi). apply A_in in Hi as [Hi _]. unfold F.
    destruct (Hd i Hi) as [->| ->]; ring.
  - apply G; auto. rewrite Reqb_refl.
    rewrite <- E1. apply sumf_ext. intros i Hi. rewrite (e_in p i Hi). apply A_in in Hi as [Hi _]. unfold F.
    destruct (Hd i Hi) as [->| ->]; ring.
Qed.

Lemma dev_zero p : In p all -> sumf (dev rows d t) (A p) = 0.
Proof.
  intros Hp. rewrite <- (sumf_dev d (A p)) by (apply Hocc; auto). apply sumf_ext. intros i Hi.
  apply A_in in Hi as [_ <-]. reflexivity.
Qed.
Lemma sum_const_period (f : I -> R) (c : Z -> R) p : sumf (fun i => c (t i) * f i) (A p) = c p * sumf f (A p).
Proof. rewrite <- sumf_scal. apply sumf_ext. intros i Hi. apply A_in in Hi as [_ <-]. reflexivity. Qed.
Lemma pre_in_all p : In p pre -> In p all /\ ~ In p post.
Proof. rewrite filter_In, Bool.negb_true_iff, zmem_false. tauto. Qed.

Lemma pre_dev_const (c : Z -> R) : sumf (fun i => dev rows d t i * c (t i)) (pre_rows rows t post) = 0.
Proof.
  rewrite pre_by_period. apply sumf_zero. intros p Hp. apply pre_in_all in Hp as [Hp _].
  rewrite (sumf_ext_all _ (fun i => c (t i) * dev rows d t i)) by (intros; ring).
  rewrite sum_const_period, dev_zero by auto. ring.
Qed.
Lemma pre_dev_d : sumf (fun i => dev rows d t i * d i) (pre_rows rows t post)
               = sumf (fun i => dev rows d t i * dev rows d t i) (pre_rows rows t post).
Proof.
  pose proof (pre_dev_const (fun p => meanf d (A p))) as H.
  rewrite <- (Rplus_0_r (sumf (fun i => dev rows d t i * dev rows d t i) _)).
  rewrite <- H. rewrite <- sumf_add. apply sumf_ext_all. intros i. unfold dev. ring.
Qed.

Lemma pre_gap_coef : sumf (fun i => dev rows d t i * dev rows d t i) (pre_rows rows t post) <> 0 ->
  dl = pre_gap rows d t post y.
Proof.
  intros Hs. unfold pre_gap.
  assert (E : sumf (fun i => dev rows d t i * y i) (pre_rows rows t post)
            = dl * sumf (fun i => dev rows d t i * d i) (pre_rows rows t post)
              + sumf (fun i => dev rows d t i * F (t i)) (pre_rows rows t post)
              + sumf (fun i => d i * e i) (pre_rows rows t post)
              - sumf (fun i => meanf d (A (t i)) * e i) (pre_rows rows t post)).
  { rewrite <- sumf_scal, <- !sumf_add, <- sumf_sub. apply sumf_ext. intros i Hi.
    apply filter_In in Hi as [_ Hi]. apply Bool.negb_true_iff in Hi. apply zmem_false in Hi.
    unfold e, fit, F, dev. rewrite (coefat_notin post ta (t i) Hi). ring. }
  assert (E2 : sumf (fun i => meanf d (A (t i)) * e i) (pre_rows rows t post) = 0).
  { rewrite pre_by_period. apply sumf_zero. intros p Hp. apply pre_in_all in Hp as [Hp _].
    rewrite (sum_const_period e (fun q => meanf d (A q))), resid_period by auto. ring. }
  rewrite (pre_dev_const F), resid_pre_d, E2, pre_dev_d in E. rewrite E. field. auto.
Qed.

(* the coefficient of every post-period interaction *)
Theorem ls_effect p : In p post -> mcell rows d t 0 p <> [] -> mcell rows d t 1 p <> [] ->
  sumf (fun i => dev rows d t i * dev rows d t i) (pre_rows rows t post) <> 0 ->
  coefat post ta p = mmean rows d t y 1 p - mmean rows d t y 0 p - pre_gap rows d t post y.
Proof.
  intros Hp H0 H1 Hs. rewrite <- (pre_gap_coef Hs). destruct (post_cells p Hp H0 H1) as [-> ->]. ring.
Qed.
End LS.

(* identification *)
Lemma mp_indep :
  (forall p, In p post -> mcell rows d t 0 p <> [] /\ mcell rows d t 1 p <> []) ->
  sumf (fun i => dev rows d t i * dev rows d t i) (pre_rows rows t post) <> 0 ->
  indep rows cols.
Proof.
  intros Hc Hs b Lb Hz.
  destruct (coef_shape b Lb) as (b0 & dl & ga & ta & -> & Lg & Lt).
  assert (Hls : is_ls rows cols (fun _ => 0) ([b0; dl] ++ ga ++ ta)).
  { apply ls_exact; auto. intros i Hi. symmetry. auto. }
  assert (M0 : forall a p, mmean rows d t (fun _ => 0) a p = 0).
  { intros a p. unfold mmean, meanf. rewrite sumf_0. unfold Rdiv. ring. }
  assert (G0 : pre_gap rows d t post (fun _ => 0) = 0).
  { unfold pre_gap. rewrite (sumf_zero (fun i => dev rows d t i * 0)) by (intros; ring). unfold Rdiv. ring. }
  assert (Ed : dl = 0) by (rewrite (pre_gap_coef _ _ _ _ _ Lg Lt Hls Hs); exact G0).
  assert (Et : forall p, In p post -> coefat post ta p = 0).
  { intros p Hp. destruct (Hc p Hp) as [C0 C1]. rewrite (ls_effect _ _ _ _ _ Lg Lt Hls p Hp C0 C1 Hs), !M0, G0. ring. }
  assert (Eg : forall p, In p all -> b0 + coefat nonref ga p = 0).
  { intros p Hp. specialize (Hocc p Hp). destruct (A p) as [|i l] eqn:E; [congruence|].
    assert (Hi : In i (A p)) by (rewrite E; left; auto). apply A_in in Hi as [Hi Ti].
    specialize (Hz i Hi). rewrite fitted_shape in Hz by auto. rewrite Ed, Ti in Hz.
    destruct (in_dec Z.eq_dec p post) as [Hp'|Hp']; [rewrite (Et p Hp') in Hz|rewrite (coefat_notin post ta p Hp') in Hz]; lra. }
  assert (E0 : b0 = 0).
  { specialize (Eg ref Href). rewrite coefat_notin in Eg; [lra|]. rewrite nonref_in. tauto. }
  subst b0 dl.
  rewrite (coefat_zero nonref ga nonref_nodup Lg) by (intros p Hp; apply nonref_in in Hp; specialize (Eg p (proj1 Hp)); lra).
  rewrite (coefat_zero post ta Hpost Lt Et).
  unfold mp_design. rewrite app_nil_r, !app_length, !map_length. rewrite !repeat_app. reflexivity.
Qed.
End Normal.

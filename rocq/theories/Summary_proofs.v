(* What the printed summaries say, against the results they print. *)
From Verif Require Import Prelude Flt Stats_model Stats_proofs Linalg_thms Linalg_model Did_model Within_proofs Boot_model Bacon_model Bacon_proofs Bacon_thms
  Honest_model Honest_proofs Lp Honest_ex Prep_model Prep_proofs Did_spec Did_proofs Diag_model Diag_level Diag_proofs Diag_thms Diag_ex Export_model Export_proofs Summary_model.
From Coq Require Import Arith ZArith String List Bool Lia Permutation Psatz.
Import ListNotations.
Open Scope R_scope.

(* ---------- Goodman-Bacon ---------- *)
Lemma or_zero_fin r : or_zero (Some (Fin r)) = Fin r.
Proof. unfold or_zero. cbn [feqb]. destruct (Reqb r 0) eqn:E; [|reflexivity]. apply Reqb_true in E. subst. reflexivity. Qed.
Definition contrib_of (l : list comparison) (ty : ctype) : R :=
  sumf (fun c => cmp_weight c * toR (cmp_est c)) (filter (fun c => ctype_eqb (cmp_type c) ty) l).
Lemma contrib_split l : sumf (fun c => cmp_weight c * toR (cmp_est c)) l = contrib_of l TreatedNever + contrib_of l EarlierLater + contrib_of l LaterEarlier.
Proof.
  unfold contrib_of. rewrite !sumf_filter, <- !sumf_add. apply sumf_ext_all. intros c. destruct (cmp_type c); unfold ind; simpl; ring.
Qed.
Section B.
Variable o : bacon_out.
Hypothesis HW : forall ty, bo_weights o ty = type_weight (bo_comparisons o) ty.
Hypothesis HA : forall ty, bo_averages o ty = type_average (bo_comparisons o) ty.
Hypothesis Hpos : forall c, In c (bo_comparisons o) -> 0 < cmp_weight c.
Hypothesis Hfin : forall c, In c (bo_comparisons o) -> exists e, cmp_est c = Fin e.
Lemma line_sum ty : sumf bl_weight (bacon_line o ty) = bo_weights o ty /\
  map bl_contrib (bacon_line o ty) = match bacon_line o ty with [] => [] | _ => [Fin (contrib_of (bo_comparisons o) ty)] end /\
  (bacon_line o ty = [] -> contrib_of (bo_comparisons o) ty = 0).
Proof.
  unfold bacon_line. destruct (Rlt_dec 0 (bo_weights o ty)) as [P|P].
  - split; [cbn; lra|]. split; [|discriminate]. cbn [map bl_contrib]. rewrite HA. unfold type_average. rewrite <- HW.
    destruct (Rlt_dec 0 (bo_weights o ty)) as [_|]; [|contradiction]. rewrite fsum_terms by (intros c Hc; apply filter_In in Hc as [Hc _]; auto).
    fold (contrib_of (bo_comparisons o) ty). cbn [fdiv]. destruct (Req_EM_T (bo_weights o ty) 0) as [Z0|_]; [exfalso; lra|]. rewrite or_zero_fin. cbn [fmul]. do 2 f_equal. field. lra.
  - assert (E : filter (fun c => ctype_eqb (cmp_type c) ty) (bo_comparisons o) = []).
    { destruct (filter _ _) as [|c l] eqn:F; [reflexivity|]. exfalso. apply P. rewrite HW. unfold type_weight. rewrite F.
      assert (A : forall x, In x (c :: l) -> 0 < cmp_weight x) by (intros x Hx; rewrite <- F in Hx; apply filter_In in Hx as [Hx _]; auto).
      apply pos_sum; [exact A|discriminate]. }
    split; [cbn; rewrite HW; unfold type_weight; rewrite E; reflexivity|]. split; [reflexivity|]. intros _. unfold contrib_of. rewrite E. reflexivity.
Qed.
Lemma lines_add : sumf bl_weight (bacon_lines o) = fst (bacon_total o) /\ fsum (map bl_contrib (bacon_lines o)) = snd (bacon_total o).
Proof.
  unfold bacon_lines, bacon_total. cbn [fst snd]. rewrite !sumf_app, !map_app.
  destruct (line_sum TreatedNever) as (A1 & B1 & C1). destruct (line_sum EarlierLater) as (A2 & B2 & C2). destruct (line_sum LaterEarlier) as (A3 & B3 & C3).
  split; [rewrite A1, A2, A3, !HW, type_split; ring|].
  unfold weighted_sum. rewrite fsum_terms by exact Hfin. rewrite contrib_split, B1, B2, B3.
  destruct (bacon_line o TreatedNever) as [|? ?], (bacon_line o EarlierLater) as [|? ?], (bacon_line o LaterEarlier) as [|? ?];
    rewrite ?C1, ?C2, ?C3 by reflexivity; cbn [app fsum fold_right fadd]; f_equal; ring.
Qed.
End B.

Lemma normalised_keep l c : In c (normalised l) -> exists c' w, In c' l /\ c = set_weight c' w \/ In c l.
Proof.
  unfold normalised. destruct (Rlt_dec 0 _); [|intros H; exists c, 0; right; exact H].
  intros H. apply in_map_iff in H as (c' & <- & H). exists c'. eexists. left. split; [exact H|reflexivity].
Qed.
Section Bacon.
Context {I : Type}.
Variables (rows : list I) (u t : I -> Z) (g : I -> coh) (m : nat) (C : Z -> coh).
Theorem bacon_summary_adds exact y :
  Within_proofs.balanced Z.eq_dec Z.eq_dec rows u t m -> (forall i, In i rows -> g i = C (u i)) ->
  (forall i, In i rows -> c_never (g i) = true \/ exists z, (0 < z)%Z /\ g i = CFin z) ->
  let o := bacon_fit rows u t g y exact in
  sumf bl_weight (bacon_lines o) = fst (bacon_total o) /\
  fsum (map bl_contrib (bacon_lines o)) = snd (bacon_total o) /\
  (bo_comparisons o <> [] -> fst (bacon_total o) = 1) /\
  (forall l, In l (bacon_lines o) -> 0 < bl_weight l <= 1 /\ exists a, bl_avg l = Fin a /\ bl_contrib l = Fin (bl_weight l * a)).
Proof.
  intros Hb HC Hv o.
  assert (Hpos : forall c, In c (bo_comparisons o) -> 0 < cmp_weight c <= 1 /\ sumf cmp_weight (bo_comparisons o) = 1).
  { intros c Hc. destruct (fit_weights rows u t g exact y) as [E W]. destruct W as (W1 & W2 & _); [|split; [apply W1; exact Hc|exact W2]].
    intros F. apply E in F. unfold o in Hc. rewrite F in Hc. destruct Hc. }
  assert (Hfin : forall c, In c (bo_comparisons o) -> exists e, cmp_est c = Fin e).
  { intros c Hc. unfold o in Hc. cbn [bo_comparisons bacon_fit] in Hc. destruct (normalised_keep _ _ Hc) as (c' & w & [[Hc' ->]|Hc']).
    - exact (reweighted_finite rows u t g m C Hb HC Hv exact y c' Hc').
    - exact (reweighted_finite rows u t g m C Hb HC Hv exact y c Hc'). }
  assert (HP : forall c, In c (bo_comparisons o) -> 0 < cmp_weight c) by (intros c Hc; apply Hpos; exact Hc).
  destruct (lines_add o (fun _ => eq_refl) (fun _ => eq_refl) HP Hfin) as [L1 L2].
  split; [exact L1|]. split; [exact L2|]. split.
  - intros N. destruct (bo_comparisons o) as [|c l] eqn:E; [congruence|]. unfold bacon_total. cbn [fst]. rewrite E. apply (Hpos c). left. reflexivity.
  - assert (G : forall ty l, In l (bacon_line o ty) -> 0 < bl_weight l <= 1 /\ exists a, bl_avg l = Fin a /\ bl_contrib l = Fin (bl_weight l * a)).
    { intros ty l. unfold bacon_line. destruct (Rlt_dec 0 (bo_weights o ty)) as [P|P]; [|intros []]. intros [<-|[]]. cbn [bl_weight bl_avg bl_contrib].
      split.
      - split; [exact P|]. destruct (fit_weights rows u t g exact y) as [E W].
        destruct (bo_comparisons o) as [|c k] eqn:F.
        + exfalso. apply (Rlt_irrefl 0). replace 0 with (bo_weights o ty) at 2; [exact P|]. change (bo_weights o ty) with (type_weight (bo_comparisons o) ty). rewrite F. reflexivity.
        + destruct W as (_ & _ & W3 & _); [|apply W3]. intros X. apply E in X. unfold o in F. congruence.
      - change (bo_averages o ty) with (type_average (bo_comparisons o) ty). unfold type_average. change (type_weight (bo_comparisons o) ty) with (bo_weights o ty).
        destruct (Rlt_dec 0 (bo_weights o ty)) as [_|]; [|contradiction]. rewrite fsum_terms by (intros c Hc; apply filter_In in Hc as [Hc _]; auto).
        cbn [fdiv]. destruct (Req_EM_T (bo_weights o ty) 0) as [Z0|_]; [exfalso; lra|]. rewrite or_zero_fin. eexists. split; reflexivity. }
    intros l Hl. unfold bacon_lines in Hl. apply in_app_or in Hl as [Hl|Hl]; [eauto|]. apply in_app_or in Hl as [Hl|Hl]; eauto.
Qed.
(* the warning fires exactly when more than one percent of the weight compares with already treated units *)
Theorem bacon_summary_warns exact y pct :
  let o := bacon_fit rows u t g y exact in
  let W := sumf cmp_weight (filter (fun c => match cmp_type c with LaterEarlier => true | _ => false end) (bo_comparisons o)) in
  bacon_warning o = Some pct <-> 1/100 < W /\ pct = 100 * W.
Proof.
  intros o W. unfold bacon_warning. assert (E : bo_weights o LaterEarlier = W).
  { unfold W. cbn [o bo_weights bacon_fit bo_comparisons]. unfold type_weight. f_equal. }
  rewrite E. destruct (Rlt_dec (1/100) W) as [P|P]; split.
  - intros H. injection H as <-. split; [exact P|ring].
  - intros [_ ->]. f_equal. ring.
  - discriminate.
  - intros [H _]. contradiction.
Qed.
End Bacon.

(* ---------- placebo tests ---------- *)
Section P.
Context {I U : Type} (ueq : forall x y : U, {x = y} + {x <> y}).
Variable fit : list I -> (I -> fl) -> (I -> fl) -> (I -> fl) -> res (did_result I).
Variable sf : option Z -> fl -> fl.
Variable ppf : option Z -> R -> R.
Variable choice : list U -> nat -> nat -> list U.
Notation run := (run_placebo_test ueq fit sf ppf choice).
Lemma placebo_flag rows u y d t ty fake g post n alpha r : run rows u y d t ty fake g post n alpha = Ok r ->
  pl_signif r = flt (pl_p r) (Fin alpha) /\ pl_alpha r = alpha.
Proof.
  unfold run_placebo_test. cbv zeta.
  destruct (String.eqb _ "fake_timing").
  { unfold timing_test. destruct fake as [f|]; [|discriminate]. destruct (zin f _); [discriminate|].
    destruct (fit _ _ _ _) as [a|]; [|discriminate]. cbn [bind]. destruct (fit _ _ _ _) as [b|]; [|discriminate]. cbn [bind].
    intros H. injection H as <-. split; reflexivity. }
  destruct (String.eqb _ "fake_group").
  { destruct u as [u|]; [|discriminate]. destruct g as [[|x g]|]; try discriminate. unfold group_test.
    destruct (fit _ _ _ _) as [a|]; [|discriminate]. cbn [bind]. intros H. injection H as <-. split; reflexivity. }
  destruct (String.eqb _ "permutation").
  { destruct u as [u|]; [|discriminate]. unfold permutation_test. destruct (fit _ _ _ _) as [a|]; [|discriminate]. cbn [bind].
    destruct (perm_effects _ _ _ _ _ _ _ _ _) as [es|]; [|discriminate]. cbn [bind]. cbv zeta.
    destruct (filter notna es); [discriminate|]. intros H. injection H as <-. split; reflexivity. }
  destruct (String.eqb _ "leave_one_out"); [|discriminate].
  destruct u as [u|]; [|discriminate]. unfold leave_one_out_test. destruct (fit _ _ _ _) as [a|]; [|discriminate]. cbn [bind].
  destruct (loo_effects _ _ _ _ _ _ _) as [es|]; [|discriminate]. cbn [bind]. cbv zeta.
  destruct (filter notna (map snd es)); [discriminate|]. intros H. injection H as <-. split; reflexivity.
Qed.
(* the printed sentence about the p-value is correct exactly when p < alpha and p < 0.05 agree *)
Theorem placebo_text_law rows u y d t ty fake g post n alpha r p : run rows u y d t ty fake g post n alpha = Ok r -> pl_p r = Fin p ->
  (printed_claim r (pl_p r) = true <-> (p < alpha <-> p < 1/20)).
Proof.
  intros H E. destruct (placebo_flag _ _ _ _ _ _ _ _ _ _ _ _ H) as [S _]. unfold printed_claim. rewrite S, E. unfold fge. cbn [flt fle].
  destruct (Rltb p alpha) eqn:L.
  - apply Rltb_true in L. rewrite Rltb_true. tauto.
  - apply Rltb_false in L. rewrite Rleb_true. split; [intros; split; intros; lra|]. intros [_ X]. destruct (Rlt_dec p (1/20)) as [Y|Y]; [apply X in Y; lra|lra].
Qed.
Theorem placebo_text_default rows u y d t ty fake g post n r p : run rows u y d t ty fake g post n (1/20) = Ok r -> pl_p r = Fin p ->
  printed_claim r (pl_p r) = true.
Proof. intros H E. apply (placebo_text_law _ _ _ _ _ _ _ _ _ _ _ _ _ H E). tauto. Qed.
(* a p-value that is not a number is reported as p >= 0.05 *)
Theorem placebo_text_nan_refuted rows u y d t ty fake g post n alpha r : run rows u y d t ty fake g post n alpha = Ok r -> pl_p r = NaN ->
  pl_signif r = false /\ printed_claim r (pl_p r) = false.
Proof. intros H E. destruct (placebo_flag _ _ _ _ _ _ _ _ _ _ _ _ H) as [S _]. unfold printed_claim. rewrite S, E. split; reflexivity. Qed.
End P.

(* two pre/post periods, four units, fifteen permutations that split the treated pair: p = 1/16, significant at 10 percent, printed as p < 0.05 *)
Definition schoice (units : list nat) (k i : nat) : list nat :=
  if (Nat.eqb k 2 && (3 <=? length units)%nat)%bool then [nth 0 units 0%nat; nth 2 units 0%nat] else firstn k units.
Lemma schoice_ok : choice_ok schoice.
Proof.
  intros units k i L ND. unfold schoice. destruct (Nat.eqb k 2 && (3 <=? length units)%nat)%bool eqn:E.
  - apply andb_true_iff in E as [E1 E2]. apply Nat.eqb_eq in E1. apply Nat.leb_le in E2. subst k.
    split; [reflexivity|]. split.
    + constructor; [|constructor; [intros []|constructor]]. intros [H|[]].
      assert (X : 0%nat = 2%nat) by (apply (proj1 (NoDup_nth units 0%nat) ND); [lia|lia|symmetry; exact H]). discriminate.
    + intros x [<-|[<-|[]]]; apply nth_In; lia.
  - split; [rewrite firstn_length; lia|]. split.
    + rewrite <- (firstn_skipn k units) in ND. clear -ND. induction (firstn k units) as [|a m IH]; [constructor|]. inversion ND; subst.
      constructor; [|auto]. intros C. apply H1. apply in_or_app. auto.
    + intros x Hx. rewrite <- (firstn_skipn k units). apply in_or_app. auto.
Qed.
Lemma tcol_pt i : In i p_rows -> tcol (fun i : obsv => snd i) i = pt i.
Proof.
  intros H. unfold tcol, pt. assert (snd i = 0%Z \/ snd i = 1%Z) as [->| ->].
  { vm_compute in H. repeat (destruct H as [<-|H]; [simpl; auto|]). destruct H. }
  all: reflexivity.
Qed.
Theorem placebo_text_refuted : exists r,
  permutation_test Nat.eq_dec xfit schoice p_rows fst (fun i => Fin (p_y i)) pd pt 15 (1/10) = Ok r /\
  pl_p r = Fin (1/16) /\ pl_signif r = true /\ printed_claim r (pl_p r) = false.
Proof.
  destruct (xfit_ok p_rows p_y t_treated (fun i => Z.eqb (snd i) 1)) as (s & E & A); [cells|vm_compute; lia|].
  destruct (xfit_ok p_rows p_y (fun i => mem Nat.eq_dec (fst i) [1; 3]%nat) (fun i => Z.eqb (snd i) 1)) as (s1 & E1 & A1); [cells|vm_compute; lia|].
  assert (V : bdid t_treated (fun i : obsv => Z.eqb (snd i) 1) p_y p_rows = 10) by evald p_y.
  assert (V1 : bdid (fun i : obsv => mem Nat.eq_dec (fst i) [1; 3]%nat) (fun i : obsv => Z.eqb (snd i) 1) p_y p_rows = 0) by evald p_y.
  rewrite V in A. rewrite V1 in A1.
  assert (P : forall l, mapM (fun i => let g := schoice (unit_list Nat.eq_dec p_rows fst) (n_treated_units Nat.eq_dec p_rows fst pd) i in
                 att_or_nan (xfit p_rows (fun i => Fin (p_y i)) (fun j => ofb (mem Nat.eq_dec (fst j) g)) pt)) l = Ok (map (fun _ => Fin 0) l)).
  { intros l. cbv zeta. rewrite p_n_treated. induction l as [|i l IH]; [reflexivity|].
    cbn [mapM map]. rewrite IH. change (schoice (unit_list Nat.eq_dec p_rows fst) 2 i) with [1; 3]%nat.
    unfold pt. rewrite E1. simpl. rewrite A1. reflexivity. }
  unfold permutation_test. unfold pd at 1, pt at 1. rewrite E. cbn [bind]. unfold perm_effects. rewrite P. cbn [bind]. cbv zeta.
  cbn [seq map filter notna fisnan negb].
  eexists. split; [reflexivity|]. cbn [pl_p pl_signif].
  rewrite A. change (repeat _ 15) with (repeat 0 15).
  assert (Q : perm_pvalue (Fin 10) (map Fin (repeat 0 15)) = 1/16).
  { rewrite perm_pvalue_fin. assert (S : share (fun r => Rleb (Rabs 10) (Rabs r)) (repeat 0 15) = 0).
    { unfold share. rewrite (meanf_ext _ (fun _ => 0)).
      - rewrite meanf_const; [reflexivity|discriminate].
      - intros x Hx. apply repeat_spec in Hx. subst. rewrite (proj2 (Rleb_false _ _)); [reflexivity|]. rewrite Rabs_R0, Rabs_pos_eq; lra. }
    rewrite S. rewrite Rmax_right; [|apply Rlt_le, Rdiv_lt_0_compat; [lra|]; simpl; lra]. simpl. field. }
  change [Fin 0; Fin 0; Fin 0; Fin 0; Fin 0; Fin 0; Fin 0; Fin 0; Fin 0; Fin 0; Fin 0; Fin 0; Fin 0; Fin 0; Fin 0] with (map Fin (repeat 0 15)).
  rewrite Q. split; [reflexivity|]. rewrite (proj2 (Rltb_true (1/16) (1/10))) by lra. split; [reflexivity|].
  unfold printed_claim. cbn [pl_signif pl_p flt]. apply Rltb_false. lra.
Qed.

(* ---------- synthetic difference-in-differences ---------- *)
Section W.
Variable sort : list (Z * R) -> list (Z * R).
Hypothesis Hsort : forall l, Permutation (sort l) l /\ desc (sort l).
Lemma desc_split l n x z : desc l -> In x (firstn n l) -> In z (skipn n l) -> snd z <= snd x.
Proof.
  intros D Hx Hz. apply (In_nth _ _ (0%Z, 0)) in Hx as (i & Hi & <-). apply (In_nth _ _ (0%Z, 0)) in Hz as (j & Hj & <-).
  rewrite firstn_length in Hi. rewrite skipn_length in Hj.
  assert (E1 : nth i (firstn n l) (0%Z, 0) = nth i l (0%Z, 0)).
  { rewrite <- (firstn_skipn n l) at 2. rewrite app_nth1; [reflexivity|]. rewrite firstn_length. lia. }
  assert (E2 : nth j (skipn n l) (0%Z, 0) = nth (n + j) l (0%Z, 0)).
  { rewrite <- (firstn_skipn n l) at 2. rewrite app_nth2; rewrite firstn_length; [f_equal; lia|lia]. }
  rewrite E1, E2. apply D. lia.
Qed.
Lemma filter_all {A} (f : A -> bool) l : (forall x, In x l -> f x = true) -> filter f l = l.
Proof. induction l as [|a l IH]; intros H; [reflexivity|]. cbn. rewrite H by (left; reflexivity). rewrite IH by (intros; apply H; right; auto). reflexivity. Qed.
Lemma filter_none {A} (f : A -> bool) l : (forall x, In x l -> f x = false) -> filter f l = [].
Proof. induction l as [|a l IH]; intros H; [reflexivity|]. cbn. rewrite H by (left; reflexivity). apply IH. intros; apply H; right; auto. Qed.
Theorem top_weights_spec w shown k : top_weights sort w = Some (shown, k) ->
  k = length (filter (fun x => Rltb (1/1000) (snd x)) w) /\
  length shown = Nat.min 5 k /\
  (exists rest, Permutation (shown ++ rest) w /\ forall z, In z rest -> snd z <= 1/1000 \/ forall x, In x shown -> snd z <= snd x) /\
  (forall x, In x shown -> In x w /\ 1/1000 < snd x) /\
  ((k <= 5)%nat -> Permutation shown (filter (fun x => Rltb (1/1000) (snd x)) w)).
Proof.
  unfold top_weights. destruct w as [|a w0] eqn:Ew; [discriminate|]. rewrite <- Ew. intros H.
  assert (Hs := f_equal (fun o => match o with Some p => fst p | None => [] end) H). assert (Hk := f_equal (fun o => match o with Some p => snd p | None => 0%nat end) H).
  clear H. cbv beta iota in Hs, Hk. cbn [fst snd] in Hs, Hk.
  destruct (Hsort w) as [P D]. set (f := fun x : Z * R => Rltb (1/1000) (snd x)) in *. set (n := Nat.min 5 (length w)) in *. subst shown. subst k.
  assert (L : length (sort w) = length w) by (apply Permutation_length; exact P).
  assert (PF : Permutation (filter f (firstn n (sort w)) ++ filter f (skipn n (sort w))) (filter f w)).
  { rewrite <- filter_app, firstn_skipn. clear -P. induction P; cbn; [constructor| | |].
    - destruct (f x); [constructor; auto|auto].
    - destruct (f x), (f y); try apply Permutation_refl. constructor.
    - eapply perm_trans; eauto. }
  assert (LF : (length (filter f (firstn n (sort w))) + length (filter f (skipn n (sort w))) = length (filter f w))%nat)
    by (rewrite <- app_length; apply Permutation_length; exact PF).
  assert (CS : filter f (skipn n (sort w)) = [] \/ (filter f (firstn n (sort w)) = firstn n (sort w) /\ n = 5%nat)).
  { destruct (filter f (skipn n (sort w))) as [|z r] eqn:F; [left; reflexivity|right].
    assert (Hz : In z (filter f (skipn n (sort w)))) by (rewrite F; left; reflexivity). apply filter_In in Hz as [Hz Z1]. unfold f in Z1. apply Rltb_true in Z1.
    split.
    - apply filter_all. intros x Hx. unfold f. apply Rltb_true. pose proof (desc_split _ _ _ _ D Hx Hz). lra.
    - assert (n < length (sort w))%nat; [|unfold n in *; lia]. destruct (le_lt_dec (length (sort w)) n) as [Q|Q]; [|exact Q]. rewrite skipn_all2 in Hz by exact Q. destruct Hz. }
  assert (LN : (length (filter f (firstn n (sort w))) <= n)%nat).
  { transitivity (length (firstn n (sort w))); [|rewrite firstn_length; lia]. clear. induction (firstn n (sort w)) as [|a l IH]; [auto|]. cbn. destruct (f a); cbn; lia. }
  assert (N5 : (n <= 5)%nat) by (unfold n; lia). assert (NL : (n <= length w)%nat) by (unfold n; lia).
  split; [reflexivity|]. split.
  { destruct CS as [C|[C1 C2]].
    - rewrite C in LF. cbn [length] in LF. lia.
    - rewrite C1 in *. rewrite firstn_length in *. lia. }
  split.
  { exists (filter (fun x => negb (f x)) (firstn n (sort w)) ++ skipn n (sort w)). split.
    - eapply perm_trans; [|exact P]. rewrite app_assoc. rewrite <- (firstn_skipn n (sort w)) at 4. apply Permutation_app_tail.
      clear. induction (firstn n (sort w)) as [|a l IH]; [constructor|]. cbn. destruct (f a); cbn; [constructor; exact IH|].
      eapply perm_trans; [apply Permutation_sym, Permutation_middle|constructor; exact IH].
    - intros z Hz. apply in_app_or in Hz as [Hz|Hz].
      + apply filter_In in Hz as [_ Hz]. apply negb_true_iff in Hz. unfold f in Hz. apply Rltb_false in Hz. left. lra.
      + right. intros x Hx. apply filter_In in Hx as [Hx _]. exact (desc_split _ _ _ _ D Hx Hz). }
  split.
  { intros x Hx. apply filter_In in Hx as [Hx F]. split; [|unfold f in F; apply Rltb_true in F; exact F].
    apply (Permutation_in _ P). rewrite <- (firstn_skipn n (sort w)). apply in_or_app. left. exact Hx. }
  intros K. destruct CS as [C|[C1 C2]].
  - rewrite C, app_nil_r in PF. exact PF.
  - rewrite C1 in *. rewrite firstn_length in LF. assert (N : length (filter f (skipn n (sort w))) = 0%nat) by lia.
    apply length_zero_iff_nil in N. rewrite N, app_nil_r in PF. exact PF.
Qed.
Theorem top_weights_none w : top_weights sort w = None <-> w = [].
Proof. destruct w; cbn; split; congruence. Qed.
End W.
Theorem top_weights_case :
  exists shown, top_weights wsort [(1%Z, 1/10); (2%Z, 1/2); (3%Z, 0); (4%Z, 1/10); (5%Z, 1/10); (6%Z, 1/10); (7%Z, 1/10)] = Some (shown, 6%nat) /\
  length shown = 5%nat /\ hd (0%Z, 0) shown = (2%Z, 1/2).
Proof.
  assert (G : forall a b, a <= b -> Rleb a b = true) by (intros; apply Rleb_true; auto).
  assert (N : forall a b, b < a -> Rleb a b = false) by (intros; apply Rleb_false; auto).
  unfold top_weights, wsort. cbn [fold_right winsert snd].
  repeat (first [rewrite (G (1/10) (1/10)) by lra|rewrite (G 0 (1/10)) by lra|rewrite (N (1/10) 0) by lra|rewrite (G (1/10) (1/2)) by lra|rewrite (N (1/2) (1/10)) by lra]; cbn [winsert snd]).
  cbn [length Nat.min firstn filter snd].
  rewrite ?(proj2 (Rltb_true (1/1000) (1/10))), ?(proj2 (Rltb_true (1/1000) (1/2))), ?(proj2 (Rltb_false (1/1000) 0)) by lra.
  eexists. split; [reflexivity|]. split; reflexivity.
Qed.

(* ---------- HonestDiD sensitivity ---------- *)
Lemma transition_some inc l : forall prev, (forall M b, prev = Some (M, b) -> b = false) -> existsb (fun b => b) (map snd l) = true ->
  transition inc prev l <> Ok None.
Proof.
  induction l as [|[M b] l IH]; intros prev Hp H; [discriminate|]. cbn [transition map snd existsb] in *. destruct b.
  - destruct prev as [[M0 b0]|]; [|discriminate]. rewrite (Hp M0 b0 eq_refl). destruct (bisect 20 inc M0 M); cbn; discriminate.
  - apply IH; [intros M1 b1 E; injection E; auto|exact H].
Qed.
Lemma find_none inc grid flags : length flags = length grid -> (find_breakdown inc grid flags = Ok None <-> forall b, In b flags -> b = false).
Proof.
  intros L. unfold find_breakdown. destruct (existsb (fun b => b) flags) eqn:E; cbn [negb].
  - split.
    + intros H. exfalso. destruct (forallb (fun b => b) flags); [discriminate|]. revert H. apply transition_some; [discriminate|].
      replace (map snd (combine grid flags)) with flags; [exact E|]. clear E. revert grid L. induction flags as [|b f IH]; intros [|M g] L; try discriminate; [reflexivity|].
      cbn. f_equal. apply IH. injection L; auto.
    + intros H. apply existsb_exists in E as (b & Hb & ->). specialize (H true Hb). discriminate.
  - split; [|reflexivity]. intros _ b Hb. destruct b; [|reflexivity]. assert (existsb (fun b => b) flags = true) by (apply existsb_exists; exists true; auto). congruence.
Qed.
Lemma mapr_length {A B} (f : A -> res B) l : forall r, mapr f l = Ok r -> length r = length l.
Proof.
  induction l as [|a l IH]; intros r H; cbn [mapr] in H; [injection H as <-; reflexivity|]. destruct (f a); [|discriminate]. cbn [bind] in H.
  destruct (mapr f l) as [bs|]; [|discriminate]. cbn [bind] in H. injection H as <-. cbn. f_equal. apply IH. reflexivity.
Qed.
(* "None (always significant)" is printed exactly when every interval of the printed table excludes zero *)
Theorem sens_always lp ppf cfg r grid q : hd_sensitivity lp ppf cfg r grid = Ok q ->
  (sens_text q = AlwaysSignificant <-> forall ci, In ci (hs_cis q) -> ~ (fle (fst ci) (Fin 0) = true /\ fle (Fin 0) (snd ci) = true)) /\
  length (hs_cis q) = length (hs_M q) /\ length (hs_bounds q) = length (hs_M q).
Proof.
  unfold hd_sensitivity. cbv zeta. set (g := match grid with Some g => g | None => default_grid (hd_method cfg) end).
  destruct (mapr (fun M => hd_fit lp ppf cfg r (Some M)) g) as [os|] eqn:E; [|discriminate]. cbn [bind].
  destruct (find_breakdown (includes lp ppf cfg r) g _) as [bd|] eqn:F; [|discriminate]. cbn [bind].
  destruct (hd_fit lp ppf cfg r (Some 0)) as [o|]; [|discriminate]. cbn [bind]. intros H. injection H as <-.
  unfold sens_text. cbn [hs_breakdown hs_cis hs_M hs_bounds]. rewrite !map_length, (mapr_length _ _ _ E). split; [|split; reflexivity].
  pose proof (find_none (includes lp ppf cfg r) g (map (fun ci => has_zero (fst ci) (snd ci)) (map (fun o => (ho_ci_lb o, ho_ci_ub o)) os))) as N.
  rewrite !map_length, (mapr_length _ _ _ E) in N. specialize (N eq_refl). rewrite F in N.
  assert (X : (match bd with Some M => RobustUpTo M | None => AlwaysSignificant end = AlwaysSignificant) <-> Ok bd = Ok None :> res (option R)).
  { destruct bd; split; intros; try discriminate; auto. }
  rewrite X, N. split.
  - intros H ci Hci [A B]. specialize (H (has_zero (fst ci) (snd ci)) (in_map _ _ _ Hci)). unfold has_zero in H. rewrite A, B in H. discriminate.
  - intros H b Hb. apply in_map_iff in Hb as (ci & <- & Hci). specialize (H ci Hci). unfold has_zero. destruct (fle (fst ci) (Fin 0)), (fle (Fin 0) (snd ci)); try reflexivity. exfalso. apply H. auto.
Qed.
(* an effect that is insignificant before any violation is allowed: printed as robust up to M = 0 *)
Theorem sens_robust_refuted : exists cfg r q,
  hd_sensitivity fm_lp toy_ppf cfg r (Some [0; 1]) = Ok q /\ sens_text q = RobustUpTo 0 /\ includes fm_lp toy_ppf cfg r 0 = Ok true.
Proof.
  exists rm_cfg, (one_post (Fin 5)). assert (E : Rabs 5 - 19 = -14) by (rewrite Rabs_pos_eq; lra).
  destruct (one_post_exact 5) as (o & Ho & A & B & X). rewrite E in X.
  assert (G0 : increasing [0; 1]) by (cbn; repeat split; lra).
  destruct (rm_sensitivity fm_lp toy_ppf rm_cfg (one_post (Fin 5)) None o 5 1 1 [0; 1]
     eq_refl Ho A B (one_post_max _) ltac:(lra) G0 ltac:(discriminate)) as (q & Hq & E1 & E2 & E3 & E4 & E5 & E6 & E7 & _).
  rewrite X in *. exists q. split; [exact Hq|]. split.
  - unfold sens_text. rewrite E7; [reflexivity|]. intros g [<-|[<-|[]]]; lra.
  - rewrite one_post_includes, E. rewrite (proj2 (Rleb_true (-14) 0)) by lra. reflexivity.
Qed.

(* the three-unit panel of identity_refuted: the printed contributions add up to the printed total, which is 1/14 away from the estimate *)
Theorem bacon_summary_case exact :
  let o := bacon_fit exb_rows fst snd (fun i => exb_coh (fst i)) exb_y exact in
  sumf bl_weight (bacon_lines o) = 1 /\ fabs (fsub (Fin (1/2)) (fsum (map bl_contrib (bacon_lines o)))) = Fin (1/14) /\ bacon_lines o <> [].
Proof.
  intros o.
  destruct (bacon_summary_adds exb_rows fst snd (fun i => exb_coh (fst i)) 1 exb_coh exact exb_y exb_balanced (fun _ _ => eq_refl) exb_valid) as (A & B & C & _).
  fold o in A, B, C.
  assert (N : bo_comparisons o <> []).
  { intros E. apply (proj1 (fit_weights exb_rows fst snd (fun i => exb_coh (fst i)) exact exb_y)) in E. pose proof exb_table as T. rewrite E in T. discriminate T. }
  destruct (identity_refuted exact) as [T1 T2].
  assert (S1 : sumf bl_weight (bacon_lines o) = 1) by (rewrite A; apply C; exact N).
  split; [exact S1|]. split.
  - rewrite B, <- T2. unfold bacon_total. cbn [snd]. rewrite <- T1. reflexivity.
  - intros E. rewrite E in S1. cbn in S1. lra.
Qed.

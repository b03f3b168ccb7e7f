(* HonestDiD.fit on the results the package produces. *)
From Verif Require Import Prelude Flt Linalg_model Linalg_proofs Linalg_vcov Linalg_thms Did_model Did_spec Did_proofs
  Did_equiv Multi_model Multi_proofs Multi_thms Results_model Results_proofs Lp Honest_model Honest_proofs Honest_sd.
From Coq Require Import Arith ZArith String List Lia Lra.
Import ListNotations.
Open Scope R_scope.

(* ---- smoothness and combined, at the level of fit ---- *)
Section Fit.
Variable lp : nat -> list con -> list R -> option R.
Variable ppf : option Z -> R -> R.
Hypothesis Hlp : lp_ok lp.
Notation fit := (hd_fit lp ppf).

Lemma weights_length lo n l : hd_weights lo n = Ok l -> length l = n.
Proof.
  unfold hd_weights. destruct lo as [v|]; [|intros H; injection H as <-; apply repeat_length].
  destruct (Nat.eqb_spec (length v) n); [|discriminate]. intros H; injection H as <-; auto.
Qed.
Lemma suml_uniform n : (0 < n)%nat -> suml (repeat (1 / INR n) n) = 1.
Proof.
  intros H. assert (G : forall k c, suml (repeat c k) = INR k * c).
  { unfold suml. induction k as [|k IH]; intros c; [simpl; ring|]. rewrite S_INR. simpl repeat. cbn [sumf]. rewrite IH. unfold idR. ring. }
  rewrite G. field. apply not_0_INR. lia.
Qed.

Definition informative (npre : nat) (l : list R) : Prop :=
  (3 <= npre + length l)%nat /\ suml l = 0 /\ moml l = 0.

Lemma solve_uninformative npre b l M : length b = length l -> 0 <= M -> ~ informative npre l ->
  solve_bounds lp (map Fin b) l (cons_sd npre (length l) M) npre = (NInf, PInf).
Proof.
  intros Lb HM H. destruct (le_lt_dec 3 (npre + length l)) as [H3|H3].
  - destruct (Req_EM_T (suml l) 0) as [S0|S0]; [destruct (Req_EM_T (moml l) 0) as [M0|M0]|].
    + exfalso. apply H. split; auto.
    + apply smooth_unbounded; auto.
    + apply smooth_unbounded; auto.
  - unfold solve_bounds. rewrite (proj2 (cons_sd_nil npre (length l) M) H3). reflexivity.
Qed.

Lemma flci_inv lb ub se alpha c : flci ppf lb ub se alpha = Ok c ->
  fle se (Fin 0) = false /\ 0 < alpha < 1 /\
  c = (fsub lb (fmul (Fin (ppf None (1 - alpha / 2))) se), fadd ub (fmul (Fin (ppf None (1 - alpha / 2))) se)).
Proof.
  unfold flci. destruct (fle se (Fin 0)); [discriminate|]. destruct (Rlt_dec 0 alpha); [|discriminate].
  destruct (Rlt_dec alpha 1); [|discriminate]. intros H; injection H as <-. auto.
Qed.

Theorem smooth_fit cfg r M o p b l s :
  hd_method cfg = "smoothness"%string -> fit cfg r (Some M) = Ok o ->
  hd_extract r = Ok p -> post_beta p = map Fin b -> hd_weights (hd_l cfg) (length b) = Ok l ->
  ho_se o = Fin s -> 0 <= M ->
  0 < s /\
  (~ informative (ep_npre p) l ->
     ho_lb o = NInf /\ ho_ub o = PInf /\ ho_ci_lb o = NInf /\ ho_ci_ub o = PInf /\ ho_significant o = false) /\
  (informative (ep_npre p) l ->
     exists lo hi, ho_lb o = Fin lo /\ ho_ub o = Fin hi /\
       ho_ci_lb o = Fin (lo - ppf None (1 - hd_alpha cfg / 2) * s) /\ ho_ci_ub o = Fin (hi + ppf None (1 - hd_alpha cfg / 2) * s) /\
       (forall v, lo <= v <= hi <->
          exists delta, length delta = (ep_npre p + length l)%nat /\
            (forall i, (i + 2 < ep_npre p + length l)%nat -> Rabs (diff2 delta i) <= M) /\
            v = ldot l b - ldot l (skipn (ep_npre p) delta)) /\
       (M = 0 -> lo = ldot l b /\ hi = ldot l b)).
Proof.
  intros Hm H Ep Eb El Es HM.
  pose proof (hd_fit_inv _ _ _ _ _ _ H) as (p' & l' & lb & ub & cl & cu & E1 & E2 & E3 & E4 & E5 & E6 & E7 & E8 & E9 & E10 & E).
  rewrite Ep in E1. injection E1 as <-. rewrite Eb, map_length, El in E2. injection E2 as <-.
  rewrite Hm in E. cbn [String.eqb Ascii.eqb Bool.eqb] in E. rewrite E6 in E. unfold smooth_bounds in E.
  rewrite Eb, map_length in E. pose proof (weights_length _ _ _ El) as Ll. rewrite <- Ll in E.
  destruct (solve_bounds lp (map Fin b) l (cons_sd (ep_npre p) (length l) M) (ep_npre p)) as [lb' ub'] eqn:ES.
  destruct (flci ppf lb' ub' (fsqrt (qform l (snd (post_sigma p)))) (hd_alpha cfg)) as [ci|] eqn:EF; [|discriminate].
  cbn [bind] in E. injection E as -> -> <- <-. rewrite <- E5, Es in EF. apply flci_inv in EF as (F1 & F2 & ->).
  cbn [fst snd] in *. cbn [fle] in F1. apply Rleb_false in F1. split; [exact F1|]. split.
  - intros NI. rewrite (solve_uninformative (ep_npre p) b l M) in ES by auto. injection ES as <- <-.
    rewrite E7, E8, E9, E10. unfold ho_significant, has_zero. rewrite E9, E10. cbn. auto.
  - intros (I1 & I2 & I3). destruct (smooth_sharp lp Hlp (ep_npre p) b l M (eq_sym Ll) HM I1 I2 I3) as (lo & hi & ES' & A & B).
    rewrite ES in ES'. injection ES' as -> ->. exists lo, hi. rewrite E7, E8, E9, E10. unfold fsub. cbn [fadd fmul fneg].
    split; [reflexivity|]. split; [reflexivity|]. split; [reflexivity|]. split; [reflexivity|]. split; [exact A|exact B].
Qed.

(* the default weights are never informative, so the smoothness breakdown is always 0 *)
Lemma uniform_uninformative npre n : (0 < n)%nat -> ~ informative npre (repeat (1 / INR n) n).
Proof. intros H (_ & S0 & _). rewrite suml_uniform in S0 by auto. lra. Qed.

Lemma smooth_any cfg r M M' o : hd_method cfg = "smoothness"%string -> fit cfg r (Some M) = Ok o ->
  exists o', fit cfg r (Some M') = Ok o' /\ ho_se o' = ho_se o.
Proof.
  intros Hm H. unfold hd_fit in *. cbv zeta in *. destruct (hd_extract r) as [p|]; [|discriminate].
  cbn [bind] in *. destruct (post_sigma p) as [sz Sg].
  destruct (hd_weights (hd_l cfg) (length (post_beta p))) as [l|]; [|discriminate]. cbn [bind] in *.
  destruct (negb _); [discriminate|]. rewrite Hm in *. cbn [String.eqb Ascii.eqb Bool.eqb bind] in *.
  unfold smooth_bounds in *.
  destruct (solve_bounds lp (post_beta p) l (cons_sd (ep_npre p) (length (post_beta p)) M) (ep_npre p)) as [a b].
  destruct (solve_bounds lp (post_beta p) l (cons_sd (ep_npre p) (length (post_beta p)) M') (ep_npre p)) as [a' b'].
  destruct (flci ppf a b _ _) as [ci|] eqn:EF; [|discriminate]. apply flci_inv in EF as (F1 & [F2 F3] & _).
  cbn [bind] in H. injection H as <-. unfold flci. rewrite F1.
  destruct (Rlt_dec 0 (hd_alpha cfg)); [|lra]. destruct (Rlt_dec (hd_alpha cfg) 1); [|lra]. cbn [bind].
  eexists. split; [reflexivity|]. reflexivity.
Qed.

Theorem smooth_breakdown_zero cfg r M o p b s fuel tol :
  hd_method cfg = "smoothness"%string -> hd_l cfg = None -> fit cfg r (Some M) = Ok o ->
  hd_extract r = Ok p -> post_beta p = map Fin b -> b <> [] -> ho_se o = Fin s ->
  breakdown_value lp ppf fuel cfg r tol = Some (Ok (Some 0)).
Proof.
  intros Hm Hl H Ep Eb Hb Es. destruct (smooth_any cfg r M 0 o Hm H) as (o' & H' & Es').
  rewrite Es in Es'.
  destruct (smooth_fit cfg r 0 o' p b (repeat (1 / INR (length b)) (length b)) s Hm H' Ep Eb) as (_ & U & _); auto.
  { rewrite Hl. reflexivity. } { lra. }
  destruct (U (uniform_uninformative (ep_npre p) (length b) ltac:(destruct b; [congruence|simpl; lia]))) as (_ & _ & C1 & C2 & _).
  unfold breakdown_value, includes. rewrite H'. cbn [bind]. unfold has_zero. rewrite C1, C2. reflexivity.
Qed.

(* combined: with uninformative weights, only the relative-magnitude part remains *)
Theorem combined_is_rm cfg r M o p b l s m :
  hd_method cfg = "combined"%string -> fit cfg r (Some M) = Ok o ->
  hd_extract r = Ok p -> post_beta p = map Fin b -> hd_weights (hd_l cfg) (length b) = Ok l ->
  ho_se o = Fin s -> max_pre r = Fin m -> 0 <= M -> 0 <= m -> ~ informative (ep_npre p) l ->
  ho_lb o = Fin (ldot l b - M * m) /\ ho_ub o = Fin (ldot l b + M * m) /\
  ho_ci_lb o = Fin (ldot l b - M * m - ppf None (1 - hd_alpha cfg / 2) * s) /\
  ho_ci_ub o = Fin (ldot l b + M * m + ppf None (1 - hd_alpha cfg / 2) * s).
Proof.
  intros Hm H Ep Eb El Es Em HM Hm0 NI.
  pose proof (hd_fit_inv _ _ _ _ _ _ H) as (p' & l' & lb & ub & cl & cu & E1 & E2 & E3 & E4 & E5 & E6 & E7 & E8 & E9 & E10 & E).
  rewrite Ep in E1. injection E1 as <-. rewrite Eb, map_length, El in E2. injection E2 as <-.
  rewrite Hm in E. cbn [String.eqb Ascii.eqb Bool.eqb] in E. rewrite E6 in E. unfold combined_bounds, smooth_bounds in E.
  rewrite Eb, map_length in E. pose proof (weights_length _ _ _ El) as Ll. rewrite <- Ll in E.
  rewrite (solve_uninformative (ep_npre p) b l M) in E by auto.
  destruct (flci ppf NInf PInf _ _) as [ci|]; [|discriminate]. cbn [bind] in E.
  assert (HMm : 0 <= M * m) by (apply Rmult_le_pos; auto).
  assert (ERM : exists c d, rm_bounds ppf (hd_alpha cfg) (map Fin b) (snd (post_sigma p)) l M r
                = (Fin (ldot l b - M * m), Fin (ldot l b + M * m), c, d)).
  { unfold rm_bounds, clf_ci. rewrite Em, fdot_fin. cbn [feqb]. destruct (Reqb m 0) eqn:Q.
    - apply Reqb_true in Q. subst m. rewrite Rmult_0_r, Rminus_0_r, Rplus_0_r. eauto.
    - unfold fsub at 1. cbn [fmul fneg fadd]. eexists _, _. reflexivity. }
  destruct ERM as (c & d & ERM). rewrite ERM in E. unfold py_max2, py_min2, fgt in E. cbn [flt] in E.
  replace (Rltb (ldot l b + M * m) (ldot l b - M * m)) with false in E by (symmetry; apply Rltb_false; lra).
  destruct (flci ppf (Fin (ldot l b - M * m)) _ _ _) as [ci'|] eqn:EF; [|discriminate].
  rewrite <- E5, Es in EF. apply flci_inv in EF as (_ & _ & ->). cbn [bind fst snd] in E. unfold fsub in E. cbn [fadd fmul fneg] in E.
  injection E as <- <- <- <-. rewrite E7, E8, E9, E10. auto.
Qed.
End Fit.

(* ---- what is extracted ---- *)
(* CallawaySantAnna: coefficients sorted by relative time, the tail t >= 0, diagonal variance *)
Lemma insert_in e l x : In x (es_insert e l) <-> x = e \/ In x l.
Proof. induction l as [|y l IH]; simpl; [intuition congruence|]. destruct (key_le _ _); simpl; [intuition congruence|]. rewrite IH. tauto. Qed.
Lemma sort_in l x : In x (es_sort l) <-> In x l.
Proof. induction l as [|y l IH]; simpl; [tauto|]. rewrite insert_in, IH. intuition congruence. Qed.
Lemma insert_len e l : length (es_insert e l) = S (length l).
Proof. induction l as [|y l IH]; simpl; [reflexivity|]. destruct (key_le _ _); simpl; congruence. Qed.

(* negative keys come first after sorting *)
Fixpoint neg_first (l : list es_entry) : Prop :=
  match l with
  | [] => True
  | e :: r => (key_neg (ee_t e) = false -> forall x, In x r -> key_neg (ee_t x) = false) /\ neg_first r
  end.
Fixpoint es_sorted (l : list es_entry) : Prop :=
  match l with [] => True | e :: r => (forall x, In x r -> key_le (ee_t e) (ee_t x) = true) /\ es_sorted r end.
Lemma key_le_total a b : key_le a b = false -> key_le b a = true.
Proof. destruct a as [x|], b as [y|]; simpl; auto; try discriminate. intros H. apply Z.leb_gt in H. apply Z.leb_le. lia. Qed.
Lemma key_le_trans a b c : key_le a b = true -> key_le b c = true -> key_le a c = true.
Proof.
  destruct a as [x|], b as [y|], c as [z|]; simpl; auto; try discriminate. rewrite !Z.leb_le. lia.
Qed.
Lemma key_le_neg a b : key_le a b = true -> key_neg a = false -> key_neg b = false.
Proof. destruct a as [x|], b as [y|]; simpl; auto; try discriminate. rewrite Z.leb_le, !Z.ltb_ge. lia. Qed.
Lemma insert_sorted e l : es_sorted l -> es_sorted (es_insert e l).
Proof.
  induction l as [|y l IH]; simpl; [intros; split; [tauto|auto]|]. intros [H1 H2].
  destruct (key_le (ee_t e) (ee_t y)) eqn:E.
  - simpl. split; [|auto]. intros x [<-|Hx]; auto. apply (key_le_trans _ (ee_t y)); auto.
  - simpl. split; [|auto]. intros x Hx. apply insert_in in Hx as [->|Hx]; auto. apply key_le_total; auto.
Qed.
Lemma sort_sorted l : es_sorted (es_sort l).
Proof. induction l; simpl; auto. apply insert_sorted. auto. Qed.
Lemma sorted_split l : es_sorted l ->
  l = filter (fun e => key_neg (ee_t e)) l ++ filter (fun e => negb (key_neg (ee_t e))) l.
Proof.
  induction l as [|e l IH]; simpl; [reflexivity|]. intros [H1 H2]. specialize (IH H2).
  destruct (key_neg (ee_t e)) eqn:E; simpl; [congruence|].
  assert (F : filter (fun e0 => key_neg (ee_t e0)) l = []).
  { clear -H1 E. induction l as [|x l IH]; simpl; [reflexivity|].
    rewrite (key_le_neg (ee_t e) (ee_t x)) by (auto; apply H1; left; auto). apply IH. intros y Hy. apply H1. right; auto. }
  rewrite F in *. simpl in *. congruence.
Qed.

Definition cs_kept (es : list es_entry) : list es_entry :=
  es_sort (filter (fun e => Nat.ltb 0 (ee_n e) && ffinite (ee_se e)) es).
Definition cs_post (es : list es_entry) : list es_entry := filter (fun e => negb (key_neg (ee_t e))) (cs_kept es).

Theorem cs_extract es ose : exists p,
  hd_extract (HCS {| hc_es := Some es; hc_overall_se := ose |}) = Ok p /\
  post_beta p = map ee_eff (cs_post es) /\
  fst (post_sigma p) = length (cs_post es) /\
  (forall i j, (i < length (cs_post es))%nat -> (j < length (cs_post es))%nat ->
     snd (post_sigma p) i j = diag_sq (map ee_se (cs_post es)) i j).
Proof.
  unfold hd_extract. cbn [hc_es]. fold (cs_kept es). eexists. split; [reflexivity|].
  assert (SP : cs_kept es = filter (fun e => key_neg (ee_t e)) (cs_kept es) ++ cs_post es) by (apply sorted_split, sort_sorted).
  set (k := cs_kept es) in *. set (pre := filter (fun e => key_neg (ee_t e)) k) in *.
  assert (LP : length (filter (fun e => negb (key_neg (ee_t e))) k) = length (cs_post es)) by reflexivity.
  assert (LK : length k = (length pre + length (cs_post es))%nat) by (rewrite SP at 1; apply app_length).
  assert (PB : forall q, ep_beta q = map ee_eff k -> ep_npre q = length pre -> ep_npost q = length (cs_post es) ->
               post_beta q = map ee_eff (cs_post es) /\ post_count q = length (cs_post es)).
  { intros q Q1 Q2 Q3. unfold post_beta, post_count. rewrite Q1, Q2, Q3, map_length, LK.
    destruct (Nat.eqb_spec (length pre + length (cs_post es)) (length (cs_post es))) as [E|N].
    - assert (pre = []) by (destruct pre; [auto|simpl in E; lia]). rewrite SP, H. auto.
    - rewrite Nat.eqb_refl. split; auto. rewrite SP, map_app, skipn_app, map_length, Nat.sub_diag, skipn_all2 by (rewrite map_length; auto). reflexivity. }
  match goal with |- post_beta ?q = _ /\ _ => destruct (PB q eq_refl eq_refl eq_refl) as [PB1 PB2]; set (P := q) in * end.
  split; auto. unfold post_sigma. rewrite PB1, PB2, map_length. cbn [ep_size ep_npre ep_sigma P]. fold pre. rewrite LK.
  destruct (Nat.eqb_spec (length pre + length (cs_post es)) (length (cs_post es))) as [E|N].
  - assert (E0 : pre = []) by (destruct pre; [auto|simpl in E; lia]). cbn [andb fst snd]. split; [lia|].
    intros i j Hi Hj. rewrite SP, E0. reflexivity.
  - cbn [andb]. rewrite Nat.eqb_refl. cbn [fst snd]. split; [lia|]. intros i j Hi Hj. unfold diag_sq.
    assert (EN : forall a, nth (length pre + a) (map ee_se k) NaN = nth a (map ee_se (cs_post es)) NaN).
    { intros a. rewrite SP, map_app, app_nth2; rewrite map_length; [|lia]. f_equal. lia. }
    rewrite EN. destruct (Nat.eqb_spec (length pre + i) (length pre + j)), (Nat.eqb_spec i j); auto; lia.
Qed.

(* the variance HonestDiD uses for CallawaySantAnna: squared weights times squared standard errors, no covariances *)
Lemma qform_diag l ses S : length l = length ses ->
  (forall i j, (i < length l)%nat -> (j < length l)%nat -> S i j = diag_sq (map Fin ses) i j) ->
  qform l S = Fin (sumf (fun i => nth i l 0 * nth i l 0 * (nth i ses 0 * nth i ses 0)) (seq 0 (length l))).
Proof.
  intros L H. unfold qform.
  assert (NS : forall i, (i < length l)%nat -> nth i (map Fin ses) NaN = Fin (nth i ses 0)).
  { intros i Hi. rewrite (nth_indep _ NaN (Fin 0)) by (rewrite map_length; lia). apply map_nth. }
  assert (IN : forall j, (j < length l)%nat ->
    fsum (map (fun i => fmul (Fin (nth i l 0)) (S i j)) (seq 0 (length l))) = Fin (nth j l 0 * (nth j ses 0 * nth j ses 0))).
  { intros j Hj. rewrite (map_ext_in _ (fun i => Fin ((if Nat.eqb i j then nth j l 0 else 0) * (nth j ses 0 * nth j ses 0)))).
    - rewrite <- map_map with (g := Fin) (f := fun i => (if Nat.eqb i j then nth j l 0 else 0) * (nth j ses 0 * nth j ses 0)).
      rewrite fsum_fin, sumf_map. f_equal. unfold idR. rewrite pick_seq with (g := fun _ => nth j ses 0 * nth j ses 0) by auto. reflexivity.
    - intros i Hi. apply in_seq in Hi. rewrite H by lia. unfold diag_sq. destruct (Nat.eqb_spec i j) as [->|N].
      + rewrite NS by lia. reflexivity.
      + cbn [fmul]. f_equal. ring. }
  rewrite (map_ext_in _ (fun j => Fin (nth j l 0 * nth j l 0 * (nth j ses 0 * nth j ses 0)))).
  - rewrite <- map_map with (g := Fin) (f := fun j => nth j l 0 * nth j l 0 * (nth j ses 0 * nth j ses 0)).
    rewrite fsum_fin, sumf_map. reflexivity.
  - intros j Hj. apply in_seq in Hj. rewrite IN by lia. cbn [fmul]. f_equal. ring.
Qed.

Theorem cs_se lp ppf cfg es ose M o l ses :
  hd_fit lp ppf cfg (HCS {| hc_es := Some es; hc_overall_se := ose |}) M = Ok o ->
  hd_weights (hd_l cfg) (length (cs_post es)) = Ok l -> map ee_se (cs_post es) = map Fin ses ->
  ho_se o = Fin (sqrt (sumf (fun i => nth i l 0 * nth i l 0 * (nth i ses 0 * nth i ses 0)) (seq 0 (length l)))) /\
  ho_est o = fdot l (map ee_eff (cs_post es)).
Proof.
  intros H El Es. destruct (cs_extract es ose) as (p & Ep & Eb & E1 & E2).
  pose proof (hd_fit_inv _ _ _ _ _ _ H) as (p' & l' & lb & ub & cl & cu & X1 & X2 & X3 & X4 & X5 & _).
  rewrite Ep in X1. injection X1 as <-. rewrite Eb, map_length, El in X2. injection X2 as <-.
  pose proof (weights_length _ _ _ El) as Ll.
  rewrite X5, X4, Eb. split; auto.
  rewrite (qform_diag l ses).
  - apply sqrt_fin. apply sumf_nonneg. intros. apply Rmult_le_pos; apply sq_nonneg.
  - rewrite Ll, <- (map_length ee_se), Es, map_length. reflexivity.
  - intros i j Hi Hj. rewrite E2 by lia. rewrite Es. reflexivity.
Qed.

(* ---- MultiPeriodDiD ---- *)
Section MP.
Context {I K G : Type} (keq : forall x y : K, {x = y} + {x <> y}) (geq : forall x y : G, {x = y} + {x <> y}).
Variable qr : list I -> list (I -> R) -> list nat.
Variable lstsq : list I -> list (I -> R) -> (I -> R) -> list R.
Variable inv : list I -> list (I -> R) -> option (nat -> nat -> R).
Variable sf : option Z -> fl -> fl.
Variable ppf : option Z -> R -> R.
Variable lp : nat -> list con -> list R -> option R.
Hypothesis Hqr : qr_ok qr.
Hypothesis Hls : lstsq_ok lstsq.
Hypothesis Hinv : inv_ok inv.
Notation mpfit := (mp_fit keq geq qr lstsq inv sf ppf).

Lemma nonref_count (l : list Z) ref : NoDup l -> (length l <= S (length (filter (fun p => negb (Z.eqb p ref)) l)))%nat.
Proof.
  induction l as [|x l IH]; simpl; [lia|]. intros H. inversion H; subst. destruct (Z.eqb_spec x ref) as [->|N]; simpl.
  - assert (F : filter (fun p => negb (Z.eqb p ref)) l = l).
    { clear IH H H3. induction l as [|y l IH]; simpl; [reflexivity|]. destruct (Z.eqb_spec y ref) as [->|M]; simpl.
      - exfalso. apply H2. left; auto.
      - f_equal. apply IH. intros Hy. apply H2. right; auto. }
    rewrite F. lia.
  - specialize (IH H3). lia.
Qed.

Lemma filter_len {A} (f : A -> bool) l : (length (filter f l) <= length l)%nat.
Proof. induction l as [|x l IH]; simpl; [lia|]. destruct (f x); simpl; lia. Qed.
Lemma setup_pre_length all post ref pre post' ref' : mp_setup all post ref = Ok (pre, post', ref') ->
  (length pre <= length all)%nat.
Proof.
  assert (L : (length (fst (mp_periods all post)) <= length all)%nat).
  { unfold mp_periods. destruct post; simpl; [apply filter_len|rewrite firstn_length; apply Nat.le_min_r]. }
  unfold mp_setup. destruct (mp_periods all post) as [pr po]. simpl in L. destruct po; [discriminate|]. destruct pr; [discriminate|].
  destruct (forallb _ _); [|discriminate]. cbn [negb]. destruct ref as [r|]; [destruct (zmem r all); [|discriminate]|];
    intros H; injection H as <- <- <-; auto.
Qed.

Theorem mp_coef_count cfg rows y d t post ref covs dums absorb r :
  mpfit cfg rows y d t post ref covs dums absorb = Ok r ->
  (length (mp_pre r) + length (mp_post r) < length (mp_coef r))%nat.
Proof.
  intros H. destruct (mp_fit_inv keq geq qr lstsq inv sf ppf _ _ _ _ _ _ _ _ _ _ _ H)
    as (_ & S0 & y' & covs' & nabs & o & idxs & EA & Ho & Hc & _).
  destruct (solve_ols_shape keq qr lstsq inv Hls _ _ _ _ _ _ _ Ho) as (_ & Hk & _).
  rewrite Hc, Hk, expand_coef_length. unfold mp_design. rewrite !app_length, !map_length. simpl length.
  destruct (mp_setup_ok _ _ _ _ _ _ S0 (data_periods_nodup rows t)) as (A1 & A2 & A3 & A4 & A5 & A6 & A7 & A8 & A9).
  pose proof (nonref_count (data_periods rows t) (mp_ref r) (data_periods_nodup rows t)).
  assert (length (mp_pre r) <= length (data_periods rows t))%nat; [|lia].
  exact (setup_pre_length _ _ _ _ _ _ S0).
Qed.

(* which block of the coefficient covariance is used, and what serves as the pre-period violation *)
Theorem mp_leading_block cfg rows y d t post ref covs dums absorb r name p :
  mpfit cfg rows y d t post ref covs dums absorb = Ok r -> hd_extract (of_mp name r) = Ok p ->
  length (post_beta p) = length (mp_post r) /\
  post_sigma p = (length (mp_post r), mp_vcov r) /\ max_pre (of_mp name r) = mp_avg_se r.
Proof.
  intros H Hp. pose proof (mp_coef_count _ _ _ _ _ _ _ _ _ _ _ H) as Hk.
  destruct (effects_list keq geq qr lstsq inv sf ppf _ _ _ _ _ _ _ _ _ _ _ H) as [EP _].
  destruct (mp_fit_inv keq geq qr lstsq inv sf ppf _ _ _ _ _ _ _ _ _ _ _ H) as (_ & S0 & _).
  destruct (mp_setup_ok _ _ _ _ _ _ S0 (data_periods_nodup rows t)) as (A1 & A2 & A3 & A4 & A5 & A6 & A7 & A8 & A9).
  unfold of_mp in Hp. cbn [hd_extract hm_eff hm_post hm_vcov hm_pre] in Hp.
  destruct (get_effects _ (mp_post r)) as [es|] eqn:EG; [|discriminate]. cbn [bind] in Hp. injection Hp as <-.
  assert (LE : length es = length (mp_post r)).
  { revert es EG. clear. induction (mp_post r) as [|q l IH]; simpl; intros es E; [injection E as <-; reflexivity|].
    destruct (option_map _ _); [|discriminate]. destruct (get_effects _ l); [|discriminate]. cbn [bind] in E. injection E as <-. simpl. auto. }
  unfold post_sigma, post_count, post_beta. cbn [ep_beta ep_npost ep_npre ep_size ep_sigma]. rewrite map_length, LE, Nat.eqb_refl.
  rewrite map_length, LE. split; auto. split.
  - rewrite (proj2 (Nat.eqb_neq (length (mp_coef r)) (length (mp_post r)))) by lia. cbn [andb].
    rewrite (proj2 (Nat.eqb_neq (length (mp_coef r)) _)) by lia. rewrite Nat.min_r by lia. reflexivity.
  - unfold of_mp, max_pre. cbn [hm_key hm_pre hm_avg_se].
    assert (KN : keep_some (map (fun q => if String.eqb name "treated" then option_map pe_effect (dict_get (mp_effects r) q) else None) (mp_pre r)) = []).
    { assert (N : forall q, In q (mp_pre r) -> dict_get (mp_effects r) q = None).
      { intros q Hq. destruct (dict_get (mp_effects r) q) as [e|] eqn:E; auto. exfalso.
        apply dict_get_some in E as [E1 E2]. assert (In q (mp_post r)) by (rewrite <- EP, <- E2; apply in_map; auto).
        apply A5 in Hq. tauto. }
      revert N. clear. intros N. induction (mp_pre r) as [|q l IH]; simpl; [reflexivity|]. rewrite N by (left; auto).
      destruct (String.eqb name "treated"); simpl; apply IH; intros; apply N; right; auto. }
    rewrite KN. reflexivity.
Qed.

Theorem mp_honest_se cfg rows y d t post ref covs dums absorb r name hcfg M o l :
  mpfit cfg rows y d t post ref covs dums absorb = Ok r ->
  hd_fit lp ppf hcfg (of_mp name r) M = Ok o -> hd_weights (hd_l hcfg) (length (mp_post r)) = Ok l ->
  ho_se o = fsqrt (qform l (mp_vcov r)).
Proof.
  intros H Ho El. pose proof (hd_fit_inv _ _ _ _ _ _ Ho) as (p & l' & lb & ub & cl & cu & X1 & X2 & X3 & X4 & X5 & _).
  destruct (mp_leading_block _ _ _ _ _ _ _ _ _ _ _ name p H X1) as (L & E & _).
  rewrite L, El in X2. injection X2 as <-. rewrite X5, E. reflexivity.
Qed.

(* ---- two periods, the default HC1 variance ---- *)
Definition const_q (rows : list I) (d t : I -> R) (i : I) : R :=
  if Reqb (d i) 1 then 0 else if Reqb (t i) 1 then 0 else / len (cell rows d t 0 0).

Lemma const_q_dual (rows : list I) (d t : I -> R) B : zero_one rows d -> zero_one rows t ->
  four_cells rows d t -> is_inverse rows (did_design d t []) B ->
  forall i, In i rows -> qcol (did_design d t []) B 0 i = const_q rows d t i.
Proof.
  intros Zd Zt Hf HB. destruct Hf as (H00 & H01 & H10 & H11). pose proof (len_pos _ H00).
  apply (qcol_unique rows (did_design d t []) B 0); auto; [simpl; lia| |].
  - apply (sat_span rows d t Zd Zt (fun a b => if Reqb a 1 then 0 else if Reqb b 1 then 0 else / len (cell rows d t 0 0))).
  - intros a Ha. simpl in Ha.
    assert (Hcell : forall h : R -> R -> R, ip rows (fun i => h (d i) (t i)) (const_q rows d t) = h 0 0).
    { intros h. unfold ip. rewrite (cell_sum rows d t Zd Zt).
      rewrite (cell_sum_const rows d t _ 0 0 (h 0 0 * / len (cell rows d t 0 0)))
        by (intros i _ Ed Et; unfold const_q; rewrite Ed, Et, Reqb_01; reflexivity).
      rewrite (cell_sum_const rows d t _ 0 1 0)
        by (intros i _ Ed Et; unfold const_q; rewrite Ed, Et, Reqb_01, Reqb_refl; ring).
      rewrite (cell_sum_const rows d t _ 1 0 0)
        by (intros i _ Ed Et; unfold const_q; rewrite Ed, Et, Reqb_refl; ring).
      rewrite (cell_sum_const rows d t _ 1 1 0)
        by (intros i _ Ed Et; unfold const_q; rewrite Ed, Et, Reqb_refl; ring).
      field. lra. }
    destruct a as [|[|[|[|a]]]]; [| | | |lia].
    + change (colx (did_design d t []) 0) with (fun i => (fun _ _ : R => 1) (d i) (t i)). rewrite Hcell. simpl; ring.
    + change (colx (did_design d t []) 1) with (fun i => (fun x _ : R => x) (d i) (t i)). rewrite Hcell. simpl; ring.
    + change (colx (did_design d t []) 2) with (fun i => (fun _ z : R => z) (d i) (t i)). rewrite Hcell. simpl; ring.
    + change (colx (did_design d t []) 3) with (fun i => (fun x z : R => x * z) (d i) (t i)). rewrite Hcell. simpl; ring.
Qed.

(* HC1 variance of the mean of the untreated pre-period cell *)
Definition control_pre_var (rows : list I) (d t y : I -> R) : R :=
  len rows / (len rows - 4) * cell_var rows d t y 0 0.

Lemma const_hc1_closed (rows : list I) (d t y : I -> R) B b : zero_one rows d -> zero_one rows t ->
  four_cells rows d t -> is_inverse rows (did_design d t []) B -> is_ls rows (did_design d t []) y b ->
  sandwich 4 (INR (length rows) / (INR (length rows) - 4)) B
     (hc1_meat rows (did_design d t []) (fun i => y i - lc (did_design d t []) b i)) 0 0 = control_pre_var rows d t y.
Proof.
  intros Zd Zt Hf HB Hb. change 4%nat with (length (did_design d t [])). rewrite hc1_dual. unfold control_pre_var, len at 1 2. f_equal.
  rewrite (sumf_ext _ (fun i => const_q rows d t i * const_q rows d t i * ((y i - lc (did_design d t []) b i) * (y i - lc (did_design d t []) b i)))).
  2:{ intros i Hi. rewrite (const_q_dual rows d t B Zd Zt Hf HB i Hi). ring. }
  rewrite (cell_sum rows d t Zd Zt).
  rewrite (cell_sum_const rows d t _ 0 1 0) by (intros i _ Ed Et; unfold const_q; rewrite Ed, Et, Reqb_01, Reqb_refl; ring).
  rewrite (cell_sum_const rows d t _ 1 0 0) by (intros i _ Ed Et; unfold const_q; rewrite Ed, Et, Reqb_refl; ring).
  rewrite (cell_sum_const rows d t _ 1 1 0) by (intros i _ Ed Et; unfold const_q; rewrite Ed, Et, Reqb_refl; ring).
  rewrite !Rmult_0_r, !Rplus_0_r. unfold cell_var.
  rewrite (sumf_ext _ (fun i => (y i - cell_mean rows d t y 0 0) * (y i - cell_mean rows d t y 0 0)
                                * / (len (cell rows d t 0 0) * len (cell rows d t 0 0)))).
  - rewrite sumf_scal_r. reflexivity.
  - intros i Hi. apply cell_in in Hi. destruct Hi as (Hi & Ed & Et).
    rewrite (ls_fitted_unique rows (did_design d t []) y b _ Hb (sat_is_ls rows d t Zd Zt y) i Hi), (sat_value rows d t) by auto.
    unfold const_q. rewrite Ed, Et, !Reqb_01. rewrite Rinv_mult. ring.
Qed.

Theorem two_period_se cfg rows y d t r name hcfg M o p0 p1 :
  mpfit cfg rows y d t None None [] [] [] = Ok r ->
  c_robust cfg = true -> c_cluster cfg = None -> data_periods rows t = [p0; p1] ->
  four_cells rows d (at_period t p1) ->
  hd_fit lp ppf hcfg (of_mp name r) M = Ok o -> hd_l hcfg = None ->
  ho_se o = Fin (sqrt (control_pre_var rows d (at_period t p1) y)) /\
  0 <= did_hc1 rows d (at_period t p1) y /\
  mp_avg_se r = Fin (sqrt (did_hc1 rows d (at_period t p1) y)).
Proof.
  intros H Hrob Hcl Hdp Hf Hh Hl.
  destruct (mp_fit_inv keq geq qr lstsq inv sf ppf _ _ _ _ _ _ _ _ _ _ _ H)
    as (Zd & S0 & y' & covs' & nabs & oo & idxs & EA & Ho & Hc & Hre & HV & Hdf & Hix & Hef & Hav).
  specialize (HV (or_introl Hrob)). rewrite Hdp in *. 
  destruct (mp_setup_ok _ _ _ _ _ _ S0) as (_ & _ & Pin & _ & _ & _). { rewrite <- Hdp. apply data_periods_nodup. }
  unfold mp_setup, mp_periods in S0. cbn [length Nat.div Nat.divmod fst firstn skipn] in S0.
  destruct (forallb _ _); [|discriminate]. cbn [negb] in S0. injection S0 as S1 S2 S3. simpl in EA. injection EA as <- <- <-.
  assert (N01 : p0 <> p1).
  { pose proof (data_periods_nodup rows t) as ND. rewrite Hdp in ND. apply NoDup_cons_iff in ND as [ND _]. intros E. apply ND. left; auto. }
  assert (Zt : zero_one rows (at_period t p1)).
  { intros i _. unfold at_period, ind. destruct (Z.eqb _ _); auto. }
  set (tp := at_period t p1) in *.
  assert (ED : mp_design d t [p0; p1] (mp_post r) (mp_ref r) ([] ++ []) = did_design d tp []).
  { rewrite <- S2, <- S3. unfold mp_design. cbn [filter]. rewrite Z.eqb_refl.
    destruct (Z.eqb_spec p1 p0); [congruence|]. reflexivity. }
  rewrite ED in Ho.
  destruct (solve_ols_shape keq qr lstsq inv Hls _ _ _ _ _ _ _ Ho) as (Lb & Hk & _ & _ & _ & HW & _ & Hle).
  pose proof (qr_indep_none qr rows _ Hqr (sat_indep rows _ _ Hf)) as Hq. rewrite Hq in *. rewrite select_cols_full in *.
  destruct HW as (V & EV & W & EW & HE). rewrite Hcl in EV.
  destruct (robust_vcov_shape keq inv Hinv _ _ _ _ _ EV) as (Hne & _ & B & HB & EVB).
  assert (Hent : forall j, (j < 4)%nat -> mp_vcov r j j = Fin (V j j)).
  { intros j Hj. rewrite EW in HV. injection HV as <-. rewrite HE by (unfold did_design; simpl; lia).
    rewrite kept_cols_nil. unfold expand_vcov. rewrite !index_of_seq by (unfold did_design; simpl; lia). reflexivity. }
  assert (Hadj : forall j, V j j = sandwich 4 (INR (length rows) / (INR (length rows) - 4)) B
     (hc1_meat rows (did_design d tp []) (fun i => y i - lc (did_design d tp []) (lstsq rows (did_design d tp []) y) i)) j j).
  { intros j. rewrite EVB. unfold adj_of, meat_of. unfold did_design at 1 2. cbn [length]. f_equal. simpl INR. f_equal. lra. }
  assert (V00 : V 0%nat 0%nat = control_pre_var rows d tp y).
  { rewrite Hadj. apply const_hc1_closed; auto. }
  assert (V33 : V 3%nat 3%nat = did_hc1 rows d tp y).
  { rewrite Hadj. apply did_hc1_closed; auto. }
  pose proof (robust_vcov_diag_nonneg keq inv Hinv _ _ _ _ _ Hle EV 3) as N3.
  pose proof (robust_vcov_diag_nonneg keq inv Hinv _ _ _ _ _ Hle EV 0) as N0.
  rewrite V00 in N0. rewrite V33 in N3.
  split; [|split; auto].
  - rewrite (mp_honest_se _ _ _ _ _ _ _ _ _ _ _ name hcfg M o [1] H Hh).
    + unfold qform. cbn [length seq map nth]. rewrite Hent by lia. rewrite V00. cbn [fmul fsum fold_right fadd].
      match goal with |- fsqrt (Fin ?e) = _ => replace e with (control_pre_var rows d tp y) by ring end. apply sqrt_fin; auto.
    + rewrite Hl, <- S2. simpl. f_equal. f_equal. field.
  - assert (ES : mp_effects r = [mp_effect sf ppf (c_alpha cfg) (mp_df r) (mp_coef r) (mp_vcov r) p1 3]).
    { rewrite Hef, Hix, <- S2, <- S3. unfold mp_index. cbn [filter length seq map combine]. rewrite Z.eqb_refl.
      destruct (Z.eqb_spec p1 p0); [congruence|]. reflexivity. }
    assert (Hix3 : idxs = [3%nat]).
    { rewrite Hix, <- S2, <- S3. unfold mp_index. cbn [filter length seq map]. rewrite Z.eqb_refl. destruct (Z.eqb_spec p1 p0); [congruence|]. reflexivity. }
    assert (EF : nth 3 (mp_coef r) NaN = Fin (nth 3 (lstsq rows (did_design d tp []) y) 0)).
    { rewrite Hc, Hk, expand_coef_full by (rewrite Lb, kept_cols_nil, seq_length; reflexivity).
      rewrite kept_cols_nil, seq_length in Lb. unfold did_design in Lb at 2. simpl length in Lb.
      rewrite (nth_indep _ NaN (Fin 0)) by (rewrite map_length; unfold did_design in *; lia). apply map_nth. }
    rewrite ES, Hix3 in Hav. cbn [map pe_effect mp_effect] in Hav. rewrite EF in Hav. unfold mp_average in Hav.
    cbn [existsb fisnan orb map length fsum fold_right] in Hav. rewrite Hent, V33 in Hav by lia. cbn [fadd] in Hav.
    simpl INR in Hav. unfold fdiv in Hav. destruct (Req_EM_T (1 * 1) 0); [lra|]. cbn [fisnan orb flt] in Hav.
    replace ((did_hc1 rows d tp y + 0 + 0) / (1 * 1)) with (did_hc1 rows d tp y) in Hav by field.
    rewrite (proj2 (Rltb_false (did_hc1 rows d tp y) 0)) in Hav by lra.
    rewrite sqrt_fin in Hav by auto. destruct (fgt _ _); injection Hav; auto.
Qed.
End MP.

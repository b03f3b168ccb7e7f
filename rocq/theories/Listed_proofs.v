(* Proofs about MultiPeriodDiD.fit when a post period may be listed twice. *)
From Coq Require Import Reals Lra Lia.
From Verif Require Import Prelude Flt Linalg_model Linalg_proofs Linalg_vcov Linalg_thms Did_model Did_spec Did_proofs Multi_model Multi_proofs Multi_thms Listed_model.
From Coq Require Import Arith ZArith String List.
Import ListNotations.
Open Scope R_scope.

(* ---- positions ---- *)
Lemma last_pos_lt p l : In p l -> (last_pos p l < length l)%nat.
Proof.
  induction l as [|x r IH]; [intros []|]. intros H. cbn [last_pos length]. destruct (zmem p r) eqn:E; [|lia].
  apply zmem_In in E. specialize (IH E). lia.
Qed.
Lemma last_pos_nth p l : In p l -> nth (last_pos p l) l 0%Z = p.
Proof.
  induction l as [|x r IH]; [intros []|]. intros H. cbn [last_pos]. destruct (zmem p r) eqn:E.
  - apply zmem_In in E. cbn [nth]. auto.
  - destruct H as [->|H]; [reflexivity|]. apply zmem_In in H. congruence.
Qed.
Lemma last_pos_last p l j : (j < length l)%nat -> nth j l 0%Z = p -> (j <= last_pos p l)%nat.
Proof.
  revert j. induction l as [|x r IH]; intros j Hj E; cbn [length] in Hj; [lia|]. cbn [last_pos].
  destruct j as [|j]; [lia|]. cbn [nth] in E. assert (Hr : zmem p r = true) by (apply zmem_In; rewrite <- E; apply nth_In; lia).
  rewrite Hr. specialize (IH j ltac:(lia) E). lia.
Qed.
Lemma last_pos_nodup l : NoDup l -> map (fun p => last_pos p l) l = seq 0 (length l).
Proof.
  intros N. apply nth_ext with (d := O) (d' := O); rewrite map_length; [now rewrite seq_length|].
  intros j Hj. rewrite seq_nth by auto. cbn [plus].
  rewrite (nth_indep _ O (last_pos 0%Z l)) by (rewrite map_length; auto). rewrite (map_nth (fun p => last_pos p l)).
  assert (L : (last_pos (nth j l 0%Z) l < length l)%nat) by (apply last_pos_lt, nth_In; auto).
  apply (proj1 (NoDup_nth l 0%Z) N _ _ L Hj). apply last_pos_nth, nth_In; auto.
Qed.

(* ---- the dictionary of period effects ---- *)
Lemma pe_set_fresh l e : ~ In (pe_period e) (map pe_period l) -> pe_set l e = l ++ [e].
Proof.
  induction l as [|x r IH]; intros H; [reflexivity|]. cbn [pe_set app]. cbn [map In] in H.
  destruct (Z.eqb_spec (pe_period x) (pe_period e)); [tauto|]. f_equal. apply IH. tauto.
Qed.
Lemma pe_fold_fresh l acc : NoDup (map pe_period (acc ++ l)) -> fold_left pe_set l acc = acc ++ l.
Proof.
  revert acc. induction l as [|x r IH]; intros acc N; cbn [fold_left]; [now rewrite app_nil_r|].
  rewrite map_app in N. cbn [map] in N. rewrite pe_set_fresh.
  - rewrite IH; [now rewrite <- app_assoc|]. rewrite <- app_assoc, map_app. exact N.
  - apply NoDup_remove_2 in N. intros H. apply N. apply in_or_app. now left.
Qed.
Lemma pe_dict_nodup l : NoDup (map pe_period l) -> pe_dict l = l.
Proof. intros N. unfold pe_dict. now rewrite pe_fold_fresh. Qed.
Lemma pe_set_keys l e : map pe_period (pe_set l e) = if zmem (pe_period e) (map pe_period l) then map pe_period l else map pe_period l ++ [pe_period e].
Proof.
  induction l as [|x r IH]; [reflexivity|]. cbn [pe_set map zmem existsb]. fold (zmem (pe_period e) (map pe_period r)).
  rewrite (Z.eqb_sym (pe_period e)). destruct (Z.eqb_spec (pe_period x) (pe_period e)) as [E|E]; cbn [orb map].
  - now rewrite E.
  - rewrite IH. destruct (zmem _ _); reflexivity.
Qed.
Lemma pe_fold_nodup l acc : NoDup (map pe_period acc) -> NoDup (map pe_period (fold_left pe_set l acc)) /\
  forall p, In p (map pe_period (fold_left pe_set l acc)) <-> In p (map pe_period acc) \/ In p (map pe_period l).
Proof.
  revert acc. induction l as [|x r IH]; intros acc N; cbn [fold_left map]; [split; [exact N|cbn; tauto]|].
  assert (N' : NoDup (map pe_period (pe_set acc x))).
  { rewrite pe_set_keys. destruct (zmem _ _) eqn:E; [exact N|]. apply NoDup_rev in N. rewrite <- (rev_involutive (_ ++ _)). apply NoDup_rev. rewrite rev_app_distr. cbn.
    constructor; [|exact N]. rewrite <- in_rev. intros H. apply zmem_In in H. congruence. }
  destruct (IH _ N') as [A B]. split; [exact A|]. intros p. rewrite B, pe_set_keys. cbn [In].
  destruct (zmem (pe_period x) (map pe_period acc)) eqn:E; [apply zmem_In in E|rewrite in_app_iff; cbn [In]; tauto].
  intuition (subst; tauto).
Qed.
Lemma pe_dict_keys l : NoDup (map pe_period (pe_dict l)) /\ forall p, In p (map pe_period (pe_dict l)) <-> In p (map pe_period l).
Proof. destruct (pe_fold_nodup l [] (NoDup_nil _)) as [A B]. split; [exact A|]. intros p. unfold pe_dict. rewrite B. cbn. tauto. Qed.
Lemma pe_fold_from l acc e : In e (fold_left pe_set l acc) -> In e acc \/ In e l.
Proof.
  revert acc. induction l as [|x r IH]; intros acc H; cbn [fold_left] in H; [now left|]. destruct (IH _ H) as [H1|H1]; [|right; right; exact H1].
  assert (X : forall a, In e (pe_set a x) -> In e a \/ e = x).
  { clear. intros a. induction a as [|z a IH]; cbn [pe_set]; [intros [<-|[]]; tauto|].
    destruct (Z.eqb _ _); intros [<-|H]; cbn; tauto. }
  destruct (X _ H1) as [H2| ->]; [now left|right; now left].
Qed.
Lemma pe_dict_from l e : In e (pe_dict l) -> In e l.
Proof. intros H. destruct (pe_fold_from l [] e H) as [[]|H1]; exact H1. Qed.

(* ---- two equal columns are dependent ---- *)
Section Dep.
Context {I : Type}.
Lemma equal_cols_dep (rows : list I) cols a b : (a < b < length cols)%nat ->
  (forall i, In i rows -> colx cols a i = colx cols b i) -> ~ indep rows cols.
Proof.
  intros [Hab Hb] E Hi.
  set (v := map (fun j => if Nat.eqb j a then 1 else if Nat.eqb j b then -1 else 0) (seq 0 (length cols))).
  assert (Lv : length v = length cols) by (unfold v; now rewrite map_length, seq_length).
  assert (Nv : forall j, (j < length cols)%nat -> nth j v 0 = if Nat.eqb j a then 1 else if Nat.eqb j b then -1 else 0).
  { intros j Hj. unfold v. set (f := fun j => _). rewrite (nth_indep _ 0 (f O)) by (rewrite map_length, seq_length; exact Hj). rewrite (map_nth f), seq_nth by exact Hj. reflexivity. }
  assert (Hv : v = repeat 0 (length cols)).
  { apply Hi; [exact Lv|]. intros i Hr. rewrite lc_index by exact Lv.
    rewrite (sumf_ext _ (fun j => (if Nat.eq_dec j a then colx cols a i else 0) - (if Nat.eq_dec j b then colx cols b i else 0))).
    - rewrite (sumf_ext _ (fun j => (if Nat.eq_dec j a then colx cols a i else 0) + (-1) * (if Nat.eq_dec j b then colx cols b i else 0))) by (intros; lra).
      rewrite sumf_add, sumf_scal.
      assert (P : forall c n s, (s <= c < s + n)%nat -> forall x, sumf (fun j => if Nat.eq_dec j c then x else 0) (seq s n) = x).
      { intros c n. induction n as [|n IH]; intros s Hs x; [lia|]. cbn [seq sumf]. destruct (Nat.eq_dec s c) as [->|Hne].
        - rewrite (sumf_ext _ (fun _ => 0)); [rewrite (sumf_const 0); unfold len; lra|]. intros j Hj. apply in_seq in Hj. destruct (Nat.eq_dec j c); [lia|reflexivity].
        - rewrite IH by lia. lra. }
      rewrite !P by lia. rewrite (E i Hr). lra.
    - intros j Hj. apply in_seq in Hj. rewrite Nv by lia. destruct (Nat.eqb_spec j a), (Nat.eq_dec j a), (Nat.eqb_spec j b), (Nat.eq_dec j b); subst; try lia; try congruence; lra. }
  assert (X : nth a v 0 = 0) by (rewrite Hv; apply nth_repeat). rewrite Nv in X by lia. rewrite Nat.eqb_refl in X. lra.
Qed.
Lemma equal_cols_dep' (rows : list I) cols a b : (a < length cols)%nat -> (b < length cols)%nat -> a <> b ->
  (forall i, In i rows -> colx cols a i = colx cols b i) -> ~ indep rows cols.
Proof.
  intros Ha Hb N E. destruct (Nat.lt_ge_cases a b) as [H|H].
  - apply (equal_cols_dep rows cols a b); [lia|exact E].
  - apply (equal_cols_dep rows cols b a); [lia|]. intros i Hi. symmetry. auto.
Qed.
Lemma one_copy_dropped qr (rows : list I) cols a b : qr_ok qr -> (a < length cols)%nat -> (b < length cols)%nat -> a <> b ->
  (forall i, In i rows -> colx cols a i = colx cols b i) -> In a (qr rows cols) \/ In b (qr rows cols).
Proof.
  intros Hqr Ha Hb N E. destruct (Hqr rows cols) as [_ Hi]. set (kept := kept_cols (length cols) (qr rows cols)) in *.
  destruct (in_dec Nat.eq_dec a (qr rows cols)) as [|Na]; [now left|]. destruct (in_dec Nat.eq_dec b (qr rows cols)) as [|Nb]; [now right|]. exfalso.
  assert (Ka : In a kept) by (apply kept_cols_lt; easy). assert (Kb : In b kept) by (apply kept_cols_lt; easy).
  destruct (In_nth kept a O Ka) as (p & Hp & Ep). destruct (In_nth kept b O Kb) as (q & Hq & Eq).
  assert (Cx : forall m, (m < length kept)%nat -> colx (select_cols cols kept) m = colx cols (nth m kept O)).
  { intros m Hm. unfold select_cols, colx at 1. rewrite nth_indep with (d' := colx cols O) by (rewrite map_length; lia). now rewrite map_nth. }
  apply (equal_cols_dep' rows (select_cols cols kept) p q).
  - unfold select_cols. now rewrite map_length.
  - unfold select_cols. now rewrite map_length.
  - intros ->. congruence.
  - intros i Hr. rewrite !Cx by assumption. rewrite Ep, Eq. auto.
  - exact Hi.
Qed.
End Dep.

Section Fit.
Context {I K G : Type} (keq : forall x y : K, {x = y} + {x <> y}) (geq : forall x y : G, {x = y} + {x <> y}).
Variable qr : list I -> list (I -> R) -> list nat.
Variable lstsq : list I -> list (I -> R) -> (I -> R) -> list R.
Variable inv : list I -> list (I -> R) -> option (nat -> nat -> R).
Variable sf : option Z -> fl -> fl.
Variable ppf : option Z -> R -> R.
Hypothesis Hqr : qr_ok qr.
Hypothesis Hls : lstsq_ok lstsq.
Notation fit := (mp_fit keq geq qr lstsq inv sf ppf).
Notation lfit := (mp_fit_listed keq geq qr lstsq inv sf ppf).

Lemma combine_map_self {A B} (f : A -> B) l : combine l (map f l) = map (fun p => (p, f p)) l.
Proof. induction l as [|a l IH]; [reflexivity|]. cbn [map combine]. now rewrite IH. Qed.
Lemma nodup_skipn {A} n (l : list A) : NoDup l -> NoDup (skipn n l).
Proof. revert l. induction n as [|n IH]; intros [|x l] N; cbn; auto. inversion N; auto. Qed.
Lemma setup_nodup all post ref pre' post' ref' : NoDup all -> (forall l, post = Some l -> NoDup l) ->
  mp_setup all post ref = Ok (pre', post', ref') -> NoDup post'.
Proof.
  intros N Hp. unfold mp_setup, mp_periods. destruct post as [l|].
  - specialize (Hp l eq_refl). destruct l; [discriminate|]. destruct (filter _ all); [discriminate|]. destruct (negb _); [discriminate|].
    destruct ref as [r|]; [destruct (zmem r all); [|discriminate]|]; intros H; injection H as _ <- _; exact Hp.
  - assert (N2 : NoDup (skipn (Nat.div (length all) 2) all)) by (apply nodup_skipn; exact N).
    destruct (skipn _ all); [discriminate|]. destruct (firstn _ all); [discriminate|]. destruct (negb _); [discriminate|].
    destruct ref as [r|]; [destruct (zmem r all); [|discriminate]|]; intros H; injection H as _ <- _; exact N2.
Qed.

(* without repetitions the dictionaries change nothing *)
Theorem listed_once cfg rows y d t post ref covs dums absorb : (forall l, post = Some l -> NoDup l) ->
  lfit cfg rows y d t post ref covs dums absorb = fit cfg rows y d t post ref covs dums absorb.
Proof.
  intros Hp. unfold mp_fit_listed. destruct (fit _ _ _ _ _ _ _ _ _ _) as [r|] eqn:H; [|reflexivity]. cbn [bind]. f_equal.
  destruct (mp_fit_inv keq geq qr lstsq inv sf ppf cfg rows y d t post ref covs dums absorb r H) as (_ & S & y' & covs' & nabs & o & idxs & _ & _ & _ & _ & _ & _ & Ei & Ee & Ea).
  assert (N : NoDup (mp_post r)) by (eapply setup_nodup; [exact (data_periods_nodup rows t)|exact Hp|exact S]).
  unfold mp_read. change (zsort (nodup Z.eq_dec (map t rows))) with (data_periods rows t).
  rewrite <- (map_map (fun p => last_pos p (mp_post r)) (mp_index (data_periods rows t) (mp_ref r))), (last_pos_nodup _ N), <- Ei, <- Ee, <- Ea.
  rewrite pe_dict_nodup. { now destruct r. }
  destruct (effects_list keq geq qr lstsq inv sf ppf _ _ _ _ _ _ _ _ _ _ _ H) as [E _]. rewrite E. exact N.
Qed.

(* what is reported: every listed period once, read at its last column; the average counts a period as often as it is listed *)
Theorem listed_effects cfg rows y d t post ref covs dums absorb r :
  lfit cfg rows y d t post ref covs dums absorb = Ok r ->
  NoDup (map pe_period (mp_effects r)) /\ (forall p, In p (map pe_period (mp_effects r)) <-> In p (mp_post r)) /\
  (forall e, In e (mp_effects r) -> exists j, (j < length (mp_post r))%nat /\ nth j (mp_post r) 0%Z = pe_period e /\
     (forall j', (j' < length (mp_post r))%nat -> nth j' (mp_post r) 0%Z = pe_period e -> (j' <= j)%nat) /\
     pe_effect e = nth (mp_index (data_periods rows t) (mp_ref r) j) (mp_coef r) NaN) /\
  (forall x, (forall e, In e (mp_effects r) -> pe_effect e = Fin (x (pe_period e))) -> mp_avg r = Fin (meanf x (mp_post r))) /\
  ((exists e, In e (mp_effects r) /\ pe_effect e = NaN) -> mp_avg r = NaN /\ mp_avg_se r = NaN).
Proof.
  unfold mp_fit_listed. destruct (fit _ _ _ _ _ _ _ _ _ _) as [r0|] eqn:H; [|discriminate]. cbn [bind]. intros E. injection E as <-.
  change (zsort (nodup Z.eq_dec (map t rows))) with (data_periods rows t). set (all := data_periods rows t).
  destruct (mp_fit_inv keq geq qr lstsq inv sf ppf cfg rows y d t post ref covs dums absorb r0 H) as (_ & S & _).
  unfold mp_read. set (idxs := map (fun p => mp_index all (mp_ref r0) (last_pos p (mp_post r0))) (mp_post r0)).
  set (effs := map _ (combine (mp_post r0) idxs)).
  assert (CE : combine (mp_post r0) idxs = map (fun p => (p, mp_index all (mp_ref r0) (last_pos p (mp_post r0)))) (mp_post r0)).
  { unfold idxs. apply combine_map_self. }
  assert (EP : map pe_period effs = mp_post r0). { unfold effs. rewrite CE, !map_map. cbn. apply map_id. }
  assert (EV : map pe_effect effs = map (fun p => nth (mp_index all (mp_ref r0) (last_pos p (mp_post r0))) (mp_coef r0) NaN) (mp_post r0)). { unfold effs. now rewrite CE, !map_map. }
  assert (PN : mp_post r0 <> []). { destruct (mp_setup_ok _ _ _ _ _ _ S (data_periods_nodup rows t)) as (_ & X & _). exact X. }
  destruct (mp_average _ _ _ _ _ _ _) as [[[[av se] ts] pv] ci] eqn:EA.
  cbn [mp_effects mp_post mp_ref mp_coef mp_avg mp_avg_se].
  destruct (pe_dict_keys effs) as [D1 D2]. split; [exact D1|]. split; [intros p; rewrite D2, EP; tauto|].
  assert (DF : forall e, In e (pe_dict effs) -> In (pe_period e) (mp_post r0) /\ pe_effect e = nth (mp_index all (mp_ref r0) (last_pos (pe_period e) (mp_post r0))) (mp_coef r0) NaN).
  { intros e He. apply pe_dict_from in He. unfold effs in He. rewrite CE, map_map in He. apply in_map_iff in He as (p & <- & Hp). cbn. auto. }
  split; [|split].
  - intros e He. destruct (DF e He) as [Hp Hv]. exists (last_pos (pe_period e) (mp_post r0)).
    split; [apply last_pos_lt; exact Hp|]. split; [apply last_pos_nth; exact Hp|]. split; [|exact Hv]. intros j' Hj' Ej'. now apply last_pos_last.
  - intros x Hx. assert (E1 : map pe_effect effs = map Fin (map x (mp_post r0))).
    { rewrite EV, map_map. apply map_ext_in. intros p Hp. assert (Hk : In p (map pe_period (pe_dict effs))) by (apply D2; rewrite EP; exact Hp).
      apply in_map_iff in Hk as (e & Ee & He). destruct (DF e He) as [_ Hv]. rewrite (Hx e He), Ee in Hv. congruence. }
    unfold mp_average in EA. rewrite E1 in EA.
    assert (NN : existsb fisnan (map Fin (map x (mp_post r0))) = false) by (clear; induction (map x (mp_post r0)); cbn; auto).
    rewrite NN in EA. assert (M : fmean (map Fin (map x (mp_post r0))) = Fin (meanf x (mp_post r0))).
    { rewrite fmean_fin by (destruct (mp_post r0); [congruence|discriminate]). f_equal. unfold meanf, len, idR. now rewrite sumf_map, map_length. }
    rewrite M in EA. destruct (fisnan _ || flt _ _) in EA; [injection EA; congruence|]. destruct (fgt _ _) in EA; injection EA; congruence.
  - intros (e & He & Hn). assert (X : existsb fisnan (map pe_effect effs) = true).
    { apply existsb_exists. exists NaN. split; [|reflexivity]. rewrite <- Hn. apply in_map. now apply pe_dict_from. }
    unfold mp_average in EA. rewrite X in EA. injection EA; auto.
Qed.

(* the columns of two copies of a period *)
Lemma listed_col d t all post ref (extra : list (I -> R)) j : (j < length post)%nat ->
  (mp_index all ref j < length (mp_design d t all post ref extra))%nat /\
  forall i, colx (mp_design d t all post ref extra) (mp_index all ref j) i = d i * at_period t (nth j post 0%Z) i.
Proof.
  intros Hj. split; [unfold mp_index, mp_design; rewrite !app_length, !map_length; cbn [length]; lia|].
  intros i. unfold colx, mp_design, mp_index. set (f := filter _ all).
  rewrite app_assoc. rewrite app_nth2 by (rewrite app_length, map_length; cbn [length]; lia).
  rewrite app_length, map_length. cbn [length]. replace (2 + length f + j - (2 + length f))%nat with j by lia.
  rewrite app_nth1 by (rewrite map_length; exact Hj).
  rewrite nth_indep with (d' := (fun p i => d i * at_period t p i) 0%Z) by (rewrite map_length; exact Hj). now rewrite (map_nth (fun p i => d i * at_period t p i)).
Qed.

(* a period listed twice: one of its two coefficients is undefined *)
Theorem listed_twice cfg rows y d t post ref covs dums absorb r a b :
  lfit cfg rows y d t post ref covs dums absorb = Ok r -> (a < length (mp_post r))%nat -> (b < length (mp_post r))%nat -> a <> b ->
  nth a (mp_post r) 0%Z = nth b (mp_post r) 0%Z ->
  nth (mp_index (data_periods rows t) (mp_ref r) a) (mp_coef r) NaN = NaN \/
  nth (mp_index (data_periods rows t) (mp_ref r) b) (mp_coef r) NaN = NaN.
Proof.
  unfold mp_fit_listed. destruct (fit _ _ _ _ _ _ _ _ _ _) as [r0|] eqn:H; [|discriminate]. cbn [bind]. intros E. injection E as <-.
  destruct (mp_fit_inv keq geq qr lstsq inv sf ppf cfg rows y d t post ref covs dums absorb r0 H) as (_ & _ & y' & covs' & nabs & o & idxs & _ & Ho & Hc & _).
  assert (X : mp_post (mp_read sf ppf (c_alpha cfg) (zsort (nodup Z.eq_dec (map t rows))) r0) = mp_post r0 /\
              mp_ref (mp_read sf ppf (c_alpha cfg) (zsort (nodup Z.eq_dec (map t rows))) r0) = mp_ref r0 /\
              mp_coef (mp_read sf ppf (c_alpha cfg) (zsort (nodup Z.eq_dec (map t rows))) r0) = mp_coef r0).
  { unfold mp_read. destruct (mp_average _ _ _ _ _ _ _) as [[[[av se] ts] pv] ci]. auto. }
  destruct X as (-> & -> & ->). intros Ha Hb Hne Eab. rewrite Hc.
  destruct (solve_ols_nan_exactly_dropped keq qr lstsq inv Hls _ _ _ _ _ _ _ Ho) as (_ & HN & _).
  set (cols := mp_design d t (data_periods rows t) (mp_post r0) (mp_ref r0) (covs' ++ dums)) in *.
  destruct (listed_col d t (data_periods rows t) (mp_post r0) (mp_ref r0) (covs' ++ dums) a Ha) as [La Ca].
  destruct (listed_col d t (data_periods rows t) (mp_post r0) (mp_ref r0) (covs' ++ dums) b Hb) as [Lb Cb]. fold cols in La, Ca, Lb, Cb.
  destruct (one_copy_dropped qr rows cols _ _ Hqr La Lb) as [X|X].
  - unfold mp_index. lia.
  - intros i _. rewrite Ca, Cb, Eab. reflexivity.
  - left. apply HN; [exact La|exact X].
  - right. apply HN; [exact Lb|exact X].
Qed.

(* rank_deficient_action = 'error' refuses a list with a repetition *)
Theorem listed_twice_error cfg rows y d t l ref covs dums absorb : c_action cfg = "error"%string -> ~ NoDup l ->
  lfit cfg rows y d t (Some l) ref covs dums absorb = Err ValueError.
Proof.
  intros Ha Hn. unfold mp_fit_listed, mp_fit. change (zsort (nodup Z.eq_dec (map t rows))) with (data_periods rows t).
  destruct (negb _); [reflexivity|]. destruct (negb _); [reflexivity|]. destruct (Nat.ltb _ 2); [reflexivity|].
  destruct (mp_setup _ _ _) as [[[pre po] rf]|x] eqn:Es; cbn [bind].
  2:{ unfold mp_setup in Es. destruct (mp_periods _ _) as [pre po]. destruct po; [congruence|]. destruct pre; [congruence|]. destruct (negb _); [congruence|].
      destruct ref as [r|]; [|discriminate]. destruct (zmem r _); congruence. }
  destruct (mp_setup_ok _ _ _ _ _ _ Es (data_periods_nodup rows t)) as (_ & _ & _ & _ & _ & _ & _ & _ & El). rewrite (El l eq_refl) in *. clear El Es po.
  destruct (absorb_loop geq rows absorb y covs) as [[y' covs'] nabs]. rewrite Ha.
  rewrite (solve_ols_error_action keq qr lstsq inv); [reflexivity|]. intros Hq. apply Hn. apply (NoDup_nth l 0%Z). intros a b La Lb Eab.
  destruct (Nat.eq_dec a b) as [|N]; [assumption|exfalso].
  destruct (listed_col d t (data_periods rows t) l rf (covs' ++ dums) a La) as [Ca Ea].
  destruct (listed_col d t (data_periods rows t) l rf (covs' ++ dums) b Lb) as [Cb Eb].
  destruct (one_copy_dropped qr rows _ _ _ Hqr Ca Cb) as [X|X].
  - unfold mp_index. lia.
  - intros i _. rewrite Ea, Eb, Eab. reflexivity.
  - rewrite Hq in X. destruct X.
  - rewrite Hq in X. destruct X.
Qed.
End Fit.

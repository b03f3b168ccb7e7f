(* MultiPeriodDiD.fit: theorems about the returned result. *)
From Verif Require Import Prelude Flt Linalg_model Linalg_proofs Linalg_vcov Linalg_thms Did_model Did_spec Did_proofs Did_equiv Did_more
  Within_proofs Boot_model Boot_proofs Multi_model Multi_proofs.
From Coq Require Import Arith ZArith String List.
Import ListNotations.
Open Scope R_scope.

(* ---- periods ---- *)
Definition data_periods {I} (rows : list I) (t : I -> Z) : list Z := zsort (nodup Z.eq_dec (map t rows)).

Lemma data_periods_in {I} (rows : list I) (t : I -> Z) p : In p (data_periods rows t) <-> exists i, In i rows /\ t i = p.
Proof.
  unfold data_periods. rewrite zsort_In, nodup_In, in_map_iff. split; intros (i & H1 & H2); exists i; auto.
Qed.
Lemma data_periods_nodup {I} (rows : list I) (t : I -> Z) : NoDup (data_periods rows t).
Proof. apply zsort_NoDup, NoDup_nodup. Qed.
Lemma data_periods_occ {I} (rows : list I) (t : I -> Z) p : In p (data_periods rows t) -> period_rows rows t p <> [].
Proof.
  intros H. apply data_periods_in in H as (i & Hi & <-). intros E.
  assert (K : In i (period_rows rows t (t i))) by (unfold period_rows; apply filter_In; split; auto; apply Z.eqb_refl).
  rewrite E in K. destruct K.
Qed.

Lemma nodup_app_r {A} (l1 l2 : list A) : NoDup (l1 ++ l2) -> NoDup l2.
Proof. induction l1; simpl; auto. intros H; inversion H; auto. Qed.
Lemma nodup_app_disj {A} (l1 l2 : list A) : NoDup (l1 ++ l2) -> forall p, In p l1 -> In p l2 -> False.
Proof.
  induction l1 as [|a l1 IH]; simpl; intros Hn p [] Hq; inversion Hn; subst; auto.
  - apply H2. apply in_or_app; auto.
  - eapply IH; eauto.
Qed.

Lemma mp_setup_ok all post ref pre post' ref' : mp_setup all post ref = Ok (pre, post', ref') -> NoDup all ->
  pre <> [] /\ post' <> [] /\ incl post' all /\ In ref' all /\
  (forall p, In p pre <-> In p all /\ ~ In p post') /\
  (ref = None -> hd_error pre = Some ref') /\ (forall r, ref = Some r -> ref' = r) /\
  (post = None -> NoDup post' /\ pre ++ post' = all) /\ (forall l, post = Some l -> post' = l).
Proof.
  unfold mp_setup. destruct (mp_periods all post) as [pr po] eqn:E. intros H Hnd.
  destruct po as [|q0 po]; [discriminate|]. destruct pr as [|p0 pr]; [discriminate|].
  destruct (forallb (fun p => zmem p all) (q0 :: po)) eqn:Ef; [|discriminate]. cbn [negb] in H.
  rewrite forallb_forall in Ef.
  assert (Hincl : incl (q0 :: po) all) by (intros p Hp; apply zmem_In; auto).
  assert (Hpre : (forall p, In p (p0 :: pr) <-> In p all /\ ~ In p (q0 :: po)) /\
                 (post = None -> NoDup (q0 :: po) /\ (p0 :: pr) ++ q0 :: po = all) /\
                 (forall l, post = Some l -> q0 :: po = l)).
  { unfold mp_periods in E. destruct post as [l|]; injection E as E1 E2.
    - rewrite <- E2 in *. split; [|split; [discriminate|congruence]].
      intros p. rewrite <- E1, filter_In, Bool.negb_true_iff, zmem_false. reflexivity.
    - assert (Es : (p0 :: pr) ++ q0 :: po = all) by (rewrite <- E1, <- E2; apply firstn_skipn).
      split; [|split; [|discriminate]].
      + intros p. rewrite <- Es, in_app_iff. split; [|tauto]. intros Hp. split; auto.
        intros Hq. rewrite <- Es in Hnd. exact (nodup_app_disj _ _ Hnd p Hp Hq).
      + intros _. split; auto. rewrite <- Es in Hnd. exact (nodup_app_r _ _ Hnd). }
  destruct Hpre as (Hp1 & Hp2 & Hp3).
  assert (p0 :: pr <> []) by discriminate. assert (q0 :: po <> []) by discriminate.
  destruct ref as [r|].
  - destruct (zmem r all) eqn:Er; [|discriminate]. injection H as <- <- <-. apply zmem_In in Er.
    refine (conj H0 (conj H1 (conj Hincl (conj Er (conj Hp1 (conj _ (conj _ (conj Hp2 Hp3)))))))); [discriminate|congruence].
  - injection H as <- <- <-.
    refine (conj H0 (conj H1 (conj Hincl (conj _ (conj Hp1 (conj _ (conj _ (conj Hp2 Hp3)))))))); [|auto|discriminate].
    apply Hp1; left; auto.
Qed.

(* default split: both halves are non-empty *)
Lemma mp_default_ok all : (2 <= length all)%nat ->
  exists pre post p0, mp_setup all None None = Ok (pre, post, p0) /\ pre ++ post = all /\
    length pre = Nat.div (length all) 2.
Proof.
  intros H. unfold mp_setup, mp_periods.
  set (k := Nat.div (length all) 2).
  assert (Hk : (1 <= k /\ k < length all)%nat).
  { unfold k. split; [apply (Nat.div_le_lower_bound _ 2 1); lia|apply Nat.div_lt; lia]. }
  assert (L1 : length (firstn k all) = k) by (rewrite firstn_length; lia).
  assert (L2 : length (skipn k all) = (length all - k)%nat) by apply skipn_length.
  pose proof (firstn_skipn k all) as Es.
  destruct (firstn k all) as [|p0 pre] eqn:E1; [simpl in L1; lia|].
  destruct (skipn k all) as [|q0 post] eqn:E2; [simpl in L2; lia|].
  assert (Ef : forallb (fun p => zmem p all) (q0 :: post) = true).
  { apply forallb_forall. intros p Hp. apply zmem_In. rewrite <- Es. apply in_or_app; auto. }
  rewrite Ef. cbn [negb]. exists (p0 :: pre), (q0 :: post), p0. auto.
Qed.

Lemma filter_len_le {A} (f : A -> bool) l : (length (filter f l) <= length l)%nat.
Proof. induction l as [|x l IH]; simpl; auto. destruct (f x); simpl; lia. Qed.
Lemma finite_positions_fin (b : list R) : finite_positions (map Fin b) = seq 0 (length b).
Proof.
  unfold finite_positions. rewrite map_length.
  assert (G : forall l, (forall j, In j l -> (j < length b)%nat) ->
     filter (fun j => negb (fisnan (nth j (map Fin b) NaN))) l = l).
  { induction l as [|x l IH]; intros H; simpl; auto.
    rewrite nth_indep with (d' := Fin 0) by (rewrite map_length; apply H; left; auto).
    rewrite map_nth. simpl. f_equal. apply IH. intros j Hj; apply H; right; auto. }
  apply G. intros j Hj. apply in_seq in Hj. lia.
Qed.
Lemma select_all {I} (cols : list (I -> R)) : select_cols cols (seq 0 (length cols)) = cols.
Proof. symmetry. apply (list_as_map cols). Qed.

(* ---- the average ---- *)
Section Avg.
Variable sf : option Z -> fl -> fl.
Variable ppf : option Z -> R -> R.

Lemma existsb_nan l : existsb fisnan l = true <-> In NaN l.
Proof.
  rewrite existsb_exists. split.
  - intros (x & Hx & E). destruct x; try discriminate; auto.
  - intros H. exists NaN. auto.
Qed.
Lemma existsb_fin l : existsb fisnan (map Fin l) = false.
Proof. induction l; simpl; auto. Qed.

Lemma fmean_fin (l : list R) : l <> [] -> fmean (map Fin l) = Fin (meanf idR l).
Proof.
  intros H. unfold fmean. destruct (map Fin l) eqn:E; [destruct l; [congruence|discriminate]|]. rewrite <- E.
  rewrite fsum_fin, len_map. apply len_pos in H. unfold fdiv.
  destruct (Req_EM_T (len l) 0) as [Z0|_]; [lra|]. reflexivity.
Qed.

Theorem mp_average_nan alpha df effs V idxs : In NaN effs ->
  mp_average sf ppf alpha df effs V idxs = (NaN, NaN, NaN, NaN, (NaN, NaN)).
Proof. intros H. unfold mp_average. apply existsb_nan in H. rewrite H. reflexivity. Qed.

(* delta method: the variance of the mean of the effects under the joint covariance v *)
Theorem mp_average_fin alpha df (es : list R) (v : nat -> nat -> R) (V : nat -> nat -> fl) idxs :
  es <> [] -> length idxs = length es ->
  (forall a b, In a idxs -> In b idxs -> V a b = Fin (v a b)) ->
  let var := sumf (fun a => sumf (fun b => v a b) idxs) idxs / (len es * len es) in
  let avg := meanf idR es in
  let se := sqrt var in
  mp_average sf ppf alpha df (map Fin es) V idxs =
  if Rlt_dec var 0 then (Fin avg, NaN, NaN, NaN, (NaN, NaN))
  else if Rlt_dec 0 se then
    (Fin avg, Fin se, Fin (avg / se), u_p_value sf (Fin (avg / se)) (Some df), u_ci ppf (Fin avg) (Fin se) alpha (Some df))
  else (Fin avg, Fin se, NaN, NaN, (NaN, NaN)).
Proof.
  intros Hne Hlen HV var avg se. unfold mp_average. rewrite existsb_fin, (fmean_fin es Hne). fold avg.
  assert (E1 : fsum (map (fun a => fsum (map (fun b => V a b) idxs)) idxs)
             = Fin (sumf (fun a => sumf (fun b => v a b) idxs) idxs)).
  { rewrite (map_ext_in _ (fun a => Fin (sumf (fun b => v a b) idxs))).
    - rewrite <- (map_map (fun a => sumf (fun b => v a b) idxs) Fin), fsum_fin.
      rewrite sumf_map. reflexivity.
    - intros a Ha. rewrite (map_ext_in _ (fun b => Fin (v a b))) by (intros; apply HV; auto).
      rewrite <- (map_map (fun b => v a b) Fin), fsum_fin, sumf_map. reflexivity. }
  rewrite E1. apply len_pos in Hne.
  replace (INR (length idxs)) with (len es) by (unfold len; rewrite Hlen; reflexivity).
  assert (EV : fdiv (Fin (sumf (fun a => sumf (fun b => v a b) idxs) idxs)) (Fin (len es * len es)) = Fin var).
  { unfold fdiv. destruct (Req_EM_T (len es * len es) 0) as [Z0|_]; [nra|]. reflexivity. }
  rewrite EV. cbv zeta. cbn [fisnan orb]. simpl flt. unfold Rltb.
  destruct (Rlt_dec var 0) as [Hv|Hv]; [reflexivity|].
  rewrite (sqrt_fin var) by lra. fold se. unfold fgt. simpl flt. unfold Rltb.
  destruct (Rlt_dec 0 se) as [Hs|Hs]; [|reflexivity].
  unfold fdiv. destruct (Req_EM_T se 0) as [Z0|_]; [lra|]. reflexivity.
Qed.
End Avg.

Section Thms.
Context {I K G : Type} (keq : forall x y : K, {x = y} + {x <> y}) (geq : forall x y : G, {x = y} + {x <> y}).
Variable qr : list I -> list (I -> R) -> list nat.
Variable lstsq : list I -> list (I -> R) -> (I -> R) -> list R.
Variable inv : list I -> list (I -> R) -> option (nat -> nat -> R).
Variable sf : option Z -> fl -> fl.
Variable ppf : option Z -> R -> R.
Hypothesis Hqr : qr_ok qr.
Hypothesis Hls : lstsq_ok lstsq.
Hypothesis Hinv : inv_ok inv.
Notation fit := (mp_fit keq geq qr lstsq inv sf ppf).

Lemma binary_fin_zero_one (rows : list I) (d : I -> R) : binary rows (fun i => Fin (d i)) = true -> zero_one rows d.
Proof.
  intros H i Hi. unfold binary in H. rewrite forallb_forall in H. specialize (H i Hi). simpl in H.
  apply Bool.orb_true_iff in H as [H|H]; apply Reqb_true in H; auto.
Qed.

Lemma mp_fit_inv cfg rows y d t post ref covs dums absorb r :
  fit cfg rows y d t post ref covs dums absorb = Ok r ->
  zero_one rows d /\
  mp_setup (data_periods rows t) post ref = Ok (mp_pre r, mp_post r, mp_ref r) /\
  exists y' covs' nabs o idxs,
    absorb_loop geq rows absorb y covs = (y', covs', nabs) /\
    solve_ols keq qr lstsq inv rows (mp_design d t (data_periods rows t) (mp_post r) (mp_ref r) (covs' ++ dums)) y'
      (c_cluster cfg) true (c_action cfg) = Ok o /\
    mp_coef r = o_coef o /\ mp_resid r = o_resid o /\
    (c_robust cfg = true \/ c_cluster cfg <> None -> o_vcov o = Some (mp_vcov r)) /\
    mp_df r = (Z.of_nat (length rows) - n_effective (o_coef o) - nabs)%Z /\
    idxs = map (mp_index (data_periods rows t) (mp_ref r)) (seq 0 (length (mp_post r))) /\
    mp_effects r = map (fun pj => mp_effect sf ppf (c_alpha cfg) (mp_df r) (mp_coef r) (mp_vcov r) (fst pj) (snd pj)) (combine (mp_post r) idxs) /\
    (mp_avg r, mp_avg_se r, mp_avg_t r, mp_avg_p r, mp_avg_ci r)
      = mp_average sf ppf (c_alpha cfg) (mp_df r) (map pe_effect (mp_effects r)) (mp_vcov r) idxs.
Proof.
  unfold mp_fit. fold (data_periods rows t).
  destruct (two_values _ _); [|discriminate]. cbn [negb].
  destruct (binary _ _) eqn:Eb; [|discriminate]. cbn [negb].
  destruct (Nat.ltb _ 2); [discriminate|].
  destruct (mp_setup _ _ _) as [[[pre po] rf]|] eqn:Es; [|discriminate]. cbn [bind].
  destruct (absorb_loop geq rows absorb y covs) as [[y' covs'] nabs].
  destruct (solve_ols _ _ _ _ _ _ _ _ _ _) as [o|] eqn:Eo; [|discriminate]. cbn [bind].
  match goal with |- bind ?x _ = _ -> _ => destruct x as [V|] eqn:EV end; [|discriminate]. cbn [bind].
  match goal with |- context [mp_average ?a ?b ?c ?dd ?e ?f ?g] => destruct (mp_average a b c dd e f g) as [[[[av se] ts] pv] ci] eqn:Ea end.
  intros H. injection H as <-. cbn [mp_pre mp_post mp_ref mp_coef mp_resid mp_vcov mp_df mp_effects mp_avg mp_avg_se mp_avg_t mp_avg_p mp_avg_ci].
  split; [apply binary_fin_zero_one; auto|]. split; [reflexivity|].
  exists y', covs', nabs, o, (map (mp_index (data_periods rows t) rf) (seq 0 (length po))).
  split; [reflexivity|]. split; [exact Eo|]. split; [reflexivity|]. split; [reflexivity|].
  split. { intros Hc. revert EV. destruct (c_robust cfg), (c_cluster cfg); simpl; destruct (o_vcov o); try congruence.
    all: destruct Hc as [Hc|Hc]; congruence. }
  split; [reflexivity|]. split; [reflexivity|]. split; [reflexivity|]. symmetry. exact Ea.
Qed.

Lemma combine_idx {B} (l : list Z) (f : nat -> B) :
  combine l (map f (seq 0 (length l))) = map (fun j => (nth j l 0%Z, f j)) (seq 0 (length l)).
Proof.
  revert f. induction l as [|x l IH]; intros f; simpl; [reflexivity|]. f_equal.
  rewrite <- seq_shift, !map_map. rewrite (IH (fun j => f (S j))). reflexivity.
Qed.
Lemma map_nth_seq {B} (l : list Z) (f : Z -> B) : map (fun j => f (nth j l 0%Z)) (seq 0 (length l)) = map f l.
Proof. transitivity (map f (map (fun j => nth j l 0%Z) (seq 0 (length l)))); [rewrite map_map; reflexivity|]. rewrite <- list_as_map. reflexivity. Qed.

Lemma effects_list cfg rows y d t post ref covs dums absorb r :
  fit cfg rows y d t post ref covs dums absorb = Ok r ->
  map pe_period (mp_effects r) = mp_post r /\
  map pe_effect (mp_effects r)
    = map (fun j => nth (mp_index (data_periods rows t) (mp_ref r) j) (mp_coef r) NaN) (seq 0 (length (mp_post r))).
Proof.
  intros H. destruct (mp_fit_inv _ _ _ _ _ _ _ _ _ _ _ H) as (_ & _ & y' & covs' & nabs & o & idxs & _ & _ & _ & _ & _ & _ & -> & -> & _).
  rewrite combine_idx, !map_map. split.
  - exact (eq_trans (map_nth_seq (mp_post r) (fun p => p)) (map_id _)).
  - reflexivity.
Qed.

(* what is needed for identification, in terms of the data *)
Definition identified (rows : list I) (d : I -> R) (t : I -> Z) (post : list Z) : Prop :=
  NoDup post /\
  (forall p, In p post -> mcell rows d t 0 p <> [] /\ mcell rows d t 1 p <> []) /\
  sumf (fun i => dev rows d t i * dev rows d t i) (pre_rows rows t post) <> 0.

Definition effect_formula (rows : list I) (d : I -> R) (t : I -> Z) (post : list Z) (y : I -> R) (p : Z) : R :=
  mmean rows d t y 1 p - mmean rows d t y 0 p - pre_gap rows d t post y.

Theorem mp_period_effects cfg rows y d t post ref absorb r :
  fit cfg rows y d t post ref [] [] absorb = Ok r ->
  identified rows d t (mp_post r) ->
  let y' := fst (fst (absorb_loop geq rows absorb y [])) in
  map pe_effect (mp_effects r) = map (fun p => Fin (effect_formula rows d t (mp_post r) y' p)) (mp_post r).
Proof.
  intros H (Hn & Hc & Hs) yy. destruct (effects_list _ _ _ _ _ _ _ _ _ _ _ H) as [_ ->].
  destruct (mp_fit_inv _ _ _ _ _ _ _ _ _ _ _ H) as (Hd & Hset & y' & covs' & nabs & o & idxs & Ha & Ho & Hco & _).
  destruct (mp_setup_ok _ _ _ _ _ _ Hset (data_periods_nodup rows t)) as (_ & _ & Hincl & Href & _).
  assert (E0 : covs' = []).
  { clear - Ha. revert y y' covs' nabs Ha. induction absorb as [|g gs IH]; intros y y' covs' nabs Ha; simpl in Ha.
    - injection Ha as _ <- _; auto.
    - destruct (absorb_loop geq rows gs _ _) as [[y1 c1] n1] eqn:E. injection Ha as _ <- _. eapply IH; eauto. }
  subst covs'. simpl app in Ho.
  assert (Ey : yy = y') by (unfold yy; rewrite Ha; reflexivity). clearbody yy. subst yy.
  assert (Hall : forall i, In i rows -> In (t i) (data_periods rows t)) by (intros i Hi; apply data_periods_in; eauto).
  pose proof (mp_indep rows d t (data_periods rows t) (mp_post r) (mp_ref r) Hd Hall
    (data_periods_occ rows t) (data_periods_nodup rows t) Hn Hincl Href Hc Hs) as Hi.
  destruct (solve_ols_full_rank keq qr lstsq inv Hqr Hls _ _ _ _ _ _ _ Hi Ho) as (b & Eb & Lb & Hb).
  pose proof (proj2 (Hb b) eq_refl) as Hb'.
  destruct (coef_shape d t _ _ _ b Lb) as (b0 & dl & ga & ta & Es & Lg & Lt).
  rewrite Es in Hb'. rewrite Hco, Eb, Es.
  rewrite <- (map_nth_seq (mp_post r) (fun p => Fin (effect_formula rows d t (mp_post r) y' p))).
  apply map_ext_in. intros j Hj. apply in_seq in Hj. destruct Hj as [_ Hj]. simpl in Hj.
  assert (Hp : In (nth j (mp_post r) 0%Z) (mp_post r)) by (apply nth_In; auto).
  unfold effect_formula.
  destruct (Hc _ Hp) as [C0 C1].
  rewrite <- (ls_effect rows d t (data_periods rows t) (mp_post r) (mp_ref r) Hd Hall
    (data_periods_occ rows t) (data_periods_nodup rows t) Hn Hincl Href y' b0 dl ga ta Lg Lt Hb' _ Hp C0 C1 Hs).
  rewrite (coefat_nth (mp_post r) ta j Hn Lt Hj).
  unfold mp_index. rewrite !map_app.
  rewrite app_nth2 by (rewrite map_length; simpl; lia).
  rewrite app_nth2 by (rewrite !map_length, Lg; simpl; lia).
  rewrite !map_length, Lg. simpl length.
  match goal with |- nth ?k _ _ = _ => replace k with j by lia end.
  rewrite nth_indep with (d' := Fin 0) by (rewrite map_length; lia). rewrite map_nth. reflexivity.
Qed.

(* the average *)
Theorem mp_avg_is_mean cfg rows y d t post ref covs dums absorb r :
  fit cfg rows y d t post ref covs dums absorb = Ok r ->
  (In NaN (map pe_effect (mp_effects r)) ->
     mp_avg r = NaN /\ mp_avg_se r = NaN /\ mp_avg_t r = NaN /\ mp_avg_p r = NaN /\ mp_avg_ci r = (NaN, NaN)) /\
  (forall es, map pe_effect (mp_effects r) = map Fin es -> mp_avg r = Fin (meanf idR es)).
Proof.
  intros H. destruct (mp_fit_inv _ _ _ _ _ _ _ _ _ _ _ H) as (_ & Hset & y' & covs' & nabs & o & idxs & _ & _ & _ & _ & _ & _ & Ei & _ & Hav).
  split.
  - intros Hn. rewrite mp_average_nan in Hav by auto. injection Hav as -> -> -> -> ->. auto.
  - intros es E. rewrite E in Hav. unfold mp_average in Hav. rewrite existsb_fin in Hav.
    assert (Hne : es <> []).
    { intros ->. destruct (effects_list _ _ _ _ _ _ _ _ _ _ _ H) as [Ep _].
      destruct (mp_effects r); [|discriminate]. simpl in Ep.
      destruct (mp_setup_ok _ _ _ _ _ _ Hset (data_periods_nodup rows t)) as (_ & Hp & _). congruence. }
    rewrite (fmean_fin es Hne) in Hav.
    match type of Hav with _ = (if ?c then _ else _) => destruct c end; [congruence|].
    match type of Hav with _ = (if ?c then _ else _) => destruct c end; congruence.
Qed.

Lemma mp_index_inj all ref n : NoDup (map (mp_index all ref) (seq 0 n)).
Proof.
  apply FinFun.Injective_map_NoDup; [|apply seq_NoDup]. intros a b E. unfold mp_index in E. lia.
Qed.

(* full rank, sandwich variance: the standard error of the average is the delta-method one and
   it is never undefined *)
Theorem mp_avg_se_delta cfg rows y d t post ref absorb r :
  fit cfg rows y d t post ref [] [] absorb = Ok r ->
  identified rows d t (mp_post r) -> (c_robust cfg = true \/ c_cluster cfg <> None) ->
  let idxs := map (mp_index (data_periods rows t) (mp_ref r)) (seq 0 (length (mp_post r))) in
  exists v : nat -> nat -> R,
    (forall a b, mp_vcov r a b = Fin (v a b)) /\
    0 <= sumf (fun a => sumf (fun b => v a b) idxs) idxs /\
    mp_avg_se r = Fin (sqrt (sumf (fun a => sumf (fun b => v a b) idxs) idxs / (len (mp_post r) * len (mp_post r)))) /\
    (forall j, (j < length (mp_post r))%nat ->
       let a := nth j idxs O in
       pe_se (nth j (mp_effects r) (mp_effect sf ppf 0 0 [] (fun _ _ => NaN) 0 0)) = Fin (sqrt (v a a)) /\ 0 <= v a a).
Proof.
  intros H Hid Hrob idxs. destruct Hid as (Hn & Hc & Hs).
  pose proof (mp_period_effects _ _ _ _ _ _ _ _ _ H (conj Hn (conj Hc Hs))) as Heff. cbv zeta in Heff.
  destruct (mp_fit_inv _ _ _ _ _ _ _ _ _ _ _ H) as (Hd & Hset & y' & covs' & nabs & o & idxs' & Ha & Ho & Hco & _ & HV & _ & Ei & Ee & Hav).
  fold idxs in Ei. subst idxs'.
  destruct (mp_setup_ok _ _ _ _ _ _ Hset (data_periods_nodup rows t)) as (_ & Hpne & Hincl & Href & _).
  assert (E0 : covs' = []).
  { clear - Ha. revert y y' covs' nabs Ha. induction absorb as [|g gs IH]; intros y y' covs' nabs Ha; simpl in Ha.
    - injection Ha as _ <- _; auto.
    - destruct (absorb_loop geq rows gs _ _) as [[y1 c1] n1] eqn:E. injection Ha as _ <- _. eapply IH; eauto. }
  subst covs'. simpl app in Ho.
  assert (Hall : forall i, In i rows -> In (t i) (data_periods rows t)) by (intros i Hi; apply data_periods_in; eauto).
  pose proof (mp_indep rows d t (data_periods rows t) (mp_post r) (mp_ref r) Hd Hall
    (data_periods_occ rows t) (data_periods_nodup rows t) Hn Hincl Href Hc Hs) as Hi.
  set (cols := mp_design d t (data_periods rows t) (mp_post r) (mp_ref r) []) in *.
  (* full rank: nothing is dropped *)
  specialize (HV Hrob).
  assert (Hshape : exists v e, robust_vcov keq inv rows cols e (c_cluster cfg) = Ok v /\ (length cols <= length rows)%nat /\
             mp_vcov r = fun a b => Fin (v a b)).
  { pose proof Ho as Ho0. unfold solve_ols in Ho. destruct (Nat.ltb (length rows) (length cols)) eqn:El; [discriminate|].
    apply Nat.ltb_ge in El. destruct (parse_action (c_action cfg)); [|discriminate].
    assert (Eq : qr rows cols = []).
    { destruct (solve_ols_full_rank keq qr lstsq inv Hqr Hls rows cols y' (c_cluster cfg) true (c_action cfg) o Hi Ho0) as (b & Eb & Lb & _).
      destruct (solve_ols_nan_exactly_dropped keq qr lstsq inv Hls rows cols y' (c_cluster cfg) true (c_action cfg) o Ho0) as (_ & Hd' & _).
        destruct (qr rows cols) as [|j q] eqn:Eq; auto. exfalso.
          destruct (Hqr rows cols) as [Hq _]. rewrite Eq in Hq. destruct (Hq j (or_introl eq_refl)) as [Hj _].
          assert (Hnan : nth j (o_coef o) NaN = NaN) by (apply Hd'; auto; left; auto).
          rewrite Eb in Hnan. rewrite nth_indep with (d' := Fin 0) in Hnan by (rewrite map_length; lia).
          rewrite map_nth in Hnan. discriminate. }
    rewrite Eq in Ho.
    destruct (robust_vcov keq inv rows cols _ (c_cluster cfg)) as [v|] eqn:Ev; [|discriminate]. cbn [bind] in Ho.
    injection Ho as <-. cbn [o_vcov] in HV. injection HV as HV. exists v. eexists. split; [exact Ev|]. split; auto. }
  destruct Hshape as (v & e & Ev & El & EV).
  assert (Hpsd : 0 <= sumf (fun a => sumf (fun b => v a b) idxs) idxs).
  { pose proof (robust_vcov_psd keq inv Hinv rows cols e (c_cluster cfg) v El Ev
      (fun a => if in_dec Nat.eq_dec a idxs then 1 else 0)) as P.
    assert (Hbound : forall a, In a idxs -> In a (seq 0 (length cols))).
    { intros a Ha'. unfold idxs in Ha'. apply in_map_iff in Ha' as (j & <- & Hj). apply in_seq in Hj. apply in_seq.
      unfold cols, mp_design, mp_index. rewrite app_nil_r, !app_length, !map_length. simpl length. lia. }
    assert (Hsel : forall f : nat -> R, sumf (fun a => (if in_dec Nat.eq_dec a idxs then 1 else 0) * f a) (seq 0 (length cols)) = sumf f idxs).
    { intros f. rewrite (sumf_ext_all _ (fun a => ind (if in_dec Nat.eq_dec a idxs then true else false) * f a))
        by (intros a; destruct (in_dec Nat.eq_dec a idxs); reflexivity).
      rewrite <- sumf_filter. apply sumf_perm. apply NoDup_Permutation.
      - apply NoDup_filter, seq_NoDup.
      - apply mp_index_inj.
      - intros a. rewrite filter_In. destruct (in_dec Nat.eq_dec a idxs); split; intros; [tauto|split; auto|destruct H0; discriminate|contradiction]. }
    eapply Rle_trans; [exact P|]. right.
    etransitivity; [|exact (Hsel (fun a => sumf (fun b => v a b) idxs))].
    apply sumf_ext_all. intros a. rewrite <- (Hsel (fun b => v a b)).
    rewrite <- sumf_scal. apply sumf_ext_all. intros b. ring. }
  exists v. split; [intros a b; rewrite EV; reflexivity|]. split; [exact Hpsd|]. split.
  - rewrite Heff in Hav.
    rewrite <- (map_map (fun p => effect_formula rows d t (mp_post r) _ p) Fin) in Hav.
    rewrite (mp_average_fin sf ppf (c_alpha cfg) (mp_df r) _ v (mp_vcov r) idxs) in Hav.
    + cbv zeta in Hav. rewrite len_map in Hav.
      destruct (Rlt_dec (sumf (fun a => sumf (fun b => v a b) idxs) idxs / (len (mp_post r) * len (mp_post r))) 0) as [Hl|_].
      * exfalso. assert (0 < len (mp_post r)) by (apply len_pos; auto).
        assert (0 <= sumf (fun a => sumf (fun b => v a b) idxs) idxs / (len (mp_post r) * len (mp_post r))); [|lra].
        apply Rmult_le_pos; auto. left. apply Rinv_0_lt_compat. nra.
      * destruct (Rlt_dec 0 _); injection Hav; auto.
    + destruct (mp_post r); [congruence|discriminate].
    + unfold idxs. rewrite !map_length, seq_length. reflexivity.
    + intros a b _ _. rewrite EV. reflexivity.
  - intros j Hj a. split.
    + rewrite Ee, combine_idx || (rewrite Ee; unfold idxs; rewrite combine_idx). 
      rewrite map_map. rewrite nth_map_seq by auto. cbn [mp_effect pe_se fst snd].
      unfold a, idxs. rewrite nth_map_seq by auto. rewrite EV.
      apply sqrt_fin. apply (robust_vcov_diag_nonneg keq inv Hinv rows cols e (c_cluster cfg) v El Ev).
    + apply (robust_vcov_diag_nonneg keq inv Hinv rows cols e (c_cluster cfg) v El Ev).
Qed.

(* the reference period does not matter, whatever it is *)
Theorem mp_reference_irrelevant cfg cfg' rows y d t post ref ref' absorb r r' :
  fit cfg rows y d t post ref [] [] absorb = Ok r ->
  fit cfg' rows y d t post ref' [] [] absorb = Ok r' ->
  identified rows d t (mp_post r) ->
  mp_post r' = mp_post r /\ mp_pre r' = mp_pre r /\
  map pe_effect (mp_effects r') = map pe_effect (mp_effects r) /\ mp_avg r' = mp_avg r.
Proof.
  intros H H' Hid.
  destruct (mp_fit_inv _ _ _ _ _ _ _ _ _ _ _ H) as (_ & S & _).
  destruct (mp_fit_inv _ _ _ _ _ _ _ _ _ _ _ H') as (_ & S' & _).
  assert (E : mp_post r' = mp_post r /\ mp_pre r' = mp_pre r).
  { unfold mp_setup in S, S'. destruct (mp_periods _ post) as [pr po]. destruct po; [discriminate|]. destruct pr; [discriminate|].
    destruct (negb _); [discriminate|].
    destruct ref as [x|]; [destruct (zmem x _); [|discriminate]|];
      (destruct ref' as [x'|]; [destruct (zmem x' _); [|discriminate]|]);
      split; congruence. }
  destruct E as [E1 E2]. split; auto. split; auto.
  pose proof (mp_period_effects _ _ _ _ _ _ _ _ _ H Hid) as P. cbv zeta in P.
  assert (Hid' : identified rows d t (mp_post r')) by (rewrite E1; auto).
  pose proof (mp_period_effects _ _ _ _ _ _ _ _ _ H' Hid') as P'. cbv zeta in P'. rewrite E1 in P'.
  split; [congruence|].
  rewrite <- (map_map (fun p => effect_formula rows d t (mp_post r) (fst (fst (absorb_loop geq rows absorb y []))) p) Fin) in P, P'.
  rewrite (proj2 (mp_avg_is_mean _ _ _ _ _ _ _ _ _ _ _ H) _ P), (proj2 (mp_avg_is_mean _ _ _ _ _ _ _ _ _ _ _ H') _ P'). reflexivity.
Qed.

(* one pre-period: the gap is the raw difference of the two pre cells *)
Lemma one_pre_gap (rows : list I) (d : I -> R) (t : I -> Z) post (y : I -> R) q : zero_one rows d ->
  (forall i, In i rows -> ~ In (t i) post -> t i = q) -> ~ In q post ->
  mcell rows d t 0 q <> [] -> mcell rows d t 1 q <> [] ->
  sumf (fun i => dev rows d t i * dev rows d t i) (pre_rows rows t post) <> 0 /\
  pre_gap rows d t post y = mmean rows d t y 1 q - mmean rows d t y 0 q.
Proof.
  intros Hd Hq Hnq H0 H1.
  assert (Er : pre_rows rows t post = period_rows rows t q).
  { unfold pre_rows, period_rows. apply filter_ext_in. intros i Hi.
    destruct (zmem (t i) post) eqn:E; simpl; symmetry.
    - apply zmem_In in E. apply Z.eqb_neq. congruence.
    - apply zmem_false in E. apply Z.eqb_eq. auto. }
  set (A := period_rows rows t q) in *.
  assert (Hd' : forall i, In i A -> d i = 0 \/ d i = 1) by (intros i Hi; apply filter_In in Hi; apply Hd; tauto).
  assert (S1 : forall f : I -> R, sumf f (mcell rows d t 1 q) = sumf (fun i => d i * f i) A).
  { intros f. rewrite (mcell_sum rows d t Hd f 1 q) by auto. rewrite Reqb_refl. reflexivity. }
  assert (S0 : forall f : I -> R, sumf f (mcell rows d t 0 q) = sumf (fun i => (1 - d i) * f i) A).
  { intros f. rewrite (mcell_sum rows d t Hd f 0 q) by auto. rewrite Reqb_01. reflexivity. }
  set (n1 := len (mcell rows d t 1 q)). set (n0 := len (mcell rows d t 0 q)).
  assert (P1 : 0 < n1) by (apply len_pos; auto). assert (P0 : 0 < n0) by (apply len_pos; auto).
  assert (N1 : sumf d A = n1).
  { unfold n1. replace (len (mcell rows d t 1 q)) with (sumf (fun _ => 1) (mcell rows d t 1 q)) by (rewrite sumf_const; ring).
    rewrite S1. apply sumf_ext_all; intros; ring. }
  assert (N0 : len A = n1 + n0).
  { rewrite <- N1. unfold n0. replace (len (mcell rows d t 0 q)) with (sumf (fun _ => 1) (mcell rows d t 0 q)) by (rewrite sumf_const; ring).
    rewrite S0, <- sumf_add. rewrite (sumf_ext_all _ (fun _ => 1)) by (intros; ring). rewrite sumf_const. ring. }
  set (m := meanf d A).
  assert (Hm : m = n1 / (n1 + n0)) by (unfold m, meanf; rewrite N1, N0; reflexivity).
  assert (Hdev : forall i, In i A -> dev rows d t i = d i - m).
  { intros i Hi. unfold dev, m. apply filter_In in Hi as [_ Hi]. apply Z.eqb_eq in Hi. rewrite Hi. reflexivity. }
  assert (Den : sumf (fun i => dev rows d t i * dev rows d t i) A = n1 * n0 / (n1 + n0)).
  { rewrite (sumf_ext _ (fun i => (1 - 2 * m) * d i + m * m)).
    - rewrite sumf_add, sumf_scal, sumf_const, N1, N0, Hm. field. lra.
    - intros i Hi. rewrite (Hdev i Hi). destruct (Hd' i Hi) as [->| ->]; ring. }
  assert (Num : sumf (fun i => dev rows d t i * y i) A
       = n1 * n0 / (n1 + n0) * (mmean rows d t y 1 q - mmean rows d t y 0 q)).
  { assert (Y1 : sumf (fun i => d i * y i) A = n1 * mmean rows d t y 1 q) by (rewrite <- S1; apply sumf_meanf; auto).
    assert (Y0 : sumf (fun i => (1 - d i) * y i) A = n0 * mmean rows d t y 0 q) by (rewrite <- S0; apply sumf_meanf; auto).
    rewrite (sumf_ext _ (fun i => (1 - m) * (d i * y i) - m * ((1 - d i) * y i))).
    - rewrite sumf_sub, !sumf_scal, Y1, Y0, Hm. field. lra.
    - intros i Hi. rewrite (Hdev i Hi). ring. }
  assert (Pos : 0 < n1 * n0 / (n1 + n0)).
  { apply Rmult_lt_0_compat; [nra|]. apply Rinv_0_lt_compat. lra. }
  rewrite Er. split; [rewrite Den; lra|]. unfold pre_gap. rewrite Er, Num, Den. field. repeat split; lra.
Qed.

Theorem mp_one_pre_period cfg rows y d t post ref r q :
  fit cfg rows y d t post ref [] [] [] = Ok r -> mp_pre r = [q] -> NoDup (mp_post r) ->
  (forall p, In p (q :: mp_post r) -> mcell rows d t 0 p <> [] /\ mcell rows d t 1 p <> []) ->
  map pe_effect (mp_effects r) =
  map (fun p => Fin ((mmean rows d t y 1 p - mmean rows d t y 1 q) - (mmean rows d t y 0 p - mmean rows d t y 0 q))) (mp_post r).
Proof.
  intros H Hq Hn Hc.
  destruct (mp_fit_inv _ _ _ _ _ _ _ _ _ _ _ H) as (Hd & S & _).
  destruct (mp_setup_ok _ _ _ _ _ _ S (data_periods_nodup rows t)) as (_ & _ & _ & _ & Hpre & _).
  rewrite Hq in Hpre.
  assert (Hq1 : ~ In q (mp_post r)) by (apply (Hpre q); left; auto).
  assert (Hq2 : forall i, In i rows -> ~ In (t i) (mp_post r) -> t i = q).
  { intros i Hi Hni. destruct (proj2 (Hpre (t i))) as [E|[]]; auto. split; auto. apply data_periods_in. eauto. }
  destruct (Hc q (or_introl eq_refl)) as [Q0 Q1].
  destruct (one_pre_gap rows d t (mp_post r) y q Hd Hq2 Hq1 Q0 Q1) as [Hs Hg].
  rewrite (mp_period_effects _ _ _ _ _ _ _ _ _ H (conj Hn (conj (fun p Hp => Hc p (or_intror Hp)) Hs))).
  apply map_ext. intros p. unfold effect_formula. simpl fst. rewrite Hg. f_equal. ring.
Qed.

(* parallel trends: every period effect is recovered exactly *)
Theorem mp_exact_recovery cfg rows y d t post ref r (g : R) (lam tau : Z -> R) :
  fit cfg rows y d t post ref [] [] [] = Ok r -> identified rows d t (mp_post r) ->
  (forall i, In i rows -> y i = lam (t i) + g * d i + (if zmem (t i) (mp_post r) then tau (t i) * d i else 0)) ->
  map pe_effect (mp_effects r) = map (fun p => Fin (tau p)) (mp_post r).
Proof.
  intros H Hid Hy. rewrite (mp_period_effects _ _ _ _ _ _ _ _ _ H Hid). cbv zeta. simpl fst.
  destruct (mp_fit_inv _ _ _ _ _ _ _ _ _ _ _ H) as (Hd & S & _).
  destruct (mp_setup_ok _ _ _ _ _ _ S (data_periods_nodup rows t)) as (_ & _ & Hincl & Href & _).
  destruct Hid as (Hn & Hc & Hs).
  assert (Hall : forall i, In i rows -> In (t i) (data_periods rows t)) by (intros i Hi; apply data_periods_in; eauto).
  assert (Eg : pre_gap rows d t (mp_post r) y = g).
  { unfold pre_gap.
    rewrite (sumf_ext (fun i => dev rows d t i * y i) (fun i => dev rows d t i * lam (t i) + g * (dev rows d t i * d i))).
    - rewrite sumf_add, sumf_scal.
      rewrite (pre_dev_const rows d t (data_periods rows t) (mp_post r) 0%Z Hall (data_periods_occ rows t) (data_periods_nodup rows t) 0 [] lam).
      rewrite (pre_dev_d rows d t (data_periods rows t) (mp_post r) 0%Z Hall (data_periods_occ rows t) (data_periods_nodup rows t) 0 []).
      field. auto.
    - intros i Hi. apply filter_In in Hi as [Hi Hz]. apply Bool.negb_true_iff in Hz. rewrite (Hy i Hi), Hz. ring. }
  apply map_ext_in. intros p Hp. f_equal. unfold effect_formula. rewrite Eg.
  destruct (Hc p Hp) as [C0 C1]. apply zmem_In in Hp.
  assert (M : forall a, mcell rows d t a p <> [] -> mmean rows d t y a p = lam p + g * a + tau p * a).
  { intros a Ha. unfold mmean. rewrite <- (meanf_const (lam p + g * a + tau p * a) (mcell rows d t a p) Ha).
    apply meanf_ext. intros i Hi. apply filter_In in Hi as [Hi E]. apply andb_prop in E as [E1 E2].
    apply Reqb_true in E1. apply Z.eqb_eq in E2. rewrite (Hy i Hi), E1, E2, Hp. ring. }
  rewrite !M by auto. ring.
Qed.

(* sufficient conditions for fit to return *)
Theorem mp_fit_defined cfg rows y d t post ref pre' post' ref' :
  zero_one rows d -> mp_setup (data_periods rows t) post ref = Ok (pre', post', ref') ->
  identified rows d t post' ->
  (1 + length (data_periods rows t) + length post' < length rows)%nat ->
  (match c_cluster cfg with None => True | Some cl => (2 <= length (cl_keys keq rows cl))%nat end) ->
  parse_action (c_action cfg) <> None ->
  exists r, fit cfg rows y d t post ref [] [] [] = Ok r /\ mp_pre r = pre' /\ mp_post r = post' /\ mp_ref r = ref'.
Proof.
  intros Hd Hset Hid Hlt Hcl Ha. destruct Hid as (Hn & Hc & Hs).
  destruct (mp_setup_ok _ _ _ _ _ _ Hset (data_periods_nodup rows t)) as (Hpre & Hpne & Hincl & Href & Hpp & _).
  assert (Hall : forall i, In i rows -> In (t i) (data_periods rows t)) by (intros i Hi; apply data_periods_in; eauto).
  pose proof (mp_indep rows d t (data_periods rows t) post' ref' Hd Hall
    (data_periods_occ rows t) (data_periods_nodup rows t) Hn Hincl Href Hc Hs) as Hi.
  set (cols := mp_design d t (data_periods rows t) post' ref' []) in *.
  assert (Lc : (length cols < length rows)%nat).
  { unfold cols, mp_design. rewrite app_nil_r, !app_length, !map_length. simpl length.
    assert (length (filter (fun p => negb (Z.eqb p ref')) (data_periods rows t)) < length (data_periods rows t))%nat; [|lia].
    clear - Href. induction (data_periods rows t) as [|x l IH]; simpl in *; [destruct Href|].
    destruct (Z.eqb x ref') eqn:E; simpl.
    - pose proof (filter_len_le (fun p => negb (Z.eqb p ref')) l). lia.
    - apply Z.eqb_neq in E. destruct Href as [|Hr]; [congruence|]. specialize (IH Hr). lia. }
  assert (T2 : two_values rows (fun i => Fin (d i)) = true).
  { destruct post' as [|p ps]; [congruence|]. destruct (Hc p (or_introl eq_refl)) as [C0 C1].
    destruct (mcell rows d t 0 p) as [|i l] eqn:E0; [congruence|]. destruct (mcell rows d t 1 p) as [|j l'] eqn:E1; [congruence|].
    assert (Hii : In i (mcell rows d t 0 p)) by (rewrite E0; left; auto).
    assert (Hjj : In j (mcell rows d t 1 p)) by (rewrite E1; left; auto).
    apply filter_In in Hii as [Hii Ei]. apply filter_In in Hjj as [Hjj Ej].
    apply andb_prop in Ei as [Ei _]. apply andb_prop in Ej as [Ej _]. apply Reqb_true in Ei. apply Reqb_true in Ej.
    unfold two_values. apply existsb_exists. exists i. split; auto. apply existsb_exists. exists j. split; auto.
    simpl. rewrite Ei, Ej, Reqb_01. reflexivity. }
  assert (B2 : binary rows (fun i => Fin (d i)) = true).
  { unfold binary. apply forallb_forall. intros i Hii. simpl.
    destruct (Hd i Hii) as [->| ->]; rewrite ?Reqb_refl; auto. apply Bool.orb_true_r. }
  assert (L2 : Nat.ltb (length (data_periods rows t)) 2 = false).
  { apply Nat.ltb_ge. destruct pre' as [|p pr]; [congruence|]. destruct post' as [|q po]; [congruence|].
    assert (NoDup [p; q]).
    { constructor; [|constructor; [intros []|constructor]]. intros [<-|[]].
      apply (proj1 (Hpp q) (or_introl eq_refl)). left; auto. }
    apply (NoDup_incl_length (l := [p; q])); auto. intros x [<-|[<-|[]]]; [apply Hpp; left; auto|apply Hincl; left; auto]. }
  assert (HB : exists B, inv rows cols = Some B).
  { destruct (inv rows cols) as [B|] eqn:EB; [eauto|]. pose proof (Hinv rows cols) as K0. rewrite EB in K0. contradiction. }
  destruct HB as [B HB].
  assert (HO : exists o, solve_ols keq qr lstsq inv rows cols y (c_cluster cfg) true (c_action cfg) = Ok o /\
     o_coef o = map Fin (lstsq rows cols y) /\ exists V, o_vcov o = Some V).
  { unfold solve_ols. rewrite (proj2 (Nat.ltb_ge _ _)) by lia. destruct (parse_action (c_action cfg)) as [act|]; [|congruence].
    rewrite (qr_indep_none qr rows cols Hqr Hi).
    unfold robust_vcov. destruct (c_cluster cfg) as [cl|].
    - rewrite (proj2 (Nat.ltb_ge _ 2)) by lia. rewrite (proj2 (Nat.eqb_neq _ _)) by lia. rewrite HB. cbn [bind].
      eexists. split; [reflexivity|]. cbn [o_coef o_vcov]. eauto.
    - rewrite (proj2 (Nat.eqb_neq _ _)) by lia. rewrite HB. cbn [bind].
      eexists. split; [reflexivity|]. cbn [o_coef o_vcov]. eauto. }
  destruct HO as (o & Ho & Hco & V & HV).
  assert (HK : finite_positions (o_coef o) = seq 0 (length cols)).
  { rewrite Hco, finite_positions_fin. f_equal. apply Hls. }
  unfold mp_fit. fold (data_periods rows t). rewrite T2, B2. cbn [negb]. rewrite L2, Hset. cbn [bind].
  cbn [absorb_loop app]. fold cols. rewrite Ho. cbn [bind].
  assert (HC : exists W, (if negb (c_robust cfg) && (match c_cluster cfg with None => true | _ => false end)
               then mp_classical inv rows cols (o_coef o) (o_resid o)
               else match o_vcov o with Some V => Ok V | None => Err TypeError end) = Ok W).
  { destruct (negb (c_robust cfg) && _).
    - unfold mp_classical. rewrite HK. rewrite select_all, HB. eauto.
    - rewrite HV. eauto. }
  destruct HC as [W HW]. rewrite HW. cbn [bind].
  match goal with |- context [mp_average ?a ?b ?c ?dd ?e ?f ?g] => destruct (mp_average a b c dd e f g) as [[[[av se] ts] pv] ci] end.
  eexists. split; [reflexivity|]. auto.
Qed.

(* a column that vanishes on the sample cannot be kept *)
Lemma indep_no_zero rows (cols : list (I -> R)) j : indep rows cols -> (j < length cols)%nat ->
  ~ (forall i, In i rows -> colx cols j i = 0).
Proof.
  intros Hi Hj Hz.
  set (a := map (fun k => if Nat.eq_dec k j then 1 else 0) (seq 0 (length cols))).
  assert (La : length a = length cols) by (unfold a; rewrite map_length, seq_length; auto).
  assert (E : a = repeat 0 (length cols)).
  { apply Hi; auto. intros i Hii. rewrite (lc_index cols a i La).
    apply sumf_zero. intros k Hk. apply in_seq in Hk. unfold a.
    rewrite nth_map_seq by lia. destruct (Nat.eq_dec k j) as [->|N]; [rewrite (Hz i Hii)|]; ring. }
  assert (K0 : nth j a 0 = nth j (repeat 0 (length cols)) 0) by (rewrite E; reflexivity).
  rewrite nth_repeat in K0. unfold a in K0. rewrite nth_map_seq in K0 by auto.
  destruct (Nat.eq_dec j j); [lra|congruence].
Qed.

Lemma qr_drops_zero rows (cols : list (I -> R)) j : (j < length cols)%nat ->
  (forall i, In i rows -> colx cols j i = 0) -> In j (qr rows cols).
Proof.
  intros Hj Hz. destruct (in_dec Nat.eq_dec j (qr rows cols)) as [|N]; auto. exfalso.
  destruct (Hqr rows cols) as [_ Hi]. set (kept := kept_cols (length cols) (qr rows cols)) in *.
  assert (Hk : In j kept) by (apply kept_cols_lt; auto).
  destruct (In_nth _ _ 0%nat Hk) as (p & Hp & Ep).
  apply (indep_no_zero rows (select_cols cols kept) p Hi).
  - unfold select_cols. rewrite map_length. auto.
  - intros i Hii. unfold colx, select_cols.
    rewrite nth_indep with (d' := colx cols 0%nat) by (rewrite map_length; auto). rewrite map_nth, Ep. auto.
Qed.

(* a post period without treated rows: its effect, and hence the average, is NaN - whatever
   the covariates, dummies and absorbed effects *)
Theorem mp_no_treated_rows_nan cfg rows y d t post ref covs dums absorb r j :
  fit cfg rows y d t post ref covs dums absorb = Ok r ->
  (j < length (mp_post r))%nat ->
  mcell rows d t 1 (nth j (mp_post r) 0%Z) = [] ->
  nth j (map pe_effect (mp_effects r)) (Fin 0) = NaN /\ mp_avg r = NaN /\ mp_avg_se r = NaN /\ mp_avg_p r = NaN.
Proof.
  intros H Hj Hc.
  assert (Hnan : nth j (map pe_effect (mp_effects r)) (Fin 0) = NaN).
  { destruct (effects_list _ _ _ _ _ _ _ _ _ _ _ H) as [_ ->]. rewrite nth_map_seq by auto.
    destruct (mp_fit_inv _ _ _ _ _ _ _ _ _ _ _ H) as (Hd & Hset & y' & covs' & nabs & o & idxs & Ha & Ho & Hco & _).
    destruct (solve_ols_nan_exactly_dropped keq qr lstsq inv Hls _ _ _ _ _ _ _ Ho) as (_ & Hn & _).
    rewrite Hco.
    set (cols := mp_design d t (data_periods rows t) (mp_post r) (mp_ref r) (covs' ++ dums)) in *.
    assert (Lj : (mp_index (data_periods rows t) (mp_ref r) j < length cols)%nat).
    { unfold cols, mp_design, mp_index. rewrite !app_length, !map_length. simpl length. lia. }
    apply Hn; auto. apply qr_drops_zero; auto.
    intros i Hi. unfold colx, cols, mp_design, mp_index.
    rewrite app_nth2 by (simpl; lia). rewrite app_nth2 by (rewrite map_length; simpl; lia).
    rewrite map_length. rewrite app_nth1 by (rewrite map_length; simpl; lia).
    match goal with |- nth ?k _ _ _ = _ => replace k with j by (simpl; lia) end.
    rewrite nth_indep with (d' := (fun p i => d i * at_period t p i) 0%Z) by (rewrite map_length; auto).
    rewrite (map_nth (fun p i => d i * at_period t p i)). unfold at_period.
    destruct (Z.eqb (t i) (nth j (mp_post r) 0%Z)) eqn:E; simpl ind; [|ring].
    destruct (Hd i Hi) as [E1|E1]; [rewrite E1; ring|]. exfalso.
    assert (In i (mcell rows d t 1 (nth j (mp_post r) 0%Z))) as K0.
    { unfold mcell. apply filter_In. split; auto. rewrite E1, E, Reqb_refl. reflexivity. }
    rewrite Hc in K0. destruct K0. }
  split; auto.
  assert (Hin : In NaN (map pe_effect (mp_effects r))).
  { rewrite <- Hnan. apply nth_In. destruct (effects_list _ _ _ _ _ _ _ _ _ _ _ H) as [_ ->].
    rewrite map_length, seq_length. auto. }
  destruct (proj1 (mp_avg_is_mean _ _ _ _ _ _ _ _ _ _ _ H) Hin) as (-> & -> & _ & -> & _). auto.
Qed.

Theorem mp_periods_thm cfg rows y d t post ref covs dums absorb r :
  fit cfg rows y d t post ref covs dums absorb = Ok r ->
  map pe_period (mp_effects r) = mp_post r /\ mp_pre r <> [] /\ mp_post r <> [] /\
  (forall p, In p (mp_pre r) <-> (exists i, In i rows /\ t i = p) /\ ~ In p (mp_post r)) /\
  (forall p, In p (mp_post r) -> exists i, In i rows /\ t i = p) /\
  (post = None -> mp_pre r ++ mp_post r = data_periods rows t /\
                  length (mp_pre r) = Nat.div (length (data_periods rows t)) 2) /\
  (forall l, post = Some l -> mp_post r = l) /\ (forall p, ref = Some p -> mp_ref r = p) /\
  (ref = None -> hd_error (mp_pre r) = Some (mp_ref r)).
Proof.
  intros H. destruct (effects_list _ _ _ _ _ _ _ _ _ _ _ H) as [E _].
  destruct (mp_fit_inv _ _ _ _ _ _ _ _ _ _ _ H) as (_ & S & _).
  destruct (mp_setup_ok _ _ _ _ _ _ S (data_periods_nodup rows t)) as (A1 & A2 & A3 & A4 & A5 & A6 & A7 & A8 & A9).
  refine (conj E (conj A1 (conj A2 (conj _ (conj _ (conj _ (conj A9 (conj A7 A6)))))))).
  - intros p. rewrite A5, data_periods_in. tauto.
  - intros p Hp. apply data_periods_in. apply A3. auto.
  - intros ->. destruct (A8 eq_refl) as [_ Eq]. split; auto.
    unfold mp_setup, mp_periods in S.
    destruct (skipn _ _) eqn:E2; [discriminate|].
    remember (firstn (Nat.div (length (data_periods rows t)) 2) (data_periods rows t)) as f eqn:Ef.
    destruct f as [|x f]; [discriminate|]. destruct (negb _); [discriminate|].
    assert (Em : mp_pre r = x :: f) by (destruct ref as [q|]; [destruct (zmem q _)|]; congruence).
    rewrite Em, Ef, firstn_length, Nat.min_l; auto. apply Nat.div_le_upper_bound; lia.
Qed.
End Thms.

(* a concrete panel: three periods, two treated and two control rows in each *)
Definition exm_d (i : nat) : R := INR (i mod 2).
Definition exm_t (i : nat) : Z := Z.of_nat (i / 4).
Definition exm_cfg (robust : bool) (cl : option (nat -> nat)) : did_config nat nat :=
  {| c_robust := robust; c_cluster := cl; c_alpha := 1/20; c_action := "warn"%string |}.
Definition exm_fit := mp_fit Nat.eq_dec Nat.eq_dec (@gs_dropped nat) (@gs nat) (@gs_inv nat) toy_sf toy_ppf.

Lemma exm_cells p : In p [0; 1; 2]%Z ->
  mcell (seq 0 12) exm_d exm_t 0 p <> [] /\ mcell (seq 0 12) exm_d exm_t 1 p <> [].
Proof.
  assert (G : forall a q k, In k (seq 0 12) -> exm_d k = a -> exm_t k = q -> mcell (seq 0 12) exm_d exm_t a q <> []).
  { intros a q k Hk <- <- E. assert (In k (mcell (seq 0 12) exm_d exm_t (exm_d k) (exm_t k))) as K.
    { unfold mcell. apply filter_In. split; auto. rewrite Reqb_refl, Z.eqb_refl. reflexivity. }
    rewrite E in K. destruct K. }
  intros [<-|[<-|[<-|[]]]]; split.
  - apply (G 0 0%Z 0%nat); [apply in_seq; lia|reflexivity|reflexivity].
  - apply (G 1 0%Z 1%nat); [apply in_seq; lia|reflexivity|reflexivity].
  - apply (G 0 1%Z 4%nat); [apply in_seq; lia|reflexivity|reflexivity].
  - apply (G 1 1%Z 5%nat); [apply in_seq; lia|reflexivity|reflexivity].
  - apply (G 0 2%Z 8%nat); [apply in_seq; lia|reflexivity|reflexivity].
  - apply (G 1 2%Z 9%nat); [apply in_seq; lia|reflexivity|reflexivity].
Qed.

Theorem exm_fit_ok robust y :
  exists r, exm_fit (exm_cfg robust None) (seq 0 12) y exm_d exm_t None None [] [] [] = Ok r /\
    mp_pre r = [0]%Z /\ mp_post r = [1; 2]%Z /\ identified (seq 0 12) exm_d exm_t (mp_post r).
Proof.
  assert (Hd : zero_one (seq 0 12) exm_d) by (intros i _; apply mod2_01).
  assert (Hid : identified (seq 0 12) exm_d exm_t [1; 2]%Z).
  { split; [repeat constructor; simpl; intuition discriminate|]. split.
    - intros p Hp. apply exm_cells. right. exact Hp.
    - apply (one_pre_gap (seq 0 12) exm_d exm_t [1; 2]%Z (fun _ => 0) 0%Z Hd).
      + intros i Hi Hn. apply in_seq in Hi. simpl in Hi.
        do 12 (destruct i as [|i]; [first [reflexivity | exfalso; apply Hn; unfold exm_t; simpl; tauto]|]). lia.
      + intros [K|[K|[]]]; discriminate.
      + apply exm_cells; left; auto.
      + apply exm_cells; left; auto. }
  destruct (mp_fit_defined Nat.eq_dec Nat.eq_dec (@gs_dropped nat) (@gs nat) (@gs_inv nat) toy_sf toy_ppf gs_dropped_ok gs_ok gs_inv_ok
     (exm_cfg robust None) (seq 0 12) y exm_d exm_t None None [0]%Z [1; 2]%Z 0%Z) as (r & Hr & E1 & E2 & E3); auto.
  - replace (data_periods (seq 0 12) exm_t) with [0; 1; 2]%Z by reflexivity. simpl. lia.
  - exact Logic.I.
  - discriminate.
  - exists r. rewrite E2. auto.
Qed.

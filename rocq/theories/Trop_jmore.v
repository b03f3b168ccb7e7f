(* TROP method="joint": period effects, criterion, missing treated outcomes, tuning, resampling, adoption check. *)
From Verif Require Import Prelude Flt Stats_model Stats_proofs Linalg_model Linalg_proofs Linalg_minnorm Multi_model Trop_model Trop_proofs Trop_thms Trop_conv Trop_rec Trop_obj Trop_sel Trop_rows Trop_ex Trop_joint Trop_jproofs Trop_jfit Trop_jthms.
From Coq Require Import Arith ZArith String List FunctionalExtensionality Permutation.
Import ListNotations.
Open Scope R_scope.

(* ------------------------------------------------------------------------------------------- *)
(* the adoption check *)
Lemma first_filter (q : nat -> bool) n : forall a, match filter q (seq a n) with
  | [] => forall z, (a <= z < a + n)%nat -> q z = false
  | x :: _ => (a <= x < a + n)%nat /\ q x = true /\ forall z, (a <= z < x)%nat -> q z = false end.
Proof.
  induction n as [|n IH]; intros a; [cbn; intros; lia|]. cbn [seq filter]. destruct (q a) eqn:E; [split; [lia|]; split; [easy|intros; lia]|].
  specialize (IH (S a)). destruct (filter q (seq (S a) n)) as [|x l].
  - intros z Hz. destruct (Nat.eq_dec z a) as [->|]; [easy|]. apply IH. lia.
  - destruct IH as (A & B & C). split; [lia|]. split; [easy|]. intros z Hz. destruct (Nat.eq_dec z a) as [->|]; [easy|]. apply C. lia.
Qed.
Definition first_at (T : nat) (D : dmat) (miss : nat -> nat -> bool) (i t : nat) : Prop :=
  (t < T)%nat /\ miss t i = false /\ D t i = 1%Z /\ forall s, (s < t)%nat -> miss s i = false -> D s i <> 1%Z.
Lemma first_obs_in T D miss i t : In t (first_obs T D miss i) <-> first_at T D miss i t.
Proof.
  unfold first_obs. assert (F := first_filter (fun t => negb (miss t i) && (D t i =? 1)%Z) T 0).
  destruct (filter _ (seq 0 T)) as [|x l]; cbn [firstn].
  - split; [easy|]. intros (Ht & Hm & HD & _). specialize (F t ltac:(lia)). rewrite Hm, HD in F. easy.
  - destruct F as (A & B & C). apply andb_prop in B. destruct B as [B1 B2]. apply negb_true_iff in B1. apply Z.eqb_eq in B2. split.
    + intros [<-|[]]. split; [lia|]. split; [easy|]. split; [easy|]. intros s Hs Hm HD. specialize (C s ltac:(lia)). rewrite Hm, HD in C. easy.
    + intros (Ht & Hm & HD & Hs). left. destruct (Nat.lt_trichotomy x t) as [L|[L|L]]; [|easy|].
      * now destruct (Hs x L B1).
      * specialize (C t ltac:(lia)). rewrite Hm, HD in C. easy.
Qed.
Lemma starts_in T N D miss t : In t (starts T N D miss) <-> exists i, (i < N)%nat /\ first_at T D miss i t.
Proof.
  unfold starts. rewrite nodup_In, in_flat_map. split.
  - intros (i & Hi & Ht). apply filter_In in Hi. destruct Hi as [Hi _]. apply in_seq in Hi. exists i. split; [lia|]. now apply first_obs_in.
  - intros (i & Hi & Ht). exists i. split; [|now apply first_obs_in]. apply filter_In. split; [apply in_seq; lia|]. apply ever_true. destruct Ht as (A & _ & B & _). eauto.
Qed.
(* accepted exactly when the panel checks pass and all treated units share their first observed treated period *)
Theorem check_joint_iff T N D miss : check_joint T N D miss = TOk tt <->
  check_panel T N D miss = TOk tt /\ forall i j s t, (i < N)%nat -> (j < N)%nat -> first_at T D miss i s -> first_at T D miss j t -> s = t.
Proof.
  unfold check_joint. destruct (check_panel T N D miss) as [[]|e] eqn:E; [|split; [easy|intros [X _]; easy]].
  assert (Nd : NoDup (starts T N D miss)) by apply NoDup_nodup.
  destruct (1 <? length (starts T N D miss))%nat eqn:El; split; intros H; try easy.
  - exfalso. destruct H as [_ H]. apply Nat.ltb_lt in El. destruct (starts T N D miss) as [|a [|b l]] eqn:Es; cbn [length] in El; try lia.
    assert (Ha : In a (starts T N D miss)) by (rewrite Es; now left). assert (Hb : In b (starts T N D miss)) by (rewrite Es; right; now left).
    apply starts_in in Ha, Hb. destruct Ha as (i & Hi & Ha), Hb as (j & Hj & Hb). specialize (H i j a b Hi Hj Ha Hb). subst b. inversion Nd. subst. apply H1. now left.
  - split; [easy|]. intros i j s t Hi Hj Hs Ht. apply Nat.ltb_ge in El.
    assert (Is : In s (starts T N D miss)) by (apply starts_in; eauto). assert (It : In t (starts T N D miss)) by (apply starts_in; eauto).
    destruct (starts T N D miss) as [|a [|b l]]; cbn [length] in El; try lia; [easy|]. destruct Is as [<-|[]], It as [<-|[]]. easy.
Qed.
(* on a complete panel the treated cells are then exactly (treated unit, period from the adoption on) *)
Theorem joint_block T N D miss : check_joint T N D miss = TOk tt -> dpanel T N D -> (forall t i, miss t i = false) ->
  forall t i, (t < T)%nat -> (i < N)%nat -> D t i = if ever T D i && (first_treat T N D <=? t)%nat then 1%Z else 0%Z.
Proof.
  intros Hc Hd Hm t i Ht Hi. assert (Hk := check_joint_ok T N D miss Hc). destruct Hk as (_ & (t1 & i1 & Ht1 & Hi1 & E1) & _).
  apply check_joint_iff in Hc. destruct Hc as [Hp Hs]. apply check_panel_iff in Hp. destruct Hp as (Hab & _).
  destruct (first_treat_hit T N D t1 i1 Ht1 Hi1 E1) as (F0 & k & Hk & Ek). set (f := first_treat T N D) in *.
  assert (Fk : first_at T D miss k f). { split; [easy|]. split; [apply Hm|]. split; [easy|]. intros s Hs' _. apply (first_treat_before T N D); [easy|lia|easy]. }
  destruct (ever T D i) eqn:Ei; cbn [andb].
  - apply ever_true in Ei. destruct Ei as (t2 & Ht2 & E2).
    assert (Fi : exists t0, first_at T D miss i t0).
    { assert (F := first_filter (fun t => (D t i =? 1)%Z) T 0). destruct (filter _ (seq 0 T)) as [|x l].
      - specialize (F t2 ltac:(lia)). rewrite E2 in F. easy.
      - destruct F as (A & B & C). exists x. split; [lia|]. split; [apply Hm|]. split; [now apply Z.eqb_eq|]. intros s Hs' _ HD. specialize (C s ltac:(lia)). rewrite HD in C. easy. }
    destruct Fi as (t0 & Ft0). assert (t0 = f) by now apply (Hs i k). subst t0. destruct Ft0 as (_ & _ & Df & _).
    destruct (f <=? t)%nat eqn:El.
    + apply Nat.leb_le in El. destruct (Nat.eq_dec f t) as [<-|Hne]; [easy|]. assert (X := Hab i f t Hi ltac:(lia) Ht (Hm _ _) (Hm _ _)).
      destruct (Hd t i) as [Z|(_ & _ & Z)]; [lia|easy].
    + apply Nat.leb_gt in El. destruct (Hd t i) as [Z|(_ & _ & Z)]; [easy|]. exfalso. now apply (first_treat_before T N D t i El).
  - destruct (Hd t i) as [Z|(_ & _ & Z)]; [easy|]. exfalso. exact (proj1 (ever_false T D i) Ei t Ht Z).
Qed.
(* A treated unit without a row in the adoption period is reported as staggered adoption.  Units 1 and 2 are treated
   from period 2 on; unit 2 has no row in period 2, so its treatment there is filled with 0. *)
Definition gD : dmat := fun t i => if (1 <=? i)%nat && (2 <=? t)%nat then 1%Z else 0%Z.
Definition gmiss : nat -> nat -> bool := fun t i => (t =? 2)%nat && (i =? 2)%nat.
Definition gD' : dmat := fun t i => if gmiss t i then 0%Z else gD t i.
Theorem joint_false_staggered : check_joint 4 3 gD (fun _ _ => false) = TOk tt /\ check_joint 4 3 gD' gmiss = TErr EStaggered /\
  (forall t i, gmiss t i = false -> gD' t i = gD t i).
Proof. split; [reflexivity|]. split; [reflexivity|]. intros t i H. unfold gD'. now rewrite H. Qed.

(* ------------------------------------------------------------------------------------------- *)
(* tuning: the first grid point with the smallest score *)
Theorem j_search_min score : forall g best r, j_search score g best = JOk r ->
  (forall l s, In l g -> score l = JOk (Some s) -> exists l0 s0, r = Some (l0, s0) /\ s0 <= s) /\
  (forall l s, best = Some (l, s) -> exists l0 s0, r = Some (l0, s0) /\ s0 <= s) /\
  (forall l0 s0, r = Some (l0, s0) -> best = Some (l0, s0) \/ In l0 g /\ score l0 = JOk (Some s0)).
Proof.
  induction g as [|x g IH]; intros best r; cbn [j_search].
  - intros [= <-]. split; [easy|]. split; [intros l s ->; exists l, s; split; [easy|lra]|]. intros. now left.
  - assert (Sk : j_search score g best = JOk r -> (forall s, score x <> JOk (Some s)) ->
      (forall l s, In l (x :: g) -> score l = JOk (Some s) -> exists l0 s0, r = Some (l0, s0) /\ s0 <= s) /\
      (forall l s, best = Some (l, s) -> exists l0 s0, r = Some (l0, s0) /\ s0 <= s) /\
      (forall l0 s0, r = Some (l0, s0) -> best = Some (l0, s0) \/ In l0 (x :: g) /\ score l0 = JOk (Some s0))).
    { intros H Hx. destruct (IH best r H) as (A & B & C). split; [|split; [easy|]].
      - intros l s [<-|Hl] E; [now destruct (Hx s)|exact (A l s Hl E)].
      - intros l0 s0 E. destruct (C l0 s0 E) as [X|[X1 X2]]; [now left|]. right. split; [now right|easy]. }
    destruct (score x) as [[s|]| |] eqn:Ex; try (intros H; now apply Sk). clear Sk.
    intros H. set (best' := match best with Some (_, b) => if Rltb s b then Some (x, s) else best | None => Some (x, s) end) in *.
    destruct (IH best' r H) as (A & B & C).
    assert (Bs : exists l1 s1, best' = Some (l1, s1) /\ s1 <= s /\ (forall l b, best = Some (l, b) -> s1 <= b) /\ (best = Some (l1, s1) \/ (l1 = x /\ s1 = s))).
    { unfold best'. destruct best as [[l b]|]; [|exists x, s; split; [easy|split; [lra|split; [easy|now right]]]]. destruct (Rltb s b) eqn:Eb.
      - apply Rltb_true in Eb. exists x, s. split; [easy|]. split; [lra|]. split; [intros l' b' [= <- <-]; lra|now right].
      - apply Rltb_false in Eb. exists l, b. split; [easy|]. split; [lra|]. split; [intros l' b' [= <- <-]; lra|now left]. }
    destruct Bs as (l1 & s1 & E1 & L1 & L2 & O1). destruct (B l1 s1 E1) as (l0 & s0 & E0 & L0). split; [|split].
    + intros l s' [<-|Hl] E; [|exact (A l s' Hl E)]. rewrite Ex in E. injection E as <-. exists l0, s0. split; [easy|lra].
    + intros l b E. exists l0, s0. split; [easy|]. specialize (L2 l b E). lra.
    + intros l2 s2 E. destruct (C l2 s2 E) as [X|[X1 X2]].
      * rewrite E1 in X. injection X as <- <-. destruct O1 as [O1|[-> ->]]; [now left|]. right. split; [now left|easy].
      * right. split; [now right|easy].
Qed.

Lemma dotl_sym a : forall b, length a = length b -> dotl a b = dotl b a.
Proof. intros b H. rewrite !dotl_index by congruence. rewrite H. apply sumf_ext. intros k _. ring. Qed.
Section Sol.
Variable lstsq : lstsq_fn.
Variable svd : svd_fn.
Hypothesis Hmn : mn_ok lstsq.

(* no treated outcome observed: the coefficient is 0, not missing *)
Theorem wls_no_treated T N y D w c : (forall t i, (t < T)%nat -> (i < N)%nat -> D t i <> 0%Z -> w t i = 0) ->
  wls lstsq T N y D w = JOk c -> jtau c = 0.
Proof.
  intros H Hc. destruct (wls_inv lstsq Hmn T N D w y c Hc) as (b & -> & [[Lb _] Hk]). rewrite wcols_length in Lb.
  assert (K : kernel (cells T N) (wcols T N D w) (elast (n_par T N))).
  { split; [rewrite wcols_length; apply elast_length, n_par_pos|]. intros [t i] Hx. apply in_cells in Hx. destruct Hx as [Ht Hi].
    rewrite lc_wcols by (easy || apply elast_length, n_par_pos).
    assert (E : fitv D (coef_of T N (elast (n_par T N))) t i = IZR (D t i)).
    { replace (elast (n_par T N)) with (vadd (repeat 0 (n_par T N)) (vscal 1 (elast (n_par T N)))).
      - rewrite coef_of_addlast by apply repeat_length. unfold fitv, addtau, coef_of. cbn [jmu ja jb jtau]. rewrite !nth_repeat, last_nth, nth_repeat.
        destruct ((i =? 0)%nat || (N <=? i)%nat), ((t =? 0)%nat || (T <=? t)%nat); ring.
      - assert (Le := elast_length (n_par T N) (n_par_pos T N)). revert Le. generalize (elast (n_par T N)) as l. generalize (n_par T N). clear.
        induction n as [|n IH]; intros [|x l] Hl; try discriminate; [easy|]. cbn [repeat vscal map vadd]. change (map (Rmult 1) l) with (vscal 1 l). 
        f_equal; [ring|]. apply IH. now injection Hl. }
    rewrite E. destruct (Z.eq_dec (D t i) 0) as [->|Hz]; [ring|]. rewrite sqw_zero by now apply H. ring. }
  specialize (Hk _ K). cbn [coef_of jtau]. rewrite dotl_sym in Hk by (rewrite Lb, elast_length; [easy|apply n_par_pos]). now rewrite dotl_elast in Hk by (easy || apply n_par_pos).
Qed.

(* ------------------------------------------------------------------------------------------- *)
(* the criterion (half the weighted sum of squares plus penalty) never rises, up to the cut-off of small singular values *)
Definition mkc (mu : R) (a b : nat -> R) (tau : R) : jcoef := {| jmu := mu; ja := a; jb := b; jtau := tau |}.
Lemma wls_min T N y D w c L c' : wpos2 T N w -> wls lstsq T N (fun t i => y t i - L t i) D w = JOk c ->
  qloss T N w (j_resid y D c) L <= qloss T N w (j_resid y D c') L.
Proof.
  intros Hw Hc. destruct (wls_inv lstsq Hmn T N D w _ c Hc) as (bl & -> & [Hls _]).
  assert (M := ls_minimises _ _ _ _ (coefs T N (jmu c') (ja c') (jb c') (jtau c')) Hls ltac:(rewrite wcols_length; apply coefs_length)).
  assert (Lb : length bl = n_par T N) by (rewrite <- (wcols_length T N D w); apply Hls).
  assert (E : forall l c, length l = n_par T N -> (forall t i, (t < T)%nat -> (i < N)%nat -> fitv D (coef_of T N l) t i = fitv D c t i) ->
     qloss T N w (j_resid y D c) L = ip (cells T N) (fun i => yw w (fun t i => y t i - L t i) i - lc (wcols T N D w) l i) (fun i => yw w (fun t i => y t i - L t i) i - lc (wcols T N D w) l i) / 2).
  { intros l c Hl Hf. unfold qloss, ip. rewrite <- sumf_div. apply sumf_ext. intros [t i] Hx. apply in_cells in Hx. destruct Hx as [Ht Hi]. rewrite lc_wcols, Hf by easy.
    unfold yw, j_resid, fitv. cbn [fst snd]. rewrite <- (sqw_sq w t i (Hw t i Ht Hi)) at 1. unfold Rdiv. ring. }
  rewrite (E bl (coef_of T N bl) Lb (fun _ _ _ _ => eq_refl)).
  rewrite (E (coefs T N (jmu c') (ja c') (jb c') (jtau c')) c' (coefs_length _ _ _ _ _ _)) by (intros; now rewrite fitv_coefs). unfold Rdiv. apply Rmult_le_compat_r; [lra|exact M].
Qed.
Lemma qloss_norm T N w Rm L : 0 < wmax T N w -> qloss T N w Rm L = wmax T N w * qloss T N (wnorm T N w) Rm L.
Proof.
  intros H. unfold qloss. rewrite <- sumf_scal. apply sumf_ext. intros [t i] _. cbn [fst snd]. unfold wnorm. destruct (Rlt_dec _ _); [field; lra|lra].
Qed.
Section Descent.
Hypothesis Hok : svd_ok svd.
Hypothesis Hlen : svd_len svd.
Variables (T N : nat).
Hypothesis Htot : forall M, svd T N M <> None.
Lemma low_descent_gen y D w h tol k : (forall t i, 0 <= w t i) -> 0 < h -> 0 < wmax T N w ->
  forall L n prev c L1 bound, nuc_is T N L n ->
    (match prev with Some c0 => qloss T N w (j_resid y D c0) L + h * n <= bound | None => exists c0, qloss T N w (j_resid y D c0) L + h * n <= bound end) ->
    low_loop lstsq svd T N y D w h tol k L prev = JOk (c, L1) ->
    exists n1, nuc_is T N L1 n1 /\ qloss T N w (j_resid y D c) L1 + h * n1 <= bound + INR k * (wmax T N w * slack T N).
Proof.
  intros Hw Hh Hm. induction k as [|k IH]; intros L n prev c L1 bound Hn Hb; cbn [low_loop].
  - destruct prev as [c0|]; [|easy]. intros [= <- <-]. exists n. split; [easy|]. simpl INR. lra.
  - assert (Hb' : exists c0, qloss T N w (j_resid y D c0) L + h * n <= bound) by (destruct prev; eauto). destruct Hb' as (c0 & Hc0).
    destruct (wls lstsq T N (fun t i => y t i - L t i) D w) as [cc| |] eqn:Ew; [|easy|easy].
    assert (M := wls_min T N y D w cc L c0 (fun t i _ _ => Hw t i) Ew).
    assert (Ee : j_eta T N w * h = h / wmax T N w) by (unfold j_eta; destruct (Rlt_dec _ _); [field; lra|lra]).
    rewrite Ee. assert (Hp : 0 < h / wmax T N w) by (apply Rdiv_lt_0_compat; easy).
    destruct (prox_step_mono svd T N Hok Hlen Htot (wnorm T N w) (j_resid y D cc) L (h / wmax T N w) n) as (n1 & N1 & B1); [intros; now apply wnorm_bounds|easy|apply Hn|].
    unfold prox_step. set (L' := soft_svd svd T N (fun t i => L t i + wnorm T N w t i * (j_resid y D cc t i - L t i)) (Some (h / wmax T N w))) in *.
    assert (B2 : qloss T N w (j_resid y D cc) L' + h * n1 <= bound + wmax T N w * slack T N).
    { rewrite (qloss_norm T N w _ L) in M by easy. rewrite (qloss_norm T N w _ L') by easy.
      assert (X : wmax T N w * (qloss T N (wnorm T N w) (j_resid y D cc) L' + h / wmax T N w * n1) <= wmax T N w * (qloss T N (wnorm T N w) (j_resid y D cc) L + h / wmax T N w * n + slack T N)) by (apply Rmult_le_compat_l; lra).
      replace (wmax T N w * (qloss T N (wnorm T N w) (j_resid y D cc) L' + h / wmax T N w * n1)) with (wmax T N w * qloss T N (wnorm T N w) (j_resid y D cc) L' + h * n1) in X by (field; lra).
      replace (wmax T N w * (qloss T N (wnorm T N w) (j_resid y D cc) L + h / wmax T N w * n + slack T N)) with (wmax T N w * qloss T N (wnorm T N w) (j_resid y D cc) L + h * n + wmax T N w * slack T N) in X by (field; lra). lra. }
    assert (Sn := slack_nonneg T N). rewrite S_INR. assert (0 <= INR k) by apply pos_INR. assert (0 <= wmax T N w * slack T N) by (apply Rmult_le_pos; lra).
    destruct (Rltb _ _).
    + intros [= <- <-]. exists n1. split; [easy|]. nra.
    + intros E. destruct (IH L' n1 (Some cc) c L1 (bound + wmax T N w * slack T N) N1 B2 E) as (n2 & N2 & B3). exists n2. split; [easy|]. lra.
Qed.
Lemma nuc_zero : nuc_is T N zmat 0.
Proof.
  assert (Z : forall A, mip T N A zmat = 0) by (intros A; unfold mip, zmat; rewrite (sumf_ext _ (fun _ => 0)) by (intros; ring); now apply sumf_zero).
  split; [intros A _; rewrite Z; lra|]. exists zmat. split; [|apply Z]. intros x z _ _. rewrite Z. lra.
Qed.
Lemma wmax_pos w : (forall t i, 0 <= w t i) -> 0 < sumf (fun c => w (fst c) (snd c)) (cells T N) -> 0 < wmax T N w.
Proof.
  intros Hw H. destruct (Rlt_dec 0 (wmax T N w)) as [L|L]; [easy|]. exfalso. rewrite (sumf_ext _ (fun _ => 0)) in H; [rewrite sumf_zero in H by easy; lra|].
  intros c Hc. assert (X := maxabs_ge (fun c => w (fst c) (snd c)) (cells T N) c Hc). fold (wmax T N w) in X. cbv beta in X. specialize (Hw (fst c) (snd c)). rewrite Rabs_pos_eq in X by easy. lra.
Qed.
(* the returned fit is at least as good as every fit without a low-rank part *)
Theorem joint_descent Y D w h maxit tol c L mu a b tau : (forall t i, 0 <= w t i) -> 0 < h < 10 ^ 10 ->
  j_solve lstsq svd T N Y D w h maxit tol = JOk (c, L) ->
  exists n, nuc_is T N L n /\
    qloss T N (seen Y w) (j_resid (ysafe Y) D c) L + h * n <=
    qloss T N (seen Y w) (j_resid (ysafe Y) D (mkc mu a b tau)) zmat + INR maxit * (wmax T N (seen Y w) * slack T N).
Proof.
  intros Hw [Hh Hh2]. unfold j_solve. destruct (Rle_dec _ h); [lra|]. intros E.
  assert (Hs : forall t i, 0 <= seen Y w t i) by (intros t i; unfold seen; destruct (has Y t i); [apply Hw|lra]).
  assert (Hm : 0 < wmax T N (seen Y w)).
  { destruct maxit as [|k]; [easy|]. cbn [low_loop] in E. unfold wls in E. destruct (Rltb _ _) eqn:Eb; [easy|]. apply Rltb_false in Eb.
    apply wmax_pos; [easy|]. assert (0 < / 10 ^ 10) by (apply Rinv_0_lt_compat, pow_lt; lra). lra. }
  apply (low_descent_gen (ysafe Y) D (seen Y w) h tol maxit Hs Hh Hm zmat 0 None c L); [apply nuc_zero| |exact E].
  exists (mkc mu a b tau). lra.
Qed.
End Descent.

(* ------------------------------------------------------------------------------------------- *)
(* unit and period effects in the outcomes, weights held fixed *)
Lemma wls_fe T N y y' D w a b : wpos2 T N w -> (forall t i, (t < T)%nat -> (i < N)%nat -> w t i <> 0 -> y' t i = y t i + a i + b t) ->
  match wls lstsq T N y D w, wls lstsq T N y' D w with
  | JOk c, JOk c' => (forall t i, (t < T)%nat -> (i < N)%nat -> w t i <> 0 -> fitv D c' t i = fitv D c t i + a i + b t) /\ (ident T N D w -> jtau c' = jtau c)
  | JVal, JVal => True | _, _ => False
  end.
Proof.
  intros Hw Hy. destruct (wls lstsq T N y D w) as [c| |] eqn:E1; [destruct (wls lstsq T N y' D w) as [c'| |] eqn:E2|destruct (wls lstsq T N y' D w) as [c'| |] eqn:E2|];
    try (unfold wls in E1, E2; destruct (Rltb _ _); easy).
  - destruct (wls_inv lstsq Hmn T N D w _ c E1) as (b1 & -> & [L1 _]). destruct (wls_inv lstsq Hmn T N D w _ c' E2) as (b2 & -> & [L2 _]).
    assert (N1 : length b1 = n_par T N) by (rewrite <- (wcols_length T N D w); apply L1). assert (N2 : length b2 = n_par T N) by (rewrite <- (wcols_length T N D w); apply L2).
    assert (L3 : is_ls (cells T N) (wcols T N D w) (yw w y') (vadd b1 (coefs T N 0 a b 0))).
    { apply (ls_ext _ _ (fun x => yw w y x + lc (wcols T N D w) (coefs T N 0 a b 0) x)).
      - intros [t i] Hx. apply in_cells in Hx. destruct Hx as [Ht Hi]. rewrite lc_wcols, fitv_coefs by (easy || apply coefs_length). unfold yw. cbn [fst snd].
        destruct (Req_dec (w t i) 0) as [E0|E0]; [rewrite sqw_zero by easy; ring|]. rewrite Hy by easy. ring.
      - apply ls_add; [easy|]. apply ls_exact; [rewrite wcols_length; apply coefs_length|easy]. }
    assert (F : forall t i, (t < T)%nat -> (i < N)%nat -> w t i <> 0 -> fitv D (coef_of T N b2) t i = fitv D (coef_of T N b1) t i + a i + b t).
    { intros t i Ht Hi Hz. assert (E := ls_fitted_unique _ _ _ _ _ L2 L3 (t, i) (proj2 (in_cells T N t i) (conj Ht Hi))).
      rewrite lc_vadd in E by (rewrite ?coefs_length, ?wcols_length; congruence).
      rewrite !lc_wcols in E by (easy || apply coefs_length). rewrite fitv_coefs in E by easy.
      assert (P : 0 < sqw w (t, i)) by (apply sqw_pos; specialize (Hw t i Ht Hi); lra). apply (Rmult_eq_reg_l (sqw w (t, i))); [|lra]. rewrite E. ring. }
    split; [exact F|]. intros (i & j & s & t & Hi & Hj & Hs & Ht & W1 & W2 & W3 & W4 & HD).
    assert (Z1 := F s i Hs Hi ltac:(lra)). assert (Z2 := F s j Hs Hj ltac:(lra)). assert (Z3 := F t i Ht Hi ltac:(lra)). assert (Z4 := F t j Ht Hj ltac:(lra)).
    unfold fitv in *. assert (E : (jtau (coef_of T N b2) - jtau (coef_of T N b1)) * (IZR (D t i) - IZR (D t j) - (IZR (D s i) - IZR (D s j))) = 0) by lra.
    apply Rmult_integral in E. destruct E; [lra|easy].
  - unfold wls in E1. destruct (Rltb _ _); easy.
Qed.
(* a decomposition looks at the cells of the matrix only *)
Definition soft_local : Prop := forall T N M M' h, (forall t i, (t < T)%nat -> (i < N)%nat -> M t i = M' t i) ->
  forall t i, (t < T)%nat -> (i < N)%nat -> soft_svd svd T N M h t i = soft_svd svd T N M' h t i.
Definition same_fit (T N : nat) (w : mat) (D : dmat) (a b : nat -> R) (x x' : jcoef * mat) : Prop :=
  jtau (fst x') = jtau (fst x) /\ (forall t i, (t < T)%nat -> (i < N)%nat -> snd x' t i = snd x t i) /\
  (forall t i, (t < T)%nat -> (i < N)%nat -> w t i <> 0 -> fitv D (fst x') t i = fitv D (fst x) t i + a i + b t).
Definition same_out (T N : nat) (w : mat) (D : dmat) (a b : nat -> R) (x x' : jout (jcoef * mat)) : Prop :=
  match x, x' with JOk r, JOk r' => same_fit T N w D a b r r' | JVal, JVal => True | JUnbound, JUnbound => True | _, _ => False end.
Lemma mdiff_ext T N A B A' B' : (forall t i, (t < T)%nat -> (i < N)%nat -> A t i = A' t i) -> (forall t i, (t < T)%nat -> (i < N)%nat -> B t i = B' t i) ->
  mdiff T N A B = mdiff T N A' B'.
Proof. intros H1 H2. unfold mdiff. apply maxabs_ext. intros [t i] Hc. apply in_cells in Hc. cbn [fst snd]. now rewrite H1, H2. Qed.
Lemma low_fe T N y y' D w h tol a b k : soft_local -> wpos2 T N w -> ident T N D w ->
  (forall t i, (t < T)%nat -> (i < N)%nat -> w t i <> 0 -> y' t i = y t i + a i + b t) ->
  forall L L' prev prev', (forall t i, (t < T)%nat -> (i < N)%nat -> L' t i = L t i) ->
    match prev, prev' with Some c, Some c' => same_fit T N w D a b (c, L) (c', L') | None, None => True | _, _ => False end ->
    same_out T N w D a b (low_loop lstsq svd T N y D w h tol k L prev) (low_loop lstsq svd T N y' D w h tol k L' prev').
Proof.
  intros Hsv Hw Hid Hy. induction k as [|k IH]; intros L L' prev prev' HL Hp; cbn [low_loop].
  - destruct prev, prev'; easy.
  - assert (Hyl : forall t i, (t < T)%nat -> (i < N)%nat -> w t i <> 0 -> y' t i - L' t i = y t i - L t i + a i + b t) by (intros t i Ht Hi Hz; rewrite HL, Hy by easy; ring).
    assert (E := wls_fe T N (fun t i => y t i - L t i) (fun t i => y' t i - L' t i) D w a b Hw Hyl).
    destruct (wls lstsq T N (fun t i => y t i - L t i) D w) as [c| |], (wls lstsq T N (fun t i => y' t i - L' t i) D w) as [c'| |]; try easy. destruct E as [F Et]. specialize (Et Hid).
    set (M := prox_step svd T N w (j_resid y D c) _ L). set (M' := prox_step svd T N w (j_resid y' D c') _ L').
    assert (HM : forall t i, (t < T)%nat -> (i < N)%nat -> M' t i = M t i).
    { apply Hsv. intros t i Ht Hi. rewrite HL by easy. destruct (Req_dec (w t i) 0) as [E0|E0]; [rewrite wnorm_0 by easy; ring|].
      specialize (F t i Ht Hi E0). unfold fitv in F. unfold j_resid. rewrite Hy by easy. f_equal. f_equal. f_equal. lra. }
    rewrite (mdiff_ext T N M' L' M L HM HL). assert (SF : same_fit T N w D a b (c, M) (c', M')) by (split; [easy|split; easy]).
    destruct (Rltb _ _); [exact SF|]. now apply IH.
Qed.
Theorem solve_fe T N Y Y' D w h maxit tol a b : soft_local -> (forall t i, 0 <= w t i) -> ident T N D (seen Y w) ->
  (forall t i, Y' t i = match Y t i with Some r => Some (r + a i + b t) | None => None end) ->
  same_out T N (seen Y w) D a b (j_solve lstsq svd T N Y D w h maxit tol) (j_solve lstsq svd T N Y' D w h maxit tol).
Proof.
  intros Hsv Hw Hid Hy. assert (ES : seen Y' w = seen Y w) by (apply seen_eq; intros t i Hz; unfold has; rewrite Hy; now destruct (Y t i)).
  assert (EY : forall t i, (t < T)%nat -> (i < N)%nat -> seen Y w t i <> 0 -> ysafe Y' t i = ysafe Y t i + a i + b t).
  { intros t i _ _ Hz. apply seen_nz in Hz. destruct Hz as [Hh Hz]. unfold ysafe. rewrite Hy. unfold has in Hh. now destruct (Y t i). }
  assert (P := seen_pos T N Y w Hw). unfold j_solve. rewrite ES. destruct (Rle_dec _ h).
  - assert (E := wls_fe T N (ysafe Y) (ysafe Y') D (seen Y w) a b P EY).
    destruct (wls lstsq T N (ysafe Y) D (seen Y w)) as [c| |], (wls lstsq T N (ysafe Y') D (seen Y w)) as [c'| |]; try easy. destruct E as [F Et]. split; [now apply Et|]. split; [easy|exact F].
  - now apply low_fe.
Qed.
End Sol.

Lemma svd_row_local : soft_local svd_row.
Proof.
  intros T N M M' h H t i Ht Hi. unfold soft_svd. destruct h as [h|]; [|easy]. destruct (Rle_dec h 0); [now apply H|]. unfold svd_row.
  destruct (T =? 1)%nat eqn:ET; [|easy]. apply Nat.eqb_eq in ET. subst T.
  assert (E : sumf (fun i => M 0%nat i * M 0%nat i) (seq 0 N) = sumf (fun i => M' 0%nat i * M' 0%nat i) (seq 0 N)).
  { apply sumf_ext. intros k Hk. apply in_seq in Hk. rewrite H by lia. reflexivity. }
  rewrite E. destruct (Req_EM_T _ 0); [easy|]. cbn [filter fst snd]. destruct (Rltb _ _); [|easy]. cbn [sumf fst snd]. rewrite H by lia. reflexivity.
Qed.

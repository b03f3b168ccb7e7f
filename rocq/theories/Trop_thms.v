(* TROP: the two-step fit as a function of the treated outcomes; unit-effect invariance. *)
From Verif Require Import Prelude Flt Stats_model Stats_proofs Linalg_model Multi_model Trop_model Trop_proofs.
From Coq Require Import Arith ZArith String List FunctionalExtensionality.
Import ListNotations.
Open Scope R_scope.

Lemma sumsq_dev_shift l c : l <> [] -> sumsq_dev (map (fun x => x + c) l) = sumsq_dev l.
Proof.
  intros H. unfold sumsq_dev. rewrite sumf_map. apply sumf_ext_all. intros x.
  rewrite meanf_map. unfold idR. rewrite (meanf_add (fun x => x) (fun _ => c)), meanf_const by easy. ring.
Qed.

(* ------------------------------------------------------------------------------------------- *)
(* adding a constant to every replicate leaves both standard errors unchanged *)
Definition fshift (d : R) (x : fl) : fl := fadd x (Fin d).
Lemma reals_shift d l : forallb ffinite l = true -> reals (map (fshift d) l) = map (fun x => x + d) (reals l).
Proof.
  intros H. unfold reals. rewrite !map_map. rewrite forallb_forall in H. apply map_ext_in. intros x Hx. specialize (H x Hx). now destruct x.
Qed.
Lemma finite_shift d l : forallb ffinite (map (fshift d) l) = forallb ffinite l.
Proof. induction l as [|x l IH]; simpl; [easy|]. rewrite IH. now destruct x. Qed.
Lemma boot_se_shift d l : boot_se (map (fshift d) l) = boot_se l.
Proof.
  destruct l as [|x l]; [reflexivity|]. cbn [map boot_se].
  change (fshift d x :: map (fshift d) l) with (map (fshift d) (x :: l)).
  assert (HL : x :: l <> []) by easy. remember (x :: l) as L eqn:EL. clear EL.
  unfold fstd1. rewrite finite_shift, map_length. destruct (forallb ffinite L) eqn:E; cbn [andb]; [|reflexivity].
  destruct (1 <? length L)%nat; [|reflexivity]. f_equal. unfold std, variance. rewrite reals_shift by easy.
  rewrite sumsq_dev_shift by (destruct L; easy). rewrite len_map. reflexivity.
Qed.
Lemma jack_se_shift d l : jack_se (map (fshift d) l) = jack_se l.
Proof.
  unfold jack_se. rewrite map_length, finite_shift. destruct (length l <? 2)%nat eqn:El; [easy|].
  destruct (forallb ffinite l) eqn:E; [|easy]. f_equal. f_equal. rewrite reals_shift by easy.
  rewrite sumsq_dev_shift by (destruct l; [easy|easy]). rewrite len_map. reflexivity.
Qed.

Lemma sel_add Y D e cols : sel_o (add_effect Y D e) cols = add_effect (sel_o Y cols) (sel_d D cols) (fun t j => e t (nth j cols 0%nat)).
Proof. reflexivity. Qed.
Lemma drop_add Y D e k : drop_o (add_effect Y D e) k = add_effect (drop_o Y k) (drop_d D k) e.
Proof.
  apply functional_extensionality; intros t; apply functional_extensionality; intros i. unfold drop_o, add_effect, drop_d.
  now destruct (i =? k)%nat.
Qed.

Lemma boot_reps_add svd T Y D d lt lu h maxit tol name draws :
  boot_reps svd (Some (add_effect Y D (fun _ _ => d), D)) T (add_effect Y D (fun _ _ => d)) D lt lu h maxit tol name draws =
  map (fshift d) (boot_reps svd (Some (Y, D)) T Y D lt lu h maxit tol name draws).
Proof.
  unfold boot_reps. induction draws as [|s r IH]; [easy|]. cbn [flat_map]. rewrite map_app, IH. f_equal.
  unfold boot_rep. set (cols := boot_cols name s). destruct (treated_obs T (length cols) (sel_d D cols)) eqn:E; [easy|].
  cbn [map]. f_equal. unfold fshift. rewrite sel_add.
  rewrite (att_add svd T (length cols) (sel_o Y cols) (sel_d D cols) _ (Some (Y, D)) (Some (add_effect Y D (fun _ _ => d), D))).
  - f_equal. f_equal. cbn [fst snd]. apply meanf_const. now rewrite E.
  - intros. now rewrite unit_w_add.
  - now rewrite E.
Qed.
Lemma jack_reps_add svd T N Y D d lt lu h maxit tol :
  jack_reps svd T N (add_effect Y D (fun _ _ => d)) D lt lu h maxit tol = map (fshift d) (jack_reps svd T N Y D lt lu h maxit tol).
Proof.
  unfold jack_reps. induction (filter (ever T D) (seq 0 N)) as [|k r IH]; [easy|]. cbn [flat_map]. rewrite map_app, IH. f_equal.
  destruct (treated_obs T N (drop_d D k)) eqn:E; [easy|]. cbn [map]. f_equal. unfold fshift. rewrite drop_add.
  rewrite (att_add svd T N (drop_o Y k) (drop_d D k) _ (Some (Y, D)) (Some (add_effect Y D (fun _ _ => d), D))).
  - f_equal. f_equal. apply meanf_const. now rewrite E.
  - intros. now rewrite unit_w_add.
  - now rewrite E.
Qed.

Section Fit.
Variable svd : svd_fn.
Variable sub : nat -> nat -> list nat.
Variable odd : lam3 -> option R.
Variable sf : option Z -> fl -> fl.
Variable ppf : option Z -> R -> R.
Hypothesis Hsub : sub_ok sub.
Notation fit := (trop_fit svd sub odd sf ppf).

Lemma check_treated T N D miss x : check_panel T N D miss = TOk x -> treated_obs T N D <> [].
Proof.
  unfold check_panel. destruct (negb _); [easy|]. destruct (length (treated_obs T N D) =? 0)%nat eqn:E; [easy|]. intros _ H.
  rewrite H in E. easy.
Qed.

(* Adding any effects e to the treated outcomes: same penalties, same score, same counts; each cell's
   effect moves by its own e and the average effect by the average of e. *)
Theorem fit_add cfg T N nobs Y D miss name draws e r :
  fit cfg T N nobs Y D miss name draws = TOk r ->
  exists r', fit cfg T N nobs (add_effect Y D e) D miss name draws = TOk r' /\
    tr_lambda r' = tr_lambda r /\ tr_score r' = tr_score r /\
    tr_n_treated_obs r' = tr_n_treated_obs r /\
    tr_effects r' = map (fun x => (fst x, fadd (snd x) (Fin (e (fst (fst x)) (snd (fst x)))))) (tr_effects r) /\
    tr_att r' = fadd (tr_att r) (Fin (meanf (fun c => e (fst c) (snd c)) (treated_obs T N D))).
Proof.
  unfold trop_fit. destruct (check_panel T N D miss) eqn:E; [|easy]. apply check_treated in E.
  rewrite tune_add by easy. destruct (tune svd sub odd cfg T N Y D) as [[[lt lu] ln] sc].
  intros [= <-]. eexists. split; [reflexivity|]. cbn [tr_lambda tr_score tr_n_treated_obs tr_effects tr_att].
  repeat (split; [reflexivity|]). split.
  - apply effects_add. intros. now rewrite unit_w_add.
  - apply att_add; [|easy]. intros. now rewrite unit_w_add.
Qed.

(* A constant effect moves the estimate and leaves the standard error alone. *)
Theorem fit_add_const cfg T N nobs Y D miss name draws d r :
  fit cfg T N nobs Y D miss name draws = TOk r ->
  exists r', fit cfg T N nobs (add_effect Y D (fun _ _ => d)) D miss name draws = TOk r' /\
    tr_att r' = fadd (tr_att r) (Fin d) /\ tr_se r' = tr_se r.
Proof.
  intros H. destruct (fit_add cfg T N nobs Y D miss name draws (fun _ _ => d) r H) as (r' & H' & _ & _ & _ & _ & Ha).
  exists r'. split; [easy|]. revert H H' Ha. unfold trop_fit. destruct (check_panel T N D miss) eqn:E; [|easy]. apply check_treated in E.
  rewrite tune_add by easy. destruct (tune svd sub odd cfg T N Y D) as [[[lt lu] ln] sc].
  intros [= <-] [= <-]. cbn [tr_att tr_se]. intros ->. rewrite meanf_const by easy. split; [easy|].
  destruct (tc_boot cfg); [rewrite boot_reps_add; apply boot_se_shift|rewrite jack_reps_add; apply jack_se_shift].
Qed.

(* the average effect is the mean of the per-cell effects, one per treated cell *)
Theorem fit_effects cfg T N nobs Y D miss name draws r :
  fit cfg T N nobs Y D miss name draws = TOk r ->
  map fst (tr_effects r) = treated_obs T N D /\ tr_att r = fmean (map snd (tr_effects r)) /\
  tr_n_treated_obs r = length (treated_obs T N D) /\ (1 <= tr_n_treated_obs r)%nat /\
  (tr_n_treated r + tr_n_control r = N)%nat /\ (1 <= tr_n_treated r)%nat /\ (1 <= tr_n_control r)%nat /\ (2 <= tr_n_pre r)%nat /\
  ((exists c, In c (treated_obs T N D) /\ has Y (fst c) (snd c) = false) -> tr_att r = NaN) /\
  ((forall c, In c (treated_obs T N D) -> has Y (fst c) (snd c) = true) -> exists a, tr_att r = Fin a).
Proof.
  unfold trop_fit. destruct (check_panel T N D miss) eqn:E; [|easy].
  destruct (tune svd sub odd cfg T N Y D) as [[[lt lu] ln] sc]. intros [= <-].
  cbn [tr_effects tr_att tr_n_treated_obs tr_n_treated tr_n_control tr_n_pre].
  assert (Hn := check_treated _ _ _ _ _ E).
  split; [unfold effects; rewrite map_map; cbn [fst]; apply map_id|]. split; [easy|]. split; [easy|].
  split; [destruct (treated_obs T N D); [easy|simpl; lia]|].
  split.
  { assert (F : forall {A} (p : A -> bool) l, (length (filter p l) + length (filter (fun x => negb (p x)) l) = length l)%nat).
    { intros A p l. induction l as [|x l IH]; [easy|]. simpl. destruct (p x); simpl; lia. }
    rewrite F. apply seq_length. }
  split.
  { destruct (treated_obs T N D) as [|[t i] r] eqn:Et; [easy|].
    assert (Hc : In (t, i) (treated_obs T N D)) by (rewrite Et; now left). apply in_treated in Hc. destruct Hc as (H1 & H2 & H3).
    assert (Hi : In i (filter (ever T D) (seq 0 N))).
    { apply filter_In. split; [apply in_seq; lia|]. unfold ever. apply existsb_exists. exists t. split; [apply in_seq; lia|]. now rewrite H3. }
    destruct (filter (ever T D) (seq 0 N)); [easy|simpl; lia]. }
  unfold check_panel in E. destruct (negb _); [easy|]. destruct (length (treated_obs T N D) =? 0)%nat; [easy|].
  destruct (length (filter (fun i => negb (ever T D i)) (seq 0 N)) =? 0)%nat eqn:E3; [easy|]. apply Nat.eqb_neq in E3.
  destruct (first_treat T N D <? 2)%nat eqn:E4; [easy|]. apply Nat.ltb_ge in E4.
  split; [lia|]. split; [lia|]. split.
  - intros (c & Hc & Hb). unfold att_of, effects. rewrite map_map. cbn [snd].
    apply fmean_nan. apply in_map_iff. exists c. split; [|easy]. now apply fit_at_nan.
  - intros H. unfold att_of, effects. rewrite map_map. cbn [snd].
    assert (Eq : map (fun x => fit_at svd (Some (Y, D)) T N Y D (conv_w lt) (conv_w lu) (Some (conv_nn ln)) (tc_maxit cfg) (tc_tol cfg) None x) (treated_obs T N D)
              = map Fin (map (fun x => match fit_at svd (Some (Y, D)) T N Y D (conv_w lt) (conv_w lu) (Some (conv_nn ln)) (tc_maxit cfg) (tc_tol cfg) None x with Fin r => r | _ => 0 end) (treated_obs T N D))).
    { rewrite map_map. apply map_ext_in. intros c Hc.
      destruct (fit_at_fin svd (Some (Y, D)) T N Y D (conv_w lt) (conv_w lu) (Some (conv_nn ln)) (tc_maxit cfg) (tc_tol cfg) None c (H c Hc)) as [x ->]. reflexivity. }
    rewrite Eq. rewrite fmean_fin by (destruct (treated_obs T N D); easy). eauto.
Qed.
End Fit.

(* ------------------------------------------------------------------------------------------- *)
(* unit effects *)
Definition add_unit (Y : omat) (a : nat -> R) : omat := fun t i => match Y t i with Some r => Some (r + a i) | None => None end.
Lemma has_add_unit Y a t i : has (add_unit Y a) t i = has Y t i.
Proof. unfold has, add_unit. now destruct (Y t i). Qed.
Lemma ysafe_add_unit Y a t i : has Y t i = true -> ysafe (add_unit Y a) t i = ysafe Y t i + a i.
Proof. unfold has, ysafe, add_unit. now destruct (Y t i). Qed.

Definition wpos (T : nat) (W : mat) (i : nat) : Prop := 0 < sumf (fun t => W t i) (seq 0 T).

Section Unit.
Variable svd : svd_fn.
Variables (T N : nat) (W Yz Yz' : mat) (h : lam) (tol : R) (a : nat -> R).
Hypothesis HW : forall t i, 0 <= W t i.
Hypothesis HW0 : forall t i, (T <= t)%nat -> W t i = 0.
Hypothesis HY : forall t i, 0 < W t i -> Yz' t i = Yz t i + a i.

Lemma zero_col i : ~ wpos T W i -> forall t, W t i = 0.
Proof.
  intros H t. destruct (le_lt_dec T t) as [Ht|Ht]; [auto|].
  destruct (Req_dec (W t i) 0) as [E|E]; [easy|]. exfalso. apply H. unfold wpos. apply sumf_pos.
  - intros; auto.
  - exists t. split; [apply in_seq; lia|]. specialize (HW t i). lra.
Qed.
Lemma pos_col t i : 0 < W t i -> wpos T W i.
Proof.
  intros H. destruct (le_lt_dec T t) as [Ht|Ht]; [rewrite HW0 in H by easy; lra|].
  unfold wpos. apply sumf_pos; [intros; auto|]. exists t. split; [apply in_seq; lia|easy].
Qed.

(* the state after a step only depends on the current beta and L; adding unit effects moves alpha alone *)
Definition urel (s s' : tstate) : Prop :=
  (forall i, wpos T W i -> ta s' i = ta s i + a i) /\ (forall i, ~ wpos T W i -> ta s' i = 0 /\ ta s i = 0) /\
  tb s' = tb s /\ tlo s' = tlo s.
Lemma step_unit s s' : tb s' = tb s -> tlo s' = tlo s -> urel (est_step svd T N W Yz h tol s) (est_step svd T N W Yz' h tol s').
Proof.
  intros Eb El. unfold est_step. rewrite Eb, El.
  set (A := unit_mean T W (fun t i => Yz t i - tlo s t i - tb s t)).
  set (A' := unit_mean T W (fun t i => Yz' t i - tlo s t i - tb s t)).
  assert (HA : forall i, wpos T W i -> A' i = A i + a i).
  { intros i Hi. unfold A, A', unit_mean. unfold wpos in Hi. destruct (Rlt_dec _ _); [|lra].
    rewrite (sumf_ext (fun t => W t i * (Yz' t i - tlo s t i - tb s t)) (fun t => W t i * (Yz t i - tlo s t i - tb s t) + W t i * a i)).
    - rewrite sumf_add, sumf_scal_r. field. lra.
    - intros t _. destruct (Req_dec (W t i) 0) as [E|E]; [rewrite E; ring|]. rewrite HY; [ring|]. specialize (HW t i). lra. }
  assert (HA0 : forall i, ~ wpos T W i -> A' i = 0 /\ A i = 0).
  { intros i Hi. unfold A, A', unit_mean. unfold wpos in Hi. destruct (Rlt_dec _ _); [easy|]. auto. }
  assert (Hres : forall t i, W t i <> 0 -> Yz' t i - A' i = Yz t i - A i).
  { intros t i E. assert (0 < W t i) by (specialize (HW t i); lra). rewrite HY by easy. rewrite HA by (eapply pos_col; eauto). ring. }
  assert (HB : time_mean N W (fun t i => Yz' t i - tlo s t i - A' i) = time_mean N W (fun t i => Yz t i - tlo s t i - A i)).
  { apply time_mean_cong. intros t i E. specialize (Hres t i E). lra. }
  rewrite HB. set (B := time_mean N W (fun t i => Yz t i - tlo s t i - A i)).
  unfold urel. cbn [ta tb tlo]. split; [easy|]. split; [easy|]. split; [easy|].
  unfold nn_solve. replace (masked_target W Yz' A' B (tlo s)) with (masked_target W Yz A B (tlo s)); [easy|].
  apply functional_extensionality; intros t; apply functional_extensionality; intros i. unfold masked_target.
  destruct (Rlt_dec _ _); [|easy]. specialize (Hres t i). lra.
Qed.
Lemma loop_unit k : forall s s', urel s s' -> urel (est_loop svd T N W Yz h tol k s) (est_loop svd T N W Yz' h tol k s').
Proof.
  induction k; intros s s' H; [easy|]. cbn [est_loop].
  assert (H1 := step_unit s s' (proj1 (proj2 (proj2 H))) (proj2 (proj2 (proj2 H)))).
  set (s1 := est_step svd T N W Yz h tol s) in *. set (s1' := est_step svd T N W Yz' h tol s') in *.
  assert (Ed : st_diff T N s' s1' = st_diff T N s s1).
  { destruct H as (U1 & U2 & U3 & U4), H1 as (V1 & V2 & V3 & V4). unfold st_diff. rewrite U3, U4, V3, V4. f_equal. f_equal.
    apply maxabs_ext. intros i _. destruct (Rlt_dec 0 (sumf (fun t => W t i) (seq 0 T))) as [P|P].
    - rewrite U1, V1 by easy. ring.
    - destruct (U2 i P) as [-> ->], (V2 i P) as [-> ->]. ring. }
  rewrite Ed. destruct (Rltb _ _); [easy|apply IHk; easy].
Qed.
(* whole run, when the first iteration does not already meet the tolerance in either panel *)
Theorem loop_unit_zero k :
  Rltb (st_diff T N tzero (est_step svd T N W Yz h tol tzero)) tol = false ->
  Rltb (st_diff T N tzero (est_step svd T N W Yz' h tol tzero)) tol = false -> (0 < k)%nat ->
  urel (est_loop svd T N W Yz h tol k tzero) (est_loop svd T N W Yz' h tol k tzero).
Proof.
  intros H1 H2 Hk. destruct k; [lia|]. cbn [est_loop]. rewrite H1, H2. apply loop_unit. now apply step_unit.
Qed.
End Unit.

Lemma unit_w_nonneg T Y D lu i t j : 0 <= unit_w T Y D lu i t j.
Proof.
  unfold unit_w. destruct (j =? i)%nat; [lra|]. destruct (negb _); [lra|]. destruct (Reqb lu 0); [lra|].
  destruct (dist_obs _ _ _ _ _ _); [left; apply exp_pos|lra].
Qed.
Lemma obs_w_nonneg P T Y D lt lu i t s j : 0 <= obs_w P T Y D lt lu i t s j.
Proof.
  unfold obs_w. apply Rmult_le_pos; [left; apply exp_pos|]. destruct P as [[? ?]|]; apply unit_w_nonneg.
Qed.
Lemma unit_w_shift T Y D lu a : lu = 0 \/ (exists c, forall i, a i = c) -> unit_w T (add_unit Y a) D lu = unit_w T Y D lu.
Proof.
  intros H. do 3 (apply functional_extensionality; intros ?). unfold unit_w.
  destruct (x1 =? x)%nat; [easy|]. destruct (negb _); [easy|]. destruct (Reqb lu 0) eqn:E; [easy|]. apply Reqb_false in E.
  destruct H as [H|[c H]]; [easy|].
  replace (dist_obs T (add_unit Y a) D x1 x x0) with (dist_obs T Y D x1 x x0); [easy|]. unfold dist_obs.
  replace (dvalid (add_unit Y a) D x1 x x0) with (dvalid Y D x1 x x0)
    by (apply functional_extensionality; intros s; unfold dvalid; now rewrite !has_add_unit).
  destruct (filter _ _) eqn:Ef; [easy|]. f_equal. f_equal. apply meanf_ext. intros s Hs. rewrite <- Ef in Hs. apply filter_In in Hs.
  destruct Hs as [_ Hs]. unfold dvalid in Hs. rewrite !andb_true_iff in Hs. destruct Hs as [_ [H1 H2]].
  rewrite !ysafe_add_unit by easy. rewrite !H. ring.
Qed.

(* an unclamped panel: no cell beyond the matrix *)
Definition bounded (T : nat) (Y : omat) : Prop := forall t i, (T <= t)%nat -> Y t i = None.
(* first-iteration stopping *)
Definition stops_at_once (svd : svd_fn) (T N : nat) (Y : omat) (D : dmat) (W : mat) (h : lam) (tol : R) (ex : option (nat * nat)) : Prop :=
  st_diff T N tzero (est_step svd T N (masked Y D ex W) (ysafe Y) h tol tzero) < tol.

(* Estimated effects do not change when unit effects are added to the outcomes: for any unit effects when
   lambda_unit = 0, and for a common constant with any lambda_unit. *)
Theorem fit_at_unit svd T N Y D a lt lu h maxit tol ex t i :
  bounded T Y -> (lu = 0 \/ exists c, forall i, a i = c) -> (0 < maxit)%nat ->
  (exists s, (s < T)%nat /\ mask Y D ex s i = true) ->
  ~ stops_at_once svd T N Y D (obs_w (Some (Y, D)) T Y D lt lu i t) h tol ex ->
  ~ stops_at_once svd T N (add_unit Y a) D (obs_w (Some (Y, D)) T Y D lt lu i t) h tol ex ->
  fit_at svd (Some (add_unit Y a, D)) T N (add_unit Y a) D lt lu h maxit tol ex (t, i) =
  fit_at svd (Some (Y, D)) T N Y D lt lu h maxit tol ex (t, i).
Proof.
  intros HB Hlu Hm [s0 [Hs0 Hmask]] H1 H2. unfold fit_at.
  assert (EW : obs_w (Some (add_unit Y a, D)) T (add_unit Y a) D lt lu i t = obs_w (Some (Y, D)) T Y D lt lu i t).
  { unfold obs_w. rewrite unit_w_shift by easy. reflexivity. }
  rewrite EW. set (W := obs_w (Some (Y, D)) T Y D lt lu i t) in *.
  assert (Em : masked (add_unit Y a) D ex W = masked Y D ex W).
  { unfold masked, mask. apply functional_extensionality; intros s; apply functional_extensionality; intros j. now rewrite has_add_unit. }
  unfold stops_at_once in H1, H2. rewrite Em in H2. unfold estimate. rewrite Em.
  set (M := masked Y D ex W) in *.
  assert (M0 : forall t i, 0 <= M t i).
  { intros s j. unfold M, masked. destruct (mask Y D ex s j); [apply obs_w_nonneg|lra]. }
  assert (Mb : forall t i, (T <= t)%nat -> M t i = 0).
  { intros s j Hs. unfold M, masked, mask, has. rewrite HB by easy. reflexivity. }
  assert (MY : forall t i, 0 < M t i -> ysafe (add_unit Y a) t i = ysafe Y t i + a i).
  { intros s j Hs. apply ysafe_add_unit. unfold M in Hs. assert (masked Y D ex W s j <> 0) by lra. now apply masked_nz in H. }
  assert (Mi : wpos T M i).
  { unfold wpos. apply sumf_pos; [intros; auto|]. exists s0. split; [apply in_seq; lia|]. unfold M, masked. rewrite Hmask.
    unfold W, obs_w, unit_w. rewrite Nat.eqb_refl, Rmult_1_r. apply exp_pos. }
  destruct (loop_unit_zero svd T N M (ysafe Y) (ysafe (add_unit Y a)) h tol a M0 Mb MY maxit) as (U1 & _ & U3 & U4).
  - apply Rltb_false. lra.
  - apply Rltb_false. lra.
  - easy.
  - unfold tau. rewrite U3, U4. rewrite U1 by easy. unfold add_unit. destruct (Y t i); [|easy]. f_equal. ring.
Qed.

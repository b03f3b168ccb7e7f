(* TROP: what the compiled fast paths guarantee, and where they depart from the Python code. *)
From Verif Require Import Prelude Flt Stats_model Stats_proofs Linalg_model Linalg_thms Multi_model Trop_model Trop_proofs Trop_thms Trop_conv Trop_obj Trop_sel Trop_ex Trop_rust Trop_rust_proofs.
From Coq Require Import Arith ZArith String List FunctionalExtensionality.
Import ListNotations.
Open Scope R_scope.

(* ------------------------------------------------------------------------------------------- *)
(* treated outcomes never enter a fit *)
Section Cong.
Variable svd : svd_fn.
Variables (T N : nat) (W Yz Yz' : mat) (h tol : R).
Hypothesis HY : forall t i, W t i <> 0 -> Yz t i = Yz' t i.
Lemma r_step_cong s : r_step svd T N W Yz h s = r_step svd T N W Yz' h s.
Proof.
  unfold r_step.
  assert (M : forall t i x, W t i * (Yz t i - x) = W t i * (Yz' t i - x)).
  { intros t i x. destruct (Req_dec (W t i) 0) as [E|E]; [rewrite E; ring|now rewrite HY]. }
  assert (Ea : r_alpha T W (fun t i => Yz t i - tlo s t i - tb s t) (ta s) = r_alpha T W (fun t i => Yz' t i - tlo s t i - tb s t) (ta s)).
  { apply functional_extensionality. intros i. unfold r_alpha. cbv zeta. destruct (Rlt_dec _ _); [|easy]. f_equal. apply sumf_ext_all. intros t.
    specialize (M t i (tlo s t i + tb s t)). nra. }
  rewrite Ea. set (a := r_alpha _ _ _ _).
  assert (Eb : r_beta N W (fun t i => Yz t i - tlo s t i - a i) (tb s) = r_beta N W (fun t i => Yz' t i - tlo s t i - a i) (tb s)).
  { apply functional_extensionality. intros t. unfold r_beta. cbv zeta. destruct (Rlt_dec _ _); [|easy]. f_equal. apply sumf_ext_all. intros i.
    specialize (M t i (tlo s t i + a i)). nra. }
  rewrite Eb. set (b := r_beta _ _ _ _). cbv zeta. f_equal. f_equal. unfold r_grad.
  apply functional_extensionality. intros t. apply functional_extensionality. intros i. specialize (M t i (a i + b t + tlo s t i)).
  f_equal. rewrite !Rmult_assoc. f_equal. nra.
Qed.
Lemma r_loop_cong k : forall s, r_loop svd T N W Yz h tol k s = r_loop svd T N W Yz' h tol k s.
Proof. induction k; intros s; [easy|]. cbn [r_loop]. rewrite r_step_cong. cbv zeta. destruct (Rltb _ _); [easy|apply IHk]. Qed.
End Cong.

Lemma r_unit_raw_add T Y D e : r_unit_raw T (add_effect Y D e) D = r_unit_raw T Y D.
Proof.
  do 4 (apply functional_extensionality; intros ?). unfold r_unit_raw. rewrite !r_dist_obs_eq. now rewrite dist_obs_add.
Qed.
Lemma r_w_add T N Y D e : r_w T N (add_effect Y D e) D = r_w T N Y D.
Proof. unfold r_w. now rewrite r_unit_raw_add. Qed.
Theorem r_fit_at_add svd T N Y D e lt lu h maxit tol ex c :
  r_fit_at svd T N (add_effect Y D e) D lt lu h maxit tol ex c =
  (if (D (fst c) (snd c) =? 1)%Z then fadd (r_fit_at svd T N Y D lt lu h maxit tol ex c) (Fin (e (fst c) (snd c)))
   else r_fit_at svd T N Y D lt lu h maxit tol ex c).
Proof.
  destruct c as [t i]. cbn [fst snd]. unfold r_fit_at. rewrite r_w_add. unfold r_estimate. rewrite masked_add.
  rewrite (r_loop_cong svd T N _ (ysafe (add_effect Y D e)) (ysafe Y)).
  - unfold tau, add_effect. destruct (Y t i); [|now destruct (D t i =? 1)%Z]. destruct (D t i =? 1)%Z; [|easy]. simpl. f_equal. ring.
  - intros s j H. apply masked_nz in H. now apply ysafe_add_ctl.
Qed.
Theorem r_tune_add svd sub rsub odd cfg T N Y D e : sub_ok sub -> sub_ok rsub ->
  r_tune svd sub rsub odd cfg T N (add_effect Y D e) D = r_tune svd sub rsub odd cfg T N Y D.
Proof.
  intros Hs Hr. unfold r_tune. rewrite control_obs_add. set (obs := loocv_obs rsub _ _).
  assert (Ho : forall c, In c obs -> D (fst c) (snd c) = 0%Z).
  { intros [t i] Hc. apply loocv_obs_incl in Hc; [|easy]. apply in_control in Hc. tauto. }
  assert (E : r_score svd T N (add_effect Y D e) D obs (tc_maxit cfg) (tc_tol cfg) = r_score svd T N Y D obs (tc_maxit cfg) (tc_tol cfg)).
  { do 3 (apply functional_extensionality; intros ?). unfold r_score. destruct obs as [|c0 r]; [easy|]. f_equal. apply sumf_ext. intros c Hc. f_equal.
    rewrite r_fit_at_add, Ho by easy. reflexivity. }
  rewrite E, tune_add by easy. reflexivity.
Qed.
Lemma r_fit_fin svd T N Y D lt lu h maxit tol ex c : has Y (fst c) (snd c) = true -> exists r, r_fit_at svd T N Y D lt lu h maxit tol ex c = Fin r.
Proof. destruct c as [t i]. unfold r_fit_at, tau, has. cbn [fst snd]. destruct (Y t i); [eauto|easy]. Qed.
Lemma r_fit_nan svd T N Y D lt lu h maxit tol ex c : has Y (fst c) (snd c) = false -> r_fit_at svd T N Y D lt lu h maxit tol ex c = NaN.
Proof. destruct c as [t i]. unfold r_fit_at, tau, has. cbn [fst snd]. now destruct (Y t i). Qed.
Lemma fmean_add_const (l : list fl) d : l <> [] -> (forall x, In x l -> x = NaN \/ exists r, x = Fin r) -> fmean (map (fshift d) l) = fshift d (fmean l).
Proof.
  intros Hl Hx. destruct (forallb ffinite l) eqn:E.
  - rewrite forallb_forall in E.
    assert (F := fmean_shift (map (fun x => (x, d)) l)). rewrite !map_map in F. cbn [fst snd] in F. unfold fshift in *. rewrite map_id in F. rewrite F.
    + f_equal. f_equal. rewrite meanf_map. cbn [snd]. now apply meanf_const.
    + intros x Hi. apply in_map_iff in Hi. destruct Hi as (y & <- & Hy). now apply E.
    + now destruct l.
  - assert (P : exists x, In x l /\ x = NaN).
    { apply Bool.not_true_iff_false in E. destruct (existsb fisnan l) eqn:En.
      - apply existsb_exists in En. destruct En as (x & Hi & Hn). exists x. split; [easy|]. now destruct x.
      - exfalso. apply E. apply forallb_forall. intros x Hi. destruct (Hx x Hi) as [->|[r ->]]; [|easy].
        assert (En' : existsb fisnan l = true) by (apply existsb_exists; now exists NaN). congruence. }
    destruct P as (x & Hi & ->). rewrite !fmean_nan; [reflexivity|exact Hi|]. change NaN with (fshift d NaN). now apply in_map.
Qed.
Theorem r_boot_reps_add svd T Y D d lt lu h maxit tol draws :
  r_boot_reps svd T (add_effect Y D (fun _ _ => d)) D lt lu h maxit tol draws = map (fshift d) (r_boot_reps svd T Y D lt lu h maxit tol draws).
Proof.
  unfold r_boot_reps. induction draws as [|cols r IH]; [easy|]. cbn [flat_map]. rewrite map_app, IH. f_equal. clear IH.
  unfold r_boot_rep. rewrite sel_add. set (N := length cols). set (Y' := sel_o Y cols). set (D' := sel_d D cols).
  destruct (treated_obs T N D') as [|c l] eqn:El; [easy|]. destruct (filter _ _); [easy|]. cbv iota. rewrite <- El. cbn [map]. f_equal.
  rewrite <- fmean_add_const.
  - f_equal. rewrite map_map. apply map_ext_in. intros [t i] Hc. rewrite r_fit_at_add. cbn [fst snd]. apply in_treated in Hc.
    destruct Hc as (_ & _ & ->). reflexivity.
  - rewrite El. easy.
  - intros x Hx. apply in_map_iff in Hx. destruct Hx as (y & <- & _). destruct (has Y' (fst y) (snd y)) eqn:E.
    + right. now apply r_fit_fin.
    + left. now apply r_fit_nan.
Qed.
Theorem r_boot_se_shift d l : r_boot_se (map (fshift d) l) = r_boot_se l.
Proof.
  unfold r_boot_se. rewrite map_length. destruct (length l <? 2)%nat eqn:E; [easy|]. assert (B := boot_se_shift d l). unfold boot_se in B.
  destruct l; [easy|]. exact B.
Qed.
(* the reported standard error does not depend on the size of a constant effect, whichever code computed it *)
Theorem dispatch_add svd T Y D d lt lu h maxit tol name rdraws draws :
  fst (boot_dispatch svd T (add_effect Y D (fun _ _ => d)) D lt lu h maxit tol name rdraws draws) =
  fst (boot_dispatch svd T Y D lt lu h maxit tol name rdraws draws).
Proof.
  unfold boot_dispatch. rewrite r_boot_reps_add, map_length. destruct (10 <=? _)%nat; cbn [fst]; [apply r_boot_se_shift|].
  rewrite boot_reps_add. apply boot_se_shift.
Qed.

(* ------------------------------------------------------------------------------------------- *)
(* tuning: the reported score is the one of the reported penalties *)
Theorem r_tune_ok svd sub rsub odd cfg T N Y D : tc_gt cfg <> [] -> tc_gu cfg <> [] -> tc_gn cfg <> [] ->
  loocv_obs rsub (tc_maxs cfg) (control_obs T N Y D) <> [] ->
  let '(lt, lu, ln) := fst (r_tune svd sub rsub odd cfg T N Y D) in
  In lt (tc_gt cfg) /\ In lu (tc_gu cfg) /\ In ln (tc_gn cfg) /\
  snd (r_tune svd sub rsub odd cfg T N Y D) =
    Fin (sumf (fun c => fsq (r_fit_at svd T N Y D (conv_w lt) (conv_w lu) (conv_nn ln) (tc_maxit cfg) (tc_tol cfg) (Some c) c))
              (loocv_obs rsub (tc_maxs cfg) (control_obs T N Y D))).
Proof.
  intros H1 H2 H3 Ho. unfold r_tune. set (obs := loocv_obs _ _ _) in *.
  set (sc := fun a b c => r_score svd T N Y D obs (tc_maxit cfg) (tc_tol cfg) (conv_w a) (conv_w b) (conv_nn c)).
  assert (I := two_stage_in sc (tc_gt cfg) (tc_gu cfg) (tc_gn cfg) H1 H2 H3). destruct (two_stage sc _ _ _) as [[lt lu] ln]. unfold in3 in I.
  assert (E : sc lt lu ln = Some (sumf (fun c => fsq (r_fit_at svd T N Y D (conv_w lt) (conv_w lu) (conv_nn ln) (tc_maxit cfg) (tc_tol cfg) (Some c) c)) obs)).
  { unfold sc, r_score. destruct obs; easy. }
  cbv zeta. change (r_score svd T N Y D obs (tc_maxit cfg) (tc_tol cfg) (conv_w lt) (conv_w lu) (conv_nn ln)) with (sc lt lu ln).
  rewrite E. cbn [fst snd]. tauto.
Qed.

(* constant outcomes are fitted exactly *)
Section Const.
Variable svd : svd_fn.
Variables (T N : nat) (W Yz : mat) (h tol q : R).
Hypothesis Hsvd : svd_ok svd.
Hypothesis Hh : 0 < h.
Hypothesis HW : forall t i, 0 <= W t i.
Hypothesis HT : forall t i, (T <= t)%nat -> W t i = 0.
Hypothesis HN : forall t i, (N <= i)%nat -> W t i = 0.
Hypothesis HY : forall t i, W t i <> 0 -> Yz t i = q.
Definition const_state : tstate :=
  {| ta := fun i => if Rlt_dec 0 (sumf (fun t => W t i) (seq 0 T)) then q else 0; tb := fun _ => 0; tlo := zmat |}.
Lemma eta_pos : 0 < r_eta T N W.
Proof. unfold r_eta. destruct (Rlt_dec _ _); [|lra]. unfold Rdiv. rewrite Rmult_1_l. now apply Rinv_0_lt_compat. Qed.
Lemma soft_zero : soft_svd svd T N zmat (Some (r_eta T N W * h)) = zmat.
Proof.
  assert (P := eta_pos). assert (Q : 0 < r_eta T N W * h) by now apply Rmult_lt_0_compat. apply soft_svd_zero; [easy|easy|]. unfold mip, zmat.
  rewrite sumf_zero by (intros; ring). nra.
Qed.
Lemma const_step s : tb s = (fun _ => 0) -> tlo s = zmat -> (forall i, ~ 0 < sumf (fun t => W t i) (seq 0 T) -> ta s i = 0) -> r_step svd T N W Yz h s = const_state.
Proof.
  intros Hb Hl Ha.
  assert (Ea : r_alpha T W (fun t i => Yz t i - tlo s t i - tb s t) (ta s) = ta const_state).
  { apply functional_extensionality. intros i. unfold r_alpha, const_state. cbn [ta]. cbv zeta. destruct (Rlt_dec _ _) as [H|H]; [|now apply Ha].
    rewrite (sumf_ext _ (fun t => q * W t i)).
    - rewrite sumf_scal. field. lra.
    - intros t _. rewrite Hb, Hl. unfold zmat. destruct (Req_dec (W t i) 0) as [E|E]; [rewrite E; ring|rewrite HY by easy; ring]. }
  assert (Z0 : forall t i, W t i * (Yz t i - ta const_state i) = 0).
  { intros t i. destruct (Req_dec (W t i) 0) as [E|E]; [rewrite E; ring|]. rewrite HY by easy. unfold const_state. cbn [ta].
    destruct (Rlt_dec _ _) as [H|H]; [ring|]. exfalso. apply H. destruct (le_lt_dec T t) as [L|L]; [now rewrite HT in E|].
    apply Rlt_le_trans with (W t i); [specialize (HW t i); lra|]. apply (sumf_In_le (fun t => W t i)); [auto|apply in_seq; lia]. }
  assert (Eb : r_beta N W (fun t i => Yz t i - tlo s t i - ta const_state i) (tb s) = fun _ => 0).
  { apply functional_extensionality. intros t. unfold r_beta. cbv zeta. destruct (Rlt_dec _ _) as [H|H]; [|now rewrite Hb].
    rewrite sumf_zero; [unfold Rdiv; ring|]. intros i _. rewrite Hl. unfold zmat.
    replace (Yz t i - 0 - ta const_state i) with (Yz t i - ta const_state i) by ring. apply Z0. }
  unfold r_step. rewrite Ea, Eb. cbv zeta. rewrite Hl.
  replace (r_grad T N W Yz (ta const_state) (fun _ => 0) zmat) with zmat; [now rewrite soft_zero|].
  unfold r_grad, zmat. apply functional_extensionality. intros t. apply functional_extensionality. intros i. specialize (Z0 t i).
  replace (r_eta T N W * W t i * (Yz t i - ta const_state i - 0 - 0)) with (r_eta T N W * (W t i * (Yz t i - ta const_state i))) by ring. rewrite Z0. ring.
Qed.
Lemma const_fixed : r_step svd T N W Yz h const_state = const_state.
Proof. apply const_step; [easy|easy|]. intros i H. unfold const_state. cbn [ta]. destruct (Rlt_dec _ _); [easy|reflexivity]. Qed.
Lemma const_loop k : r_loop svd T N W Yz h tol (S k) tzero = const_state.
Proof.
  cbn [r_loop]. rewrite const_step by easy. cbv zeta. destruct (Rltb _ _); [easy|]. induction k; [easy|]. cbn [r_loop]. rewrite const_fixed. cbv zeta. destruct (Rltb _ _); easy.
Qed.
End Const.

(* ------------------------------------------------------------------------------------------- *)
(* all outcomes 5; unit 1 of 2 is treated in the last of three periods *)
Definition cY : omat := fun t i => if (t <? 3)%nat && (i <? 2)%nat then Some 5 else None.
Definition ccfg : tcfg := {| tc_gt := [None]; tc_gu := [Some 0]; tc_gn := [Some 1]; tc_maxit := 100; tc_tol := / (10 ^ 6); tc_alpha := 1/20;
                             tc_boot := true; tc_maxs := 100 |}.
Lemma c_control : control_obs 3 2 cY xD = [(0,0); (0,1); (1,0); (1,1); (2,0)]%nat. Proof. reflexivity. Qed.
Lemma c_obs sub : loocv_obs sub (tc_maxs ccfg) (control_obs 3 2 cY xD) = [(0,0); (0,1); (1,0); (1,1); (2,0)]%nat.
Proof. rewrite c_control. reflexivity. Qed.
Lemma c_fit svd lt lu h k tol ex t i : svd_ok svd -> 0 < h -> (t < 3)%nat -> (i < 2)%nat ->
  (exists s, (s < 3)%nat /\ mask cY xD ex s i = true) -> r_fit_at svd 3 2 cY xD lt lu h (S k) tol ex (t, i) = Fin 0.
Proof.
  intros Hok Hh Ht Hi (s & Hs & Hm). unfold r_fit_at, tau.
  replace (cY t i) with (Some 5) by (unfold cY; apply Nat.ltb_lt in Ht; apply Nat.ltb_lt in Hi; now rewrite Ht, Hi).
  unfold r_estimate. set (W := masked cY xD ex (r_w 3 2 cY xD lt lu i t)).
  assert (Hh' : forall a b, has cY a b = true -> (a < 3)%nat /\ (b < 2)%nat).
  { intros a b. unfold has, cY. destruct (a <? 3)%nat eqn:E1; destruct (b <? 2)%nat eqn:E2; cbn; try easy. intros _. apply Nat.ltb_lt in E1, E2. easy. }
  assert (Hz : forall a b, ((3 <= a)%nat \/ (2 <= b)%nat) -> W a b = 0).
  { intros a b H. unfold W, masked. destruct (mask cY xD ex a b) eqn:E; [|easy]. apply mask_ctl in E. destruct E as [_ E]. apply Hh' in E. lia. }
  assert (HWn : forall a b, 0 <= W a b).
  { intros a b. unfold W, masked. destruct (mask cY xD ex a b); [apply r_w_nonneg; lia|lra]. }
  rewrite (const_loop svd 3 2 W (ysafe cY) h tol 5 Hok Hh).
  - unfold const_state. cbn [ta tb tlo]. destruct (Rlt_dec _ _) as [H|H]; [unfold zmat; f_equal; ring|]. exfalso. apply H.
    apply Rlt_le_trans with (W s i); [|apply (sumf_In_le (fun t => W t i)); [auto|apply in_seq; lia]].
    unfold W, masked. rewrite Hm. rewrite r_w_eq by lia. apply Rmult_lt_0_compat; [|apply (w_scale_pos 3 2 cY xD lt lu i t); lia].
    apply Rmult_lt_0_compat; [apply time_w_pos|]. unfold r_unit_raw. rewrite Nat.eqb_refl. lra.
  - exact HWn.
  - intros a b H. apply Hz. now left.
  - intros a b H. unfold W, masked in H. destruct (mask cY xD ex a b) eqn:E; [|easy]. apply mask_ctl in E. destruct E as [_ E]. apply Hh' in E. destruct E as [E1 E2].
    unfold ysafe, cY. apply Nat.ltb_lt in E1, E2. now rewrite E1, E2.
Qed.
(* the score reported by the two backends for the same penalties and the same perfectly fitted panel *)
Theorem score_backends svd sub rsub odd : svd_ok svd ->
  fst (tune svd sub odd ccfg 3 2 cY xD) = fst (r_tune svd sub rsub odd ccfg 3 2 cY xD) /\
  snd (tune svd sub odd ccfg 3 2 cY xD) = Fin 125 /\ snd (r_tune svd sub rsub odd ccfg 3 2 cY xD) = Fin 0.
Proof.
  intros Hok.
  assert (P := tune_inf_score svd sub odd ccfg 3 2 cY xD eq_refl). rewrite c_obs in P. specialize (P ltac:(easy)). destruct P as [_ P2].
  assert (Q : fst (tune svd sub odd ccfg 3 2 cY xD) = (None, Some 0, Some 1)).
  { unfold tune. rewrite c_obs. cbn [tc_gt tc_gu tc_gn ccfg]. rewrite two_stage_single. reflexivity. }
  assert (Q' : fst (r_tune svd sub rsub odd ccfg 3 2 cY xD) = (None, Some 0, Some 1)).
  { unfold r_tune. rewrite c_obs. cbn [tc_gt tc_gu tc_gn ccfg]. rewrite two_stage_single. cbn [r_score]. reflexivity. }
  assert (SS := r_tune_ok svd sub rsub odd ccfg 3 2 cY xD ltac:(easy) ltac:(easy) ltac:(easy)). rewrite c_obs, Q' in SS. specialize (SS ltac:(easy)).
  destruct SS as (_ & _ & _ & SS). split; [now rewrite Q, Q'|]. split.
  - rewrite P2. f_equal. cbn. ring.
  - rewrite SS. f_equal. cbn [tc_maxit ccfg]. apply sumf_zero. intros [t i] Hc. cbn [conv_w conv_nn].
    change 100%nat with (Datatypes.S 99%nat). rewrite c_fit; [cbn; ring|easy|lra| | |].
    all: repeat match goal with H : In _ (_ :: _) |- _ => destruct H as [H|H]; [injection H as <- <-|] | H : In _ [] |- _ => destruct H end; try lia.
    + exists 1%nat. split; [lia|reflexivity].
    + exists 1%nat. split; [lia|reflexivity].
    + exists 0%nat. split; [lia|reflexivity].
    + exists 0%nat. split; [lia|reflexivity].
    + exists 0%nat. split; [lia|reflexivity].
Qed.

(* ------------------------------------------------------------------------------------------- *)
(* a decomposition meeting svd_ok: exact for matrices whose first row carries everything, LinAlgError otherwise *)
Definition svd_top : svd_fn := fun T N M =>
  if (T =? 0)%nat then None
  else if Req_EM_T (sumf (fun c => M (fst c) (snd c) * M (fst c) (snd c)) (filter (fun c => negb (fst c =? 0)%nat) (cells T N))) 0 then
    let q := sumf (fun i => M 0%nat i * M 0%nat i) (seq 0 N) in
    if Req_EM_T q 0 then Some [] else Some [(sqrt q, (fun t => if (t =? 0)%nat then 1 else 0), fun i => M 0%nat i / sqrt q)]
  else None.
Lemma svd_top_ok : svd_ok svd_top.
Proof.
  intros T N M l. unfold svd_top. destruct (T =? 0)%nat eqn:ET; [easy|]. apply Nat.eqb_neq in ET.
  destruct (Req_EM_T _ 0) as [E0|E0]; [|easy].
  assert (R0 : forall t i, (t < T)%nat -> (i < N)%nat -> t <> 0%nat -> M t i = 0).
  { intros t i Ht Hi Hn.
    assert (P : M t i * M t i = 0).
    { apply (sumf_nonneg_0 (fun c => M (fst c) (snd c) * M (fst c) (snd c)) (filter (fun c => negb (fst c =? 0)%nat) (cells T N))) with (x := (t, i)).
      - intros. apply Rle_0_sqr.
      - exact E0.
      - apply filter_In. split; [now apply in_cells|]. cbn [fst]. apply Nat.eqb_neq in Hn. now rewrite Hn. }
    apply Rmult_integral in P. tauto. }
  set (q := sumf (fun i => M 0%nat i * M 0%nat i) (seq 0 N)).
  assert (Hq : 0 <= q) by (apply sumf_nonneg; intros; apply Rle_0_sqr).
  destruct (Req_EM_T q 0) as [E|E]; intros [= <-].
  - split; [easy|]. split; [intros [|j] k x y H; easy|]. split; [intros [|j] k x y H; easy|].
    intros t i Ht Hi. cbn [sumf]. destruct (Nat.eq_dec t 0) as [->|Hn]; [|now apply R0].
    assert (P : M 0%nat i * M 0%nat i = 0).
    { apply (sumf_nonneg_0 (fun i => M 0%nat i * M 0%nat i) (seq 0 N)); [intros; apply Rle_0_sqr|exact E|apply in_seq; lia]. }
    apply Rmult_integral in P. tauto.
  - assert (Hs : 0 < sqrt q) by (apply sqrt_lt_R0; lra). assert (Hss : sqrt q * sqrt q = q) by (apply sqrt_sqrt; lra).
    split; [intros x [<-|[]]; unfold trip_s; simpl; lra|].
    assert (N1 : forall (A : Type) (a : A) j x, nth_error [a] j = Some x -> j = 0%nat /\ x = a).
    { intros A a [|[|j]] x H; try easy. injection H as <-. easy. }
    split; [|split].
    + intros j k x y Hj Hk. apply N1 in Hj, Hk. destruct Hj as [-> ->], Hk as [-> ->]. unfold trip_u. cbn [fst snd Nat.eqb].
      destruct T as [|T']; [easy|]. cbn [seq sumf]. rewrite (sumf_zero _ (seq 1 T')); [cbn; ring|]. intros t Ht. apply in_seq in Ht.
      destruct t; [lia|]. cbn. ring.
    + intros j k x y Hj Hk. apply N1 in Hj, Hk. destruct Hj as [-> ->], Hk as [-> ->]. unfold trip_v. cbn [snd Nat.eqb].
      rewrite (sumf_ext _ (fun i => / (sqrt q * sqrt q) * (M 0%nat i * M 0%nat i))) by (intros i _; field; lra).
      rewrite sumf_scal, Hss. fold q. field. lra.
    + intros t i Ht Hi. unfold trip_s, trip_u, trip_v. cbn [sumf fst snd]. destruct (Nat.eq_dec t 0) as [->|Hn]; [cbn [Nat.eqb]; field; lra|].
      rewrite R0 by easy. apply Nat.eqb_neq in Hn. rewrite Hn. ring.
Qed.

(* a 2 x 2 matrix with rows (x, -x) and (0, 0) under the threshold sqrt(2)/2 *)
Lemma top_soft M x : M 0%nat 0%nat = x -> M 0%nat 1%nat = - x -> M 1%nat 0%nat = 0 -> M 1%nat 1%nat = 0 -> 5/8 <= x ->
  let L := soft_svd svd_top 2 2 M (Some (sqrt 2 / 2)) in
  L 0%nat 0%nat = x - 1/2 /\ L 0%nat 1%nat = - (x - 1/2) /\ L 1%nat 0%nat = 0 /\ L 1%nat 1%nat = 0.
Proof.
  intros E00 E01 E10 E11 Hx. cbv zeta.
  assert (H2 : 0 < sqrt 2) by (apply sqrt_lt_R0; lra). assert (H22 : sqrt 2 * sqrt 2 = 2) by (apply sqrt_sqrt; lra).
  assert (H1 : 1 <= sqrt 2) by (rewrite <- sqrt_1; apply sqrt_le_1; lra).
  unfold soft_svd. destruct (Rle_dec (sqrt 2 / 2) 0); [lra|]. unfold svd_top. cbn [Nat.eqb].
  destruct (Req_EM_T _ 0) as [E0|E0].
  2:{ exfalso. apply E0. cbn -[Rmult]. rewrite E10, E11. ring. }
  assert (Eq : sumf (fun i => M 0%nat i * M 0%nat i) (seq 0 2) = (x * sqrt 2) * (x * sqrt 2)).
  { cbn [seq sumf]. rewrite E00, E01. replace (x * sqrt 2 * (x * sqrt 2)) with (x * x * (sqrt 2 * sqrt 2)) by ring. rewrite H22. ring. }
  rewrite Eq. cbv zeta. assert (Hp : 0 < x * sqrt 2) by nra. destruct (Req_EM_T _ 0) as [E|E]; [nra|].
  rewrite sqrt_square by lra. cbn [filter fst snd].
  assert (Es : x * sqrt 2 - sqrt 2 / 2 = (x - 1/2) * sqrt 2) by field. rewrite Es.
  assert (Hm : Rmax ((x - 1/2) * sqrt 2) 0 = (x - 1/2) * sqrt 2) by (apply Rmax_left; nra). rewrite Hm.
  replace (Rltb svd_tol ((x - 1/2) * sqrt 2)) with true.
  2:{ symmetry. apply Rltb_true. apply Rlt_le_trans with (1/8); [|nra]. unfold svd_tol. apply Rmult_lt_reg_r with (10 ^ 10); [apply pow_lt; lra|].
      rewrite Rinv_l by (apply pow_nonzero; lra). assert (P : (10:R) ^ 10 = 10000000000) by (cbn; ring). rewrite P. lra. }
  cbn [sumf fst snd Nat.eqb]. rewrite ?Es, ?Hm, E00, E01. repeat split; field; lra.
Qed.

(* units 0 and 1, periods 0 and 1, no treated cell; the cross-validation cell is (1, 1) *)
Definition pY2 : omat := fun t i => match t, i with O, O => Some 4 | O, S O => Some 0 | S O, O => Some 0 | S O, S O => Some 0 | _, _ => None end.
Definition pD2 : dmat := fun _ _ => 0%Z.
Definition ex11 : option (nat * nat) := Some (1, 1)%nat.
Lemma p_w s j : obs_w (Some (pY2, pD2)) 2 pY2 pD2 0 0 1 1 s j = 1.
Proof. unfold obs_w. rewrite time_w0. unfold unit_w, pD2. cbn [Z.eqb negb]. rewrite Reqb_refl. destruct (j =? 1)%nat; ring. Qed.
Lemma p_rw s j : r_w 2 2 pY2 pD2 0 0 1 1 s j = 1/4.
Proof.
  rewrite r_w_eq by lia.
  assert (U : forall j, r_unit_raw 2 pY2 pD2 0 1 1 j = 1) by (intros k; unfold r_unit_raw; rewrite Reqb_refl; now destruct (k =? 1)%nat).
  cbn [seq sumf]. rewrite !U, !time_w0. field.
Qed.

Definition pW : mat := masked pY2 pD2 ex11 (obs_w (Some (pY2, pD2)) 2 pY2 pD2 0 0 1 1).
Definition pW' : mat := masked pY2 pD2 ex11 (r_w 2 2 pY2 pD2 0 0 1 1).
Definition pv (w : R) : mat := fun t i => match t, i with O, O => w | O, S O => w | S O, O => w | _, _ => 0 end.
Lemma pW_eq : pW = pv 1.
Proof.
  apply functional_extensionality. intros t. apply functional_extensionality. intros i. unfold pW, masked. rewrite p_w.
  destruct t as [|[|t]]; destruct i as [|[|i]]; reflexivity.
Qed.
Lemma pW'_eq : pW' = pv (1/4).
Proof.
  apply functional_extensionality. intros t. apply functional_extensionality. intros i. unfold pW', masked. rewrite p_rw.
  destruct t as [|[|t]]; destruct i as [|[|i]]; reflexivity.
Qed.
Lemma pv_max w : 0 < w -> wmax 2 2 (pv w) = w.
Proof.
  intros Hw. unfold wmax, maxabs. cbn. rewrite Rabs_R0, (Rabs_pos_eq w) by lra. unfold Rmax. repeat destruct (Rle_dec _ _); lra.
Qed.
Definition py2 : mat := fun t i => match t, i with O, O => 4 | _, _ => 0 end.
Lemma py2_eq : ysafe pY2 = py2.
Proof.
  apply functional_extensionality. intros t. apply functional_extensionality. intros i. destruct t as [|[|t]]; destruct i as [|[|i]]; reflexivity.
Qed.
(* one proximal step of the Python code, and its inner loop *)
Lemma p_prox Rm L x : Rm 0%nat 0%nat = x -> Rm 0%nat 1%nat = - x -> Rm 1%nat 0%nat = 0 -> L 1%nat 1%nat = 0 -> 5/8 <= x ->
  let L' := prox_step svd_top 2 2 (pv 1) Rm (Some (sqrt 2 / 2)) L in
  L' 0%nat 0%nat = x - 1/2 /\ L' 0%nat 1%nat = - (x - 1/2) /\ L' 1%nat 0%nat = 0 /\ L' 1%nat 1%nat = 0.
Proof.
  intros A B C E Hx. cbv zeta. unfold prox_step. apply top_soft; [| | | |easy].
  all: unfold wnorm; rewrite pv_max by lra; destruct (Rlt_dec 0 1); [|lra]; cbn [pv]; rewrite ?A, ?B, ?C, ?E; field.
Qed.
Lemma p_nn Rm x tol k : Rm 0%nat 0%nat = x -> Rm 0%nat 1%nat = - x -> Rm 1%nat 0%nat = 0 -> 5/8 <= x -> forall L, L 1%nat 1%nat = 0 ->
  let L' := nn_loop svd_top 2 2 (pv 1) Rm (Some (sqrt 2 / 2)) tol (S k) L in
  L' 0%nat 0%nat = x - 1/2 /\ L' 0%nat 1%nat = - (x - 1/2) /\ L' 1%nat 0%nat = 0 /\ L' 1%nat 1%nat = 0.
Proof.
  intros A B C Hx. induction k; intros L HL; cbv zeta; cbn [nn_loop]; cbv zeta; assert (P := p_prox Rm L x A B C HL Hx); cbv zeta in P.
  - destruct (Rltb _ _); exact P.
  - destruct (Rltb _ _); [exact P|]. apply (IHk (prox_step svd_top 2 2 (pv 1) Rm (Some (sqrt 2 / 2)) L)). tauto.
Qed.
Lemma p_step tol s x : tlo s 1%nat 0%nat = 0 -> tlo s 1%nat 1%nat = 0 ->
  let s' := est_step svd_top 2 2 (pv 1) py2 (Some (sqrt 2 / 2)) tol s in
  ta s' 0%nat = ((4 - tlo s 0%nat 0%nat - tb s 0%nat) + (0 - 0 - tb s 1%nat)) / 2 /\
  ta s' 1%nat = 0 - tlo s 0%nat 1%nat - tb s 0%nat /\
  tb s' 0%nat = ((4 - tlo s 0%nat 0%nat - ta s' 0%nat) + (0 - tlo s 0%nat 1%nat - ta s' 1%nat)) / 2 /\
  tb s' 1%nat = 0 - ta s' 0%nat /\
  (4 - ta s' 0%nat - tb s' 0%nat = x -> 0 - ta s' 1%nat - tb s' 0%nat = - x -> 5/8 <= x ->
   tlo s' 0%nat 0%nat = x - 1/2 /\ tlo s' 0%nat 1%nat = - (x - 1/2) /\ tlo s' 1%nat 0%nat = 0 /\ tlo s' 1%nat 1%nat = 0).
Proof.
  intros H10 H11. cbv zeta. unfold est_step. cbv zeta. cbn [ta tb tlo].
  set (a := unit_mean 2 (pv 1) (fun t i => py2 t i - tlo s t i - tb s t)). set (b := time_mean 2 (pv 1) (fun t i => py2 t i - tlo s t i - a i)).
  assert (A0 : a 0%nat = ((4 - tlo s 0%nat 0%nat - tb s 0%nat) + (0 - 0 - tb s 1%nat)) / 2).
  { unfold a, unit_mean. cbn [seq sumf pv py2]. destruct (Rlt_dec _ _); [|lra]. rewrite H10. field. }
  assert (A1 : a 1%nat = 0 - tlo s 0%nat 1%nat - tb s 0%nat).
  { unfold a, unit_mean. cbn [seq sumf pv py2]. destruct (Rlt_dec _ _); [|lra]. field. }
  assert (B0 : b 0%nat = ((4 - tlo s 0%nat 0%nat - a 0%nat) + (0 - tlo s 0%nat 1%nat - a 1%nat)) / 2).
  { unfold b, time_mean. cbn [seq sumf pv py2]. destruct (Rlt_dec _ _); [|lra]. field. }
  assert (B1 : b 1%nat = 0 - a 0%nat).
  { unfold b, time_mean. cbn [seq sumf pv py2]. destruct (Rlt_dec _ _); [|lra]. rewrite H10. field. }
  repeat (split; [easy|]). intros X1 X2 Hx. unfold nn_solve.
  assert (H2 : 0 < sqrt 2) by (apply sqrt_lt_R0; lra). destruct (Rle_dec (sqrt 2 / 2) 0); [lra|].
  apply (p_nn (masked_target (pv 1) py2 a b (tlo s)) x tol 9); [| | |easy|easy].
  all: unfold masked_target; cbn [pv py2]; destruct (Rlt_dec 0 1); [|lra]; first [exact X1|exact X2|rewrite B1; ring].
Qed.
Theorem p_python tol : 0 < tol <= 1/10 ->
  fit_at svd_top (Some (pY2, pD2)) 2 2 pY2 pD2 0 0 (Some (sqrt 2 / 2)) 2 tol ex11 (1, 1)%nat = Fin (11/4).
Proof.
  intros Htol. unfold fit_at, tau, estimate. change (pY2 1%nat 1%nat) with (Some 0). cbv iota. fold pW. rewrite pW_eq, py2_eq. cbn [est_loop]. cbv zeta.
  set (s1 := est_step svd_top 2 2 (pv 1) py2 (Some (sqrt 2 / 2)) tol tzero). set (s2 := est_step svd_top 2 2 (pv 1) py2 (Some (sqrt 2 / 2)) tol s1).
  assert (P := p_step tol tzero 1 eq_refl eq_refl). cbv zeta in P. fold s1 in P. cbn [tzero ta tb tlo] in P. unfold zmat in P. destruct P as (A0 & A1 & B0 & B1 & L).
  assert (A0' : ta s1 0%nat = 2) by lra. assert (A1' : ta s1 1%nat = 0) by lra. assert (B0' : tb s1 0%nat = 1) by lra. assert (B1' : tb s1 1%nat = -2) by lra.
  destruct L as (L00 & L01 & L10 & L11); [lra|lra|lra|].
  assert (P := p_step tol s1 (5/8) L10 L11). cbv zeta in P. fold s2 in P. destruct P as (C0 & C1 & E0 & E1 & L).
  destruct L as (_ & _ & _ & M11); [lra|lra|lra|].
  assert (Hd : Rltb (st_diff 2 2 tzero s1) tol = false).
  { apply Rltb_false. unfold st_diff. apply Rle_trans with (maxabs (fun i => ta s1 i - ta tzero i) (seq 0 2)).
    - apply Rle_trans with (Rabs (ta s1 0%nat - ta tzero 0%nat)); [|apply (maxabs_ge (fun i => ta s1 i - ta tzero i)); apply in_seq; lia].
      rewrite A0'. cbn. rewrite Rabs_pos_eq; lra.
    - eapply Rle_trans; [apply Rmax_l|apply Rmax_l]. }
  rewrite Hd. destruct (Rltb (st_diff 2 2 s1 s2) tol); rewrite M11; apply f_equal; lra.
Qed.
Lemma r_p_step s : tlo s = zmat ->
  let s' := r_step svd_top 2 2 (pv (1/4)) py2 (sqrt 2 / 2) s in
  ta s' 0%nat = ((4 - tb s 0%nat) + (0 - tb s 1%nat)) / 2 /\ ta s' 1%nat = 0 - tb s 0%nat /\
  tb s' 0%nat = ((4 - ta s' 0%nat) + (0 - ta s' 1%nat)) / 2 /\ tb s' 1%nat = 0 - ta s' 0%nat /\
  (Rabs (4 - ta s' 0%nat - tb s' 0%nat) <= 1 -> Rabs (0 - ta s' 1%nat - tb s' 0%nat) <= 1 -> tlo s' = zmat).
Proof.
  intros Hl. cbv zeta. unfold r_step. cbv zeta. cbn [ta tb tlo].
  set (a := r_alpha _ _ _ _). set (b := r_beta _ _ _ _).
  assert (A0 : a 0%nat = ((4 - tb s 0%nat) + (0 - tb s 1%nat)) / 2).
  { unfold a, r_alpha. rewrite Hl. unfold zmat. cbn [seq sumf pv py2]. destruct (Rlt_dec _ _); [|lra]. field. }
  assert (A1 : a 1%nat = 0 - tb s 0%nat).
  { unfold a, r_alpha. rewrite Hl. unfold zmat. cbn [seq sumf pv py2]. destruct (Rlt_dec _ _); [|lra]. field. }
  assert (B0 : b 0%nat = ((4 - a 0%nat) + (0 - a 1%nat)) / 2).
  { unfold b, r_beta. rewrite Hl. unfold zmat. cbn [seq sumf pv py2]. destruct (Rlt_dec _ _); [|lra]. field. }
  assert (B1 : b 1%nat = 0 - a 0%nat).
  { unfold b, r_beta. rewrite Hl. unfold zmat. cbn [seq sumf pv py2]. destruct (Rlt_dec _ _); [|lra]. field. }
  repeat (split; [easy|]). intros X1 X2.
  assert (He : r_eta 2 2 (pv (1/4)) = 4) by (unfold r_eta; rewrite pv_max by lra; destruct (Rlt_dec _ _); [field|lra]). rewrite He.
  assert (H2 : 0 < sqrt 2) by (apply sqrt_lt_R0; lra). assert (H22 : sqrt 2 * sqrt 2 = 2) by (apply sqrt_sqrt; lra).
  apply soft_svd_zero; [apply svd_top_ok|lra|].
  apply Rle_trans with (INR 2 * INR 2 * (1 * 1)).
  - apply mip_le; [lra|]. intros t i Ht Hi. unfold r_grad. rewrite Hl, He. unfold zmat.
    destruct t as [|[|t]]; [| |lia]; (destruct i as [|[|i]]; [| |lia]); cbn [pv py2].
    + replace (0 + 4 * (1/4) * (4 - a 0%nat - b 0%nat - 0)) with (4 - a 0%nat - b 0%nat) by field. exact X1.
    + replace (0 + 4 * (1/4) * (0 - a 1%nat - b 0%nat - 0)) with (0 - a 1%nat - b 0%nat) by field. exact X2.
    + rewrite B1. replace (0 + 4 * (1/4) * (0 - a 0%nat - (0 - a 0%nat) - 0)) with 0 by field. rewrite Rabs_R0. lra.
    + replace (0 + 4 * 0 * (0 - a 1%nat - b 1%nat - 0)) with 0 by ring. rewrite Rabs_R0. lra.
  - replace (4 * (sqrt 2 / 2) * (4 * (sqrt 2 / 2))) with (4 * (sqrt 2 * sqrt 2)) by field. rewrite H22. cbn. lra.
Qed.
Theorem p_rust tol : 0 < tol <= 1/10 ->
  r_fit_at svd_top 2 2 pY2 pD2 0 0 (sqrt 2 / 2) 2 tol ex11 (1, 1)%nat = Fin (7/2).
Proof.
  intros Htol. unfold r_fit_at, tau, r_estimate. change (pY2 1%nat 1%nat) with (Some 0). cbv iota. fold pW'. rewrite pW'_eq, py2_eq. cbn [r_loop]. cbv zeta.
  set (s1 := r_step svd_top 2 2 (pv (1/4)) py2 (sqrt 2 / 2) tzero). set (s2 := r_step svd_top 2 2 (pv (1/4)) py2 (sqrt 2 / 2) s1).
  assert (P := r_p_step tzero eq_refl). cbv zeta in P. fold s1 in P. cbn [tzero ta tb tlo] in P. destruct P as (A0 & A1 & B0 & B1 & L).
  assert (A0' : ta s1 0%nat = 2) by lra. assert (A1' : ta s1 1%nat = 0) by lra. assert (B0' : tb s1 0%nat = 1) by lra. assert (B1' : tb s1 1%nat = -2) by lra.
  assert (L1 : tlo s1 = zmat) by (apply L; rewrite ?A0', ?A1', ?B0'; apply Rabs_le; lra).
  assert (P := r_p_step s1 L1). cbv zeta in P. fold s2 in P. destruct P as (C0 & C1 & E0 & E1 & L').
  assert (C0' : ta s2 0%nat = 5/2) by lra. assert (C1' : ta s2 1%nat = -1) by lra. assert (E0' : tb s2 0%nat = 5/4) by lra. assert (E1' : tb s2 1%nat = -5/2) by lra.
  assert (L2 : tlo s2 = zmat) by (apply L'; rewrite ?C0', ?C1', ?E0'; apply Rabs_le; lra).
  assert (Hd : Rltb (st_diff 2 2 tzero s1) tol = false).
  { apply Rltb_false. unfold st_diff. apply Rle_trans with (maxabs (fun i => ta s1 i - ta tzero i) (seq 0 2)).
    - apply Rle_trans with (Rabs (ta s1 0%nat - ta tzero 0%nat)); [|apply (maxabs_ge (fun i => ta s1 i - ta tzero i)); apply in_seq; lia].
      rewrite A0'. cbn. rewrite Rabs_pos_eq; lra.
    - eapply Rle_trans; [apply Rmax_l|apply Rmax_l]. }
  rewrite Hd. destruct (Rltb (st_diff 2 2 s1 s2) tol); rewrite L2, C1', E1'; unfold zmat; apply f_equal; lra.
Qed.

(* fewer than two replicates *)
Theorem r_se_undefined x : r_boot_se [] = NaN /\ r_boot_se [x] = NaN /\ boot_se [] = Fin 0.
Proof. repeat split. Qed.

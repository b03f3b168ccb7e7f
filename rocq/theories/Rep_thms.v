(* Repeated data in the estimators. *)
From Coq Require Import Reals Lra Lia.
From Verif Require Import Prelude Flt Linalg_model Linalg_proofs Linalg_vcov Linalg_thms Linalg_rank Linalg_span Did_model Did_proofs
  Twfe_model Bacon_model Multi_model Staggered_model Synth_model Sdid_model Trop_model Sun_rows Rep_proofs.
From Coq Require Import Arith ZArith String List Permutation FunctionalExtensionality.
Import ListNotations.
Open Scope R_scope.

Lemma root_factor c v : 0 < c -> fsqrt (Fin (c * v)) = fmul (Fin (sqrt c)) (fsqrt (Fin v)).
Proof.
  intros Hc. unfold fsqrt. destruct (Rlt_dec v 0) as [N|N], (Rlt_dec (c * v) 0) as [M|M]; try reflexivity; [exfalso; nra|exfalso; nra|].
  cbn [fmul]. now rewrite sqrt_mult by lra.
Qed.
Lemma rep_factor_pos cl k n p : (1 <= k)%nat -> (p < n)%nat -> (cl = true -> (2 <= n)%nat) -> 0 < rep_factor cl k n p.
Proof.
  intros Hk Hn H2. unfold rep_factor. assert (1 <= INR k) by (change 1 with (INR 1); apply le_INR; lia). assert (INR p < INR n) by (apply lt_INR; lia).
  assert (0 <= INR p) by apply pos_INR. assert (INR p < INR k * INR n) by nra. apply Rmult_lt_0_compat.
  - apply Rdiv_lt_0_compat; lra.
  - destruct cl; [|lra]. assert (2 <= INR n) by (change 2 with (INR 2); apply le_INR; auto). apply Rdiv_lt_0_compat; nra.
Qed.

Section Demean.
Context {I G : Type} (geq : forall x y : G, {x = y} + {x <> y}).
Lemma demean_copies k (rows : list I) (g : I -> G) x : (1 <= k)%nat -> demean geq (copies k rows) g x = demean geq rows g x.
Proof. intros Hk. apply functional_extensionality. intros i. unfold demean, group_mean. now rewrite copies_filter, copies_meanf. Qed.
Lemma n_effects_copies k (rows : list I) (g : I -> G) : (1 <= k)%nat -> n_effects geq (copies k rows) g = n_effects geq rows g.
Proof. intros Hk. unfold n_effects. now rewrite copies_map, copies_nodup. Qed.
Lemma absorb_copies k (rows : list I) gs : (1 <= k)%nat -> forall y covs, absorb_loop geq (copies k rows) gs y covs = absorb_loop geq rows gs y covs.
Proof.
  intros Hk. induction gs as [|g gs IH]; intros y covs; [reflexivity|]. cbn [absorb_loop]. rewrite IH, demean_copies, n_effects_copies by exact Hk.
  rewrite (map_ext (demean geq (copies k rows) g) (demean geq rows g)) by (intros c; now apply demean_copies). reflexivity.
Qed.
End Demean.
Lemma within_copies {I U T} (ueq : forall a b : U, {a = b} + {a <> b}) (teq : forall a b : T, {a = b} + {a <> b}) k (rows : list I) u t (x : I -> R) : (1 <= k)%nat ->
  within ueq teq (copies k rows) u t x = within ueq teq rows u t x.
Proof. intros Hk. apply functional_extensionality. intros i. unfold within, group_mean. now rewrite !copies_filter, !copies_meanf. Qed.
Lemma r2_copies {I} k (rows : list I) y e : (1 <= k)%nat -> r_squared (copies k rows) y e false 0 = r_squared rows y e false 0.
Proof.
  intros Hk. unfold r_squared. rewrite copies_meanf, !copies_sumf by exact Hk. set (a := sumf _ rows). set (b := sumf _ rows).
  assert (0 < INR k) by (apply lt_0_INR; lia). destruct (Req_EM_T a 0) as [E|N], (Req_EM_T (INR k * a) 0) as [E'|N']; [reflexivity|exfalso; apply N'; rewrite E; ring| |field; lra].
  exfalso. apply Rmult_integral in E'. lra.
Qed.
Lemma two_values_copies {I} k (rows : list I) x : (1 <= k)%nat -> two_values (copies k rows) x = two_values rows x.
Proof.
  intros Hk. unfold two_values. rewrite copies_existsb by exact Hk. f_equal. apply functional_extensionality. intros i. now rewrite copies_existsb.
Qed.
Lemma existsb_ext' {A} (f g : A -> bool) l : (forall x, f x = g x) -> existsb f l = existsb g l.
Proof. intros H. induction l as [|a l IH]; [reflexivity|]. cbn. now rewrite H, IH. Qed.

Section Did.
Context {I K G : Type} (keq : forall x y : K, {x = y} + {x <> y}) (geq : forall x y : G, {x = y} + {x <> y}).
Variable qr : list I -> list (I -> R) -> list nat.
Variable lstsq : list I -> list (I -> R) -> (I -> R) -> list R.
Variable inv : list I -> list (I -> R) -> option (nat -> nat -> R).
Variable pinv : list I -> list (I -> R) -> nat -> nat -> R.
Variable sf : option Z -> fl -> fl.
Variable ppf : option Z -> R -> R.
Hypothesis Hqr : qr_ok qr.
Hypothesis Hls : lstsq_ok lstsq.
Hypothesis Hinv : inv_ok inv.


Lemma infer_copies c b v df df' alpha : 0 < c ->
  i_se (get_inference sf ppf b (Fin (c * v)) None None alpha df') = fmul (Fin (sqrt c)) (i_se (get_inference sf ppf b (Fin v) None None alpha df)).
Proof. intros Hc. unfold get_inference. cbn [i_se]. now apply root_factor. Qed.

Definition asR (x : I -> fl) : I -> R := fun i => toR (x i).
(* the columns of the regression, estimators.py:247-270 *)
Definition did_cols rows (y d t : I -> fl) covs dums (absorb : list (I -> G)) : list (I -> R) :=
  did_design (asR d) (asR t) (snd (fst (absorb_loop geq rows absorb (asR y) (map asR covs))) ++ dums).

Lemma did_cols_4 rows y d t covs dums absorb : (4 <= length (did_cols rows y d t covs dums absorb))%nat.
Proof. unfold did_cols, did_design. cbn [length]. lia. Qed.

Theorem did_copies (cfg : did_config I K) k rows y d t covs dums absorb : (1 <= k)%nat ->
  let cols := did_cols rows y d t covs dums absorb in
  indep rows cols -> (length cols < length rows)%nat ->
  match did_fit keq geq qr lstsq inv pinv sf ppf cfg rows y d t covs dums absorb,
        did_fit keq geq qr lstsq inv pinv sf ppf cfg (copies k rows) y d t covs dums absorb with
  | Ok a, Ok b =>
      r_att b = r_att a /\ r_coef b = r_coef a /\ r_resid b = r_resid a /\ r_fitted b = r_fitted a /\ r_r2 b = r_r2 a /\
      r_se b = fmul (Fin (sqrt (rep_factor (match c_cluster cfg with Some _ => true | None => false end) k (length rows) (length cols)))) (r_se a) /\
      r_n_obs b = (k * r_n_obs a)%nat /\ r_n_treated b = INR k * r_n_treated a /\ r_n_control b = INR k * r_n_control a
  | Err e, Err f => e = f
  | _, _ => False
  end.
Proof.
  intros Hk cols Hi Hn. pose proof (did_cols_4 rows y d t covs dums absorb) as H4. fold cols in H4.
  assert (Hnan : forall l, existsb (has_nan (copies k rows)) l = existsb (has_nan rows) l) by (intros l; apply existsb_ext'; intros x; unfold has_nan; now apply copies_existsb).
  assert (Hinf : forall l, existsb (has_inf (copies k rows)) l = existsb (has_inf rows) l) by (intros l; apply existsb_ext'; intros x; unfold has_inf; now apply copies_existsb).
  assert (Hbin : forall x, binary (copies k rows) x = binary rows x) by (intros x; unfold binary; now apply copies_forallb).
  unfold did_fit. rewrite Hnan, Hinf, !Hbin, !two_values_copies by exact Hk.
  destruct (existsb (has_nan rows) _); [reflexivity|]. destruct (two_values rows d); [|reflexivity]. destruct (two_values rows t); [|reflexivity].
  destruct (binary rows d); [|reflexivity]. destruct (binary rows t); [|reflexivity]. destruct (existsb (has_inf rows) _); [reflexivity|]. cbn [negb].
  rewrite absorb_copies by exact Hk. unfold cols, did_cols in Hi, Hn, H4 |- *. change (fun i => toR (y i)) with (asR y). change (map (fun (x : I -> fl) (i : I) => toR (x i)) covs) with (map asR covs).
  destruct (absorb_loop geq rows absorb (asR y) (map asR covs)) as [[y' covs'] n_abs]. cbn [fst snd] in *.
  change (fun i => toR (d i)) with (asR d). change (fun i => toR (t i)) with (asR t).
  pose proof (linreg_copies keq qr lstsq inv pinv Hqr Hls Hinv (c_robust cfg) (c_cluster cfg) (c_action cfg) n_abs k rows _ y' Hk Hi Hn) as H.
  destruct (linreg_fit _ _ _ _ _ _ _ _ _ rows _ y') as [a|] eqn:Ea, (linreg_fit _ _ _ _ _ _ _ _ _ (copies k rows) _ y') as [b|]; cbn [bind rep_reg] in *; try contradiction; [|exact H].
  destruct H as (Hc & Lc & Hr & Hf & _ & _ & HV). cbn [r_att r_coef r_resid r_fitted r_r2 r_se r_n_obs r_n_treated r_n_control].
  rewrite Hc, Hr, Hf. destruct (HV 3%nat 3%nat ltac:(lia) ltac:(lia)) as (v & E1 & E2). rewrite E1, E2, r2_copies by exact Hk.
  repeat split; auto; [|apply copies_length|apply copies_sumf|apply copies_sumf].
  apply infer_copies. apply rep_factor_pos; [exact Hk|exact Hn|]. intros _. lia.
Qed.
End Did.

Section Twfe.
Context {I U : Type} (ueq : forall x y : U, {x = y} + {x <> y}).
Variable qr : list I -> list (I -> R) -> list nat.
Variable lstsq : list I -> list (I -> R) -> (I -> R) -> list R.
Variable inv : list I -> list (I -> R) -> option (nat -> nat -> R).
Variable pinv : list I -> list (I -> R) -> nat -> nat -> R.
Variable sf : option Z -> fl -> fl.
Variable ppf : option Z -> R -> R.
Hypothesis Hqr : qr_ok qr.
Hypothesis Hls : lstsq_ok lstsq.
Hypothesis Hinv : inv_ok inv.

Theorem twfe_copies cluster alpha action k rows y d tm u covs : (1 <= k)%nat ->
  let cols := twfe_design d tm (map (within ueq Req_EM_T rows u tm) covs) in
  indep rows cols -> (length cols < length rows)%nat ->
  match twfe_fit ueq qr lstsq inv pinv sf ppf cluster alpha action rows y d tm u covs,
        twfe_fit ueq qr lstsq inv pinv sf ppf cluster alpha action (copies k rows) y d tm u covs with
  | Ok a, Ok b =>
      tw_att b = tw_att a /\ tw_resid b = tw_resid a /\ tw_r2 b = tw_r2 a /\
      tw_se b = fmul (Fin (sqrt (rep_factor true k (length rows) (length cols)))) (tw_se a) /\
      tw_n_obs b = (k * tw_n_obs a)%nat /\ tw_n_treated b = tw_n_treated a /\ tw_n_control b = tw_n_control a
  | Err e, Err f => e = f
  | _, _ => False
  end.
Proof.
  intros Hk cols Hi Hn. assert (H4 : (2 <= length cols)%nat) by (unfold cols, twfe_design; cbn [length]; lia).
  unfold twfe_fit. rewrite !copies_map, !copies_nodup, copies_filter, copies_map, copies_nodup by exact Hk.
  rewrite (map_ext (within ueq Req_EM_T (copies k rows) u tm) (within ueq Req_EM_T rows u tm)) by (intros x; now apply within_copies). rewrite within_copies by exact Hk. fold cols.
  set (y' := within ueq Req_EM_T rows u tm y). set (cl := match cluster with Some c => c | None => u end). set (dfa := (_ + _ - 2)%Z).
  pose proof (linreg_copies ueq qr lstsq inv pinv Hqr Hls Hinv true (Some cl) (twfe_action action) dfa k rows cols y' Hk Hi Hn) as H.
  destruct (linreg_fit _ _ _ _ _ _ _ _ _ rows _ y') as [a|] eqn:Ea, (linreg_fit _ _ _ _ _ _ _ _ _ (copies k rows) _ y') as [b|]; cbn [bind rep_reg] in *; try contradiction; [|exact H].
  destruct H as (Hc & Lc & Hr & _ & _ & _ & HV). rewrite Hc. destruct (fisnan _); [reflexivity|].
  cbn [tw_att tw_resid tw_r2 tw_se tw_n_obs tw_n_treated tw_n_control]. rewrite Hr.
  destruct (HV 1%nat 1%nat ltac:(lia) ltac:(lia)) as (v & E1 & E2). rewrite E1, E2, r2_copies by exact Hk.
  repeat split; auto; [|apply copies_length].
  apply infer_copies. apply rep_factor_pos; [exact Hk|exact Hn|]. intros _. lia.
Qed.
End Twfe.

(* the Goodman-Bacon decomposition *)
Section Bacon.
Context {I : Type}.
Variables (rows : list I) (u t : I -> Z) (g : I -> coh) (y : I -> R) (k : nat).
Hypothesis Hk : (1 <= k)%nat.
Notation rr := (copies k rows).

Lemma flat_map_copies {A B} (f : A -> list B) l : flat_map f (copies k l) = copies k (flat_map f l).
Proof. clear Hk. unfold copies. induction k as [|n IH]; [reflexivity|]. cbn [repeat concat]. now rewrite flat_map_app, IH. Qed.
Lemma nonempty_copies {A} (l : list A) : nonempty (copies k l) = nonempty l.
Proof.
  destruct l as [|a l]; [|destruct k as [|n]; [lia|reflexivity]]. unfold copies. clear Hk. induction k; [reflexivity|]. cbn. exact IHn.
Qed.
Lemma smean_copies l : smean y (copies k l) = smean y l.
Proof.
  unfold smean. pose proof (nonempty_copies l) as H. destruct (copies k l) as [|b m] eqn:E, l as [|a l]; cbn in H; try discriminate; [reflexivity|].
  rewrite <- E. f_equal. apply copies_meanf. exact Hk.
Qed.
Lemma hd_copies {A} (l : list A) : hd_error (copies k l) = hd_error l.
Proof. destruct k as [|n]; [lia|]. destruct l as [|a l]; [|reflexivity]. unfold copies. clear. cbn. induction n; [reflexivity|]. cbn. exact IHn. Qed.
Lemma b_periods : bperiods rr t = bperiods rows t.
Proof. unfold bperiods. now rewrite copies_map, copies_nodup. Qed.
Lemma b_groups : timing_groups rr g = timing_groups rows g.
Proof. unfold timing_groups, finite_cohorts. now rewrite flat_map_copies, copies_nodup. Qed.
Lemma b_cohort a : unit_cohort rr u g a = unit_cohort rows u g a.
Proof.
  unfold unit_cohort. rewrite copies_filter, copies_map, copies_filter. set (l := filter _ (map g _)). pose proof (hd_copies l) as H.
  destruct (copies k l), l; cbn in H; congruence.
Qed.
Lemma b_n_never : n_never rr u g = n_never rows u g.
Proof. unfold n_never. rewrite copies_map, copies_nodup by exact Hk. f_equal. apply filter_ext. intros a. now rewrite b_cohort. Qed.
Lemma b_twfe : btwfe rr u t g y = btwfe rows u t g y.
Proof.
  unfold btwfe. rewrite !within_copies, !copies_sumf by exact Hk. set (a := sumf _ rows). set (b := sumf _ rows).
  assert (0 < INR k) by (apply lt_0_INR; lia). destruct (Rlt_dec 0 a), (Rlt_dec 0 (INR k * a)); try reflexivity; [field; lra|exfalso; nra|exfalso; nra].
Qed.
Lemma b_pre ty a l : pre_of rr t ty a l = pre_of rows t ty a l.
Proof. unfold pre_of. now rewrite b_periods. Qed.
Lemma b_post ty a l : post_of rr t ty a l = post_of rows t ty a l.
Proof. unfold post_of. now rewrite b_periods. Qed.
Lemma b_nun l : nunique_units u (copies k l) = nunique_units u l.
Proof. unfold nunique_units. now rewrite copies_map, copies_nodup. Qed.
Lemma b_in ps l : in_periods t ps (copies k l) = copies k (in_periods t ps l).
Proof. apply copies_filter. Qed.
Lemma b_vs_never a : vs_never rr u t g y a = vs_never rows u t g y a.
Proof. unfold vs_never. rewrite !copies_filter, !nonempty_copies, b_pre, b_post, !b_in, !smean_copies, !b_nun, b_periods. reflexivity. Qed.
Lemma b_timing ty a b : timing_comparison rr u t g y ty a b = timing_comparison rows u t g y ty a b.
Proof. unfold timing_comparison. rewrite !copies_filter, !nonempty_copies, b_pre, b_post, !b_in, !smean_copies, !b_nun, b_periods. reflexivity. Qed.
Lemma b_pairs gs : timing_pairs rr u t g y gs = timing_pairs rows u t g y gs.
Proof.
  induction gs as [|a gs IH]; [reflexivity|]. cbn [timing_pairs]. rewrite IH. f_equal. clear IH. induction gs as [|b gs IH]; [reflexivity|]. cbn [flat_map]. now rewrite IH, !b_timing.
Qed.
Lemma b_comparisons : comparisons0 rr u t g y = comparisons0 rows u t g y.
Proof.
  unfold comparisons0, never_pairs. rewrite b_n_never, b_groups, b_pairs. destruct (Nat.ltb _ _); [|reflexivity]. f_equal.
  induction (timing_groups rows g) as [|a l IH]; [reflexivity|]. cbn [flat_map]. now rewrite IH, b_vs_never.
Qed.
Lemma b_exact c : exact_weight rr u t g c = exact_weight rows u t g c.
Proof.
  unfold exact_weight. rewrite b_pre, b_post, !copies_filter, !copies_map, !copies_nodup by exact Hk. rewrite nonempty_copies.
  destruct (_ || _); [reflexivity|]. destruct (nonempty (filter _ rows)) eqn:E; [|reflexivity]. cbn [negb]. destruct (_ || _); [reflexivity|].
  rewrite !copies_len. assert (0 < INR k) by (apply lt_0_INR; lia).
  assert (0 < len rows). { destruct rows as [|r l]; [discriminate E|]. unfold len. apply lt_0_INR. cbn. lia. }
  f_equal. f_equal. field. lra.
Qed.
Lemma b_reweighted exact : reweighted rr u t g y exact = reweighted rows u t g y exact.
Proof. unfold reweighted. rewrite b_comparisons. destruct exact; [|reflexivity]. apply map_ext. intros c. now rewrite b_exact. Qed.
Lemma nodup_scaled (f : Z -> nat) l : length (nodup Nat.eq_dec (map (fun a => (k * f a)%nat) l)) = length (nodup Nat.eq_dec (map f l)).
Proof.
  induction l as [|a l IH]; [reflexivity|]. cbn [map nodup].
  destruct (in_dec Nat.eq_dec (k * f a)%nat (map (fun a0 => (k * f a0)%nat) l)) as [H|H], (in_dec Nat.eq_dec (f a) (map f l)) as [H'|H'].
  - exact IH.
  - exfalso. apply H'. apply in_map_iff in H as (b & E & Hb). apply in_map_iff. exists b. split; [nia|exact Hb].
  - exfalso. apply H. apply in_map_iff in H' as (b & E & Hb). apply in_map_iff. exists b. split; [now rewrite E|exact Hb].
  - cbn [length]. now rewrite IH.
Qed.

Theorem bacon_copies exact :
  let a := bacon_fit rows u t g y exact in let b := bacon_fit rr u t g y exact in
  bo_twfe b = bo_twfe a /\ bo_comparisons b = bo_comparisons a /\ bo_weights b = bo_weights a /\ bo_averages b = bo_averages a /\
  bo_n_groups b = bo_n_groups a /\ bo_n_never b = bo_n_never a /\ bo_groups b = bo_groups a /\ bo_error b = bo_error a /\
  bo_unbalanced b = bo_unbalanced a /\ bo_nobs b = (k * bo_nobs a)%nat.
Proof.
  cbn [bacon_fit bo_twfe bo_comparisons bo_weights bo_averages bo_n_groups bo_n_never bo_groups bo_error bo_unbalanced bo_nobs].
  rewrite b_reweighted, b_twfe, b_groups, b_n_never, copies_length, copies_map, copies_nodup by exact Hk. repeat split.
  f_equal. rewrite <- (nodup_scaled (fun a => length (filter (fun i => Z.eqb (u i) a) rows))). f_equal. f_equal. apply map_ext. intros a.
  now rewrite copies_filter, copies_length.
Qed.
End Bacon.

(* the estimators that pivot the data refuse a repeated data set *)
Section Pivot.
Context {I : Type}.
Variables (rows : list I) (u t : I -> Z) (k : nat).
Hypothesis Hk : (2 <= k)%nat.
Lemma twice_in (p : I -> bool) i : In i rows -> p i = true -> Nat.ltb 1 (length (filter p (copies k rows))) = true.
Proof.
  intros Hi Hp. rewrite copies_filter, copies_length. assert (H : In i (filter p rows)) by (apply filter_In; auto).
  destruct (filter p rows); [destruct H|]. apply Nat.ltb_lt. cbn [length]. nia.
Qed.
Lemma dup_found (p : I -> I -> bool) : (forall i, p i i = true) -> rows <> [] ->
  existsb (fun i => Nat.ltb 1 (length (filter (p i) (copies k rows)))) (copies k rows) = true.
Proof.
  intros Hp Hne. destruct rows as [|i l] eqn:E; [contradiction|]. apply existsb_exists. exists i. split; [apply copies_in; [lia|now left]|].
  rewrite <- E. apply (twice_in (p i) i); [rewrite E; now left|apply Hp].
Qed.
Lemma cs_dup_copies : rows <> [] -> cs_duplicates (copies k rows) u t = true.
Proof. intros H. apply (dup_found (fun i j => Z.eqb (u j) (u i) && Z.eqb (t j) (t i))); [|exact H]. intros i. now rewrite !Z.eqb_refl. Qed.
Lemma sd_dup_copies : rows <> [] -> sd_dup (copies k rows) u t = true.
Proof. intros H. apply (dup_found (fun i j => Z.eqb (t j) (t i) && Z.eqb (u j) (u i))); [|exact H]. intros i. now rewrite !Z.eqb_refl. Qed.
Lemma trop_dup_copies : rows <> [] -> pdup (copies k rows) u t = true.
Proof. intros H. apply (dup_found (fun i j => Z.eqb (t j) (t i) && Z.eqb (u j) (u i))); [|exact H]. intros i. now rewrite !Z.eqb_refl. Qed.
Lemma copies_nil (l : list I) : l = [] -> copies k l = [].
Proof. intros ->. unfold copies. clear. induction k; [reflexivity|]. cbn. assumption. Qed.
Theorem cs_copies qr lstsq inv logit sf ppf g y covs cfg agg bal ws :
  cs_fit qr lstsq inv logit sf ppf (copies k rows) u t g y covs cfg agg bal ws = Err ValueError.
Proof.
  unfold cs_fit. destruct (Nat.eqb _ 0) eqn:E; [reflexivity|]. rewrite cs_dup_copies; [reflexivity|]. intros Hn. rewrite (copies_nil rows Hn) in E. discriminate E.
Qed.
Theorem sd_copies be qr lstsq inv sf z d cfg y covs post draws perms :
  is_ok (sd_fit be qr lstsq inv sf z (copies k rows) u t d cfg y covs post draws perms) = false.
Proof.
  unfold sd_fit. destruct (negb _); [reflexivity|]. destruct (sdid_periods _ _ _) as [[pre pst]|]; cbn [bind]; [|reflexivity].
  destruct (sd_treated (copies k rows) u d) as [|a tr] eqn:E; [reflexivity|]. destruct (sd_control _ _ _); [reflexivity|].
  match goal with |- is_ok (bind ?w _) = _ => destruct w as [w'|]; cbn [bind]; [|reflexivity] end. rewrite sd_dup_copies; [reflexivity|]. intros Hn. rewrite (copies_nil rows Hn) in E. discriminate E.
Qed.
Theorem trop_copies svd order score sf ppf cfg y d name draws : rows <> [] -> trop_fit_rows svd order score sf ppf cfg (copies k rows) u t y d name draws = TErr EDuplicate.
Proof. intros H. unfold trop_fit_rows. now rewrite trop_dup_copies. Qed.
End Pivot.

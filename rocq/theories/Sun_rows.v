(* SunAbraham does not depend on the order of the rows, nor on the unit labels. *)
From Coq Require Import Reals Lra Lia.
From Verif Require Import Prelude Flt Stats_model Stats_proofs Linalg_model Linalg_proofs Linalg_vcov Linalg_thms Linalg_rank Linalg_span Reg_equiv Did_model Did_proofs
  Multi_model Multi_proofs Bacon_model Staggered_model Trop_rows Staggered_rows Twfe_equiv Sun_model Sun_proofs Sun_thms Sun_equiv.
From Coq Require Import Arith ZArith String List Permutation FunctionalExtensionality.
Import ListNotations.
Open Scope R_scope.

Section Reg.
Context {I K : Type} (keq : forall x y : K, {x = y} + {x <> y}).
Variable qr : list I -> list (I -> R) -> list nat.
Variable lstsq : list I -> list (I -> R) -> (I -> R) -> list R.
Variable inv : list I -> list (I -> R) -> option (nat -> nat -> R).
Variable pinv : list I -> list (I -> R) -> nat -> nat -> R.
Hypothesis Hqr : qr_ok qr.
Hypothesis Hls : lstsq_ok lstsq.
Hypothesis Hinv : inv_ok inv.
Notation lfit := (linreg_fit keq qr lstsq inv pinv).

(* two fits of a full-rank design on permuted rows: same error, or same coefficients, covariance, degrees of freedom, residuals *)
Definition same_reg (k : nat) (a b : res (linreg I)) : Prop :=
  match a, b with
  | Ok a, Ok b => l_coef a = l_coef b /\ length (l_coef a) = k /\ (forall j m, (j < k)%nat -> (m < k)%nat -> l_vcov a j m = l_vcov b j m) /\
      l_df a = l_df b /\ (forall i, l_resid a i = l_resid b i) /\ (forall i, l_fitted a i = l_fitted b i)
  | Err e, Err f => e = f
  | _, _ => False
  end.

Lemma lstsq_row_order r1 r2 cols y : Permutation r1 r2 -> indep r1 cols -> lstsq r1 cols y = lstsq r2 cols y.
Proof.
  intros P Hi. apply (ls_coef_unique r1 cols y); auto. apply (ls_perm r2); [now apply Permutation_sym|apply Hls].
Qed.
Lemma robust_row_order r1 r2 cols e cluster : Permutation r1 r2 -> indep r1 cols ->
  match robust_vcov keq inv r1 cols e cluster, robust_vcov keq inv r2 cols e cluster with
  | Ok V, Ok V' => forall j m, (j < length cols)%nat -> (m < length cols)%nat -> V j m = V' j m
  | Err a, Err b => a = b
  | _, _ => False
  end.
Proof.
  intros P Hi. destruct (robust_vcov keq inv r1 cols e cluster) as [V|a] eqn:E1, (robust_vcov keq inv r2 cols e cluster) as [V'|b] eqn:E2.
  - exact (robust_vcov_perm keq inv Hinv r1 r2 cols e cluster V V' P E1 E2).
  - exfalso. revert E1 E2. unfold robust_vcov. rewrite <- (Permutation_length P).
    pose proof (Hinv r1 cols) as J1. pose proof (Hinv r2 cols) as J2. apply (indep_perm r1 r2) in Hi; auto.
    destruct cluster as [cl|].
    + rewrite <- (Permutation_length (cl_keys_perm keq r1 r2 cl P)). destruct (Nat.ltb _ _); [discriminate|]. destruct (Nat.eqb _ _); [discriminate|].
      destruct (inv r2 cols); [discriminate|contradiction].
    + destruct (Nat.eqb _ _); [discriminate|]. destruct (inv r2 cols); [discriminate|contradiction].
  - exfalso. revert E1 E2. unfold robust_vcov. rewrite <- (Permutation_length P).
    pose proof (Hinv r1 cols) as J1. destruct cluster as [cl|].
    + rewrite <- (Permutation_length (cl_keys_perm keq r1 r2 cl P)). destruct (Nat.ltb _ _); [discriminate|]. destruct (Nat.eqb _ _); [discriminate|].
      destruct (inv r1 cols); [discriminate|contradiction].
    + destruct (Nat.eqb _ _); [discriminate|]. destruct (inv r1 cols); [discriminate|contradiction].
  - revert E1 E2. unfold robust_vcov. rewrite <- (Permutation_length P).
    pose proof (Hinv r1 cols) as J1. pose proof (Hinv r2 cols) as J2. pose proof (indep_perm r1 r2 cols P Hi) as Hi2. destruct cluster as [cl|].
    + rewrite <- (Permutation_length (cl_keys_perm keq r1 r2 cl P)). destruct (Nat.ltb _ _); [congruence|]. destruct (Nat.eqb _ _); [congruence|].
      destruct (inv r1 cols); [discriminate|contradiction].
    + destruct (Nat.eqb _ _); [congruence|]. destruct (inv r1 cols); [discriminate|contradiction].
Qed.

(* the solver itself *)
Theorem solve_row_order rv action cluster r1 r2 cols y : Permutation r1 r2 -> indep r1 cols ->
  match solve_ols keq qr lstsq inv r1 cols y cluster rv action, solve_ols keq qr lstsq inv r2 cols y cluster rv action with
  | Ok a, Ok b => o_coef a = o_coef b /\ o_resid a = o_resid b /\ o_fitted a = o_fitted b /\ o_warned a = o_warned b /\
      o_coef a = map Fin (lstsq r1 cols y) /\
      match o_vcov a, o_vcov b with
      | Some V, Some V' => forall j m, (j < length cols)%nat -> (m < length cols)%nat -> V j m = V' j m
      | None, None => True | _, _ => False end
  | Err e, Err f => e = f
  | _, _ => False
  end.
Proof.
  intros P Hi. pose proof (indep_perm r1 r2 cols P Hi) as Hi2.
  unfold solve_ols. rewrite (qr_indep_none qr r1 cols Hqr Hi), (qr_indep_none qr r2 cols Hqr Hi2), <- (Permutation_length P), <- (lstsq_row_order r1 r2 cols y P Hi).
  destruct (Nat.ltb _ _); [reflexivity|]. destruct (parse_action action); [|reflexivity].
  set (e := fun i => y i - lc cols (lstsq r1 cols y) i).
  destruct rv; [|cbn; auto 10].
  pose proof (robust_row_order r1 r2 cols e cluster P Hi) as H. 
  destruct (robust_vcov keq inv r1 cols e cluster), (robust_vcov keq inv r2 cols e cluster); cbn [bind]; try contradiction; [|exact H].
  cbn. repeat split; auto. intros j m Hj Hm. rewrite (H j m Hj Hm). reflexivity.
Qed.

Lemma kept_all (b : list R) n : length b = n -> finite_positions (map Fin b) = kept_cols n [].
Proof.
  intros <-. unfold finite_positions, kept_cols. rewrite map_length. apply filter_ext_in. intros a Ha. apply in_seq in Ha.
  rewrite (nth_indep _ NaN (Fin 0)) by (rewrite map_length; lia). rewrite map_nth. reflexivity.
Qed.
Lemma kept_lt n j p : index_of j (kept_cols n []) = Some p -> (p < n)%nat.
Proof.
  assert (Lk : length (kept_cols n []) = n).
  { unfold kept_cols. rewrite (filter_ext_in _ (fun _ => true)) by reflexivity. rewrite <- (seq_length n 0) at 2. f_equal. clear. induction (seq 0 n); simpl; congruence. }
  assert (IL : forall l x m, index_of x l = Some m -> (m < length l)%nat).
  { clear. induction l as [|z l IH]; intros x m; simpl; [discriminate|]. destruct (Nat.eqb _ _); [injection 1 as <-; lia|].
    destruct (index_of x l) eqn:E; simpl; [|discriminate]. injection 1 as <-. specialize (IH _ _ E). lia. }
  intros H. apply IL in H. rewrite Lk in H. exact H.
Qed.
Lemma inv_row_order r1 r2 cols : Permutation r1 r2 -> indep r1 cols ->
  exists B1 B2, inv r1 cols = Some B1 /\ inv r2 cols = Some B2 /\ forall p q, (p < length cols)%nat -> (q < length cols)%nat -> B1 p q = B2 p q.
Proof.
  intros P Hi. pose proof (indep_perm r1 r2 cols P Hi) as Hi2. pose proof (Hinv r1 cols) as J1. pose proof (Hinv r2 cols) as J2.
  destruct (inv r1 cols) as [B1|]; [|contradiction]. destruct (inv r2 cols) as [B2|]; [|contradiction]. exists B1, B2. split; [reflexivity|]. split; [reflexivity|].
  intros p q Hp Hq. apply (inverse_unique r2 cols); auto. apply (is_inverse_perm r1); auto.
Qed.

Theorem linreg_row_order robust cluster action nabs r1 r2 cols y : Permutation r1 r2 -> indep r1 cols ->
  same_reg (length cols) (lfit robust cluster action nabs r1 cols y) (lfit robust cluster action nabs r2 cols y).
Proof.
  intros P Hi. assert (Ln : length (lstsq r1 cols y) = length cols) by apply (Hls r1 cols y).
  unfold linreg_fit. set (rv := match cluster with Some _ => true | None => robust end).
  pose proof (solve_row_order rv action cluster r1 r2 cols y P Hi) as H.
  destruct (solve_ols keq qr lstsq inv r1 cols y cluster rv action) as [a|], (solve_ols keq qr lstsq inv r2 cols y cluster rv action) as [b|]; cbn [bind same_reg]; try contradiction; [|exact H].
  destruct H as (Hc & Hr & Hf & _ & Hm & HV). cbn [l_coef l_vcov l_df l_resid l_fitted]. rewrite <- Hc, <- Hr, <- Hf, <- (Permutation_length P).
  split; [reflexivity|]. split; [rewrite Hm, map_length; exact Ln|]. split; [|auto].
  intros j m Hj Hm'. destruct (o_vcov a) as [V|], (o_vcov b) as [V'|]; try contradiction; [apply HV; assumption|].
  unfold classical_vcov. rewrite Hm, (kept_all _ _ Ln), select_cols_full. destruct (Nat.eqb _ 0); [reflexivity|].
  rewrite <- (sumf_perm (fun i => o_resid a i * o_resid a i) r1 r2 P), <- (Permutation_length P).
  destruct (inv_row_order r1 r2 cols P Hi) as (B1 & B2 & E1 & E2 & EB). unfold bread. rewrite E1, E2.
  destruct (index_of j _) as [p|] eqn:Ep; [|reflexivity]. destruct (index_of m _) as [q|] eqn:Eq; [|reflexivity].
  rewrite (EB p q); [reflexivity| |]; eapply kept_lt; eassumption.
Qed.
End Reg.

Section S.
Context {I : Type}.
Variables (rows rows' : list I) (u t : I -> Z) (g : I -> coh).
Hypothesis P : Permutation rows rows'.
Hypothesis Hg : forall i j, In i rows -> In j rows -> u i = u j -> g i = g j.

Lemma sr_units : sa_units u rows' = sa_units u rows.
Proof. exact (p_units rows rows' u P). Qed.
Lemma sr_cohort : sa_cohort u g rows' = sa_cohort u g rows.
Proof. exact (p_cohort rows rows' u g P Hg). Qed.
Lemma sr_never : sa_never u g rows' = sa_never u g rows.
Proof.
  apply functional_extensionality. intros a. unfold sa_never. pose proof (filter_perm (fun i => Z.eqb (u i) a) rows rows' P) as Q.
  destruct (filter _ rows) as [|i l] eqn:E1; [apply Permutation_nil in Q; now rewrite Q|].
  destruct (filter _ rows') as [|j m] eqn:E2; [apply Permutation_sym, Permutation_nil in Q; discriminate|].
  assert (Hi : In i (filter (fun i => Z.eqb (u i) a) rows)) by (rewrite E1; now left). assert (Hj : In j (filter (fun i => Z.eqb (u i) a) rows')) by (rewrite E2; now left).
  apply filter_In in Hi as [Hi K1]. apply filter_In in Hj as [Hj K2]. apply Z.eqb_eq in K1, K2. f_equal. apply Hg; [|exact Hi|congruence].
  apply (Permutation_in _ (Permutation_sym P)). exact Hj.
Qed.
Lemma sr_n_treated : sa_n_treated u g rows' = sa_n_treated u g rows.
Proof. unfold sa_n_treated. now rewrite sr_units, sr_cohort. Qed.
Lemma sr_n_control : sa_n_control u g rows' = sa_n_control u g rows.
Proof. unfold sa_n_control. now rewrite sr_units, sr_never. Qed.
Lemma sr_groups : sa_groups g rows' = sa_groups g rows.
Proof. exact (p_groups rows rows' g P). Qed.
Lemma sr_rel_times : sa_rel_times t g rows' = sa_rel_times t g rows.
Proof. unfold sa_rel_times. symmetry. apply zsort_nodup_perm. apply Permutation_flat_map, P. Qed.
Lemma sr_rel_periods cfg : sa_rel_periods t g cfg rows' = sa_rel_periods t g cfg rows.
Proof.
  unfold sa_rel_periods, sa_min_rel, sa_max_rel, sa_has_inf. rewrite sr_rel_times, (perm_existsb (fun i => c_eqb (g i) CInf) rows rows' P). reflexivity.
Qed.
Lemma sr_sample cfg : Permutation (sa_sample g cfg rows) (sa_sample g cfg rows').
Proof. unfold sa_sample. destruct (String.eqb _ _); [apply filter_perm|]; exact P. Qed.
Lemma sr_n_at : sa_n_at t g rows' = sa_n_at t g rows.
Proof. apply functional_extensionality. intros e. unfold sa_n_at. symmetry. apply Permutation_length, filter_perm, P. Qed.
Lemma sr_size : sa_size u g rows' = sa_size u g rows.
Proof. apply functional_extensionality. intros gr. unfold sa_size. now rewrite sr_units, sr_cohort. Qed.
End S.

Lemma sr_keys_perm {I} (r1 r2 : list I) t g groups rels : Permutation r1 r2 -> sa_keys t g groups rels r2 = sa_keys t g groups rels r1.
Proof. intros P. unfold sa_keys. apply filter_ext. intros k. symmetry. apply (perm_existsb _ _ _ P). Qed.
Lemma within_row_order {I U T} (ueq : forall a b : U, {a = b} + {a <> b}) (teq : forall a b : T, {a = b} + {a <> b}) (r1 r2 : list I) u t (x : I -> R) :
  Permutation r1 r2 -> within ueq teq r1 u t x = within ueq teq r2 u t x.
Proof.
  intros P. apply functional_extensionality. intros i. unfold within, group_mean.
  rewrite (meanf_perm x _ _ (filter_perm (fun j => keqb ueq (u j) (u i)) r1 r2 P)),
    (meanf_perm x _ _ (filter_perm (fun j => keqb teq (t j) (t i)) r1 r2 P)), (meanf_perm x _ _ P). reflexivity.
Qed.
Lemma sr_cols_perm {I} (r1 r2 : list I) u t g covs keys : Permutation r1 r2 -> sa_cols u t g covs keys r2 = sa_cols u t g covs keys r1.
Proof.
  intros P. unfold sa_cols. f_equal; apply map_ext; intros; symmetry; apply within_row_order; exact P.
Qed.

(* the reported numbers depend on the covariance only through the entries of the interactions *)
Lemma quad_ext V V' n l : (forall j m, (j < n)%nat -> (m < n)%nat -> V j m = V' j m) -> (forall p, In p l -> (fst p < n)%nat) -> quad V l = quad V' l.
Proof.
  intros H Hl. unfold quad. f_equal. apply map_ext_in. intros a Ha. f_equal. apply map_ext_in. intros b Hb. rewrite (H (fst a) (fst b)); auto.
Qed.

Section Fit.
Context {I : Type}.
Variable qr : list I -> list (I -> R) -> list nat.
Variable lstsq : list I -> list (I -> R) -> (I -> R) -> list R.
Variable inv : list I -> list (I -> R) -> option (nat -> nat -> R).
Variable pinv : list I -> list (I -> R) -> nat -> nat -> R.
Variable sf : option Z -> fl -> fl.
Variable ppf : option Z -> R -> R.
Hypothesis Hqr : qr_ok qr.
Hypothesis Hls : lstsq_ok lstsq.
Hypothesis Hinv : inv_ok inv.
Variables (u t : I -> Z) (g : I -> coh) (y : I -> R) (covs : list (I -> R)) (cluster : option (I -> Z)).

(* agreement of two fitted saturated regressions *)
Definition sr_same (a b : sa_reg) : Prop :=
  sr_keys a = sr_keys b /\ sr_keys a <> [] /\ sr_coef a = sr_coef b /\
  forall j m, (j < length (sr_keys a))%nat -> (m < length (sr_keys a))%nat -> sr_vcov a j m = sr_vcov b j m.

Lemma same_idx a b k : sr_same a b -> sr_idx a k = sr_idx b k /\ (sr_idx a k < length (sr_keys a))%nat /\ sr_eff a k = sr_eff b k /\ sr_has a k = sr_has b k.
Proof.
  intros (Hk & Hn & Hc & _). pose proof (idx_lt a k Hn) as L. unfold sr_idx, sr_eff, sr_has, sr_at in *. rewrite <- Hk, <- Hc. auto.
Qed.
Lemma same_effect alpha a b e w : sr_same a b -> sa_effect sf ppf alpha a e w = sa_effect sf ppf alpha b e w.
Proof.
  intros H. unfold sa_effect.
  replace (map (fun gw => fmul (Fin (snd gw)) (sr_eff b (fst gw, e))) w) with (map (fun gw : coh * R => fmul (Fin (snd gw)) (sr_eff a (fst gw, e))) w)
    by (apply map_ext; intros gw; now rewrite (proj1 (proj2 (proj2 (same_idx a b (fst gw, e) H))))).
  replace (map (fun gw => (sr_idx b (fst gw, e), snd gw)) w) with (map (fun gw : coh * R => (sr_idx a (fst gw, e), snd gw)) w)
    by (apply map_ext; intros gw; now rewrite (proj1 (same_idx a b (fst gw, e) H))).
  rewrite (quad_ext (sr_vcov a) (sr_vcov b) (length (sr_keys a))); [reflexivity|apply H|].
  intros p Hp. apply in_map_iff in Hp as (gw & <- & _). cbn [fst]. apply (same_idx a b (fst gw, e) H).
Qed.
Lemma same_overall (rows : list I) a b es : sr_same a b -> sa_overall t g rows a es = sa_overall t g rows b es.
Proof.
  intros H. unfold sa_overall. destruct (sa_post es) as [|p l]; [reflexivity|]. destruct (sa_overall_weights t g rows es) as [|kw ws]; [reflexivity|]. f_equal. f_equal. f_equal.
  rewrite (map_ext (fun kw => (sr_idx b (fst kw), snd kw)) (fun kw => (sr_idx a (fst kw), snd kw))) by (intros x; now rewrite (proj1 (same_idx a b (fst x) H))).
  apply (quad_ext _ _ (length (sr_keys a))); [apply H|]. intros q Hq. apply in_map_iff in Hq as (x & <- & _). cbn [fst]. apply (same_idx a b (fst x) H).
Qed.

Variables (rows rows' : list I) (cfg : sa_config).
Hypothesis P : Permutation rows rows'.
Hypothesis Hg : forall i j, In i rows -> In j rows -> u i = u j -> g i = g j.
(* the interactions and the covariates, demeaned on the estimation sample, are linearly independent *)
Definition sa_full_rank : Prop :=
  indep (sa_sample g cfg rows) (sa_cols u t g covs (sa_keys t g (sa_groups g rows) (sa_rel_periods t g cfg rows) (sa_sample g cfg rows)) (sa_sample g cfg rows)).

Lemma sat_rows groups rels : let keys := sa_keys t g groups rels (sa_sample g cfg rows) in
  indep (sa_sample g cfg rows) (sa_cols u t g covs keys (sa_sample g cfg rows)) ->
  match sa_saturated qr lstsq inv pinv u t g y covs cluster cfg groups rels (sa_sample g cfg rows),
        sa_saturated qr lstsq inv pinv u t g y covs cluster cfg groups rels (sa_sample g cfg rows') with
  | Ok a, Ok b => sr_same a b
  | Err e, Err f => e = f
  | _, _ => False
  end.
Proof.
  intros keys Hi. pose proof (sr_sample rows rows' g P cfg) as Q. set (s := sa_sample g cfg rows) in *. set (s' := sa_sample g cfg rows') in *.
  unfold sa_saturated. rewrite (sr_keys_perm s s' t g groups rels Q). fold keys. destruct keys as [|k0 ks] eqn:Ek; [reflexivity|]. assert (Hn : keys <> []) by congruence. rewrite <- Ek in *. clear Ek k0 ks.
  rewrite (sr_cols_perm s s' u t g covs keys Q), <- (within_row_order Z.eq_dec Z.eq_dec s s' u t y Q).
  set (cl := match cluster with Some c => c | None => u end).
  pose proof (linreg_row_order Z.eq_dec qr lstsq inv pinv Hqr Hls Hinv true (Some cl) (sa_action cfg) 0 s s' (sa_cols u t g covs keys s) (within Z.eq_dec Z.eq_dec s u t y) Q Hi) as H.
  destruct (linreg_fit _ _ _ _ _ _ _ _ _ s _ _) as [a|e], (linreg_fit _ _ _ _ _ _ _ _ _ s' _ _) as [b|f]; cbn [bind same_reg] in *; try contradiction; [|exact H].
  destruct H as (Hc & _ & HV & _). split; [reflexivity|]. cbn [sr_keys sr_coef sr_vcov]. split; [exact Hn|]. split; [exact Hc|].
  assert (L : (length keys <= length (sa_cols u t g covs keys s))%nat) by (unfold sa_cols; rewrite app_length, !map_length; lia).
  intros j m Hj Hm. apply HV; lia.
Qed.

(* the whole result object, errors included *)
Theorem sa_row_order : sa_full_rank ->
  sa_fit qr lstsq inv pinv sf ppf u t g y covs cluster cfg rows' = sa_fit qr lstsq inv pinv sf ppf u t g y covs cluster cfg rows.
Proof.
  intros Hi. unfold sa_fit. rewrite (sr_n_control rows rows' u g P Hg), (sr_groups rows rows' g P), (sr_n_treated rows rows' u g P Hg), <- (Permutation_length P).
  destruct (Nat.eqb _ 0); [reflexivity|]. unfold sa_full_rank in Hi. destruct (sa_groups g rows) as [|g0 gs] eqn:Eg; [reflexivity|]. rewrite <- Eg in *.
  rewrite (sr_rel_periods rows rows' t g P cfg). set (rels := sa_rel_periods t g cfg rows) in *. unfold sa_estimate.
  pose proof (sat_rows (sa_groups g rows) rels Hi) as H.
  destruct (sa_saturated _ _ _ _ _ _ _ _ _ _ _ _ _ (sa_sample g cfg rows)) as [a|e],
    (sa_saturated _ _ _ _ _ _ _ _ _ _ _ _ _ (sa_sample g cfg rows')) as [b|f]; cbn [bind]; try contradiction; [|now rewrite H].
  assert (EW : forall e, sa_weights u g (sa_groups g rows) b rows' e = sa_weights u g (sa_groups g rows) a rows e).
  { intros e. unfold sa_weights. rewrite (sr_size rows rows' u g P Hg). rewrite (filter_ext (fun gr => sr_has b (gr, e)) (fun gr => sr_has a (gr, e))); [reflexivity|].
    intros gr. symmetry. apply (same_idx a b (gr, e) H). }
  assert (EI : sa_iw sf ppf u g cfg (sa_groups g rows) rels b rows' = sa_iw sf ppf u g cfg (sa_groups g rows) rels a rows).
  { unfold sa_iw. apply flat_map_ext. intros e. rewrite EW. destruct (sa_weights _ _ _ _ _ _); [reflexivity|]. now rewrite (same_effect _ a b e _ H). }
  rewrite EI. set (es := sa_iw sf ppf u g cfg (sa_groups g rows) rels a rows).
  assert (EO : sa_overall t g rows' b es = sa_overall t g rows a es).
  { rewrite (same_overall rows a b es H). unfold sa_overall, sa_overall_weights, sa_pw. rewrite (sr_n_at rows rows' t g P). reflexivity. }
  rewrite EO. destruct (sa_overall t g rows a es) as [att se]. do 2 f_equal. rewrite <- (proj1 H). apply map_ext_in. intros k Hk.
  destruct (same_idx a b k H) as (E1 & L1 & E2 & _). rewrite <- E1, E2. rewrite (proj2 (proj2 (proj2 H)) _ _ L1 L1). reflexivity.
Qed.
End Fit.

(* ---- MultiPeriodDiD ---- *)
Section Multi.
Context {I K G : Type} (keq : forall x y : K, {x = y} + {x <> y}) (geq : forall x y : G, {x = y} + {x <> y}).
Variable qr : list I -> list (I -> R) -> list nat.
Variable lstsq : list I -> list (I -> R) -> (I -> R) -> list R.
Variable inv : list I -> list (I -> R) -> option (nat -> nat -> R).
Variable sf : option Z -> fl -> fl.
Variable ppf : option Z -> R -> R.
Hypothesis Hqr : qr_ok qr.
Hypothesis Hls : lstsq_ok lstsq.
Hypothesis Hinv : inv_ok inv.

Lemma demean_row_order (r1 r2 : list I) (g : I -> G) x : Permutation r1 r2 -> demean geq r1 g x = demean geq r2 g x.
Proof.
  intros P. apply functional_extensionality. intros i. unfold demean, group_mean.
  rewrite (meanf_perm x _ _ (filter_perm (fun j => keqb geq (g j) (g i)) r1 r2 P)). reflexivity.
Qed.
Lemma absorb_row_order (r1 r2 : list I) (gs : list (I -> G)) : Permutation r1 r2 -> forall y covs, absorb_loop geq r1 gs y covs = absorb_loop geq r2 gs y covs.
Proof.
  intros P. induction gs as [|g gs IH]; intros y covs; cbn [absorb_loop]; [reflexivity|].
  rewrite IH, (demean_row_order r1 r2 g y P), (map_ext (demean geq r1 g) (demean geq r2 g)) by (intros; apply demean_row_order, P).
  assert (E : n_effects geq r1 g = n_effects geq r2 g).
  { unfold n_effects. rewrite (nodup_map_perm geq g r1 r2 P). reflexivity. }
  rewrite E. reflexivity.
Qed.
Lemma two_values_row_order (r1 r2 : list I) x : Permutation r1 r2 -> two_values r1 x = two_values r2 x.
Proof.
  intros P. unfold two_values. rewrite (perm_existsb _ _ _ P).
  assert (E : forall l, existsb (fun i => existsb (fun j => negb (feqb (x i) (x j))) r1) l = existsb (fun i => existsb (fun j => negb (feqb (x i) (x j))) r2) l).
  { induction l as [|i l IH]; cbn [existsb]; [reflexivity|]. rewrite IH, (perm_existsb _ _ _ P). reflexivity. }
  apply E.
Qed.
Lemma forallb_row_order (r1 r2 : list I) f : Permutation r1 r2 -> forallb f r1 = forallb f r2.
Proof. induction 1; cbn [forallb]; [reflexivity|now rewrite IHPermutation|destruct (f x), (f y); reflexivity|congruence]. Qed.

(* every field agrees; the covariance matrix on the positions of the coefficients *)
Definition mp_same (k : nat) (a b : mp_result I) : Prop :=
  mp_effects a = mp_effects b /\ mp_avg a = mp_avg b /\ mp_avg_se a = mp_avg_se b /\ mp_avg_t a = mp_avg_t b /\ mp_avg_p a = mp_avg_p b /\ mp_avg_ci a = mp_avg_ci b /\
  mp_n_obs a = mp_n_obs b /\ mp_n_treated a = mp_n_treated b /\ mp_n_control a = mp_n_control b /\
  mp_pre a = mp_pre b /\ mp_post a = mp_post b /\ mp_ref a = mp_ref b /\ mp_coef a = mp_coef b /\ mp_resid a = mp_resid b /\ mp_df a = mp_df b /\
  length (mp_coef a) = k /\ forall j m, (j < k)%nat -> (m < k)%nat -> mp_vcov a j m = mp_vcov b j m.

Lemma mp_average_ext alpha df effs V V' n idxs : (forall j m, (j < n)%nat -> (m < n)%nat -> V j m = V' j m) -> (forall a, In a idxs -> (a < n)%nat) ->
  mp_average sf ppf alpha df effs V idxs = mp_average sf ppf alpha df effs V' idxs.
Proof.
  intros HV Hi. unfold mp_average.
  replace (map (fun a => fsum (map (fun b => V' a b) idxs)) idxs) with (map (fun a => fsum (map (fun b => V a b) idxs)) idxs); [reflexivity|].
  apply map_ext_in. intros a Ha. f_equal. apply map_ext_in. intros b Hb. auto.
Qed.

(* the design of the periods in use has linearly independent columns *)
Definition mp_full_rank (rows : list I) (y d : I -> R) (t : I -> Z) post ref covs dums (absorb : list (I -> G)) : Prop :=
  let all := zsort (nodup Z.eq_dec (map t rows)) in
  forall pre post' ref', mp_setup all post ref = Ok (pre, post', ref') ->
    indep rows (mp_design d t all post' ref' (snd (fst (absorb_loop geq rows absorb y covs)) ++ dums)).

Theorem mp_row_order cfg r1 r2 y d t post ref covs dums absorb : Permutation r1 r2 -> mp_full_rank r1 y d t post ref covs dums absorb ->
  match mp_fit keq geq qr lstsq inv sf ppf cfg r1 y d t post ref covs dums absorb, mp_fit keq geq qr lstsq inv sf ppf cfg r2 y d t post ref covs dums absorb with
  | Ok a, Ok b => mp_same (length (mp_coef a)) a b
  | Err e, Err f => e = f
  | _, _ => False
  end.
Proof.
  intros P HF. unfold mp_fit. rewrite <- (two_values_row_order r1 r2 _ P). unfold binary. rewrite <- (forallb_row_order r1 r2 _ P), <- (absorb_row_order r1 r2 absorb P y covs).
  destruct (negb _); [reflexivity|]. destruct (negb _); [reflexivity|].
  rewrite <- (zsort_nodup_perm _ _ (Permutation_map t P)). unfold mp_full_rank in HF. set (all := zsort (nodup Z.eq_dec (map t r1))) in *.
  destruct (Nat.ltb _ 2); [reflexivity|]. destruct (mp_setup all post ref) as [[[pre post'] ref']|e]; cbn [bind]; [|reflexivity].
  specialize (HF pre post' ref' eq_refl). destruct (absorb_loop geq r1 absorb y covs) as [[y' covs'] nabs]. cbn [fst snd] in HF.
  set (cols := mp_design d t all post' ref' (covs' ++ dums)) in *.
  assert (Ln : length (lstsq r1 cols y') = length cols) by apply (Hls r1 cols y').
  pose proof (solve_row_order keq qr lstsq inv Hqr Hls Hinv true (c_action cfg) (c_cluster cfg) r1 r2 cols y' P HF) as H.
  destruct (solve_ols keq qr lstsq inv r1 cols y' (c_cluster cfg) true (c_action cfg)) as [a|], (solve_ols keq qr lstsq inv r2 cols y' (c_cluster cfg) true (c_action cfg)) as [b|];
    cbn [bind]; try contradiction; [|exact H].
  destruct H as (Hc & Hr & _ & _ & Hm & HV). rewrite <- Hc, <- Hr, <- (Permutation_length P).
  assert (HW : match (if negb (c_robust cfg) && (match c_cluster cfg with None => true | _ => false end) then mp_classical inv r1 cols (o_coef a) (o_resid a)
                      else match o_vcov a with Some V => Ok V | None => Err TypeError end),
                     (if negb (c_robust cfg) && (match c_cluster cfg with None => true | _ => false end) then mp_classical inv r2 cols (o_coef a) (o_resid a)
                      else match o_vcov b with Some V => Ok V | None => Err TypeError end) with
               | Ok V, Ok V' => forall j m, (j < length cols)%nat -> (m < length cols)%nat -> V j m = V' j m
               | Err e, Err f => e = f | _, _ => False end).
  { destruct (_ && _)%bool.
    - unfold mp_classical. rewrite Hm, (kept_all _ _ Ln), select_cols_full, <- (sumf_perm (fun i => o_resid a i * o_resid a i) r1 r2 P), <- (Permutation_length P).
      destruct (inv_row_order inv Hinv r1 r2 cols P HF) as (B1 & B2 & E1 & E2 & EB). rewrite E1, E2. intros j m _ _.
      destruct (index_of j _) as [p|] eqn:Ep; [|reflexivity]. destruct (index_of m _) as [q|] eqn:Eq; [|reflexivity].
      rewrite (EB p q); [reflexivity| |]; eapply kept_lt; eassumption.
    - destruct (o_vcov a), (o_vcov b); try contradiction; auto. }
  destruct (if (_ && _)%bool then mp_classical inv r1 _ _ _ else _) as [V|], (if (_ && _)%bool then mp_classical inv r2 _ _ _ else _) as [V'|]; cbn [bind]; try contradiction; [|exact HW].
  set (idxs := map (mp_index all ref') (seq 0 (length post'))).
  assert (HI : forall a, In a idxs -> (a < length cols)%nat).
  { intros x Hx. apply in_map_iff in Hx as (j & <- & Hj). apply in_seq in Hj. unfold mp_index, cols, mp_design. rewrite !app_length, !map_length. simpl length. lia. }
  assert (HE : map (fun pj => mp_effect sf ppf (c_alpha cfg) (Z.of_nat (length r1) - n_effective (o_coef a) - nabs) (o_coef a) V' (fst pj) (snd pj)) (combine post' idxs)
             = map (fun pj => mp_effect sf ppf (c_alpha cfg) (Z.of_nat (length r1) - n_effective (o_coef a) - nabs) (o_coef a) V (fst pj) (snd pj)) (combine post' idxs)).
  { apply map_ext_in. intros [p j] Hp. apply in_combine_r in Hp. apply HI in Hp. unfold mp_effect. cbn [fst snd]. rewrite (HW j j Hp Hp). reflexivity. }
  rewrite HE, <- (mp_average_ext _ _ _ V V' (length cols) idxs HW HI), <- (sumf_perm d r1 r2 P), <- (sumf_perm (fun i => 1 - d i) r1 r2 P).
  destruct (mp_average _ _ _ _ _ _ _) as [[[[av ase] at'] ap] aci]. unfold mp_same. cbn.
  repeat (split; [reflexivity|]). intros j m. rewrite Hm, map_length, Ln. apply HW.
Qed.
End Multi.

(* ---- unit labels ---- *)
Section Label.
Context {I : Type}.
Variable qr : list I -> list (I -> R) -> list nat.
Variable lstsq : list I -> list (I -> R) -> (I -> R) -> list R.
Variable inv : list I -> list (I -> R) -> option (nat -> nat -> R).
Variable pinv : list I -> list (I -> R) -> nat -> nat -> R.
Variable sf : option Z -> fl -> fl.
Variable ppf : option Z -> R -> R.
Variables (u t : I -> Z) (g : I -> coh) (y : I -> R) (covs : list (I -> R)) (cluster : option (I -> Z)) (f : Z -> Z).
Hypothesis Hf : forall a b, f a = f b -> a = b.
Notation u' := (fun i => f (u i)).

Lemma eqb_relabel a b : Z.eqb (f a) (f b) = Z.eqb a b.
Proof. destruct (Z.eqb_spec a b) as [->|N]; [apply Z.eqb_refl|]. apply Z.eqb_neq. intros E. apply N, Hf, E. Qed.
Lemma keqb_relabel a b : keqb Z.eq_dec (f a) (f b) = keqb Z.eq_dec a b.
Proof. unfold keqb. destruct (Z.eq_dec (f a) (f b)) as [E|E], (Z.eq_dec a b) as [E'|E']; auto; [apply Hf in E; contradiction|subst; contradiction]. Qed.
Lemma within_relabel rows x : within Z.eq_dec Z.eq_dec rows u' t x = within Z.eq_dec Z.eq_dec rows u t x.
Proof.
  apply functional_extensionality. intros i. unfold within, group_mean. rewrite (filter_ext _ (fun j => keqb Z.eq_dec (u j) (u i))); [reflexivity|]. intros j. apply keqb_relabel.
Qed.
Lemma units_relabel rows (p : Z -> bool) : length (filter p (sa_units u' rows)) = length (filter (fun a => p (f a)) (sa_units u rows)).
Proof.
  unfold sa_units. rewrite (Permutation_length (filter_perm p _ _ (zsort_perm _))), (Permutation_length (filter_perm (fun a => p (f a)) _ _ (zsort_perm _))).
  rewrite <- (map_map u f), (nodup_map_inj Z.eq_dec Z.eq_dec f) by (intros; auto). clear.
  induction (nodup Z.eq_dec (map u rows)) as [|a l IH]; [reflexivity|]. cbn. destruct (p (f a)); cbn; auto.
Qed.
Lemma rows_relabel rows a : filter (fun i => Z.eqb (f (u i)) (f a)) rows = filter (fun i => Z.eqb (u i) a) rows.
Proof. apply filter_ext. intros i. apply eqb_relabel. Qed.
Lemma cohort_relabel rows a : sa_cohort u' g rows (f a) = sa_cohort u g rows a.
Proof. unfold sa_cohort, unit_cohort. now rewrite rows_relabel. Qed.

Lemma robust_relabel_expand rows cols e (cl cl' : I -> Z) : (cl' = cl \/ cl' = fun i => f (cl i)) ->
  match robust_vcov Z.eq_dec inv rows cols e (Some cl), robust_vcov Z.eq_dec inv rows cols e (Some cl') with
  | Ok V, Ok V' => forall j m, (j < length cols)%nat -> (m < length cols)%nat -> V' j m = V j m
  | Err x, Err x' => x = x'
  | _, _ => False
  end.
Proof.
  intros [->| ->].
  - destruct (robust_vcov _ _ _ _ _ _); auto.
  - apply (robust_vcov_relabel Z.eq_dec Z.eq_dec). intros; auto.
Qed.

Lemma index_lt l x m : index_of x l = Some m -> (m < length l)%nat.
Proof.
  revert m. induction l as [|z l IH]; intros m; simpl; [discriminate|]. destruct (Nat.eqb _ _); [injection 1 as <-; lia|].
  destruct (index_of x l) eqn:E; simpl; [|discriminate]. injection 1 as <-. specialize (IH _ eq_refl). lia.
Qed.
Lemma sat_relabel cfg groups rels rows :
  match sa_saturated qr lstsq inv pinv u t g y covs cluster cfg groups rels rows, sa_saturated qr lstsq inv pinv u' t g y covs cluster cfg groups rels rows with
  | Ok a, Ok b => sr_same a b
  | Err e, Err f => e = f
  | _, _ => False
  end.
Proof.
  unfold sa_saturated. destruct (sa_keys t g groups rels rows) as [|k0 ks] eqn:Ek; [reflexivity|]. rewrite <- Ek.
  assert (Hn : sa_keys t g groups rels rows <> []) by congruence. set (keys := sa_keys t g groups rels rows) in *. clear Ek k0 ks.
  assert (EC : sa_cols u' t g covs keys rows = sa_cols u t g covs keys rows) by (unfold sa_cols; f_equal; apply map_ext; intros; apply within_relabel).
  rewrite EC, within_relabel. set (cols := sa_cols u t g covs keys rows).
  assert (L : (length keys <= length cols)%nat) by (unfold cols, sa_cols; rewrite app_length, !map_length; lia).
  set (cl := match cluster with Some c => c | None => u end). set (cl' := match cluster with Some c => c | None => u' end).
  assert (Hcl : cl' = cl \/ cl' = fun i => f (cl i)) by (unfold cl', cl; destruct cluster; [left|right]; reflexivity).
  clearbody cl cl'. set (Y := within Z.eq_dec Z.eq_dec rows u t y). unfold linreg_fit, solve_ols.
  destruct (Nat.ltb _ _); [reflexivity|]. destruct (parse_action _) as [act|]; [|reflexivity].
  destruct (qr rows cols) as [|d0 ds].
  - pose proof (robust_relabel_expand rows cols (fun i => Y i - lc cols (lstsq rows cols Y) i) cl cl' Hcl) as H.
    destruct (robust_vcov _ _ _ _ _ (Some cl)), (robust_vcov _ _ _ _ _ (Some cl')); cbn [bind]; try contradiction; [|exact H].
    split; [reflexivity|]. cbn. split; [exact Hn|]. split; [reflexivity|]. intros j m Hj Hm. rewrite H by lia. reflexivity.
  - destruct act; try reflexivity; (destruct (Nat.eqb _ 0); [reflexivity|]; set (kept := kept_cols _ _); set (xr := select_cols cols kept);
    pose proof (robust_relabel_expand rows xr (fun i => Y i - lc xr (lstsq rows xr Y) i) cl cl' Hcl) as H;
    destruct (robust_vcov _ _ _ _ _ (Some cl)), (robust_vcov _ _ _ _ _ (Some cl')); cbn [bind]; try contradiction; [|exact H];
    split; [reflexivity|]; cbn; split; [exact Hn|]; split; [reflexivity|]; intros j m Hj Hm; unfold expand_vcov;
    destruct (index_of j kept) as [p|] eqn:Ep; [|reflexivity]; destruct (index_of m kept) as [q|] eqn:Eq; [|reflexivity];
    apply index_lt in Ep, Eq; rewrite H; [reflexivity| |]; unfold xr, select_cols; rewrite map_length; assumption).
Qed.

Theorem sa_unit_labels cfg rows :
  sa_fit qr lstsq inv pinv sf ppf u' t g y covs cluster cfg rows = sa_fit qr lstsq inv pinv sf ppf u t g y covs cluster cfg rows.
Proof.
  assert (ENC : sa_n_control u' g rows = sa_n_control u g rows).
  { unfold sa_n_control. rewrite units_relabel. f_equal. apply filter_ext. intros a. unfold sa_never. now rewrite rows_relabel. }
  assert (ENT : sa_n_treated u' g rows = sa_n_treated u g rows).
  { unfold sa_n_treated. rewrite units_relabel. f_equal. apply filter_ext. intros a. now rewrite cohort_relabel. }
  assert (ESZ : sa_size u' g rows = sa_size u g rows).
  { apply functional_extensionality. intros gr. unfold sa_size. rewrite units_relabel. f_equal. apply filter_ext. intros a. now rewrite cohort_relabel. }
  unfold sa_fit. rewrite ENC, ENT. destruct (Nat.eqb _ 0); [reflexivity|]. destruct (sa_groups g rows) as [|g0 gs] eqn:Eg; [reflexivity|]. rewrite <- Eg in *.
  set (rels := sa_rel_periods t g cfg rows). unfold sa_estimate. pose proof (sat_relabel cfg (sa_groups g rows) rels (sa_sample g cfg rows)) as H.
  destruct (sa_saturated _ _ _ _ u _ _ _ _ _ _ _ _ _) as [a|e], (sa_saturated _ _ _ _ u' _ _ _ _ _ _ _ _ _) as [b|e']; cbn [bind]; try contradiction; [|now rewrite H].
  assert (EI : sa_iw sf ppf u' g cfg (sa_groups g rows) rels b rows = sa_iw sf ppf u g cfg (sa_groups g rows) rels a rows).
  { unfold sa_iw. apply flat_map_ext. intros e. unfold sa_weights. rewrite ESZ.
    rewrite (filter_ext (fun gr => sr_has b (gr, e)) (fun gr => sr_has a (gr, e))) by (intros gr; symmetry; apply (same_idx a b (gr, e) H)).
    destruct (if Req_EM_T _ 0 then _ else _); [reflexivity|]. now rewrite (same_effect sf ppf _ a b e _ H). }
  rewrite EI. set (es := sa_iw sf ppf u g cfg (sa_groups g rows) rels a rows). rewrite (same_overall t g rows a b es H).
  destruct (sa_overall t g rows b es) as [att se]. do 2 f_equal. rewrite <- (proj1 H). apply map_ext_in. intros k Hk.
  destruct (same_idx a b k H) as (E1 & L1 & E2 & _). rewrite <- E1, E2. rewrite (proj2 (proj2 (proj2 H)) _ _ L1 L1). reflexivity.
Qed.
End Label.

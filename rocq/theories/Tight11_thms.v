(* The outcome regressions of the doubly robust triple difference and the R-squared it reports (C31). *)
From Coq Require Import Reals Lra Lia.
From Verif Require Import Prelude Flt Stats_model Linalg_model Linalg_proofs Linalg_vcov Linalg_thms Linalg_dual Linalg_rank Linalg_span Did_model Did_spec Did_proofs Did_equiv Span_thms Multi_model
  Triple_model Triple_proofs Triple_thms Triple_fit Triple_ex Reg_effects Swap_proofs.
From Coq Require Import Arith ZArith String List.
Import ListNotations.
Open Scope R_scope.

Section Dr.
Context {I K : Type} (keq : forall x y : K, {x = y} + {x <> y}).
Variable qr : list I -> list (I -> R) -> list nat.
Variable lstsq : list I -> list (I -> R) -> (I -> R) -> list R.
Variable inv : list I -> list (I -> R) -> option (nat -> nat -> R).
Variable pinv : list I -> list (I -> R) -> nat -> nat -> R.
Variable sf : option Z -> fl -> fl.
Variable ppf : option Z -> R -> R.
Variable logit : list I -> list (I -> R) -> (I -> R) -> option (I -> R).
Hypothesis Hqr : qr_ok qr.
Hypothesis Hls : lstsq_ok lstsq.
Hypothesis Hinv : inv_ok inv.
Notation fit := (ddd_fit keq qr lstsq inv pinv sf ppf logit).
Notation f x := (fun i => oR (x i)).
Notation mu := (mu_fit keq qr lstsq inv).

Lemma filter_full {A} (g : A -> bool) l : length (filter g l) = length l -> filter g l = l.
Proof.
  induction l as [|x l IH]; [reflexivity|]. cbn [filter]. destruct (g x); cbn [length].
  - intros H. f_equal. apply IH. lia.
  - intros H. assert (B : (length (filter g l) <= length l)%nat) by (clear; induction l as [|z l IH]; cbn [filter]; [cbn; lia|]; destruct (g z); cbn [length]; lia). lia.
Qed.
Lemma kept_cols_all k d : length (kept_cols k d) = k -> kept_cols k d = seq 0 k.
Proof. unfold kept_cols. intros H. apply filter_full. now rewrite seq_length. Qed.
Lemma mu_same action rows y G P T X i k : In k (cell8 rows G P T (G i) (P i) (T i)) ->
  mu action rows y G P T X k = mu_cell keq qr lstsq inv action (cell8 rows G P T (G i) (P i) (T i)) y T X k.
Proof. intros H. apply cell8_in in H as (_ & E1 & E2 & E3). unfold mu_fit. now rewrite E1, E2, E3. Qed.

Theorem dr_outcome_model action rows (y G P T : I -> R) X i : X <> [] -> In i rows ->
  let c := cell8 rows G P T (G i) (P i) (T i) in let m := mu action rows y G P T X in
  (length c = 1%nat -> m i = y i) /\
  ((2 <= length c)%nat -> (length c < 2 + length X)%nat \/ (action <> "warn" /\ action <> "silent")%string -> m i = meanf y c) /\
  ((2 + length X <= length c)%nat -> action = "warn"%string \/ action = "silent"%string ->
     span c ((fun _ => 1) :: X) m /\ forall z, In z ((fun _ => 1) :: X) -> ip c z (fun k => y k - m k) = 0).
Proof.
  intros HX Hi c m.
  assert (Hic : In i c) by (apply cell8_in; auto).
  assert (Em : forall k, In k c -> m k = mu_cell keq qr lstsq inv action c y T X k) by (intros k Hk; apply mu_same; exact Hk).
  assert (Tc : forall k, In k c -> T k = T i) by (intros k Hk; apply cell8_in in Hk; tauto).
  destruct X as [|x X]; [congruence|]. unfold mu_cell in Em. set (cols := (fun _ : I => 1) :: (x :: X) ++ [T]) in *.
  assert (Lc : length cols = (2 + length (x :: X))%nat) by (unfold cols; cbn [length]; rewrite app_length; cbn; lia).
  split; [|split].
  - intros L. rewrite Em by auto. rewrite L. reflexivity.
  - intros L H. rewrite Em by auto. destruct (Nat.ltb_spec 1 (length c)); [|lia].
    destruct (solve_ols keq qr lstsq inv c cols y None false action) as [o|] eqn:Eo; [|reflexivity]. exfalso.
    assert (is_ok (solve_ols keq qr lstsq inv c cols y None false action) = true) as Ok0 by now rewrite Eo.
    rewrite (solve_is_ok keq qr lstsq inv Hqr Hinv) in Ok0. apply andb_prop in Ok0 as [O1 O2].
    destruct H as [H|[H1 H2]]; [apply Bool.negb_true_iff, Nat.ltb_ge in O1; lia|].
    unfold parse_action in O2. destruct (String.eqb_spec action "warn"); [congruence|]. destruct (String.eqb_spec action "silent"); [|].
    + congruence.
    + destruct (String.eqb action "error") eqn:E; [|discriminate]. cbv zeta in O2. rewrite Bool.andb_true_r in O2. destruct (Nat.eqb_spec (length (kept_cols (length cols) (qr c cols))) (length cols)); [|discriminate].
      apply (cell_dependent rows G P T (x :: X) (G i) (P i) (T i)); [fold c; intros Ec; rewrite Ec in L; cbn in L; lia|]. fold c.
      destruct (Hqr c cols) as [_ Hk]. apply kept_cols_all in e. rewrite e, <- (kept_cols_nil (length cols)), select_cols_full in Hk. exact Hk.
  - intros L H. assert (L1 : (2 <= length c)%nat) by lia.
    assert (Ek : exists o, solve_ols keq qr lstsq inv c cols y None false action = Ok o).
    { apply is_ok_ex. rewrite (solve_is_ok keq qr lstsq inv Hqr Hinv). assert (Nat.ltb (length c) (length cols) = false) as -> by (apply Nat.ltb_ge; lia).
      assert (exists a, parse_action action = Some a /\ a <> ActError) as (a & -> & Ha) by (destruct H as [-> | ->]; eexists; split; try reflexivity; discriminate).
      cbn [negb andb]. rewrite Bool.andb_true_r. destruct (Nat.eqb _ (length cols)); [reflexivity|]. destruct a; try congruence; apply Bool.negb_true_iff, Nat.eqb_neq; intros Z0.
      all: apply length_zero_iff_nil in Z0; destruct (Hqr c cols) as [Hd _]; assert (S1 : span c (select_cols cols (kept_cols (length cols) (qr c cols))) (fun _ => 1)) by (apply (qr_ok_span c cols _ Hd); left; reflexivity).
      all: rewrite Z0 in S1; destruct S1 as (b & Lb & Hb); specialize (Hb i Hic); destruct b; cbn in *; try discriminate; lra. }
    destruct Ek as [o Eo]. destruct (solve_ols_shape keq qr lstsq inv Hls _ _ _ _ _ _ _ Eo) as (Lb & _ & Ef & Er & _).
    set (xr := select_cols cols _) in *. set (b := lstsq c xr y) in *.
    assert (Em2 : forall k, In k c -> m k = lc xr b k).
    { intros k Hk. rewrite Em by auto. destruct (Nat.ltb_spec 1 (length c)); [|lia]. rewrite Eo. apply Ef. }
    assert (S1 : forall z, In z cols -> span c ((fun _ => 1) :: x :: X) z).
    { intros z [<-|Hz]; [apply span_in; now left|]. change (In z ((x :: X) ++ [T])) in Hz. apply in_app_or in Hz as [Hz|[<-|[]]]; [apply span_in; now right|].
      apply (span_ext c _ (fun k => T i * 1)); [intros k Hk; rewrite (Tc k Hk); ring|]. apply (span_scal c _ (T i) (fun _ => 1)), span_in. now left. }
    split.
    + apply (span_ext c _ (lc xr b)); [intros k Hk; symmetry; auto|]. apply (span_trans c xr).
      * intros z Hz. apply S1. unfold xr, select_cols in Hz. apply in_map_iff in Hz as (a & <- & Ha). apply kept_cols_lt in Ha as [Ha _]. now apply nth_In.
      * apply span_lc. destruct (Hls c xr y) as [Lb' _]. exact Lb'.
    + intros z Hz. rewrite (ip_ext c z z _ (fun k => y k - lc xr b k)) by (auto; intros k Hk; rewrite Em2 by auto; reflexivity).
      destruct (Hls c xr y) as [_ Or]. apply (orth_span c xr _ z Or). apply (qr_ok_span c cols _ (proj1 (Hqr c cols))).
      destruct Hz as [<-|Hz]; [now left|]. right. change (In z ((x :: X) ++ [T])). apply in_or_app. now left.
Qed.

(* the fitted values of one cell are at least as close to the outcome as any constant *)
Lemma dr_cell_close action rows (y G P T : I -> R) X i a : X <> [] -> In i rows -> let c := cell8 rows G P T (G i) (P i) (T i) in let m := mu action rows y G P T X in
  sumf (fun k => (y k - m k) * (y k - m k)) c <= sumf (fun k => (y k - a) * (y k - a)) c.
Proof.
  intros HX Hi c m. destruct (dr_outcome_model action rows y G P T X i HX Hi) as (H1 & H2 & H3). fold c m in H1, H2, H3.
  assert (Hic : In i c) by (apply cell8_in; auto).
  assert (Hc : forall k, In k c -> cell8 rows G P T (G k) (P k) (T k) = c) by (intros k Hk; apply cell8_in in Hk as (_ & E1 & E2 & E3); unfold c; now rewrite E1, E2, E3).
  assert (Py : forall u, (forall k, In k c -> m k = u k) -> ip c (fun k => u k - a) (fun k => y k - u k) = 0 ->
     sumf (fun k => (y k - m k) * (y k - m k)) c <= sumf (fun k => (y k - a) * (y k - a)) c).
  { intros u Hu O. rewrite (sumf_ext (fun k => (y k - m k) * (y k - m k)) (fun k => (y k - u k) * (y k - u k))) by (intros k Hk; rewrite Hu by auto; reflexivity).
    rewrite (sumf_ext_all (fun k => (y k - a) * (y k - a)) (fun k => (y k - u k) * (y k - u k) + (2 * ((u k - a) * (y k - u k)) + (u k - a) * (u k - a)))) by (intros; ring).
    rewrite !sumf_add, sumf_scal. unfold ip in O. rewrite O. assert (0 <= sumf (fun k => (u k - a) * (u k - a)) c) by (apply sumf_nonneg; intros; apply sq_nonneg). lra. }
  destruct (Nat.eq_dec (length c) 1) as [L1|L1].
  - destruct c as [|k [|]]; try discriminate L1. destruct Hic as [->|[]]. cbn. rewrite H1 by auto. assert (0 <= (y i - a) * (y i - a)) by apply sq_nonneg. lra.
  - assert (L2 : (2 <= length c)%nat) by (destruct c as [|k [|]]; cbn in *; [contradiction|congruence|lia]).
    destruct (Nat.lt_ge_cases (length c) (2 + length X)) as [Ls|Ls]; [|destruct (string_dec action "warn") as [Ea|Ea]; [|destruct (string_dec action "silent") as [Eb|Eb]]].
    2,3: destruct (H3 Ls ltac:(auto)) as [S0 O0]; apply (Py m); auto; apply (orth_span c ((fun _ => 1) :: X)); [apply Forall_forall; exact O0|];
      apply (span_sub c _ m (fun _ => a)); [exact S0|]; apply (span_ext c _ (fun _ => a * 1)); [intros; ring|]; apply (span_scal c _ a (fun _ => 1)), span_in; now left.
    all: apply (Py (fun _ => meanf y c)); [intros k Hk; assert (Hkr : In k rows) by (apply cell8_in in Hk; tauto);
        destruct (dr_outcome_model action rows y G P T X k HX Hkr) as (_ & H2' & _); rewrite (Hc k Hk) in H2'; apply H2'; auto|].
    all: unfold ip; rewrite sumf_scal, sumf_sub, sumf_const; assert (0 < len c) by (apply len_pos; intros E; rewrite E in L2; cbn in L2; lia); unfold meanf at 2; field_simplify; try lra.
Qed.

Lemma sum_by_cell (rows : list I) (G P T h : I -> R) : zero_one rows G -> zero_one rows P -> zero_one rows T ->
  sumf h rows = sumf (fun c => let '(g, p, t) := c in sumf h (cell8 rows G P T g p t)) all_cells.
Proof.
  unfold cell8, all_cells. induction rows as [|i rows IH]; intros ZG ZP ZT; [cbn; ring|].
  assert (IH' := IH (fun k Hk => ZG k (or_intror Hk)) (fun k Hk => ZP k (or_intror Hk)) (fun k Hk => ZT k (or_intror Hk))). clear IH.
  cbn [sumf fold_right map] in *. cbn [filter].
  destruct (ZG i (or_introl eq_refl)) as [-> | ->], (ZP i (or_introl eq_refl)) as [-> | ->], (ZT i (or_introl eq_refl)) as [-> | ->].
  all: rewrite ?Reqb_refl; repeat (rewrite (proj2 (Reqb_false 0 1)) by lra); repeat (rewrite (proj2 (Reqb_false 1 0)) by lra); cbn [andb].
  all: unfold sumf in *; cbn [map fold_right] in *; lra.
Qed.

(* with covariates the doubly robust fit reports the R-squared of its outcome regressions, a number between 0 and 1 *)
Theorem dr_r_squared cfg cl rows y G P T covs r : dd_method cfg = "dr"%string -> covs <> [] -> fit cfg cl rows y G P T covs = Ok r ->
  let m := mu (dd_action cfg) rows (f y) (f G) (f P) (f T) (map (fun c => f c) covs) in
  let ssr := sumf (fun i => (oR (y i) - m i) * (oR (y i) - m i)) rows in
  let sst := sumf (fun i => (oR (y i) - meanf (f y) rows) * (oR (y i) - meanf (f y) rows)) rows in
  ssr <= sst /\ exists r2, tr_r2 r = Some r2 /\ 0 <= r2 <= 1 /\ (0 < sst -> r2 = 1 - ssr / sst) /\ (sst = 0 -> r2 = 0).
Proof.
  intros Hm Hc H m ssr sst. destruct (fit_inv keq qr lstsq inv pinv sf ppf logit _ _ _ _ _ _ _ _ _ H) as (HV & out & HO & _ & _ & H2 & _).
  apply validate_ok in HV as (_ & _ & _ & _ & _ & ZG & ZP & ZT & _).
  assert (HX : map (fun c => f c) covs <> []) by (destruct covs; [congruence|discriminate]).
  assert (LE : ssr <= sst).
  { unfold ssr, sst. rewrite (sum_by_cell rows (f G) (f P) (f T) (fun i => (oR (y i) - m i) * (oR (y i) - m i)) ZG ZP ZT).
    rewrite (sum_by_cell rows (f G) (f P) (f T) (fun i => (oR (y i) - meanf (f y) rows) * (oR (y i) - meanf (f y) rows)) ZG ZP ZT).
    apply sumf_le. intros [[g p] t] _. destruct (cell8 rows (f G) (f P) (f T) g p t) as [|i l] eqn:E; [cbn; lra|]. rewrite <- E.
    assert (Hi : In i (cell8 rows (f G) (f P) (f T) g p t)) by (rewrite E; now left). apply cell8_in in Hi as (Hi & <- & <- & <-).
    exact (dr_cell_close (dd_action cfg) rows (f y) (f G) (f P) (f T) _ i (meanf (f y) rows) HX Hi). }
  split; [exact LE|]. assert (P1 : 0 <= ssr) by (apply sumf_nonneg; intros; apply sq_nonneg).
  unfold ddd_est in HO. rewrite Hm in HO. cbn [String.eqb Ascii.eqb Bool.eqb] in HO. injection HO as <-. rewrite H2. unfold ddd_dr. cbn [do_r2].
  remember (map (fun c => f c) covs) as X eqn:EX. destruct X as [|x X]; [congruence|]. fold m. fold ssr. fold sst. eexists. split; [reflexivity|].
  destruct (Rlt_dec 0 sst) as [Hp|Hn].
  - assert (0 <= ssr / sst) by (apply Rmult_le_pos; [exact P1|]; left; now apply Rinv_0_lt_compat).
    assert (ssr / sst <= 1) by (apply (Rmult_le_reg_r sst); [exact Hp|]; unfold Rdiv; rewrite Rmult_assoc, Rinv_l by lra; lra).
    repeat split; try lra. 
  - repeat split; lra.
Qed.
End Dr.

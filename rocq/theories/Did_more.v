(* More about DifferenceInDifferences.fit: cluster labels, coherence, saturated shifts, empty cells. *)
From Verif Require Import Prelude Flt Linalg_model Linalg_proofs Linalg_vcov Linalg_thms Did_model Did_spec Did_proofs Did_equiv.
From Coq Require Import Arith ZArith String List.
Import ListNotations.
Open Scope R_scope.

Notation fR x := (fun i => toR (x i)).

(* ---- C03: cluster labels only matter up to renaming ---- *)
Section Relabel.
Context {I K L G : Type} (keq : forall x y : K, {x = y} + {x <> y}) (leq : forall x y : L, {x = y} + {x <> y})
        (geq : forall x y : G, {x = y} + {x <> y}).
Variable qr : list I -> list (I -> R) -> list nat.
Variable lstsq : list I -> list (I -> R) -> (I -> R) -> list R.
Variable inv : list I -> list (I -> R) -> option (nat -> nat -> R).
Variable pinv : list I -> list (I -> R) -> nat -> nat -> R.
Variable sf : option Z -> fl -> fl.
Variable ppf : option Z -> R -> R.

Definition relabel_cfg (f : K -> L) (cfg : did_config I K) : did_config I L :=
  {| c_robust := c_robust cfg;
     c_cluster := match c_cluster cfg with Some cl => Some (fun i => f (cl i)) | None => None end;
     c_alpha := c_alpha cfg; c_action := c_action cfg |}.

Lemma solve_ols_relabel rows cols y (cl : I -> K) (f : K -> L) rv action :
  (forall j, In j (qr rows cols) -> (j < length cols)%nat) ->
  (forall x z, In x (map cl rows) -> In z (map cl rows) -> f x = f z -> x = z) ->
  match solve_ols keq qr lstsq inv rows cols y (Some cl) rv action,
        solve_ols leq qr lstsq inv rows cols y (Some (fun i => f (cl i))) rv action with
  | Ok o, Ok o' => o_coef o = o_coef o' /\ (forall i, o_resid o i = o_resid o' i) /\
       (forall i, o_fitted o i = o_fitted o' i) /\
       match o_vcov o, o_vcov o' with
       | Some W, Some W' => forall a c, (a < length cols)%nat -> (c < length cols)%nat -> W' a c = W a c
       | None, None => True | _, _ => False end
  | Err x, Err x' => x = x'
  | _, _ => False
  end.
Proof.
  intros Hq Hf. unfold solve_ols. destruct (Nat.ltb _ _); auto. destruct (parse_action action) as [act|]; auto.
  destruct (qr rows cols) as [|d0 d] eqn:Eq.
  - destruct rv; [|simpl; auto].
    pose proof (robust_vcov_relabel keq leq inv rows cols (fun i => y i - lc cols (lstsq rows cols y) i) cl f Hf) as H.
    revert H. destruct (robust_vcov keq _ _ _ _ _), (robust_vcov leq _ _ _ _ _); simpl; intros H; try contradiction; auto.
    split; [reflexivity|split; [reflexivity|split; [reflexivity|]]]. intros; f_equal; auto.
  - set (kept := kept_cols (length cols) (d0 :: d)). set (xr := select_cols cols kept).
    assert (Lx : length xr = length kept) by (unfold xr, select_cols; apply map_length).
    pose proof (robust_vcov_relabel keq leq inv rows xr (fun i => y i - lc xr (lstsq rows xr y) i) cl f Hf) as H.
    assert (HX : forall V V' : nat -> nat -> R,
        (forall j m, (j < length xr)%nat -> (m < length xr)%nat -> V' j m = V j m) ->
        forall p q, (p < length cols)%nat -> (q < length cols)%nat -> expand_vcov V' kept p q = expand_vcov V kept p q).
    { intros V V' HV p q _ _. unfold expand_vcov.
      destruct (index_of p kept) eqn:E1; auto; destruct (index_of q kept) eqn:E2; auto.
      apply index_of_some in E1; apply index_of_some in E2; f_equal; apply HV; rewrite Lx; tauto. }
    cbv zeta. fold kept. fold xr. destruct (Nat.eqb (length kept) 0); [destruct act; reflexivity|]. destruct act; [|reflexivity|]; (destruct rv; [|simpl; auto]); revert H;
      destruct (robust_vcov keq _ _ _ _ _), (robust_vcov leq _ _ _ _ _); intros H; try contradiction; auto;
      (split; [reflexivity|split; [reflexivity|split; [reflexivity|cbn [o_vcov]; apply HX; exact H]]]).
Qed.

Theorem did_cluster_relabel cfg (f : K -> L) rows y d t covs dums absorb :
  qr_ok qr ->
  (forall cl, c_cluster cfg = Some cl ->
     forall x z, In x (map cl rows) -> In z (map cl rows) -> f x = f z -> x = z) ->
  c_cluster cfg <> None ->
  match did_fit keq geq qr lstsq inv pinv sf ppf cfg rows y d t covs dums absorb,
        did_fit leq geq qr lstsq inv pinv sf ppf (relabel_cfg f cfg) rows y d t covs dums absorb with
  | Ok a, Ok b => r_att a = r_att b /\ r_coef a = r_coef b /\ r_se a = r_se b /\ r_t a = r_t b /\
                  r_p a = r_p b /\ r_ci a = r_ci b /\ r_signif a = r_signif b
  | Err x, Err x' => x = x'
  | _, _ => False
  end.
Proof.
  intros Hq Hf Hn. destruct (c_cluster cfg) as [cl|] eqn:Ec; [|congruence]. specialize (Hf cl eq_refl).
  unfold did_fit. destruct (existsb (has_nan rows) _); auto.
  destruct (negb (two_values rows d)); auto. destruct (negb (two_values rows t)); auto.
  destruct (negb (binary rows d)); auto. destruct (negb (binary rows t)); auto.
  destruct (existsb (has_inf rows) _); auto.
  destruct (absorb_loop geq rows absorb _ _) as [[y' covs'] na].
  set (cols := did_design _ _ _). unfold linreg_fit. simpl c_cluster. rewrite Ec.
  cbn [relabel_cfg c_action c_robust c_alpha].
  assert (Hlt : forall j, In j (qr rows cols) -> (j < length cols)%nat).
  { intros j Hj. apply (Hq rows cols); auto. }
  pose proof (solve_ols_relabel rows cols y' cl f true (c_action cfg) Hlt Hf) as H.
  destruct (solve_ols keq qr lstsq inv rows cols y' (Some cl) true (c_action cfg)) as [o|],
           (solve_ols leq qr lstsq inv rows cols y' (Some (fun i => f (cl i))) true (c_action cfg)) as [o'|]; auto.
  destruct H as (H1 & H2 & H3 & H4). cbn [bind r_att r_coef r_se r_t r_p r_ci r_signif l_coef l_vcov l_df].
  assert (L3 : (3 < length cols)%nat) by (unfold cols, did_design; simpl; lia).
  assert (HV : match o_vcov o with Some V => V | None => classical_vcov inv pinv rows cols (o_coef o) (o_resid o) end 3%nat 3%nat
             = match o_vcov o' with Some V => V | None => classical_vcov inv pinv rows cols (o_coef o') (o_resid o') end 3%nat 3%nat).
  { destruct (o_vcov o), (o_vcov o'); try contradiction.
    - symmetry; apply H4; auto.
    - rewrite H1. unfold classical_vcov.
      destruct (Nat.eqb _ 0); auto.
      rewrite (sumf_ext_all (fun i => o_resid o i * o_resid o i) (fun i => o_resid o' i * o_resid o' i)); auto.
      intros; rewrite H2; auto. }
  rewrite HV, H1. repeat split; auto.
Qed.
End Relabel.

Section More.
Context {I K G : Type} (keq : forall x y : K, {x = y} + {x <> y}) (geq : forall x y : G, {x = y} + {x <> y}).
Variable qr : list I -> list (I -> R) -> list nat.
Variable lstsq : list I -> list (I -> R) -> (I -> R) -> list R.
Variable inv : list I -> list (I -> R) -> option (nat -> nat -> R).
Variable pinv : list I -> list (I -> R) -> nat -> nat -> R.
Variable sf : option Z -> fl -> fl.
Variable ppf : option Z -> R -> R.
Hypothesis Hqr : qr_ok qr.
Hypothesis Hls : lstsq_ok lstsq.
Hypothesis Hinv : inv_ok inv.
Notation fit := (did_fit keq geq qr lstsq inv pinv sf ppf).

(* ---- C04 on the results object ---- *)
Theorem did_result_coherent cfg rows y d t covs dums absorb r b v :
  dist_ok sf ppf ->
  fit cfg rows y d t covs dums absorb = Ok r ->
  r_att r = Fin b -> r_vcov r 3%nat 3%nat = Fin v -> 0 < v -> 0 < c_alpha cfg < 1 ->
  exists se lo hi p,
    r_se r = Fin se /\ se = sqrt v /\ r_t r = Fin (b / se) /\ r_p r = Fin p /\ r_ci r = (Fin lo, Fin hi) /\
    0 < p <= 1 /\ lo < b < hi /\ b - lo = hi - b /\
    (r_signif r = true <-> p < c_alpha cfg) /\
    (r_signif r = true <-> (hi < 0 \/ 0 < lo)).
Proof.
  intros Hd H Eb Ev Hv Hal.
  destruct (did_fit_inv keq geq qr lstsq inv pinv sf ppf _ _ _ _ _ _ _ _ _ H)
    as (_ & _ & _ & _ & _ & _ & y' & covs' & nabs & reg & EA & ER & Ha & (Hse & Htt & Hp & Hci & Hsg) & Hc & Hvc & _).
  rewrite Eb, <- Hvc, Ev in *.
  destruct (inference_coherent sf ppf Hd b v None None (c_alpha cfg) (l_df reg) Hv Hal)
    as (se & t0 & p & lo & hi & E0 & E1 & E2 & E3 & E4 & P1 & P2 & P3 & P4 & P5 & P6 & P7 & P8).
  exists se, lo, hi, p. rewrite Hse, Htt, Hp, Hci, Hsg, E1, E2, E3, E4, P3.
  split; auto. split.
  { rewrite <- P2. symmetry. apply sqrt_square. lra. }
  split; [reflexivity|]. split; [reflexivity|]. split; [reflexivity|].
  split; [lra|]. split; [lra|]. split; [lra|].
  assert (Hs : flt (Fin p) (Fin (c_alpha cfg)) = true <-> p < c_alpha cfg) by apply flt_fin.
  split; [exact Hs|]. rewrite Hs. exact P7.
Qed.

(* ---- C02: all saturated shifts ---- *)
Lemma cell_mean_affine rows (d t y : I -> R) s c0 c1 c2 c3 a b :
  cell rows d t a b <> [] ->
  cell_mean rows d t (fun i => s * y i + (c0 + c1 * d i + c2 * t i + c3 * (d i * t i))) a b
  = s * cell_mean rows d t y a b + (c0 + c1 * a + c2 * b + c3 * (a * b)).
Proof.
  intros Hne. unfold cell_mean.
  rewrite (meanf_ext _ (fun i => s * y i + (c0 + c1 * a + c2 * b + c3 * (a * b)))).
  - rewrite meanf_add, meanf_scal, meanf_const by auto. reflexivity.
  - intros i Hi. apply cell_in in Hi. destruct Hi as (_ & -> & ->). reflexivity.
Qed.

Lemma cell_var_affine rows (d t y : I -> R) s c0 c1 c2 c3 a b :
  cell rows d t a b <> [] ->
  cell_var rows d t (fun i => s * y i + (c0 + c1 * d i + c2 * t i + c3 * (d i * t i))) a b
  = s * s * cell_var rows d t y a b.
Proof.
  intros Hne. unfold cell_var. rewrite cell_mean_affine by auto.
  rewrite (sumf_ext _ (fun i => s * s * ((y i - cell_mean rows d t y a b) * (y i - cell_mean rows d t y a b)))).
  - rewrite sumf_scal. unfold Rdiv. ring.
  - intros i Hi. apply cell_in in Hi. destruct Hi as (_ & -> & ->). ring.
Qed.

(* y' = s y + c0 + c1 treated + c2 post + c3 treated*post:
   the ATT becomes s ATT + c3 and the HC1 standard error |s| se *)
Theorem did_saturated_shift cfg rows y d t s c0 c1 c2 c3 r r' :
  let y' := fun i => Fin (s * toR (y i) + (c0 + c1 * toR (d i) + c2 * toR (t i) + c3 * (toR (d i) * toR (t i)))) in
  four_cells rows (fR d) (fR t) ->
  fit cfg rows y d t [] [] [] = Ok r -> fit cfg rows y' d t [] [] [] = Ok r' ->
  (exists a, r_att r = Fin a /\ r_att r' = Fin (s * a + c3)) /\
  (c_robust cfg = true -> c_cluster cfg = None ->
     exists se, r_se r = Fin se /\ r_se r' = Fin (Rabs s * se)).
Proof.
  intros y' Hf H H'. split.
  - exists (did_of_means rows (fR d) (fR t) (fR y)).
    rewrite (did_att_is_did_of_means keq geq qr lstsq inv pinv sf ppf Hqr Hls _ _ _ _ _ _ H Hf).
    rewrite (did_att_is_did_of_means keq geq qr lstsq inv pinv sf ppf Hqr Hls _ _ _ _ _ _ H' Hf).
    split; auto. f_equal. unfold did_of_means, y'. simpl toR.
    destruct Hf as (H00 & H01 & H10 & H11).
    rewrite !(cell_mean_affine rows (fR d) (fR t) (fR y)) by auto. ring.
  - intros Hr Hc.
    destruct (did_hc1_se keq geq qr lstsq inv pinv sf ppf Hqr Hls Hinv _ _ _ _ _ _ H Hr Hc Hf) as [E P].
    destruct (did_hc1_se keq geq qr lstsq inv pinv sf ppf Hqr Hls Hinv _ _ _ _ _ _ H' Hr Hc Hf) as [E' P'].
    exists (sqrt (did_hc1 rows (fR d) (fR t) (fR y))). split; auto. rewrite E'. f_equal.
    replace (did_hc1 rows (fR d) (fR t) (fR y')) with (s * s * did_hc1 rows (fR d) (fR t) (fR y)).
    + rewrite sqrt_mult by (auto; apply sq_nonneg). f_equal. rewrite <- sqrt_Rsqr_abs. reflexivity.
    + unfold did_hc1, y'. simpl toR. destruct Hf as (H00 & H01 & H10 & H11).
      rewrite !(cell_var_affine rows (fR d) (fR t) (fR y)) by auto. ring.
Qed.

(* ---- C51: an empty cell ---- *)
Lemma kept_not_null rows cols y cluster rv action o j :
  solve_ols keq qr lstsq inv rows cols y cluster rv action = Ok o ->
  (j < length cols)%nat -> (forall i, In i rows -> colx cols j i = 0) -> nth j (o_coef o) NaN = NaN.
Proof.
  intros Ho Hj Hz.
  destruct (solve_ols_nan_exactly_dropped keq qr lstsq inv Hls _ _ _ _ _ _ _ Ho) as (_ & Hn & _).
  apply Hn; auto. destruct (in_dec Nat.eq_dec j (qr rows cols)) as [|Hni]; auto. exfalso.
  destruct (Hqr rows cols) as [_ Hind].
  set (kept := kept_cols (length cols) (qr rows cols)) in *.
  assert (Hk : In j kept) by (apply kept_cols_lt; auto).
  destruct (In_nth _ _ O Hk) as (p & Hp & Ep).
  set (e := map (fun q => if Nat.eqb q p then 1 else 0) (seq 0 (length kept))).
  assert (Lx : length (select_cols cols kept) = length kept) by apply map_length.
  assert (Le : length e = length (select_cols cols kept)) by (unfold e; rewrite map_length, seq_length; auto).
  assert (Hne : forall q, (q < length kept)%nat -> nth q e 0 = if Nat.eqb q p then 1 else 0).
  { intros q Hq. unfold e. rewrite nth_map_seq by auto. reflexivity. }
  assert (E : e = repeat 0 (length (select_cols cols kept))).
  { apply Hind; auto. intros i Hi. rewrite lc_index by auto. apply sumf_zero. intros q Hq. apply in_seq in Hq.
    rewrite Hne by lia. destruct (Nat.eqb q p) eqn:Eqp; [|ring]. apply Nat.eqb_eq in Eqp. subst q.
    unfold select_cols, colx. rewrite nth_indep with (d' := colx cols O) by (rewrite map_length; lia).
    change (colx cols 0) with ((fun j => colx cols j) O). rewrite map_nth, Ep, Hz by auto. ring. }
  pose proof (Hne p Hp) as E1. rewrite Nat.eqb_refl, E, nth_repeat in E1. lra.
Qed.

(* no treated observation in the post period: the effect is reported as not identified *)
Theorem did_no_treated_post cfg rows y d t covs dums absorb r :
  fit cfg rows y d t covs dums absorb = Ok r ->
  cell rows (fR d) (fR t) 1 1 = [] ->
  r_att r = NaN.
Proof.
  intros H He.
  destruct (did_fit_inv keq geq qr lstsq inv pinv sf ppf _ _ _ _ _ _ _ _ _ H)
    as (_ & _ & _ & _ & Zd & Zt & y' & covs' & nabs & reg & EA & ER & Ha & _).
  destruct (linreg_fit_inv keq qr lstsq inv pinv _ _ _ _ _ _ _ _ ER) as (o & Ho & Hco & _).
  rewrite Ha, Hco. apply (kept_not_null _ _ _ _ _ _ _ 3 Ho); [unfold did_design; simpl; lia|].
  intros i Hi. unfold colx, did_design; simpl.
  destruct (Zd i Hi) as [->|E1]; [ring|]. destruct (Zt i Hi) as [->|E2]; [ring|].
  exfalso. assert (In i (cell rows (fR d) (fR t) 1 1)) as Hin by (apply cell_in; auto). rewrite He in Hin; contradiction.
Qed.

(* no control observation in the pre period: whatever column the rank check removes, the number
   reported as the ATT is either NaN or a contrast that uses at most two or three cell means, none of
   them a difference in differences *)
Theorem did_no_control_pre cfg rows y d t r :
  fit cfg rows y d t [] [] [] = Ok r ->
  cell rows (fR d) (fR t) 0 0 = [] -> cell rows (fR d) (fR t) 0 1 <> [] ->
  cell rows (fR d) (fR t) 1 0 <> [] -> cell rows (fR d) (fR t) 1 1 <> [] ->
  let m := cell_mean rows (fR d) (fR t) (fR y) in
  r_att r = NaN \/ r_att r = Fin (m 1 1 - m 1 0) \/ r_att r = Fin (m 1 1 - m 0 1)
  \/ r_att r = Fin (m 1 1 - m 1 0 - m 0 1).
Proof.
  intros H H00 H01 H10 H11 m.
  destruct (did_fit_inv keq geq qr lstsq inv pinv sf ppf _ _ _ _ _ _ _ _ _ H)
    as (_ & _ & _ & _ & Zd & Zt & y' & covs' & nabs & reg & EA & ER & Ha & _).
  simpl in EA. injection EA as <- <- <-. simpl app in ER.
  destruct (resid_coef keq qr lstsq inv pinv Hqr Hls _ _ _ _ _ _ _ _ ER) as (HL & HLS & _).
  destruct (linreg_fit_inv keq qr lstsq inv pinv _ _ _ _ _ _ _ _ ER) as (o & Ho & Hco & _).
  destruct (solve_ols_nan_exactly_dropped keq qr lstsq inv Hls _ _ _ _ _ _ _ Ho) as (_ & Hn & _).
  rewrite <- Hco in Hn.
  set (cols := did_design (fR d) (fR t) []) in *.
  (* fitted values on the three cells are the cell means *)
  set (b := map nan_to_zero (l_coef reg)) in *.
  assert (Hcell : forall a0 c0 v, (a0 = 0 \/ a0 = 1) -> (c0 = 0 \/ c0 = 1) ->
     cell rows (fR d) (fR t) a0 c0 <> [] ->
     (forall i, In i rows -> toR (d i) = a0 -> toR (t i) = c0 -> lc cols b i = v) -> v = m a0 c0).
  { intros a0 c0 v A C Hne Hv.
    pose proof (orth_span rows cols (fun i => toR (y i) - lc cols b i) _ (proj2 HLS)
      (sat_span rows (fR d) (fR t) Zd Zt (fun x z => ind (Reqb x a0 && Reqb z c0)))) as Ho0.
    unfold ip in Ho0. rewrite <- (sumf_filter (fun i => Reqb (toR (d i)) a0 && Reqb (toR (t i)) c0)) in Ho0.
    change (filter (fun i => Reqb (toR (d i)) a0 && Reqb (toR (t i)) c0) rows) with (cell rows (fR d) (fR t) a0 c0) in Ho0.
    rewrite (sumf_ext _ (fun i => toR (y i) - v)) in Ho0.
    2:{ intros i Hi. apply cell_in in Hi. rewrite (Hv i); tauto. }
    rewrite sumf_sub, sumf_const in Ho0. unfold m, cell_mean, meanf. pose proof (len_pos _ Hne).
    apply (Rmult_eq_reg_l (len (cell rows (fR d) (fR t) a0 c0))); [|lra]. field_simplify; [|lra]. lra. }
  assert (Lc : length (l_coef reg) = 4%nat) by (rewrite HL; reflexivity).
  destruct (l_coef reg) as [|b0 [|b1 [|b2 [|b3 [|]]]]] eqn:EL; try discriminate.
  assert (E01 : nan_to_zero b0 + nan_to_zero b2 = m 0 1).
  { apply Hcell; auto. intros i _ Di Ti. unfold b, cols, did_design; simpl. rewrite Di, Ti. ring. }
  assert (E10 : nan_to_zero b0 + nan_to_zero b1 = m 1 0).
  { apply Hcell; auto. intros i _ Di Ti. unfold b, cols, did_design; simpl. rewrite Di, Ti. ring. }
  assert (E11 : nan_to_zero b0 + nan_to_zero b1 + nan_to_zero b2 + nan_to_zero b3 = m 1 1).
  { apply Hcell; auto. intros i _ Di Ti. unfold b, cols, did_design; simpl. rewrite Di, Ti. ring. }
  rewrite Ha. simpl nth.
  (* something is dropped *)
  assert (Hdrop : exists j, In j (qr rows cols)).
  { destruct (qr rows cols) as [|j l] eqn:Eq; [|exists j; simpl; auto]. exfalso.
    destruct (Hqr rows cols) as [_ Hind]. rewrite Eq, select_cols_full in Hind.
    assert (E : [1; -1; -1; 1] = repeat 0 (length cols)).
    { apply Hind; [reflexivity|]. intros i Hi. unfold cols, did_design; simpl.
      destruct (Zd i Hi) as [E1|E1], (Zt i Hi) as [E2|E2]; rewrite E1, E2; try ring.
      exfalso. assert (Hin : In i (cell rows (fR d) (fR t) 0 0)) by (apply cell_in; auto).
      rewrite H00 in Hin; contradiction. }
    unfold cols, did_design in E; simpl in E. injection E as E. lra. }
  assert (Hb3 : b3 = NaN \/ exists x, b3 = Fin x).
  { destruct (solve_ols_shape keq qr lstsq inv Hls _ _ _ _ _ _ _ Ho) as (_ & Hc & _).
    assert (E3 : b3 = nth 3 (o_coef o) NaN) by (rewrite <- Hco; reflexivity).
    rewrite Hc, expand_coef_nth in E3 by (unfold cols, did_design; simpl; lia).
    rewrite E3. destruct (index_of _ _); eauto. }
  destruct Hb3 as [->|[x ->]]; [left; reflexivity|]. right. simpl nan_to_zero in E11.
  destruct Hdrop as [j Hj]. destruct (Hqr rows cols) as [Hlt _]. destruct (Hlt j Hj) as [Hjl _].
  apply (proj2 (Hn j Hjl)) in Hj. unfold cols, did_design in Hjl; simpl in Hjl.
  destruct j as [|[|[|[|]]]]; simpl in Hj; try lia; subst; simpl nan_to_zero in *.
  - right; right. f_equal. lra.
  - right; left. f_equal. lra.
  - left. f_equal. lra.
  - discriminate.
Qed.
End More.

(* ---- concrete data: rows 0..7, d = i mod 2, t = (i / 2) mod 2 ---- *)
Definition ex_d (i : nat) : fl := Fin (INR (i mod 2)).
Definition ex_t (i : nat) : fl := Fin (INR ((i / 2) mod 2)).
Definition ex_y (i : nat) : fl := Fin (INR (i * i)).
Definition ex_cfg (robust : bool) (cl : option (nat -> nat)) : did_config nat nat :=
  {| c_robust := robust; c_cluster := cl; c_alpha := 5/100; c_action := "warn" |}.
Definition ex_pinv (rows : list nat) (cols : list (nat -> R)) (a b : nat) : R := 0.
Definition ex_fit := did_fit Nat.eq_dec Nat.eq_dec (@gs_dropped nat) (@gs nat) (@gs_inv nat) ex_pinv toy_sf toy_ppf.

Lemma ex_cell_in n a b k : In k (seq 0 n) -> INR (k mod 2) = a -> INR ((k / 2) mod 2) = b ->
  cell (seq 0 n) (fR ex_d) (fR ex_t) a b <> [].
Proof.
  intros Hk Ha Hb E. assert (In k (cell (seq 0 n) (fR ex_d) (fR ex_t) a b)) as Hin.
  { apply cell_in. unfold ex_d, ex_t. simpl toR. auto. }
  rewrite E in Hin; contradiction.
Qed.

Lemma ex_four n : (4 <= n)%nat -> four_cells (seq 0 n) (fR ex_d) (fR ex_t).
Proof.
  intros Hn. repeat split.
  - apply (ex_cell_in n 0 0 0); [apply in_seq; lia|reflexivity|reflexivity].
  - apply (ex_cell_in n 0 1 2); [apply in_seq; lia|reflexivity|reflexivity].
  - apply (ex_cell_in n 1 0 1); [apply in_seq; lia|reflexivity|reflexivity].
  - apply (ex_cell_in n 1 1 3); [apply in_seq; lia|reflexivity|reflexivity].
Qed.

Lemma mod2_01 k : INR (k mod 2) = 0 \/ INR (k mod 2) = 1.
Proof.
  pose proof (Nat.mod_upper_bound k 2). destruct (k mod 2) as [|[|]] eqn:E; simpl; auto; lia.
Qed.

Lemma ex_zero_one n : zero_one (seq 0 n) (fR ex_d) /\ zero_one (seq 0 n) (fR ex_t).
Proof. split; intros i _; unfold ex_d, ex_t; simpl toR; apply mod2_01. Qed.

Lemma ex_finite n : finite_col (seq 0 n) ex_y /\ finite_col (seq 0 n) ex_d /\ finite_col (seq 0 n) ex_t.
Proof. repeat split; intros i _; eexists; reflexivity. Qed.

(* C01/C07: data of any size n > 4 meet the hypotheses, and fit returns a result *)
Theorem ex_fit_ok n robust : (4 < n)%nat ->
  exists r se, ex_fit (ex_cfg robust None) (seq 0 n) ex_y ex_d ex_t [] [] [] = Ok r /\ r_se r = Fin se /\ 0 <= se.
Proof.
  intros Hn. destruct (ex_zero_one n), (ex_finite n) as (? & ? & ?).
  apply (did_fit_defined Nat.eq_dec Nat.eq_dec (@gs_dropped nat) (@gs nat) (@gs_inv nat) ex_pinv toy_sf toy_ppf gs_dropped_ok gs_ok gs_inv_ok);
    auto; try (rewrite seq_length; auto).
  - apply ex_four; lia.
  - discriminate.
  - discriminate.
Qed.

Theorem ex_fit_ok_cluster : exists r se,
  ex_fit (ex_cfg true (Some (fun i => i / 4)%nat)) (seq 0 8) ex_y ex_d ex_t [] [] [] = Ok r /\ r_se r = Fin se /\ 0 <= se.
Proof.
  destruct (ex_zero_one 8), (ex_finite 8) as (? & ? & ?).
  apply (did_fit_defined Nat.eq_dec Nat.eq_dec (@gs_dropped nat) (@gs nat) (@gs_inv nat) ex_pinv toy_sf toy_ppf gs_dropped_ok gs_ok gs_inv_ok);
    auto.
  - apply ex_four; lia.
  - simpl; lia.
  - discriminate.
  - intros cl E. injection E as <-. vm_compute. lia.
Qed.

(* C07 refuted: four rows, one in each cell, every input check passes, default options *)
Theorem did_small_sample_refuted :
  ex_fit (ex_cfg true None) (seq 0 4) ex_y ex_d ex_t [] [] [] = Err ZeroDivisionError.
Proof.
  destruct (ex_zero_one 4), (ex_finite 4) as (? & ? & ?).
  apply (did_fit_n_equals_k Nat.eq_dec Nat.eq_dec (@gs_dropped nat) (@gs nat) (@gs_inv nat) ex_pinv toy_sf toy_ppf gs_dropped_ok);
    auto.
  - apply ex_four; lia.
  - discriminate.
Qed.

(* C51 refuted: no control observation before treatment (rows 1,2,3,5,6,7 of the data above), yet the
   rank check keeps the interaction and a finite "ATT" is returned *)
Definition ex_rows3 : list nat := [1;2;3;5;6;7]%nat.

Lemma ex3_two : two_values ex_rows3 ex_d = true /\ two_values ex_rows3 ex_t = true.
Proof.
  split; apply existsb_exists.
  - exists 1%nat. split; [simpl; auto|]. apply existsb_exists. exists 2%nat. split; [simpl; auto|].
    unfold ex_d; simpl. rewrite Reqb_10. reflexivity.
  - exists 1%nat. split; [simpl; auto|]. apply existsb_exists. exists 2%nat. split; [simpl; auto|].
    unfold ex_t; simpl. rewrite Reqb_01. reflexivity.
Qed.

Lemma ex3_cell a b k : In k ex_rows3 -> INR (k mod 2) = a -> INR ((k / 2) mod 2) = b ->
  cell ex_rows3 (fR ex_d) (fR ex_t) a b <> [].
Proof.
  intros Hk Ha Hb E. assert (In k (cell ex_rows3 (fR ex_d) (fR ex_t) a b)) as Hin.
  { apply cell_in. unfold ex_d, ex_t. simpl toR. auto. }
  rewrite E in Hin; contradiction.
Qed.

Lemma ex3_no_control_pre : cell ex_rows3 (fR ex_d) (fR ex_t) 0 0 = [].
Proof.
  destruct (cell ex_rows3 (fR ex_d) (fR ex_t) 0 0) as [|i l] eqn:E; auto. exfalso.
  assert (Hin : In i (cell ex_rows3 (fR ex_d) (fR ex_t) 0 0)) by (rewrite E; simpl; auto).
  apply cell_in in Hin. destruct Hin as (Hi & D0 & T0). unfold ex_d, ex_t in D0, T0. cbv beta in D0, T0. simpl toR in D0, T0.
  simpl in Hi. decompose [or] Hi; subst; simpl in D0, T0; try lra; contradiction.
Qed.

Lemma ex3_dropped : gs_dropped ex_rows3 (did_design (fR ex_d) (fR ex_t) []) = [0%nat].
Proof.
  unfold did_design.
  set (cs := [fR ex_d; fR ex_t; (fun i => toR (ex_d i) * toR (ex_t i))]).
  assert (Hi : indep ex_rows3 cs).
  { intros a La Ha. destruct a as [|b1 [|b2 [|b3 [|]]]]; try discriminate.
    pose proof (Ha 1%nat ltac:(simpl; auto)) as E1. pose proof (Ha 2%nat ltac:(simpl; auto)) as E2.
    pose proof (Ha 3%nat ltac:(simpl; auto)) as E3.
    unfold cs, ex_d, ex_t in E1, E2, E3. simpl in E1, E2, E3. simpl. repeat f_equal; lra. }
  pose proof (qr_indep_none (@gs_dropped nat) ex_rows3 cs gs_dropped_ok Hi) as Hq.
  change (gs_dropped ex_rows3 ((fun _ => 1) :: cs)) with
    (if Req_EM_T (ip ex_rows3 (gs_res ex_rows3 cs (fun _ => 1)) (gs_res ex_rows3 cs (fun _ => 1))) 0
     then O :: map S (gs_dropped ex_rows3 cs) else map S (gs_dropped ex_rows3 cs)).
  rewrite Hq. simpl map.
  destruct (Req_EM_T _ 0) as [|Hn]; [reflexivity|]. exfalso. apply Hn.
  apply ip_zero_l. intros i Hin.
  assert (Hz : forall i, In i ex_rows3 -> lc cs (gs ex_rows3 cs (fun _ => 1)) i = 1).
  { assert (Hls1 : is_ls ex_rows3 cs (fun _ => 1) [1; 1; -1]).
    { apply ls_exact; [reflexivity|]. intros k Hk. unfold cs, ex_d, ex_t. simpl in Hk.
      decompose [or] Hk; subst; simpl; try lra; contradiction. }
    intros k Hk. rewrite (ls_fitted_unique ex_rows3 cs (fun _ => 1) _ [1; 1; -1] (gs_is_ls _ _ _) Hls1 k Hk).
    unfold cs, ex_d, ex_t. simpl in Hk. decompose [or] Hk; subst; simpl; try lra; contradiction. }
  unfold gs_res. fold cs. rewrite Hz by auto. ring.
Qed.

Theorem did_missing_cell_refuted :
  exists r a, ex_fit (ex_cfg true None) ex_rows3 ex_y ex_d ex_t [] [] [] = Ok r /\
    cell ex_rows3 (fR ex_d) (fR ex_t) 0 0 = [] /\ r_att r = Fin a.
Proof.
  assert (Zd : zero_one ex_rows3 (fR ex_d)) by (intros i _; apply mod2_01).
  assert (Zt : zero_one ex_rows3 (fR ex_t)) by (intros i _; apply mod2_01).
  destruct ex3_two as [T1 T2].
  unfold ex_fit. rewrite did_fit_reduces0; auto; try (intros i _; eexists; reflexivity).
  cbn [ex_cfg c_robust c_cluster c_action].
  set (cols := did_design (fR ex_d) (fR ex_t) []). unfold linreg_fit, solve_ols.
  change (Nat.ltb (length ex_rows3) (length cols)) with false. cbv iota. simpl parse_action.
  assert (Hdr : gs_dropped ex_rows3 cols = [0%nat]) by exact ex3_dropped.
  rewrite Hdr. destruct (gs_dropped_ok ex_rows3 cols) as [_ Hind]. cbv zeta in Hind. rewrite Hdr in Hind.
  unfold robust_vcov. change (Nat.eqb (length ex_rows3) (length (select_cols cols (kept_cols (length cols) [0%nat])))) with false.
  cbv iota. pose proof (gs_inv_ok ex_rows3 (select_cols cols (kept_cols (length cols) [0%nat]))) as Hi.
  destruct (gs_inv ex_rows3 (select_cols cols (kept_cols (length cols) [0%nat]))) as [B|]; [|contradiction].
  cbn [bind]. eexists. eexists. split; [reflexivity|]. split; [apply ex3_no_control_pre|].
  cbn [r_att l_coef o_coef]. reflexivity.
Qed.

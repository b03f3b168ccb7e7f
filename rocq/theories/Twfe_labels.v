(* TwoWayFixedEffects: labels of units and periods, and what TwoWayFixedEffects.decompose (twfe.py:318-391, which calls
   BaconDecomposition(weights).fit) decomposes. *)
From Coq Require Import Reals Lra Lia.
From Verif Require Import Prelude Flt Linalg_model Linalg_proofs Linalg_vcov Linalg_thms Linalg_dual Did_model Did_spec Did_proofs
  Did_equiv Did_more Within_proofs Stats_model Boot_model Boot_proofs Staggered_model Bacon_model Twfe_model Twfe_proofs Twfe_equiv.
From Coq Require Import Arith ZArith String List Permutation.
Import ListNotations.
Open Scope R_scope.

Section L.
Context {I U V : Type} (ueq : forall x y : U, {x = y} + {x <> y}) (veq : forall x y : V, {x = y} + {x <> y}).
Variable f : U -> V.
Hypothesis Hf : forall x z, f x = f z -> x = z.
Lemma keqb_map (x z : U) : keqb veq (f x) (f z) = keqb ueq x z.
Proof. unfold keqb. destruct (veq _ _), (ueq _ _); auto; [exfalso; auto|subst; contradiction]. Qed.
Lemma group_mean_map rows (g : I -> U) (x : I -> R) i : group_mean veq rows (fun j => f (g j)) x i = group_mean ueq rows g x i.
Proof. unfold group_mean. f_equal. apply filter_ext. intros j. apply keqb_map. Qed.
Lemma nodup_map_length (rows : list I) (g : I -> U) : length (nodup veq (map (fun j => f (g j)) rows)) = length (nodup ueq (map g rows)).
Proof. rewrite <- (map_map g f). rewrite (nodup_map_inj ueq veq f) by (intros; auto). apply map_length. Qed.
End L.

(* ---- names of the units ---- *)
Section Units.
Context {I U V : Type} (ueq : forall x y : U, {x = y} + {x <> y}) (veq : forall x y : V, {x = y} + {x <> y}).
Variable qr : list I -> list (I -> R) -> list nat.
Variable lstsq : list I -> list (I -> R) -> (I -> R) -> list R.
Variable inv : list I -> list (I -> R) -> option (nat -> nat -> R).
Variable pinv : list I -> list (I -> R) -> nat -> nat -> R.
Variable sf : option Z -> fl -> fl.
Variable ppf : option Z -> R -> R.
Variable f : U -> V.
Hypothesis Hf : forall x z, f x = f z -> x = z.

Lemma within_map {T} (teq : forall x y : T, {x = y} + {x <> y}) (rows : list I) u (tm : I -> T) x :
  within veq teq rows (fun j => f (u j)) tm x = within ueq teq rows u tm x.
Proof.
  apply FunctionalExtensionality.functional_extensionality. intros i. unfold within.
  rewrite (group_mean_map ueq veq f Hf). reflexivity.
Qed.

Theorem twfe_unit_names cluster alpha action rows y d tm u covs :
  qr_ok qr ->
  match twfe_fit ueq qr lstsq inv pinv sf ppf cluster alpha action rows y d tm u covs,
        twfe_fit veq qr lstsq inv pinv sf ppf (option_map (fun c i => f (c i)) cluster) alpha action rows y d tm (fun i => f (u i)) covs with
  | Ok a, Ok b => tw_att a = tw_att b /\ tw_se a = tw_se b /\ tw_t a = tw_t b /\ tw_p a = tw_p b /\ tw_ci a = tw_ci b /\ tw_df a = tw_df b /\
                  tw_n_obs a = tw_n_obs b /\ tw_n_treated a = tw_n_treated b /\ tw_n_control a = tw_n_control b /\ tw_r2 a = tw_r2 b
  | Err x, Err x' => x = x'
  | _, _ => False
  end.
Proof.
  intros Hq. unfold twfe_fit. cbv zeta. rewrite (within_map Req_EM_T rows u tm y).
  assert (EC : map (within veq Req_EM_T rows (fun j => f (u j)) tm) covs = map (within ueq Req_EM_T rows u tm) covs)
    by (apply map_ext; intros; apply within_map). rewrite EC.
  rewrite (nodup_map_length ueq veq f Hf rows u), (nodup_map_length ueq veq f Hf (filter _ rows) u).
  set (cl := match cluster with Some c => c | None => u end).
  assert (Ecl : match option_map (fun c i => f (c i)) cluster with Some c => c | None => fun i => f (u i) end = (fun i => f (cl i)))
    by (unfold cl; destruct cluster; reflexivity). rewrite Ecl.
  set (cols := twfe_design _ _ _). set (adj := (_ + _ - 2)%Z). unfold linreg_fit.
  assert (Hlt : forall j, In j (qr rows cols) -> (j < length cols)%nat) by (intros j Hj; apply (Hq rows cols); auto).
  pose proof (solve_ols_relabel ueq veq qr lstsq inv pinv rows cols (within ueq Req_EM_T rows u tm y) cl f true (twfe_action action) Hlt
    (fun x z _ _ => Hf x z)) as H.
  destruct (solve_ols ueq qr lstsq inv rows cols _ (Some cl) true _) as [o|],
           (solve_ols veq qr lstsq inv rows cols _ (Some (fun i => f (cl i))) true _) as [o'|];
    [|contradiction|contradiction|cbn; exact H].
  destruct H as (H1 & H2 & H3 & H4). cbn [bind l_coef l_vcov l_df l_resid]. rewrite <- H1.
  destruct (fisnan (nth 1 (o_coef o) NaN)); auto.
  cbn [tw_att tw_se tw_t tw_p tw_ci tw_df tw_n_obs tw_n_treated tw_n_control tw_resid tw_r2].
  assert (L1 : (1 < length cols)%nat) by (unfold cols, twfe_design; cbn; lia).
  assert (HV : match o_vcov o' with Some V => V | None => classical_vcov inv pinv rows cols (o_coef o) (o_resid o') end 1%nat 1%nat
             = match o_vcov o with Some V => V | None => classical_vcov inv pinv rows cols (o_coef o) (o_resid o) end 1%nat 1%nat).
  { destruct (o_vcov o), (o_vcov o'); try contradiction.
    - apply H4; auto.
    - unfold classical_vcov. destruct (Nat.eqb _ 0); auto.
      rewrite (sumf_ext_all (fun i => o_resid o i * o_resid o i) (fun i => o_resid o' i * o_resid o' i)); auto.
      intros; rewrite H2; auto. }
  rewrite HV. repeat (split; [reflexivity|]).
  unfold r_squared. cbv zeta. rewrite (sumf_ext_all (fun i => o_resid o i * o_resid o i) (fun i => o_resid o' i * o_resid o' i)); auto.
  intros; rewrite H2; auto.
Qed.
End Units.

(* ---- names of the periods ---- *)
Section Periods.
Context {I U : Type} (ueq : forall x y : U, {x = y} + {x <> y}).
Variable qr : list I -> list (I -> R) -> list nat.
Variable lstsq : list I -> list (I -> R) -> (I -> R) -> list R.
Variable inv : list I -> list (I -> R) -> option (nat -> nat -> R).
Variable pinv : list I -> list (I -> R) -> nat -> nat -> R.
Variable sf : option Z -> fl -> fl.
Variable ppf : option Z -> R -> R.
Hypothesis Hqr : qr_ok qr.
Hypothesis Hls : lstsq_ok lstsq.
Notation fit := (twfe_fit ueq qr lstsq inv pinv sf ppf).
Notation W rows u tm := (within ueq Req_EM_T rows u tm).

Lemma within_map_time {T S} (teq : forall x y : T, {x = y} + {x <> y}) (seqd : forall x y : S, {x = y} + {x <> y}) (h : T -> S)
  (rows : list I) u (tm : I -> T) x : (forall a b, h a = h b -> a = b) ->
  within ueq seqd rows u (fun j => h (tm j)) x = within ueq teq rows u tm x.
Proof.
  intros Hh. apply FunctionalExtensionality.functional_extensionality. intros i. unfold within.
  rewrite (group_mean_map teq seqd h Hh). reflexivity.
Qed.

(* on a balanced panel the numerator of the reported slope is the within inner product *)
Lemma tw_numerator (rows : list I) u tm m (D y : I -> R) : Within_proofs.balanced ueq Req_EM_T rows u tm m ->
  sumf (fun i => (D i - meanf D rows) * W rows u tm y i) rows = ip rows (W rows u tm D) (W rows u tm y).
Proof.
  intros Hb. rewrite (sumf_ext_all _ (fun i => W rows u tm y i * D i - meanf D rows * W rows u tm y i)) by (intros; ring).
  rewrite sumf_sub, sumf_scal, (within_sum_zero ueq Req_EM_T rows u tm m Hb). fold (ip rows (W rows u tm y) D).
  rewrite (within_ip ueq Req_EM_T rows u tm m Hb y D), ip_sym. ring.
Qed.
Theorem twfe_att_balanced cluster alpha action rows y d tm u m r :
  let D := fun i => d i * tm i in
  Within_proofs.balanced ueq Req_EM_T rows u tm m -> ss rows D <> 0 ->
  fit cluster alpha action rows y d tm u [] = Ok r ->
  tw_att r = Fin (ip rows (W rows u tm D) (W rows u tm y) / ss rows D).
Proof.
  intros D Hb Hs H. rewrite (twfe_att_formula ueq qr lstsq inv pinv sf ppf Hqr Hls _ _ _ _ _ _ _ _ _ H Hs).
  f_equal. exact (f_equal (fun z => z / ss rows D) (tw_numerator rows u tm m D y Hb)).
Qed.

Definition cv (rows : list I) (x z : I -> R) : R := sumf (fun i => (x i - meanf x rows) * (z i - meanf z rows)) rows.

(* adding k to every period label divides the estimate by a quadratic in k *)
Theorem twfe_period_labels cluster alpha action rows y (dU : U -> R) tm u m k r r' :
  let d := fun i => dU (u i) in
  let D := fun i => d i * tm i in
  let q := ss rows D + 2 * k * cv rows D d + k * k * ss rows d in
  Within_proofs.balanced ueq Req_EM_T rows u tm m -> ss rows D <> 0 -> q <> 0 ->
  fit cluster alpha action rows y d tm u [] = Ok r ->
  fit cluster alpha action rows y d (fun i => tm i + k) u [] = Ok r' ->
  exists a, tw_att r = Fin a /\ tw_att r' = Fin (a * ss rows D / q).
Proof.
  intros d D q Hb Hs Hq H H'.
  set (tm' := fun i => tm i + k) in *. set (D' := fun i => d i * tm' i).
  assert (EW : forall x, W rows u tm' x = W rows u tm x)
    by (intros x; apply (within_map_time Req_EM_T Req_EM_T (fun z => z + k) rows u tm x); intros; lra).
  assert (Hb' : Within_proofs.balanced ueq Req_EM_T rows u tm' m).
  { destruct Hb as [Hm Hb]. split; auto. intros a b Ha Hi. apply in_map_iff in Hi as (j & <- & Hj).
    rewrite <- (Hb a (tm j) Ha (in_map tm _ _ Hj)). f_equal. apply filter_ext. intros i. f_equal. unfold tm'.
    unfold keqb. destruct (Req_EM_T (tm i + k) (tm j + k)), (Req_EM_T (tm i) (tm j)); auto; exfalso; lra. }
  assert (Eq : ss rows D' = q).
  { unfold q, ss, cv.
    assert (Em : meanf D' rows = meanf D rows + k * meanf d rows).
    { unfold D', D, tm'. rewrite <- meanf_scal, <- meanf_add. apply meanf_ext. intros; ring. }
    rewrite Em, <- !sumf_scal, <- !sumf_add. apply sumf_ext_all. intros i. unfold D', D, tm'. ring. }
  rewrite (twfe_att_balanced cluster alpha action rows y d tm u m r Hb Hs H).
  assert (Hs' : ss rows D' <> 0) by (rewrite Eq; auto).
  rewrite (twfe_att_balanced cluster alpha action rows y d tm' u m r' Hb' Hs' H'). fold D D'. rewrite !EW.
  eexists. split; [reflexivity|]. f_equal. rewrite Eq.
  assert (EN : ip rows (W rows u tm D') (W rows u tm y) = ip rows (W rows u tm D) (W rows u tm y)).
  { unfold ip. apply sumf_ext. intros i Hi. f_equal.
    rewrite (within_ext ueq Req_EM_T rows u tm D' (fun j => D j + (k * dU (u j) + 0)) i Hi) by (intros j _; unfold D', D, d, tm'; ring).
    apply (within_absorbs ueq Req_EM_T rows u tm m Hb D (fun a => k * dU a) (fun _ => 0) i Hi). }
  rewrite EN. field. auto.
Qed.
End Periods.

(* ---- decompose: the coefficient that BaconDecomposition starts from ---- *)
Section Decompose.
Context {I : Type}.
Variable qr : list I -> list (I -> R) -> list nat.
Variable lstsq : list I -> list (I -> R) -> (I -> R) -> list R.
Variable inv : list I -> list (I -> R) -> option (nat -> nat -> R).
Variable pinv : list I -> list (I -> R) -> nat -> nat -> R.
Variable sf : option Z -> fl -> fl.
Variable ppf : option Z -> R -> R.
Hypothesis Hqr : qr_ok qr.
Hypothesis Hls : lstsq_ok lstsq.
Notation fit := (twfe_fit Z.eq_dec qr lstsq inv pinv sf ppf).
Notation WZ rows u t := (within Z.eq_dec Z.eq_dec rows u t).

Lemma within_IZR (rows : list I) (u t : I -> Z) x : within Z.eq_dec Req_EM_T rows u (fun i => IZR (t i)) x = WZ rows u t x.
Proof. apply (within_map_time Z.eq_dec Z.eq_dec Req_EM_T IZR). intros a b. apply eq_IZR. Qed.
Lemma balanced_IZR (rows : list I) (u t : I -> Z) m : Within_proofs.balanced Z.eq_dec Z.eq_dec rows u t m ->
  Within_proofs.balanced Z.eq_dec Req_EM_T rows u (fun i => IZR (t i)) m.
Proof.
  intros [Hm Hb]. split; auto. intros a b Ha Hi. apply in_map_iff in Hi as (j & <- & Hj).
  rewrite <- (Hb a (t j) Ha (in_map t _ _ Hj)). f_equal. apply filter_ext. intros i. f_equal.
  apply (keqb_map Z.eq_dec Req_EM_T IZR). intros x y. apply eq_IZR.
Qed.

(* when the interaction is exactly the treatment indicator that decompose builds from first_treat, fit's ATT is the
   coefficient being decomposed times the share of the indicator's variance left after demeaning *)
Theorem twfe_vs_decompose cluster alpha action rows y d (u t : I -> Z) g m r :
  let D := btreat t g in
  let tm := fun i => IZR (t i) in
  Within_proofs.balanced Z.eq_dec Z.eq_dec rows u t m ->
  (forall i, In i rows -> d i * tm i = D i) -> 0 < ip rows (WZ rows u t D) (WZ rows u t D) ->
  fit cluster alpha action rows y d tm u [] = Ok r ->
  tw_att r = Fin (btwfe rows u t g y * (ip rows (WZ rows u t D) (WZ rows u t D) / ss rows D)).
Proof.
  intros D tm Hb HD Hv H.
  assert (Hss : ss rows (fun i => d i * tm i) = ss rows D).
  { unfold ss. rewrite (meanf_ext (fun i => d i * tm i) D) by auto. apply sumf_ext. intros i Hi. rewrite HD; auto. }
  assert (Hpos : 0 < ss rows D).
  { (* demeaning cannot increase the variance *)
    set (DD := fun i => D i - meanf D rows).
    assert (E1 : ss rows D = ip rows DD DD) by reflexivity.
    destruct (Rle_lt_or_eq_dec 0 (ss rows D)) as [L|L]; auto.
    - unfold ss. apply sumf_nonneg. intros; apply Rle_0_sqr.
    - exfalso. assert (Hz : forall i, In i rows -> D i - meanf D rows = 0).
      { intros i Hi. assert (Q : (D i - meanf D rows) * (D i - meanf D rows) = 0).
        { apply (sumf_nonneg_0 (fun i => (D i - meanf D rows) * (D i - meanf D rows)) rows); auto. intros; apply Rle_0_sqr. }
        apply Rmult_integral in Q. tauto. }
      assert (Wz : forall i, In i rows -> WZ rows u t D i = 0).
      { intros i Hi. rewrite (within_ext Z.eq_dec Z.eq_dec rows u t D (fun j => meanf D rows + 0) i Hi) by (intros j Hj; specialize (Hz j Hj); lra).
        apply (within_additive Z.eq_dec Z.eq_dec rows u t m Hb (fun _ => meanf D rows) (fun _ => 0) i Hi). }
      unfold ip in Hv. rewrite (sumf_ext _ (fun _ => 0)) in Hv by (intros i Hi; rewrite Wz by auto; ring). rewrite sumf_0 in Hv. lra. }
  rewrite (twfe_att_balanced Z.eq_dec qr lstsq inv pinv sf ppf Hqr Hls cluster alpha action rows y d tm u m r (balanced_IZR rows u t m Hb)); auto; [|rewrite Hss; lra].
  rewrite Hss. unfold tm. rewrite !within_IZR. f_equal.
  unfold btwfe. fold D. cbv zeta. change (sumf (fun i => WZ rows u t D i * WZ rows u t D i) rows) with (ip rows (WZ rows u t D) (WZ rows u t D)).
  destruct (Rlt_dec 0 _); [|contradiction].
  assert (EN : ip rows (WZ rows u t (fun i => d i * IZR (t i))) (WZ rows u t y) = sumf (fun i => WZ rows u t D i * WZ rows u t y i) rows).
  { unfold ip. apply sumf_ext. intros i Hi. f_equal. apply within_ext; auto. }
  rewrite EN. field. split; lra.
Qed.

(* with a unit that is never treated and one that is, fit reports strictly less (in absolute value) than what decompose decomposes *)
Theorem twfe_not_decomposed cluster alpha action rows y d (u t : I -> Z) g m r i0 i1 :
  let D := btreat t g in
  let tm := fun i => IZR (t i) in
  Within_proofs.balanced Z.eq_dec Z.eq_dec rows u t m ->
  (forall i, In i rows -> d i * tm i = D i) -> 0 < ip rows (WZ rows u t D) (WZ rows u t D) ->
  In i0 rows -> (forall j, In j rows -> u j = u i0 -> D j = 0) -> In i1 rows -> D i1 <> 0 ->
  fit cluster alpha action rows y d tm u [] = Ok r ->
  exists c, 0 < c < 1 /\ tw_att r = Fin (c * btwfe rows u t g y) /\ (btwfe rows u t g y <> 0 -> tw_att r <> Fin (btwfe rows u t g y)).
Proof.
  intros D tm Hb HD Hv H0 Hz H1 Hne H.
  set (mu := meanf D rows). set (a := fun x => utab Z.eq_dec rows u D x - mu). set (b := fun x => ttab Z.eq_dec rows t D x - mu).
  assert (Dec : forall i, D i - mu = WZ rows u t D i + (a (u i) + b (t i))).
  { intros i. pose proof (within_tab Z.eq_dec Z.eq_dec rows u t D i) as E. unfold a, b, mu. lra. }
  assert (Hss : ss rows D = ip rows (WZ rows u t D) (WZ rows u t D) + sumf (fun i => (a (u i) + b (t i)) * (a (u i) + b (t i))) rows).
  { unfold ss. fold mu. rewrite (sumf_ext_all _ (fun i => WZ rows u t D i * WZ rows u t D i + 2 * (WZ rows u t D i * (a (u i) + b (t i)))
      + (a (u i) + b (t i)) * (a (u i) + b (t i)))) by (intros i; rewrite Dec; ring).
    rewrite !sumf_add, sumf_scal.
    fold (ip rows (WZ rows u t D) (fun j => a (u j) + b (t j))). rewrite (within_orth Z.eq_dec Z.eq_dec rows u t m Hb D a b). unfold ip. ring. }
  assert (Hpos : 0 < sumf (fun i => (a (u i) + b (t i)) * (a (u i) + b (t i))) rows).
  { destruct (Rle_lt_or_eq_dec 0 (sumf (fun i => (a (u i) + b (t i)) * (a (u i) + b (t i))) rows)) as [L|L]; auto.
    { apply sumf_nonneg. intros; apply Rle_0_sqr. }
    exfalso. assert (Q : forall i, In i rows -> a (u i) + b (t i) = 0).
    { intros i Hi. assert (Q : (a (u i) + b (t i)) * (a (u i) + b (t i)) = 0).
      { apply (sumf_nonneg_0 (fun i => (a (u i) + b (t i)) * (a (u i) + b (t i))) rows); auto. intros; apply Rle_0_sqr. }
      apply Rmult_integral in Q. tauto. }
    (* the control unit's row in the period of i1 *)
    destruct Hb as [Hm Hb']. assert (Ex : exists j, In j rows /\ u j = u i0 /\ t j = t i1).
    { specialize (Hb' (u i0) (t i1) (in_map u _ _ H0) (in_map t _ _ H1)).
      destruct (filter (fun i => keqb Z.eq_dec (u i) (u i0) && keqb Z.eq_dec (t i) (t i1)) rows) as [|j l] eqn:E; [cbn in Hb'; lia|].
      assert (Hj : In j (j :: l)) by (left; auto). rewrite <- E in Hj. apply filter_In in Hj as [Hj Hk]. apply andb_true_iff in Hk as [K1 K2].
      apply keqb_true in K1. apply keqb_true in K2. eauto. }
    destruct Ex as (j & Hj & Eu & Et). pose proof (Q j Hj) as Q1. pose proof (Q i1 H1) as Q2. rewrite Eu, Et in Q1.
    assert (U0 : utab Z.eq_dec rows u D (u i0) = 0).
    { unfold utab. rewrite (meanf_ext D (fun _ => 0)). - unfold meanf. rewrite sumf_0. unfold Rdiv; ring.
      - intros k Hk. apply filter_In in Hk as [Hk Ek]. apply keqb_true in Ek. auto. }
    assert (U1 : 0 < utab Z.eq_dec rows u D (u i1)).
    { unfold utab, meanf. set (l := filter _ rows). assert (Hl : In i1 l) by (apply filter_In; split; auto; apply keqb_refl).
      assert (Hd : forall k, 0 <= D k) by (intros k; unfold D, btreat; unfold ind; destruct (_ && _)%bool; lra).
      apply Rdiv_lt_0_compat.
      - destruct (Rle_lt_or_eq_dec 0 (sumf D l)) as [L'|L']; auto; [apply sumf_nonneg; auto|].
        exfalso. apply Hne. apply (sumf_nonneg_0 D l); auto.
      - apply len_pos. intros E. rewrite E in Hl. destruct Hl. }
    unfold a in Q1, Q2. lra. }
  rewrite (twfe_vs_decompose cluster alpha action rows y d u t g m r Hb HD Hv H). fold D.
  set (v := ip rows (WZ rows u t D) (WZ rows u t D)) in *.
  exists (v / ss rows D). rewrite Hss. split.
  { split; [apply Rdiv_lt_0_compat; lra|]. apply (Rmult_lt_reg_r (v + sumf (fun i => (a (u i) + b (t i)) * (a (u i) + b (t i))) rows)); [lra|].
    unfold Rdiv. rewrite Rmult_assoc, Rinv_l by lra. lra. }
  split; [f_equal; ring|]. intros Hn E. injection E as E.
  set (w := sumf (fun i => (a (u i) + b (t i)) * (a (u i) + b (t i))) rows) in *.
  assert (C : v / (v + w) = 1) by (apply (Rmult_eq_reg_l (btwfe rows u t g y)); auto; rewrite E; ring).
  assert (v = v + w); [|lra]. apply (Rmult_eq_reg_r (/ (v + w))); [|apply Rinv_neq_0_compat; lra]. rewrite Rinv_r by lra. exact C.
Qed.
End Decompose.

(* ---- concrete runs ---- *)
Notation pairN := (nat * nat)%type.
Definition tl_run tm rows y d := twfe_fit Nat.eq_dec (@gs_dropped pairN) (@gs pairN) (@gs_inv pairN) (fun _ _ _ _ => 0)
   toy_sf toy_ppf None (5/100) "warn" rows y d tm fst [].
(* the panel of tw_run with periods called 2014 and 2015 *)
Definition tl_year (i : pairN) : R := tw_tm i + 2014.
Theorem twfe_year_labels_refuted :
  exists r r', tl_run tw_tm tw_rows tw_y (fun i => tw_d (fst i)) = Ok r /\ tl_run tl_year tw_rows tw_y (fun i => tw_d (fst i)) = Ok r' /\
    tw_att r = Fin 1 /\ tw_att r' = Fin (3 / 16232843).
Proof.
  destruct twfe_constant_effect_refuted as (r & Hr & Ha).
  destruct (twfe_defined Nat.eq_dec (@gs_dropped pairN) (@gs pairN) (@gs_inv pairN) (fun _ _ _ _ => 0)
     toy_sf toy_ppf gs_dropped_ok gs_ok gs_inv_ok None (5/100) "warn" tw_rows tw_y (fun i => tw_d (fst i)) tl_year fst) as [r' Hr'].
  - unfold ss, meanf, len, tw_rows, tw_d, tl_year, tw_tm; simpl. lra.
  - vm_compute. lia.
  - vm_compute. lia.
  - exists r, r'. split; [exact Hr|]. split; [exact Hr'|]. split; [exact Ha|].
    destruct (twfe_period_labels Nat.eq_dec (@gs_dropped pairN) (@gs pairN) (@gs_inv pairN) (fun _ _ _ _ => 0)
     toy_sf toy_ppf gs_dropped_ok gs_ok None (5/100) "warn" tw_rows tw_y tw_d tw_tm fst 1 2014 r r' tw_balanced) as (a & E1 & E2); auto.
    + unfold ss, meanf, len, tw_rows, tw_d, tw_tm; simpl. lra.
    + unfold ss, cv, meanf, len, tw_rows, tw_d, tw_tm; simpl. lra.
    + rewrite Ha in E1. injection E1 as <-. rewrite E2. f_equal.
      unfold ss, cv, meanf, len, tw_rows, tw_d, tw_tm; simpl. lra.
Qed.

(* unbalanced: unit 2 has only the second period; the outcome is a unit effect and nothing else *)
Definition tl_ub : list pairN := [(0, 0); (0, 1); (1, 0); (1, 1); (2, 1)]%nat.
Definition tl_ud (k : nat) : R := if Nat.eqb k 0 then 0 else 1.
Theorem twfe_unit_effects_unbalanced_refuted :
  exists r r', tl_run tw_tm tl_ub (fun _ => 0) (fun i => tl_ud (fst i)) = Ok r /\
    tl_run tw_tm tl_ub (fun i => if Nat.eqb (fst i) 2 then 1 else 0) (fun i => tl_ud (fst i)) = Ok r' /\
    tw_att r = Fin 0 /\ tw_att r' = Fin (- (2 / 9)).
Proof.
  assert (Hs : ss tl_ub (fun i => tl_ud (fst i) * tw_tm i) <> 0).
  { unfold ss, meanf, len, tl_ub, tl_ud, tw_tm; simpl. lra. }
  assert (Ex : forall y, exists r, tl_run tw_tm tl_ub y (fun i => tl_ud (fst i)) = Ok r).
  { intros y. apply (twfe_defined Nat.eq_dec (@gs_dropped pairN) (@gs pairN) (@gs_inv pairN) (fun _ _ _ _ => 0)
     toy_sf toy_ppf gs_dropped_ok gs_ok gs_inv_ok None (5/100) "warn" tl_ub y (fun i => tl_ud (fst i)) tw_tm fst Hs); vm_compute; lia. }
  destruct (Ex (fun _ => 0)) as [r Hr]. destruct (Ex (fun i => if Nat.eqb (fst i) 2 then 1 else 0)) as [r' Hr'].
  exists r, r'. split; [exact Hr|]. split; [exact Hr'|].
  assert (F := fun y r => twfe_att_formula Nat.eq_dec (@gs_dropped pairN) (@gs pairN) (@gs_inv pairN) (fun _ _ _ _ => 0)
     toy_sf toy_ppf gs_dropped_ok gs_ok None (5/100) "warn" tl_ub y (fun i => tl_ud (fst i)) tw_tm fst r).
  assert (N1 : forall c, Req_EM_T c c = left eq_refl -> True) by auto. clear N1.
  assert (K01 : keqb Req_EM_T 0 1 = false) by (apply keqb_false; lra). assert (K10 : keqb Req_EM_T 1 0 = false) by (apply keqb_false; lra).
  split.
  - rewrite (F _ _ Hr Hs). f_equal. rewrite (sumf_ext_all _ (fun _ => 0)).
    + rewrite sumf_0. unfold Rdiv; ring.
    + intros i. rewrite (within_0 Nat.eq_dec tl_ub fst tw_tm i). ring.
  - rewrite (F _ _ Hr' Hs). f_equal. unfold ss, within, group_mean, meanf, len, tl_ub, tl_ud, tw_tm. simpl.
    rewrite ?keqb_refl, ?K01, ?K10. simpl. lra.
Qed.

(* two units, two periods, unit 2 treated in period 1, effect 3: decompose decomposes 3, fit reports 1 *)
Definition zrows : list (Z * Z) := [(1, 0); (1, 1); (2, 0); (2, 1)]%Z.
Definition zg (i : Z * Z) : coh := if Z.eqb (fst i) 2 then CFin 1 else CFin 0.
Definition zd (i : Z * Z) : R := if Z.eqb (fst i) 2 then 1 else 0.
Definition zy (i : Z * Z) : R := 7 * IZR (fst i) + 2 * IZR (snd i) + 3 * (zd i * IZR (snd i)).
Theorem twfe_decompose_refuted : exists r,
  twfe_fit Z.eq_dec (@gs_dropped (Z * Z)) (@gs (Z * Z)) (@gs_inv (Z * Z)) (fun _ _ _ _ => 0) toy_sf toy_ppf None (5/100) "warn"
    zrows zy zd (fun i => IZR (snd i)) fst [] = Ok r /\ btwfe zrows fst snd zg zy = 3 /\ tw_att r = Fin 1.
Proof.
  assert (Hs : ss zrows (fun i => zd i * IZR (snd i)) <> 0).
  { unfold ss, meanf, len, zrows, zd; simpl. lra. }
  destruct (twfe_defined Z.eq_dec (@gs_dropped (Z * Z)) (@gs (Z * Z)) (@gs_inv (Z * Z)) (fun _ _ _ _ => 0)
     toy_sf toy_ppf gs_dropped_ok gs_ok gs_inv_ok None (5/100) "warn" zrows zy zd (fun i => IZR (snd i)) fst Hs) as [r Hr].
  - vm_compute. lia.
  - vm_compute. lia.
  - assert (HD : forall i, In i zrows -> zd i * IZR (snd i) = btreat snd zg i).
    { intros i Hi. cbn in Hi. destruct Hi as [<-|[<-|[<-|[<-|[]]]]]; unfold zd, btreat, ind, zg; simpl; lra. }
    assert (Hv : ip zrows (within Z.eq_dec Z.eq_dec zrows fst snd (btreat snd zg)) (within Z.eq_dec Z.eq_dec zrows fst snd (btreat snd zg)) = 1 / 4).
    { unfold ip, within, group_mean, meanf, len, zrows, btreat, ind, zg; simpl. unfold keqb; simpl. lra. }
    assert (Hb : Within_proofs.balanced Z.eq_dec Z.eq_dec zrows fst snd 1).
    { apply (product_balanced Z.eq_dec Z.eq_dec [1; 2]%Z [0; 1]%Z); try discriminate; repeat constructor; cbn; intuition discriminate. }
    assert (Hbt : btwfe zrows fst snd zg zy = 3).
    { unfold btwfe. cbv zeta. unfold ip in Hv. rewrite Hv.
      destruct (Rlt_dec 0 (1 / 4)); [|lra].
      unfold within, group_mean, meanf, len, zrows, btreat, ind, zg, zy, zd; simpl. unfold keqb; simpl. lra. }
    exists r. split; [exact Hr|]. split; [exact Hbt|].
    rewrite (twfe_vs_decompose (@gs_dropped (Z * Z)) (@gs (Z * Z)) (@gs_inv (Z * Z)) (fun _ _ _ _ => 0) toy_sf toy_ppf gs_dropped_ok gs_ok
      None (5/100) "warn" zrows zy zd fst snd zg 1 r Hb HD ltac:(rewrite Hv; lra) Hr).
    rewrite Hv, Hbt. f_equal. unfold ss, meanf, len, zrows, btreat, ind, zg; simpl. lra.
Qed.

(* a fit with a covariate meets the hypotheses of twfe_effects *)
Definition tl_cov (i : pairN) : R := INR (fst i) * INR (snd i).
Definition tl_fit y := twfe_fit Nat.eq_dec (@gs_dropped pairN) (@gs pairN) (@gs_inv pairN) (fun _ _ _ _ => 0)
   toy_sf toy_ppf None (5/100) "warn" tw_rows y (fun i => tw_d (fst i)) tw_tm fst [tl_cov].
Lemma tl_cov_within i : In i tw_rows -> within Nat.eq_dec Req_EM_T tw_rows fst tw_tm tl_cov i = (INR (fst i) - 3 / 2) * (INR (snd i) - 1 / 2).
Proof.
  assert (K01 : keqb Req_EM_T 0 1 = false) by (apply keqb_false; lra). assert (K10 : keqb Req_EM_T 1 0 = false) by (apply keqb_false; lra).
  intros Hi. cbn in Hi.
  repeat (destruct Hi as [<-|Hi]; [unfold within, group_mean, meanf, len, tw_rows, tw_tm, tl_cov; simpl;
    rewrite ?keqb_refl, ?K01, ?K10; simpl; lra|]). destruct Hi.
Qed.
Lemma tl_indep : indep tw_rows (twfe_design (fun i => tw_d (fst i)) tw_tm (map (within Nat.eq_dec Req_EM_T tw_rows fst tw_tm) [tl_cov])).
Proof.
  intros b Lb Hz. destruct b as [|b0 [|b1 [|b2 [|]]]]; cbn in Lb; try discriminate.
  assert (E : forall i, In i tw_rows -> b0 + b1 * (tw_d (fst i) * tw_tm i) + b2 * ((INR (fst i) - 3 / 2) * (INR (snd i) - 1 / 2)) = 0).
  { intros i Hi. specialize (Hz i Hi). cbn [lc twfe_design map] in Hz. rewrite tl_cov_within in Hz by auto. lra. }
  pose proof (E (1, 0)%nat ltac:(cbn; tauto)) as E1. pose proof (E (1, 1)%nat ltac:(cbn; tauto)) as E2. pose proof (E (2, 1)%nat ltac:(cbn; tauto)) as E3.
  unfold tw_d, tw_tm in *. simpl in *. assert (b0 = 0) by lra. assert (b2 = 0) by lra. assert (b1 = 0) by lra. subst. reflexivity.
Qed.
Theorem twfe_effects_case : exists r, tl_fit tw_y = Ok r /\ Within_proofs.balanced Nat.eq_dec Req_EM_T tw_rows fst tw_tm 1 /\
  tw_identified Nat.eq_dec tw_rows (fun i => tw_d (fst i)) tw_tm fst [tl_cov].
Proof.
  assert (Hid : tw_identified Nat.eq_dec tw_rows (fun i => tw_d (fst i)) tw_tm fst [tl_cov]).
  { intros (b & Lb & Hb). destruct b as [|b0 [|b2 [|]]]; cbn in Lb; try discriminate.
    pose proof (tl_indep [b0; -1; b2] eq_refl) as Q. assert (Z : [b0; -1; b2] = [0; 0; 0]).
    { apply Q. intros i Hi. specialize (Hb i Hi). cbn [lc twfe_design map] in *. lra. }
    injection Z as _ Z _. lra. }
  unfold tl_fit, twfe_fit, linreg_fit. cbv zeta.
  destruct (solve_defined Nat.eq_dec (@gs_dropped pairN) (@gs pairN) (@gs_inv pairN) gs_dropped_ok gs_inv_ok tw_rows
    (twfe_design (fun i => tw_d (fst i)) tw_tm (map (within Nat.eq_dec Req_EM_T tw_rows fst tw_tm) [tl_cov])) (within Nat.eq_dec Req_EM_T tw_rows fst tw_tm tw_y)
    fst true (twfe_action "warn") tl_indep) as [o Ho].
  - cbn; lia.
  - vm_compute; lia.
  - cbn; discriminate.
  - rewrite Ho. cbn [bind l_coef l_vcov l_resid l_df].
    destruct (solve_ols_full_rank Nat.eq_dec (@gs_dropped pairN) (@gs pairN) (@gs_inv pairN) gs_dropped_ok gs_ok _ _ _ _ _ _ _ tl_indep Ho) as (b & Eb & Lb & _).
    rewrite Eb. cbn in Lb. destruct b as [|b0 [|b1 [|b2 [|]]]]; cbn in Lb; try discriminate. cbn [map nth fisnan].
    eexists. split; [reflexivity|]. split; [exact tw_balanced|exact Hid].
Qed.

(* Proofs about the 2x2 estimator. *)
From Verif Require Import Prelude Flt Linalg_model Linalg_proofs Linalg_vcov Linalg_thms Did_model Did_spec.
From Coq Require Import Arith ZArith String List.
Import ListNotations.
Open Scope R_scope.

Lemma Reqb_refl x : Reqb x x = true.
Proof. apply Reqb_true; auto. Qed.
Lemma Reqb_01 : Reqb 0 1 = false. Proof. apply Reqb_false; lra. Qed.
Lemma Reqb_10 : Reqb 1 0 = false. Proof. apply Reqb_false; lra. Qed.

Lemma cell_sum_gen {I} (rows : list I) (d t f : I -> R) :
  zero_one rows d -> zero_one rows t ->
  sumf f rows = sumf f (cell rows d t 0 0) + sumf f (cell rows d t 0 1)
              + sumf f (cell rows d t 1 0) + sumf f (cell rows d t 1 1).
Proof.
  unfold cell, zero_one. induction rows as [|i l IH]; intros Hd Ht; simpl; [lra|].
  rewrite IH by (simpl in *; auto).
  destruct (Hd i (or_introl eq_refl)) as [->| ->], (Ht i (or_introl eq_refl)) as [->| ->];
    rewrite ?Reqb_refl, ?Reqb_01, ?Reqb_10; simpl; lra.
Qed.

Lemma cell_mean_ext {I} (rows : list I) (d t f g : I -> R) a b :
  (forall i, In i rows -> f i = g i) -> cell_mean rows d t f a b = cell_mean rows d t g a b.
Proof. intros H. apply meanf_ext. intros i Hi. apply filter_In in Hi. apply H; tauto. Qed.

Lemma did_of_means_ext {I} (rows : list I) (d t f g : I -> R) :
  (forall i, In i rows -> f i = g i) -> did_of_means rows d t f = did_of_means rows d t g.
Proof. intros H. unfold did_of_means. rewrite !(cell_mean_ext rows d t f g) by auto. reflexivity. Qed.

Section Saturated.
Context {I : Type}.
Variables (rows : list I) (d t : I -> R).
Hypothesis Hd : zero_one rows d.
Hypothesis Ht : zero_one rows t.

Lemma cell_in a b i : In i (cell rows d t a b) <-> In i rows /\ d i = a /\ t i = b.
Proof.
  unfold cell. rewrite filter_In, Bool.andb_true_iff, !Reqb_true. tauto.
Qed.

Lemma cell_sum (f : I -> R) :
  sumf f rows = sumf f (cell rows d t 0 0) + sumf f (cell rows d t 0 1)
              + sumf f (cell rows d t 1 0) + sumf f (cell rows d t 1 1).
Proof. apply cell_sum_gen; auto. Qed.

Lemma cell_sum_const (f : I -> R) a b c :
  (forall i, In i rows -> d i = a -> t i = b -> f i = c) -> sumf f (cell rows d t a b) = len (cell rows d t a b) * c.
Proof.
  intros H. rewrite <- sumf_const. apply sumf_ext. intros i Hi. apply cell_in in Hi. apply H; tauto.
Qed.

Notation design := (did_design d t []).

Definition sat_fit (m00 m01 m10 m11 : R) : list R :=
  [m00; m10 - m00; m01 - m00; m11 - m10 - (m01 - m00)].

Lemma sat_value m00 m01 m10 m11 i :
  In i rows ->
  lc design (sat_fit m00 m01 m10 m11) i
  = if Reqb (d i) 1 then (if Reqb (t i) 1 then m11 else m10) else (if Reqb (t i) 1 then m01 else m00).
Proof.
  intros Hi. simpl. destruct (Hd i Hi) as [->| ->], (Ht i Hi) as [->| ->];
    rewrite ?Reqb_refl, ?Reqb_01; lra.
Qed.

(* every function of (d,t) is in the column space *)
Lemma sat_span (h : R -> R -> R) : span rows design (fun i => h (d i) (t i)).
Proof.
  exists (sat_fit (h 0 0) (h 0 1) (h 1 0) (h 1 1)). split; [reflexivity|].
  intros i Hi. rewrite sat_value by auto.
  destruct (Hd i Hi) as [->| ->], (Ht i Hi) as [->| ->]; rewrite ?Reqb_refl, ?Reqb_01; reflexivity.
Qed.

Lemma cell_dev y a b : sumf (fun i => y i - cell_mean rows d t y a b) (cell rows d t a b) = 0.
Proof.
  destruct (cell rows d t a b) as [|i l] eqn:E; [reflexivity|].
  unfold cell_mean. rewrite E. apply sumf_dev. discriminate.
Qed.

Lemma sat_is_ls y :
  is_ls rows design y (sat_fit (cell_mean rows d t y 0 0) (cell_mean rows d t y 0 1)
                               (cell_mean rows d t y 1 0) (cell_mean rows d t y 1 1)).
Proof.
  split; [reflexivity|].
  apply Forall_forall. intros c Hc.
  assert (Hh : exists h, forall i, c i = h (d i) (t i)).
  { simpl in Hc. destruct Hc as [<-|[<-|[<-|[<-|[]]]]].
    - exists (fun _ _ => 1); auto.
    - exists (fun x _ => x); auto.
    - exists (fun _ x => x); auto.
    - exists (fun x z => x * z); auto. }
  destruct Hh as [h Hh]. unfold ip. rewrite cell_sum.
  assert (Hz : forall a b, (a = 0 \/ a = 1) -> (b = 0 \/ b = 1) ->
    sumf (fun i => c i * (y i - lc design (sat_fit (cell_mean rows d t y 0 0) (cell_mean rows d t y 0 1)
                               (cell_mean rows d t y 1 0) (cell_mean rows d t y 1 1)) i)) (cell rows d t a b) = 0).
  { intros a b Ha Hb.
    rewrite (sumf_ext _ (fun i => h a b * (y i - cell_mean rows d t y a b))).
    - rewrite sumf_scal, cell_dev. ring.
    - intros i Hi. apply cell_in in Hi. destruct Hi as (Hi & Ed & Et).
      rewrite Hh, sat_value by auto. rewrite Ed, Et.
      destruct Ha as [->| ->], Hb as [->| ->]; rewrite ?Reqb_refl, ?Reqb_01; reflexivity. }
  rewrite !Hz by auto. ring.
Qed.

Lemma sat_indep : four_cells rows d t -> indep rows design.
Proof.
  intros (H00 & H01 & H10 & H11) a La Ha.
  destruct a as [|b0 [|b1 [|b2 [|b3 [|]]]]]; try discriminate. simpl.
  assert (Hex : forall x z, cell rows d t x z <> [] -> exists i, In i rows /\ d i = x /\ t i = z).
  { intros x z Hne. destruct (cell rows d t x z) as [|i l] eqn:E; [congruence|].
    exists i. apply cell_in. rewrite E; simpl; auto. }
  destruct (Hex 0 0 H00) as (i0 & I0 & D0 & T0). destruct (Hex 0 1 H01) as (i1 & I1 & D1 & T1).
  destruct (Hex 1 0 H10) as (i2 & I2 & D2 & T2). destruct (Hex 1 1 H11) as (i3 & I3 & D3 & T3).
  pose proof (Ha i0 I0) as E0. pose proof (Ha i1 I1) as E1. pose proof (Ha i2 I2) as E2. pose proof (Ha i3 I3) as E3.
  simpl in E0, E1, E2, E3. rewrite D0, T0 in E0. rewrite D1, T1 in E1. rewrite D2, T2 in E2. rewrite D3, T3 in E3.
  repeat f_equal; lra.
Qed.

(* the dual vector of the interaction: +-1/n_cell *)
Definition did_q (i : I) : R :=
  let n a b := len (cell rows d t a b) in
  if Reqb (d i) 1 then (if Reqb (t i) 1 then / n 1 1 else - / n 1 0)
  else (if Reqb (t i) 1 then - / n 0 1 else / n 0 0).

Lemma did_q_dual B :
  four_cells rows d t -> is_inverse rows design B ->
  forall i, In i rows -> qcol design B 3 i = did_q i.
Proof.
  intros Hf HB. destruct Hf as (H00 & H01 & H10 & H11).
  pose proof (len_pos _ H00). pose proof (len_pos _ H01). pose proof (len_pos _ H10). pose proof (len_pos _ H11).
  apply (qcol_unique rows design B 3); auto.
  - apply (sat_span (fun a b =>
      let n a b := len (cell rows d t a b) in
      if Reqb a 1 then (if Reqb b 1 then / n 1 1 else - / n 1 0)
      else (if Reqb b 1 then - / n 0 1 else / n 0 0))).
  - intros a Ha. simpl in Ha.
    assert (Hcell : forall h : R -> R -> R,
      ip rows (fun i => h (d i) (t i)) did_q = h 0 0 - h 0 1 - h 1 0 + h 1 1).
    { intros h. unfold ip. rewrite cell_sum.
      rewrite (cell_sum_const _ 0 0 (h 0 0 * / len (cell rows d t 0 0)))
        by (intros i _ Ed Et; unfold did_q; rewrite Ed, Et, Reqb_01; reflexivity).
      rewrite (cell_sum_const _ 0 1 (h 0 1 * - / len (cell rows d t 0 1)))
        by (intros i _ Ed Et; unfold did_q; rewrite Ed, Et, Reqb_01, Reqb_refl; reflexivity).
      rewrite (cell_sum_const _ 1 0 (h 1 0 * - / len (cell rows d t 1 0)))
        by (intros i _ Ed Et; unfold did_q; rewrite Ed, Et, Reqb_01, Reqb_refl; reflexivity).
      rewrite (cell_sum_const _ 1 1 (h 1 1 * / len (cell rows d t 1 1)))
        by (intros i _ Ed Et; unfold did_q; rewrite Ed, Et, Reqb_refl; reflexivity).
      field. repeat split; lra. }
    destruct a as [|[|[|[|a]]]]; [| | | |lia].
    + change (colx design 0) with (fun i => (fun _ _ : R => 1) (d i) (t i)). rewrite Hcell. simpl; ring.
    + change (colx design 1) with (fun i => (fun x _ : R => x) (d i) (t i)). rewrite Hcell. simpl; ring.
    + change (colx design 2) with (fun i => (fun _ z : R => z) (d i) (t i)). rewrite Hcell. simpl; ring.
    + change (colx design 3) with (fun i => (fun x z : R => x * z) (d i) (t i)). rewrite Hcell. simpl; ring.
Qed.

Lemma did_q_on a b i : (a = 0 \/ a = 1) -> (b = 0 \/ b = 1) -> In i (cell rows d t a b) ->
  did_q i * did_q i = / (len (cell rows d t a b) * len (cell rows d t a b)).
Proof.
  intros Ha Hb Hi. apply cell_in in Hi. destruct Hi as (_ & Ed & Et). unfold did_q. rewrite Ed, Et.
  rewrite Rinv_mult. destruct Ha as [->| ->], Hb as [->| ->]; rewrite ?Reqb_refl, ?Reqb_01; ring.
Qed.

(* HC1 variance of the interaction in closed form *)
Lemma did_hc1_closed y B (b : list R) :
  four_cells rows d t -> is_inverse rows design B -> is_ls rows design y b ->
  sandwich 4 (INR (length rows) / (INR (length rows) - 4)) B
     (hc1_meat rows design (fun i => y i - lc design b i)) 3 3 = did_hc1 rows d t y.
Proof.
  intros Hf HB Hb.
  change 4%nat with (length design). rewrite hc1_dual. unfold did_hc1, len at 1 2. f_equal.
  rewrite (sumf_ext _ (fun i => did_q i * did_q i * ((y i - lc design b i) * (y i - lc design b i)))).
  2:{ intros i Hi. rewrite (did_q_dual B Hf HB i Hi). ring. }
  rewrite cell_sum.
  assert (Hc : forall a c, (a = 0 \/ a = 1) -> (c = 0 \/ c = 1) ->
     sumf (fun i => did_q i * did_q i * ((y i - lc design b i) * (y i - lc design b i))) (cell rows d t a c)
     = cell_var rows d t y a c).
  { intros a c Ha Hc. unfold cell_var.
    rewrite (sumf_ext _ (fun i => (y i - cell_mean rows d t y a c) * (y i - cell_mean rows d t y a c)
                                  * / (len (cell rows d t a c) * len (cell rows d t a c)))).
    - rewrite sumf_scal_r. reflexivity.
    - intros i Hi. rewrite (did_q_on a c i) by auto. apply cell_in in Hi. destruct Hi as (Hi & Ed & Et).
      rewrite (ls_fitted_unique rows design y b _ Hb (sat_is_ls y) i Hi), sat_value by auto.
      rewrite Ed, Et. destruct Ha as [->| ->], Hc as [->| ->]; rewrite ?Reqb_refl, ?Reqb_01; ring. }
  rewrite !Hc by auto. reflexivity.
Qed.

(* B_33 = sum of 1/n_cell: the classical variance factor *)
Lemma did_bread_closed B :
  four_cells rows d t -> is_inverse rows design B ->
  B 3%nat 3%nat = / len (cell rows d t 0 0) + / len (cell rows d t 0 1)
                + / len (cell rows d t 1 0) + / len (cell rows d t 1 1).
Proof.
  intros Hf HB.
  (* q_3 = sum_a B_3a x_a, and <q_3, q_3> = sum_a B_3a <x_a, q_3> = B_33 *)
  transitivity (ip rows (qcol design B 3) (qcol design B 3)).
  - unfold ip at 1. unfold qcol at 1.
    rewrite (sumf_ext_all _ (fun i => sumf (fun a => B 3%nat a * (colx design a i * qcol design B 3 i)) (seq 0 4)))
      by (intros; rewrite <- sumf_scal_r; apply sumf_ext_all; intros; ring).
    rewrite sumf_swap.
    rewrite (sumf_ext _ (fun a => B 3%nat a * (if Nat.eqb a 3 then 1 else 0))).
    + simpl; ring.
    + intros a Ha. apply in_seq in Ha. rewrite sumf_scal. f_equal.
      apply (qcol_dual rows design B 3 a HB); simpl; lia.
  - rewrite (ip_ext rows _ did_q _ did_q) by (apply did_q_dual; auto).
    unfold ip. rewrite cell_sum. destruct Hf as (H00 & H01 & H10 & H11).
    pose proof (len_pos _ H00). pose proof (len_pos _ H01). pose proof (len_pos _ H10). pose proof (len_pos _ H11).
    assert (Hc : forall a c, (a = 0 \/ a = 1) -> (c = 0 \/ c = 1) -> 0 < len (cell rows d t a c) ->
      sumf (fun i => did_q i * did_q i) (cell rows d t a c) = / len (cell rows d t a c)).
    { intros a c Ha Hc Hp. rewrite (sumf_ext _ (fun _ => / (len (cell rows d t a c) * len (cell rows d t a c)))).
      - rewrite sumf_const. field. lra.
      - intros i Hi. apply did_q_on; auto. }
    rewrite !Hc by auto. ring.
Qed.

End Saturated.

(* ---------- the estimator ---------- *)
Section FitThms.
Context {I K G : Type} (keq : forall x y : K, {x = y} + {x <> y}) (geq : forall x y : G, {x = y} + {x <> y}).
Variable qr : list I -> list (I -> R) -> list nat.
Variable lstsq : list I -> list (I -> R) -> (I -> R) -> list R.
Variable inv : list I -> list (I -> R) -> option (nat -> nat -> R).
Variable pinv : list I -> list (I -> R) -> nat -> nat -> R.
Variable sf : option Z -> fl -> fl.
Variable ppf : option Z -> R -> R.
Hypothesis Hqr : qr_ok qr.
Hypothesis Hls : lstsq_ok lstsq.
Hypothesis Hinv : inv_ok inv.

Notation fit := (did_fit keq geq qr lstsq inv pinv sf ppf).
Notation fR x := (fun i => toR (x i)).

Lemma has_nan_false (rows : list I) x : has_nan rows x = false -> forall i, In i rows -> x i <> NaN.
Proof.
  intros H i Hi E. assert (has_nan rows x = true); [|congruence].
  apply existsb_exists. exists i; split; auto. rewrite E; reflexivity.
Qed.

Lemma binary_zero_one (rows : list I) x :
  has_nan rows x = false -> binary rows x = true -> zero_one rows (fR x) /\ (forall i, In i rows -> x i = Fin (toR (x i))).
Proof.
  intros Hn Hb. unfold binary in Hb. rewrite forallb_forall in Hb.
  assert (H : forall i, In i rows -> x i = Fin 0 \/ x i = Fin 1).
  { intros i Hi. specialize (Hb i Hi). pose proof (has_nan_false rows x Hn i Hi) as Hne.
    destruct (x i) as [r| | |]; simpl in Hb; try congruence; try discriminate.
    apply Bool.orb_true_iff in Hb. destruct Hb as [Hb|Hb]; apply Reqb_true in Hb; subst; auto. }
  split; intros i Hi; destruct (H i Hi) as [->| ->]; simpl; auto.
Qed.

(* everything did_fit's success tells us *)
Lemma did_fit_inv cfg rows y d t covs dums absorb r :
  fit cfg rows y d t covs dums absorb = Ok r ->
  has_nan rows y = false /\ has_inf rows y = false /\
  two_values rows d = true /\ two_values rows t = true /\
  zero_one rows (fR d) /\ zero_one rows (fR t) /\
  exists y' covs' nabs reg,
    absorb_loop geq rows absorb (fR y) (map (fun c => fR c) covs) = (y', covs', nabs) /\
    linreg_fit keq qr lstsq inv pinv (c_robust cfg) (c_cluster cfg) (c_action cfg) nabs rows
      (did_design (fR d) (fR t) (covs' ++ dums)) y' = Ok reg /\
    r_att r = nth 3 (l_coef reg) NaN /\
    (let inf := get_inference sf ppf (r_att r) (l_vcov reg 3%nat 3%nat) None None (c_alpha cfg) (l_df reg) in
     r_se r = i_se inf /\ r_t r = i_t inf /\ r_p r = i_p inf /\ r_ci r = i_ci inf /\
     r_signif r = flt (i_p inf) (Fin (c_alpha cfg))) /\
    r_coef r = l_coef reg /\ r_vcov r = l_vcov reg /\ r_resid r = l_resid reg /\ r_fitted r = l_fitted reg /\
    r_r2 r = r_squared rows y' (l_resid reg) false 0 /\ r_n_obs r = length rows.
Proof.
  unfold did_fit. intros H.
  destruct (existsb (has_nan rows) (y :: d :: t :: covs)) eqn:E1; [discriminate|].
  destruct (two_values rows d) eqn:E2; [|discriminate].
  destruct (two_values rows t) eqn:E3; [|discriminate].
  destruct (binary rows d) eqn:E4; [|discriminate].
  destruct (binary rows t) eqn:E5; [|discriminate].
  destruct (existsb (has_inf rows) (y :: covs)) eqn:E6; [discriminate|].
  cbn [negb] in H.
  simpl in E1. apply Bool.orb_false_iff in E1. destruct E1 as [Ny E1].
  apply Bool.orb_false_iff in E1. destruct E1 as [Nd E1]. apply Bool.orb_false_iff in E1. destruct E1 as [Nt _].
  simpl in E6. apply Bool.orb_false_iff in E6. destruct E6 as [Iy _].
  destruct (binary_zero_one rows d Nd E4) as [Zd _]. destruct (binary_zero_one rows t Nt E5) as [Zt _].
  destruct (absorb_loop geq rows absorb (fR y) (map (fun c => fR c) covs)) as [[y' covs'] nabs] eqn:EA.
  destruct (linreg_fit _ _ _ _ _ _ _ _ _ _ _ _) as [reg|] eqn:ER; [|discriminate]. simpl in H.
  injection H as <-. do 6 (split; [first [assumption|reflexivity]|]). exists y', covs', nabs, reg. simpl.
  repeat split; auto.
Qed.

Lemma linreg_fit_inv robust cluster action nabs rows cols y reg :
  linreg_fit keq qr lstsq inv pinv robust cluster action nabs rows cols y = Ok reg ->
  exists o, solve_ols keq qr lstsq inv rows cols y cluster (match cluster with Some _ => true | None => robust end) action = Ok o /\
    l_coef reg = o_coef o /\ l_resid reg = o_resid o /\ l_fitted reg = o_fitted o /\
    l_df reg = fit_df (length rows) (o_coef o) nabs /\
    l_vcov reg = match o_vcov o with Some V => V | None => classical_vcov inv pinv rows cols (o_coef o) (o_resid o) end.
Proof.
  unfold linreg_fit. intros H. destruct (solve_ols _ _ _ _ _ _ _ _ _ _) as [o|] eqn:E; [|discriminate].
  simpl in H. injection H as <-. exists o. simpl. repeat split; auto.
Qed.

(* fitted values are X @ coef with dropped coefficients set to zero *)
Lemma resid_coef robust cluster action nabs rows cols y reg :
  linreg_fit keq qr lstsq inv pinv robust cluster action nabs rows cols y = Ok reg ->
  length (l_coef reg) = length cols /\
  is_ls rows cols y (map nan_to_zero (l_coef reg)) /\
  (forall i, l_resid reg i = y i - lc cols (map nan_to_zero (l_coef reg)) i).
Proof.
  intros H. destruct (linreg_fit_inv _ _ _ _ _ _ _ _ H) as (o & Ho & Hc & Hr & Hf & _).
  destruct (solve_ols_projection keq qr lstsq inv Hqr Hls _ _ _ _ _ _ _ Ho) as (Horth & _ & Hres).
  pose proof (solve_ols_predict keq qr lstsq inv Hls _ _ _ _ _ _ _ Ho) as Hp.
  destruct (solve_ols_nan_exactly_dropped keq qr lstsq inv Hls _ _ _ _ _ _ _ Ho) as (HL & _).
  rewrite Hc, Hr. unfold predict in Hp.
  assert (HE : forall i, o_resid o i = y i - lc cols (map nan_to_zero (o_coef o)) i).
  { intros i. rewrite Hres, <- Hp. reflexivity. }
  split; [auto|]. split; [|exact HE]. split; [rewrite map_length; auto|].
  apply Forall_forall. intros c Hin. rewrite <- (Horth c Hin).
  apply sumf_ext; intros; rewrite HE; reflexivity.
Qed.

(* C01, with any covariates and dummies: the reported ATT is the difference in differences of the
   four cell means of the covariate-adjusted outcome y - X_cov gamma (gamma: the reported
   coefficients of the extra columns, dropped ones counting as 0). *)
Theorem did_att_adjusted_means cfg rows y d t covs dums r :
  fit cfg rows y d t covs dums [] = Ok r ->
  four_cells rows (fR d) (fR t) ->
  let extra := map (fun c => fR c) covs ++ dums in
  let gamma := map nan_to_zero (skipn 4 (r_coef r)) in
  nan_to_zero (r_att r)
  = did_of_means rows (fR d) (fR t) (fun i => toR (y i) - lc extra gamma i).
Proof.
  intros H Hf extra gamma.
  destruct (did_fit_inv _ _ _ _ _ _ _ _ _ H) as (_ & _ & _ & _ & Zd & Zt & y' & covs' & nabs & reg & EA & ER & Ha & _ & Hc & _).
  simpl in EA. injection EA as <- <- <-.
  change (map (fun c => fR c) covs ++ dums) with extra in ER.
  destruct (resid_coef _ _ _ _ _ _ _ _ ER) as (HL & HLS & _).
  set (b := map nan_to_zero (l_coef reg)) in *.
  assert (Lc : length (l_coef reg) = (4 + length extra)%nat) by (rewrite HL; reflexivity).
  destruct (l_coef reg) as [|b0 [|b1 [|b2 [|b3 rest]]]] eqn:EL; simpl in Lc; try lia.
  set (dsg := did_design (fR d) (fR t) []).
  assert (H4 : is_ls rows dsg (fun i => toR (y i) - lc extra gamma i)
                 [nan_to_zero b0; nan_to_zero b1; nan_to_zero b2; nan_to_zero b3]).
  { destruct HLS as [_ F]. split; [reflexivity|]. rewrite Forall_forall in *. intros c Hin.
    etransitivity; [|apply (F c)].
    - apply ip_ext; auto. intros i _. unfold gamma, b. rewrite Hc. simpl. ring.
    - simpl in Hin |- *. tauto. }
  pose proof (sat_is_ls rows (fR d) (fR t) Zd Zt (fun i => toR (y i) - lc extra gamma i)) as Hsat.
  pose proof (ls_coef_unique rows dsg _ _ _ (sat_indep rows _ _ Hf) H4 Hsat) as E.
  rewrite Ha. simpl nth. unfold sat_fit in E. injection E as _ _ _ E3. rewrite E3. unfold did_of_means. ring.
Qed.

(* no covariates: the four cells identify everything, nothing is dropped, and the ATT is the
   difference in differences of means, whatever the variance options *)
Theorem did_att_is_did_of_means cfg rows y d t r :
  fit cfg rows y d t [] [] [] = Ok r ->
  four_cells rows (fR d) (fR t) ->
  r_att r = Fin (did_of_means rows (fR d) (fR t) (fR y)).
Proof.
  intros H Hf.
  pose proof (did_att_adjusted_means _ _ _ _ _ _ _ _ H Hf) as Hm. cbv zeta in Hm. simpl app in Hm.
  destruct (did_fit_inv _ _ _ _ _ _ _ _ _ H) as (_ & _ & _ & _ & Zd & Zt & y' & covs' & nabs & reg & EA & ER & Ha & _ & Hc & _).
  simpl in EA. injection EA as <- <- <-. simpl app in ER.
  destruct (linreg_fit_inv _ _ _ _ _ _ _ _ ER) as (o & Ho & Hco & _).
  destruct (solve_ols_full_rank keq qr lstsq inv Hqr Hls _ _ _ _ _ _ _ (sat_indep rows _ _ Hf) Ho) as (b & Eb & Lb & _).
  assert (Hfin : exists x, r_att r = Fin x).
  { rewrite Ha, Hco, Eb. exists (nth 3 b 0).
    rewrite nth_indep with (d' := Fin 0) by (rewrite map_length; unfold did_design in Lb; simpl in Lb; lia).
    apply map_nth. }
  destruct Hfin as [x Hx]. rewrite Hx in *. simpl in Hm. rewrite Hm. f_equal.
  apply did_of_means_ext; intros; lra.
Qed.

(* and its HC1 standard error is the textbook one *)
Theorem did_hc1_se cfg rows y d t r :
  fit cfg rows y d t [] [] [] = Ok r ->
  c_robust cfg = true -> c_cluster cfg = None ->
  four_cells rows (fR d) (fR t) ->
  r_se r = Fin (sqrt (did_hc1 rows (fR d) (fR t) (fR y))) /\ 0 <= did_hc1 rows (fR d) (fR t) (fR y).
Proof.
  intros H Hrob Hcl Hf.
  destruct (did_fit_inv _ _ _ _ _ _ _ _ _ H) as (_ & _ & _ & _ & Zd & Zt & y' & covs' & nabs & reg & EA & ER & Ha & (Hse & _) & Hc & _).
  simpl in EA. injection EA as <- <- <-. simpl app in ER. rewrite Hrob, Hcl in ER.
  destruct (linreg_fit_inv _ _ _ _ _ _ _ _ ER) as (o & Ho & Hco & _ & _ & _ & HV).
  destruct (solve_ols_shape keq qr lstsq inv Hls _ _ _ _ _ _ _ Ho) as (Lb & _ & _ & _ & _ & HW & _ & Hle).
  pose proof (qr_indep_none qr rows _ Hqr (sat_indep rows _ _ Hf)) as Hq.
  rewrite Hq in *. rewrite select_cols_full in *.
  destruct HW as (V & EV & W & EW & HE).
  destruct (robust_vcov_shape keq inv Hinv _ _ _ _ _ EV) as (Hne & _ & B & HB & EVB).
  pose proof (did_hc1_closed rows (fR d) (fR t) Zd Zt (fR y) B _ Hf HB (Hls rows _ (fR y))) as Hclosed.
  pose proof (robust_vcov_diag_nonneg keq inv Hinv _ _ _ _ _ Hle EV 3) as Hnn.
  rewrite EVB in Hnn. unfold adj_of, meat_of in Hnn. unfold did_design in Hnn at 1. cbn [length] in Hnn.
  rewrite EVB in *. rewrite EW in HV.
  assert (E33 : l_vcov reg 3%nat 3%nat = Fin (did_hc1 rows (fR d) (fR t) (fR y))).
  { rewrite HV, HE by (unfold did_design; simpl; lia). rewrite kept_cols_nil. unfold expand_vcov.
    rewrite !index_of_seq by (unfold did_design; simpl; lia). f_equal. rewrite <- Hclosed.
    unfold adj_of, meat_of. unfold did_design at 1 2. cbn [length]. f_equal. simpl INR. f_equal. lra. }
  assert (Hpos : 0 <= did_hc1 rows (fR d) (fR t) (fR y)).
  { pose proof (robust_vcov_diag_nonneg keq inv Hinv _ _ _ _ _ Hle EV 3) as Hn2.
    rewrite HV, HE in E33 by (unfold did_design; simpl; lia). rewrite kept_cols_nil in E33. unfold expand_vcov in E33.
    rewrite !index_of_seq in E33 by (unfold did_design; simpl; lia). injection E33 as <-. exact Hn2. }
  split; auto. rewrite Hse. unfold get_inference; cbn [i_se]. rewrite E33. apply sqrt_fin; auto.
Qed.

End FitThms.

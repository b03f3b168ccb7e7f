(* Degrees of freedom, the classical variance and the star labels of LinearRegression. *)
From Verif Require Import Prelude Flt Linalg_model Linalg_proofs Linalg_vcov Linalg_thms Did_model Did_spec Did_proofs Multi_thms.
From Coq Require Import Arith ZArith String List.
Import ListNotations.
Open Scope R_scope.

Lemma stars_exact p : stars_inference (Fin p) =
  (if Rlt_dec p (1/1000) then "***" else if Rlt_dec p (1/100) then "**" else if Rlt_dec p (5/100) then "*"
   else if Rlt_dec p (1/10) then "." else "")%string.
Proof. unfold stars_inference. cbn [fisnan flt]. unfold Rltb. repeat (destruct (Rlt_dec _ _)); reflexivity. Qed.

Lemma nth_seq_id {A} (d : A) (l : list A) : map (fun j => nth j l d) (seq 0 (length l)) = l.
Proof.
  apply nth_ext with (d := d) (d' := d); rewrite map_length, seq_length; auto.
  intros n Hn. rewrite (nth_indep _ d (nth 0 l d)) by (rewrite map_length, seq_length; auto).
  rewrite (map_nth (fun j => nth j l d) (seq 0 (length l)) 0%nat n), seq_nth by auto. reflexivity.
Qed.
Lemma filter_map_len {A B} (f : A -> B) p l : length (filter p (map f l)) = length (filter (fun x => p (f x)) l).
Proof. induction l; simpl; auto. destruct (p (f a)); simpl; auto. Qed.

Section Df.
Context {I K : Type} (eqd : forall x y : K, {x = y} + {x <> y}).
Variable qr : list I -> list (I -> R) -> list nat.
Variable lstsq : list I -> list (I -> R) -> (I -> R) -> list R.
Variable inv : list I -> list (I -> R) -> option (nat -> nat -> R).
Variable pinv : list I -> list (I -> R) -> nat -> nat -> R.
Hypothesis Hls : lstsq_ok lstsq.

(* degrees of freedom: rows, less the columns kept, less the adjustment *)
Theorem linreg_df robust cluster action adj rows cols y reg :
  linreg_fit eqd qr lstsq inv pinv robust cluster action adj rows cols y = Ok reg ->
  l_df reg = (Z.of_nat (length rows)
              - Z.of_nat (length (filter (fun j => if in_dec Nat.eq_dec j (qr rows cols) then false else true) (seq 0 (length cols))))
              - adj)%Z.
Proof.
  intros H. destruct (linreg_fit_inv eqd qr lstsq inv pinv _ _ _ _ _ _ _ _ H) as (o & Ho & _ & _ & _ & Hdf & _).
  destruct (solve_ols_nan_exactly_dropped eqd qr lstsq inv Hls _ _ _ _ _ _ _ Ho) as (HL & Hn & _).
  rewrite Hdf. unfold fit_df, n_effective. do 2 f_equal. f_equal.
  rewrite <- (nth_seq_id NaN (o_coef o)), HL, filter_map_len. f_equal.
  apply filter_ext_in. intros j Hj. apply in_seq in Hj. specialize (Hn j). destruct (in_dec Nat.eq_dec j (qr rows cols)) as [Hi|Hi].
  - rewrite (proj2 (Hn ltac:(lia)) Hi). reflexivity.
  - destruct (nth j (o_coef o) NaN) eqn:E; try reflexivity. exfalso. apply Hi, Hn; [lia|auto].
Qed.
End Df.

Section Classical.
Context {I K G : Type} (keq : forall x y : K, {x = y} + {x <> y}) (geq : forall x y : G, {x = y} + {x <> y}).
Variable qr : list I -> list (I -> R) -> list nat.
Variable lstsq : list I -> list (I -> R) -> (I -> R) -> list R.
Variable inv : list I -> list (I -> R) -> option (nat -> nat -> R).
Variable pinv : list I -> list (I -> R) -> nat -> nat -> R.
Variable sf : option Z -> fl -> fl.
Variable ppf : option Z -> R -> R.
Hypothesis Hqr : qr_ok qr.
Hypothesis Hls : lstsq_ok lstsq.
Hypothesis Hinv : inv_ok inv.
Notation fit := (did_fit keq geq qr lstsq inv pinv sf ppf).
Notation fR x := (fun i => toR (x i)).

(* pooled variance of the four cells *)
Definition pooled (rows : list I) (d t y : I -> R) : R :=
  let ss a b := sumf (fun i => (y i - cell_mean rows d t y a b) * (y i - cell_mean rows d t y a b)) (cell rows d t a b) in
  (ss 0 0 + ss 0 1 + ss 1 0 + ss 1 1) / (len rows - 4).
Definition did_classical (rows : list I) (d t y : I -> R) : R :=
  pooled rows d t y * (/ len (cell rows d t 0 0) + / len (cell rows d t 0 1) + / len (cell rows d t 1 0) + / len (cell rows d t 1 1)).

Theorem did_classical_se cfg rows y d t r :
  fit cfg rows y d t [] [] [] = Ok r ->
  c_robust cfg = false -> c_cluster cfg = None -> four_cells rows (fR d) (fR t) -> (4 < length rows)%nat ->
  r_se r = Fin (sqrt (did_classical rows (fR d) (fR t) (fR y))).
Proof.
  intros H Hrob Hcl Hf Hn.
  destruct (did_fit_inv keq geq qr lstsq inv pinv sf ppf _ _ _ _ _ _ _ _ _ H) as (_ & _ & _ & _ & Zd & Zt & y' & covs' & nabs & reg & EA & ER & Ha & (Hse & _) & Hc & _).
  simpl in EA. injection EA as <- <- <-. simpl app in ER. rewrite Hrob, Hcl in ER.
  destruct (linreg_fit_inv keq qr lstsq inv pinv _ _ _ _ _ _ _ _ ER) as (o & Ho & Hco & Hre & _ & _ & HV).
  assert (Hind := sat_indep rows _ _ Hf).
  destruct (solve_ols_shape keq qr lstsq inv Hls _ _ _ _ _ _ _ Ho) as (Lb & Hk & _ & Hrs & _ & HW & _ & Hle).
  pose proof (qr_indep_none qr rows _ Hqr Hind) as Hq.
  rewrite Hq in *. rewrite select_cols_full in *. rewrite HW in HV.
  assert (Hco2 : o_coef o = map Fin (lstsq rows (did_design (fR d) (fR t) []) (fR y))).
  { rewrite Hk. apply expand_coef_full. apply Hls. }
  assert (Hfp : finite_positions (o_coef o) = seq 0 4).
  { rewrite Hco2, finite_positions_fin. f_equal. apply Hls. }
  assert (E33 : l_vcov reg 3%nat 3%nat = Fin (did_classical rows (fR d) (fR t) (fR y))).
  { rewrite HV. unfold classical_vcov. rewrite Hfp. cbn [length seq Nat.eqb].
    change [0%nat; 1%nat; 2%nat; 3%nat] with (seq 0 (length (did_design (fR d) (fR t) []))). rewrite select_all.
    replace (index_of 3 (seq 0 (length (did_design (fR d) (fR t) [])))) with (Some 3%nat) by reflexivity.
    unfold bread. specialize (Hinv rows (did_design (fR d) (fR t) [])).
    destruct (inv rows (did_design (fR d) (fR t) [])) as [B|]; [|contradiction].
    rewrite (did_bread_closed rows (fR d) (fR t) Zd Zt B Hf Hinv).
    assert (4 < len rows) by (apply lt_INR in Hn; rewrite INR_IZR_INZ in Hn; exact Hn).
    unfold fdiv. change (INR (length rows)) with (len rows). replace (INR 4) with 4 by (simpl; lra).
    destruct (Req_EM_T (len rows - 4) 0); [lra|]. cbn [fmul]. f_equal. unfold did_classical, pooled. f_equal. f_equal.
    assert (Hb := Hls rows (did_design (fR d) (fR t) []) (fR y)).
    rewrite (cell_sum rows (fR d) (fR t) Zd Zt).
    assert (Hcell : forall a c, (a = 0 \/ a = 1) -> (c = 0 \/ c = 1) -> sumf (fun i => o_resid o i * o_resid o i) (cell rows (fR d) (fR t) a c)
       = sumf (fun i => (toR (y i) - cell_mean rows (fR d) (fR t) (fR y) a c) * (toR (y i) - cell_mean rows (fR d) (fR t) (fR y) a c)) (cell rows (fR d) (fR t) a c)).
    { intros a c Ha' Hc'. apply sumf_ext. intros i Hi. apply cell_in in Hi. destruct Hi as (Hi & Ed & Et).
      rewrite Hrs. rewrite (ls_fitted_unique rows (did_design (fR d) (fR t) []) (fR y) _ _ Hb (sat_is_ls rows (fR d) (fR t) Zd Zt (fR y)) i Hi). rewrite (sat_value rows (fR d) (fR t)) by auto.
      rewrite Ed, Et. destruct Ha' as [->| ->], Hc' as [->| ->]; rewrite ?Reqb_refl, ?Reqb_01; ring. }
    rewrite !Hcell by auto. reflexivity. }
  rewrite Hse. unfold get_inference; cbn [i_se]. rewrite E33. apply sqrt_fin.
  unfold did_classical, pooled.
  assert (4 < len rows) by (apply lt_INR in Hn; rewrite INR_IZR_INZ in Hn; exact Hn).
  destruct Hf as (H00 & H01 & H10 & H11).
  pose proof (len_pos _ H00). pose proof (len_pos _ H01). pose proof (len_pos _ H10). pose proof (len_pos _ H11).
  apply Rmult_le_pos.
  - apply Rmult_le_pos; [|left; apply Rinv_0_lt_compat; lra].
    repeat apply Rplus_le_le_0_compat; apply sumf_nonneg; intros; apply sq_nonneg.
  - repeat apply Rplus_le_le_0_compat; left; apply Rinv_0_lt_compat; auto.
Qed.
End Classical.

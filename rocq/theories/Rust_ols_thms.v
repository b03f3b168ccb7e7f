(* Routing between the compiled and the NumPy solver, and the rank tolerances. *)
From Verif Require Import Prelude Flt Linalg_model Linalg_proofs Linalg_vcov Linalg_minnorm Rust_ols Rust_ols_proofs.
From Coq Require Import Arith ZArith String List.
Import ListNotations.
Open Scope R_scope.

Definition same_fit {I} (rows : list I) (k : nat) (o o' : ols_out I) : Prop :=
  o_coef o = o_coef o' /\
  (forall i, In i rows -> o_resid o i = o_resid o' i /\ o_fitted o i = o_fitted o' i) /\
  match o_vcov o, o_vcov o' with
  | Some V, Some V' => forall a c, (a < k)%nat -> (c < k)%nat -> V a c = V' a c
  | None, None => True
  | _, _ => False
  end.
Definition same_res {I} (rows : list I) (k : nat) (r r' : res (ols_out I)) : Prop :=
  match r, r' with Ok o, Ok o' => same_fit rows k o o' | Err e, Err e' => e = e' | _, _ => False end.
Lemma same_refl {I} (rows : list I) k r : same_res rows k r r.
Proof. destruct r as [o|e]; simpl; [|easy]. repeat split; auto. destruct (o_vcov o); auto. Qed.
Lemma same_warned {I} (rows : list I) k r : same_res rows k (warned r) r.
Proof. destruct r as [o|e]; simpl; [|easy]. unfold same_fit; cbn. repeat split; auto. destruct (o_vcov o); auto. Qed.

Lemma any_nan_all k V : (0 < k)%nat -> (forall a c, (a < k)%nat -> (c < k)%nat -> V a c = NaN) -> any_nan k V = true.
Proof.
  intros Hk H. unfold any_nan. apply existsb_exists. exists 0%nat. split; [apply in_seq; lia|]. apply existsb_exists. exists 0%nat. split; [apply in_seq; lia|]. rewrite H by lia. easy.
Qed.
Lemma any_nan_none k V : (forall a c, (a < k)%nat -> (c < k)%nat -> fisnan (V a c) = false) -> any_nan k V = false.
Proof.
  intros H. unfold any_nan. apply not_true_is_false. intros E. apply existsb_exists in E. destruct E as (a & Ha & E). apply existsb_exists in E. destruct E as (c & Hc & E).
  apply in_seq in Ha, Hc. rewrite H in E by lia. discriminate.
Qed.
Lemma sandwich_rust_scal k t B M a c : sandwich_rust k t B M a c = t * sandwich_rust k 1 B M a c.
Proof. unfold sandwich_rust. ring. Qed.
Lemma sandwich_rust_zero k t B M a c : (forall p q, M p q = 0) -> sandwich_rust k t B M a c = 0.
Proof. intros H. unfold sandwich_rust. rewrite sumf_zero; [ring|]. intros p _. apply sumf_zero. intros q _. rewrite H. ring. Qed.

Section Route.
Context {I K : Type} (eqd : forall x y : K, {x = y} + {x <> y}).
Variable qr_dropped : list I -> list (I -> R) -> list nat.
Variable lstsq : list I -> list (I -> R) -> (I -> R) -> list R.
Variable inv : list I -> list (I -> R) -> option (nat -> nat -> R).
Variable thin_svd : list I -> list (I -> R) -> option (svd_val I).
Variable rinv : list I -> list (I -> R) -> option (nat -> nat -> R).
Hypothesis Hinv : inv_ok inv.
Hypothesis Hrinv : forall rows cols B, rinv rows cols = Some B -> is_inverse rows cols B.

(* the covariance of the compiled code against the one of NumPy, same residuals *)
Lemma rust_vcov_same rows cols (e : I -> R) cluster : (0 < length cols)%nat -> (length cols <= length rows)%nat -> indep rows cols ->
  (length rows = length cols -> forall i, In i rows -> e i = 0) ->
  match rust_vcov eqd rinv rows cols e cluster, robust_vcov eqd inv rows cols e cluster with
  | ROk V, Ok V' => any_nan (length cols) V = false /\ forall a c, (a < length cols)%nat -> (c < length cols)%nat -> V a c = Fin (V' a c)
  | ROk V, Err x => any_nan (length cols) V = true /\ x = ZeroDivisionError
  | RErr RUnstable, _ => True
  | RErr (RRaise x), Err x' => x = x'
  | RErr (RRaise _), Ok _ => False
  end.
Proof.
  intros Hk Hn Hi Hz. unfold rust_vcov, robust_vcov. destruct (rinv rows cols) as [B|] eqn:EB; [|easy]. apply Hrinv in EB.
  assert (HI := Hinv rows cols). destruct (inv rows cols) as [B'|] eqn:EI; [|easy].
  assert (Hnr : 0 < INR (length rows)) by (apply lt_0_INR; lia).
  assert (Gen : forall t M a c, (a < length cols)%nat -> (c < length cols)%nat -> t * sandwich_rust (length cols) 1 B M a c = sandwich (length cols) t B' M a c).
  { intros t M a c Ha Hc. rewrite <- sandwich_rust_scal, (sandwich_rust_eq (length cols) t B M a c) by (easy || now apply (is_inverse_sym rows)).
    apply sandwich_ext; auto. now apply (inverse_unique rows cols). }
  destruct cluster as [cl|].
  - destruct (Nat.ltb (length (cl_keys eqd rows cl)) 2) eqn:EG; [easy|]. apply Nat.ltb_ge in EG.
    assert (HG : 2 <= INR (length (cl_keys eqd rows cl))) by (replace 2 with (INR 2) by (simpl; lra); now apply le_INR).
    assert (Hn2 : 2 <= INR (length rows)).
    { apply Rle_trans with (1 := HG). apply le_INR. unfold cl_keys. rewrite <- (map_length cl rows). apply NoDup_incl_length; [apply NoDup_nodup|]. intros x Hx. now apply nodup_In in Hx. }
    destruct (Nat.eqb (length rows) (length cols)) eqn:EN.
    + apply Nat.eqb_eq in EN. split; [|easy]. apply any_nan_all; [easy|]. intros a c _ _.
      rewrite sandwich_rust_zero.
      2:{ intros p q. unfold cl_meat. apply sumf_zero. intros g _. unfold cl_score at 1. rewrite sumf_zero; [ring|]. intros i Hi'. apply filter_In in Hi'. rewrite Hz by tauto. ring. }
      rewrite <- EN. unfold fdiv. destruct (Req_EM_T (INR (length rows) - INR (length rows)) 0) as [_|X]; [|lra].
      unfold fsgn_inf at 1. destruct (Rlt_dec 0 (INR (length rows) - 1)) as [_|X]; [|lra].
      cbn [fmul]. unfold fsgn_inf. destruct (Rlt_dec 0 (INR (length (cl_keys eqd rows cl)) / (INR (length (cl_keys eqd rows cl)) - 1))) as [_|X].
      2:{ exfalso. apply X. apply Rdiv_lt_0_compat; lra. }
      cbn. unfold fsgn_inf. destruct (Rlt_dec 0 0); [lra|easy].
    + apply Nat.eqb_neq in EN. assert (Hd : INR (length rows) - INR (length cols) <> 0) by (intros Z; apply EN, INR_eq; lra).
      unfold fdiv. destruct (Req_EM_T (INR (length rows) - INR (length cols)) 0) as [X|_]; [contradiction|]. cbn [fmul].
      split; [now apply any_nan_none|]. intros a c Ha Hc. apply (f_equal Fin). now apply Gen.
  - destruct (Nat.eqb (length rows) (length cols)) eqn:EN.
    + apply Nat.eqb_eq in EN. split; [|easy]. apply any_nan_all; [easy|]. intros a c _ _.
      rewrite sandwich_rust_zero.
      2:{ intros p q. unfold hc1_meat. apply sumf_zero. intros i Hi'. rewrite Hz by tauto. ring. }
      rewrite <- EN. unfold fdiv. destruct (Req_EM_T (INR (length rows) - INR (length rows)) 0) as [_|X]; [|lra].
      unfold fsgn_inf at 1. destruct (Rlt_dec 0 (INR (length rows))) as [_|X]; [|lra].
      cbn. unfold fsgn_inf. destruct (Rlt_dec 0 0); [lra|easy].
    + apply Nat.eqb_neq in EN. assert (Hd : INR (length rows) - INR (length cols) <> 0) by (intros Z; apply EN, INR_eq; lra).
      unfold fdiv. destruct (Req_EM_T (INR (length rows) - INR (length cols)) 0) as [X|_]; [contradiction|]. cbn [fmul].
      split; [now apply any_nan_none|]. intros a c Ha Hc. apply (f_equal Fin). now apply Gen.
Qed.

(* solve_ols gives the same answer with and without the compiled extension *)
Theorem ext_agrees rows cols y cluster return_vcov action d d' :
  thin_svd rows cols = Some d -> is_svd rows cols d ->
  is_svd rows cols d' -> lstsq rows cols y = svd_solve d' rows cols y ->
  (0 < length cols)%nat ->
  same_res rows (length cols)
    (solve_ols_ext eqd qr_dropped lstsq inv thin_svd rinv false rows cols y cluster return_vcov action)
    (solve_ols eqd qr_dropped lstsq inv rows cols y cluster return_vcov action).
Proof.
  intros Hd Sd Sd' Hl Hk. unfold solve_ols_ext.
  destruct (Nat.ltb (length rows) (length cols)) eqn:EN; [unfold solve_ols; rewrite EN; reflexivity|].
  destruct (parse_action action) as [act|] eqn:EA; [|unfold solve_ols; rewrite EN, EA; reflexivity].
  destruct (qr_dropped rows cols) as [|q0 qs] eqn:EQ; [|apply same_refl]. apply Nat.ltb_ge in EN.
  assert (EC : svd_solve d rows cols y = lstsq rows cols y) by (rewrite Hl; now apply svd_solve_unique).
  unfold rust_solve. rewrite Hd. destruct return_vcov.
  - destruct (Nat.ltb (length (s_kept d)) (length cols)) eqn:ER.
    + cbn [ro_vcov]. rewrite any_nan_all by easy. apply same_warned.
    + assert (Ki := kept_full d rows cols Sd EN ER).
      assert (Hi : indep rows cols).
      { apply (full_rank_indep d); auto. intros l Hl'. apply kept_pos. rewrite Ki. apply in_seq. lia. }
      set (e := fun i => y i - lc cols (svd_solve d rows cols y) i).
      assert (Z : length rows = length cols -> forall i, In i rows -> e i = 0).
      { intros Es i Hi'. unfold e. rewrite (square_fit d rows cols y i Sd Es ER Hi'). ring. }
      assert (V := rust_vcov_same rows cols e cluster Hk EN Hi Z).
      destruct (rust_vcov eqd rinv rows cols e cluster) as [W|[|x]].
      * cbn [ro_vcov]. destruct (any_nan (length cols) W) eqn:EW; [apply same_warned|].
        unfold solve_ols. rewrite (proj2 (Nat.ltb_ge _ _) EN), EA, EQ. rewrite <- EC. fold e.
        destruct (robust_vcov eqd inv rows cols e cluster) as [V'|x]; [|destruct V; discriminate]. cbn. destruct V as [_ V].
        unfold same_fit; cbn. repeat split; auto.
      * apply same_warned.
      * unfold solve_ols. rewrite (proj2 (Nat.ltb_ge _ _) EN), EA, EQ. rewrite <- EC. fold e.
        destruct (robust_vcov eqd inv rows cols e cluster) as [V'|x']; [easy|]. cbn. exact V.
  - cbn [ro_vcov]. unfold solve_ols. rewrite (proj2 (Nat.ltb_ge _ _) EN), EA, EQ. rewrite <- EC. unfold same_res, same_fit; cbn. repeat split; auto.
Qed.

(* skip_rank_check=True: with as many columns as rows the compiled path returns a NaN covariance where the
   NumPy path raises ZeroDivisionError; with dependent columns it returns NaN where NumPy raises ValueError *)
Theorem skip_differs rows cols y cluster action act d d' :
  thin_svd rows cols = Some d -> is_svd rows cols d -> is_svd rows cols d' -> lstsq rows cols y = svd_solve d' rows cols y ->
  (0 < length cols)%nat -> (length cols <= length rows)%nat -> parse_action action = Some act ->
  (length (s_kept d) < length cols)%nat -> ~ indep rows cols -> length rows <> length cols -> cluster = None ->
  (exists o, solve_ols_ext eqd qr_dropped lstsq inv thin_svd rinv true rows cols y cluster true action = Ok o
     /\ (forall x, In x (o_coef o) -> exists r, x = Fin r) /\ o_warned o = false
     /\ exists V, o_vcov o = Some V /\ forall a c, V a c = NaN)
  /\ solve_ols eqd (fun _ _ => []) lstsq inv rows cols y cluster true action = Err ValueError.
Proof.
  intros Hd Sd Sd' Hl Hk Hn EA Hr Hi Hne ->. split.
  - unfold solve_ols_ext. rewrite (proj2 (Nat.ltb_ge _ _) Hn), EA. unfold rust_solve. rewrite Hd, (proj2 (Nat.ltb_lt _ _) Hr).
    eexists. split; [reflexivity|]. cbn. split; [|split; [easy|]].
    + intros x Hx. apply in_map_iff in Hx. destruct Hx as (r & <- & _). now exists r.
    + eexists. split; [reflexivity|]. easy.
  - unfold solve_ols. rewrite (proj2 (Nat.ltb_ge _ _) Hn), EA. cbn. rewrite (proj2 (Nat.eqb_neq _ _) Hne).
    assert (HI := Hinv rows cols). destruct (inv rows cols) as [B|]; [|easy]. exfalso. apply Hi. now apply (inverse_indep rows cols B).
Qed.
Theorem skip_square rows cols y cluster action act d B :
  thin_svd rows cols = Some d -> is_svd rows cols d -> rinv rows cols = Some B ->
  (0 < length cols)%nat -> length rows = length cols -> parse_action action = Some act ->
  length (s_kept d) = length cols -> cluster = None ->
  (exists o V, solve_ols_ext eqd qr_dropped lstsq inv thin_svd rinv true rows cols y cluster true action = Ok o
     /\ o_vcov o = Some V /\ forall a c, V a c = NaN)
  /\ solve_ols eqd (fun _ _ => []) lstsq inv rows cols y cluster true action = Err ZeroDivisionError.
Proof.
  intros Hd Sd HB Hk Hn EA Hr ->. assert (ER : Nat.ltb (length (s_kept d)) (length cols) = false) by (apply Nat.ltb_ge; lia). split.
  - unfold solve_ols_ext. rewrite (proj2 (Nat.ltb_ge _ _)) by lia. rewrite EA. unfold rust_solve. rewrite Hd, ER. unfold rust_vcov. rewrite HB.
    eexists. eexists. split; [reflexivity|]. split; [reflexivity|]. intros a c. cbv beta.
    rewrite sandwich_rust_zero.
    2:{ intros p q. unfold hc1_meat. apply sumf_zero. intros i Hi'. rewrite (square_fit d rows cols y i) by easy. ring. }
    assert (Hnr : 0 < INR (length rows)) by (apply lt_0_INR; lia).
    rewrite <- Hn. unfold fdiv. destruct (Req_EM_T (INR (length rows) - INR (length rows)) 0) as [_|X]; [|lra].
    unfold fsgn_inf at 1. destruct (Rlt_dec 0 (INR (length rows))) as [_|X]; [|lra].
    cbn. unfold fsgn_inf. destruct (Rlt_dec 0 0); [lra|easy].
  - unfold solve_ols. rewrite (proj2 (Nat.ltb_ge _ _)) by lia. rewrite EA. cbn. now rewrite (proj2 (Nat.eqb_eq _ _) Hn).
Qed.
End Route.

(* ---- the rank test and the cut-off of the solver are different tests ---- *)
(* X P = Q R with orthonormal Q and upper triangular R (scipy.linalg.qr, mode='economic', pivoting=True) *)
Definition is_pqr {I} (rows : list I) (cols : list (I -> R)) (Q : nat -> I -> R) (Rm : nat -> nat -> R) (pivot : list nat) : Prop :=
  (forall l m, (l < length cols)%nat -> (m < length cols)%nat -> ip rows (Q l) (Q m) = kron l m) /\
  (forall j i, (j < length cols)%nat -> In i rows ->
     colx cols (nth j pivot O) i = sumf (fun l => Q l i * Rm l j) (seq 0 (S j))).

Definition t_eps : R := 8 / 100000000.
Definition t_rows : list nat := [0; 1; 2]%nat.
Definition t_c1 (i : nat) : R := match i with O => 3/5 | S O => 4/5 * t_eps | _ => 0 end.
Definition t_c2 (i : nat) : R := match i with O => 4/5 | S O => - (3/5) * t_eps | _ => 0 end.
Definition t_cols : list (nat -> R) := [t_c1; t_c2].
Definition t_svd : svd_val nat :=
  {| d_r := 2%nat; d_s := fun l => match l with O => 1 | _ => t_eps end;
     d_u := fun l i => kron l i;
     d_v := fun l j => match l, j with O, O => 3/5 | O, _ => 4/5 | _, O => 4/5 | _, _ => -(3/5) end |}.
(* y = X (1, 1)' exactly *)
Definition t_y (i : nat) : R := t_c1 i + t_c2 i.

Lemma t_svd_ok : is_svd t_rows t_cols t_svd.
Proof.
  unfold is_svd. cbn [d_r d_s d_u d_v t_svd]. split; [reflexivity|]. split; [|split; [|split; [|split]]].
  - intros l _. destruct l; unfold t_eps; lra.
  - intros l m Hl Hm. destruct l as [|[|l]]; [| |lia]; (destruct m as [|[|m]]; [| |lia]); unfold ip, kron, t_rows; simpl; ring.
  - intros l m Hl Hm. destruct l as [|[|l]]; [| |lia]; (destruct m as [|[|m]]; [| |lia]); unfold ip, kron, t_cols; simpl; lra.
  - intros j i Hj Hi. simpl in Hi. destruct j as [|[|j]]; [| |simpl in Hj; lia]; destruct Hi as [<-|[<-|[<-|[]]]]; unfold colx, kron; simpl; lra.
  - intros _ a b Ha Hb. simpl in Ha, Hb. destruct a as [|[|a]]; [| |lia]; (destruct b as [|[|b]]; [| |lia]); unfold kron; simpl; lra.
Qed.
Lemma t_kept : s_kept t_svd = [0%nat].
Proof.
  assert (M : s_max t_svd = 1).
  { unfold s_max. cbn. unfold Rmax. destruct (Rle_dec 0 1) as [_|X]; [|lra]. destruct (Rle_dec 1 t_eps) as [X|_]; [unfold t_eps in X; lra|easy]. }
  unfold s_kept, s_cut. rewrite M. cbn. unfold rcond, t_eps.
  replace (Rltb (1 * / 10000000) 1) with true by (symmetry; apply Rltb_true; lra).
  replace (Rltb (1 * / 10000000) (8 / 100000000)) with false by (symmetry; apply Rltb_false; lra). reflexivity.
Qed.
Lemma t_solve : svd_solve t_svd t_rows t_cols t_y = [21/25; 28/25].
Proof.
  unfold svd_solve. rewrite t_kept. cbn. unfold ip, t_rows, t_y, kron. simpl. f_equal; [|f_equal]; field.
Qed.
Lemma t_indep : indep t_rows t_cols.
Proof.
  apply (full_rank_indep t_svd); [apply t_svd_ok|simpl; lia|]. intros l Hl. simpl in *. destruct l; unfold t_eps; lra.
Qed.
Lemma t_exact : is_ls t_rows t_cols t_y [1; 1].
Proof. apply ls_exact; [easy|]. intros i _. unfold t_y. simpl. ring. Qed.

(* every QR factorisation of that design, whatever the pivots, declares it of full rank *)
Lemma t_pqr Q Rm pivot : is_pqr t_rows t_cols Q Rm pivot -> (pivot = [0; 1] \/ pivot = [1; 0])%nat -> qr_cut 2 [Rm O O; Rm 1%nat 1%nat] pivot = [].
Proof.
  intros [HQ HR] HP.
  (* norms and determinant of the Gram matrix *)
  set (a := ip t_rows (colx t_cols (nth 0 pivot O)) (colx t_cols (nth 0 pivot O))).
  set (b := ip t_rows (colx t_cols (nth 0 pivot O)) (colx t_cols (nth 1 pivot O))).
  set (c := ip t_rows (colx t_cols (nth 1 pivot O)) (colx t_cols (nth 1 pivot O))).
  assert (Q00 := HQ 0%nat 0%nat). assert (Q01 := HQ 0%nat 1%nat). assert (Q11 := HQ 1%nat 1%nat). unfold kron in *. simpl in Q00, Q01, Q11.
  specialize (Q00 ltac:(simpl; lia) ltac:(simpl; lia)). specialize (Q01 ltac:(simpl; lia) ltac:(simpl; lia)). specialize (Q11 ltac:(simpl; lia) ltac:(simpl; lia)).
  assert (E0 : forall i, In i t_rows -> colx t_cols (nth 0 pivot O) i = Rm O O * Q O i).
  { intros i Hi. rewrite (HR 0%nat i) by (easy || simpl; lia). simpl. ring. }
  assert (E1 : forall i, In i t_rows -> colx t_cols (nth 1 pivot O) i = Rm O 1%nat * Q O i + Rm 1%nat 1%nat * Q 1%nat i).
  { intros i Hi. rewrite (HR 1%nat i) by (easy || simpl; lia). simpl. ring. }
  assert (A : a = Rm O O * Rm O O).
  { unfold a. rewrite (ip_ext t_rows _ (fun i => Rm O O * Q O i) _ (fun i => Rm O O * Q O i)) by easy. rewrite ip_scal_l, ip_scal_r, Q00. ring. }
  assert (B : b = Rm O O * Rm O 1%nat).
  { unfold b. rewrite (ip_ext t_rows _ (fun i => Rm O O * Q O i) _ (fun i => Rm O 1%nat * Q O i + Rm 1%nat 1%nat * Q 1%nat i)) by easy.
    rewrite ip_add_r, !ip_scal_l, !ip_scal_r, Q00, Q01. ring. }
  assert (C : c = Rm O 1%nat * Rm O 1%nat + Rm 1%nat 1%nat * Rm 1%nat 1%nat).
  { unfold c. rewrite (ip_ext t_rows _ (fun i => Rm O 1%nat * Q O i + Rm 1%nat 1%nat * Q 1%nat i) _ (fun i => Rm O 1%nat * Q O i + Rm 1%nat 1%nat * Q 1%nat i)) by easy.
    rewrite ip_add_r, !ip_add_l, !ip_scal_l, !ip_scal_r, Q00, Q11, Q01, (ip_sym t_rows (Q 1%nat) (Q O)), Q01. ring. }
  set (r := Rm O O) in *. set (s := Rm 1%nat 1%nat) in *. set (w := Rm O 1%nat) in *.
  assert (Det : a * c - b * b = t_eps * t_eps).
  { unfold a, b, c. destruct HP as [->| ->]; unfold ip, colx, t_rows; simpl; field. }
  assert (Up : a <= 13/20).
  { unfold a. destruct HP as [->| ->]; unfold ip, colx, t_rows; simpl; unfold t_eps; lra. }
  assert (Lo : 0 < a).
  { unfold a. destruct HP as [->| ->]; unfold ip, colx, t_rows; simpl; unfold t_eps; lra. }
  assert (D : a * (s * s) = t_eps * t_eps) by (rewrite <- Det, C, B, A; ring).
  assert (Rn : r <> 0) by (intros Z; rewrite Z in A; lra).
  unfold qr_cut, qr_rank. replace (Reqb (Rabs r) 0) with false by (symmetry; apply Reqb_false; now apply Rabs_no_R0).
  assert (P := Rabs_pos_lt r Rn).
  assert (Lt1 : Rltb (rcond * Rabs r) (Rabs r) = true).
  { apply Rltb_true. replace (Rabs r) with (1 * Rabs r) at 2 by ring. apply Rmult_lt_compat_r; [easy|]. unfold rcond. lra. }
  assert (Lt2 : Rltb (rcond * Rabs r) (Rabs s) = true).
  { apply Rltb_true. rewrite <- (Rabs_pos_eq (rcond * Rabs r)) by (apply Rmult_le_pos; [apply Rlt_le, rcond_pos|lra]).
    apply Rsqr_lt_abs_0. unfold Rsqr. replace (rcond * Rabs r * (rcond * Rabs r)) with (rcond * rcond * (Rabs r * Rabs r)) by ring.
    rewrite <- Rabs_mult, (Rabs_pos_eq (r * r)) by apply Rle_0_sqr. rewrite <- A.
    apply Rmult_lt_reg_l with a; [easy|]. rewrite D. apply Rle_lt_trans with (rcond * rcond * (13/20 * (13/20))).
    - replace (a * (rcond * rcond * a)) with (rcond * rcond * (a * a)) by ring. apply Rmult_le_compat_l; [apply Rle_0_sqr|]. apply Rmult_le_compat; lra.
    - unfold rcond, t_eps. lra. }
  cbn [filter]. rewrite Lt1, Lt2. reflexivity.
Qed.
(* one such factorisation exists *)
Definition t_Q (l i : nat) : R := match l with
  | O => match i with O => 3/5 / sqrt (9/25 + 16/25 * (t_eps * t_eps)) | S O => 4/5 * t_eps / sqrt (9/25 + 16/25 * (t_eps * t_eps)) | _ => 0 end
  | _ => match i with O => 4/5 * t_eps / sqrt (9/25 + 16/25 * (t_eps * t_eps)) | S O => - (3/5) / sqrt (9/25 + 16/25 * (t_eps * t_eps)) | _ => 0 end end.
Definition t_R (l j : nat) : R := match l, j with
  | O, O => sqrt (9/25 + 16/25 * (t_eps * t_eps))
  | O, _ => (12/25 - 12/25 * (t_eps * t_eps)) / sqrt (9/25 + 16/25 * (t_eps * t_eps))
  | _, O => 0
  | _, _ => t_eps / sqrt (9/25 + 16/25 * (t_eps * t_eps)) end.
Lemma t_pqr_ex : is_pqr t_rows t_cols t_Q t_R [0; 1]%nat.
Proof.
  assert (P : 0 < 9/25 + 16/25 * (t_eps * t_eps)) by (unfold t_eps; lra).
  assert (SQ := sqrt_sqrt _ (Rlt_le _ _ P)). assert (SP := sqrt_lt_R0 _ P). set (n := sqrt (9/25 + 16/25 * (t_eps * t_eps))) in *.
  assert (X : / n * / n = / (9/25 + 16/25 * (t_eps * t_eps))) by (rewrite <- SQ; field; lra).
  split.
  - intros l m Hl Hm. simpl in Hl, Hm. destruct l as [|[|l]]; [| |lia]; (destruct m as [|[|m]]; [| |lia]); unfold ip, t_rows, kron; simpl; fold n.
    + transitivity ((9/25 + 16/25 * (t_eps * t_eps)) * (/ n * / n)); [field; lra|]. rewrite X. field. lra.
    + field. lra.
    + field. lra.
    + transitivity ((9/25 + 16/25 * (t_eps * t_eps)) * (/ n * / n)); [field; lra|]. rewrite X. field. lra.
  - intros j i Hj Hi. simpl in Hj, Hi. destruct j as [|[|j]]; [| |lia]; destruct Hi as [<-|[<-|[<-|[]]]]; unfold colx; simpl; fold n.
    + field. lra.
    + field. lra.
    + ring.
    + transitivity ((4/5) * (9/25 + 16/25 * (t_eps * t_eps)) * (/ n * / n)); [rewrite X; field; lra|]. field. lra.
    + transitivity ((- (3/5) * t_eps) * (9/25 + 16/25 * (t_eps * t_eps)) * (/ n * / n)); [rewrite X; field; lra|]. field. lra.
    + ring.
Qed.

(* Independent columns, y = X (1,1)' without noise, the rank test passes: both backends return
   (0.84, 1.12), finite, without the rank-deficiency warning; the normal equations fail. *)
Theorem tolerance_gap {K} (eqd : forall x y : K, {x = y} + {x <> y}) qr_dropped lstsq inv thin_svd rinv action act Q Rm pivot :
  is_pqr t_rows t_cols Q Rm pivot -> (pivot = [0; 1] \/ pivot = [1; 0])%nat ->
  qr_dropped t_rows t_cols = qr_cut 2 [Rm O O; Rm 1%nat 1%nat] pivot ->
  lstsq t_rows t_cols t_y = svd_solve t_svd t_rows t_cols t_y -> thin_svd t_rows t_cols = Some t_svd ->
  parse_action action = Some act ->
  indep t_rows t_cols /\ is_ls t_rows t_cols t_y [1; 1] /\ ~ is_ls t_rows t_cols t_y [21/25; 28/25] /\
  (exists o, solve_ols eqd qr_dropped lstsq inv t_rows t_cols t_y None false action = Ok o
     /\ o_coef o = [Fin (21/25); Fin (28/25)] /\ o_warned o = false) /\
  (exists o, solve_ols_ext eqd qr_dropped lstsq inv thin_svd rinv false t_rows t_cols t_y None false action = Ok o
     /\ o_coef o = [Fin (21/25); Fin (28/25)] /\ o_warned o = false).
Proof.
  intros HQ HP EQ EL ET EA. rewrite (t_pqr Q Rm pivot HQ HP) in EQ. rewrite t_solve in EL. split; [apply t_indep|]. split; [apply t_exact|]. split; [|split].
  - intros H. assert (E := ls_coef_unique _ _ _ _ _ t_indep H t_exact). injection E. intros. lra.
  - unfold solve_ols. rewrite EA, EQ, EL. cbn. eexists. split; [reflexivity|]. now cbn.
  - unfold solve_ols_ext. rewrite EA, EQ. unfold rust_solve. rewrite ET, t_solve. cbn. eexists. split; [reflexivity|]. now cbn.
Qed.

(* the hypotheses of the routing theorem hold for that design too *)
Definition t_thin (rows : list nat) (cols : list (nat -> R)) : option (svd_val nat) := Some t_svd.
Example route_case y : is_svd t_rows t_cols t_svd /\ inv_ok (@gs_inv nat) /\ t_thin t_rows t_cols = Some t_svd /\ (0 < length t_cols)%nat
  /\ (fun _ _ f => svd_solve t_svd t_rows t_cols f) t_rows t_cols y = svd_solve t_svd t_rows t_cols y.
Proof. split; [apply t_svd_ok|]. split; [apply gs_inv_ok|]. repeat split; simpl; lia. Qed.

(* dependent columns (second singular value 0) and a square design, for the skip_rank_check theorems *)
Definition z_c1 (i : nat) : R := match i with O => 3/5 | _ => 0 end.
Definition z_c2 (i : nat) : R := match i with O => 4/5 | _ => 0 end.
Definition z_svd : svd_val nat :=
  {| d_r := 2%nat; d_s := fun l => match l with O => 1 | _ => 0 end; d_u := d_u t_svd; d_v := d_v t_svd |}.
Lemma z_svd_ok : is_svd t_rows [z_c1; z_c2] z_svd.
Proof.
  destruct t_svd_ok as (_ & _ & H3 & H4 & _ & H6). unfold is_svd. cbn [d_r d_s d_u d_v z_svd]. split; [reflexivity|]. split; [|split; [exact H3|split; [exact H4|split; [|exact H6]]]].
  - intros l _. destruct l; lra.
  - intros j i Hj Hi. simpl in Hi. destruct j as [|[|j]]; [| |simpl in Hj; lia]; destruct Hi as [<-|[<-|[<-|[]]]]; unfold colx; simpl; unfold kron; simpl; lra.
Qed.
Lemma z_kept : s_kept z_svd = [0%nat].
Proof.
  assert (M : s_max z_svd = 1).
  { unfold s_max. cbn. unfold Rmax. destruct (Rle_dec 0 1) as [_|X]; [|lra]. destruct (Rle_dec 1 0) as [X|_]; [lra|easy]. }
  unfold s_kept, s_cut. rewrite M. cbn. unfold rcond.
  replace (Rltb (1 * / 10000000) 1) with true by (symmetry; apply Rltb_true; lra).
  replace (Rltb (1 * / 10000000) 0) with false by (symmetry; apply Rltb_false; lra). reflexivity.
Qed.
Example skip_case : is_svd t_rows [z_c1; z_c2] z_svd /\ (length (s_kept z_svd) < 2)%nat /\ exact_cut z_svd /\ ~ indep t_rows [z_c1; z_c2].
Proof.
  split; [apply z_svd_ok|]. split; [rewrite z_kept; simpl; lia|]. split.
  - intros l Hl K. simpl in *. destruct l as [|[|l]]; [|easy|lia]. exfalso. apply K. apply (proj1 (kept_iff z_svd 0)). rewrite z_kept. now left.
  - intros H. specialize (H [4; -3] eq_refl). assert (E : [4; -3] = [0; 0]); [|injection E; intros; lra]. apply H. intros i [<-|[<-|[<-|[]]]]; simpl; lra.
Qed.
Definition q_svd : svd_val nat := {| d_r := 1%nat; d_s := fun _ => 2; d_u := fun _ _ => 1; d_v := fun _ _ => 1 |}.
Example square_case : is_svd [0%nat] [fun _ => 2] q_svd /\ length (s_kept q_svd) = 1%nat.
Proof.
  split.
  - unfold is_svd. cbn [d_r d_s d_u d_v q_svd]. split; [reflexivity|]. split; [intros; lra|]. split; [|split; [|split]].
    + intros l m Hl Hm. replace l with 0%nat by lia. replace m with 0%nat by lia. unfold ip, kron. simpl. ring.
    + intros l m Hl Hm. replace l with 0%nat by lia. replace m with 0%nat by lia. unfold ip, kron. simpl. ring.
    + intros j i Hj Hi. simpl in Hj. replace j with 0%nat by lia. unfold colx. simpl. ring.
    + intros _ a b Ha Hb. simpl in Ha, Hb. replace a with 0%nat by lia. replace b with 0%nat by lia. unfold kron. simpl. ring.
  - assert (M : s_max q_svd = 2) by (unfold s_max; cbn; unfold Rmax; destruct (Rle_dec 0 2) as [_|X]; [easy|lra]).
    unfold s_kept, s_cut. rewrite M. cbn. unfold rcond. now replace (Rltb (2 * / 10000000) 2) with true by (symmetry; apply Rltb_true; lra).
Qed.

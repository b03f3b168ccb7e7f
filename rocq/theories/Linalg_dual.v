(* A coefficient that has a dual vector in the column space is reported, whatever else is dropped, and is a known linear
   functional of the outcome with a known sandwich variance. *)
From Coq Require Import Reals Lra Lia.
From Verif Require Import Prelude Flt Linalg_model Linalg_proofs Linalg_vcov Linalg_thms.
From Coq Require Import Arith ZArith String List.
Import ListNotations.
Open Scope R_scope.

(* a vector of the column space dual to column j *)
Definition dual {I} (rows : list I) (cols : list (I -> R)) (j : nat) (q : I -> R) : Prop :=
  (j < length cols)%nat /\ span rows cols q /\
  forall a, (a < length cols)%nat -> ip rows (colx cols a) q = if (a =? j)%nat then 1 else 0.
Definition n_reported (coef : list fl) : nat := length (filter (fun x => negb (fisnan x)) coef).

Lemma dual_coef {I} (rows : list I) cols j q y b : dual rows cols j q -> is_ls rows cols y b -> nth j b 0 = ip rows q y.
Proof.
  intros (Hj & Hs & Hq) [Lb F].
  assert (Z : ip rows q (fun i => y i - lc cols b i) = 0) by (apply (orth_span rows cols); easy).
  rewrite ip_sub_r in Z. rewrite (ip_sym rows q (lc cols b)) in Z.
  assert (E : ip rows (lc cols b) q = nth j b 0).
  { unfold ip. rewrite (sumf_ext _ (fun i => sumf (fun a => nth a b 0 * (colx cols a i * q i)) (seq 0 (length cols)))).
    - rewrite sumf_swap. rewrite (sumf_ext _ (fun a => ind (keqb Nat.eq_dec j a) * nth j b 0)).
      + rewrite sumf_ind_key; [easy|apply seq_NoDup|apply in_seq; lia].
      + intros a Ha. apply in_seq in Ha. rewrite sumf_scal. specialize (Hq a ltac:(lia)). unfold ip in Hq. rewrite Hq.
        destruct (a =? j)%nat eqn:E; [apply Nat.eqb_eq in E; subst a; rewrite keqb_refl; unfold ind; ring|]. apply Nat.eqb_neq in E.
        replace (keqb Nat.eq_dec j a) with false; [unfold ind; ring|]. symmetry. apply keqb_false. congruence.
    - intros i _. rewrite lc_index by easy. rewrite <- sumf_scal_r. apply sumf_ext_all. intros. ring. }
  lra.
Qed.

Section Dual.
Context {I K : Type} (eqd : forall x y : K, {x = y} + {x <> y}).
Variable qr : list I -> list (I -> R) -> list nat.
Variable lstsq : list I -> list (I -> R) -> (I -> R) -> list R.
Variable inv : list I -> list (I -> R) -> option (nat -> nat -> R).
Hypothesis Hqr : qr_ok qr.
Hypothesis Hls : lstsq_ok lstsq.
Hypothesis Hinv : inv_ok inv.
Notation solve := (solve_ols eqd qr lstsq inv).

Lemma dual_kept rows cols j q : dual rows cols j q -> ~ In j (qr rows cols).
Proof.
  intros (Hj & Hs & Hq) Hd. destruct (Hqr rows cols) as [H1 _]. destruct (H1 j Hd) as [_ Hsp].
  assert (Z : ip rows (colx cols j) q = 0).
  { refine (orth_span rows _ q (colx cols j) _ Hsp). apply Forall_forall. intros c Hc. unfold select_cols in Hc. apply in_map_iff in Hc. destruct Hc as (a & <- & Ha).
    apply kept_cols_lt in Ha. destruct Ha as [Ha Hn]. rewrite Hq by easy. destruct (a =? j)%nat eqn:E; [|easy]. apply Nat.eqb_eq in E. now subst a. }
  rewrite Hq in Z by easy. rewrite Nat.eqb_refl in Z. lra.
Qed.
Lemma n_reported_kept b k d : n_reported (expand_coef b k (kept_cols k d)) = length (kept_cols k d).
Proof.
  unfold n_reported, expand_coef.
  assert (G : forall l, (forall i, In i l -> (i < k)%nat) -> length (filter (fun x => negb (fisnan x)) (map (fun i => match index_of i (kept_cols k d) with Some p => Fin (nth p b 0) | None => NaN end) l))
    = length (filter (fun i => negb (existsb (Nat.eqb i) d)) l)).
  { induction l as [|x l IH]; intros Hl; [easy|]. specialize (IH (fun i Hi => Hl i (or_intror Hi))). cbn [map filter].
    destruct (index_of x (kept_cols k d)) as [p|] eqn:E.
    - assert (Hi : In x (kept_cols k d)) by (apply index_of_in; eauto). unfold kept_cols in Hi. apply filter_In in Hi. destruct Hi as [_ Hi]. rewrite Hi.
      cbn [fisnan negb length]. now rewrite IH.
    - apply index_of_none in E. destruct (negb (existsb (Nat.eqb x) d)) eqn:Ex; cbn [fisnan negb length]; [|exact IH].
      exfalso. apply E. unfold kept_cols. apply filter_In. split; [apply in_seq; specialize (Hl x (or_introl eq_refl)); lia|easy]. }
  apply G. intros i Hi. apply in_seq in Hi. lia.
Qed.

(* the factor in front of the sandwich with k reported coefficients *)
Definition adj_k (rows : list I) (k : nat) (cluster : option (I -> K)) : R :=
  let n := INR (length rows) in
  match cluster with
  | None => n / (n - INR k)
  | Some cl => let G := INR (length (cl_keys eqd rows cl)) in (G / (G - 1)) * ((n - 1) / (n - INR k))
  end.
(* sum over rows (or clusters) of squared scores q * e *)
Definition score_ss (rows : list I) (q e : I -> R) (cluster : option (I -> K)) : R :=
  match cluster with
  | None => sumf (fun i => (q i * e i) * (q i * e i)) rows
  | Some cl => sumf (fun g => sumf (fun i => q i * e i) (filter (fun i => keqb eqd (cl i) g) rows) * sumf (fun i => q i * e i) (filter (fun i => keqb eqd (cl i) g) rows))
                    (cl_keys eqd rows cl)
  end.
Lemma score_ss_ext rows q q' e e' cluster : (forall i, In i rows -> q i = q' i) -> (forall i, In i rows -> e i = e' i) -> score_ss rows q e cluster = score_ss rows q' e' cluster.
Proof.
  intros Hq He. destruct cluster as [cl|]; cbn [score_ss].
  - apply sumf_ext. intros g _. assert (E : sumf (fun i => q i * e i) (filter (fun i => keqb eqd (cl i) g) rows) = sumf (fun i => q' i * e' i) (filter (fun i => keqb eqd (cl i) g) rows)).
    { apply sumf_ext. intros i Hi. apply filter_In in Hi. now rewrite Hq, He by easy. }
    now rewrite E.
  - apply sumf_ext. intros i Hi. now rewrite Hq, He.
Qed.

Theorem ols_dual rows cols y cluster rv action o j q : solve rows cols y cluster rv action = Ok o -> dual rows cols j q ->
  nth j (o_coef o) NaN = Fin (ip rows q y) /\
  (rv = true -> exists W, o_vcov o = Some W /\ W j j = Fin (adj_k rows (n_reported (o_coef o)) cluster * score_ss rows q (o_resid o) cluster)
     /\ 0 <= adj_k rows (n_reported (o_coef o)) cluster * score_ss rows q (o_resid o) cluster) /\
  (n_reported (o_coef o) <= length rows)%nat /\ (rv = true -> (n_reported (o_coef o) < length rows)%nat).
Proof.
  intros H Hd. assert (Hk := dual_kept rows cols j q Hd). assert (Hd' := Hd). destruct Hd' as (Hj & Hs & Hq).
  destruct (solve_ols_shape eqd qr lstsq inv Hls _ _ _ _ _ _ _ H) as (Lb & Ec & Ef & Er & _ & Hv & _ & Hle).
  set (kept := kept_cols (length cols) (qr rows cols)) in *. set (xr := select_cols cols kept) in *. set (b := lstsq rows xr y) in *.
  assert (Hin : In j kept) by (apply kept_cols_lt; easy). apply index_of_in in Hin. destruct Hin as [p Ep].
  destruct (index_of_some _ _ _ Ep) as [Hp Hnp].
  assert (Lx : length xr = length kept) by (unfold xr, select_cols; now rewrite map_length).
  assert (Cx : forall a, (a < length kept)%nat -> colx xr a = colx cols (nth a kept O)).
  { intros a Ha. unfold xr, select_cols, colx at 1. rewrite nth_indep with (d' := colx cols O) by (rewrite map_length; lia). now rewrite map_nth. }
  assert (Nk : NoDup kept) by apply kept_cols_nodup.
  assert (Dx : dual rows xr p q).
  { split; [lia|]. split.
    - apply (span_trans rows cols xr); [|easy]. destruct (Hqr rows cols) as [H1 _]. apply (qr_ok_span rows cols _ H1).
    - intros a Ha. rewrite Cx by lia. rewrite Hq; [|assert (X : In (nth a kept O) kept) by (apply nth_In; lia); apply kept_cols_lt in X; easy].
      destruct (a =? p)%nat eqn:E; [apply Nat.eqb_eq in E; subst a; now rewrite Hnp, Nat.eqb_refl|]. apply Nat.eqb_neq in E.
      replace (nth a kept O =? j)%nat with false; [easy|]. symmetry. apply Nat.eqb_neq. intros Ea. apply E. apply (NoDup_nth kept O); [easy|lia|lia|congruence]. }
  assert (Nr : n_reported (o_coef o) = length xr) by (rewrite Ec, Lx; apply n_reported_kept).
  assert (Lk : (length xr <= length rows)%nat).
  { rewrite Lx. assert (X : (length kept <= length cols)%nat); [|lia]. unfold kept, kept_cols. rewrite <- (seq_length (length cols) 0) at 2.
    generalize (seq 0 (length cols)). intros l. induction l as [|x l IH]; [easy|]. cbn [filter]. destruct (negb _); cbn [length]; lia. }
  split; [|split; [|split]].
  - rewrite Ec, expand_coef_nth by easy. rewrite Ep. f_equal. apply (dual_coef rows xr p q y b Dx (Hls rows xr y)).
  - intros ->. destruct Hv as (V & EV & W & EW & HE). exists W. split; [easy|]. rewrite HE by easy. unfold expand_vcov. rewrite Ep.
    assert (Pn := robust_vcov_diag_nonneg eqd inv Hinv _ _ _ _ _ Lk EV p).
    destruct (robust_vcov_shape eqd inv Hinv _ _ _ _ _ EV) as (_ & _ & B & HB & EVB).
    assert (QE : forall i, In i rows -> qcol xr B p i = q i) by (apply (qcol_unique rows xr B p q HB); apply Dx).
    assert (EVp : V p p = adj_k rows (n_reported (o_coef o)) cluster * score_ss rows q (o_resid o) cluster).
    { rewrite EVB, Nr. unfold adj_of, meat_of. 
      rewrite <- (score_ss_ext rows (qcol xr B p) q (fun i => y i - lc xr b i) (o_resid o) cluster QE (fun i _ => eq_sym (Er i))).
      destruct cluster as [cl|]; [rewrite cl_dual|rewrite hc1_dual]; reflexivity. }
    rewrite <- EVp. easy.
  - lia.
  - intros ->. destruct Hv as (V & EV & _). destruct (robust_vcov_shape eqd inv Hinv _ _ _ _ _ EV) as (Hne & _). lia.
Qed.
End Dual.

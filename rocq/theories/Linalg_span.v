(* Regression results depend on the design only through its column space and the dual vector of the coefficient. *)
From Coq Require Import Reals Lra Lia.
From Verif Require Import Prelude Flt Linalg_model Linalg_proofs Linalg_vcov Linalg_thms Linalg_dual Linalg_rank Did_proofs.
From Coq Require Import Arith ZArith String List.
Import ListNotations.
Open Scope R_scope.

Section S.
Context {I K : Type} (eqd : forall x y : K, {x = y} + {x <> y}).
Variable qr : list I -> list (I -> R) -> list nat.
Variable lstsq : list I -> list (I -> R) -> (I -> R) -> list R.
Variable inv : list I -> list (I -> R) -> option (nat -> nat -> R).
Variable pinv : list I -> list (I -> R) -> nat -> nat -> R.
Hypothesis Hqr : qr_ok qr.
Hypothesis Hls : lstsq_ok lstsq.
Hypothesis Hinv : inv_ok inv.
Notation solve := (solve_ols eqd qr lstsq inv).
Notation lfit := (linreg_fit eqd qr lstsq inv pinv).

Lemma finite_positions_kept b k d : finite_positions (expand_coef b k (kept_cols k d)) = kept_cols k d.
Proof.
  unfold finite_positions. rewrite expand_coef_length. unfold kept_cols at 2. apply filter_ext_in. intros j Hj. apply in_seq in Hj.
  rewrite expand_coef_nth by lia. destruct (index_of j (kept_cols k d)) as [p|] eqn:E.
  - assert (Hi : In j (kept_cols k d)) by (apply index_of_in; eauto). unfold kept_cols in Hi. apply filter_In in Hi. now destruct Hi as [_ ->].
  - apply index_of_none in E. destruct (negb (existsb (Nat.eqb j) d)) eqn:Ex; [|easy]. exfalso. apply E. unfold kept_cols. apply filter_In. split; [apply in_seq; lia|easy].
Qed.

(* restriction of a dual vector to the kept columns *)
Lemma dual_restrict rows cols j q : dual rows cols j q ->
  exists p, index_of j (kept_cols (length cols) (qr rows cols)) = Some p /\ dual rows (select_cols cols (kept_cols (length cols) (qr rows cols))) p q.
Proof.
  intros Hd. assert (Hk := dual_kept qr Hqr rows cols j q Hd). assert (Hd' := Hd). destruct Hd' as (Hj & Hs & Hq).
  set (kept := kept_cols (length cols) (qr rows cols)) in *. set (xr := select_cols cols kept) in *.
  assert (Hin : In j kept) by (apply kept_cols_lt; easy). apply index_of_in in Hin. destruct Hin as [p Ep]. exists p. split; [easy|].
  destruct (index_of_some _ _ _ Ep) as [Hp Hnp].
  assert (Lx : length xr = length kept) by (unfold xr, select_cols; now rewrite map_length).
  assert (Nk : NoDup kept) by apply kept_cols_nodup.
  split; [lia|]. split.
  - apply (span_trans rows cols xr); [|easy]. destruct (Hqr rows cols) as [H1 _]. apply (qr_ok_span rows cols _ H1).
  - intros a Ha. assert (Cx : colx xr a = colx cols (nth a kept O)).
    { unfold xr, select_cols, colx at 1. rewrite nth_indep with (d' := colx cols O) by (rewrite map_length; lia). now rewrite map_nth. }
    rewrite Cx. rewrite Hq; [|assert (X : In (nth a kept O) kept) by (apply nth_In; lia); apply kept_cols_lt in X; easy].
    destruct (a =? p)%nat eqn:E; [apply Nat.eqb_eq in E; subst a; now rewrite Hnp, Nat.eqb_refl|]. apply Nat.eqb_neq in E.
    replace (nth a kept O =? j)%nat with false; [easy|]. symmetry. apply Nat.eqb_neq. intros Ea. apply E. apply (NoDup_nth kept O); [easy|lia|lia|congruence].
Qed.

(* entry (p, p) of the inverse is the squared length of the dual vector *)
Lemma inverse_diag (rows : list I) cols B p q : is_inverse rows cols B -> dual rows cols p q -> B p p = ip rows q q.
Proof.
  intros HB (Hp & Hs & Hq). transitivity (ip rows (qcol cols B p) q); [|apply ip_ext; [apply (qcol_unique rows cols B p q HB Hp Hs Hq)|easy]].
  unfold ip, qcol. rewrite (sumf_ext_all _ (fun i => sumf (fun a => B p a * (colx cols a i * q i)) (seq 0 (length cols)))).
  - rewrite sumf_swap. rewrite (sumf_ext _ (fun a => ind (keqb Nat.eq_dec p a) * B p p)); [rewrite sumf_ind_key; [easy|apply seq_NoDup|apply in_seq; lia]|].
    intros a Ha. apply in_seq in Ha. rewrite sumf_scal. specialize (Hq a ltac:(lia)). unfold ip in Hq. rewrite Hq.
    destruct (a =? p)%nat eqn:E; [apply Nat.eqb_eq in E; subst a; rewrite keqb_refl; unfold ind; ring|]. apply Nat.eqb_neq in E.
    replace (keqb Nat.eq_dec p a) with false; [unfold ind; ring|]. symmetry. apply keqb_false. congruence.
  - intros i. rewrite <- sumf_scal_r. apply sumf_ext_all. intros. ring.
Qed.

Lemma classical_dual rows cols y cluster rv action o j q : solve rows cols y cluster rv action = Ok o -> dual rows cols j q ->
  classical_vcov inv pinv rows cols (o_coef o) (o_resid o) j j =
    fmul (fdiv (Fin (sumf (fun i => o_resid o i * o_resid o i) rows)) (Fin (INR (length rows) - INR (n_reported (o_coef o))))) (Fin (ip rows q q)).
Proof.
  intros H Hd. destruct (solve_ols_shape eqd qr lstsq inv Hls _ _ _ _ _ _ _ H) as (_ & Ec & _).
  destruct (dual_restrict rows cols j q Hd) as (p & Ep & Dx). unfold classical_vcov. rewrite Ec, finite_positions_kept, n_reported_kept.
  set (kept := kept_cols (length cols) (qr rows cols)) in *.
  assert (Hk : length kept <> O) by (destruct kept; [discriminate|easy]). apply Nat.eqb_neq in Hk. rewrite Hk, Ep. apply (f_equal2 fmul eq_refl). apply (f_equal Fin).
  apply (inverse_diag rows (select_cols cols kept)); [|easy]. unfold bread. assert (Hi := Hinv rows (select_cols cols kept)).
  destruct (inv rows (select_cols cols kept)); [easy|]. exfalso. apply Hi. apply (Hqr rows cols).
Qed.

Lemma n_effective_reported coef : n_effective coef = Z.of_nat (n_reported coef).
Proof. reflexivity. Qed.

Lemma is_ls_span (rows : list I) cols cols' y b b' : same_span rows cols cols' -> is_ls rows cols y b -> is_ls rows cols' y b' ->
  forall i, In i rows -> lc cols b i = lc cols' b' i.
Proof.
  intros [H1 H2] [Lb Fb] [Lb' Fb'] i Hi. set (dl := fun i => lc cols b i - lc cols' b' i).
  assert (O : forall c, In c cols -> ip rows c dl = 0).
  { intros c Hc. rewrite Forall_forall in Fb. assert (A := Fb c Hc).
    assert (A' : ip rows c (fun i => y i - lc cols' b' i) = 0) by (apply (orth_span rows cols'); auto).
    rewrite ip_sub_r in A, A'. unfold dl. rewrite ip_sub_r. lra. }
  assert (Z : ip rows dl dl = 0).
  { apply (orth_span rows cols); [now apply Forall_forall|]. unfold dl. apply span_sub; [now apply span_lc|]. apply (span_trans rows cols'); [auto|now apply span_lc]. }
  assert (E := ip_def _ _ Z i Hi). unfold dl in E. lra.
Qed.

Theorem linreg_span robust cluster action action' nabs rows cols cols' y reg reg' j j' q :
  lfit robust cluster action nabs rows cols y = Ok reg -> lfit robust cluster action' nabs rows cols' y = Ok reg' ->
  same_span rows cols cols' -> dual rows cols j q -> dual rows cols' j' q ->
  nth j (l_coef reg) NaN = nth j' (l_coef reg') NaN /\ l_vcov reg j j = l_vcov reg' j' j' /\ l_df reg = l_df reg' /\
  n_reported (l_coef reg) = n_reported (l_coef reg') /\
  (forall i, In i rows -> l_resid reg i = l_resid reg' i) /\ (forall i, In i rows -> l_fitted reg i = l_fitted reg' i).
Proof.
  intros H H' Sp D D'.
  destruct (linreg_fit_inv eqd qr lstsq inv pinv _ _ _ _ _ _ _ _ H) as (o & Ho & Ec & Er & Ef & Ed & EV).
  destruct (linreg_fit_inv eqd qr lstsq inv pinv _ _ _ _ _ _ _ _ H') as (o' & Ho' & Ec' & Er' & Ef' & Ed' & EV').
  destruct (solve_ols_shape eqd qr lstsq inv Hls _ _ _ _ _ _ _ Ho) as (_ & C & _). destruct (solve_ols_shape eqd qr lstsq inv Hls _ _ _ _ _ _ _ Ho') as (_ & C' & _).
  assert (N : n_reported (o_coef o) = n_reported (o_coef o')) by (rewrite C, C', !n_reported_kept; now apply rank_unique).
  destruct (resid_coef eqd qr lstsq inv pinv Hqr Hls _ _ _ _ _ _ _ _ H) as (_ & L1 & R1).
  destruct (resid_coef eqd qr lstsq inv pinv Hqr Hls _ _ _ _ _ _ _ _ H') as (_ & L1' & R1').
  assert (RE : forall i, In i rows -> l_resid reg i = l_resid reg' i).
  { intros i Hi. rewrite R1, R1'. now rewrite (is_ls_span rows cols cols' y _ _ Sp L1 L1' i Hi). }
  destruct (ols_dual eqd qr lstsq inv Hqr Hls Hinv _ _ _ _ _ _ _ _ _ Ho D) as (A1 & A2 & _ & _).
  destruct (ols_dual eqd qr lstsq inv Hqr Hls Hinv _ _ _ _ _ _ _ _ _ Ho' D') as (A1' & A2' & _ & _).
  split; [now rewrite Ec, Ec', A1, A1'|]. split.
  - rewrite EV, EV'. assert (K1 := classical_dual _ _ _ _ _ _ _ _ _ Ho D). assert (K2 := classical_dual _ _ _ _ _ _ _ _ _ Ho' D').
    assert (SS : sumf (fun i => o_resid o i * o_resid o i) rows = sumf (fun i => o_resid o' i * o_resid o' i) rows).
    { apply sumf_ext. intros i Hi. rewrite <- Er, <- Er'. now rewrite RE. }
    destruct (match cluster with Some _ => true | None => robust end) eqn:Erv.
    + destruct (A2 eq_refl) as (W & -> & -> & _). destruct (A2' eq_refl) as (W' & -> & -> & _). rewrite N. apply (f_equal Fin). apply (f_equal2 Rmult eq_refl).
      apply score_ss_ext; [easy|]. intros i Hi. rewrite <- Er, <- Er'. now apply RE.
    + destruct (solve_ols_shape eqd qr lstsq inv Hls _ _ _ _ _ _ _ Ho) as (_ & _ & _ & _ & _ & Hv & _).
      destruct (solve_ols_shape eqd qr lstsq inv Hls _ _ _ _ _ _ _ Ho') as (_ & _ & _ & _ & _ & Hv' & _).
      cbn iota in Hv, Hv'. rewrite Hv, Hv', K1, K2, N, SS. easy.
  - split; [rewrite Ed, Ed'; unfold fit_df; now rewrite Ec || idtac; rewrite !n_effective_reported, N|].
    split; [now rewrite Ec, Ec'|]. split; [easy|]. intros i Hi.
    assert (P := solve_ols_predict eqd qr lstsq inv Hls _ _ _ _ _ _ _ Ho i). assert (P' := solve_ols_predict eqd qr lstsq inv Hls _ _ _ _ _ _ _ Ho' i).
    rewrite Ef, Ef', <- P, <- P', <- Ec, <- Ec'. now apply (is_ls_span rows cols cols' y).
Qed.
End S.

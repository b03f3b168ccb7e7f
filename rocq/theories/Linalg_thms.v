(* Properties of solve_ols, the covariance, R-squared and coefficient-level inference. *)
From Verif Require Import Prelude Flt Linalg_model Linalg_proofs Linalg_vcov.
From Coq Require Import Arith ZArith String List.
Import ListNotations.
Open Scope R_scope.

(* ---------- expansion with NaN ---------- *)
Lemma index_of_some i l p : index_of i l = Some p -> (p < length l)%nat /\ nth p l O = i.
Proof.
  revert p; induction l as [|x l IH]; intros p H; simpl in *; [discriminate|].
  destruct (Nat.eqb x i) eqn:E.
  - injection H as <-. apply Nat.eqb_eq in E. split; auto; lia.
  - destruct (index_of i l) as [q|] eqn:Eq; [|discriminate]. injection H as <-.
    destruct (IH q eq_refl). split; auto; lia.
Qed.
Lemma index_of_in i l : In i l <-> exists p, index_of i l = Some p.
Proof.
  induction l as [|x l IH]; simpl.
  - split; [contradiction|intros [p H]; discriminate].
  - destruct (Nat.eqb x i) eqn:E.
    + apply Nat.eqb_eq in E. split; eauto.
    + apply Nat.eqb_neq in E. rewrite IH. split.
      * intros [H|[p Hp]]; [congruence|]. rewrite Hp. simpl; eauto.
      * intros [p Hp]. destruct (index_of i l) as [q|]; [|discriminate]. eauto.
Qed.
Lemma index_of_none i l : ~ In i l <-> index_of i l = None.
Proof.
  rewrite index_of_in. destruct (index_of i l); split; auto; intros H.
  - exfalso; apply H; eauto.
  - discriminate.
  - intros [p Hp]; discriminate.
Qed.

Lemma index_of_nth l p : NoDup l -> (p < length l)%nat -> index_of (nth p l O) l = Some p.
Proof.
  revert p; induction l as [|x l IH]; intros p Hnd Hp; simpl in *; [lia|].
  inversion Hnd; subst. destruct p as [|p].
  - rewrite Nat.eqb_refl; reflexivity.
  - destruct (Nat.eqb x (nth p l O)) eqn:E.
    + apply Nat.eqb_eq in E. exfalso. apply H1. rewrite E. apply nth_In; lia.
    + rewrite IH by (auto; lia). reflexivity.
Qed.

Lemma nth_map_seq {A} (f : nat -> A) k j d : (j < k)%nat -> nth j (map f (seq 0 k)) d = f j.
Proof.
  intros H. rewrite nth_indep with (d' := f O) by (rewrite map_length, seq_length; auto).
  rewrite map_nth, seq_nth; auto.
Qed.

Lemma expand_coef_length b k kept : length (expand_coef b k kept) = k.
Proof. unfold expand_coef; rewrite map_length, seq_length; auto. Qed.

Lemma expand_coef_nth b k kept j :
  (j < k)%nat ->
  nth j (expand_coef b k kept) NaN = match index_of j kept with Some p => Fin (nth p b 0) | None => NaN end.
Proof. intros H. unfold expand_coef. rewrite nth_map_seq; auto. Qed.

Lemma kept_cols_nil k : kept_cols k [] = seq 0 k.
Proof.
  unfold kept_cols. simpl. induction (seq 0 k) as [|a l IH]; simpl; auto. rewrite IH; auto.
Qed.

Lemma kept_cols_nodup k d : NoDup (kept_cols k d).
Proof. apply NoDup_filter, seq_NoDup. Qed.

Lemma index_of_seq j k : (j < k)%nat -> index_of j (seq 0 k) = Some j.
Proof.
  intros H. pose proof (index_of_nth (seq 0 k) j (seq_NoDup k 0)) as E.
  rewrite seq_length in E. rewrite seq_nth in E by auto. apply E; auto.
Qed.

Lemma list_as_map {A} (l : list A) d : l = map (fun j => nth j l d) (seq 0 (length l)).
Proof.
  apply nth_ext with (d := d) (d' := d).
  - rewrite map_length, seq_length; auto.
  - intros j Hj. rewrite nth_map_seq; auto.
Qed.

(* the full-rank branch is the expansion with nothing dropped *)
Lemma expand_coef_full b k : length b = k -> expand_coef b k (kept_cols k []) = map Fin b.
Proof.
  intros <-. rewrite kept_cols_nil. unfold expand_coef.
  rewrite (list_as_map b 0) at 2. rewrite map_map. apply map_ext_in.
  intros j Hj. apply in_seq in Hj. rewrite index_of_seq by lia. reflexivity.
Qed.

Lemma select_cols_full {I} (cols : list (I -> R)) : select_cols cols (kept_cols (length cols) []) = cols.
Proof. rewrite kept_cols_nil. symmetry. apply (list_as_map cols). Qed.

(* predict with NaN coefficients set to 0 uses exactly the kept columns *)
Lemma predict_expand {I} (cols : list (I -> R)) b kept i :
  NoDup kept -> (forall j, In j kept -> (j < length cols)%nat) -> length b = length kept ->
  predict cols (expand_coef b (length cols) kept) i = lc (select_cols cols kept) b i.
Proof.
  intros Hnd Hlt Hb. unfold predict.
  rewrite lc_index by (rewrite map_length, expand_coef_length; auto).
  rewrite lc_index by (unfold select_cols; rewrite map_length; auto).
  unfold select_cols at 2. rewrite map_length.
  transitivity (sumf (fun j => sumf (fun p => ind (keqb Nat.eq_dec (nth p kept O) j) * (nth p b 0 * colx cols (nth p kept O) i)) (seq 0 (length kept))) (seq 0 (length cols))).
  - apply sumf_ext. intros j Hj. apply in_seq in Hj.
    rewrite nth_indep with (d' := nan_to_zero NaN) by (rewrite map_length, expand_coef_length; lia).
    rewrite map_nth, expand_coef_nth by lia.
    destruct (index_of j kept) as [p|] eqn:E.
    + destruct (index_of_some _ _ _ E) as [Hp Hn].
      rewrite (sumf_ext _ (fun q => ind (keqb Nat.eq_dec p q) * (nth p b 0 * colx cols j i))).
      * rewrite sumf_ind_key; auto; [apply seq_NoDup|apply in_seq; lia].
      * intros q Hq. apply in_seq in Hq. destruct (keqb Nat.eq_dec p q) eqn:Ek.
        -- apply keqb_true in Ek; subst q. rewrite Hn, keqb_refl. reflexivity.
        -- apply keqb_false in Ek. replace (keqb Nat.eq_dec (nth q kept O) j) with false; [unfold ind; ring|].
           symmetry; apply keqb_false. intros Eq2. apply Ek.
           apply (NoDup_nth kept O); [auto|lia|lia|congruence].
    + apply index_of_none in E. simpl. rewrite sumf_zero; [ring|].
      intros q Hq. apply in_seq in Hq. replace (keqb Nat.eq_dec (nth q kept O) j) with false; [unfold ind; ring|].
      symmetry; apply keqb_false. intros <-. apply E, nth_In; lia.
  - rewrite sumf_swap. apply sumf_ext. intros p Hp. apply in_seq in Hp.
    rewrite sumf_ind_key.
    + f_equal. unfold colx at 2, select_cols.
      rewrite nth_indep with (d' := colx cols O) by (rewrite map_length; lia).
      rewrite map_nth. reflexivity.
    + apply seq_NoDup.
    + apply in_seq. split; [lia|]. apply Hlt, nth_In; lia.
Qed.

(* ---------- solve_ols ---------- *)
(* the rank check keeps a column exactly when some column is not zero on the rows *)
Lemma kept_nonzero {I} (qr : list I -> list (I -> R) -> list nat) rows cols c i :
  qr_ok qr -> In c cols -> In i rows -> c i <> 0 -> (length (kept_cols (length cols) (qr rows cols)) =? 0)%nat = false.
Proof.
  intros Hqr Hc Hi Hne. apply Nat.eqb_neq. intros E. destruct (Hqr rows cols) as [Hd _].
  destruct (kept_cols (length cols) (qr rows cols)) as [|x l] eqn:Ek; [|discriminate E].
  destruct (In_nth cols c (fun _ => 0) Hc) as (j & Hj & Ec).
  destruct (in_dec Nat.eq_dec j (qr rows cols)) as [Hin|Hn].
  - destruct (Hd j Hin) as [_ (a & La & Ha)]. apply Hne. rewrite <- Ec. change (colx cols j i = 0). rewrite (Ha i Hi). now destruct a.
  - assert (X : In j (kept_cols (length cols) (qr rows cols))) by (apply kept_cols_lt; easy). rewrite Ek in X. destruct X.
Qed.
Lemma zero_all_dropped {I} (qr : list I -> list (I -> R) -> list nat) rows cols j :
  qr_ok qr -> (forall c i, In c cols -> In i rows -> c i = 0) -> (j < length cols)%nat -> In j (qr rows cols).
Proof.
  intros Hqr Hz Hj. destruct (in_dec Nat.eq_dec j (qr rows cols)) as [Hin|Hn]; [easy|exfalso].
  destruct (Hqr rows cols) as [_ Hi]. set (kept := kept_cols (length cols) (qr rows cols)) in *.
  assert (Hk : In j kept) by (apply kept_cols_lt; easy).
  specialize (Hi (repeat 1 (length (select_cols cols kept))) (repeat_length _ _)).
  assert (Z0 : forall i, In i rows -> lc (select_cols cols kept) (repeat 1 (length (select_cols cols kept))) i = 0).
  { intros i Hir. assert (F : forall c, In c (select_cols cols kept) -> c i = 0).
    { intros c Hc. apply (Hz c i); [|easy]. apply (select_in cols kept c); [|easy]. intros m Hm. apply kept_cols_lt in Hm; tauto. }
    clear -F. induction (select_cols cols kept) as [|c l IH]; [easy|]. cbn [length repeat lc]. rewrite (F c (or_introl eq_refl)), IH; [ring|].
    intros; apply F; now right. }
  specialize (Hi Z0). unfold select_cols in Hi. rewrite map_length in Hi. destruct kept as [|x l]; [destruct Hk|]. cbn in Hi. injection Hi. lra.
Qed.

Section SolveThms.
Context {I K : Type} (eqd : forall x y : K, {x = y} + {x <> y}).
Variable qr : list I -> list (I -> R) -> list nat.
Variable lstsq : list I -> list (I -> R) -> (I -> R) -> list R.
Variable inv : list I -> list (I -> R) -> option (nat -> nat -> R).
Hypothesis Hqr : qr_ok qr.
Hypothesis Hls : lstsq_ok lstsq.

Notation solve := (solve_ols eqd qr lstsq inv).

(* the result in one shape, whichever branch was taken *)
Lemma solve_ols_shape rows cols y cluster rv action o :
  solve rows cols y cluster rv action = Ok o ->
  let kept := kept_cols (length cols) (qr rows cols) in
  let xr := select_cols cols kept in
  let b := lstsq rows xr y in
  length b = length kept /\
  o_coef o = expand_coef b (length cols) kept /\
  (forall i, o_fitted o i = lc xr b i) /\
  (forall i, o_resid o i = y i - lc xr b i) /\
  o_warned o = (negb (Nat.eqb (length (qr rows cols)) 0) && String.eqb action "warn") /\
  (if rv then exists V, robust_vcov eqd inv rows xr (fun i => y i - lc xr b i) cluster = Ok V /\
                        exists W, o_vcov o = Some W /\ forall a c, (a < length cols)%nat -> (c < length cols)%nat ->
                          W a c = expand_vcov V kept a c
   else o_vcov o = None) /\
  (qr rows cols <> [] -> action <> "error"%string) /\
  (length cols <= length rows)%nat.
Proof.
  unfold solve_ols. intros H. destruct (Nat.ltb (length rows) (length cols)) eqn:En; [discriminate|].
  apply Nat.ltb_ge in En.
  assert (Lall : forall d, length (lstsq rows (select_cols cols (kept_cols (length cols) d)) y)
                 = length (kept_cols (length cols) d)).
  { intros d. destruct (Hls rows (select_cols cols (kept_cols (length cols) d)) y) as [L _].
    rewrite L. unfold select_cols; rewrite map_length; auto. }
  destruct (parse_action action) as [act|] eqn:Ea; [|discriminate].
  destruct (qr rows cols) as [|d0 d] eqn:Eq; cbv zeta in *.
  - pose proof (Lall []) as L0. rewrite select_cols_full in L0.
    rewrite select_cols_full.
    assert (Lk : length (kept_cols (length cols) []) = length cols).
    { rewrite kept_cols_nil, seq_length; auto. }
    destruct rv.
    + destruct (robust_vcov _ _ _ _ _ _) as [V|] eqn:EV; [|discriminate]. simpl in H. injection H as <-.
      simpl. split; [congruence|]. split; [rewrite expand_coef_full; auto; congruence|].
      split; [auto|]. split; [auto|]. split; [reflexivity|]. split; [|split; [congruence|auto]].
      exists V. split; auto. eexists; split; [reflexivity|]. intros a c Ha Hc.
      rewrite kept_cols_nil. unfold expand_vcov. rewrite !index_of_seq by auto. reflexivity.
    + injection H as <-. simpl. split; [congruence|]. split; [rewrite expand_coef_full; auto; congruence|].
      split; [auto|]. split; [auto|]. split; [reflexivity|]. split; [reflexivity|split; [congruence|auto]].
  - assert (act <> ActError /\ action <> "error"%string) as [Hact Hstr].
    { destruct act; try discriminate; split; try discriminate; intros ->; discriminate. }
    assert (Hw : match act with ActWarn => true | _ => false end = String.eqb action "warn").
    { unfold parse_action in Ea. destruct (String.eqb action "warn") eqn:E1.
      - injection Ea as <-; auto.
      - destruct (String.eqb action "error"); [injection Ea as <-; auto|].
        destruct (String.eqb action "silent"); [injection Ea as <-; auto|discriminate]. }
    specialize (Lall (d0 :: d)). destruct (Nat.eqb (length (kept_cols (length cols) (d0 :: d))) 0); [destruct act; discriminate|].
    destruct act; try congruence; destruct rv.
    all: try (destruct (robust_vcov _ _ _ _ _ _) as [V|] eqn:EV; [|discriminate]); simpl in H; injection H as <-.
    all: simpl; rewrite <- ?Hw; repeat split; auto.
    all: exists V; split; auto; eexists; split; reflexivity.
Qed.

(* C05: rank-deficient designs *)
Theorem solve_ols_projection rows cols y cluster rv action o :
  solve rows cols y cluster rv action = Ok o ->
  (* residuals are orthogonal to every supplied column, dropped or not *)
  (forall c, In c cols -> sumf (fun i => c i * o_resid o i) rows = 0) /\
  (* fitted values are those of every least squares solution on the full design *)
  (forall b', is_ls rows cols y b' -> forall i, In i rows -> o_fitted o i = lc cols b' i) /\
  (forall i, o_resid o i = y i - o_fitted o i).
Proof.
  intros H. destruct (solve_ols_shape _ _ _ _ _ _ _ H) as (Lb & Hc & Hf & Hr & _).
  set (kept := kept_cols (length cols) (qr rows cols)) in *. set (xr := select_cols cols kept) in *.
  destruct (Hqr rows cols) as [Hd _].
  pose proof (qr_ok_span rows cols _ Hd) as Hsp. fold kept in Hsp. fold xr in Hsp.
  pose proof (Hls rows xr y) as Hxr.
  assert (Hin : forall c, In c xr -> In c cols).
  { intros c Hc0. apply (select_in cols kept c); auto. intros j Hj. apply kept_cols_lt in Hj; tauto. }
  split; [|split].
  - intros c Hc0. destruct Hxr as [L F].
    transitivity (ip rows c (fun i => y i - lc xr (lstsq rows xr y) i)).
    + apply sumf_ext; intros i _. rewrite Hr; reflexivity.
    + apply (orth_span rows xr); auto.
  - intros b' Hb' i Hi. rewrite Hf. symmetry.
    apply (ls_fitted_unique_span rows cols xr y b' _ Hb' Hxr); auto.
    intros c Hc0. apply span_in; auto.
  - intros i. rewrite Hr, Hf. reflexivity.
Qed.

Theorem solve_ols_nan_exactly_dropped rows cols y cluster rv action o :
  solve rows cols y cluster rv action = Ok o ->
  length (o_coef o) = length cols /\
  (forall j, (j < length cols)%nat -> (nth j (o_coef o) NaN = NaN <-> In j (qr rows cols))) /\
  (forall W, o_vcov o = Some W -> forall a c, (a < length cols)%nat -> (c < length cols)%nat ->
     (W a c = NaN <-> In a (qr rows cols) \/ In c (qr rows cols))).
Proof.
  intros H. destruct (solve_ols_shape _ _ _ _ _ _ _ H) as (Lb & Hc & Hf & Hr & Hw & Hv & _).
  set (kept := kept_cols (length cols) (qr rows cols)) in *.
  assert (Hk : forall j, (j < length cols)%nat -> (index_of j kept = None <-> In j (qr rows cols))).
  { intros j Hj. rewrite <- index_of_none. unfold kept. rewrite kept_cols_lt.
    destruct (in_dec Nat.eq_dec j (qr rows cols)); tauto. }
  split; [rewrite Hc; apply expand_coef_length|]. split.
  - intros j Hj. rewrite Hc, expand_coef_nth by auto. rewrite <- Hk by auto.
    destruct (index_of j kept); split; auto; discriminate.
  - intros W HW a c Ha Hc0. destruct rv; [|congruence].
    destruct Hv as (V & _ & W' & HW' & HE). rewrite HW in HW'. injection HW' as <-.
    rewrite HE by auto. rewrite <- (Hk a), <- (Hk c) by auto. unfold expand_vcov.
    destruct (index_of a kept), (index_of c kept); split; auto; try discriminate; intros [?|?]; discriminate.
Qed.

Theorem solve_ols_predict rows cols y cluster rv action o :
  solve rows cols y cluster rv action = Ok o ->
  forall i, predict cols (o_coef o) i = o_fitted o i.
Proof.
  intros H i. destruct (solve_ols_shape _ _ _ _ _ _ _ H) as (Lb & Hc & Hf & _).
  rewrite Hc, Hf. apply predict_expand; auto.
  - apply kept_cols_nodup.
  - intros j Hj. apply kept_cols_lt in Hj; tauto.
Qed.

Theorem solve_ols_error_action rows cols y cluster rv :
  qr rows cols <> [] -> solve rows cols y cluster rv "error" = Err ValueError.
Proof.
  intros Hd. unfold solve_ols. destruct (Nat.ltb _ _); auto. simpl.
  destruct (qr rows cols); [congruence|reflexivity].
Qed.

(* if nothing is left the solver fails instead of reporting NaN everywhere: 676-677 *)
Theorem solve_ols_rank_zero rows cols y cluster rv action :
  (length cols <= length rows)%nat -> cols <> [] -> (action = "warn" \/ action = "silent")%string ->
  (forall j, (j < length cols)%nat -> In j (qr rows cols)) ->
  solve rows cols y cluster rv action = Err IndexError.
Proof.
  intros Hn Hc Ha Hd. unfold solve_ols. rewrite (proj2 (Nat.ltb_ge _ _) Hn).
  assert (Hk : length (kept_cols (length cols) (qr rows cols)) = 0%nat).
  { destruct (kept_cols (length cols) (qr rows cols)) as [|j l] eqn:E; [easy|]. exfalso.
    assert (X : In j (kept_cols (length cols) (qr rows cols))) by (rewrite E; now left).
    apply kept_cols_lt in X. destruct X as [X1 X2]. now apply X2, Hd. }
  destruct (qr rows cols) as [|d0 d] eqn:E.
  { exfalso. destruct cols; [easy|]. apply (Hd 0%nat). cbn. lia. }
  cbv zeta. rewrite Hk. now destruct Ha as [-> | ->].
Qed.

Theorem solve_ols_zero_design rows cols y cluster rv action :
  (length cols <= length rows)%nat -> cols <> [] -> (action = "warn" \/ action = "silent")%string ->
  (forall c i, In c cols -> In i rows -> c i = 0) ->
  solve rows cols y cluster rv action = Err IndexError.
Proof.
  intros Hn Hc Ha Hz. apply solve_ols_rank_zero; auto. intros j Hj. apply zero_all_dropped; auto.
Qed.

Theorem solve_ols_returns rows cols y cluster action :
  is_ok (solve rows cols y cluster false action) = true <->
  (length cols <= length rows)%nat /\
  ((action = "warn" \/ action = "silent")%string /\ (cols = [] \/ exists c i, In c cols /\ In i rows /\ c i <> 0) \/
   (action = "error"%string /\ qr rows cols = [])).
Proof.
  assert (PA : forall act, parse_action action = Some act <-> action = match act with ActWarn => "warn"%string | ActError => "error"%string | ActSilent => "silent"%string end).
  { intros act. unfold parse_action. split.
    - destruct (String.eqb_spec action "warn"); [intros H; injection H as <-; assumption|].
      destruct (String.eqb_spec action "error"); [intros H; injection H as <-; assumption|].
      destruct (String.eqb_spec action "silent"); [intros H; injection H as <-; assumption|discriminate].
    - intros ->. now destruct act. }
  assert (NZ : length (kept_cols (length cols) (qr rows cols)) <> 0%nat -> exists c i, In c cols /\ In i rows /\ c i <> 0).
  { intros Hk. destruct (Hqr rows cols) as [_ Hi]. set (kept := kept_cols (length cols) (qr rows cols)) in *.
    destruct kept as [|j l] eqn:Ek; [now cbn in Hk|].
    assert (Hj : In j (j :: l)) by now left. rewrite <- Ek in Hj. unfold kept in Hj. apply kept_cols_lt in Hj.
    destruct (Classical_Prop.classic (exists c i, In c cols /\ In i rows /\ c i <> 0)) as [H|H]; [exact H|exfalso].
    apply (proj2 Hj). apply zero_all_dropped; auto; [|tauto]. intros c i Hc Hir. destruct (Req_EM_T (c i) 0); [assumption|]. exfalso. apply H. now exists c, i. }
  split.
  - intros H. unfold solve_ols in H. destruct (Nat.ltb (length rows) (length cols)) eqn:En; [discriminate|]. apply Nat.ltb_ge in En. split; [exact En|].
    destruct (parse_action action) as [act|] eqn:Ea; [|discriminate]. assert (Ea2 := proj1 (PA act) eq_refl).
    destruct (qr rows cols) as [|d0 d] eqn:Eq.
    + destruct act; [left; split; [now left|]|now right|left; split; [now right|]].
      all: rewrite kept_cols_nil, seq_length in NZ; destruct cols; [now left|right; apply NZ; discriminate].
    + destruct act; [left; split; [now left|right]|discriminate|left; split; [now right|right]].
      all: apply NZ; cbv zeta in H; destruct (Nat.eqb_spec (length (kept_cols (length cols) (d0 :: d))) 0); [discriminate|assumption].
  - intros (Hn & H). unfold solve_ols. rewrite (proj2 (Nat.ltb_ge _ _) Hn).
    destruct H as [[Ha Hz]|[-> Hq]]; [|rewrite Hq; reflexivity].
    assert (Hd : qr rows cols = [] \/ Nat.eqb (length (kept_cols (length cols) (qr rows cols))) 0 = false).
    { destruct Hz as [-> | (c & i & Hc & Hi & Hci)]; [|right; eapply kept_nonzero; eauto]. left.
      destruct (qr rows []) as [|j l] eqn:E; [easy|]. destruct (Hqr rows []) as [Hd _]. rewrite E in Hd. destruct (Hd j (or_introl eq_refl)) as [Hj _]. cbn in Hj. lia. }
    destruct Hd as [-> | Hd]; [destruct Ha as [-> | ->]; reflexivity|].
    destruct (qr rows cols) as [|d0 d]; [destruct Ha as [-> | ->]; reflexivity|]. cbv zeta. rewrite Hd. destruct Ha as [-> | ->]; reflexivity.
Qed.

Theorem solve_ols_warns rows cols y cluster rv action o :
  solve rows cols y cluster rv action = Ok o ->
  (o_warned o = true <-> qr rows cols <> [] /\ action = "warn"%string).
Proof.
  intros H. destruct (solve_ols_shape _ _ _ _ _ _ _ H) as (_ & _ & _ & _ & Hw & _).
  rewrite Hw, Bool.andb_true_iff, Bool.negb_true_iff, String.eqb_eq, Nat.eqb_neq.
  destruct (qr rows cols); simpl; split; intros [? ?]; split; auto; try congruence; lia.
Qed.

(* "warn" and "silent" return the same numbers *)
Theorem solve_ols_warn_silent rows cols y cluster rv o o' :
  solve rows cols y cluster rv "warn" = Ok o -> solve rows cols y cluster rv "silent" = Ok o' ->
  o_coef o = o_coef o' /\ (forall i, o_fitted o i = o_fitted o' i) /\
  (forall i, o_resid o i = o_resid o' i) /\ o_vcov o = o_vcov o'.
Proof.
  unfold solve_ols. intros H H'. destruct (Nat.ltb _ _); [discriminate|]. simpl in *.
  destruct (qr rows cols).
  - rewrite H in H'. injection H' as <-. auto.
  - destruct (Nat.eqb _ 0); [discriminate|]. destruct rv.
    + destruct (robust_vcov _ _ _ _ _ _) as [V|]; [|discriminate]. simpl in *.
      injection H as <-. injection H' as <-. simpl. auto.
    + injection H as <-. injection H' as <-. simpl. auto.
Qed.

(* full-rank designs keep every column and the coefficients are the unique minimiser *)
Theorem solve_ols_full_rank rows cols y cluster rv action o :
  indep rows cols -> solve rows cols y cluster rv action = Ok o ->
  exists b, o_coef o = map Fin b /\ length b = length cols /\
    (forall b', is_ls rows cols y b' <-> b' = b).
Proof.
  intros Hi H. pose proof (qr_indep_none qr rows cols Hqr Hi) as Hq.
  destruct (solve_ols_shape _ _ _ _ _ _ _ H) as (Lb & Hc & _).
  rewrite Hq in *. rewrite select_cols_full in *.
  exists (lstsq rows cols y). pose proof (Hls rows cols y) as HL.
  assert (L : length (lstsq rows cols y) = length cols) by apply HL.
  split; [rewrite Hc; apply expand_coef_full; auto|]. split; auto.
  intros b'. split.
  - intros Hb'. apply (ls_coef_unique rows cols y); auto.
  - intros ->; auto.
Qed.

End SolveThms.

(* ---------- covariance ---------- *)
Section VcovThms.
Context {I K : Type} (eqd : forall x y : K, {x = y} + {x <> y}).
Variable inv : list I -> list (I -> R) -> option (nat -> nat -> R).
Hypothesis Hinv : inv_ok inv.

Definition meat_of (rows : list I) (cols : list (I -> R)) (e : I -> R) (cluster : option (I -> K)) : nat -> nat -> R :=
  match cluster with None => hc1_meat rows cols e | Some cl => cl_meat eqd rows cols e cl end.
Definition adj_of (rows : list I) (cols : list (I -> R)) (cluster : option (I -> K)) : R :=
  let n := INR (length rows) in let k := INR (length cols) in
  match cluster with
  | None => n / (n - k)
  | Some cl => let G := INR (length (cl_keys eqd rows cl)) in (G / (G - 1)) * ((n - 1) / (n - k))
  end.

Lemma robust_vcov_shape rows cols e cluster V :
  robust_vcov eqd inv rows cols e cluster = Ok V ->
  length rows <> length cols /\
  (forall cl, cluster = Some cl -> (2 <= length (cl_keys eqd rows cl))%nat) /\
  exists B, is_inverse rows cols B /\
    V = sandwich (length cols) (adj_of rows cols cluster) B (meat_of rows cols e cluster).
Proof.
  unfold robust_vcov, adj_of, meat_of. pose proof (Hinv rows cols) as HB.
  destruct cluster as [cl|].
  - destruct (Nat.ltb _ 2) eqn:E1; [discriminate|]. apply Nat.ltb_ge in E1.
    destruct (Nat.eqb _ _) eqn:E2; [discriminate|]. apply Nat.eqb_neq in E2.
    destruct (inv rows cols) as [B|]; [|discriminate]. intros H; injection H as <-.
    repeat split; auto. intros cl' Hcl; injection Hcl as <-; auto. eauto.
  - destruct (Nat.eqb _ _) eqn:E2; [discriminate|]. apply Nat.eqb_neq in E2.
    destruct (inv rows cols) as [B|]; [|discriminate]. intros H; injection H as <-.
    repeat split; auto. discriminate. eauto.
Qed.

Lemma adj_nonneg rows cols cluster :
  (length cols <= length rows)%nat -> length rows <> length cols ->
  (forall cl, cluster = Some cl -> (2 <= length (cl_keys eqd rows cl))%nat) ->
  0 <= adj_of rows cols cluster.
Proof.
  intros Hle Hne Hcl. unfold adj_of.
  assert (Hn : 0 < INR (length rows) - INR (length cols)).
  { assert (length cols < length rows)%nat by lia. apply lt_INR in H. lra. }
  assert (Hn1 : 1 <= INR (length rows)).
  { assert (1 <= length rows)%nat by lia. apply le_INR in H. simpl in H; lra. }
  destruct cluster as [cl|].
  - specialize (Hcl cl eq_refl). apply le_INR in Hcl. simpl in Hcl.
    apply Rmult_le_pos; apply Rmult_le_pos; try lra; left; apply Rinv_0_lt_compat; lra.
  - apply Rmult_le_pos; [lra|]. left; apply Rinv_0_lt_compat; lra.
Qed.

(* C06: symmetric and positive semidefinite *)
Theorem robust_vcov_sym rows cols e cluster V :
  robust_vcov eqd inv rows cols e cluster = Ok V -> forall j m, V j m = V m j.
Proof.
  intros H j m. destruct (robust_vcov_shape _ _ _ _ _ H) as (_ & _ & B & _ & ->).
  destruct cluster as [cl|]; simpl.
  - apply (sandwich_sym_outer _ _ _ (cl_keys eqd rows cl) (fun g a => cl_score eqd rows cols e cl g a)); reflexivity.
  - apply (sandwich_sym_outer _ _ _ rows (fun i a => colx cols a i * e i)). intros; apply hc1_outer.
Qed.

Theorem robust_vcov_psd rows cols e cluster V :
  (length cols <= length rows)%nat ->
  robust_vcov eqd inv rows cols e cluster = Ok V ->
  forall v : nat -> R,
    0 <= sumf (fun j => sumf (fun m => v j * V j m * v m) (seq 0 (length cols))) (seq 0 (length cols)).
Proof.
  intros Hle H v. destruct (robust_vcov_shape _ _ _ _ _ H) as (Hne & Hcl & B & _ & ->).
  pose proof (adj_nonneg rows cols cluster Hle Hne Hcl) as Hadj.
  destruct cluster as [cl|]; simpl.
  - apply (sandwich_psd_outer _ _ _ (cl_keys eqd rows cl) (fun g a => cl_score eqd rows cols e cl g a)); auto.
  - apply (sandwich_psd_outer _ _ _ rows (fun i a => colx cols a i * e i)); auto. intros; apply hc1_outer.
Qed.

Theorem robust_vcov_diag_nonneg rows cols e cluster V :
  (length cols <= length rows)%nat ->
  robust_vcov eqd inv rows cols e cluster = Ok V -> forall j, 0 <= V j j.
Proof.
  intros Hle H j. destruct (robust_vcov_shape _ _ _ _ _ H) as (Hne & Hcl & B & _ & ->).
  pose proof (adj_nonneg rows cols cluster Hle Hne Hcl) as Hadj.
  destruct cluster as [cl|]; simpl.
  - apply (sandwich_diag_nonneg _ _ _ (cl_keys eqd rows cl) (fun g a => cl_score eqd rows cols e cl g a)); auto.
  - apply (sandwich_diag_nonneg _ _ _ rows (fun i a => colx cols a i * e i)); auto. intros; apply hc1_outer.
Qed.

(* one row per cluster is HC1, exactly *)
Theorem unique_clusters_hc1 rows cols e (cl : I -> K) V Vc :
  NoDup (map cl rows) ->
  robust_vcov eqd inv rows cols e (Some cl) = Ok Vc ->
  robust_vcov (K := K) eqd inv rows cols e None = Ok V ->
  forall j m, (j < length cols)%nat -> (m < length cols)%nat -> Vc j m = V j m.
Proof.
  intros Hnd Hc Hv j m Hj Hm.
  destruct (robust_vcov_shape _ _ _ _ _ Hc) as (Hne & Hcl & B & HB & ->).
  destruct (robust_vcov_shape _ _ _ _ _ Hv) as (_ & _ & B' & HB' & ->).
  specialize (Hcl cl eq_refl).
  assert (HG : length (cl_keys eqd rows cl) = length rows).
  { unfold cl_keys. rewrite nodup_id by auto. apply map_length. }
  apply sandwich_ext; auto.
  - unfold adj_of. rewrite HG. rewrite HG in Hcl. apply le_INR in Hcl. simpl in Hcl.
    assert (INR (length rows) - INR (length cols) <> 0).
    { intros E. apply Hne. apply INR_eq. lra. }
    field. split; lra.
  - intros a b Ha Hb. apply (inverse_unique rows cols); auto.
  - intros a b _ _. simpl. apply cl_meat_unique; auto.
Qed.

(* and the clustered call succeeds whenever HC1 does and there are two rows *)
Theorem unique_clusters_ok rows cols e (cl : I -> K) V :
  NoDup (map cl rows) -> (2 <= length rows)%nat ->
  robust_vcov (K := K) eqd inv rows cols e None = Ok V ->
  exists Vc, robust_vcov eqd inv rows cols e (Some cl) = Ok Vc.
Proof.
  intros Hnd H2 H. unfold robust_vcov in *.
  assert (HG : length (cl_keys eqd rows cl) = length rows).
  { unfold cl_keys. rewrite nodup_id by auto. apply map_length. }
  rewrite HG. replace (Nat.ltb (length rows) 2) with false by (symmetry; apply Nat.ltb_ge; lia).
  destruct (Nat.eqb _ _); [discriminate|]. destruct (inv rows cols); [|discriminate]. eauto.
Qed.

(* C03: row order *)
Theorem robust_vcov_perm r1 r2 cols e cluster V1 V2 :
  Permutation r1 r2 ->
  robust_vcov eqd inv r1 cols e cluster = Ok V1 -> robust_vcov eqd inv r2 cols e cluster = Ok V2 ->
  forall j m, (j < length cols)%nat -> (m < length cols)%nat -> V1 j m = V2 j m.
Proof.
  intros P H1 H2 j m Hj Hm.
  destruct (robust_vcov_shape _ _ _ _ _ H1) as (_ & _ & B1 & HB1 & ->).
  destruct (robust_vcov_shape _ _ _ _ _ H2) as (_ & _ & B2 & HB2 & ->).
  apply sandwich_ext; auto.
  - unfold adj_of. rewrite (Permutation_length P). destruct cluster as [cl|]; auto.
    rewrite (Permutation_length (cl_keys_perm eqd r1 r2 cl P)). reflexivity.
  - apply (inverse_unique r2 cols); auto. apply (is_inverse_perm r1); auto.
  - intros a b _ _. destruct cluster; simpl.
    + apply cl_meat_perm; auto.
    + apply hc1_meat_perm; auto.
Qed.

Theorem robust_vcov_resid_ext rows cols e e' cluster V V' :
  (forall i, In i rows -> e i = e' i) ->
  robust_vcov eqd inv rows cols e cluster = Ok V -> robust_vcov eqd inv rows cols e' cluster = Ok V' ->
  forall j m, (j < length cols)%nat -> (m < length cols)%nat -> V j m = V' j m.
Proof.
  intros He H1 H2 j m Hj Hm.
  destruct (robust_vcov_shape _ _ _ _ _ H1) as (_ & _ & B1 & HB1 & ->).
  destruct (robust_vcov_shape _ _ _ _ _ H2) as (_ & _ & B2 & HB2 & ->).
  apply sandwich_ext; auto.
  - apply (inverse_unique rows cols); auto.
  - intros a b _ _. destruct cluster; simpl.
    + apply cl_meat_ext; auto.
    + apply hc1_meat_ext; auto.
Qed.

Lemma robust_vcov_defined rows cols e e' cluster :
  is_ok (robust_vcov eqd inv rows cols e cluster) = is_ok (robust_vcov eqd inv rows cols e' cluster).
Proof.
  unfold robust_vcov. destruct cluster.
  - destruct (Nat.ltb _ _); auto. destruct (Nat.eqb _ _); auto. destruct (inv rows cols); auto.
  - destruct (Nat.eqb _ _); auto. destruct (inv rows cols); auto.
Qed.

(* C02 support: residuals scaled by s scale the covariance by s^2 *)
Theorem robust_vcov_scale rows cols e s cluster V V' :
  robust_vcov eqd inv rows cols e cluster = Ok V ->
  robust_vcov eqd inv rows cols (fun i => s * e i) cluster = Ok V' ->
  forall j m, (j < length cols)%nat -> (m < length cols)%nat -> V' j m = s * s * V j m.
Proof.
  intros H1 H2 j m Hj Hm.
  destruct (robust_vcov_shape _ _ _ _ _ H1) as (_ & _ & B1 & HB1 & ->).
  destruct (robust_vcov_shape _ _ _ _ _ H2) as (_ & _ & B2 & HB2 & ->).
  rewrite (sandwich_ext _ _ (adj_of rows cols cluster) B2 B1 _ (fun a b => s * s * meat_of rows cols e cluster a b)); auto.
  - unfold sandwich. set (k := length cols).
    transitivity (adj_of rows cols cluster * (s * s * sumf (fun a => sumf (fun b => B1 j a * meat_of rows cols e cluster a b * B1 m b) (seq 0 k)) (seq 0 k))); [|ring].
    f_equal. rewrite <- sumf_scal. apply sumf_ext_all; intros a. rewrite <- sumf_scal. apply sumf_ext_all; intros; ring.
  - apply (inverse_unique rows cols); auto.
  - intros a b _ _. destruct cluster as [cl|]; simpl.
    + unfold cl_meat. rewrite <- sumf_scal. apply sumf_ext_all; intros g. unfold cl_score.
      rewrite (sumf_ext_all (fun i => colx cols a i * (s * e i)) (fun i => s * (colx cols a i * e i))) by (intros; ring).
      rewrite (sumf_ext_all (fun i => colx cols b i * (s * e i)) (fun i => s * (colx cols b i * e i))) by (intros; ring).
      rewrite !sumf_scal. ring.
    + unfold hc1_meat. rewrite <- sumf_scal. apply sumf_ext_all; intros; ring.
Qed.

End VcovThms.

(* renaming cluster labels *)
Theorem robust_vcov_relabel {I K L} (eqK : forall x y : K, {x = y} + {x <> y}) (eqL : forall x y : L, {x = y} + {x <> y})
  (inv : list I -> list (I -> R) -> option (nat -> nat -> R)) rows cols e (cl : I -> K) (f : K -> L) :
  (forall x y, In x (map cl rows) -> In y (map cl rows) -> f x = f y -> x = y) ->
  match robust_vcov eqK inv rows cols e (Some cl), robust_vcov eqL inv rows cols e (Some (fun i => f (cl i))) with
  | Ok V, Ok V' => forall j m, (j < length cols)%nat -> (m < length cols)%nat -> V' j m = V j m
  | Err x, Err x' => x = x'
  | _, _ => False
  end.
Proof.
  intros Hf. unfold robust_vcov. rewrite (cl_keys_relabel eqK eqL) by auto. rewrite map_length.
  destruct (Nat.ltb _ 2); auto. destruct (Nat.eqb _ _); auto. destruct (inv rows cols); auto.
  intros j m Hj Hm. apply sandwich_ext; auto. intros; apply cl_meat_relabel; auto.
Qed.

(* NumPy and Rust compute the same sandwich *)
Theorem rust_python_sandwich {I} rows (cols : list (I -> R)) B adj M j m :
  is_inverse rows cols B -> (j < length cols)%nat -> (m < length cols)%nat ->
  sandwich_rust (length cols) adj B M j m = sandwich (length cols) adj B M j m.
Proof. intros H Hj Hm. apply sandwich_rust_eq; auto. apply (is_inverse_sym rows); auto. Qed.

(* ---------- R squared ---------- *)
Section R2.
Context {I : Type}.
Implicit Types (rows : list I) (y e : I -> R).

Definition ss_tot rows y := sumf (fun i => (y i - meanf y rows) * (y i - meanf y rows)) rows.
Definition ss_res rows e := sumf (fun i => e i * e i) rows.

Lemma ss_tot_min rows y c : ss_tot rows y <= sumf (fun i => (y i - c) * (y i - c)) rows.
Proof.
  destruct rows as [|i0 rows]; [simpl; unfold ss_tot; simpl; lra|].
  set (r := i0 :: rows). set (m := meanf y r).
  assert (Hd : sumf (fun i => y i - m) r = 0) by (apply sumf_dev; discriminate).
  apply Rle_trans with (ss_tot r y + len r * ((m - c) * (m - c))).
  - pose proof (len_nonneg r). assert (0 <= len r * ((m - c) * (m - c))) by (apply Rmult_le_pos; [assumption|apply sq_nonneg]). lra.
  - right. unfold ss_tot. fold m. rewrite <- sumf_const.
    replace (sumf (fun i => (y i - c) * (y i - c)) r)
      with (sumf (fun i => (y i - m) * (y i - m) + 2 * (m - c) * (y i - m) + (m - c) * (m - c)) r)
      by (apply sumf_ext_all; intros; ring).
    rewrite !sumf_add, (sumf_scal (2 * (m - c)) (fun i => y i - m)), Hd. ring.
Qed.

Theorem r_squared_bounds rows cols y b n_params :
  is_ls rows cols y b -> span rows cols (fun _ => 1) ->
  let e := fun i => y i - lc cols b i in
  0 <= r_squared rows y e false n_params <= 1.
Proof.
  intros Hb (a & La & Ha) e. unfold r_squared.
  fold (ss_res rows e). change (sumf (fun i => (y i - meanf y rows) * (y i - meanf y rows)) rows) with (ss_tot rows y).
  destruct (Req_EM_T (ss_tot rows y) 0) as [H0|H0]; [lra|].
  assert (Hpos : 0 <= ss_tot rows y) by (apply sumf_nonneg; intros; apply sq_nonneg).
  assert (Hr : 0 <= ss_res rows e) by (apply sumf_nonneg; intros; apply sq_nonneg).
  assert (Hle : ss_res rows e <= ss_tot rows y).
  { pose proof (ls_minimises rows cols y b (vscal (meanf y rows) a) Hb) as Hm.
    rewrite vscal_length in Hm. specialize (Hm La). unfold ip in Hm. unfold ss_res, e.
    eapply Rle_trans; [exact Hm|]. right. apply sumf_ext. intros i Hi.
    rewrite lc_vscal, <- (Ha i Hi). ring. }
  assert (0 < ss_tot rows y) by lra.
  assert (0 <= ss_res rows e / ss_tot rows y <= 1).
  { split; [apply Rmult_le_pos; [lra|left; apply Rinv_0_lt_compat; lra]|].
    apply (Rmult_le_reg_r (ss_tot rows y)); auto. unfold Rdiv. rewrite Rmult_assoc, Rinv_l by lra. lra. }
  lra.
Qed.

(* adding columns never lowers R squared *)
Theorem r_squared_monotone rows cols extra y b b' n n' :
  is_ls rows cols y b -> is_ls rows (cols ++ extra) y b' ->
  r_squared rows y (fun i => y i - lc cols b i) false n
  <= r_squared rows y (fun i => y i - lc (cols ++ extra) b' i) false n'.
Proof.
  intros Hb Hb'. unfold r_squared.
  destruct (Req_EM_T _ 0) as [H0|H0]; [lra|].
  change (sumf (fun i => (y i - meanf y rows) * (y i - meanf y rows)) rows) with (ss_tot rows y) in *.
  assert (Hpos : 0 <= ss_tot rows y) by (apply sumf_nonneg; intros; apply sq_nonneg).
  assert (Hle : ss_res rows (fun i => y i - lc (cols ++ extra) b' i) <= ss_res rows (fun i => y i - lc cols b i)).
  { pose proof (ls_minimises rows (cols ++ extra) y b' (b ++ repeat 0 (length extra)) Hb') as Hm.
    assert (Lb : length b = length cols) by apply Hb.
    rewrite !app_length, repeat_length, Lb in Hm. specialize (Hm eq_refl). unfold ip in Hm. unfold ss_res.
    eapply Rle_trans; [exact Hm|]. right. apply sumf_ext. intros i _.
    rewrite lc_app, lc_repeat0 by auto. ring. }
  unfold ss_res in Hle.
  assert (Hi : 0 <= / ss_tot rows y) by (left; apply Rinv_0_lt_compat; lra).
  unfold Rdiv. pose proof (Rmult_le_compat_r _ _ _ Hi Hle). lra.
Qed.

(* scaling and shifting the outcome (residuals scale) leaves R squared unchanged *)
Theorem r_squared_affine rows y e s c adjusted n :
  s <> 0 -> rows <> [] ->
  r_squared rows (fun i => s * y i + c) (fun i => s * e i) adjusted n = r_squared rows y e adjusted n.
Proof.
  intros Hs Hr. unfold r_squared.
  assert (Hm : meanf (fun i => s * y i + c) rows = s * meanf y rows + c).
  { rewrite meanf_add, meanf_scal, meanf_const by auto. reflexivity. }
  assert (E1 : sumf (fun i => (s * y i + c - meanf (fun i => s * y i + c) rows) * (s * y i + c - meanf (fun i => s * y i + c) rows)) rows
               = s * s * sumf (fun i => (y i - meanf y rows) * (y i - meanf y rows)) rows).
  { rewrite Hm, <- sumf_scal. apply sumf_ext_all; intros; ring. }
  assert (E2 : sumf (fun i => s * e i * (s * e i)) rows = s * s * sumf (fun i => e i * e i) rows).
  { rewrite <- sumf_scal. apply sumf_ext_all; intros; ring. }
  rewrite E1, E2. set (T := sumf (fun i => (y i - meanf y rows) * (y i - meanf y rows)) rows).
  destruct (Req_EM_T (s * s * T) 0) as [H1|H1], (Req_EM_T T 0) as [H2|H2]; auto.
  - exfalso. apply Rmult_integral in H1. destruct H1; [|auto]. apply Rmult_integral in H. tauto.
  - exfalso. apply H1. rewrite H2; ring.
  - replace (s * s * sumf (fun i => e i * e i) rows / (s * s * T)) with (sumf (fun i => e i * e i) rows / T).
    + reflexivity.
    + field. split; auto.
Qed.

Theorem r_squared_adjusted_le rows y e n :
  (1 <= n)%nat -> r_squared rows y e true n <= r_squared rows y e false n.
Proof.
  intros Hn. unfold r_squared. destruct (Req_EM_T _ 0) as [H0|H0]; [lra|].
  destruct (Nat.leb (length rows) n) eqn:E; [lra|]. apply Nat.leb_gt in E.
  set (q := sumf (fun i => e i * e i) rows / _).
  assert (Hq : 0 <= q).
  { unfold q. apply Rmult_le_pos; [apply sumf_nonneg; intros; apply sq_nonneg|]. left; apply Rinv_0_lt_compat.
    assert (0 <= sumf (fun i => (y i - meanf y rows) * (y i - meanf y rows)) rows) by (apply sumf_nonneg; intros; apply sq_nonneg).
    lra. }
  apply lt_INR in E. apply le_INR in Hn. simpl in Hn.
  replace (1 - (1 - q)) with q by ring.
  assert (q <= q * (INR (length rows) - 1) / (INR (length rows) - INR n)).
  { apply (Rmult_le_reg_r (INR (length rows) - INR n)); [lra|].
    unfold Rdiv. rewrite Rmult_assoc, Rinv_l by lra. nra. }
  lra.
Qed.
End R2.

(* ---------- inference ---------- *)
(* What is used of scipy.stats.t / norm: tails are NaN-propagating, 0 at +inf, in (0,1) at finite
   points, and the quantile at 1-a/2 is where twice the upper tail equals a. *)
Record dist_ok (sf : option Z -> fl -> fl) (ppf : option Z -> R -> R) : Prop := {
  d_nan : forall df, sf df NaN = NaN;
  d_inf : forall df, sf df PInf = Fin 0;
  d_fin : forall df x, exists p, sf df (Fin x) = Fin p /\ 0 < p < 1;
  d_zero : forall df, sf df (Fin 0) = Fin (1/2);
  d_half : forall df x p, 0 <= x -> sf df (Fin x) = Fin p -> p <= 1/2;
  d_dual : forall df x p a, 0 <= x -> sf df (Fin x) = Fin p -> 0 < a < 1 -> (2 * p < a <-> ppf df (1 - a / 2) < x);
  d_pos : forall df a, 0 < a < 1 -> 0 < ppf df (1 - a / 2)
}.

(* a distribution meeting it: sf(x) = 1/(2(1+x)) for x >= 0 *)
Definition toy_sf (df : option Z) (x : fl) : fl :=
  match x with
  | Fin r => if Rle_dec 0 r then Fin (1 / (2 * (1 + r))) else Fin (1 - 1 / (2 * (1 - r)))
  | NaN => NaN | PInf => Fin 0 | NInf => Fin 1
  end.
Definition toy_ppf (df : option Z) (q : R) : R := 1 / (2 * (1 - q)) - 1.

Lemma toy_dist_ok : dist_ok toy_sf toy_ppf.
Proof.
  assert (Hlt : forall r, 0 <= r -> 0 < 1 / (2 * (1 + r)) <= 1/2).
  { intros r Hr. split.
    - apply Rmult_lt_0_compat; [lra|]. apply Rinv_0_lt_compat; lra.
    - apply (Rmult_le_reg_r (2 * (1 + r))); [lra|]. unfold Rdiv. rewrite (Rmult_assoc 1), Rinv_l by lra. lra. }
  constructor; intros; simpl; auto.
  - destruct (Rle_dec 0 x) as [H|H].
    + exists (1 / (2 * (1 + x))). split; auto. pose proof (Hlt x H); lra.
    + exists (1 - 1 / (2 * (1 - x))). split; auto. pose proof (Hlt (- x)).
      replace (1 - x) with (1 + - x) by ring. lra.
  - destruct (Rle_dec 0 0); [|lra]. f_equal. field.
  - simpl in H0. destruct (Rle_dec 0 x); [|lra]. injection H0 as <-. apply Hlt; auto.
  - simpl in H0. destruct (Rle_dec 0 x); [|lra]. injection H0 as <-.
    unfold toy_ppf. replace (2 * (1 - (1 - a / 2))) with a by field.
    replace (2 * (1 / (2 * (1 + x)))) with (/ (1 + x)) by (field; lra).
    assert (Ha : 0 < a) by lra. split; intros Hx.
    + apply Rinv_lt_contravar in Hx; [rewrite Rinv_inv in Hx; unfold Rdiv; lra|].
      apply Rmult_lt_0_compat; auto. apply Rinv_0_lt_compat; lra.
    + assert (/ a < 1 + x) by (unfold Rdiv in Hx; lra).
      apply Rinv_lt_contravar in H0; [rewrite Rinv_inv in H0; auto|].
      apply Rmult_lt_0_compat; [apply Rinv_0_lt_compat; auto|lra].
  - unfold toy_ppf. replace (2 * (1 - (1 - a / 2))) with a by field.
    assert (1 < / a) by (rewrite <- Rinv_1; apply Rinv_lt_contravar; lra). unfold Rdiv; lra.
Qed.

Section InferenceThms.
Variable sf : option Z -> fl -> fl.
Variable ppf : option Z -> R -> R.
Hypothesis Hd : dist_ok sf ppf.

Notation ginf := (get_inference sf ppf).

Lemma sqrt_fin v : 0 <= v -> fsqrt (Fin v) = Fin (sqrt v).
Proof. intros H. simpl. destruct (Rlt_dec v 0); [lra|reflexivity]. Qed.

(* positive finite variance: everything is finite and mutually consistent *)
Theorem inference_coherent b v alpha_arg df_arg self_alpha self_df :
  0 < v ->
  let alpha := match alpha_arg with Some a => a | None => self_alpha end in
  0 < alpha < 1 ->
  let r := ginf (Fin b) (Fin v) alpha_arg df_arg self_alpha self_df in
  exists se t p lo hi,
    i_coef r = Fin b /\ i_se r = Fin se /\ i_t r = Fin t /\ i_p r = Fin p /\ i_ci r = (Fin lo, Fin hi) /\
    0 < se /\ se * se = v /\ t = b / se /\ 0 < p <= 1 /\
    lo < b < hi /\ b - lo = hi - b /\
    (p < alpha <-> (hi < 0 \/ 0 < lo)) /\
    (is_significant r None = true <-> (hi < 0 \/ 0 < lo)).
Proof.
  intros Hv alpha Ha r.
  assert (Hs : 0 < sqrt v) by (apply sqrt_lt_R0; auto).
  set (se := sqrt v) in *.
  set (df := use_df (match df_arg with Some d => Some d | None => Some self_df end)).
  assert (Hdf : use_df df = df).
  { unfold df, use_df. destruct (match df_arg with Some d => Some d | None => Some self_df end) as [d|]; auto.
    destruct (Z.ltb 0 d) eqn:E; auto. rewrite E; auto. }
  set (c := ppf df (1 - alpha / 2)).
  assert (Hc : 0 < c) by (apply (d_pos _ _ Hd); auto).
  destruct (d_fin _ _ Hd df (Rabs (b / se))) as (p0 & Hp0 & Hp1).
  assert (Hr : r = {| i_coef := Fin b; i_se := Fin se; i_t := Fin (b / se); i_p := Fin (2 * p0);
                      i_ci := (Fin (b + - (c * se)), Fin (b + c * se)); i_df := df; i_alpha := alpha |}).
  { unfold r, get_inference. rewrite sqrt_fin by lra. fold se.
    simpl fle. replace (Rleb se 0) with false by (symmetry; apply Rleb_false; auto).
    unfold fdiv. destruct (Req_EM_T se 0); [lra|].
    fold df. unfold compute_p_value, compute_ci. rewrite Hdf. simpl fabs. rewrite Hp0. reflexivity. }
  exists se, (b / se), (2 * p0), (b + - (c * se)), (b + c * se).
  assert (Hiff : 2 * p0 < alpha <-> b + c * se < 0 \/ 0 < b + - (c * se)).
  { rewrite (d_dual _ _ Hd df (Rabs (b / se)) p0 alpha) by (auto; apply Rabs_pos). fold c.
    assert (Hdiv : Rabs (b / se) = Rabs b / se).
    { unfold Rdiv. rewrite Rabs_mult. f_equal. apply Rabs_right. left. apply Rinv_0_lt_compat; auto. }
    rewrite Hdiv.
    assert (c < Rabs b / se <-> c * se < Rabs b).
    { split; intros H.
      - apply (Rmult_lt_compat_r se) in H; auto. unfold Rdiv in H. rewrite Rmult_assoc, Rinv_l in H by lra. lra.
      - apply (Rmult_lt_reg_r se); auto. unfold Rdiv. rewrite Rmult_assoc, Rinv_l by lra. lra. }
    assert (Hcs : 0 < c * se) by (apply Rmult_lt_0_compat; auto).
    rewrite H. unfold Rabs. destruct (Rcase_abs b); split; intros; try lra. }
  assert (0 < c * se) by (apply Rmult_lt_0_compat; auto).
  pose proof (d_half _ _ Hd df _ p0 (Rabs_pos (b / se)) Hp0) as Hhalf.
  rewrite Hr; simpl.
  do 5 (split; [reflexivity|]). split; [exact Hs|]. split; [unfold se; apply sqrt_sqrt; lra|].
  split; [reflexivity|]. do 3 (split; [lra|]). split; [exact Hiff|].
  unfold is_significant; simpl. rewrite Rltb_true. exact Hiff.
Qed.

(* an undefined coefficient or variance never reports as significant, and is NaN throughout *)
Theorem inference_nan coef v alpha_arg df_arg self_alpha self_df :
  coef = NaN \/ v = NaN \/ (exists x, v = Fin x /\ x < 0) ->
  (coef = NaN -> v = NaN \/ exists x, v = Fin x /\ x <> 0) ->
  let r := ginf coef v alpha_arg df_arg self_alpha self_df in
  i_t r = NaN /\ i_p r = NaN /\ i_ci r = (NaN, NaN) /\
  (forall a, is_significant r a = false) /\ stars_inference (i_p r) = ""%string.
Proof.
  intros H Hz r.
  assert (Ht : i_t r = NaN).
  { unfold r; simpl.
    assert (Hx : fsqrt v = NaN \/ (exists s, fsqrt v = Fin s /\ 0 < s /\ coef = NaN)).
    { destruct H as [->|[->|(x & -> & Hx)]].
      - destruct (Hz eq_refl) as [->|(x & -> & Hx)]; [left; reflexivity|].
        simpl. destruct (Rlt_dec x 0); [left; reflexivity|]. right. eexists; split; [reflexivity|]. split; auto.
        apply sqrt_lt_R0; lra.
      - left; reflexivity.
      - left. simpl. destruct (Rlt_dec x 0); [reflexivity|lra]. }
    destruct Hx as [->|(s & -> & Hs & ->)].
    - simpl. apply fdiv_nan_r.
    - simpl. replace (Rleb s 0) with false by (symmetry; apply Rleb_false; auto). reflexivity. }
  assert (Hp : i_p r = NaN).
  { change (i_p r) with (compute_p_value sf (i_t r) (i_df r)). rewrite Ht. unfold compute_p_value.
    simpl fabs. rewrite (d_nan _ _ Hd). reflexivity. }
  assert (Hci : i_ci r = (NaN, NaN)).
  { unfold r; simpl. unfold compute_ci. destruct H as [->|[->|(x & -> & Hx)]].
    - reflexivity.
    - simpl fsqrt. rewrite fmul_nan_r, fsub_nan_r, fadd_nan_r. reflexivity.
    - simpl fsqrt. destruct (Rlt_dec x 0); [|lra]. rewrite fmul_nan_r, fsub_nan_r, fadd_nan_r. reflexivity. }
  repeat split; auto.
  - intros a. unfold is_significant. rewrite Hp. reflexivity.
  - rewrite Hp. reflexivity.
Qed.

(* zero variance: t is +-inf (or 0), p is 0 (or 1) and the interval is the point *)
Theorem inference_zero_se b alpha_arg df_arg self_alpha self_df :
  let r := ginf (Fin b) (Fin 0) alpha_arg df_arg self_alpha self_df in
  (b <> 0 -> i_p r = Fin 0 /\ i_ci r = (Fin b, Fin b) /\ (b > 0 -> i_t r = PInf) /\ (b < 0 -> i_t r = NInf)) /\
  (b = 0 -> i_p r = Fin 1 /\ i_t r = Fin 0 /\ i_ci r = (Fin 0, Fin 0)).
Proof.
  assert (H0 : fsqrt (Fin 0) = Fin 0).
  { simpl. destruct (Rlt_dec 0 0); [lra|]. f_equal; apply sqrt_0. }
  intros r. unfold r, get_inference. rewrite H0. simpl fle.
  replace (Rleb 0 0) with true by (symmetry; apply Rleb_true; lra).
  unfold fgt; simpl flt. split.
  - intros Hb. destruct (Rlt_dec 0 b) as [Hp|Hp].
    + replace (Rltb 0 b) with true by (symmetry; apply Rltb_true; auto). simpl.
      unfold compute_p_value, compute_ci; simpl. rewrite (d_inf _ _ Hd); simpl.
      split; [f_equal; lra|]. split; [f_equal; f_equal; lra|]. split; [auto|lra].
    + replace (Rltb 0 b) with false by (symmetry; apply Rltb_false; lra).
      replace (Rltb b 0) with true by (symmetry; apply Rltb_true; lra). simpl.
      unfold compute_p_value, compute_ci; simpl. rewrite (d_inf _ _ Hd); simpl.
      split; [f_equal; lra|]. split; [f_equal; f_equal; lra|]. split; [lra|auto].
  - intros ->. replace (Rltb 0 0) with false by (symmetry; apply Rltb_false; lra). simpl.
    unfold compute_p_value, compute_ci; simpl. rewrite Rabs_R0, (d_zero _ _ Hd); simpl.
    split; [f_equal; lra|]. split; auto. f_equal; f_equal; lra.
Qed.

End InferenceThms.

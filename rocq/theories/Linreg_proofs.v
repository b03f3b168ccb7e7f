(* Proofs about the LinearRegression helper object. *)
From Coq Require Import Reals Lra Lia.
From Verif Require Import Prelude Flt Linalg_model Linalg_proofs Linalg_vcov Linalg_thms Linalg_dual Linalg_rank Linalg_span Did_proofs Trop_sel Linreg_model.
From Coq Require Import Arith ZArith String List.
Import ListNotations.
Open Scope R_scope.

Lemma py_index_ok k i j : py_index k i = Ok j <-> (- Z.of_nat k <= i < Z.of_nat k)%Z /\ j = Z.to_nat (if Z.ltb i 0 then i + Z.of_nat k else i)%Z.
Proof.
  unfold py_index. destruct (Z.ltb_spec i 0) as [H|H].
  - destruct (Z.leb_spec 0 (i + Z.of_nat k)), (Z.ltb_spec (i + Z.of_nat k) (Z.of_nat k)); cbn; split; try discriminate; try (intros [? ?]; lia); try (intros E; injection E as <-; split; [lia|reflexivity]).
    intros [_ ->]. reflexivity.
  - destruct (Z.leb_spec 0 i), (Z.ltb_spec i (Z.of_nat k)); cbn; split; try discriminate; try (intros [? ?]; lia); try (intros E; injection E as <-; split; [lia|reflexivity]).
    intros [_ ->]. reflexivity.
Qed.
Lemma py_index_err k i e : py_index k i = Err e <-> e = IndexError /\ ~ (- Z.of_nat k <= i < Z.of_nat k)%Z.
Proof.
  unfold py_index. destruct (Z.ltb_spec i 0) as [H|H].
  - destruct (Z.leb_spec 0 (i + Z.of_nat k)), (Z.ltb_spec (i + Z.of_nat k) (Z.of_nat k)); cbn; split; try discriminate; try (intros [? ?]; lia); try (intros E; injection E as <-; split; [reflexivity|lia]).
    all: intros [-> _]; reflexivity.
  - destruct (Z.leb_spec 0 i), (Z.ltb_spec i (Z.of_nat k)); cbn; split; try discriminate; try (intros [? ?]; lia); try (intros E; injection E as <-; split; [reflexivity|lia]).
    all: intros [-> _]; reflexivity.
Qed.

Lemma put_lookup {A} (d : list (Z * A)) k v k' : lookup (put d k v) k' = if Z.eqb k' k then Some v else lookup d k'.
Proof.
  induction d as [|[k0 v0] d IH]; cbn; [reflexivity|]. destruct (Z.eqb_spec k k0) as [->|N]; cbn.
  - now destruct (Z.eqb k' k0).
  - destruct (Z.eqb_spec k' k0) as [->|N']; [|exact IH]. now replace (Z.eqb k0 k) with false by (symmetry; apply Z.eqb_neq; congruence).
Qed.
Lemma put_keys {A} (d : list (Z * A)) k v : map fst (put d k v) = if in_dec Z.eq_dec k (map fst d) then map fst d else map fst d ++ [k].
Proof.
  induction d as [|[k0 v0] d IH]; [reflexivity|]. cbn [put]. destruct (Z.eqb_spec k k0) as [->|N]; cbn [map fst].
  - destruct (in_dec Z.eq_dec k0 (k0 :: map fst d)) as [H|H]; [reflexivity|]. exfalso. apply H. now left.
  - rewrite IH. destruct (in_dec Z.eq_dec k (map fst d)) as [A1|A1], (in_dec Z.eq_dec k (k0 :: map fst d)) as [A2|A2]; try reflexivity.
    + exfalso. apply A2. now right.
    + destruct A2 as [A2|A2]; [congruence|contradiction].
Qed.

Section LR.
Context {I K : Type} (eqd : forall x y : K, {x = y} + {x <> y}).
Variable qr : list I -> list (I -> R) -> list nat.
Variable lstsq : list I -> list (I -> R) -> (I -> R) -> list R.
Variable inv : list I -> list (I -> R) -> option (nat -> nat -> R).
Variable pinv : list I -> list (I -> R) -> nat -> nat -> R.
Variable sf : option Z -> fl -> fl.
Variable ppf : option Z -> R -> R.
Hypothesis Hqr : qr_ok qr.
Hypothesis Hls : lstsq_ok lstsq.
Hypothesis Hinv : inv_ok inv.
Notation cfgT := (lr_cfg I K).
Notation state := (lr_state I).
Notation fit := (lr_fit eqd qr lstsq inv pinv).
Notation inf := (lr_inference sf ppf).

Theorem lr_unfitted (cfg : cfgT) i l alpha df adj {J} (X : list (J -> R)) :
  @lr_coefficient I None i = Err ValueError /\ @lr_se I None i = Err ValueError /\ inf cfg None i alpha df = Err ValueError /\
  lr_batch sf ppf cfg None l alpha df = Err ValueError /\ lr_all sf ppf cfg None alpha df = Err ValueError /\
  @lr_r2 I None adj = Err ValueError /\ lr_predict cfg None X = Err ValueError.
Proof. repeat split. Qed.

Lemma lr_fit_inv (cfg : cfgT) st rows X y cl adj u st' : fit cfg st rows X y cl adj = (Ok u, st') ->
  exists f, st' = Some f /\ f_rows f = rows /\ f_y f = y /\ f_X f = with_intercept cfg X /\
    linreg_fit eqd qr lstsq inv pinv (c_robust cfg) (match cl with Some c => Some c | None => c_cluster cfg end) (c_action cfg) adj rows (with_intercept cfg X) y = Ok (f_reg f) /\
    length (l_coef (f_reg f)) = length (with_intercept cfg X).
Proof.
  unfold lr_fit. destruct (linreg_fit _ _ _ _ _ _ _ _ _ _ _ _) as [reg|e] eqn:E; [|discriminate]. intros H. injection H as <- <-.
  eexists. split; [reflexivity|]. cbn. repeat split; auto. now destruct (resid_coef eqd qr lstsq inv pinv Hqr Hls _ _ _ _ _ _ _ _ E) as (L & _).
Qed.

(* a failed fit leaves the fitted attributes alone; a successful one does not depend on what was there before *)
Theorem lr_fit_failure (cfg : cfgT) st rows X y cl adj e st' : fit cfg st rows X y cl adj = (Err e, st') -> st' = st.
Proof. unfold lr_fit. destruct (linreg_fit _ _ _ _ _ _ _ _ _ _ _ _); intros H; [discriminate|now injection H]. Qed.
Theorem lr_refit (cfg : cfgT) st0 st1 rows X y cl adj : fst (fit cfg st0 rows X y cl adj) = fst (fit cfg st1 rows X y cl adj) /\
  (is_ok (fst (fit cfg st0 rows X y cl adj)) = true -> snd (fit cfg st0 rows X y cl adj) = snd (fit cfg st1 rows X y cl adj)).
Proof. unfold lr_fit. destruct (linreg_fit _ _ _ _ _ _ _ _ _ _ _ _); cbn; split; auto; discriminate. Qed.
(* cluster_ids of the call take precedence over those of the object *)
Theorem lr_cluster_argument (cfg : cfgT) st rows X y c adj :
  fit cfg st rows X y (Some c) adj =
  fit {| c_intercept := c_intercept cfg; c_robust := c_robust cfg; c_cluster := Some c; c_alpha := c_alpha cfg; c_action := c_action cfg |} st rows X y None adj.
Proof. reflexivity. Qed.

Section Fitted.
Variables (cfg : cfgT) (st0 : state) (rows : list I) (X : list (I -> R)) (y : I -> R) (cl : option (I -> K)) (adj : Z) (u : unit) (st : state).
Hypothesis HF : fit cfg st0 rows X y cl adj = (Ok u, st).
Let k := (length X + if c_intercept cfg then 1 else 0)%nat.

Lemma wi_length : length (with_intercept cfg X) = k.
Proof. unfold with_intercept, k. destruct (c_intercept cfg); cbn; lia. Qed.

(* an index is valid when it addresses one of the columns, from the front or from the back *)
Theorem lr_index_range i alpha df : is_ok (inf cfg st i alpha df) = true <-> (- Z.of_nat k <= i < Z.of_nat k)%Z.
Proof.
  destruct (lr_fit_inv _ _ _ _ _ _ _ _ _ HF) as (f & -> & _ & _ & _ & _ & L). cbn. rewrite L, wi_length.
  destruct (py_index k i) as [j|e] eqn:E; cbn.
  - apply py_index_ok in E. tauto.
  - apply py_index_err in E. split; [discriminate|]. intros H. exfalso. tauto.
Qed.
Theorem lr_index_error i alpha df : ~ (- Z.of_nat k <= i < Z.of_nat k)%Z -> inf cfg st i alpha df = Err IndexError.
Proof.
  destruct (lr_fit_inv _ _ _ _ _ _ _ _ _ HF) as (f & -> & _ & _ & _ & _ & L). cbn. rewrite L, wi_length. intros H.
  rewrite (proj2 (py_index_err k i IndexError) (conj eq_refl H)). reflexivity.
Qed.
Theorem lr_negative_index i alpha df : (- Z.of_nat k <= i < 0)%Z -> inf cfg st i alpha df = inf cfg st (i + Z.of_nat k)%Z alpha df.
Proof.
  destruct (lr_fit_inv _ _ _ _ _ _ _ _ _ HF) as (f & -> & _ & _ & _ & _ & L). cbn. rewrite L, wi_length. intros H.
  replace (py_index k i) with (py_index k (i + Z.of_nat k)); [reflexivity|]. unfold py_index.
  rewrite (proj2 (Z.ltb_lt i 0)) by lia. rewrite (proj2 (Z.ltb_ge (i + Z.of_nat k) 0)) by lia. reflexivity.
Qed.

(* the accessors agree with each other *)
Theorem lr_accessors i alpha df r : inf cfg st i alpha df = Ok r ->
  lr_coefficient st i = Ok (i_coef r) /\ lr_se st i = Ok (i_se r) /\ i_alpha r = match alpha with Some a => a | None => c_alpha cfg end.
Proof.
  destruct (lr_fit_inv _ _ _ _ _ _ _ _ _ HF) as (f & -> & _ & _ & _ & _ & L). cbn. destruct (py_index _ i) as [j|e]; cbn; [|discriminate]. intros H. injection H as <-. cbn. auto.
Qed.

Lemma all_from_ok l alpha df : (forall j, In j l -> (j < k)%nat) -> exists rs, all_from sf ppf cfg st l alpha df = Ok rs /\ length rs = length l /\
  forall m d, (m < length l)%nat -> inf cfg st (Z.of_nat (nth m l O)) alpha df = Ok (nth m rs d).
Proof.
  induction l as [|j l IH]; intros H; cbn [all_from].
  - exists []. repeat split. intros m d Hm. cbn in Hm. lia.
  - assert (Hj := proj2 (lr_index_range (Z.of_nat j) alpha df) ltac:(assert (A := H j (or_introl eq_refl)); lia)).
    destruct (inf cfg st (Z.of_nat j) alpha df) as [r|e] eqn:E; [|discriminate]. cbn [bind].
    destruct IH as (rs & -> & Lr & Nr); [intros m Hm; apply H; now right|]. cbn [bind]. exists (r :: rs). split; [reflexivity|]. split; [cbn; now rewrite Lr|].
    intros [|m] d Hm; cbn; [exact E|]. apply Nr. cbn in Hm. lia.
Qed.
Theorem lr_all_ok alpha df : exists rs, lr_all sf ppf cfg st alpha df = Ok rs /\ length rs = k /\
  forall j d, (j < k)%nat -> inf cfg st (Z.of_nat j) alpha df = Ok (nth j rs d).
Proof.
  destruct (all_from_ok (seq 0 k) alpha df) as (rs & E & L & N); [intros j Hj; apply in_seq in Hj; lia|]. exists rs. rewrite seq_length in L, N. split; [|split; [exact L|]].
  - destruct (lr_fit_inv _ _ _ _ _ _ _ _ _ HF) as (f & Es & _ & _ & _ & _ & Lf). unfold lr_all, checked. rewrite Es. rewrite <- Es, Lf, wi_length. exact E.
  - intros j d Hj. rewrite <- (N j d Hj). now rewrite seq_nth.
Qed.

Lemma batch_spec l alpha df : forall d0, match batch_from sf ppf cfg st d0 l alpha df with
  | Ok d => (forall i, In i l -> (- Z.of_nat k <= i < Z.of_nat k)%Z) /\
            (forall i, lookup d i = if in_dec Z.eq_dec i l then match inf cfg st i alpha df with Ok r => Some r | Err _ => None end else lookup d0 i) /\
            (NoDup (map fst d0) -> NoDup (map fst d)) /\ (forall i, In i (map fst d) <-> In i (map fst d0) \/ In i l) /\
            (NoDup (map fst d0 ++ l) -> map fst d = map fst d0 ++ l)
  | Err e => e = IndexError /\ exists i, In i l /\ ~ (- Z.of_nat k <= i < Z.of_nat k)%Z end.
Proof.
  induction l as [|i l IH]; intros d0; cbn [batch_from].
  - repeat split; try easy; [now left|intros [H|[]]; exact H|intros _; now rewrite app_nil_r].
  - destruct (inf cfg st i alpha df) as [r|e] eqn:E; cbn [bind].
    + assert (Hi := proj1 (lr_index_range i alpha df)). rewrite E in Hi. specialize (Hi eq_refl). specialize (IH (put d0 i r)).
      destruct (batch_from _ _ _ _ _ _ _ _) as [d|e].
      * destruct IH as (H1 & H2 & H3 & H4 & H5). split; [intros j [<-|Hj]; auto|]. split; [|split; [|split]].
        -- intros j. rewrite H2. destruct (in_dec Z.eq_dec j l) as [A|A], (in_dec Z.eq_dec j (i :: l)) as [B|B]; try reflexivity.
           ++ exfalso. apply B. now right.
           ++ rewrite put_lookup. destruct B as [->|B]; [|contradiction]. now rewrite Z.eqb_refl, E.
           ++ rewrite put_lookup. destruct (Z.eqb_spec j i) as [->|]; [|reflexivity]. exfalso. apply B. now left.
        -- intros Nd. apply H3. rewrite put_keys. destruct (in_dec Z.eq_dec i (map fst d0)) as [A|A]; [exact Nd|].
           apply (Permutation.Permutation_NoDup (l := i :: map fst d0)); [apply Permutation.Permutation_cons_append|now constructor].
        -- intros j. rewrite H4, put_keys. destruct (in_dec Z.eq_dec i (map fst d0)) as [A|A]; [|rewrite in_app_iff; cbn; tauto].
           cbn. split; [tauto|]. intros [?|[<-|?]]; auto.
        -- intros Nd. assert (A : ~ In i (map fst d0)) by (intros A; apply NoDup_remove_2 in Nd; apply Nd, in_or_app; now left).
           rewrite H5; rewrite put_keys; destruct (in_dec Z.eq_dec i (map fst d0)); try contradiction; rewrite <- app_assoc; [reflexivity|exact Nd].
      * destruct IH as (-> & j & Hj & Hr). split; [reflexivity|]. exists j. split; [now right|exact Hr].
    + assert (N : ~ (- Z.of_nat k <= i < Z.of_nat k)%Z) by (intros H; apply (lr_index_range i alpha df) in H; rewrite E in H; discriminate).
      rewrite (lr_index_error i alpha df N) in E. injection E as <-. split; [reflexivity|]. exists i. split; [now left|exact N].
Qed.

(* the batch: all indices valid, every entry the single inference, in the order asked *)
Theorem lr_batch_ok l alpha df : is_ok (lr_batch sf ppf cfg st l alpha df) = true <-> forall i, In i l -> (- Z.of_nat k <= i < Z.of_nat k)%Z.
Proof.
  assert (B := batch_spec l alpha df []). destruct (lr_fit_inv _ _ _ _ _ _ _ _ _ HF) as (f & Es & _). unfold lr_batch, checked. rewrite Es in *.
  destruct (batch_from _ _ _ _ _ _ _ _); cbn; [tauto|]. destruct B as (_ & i & Hi & N). split; [discriminate|]. intros H. exfalso. auto.
Qed.
Theorem lr_batch_error l alpha df e : lr_batch sf ppf cfg st l alpha df = Err e -> e = IndexError.
Proof.
  assert (B := batch_spec l alpha df []). destruct (lr_fit_inv _ _ _ _ _ _ _ _ _ HF) as (f & Es & _). unfold lr_batch, checked. rewrite Es in *.
  destruct (batch_from _ _ _ _ _ _ _ _); [discriminate|]. intros H. injection H as <-. tauto.
Qed.
Theorem lr_batch_entries l alpha df d : lr_batch sf ppf cfg st l alpha df = Ok d ->
  (forall i, In i l -> exists r, inf cfg st i alpha df = Ok r /\ lookup d i = Some r) /\ (forall i, ~ In i l -> lookup d i = None) /\
  NoDup (map fst d) /\ (forall i, In i (map fst d) <-> In i l) /\ (NoDup l -> map fst d = l).
Proof.
  assert (B := batch_spec l alpha df []). assert (R1 := fun i => proj2 (lr_index_range i alpha df)). destruct (lr_fit_inv _ _ _ _ _ _ _ _ _ HF) as (f & Es & _). unfold lr_batch, checked. rewrite Es in *.
  destruct (batch_from _ _ _ _ _ _ _ _) as [d'|]; [|discriminate]. intros H. injection H as <-. destruct B as (H1 & H2 & H3 & H4 & H5). cbn [map fst app lookup] in *.
  split; [|split; [|split; [|split]]].
  - intros i Hi. specialize (R1 i (H1 i Hi)). rewrite H2. destruct (in_dec Z.eq_dec i l); [|contradiction]. destruct (inf cfg (Some f) i alpha df) as [r|e]; [eauto|discriminate].
  - intros i Hi. rewrite H2. now destruct (in_dec Z.eq_dec i l).
  - apply H3. constructor.
  - intros i. rewrite H4. cbn. tauto.
  - exact H5.
Qed.

(* predictions on the training rows are the fitted values *)
Theorem lr_predict_training : exists p f, lr_predict cfg st X = Ok p /\ st = Some f /\ forall i, p i = l_fitted (f_reg f) i.
Proof.
  destruct (lr_fit_inv _ _ _ _ _ _ _ _ _ HF) as (f & Es & _ & _ & _ & H & L). unfold lr_predict, checked. rewrite Es.
  change (if c_intercept cfg then (fun _ : I => 1) :: X else X) with (with_intercept cfg X). rewrite L, Nat.eqb_refl. do 2 eexists. split; [reflexivity|]. split; [reflexivity|].
  destruct (linreg_fit_inv eqd qr lstsq inv pinv _ _ _ _ _ _ _ _ H) as (o & Ho & Ec & _ & Ef & _). intros i. rewrite Ec, Ef. apply (solve_ols_predict eqd qr lstsq inv Hls _ _ _ _ _ _ _ Ho).
Qed.

(* on new rows: whatever least squares solution is used, as long as the new rows obey the linear relations of the training rows *)
Theorem lr_predict_new {J} (new : list J) (Xn : list (J -> R)) : length Xn = length X ->
  (forall c, length c = k -> (forall i, In i rows -> lc (with_intercept cfg X) c i = 0) -> forall j, In j new -> lc (if c_intercept cfg then (fun _ => 1) :: Xn else Xn) c j = 0) ->
  exists p, lr_predict cfg st Xn = Ok p /\
    forall b, is_ls rows (with_intercept cfg X) y b -> forall j, In j new -> p j = lc (if c_intercept cfg then (fun _ => 1) :: Xn else Xn) b j.
Proof.
  intros LX HR. destruct (lr_fit_inv _ _ _ _ _ _ _ _ _ HF) as (f & Es & _ & _ & _ & H & L). unfold lr_predict, checked. rewrite Es.
  set (Xn' := if c_intercept cfg then (fun _ : J => 1) :: Xn else Xn) in *.
  assert (Ln : length Xn' = k) by (unfold Xn', k; destruct (c_intercept cfg); cbn; lia). rewrite L, wi_length, Ln, Nat.eqb_refl. eexists. split; [reflexivity|].
  intros b Hb j Hj. unfold predict. destruct (resid_coef eqd qr lstsq inv pinv Hqr Hls _ _ _ _ _ _ _ _ H) as (Lc & L1 & _). set (b0 := map nan_to_zero (l_coef (f_reg f))) in *.
  assert (Lb : length b = k) by (destruct Hb as [Lb _]; now rewrite Lb, wi_length). assert (Lb0 : length b0 = k) by (destruct L1 as [Lb1 _]; now rewrite Lb1, wi_length).
  assert (E : lc Xn' (vadd b0 (vscal (-1) b)) j = 0).
  { apply HR; [apply vadd_length; [lia|rewrite vscal_length; lia]| |exact Hj].
    intros i Hi. rewrite lc_vadd by (rewrite ?vscal_length, ?wi_length; lia). rewrite lc_vscal.
    rewrite (is_ls_span rows (with_intercept cfg X) (with_intercept cfg X) y b0 b (conj (fun c Hc => span_in _ _ _ Hc) (fun c Hc => span_in _ _ _ Hc)) L1 Hb i Hi). ring. }
  rewrite lc_vadd in E by (rewrite ?vscal_length; lia). rewrite lc_vscal in E. lra.
Qed.

(* df: leaving it out, or passing None, means the fitted degrees of freedom *)
Theorem lr_df_default i alpha : exists f, st = Some f /\ inf cfg st i alpha None = inf cfg st i alpha (Some (l_df (f_reg f))).
Proof.
  destruct (lr_fit_inv _ _ _ _ _ _ _ _ _ HF) as (f & Es & _). exists f. rewrite Es. split; reflexivity.
Qed.
(* the normal distribution is used exactly when the degrees of freedom are not positive *)
Theorem lr_df_normal i alpha df r : inf cfg st i alpha df = Ok r ->
  exists f, st = Some f /\ let d := match df with Some d => d | None => l_df (f_reg f) end in
  (i_df r = None <-> (d <= 0)%Z) /\ (i_df r <> None -> i_df r = Some d) /\ i_p r = fmul (Fin 2) (sf (i_df r) (fabs (i_t r))).
Proof.
  destruct (lr_fit_inv _ _ _ _ _ _ _ _ _ HF) as (f & -> & _). intros H. exists f. split; [reflexivity|]. cbn in H. destruct (py_index _ i) as [j|e]; cbn in H; [|discriminate]. injection H as <-. cbn.
  set (d := match df with Some d => d | None => l_df (f_reg f) end).
  replace (match df with Some d => Some d | None => Some (l_df (f_reg f)) end) with (Some d) by (unfold d; destruct df; reflexivity).
  unfold compute_p_value. cbn. destruct (Z.ltb_spec 0 d) as [P|P].
  - split; [split; [discriminate|lia]|]. split; [auto|]. cbn. now rewrite (proj2 (Z.ltb_lt _ _) P).
  - split; [split; [lia|reflexivity]|]. split; [congruence|reflexivity].
Qed.
End Fitted.

(* only the column space of the design matters for residuals, fitted values, degrees of freedom and both R-squared *)
Theorem lr_span (cfg cfg' : cfgT) st0 st0' rows X X' y cl adj u u' st st' :
  c_robust cfg' = c_robust cfg -> c_cluster cfg' = c_cluster cfg ->
  fit cfg st0 rows X y cl adj = (Ok u, st) -> fit cfg' st0' rows X' y cl adj = (Ok u', st') ->
  same_span rows (with_intercept cfg X) (with_intercept cfg' X') ->
  exists f f', st = Some f /\ st' = Some f' /\ l_df (f_reg f) = l_df (f_reg f') /\
    (forall i, In i rows -> l_resid (f_reg f) i = l_resid (f_reg f') i /\ l_fitted (f_reg f) i = l_fitted (f_reg f') i) /\
    lr_r2 st false = lr_r2 st' false /\ lr_r2 st true = lr_r2 st' true.
Proof.
  intros Er Ecl HF HF' Sp. destruct (lr_fit_inv _ _ _ _ _ _ _ _ _ HF) as (f & -> & R1 & Y1 & X1 & H & L). destruct (lr_fit_inv _ _ _ _ _ _ _ _ _ HF') as (f' & -> & R1' & Y1' & X1' & H' & L').
  destruct (linreg_fit_inv eqd qr lstsq inv pinv _ _ _ _ _ _ _ _ H) as (o & Ho & Ec & Ers & Ef & Ed & EV).
  destruct (linreg_fit_inv eqd qr lstsq inv pinv _ _ _ _ _ _ _ _ H') as (o' & Ho' & Ec' & Ers' & Ef' & Ed' & EV').
  destruct (solve_ols_shape eqd qr lstsq inv Hls _ _ _ _ _ _ _ Ho) as (_ & C & _). destruct (solve_ols_shape eqd qr lstsq inv Hls _ _ _ _ _ _ _ Ho') as (_ & C' & _).
  assert (N : n_reported (o_coef o) = n_reported (o_coef o')) by (rewrite C, C', !n_reported_kept; now apply rank_unique).
  destruct (resid_coef eqd qr lstsq inv pinv Hqr Hls _ _ _ _ _ _ _ _ H) as (_ & L1 & Q1).
  destruct (resid_coef eqd qr lstsq inv pinv Hqr Hls _ _ _ _ _ _ _ _ H') as (_ & L1' & Q1').
  assert (RE : forall i, In i rows -> l_resid (f_reg f) i = l_resid (f_reg f') i).
  { intros i Hi. rewrite Q1, Q1'. now rewrite (is_ls_span rows _ _ y _ _ Sp L1 L1' i Hi). }
  assert (FE : forall i, In i rows -> l_fitted (f_reg f) i = l_fitted (f_reg f') i).
  { intros i Hi. assert (A := RE i Hi). rewrite Ers, Ers' in A. rewrite Ef, Ef'.
    destruct (solve_ols_projection eqd qr lstsq inv Hqr Hls _ _ _ _ _ _ _ Ho) as (_ & _ & P). destruct (solve_ols_projection eqd qr lstsq inv Hqr Hls _ _ _ _ _ _ _ Ho') as (_ & _ & P').
    rewrite P, P' in A. lra. }
  exists f, f'. split; [reflexivity|]. split; [reflexivity|]. split; [|split; [auto|]].
  - rewrite Ed, Ed'. unfold fit_df. rewrite !n_effective_reported, N. reflexivity.
  - assert (S : sumf (fun i => l_resid (f_reg f) i * l_resid (f_reg f) i) rows = sumf (fun i => l_resid (f_reg f') i * l_resid (f_reg f') i) rows) by (apply sumf_ext; intros i Hi; now rewrite RE).
    assert (NE : n_effective (l_coef (f_reg f)) = n_effective (l_coef (f_reg f'))) by (rewrite Ec, Ec', !n_effective_reported; now rewrite N).
    unfold lr_r2, checked. rewrite R1, R1', Y1, Y1', NE. unfold r_squared. rewrite S. split; [reflexivity|reflexivity].
Qed.

(* adding an intercept to a design that already contains one changes nothing but the coefficients *)
Theorem lr_intercept_redundant (cfg cfg' : cfgT) st0 st0' rows X y cl adj u u' st st' :
  c_intercept cfg = true -> c_intercept cfg' = false -> c_robust cfg' = c_robust cfg -> c_cluster cfg' = c_cluster cfg ->
  fit cfg st0 rows X y cl adj = (Ok u, st) -> fit cfg' st0' rows X y cl adj = (Ok u', st') -> span rows X (fun _ => 1) ->
  exists f f', st = Some f /\ st' = Some f' /\ l_df (f_reg f) = l_df (f_reg f') /\
    (forall i, In i rows -> l_resid (f_reg f) i = l_resid (f_reg f') i /\ l_fitted (f_reg f) i = l_fitted (f_reg f') i) /\
    lr_r2 st false = lr_r2 st' false /\ lr_r2 st true = lr_r2 st' true.
Proof.
  intros E1 E2 Er Ec HF HF' Sp. apply (lr_span cfg cfg' st0 st0' rows X X y cl adj u u' st st' Er Ec HF HF'). unfold with_intercept. rewrite E1, E2. split.
  - intros c [<-|Hc]; [exact Sp|now apply span_in].
  - intros c Hc. apply span_in. now right.
Qed.

(* a classical fit returns exactly when there are at least as many rows as columns and the design does not vanish *)
Theorem lr_fit_returns (cfg : cfgT) st rows X y adj : c_robust cfg = false -> c_cluster cfg = None ->
  is_ok (fst (fit cfg st rows X y None adj)) = true <->
  (length (with_intercept cfg X) <= length rows)%nat /\
  ((c_action cfg = "warn" \/ c_action cfg = "silent")%string /\ (with_intercept cfg X = [] \/ exists c i, In c (with_intercept cfg X) /\ In i rows /\ c i <> 0) \/
   (c_action cfg = "error"%string /\ qr rows (with_intercept cfg X) = [])).
Proof.
  intros Er Ec. rewrite <- (solve_ols_returns eqd qr lstsq inv Hqr rows (with_intercept cfg X) y None (c_action cfg)).
  unfold lr_fit, linreg_fit. rewrite Er, Ec. destruct (solve_ols _ _ _ _ _ _ _ _ _ _); cbn; tauto.
Qed.

(* an intercept-only fit on three rows *)
Definition lr_demo : lr_cfg I K := {| c_intercept := true; c_robust := false; c_cluster := None; c_alpha := 1 / 20; c_action := "warn" |}.
End LR.

Section Ex.
Variable qr : list nat -> list (nat -> R) -> list nat.
Variable lstsq : list nat -> list (nat -> R) -> (nat -> R) -> list R.
Variable inv : list nat -> list (nat -> R) -> option (nat -> nat -> R).
Variable pinv : list nat -> list (nat -> R) -> nat -> nat -> R.
Hypothesis Hqr : qr_ok qr.
Hypothesis Hls : lstsq_ok lstsq.
Hypothesis Hinv : inv_ok inv.
Let rows := [0; 1; 2]%nat.

Lemma lr_ex_dual : dual rows [fun _ : nat => 1] 0 (fun _ => 1 / 3).
Proof.
  split; [cbn; lia|]. split.
  - exists [1 / 3]. split; [reflexivity|]. intros i _. cbn. field.
  - intros [|a] Ha; [|cbn in Ha; lia]. unfold ip, colx, rows. cbn. field.
Qed.

Theorem lr_ex : exists st f, lr_fit Nat.eq_dec qr lstsq inv pinv (@lr_demo nat nat) None rows [] INR None 0%Z = (Ok tt, st) /\ st = Some f /\
  l_df (f_reg f) = 2%Z /\ lr_coefficient st 0 = Ok (Fin 1) /\ lr_se st 0 = Ok (Fin (sqrt (1 / 3))).
Proof.
  assert (R0 := solve_ols_returns Nat.eq_dec qr lstsq inv Hqr rows [fun _ => 1] INR None "warn").
  assert (Hok : is_ok (solve_ols Nat.eq_dec qr lstsq inv rows [fun _ : nat => 1] INR None false "warn") = true).
  { apply R0. split; [cbn; lia|]. left. split; [now left|]. right. exists (fun _ => 1), 0%nat. repeat split; [now left|now left|lra]. }
  destruct (solve_ols Nat.eq_dec qr lstsq inv rows [fun _ : nat => 1] INR None false "warn") as [o|e] eqn:Ho; [|discriminate].
  unfold lr_fit. unfold with_intercept. cbn [c_intercept lr_demo c_robust c_cluster c_action]. 
  assert (EF : exists reg, linreg_fit Nat.eq_dec qr lstsq inv pinv false None "warn" 0 rows [fun _ : nat => 1] INR = Ok reg) by (unfold linreg_fit; rewrite Ho; cbn [bind]; eauto).
  destruct EF as [reg EF]. rewrite EF. do 2 eexists. split; [reflexivity|]. split; [reflexivity|]. cbn [f_reg].
  destruct (linreg_fit_inv Nat.eq_dec qr lstsq inv pinv _ _ _ _ _ _ _ _ EF) as (o' & Ho' & Ec & Er & _ & Ed & EV). rewrite Ho in Ho'. injection Ho' as <-.
  destruct (solve_ols_shape Nat.eq_dec qr lstsq inv Hls _ _ _ _ _ _ _ Ho) as (_ & Cs & _).
  assert (D := lr_ex_dual). destruct (ols_dual Nat.eq_dec qr lstsq inv Hqr Hls Hinv _ _ _ _ _ _ _ _ _ Ho D) as (A1 & _ & _ & _).
  assert (NR : n_reported (o_coef o) = 1%nat).
  { rewrite Cs, n_reported_kept. assert (Z0 := kept_nonzero qr rows [fun _ => 1] (fun _ => 1) 0%nat Hqr (or_introl eq_refl) (or_introl eq_refl) ltac:(lra)). apply Nat.eqb_neq in Z0.
    assert (Z1 : le (length (kept_cols (length [fun _ : nat => 1]) (qr rows [fun _ => 1]))) 1).
    { unfold kept_cols. cbn [length seq filter]. destruct (negb _); cbn; lia. }
    lia. }
  assert (B : ip rows (fun _ => 1 / 3) INR = 1) by (unfold ip, rows; cbn; lra).
  destruct (resid_coef Nat.eq_dec qr lstsq inv pinv Hqr Hls _ _ _ _ _ _ _ _ EF) as (Lc & _ & Q). rewrite Ec in Lc, Q.
  assert (E1 : o_coef o = [Fin 1]). { destruct (o_coef o) as [|c0 [|]]; try discriminate. change (c0 = Fin (ip rows (fun _ => 1 / 3) INR)) in A1. rewrite B in A1. now rewrite A1. }
  split; [|split].
  - rewrite Ed. unfold fit_df. rewrite n_effective_reported, NR. reflexivity.
  - cbn. rewrite Ec, E1. reflexivity.
  - assert (EV0 : o_vcov o = None) by (revert Ho; unfold solve_ols; cbn [parse_action String.eqb Ascii.eqb Bool.eqb]; destruct (Nat.ltb _ _); [discriminate|]; destruct (qr rows _); [intros H; now injection H as <-|]; destruct (Nat.eqb _ _); [discriminate|intros H; now injection H as <-]).
    rewrite EV0 in EV. cbn. rewrite Ec, E1, EV. cbn [length py_index]. cbn -[classical_vcov].
    rewrite (classical_dual Nat.eq_dec qr lstsq inv pinv Hqr Hls Hinv rows [fun _ => 1] INR None false "warn" o 0 _ Ho D), NR.
    assert (SS : sumf (fun i => o_resid o i * o_resid o i) rows = 2).
    { rewrite <- Er. unfold rows. cbn [sumf]. rewrite !Q, E1. cbn. lra. }
    rewrite SS. replace (ip rows (fun _ => 1 / 3) (fun _ => 1 / 3)) with (1 / 3) by (unfold ip, rows; cbn; field). cbn [length rows]. 
    assert (N2 : INR 3 - INR 1 = 2) by (cbn; lra). unfold rows. cbn [length]. rewrite N2. cbn. destruct (Req_EM_T 2 0); [lra|]. cbn.
    replace (2 / 2 * (1 / 3)) with (1 / 3) by field. destruct (Rlt_dec (1 / 3) 0); [lra|reflexivity].
Qed.

(* the intercept given twice: both fits succeed *)
Theorem lr_ex_redundant : exists st st',
  lr_fit Nat.eq_dec qr lstsq inv pinv (@lr_demo nat nat) None rows [fun _ => 1; INR] INR None 0%Z = (Ok tt, st) /\
  lr_fit Nat.eq_dec qr lstsq inv pinv {| c_intercept := false; c_robust := false; c_cluster := @None (nat -> nat); c_alpha := 1 / 20; c_action := "warn" |} None rows [fun _ => 1; INR] INR None 0%Z = (Ok tt, st') /\
  span rows [fun _ => 1; INR] (fun _ => 1) /\ (forall b, lr_r2 st b = lr_r2 st' b).
Proof.
  assert (N : exists c i, In c [fun _ : nat => 1; INR] /\ In i rows /\ c i <> 0) by (exists (fun _ => 1), 0%nat; repeat split; [now left|now left|lra]).
  set (cfg' := {| c_intercept := false; c_robust := false; c_cluster := @None (nat -> nat); c_alpha := 1 / 20; c_action := "warn" |}).
  assert (A1 := proj2 (lr_fit_returns Nat.eq_dec qr lstsq inv pinv Hqr (@lr_demo nat nat) None rows [fun _ => 1; INR] INR 0%Z eq_refl eq_refl)
    (conj (le_n 3) (or_introl (conj (or_introl eq_refl) (or_intror (ex_intro _ (fun _ => 1) (ex_intro _ 0%nat (conj (or_introl eq_refl) (conj (or_introl eq_refl) R1_neq_R0))))))))).
  assert (A2 := proj2 (lr_fit_returns Nat.eq_dec qr lstsq inv pinv Hqr cfg' None rows [fun _ => 1; INR] INR 0%Z eq_refl eq_refl)
    (conj (le_S _ _ (le_n 2)) (or_introl (conj (or_introl eq_refl) (or_intror N))))).
  destruct (lr_fit Nat.eq_dec qr lstsq inv pinv (@lr_demo nat nat) None rows [fun _ => 1; INR] INR None 0%Z) as [[[]|] st] eqn:F1; [|discriminate].
  destruct (lr_fit Nat.eq_dec qr lstsq inv pinv cfg' None rows [fun _ => 1; INR] INR None 0%Z) as [[[]|] st'] eqn:F2; [|discriminate].
  exists st, st'. assert (Sp : span rows [fun _ => 1; INR] (fun _ => 1)) by (apply span_in; now left).
  split; [reflexivity|]. split; [reflexivity|]. split; [exact Sp|].
  destruct (lr_intercept_redundant Nat.eq_dec qr lstsq inv pinv Hqr Hls (@lr_demo nat nat) cfg' None None rows [fun _ => 1; INR] INR None 0%Z tt tt st st' eq_refl eq_refl eq_refl eq_refl F1 F2 Sp)
    as (f & f' & _ & _ & _ & _ & R1 & R2).
  intros [|]; assumption.
Qed.

(* df=None does not select the normal distribution *)
Theorem lr_df_none_refuted : exists st r rn, lr_fit Nat.eq_dec qr lstsq inv pinv (@lr_demo nat nat) None rows [] INR None 0%Z = (Ok tt, st) /\
  lr_inference heavy_sf heavy_ppf (@lr_demo nat nat) st 0 None None = Ok r /\ lr_inference heavy_sf heavy_ppf (@lr_demo nat nat) st 0 None (Some 0%Z) = Ok rn /\
  i_df r = Some 2%Z /\ i_df rn = None /\ i_t r = i_t rn /\ i_p r <> i_p rn.
Proof.
  destruct lr_ex as (st & f & HF & Es & Hd & Hc & Hse). assert (A1 := proj2 (lr_index_range Nat.eq_dec qr lstsq inv pinv heavy_sf heavy_ppf Hqr Hls (@lr_demo nat nat) None rows [] INR None 0%Z tt st HF 0 None None) ltac:(cbn; lia)).
  assert (A2 := proj2 (lr_index_range Nat.eq_dec qr lstsq inv pinv heavy_sf heavy_ppf Hqr Hls (@lr_demo nat nat) None rows [] INR None 0%Z tt st HF 0 None (Some 0%Z)) ltac:(cbn; lia)).
  destruct (lr_inference heavy_sf heavy_ppf (@lr_demo nat nat) st 0 None None) as [r|] eqn:E1; [|discriminate]. destruct (lr_inference heavy_sf heavy_ppf (@lr_demo nat nat) st 0 None (Some 0%Z)) as [rn|] eqn:E2; [|discriminate].
  exists st, r, rn. split; [exact HF|]. split; [exact E1|]. split; [exact E2|]. rewrite Es in *. cbn in Hc, Hse, E1, E2. destruct (py_index _ 0) as [j|]; [|discriminate]. cbn in Hc, Hse, E1, E2.
  injection Hc as Hc. injection Hse as Hse. injection E1 as <-. injection E2 as <-. unfold get_inference. rewrite Hc, Hse, Hd. cbn [i_df i_t i_p].
  assert (P : 0 < sqrt (1 / 3)) by (apply sqrt_lt_R0; lra). split; [reflexivity|]. split; [reflexivity|]. split; [reflexivity|].
  set (s := sqrt (1 / 3)) in *. assert (Q : 0 < 1 / s) by (apply Rdiv_lt_0_compat; lra).
  replace (if fle (Fin s) (Fin 0) then if fgt (Fin 1) (Fin 0) then PInf else if flt (Fin 1) (Fin 0) then NInf else Fin 0 else fdiv (Fin 1) (Fin s)) with (Fin (1 / s)).
  - unfold compute_p_value. cbn. rewrite (Rabs_right (1 / s)) by lra. destruct (Req_EM_T 2 0); [lra|]. cbn. destruct (Rle_dec 0 (1 / s / 2)) as [_|N]; [|exfalso; apply N; lra]. destruct (Rle_dec 0 (1 / s)) as [_|N]; [|lra].
    cbn. intros E. injection E as E. assert (X : / (2 * (1 + 1 / s / 2)) = / (2 * (1 + 1 / s))) by (unfold Rdiv in E; lra). assert (Y : 2 * (1 + 1 / s / 2) = 2 * (1 + 1 / s)) by (rewrite <- (Rinv_inv (2 * (1 + 1 / s / 2))), X; apply Rinv_inv). lra.
  - cbn. destruct (Rleb s 0) eqn:E9; [apply Rleb_true in E9; lra|]. destruct (Req_EM_T s 0); [lra|reflexivity].
Qed.
End Ex.

(* Exchanging the two indicators, or replacing one by its complement: what happens to a regression coefficient when the design is
   rewritten so that the column space stays and the dual vector of the coefficient keeps its direction or reverses it. *)
From Coq Require Import Reals Lra Lia.
From Verif Require Import Prelude Flt Linalg_model Linalg_proofs Linalg_vcov Linalg_thms Linalg_dual Linalg_rank Linalg_span Did_model Did_proofs Did_equiv Span_thms Reg_effects.
From Coq Require Import Arith ZArith String List.
Import ListNotations.
Open Scope R_scope.

Section S.
Context {I K : Type} (eqd : forall x y : K, {x = y} + {x <> y}).
Variable qr : list I -> list (I -> R) -> list nat.
Variable lstsq : list I -> list (I -> R) -> (I -> R) -> list R.
Variable inv : list I -> list (I -> R) -> option (nat -> nat -> R).
Variable pinv : list I -> list (I -> R) -> nat -> nat -> R.
Hypothesis Hqr : qr_ok qr.
Hypothesis Hls : lstsq_ok lstsq.
Hypothesis Hinv : inv_ok inv.
Notation solve := (solve_ols eqd qr lstsq inv).
Notation lfit := (linreg_fit eqd qr lstsq inv pinv).

(* --- whether a fit is returned depends on the design only through its shape and its column space --- *)
Definition rv_ok (rows : list I) (k : nat) (cluster : option (I -> K)) : bool :=
  match cluster with None => true | Some cl => negb (Nat.ltb (length (cl_keys eqd rows cl)) 2) end && negb (Nat.eqb (length rows) k).
Lemma robust_vcov_is_ok rows cols e cluster : indep rows cols -> is_ok (robust_vcov eqd inv rows cols e cluster) = rv_ok rows (length cols) cluster.
Proof.
  intros Hi. unfold robust_vcov, rv_ok. assert (X := Hinv rows cols). destruct (inv rows cols); [|contradiction].
  destruct cluster as [cl|]; [destruct (Nat.ltb _ 2); [reflexivity|]|]; destruct (Nat.eqb _ _); reflexivity.
Qed.
Lemma dropped_nil rows cols : qr rows cols = [] <-> length (kept_cols (length cols) (qr rows cols)) = length cols.
Proof.
  split; [intros ->; now rewrite kept_cols_nil, seq_length|]. intros H. destruct (Hqr rows cols) as [H1 _].
  destruct (qr rows cols) as [|d0 l] eqn:E; [reflexivity|exfalso]. destruct (H1 d0 (or_introl eq_refl)) as [Hd _].
  assert (Hn : ~ In d0 (kept_cols (length cols) (d0 :: l))) by (rewrite kept_cols_lt; intros [_ X]; apply X; now left).
  assert (Inc : incl (seq 0 (length cols)) (kept_cols (length cols) (d0 :: l))).
  { apply NoDup_length_incl; [apply kept_cols_nodup|rewrite seq_length; lia|]. intros a Ha. apply kept_cols_lt in Ha. apply in_seq. lia. }
  apply Hn, Inc, in_seq. lia.
Qed.
Lemma solve_is_ok rows cols y cluster rv action : is_ok (solve rows cols y cluster rv action) =
  negb (Nat.ltb (length rows) (length cols)) &&
  match parse_action action with
  | None => false
  | Some act => let r := length (kept_cols (length cols) (qr rows cols)) in
     (if Nat.eqb r (length cols) then true else match act with ActError => false | _ => negb (Nat.eqb r 0) end) && (if rv then rv_ok rows r cluster else true)
  end.
Proof.
  unfold solve_ols. destruct (Nat.ltb _ _); [reflexivity|]. destruct (parse_action action) as [act|]; [|reflexivity]. cbv zeta. cbn [negb andb].
  assert (Dn := dropped_nil rows cols). destruct (Hqr rows cols) as [_ Hi].
  destruct (qr rows cols) as [|d0 l] eqn:E.
  - rewrite (proj1 Dn eq_refl), Nat.eqb_refl. cbn [andb]. destruct rv; [|reflexivity].
    assert (Hx : select_cols cols (kept_cols (length cols) []) = cols) by apply select_cols_full.
    rewrite Hx in Hi. rewrite <- (robust_vcov_is_ok rows cols (fun i => y i - lc cols (lstsq rows cols y) i) cluster Hi).
    destruct (robust_vcov _ _ _ _ _ _); reflexivity.
  - assert (Hne : Nat.eqb (length (kept_cols (length cols) (d0 :: l))) (length cols) = false) by (apply Nat.eqb_neq; intros X; apply Dn in X; discriminate).
    rewrite Hne. set (kept := kept_cols (length cols) (d0 :: l)) in *. set (xr := select_cols cols kept) in *.
    assert (Lx : length xr = length kept) by (unfold xr, select_cols; now rewrite map_length).
    assert (X := robust_vcov_is_ok rows xr (fun i => y i - lc xr (lstsq rows xr y) i) cluster Hi). rewrite Lx in X.
    destruct act; [|reflexivity|]; (destruct (Nat.eqb (length kept) 0); [reflexivity|]; cbn [negb andb]; destruct rv; [|reflexivity]; rewrite <- X; destruct (robust_vcov _ _ _ _ _ _); reflexivity).
Qed.
Lemma linreg_ok_span robust cluster action nabs nabs' rows cols cols' y y' : length cols' = length cols -> same_span rows cols cols' ->
  is_ok (lfit robust cluster action nabs rows cols y) = is_ok (lfit robust cluster action nabs' rows cols' y').
Proof.
  intros HL Sp. unfold linreg_fit.
  assert (E : is_ok (solve rows cols y cluster (match cluster with Some _ => true | None => robust end) action) = is_ok (solve rows cols' y' cluster (match cluster with Some _ => true | None => robust end) action)).
  { rewrite !solve_is_ok. rewrite (rank_unique qr qr rows cols cols' Hqr Hqr Sp), HL. reflexivity. }
  destruct (solve rows cols y _ _ _), (solve rows cols' y' _ _ _); cbn in *; congruence.
Qed.

(* --- the coefficient under a change of design that keeps the space --- *)
Lemma dual_transfer rows (cols cols' : list (I -> R)) j j' q s : dual rows cols j q -> same_span rows cols cols' -> (j' < length cols')%nat -> s * s = 1 ->
  (forall a, (a < length cols')%nat -> ip rows (colx cols' a) q = if Nat.eqb a j' then s else 0) -> dual rows cols' j' (fun i => s * q i).
Proof.
  intros (Hj & Hs & _) [S1 S2] Hj' Hss H. split; [exact Hj'|]. split.
  - apply span_scal. apply (span_trans rows cols); auto.
  - intros a Ha. rewrite ip_scal_r, H by auto. destruct (Nat.eqb a j'); [exact Hss|ring].
Qed.
Lemma score_ss_sign (rows : list I) q e cluster s : s * s = 1 -> score_ss eqd rows (fun i => s * q i) e cluster = score_ss eqd rows q e cluster.
Proof.
  intros Hs. unfold score_ss. destruct cluster as [cl|].
  - apply sumf_ext_all. intros g. set (l := filter _ rows). rewrite (sumf_ext_all (fun i => s * q i * e i) (fun i => s * (q i * e i))) by (intros; ring).
    rewrite sumf_scal. set (x := sumf _ _). replace (s * x * (s * x)) with (s * s * (x * x)) by ring. rewrite Hs. ring.
  - apply sumf_ext_all. intros i. replace (s * q i * e i * (s * q i * e i)) with (s * s * (q i * e i * (q i * e i))) by ring. rewrite Hs. ring.
Qed.
Theorem linreg_signed robust cluster action action' nabs rows cols cols' y reg reg' j j' q s :
  lfit robust cluster action nabs rows cols y = Ok reg -> lfit robust cluster action' nabs rows cols' y = Ok reg' ->
  same_span rows cols cols' -> dual rows cols j q -> dual rows cols' j' (fun i => s * q i) -> s * s = 1 ->
  nth j (l_coef reg) NaN = Fin (ip rows q y) /\ nth j' (l_coef reg') NaN = Fin (s * ip rows q y) /\
  l_vcov reg' j' j' = l_vcov reg j j /\ l_df reg' = l_df reg /\ n_reported (l_coef reg') = n_reported (l_coef reg) /\
  (forall i, In i rows -> l_resid reg' i = l_resid reg i) /\ (forall i, In i rows -> l_fitted reg' i = l_fitted reg i).
Proof.
  intros H H' Sp D D' Hss.
  destruct (linreg_fit_inv eqd qr lstsq inv pinv _ _ _ _ _ _ _ _ H) as (o & Ho & Ec & Er & Ef & Ed & EV).
  destruct (linreg_fit_inv eqd qr lstsq inv pinv _ _ _ _ _ _ _ _ H') as (o' & Ho' & Ec' & Er' & Ef' & Ed' & EV').
  destruct (solve_ols_shape eqd qr lstsq inv Hls _ _ _ _ _ _ _ Ho) as (_ & C & _). destruct (solve_ols_shape eqd qr lstsq inv Hls _ _ _ _ _ _ _ Ho') as (_ & C' & _).
  assert (N : n_reported (o_coef o) = n_reported (o_coef o')) by (rewrite C, C', !n_reported_kept; now apply rank_unique).
  destruct (resid_coef eqd qr lstsq inv pinv Hqr Hls _ _ _ _ _ _ _ _ H) as (_ & L1 & R1).
  destruct (resid_coef eqd qr lstsq inv pinv Hqr Hls _ _ _ _ _ _ _ _ H') as (_ & L1' & R1').
  assert (RE : forall i, In i rows -> l_resid reg i = l_resid reg' i).
  { intros i Hi. rewrite R1, R1'. now rewrite (is_ls_span rows cols cols' y _ _ Sp L1 L1' i Hi). }
  destruct (ols_dual eqd qr lstsq inv Hqr Hls Hinv _ _ _ _ _ _ _ _ _ Ho D) as (A1 & A2 & _ & _).
  destruct (ols_dual eqd qr lstsq inv Hqr Hls Hinv _ _ _ _ _ _ _ _ _ Ho' D') as (A1' & A2' & _ & _).
  split; [now rewrite Ec, A1|]. split; [rewrite Ec', A1'; f_equal; unfold ip; rewrite <- sumf_scal; apply sumf_ext_all; intros; ring|]. split.
  - symmetry. rewrite EV, EV'. assert (K1 := classical_dual eqd qr lstsq inv pinv Hqr Hls Hinv _ _ _ _ _ _ _ _ _ Ho D). assert (K2 := classical_dual eqd qr lstsq inv pinv Hqr Hls Hinv _ _ _ _ _ _ _ _ _ Ho' D').
    assert (SS : sumf (fun i => o_resid o i * o_resid o i) rows = sumf (fun i => o_resid o' i * o_resid o' i) rows).
    { apply sumf_ext. intros i Hi. rewrite <- Er, <- Er'. now rewrite RE. }
    destruct (match cluster with Some _ => true | None => robust end) eqn:Erv.
    + destruct (A2 eq_refl) as (W & -> & -> & _). destruct (A2' eq_refl) as (W' & -> & -> & _). rewrite N. apply (f_equal Fin). apply (f_equal2 Rmult eq_refl).
      rewrite score_ss_sign by exact Hss. apply score_ss_ext; [easy|]. intros i Hi. rewrite <- Er, <- Er'. now apply RE.
    + destruct (solve_ols_shape eqd qr lstsq inv Hls _ _ _ _ _ _ _ Ho) as (_ & _ & _ & _ & _ & Hv & _).
      destruct (solve_ols_shape eqd qr lstsq inv Hls _ _ _ _ _ _ _ Ho') as (_ & _ & _ & _ & _ & Hv' & _).
      cbn iota in Hv, Hv'. rewrite Hv, Hv', K1, K2, N, SS. apply (f_equal2 fmul eq_refl). f_equal. unfold ip. apply sumf_ext_all. intros i.
      replace (s * q i * (s * q i)) with (s * s * (q i * q i)) by ring. rewrite Hss. ring.
  - split; [rewrite Ed, Ed'; unfold fit_df; now rewrite !n_effective_reported, N|].
    split; [now rewrite Ec, Ec'|]. split; [intros; symmetry; now apply RE|]. intros i Hi. symmetry.
    assert (P := solve_ols_predict eqd qr lstsq inv Hls _ _ _ _ _ _ _ Ho i). assert (P' := solve_ols_predict eqd qr lstsq inv Hls _ _ _ _ _ _ _ Ho' i).
    rewrite Ef, Ef', <- P, <- P', <- Ec, <- Ec'. now apply (is_ls_span rows cols cols' y).
Qed.
End S.

(* ---- DifferenceInDifferences ---- *)
(* 1 - x, as a column *)
Definition fcomp {I} (x : I -> fl) : I -> fl := fun i => fadd (Fin 1) (fneg (x i)).

Section Did.
Context {I K G : Type} (keq : forall x y : K, {x = y} + {x <> y}) (geq : forall x y : G, {x = y} + {x <> y}).
Variable qr : list I -> list (I -> R) -> list nat.
Variable lstsq : list I -> list (I -> R) -> (I -> R) -> list R.
Variable inv : list I -> list (I -> R) -> option (nat -> nat -> R).
Variable pinv : list I -> list (I -> R) -> nat -> nat -> R.
Variable sf : option Z -> fl -> fl.
Variable ppf : option Z -> R -> R.
Hypothesis Hqr : qr_ok qr.
Hypothesis Hls : lstsq_ok lstsq.
Hypothesis Hinv : inv_ok inv.
Notation fit := (did_fit keq geq qr lstsq inv pinv sf ppf).
Notation fR x := (fun i => toR (x i)).

Lemma binary_fin rows (x : I -> fl) : has_nan rows x = false -> binary rows x = true -> forall i, In i rows -> x i = Fin 0 \/ x i = Fin 1.
Proof.
  intros Hn Hb i Hi. unfold binary in Hb. rewrite forallb_forall in Hb. specialize (Hb i Hi). pose proof (has_nan_false rows x Hn i Hi) as Hne.
  destruct (x i) as [r| | |]; simpl in Hb; try congruence; try discriminate. apply Bool.orb_true_iff in Hb. destruct Hb as [Hb|Hb]; apply Reqb_true in Hb; subst; auto.
Qed.
(* the checks pass for the complement when they pass for the column *)
Lemma fcomp_checks rows (x : I -> fl) : has_nan rows x = false -> binary rows x = true ->
  has_nan rows (fcomp x) = false /\ binary rows (fcomp x) = true /\ two_values rows (fcomp x) = two_values rows x /\ (forall i, In i rows -> toR (fcomp x i) = 1 - toR (x i)).
Proof.
  intros Hn Hb. assert (F := binary_fin rows x Hn Hb).
  assert (G0 : forall i, In i rows -> fcomp x i = Fin (1 - toR (x i))) by (intros i Hi; unfold fcomp; destruct (F i Hi) as [-> | ->]; cbn; f_equal; ring).
  split; [|split; [|split]].
  - destruct (has_nan rows (fcomp x)) eqn:E; [|reflexivity]. apply existsb_exists in E as (i & Hi & E). rewrite (G0 i Hi) in E. discriminate.
  - apply forallb_forall. intros i Hi. rewrite (G0 i Hi). destruct (F i Hi) as [-> | ->]; cbn.
    + replace (1 - 0) with 1 by ring. rewrite Reqb_refl. apply Bool.orb_true_r.
    + replace (1 - 1) with 0 by ring. rewrite Reqb_refl. reflexivity.
  - unfold two_values. apply existsb_ext_in. intros i Hi. apply existsb_ext_in. intros i' Hi'. rewrite (G0 i Hi), (G0 i' Hi').
    destruct (F i Hi) as [-> | ->], (F i' Hi') as [-> | ->]; cbn; f_equal.
    all: try (destruct (Reqb 0 1) eqn:E; [apply Reqb_true in E; lra|]); try (destruct (Reqb 1 0) eqn:E1; [apply Reqb_true in E1; lra|]).
    all: first [replace (1 - 0) with 1 by ring|idtac]; first [replace (1 - 1) with 0 by ring|idtac]; rewrite ?Reqb_refl; auto.
  - intros i Hi. rewrite (G0 i Hi). reflexivity.
Qed.

(* the reported numbers of two fits whose estimates are the same up to sign and whose variances agree *)
Definition same_report (rows : list I) (r r' : did_result I) : Prop :=
  r_att r' = r_att r /\ r_se r' = r_se r /\ r_t r' = r_t r /\ r_p r' = r_p r /\ r_ci r' = r_ci r /\ r_signif r' = r_signif r /\ r_r2 r' = r_r2 r /\
  (forall i, In i rows -> r_resid r' i = r_resid r i /\ r_fitted r' i = r_fitted r i).
Definition opposite_report (rows : list I) (r r' : did_result I) : Prop :=
  r_att r' = fneg (r_att r) /\ r_se r' = r_se r /\ r_t r' = fneg (r_t r) /\ r_p r' = r_p r /\
  r_ci r' = (fneg (snd (r_ci r)), fneg (fst (r_ci r))) /\ r_signif r' = r_signif r /\ r_r2 r' = r_r2 r /\
  (forall i, In i rows -> r_resid r' i = r_resid r i /\ r_fitted r' i = r_fitted r i).

(* inference for the opposite estimate with the same variance, infinite or missing variances included *)
Lemma inference_neg x v df : let a := get_inference sf ppf (Fin x) v None None df in forall z,
  let r := a z in let r' := get_inference sf ppf (Fin (- x)) v None None df z in
  i_se r' = i_se r /\ i_p r' = i_p r /\ i_t r' = fneg (i_t r) /\ i_ci r' = (fneg (snd (i_ci r)), fneg (fst (i_ci r))).
Proof.
  cbv zeta. intros z. unfold get_inference. cbn [i_se i_t i_p i_ci]. set (se := fsqrt v). set (u := use_df _).
  set (tst := fun x : R => if fle se (Fin 0) then if fgt (Fin x) (Fin 0) then PInf else if flt (Fin x) (Fin 0) then NInf else Fin 0 else fdiv (Fin x) se).
  change (if fle se (Fin 0) then if fgt (Fin x) (Fin 0) then PInf else if flt (Fin x) (Fin 0) then NInf else Fin 0 else fdiv (Fin x) se) with (tst x).
  change (if fle se (Fin 0) then if fgt (Fin (- x)) (Fin 0) then PInf else if flt (Fin (- x)) (Fin 0) then NInf else Fin 0 else fdiv (Fin (- x)) se) with (tst (- x)).
  assert (Ht : tst (- x) = fneg (tst x)).
  { unfold tst. destruct (fle se (Fin 0)) eqn:El.
    - unfold fgt, flt, Rltb. destruct (Rlt_dec 0 (- x)), (Rlt_dec (- x) 0), (Rlt_dec 0 x), (Rlt_dec x 0); try lra; try reflexivity. cbn. f_equal. ring.
    - destruct se as [e| | |]; cbn.
      + cbn in El. apply Rleb_false in El. destruct (Req_EM_T e 0); [lra|]. cbn. f_equal. field. lra.
      + reflexivity.
      + f_equal. ring.
      + f_equal. ring. }
  rewrite Ht. split; [reflexivity|]. split; [|split; [reflexivity|]].
  - unfold compute_p_value. do 2 f_equal. destruct (tst x); cbn; auto. now rewrite Rabs_Ropp.
  - unfold compute_ci. cbn [fst snd]. set (w := fmul _ se). destruct w as [w| | |]; cbn; try reflexivity. f_equal; f_equal; ring.
Qed.

Lemma did_change cfg rows y d t covs dums absorb r y' covs' nabs s q d' t' :
  fit cfg rows y d t covs dums absorb = Ok r ->
  absorb_loop geq rows absorb (fR y) (map (fun c => fR c) covs) = (y', covs', nabs) ->
  has_nan rows d' = false -> has_nan rows t' = false -> two_values rows d' = true -> two_values rows t' = true -> binary rows d' = true -> binary rows t' = true ->
  s * s = 1 -> same_span rows (did_design (fR d) (fR t) (covs' ++ dums)) (did_design (fR d') (fR t') (covs' ++ dums)) ->
  dual rows (did_design (fR d) (fR t) (covs' ++ dums)) 3 q -> dual rows (did_design (fR d') (fR t') (covs' ++ dums)) 3 (fun i => s * q i) ->
  exists r', fit cfg rows y d' t' covs dums absorb = Ok r' /\ (s = 1 -> same_report rows r r') /\ (s = -1 -> opposite_report rows r r') /\
    r_n_obs r' = r_n_obs r /\ r_n_treated r' = sumf (fR d') rows /\ r_n_control r' = sumf (fun i => 1 - toR (d' i)) rows.
Proof.
  intros H EA Nd Nt Vd Vt Bd Bt Hss Sp D D'.
  destruct (did_fit_inv keq geq qr lstsq inv pinv sf ppf _ _ _ _ _ _ _ _ _ H) as (_ & _ & _ & _ & _ & _ & y1 & c1 & n1 & reg & EA' & ER & Ha & (Hse & Ht & Hp & Hci & Hsg) & Hc & _ & Hr & Hfi & Hr2 & Hno).
  rewrite EA in EA'. injection EA' as <- <- <-.
  assert (Ok' := linreg_ok_span keq qr lstsq inv pinv Hqr Hinv (c_robust cfg) (c_cluster cfg) (c_action cfg) nabs nabs rows (did_design (fR d) (fR t) (covs' ++ dums)) (did_design (fR d') (fR t') (covs' ++ dums)) y' y' eq_refl Sp).
  rewrite ER in Ok'. cbn [is_ok] in Ok'. symmetry in Ok'. apply is_ok_ex in Ok' as [reg' ER'].
  destruct (linreg_signed keq qr lstsq inv pinv Hqr Hls Hinv _ _ _ _ _ _ _ _ _ _ _ _ _ _ _ ER ER' Sp D D' Hss) as (C1 & C2 & V & Edf & _ & Er & Ef).
  unfold did_fit in H |- *. cbn [existsb] in H |- *. rewrite Nd, Nt, Vd, Vt, Bd, Bt. cbn [negb orb].
  destruct (has_nan rows y); [discriminate|]. destruct (has_nan rows d); [discriminate|]. destruct (has_nan rows t); [discriminate|]. cbn [orb] in H |- *.
  destruct (existsb (has_nan rows) covs); [discriminate|].
  destruct (negb (two_values rows d)); [discriminate|]. destruct (negb (two_values rows t)); [discriminate|].
  destruct (negb (binary rows d)); [discriminate|]. destruct (negb (binary rows t)); [discriminate|].
  destruct (has_inf rows y || existsb (has_inf rows) covs)%bool; [discriminate|]. clear H.
  rewrite EA, ER'. cbn [bind]. eexists. split; [reflexivity|]. unfold same_report, opposite_report. cbn [r_att r_se r_t r_p r_ci r_signif r_r2 r_resid r_fitted r_n_obs r_n_treated r_n_control].
  rewrite C2, V, Edf. rewrite C1 in Ha.
  assert (Q : r_squared rows y' (l_resid reg') false 0 = r_r2 r).
  { rewrite Hr2. unfold r_squared. rewrite (sumf_ext (fun i => l_resid reg' i * l_resid reg' i) (fun i => l_resid reg i * l_resid reg i)) by (intros i Hi; now rewrite Er). reflexivity. }
  assert (RF : forall i, In i rows -> l_resid reg' i = r_resid r i /\ l_fitted reg' i = r_fitted r i) by (intros i Hi; now rewrite Hr, Hfi, Er, Ef).
  rewrite Hse, Ht, Hp, Hci, Hsg, Ha.
  split; [intros ->; rewrite Rmult_1_l; repeat (split; [first [reflexivity|exact Q]|]); exact RF|].
  split.
  - intros ->. replace (-1 * ip rows q y') with (- ip rows q y') by ring.
    destruct (inference_neg (ip rows q y') (l_vcov reg 3%nat 3%nat) (c_alpha cfg) (l_df reg)) as (I1 & I2 & I3 & I4). cbv zeta in I1, I2, I3, I4.
    rewrite I1, I2, I3, I4. repeat (split; [first [reflexivity|exact Q]|]). exact RF.
  - rewrite Hno. repeat split.
Qed.

(* the indicator part of the checks of a successful fit *)
Lemma did_fit_checks cfg rows y d t covs dums absorb r : fit cfg rows y d t covs dums absorb = Ok r ->
  has_nan rows d = false /\ has_nan rows t = false /\ two_values rows d = true /\ two_values rows t = true /\ binary rows d = true /\ binary rows t = true.
Proof.
  unfold did_fit. cbn [existsb]. intros H.
  destruct (has_nan rows y); [discriminate|]. destruct (has_nan rows d); [discriminate|]. destruct (has_nan rows t); [discriminate|]. cbn [orb] in H.
  destruct (existsb (has_nan rows) covs); [discriminate|].
  destruct (two_values rows d); [|discriminate]. destruct (two_values rows t); [|discriminate].
  destruct (binary rows d); [|discriminate]. destruct (binary rows t); [|discriminate]. easy.
Qed.
(* the columns of a design other than the first four are shared *)
Lemma design_span rows (d t d' t' : I -> R) extra : span rows (did_design d' t' extra) d -> span rows (did_design d' t' extra) t -> span rows (did_design d' t' extra) (fun i => d i * t i) ->
  span rows (did_design d t extra) d' -> span rows (did_design d t extra) t' -> span rows (did_design d t extra) (fun i => d' i * t' i) -> same_span rows (did_design d t extra) (did_design d' t' extra).
Proof.
  intros A1 A2 A3 B1 B2 B3. split; intros c [<-|[<-|[<-|[<-|Hc]]]]; auto; try (apply span_in; cbn; tauto).
Qed.
Lemma design_ip rows (d t : I -> R) extra q : dual rows (did_design d t extra) 3 q ->
  ip rows (fun _ => 1) q = 0 /\ ip rows d q = 0 /\ ip rows t q = 0 /\ ip rows (fun i => d i * t i) q = 1 /\ (forall c, In c extra -> ip rows c q = 0).
Proof.
  intros (_ & _ & H). split; [apply (H 0%nat); cbn; lia|]. split; [apply (H 1%nat); cbn; lia|]. split; [apply (H 2%nat); cbn; lia|]. split; [apply (H 3%nat); cbn; lia|].
  intros c Hc. apply (In_nth _ _ (fun _ => 0)) in Hc as (n & Hn & <-). apply (H (4 + n)%nat). cbn. lia.
Qed.
Lemma design_dual rows (d t d' t' : I -> R) extra q s : dual rows (did_design d t extra) 3 q -> same_span rows (did_design d t extra) (did_design d' t' extra) -> s * s = 1 ->
  ip rows d' q = 0 -> ip rows t' q = 0 -> ip rows (fun i => d' i * t' i) q = s -> dual rows (did_design d' t' extra) 3 (fun i => s * q i).
Proof.
  intros D Sp Hs H1 H2 H3. destruct (design_ip _ _ _ _ _ D) as (E0 & _ & _ & _ & Ex).
  apply (dual_transfer rows (did_design d t extra) _ 3 3 q s D Sp); [cbn; lia|exact Hs|].
  intros [|[|[|[|a]]]] Ha; cbn [colx did_design nth Nat.eqb]; auto. apply Ex. apply nth_In. cbn in Ha. lia.
Qed.

Definition did_identified (rows : list I) (y d t : I -> fl) (covs : list (I -> fl)) (dums : list (I -> R)) (absorb : list (I -> G)) : Prop :=
  identified_col rows (did_design (fR d) (fR t) (snd (fst (absorb_loop geq rows absorb (fR y) (map (fun c => fR c) covs))) ++ dums)) 3.

(* exchanging the treatment and the time indicator changes none of the reported numbers *)
Theorem did_swap cfg rows y d t covs dums absorb r : did_identified rows y d t covs dums absorb -> fit cfg rows y d t covs dums absorb = Ok r ->
  exists r', fit cfg rows y t d covs dums absorb = Ok r' /\ same_report rows r r' /\ r_n_obs r' = r_n_obs r /\
    r_n_treated r' = sumf (fR t) rows /\ r_n_control r' = sumf (fun i => 1 - toR (t i)) rows.
Proof.
  intros Id H. unfold did_identified in Id. destruct (absorb_loop _ _ _ _ _) as [[y' covs'] nabs] eqn:EA. cbn [fst snd] in Id. set (extra := covs' ++ dums) in *.
  apply identified_dual in Id. destruct (did_fit_checks _ _ _ _ _ _ _ _ _ H) as (Nd & Nt & Vd & Vt & Bd & Bt).
  set (q := fwl_q _ _ _) in Id. clearbody q.
  assert (Sp : same_span rows (did_design (fR d) (fR t) extra) (did_design (fR t) (fR d) extra)).
  { apply design_span; try (apply span_in; cbn; tauto).
    - apply (span_ext rows _ (fun i => toR (t i) * toR (d i))); [intros; ring|]. apply span_in; cbn; tauto.
    - apply (span_ext rows _ (fun i => toR (d i) * toR (t i))); [intros; ring|]. apply span_in; cbn; tauto. }
  destruct (design_ip _ _ _ _ _ Id) as (E0 & E1 & E2 & E3 & _).
  assert (D' : dual rows (did_design (fR t) (fR d) extra) 3 (fun i => 1 * q i)).
  { apply (design_dual rows (fR d) (fR t)); auto; [ring|]. rewrite <- E3. apply ip_ext; [intros; ring|reflexivity]. }
  destruct (did_change cfg rows y d t covs dums absorb r y' covs' nabs 1 q t d H EA Nt Nd Vt Vd Bt Bd ltac:(ring) Sp Id D') as (r' & H' & S1 & _ & R3).
  exists r'. split; [exact H'|]. split; [now apply S1|exact R3].
Qed.

(* the complement of the treatment indicator: the opposite estimate *)
Theorem did_treated_complement cfg rows y d t covs dums absorb r : did_identified rows y d t covs dums absorb -> fit cfg rows y d t covs dums absorb = Ok r ->
  exists r', fit cfg rows y (fcomp d) t covs dums absorb = Ok r' /\ opposite_report rows r r' /\ r_n_obs r' = r_n_obs r /\
    r_n_treated r' = r_n_control r /\ r_n_control r' = r_n_treated r.
Proof.
  intros Id H. unfold did_identified in Id. destruct (absorb_loop _ _ _ _ _) as [[y' covs'] nabs] eqn:EA. cbn [fst snd] in Id. set (extra := covs' ++ dums) in *.
  apply identified_dual in Id. destruct (did_fit_checks _ _ _ _ _ _ _ _ _ H) as (Nd & Nt & Vd & Vt & Bd & Bt).
  set (q := fwl_q _ _ _) in Id. clearbody q. destruct (fcomp_checks rows d Nd Bd) as (Nc & Bc & Vc & Ec). rewrite Vd in Vc.
  destruct (design_ip _ _ _ _ _ Id) as (E0 & E1 & E2 & E3 & _).
  assert (Sp : same_span rows (did_design (fR d) (fR t) extra) (did_design (fR (fcomp d)) (fR t) extra)).
  { apply design_span; try (apply span_in; cbn; tauto).
    - apply (span_ext rows _ (fun i => 1 - toR (fcomp d i))); [intros i Hi; rewrite Ec by auto; ring|]. apply span_sub; apply span_in; cbn; tauto.
    - apply (span_ext rows _ (fun i => toR (t i) - toR (fcomp d i) * toR (t i))); [intros i Hi; rewrite Ec by auto; ring|]. apply span_sub; apply span_in; cbn; tauto.
    - apply (span_ext rows _ (fun i => 1 - toR (d i))); [intros i Hi; rewrite Ec by auto; ring|]. apply span_sub; apply span_in; cbn; tauto.
    - apply (span_ext rows _ (fun i => toR (t i) - toR (d i) * toR (t i))); [intros i Hi; rewrite Ec by auto; ring|]. apply span_sub; apply span_in; cbn; tauto. }
  assert (D' : dual rows (did_design (fR (fcomp d)) (fR t) extra) 3 (fun i => -1 * q i)).
  { apply (design_dual rows (fR d) (fR t)); auto; [ring| |].
    - rewrite (ip_ext rows _ (fun i => 1 - toR (d i)) q q) by (auto; intros i Hi; now rewrite Ec). rewrite ip_sub_l. lra.
    - rewrite (ip_ext rows _ (fun i => toR (t i) - toR (d i) * toR (t i)) q q) by (auto; intros i Hi; rewrite Ec by auto; ring). rewrite ip_sub_l. lra. }
  destruct (did_change cfg rows y d t covs dums absorb r y' covs' nabs (-1) q (fcomp d) t H EA Nc Nt Vc Vt Bc Bt ltac:(ring) Sp Id D') as (r' & H' & _ & S1 & R1 & R2 & R3).
  exists r'. split; [exact H'|]. split; [now apply S1|]. split; [exact R1|]. rewrite R2, R3.
  assert (T : r_n_treated r = sumf (fR d) rows /\ r_n_control r = sumf (fun i => 1 - toR (d i)) rows).
  { assert (D1 : dual rows (did_design (fR d) (fR t) extra) 3 (fun i => 1 * q i)) by (apply (design_dual rows (fR d) (fR t)); auto; [split; intros; now apply span_in|ring]).
    destruct (did_change cfg rows y d t covs dums absorb r y' covs' nabs 1 q d t H EA Nd Nt Vd Vt Bd Bt ltac:(ring) ltac:(split; intros; now apply span_in) Id D1) as (r2 & H2 & _ & _ & _ & X & Y).
    rewrite H in H2. injection H2 as <-. easy. }
  destruct T as [-> ->]. split; apply sumf_ext; intros i Hi; rewrite Ec by auto; ring.
Qed.

(* the complement of the time indicator: the opposite estimate *)
Theorem did_time_complement cfg rows y d t covs dums absorb r : did_identified rows y d t covs dums absorb -> fit cfg rows y d t covs dums absorb = Ok r ->
  exists r', fit cfg rows y d (fcomp t) covs dums absorb = Ok r' /\ opposite_report rows r r' /\ r_n_obs r' = r_n_obs r /\
    r_n_treated r' = sumf (fR d) rows /\ r_n_control r' = sumf (fun i => 1 - toR (d i)) rows.
Proof.
  intros Id H. unfold did_identified in Id. destruct (absorb_loop _ _ _ _ _) as [[y' covs'] nabs] eqn:EA. cbn [fst snd] in Id. set (extra := covs' ++ dums) in *.
  apply identified_dual in Id. destruct (did_fit_checks _ _ _ _ _ _ _ _ _ H) as (Nd & Nt & Vd & Vt & Bd & Bt).
  set (q := fwl_q _ _ _) in Id. clearbody q. destruct (fcomp_checks rows t Nt Bt) as (Nc & Bc & Vc & Ec). rewrite Vt in Vc.
  destruct (design_ip _ _ _ _ _ Id) as (E0 & E1 & E2 & E3 & _).
  assert (Sp : same_span rows (did_design (fR d) (fR t) extra) (did_design (fR d) (fR (fcomp t)) extra)).
  { apply design_span; try (apply span_in; cbn; tauto).
    - apply (span_ext rows _ (fun i => 1 - toR (fcomp t i))); [intros i Hi; rewrite Ec by auto; ring|]. apply span_sub; apply span_in; cbn; tauto.
    - apply (span_ext rows _ (fun i => toR (d i) - toR (d i) * toR (fcomp t i))); [intros i Hi; rewrite Ec by auto; ring|]. apply span_sub; apply span_in; cbn; tauto.
    - apply (span_ext rows _ (fun i => 1 - toR (t i))); [intros i Hi; rewrite Ec by auto; ring|]. apply span_sub; apply span_in; cbn; tauto.
    - apply (span_ext rows _ (fun i => toR (d i) - toR (d i) * toR (t i))); [intros i Hi; rewrite Ec by auto; ring|]. apply span_sub; apply span_in; cbn; tauto. }
  assert (D' : dual rows (did_design (fR d) (fR (fcomp t)) extra) 3 (fun i => -1 * q i)).
  { apply (design_dual rows (fR d) (fR t)); auto; [ring| |].
    - rewrite (ip_ext rows _ (fun i => 1 - toR (t i)) q q) by (auto; intros i Hi; now rewrite Ec). rewrite ip_sub_l. lra.
    - rewrite (ip_ext rows _ (fun i => toR (d i) - toR (d i) * toR (t i)) q q) by (auto; intros i Hi; rewrite Ec by auto; ring). rewrite ip_sub_l. lra. }
  destruct (did_change cfg rows y d t covs dums absorb r y' covs' nabs (-1) q d (fcomp t) H EA Nd Nc Vd Vc Bd Bc ltac:(ring) Sp Id D') as (r' & H' & _ & S1 & R3).
  exists r'. split; [exact H'|]. split; [now apply S1|exact R3].
Qed.
End Did.

(* DifferenceInDifferences and TwoWayFixedEffects: the estimate and its inference depend on the covariates (and dummies) only
   through the space they span together with the intercept and the main effects. *)
From Coq Require Import Reals Lra Lia.
From Verif Require Import Prelude Flt Linalg_model Linalg_proofs Linalg_vcov Linalg_thms Linalg_dual Linalg_rank Linalg_span Did_model Did_spec Did_proofs Did_equiv Twfe_model Within_proofs Absorb_thms.
From Coq Require Import Arith ZArith String List.
Import ListNotations.
Open Scope R_scope.

(* the part of column c that the columns A do not explain *)
Definition partial_out {I} (rows : list I) (A : list (I -> R)) (c : I -> R) : I -> R := gs_res rows A c.

Section Fwl.
Context {I : Type}.
Implicit Types (rows : list I) (A cols : list (I -> R)) (c : I -> R).

Lemma partial_out_span rows A cols c : (forall x, In x A -> span rows cols x) -> span rows cols c -> span rows cols (partial_out rows A c).
Proof. intros HA Hc. unfold partial_out, gs_res. apply span_sub; [easy|]. apply (span_trans rows A); [easy|]. apply span_lc. apply gs_is_ls. Qed.
Lemma partial_out_orth rows A c x : span rows A x -> ip rows x (partial_out rows A c) = 0.
Proof. intros H. apply (orth_span rows A); [apply gs_res_orth|easy]. Qed.
Lemma partial_out_self rows A c : ip rows c (partial_out rows A c) = ip rows (partial_out rows A c) (partial_out rows A c).
Proof.
  unfold partial_out at 2. unfold gs_res at 1. rewrite ip_sym, (ip_sym rows _ (partial_out rows A c)), ip_sub_r.
  assert (Z : ip rows (lc A (gs rows A c)) (partial_out rows A c) = 0) by (apply partial_out_orth, span_lc, gs_is_ls).
  rewrite (ip_sym rows (partial_out rows A c) (lc _ _)), Z. ring.
Qed.
Lemma partial_out_pos rows A c : ~ span rows A c -> 0 < ip rows (partial_out rows A c) (partial_out rows A c).
Proof.
  intros H. destruct (ip_pos rows (partial_out rows A c)) as [P|P]; [easy|]. exfalso. apply H. apply gs_res_zero_span. symmetry. exact P.
Qed.
Definition fwl_q rows A c (i : I) : R := / ip rows (partial_out rows A c) (partial_out rows A c) * partial_out rows A c i.
Lemma fwl_dual rows A cols j c : (j < length cols)%nat -> colx cols j = c -> ~ span rows A c ->
  (forall x, In x A -> span rows cols x) -> (forall a, (a < length cols)%nat -> a <> j -> span rows A (colx cols a)) ->
  dual rows cols j (fwl_q rows A c).
Proof.
  intros Hj Ej Hn HA HC. assert (P := partial_out_pos rows A c Hn). split; [easy|]. split.
  - unfold fwl_q. apply span_scal. apply partial_out_span; [easy|]. apply span_in. rewrite <- Ej. now apply colx_in.
  - intros a Ha. unfold fwl_q. rewrite ip_scal_r. destruct (a =? j)%nat eqn:E.
    + apply Nat.eqb_eq in E. subst a. rewrite Ej, partial_out_self. field. lra.
    + apply Nat.eqb_neq in E. rewrite (partial_out_orth rows A c (colx cols a)) by now apply HC. ring.
Qed.
End Fwl.

(* the design without the interaction *)
Definition main_cols {I} (d t : I -> R) (extra : list (I -> R)) : list (I -> R) := (fun _ => 1) :: d :: t :: extra.
Definition inter {I} (d t : I -> R) : I -> R := fun i => d i * t i.

Section Did.
Context {I K G : Type} (keq : forall x y : K, {x = y} + {x <> y}) (geq : forall x y : G, {x = y} + {x <> y}).
Variable qr : list I -> list (I -> R) -> list nat.
Variable lstsq : list I -> list (I -> R) -> (I -> R) -> list R.
Variable inv : list I -> list (I -> R) -> option (nat -> nat -> R).
Variable pinv : list I -> list (I -> R) -> nat -> nat -> R.
Variable sf : option Z -> fl -> fl.
Variable ppf : option Z -> R -> R.
Hypothesis Hqr : qr_ok qr.
Hypothesis Hls : lstsq_ok lstsq.
Hypothesis Hinv : inv_ok inv.
Notation fit := (did_fit keq geq qr lstsq inv pinv sf ppf).
Notation fR x := (fun i => toR (x i)).

Lemma did_fwl_dual rows (d t : I -> R) extra A : same_span rows A (main_cols d t extra) -> ~ span rows A (inter d t) ->
  dual rows (did_design d t extra) 3 (fwl_q rows A (inter d t)).
Proof.
  intros [H1 H2] Hn. apply fwl_dual; [unfold did_design; cbn [length]; lia|easy|easy| |].
  - intros x Hx. apply (span_trans rows (main_cols d t extra)); [|now apply H1]. intros c Hc. apply span_in. unfold main_cols in Hc. unfold did_design. cbn [In] in *. tauto.
  - intros a Ha Hne. apply H2. unfold did_design in *. destruct a as [|[|[|[|a]]]]; [cbn; auto|cbn; auto|cbn; auto|congruence|].
    cbn [length] in Ha. unfold colx. cbn [nth]. do 3 right. apply nth_In. lia.
Qed.

(* Frisch-Waugh-Lovell: the ATT with covariates is the coefficient on the partialled-out interaction *)
Theorem did_fwl cfg rows y d t covs dums r :
  fit cfg rows y d t covs dums [] = Ok r -> ~ span rows (main_cols (fR d) (fR t) (map (fun c => fR c) covs ++ dums)) (inter (fR d) (fR t)) ->
  let e := partial_out rows (main_cols (fR d) (fR t) (map (fun c => fR c) covs ++ dums)) (inter (fR d) (fR t)) in
  0 < ip rows e e /\ r_att r = Fin (ip rows e (fR y) / ip rows e e).
Proof.
  intros H Hn e. assert (P := partial_out_pos _ _ _ Hn). fold e in P. split; [easy|].
  set (extra := map (fun c => fR c) covs ++ dums) in *.
  assert (D := did_fwl_dual rows (fR d) (fR t) extra (main_cols (fR d) (fR t) extra) (conj (fun c => span_in _ _ c) (fun c => span_in _ _ c)) Hn).
  destruct (did_fit_dual keq geq qr lstsq inv pinv sf ppf Hqr Hls Hinv cfg rows y d t covs dums [] r _ _ _ _ H eq_refl D) as (Ha & _).
  rewrite Ha. apply (f_equal Fin). unfold fwl_q. fold e. rewrite ip_scal_l. field. lra.
Qed.

(* same space, same results *)
Theorem did_span cfg rows y d t covs covs' dums dums' r r' :
  fit cfg rows y d t covs dums [] = Ok r -> fit cfg rows y d t covs' dums' [] = Ok r' ->
  same_span rows (main_cols (fR d) (fR t) (map (fun c => fR c) covs ++ dums)) (main_cols (fR d) (fR t) (map (fun c => fR c) covs' ++ dums')) ->
  ~ span rows (main_cols (fR d) (fR t) (map (fun c => fR c) covs ++ dums)) (inter (fR d) (fR t)) ->
  r_att r = r_att r' /\ r_se r = r_se r' /\ r_t r = r_t r' /\ r_p r = r_p r' /\ r_ci r = r_ci r' /\ r_signif r = r_signif r' /\ r_r2 r = r_r2 r' /\
  n_reported (r_coef r) = n_reported (r_coef r') /\ (forall i, In i rows -> r_resid r i = r_resid r' i) /\ (forall i, In i rows -> r_fitted r i = r_fitted r' i).
Proof.
  intros H H' Sp Hn. set (A := main_cols (fR d) (fR t) (map (fun c => fR c) covs ++ dums)) in *. set (A' := main_cols (fR d) (fR t) (map (fun c => fR c) covs' ++ dums')) in *.
  assert (D := did_fwl_dual rows (fR d) (fR t) _ A (conj (fun c => span_in _ _ c) (fun c => span_in _ _ c)) Hn).
  assert (D' := did_fwl_dual rows (fR d) (fR t) (map (fun c => fR c) covs' ++ dums') A Sp Hn).
  assert (W : forall B B' : list (I -> R), (forall c, In c (main_cols (fR d) (fR t) B) -> span rows (main_cols (fR d) (fR t) B') c) ->
      forall c, In c (did_design (fR d) (fR t) B) -> span rows (did_design (fR d) (fR t) B') c).
  { intros B B' HB c Hc. assert (Up : forall x, In x (main_cols (fR d) (fR t) B') -> span rows (did_design (fR d) (fR t) B') x).
    { intros x Hx. apply span_in. unfold main_cols in Hx. unfold did_design. cbn [In] in *. tauto. }
    unfold did_design in Hc. destruct Hc as [Hc|[Hc|[Hc|[Hc|Hc]]]]; try (apply (span_trans rows (main_cols (fR d) (fR t) B')); [easy|]; apply HB; unfold main_cols; cbn [In]; tauto).
    apply span_in. unfold did_design. cbn [In]. tauto. }
  assert (Sd : same_span rows (did_design (fR d) (fR t) (map (fun c => fR c) covs ++ dums)) (did_design (fR d) (fR t) (map (fun c => fR c) covs' ++ dums'))).
  { destruct Sp as [S1 S2]. split; now apply W. }
  destruct (did_fit_inv _ _ _ _ _ _ _ _ _ _ _ _ _ _ _ _ _ H) as (_ & _ & _ & _ & _ & _ & y1 & c1 & n1 & reg & EA & ER & Ha & Hi & Hc & _ & Hr & Hf & H2 & _).
  destruct (did_fit_inv _ _ _ _ _ _ _ _ _ _ _ _ _ _ _ _ _ H') as (_ & _ & _ & _ & _ & _ & y2 & c2 & n2 & reg' & EA' & ER' & Ha' & Hi' & Hc' & _ & Hr' & Hf' & H2' & _).
  cbn [absorb_loop] in EA, EA'. injection EA as <- <- <-. injection EA' as <- <- <-.
  destruct (linreg_span keq qr lstsq inv pinv Hqr Hls Hinv _ _ _ _ _ _ _ _ _ _ _ _ _ _ ER ER' Sd D D') as (L1 & L2 & L3 & L4 & L5 & L6).
  assert (Eatt : r_att r = r_att r') by now rewrite Ha, Ha'.
  cbv zeta in Hi, Hi'. rewrite <- L2, <- L3, <- Eatt in Hi'. destruct Hi as (I1 & I2 & I3 & I4 & I5). destruct Hi' as (J1 & J2 & J3 & J4 & J5).
  split; [easy|]. split; [congruence|]. split; [congruence|]. split; [congruence|]. split; [congruence|]. split; [congruence|]. split.
  { rewrite H2, H2'. unfold r_squared. rewrite (sumf_ext (fun i => l_resid reg i * l_resid reg i) (fun i => l_resid reg' i * l_resid reg' i)); [easy|]. intros i Hi. now rewrite L5. }
  rewrite Hc, Hc', Hr, Hr', Hf, Hf'. easy.
Qed.

(* a covariate may be measured in other units *)
Theorem did_rescaled_covariate cfg rows y d t x x' covs a b r r' :
  a <> 0 -> (forall i, In i rows -> toR (x' i) = a * toR (x i) + b) ->
  fit cfg rows y d t (x :: covs) [] [] = Ok r -> fit cfg rows y d t (x' :: covs) [] [] = Ok r' ->
  ~ span rows (main_cols (fR d) (fR t) (map (fun c => fR c) (x :: covs))) (inter (fR d) (fR t)) ->
  r_att r = r_att r' /\ r_se r = r_se r' /\ r_t r = r_t r' /\ r_p r = r_p r' /\ r_ci r = r_ci r' /\ r_r2 r = r_r2 r'.
Proof.
  intros Hna Hx H H' Hn. destruct (did_span cfg rows y d t _ _ _ _ _ _ H H') as (E1 & E2 & E3 & E4 & E5 & _ & E7 & _); [|now rewrite app_nil_r|repeat split; easy].
  rewrite !app_nil_r. cbn [map]. split; intros c Hc; unfold main_cols in Hc; cbn [In] in Hc.
  - destruct Hc as [Hc|[Hc|[Hc|[<-|Hc]]]]; try (apply span_in; unfold main_cols; cbn [In]; tauto).
    apply (span_ext rows _ (fun i => / a * toR (x' i) - / a * b * 1)); [intros i Hi; rewrite Hx by easy; field; easy|].
    apply span_sub; apply span_scal, span_in; unfold main_cols; cbn [In]; tauto.
  - destruct Hc as [Hc|[Hc|[Hc|[<-|Hc]]]]; try (apply span_in; unfold main_cols; cbn [In]; tauto).
    apply (span_ext rows _ (fun i => a * toR (x i) + b * 1)); [intros i Hi; rewrite Hx by easy; ring|].
    apply span_add; apply span_scal, span_in; unfold main_cols; cbn [In]; tauto.
Qed.

(* the dropped category of a fixed effect does not matter *)
Lemma group_span_main rows (d t : I -> R) g k0 ks (h : G -> R) : NoDup (k0 :: ks) -> (forall i, In i rows -> In (g i) (k0 :: ks)) ->
  span rows (main_cols d t (dummies geq g ks)) (fun i => h (g i)).
Proof.
  intros Nd Hc. destruct (group_span geq rows d t g k0 ks h Nd Hc) as (v & Lv & Ev).
  destruct (group_span geq rows (fun _ => 0) (fun _ => 0) g k0 ks h Nd Hc) as (w & Lw & Ew).
  destruct w as [|w0 [|w1 [|w2 [|w3 w]]]]; try (unfold did_design in Lw; cbn [length] in Lw; lia). unfold did_design in Lw. cbn [length] in Lw.
  exists (w0 :: 0 :: 0 :: w). split; [unfold main_cols; cbn [length]; lia|]. intros i Hi. rewrite (Ew i Hi). unfold did_design, main_cols. cbn [lc]. ring.
Qed.
Theorem did_base_category cfg rows y d t covs g k0 ks k1 ks' r r' :
  NoDup (k0 :: ks) -> NoDup (k1 :: ks') -> (forall i, In i rows -> In (g i) (k0 :: ks)) -> (forall i, In i rows -> In (g i) (k1 :: ks')) ->
  fit cfg rows y d t covs (dummies geq g ks) [] = Ok r -> fit cfg rows y d t covs (dummies geq g ks') [] = Ok r' ->
  ~ span rows (main_cols (fR d) (fR t) (map (fun c => fR c) covs ++ dummies geq g ks)) (inter (fR d) (fR t)) ->
  r_att r = r_att r' /\ r_se r = r_se r' /\ r_t r = r_t r' /\ r_p r = r_p r' /\ r_ci r = r_ci r' /\ r_r2 r = r_r2 r'.
Proof.
  intros Nd Nd' Hk Hk' H H' Hn. destruct (did_span cfg rows y d t _ _ _ _ _ _ H H') as (E1 & E2 & E3 & E4 & E5 & _ & E7 & _); [|easy|repeat split; easy].
  assert (W : forall la kb lb, NoDup (kb :: lb) -> (forall i, In i rows -> In (g i) (kb :: lb)) -> forall c, In c (main_cols (fR d) (fR t) (map (fun c => fR c) covs ++ dummies geq g la)) ->
     span rows (main_cols (fR d) (fR t) (map (fun c => fR c) covs ++ dummies geq g lb)) c).
  { intros la kb lb N2 HK c Hc. unfold main_cols in Hc. cbn [In] in Hc. rewrite in_app_iff in Hc.
    destruct Hc as [Hc|[Hc|[Hc|[Hc|Hc]]]]; try (apply span_in; unfold main_cols; cbn [In]; rewrite in_app_iff; tauto).
    unfold dummies in Hc. apply in_map_iff in Hc. destruct Hc as (k & <- & _).
    apply (span_trans rows (main_cols (fR d) (fR t) (dummies geq g lb))).
    - intros x Hx. apply span_in. unfold main_cols in *. cbn [In] in *. rewrite in_app_iff. tauto.
    - exact (group_span_main rows (fR d) (fR t) g kb lb (fun v => ind (keqb geq v k)) N2 HK). }
  split; [now apply (W ks k1 ks')|now apply (W ks' k0 ks)].
Qed.
End Did.

Section DidCov.
Context {I K G : Type} (keq : forall x y : K, {x = y} + {x <> y}) (geq : forall x y : G, {x = y} + {x <> y}).
Variable qr : list I -> list (I -> R) -> list nat.
Variable lstsq : list I -> list (I -> R) -> (I -> R) -> list R.
Variable inv : list I -> list (I -> R) -> option (nat -> nat -> R).
Variable pinv : list I -> list (I -> R) -> nat -> nat -> R.
Variable sf : option Z -> fl -> fl.
Variable ppf : option Z -> R -> R.
Notation fit := (did_fit keq geq qr lstsq inv pinv sf ppf).
(* a finite covariate and a dummy column are treated alike *)
Lemma did_fit_cov_dum cfg rows y d t covs dums : (forall c, In c covs -> finite_col rows c) ->
  fit cfg rows y d t covs dums [] = fit cfg rows y d t [] (map (fun c i => toR (c i)) covs ++ dums) [].
Proof.
  intros H. assert (N : existsb (has_nan rows) covs = false /\ existsb (has_inf rows) covs = false).
  { split; apply Bool.not_true_iff_false; intros E; apply existsb_exists in E; destruct E as (c & Hc & E); destruct (finite_col_checks rows c (H c Hc)) as (N1 & N2 & _); congruence. }
  destruct N as [N1 N2]. unfold did_fit. cbn [existsb]. rewrite N1, N2. cbn [absorb_loop map app]. reflexivity.
Qed.
End DidCov.

Section Twfe.
Context {I U : Type} (ueq : forall x y : U, {x = y} + {x <> y}).
Variable qr : list I -> list (I -> R) -> list nat.
Variable lstsq : list I -> list (I -> R) -> (I -> R) -> list R.
Variable inv : list I -> list (I -> R) -> option (nat -> nat -> R).
Variable pinv : list I -> list (I -> R) -> nat -> nat -> R.
Variable sf : option Z -> fl -> fl.
Variable ppf : option Z -> R -> R.
Hypothesis Hqr : qr_ok qr.
Hypothesis Hls : lstsq_ok lstsq.
Hypothesis Hinv : inv_ok inv.
Notation tfit := (twfe_fit ueq qr lstsq inv pinv sf ppf).

Theorem twfe_span cluster alpha action rows y d tm u covs covs' r r' :
  let A := fun cs => (fun _ : I => 1) :: map (within ueq Req_EM_T rows u tm) cs in
  tfit cluster alpha action rows y d tm u covs = Ok r -> tfit cluster alpha action rows y d tm u covs' = Ok r' ->
  same_span rows (A covs) (A covs') -> ~ span rows (A covs) (inter d tm) ->
  tw_att r = tw_att r' /\ tw_se r = tw_se r' /\ tw_t r = tw_t r' /\ tw_p r = tw_p r' /\ tw_ci r = tw_ci r' /\ tw_df r = tw_df r' /\ tw_r2 r = tw_r2 r' /\
  forall i, In i rows -> tw_resid r i = tw_resid r' i.
Proof.
  intros A H H' Sp Hn. unfold twfe_fit in H, H'. set (W := within ueq Req_EM_T rows u tm) in *.
  set (cl := match cluster with Some c => c | None => u end) in *. set (df := (Z.of_nat _ + Z.of_nat _ - 2)%Z) in *.
  destruct (linreg_fit ueq qr lstsq inv pinv true (Some cl) (twfe_action action) df rows (twfe_design d tm (map W covs)) (W y)) as [reg|] eqn:ER; [|discriminate].
  destruct (linreg_fit ueq qr lstsq inv pinv true (Some cl) (twfe_action action) df rows (twfe_design d tm (map W covs')) (W y)) as [reg'|] eqn:ER'; [|discriminate].
  cbn [bind] in H, H'. destruct (fisnan (nth 1 (l_coef reg) NaN)); [discriminate|]. destruct (fisnan (nth 1 (l_coef reg') NaN)); [discriminate|].
  assert (Up : forall cs x, In x (A cs) -> In x (twfe_design d tm (map W cs))) by (intros cs x Hx; unfold A in Hx; unfold twfe_design; cbn [In] in *; tauto).
  assert (DD : forall cs, same_span rows (A covs) (A cs) -> dual rows (twfe_design d tm (map W cs)) 1 (fwl_q rows (A covs) (inter d tm))).
  { intros cs [H1 H2]. apply fwl_dual; [unfold twfe_design; cbn [length]; lia|easy|easy| |].
    - intros x Hx. apply (span_trans rows (A cs)); [|now apply H1]. intros c Hc. apply span_in. now apply Up.
    - intros a Ha Hne. apply H2. unfold twfe_design in *. destruct a as [|[|a]]; [cbn; auto|congruence|]. cbn [length] in Ha. unfold colx. cbn [nth]. right. apply nth_In. lia. }
  assert (Sd : same_span rows (twfe_design d tm (map W covs)) (twfe_design d tm (map W covs'))).
  { destruct Sp as [S1 S2]. split; intros c Hc; unfold twfe_design in Hc; cbn [In] in Hc.
    - destruct Hc as [Hc|[Hc|Hc]]; [| now apply span_in; unfold twfe_design; cbn [In]; auto |]; (apply (span_trans rows (A covs')); [intros x Hx; now apply span_in, Up|apply S1; unfold A; cbn [In]; tauto]).
    - destruct Hc as [Hc|[Hc|Hc]]; [| now apply span_in; unfold twfe_design; cbn [In]; auto |]; (apply (span_trans rows (A covs)); [intros x Hx; now apply span_in, Up|apply S2; unfold A; cbn [In]; tauto]). }
  destruct (linreg_span ueq qr lstsq inv pinv Hqr Hls Hinv _ _ _ _ _ _ _ _ _ _ _ _ _ _ ER ER' Sd (DD covs (conj (fun c => span_in _ _ c) (fun c => span_in _ _ c))) (DD covs' Sp)) as (L1 & L2 & L3 & L4 & L5 & L6).
  assert (OI : forall T (a b : T), Ok a = Ok b -> a = b) by (intros T a b E; now injection E). apply OI in H. apply OI in H'. subst r r'. cbn [tw_att tw_se tw_t tw_p tw_ci tw_df tw_r2 tw_resid]. rewrite <- L1, <- L2, <- L3.
  do 6 (split; [reflexivity|]). split; [|easy].
  unfold r_squared. rewrite (sumf_ext (fun i => l_resid reg i * l_resid reg i) (fun i => l_resid reg' i * l_resid reg' i)); [easy|]. intros i Hi. now rewrite L5.
Qed.

(* a covariate may be measured in other units *)
Theorem twfe_rescaled_covariate cluster alpha action rows y d tm u x x' covs a b r r' :
  a <> 0 -> (forall i, In i rows -> x' i = a * x i + b) ->
  tfit cluster alpha action rows y d tm u (x :: covs) = Ok r -> tfit cluster alpha action rows y d tm u (x' :: covs) = Ok r' ->
  ~ span rows ((fun _ => 1) :: map (within ueq Req_EM_T rows u tm) (x :: covs)) (inter d tm) ->
  tw_att r = tw_att r' /\ tw_se r = tw_se r' /\ tw_t r = tw_t r' /\ tw_p r = tw_p r' /\ tw_ci r = tw_ci r' /\ tw_df r = tw_df r' /\ tw_r2 r = tw_r2 r'.
Proof.
  intros Ha Hx H H' Hn. set (W := within ueq Req_EM_T rows u tm) in *.
  assert (E : forall i, In i rows -> W x' i = a * W x i).
  { intros i Hi. unfold W. rewrite (within_ext ueq Req_EM_T rows u tm x' (fun j => a * x j + b * 1) i Hi) by (intros j Hj; rewrite Hx by easy; ring).
    rewrite (within_add ueq Req_EM_T rows u tm (fun j => a * x j) (fun j => b * 1)), !within_scal. 
    assert (Z : within ueq Req_EM_T rows u tm (fun _ => 1) i = 0).
    { unfold within. rewrite (group_mean_const ueq rows u (fun _ => 1) i Hi), (group_mean_const Req_EM_T rows tm (fun _ => 1) i Hi).
      rewrite meanf_const; [ring|]. intros ->. easy. }
    rewrite Z. ring. }
  destruct (twfe_span cluster alpha action rows y d tm u _ _ r r' H H') as (E1 & E2 & E3 & E4 & E5 & E6 & E7 & _); [|exact Hn|repeat split; easy].
  fold W. split; intros c Hc; cbn [map In] in Hc.
  - destruct Hc as [Hc|[<-|Hc]]; try (apply span_in; cbn [map In]; tauto).
    apply (span_ext rows _ (fun i => / a * W x' i)); [intros i Hi; rewrite E by easy; field; easy|]. apply span_scal, span_in; cbn [map In]; tauto.
  - destruct Hc as [Hc|[<-|Hc]]; try (apply span_in; cbn [map In]; tauto).
    apply (span_ext rows _ (fun i => a * W x i)); [intros i Hi; rewrite E by easy; ring|]. apply span_scal, span_in; cbn [map In]; tauto.
Qed.
End Twfe.

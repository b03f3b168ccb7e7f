(* One treatment date on a balanced panel: TwoWayFixedEffects and SunAbraham (C132). *)
From Coq Require Import Reals Lra Lia.
From Verif Require Import Prelude Flt Stats_model Stats_proofs Linalg_model Linalg_proofs Linalg_vcov Linalg_thms Did_model Did_spec Did_proofs Within_proofs Multi_model Multi_proofs Multi_thms Bacon_model Bacon_proofs Bacon_thms Twfe_model Twfe_proofs Twfe_labels Boot_model Boot_proofs Staggered_model Staggered_proofs Staggered_est Staggered_thms Staggered_more Staggered_fit Sun_model Sun_proofs Sun_thms Sun_more Sun_cs One_proofs One_thms One_cs.
From Coq Require Import Arith ZArith String List Permutation.
Import ListNotations.
Open Scope R_scope.

Section Ratio.
Context {I U : Type} (ueq : forall x y : U, {x = y} + {x <> y}).
(* the share of the interaction's variance that survives demeaning, post indicator 0/1 *)
Lemma survives (rows : list I) (dU : U -> R) (tm : I -> R) (u : I -> U) m :
  let p := meanf dU (units ueq rows u) in
  let D := fun i => dU (u i) * tm i in
  let W := within ueq Req_EM_T rows u tm D in
  Within_proofs.balanced ueq Req_EM_T rows u tm m ->
  (forall i, In i rows -> dU (u i) = 0 \/ dU (u i) = 1) -> 0 < p -> p < 1 ->
  (forall i, In i rows -> tm i = 0 \/ tm i = 1) -> (exists i, In i rows /\ tm i = 0) -> (exists i, In i rows /\ tm i = 1) ->
  0 < ip rows W W /\ ip rows W W / ss rows D = (1 - p) / (2 - p).
Proof.
  intros p D W Hb Hd Hp0 Hp1 Ht [i0 [Hi0 E0]] [i1 [Hi1 E1]].
  set (US := units ueq rows u) in *. set (TS := times Req_EM_T rows tm).
  assert (H0 : In 0 TS) by (unfold TS, times; apply nodup_In; rewrite <- E0; apply in_map; auto).
  assert (H1 : In 1 TS) by (unfold TS, times; apply nodup_In; rewrite <- E1; apply in_map; auto).
  assert (Hall : forall x, In x TS -> x = 0 \/ x = 1).
  { intros x Hx. unfold TS, times in Hx. apply nodup_In in Hx. apply in_map_iff in Hx as (j & <- & Hj). auto. }
  assert (HP : Permutation TS [0; 1]).
  { apply NoDup_Permutation; [apply NoDup_nodup| |].
    - constructor; [simpl; intros [?|[]]; lra|]. constructor; [simpl; tauto|constructor].
    - intros x. split; [intros Hx; destruct (Hall x Hx) as [->| ->]; simpl; auto|intros [<-|[<-|[]]]; auto]. }
  assert (Hq : meanf idR TS = 1 / 2) by (rewrite (meanf_perm idR TS [0; 1] HP); unfold meanf, len; simpl; unfold idR; lra).
  assert (LT : len TS = 2) by (unfold len; rewrite (Permutation_length HP); simpl; lra).
  assert (ST1 : sumf idR TS = 1) by (rewrite (sumf_perm _ _ _ HP); simpl; unfold idR; lra).
  assert (ST2 : sumf (fun x => x * x) TS = 1) by (rewrite (sumf_perm _ _ _ HP); simpl; lra).
  assert (STd : sumf (fun x => (x - 1 / 2) * (x - 1 / 2)) TS = 1 / 2) by (rewrite (sumf_perm _ _ _ HP); simpl; lra).
  pose proof (mpos ueq Req_EM_T rows u tm m Hb) as Hm. pose proof (units_pos ueq rows u i0 Hi0) as HU. fold US in HU.
  assert (HUne : US <> []) by (intros E; rewrite E in HU; unfold len in HU; simpl in HU; lra).
  assert (HsU : sumf dU US = len US * p) by (unfold p; apply sumf_meanf; auto).
  assert (HsU2 : sumf (fun x => dU x * dU x) US = len US * p).
  { rewrite <- HsU. apply sumf_ext. intros x Hx. unfold US, units in Hx. apply nodup_In in Hx. apply in_map_iff in Hx as (j & <- & Hj).
    destruct (Hd j Hj) as [->| ->]; ring. }
  assert (HsUd : sumf (fun x => (dU x - p) * (dU x - p)) US = len US * (p * (1 - p))).
  { pose proof (sum_sq_dev dU US HUne) as E. fold p in E. rewrite HsU2 in E. lra. }
  assert (HsD : sumf D rows = INR m * (len US * p)).
  { pose proof (sum_product ueq rows dU idR tm u m Hb) as E. fold US TS in E. rewrite HsU, ST1 in E. unfold idR in E. unfold D. rewrite E. ring. }
  assert (HsD2 : sumf (fun i => D i * D i) rows = INR m * (len US * p)).
  { rewrite (sumf_ext_all _ (fun i => (fun x => dU x * dU x) (u i) * (fun x => x * x) (tm i))) by (intros; unfold D; ring).
    refine (eq_trans (sum_product ueq rows (fun x => dU x * dU x) (fun x => x * x) tm u m Hb) _). fold US TS. rewrite HsU2, ST2. ring. }
  pose proof (rows_size ueq Req_EM_T rows u tm m Hb) as HN. fold US TS in HN. rewrite LT in HN.
  assert (HMU : 0 < INR m * len US) by (apply Rmult_lt_0_compat; assumption).
  assert (HDm : meanf D rows = p / 2) by (unfold meanf; rewrite HsD, HN; field; lra).
  assert (Hrows : rows <> []) by (intros E; rewrite E in Hi0; destruct Hi0).
  assert (Hss : ss rows D = INR m * len US * (p * (2 - p) / 2)).
  { pose proof (sum_sq_dev D rows Hrows) as E. rewrite HDm in E. rewrite HsD2, HN in E. unfold ss. rewrite HDm. lra. }
  assert (HW : ip rows W W = INR m * len US * (p * (1 - p) / 2)).
  { unfold ip. rewrite (sumf_ext _ (fun i => (fun x => (dU x - p) * (dU x - p)) (u i) * (fun x => (x - 1 / 2) * (x - 1 / 2)) (tm i))).
    - refine (eq_trans (sum_product ueq rows (fun x => (dU x - p) * (dU x - p)) (fun x => (x - 1 / 2) * (x - 1 / 2)) tm u m Hb) _).
      fold US TS. rewrite HsUd, STd. field.
    - intros i Hi. unfold W, D. rewrite (product_within ueq rows dU tm u m i Hb Hi). fold US TS p. rewrite Hq. ring. }
  split.
  - rewrite HW. apply Rmult_lt_0_compat; [exact HMU|]. apply Rmult_lt_0_compat; [apply Rmult_lt_0_compat; lra|lra].
  - rewrite HW, Hss. field. repeat split; lra.
Qed.
End Ratio.

Section Twfe.
Context {I : Type}.
Variable qr : list I -> list (I -> R) -> list nat.
Variable lstsq : list I -> list (I -> R) -> (I -> R) -> list R.
Variable inv : list I -> list (I -> R) -> option (nat -> nat -> R).
Variable pinv : list I -> list (I -> R) -> nat -> nat -> R.
Variable sf : option Z -> fl -> fl.
Variable ppf : option Z -> R -> R.
Hypothesis Hqr : qr_ok qr.
Hypothesis Hls : lstsq_ok lstsq.
Variables (rows : list I) (u t : I -> Z) (g : I -> coh) (m : nat) (C : Z -> coh).
Hypothesis Hbal : Within_proofs.balanced Z.eq_dec Z.eq_dec rows u t m.
Hypothesis HC : forall i, In i rows -> g i = C (u i).
Hypothesis Hone : forall i, In i rows -> c_never (g i) = true \/ g i = CFin 1.
Hypothesis Ht : forall i, In i rows -> t i = 0%Z \/ t i = 1%Z.
Notation d := (fun i => ind (c_is (g i) 1)).
Notation after := (fun i => ind (Z.leb 1 (t i))).
Hypothesis H4 : four_cells rows d after.

(* TwoWayFixedEffects.fit on two periods coded 0 and 1: the difference in differences times (1 - p) / (2 - p), p the share of treated units *)
Theorem twfe_one_date cluster alpha action y r :
  let p := meanf (fun a => ind (c_is (C a) 1)) (units Z.eq_dec rows u) in
  twfe_fit Z.eq_dec qr lstsq inv pinv sf ppf cluster alpha action rows y d (fun i => IZR (t i)) u [] = Ok r ->
  0 < p < 1 /\ tw_att r = Fin (did_of_means rows d after y * ((1 - p) / (2 - p))).
Proof.
  intros p H.
  set (dU := fun a => ind (c_is (C a) 1)). set (tm := fun i => IZR (t i)).
  assert (Dd : forall i, In i rows -> d i = dU (u i)) by (intros i Hi; unfold dU; rewrite <- (HC i Hi); reflexivity).
  assert (HD : forall i, In i rows -> d i * tm i = btreat t g i).
  { intros i Hi. unfold btreat, tm. pose proof (never_iff rows g 1 ltac:(lia) Hone i Hi) as N. rewrite N, negb_involutive.
    destruct (c_is (g i) 1) eqn:E; cbn [andb ind]; [|ring]. destruct (g i) as [z| |]; cbn in E; try discriminate. apply Z.eqb_eq in E. subst z. cbn [c_started].
    destruct (Ht i Hi) as [-> | ->]; cbn; lra. }
  destruct H4 as (H00 & H01 & H10 & H11).
  destruct (some_row rows t g 1 0 0 H00) as (i00 & R00 & D00 & T00). destruct (some_row rows t g 1 1 1 H11) as (i11 & R11 & D11 & T11).
  assert (Hd01 : forall i, In i rows -> dU (u i) = 0 \/ dU (u i) = 1) by (intros i Hi; rewrite <- (Dd i Hi); destruct (c_is (g i) 1); cbn; auto).
  assert (U : forall i, In i rows -> In (u i) (units Z.eq_dec rows u)) by (intros i Hi; apply nodup_In, in_map; exact Hi).
  assert (Hp : 0 < p < 1).
  { assert (L : 0 < len (units Z.eq_dec rows u)) by (apply len_pos; intros E; pose proof (U i00 R00) as X; rewrite E in X; destruct X).
    assert (P0 : forall a, In a (units Z.eq_dec rows u) -> 0 <= dU a <= 1) by (intros a _; unfold dU; destruct (c_is (C a) 1); cbn; lra).
    unfold p, meanf. fold dU. split.
    - apply Rdiv_lt_0_compat; [|exact L]. apply Rlt_le_trans with (dU (u i11)); [rewrite <- (Dd i11 R11), D11; lra|]. apply (sumf_in_le dU); [intros a Ha; apply P0; exact Ha|apply U; exact R11].
    - apply (Rmult_lt_reg_r (len (units Z.eq_dec rows u))); [exact L|]. unfold Rdiv. rewrite Rmult_assoc, Rinv_l, Rmult_1_r by lra.
      assert (X : 1 - dU (u i00) <= sumf (fun a => 1 - dU a) (units Z.eq_dec rows u)) by (apply (sumf_in_le (fun a => 1 - dU a)); [intros a Ha; specialize (P0 a Ha); lra|apply U; exact R00]).
      rewrite sumf_sub, sumf_const in X. rewrite <- (Dd i00 R00), D00 in X. lra. }
  split; [exact Hp|].
  assert (T01 : forall i, In i rows -> tm i = 0 \/ tm i = 1) by (intros i Hi; unfold tm; destruct (Ht i Hi) as [-> | ->]; auto).
  assert (Z0 : exists i, In i rows /\ tm i = 0).
  { exists i00. split; [exact R00|]. unfold tm. destruct (Ht i00 R00) as [E|E]; rewrite E in *; [reflexivity|cbn in T00; lra]. }
  assert (Z1 : exists i, In i rows /\ tm i = 1).
  { exists i11. split; [exact R11|]. unfold tm. destruct (Ht i11 R11) as [E|E]; rewrite E in *; [cbn in T11; lra|reflexivity]. }
  destruct (survives Z.eq_dec rows dU tm u m (balanced_IZR rows u t m Hbal) Hd01 (proj1 Hp) (proj2 Hp) T01 Z0 Z1) as [S1 S2].
  assert (EW : forall i, In i rows -> within Z.eq_dec Req_EM_T rows u tm (fun i => dU (u i) * tm i) i = within Z.eq_dec Z.eq_dec rows u t (btreat t g) i).
  { intros i Hi. unfold tm at 1. rewrite within_IZR. apply within_ext; [exact Hi|]. intros j Hj. rewrite <- (HD j Hj), (Dd j Hj). reflexivity. }
  set (V := ip rows (within Z.eq_dec Z.eq_dec rows u t (btreat t g)) (within Z.eq_dec Z.eq_dec rows u t (btreat t g))).
  assert (EV : ip rows (within Z.eq_dec Req_EM_T rows u tm (fun i => dU (u i) * tm i)) (within Z.eq_dec Req_EM_T rows u tm (fun i => dU (u i) * tm i)) = V).
  { unfold V, ip. apply sumf_ext. intros i Hi. rewrite (EW i Hi). reflexivity. }
  assert (ES : ss rows (fun i => dU (u i) * tm i) = ss rows (btreat t g)).
  { unfold ss. rewrite (meanf_ext (fun i => dU (u i) * tm i) (btreat t g)) by (intros j Hj; rewrite <- (HD j Hj), (Dd j Hj); reflexivity).
    apply sumf_ext. intros j Hj. rewrite <- (HD j Hj), (Dd j Hj). reflexivity. }
  rewrite EV in S1, S2. rewrite ES in S2.
  rewrite (twfe_vs_decompose qr lstsq inv pinv sf ppf Hqr Hls cluster alpha action rows y d u t g m r Hbal HD S1 H). fold V. unfold p. fold dU in S2 |- *. rewrite S2.
  destruct (bacon_one_date rows u t g m C 1 Hbal HC ltac:(lia) Hone (conj H00 (conj H01 (conj H10 H11))) y true) as [B _]. cbn [bo_twfe bacon_fit] in B. rewrite B. reflexivity.
Qed.
End Twfe.

Section Sun.
Context {I : Type}.
Variable qr : list I -> list (I -> R) -> list nat.
Variable lstsq : list I -> list (I -> R) -> (I -> R) -> list R.
Variable inv : list I -> list (I -> R) -> option (nat -> nat -> R).
Variable pinv : list I -> list (I -> R) -> nat -> nat -> R.
Variable sf : option Z -> fl -> fl.
Variable ppf : option Z -> R -> R.
Hypothesis Hqr : qr_ok qr.
Hypothesis Hls : lstsq_ok lstsq.
Variable qr2 : list Z -> list (Z -> R) -> list nat.
Variable lstsq2 : list Z -> list (Z -> R) -> (Z -> R) -> list R.
Variable inv2 : list Z -> list (Z -> R) -> option (nat -> nat -> R).
Variable logit : list Z -> list Z -> list (Z -> R) -> option (Z -> R).
Variables (u t : I -> Z) (g : I -> coh) (y : I -> R) (cluster : option (I -> Z)).
Variables (rows : list I) (C : Z -> coh) (k : Z).
Hypothesis Hbal : Within_proofs.balanced Z.eq_dec Z.eq_dec rows u t 1.
Hypothesis HC : forall i, In i rows -> g i = C (u i).
Hypothesis Hk : (0 < k)%Z.
Hypothesis Hone : forall i, In i rows -> c_never (g i) = true \/ g i = CFin k.
Notation d := (fun i => ind (c_is (g i) k)).
Notation after := (fun i => ind (Z.leb k (t i))).
Notation late := (filter (fun i => Z.leb (k - 1) (t i)) rows).
Theorem sun_one_date cfg ccfg agg bal ws r c i : sa_anticipation cfg = 0%Z -> cs_anticipation ccfg = 0%Z -> cs_control ccfg = "never_treated"%string ->
  In i rows -> g i = CFin k -> In (k - 1)%Z (map t rows) -> (exists s, In s (map t rows) /\ (k <= s)%Z) ->
  (forall j, In j rows -> g j = CFin k -> (-20 <= t j - k <= 20)%Z) ->
  sa_fit qr lstsq inv pinv sf ppf u t g y [] cluster cfg rows = Ok r ->
  cs_fit qr2 lstsq2 inv2 logit sf ppf rows u t g (fun i => Some (y i)) [] ccfg agg bal ws = Ok c ->
  sa_att r = Fin (did_of_means late d after y) /\ cr_att c = Fin (did_of_means late d after y).
Proof.
  intros Ha Hca Hctl Hi Gi Hb Hs Hrng Hr Hc.
  pose proof (cs_one_date qr2 lstsq2 inv2 logit sf ppf u t g y rows C k Hbal HC Hk Hone ccfg agg bal ws c Hctl Hca Hc i Hi Gi Hb Hs) as A.
  split; [|exact A]. rewrite <- A.
  destruct (fits_agree qr lstsq inv pinv sf ppf Hqr Hls qr2 lstsq2 inv2 logit u t g y cluster rows C Hbal HC (Hval1 g rows k Hk Hone) cfg ccfg agg bal ws r c) as [_ E]; auto.
  - congruence.
  - intros j z Hj Gj Hz. destruct (Hone j Hj) as [H|H]; rewrite Gj in H; [cbn in H; apply Z.eqb_eq in H; lia|]. injection H as ->.
    unfold sa_ref. rewrite Ha. replace (k + (-1 - 0))%Z with (k - 1)%Z by lia. exact Hb.
  - intros j e Hj Hrel. destruct (Hone j Hj) as [H|H].
    + unfold sa_rel in Hrel. destruct (g j) as [z| |]; cbn in H; try discriminate. apply Z.eqb_eq in H. subst z. discriminate.
    + unfold sa_rel in Hrel. specialize (Hrng j Hj H). rewrite H in Hrel. destruct (Z.ltb 0 k); [|discriminate]. injection Hrel as <-. exact Hrng.
  - apply E; [exact Hca|]. intros E0. destruct (overall_aggregation qr2 lstsq2 inv2 logit sf ppf rows u t g (fun i => Some (y i)) [] ccfg agg bal ws c Hc) as (_ & O1 & _).
    rewrite Hca in O1. specialize (O1 E0). congruence.
Qed.
End Sun.

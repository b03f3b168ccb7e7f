(* The two-way fixed-effects estimator: what its coefficient is. *)
From Verif Require Import Prelude Flt Linalg_model Linalg_proofs Linalg_vcov Linalg_thms Did_model Did_spec Did_proofs Did_equiv Did_more
  Within_proofs Stats_model Boot_model Boot_proofs Twfe_model.
From Coq Require Import Arith ZArith String List.
Import ListNotations.
Open Scope R_scope.

(* ---- simple regression ---- *)
Definition ss {I} (rows : list I) (x : I -> R) : R := sumf (fun i => (x i - meanf x rows) * (x i - meanf x rows)) rows.

Lemma simple_reg {I} (rows : list I) (x y : I -> R) b :
  is_ls rows [(fun _ => 1); x] y b -> ss rows x <> 0 ->
  nth 1 b 0 = sumf (fun i => (x i - meanf x rows) * y i) rows / ss rows x.
Proof.
  intros [Hl Hf] Hs. destruct b as [|b0 [|b1 [|]]]; simpl in Hl; try discriminate. simpl nth.
  inversion Hf as [|? ? H1 Hf1]; subst. inversion Hf1 as [|? ? H2 _]; subst. clear Hf Hf1.
  unfold ip in H1, H2. simpl lc in H1, H2.
  set (mx := meanf x rows) in *.
  assert (Hne : rows <> []) by (intros E; apply Hs; unfold ss; rewrite E; reflexivity).
  assert (H3 : sumf (fun i => (x i - mx) * (y i - (b0 * 1 + (b1 * x i + 0)))) rows = 0).
  { rewrite (sumf_ext_all _ (fun i => x i * (y i - (b0 * 1 + (b1 * x i + 0))) - mx * (1 * (y i - (b0 * 1 + (b1 * x i + 0)))))) by (intros; ring).
    rewrite sumf_sub, sumf_scal, H1, H2. ring. }
  assert (E : sumf (fun i => (x i - mx) * (y i - (b0 * 1 + (b1 * x i + 0)))) rows
            = sumf (fun i => (x i - mx) * y i) rows - (b0 + b1 * mx) * sumf (fun i => x i - mx) rows - b1 * ss rows x).
  { unfold ss. fold mx. rewrite <- !sumf_scal, <- !sumf_sub. apply sumf_ext_all. intros; ring. }
  assert (Z0 : sumf (fun i => x i - mx) rows = 0) by (apply (sumf_dev x rows Hne)). rewrite Z0 in E.
  apply (Rmult_eq_reg_r (ss rows x)); auto. unfold Rdiv. rewrite Rmult_assoc, Rinv_l by auto. lra.
Qed.

Lemma simple_indep {I} (rows : list I) (x : I -> R) : ss rows x <> 0 -> indep rows [(fun _ => 1); x].
Proof.
  intros Hs b Hl Hz. destruct b as [|b0 [|b1 [|]]]; simpl in Hl; try discriminate.
  assert (Hne : rows <> []) by (intros E; apply Hs; unfold ss; rewrite E; reflexivity).
  assert (Hz' : forall i, In i rows -> b0 + b1 * x i = 0) by (intros i Hi; specialize (Hz i Hi); simpl in Hz; lra).
  assert (Hm : b0 + b1 * meanf x rows = 0).
  { rewrite <- (meanf_const b0 rows Hne), <- meanf_scal, <- meanf_add.
    rewrite (meanf_ext _ (fun _ => 0)) by auto. apply meanf_const; auto. }
  assert (Hb : b1 * b1 * ss rows x = 0).
  { unfold ss. rewrite <- sumf_scal. apply sumf_zero. intros i Hi. specialize (Hz' i Hi).
    replace (b1 * b1 * ((x i - meanf x rows) * (x i - meanf x rows))) with ((b1 * (x i - meanf x rows)) * (b1 * (x i - meanf x rows))) by ring.
    replace (b1 * (x i - meanf x rows)) with 0 by lra. ring. }
  assert (b1 = 0).
  { apply Rmult_integral in Hb as [Hb|Hb]; [|contradiction]. apply Rmult_integral in Hb as [|]; auto. }
  subst. assert (b0 = 0) by lra. subst. reflexivity.
Qed.

Section T.
Context {I U : Type} (ueq : forall x y : U, {x = y} + {x <> y}).
Variable qr : list I -> list (I -> R) -> list nat.
Variable lstsq : list I -> list (I -> R) -> (I -> R) -> list R.
Variable inv : list I -> list (I -> R) -> option (nat -> nat -> R).
Variable pinv : list I -> list (I -> R) -> nat -> nat -> R.
Variable sf : option Z -> fl -> fl.
Variable ppf : option Z -> R -> R.
Hypothesis Hqr : qr_ok qr.
Hypothesis Hls : lstsq_ok lstsq.
Hypothesis Hinv : inv_ok inv.
Notation fit := (twfe_fit ueq qr lstsq inv pinv sf ppf).
Notation W rows u tm := (within ueq Req_EM_T rows u tm).

(* the reported ATT is the slope of the demeaned outcome on the raw interaction *)
Theorem twfe_att_formula cluster alpha action rows y d tm u r :
  fit cluster alpha action rows y d tm u [] = Ok r ->
  let D := fun i => d i * tm i in
  ss rows D <> 0 ->
  tw_att r = Fin (sumf (fun i => (D i - meanf D rows) * W rows u tm y i) rows / ss rows D).
Proof.
  intros H D Hs. unfold twfe_fit in H.
  destruct (linreg_fit _ _ _ _ _ _ _ _ _ _ _ _) as [reg|] eqn:E; [|discriminate]. cbn [bind] in H.
  destruct (fisnan (nth 1 (l_coef reg) NaN)); [discriminate|]. injection H as <-. cbn [tw_att].
  destruct (linreg_fit_inv ueq qr lstsq inv pinv _ _ _ _ _ _ _ _ E) as (o & Ho & Hc & _). rewrite Hc.
  simpl map in Ho. unfold twfe_design in Ho. fold D in Ho.
  destruct (solve_ols_full_rank ueq qr lstsq inv Hqr Hls _ _ _ _ _ _ _ (simple_indep rows D Hs) Ho) as (b & -> & Lb & Hb).
  rewrite <- (simple_reg rows D (W rows u tm y) b (proj2 (Hb b) eq_refl) Hs).
  simpl in Lb. rewrite nth_indep with (d' := Fin 0) by (rewrite map_length; lia). rewrite map_nth. reflexivity.
Qed.

Theorem twfe_defined cluster alpha action rows y d tm u :
  ss rows (fun i => d i * tm i) <> 0 -> (2 < length rows)%nat ->
  (2 <= length (cl_keys ueq rows (match cluster with Some c => c | None => u end)))%nat ->
  exists r, fit cluster alpha action rows y d tm u [] = Ok r.
Proof.
  intros Hs Hn HG. unfold twfe_fit, linreg_fit.
  destruct (solve_defined ueq qr lstsq inv Hqr Hinv rows (twfe_design d tm (map (W rows u tm) [])) (W rows u tm y)
     (match cluster with Some c => c | None => u end) true (twfe_action action)) as [o Ho]; auto.
  - apply simple_indep; auto.
  - unfold twfe_action. destruct (String.eqb action "error"); discriminate.
  - rewrite Ho. cbn [bind l_coef l_vcov l_resid l_df].
    destruct (solve_ols_full_rank ueq qr lstsq inv Hqr Hls _ _ _ _ _ _ _ (simple_indep rows _ Hs) Ho) as (b & Eb & Lb & _).
    rewrite Eb. simpl in Lb. destruct b as [|b0 [|b1 [|]]]; simpl in Lb; try discriminate. simpl. eauto.
Qed.

(* balanced panel: unit and period effects do not move the ATT *)
Theorem twfe_additive_invariant cluster alpha action rows y d tm u m (a : U -> R) (b : R -> R) r r' :
  balanced ueq Req_EM_T rows u tm m -> ss rows (fun i => d i * tm i) <> 0 ->
  fit cluster alpha action rows y d tm u [] = Ok r ->
  fit cluster alpha action rows (fun i => y i + (a (u i) + b (tm i))) d tm u [] = Ok r' ->
  tw_att r' = tw_att r.
Proof.
  intros Hb Hs H H'. rewrite (twfe_att_formula _ _ _ _ _ _ _ _ _ H Hs), (twfe_att_formula _ _ _ _ _ _ _ _ _ H' Hs).
  do 2 f_equal. apply sumf_ext. intros i Hi. rewrite (within_absorbs ueq Req_EM_T rows u tm m Hb y a b i Hi). reflexivity.
Qed.

(* exact model: the ATT is tau shrunk by the share of the interaction's variance left after demeaning *)
Theorem twfe_shrinkage cluster alpha action rows y d tm u m (a : U -> R) (b : R -> R) tau r :
  let D := fun i => d i * tm i in
  balanced ueq Req_EM_T rows u tm m -> ss rows D <> 0 ->
  (forall i, In i rows -> y i = a (u i) + b (tm i) + tau * D i) ->
  fit cluster alpha action rows y d tm u [] = Ok r ->
  tw_att r = Fin (tau * (ip rows (W rows u tm D) (W rows u tm D) / ss rows D)).
Proof.
  intros D Hb Hs Hy H. rewrite (twfe_att_formula _ _ _ _ _ _ _ _ _ H Hs). fold D. f_equal.
  assert (E : sumf (fun i => (D i - meanf D rows) * W rows u tm y i) rows = tau * ip rows (W rows u tm D) (W rows u tm D)).
  { rewrite (sumf_ext _ (fun i => tau * (W rows u tm D i * D i) - meanf D rows * tau * W rows u tm D i)).
    - rewrite sumf_sub, !sumf_scal, (within_sum_zero ueq Req_EM_T rows u tm m Hb).
      fold (ip rows (W rows u tm D) D). rewrite (within_ip ueq Req_EM_T rows u tm m Hb D D). ring.
    - intros i Hi.
      assert (Ew : W rows u tm y i = tau * W rows u tm D i).
      { rewrite (within_ext ueq Req_EM_T rows u tm y (fun i => tau * D i + (a (u i) + b (tm i))) i Hi)
          by (intros j Hj; rewrite (Hy j Hj); ring).
        rewrite (within_absorbs ueq Req_EM_T rows u tm m Hb (fun i => tau * D i) a b i Hi). apply within_scal. }
      rewrite Ew. ring. }
  refine (eq_trans (f_equal (fun z => z / ss rows D) E) _). unfold Rdiv. ring.
Qed.

(* shares: p treated among units, periods with mean q and variance v *)
Lemma product_within (rows : list I) (dU : U -> R) (tm : I -> R) (u : I -> U) m i : balanced ueq Req_EM_T rows u tm m -> In i rows ->
  W rows u tm (fun j => dU (u j) * tm j) i
  = (dU (u i) - meanf dU (units ueq rows u)) * (tm i - meanf idR (times Req_EM_T rows tm)).
Proof.
  intros Hb Hi. unfold within.
  assert (E1 : group_mean ueq rows u (fun j => dU (u j) * tm j) i = dU (u i) * meanf idR (times Req_EM_T rows tm)).
  { rewrite <- (unit_mean_of_time ueq Req_EM_T rows u tm m Hb idR i Hi). unfold group_mean. rewrite <- meanf_scal.
    apply meanf_ext. intros j Hj. apply filter_In in Hj as [_ Hj]. apply keqb_true in Hj. rewrite Hj. reflexivity. }
  assert (E2 : group_mean Req_EM_T rows tm (fun j => dU (u j) * tm j) i = tm i * meanf dU (units ueq rows u)).
  { rewrite <- (time_mean_of_unit ueq Req_EM_T rows u tm m Hb dU i Hi). unfold group_mean. rewrite <- meanf_scal.
    apply meanf_ext. intros j Hj. apply filter_In in Hj as [_ Hj]. apply keqb_true in Hj. rewrite Hj. ring. }
  assert (E3 : meanf (fun j => dU (u j) * tm j) rows = meanf dU (units ueq rows u) * meanf idR (times Req_EM_T rows tm)).
  { unfold meanf at 1.
    rewrite <- (sumf_group ueq u (units ueq rows u)) by (try apply NoDup_nodup; intros; apply nodup_In; apply in_map; auto).
    rewrite (sumf_ext _ (fun x => dU x * (INR m * sumf idR (times Req_EM_T rows tm)))).
    - rewrite sumf_scal_r, (rows_size ueq Req_EM_T rows u tm m Hb). unfold meanf.
      pose proof (mpos ueq Req_EM_T rows u tm m Hb). pose proof (units_pos ueq rows u i Hi). pose proof (times_pos Req_EM_T rows tm i Hi).
      field. lra.
    - intros x Hx. apply nodup_In in Hx. rewrite <- (unit_sum ueq Req_EM_T rows u tm m Hb idR x Hx). rewrite <- sumf_scal.
      apply sumf_ext. intros j Hj. apply filter_In in Hj as [_ Hj]. apply keqb_true in Hj. rewrite Hj. reflexivity. }
  rewrite E1, E2, E3. ring.
Qed.

Lemma sum_product (rows : list I) (f : U -> R) (h : R -> R) (tm : I -> R) (u : I -> U) m : balanced ueq Req_EM_T rows u tm m ->
  sumf (fun i => f (u i) * h (tm i)) rows = INR m * sumf f (units ueq rows u) * sumf h (times Req_EM_T rows tm).
Proof.
  intros Hb.
  rewrite <- (sumf_group ueq u (units ueq rows u)) by (try apply NoDup_nodup; intros; apply nodup_In; apply in_map; auto).
  rewrite (sumf_ext _ (fun x => f x * (INR m * sumf h (times Req_EM_T rows tm)))).
  - rewrite sumf_scal_r. ring.
  - intros x Hx. apply nodup_In in Hx. rewrite <- (unit_sum ueq Req_EM_T rows u tm m Hb h x Hx), <- sumf_scal.
    apply sumf_ext. intros j Hj. apply filter_In in Hj as [_ Hj]. apply keqb_true in Hj. rewrite Hj. reflexivity.
Qed.

Lemma sum_sq_dev {A} (f : A -> R) l : l <> [] ->
  sumf (fun x => f x * f x) l = len l * (meanf f l * meanf f l) + sumf (fun x => (f x - meanf f l) * (f x - meanf f l)) l.
Proof.
  intros Hne. set (c := meanf f l).
  rewrite (sumf_ext_all (fun x => (f x - c) * (f x - c)) (fun x => f x * f x - 2 * c * f x + c * c)) by (intros; ring).
  rewrite sumf_add, sumf_sub, sumf_scal, sumf_const, (sumf_meanf f l Hne). fold c. ring.
Qed.

Theorem twfe_attenuation cluster alpha action (rows : list I) (y : I -> R) (dU : U -> R) (tm : I -> R) (u : I -> U) m (a : U -> R) (b : R -> R) tau r :
  let p := meanf dU (units ueq rows u) in
  let q := meanf idR (times Req_EM_T rows tm) in
  let v := meanf (fun x => (x - q) * (x - q)) (times Req_EM_T rows tm) in
  balanced ueq Req_EM_T rows u tm m ->
  (forall i, In i rows -> dU (u i) = 0 \/ dU (u i) = 1) -> 0 < p -> p < 1 -> 0 < v ->
  (forall i, In i rows -> y i = a (u i) + b (tm i) + tau * (dU (u i) * tm i)) ->
  fit cluster alpha action rows y (fun i => dU (u i)) tm u [] = Ok r ->
  tw_att r = Fin (tau * ((1 - p) * v / ((1 - p) * (q * q) + v))).
Proof.
  intros p q v Hb Hd Hp0 Hp1 Hv Hy H.
  assert (Hne : rows <> []).
  { intros E. unfold p, units, meanf in Hp0. rewrite E in Hp0. simpl in Hp0. unfold Rdiv in Hp0. lra. }
  assert (Hex : exists i0, In i0 rows) by (clear - Hne; destruct rows as [|i0 ?]; [congruence|exists i0; simpl; auto]).
  destruct Hex as [i0 Hi0].
  set (D := fun i => dU (u i) * tm i).
  set (US := units ueq rows u) in *. set (TS := times Req_EM_T rows tm) in *.
  pose proof (mpos ueq Req_EM_T rows u tm m Hb) as Hm.
  pose proof (units_pos ueq rows u i0 Hi0) as HU. pose proof (times_pos Req_EM_T rows tm i0 Hi0) as HT. fold US in HU. fold TS in HT.
  assert (HUne : US <> []) by (intros E; rewrite E in HU; unfold len in HU; simpl in HU; lra).
  assert (HTne : TS <> []) by (intros E; rewrite E in HT; unfold len in HT; simpl in HT; lra).
  assert (HsU : sumf dU US = len US * p) by (unfold p; apply sumf_meanf; auto).
  assert (HsU2 : sumf (fun x => dU x * dU x) US = len US * p).
  { rewrite <- HsU. apply sumf_ext. intros x Hx. unfold US, units in Hx. apply nodup_In in Hx. apply in_map_iff in Hx as (j & <- & Hj).
    destruct (Hd j Hj) as [->| ->]; ring. }
  assert (HsUd : sumf (fun x => (dU x - p) * (dU x - p)) US = len US * (p * (1 - p))).
  { pose proof (sum_sq_dev dU US HUne) as E. fold p in E. rewrite HsU2 in E. lra. }
  assert (HsT : sumf idR TS = len TS * q) by (unfold q; apply sumf_meanf; auto).
  assert (HsTd : sumf (fun x => (x - q) * (x - q)) TS = len TS * v).
  { unfold v. apply sumf_meanf; auto. }
  assert (HsT2 : sumf (fun x => x * x) TS = len TS * (q * q + v)).
  { pose proof (sum_sq_dev idR TS HTne) as E. fold q in E. unfold idR in E at 1 2 3 4. unfold idR in E. rewrite HsTd in E. lra. }
  assert (HsD : sumf D rows = INR m * (len US * p) * (len TS * q)).
  { pose proof (sum_product rows dU idR tm u m Hb) as E. fold US TS in E. rewrite HsU, HsT in E. exact E. }
  assert (HsD2 : sumf (fun i => D i * D i) rows = INR m * (len US * p) * (len TS * (q * q + v))).
  { rewrite (sumf_ext_all _ (fun i => (fun x => dU x * dU x) (u i) * (fun x => x * x) (tm i))) by (intros; unfold D; ring).
    refine (eq_trans (sum_product rows (fun x => dU x * dU x) (fun x => x * x) tm u m Hb) _). fold US TS. rewrite HsU2, HsT2. reflexivity. }
  pose proof (rows_size ueq Req_EM_T rows u tm m Hb) as HN. fold US TS in HN.
  assert (HNpos : 0 < len rows) by (rewrite HN; apply Rmult_lt_0_compat; [apply Rmult_lt_0_compat|]; auto).
  assert (HDm : meanf D rows = p * q) by (unfold meanf; rewrite HsD, HN; field; lra).
  assert (Hrows : rows <> []) by (intros E; rewrite E in Hi0; destruct Hi0).
  assert (Hss : ss rows D = INR m * len US * len TS * (p * ((1 - p) * (q * q) + v))).
  { pose proof (sum_sq_dev D rows Hrows) as E. rewrite HDm in E. rewrite HsD2, HN in E. unfold ss. rewrite HDm. lra. }
  assert (Hpos : 0 < (1 - p) * (q * q) + v) by (pose proof (sq_nonneg q); nra).
  assert (Hssn : ss rows D <> 0).
  { rewrite Hss. apply Rgt_not_eq. apply Rmult_lt_0_compat; [|apply Rmult_lt_0_compat; auto].
    apply Rmult_lt_0_compat; [apply Rmult_lt_0_compat|]; auto. }
  rewrite (twfe_shrinkage _ _ _ _ _ _ _ _ m a b tau _ Hb Hssn Hy H). fold D. f_equal. f_equal.
  assert (HW : ip rows (W rows u tm D) (W rows u tm D) = INR m * len US * len TS * (p * (1 - p) * v)).
  { unfold ip. rewrite (sumf_ext _ (fun i => (fun x => (dU x - p) * (dU x - p)) (u i) * (fun x => (x - q) * (x - q)) (tm i))).
    - refine (eq_trans (sum_product rows (fun x => (dU x - p) * (dU x - p)) (fun x => (x - q) * (x - q)) tm u m Hb) _).
      fold US TS. rewrite HsUd, HsTd. ring.
    - intros i Hi. unfold D. rewrite (product_within rows dU tm u m i Hb Hi). fold US TS p q. ring. }
  rewrite HW, Hss. field. repeat split; try lra.
Qed.

(* post indicator 0/1: the estimate is tau (1-p)/(2-p), never tau *)
Theorem twfe_never_recovers cluster alpha action (rows : list I) (y : I -> R) (dU : U -> R) (tm : I -> R) (u : I -> U) m (a : U -> R) (b : R -> R) tau r :
  let p := meanf dU (units ueq rows u) in
  balanced ueq Req_EM_T rows u tm m ->
  (forall i, In i rows -> dU (u i) = 0 \/ dU (u i) = 1) -> 0 < p -> p < 1 ->
  (forall i, In i rows -> tm i = 0 \/ tm i = 1) -> (exists i, In i rows /\ tm i = 0) -> (exists i, In i rows /\ tm i = 1) ->
  (forall i, In i rows -> y i = a (u i) + b (tm i) + tau * (dU (u i) * tm i)) ->
  fit cluster alpha action rows y (fun i => dU (u i)) tm u [] = Ok r ->
  tw_att r = Fin (tau * ((1 - p) / (2 - p))) /\ (tau <> 0 -> tw_att r <> Fin tau).
Proof.
  intros p Hb Hd Hp0 Hp1 Ht [i0 [Hi0 E0]] [i1 [Hi1 E1]] Hy H.
  set (TS := times Req_EM_T rows tm).
  assert (H0 : In 0 TS) by (unfold TS, times; apply nodup_In; rewrite <- E0; apply in_map; auto).
  assert (H1 : In 1 TS) by (unfold TS, times; apply nodup_In; rewrite <- E1; apply in_map; auto).
  assert (Hall : forall x, In x TS -> x = 0 \/ x = 1).
  { intros x Hx. unfold TS, times in Hx. apply nodup_In in Hx. apply in_map_iff in Hx as (j & <- & Hj). auto. }
  assert (Hnd : NoDup TS) by apply NoDup_nodup.
  assert (HP : Permutation.Permutation TS [0; 1]).
  { apply Permutation.NoDup_Permutation; auto.
    - constructor; [simpl; intros [?|[]]; lra|]. constructor; [simpl; tauto|constructor].
    - intros x. split; [intros Hx; destruct (Hall x Hx) as [->| ->]; simpl; auto|intros [<-|[<-|[]]]; auto]. }
  assert (Hq : meanf idR TS = 1 / 2).
  { rewrite (meanf_perm idR TS [0; 1] HP). unfold meanf, len; simpl. unfold idR. lra. }
  assert (Hv : meanf (fun x => (x - 1 / 2) * (x - 1 / 2)) TS = 1 / 4).
  { rewrite (meanf_perm _ TS [0; 1] HP). unfold meanf, len; simpl. lra. }
  assert (Hatt : tw_att r = Fin (tau * ((1 - p) / (2 - p)))).
  { pose proof (twfe_attenuation cluster alpha action rows y dU tm u m a b tau r) as HA. cbv zeta in HA. fold TS in HA. fold p in HA.
    rewrite Hq, Hv in HA. rewrite (HA Hb Hd Hp0 Hp1 ltac:(lra) Hy H). f_equal. f_equal. field. lra. }
  split; auto. intros Hne E. rewrite Hatt in E. injection E as E.
  assert ((1 - p) / (2 - p) = 1) by (apply (Rmult_eq_reg_l tau); auto; lra).
  assert ((1 - p) = 2 - p); [|lra].
  apply (Rmult_eq_reg_r (/ (2 - p))); [|apply Rinv_neq_0_compat; lra]. rewrite Rinv_r by lra. exact H2.
Qed.
End T.

(* ---- a concrete panel: 4 units, 2 periods, half treated, tau = 3: the estimate is 1 ---- *)
Definition tw_rows : list (nat * nat) := list_prod (seq 0 4) (seq 0 2).
Definition tw_d (k : nat) : R := if Nat.ltb k 2 then 0 else 1.
Definition tw_tm (i : nat * nat) : R := INR (snd i).
Definition tw_y (i : nat * nat) : R := INR (fst i) * 10 + INR (snd i) * 5 + 3 * (tw_d (fst i) * INR (snd i)).
Definition tw_run := twfe_fit Nat.eq_dec (@gs_dropped (nat * nat)) (@gs (nat * nat)) (@gs_inv (nat * nat)) (fun _ _ _ _ => 0)
   toy_sf toy_ppf None (5/100) "warn" tw_rows tw_y (fun i => tw_d (fst i)) tw_tm fst [].

Lemma INR_inj_01 a b : INR a = INR b -> a = b. Proof. apply INR_eq. Qed.

Lemma tw_balanced : balanced Nat.eq_dec Req_EM_T tw_rows fst tw_tm 1.
Proof.
  split; [lia|]. intros a b Ha Hb.
  apply in_map_iff in Hb as (j & <- & Hj).
  destruct (product_balanced Nat.eq_dec Nat.eq_dec (seq 0 4) (seq 0 2) ltac:(apply seq_NoDup) ltac:(apply seq_NoDup) ltac:(discriminate) ltac:(discriminate)) as [_ HB].
  specialize (HB a (snd j) Ha (in_map snd _ _ Hj)). rewrite <- HB. f_equal. apply filter_ext. intros i. f_equal.
  unfold keqb, tw_tm. destruct (Nat.eq_dec (snd i) (snd j)) as [e|e]; destruct (Req_EM_T (INR (snd i)) (INR (snd j))) as [e'|e']; auto.
  all: exfalso; first [apply e'; rewrite e; reflexivity | apply e; apply INR_eq; exact e'].
Qed.

Theorem twfe_constant_effect_refuted : exists r, tw_run = Ok r /\ tw_att r = Fin 1.
Proof.
  assert (Hp : meanf tw_d (units Nat.eq_dec tw_rows fst) = 1 / 2).
  { replace (units Nat.eq_dec tw_rows fst) with [0; 1; 2; 3]%nat by reflexivity. unfold meanf, len, tw_d; simpl. lra. }
  assert (Hs : ss tw_rows (fun i => tw_d (fst i) * tw_tm i) <> 0).
  { unfold ss, meanf, len, tw_rows, tw_d, tw_tm; simpl. lra. }
  destruct (twfe_defined Nat.eq_dec (@gs_dropped (nat * nat)) (@gs (nat * nat)) (@gs_inv (nat * nat)) (fun _ _ _ _ => 0)
     toy_sf toy_ppf gs_dropped_ok gs_ok gs_inv_ok None (5/100) "warn" tw_rows tw_y (fun i => tw_d (fst i)) tw_tm fst Hs) as [r Hr].
  - vm_compute. lia.
  - vm_compute. lia.
  - exists r. split; [exact Hr|].
    pose proof (twfe_never_recovers Nat.eq_dec (@gs_dropped (nat * nat)) (@gs (nat * nat)) (@gs_inv (nat * nat)) (fun _ _ _ _ => 0)
     toy_sf toy_ppf gs_dropped_ok gs_ok None (5/100) "warn" tw_rows tw_y tw_d tw_tm fst 1 (fun k => INR k * 10) (fun x => x * 5) 3 r tw_balanced) as H.
    rewrite Hp in H. destruct H as [H _]; try lra; auto.
    + intros i _. unfold tw_d. destruct (Nat.ltb (fst i) 2); auto.
    + intros i Hi. unfold tw_rows in Hi. destruct i as [i1 i2]. apply in_prod_iff in Hi as [_ Hi]. unfold tw_tm. simpl.
      simpl in Hi. destruct Hi as [<-|[<-|[]]]; simpl; auto.
    + exists (0, 0)%nat. split; [simpl; auto|reflexivity].
    + exists (0, 1)%nat. split; [simpl; auto|reflexivity].
    + rewrite H. f_equal. field.
Qed.

(* ---- staggered warning ---- *)
Section Stag.
Context {I U : Type} (ueq : forall x y : U, {x = y} + {x <> y}).

Lemma fold_min_le l x : (fold_left Z.min l x <= x)%Z /\ forall z, In z l -> (fold_left Z.min l x <= z)%Z.
Proof.
  revert x; induction l as [|a l IH]; intros x; simpl; [split; [lia|tauto]|].
  destruct (IH (Z.min x a)) as [H1 H2]. split; [lia|]. intros z [<-|Hz]; [lia|auto].
Qed.
Lemma fold_min_in l x : In (fold_left Z.min l x) (x :: l).
Proof.
  revert x; induction l as [|a l IH]; intros x; simpl; auto.
  specialize (IH (Z.min x a)). simpl in IH. destruct IH as [IH|IH]; [|auto].
  rewrite <- IH. destruct (Z.min_spec x a) as [[_ ->]|[_ ->]]; auto.
Qed.

(* first_treated is the smallest period of a treated row of the unit *)
Theorem first_treated_spec rows d t (u : I -> U) a z :
  first_treated ueq rows d t u a = Some z <->
  (exists i, In i rows /\ d i = true /\ u i = a /\ t i = z) /\
  (forall i, In i rows -> d i = true -> u i = a -> (z <= t i)%Z).
Proof.
  unfold first_treated. set (l := filter (fun i => d i && keqb ueq (u i) a) rows).
  assert (Hl : forall i, In i l <-> In i rows /\ d i = true /\ u i = a).
  { intros i. unfold l. rewrite filter_In, andb_true_iff, keqb_true. tauto. }
  assert (Hs : forall z', zmin (map t l) = Some z' ->
     (exists i, In i rows /\ d i = true /\ u i = a /\ t i = z') /\ (forall i, In i rows -> d i = true -> u i = a -> (z' <= t i)%Z)).
  { intros z' H. destruct (map t l) as [|x r] eqn:E; [discriminate|]. simpl in H. injection H as <-.
    pose proof (fold_min_in r x) as Hin. rewrite <- E in Hin. apply in_map_iff in Hin as (i & Ei & Hi). apply Hl in Hi as (A & B & C).
    split; [exists i; auto|]. intros j Hj Dj Uj. assert (Hin : In (t j) (map t l)) by (apply in_map, Hl; auto).
    rewrite E in Hin. destruct (fold_min_le r x) as [H1 H2]. destruct Hin as [->|Hin]; auto. }
  split; [apply Hs|]. intros [(i & A & B & C & D) Hmin].
  destruct (zmin (map t l)) as [z'|] eqn:E.
  - destruct (Hs z' eq_refl) as [(j & Aj & Bj & Cj & Dj) Hmin']. f_equal.
    specialize (Hmin j Aj Bj Cj). specialize (Hmin' i A B C). lia.
  - assert (Hin : In (t i) (map t l)) by (apply in_map, Hl; auto). destruct (map t l); [destruct Hin|discriminate].
Qed.

(* the check warns exactly when two treated units start in different periods *)
Theorem staggered_warns_iff rows d t (u : I -> U) :
  staggered_warns ueq rows d t u = true <->
  exists a b za zb, first_treated ueq rows d t u a = Some za /\ first_treated ueq rows d t u b = Some zb /\ za <> zb.
Proof.
  unfold staggered_warns. set (dec := fun x y : option Z => _).
  assert (Htr : forall a z, first_treated ueq rows d t u a = Some z -> In a (nodup ueq (map u (filter d rows)))).
  { intros a z H. apply first_treated_spec in H as [(i & A & B & C & _) _]. apply nodup_In. rewrite <- C. apply in_map. apply filter_In; auto. }
  assert (Hdef : forall a, In a (nodup ueq (map u (filter d rows))) -> exists z, first_treated ueq rows d t u a = Some z).
  { intros a H. apply nodup_In in H. apply in_map_iff in H as (i & <- & Hi). apply filter_In in Hi as [Hi Hd].
    unfold first_treated. destruct (filter (fun i0 => d i0 && keqb ueq (u i0) (u i)) rows) as [|x l] eqn:E.
    - assert (In i []) by (rewrite <- E; apply filter_In; rewrite Hd, keqb_refl; auto). destruct H.
    - simpl. eauto. }
  destruct (filter d rows) as [|x0 rest] eqn:Ef.
  { split; [discriminate|]. intros (a & _ & za & _ & H & _). apply Htr in H. simpl in H. destruct H. }
  rewrite <- Ef in *. clear Ef. set (us := nodup ueq (map u (filter d rows))) in *.
  set (fs := map (first_treated ueq rows d t u) us). rewrite Nat.ltb_lt. split.
  - intros H. assert (HN : NoDup (nodup dec fs)) by apply NoDup_nodup.
    destruct (nodup dec fs) as [|o1 [|o2 r]] eqn:E; simpl in H; try lia.
    assert (H1 : In o1 fs) by (apply (nodup_In dec); rewrite E; simpl; auto).
    assert (H2 : In o2 fs) by (apply (nodup_In dec); rewrite E; simpl; auto).
    apply in_map_iff in H1 as (a & Ea & Ha). apply in_map_iff in H2 as (b & Eb & Hb).
    destruct (Hdef a Ha) as [za Hza]. destruct (Hdef b Hb) as [zb Hzb].
    exists a, b, za, zb. split; auto. split; auto. intros Ez. inversion HN as [|? ? Hni _]; subst. apply Hni. left. congruence.
  - intros (a & b & za & zb & H1 & H2 & Hne).
    assert (I1 : In (Some za) (nodup dec fs)) by (apply nodup_In; unfold fs; rewrite <- H1; apply in_map; eapply Htr; eauto).
    assert (I2 : In (Some zb) (nodup dec fs)) by (apply nodup_In; unfold fs; rewrite <- H2; apply in_map; eapply Htr; eauto).
    destruct (nodup dec fs) as [|o1 [|o2 r]]; simpl in *; [tauto| |lia].
    destruct I1 as [->|[]]. destruct I2 as [E|[]]. congruence.
Qed.
End Stag.

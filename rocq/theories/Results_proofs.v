(* Significance stars, is_significant and the summary's interval. *)
From Verif Require Import Prelude Flt Multi_model Results_model.
From Coq Require Import Arith ZArith Ascii String List Lia.
Import ListNotations.
Open Scope R_scope.

Definition has_star (s : string) : bool :=
  match s with String "*"%char _ => true | _ => false end.
Definition rank (s : string) : nat :=
  (if String.eqb s "***" then 4 else if String.eqb s "**" then 3 else if String.eqb s "*" then 2 else if String.eqb s "." then 1 else 0)%nat.

Lemma flt_pos_fin x r : flt x (Fin r) = true <-> x = NInf \/ exists a, x = Fin a /\ a < r.
Proof.
  destruct x as [a| | |]; simpl.
  - rewrite Rltb_true. split; [intros; right; eauto|]. intros [|(b & E & H)]; [discriminate|]. injection E as ->. auto.
  - split; [discriminate|]. intros [|(b & E & H)]; discriminate.
  - split; [discriminate|]. intros [|(b & E & H)]; discriminate.
  - split; auto.
Qed.

(* the documented thresholds *)
Theorem stars_table p :
  get_stars (Fin p) = (if Rlt_dec p (1/1000) then "***" else if Rlt_dec p (1/100) then "**"
                       else if Rlt_dec p (1/20) then "*" else if Rlt_dec p (1/10) then "." else "")%string.
Proof.
  unfold get_stars. simpl fisnan. simpl flt. unfold Rltb.
  destruct (Rlt_dec p (1/1000)), (Rlt_dec p (1/100)), (Rlt_dec p (1/20)), (Rlt_dec p (1/10)); reflexivity.
Qed.
Theorem stars_nan : get_stars NaN = ""%string. Proof. reflexivity. Qed.
Theorem stars_monotone p q : p <= q -> (rank (get_stars (Fin q)) <= rank (get_stars (Fin p)))%nat.
Proof.
  intros H. rewrite !stars_table.
  repeat match goal with |- context [Rlt_dec ?a ?b] => destruct (Rlt_dec a b) end;
  first [exfalso; lra | apply Nat.leb_le; reflexivity].
Qed.

(* at alpha = 0.05 the flag and the stars agree, for every p-value including NaN *)
Theorem significant_iff_star r : rp_alpha r = 1/20 -> rep_significant r = has_star (get_stars (rp_p r)).
Proof.
  intros H. unfold rep_significant. rewrite H. destruct (rp_p r) as [p| | |]; [|reflexivity..].
  rewrite stars_table. simpl flt. unfold Rltb.
  destruct (Rlt_dec p (1/1000)), (Rlt_dec p (1/100)), (Rlt_dec p (1/20)), (Rlt_dec p (1/10)); try reflexivity; exfalso; lra.
Qed.
Theorem period_significant_iff_star p : period_significant p = has_star (get_stars p).
Proof. exact (significant_iff_star {| rp_est := NaN; rp_se := NaN; rp_p := p; rp_ci := (NaN, NaN); rp_alpha := 1/20 |} eq_refl). Qed.
Theorem nan_not_significant r : rp_p r = NaN -> rep_significant r = false /\ get_stars (rp_p r) = ""%string.
Proof. unfold rep_significant. intros ->. auto. Qed.

(* ---- summary(alpha) ---- *)
Lemma trunc_int z : (0 <= z)%Z -> trunc (IZR z) = z.
Proof.
  intros H. unfold trunc. destruct (Rle_dec 0 (IZR z)) as [|N].
  - unfold Int_part. rewrite <- (tech_up (IZR z) (z + 1)%Z).
    + lia.
    + rewrite plus_IZR. lra.
    + rewrite plus_IZR. lra.
  - exfalso. apply N. apply IZR_le in H. exact H.
Qed.
(* the label is right whenever 100*alpha is whole *)
Theorem summary_label_whole r k : (0 <= k <= 100)%Z -> rp_alpha r = IZR k / 100 ->
  fst (summary_ci None r) = (100 - k)%Z /\ snd (summary_ci None r) = rp_ci r.
Proof.
  intros H E. split; [|reflexivity]. unfold summary_ci, summary_level. cbn [fst]. rewrite E.
  replace ((1 - IZR k / 100) * 100) with (IZR (100 - k)) by (rewrite minus_IZR; field). apply trunc_int. lia.
Qed.
(* alpha given: the label changes, the interval does not *)
Theorem summary_alpha_relabels r k : (1 <= k <= 100)%Z ->
  summary_ci (Some (IZR k / 100)) r = ((100 - k)%Z, rp_ci r).
Proof.
  intros H. unfold summary_ci, summary_level.
  destruct (Req_EM_T (IZR k / 100) 0) as [Z0|_].
  - exfalso. assert (IZR 1 <= IZR k) by (apply IZR_le; lia). assert (IZR k = 0) by lra. lra.
  - f_equal. replace ((1 - IZR k / 100) * 100) with (IZR (100 - k)) by (rewrite minus_IZR; field). apply trunc_int. lia.
Qed.
(* hence the "99%" interval of a result estimated at 5% is not the 99% interval *)
Theorem summary_interval_refuted (ppf : R -> R) est se : 0 < se -> ppf (1 - (1/20) / 2) < ppf (1 - (1/100) / 2) ->
  exists r, rp_est r = Fin est /\ rp_se r = Fin se /\
    rp_ci r = (Fin (est - ppf (1 - rp_alpha r / 2) * se), Fin (est + ppf (1 - rp_alpha r / 2) * se)) /\
    fst (summary_ci (Some (1/100)) r) = 99%Z /\
    snd (summary_ci (Some (1/100)) r) <> (Fin (est - ppf (1 - (1/100) / 2) * se), Fin (est + ppf (1 - (1/100) / 2) * se)).
Proof.
  intros Hs Hq. exists {| rp_est := Fin est; rp_se := Fin se; rp_p := NaN;
    rp_ci := (Fin (est - ppf (1 - (1/20) / 2) * se), Fin (est + ppf (1 - (1/20) / 2) * se)); rp_alpha := 1/20 |}.
  cbn [rp_est rp_se rp_ci rp_alpha]. split; auto. split; auto. split; auto.
  change (1/100) with (IZR 1 / 100). rewrite summary_alpha_relabels by lia. split; [reflexivity|].
  cbn [snd rp_ci]. intros E. injection E as E1 E2. 
  assert (ppf (1 - 1 / 20 / 2) * se < ppf (1 - IZR 1 / 100 / 2) * se) by (apply Rmult_lt_compat_r; auto).
  lra.
Qed.
(* a level of zero is silently replaced; a fractional percentage is truncated: alpha = 0.005 is
   labelled 99% *)
Theorem summary_zero_refuted r : summary_ci (Some 0) r = summary_ci None r.
Proof. unfold summary_ci, summary_level. destruct (Req_EM_T 0 0); [reflexivity|lra]. Qed.
Theorem summary_label_truncated_refuted r : fst (summary_ci (Some (1/200)) r) = 99%Z.
Proof.
  unfold summary_ci, summary_level. destruct (Req_EM_T (1/200) 0); [lra|]. cbn [fst].
  unfold trunc. destruct (Rle_dec 0 ((1 - 1/200) * 100)); [|lra].
  unfold Int_part. rewrite <- (tech_up ((1 - 1/200) * 100) 100); lra || lia || reflexivity.
Qed.
(* a period effect is called significant at 5% whatever alpha the estimator used *)
Theorem period_alpha_refuted : exists p alpha, 0 < alpha < 1 /\ period_significant (Fin p) = true /\ flt (Fin p) (Fin alpha) = false.
Proof.
  exists (3/100), (1/100). split; [lra|]. unfold period_significant. split; [apply flt_fin; lra|].
  simpl. apply Rltb_false. lra.
Qed.

(* ---- lookup ---- *)
Lemma dict_get_some l p e : dict_get l p = Some e -> In e l /\ pe_period e = p.
Proof.
  induction l as [|x l IH]; simpl; [discriminate|]. destruct (dict_get l p) as [y|].
  - intros H. destruct (IH H). auto.
  - destruct (Z.eqb (pe_period x) p) eqn:E; [|discriminate]. intros H; injection H as <-. apply Z.eqb_eq in E. auto.
Qed.
Lemma dict_get_none l p : dict_get l p = None <-> ~ In p (map pe_period l).
Proof.
  induction l as [|x l IH]; simpl; [tauto|]. destruct (dict_get l p) as [y|] eqn:D.
  - split; [discriminate|]. intros H. exfalso. apply H. right. apply dict_get_some in D as [D <-]. apply in_map; auto.
  - destruct (Z.eqb (pe_period x) p) eqn:E.
    + apply Z.eqb_eq in E. split; [discriminate|]. intros H; exfalso; apply H; auto.
    + apply Z.eqb_neq in E. split; auto. intros _ [H|H]; [auto|]. apply (proj1 IH); auto.
Qed.
Theorem get_effect_ok l p : (exists e, get_effect l p = Ok e /\ In e l /\ pe_period e = p) <-> In p (map pe_period l).
Proof.
  unfold get_effect. destruct (dict_get l p) as [e|] eqn:D.
  - apply dict_get_some in D as [D1 D2]. split; [intros _; rewrite <- D2; apply in_map; auto|]. intros _. eauto.
  - apply dict_get_none in D. split; [intros (e & K & _); discriminate|contradiction].
Qed.
Theorem get_effect_missing l p : get_effect l p = Err KeyError <-> ~ In p (map pe_period l).
Proof. unfold get_effect. rewrite <- dict_get_none. destruct (dict_get l p); split; congruence. Qed.

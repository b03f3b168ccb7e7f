(* Theorems added after seeded bugs survived: the root mean squared error of simulated power (C42), the periods and the
   maximum used by the pre-trends power analysis (C40), predictions with a wrong number of columns (C129). *)
From Coq Require Import Reals Lra Lia Psatz.
From Verif Require Import Prelude Flt Stats_model Linalg_model Power_model Pretrends_model Linreg_model.
From Coq Require Import Arith ZArith String List.
Import ListNotations.
Open Scope R_scope.

(* ---- C42 ---- *)
Lemma fsq_list (m : R) l : fsum (map (fun x => fmul (fsub x (Fin m)) (fsub x (Fin m))) (map Fin l)) = Fin (sumf (fun a => (a - m) * (a - m)) l).
Proof. induction l as [|a l IH]; [reflexivity|]. cbn [map fsum fold_right sumf]. unfold fsum in IH. rewrite IH. reflexivity. Qed.
Lemma sq_split (c m : R) l : sumf (fun a => (a - c) * (a - c)) l = sumf (fun a => (a - m) * (a - m)) l + 2 * (m - c) * (sumf idR l - len l * m) + len l * ((m - c) * (m - c)).
Proof. induction l as [|a l IH]; [cbn; unfold len; simpl; ring|]. cbn [sumf]. rewrite IH, len_cons. unfold idR at 2. ring. Qed.

Section Sim.
Context {D : Type}.
Variable gen : R -> Z -> res D.
Variable fit : D -> res obj.
Variable rng : nat -> Z.
Variable ppf : R -> R.
Notation simulate := (simulate_power gen fit rng ppf).
Lemma sim_fields te es n alpha r : simulate te es n alpha = Ok r ->
  si_mean r = fmean (map (fun x => sr_att (fst x)) (si_rows r)) /\ si_std r = fstd1 (map (fun x => sr_att (fst x)) (si_rows r)).
Proof.
  intros H. unfold simulate_power in H. destruct (match es with Some l => l | None => [te] end) as [|e0 ef]; [discriminate|].
  destruct (sim_effects gen fit rng (e0 :: ef) 0 n) as [all|]; [|discriminate]. cbn [bind] in H. injection H as <-. cbn [si_rows si_mean si_std].
  rewrite !map_map. split; reflexivity.
Qed.
Theorem sim_rmse te es n alpha r vs : simulate te es n alpha = Ok r -> map (fun x => sr_att (fst x)) (si_rows r) = map Fin vs -> (2 <= length vs)%nat ->
  let mse := meanf (fun a => (a - si_true r) * (a - si_true r)) vs in
  let var := sumf (fun a => (a - meanf idR vs) * (a - meanf idR vs)) vs / (len vs - 1) in
  exists e, si_rmse r = Fin e /\ 0 <= e /\ e * e = (meanf idR vs - si_true r) * (meanf idR vs - si_true r) + var /\ e * e = mse + var / len vs /\ mse <= e * e.
Proof.
  intros H HV L2 mse var. destruct (sim_fields _ _ _ _ _ H) as [HM HS]. rewrite HV in HM, HS. unfold si_rmse, si_bias. rewrite HM, HS. set (tr := si_true r) in *. clearbody tr.
  assert (N0 : vs <> []) by (intros ->; simpl in L2; lia).
  assert (Hn : 2 <= len vs) by (unfold len; change 2 with (INR 2); apply le_INR; exact L2).
  rewrite fmean_fin by exact N0. unfold fstd1. rewrite fmean_fin by exact N0. rewrite fsq_list, map_length. fold (len vs). set (m := meanf idR vs) in *.
  unfold fdiv. destruct (Req_EM_T (len vs - 1) 0) as [Z0|Z0]; [exfalso; lra|]. fold var.
  assert (V0 : 0 <= var). { unfold var. apply Rmult_le_pos; [apply sumf_nonneg; intros; apply Rle_0_sqr|]. left. apply Rinv_0_lt_compat. lra. }
  pose proof (Rle_0_sqr (m - tr)) as Q0. unfold Rsqr in Q0.
  cbn [fsqrt]. destruct (Rlt_dec var 0) as [?|_]; [exfalso; lra|]. cbn [fsub fneg fadd fmul fsqrt].
  replace (m + - tr) with (m - tr) by ring. rewrite sqrt_sqrt by exact V0.
  destruct (Rlt_dec ((m - tr) * (m - tr) + var) 0) as [?|_]; [exfalso; lra|]. eexists. split; [reflexivity|]. split; [apply sqrt_pos|].
  assert (P : 0 <= (m - tr) * (m - tr) + var) by lra. rewrite sqrt_sqrt by exact P. split; [reflexivity|].
  assert (E : mse = (m - tr) * (m - tr) + var * (len vs - 1) / len vs).
  { unfold mse, meanf. rewrite (sq_split tr m). assert (S : sumf idR vs = len vs * m) by (unfold m, meanf; field; lra). rewrite S. unfold var. field. lra. }
  assert (W : 0 <= var / len vs) by (apply Rmult_le_pos; [exact V0|left; apply Rinv_0_lt_compat; lra]).
  assert (E2 : (m - tr) * (m - tr) + var = mse + var / len vs) by (rewrite E; field; lra). split; [exact E2|]. rewrite E2. lra.
Qed.
Theorem sim_rmse_one te es n alpha r v : simulate te es n alpha = Ok r -> map (fun x => sr_att (fst x)) (si_rows r) = [Fin v] -> si_rmse r = NaN.
Proof.
  intros H HV. destruct (sim_fields _ _ _ _ _ H) as [_ HS]. rewrite HV in HS. unfold si_rmse. rewrite HS.
  assert (E : fstd1 [Fin v] = NaN).
  { unfold fstd1. change [Fin v] with (map Fin [v]). rewrite fmean_fin by discriminate. rewrite fsq_list. cbn [length map INR]. unfold fdiv. destruct (Req_EM_T (1 - 1) 0); [|lra].
    unfold fsgn_inf. assert (Q : sumf (fun a => (a - meanf idR [v]) * (a - meanf idR [v])) [v] = 0). { cbn. unfold meanf, idR, len. cbn. replace (v - (v + 0) / 1) with 0 by field. ring. }
    rewrite Q. destruct (Rlt_dec 0 0); [lra|]. destruct (Rlt_dec 0 0); [lra|]. reflexivity. }
  rewrite E, fmul_nan_l, fadd_nan_r. reflexivity.
Qed.
End Sim.

(* ---- C40 ---- *)
(* without coefficients, the periods kept are those reported with a positive standard error: the reference period and undefined ones are dropped *)
Theorem extract_mp_no_coef m pre : pm_coef m = [] ->
  let all := match pre with Some l => l | None => pm_pre m end in
  let kept := filter (fun p => match pm_eff m p with Some (_, s) => fgt s (Fin 0) | None => false end) all in
  match pt_extract_mp m pre with
  | Err e => e = ValueError /\ kept = []
  | Ok p => kept <> [] /\ pp_n p = length kept /\
      map Some (combine (pp_eff p) (pp_ses p)) = map (pm_eff m) kept /\
      (forall s, In s (pp_ses p) -> fgt s (Fin 0) = true) /\
      (forall i j, pp_vcov p i j = if Nat.eqb i j then fmul (nth i (pp_ses p) NaN) (nth i (pp_ses p) NaN) else Fin 0)
  end.
Proof.
  intros HC all kept. unfold pt_extract_mp. fold all. rewrite HC.
  assert (EK : filter (fun p => match pm_eff m p with Some e => fgt (snd e) (Fin 0) | None => false end) all = kept).
  { apply filter_ext. intros p. destruct (pm_eff m p) as [[a b]|]; reflexivity. }
  rewrite EK. assert (HK : forall p, In p kept -> exists a s, pm_eff m p = Some (a, s) /\ fgt s (Fin 0) = true).
  { intros p Hp. apply filter_In in Hp as [_ Hp]. destruct (pm_eff m p) as [[a s]|]; [eauto|discriminate]. }
  clear HC. clearbody kept. destruct all as [|p0 al].
  { destruct kept as [|k0 ks]; [split; reflexivity|]. discriminate. }
  destruct kept as [|k0 ks]; [split; reflexivity|]. clear EK. set (kk := k0 :: ks) in *. cbn [pp_eff pp_ses pp_vcov pp_n].
  split; [discriminate|]. split; [reflexivity|]. split; [|split].
  - clearbody kk. induction kk as [|k l IH]; [reflexivity|]. cbn [map combine]. rewrite IH by (intros; apply HK; now right).
    destruct (HK k (or_introl eq_refl)) as (a & s & E & _). rewrite E. reflexivity.
  - intros s Hs. apply in_map_iff in Hs as (k & <- & Hk). destruct (HK k Hk) as (a & s & E & F). rewrite E. exact F.
  - reflexivity.
Qed.

(* np.max of finite numbers *)
Lemma np_max_fold r x : exists s, fold_left (fun a b => if fgt b a then b else a) (map Fin r) (Fin x) = Fin s /\ In s (x :: r) /\ forall v, In v (x :: r) -> v <= s.
Proof.
  revert x. induction r as [|b r IH]; intros x; cbn [map fold_left].
  - exists x. split; [reflexivity|]. split; [now left|]. intros v [<-|[]]. lra.
  - change (fgt (Fin b) (Fin x)) with (Rltb x b). destruct (Rltb x b) eqn:E.
    + destruct (IH b) as (s & E1 & H1 & H2). exists s. rewrite E1. split; [reflexivity|]. split; [now right|].
      intros v [<-|Hv]; [|auto]. apply Rltb_true in E. specialize (H2 b (or_introl eq_refl)). lra.
    + destruct (IH x) as (s & E1 & H1 & H2). exists s. rewrite E1. split; [reflexivity|]. split; [destruct H1; [now left|right; now right]|].
      apply Rltb_false in E. intros v [<-|[<-|Hv]]; [apply H2; now left| |apply H2; now right]. specialize (H2 x (or_introl eq_refl)). lra.
Qed.
Lemma no_nan l : existsb fisnan (map Fin l) = false.
Proof. induction l; auto. Qed.
Theorem np_max_spec : (forall l s, np_max (map Fin l) = Fin s <-> In s l /\ forall v, In v l -> v <= s) /\ (forall l, In NaN l -> np_max l = NaN) /\ np_max [] = NaN.
Proof.
  assert (A : forall x r, exists s, np_max (map Fin (x :: r)) = Fin s /\ In s (x :: r) /\ forall v, In v (x :: r) -> v <= s).
  { intros x r. destruct (np_max_fold r x) as (s & E & H). exists s. split; [|exact H]. change (np_max (map Fin (x :: r)))
      with (if existsb fisnan (map Fin (x :: r)) then NaN else fold_left (fun a b => if fgt b a then b else a) (map Fin r) (Fin x)). now rewrite no_nan. }
  split; [|split; [|reflexivity]].
  - intros [|x r] s; [split; [discriminate|intros [[] _]]|]. destruct (A x r) as (s0 & E & H1 & H2). rewrite E. split.
    + intros Q. injection Q as <-. auto.
    + intros [K1 K2]. f_equal. apply Rle_antisym; auto.
  - intros l Hl. destruct l as [|x r]; [destruct Hl|]. unfold np_max. replace (existsb fisnan (x :: r)) with true; [reflexivity|]. symmetry. apply existsb_exists. exists NaN. auto.
Qed.
(* ---- C129 ---- *)
Section LR.
Context {I K : Type}.
Theorem lr_predict_columns {J} (cfg : lr_cfg I K) (f : lr_fitted I) (X : list (J -> R)) :
  match lr_predict cfg (Some f) X with
  | Ok p => (length X + (if c_intercept cfg then 1 else 0))%nat = length (l_coef (f_reg f)) /\
            forall j, p j = lc (if c_intercept cfg then (fun _ => 1) :: X else X) (map nan_to_zero (l_coef (f_reg f))) j
  | Err e => e = ValueError /\ (length X + (if c_intercept cfg then 1 else 0))%nat <> length (l_coef (f_reg f))
  end.
Proof.
  unfold lr_predict, checked. destruct (c_intercept cfg); cbn [length].
  - destruct (Nat.eqb_spec (S (length X)) (length (l_coef (f_reg f)))) as [E|N]; [split; [lia|]; reflexivity|split; [reflexivity|lia]].
  - destruct (Nat.eqb_spec (length X) (length (l_coef (f_reg f)))) as [E|N]; [split; [lia|]; reflexivity|split; [reflexivity|lia]].
Qed.
End LR.

(* two replications with estimates 2 and 0 of a true effect 1: mean squared error 1, reported root 2 squared *)
Definition two_gen (e : R) (s : Z) : res (R * Z) := Ok (e, s).
Definition two_fit (d : R * Z) : res obj := Ok (obj_did (Fin (if Z.eqb (snd d) 0 then 2 else 0)) (Fin 1) (Fin 0) (Fin 0, Fin 2)).
Theorem rmse_case ppf : exists r e, simulate_power two_gen two_fit Z.of_nat ppf 1 None 2 (1 / 20) = Ok r /\
  map (fun x => sr_att (fst x)) (si_rows r) = map Fin [2; 0] /\ si_true r = 1 /\
  meanf (fun a => (a - si_true r) * (a - si_true r)) [2; 0] = 1 /\ si_rmse r = Fin e /\ e * e = 2.
Proof.
  destruct (simulate_power two_gen two_fit Z.of_nat ppf 1 None 2 (1 / 20)) as [r|] eqn:E; [|exfalso; cbn in E; discriminate].
  assert (HR : map (fun x => sr_att (fst x)) (si_rows r) = map Fin [2; 0]) by (cbn in E; injection E as <-; reflexivity).
  assert (HT : si_true r = 1) by (cbn in E; injection E as <-; reflexivity).
  destruct (sim_rmse two_gen two_fit Z.of_nat ppf 1 None 2 (1 / 20) r [2; 0] E HR (le_n 2)) as (e & E1 & _ & E2 & _).
  exists r, e. split; [reflexivity|]. split; [exact HR|]. split; [exact HT|]. rewrite HT in *.
  split; [unfold meanf, len; cbn; field|]. split; [exact E1|]. rewrite E2. unfold meanf, len, idR. cbn. field.
Qed.
Theorem extract_mp_case : exists p,
  pt_extract_mp {| pm_pre := [1; 2; 3]%Z; pm_coef := []; pm_eff := (fun t => if Z.eqb t 1 then Some (Fin 4, Fin 2) else if Z.eqb t 2 then Some (Fin 0, Fin 0) else None);
     pm_avg_se := Fin 1; pm_vcov := None |} None = Ok p /\ pp_eff p = [Fin 4] /\ pp_ses p = [Fin 2] /\ pp_n p = 1%nat.
Proof.
  unfold pt_extract_mp. cbn [pm_pre pm_coef pm_eff filter Z.eqb Pos.eqb snd].
  change (fgt (Fin 2) (Fin 0)) with (Rltb 0 2). change (fgt (Fin 0) (Fin 0)) with (Rltb 0 0).
  replace (Rltb 0 2) with true by (symmetry; apply Rltb_true; lra). replace (Rltb 0 0) with false by (symmetry; apply Rltb_false; lra).
  eexists. split; [reflexivity|]. repeat split.
Qed.

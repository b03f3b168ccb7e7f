(* SunAbraham: unit and period effects, the level and the units of the outcome. *)
From Coq Require Import Reals Lra Lia.
From Verif Require Import Prelude Flt Stats_model Stats_proofs Linalg_model Linalg_proofs Linalg_vcov Linalg_thms Linalg_dual Did_model Did_spec Did_proofs Did_equiv Within_proofs Multi_model Multi_proofs Multi_thms
  Bacon_model Staggered_model Staggered_proofs Scale_flt Sun_model Sun_proofs Sun_thms Sun_more Reg_equiv Reg_effects.
From Coq Require Import Arith ZArith String List Permutation.
Import ListNotations.
Open Scope R_scope.

(* a standard error: undefined or a non-negative number *)
Definition se_ok (x : fl) : Prop := x = NaN \/ exists e, 0 <= e /\ x = Fin e.
Definition eff_scaled (s : R) (e e' : sa_eff) : Prop :=
  se_eff e' = fmul (Fin s) (se_eff e) /\ se_se e' = fmul (Fin (Rabs s)) (se_se e) /\ se_p e' = se_p e /\ se_n e' = se_n e /\
  (0 < s -> se_t e' = se_t e /\ se_ci e' = fscale s (se_ci e)) /\
  (s < 0 -> se_t e' = fneg (se_t e) /\ se_ci e' = fswap (fscale s (se_ci e))).
Definition sa_scaled (s : R) (r r' : sa_result) : Prop :=
  sa_cweights r' = sa_cweights r /\ sa_rgroups r' = sa_rgroups r /\ sa_rn_obs r' = sa_rn_obs r /\ sa_rn_treated r' = sa_rn_treated r /\ sa_rn_control r' = sa_rn_control r /\
  Forall2 (fun p p' => fst p' = fst p /\ eff_scaled s (snd p) (snd p')) (sa_es r) (sa_es r') /\
  sa_coh_effects r' = map (fun p => (fst p, (fmul (Fin s) (fst (fst (snd p))), fmul (Fin (Rabs s)) (snd (fst (snd p))), snd (snd p)))) (sa_coh_effects r) /\
  sa_att r' = fmul (Fin s) (sa_att r) /\ sa_se r' = fmul (Fin (Rabs s)) (sa_se r) /\ sa_p r' = sa_p r /\
  (0 < s -> sa_tt r' = sa_tt r /\ sa_ci r' = fscale s (sa_ci r)) /\
  (s < 0 -> sa_tt r' = fneg (sa_tt r) /\ sa_ci r' = fswap (fscale s (sa_ci r))).

Lemma sum_fin_or_nan (l : list fl) : (forall x, In x l -> fin_or_nan x) -> fin_or_nan (fsum l).
Proof.
  induction l as [|a l IH]; intros H; [right; exists 0; reflexivity|].
  assert (E : fsum (a :: l) = fadd a (fsum l)) by reflexivity. rewrite E.
  destruct (H a (or_introl eq_refl)) as [->|[x ->]]; [left; reflexivity|].
  destruct IH as [->|[z ->]]; [intros; apply H; right; auto|left; reflexivity|right; eexists; reflexivity].
Qed.
Lemma sum_scale_fn {A} (h h' : A -> fl) l s : (forall a, In a l -> fin_or_nan (h a)) -> (forall a, In a l -> h' a = fmul (Fin s) (h a)) ->
  fsum (map h' l) = fmul (Fin s) (fsum (map h l)).
Proof.
  induction l as [|a l IH]; intros H E; [cbn; f_equal; ring|].
  assert (Ec : forall k : A -> fl, fsum (map k (a :: l)) = fadd (k a) (fsum (map k l))) by reflexivity. rewrite !Ec.
  rewrite IH by (intros; try apply H; try apply E; right; auto). rewrite E by (left; reflexivity).
  destruct (H a (or_introl eq_refl)) as [->|[x ->]]; [reflexivity|].
  destruct (sum_fin_or_nan (map h l)) as [->|[z ->]].
  - intros x' Hx. apply in_map_iff in Hx as (b & <- & Hb). apply H. right; auto.
  - reflexivity.
  - cbn. f_equal. ring.
Qed.
Lemma wt_fn w x : fin_or_nan x -> fin_or_nan (fmul (Fin w) x).
Proof. intros [->|[z ->]]; [left; reflexivity|right; eexists; reflexivity]. Qed.
Lemma wt_scale w s x : fin_or_nan x -> fmul (Fin w) (fmul (Fin s) x) = fmul (Fin s) (fmul (Fin w) x).
Proof. intros [->|[z ->]]; [reflexivity|cbn; f_equal; ring]. Qed.

Lemma quad_fn V l : (forall p q, In p l -> In q l -> fin_or_nan (V (fst p) (fst q))) -> fin_or_nan (quad V l).
Proof.
  intros H. unfold quad. apply sum_fin_or_nan. intros x Hx. apply in_map_iff in Hx as (a & <- & Ha).
  apply sum_fin_or_nan. intros x Hx. apply in_map_iff in Hx as (b & <- & Hb). apply wt_fn.
  destruct (H a b Ha Hb) as [->|[z ->]]; [left; reflexivity|right; eexists; reflexivity].
Qed.
Lemma quad_scale V V' l s : (forall p q, In p l -> In q l -> fin_or_nan (V (fst p) (fst q)) /\ V' (fst p) (fst q) = fmul (Fin s) (V (fst p) (fst q))) ->
  quad V' l = fmul (Fin s) (quad V l).
Proof.
  intros H. unfold quad. apply sum_scale_fn.
  - intros a Ha. apply sum_fin_or_nan. intros x Hx. apply in_map_iff in Hx as (b & <- & Hb). apply wt_fn.
    destruct (H a b Ha Hb) as [[->|[z ->]] _]; [left; reflexivity|right; eexists; reflexivity].
  - intros a Ha. apply sum_scale_fn.
    + intros b Hb. apply wt_fn. destruct (H a b Ha Hb) as [[->|[z ->]] _]; [left; reflexivity|right; eexists; reflexivity].
    + intros b Hb. destruct (H a b Ha Hb) as [[->|[z ->]] ->]; [reflexivity|cbn; f_equal; ring].
Qed.
Lemma root_max0 x s : s <> 0 -> fin_or_nan x -> se_ok (fsqrt (max0 x)) /\ fsqrt (max0 (fmul (Fin (s * s)) x)) = fmul (Fin (Rabs s)) (fsqrt (max0 x)).
Proof.
  intros Hs [->|[v ->]]; [split; [left; reflexivity|reflexivity]|].
  assert (0 < s * s) by (destruct (Rlt_dec 0 s); nra).
  assert (E : forall v, fsqrt (max0 (Fin v)) = Fin (sqrt (Rmax v 0))).
  { intros z. unfold max0. cbn [flt]. destruct (Rltb z 0) eqn:E.
    - apply Rltb_true in E. rewrite Rmax_right by lra. cbn. destruct (Rlt_dec 0 0); [lra|]. reflexivity.
    - apply Rltb_false in E. rewrite Rmax_left by lra. cbn. destruct (Rlt_dec z 0); [lra|]. reflexivity. }
  cbn [fmul]. rewrite !E. split; [right; exists (sqrt (Rmax v 0)); split; [apply sqrt_pos|reflexivity]|].
  cbn. f_equal. rewrite <- sqrt_Rsqr_abs. unfold Rsqr. rewrite <- sqrt_mult_alt by lra. f_equal. rewrite <- RmaxRmult by lra. now rewrite Rmult_0_r.
Qed.
Lemma root_fn x s : s <> 0 -> fin_or_nan x -> fsqrt (fmul (Fin (s * s)) x) = fmul (Fin (Rabs s)) (fsqrt x).
Proof.
  intros Hs [->|[v ->]]; [reflexivity|]. assert (0 < s * s) by (destruct (Rlt_dec 0 s); nra). cbn [fmul fsqrt].
  destruct (Rlt_dec v 0), (Rlt_dec (s * s * v) 0); try nra; [reflexivity|]. cbn. f_equal. rewrite <- sqrt_Rsqr_abs. unfold Rsqr. apply sqrt_mult_alt. lra.
Qed.

Section Inf.
Variable sf : option Z -> fl -> fl.
Variable ppf : option Z -> R -> R.
(* t, p and interval of a rescaled pair *)
Lemma triple_scale s a e alpha : s <> 0 -> fin_or_nan a -> se_ok e ->
  let a' := fmul (Fin s) a in let e' := fmul (Fin (Rabs s)) e in
  u_p_value sf (sa_t a' e') None = u_p_value sf (sa_t a e) None /\
  (0 < s -> sa_t a' e' = sa_t a e /\ u_ci ppf a' e' alpha None = fscale s (u_ci ppf a e alpha None)) /\
  (s < 0 -> sa_t a' e' = fneg (sa_t a e) /\ u_ci ppf a' e' alpha None = fswap (fscale s (u_ci ppf a e alpha None))).
Proof.
  intros Hs Ha He a' e'. assert (0 < Rabs s) by (apply Rabs_pos_lt; auto).
  assert (T : sa_t a' e' = if Rlt_dec 0 s then sa_t a e else fneg (sa_t a e)).
  { unfold a', e', sa_t. destruct He as [->|(x & Hx & ->)]; [cbn; destruct (Rlt_dec 0 s); [reflexivity|cbn; f_equal; lra]|].
    cbn [fmul]. unfold fgt. cbn [flt]. destruct (Req_dec x 0) as [->|Hne].
    - rewrite Rmult_0_r. replace (Rltb 0 0) with false by (symmetry; apply Rltb_false; lra). destruct (Rlt_dec 0 s); [reflexivity|cbn; f_equal; lra].
    - replace (Rltb 0 x) with true by (symmetry; apply Rltb_true; lra).
      replace (Rltb 0 (Rabs s * x)) with true by (symmetry; apply Rltb_true; apply Rmult_lt_0_compat; lra).
      destruct Ha as [->|[z ->]]; [destruct (Rlt_dec 0 s); reflexivity|]. cbn [fmul]. apply fdiv_sign; auto. }
  assert (C : u_ci ppf a' e' alpha None = if Rlt_dec 0 s then fscale s (u_ci ppf a e alpha None) else fswap (fscale s (u_ci ppf a e alpha None))).
  { unfold a', e'. destruct Ha as [->|[z ->]].
    - unfold u_ci. cbn [fmul fsub fadd fneg]. destruct (Rlt_dec 0 s), He as [->|(x & Hx & ->)]; unfold u_ppf; reflexivity.
    - destruct He as [->|(x & Hx & ->)]; [|cbn [fmul]; apply ci_scale; auto].
      unfold u_ci. destruct (Rlt_dec 0 s); unfold u_ppf; reflexivity. }
  rewrite T, C. split.
  { destruct (Rlt_dec 0 s); [reflexivity|]. unfold u_p_value. f_equal. f_equal. destruct (sa_t a e); cbn; try reflexivity. now rewrite Rabs_Ropp. }
  split; intros Hs'; destruct (Rlt_dec 0 s); try lra; split; reflexivity.
Qed.
End Inf.

Section Coef.
Context {I K : Type} (keq : forall x y : K, {x = y} + {x <> y}).
Variable qr : list I -> list (I -> R) -> list nat.
Variable lstsq : list I -> list (I -> R) -> (I -> R) -> list R.
Variable inv : list I -> list (I -> R) -> option (nat -> nat -> R).
Hypothesis Hqr : qr_ok qr.
Hypothesis Hls : lstsq_ok lstsq.
Lemma solve_scale_coef rows cols y y' s cluster rv action o o' : (forall i, In i rows -> y' i = s * y i) ->
  solve_ols keq qr lstsq inv rows cols y cluster rv action = Ok o -> solve_ols keq qr lstsq inv rows cols y' cluster rv action = Ok o' ->
  o_coef o' = map (fmul (Fin s)) (o_coef o) /\ length (o_coef o) = length cols /\ (forall x, In x (o_coef o) -> fin_or_nan x).
Proof.
  intros Hy Ho Ho'.
  destruct (solve_ols_shape keq qr lstsq inv Hls _ _ _ _ _ _ _ Ho) as (Lb & Hc & _).
  destruct (solve_ols_shape keq qr lstsq inv Hls _ _ _ _ _ _ _ Ho') as (Lb' & Hc' & _).
  destruct (Hqr rows cols) as [_ Hind]. rewrite Hc, Hc'. unfold expand_coef. rewrite map_map. split; [|split].
  - apply map_ext. intros j. destruct (index_of j _) as [p|]; [|reflexivity]. cbn. f_equal.
    rewrite (ls_scale_eq rows _ y y' s _ _ Hind (Hls _ _ _) (Hls _ _ _)) by auto. now rewrite vscal_nth.
  - now rewrite map_length, seq_length.
  - intros x Hx. apply in_map_iff in Hx as (j & <- & _). destruct (index_of j _); [right; eexists; reflexivity|left; reflexivity].
Qed.
End Coef.

Section S.
Context {I : Type}.
Variable qr : list I -> list (I -> R) -> list nat.
Variable lstsq : list I -> list (I -> R) -> (I -> R) -> list R.
Variable inv : list I -> list (I -> R) -> option (nat -> nat -> R).
Variable pinv : list I -> list (I -> R) -> nat -> nat -> R.
Variable sf : option Z -> fl -> fl.
Variable ppf : option Z -> R -> R.
Hypothesis Hqr : qr_ok qr.
Hypothesis Hls : lstsq_ok lstsq.
Hypothesis Hinv : inv_ok inv.
Variables (u t : I -> Z) (g : I -> coh) (covs : list (I -> R)) (cluster : option (I -> Z)).
Notation fit y := (sa_fit qr lstsq inv pinv sf ppf u t g y covs cluster).
Notation satur y := (sa_saturated qr lstsq inv pinv u t g y covs cluster).
Notation W rows := (within Z.eq_dec Z.eq_dec rows u t).

Lemma sat_scale cfg groups rels rows y y' s reg : s <> 0 -> (forall i, In i rows -> W rows y' i = s * W rows y i) ->
  satur y cfg groups rels rows = Ok reg ->
  exists reg', satur y' cfg groups rels rows = Ok reg' /\ sr_keys reg' = sr_keys reg /\
    sr_coef reg' = map (fmul (Fin s)) (sr_coef reg) /\ (forall x, In x (sr_coef reg) -> fin_or_nan x) /\ (length (sr_keys reg) <= length (sr_coef reg))%nat /\
    forall a b, (a < length (sr_keys reg))%nat -> (b < length (sr_keys reg))%nat ->
      fin_or_nan (sr_vcov reg a b) /\ sr_vcov reg' a b = fmul (Fin (s * s)) (sr_vcov reg a b).
Proof.
  intros Hs Hy H. unfold sa_saturated in *. set (keys := sa_keys t g groups rels rows) in *.
  destruct keys as [|k0 ks] eqn:Ek; [discriminate|]. rewrite <- Ek in *. clear Ek.
  destruct (linreg_fit _ _ _ _ _ _ _ _ _ _ _ _) as [l|] eqn:El; [|discriminate]. cbn [bind] in H. injection H as <-. cbn [sr_keys sr_coef sr_vcov].
  set (cl := match cluster with Some c => c | None => u end) in *. set (cols := sa_cols u t g covs keys rows) in *.
  destruct (linreg_ok_outcome_ex Z.eq_dec qr lstsq inv pinv _ _ _ _ _ _ _ (W rows y') _ El) as [l' El'].
  rewrite El'. cbn [bind]. eexists. split; [reflexivity|]. cbn [sr_keys sr_coef sr_vcov]. split; [reflexivity|].
  assert (Hy0 : forall i, In i rows -> W rows y' i = s * W rows y i + (fun _ => 0) i) by (intros i Hi; rewrite Hy by auto; ring).
  assert (Hlk : (length keys <= length cols)%nat) by (unfold cols, sa_cols; rewrite app_length, map_length; lia).
  destruct (linreg_shift_vcov Z.eq_dec qr lstsq inv pinv Hqr Hls Hinv _ _ _ _ rows cols _ _ s _ l l' Hs Hy0 (span_zero rows cols) El El') as (HV & _ & _).
  destruct (linreg_fit_inv Z.eq_dec qr lstsq inv pinv _ _ _ _ _ _ _ _ El) as (o & Ho & Ec & _).
  destruct (linreg_fit_inv Z.eq_dec qr lstsq inv pinv _ _ _ _ _ _ _ _ El') as (o' & Ho' & Ec' & _).
  destruct (solve_scale_coef Z.eq_dec qr lstsq inv Hqr Hls rows cols _ _ s _ _ _ _ _ Hy Ho Ho') as (C1 & C2 & C3).
  rewrite Ec, Ec'. split; [exact C1|]. split; [exact C3|]. split; [lia|]. intros a b Ha Hb.
  split; [|apply HV; lia]. apply (linreg_vcov_fin Z.eq_dec qr lstsq inv pinv Hls _ _ _ _ _ _ _ _ a b El); try lia.
  right; left. discriminate.
Qed.

Lemma eff_at reg k : (forall x, In x (sr_coef reg) -> fin_or_nan x) -> fin_or_nan (sr_eff reg k).
Proof.
  intros H. unfold sr_eff. destruct (sr_at reg k); [|left; reflexivity].
  destruct (nth_in_or_default n (sr_coef reg) NaN) as [Hn| ->]; [apply H, Hn|left; reflexivity].
Qed.
Lemma eff_scale reg reg' k s : sr_keys reg' = sr_keys reg -> sr_coef reg' = map (fmul (Fin s)) (sr_coef reg) -> sr_eff reg' k = fmul (Fin s) (sr_eff reg k).
Proof.
  intros Ek Ec. unfold sr_eff, sr_at. rewrite Ek. destruct (key_index k (sr_keys reg)); [|reflexivity].
  rewrite Ec. change NaN with (fmul (Fin s) NaN) at 1. apply map_nth.
Qed.
Lemma idx_eq reg reg' k : sr_keys reg' = sr_keys reg -> sr_idx reg' k = sr_idx reg k.
Proof. intros E. unfold sr_idx, sr_at. now rewrite E. Qed.
Lemma idx_lt reg k : sr_keys reg <> [] -> (sr_idx reg k < length (sr_keys reg))%nat.
Proof.
  intros Hne. unfold sr_idx, sr_at. destruct (key_index k (sr_keys reg)) as [j|] eqn:E; [apply key_index_some in E; tauto|].
  destruct (sr_keys reg); [congruence|cbn; lia].
Qed.
Lemma has_eq reg reg' k : sr_keys reg' = sr_keys reg -> sr_has reg' k = sr_has reg k.
Proof. intros E. unfold sr_has, sr_at. now rewrite E. Qed.
Lemma weights_eq groups reg reg' rows e : sr_keys reg' = sr_keys reg -> sa_weights u g groups reg' rows e = sa_weights u g groups reg rows e.
Proof.
  intros E. unfold sa_weights. rewrite (filter_ext (fun gr => sr_has reg' (gr, e)) (fun gr => sr_has reg (gr, e))); [reflexivity|].
  intros gr. apply has_eq; auto.
Qed.

Section Reg.
Variables (reg reg' : sa_reg) (s : R).
Hypothesis Hs : s <> 0.
Hypothesis Hk : sr_keys reg' = sr_keys reg.
Hypothesis Hne : sr_keys reg <> [].
Hypothesis Hco : sr_coef reg' = map (fmul (Fin s)) (sr_coef reg).
Hypothesis Hfn : forall x, In x (sr_coef reg) -> fin_or_nan x.
Hypothesis HV : forall a b, (a < length (sr_keys reg))%nat -> (b < length (sr_keys reg))%nat ->
      fin_or_nan (sr_vcov reg a b) /\ sr_vcov reg' a b = fmul (Fin (s * s)) (sr_vcov reg a b).

Lemma quad_reg (A : Type) (h : A -> sa_key) (w : A -> R) l :
  fin_or_nan (quad (sr_vcov reg) (map (fun a => (sr_idx reg (h a), w a)) l)) /\
  quad (sr_vcov reg') (map (fun a => (sr_idx reg' (h a), w a)) l) = fmul (Fin (s * s)) (quad (sr_vcov reg) (map (fun a => (sr_idx reg (h a), w a)) l)).
Proof.
  assert (El : map (fun a => (sr_idx reg' (h a), w a)) l = map (fun a => (sr_idx reg (h a), w a)) l) by (apply map_ext; intros a; rewrite (idx_eq reg reg') by auto; reflexivity).
  assert (Hi : forall p, In p (map (fun a => (sr_idx reg (h a), w a)) l) -> (fst p < length (sr_keys reg))%nat).
  { intros p Hp. apply in_map_iff in Hp as (a & <- & _). apply idx_lt; auto. }
  rewrite El. split.
  - apply quad_fn. intros p q Hp Hq. apply HV; auto.
  - apply quad_scale. intros p q Hp Hq. apply HV; auto.
Qed.
Lemma effect_scale alpha e w : eff_scaled s (sa_effect sf ppf alpha reg e w) (sa_effect sf ppf alpha reg' e w) /\
  fin_or_nan (se_eff (sa_effect sf ppf alpha reg e w)).
Proof.
  set (eff := fsum (map (fun gw => fmul (Fin (snd gw)) (sr_eff reg (fst gw, e))) w)).
  assert (F : fin_or_nan eff).
  { unfold eff. apply sum_fin_or_nan. intros x Hx. apply in_map_iff in Hx as (gw & <- & _). apply wt_fn, eff_at; auto. }
  assert (E : fsum (map (fun gw => fmul (Fin (snd gw)) (sr_eff reg' (fst gw, e))) w) = fmul (Fin s) eff).
  { apply sum_scale_fn.
    - intros gw _. apply wt_fn, eff_at; auto.
    - intros gw _. rewrite (eff_scale reg reg' _ s) by auto. apply wt_scale, eff_at; auto. }
  destruct (quad_reg _ (fun gw : coh * R => (fst gw, e)) snd w) as [Q1 Q2].
  destruct (root_max0 _ s Hs Q1) as [R1 R2].
  split; [|exact F]. unfold eff_scaled, sa_effect. cbn [se_eff se_se se_t se_p se_ci se_n]. rewrite E, Q2, R2. fold eff.
  destruct (triple_scale sf ppf s eff _ alpha Hs F R1) as (T1 & T2 & T3).
  split; [reflexivity|]. split; [reflexivity|]. split; [exact T1|]. split; [reflexivity|]. split; [exact T2|exact T3].
Qed.

Variables (cfg : sa_config) (groups : list coh) (rels : list Z) (rows : list I).
Notation es := (sa_iw sf ppf u g cfg groups rels reg rows).
Notation es' := (sa_iw sf ppf u g cfg groups rels reg' rows).
Definition es_rel (p p' : Z * (list (coh * R) * sa_eff)) : Prop :=
  fst p' = fst p /\ fst (snd p') = fst (snd p) /\ eff_scaled s (snd (snd p)) (snd (snd p')) /\ fin_or_nan (se_eff (snd (snd p))).
Lemma es_rel_all : Forall2 es_rel es es'.
Proof.
  unfold sa_iw. induction rels as [|e l IH]; [constructor|]. cbn [flat_map]. rewrite (weights_eq groups reg reg') by auto.
  destruct (sa_weights u g groups reg rows e) as [|w0 w]; [exact IH|]. cbn [app]. constructor; [|exact IH].
  split; [reflexivity|]. split; [reflexivity|]. cbn [fst snd]. apply effect_scale.
Qed.
Lemma post_rel l l' : Forall2 es_rel l l' -> Forall2 es_rel (sa_post l) (sa_post l').
Proof.
  intros H. unfold sa_post. induction H as [|p p' l l' Hp H IH]; [constructor|]. cbn [filter]. destruct Hp as (E & Hp). rewrite E.
  destruct (0 <=? fst p)%Z; [constructor; [split; auto|exact IH]|exact IH].
Qed.
Lemma F2_map {A B C} (P : A -> B -> Prop) (h : A -> C) (h' : B -> C) l l' : (forall a b, P a b -> h' b = h a) -> Forall2 P l l' -> map h' l' = map h l.
Proof. intros E H. induction H as [|a b l l' Hp H IH]; [reflexivity|]. cbn. rewrite (E _ _ Hp), IH. reflexivity. Qed.
Lemma pw_eq e : sa_pw t g rows es' e = sa_pw t g rows es e.
Proof.
  unfold sa_pw. f_equal.
  pose proof (post_rel _ _ es_rel_all) as H. induction H as [|p p' l l' Hp H IH]; [reflexivity|]. cbn [sumf]. rewrite IH. destruct Hp as (-> & _). reflexivity.
Qed.
Lemma flat_map_F2 {A B C} (P : A -> B -> Prop) (h : A -> list C) (h' : B -> list C) l l' : (forall a b, P a b -> h' b = h a) -> Forall2 P l l' -> flat_map h' l' = flat_map h l.
Proof. intros E H. induction H as [|a b l l' Hp H IH]; [reflexivity|]. cbn. rewrite (E _ _ Hp), IH. reflexivity. Qed.
Lemma ow_eq : sa_overall_weights t g rows es' = sa_overall_weights t g rows es.
Proof.
  unfold sa_overall_weights. apply (flat_map_F2 es_rel); [|apply post_rel, es_rel_all].
  intros a b (E1 & E2 & _). rewrite E1, E2. apply map_ext. intros gw. rewrite pw_eq. reflexivity.
Qed.
Lemma F2_sum l l' (h h' : _ -> fl) : (forall a b, es_rel a b -> fin_or_nan (h a) /\ h' b = fmul (Fin s) (h a)) -> Forall2 es_rel l l' ->
  fin_or_nan (fsum (map h l)) /\ fsum (map h' l') = fmul (Fin s) (fsum (map h l)).
Proof.
  intros E H. induction H as [|a b l l' Hp H IH]; [split; [right; exists 0; reflexivity|cbn; f_equal; ring]|].
  assert (Ec : forall A (k : A -> fl) a l, fsum (map k (a :: l)) = fadd (k a) (fsum (map k l))) by reflexivity. rewrite !Ec.
  destruct IH as [F ->]. destruct (E _ _ Hp) as [F1 ->].
  destruct F1 as [->|[x ->]]; [split; [left|]; reflexivity|]. destruct F as [->|[z ->]]; [split; [left|]; reflexivity|].
  split; [right; eexists; reflexivity|cbn; f_equal; ring].
Qed.
Lemma ow_nonempty : (forall p, In p es -> fst (snd p) <> []) -> sa_post es <> [] -> sa_overall_weights t g rows es <> [].
Proof.
  intros H Hp. unfold sa_overall_weights. destruct (sa_post es) as [|p l] eqn:E; [congruence|]. cbn [flat_map].
  assert (Hin : In p es) by (assert (X : In p (sa_post es)) by (rewrite E; left; reflexivity); apply filter_In in X; tauto).
  specialize (H p Hin). destruct (fst (snd p)); [congruence|discriminate].
Qed.
Lemma es_weights_ne p : In p es -> fst (snd p) <> [].
Proof.
  intros H. apply in_flat_map in H as (e & _ & H). destruct (sa_weights u g groups reg rows e) as [|w0 w] eqn:E; [destruct H|].
  destruct H as [<-|[]]. discriminate.
Qed.
Lemma overall_scale : let o := sa_overall t g rows reg es in let o' := sa_overall t g rows reg' es' in
  fin_or_nan (fst o) /\ se_ok (snd o) /\ fst o' = fmul (Fin s) (fst o) /\ snd o' = fmul (Fin (Rabs s)) (snd o).
Proof.
  cbv zeta. pose proof (post_rel _ _ es_rel_all) as HP. pose proof (ow_nonempty es_weights_ne) as Hown.
  unfold sa_overall. destruct (sa_post es) as [|p0 pl] eqn:Ep.
  - inversion HP as [E|]. cbn. split; [right; eexists; reflexivity|]. split; [right; exists 0; split; [lra|reflexivity]|]. split; f_equal; ring.
  - rewrite <- Ep in *. assert (Hp : sa_post es <> []) by (rewrite Ep; discriminate). clear Ep p0 pl.
    assert (HA := F2_sum _ _ (fun p => fmul (Fin (sa_pw t g rows es (fst p))) (se_eff (snd (snd p)))) (fun p => fmul (Fin (sa_pw t g rows es' (fst p))) (se_eff (snd (snd p))))
      ltac:(intros a b (E1 & _ & (E3 & _) & F); split; [apply wt_fn, F|rewrite E1, E3, pw_eq; apply wt_scale, F]) HP).
    specialize (Hown Hp). destruct (sa_post es') as [|p1 pl1] eqn:Ep'; [inversion HP; congruence|]. rewrite <- Ep' in *. clear Ep' p1 pl1.
    rewrite ow_eq. destruct (sa_overall_weights t g rows es) as [|k0 ks] eqn:Ew; [congruence|]. rewrite <- Ew. clear Ew k0 ks Hown. cbn [fst snd].
    destruct (quad_reg _ (@fst sa_key R) snd (sa_overall_weights t g rows es)) as [Q1 Q2].
    destruct (root_max0 _ s Hs Q1) as [R1 R2]. rewrite Q2, R2. destruct HA as [A1 A2].
    split; [exact A1|]. split; [exact R1|]. split; [exact A2|reflexivity].
Qed.
Lemma weight_of_eq k : sa_weight_of es' k = sa_weight_of es k.
Proof.
  unfold sa_weight_of.
  assert (H : Forall2 es_rel (filter (fun p => Z.eqb (fst p) (snd k)) es) (filter (fun p => Z.eqb (fst p) (snd k)) es')).
  { pose proof es_rel_all as H. induction H as [|p p' l l' Hp H IH]; [constructor|]. cbn [filter]. destruct Hp as (E & Hp). rewrite E.
    destruct (Z.eqb (fst p) (snd k)); [constructor; [split; auto|exact IH]|exact IH]. }
  destruct H as [|p p' l l' Hp H]; [reflexivity|]. destruct Hp as (_ & -> & _). reflexivity.
Qed.
End Reg.

Theorem sa_equivariant cfg rows y y' s r : s <> 0 ->
  (forall i, In i (sa_sample g cfg rows) -> W (sa_sample g cfg rows) y' i = s * W (sa_sample g cfg rows) y i) ->
  fit y cfg rows = Ok r -> exists r', fit y' cfg rows = Ok r' /\ sa_scaled s r r'.
Proof.
  intros Hs Hy H. destruct (sa_fit_inv qr lstsq inv pinv sf ppf u t g y covs cluster _ _ _ H)
    as (Hn & Hg & reg & Hr & A1 & A2 & A3 & A4 & A5 & A6 & A7 & A8 & A9 & A10 & A11 & A12).
  destruct (sat_scale _ _ _ _ _ _ s reg Hs Hy Hr) as (reg' & Hr' & Hk & Hco & Hfn & _ & HV).
  destruct (saturated_inv qr lstsq inv pinv Hls u t g y covs cluster _ _ _ _ _ Hr) as (_ & Hne & _).
  assert (HF : exists r', fit y' cfg rows = Ok r').
  { unfold sa_fit. destruct (Nat.eqb_spec (sa_n_control u g rows) 0); [contradiction|]. destruct (sa_groups g rows) eqn:E; [congruence|].
    unfold sa_estimate. rewrite Hr'. cbn [bind]. destruct (sa_overall t g rows reg' _). eexists; reflexivity. }
  destruct HF as [r' H']. exists r'. split; [exact H'|].
  destruct (sa_fit_inv qr lstsq inv pinv sf ppf u t g y' covs cluster _ _ _ H')
    as (_ & _ & reg2 & Hr2 & B1 & B2 & B3 & B4 & B5 & B6 & B7 & B8 & B9 & B10 & B11 & B12).
  rewrite Hr' in Hr2. injection Hr2 as <-.
  pose proof (es_rel_all reg reg' s Hs Hk Hne Hco Hfn HV cfg (sa_groups g rows) (sa_rel_periods t g cfg rows) rows) as HE.
  pose proof (overall_scale reg reg' s Hs Hk Hne Hco Hfn HV cfg (sa_groups g rows) (sa_rel_periods t g cfg rows) rows) as HO.
  cbv zeta in HO. destruct HO as (O1 & O2 & O3 & O4). rewrite <- A3, <- B3 in O3. rewrite <- A4, <- B4 in O4. rewrite <- A3 in O1. rewrite <- A4 in O2.
  destruct (triple_scale sf ppf s _ _ (sa_alpha cfg) Hs O1 O2) as (T1 & T2 & T3). rewrite <- O3, <- O4, <- A5, <- B5, <- A7, <- B7, <- A6, <- B6 in *.
  unfold sa_scaled. rewrite A8, B8, A9, B9, A10, B10, A11, B11.
  split. { rewrite A2, B2. apply (F2_map (es_rel s)) with (2 := HE). intros a b (E1 & E2 & _). rewrite E1, E2. reflexivity. }
  split; [reflexivity|]. split; [reflexivity|]. split; [reflexivity|]. split; [reflexivity|]. split.
  { rewrite A1, B1. clear - HE. induction HE as [|p p' l l' Hp HE IH]; [constructor|]. cbn [map]. constructor; [|exact IH]. cbn [fst snd]. split; apply Hp. }
  split.
  { rewrite A12, B12, map_map, Hk. apply map_ext. intros k. cbn [fst snd].
    rewrite (eff_scale reg reg' k s) by auto. rewrite (idx_eq reg reg') by auto. pose proof (idx_lt reg k Hne) as Hi. destruct (HV _ _ Hi Hi) as [F ->].
    rewrite root_fn by auto. rewrite (weight_of_eq reg reg' s) by auto. reflexivity. }
  repeat (split; [assumption|]). assumption.
Qed.

(* on a balanced sample any unit effects and any period effects may be added *)
Theorem sa_unit_period_effects cfg rows y y' s r m (a b : Z -> R) : s <> 0 -> balanced Z.eq_dec Z.eq_dec (sa_sample g cfg rows) u t m ->
  (forall i, In i rows -> y' i = s * y i + (a (u i) + b (t i))) ->
  fit y cfg rows = Ok r -> exists r', fit y' cfg rows = Ok r' /\ sa_scaled s r r'.
Proof.
  intros Hs Hb Hy. apply sa_equivariant; auto. intros i Hi. set (sm := sa_sample g cfg rows) in *.
  assert (Hin : forall j, In j sm -> In j rows) by (intros j; unfold sm, sa_sample; destruct (String.eqb _ _); [rewrite filter_In; tauto|auto]).
  rewrite (within_ext Z.eq_dec Z.eq_dec sm u t y' (fun j => s * y j + (a (u j) + b (t j)))) by auto.
  rewrite (within_add Z.eq_dec Z.eq_dec sm u t), (within_additive Z.eq_dec Z.eq_dec sm u t m Hb a b i Hi), (within_scal Z.eq_dec Z.eq_dec sm u t). ring.
Qed.

(* rescaling and a constant: any panel *)
Theorem sa_level_scale cfg rows y y' s r (c : R) : s <> 0 -> (forall i, In i rows -> y' i = s * y i + c) ->
  fit y cfg rows = Ok r -> exists r', fit y' cfg rows = Ok r' /\ sa_scaled s r r'.
Proof.
  intros Hs Hy. apply sa_equivariant; auto. intros i Hi. set (sm := sa_sample g cfg rows) in *.
  assert (Hin : forall j, In j sm -> In j rows) by (intros j; unfold sm, sa_sample; destruct (String.eqb _ _); [rewrite filter_In; tauto|auto]).
  rewrite (within_ext Z.eq_dec Z.eq_dec sm u t y' (fun j => s * y j + c)) by auto.
  rewrite (within_add Z.eq_dec Z.eq_dec sm u t), (within_scal Z.eq_dec Z.eq_dec sm u t).
  assert (E : W sm (fun _ => c) i = 0).
  { unfold within. rewrite (group_mean_const Z.eq_dec sm u (fun _ => c)), (group_mean_const Z.eq_dec sm t (fun _ => c)) by auto.
    rewrite meanf_const; [ring|]. intros E. rewrite E in Hi. destruct Hi. }
  rewrite E. ring.
Qed.
End S.

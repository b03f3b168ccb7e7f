(* SunAbraham: exact recovery, equality with 2x2 comparisons, variance, inference, recoding, bootstrap. *)
From Verif Require Import Prelude Flt Stats_model Stats_proofs Linalg_model Linalg_proofs Linalg_vcov Linalg_thms Did_model Did_proofs Within_proofs Multi_model Multi_proofs Multi_thms Bacon_model Bacon_proofs Boot_model Boot_proofs Staggered_model Staggered_proofs Staggered_est Staggered_thms Staggered_more Staggered_fit Sun_model Sun_proofs Sun_thms.
From Coq Require Import Arith ZArith String List Permutation.
Import ListNotations.
Open Scope R_scope.

Lemma sumf_pairs (l : list (nat * R)) (K : list nat) (h : nat -> R) : NoDup K -> (forall p, In p l -> In (fst p) K) ->
  sumf (fun p => snd p * h (fst p)) l = sumf (fun j => sumf (fun p => ind (Nat.eqb (fst p) j) * snd p) l * h j) K.
Proof.
  intros HK. induction l as [|p l IH]; intros H.
  - cbn [sumf]. symmetry. apply sumf_zero. intros; ring.
  - cbn [sumf]. rewrite IH by (intros; apply H; right; assumption).
    rewrite (sumf_ext_all (fun j => (ind (Nat.eqb (fst p) j) * snd p + sumf (fun p0 => ind (Nat.eqb (fst p0) j) * snd p0) l) * h j)
      (fun j => ind (keqb Nat.eq_dec (fst p) j) * (snd p * h (fst p)) + sumf (fun p0 => ind (Nat.eqb (fst p0) j) * snd p0) l * h j)).
    + rewrite sumf_add. f_equal. symmetry. apply (sumf_ind_key Nat.eq_dec K (fst p)); [exact HK|apply H; left; reflexivity].
    + intros j. unfold keqb. destruct (Nat.eq_dec (fst p) j) as [E|N].
      * rewrite <- E, Nat.eqb_refl. cbn [ind]. ring.
      * apply Nat.eqb_neq in N. rewrite N. cbn [ind]. ring.
Qed.

(* the quadratic form of a positive semidefinite matrix at repeated indices *)
Definition quadR (V : nat -> nat -> R) (l : list (nat * R)) : R :=
  sumf (fun a => sumf (fun b => snd a * (V (fst a) (fst b) * snd b)) l) l.
Lemma quad_fin W V n l : (forall a b, (a < n)%nat -> (b < n)%nat -> W a b = Fin (V a b)) -> (forall p, In p l -> (fst p < n)%nat) ->
  quad W l = Fin (quadR V l).
Proof.
  intros HW Hl. unfold quad, quadR. apply fsum_fin_map. intros a Ha. apply fsum_fin_map. intros b Hb.
  rewrite HW by auto. reflexivity.
Qed.
Lemma quadR_nonneg V n l : (forall v : nat -> R, 0 <= sumf (fun j => sumf (fun m => v j * V j m * v m) (seq 0 n)) (seq 0 n)) ->
  (forall p, In p l -> (fst p < n)%nat) -> 0 <= quadR V l.
Proof.
  intros Hp Hl. set (v := fun j => sumf (fun p => ind (Nat.eqb (fst p) j) * snd p) l).
  assert (HK : forall p, In p l -> In (fst p) (seq 0 n)) by (intros p H; apply in_seq; specialize (Hl p H); lia).
  enough (E : quadR V l = sumf (fun j => sumf (fun m => v j * V j m * v m) (seq 0 n)) (seq 0 n)) by (rewrite E; apply Hp).
  unfold quadR. transitivity (sumf (fun a => snd a * sumf (fun m => v m * V (fst a) m) (seq 0 n)) l).
  - apply sumf_ext_all. intros a. rewrite (sumf_ext_all _ (fun b => snd a * (snd b * V (fst a) (fst b)))) by (intros; ring).
    rewrite sumf_scal. f_equal. apply (sumf_pairs l (seq 0 n) (fun j => V (fst a) j)); [apply seq_NoDup|exact HK].
  - rewrite (sumf_pairs l (seq 0 n) (fun j => sumf (fun m => v m * V j m) (seq 0 n))); [|apply seq_NoDup|exact HK].
    apply sumf_ext_all. intros j. fold (v j). rewrite <- sumf_scal. apply sumf_ext_all. intros; ring.
Qed.
Lemma max0_sqrt q : 0 <= q -> fsqrt (max0 (Fin q)) = Fin (sqrt q).
Proof.
  intros H. unfold max0. destruct (flt (Fin q) (Fin 0)) eqn:E; [apply flt_fin in E; lra|]. unfold fsqrt. destruct (Rlt_dec q 0); [lra|reflexivity].
Qed.

Lemma index_of_seq i n : (i < n)%nat -> index_of i (seq 0 n) = Some i.
Proof.
  intros H. destruct (proj1 (index_of_in i (seq 0 n))) as [p Hp]; [apply in_seq; lia|]. rewrite Hp. destruct (index_of_some _ _ _ Hp) as [Hl Hn].
  rewrite seq_length in Hl. rewrite seq_nth in Hn by exact Hl. f_equal. lia.
Qed.

Section More.
Context {I : Type}.
Variable qr : list I -> list (I -> R) -> list nat.
Variable lstsq : list I -> list (I -> R) -> (I -> R) -> list R.
Variable inv : list I -> list (I -> R) -> option (nat -> nat -> R).
Variable pinv : list I -> list (I -> R) -> nat -> nat -> R.
Variable sf : option Z -> fl -> fl.
Variable ppf : option Z -> R -> R.
Hypothesis Hqr : qr_ok qr.
Hypothesis Hls : lstsq_ok lstsq.
Hypothesis Hinv : inv_ok inv.
Variables (u t : I -> Z) (g : I -> coh) (y : I -> R) (covs : list (I -> R)) (cluster : option (I -> Z)).
Notation fit := (sa_fit qr lstsq inv pinv sf ppf u t g y covs cluster).
Notation satur := (sa_saturated qr lstsq inv pinv u t g y covs cluster).
Notation iw := (sa_iw sf ppf u g).
Notation keysof := (sa_keys t g).
Notation rel := (sa_rel t g).
Notation dummy := (sa_dummy t g).
Notation cols := (sa_cols u t g covs).

Lemma sr_eff_at reg f beta k : sr_coef reg = map Fin (map f (sr_keys reg) ++ beta) -> In k (sr_keys reg) -> sr_eff reg k = Fin (f k).
Proof.
  intros Hc Hk. unfold sr_eff, sr_at. destruct (key_index_in k _ Hk) as [j Hj]. rewrite Hj, Hc. destruct (key_index_some _ _ _ Hj) as [Hl Hn].
  rewrite map_app, app_nth1 by (rewrite !map_length; exact Hl). rewrite map_map. exact (key_index_nth k _ j (fun k => Fin (f k)) NaN Hj).
Qed.
Lemma sr_idx_lt reg k : In k (sr_keys reg) -> (sr_idx reg k < length (sr_keys reg))%nat.
Proof. intros Hk. unfold sr_idx, sr_at. destruct (key_index_in k _ Hk) as [j Hj]. rewrite Hj. apply (key_index_some _ _ _ Hj). Qed.
Lemma within_lc rows (cs : list (I -> R)) b i : within Z.eq_dec Z.eq_dec rows u t (lc cs b) i = lc (map (within Z.eq_dec Z.eq_dec rows u t) cs) b i.
Proof.
  revert b. induction cs as [|c cs IH]; intros [|x b]; cbn [map lc].
  1-3: assert (E := within_scal Z.eq_dec Z.eq_dec rows u t 0 (fun _ => 0) i); etransitivity; [|etransitivity; [exact E|ring]];
    unfold within, group_mean, meanf; f_equal; [f_equal; [f_equal; [simpl; ring|]|]|]; f_equal; apply sumf_ext_all; intros; simpl; ring.
  rewrite (within_add Z.eq_dec Z.eq_dec rows u t (fun j => x * c j) (lc cs b) i), within_scal, IH. reflexivity.
Qed.

(* ---- exact recovery ---- *)
Theorem saturated_exact cfg groups rels rows reg m (al be : Z -> R) (tau : sa_key -> R) (beta : list R) :
  balanced Z.eq_dec Z.eq_dec rows u t m -> satur cfg groups rels rows = Ok reg -> indep rows (cols (sr_keys reg) rows) ->
  length beta = length covs ->
  (forall i, In i rows -> y i = al (u i) + be (t i) + sumf (fun k => tau k * dummy k i) (sr_keys reg) + lc covs beta i) ->
  sr_coef reg = map Fin (map tau (sr_keys reg) ++ beta).
Proof.
  intros Hb Hs Hi Hlen Hy. destruct (saturated_inv qr lstsq inv pinv Hls u t g y covs cluster _ _ _ _ _ Hs) as (_ & _ & o & Ho & Hc & _).
  destruct (solve_ols_full_rank Z.eq_dec qr lstsq inv Hqr Hls _ _ _ _ _ _ _ Hi Ho) as (b & Hb1 & Hb2 & Hb3). rewrite Hc, Hb1. f_equal.
  symmetry. apply Hb3. split; [unfold sa_cols; rewrite !app_length, !map_length; lia|].
  apply Forall_forall. intros c _. unfold ip. apply sumf_zero. intros i Hin.
  enough (E : within Z.eq_dec Z.eq_dec rows u t y i = lc (cols (sr_keys reg) rows) (map tau (sr_keys reg) ++ beta) i) by (rewrite E; ring).
  unfold sa_cols. rewrite lc_app by (rewrite !map_length; reflexivity).
  rewrite (within_ext Z.eq_dec Z.eq_dec rows u t y (fun i => (sumf (fun k => tau k * dummy k i) (sr_keys reg) + lc covs beta i) + (al (u i) + be (t i)))) by (auto; intros; rewrite Hy by auto; ring).
  rewrite (within_absorbs Z.eq_dec Z.eq_dec rows u t m Hb) by exact Hin.
  rewrite (within_add Z.eq_dec Z.eq_dec rows u t (fun i => sumf (fun k => tau k * dummy k i) (sr_keys reg)) (lc covs beta)).
  rewrite (within_sumf rows u t tau dummy (sr_keys reg) i), within_lc, lc_keys. reflexivity.
Qed.

(* variance of any combination of the coefficients when the design has full rank *)
Theorem saturated_vcov cfg groups rels rows reg : satur cfg groups rels rows = Ok reg -> indep rows (cols (sr_keys reg) rows) ->
  exists V e, robust_vcov Z.eq_dec inv rows (cols (sr_keys reg) rows) e (Some match cluster with Some c => c | None => u end) = Ok V /\
    (forall a b, (a < length (sr_keys reg))%nat -> (b < length (sr_keys reg))%nat -> sr_vcov reg a b = Fin (V a b)) /\
    forall l, (forall p, In p l -> (fst p < length (sr_keys reg))%nat) ->
      quad (sr_vcov reg) l = Fin (quadR V l) /\ 0 <= quadR V l /\ fsqrt (max0 (quad (sr_vcov reg) l)) = Fin (sqrt (quadR V l)).
Proof.
  intros Hs Hi. destruct (saturated_inv qr lstsq inv pinv Hls u t g y covs cluster _ _ _ _ _ Hs) as (_ & _ & o & Ho & _ & Hv).
  destruct (solve_ols_shape Z.eq_dec qr lstsq inv Hls _ _ _ _ _ _ _ Ho) as (_ & _ & _ & _ & _ & (V & HV & W & HW & HE) & _ & Hle).
  rewrite (qr_indep_none qr _ _ Hqr Hi), select_cols_full in *. rewrite HW in Hv. injection Hv as <-.
  set (n := length (cols (sr_keys reg) rows)) in *. assert (Hn : (length (sr_keys reg) <= n)%nat) by (unfold n, sa_cols; rewrite app_length, !map_length; lia).
  assert (E : forall a b, (a < n)%nat -> (b < n)%nat -> W a b = Fin (V a b)).
  { intros a b Ha Hb. rewrite HE by assumption. unfold expand_vcov. rewrite kept_cols_nil, !index_of_seq by assumption. reflexivity. }
  eexists V, _. split; [exact HV|]. split; [intros; apply E; lia|]. intros l Hl.
  assert (Hl' : forall p, In p l -> (fst p < n)%nat) by (intros p Hp; specialize (Hl p Hp); lia).
  assert (Q := quad_fin W V n l E Hl'). assert (P := quadR_nonneg V n l (robust_vcov_psd Z.eq_dec inv Hinv _ _ _ _ _ Hle HV) Hl').
  split; [exact Q|]. split; [exact P|]. rewrite Q. apply max0_sqrt. exact P.
Qed.

(* ---- fit level ---- *)
Lemma sample_all cfg rows : (forall i, In i rows -> valid_coh (g i) = true) -> sa_sample g cfg rows = rows.
Proof.
  intros H. unfold sa_sample. destruct (String.eqb _ _); [|reflexivity]. induction rows as [|i l IH]; simpl; [reflexivity|].
  assert (E := H i (or_introl eq_refl)). unfold valid_coh in E. rewrite E, IH by (intros; apply H; right; assumption). reflexivity.
Qed.
Lemma rel_cohort i e : rel i = Some e -> exists k, g i = CFin k /\ (0 < k)%Z /\ t i = (k + e)%Z.
Proof.
  unfold sa_rel. destruct (g i) as [k| |]; try discriminate. destruct (Z.ltb_spec 0 k); [|discriminate]. intros E. injection E as <-. exists k. repeat split; [assumption|lia].
Qed.
Lemma fit_keys_In cfg rows i e : In i rows -> rel i = Some e ->
  (In (g i, e) (keysof (sa_groups g rows) (sa_rel_periods t g cfg rows) rows) <-> e <> sa_ref cfg /\ (-20 <= e <= 20)%Z).
Proof.
  intros Hi Hr. rewrite (keys_In t g), (rel_periods_In t g). destruct (rel_cohort i e Hr) as (k & Eg & Hk & _). split; [intros (_ & (_ & A & B) & _); split; assumption|].
  intros [H1 H2]. split; [apply cs_groups_In; split; [rewrite Eg; apply Z.ltb_lt; exact Hk|exists i; auto]|]. split; [|exists i; auto].
  split; [exists i; auto|]. split; [exact H2|exact H1].
Qed.
Lemma never_row rows : sa_n_control u g rows <> 0%nat -> exists i, In i rows /\ c_never (g i) = true.
Proof.
  intros H. destruct (existsb (fun i => c_never (g i)) rows) eqn:E.
  - apply existsb_exists in E. exact E.
  - exfalso. apply H. unfold sa_n_control. match goal with |- length ?l = _ => destruct l as [|a l0] eqn:El end; [reflexivity|]. exfalso.
    assert (X : In a (a :: l0)) by (left; reflexivity). rewrite <- El in X. apply filter_In in X as [_ X].
    unfold sa_never in X. destruct (filter (fun i => Z.eqb (u i) a) rows) as [|i l1] eqn:Ef; [discriminate|].
    assert (Hi : In i rows) by (apply (proj1 (filter_In (fun i => Z.eqb (u i) a) i rows)); rewrite Ef; left; reflexivity).
    assert (Y : existsb (fun i => c_never (g i)) rows = true) by (apply existsb_exists; exists i; auto). congruence.
Qed.

Section Panel.
Variables (rows : list I) (C : Z -> coh) (m : nat).
Hypothesis Hbal : balanced Z.eq_dec Z.eq_dec rows u t m.
Hypothesis HC : forall i, In i rows -> g i = C (u i).
Hypothesis Hval : forall i, In i rows -> valid_coh (g i) = true.

Lemma panel_row a s : In a (map u rows) -> In s (map t rows) -> exists i, In i rows /\ u i = a /\ t i = s.
Proof.
  intros Ha Hs. destruct Hbal as [Hm HB]. specialize (HB a s Ha Hs).
  destruct (filter (fun i => keqb Z.eq_dec (u i) a && keqb Z.eq_dec (t i) s) rows) as [|i l] eqn:E; [simpl in HB; lia|].
  assert (X : In i (i :: l)) by (left; reflexivity). rewrite <- E in X. apply filter_In in X as [X B]. apply andb_true_iff in B as [B1 B2].
  apply keqb_true in B1, B2. eauto.
Qed.

Definition ref_observed (cfg : sa_config) : Prop :=
  forall i k, In i rows -> g i = CFin k -> (0 < k)%Z -> In (k + sa_ref cfg)%Z (map t rows).

Lemma fit_full_rank cfg reg : covs = [] -> ref_observed cfg -> sa_n_control u g rows <> 0%nat ->
  satur cfg (sa_groups g rows) (sa_rel_periods t g cfg rows) rows = Ok reg -> indep rows (cols (sr_keys reg) rows).
Proof.
  intros Hcov Href Hn Hs. destruct (saturated_inv qr lstsq inv pinv Hls u t g y covs cluster _ _ _ _ _ Hs) as (Ek & _). rewrite Ek.
  unfold sa_cols. rewrite Hcov. cbn [map]. rewrite app_nil_r. apply (saturated_indep rows u t g C m Hbal HC).
  - apply keys_NoDup; [apply cs_groups_NoDup|apply rel_periods_NoDup].
  - intros k Hk. apply filter_In in Hk as [_ Hk]. apply existsb_exists in Hk. exact Hk.
  - apply never_row. exact Hn.
  - intros i e Hi Hr. destruct (rel_cohort i e Hr) as (k & Eg & Hk & _). destruct (panel_row (u i) (k + sa_ref cfg)%Z) as (j & Hj & Eu & Et); [apply in_map; exact Hi|eapply Href; eauto|].
    exists j. split; [exact Hj|]. split; [exact Eu|]. intros e' Hr' Hin. apply (proj1 (fit_keys_In cfg rows j e' Hj Hr')) in Hin as [Hin _]. apply Hin.
    destruct (rel_cohort j e' Hr') as (k' & Eg' & _ & Et'). rewrite (HC j Hj), Eu, <- (HC i Hi), Eg in Eg'. injection Eg' as <-. lia.
Qed.

(* the coefficients of the regression are the effects built into the outcome *)
Theorem fit_exact cfg reg (al be : Z -> R) (tau : coh -> Z -> R) (beta : list R) :
  satur cfg (sa_groups g rows) (sa_rel_periods t g cfg rows) rows = Ok reg -> indep rows (cols (sr_keys reg) rows) ->
  length beta = length covs ->
  (forall i, In i rows -> y i = al (u i) + be (t i) + (match rel i with Some e => tau (g i) e | None => 0 end) + lc covs beta i) ->
  (forall i e, In i rows -> rel i = Some e -> (e = sa_ref cfg \/ e < -20 \/ 20 < e)%Z -> tau (g i) e = 0) ->
  forall k, In k (sr_keys reg) -> sr_eff reg k = Fin (tau (fst k) (snd k)).
Proof.
  intros Hs Hi Hlen Hy H0 k Hk. apply (sr_eff_at reg (fun k => tau (fst k) (snd k)) beta k); [|exact Hk].
  apply (saturated_exact cfg _ _ _ _ m al be _ beta Hbal Hs Hi Hlen). intros i Hin. rewrite (Hy i Hin).
  destruct (saturated_inv qr lstsq inv pinv Hls u t g y covs cluster _ _ _ _ _ Hs) as (Ek & _).
  rewrite (dummy_sum t g (sr_keys reg) (fun k => tau (fst k) (snd k)) i) by (rewrite Ek; apply keys_NoDup; [apply cs_groups_NoDup|apply rel_periods_NoDup]).
  cbn [fst snd]. destruct (rel i) as [e|] eqn:Er; [|reflexivity].
  destruct (existsb (key_eqb (g i, e)) (sr_keys reg)) eqn:Ex; [reflexivity|].
  rewrite (H0 i e Hin Er); [reflexivity|]. destruct (Z.eq_dec e (sa_ref cfg)) as [|Ne]; [left; assumption|]. right.
  destruct (Z_lt_dec e (-20)) as [|N1]; [left; assumption|]. right. destruct (Z_lt_dec 20 e) as [|N2]; [assumption|]. exfalso.
  assert (X : existsb (key_eqb (g i, e)) (sr_keys reg) = true); [|congruence].
  apply existsb_exists. exists (g i, e). split; [|apply key_eqb_true; reflexivity]. rewrite Ek. apply (fit_keys_In cfg rows i e Hin Er). split; [exact Ne|lia].
Qed.

(* without covariates the coefficients are comparisons with the never-treated *)
Theorem fit_is_did cfg reg : covs = [] -> ref_observed cfg -> sa_n_control u g rows <> 0%nat ->
  (forall i e, In i rows -> rel i = Some e -> (-20 <= e <= 20)%Z) ->
  satur cfg (sa_groups g rows) (sa_rel_periods t g cfg rows) rows = Ok reg ->
  forall k, In k (sr_keys reg) -> sr_eff reg k = Fin (did rows t g y (sa_ref cfg) k).
Proof.
  intros Hcov Href Hn Hr Hs k Hk. assert (Hi := fit_full_rank cfg reg Hcov Href Hn Hs).
  destruct (saturated_inv qr lstsq inv pinv Hls u t g y covs cluster _ _ _ _ _ Hs) as (Ek & _ & o & Ho & Hc & _).
  apply (sr_eff_at reg (did rows t g y (sa_ref cfg)) [] k); [|exact Hk]. rewrite app_nil_r.
  destruct (solve_ols_full_rank Z.eq_dec qr lstsq inv Hqr Hls _ _ _ _ _ _ _ Hi Ho) as (b & Hb1 & Hb2 & Hb3). rewrite Hc, Hb1. f_equal.
  symmetry. apply Hb3. unfold sa_cols. rewrite Hcov. cbn [map]. rewrite app_nil_r.
  apply (saturated_is_did rows u t g y C m Hbal HC Hval).
  - rewrite Ek. apply keys_NoDup; [apply cs_groups_NoDup|apply rel_periods_NoDup].
  - intros i e Hin Er. rewrite Ek, (fit_keys_In cfg rows i e Hin Er). specialize (Hr i e Hin Er). tauto.
Qed.
End Panel.

(* ---- aggregation of finite coefficients ---- *)
Lemma es_value cfg groups rels reg rows (f : sa_key -> R) e w ef : (forall k, In k (sr_keys reg) -> sr_eff reg k = Fin (f k)) ->
  In (e, (w, ef)) (iw cfg groups rels reg rows) ->
  (forall gw, In gw w -> In (fst gw, e) (sr_keys reg)) /\ se_eff ef = Fin (sumf (fun gw => snd gw * f (fst gw, e)) w).
Proof.
  intros Hf Hin. destruct (iw_weights sf ppf u g cfg _ _ _ _ _ _ _ Hin) as (_ & _ & _ & _ & Hm & _ & _ & He & _).
  assert (Hk : forall gw, In gw w -> In (fst gw, e) (sr_keys reg)).
  { intros gw Hgw. assert (X : In (fst gw) (map fst w)) by (apply in_map; exact Hgw). rewrite Hm in X. apply filter_In in X as [_ X]. apply has_iff in X. exact X. }
  split; [exact Hk|]. rewrite He. apply fsum_fin_map. intros gw Hgw. rewrite Hf by (apply Hk; exact Hgw). reflexivity.
Qed.
Lemma att_value cfg groups rels reg rows (f : sa_key -> R) : (forall k, In k (sr_keys reg) -> sr_eff reg k = Fin (f k)) ->
  let es := iw cfg groups rels reg rows in sa_post es <> [] ->
  fst (sa_overall t g rows reg es) = Fin (sumf (fun p => sa_pw t g rows es (fst p) * sumf (fun gw => snd gw * f (fst gw, fst p)) (fst (snd p))) (sa_post es)).
Proof.
  intros Hf es Hp. destruct (overall_weights t g rows reg es) as [_ H]. destruct (H Hp) as [E _]. rewrite E.
  apply fsum_fin_map. intros [e [w ef]] Hin. apply filter_In in Hin as [Hin _]. cbn [fst snd].
  destruct (es_value cfg groups rels reg rows f e w ef Hf Hin) as [_ ->]. reflexivity.
Qed.
End More.

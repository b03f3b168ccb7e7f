(* Moving the origin of the calendar: SunAbraham and the Goodman-Bacon decomposition. *)
From Coq Require Import Reals Lra Lia.
From Verif Require Import Prelude Flt Stats_model Linalg_model Linalg_vcov Did_model Multi_model Multi_proofs Bacon_model Staggered_model Staggered_proofs Sun_model Shift_proofs.
From Coq Require Import Arith ZArith String List FunctionalExtensionality.
Import ListNotations.
Open Scope R_scope.

Definition shift_key (d : Z) (k : sa_key) : sa_key := (cshift d (fst k), snd k).
Definition shift_weights (d : Z) (w : list (coh * R)) : list (coh * R) := map (fun x => (cshift d (fst x), snd x)) w.
Definition shift_sa (d : Z) (r : sa_result) : sa_result :=
  {| sa_es := sa_es r; sa_cweights := map (fun p => (fst p, shift_weights d (snd p))) (sa_cweights r);
     sa_att := sa_att r; sa_se := sa_se r; sa_tt := sa_tt r; sa_p := sa_p r; sa_ci := sa_ci r;
     sa_rgroups := map (cshift d) (sa_rgroups r); sa_rn_obs := sa_rn_obs r; sa_rn_treated := sa_rn_treated r; sa_rn_control := sa_rn_control r;
     sa_coh_effects := map (fun x => (shift_key d (fst x), snd x)) (sa_coh_effects r) |}.

Lemma within_time_shift {I} (rows : list I) (u t : I -> Z) d x :
  within Z.eq_dec Z.eq_dec rows u (fun i => (t i + d)%Z) x = within Z.eq_dec Z.eq_dec rows u t x.
Proof.
  apply functional_extensionality. intros i. unfold within, group_mean. rewrite (filter_ext (fun j => keqb Z.eq_dec (t j + d)%Z (t i + d)%Z) (fun j => keqb Z.eq_dec (t j) (t i))); [reflexivity|].
  intros j. unfold keqb. destruct (Z.eq_dec (t j + d) (t i + d)), (Z.eq_dec (t j) (t i)); auto; lia.
Qed.

Section Sun.
Context {I : Type}.
Variable qr : list I -> list (I -> R) -> list nat.
Variable lstsq : list I -> list (I -> R) -> (I -> R) -> list R.
Variable inv : list I -> list (I -> R) -> option (nat -> nat -> R).
Variable pinv : list I -> list (I -> R) -> nat -> nat -> R.
Variable sf : option Z -> fl -> fl.
Variable ppf : option Z -> R -> R.
Variables (u t : I -> Z) (g : I -> coh) (y : I -> R) (covs : list (I -> R)) (cluster : option (I -> Z)) (d : Z).
Hypothesis Hok : forall i, origin_ok d (g i).
Notation t' := (fun i => (t i + d)%Z).
Notation g' := (fun i => cshift d (g i)).
Notation sk := (shift_key d).
Definition shift_reg (r : sa_reg) : sa_reg := {| sr_keys := map sk (sr_keys r); sr_coef := sr_coef r; sr_vcov := sr_vcov r |}.
Definition shift_es (es : list (Z * (list (coh * R) * sa_eff))) := map (fun p => (fst p, (shift_weights d (fst (snd p)), snd (snd p)))) es.

Lemma rel_t_sh i : sa_rel t' g' i = sa_rel t g i.
Proof.
  unfold sa_rel. specialize (Hok i). destruct (g i) as [k| |]; cbn in *; auto. destruct (Z.eqb_spec k 0) as [->|N]; [reflexivity|].
  rewrite !(proj2 (Z.ltb_lt _ _)) by lia. f_equal. lia.
Qed.
Lemma rel_times_sh rows : sa_rel_times t' g' rows = sa_rel_times t g rows.
Proof. unfold sa_rel_times. do 2 f_equal. apply flat_map_ext. intros i. now rewrite rel_t_sh. Qed.
Lemma has_inf_sh rows : sa_has_inf g' rows = sa_has_inf g rows.
Proof. unfold sa_has_inf. apply existsb_ext'. intros i _. change CInf with (cshift d CInf) at 1. apply sh_eqb; [auto|exact Logic.I]. Qed.
Lemma rel_periods_sh cfg rows : sa_rel_periods t' g' cfg rows = sa_rel_periods t g cfg rows.
Proof. unfold sa_rel_periods, sa_min_rel, sa_max_rel. now rewrite rel_times_sh, has_inf_sh. Qed.
Lemma sample_sh cfg rows : sa_sample g' cfg rows = sa_sample g cfg rows.
Proof. unfold sa_sample. destruct (String.eqb _ _); [|reflexivity]. apply filter_ext. intros i. now rewrite sh_never, sh_gt0. Qed.
Lemma in_sh k i : origin_ok d (fst k) -> sa_in t' g' (sk k) i = sa_in t g k i.
Proof. intros H. unfold sa_in. cbn [fst snd shift_key]. now rewrite rel_t_sh, sh_eqb. Qed.
Lemma keys_sh groups rels rows : Forall (origin_ok d) groups -> sa_keys t' g' (map (cshift d) groups) rels rows = map sk (sa_keys t g groups rels rows).
Proof.
  intros H. unfold sa_keys. rewrite flat_map_map'.
  assert (E : flat_map (fun gr => map (fun e : Z => (cshift d gr, e)) rels) groups = map sk (flat_map (fun gr => map (fun e : Z => (gr, e)) rels) groups)).
  { clear. induction groups as [|c l IH]; [reflexivity|]. cbn [flat_map]. rewrite map_app, IH, map_map. reflexivity. }
  rewrite E, filter_map_comm. f_equal. apply filter_ext_in. intros k Hk. apply existsb_ext'. intros i _. apply in_sh.
  apply in_flat_map in Hk as (c & Hc & Hk). apply in_map_iff in Hk as (e & <- & _). exact (proj1 (Forall_forall _ _) H c Hc).
Qed.
Lemma keys_ok groups rels rows : Forall (origin_ok d) groups -> Forall (fun k => origin_ok d (fst k)) (sa_keys t g groups rels rows).
Proof.
  intros H. apply Forall_forall. intros k Hk. apply filter_In in Hk as [Hk _]. apply in_flat_map in Hk as (c & Hc & Hk). apply in_map_iff in Hk as (e & <- & _). exact (proj1 (Forall_forall _ _) H c Hc).
Qed.
Lemma cols_sh keys rows : Forall (fun k => origin_ok d (fst k)) keys -> sa_cols u t' g' covs (map sk keys) rows = sa_cols u t g covs keys rows.
Proof.
  intros H. unfold sa_cols. cbv zeta. rewrite map_map. f_equal.
  - apply map_ext_in. intros k Hk. rewrite within_time_shift. f_equal. apply functional_extensionality. intros i. unfold sa_dummy. rewrite in_sh; [reflexivity|]. exact (proj1 (Forall_forall _ _) H k Hk).
  - apply map_ext. intros c. apply within_time_shift.
Qed.
Lemma saturated_sh cfg groups rels rows : Forall (origin_ok d) groups ->
  sa_saturated qr lstsq inv pinv u t' g' y covs cluster cfg (map (cshift d) groups) rels rows = on_ok shift_reg (sa_saturated qr lstsq inv pinv u t g y covs cluster cfg groups rels rows).
Proof.
  intros H. unfold sa_saturated. cbv zeta. rewrite keys_sh by auto. pose proof (keys_ok groups rels rows H) as K.
  destruct (sa_keys t g groups rels rows) as [|k ks]; [reflexivity|]. cbn [map]. change (sk k :: map sk ks) with (map sk (k :: ks)).
  rewrite cols_sh by auto. rewrite within_time_shift. destruct (linreg_fit _ _ _ _ _ _ _ _ _ _ _ _); reflexivity.
Qed.
Lemma saturated_keys cfg groups rels rows reg : Forall (origin_ok d) groups ->
  sa_saturated qr lstsq inv pinv u t g y covs cluster cfg groups rels rows = Ok reg -> Forall (fun k => origin_ok d (fst k)) (sr_keys reg).
Proof.
  intros H E. unfold sa_saturated in E. cbv zeta in E. pose proof (keys_ok groups rels rows H) as K.
  destruct (sa_keys t g groups rels rows) as [|k ks]; [discriminate|]. destruct (linreg_fit _ _ _ _ _ _ _ _ _ _ _ _); [|discriminate]. cbn in E. injection E as <-. exact K.
Qed.
Lemma key_index_sh k l : origin_ok d (fst k) -> Forall (fun k => origin_ok d (fst k)) l -> key_index (sk k) (map sk l) = key_index k l.
Proof.
  intros Hk H. induction H as [|x l Hx H IH]; [reflexivity|]. cbn [map key_index]. rewrite IH. unfold key_eqb. cbn [shift_key fst snd]. now rewrite sh_eqb.
Qed.
Lemma sr_sh reg k : origin_ok d (fst k) -> Forall (fun k => origin_ok d (fst k)) (sr_keys reg) ->
  sr_has (shift_reg reg) (sk k) = sr_has reg k /\ sr_eff (shift_reg reg) (sk k) = sr_eff reg k /\ sr_idx (shift_reg reg) (sk k) = sr_idx reg k.
Proof.
  intros Hk H. unfold sr_has, sr_eff, sr_idx, sr_at. cbn [sr_keys shift_reg]. rewrite key_index_sh by auto. auto.
Qed.
Lemma s_cohort_sh rows a : sa_cohort u g' rows a = cshift d (sa_cohort u g rows a).
Proof. apply cohort_sh. Qed.
Lemma s_cohort_ok rows a : origin_ok d (sa_cohort u g rows a).
Proof. apply cohort_ok. auto. Qed.
Lemma s_size_sh rows gr : origin_ok d gr -> sa_size u g' rows (cshift d gr) = sa_size u g rows gr.
Proof.
  intros H. unfold sa_size. f_equal. apply filter_ext. intros a. rewrite s_cohort_sh. pose proof (s_cohort_ok rows a). now rewrite sh_gt0, sh_eqb.
Qed.
Lemma weights_sh groups reg rows e : Forall (origin_ok d) groups -> Forall (fun k => origin_ok d (fst k)) (sr_keys reg) ->
  sa_weights u g' (map (cshift d) groups) (shift_reg reg) rows e = shift_weights d (sa_weights u g groups reg rows e).
Proof.
  intros H K. rewrite Forall_forall in H. unfold sa_weights. cbv zeta. rewrite filter_map_comm.
  rewrite (filter_ext_in _ (fun gr => sr_has reg (gr, e))) by (intros c Hc; exact (proj1 (sr_sh reg (c, e) (H c Hc) K))).
  set (A := filter (fun gr => sr_has reg (gr, e)) groups).
  assert (HA : forall c, In c A -> origin_ok d c) by (intros c Hc; apply filter_In in Hc; apply H, Hc).
  assert (S : sumf (fun gr => INR (sa_size u g' rows gr)) (map (cshift d) A) = sumf (fun gr => INR (sa_size u g rows gr)) A).
  { rewrite sumf_map. apply sumf_ext. intros c Hc. now rewrite s_size_sh by auto. }
  rewrite S. destruct (Req_EM_T _ 0); [reflexivity|]. unfold shift_weights. rewrite !map_map. apply map_ext_in. intros c Hc. cbn [fst snd]. now rewrite s_size_sh by auto.
Qed.
Lemma weights_ok groups reg rows e gw : Forall (origin_ok d) groups -> In gw (sa_weights u g groups reg rows e) -> origin_ok d (fst gw).
Proof.
  intros H Hg. unfold sa_weights in Hg. cbv zeta in Hg. destruct (Req_EM_T _ 0); [destruct Hg|]. apply in_map_iff in Hg as (c & <- & Hc). apply filter_In in Hc.
  exact (proj1 (Forall_forall _ _) H c (proj1 Hc)).
Qed.
Lemma effect_sh alpha reg e w : Forall (fun k => origin_ok d (fst k)) (sr_keys reg) -> (forall gw, In gw w -> origin_ok d (fst gw)) ->
  sa_effect sf ppf alpha (shift_reg reg) e (shift_weights d w) = sa_effect sf ppf alpha reg e w.
Proof.
  intros K H. unfold sa_effect. cbv zeta. unfold shift_weights. rewrite map_length, !map_map. cbn [fst snd].
  rewrite (map_ext_in (fun x => fmul (Fin (snd x)) (sr_eff (shift_reg reg) (cshift d (fst x), e))) (fun gw => fmul (Fin (snd gw)) (sr_eff reg (fst gw, e))))
    by (intros c Hc; f_equal; exact (proj1 (proj2 (sr_sh reg (fst c, e) (H c Hc) K)))).
  rewrite (map_ext_in (fun x => (sr_idx (shift_reg reg) (cshift d (fst x), e), snd x)) (fun gw => (sr_idx reg (fst gw, e), snd gw)))
    by (intros c Hc; f_equal; exact (proj2 (proj2 (sr_sh reg (fst c, e) (H c Hc) K)))).
  reflexivity.
Qed.
Lemma iw_sh cfg groups rels reg rows : Forall (origin_ok d) groups -> Forall (fun k => origin_ok d (fst k)) (sr_keys reg) ->
  sa_iw sf ppf u g' cfg (map (cshift d) groups) rels (shift_reg reg) rows = shift_es (sa_iw sf ppf u g cfg groups rels reg rows).
Proof.
  intros H K. unfold sa_iw. induction rels as [|e l IH]; [reflexivity|]. cbn [flat_map]. unfold shift_es in *. rewrite map_app, <- IH. f_equal. rewrite weights_sh by auto.
  pose proof (fun gw => weights_ok groups reg rows e gw H) as W. destruct (sa_weights u g groups reg rows e) as [|w ws]; [reflexivity|].
  cbn [shift_weights map]. change ((cshift d (fst w), snd w) :: map (fun x => (cshift d (fst x), snd x)) ws) with (shift_weights d (w :: ws)). cbn [map fst snd]. rewrite effect_sh; auto.
Qed.
Lemma iw_ok cfg groups rels reg rows p gw : Forall (origin_ok d) groups -> In p (sa_iw sf ppf u g cfg groups rels reg rows) -> In gw (fst (snd p)) -> origin_ok d (fst gw).
Proof.
  intros H Hp Hg. unfold sa_iw in Hp. apply in_flat_map in Hp as (e & _ & Hp). destruct (sa_weights u g groups reg rows e) as [|w ws] eqn:E; [destruct Hp|]. destruct Hp as [<-|[]]. cbn [fst snd] in Hg.
  apply (weights_ok groups reg rows e); auto. rewrite E. exact Hg.
Qed.
Lemma n_at_sh rows e : sa_n_at t' g' rows e = sa_n_at t g rows e.
Proof. unfold sa_n_at. f_equal. apply filter_ext. intros i. now rewrite rel_t_sh. Qed.
Lemma post_es_sh es : sa_post (shift_es es) = shift_es (sa_post es).
Proof. unfold sa_post, shift_es. rewrite filter_map_comm. reflexivity. Qed.
Lemma pw_sh rows es e : sa_pw t' g' rows (shift_es es) e = sa_pw t g rows es e.
Proof.
  unfold sa_pw. rewrite post_es_sh, n_at_sh.
  assert (S : sumf (fun p => INR (Nat.max (sa_n_at t' g' rows (fst p)) 1)) (shift_es (sa_post es)) = sumf (fun p => INR (Nat.max (sa_n_at t g rows (fst p)) 1)) (sa_post es)).
  { unfold shift_es. rewrite sumf_map. apply sumf_ext. intros p _. cbn [fst]. now rewrite n_at_sh. }
  now rewrite S.
Qed.
Lemma overall_weights_sh rows es : sa_overall_weights t' g' rows (shift_es es) = map (fun x => (sk (fst x), snd x)) (sa_overall_weights t g rows es).
Proof.
  unfold sa_overall_weights. rewrite post_es_sh.
  assert (A : forall P, flat_map (fun p => map (fun gw => ((fst gw, fst p), sa_pw t' g' rows (shift_es es) (fst p) * snd gw)) (fst (snd p))) (shift_es P)
    = map (fun x : sa_key * R => (sk (fst x), snd x)) (flat_map (fun p => map (fun gw => ((fst gw, fst p), sa_pw t g rows es (fst p) * snd gw)) (fst (snd p))) P)).
  { induction P as [|p l IH]; [reflexivity|]. cbn [flat_map]. etransitivity; [|symmetry; apply map_app]. unfold shift_es at 2. cbn [map flat_map]. apply (f_equal2 (@app (sa_key * R))); [|exact IH]. cbn [fst snd]. unfold shift_weights. rewrite !map_map.
    apply map_ext. intros gw. cbn [fst snd]. now rewrite pw_sh. }
  apply A.
Qed.
Lemma overall_alt tt gg rows reg es : sa_overall (I:=I) tt gg rows reg es =
  if nonempty (sa_post es) then
    (fsum (map (fun p => fmul (Fin (sa_pw tt gg rows es (fst p))) (se_eff (snd (snd p)))) (sa_post es)),
     if nonempty (sa_overall_weights tt gg rows es) then fsqrt (max0 (quad (sr_vcov reg) (map (fun kw => (sr_idx reg (fst kw), snd kw)) (sa_overall_weights tt gg rows es))))
     else fsqrt (fsum (map (fun p => fmul (Fin (sa_pw tt gg rows es (fst p) * sa_pw tt gg rows es (fst p))) (fmul (se_se (snd (snd p))) (se_se (snd (snd p))))) (sa_post es))))
  else (Fin 0, Fin 0).
Proof. unfold sa_overall. destruct (sa_post es); [reflexivity|]. cbn [nonempty]. destruct (sa_overall_weights tt gg rows es); reflexivity. Qed.
Lemma nonempty_map {A B} (f : A -> B) l : nonempty (map f l) = nonempty l.
Proof. destruct l; reflexivity. Qed.
Lemma overall_sh rows reg es : Forall (fun k => origin_ok d (fst k)) (sr_keys reg) -> (forall p gw, In p es -> In gw (fst (snd p)) -> origin_ok d (fst gw)) ->
  sa_overall t' g' rows (shift_reg reg) (shift_es es) = sa_overall t g rows reg es.
Proof.
  intros K H. rewrite !overall_alt, overall_weights_sh, post_es_sh.
  assert (W : forall kw, In kw (sa_overall_weights t g rows es) -> origin_ok d (fst (fst kw))).
  { intros kw Hk. unfold sa_overall_weights in Hk. apply in_flat_map in Hk as (p & Hp & Hk). apply in_map_iff in Hk as (gw & <- & Hg). apply filter_In in Hp. cbn [fst]. apply (H p gw); tauto. }
  assert (A : map (fun p => fmul (Fin (sa_pw t' g' rows (shift_es es) (fst p))) (se_eff (snd (snd p)))) (shift_es (sa_post es)) = map (fun p => fmul (Fin (sa_pw t g rows es (fst p))) (se_eff (snd (snd p)))) (sa_post es)).
  { unfold shift_es at 2. rewrite map_map. apply map_ext. intros p. cbn [fst snd]. now rewrite pw_sh. }
  assert (B : map (fun p => fmul (Fin (sa_pw t' g' rows (shift_es es) (fst p) * sa_pw t' g' rows (shift_es es) (fst p))) (fmul (se_se (snd (snd p))) (se_se (snd (snd p))))) (shift_es (sa_post es))
              = map (fun p => fmul (Fin (sa_pw t g rows es (fst p) * sa_pw t g rows es (fst p))) (fmul (se_se (snd (snd p))) (se_se (snd (snd p))))) (sa_post es)).
  { unfold shift_es at 3. rewrite map_map. apply map_ext. intros p. cbn [fst snd]. now rewrite pw_sh. }
  assert (Q : map (fun kw => (sr_idx (shift_reg reg) (fst kw), snd kw)) (map (fun x => (sk (fst x), snd x)) (sa_overall_weights t g rows es)) = map (fun kw => (sr_idx reg (fst kw), snd kw)) (sa_overall_weights t g rows es)).
  { rewrite map_map. apply map_ext_in. intros kw Hk. cbn [fst snd]. f_equal. exact (proj2 (proj2 (sr_sh reg (fst kw) (W kw Hk) K))). }
  rewrite A, B, Q, nonempty_map. unfold shift_es. rewrite nonempty_map. reflexivity.
Qed.
Lemma weight_of_sh es k : origin_ok d (fst k) -> (forall p gw, In p es -> In gw (fst (snd p)) -> origin_ok d (fst gw)) -> sa_weight_of (shift_es es) (sk k) = sa_weight_of es k.
Proof.
  intros Hk H. unfold sa_weight_of, shift_es. rewrite filter_map_comm. cbn [fst snd shift_key].
  destruct (filter (fun p => Z.eqb (fst p) (snd k)) es) as [|p l] eqn:E; [reflexivity|]. cbn [map fst snd].
  assert (Hp : In p es). { assert (In p (p :: l)) as Q by now left. rewrite <- E in Q. apply filter_In in Q. tauto. }
  unfold shift_weights. rewrite filter_map_comm. cbn [fst snd].
  rewrite (filter_ext_in _ (fun gw => c_eqb (fst gw) (fst k))) by (intros gw Hg; apply sh_eqb; eauto). destruct (filter (fun gw => c_eqb (fst gw) (fst k)) (fst (snd p))); reflexivity.
Qed.
Lemma never_sh rows a : sa_never u g' rows a = sa_never u g rows a.
Proof. unfold sa_never. destruct (filter _ rows); [reflexivity|]. now apply sh_never. Qed.
Theorem sa_origin cfg rows :
  sa_fit qr lstsq inv pinv sf ppf u t' g' y covs cluster cfg rows = on_ok (shift_sa d) (sa_fit qr lstsq inv pinv sf ppf u t g y covs cluster cfg rows).
Proof.
  unfold sa_fit.
  assert (N : sa_n_control u g' rows = sa_n_control u g rows) by (unfold sa_n_control; f_equal; apply filter_ext; intros a; apply never_sh).
  assert (T : sa_n_treated u g' rows = sa_n_treated u g rows) by (unfold sa_n_treated; f_equal; apply filter_ext; intros a; rewrite s_cohort_sh; apply sh_gt0, s_cohort_ok).
  rewrite N, T. destruct (Nat.eqb _ 0); [reflexivity|]. unfold sa_groups. rewrite groups_sh by auto.
  assert (G : Forall (origin_ok d) (cs_groups rows g)) by (eapply Forall_impl; [|apply groups_ok; auto]; intros; now apply group_origin).
  destruct (cs_groups rows g) as [|c cs]; [reflexivity|]. cbn [map]. change (cshift d c :: map (cshift d) cs) with (map (cshift d) (c :: cs)). set (gs := c :: cs) in *. clearbody gs. clear c cs.
  unfold sa_estimate. rewrite rel_periods_sh, sample_sh, saturated_sh by auto.
  destruct (sa_saturated qr lstsq inv pinv u t g y covs cluster cfg gs (sa_rel_periods t g cfg rows) (sa_sample g cfg rows)) as [reg|] eqn:E; [|reflexivity]. cbn [on_ok bind]. cbv zeta.
  pose proof (saturated_keys _ _ _ _ _ G E) as K. rewrite iw_sh by auto. set (es := sa_iw sf ppf u g cfg gs (sa_rel_periods t g cfg rows) reg rows).
  assert (O : forall p gw, In p es -> In gw (fst (snd p)) -> origin_ok d (fst gw)) by (intros p gw Hp Hg; exact (iw_ok cfg gs _ reg rows p gw G Hp Hg)).
  rewrite overall_sh by auto. destruct (sa_overall t g rows reg es) as [att se]. cbn [on_ok]. unfold shift_sa.
  cbn [sa_es sa_cweights sa_att sa_se sa_tt sa_p sa_ci sa_rgroups sa_rn_obs sa_rn_treated sa_rn_control sa_coh_effects].
  unfold shift_es at 1 2. rewrite !map_map. cbn [fst snd]. do 2 f_equal. cbn [sr_keys shift_reg]. rewrite map_map. apply map_ext_in. intros k Hk. cbn [fst snd].
  pose proof (proj1 (Forall_forall _ _) K k Hk) as Ok'. destruct (sr_sh reg k Ok' K) as (_ & S1 & S2). rewrite S1, S2, weight_of_sh by auto. reflexivity.
Qed.
End Sun.

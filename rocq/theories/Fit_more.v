(* Counts, degrees of freedom and inference reported by MultiPeriodDiD and TwoWayFixedEffects. *)
From Verif Require Import Prelude Flt Linalg_model Linalg_proofs Linalg_vcov Linalg_thms Did_model Did_spec Did_proofs
  Did_equiv Did_more Within_proofs Twfe_model Twfe_proofs Multi_model Multi_proofs Multi_thms Staggered_more.
From Coq Require Import Arith ZArith String List Lia Lra.
Import ListNotations.
Open Scope R_scope.

Lemma n_effective_fin b : n_effective (map Fin b) = Z.of_nat (length b).
Proof. unfold n_effective. f_equal. induction b; simpl; congruence. Qed.
Lemma sumf_ind_count {A} (f : A -> R) (l : list A) c : (c = 0 \/ c = 1) -> (forall i, In i l -> f i = 0 \/ f i = 1) ->
  sumf (fun i => if Reqb (f i) c then 1 else 0) l = INR (length (filter (fun i => Reqb (f i) c) l)).
Proof.
  intros Hc H. induction l as [|a l IH]; [reflexivity|]. simpl sumf. rewrite IH by (intros; apply H; right; auto).
  simpl filter. destruct (Reqb (f a) c); [simpl length; rewrite S_INR; ring|ring].
Qed.

Section Mp.
Context {I K G : Type} (keq : forall x y : K, {x = y} + {x <> y}) (geq : forall x y : G, {x = y} + {x <> y}).
Variable qr : list I -> list (I -> R) -> list nat.
Variable lstsq : list I -> list (I -> R) -> (I -> R) -> list R.
Variable inv : list I -> list (I -> R) -> option (nat -> nat -> R).
Variable sf : option Z -> fl -> fl.
Variable ppf : option Z -> R -> R.
Hypothesis Hqr : qr_ok qr.
Hypothesis Hls : lstsq_ok lstsq.
Hypothesis Hinv : inv_ok inv.
Hypothesis Hd : dist_ok sf ppf.
Notation fit := (mp_fit keq geq qr lstsq inv sf ppf).

Theorem mp_counts cfg rows y d t post ref covs dums absorb r : fit cfg rows y d t post ref covs dums absorb = Ok r ->
  mp_n_obs r = length rows /\
  mp_n_treated r = INR (length (filter (fun i => Reqb (d i) 1) rows)) /\
  mp_n_control r = INR (length (filter (fun i => Reqb (d i) 0) rows)) /\
  mp_n_treated r + mp_n_control r = INR (length rows).
Proof.
  intros H. destruct (mp_fit_inv keq geq qr lstsq inv sf ppf _ _ _ _ _ _ _ _ _ _ _ H) as (Zd & _).
  unfold mp_fit in H.
  destruct (negb _); [discriminate|]. destruct (negb _); [discriminate|]. cbv zeta in H. destruct (Nat.ltb _ 2); [discriminate|].
  destruct (mp_setup _ _ _) as [[[pre po] rf]|]; [|discriminate]. cbn [bind] in H.
  destruct (absorb_loop geq rows absorb y covs) as [[y' covs'] nabs].
  destruct (solve_ols _ _ _ _ _ _ _ _ _ _) as [o|]; [|discriminate]. cbn [bind] in H.
  match type of H with bind ?x _ = _ => destruct x as [V|]; [|discriminate] end. cbn [bind] in H.
  match type of H with context [mp_average ?a ?b ?c ?dd ?e ?f ?g] => destruct (mp_average a b c dd e f g) as [[[[av se] ts] pv] ci] end.
  injection H as <-. cbn [mp_n_obs mp_n_treated mp_n_control].
  assert (Z01 : forall i, In i rows -> d i = 0 \/ d i = 1) by (intros i Hi; destruct (Zd i Hi); auto).
  split; [reflexivity|]. split; [|split].
  - rewrite <- (sumf_ind_count d rows 1) by auto. apply sumf_ext. intros i Hi.
    destruct (Z01 i Hi) as [->| ->]; rewrite ?Reqb_refl, ?Reqb_01; reflexivity.
  - rewrite <- (sumf_ind_count d rows 0) by auto. apply sumf_ext. intros i Hi.
    destruct (Z01 i Hi) as [->| ->]; rewrite ?Reqb_refl, ?Reqb_10; ring.
  - rewrite <- sumf_add. rewrite (sumf_ext _ (fun _ => 1)) by (intros; ring). rewrite sumf_const. unfold len. ring.
Qed.

(* full rank, nothing absorbed: n - (intercept + treatment + T - 1 period dummies + one interaction per post period) *)
Theorem mp_df_value cfg rows y d t post ref r : fit cfg rows y d t post ref [] [] [] = Ok r ->
  identified rows d t (mp_post r) ->
  mp_df r = (Z.of_nat (length rows) - 1 - Z.of_nat (length (data_periods rows t)) - Z.of_nat (length (mp_post r)))%Z.
Proof.
  intros H (Hn & Hc & Hs). destruct (mp_fit_inv keq geq qr lstsq inv sf ppf _ _ _ _ _ _ _ _ _ _ _ H)
    as (Zd & S0 & y' & covs' & nabs & o & idxs & EA & Ho & Hco & _ & _ & Hdf & _).
  simpl in EA. injection EA as <- <- <-.
  destruct (mp_setup_ok _ _ _ _ _ _ S0 (data_periods_nodup rows t)) as (_ & _ & Hincl & Href & _).
  assert (Hall : forall i, In i rows -> In (t i) (data_periods rows t)) by (intros i Hi; apply data_periods_in; eauto).
  pose proof (mp_indep rows d t (data_periods rows t) (mp_post r) (mp_ref r) Zd Hall
    (data_periods_occ rows t) (data_periods_nodup rows t) Hn Hincl Href Hc Hs) as Hi.
  destruct (solve_ols_full_rank keq qr lstsq inv Hqr Hls _ _ _ _ _ _ _ Hi Ho) as (b & Eb & Lb & _).
  rewrite Hdf, Eb, n_effective_fin, Lb. unfold mp_design. rewrite !app_length, !map_length. simpl length.
  assert (F : S (length (filter (fun p => negb (Z.eqb p (mp_ref r))) (data_periods rows t))) = length (data_periods rows t)).
  { pose proof (data_periods_nodup rows t) as ND. revert Href ND. clear. generalize (data_periods rows t) as l.
    induction l as [|x l IH]; [intros []|]. intros Hin ND. inversion ND; subst. simpl. destruct (Z.eqb_spec x (mp_ref r)) as [->|N]; simpl.
    - f_equal. clear - H1. induction l as [|y l IH]; [reflexivity|]. simpl. destruct (Z.eqb_spec y (mp_ref r)) as [->|M]; simpl.
      + exfalso. apply H1. left; auto.
      + f_equal. apply IH. intros K. apply H1. right; auto.
    - f_equal. apply IH; auto. destruct Hin; [congruence|auto]. }
  lia.
Qed.

(* each reported period effect: t, p and interval belong together *)
Theorem mp_period_inference cfg rows y d t post ref covs dums absorb r e b s :
  fit cfg rows y d t post ref covs dums absorb = Ok r -> In e (mp_effects r) ->
  pe_effect e = Fin b -> pe_se e = Fin s -> 0 < s -> 0 < c_alpha cfg < 1 -> (0 < mp_df r)%Z ->
  pe_t e = Fin (b / s) /\
  exists p lo hi, pe_p e = Fin p /\ pe_ci e = (Fin lo, Fin hi) /\ 0 < p <= 1 /\ lo < b < hi /\ b - lo = hi - b /\
    (p < c_alpha cfg <-> (hi < 0 \/ 0 < lo)).
Proof.
  intros H He Eb Es Hs Ha Hdf. destruct (mp_fit_inv keq geq qr lstsq inv sf ppf _ _ _ _ _ _ _ _ _ _ _ H)
    as (_ & _ & y' & covs' & nabs & o & idxs & _ & _ & _ & _ & _ & _ & _ & Hef & _).
  rewrite Hef in He. apply in_map_iff in He as ((p & j) & <- & _). unfold mp_effect in *. cbn [pe_effect pe_se pe_t pe_p pe_ci fst snd] in *.
  rewrite Eb, Es. assert (Et : fdiv (Fin b) (Fin s) = Fin (b / s)) by (unfold fdiv; destruct (Req_EM_T s 0); [lra|reflexivity]).
  rewrite Et. split; auto. apply (u_coherent sf ppf Hd b s (c_alpha cfg) (Some (mp_df r))); auto. intros q Hq. injection Hq as <-. auto.
Qed.

Theorem mp_average_inference cfg rows y d t post ref covs dums absorb r b s :
  fit cfg rows y d t post ref covs dums absorb = Ok r ->
  mp_avg r = Fin b -> mp_avg_se r = Fin s -> 0 < s -> 0 < c_alpha cfg < 1 -> (0 < mp_df r)%Z ->
  mp_avg_t r = Fin (b / s) /\
  exists p lo hi, mp_avg_p r = Fin p /\ mp_avg_ci r = (Fin lo, Fin hi) /\ 0 < p <= 1 /\ lo < b < hi /\ b - lo = hi - b /\
    (p < c_alpha cfg <-> (hi < 0 \/ 0 < lo)).
Proof.
  intros H Eb Es Hs Ha Hdf. destruct (mp_fit_inv keq geq qr lstsq inv sf ppf _ _ _ _ _ _ _ _ _ _ _ H)
    as (_ & _ & y' & covs' & nabs & o & idxs & _ & _ & _ & _ & _ & _ & _ & _ & Hav).
  unfold mp_average in Hav. cbv zeta in Hav.
  destruct (existsb fisnan _); [apply pair_equal_spec in Hav as [Hav _]; repeat apply pair_equal_spec in Hav as [Hav _]; congruence|].
  repeat match type of Hav with _ = (if ?c then _ else _) => destruct c eqn:? end.
  - apply pair_equal_spec in Hav as [Hav _]. apply pair_equal_spec in Hav as [Hav _]. apply pair_equal_spec in Hav as [Hav _].
    apply pair_equal_spec in Hav as [_ Hav]. congruence.
  - apply pair_equal_spec in Hav as [Hav H5]. apply pair_equal_spec in Hav as [Hav H4]. apply pair_equal_spec in Hav as [Hav H3].
    apply pair_equal_spec in Hav as [H1 H2]. rewrite <- H1, <- H2, Eb, Es in *.
    assert (Et : fdiv (Fin b) (Fin s) = Fin (b / s)) by (unfold fdiv; destruct (Req_EM_T s 0); [lra|reflexivity]).
    rewrite H3, H4, H5, Et. split; auto. apply (u_coherent sf ppf Hd b s (c_alpha cfg) (Some (mp_df r))); auto. intros q Hq. injection Hq as <-. auto.
  - apply pair_equal_spec in Hav as [Hav _]. apply pair_equal_spec in Hav as [Hav _]. apply pair_equal_spec in Hav as [Hav _].
    apply pair_equal_spec in Hav as [H1 H2]. rewrite <- H2, Es in Heqb1. unfold fgt in Heqb1. cbn [flt] in Heqb1. apply Rltb_false in Heqb1. lra.
Qed.

(* robust=False without clusters: the textbook homoskedastic covariance matrix *)
Theorem mp_classical_vcov cfg rows y d t post ref r : fit cfg rows y d t post ref [] [] [] = Ok r ->
  identified rows d t (mp_post r) -> c_robust cfg = false -> c_cluster cfg = None ->
  let cols := mp_design d t (data_periods rows t) (mp_post r) (mp_ref r) [] in
  exists B, is_inverse rows cols B /\
    forall a c, (a < length cols)%nat -> (c < length cols)%nat -> (length cols < length rows)%nat ->
      mp_vcov r a c = Fin (sumf (fun i => mp_resid r i * mp_resid r i) rows / (INR (length rows) - INR (length cols)) * B a c).
Proof.
  intros H (Hn & Hc & Hs) Hr Hcl. intros cols. destruct (mp_fit_inv keq geq qr lstsq inv sf ppf _ _ _ _ _ _ _ _ _ _ _ H)
    as (Zd & S0 & y0 & covs0 & nabs0 & o0 & idxs & EA & Ho0 & Hco0 & Hre0 & _).
  simpl in EA. injection EA as <- <- <-.
  destruct (mp_setup_ok _ _ _ _ _ _ S0 (data_periods_nodup rows t)) as (_ & _ & Hincl & Href & _).
  assert (Hall : forall i, In i rows -> In (t i) (data_periods rows t)) by (intros i Hi; apply data_periods_in; eauto).
  pose proof (mp_indep rows d t (data_periods rows t) (mp_post r) (mp_ref r) Zd Hall
    (data_periods_occ rows t) (data_periods_nodup rows t) Hn Hincl Href Hc Hs) as Hi.
  fold cols in Hi. simpl app in Ho0. fold cols in Ho0.
  destruct (solve_ols_full_rank keq qr lstsq inv Hqr Hls _ _ _ _ _ _ _ Hi Ho0) as (b & Eb & Lb & _).
  assert (EV : mp_classical inv rows cols (o_coef o0) (o_resid o0) = Ok (mp_vcov r)).
  { unfold mp_fit in H. destruct (negb _); [discriminate|]. destruct (negb _); [discriminate|]. cbv zeta in H. fold (data_periods rows t) in H.
    destruct (Nat.ltb _ 2); [discriminate|]. rewrite S0 in H. cbn [bind absorb_loop app] in H. fold cols in H. rewrite Ho0 in H. cbn [bind] in H.
    rewrite Hr, Hcl in H. cbn [negb andb] in H.
    destruct (mp_classical _ _ _ _ _) as [V|] eqn:EV; [|discriminate]. cbn [bind] in H.
    match type of H with context [mp_average ?a ?b ?c ?dd ?e ?f ?g] => destruct (mp_average a b c dd e f g) as [[[[av se] ts] pv] ci] end.
    injection H as E. f_equal. exact (f_equal mp_vcov E). }
  clearbody cols. unfold mp_classical in EV. rewrite Eb, finite_positions_fin, Lb in EV. rewrite select_all in EV.
  pose proof (Hinv rows cols) as HI. destruct (inv rows cols) as [B|]; [|contradiction].
  exists B. split; [exact HI|]. intros a c Ha Hcc Hlt. assert (EW : forall X Y : nat -> nat -> fl, Ok X = Ok Y -> X = Y) by (intros X Y E; injection E; auto).
  apply EW in EV. rewrite <- EV. cbv beta.
  rewrite !index_of_seq by auto. rewrite seq_length, Hre0. unfold fdiv.
  assert (0 < INR (length rows) - INR (length cols)) by (apply lt_INR in Hlt; lra).
  destruct (Req_EM_T _ 0); [lra|]. reflexivity.
Qed.
End Mp.

(* ---- TwoWayFixedEffects ---- *)
Section Tw.
Context {I U : Type} (ueq : forall x y : U, {x = y} + {x <> y}).
Variable qr : list I -> list (I -> R) -> list nat.
Variable lstsq : list I -> list (I -> R) -> (I -> R) -> list R.
Variable inv : list I -> list (I -> R) -> option (nat -> nat -> R).
Variable pinv : list I -> list (I -> R) -> nat -> nat -> R.
Variable sf : option Z -> fl -> fl.
Variable ppf : option Z -> R -> R.
Hypothesis Hqr : qr_ok qr.
Hypothesis Hls : lstsq_ok lstsq.
Notation fit := (twfe_fit ueq qr lstsq inv pinv sf ppf).

(* distinct elements of l for which no / some member of the preimage satisfies P *)
Lemma filter_split {A} (f : A -> bool) l : length l = (length (filter f l) + length (filter (fun x => negb (f x)) l))%nat.
Proof. induction l as [|a l IH]; simpl; [reflexivity|]. destruct (f a); simpl; lia. Qed.

Definition ever_treated (rows : list I) (d : I -> R) (u : I -> U) (a : U) : bool :=
  existsb (fun i => keqb ueq (u i) a && Reqb (d i) 1) rows.

Theorem twfe_counts cluster alpha action rows y d tm u covs r : fit cluster alpha action rows y d tm u covs = Ok r ->
  let units := nodup ueq (map u rows) in
  tw_n_obs r = length rows /\ tw_alpha r = alpha /\
  tw_n_treated r = length (filter (ever_treated rows d u) units) /\
  tw_n_control r = Z.of_nat (length (filter (fun a => negb (ever_treated rows d u a)) units)).
Proof.
  intros H units. unfold twfe_fit in H. cbv zeta in H.
  destruct (linreg_fit _ _ _ _ _ _ _ _ _ _ _ _) as [reg|] eqn:E; [|discriminate]. cbn [bind] in H.
  destruct (fisnan (nth 1 (l_coef reg) NaN)); [discriminate|]. injection H as <-. cbn [tw_n_obs tw_alpha tw_n_treated tw_n_control].
  assert (L : length (nodup ueq (map u (filter (fun i => Reqb (d i) 1) rows))) = length (filter (ever_treated rows d u) units)).
  { assert (Hin : forall a, In a (nodup ueq (map u (filter (fun i => Reqb (d i) 1) rows))) <-> In a (filter (ever_treated rows d u) units)).
    { intros a. rewrite nodup_In, in_map_iff, filter_In. unfold units, ever_treated. rewrite nodup_In, in_map_iff, existsb_exists. split.
      - intros (i & <- & Hi). apply filter_In in Hi as [Hi Hd]. split; [eauto|]. exists i. split; auto. rewrite Hd. unfold keqb. destruct (ueq (u i) (u i)); [reflexivity|congruence].
      - intros [_ (i & Hi & E2)]. apply Bool.andb_true_iff in E2 as [E2 E3]. exists i. unfold keqb in E2. destruct (ueq (u i) a); [|discriminate].
        split; auto. apply filter_In. auto. }
    apply Nat.le_antisymm; apply NoDup_incl_length.
    - apply NoDup_nodup.
    - intros a Ha. apply Hin; auto.
    - apply NoDup_filter, NoDup_nodup.
    - intros a Ha. apply Hin; auto. }
  split; auto. split; auto. split; auto. rewrite L. rewrite (filter_split (ever_treated rows d u) (nodup ueq (map u rows))). fold units. lia.
Qed.

(* no covariates: n - units - periods degrees of freedom *)
Theorem twfe_df cluster alpha action rows y d tm u r : fit cluster alpha action rows y d tm u [] = Ok r ->
  ss rows (fun i => d i * tm i) <> 0 ->
  tw_df r = (Z.of_nat (length rows) - Z.of_nat (length (nodup ueq (map u rows)))
             - Z.of_nat (length (nodup Req_EM_T (map tm rows))))%Z.
Proof.
  intros H Hs. unfold twfe_fit in H. cbv zeta in H.
  destruct (linreg_fit _ _ _ _ _ _ _ _ _ _ _ _) as [reg|] eqn:E; [|discriminate]. cbn [bind] in H.
  destruct (fisnan (nth 1 (l_coef reg) NaN)); [discriminate|]. injection H as <-. cbn [tw_df].
  destruct (linreg_fit_inv ueq qr lstsq inv pinv _ _ _ _ _ _ _ _ E) as (o & Ho & Hc & _ & _ & Hdf & _).
  destruct (solve_ols_full_rank ueq qr lstsq inv Hqr Hls _ _ _ _ _ _ _ (simple_indep rows _ Hs) Ho) as (b & Eb & Lb & _).
  rewrite Hdf, Eb. unfold fit_df. rewrite n_effective_fin, Lb. simpl length. lia.
Qed.
End Tw.

(* check_parallel_trends: the verdict is the two-sided test of equal slopes at the 5% level *)
From Verif Require Import Trends_model.
Lemma ok_inj {A} (x y : A) : Ok x = Ok y -> x = y.
Proof. congruence. Qed.
Theorem parallel_trends_verdict sf ppf rows pre r b s : dist_ok sf ppf ->
  check_parallel_trends sf rows pre = Ok r -> pt_diff r = Fin b -> pt_diff_se r = Fin s -> 0 < s ->
  pt_t r = Fin (b / s) /\
  exists p, pt_p r = Fin p /\ 0 < p <= 1 /\ pt_plausible r = Some (Rltb (1/20) p) /\
    (p < 1/20 <-> ppf None (1 - 1/20/2) < Rabs (b / s)).
Proof.
  intros Hd H. unfold check_parallel_trends in H. cbv zeta in H.
  destruct (compute_trend _) as [tt|]; [|discriminate]. cbn [bind] in H.
  destruct (compute_trend _) as [tc|]; [|discriminate]. cbn [bind] in H. apply ok_inj in H. subst r. cbn [pt_diff pt_diff_se pt_t pt_p pt_plausible].
  intros -> -> Hs.
  assert (Et : fdiv (Fin b) (Fin s) = Fin (b / s)) by (unfold fdiv; destruct (Req_EM_T s 0); [lra|reflexivity]).
  assert (Eg : fgt (Fin s) (Fin 0) = true) by (unfold fgt; cbn [flt]; apply Rltb_true; auto).
  rewrite Eg, Et. cbn [fisnan]. split; auto.
  destruct (d_fin _ _ Hd None (Rabs (b / s))) as (p & Hp & Hp1).
  pose proof (d_half _ _ Hd None _ p (Rabs_pos (b / s)) Hp).
  assert (E : u_p_value sf (Fin (b / s)) None = Fin (2 * p)) by (unfold u_p_value; cbn [fabs u_sf]; rewrite Hp; reflexivity).
  exists (2 * p). rewrite E. cbn [fisnan]. split; auto. split; [lra|]. split; [reflexivity|].
  apply (d_dual _ _ Hd None _ p (1/20)); auto; [apply Rabs_pos|lra].
Qed.

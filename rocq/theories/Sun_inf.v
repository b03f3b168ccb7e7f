(* SunAbraham: when fit succeeds, standard errors, reported inference, recoding of never-treated, bootstrap. *)
From Verif Require Import Prelude Flt Stats_model Stats_proofs Linalg_model Linalg_proofs Linalg_vcov Linalg_thms Did_model Did_proofs Within_proofs Multi_model Multi_proofs Multi_thms Bacon_model Bacon_proofs Bacon_thms Boot_model Boot_proofs Staggered_model Staggered_proofs Staggered_est Staggered_thms Staggered_more Staggered_fit Sun_model Sun_proofs Sun_thms Sun_more.
From Coq Require Import Arith ZArith String List Permutation FunctionalExtensionality.
Import ListNotations.
Open Scope R_scope.

(* ---- when the clustered regression succeeds ---- *)
Section Solve.
Context {I : Type}.
Variable qr : list I -> list (I -> R) -> list nat.
Variable lstsq : list I -> list (I -> R) -> (I -> R) -> list R.
Variable inv : list I -> list (I -> R) -> option (nat -> nat -> R).
Hypothesis Hqr : qr_ok qr.
Hypothesis Hinv : inv_ok inv.
Lemma kept_length k d : (length (kept_cols k d) <= k)%nat.
Proof. unfold kept_cols. rewrite <- (seq_length k 0) at 2. induction (seq 0 k) as [|a l IH]; simpl; [lia|]. destruct (negb _); simpl; lia. Qed.
Lemma robust_ok rows cols e (cl : I -> Z) : indep rows cols -> length rows <> length cols -> (2 <= length (cl_keys Z.eq_dec rows cl))%nat ->
  exists V, robust_vcov Z.eq_dec inv rows cols e (Some cl) = Ok V.
Proof.
  intros Hi Hn Hc. unfold robust_vcov. cbv zeta. destruct (Nat.ltb_spec (length (cl_keys Z.eq_dec rows cl)) 2); [lia|].
  destruct (Nat.eqb_spec (length rows) (length cols)); [contradiction|]. pose proof (Hinv rows cols) as H0. destruct (inv rows cols); [eexists; reflexivity|contradiction].
Qed.
Lemma solve_ok rows cols y (cl : I -> Z) action : (length cols < length rows)%nat -> (2 <= length (cl_keys Z.eq_dec rows cl))%nat ->
  action = "warn"%string \/ action = "silent"%string -> (exists c i, In c cols /\ In i rows /\ c i <> 0) ->
  exists o, solve_ols Z.eq_dec qr lstsq inv rows cols y (Some cl) true action = Ok o.
Proof.
  intros Hn Hc Ha (c0 & i0 & Hc0 & Hi0 & Hz0). assert (K0 := kept_nonzero qr rows cols c0 i0 Hqr Hc0 Hi0 Hz0). unfold solve_ols. cbv zeta. destruct (Nat.ltb_spec (length rows) (length cols)); [lia|].
  assert (Hp : exists act, parse_action action = Some act /\ act <> ActError) by (destruct Ha as [-> | ->]; eexists; (split; [reflexivity|discriminate])).
  destruct Hp as (act & -> & Hne). pose proof (Hqr rows cols) as HQ. cbv zeta in HQ. destruct HQ as [_ HQ]. destruct (qr rows cols) as [|j d] eqn:Eq.
  - rewrite select_cols_full in HQ. destruct (robust_ok rows cols (fun i => y i - lc cols (lstsq rows cols y) i) cl HQ ltac:(lia) Hc) as [V HV]. rewrite HV. cbn [bind]. eexists; reflexivity.
  - assert (HL : length rows <> length (select_cols cols (kept_cols (length cols) (j :: d)))).
    { unfold select_cols. rewrite map_length. pose proof (kept_length (length cols) (j :: d)). lia. }
    set (xr := select_cols cols (kept_cols (length cols) (j :: d))) in *.
    destruct (robust_ok rows xr (fun i => y i - lc xr (lstsq rows xr y) i) cl HQ HL Hc) as [V HV].
    rewrite K0. destruct act; [|congruence|]; rewrite HV; cbn [bind]; eexists; reflexivity.
Qed.
End Solve.

(* the double difference over two units and two periods survives the within transformation *)
Lemma within_dd {I} (rows : list I) (u t : I -> Z) f a b c d : u a = u b -> u c = u d -> t a = t c -> t b = t d ->
  let W := within Z.eq_dec Z.eq_dec rows u t f in W a - W b - W c + W d = f a - f b - f c + f d.
Proof. intros H1 H2 H3 H4. cbv zeta. unfold within, group_mean. rewrite H1, H2, H3, H4. ring. Qed.
(* one treated cell whose unit is untreated in another period, and another unit untreated in both, is enough for a non-zero design *)
Lemma sa_cols_nonzero {I} (rows : list I) (u t : I -> Z) g covs keys k a b c d : In k keys ->
  u a = u b -> u c = u d -> t a = t c -> t b = t d -> In a rows -> In b rows -> In c rows -> In d rows ->
  sa_in t g k a = true -> sa_in t g k b = false -> sa_in t g k c = false -> sa_in t g k d = false ->
  exists x i, In x (sa_cols u t g covs keys rows) /\ In i rows /\ x i <> 0.
Proof.
  intros Hk H1 H2 H3 H4 Ha Hb Hc Hd Sa Sb Sc Sd. set (W := within Z.eq_dec Z.eq_dec rows u t (sa_dummy t g k)).
  assert (E : W a - W b - W c + W d = 1).
  { unfold W. rewrite within_dd by assumption. unfold sa_dummy. rewrite Sa, Sb, Sc, Sd. unfold ind. ring. }
  assert (HW : In W (sa_cols u t g covs keys rows)) by (unfold sa_cols; apply in_or_app; left; apply in_map_iff; exists k; easy).
  exists W. destruct (Req_EM_T (W a) 0); [|now exists a]. destruct (Req_EM_T (W b) 0); [|now exists b]. destruct (Req_EM_T (W c) 0); [|now exists c].
  exists d. repeat split; auto. lra.
Qed.
Lemma linreg_zero_design {I} (qr : list I -> list (I -> R) -> list nat) lstsq inv pinv robust (cl : option (I -> Z)) action df rows cols y :
  qr_ok qr -> (length cols <= length rows)%nat -> cols <> [] -> (action = "warn" \/ action = "silent")%string ->
  (forall c i, In c cols -> In i rows -> c i = 0) ->
  linreg_fit Z.eq_dec qr lstsq inv pinv robust cl action df rows cols y = Err IndexError.
Proof.
  intros Hqr Hn Hc Ha Hz. unfold linreg_fit. rewrite (solve_ols_zero_design Z.eq_dec qr lstsq inv Hqr); auto.
Qed.

Section Inf.
Context {I : Type}.
Variable qr : list I -> list (I -> R) -> list nat.
Variable lstsq : list I -> list (I -> R) -> (I -> R) -> list R.
Variable inv : list I -> list (I -> R) -> option (nat -> nat -> R).
Variable pinv : list I -> list (I -> R) -> nat -> nat -> R.
Variable sf : option Z -> fl -> fl.
Variable ppf : option Z -> R -> R.
Hypothesis Hqr : qr_ok qr.
Hypothesis Hls : lstsq_ok lstsq.
Hypothesis Hinv : inv_ok inv.
Hypothesis Hd : dist_ok sf ppf.
Variables (u t : I -> Z) (g : I -> coh) (y : I -> R) (covs : list (I -> R)) (cluster : option (I -> Z)).
Notation fit := (sa_fit qr lstsq inv pinv sf ppf u t g y covs cluster).
Notation satur := (sa_saturated qr lstsq inv pinv u t g y covs cluster).
Notation iw := (sa_iw sf ppf u g).
Notation keysof := (sa_keys t g).
Notation rel := (sa_rel t g).
Notation cols := (sa_cols u t g covs).
Notation cl := (match cluster with Some c => c | None => u end).

Theorem fit_succeeds cfg rows : sa_n_control u g rows <> 0%nat -> (sa_action cfg = "warn"%string \/ sa_action cfg = "silent"%string) ->
  let keys := keysof (sa_groups g rows) (sa_rel_periods t g cfg rows) (sa_sample g cfg rows) in
  keys <> [] -> (length keys + length covs < length (sa_sample g cfg rows))%nat -> (2 <= length (cl_keys Z.eq_dec (sa_sample g cfg rows) cl))%nat ->
  (exists c i, In c (cols keys (sa_sample g cfg rows)) /\ In i (sa_sample g cfg rows) /\ c i <> 0) ->
  exists r, fit cfg rows = Ok r /\ map fst (sa_coh_effects r) = keys.
Proof.
  intros Hn Ha keys Hk Hl Hc Hz. assert (K : keys = keysof (sa_groups g rows) (sa_rel_periods t g cfg rows) (sa_sample g cfg rows)) by reflexivity. clearbody keys.
  assert (Hs : exists reg, satur cfg (sa_groups g rows) (sa_rel_periods t g cfg rows) (sa_sample g cfg rows) = Ok reg /\ sr_keys reg = keys).
  { unfold sa_saturated. rewrite <- K. destruct keys as [|k0 ks] eqn:Ek; [congruence|]. rewrite <- Ek in *. clear Ek. unfold linreg_fit. cbv zeta.
    destruct (solve_ok qr lstsq inv Hqr Hinv (sa_sample g cfg rows) (cols keys (sa_sample g cfg rows)) (within Z.eq_dec Z.eq_dec (sa_sample g cfg rows) u t y) cl (sa_action cfg)) as [o Ho];
      [unfold sa_cols; rewrite app_length, !map_length; exact Hl|exact Hc|exact Ha|exact Hz|].
    rewrite Ho. cbn [bind]. eexists. split; reflexivity. }
  destruct Hs as (reg & Hs & Ek). unfold sa_fit. destruct (Nat.eqb_spec (sa_n_control u g rows) 0); [contradiction|].
  destruct (sa_groups g rows) as [|g0 gs] eqn:Eg; [exfalso; apply Hk; exact K|]. unfold sa_estimate. rewrite Hs. cbn [bind].
  destruct (sa_overall _ _ _ _ _) as [att se]. cbn [bind]. eexists. split; [reflexivity|]. cbn [sa_coh_effects]. rewrite map_map. cbn [fst]. rewrite map_id. exact Ek.
Qed.

(* every design column absorbed by the unit and period effects: the fit raises IndexError *)
Theorem saturated_absorbed cfg groups rels rows : sa_action cfg = "warn"%string \/ sa_action cfg = "silent"%string ->
  let keys := keysof groups rels rows in
  keys <> [] -> (length keys + length covs <= length rows)%nat ->
  (forall c i, In c (cols keys rows) -> In i rows -> c i = 0) -> satur cfg groups rels rows = Err IndexError.
Proof.
  intros Ha keys Hk Hl Hz. unfold sa_saturated. fold keys. destruct keys as [|k0 ks] eqn:Ek; [congruence|]. rewrite <- Ek in *. cbv zeta.
  rewrite linreg_zero_design; auto; [unfold sa_cols; rewrite app_length, !map_length; exact Hl|unfold sa_cols; rewrite Ek; discriminate].
Qed.
Theorem fit_absorbed cfg rows : sa_n_control u g rows <> 0%nat -> sa_action cfg = "warn"%string \/ sa_action cfg = "silent"%string ->
  let keys := keysof (sa_groups g rows) (sa_rel_periods t g cfg rows) (sa_sample g cfg rows) in
  keys <> [] -> (length keys + length covs <= length (sa_sample g cfg rows))%nat ->
  (forall c i, In c (cols keys (sa_sample g cfg rows)) -> In i (sa_sample g cfg rows) -> c i = 0) -> fit cfg rows = Err IndexError.
Proof.
  intros Hn Ha keys Hk Hl Hz. unfold sa_fit. destruct (Nat.eqb_spec (sa_n_control u g rows) 0); [contradiction|].
  assert (Hs := saturated_absorbed cfg (sa_groups g rows) (sa_rel_periods t g cfg rows) (sa_sample g cfg rows) Ha Hk Hl Hz).
  assert (Hg : sa_groups g rows <> []) by (intros E; apply Hk; unfold keys; rewrite E; reflexivity). clear keys Hk Hl Hz.
  destruct (sa_groups g rows) as [|g0 gs]; [congruence|].
  unfold sa_estimate. rewrite Hs. reflexivity.
Qed.

(* ---- standard errors ---- *)
(* the overall effect as one combination of coefficients *)
Lemma fsum_app_map (a b : list fl) : fsum (a ++ b) = fadd (fsum a) (fsum b).
Proof.
  induction a as [|x a IH]; cbn [app].
  - change (fsum []) with (Fin 0). destruct (fsum b); cbn [fadd]; try reflexivity. f_equal. ring.
  - change (fsum (x :: a ++ b)) with (fadd x (fsum (a ++ b))). change (fsum (x :: a)) with (fadd x (fsum a)). rewrite IH.
    destruct x, (fsum a), (fsum b); cbn [fadd]; try reflexivity. f_equal. ring.
Qed.
Theorem standard_errors cfg rows r m : (forall i, In i rows -> valid_coh (g i) = true) ->
  (forall reg, satur cfg (sa_groups g rows) (sa_rel_periods t g cfg rows) rows = Ok reg -> indep rows (cols (sr_keys reg) rows)) ->
  fit cfg rows = Ok r -> m = length (sa_coh_effects r) ->
  exists V e, robust_vcov Z.eq_dec inv rows (cols (map fst (sa_coh_effects r)) rows) e (Some cl) = Ok V /\
  (forall e ef, In (e, ef) (sa_es r) -> exists w, In (e, w) (sa_cweights r) /\
     exists ix, map snd ix = map snd w /\ (forall p, In p ix -> (fst p < m)%nat) /\
       (forall p q, In (p, q) (combine ix w) -> nth_error (map fst (sa_coh_effects r)) (fst p) = Some (fst q, e)) /\
       0 <= quadR V ix /\ se_se ef = Fin (sqrt (quadR V ix))) /\
  ((exists e w, In (e, w) (sa_cweights r) /\ (0 <= e)%Z) ->
     exists ix, (forall p, In p ix -> (fst p < m)%nat) /\ 0 <= quadR V ix /\ sa_se r = Fin (sqrt (quadR V ix)) /\
       sumf snd ix = 1 /\
       (forall f, (forall p, In p ix -> exists k s w, nth_error (sa_coh_effects r) (fst p) = Some (k, (Fin (f k), s, w))) ->
          sa_att r = Fin (sumf (fun p => snd p * match nth_error (sa_coh_effects r) (fst p) with Some (k, _) => f k | None => 0 end) ix))).
Proof.
  intros Hval Hfull Hr Hm. destruct (sa_fit_inv qr lstsq inv pinv sf ppf u t g y covs cluster cfg rows r Hr) as (Hn & _ & reg & Hs & Hes & Hw & Ha & Hse & _ & _ & _ & _ & _ & _ & _ & Hce).
  rewrite (sample_all g cfg rows Hval) in Hs. specialize (Hfull reg Hs).
  destruct (saturated_vcov qr lstsq inv pinv Hqr Hls Hinv u t g y covs cluster cfg _ _ _ reg Hs Hfull) as (V & e0 & HV & _ & HQ).
  assert (Hk : map fst (sa_coh_effects r) = sr_keys reg) by (rewrite Hce, map_map; cbn [fst]; apply map_id).
  assert (Hm' : m = length (sr_keys reg)) by (rewrite <- Hk, map_length; exact Hm).
  set (es := iw cfg (sa_groups g rows) (sa_rel_periods t g cfg rows) reg rows) in *.
  assert (Hnth : forall k, In k (sr_keys reg) -> nth_error (sr_keys reg) (sr_idx reg k) = Some k).
  { intros k Hin. unfold sr_idx, sr_at. destruct (key_index_in k _ Hin) as [j Hj]. rewrite Hj. destruct (key_index_some _ _ _ Hj) as [Hl En].
    rewrite (nth_error_nth' _ k Hl), En. reflexivity. }
  assert (Hkey : forall e w ef, In (e, (w, ef)) es -> forall gw, In gw w -> In (fst gw, e) (sr_keys reg)).
  { intros e w ef Hin gw Hgw. destruct (iw_weights sf ppf u g cfg _ _ _ _ _ _ _ Hin) as (_ & _ & _ & _ & Hmp & _).
    assert (X : In (fst gw) (map fst w)) by (apply in_map; exact Hgw). rewrite Hmp in X. apply filter_In in X as [_ X]. apply has_iff in X. exact X. }
  exists V, e0. split; [rewrite Hk; exact HV|]. split.
  - intros e ef Hin. rewrite Hes in Hin. apply in_map_iff in Hin as ([e1 [w ef1]] & E & Hin). cbn [fst snd] in E. apply pair_equal_spec in E as [-> ->].
    exists w. split; [rewrite Hw; apply in_map_iff; exists (e, (w, ef)); split; [reflexivity|exact Hin]|].
    destruct (iw_weights sf ppf u g cfg _ _ _ _ _ _ _ Hin) as (_ & _ & _ & Eef & _).
    exists (map (fun gw => (sr_idx reg (fst gw, e), snd gw)) w). split; [rewrite map_map; reflexivity|].
    assert (Hlt : forall p, In p (map (fun gw => (sr_idx reg (fst gw, e), snd gw)) w) -> (fst p < length (sr_keys reg))%nat).
    { intros p Hp. apply in_map_iff in Hp as (gw & <- & Hgw). cbn [fst]. apply sr_idx_lt. eapply Hkey; eauto. }
    split; [rewrite Hm'; exact Hlt|]. split.
    + intros p q Hpq. rewrite Hk. assert (Hq : In q w /\ p = (sr_idx reg (fst q, e), snd q)).
      { clear -Hpq. induction w as [|x w IH]; cbn [map combine] in Hpq; [destruct Hpq|]. destruct Hpq as [E|Hpq]; [apply pair_equal_spec in E as [<- <-]; split; [left; reflexivity|reflexivity]|].
        destruct (IH Hpq). split; [right; assumption|assumption]. }
      destruct Hq as [Hq ->]. cbn [fst]. apply Hnth. eapply Hkey; eauto.
    + destruct (HQ _ Hlt) as (_ & Q2 & Q3). split; [exact Q2|]. rewrite Eef. exact Q3.
  - intros (e1 & w1 & Hin1 & He1). rewrite Hw in Hin1. apply in_map_iff in Hin1 as ([e2 [w2 ef2]] & E & Hin1). cbn [fst snd] in E. apply pair_equal_spec in E as [-> ->].
    assert (Hp1 : In (e1, (w1, ef2)) (sa_post es)) by (apply filter_In; split; [exact Hin1|apply Z.leb_le; exact He1]).
    assert (Hpne : sa_post es <> []) by (intros E; rewrite E in Hp1; destruct Hp1).
    set (ow := sa_overall_weights t g rows es) in *.
    assert (Howk : forall kw, In kw ow -> In (fst kw) (sr_keys reg)).
    { intros kw Hin. apply in_flat_map in Hin as ([e3 [w3 ef3]] & Hp3 & Hin). apply filter_In in Hp3 as [Hp3 _]. cbn [fst snd] in Hin.
      apply in_map_iff in Hin as (gw & <- & Hgw). cbn [fst]. eapply Hkey; eauto. }
    assert (Howne : ow <> []).
    { destruct (iw_weights sf ppf u g cfg _ _ _ _ _ _ _ Hin1) as (_ & Hne & _). destruct w1 as [|x w1]; [congruence|].
      intros E. assert (X : In ((fst x, e1), sa_pw t g rows es e1 * snd x) ow); [|rewrite E in X; destruct X].
      apply in_flat_map. exists (e1, (x :: w1, ef2)). split; [exact Hp1|]. left; reflexivity. }
    exists (map (fun kw => (sr_idx reg (fst kw), snd kw)) ow).
    assert (Hlt : forall p, In p (map (fun kw => (sr_idx reg (fst kw), snd kw)) ow) -> (fst p < length (sr_keys reg))%nat).
    { intros p Hp. apply in_map_iff in Hp as (kw & <- & Hkw). cbn [fst]. apply sr_idx_lt, Howk. exact Hkw. }
    split; [rewrite Hm'; exact Hlt|]. destruct (HQ _ Hlt) as (_ & Q2 & Q3). split; [exact Q2|].
    destruct (overall_weights t g rows reg es) as [_ OW]. destruct (OW Hpne) as (OA & OS & _).
    split; [|split].
    + rewrite Hse, <- Q3. unfold sa_overall. fold ow. destruct (sa_post es) as [|p0 l0]; [congruence|]. destruct ow as [|k0 o0]; [congruence|]. reflexivity.
    + rewrite sumf_map. cbn [snd]. unfold ow, sa_overall_weights. rewrite sumf_flat_map. rewrite <- OS. apply sumf_ext. intros [e3 [w3 ef3]] Hp3. apply filter_In in Hp3 as [Hp3 _].
      cbn [fst snd]. rewrite sumf_map. cbn [snd]. rewrite sumf_scal.
      destruct (iw_weights sf ppf u g cfg _ _ _ _ _ _ _ Hp3) as (_ & _ & _ & _ & _ & E1 & _). rewrite E1. ring.
    + intros f Hf.
      assert (Hval1 : forall k, In k (map fst ow) -> sr_eff reg k = Fin (f k)).
      { intros k Hin. apply in_map_iff in Hin as (kw & <- & Hkw). assert (Hkk := Howk _ Hkw).
        destruct (Hf (sr_idx reg (fst kw), snd kw)) as (k2 & s2 & w2' & E2); [apply in_map_iff; exists kw; auto|]. cbn [fst] in E2.
        rewrite Hce, nth_error_map, (Hnth _ Hkk) in E2. cbn [option_map] in E2. injection E2 as <- E2 _ _. exact E2. }
      rewrite Ha, OA. transitivity (fsum (map (fun kw => fmul (Fin (snd kw)) (sr_eff reg (fst kw))) ow)).
      * unfold ow, sa_overall_weights. unfold ow in Hval1. unfold sa_overall_weights in Hval1.
        assert (HP : forall p, In p (sa_post es) -> In p es) by (intros p Hp; apply filter_In in Hp; tauto).
        revert Hval1 HP. generalize (sa_post es) as P. intros P. induction P as [|[e3 [w3 ef3]] P IH]; intros Hv1 HP; [reflexivity|].
        cbn [map flat_map]. rewrite map_app, fsum_app_map. cbn [flat_map map] in Hv1. rewrite map_app in Hv1.
        refine (eq_trans _ (f_equal (fadd _) (IH _ _))); [|intros k Hin; apply Hv1; apply in_or_app; right; exact Hin|intros p Hp; apply HP; right; exact Hp].
        match goal with |- fsum (?a :: ?b) = _ => change (fsum (a :: b)) with (fadd a (fsum b)) end. f_equal. cbn [fst snd].
        destruct (iw_weights sf ppf u g cfg _ _ _ _ _ _ _ (HP _ (or_introl eq_refl))) as (_ & _ & _ & _ & _ & _ & _ & Eeff & _). rewrite Eeff.
        rewrite (fsum_fin_map (fun gw => fmul (Fin (snd gw)) (sr_eff reg (fst gw, e3))) (fun gw => snd gw * f (fst gw, e3)) w3).
        -- cbn [fmul]. symmetry. rewrite map_map. cbn [fst snd].
           refine (eq_trans (fsum_fin_map _ (fun x => sa_pw t g rows es e3 * (snd x * f (fst x, e3))) w3 _) _).
           ++ intros gw Hgw. cbn [fst snd]. rewrite Hv1; [cbn [fmul]; f_equal; ring|]. apply in_or_app. left. cbn [fst snd]. rewrite map_map. cbn [fst]. apply in_map_iff. exists gw; auto.
           ++ rewrite sumf_scal. reflexivity.
        -- intros gw Hgw. rewrite Hv1; [reflexivity|]. apply in_or_app. left. cbn [fst snd]. rewrite map_map. cbn [fst]. apply in_map_iff. exists gw; auto.
      * rewrite sumf_map. cbn [fst snd]. apply fsum_fin_map. intros kw Hkw. rewrite Hval1 by (apply in_map; exact Hkw).
        rewrite Hce, nth_error_map, (Hnth _ (Howk _ Hkw)). reflexivity.
Qed.

(* ---- reported inference ---- *)
Theorem sa_coherent alpha b se : 0 < se -> 0 < alpha < 1 ->
  exists p lo hi, sa_t (Fin b) (Fin se) = Fin (b / se) /\ u_p_value sf (sa_t (Fin b) (Fin se)) None = Fin p /\ u_ci ppf (Fin b) (Fin se) alpha None = (Fin lo, Fin hi) /\
    0 < p <= 1 /\ lo < b < hi /\ b - lo = hi - b /\ (p < alpha <-> (hi < 0 \/ 0 < lo)).
Proof.
  intros Hs Ha. assert (Et : sa_t (Fin b) (Fin se) = Fin (b / se)).
  { unfold sa_t, fgt. destruct (flt (Fin 0) (Fin se)) eqn:E; [|apply (proj2 (flt_fin 0 se)) in Hs; congruence]. unfold fdiv. destruct (Req_EM_T se 0); [lra|reflexivity]. }
  destruct (u_coherent sf ppf Hd b se alpha None Hs Ha ltac:(discriminate)) as (p & lo & hi & E1 & E2 & E3). exists p, lo, hi. rewrite Et. auto 8.
Qed.
Theorem sa_degenerate alpha b : (u_p_value sf (sa_t b NaN) None = Fin 1 /\ sa_t b NaN = Fin 0 /\ u_ci ppf b NaN alpha None = (NaN, NaN)) /\
  (u_p_value sf (sa_t b (Fin 0)) None = Fin 1 /\ sa_t b (Fin 0) = Fin 0).
Proof.
  assert (H0 : u_p_value sf (Fin 0) None = Fin 1).
  { unfold u_p_value. cbn [fabs u_sf]. rewrite Rabs_R0, (d_zero _ _ Hd). cbn [fmul]. f_equal. field. }
  assert (E1 : sa_t b NaN = Fin 0) by reflexivity.
  assert (E2 : sa_t b (Fin 0) = Fin 0). { unfold sa_t, fgt. destruct (flt (Fin 0) (Fin 0)) eqn:E; [apply flt_fin in E; lra|reflexivity]. }
  rewrite E1, E2. split; [split; [exact H0|split; [reflexivity|]]|split; [exact H0|reflexivity]].
  unfold u_ci. destruct b; reflexivity.
Qed.

Theorem no_post_effects cfg rows r : fit cfg rows = Ok r -> (forall e ef, In (e, ef) (sa_es r) -> (e < 0)%Z) ->
  sa_att r = Fin 0 /\ sa_se r = Fin 0 /\ sa_tt r = Fin 0 /\ sa_p r = Fin 1 /\ sa_ci r = (Fin 0, Fin 0).
Proof.
  intros Hr Hneg. destruct (sa_fit_inv qr lstsq inv pinv sf ppf u t g y covs cluster cfg rows r Hr) as (_ & _ & reg & _ & Hes & _ & Ha & Hse & Ht & Hp & Hc & _).
  set (es := iw _ _ _ _ _) in *. destruct (overall_weights t g rows reg es) as [O1 _].
  assert (E : sa_post es = []).
  { destruct (sa_post es) as [|[e [w ef]] l] eqn:E; [reflexivity|]. exfalso. assert (X : In (e, (w, ef)) (sa_post es)) by (rewrite E; left; reflexivity).
    apply filter_In in X as [X B]. cbn [fst] in B. apply Z.leb_le in B. specialize (Hneg e ef). rewrite Hes in Hneg.
    specialize (Hneg (proj2 (in_map_iff _ _ _) (ex_intro _ (e, (w, ef)) (conj eq_refl X)))). lia. }
  rewrite (O1 E) in Ha, Hse. cbn [fst snd] in Ha, Hse. rewrite Hp, Hc, Ht, Ha, Hse.
  destruct (sa_degenerate (sa_alpha cfg) (Fin 0)) as [_ [D1 D2]]. rewrite D1, D2. do 4 (split; [reflexivity|]). unfold u_ci, u_ppf. cbn [fmul fsub fneg fadd]. rewrite Rmult_0_r, Ropp_0, Rplus_0_r. reflexivity.
Qed.

(* a rank-deficient saturated regression reports undefined effects with p value one *)
Theorem rank_deficient cfg rows r : covs = [] -> (forall i, In i rows -> valid_coh (g i) = true) -> fit cfg rows = Ok r ->
  ~ indep rows (cols (map fst (sa_coh_effects r)) rows) ->
  (forall gr e, In (gr, e) (map fst (sa_coh_effects r)) -> (0 < sa_size u g rows gr)%nat) ->
  exists e ef, In (e, ef) (sa_es r) /\ se_eff ef = NaN /\ se_se ef = NaN /\ se_t ef = Fin 0 /\ se_p ef = Fin 1 /\ se_ci ef = (NaN, NaN) /\
    ((0 <= e)%Z -> sa_att r = NaN /\ sa_se r = NaN /\ sa_tt r = Fin 0 /\ sa_p r = Fin 1).
Proof.
  intros Hcov Hval Hr Hdep Hsz. destruct (sa_fit_inv qr lstsq inv pinv sf ppf u t g y covs cluster cfg rows r Hr) as (_ & _ & reg & Hs & Hes & Hw & Ha & Hse & Ht & Hp & _ & _ & _ & _ & _ & Hce).
  rewrite (sample_all g cfg rows Hval) in Hs. assert (Hk : map fst (sa_coh_effects r) = sr_keys reg) by (rewrite Hce, map_map; cbn [fst]; apply map_id). rewrite Hk in *.
  destruct (saturated_inv qr lstsq inv pinv Hls u t g y covs cluster _ _ _ _ _ Hs) as (Ek & _ & o & Ho & Hc & Hv).
  set (es := iw cfg _ _ reg rows) in *.
  assert (Hq : qr rows (cols (sr_keys reg) rows) <> []).
  { intros E. apply Hdep. pose proof (Hqr rows (cols (sr_keys reg) rows)) as X. cbv zeta in X. rewrite E, select_cols_full in X. apply X. }
  destruct (qr rows (cols (sr_keys reg) rows)) as [|j d] eqn:Eq; [congruence|].
  pose proof (Hqr rows (cols (sr_keys reg) rows)) as HQ. cbv zeta in HQ. rewrite Eq in HQ. destruct HQ as [HQ _]. destruct (HQ j (or_introl eq_refl)) as [Hj _]. clear HQ.
  destruct (solve_ols_nan_exactly_dropped Z.eq_dec qr lstsq inv Hls _ _ _ _ _ _ _ Ho) as (_ & HN & HVN). specialize (HVN _ Hv). rewrite Eq in *.
  assert (Hlen : length (cols (sr_keys reg) rows) = length (sr_keys reg)) by (unfold sa_cols; rewrite Hcov, app_length, !map_length; simpl; lia).
  rewrite Hlen in *. destruct (nth_error (sr_keys reg) j) as [[gr e]|] eqn:En; [|apply nth_error_None in En; lia].
  assert (Hin : In (gr, e) (sr_keys reg)) by (eapply nth_error_In; exact En).
  assert (Hnd : NoDup (sr_keys reg)) by (rewrite Ek; apply keys_NoDup; [apply cs_groups_NoDup|apply rel_periods_NoDup]).
  assert (Hidx : sr_at reg (gr, e) = Some j).
  { unfold sr_at. destruct (key_index_in (gr, e) _ Hin) as [j' Hj']. rewrite Hj'. f_equal. destruct (key_index_some _ _ _ Hj') as [L1 E1].
    assert (E2 : nth_error (sr_keys reg) j' = Some (gr, e)) by (refine (eq_trans (nth_error_nth' _ (gr, e) L1) _); apply f_equal; exact E1).
    apply (proj1 (NoDup_nth_error (sr_keys reg)) Hnd); [exact L1|exact (eq_trans E2 (eq_sym En))]. }
  assert (Heff : sr_eff reg (gr, e) = NaN). { unfold sr_eff. rewrite Hidx, Hc. apply HN; [exact Hj|left; reflexivity]. }
  assert (Hvj : forall c, (c < length (sr_keys reg))%nat -> sr_vcov reg j c = NaN) by (intros c Hcl; apply HVN; [exact Hj|exact Hcl|left; left; reflexivity]).
  (* the weights at e *)
  set (w := sa_weights u g (sa_groups g rows) reg rows e).
  assert (Hgr : In gr (filter (fun gr => sr_has reg (gr, e)) (sa_groups g rows))).
  { apply filter_In. split; [|apply has_iff; exact Hin]. rewrite Ek in Hin. apply keys_In in Hin. tauto. }
  assert (Hwne : exists x, In (gr, x) w).
  { unfold w, sa_weights. destruct (Req_EM_T _ 0) as [E0|N0].
    - exfalso. assert (X : INR (sa_size u g rows gr) <= 0).
      { rewrite <- E0. clear -Hgr. induction (filter (fun gr => sr_has reg (gr, e)) (sa_groups g rows)) as [|a L IH]; [destruct Hgr|]. cbn [sumf].
        pose proof (sumf_nonneg (fun gr => INR (sa_size u g rows gr)) L (fun gr _ => pos_INR _)). pose proof (pos_INR (sa_size u g rows a)).
        destruct Hgr as [<-|H1]; [lra|]. specialize (IH H1). lra. }
      specialize (Hsz gr e Hin). apply lt_0_INR in Hsz. lra.
    - eexists. apply in_map_iff. exists gr. split; [reflexivity|exact Hgr]. }
  destruct Hwne as [x Hx].
  assert (Hes_in : In (e, (w, sa_effect sf ppf (sa_alpha cfg) reg e w)) es).
  { apply in_flat_map. exists e. split; [rewrite Ek in Hin; apply keys_In in Hin; tauto|]. fold w. destruct w as [|w0 wl]; [destruct Hx|]. left; reflexivity. }
  set (ef := sa_effect sf ppf (sa_alpha cfg) reg e w).
  assert (E1 : se_eff ef = NaN). { apply fsum_nan. apply in_map_iff. exists (gr, x). cbn [fst snd]. rewrite Heff. split; [reflexivity|exact Hx]. }
  assert (Eq1 : forall l, In j (map fst l) -> (forall p, In p l -> (fst p < length (sr_keys reg))%nat) -> quad (sr_vcov reg) l = NaN).
  { intros l Hjl Hl. apply in_map_iff in Hjl as (a & Ea & Hal). apply fsum_nan. apply in_map_iff. exists a. split; [|exact Hal].
    apply fsum_nan. apply in_map_iff. exists a. split; [|exact Hal]. rewrite Ea, Hvj by lia. reflexivity. }
  assert (Hkey : forall e w ef, In (e, (w, ef)) es -> forall gw, In gw w -> In (fst gw, e) (sr_keys reg)).
  { intros e' w' ef' Hin' gw Hgw. destruct (iw_weights sf ppf u g cfg _ _ _ _ _ _ _ Hin') as (_ & _ & _ & _ & Hmp & _).
    assert (X : In (fst gw) (map fst w')) by (apply in_map; exact Hgw). rewrite Hmp in X. apply filter_In in X as [_ X]. apply has_iff in X. exact X. }
  assert (E2 : se_se ef = NaN).
  { unfold ef, sa_effect. cbn [se_se]. rewrite Eq1; [reflexivity| |].
    - rewrite map_map. cbn [fst]. apply in_map_iff. exists (gr, x). cbn [fst]. split; [unfold sr_idx; rewrite Hidx; reflexivity|exact Hx].
    - intros p Hpp. apply in_map_iff in Hpp as (gw & <- & Hgw). cbn [fst]. apply sr_idx_lt. eapply Hkey; eauto. }
  assert (E3 : se_t ef = sa_t (se_eff ef) (se_se ef) /\ se_p ef = u_p_value sf (sa_t (se_eff ef) (se_se ef)) None /\ se_ci ef = u_ci ppf (se_eff ef) (se_se ef) (sa_alpha cfg) None) by (repeat split).
  destruct E3 as (E3 & E4 & E5). rewrite E1, E2 in E3, E4, E5. destruct (sa_degenerate (sa_alpha cfg) NaN) as [(D1 & D2 & D3) _].
  exists e, ef. split; [rewrite Hes; apply in_map_iff; exists (e, (w, ef)); split; [reflexivity|exact Hes_in]|].
  split; [exact E1|]. split; [exact E2|]. split; [rewrite E3; exact D2|]. split; [rewrite E4; exact D1|]. split; [rewrite E5; exact D3|].
  intros He. assert (Hp1 : In (e, (w, ef)) (sa_post es)) by (apply filter_In; split; [exact Hes_in|apply Z.leb_le; exact He]).
  assert (Hpne : sa_post es <> []) by (intros E; rewrite E in Hp1; destruct Hp1).
  destruct (overall_weights t g rows reg es) as [_ OW]. destruct (OW Hpne) as (OA & _).
  assert (A1 : sa_att r = NaN). { rewrite Ha, OA. apply fsum_nan. apply in_map_iff. exists (e, (w, ef)). cbn [fst snd]. rewrite E1. split; [reflexivity|exact Hp1]. }
  assert (A2 : sa_se r = NaN).
  { rewrite Hse. unfold sa_overall. set (ow := sa_overall_weights t g rows es).
    assert (How : In ((gr, e), sa_pw t g rows es e * x) ow) by (apply in_flat_map; exists (e, (w, ef)); split; [exact Hp1|apply in_map_iff; exists (gr, x); split; [reflexivity|exact Hx]]).
    destruct (sa_post es) as [|p0 l0] eqn:Ep; [congruence|]. destruct ow as [|k0 o0] eqn:Eo; [destruct How|]. rewrite <- Eo in *. cbn [snd]. rewrite Eq1; [reflexivity| |].
    - rewrite map_map. cbn [fst]. apply in_map_iff. eexists. split; [|exact How]. cbn [fst]. unfold sr_idx. rewrite Hidx. reflexivity.
    - intros p Hpp. apply in_map_iff in Hpp as (kw & <- & Hkw). cbn [fst]. apply sr_idx_lt. apply in_flat_map in Hkw as ([e3 [w3 ef3]] & Hp3 & Hkw).
      apply filter_In in Hp3 as [Hp3 _]. apply in_map_iff in Hkw as (gw & <- & Hgw). cbn [fst snd]. eapply Hkey; eauto. }
  split; [exact A1|]. split; [exact A2|]. rewrite Hp, Ht, A1, A2. split; [exact D2|exact D1].
Qed.
End Inf.

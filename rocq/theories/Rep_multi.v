(* Repeated data in MultiPeriodDiD (C131). *)
From Coq Require Import Reals Lra Lia.
From Verif Require Import Prelude Flt Linalg_model Linalg_proofs Linalg_vcov Linalg_thms Linalg_rank Linalg_span Did_model Did_proofs Multi_model Multi_proofs Multi_thms Sun_rows Rep_proofs Rep_thms Fit_more.
From Coq Require Import Arith ZArith String List.
Import ListNotations.
Open Scope R_scope.

Section Multi.
Context {I K G : Type} (keq : forall x y : K, {x = y} + {x <> y}) (geq : forall x y : G, {x = y} + {x <> y}).
Variable qr : list I -> list (I -> R) -> list nat.
Variable lstsq : list I -> list (I -> R) -> (I -> R) -> list R.
Variable inv : list I -> list (I -> R) -> option (nat -> nat -> R).
Variable sf : option Z -> fl -> fl.
Variable ppf : option Z -> R -> R.
Hypothesis Hqr : qr_ok qr.
Hypothesis Hls : lstsq_ok lstsq.
Hypothesis Hinv : inv_ok inv.
Notation mfit := (mp_fit keq geq qr lstsq inv sf ppf).

(* covariances of the two fits *)
Definition scaled (c : R) (p : nat) (V V' : nat -> nat -> fl) : Prop :=
  forall j m, (j < p)%nat -> (m < p)%nat -> exists v, V j m = Fin v /\ V' j m = Fin (c * v).

Lemma ols_copies cluster action k rows cols y : (1 <= k)%nat -> indep rows cols -> (length cols < length rows)%nat ->
  match solve_ols keq qr lstsq inv rows cols y cluster true action, solve_ols keq qr lstsq inv (copies k rows) cols y cluster true action with
  | Ok a, Ok b => o_coef a = map Fin (lstsq rows cols y) /\ o_coef b = o_coef a /\ o_resid b = o_resid a /\
      exists V V', o_vcov a = Some V /\ o_vcov b = Some V' /\
        scaled (rep_factor (match cluster with Some _ => true | None => false end) k (length rows) (length cols)) (length cols) V V'
  | Err e, Err f => e = f
  | _, _ => False
  end.
Proof.
  intros Hk Hi Hn. pose proof (indep_copies k rows cols Hk Hi) as Hi2.
  unfold solve_ols. rewrite (qr_indep_none qr rows cols Hqr Hi), (qr_indep_none qr (copies k rows) cols Hqr Hi2), (lstsq_copies lstsq Hls k rows cols y Hk Hi), copies_length.
  assert (L1 : Nat.ltb (length rows) (length cols) = false) by (apply Nat.ltb_ge; lia).
  assert (L2 : Nat.ltb (k * length rows) (length cols) = false) by (apply Nat.ltb_ge; nia). rewrite L1, L2.
  destruct (parse_action action); [|reflexivity]. set (e := fun i => y i - lc cols (lstsq rows cols y) i).
  pose proof (robust_copies keq inv Hinv k rows cols e cluster Hk Hi Hn) as H.
  destruct (robust_vcov keq inv rows cols e cluster) as [V|], (robust_vcov keq inv (copies k rows) cols e cluster) as [V'|]; cbn [bind]; try contradiction; [|exact H].
  cbn. split; [reflexivity|]. split; [reflexivity|]. split; [reflexivity|]. eexists. eexists. split; [reflexivity|]. split; [reflexivity|].
  intros j m Hj Hm. exists (V j m). rewrite (H j m Hj Hm). auto.
Qed.
Lemma classical_copies k rows cols y e : (1 <= k)%nat -> indep rows cols -> (length cols < length rows)%nat ->
  exists V V', mp_classical inv rows cols (map Fin (lstsq rows cols y)) e = Ok V /\ mp_classical inv (copies k rows) cols (map Fin (lstsq rows cols y)) e = Ok V' /\
    scaled (rep_factor false k (length rows) (length cols)) (length cols) V V'.
Proof.
  intros Hk Hi Hn. assert (Ln : length (lstsq rows cols y) = length cols) by apply (Hls rows cols y).
  destruct (inv_copies inv Hinv k rows cols Hk Hi) as (B & B' & E1 & E2 & EB). unfold mp_classical. rewrite (kept_all _ _ Ln), select_cols_full, E1, E2.
  eexists. eexists. split; [reflexivity|]. split; [reflexivity|]. intros j m Hj Hm.
  assert (Lk : length (kept_cols (length cols) []) = length cols) by (rewrite kept_cols_nil; apply seq_length). rewrite Lk.
  rewrite kept_cols_nil, !index_of_seq by assumption. rewrite copies_length, copies_sumf, mult_INR.
  assert (Pk : 1 <= INR k) by (change 1 with (INR 1); apply le_INR; lia).
  assert (Pn : INR (length cols) < INR (length rows)) by (apply lt_INR; lia).
  assert (P0 : 0 <= INR (length cols)) by apply pos_INR.
  assert (Pkn : INR (length cols) < INR k * INR (length rows)) by nra.
  unfold fdiv. destruct (Req_EM_T (INR (length rows) - INR (length cols)) 0); [lra|]. destruct (Req_EM_T (INR k * INR (length rows) - INR (length cols)) 0); [lra|].
  cbn [fmul]. eexists. split; [reflexivity|]. rewrite (EB j m) by assumption. unfold rep_factor. f_equal. field. repeat split; lra.
Qed.

Lemma fsum_scaled {A} c (f g : A -> fl) l : (forall a, In a l -> exists v, f a = Fin v /\ g a = Fin (c * v)) ->
  exists s, fsum (map f l) = Fin s /\ fsum (map g l) = Fin (c * s).
Proof.
  induction l as [|a l IH]; intros H; [exists 0; split; cbn; [reflexivity|f_equal; ring]|].
  destruct IH as (s & E1 & E2); [intros b Hb; apply H; right; exact Hb|]. destruct (H a (or_introl eq_refl)) as (v & F1 & F2).
  exists (v + s). cbn [map]. change (fsum (f a :: map f l)) with (fadd (f a) (fsum (map f l))). change (fsum (g a :: map g l)) with (fadd (g a) (fsum (map g l))).
  rewrite E1, E2, F1, F2. cbn. split; [reflexivity|f_equal; ring].
Qed.
Lemma average_copies c p alpha df df' effects V V' idxs : 0 < c -> scaled c p V V' -> (forall j, In j idxs -> (j < p)%nat) ->
  let a := mp_average sf ppf alpha df effects V idxs in let b := mp_average sf ppf alpha df' effects V' idxs in
  fst (fst (fst (fst b))) = fst (fst (fst (fst a))) /\ snd (fst (fst (fst b))) = fmul (Fin (sqrt c)) (snd (fst (fst (fst a)))).
Proof.
  intros Hc HV Hi. cbv zeta. unfold mp_average. destruct (existsb fisnan effects); [split; reflexivity|].
  destruct (fsum_scaled c (fun a => fsum (map (fun b => V a b) idxs)) (fun a => fsum (map (fun b => V' a b) idxs)) idxs) as (s & E1 & E2).
  { intros a Ha. apply fsum_scaled. intros b Hb. apply HV; auto. }
  rewrite E1, E2. set (nn := INR (length idxs) * INR (length idxs)). destruct (Req_EM_T nn 0) as [Z|Z].
  - assert (L : idxs = []). { destruct idxs as [|x l]; [reflexivity|]. exfalso. unfold nn in Z. cbn [length] in Z. pose proof (lt_0_INR (S (length l)) ltac:(lia)). nra. }
    subst idxs. cbn in E1. injection E1 as <-. rewrite Rmult_0_r. assert (F : fdiv (Fin 0) (Fin nn) = NaN).
    { unfold fdiv. destruct (Req_EM_T nn 0); [|contradiction]. unfold fsgn_inf. repeat match goal with |- context [if ?x then _ else _] => destruct x; try lra end. reflexivity. }
    rewrite F. cbn [fisnan orb fst snd fmul]. split; reflexivity.
  - assert (P : 0 < nn) by (unfold nn in *; pose proof (pos_INR (length idxs)); nra).
    assert (D : forall x, fdiv (Fin x) (Fin nn) = Fin (x / nn)) by (intros x; unfold fdiv; destruct (Req_EM_T nn 0); [contradiction|reflexivity]). rewrite !D.
    replace (c * s / nn) with (c * (s / nn)) by (field; exact Z). set (w := s / nn). cbn [fisnan orb]. rewrite (root_factor c w Hc). unfold flt.
    destruct (Rltb w 0) eqn:Ew, (Rltb (c * w) 0) eqn:Ec; try (apply Rltb_true in Ew || apply Rltb_false in Ew); try (apply Rltb_true in Ec || apply Rltb_false in Ec); try (exfalso; nra); try (split; reflexivity).
    destruct (fgt (fsqrt (Fin w)) (Fin 0)), (fgt (fmul (Fin (sqrt c)) (fsqrt (Fin w))) (Fin 0)); split; reflexivity.
Qed.

Definition mp_cols rows (y d : I -> R) (t : I -> Z) post ref covs dums (absorb : list (I -> G)) : list (I -> R) :=
  match mp_setup (zsort (nodup Z.eq_dec (map t rows))) post ref with
  | Ok (_, ps, r) => mp_design d t (zsort (nodup Z.eq_dec (map t rows))) ps r (snd (fst (absorb_loop geq rows absorb y covs)) ++ dums)
  | Err _ => []
  end.
Theorem mp_copies (cfg : did_config I K) k rows y d t post ref covs dums absorb : (1 <= k)%nat ->
  let cols := mp_cols rows y d t post ref covs dums absorb in
  indep rows cols -> (length cols < length rows)%nat ->
  match mfit cfg rows y d t post ref covs dums absorb, mfit cfg (copies k rows) y d t post ref covs dums absorb with
  | Ok a, Ok b =>
      let s := Fin (sqrt (rep_factor (match c_cluster cfg with Some _ => true | None => false end) k (length rows) (length cols))) in
      map (fun e => (pe_period e, pe_effect e, pe_se e)) (mp_effects b) = map (fun e => (pe_period e, pe_effect e, fmul s (pe_se e))) (mp_effects a) /\
      mp_avg b = mp_avg a /\ mp_avg_se b = fmul s (mp_avg_se a) /\
      mp_coef b = mp_coef a /\ mp_resid b = mp_resid a /\ mp_pre b = mp_pre a /\ mp_post b = mp_post a /\ mp_ref b = mp_ref a /\
      mp_n_obs b = (k * mp_n_obs a)%nat /\ mp_n_treated b = INR k * mp_n_treated a /\ mp_n_control b = INR k * mp_n_control a
  | Err e, Err f => e = f
  | _, _ => False
  end.
Proof.
  intros Hk cols Hi Hn. unfold mp_fit. rewrite !two_values_copies by exact Hk.
  replace (binary (copies k rows) (fun i => Fin (d i))) with (binary rows (fun i => Fin (d i))) by (unfold binary; symmetry; now apply copies_forallb).
  destruct (two_values rows (fun i => Fin (d i))); [|reflexivity]. destruct (binary rows (fun i => Fin (d i))); [|reflexivity]. cbn [negb].
  rewrite copies_map, copies_nodup by exact Hk. cbv zeta. unfold cols, mp_cols in *. set (all := zsort (nodup Z.eq_dec (map t rows))) in *.
  destruct (Nat.ltb (length all) 2); [reflexivity|]. destruct (mp_setup all post ref) as [[[pre ps] r]|]; cbn [bind]; [|reflexivity].
  rewrite absorb_copies by exact Hk. destruct (absorb_loop geq rows absorb y covs) as [[y' covs'] n_abs]. cbn [fst snd] in *.
  set (X := mp_design d t all ps r (covs' ++ dums)) in *.
  assert (HX : forall j, In j (map (mp_index all r) (seq 0 (length ps))) -> (j < length X)%nat).
  { intros j Hj. apply in_map_iff in Hj as (q & <- & Hq). apply in_seq in Hq. unfold X, mp_design, mp_index. rewrite !app_length, !map_length. cbn [length]. lia. }
  assert (L2 : (2 <= length X)%nat) by (unfold X, mp_design; rewrite !app_length; cbn [length]; lia).
  set (cl := match c_cluster cfg with Some _ => true | None => false end).
  assert (Pc : 0 < rep_factor cl k (length rows) (length X)) by (apply rep_factor_pos; [exact Hk|exact Hn|intros _; lia]).
  pose proof (ols_copies (c_cluster cfg) (c_action cfg) k rows X y' Hk Hi Hn) as H.
  destruct (solve_ols keq qr lstsq inv rows X y' (c_cluster cfg) true (c_action cfg)) as [a|], (solve_ols keq qr lstsq inv (copies k rows) X y' (c_cluster cfg) true (c_action cfg)) as [b|];
    cbn [bind]; try contradiction; [|exact H].
  destruct H as (Hc & Hcb & Hr & V & V' & EV & EV' & HV). rewrite Hcb, Hr, EV, EV'.
  assert (HW : exists W W', (if negb (c_robust cfg) && match c_cluster cfg with Some _ => false | None => true end then mp_classical inv rows X (o_coef a) (o_resid a) else Ok V) = Ok W /\
     (if negb (c_robust cfg) && match c_cluster cfg with Some _ => false | None => true end then mp_classical inv (copies k rows) X (o_coef a) (o_resid a) else Ok V') = Ok W' /\
     scaled (rep_factor cl k (length rows) (length X)) (length X) W W').
  { unfold cl in *. destruct (c_cluster cfg) as [c|]; [rewrite Bool.andb_false_r; eauto|]. rewrite Bool.andb_true_r. destruct (c_robust cfg); cbn [negb]; [eauto|].
    rewrite Hc. apply classical_copies; assumption. }
  destruct HW as (W & W' & EW & EW' & HW). rewrite EW, EW'. cbn [bind].
  set (idxs := map (mp_index all r) (seq 0 (length ps))) in *.
  set (df := (Z.of_nat (length rows) - _ - _)%Z). set (df' := (Z.of_nat (length (copies k rows)) - _ - _)%Z).
  assert (E : map (fun e => (pe_period e, pe_effect e, pe_se e)) (map (fun pj => mp_effect sf ppf (c_alpha cfg) df' (o_coef a) W' (fst pj) (snd pj)) (combine ps idxs)) =
     map (fun e => (pe_period e, pe_effect e, fmul (Fin (sqrt (rep_factor cl k (length rows) (length X)))) (pe_se e))) (map (fun pj => mp_effect sf ppf (c_alpha cfg) df (o_coef a) W (fst pj) (snd pj)) (combine ps idxs))).
  { rewrite !map_map. apply map_ext_in. intros [p j] Hp. apply in_combine_r in Hp. cbn [mp_effect pe_period pe_effect pe_se fst snd].
    destruct (HW j j (HX j Hp) (HX j Hp)) as (v & -> & ->). f_equal. now apply root_factor. }
  assert (Ee : map pe_effect (map (fun pj => mp_effect sf ppf (c_alpha cfg) df' (o_coef a) W' (fst pj) (snd pj)) (combine ps idxs)) =
     map pe_effect (map (fun pj => mp_effect sf ppf (c_alpha cfg) df (o_coef a) W (fst pj) (snd pj)) (combine ps idxs))) by (rewrite !map_map; reflexivity).
  rewrite Ee. pose proof (average_copies _ (length X) (c_alpha cfg) df df' (map pe_effect (map (fun pj => mp_effect sf ppf (c_alpha cfg) df (o_coef a) W (fst pj) (snd pj)) (combine ps idxs))) W W' idxs Pc HW HX) as HA.
  cbv zeta in HA. destruct (mp_average sf ppf (c_alpha cfg) df _ W idxs) as [[[[a1 a2] a3] a4] a5], (mp_average sf ppf (c_alpha cfg) df' _ W' idxs) as [[[[b1 b2] b3] b4] b5].
  cbn [fst snd] in HA. destruct HA as [HA1 HA2].
  cbn [mp_effects mp_avg mp_avg_se mp_coef mp_resid mp_pre mp_post mp_ref mp_n_obs mp_n_treated mp_n_control].
  split; [exact E|]. split; [exact HA1|]. split; [exact HA2|]. do 5 (split; [reflexivity|]). split; [apply copies_length|]. split; apply copies_sumf.
Qed.
End Multi.

(* the panel of C13_case (12 rows, 6 columns) twice over: the standard errors shrink by sqrt (1/3) *)
Theorem exm_copies robust y : exists a b, exm_fit (exm_cfg robust None) (seq 0 12) y exm_d exm_t None None [] [] [] = Ok a /\
  exm_fit (exm_cfg robust None) (copies 2 (seq 0 12)) y exm_d exm_t None None [] [] [] = Ok b /\
  indep (seq 0 12) (mp_cols Nat.eq_dec (seq 0 12) y exm_d exm_t None None [] [] []) /\
  mp_avg b = mp_avg a /\ mp_avg_se b = fmul (Fin (sqrt (1/3))) (mp_avg_se a) /\ mp_n_obs b = 24%nat.
Proof.
  destruct (exm_fit_ok robust y) as (a & Ha & Hpre & Hpost & Hid).
  destruct (mp_fit_inv _ _ _ _ _ _ _ _ _ _ _ _ _ _ _ _ _ _ Ha) as (Zd & S0 & _).
  destruct (mp_setup_ok _ _ _ _ _ _ S0 (data_periods_nodup _ _)) as (_ & _ & Hincl & Href & _).
  assert (Hi : indep (seq 0 12) (mp_cols Nat.eq_dec (seq 0 12) y exm_d exm_t None None [] [] [])).
  { unfold mp_cols. fold (data_periods (seq 0 12) exm_t). rewrite S0. cbn [absorb_loop fst snd app]. destruct Hid as (Hn & Hc & Hs).
    apply mp_indep; auto; [intros i Hi; apply data_periods_in; eauto|apply data_periods_occ|apply data_periods_nodup]. }
  assert (L : length (mp_cols Nat.eq_dec (seq 0 12) y exm_d exm_t None None [] [] []) = 6%nat) by reflexivity.
  pose proof (mp_copies Nat.eq_dec Nat.eq_dec (@gs_dropped nat) (@gs nat) (@gs_inv nat) toy_sf toy_ppf gs_dropped_ok gs_ok gs_inv_ok (exm_cfg robust None) 2 (seq 0 12) y exm_d exm_t None None [] [] []
    ltac:(lia) Hi ltac:(rewrite L; cbn; lia)) as H. cbv zeta in H. unfold exm_fit in *. rewrite Ha in H.
  destruct (mp_fit Nat.eq_dec Nat.eq_dec (@gs_dropped nat) (@gs nat) (@gs_inv nat) toy_sf toy_ppf (exm_cfg robust None) (copies 2 (seq 0 12)) y exm_d exm_t None None [] [] []) as [b|]; [|contradiction].
  destruct H as (_ & H1 & H2 & _ & _ & _ & _ & _ & H3 & _). exists a, b. split; [exact Ha|]. split; [reflexivity|]. split; [exact Hi|]. split; [exact H1|].
  rewrite L in H2. cbn [exm_cfg c_cluster] in H2. replace (rep_factor false 2 (length (seq 0 12)) 6) with (1/3) in H2; [|rewrite seq_length; unfold rep_factor; cbn [INR]; field].
  split; [exact H2|]. rewrite H3. destruct (mp_counts _ _ _ _ _ _ _ _ _ _ _ _ _ _ _ _ _ _ Ha) as (E & _). rewrite E. reflexivity.
Qed.

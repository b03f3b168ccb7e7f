(* TripleDifference: the roles of the three indicators. *)
From Coq Require Import Reals Lra Lia.
From Verif Require Import Prelude Flt Stats_model Stats_proofs Linalg_model Linalg_proofs Linalg_vcov Linalg_thms Linalg_dual Linalg_rank
  Did_model Did_spec Did_proofs Did_equiv Multi_model Reg_effects Triple_model Triple_proofs Triple_thms Triple_fit Triple_equiv Swap_proofs.
From Coq Require Import Arith ZArith String List.
Import ListNotations.
Open Scope R_scope.

(* 1 - x, as a column *)
Definition ocomp {I} (x : I -> option R) : I -> option R := fun i => option_map (fun v => 1 - v) (x i).
(* the opposite estimate: same error and p-value, mirrored interval *)
Definition opposite_numbers (a b : ddd_result) : Prop :=
  tr_att b = fneg (tr_att a) /\ tr_se b = tr_se a /\ tr_t b = fneg (tr_t a) /\ tr_p b = tr_p a /\ tr_ci b = (fneg (snd (tr_ci a)), fneg (fst (tr_ci a))).

Section S.
Context {I K : Type} (keq : forall x y : K, {x = y} + {x <> y}).
Variable qr : list I -> list (I -> R) -> list nat.
Variable lstsq : list I -> list (I -> R) -> (I -> R) -> list R.
Variable inv : list I -> list (I -> R) -> option (nat -> nat -> R).
Variable pinv : list I -> list (I -> R) -> nat -> nat -> R.
Variable sf : option Z -> fl -> fl.
Variable ppf : option Z -> R -> R.
Variable logit : list I -> list (I -> R) -> (I -> R) -> option (I -> R).
Notation fit := (ddd_fit keq qr lstsq inv pinv sf ppf logit).
Notation est := (ddd_est keq qr lstsq inv pinv sf ppf logit).
Notation f x := (fun i => oR (x i)).

Lemma ocomp_R rows (x : I -> option R) i : no_missing rows x -> In i rows -> oR (ocomp x i) = 1 - oR (x i).
Proof. intros H Hi. unfold ocomp. specialize (H i Hi). destruct (x i); [reflexivity|congruence]. Qed.
Lemma ocomp_ok rows (x : I -> option R) : no_missing rows x -> no_missing rows (ocomp x).
Proof. intros H i Hi. unfold ocomp. specialize (H i Hi). destruct (x i); [discriminate|congruence]. Qed.
Lemma ocomp_01 rows (x : I -> option R) : no_missing rows x -> zero_one rows (f x) -> zero_one rows (f (ocomp x)).
Proof. intros H Z i Hi. rewrite (ocomp_R rows) by auto. destruct (Z i Hi) as [-> | ->]; [right|left]; ring. Qed.
Lemma Reqb_comp x t : Reqb (1 - x) t = Reqb x (1 - t).
Proof. destruct (Reqb x (1 - t)) eqn:E; [apply Reqb_true in E; apply Reqb_true; lra|]. destruct (Reqb (1 - x) t) eqn:E'; [|reflexivity]. apply Reqb_true in E'. assert (X : Reqb x (1 - t) = true) by (apply Reqb_true; lra). congruence. Qed.

(* ---- cells ---- *)
Lemma cell8_swap rows (G P T : I -> R) g p t : cell8 rows P G T p g t = cell8 rows G P T g p t.
Proof. unfold cell8. apply filter_ext. intros i. f_equal. apply Bool.andb_comm. Qed.
Lemma cell8_swap_pt rows (G P T : I -> R) g p t : cell8 rows G T P g t p = cell8 rows G P T g p t.
Proof. unfold cell8. apply filter_ext. intros i. destruct (Reqb (G i) g), (Reqb (P i) p), (Reqb (T i) t); reflexivity. Qed.
Lemma cell4_swap rows (G P : I -> R) g p : cell4 rows P G p g = cell4 rows G P g p.
Proof. unfold cell4. apply filter_ext. intros i. apply Bool.andb_comm. Qed.
Lemma cell8_comp_t rows (G P T T' : I -> R) g p t : (forall i, In i rows -> T' i = 1 - T i) -> cell8 rows G P T' g p t = cell8 rows G P T g p (1 - t).
Proof. intros H. unfold cell8. apply filter_ext_in. intros i Hi. now rewrite H, Reqb_comp by auto. Qed.
Lemma cell8_comp_g rows (G P T G' : I -> R) g p t : (forall i, In i rows -> G' i = 1 - G i) -> cell8 rows G' P T g p t = cell8 rows G P T (1 - g) p t.
Proof. intros H. unfold cell8. apply filter_ext_in. intros i Hi. now rewrite H, Reqb_comp by auto. Qed.
Lemma cell4_comp_g rows (G P G' : I -> R) g p : (forall i, In i rows -> G' i = 1 - G i) -> cell4 rows G' P g p = cell4 rows G P (1 - g) p.
Proof. intros H. unfold cell4. apply filter_ext_in. intros i Hi. now rewrite H, Reqb_comp by auto. Qed.
Lemma part_comp rows (T T' : I -> R) t : (forall i, In i rows -> T' i = 1 - T i) -> part rows T' t = part rows T (1 - t).
Proof. intros H. unfold part. apply filter_ext_in. intros i Hi. now rewrite H, Reqb_comp by auto. Qed.
Lemma eight_all (rows : list I) (G P T : I -> R) : (forall g p t, (g = 0 \/ g = 1) -> (p = 0 \/ p = 1) -> (t = 0 \/ t = 1) -> cell8 rows G P T g p t <> []) <-> eight_cells rows G P T.
Proof.
  split; [|intros H; apply eight_ne; auto]. intros H. unfold eight_cells, four_cells. rewrite <- !cell8_part. repeat split; apply H; auto.
Qed.
Lemma flip_01 x : (x = 0 \/ x = 1) -> (1 - x = 0 \/ 1 - x = 1).
Proof. intros [-> | ->]; [right|left]; ring. Qed.

(* ---- validation ---- *)
Lemma validate_swap (rows : list I) y G P T covs : ddd_validate rows y G P T covs = Ok tt -> ddd_validate rows y P G T covs = Ok tt.
Proof.
  rewrite !validate_ok. intros (A1 & A2 & A3 & A4 & A5 & A6 & A7 & A8 & A9). repeat (split; [assumption|]).
  apply eight_all. intros g p t Hg Hp Ht. rewrite cell8_swap. now apply (proj2 (eight_all rows (f G) (f P) (f T)) A9).
Qed.
Lemma validate_swap_pt (rows : list I) y G P T covs : ddd_validate rows y G P T covs = Ok tt -> ddd_validate rows y G T P covs = Ok tt.
Proof.
  rewrite !validate_ok. intros (A1 & A2 & A3 & A4 & A5 & A6 & A7 & A8 & A9). repeat (split; [assumption|]).
  apply eight_all. intros g p t Hg Hp Ht. rewrite cell8_swap_pt. now apply (proj2 (eight_all rows (f G) (f P) (f T)) A9).
Qed.
Lemma validate_comp_t (rows : list I) y G P T covs : ddd_validate rows y G P T covs = Ok tt -> ddd_validate rows y G P (ocomp T) covs = Ok tt.
Proof.
  rewrite !validate_ok. intros (A1 & A2 & A3 & A4 & A5 & A6 & A7 & A8 & A9).
  do 3 (split; [assumption|]). split; [now apply ocomp_ok|]. do 3 (split; [assumption|]). split; [now apply ocomp_01|].
  apply eight_all. intros g p t Hg Hp Ht. rewrite (cell8_comp_t rows (f G) (f P) (f T)) by (intros; now apply (ocomp_R rows)). apply (proj2 (eight_all rows (f G) (f P) (f T)) A9); auto using flip_01.
Qed.
Lemma validate_comp_g (rows : list I) y G P T covs : ddd_validate rows y G P T covs = Ok tt -> ddd_validate rows y (ocomp G) P T covs = Ok tt.
Proof.
  rewrite !validate_ok. intros (A1 & A2 & A3 & A4 & A5 & A6 & A7 & A8 & A9).
  split; [assumption|]. split; [now apply ocomp_ok|]. do 3 (split; [assumption|]). split; [now apply ocomp_01|]. do 2 (split; [assumption|]).
  apply eight_all. intros g p t Hg Hp Ht. rewrite (cell8_comp_g rows (f G) (f P) (f T)) by (intros; now apply (ocomp_R rows)). apply (proj2 (eight_all rows (f G) (f P) (f T)) A9); auto using flip_01.
Qed.

(* ---- from the estimation step to the result ---- *)
Lemma fit_ok cfg cl rows y G P T covs out : ddd_validate rows y G P T covs = Ok tt -> est cfg rows (f y) (f G) (f P) (f T) (map (fun c => f c) covs) = Ok out ->
  exists r, fit cfg cl rows y G P T covs = Ok r.
Proof. intros HV E. unfold ddd_fit. rewrite HV. cbn [bind]. unfold ddd_est in E. rewrite E. cbn [bind]. eauto. Qed.
Lemma new_same cfg cl rows y G P T G' P' T' covs r out out' : fit cfg cl rows y G P T covs = Ok r -> ddd_validate rows y G' P' T' covs = Ok tt ->
  est cfg rows (f y) (f G) (f P) (f T) (map (fun c => f c) covs) = Ok out -> est cfg rows (f y) (f G') (f P') (f T') (map (fun c => f c) covs) = Ok out' ->
  do_att out' = do_att out -> do_se out' = do_se out -> do_r2 out' = do_r2 out ->
  exists r', fit cfg cl rows y G' P' T' covs = Ok r' /\ same_numbers r r' /\ tr_r2 r' = tr_r2 r.
Proof.
  intros H HV E E' Ea Es Er. destruct (fit_ok cfg cl rows y G' P' T' covs out' HV E') as [r' H']. exists r'. split; [exact H'|].
  destruct (fit_inv keq qr lstsq inv pinv sf ppf logit _ _ _ _ _ _ _ _ _ H) as (_ & o1 & HO1 & A1 & A2 & A0 & A3 & A4 & A5 & _).
  destruct (fit_inv keq qr lstsq inv pinv sf ppf logit _ _ _ _ _ _ _ _ _ H') as (_ & o2 & HO2 & B1 & B2 & B0 & B3 & B4 & B5 & _).
  rewrite E in HO1. injection HO1 as <-. rewrite E' in HO2. injection HO2 as <-.
  unfold same_numbers. rewrite A1, B1, A2, B2, A4, B4, A5, B5, A3, B3, A0, B0, Ea, Es, Er. repeat split.
Qed.
Lemma new_opposite cfg cl rows y G P T G' P' T' covs r out out' a : fit cfg cl rows y G P T covs = Ok r -> ddd_validate rows y G' P' T' covs = Ok tt ->
  est cfg rows (f y) (f G) (f P) (f T) (map (fun c => f c) covs) = Ok out -> est cfg rows (f y) (f G') (f P') (f T') (map (fun c => f c) covs) = Ok out' ->
  do_att out = Fin a -> do_att out' = Fin (- a) -> do_se out' = do_se out ->
  exists r', fit cfg cl rows y G' P' T' covs = Ok r' /\ opposite_numbers r r'.
Proof.
  intros H HV E E' Ea Ea' Es. destruct (fit_ok cfg cl rows y G' P' T' covs out' HV E') as [r' H']. exists r'. split; [exact H'|].
  destruct (fit_inv keq qr lstsq inv pinv sf ppf logit _ _ _ _ _ _ _ _ _ H) as (_ & o1 & HO1 & A1 & A2 & A0 & A3 & A4 & A5 & _).
  destruct (fit_inv keq qr lstsq inv pinv sf ppf logit _ _ _ _ _ _ _ _ _ H') as (_ & o2 & HO2 & B1 & B2 & B0 & B3 & B4 & B5 & _).
  rewrite E in HO1. injection HO1 as <-. rewrite E' in HO2. injection HO2 as <-.
  rewrite Ea in A1, A3, A5. rewrite Ea' in B1, B3, B5. rewrite Es in B2, B3, B5.
  assert (Ht : tr_t r' = fneg (tr_t r)).
  { rewrite A3, B3. destruct (fgt (do_se out) (Fin 0)) eqn:Eg; [|cbn; f_equal; ring]. destruct (do_se out) as [e| | |]; cbn in Eg |- *; try discriminate.
    - destruct (Req_EM_T e 0); [subst; apply Rltb_true in Eg; lra|]. cbn. f_equal. field. assumption.
    - f_equal. ring. }
  unfold opposite_numbers. rewrite A1, B1, A2, B2. split; [reflexivity|]. split; [reflexivity|]. split; [exact Ht|]. split.
  - rewrite A4, B4, Ht. unfold u_p_value. do 2 f_equal. destruct (tr_t r); cbn; try reflexivity. now rewrite Rabs_Ropp.
  - rewrite A5, B5. unfold u_ci. cbn [fst snd]. set (w := fmul _ (do_se out)). destruct w as [w| | |]; cbn; try reflexivity. f_equal; f_equal; ring.
Qed.

(* ---- the weighting methods: exchanging the group and the partition ---- *)
Lemma pcell_swap cfg rows (G P : I -> R) X g p i : ddd_pcell logit cfg rows P G X p g i = ddd_pcell logit cfg rows G P X g p i.
Proof. unfold ddd_pcell. f_equal. destruct X as [|x X]; [now rewrite cell4_swap|]. apply Rmult_comm. Qed.
Lemma ratio_swap cfg rows (G P : I -> R) X g p i : ddd_ratio logit cfg rows P G X p g i = ddd_ratio logit cfg rows G P X g p i.
Proof. unfold ddd_ratio. now rewrite (pcell_swap cfg rows G P X g p), (pcell_swap cfg rows G P X 1 1). Qed.
Lemma in4_swap (G P : I -> R) g p i : in4 P G p g i = in4 G P g p i.
Proof. unfold in4. apply Bool.andb_comm. Qed.
Lemma wmean_ext rows (y w w' : I -> R) : (forall i, In i rows -> w i = w' i) -> wmean rows y w = wmean rows y w'.
Proof. intros H. unfold wmean. rewrite (sumf_ext w w') by auto. rewrite (sumf_ext (fun i => y i * w i) (fun i => y i * w' i)) by (intros i Hi; now rewrite H). reflexivity. Qed.
Lemma ipw_mean_swap cfg rows (y G P T : I -> R) X g p t : ipw_mean logit cfg rows y P G T X p g t = ipw_mean logit cfg rows y G P T X g p t.
Proof.
  unfold ipw_mean. rewrite (Bool.andb_comm (Reqb p 1)). destruct (Reqb g 1 && Reqb p 1)%bool; [now rewrite cell8_swap|].
  apply wmean_ext. intros i _. now rewrite in4_swap, ratio_swap.
Qed.
Lemma comb_swap (m : R -> R -> R -> R) : ddd_comb (fun g p t => m p g t) = ddd_comb m.
Proof. unfold ddd_comb. ring. Qed.
Lemma comb_ext (m m' : R -> R -> R -> R) : (forall g p t, m g p t = m' g p t) -> ddd_comb m = ddd_comb m'.
Proof. intros H. unfold ddd_comb. now rewrite !H. Qed.
Lemma in4_once (G P : I -> R) g p g' p' i : in4 G P g p i = true -> in4 G P g' p' i = true -> g = g' /\ p = p'.
Proof. unfold in4. rewrite !Bool.andb_true_iff, !Reqb_true. intros [A B] [C D]. split; congruence. Qed.
Lemma ipw_inf_swap cfg rows (y G P T : I -> R) X att i : ipw_inf logit cfg rows y P G T X att i = ipw_inf logit cfg rows y G P T X att i.
Proof.
  unfold ipw_inf. rewrite (cell4_swap rows G P 1 1), !(ratio_swap cfg rows G P), (in4_swap G P 1 1), (in4_swap G P 0 1), (in4_swap G P 1 0), (in4_swap G P 0 0).
  destruct (in4 G P 1 1 i); [reflexivity|]. destruct (in4 G P 0 1 i) eqn:E1, (in4 G P 1 0 i) eqn:E2; try reflexivity.
  exfalso. destruct (in4_once G P 0 1 1 0 i E1 E2) as [X1 _]. lra.
Qed.
Lemma ipw_swap cfg rows (y G P T : I -> R) X : ddd_ipw logit cfg rows y P G T X = ddd_ipw logit cfg rows y G P T X.
Proof.
  unfold ddd_ipw. assert (E : ddd_comb (ipw_mean logit cfg rows y P G T X) = ddd_comb (ipw_mean logit cfg rows y G P T X)).
  { rewrite <- (comb_swap (ipw_mean logit cfg rows y G P T X)). apply comb_ext. intros. apply ipw_mean_swap. }
  rewrite E. unfold ipw_se. rewrite (map_ext _ _ (ipw_inf_swap cfg rows y G P T X _)). reflexivity.
Qed.
Lemma dr_mean_swap cfg rows (y mu mu' G P T : I -> R) X g p t : dr_mean logit cfg rows y mu P G T X p g t = dr_mean logit cfg rows y mu' G P T X g p t.
Proof.
  rewrite !dr_mean_closed. rewrite (cell4_swap rows G P 1 1), (cell8_swap rows G P T g p t). do 2 f_equal. apply sumf_ext_all. intros i. unfold dr_w.
  rewrite (Bool.andb_comm (Reqb p 1)), ratio_swap. reflexivity.
Qed.
Lemma sum8 (h : R * R * R -> R) : sumf h all_cells = h (1,1,0) + h (1,1,1) + h (1,0,0) + h (1,0,1) + h (0,1,0) + h (0,1,1) + h (0,0,0) + h (0,0,1).
Proof. unfold all_cells. cbn. ring. Qed.
Lemma dr_swap cfg rows (y G P T : I -> R) X : ddd_dr keq qr lstsq inv logit cfg rows y P G T X = ddd_dr keq qr lstsq inv logit cfg rows y G P T X.
Proof.
  unfold ddd_dr. f_equal.
  - f_equal. unfold dr_att. rewrite <- (comb_swap (dr_mean logit cfg rows y _ G P T X)). apply comb_ext. intros. apply dr_mean_swap.
  - f_equal. unfold dr_se. f_equal. rewrite !sum8, !(cell8_swap rows G P T). ring.
  - destruct X as [|x X]; [reflexivity|]. cbv zeta. f_equal.
    rewrite (sumf_ext_all (fun i => (y i - mu_fit keq qr lstsq inv (dd_action cfg) rows y P G T (x :: X) i) * (y i - mu_fit keq qr lstsq inv (dd_action cfg) rows y P G T (x :: X) i))
      (fun i => (y i - mu_fit keq qr lstsq inv (dd_action cfg) rows y G P T (x :: X) i) * (y i - mu_fit keq qr lstsq inv (dd_action cfg) rows y G P T (x :: X) i))); [reflexivity|].
    intros i. unfold mu_fit. now rewrite cell8_swap.
Qed.

Lemma est_not_reg cfg rows (y G P T : I -> R) X : dd_method cfg <> "reg"%string ->
  est cfg rows y G P T X = Ok (if String.eqb (dd_method cfg) "ipw" then ddd_ipw logit cfg rows y G P T X else ddd_dr keq qr lstsq inv logit cfg rows y G P T X).
Proof. intros H. unfold ddd_est. destruct (String.eqb_spec (dd_method cfg) "reg"); [contradiction|]. destruct (String.eqb _ "ipw"); reflexivity. Qed.

Theorem weighting_swap cfg cl rows y G P T covs r : dd_method cfg <> "reg"%string -> fit cfg cl rows y G P T covs = Ok r ->
  exists r', fit cfg cl rows y P G T covs = Ok r' /\ same_numbers r r' /\ tr_r2 r' = tr_r2 r.
Proof.
  intros Hm H. destruct (fit_inv keq qr lstsq inv pinv sf ppf logit _ _ _ _ _ _ _ _ _ H) as (HV & _).
  eapply (new_same cfg cl rows y G P T P G T covs r _ _ H (validate_swap rows y G P T covs HV) (est_not_reg _ _ _ _ _ _ _ Hm) (est_not_reg _ _ _ _ _ _ _ Hm)).
  all: rewrite ipw_swap, dr_swap; reflexivity.
Qed.

(* ---- reversing the periods ---- *)
Lemma comb_rev (m m' : R -> R -> R -> R) : (forall g p, (g = 0 \/ g = 1) -> (p = 0 \/ p = 1) -> m' g p 0 = m g p 1 /\ m' g p 1 = m g p 0) -> ddd_comb m' = - ddd_comb m.
Proof.
  intros H. unfold ddd_comb.
  destruct (H 1 1) as [A1 A2]; auto. destruct (H 1 0) as [B1 B2]; auto. destruct (H 0 1) as [C1 C2]; auto. destruct (H 0 0) as [D1 D2]; auto.
  rewrite A1, A2, B1, B2, C1, C2, D1, D2. ring.
Qed.
Lemma one_minus : 1 - 0 = 1 /\ 1 - 1 = 0. Proof. split; ring. Qed.
Lemma ipw_mean_rev cfg rows (y G P T T' : I -> R) X g p t : (forall i, In i rows -> T' i = 1 - T i) ->
  ipw_mean logit cfg rows y G P T' X g p t = ipw_mean logit cfg rows y G P T X g p (1 - t).
Proof.
  intros H. unfold ipw_mean. destruct (Reqb g 1 && Reqb p 1)%bool; [now rewrite (cell8_comp_t rows G P T T') by auto|].
  apply wmean_ext. intros i Hi. now rewrite H, Reqb_comp by auto.
Qed.
Lemma dr_mean_rev cfg rows (y mu mu' G P T T' : I -> R) X g p t : (forall i, In i rows -> T' i = 1 - T i) ->
  dr_mean logit cfg rows y mu' G P T' X g p t = dr_mean logit cfg rows y mu G P T X g p (1 - t).
Proof. intros H. rewrite !dr_mean_closed. now rewrite (cell8_comp_t rows G P T T'), (part_comp rows T T') by auto. Qed.
Lemma dr_se_rev rows (y G P T T' : I -> R) : (forall i, In i rows -> T' i = 1 - T i) -> dr_se rows y G P T' = dr_se rows y G P T.
Proof.
  intros H. unfold dr_se. f_equal. rewrite !sum8, !(cell8_comp_t rows G P T T') by auto. destruct one_minus as [-> ->]. ring.
Qed.

(* doubly robust: the opposite estimate with the same error, covariates or not *)
Theorem dr_reversed cfg cl rows y G P T covs r : dd_method cfg = "dr"%string -> fit cfg cl rows y G P T covs = Ok r ->
  exists r', fit cfg cl rows y G P (ocomp T) covs = Ok r' /\ opposite_numbers r r'.
Proof.
  intros Hm H. destruct (fit_inv keq qr lstsq inv pinv sf ppf logit _ _ _ _ _ _ _ _ _ H) as (HV & _).
  assert (HT : forall i, In i rows -> oR (ocomp T i) = 1 - oR (T i)) by (intros i Hi; apply (ocomp_R rows); auto; apply validate_ok in HV; tauto).
  assert (Hn : dd_method cfg <> "reg"%string) by (rewrite Hm; discriminate).
  eapply (new_opposite cfg cl rows y G P T G P (ocomp T) covs r _ _ _ H (validate_comp_t rows y G P T covs HV) (est_not_reg _ _ _ _ _ _ _ Hn) (est_not_reg _ _ _ _ _ _ _ Hn)).
  all: rewrite Hm; cbn [String.eqb Ascii.eqb Bool.eqb ddd_dr do_att do_se]; try reflexivity.
  - f_equal. unfold dr_att. apply comb_rev. intros g p _ _. destruct one_minus as [O1 O2]. split; erewrite dr_mean_rev by exact HT; rewrite ?O1, ?O2; reflexivity.
  - f_equal. apply dr_se_rev. exact HT.
Qed.
(* inverse probability weighting: the opposite estimate *)
Theorem ipw_reversed cfg cl rows y G P T covs r : dd_method cfg = "ipw"%string -> fit cfg cl rows y G P T covs = Ok r ->
  exists r', fit cfg cl rows y G P (ocomp T) covs = Ok r' /\ tr_att r' = fneg (tr_att r).
Proof.
  intros Hm H. destruct (fit_inv keq qr lstsq inv pinv sf ppf logit _ _ _ _ _ _ _ _ _ H) as (HV & o & HO & A1 & _).
  assert (HT : forall i, In i rows -> oR (ocomp T i) = 1 - oR (T i)) by (intros i Hi; apply (ocomp_R rows); auto; apply validate_ok in HV; tauto).
  assert (Hn : dd_method cfg <> "reg"%string) by (rewrite Hm; discriminate).
  destruct (fit_ok cfg cl rows y G P (ocomp T) covs _ (validate_comp_t rows y G P T covs HV) (est_not_reg _ _ _ _ _ _ _ Hn)) as [r' H']. exists r'. split; [exact H'|].
  destruct (fit_inv keq qr lstsq inv pinv sf ppf logit _ _ _ _ _ _ _ _ _ H') as (_ & o' & HO' & A1' & _).
  rewrite est_not_reg, Hm in HO, HO' by exact Hn. cbn [String.eqb Ascii.eqb Bool.eqb] in HO, HO'. injection HO as <-. injection HO' as <-.
  rewrite A1, A1'. cbn [ddd_ipw do_att fneg]. f_equal. apply comb_rev. intros g p _ _. destruct one_minus as [O1 O2]. split; erewrite ipw_mean_rev by exact HT; rewrite ?O1, ?O2; reflexivity.
Qed.

(* ---- the complement of the group, without covariates ---- *)
Lemma comb_rev_g (m m' : R -> R -> R -> R) : (forall p t, (p = 0 \/ p = 1) -> (t = 0 \/ t = 1) -> m' 0 p t = m 1 p t /\ m' 1 p t = m 0 p t) -> ddd_comb m' = - ddd_comb m.
Proof.
  intros H. unfold ddd_comb.
  destruct (H 1 1) as [A1 A2]; auto. destruct (H 1 0) as [B1 B2]; auto. destruct (H 0 1) as [C1 C2]; auto. destruct (H 0 0) as [D1 D2]; auto.
  rewrite A1, A2, B1, B2, C1, C2, D1, D2. ring.
Qed.
Lemma of_dids_comp_g rows (y G P T G' : I -> R) : (forall i, In i rows -> G' i = 1 - G i) -> ddd_of_dids rows G' P T y = - ddd_of_dids rows G P T y.
Proof.
  intros H. rewrite <- !ddd_comb_dids. apply comb_rev_g. intros p t _ _. rewrite !(cell8_comp_g rows G P T G') by auto. destruct one_minus as [-> ->]. split; reflexivity.
Qed.
Theorem ipw_group_complement cfg cl rows y G P T r : dd_method cfg = "ipw"%string -> dd_trim cfg < 1 -> fit cfg cl rows y G P T [] = Ok r ->
  exists r', fit cfg cl rows y (ocomp G) P T [] = Ok r' /\ tr_att r' = fneg (tr_att r).
Proof.
  intros Hm Ht H. destruct (fit_inv keq qr lstsq inv pinv sf ppf logit _ _ _ _ _ _ _ _ _ H) as (HV & _).
  assert (HG : forall i, In i rows -> oR (ocomp G i) = 1 - oR (G i)) by (intros i Hi; apply (ocomp_R rows); auto; apply validate_ok in HV; tauto).
  assert (Hn : dd_method cfg <> "reg"%string) by (rewrite Hm; discriminate).
  destruct (fit_ok cfg cl rows y (ocomp G) P T [] _ (validate_comp_g rows y G P T [] HV) (est_not_reg _ _ _ _ _ _ _ Hn)) as [r' H']. exists r'. split; [exact H'|].
  rewrite (ipw_fit keq qr lstsq inv pinv sf ppf logit cfg cl rows y (ocomp G) P T r' Hm Ht H'), (ipw_fit keq qr lstsq inv pinv sf ppf logit cfg cl rows y G P T r Hm Ht H).
  cbn [fneg]. f_equal. apply of_dids_comp_g. exact HG.
Qed.
Theorem dr_group_complement cfg cl rows y G P T r : dd_method cfg = "dr"%string -> unclipped rows (f G) (f P) cfg -> fit cfg cl rows y G P T [] = Ok r ->
  exists r', fit cfg cl rows y (ocomp G) P T [] = Ok r' /\ opposite_numbers r r'.
Proof.
  intros Hm Hu H. destruct (fit_inv keq qr lstsq inv pinv sf ppf logit _ _ _ _ _ _ _ _ _ H) as (HV & _).
  assert (HG : forall i, In i rows -> oR (ocomp G i) = 1 - oR (G i)) by (intros i Hi; apply (ocomp_R rows); auto; apply validate_ok in HV; tauto).
  assert (Hn : dd_method cfg <> "reg"%string) by (rewrite Hm; discriminate). assert (HV' := validate_comp_g rows y G P T [] HV).
  assert (Hu' : unclipped rows (f (ocomp G)) (f P) cfg) by (intros g p Hg Hp; rewrite (cell4_comp_g rows (f G) (f P)) by exact HG; apply Hu; auto using flip_01).
  assert (E8 : eight_cells rows (f G) (f P) (f T)) by (apply validate_ok in HV; tauto).
  assert (E8' : eight_cells rows (f (ocomp G)) (f P) (f T)) by (apply validate_ok in HV'; tauto).
  eapply (new_opposite cfg cl rows y G P T (ocomp G) P T [] r _ _ _ H HV' (est_not_reg _ _ _ _ _ _ _ Hn) (est_not_reg _ _ _ _ _ _ _ Hn)).
  all: rewrite Hm; cbn [String.eqb Ascii.eqb Bool.eqb ddd_dr do_att do_se map]; try reflexivity.
  - f_equal. rewrite !dr_nocov by auto. apply comb_rev_g. intros p t _ _. unfold dr_factor. rewrite !(cell8_comp_g rows (f G) (f P) (f T) (f (ocomp G))), !(cell4_comp_g rows (f G) (f P) (f (ocomp G))) by exact HG. destruct one_minus as [-> ->]. split; reflexivity.
  - f_equal. unfold dr_se. f_equal. rewrite !sum8, !(cell8_comp_g rows (f G) (f P) (f T) (f (ocomp G))) by exact HG. destruct one_minus as [-> ->]. ring.
Qed.

(* ---- the complement of the partition: exchange, complement, exchange back ---- *)
Theorem ipw_partition_complement cfg cl rows y G P T r : dd_method cfg = "ipw"%string -> dd_trim cfg < 1 -> fit cfg cl rows y G P T [] = Ok r ->
  exists r', fit cfg cl rows y G (ocomp P) T [] = Ok r' /\ tr_att r' = fneg (tr_att r).
Proof.
  intros Hm Ht H. assert (Hn : dd_method cfg <> "reg"%string) by (rewrite Hm; discriminate).
  destruct (weighting_swap cfg cl rows y G P T [] r Hn H) as (r1 & H1 & S1 & _).
  destruct (ipw_group_complement cfg cl rows y P G T r1 Hm Ht H1) as (r2 & H2 & E2).
  destruct (weighting_swap cfg cl rows y (ocomp P) G T [] r2 Hn H2) as (r3 & H3 & S3 & _).
  exists r3. split; [exact H3|]. destruct S1 as (S1 & _), S3 as (S3 & _). now rewrite <- S3, E2, S1.
Qed.
Theorem dr_partition_complement cfg cl rows y G P T r : dd_method cfg = "dr"%string -> unclipped rows (f G) (f P) cfg -> fit cfg cl rows y G P T [] = Ok r ->
  exists r', fit cfg cl rows y G (ocomp P) T [] = Ok r' /\ opposite_numbers r r'.
Proof.
  intros Hm Hu H. assert (Hn : dd_method cfg <> "reg"%string) by (rewrite Hm; discriminate).
  destruct (weighting_swap cfg cl rows y G P T [] r Hn H) as (r1 & H1 & (A1 & A2 & A3 & A4 & A5) & _).
  assert (Hu1 : unclipped rows (f P) (f G) cfg) by (intros g p Hg Hp; rewrite cell4_swap; now apply Hu).
  destruct (dr_group_complement cfg cl rows y P G T r1 Hm Hu1 H1) as (r2 & H2 & (B1 & B2 & B3 & B4 & B5)).
  destruct (weighting_swap cfg cl rows y (ocomp P) G T [] r2 Hn H2) as (r3 & H3 & (C1 & C2 & C3 & C4 & C5) & _).
  exists r3. split; [exact H3|]. unfold opposite_numbers. rewrite <- C1, <- C2, <- C3, <- C4, <- C5, B1, B2, B3, B4, B5, <- A1, <- A2, <- A3, <- A4, <- A5. repeat split.
Qed.

(* ---- the regression method ---- *)
Hypothesis Hqr : qr_ok qr.
Hypothesis Hls : lstsq_ok lstsq.
Hypothesis Hinv : inv_ok inv.

(* the dual vector of the triple interaction applied to a function of the cell gives the triple difference of that function *)
Lemma dual_comb rows (G P T : I -> R) X q h : zero_one rows G -> zero_one rows P -> zero_one rows T -> dual rows (ddd_design G P T X) 7 q ->
  ip rows (fun i => h (G i) (P i) (T i)) q = ddd_comb h.
Proof.
  intros ZG ZP ZT (_ & _ & D). assert (D' : forall a, (a < 8)%nat -> ip rows (colx (ddd_design G P T X) a) q = if Nat.eqb a 7 then 1 else 0).
  { intros a Ha. apply D. unfold ddd_design. rewrite app_length. cbn. lia. }
  rewrite (ip_ext rows _ (lc (ddd_design G P T []) (h_fit h)) q q); [|intros i Hi; now rewrite (h_value rows G P T ZG ZP ZT)|reflexivity].
  transitivity (sumf (fun a => nth a (h_fit h) 0 * ip rows (colx (ddd_design G P T X) a) q) (seq 0 8)).
  - unfold ip. rewrite (sumf_ext_all (fun i => lc (ddd_design G P T []) (h_fit h) i * q i) (fun i => sumf (fun a => nth a (h_fit h) 0 * (colx (ddd_design G P T X) a i * q i)) (seq 0 8))).
    + rewrite sumf_swap. apply sumf_ext_all. intros a. now rewrite sumf_scal.
    + intros i. unfold h_fit, ddd_design, colx. cbn. ring.
  - cbn [seq sumf]. rewrite !D' by lia. cbn. ring.
Qed.
Lemma h_span_X rows (G P T : I -> R) X h : zero_one rows G -> zero_one rows P -> zero_one rows T -> span rows (ddd_design G P T X) (fun i => h (G i) (P i) (T i)).
Proof.
  intros ZG ZP ZT. apply (span_trans rows (ddd_design G P T [])); [|now apply h_span]. intros c Hc. apply span_in. rewrite design_app. apply in_or_app. now left.
Qed.

(* G', P', T' are functions a, b, c of the cell, and the old indicators functions of the new cell *)
Lemma reg_change cfg cl rows y G P T G' P' T' covs r s (ha hb hc ka kb kc : R -> R -> R -> R) : dd_method cfg = "reg"%string ->
  identified_col rows (ddd_design (f G) (f P) (f T) (map (fun c => f c) covs)) 7 ->
  fit cfg cl rows y G P T covs = Ok r -> ddd_validate rows y G' P' T' covs = Ok tt ->
  (forall i, In i rows -> oR (G' i) = ha (oR (G i)) (oR (P i)) (oR (T i)) /\ oR (P' i) = hb (oR (G i)) (oR (P i)) (oR (T i)) /\ oR (T' i) = hc (oR (G i)) (oR (P i)) (oR (T i))) ->
  (forall i, In i rows -> oR (G i) = ka (oR (G' i)) (oR (P' i)) (oR (T' i)) /\ oR (P i) = kb (oR (G' i)) (oR (P' i)) (oR (T' i)) /\ oR (T i) = kc (oR (G' i)) (oR (P' i)) (oR (T' i))) ->
  ddd_comb (fun _ _ _ => 1) = 0 /\ ddd_comb ha = 0 /\ ddd_comb hb = 0 /\ ddd_comb hc = 0 /\
  ddd_comb (fun g p t => ha g p t * hb g p t) = 0 /\ ddd_comb (fun g p t => ha g p t * hc g p t) = 0 /\ ddd_comb (fun g p t => hb g p t * hc g p t) = 0 /\
  ddd_comb (fun g p t => ha g p t * hb g p t * hc g p t) = s -> (s = 1 \/ s = -1) ->
  exists r', fit cfg cl rows y G' P' T' covs = Ok r' /\ (s = 1 -> same_numbers r r' /\ tr_r2 r' = tr_r2 r) /\ (s = -1 -> opposite_numbers r r' /\ tr_r2 r' = tr_r2 r).
Proof.
  intros Hm Id H HV' Hh Hk (C0 & C1 & C2 & C3 & C4 & C5 & C6 & C7) Hs.
  set (X := map (fun c => f c) covs) in *.
  destruct (fit_inv keq qr lstsq inv pinv sf ppf logit _ _ _ _ _ _ _ _ _ H) as (HV & o & HO & A1 & A2 & A0 & _). fold X in HO. assert (HO0 := HO).
  unfold ddd_est in HO. rewrite Hm in HO. cbn [String.eqb Ascii.eqb Bool.eqb] in HO.
  destruct (proj1 (validate_ok rows y G P T covs) HV) as (_ & _ & _ & _ & _ & ZG & ZP & ZT & _).
  destruct (proj1 (validate_ok rows y G' P' T' covs) HV') as (_ & _ & _ & _ & _ & ZG' & ZP' & ZT' & _).
  pose proof (identified_dual rows _ _ Id) as D. set (q := Span_thms.fwl_q _ _ _) in D. clearbody q.
  (* columns of one design as functions of the other cell *)
  assert (Sp : same_span rows (ddd_design (f G) (f P) (f T) X) (ddd_design (f G') (f P') (f T') X)).
  { split; intros c Hc; rewrite design_app in Hc; apply in_app_or in Hc as [Hc|Hc]; try (apply span_in; rewrite design_app; apply in_or_app; now right).
    - apply design_h in Hc as [h Eh]. apply (span_ext rows _ (fun i => (fun a b d => h (ka a b d) (kb a b d) (kc a b d)) (oR (G' i)) (oR (P' i)) (oR (T' i)))).
      + intros i Hi. rewrite Eh. destruct (Hk i Hi) as (-> & -> & ->). reflexivity.
      + exact (h_span_X rows (f G') (f P') (f T') X (fun a b d => h (ka a b d) (kb a b d) (kc a b d)) ZG' ZP' ZT').
    - apply design_h in Hc as [h Eh]. apply (span_ext rows _ (fun i => (fun a b d => h (ha a b d) (hb a b d) (hc a b d)) (oR (G i)) (oR (P i)) (oR (T i)))).
      + intros i Hi. rewrite Eh. destruct (Hh i Hi) as (-> & -> & ->). reflexivity.
      + exact (h_span_X rows (f G) (f P) (f T) X (fun a b d => h (ha a b d) (hb a b d) (hc a b d)) ZG ZP ZT). }
  assert (Hss : s * s = 1) by (destruct Hs as [-> | ->]; ring).
  assert (Q : forall h : R -> R -> R -> R, ip rows (fun i => h (oR (G' i)) (oR (P' i)) (oR (T' i))) q = ddd_comb (fun g p t => h (ha g p t) (hb g p t) (hc g p t))).
  { intros h. rewrite <- (dual_comb rows (f G) (f P) (f T) X q (fun g p t => h (ha g p t) (hb g p t) (hc g p t)) ZG ZP ZT D). apply ip_ext; [|reflexivity]. intros i Hi. destruct (Hh i Hi) as (-> & -> & ->). reflexivity. }
  assert (D' : dual rows (ddd_design (f G') (f P') (f T') X) 7 (fun i => s * q i)).
  { apply (dual_transfer rows (ddd_design (f G) (f P) (f T) X) _ 7 7 q s D Sp); [unfold ddd_design; rewrite app_length; cbn; lia|exact Hss|].
    intros [|[|[|[|[|[|[|[|a]]]]]]]] Ha; cbn [colx ddd_design nth app Nat.eqb].
    - rewrite (Q (fun _ _ _ => 1)). exact C0.
    - rewrite (Q (fun a _ _ => a)). exact C1.
    - rewrite (Q (fun _ b _ => b)). exact C2.
    - rewrite (Q (fun _ _ c => c)). exact C3.
    - rewrite (Q (fun a b _ => a * b)). exact C4.
    - rewrite (Q (fun a _ c => a * c)). exact C5.
    - rewrite (Q (fun _ b c => b * c)). exact C6.
    - rewrite (Q (fun a b c => a * b * c)). exact C7.
    - destruct D as (_ & _ & D). assert (L : (8 + a < length (ddd_design (f G) (f P) (f T) X))%nat) by (unfold ddd_design in Ha |- *; rewrite app_length in Ha |- *; exact Ha).
      exact (D (8 + a)%nat L). }
  destruct (linreg_fit keq qr lstsq inv pinv (dd_robust cfg) None (dd_action cfg) 0 rows (ddd_design (f G) (f P) (f T) X) (f y)) as [reg|] eqn:ER; [|unfold ddd_reg in HO; rewrite ER in HO; discriminate].
  assert (Ok' := linreg_ok_span keq qr lstsq inv pinv Hqr Hinv (dd_robust cfg) None (dd_action cfg) 0%Z 0%Z rows (ddd_design (f G) (f P) (f T) X) (ddd_design (f G') (f P') (f T') X) (f y) (f y) eq_refl Sp).
  rewrite ER in Ok'. cbn [is_ok] in Ok'. symmetry in Ok'. apply is_ok_ex in Ok' as [reg' ER'].
  destruct (linreg_signed keq qr lstsq inv pinv Hqr Hls Hinv _ _ _ _ _ _ _ _ _ _ _ _ _ _ _ ER ER' Sp D D' Hss) as (E1 & E2 & V & _ & _ & Er & _).
  unfold ddd_reg in HO. rewrite ER in HO. cbn [bind] in HO.
  assert (Q2 : r_squared rows (f y) (l_resid reg') false 0 = r_squared rows (f y) (l_resid reg) false 0).
  { unfold r_squared. rewrite (sumf_ext (fun i => l_resid reg' i * l_resid reg' i) (fun i => l_resid reg i * l_resid reg i)) by (intros i Hi; now rewrite Er). reflexivity. }
  assert (HO' : exists o', est cfg rows (f y) (f G') (f P') (f T') X = Ok o' /\ do_att o' = Fin (s * ip rows q (f y)) /\ do_se o' = do_se o /\ do_r2 o' = do_r2 o).
  { unfold ddd_est. rewrite Hm. cbn [String.eqb Ascii.eqb Bool.eqb]. unfold ddd_reg. rewrite ER'. cbn [bind]. eexists. split; [reflexivity|].
    injection HO as <-. cbn [do_att do_se do_r2 get_inference i_coef i_se]. rewrite E2, V, Q2. repeat split. }
  destruct HO' as (o' & HO' & F1 & F2 & F3).
  assert (F0 : do_att o = Fin (ip rows q (f y))) by (injection HO as <-; cbn [do_att get_inference i_coef]; exact E1).
  destruct Hs as [-> | ->].
  - destruct (new_same cfg cl rows y G P T G' P' T' covs r o o' H HV' HO0 HO') as (r' & H' & S1 & S2); [rewrite F0, F1; f_equal; ring|exact F2|exact F3|].
    exists r'. split; [exact H'|]. split; [easy|lra].
  - destruct (new_opposite cfg cl rows y G P T G' P' T' covs r o o' (ip rows q (f y)) H HV' HO0 HO') as (r' & H' & S1); [exact F0|rewrite F1; f_equal; ring|exact F2|].
    exists r'. split; [exact H'|]. split; [lra|]. intros _. split; [exact S1|].
    destruct (fit_inv keq qr lstsq inv pinv sf ppf logit _ _ _ _ _ _ _ _ _ H') as (_ & o2 & HO2 & _ & _ & B0 & _). fold X in HO2. rewrite HO' in HO2. injection HO2 as <-. now rewrite B0, A0.
Qed.

(* any two of the three indicators may be exchanged; complementing one gives the opposite estimate *)
Theorem reg_swap cfg cl rows y G P T covs r : dd_method cfg = "reg"%string -> identified_col rows (ddd_design (f G) (f P) (f T) (map (fun c => f c) covs)) 7 ->
  fit cfg cl rows y G P T covs = Ok r ->
  (exists r', fit cfg cl rows y P G T covs = Ok r' /\ same_numbers r r' /\ tr_r2 r' = tr_r2 r) /\
  (exists r', fit cfg cl rows y G T P covs = Ok r' /\ same_numbers r r' /\ tr_r2 r' = tr_r2 r).
Proof.
  intros Hm Id H. destruct (fit_inv keq qr lstsq inv pinv sf ppf logit _ _ _ _ _ _ _ _ _ H) as (HV & _). split.
  - destruct (reg_change cfg cl rows y G P T P G T covs r 1 (fun _ p _ => p) (fun g _ _ => g) (fun _ _ t => t) (fun _ p _ => p) (fun g _ _ => g) (fun _ _ t => t) Hm Id H (validate_swap _ _ _ _ _ _ HV)) as (r' & H' & S1 & _); auto.
    + unfold ddd_comb. repeat split; ring.
    + exists r'. split; [exact H'|now apply S1].
  - destruct (reg_change cfg cl rows y G P T G T P covs r 1 (fun g _ _ => g) (fun _ _ t => t) (fun _ p _ => p) (fun g _ _ => g) (fun _ _ t => t) (fun _ p _ => p) Hm Id H (validate_swap_pt _ _ _ _ _ _ HV)) as (r' & H' & S1 & _); auto.
    + unfold ddd_comb. repeat split; ring.
    + exists r'. split; [exact H'|now apply S1].
Qed.
Theorem reg_complement cfg cl rows y G P T covs r : dd_method cfg = "reg"%string -> identified_col rows (ddd_design (f G) (f P) (f T) (map (fun c => f c) covs)) 7 ->
  fit cfg cl rows y G P T covs = Ok r ->
  (exists r', fit cfg cl rows y (ocomp G) P T covs = Ok r' /\ opposite_numbers r r' /\ tr_r2 r' = tr_r2 r) /\
  (exists r', fit cfg cl rows y G (ocomp P) T covs = Ok r' /\ opposite_numbers r r' /\ tr_r2 r' = tr_r2 r) /\
  (exists r', fit cfg cl rows y G P (ocomp T) covs = Ok r' /\ opposite_numbers r r' /\ tr_r2 r' = tr_r2 r).
Proof.
  intros Hm Id H. destruct (fit_inv keq qr lstsq inv pinv sf ppf logit _ _ _ _ _ _ _ _ _ H) as (HV & _).
  destruct (proj1 (validate_ok rows y G P T covs) HV) as (_ & NG & NP & NT & _).
  split; [|split].
  - destruct (reg_change cfg cl rows y G P T (ocomp G) P T covs r (-1) (fun g _ _ => 1 - g) (fun _ p _ => p) (fun _ _ t => t) (fun g _ _ => 1 - g) (fun _ p _ => p) (fun _ _ t => t) Hm Id H (validate_comp_g _ _ _ _ _ _ HV)) as (r' & H' & _ & S1); auto.
    + intros i Hi. rewrite (ocomp_R rows) by auto. easy.
    + intros i Hi. rewrite (ocomp_R rows) by auto. repeat split; ring.
    + unfold ddd_comb. repeat split; ring.
    + exists r'. split; [exact H'|now apply S1].
  - assert (HV' : ddd_validate rows y G (ocomp P) T covs = Ok tt) by (apply validate_swap, validate_comp_g, validate_swap; exact HV).
    destruct (reg_change cfg cl rows y G P T G (ocomp P) T covs r (-1) (fun g _ _ => g) (fun _ p _ => 1 - p) (fun _ _ t => t) (fun g _ _ => g) (fun _ p _ => 1 - p) (fun _ _ t => t) Hm Id H HV') as (r' & H' & _ & S1); auto.
    + intros i Hi. rewrite (ocomp_R rows) by auto. easy.
    + intros i Hi. rewrite (ocomp_R rows) by auto. repeat split; ring.
    + unfold ddd_comb. repeat split; ring.
    + exists r'. split; [exact H'|now apply S1].
  - destruct (reg_change cfg cl rows y G P T G P (ocomp T) covs r (-1) (fun g _ _ => g) (fun _ p _ => p) (fun _ _ t => 1 - t) (fun g _ _ => g) (fun _ p _ => p) (fun _ _ t => 1 - t) Hm Id H (validate_comp_t _ _ _ _ _ _ HV)) as (r' & H' & _ & S1); auto.
    + intros i Hi. rewrite (ocomp_R rows) by auto. easy.
    + intros i Hi. rewrite (ocomp_R rows) by auto. repeat split; ring.
    + unfold ddd_comb. repeat split; ring.
    + exists r'. split; [exact H'|now apply S1].
Qed.
End S.

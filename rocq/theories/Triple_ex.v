(* TripleDifference: undefined effects and concrete data. *)
From Verif Require Import Prelude Flt Stats_model Stats_proofs Linalg_model Linalg_proofs Linalg_vcov Linalg_thms
  Did_model Did_spec Did_proofs Multi_model Triple_model Triple_proofs Triple_thms Triple_fit Staggered_more.
From Coq Require Import Arith ZArith String List Permutation.
Import ListNotations.
Open Scope R_scope.

Section Dropped.
Context {I K : Type} (keq : forall x y : K, {x = y} + {x <> y}).
Variable qr : list I -> list (I -> R) -> list nat.
Variable lstsq : list I -> list (I -> R) -> (I -> R) -> list R.
Variable inv : list I -> list (I -> R) -> option (nat -> nat -> R).
Variable pinv : list I -> list (I -> R) -> nat -> nat -> R.
Variable sf : option Z -> fl -> fl.
Variable ppf : option Z -> R -> R.
Variable logit : list I -> list (I -> R) -> (I -> R) -> option (I -> R).
Hypothesis Hls : lstsq_ok lstsq.
Hypothesis Hd : dist_ok sf ppf.
Notation fit := (ddd_fit keq qr lstsq inv pinv sf ppf logit).
Notation f x := (fun i => oR (x i)).

(* the triple interaction is dropped as collinear: effect and error are NaN, but t = 0 and p = 1 *)
Theorem reg_dropped cfg cl rows y G P T covs r : dd_method cfg = "reg"%string ->
  fit cfg cl rows y G P T covs = Ok r ->
  In 7%nat (qr rows (ddd_design (f G) (f P) (f T) (map (fun c => f c) covs))) ->
  tr_att r = NaN /\ tr_se r = NaN /\ tr_ci r = (NaN, NaN) /\ tr_t r = Fin 0 /\ tr_p r = Fin 1.
Proof.
  intros Hm H Hin. destruct (fit_inv keq qr lstsq inv pinv sf ppf logit _ _ _ _ _ _ _ _ _ H) as (HV & out & HO & E1 & E2 & _ & _ & _ & E6 & _).
  unfold ddd_est in HO. rewrite Hm in HO. simpl in HO. set (X := map (fun c => f c) covs) in *.
  destruct (reg_inv keq qr lstsq inv pinv sf ppf _ _ _ _ _ _ _ _ HO) as (reg & ER & EA & ES).
  destruct (linreg_fit_inv keq qr lstsq inv pinv _ _ _ _ _ _ _ _ ER) as (o & Ho & Hco & _ & _ & _ & HVc).
  destruct (solve_ols_nan_exactly_dropped keq qr lstsq inv Hls _ _ _ _ _ _ _ Ho) as (HL & HN & HW).
  assert (L8 : (7 < length (ddd_design (f G) (f P) (f T) X))%nat).
  { change (7 < S (S (S (S (S (S (S (S (length X)))))))))%nat. lia. }
  assert (EN : nth 7 (o_coef o) NaN = NaN) by (apply HN; auto).
  assert (Ea : tr_att r = NaN) by (rewrite E1, EA, Hco; exact EN).
  assert (Es : tr_se r = NaN).
  { rewrite E2, ES, HVc. destruct (o_vcov o) as [W|] eqn:EW.
    - assert (E : W 7%nat 7%nat = NaN) by (apply (HW W eq_refl); auto). rewrite E. reflexivity.
    - unfold classical_vcov. destruct (Nat.eqb _ 0); [reflexivity|].
      assert (E : index_of 7 (finite_positions (o_coef o)) = None).
      { apply index_of_none. unfold finite_positions. rewrite filter_In, EN. simpl. intros [_ C]. discriminate. }
      rewrite E. reflexivity. }
  split; auto. split; auto. rewrite E6, <- E1, <- E2, Ea, Es. split.
  - reflexivity.
  - apply (zero_se_p_one keq qr lstsq inv pinv sf ppf logit cfg cl rows y G P T covs r Hd H). rewrite Es. reflexivity.
Qed.
End Dropped.

(* a covariate equal to the interaction: the instance of the QR oracle drops the interaction *)
Lemma gs_drop_cons {I} (rows : list I) c cs j : In j (gs_dropped rows cs) -> In (S j) (gs_dropped rows (c :: cs)).
Proof.
  intros H. cbn [gs_dropped]. destruct (Req_EM_T _ 0); [right|]; apply in_map; exact H.
Qed.
Lemma gs_drop_dup {I} (rows : list I) c : In 0%nat (gs_dropped rows [c; c]).
Proof.
  cbn [gs_dropped]. destruct (Req_EM_T (ip rows (gs_res rows [c] c) (gs_res rows [c] c)) 0) as [E|N]; [left; reflexivity|].
  exfalso. apply N.
  assert (Ho : span rows [c] (gs_res rows [c] c)).
  { unfold gs_res. apply span_sub; [apply span_in; simpl; auto|apply span_lc]. apply (@gs_is_ls I). }
  exact (orth_span rows [c] _ _ (gs_res_orth rows [c] c) Ho).
Qed.

(* ---- concrete data: rows are triples of booleans ---- *)
Definition b3 : Type := (bool * bool * bool)%type.
Definition gB (i : b3) : option R := Some (ind (fst (fst i))).
Definition pB (i : b3) : option R := Some (ind (snd (fst i))).
Definition tB (i : b3) : option R := Some (ind (snd i)).
Definition rows8 : list b3 :=
  [(true,true,false); (true,true,true); (true,false,false); (true,false,true);
   (false,true,false); (false,true,true); (false,false,false); (false,false,true)].
(* one more row in the treated, ineligible, post cell *)
Definition rows9 : list b3 := (true,false,true) :: rows8.

Lemma Reqb_ind a b : Reqb (ind a) (ind b) = Bool.eqb a b.
Proof. destruct a, b; simpl; rewrite ?Reqb_refl, ?Reqb_01, ?Reqb_10; reflexivity. Qed.
Notation f x := (fun i => oR (x i)).

Lemma cell8_b rows a b c : cell8 rows (f gB) (f pB) (f tB) (ind a) (ind b) (ind c)
  = filter (fun i => Bool.eqb (fst (fst i)) a && Bool.eqb (snd (fst i)) b && Bool.eqb (snd i) c) rows.
Proof. apply filter_ext. intros [[x z] w]. simpl. rewrite !Reqb_ind. reflexivity. Qed.
Lemma cell4_b rows a b : cell4 rows (f gB) (f pB) (ind a) (ind b)
  = filter (fun i => Bool.eqb (fst (fst i)) a && Bool.eqb (snd (fst i)) b) rows.
Proof. apply filter_ext. intros [[x z] w]. simpl. rewrite !Reqb_ind. reflexivity. Qed.
Lemma part_b rows c : part rows (f tB) (ind c) = filter (fun i => Bool.eqb (snd i) c) rows.
Proof. apply filter_ext. intros [[x z] w]. simpl. rewrite !Reqb_ind. reflexivity. Qed.
Lemma bits x : (x = 0 \/ x = 1) -> exists b, x = ind b.
Proof. intros [->| ->]; [exists false|exists true]; reflexivity. Qed.

Lemma b_valid rows y covs : (forall i, y i <> None) -> Forall (fun c => forall i, c i <> None) covs ->
  (forall a b c, filter (fun i => Bool.eqb (fst (fst i)) a && Bool.eqb (snd (fst i)) b && Bool.eqb (snd i) c) rows <> []) ->
  ddd_validate rows y gB pB tB covs = Ok tt.
Proof.
  intros Hy Hc H. apply validate_ok.
  assert (H8 : forall g p t, (g = 0 \/ g = 1) -> (p = 0 \/ p = 1) -> (t = 0 \/ t = 1) -> cell8 rows (f gB) (f pB) (f tB) g p t <> []).
  { intros g p t A B C. destruct (bits g A) as [a ->], (bits p B) as [b ->], (bits t C) as [c ->]. rewrite cell8_b. apply H. }
  assert (Z : forall x, (exists b : b3 -> bool, forall i, x i = Some (ind (b i))) -> zero_one rows (f x)).
  { intros x [b Hb] i _. rewrite Hb. simpl. destruct (b i); simpl; auto. }
  repeat split; try (intros i _; first [apply Hy|discriminate]); try (apply Z; eexists; intros i; reflexivity);
    try (rewrite <- cell8_part; apply H8; auto).
  intros c Hin i _. rewrite Forall_forall in Hc. exact (Hc c Hin i).
Qed.

Definition cst (c : R) (_ : b3) : option R := Some c.
Definition cfgm (m : string) : ddd_config :=
  {| dd_method := m; dd_robust := true; dd_alpha := 5/100; dd_trim := 1/100; dd_action := "warn" |}.

Section Ex.
Variable qr : list b3 -> list (b3 -> R) -> list nat.
Variable lstsq : list b3 -> list (b3 -> R) -> (b3 -> R) -> list R.
Variable inv : list b3 -> list (b3 -> R) -> option (nat -> nat -> R).
Variable pinv : list b3 -> list (b3 -> R) -> nat -> nat -> R.
Variable sf : option Z -> fl -> fl.
Variable ppf : option Z -> R -> R.
Variable logit : list b3 -> list (b3 -> R) -> (b3 -> R) -> option (b3 -> R).
Notation fit := (ddd_fit Z.eq_dec qr lstsq inv pinv sf ppf logit).

Lemma valid9 y covs : (forall i, y i <> None) -> Forall (fun c => forall i, c i <> None) covs -> ddd_validate rows9 y gB pB tB covs = Ok tt.
Proof. intros Hy Hc. apply b_valid; auto. intros [] [] []; discriminate. Qed.
Lemma valid8 y covs : (forall i, y i <> None) -> Forall (fun c => forall i, c i <> None) covs -> ddd_validate rows8 y gB pB tB covs = Ok tt.
Proof. intros Hy Hc. apply b_valid; auto. intros [] [] []; discriminate. Qed.

Lemma unclipped9 m : unclipped rows9 (f gB) (f pB) (cfgm m).
Proof.
  intros g p A B. destruct (bits g A) as [a ->], (bits p B) as [b ->]. rewrite cell4_b.
  destruct a, b; unfold len; simpl; lra.
Qed.
Lemma unclipped8 m : unclipped rows8 (f gB) (f pB) (cfgm m).
Proof.
  intros g p A B. destruct (bits g A) as [a ->], (bits p B) as [b ->]. rewrite cell4_b.
  destruct a, b; unfold len; simpl; lra.
Qed.
Lemma comb_b (m : R -> R -> R -> R) : ddd_comb m
  = (m (ind true) (ind true) (ind true) - m (ind true) (ind true) (ind false))
  - (m (ind true) (ind false) (ind true) - m (ind true) (ind false) (ind false))
  - (m (ind false) (ind true) (ind true) - m (ind false) (ind true) (ind false))
  + (m (ind false) (ind false) (ind true) - m (ind false) (ind false) (ind false)).
Proof. reflexivity. Qed.

(* constant outcome c in unbalanced cells: the triple difference is 0 but dr reports -27c/40 *)
Theorem dr9 cl c : exists r, fit (cfgm "dr") cl rows9 (cst c) gB pB tB [] = Ok r /\
  tr_att r = Fin (- (27 / 40) * c) /\ ddd_of_dids rows9 (f gB) (f pB) (f tB) (f (cst c)) = 0.
Proof.
  assert (HV : ddd_validate rows9 (cst c) gB pB tB [] = Ok tt) by (apply valid9; [intros i; discriminate|constructor]).
  destruct (valid_fits Z.eq_dec qr lstsq inv pinv sf ppf logit (cfgm "dr") cl rows9 (cst c) gB pB tB [] HV) as [r Hr]; [discriminate|].
  exists r. split; auto. split.
  - destruct (dr_fit Z.eq_dec qr lstsq inv pinv sf ppf logit (cfgm "dr") cl rows9 (cst c) gB pB tB r eq_refl (unclipped9 "dr") Hr) as [E _].
    rewrite E. f_equal. rewrite comb_b. cbv beta. rewrite !cell8_b, !cell4_b, !part_b.
    unfold meanf, len. simpl. field.
  - rewrite <- ddd_comb_dids, comb_b. rewrite !cell8_b. unfold meanf, len. simpl. field.
Qed.

(* ipw: the standard error is not invariant to a constant shift of the outcome *)
Theorem ipw8 cl c : exists r, fit (cfgm "ipw") cl rows8 (cst c) gB pB tB [] = Ok r /\
  tr_att r = Fin 0 /\ tr_se r = Fin (sqrt (16 * (c * c) / 7)).
Proof.
  assert (HV : ddd_validate rows8 (cst c) gB pB tB [] = Ok tt) by (apply valid8; [intros i; discriminate|constructor]).
  destruct (valid_fits Z.eq_dec qr lstsq inv pinv sf ppf logit (cfgm "ipw") cl rows8 (cst c) gB pB tB [] HV) as [r Hr]; [discriminate|].
  exists r. split; auto.
  assert (EA : tr_att r = Fin 0).
  { rewrite (ipw_fit Z.eq_dec qr lstsq inv pinv sf ppf logit (cfgm "ipw") cl rows8 (cst c) gB pB tB r eq_refl ltac:(simpl; lra) Hr).
    f_equal. rewrite <- ddd_comb_dids, comb_b. rewrite !cell8_b. unfold meanf, len. simpl. field. }
  split; auto.
  destruct (fit_inv Z.eq_dec qr lstsq inv pinv sf ppf logit _ _ _ _ _ _ _ _ _ Hr) as (_ & out & HO & E1 & E2 & _).
  unfold ddd_est in HO. simpl in HO. injection HO as <-. rewrite E2. cbn [do_se ddd_ipw]. f_equal. rewrite EA in E1. cbn [do_att ddd_ipw] in E1.
  injection E1 as E1. rewrite <- E1. unfold ipw_se. f_equal.
  assert (Hq : forall a b, len (cell4 rows8 (f gB) (f pB) (ind a) (ind b)) / len rows8 = 1 / 4).
  { intros a b. rewrite cell4_b. destruct a, b; unfold len; simpl; lra. }
  assert (Hrat : forall a b i, ddd_ratio logit (cfgm "ipw") rows8 (f gB) (f pB) [] (ind a) (ind b) i = 1).
  { intros a b i. unfold ddd_ratio. rewrite !pcell_nocov. change (cell4 rows8 (f gB) (f pB) 1 1) with (cell4 rows8 (f gB) (f pB) (ind true) (ind true)). rewrite !Hq. simpl dd_trim.
    rewrite clip_id by lra. field. }
  assert (Hinf : forall i, ipw_inf logit (cfgm "ipw") rows8 (f (cst c)) (f gB) (f pB) (f tB) [] 0 i
     = (if Bool.eqb (xorb (fst (fst i)) (snd (fst i))) (snd i) then - 4 * c else 4 * c)).
  { intros [[x z] w]. unfold ipw_inf. change 1 with (ind true). change 0 with (ind false).
    rewrite !Hq, !Hrat. unfold in4. cbv beta. cbn [gB pB tB cst fst snd oR]. rewrite !Reqb_ind.
    destruct x, z, w; cbn; field. }
  rewrite (map_ext _ _ Hinf). cbn. unfold variance, sumsq_dev, meanf, len, idR. cbn. field.
Qed.

(* one observation per cell: dr reports a zero standard error and p = 1 whatever the effect *)
Definition yspike (c : R) (i : b3) : option R := Some (if fst (fst i) && snd (fst i) && snd i then c else 0).
Theorem dr8 cl c : dist_ok sf ppf -> exists r, fit (cfgm "dr") cl rows8 (yspike c) gB pB tB [] = Ok r /\
  tr_att r = Fin c /\ tr_se r = Fin 0 /\ tr_t r = Fin 0 /\ tr_p r = Fin 1 /\ tr_ci r = (Fin c, Fin c).
Proof.
  intros Hd.
  assert (HV : ddd_validate rows8 (yspike c) gB pB tB [] = Ok tt) by (apply valid8; [intros i; discriminate|constructor]).
  destruct (valid_fits Z.eq_dec qr lstsq inv pinv sf ppf logit (cfgm "dr") cl rows8 (yspike c) gB pB tB [] HV) as [r Hr]; [discriminate|].
  exists r. split; auto.
  destruct (dr_fit Z.eq_dec qr lstsq inv pinv sf ppf logit (cfgm "dr") cl rows8 (yspike c) gB pB tB r eq_refl (unclipped8 "dr") Hr) as [EA ES].
  assert (EA' : tr_att r = Fin c).
  { rewrite EA. f_equal. rewrite comb_b. cbv beta. rewrite !cell8_b, !cell4_b, !part_b. unfold meanf, len. simpl. field. }
  assert (ES' : tr_se r = Fin 0).
  { rewrite ES. f_equal. unfold dr_se. refine (eq_trans _ sqrt_0). f_equal. apply sumf_zero. intros [[g p] t] Hin.
    assert (Hz : (g = 0 \/ g = 1) /\ (p = 0 \/ p = 1) /\ (t = 0 \/ t = 1)).
    { unfold all_cells in Hin. simpl in Hin. repeat destruct Hin as [Hin|Hin]; try contradiction; injection Hin as <- <- <-; auto. }
    destruct Hz as (A & B & C). destruct (bits g A) as [a ->], (bits p B) as [b ->], (bits t C) as [d ->].
    rewrite cell8_b. destruct a, b, d; unfold dr_cell_var; simpl; lra. }
  split; auto. split; auto.
  destruct (zero_se_p_one Z.eq_dec qr lstsq inv pinv sf ppf logit _ _ _ _ _ _ _ _ _ Hd Hr) as [Et Ep].
  { rewrite ES'. unfold fgt. destruct (flt (Fin 0) (Fin 0)) eqn:E; auto. apply flt_fin in E. lra. }
  split; auto. split; auto.
  destruct (fit_inv Z.eq_dec qr lstsq inv pinv sf ppf logit _ _ _ _ _ _ _ _ _ Hr) as (_ & out & _ & E1 & E2 & _ & _ & _ & E6 & _).
  rewrite E6, <- E1, <- E2, EA', ES'. simpl length. unfold u_ci, u_ppf. destruct (Z.ltb_spec 0 (ddd_df 8 0)); [|unfold ddd_df in *; lia].
  cbn [fmul fsub fneg fadd]. f_equal; f_equal; ring.
Qed.
End Ex.

(* the collinear covariate, with the concrete oracle instances *)
Definition gpt (i : b3) : option R := Some (ind (fst (fst i)) * ind (snd (fst i)) * ind (snd i)).
Definition cfgc : ddd_config :=
  {| dd_method := "reg"; dd_robust := false; dd_alpha := 5/100; dd_trim := 1/100; dd_action := "warn" |}.
Theorem reg_collinear pinv logit cl c : exists r,
  ddd_fit Z.eq_dec (@gs_dropped b3) (@gs b3) (@gs_inv b3) pinv toy_sf toy_ppf logit cfgc cl rows9 (cst c) gB pB tB [gpt] = Ok r /\
  tr_att r = NaN /\ tr_se r = NaN /\ tr_t r = Fin 0 /\ tr_p r = Fin 1.
Proof.
  assert (HV : ddd_validate rows9 (cst c) gB pB tB [gpt] = Ok tt).
  { apply valid9; [intros i; discriminate|]. constructor; [|constructor]. intros i; discriminate. }
  assert (HQ : In 7%nat (gs_dropped rows9 (ddd_design (f gB) (f pB) (f tB) (map (fun c => f c) [gpt])))).
  { unfold ddd_design. cbn [map app]. do 7 apply gs_drop_cons. apply gs_drop_dup. }
  assert (HE : exists r, ddd_fit Z.eq_dec (@gs_dropped b3) (@gs b3) (@gs_inv b3) pinv toy_sf toy_ppf logit cfgc cl rows9 (cst c) gB pB tB [gpt] = Ok r).
  { unfold ddd_fit. rewrite HV. cbn [bind dd_method cfgc]. change (String.eqb "reg" "reg") with true. cbn iota.
    unfold ddd_reg, linreg_fit, solve_ols. cbn [dd_robust cfgc dd_action].
    change (Nat.ltb (length rows9) (length (ddd_design (f gB) (f pB) (f tB) (map (fun c => f c) [gpt])))) with false.
    change (parse_action "warn") with (Some ActWarn). cbn iota.
    destruct (gs_dropped rows9 (ddd_design (f gB) (f pB) (f tB) (map (fun c => f c) [gpt]))) as [|d0 ds] eqn:EQ; [cbn [bind]; eexists; reflexivity|]. rewrite <- EQ.
    cbv zeta. rewrite (kept_nonzero (@gs_dropped b3) rows9 (ddd_design (f gB) (f pB) (f tB) (map (fun c => f c) [gpt])) (fun _ => 1) (hd (true,true,true) rows9) gs_dropped_ok);
      [cbn [bind]; eexists; reflexivity|now left|now left|lra]. }
  destruct HE as [r Hr]. exists r. split; auto.
  destruct (reg_dropped Z.eq_dec (@gs_dropped b3) (@gs b3) (@gs_inv b3) pinv toy_sf toy_ppf logit (@gs_ok b3) toy_dist_ok
    cfgc cl rows9 (cst c) gB pB tB [gpt] r eq_refl Hr HQ) as (A & B & _ & C & D). auto.
Qed.

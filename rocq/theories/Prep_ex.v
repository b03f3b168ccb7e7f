(* Panel-level statements and concrete cases for the data-preparation helpers. *)
From Verif Require Import Prelude Flt Did_spec Prep_model Prep_proofs Prep_balance Prep_valid Prep_rank.
From Coq Require Import Arith ZArith String List Bool Lia Permutation Sorting.Sorted.
Import ListNotations.
Open Scope R_scope.

Lemma perm_filter_length {A} (p : A -> bool) l l' : Permutation l l' -> length (filter p l) = length (filter p l').
Proof. induction 1 as [|x l l' P IH|x z l|l l' l'' P1 IH1 P2 IH2]; simpl; auto; try (destruct (p x); try destruct (p z); simpl; lia). lia. Qed.
(* method='fill' with a value: the full grid, no missing numeric entry, observed entries unchanged *)
Theorem fill_panel {C V} (numeric : C -> bool) (v : V) (data out : list (obs C V)) : balance_panel numeric "fill" (Some v) data = Ok out ->
  (forall o c, In o out -> numeric c = true -> o_val o c <> None) /\
  (forall o c x, In o data -> o_val o c = Some x -> exists o', In o' out /\ o_unit o' = o_unit o /\ o_time o' = o_time o /\ o_val o' c = Some x) /\
  (NoDup (map (fun o => (o_unit o, o_time o)) data) -> map (fun o => (o_unit o, o_time o)) out = list_prod (units data) (periods data)).
Proof.
  intros H. cbn in H. injection H as <-. pose proof (fill_spec numeric v (balance_outer data)) as F.
  assert (G : forall (l l' : list (obs C V)), Forall2 (fun o o' => o_unit o' = o_unit o /\ o_time o' = o_time o /\ (forall c x, o_val o c = Some x -> o_val o' c = Some x) /\ (forall c, o_val o c = None -> o_val o' c = if numeric c then Some v else None)) l l' ->
     (forall o c, In o l' -> numeric c = true -> o_val o c <> None) /\ (forall o c x, In o l -> o_val o c = Some x -> exists o', In o' l' /\ o_unit o' = o_unit o /\ o_time o' = o_time o /\ o_val o' c = Some x) /\ map (fun o => (o_unit o, o_time o)) l' = map (fun o => (o_unit o, o_time o)) l).
  { induction 1 as [|a b l l' R F2 IH]; [repeat split; simpl; try contradiction; auto|]. destruct R as (R1 & R2 & R3 & R4), IH as (I1 & I2 & I3). split; [|split].
    - intros o c [<-|Ho] N; [|auto]. destruct (o_val a c) as [x|] eqn:E; [rewrite (R3 _ _ E); discriminate|]. rewrite (R4 _ E), N. discriminate.
    - intros o c x [<-|Ho] E; [exists b; simpl; auto|]. destruct (I2 o c x Ho E) as (o' & A & B). exists o'. simpl; auto.
    - simpl. rewrite I3, R1, R2. reflexivity. }
  destruct (G _ _ F) as (G1 & G2 & G3). split; [exact G1|]. split.
  - intros o c x Ho E. apply G2; auto. apply outer_rows. auto.
  - intros ND. rewrite G3. apply outer_one_row. auto.
Qed.
(* method='fill' without a value: an entry stays missing exactly when its unit has no value in that column *)
Theorem carry_panel {C V} (numeric : C -> bool) (data out : list (obs C V)) : balance_panel numeric "fill" None data = Ok out ->
  forall o c, In o out -> (o_val o c = None <-> forall q, In q data -> o_unit q = o_unit o -> o_val q c = None).
Proof.
  intros H. cbn in H. injection H as <-. pose proof (fill_around_spec (balance_outer data)) as F. intros o c Ho.
  assert (G : exists p : obs C V, o_unit o = o_unit p /\ (o_val o c = None <-> forall q, In q (balance_outer data) -> o_unit q = o_unit p -> o_val q c = None)).
  { revert Ho. induction F as [|a b l l' R F2 IH]; [intros []|]. intros [<-|Ho]; [|auto]. destruct R as (R1 & _ & _ & R4 & _). exists a. split; auto. }
  destruct G as (p & Ep & G). rewrite G, Ep. split; intros K q Hq E.
  - apply K; auto. apply outer_rows. auto.
  - apply outer_rows in Hq as [Hq|(_ & _ & Hq & _)]; [auto|]. rewrite Hq. reflexivity.
Qed.

Definition ob (u t : Z) (v : option Z) : obs unit Z := {| o_unit := u; o_time := t; o_val := fun _ => v |}.
Definition panel : list (obs unit Z) := [ob 1 0 (Some 10); ob 1 1 None; ob 2 1 (Some 20); ob 3 0 (Some 5); ob 3 1 (Some 6)]%Z.
Definition view (r : res (list (obs unit Z))) : option (list (Z * Z * option Z)) := match r with Ok l => Some (map (fun o => (o_unit o, o_time o, o_val o tt)) l) | Err _ => None end.
Theorem panel_case :
  view (balance_panel (fun _ => true) "inner" None panel) = Some [(1, 0, Some 10); (1, 1, None); (3, 0, Some 5); (3, 1, Some 6)]%Z /\
  view (balance_panel (fun _ => true) "outer" None panel) = Some [(1, 0, Some 10); (1, 1, None); (2, 0, None); (2, 1, Some 20); (3, 0, Some 5); (3, 1, Some 6)]%Z /\
  view (balance_panel (fun _ => true) "fill" (Some 0%Z) panel) = Some [(1, 0, Some 10); (1, 1, Some 0); (2, 0, Some 0); (2, 1, Some 20); (3, 0, Some 5); (3, 1, Some 6)]%Z /\
  view (balance_panel (fun _ => true) "fill" None panel) = Some [(1, 0, Some 10); (1, 1, Some 10); (2, 0, Some 20); (2, 1, Some 20); (3, 0, Some 5); (3, 1, Some 6)]%Z /\
  NoDup (map (fun o => (o_unit o, o_time o)) panel).
Proof. repeat split; try reflexivity. repeat constructor; simpl; intuition congruence. Qed.

(* indicators and reshaping on concrete frames *)
Definition wide_row (i a b : R) : row := fun c => if String.eqb c "id" then Num (Fin i) else if String.eqb c "y0" then Num (Fin a) else if String.eqb c "y1" then Num (Fin b) else Num NaN.
Definition wide_frame : frame := {| f_cols := ["id"; "y0"; "y1"]%string; f_rows := [wide_row 1 10 11; wide_row 2 20 22] |}.
Theorem wide_case : exists df', wide_to_long wide_frame ["y0"; "y1"]%string "id" "t" "v" None = Ok df' /\
  f_cols df' = ["id"; "t"; "v"]%string /\ length (f_rows df') = 4%nat /\ NoDup (map (fun q : row => (q "id"%string, q "t"%string)) (f_rows df')).
Proof.
  destruct (wide_to_long wide_frame ["y0"; "y1"]%string "id" "t" "v" None) as [df'|e] eqn:E; [|cbv -[isort] in E; discriminate].
  exists df'. split; auto. split; [|split].
  - cbv -[isort] in E. injection E as <-. reflexivity.
  - destruct (wide_cells _ _ _ _ _ _ _ E) as [L _]; [repeat constructor; simpl; intuition discriminate|exact L].
  - apply (wide_keys_unique _ _ _ _ _ _ _ E); [repeat constructor; simpl; intuition discriminate| |].
    + simpl. constructor; [|repeat constructor; simpl; tauto]. intros [K|[]]. unfold default_times in K. simpl in K. injection K as K. simpl in K. lra.
    + simpl. constructor; [|repeat constructor; simpl; tauto]. intros [K|[]]. unfold wide_row in K. simpl in K. injection K as K. lra.
Qed.
Theorem indicator_case : exists df', make_post_indicator doc_frame "p" None (Some (Num (Fin 1))) "post" = Ok df' /\
  marks doc_frame df' "post" (fun r => above_thr 1 (r "p"%string)) /\ numeric_col doc_frame "p" /\ has_col doc_frame "p" = true.
Proof.
  assert (N : numeric_col doc_frame "p") by (intros r Hr; simpl in Hr; intuition; subst; unfold mk_row; simpl; eauto).
  destruct (post_by_start doc_frame "p" 1 "post" eq_refl N) as (df' & E & M). exists df'. auto.
Qed.

(* ranking: three units, two of them possible controls; unit 1 is treated and also required *)
Definition rk_rows : list (nat * Z * R) := [(1%nat, 0%Z, 1); (2%nat, 0%Z, 1); (3%nat, 0%Z, 2); (1%nat, 1%Z, 9); (2%nat, 1%Z, 9); (3%nat, 1%Z, 9)].
Notation rk := (rank_control_units Nat.eq_dec dsort_ex rk_rows (fun i => fst (fst i)) (fun i => snd (fst i)) (fun i => Fin (snd i))).
Theorem rk_ok n : exists out, rk None (Some [1%nat]) None [] (7/10) (3/10) None (Some [1%nat; 3%nat]) n false = Ok (Some out).
Proof.
  unfold rank_control_units. replace (Rleb 0 (7/10)) with true by (symmetry; apply Rleb_true; lra). replace (Rleb (7/10) 1) with true by (symmetry; apply Rleb_true; lra).
  replace (Rleb 0 (3/10)) with true by (symmetry; apply Rleb_true; lra). replace (Rleb (3/10) 1) with true by (symmetry; apply Rleb_true; lra). cbn [negb andb]. eexists. cbv -[limit_top dsort_ex trend_scores combine_scores rmse]. reflexivity.
Qed.
(* a required unit need not appear, and the number of rows is then below the number of required units *)
Theorem rank_required_refuted : exists out, rk None (Some [1%nat]) None [] (7/10) (3/10) None (Some [1%nat; 3%nat]) (Some 1%Z) false = Ok (Some out) /\
  ~ In 1%nat (map k_unit out) /\ In 3%nat (map k_unit out) /\ length out = 1%nat.
Proof.
  destruct (rk_ok (Some 1%Z)) as [out E]. exists out. split; auto. split; [|split].
  - eapply (rank_required_missing Nat.eq_dec dsort_ex dsort_ex_ok); [exact E|reflexivity|]. left. simpl; auto.
  - destruct (rank_table Nat.eq_dec dsort_ex dsort_ex_ok _ _ _ _ _ _ _ _ _ _ _ _ _ _ _ [1%nat] E eq_refl) as (_ & _ & _ & RQ & _). apply (RQ [1%nat; 3%nat]); auto; [simpl; auto|]. split; [|split].
    + exists (3%nat, 0%Z, 2). simpl. auto 7.
    + simpl. intuition congruence.
    + discriminate.
  - apply (rank_inv Nat.eq_dec dsort_ex) in E as (tr & T & _ & _ & _ & E). injection T as <-. cbv zeta in E. destruct E as (_ & _ & _ & _ & _ & _ & ->). rewrite (limit_length dsort_ex dsort_ex_ok).
    rewrite (Permutation_length (proj1 (dsort_ex_ok _))).
    match goal with |- context [filter k_req (dsort_ex ?l)] => assert (P : length (filter k_req (dsort_ex l)) = 1%nat) end.
    { match goal with |- context [dsort_ex ?l] => transitivity (length (filter k_req l)); [|rewrite line_req; reflexivity]; pose proof (proj1 (dsort_ex_ok l)) as P end.
      apply perm_filter_length; exact P. }
    rewrite P, map_length. reflexivity.
Qed.
Theorem rk_complete : full_panel Nat.eq_dec rk_rows (fun i => fst (fst i)) (fun i => snd (fst i)) (fun i => Fin (snd i)) (rank_periods rk_rows (fun i => snd (fst i)) None) [1%nat; 2%nat; 3%nat].
Proof.
  intros x p Hx Hp. change (In p [0%Z]) in Hp. destruct Hp as [<-|[]]. simpl in Hx. destruct Hx as [<-|[<-|[<-|[]]]]; cbv -[isfin Rplus IZR]; do 2 eexists; (split; [reflexivity|]); cbn; eexists; reflexivity.
Qed.
(* order dependence: the same three distances, one of them undefined *)
Theorem nan_order_refuted : trend_scores [NaN; Fin 0; Fin 1] = [NaN; NaN; NaN] /\ trend_scores [Fin 0; NaN; Fin 1] = [Fin 1; NaN; Fin 0] /\ Permutation [NaN; Fin 0; Fin 1] [Fin 0; NaN; Fin 1].
Proof.
  split; [apply (trend_nan_first [Fin 0; Fin 1])|]. split; [|apply perm_swap].
  assert (A : pymax [Fin 0; NaN; Fin 1] (Fin 1) = Fin 1) by (cbn; replace (Rltb 0 1) with true by (symmetry; apply Rltb_true; lra); reflexivity).
  assert (B : pymin [Fin 0; NaN; Fin 1] (Fin 0) = Fin 0) by (cbn; replace (Rltb 1 0) with false by (symmetry; apply Rltb_false; lra); reflexivity).
  unfold trend_scores. rewrite A, B. replace (fsub (Fin 1) (Fin 0)) with (Fin 1) by (cbn; f_equal; lra).
  replace (small (Fin 1)) with false by (symmetry; unfold small, flt; apply Rltb_false; lra). cbn [map]. unfold fsub, fdiv; cbn [fneg fadd].
  destruct (Req_EM_T 1 0); [lra|]. cbn [fneg fadd]. repeat f_equal; lra.
Qed.
(* five valid rows with 0/1 periods *)
Definition five_frame : frame := mk_frame [(1, 0, 0); (2, 0, 1); (3, 1, 0); (4, 1, 1); (6, 1, 1)].
Theorem five_valid : (exists r, validate_did_data five_frame "y" "d" "p" None false = Ok r /\ v_valid r = true) /\
  (forall r, In r (f_rows five_frame) -> exists x, r "y"%string = Num (Fin x)) /\
  (forall r, In r (f_rows five_frame) -> r "p"%string = Num (Fin 0) \/ r "p"%string = Num (Fin 1)) /\ (4 < length (f_rows five_frame))%nat.
Proof.
  assert (U : usable five_frame "y" "d" "p" None).
  { apply mk_usable; [intros q Hq; simpl in Hq; intuition; subst; simpl; auto|].
    intros a [-> | ->]; [exists (1, 0, 0), (2, 0, 1)|exists (3, 1, 0), (4, 1, 1)]; simpl; repeat split; auto; lra. }
  split; [apply validate_iff; auto; apply mk_uniform|]. split; [|split]; [| |simpl; lia]; intros r Hr; simpl in Hr; intuition; subst; unfold mk_row; simpl; eauto.
Qed.
(* validation accepts, fit refuses or divides by zero: periods 1/2, an infinite outcome, four rows *)
Definition inf_row (y : fl) (d p : R) : row := fun c => if String.eqb c "y" then Num y else if String.eqb c "d" then Num (Fin d) else if String.eqb c "p" then Num (Fin p) else Num NaN.
Definition inf_frame : frame := {| f_cols := ["y"; "d"; "p"]%string; f_rows := [inf_row PInf 0 0; inf_row (Fin 2) 0 1; inf_row (Fin 3) 1 0; inf_row (Fin 4) 1 1; inf_row (Fin 5) 1 1] |}.
Theorem inf_valid : (exists r, validate_did_data inf_frame "y" "d" "p" None false = Ok r /\ v_valid r = true) /\ usable inf_frame "y" "d" "p" None.
Proof.
  assert (U : usable inf_frame "y" "d" "p" None).
  { unfold usable, inf_frame; cbn [f_cols f_rows]. split; [intros c Hc; exact Hc|]. split; [intros r Hr; simpl in Hr; intuition; subst; unfold inf_row; simpl; eexists; (split; [reflexivity|discriminate])|].
    split; [intros r Hr; simpl in Hr; intuition; subst; unfold inf_row; simpl; auto|]. split; [intros r Hr; simpl in Hr; intuition; subst; discriminate|]. split; [discriminate|].
    intros a [-> | ->]; [exists (inf_row PInf 0 0), (inf_row (Fin 2) 0 1)|exists (inf_row (Fin 3) 1 0), (inf_row (Fin 4) 1 1)]; simpl; repeat split; auto; unfold inf_row; simpl; intros E; injection E; lra. }
  split; auto. apply validate_iff; auto. left. unfold inf_frame; cbn [f_rows]. intros r Hr; simpl in Hr; intuition; subst; unfold inf_row; simpl; eauto.
Qed.

(* Concrete cases for the placebo diagnostics. *)
From Verif Require Import Prelude Flt Stats_model Stats_proofs Linalg_model Linalg_proofs Linalg_vcov Linalg_thms Did_model Did_spec Did_proofs Did_equiv
  Multi_model Boot_model Prep_model Prep_proofs Diag_model Diag_level Diag_proofs Diag_thms.
From Coq Require Import Arith ZArith String List Bool Lia Permutation Psatz.
Import ListNotations.
Open Scope R_scope.

Definition obsv : Type := (nat * Z)%type.                          (* unit, period *)
Definition xcfg : did_config obsv nat := {| c_robust := true; c_cluster := None; c_alpha := 5/100; c_action := "warn" |}.
Definition xfit (rows : list obsv) (y d t : obsv -> fl) : res (did_result obsv) :=
  did_fit Nat.eq_dec Nat.eq_dec (@gs_dropped obsv) (@gs obsv) (@gs_inv obsv) (fun _ _ _ _ => 0) toy_sf toy_ppf xcfg rows y d t [] [] [].

Definition bmean {I} (p : I -> bool) (y : I -> R) (rows : list I) : R := meanf y (filter p rows).
Definition bdid {I} (b c : I -> bool) (y : I -> R) (rows : list I) : R :=
  (bmean (fun i => b i && c i) y rows - bmean (fun i => b i && negb (c i)) y rows)
  - (bmean (fun i => negb (b i) && c i) y rows - bmean (fun i => negb (b i) && negb (c i)) y rows).
Lemma Reqb_ind b p : Reqb (ind b) (ind p) = Bool.eqb b p.
Proof. destruct b, p; simpl; first [apply Reqb_true; reflexivity|apply Reqb_false; lra]. Qed.
Lemma cell_bool {I} (rows : list I) (b c : I -> bool) p q : cell rows (fun i => ind (b i)) (fun i => ind (c i)) (ind p) (ind q) = filter (fun i => Bool.eqb (b i) p && Bool.eqb (c i) q) rows.
Proof. unfold cell. apply filter_ext. intros i. rewrite !Reqb_ind. reflexivity. Qed.
Lemma did_bool {I} (rows : list I) (b c : I -> bool) y : did_of_means rows (fun i => ind (b i)) (fun i => ind (c i)) y = bdid b c y rows.
Proof.
  unfold did_of_means, cell_mean. change 1 with (ind true). change 0 with (ind false). rewrite !cell_bool. unfold bdid, bmean.
  rewrite (filter_ext (fun i => Bool.eqb (b i) true && Bool.eqb (c i) true) (fun i => b i && c i)) by (intros i; destruct (b i), (c i); reflexivity).
  rewrite (filter_ext (fun i => Bool.eqb (b i) true && Bool.eqb (c i) false) (fun i => b i && negb (c i))) by (intros i; destruct (b i), (c i); reflexivity).
  rewrite (filter_ext (fun i => Bool.eqb (b i) false && Bool.eqb (c i) true) (fun i => negb (b i) && c i)) by (intros i; destruct (b i), (c i); reflexivity).
  rewrite (filter_ext (fun i => Bool.eqb (b i) false && Bool.eqb (c i) false) (fun i => negb (b i) && negb (c i))) by (intros i; destruct (b i), (c i); reflexivity).
  reflexivity.
Qed.
Lemma four_bool {I} (rows : list I) (b c : I -> bool) :
  (forall p q, existsb (fun i => Bool.eqb (b i) p && Bool.eqb (c i) q) rows = true) -> four_cells rows (fun i => ind (b i)) (fun i => ind (c i)).
Proof.
  intros H.
  assert (X : forall p q, cell rows (fun i => ind (b i)) (fun i => ind (c i)) (ind p) (ind q) <> []).
  { intros p q. rewrite cell_bool. pose proof (H p q) as E. apply existsb_exists in E. destruct E as (i & Hi & E).
    intros C. assert (Y : In i []) by (rewrite <- C; apply filter_In; auto). destruct Y. }
  repeat split; [exact (X false false)|exact (X false true)|exact (X true false)|exact (X true true)].
Qed.
(* finite outcomes, all four cells and more than four rows: the fit succeeds and returns the 2x2 estimate *)
Lemma xfit_ok (rows : list obsv) (y : obsv -> R) (b c : obsv -> bool) :
  (forall p q, existsb (fun i => Bool.eqb (b i) p && Bool.eqb (c i) q) rows = true) -> (4 < length rows)%nat ->
  exists r, xfit rows (fun i => Fin (y i)) (fun i => ofb (b i)) (fun i => ofb (c i)) = Ok r /\ r_att r = Fin (bdid b c y rows).
Proof.
  intros H L. pose proof (four_bool rows b c H) as F.
  assert (XC : forall x z, cell rows (fun i => toR (ofb (b i))) (fun i => toR (ofb (c i))) x z = cell rows (fun i => ind (b i)) (fun i => ind (c i)) x z)
    by (intros x z; unfold cell; apply filter_ext; intros i; rewrite !ofb_toR; reflexivity).
  assert (FC : four_cells rows (fun i => toR (ofb (b i))) (fun i => toR (ofb (c i)))).
  { unfold four_cells. rewrite !XC. exact F. }
  destruct (did_fit_defined Nat.eq_dec Nat.eq_dec (@gs_dropped obsv) (@gs obsv) (@gs_inv obsv) (fun _ _ _ _ => 0) toy_sf toy_ppf gs_dropped_ok gs_ok gs_inv_ok
    xcfg rows (fun i => Fin (y i)) (fun i => ofb (b i)) (fun i => ofb (c i))) as (r & se & E & _); auto.
  - intros i _; eexists; reflexivity.
  - intros i _. destruct (b i); eexists; reflexivity.
  - intros i _. destruct (c i); eexists; reflexivity.
  - intros i _. destruct (b i); simpl; auto.
  - intros i _. destruct (c i); simpl; auto.
  - discriminate.
  - discriminate.
  - exists r. split; [exact E|].
    rewrite (did_att_is_did_of_means Nat.eq_dec Nat.eq_dec (@gs_dropped obsv) (@gs obsv) (@gs_inv obsv) (fun _ _ _ _ => 0) toy_sf toy_ppf gs_dropped_ok gs_ok _ _ _ _ _ _ E FC).
    f_equal. rewrite <- did_bool. unfold did_of_means, cell_mean. rewrite !XC. reflexivity.
Qed.

Ltac cells := let p := fresh in let q := fresh in intros p q; destruct p, q; vm_compute; reflexivity.
Ltac evald y := unfold bdid, bmean, meanf, len; cbn -[INR Z.add y]; unfold y; cbn; try lra; try field.

(* ---------- fake group: a treated unit among the controls ---------- *)
Definition g_rows : list obsv := list_prod [1; 2; 3; 4]%nat [0; 1]%Z.
Definition g_never : list obsv := list_prod [1; 2; 3]%nat [0; 1]%Z.               (* unit 4 is the treated one *)
Definition g_y (i : obsv) : R := ind (Nat.eqb (fst i) 4 && Z.eqb (snd i) 1) * 10.  (* never-treated outcomes are all 0 *)
Definition xgroup := group_test Nat.eq_dec xfit.
Lemma g_effect rows : (forall p q, existsb (fun i : obsv => Bool.eqb (mem Nat.eq_dec (fst i) [1%nat]) p && Bool.eqb (zin (snd i) [1%Z]) q) rows = true) -> (4 < length rows)%nat ->
  exists r, xgroup rows fst (fun i => Fin (g_y i)) snd (Some [1%nat]) (Some [1%Z]) (5/100) = Ok r /\
    pl_effect r = Fin (bdid (fun i => mem Nat.eq_dec (fst i) [1%nat]) (fun i => zin (snd i) [1%Z]) g_y rows).
Proof.
  intros C L. destruct (xfit_ok rows g_y (fun i => mem Nat.eq_dec (fst i) [1%nat]) (fun i => zin (snd i) [1%Z]) C L) as (s & E & A).
  unfold xgroup, group_test. cbn [post_of]. cbv zeta. rewrite E. cbn [bind]. eexists. split; [reflexivity|]. exact A.
Qed.
Theorem group_refuted : exists r r0,
  xgroup g_rows fst (fun i => Fin (g_y i)) snd (Some [1%nat]) (Some [1%Z]) (5/100) = Ok r /\ pl_effect r = Fin (- (10 / 3)) /\
  xgroup g_never fst (fun i => Fin (g_y i)) snd (Some [1%nat]) (Some [1%Z]) (5/100) = Ok r0 /\ pl_effect r0 = Fin 0.
Proof.
  destruct (g_effect g_rows) as (r & E & A); [cells|vm_compute; lia|].
  destruct (g_effect g_never) as (r0 & E0 & A0); [cells|vm_compute; lia|].
  exists r, r0. split; [exact E|]. split; [rewrite A; f_equal; evald g_y|]. split; [exact E0|]. rewrite A0. f_equal. evald g_y.
Qed.

(* ---------- fake timing and the battery: three periods, parallel trends, a true effect in period 2 ---------- *)
Definition t_rows : list obsv := list_prod [1; 2; 3; 4]%nat [0; 1; 2]%Z.
Definition t_treated (i : obsv) : bool := Nat.leb 3 (fst i).
Definition t_y (i : obsv) : R := INR (fst i) + 2 * IZR (snd i) + 7 * ind (t_treated i && Z.eqb (snd i) 2).
Definition xtiming := timing_test (U := nat) xfit.
Theorem timing_case : exists r, xtiming t_rows (fun i => Fin (t_y i)) (fun i => ofb (t_treated i)) snd (Some 1%Z) (Some [2%Z]) (5/100) = Ok r /\
  pl_effect r = Fin 0 /\ pl_orig r = Some (Fin 7).
Proof.
  destruct (xfit_ok (filter (fun i : obsv => zin (snd i) (filter (fun p => negb (zin p [2%Z])) (zperiods t_rows snd))) t_rows) t_y t_treated (fun i => Z.leb 1 (snd i))) as (s & E & A); [cells|vm_compute; lia|].
  destruct (xfit_ok t_rows t_y t_treated (fun i => zin (snd i) [2%Z])) as (s2 & E2 & A2); [cells|vm_compute; lia|].
  unfold xtiming, timing_test. cbn [post_of]. change (zin 1%Z [2%Z]) with false. cbv zeta. cbn match. rewrite E, E2. cbn [bind]. eexists. split; [reflexivity|].
  cbn [pl_effect pl_orig]. rewrite A, A2. split; [f_equal|f_equal; f_equal]; unfold bdid, bmean, meanf, len.
  - change (filter (fun i : obsv => zin (snd i) (filter (fun p => negb (zin p [2%Z])) (zperiods t_rows snd))) t_rows) with (list_prod [1; 2; 3; 4]%nat [0; 1]%Z).
    cbn -[INR Z.add t_y]. unfold t_y. cbn. lra.
  - cbn -[INR Z.add t_y]. unfold t_y. cbn. lra.
Qed.
Definition xchoice (units : list nat) (k i : nat) : list nat := if Nat.even i then firstn k units else firstn k (rev units).
Lemma xchoice_ok : choice_ok xchoice.
Proof.
  intros units k i L ND. unfold xchoice.
  assert (G : forall l : list nat, NoDup l -> length l = length units -> length (firstn k l) = k /\ NoDup (firstn k l) /\ incl (firstn k l) l).
  { intros l N E. split; [rewrite firstn_length; lia|]. split.
    - rewrite <- (firstn_skipn k l) in N. clear -N. induction (firstn k l) as [|a m IH]; [constructor|]. inversion N; subst. constructor; [|auto]. intros C. apply H1. apply in_or_app. auto.
    - intros x Hx. rewrite <- (firstn_skipn k l). apply in_or_app. auto. }
  destruct (Nat.even i); [apply G; auto|]. destruct (G (rev units)) as (A & B & C); [apply NoDup_rev; auto|apply rev_length|].
  split; [exact A|]. split; [exact B|]. intros x Hx. apply C in Hx. apply in_rev in Hx. exact Hx.
Qed.
Definition xrun_all := run_all Nat.eq_dec xfit toy_sf toy_ppf xchoice.
Theorem run_all_refuted : let out := xrun_all t_rows fst (fun i => Fin (t_y i)) (fun i => ofb (t_treated i)) snd [0; 1]%Z [2%Z] 100 (5/100) in
  (exists r, In (KTiming 1, Ok r) out /\ pl_effect r = Fin 0) /\ In (KPermutation, Err ValueError) out /\ In (KLeaveOneOut, Err ValueError) out.
Proof.
  intros out. destruct timing_case as (r & E & A & _).
  assert (T : In (KTiming 1, Ok r) out) by (unfold out, xrun_all, run_all; simpl; left; f_equal; exact E).
  split; [exists r; auto|].
  pose proof (run_all_errors Nat.eq_dec Nat.eq_dec Nat.eq_dec (@gs_dropped obsv) (@gs obsv) (@gs_inv obsv) (fun _ _ _ _ => 0) toy_sf toy_ppf xcfg xchoice
    t_rows fst (fun i => Fin (t_y i)) (fun i => ofb (t_treated i)) snd [0; 1]%Z [2%Z] 100 (5/100)) as X. cbv zeta in X.
  destruct X as (X1 & X2 & _); [exists 1%Z, r; exact T|]. split; assumption.
Qed.

(* ---------- two periods: permutation and leave-one-out run ---------- *)
Definition p_rows : list obsv := list_prod [1; 2; 3; 4]%nat [0; 1]%Z.
Definition p_y (i : obsv) : R := 10 * ind (t_treated i && Z.eqb (snd i) 1).
Definition pd (i : obsv) : fl := ofb (t_treated i).
Definition pt (i : obsv) : fl := ofb (Z.eqb (snd i) 1).
Definition xperm := permutation_test Nat.eq_dec xfit xchoice.
Definition xloo := leave_one_out_test Nat.eq_dec xfit toy_sf toy_ppf.
Lemma feqb_ofb b : feqb (ofb b) (Fin 1) = b.
Proof. destruct b; simpl; [apply Reqb_true; reflexivity|apply Reqb_false; lra]. Qed.
Lemma p_n_treated : n_treated_units Nat.eq_dec p_rows fst pd = 2%nat.
Proof.
  unfold n_treated_units. cbn -[Reqb]. rewrite (proj2 (Reqb_true 1 1) eq_refl), (proj2 (Reqb_false 0 1)) by lra. reflexivity.
Qed.
Theorem perm_case : exists r, xperm p_rows fst (fun i => Fin (p_y i)) pd pt 2 (5/100) = Ok r /\ pl_orig r = Some (Fin 10) /\
  pl_perm r = Some [Fin (-10); Fin 10] /\ pl_p r = Fin 1 /\ pl_signif r = false.
Proof.
  destruct (xfit_ok p_rows p_y t_treated (fun i => Z.eqb (snd i) 1)) as (s & E & A); [cells|vm_compute; lia|].
  destruct (xfit_ok p_rows p_y (fun i => mem Nat.eq_dec (fst i) [1; 2]%nat) (fun i => Z.eqb (snd i) 1)) as (s1 & E1 & A1); [cells|vm_compute; lia|].
  destruct (xfit_ok p_rows p_y (fun i => mem Nat.eq_dec (fst i) [4; 3]%nat) (fun i => Z.eqb (snd i) 1)) as (s2 & E2 & A2); [cells|vm_compute; lia|].
  assert (V : bdid t_treated (fun i : obsv => Z.eqb (snd i) 1) p_y p_rows = 10) by evald p_y.
  assert (V1 : bdid (fun i : obsv => mem Nat.eq_dec (fst i) [1; 2]%nat) (fun i : obsv => Z.eqb (snd i) 1) p_y p_rows = -10) by evald p_y.
  assert (V2 : bdid (fun i : obsv => mem Nat.eq_dec (fst i) [4; 3]%nat) (fun i : obsv => Z.eqb (snd i) 1) p_y p_rows = 10) by evald p_y.
  rewrite V in A. rewrite V1 in A1. rewrite V2 in A2.
  assert (P : perm_effects Nat.eq_dec xfit xchoice p_rows fst (fun i => Fin (p_y i)) pd pt 2 = Ok [Fin (-10); Fin 10]).
  { unfold perm_effects. rewrite p_n_treated. change (unit_list Nat.eq_dec p_rows fst) with [1; 2; 3; 4]%nat. cbn [seq mapM].
    change (xchoice [1; 2; 3; 4]%nat 2 0) with [1; 2]%nat. change (xchoice [1; 2; 3; 4]%nat 2 1) with [4; 3]%nat. cbv zeta. unfold pt. rewrite E1, E2. simpl. rewrite A1, A2. reflexivity. }
  unfold xperm, permutation_test. unfold pd at 1, pt at 1. rewrite E. cbn [bind]. rewrite P. cbn [bind]. cbv zeta. cbn [filter notna fisnan negb].
  eexists. split; [reflexivity|]. cbn [pl_orig pl_perm pl_p pl_signif]. rewrite A.
  assert (Q : perm_pvalue (Fin 10) [Fin (-10); Fin 10] = 1).
  { change [Fin (-10); Fin 10] with (map Fin [-10; 10]). rewrite perm_pvalue_fin, share_all; [|discriminate|].
    - apply Rmax_left. simpl. lra.
    - intros x [<-|[<-|[]]]; apply Rleb_true; rewrite ?(Rabs_pos_eq 10) by lra; [rewrite Rabs_left by lra; lra|lra]. }
  rewrite Q. repeat split. apply Rltb_false. lra.
Qed.
Lemma p_loo_effects : loo_effects Nat.eq_dec xfit p_rows fst (fun i => Fin (p_y i)) pd pt = Ok [(3, Fin 10); (4, Fin 10)]%nat.
Proof.
  assert (TL : treated_list Nat.eq_dec p_rows fst pd = [3; 4]%nat).
  { unfold treated_list. rewrite (filter_ext (fun i => feqb (pd i) (Fin 1)) t_treated) by (intros i; apply feqb_ofb). reflexivity. }
  unfold loo_effects. rewrite TL.
  destruct (xfit_ok (loo_rows Nat.eq_dec p_rows fst 3%nat) p_y t_treated (fun i => Z.eqb (snd i) 1)) as (s1 & E1 & A1); [cells|vm_compute; lia|].
  destruct (xfit_ok (loo_rows Nat.eq_dec p_rows fst 4%nat) p_y t_treated (fun i => Z.eqb (snd i) 1)) as (s2 & E2 & A2); [cells|vm_compute; lia|].
  assert (V1 : bdid t_treated (fun i : obsv => Z.eqb (snd i) 1) p_y (loo_rows Nat.eq_dec p_rows fst 3%nat) = 10) by evald p_y.
  assert (V2 : bdid t_treated (fun i : obsv => Z.eqb (snd i) 1) p_y (loo_rows Nat.eq_dec p_rows fst 4%nat) = 10) by evald p_y.
  rewrite V1 in A1. rewrite V2 in A2.
  assert (S0 : forall x, In x [3; 4]%nat -> negb (feqb (fsum (map pd (loo_rows Nat.eq_dec p_rows fst x))) (Fin 0)) = true).
  { intros x Hx. apply Bool.negb_true_iff. destruct Hx as [<-|[<-|[]]]; cbn; apply Reqb_false; lra. }
  cbn [filter]. rewrite !S0 by (simpl; auto). cbn [mapM]. unfold pd, pt. rewrite E1, E2. simpl. rewrite A1, A2. reflexivity.
Qed.
(* an effect of 10 confirmed by every leave-one-out estimate: p-value 1, reported as not significant *)
Theorem loo_refuted : exists r, xloo p_rows fst (fun i => Fin (p_y i)) pd pt (5/100) = Ok r /\ pl_orig r = Some (Fin 10) /\ pl_effect r = Fin 10 /\
  pl_loo r = Some [(3, Fin 10); (4, Fin 10)]%nat /\ pl_se r = Fin 0 /\ pl_p r = Fin 1 /\ pl_signif r = false /\ interpretation r = Consistent.
Proof.
  destruct (xfit_ok p_rows p_y t_treated (fun i => Z.eqb (snd i) 1)) as (s & E & A); [cells|vm_compute; lia|].
  assert (V : bdid t_treated (fun i : obsv => Z.eqb (snd i) 1) p_y p_rows = 10) by evald p_y. rewrite V in A.
  assert (X : exists r, xloo p_rows fst (fun i => Fin (p_y i)) pd pt (5/100) = Ok r /\ pl_orig r = Some (Fin 10) /\ pl_loo r = Some [(3, Fin 10); (4, Fin 10)]%nat).
  { unfold xloo, leave_one_out_test. unfold pd at 1, pt at 1. rewrite E. cbn [bind]. rewrite p_loo_effects. cbn [bind]. cbv zeta. cbn [map snd filter notna fisnan negb].
    eexists. split; [reflexivity|]. cbn [pl_orig pl_loo]. rewrite A. split; reflexivity. }
  destruct X as (r & X & O & L). exists r. split; [exact X|].
  pose proof (loo_identical Nat.eq_dec Nat.eq_dec Nat.eq_dec (@gs_dropped obsv) (@gs obsv) (@gs_inv obsv) (fun _ _ _ _ => 0) toy_sf toy_ppf toy_dist_ok xcfg
    p_rows fst (fun i => Fin (p_y i)) pd pt (5/100) r _ 10 X L) as Y.
  destruct Y as (Y1 & Y2 & Y3 & Y4 & Y5); [intros x [<-|[<-|[]]]; reflexivity|lra|].
  repeat split; auto. unfold interpretation. rewrite Y5. reflexivity.
Qed.

(* SyntheticDiD: complete fits on small panels *)
From Verif Require Import Prelude Flt Stats_model Linalg_model Linalg_proofs Linalg_vcov Linalg_thms Did_model Multi_model Multi_proofs Staggered_model Synth_model Synth_proofs Synth_more Sdid_model Sdid_proofs Sdid_thms Sdid_rows Sdid_ex Sdid_covs.
From Coq Require Import Arith ZArith String List Permutation.
Import ListNotations.
Open Scope R_scope.

Definition pl_cfg : sd_config := {| sd_lambda := 0; sd_zeta := 1; sd_alpha := 5 / 100; sd_method := "placebo"; sd_nboot := 200 |}.

(* ---- 3 units, 2 periods; unit 3 is treated ---- *)
Definition rows6 : list (Z * Z) := [(1, 0); (1, 1); (2, 0); (2, 1); (3, 0); (3, 1)]%Z.
Definition d6 (i : Z * Z) : R := ind (Z.eqb (fst i) 3).
Definition tab (Y : Z -> Z -> R) (i : Z * Z) : R := Y (snd i) (fst i).

Lemma Reqb01 : Reqb 0 1 = false. Proof. apply Reqb_false. lra. Qed.
Lemma Reqb10 : Reqb 1 0 = false. Proof. apply Reqb_false. lra. Qed.
Lemma Reqb00 : Reqb 0 0 = true. Proof. apply Reqb_true. reflexivity. Qed.
Lemma Reqb11 : Reqb 1 1 = true. Proof. apply Reqb_true. reflexivity. Qed.

Lemma rows6_units : sd_units rows6 fst = [1; 2; 3]%Z. Proof. vm_compute. reflexivity. Qed.
Lemma rows6_periods : sd_periods rows6 snd = [0; 1]%Z. Proof. vm_compute. reflexivity. Qed.
Lemma rows6_treated : sd_treated rows6 fst d6 = [3%Z].
Proof. unfold sd_treated. rewrite rows6_units. unfold sd_first, d6, rows6, ind. cbn. rewrite Reqb01, Reqb11. reflexivity. Qed.
Lemma rows6_control : sd_control rows6 fst d6 = [1%Z; 2%Z].
Proof. unfold sd_control. rewrite rows6_units. unfold sd_first, d6, rows6, ind. cbn. rewrite Reqb00, Reqb10. reflexivity. Qed.
Lemma rows6_dup : sd_dup rows6 fst snd = false. Proof. vm_compute. reflexivity. Qed.
Lemma rows6_binary : sd_binary rows6 d6.
Proof. intros i _. unfold d6, ind. destruct (Z.eqb (fst i) 3); auto. Qed.
Lemma rows6_complete : sd_complete rows6 fst snd.
Proof.
  intros i j Hi Hj. exists (fst i, snd j). split; [|auto].
  cbn in Hi, Hj. destruct Hi as [<-|[<-|[<-|[<-|[<-|[<-|[]]]]]]]; destruct Hj as [<-|[<-|[<-|[<-|[<-|[<-|[]]]]]]]; cbn; tauto.
Qed.
Lemma rows6_constant : sd_constant rows6 fst d6.
Proof. intros i j _ _ E. unfold d6. rewrite E. reflexivity. Qed.
Lemma rows6_split : sdid_periods zmem (sd_periods rows6 snd) None = Ok ([0%Z], [1%Z]).
Proof. rewrite rows6_periods. reflexivity. Qed.

Section Six.
Context (qr : list (Z * Z) -> list (Z * Z -> R) -> list nat).
Context (lstsq : list (Z * Z) -> list (Z * Z -> R) -> (Z * Z -> R) -> list R).
Context (inv : list (Z * Z) -> list (Z * Z -> R) -> option (nat -> nat -> R)).
Context (sf z : R -> R).
Context (Hqr : qr_ok qr) (Hls : lstsq_ok lstsq).

Lemma six_fit0 backend y draws perms :
  exists r, sd_fit backend qr lstsq inv sf z rows6 fst snd d6 pl_cfg y [] None draws perms = Ok r.
Proof.
  apply (sd_fit_placebo0 backend qr lstsq inv sf z) with (pre := [0%Z]) (pst := [1%Z]); auto.
  - apply rows6_binary.
  - rewrite rows6_treated. discriminate.
  - rewrite rows6_control. discriminate.
Qed.
Lemma six_fit backend y covs draws perms : (length covs <= 2)%nat ->
  exists r, sd_fit backend qr lstsq inv sf z rows6 fst snd d6 pl_cfg y covs None draws perms = Ok r.
Proof.
  intros Hl. apply (sd_fit_placebo backend qr lstsq inv sf z) with (pre := [0%Z]) (pst := [1%Z]); auto.
  - apply rows6_binary.
  - rewrite rows6_treated. discriminate.
  - rewrite rows6_control. discriminate.
  - intros _. unfold sd_design, sd_dummies. rewrite rows6_units, rows6_periods. cbn. rewrite app_length. cbn. lia.
Qed.

Lemma six_att backend y covs draws perms r : sd_fit backend qr lstsq inv sf z rows6 fst snd d6 pl_cfg y covs None draws perms = Ok r ->
  exists w, (match covs with [] => Ok y | _ => sd_residualize qr lstsq inv rows6 fst snd y covs end) = Ok w /\
    sr_att r = two_est backend pl_cfg (sd_cell rows6 fst snd w).
Proof.
  intros F. apply sd_fit_ok in F as (pre & pst & w & _ & EP & _ & _ & Ew & _ & F). exists w. split; [exact Ew|].
  rewrite rows6_split in EP. injection EP as <- <-. rewrite rows6_treated, rows6_control in F.
  unfold sd_finish in F. match type of F with bind ?x _ = _ => destruct x as [[se eff]|e]; [|discriminate] end. cbn [bind] in F. injection F as <-. reflexivity.
Qed.

Lemma six_cell w Y : (forall i, In i rows6 -> w i = tab Y i) -> forall s j, In s [0%Z; 1%Z] -> In j [1%Z; 2%Z; 3%Z] -> sd_cell rows6 fst snd w s j = Y s j.
Proof.
  intros H s j Hs Hj. assert (Hi : In (j, s) rows6).
  { cbn in *. destruct Hs as [<-|[<-|[]]]; destruct Hj as [<-|[<-|[<-|[]]]]; tauto. }
  change s with (snd (j, s)) at 1. change j with (fst (j, s)) at 2. rewrite sd_cell_row by (auto using rows6_dup). apply (H _ Hi).
Qed.

(* a column of zeros as covariate changes the estimate: both backends, any number of iterations *)
Definition y6 : Z * Z -> R := tab (two_mat 0 3 3 0 6 0).
Definition beta6 : list R := [-1; 0; 6; 3; 2].
Lemma beta6_ls : is_ls rows6 (sd_design rows6 fst snd [fun _ => 0]) y6 beta6.
Proof.
  split.
  - unfold sd_design, sd_dummies. rewrite rows6_units, rows6_periods. reflexivity.
  - apply Forall_forall. intros c Hc. unfold sd_design, sd_dummies in *. rewrite rows6_units, rows6_periods in *. cbn in Hc.
    destruct Hc as [<-|[<-|[<-|[<-|[<-|[]]]]]]; unfold ip, rows6, beta6, y6, tab, two_mat, ind; cbn; lra.
Qed.

Theorem sd_zero_covariate_refuted rust nrm n draws perms r r' : norm2_ok nrm -> nrm_ext nrm ->
  sd_fit (be_of rust nrm n) qr lstsq inv sf z rows6 fst snd d6 pl_cfg y6 [] None draws perms = Ok r ->
  sd_fit (be_of rust nrm n) qr lstsq inv sf z rows6 fst snd d6 pl_cfg y6 [fun _ => 0] None draws perms = Ok r' ->
  sr_att r <= - (435 / 100) /\ sr_att r' >= - (225 / 100).
Proof.
  intros Hn Hex F F'. apply six_att in F as (w & Ew & ->). apply six_att in F' as (w' & Ew' & ->). injection Ew as <-.
  destruct (sd_resid_ls qr lstsq inv Hqr Hls _ _ _ _ _ _ Ew') as (be & B1 & B2). split.
  - assert (K : 9 / 20 <= step_of rust 0 3 * ((0 - 3) * (0 - 3)) / 2 <= 1 / 2).
    { destruct rust; cbn [step_of]; [lra|]. destruct (inv_bounds (0 * 0 + 3 * 3 + eps10) 9 10) as [A1 A2]; [lra|unfold eps10; lra|]. lra. }
    assert (G : on_grid (sd_cell rows6 fst snd y6) 0 3 3 0 6 0) by (intros s j Hs Hj; apply six_cell; auto).
    destruct (two_est_bounds rust nrm n pl_cfg _ 0 3 3 0 6 0 0 G Hn Hex eq_refl ltac:(lra) ltac:(lra) ltac:(lra)) as (x & -> & B & L & _).
    specialize (L ltac:(lra)). lra.
  - assert (K : 26 / 100 <= step_of rust 4 1 * ((4 - 1) * (4 - 1)) / 2 <= 1 / 2).
    { destruct rust; cbn [step_of]; [lra|]. destruct (inv_bounds (4 * 4 + 1 * 1 + eps10) 17 (171 / 10)) as [A1 A2]; [lra|unfold eps10; lra|]. lra. }
    assert (G : on_grid (sd_cell rows6 fst snd w') 4 1 4 (-2) 4 (-2)).
    { intros s j Hs Hj. apply six_cell; auto. intros i Hi. rewrite B2, (ls_fitted_unique rows6 _ y6 be beta6 B1 beta6_ls i Hi).
      unfold sd_design, sd_dummies. rewrite rows6_units, rows6_periods.
      cbn in Hi. destruct Hi as [<-|[<-|[<-|[<-|[<-|[<-|[]]]]]]]; unfold beta6, y6, tab, two_mat, meanf, len, rows6, ind; cbn; lra. }
    destruct (two_est_bounds rust nrm n pl_cfg _ 4 1 4 (-2) 4 (-2) 1 G Hn Hex eq_refl ltac:(lra) ltac:(lra) ltac:(lra)) as (x & -> & B & _ & L & _).
    specialize (L ltac:(lra)). lra.
Qed.

(* one iteration of the compiled backend, in full *)
Theorem six_case : exists r, sd_fit (be_of true htrace 0) qr lstsq inv sf z rows6 fst snd d6 pl_cfg y6 [] None [] [[0; 1]; [1; 0]]%nat = Ok r /\
  sr_att r = - (435 / 100) /\ sr_unit_w r = [(1%Z, 275 / 1000); (2%Z, 725 / 1000)] /\ sr_time_w r = [(0%Z, 1)] /\ sr_rmse r = 825 / 1000.
Proof.
  destruct (six_fit0 (be_of true htrace 0) y6 [] [[0; 1]; [1; 0]]%nat) as [r F]. exists r. split; [exact F|].
  apply sd_fit_ok in F as (pre & pst & w & _ & EP & _ & _ & Ew & _ & F). injection Ew as <-.
  rewrite rows6_split in EP. injection EP as <- <-. rewrite rows6_treated, rows6_control in F.
  assert (G : forall s j, (s = 0 \/ s = 1)%Z -> (j = 1 \/ j = 2 \/ j = 3)%Z -> sd_cell rows6 fst snd y6 s j = two_mat 0 3 3 0 6 0 s j).
  { intros s j Hs Hj. apply six_cell; auto; cbn; intuition. }
  set (Y := sd_cell rows6 fst snd y6) in *.
  assert (EO : sd_omega (be_of true htrace 0) pl_cfg Y [0%Z] [3%Z] [1%Z; 2%Z] = [275 / 1000; 725 / 1000]).
  { unfold sd_omega. cbn [length synthetic_weights]. 
    rewrite (be_ext true htrace 0 htrace_norm2_ok htrace_ext _ _ (two_c 0 3) _ (fun _ => 3)).
    - change (sd_lambda pl_cfg) with 0. rewrite (be_two true htrace 0 0 3 3 htrace_norm2_ok). cbn [pgd step_of].
      rewrite uniform_two. rewrite (two_iter (1 / 10) 0 3 3 0 (1 / 2)) by lra.
      replace (1 / 2 - 1 / 10 * ((0 - 3) * (0 - 3)) / 2 * (1 / 2 - 0)) with (275 / 1000) by lra.
      replace (if Rlt_dec (dist2 [275 / 1000; 1 - 275 / 1000] [1 / 2; 1 - 1 / 2]) opt_tol then [275 / 1000; 1 - 275 / 1000] else [275 / 1000; 1 - 275 / 1000])
        with [275 / 1000; 1 - 275 / 1000] by (destruct (Rlt_dec _ _); reflexivity).
      destruct (finish_two (275 / 1000) ltac:(lra)) as (x' & -> & _ & _ & E). rewrite E by lra. f_equal. f_equal. lra.
    - intros s [<-|[]]. unfold meanf. cbn [sumf]. rewrite G by tauto. unfold two_mat, len. cbn. field.
    - repeat constructor; intros s [<-|[]]; rewrite G by tauto; unfold two_mat; cbn; ring.
    - discriminate. }
  unfold sd_finish, sd_point in F. rewrite EO in F.
  match type of F with bind ?x _ = _ => destruct x as [[se eff]|e]; [|discriminate] end. cbn [bind] in F. injection F as <-.
  cbn [sr_att sr_unit_w sr_time_w sr_rmse]. repeat split.
  - unfold sd_tw, time_weights, sdid, wdot, meanf. cbn [combine sumf fst snd]. rewrite !G by tauto. unfold two_mat, len. cbn. field.
  - unfold meanf. cbn [sumf map lc]. rewrite !G by tauto. unfold two_mat, len. cbn.
    match goal with |- sqrt ?x = _ => replace x with (825 / 1000 * (825 / 1000)) by field end. apply sqrt_square. lra.
Qed.

(* period effects 5 and -7 added to the same panel: the same report *)
Theorem six_period_effects : exists r,
  sd_fit (be_of true htrace 0) qr lstsq inv sf z rows6 fst snd d6 pl_cfg (fun i => y6 i + (if Z.eqb (snd i) 0 then 5 else -7)) [] None [] [[0; 1]; [1; 0]]%nat = Ok r /\
  sd_fit (be_of true htrace 0) qr lstsq inv sf z rows6 fst snd d6 pl_cfg y6 [] None [] [[0; 1]; [1; 0]]%nat = Ok r /\ sr_att r = - (435 / 100).
Proof.
  destruct six_case as (r & F & A & _). exists r. split; [|split; auto]. rewrite <- F.
  apply (sd_fit_period_effects (be_of true htrace 0) qr lstsq inv sf z rows6 fst snd d6 pl_cfg y6 _ (fun p => if Z.eqb p 0 then 5 else -7)).
  - apply rust_simplex.
  - apply rust_shift.
  - cbn; lra.
  - apply rows6_complete.
  - rewrite rows6_control. intros p [<-|[<-|[]]]; cbn; [apply Permutation_refl|apply perm_swap].
  - reflexivity.
Qed.

(* unit effects 1, 2, 4, period effects 0, 3 and an effect of 2: recovered, with standard error 0 and p-value 1 *)
Definition y_exact (i : Z * Z) : R := (if Z.eqb (fst i) 1 then 1 else if Z.eqb (fst i) 2 then 2 else 4) + (if Z.eqb (snd i) 1 then 3 else 0)
  + (if Z.eqb (fst i) 3 && Z.eqb (snd i) 1 then 2 else 0).
Theorem six_exact : exists r, sd_fit (be_of true htrace 0) qr lstsq inv sf z rows6 fst snd d6 pl_cfg y_exact [] None [] [[0; 1]; [1; 0]]%nat = Ok r /\
  sr_att r = 2 /\ sr_se r = 0 /\ s_p (sr_inf r) = 1.
Proof.
  destruct (six_fit0 (be_of true htrace 0) y_exact [] [[0; 1]; [1; 0]]%nat) as [r F]. exists r. split; [exact F|].
  assert (Ep : sr_post r = [1%Z]).
  { apply sd_fit_ok in F as (pre & pst & w & _ & EP & _ & _ & _ & _ & F). rewrite rows6_split in EP. injection EP as <- <-.
    unfold sd_finish in F. match type of F with bind ?x _ = _ => destruct x as [[se eff]|e]; [|discriminate] end. cbn [bind] in F. injection F as <-. reflexivity. }
  destruct (sd_fit_exact (be_of true htrace 0) qr lstsq inv sf z rows6 fst snd d6 pl_cfg y_exact None [] [[0; 1]; [1; 0]]%nat r
    (fun j => if Z.eqb j 1 then 1 else if Z.eqb j 2 then 2 else 4) (fun p => if Z.eqb p 1 then 3 else 0) (fun _ => 2)
    (rust_simplex 1) ltac:(cbn; lra) rows6_complete) as (A & B & _ & C & _).
  - rewrite rows6_control. intros p [<-|[<-|[]]]; cbn; [apply Permutation_refl|apply perm_swap].
  - exact F.
  - rewrite rows6_treated, Ep. intros i Hi. unfold y_exact, zmem. cbn [existsb]. rewrite !Bool.orb_false_r.
    cbn in Hi. destruct Hi as [<-|[<-|[<-|[<-|[<-|[<-|[]]]]]]]; cbn; lra.
  - rewrite A, Ep. split; [|auto]. unfold meanf, len; cbn. field.
Qed.
End Six.

(* ---- 2 units, 2 periods, one covariate with a non-zero double difference: the estimate is zero ---- *)
Definition rows4 : list (Z * Z) := [(1, 0); (1, 1); (2, 0); (2, 1)]%Z.
Definition d4 (i : Z * Z) : R := ind (Z.eqb (fst i) 2).
Lemma rows4_units : sd_units rows4 fst = [1; 2]%Z. Proof. vm_compute. reflexivity. Qed.
Lemma rows4_periods : sd_periods rows4 snd = [0; 1]%Z. Proof. vm_compute. reflexivity. Qed.
Lemma rows4_treated : sd_treated rows4 fst d4 = [2%Z].
Proof. unfold sd_treated. rewrite rows4_units. unfold sd_first, d4, rows4, ind. cbn. rewrite Reqb01, Reqb11. reflexivity. Qed.
Lemma rows4_control : sd_control rows4 fst d4 = [1%Z].
Proof. unfold sd_control. rewrite rows4_units. unfold sd_first, d4, rows4, ind. cbn. rewrite Reqb00, Reqb10. reflexivity. Qed.
Lemma rows4_complete : sd_complete rows4 fst snd.
Proof.
  intros i j Hi Hj. exists (fst i, snd j). split; [|auto].
  cbn in Hi, Hj. destruct Hi as [<-|[<-|[<-|[<-|[]]]]]; destruct Hj as [<-|[<-|[<-|[<-|[]]]]]; cbn; tauto.
Qed.

Definition dd (f : Z * Z -> R) : R := (f (2, 1)%Z - f (2, 0)%Z) - (f (1, 1)%Z - f (1, 0)%Z).

Theorem sd_two_by_two_refuted backend qr lstsq inv sf z y x : be_simplex backend -> qr_ok qr -> lstsq_ok lstsq -> dd x <> 0 ->
  exists r r', sd_fit backend qr lstsq inv sf z rows4 fst snd d4 pl_cfg y [] None [] [] = Ok r /\ sr_att r = dd y /\
    sd_fit backend qr lstsq inv sf z rows4 fst snd d4 pl_cfg y [x] None [] [] = Ok r' /\ sr_att r' = 0.
Proof.
  intros Hb Hqr Hls Hx.
  assert (ES : sdid_periods zmem (sd_periods rows4 snd) None = Ok ([0%Z], [1%Z])) by (rewrite rows4_periods; reflexivity).
  assert (ED : sd_dup rows4 fst snd = false) by (vm_compute; reflexivity).
  assert (Fit : forall covs, (length covs <= 1)%nat -> exists r, sd_fit backend qr lstsq inv sf z rows4 fst snd d4 pl_cfg y covs None [] [] = Ok r).
  { intros covs Hl. apply (sd_fit_placebo backend qr lstsq inv sf z) with (pre := [0%Z]) (pst := [1%Z]); auto.
    - intros i _. unfold d4, ind. destruct (Z.eqb (fst i) 2); auto.
    - rewrite rows4_treated. discriminate.
    - rewrite rows4_control. discriminate.
    - intros _. unfold sd_design, sd_dummies. rewrite rows4_units, rows4_periods. cbn. rewrite app_length. cbn. lia. }
  destruct (Fit [] ltac:(cbn; lia)) as [r F]. destruct (Fit [x] ltac:(cbn; lia)) as [r' F']. exists r, r'. split; [exact F|]. split; [|split; [exact F'|]].
  - apply sd_fit_ok in F as (pre & pst & w & _ & EP & _ & _ & Ew & _ & F). injection Ew as <-.
    rewrite ES in EP. injection EP as <- <-. rewrite rows4_treated, rows4_control in F.
    unfold sd_finish in F. match type of F with bind ?x _ = _ => destruct x as [[se eff]|e]; [|discriminate] end. cbn [bind] in F. injection F as <-.
    cbn [sr_att]. unfold sd_point, sd_omega, sd_tw, time_weights, sdid, wdot, meanf, synthetic_weights. cbn [length combine sumf fst snd].
    unfold sd_cell, sd_rows, rows4, dd, len. cbn. field.
  - apply (sd_saturated backend qr lstsq inv sf z Hqr Hls Hb rows4 fst snd d4 rows4_complete pl_cfg y [x] None [] [] r' ltac:(cbn; lra) F'); [discriminate|].
    set (k := dd y / dd x).
    exists [y (1, 0)%Z - k * x (1, 0)%Z; k; (y (2, 0)%Z - y (1, 0)%Z) - k * (x (2, 0)%Z - x (1, 0)%Z); (y (1, 1)%Z - y (1, 0)%Z) - k * (x (1, 1)%Z - x (1, 0)%Z)].
    split; [unfold sd_design, sd_dummies; rewrite rows4_units, rows4_periods; reflexivity|].
    assert (K : k * dd x = dd y) by (unfold k; field; exact Hx). unfold dd in K at 1 2.
    intros i Hi. unfold sd_design, sd_dummies. rewrite rows4_units, rows4_periods.
    cbn in Hi. destruct Hi as [<-|[<-|[<-|[<-|[]]]]]; unfold ind; cbn; lra.
Qed.

(* the order of the rows matters when the treatment column is not constant within units *)
Definition d_switch (i : Z * Z) : R := ind (Z.eqb (fst i) 2 && Z.eqb (snd i) 1).
Theorem sd_row_order_needs_constant backend qr lstsq inv sf z y :
  sd_fit backend qr lstsq inv sf z rows4 fst snd d_switch pl_cfg y [] None [] [] = Err ValueError /\
  exists r, sd_fit backend qr lstsq inv sf z (rev rows4) fst snd d_switch pl_cfg y [] None [] [] = Ok r.
Proof.
  assert (E1 : sd_treated rows4 fst d_switch = []).
  { unfold sd_treated. rewrite rows4_units. unfold sd_first, d_switch, rows4, ind. cbn. rewrite Reqb01. reflexivity. }
  split.
  - unfold sd_fit. rewrite E1. destruct (forallb _ rows4); [|reflexivity]. cbn [negb]. rewrite rows4_periods. reflexivity.
  - apply (sd_fit_placebo0 backend qr lstsq inv sf z) with (pre := [0%Z]) (pst := [1%Z]); auto.
    + intros i _. unfold d_switch, ind. destruct (_ && _); auto.
    + replace (sd_units (rev rows4) fst) with [1; 2]%Z by (vm_compute; reflexivity). unfold sd_treated.
      replace (sd_units (rev rows4) fst) with [1; 2]%Z by (vm_compute; reflexivity). unfold sd_first, d_switch, rows4, ind. cbn. rewrite Reqb01, Reqb11. discriminate.
    + unfold sd_control. replace (sd_units (rev rows4) fst) with [1; 2]%Z by (vm_compute; reflexivity). unfold sd_first, d_switch, rows4, ind. cbn. rewrite Reqb00. discriminate.
Qed.

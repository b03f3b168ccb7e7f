(* Calendars on which a treatment date is zero or negative (C133). *)
From Coq Require Import Reals Lra Lia.
From Verif Require Import Prelude Flt Stats_model Linalg_model Linalg_vcov Did_model Multi_model Multi_proofs Bacon_model Staggered_model Staggered_proofs Staggered_est Staggered_thms Staggered_more Staggered_fit Sun_model Shift_proofs Shift_sun Shift_bacon.
From Coq Require Import Arith ZArith String List FunctionalExtensionality.
Import ListNotations.
Open Scope R_scope.

(* every treatment date is zero or negative on the new calendar *)
Definition lost (d : Z) (c : coh) : Prop := match c with CFin k => (k = 0 \/ (0 < k /\ k + d <= 0))%Z | CInf => False | CNaN => True end.
Section Lost.
Context {I : Type}.
Variables (rows : list I) (u t : I -> Z) (g : I -> coh) (d : Z).
Hypothesis Hl : forall i, In i rows -> lost d (g i).
Notation t' := (fun i => (t i + d)%Z).
Notation g' := (fun i => cshift d (g i)).
Lemma lost_timing : timing_groups rows g' = [].
Proof.
  unfold timing_groups. replace (finite_cohorts rows g') with (@nil Z); [reflexivity|]. symmetry. unfold finite_cohorts. revert Hl. induction rows as [|i l IH]; intros H; [reflexivity|]. cbn [flat_map].
  rewrite IH by (intros; apply H; now right). specialize (H i (or_introl eq_refl)). destruct (g i) as [k| |]; cbn in *; auto. destruct (Z.eqb_spec k 0) as [->|N]; [reflexivity|].
  destruct (Z.ltb_spec 0 (k + d)); [lia|reflexivity].
Qed.
Lemma lost_groups : cs_groups rows g' = [].
Proof.
  unfold cs_groups. rewrite lost_timing. cbn [map app]. destruct (existsb _ rows) eqn:E; [|reflexivity]. apply existsb_exists in E as (i & Hi & E). apply c_eqb_true in E. specialize (Hl i Hi).
  destruct (g i) as [k| |]; cbn in *; try discriminate; [destruct (Z.eqb k 0); discriminate|contradiction].
Qed.
Theorem lost_cs qr lstsq inv logit sf ppf y covs cfg agg bal ws :
  cs_fit qr lstsq inv logit sf ppf rows u t' g' y covs cfg agg bal ws = Err ValueError.
Proof.
  unfold cs_fit. destruct (Nat.eqb _ 0); [reflexivity|]. destruct (cs_duplicates _ _ _); [reflexivity|]. unfold all_effects. rewrite lost_groups. reflexivity.
Qed.
Theorem lost_sun qr lstsq inv pinv sf ppf y covs cluster cfg :
  sa_fit qr lstsq inv pinv sf ppf u t' g' y covs cluster cfg rows = Err ValueError.
Proof. unfold sa_fit. destruct (Nat.eqb _ 0); [reflexivity|]. unfold sa_groups. rewrite lost_groups. reflexivity. Qed.
Theorem lost_bacon y ex : bo_comparisons (bacon_fit rows u t' g' y ex) = [] /\ bo_error (bacon_fit rows u t' g' y ex) = Fin (Rabs (btwfe rows u t' g' y)) /\
  ((forall i k, g i = CFin k -> (k + d <> 0)%Z \/ k = 0%Z) -> bo_twfe (bacon_fit rows u t' g' y ex) = bo_twfe (bacon_fit rows u t g y ex)).
Proof.
  assert (C : comparisons0 rows u t' g' y = []). { unfold comparisons0, never_pairs. rewrite lost_timing. destruct (Nat.ltb _ _); reflexivity. }
  assert (N : normalised (reweighted rows u t' g' y ex) = []). { unfold reweighted. rewrite C. unfold normalised. cbv zeta. destruct ex; cbn [map]; destruct (Rlt_dec _ _); reflexivity. }
  unfold bacon_fit. cbv zeta. cbn [bo_comparisons bo_error bo_twfe]. rewrite N. split; [reflexivity|]. split.
  - unfold weighted_sum. cbn. do 2 f_equal. ring.
  - intros H. unfold btwfe. cbv zeta. rewrite !within_time_shift.
    assert (E : btreat t' g' = btreat t g).
    { apply functional_extensionality. intros i. unfold btreat. specialize (H i). destruct (g i) as [k| |]; auto. specialize (H k eq_refl). cbn [cshift c_never]. destruct (Z.eqb_spec k 0) as [->|Nk]; [reflexivity|].
      cbn [c_never c_started]. rewrite leb_shift. replace (Z.eqb (k + d) 0) with false; [reflexivity|]. symmetry. apply Z.eqb_neq. lia. }
    now rewrite E.
Qed.
End Lost.

(* unit 1 treated in period 2, unit 2 in period 4, unit 3 never; the effect on unit 1 grows in period 4 *)
Definition s_rows : list (Z * Z) := panel 3 4.
Definition s_C (a : Z) : coh := if Z.eqb a 1 then CFin 2 else if Z.eqb a 2 then CFin 4 else CFin 0.
Definition s_yR (i : Z * Z) : R :=
  if Z.eqb (fst i) 1 then (if Z.eqb (snd i) 1 then 0 else if Z.eqb (snd i) 4 then 16 else 10)
  else if Z.eqb (fst i) 2 then (if Z.eqb (snd i) 4 then 2 else 0) else 0.
Definition s_y (i : Z * Z) : option R := Some (s_yR i).
Notation s_cfg := (demo_cfg "never_treated" 0 "dr" "varying").
Section Ex.
Variable qr : list Z -> list (Z -> R) -> list nat.
Variable lstsq : list Z -> list (Z -> R) -> (Z -> R) -> list R.
Variable inv : list Z -> list (Z -> R) -> option (nat -> nat -> R).
Variable logit : list Z -> list Z -> list (Z -> R) -> option (Z -> R).
Variable sf : option Z -> fl -> fl.
Variable ppf : option Z -> R -> R.
Notation fit d := (cs_fit qr lstsq inv logit sf ppf s_rows fst (fun i => (snd i + d)%Z) (fun i => cshift d (s_C (fst i))) s_y [] s_cfg None None []).
Definition s_cell d gr s b T C := let dy := change s_rows fst (fun i => (snd i + d)%Z) s_y b s in let e := est_means T C dy in
  {| ge_g := gr; ge_t := s; ge_base := b; ge_eff := ce_att e; ge_se := ce_se e; ge_T := T; ge_C := C; ge_tinf := ce_tinf e; ge_cinf := ce_cinf e |}.
Lemma s_effects0 : all_effects qr lstsq inv logit s_rows fst (fun i => (snd i + 0)%Z) (fun i => cshift 0 (s_C (fst i))) s_y [] s_cfg =
  Ok [s_cell 0 (CFin 2) 2 1 [1%Z] [3%Z]; s_cell 0 (CFin 2) 3 1 [1%Z] [3%Z]; s_cell 0 (CFin 2) 4 1 [1%Z] [3%Z];
      s_cell 0 (CFin 4) 2 1 [2%Z] [3%Z]; s_cell 0 (CFin 4) 3 2 [2%Z] [3%Z]; s_cell 0 (CFin 4) 4 3 [2%Z] [3%Z]].
Proof. reflexivity. Qed.
Lemma s_effects2 : all_effects qr lstsq inv logit s_rows fst (fun i => (snd i + -2)%Z) (fun i => cshift (-2) (s_C (fst i))) s_y [] s_cfg =
  Ok [s_cell (-2) (CFin 2) 0 (-1) [2%Z] [1%Z; 3%Z]; s_cell (-2) (CFin 2) 1 0 [2%Z] [1%Z; 3%Z]; s_cell (-2) (CFin 2) 2 1 [2%Z] [1%Z; 3%Z]].
Proof. reflexivity. Qed.
Lemma s_out d a s : cs_outcome s_rows fst (fun i => (snd i + d)%Z) s_y a (s + d) = cs_outcome s_rows fst snd s_y a s.
Proof. apply (outcome_sh s_rows fst snd s_y d). Qed.
Lemma s_eff d gr s b T C : ge_eff (s_cell d gr (s + d) (b + d) T C) = Fin (meanf (change s_rows fst snd s_y b s) T - meanf (change s_rows fst snd s_y b s) C).
Proof. unfold s_cell. cbv zeta. cbn [ge_eff est_means ce_att]. rewrite (change_sh s_rows fst snd s_y d). reflexivity. Qed.
Theorem zero_date : exists r r', fit 0%Z = Ok r /\ fit (-2)%Z = Ok r' /\ cr_groups r = [CFin 2; CFin 4] /\ cr_groups r' = [CFin 2] /\
  cr_n_control r = 1%nat /\ cr_n_control r' = 2%nat /\ cr_att r = Fin (19 / 2) /\ cr_att r' = Fin (-1).
Proof.
  destruct (fit_ok qr lstsq inv logit sf ppf s_rows fst (fun i => (snd i + 0)%Z) (fun i => cshift 0 (s_C (fst i))) s_y [] s_cfg None None [] _ ltac:(vm_compute; discriminate) ltac:(vm_compute; reflexivity) s_effects0 ltac:(discriminate)) as (r & Hr & Er).
  destruct (fit_ok qr lstsq inv logit sf ppf s_rows fst (fun i => (snd i + -2)%Z) (fun i => cshift (-2) (s_C (fst i))) s_y [] s_cfg None None [] _ ltac:(vm_compute; discriminate) ltac:(vm_compute; reflexivity) s_effects2 ltac:(discriminate)) as (r' & Hr' & Er').
  exists r, r'. split; [exact Hr|]. split; [exact Hr'|].
  destruct (fit_inv _ _ _ _ _ _ _ _ _ _ _ _ _ _ _ _ _ Hr) as (_ & _ & Hl & _ & Ha & _ & Hg & _ & Hc & _).
  destruct (fit_inv _ _ _ _ _ _ _ _ _ _ _ _ _ _ _ _ _ Hr') as (_ & _ & Hl' & _ & Ha' & _ & Hg' & _ & Hc' & _).
  rewrite Hg, Hg', Hc, Hc'. do 4 (split; [vm_compute; reflexivity|]). rewrite Ha, Ha', Er, Er'. clear.
  assert (V : forall a s v, s_yR (a, s) = v -> In (a, s) s_rows -> oR (cs_outcome s_rows fst snd s_y a s) = v).
  { intros a s v <- H. vm_compute in H. repeat (destruct H as [H|H]; [injection H as <- <-; reflexivity|]). destruct H. }
  assert (Q : forall b s a, change s_rows fst snd s_y b s a = oR (cs_outcome s_rows fst snd s_y a s) - oR (cs_outcome s_rows fst snd s_y a b)) by reflexivity.
  assert (N : forall a s, In (a, s) s_rows -> oR (cs_outcome s_rows fst snd s_y a s) = s_yR (a, s)) by (intros; now apply V).
  unfold agg_simple. change (cs_anticipation s_cfg) with 0%Z. split.
  - change (filter (ge_post 0) _) with [s_cell 0 (CFin 2) (2 + 0) (1 + 0) [1%Z] [3%Z]; s_cell 0 (CFin 2) (3 + 0) (1 + 0) [1%Z] [3%Z]; s_cell 0 (CFin 2) (4 + 0) (1 + 0) [1%Z] [3%Z]; s_cell 0 (CFin 4) (4 + 0) (3 + 0) [2%Z] [3%Z]].
    cbn [fst]. unfold weighted, by_size. cbn [map fst snd]. rewrite !s_eff. unfold ge_n, s_cell. cbv zeta. cbn [ge_T sumf]. unfold meanf, len. cbn [sumf length INR]. rewrite !Q, !N by (vm_compute; tauto).
    unfold s_yR. cbn [fst snd Z.eqb Pos.eqb]. cbn. f_equal. field.
  - change (filter (ge_post 0) _) with [s_cell (-2) (CFin 2) (4 + -2) (3 + -2) [2%Z] [1%Z; 3%Z]].
    cbn [fst]. unfold weighted, by_size. cbn [map fst snd]. rewrite !s_eff. unfold ge_n, s_cell. cbv zeta. cbn [ge_T sumf]. unfold meanf, len. cbn [sumf length INR]. rewrite !Q, !N by (vm_compute; tauto).
    unfold s_yR. cbn [fst snd Z.eqb Pos.eqb]. cbn. f_equal. field.
Qed.
(* the hypothesis of the invariance holds for a move of 2000 years and fails for the move above *)
Theorem origin_case : (forall i : Z * Z, origin_ok 2000 (s_C (fst i))) /\ ~ (forall i : Z * Z, origin_ok (-2) (s_C (fst i))) /\
  exists r, fit 2000%Z = Ok r /\ cr_att r = Fin (19 / 2) /\ cr_groups r = [CFin 2002; CFin 2004].
Proof.
  assert (O : forall i : Z * Z, origin_ok 2000 (s_C (fst i))) by (intros i; unfold s_C; destruct (Z.eqb _ 1); [cbn; lia|]; destruct (Z.eqb _ 2); cbn; lia).
  split; [exact O|]. split.
  - intros H. specialize (H (1, 1)%Z). cbn in H. lia.
  - destruct zero_date as (r & _ & Hr & _ & Hg & _ & _ & _ & Ha & _).
    assert (E : (fun i : Z * Z => (snd i + 0)%Z) = snd) by (apply functional_extensionality; intros; lia).
    assert (F : (fun i : Z * Z => cshift 0 (s_C (fst i))) = (fun i => s_C (fst i))).
    { apply functional_extensionality. intros i. unfold s_C. destruct (Z.eqb _ 1); [reflexivity|]. destruct (Z.eqb _ 2); reflexivity. }
    rewrite E, F in Hr. exists (shift_cs 2000 r). rewrite (cs_origin qr lstsq inv logit sf ppf s_rows fst snd (fun i => s_C (fst i)) s_y [] 2000 (fun i _ => O i)), Hr. split; [reflexivity|].
    cbn [shift_cs cr_att cr_groups]. rewrite Hg. split; [exact Ha|reflexivity].
Qed.
End Ex.

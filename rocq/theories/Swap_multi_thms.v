(* The theorems about MultiPeriodDiD drawn from Swap_multi. *)
From Coq Require Import Reals Lra Lia.
From Verif Require Import Prelude Flt Linalg_model Linalg_proofs Linalg_vcov Linalg_thms Linalg_dual Linalg_rank Linalg_span Did_model Did_spec Did_proofs Did_equiv Span_thms Reg_effects
  Multi_model Multi_proofs Multi_thms Swap_proofs Swap_multi.
From Coq Require Import Arith ZArith String List.
Import ListNotations.
Open Scope R_scope.

Section Mp.
Context {I K G : Type} (keq : forall x y : K, {x = y} + {x <> y}) (geq : forall x y : G, {x = y} + {x <> y}).
Variable qr : list I -> list (I -> R) -> list nat.
Variable lstsq : list I -> list (I -> R) -> (I -> R) -> list R.
Variable inv : list I -> list (I -> R) -> option (nat -> nat -> R).
Variable sf : option Z -> fl -> fl.
Variable ppf : option Z -> R -> R.
Hypothesis Hqr : qr_ok qr.
Hypothesis Hls : lstsq_ok lstsq.
Hypothesis Hinv : inv_ok inv.
Notation fit := (mp_fit keq geq qr lstsq inv sf ppf).

(* no treatment-by-period column is a combination of the other regressors *)
Definition mp_identified (rows : list I) (y d : I -> R) (t : I -> Z) (post : list Z) (ref : Z) (covs dums : list (I -> R)) (absorb : list (I -> G)) : Prop :=
  let extra := (snd (fst (absorb_loop geq rows absorb y covs)) ++ dums)%list in
  forall j, (j < length post)%nat -> identified_col rows (mp_design d t (data_periods rows t) post ref extra) (mp_index (data_periods rows t) ref j).
Lemma setup_ref all post ref ref' pre po rf : mp_setup all post ref = Ok (pre, po, rf) -> In ref' all -> mp_setup all post (Some ref') = Ok (pre, po, ref').
Proof.
  unfold mp_setup. destruct (mp_periods all post) as [pr ps]. destruct ps as [|p ps]; [discriminate|]. destruct pr as [|q pr]; [discriminate|].
  destruct (negb _); [discriminate|]. intros H Hr. assert (zmem ref' all = true) as -> by (apply existsb_exists; exists ref'; split; [exact Hr|apply Z.eqb_refl]).
  destruct ref as [r|]; [destruct (zmem r all); [|discriminate]|]; now injection H as <- <- _.
Qed.

Theorem mp_reference cfg rows y d t post ref ref' covs dums absorb r : fit cfg rows y d t post ref covs dums absorb = Ok r ->
  mp_identified rows y d t (mp_post r) (mp_ref r) covs dums absorb -> In ref' (map t rows) ->
  exists r', fit cfg rows y d t post (Some ref') covs dums absorb = Ok r' /\ mp_ref r' = ref' /\ mp_pre r' = mp_pre r /\ mp_post r' = mp_post r /\
    mp_effects r' = mp_effects r /\ mp_avg r' = mp_avg r /\ mp_avg_se r' = mp_avg_se r /\ mp_avg_t r' = mp_avg_t r /\ mp_avg_p r' = mp_avg_p r /\ mp_avg_ci r' = mp_avg_ci r /\
    mp_df r' = mp_df r /\ (forall i, In i rows -> mp_resid r' i = mp_resid r i).
Proof.
  intros H Id Hr. destruct (absorb_loop geq rows absorb y covs) as [[y' covs'] nabs] eqn:EA. unfold mp_identified in Id. rewrite EA in Id. cbn [fst snd] in Id. cbv zeta in Id.
  destruct (mp_fit_inv keq geq qr lstsq inv sf ppf _ _ _ _ _ _ _ _ _ _ _ H) as (_ & S0 & _).
  assert (Hra : In ref' (data_periods rows t)) by (apply data_periods_in; apply in_map_iff in Hr as (i & E & Hi); eauto).
  assert (S2 := setup_ref _ _ _ ref' _ _ _ S0 Hra).
  assert (Chk : two_values rows (fun i => Fin (d i)) = true /\ binary rows (fun i => Fin (d i)) = true).
  { unfold mp_fit in H. destruct (two_values _ _); [|discriminate]. cbn [negb] in H. destruct (binary _ _); [|discriminate]. auto. }
  destruct Chk as [C1 C2].
  destruct (mp_change keq geq qr lstsq inv sf ppf Hqr Hls Hinv cfg rows y d d t post ref (Some ref') covs dums absorb r 1 y' covs' nabs ref' H EA) as (r' & Hr' & A1 & A2 & A3 & A4 & A5 & A6 & A7 & A8 & A9 & _); auto; try ring.
  { intros i _. field. }
  destruct (A9 eq_refl) as (B1 & B2 & B3 & B4 & B5 & B6). exists r'. repeat (split; [assumption|]). assumption.
Qed.

Theorem mp_treated_complement cfg rows y d t post ref covs dums absorb r : fit cfg rows y d t post ref covs dums absorb = Ok r ->
  mp_identified rows y d t (mp_post r) (mp_ref r) covs dums absorb ->
  exists r', fit cfg rows y (fun i => 1 - d i) t post ref covs dums absorb = Ok r' /\ mp_ref r' = mp_ref r /\ mp_pre r' = mp_pre r /\ mp_post r' = mp_post r /\
    Forall2 opposite_effect (mp_effects r) (mp_effects r') /\
    mp_avg r' = fneg (mp_avg r) /\ mp_avg_se r' = mp_avg_se r /\ mp_avg_t r' = fneg (mp_avg_t r) /\ mp_avg_p r' = mp_avg_p r /\
    mp_avg_ci r' = (fneg (snd (mp_avg_ci r)), fneg (fst (mp_avg_ci r))) /\
    mp_n_obs r' = mp_n_obs r /\ mp_n_treated r' = mp_n_control r /\ mp_n_control r' = mp_n_treated r /\ mp_df r' = mp_df r /\ (forall i, In i rows -> mp_resid r' i = mp_resid r i).
Proof.
  intros H Id. destruct (absorb_loop geq rows absorb y covs) as [[y' covs'] nabs] eqn:EA. unfold mp_identified in Id. rewrite EA in Id. cbn [fst snd] in Id. cbv zeta in Id.
  destruct (mp_fit_inv keq geq qr lstsq inv sf ppf _ _ _ _ _ _ _ _ _ _ _ H) as (_ & S0 & _).
  assert (Chk : two_values rows (fun i => Fin (d i)) = true /\ binary rows (fun i => Fin (d i)) = true /\ mp_n_treated r = sumf d rows /\ mp_n_control r = sumf (fun i => 1 - d i) rows).
  { unfold mp_fit in H. destruct (two_values _ _); [|discriminate]. cbn [negb] in H. destruct (binary _ _); [|discriminate]. cbn [negb] in H.
    destruct (Nat.ltb _ _); [discriminate|]. destruct (mp_setup _ _ _) as [[[? ?] ?]|]; [|discriminate]. cbn [bind] in H. destruct (absorb_loop geq rows absorb y covs) as [[? ?] ?].
    destruct (solve_ols _ _ _ _ _ _ _ _ _ _); [|discriminate]. cbn [bind] in H.
    match type of H with bind ?x _ = _ => destruct x as [V|] end; [|discriminate]. cbn [bind] in H.
    match type of H with context [mp_average ?a ?b ?c ?dd ?e ?f ?g] => destruct (mp_average a b c dd e f g) as [[[[av se] ts] pv] ci] end.
    injection H as <-. cbn [mp_n_treated mp_n_control]. auto. }
  destruct Chk as (C1 & C2 & C3 & C4).
  assert (Nn : has_nan rows (fun i => Fin (d i)) = false) by (destruct (has_nan rows (fun i => Fin (d i))) eqn:E; [|reflexivity]; apply existsb_exists in E as (i & _ & E); discriminate E).
  destruct (fcomp_checks rows (fun i => Fin (d i)) Nn C2) as (_ & K2 & K1 & _). rewrite C1 in K1.
  assert (EQ : fcomp (fun i => Fin (d i)) = (fun i => Fin (1 - d i))) by reflexivity. rewrite EQ in K1, K2.
  destruct (mp_change keq geq qr lstsq inv sf ppf Hqr Hls Hinv cfg rows y d (fun i => 1 - d i) t post ref ref covs dums absorb r (-1) y' covs' nabs (mp_ref r) H EA) as (r' & Hr' & A1 & A2 & A3 & A4 & A5 & A6 & A7 & A8 & _ & A9); auto; try ring.
  { intros i _. field. }
  destruct (A9 eq_refl) as (B1 & B2 & B3 & B4 & B5 & B6). exists r'. repeat (split; [assumption|]).
  split; [rewrite A6; congruence|]. split; [|split; assumption]. rewrite A7, C3. apply sumf_ext_all. intros; ring.
Qed.
End Mp.

(* twelve rows, three periods: any of the periods may be the reference, and the groups may be exchanged *)
Lemma identified_no_covariates {I G} (geq : forall x y : G, {x = y} + {x <> y}) (rows : list I) y d t post ref : zero_one rows d -> In ref (data_periods rows t) -> incl post (data_periods rows t) ->
  identified rows d t post -> mp_identified geq rows y d t post ref [] [] [].
Proof.
  intros Zd Href Hincl (Hn & Hc & Hss) j Hj.
  assert (Hall : forall i, In i rows -> In (t i) (data_periods rows t)) by (intros i Hi; apply data_periods_in; eauto).
  pose proof (mp_indep rows d t (data_periods rows t) post ref Zd Hall (data_periods_occ rows t) (data_periods_nodup rows t) Hn Hincl Href Hc Hss) as Hi.
  cbn [absorb_loop fst snd app]. apply indep_identified; [exact Hi|]. apply mp_idx_lt. exact Hj.
Qed.
Theorem exm_any_reference robust y ref' : In ref' [0; 1; 2]%Z -> exists r r1 r2, exm_fit (exm_cfg robust None) (seq 0 12) y exm_d exm_t None None [] [] [] = Ok r /\
  mp_identified Nat.eq_dec (seq 0 12) y exm_d exm_t (mp_post r) (mp_ref r) [] [] [] /\ In ref' (map exm_t (seq 0 12)) /\
  exm_fit (exm_cfg robust None) (seq 0 12) y exm_d exm_t None (Some ref') [] [] [] = Ok r1 /\ mp_effects r1 = mp_effects r /\ mp_avg_ci r1 = mp_avg_ci r /\
  exm_fit (exm_cfg robust None) (seq 0 12) y (fun i => 1 - exm_d i) exm_t None None [] [] [] = Ok r2 /\ mp_avg r2 = fneg (mp_avg r) /\ mp_avg_se r2 = mp_avg_se r.
Proof.
  intros Hr. destruct (exm_fit_ok robust y) as (r & H & Hpre & Hpost & Hid).
  destruct (mp_fit_inv _ _ _ _ _ _ _ _ _ _ _ _ _ _ _ _ _ _ H) as (Zd & S0 & _).
  destruct (mp_setup_ok _ _ _ _ _ _ S0 (data_periods_nodup _ _)) as (_ & _ & Hincl & Href & _).
  assert (Id : mp_identified Nat.eq_dec (seq 0 12) y exm_d exm_t (mp_post r) (mp_ref r) [] [] []) by (apply identified_no_covariates; auto).
  assert (Hin : In ref' (map exm_t (seq 0 12))).
  { change [0; 1; 2]%Z with (data_periods (seq 0 12) exm_t) in Hr. apply data_periods_in in Hr as (i & Hi & <-). now apply in_map. }
  destruct (mp_reference Nat.eq_dec Nat.eq_dec (@gs_dropped nat) (@gs nat) (@gs_inv nat) toy_sf toy_ppf gs_dropped_ok gs_ok gs_inv_ok _ _ _ _ _ _ _ ref' _ _ _ _ H Id Hin) as (r1 & H1 & _ & _ & _ & E1 & _ & _ & _ & _ & E2 & _).
  destruct (mp_treated_complement Nat.eq_dec Nat.eq_dec (@gs_dropped nat) (@gs nat) (@gs_inv nat) toy_sf toy_ppf gs_dropped_ok gs_ok gs_inv_ok _ _ _ _ _ _ _ _ _ _ _ H Id) as (r2 & H2 & _ & _ & _ & _ & F1 & F2 & _).
  exists r, r1, r2. tauto.
Qed.

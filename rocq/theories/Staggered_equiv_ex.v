(* Unit and period effects drop out of CallawaySantAnna: the shift as a special case, and a concrete fit. *)
From Verif Require Import Prelude Flt Stats_model Stats_proofs Linalg_model Linalg_proofs Linalg_vcov Linalg_thms Did_model Did_proofs Multi_model Multi_proofs Multi_thms Bacon_model Staggered_model Staggered_proofs Staggered_est Staggered_fit Scale_flt Staggered_scale Staggered_equiv Staggered_rows.
From Coq Require Import Arith ZArith String List Permutation.
Import ListNotations.
Open Scope R_scope.

Lemma sc2_1 p : sc2 1 p = p.
Proof. destruct p as [a b]. unfold sc2. cbn [fst snd]. rewrite !sc_1. reflexivity. Qed.
Lemma F2_eq {A} (l l' : list A) : Forall2 eq l l' -> l' = l.
Proof. intros F. induction F; congruence. Qed.
Lemma F2_impl {A B} (P Q : A -> B -> Prop) l l' : (forall a b, P a b -> Q a b) -> Forall2 P l l' -> Forall2 Q l l'.
Proof. intros H F. induction F; constructor; auto. Qed.
Lemma eff_rel_1 x x' : eff_rel 1 x x' -> x = x'.
Proof.
  intros (H1 & H2 & H3 & H4 & H5 & H6). rewrite sc_1 in H1, H2. rewrite sc2_1 in H5. destruct x, x'; cbn in *. subst. reflexivity.
Qed.
Lemma stats_rel_1 x x' : stats_rel 1 x x' -> x = x'.
Proof. intros (H1 & H2 & H3). rewrite sc_1 in H1. rewrite sc2_1 in H2. destruct x, x'; cbn in *. subst. reflexivity. Qed.
Lemma keyed_eq {K A} (P : A -> A -> Prop) (x x' : K * A) : (forall a b, P a b -> a = b) -> keyed P x x' -> x = x'.
Proof. intros H [E Hp]. destruct x, x'; cbn in *. subst. f_equal. auto. Qed.

Section Shift.
Context {I : Type}.
Variable qr : list Z -> list (Z -> R) -> list nat.
Variable lstsq : list Z -> list (Z -> R) -> (Z -> R) -> list R.
Variable inv : list Z -> list (Z -> R) -> option (nat -> nat -> R).
Variable logit : list Z -> list Z -> list (Z -> R) -> option (Z -> R).
Variable sf : option Z -> fl -> fl.
Variable ppf : option Z -> R -> R.
Hypothesis Hqr : qr_ok qr.
Hypothesis Hls : lstsq_ok lstsq.
Variables (rows : list I) (u t : I -> Z) (g : I -> coh) (y : I -> option R) (covs : list (I -> option R)).
Notation fit y := (cs_fit qr lstsq inv logit sf ppf rows u t g y covs).
Definition shifted (al la : Z -> R) (i : I) : option R := match y i with Some v => Some (v + al (u i) + la (t i)) | None => None end.

(* everything reported is the same; the influence values agree on the units of the cell *)
Theorem cs_fit_shift cfg agg bal ws al la r : (ws = [] \/ 0 <= cs_alpha cfg <= 1) -> fit y cfg agg bal ws = Ok r ->
  exists r', fit (shifted al la) cfg agg bal ws = Ok r' /\
    cr_reports r' = cr_reports r /\ cr_att r' = cr_att r /\ cr_se r' = cr_se r /\ cr_t r' = cr_t r /\ cr_p r' = cr_p r /\ cr_ci r' = cr_ci r /\
    cr_es r' = cr_es r /\ cr_group r' = cr_group r /\ cr_boot r' = cr_boot r /\
    map (fun e => (ge_g e, ge_t e, ge_base e, ge_eff e, ge_se e)) (cr_effects r') = map (fun e => (ge_g e, ge_t e, ge_base e, ge_eff e, ge_se e)) (cr_effects r).
Proof.
  intros Hw Hr.
  pose proof (cs_fit_equivariant qr lstsq inv logit sf ppf Hqr Hls rows u t g y (shifted al la) covs 1 al la Rlt_0_1) as H.
  assert (Hy : forall i, In i rows -> shifted al la i = match y i with Some v => Some (1 * v + al (u i) + la (t i)) | None => None end).
  { intros i _. unfold shifted. destruct (y i); [f_equal; ring|reflexivity]. }
  specialize (H Hy cfg agg bal ws Hw). rewrite Hr in H. destruct (fit (shifted al la) cfg agg bal ws) as [r'|]; [|contradiction H].
  cbn [res_rel] in H. destruct H as (H1 & H2 & H3 & H4 & H5 & H6 & H7 & _ & _ & _ & _ & _ & H8 & H9 & H10).
  exists r'. split; [reflexivity|]. rewrite sc_1 in H3, H4. rewrite sc2_1 in H7.
  split; [apply F2_eq; apply (F2_impl (eff_rel 1)); [exact eff_rel_1|exact H2]|].
  do 5 (split; [assumption|]).
  assert (HK : forall K (l l' : list (K * cs_eff)), Forall2 (keyed (eff_rel 1)) l l' -> l' = l).
  { intros K l l' F. apply F2_eq. eapply F2_impl; [|exact F]. intros a b. apply keyed_eq. exact eff_rel_1. }
  assert (HS : forall K (l l' : list (K * boot_stats)), Forall2 (keyed (stats_rel 1)) l l' -> l' = l).
  { intros K l l' F. apply F2_eq. eapply F2_impl; [|exact F]. intros a b. apply keyed_eq. exact stats_rel_1. }
  split; [destruct (cr_es r), (cr_es r'); try contradiction H8; [f_equal; apply HK; exact H8|reflexivity]|].
  split; [destruct (cr_group r), (cr_group r'); try contradiction H9; [f_equal; apply HK; exact H9|reflexivity]|].
  split.
  { destruct (cr_boot r) as [b|], (cr_boot r') as [b'|]; try contradiction H10; [|reflexivity]. f_equal.
    destruct H10 as (B1 & B2 & B3 & B4 & B5). apply HS in B1, B4, B5. apply stats_rel_1 in B2.
    rewrite (map_ext (sc 1) (fun x => x) sc_1), map_id in B3. destruct b, b'; cbn in *. subst. reflexivity. }
  eapply F2_map_eq; [|exact H1]. intros e e' (E1 & E2 & E3 & _ & _ & E4 & E5 & _). rewrite sc_1 in E4, E5. rewrite E1, E2, E3, E4, E5. reflexivity.
Qed.
End Shift.

(* two treated cohorts of one unit each, one never treated; outcomes 10 y + 7 unit + period^2 *)
Definition y23b (i : Z * Z) : option R := match y23 i with Some v => Some (10 * v + IZR (7 * fst i) + IZR (snd i * snd i)) | None => None end.
Section Case.
Variable inv : list Z -> list (Z -> R) -> option (nat -> nat -> R).
Variable logit : list Z -> list Z -> list (Z -> R) -> option (Z -> R).
Variable sf : option Z -> fl -> fl.
Variable ppf : option Z -> R -> R.
Theorem cs_equivariant_case : exists r r' s,
  cs_fit (@gs_dropped Z) (@gs Z) inv logit sf ppf rows23 fst snd (fun i => C23 (fst i)) y23 [] (demo_cfg "never_treated" 0 "dr" "varying") (Some "all"%string) None [fun a => IZR a] = Ok r /\
  cs_fit (@gs_dropped Z) (@gs Z) inv logit sf ppf rows23 fst snd (fun i => C23 (fst i)) y23b [] (demo_cfg "never_treated" 0 "dr" "varying") (Some "all"%string) None [fun a => IZR a] = Ok r' /\
  map ge_eff (cr_effects r) = [Fin 1; Fin 1; Fin 0; Fin 0] /\ map ge_eff (cr_effects r') = [Fin 10; Fin 10; Fin 0; Fin 0] /\
  cr_boot r = Some s /\ result_rel 10 r r'.
Proof.
  set (cfg := demo_cfg "never_treated" 0 "dr" "varying").
  destruct (fit_ok (@gs_dropped Z) (@gs Z) inv logit sf ppf rows23 fst snd (fun i => C23 (fst i)) y23 [] cfg (Some "all"%string) None [fun a => IZR a] cells23) as (r & Hr & Er);
    [vm_compute; discriminate|vm_compute; reflexivity|apply effects23|discriminate|].
  assert (H10 : 0 < 10) by lra.
  assert (Hy : forall i, In i rows23 -> y23b i = match y23 i with Some v => Some (10 * v + IZR (7 * fst i) + IZR (snd i * snd i)) | None => None end) by reflexivity.
  pose proof (cs_fit_equivariant (@gs_dropped Z) (@gs Z) inv logit sf ppf gs_dropped_ok gs_ok rows23 fst snd (fun i => C23 (fst i)) y23 y23b [] 10
    (fun a => IZR (7 * a)) (fun s => IZR (s * s)) H10 Hy cfg (Some "all"%string) None [fun a => IZR a]) as H.
  assert (Ha : [fun a : Z => IZR a] = [] \/ 0 <= cs_alpha cfg <= 1) by (right; cbn [cs_alpha cfg demo_cfg]; unfold cfg, demo_cfg; cbn [cs_alpha]; lra).
  specialize (H Ha). rewrite Hr in H. destruct (cs_fit _ _ _ _ _ _ _ _ _ _ y23b _ _ _ _ _) as [r'|]; [|contradiction H]. cbn [res_rel] in H.
  assert (E1 : map ge_eff (cr_effects r) = [Fin 1; Fin 1; Fin 0; Fin 0]) by (rewrite Er; apply eff23).
  assert (E2 : map ge_eff (cr_effects r') = map (sc 10) (map ge_eff (cr_effects r))).
  { rewrite map_map. destruct H as (F & _). eapply F2_map_eq; [|exact F]. intros e e' (_ & _ & _ & _ & _ & E & _). exact E. }
  assert (EB : exists s, cr_boot r = Some s).
  { unfold cs_fit in Hr. destruct (Nat.eqb _ 0); [discriminate|]. destruct (cs_duplicates _ _ _); [discriminate|].
    rewrite effects23 in Hr. unfold cells23 in Hr. cbn [bind] in Hr. destruct (agg_simple _ _ _ _). injection Hr as <-. eexists. reflexivity. }
  destruct EB as [s Es]. exists r, r', s. split; [exact Hr|]. split; [reflexivity|]. split; [exact E1|].
  split; [rewrite E2, E1; cbn [map]; rewrite !sc_fin; repeat apply (f_equal2 cons); try reflexivity; apply (f_equal Fin); ring|]. split; [exact Es|exact H].
Qed.
End Case.

(* without a time-constant first_treat the order of the rows matters: the first non-missing entry is the unit's cohort *)
Definition gvar (i : Z) : coh := if Z.eqb i 1 then CFin 2 else CFin 0.
Theorem row_order_needs_cohort : Permutation [1; 2]%Z [2; 1]%Z /\ cs_cohort [1; 2]%Z (fun _ => 7%Z) gvar 7 = CFin 2 /\ cs_cohort [2; 1]%Z (fun _ => 7%Z) gvar 7 = CFin 0 /\
  n_nev [1; 2]%Z (fun _ => 7%Z) gvar = 0%nat /\ n_nev [2; 1]%Z (fun _ => 7%Z) gvar = 1%nat.
Proof. split; [apply perm_swap|]. repeat split. Qed.

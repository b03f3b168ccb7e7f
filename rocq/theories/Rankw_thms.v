(* The synthetic_weight column of rank_control_units: proofs. *)
From Verif Require Import Prelude Flt Stats_model Linalg_model Did_model Multi_model Staggered_model Synth_model Synth_proofs Sdid_model Sdid_thms Gap_model Gap_proofs Prep_model Prep_proofs Prep_rank Prep_ex Tight12_thms Rankw_model.
From Coq Require Import Arith ZArith String List Bool Lia Lra Permutation Sorting.Sorted.
Import ListNotations.
Open Scope R_scope.

Section RankWeights.
Context {I U : Type} (ueq : forall x y : U, {x = y} + {x <> y}).
Variable dsort : list (rank_row U) -> list (rank_row U).
Hypothesis Hd : dsort_ok dsort.
Variable backend : list Z -> list (Z -> R) -> (Z -> R) -> R -> list R.
Variable b : gbackend.
Variable fsort : list fl -> list fl.
Variable iter : nat.
Variable gnrm : list Z -> list (Z -> fl) -> R -> fl.
Hypothesis Hbe : be_simplex backend.
Hypothesis Hit : (0 < iter)%nat.
Variable rows : list I.
Variable u : I -> U.
Variable t : I -> Z.
Variable y : I -> fl.
Notation rank := (rank_control_units ueq dsort rows u t y).
Notation full := (rank_full ueq dsort backend b fsort iter gnrm rows u t y).
Notation treatedS := (treated_set ueq rows u).
Notation weights := (rank_weights ueq backend b fsort iter gnrm rows u t y).

Lemma weight_of_combine x : forall (cs : list U) (w : list fl), NoDup cs -> length w = length cs -> In x cs ->
  exists v, weight_of ueq (combine cs w) x = v /\ In v w.
Proof.
  induction cs as [|c cs IH]; intros [|v w] Hn Hl Hx; try discriminate; [destruct Hx|]. inversion Hn; subst. unfold weight_of. simpl.
  destruct (keqb ueq c x) eqn:E; [exists v; simpl; auto|]. destruct Hx as [->|Hx]; [rewrite keqb_refl in E; discriminate|].
  destruct (IH w H2 ltac:(simpl in Hl; lia) Hx) as (v' & E' & Hv). exists v'. split; [exact E'|right; exact Hv].
Qed.
Lemma weight_of_map : forall (cs : list U) (w : list fl), NoDup cs -> length w = length cs -> map (weight_of ueq (combine cs w)) cs = w.
Proof.
  induction cs as [|c cs IH]; intros [|v w] Hn Hl; try discriminate; [reflexivity|]. inversion Hn; subst. simpl. f_equal.
  - unfold weight_of. simpl. rewrite keqb_refl. reflexivity.
  - transitivity (map (weight_of ueq (combine cs w)) cs); [|apply IH; auto; simpl in Hl; lia].
    apply map_ext_in. intros x Hx. unfold weight_of. simpl.
    destruct (keqb ueq c x) eqn:E; [apply keqb_true in E; subst; contradiction|reflexivity].
Qed.

(* the outcome of unit x in period p, as the pivot table has it *)
Lemma pivot_absent ps x p : (forall i, In i rows -> u i = x -> t i = p -> y i = NaN) -> pivot ueq u t y (pre_data rows t ps) x p = NaN.
Proof.
  intros H. unfold pivot. destruct (at_cell ueq u t (pre_data rows t ps) x p) as [|i l] eqn:E; [reflexivity|].
  assert (Hi : In i (at_cell ueq u t (pre_data rows t ps) x p)) by (rewrite E; left; reflexivity).
  unfold at_cell in Hi. apply filter_In in Hi as [Hi C]. apply andb_true_iff in C as [C1 C2]. apply keqb_true in C1. apply Z.eqb_eq in C2.
  apply pre_data_in in Hi. apply H; tauto.
Qed.
Lemma nodup_key {A B} (f : A -> B) l a c : NoDup (map f l) -> In a l -> In c l -> f a = f c -> a = c.
Proof.
  induction l as [|e l IH]; intros Hn Ha Hc E; [destruct Ha|]. inversion Hn; subst. destruct Ha as [->|Ha], Hc as [->|Hc]; auto.
  - exfalso. apply H1. rewrite E. apply in_map. exact Hc.
  - exfalso. apply H1. rewrite <- E. apply in_map. exact Ha.
Qed.
Lemma pivot_present ps i : NoDup (map (fun i => (u i, t i)) (pre_data rows t ps)) -> In i rows -> In (t i) ps ->
  pivot ueq u t y (pre_data rows t ps) (u i) (t i) = y i.
Proof.
  intros Hn Hi Hp. unfold pivot. assert (Pi : In i (pre_data rows t ps)) by (apply pre_data_in; auto).
  assert (Hc : In i (at_cell ueq u t (pre_data rows t ps) (u i) (t i))) by (unfold at_cell; apply filter_In; split; [exact Pi|]; rewrite keqb_refl, Z.eqb_refl; reflexivity).
  destruct (at_cell ueq u t (pre_data rows t ps) (u i) (t i)) as [|j l] eqn:E; [destruct Hc|].
  assert (Hj : In j (at_cell ueq u t (pre_data rows t ps) (u i) (t i))) by (rewrite E; left; reflexivity).
  unfold at_cell in Hj. apply filter_In in Hj as [Hj C]. apply andb_true_iff in C as [C1 C2]. apply keqb_true in C1. apply Z.eqb_eq in C2.
  f_equal. apply (nodup_key (fun i => (u i, t i)) (pre_data rows t ps)); auto. congruence.
Qed.

(* what the column is computed from *)
Definition observed (pre : option (list Z)) (p : Z) : Prop := In p (rank_periods rows t pre) /\ exists i, In i rows /\ t i = p.
Definition early_unit (pre : option (list Z)) (x : U) : Prop := exists i, In i rows /\ u i = x /\ In (t i) (rank_periods rows t pre).
(* every unit seen in the pre-periods has a finite outcome in each of them *)
Definition complete_pre (pre : option (list Z)) : Prop :=
  forall x p, early_unit pre x -> observed pre p -> exists i, In i rows /\ u i = x /\ t i = p /\ isfin (y i).

Lemma vp_iff pre p : In p (valid_periods rows t (rank_periods rows t pre)) <-> observed pre p.
Proof.
  unfold valid_periods, observed. rewrite filter_In, existsb_exists. split.
  - intros (A & i & Hi & E). apply Z.eqb_eq in E. apply pre_data_in in Hi. split; [exact A|]. exists i. tauto.
  - intros (A & i & Hi & E). split; [exact A|]. exists i. split; [apply pre_data_in; subst; auto|apply Z.eqb_eq; exact E].
Qed.

Lemma full_inv d tu pre covs ow cw exclude require n_top suggest lambda table treated :
  rank d tu pre covs ow cw exclude require n_top suggest = Ok (Some table) -> treatedS tu d suggest = Ok treated ->
  full d tu pre covs ow cw exclude require n_top suggest lambda =
  (do w <- weights (rank_periods rows t pre) treated exclude lambda; Ok (Some (map (fun r => (r, weight_of ueq w (k_unit r))) table))).
Proof. intros H T. unfold rank_full. rewrite H, T. reflexivity. Qed.

Lemma unfin_list (l : list R) : map toR (map Fin l) = l.
Proof. rewrite map_map. simpl. apply map_id. Qed.

(* the table is the one without the column *)
Theorem full_table d tu pre covs ow cw exclude require n_top suggest lambda out :
  full d tu pre covs ow cw exclude require n_top suggest lambda = Ok (Some out) ->
  rank d tu pre covs ow cw exclude require n_top suggest = Ok (Some (map fst out)).
Proof.
  unfold rank_full. destruct (rank d tu pre covs ow cw exclude require n_top suggest) as [[table|]|e] eqn:E; [|discriminate|].
  - destruct (do treated <- treatedS tu d suggest ; weights (rank_periods rows t pre) treated exclude lambda) as [w|]; cbn [bind]; [|discriminate]. intros H. assert (Eo : out = map (fun r => (r, weight_of ueq w (k_unit r))) table) by congruence. subst out. rewrite map_map. cbn [fst]. rewrite map_id. reflexivity.
  - destruct e; simpl; try discriminate. destruct (do treated <- treatedS tu d suggest ; weights (rank_periods rows t pre) treated exclude lambda); discriminate.
Qed.

(* complete pre-periods: a ranking is returned whenever the table is, and its weights are shares *)
Theorem full_weights d tu pre covs ow cw exclude require suggest lambda table :
  rank d tu pre covs ow cw exclude require None suggest = Ok (Some table) -> complete_pre pre ->
  exists out, full d tu pre covs ow cw exclude require None suggest lambda = Ok (Some out) /\ map fst out = table /\
  (forall r w, In (r, w) out -> exists v, w = Fin v /\ 0 <= v) /\ sumf (fun q => toR (snd q)) out = 1.
Proof.
  intros H Hc. destruct (rank_inv ueq dsort rows u t y d tu pre covs ow cw exclude require None suggest table H) as (tr & T & Nt & _ & _ & C & D & E & F & _ & _ & Et).
  cbv zeta in C, D, E, F, Et. change (limit_top dsort None ?l) with l in Et. rewrite (full_inv _ _ _ _ _ _ _ _ _ _ lambda _ _ H T).
  set (ps := rank_periods rows t pre) in *. set (cs := candidates ueq rows u t tr exclude ps) in *.
  pose proof (proj1 (pivot_dup_spec ueq u t _) F) as ND.
  unfold rank_weights. cbv zeta. change (filter (in_pivot ueq u (pre_data rows t ps)) tr) with (seen ueq rows u t ps tr).
  change (filter (fun p => existsb (fun i => Z.eqb (t i) p) (pre_data rows t ps)) ps) with (valid_periods rows t ps).
  change (filter (in_pivot ueq u (pre_data rows t ps)) (match exclude with Some ex => filter (fun x => negb (umem ueq x ex)) (filter (fun x => negb (umem ueq x tr)) (all_units ueq rows u)) | None => filter (fun x => negb (umem ueq x tr)) (all_units ueq rows u) end)) with cs.
  assert (Fp : forall x p, early_unit pre x -> In p (valid_periods rows t ps) -> exists r, pivot ueq u t y (pre_data rows t ps) x p = Fin r).
  { intros x p Hx Hp. apply vp_iff in Hp. destruct (Hc x p Hx Hp) as (i & Hi & <- & <- & Fi). rewrite (pivot_present ps i ND Hi (proj1 Hp)). exact Fi. }
  assert (Ec : forall x, In x cs -> early_unit pre x).
  { intros x Hx. apply (candidates_in ueq rows u t y) in Hx. destruct Hx as (Hx & _). exact Hx. }
  assert (Es : forall x, In x (seen ueq rows u t ps tr) -> early_unit pre x).
  { intros x Hx. apply filter_In in Hx as (_ & Hx). apply in_pivot_iff in Hx as (i & Hi & <-). apply pre_data_in in Hi. exists i. tauto. }
  set (cols := map (fun x p => pivot ueq u t y (pre_data rows t ps) x p) cs).
  set (ym := fun p => nmean (map (fun v => pivot ueq u t y (pre_data rows t ps) v p) (seen ueq rows u t ps tr))).
  assert (W : exists w, gap_weights backend b fsort iter gnrm (valid_periods rows t ps) cols ym lambda = Ok (map Fin w) /\ in_simplex w /\ length w = length cs).
  { assert (Lc : length cols = length cs) by apply map_length. unfold gap_weights.
    destruct cols as [|c0 [|c1 rest]] eqn:Ecol.
    - exfalso. destruct cs; [congruence|discriminate].
    - exists [1]. split; [reflexivity|]. split; [|exact Lc]. split; [intros z [<-|[]]; lra|cbn; unfold idR; lra].
    - assert (Al : forallb (fun c => all_finite c (valid_periods rows t ps)) cols && all_finite ym (valid_periods rows t ps) = true).
      { apply andb_true_iff. split.
        - apply forallb_forall. intros c Hcol. unfold cols in Hcol. apply in_map_iff in Hcol as (x & <- & Hx). unfold all_finite. apply forallb_forall. intros p Hp.
          destruct (Fp x p (Ec x Hx) Hp) as (r & ->). reflexivity.
        - unfold all_finite. apply forallb_forall. intros p Hp. unfold ym.
          destruct (nmean_fin (map (fun v => pivot ueq u t y (pre_data rows t ps) v p) (seen ueq rows u t ps tr))) as (r & ->); [| |reflexivity].
          + intros F0. apply map_eq_nil in F0. congruence.
          + intros z Hz. apply in_map_iff in Hz as (v & <- & Hv). destruct (Fp v p (Es v Hv) Hp) as (r & ->). exists r. reflexivity. }
      rewrite <- Ecol, Al. eexists. split; [reflexivity|].
      assert (Lm : length (map (fun (c : Z -> fl) t0 => unfin (c t0)) cols) = length cs) by (rewrite map_length, Ecol; exact Lc).
      destruct (Hbe (valid_periods rows t ps) (map (fun c t0 => unfin (c t0)) cols) (fun t0 => unfin (ym t0)) lambda min_weight) as [S L].
      { rewrite Ecol. discriminate. }
      rewrite Lm in S, L. rewrite <- Lc in S, L. split; [exact S|rewrite <- Lc; exact L]. }
  destruct W as (w & -> & (W0 & W1) & Lw). cbn [bind]. eexists. split; [reflexivity|].
  assert (Lf : length (map Fin w) = length cs) by (rewrite map_length; exact Lw).
  assert (Nc : NoDup cs) by apply candidates_nodup.
  split; [rewrite map_map; simpl; apply map_id|]. split.
  - intros r v Hr. apply in_map_iff in Hr as (r' & E' & Hr). injection E' as -> <-.
    assert (Hu : In (k_unit r) cs).
    { rewrite Et in Hr. apply (Permutation_in _ (proj1 (Hd _))) in Hr. apply in_map_iff in Hr as (x & <- & Hx). exact Hx. }
    destruct (weight_of_combine (k_unit r) cs (map Fin w) Nc Lf Hu) as (v & -> & Hv). apply in_map_iff in Hv as (z & <- & Hz). exists z. auto.
  - rewrite sumf_map. cbn [snd].
    rewrite (sumf_perm (fun r => toR (weight_of ueq (combine cs (map Fin w)) (k_unit r))) _ _ (eq_rect_r (fun l => Permutation l _) (proj1 (Hd _)) Et)).
    rewrite sumf_map. cbn [k_unit line].
    transitivity (sumf (fun v : fl => toR v) (map (weight_of ueq (combine cs (map Fin w))) cs)); [rewrite sumf_map; reflexivity|].
    rewrite (weight_of_map cs (map Fin w) Nc Lf), sumf_map. exact W1.
Qed.

Lemma treated_nodup tu d suggest tr : treatedS tu d suggest = Ok tr -> NoDup tr.
Proof.
  unfold treated_set. destruct tu; [intros [= <-]; apply NoDup_nodup|]. destruct d; [intros [= <-]; apply NoDup_filter, all_units_nodup|].
  destruct suggest; [intros [= <-]; constructor|discriminate].
Qed.
Lemma weight_of_nth (cs : list U) : forall (w : list fl) x, NoDup cs -> length w = length cs -> In x cs ->
  exists k, nth_error cs k = Some x /\ nth_error w k = Some (weight_of ueq (combine cs w) x).
Proof.
  induction cs as [|c cs IH]; intros [|v w] x Hn Hl Hx; try discriminate; [destruct Hx|]. inversion Hn; subst. unfold weight_of. cbn [combine find fst].
  destruct (keqb ueq c x) eqn:E; [apply keqb_true in E; subst; exists 0%nat; split; reflexivity|].
  destruct Hx as [->|Hx]; [rewrite keqb_refl in E; discriminate|]. destruct (IH w x H2 ltac:(simpl in Hl; lia) Hx) as (k & A & B). exists (S k). split; [exact A|exact B].
Qed.
Lemma nmean_meanf {A} (f : A -> R) (l : list A) : l <> [] -> nmean (map (fun x => Fin (f x)) l) = Fin (meanf f l).
Proof.
  intros Hl. unfold nmean. replace (filter notna (map (fun x => Fin (f x)) l)) with (map Fin (map f l)).
  2:{ rewrite map_map. clear. induction l; simpl; [reflexivity|]. f_equal. assumption. }
  rewrite fmean_fin by (destruct l; [congruence|discriminate]). f_equal. unfold meanf, len. rewrite map_length, sumf_map. reflexivity.
Qed.

(* each weight is the one the optimiser gave to that unit's column *)
Theorem full_aligned d tu pre covs ow cw exclude require n_top suggest lambda out :
  full d tu pre covs ow cw exclude require n_top suggest lambda = Ok (Some out) -> complete_pre pre ->
  exists vp cs cols ym tl, (forall p, In p vp <-> observed pre p) /\
  NoDup cs /\ (forall x, In x cs <-> early_unit pre x /\ ~ counts_treated rows u tu d x /\ forall ex, exclude = Some ex -> ~ In x ex) /\
  NoDup tl /\ (forall x, In x tl <-> early_unit pre x /\ counts_treated rows u tu d x) /\
  length cols = length cs /\
  (forall k x c i, nth_error cs k = Some x -> nth_error cols k = Some c -> In i rows -> u i = x -> observed pre (t i) -> y i = Fin (c (t i))) /\
  (forall p g, observed pre p -> (forall i, In i rows -> In (u i) tl -> t i = p -> y i = Fin (g (u i))) -> ym p = meanf g tl) /\
  (forall r v, In (r, v) out -> exists k z, nth_error cs k = Some (k_unit r) /\
     nth_error (synthetic_weights (backend vp cols ym lambda) (length cs) min_weight) k = Some z /\ v = Fin z).
Proof.
  intros Hf Hc. pose proof (full_table _ _ _ _ _ _ _ _ _ _ _ _ Hf) as H.
  destruct (rank_inv ueq dsort rows u t y d tu pre covs ow cw exclude require n_top suggest (map fst out) H) as (tr & T & Nt & _ & _ & C & D & E & F & _ & _ & Et).
  cbv zeta in C, D, E, F, Et. rewrite (full_inv _ _ _ _ _ _ _ _ _ _ lambda _ _ H T) in Hf.
  pose proof (treated_set_spec ueq rows u tu d suggest tr T) as Sp.
  set (ps := rank_periods rows t pre) in *. set (cs := candidates ueq rows u t tr exclude ps) in *.
  pose proof (proj1 (pivot_dup_spec ueq u t _) F) as ND.
  unfold rank_weights in Hf. cbv zeta in Hf. change (filter (in_pivot ueq u (pre_data rows t ps)) tr) with (seen ueq rows u t ps tr) in Hf.
  change (filter (fun p => existsb (fun i => Z.eqb (t i) p) (pre_data rows t ps)) ps) with (valid_periods rows t ps) in Hf.
  change (filter (in_pivot ueq u (pre_data rows t ps)) (match exclude with Some ex => filter (fun x => negb (umem ueq x ex)) (filter (fun x => negb (umem ueq x tr)) (all_units ueq rows u)) | None => filter (fun x => negb (umem ueq x tr)) (all_units ueq rows u) end)) with cs in Hf.
  assert (Fp : forall x p, early_unit pre x -> In p (valid_periods rows t ps) -> exists r, pivot ueq u t y (pre_data rows t ps) x p = Fin r).
  { intros x p Hx Hp. apply vp_iff in Hp. destruct (Hc x p Hx Hp) as (i & Hi & <- & <- & Fi). rewrite (pivot_present ps i ND Hi (proj1 Hp)). exact Fi. }
  assert (Ec : forall x, In x cs <-> is_candidate rows u t tr exclude ps x) by (intros x; apply (candidates_in ueq rows u t y)).
  assert (Es : forall x, In x (seen ueq rows u t ps tr) <-> early_unit pre x /\ In x tr).
  { intros x. unfold seen. rewrite filter_In, in_pivot_iff. unfold early_unit. fold ps. split.
    - intros (A & i & B & <-). apply pre_data_in in B. split; [exists i; tauto|exact A].
    - intros ((i & A1 & A2 & A3) & B). split; [exact B|]. exists i. split; [apply pre_data_in; auto|exact A2]. }
  set (fcols := map (fun x p => pivot ueq u t y (pre_data rows t ps) x p) cs) in *.
  set (ym := fun p => nmean (map (fun v => pivot ueq u t y (pre_data rows t ps) v p) (seen ueq rows u t ps tr))) in *.
  assert (Lf : length fcols = length cs) by apply map_length.
  assert (W : exists w, gap_weights backend b fsort iter gnrm (valid_periods rows t ps) fcols ym lambda = Ok (map Fin w) /\
     w = synthetic_weights (backend (valid_periods rows t ps) (map (fun c t0 => unfin (c t0)) fcols) (fun t0 => unfin (ym t0)) lambda) (length cs) min_weight /\ length w = length cs).
  { unfold gap_weights. destruct fcols as [|c0 [|c1 rest]] eqn:Ecol.
    - exfalso. destruct cs; [congruence|discriminate].
    - exists [1]. split; [reflexivity|]. split; [rewrite <- Lf; reflexivity|exact Lf].
    - assert (Al : forallb (fun c => all_finite c (valid_periods rows t ps)) fcols && all_finite ym (valid_periods rows t ps) = true).
      { apply andb_true_iff. split.
        - apply forallb_forall. intros c Hcol. unfold fcols in Hcol. apply in_map_iff in Hcol as (x & <- & Hx). unfold all_finite. apply forallb_forall. intros p Hp.
          apply Ec in Hx. destruct (Fp x p (proj1 Hx) Hp) as (r & ->). reflexivity.
        - unfold all_finite. apply forallb_forall. intros p Hp. unfold ym.
          destruct (nmean_fin (map (fun v => pivot ueq u t y (pre_data rows t ps) v p) (seen ueq rows u t ps tr))) as (r & ->); [| |reflexivity].
          + intros F0. apply map_eq_nil in F0. congruence.
          + intros z Hz. apply in_map_iff in Hz as (v & <- & Hv). apply Es in Hv. destruct (Fp v p (proj1 Hv) Hp) as (r & ->). exists r. reflexivity. }
      rewrite Ecol in Al. rewrite Al. eexists. split; [reflexivity|]. rewrite <- Ecol.
      assert (Lm : length (map (fun (c : Z -> fl) t0 => unfin (c t0)) fcols) = length cs) by (rewrite map_length, Ecol; exact Lf).
      destruct (Hbe (valid_periods rows t ps) (map (fun c t0 => unfin (c t0)) fcols) (fun t0 => unfin (ym t0)) lambda min_weight) as [_ L].
      { rewrite Ecol. discriminate. }
      rewrite Lm in L. rewrite <- Lf in L |- *. split; [reflexivity|exact L]. }
  destruct W as (w & Ew & Dw & Lw). rewrite Ew in Hf. cbn [bind] in Hf.
  exists (valid_periods rows t ps), cs, (map (fun c t0 => unfin (c t0)) fcols), (fun t0 => unfin (ym t0)), (seen ueq rows u t ps tr).
  split; [intros p; apply vp_iff|]. split; [apply candidates_nodup|]. split; [intros x; rewrite Ec; unfold is_candidate, early_unit; rewrite Sp; reflexivity|].
  split; [apply NoDup_filter, (treated_nodup _ _ _ _ T)|]. split; [intros x; rewrite Es, Sp; reflexivity|]. split; [rewrite map_length; exact Lf|]. split; [|split].
  - intros k x c i Hk Hcol Hi Ui Ti. rewrite nth_error_map in Hcol. unfold fcols in Hcol. rewrite nth_error_map, Hk in Hcol. cbn in Hcol. injection Hcol as <-.
    subst x. assert (Hx : In (u i) cs) by (eapply nth_error_In; exact Hk). apply Ec in Hx.
    destruct (Fp (u i) (t i) (proj1 Hx) (proj2 (vp_iff pre (t i)) Ti)) as (r & Er). rewrite Er. cbn. rewrite <- Er. symmetry. apply pivot_present; [exact ND|exact Hi|exact (proj1 Ti)].
  - intros p g Hp Hg. unfold ym.
    assert (M : map (fun v => pivot ueq u t y (pre_data rows t ps) v p) (seen ueq rows u t ps tr) = map (fun x => Fin (g x)) (seen ueq rows u t ps tr)).
    { apply map_ext_in. intros v Hv. pose proof (proj1 (proj1 (Es v) Hv)) as Ev. destruct (Hc v p Ev Hp) as (i & Hi & <- & <- & _).
      rewrite (pivot_present ps i ND Hi (proj1 Hp)). apply Hg; auto. }
    rewrite M, (nmean_meanf g _ E). reflexivity.
  - intros r v Hr. assert (Eo : out = map (fun r => (r, weight_of ueq (combine cs (map Fin w)) (k_unit r))) (map fst out)) by congruence.
    rewrite Eo in Hr. apply in_map_iff in Hr as (r' & E' & Hr). injection E' as -> <-.
    assert (Hu : In (k_unit r) cs).
    { rewrite Et in Hr. apply limit_in in Hr; [|exact Hd]. apply (Permutation_in _ (proj1 (Hd _))) in Hr. apply in_map_iff in Hr as (x & <- & Hx). exact Hx. }
    destruct (weight_of_nth cs (map Fin w) (k_unit r) (candidates_nodup ueq rows u t tr exclude ps) ltac:(rewrite map_length; exact Lw) Hu) as (k & K1 & K2).
    rewrite nth_error_map in K2. destruct (nth_error w k) as [z|] eqn:Ez; [|discriminate]. cbn in K2. injection K2 as K2.
    exists k, z. split; [exact K1|]. split; [rewrite <- Dw; exact Ez|congruence].
Qed.

(* one missing outcome among the candidates, or a period in which no treated unit has an outcome *)
Definition pre_hole (tu : option (list U)) (d : option (I -> fl)) (pre : option (list Z)) (exclude : option (list U)) : Prop :=
  exists p, observed pre p /\
  ((exists x, early_unit pre x /\ ~ counts_treated rows u tu d x /\ (forall ex, exclude = Some ex -> ~ In x ex) /\
     forall i, In i rows -> u i = x -> t i = p -> y i = NaN) \/
   (forall i, In i rows -> counts_treated rows u tu d (u i) -> t i = p -> y i = NaN)).

Theorem full_hole d tu pre covs ow cw exclude require n_top suggest lambda all table :
  rank d tu pre covs ow cw exclude require None suggest = Ok (Some all) ->
  rank d tu pre covs ow cw exclude require n_top suggest = Ok (Some table) -> (2 <= length all)%nat -> pre_hole tu d pre exclude ->
  full d tu pre covs ow cw exclude require n_top suggest lambda = Ok (Some (map (fun r => (r, Fin (1 / INR (length all)))) table)) \/
  full d tu pre covs ow cw exclude require n_top suggest lambda = Err LinAlgError /\ b = BNumpy true.
Proof.
  intros Ha H L2 (p & Hp & Hole).
  destruct (rank_inv ueq dsort rows u t y d tu pre covs ow cw exclude require None suggest all Ha) as (tr & T & _ & _ & _ & C & _ & _ & F & _ & _ & Et).
  cbv zeta in C, F, Et. change (limit_top dsort None ?l) with l in Et.
  destruct (rank_inv ueq dsort rows u t y d tu pre covs ow cw exclude require n_top suggest table H) as (tr' & T' & _ & _ & _ & _ & _ & _ & _ & _ & _ & Et').
  cbv zeta in Et'. rewrite T in T'. injection T' as <-.
  pose proof (treated_set_spec ueq rows u tu d suggest tr T) as Sp.
  rewrite (full_inv _ _ _ _ _ _ _ _ _ _ lambda _ _ H T).
  set (ps := rank_periods rows t pre) in *. set (cs := candidates ueq rows u t tr exclude ps) in *.
  assert (La : length all = length cs) by (rewrite Et, (Permutation_length (proj1 (Hd _))); apply map_length).
  unfold rank_weights. cbv zeta. change (filter (in_pivot ueq u (pre_data rows t ps)) tr) with (seen ueq rows u t ps tr).
  change (filter (fun p => existsb (fun i => Z.eqb (t i) p) (pre_data rows t ps)) ps) with (valid_periods rows t ps).
  change (filter (in_pivot ueq u (pre_data rows t ps)) (match exclude with Some ex => filter (fun x => negb (umem ueq x ex)) (filter (fun x => negb (umem ueq x tr)) (all_units ueq rows u)) | None => filter (fun x => negb (umem ueq x tr)) (all_units ueq rows u) end)) with cs.
  set (cols := map (fun x p => pivot ueq u t y (pre_data rows t ps) x p) cs).
  set (ym := fun p => nmean (map (fun v => pivot ueq u t y (pre_data rows t ps) v p) (seen ueq rows u t ps tr))).
  assert (Lc : length cols = length cs) by apply map_length.
  assert (G : (exists t0 c, In t0 (valid_periods rows t ps) /\ In c cols /\ c t0 = NaN) \/ (exists t0, In t0 (valid_periods rows t ps) /\ ym t0 = NaN)).
  { destruct Hole as [(x & Ex & Nx & Xx & Hx)|Hx].
    - left. exists p. eexists. split; [apply vp_iff; exact Hp|]. split.
      + unfold cols. apply in_map_iff. exists x. split; [reflexivity|]. apply (candidates_in ueq rows u t y). split; [exact Ex|]. split; [rewrite Sp; exact Nx|exact Xx].
      + cbv beta. apply pivot_absent. exact Hx.
    - right. exists p. split; [apply vp_iff; exact Hp|]. unfold ym.
      assert (A : filter notna (map (fun v => pivot ueq u t y (pre_data rows t ps) v p) (seen ueq rows u t ps tr)) = []).
      { assert (B : forall v, In v (seen ueq rows u t ps tr) -> pivot ueq u t y (pre_data rows t ps) v p = NaN).
        { intros v Hv. apply filter_In in Hv as (Hv & _). apply pivot_absent. intros i Hi Ui Ti. apply Hx; auto. rewrite Ui. apply Sp. exact Hv. }
        revert B. generalize (seen ueq rows u t ps tr). clear. intros l B. induction l as [|v l IH]; [reflexivity|]. cbn [map filter].
        rewrite (B v (or_introl eq_refl)). cbn. apply IH. intros v' Hv'. apply B. right. exact Hv'. }
      unfold nmean. rewrite A. reflexivity. }
  destruct (gap_weights_gap backend b fsort iter gnrm Hit (valid_periods rows t ps) cols ym lambda ltac:(lia) G) as [-> |(-> & Eb & _)]; [left|right; split; [reflexivity|exact Eb]].
  cbn [bind]. f_equal. f_equal. apply map_ext_in. intros r Hr. f_equal.
  assert (Hu : In (k_unit r) cs).
  { rewrite Et' in Hr. apply limit_in in Hr; [|exact Hd]. apply (Permutation_in _ (proj1 (Hd _))) in Hr. apply in_map_iff in Hr as (x & <- & Hx). exact Hx. }
  assert (Lf : length (map Fin (uniform_w (length cols))) = length cs) by (rewrite map_length; unfold uniform_w; rewrite repeat_length; exact Lc).
  destruct (weight_of_combine (k_unit r) cs _ (candidates_nodup ueq rows u t tr exclude ps) Lf Hu) as (v & -> & Hv).
  apply in_map_iff in Hv as (z & <- & Hz). unfold uniform_w in Hz. apply repeat_spec in Hz. subst z. rewrite La, Lc. reflexivity.
Qed.
End RankWeights.

(* ---- concrete cases ---- *)
Theorem rk_complete_pre : complete_pre rk_rows (fun i => fst (fst i)) (fun i => snd (fst i)) (fun i => Fin (snd i)) None.
Proof.
  intros x p (i & Hi & <- & _) (Hp & _). assert (E : rank_periods rk_rows (fun i => snd (fst i)) None = [0%Z]) by reflexivity. rewrite E in Hp. destruct Hp as [<-|[]].
  simpl in Hi. destruct Hi as [<-|[<-|[<-|[<-|[<-|[<-|[]]]]]]];
  [exists (1%nat, 0%Z, 1)|exists (2%nat, 0%Z, 1)|exists (3%nat, 0%Z, 2)|exists (1%nat, 0%Z, 1)|exists (2%nat, 0%Z, 1)|exists (3%nat, 0%Z, 2)]; simpl; intuition (try (eexists; reflexivity)).
Qed.

(* unit 1 treated; unit 2 has its outcomes in both pre-periods; unit 3 is far away and has no row in period 1 *)
Definition hw_rows : list (nat * Z * R) :=
  [(1%nat, 0%Z, 1); (1%nat, 1%Z, 2); (1%nat, 2%Z, 9); (1%nat, 3%Z, 9); (2%nat, 0%Z, 1); (2%nat, 1%Z, 2); (2%nat, 2%Z, 9); (2%nat, 3%Z, 9);
   (3%nat, 0%Z, 101); (3%nat, 2%Z, 109); (3%nat, 3%Z, 109)].
Notation hw_rank := (rank_control_units Nat.eq_dec dsort_ex hw_rows (fun i => fst (fst i)) (fun i => snd (fst i)) (fun i => Fin (snd i))).
Notation hw_full := (fun backend b fsort iter gnrm => rank_full Nat.eq_dec dsort_ex backend b fsort iter gnrm hw_rows (fun i => fst (fst i)) (fun i => snd (fst i)) (fun i => Fin (snd i))).
Lemma hw_rankable : rankable hw_rows (fun i => fst (fst i)) (fun i => snd (fst i)) None (Some [1%nat]) None (7/10) (3/10) None None.
Proof.
  split; [lra|]. split; [lra|]. split; [right; reflexivity|]. split; [discriminate|]. split.
  - vm_compute. repeat constructor; simpl; intuition discriminate.
  - split; [exists (2%nat, 0%Z, 1)|exists (1%nat, 0%Z, 1)]; (split; [split; [simpl; tauto|vm_compute; tauto]|]); simpl; [split; [intuition discriminate|discriminate]|tauto].
Qed.
Theorem hw_case backend b fsort iter gnrm lambda : (0 < iter)%nat ->
  exists table, hw_rank None (Some [1%nat]) None [] (7/10) (3/10) None None None false = Ok (Some table) /\
  Permutation (map k_unit table) [2%nat; 3%nat] /\
  (hw_full backend b fsort iter gnrm None (Some [1%nat]) None [] (7/10) (3/10) None None None false lambda = Ok (Some (map (fun r => (r, Fin (1 / 2))) table)) \/
   hw_full backend b fsort iter gnrm None (Some [1%nat]) None [] (7/10) (3/10) None None None false lambda = Err LinAlgError).
Proof.
  intros Hit. destruct (proj2 (rank_defined Nat.eq_dec dsort_ex hw_rows (fun i => fst (fst i)) (fun i => snd (fst i)) (fun i => Fin (snd i)) None (Some [1%nat]) None [] (7/10) (3/10) None None None false)) as (table & Ht).
  { split; [exact hw_rankable|congruence]. }
  exists table. split; [exact Ht|].
  destruct (rank_inv _ _ _ _ _ _ _ _ _ _ _ _ _ _ _ _ _ Ht) as (tr & T & _ & _ & _ & _ & _ & _ & _ & _ & _ & Et). cbv zeta in Et. change (limit_top dsort_ex None ?l) with l in Et.
  assert (Pm : Permutation (map k_unit table) [2%nat; 3%nat]).
  { rewrite Et. eapply Permutation_trans; [apply Permutation_map, (proj1 (dsort_ex_ok _))|]. rewrite line_unit.
    assert (tr = [1%nat]) as -> by (vm_compute in T; congruence). vm_compute. apply Permutation_refl. }
  split; [exact Pm|].
  assert (L : length table = 2%nat) by (rewrite <- (map_length k_unit), (Permutation_length Pm); reflexivity).
  destruct (full_hole Nat.eq_dec dsort_ex dsort_ex_ok backend b fsort iter gnrm Hit hw_rows _ _ (fun i => Fin (snd i)) None (Some [1%nat]) None [] (7/10) (3/10) None None None false lambda table table Ht Ht) as [E|[E _]].
  - lia.
  - exists 1%Z. split.
    + split; [vm_compute; tauto|]. exists (1%nat, 1%Z, 2). simpl. tauto.
    + left. exists 3%nat. split; [exists (3%nat, 0%Z, 101); split; [simpl; tauto|split; [reflexivity|vm_compute; tauto]]|]. split; [simpl; intuition discriminate|]. split; [discriminate|].
      intros i Hi. simpl in Hi. repeat destruct Hi as [<-|Hi]; simpl; try discriminate; try contradiction.
  - left. rewrite L in E. replace (INR 2) with 2 in E by (simpl; lra). exact E.
  - right. exact E.
Qed.

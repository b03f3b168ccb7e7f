(* How BaconDecomposition reacts to rescaled outcomes, added effects and reordered or relabelled data. *)
From Verif Require Import Prelude Flt Linalg_model Linalg_proofs Linalg_vcov Did_model Within_proofs Multi_model Multi_proofs Bacon_model Bacon_proofs Bacon_thms.
From Coq Require Import Arith ZArith String List Permutation.
Import ListNotations.
Open Scope R_scope.

(* the same comparison with its estimate multiplied by s *)
Definition scale_cmp (s : R) (c : comparison) : comparison :=
  {| cmp_treated := cmp_treated c; cmp_control := cmp_control c; cmp_type := cmp_type c; cmp_est := fmul (Fin s) (cmp_est c);
     cmp_weight := cmp_weight c; cmp_nt := cmp_nt c; cmp_nc := cmp_nc c; cmp_window := cmp_window c |}.

(* finite or missing *)
Definition fon (x : fl) : Prop := x = NaN \/ exists r, x = Fin r.

Section Lin.
Context {I : Type}.
Variables (rows : list I) (u t : I -> Z) (g : I -> coh).
Notation cs y := (comparisons0 rows u t g y).
Notation W := (within Z.eq_dec Z.eq_dec rows u t).

Definition est_of (y : I -> R) (c : comparison) : fl :=
  did22 (smean y (in_periods t (cpost rows t c) (ctreated rows g c))) (smean y (in_periods t (cpre rows t c) (ctreated rows g c)))
        (smean y (in_periods t (cpost rows t c) (ccontrol rows g c))) (smean y (in_periods t (cpre rows t c) (ccontrol rows g c))).

Lemma est_of_in y c : In c (cs y) -> cmp_est c = est_of y c.
Proof. intros H. apply (cmp_facts rows u t g y c H). Qed.

Lemma smean_fon (y : I -> R) l : fon (smean y l).
Proof. destruct l; [left|right; eexists]; reflexivity. Qed.
Lemma est_of_fon y c : fon (est_of y c).
Proof.
  unfold est_of, did22.
  destruct (smean_fon y (in_periods t (cpost rows t c) (ctreated rows g c))) as [->|(a & ->)]; [left; reflexivity|].
  destruct (smean_fon y (in_periods t (cpre rows t c) (ctreated rows g c))) as [->|(b & ->)]; [left; reflexivity|].
  destruct (smean_fon y (in_periods t (cpost rows t c) (ccontrol rows g c))) as [->|(d & ->)]; [left; reflexivity|].
  destruct (smean_fon y (in_periods t (cpre rows t c) (ccontrol rows g c))) as [->|(e & ->)]; [left; reflexivity|].
  right; eexists; reflexivity.
Qed.

Lemma est_of_desc y c c' : cdesc c = cdesc c' -> est_of y c = est_of y c'.
Proof. unfold cdesc, est_of, cpost, cpre, ctreated, ccontrol. intros H. injection H as -> -> -> _ _ _ _. reflexivity. Qed.

Lemma scaled_list s y y' l l' : map cdesc l' = map cdesc l ->
  (forall c, In c l -> cmp_est c = est_of y c) -> (forall c, In c l' -> cmp_est c = est_of y' c) ->
  (forall c, In c l -> est_of y' c = fmul (Fin s) (est_of y c)) -> l' = map (scale_cmp s) l.
Proof.
  revert l'. induction l as [|c l IH]; intros [|c' l'] D H H' E; try discriminate; auto.
  cbn [map] in *. assert (D1 : cdesc c' = cdesc c) by congruence. assert (D2 : map cdesc l' = map cdesc l) by congruence.
  f_equal; [|apply IH; auto; intros; first [apply H|apply H'|apply E]; right; auto].
  assert (Ec : cmp_est c' = fmul (Fin s) (cmp_est c)).
  { rewrite (H' c' (or_introl eq_refl)), (est_of_desc y' c' c D1), (E c (or_introl eq_refl)), (H c (or_introl eq_refl)). reflexivity. }
  clear - D1 Ec. destruct c, c'. unfold cdesc in D1. cbn in *. injection D1. intros. subst. reflexivity.
Qed.

Lemma fsum_scaled s (l : list comparison) : (forall c, In c l -> fon (cmp_est c)) ->
  fon (fsum (map (fun c => fmul (Fin (cmp_weight c)) (cmp_est c)) l)) /\
  fsum (map (fun c => fmul (Fin (cmp_weight c)) (cmp_est c)) (map (scale_cmp s) l))
  = fmul (Fin s) (fsum (map (fun c => fmul (Fin (cmp_weight c)) (cmp_est c)) l)).
Proof.
  induction l as [|c l IH]; intros H.
  - split; [right; eexists; reflexivity|]. cbn. f_equal. ring.
  - destruct IH as [F E]; [intros; apply H; right; auto|].
    change (fsum (map (fun c => fmul (Fin (cmp_weight c)) (cmp_est c)) (c :: l)))
      with (fadd (fmul (Fin (cmp_weight c)) (cmp_est c)) (fsum (map (fun c => fmul (Fin (cmp_weight c)) (cmp_est c)) l))).
    change (fsum (map (fun c => fmul (Fin (cmp_weight c)) (cmp_est c)) (map (scale_cmp s) (c :: l))))
      with (fadd (fmul (Fin (cmp_weight c)) (fmul (Fin s) (cmp_est c))) (fsum (map (fun c => fmul (Fin (cmp_weight c)) (cmp_est c)) (map (scale_cmp s) l)))).
    rewrite E. destruct F as [->|(f & ->)], (H c (or_introl eq_refl)) as [->|(e & ->)]; cbn;
      (split; [first [left; reflexivity|right; eexists; reflexivity]|try reflexivity]).
    f_equal. ring.
Qed.

Lemma scale_weight_sum s l : sumf cmp_weight (map (scale_cmp s) l) = sumf cmp_weight l.
Proof. rewrite sumf_map. reflexivity. Qed.
Lemma normalised_scaled s l : normalised (map (scale_cmp s) l) = map (scale_cmp s) (normalised l).
Proof.
  unfold normalised. rewrite scale_weight_sum. destruct (Rlt_dec 0 (sumf cmp_weight l)); [|reflexivity].
  rewrite !map_map. apply map_ext. reflexivity.
Qed.
Lemma filter_type_scaled s ty l :
  filter (fun c => ctype_eqb (cmp_type c) ty) (map (scale_cmp s) l) = map (scale_cmp s) (filter (fun c => ctype_eqb (cmp_type c) ty) l).
Proof. induction l as [|c l IH]; auto. cbn [map filter]. rewrite IH. cbn [scale_cmp cmp_type]. destruct (ctype_eqb (cmp_type c) ty); reflexivity. Qed.
Lemma type_weight_scaled s ty l : type_weight (map (scale_cmp s) l) ty = type_weight l ty.
Proof. unfold type_weight. rewrite filter_type_scaled. apply scale_weight_sum. Qed.
Lemma type_average_scaled s ty l : (forall c, In c l -> fon (cmp_est c)) ->
  type_average (map (scale_cmp s) l) ty = option_map (fmul (Fin s)) (type_average l ty).
Proof.
  intros H. unfold type_average. rewrite type_weight_scaled. destruct (Rlt_dec 0 (type_weight l ty)) as [Hp|]; [|reflexivity].
  cbn [option_map]. f_equal. rewrite filter_type_scaled.
  destruct (fsum_scaled s (filter (fun c => ctype_eqb (cmp_type c) ty) l)) as [F ->]; [intros c Hc; apply filter_In in Hc as [Hc _]; auto|].
  destruct F as [->|(f & ->)]; cbn; [reflexivity|]. destruct (Req_EM_T (type_weight l ty) 0); [lra|]. cbn. f_equal. field; auto.
Qed.

(* everything reported, from the estimates and the regression coefficient *)
Theorem fit_scaled exact s y y' :
  (forall c, In c (cs y) -> est_of y' c = fmul (Fin s) (est_of y c)) ->
  btwfe rows u t g y' = s * btwfe rows u t g y ->
  let o := bacon_fit rows u t g y exact in
  let o' := bacon_fit rows u t g y' exact in
  bo_twfe o' = s * bo_twfe o /\
  bo_comparisons o' = map (scale_cmp s) (bo_comparisons o) /\
  (forall ty, bo_weights o' ty = bo_weights o ty) /\
  (forall ty, bo_averages o' ty = option_map (fmul (Fin s)) (bo_averages o ty)) /\
  bo_error o' = fmul (Fin (Rabs s)) (bo_error o) /\
  (bo_n_groups o', bo_n_never o', bo_groups o', bo_nobs o', bo_unbalanced o')
  = (bo_n_groups o, bo_n_never o, bo_groups o, bo_nobs o, bo_unbalanced o).
Proof.
  intros He Ht o o'. subst o o'. cbn [bacon_fit bo_twfe bo_comparisons bo_weights bo_averages bo_error bo_n_groups bo_n_never bo_groups bo_nobs bo_unbalanced].
  assert (E0 : cs y' = map (scale_cmp s) (cs y)).
  { apply (scaled_list s y y' (cs y) (cs y')); auto.
    - apply comparisons_desc.
    - intros c Hc. apply est_of_in; auto.
    - intros c Hc. apply est_of_in; auto. }
  assert (E1 : reweighted rows u t g y' exact = map (scale_cmp s) (reweighted rows u t g y exact)).
  { unfold reweighted. destruct exact; [|exact E0]. rewrite E0, !map_map. apply map_ext. intros c. reflexivity. }
  assert (E2 : normalised (reweighted rows u t g y' exact) = map (scale_cmp s) (normalised (reweighted rows u t g y exact))).
  { rewrite E1. apply normalised_scaled. }
  assert (F0 : forall c, In c (reweighted rows u t g y exact) -> fon (cmp_est c)).
  { unfold reweighted. intros c Hc. destruct exact.
    - apply in_map_iff in Hc as (c' & <- & Hc). cbn. rewrite (est_of_in y c' Hc). apply est_of_fon.
    - rewrite (est_of_in y c Hc). apply est_of_fon. }
  assert (F : forall c, In c (normalised (reweighted rows u t g y exact)) -> fon (cmp_est c)).
  { unfold normalised. destruct (Rlt_dec 0 _); [|exact F0]. intros c Hc. apply in_map_iff in Hc as (c' & <- & Hc). exact (F0 c' Hc). }
  rewrite E2. set (l := normalised (reweighted rows u t g y exact)) in *. clearbody l.
  split; [exact Ht|]. split; [reflexivity|]. split; [intros; apply type_weight_scaled|]. split; [intros; apply type_average_scaled; auto|].
  split; [|reflexivity]. unfold weighted_sum. destruct (fsum_scaled s l F) as [G ->]. rewrite Ht.
  destruct G as [->|(w & ->)]; cbn; [reflexivity|]. f_equal. rewrite <- Rabs_mult. f_equal. ring.
Qed.

(* ---- scale and level, on any panel ---- *)
Lemma smean_affine s k y (y' : I -> R) l : (forall i, In i l -> y' i = s * y i + k) -> smean y' l = fadd (fmul (Fin s) (smean y l)) (Fin k).
Proof.
  intros H. destruct l as [|i l]; [reflexivity|]. cbn [smean fmul fadd]. f_equal. unfold meanf.
  rewrite (sumf_ext _ (fun j => s * y j + k)) by auto. rewrite sumf_add, sumf_scal, sumf_const. field.
  apply Rgt_not_eq, len_pos. discriminate.
Qed.
Lemma in_rows_t ps c i : In i (in_periods t ps (ctreated rows g c)) -> In i rows.
Proof. intros H. apply (sel_rows_window rows t g (Some (cmp_treated c)) i ps) in H. tauto. Qed.
Lemma in_rows_c ps c i : In i (in_periods t ps (ccontrol rows g c)) -> In i rows.
Proof. intros H. apply (sel_rows_window rows t g (cmp_control c) i ps) in H. tauto. Qed.

Lemma est_affine s k y y' c : (forall i, In i rows -> y' i = s * y i + k) -> est_of y' c = fmul (Fin s) (est_of y c).
Proof.
  intros H. unfold est_of.
  rewrite (smean_affine s k y y' (in_periods t (cpost rows t c) (ctreated rows g c))) by (intros i Hi; apply H, (in_rows_t _ c i Hi)).
  rewrite (smean_affine s k y y' (in_periods t (cpre rows t c) (ctreated rows g c))) by (intros i Hi; apply H, (in_rows_t _ c i Hi)).
  rewrite (smean_affine s k y y' (in_periods t (cpost rows t c) (ccontrol rows g c))) by (intros i Hi; apply H, (in_rows_c _ c i Hi)).
  rewrite (smean_affine s k y y' (in_periods t (cpre rows t c) (ccontrol rows g c))) by (intros i Hi; apply H, (in_rows_c _ c i Hi)).
  unfold did22.
  destruct (smean_fon y (in_periods t (cpost rows t c) (ctreated rows g c))) as [->|(a & ->)]; [reflexivity|].
  destruct (smean_fon y (in_periods t (cpre rows t c) (ctreated rows g c))) as [->|(b & ->)]; [reflexivity|].
  destruct (smean_fon y (in_periods t (cpost rows t c) (ccontrol rows g c))) as [->|(d & ->)]; [reflexivity|].
  destruct (smean_fon y (in_periods t (cpre rows t c) (ccontrol rows g c))) as [->|(e & ->)]; [reflexivity|].
  cbn. f_equal. ring.
Qed.

Lemma btwfe_scaled s y y' : (forall i, In i rows -> W y' i = s * W y i) -> btwfe rows u t g y' = s * btwfe rows u t g y.
Proof.
  intros H. unfold btwfe. destruct (Rlt_dec 0 _); [|ring].
  rewrite (sumf_ext (fun i => W (btreat t g) i * W y' i) (fun i => s * (W (btreat t g) i * W y i))) by (intros i Hi; rewrite H by auto; ring).
  rewrite sumf_scal. unfold Rdiv. ring.
Qed.
Lemma within_level k i : In i rows -> W (fun _ => k) i = 0.
Proof.
  intros Hi. unfold within.
  rewrite (group_mean_const Z.eq_dec rows u (fun _ => k) i Hi), (group_mean_const Z.eq_dec rows t (fun _ => k) i Hi).
  unfold meanf. rewrite sumf_const. field. apply Rgt_not_eq, len_pos. intros E; rewrite E in Hi; destruct Hi.
Qed.
Lemma within_affine s k y y' i : In i rows -> (forall j, In j rows -> y' j = s * y j + k) -> W y' i = s * W y i.
Proof.
  intros Hi H. rewrite (within_ext Z.eq_dec Z.eq_dec rows u t y' (fun j => s * y j + k) i Hi H).
  rewrite (within_add Z.eq_dec Z.eq_dec rows u t (fun j => s * y j) (fun _ => k) i), within_scal, within_level by auto. ring.
Qed.

(* ---- unit and period effects, on a balanced panel ---- *)
Variables (m : nat) (C : Z -> coh).
Hypothesis Hbal : balanced Z.eq_dec Z.eq_dec rows u t m.
Hypothesis HC : forall i, In i rows -> g i = C (u i).
Hypothesis Hvalid : forall i, In i rows -> c_never (g i) = true \/ exists z, (0 < z)%Z /\ g i = CFin z.

Lemma windows_nonempty y c : In c (cs y) ->
  (in_periods t (cpost rows t c) (ctreated rows g c) <> [] /\ in_periods t (cpre rows t c) (ctreated rows g c) <> []) /\
  (in_periods t (cpost rows t c) (ccontrol rows g c) <> [] /\ in_periods t (cpre rows t c) (ccontrol rows g c) <> []).
Proof.
  intros Hc. pose proof (k_not_zero rows u t g y c Hc) as Hk. pose proof (control_not_zero rows u t g y c Hc) as Hl.
  destruct (cmp_facts rows u t g y c Hc) as (_ & _ & (N1 & N2 & N3 & N4) & _).
  repeat split; unfold ctreated, ccontrol in *;
   apply (window_nonempty rows u t g m C Hbal HC Hvalid); auto;
   first [apply pre_nodup|apply post_nodup|apply pre_incl|apply post_incl].
Qed.

Lemma smean_sum s y h (y' : I -> R) l : l <> [] -> (forall i, In i l -> y' i = s * y i + h i) ->
  exists a b, smean y l = Fin a /\ smean h l = Fin b /\ smean y' l = Fin (s * a + b).
Proof.
  intros Hne H. exists (meanf y l), (meanf h l). rewrite !(mean_shift l) by auto. split; [reflexivity|]. split; [reflexivity|]. f_equal.
  unfold meanf. rewrite (sumf_ext y' (fun j => s * y j + h j)) by auto. rewrite sumf_add, sumf_scal. unfold Rdiv. ring.
Qed.

Lemma est_effects s (a b : Z -> R) y y' c : (forall i, In i rows -> y' i = s * y i + (a (u i) + b (t i))) -> In c (cs y) ->
  est_of y' c = fmul (Fin s) (est_of y c).
Proof.
  intros H Hc. destruct (windows_nonempty y c Hc) as ((N1 & N2) & (N3 & N4)).
  set (h := fun i => a (u i) + b (t i)).
  assert (Hh : est_of h c = Fin 0).
  { assert (Hin : In (cdesc c) (map cdesc (cs h))) by (rewrite (comparisons_desc rows u t g h y); apply in_map; auto).
    apply in_map_iff in Hin as (c' & D & Hc'). rewrite (est_of_desc h c c') by auto. rewrite <- (est_of_in h c' Hc').
    apply (est_homogeneous rows u t g m C Hbal HC Hvalid h a b 0); auto. intros i Hi. unfold h. ring. }
  revert Hh. unfold est_of.
  destruct (smean_sum s y h y' _ N1) as (a1 & b1 & -> & -> & ->); [intros i Hi; apply H, (in_rows_t _ c i Hi)|].
  destruct (smean_sum s y h y' _ N2) as (a2 & b2 & -> & -> & ->); [intros i Hi; apply H, (in_rows_t _ c i Hi)|].
  destruct (smean_sum s y h y' _ N3) as (a3 & b3 & -> & -> & ->); [intros i Hi; apply H, (in_rows_c _ c i Hi)|].
  destruct (smean_sum s y h y' _ N4) as (a4 & b4 & -> & -> & ->); [intros i Hi; apply H, (in_rows_c _ c i Hi)|].
  unfold did22. cbn. intros E. f_equal. injection E as E. 
  transitivity (s * (a1 - a2 - (a3 - a4)) + (b1 - b2 - (b3 - b4))); [ring|]. 
  assert (E' : b1 - b2 - (b3 - b4) = 0) by exact E. rewrite E'. ring.
Qed.

Lemma within_effects s (a b : Z -> R) y y' i : In i rows -> (forall j, In j rows -> y' j = s * y j + (a (u j) + b (t j))) -> W y' i = s * W y i.
Proof.
  intros Hi H. rewrite (within_ext Z.eq_dec Z.eq_dec rows u t y' (fun j => s * y j + (a (u j) + b (t j))) i Hi H).
  rewrite (within_add Z.eq_dec Z.eq_dec rows u t (fun j => s * y j) (fun j => a (u j) + b (t j)) i), within_scal.
  rewrite (within_additive Z.eq_dec Z.eq_dec rows u t m Hbal a b i Hi). ring.
Qed.
End Lin.

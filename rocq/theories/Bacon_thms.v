(* Weights, decomposition error and never-treated coding of the Goodman-Bacon decomposition. *)
From Verif Require Import Prelude Flt Linalg_model Linalg_proofs Did_model Within_proofs Multi_model Multi_proofs Bacon_model Bacon_proofs.
From Coq Require Import Arith ZArith String List Permutation.
Import ListNotations.
Open Scope R_scope.

(* ---------- normalisation ---------- *)
Lemma set_weight_est c w : cmp_est (set_weight c w) = cmp_est c.
Proof. reflexivity. Qed.

Lemma pos_sum l : (forall c, In c l -> 0 < cmp_weight c) -> l <> [] -> 0 < sumf cmp_weight l.
Proof.
  intros H Hne. destruct l as [|c l]; [congruence|]. simpl.
  assert (0 < cmp_weight c) by (apply H; left; auto).
  assert (0 <= sumf cmp_weight l) by (apply sumf_nonneg; intros; apply Rlt_le, H; right; auto). lra.
Qed.

Lemma normalised_sum l : (forall c, In c l -> 0 < cmp_weight c) -> l <> [] ->
  (forall c, In c (normalised l) -> 0 < cmp_weight c <= 1) /\ sumf cmp_weight (normalised l) = 1.
Proof.
  intros H Hne. pose proof (pos_sum l H Hne) as Hp. unfold normalised. destruct (Rlt_dec 0 (sumf cmp_weight l)) as [_|]; [|contradiction].
  assert (Es : sumf cmp_weight (map (fun c => set_weight c (cmp_weight c / sumf cmp_weight l)) l) = 1).
  { rewrite sumf_map. cbn. unfold Rdiv. rewrite sumf_scal_r. field. lra. }
  split; auto. intros c Hc. apply in_map_iff in Hc as (c' & <- & Hc). cbn. pose proof (H c' Hc) as Hw.
  split; [apply Rdiv_lt_0_compat; auto|]. apply (Rmult_le_reg_r (sumf cmp_weight l)); auto. unfold Rdiv. rewrite Rmult_assoc, Rinv_l by lra.
  rewrite Rmult_1_r, Rmult_1_l. apply sumf_In_le; auto. intros; apply Rlt_le; auto.
Qed.

Lemma fsum_terms l : (forall c, In c l -> exists e, cmp_est c = Fin e) ->
  fsum (map (fun c => fmul (Fin (cmp_weight c)) (cmp_est c)) l) = Fin (sumf (fun c => cmp_weight c * toR (cmp_est c)) l).
Proof.
  induction l as [|c l IH]; intros H; [reflexivity|].
  change (fadd (fmul (Fin (cmp_weight c)) (cmp_est c)) (fsum (map (fun c => fmul (Fin (cmp_weight c)) (cmp_est c)) l))
          = Fin (sumf (fun c => cmp_weight c * toR (cmp_est c)) (c :: l))).
  rewrite IH by (intros; apply H; right; auto). destruct (H c (or_introl eq_refl)) as (e & E). simpl. rewrite E. reflexivity.
Qed.

Lemma normalised_weighted l : (forall c, In c l -> 0 < cmp_weight c) -> l <> [] -> (forall c, In c l -> exists e, cmp_est c = Fin e) ->
  weighted_sum (normalised l) = Fin (sumf (fun c => cmp_weight c * toR (cmp_est c)) l / sumf cmp_weight l).
Proof.
  intros H Hne He. pose proof (pos_sum l H Hne) as Hp. unfold weighted_sum, normalised.
  destruct (Rlt_dec 0 (sumf cmp_weight l)) as [_|]; [|contradiction].
  rewrite fsum_terms.
  - f_equal. rewrite sumf_map.
    rewrite (sumf_ext_all (fun c => cmp_weight (set_weight c (cmp_weight c / sumf cmp_weight l)) * toR (cmp_est (set_weight c (cmp_weight c / sumf cmp_weight l))))
                          (fun c => / sumf cmp_weight l * (cmp_weight c * toR (cmp_est c)))) by (intros; cbn; unfold Rdiv; ring).
    rewrite sumf_scal. unfold Rdiv. ring.
  - intros c Hc. apply in_map_iff in Hc as (c' & <- & Hc). exact (He c' Hc).
Qed.

Lemma type_split l : sumf cmp_weight l = type_weight l TreatedNever + type_weight l EarlierLater + type_weight l LaterEarlier.
Proof.
  unfold type_weight. rewrite !sumf_filter, <- !sumf_add. apply sumf_ext_all. intros c. destruct (cmp_type c); unfold ind; simpl; ring.
Qed.

(* a weighted average with positive weights lies between any bounds of its terms *)
Lemma average_bounds l lo hi : (forall c, In c l -> 0 < cmp_weight c /\ lo <= toR (cmp_est c) <= hi) -> l <> [] ->
  lo <= sumf (fun c => cmp_weight c * toR (cmp_est c)) l / sumf cmp_weight l <= hi.
Proof.
  intros H Hne. assert (Hp : 0 < sumf cmp_weight l) by (apply pos_sum; auto; intros c Hc; apply H; auto).
  split; apply (Rmult_le_reg_r (sumf cmp_weight l)); auto; unfold Rdiv; rewrite Rmult_assoc, Rinv_l, Rmult_1_r by lra.
  - rewrite <- sumf_scal. apply sumf_le. intros c Hc. destruct (H c Hc) as [? [? ?]]. rewrite (Rmult_comm lo). apply Rmult_le_compat_l; lra.
  - rewrite <- sumf_scal. apply sumf_le. intros c Hc. destruct (H c Hc) as [? [? ?]]. rewrite (Rmult_comm hi). apply Rmult_le_compat_l; lra.
Qed.

Lemma NoDup_app_intro {X} (l1 l2 : list X) : NoDup l1 -> NoDup l2 -> (forall x, In x l1 -> ~ In x l2) -> NoDup (l1 ++ l2).
Proof.
  induction l1 as [|a l1 IH]; intros H1 H2 H; simpl; auto. inversion H1; subst. constructor.
  - intros Hin. apply in_app_or in Hin as [Hin|Hin]; auto. apply (H a); simpl; auto.
  - apply IH; auto. intros x Hx. apply H; right; auto.
Qed.

Section Weights.
Context {I : Type}.
Variables (rows : list I) (u t : I -> Z) (g : I -> coh).
Notation Us := (nodup Z.eq_dec (map u rows)).
Notation Ts := (bperiods rows t).

Lemma share_pos (a b : nat) : (0 < a)%nat -> (0 < b)%nat -> 0 < INR a / INR (a + b) < 1.
Proof.
  intros Ha Hb. apply lt_0_INR in Ha. apply lt_0_INR in Hb. rewrite plus_INR. split.
  - apply Rdiv_lt_0_compat; lra.
  - apply (Rmult_lt_reg_r (INR a + INR b)); [lra|]. unfold Rdiv. rewrite Rmult_assoc, Rinv_l by lra. lra.
Qed.

Lemma prod5 a b c d e : 0 < a -> 0 < b -> 0 < c -> 0 < d -> 0 < e -> 0 < a * b * c * d * e.
Proof. intros. repeat apply Rmult_lt_0_compat; auto. Qed.

Theorem approx_weight_pos y c : In c (comparisons0 rows u t g y) -> 0 < cmp_weight c.
Proof.
  intros Hc. destruct (cmp_facts rows u t g y c Hc) as (Hk & Hty & (N1 & N2 & N3 & N4) & (E1 & E2) & _ & ->).
  assert (P1 : (0 < cmp_nt c)%nat) by (rewrite E1; apply nunique_pos; auto).
  assert (P2 : (0 < cmp_nc c)%nat) by (rewrite E2; apply nunique_pos; auto).
  assert (P3 : (0 < length (cpre rows t c))%nat) by (destruct (cpre rows t c); [congruence|simpl; lia]).
  assert (P4 : (0 < length (cpost rows t c))%nat) by (destruct (cpost rows t c); [congruence|simpl; lia]).
  assert (PT : 0 < len Ts).
  { apply len_pos. intros E. apply N1. destruct (cpre rows t c) as [|s l] eqn:Ep; auto. exfalso.
    assert (In s Ts) by (apply (pre_incl rows t (cmp_type c) (cmp_treated c) (cmp_control c)); fold (cpre rows t c); rewrite Ep; left; auto).
    rewrite E in H; destruct H. }
  cbv zeta. pose proof (share_pos _ _ P1 P2). pose proof (share_pos _ _ P4 P3) as Hd. rewrite Nat.add_comm in Hd.
  fold (len (cpost rows t c)) in Hd.
  apply prod5; try lra. apply Rdiv_lt_0_compat; auto. apply lt_0_INR. lia.
Qed.

Theorem exact_weight_pos y c : In c (comparisons0 rows u t g y) ->
  (exists i, In i rows /\ (c_is (g i) (cmp_treated c) = true) /\ (In (t i) (cpre rows t c) \/ In (t i) (cpost rows t c))) ->
  0 < exact_weight rows u t g c.
Proof.
  intros Hc (i0 & Hi0 & Hsel & Hwin). destruct (cmp_facts rows u t g y c Hc) as (Hk & Hty & (N1 & N2 & N3 & N4) & _ & _ & _).
  unfold exact_weight. fold (cpre rows t c). fold (cpost rows t c).
  assert (N5 : nodup Z.eq_dec (map u (filter (fun i => c_is (g i) (cmp_treated c)) rows)) <> []).
  { intros E. assert (H : In (u i0) (nodup Z.eq_dec (map u (filter (fun i => c_is (g i) (cmp_treated c)) rows)))).
    { apply nodup_In, in_map, filter_In. auto. } rewrite E in H. destruct H. }
  assert (N6 : nodup Z.eq_dec (map u (filter (fun i => match cmp_control c with None => c_never (g i) | Some l => c_is (g i) l end) rows)) <> []).
  { unfold ccontrol in N4. destruct (filter (sel g (cmp_control c)) rows) as [|j l] eqn:Ej; [congruence|].
    change (fun i : I => match cmp_control c with None => c_never (g i) | Some l => c_is (g i) l end) with (sel g (cmp_control c)).
    rewrite Ej. intros E. assert (H : In (u j) (nodup Z.eq_dec (map u (j :: l)))) by (apply nodup_In; left; auto). rewrite E in H. destruct H. }
  set (ut := nodup Z.eq_dec (map u (filter (fun i => c_is (g i) (cmp_treated c)) rows))) in *.
  set (uc := nodup Z.eq_dec (map u (filter (fun i => match cmp_control c with None => c_never (g i) | Some l => c_is (g i) l end) rows))) in *.
  set (pre := cpre rows t c) in *. set (post := cpost rows t c) in *.
  replace (nonempty pre) with true by (destruct pre; [congruence|reflexivity]).
  replace (nonempty post) with true by (destruct post; [congruence|reflexivity]). cbn [negb orb].
  set (d22 := filter (fun i => existsb (Z.eqb (u i)) (ut ++ uc) && existsb (Z.eqb (t i)) (pre ++ post)) rows).
  assert (N7 : d22 <> []).
  { intros E. assert (H : In i0 d22).
    { apply filter_In. split; auto. apply andb_true_iff. split; apply existsb_Z, in_or_app.
      - left. apply nodup_In, in_map, filter_In. auto.
      - tauto. }
    rewrite E in H; destruct H. }
  replace (nonempty d22) with true by (destruct d22; [congruence|reflexivity]). cbn [negb].
  assert (L1 : (0 < length ut)%nat) by (destruct ut; [congruence|simpl; lia]).
  assert (L2 : (0 < length uc)%nat) by (destruct uc; [congruence|simpl; lia]).
  assert (L3 : (0 < length pre)%nat) by (destruct pre; [congruence|simpl; lia]).
  assert (L4 : (0 < length post)%nat) by (destruct post; [congruence|simpl; lia]).
  replace (Nat.eqb (length ut) 0) with false by (symmetry; apply Nat.eqb_neq; lia).
  replace (Nat.eqb (length uc) 0) with false by (symmetry; apply Nat.eqb_neq; lia). cbn [orb].
  pose proof (share_pos _ _ L1 L2). pose proof (share_pos _ _ L4 L3) as Hd. rewrite Nat.add_comm in Hd. fold (len post) in Hd.
  assert (0 < len d22) by (apply len_pos; auto).
  assert (0 < len rows) by (apply len_pos; intros E; rewrite E in Hi0; destruct Hi0).
  assert (0 < INR (length ut + length uc)) by (apply lt_0_INR; lia).
  assert (0 < INR (length Us)).
  { apply lt_0_INR. assert (In (u i0) Us) by (apply nodup_In, in_map; auto). destruct Us; [contradiction|simpl; lia]. }
  apply Rmult_lt_0_compat; [apply Rmult_lt_0_compat; [apply Rdiv_lt_0_compat; auto|]|apply Rdiv_lt_0_compat; auto].
  apply Rmult_lt_0_compat; [apply Rmult_lt_0_compat|]; lra.
Qed.
End Weights.

(* ---------- balanced panels ---------- *)
Section Balanced.
Context {I : Type}.
Variables (rows : list I) (u t : I -> Z) (g : I -> coh) (m : nat) (C : Z -> coh).
Hypothesis Hbal : balanced Z.eq_dec Z.eq_dec rows u t m.
Hypothesis HC : forall i, In i rows -> g i = C (u i).
Hypothesis Hvalid : forall i, In i rows -> c_never (g i) = true \/ exists z, (0 < z)%Z /\ g i = CFin z.
Notation Us := (nodup Z.eq_dec (map u rows)).
Notation Ts := (bperiods rows t).
Notation mem := (members Us oz_dec (bkey C)).
Notation cs y := (comparisons0 rows u t g y).

Lemma k_not_zero y c : In c (cs y) -> Some (cmp_treated c) <> Some 0%Z.
Proof. intros Hc E. destruct (cmp_facts rows u t g y c Hc) as (Hk & _). assert (cmp_treated c = 0)%Z by congruence. lia. Qed.

Lemma cmp_members y c : In c (cs y) ->
  mem (Some (cmp_treated c)) <> [] /\ mem (cmp_control c) <> [] /\
  cmp_nt c = length (mem (Some (cmp_treated c))) /\ cmp_nc c = length (mem (cmp_control c)).
Proof.
  intros Hc. pose proof (k_not_zero y c Hc) as Hk. pose proof (control_not_zero rows u t g y c Hc) as Hl.
  destruct (cmp_facts rows u t g y c Hc) as (_ & _ & (_ & _ & N3 & N4) & (E1 & E2) & _).
  rewrite E1, E2. unfold ctreated, ccontrol in *. rewrite !(nunique_members rows u g C HC Hvalid) by auto.
  assert (Hne : forall k, k <> Some 0%Z -> filter (sel g k) rows <> [] -> mem k <> []).
  { intros k Hk' Hn. apply nonempty_true. rewrite <- (sel_nonempty rows u g C HC Hvalid) by auto. destruct (filter (sel g k) rows); [congruence|reflexivity]. }
  split; [|split]; auto.
Qed.

Theorem est_finite y c : In c (cs y) -> exists e, cmp_est c = Fin e.
Proof.
  intros Hc. destruct (cmp_facts rows u t g y c Hc) as (_ & _ & (N1 & N2 & _ & _) & _ & -> & _).
  destruct (cmp_members y c Hc) as (M1 & M2 & _). eexists. unfold ctreated, ccontrol.
  rewrite (est_value rows u t g m C Hbal HC Hvalid y (Some (cmp_treated c)) (cmp_control c)); auto;
   first [apply pre_nodup|apply post_nodup|apply pre_incl|apply post_incl|apply (k_not_zero y c Hc)|apply (control_not_zero rows u t g y c Hc)].
Qed.

(* how the code's weights relate to the Goodman-Bacon weights *)
Theorem approx_weight_gb y c : In c (cs y) ->
  cmp_weight c = gb_weight rows t c / (INR (cmp_nt c + cmp_nc c) ^ 2 * INR (length (cpre rows t c) + length (cpost rows t c)) * len Ts).
Proof.
  intros Hc. destruct (cmp_facts rows u t g y c Hc) as (Hk & Hty & (N1 & N2 & N3 & N4) & (E1 & E2) & _ & ->).
  assert (P1 : 0 < INR (cmp_nt c)) by (apply lt_0_INR; rewrite E1; apply nunique_pos; auto).
  assert (P2 : 0 < INR (cmp_nc c)) by (apply lt_0_INR; rewrite E2; apply nunique_pos; auto).
  assert (P3 : 0 < len (cpre rows t c)) by (apply len_pos; auto). assert (P4 : 0 < len (cpost rows t c)) by (apply len_pos; auto).
  assert (PT : 0 < len Ts).
  { apply len_pos. intros E. apply N1. destruct (cpre rows t c) as [|s l] eqn:Ep; auto. exfalso.
    assert (In s Ts) by (apply (pre_incl rows t (cmp_type c) (cmp_treated c) (cmp_control c)); fold (cpre rows t c); rewrite Ep; left; auto).
    rewrite E in H; destruct H. }
  cbv zeta. unfold gb_weight. fold (cpre rows t c). fold (cpost rows t c). rewrite !plus_INR. fold (len (cpre rows t c)). fold (len (cpost rows t c)).
  field. repeat split; lra.
Qed.

Lemma window_rows k l ps : k <> Some 0%Z -> l <> Some 0%Z -> k <> l -> NoDup ps -> incl ps Ts ->
  len (filter (fun i => existsb (Z.eqb (u i)) (nodup Z.eq_dec (map u (filter (sel g k) rows)) ++ nodup Z.eq_dec (map u (filter (sel g l) rows)))
                        && existsb (Z.eqb (t i)) ps) rows)
  = INR m * (len (mem k) + len (mem l)) * len ps.
Proof.
  intros Hk Hl Hkl Hn Hp.
  assert (Hsel : forall k i, k <> Some 0%Z -> In i rows ->
     (In (u i) (nodup Z.eq_dec (map u (filter (sel g k) rows))) <-> sel g k i = true)).
  { intros k' i Hk' Hi. rewrite nodup_In, in_map_iff. split.
    - intros (j & Ej & Hj). apply filter_In in Hj as [Hj Hs]. rewrite (sel_key rows u g C HC Hvalid) in * by auto. rewrite <- Ej. auto.
    - intros Hs. exists i. split; auto. apply filter_In; auto. }
  rewrite (Rmult_plus_distr_l (INR m)), Rmult_plus_distr_r.
  rewrite <- (window_len rows u t g m C Hbal HC Hvalid k ps), <- (window_len rows u t g m C Hbal HC Hvalid l ps) by auto.
  unfold in_periods. rewrite !filter_filter, !len_filter, <- sumf_add. apply sumf_ext. intros i Hi.
  destruct (existsb (Z.eqb (t i)) ps); [|rewrite !andb_false_r; unfold ind; ring]. rewrite !andb_true_r.
  assert (Hdis : sel g k i = true -> sel g l i = true -> False).
  { intros H1 H2. rewrite (sel_key rows u g C HC Hvalid) in H1, H2 by auto. apply keqb_true in H1. apply keqb_true in H2. congruence. }
  destruct (existsb (Z.eqb (u i)) _) eqn:E.
  - apply existsb_Z, in_app_or in E. destruct E as [E|E]; apply Hsel in E; auto; rewrite E.
    + destruct (sel g l i); [exfalso; auto|unfold ind; ring].
    + destruct (sel g k i); [exfalso; auto|unfold ind; ring].
  - destruct (sel g k i) eqn:E1.
    { exfalso. apply not_true_iff_false in E. apply E. apply existsb_Z, in_or_app. left. apply Hsel; auto. }
    destruct (sel g l i) eqn:E2.
    { exfalso. apply not_true_iff_false in E. apply E. apply existsb_Z, in_or_app. right. apply Hsel; auto. }
    unfold ind; ring.
Qed.

Lemma window_disjoint y c s : In c (cs y) -> In s (cpre rows t c) -> ~ In s (cpost rows t c).
Proof.
  intros Hc. destruct (cmp_facts rows u t g y c Hc) as (Hk & Hty & _). unfold cpre, cpost, pre_of, post_of.
  destruct (cmp_type c); [|destruct Hty as (b & Eb & Hb); rewrite ?Eb|destruct Hty as (b & Eb & Hb0 & Hb); rewrite ?Eb]; intros H1 H2;
    apply filter_In in H1 as [_ H1]; apply filter_In in H2 as [_ H2];
    repeat match goal with H : _ && _ = true |- _ => apply andb_true_iff in H as [? ?] end;
    repeat match goal with H : Z.ltb _ _ = true |- _ => apply Z.ltb_lt in H | H : Z.leb _ _ = true |- _ => apply Z.leb_le in H end; lia.
Qed.

Theorem exact_weight_gb y c : In c (cs y) ->
  exact_weight rows u t g c
  = gb_weight rows t c * INR (cmp_nt c + cmp_nc c)
    / (INR (cmp_nc c) * INR (length (cpre rows t c) + length (cpost rows t c)) * (len Us ^ 2 * len Ts)).
Proof.
  intros Hc. pose proof (k_not_zero y c Hc) as Hk0. pose proof (control_not_zero rows u t g y c Hc) as Hl0.
  destruct (cmp_members y c Hc) as (M1 & M2 & E1 & E2).
  destruct (cmp_facts rows u t g y c Hc) as (Hk & Hty & (N1 & N2 & N3 & N4) & (F1 & F2) & _).
  assert (Hkl : Some (cmp_treated c) <> cmp_control c).
  { destruct (cmp_type c); [rewrite Hty; discriminate|destruct Hty as (b & -> & Hb)|destruct Hty as (b & -> & Hb0 & Hb)];
      intros E; assert (cmp_treated c = b) by congruence; lia. }
  unfold exact_weight. fold (cpre rows t c). fold (cpost rows t c).
  change (fun i : I => c_is (g i) (cmp_treated c)) with (sel g (Some (cmp_treated c))).
  change (fun i : I => match cmp_control c with None => c_never (g i) | Some l => c_is (g i) l end) with (sel g (cmp_control c)).
  replace (nonempty (cpre rows t c)) with true by (destruct (cpre rows t c); [congruence|reflexivity]).
  replace (nonempty (cpost rows t c)) with true by (destruct (cpost rows t c); [congruence|reflexivity]). cbn [negb orb].
  assert (Hnd : NoDup (cpre rows t c ++ cpost rows t c)).
  { apply NoDup_app_intro; [apply pre_nodup|apply post_nodup|]. intros s. apply (window_disjoint y c s Hc). }
  assert (Hin : incl (cpre rows t c ++ cpost rows t c) Ts) by (apply incl_app; [apply pre_incl|apply post_incl]).
  pose proof (window_rows (Some (cmp_treated c)) (cmp_control c) _ Hk0 Hl0 Hkl Hnd Hin) as HW.
  change (length (nodup Z.eq_dec (map u (filter (sel g (Some (cmp_treated c))) rows)))) with (nunique_units u (ctreated rows g c)).
  change (length (nodup Z.eq_dec (map u (filter (sel g (cmp_control c)) rows)))) with (nunique_units u (ccontrol rows g c)).
  rewrite <- F1, <- F2.
  assert (Hm : 0 < INR m) by apply (mpos Z.eq_dec Z.eq_dec rows u t m Hbal).
  assert (P1 : (0 < cmp_nt c)%nat) by (rewrite F1; apply nunique_pos; auto).
  assert (P2 : (0 < cmp_nc c)%nat) by (rewrite F2; apply nunique_pos; auto).
  set (d22 := filter _ rows) in *.
  assert (EL : len (cpre rows t c ++ cpost rows t c) = len (cpre rows t c) + len (cpost rows t c)) by (unfold len; rewrite app_length; apply plus_INR).
  assert (P3 : 0 < len (cpre rows t c)) by (apply len_pos; auto). assert (P4 : 0 < len (cpost rows t c)) by (apply len_pos; auto).
  assert (EN : len (mem (Some (cmp_treated c))) = INR (cmp_nt c)) by (rewrite E1; reflexivity).
  assert (EC : len (mem (cmp_control c)) = INR (cmp_nc c)) by (rewrite E2; reflexivity).
  rewrite EN, EC, EL in HW.
  pose proof (lt_0_INR _ P1) as Q1. pose proof (lt_0_INR _ P2) as Q2.
  assert (Hd : nonempty d22 = true).
  { destruct d22; [|reflexivity]. exfalso. unfold len at 1 in HW. simpl in HW.
    assert (0 < INR m * (INR (cmp_nt c) + INR (cmp_nc c)) * (len (cpre rows t c) + len (cpost rows t c))) by (repeat apply Rmult_lt_0_compat; lra). lra. }
  rewrite Hd. cbn [negb].
  replace (Nat.eqb (cmp_nt c) 0) with false by (symmetry; apply Nat.eqb_neq; lia).
  replace (Nat.eqb (cmp_nc c) 0) with false by (symmetry; apply Nat.eqb_neq; lia). cbn [orb].
  rewrite HW.
  assert (Hrows : len rows = INR m * len Us * len Ts).
  { rewrite (rows_size Z.eq_dec Z.eq_dec rows u t m Hbal). f_equal. unfold len. f_equal. symmetry. apply Permutation_length, Ts_perm. }
  rewrite Hrows. unfold gb_weight. fold (cpre rows t c). fold (cpost rows t c). rewrite !plus_INR.
  fold (len (cpre rows t c)). fold (len (cpost rows t c)). fold (len Us).
  assert (HU : 0 < len Us).
  { apply len_pos. intros E. destruct (ctreated rows g c) as [|i l] eqn:Ei; [congruence|].
    assert (Hi : In i (ctreated rows g c)) by (rewrite Ei; left; auto). apply filter_In in Hi as [Hi _].
    assert (In (u i) Us) by (apply nodup_In, in_map; auto). rewrite E in H; destruct H. }
  assert (HT : 0 < len Ts).
  { apply len_pos. intros E. apply N1. destruct (cpre rows t c) as [|s l] eqn:Ep; auto. exfalso.
    assert (In s Ts) by (apply (pre_incl rows t (cmp_type c) (cmp_treated c) (cmp_control c)); fold (cpre rows t c); rewrite Ep; left; auto).
    rewrite E in H; destruct H. }
  field. repeat split; lra.
Qed.
End Balanced.

Section Fit.
Context {I : Type}.
Variables (rows : list I) (u t : I -> Z) (g : I -> coh).
Notation cs y := (comparisons0 rows u t g y).

(* a treated row inside the window always exists *)
Lemma treated_window y c : In c (cs y) ->
  exists i, In i rows /\ c_is (g i) (cmp_treated c) = true /\ (In (t i) (cpre rows t c) \/ In (t i) (cpost rows t c)).
Proof.
  intros Hc. pose proof (comparisons_inv rows u t g y c Hc) as [(k & Hk & H)|(a & b & Ha & Hab & H)].
  - destruct (cmp_facts rows u t g y c Hc) as (_ & _ & (_ & _ & N3 & _) & _).
    unfold vs_never in H. destruct (negb _ || negb _) in H; [discriminate|]. destruct (negb _ || negb _) in H; [discriminate|].
    injection H as <-. unfold ctreated, sel in N3. cbn [cmp_treated] in *.
    destruct (filter (fun i => c_is (g i) k) rows) as [|i l] eqn:E; [exfalso; apply N3; reflexivity|].
    assert (Hi : In i (filter (fun i => c_is (g i) k) rows)) by (rewrite E; left; auto). apply filter_In in Hi as [Hi Hs].
    exists i. split; auto. split; auto. unfold cpre, cpost. cbn [cmp_treated cmp_type cmp_control pre_of post_of].
    destruct (Z.ltb_spec (t i) k); [left|right]; apply filter_In; (split; [apply Ts_in, in_map; auto|]); [apply Z.ltb_lt; auto|apply Z.leb_le; auto].
  - assert (G : forall ty k l, timing_comparison rows u t g y ty k l = Some c ->
       exists i, In i rows /\ c_is (g i) (cmp_treated c) = true /\ (In (t i) (cpre rows t c) \/ In (t i) (cpost rows t c))).
    { clear. intros ty k l H. unfold timing_comparison in H. rewrite !smean_isnan in H.
      destruct (negb _ || negb _) in H; [discriminate|]. destruct (negb _ || negb _) in H; [discriminate|].
      destruct (in_periods t (pre_of rows t ty k (Some l)) (filter (fun i => c_is (g i) k) rows)) as [|i r] eqn:E; [discriminate H|].
      destruct (negb _ || negb _) in H; [discriminate|]. destruct (negb _ || negb _) in H; [discriminate|].
      injection H as <-. assert (Hi : In i (i :: r)) by (left; auto). rewrite <- E in Hi. apply filter_In in Hi as [Hi Ht].
      apply filter_In in Hi as [Hi Hs]. apply existsb_Z in Ht. exists i. split; auto. }
    destruct H as [H|H]; eapply G; eauto.
Qed.

Lemma reweighted_pos exact y c : In c (reweighted rows u t g y exact) -> 0 < cmp_weight c.
Proof.
  unfold reweighted. destruct exact.
  - intros Hc. apply in_map_iff in Hc as (c' & <- & Hc). cbn. apply (exact_weight_pos rows u t g y c' Hc), (treated_window y c' Hc).
  - apply approx_weight_pos.
Qed.
Lemma reweighted_nil exact y : reweighted rows u t g y exact = [] <-> cs y = [].
Proof. unfold reweighted. destruct exact; [|tauto]. destruct (cs y); simpl; split; congruence. Qed.

Theorem fit_weights exact y :
  let o := bacon_fit rows u t g y exact in
  (bo_comparisons o = [] <-> cs y = []) /\
  (cs y <> [] ->
    (forall c, In c (bo_comparisons o) -> 0 < cmp_weight c <= 1) /\
    sumf cmp_weight (bo_comparisons o) = 1 /\
    (forall ty, 0 <= bo_weights o ty <= 1) /\
    bo_weights o TreatedNever + bo_weights o EarlierLater + bo_weights o LaterEarlier = 1).
Proof.
  intros o. subst o. cbn [bo_comparisons bo_weights bacon_fit]. split.
  - rewrite <- (reweighted_nil exact y). unfold normalised. destruct (Rlt_dec 0 _); [|tauto].
    destruct (reweighted rows u t g y exact); simpl; split; congruence.
  - intros Hne. assert (Hne' : reweighted rows u t g y exact <> []) by (intros E; apply Hne, (reweighted_nil exact y); auto).
    destruct (normalised_sum _ (reweighted_pos exact y) Hne') as [H1 H2].
    split; auto. split; auto.
    assert (H3 : forall ty, 0 <= type_weight (normalised (reweighted rows u t g y exact)) ty).
    { intros ty. apply sumf_nonneg. intros c Hc. apply filter_In in Hc as [Hc _]. apply Rlt_le, H1; auto. }
    rewrite <- type_split. split; auto. intros ty. split; auto.
    pose proof (type_split (normalised (reweighted rows u t g y exact))) as Hs. rewrite H2 in Hs.
    pose proof (H3 TreatedNever). pose proof (H3 EarlierLater). pose proof (H3 LaterEarlier). destruct ty; lra.
Qed.

Variables (m : nat) (C : Z -> coh).
Hypothesis Hbal : balanced Z.eq_dec Z.eq_dec rows u t m.
Hypothesis HC : forall i, In i rows -> g i = C (u i).
Hypothesis Hvalid : forall i, In i rows -> c_never (g i) = true \/ exists z, (0 < z)%Z /\ g i = CFin z.

Lemma reweighted_finite exact y c : In c (reweighted rows u t g y exact) -> exists e, cmp_est c = Fin e.
Proof.
  unfold reweighted. destruct exact.
  - intros Hc. apply in_map_iff in Hc as (c' & <- & Hc). exact (est_finite rows u t g m C Hbal HC Hvalid y c' Hc).
  - apply (est_finite rows u t g m C Hbal HC Hvalid y).
Qed.

(* the raw weight the code gives to a comparison *)
Definition raw_weight (exact : bool) (c : comparison) : R := if exact then exact_weight rows u t g c else cmp_weight c.

Theorem fit_error exact y : cs y <> [] ->
  bo_error (bacon_fit rows u t g y exact)
  = Fin (Rabs (sumf (fun c => gb_weight rows t c * toR (cmp_est c)) (cs y) / sumf (gb_weight rows t) (cs y)
               - sumf (fun c => raw_weight exact c * toR (cmp_est c)) (cs y) / sumf (raw_weight exact) (cs y))).
Proof.
  intros Hne. cbn [bo_error bacon_fit].
  assert (Hne' : reweighted rows u t g y exact <> []) by (intros E; apply Hne, (reweighted_nil exact y); auto).
  rewrite (normalised_weighted _ (reweighted_pos exact y) Hne' (reweighted_finite exact y)).
  rewrite (proj2 (goodman_bacon rows u t g m C Hbal HC Hvalid y) Hne).
  unfold reweighted, raw_weight. destruct exact; [|reflexivity]. rewrite !sumf_map. reflexivity.
Qed.
Theorem fit_no_comparison exact y : cs y = [] ->
  bo_twfe (bacon_fit rows u t g y exact) = 0 /\ bo_error (bacon_fit rows u t g y exact) = Fin 0.
Proof.
  intros E. cbn [bo_error bo_twfe bacon_fit]. rewrite (proj1 (goodman_bacon rows u t g m C Hbal HC Hvalid y) E). split; auto.
  assert (E' : reweighted rows u t g y exact = []) by (apply reweighted_nil; auto). rewrite E'.
  unfold normalised, weighted_sum. cbn. destruct (Rlt_dec 0 0); [lra|]. cbn. f_equal. match goal with |- Rabs ?x = 0 => replace x with 0 by ring end. apply Rabs_R0.
Qed.

Lemma raw_pos exact y c : In c (cs y) -> 0 < raw_weight exact c.
Proof.
  unfold raw_weight. destruct exact; [|apply approx_weight_pos]. intros Hc. apply (exact_weight_pos rows u t g y c Hc), (treated_window y c Hc).
Qed.

(* when all 2x2 estimates agree the decomposition is exact, with either weighting *)
Theorem fit_equal_estimates exact y e : cs y <> [] -> (forall c, In c (cs y) -> cmp_est c = Fin e) ->
  bo_twfe (bacon_fit rows u t g y exact) = e /\ bo_error (bacon_fit rows u t g y exact) = Fin 0.
Proof.
  intros Hne He.
  assert (Hs : forall w : comparison -> R, (forall c, In c (cs y) -> 0 < w c) ->
     sumf (fun c => w c * toR (cmp_est c)) (cs y) / sumf w (cs y) = e).
  { intros w Hw. rewrite (sumf_ext _ (fun c => e * w c)) by (intros c Hc; rewrite He by auto; simpl; ring).
    rewrite sumf_scal. assert (0 < sumf w (cs y)).
    { destruct (cs y) as [|c l] eqn:E; [congruence|]. simpl. assert (0 < w c) by (apply Hw; left; auto).
      assert (0 <= sumf w l) by (apply sumf_nonneg; intros; apply Rlt_le, Hw; right; auto). lra. }
    field. lra. }
  split.
  - cbn [bo_twfe bacon_fit]. rewrite (proj2 (goodman_bacon rows u t g m C Hbal HC Hvalid y) Hne). apply Hs. intros c. apply gb_weight_pos.
  - rewrite fit_error by auto. rewrite Hs by (intros c; apply gb_weight_pos). rewrite Hs by (intros c; apply raw_pos).
    f_equal. rewrite Rminus_diag_eq by reflexivity. apply Rabs_R0.
Qed.
Corollary fit_single exact y c : cs y = [c] -> bo_error (bacon_fit rows u t g y exact) = Fin 0.
Proof.
  intros E. destruct (est_finite rows u t g m C Hbal HC Hvalid y c) as (e & He); [rewrite E; left; auto|].
  apply (fit_equal_estimates exact y e); [congruence|]. intros c' Hc. rewrite E in Hc. destruct Hc as [<-|[]]; auto.
Qed.

(* a constant effect with additive unit and period effects is recovered by every comparison *)
Lemma mean_shift (l : list I) (y : I -> R) : l <> [] -> smean y l = Fin (meanf y l).
Proof. destruct l; [congruence|reflexivity]. Qed.

Theorem est_homogeneous y (a b : Z -> R) tau : (forall i, In i rows -> y i = a (u i) + b (t i) + tau * btreat t g i) ->
  forall c, In c (cs y) -> cmp_est c = Fin tau.
Proof.
  intros Hy c Hc. pose proof (k_not_zero rows u t g y c Hc) as Hk0. pose proof (control_not_zero rows u t g y c Hc) as Hl0.
  destruct (cmp_members rows u t g C HC Hvalid y c Hc) as (M1 & M2 & _).
  destruct (cmp_facts rows u t g y c Hc) as (Hk & Hty & (N1 & N2 & N3 & N4) & _ & -> & _). unfold ctreated, ccontrol in *.
  set (k := Some (cmp_treated c)) in *. set (l := cmp_control c) in *.
  assert (Hn1 : NoDup (cpre rows t c)) by apply pre_nodup. assert (Hn2 : NoDup (cpost rows t c)) by apply post_nodup.
  assert (Hi1 : incl (cpre rows t c) (bperiods rows t)) by apply pre_incl. assert (Hi2 : incl (cpost rows t c) (bperiods rows t)) by apply post_incl.
  rewrite (est_value rows u t g m C Hbal HC Hvalid) by auto. f_equal.
  set (Us := nodup Z.eq_dec (map u rows)). set (mk := members Us oz_dec (bkey C) k) in *. set (ml := members Us oz_dec (bkey C) l) in *.
  assert (Hcell : forall x s, In x (map u rows) -> In s (map t rows) -> cellsum rows u t y x s = INR m * (a x + b s + tau * bdelta (bkey C x) s)).
  { intros x s Hx Hs. unfold cellsum. rewrite (sumf_ext _ (fun _ => a x + b s + tau * bdelta (bkey C x) s)).
    - rewrite sumf_const. unfold len. f_equal. f_equal. apply Hbal; auto.
    - intros i Hi. apply filter_In in Hi as [Hi Hs']. apply andb_true_iff in Hs' as [H1 H2]. apply keqb_true in H1. apply keqb_true in H2.
      rewrite Hy by auto. rewrite (btreat_delta rows u t g C HC Hvalid i Hi), H1, H2. reflexivity. }
  assert (Hgs : forall kk s, In s (map t rows) -> gsum Us (cellsum rows u t y) oz_dec (bkey C) kk s
      = INR m * (sumf a (members Us oz_dec (bkey C) kk) + len (members Us oz_dec (bkey C) kk) * (b s + tau * bdelta kk s))).
  { intros kk s Hs. unfold gsum. rewrite (sumf_ext _ (fun x => INR m * (a x + (b s + tau * bdelta kk s)))).
    - rewrite sumf_scal, sumf_add, sumf_const. reflexivity.
    - intros x Hx. apply mem_in in Hx as [Hx Ek]. rewrite Hcell by auto. rewrite Ek. ring. }
  assert (Hgap : forall s, In s (map t rows) -> gap Us (cellsum rows u t y) oz_dec (bkey C) k l s
      = INR m * (len ml * sumf a mk - len mk * sumf a ml) + INR m * len mk * len ml * tau * (bdelta k s - bdelta l s)).
  { intros s Hs. unfold gap. rewrite !Hgs by auto. fold mk ml. ring. }
  assert (Hpost : forall s, In s (cpost rows t c) -> bdelta k s - bdelta l s = 1 - match cmp_type c with LaterEarlier => 1 | _ => 0 end).
  { intros s Hs. unfold cpost, post_of in Hs. unfold k, l, bdelta. unfold l in *. destruct (cmp_type c).
    - rewrite Hty. apply filter_In in Hs as [_ Hs]. rewrite Hs. unfold ind; ring.
    - destruct Hty as (q & Eq & Hq). rewrite Eq in *. apply filter_In in Hs as [_ Hs]. apply andb_true_iff in Hs as [Hs1 Hs2].
      rewrite Hs1. apply Z.ltb_lt in Hs2. destruct (Z.leb_spec q s); [lia|]. unfold ind; ring.
    - destruct Hty as (q & Eq & Hq0 & Hq). rewrite Eq in *. apply filter_In in Hs as [_ Hs]. rewrite Hs. apply Z.leb_le in Hs.
      destruct (Z.leb_spec q s); [|lia]. unfold ind; ring. }
  assert (Hpre : forall s, In s (cpre rows t c) -> bdelta k s - bdelta l s = - match cmp_type c with LaterEarlier => 1 | _ => 0 end).
  { intros s Hs. unfold cpre, pre_of in Hs. unfold k, l, bdelta. unfold l in *. destruct (cmp_type c).
    - rewrite Hty. apply filter_In in Hs as [_ Hs]. apply Z.ltb_lt in Hs. destruct (Z.leb_spec (cmp_treated c) s); [lia|]. unfold ind; ring.
    - destruct Hty as (q & Eq & Hq). rewrite Eq in *. apply filter_In in Hs as [_ Hs]. apply Z.ltb_lt in Hs.
      destruct (Z.leb_spec (cmp_treated c) s); [lia|]. destruct (Z.leb_spec q s); [lia|]. unfold ind; ring.
    - destruct Hty as (q & Eq & Hq0 & Hq). rewrite Eq in *. apply filter_In in Hs as [_ Hs]. apply andb_true_iff in Hs as [Hs1 Hs2].
      rewrite Hs1. apply Z.ltb_lt in Hs2. destruct (Z.leb_spec (cmp_treated c) s); [lia|]. unfold ind; ring. }
  set (d := match cmp_type c with LaterEarlier => 1 | _ => 0 end) in *.
  set (K0 := INR m * (len ml * sumf a mk - len mk * sumf a ml)) in *.
  rewrite (sumf_ext _ (fun _ => K0 + INR m * len mk * len ml * tau * (1 - d)) (cpost rows t c)).
  2:{ intros s Hs. rewrite Hgap by (apply Ts_in, Hi2; auto). rewrite Hpost by auto. reflexivity. }
  rewrite (sumf_ext _ (fun _ => K0 + INR m * len mk * len ml * tau * (- d)) (cpre rows t c)).
  2:{ intros s Hs. rewrite Hgap by (apply Ts_in, Hi1; auto). rewrite Hpre by auto. reflexivity. }
  rewrite !sumf_const.
  assert (0 < INR m) by apply (mpos Z.eq_dec Z.eq_dec rows u t m Hbal).
  assert (0 < len mk) by (apply len_pos; auto). assert (0 < len ml) by (apply len_pos; auto).
  assert (0 < len (cpre rows t c)) by (apply len_pos; auto). assert (0 < len (cpost rows t c)) by (apply len_pos; auto).
  field. repeat split; lra.
Qed.

Theorem fit_homogeneous exact y (a b : Z -> R) tau : (forall i, In i rows -> y i = a (u i) + b (t i) + tau * btreat t g i) ->
  cs y <> [] -> bo_twfe (bacon_fit rows u t g y exact) = tau /\ bo_error (bacon_fit rows u t g y exact) = Fin 0.
Proof. intros Hy Hne. apply fit_equal_estimates; auto. apply (est_homogeneous y a b tau Hy). Qed.

(* one treatment date: a single comparison, so the decomposition is exact *)
Theorem fit_one_cohort exact y k : timing_groups rows g = [k] -> bo_error (bacon_fit rows u t g y exact) = Fin 0.
Proof.
  intros E. assert (Hl : (length (cs y) <= 1)%nat).
  { unfold comparisons0. rewrite app_length, E. unfold never_pairs. rewrite E. cbn [timing_pairs flat_map]. rewrite !app_nil_r.
    destruct (Nat.ltb 0 (n_never rows u g)); [|cbn; lia]. destruct (vs_never rows u t g y k); cbn; lia. }
  destruct (cs y) as [|c [|c' l]] eqn:Ec; [apply fit_no_comparison; auto|eapply fit_single; eauto|simpl in Hl; lia].
Qed.
End Fit.

(* ---------- the identity fails with the code's weights: three units treated at 2, 3 and never, periods 1..3 ---------- *)
Definition exb_rows : list (Z * Z) := list_prod [1; 2; 3]%Z [1; 2; 3]%Z.
Definition exb_coh (a : Z) : coh := if Z.eqb a 1 then CFin 2 else if Z.eqb a 2 then CFin 3 else CFin 0.
Definition exb_y (i : Z * Z) : R := if Z.eqb (fst i) 1 && Z.eqb (snd i) 2 then 1 else 0.
Lemma exb_balanced : balanced Z.eq_dec Z.eq_dec exb_rows fst snd 1.
Proof. apply product_balanced; try discriminate; repeat constructor; simpl; intuition discriminate. Qed.
Lemma exb_valid i : In i exb_rows -> c_never (exb_coh (fst i)) = true \/ exists z, (0 < z)%Z /\ exb_coh (fst i) = CFin z.
Proof.
  intros _. unfold exb_coh. destruct (Z.eqb (fst i) 1); [right; exists 2%Z; split; [lia|reflexivity]|].
  destruct (Z.eqb (fst i) 2); [right; exists 3%Z; split; [lia|reflexivity]|left; reflexivity].
Qed.
Notation exb_g := (fun i : Z * Z => exb_coh (fst i)).
Lemma exb_table :
  map (fun c => (cmp_est c, gb_weight exb_rows snd c, exact_weight exb_rows fst snd exb_g c, cmp_weight c))
      (comparisons0 exb_rows fst snd exb_g exb_y)
  = [(Fin (1/2), 2, 4/81, 1/18); (Fin 0, 2, 4/81, 1/18); (Fin 1, 1, 1/27, 1/24); (Fin 1, 1, 1/27, 1/24)].
Proof.
  cbv -[Rplus Rmult Rinv Ropp IZR Rminus Rdiv INR meanf len exb_y].
  assert (T : forall a b c d a' b' c' d' : R, a = a' -> b = b' -> c = c' -> d = d' -> (Fin a, b, c, d) = (Fin a', b', c', d')) by (intros; congruence).
  repeat (apply (f_equal2 cons); [apply T; unfold meanf, len, exb_y; simpl; lra|]). reflexivity.
Qed.

Theorem identity_refuted exact :
  bo_twfe (bacon_fit exb_rows fst snd exb_g exb_y exact) = 1 / 2 /\
  bo_error (bacon_fit exb_rows fst snd exb_g exb_y exact) = Fin (1 / 14).
Proof.
  pose proof exb_table as HT.
  assert (Hne : comparisons0 exb_rows fst snd exb_g exb_y <> []) by (intros E; rewrite E in HT; discriminate HT).
  assert (Hsum : forall F : fl -> R -> R -> R -> R, sumf (fun c => F (cmp_est c) (gb_weight exb_rows snd c) (exact_weight exb_rows fst snd exb_g c) (cmp_weight c)) (comparisons0 exb_rows fst snd exb_g exb_y)
     = F (Fin (1/2)) 2 (4/81) (1/18) + (F (Fin 0) 2 (4/81) (1/18) + (F (Fin 1) 1 (1/27) (1/24) + (F (Fin 1) 1 (1/27) (1/24) + 0)))).
  { intros F.
    transitivity (sumf (fun q : fl * R * R * R => let '(e, w, x, a) := q in F e w x a) (map (fun c => (cmp_est c, gb_weight exb_rows snd c, exact_weight exb_rows fst snd exb_g c, cmp_weight c))
      (comparisons0 exb_rows fst snd exb_g exb_y))); [rewrite sumf_map; reflexivity|]. rewrite HT. reflexivity. }
  assert (E1 : sumf (fun c => gb_weight exb_rows snd c * toR (cmp_est c)) (comparisons0 exb_rows fst snd exb_g exb_y) = 3)
    by (rewrite (Hsum (fun e w _ _ => w * toR e)); simpl; lra).
  assert (E2 : sumf (gb_weight exb_rows snd) (comparisons0 exb_rows fst snd exb_g exb_y) = 6)
    by (transitivity (2 + (2 + (1 + (1 + 0)))); [exact (Hsum (fun e w _ _ => w))|lra]).
  split.
  - cbn [bo_twfe bacon_fit].
    rewrite (proj2 (goodman_bacon exb_rows fst snd exb_g 1 exb_coh exb_balanced (fun _ _ => eq_refl) exb_valid exb_y) Hne), E1, E2. lra.
  - rewrite (fit_error exb_rows fst snd exb_g 1 exb_coh exb_balanced (fun _ _ => eq_refl) exb_valid exact exb_y Hne), E1, E2.
    f_equal. destruct exact.
    + assert (E3 : sumf (raw_weight exb_rows fst snd exb_g true) (comparisons0 exb_rows fst snd exb_g exb_y) = 14/81)
        by (transitivity (4/81 + (4/81 + (1/27 + (1/27 + 0)))); [exact (Hsum (fun _ _ x _ => x))|lra]).
      assert (E4 : sumf (fun c => raw_weight exb_rows fst snd exb_g true c * toR (cmp_est c)) (comparisons0 exb_rows fst snd exb_g exb_y) = 8/81).
      { etransitivity; [exact (Hsum (fun e _ x _ => x * toR e))|]. cbn [toR]. lra. }
      rewrite E3, E4. match goal with |- Rabs ?x = _ => replace x with (- (1 / 14)) by field end. rewrite Rabs_Ropp, Rabs_right; lra.
    + assert (E3 : sumf (raw_weight exb_rows fst snd exb_g false) (comparisons0 exb_rows fst snd exb_g exb_y) = 7/36)
        by (transitivity (1/18 + (1/18 + (1/24 + (1/24 + 0)))); [exact (Hsum (fun _ _ _ x => x))|lra]).
      assert (E4 : sumf (fun c => raw_weight exb_rows fst snd exb_g false c * toR (cmp_est c)) (comparisons0 exb_rows fst snd exb_g exb_y) = 1/9).
      { etransitivity; [exact (Hsum (fun e _ _ x => x * toR e))|]. cbn [toR]. lra. }
      rewrite E3, E4. match goal with |- Rabs ?x = _ => replace x with (- (1 / 14)) by field end. rewrite Rabs_Ropp, Rabs_right; lra.
Qed.

(* ---------- first_treat = 0 and first_treat = inf ---------- *)
Section Recode.
Context {I : Type}.
Variables (rows : list I) (u t : I -> Z) (g g' : I -> coh).
Hypothesis Hre : forall i, In i rows -> g' i = g i \/ (c_never (g i) = true /\ c_never (g' i) = true).

Lemma re_never i : In i rows -> c_never (g' i) = c_never (g i).
Proof. intros Hi. destruct (Hre i Hi) as [->|[-> ->]]; reflexivity. Qed.
Lemma re_is i k : In i rows -> k <> 0%Z -> c_is (g' i) k = c_is (g i) k.
Proof.
  intros Hi Hk. destruct (Hre i Hi) as [->|[H1 H2]]; [reflexivity|].
  assert (F : forall c, c_never c = true -> c_is c k = false).
  { intros [z| |]; simpl; auto. intros E. apply Z.eqb_eq in E. subst. apply Z.eqb_neq. auto. }
  rewrite !F; auto.
Qed.
Lemma re_treat i : In i rows -> btreat t g' i = btreat t g i.
Proof. intros Hi. unfold btreat. destruct (Hre i Hi) as [->|[-> ->]]; reflexivity. Qed.
Lemma re_filter_is k : k <> 0%Z -> filter (fun i => c_is (g' i) k) rows = filter (fun i => c_is (g i) k) rows.
Proof. intros Hk. apply filter_ext_in. intros i Hi. apply re_is; auto. Qed.
Lemma re_filter_never : filter (fun i => c_never (g' i)) rows = filter (fun i => c_never (g i)) rows.
Proof. apply filter_ext_in. intros i Hi. apply re_never; auto. Qed.
Lemma re_groups : timing_groups rows g' = timing_groups rows g.
Proof.
  unfold timing_groups. do 2 f_equal. unfold finite_cohorts. revert Hre. clear. induction rows as [|i l IH]; intros Hre; simpl; auto.
  rewrite IH by (intros; apply Hre; right; auto). f_equal.
  assert (F : forall c, c_never c = true -> match c with CFin z => if Z.ltb 0 z then [z] else [] | _ => [] end = []).
  { intros [z| |]; simpl; auto. intros E. apply Z.eqb_eq in E. subst. reflexivity. }
  destruct (Hre i (or_introl eq_refl)) as [->|[H1 H2]]; [reflexivity|]. rewrite !F; auto.
Qed.
Lemma re_n_never : n_never rows u g' = n_never rows u g.
Proof.
  unfold n_never. f_equal. apply filter_ext. intros a. unfold unit_cohort.
  assert (F : forall l, incl l rows ->
     c_never (match filter (fun c => match c with CNaN => false | _ => true end) (map g' l) with [] => CNaN | c :: _ => c end)
   = c_never (match filter (fun c => match c with CNaN => false | _ => true end) (map g l) with [] => CNaN | c :: _ => c end)).
  { induction l as [|i l IH]; intros Hl; simpl; auto.
    assert (Hi : In i rows) by (apply Hl; left; auto). assert (Hl' : incl l rows) by (intros x Hx; apply Hl; right; auto).
    destruct (Hre i Hi) as [->|[H1 H2]].
    - destruct (g i); auto.
    - destruct (g i), (g' i); simpl in *; try discriminate; auto; congruence. }
  apply F. intros i Hi. apply filter_In in Hi; tauto.
Qed.
Lemma re_vs_never y k : k <> 0%Z -> vs_never rows u t g' y k = vs_never rows u t g y k.
Proof. intros Hk. unfold vs_never. rewrite re_filter_is, re_filter_never by auto. reflexivity. Qed.
Lemma re_timing y ty k l : k <> 0%Z -> l <> 0%Z -> timing_comparison rows u t g' y ty k l = timing_comparison rows u t g y ty k l.
Proof. intros Hk Hl. unfold timing_comparison. rewrite !re_filter_is by auto. reflexivity. Qed.
Lemma flat_map_ext_in {X Y} (f f' : X -> list Y) l : (forall a, In a l -> f a = f' a) -> flat_map f l = flat_map f' l.
Proof. induction l as [|a l IH]; intros H; simpl; auto. rewrite H by (left; auto). rewrite IH; auto. intros; apply H; right; auto. Qed.
Lemma re_comparisons y : comparisons0 rows u t g' y = comparisons0 rows u t g y.
Proof.
  assert (Hp : forall a, In a (timing_groups rows g) -> a <> 0%Z) by (intros a Ha; apply group_in in Ha as [Ha _]; lia).
  unfold comparisons0, never_pairs. rewrite re_n_never, re_groups. f_equal.
  - destruct (Nat.ltb 0 (n_never rows u g)); auto. apply flat_map_ext_in. intros a Ha. rewrite re_vs_never; auto.
  - induction (timing_groups rows g) as [|a l IH]; simpl; auto. rewrite IH by (intros; apply Hp; right; auto). f_equal.
    apply flat_map_ext_in. intros b Hb. rewrite !re_timing; auto using in_eq, in_cons.
Qed.
Lemma re_within (x x' : I -> R) i : In i rows -> (forall j, In j rows -> x j = x' j) ->
  within Z.eq_dec Z.eq_dec rows u t x i = within Z.eq_dec Z.eq_dec rows u t x' i.
Proof. intros Hi H. apply within_ext; auto. Qed.
Lemma re_twfe y : btwfe rows u t g' y = btwfe rows u t g y.
Proof.
  unfold btwfe.
  assert (E : forall i, In i rows -> within Z.eq_dec Z.eq_dec rows u t (btreat t g') i = within Z.eq_dec Z.eq_dec rows u t (btreat t g) i).
  { intros i Hi. apply re_within; auto. intros; apply re_treat; auto. }
  rewrite (sumf_ext (fun i => within Z.eq_dec Z.eq_dec rows u t (btreat t g') i * within Z.eq_dec Z.eq_dec rows u t (btreat t g') i)
                    (fun i => within Z.eq_dec Z.eq_dec rows u t (btreat t g) i * within Z.eq_dec Z.eq_dec rows u t (btreat t g) i))
    by (intros i Hi; rewrite E by auto; reflexivity).
  rewrite (sumf_ext (fun i => within Z.eq_dec Z.eq_dec rows u t (btreat t g') i * within Z.eq_dec Z.eq_dec rows u t y i)
                    (fun i => within Z.eq_dec Z.eq_dec rows u t (btreat t g) i * within Z.eq_dec Z.eq_dec rows u t y i))
    by (intros i Hi; rewrite E by auto; reflexivity).
  reflexivity.
Qed.
Lemma re_exact y c : In c (comparisons0 rows u t g y) -> exact_weight rows u t g' c = exact_weight rows u t g c.
Proof.
  intros Hc. destruct (cmp_facts rows u t g y c Hc) as (Hk & _). pose proof (control_not_zero rows u t g y c Hc) as Hl.
  unfold exact_weight. rewrite (re_filter_is (cmp_treated c)) by lia.
  replace (filter (fun i => match cmp_control c with None => c_never (g' i) | Some l => c_is (g' i) l end) rows)
    with (filter (fun i => match cmp_control c with None => c_never (g i) | Some l => c_is (g i) l end) rows); [reflexivity|].
  apply filter_ext_in. intros i Hi. destruct (cmp_control c) as [l|]; symmetry; [apply re_is; auto; congruence|apply re_never; auto].
Qed.
Theorem bacon_recode exact y : bacon_fit rows u t g' y exact = bacon_fit rows u t g y exact.
Proof.
  unfold bacon_fit. assert (E : reweighted rows u t g' y exact = reweighted rows u t g y exact).
  { unfold reweighted. rewrite re_comparisons. destruct exact; auto. apply map_ext_in. intros c Hc. rewrite (re_exact y c Hc). reflexivity. }
  rewrite E, re_twfe, re_groups, re_n_never. reflexivity.
Qed.
End Recode.

(* contributions by type add up to the weighted sum *)
Section Types.
Context {I : Type}.
Variables (rows : list I) (u t : I -> Z) (g : I -> coh) (m : nat) (C : Z -> coh).
Hypothesis Hbal : balanced Z.eq_dec Z.eq_dec rows u t m.
Hypothesis HC : forall i, In i rows -> g i = C (u i).
Hypothesis Hvalid : forall i, In i rows -> c_never (g i) = true \/ exists z, (0 < z)%Z /\ g i = CFin z.

Definition contribution (o : bacon_out) (ty : ctype) : R :=
  bo_weights o ty * match bo_averages o ty with Some a => toR a | None => 0 end.

Theorem fit_contributions exact y :
  let o := bacon_fit rows u t g y exact in
  weighted_sum (bo_comparisons o)
    = Fin (contribution o TreatedNever + contribution o EarlierLater + contribution o LaterEarlier) /\
  (forall ty a lo hi, bo_averages o ty = Some a ->
     (forall c, In c (bo_comparisons o) -> cmp_type c = ty -> lo <= toR (cmp_est c) <= hi) ->
     exists x, a = Fin x /\ lo <= x <= hi).
Proof.
  intros o. subst o. unfold contribution. cbn [bo_comparisons bo_weights bo_averages bacon_fit].
  set (l := normalised (reweighted rows u t g y exact)).
  assert (Hfin : forall c, In c l -> exists e, cmp_est c = Fin e).
  { intros c Hc. unfold l, normalised in Hc. destruct (Rlt_dec 0 _) in Hc.
    - apply in_map_iff in Hc as (c' & <- & Hc). exact (reweighted_finite rows u t g m C Hbal HC Hvalid exact y c' Hc).
    - exact (reweighted_finite rows u t g m C Hbal HC Hvalid exact y c Hc). }
  assert (Hpos : forall c, In c l -> 0 < cmp_weight c).
  { intros c Hc. destruct (reweighted rows u t g y exact) as [|c0 l0] eqn:E.
    - unfold l, normalised in Hc. destruct (Rlt_dec 0 _) in Hc; destruct Hc.
    - apply (normalised_sum (c0 :: l0)); [rewrite <- E; apply reweighted_pos|discriminate|exact Hc]. }
  clearbody l.
  assert (Hav : forall ty, match type_average l ty with
     | Some a => a = Fin (sumf (fun c => cmp_weight c * toR (cmp_est c)) (filter (fun c => ctype_eqb (cmp_type c) ty) l) / type_weight l ty) /\ 0 < type_weight l ty
     | None => filter (fun c => ctype_eqb (cmp_type c) ty) l = [] end).
  { intros ty. unfold type_average. destruct (Rlt_dec 0 (type_weight l ty)) as [Hw|Hw].
    - rewrite fsum_terms by (intros c Hc; apply filter_In in Hc as [Hc _]; auto). split; auto.
      unfold fdiv. destruct (Req_EM_T (type_weight l ty) 0); [lra|reflexivity].
    - destruct (filter (fun c => ctype_eqb (cmp_type c) ty) l) as [|c r] eqn:E; auto. exfalso. apply Hw. unfold type_weight. rewrite E.
      apply pos_sum; [|discriminate]. intros x Hx. apply Hpos. rewrite <- E in Hx. apply filter_In in Hx; tauto. }
  split.
  - unfold weighted_sum. rewrite fsum_terms by auto. f_equal.
    assert (Hc : forall ty, type_weight l ty * match type_average l ty with Some a => toR a | None => 0 end
        = sumf (fun c => cmp_weight c * toR (cmp_est c)) (filter (fun c => ctype_eqb (cmp_type c) ty) l)).
    { intros ty. specialize (Hav ty). destruct (type_average l ty) as [a|].
      - destruct Hav as [-> Hw]. cbn [toR]. field. lra.
      - rewrite Hav. simpl. ring. }
    rewrite !Hc, !sumf_filter, <- !sumf_add. apply sumf_ext_all. intros c. destruct (cmp_type c); unfold ind; simpl; ring.
  - intros ty a lo hi Ha Hb. specialize (Hav ty). rewrite Ha in Hav. destruct Hav as [-> Hw]. eexists. split; [reflexivity|].
    unfold type_weight. apply average_bounds.
    + intros c Hc. apply filter_In in Hc as [Hc Ht]. split; auto. apply Hb; auto. destruct (cmp_type c), ty; simpl in Ht; try discriminate; reflexivity.
    + intros E. unfold type_weight in Hw. rewrite E in Hw. simpl in Hw. lra.
Qed.
End Types.

Theorem btwfe_two_way {I} (rows : list I) (u t : I -> Z) g m y tau (a b : Z -> R) :
  balanced Z.eq_dec Z.eq_dec rows u t m ->
  is_twoway_fit rows u t y (btreat t g) tau a b ->
  ip rows (within Z.eq_dec Z.eq_dec rows u t (btreat t g)) (within Z.eq_dec Z.eq_dec rows u t (btreat t g)) <> 0 ->
  btwfe rows u t g y = tau.
Proof.
  intros Hb Hf Hn. rewrite (twoway_coef Z.eq_dec Z.eq_dec rows u t m Hb y (btreat t g) tau a b Hf Hn).
  unfold btwfe. destruct (Rlt_dec 0 _) as [_|H]; [reflexivity|]. exfalso. apply H. unfold ip in Hn.
  assert (0 <= sumf (fun i => within Z.eq_dec Z.eq_dec rows u t (btreat t g) i * within Z.eq_dec Z.eq_dec rows u t (btreat t g) i) rows)
    by (apply sumf_nonneg; intros; apply Rle_0_sqr). lra.
Qed.

(* Theorems about TripleDifference.fit. *)
From Verif Require Import Prelude Flt Stats_model Stats_proofs Linalg_model Linalg_proofs Linalg_vcov Linalg_thms
  Did_model Did_spec Did_proofs Multi_model Triple_model Triple_proofs Staggered_more.
From Coq Require Import Arith ZArith String List.
Import ListNotations.
Open Scope R_scope.

Definition no_missing {I} (rows : list I) (x : I -> option R) : Prop := forall i, In i rows -> x i <> None.

Section Validate.
Context {I : Type}.
Notation f x := (fun i => oR (x i)).

Lemma na_false (rows : list I) x : existsb (fun i => o_isna (x i)) rows = false <-> no_missing rows x.
Proof.
  split.
  - intros H i Hi E. assert (existsb (fun i => o_isna (x i)) rows = true); [|congruence].
    apply existsb_exists. exists i. rewrite E. auto.
  - intros H. apply Bool.not_true_iff_false. intros E. apply existsb_exists in E. destruct E as (i & Hi & E).
    specialize (H i Hi). destruct (x i); [discriminate|congruence].
Qed.

Lemma bin_zero_one (rows : list I) x : bin_col rows x = true -> zero_one rows x.
Proof.
  unfold bin_col. rewrite !Bool.andb_true_iff. intros [[H _] _] i Hi. rewrite forallb_forall in H.
  specialize (H i Hi). apply Bool.orb_true_iff in H. rewrite !Reqb_true in H. exact H.
Qed.

Lemma ne_length {A} (l : list A) : Nat.eqb (length l) 0 = false <-> l <> [].
Proof. destruct l; simpl; split; intros; congruence. Qed.

Lemma eight_cells_iff (rows : list I) G P T :
  existsb (fun c => let '(g, p, t) := c in Nat.eqb (length (cell8 rows G P T g p t)) 0) all_cells = false
  <-> eight_cells rows G P T.
Proof.
  unfold all_cells. cbn [existsb]. rewrite !Bool.orb_false_iff, !ne_length, !cell8_part.
  unfold eight_cells, four_cells. tauto.
Qed.

(* the data passes validation exactly when nothing required is missing, the three indicators are 0/1
   and all eight cells are populated *)
Lemma validate_ok (rows : list I) y G P T covs :
  ddd_validate rows y G P T covs = Ok tt <->
  no_missing rows y /\ no_missing rows G /\ no_missing rows P /\ no_missing rows T /\
  (forall c, In c covs -> no_missing rows c) /\
  zero_one rows (f G) /\ zero_one rows (f P) /\ zero_one rows (f T) /\
  eight_cells rows (f G) (f P) (f T).
Proof.
  unfold ddd_validate. split.
  - intros H.
    destruct (existsb (fun x => existsb (fun i => o_isna (x i)) rows) [y; G; P; T]) eqn:E1; [discriminate|].
    destruct (forallb (bin_col rows) [f G; f P; f T]) eqn:E2; [|discriminate]. cbn [negb] in H.
    destruct (existsb _ all_cells) eqn:E3 in H; [discriminate|].
    destruct (existsb _ covs) eqn:E4 in H; [discriminate|].
    cbn [existsb] in E1. rewrite !Bool.orb_false_iff in E1.
    destruct E1 as (N1 & N2 & N3 & N4 & _). rewrite na_false in N1, N2, N3, N4.
    cbn [forallb] in E2. rewrite !Bool.andb_true_iff in E2. destruct E2 as (B1 & B2 & B3 & _).
    apply eight_cells_iff in E3.
    repeat split; try (apply bin_zero_one; assumption); auto; try apply E3.
    intros c Hc. apply na_false. apply Bool.not_true_iff_false. intros E.
    apply Bool.not_true_iff_false in E4. apply E4. apply existsb_exists. exists c; auto.
  - intros (N1 & N2 & N3 & N4 & NC & ZG & ZP & ZT & H8).
    assert (E1 : existsb (fun x => existsb (fun i => o_isna (x i)) rows) [y; G; P; T] = false).
    { cbn [existsb]. rewrite !Bool.orb_false_iff, !na_false. auto. }
    rewrite E1.
    assert (Hb : forall x, zero_one rows x -> (exists i, In i rows /\ x i = 0) -> (exists i, In i rows /\ x i = 1) -> bin_col rows x = true).
    { intros x Hx (i & Hi & Ei) (j & Hj & Ej). unfold bin_col. rewrite !Bool.andb_true_iff. repeat split.
      - apply forallb_forall. intros k Hk. apply Bool.orb_true_iff. rewrite !Reqb_true. apply Hx; auto.
      - apply existsb_exists. exists i. rewrite Reqb_true. auto.
      - apply existsb_exists. exists j. rewrite Reqb_true. auto. }
    assert (Hex : forall g p t, (g = 0 \/ g = 1) -> (p = 0 \/ p = 1) -> (t = 0 \/ t = 1) ->
       exists i, In i rows /\ oR (G i) = g /\ oR (P i) = p /\ oR (T i) = t).
    { intros g p t A B C. pose proof (eight_ne rows (f G) (f P) (f T) H8 g p t A B C) as Hn.
      destruct (cell8 rows (f G) (f P) (f T) g p t) as [|i l] eqn:E; [congruence|].
      exists i. apply (cell8_in rows (f G) (f P) (f T)). rewrite E; simpl; auto. }
    assert (H0 : (0 = 0 \/ 0 = 1)) by (left; reflexivity). assert (H1 : (1 = 0 \/ 1 = 1)) by (right; reflexivity).
    destruct (Hex 0 0 0 H0 H0 H0) as (a & A1 & A2 & A3 & A4). destruct (Hex 1 1 1 H1 H1 H1) as (b & B1 & B2 & B3 & B4).
    assert (E2 : forallb (bin_col rows) [f G; f P; f T] = true).
    { cbn [forallb]. rewrite !Bool.andb_true_iff. repeat split; apply Hb; eauto. }
    rewrite E2. cbn [negb]. apply eight_cells_iff in H8. rewrite H8.
    assert (E4 : existsb (fun c => existsb (fun i => o_isna (c i)) rows) covs = false).
    { apply Bool.not_true_iff_false. intros E. apply existsb_exists in E. destruct E as (c & Hc & E).
      specialize (NC c Hc). apply na_false in NC. congruence. }
    rewrite E4. reflexivity.
Qed.

Lemma validate_err (rows : list I) y G P T covs :
  ddd_validate rows y G P T covs = Ok tt \/ ddd_validate rows y G P T covs = Err ValueError.
Proof.
  unfold ddd_validate. repeat match goal with |- context [if ?b then _ else _] => destruct b end; auto.
Qed.
End Validate.

(* ---------- reweighting ---------- *)
Section Weights.
Context {I : Type}.
Variable logit : list I -> list (I -> R) -> (I -> R) -> option (I -> R).
Variables (rows : list I) (G P T : I -> R).
Variable cfg : ddd_config.

Lemma wmean_const y (m : I -> bool) c : 0 < c -> filter m rows <> [] ->
  wmean rows y (fun i => ind (m i) * c) = meanf y (filter m rows).
Proof.
  intros Hc Hne. unfold wmean. rewrite sumf_scal_r, <- len_filter. pose proof (len_pos _ Hne) as HL.
  destruct (Rle_dec (len (filter m rows) * c) 0) as [C|_]; [nra|].
  rewrite (sumf_ext_all _ (fun i => ind (m i) * y i * c)) by (intros; ring).
  rewrite sumf_scal_r, <- sumf_filter. unfold meanf. field. lra.
Qed.

Lemma clip_pos x lo hi : 0 < x -> 0 < hi -> 0 < clip x lo hi.
Proof.
  intros. unfold clip. apply Rmin_glb_lt; [auto|]. apply Rlt_le_trans with x; auto. apply Rmax_l.
Qed.
Lemma clip_id x lo hi : lo <= x <= hi -> clip x lo hi = x.
Proof. intros. unfold clip. rewrite Rmax_left by lra. apply Rmin_right. lra. Qed.

Lemma pcell_nocov g p i : ddd_pcell logit cfg rows G P [] g p i
  = clip (len (cell4 rows G P g p) / len rows) (dd_trim cfg) (1 - dd_trim cfg).
Proof. reflexivity. Qed.

Lemma cell4_ne g p t : cell8 rows G P T g p t <> [] -> cell4 rows G P g p <> [].
Proof.
  intros H E. apply H. unfold cell8. apply (f_equal (filter (fun i => Reqb (T i) t))) in E. simpl in E.
  unfold cell4 in E. rewrite filter_filter in E. exact E.
Qed.

Lemma share_pos g p t : cell8 rows G P T g p t <> [] -> 0 < len (cell4 rows G P g p) / len rows.
Proof.
  intros H. pose proof (len_pos _ (cell4_ne g p t H)). apply Rdiv_lt_0_compat; auto.
  apply len_pos. intros E. apply H. rewrite E. reflexivity.
Qed.

Lemma ipw_mean_nocov y g p t : dd_trim cfg < 1 ->
  cell8 rows G P T 1 1 t <> [] -> cell8 rows G P T g p t <> [] ->
  ipw_mean logit cfg rows y G P T [] g p t = meanf y (cell8 rows G P T g p t).
Proof.
  intros Ht H1 Hne. unfold ipw_mean. destruct (Reqb g 1 && Reqb p 1).
  - destruct (cell8 rows G P T g p t); [congruence|reflexivity].
  - apply (wmean_const y (fun i => in4 G P g p i && Reqb (T i) t)
      (clip (len (cell4 rows G P 1 1) / len rows) (dd_trim cfg) (1 - dd_trim cfg)
       / clip (len (cell4 rows G P g p) / len rows) (dd_trim cfg) (1 - dd_trim cfg))).
    + apply Rdiv_lt_0_compat; apply clip_pos; try lra; eapply share_pos; eauto.
    + exact Hne.
Qed.

Theorem ipw_is_ddd y : dd_trim cfg < 1 -> eight_cells rows G P T ->
  ddd_comb (ipw_mean logit cfg rows y G P T []) = ddd_of_dids rows G P T y.
Proof.
  intros Ht He. rewrite <- ddd_comb_dids. unfold ddd_comb.
  rewrite !ipw_mean_nocov by (auto; apply eight_ne; auto; right; reflexivity). reflexivity.
Qed.

(* ---- dr ---- *)
Definition dr_w X (g p : R) (i : I) : R := if Reqb g 1 && Reqb p 1 then 1 else ddd_ratio logit cfg rows G P X g p i.

(* the fitted outcomes cancel *)
Lemma dr_inf_closed y mu X g p i :
  dr_inf logit cfg rows y mu G P X g p i
  = ind (in4 G P g p i) * (dr_w X g p i * y i / (len (cell4 rows G P 1 1) / len rows)).
Proof.
  unfold dr_inf, dr_w. destruct (Reqb g 1 && Reqb p 1) eqn:E.
  - apply Bool.andb_true_iff in E. rewrite !Reqb_true in E. destruct E as [-> ->].
    destruct (in4 G P 1 1 i); simpl; unfold Rdiv; ring.
  - destruct (in4 G P g p i); simpl; unfold Rdiv; ring.
Qed.

Lemma dr_mean_closed y mu X g p t :
  dr_mean logit cfg rows y mu G P T X g p t
  = sumf (fun i => dr_w X g p i * y i) (cell8 rows G P T g p t)
    / (len (cell4 rows G P 1 1) / len rows) / len (part rows T t).
Proof.
  unfold dr_mean, meanf, part. f_equal.
  rewrite (sumf_ext_all _ _ _ (dr_inf_closed y mu X g p)).
  rewrite <- sumf_div, <- sumf_filter, filter_filter. 
  replace (filter (fun x => Reqb (T x) t && in4 G P g p x) rows) with (cell8 rows G P T g p t); [reflexivity|].
  unfold cell8, in4. apply filter_ext. intros i. destruct (Reqb (G i) g), (Reqb (P i) p), (Reqb (T i) t); reflexivity.
Qed.

Theorem dr_ignores_outcome_model y mu mu' X :
  dr_att logit cfg rows y mu G P T X = dr_att logit cfg rows y mu' G P T X.
Proof. unfold dr_att, ddd_comb. rewrite !dr_mean_closed. reflexivity. Qed.

Theorem dr_shift y mu mu' mu1 X c :
  dr_att logit cfg rows (fun i => y i + c) mu G P T X
  = dr_att logit cfg rows y mu' G P T X + c * dr_att logit cfg rows (fun _ => 1) mu1 G P T X.
Proof.
  unfold dr_att, ddd_comb. rewrite !dr_mean_closed.
  assert (H : forall g p t, sumf (fun i => dr_w X g p i * (y i + c)) (cell8 rows G P T g p t)
     = sumf (fun i => dr_w X g p i * y i) (cell8 rows G P T g p t) + c * sumf (fun i => dr_w X g p i * 1) (cell8 rows G P T g p t)).
  { intros. rewrite <- sumf_scal, <- sumf_add. apply sumf_ext_all. intros; ring. }
  rewrite !H. unfold Rdiv. ring.
Qed.

(* no clipping *)
Definition unclipped : Prop := forall g p, (g = 0 \/ g = 1) -> (p = 0 \/ p = 1) ->
  dd_trim cfg <= len (cell4 rows G P g p) / len rows <= 1 - dd_trim cfg.

Definition dr_factor (g p t : R) : R :=
  (len (cell8 rows G P T g p t) / len (cell4 rows G P g p)) / (len (part rows T t) / len rows).

Lemma part_ne g p t : cell8 rows G P T g p t <> [] -> part rows T t <> [].
Proof.
  intros H E. apply H. unfold cell8, part in *.
  apply (f_equal (filter (fun i => Reqb (G i) g && Reqb (P i) p))) in E. simpl in E. rewrite filter_filter in E.
  erewrite filter_ext; [exact E|]. intros i. simpl. apply Bool.andb_comm.
Qed.

Lemma dr_mean_nocov y mu g p t : unclipped -> (g = 0 \/ g = 1) -> (p = 0 \/ p = 1) ->
  cell8 rows G P T 1 1 t <> [] -> cell8 rows G P T g p t <> [] ->
  dr_mean logit cfg rows y mu G P T [] g p t = meanf y (cell8 rows G P T g p t) * dr_factor g p t.
Proof.
  intros Hu Hg Hp H1 Hne. rewrite dr_mean_closed.
  pose proof (len_pos _ Hne) as L1. pose proof (len_pos _ (cell4_ne g p t Hne)) as L2.
  pose proof (len_pos _ (cell4_ne 1 1 t H1)) as L3. pose proof (len_pos _ (part_ne g p t Hne)) as L4.
  assert (L5 : 0 < len rows).
  { apply len_pos. intros E. apply Hne. rewrite E. reflexivity. }
  rewrite (sumf_ext_all _ (fun i => (len (cell4 rows G P 1 1) / len (cell4 rows G P g p)) * y i)).
  - rewrite sumf_scal. unfold meanf, dr_factor. field. repeat split; lra.
  - intros i. f_equal. unfold dr_w. destruct (Reqb g 1 && Reqb p 1) eqn:E.
    + apply Bool.andb_true_iff in E. rewrite !Reqb_true in E. destruct E as [-> ->]. field. lra.
    + unfold ddd_ratio. rewrite !pcell_nocov, !clip_id by (apply Hu; auto). field. repeat split; lra.
Qed.

Theorem dr_nocov y mu : unclipped -> eight_cells rows G P T ->
  dr_att logit cfg rows y mu G P T []
  = ddd_comb (fun g p t => meanf y (cell8 rows G P T g p t) * dr_factor g p t).
Proof.
  intros Hu He. unfold dr_att, ddd_comb.
  rewrite !dr_mean_nocov by (auto; apply eight_ne; auto; right; reflexivity). reflexivity.
Qed.

(* same post share in the four groups: then dr is the triple difference *)
Theorem dr_balanced y mu : unclipped -> eight_cells rows G P T ->
  (forall g p t, (g = 0 \/ g = 1) -> (p = 0 \/ p = 1) -> (t = 0 \/ t = 1) ->
     len (cell8 rows G P T g p t) / len (cell4 rows G P g p) = len (part rows T t) / len rows) ->
  dr_att logit cfg rows y mu G P T [] = ddd_of_dids rows G P T y.
Proof.
  intros Hu He Hb. rewrite dr_nocov by auto. rewrite <- ddd_comb_dids.
  assert (F : forall g p t, (g = 0 \/ g = 1) -> (p = 0 \/ p = 1) -> (t = 0 \/ t = 1) -> dr_factor g p t = 1).
  { intros g p t A B C. unfold dr_factor. rewrite Hb by auto.
    pose proof (len_pos _ (part_ne g p t (eight_ne _ _ _ _ He g p t A B C))) as L1.
    assert (L5 : 0 < len rows).
    { apply len_pos. intros E. apply (eight_ne _ _ _ _ He g p t A B C). rewrite E. reflexivity. }
    field. split; lra. }
  unfold ddd_comb. rewrite !F by (auto; right; reflexivity). ring.
Qed.
End Weights.

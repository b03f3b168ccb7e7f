(* The numbers of treated and never-treated units reported by CallawaySantAnna, SunAbraham and BaconDecomposition (C140). *)
From Verif Require Import Prelude Flt Stats_model Linalg_model Did_model Multi_model Multi_proofs Bacon_model Staggered_model Staggered_proofs Staggered_fit Sun_model Sun_thms.
From Coq Require Import Arith ZArith String List Bool Lia Permutation.
Import ListNotations.
Open Scope R_scope.

Section Counts.
Context {I : Type}.
Variables (rows : list I) (u : I -> Z) (g : I -> coh).

(* the first row of unit a has property P *)
Definition first_row (P : I -> Prop) (a : Z) : Prop :=
  exists l1 i l2, rows = l1 ++ i :: l2 /\ u i = a /\ (forall j, In j l1 -> u j <> a) /\ P i.
(* the first row of unit a with a recorded cohort has property P *)
Definition first_recorded (P : I -> Prop) (a : Z) : Prop :=
  exists l1 i l2, rows = l1 ++ i :: l2 /\ u i = a /\ (forall j, In j l1 -> u j = a -> g j = CNaN) /\ g i <> CNaN /\ P i.
Definition never_coded (i : I) : Prop := g i = CFin 0 \/ g i = CInf.
Definition after_zero (i : I) : Prop := g i = CInf \/ exists k, g i = CFin k /\ (0 < k)%Z.

Lemma filter_first (P : I -> bool) a :
  (match filter (fun i => Z.eqb (u i) a) rows with i :: _ => P i | [] => false end) = true <-> first_row (fun i => P i = true) a.
Proof.
  unfold first_row. induction rows as [|i l IH]; cbn [filter].
  - split; [discriminate|]. intros ([|a0 l0] & i & l2 & E & _); discriminate.
  - destruct (Z.eqb_spec (u i) a) as [E|Ne].
    + split.
      * intros H. exists [], i, l. split; [reflexivity|]. split; [exact E|]. split; [intros j []|exact H].
      * intros ([|j l1] & i' & l2 & E' & E1 & E2 & E3); injection E' as <- ->; [exact E3|]. destruct (E2 i (or_introl eq_refl) E).
    + rewrite IH. split.
      * intros (l1 & i' & l2 & -> & E1 & E2 & E3). exists (i :: l1), i', l2. split; [reflexivity|]. split; [exact E1|]. split; [|exact E3]. intros j [<-|Hj]; auto.
      * intros ([|j l1] & i' & l2 & E' & E1 & E2 & E3); injection E' as <- ->; [contradiction|]. exists l1, i', l2. split; [reflexivity|]. split; [exact E1|]. split; [|exact E3]. intros j Hj. apply E2. right. exact Hj.
Qed.
Lemma cohort_first (P : coh -> bool) a : P CNaN = false -> P (unit_cohort rows u g a) = true <-> first_recorded (fun i => P (g i) = true) a.
Proof.
  intros HN. unfold unit_cohort, first_recorded. induction rows as [|i l IH]; cbn [filter map].
  - rewrite HN. split; [discriminate|]. intros ([|a0 l0] & i & l2 & E & _); discriminate.
  - destruct (Z.eqb_spec (u i) a) as [E|Ne]; cbn [map filter].
    + destruct (coh_eq_dec (g i) CNaN) as [En|Nn].
      * rewrite En. cbn [filter]. rewrite IH. split.
        -- intros (l1 & i' & l2 & -> & E1 & E2 & E3). exists (i :: l1), i', l2. split; [reflexivity|]. split; [exact E1|]. split; [|exact E3]. intros j [<-|Hj] Hu; auto.
        -- intros ([|j l1] & i' & l2 & E' & E1 & E2 & E3 & E4); injection E' as <- ->; [contradiction|]. exists l1, i', l2. split; [reflexivity|]. split; [exact E1|]. split; [|auto]. intros j Hj. apply E2. right. exact Hj.
      * replace (match g i with CNaN => false | _ => true end) with true by (destruct (g i); congruence).
        split.
        -- intros H. exists [], i, l. split; [reflexivity|]. split; [exact E|]. split; [intros j []|auto].
        -- intros ([|j l1] & i' & l2 & E' & E1 & E2 & E3 & E4); injection E' as <- ->; [exact E4|]. destruct (Nn (E2 i (or_introl eq_refl) E)).
    + rewrite IH. split.
      * intros (l1 & i' & l2 & -> & E1 & E2 & E3). exists (i :: l1), i', l2. split; [reflexivity|]. split; [exact E1|]. split; [|exact E3]. intros j [<-|Hj] Hu; [contradiction|auto].
      * intros ([|j l1] & i' & l2 & E' & E1 & E2 & E3 & E4); injection E' as <- ->; [contradiction|]. exists l1, i', l2. split; [reflexivity|]. split; [exact E1|]. split; [|auto]. intros j Hj. apply E2. right. exact Hj.
Qed.

(* [U] lists the units, [p] marks those with property P *)
Definition counts (P : Z -> Prop) (n : nat) : Prop :=
  forall (U : list Z) (p : Z -> bool), NoDup U -> (forall a, In a U <-> In a (map u rows)) -> (forall a, In a U -> (p a = true <-> P a)) -> n = length (filter p U).
Lemma counts_filter (P : Z -> Prop) q V : Permutation V (nodup Z.eq_dec (map u rows)) -> (forall a, q a = true <-> P a) -> counts P (length (filter q V)).
Proof.
  intros HV Hq U p Hn Hi Hp.
  assert (PU : Permutation V U).
  { apply NoDup_Permutation; [eapply Permutation_NoDup; [apply Permutation_sym, HV|apply NoDup_nodup]|exact Hn|]. intros a. rewrite Hi. split.
    - intros H. apply (Permutation_in _ HV) in H. apply nodup_In in H. exact H.
    - intros H. apply (Permutation_in _ (Permutation_sym HV)). apply nodup_In. exact H. }
  assert (F : forall l l', Permutation l l' -> length (filter q l) = length (filter q l')).
  { induction 1; cbn [filter]; repeat match goal with |- context [if q ?x then _ else _] => destruct (q x) end; cbn [length]; congruence. }
  rewrite (F _ _ PU). f_equal. apply filter_ext_in. intros a Ha. specialize (Hp a Ha). specialize (Hq a). destruct (q a), (p a); try reflexivity; [symmetry; apply Hp, Hq; reflexivity|apply Hq, Hp; reflexivity].
Qed.
Lemma first_row_ext (P Q : I -> Prop) a : (forall i, P i <-> Q i) -> first_row P a <-> first_row Q a.
Proof. intros E. unfold first_row. split; intros (l1 & i & l2 & A & B & C & D); exists l1, i, l2; (split; [exact A|]); (split; [exact B|]); (split; [exact C|]); apply E; exact D. Qed.
Lemma first_recorded_ext (P Q : I -> Prop) a : (forall i, P i <-> Q i) -> first_recorded P a <-> first_recorded Q a.
Proof. intros E. unfold first_recorded. split; intros (l1 & i & l2 & A & B & C & C' & D); exists l1, i, l2; (split; [exact A|]); (split; [exact B|]); (split; [exact C|]); (split; [exact C'|]); apply E; exact D. Qed.
Lemma never_iff i : c_never (g i) = true <-> never_coded i.
Proof. unfold never_coded, c_never. destruct (g i) as [k| |]; split; try discriminate; auto; [rewrite Z.eqb_eq; intros ->; auto|intros [[= ->]|]; [reflexivity|discriminate]|intros [|]; discriminate]. Qed.
Lemma gt_iff i : c_gt (g i) 0 = true <-> after_zero i.
Proof. unfold after_zero, c_gt. destruct (g i) as [k| |]; split; try discriminate; auto; [rewrite Z.ltb_lt; eauto|intros [|(k' & [= ->] & H)]; [discriminate|apply Z.ltb_lt; exact H]|intros [|(k' & H & _)]; discriminate]. Qed.

Lemma n_never_counts V : Permutation V (nodup Z.eq_dec (map u rows)) ->
  counts (first_row never_coded) (length (filter (fun a => match filter (fun i => Z.eqb (u i) a) rows with i :: _ => c_never (g i) | [] => false end) V)).
Proof. intros HV. apply counts_filter; [exact HV|]. intros a. rewrite (filter_first (fun i => c_never (g i)) a). apply first_row_ext. apply never_iff. Qed.
Lemma n_treated_counts V : Permutation V (nodup Z.eq_dec (map u rows)) ->
  counts (first_recorded after_zero) (length (filter (fun a => c_gt (unit_cohort rows u g a) 0) V)).
Proof. intros HV. apply counts_filter; [exact HV|]. intros a. rewrite (cohort_first (fun c => c_gt c 0) a eq_refl). apply first_recorded_ext. apply gt_iff. Qed.

(* cohorts fixed over time *)
Section Fixed.
Variable C : Z -> coh.
Hypothesis HC : forall i, In i rows -> g i = C (u i).
Lemma first_split a : In a (map u rows) -> exists l1 i l2, rows = l1 ++ i :: l2 /\ u i = a /\ forall j, In j l1 -> u j <> a.
Proof.
  induction rows as [|i l IH]; [intros []|]. intros H. destruct (Z.eq_dec (u i) a) as [E|Ne].
  - exists [], i, l. split; [reflexivity|]. split; [exact E|]. intros j [].
  - destruct H as [H|H]; [contradiction|]. destruct (IH (fun j Hj => HC j (or_intror Hj)) H) as (l1 & i' & l2 & -> & A & B). exists (i :: l1), i', l2. split; [reflexivity|]. split; [exact A|]. intros j [<-|Hj]; auto.
Qed.
Lemma fixed_row (Q : coh -> Prop) a : In a (map u rows) -> first_row (fun i => Q (g i)) a <-> Q (C a).
Proof.
  intros Ha. split.
  - intros (l1 & i & l2 & E & <- & _ & H). rewrite HC in H by (rewrite E; apply in_or_app; right; left; reflexivity). exact H.
  - intros H. destruct (first_split a Ha) as (l1 & i & l2 & E & <- & N). exists l1, i, l2. split; [exact E|]. split; [reflexivity|]. split; [exact N|].
    rewrite HC by (rewrite E; apply in_or_app; right; left; reflexivity). exact H.
Qed.
Lemma fixed_recorded (Q : coh -> Prop) a : ~ Q CNaN -> In a (map u rows) -> first_recorded (fun i => Q (g i)) a <-> Q (C a).
Proof.
  intros NQ Ha. split.
  - intros (l1 & i & l2 & E & <- & _ & _ & H). rewrite HC in H by (rewrite E; apply in_or_app; right; left; reflexivity). exact H.
  - intros H. destruct (first_split a Ha) as (l1 & i & l2 & E & <- & N). exists l1, i, l2. split; [exact E|]. split; [reflexivity|]. split; [intros j Hj F; destruct (N j Hj F)|].
    rewrite HC by (rewrite E; apply in_or_app; right; left; reflexivity). split; [intros F; rewrite F in H; contradiction|exact H].
Qed.
Lemma fixed_counts n m : counts (first_row never_coded) n -> counts (first_recorded after_zero) m ->
  let U := nodup Z.eq_dec (map u rows) in
  n = length (filter (fun a => match C a with CFin k => Z.eqb k 0 | CInf => true | CNaN => false end) U) /\
  m = length (filter (fun a => match C a with CFin k => Z.ltb 0 k | CInf => true | CNaN => false end) U).
Proof.
  intros Hn Hm. cbv zeta. split.
  - apply Hn; [apply NoDup_nodup|intros a; apply nodup_In|]. intros a Ha. apply nodup_In in Ha. unfold never_coded. rewrite (fixed_row (fun c => c = CFin 0 \/ c = CInf) a Ha).
    destruct (C a) as [k| |]; split; try discriminate; auto; [rewrite Z.eqb_eq; intros ->; auto|intros [[= ->]|]; [reflexivity|discriminate]|intros [|]; discriminate].
  - apply Hm; [apply NoDup_nodup|intros a; apply nodup_In|]. intros a Ha. apply nodup_In in Ha. unfold after_zero.
    rewrite (fixed_recorded (fun c => c = CInf \/ exists k, c = CFin k /\ (0 < k)%Z) a); [|intros [|(k & F & _)]; discriminate|exact Ha].
    destruct (C a) as [k| |]; split; try discriminate; auto; [rewrite Z.ltb_lt; eauto|intros [|(k' & [= ->] & H)]; [discriminate|apply Z.ltb_lt; exact H]|intros [|(k' & F & _)]; discriminate].
Qed.
Lemma count_two {A} (p q : A -> bool) l : (forall a, In a l -> p a = negb (q a)) -> (length (filter p l) + length (filter q l) = length l)%nat.
Proof. induction l as [|a l IH]; intros H; [reflexivity|]. cbn [filter]. rewrite (H a (or_introl eq_refl)). specialize (IH (fun b Hb => H b (or_intror Hb))). destruct (q a); cbn [negb length]; lia. Qed.
Lemma fixed_partition n m : counts (first_row never_coded) n -> counts (first_recorded after_zero) m ->
  (forall i, In i rows -> exists k, g i = CFin k /\ (0 <= k)%Z) -> (n + m = length (nodup Z.eq_dec (map u rows)))%nat.
Proof.
  intros Hn Hm Hf. destruct (fixed_counts n m Hn Hm) as [-> ->]. apply count_two. intros a Ha. apply nodup_In, in_map_iff in Ha as (i & <- & Hi).
  rewrite <- (HC i Hi). destruct (Hf i Hi) as (k & -> & Hk). destruct (Z.eqb_spec k 0) as [->|]; [reflexivity|]. 
  destruct (Z.ltb_spec 0 k); [reflexivity|lia].
Qed.
Lemma fixed_infinite n m : counts (first_row never_coded) n -> counts (first_recorded after_zero) m ->
  (forall i, In i rows -> g i = CInf \/ exists k, g i = CFin k /\ (0 <= k)%Z) ->
  let U := nodup Z.eq_dec (map u rows) in (n + m = length U + length (filter (fun a => match C a with CInf => true | _ => false end) U))%nat.
Proof.
  intros Hn Hm Hf. cbv zeta. destruct (fixed_counts n m Hn Hm) as [-> ->].
  assert (X : forall a, In a (nodup Z.eq_dec (map u rows)) -> C a = CInf \/ exists k, C a = CFin k /\ (0 <= k)%Z).
  { intros a Ha. apply nodup_In, in_map_iff in Ha as (i & <- & Hi). rewrite <- (HC i Hi). exact (Hf i Hi). }
  revert X. generalize (nodup Z.eq_dec (map u rows)). induction l as [|a l IH]; intros X; [reflexivity|]. specialize (IH (fun b Hb => X b (or_intror Hb))).
  cbn [filter]. destruct (X a (or_introl eq_refl)) as [-> | (k & -> & Hk)]; [cbn [length]; lia|]. destruct (Z.eqb_spec k 0), (Z.ltb_spec 0 k); cbn [length]; lia.
Qed.
End Fixed.
End Counts.

(* ---- the three estimators ---- *)
Section Cs.
Context {I : Type}.
Variable qr : list Z -> list (Z -> R) -> list nat.
Variable lstsq : list Z -> list (Z -> R) -> (Z -> R) -> list R.
Variable inv : list Z -> list (Z -> R) -> option (nat -> nat -> R).
Variable logit : list Z -> list Z -> list (Z -> R) -> option (Z -> R).
Variable sf : option Z -> fl -> fl.
Variable ppf : option Z -> R -> R.
Variables (rows : list I) (u t : I -> Z) (g : I -> coh) (y : I -> option R) (covs : list (I -> option R)).
Notation fit := (cs_fit qr lstsq inv logit sf ppf rows u t g y covs).
Lemma cs_n_obs cfg agg bal ws r : fit cfg agg bal ws = Ok r -> cr_n_obs r = length rows.
Proof.
  unfold cs_fit. destruct (Nat.eqb (n_nev rows u g) 0); [discriminate|]. destruct (cs_duplicates rows u t); [discriminate|].
  destruct (all_effects _ _ _ _ _ _ _ _ _ _ cfg) as [[|e l]|]; cbn [bind]; try discriminate.
  destruct (agg_simple _ _ _ _) as [att se]. intros H. injection H as <-. reflexivity.
Qed.
Theorem cs_counts cfg agg bal ws r : fit cfg agg bal ws = Ok r ->
  cr_n_obs r = length rows /\ (0 < cr_n_control r)%nat /\
  counts rows u (first_row rows u (never_coded g)) (cr_n_control r) /\ counts rows u (first_recorded rows u g (after_zero g)) (cr_n_treated r).
Proof.
  intros H. split; [exact (cs_n_obs _ _ _ _ _ H)|]. destruct (fit_inv _ _ _ _ _ _ _ _ _ _ _ _ _ _ _ _ _ H) as (A & _ & _ & _ & _ & _ & _ & B & C & _).
  rewrite B, C. split; [lia|]. split; [apply n_never_counts|apply n_treated_counts]; apply zsort_perm.
Qed.
Theorem cs_no_never cfg agg bal ws : (forall i, In i rows -> ~ never_coded g i) -> fit cfg agg bal ws = Err ValueError.
Proof.
  intros H. unfold cs_fit. replace (n_nev rows u g) with 0%nat; [reflexivity|]. unfold n_nev.
  assert (E : filter (first_never rows u g) (cs_units rows u) = []).
  { destruct (filter (first_never rows u g) (cs_units rows u)) as [|a l] eqn:E; [reflexivity|]. exfalso.
    assert (Ha : In a (filter (first_never rows u g) (cs_units rows u))) by (rewrite E; left; reflexivity). apply filter_In in Ha as [_ Ha].
    apply (filter_first rows u (fun i => c_never (g i)) a) in Ha. destruct Ha as (l1 & i & l2 & Er & _ & _ & Hn). apply never_iff in Hn. apply (H i); [rewrite Er; apply in_or_app; right; left; reflexivity|exact Hn]. }
  rewrite E. reflexivity.
Qed.
Theorem cs_partition cfg agg bal ws r (C : Z -> coh) : fit cfg agg bal ws = Ok r -> (forall i, In i rows -> g i = C (u i)) ->
  (forall i, In i rows -> exists k, g i = CFin k /\ (0 <= k)%Z) -> (cr_n_control r + cr_n_treated r = length (nodup Z.eq_dec (map u rows)))%nat.
Proof. intros H HC Hf. destruct (cs_counts _ _ _ _ _ H) as (_ & _ & A & B). exact (fixed_partition rows u g C HC _ _ A B Hf). Qed.
Theorem cs_infinite cfg agg bal ws r (C : Z -> coh) : fit cfg agg bal ws = Ok r -> (forall i, In i rows -> g i = C (u i)) ->
  (forall i, In i rows -> g i = CInf \/ exists k, g i = CFin k /\ (0 <= k)%Z) -> let U := nodup Z.eq_dec (map u rows) in
  (cr_n_control r + cr_n_treated r = length U + length (filter (fun a => match C a with CInf => true | _ => false end) U))%nat.
Proof. intros H HC Hf. destruct (cs_counts _ _ _ _ _ H) as (_ & _ & A & B). exact (fixed_infinite rows u g C HC _ _ A B Hf). Qed.
End Cs.

Section Sa.
Context {I : Type}.
Variable qr : list I -> list (I -> R) -> list nat.
Variable lstsq : list I -> list (I -> R) -> (I -> R) -> list R.
Variable inv : list I -> list (I -> R) -> option (nat -> nat -> R).
Variable pinv : list I -> list (I -> R) -> nat -> nat -> R.
Variable sf : option Z -> fl -> fl.
Variable ppf : option Z -> R -> R.
Variables (u t : I -> Z) (g : I -> coh) (y : I -> R) (covs : list (I -> R)) (cluster : option (I -> Z)).
Notation fit := (sa_fit qr lstsq inv pinv sf ppf u t g y covs cluster).
Theorem sa_counts cfg rows r : fit cfg rows = Ok r ->
  sa_rn_obs r = length rows /\ (0 < sa_rn_control r)%nat /\
  counts rows u (first_row rows u (never_coded g)) (sa_rn_control r) /\ counts rows u (first_recorded rows u g (after_zero g)) (sa_rn_treated r).
Proof.
  intros H. destruct (sa_fit_inv qr lstsq inv pinv sf ppf u t g y covs cluster cfg rows r H) as (A & _ & reg & _ & Hr).
  cbv zeta in Hr. destruct Hr as (_ & _ & _ & _ & _ & _ & _ & _ & B & C & D & _). rewrite B, C. split; [exact D|]. split; [lia|].
  split; [apply n_never_counts|apply n_treated_counts]; apply zsort_perm.
Qed.
Theorem sa_no_never cfg rows : (forall i, In i rows -> ~ never_coded g i) -> fit cfg rows = Err ValueError.
Proof.
  intros H. unfold sa_fit. replace (sa_n_control u g rows) with 0%nat; [reflexivity|].
  assert (X : counts rows u (first_row rows u (never_coded g)) (sa_n_control u g rows)) by (apply n_never_counts, zsort_perm).
  symmetry. rewrite (X (nodup Z.eq_dec (map u rows)) (fun _ => false)); [generalize (nodup Z.eq_dec (map u rows)); induction l as [|a l IH]; [reflexivity|exact IH]|apply NoDup_nodup|intros a; apply nodup_In|]. intros a _. split; [discriminate|].
  intros (l1 & i & l2 & Er & _ & _ & Hn). exfalso. apply (H i); [rewrite Er; apply in_or_app; right; left; reflexivity|exact Hn].
Qed.
Theorem sa_partition cfg rows r (C : Z -> coh) : fit cfg rows = Ok r -> (forall i, In i rows -> g i = C (u i)) ->
  (forall i, In i rows -> exists k, g i = CFin k /\ (0 <= k)%Z) -> (sa_rn_control r + sa_rn_treated r = length (nodup Z.eq_dec (map u rows)))%nat.
Proof. intros H HC Hf. destruct (sa_counts _ _ _ H) as (_ & _ & A & B). exact (fixed_partition rows u g C HC _ _ A B Hf). Qed.
Theorem sa_infinite cfg rows r (C : Z -> coh) : fit cfg rows = Ok r -> (forall i, In i rows -> g i = C (u i)) ->
  (forall i, In i rows -> g i = CInf \/ exists k, g i = CFin k /\ (0 <= k)%Z) -> let U := nodup Z.eq_dec (map u rows) in
  (sa_rn_control r + sa_rn_treated r = length U + length (filter (fun a => match C a with CInf => true | _ => false end) U))%nat.
Proof. intros H HC Hf. destruct (sa_counts _ _ _ H) as (_ & _ & A & B). exact (fixed_infinite rows u g C HC _ _ A B Hf). Qed.
End Sa.

Section Ba.
Context {I : Type}.
Variables (rows : list I) (u t : I -> Z) (g : I -> coh) (y : I -> R).
Theorem bacon_counts exact : let b := bacon_fit rows u t g y exact in
  bo_nobs b = length rows /\ counts rows u (first_recorded rows u g (never_coded g)) (bo_n_never b) /\
  bo_n_groups b = length (bo_groups b) /\ NoDup (bo_groups b) /\ (forall k, In k (bo_groups b) <-> (0 < k)%Z /\ exists i, In i rows /\ g i = CFin k).
Proof.
  cbv zeta. split; [reflexivity|]. split.
  - cbn [bo_n_never bacon_fit]. unfold n_never. apply counts_filter; [apply Permutation_refl|]. intros a.
    rewrite (cohort_first rows u g c_never a eq_refl). apply first_recorded_ext. apply never_iff.
  - split; [reflexivity|]. cbn [bo_groups bacon_fit]. unfold timing_groups. split; [apply zsort_NoDup, NoDup_nodup|].
    intros k. rewrite zsort_In, nodup_In. unfold finite_cohorts. rewrite in_flat_map. split.
    + intros (i & Hi & H). destruct (g i) as [z| |] eqn:E; [|destruct H|destruct H]. destruct (Z.ltb_spec 0 z); [|destruct H]. destruct H as [<-|[]]. eauto.
    + intros (Hk & i & Hi & E). exists i. split; [exact Hi|]. rewrite E, (proj2 (Z.ltb_lt 0 k) Hk). left. reflexivity.
Qed.
End Ba.

(* on cohorts fixed over time the three estimators count the same never-treated units *)
Theorem counts_unique {I} (rows : list I) (u : I -> Z) (P Q : Z -> Prop) n m : counts rows u P n -> counts rows u Q m ->
  (forall a, In a (map u rows) -> {P a} + {~ P a}) -> (forall a, In a (map u rows) -> (P a <-> Q a)) -> n = m.
Proof.
  intros Hn Hm Hd HE. set (U := nodup Z.eq_dec (map u rows)).
  assert (X : exists p : Z -> bool, forall a, In a U -> (p a = true <-> P a)).
  { exists (fun a => match in_dec Z.eq_dec a (map u rows) with left H => if Hd a H then true else false | right _ => false end).
    intros a Ha. unfold U in Ha. apply nodup_In in Ha. destruct (in_dec Z.eq_dec a (map u rows)) as [H|H]; [|contradiction]. destruct (Hd a H); split; auto; try discriminate; contradiction. }
  destruct X as (p & Hp). rewrite (Hn U p (NoDup_nodup _ _) (fun a => nodup_In _ _ _) Hp).
  symmetry. apply Hm; [apply NoDup_nodup|intros a; apply nodup_In|]. intros a Ha. rewrite (Hp a Ha). apply HE. apply nodup_In in Ha. exact Ha.
Qed.
Theorem never_agree {I} (rows : list I) (u : I -> Z) (g : I -> coh) (C : Z -> coh) n m : (forall i, In i rows -> g i = C (u i)) ->
  counts rows u (first_row rows u (never_coded g)) n -> counts rows u (first_recorded rows u g (never_coded g)) m -> n = m.
Proof.
  intros HC Hn Hm. refine (counts_unique rows u _ _ n m Hn Hm _ _).
  - intros a Ha. destruct (c_never (C a)) eqn:E; [left|right].
    + apply (fixed_row rows u g C HC (fun c => c = CFin 0 \/ c = CInf) a Ha). destruct (C a) as [k| |]; try discriminate; auto. apply Z.eqb_eq in E. subst. auto.
    + intros F. apply (fixed_row rows u g C HC (fun c => c = CFin 0 \/ c = CInf) a Ha) in F. destruct F as [F|F]; rewrite F in E; discriminate.
  - intros a Ha. unfold never_coded. rewrite (fixed_row rows u g C HC (fun c => c = CFin 0 \/ c = CInf) a Ha).
    rewrite (fixed_recorded rows u g C HC (fun c => c = CFin 0 \/ c = CInf) a); [reflexivity|intros [|]; discriminate|exact Ha].
Qed.

(* unit 1 is never treated, but its first row has no cohort *)
Definition late_rows : list (Z * Z) := [(1, 1); (1, 2); (2, 1); (2, 2)]%Z.
Definition late_g (i : Z * Z) : coh := if Z.eqb (fst i) 2 then CFin 2 else if Z.eqb (snd i) 1 then CNaN else CFin 0.
Theorem late_case qr lstsq inv logit sf ppf y cfg agg bal ws yb exact :
  cs_fit qr lstsq inv logit sf ppf late_rows fst snd late_g y [] cfg agg bal ws = Err ValueError /\
  bo_n_never (bacon_fit late_rows fst snd late_g yb exact) = 1%nat.
Proof. split; reflexivity. Qed.
(* the three-unit panel of C18: two treated units, one never treated *)
Theorem counts35 qr lstsq inv logit sf ppf : exists cfg r,
  cs_fit qr lstsq inv logit sf ppf rows35 fst snd (fun i => C35 (fst i)) y35 [] cfg (Some "event_study"%string) None [] = Ok r /\
  cr_n_control r = 1%nat /\ cr_n_treated r = 2%nat /\ forall i, In i rows35 -> exists k, C35 (fst i) = CFin k /\ (0 <= k)%Z.
Proof.
  destruct (recode_refuted qr lstsq inv logit sf ppf) as (cfg & r & r' & A & _ & B & _). exists cfg, r. split; [exact A|]. split.
  - destruct (fit_inv _ _ _ _ _ _ _ _ _ _ _ _ _ _ _ _ _ A) as (_ & _ & _ & _ & _ & _ & _ & _ & C & _). rewrite C. reflexivity.
  - split; [exact B|]. intros i Hi. unfold C35. destruct (fst i =? 1)%Z; [exists 3%Z|destruct (fst i =? 2)%Z; [exists 5%Z|exists 0%Z]]; split; try reflexivity; lia.
Qed.

(* The saturated regression of SunAbraham on a balanced panel. *)
From Verif Require Import Prelude Flt Stats_model Stats_proofs Linalg_model Linalg_proofs Linalg_vcov Linalg_thms Did_model Did_proofs Within_proofs Multi_model Multi_proofs Multi_thms Bacon_model Bacon_proofs Staggered_model Staggered_proofs Sun_model.
From Coq Require Import Arith ZArith String List Permutation.
Import ListNotations.
Open Scope R_scope.

Lemma key_eqb_true a b : key_eqb a b = true <-> a = b.
Proof.
  unfold key_eqb. rewrite andb_true_iff, c_eqb_true, Z.eqb_eq. destruct a, b; simpl. split; [intros [-> ->]; reflexivity|intros E; injection E; auto].
Qed.
Lemma key_eq_dec (a b : sa_key) : {a = b} + {a <> b}.
Proof. decide equality; [apply Z.eq_dec|apply coh_eq_dec]. Defined.

Lemma lc_keys {I K} (f : K -> I -> R) (b : K -> R) keys i : lc (map f keys) (map b keys) i = sumf (fun k => b k * f k i) keys.
Proof. induction keys as [|k l IH]; simpl; [reflexivity|]. rewrite IH. reflexivity. Qed.

Lemma key_index_some k l j : key_index k l = Some j -> (j < length l)%nat /\ nth j l k = k.
Proof.
  revert j. induction l as [|x l IH]; simpl; intros j H; [discriminate|]. destruct (key_eqb x k) eqn:E.
  - injection H as <-. apply key_eqb_true in E. split; [lia|exact E].
  - destruct (key_index k l) as [p|]; [|discriminate]. injection H as <-. destruct (IH p eq_refl). split; [lia|assumption].
Qed.
Lemma key_index_in k l : In k l -> exists j, key_index k l = Some j.
Proof.
  induction l as [|x l IH]; simpl; intros H; [contradiction|]. destruct (key_eqb x k) eqn:E; [eauto|].
  destruct H as [->|H]; [assert (X : key_eqb k k = true) by (apply key_eqb_true; reflexivity); congruence|].
  destruct (IH H) as [j ->]. eexists; reflexivity.
Qed.
Lemma key_index_none k l : ~ In k l -> key_index k l = None.
Proof.
  intros H. destruct (key_index k l) as [j|] eqn:E; [|reflexivity]. exfalso. apply H. destruct (key_index_some _ _ _ E) as [L N].
  rewrite <- N. apply nth_In. exact L.
Qed.
Lemma key_index_nth {A} k l j (f : sa_key -> A) d : key_index k l = Some j -> nth j (map f l) d = f k.
Proof.
  intros H. destruct (key_index_some _ _ _ H) as [L N]. rewrite nth_indep with (d' := f k) by (rewrite map_length; exact L).
  rewrite map_nth, N. reflexivity.
Qed.
(* every list of coefficients is a function of the keys *)
Lemma list_of_keys (keys : list sa_key) (b : list R) : NoDup keys -> length b = length keys -> exists f, b = map f keys.
Proof.
  intros Hn Hl. exists (fun k => match key_index k keys with Some j => nth j b 0 | None => 0 end).
  revert b Hl. induction keys as [|k l IH]; intros [|x b] Hl; try discriminate; [reflexivity|].
  inversion Hn; subst. cbn [map]. injection Hl as Hl. f_equal.
  - cbn [key_index]. assert (E : key_eqb k k = true) by (apply key_eqb_true; reflexivity). rewrite E. reflexivity.
  - rewrite (IH H2 b Hl) at 1. apply map_ext_in. intros k' Hk'. cbn [key_index]. destruct (key_eqb k k') eqn:E.
    + apply key_eqb_true in E. subst. contradiction.
    + destruct (key_index_in k' l Hk') as [j ->]. reflexivity.
Qed.

(* never-treated units in one class *)
Definition norm (c : coh) : coh := if c_never c then CInf else c.
Definition valid_coh (c : coh) : bool := c_never c || c_gt c 0.

Section Saturated.
Context {I : Type}.
Variables (rows : list I) (u t : I -> Z) (g : I -> coh) (y : I -> R) (C : Z -> coh) (m : nat).
Hypothesis Hbal : balanced Z.eq_dec Z.eq_dec rows u t m.
Hypothesis HC : forall i, In i rows -> g i = C (u i).
Hypothesis Hval : forall i, In i rows -> valid_coh (g i) = true.
Notation W := (within Z.eq_dec Z.eq_dec rows u t).
Notation dummy := (sa_dummy t g).
Notation inn := (sa_in t g).
Notation rel := (sa_rel t g).

Lemma dummy_sum (keys : list sa_key) (b : sa_key -> R) i : NoDup keys ->
  sumf (fun k => b k * dummy k i) keys
  = match rel i with Some e => if existsb (key_eqb (g i, e)) keys then b (g i, e) else 0 | None => 0 end.
Proof.
  intros Hn. unfold sa_dummy, sa_in. destruct (rel i) as [e|] eqn:E.
  - destruct (existsb (key_eqb (g i, e)) keys) eqn:Ex.
    + apply existsb_exists in Ex as (k & Hk & Ek). apply key_eqb_true in Ek. subst k.
      transitivity (sumf (fun k => ind (keqb key_eq_dec (g i, e) k) * b (g i, e)) keys); [|apply sumf_ind_key; assumption].
      apply sumf_ext. intros k _. unfold keqb. destruct (key_eq_dec (g i, e) k) as [<-|N]; cbn [fst snd].
      * rewrite c_eqb_refl, Z.eqb_refl. cbn [andb ind]. ring.
      * replace (c_eqb (g i) (fst k) && Z.eqb e (snd k)) with false; [cbn [ind]; ring|]. symmetry.
        destruct (c_eqb (g i) (fst k)) eqn:E1; [|reflexivity]. apply c_eqb_true in E1. destruct (Z.eqb_spec e (snd k)) as [E2|]; [|reflexivity].
        exfalso. apply N. destruct k; simpl in *; congruence.
    + apply sumf_zero. intros k Hk. replace (c_eqb (g i) (fst k) && Z.eqb e (snd k)) with false; [cbn [ind]; ring|]. symmetry.
      destruct (c_eqb (g i) (fst k)) eqn:E1; [|reflexivity]. apply c_eqb_true in E1. destruct (Z.eqb_spec e (snd k)) as [E2|]; [|reflexivity].
      exfalso. assert (X : existsb (key_eqb (g i, e)) keys = true); [|congruence].
      apply existsb_exists. exists k. split; [exact Hk|]. apply key_eqb_true. destruct k; simpl in *; congruence.
  - apply sumf_zero. intros k Hk. rewrite andb_false_r. cbn [ind]. ring.
Qed.

Lemma within_sumf {K} (b : K -> R) (x : K -> I -> R) keys i : W (fun j => sumf (fun k => b k * x k j) keys) i = sumf (fun k => b k * W (x k) i) keys.
Proof.
  induction keys as [|k l IH]; cbn [sumf].
  - unfold within, group_mean, meanf. rewrite !sumf_0. unfold Rdiv. ring.
  - rewrite within_add, within_scal, IH. reflexivity.
Qed.

(* the value of a dummy in class c at period s *)
Definition dval (k : sa_key) (c : coh) (s : Z) : R :=
  match c with CFin z => if c_never c then 0 else ind (c_eqb c (fst k) && Z.eqb (s - z) (snd k)) | _ => 0 end.
Lemma dummy_dval k i : In i rows -> dummy k i = dval k (norm (g i)) (t i).
Proof.
  intros Hi. specialize (Hval i Hi). unfold sa_dummy, sa_in, sa_rel, dval, norm, valid_coh in *.
  destruct (g i) as [z| |]; cbn [c_never c_gt orb] in *; try discriminate.
  - destruct (Z.eqb_spec z 0) as [Ez|Nz]; [try subst z|].
    + cbn [Z.ltb Z.compare]. rewrite andb_false_r. reflexivity.
    + cbn [orb] in Hval. rewrite Hval. cbn [c_never]. destruct (Z.eqb_spec z 0); [contradiction|]. reflexivity.
  - rewrite andb_false_r. reflexivity.
Qed.

Lemma within_class k i j : In i rows -> In j rows -> norm (g i) = norm (g j) -> t i = t j -> W (dummy k) i = W (dummy k) j.
Proof.
  intros Hi Hj En Et. rewrite !within_tab, (dummy_dval k i Hi), (dummy_dval k j Hj), En, Et.
  assert (HU : forall i, In i rows -> utab Z.eq_dec rows u (dummy k) (u i) = meanf (fun s => dval k (norm (g i)) s) (times Z.eq_dec rows t)).
  { intros i0 H0. unfold utab.
    rewrite (meanf_ext _ (fun x => dval k (norm (g i0)) (t x))).
    - unfold meanf. rewrite (unit_sum Z.eq_dec Z.eq_dec rows u t m Hbal (fun s => dval k (norm (g i0)) s)) by (apply in_map; exact H0).
      rewrite (unit_size Z.eq_dec Z.eq_dec rows u t m Hbal) by (apply in_map; exact H0).
      pose proof (mpos Z.eq_dec Z.eq_dec rows u t m Hbal). pose proof (times_pos Z.eq_dec rows t i0 H0). field. lra.
    - intros x Hx. apply filter_In in Hx as [Hx E]. apply keqb_true in E. rewrite (dummy_dval k x Hx), (HC x Hx), E, <- (HC i0 H0). reflexivity. }
  rewrite (HU i Hi), (HU j Hj), En. reflexivity.
Qed.

Definition cell (c : coh) (s : Z) : list I := filter (fun i => c_eqb (norm (g i)) c && Z.eqb (t i) s) rows.
Definition cmean (c : coh) (s : Z) : R := meanf y (cell c s).
Definition cdev (i : I) : R := y i - cmean (norm (g i)) (t i).
Definition ct_eq_dec (a b : coh * Z) : {a = b} + {a <> b} := key_eq_dec a b.

Lemma cdev_orth k : ip rows (W (dummy k)) cdev = 0.
Proof.
  unfold ip. set (key := fun i => (norm (g i), t i)).
  rewrite <- (sumf_group ct_eq_dec key (nodup ct_eq_dec (map key rows))) by (try apply NoDup_nodup; intros; apply nodup_In; apply in_map; auto).
  apply sumf_zero. intros [c s] Hk. apply nodup_In in Hk. apply in_map_iff in Hk as (i & E & Hi).
  assert (EF : filter (fun x => keqb ct_eq_dec (key x) (c, s)) rows = cell c s).
  { apply filter_ext. intros x. unfold key, keqb. destruct (ct_eq_dec (norm (g x), t x) (c, s)) as [E'|N].
    - injection E' as -> ->. rewrite c_eqb_refl, Z.eqb_refl. reflexivity.
    - symmetry. destruct (c_eqb (norm (g x)) c) eqn:E1; [|reflexivity]. apply c_eqb_true in E1.
      destruct (Z.eqb_spec (t x) s) as [E2|]; [|reflexivity]. exfalso. apply N. rewrite E1, E2. reflexivity. }
  rewrite EF. unfold key in E. injection E as Ec Es.
  assert (Hc : forall x, In x (cell c s) -> In x rows /\ norm (g x) = c /\ t x = s).
  { intros x Hx. apply filter_In in Hx as [Hx B]. apply andb_true_iff in B as [B1 B2]. apply c_eqb_true in B1. apply Z.eqb_eq in B2. auto. }
  rewrite (sumf_ext _ (fun x => W (dummy k) i * (y x - meanf y (cell c s)))).
  - rewrite sumf_scal, sumf_dev; [ring|]. intros E0. assert (X : In i (cell c s)); [|rewrite E0 in X; destruct X].
    apply filter_In. split; [exact Hi|]. rewrite Ec, Es, c_eqb_refl, Z.eqb_refl. reflexivity.
  - intros x Hx. destruct (Hc x Hx) as (H1 & H2 & H3). rewrite (within_class k x i) by congruence. unfold cdev, cmean. rewrite H2, H3. reflexivity.
Qed.

(* the 2x2 comparison with the never-treated units *)
Definition did (ref : Z) (k : sa_key) : R :=
  match fst k with
  | CFin z => (cmean (CFin z) (z + snd k) - cmean (CFin z) (z + ref)) - (cmean CInf (z + snd k) - cmean CInf (z + ref))
  | _ => 0 end.

Definition covers (ref : Z) (keys : list sa_key) : Prop :=
  forall i e, In i rows -> rel i = Some e -> (In (g i, e) keys <-> e <> ref).

Lemma resid_split ref keys i : NoDup keys -> covers ref keys -> In i rows ->
  y i - sumf (fun k => did ref k * dummy k i) keys
  = match norm (C (u i)) with CFin z => cmean (CFin z) (z + ref) - cmean CInf (z + ref) | _ => 0 end + cmean CInf (t i) + cdev i.
Proof.
  intros Hn Hcov Hi. rewrite dummy_sum by exact Hn. unfold cdev. rewrite <- (HC i Hi). specialize (Hval i Hi). specialize (Hcov i).
  unfold sa_rel, norm, valid_coh in *. destruct (g i) as [z| |] eqn:Eg; cbn [c_never c_gt orb] in *; try discriminate; [|ring].
  destruct (Z.eqb_spec z 0) as [Ez|Nz]; [try subst z|]; [cbn [Z.ltb Z.compare]; ring|]. cbn [orb] in Hval. rewrite Hval in *.
  destruct (Hcov (t i - z)%Z Hi eq_refl) as [C1 C2].
  destruct (existsb (key_eqb (CFin z, (t i - z)%Z)) keys) eqn:Ex.
  - unfold did. cbn [fst snd]. replace (z + (t i - z))%Z with (t i) by ring. ring.
  - assert (Hr : (t i - z)%Z = ref).
    { destruct (Z.eq_dec (t i - z) ref) as [E|N]; [exact E|]. exfalso. assert (X : existsb (key_eqb (CFin z, (t i - z)%Z)) keys = true); [|congruence].
      apply existsb_exists. exists (CFin z, (t i - z)%Z). split; [apply C2; exact N|apply key_eqb_true; reflexivity]. }
    replace (z + ref)%Z with (t i) by lia. ring.
Qed.

Theorem saturated_is_did ref keys : NoDup keys -> covers ref keys ->
  is_ls rows (map (fun k => W (dummy k)) keys) (W y) (map (did ref) keys).
Proof.
  intros Hn Hcov. split; [rewrite !map_length; reflexivity|]. apply Forall_forall. intros c Hc. apply in_map_iff in Hc as (k & <- & Hk).
  set (r := fun i => y i - sumf (fun k => did ref k * dummy k i) keys).
  assert (E : forall i, W y i - lc (map (fun k => W (dummy k)) keys) (map (did ref) keys) i = W r i).
  { intros i. rewrite lc_keys, <- within_sumf. unfold r. unfold Rminus.
    rewrite (within_add Z.eq_dec Z.eq_dec rows u t y (fun i => - sumf (fun k => did ref k * dummy k i) keys)).
    f_equal. assert (X := within_scal Z.eq_dec Z.eq_dec rows u t (-1) (fun i => sumf (fun k => did ref k * dummy k i) keys) i).
    replace (- W (fun j => sumf (fun k0 => did ref k0 * dummy k0 j) keys) i) with (-1 * W (fun j => sumf (fun k0 => did ref k0 * dummy k0 j) keys) i) by ring.
    rewrite <- X. unfold within, group_mean, meanf. f_equal; [f_equal; [f_equal|]|];
      try (f_equal; apply sumf_ext_all; intros; ring); ring. }
  rewrite (ip_ext rows _ (W (dummy k)) _ (W r)) by (intros; auto).
  rewrite <- (within_ip Z.eq_dec Z.eq_dec rows u t m Hbal).
  set (ka := fun a => match norm (C a) with CFin z => cmean (CFin z) (z + ref) - cmean CInf (z + ref) | _ => 0 end).
  rewrite (ip_ext rows _ (W (dummy k)) _ (fun i => (ka (u i) + cmean CInf (t i)) + cdev i)).
  - rewrite ip_add_r, (within_orth Z.eq_dec Z.eq_dec rows u t m Hbal), cdev_orth. ring.
  - reflexivity.
  - intros i Hi. unfold r. rewrite (resid_split ref keys i Hn Hcov Hi). reflexivity.
Qed.

Theorem saturated_indep keys :
  NoDup keys -> (forall k, In k keys -> exists i, In i rows /\ inn k i = true) ->
  (exists i, In i rows /\ c_never (g i) = true) ->
  (forall i e, In i rows -> rel i = Some e -> exists j, In j rows /\ u j = u i /\ (forall e', rel j = Some e' -> ~ In (g j, e') keys)) ->
  indep rows (map (fun k => W (dummy k)) keys).
Proof.
  intros Hn Hrow (i0 & Hi0 & Hnev) Href b Hb H0. rewrite map_length in *.
  destruct (list_of_keys keys b Hn Hb) as [f ->].
  set (x := fun i => sumf (fun k => f k * dummy k i) keys).
  assert (Wx : forall i, In i rows -> W x i = 0).
  { intros i Hi. unfold x. rewrite (within_sumf f dummy keys i), <- (lc_keys (fun k => W (dummy k)) f keys i). apply H0. exact Hi. }
  assert (Add : forall i, In i rows -> x i = utab Z.eq_dec rows u x (u i) + ttab Z.eq_dec rows t x (t i) - meanf x rows).
  { intros i Hi. specialize (Wx i Hi). rewrite within_tab in Wx. lra. }
  assert (Xv : forall i, In i rows -> x i = match rel i with Some e => if existsb (key_eqb (g i, e)) keys then f (g i, e) else 0 | None => 0 end).
  { intros i Hi. apply dummy_sum. exact Hn. }
  assert (Row : forall a s, In a (map u rows) -> In s (map t rows) -> exists i, In i rows /\ u i = a /\ t i = s).
  { intros a s Ha Hs. destruct Hbal as [Hm HB]. specialize (HB a s Ha Hs).
    destruct (filter (fun i => keqb Z.eq_dec (u i) a && keqb Z.eq_dec (t i) s) rows) as [|i l] eqn:E; [simpl in HB; lia|].
    assert (X : In i (i :: l)) by (left; reflexivity). rewrite <- E in X. apply filter_In in X as [X B]. apply andb_true_iff in B as [B1 B2].
    apply keqb_true in B1, B2. eauto. }
  set (A0 := utab Z.eq_dec rows u x (u i0)).
  assert (Z0 : forall s, In s (map t rows) -> ttab Z.eq_dec rows t x s = meanf x rows - A0).
  { intros s Hs. destruct (Row (u i0) s) as (j & Hj & Eu & Es); [apply in_map; exact Hi0|exact Hs|].
    assert (Xj : x j = 0).
    { rewrite (Xv j Hj). unfold sa_rel. rewrite (HC j Hj), Eu, <- (HC i0 Hi0). destruct (g i0) as [z| |]; cbn [c_never] in Hnev; try reflexivity.
      apply Z.eqb_eq in Hnev. subst z. reflexivity. }
    rewrite (Add j Hj), Eu, Es in Xj. fold A0 in Xj. lra. }
  assert (X0 : forall i, In i rows -> x i = 0).
  { intros i Hi. rewrite (Xv i Hi). destruct (rel i) as [e|] eqn:Er; [|reflexivity].
    destruct (Href i e Hi Er) as (j & Hj & Eu & Hj').
    assert (Xj : x j = 0).
    { rewrite (Xv j Hj). destruct (rel j) as [e'|] eqn:Ej; [|reflexivity]. specialize (Hj' e' eq_refl).
      destruct (existsb (key_eqb (g j, e')) keys) eqn:Ex; [|reflexivity]. apply existsb_exists in Ex as (k & Hk & Ek). apply key_eqb_true in Ek. subst k. contradiction. }
    assert (E1 := Add i Hi). rewrite (Z0 (t i)) in E1 by (apply in_map; exact Hi).
    assert (E2 := Add j Hj). rewrite (Z0 (t j)), Eu in E2 by (apply in_map; exact Hj).
    assert (E3 := Xv i Hi). rewrite Er in E3. lra. }
  clear Href. transitivity (map (fun _ : sa_key => 0) keys).
  - apply map_ext_in. intros k Hk. destruct (Hrow k Hk) as (i & Hi & Hin). specialize (X0 i Hi). rewrite (Xv i Hi) in X0.
    unfold sa_in in Hin. apply andb_true_iff in Hin as [E1 E2]. apply c_eqb_true in E1. destruct (rel i) as [e|]; [|discriminate]. apply Z.eqb_eq in E2.
    assert (Ek : (g i, e) = k) by (destruct k; simpl in *; congruence). rewrite Ek in X0.
    assert (Ex : existsb (key_eqb k) keys = true) by (apply existsb_exists; exists k; split; [exact Hk|apply key_eqb_true; reflexivity]).
    rewrite Ex in X0. exact X0.
  - clear. induction keys as [|k l IH]; [reflexivity|]. simpl. rewrite IH. reflexivity.
Qed.
End Saturated.

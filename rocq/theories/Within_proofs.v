(* One-way and two-way demeaning (utils.py:1350-1484) on balanced panels. *)
From Verif Require Import Prelude Linalg_model Linalg_proofs Did_model.
From Coq Require Import Arith ZArith String List.
Import ListNotations.
Open Scope R_scope.

Section Oneway.
Context {I G : Type} (geq : forall x y : G, {x = y} + {x <> y}).

Lemma group_self (rows : list I) (g : I -> G) i : In i rows ->
  In i (filter (fun j => keqb geq (g j) (g i)) rows).
Proof. intros H. apply filter_In. split; auto. apply keqb_refl. Qed.

Lemma group_mean_const (rows : list I) (g : I -> G) (a : G -> R) i : In i rows ->
  group_mean geq rows g (fun j => a (g j)) i = a (g i).
Proof.
  intros Hi. unfold group_mean. rewrite (meanf_ext _ (fun _ => a (g i))).
  - apply meanf_const. intros E. pose proof (group_self rows g i Hi) as H. rewrite E in H. destruct H.
  - intros j Hj. apply filter_In in Hj as [_ Hj]. apply keqb_true in Hj. rewrite Hj. reflexivity.
Qed.

Lemma group_mean_add (rows : list I) (g : I -> G) x y i :
  group_mean geq rows g (fun j => x j + y j) i = group_mean geq rows g x i + group_mean geq rows g y i.
Proof. apply meanf_add. Qed.
Lemma group_mean_scal (rows : list I) (g : I -> G) c x i :
  group_mean geq rows g (fun j => c * x j) i = c * group_mean geq rows g x i.
Proof. apply meanf_scal. Qed.
Lemma group_mean_ext (rows : list I) (g : I -> G) x y i : (forall j, In j rows -> x j = y j) ->
  group_mean geq rows g x i = group_mean geq rows g y i.
Proof. intros H. apply meanf_ext. intros j Hj. apply filter_In in Hj as [Hj _]. auto. Qed.

(* every group of the demeaned column sums to zero *)
Theorem demean_group_zero (rows : list I) (g : I -> G) x k :
  sumf (demean geq rows g x) (filter (fun j => keqb geq (g j) k) rows) = 0.
Proof.
  set (l := filter (fun j => keqb geq (g j) k) rows).
  rewrite (sumf_ext _ (fun i => x i - meanf x l)).
  - destruct l eqn:E; [reflexivity|]. apply sumf_dev. discriminate.
  - intros i Hi. unfold demean, group_mean. apply filter_In in Hi as [_ Hi]. apply keqb_true in Hi. rewrite Hi. reflexivity.
Qed.

(* group effects are removed *)
Theorem demean_absorbs (rows : list I) (g : I -> G) x (a : G -> R) i : In i rows ->
  demean geq rows g (fun j => x j + a (g j)) i = demean geq rows g x i.
Proof. intros Hi. unfold demean. rewrite group_mean_add, group_mean_const by auto. ring. Qed.

Theorem demean_idempotent (rows : list I) (g : I -> G) x i :
  demean geq rows g (demean geq rows g x) i = demean geq rows g x i.
Proof.
  unfold demean at 1. unfold group_mean, meanf. rewrite demean_group_zero. unfold Rdiv. ring.
Qed.
End Oneway.

Section Twoway.
Context {I U T : Type} (ueq : forall x y : U, {x = y} + {x <> y}) (teq : forall x y : T, {x = y} + {x <> y}).
Variables (rows : list I) (u : I -> U) (t : I -> T).

(* every unit is seen equally often (m > 0 times) in every period *)
Definition balanced (m : nat) : Prop :=
  (0 < m)%nat /\
  forall a b, In a (map u rows) -> In b (map t rows) ->
    length (filter (fun i => keqb ueq (u i) a && keqb teq (t i) b) rows) = m.

Definition units := nodup ueq (map u rows).
Definition times := nodup teq (map t rows).

Lemma filter_filter {A} (p q : A -> bool) l : filter p (filter q l) = filter (fun x => q x && p x) l.
Proof.
  induction l as [|a l IH]; simpl; auto. destruct (q a); simpl; [destruct (p a)|]; rewrite IH; auto.
Qed.

Variable m : nat.
Hypothesis Hbal : balanced m.

Lemma mpos : 0 < INR m.
Proof. apply lt_0_INR. apply Hbal. Qed.

Lemma unit_sum (h : T -> R) a : In a (map u rows) ->
  sumf (fun i => h (t i)) (filter (fun i => keqb ueq (u i) a) rows) = INR m * sumf h times.
Proof.
  intros Ha. rewrite <- (sumf_group teq t times).
  - rewrite <- sumf_scal. apply sumf_ext. intros b Hb. unfold times in Hb. apply nodup_In in Hb.
    rewrite filter_filter.
    rewrite (sumf_ext _ (fun _ => h b)).
    + rewrite sumf_const. unfold len. rewrite (proj2 Hbal a b Ha Hb). reflexivity.
    + intros i Hi. apply filter_In in Hi as [_ Hi]. apply andb_prop in Hi as [_ Hi]. apply keqb_true in Hi. rewrite Hi; auto.
  - apply NoDup_nodup.
  - intros i Hi. apply filter_In in Hi as [Hi _]. apply nodup_In. apply in_map; auto.
Qed.

Lemma time_sum (h : U -> R) b : In b (map t rows) ->
  sumf (fun i => h (u i)) (filter (fun i => keqb teq (t i) b) rows) = INR m * sumf h units.
Proof.
  intros Hb. rewrite <- (sumf_group ueq u units).
  - rewrite <- sumf_scal. apply sumf_ext. intros a Ha. unfold units in Ha. apply nodup_In in Ha.
    rewrite filter_filter.
    rewrite (sumf_ext _ (fun _ => h a)).
    + rewrite sumf_const. unfold len.
      rewrite (filter_ext _ (fun i => keqb ueq (u i) a && keqb teq (t i) b)) by (intros; apply andb_comm).
      rewrite (proj2 Hbal a b Ha Hb). reflexivity.
    + intros i Hi. apply filter_In in Hi as [_ Hi]. apply andb_prop in Hi as [_ Hi]. apply keqb_true in Hi. rewrite Hi; auto.
  - apply NoDup_nodup.
  - intros i Hi. apply filter_In in Hi as [Hi _]. apply nodup_In. apply in_map; auto.
Qed.

Lemma unit_size a : In a (map u rows) -> len (filter (fun i => keqb ueq (u i) a) rows) = INR m * len times.
Proof.
  intros Ha. pose proof (unit_sum (fun _ => 1) a Ha) as H. rewrite !sumf_const in H. rewrite !Rmult_1_r in H. exact H.
Qed.
Lemma time_size b : In b (map t rows) -> len (filter (fun i => keqb teq (t i) b) rows) = INR m * len units.
Proof.
  intros Hb. pose proof (time_sum (fun _ => 1) b Hb) as H. rewrite !sumf_const in H. rewrite !Rmult_1_r in H. exact H.
Qed.

Lemma sum_of_time (h : T -> R) : sumf (fun i => h (t i)) rows = INR m * len units * sumf h times.
Proof.
  rewrite <- (sumf_group ueq u units) by (try apply NoDup_nodup; intros; apply nodup_In; apply in_map; auto).
  rewrite (sumf_ext _ (fun _ => INR m * sumf h times)).
  - rewrite sumf_const. ring.
  - intros a Ha. apply unit_sum. apply nodup_In in Ha. auto.
Qed.
Lemma sum_of_unit (h : U -> R) : sumf (fun i => h (u i)) rows = INR m * len times * sumf h units.
Proof.
  rewrite <- (sumf_group teq t times) by (try apply NoDup_nodup; intros; apply nodup_In; apply in_map; auto).
  rewrite (sumf_ext _ (fun _ => INR m * sumf h units)).
  - rewrite sumf_const. ring.
  - intros b Hb. apply time_sum. apply nodup_In in Hb. auto.
Qed.
Lemma rows_size : len rows = INR m * len units * len times.
Proof. pose proof (sum_of_time (fun _ => 1)) as H. rewrite !sumf_const, !Rmult_1_r in H. exact H. Qed.

Lemma units_pos i : In i rows -> 0 < len units.
Proof. intros Hi. apply len_pos. intros E. assert (In (u i) units) by (apply nodup_In, in_map; auto). rewrite E in H. destruct H. Qed.
Lemma times_pos i : In i rows -> 0 < len times.
Proof. intros Hi. apply len_pos. intros E. assert (In (t i) times) by (apply nodup_In, in_map; auto). rewrite E in H. destruct H. Qed.

(* mean over a unit of a function of the period = mean over the periods *)
Lemma unit_mean_of_time (h : T -> R) i : In i rows -> group_mean ueq rows u (fun j => h (t j)) i = meanf h times.
Proof.
  intros Hi. unfold group_mean, meanf. rewrite unit_sum, unit_size by (apply in_map; auto).
  pose proof mpos. pose proof (times_pos i Hi). field. lra.
Qed.
Lemma time_mean_of_unit (h : U -> R) i : In i rows -> group_mean teq rows t (fun j => h (u j)) i = meanf h units.
Proof.
  intros Hi. unfold group_mean, meanf. rewrite time_sum, time_size by (apply in_map; auto).
  pose proof mpos. pose proof (units_pos i Hi). field. lra.
Qed.
Lemma grand_mean_of_time (h : T -> R) i : In i rows -> meanf (fun j => h (t j)) rows = meanf h times.
Proof.
  intros Hi. unfold meanf. rewrite sum_of_time, rows_size.
  pose proof mpos. pose proof (times_pos i Hi). pose proof (units_pos i Hi). field. lra.
Qed.
Lemma grand_mean_of_unit (h : U -> R) i : In i rows -> meanf (fun j => h (u j)) rows = meanf h units.
Proof.
  intros Hi. unfold meanf. rewrite sum_of_unit, rows_size.
  pose proof mpos. pose proof (times_pos i Hi). pose proof (units_pos i Hi). field. lra.
Qed.

Notation W := (within ueq teq rows u t).

Lemma within_add x y i : W (fun j => x j + y j) i = W x i + W y i.
Proof. unfold within. rewrite !group_mean_add, meanf_add. ring. Qed.
Lemma within_scal c x i : W (fun j => c * x j) i = c * W x i.
Proof. unfold within. rewrite !group_mean_scal, meanf_scal. ring. Qed.
Lemma within_ext x y i : In i rows -> (forall j, In j rows -> x j = y j) -> W x i = W y i.
Proof.
  intros Hi H. unfold within. rewrite (group_mean_ext ueq rows u x y), (group_mean_ext teq rows t x y), (meanf_ext x y) by auto.
  rewrite H; auto.
Qed.

Lemma within_additive (a : U -> R) (b : T -> R) i : In i rows -> W (fun j => a (u j) + b (t j)) i = 0.
Proof.
  intros Hi. unfold within. rewrite !group_mean_add, meanf_add.
  rewrite group_mean_const, (group_mean_const teq) by auto.
  rewrite unit_mean_of_time, time_mean_of_unit, (grand_mean_of_time b i), (grand_mean_of_unit a i) by auto. ring.
Qed.

(* C12: additive effects vanish *)
Theorem within_absorbs x (a : U -> R) (b : T -> R) i : In i rows ->
  W (fun j => x j + (a (u j) + b (t j))) i = W x i.
Proof. intros Hi. rewrite within_add, within_additive by auto. ring. Qed.

(* C12: zero unit and period sums *)
Definition utab (x : I -> R) (a : U) : R := meanf x (filter (fun j => keqb ueq (u j) a) rows).
Definition ttab (x : I -> R) (b : T) : R := meanf x (filter (fun j => keqb teq (t j) b) rows).

Lemma within_tab x i : W x i = x i - (utab x (u i) + ttab x (t i) - meanf x rows).
Proof. unfold within, utab, ttab, group_mean. ring. Qed.

Lemma mean_ttab x i : In i rows -> meanf (ttab x) times = meanf x rows.
Proof.
  intros Hi. unfold meanf at 1. unfold ttab.
  rewrite (sumf_ext _ (fun b => sumf x (filter (fun j => keqb teq (t j) b) rows) / (INR m * len units))).
  - rewrite sumf_div, (sumf_group teq t times) by (try apply NoDup_nodup; intros; apply nodup_In; apply in_map; auto).
    unfold meanf. rewrite rows_size. pose proof mpos. pose proof (units_pos i Hi). pose proof (times_pos i Hi). field. lra.
  - intros b Hb. unfold meanf. rewrite time_size; auto. apply nodup_In in Hb; auto.
Qed.
Lemma mean_utab x i : In i rows -> meanf (utab x) units = meanf x rows.
Proof.
  intros Hi. unfold meanf at 1. unfold utab.
  rewrite (sumf_ext _ (fun b => sumf x (filter (fun j => keqb ueq (u j) b) rows) / (INR m * len times))).
  - rewrite sumf_div, (sumf_group ueq u units) by (try apply NoDup_nodup; intros; apply nodup_In; apply in_map; auto).
    unfold meanf. rewrite rows_size. pose proof mpos. pose proof (units_pos i Hi). pose proof (times_pos i Hi). field. lra.
  - intros b Hb. unfold meanf. rewrite unit_size; auto. apply nodup_In in Hb; auto.
Qed.

Theorem within_unit_zero x a : In a (map u rows) -> sumf (W x) (filter (fun j => keqb ueq (u j) a) rows) = 0.
Proof.
  intros Ha. apply in_map_iff in Ha as (i & <- & Hi).
  rewrite (sumf_ext _ (fun j => x j - ((utab x (u i) - meanf x rows) + ttab x (t j)))).
  - rewrite sumf_sub, sumf_add, sumf_const, (unit_sum (ttab x)) by (apply in_map; auto).
    assert (E1 : sumf x (filter (fun j => keqb ueq (u j) (u i)) rows) = len (filter (fun j => keqb ueq (u j) (u i)) rows) * utab x (u i)).
    { unfold utab, meanf. field. apply Rgt_not_eq. apply len_pos. intros E. pose proof (group_self ueq rows u i Hi) as H. rewrite E in H; destruct H. }
    rewrite E1, unit_size by (apply in_map; auto).
    assert (E2 : sumf (ttab x) times = len times * meanf x rows).
    { rewrite <- (mean_ttab x i Hi). unfold meanf at 1. field. apply Rgt_not_eq. apply times_pos with i; auto. }
    rewrite E2. ring.
  - intros j Hj. rewrite within_tab. apply filter_In in Hj as [_ Hj]. apply keqb_true in Hj. rewrite Hj. ring.
Qed.

Theorem within_time_zero x b : In b (map t rows) -> sumf (W x) (filter (fun j => keqb teq (t j) b) rows) = 0.
Proof.
  intros Hb. apply in_map_iff in Hb as (i & <- & Hi).
  rewrite (sumf_ext _ (fun j => x j - ((ttab x (t i) - meanf x rows) + utab x (u j)))).
  - rewrite sumf_sub, sumf_add, sumf_const, (time_sum (utab x)) by (apply in_map; auto).
    assert (E1 : sumf x (filter (fun j => keqb teq (t j) (t i)) rows) = len (filter (fun j => keqb teq (t j) (t i)) rows) * ttab x (t i)).
    { unfold ttab, meanf. field. apply Rgt_not_eq. apply len_pos. intros E. pose proof (group_self teq rows t i Hi) as H. rewrite E in H; destruct H. }
    rewrite E1, time_size by (apply in_map; auto).
    assert (E2 : sumf (utab x) units = len units * meanf x rows).
    { rewrite <- (mean_utab x i Hi). unfold meanf at 1. field. apply Rgt_not_eq. apply units_pos with i; auto. }
    rewrite E2. ring.
  - intros j Hj. rewrite within_tab. apply filter_In in Hj as [_ Hj]. apply keqb_true in Hj. rewrite Hj. ring.
Qed.

Theorem within_sum_zero x : sumf (W x) rows = 0.
Proof.
  rewrite <- (sumf_group ueq u units) by (try apply NoDup_nodup; intros; apply nodup_In; apply in_map; auto).
  apply sumf_zero. intros a Ha. apply within_unit_zero. apply nodup_In in Ha; auto.
Qed.

Theorem within_idempotent x i : In i rows -> W (W x) i = W x i.
Proof.
  intros Hi. rewrite (within_tab (W x)). unfold utab, ttab, meanf.
  rewrite within_unit_zero, within_time_zero, within_sum_zero by (apply in_map; auto). unfold Rdiv. ring.
Qed.

(* orthogonal to every additive column, hence an orthogonal projection *)
Theorem within_orth x (a : U -> R) (b : T -> R) : ip rows (W x) (fun j => a (u j) + b (t j)) = 0.
Proof.
  unfold ip. rewrite (sumf_ext_all _ (fun j => W x j * a (u j) + W x j * b (t j))) by (intros; ring).
  rewrite sumf_add.
  rewrite <- (sumf_group ueq u units (fun j => W x j * a (u j))) by (try apply NoDup_nodup; intros; apply nodup_In; apply in_map; auto).
  rewrite <- (sumf_group teq t times (fun j => W x j * b (t j))) by (try apply NoDup_nodup; intros; apply nodup_In; apply in_map; auto).
  rewrite !sumf_zero; [ring| |].
  - intros c Hc. rewrite (sumf_ext _ (fun j => W x j * b c)).
    + rewrite sumf_scal_r, within_time_zero by (apply nodup_In in Hc; auto). ring.
    + intros j Hj. apply filter_In in Hj as [_ Hj]. apply keqb_true in Hj. rewrite Hj; auto.
  - intros c Hc. rewrite (sumf_ext _ (fun j => W x j * a c)).
    + rewrite sumf_scal_r, within_unit_zero by (apply nodup_In in Hc; auto). ring.
    + intros j Hj. apply filter_In in Hj as [_ Hj]. apply keqb_true in Hj. rewrite Hj; auto.
Qed.

Lemma within_ip x y : ip rows (W x) y = ip rows (W x) (W y).
Proof.
  unfold ip. rewrite (sumf_ext _ (fun i => W x i * W y i + W x i * ((utab y (u i) - meanf y rows) + ttab y (t i)))).
  - rewrite sumf_add.
    pose proof (within_orth x (fun a => utab y a - meanf y rows) (ttab y)) as H. unfold ip in H. rewrite H. ring.
  - intros i Hi. rewrite (within_tab y i). ring.
Qed.
Lemma within_symm x y : ip rows (W x) y = ip rows x (W y).
Proof.
  rewrite within_ip. transitivity (ip rows (W y) (W x)).
  - apply sumf_ext_all; intros; ring.
  - rewrite <- within_ip. apply sumf_ext_all; intros; ring.
Qed.
End Twoway.

(* ---- Frisch-Waugh: the coefficient of D among unit and period effects ---- *)
Section FWL.
Context {I U T : Type} (ueq : forall x y : U, {x = y} + {x <> y}) (teq : forall x y : T, {x = y} + {x <> y}).
Variables (rows : list I) (u : I -> U) (t : I -> T) (m : nat).
Hypothesis Hbal : balanced ueq teq rows u t m.
Notation W := (within ueq teq rows u t).

(* y - tau D - a_u - b_t is orthogonal to D and to every additive column: (tau, a, b) is a two-way
   fixed-effects fit *)
Definition is_twoway_fit (y D : I -> R) (tau : R) (a : U -> R) (b : T -> R) : Prop :=
  let e := fun i => y i - tau * D i - (a (u i) + b (t i)) in
  ip rows e D = 0 /\ (forall a', ip rows e (fun i => a' (u i)) = 0) /\ (forall b', ip rows e (fun i => b' (t i)) = 0).

Theorem twoway_coef y D tau a b :
  is_twoway_fit y D tau a b ->
  ip rows (W D) (W D) <> 0 ->
  tau = ip rows (W D) (W y) / ip rows (W D) (W D).
Proof.
  intros (H1 & H2 & H3) Hd.
  set (e := fun i => y i - tau * D i - (a (u i) + b (t i))) in *.
  assert (E0 : ip rows e (W D) = 0).
  { unfold ip. rewrite (sumf_ext _ (fun i => e i * D i - (e i * (utab ueq rows u D (u i) - meanf D rows) + e i * ttab teq rows t D (t i)))).
    - rewrite sumf_sub, sumf_add. pose proof (H2 (fun a => utab ueq rows u D a - meanf D rows)). pose proof (H3 (ttab teq rows t D)).
      unfold ip in *. rewrite H1, H, H0. ring.
    - intros i _. rewrite within_tab. ring. }
  assert (E1 : ip rows (W D) y - tau * ip rows (W D) D - ip rows (W D) (fun i => a (u i) + b (t i)) = 0).
  { rewrite <- E0. unfold ip. rewrite <- sumf_scal, <- !sumf_sub. apply sumf_ext_all. intros. unfold e. ring. }
  rewrite (within_orth ueq teq rows u t m Hbal) in E1.
  rewrite (within_ip ueq teq rows u t m Hbal D y) in E1. rewrite (within_ip ueq teq rows u t m Hbal D D) in E1.
  apply (Rmult_eq_reg_r (ip rows (W D) (W D))); auto. unfold Rdiv. rewrite Rmult_assoc, Rinv_l by auto. lra.
Qed.

(* and such a fit exists *)
Theorem twoway_fit_exists y D : ip rows (W D) (W D) <> 0 ->
  let tau := ip rows (W D) (W y) / ip rows (W D) (W D) in
  exists a b, is_twoway_fit y D tau a b.
Proof.
  intros Hd tau. set (r := fun i => y i - tau * D i).
  exists (fun x => utab ueq rows u r x - meanf r rows), (ttab teq rows t r).
  assert (He : forall i, y i - tau * D i - (utab ueq rows u r (u i) - meanf r rows + ttab teq rows t r (t i)) = W r i).
  { intros i. rewrite within_tab. unfold r at 4. ring. }
  unfold is_twoway_fit. cbv zeta.
  assert (E : forall f, ip rows (fun i => y i - tau * D i - (utab ueq rows u r (u i) - meanf r rows + ttab teq rows t r (t i))) f = ip rows (W r) f).
  { intros f. unfold ip. apply sumf_ext_all. intros i. rewrite He. reflexivity. }
  rewrite E. split; [|split].
  - rewrite (within_ip ueq teq rows u t m Hbal r D).
    assert (F : forall i, W r i = W y i + - tau * W D i).
    { intros i. unfold r. rewrite <- within_scal, <- within_add. unfold within, group_mean.
      f_equal; [f_equal; [f_equal; [ring|apply meanf_ext; intros; ring]|apply meanf_ext; intros; ring]|apply meanf_ext; intros; ring]. }
    unfold ip. rewrite (sumf_ext_all _ (fun i => W D i * W y i + - tau * (W D i * W D i))) by (intros; rewrite F; ring).
    rewrite sumf_add, sumf_scal. fold (ip rows (W D) (W y)). fold (ip rows (W D) (W D)). unfold tau. field. auto.
  - intros a'. rewrite E. rewrite <- (within_orth ueq teq rows u t m Hbal r a' (fun _ => 0)). apply sumf_ext_all; intros; ring.
  - intros b'. rewrite E. rewrite <- (within_orth ueq teq rows u t m Hbal r (fun _ => 0) b'). apply sumf_ext_all; intros; ring.
Qed.
End FWL.

(* ---- unbalanced panels: rows (A,0) (A,1) (B,0) ---- *)
Definition ub_rows : list (nat * nat) := [(0, 0); (0, 1); (1, 0)]%nat.
Theorem within_unbalanced_refuted :
  exists (a : nat -> R) (i : nat * nat), In i ub_rows /\
    within Nat.eq_dec Nat.eq_dec ub_rows fst snd (fun j => a (fst j)) i <> 0.
Proof.
  exists (fun k => if Nat.eqb k 0 then 1 else 0), (0, 0)%nat. split; [simpl; auto|].
  unfold within, group_mean, ub_rows, meanf, len; simpl. unfold keqb; simpl. lra.
Qed.

(* non-vacuity: any product of a list of units and a list of periods is balanced *)
Lemma product_balanced {U T} (ueq : forall x y : U, {x = y} + {x <> y}) (teq : forall x y : T, {x = y} + {x <> y}) us ts :
  NoDup us -> NoDup ts -> us <> [] -> ts <> [] -> balanced ueq teq (list_prod us ts) fst snd 1.
Proof.
  intros Hu Ht _ _. split; [lia|]. intros a b Ha Hb.
  apply in_map_iff in Ha as ((a', b') & <- & Ha). apply in_map_iff in Hb as ((a'', b'') & <- & Hb). simpl.
  apply in_prod_iff in Ha as [Ha _]. apply in_prod_iff in Hb as [_ Hb]. clear b' a''. rename a' into a, b'' into b.
  assert (F : forall us, NoDup us -> length (filter (fun i => keqb ueq (fst i) a && keqb teq (snd i) b) (list_prod us ts))
     = if in_dec ueq a us then 1%nat else 0%nat).
  { clear Hu Ha us. induction us as [|x us IH]; intros Hnd; [reflexivity|]. inversion Hnd; subst.
    simpl list_prod. rewrite filter_app, app_length, (IH H2).
    assert (G : length (filter (fun i => keqb ueq (fst i) a && keqb teq (snd i) b) (map (fun y => (x, y)) ts)) = if ueq x a then 1%nat else 0%nat).
    { clear - Ht Hb. destruct (ueq x a) as [->|Hne].
      - induction ts as [|y ts IH]; [destruct Hb|]. inversion Ht; subst. simpl. rewrite keqb_refl. simpl.
        destruct (teq y b) as [->|Hy].
        + rewrite keqb_refl. simpl. f_equal.
          assert (E : filter (fun i => keqb ueq (fst i) a && keqb teq (snd i) b) (map (fun y => (a, y)) ts) = []).
          { clear - H1. induction ts as [|z ts IH]; simpl; auto. rewrite keqb_refl; simpl.
            replace (keqb teq z b) with false; [apply IH; simpl in H1; tauto|]. symmetry. apply keqb_false. intros ->. simpl in H1; tauto. }
          rewrite E. reflexivity.
        + replace (keqb teq y b) with false by (symmetry; apply keqb_false; auto). apply IH; auto. destruct Hb; [congruence|auto].
      - induction ts as [|y ts IH]; simpl; auto. replace (keqb ueq x a) with false by (symmetry; apply keqb_false; auto). simpl.
        clear Ht Hb IH. induction ts as [|z ts IH]; simpl; auto. replace (keqb ueq x a) with false by (symmetry; apply keqb_false; auto). auto. }
    rewrite G. destruct (ueq x a) as [->|Hne].
    - destruct (in_dec ueq a us); [contradiction|]. destruct (in_dec ueq a (a :: us)) as [|n0]; auto. exfalso; apply n0; simpl; auto.
    - destruct (in_dec ueq a us); destruct (in_dec ueq a (x :: us)) as [i0|n0]; auto; try (exfalso; apply n0; simpl; auto; fail).
      destruct i0; [congruence|contradiction]. }
  rewrite F by auto. destruct (in_dec ueq a us); [reflexivity|contradiction].
Qed.

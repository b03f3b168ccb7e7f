(* Prelude: finite sums, means, indicator functions and error values used by every model file.
   Nothing here models a particular function of the repository; numpy's sum/mean over a column are
   [sumf]/[meanf] over the list of rows. *)
From Coq Require Export Reals List Lra Lia Psatz Permutation Bool ZArith.
From Coq Require Import Arith.
Export ListNotations.
Open Scope R_scope.

(* A Python call either returns a value or raises; the exception carries a tag. *)
Inductive exc : Type :=
  | ValueError | KeyError | RuntimeError | ZeroDivisionError | AttributeError
  | IndexError | TypeError | LinAlgError | ImportError.

Inductive res (A : Type) : Type := Ok (a : A) | Err (e : exc).
Arguments Ok {A} _.
Arguments Err {A} _.

Definition bind {A B} (r : res A) (f : A -> res B) : res B :=
  match r with Ok a => f a | Err e => Err e end.
Notation "'do' x <- r ; k" := (bind r (fun x => k)) (at level 200, x name, r at level 100, k at level 200).

Definition is_ok {A} (r : res A) : bool := match r with Ok _ => true | Err _ => false end.

(* ---------- sums ---------- *)

Fixpoint sumf {A : Type} (f : A -> R) (l : list A) : R :=
  match l with
  | [] => 0
  | x :: r => f x + sumf f r
  end.

Definition len {A : Type} (l : list A) : R := INR (length l).

(* np.mean of a non-empty column; callers guard the empty case (numpy returns nan there). *)
Definition meanf {A : Type} (f : A -> R) (l : list A) : R := sumf f l / len l.

Definition idR (x : R) : R := x.

Definition ind (b : bool) : R := if b then 1 else 0.

Lemma sq_nonneg (x : R) : 0 <= x * x.
Proof. exact (Rle_0_sqr x). Qed.

Section Sums.
Context {A : Type}.
Implicit Types (f g : A -> R) (l : list A).

Lemma sumf_ext f g l : (forall x, In x l -> f x = g x) -> sumf f l = sumf g l.
Proof.
  induction l as [|a l IH]; simpl; intros H; [reflexivity|].
  rewrite (H a) by auto. rewrite IH by auto. reflexivity.
Qed.

Lemma sumf_ext_all f g l : (forall x, f x = g x) -> sumf f l = sumf g l.
Proof. intros H; apply sumf_ext; auto. Qed.

Lemma sumf_add f g l : sumf (fun x => f x + g x) l = sumf f l + sumf g l.
Proof. induction l as [|a l IH]; simpl; [lra|]. rewrite IH; lra. Qed.

Lemma sumf_sub f g l : sumf (fun x => f x - g x) l = sumf f l - sumf g l.
Proof. induction l as [|a l IH]; simpl; [lra|]. rewrite IH; lra. Qed.

Lemma sumf_opp f l : sumf (fun x => - f x) l = - sumf f l.
Proof. induction l as [|a l IH]; simpl; [lra|]. rewrite IH; lra. Qed.

Lemma sumf_scal c f l : sumf (fun x => c * f x) l = c * sumf f l.
Proof. induction l as [|a l IH]; simpl; [lra|]. rewrite IH; lra. Qed.

Lemma sumf_scal_r c f l : sumf (fun x => f x * c) l = sumf f l * c.
Proof. induction l as [|a l IH]; simpl; [lra|]. rewrite IH; lra. Qed.

Lemma sumf_div c f l : sumf (fun x => f x / c) l = sumf f l / c.
Proof. unfold Rdiv. apply sumf_scal_r. Qed.

Lemma sumf_const c l : sumf (fun _ => c) l = len l * c.
Proof.
  unfold len. induction l as [|a l IH]; [simpl; lra|].
  change (length (a :: l)) with (S (length l)). rewrite S_INR.
  cbn [sumf]. rewrite IH. lra.
Qed.

Lemma sumf_0 l : sumf (fun _ : A => 0) l = 0.
Proof. rewrite sumf_const; lra. Qed.

Lemma sumf_zero f l : (forall x, In x l -> f x = 0) -> sumf f l = 0.
Proof. intros H. rewrite (sumf_ext f (fun _ => 0)); auto. apply sumf_0. Qed.

Lemma sumf_app f l1 l2 : sumf f (l1 ++ l2) = sumf f l1 + sumf f l2.
Proof. induction l1 as [|a l IH]; simpl; [lra|]. rewrite IH; lra. Qed.

Lemma sumf_rev f l : sumf f (rev l) = sumf f l.
Proof. induction l as [|a l IH]; simpl; [lra|]. rewrite sumf_app, IH; simpl; lra. Qed.

Lemma sumf_perm f l1 l2 : Permutation l1 l2 -> sumf f l1 = sumf f l2.
Proof. induction 1; simpl; lra. Qed.

Lemma sumf_nonneg f l : (forall x, In x l -> 0 <= f x) -> 0 <= sumf f l.
Proof.
  induction l as [|a l IH]; simpl; intros H; [lra|].
  pose proof (H a (or_introl eq_refl)). assert (0 <= sumf f l) by (apply IH; auto). lra.
Qed.

Lemma sumf_le f g l : (forall x, In x l -> f x <= g x) -> sumf f l <= sumf g l.
Proof.
  induction l as [|a l IH]; simpl; intros H; [lra|].
  pose proof (H a (or_introl eq_refl)). assert (sumf f l <= sumf g l) by (apply IH; auto). lra.
Qed.

Lemma sumf_pos f l : (forall x, In x l -> 0 <= f x) -> (exists x, In x l /\ 0 < f x) -> 0 < sumf f l.
Proof.
  induction l as [|a l IH]; simpl; intros Hn [x [Hin Hx]]; [contradiction|].
  pose proof (Hn a (or_introl eq_refl)).
  assert (0 <= sumf f l) by (apply sumf_nonneg; auto).
  destruct Hin as [<-|Hin]; [lra|].
  assert (0 < sumf f l) by (apply IH; eauto). lra.
Qed.

Lemma sumf_nonneg_0 f l : (forall x, In x l -> 0 <= f x) -> sumf f l = 0 -> forall x, In x l -> f x = 0.
Proof.
  induction l as [|a l IH]; simpl; intros Hn Hs x Hx; [contradiction|].
  pose proof (Hn a (or_introl eq_refl)).
  assert (0 <= sumf f l) by (apply sumf_nonneg; auto).
  destruct Hx as [<-|Hx]; [lra|]. apply IH; auto; lra.
Qed.

Lemma sumf_filter (p : A -> bool) f l : sumf f (filter p l) = sumf (fun x => ind (p x) * f x) l.
Proof.
  induction l as [|a l IH]; simpl; [reflexivity|].
  destruct (p a); simpl; rewrite IH; unfold ind; lra.
Qed.

Lemma len_filter (p : A -> bool) l : len (filter p l) = sumf (fun x => ind (p x)) l.
Proof.
  replace (len (filter p l)) with (sumf (fun _ => 1) (filter p l)) by (rewrite sumf_const; lra).
  rewrite sumf_filter. apply sumf_ext_all; intros; lra.
Qed.

Lemma len_nonneg l : 0 <= len l.
Proof. unfold len; apply pos_INR. Qed.

Lemma len_pos l : l <> [] -> 0 < len l.
Proof. unfold len; destruct l; [congruence|]. intros _. apply lt_0_INR; simpl; lia. Qed.

Lemma len_cons a l : len (a :: l) = len l + 1.
Proof. unfold len. change (length (a :: l)) with (S (length l)). rewrite S_INR; lra. Qed.

Lemma len_app l1 l2 : len (l1 ++ l2) = len l1 + len l2.
Proof. unfold len; rewrite app_length, plus_INR; lra. Qed.

Lemma len_0 l : len l = 0 -> l = [].
Proof. destruct l; auto. rewrite len_cons. pose proof (len_nonneg l). lra. Qed.

Lemma len_perm l1 l2 : Permutation l1 l2 -> len l1 = len l2.
Proof. intros H; unfold len; rewrite (Permutation_length H); reflexivity. Qed.

Lemma sumf_ind_split (p : A -> bool) f l :
  sumf f l = sumf f (filter p l) + sumf f (filter (fun x => negb (p x)) l).
Proof.
  induction l as [|a l IH]; simpl; [lra|].
  destruct (p a); simpl; rewrite IH; lra.
Qed.

Lemma sumf_abs f l : Rabs (sumf f l) <= sumf (fun x => Rabs (f x)) l.
Proof.
  induction l as [|a l IH]; simpl; [rewrite Rabs_R0; lra|].
  eapply Rle_trans; [apply Rabs_triang|]. lra.
Qed.

Lemma sumf_In_le f l x : (forall y, In y l -> 0 <= f y) -> In x l -> f x <= sumf f l.
Proof.
  induction l as [|a l IH]; simpl; intros Hn Hx; [contradiction|].
  pose proof (Hn a (or_introl eq_refl)).
  assert (0 <= sumf f l) by (apply sumf_nonneg; auto).
  destruct Hx as [<-|Hx]; [lra|]. assert (f x <= sumf f l) by (apply IH; auto). lra.
Qed.

End Sums.

Lemma sumf_map {A B} (h : A -> B) (f : B -> R) l : sumf f (map h l) = sumf (fun x => f (h x)) l.
Proof. induction l as [|a l IH]; simpl; [reflexivity|]. rewrite IH; reflexivity. Qed.

Lemma len_map {A B} (h : A -> B) l : len (map h l) = len l.
Proof. unfold len; rewrite map_length; reflexivity. Qed.

Lemma sumf_swap {A B} (f : A -> B -> R) (l : list A) (m : list B) :
  sumf (fun a => sumf (fun b => f a b) m) l = sumf (fun b => sumf (fun a => f a b) l) m.
Proof.
  induction l as [|a l IH]; simpl.
  - rewrite sumf_0; reflexivity.
  - rewrite IH, <- sumf_add. reflexivity.
Qed.

Lemma sumf_flat_map {A B} (h : A -> list B) (f : B -> R) l :
  sumf f (flat_map h l) = sumf (fun a => sumf f (h a)) l.
Proof. induction l as [|a l IH]; simpl; [reflexivity|]. rewrite sumf_app, IH; reflexivity. Qed.

(* sums over a product grid *)
Lemma sumf_list_prod {A B} (f : A * B -> R) (l : list A) (m : list B) :
  sumf f (list_prod l m) = sumf (fun a => sumf (fun b => f (a, b)) m) l.
Proof.
  induction l as [|a l IH]; simpl; [reflexivity|].
  rewrite sumf_app, IH, sumf_map. reflexivity.
Qed.

Lemma ind_mul_eq (b : bool) x y : (b = true -> x = y) -> ind b * x = ind b * y.
Proof. destruct b; unfold ind; intros; [rewrite H by reflexivity|]; lra. Qed.

Lemma ind_andb a b : ind (a && b) = ind a * ind b.
Proof. destruct a, b; unfold ind; simpl; lra. Qed.

Lemma ind_negb a : ind (negb a) = 1 - ind a.
Proof. destruct a; unfold ind; simpl; lra. Qed.

Lemma ind_sq b : ind b * ind b = ind b.
Proof. destruct b; unfold ind; lra. Qed.

Lemma ind_01 b : 0 <= ind b <= 1.
Proof. destruct b; unfold ind; lra. Qed.

Lemma meanf_ext {A} (f g : A -> R) l : (forall x, In x l -> f x = g x) -> meanf f l = meanf g l.
Proof. intros H; unfold meanf; rewrite (sumf_ext f g); auto. Qed.

Lemma meanf_const {A} c (l : list A) : l <> [] -> meanf (fun _ => c) l = c.
Proof. intros H; unfold meanf; rewrite sumf_const. apply len_pos in H. field; lra. Qed.

Lemma meanf_add {A} (f g : A -> R) l : meanf (fun x => f x + g x) l = meanf f l + meanf g l.
Proof. unfold meanf; rewrite sumf_add; unfold Rdiv; ring. Qed.

Lemma meanf_sub {A} (f g : A -> R) l : meanf (fun x => f x - g x) l = meanf f l - meanf g l.
Proof. unfold meanf; rewrite sumf_sub; unfold Rdiv; ring. Qed.

Lemma meanf_scal {A} c (f : A -> R) l : meanf (fun x => c * f x) l = c * meanf f l.
Proof. unfold meanf; rewrite sumf_scal; unfold Rdiv; ring. Qed.

Lemma meanf_map {A B} (h : A -> B) (f : B -> R) l : meanf f (map h l) = meanf (fun x => f (h x)) l.
Proof. unfold meanf; rewrite sumf_map, len_map; reflexivity. Qed.

Lemma meanf_perm {A} (f : A -> R) l1 l2 : Permutation l1 l2 -> meanf f l1 = meanf f l2.
Proof. intros H; unfold meanf; rewrite (sumf_perm f _ _ H), (len_perm _ _ H); reflexivity. Qed.

Lemma meanf_bounds {A} (f : A -> R) l lo hi :
  l <> [] -> (forall x, In x l -> lo <= f x <= hi) -> lo <= meanf f l <= hi.
Proof.
  intros Hl H. pose proof (len_pos l Hl) as Hp. unfold meanf.
  assert (len l * lo <= sumf f l) by (rewrite <- sumf_const; apply sumf_le; intros; apply H; auto).
  assert (sumf f l <= len l * hi) by (rewrite <- sumf_const; apply sumf_le; intros; apply H; auto).
  split.
  - apply (Rmult_le_reg_l (len l)); [lra|]. replace (len l * (sumf f l / len l)) with (sumf f l) by (field; lra). lra.
  - apply (Rmult_le_reg_l (len l)); [lra|]. replace (len l * (sumf f l / len l)) with (sumf f l) by (field; lra). lra.
Qed.

Lemma sumf_meanf {A} (f : A -> R) l : l <> [] -> sumf f l = len l * meanf f l.
Proof. intros H; apply len_pos in H; unfold meanf; field; lra. Qed.

(* deviations from the mean sum to zero *)
Lemma sumf_dev {A} (f : A -> R) l : l <> [] -> sumf (fun x => f x - meanf f l) l = 0.
Proof. intros H. rewrite sumf_sub, sumf_const, (sumf_meanf f l H). lra. Qed.

(* ---------- boolean equality of reals, as the model's comparisons ---------- *)
Definition Rleb (x y : R) : bool := if Rle_dec x y then true else false.
Definition Rltb (x y : R) : bool := if Rlt_dec x y then true else false.
Definition Reqb (x y : R) : bool := if Req_EM_T x y then true else false.

Lemma Rleb_true x y : Rleb x y = true <-> x <= y.
Proof. unfold Rleb; destruct (Rle_dec x y); split; intros; auto; discriminate. Qed.
Lemma Rleb_false x y : Rleb x y = false <-> y < x.
Proof. unfold Rleb; destruct (Rle_dec x y); split; intros; auto; try discriminate; lra. Qed.
Lemma Rltb_true x y : Rltb x y = true <-> x < y.
Proof. unfold Rltb; destruct (Rlt_dec x y); split; intros; auto; discriminate. Qed.
Lemma Rltb_false x y : Rltb x y = false <-> y <= x.
Proof. unfold Rltb; destruct (Rlt_dec x y); split; intros; auto; try discriminate; lra. Qed.
Lemma Reqb_true x y : Reqb x y = true <-> x = y.
Proof. unfold Reqb; destruct (Req_EM_T x y); split; intros; auto; discriminate. Qed.
Lemma Reqb_false x y : Reqb x y = false <-> x <> y.
Proof. unfold Reqb; destruct (Req_EM_T x y); split; intros; auto; congruence. Qed.

(* decide closed comparisons *)
Ltac Rdecide :=
  repeat match goal with
  | |- context [Rle_dec ?a ?b] => destruct (Rle_dec a b); try lra
  | |- context [Rlt_dec ?a ?b] => destruct (Rlt_dec a b); try lra
  | |- context [Req_EM_T ?a ?b] => destruct (Req_EM_T a b); try lra
  end.

(* ---------- group-by ---------- *)
Section GroupBy.
Context {A K : Type} (eq_dec : forall x y : K, {x = y} + {x <> y}).

Definition keqb (x y : K) : bool := if eq_dec x y then true else false.

Lemma keqb_refl x : keqb x x = true.
Proof. unfold keqb; destruct (eq_dec x x); congruence. Qed.
Lemma keqb_true x y : keqb x y = true <-> x = y.
Proof. unfold keqb; destruct (eq_dec x y); split; congruence. Qed.
Lemma keqb_false x y : keqb x y = false <-> x <> y.
Proof. unfold keqb; destruct (eq_dec x y); split; congruence. Qed.

Lemma sumf_ind_key (ks : list K) (k0 : K) (c : R) :
  NoDup ks -> In k0 ks -> sumf (fun k => ind (keqb k0 k) * c) ks = c.
Proof.
  induction ks as [|k ks IH]; intros Hnd Hin; [inversion Hin|].
  inversion Hnd as [|? ? Hni Hnd']; subst. cbn [sumf].
  destruct (eq_dec k0 k) as [->|Hne].
  - rewrite keqb_refl. rewrite sumf_zero.
    + unfold ind; lra.
    + intros x Hx. replace (keqb k x) with false; [unfold ind; lra|].
      symmetry; apply keqb_false. intros ->; contradiction.
  - replace (keqb k0 k) with false by (symmetry; apply keqb_false; auto).
    rewrite IH; auto; [unfold ind; lra|]. destruct Hin; congruence.
Qed.

(* Summing within groups and then over groups is summing over all rows. *)
Lemma sumf_group (key : A -> K) (ks : list K) (f : A -> R) (l : list A) :
  NoDup ks -> (forall x, In x l -> In (key x) ks) ->
  sumf (fun k => sumf f (filter (fun x => keqb (key x) k) l)) ks = sumf f l.
Proof.
  intros Hnd Hin.
  rewrite (sumf_ext_all _ (fun k => sumf (fun x => ind (keqb (key x) k) * f x) l))
    by (intros k; apply sumf_filter).
  rewrite sumf_swap. apply sumf_ext. intros x Hx.
  apply sumf_ind_key; auto.
Qed.

End GroupBy.

(* Cauchy-Schwarz on a list *)
Lemma cauchy_schwarz {A} (f g : A -> R) l :
  (sumf (fun x => f x * g x) l)² <= sumf (fun x => (f x)²) l * sumf (fun x => (g x)²) l.
Proof.
  set (a := sumf (fun x => (f x)²) l). set (b := sumf (fun x => f x * g x) l).
  set (c := sumf (fun x => (g x)²) l).
  assert (Ha : 0 <= a) by (apply sumf_nonneg; intros; apply Rle_0_sqr).
  assert (Hc : 0 <= c) by (apply sumf_nonneg; intros; apply Rle_0_sqr).
  assert (Hq : forall s t, 0 <= s * s * a + 2 * s * t * b + t * t * c).
  { intros s t.
    replace (s * s * a + 2 * s * t * b + t * t * c)
      with (sumf (fun x => (s * f x + t * g x)²) l).
    - apply sumf_nonneg; intros; apply Rle_0_sqr.
    - unfold a, b, c. rewrite <- !sumf_scal, <- !sumf_add.
      apply sumf_ext_all; intros; unfold Rsqr; ring. }
  pose proof (Hq b (- a)) as H1. pose proof (Hq c (- b)) as H2.
  unfold Rsqr.
  destruct (Req_dec a 0) as [Ha0|Ha0].
  - destruct (Req_dec c 0) as [Hc0|Hc0].
    + pose proof (Hq 1 (- b)) as H3. rewrite Ha0, Hc0 in *. nra.
    + assert (0 < c) by lra. nra.
  - assert (0 < a) by lra. nra.
Qed.

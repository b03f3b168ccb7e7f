(* Fitting on the data set repeated [k] times (each row copied exactly). *)
From Coq Require Import Reals Lra Lia.
From Verif Require Import Prelude Flt Linalg_model Linalg_proofs Linalg_vcov Linalg_thms Linalg_rank Linalg_span Did_model Did_proofs
  Twfe_model Bacon_model Multi_model Staggered_model Sdid_model Trop_model Sun_rows.
From Coq Require Import Arith ZArith String List Permutation FunctionalExtensionality.
Import ListNotations.
Open Scope R_scope.

Definition copies {A} (k : nat) (l : list A) : list A := concat (repeat l k).

Lemma copies_length {A} k (l : list A) : length (copies k l) = (k * length l)%nat.
Proof. unfold copies. induction k as [|k IH]; [reflexivity|]. cbn [repeat concat]. rewrite app_length, IH. reflexivity. Qed.
Lemma copies_filter {A} (p : A -> bool) k l : filter p (copies k l) = copies k (filter p l).
Proof. unfold copies. induction k as [|k IH]; [reflexivity|]. cbn [repeat concat]. rewrite filter_app, IH. reflexivity. Qed.
Lemma copies_map {A B} (f : A -> B) k l : map f (copies k l) = copies k (map f l).
Proof. unfold copies. induction k as [|k IH]; [reflexivity|]. cbn [repeat concat]. rewrite map_app, IH. reflexivity. Qed.
Lemma copies_in {A} (x : A) k l : (1 <= k)%nat -> In x (copies k l) <-> In x l.
Proof.
  intros Hk. unfold copies. induction k as [|k IH]; [lia|]. cbn [repeat concat]. rewrite in_app_iff.
  destruct k as [|k]; [cbn; tauto|]. rewrite IH by lia. tauto.
Qed.
Lemma nodup_app_incl {A} (eqd : forall a b : A, {a = b} + {a <> b}) (l m : list A) : incl l m -> nodup eqd (l ++ m) = nodup eqd m.
Proof.
  induction l as [|a l IH]; intros H; [reflexivity|]. cbn [app nodup]. destruct (in_dec eqd a (l ++ m)) as [_|N].
  - apply IH. intros x Hx. apply H. now right.
  - exfalso. apply N. apply in_app_iff. right. apply H. now left.
Qed.
Lemma copies_nodup {A} (eqd : forall a b : A, {a = b} + {a <> b}) k (l : list A) : (1 <= k)%nat -> nodup eqd (copies k l) = nodup eqd l.
Proof.
  intros Hk. induction k as [|k IH]; [lia|]. unfold copies. cbn [repeat concat]. fold (copies k l). destruct k as [|k].
  - unfold copies. cbn. now rewrite app_nil_r.
  - rewrite nodup_app_incl by (intros x Hx; apply copies_in; [lia|exact Hx]). apply IH. lia.
Qed.
Lemma copies_sumf {A} (f : A -> R) k l : sumf f (copies k l) = INR k * sumf f l.
Proof.
  unfold copies. induction k as [|k IH]; [cbn; ring|]. cbn [repeat concat]. rewrite sumf_app, IH, S_INR. ring.
Qed.
Lemma copies_len {A} k (l : list A) : len (copies k l) = INR k * len l.
Proof. unfold len. now rewrite copies_length, mult_INR. Qed.
Lemma copies_meanf {A} (f : A -> R) k l : (1 <= k)%nat -> meanf f (copies k l) = meanf f l.
Proof.
  intros Hk. destruct l as [|a l].
  - f_equal. unfold copies. clear. induction k; [reflexivity|]. cbn. exact IHk.
  - unfold meanf. rewrite copies_sumf, copies_len. assert (0 < len (a :: l)) by (unfold len; apply lt_0_INR; cbn; lia).
    assert (0 < INR k) by (apply lt_0_INR; lia). field. lra.
Qed.
Lemma copies_existsb {A} (p : A -> bool) k l : (1 <= k)%nat -> existsb p (copies k l) = existsb p l.
Proof.
  intros Hk. apply eq_true_iff_eq. rewrite !existsb_exists. split; intros (x & Hx & E); exists x; split; auto; [apply (copies_in x k l Hk)|apply (copies_in x k l Hk)]; exact Hx.
Qed.
Lemma copies_forallb {A} (p : A -> bool) k l : (1 <= k)%nat -> forallb p (copies k l) = forallb p l.
Proof.
  intros Hk. apply eq_true_iff_eq. rewrite !forallb_forall. split; intros H x Hx; apply H; apply (copies_in x k l Hk); exact Hx.
Qed.
Lemma copies_ip {A} k (l : list A) f g : ip (copies k l) f g = INR k * ip l f g.
Proof. apply copies_sumf. Qed.

Section Reg.
Context {I K : Type} (keq : forall x y : K, {x = y} + {x <> y}).
Variable qr : list I -> list (I -> R) -> list nat.
Variable lstsq : list I -> list (I -> R) -> (I -> R) -> list R.
Variable inv : list I -> list (I -> R) -> option (nat -> nat -> R).
Variable pinv : list I -> list (I -> R) -> nat -> nat -> R.
Hypothesis Hqr : qr_ok qr.
Hypothesis Hls : lstsq_ok lstsq.
Hypothesis Hinv : inv_ok inv.
Notation lfit := (linreg_fit keq qr lstsq inv pinv).

Lemma indep_copies k rows (cols : list (I -> R)) : (1 <= k)%nat -> indep rows cols -> indep (copies k rows) cols.
Proof. intros Hk Hi a Ha Hz. apply Hi; [exact Ha|]. intros i Hin. apply Hz. apply copies_in; assumption. Qed.
Lemma is_ls_copies k rows (cols : list (I -> R)) y b : (1 <= k)%nat -> is_ls (copies k rows) cols y b -> is_ls rows cols y b.
Proof.
  intros Hk [Hl H]. split; [exact Hl|]. revert H. apply Forall_impl. intros c Hc. rewrite copies_ip in Hc.
  assert (0 < INR k) by (apply lt_0_INR; lia). apply Rmult_integral in Hc as [|]; [lra|assumption].
Qed.
Lemma lstsq_copies k rows cols y : (1 <= k)%nat -> indep rows cols -> lstsq (copies k rows) cols y = lstsq rows cols y.
Proof.
  intros Hk Hi. apply (ls_coef_unique rows cols y); auto. apply (is_ls_copies k); [exact Hk|apply Hls].
Qed.
Lemma inverse_copies k rows (cols : list (I -> R)) B : (1 <= k)%nat -> is_inverse rows cols B -> is_inverse (copies k rows) cols (fun a c => B a c / INR k).
Proof.
  intros Hk H a c Ha Hc. rewrite <- (H a c Ha Hc). apply sumf_ext. intros l _. rewrite copies_ip.
  assert (0 < INR k) by (apply lt_0_INR; lia). field. lra.
Qed.
Lemma inv_copies k rows cols : (1 <= k)%nat -> indep rows cols ->
  exists B B', inv rows cols = Some B /\ inv (copies k rows) cols = Some B' /\ forall p q, (p < length cols)%nat -> (q < length cols)%nat -> B' p q = B p q / INR k.
Proof.
  intros Hk Hi. pose proof (Hinv rows cols) as J1. pose proof (Hinv (copies k rows) cols) as J2. pose proof (indep_copies k rows cols Hk Hi) as Hi2.
  destruct (inv rows cols) as [B|]; [|contradiction]. destruct (inv (copies k rows) cols) as [B'|]; [|contradiction]. exists B, B'. split; [reflexivity|]. split; [reflexivity|].
  intros p q Hp Hq. apply (inverse_unique (copies k rows) cols B' (fun a c => B a c / INR k)); auto. now apply inverse_copies.
Qed.

(* the factor on the covariance: (n-K)/(kn-K) without clusters, times (kn-1)/(n-1) with clusters *)
Definition rep_factor (clustered : bool) (k n p : nat) : R :=
  (INR n - INR p) / (INR k * INR n - INR p) * (if clustered then (INR k * INR n - 1) / (INR n - 1) else 1).

Lemma hc1_copies k rows (cols : list (I -> R)) e a b : hc1_meat (copies k rows) cols e a b = INR k * hc1_meat rows cols e a b.
Proof. apply copies_sumf. Qed.
Lemma cl_meat_copies k rows (cols : list (I -> R)) e (cl : I -> K) a b : (1 <= k)%nat ->
  cl_meat keq (copies k rows) cols e cl a b = INR k * INR k * cl_meat keq rows cols e cl a b.
Proof.
  intros Hk. unfold cl_meat, cl_keys. rewrite copies_map, copies_nodup by exact Hk. rewrite <- sumf_scal. apply sumf_ext. intros g _.
  unfold cl_score. rewrite copies_filter, !copies_sumf. ring.
Qed.
Lemma sandwich_factor n adj adj' (B B' M M' : nat -> nat -> R) c cb cm j m :
  (forall p q, (p < n)%nat -> (q < n)%nat -> B' p q = B p q / cb) -> (forall a b, M' a b = cm * M a b) ->
  cb <> 0 -> adj' * (cm / (cb * cb)) = c * adj -> (j < n)%nat -> (m < n)%nat ->
  sandwich n adj' B' M' j m = c * sandwich n adj B M j m.
Proof.
  intros HB HM Hc Ha Hj Hm. unfold sandwich.
  assert (E : sumf (fun a => sumf (fun b => B' j a * M' a b * B' m b) (seq 0 n)) (seq 0 n)
            = (cm / (cb * cb)) * sumf (fun a => sumf (fun b => B j a * M a b * B m b) (seq 0 n)) (seq 0 n)).
  { rewrite <- sumf_scal. apply sumf_ext. intros a Ia. rewrite <- sumf_scal. apply sumf_ext. intros b Ib. apply in_seq in Ia, Ib.
    rewrite !HB, HM by lia. field. exact Hc. }
  rewrite E, <- Rmult_assoc, Ha, Rmult_assoc. reflexivity.
Qed.

Lemma robust_copies k rows cols e cluster : (1 <= k)%nat -> indep rows cols -> (length cols < length rows)%nat ->
  match robust_vcov keq inv rows cols e cluster, robust_vcov keq inv (copies k rows) cols e cluster with
  | Ok V, Ok V' => forall j m, (j < length cols)%nat -> (m < length cols)%nat ->
      V' j m = rep_factor (match cluster with Some _ => true | None => false end) k (length rows) (length cols) * V j m
  | Err a, Err b => a = b
  | _, _ => False
  end.
Proof.
  intros Hk Hi Hn. destruct (inv_copies k rows cols Hk Hi) as (B & B' & E1 & E2 & EB).
  assert (Pk : 1 <= INR k) by (change 1 with (INR 1); apply le_INR; lia).
  assert (Pn : INR (length cols) < INR (length rows)) by (apply lt_INR; lia).
  assert (P0 : 0 <= INR (length cols)) by apply pos_INR.
  assert (Pkn : INR (length cols) < INR k * INR (length rows)) by nra.
  unfold robust_vcov. rewrite E1, E2, copies_length.
  assert (N1 : Nat.eqb (length rows) (length cols) = false) by (apply Nat.eqb_neq; lia).
  assert (N2 : Nat.eqb (k * length rows) (length cols) = false) by (apply Nat.eqb_neq; nia). rewrite N1, N2.
  destruct cluster as [cl|].
  - unfold cl_keys. rewrite copies_map, copies_nodup by exact Hk. fold (cl_keys keq rows cl). destruct (Nat.ltb (length (cl_keys keq rows cl)) 2) eqn:EG; [reflexivity|].
    apply Nat.ltb_ge in EG. intros j m Hj Hm.
    assert (G2 : 2 <= INR (length (cl_keys keq rows cl))) by (change 2 with (INR 2); now apply le_INR).
    assert (n2 : 2 <= INR (length rows)).
    { assert (length (cl_keys keq rows cl) <= length rows)%nat.
      { unfold cl_keys. rewrite <- (map_length cl rows). apply NoDup_incl_length; [apply NoDup_nodup|intros x Hx; now apply nodup_In in Hx]. }
      apply le_INR in H. lra. }
    apply (sandwich_factor (length cols) _ _ B B' (cl_meat keq rows cols e cl) (cl_meat keq (copies k rows) cols e cl) _ (INR k) (INR k * INR k)); auto; [intros; now apply cl_meat_copies|lra|].
    unfold rep_factor. rewrite mult_INR. field. repeat split; lra || nra.
  - intros j m Hj Hm.
    apply (sandwich_factor (length cols) _ _ B B' (hc1_meat rows cols e) (hc1_meat (copies k rows) cols e) _ (INR k) (INR k)); auto; [intros; apply hc1_copies|lra|].
    unfold rep_factor. rewrite mult_INR. field. repeat split; lra || nra.
Qed.

(* two fits, the second on the repeated data *)
Definition rep_reg (c : R) (k : nat) (a b : res (linreg I)) (n p : nat) (nabs : Z) : Prop :=
  match a, b with
  | Ok a, Ok b => l_coef b = l_coef a /\ length (l_coef a) = p /\ l_resid b = l_resid a /\ l_fitted b = l_fitted a /\
      l_df a = (Z.of_nat n - Z.of_nat p - nabs)%Z /\ l_df b = (Z.of_nat k * Z.of_nat n - Z.of_nat p - nabs)%Z /\
      forall j m, (j < p)%nat -> (m < p)%nat -> exists v, l_vcov a j m = Fin v /\ l_vcov b j m = Fin (c * v)
  | Err e, Err f => e = f
  | _, _ => False
  end.

Lemma n_effective_fin (b : list R) : n_effective (map Fin b) = Z.of_nat (length b).
Proof. unfold n_effective. f_equal. induction b as [|x b IH]; [reflexivity|]. cbn. now rewrite IH. Qed.

Theorem linreg_copies robust cluster action nabs k rows cols y : (1 <= k)%nat -> indep rows cols -> (length cols < length rows)%nat ->
  rep_reg (rep_factor (match cluster with Some _ => true | None => false end) k (length rows) (length cols)) k
    (lfit robust cluster action nabs rows cols y) (lfit robust cluster action nabs (copies k rows) cols y) (length rows) (length cols) nabs.
Proof.
  intros Hk Hi Hn. pose proof (indep_copies k rows cols Hk Hi) as Hi2. assert (Ln : length (lstsq rows cols y) = length cols) by apply (Hls rows cols y).
  unfold linreg_fit, solve_ols. rewrite (qr_indep_none qr rows cols Hqr Hi), (qr_indep_none qr (copies k rows) cols Hqr Hi2), (lstsq_copies k rows cols y Hk Hi), copies_length.
  assert (L1 : Nat.ltb (length rows) (length cols) = false) by (apply Nat.ltb_ge; lia).
  assert (L2 : Nat.ltb (k * length rows) (length cols) = false) by (apply Nat.ltb_ge; nia). rewrite L1, L2.
  destruct (parse_action action); [|reflexivity]. set (e := fun i => y i - lc cols (lstsq rows cols y) i).
  set (rv := match cluster with Some _ => true | None => robust end).
  assert (Df : forall z, fit_df z (map Fin (lstsq rows cols y)) nabs = (Z.of_nat z - Z.of_nat (length cols) - nabs)%Z) by (intros z; unfold fit_df; now rewrite n_effective_fin, Ln).
  destruct rv eqn:Erv.
  - pose proof (robust_copies k rows cols e cluster Hk Hi Hn) as H.
    destruct (robust_vcov keq inv rows cols e cluster) as [V|], (robust_vcov keq inv (copies k rows) cols e cluster) as [V'|]; cbn [bind rep_reg]; try contradiction; [|exact H].
    cbn. rewrite !Df, map_length. repeat split; auto; [lia|]. intros j m Hj Hm. exists (V j m). rewrite (H j m Hj Hm). auto.
  - unfold rv in Erv. destruct cluster as [cl|]; [discriminate|]. cbn [bind rep_reg o_coef o_vcov o_resid o_fitted l_coef l_vcov l_df l_resid l_fitted].
    rewrite !Df, map_length. repeat split; auto; [lia|]. intros j m Hj Hm.
    unfold classical_vcov. rewrite (kept_all _ _ Ln), select_cols_full. destruct (inv_copies k rows cols Hk Hi) as (B & B' & E1 & E2 & EB). unfold bread. rewrite E1, E2.
    assert (Lk : length (kept_cols (length cols) []) = length cols) by (rewrite kept_cols_nil; apply seq_length). rewrite Lk.
    destruct (Nat.eqb (length cols) 0) eqn:E0; [apply Nat.eqb_eq in E0; lia|].
    rewrite kept_cols_nil, !index_of_seq by assumption. rewrite copies_length, copies_sumf, mult_INR.
    assert (Pk : 1 <= INR k) by (change 1 with (INR 1); apply le_INR; lia).
    assert (Pn : INR (length cols) < INR (length rows)) by (apply lt_INR; lia).
    assert (P0 : 0 <= INR (length cols)) by apply pos_INR.
    assert (Pkn : INR (length cols) < INR k * INR (length rows)) by nra.
    unfold fdiv. destruct (Req_EM_T (INR (length rows) - INR (length cols)) 0); [lra|]. destruct (Req_EM_T (INR k * INR (length rows) - INR (length cols)) 0); [lra|].
    cbn [fmul]. eexists. split; [reflexivity|]. rewrite (EB j m) by assumption. unfold rep_factor. f_equal. field. repeat split; lra.
Qed.
End Reg.

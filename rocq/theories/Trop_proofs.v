(* TROP: what the fitted model depends on; invariances. *)
From Verif Require Import Prelude Flt Stats_model Stats_proofs Linalg_model Multi_model Trop_model.
From Coq Require Import Arith ZArith String List FunctionalExtensionality.
Import ListNotations.
Open Scope R_scope.

Lemma in_cells T N t i : In (t, i) (cells T N) <-> (t < T)%nat /\ (i < N)%nat.
Proof. unfold cells. rewrite in_prod_iff, !in_seq. lia. Qed.

Lemma maxabs_nonneg {A} (f : A -> R) l : 0 <= maxabs f l.
Proof. induction l; simpl; [lra|]. eapply Rle_trans; [exact IHl|apply Rmax_r]. Qed.
Lemma maxabs_ge {A} (f : A -> R) l x : In x l -> Rabs (f x) <= maxabs f l.
Proof.
  induction l; simpl; [easy|]. intros [<-|H]; [apply Rmax_l|]. eapply Rle_trans; [apply IHl, H|apply Rmax_r].
Qed.
Lemma maxabs_le {A} (f : A -> R) l b : 0 <= b -> (forall x, In x l -> Rabs (f x) <= b) -> maxabs f l <= b.
Proof. induction l; simpl; intros Hb H; [lra|]. apply Rmax_lub; [apply H; now left|apply IHl; auto]. Qed.
Lemma maxabs_ext {A} (f g : A -> R) l : (forall x, In x l -> f x = g x) -> maxabs f l = maxabs g l.
Proof. induction l; simpl; intros H; [easy|]. rewrite H by now left. rewrite IHl by auto. reflexivity. Qed.
Lemma maxabs_0 {A} (l : list A) : maxabs (fun _ => 0) l = 0.
Proof. apply Rle_antisym; [|apply maxabs_nonneg]. apply maxabs_le; [lra|]. intros. rewrite Rabs_R0. lra. Qed.

(* ------------------------------------------------------------------------------------------- *)
(* the fit only looks at cells with a non-zero weight *)
Section Cong.
Variable svd : svd_fn.
Variables (T N : nat) (W Yz Yz' : mat) (h : lam) (tol : R).
Hypothesis HY : forall t i, W t i <> 0 -> Yz t i = Yz' t i.

Lemma unit_mean_cong (X X' : mat) : (forall t i, W t i <> 0 -> X t i = X' t i) -> unit_mean T W X = unit_mean T W X'.
Proof.
  intros H. apply functional_extensionality. intros i. unfold unit_mean. destruct (Rlt_dec _ _); [|easy]. f_equal.
  apply sumf_ext. intros t _. destruct (Req_dec (W t i) 0) as [E|E]; [rewrite E; ring|now rewrite H].
Qed.
Lemma time_mean_cong (X X' : mat) : (forall t i, W t i <> 0 -> X t i = X' t i) -> time_mean N W X = time_mean N W X'.
Proof.
  intros H. apply functional_extensionality. intros t. unfold time_mean. destruct (Rlt_dec _ _); [|easy]. f_equal.
  apply sumf_ext. intros i _. destruct (Req_dec (W t i) 0) as [E|E]; [rewrite E; ring|now rewrite H].
Qed.
Lemma nn_solve_cong a b L : nn_solve svd T N W Yz a b h tol L = nn_solve svd T N W Yz' a b h tol L.
Proof.
  unfold nn_solve. replace (masked_target W Yz' a b L) with (masked_target W Yz a b L); [easy|].
  apply functional_extensionality; intros t; apply functional_extensionality; intros i. unfold masked_target.
  destruct (Rlt_dec _ _); [|easy]. rewrite HY; [easy|lra].
Qed.
Lemma est_step_cong s : est_step svd T N W Yz h tol s = est_step svd T N W Yz' h tol s.
Proof.
  unfold est_step.
  rewrite (unit_mean_cong (fun t i => Yz t i - tlo s t i - tb s t) (fun t i => Yz' t i - tlo s t i - tb s t)) by (intros t i H; now rewrite HY).
  rewrite (time_mean_cong (fun t i => Yz t i - tlo s t i - unit_mean T W (fun t i => Yz' t i - tlo s t i - tb s t) i)
            (fun t i => Yz' t i - tlo s t i - unit_mean T W (fun t i => Yz' t i - tlo s t i - tb s t) i)) by (intros t i H; now rewrite HY).
  rewrite nn_solve_cong. reflexivity.
Qed.
Lemma est_loop_cong k : forall s, est_loop svd T N W Yz h tol k s = est_loop svd T N W Yz' h tol k s.
Proof. induction k; intros s; simpl; [easy|]. rewrite est_step_cong. destruct (Rltb _ _); [easy|apply IHk]. Qed.
End Cong.

(* cells of a panel with an effect [e] added to the treated outcomes *)
Definition add_effect (Y : omat) (D : dmat) (e : mat) : omat :=
  fun t i => match Y t i with Some r => Some (if (D t i =? 1)%Z then r + e t i else r) | None => None end.

Lemma has_add Y D e t i : has (add_effect Y D e) t i = has Y t i.
Proof. unfold has, add_effect. now destruct (Y t i). Qed.
Lemma ysafe_add_ctl Y D e t i : D t i = 0%Z -> ysafe (add_effect Y D e) t i = ysafe Y t i.
Proof. intros E. unfold ysafe, add_effect. rewrite E. now destruct (Y t i). Qed.

Lemma dvalid_add Y D e : dvalid (add_effect Y D e) D = dvalid Y D.
Proof.
  do 4 (apply functional_extensionality; intros ?). unfold dvalid. rewrite !has_add. reflexivity.
Qed.
Lemma dvalid_ctl Y D j i t s : dvalid Y D j i t s = true -> D s i = 0%Z /\ D s j = 0%Z.
Proof. unfold dvalid. rewrite !andb_true_iff, !Z.eqb_eq. tauto. Qed.
Lemma dist_obs_add T Y D e : dist_obs T (add_effect Y D e) D = dist_obs T Y D.
Proof.
  do 3 (apply functional_extensionality; intros ?). unfold dist_obs. rewrite dvalid_add.
  destruct (filter _ _) eqn:E; [easy|]. f_equal. f_equal. apply meanf_ext. intros s Hs. rewrite <- E in Hs.
  apply filter_In in Hs. destruct Hs as [_ Hs]. apply dvalid_ctl in Hs. destruct Hs as [H1 H2]. rewrite !ysafe_add_ctl by easy. reflexivity.
Qed.
Lemma unit_w_add T Y D e : unit_w T (add_effect Y D e) D = unit_w T Y D.
Proof. do 4 (apply functional_extensionality; intros ?). unfold unit_w. now rewrite dist_obs_add. Qed.
Lemma mask_add Y D e ex : mask (add_effect Y D e) D ex = mask Y D ex.
Proof. do 2 (apply functional_extensionality; intros ?). unfold mask. now rewrite has_add. Qed.
Lemma masked_add Y D e ex W : masked (add_effect Y D e) D ex W = masked Y D ex W.
Proof. unfold masked. now rewrite mask_add. Qed.
Lemma mask_ctl Y D ex t i : mask Y D ex t i = true -> D t i = 0%Z /\ has Y t i = true.
Proof. unfold mask. rewrite !andb_true_iff, Z.eqb_eq. tauto. Qed.
Lemma masked_nz Y D ex W t i : masked Y D ex W t i <> 0 -> D t i = 0%Z /\ has Y t i = true.
Proof. unfold masked. destruct (mask Y D ex t i) eqn:E; [|easy]. intros _. now apply mask_ctl with ex. Qed.

Lemma estimate_add svd T N Y D e W h maxit tol ex :
  estimate svd T N (add_effect Y D e) D W h maxit tol ex = estimate svd T N Y D W h maxit tol ex.
Proof.
  unfold estimate. rewrite masked_add. apply est_loop_cong. intros t i H. apply masked_nz in H. now apply ysafe_add_ctl.
Qed.

(* changing only treated outcomes changes each treated cell's effect by exactly that amount, whatever the
   weights, penalties and number of iterations *)
Lemma fit_at_add svd T N Y D e P Q lt lu h maxit tol ex c :
  (forall i t j, match P with Some (Y1, D1) => unit_w T Y1 D1 lu i t j | None => unit_w T Y D lu i t j end =
                 match Q with Some (Y1, D1) => unit_w T Y1 D1 lu i t j | None => unit_w T (add_effect Y D e) D lu i t j end) ->
  fit_at svd Q T N (add_effect Y D e) D lt lu h maxit tol ex c =
  (if (D (fst c) (snd c) =? 1)%Z then fadd (fit_at svd P T N Y D lt lu h maxit tol ex c) (Fin (e (fst c) (snd c)))
   else fit_at svd P T N Y D lt lu h maxit tol ex c).
Proof.
  intros H. destruct c as [t i]. cbn [fst snd]. unfold fit_at.
  replace (obs_w Q T (add_effect Y D e) D lt lu i t) with (obs_w P T Y D lt lu i t).
  2:{ unfold obs_w. apply functional_extensionality; intros s; apply functional_extensionality; intros j. f_equal.
      specialize (H i t j). destruct P as [[? ?]|], Q as [[? ?]|]; exact H. }
  rewrite estimate_add. unfold tau, add_effect. destruct (Y t i); [|now destruct (D t i =? 1)%Z].
  destruct (D t i =? 1)%Z; [|easy]. simpl. f_equal. ring.
Qed.

Lemma in_treated T N D t i : In (t, i) (treated_obs T N D) <-> (t < T)%nat /\ (i < N)%nat /\ D t i = 1%Z.
Proof. unfold treated_obs. rewrite filter_In, in_cells. cbn [fst snd]. rewrite Z.eqb_eq. tauto. Qed.
Lemma in_control T N Y D t i : In (t, i) (control_obs T N Y D) <-> (t < T)%nat /\ (i < N)%nat /\ D t i = 0%Z /\ has Y t i = true.
Proof. unfold control_obs. rewrite filter_In, in_cells. cbn [fst snd]. rewrite andb_true_iff, Z.eqb_eq. tauto. Qed.

Lemma control_obs_add T N Y D e : control_obs T N (add_effect Y D e) D = control_obs T N Y D.
Proof. unfold control_obs. apply filter_ext. intros c. now rewrite has_add. Qed.

Definition sub_ok (sub : nat -> nat -> list nat) : Prop :=
  forall n k, (k <= n)%nat -> length (sub n k) = k /\ NoDup (sub n k) /\ forall x, In x (sub n k) -> (x < n)%nat.
Definition sub_first (n k : nat) : list nat := seq 0 k.
Lemma sub_first_ok : sub_ok sub_first.
Proof.
  intros n k H. unfold sub_first. rewrite seq_length. split; [easy|]. split; [apply seq_NoDup|]. intros x. rewrite in_seq. lia.
Qed.

Lemma loocv_obs_incl sub maxs l c : sub_ok sub -> In c (loocv_obs sub maxs l) -> In c l.
Proof.
  intros Hs. unfold loocv_obs. destruct (_ <? _)%nat eqn:E; [|easy]. apply Nat.ltb_lt in E.
  destruct (Hs (length l) (Nat.min maxs (length l))) as (_ & _ & H); [lia|].
  intros Hc. apply in_map_iff in Hc. destruct Hc as (k & <- & Hk). apply nth_In. auto.
Qed.

Section Tune.
Variable svd : svd_fn.
Variable sub : nat -> nat -> list nat.
Variable odd : lam3 -> option R.
Hypothesis Hsub : sub_ok sub.

Lemma loocv_score_add T N Y D e obs maxit tol lt lu h :
  (forall c, In c obs -> D (fst c) (snd c) = 0%Z) ->
  loocv_score svd T N (add_effect Y D e) D obs maxit tol lt lu h = loocv_score svd T N Y D obs maxit tol lt lu h.
Proof.
  intros H. unfold loocv_score. destruct obs as [|c0 r]; [easy|]. f_equal. apply sumf_ext. intros c Hc. f_equal.
  rewrite (fit_at_add svd T N Y D e (Some (Y, D)) (Some (add_effect Y D e, D))).
  - rewrite H by easy. reflexivity.
  - intros. now rewrite unit_w_add.
Qed.

(* the tuning parameters do not depend on the treated outcomes *)
Theorem tune_add cfg T N Y D e : tune svd sub odd cfg T N (add_effect Y D e) D = tune svd sub odd cfg T N Y D.
Proof.
  unfold tune. rewrite control_obs_add. set (obs := loocv_obs _ _ _).
  assert (Ho : forall c, In c obs -> D (fst c) (snd c) = 0%Z).
  { intros [t i] Hc. apply loocv_obs_incl in Hc; [|easy]. apply in_control in Hc. tauto. }
  assert (E : loocv_score svd T N (add_effect Y D e) D obs (tc_maxit cfg) (tc_tol cfg) = loocv_score svd T N Y D obs (tc_maxit cfg) (tc_tol cfg)).
  { do 3 (apply functional_extensionality; intros ?). now apply loocv_score_add. }
  rewrite E. destruct (two_stage _ _ _ _) as [[lt lu] ln]. unfold final_score.
  destruct lt as [lt|], lu as [lu|]; try easy.
  all: replace (sumf (fun c => fsq (yfl (add_effect Y D e) (fst c) (snd c))) obs) with (sumf (fun c => fsq (yfl Y (fst c) (snd c))) obs);
    [easy|apply sumf_ext; intros c Hc; f_equal; unfold yfl, add_effect; rewrite (Ho c Hc); now destruct (Y (fst c) (snd c))].
Qed.
End Tune.

(* effects after adding e to the treated outcomes *)
Lemma effects_add svd T N Y D e P Q lt lu h maxit tol :
  (forall i t j, match P with Some (Y1, D1) => unit_w T Y1 D1 lu i t j | None => unit_w T Y D lu i t j end =
                 match Q with Some (Y1, D1) => unit_w T Y1 D1 lu i t j | None => unit_w T (add_effect Y D e) D lu i t j end) ->
  effects svd Q T N (add_effect Y D e) D lt lu h maxit tol =
  map (fun x => (fst x, fadd (snd x) (Fin (e (fst (fst x)) (snd (fst x)))))) (effects svd P T N Y D lt lu h maxit tol).
Proof.
  intros H. unfold effects. rewrite map_map. apply map_ext_in. intros [t i] Hc. cbn [fst snd]. f_equal.
  rewrite (fit_at_add _ _ _ _ _ _ P) by exact H. cbn [fst snd]. apply in_treated in Hc. destruct Hc as (_ & _ & ->). reflexivity.
Qed.

Lemma fmean_shift (l : list (fl * R)) : (forall x, In x l -> ffinite (fst x) = true) -> l <> [] ->
  fmean (map (fun x => fadd (fst x) (Fin (snd x))) l) = fadd (fmean (map fst l)) (Fin (meanf snd l)).
Proof.
  intros H Hl.
  assert (E1 : map fst l = map Fin (map (fun x => match fst x with Fin r => r | _ => 0 end) l)).
  { rewrite map_map. apply map_ext_in. intros x Hx. specialize (H x Hx). now destruct (fst x). }
  assert (E2 : map (fun x => fadd (fst x) (Fin (snd x))) l = map Fin (map (fun x => match fst x with Fin r => r | _ => 0 end + snd x) l)).
  { rewrite map_map. apply map_ext_in. intros x Hx. specialize (H x Hx). now destruct (fst x). }
  rewrite E1, E2, !fmean_fin by (destruct l; easy). simpl. f_equal. unfold idR. rewrite !meanf_map, meanf_add. reflexivity.
Qed.
Lemma fmean_not_fin l : l <> [] -> (forall x, In x l -> x = NaN \/ exists r, x = Fin r) -> (exists x, In x l /\ x = NaN) -> fmean l = NaN.
Proof. intros _ _ (x & H & ->). now apply fmean_nan. Qed.

Lemma fit_at_fin svd P T N Y D lt lu h maxit tol ex c : has Y (fst c) (snd c) = true ->
  exists r, fit_at svd P T N Y D lt lu h maxit tol ex c = Fin r.
Proof. destruct c as [t i]. unfold fit_at, tau, has. cbn [fst snd]. destruct (Y t i); [eauto|easy]. Qed.
Lemma fit_at_nan svd P T N Y D lt lu h maxit tol ex c : has Y (fst c) (snd c) = false ->
  fit_at svd P T N Y D lt lu h maxit tol ex c = NaN.
Proof. destruct c as [t i]. unfold fit_at, tau, has. cbn [fst snd]. now destruct (Y t i). Qed.

(* the average effect shifts by the average of what was added *)
Lemma att_add svd T N Y D e P Q lt lu h maxit tol :
  (forall i t j, match P with Some (Y1, D1) => unit_w T Y1 D1 lu i t j | None => unit_w T Y D lu i t j end =
                 match Q with Some (Y1, D1) => unit_w T Y1 D1 lu i t j | None => unit_w T (add_effect Y D e) D lu i t j end) ->
  treated_obs T N D <> [] ->
  att_of (effects svd Q T N (add_effect Y D e) D lt lu h maxit tol) =
  fadd (att_of (effects svd P T N Y D lt lu h maxit tol)) (Fin (meanf (fun c => e (fst c) (snd c)) (treated_obs T N D))).
Proof.
  intros H Hn. rewrite (effects_add _ _ _ _ _ _ P Q) by exact H. unfold att_of, effects. rewrite !map_map. cbn [fst snd].
  destruct (forallb (fun c => has Y (fst c) (snd c)) (treated_obs T N D)) eqn:E.
  - rewrite forallb_forall in E.
    pose proof (fmean_shift (map (fun c => (fit_at svd P T N Y D lt lu h maxit tol None c, e (fst c) (snd c))) (treated_obs T N D))) as F.
    rewrite !map_map in F. cbn [fst snd] in F. rewrite meanf_map in F. apply F.
    + intros x Hx. apply in_map_iff in Hx. destruct Hx as (c & <- & Hc). cbn [fst].
      destruct (fit_at_fin svd P T N Y D lt lu h maxit tol None c) as [r ->]; auto.
    + destruct (treated_obs T N D); easy.
  - assert (Ex : exists c, In c (treated_obs T N D) /\ has Y (fst c) (snd c) = false).
    { clear - E. induction (treated_obs T N D) as [|c r IH]; [easy|]. simpl in E. apply andb_false_iff in E.
      destruct E as [E|E]; [exists c; simpl; auto|]. destruct (IH E) as (c' & H1 & H2). exists c'. simpl. auto. }
    destruct Ex as (c & Hc & Hb).
    assert (X := fit_at_nan svd P T N Y D lt lu h maxit tol None c Hb).
    rewrite (fmean_nan (map (fun x => fit_at svd P T N Y D lt lu h maxit tol None x) _)) by (rewrite <- X; apply in_map, Hc).
    apply fmean_nan. apply in_map_iff. exists c. rewrite X. auto.
Qed.

(* Theorems on the data generators: shape, indicators, and what the 2x2 and event-study estimators recover. *)
From Verif Require Import Prelude Flt Stats_model Linalg_model Linalg_proofs Linalg_vcov Linalg_thms Did_model Did_spec Did_proofs Did_equiv
  Multi_model Multi_proofs Multi_thms Power_model Power_thms Staggered_model Diag_model Diag_proofs Diag_ex Dgp_model Dgp_proofs.
From Coq Require Import Arith ZArith String List Bool Lia.
Import ListNotations.
Open Scope R_scope.

(* ---------- counts ---------- *)
Lemma n_first_bounds n f : 0 <= f <= 1 -> (0 <= n_first n f <= Z.of_nat n)%Z /\ IZR (n_first n f) <= INR n * f < IZR (n_first n f) + 1.
Proof.
  intros H. assert (N : 0 <= INR n * f) by (apply Rmult_le_pos; [apply pos_INR|lra]).
  pose proof (trunc_nonneg _ N) as B. fold (n_first n f) in B. split; [|exact B].
  assert (U : INR n * f <= INR n) by (pose proof (pos_INR n); nra). split.
  - assert (X : IZR (-1) < IZR (n_first n f)) by lra. apply lt_IZR in X. lia.
  - assert (X : IZR (n_first n f) <= IZR (Z.of_nat n)) by (rewrite <- INR_IZR_INZ; lra). apply le_IZR in X. exact X.
Qed.
Lemma filter_id {A} (p : A -> bool) l : (forall x, In x l -> p x = true) -> filter p l = l.
Proof. induction l as [|a l IH]; simpl; intros H; [reflexivity|]. rewrite H by auto. rewrite IH; auto. Qed.
Lemma filter_nil {A} (p : A -> bool) l : (forall x, In x l -> p x = false) -> filter p l = [].
Proof. induction l as [|a l IH]; simpl; intros H; [reflexivity|]. rewrite H by auto. apply IH; auto. Qed.
Lemma filter_seq_before n k : (0 <= k <= Z.of_nat n)%Z -> filter (fun u => before u k) (seq 0 n) = seq 0 (Z.to_nat k).
Proof.
  intros H. replace n with (Z.to_nat k + (n - Z.to_nat k))%nat by lia. rewrite seq_app, filter_app_list.
  rewrite filter_id, filter_nil, app_nil_r; [reflexivity| |]; intros u Hu; apply in_seq in Hu; [apply Z.ltb_ge|apply Z.ltb_lt]; lia.
Qed.
Lemma filter_seq_post T tp : (0 <= tp <= Z.of_nat T)%Z -> filter (fun t => Z.leb tp (Z.of_nat t)) (seq 0 T) = seq (Z.to_nat tp) (T - Z.to_nat tp).
Proof.
  intros H. replace T with (Z.to_nat tp + (T - Z.to_nat tp))%nat at 1 by lia. rewrite seq_app, filter_app_list.
  rewrite filter_nil, filter_id; [reflexivity| |]; intros u Hu; apply in_seq in Hu; [apply Z.leb_le|apply Z.leb_gt]; lia.
Qed.
Lemma filter_seq_pre T tp : (0 <= tp <= Z.of_nat T)%Z -> filter (fun t => negb (Z.leb tp (Z.of_nat t))) (seq 0 T) = seq 0 (Z.to_nat tp).
Proof.
  intros H. replace T with (Z.to_nat tp + (T - Z.to_nat tp))%nat by lia. rewrite seq_app, filter_app_list.
  rewrite filter_id, filter_nil, app_nil_r; [reflexivity| |]; intros u Hu; apply in_seq in Hu; [apply Bool.negb_false_iff, Z.leb_le|apply Bool.negb_true_iff, Z.leb_gt]; lia.
Qed.
Lemma sumf_INR_seq m : forall s, sumf INR (seq s m) = INR m * INR s + INR m * (INR m - 1) / 2.
Proof. induction m as [|m IH]; intros s; [simpl; lra|]. cbn [seq sumf]. rewrite IH, !S_INR. field. Qed.
Lemma meanf_INR_seq m s : (0 < m)%nat -> meanf INR (seq s m) = INR s + (INR m - 1) / 2.
Proof. intros H. unfold meanf, len. rewrite seq_length, sumf_INR_seq. apply lt_INR in H. simpl in H. field. lra. Qed.
(* the mean post period is T/2 above the mean pre period, wherever the split is *)
Lemma gap_periods T tp : (0 < tp < Z.of_nat T)%Z -> gap (fun t => Z.leb tp (Z.of_nat t)) INR (seq 0 T) = INR T / 2.
Proof.
  intros H. unfold gap. rewrite filter_seq_post, filter_seq_pre by lia. rewrite !meanf_INR_seq by lia.
  rewrite minus_INR by lia. simpl INR. field.
Qed.

(* ---------- shape of the panels ---------- *)
Definition panel_shape (n T : nat) (k tp : Z) (effect : R) (rows : list prow) : Prop :=
  map (fun i => (pr_unit i, pr_period i)) rows = grid n T /\
  (forall i, In i rows -> pr_treated i = Z.ltb (Z.of_nat (pr_unit i)) k /\ pr_post i = Z.leb tp (Z.of_nat (pr_period i)) /\
     pr_event i = (Z.of_nat (pr_period i) - tp)%Z /\ pr_effect i = if pr_treated i && pr_post i then effect else 0).
Lemma NoDup_list_prod {A B} (l : list A) (l' : list B) : NoDup l -> NoDup l' -> NoDup (list_prod l l').
Proof.
  induction l as [|a l IH]; intros H H'; simpl; [constructor|]. inversion H as [|? ? Ha Hl]; subst.
  assert (D : forall l1 l2 : list (A * B), NoDup l1 -> NoDup l2 -> (forall x, In x l1 -> ~ In x l2) -> NoDup (l1 ++ l2)).
  { induction l1 as [|x l1 IH1]; intros l2 N1 N2 D; simpl; [exact N2|]. inversion N1; subst. constructor.
    - rewrite in_app_iff. intros [X|X]; [auto|]. apply (D x); simpl; auto.
    - apply IH1; auto. intros z Hz. apply D. right; exact Hz. }
  apply D.
  - apply FinFun.Injective_map_NoDup; [|exact H']. intros x z E. congruence.
  - apply IH; auto.
  - intros [x z] Hx. apply in_map_iff in Hx. destruct Hx as (w & E & _). injection E as <- <-. intros C. apply in_prod_iff in C. tauto.
Qed.
Lemma shape_facts n T k tp effect rows : panel_shape n T k tp effect rows ->
  length rows = (n * T)%nat /\ NoDup (map (fun i => (pr_unit i, pr_period i)) rows) /\
  (forall u t, (u < n)%nat -> (t < T)%nat -> exists i, In i rows /\ pr_unit i = u /\ pr_period i = t) /\
  (forall i, In i rows -> (pr_unit i < n)%nat /\ (pr_period i < T)%nat).
Proof.
  intros [M _]. split; [|split; [|split]].
  - rewrite <- (map_length (fun i => (pr_unit i, pr_period i))), M. unfold grid. rewrite prod_length, !seq_length. reflexivity.
  - rewrite M. apply NoDup_list_prod; apply seq_NoDup.
  - intros u t Hu Ht. assert (X : In (u, t) (map (fun i => (pr_unit i, pr_period i)) rows)).
    { rewrite M. apply in_prod; apply in_seq; lia. }
    apply in_map_iff in X. destruct X as (i & E & Hi). injection E as E1 E2. exists i. auto.
  - intros i Hi. assert (X : In (pr_unit i, pr_period i) (grid n T)) by (rewrite <- M; apply in_map_iff; exists i; auto).
    unfold grid in X. apply in_prod_iff in X. destruct X as [X1 X2]. apply in_seq in X1. apply in_seq in X2. lia.
Qed.
Lemma map_grid_id n T (mk : nat * nat -> prow) : (forall x, pr_unit (mk x) = fst x /\ pr_period (mk x) = snd x) ->
  map (fun i => (pr_unit i, pr_period i)) (map mk (grid n T)) = grid n T.
Proof.
  intros H. rewrite map_map. transitivity (map (fun x : nat * nat => x) (grid n T)); [|apply map_id]. apply map_ext. intros x. destruct (H x) as [-> ->]. destruct x; reflexivity.
Qed.

Section Gen.
Variables (n T : nat) (effect fraction : R) (tp : Z) (fe_sd noise_sd : R) (zu : nat -> R) (ze : nat -> nat -> R).
Notation k := (n_first n fraction).
Notation z := (fun x : nat * nat => ze (fst x) (snd x)).
(* contrast of the noise draws over the four cells *)
Definition noise_did (n T : nat) (k tp : Z) (ze : nat -> nat -> R) : R :=
  bdid (fun x => before (fst x) k) (fun x => Z.leb tp (Z.of_nat (snd x))) (fun x => ze (fst x) (snd x)) (grid n T).
Notation postp := (fun t => Z.leb tp (Z.of_nat t)).

Lemma noise_zero : noise_did n T k tp (fun _ _ => 0) = 0.
Proof. unfold noise_did, bdid, bmean, meanf. rewrite !sumf_const. unfold Rdiv. ring. Qed.

Lemma did_data_shape trend rows : generate_did_data n T effect fraction tp fe_sd trend noise_sd zu ze = Ok rows -> panel_shape n T k tp effect rows.
Proof.
  unfold generate_did_data. destruct (Rltb fe_sd 0); [discriminate|]. destruct (Rltb noise_sd 0 && _); [discriminate|]. intros E. injection E as <-.
  split; [apply map_grid_id; intros [u t]; auto|].
  intros i Hi. apply in_map_iff in Hi. destruct Hi as ([u t] & <- & _). cbn. auto.
Qed.
Lemma panel_data_shape parallel violation rows : generate_panel_data n T tp fraction effect parallel violation fe_sd noise_sd zu ze = Ok rows ->
  panel_shape n T k tp effect rows /\ (1 <= tp < Z.of_nat T)%Z.
Proof.
  unfold generate_panel_data. destruct (Z.ltb_spec tp 1); [discriminate|]. destruct (Z.leb_spec (Z.of_nat T) tp); [discriminate|].
  destruct ((Rltb fe_sd 0 || Rltb noise_sd 0) && _); [discriminate|]. intros E. injection E as <-. split; [|lia].
  split; [apply map_grid_id; intros [u t]; auto|].
  intros i Hi. apply in_map_iff in Hi. destruct Hi as ([u t] & <- & _). cbn. auto.
Qed.

Lemma gap_effect : (0 < tp < Z.of_nat T)%Z -> gap postp (fun t => effect * ind (Z.leb tp (Z.of_nat t))) (seq 0 T) = effect.
Proof. intros H. rewrite gap_scal, gap_ind by (apply post_ne; lia). ring. Qed.
Lemma did_data_bdid trend rows : (0 < k < Z.of_nat n)%Z -> (0 < tp < Z.of_nat T)%Z ->
  generate_did_data n T effect fraction tp fe_sd trend noise_sd zu ze = Ok rows ->
  pbdid rows pr_y = effect + noise_sd * noise_did n T k tp ze /\
  (forall p q, existsb (fun i => Bool.eqb (pr_treated i) p && Bool.eqb (pr_post i) q) rows = true).
Proof.
  intros Hk Ht. unfold generate_did_data. destruct (Rltb fe_sd 0); [discriminate|]. destruct (Rltb noise_sd 0 && _); [discriminate|]. intros E. injection E as <-.
  set (mk := fun ut : nat * nat => _). split.
  - rewrite (panel_bdid n T k tp Hk Ht mk) with (h := fun u => 10 + fe_sd * zu u) (kk := fun t => trend * INR t)
      (w := fun t => effect * ind (Z.leb tp (Z.of_nat t))) (z := fun x => noise_sd * ze (fst x) (snd x)).
    + rewrite gap_effect, bdid_scal by assumption. reflexivity.
    + intros [u t]; reflexivity.
    + intros [u t]; reflexivity.
    + intros [u t]. cbn. unfold normal. destruct (before u k), (Z.leb tp (Z.of_nat t)); cbn; ring.
  - apply (panel_cells n T k tp Hk Ht mk); intros [u t]; reflexivity.
Qed.
Lemma panel_data_bdid parallel violation rows : (0 < k < Z.of_nat n)%Z ->
  generate_panel_data n T tp fraction effect parallel violation fe_sd noise_sd zu ze = Ok rows ->
  pbdid rows pr_y = effect + (if parallel then 0 else violation * (INR T / 2)) + noise_sd * noise_did n T k tp ze /\
  (forall p q, existsb (fun i => Bool.eqb (pr_treated i) p && Bool.eqb (pr_post i) q) rows = true).
Proof.
  intros Hk G. pose proof (proj2 (panel_data_shape _ _ _ G)) as Ht. revert G.
  unfold generate_panel_data. destruct (Z.ltb_spec tp 1); [discriminate|]. destruct (Z.leb_spec (Z.of_nat T) tp); [discriminate|].
  destruct ((Rltb fe_sd 0 || Rltb noise_sd 0) && _); [discriminate|]. intros E. injection E as <-.
  assert (Ht' : (0 < tp < Z.of_nat T)%Z) by lia.
  set (mk := fun ut : nat * nat => _). split.
  - rewrite (panel_bdid n T k tp Hk Ht' mk) with (h := fun u => 10 + fe_sd * zu u) (kk := fun t => INR t)
      (w := fun t => effect * ind (Z.leb tp (Z.of_nat t)) + (if parallel then 0 else violation) * INR t) (z := fun x => noise_sd * ze (fst x) (snd x)).
    + rewrite gap_add, gap_effect, gap_scal, gap_periods, bdid_scal by assumption. unfold noise_did. destruct parallel; ring.
    + intros [u t]; reflexivity.
    + intros [u t]; reflexivity.
    + intros [u t]. cbn. unfold normal. destruct parallel, (before u k), (Z.leb tp (Z.of_nat t)); cbn; ring.
  - apply (panel_cells n T k tp Hk Ht' mk); intros [u t]; reflexivity.
Qed.
End Gen.

(* ---------- the 2x2 estimator on the generated panels ---------- *)
Section Fits.
Context {K G : Type} (keq : forall x y : K, {x = y} + {x <> y}) (geq : forall x y : G, {x = y} + {x <> y}).
Variable qr : list prow -> list (prow -> R) -> list nat.
Variable lstsq : list prow -> list (prow -> R) -> (prow -> R) -> list R.
Variable inv : list prow -> list (prow -> R) -> option (nat -> nat -> R).
Variable pinv : list prow -> list (prow -> R) -> nat -> nat -> R.
Variable sf : option Z -> fl -> fl.
Variable ppf : option Z -> R -> R.
Hypothesis Hqr : qr_ok qr.
Hypothesis Hls : lstsq_ok lstsq.
Hypothesis Hinv : inv_ok inv.
(* DifferenceInDifferences.fit(data, outcome='outcome', treatment='treated', time='post') *)
Definition did_on (cfg : did_config prow K) (rows : list prow) : res (did_result prow) :=
  did_fit keq geq qr lstsq inv pinv sf ppf cfg rows (fun i => Fin (pr_y i)) (fun i => ofb (pr_treated i)) (fun i => ofb (pr_post i)) [] [] [].

Theorem did_data_recovery n T effect fraction tp fe_sd trend noise_sd zu ze rows cfg :
  let k := n_first n fraction in
  (0 < k < Z.of_nat n)%Z -> (0 < tp < Z.of_nat T)%Z -> generate_did_data n T effect fraction tp fe_sd trend noise_sd zu ze = Ok rows ->
  (forall r, did_on cfg rows = Ok r -> r_att r = Fin (effect + noise_sd * noise_did n T k tp ze)) /\
  ((4 < n * T)%nat -> parse_action (c_action cfg) <> None -> (forall cl, c_cluster cfg = Some cl -> (2 <= length (cl_keys keq rows cl))%nat) ->
   exists r, did_on cfg rows = Ok r).
Proof.
  intros k Hk Ht G'. destruct (did_data_bdid _ _ _ _ _ _ _ _ _ _ _ Hk Ht G') as [B C]. split.
  - intros r E. rewrite (bfit_att keq geq qr lstsq inv pinv sf ppf Hqr Hls pr_y pr_treated pr_post cfg rows r C E). f_equal. exact B.
  - intros L A Cl. apply (bfit_ok keq geq qr lstsq inv pinv sf ppf Hqr Hls Hinv pr_y pr_treated pr_post cfg rows C); auto.
    pose proof (did_data_shape _ _ _ _ _ _ _ _ _ _ _ G') as S. destruct (shape_facts _ _ _ _ _ _ S) as (-> & _). exact L.
Qed.
Theorem panel_data_recovery n T effect fraction tp fe_sd noise_sd zu ze parallel violation rows cfg :
  let k := n_first n fraction in
  (0 < k < Z.of_nat n)%Z -> generate_panel_data n T tp fraction effect parallel violation fe_sd noise_sd zu ze = Ok rows ->
  (forall r, did_on cfg rows = Ok r -> r_att r = Fin (effect + (if parallel then 0 else violation * (INR T / 2)) + noise_sd * noise_did n T k tp ze)) /\
  ((4 < n * T)%nat -> parse_action (c_action cfg) <> None -> (forall cl, c_cluster cfg = Some cl -> (2 <= length (cl_keys keq rows cl))%nat) ->
   exists r, did_on cfg rows = Ok r).
Proof.
  intros k Hk G'. destruct (panel_data_bdid _ _ _ _ _ _ _ _ _ _ _ _ Hk G') as [B C]. split.
  - intros r E. rewrite (bfit_att keq geq qr lstsq inv pinv sf ppf Hqr Hls pr_y pr_treated pr_post cfg rows r C E). f_equal. exact B.
  - intros L A Cl. apply (bfit_ok keq geq qr lstsq inv pinv sf ppf Hqr Hls Hinv pr_y pr_treated pr_post cfg rows C); auto.
    pose proof (panel_data_shape _ _ _ _ _ _ _ _ _ _ _ _ G') as [S _]. destruct (shape_facts _ _ _ _ _ _ S) as (-> & _). exact L.
Qed.
End Fits.

(* One treatment date on a balanced panel: what each estimator reports (C132). *)
From Coq Require Import Reals Lra Lia.
From Verif Require Import Prelude Flt Stats_model Linalg_model Linalg_proofs Linalg_vcov Linalg_thms Did_model Did_spec Did_proofs Within_proofs Multi_model Multi_proofs Multi_thms Bacon_model Bacon_proofs Bacon_thms One_proofs.
From Coq Require Import Arith ZArith String List Permutation.
Import ListNotations.
Open Scope R_scope.

Section Mp.
Context {I K G : Type} (keq : forall x y : K, {x = y} + {x <> y}) (geq : forall x y : G, {x = y} + {x <> y}).
Variable qr : list I -> list (I -> R) -> list nat.
Variable lstsq : list I -> list (I -> R) -> (I -> R) -> list R.
Variable inv : list I -> list (I -> R) -> option (nat -> nat -> R).
Variable pinv : list I -> list (I -> R) -> nat -> nat -> R.
Variable sf : option Z -> fl -> fl.
Variable ppf : option Z -> R -> R.
Hypothesis Hqr : qr_ok qr.
Hypothesis Hls : lstsq_ok lstsq.

(* the average of the period effects is the difference in differences of the four pooled means *)
Theorem mp_one_date cfg rows y (u t : I -> Z) (dU : Z -> R) m post ref r i0 i1 :
  let d := fun i => dU (u i) in
  let after := fun i => ind (zmem (t i) (mp_post r)) in
  Within_proofs.balanced Z.eq_dec Z.eq_dec rows u t m ->
  In i0 rows -> d i0 = 0 -> In i1 rows -> d i1 = 1 ->
  mp_fit keq geq qr lstsq inv sf ppf cfg rows y d t post ref [] [] [] = Ok r -> NoDup (mp_post r) ->
  mp_avg r = Fin (did_of_means rows d after y) /\
  map pe_effect (mp_effects r) = map (fun p => Fin ((mmean rows d t y 1 p - mmean rows d t y 0 p)
     - (cell_mean rows d after y 1 0 - cell_mean rows d after y 0 0))) (mp_post r).
Proof.
  intros d after Hb Hi0 E0 Hi1 E1 H Hn. pose proof (mp_fit_inv keq geq qr lstsq inv sf ppf _ _ _ _ _ _ _ _ _ _ _ H) as (Zd & Hset & _).
  destruct (mp_setup_ok _ _ _ _ _ _ Hset (data_periods_nodup rows t)) as (Hpre & Hpne & Hincl & Href & Hpp & _).
  assert (Hi : incl (mp_post r) (map t rows)).
  { intros p Hp. apply Hincl in Hp. apply data_periods_in in Hp as (i & Hi & <-). apply in_map. exact Hi. }
  assert (HP : NoDup (mp_post r) /\ incl (mp_post r) (map t rows)) by (split; assumption).
  assert (X0 : In i0 rows /\ dU (u i0) = 0) by (split; assumption).
  assert (X1 : In i1 rows /\ dU (u i1) = 1) by (split; assumption).
  assert (EP : exists p, In p rows /\ zmem (t p) (mp_post r) = false).
  { destruct (mp_pre r) as [|q l] eqn:Eq; [congruence|]. destruct (proj1 (Hpp q) (or_introl eq_refl)) as [Q1 Q2].
    apply data_periods_in in Q1 as (i & Hx & <-). exists i. split; [exact Hx|]. apply zmem_false. exact Q2. }
  destruct EP as (p & Hp & Hz).
  destruct (pre_gap_value rows u t dU m (mp_post r) Hb Zd i0 i1 X0 X1 y p Hp Hz) as [Gv Gd].
  assert (Hid : identified rows d t (mp_post r)).
  { split; [exact Hn|]. split; [|exact Gd]. intros q Hq. split; [apply (mcell_full rows u t dU m Hb 0 i0 q Hi0 E0)|apply (mcell_full rows u t dU m Hb 1 i1 q Hi1 E1)]; apply Hi; exact Hq. }
  pose proof (mp_period_effects keq geq qr lstsq inv sf ppf Hqr Hls _ _ _ _ _ _ _ _ _ H Hid) as P. cbv zeta in P. cbn [absorb_loop fst] in P.
  assert (P' : map pe_effect (mp_effects r) = map Fin (map (fun p => (mmean rows d t y 1 p - mmean rows d t y 0 p)
     - (cell_mean rows d after y 1 0 - cell_mean rows d after y 0 0)) (mp_post r))).
  { rewrite P, map_map. apply map_ext. intros q. unfold effect_formula. unfold d at 3. rewrite Gv. reflexivity. }
  split; [|rewrite P', map_map; reflexivity].
  rewrite (proj2 (mp_avg_is_mean keq geq qr lstsq inv sf ppf _ _ _ _ _ _ _ _ _ _ _ H) _ P'). f_equal.
  unfold meanf. rewrite sumf_map, len_map. unfold idR.
  pose proof (mean_post rows u t dU m (mp_post r) Hb HP y 1 i1 Hi1 E1 Hpne) as M1.
  pose proof (mean_post rows u t dU m (mp_post r) Hb HP y 0 i0 Hi0 E0 Hpne) as M0.
  unfold meanf at 1 in M1. unfold meanf at 1 in M0.
  pose proof (len_pos (mp_post r) Hpne) as L.
  rewrite !sumf_sub, !sumf_const. unfold did_of_means. unfold after, d. rewrite <- M1, <- M0.
  unfold mmean. field. lra.
Qed.

(* DifferenceInDifferences on the same rows, with the post indicator of those periods *)
Theorem did_one_date cfg cfg' rows y (u t : I -> Z) (dU : Z -> R) m post ref r r' i0 i1 :
  let d := fun i => dU (u i) in
  let after := fun i => ind (zmem (t i) post) in
  Within_proofs.balanced Z.eq_dec Z.eq_dec rows u t m ->
  In i0 rows -> d i0 = 0 -> In i1 rows -> d i1 = 1 -> NoDup post ->
  did_fit keq geq qr lstsq inv pinv sf ppf cfg rows (fun i => Fin (y i)) (fun i => Fin (d i)) (fun i => Fin (after i)) [] [] [] = Ok r ->
  mp_fit keq geq qr lstsq inv sf ppf cfg' rows y d t (Some post) ref [] [] [] = Ok r' ->
  r_att r = Fin (did_of_means rows d after y) /\ mp_avg r' = r_att r.
Proof.
  intros d after Hb Hi0 E0 Hi1 E1 Hn Hd H. pose proof (mp_fit_inv keq geq qr lstsq inv sf ppf _ _ _ _ _ _ _ _ _ _ _ H) as (Zd & Hset & _).
  destruct (mp_setup_ok _ _ _ _ _ _ Hset (data_periods_nodup rows t)) as (Hpre & Hpne & Hincl & Href & Hpp & _ & _ & _ & Ep). specialize (Ep post eq_refl).
  rewrite Ep in *.
  assert (Hi : incl post (map t rows)).
  { intros p Hp. apply Hincl in Hp. apply data_periods_in in Hp as (i & Hi & <-). apply in_map. exact Hi. }
  assert (EP : exists p, In p rows /\ zmem (t p) post = false).
  { destruct (mp_pre r') as [|q l] eqn:Eq; [congruence|]. destruct (proj1 (Hpp q) (or_introl eq_refl)) as [Q1 Q2].
    apply data_periods_in in Q1 as (i & Hx & <-). exists i. split; [exact Hx|]. apply zmem_false. exact Q2. }
  destruct EP as (p & Hp & Hz).
  pose proof (panel_four_cells rows u t dU m post Hb (conj Hn Hi) i0 i1 (conj Hi0 E0) (conj Hi1 E1) p Hpne Hp Hz) as F4.
  assert (A : r_att r = Fin (did_of_means rows d after y)) by exact (did_att_is_did_of_means keq geq qr lstsq inv pinv sf ppf Hqr Hls _ _ _ _ _ _ Hd F4).
  split; [exact A|]. rewrite A. destruct (mp_one_date cfg' rows y u t dU m (Some post) ref r' i0 i1 Hb Hi0 E0 Hi1 E1 H) as [M _]; [rewrite Ep; exact Hn|].
  rewrite M, Ep. reflexivity.
Qed.
End Mp.

(* ---- the decomposition ---- *)
Section Bacon.
Context {I : Type}.
Variables (rows : list I) (u t : I -> Z) (g : I -> coh) (m : nat) (C : Z -> coh) (k : Z).
Hypothesis Hbal : Within_proofs.balanced Z.eq_dec Z.eq_dec rows u t m.
Hypothesis HC : forall i, In i rows -> g i = C (u i).
Hypothesis Hk : (0 < k)%Z.
Hypothesis Hone : forall i, In i rows -> c_never (g i) = true \/ g i = CFin k.
Notation d := (fun i => ind (c_is (g i) k)).
Notation after := (fun i => ind (Z.leb k (t i))).
Hypothesis H4 : four_cells rows d after.

Lemma Hvalid1 : forall i, In i rows -> c_never (g i) = true \/ exists z, (0 < z)%Z /\ g i = CFin z.
Proof. intros i Hi. destruct (Hone i Hi) as [H|H]; [left; exact H|right; exists k; auto]. Qed.
Lemma Reqb_ind (b : bool) : Reqb (ind b) 1 = b /\ Reqb (ind b) 0 = negb b.
Proof.
  destruct b; unfold ind; cbn [negb]; split; try (apply Reqb_true; lra); apply Reqb_false; lra.
Qed.
Lemma in_cell a b i : In i (cell rows d after a b) -> In i rows /\ d i = a /\ after i = b.
Proof. intros H. apply filter_In in H as [H X]. apply andb_true_iff in X as [X1 X2]. apply Reqb_true in X1, X2. auto. Qed.
Lemma never_iff i : In i rows -> c_never (g i) = negb (c_is (g i) k).
Proof.
  intros Hi. destruct (Hone i Hi) as [H|H].
  - rewrite H. destruct (g i) as [z| |]; cbn in *; try reflexivity; try discriminate. apply Z.eqb_eq in H. subst z. destruct (Z.eqb_spec 0 k); [lia|reflexivity].
  - rewrite H. cbn. rewrite Z.eqb_refl. destruct (Z.eqb_spec k 0); [lia|reflexivity].
Qed.
Lemma some_row a b : cell rows d after a b <> [] -> exists i, In i rows /\ d i = a /\ after i = b.
Proof. destruct (cell rows d after a b) as [|i l] eqn:E; [congruence|]. intros _. exists i. apply in_cell. rewrite E. left. reflexivity. Qed.
Lemma groups_one : timing_groups rows g = [k].
Proof.
  destruct H4 as (_ & _ & _ & H11). destruct (some_row 1 1 H11) as (i & Hi & Ed & _).
  assert (Gi : g i = CFin k).
  { destruct (c_is (g i) k) eqn:E; [|unfold ind in Ed; lra]. destruct (g i); cbn in E; try discriminate. apply Z.eqb_eq in E. congruence. }
  assert (Hin : In k (timing_groups rows g)) by (apply group_in; split; [exact Hk|exists i; auto]).
  assert (Hall : forall a, In a (timing_groups rows g) -> a = k).
  { intros a Ha. apply group_in in Ha as (Hp & j & Hj & Ej). destruct (Hone j Hj) as [H|H]; rewrite Ej in H; [|congruence]. cbn in H. apply Z.eqb_eq in H. lia. }
  pose proof (groups_nodup rows g) as N. destruct (timing_groups rows g) as [|a [|b l]]; [destruct Hin| |].
  - f_equal. apply Hall. left. reflexivity.
  - exfalso. inversion N as [|x l0 N1 N2]; subst. apply N1. left. rewrite (Hall a), (Hall b); [reflexivity|right; left; reflexivity|left; reflexivity].
Qed.
Lemma mem_post i : In i rows -> existsb (Z.eqb (t i)) (post_of rows t TreatedNever k None) = Z.leb k (t i).
Proof.
  intros Hi. destruct (Z.leb k (t i)) eqn:E.
  - apply existsb_Z. apply filter_In. split; [apply Ts_in, in_map; exact Hi|exact E].
  - destruct (existsb _ _) eqn:X; [|reflexivity]. apply existsb_Z in X. apply filter_In in X as [_ X]. congruence.
Qed.
Lemma mem_pre i : In i rows -> existsb (Z.eqb (t i)) (pre_of rows t TreatedNever k None) = negb (Z.leb k (t i)).
Proof.
  intros Hi. rewrite <- Z.ltb_antisym. destruct (Z.ltb (t i) k) eqn:E.
  - apply existsb_Z. apply filter_In. split; [apply Ts_in, in_map; exact Hi|exact E].
  - destruct (existsb _ _) eqn:X; [|reflexivity]. apply existsb_Z in X. apply filter_In in X as [_ X]. congruence.
Qed.
Lemma bcell (a b : bool) :
  in_periods t (if b then post_of rows t TreatedNever k None else pre_of rows t TreatedNever k None)
    (filter (fun i => if a then c_is (g i) k else c_never (g i)) rows) = cell rows d after (ind a) (ind b).
Proof.
  unfold in_periods, cell. rewrite Within_proofs.filter_filter. apply filter_ext_in. intros i Hi.
  destruct (Reqb_ind (c_is (g i) k)) as [A1 A0], (Reqb_ind (Z.leb k (t i))) as [B1 B0].
  destruct a, b; cbn [ind]; rewrite ?A1, ?A0, ?B1, ?B0, ?mem_post, ?mem_pre, ?never_iff by exact Hi; reflexivity.
Qed.
Lemma nonempty_iff {A} (l : list A) : l <> [] -> nonempty l = true.
Proof. destruct l; [congruence|reflexivity]. Qed.
Lemma one_comparison y : exists c, comparisons0 rows u t g y = [c] /\ cmp_est c = Fin (did_of_means rows d after y).
Proof.
  destruct H4 as (H00 & H01 & H10 & H11).
  assert (R0 : exists j, In j rows /\ c_never (g j) = true /\ (t j < k)%Z).
  { destruct (some_row 0 0 H00) as (j & Hj & Ed & Ep). exists j. split; [exact Hj|]. rewrite (never_iff j Hj). destruct (c_is (g j) k); cbn in Ed; [lra|]. split; [reflexivity|].
    destruct (Z.leb_spec k (t j)); cbn in Ep; [lra|assumption]. }
  assert (R1 : exists j, In j rows /\ c_is (g j) k = true /\ (k <= t j)%Z).
  { destruct (some_row 1 1 H11) as (j & Hj & Ed & Ep). exists j. split; [exact Hj|]. destruct (c_is (g j) k); cbn in Ed; [|lra]. split; [reflexivity|].
    destruct (Z.leb_spec k (t j)); cbn in Ep; [assumption|lra]. }
  destruct R0 as (j0 & J0 & N0 & T0), R1 as (j1 & J1 & N1 & T1).
  assert (Hn : Nat.ltb 0 (n_never rows u g) = true).
  { apply Nat.ltb_lt. destruct (n_never rows u g) eqn:E; [|lia]. pose proof (n_never_zero rows u g C HC j0 E J0). congruence. }
  unfold comparisons0, never_pairs. rewrite groups_one, Hn. cbn [timing_pairs flat_map]. rewrite !app_nil_r. unfold vs_never.
  rewrite (nonempty_iff (filter (fun i => c_is (g i) k) rows)) by (intros E; assert (X : In j1 (filter (fun i => c_is (g i) k) rows)) by (apply filter_In; auto); rewrite E in X; destruct X).
  rewrite (nonempty_iff (filter (fun i => c_never (g i)) rows)) by (intros E; assert (X : In j0 (filter (fun i => c_never (g i)) rows)) by (apply filter_In; auto); rewrite E in X; destruct X).
  cbn [negb orb].
  rewrite (nonempty_iff (pre_of rows t TreatedNever k None)).
  2:{ intros E. pose proof (mem_pre j0 J0) as X. rewrite E in X. cbn in X. destruct (Z.leb_spec k (t j0)); [lia|discriminate]. }
  rewrite (nonempty_iff (post_of rows t TreatedNever k None)).
  2:{ intros E. pose proof (mem_post j1 J1) as X. rewrite E in X. cbn in X. destruct (Z.leb_spec k (t j1)); [discriminate|lia]. }
  cbn [negb orb olist]. eexists. split; [reflexivity|]. cbn [cmp_est].
  pose proof (bcell true true) as B11. pose proof (bcell true false) as B10. pose proof (bcell false true) as B01. pose proof (bcell false false) as B00. cbn [ind] in B11, B10, B01, B00.
  rewrite B11, B10, B01, B00, !mean_shift by assumption. reflexivity.
Qed.
(* the two-way fixed effects coefficient of the decomposition is the same difference in differences, and the single comparison
   reproduces it with no error *)
Theorem bacon_one_date y exact :
  bo_twfe (bacon_fit rows u t g y exact) = did_of_means rows d after y /\ bo_error (bacon_fit rows u t g y exact) = Fin 0 /\
  exists c, bo_comparisons (bacon_fit rows u t g y exact) = [c] /\ cmp_weight c = 1 /\ cmp_est c = Fin (did_of_means rows d after y).
Proof.
  destruct (one_comparison y) as (c & Ec & Ee).
  destruct (fit_equal_estimates rows u t g m C Hbal HC Hvalid1 exact y (did_of_means rows d after y)) as [A B].
  - rewrite Ec. discriminate.
  - intros c' Hc. rewrite Ec in Hc. destruct Hc as [<-|[]]. exact Ee.
  - split; [exact A|]. split; [exact B|]. destruct (fit_weights rows u t g exact y) as [_ W]. destruct W as (_ & W & _); [rewrite Ec; discriminate|].
    revert W. cbn [bo_comparisons bacon_fit]. unfold normalised, reweighted. rewrite Ec. destruct exact; cbn [map]; destruct (Rlt_dec _ _); cbn [map sumf]; intros W; eexists; (split; [reflexivity|]); (split; [lra|]); exact Ee.
Qed.
End Bacon.

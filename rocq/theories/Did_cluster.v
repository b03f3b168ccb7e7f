(* Cluster-robust standard error of the two-by-two design in closed form. *)
From Coq Require Import Reals Lra Lia.
From Verif Require Import Prelude Flt Linalg_model Linalg_proofs Linalg_vcov Linalg_thms Linalg_dual Stats_proofs Did_model Did_spec Did_proofs Did_equiv Did_more Absorb_thms Absorb_ex.
From Coq Require Import Arith ZArith String List.
Import ListNotations.
Open Scope R_scope.

(* cluster g's contribution: deviations from the cell means, signed and divided by the cell sizes *)
Definition cl_score {I K} (keq : forall x y : K, {x = y} + {x <> y}) (rows : list I) (d t y : I -> R) (cl : I -> K) (g : K) : R :=
  let dev a b := sumf (fun i => y i - cell_mean rows d t y a b) (filter (fun i => keqb keq (cl i) g) (cell rows d t a b)) / len (cell rows d t a b) in
  (dev 1 1 - dev 1 0) - (dev 0 1 - dev 0 0).
Definition did_cl {I K} (keq : forall x y : K, {x = y} + {x <> y}) (rows : list I) (d t y : I -> R) (cl : I -> K) : R :=
  let G := INR (length (nodup keq (map cl rows))) in
  G / (G - 1) * ((len rows - 1) / (len rows - 4)) * sumf (fun g => cl_score keq rows d t y cl g * cl_score keq rows d t y cl g) (nodup keq (map cl rows)).

Section Cl.
Context {I K G : Type} (keq : forall x y : K, {x = y} + {x <> y}) (geq : forall x y : G, {x = y} + {x <> y}).
Variable qr : list I -> list (I -> R) -> list nat.
Variable lstsq : list I -> list (I -> R) -> (I -> R) -> list R.
Variable inv : list I -> list (I -> R) -> option (nat -> nat -> R).
Variable pinv : list I -> list (I -> R) -> nat -> nat -> R.
Variable sf : option Z -> fl -> fl.
Variable ppf : option Z -> R -> R.
Hypothesis Hqr : qr_ok qr.
Hypothesis Hls : lstsq_ok lstsq.
Hypothesis Hinv : inv_ok inv.
Hypothesis Hd : dist_ok sf ppf.
Notation fit := (did_fit keq geq qr lstsq inv pinv sf ppf).
Notation fR x := (fun i => toR (x i)).

Lemma cl_score_eq rows (d t y e : I -> R) cl g : zero_one rows d -> zero_one rows t -> (forall i, In i rows -> e i = y i - cell_mean rows d t y (d i) (t i)) ->
  sumf (fun i => did_q rows d t i * e i) (filter (fun i => keqb keq (cl i) g) rows) = cl_score keq rows d t y cl g.
Proof.
  intros Zd Zt He. rewrite sumf_filter, (cell_sum rows d t Zd Zt).
  assert (C : forall a b c, (forall i, d i = a -> t i = b -> did_q rows d t i = c) ->
    sumf (fun i => ind (keqb keq (cl i) g) * (did_q rows d t i * e i)) (cell rows d t a b) = c * sumf (fun i => y i - cell_mean rows d t y a b) (filter (fun i => keqb keq (cl i) g) (cell rows d t a b))).
  { intros a b c H. rewrite sumf_filter, <- sumf_scal. apply sumf_ext. intros i Hi. apply cell_in in Hi. destruct Hi as (Hi & Ea & Eb). rewrite H, He by easy. rewrite Ea, Eb. ring. }
  rewrite (C 0 0 (/ len (cell rows d t 0 0))) by (intros i Ed Et; unfold did_q; rewrite Ed, Et, Reqb_01; reflexivity).
  rewrite (C 0 1 (- / len (cell rows d t 0 1))) by (intros i Ed Et; unfold did_q; rewrite Ed, Et, Reqb_01, Reqb_refl; reflexivity).
  rewrite (C 1 0 (- / len (cell rows d t 1 0))) by (intros i Ed Et; unfold did_q; rewrite Ed, Et, Reqb_01, Reqb_refl; reflexivity).
  rewrite (C 1 1 (/ len (cell rows d t 1 1))) by (intros i Ed Et; unfold did_q; rewrite Ed, Et, Reqb_refl; reflexivity).
  unfold cl_score, Rdiv. ring.
Qed.

Theorem did_cluster_se cfg rows y d t cl r : fit cfg rows y d t [] [] [] = Ok r -> c_cluster cfg = Some cl -> four_cells rows (fR d) (fR t) ->
  r_se r = Fin (sqrt (did_cl keq rows (fR d) (fR t) (fR y) cl)) /\ 0 <= did_cl keq rows (fR d) (fR t) (fR y) cl.
Proof.
  intros H Hcl H4. destruct (did_fit_inv _ _ _ _ _ _ _ _ _ _ _ _ _ _ _ _ _ H) as (_ & _ & _ & _ & Zd & Zt & _).
  destruct (absorb_report keq geq qr lstsq inv pinv sf ppf Hqr Hls Hinv _ _ _ _ _ _ _ H H4) as (_ & _ & R3 & R4). cbn [absorb_loop fst] in R3.
  destruct (R4 ltac:(left; congruence)) as (S1 & S2 & _).
  assert (E : dual_var keq cfg rows 4 (did_q rows (fR d) (fR t)) (r_resid r) = did_cl keq rows (fR d) (fR t) (fR y) cl).
  { unfold dual_var. rewrite Hcl. cbn [adj_k score_ss]. unfold did_cl. change (cl_keys keq rows cl) with (nodup keq (map cl rows)). f_equal.
    - unfold len. replace (INR 4) with 4 by (simpl; lra). reflexivity.
    - apply sumf_ext_all. intros g. now rewrite (cl_score_eq rows (fR d) (fR t) (fR y) (r_resid r) cl g Zd Zt R3). }
  rewrite E in *. easy.
Qed.

(* clusters that contain whole cells of the design contribute nothing *)
Lemma cl_score_cells rows (d t y : I -> R) cl g : (forall i j, In i rows -> In j rows -> d i = d j -> t i = t j -> cl i = cl j) -> cl_score keq rows d t y cl g = 0.
Proof.
  intros Hc. unfold cl_score.
  assert (Z : forall a b, sumf (fun i => y i - cell_mean rows d t y a b) (filter (fun i => keqb keq (cl i) g) (cell rows d t a b)) = 0).
  { intros a b. destruct (cell rows d t a b) as [|i0 l] eqn:E; [easy|]. 
    assert (Hi0 : In i0 (cell rows d t a b)) by (rewrite E; now left).
    destruct (keqb keq (cl i0) g) eqn:Eg.
    - assert (X : filter (fun i => keqb keq (cl i) g) (i0 :: l) = i0 :: l).
      { rewrite <- E. clear E. apply cell_in in Hi0. assert (Y : forall i, In i (cell rows d t a b) -> keqb keq (cl i) g = true).
        { intros i Hi. apply cell_in in Hi. assert (Ec : cl i = cl i0) by (apply Hc; intuition congruence). now rewrite Ec. }
        revert Y. generalize (cell rows d t a b). induction l0 as [|x l0 IH]; intros Y; [easy|]. cbn [filter]. rewrite (Y x (or_introl eq_refl)). f_equal. apply IH. intros i Hi. apply Y. now right. }
      rewrite X, <- E. apply cell_dev.
    - rewrite sumf_filter. apply sumf_zero. intros i Hi. rewrite <- E in Hi. apply cell_in in Hi. apply cell_in in Hi0. assert (Ec : cl i = cl i0) by (apply Hc; intuition congruence). rewrite Ec, Eg. unfold ind. ring. }
  rewrite !Z. unfold Rdiv. ring.
Qed.

(* so clustering by treatment arm (or by any variable that is a function of arm and period) reports a standard error of exactly zero, whatever the data *)
Theorem cell_clusters_zero cfg rows y d t cl r : fit cfg rows y d t [] [] [] = Ok r -> c_cluster cfg = Some cl -> four_cells rows (fR d) (fR t) ->
  (forall i j, In i rows -> In j rows -> toR (d i) = toR (d j) -> toR (t i) = toR (t j) -> cl i = cl j) ->
  r_se r = Fin 0 /\ (r_att r <> Fin 0 -> r_p r = Fin 0 /\ (0 < c_alpha cfg -> r_signif r = true)) /\ r_ci r = (r_att r, r_att r).
Proof.
  intros H Hcl H4 Hc. destruct (did_cluster_se _ _ _ _ _ _ _ H Hcl H4) as (Se & _).
  assert (E : did_cl keq rows (fR d) (fR t) (fR y) cl = 0).
  { unfold did_cl. rewrite (sumf_zero _ (nodup keq (map cl rows))); [ring|]. intros g _. rewrite (cl_score_cells rows (fR d) (fR t) (fR y) cl g Hc). ring. }
  rewrite E, sqrt_0 in Se. split; [easy|].
  assert (Ea := did_att_is_did_of_means keq geq qr lstsq inv pinv sf ppf Hqr Hls _ _ _ _ _ _ H H4). set (b := did_of_means rows (fR d) (fR t) (fR y)) in *.
  destruct (did_fit_inv _ _ _ _ _ _ _ _ _ _ _ _ _ _ _ _ _ H) as (_ & _ & _ & _ & _ & _ & y' & covs' & n & reg & _ & _ & _ & (Hse & Ht & Hp & Hci & Hsig) & _).
  assert (Ev : l_vcov reg 3%nat 3%nat = Fin 0).
  { rewrite Hse in Se. unfold get_inference in Se; cbn [i_se] in Se. destruct (l_vcov reg 3%nat 3%nat) as [x| | |]; try (cbn in Se; discriminate). cbn [fsqrt] in Se.
    destruct (Rlt_dec x 0); [discriminate|]. injection Se as Se. apply sqrt_eq_0 in Se; [now rewrite Se|lra]. }
  rewrite Ev, Ea in *. destruct (inference_zero_se sf ppf Hd b None None (c_alpha cfg) (l_df reg)) as (Z1 & Z2).
  split.
  - intros Hb. assert (Nb : b <> 0) by congruence. destruct (Z1 Nb) as (P & _). rewrite P in *. split; [easy|]. intros Hal. rewrite Hsig. cbn [flt]. now apply Rltb_true.
  - rewrite Hci. destruct (Req_dec b 0) as [Eb|Nb]; [destruct (Z2 Eb) as (_ & _ & C)|destruct (Z1 Nb) as (_ & C & _)]; rewrite C; [now rewrite Eb|easy].
Qed.
End Cl.

(* a concrete clustered fit: the panel of Absorb_ex clustered by treatment arm, one arm per state *)
Theorem arm_cluster_case : exists r, a_fit (a_cfg (Some (fun i => if p_b i then 1 else 0)%nat)) p_rows p_y p_d p_t [] [] [] = Ok r /\
  r_att r = Fin 2 /\ r_se r = Fin 0 /\ r_p r = Fin 0 /\ r_ci r = (Fin 2, Fin 2) /\ r_signif r = true /\ r_resid r 7%nat = 3.
Proof.
  destruct (a_defined (Some (fun i => if p_b i then 1 else 0)%nat) p_rows p_yr p_b p_c [] p_g [] ltac:(vm_compute; lia) p_four ltac:(vm_compute; lia)) as [r E]. cbn [dummies map] in E. exists r. split; [exact E|].
  assert (Ed : did_of_means p_rows (fun i => toR (p_d i)) (fun i => toR (p_t i)) (fun i => toR (p_y i)) = 2).
  { change (did_of_means p_rows (fun i => ind (p_b i)) (fun i => ind (p_c i)) p_yr = 2). rewrite did_bool. cbv beta zeta.
    replace (filter (fun i => Bool.eqb (p_b i) true && Bool.eqb (p_c i) true) p_rows) with [5; 7]%nat by (vm_compute; reflexivity).
    replace (filter (fun i => Bool.eqb (p_b i) true && Bool.eqb (p_c i) false) p_rows) with [4; 6]%nat by (vm_compute; reflexivity).
    replace (filter (fun i => Bool.eqb (p_b i) false && Bool.eqb (p_c i) true) p_rows) with [1; 3]%nat by (vm_compute; reflexivity).
    replace (filter (fun i => Bool.eqb (p_b i) false && Bool.eqb (p_c i) false) p_rows) with [0; 2]%nat by (vm_compute; reflexivity).
    unfold meanf, len. cbn [sumf length INR p_yr]. field. }
  assert (A := did_att_is_did_of_means Nat.eq_dec Nat.eq_dec (@gs_dropped nat) (@gs nat) (@gs_inv nat) ex_pinv toy_sf toy_ppf gs_dropped_ok gs_ok _ _ _ _ _ _ E p_four).
  change (r_att r = Fin (did_of_means p_rows (fun i => toR (p_d i)) (fun i => toR (p_t i)) (fun i => toR (p_y i)))) in A. rewrite Ed in A.
  destruct (cell_clusters_zero Nat.eq_dec Nat.eq_dec (@gs_dropped nat) (@gs nat) (@gs_inv nat) ex_pinv toy_sf toy_ppf gs_dropped_ok gs_ok gs_inv_ok toy_dist_ok _ p_rows p_y p_d p_t _ r E eq_refl p_four) as (S1 & S2 & S3).
  { intros i j _ _ Hd _. cbn [p_d toR] in Hd. destruct (p_b i), (p_b j); cbn [ind] in Hd; try easy; lra. }
  rewrite A in *. destruct (S2 ltac:(intros X; injection X as X; lra)) as (P1 & P2). do 4 (split; [easy|]). split; [apply P2; cbn [a_cfg c_alpha]; lra|].
  destruct (absorb_report Nat.eq_dec Nat.eq_dec (@gs_dropped nat) (@gs nat) (@gs_inv nat) ex_pinv toy_sf toy_ppf gs_dropped_ok gs_ok gs_inv_ok _ p_rows p_y p_d p_t [] r E p_four) as (_ & _ & R3 & _).
  rewrite R3 by (cbn; tauto). cbn [absorb_loop map fst]. change (toR (p_d 7)) with 1. change (toR (p_t 7)) with 1. unfold cell_mean.
  assert (C := cell_bool p_rows p_b p_c true true : cell p_rows (fun i => toR (p_d i)) (fun i => toR (p_t i)) 1 1 = _). rewrite C.
  replace (filter (fun i => Bool.eqb (p_b i) true && Bool.eqb (p_c i) true) p_rows) with [5; 7]%nat by (vm_compute; reflexivity).
  unfold meanf, len. cbn [sumf length INR p_y p_yr toR]. field.
Qed.

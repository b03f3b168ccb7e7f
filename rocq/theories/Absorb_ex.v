(* Concrete panels for absorb= against fixed_effects=. *)
From Coq Require Import Reals Lra Lia.
From Verif Require Import Prelude Flt Linalg_model Linalg_proofs Linalg_vcov Linalg_thms Linalg_dual Stats_proofs Did_model Did_spec Did_proofs Did_equiv Did_more Absorb_thms.
From Coq Require Import Arith ZArith String List.
Import ListNotations.
Open Scope R_scope.

Lemma Reqb_ind b x : Reqb (ind b) (ind x) = Bool.eqb b x.
Proof. destruct b, x; cbn [ind Bool.eqb]; [apply Reqb_refl|apply Reqb_10|apply Reqb_01|apply Reqb_refl]. Qed.
Lemma cell_bool {I} (rows : list I) (b c : I -> bool) x z :
  cell rows (fun i => ind (b i)) (fun i => ind (c i)) (ind x) (ind z) = filter (fun i => Bool.eqb (b i) x && Bool.eqb (c i) z) rows.
Proof. unfold cell. apply filter_ext. intros i. now rewrite !Reqb_ind. Qed.
Lemma four_bool {I} (rows : list I) (b c : I -> bool) :
  (forall x z, filter (fun i => Bool.eqb (b i) x && Bool.eqb (c i) z) rows <> []) -> four_cells rows (fun i => ind (b i)) (fun i => ind (c i)).
Proof. intros H. unfold four_cells. repeat split; [change 0 with (ind false)|change 0 with (ind false); change 1 with (ind true)|change 0 with (ind false); change 1 with (ind true)|change 1 with (ind true)]; rewrite cell_bool; apply H. Qed.
Lemma zo_ind {I} (rows : list I) (b : I -> bool) : zero_one rows (fun i => ind (b i)).
Proof. intros i _. destruct (b i); cbn; auto. Qed.
Lemma did_bool {I} (rows : list I) (b c : I -> bool) y :
  did_of_means rows (fun i => ind (b i)) (fun i => ind (c i)) y =
  let m x z := meanf y (filter (fun i => Bool.eqb (b i) x && Bool.eqb (c i) z) rows) in (m true true - m true false) - (m false true - m false false).
Proof. cbv beta zeta. rewrite <- (cell_bool rows b c true true), <- (cell_bool rows b c true false), <- (cell_bool rows b c false true), <- (cell_bool rows b c false false). reflexivity. Qed.
Lemma kept_le k D : (length (kept_cols k D) <= k)%nat.
Proof.
  unfold kept_cols. rewrite <- (seq_length k 0) at 2. generalize (seq 0 k). induction l as [|x l IH]; [easy|]. cbn [filter]. destruct (negb _); cbn [length]; lia.
Qed.

Definition a_fit := did_fit Nat.eq_dec Nat.eq_dec (@gs_dropped nat) (@gs nat) (@gs_inv nat) ex_pinv toy_sf toy_ppf.
Definition a_cfg (cl : option (nat -> nat)) : did_config nat nat := {| c_robust := true; c_cluster := cl; c_alpha := 5/100; c_action := "warn" |}.

(* four units observed before and after, units 2 and 3 treated *)
Definition p_rows : list nat := seq 0 8.
Definition p_g (i : nat) : nat := (i / 2)%nat.
Definition p_b (i : nat) : bool := negb (i <? 4)%nat.
Definition p_c (i : nat) : bool := Nat.odd i.
Definition p_d (i : nat) : fl := Fin (ind (p_b i)).
Definition p_t (i : nat) : fl := Fin (ind (p_c i)).
Definition p_yr (i : nat) : R := match i with 3%nat => 2 | 7%nat => 6 | _ => 0 end.
Definition p_y (i : nat) : fl := Fin (p_yr i).

Lemma p_four : four_cells p_rows (fun i => toR (p_d i)) (fun i => toR (p_t i)).
Proof. apply (four_bool p_rows p_b p_c). intros [|] [|]; vm_compute; discriminate. Qed.
Lemma p_balanced : balanced Nat.eq_dec p_rows (fun i => toR (p_d i)) (fun i => toR (p_t i)) p_g 1 1.
Proof.
  split; [lra|]. split; [lra|]. intros i Hi.
  assert (F : forall z, filter (fun j => keqb Nat.eq_dec (p_g j) (p_g i) && Reqb (toR (p_t j)) (ind z)) p_rows = filter (fun j => (p_g j =? p_g i)%nat && Bool.eqb (p_c j) z) p_rows).
  { intros z. apply filter_ext. intros j. cbn [p_t toR]. rewrite Reqb_ind. f_equal. destruct (p_g j =? p_g i)%nat eqn:E; [apply Nat.eqb_eq in E; now apply keqb_true|apply Nat.eqb_neq in E; now apply keqb_false]. }
  assert (F0 := F false). assert (F1 := F true). cbn [ind] in F0, F1. clear F. split; [|split].
  - intros j Hj E. cbn [p_d toR]. f_equal. 
    assert (T : forallb (fun i => forallb (fun j => negb (p_g j =? p_g i)%nat || Bool.eqb (p_b j) (p_b i)) p_rows) p_rows = true) by (vm_compute; reflexivity).
    rewrite forallb_forall in T. specialize (T i Hi). rewrite forallb_forall in T. specialize (T j Hj). rewrite E, Nat.eqb_refl in T. cbn [negb orb] in T. now apply Bool.eqb_prop in T.
  - rewrite F0. assert (T : forallb (fun i => (length (filter (fun j => (p_g j =? p_g i)%nat && Bool.eqb (p_c j) false) p_rows) =? 1)%nat) p_rows = true) by (vm_compute; reflexivity).
    rewrite forallb_forall in T. specialize (T i Hi). apply Nat.eqb_eq in T. unfold len. now rewrite T.
  - rewrite F1. assert (T : forallb (fun i => (length (filter (fun j => (p_g j =? p_g i)%nat && Bool.eqb (p_c j) true) p_rows) =? 1)%nat) p_rows = true) by (vm_compute; reflexivity).
    rewrite forallb_forall in T. specialize (T i Hi). apply Nat.eqb_eq in T. unfold len. now rewrite T.
Qed.

Lemma finite_ind rows (b : nat -> bool) : finite_col rows (fun i => Fin (ind (b i))). Proof. intros i _. eauto. Qed.
Definition clusters_ok (rows : list nat) (cl : option (nat -> nat)) : Prop := match cl with Some c => (2 <= length (cl_keys Nat.eq_dec rows c))%nat | None => True end.

Lemma a_defined cl rows y b c ks g absorb : clusters_ok rows cl -> four_cells rows (fun i => ind (b i)) (fun i => ind (c i)) -> (4 + length ks < length rows)%nat ->
  exists r, a_fit (a_cfg cl) rows (fun i => Fin (y i)) (fun i => Fin (ind (b i))) (fun i => Fin (ind (c i))) [] (dummies Nat.eq_dec g ks) absorb = Ok r.
Proof.
  intros Hcl H4 Hn. apply (did_fit_defined_fe Nat.eq_dec Nat.eq_dec (@gs_dropped nat) (@gs nat) (@gs_inv nat) ex_pinv toy_sf toy_ppf gs_dropped_ok gs_inv_ok); try apply finite_ind; try apply zo_ind; try easy.
  - intros i _. eauto.
  - unfold dummies. rewrite map_length. lia.
  - unfold dummies. rewrite map_length. eapply Nat.le_lt_trans; [apply kept_le|]. lia.
  - intros c0 E. cbn in E. subst cl. exact Hcl.
Qed.

(* both fits succeed on the panel, agree on the estimate 2, and differ by a factor sqrt 2 in the standard error *)
Theorem panel_case : exists ra rf sa,
  a_fit (a_cfg None) p_rows p_y p_d p_t [] [] [p_g] = Ok ra /\ a_fit (a_cfg None) p_rows p_y p_d p_t [] (dummies Nat.eq_dec p_g [1; 2; 3]%nat) [] = Ok rf /\
  r_att ra = Fin 2 /\ r_att rf = Fin 2 /\ 0 < sa /\ r_se ra = Fin sa /\ r_se rf = Fin (sqrt 2 * sa).
Proof.
  destruct (a_defined None p_rows p_yr p_b p_c [] p_g [p_g] Logic.I p_four ltac:(vm_compute; lia)) as [ra Ea].
  destruct (a_defined None p_rows p_yr p_b p_c [1; 2; 3]%nat p_g [] Logic.I p_four ltac:(vm_compute; lia)) as [rf Ef].
  cbn [dummies map] in Ea. exists ra, rf.
  assert (Sw : sandwiched (a_cfg None)) by now right.
  assert (Nd : NoDup [0; 1; 2; 3]%nat) by (repeat constructor; cbn; intuition lia).
  assert (Hk : forall k, In k [0; 1; 2; 3]%nat <-> In k (map p_g p_rows)) by (intros k; replace (map p_g p_rows) with [0; 0; 1; 1; 2; 2; 3; 3]%nat by (vm_compute; reflexivity); cbn [In]; tauto).
  assert (E2 : len p_rows = 2 * len [0; 1; 2; 3]%nat) by (unfold len, p_rows; rewrite seq_length; simpl; lra).
  destruct (two_row_ratio Nat.eq_dec Nat.eq_dec (@gs_dropped nat) (@gs nat) (@gs_inv nat) ex_pinv toy_sf toy_ppf gs_dropped_ok gs_ok gs_inv_ok (a_cfg None) p_rows p_y p_d p_t p_g 1 1 ra rf 0%nat [1; 2; 3]%nat p_balanced p_four Nd Hk Sw E2 Ea Ef) as (sa & Ps & Sa & Sf).
  assert (Gc : forall c, In c (dummies Nat.eq_dec p_g [1; 2; 3]%nat) -> forall i j, In i p_rows -> In j p_rows -> p_g i = p_g j -> c i = c j).
  { intros c Hin i j _ _ E. unfold dummies in Hin. apply in_map_iff in Hin. destruct Hin as (k & <- & _). now rewrite E. }
  destruct (balanced_att Nat.eq_dec Nat.eq_dec (@gs_dropped nat) (@gs nat) (@gs_inv nat) ex_pinv toy_sf toy_ppf gs_dropped_ok gs_ok gs_inv_ok (a_cfg None) (a_cfg None) p_rows p_y p_d p_t p_g 1 1 ra rf (dummies Nat.eq_dec p_g [1; 2; 3]%nat) p_balanced p_four Gc Ea Ef) as (A1 & A2).
  assert (Ed : did_of_means p_rows (fun i => toR (p_d i)) (fun i => toR (p_t i)) (fun i => toR (p_y i)) = 2).
  { change (did_of_means p_rows (fun i => ind (p_b i)) (fun i => ind (p_c i)) p_yr = 2). rewrite did_bool. cbv beta zeta.
    replace (filter (fun i => Bool.eqb (p_b i) true && Bool.eqb (p_c i) true) p_rows) with [5; 7]%nat by (vm_compute; reflexivity).
    replace (filter (fun i => Bool.eqb (p_b i) true && Bool.eqb (p_c i) false) p_rows) with [4; 6]%nat by (vm_compute; reflexivity).
    replace (filter (fun i => Bool.eqb (p_b i) false && Bool.eqb (p_c i) true) p_rows) with [1; 3]%nat by (vm_compute; reflexivity).
    replace (filter (fun i => Bool.eqb (p_b i) false && Bool.eqb (p_c i) false) p_rows) with [0; 2]%nat by (vm_compute; reflexivity).
    unfold meanf, len. cbn [sumf length INR p_yr]. field. }
  rewrite Ed in A1, A2. exists sa. do 4 (split; [easy|]). split; [|easy].
  destruct Ps as [Ps|Ps]; [easy|]. exfalso. subst sa.
  (* a zero standard error would make every score zero, but row 7 has a non-zero residual *)
  destruct (absorb_report Nat.eq_dec Nat.eq_dec (@gs_dropped nat) (@gs nat) (@gs_inv nat) ex_pinv toy_sf toy_ppf gs_dropped_ok gs_ok gs_inv_ok (a_cfg None) p_rows p_y p_d p_t [p_g] ra Ea p_four) as (_ & _ & R3 & R4).
  destruct (R4 Sw) as (S1 & S2 & _). rewrite Sa in S1. injection S1 as S1. symmetry in S1. apply sqrt_eq_0 in S1; [|easy].
  unfold dual_var, adj_k, score_ss in S1. cbn [a_cfg c_cluster] in S1. apply Rmult_integral in S1. destruct S1 as [S1|S1].
  - unfold p_rows in S1. rewrite seq_length in S1. simpl in S1. lra.
  - assert (Z := fun P => sumf_nonneg_0 _ _ P S1). cbv beta in Z.
    specialize (Z ltac:(intros; apply Rle_0_sqr) 7%nat ltac:(cbn; tauto)). cbv beta in Z. apply Rmult_integral in Z.
    assert (Q7 : did_q p_rows (fun i => toR (p_d i)) (fun i => toR (p_t i)) 7%nat = / 2).
    { unfold did_q. change (toR (p_d 7)) with 1. change (toR (p_t 7)) with 1. rewrite Reqb_refl.
      assert (C := cell_bool p_rows p_b p_c true true : cell p_rows (fun i => toR (p_d i)) (fun i => toR (p_t i)) 1 1 = _). rewrite C.
      replace (filter (fun i => Bool.eqb (p_b i) true && Bool.eqb (p_c i) true) p_rows) with [5; 7]%nat by (vm_compute; reflexivity). unfold len. simpl. f_equal. }
    assert (R7 : r_resid ra 7%nat = 3 / 2).
    { rewrite R3 by (cbn; tauto). cbn [absorb_loop map fst]. change (toR (p_d 7)) with 1. change (toR (p_t 7)) with 1. unfold cell_mean.
      assert (C := cell_bool p_rows p_b p_c true true : cell p_rows (fun i => toR (p_d i)) (fun i => toR (p_t i)) 1 1 = _). rewrite C.
      replace (filter (fun i => Bool.eqb (p_b i) true && Bool.eqb (p_c i) true) p_rows) with [5; 7]%nat by (vm_compute; reflexivity).
      assert (M : forall i l, filter (fun j => keqb Nat.eq_dec (p_g j) (p_g i)) p_rows = l -> demean Nat.eq_dec p_rows p_g (fun i => toR (p_y i)) i = p_yr i - meanf p_yr l).
      { intros i l E. unfold demean, group_mean. now rewrite E. }
      unfold meanf at 1, len. cbn [sumf length INR]. rewrite (M 5%nat [4; 5]%nat ltac:(vm_compute; reflexivity)), (M 7%nat [6; 7]%nat ltac:(vm_compute; reflexivity)).
      unfold meanf, len. cbn [sumf length INR p_yr]. field. }
    change (did_q p_rows (fun i => ind (p_b i)) (fun i => ind (p_c i)) 7%nat = / 2) in Q7.
    destruct Z as [Z|Z]; apply Rmult_integral in Z; destruct Z as [Z|Z]; [rewrite Q7 in Z|rewrite R7 in Z|rewrite Q7 in Z|rewrite R7 in Z]; lra.
Qed.

(* an unbalanced panel: unit 0 control, unit 1 treated, both observed twice before and twice after; unit 2 treated, observed only after, with a
   level ten higher.  The outcome is the unit level plus 4 on treated rows after. *)
Definition b_rows : list nat := seq 0 10.
Definition b_g (i : nat) : nat := (i / 4)%nat.
Definition b_b (i : nat) : bool := negb (i <? 4)%nat.
Definition b_c (i : nat) : bool := existsb (Nat.eqb i) [2; 3; 6; 7; 8; 9]%nat.
Definition b_yr (i : nat) : R := match i with 6%nat | 7%nat => 4 | 8%nat | 9%nat => 14 | _ => 0 end.
Notation b_y := (fun i => Fin (b_yr i)).
Notation b_d := (fun i => Fin (ind (b_b i))).
Notation b_t := (fun i => Fin (ind (b_c i))).
Lemma b_four : four_cells b_rows (fun i => ind (b_b i)) (fun i => ind (b_c i)).
Proof. apply four_bool. intros [|] [|]; vm_compute; discriminate. Qed.
Definition b_q (i : nat) : R := match i with 0%nat | 1%nat => 1/2 | 2%nat | 3%nat => - (1/2) | 4%nat | 5%nat => - (1/2) | 6%nat | 7%nat => 1/2 | _ => 0 end.
Lemma b_dual : dual b_rows (did_design (fun i => ind (b_b i)) (fun i => ind (b_c i)) (dummies Nat.eq_dec b_g [1; 2]%nat)) 3 b_q.
Proof.
  split; [vm_compute; lia|]. split.
  - exists [1/2; 0; -1; 2; -1; - (3/2)]. split; [reflexivity|]. intros i Hi. apply in_seq in Hi. unfold dummies, did_design. cbn [map lc].
    do 10 (destruct i as [|i]; [cbn -[Rplus Rmult Rdiv]; lra|]). lia.
  - intros a Ha. unfold ip, b_rows. cbn [seq sumf]. destruct a as [|[|[|[|[|[|a]]]]]]; [| | | | | |exfalso; vm_compute in Ha; lia]; unfold colx, did_design, dummies; cbn -[Rplus Rmult Rdiv]; lra.
Qed.
Theorem unbalanced_case : exists ra rf rp,
  a_fit (a_cfg None) b_rows b_y b_d b_t [] [] [b_g] = Ok ra /\ a_fit (a_cfg None) b_rows b_y b_d b_t [] (dummies Nat.eq_dec b_g [1; 2]%nat) [] = Ok rf /\
  a_fit (a_cfg None) b_rows b_y b_d b_t [] [] [] = Ok rp /\ r_att ra = Fin 3 /\ r_att rf = Fin 4 /\ r_att rp = Fin 9.
Proof.
  destruct (a_defined None b_rows b_yr b_b b_c [] b_g [b_g] Logic.I b_four ltac:(vm_compute; lia)) as [ra Ea].
  destruct (a_defined None b_rows b_yr b_b b_c [1; 2]%nat b_g [] Logic.I b_four ltac:(vm_compute; lia)) as [rf Ef].
  destruct (a_defined None b_rows b_yr b_b b_c [] b_g [] Logic.I b_four ltac:(vm_compute; lia)) as [rp Ep].
  cbn [dummies map] in Ea, Ep. exists ra, rf, rp. do 3 (split; [easy|]).
  assert (C11 := fun y => did_bool b_rows b_b b_c y). cbv beta zeta in C11.
  replace (filter (fun i => Bool.eqb (b_b i) true && Bool.eqb (b_c i) true) b_rows) with [6; 7; 8; 9]%nat in C11 by (vm_compute; reflexivity).
  replace (filter (fun i => Bool.eqb (b_b i) true && Bool.eqb (b_c i) false) b_rows) with [4; 5]%nat in C11 by (vm_compute; reflexivity).
  replace (filter (fun i => Bool.eqb (b_b i) false && Bool.eqb (b_c i) true) b_rows) with [2; 3]%nat in C11 by (vm_compute; reflexivity).
  replace (filter (fun i => Bool.eqb (b_b i) false && Bool.eqb (b_c i) false) b_rows) with [0; 1]%nat in C11 by (vm_compute; reflexivity).
  assert (M : forall i l, filter (fun j => keqb Nat.eq_dec (b_g j) (b_g i)) b_rows = l -> group_mean Nat.eq_dec b_rows b_g b_yr i = meanf b_yr l).
  { intros i l E. unfold group_mean. now rewrite E. }
  split; [|split].
  - assert (X := absorb_one_att Nat.eq_dec Nat.eq_dec (@gs_dropped nat) (@gs nat) (@gs_inv nat) ex_pinv toy_sf toy_ppf gs_dropped_ok gs_ok gs_inv_ok (a_cfg None) b_rows b_y b_d b_t b_g ra Ea b_four).
    rewrite X. apply (f_equal Fin). change (did_of_means b_rows (fun i => ind (b_b i)) (fun i => ind (b_c i)) b_yr - did_of_means b_rows (fun i => ind (b_b i)) (fun i => ind (b_c i)) (group_mean Nat.eq_dec b_rows b_g b_yr) = 3).
    rewrite !C11. unfold meanf, len. cbn [sumf length INR].
    rewrite !(M 0%nat [0; 1; 2; 3]%nat), !(M 1%nat [0; 1; 2; 3]%nat), !(M 2%nat [0; 1; 2; 3]%nat), !(M 3%nat [0; 1; 2; 3]%nat), !(M 4%nat [4; 5; 6; 7]%nat), !(M 5%nat [4; 5; 6; 7]%nat), !(M 6%nat [4; 5; 6; 7]%nat), !(M 7%nat [4; 5; 6; 7]%nat), !(M 8%nat [8; 9]%nat), !(M 9%nat [8; 9]%nat) by (vm_compute; reflexivity).
    unfold meanf, len. cbn [sumf length INR b_yr]. field.
  - destruct (did_fit_dual Nat.eq_dec Nat.eq_dec (@gs_dropped nat) (@gs nat) (@gs_inv nat) ex_pinv toy_sf toy_ppf gs_dropped_ok gs_ok gs_inv_ok (a_cfg None) b_rows b_y b_d b_t [] (dummies Nat.eq_dec b_g [1; 2]%nat) [] rf b_yr [] 0%Z b_q Ef eq_refl b_dual) as (X & _).
    rewrite X. apply (f_equal Fin). unfold ip, b_rows. cbn [seq sumf b_q b_yr]. lra.
  - assert (X := did_att_is_did_of_means Nat.eq_dec Nat.eq_dec (@gs_dropped nat) (@gs nat) (@gs_inv nat) ex_pinv toy_sf toy_ppf gs_dropped_ok gs_ok (a_cfg None) b_rows b_y b_d b_t rp Ep b_four).
    rewrite X. apply (f_equal Fin). change (did_of_means b_rows (fun i => ind (b_b i)) (fun i => ind (b_c i)) b_yr = 9). rewrite C11. unfold meanf, len. cbn [sumf length INR b_yr]. field.
Qed.

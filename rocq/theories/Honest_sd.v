(* HonestDiD: the smoothness restriction. *)
From Verif Require Import Prelude Flt Linalg_model Linalg_proofs Did_equiv Lp Multi_model Results_model Honest_model Honest_proofs.
From Coq Require Import Arith ZArith String List Lia Lra.
Import ListNotations.
Open Scope R_scope.

Lemma ldot_map_seq f n : forall s x, length x = n ->
  ldot (map f (seq s n)) x = sumf (fun j => f (s + j)%nat * nth j x 0) (seq 0 n).
Proof.
  induction n as [|n IH]; intros s x L; [reflexivity|].
  destruct x as [|a x]; [discriminate|]. simpl seq. cbn [map ldot sumf nth]. rewrite IH by (simpl in L; lia).
  replace (s + 0)%nat with s by lia. f_equal.
  rewrite <- seq_shift, sumf_map. apply sumf_ext. intros j _. replace (S s + j)%nat with (s + S j)%nat by lia. reflexivity.
Qed.
Lemma pick_seq (g : nat -> R) a n i : (i < n)%nat ->
  sumf (fun j => (if Nat.eqb j i then a else 0) * g j) (seq 0 n) = a * g i.
Proof.
  intros H. assert (E : forall s, sumf (fun j => (if Nat.eqb j i then a else 0) * g j) (seq s n)
                        = if (Nat.leb s i && Nat.ltb i (s + n))%bool then a * g i else 0).
  { clear H. induction n as [|n IH]; intros s; simpl seq.
    - simpl. destruct (Nat.leb s i) eqn:E1; simpl; auto. apply Nat.leb_le in E1.
      destruct (Nat.ltb i (s + 0)) eqn:E2; auto. apply Nat.ltb_lt in E2. lia.
    - cbn [sumf]. rewrite IH. destruct (Nat.eqb_spec s i) as [->|N].
      + replace (Nat.leb (S i) i) with false by (symmetry; apply Nat.leb_gt; lia).
        replace (Nat.leb i i && Nat.ltb i (i + S n))%bool with true; [simpl; ring|].
        symmetry. apply andb_true_intro. split; [apply Nat.leb_le|apply Nat.ltb_lt]; lia.
      + replace (Nat.leb (S s) i && Nat.ltb i (S s + n))%bool with (Nat.leb s i && Nat.ltb i (s + S n))%bool; [ring|].
        replace (s + S n)%nat with (S s + n)%nat by lia. f_equal.
        destruct (Nat.leb_spec (S s) i), (Nat.leb_spec s i); auto; lia. }
  rewrite E. replace (Nat.leb 0 i && Nat.ltb i (0 + n))%bool with true; auto.
  symmetry. apply andb_true_intro. split; [apply Nat.leb_le|apply Nat.ltb_lt]; lia.
Qed.

Lemma sd_row_length n i : length (sd_row n i) = n.
Proof. unfold sd_row. rewrite map_length, seq_length. reflexivity. Qed.

Theorem sd_row_dot n i x : length x = n -> (i + 2 < n)%nat ->
  ldot (sd_row n i) x = nth i x 0 - 2 * nth (i + 1) x 0 + nth (i + 2) x 0.
Proof.
  intros L H. unfold sd_row. rewrite ldot_map_seq by auto.
  rewrite (sumf_ext _ (fun j => ((if Nat.eqb j i then 1 else 0) * nth j x 0 + (if Nat.eqb j (i + 1) then -2 else 0) * nth j x 0)
                               + (if Nat.eqb j (i + 2) then 1 else 0) * nth j x 0)).
  - rewrite !sumf_add, !pick_seq by lia. ring.
  - intros j _. simpl. destruct (Nat.eqb_spec j i), (Nat.eqb_spec j (i + 1)), (Nat.eqb_spec j (i + 2)); try lia; ring.
Qed.

(* the second difference at position i *)
Definition diff2 (x : list R) (i : nat) : R := nth i x 0 - 2 * nth (i + 1) x 0 + nth (i + 2) x 0.

Theorem cons_sd_iff npre npost M x : length x = (npre + npost)%nat ->
  (Forall (sat x) (cons_sd npre npost M) <-> forall i, (i + 2 < npre + npost)%nat -> Rabs (diff2 x i) <= M).
Proof.
  intros L. unfold cons_sd, A_sd. set (n := (npre + npost)%nat) in *.
  destruct (Nat.ltb_spec n 3) as [H|H].
  - simpl. split; [intros _ i Hi; lia|constructor].
  - rewrite Forall_app, !Forall_forall. split.
    + intros [H1 H2] i Hi. specialize (H1 (sd_row n i, M)). specialize (H2 (map Ropp (sd_row n i), M)).
      assert (A1 : sat x (sd_row n i, M)).
      { apply H1. apply in_map_iff. exists (sd_row n i). split; auto. apply in_map_iff. exists i. split; auto. apply in_seq. lia. }
      assert (A2 : sat x (map Ropp (sd_row n i), M)).
      { apply H2. apply in_map_iff. exists (sd_row n i). split; auto. apply in_map_iff. exists i. split; auto. apply in_seq. lia. }
      unfold sat in *. cbn [fst snd] in *. rewrite ldot_opp in A2. rewrite sd_row_dot in * by lia. unfold diff2. apply Rabs_le. lra.
    + intros H0. split; intros r Hr; apply in_map_iff in Hr as (q & <- & Hq); apply in_map_iff in Hq as (i & <- & Hi); apply in_seq in Hi;
        specialize (H0 i ltac:(lia)); apply Rabs_le_inv in H0; unfold sat; cbn [fst snd]; rewrite ?ldot_opp, sd_row_dot by lia; unfold diff2 in H0; lra.
Qed.

Lemma cons_sd_wide npre npost M : wide (npre + npost) (cons_sd npre npost M).
Proof.
  unfold wide, cons_sd, A_sd. destruct (Nat.ltb _ 3); [constructor|]. rewrite Forall_app, !Forall_forall.
  split; intros r Hr; apply in_map_iff in Hr as (q & <- & Hq); apply in_map_iff in Hq as (i & <- & Hi); cbn [fst];
    rewrite ?map_length, sd_row_length; reflexivity.
Qed.
Lemma cons_sd_nil npre npost M : cons_sd npre npost M = [] <-> (npre + npost < 3)%nat.
Proof.
  unfold cons_sd, A_sd. destruct (Nat.ltb_spec (npre + npost) 3); [simpl; tauto|].
  split; [|lia]. intros E. apply app_eq_nil in E as [E _]. apply map_eq_nil, map_eq_nil in E.
  destruct (npre + npost)%nat as [|[|[|k]]]; try lia. discriminate.
Qed.

Lemma lp_cost_length npre l : length (lp_cost npre l) = (npre + length l)%nat.
Proof. unfold lp_cost. rewrite app_length, repeat_length, map_length. reflexivity. Qed.
Lemma lp_cost_dot npre l x : length x = (npre + length l)%nat -> ldot (lp_cost npre l) x = - ldot l (skipn npre x).
Proof.
  intros L. unfold lp_cost. rewrite <- (firstn_skipn npre x) at 1.
  rewrite ldot_app by (rewrite repeat_length, firstn_length; lia). rewrite ldot_repeat0, ldot_opp. ring.
Qed.

Definition suml (l : list R) : R := sumf idR l.
Definition moml (l : list R) : R := sumf (fun i => INR i * nth i l 0) (seq 0 (length l)).

Lemma ldot_const l k : ldot l (repeat k (length l)) = k * suml l.
Proof. unfold suml. induction l as [|a l IH]; simpl; [ring|]. rewrite IH. unfold idR. ring. Qed.

(* a + k (s + j), j = 0..n-1 *)
Definition line (a k : R) (s n : nat) : list R := map (fun j => a + k * INR j) (seq s n).
Lemma line_length a k s n : length (line a k s n) = n.
Proof. unfold line. rewrite map_length, seq_length. reflexivity. Qed.
Lemma line_nth a k s n i : (i < n)%nat -> nth i (line a k s n) 0 = a + k * INR (s + i).
Proof.
  intros H. unfold line. rewrite (nth_indep _ 0 (a + k * INR 0)) by (rewrite map_length, seq_length; auto).
  rewrite (map_nth (fun j => a + k * INR j)), seq_nth by auto. reflexivity.
Qed.
Lemma line_skip a k s n m : skipn m (line a k s (m + n)) = line a k (s + m) n.
Proof.
  unfold line. rewrite skipn_map. f_equal. revert s. induction m as [|m IH]; intros s; [simpl; f_equal; lia|].
  simpl. rewrite IH. f_equal. lia.
Qed.
Lemma ldot_nth l x : length x = length l -> ldot l x = sumf (fun i => nth i l 0 * nth i x 0) (seq 0 (length l)).
Proof.
  intros L. assert (E : l = map (fun i => nth i l 0) (seq 0 (length l))).
  { clear. induction l as [|a l IH]; [reflexivity|]. simpl. f_equal. rewrite IH at 1. rewrite <- seq_shift, map_map. reflexivity. }
  rewrite E at 1. rewrite ldot_map_seq by auto. reflexivity.
Qed.
Lemma suml_nth l : suml l = sumf (fun i => nth i l 0) (seq 0 (length l)).
Proof.
  unfold suml. induction l as [|a l IH]; [reflexivity|]. simpl. unfold idR at 1. f_equal. rewrite IH, <- seq_shift, sumf_map. reflexivity.
Qed.
Lemma ldot_line l a k s : ldot l (line a k s (length l)) = (a + k * INR s) * suml l + k * moml l.
Proof.
  rewrite ldot_nth by apply line_length. rewrite suml_nth. unfold moml.
  rewrite (sumf_ext _ (fun i => (a + k * INR s) * nth i l 0 + k * (INR i * nth i l 0))).
  - rewrite sumf_add, !sumf_scal. reflexivity.
  - intros i Hi. apply in_seq in Hi. rewrite line_nth by lia. rewrite plus_INR. ring.
Qed.

Lemma line_feasible a k npre npost M : 0 <= M ->
  feasible (npre + npost) (cons_sd npre npost M) (line a k 0 (npre + npost)).
Proof.
  intros HM. split; [apply line_length|]. apply cons_sd_iff; [apply line_length|]. intros i Hi.
  unfold diff2. rewrite !line_nth by lia. simpl. rewrite !plus_INR. simpl.
  match goal with |- Rabs ?e <= _ => replace e with 0 by ring end. rewrite Rabs_R0. auto.
Qed.

(* weights orthogonal to constants and to linear trends *)
Lemma curve_bound x n M : length x = n -> (forall i, (i + 2 < n)%nat -> Rabs (diff2 x i) <= M) -> 0 <= M ->
  forall j, (j < n)%nat ->
    Rabs (nth j x 0 - (nth 0 x 0 + (nth 1 x 0 - nth 0 x 0) * INR j)) <= M * (INR j * INR j).
Proof.
  intros L H HM.
  assert (D : forall j, (j + 1 < n)%nat -> Rabs (nth (j + 1) x 0 - nth j x 0 - (nth 1 x 0 - nth 0 x 0)) <= M * INR j).
  { induction j as [|j IH]; intros Hj.
    - simpl. match goal with |- Rabs ?e <= _ => replace e with 0 by ring end. rewrite Rabs_R0. lra.
    - specialize (IH ltac:(lia)). specialize (H j ltac:(lia)). unfold diff2 in H. rewrite S_INR.
      replace (S j + 1)%nat with (j + 2)%nat by lia. replace (S j) with (j + 1)%nat by lia.
      apply Rabs_le_inv in IH. apply Rabs_le_inv in H. apply Rabs_le. lra. }
  induction j as [|j IH]; intros Hj.
  - simpl. match goal with |- Rabs ?e <= _ => replace e with 0 by ring end. rewrite Rabs_R0. lra.
  - specialize (IH ltac:(lia)). specialize (D j ltac:(lia)). rewrite S_INR. replace (j + 1)%nat with (S j) in D by lia.
    pose proof (pos_INR j). assert (0 <= M * INR j) by (apply Rmult_le_pos; auto).
    apply Rabs_le_inv in IH. apply Rabs_le_inv in D. apply Rabs_le. nra.
Qed.

Lemma ldot_abs_bound l x B : length x = length l -> (forall i, (i < length l)%nat -> Rabs (nth i x 0) <= B) ->
  Rabs (ldot l x) <= norm1 l * B.
Proof.
  intros L H. apply ldot_box; auto. rewrite Forall_forall. intros y Hy. apply (In_nth _ _ 0) in Hy as (i & Hi & <-). apply H. lia.
Qed.

Lemma nth_skipn {A} (l : list A) n i d : nth i (skipn n l) d = nth (n + i) l d.
Proof. revert n. induction l as [|a l IH]; intros [|n]; simpl; auto. destruct i; auto. Qed.

Theorem smooth_objective_bounded npre l M x :
  suml l = 0 -> moml l = 0 -> 0 <= M -> feasible (npre + length l) (cons_sd npre (length l) M) x ->
  Rabs (ldot l (skipn npre x)) <= norm1 l * (M * (INR (npre + length l) * INR (npre + length l))).
Proof.
  intros S0 M0 HM [L F]. set (n := (npre + length l)%nat) in *. pose proof (proj1 (cons_sd_iff npre (length l) M x L) F) as F'. clear F. rename F' into F.
  set (a := nth 0 x 0). set (k := nth 1 x 0 - nth 0 x 0).
  assert (E : ldot l (skipn npre x) = ldot l (vadd (skipn npre x) (vscal (-1) (line a k npre (length l))))).
  { rewrite ldot_sub by (rewrite skipn_length, line_length; lia). rewrite ldot_line, S0, M0. ring. }
  rewrite E. apply ldot_abs_bound.
  - rewrite (vadd_length _ _ (length l)); [reflexivity|rewrite skipn_length; lia|rewrite vscal_length; apply line_length].
  - intros i Hi.
    assert (En : nth i (vadd (skipn npre x) (vscal (-1) (line a k npre (length l)))) 0
                 = nth (npre + i) x 0 - (a + k * INR (npre + i))).
    { rewrite vadd_nth by (rewrite vscal_length, line_length, skipn_length; lia).
      rewrite vscal_nth. rewrite line_nth by auto. rewrite nth_skipn. ring. }
    rewrite En. unfold a, k. eapply Rle_trans; [apply (curve_bound x n M L F HM); lia|].
    apply Rmult_le_compat_l; auto. assert (INR (npre + i) <= INR n) by (apply le_INR; lia). pose proof (pos_INR (npre + i)). nra.
Qed.

Section SD.
Variable lp : nat -> list con -> list R -> option R.
Variable ppf : option Z -> R -> R.
Hypothesis Hlp : lp_ok lp.
Notation solve := (solve_bounds lp).

(* unbounded as soon as the weights load on a constant or on a linear trend *)
Theorem smooth_unbounded npre b l M :
  length b = length l -> 0 <= M -> (suml l <> 0 \/ moml l <> 0) ->
  solve (map Fin b) l (cons_sd npre (length l) M) npre = (NInf, PInf).
Proof.
  intros Lb HM Hl. unfold solve_bounds. rewrite fdot_fin, map_length, Lb.
  assert (U : forall m, exists a k, (a + k * INR npre) * suml l + k * moml l = m).
  { intros m. destruct (Req_EM_T (suml l) 0) as [E|N].
    - destruct Hl as [?|Hl]; [lra|]. exists 0, (m / moml l). rewrite E. field. auto.
    - exists (m / suml l), 0. field. auto. }
  assert (U1 : lp (npre + length l) (cons_sd npre (length l) M) (lp_cost npre l) = None).
  { apply (lp_none _ _ _ _ Hlp); [apply cons_sd_wide|apply lp_cost_length|]. intros m.
    destruct (U (1 - m)) as (a & k & E). exists (line a k 0 (npre + length l)). split; [apply line_feasible; auto|].
    rewrite lp_cost_dot by apply line_length. rewrite line_skip, ldot_line. simpl. lra. }
  assert (U2 : lp (npre + length l) (cons_sd npre (length l) M) (map Ropp (lp_cost npre l)) = None).
  { apply (lp_none _ _ _ _ Hlp); [apply cons_sd_wide|rewrite map_length; apply lp_cost_length|]. intros m.
    destruct (U (m - 1)) as (a & k & E). exists (line a k 0 (npre + length l)). split; [apply line_feasible; auto|].
    rewrite ldot_opp, lp_cost_dot by apply line_length. rewrite line_skip, ldot_line. simpl. lra. }
  rewrite U1, U2. destruct (cons_sd npre (length l) M); reflexivity.
Qed.

Lemma ldot_seg l x y t : length x = length y ->
  ldot l (vadd (vscal t x) (vscal (1 - t) y)) = t * ldot l x + (1 - t) * ldot l y.
Proof.
  revert x y. induction l as [|a l IH]; intros [|u x] [|v y]; simpl; intros H; try discriminate; try ring.
  rewrite IH by lia. ring.
Qed.
Lemma skipn_seg x y t n : skipn n (vadd (vscal t x) (vscal (1 - t) y)) = vadd (vscal t (skipn n x)) (vscal (1 - t) (skipn n y)).
Proof.
  revert x y. induction n as [|n IH]; intros x y; [reflexivity|].
  destruct x as [|a x]; [reflexivity|]. destruct y as [|c y].
  - simpl. destruct (vscal t (skipn n x)); reflexivity.
  - simpl. apply IH.
Qed.

(* otherwise finite, and then the reported interval is exactly the set of values l'(beta - delta) *)
Theorem smooth_sharp npre b l M :
  length b = length l -> 0 <= M -> (3 <= npre + length l)%nat -> suml l = 0 -> moml l = 0 ->
  exists lo hi, solve (map Fin b) l (cons_sd npre (length l) M) npre = (Fin lo, Fin hi) /\
    (forall v, lo <= v <= hi <->
      exists delta, length delta = (npre + length l)%nat /\
        (forall i, (i + 2 < npre + length l)%nat -> Rabs (diff2 delta i) <= M) /\
        v = ldot l b - ldot l (skipn npre delta)) /\
    (M = 0 -> lo = ldot l b /\ hi = ldot l b).
Proof.
  intros Lb HM Hn S0 M0. set (n := (npre + length l)%nat) in *.
  set (B := norm1 l * (M * (INR n * INR n))).
  assert (W : wide n (cons_sd npre (length l) M)) by apply cons_sd_wide.
  assert (BD : forall x, feasible n (cons_sd npre (length l) M) x -> - B <= ldot l (skipn npre x) <= B).
  { intros x Hx. apply Rabs_le_inv. apply smooth_objective_bounded; auto. }
  assert (FE : exists x, feasible n (cons_sd npre (length l) M) x) by (exists (line 0 0 0 n); apply line_feasible; auto).
  destruct (lp_attained n _ (lp_cost npre l) (- B) W (lp_cost_length npre l) FE) as (v1 & V1).
  { intros x Hx. rewrite lp_cost_dot by apply Hx. specialize (BD x Hx). lra. }
  assert (LC : length (map Ropp (lp_cost npre l)) = n) by (rewrite map_length; apply lp_cost_length).
  destruct (lp_attained n _ (map Ropp (lp_cost npre l)) (- B) W LC FE) as (v2 & V2).
  { intros x Hx. rewrite ldot_opp, lp_cost_dot by apply Hx. specialize (BD x Hx). lra. }
  pose proof (proj2 (lp_some _ _ _ _ _ Hlp W (lp_cost_length npre l)) V1) as E1.
  pose proof (proj2 (lp_some _ _ _ _ _ Hlp W LC) V2) as E2.
  exists (ldot l b + v1), (ldot l b + - v2). split; [|split].
  - unfold solve_bounds. rewrite fdot_fin, map_length, Lb. fold n. rewrite E1, E2.
    destruct (cons_sd npre (length l) M) eqn:EC; [|reflexivity]. apply cons_sd_nil in EC. unfold n in Hn. lia.
  - destruct V1 as [(x1 & F1 & O1) H1]. destruct V2 as [(x2 & F2 & O2) H2].
    rewrite lp_cost_dot in O1 by apply F1. rewrite ldot_opp, lp_cost_dot in O2 by apply F2.
    intros v. split.
    + intros [Hlo Hhi].
      assert (Hx12 : ldot l (skipn npre x2) <= ldot l (skipn npre x1)) by lra.
      assert (T : exists t, 0 <= t <= 1 /\ v = ldot l b - (t * ldot l (skipn npre x1) + (1 - t) * ldot l (skipn npre x2))).
      { destruct (Req_EM_T (ldot l (skipn npre x1)) (ldot l (skipn npre x2))) as [E|N].
        - exists 1. split; [lra|]. lra.
        - exists ((ldot l b - v - ldot l (skipn npre x2)) / (ldot l (skipn npre x1) - ldot l (skipn npre x2))).
          set (dd := ldot l (skipn npre x1) - ldot l (skipn npre x2)). assert (0 < dd) by (unfold dd; lra).
          split; [split|].
          + apply Rmult_le_pos; [lra|left; apply Rinv_0_lt_compat; auto].
          + apply Rmult_le_reg_r with dd; auto. unfold Rdiv. rewrite Rmult_assoc, Rinv_l by lra. unfold dd. lra.
          + unfold dd. field. unfold dd in *. lra. }
      destruct T as (t & Ht & ->).
      destruct F1 as [L1 F1]. destruct F2 as [L2 F2].
      pose proof (proj1 (cons_sd_iff npre (length l) M x1 L1) F1) as F1'. clear F1. rename F1' into F1.
      pose proof (proj1 (cons_sd_iff npre (length l) M x2 L2) F2) as F2'. clear F2. rename F2' into F2.
      exists (vadd (vscal t x1) (vscal (1 - t) x2)).
      assert (LL : length (vadd (vscal t x1) (vscal (1 - t) x2)) = n) by (apply vadd_length; rewrite vscal_length; auto).
      split; [exact LL|]. split.
      * intros i Hi. specialize (F1 i Hi). specialize (F2 i Hi). unfold diff2 in *.
        rewrite !vadd_nth by (rewrite !vscal_length; lia). rewrite !vscal_nth.
        match goal with |- Rabs ?e <= _ => replace e with
          (t * (nth i x1 0 - 2 * nth (i + 1) x1 0 + nth (i + 2) x1 0) + (1 - t) * (nth i x2 0 - 2 * nth (i + 1) x2 0 + nth (i + 2) x2 0)) by ring end.
        apply Rabs_le_inv in F1. apply Rabs_le_inv in F2. apply Rabs_le. nra.
      * rewrite skipn_seg, ldot_seg by (rewrite !skipn_length; lia). reflexivity.
    + intros (x & L & F & ->). assert (Hx : feasible n (cons_sd npre (length l) M) x).
      { split; [exact L|]. apply (proj2 (cons_sd_iff npre (length l) M x L)). exact F. }
      specialize (H1 x Hx). specialize (H2 x Hx). rewrite lp_cost_dot in H1 by exact L. rewrite ldot_opp, lp_cost_dot in H2 by exact L. lra.
  - intros ->. assert (B = 0) by (unfold B; ring).
    destruct V1 as [(x1 & F1 & O1) _]. destruct V2 as [(x2 & F2 & O2) _].
    rewrite lp_cost_dot in O1 by apply F1. rewrite ldot_opp, lp_cost_dot in O2 by apply F2.
    pose proof (BD x1 F1). pose proof (BD x2 F2). lra.
Qed.
End SD.

(* Existence of the objects the numerical oracles return, and the sandwich covariance. *)
From Verif Require Import Prelude Flt Linalg_model Linalg_proofs.
From Coq Require Import Arith ZArith String List.
Import ListNotations.
Open Scope R_scope.

(* ---- what the three numerical oracles are assumed to do ---- *)
Section Specs.
Context {I : Type}.

(* scipy.linalg.lstsq solves the normal equations *)
Definition lstsq_ok (lstsq : list I -> list (I -> R) -> (I -> R) -> list R) : Prop :=
  forall rows cols y, is_ls rows cols y (lstsq rows cols y).

(* numpy.linalg.solve(X'X, .) applies the inverse, and fails only on a singular X'X *)
Definition inv_ok (inv : list I -> list (I -> R) -> option (nat -> nat -> R)) : Prop :=
  forall rows cols,
    match inv rows cols with
    | Some B => is_inverse rows cols B
    | None => ~ indep rows cols
    end.

(* pivoted QR with exact rank decision: the kept columns are independent and the dropped ones
   are combinations of them.  (The code's cut is a relative tolerance 1e-7, linalg.py:127-139.) *)
Definition qr_ok (qr : list I -> list (I -> R) -> list nat) : Prop :=
  forall rows cols,
    let dropped := qr rows cols in
    let kept := select_cols cols (kept_cols (length cols) dropped) in
    (forall j, In j dropped -> (j < length cols)%nat /\ span rows kept (colx cols j)) /\
    indep rows kept.
End Specs.

Section Exist.
Context {I : Type}.
Implicit Types (rows : list I) (cols : list (I -> R)) (f g y : I -> R).

Definition gs_res rows cs (c : I -> R) : I -> R := fun i => c i - lc cs (gs rows cs c) i.

Lemma gs_res_orth rows cs c : Forall (fun c' => ip rows c' (gs_res rows cs c) = 0) cs.
Proof. apply gs_is_ls. Qed.

Lemma gs_res_self rows cs c : ip rows c (gs_res rows cs c) = ip rows (gs_res rows cs c) (gs_res rows cs c).
Proof.
  set (r := gs_res rows cs c).
  replace (ip rows c r) with (ip rows (fun i => r i + lc cs (gs rows cs c) i) r)
    by (apply ip_ext; intros; unfold r, gs_res; ring).
  rewrite ip_add_l, (orth_lc rows cs _ r) by apply gs_res_orth. ring.
Qed.

Lemma gs_res_zero_span rows cs c :
  ip rows (gs_res rows cs c) (gs_res rows cs c) = 0 <-> span rows cs c.
Proof.
  split; intros H.
  - exists (gs rows cs c). split; [apply gs_is_ls|]. intros i Hi.
    pose proof (ip_def _ _ H i Hi) as H1. unfold gs_res in H1. lra.
  - rewrite <- gs_res_self. apply (orth_span rows cs); auto. apply gs_res_orth.
Qed.

Lemma indep_cons rows c cs :
  indep rows (c :: cs) <-> indep rows cs /\ ~ span rows cs c.
Proof.
  split.
  - intros H. split.
    + intros a La Ha. assert (E : 0 :: a = repeat 0 (length (c :: cs))).
      { apply H; [simpl; lia|]. intros i Hi; simpl. rewrite Ha by auto. lra. }
      simpl in E. injection E; auto.
    + intros (a & La & Ha).
      assert (E : (-1) :: a = repeat 0 (length (c :: cs))).
      { apply H; [simpl; lia|]. intros i Hi; simpl. rewrite Ha by auto. lra. }
      simpl in E. injection E; intros; lra.
  - intros [H Hs] a La Ha. destruct a as [|x a]; [discriminate|]. simpl in La.
    destruct (Req_dec x 0) as [->|Hx].
    + simpl. f_equal. apply H; [lia|]. intros i Hi. specialize (Ha i Hi). simpl in Ha. lra.
    + exfalso. apply Hs. exists (vscal (- / x) a). split; [rewrite vscal_length; lia|].
      intros i Hi. rewrite lc_vscal. specialize (Ha i Hi). simpl in Ha.
      assert (lc cs a i = - x * c i) as -> by lra. field; auto.
Qed.

(* concrete full-rank test, rank-revealing selection and inverse *)
Fixpoint gs_full rows cols : bool :=
  match cols with
  | [] => true
  | c :: cs => gs_full rows cs && negb (Reqb (ip rows (gs_res rows cs c) (gs_res rows cs c)) 0)
  end.

Lemma gs_full_indep rows cols : gs_full rows cols = true <-> indep rows cols.
Proof.
  induction cols as [|c cs IH]; simpl.
  - split; auto. intros _ a La _. destruct a; [reflexivity|discriminate].
  - rewrite indep_cons, <- IH, <- gs_res_zero_span, Bool.andb_true_iff, Bool.negb_true_iff, Reqb_false.
    tauto.
Qed.

Fixpoint gs_dropped rows cols : list nat :=
  match cols with
  | [] => []
  | c :: cs =>
      let d := map S (gs_dropped rows cs) in
      if Req_EM_T (ip rows (gs_res rows cs c) (gs_res rows cs c)) 0 then O :: d else d
  end.

Lemma existsb_map_S (i : nat) (d : list nat) : existsb (Nat.eqb (S i)) (map S d) = existsb (Nat.eqb i) d.
Proof. induction d as [|a d IH]; auto. cbn [map existsb]. rewrite IH; reflexivity. Qed.

Lemma kept_shift k d : filter (fun i => negb (existsb (Nat.eqb i) (map S d))) (seq 1 k) = map S (kept_cols k d).
Proof.
  unfold kept_cols. rewrite <- seq_shift. generalize (seq 0 k). induction l as [|a l IH]; auto.
  cbn [map filter]. rewrite existsb_map_S. destruct (existsb (Nat.eqb a) d); simpl; rewrite IH; reflexivity.
Qed.

Lemma filter_ext_seq1 k d : filter (fun i => negb (existsb (Nat.eqb i) (O :: map S d))) (seq 1 k)
  = filter (fun i => negb (existsb (Nat.eqb i) (map S d))) (seq 1 k).
Proof.
  apply filter_ext_in. intros i Hi. apply in_seq in Hi. simpl.
  destruct i; [lia|reflexivity].
Qed.

Lemma existsb_0_map_S d : existsb (Nat.eqb 0) (map S d) = false.
Proof. induction d; simpl; auto. Qed.

Lemma select_shift c cols l : select_cols (c :: cols) (map S l) = select_cols cols l.
Proof. unfold select_cols. rewrite map_map. reflexivity. Qed.

Lemma gs_kept_drop0 rows c cs :
  select_cols (c :: cs) (kept_cols (S (length cs)) (O :: map S (gs_dropped rows cs)))
  = select_cols cs (kept_cols (length cs) (gs_dropped rows cs)).
Proof.
  unfold kept_cols at 1. cbn [seq filter]. simpl existsb at 1. cbn [negb orb].
  rewrite filter_ext_seq1, kept_shift, select_shift. reflexivity.
Qed.
Lemma gs_kept_keep0 rows c cs :
  select_cols (c :: cs) (kept_cols (S (length cs)) (map S (gs_dropped rows cs)))
  = c :: select_cols cs (kept_cols (length cs) (gs_dropped rows cs)).
Proof.
  unfold kept_cols at 1. cbn [seq filter]. rewrite existsb_0_map_S. cbn [negb].
  rewrite kept_shift. unfold select_cols at 1. cbn [map]. f_equal.
  apply (select_shift c cs).
Qed.

Lemma select_in cols kept c :
  (forall j, In j kept -> (j < length cols)%nat) -> In c (select_cols cols kept) -> In c cols.
Proof.
  intros Hk H. unfold select_cols in H. apply in_map_iff in H. destruct H as (j & <- & Hj).
  apply colx_in; auto.
Qed.

Lemma kept_cols_lt k d j : In j (kept_cols k d) <-> (j < k)%nat /\ ~ In j d.
Proof.
  unfold kept_cols. rewrite filter_In, in_seq, Bool.negb_true_iff.
  split.
  - intros [H1 H2]. split; [lia|]. intros Hd.
    assert (existsb (Nat.eqb j) d = true) by (apply existsb_exists; exists j; split; auto; apply Nat.eqb_refl).
    congruence.
  - intros [H1 H2]. split; [lia|]. destruct (existsb (Nat.eqb j) d) eqn:E; auto.
    apply existsb_exists in E. destruct E as (x & Hx & E). apply Nat.eqb_eq in E; subst; contradiction.
Qed.

Lemma span_cons rows c cs f : span rows cs f -> span rows (c :: cs) f.
Proof.
  apply span_trans. intros c' H. apply span_in; simpl; auto.
Qed.

(* dropped columns are in the span of kept; hence every column is *)
Lemma qr_ok_span rows cols dropped :
  (forall j, In j dropped -> (j < length cols)%nat /\
     span rows (select_cols cols (kept_cols (length cols) dropped)) (colx cols j)) ->
  forall c, In c cols -> span rows (select_cols cols (kept_cols (length cols) dropped)) c.
Proof.
  intros H c Hc. apply in_colx in Hc. destruct Hc as (j & Hj & <-).
  destruct (in_dec Nat.eq_dec j dropped) as [Hd|Hd].
  - apply H; auto.
  - apply span_in. unfold select_cols. apply in_map. apply kept_cols_lt; auto.
Qed.

Theorem gs_dropped_ok : qr_ok (@gs_dropped).
Proof.
  intros rows cols. cbv zeta. induction cols as [|c cs [IH1 IH2]].
  - split; [contradiction|]. intros a La _. destruct a; [reflexivity|discriminate].
  - pose proof (qr_ok_span rows cs _ IH1) as Hsp.
    cbn [gs_dropped length]. destruct (Req_EM_T _ 0) as [H0|H0].
    + rewrite gs_kept_drop0. split; auto. intros j [<-|Hj].
      * split; [lia|]. change (colx (c :: cs) 0) with c.
        apply gs_res_zero_span in H0.
        apply (span_trans rows cs); auto.
      * apply in_map_iff in Hj. destruct Hj as (j' & <- & Hj'). destruct (IH1 j' Hj') as [? ?].
        split; [lia|]. change (colx (c :: cs) (S j')) with (colx cs j'). auto.
    + rewrite gs_kept_keep0. split.
      * intros j Hj. apply in_map_iff in Hj. destruct Hj as (j' & <- & Hj'). destruct (IH1 j' Hj') as [? ?].
        split; [lia|]. change (colx (c :: cs) (S j')) with (colx cs j'). apply span_cons; auto.
      * apply indep_cons. split; auto. intros Hs. apply H0. apply gs_res_zero_span.
        eapply span_trans; [|exact Hs]. intros c' Hc'. apply span_in.
        apply (select_in cs (kept_cols (length cs) (gs_dropped rows cs))); auto.
        intros j Hj; apply kept_cols_lt in Hj; tauto.
Qed.

(* dual basis coefficients = rows of the inverse of X'X *)
Fixpoint duals rows cols : list (list R) :=
  match cols with
  | [] => []
  | c :: cs =>
      let r := gs_res rows cs c in
      let rc := 1 :: vscal (-1) (gs rows cs c) in
      vscal (/ ip rows r r) rc ::
      map (fun q => vadd (0 :: q) (vscal (- (ip rows c (lc cs q) / ip rows r r)) rc)) (duals rows cs)
  end.

Lemma duals_length rows cols : length (duals rows cols) = length cols.
Proof. induction cols; simpl; auto. rewrite map_length; auto. Qed.

Lemma duals_ok rows cols :
  indep rows cols ->
  (forall q, In q (duals rows cols) -> length q = length cols) /\
  (forall j a, (j < length cols)%nat -> (a < length cols)%nat ->
     ip rows (colx cols a) (lc cols (nth j (duals rows cols) [])) = if Nat.eqb a j then 1 else 0).
Proof.
  induction cols as [|c cs IH]; intros Hi.
  - split; [contradiction|]. simpl; intros; lia.
  - apply indep_cons in Hi. destruct Hi as [Hi Hs]. destruct (IH Hi) as [IL ID]. clear IH.
    set (r := gs_res rows cs c). set (rc := 1 :: vscal (-1) (gs rows cs c)).
    assert (Lg : length (gs rows cs c) = length cs) by apply gs_is_ls.
    assert (Lrc : length rc = length (c :: cs)) by (unfold rc; simpl; rewrite vscal_length; lia).
    assert (Hrc : forall i, lc (c :: cs) rc i = r i).
    { intros i. unfold rc; simpl. rewrite lc_vscal. unfold r, gs_res. ring. }
    assert (Hr : ip rows r r <> 0) by (intros E; apply Hs, gs_res_zero_span; exact E).
    assert (Hro : forall c', In c' cs -> ip rows c' r = 0).
    { intros c' Hc'. pose proof (gs_res_orth rows cs c) as F. rewrite Forall_forall in F. apply F; auto. }
    assert (Hcr : ip rows c r = ip rows r r) by apply gs_res_self.
    split.
    + intros q [<-|Hq].
      * fold r. fold rc. rewrite vscal_length; auto.
      * apply in_map_iff in Hq. destruct Hq as (q' & <- & Hq'). fold r rc.
        apply vadd_length; [simpl; rewrite IL; auto|]. rewrite vscal_length; auto.
    + intros j a Hj Ha. destruct j as [|j].
      * cbn [duals nth]. fold r rc.
        rewrite (ip_ext rows (colx (c :: cs) a) (colx (c :: cs) a) _ (fun i => / ip rows r r * r i))
          by (auto; intros; rewrite lc_vscal, Hrc; reflexivity).
        rewrite ip_scal_r. destruct a as [|a].
        -- change (colx (c :: cs) 0) with c. rewrite Hcr. simpl. field; auto.
        -- change (colx (c :: cs) (S a)) with (colx cs a). rewrite (Hro (colx cs a)) by (apply colx_in; simpl in Ha; lia).
           simpl; ring.
      * simpl in Hj. set (q := nth j (duals rows cs) []).
        assert (Lq : length q = length cs).
        { apply IL. apply nth_In. rewrite duals_length; lia. }
        assert (Eq : nth (S j) (duals rows (c :: cs)) []
                     = vadd (0 :: q) (vscal (- (ip rows c (lc cs q) / ip rows r r)) rc)).
        { cbn [duals nth]. fold r rc.
          rewrite nth_indep with (d' := (fun q => vadd (0 :: q) (vscal (- (ip rows c (lc cs q) / ip rows r r)) rc)) [])
            by (rewrite map_length, duals_length; lia).
          rewrite (map_nth (fun q => vadd (0 :: q) (vscal (- (ip rows c (lc cs q) / ip rows r r)) rc))). reflexivity. }
        rewrite Eq.
        rewrite (ip_ext rows (colx (c :: cs) a) (colx (c :: cs) a) _
                  (fun i => lc cs q i - ip rows c (lc cs q) / ip rows r r * r i)); auto.
        2:{ intros i _. rewrite lc_vadd; [|simpl; lia|rewrite vscal_length; auto].
            rewrite lc_vscal, Hrc. simpl. ring. }
        rewrite ip_sub_r, ip_scal_r. destruct a as [|a].
        -- change (colx (c :: cs) 0) with c. rewrite Hcr. simpl. field; auto.
        -- change (colx (c :: cs) (S a)) with (colx cs a). simpl in Ha.
           rewrite (Hro (colx cs a)) by (apply colx_in; lia). unfold q at 1. rewrite ID by lia.
           change (Nat.eqb (S a) (S j)) with (Nat.eqb a j). destruct (Nat.eqb a j); ring.
Qed.

Definition gs_inv rows cols : option (nat -> nat -> R) :=
  if gs_full rows cols then Some (fun a j => nth a (nth j (duals rows cols) []) 0) else None.

Theorem gs_inv_ok : inv_ok (@gs_inv).
Proof.
  intros rows cols. unfold gs_inv. destruct (gs_full rows cols) eqn:E.
  - apply gs_full_indep in E. destruct (duals_ok rows cols E) as [HL HD].
    intros a j Ha Hj. rewrite <- (HD j a Hj Ha). unfold ip.
    assert (Lq : length (nth j (duals rows cols) []) = length cols).
    { apply HL. apply nth_In. rewrite duals_length; auto. }
    rewrite (sumf_ext_all (fun i => colx cols a i * lc cols _ i)
       (fun i => sumf (fun l => colx cols a i * colx cols l i * nth l (nth j (duals rows cols) []) 0) (seq 0 (length cols)))).
    + rewrite sumf_swap. apply sumf_ext_all. intros l. rewrite sumf_scal_r. reflexivity.
    + intros i. rewrite lc_index by auto. rewrite <- sumf_scal. apply sumf_ext_all; intros; ring.
  - intros H. apply gs_full_indep in H. congruence.
Qed.

Theorem gs_ok : lstsq_ok (@gs I).
Proof. intros rows cols y; apply gs_is_ls. Qed.

Lemma inverse_unique rows cols B B' :
  is_inverse rows cols B -> is_inverse rows cols B' ->
  forall a b, (a < length cols)%nat -> (b < length cols)%nat -> B a b = B' a b.
Proof.
  intros H0 H0' a b Ha Hb. pose proof (proj1 (is_inverse_meq _ _ _) H0) as H.
  pose proof (proj1 (is_inverse_meq _ _ _) H0') as H'.
  set (k := length cols) in *. set (G := gram rows cols) in *.
  pose proof (inverse_left k G B' (gram_sym rows cols k) H') as Hl.
  (* B = (B' G) B = B' (G B) = B' *)
  transitivity (mmul k (mmul k B' G) B a b).
  - unfold mmul at 1. rewrite (sumf_ext _ (fun l => mid a l * B l b)).
    + rewrite mid_sum_l; auto.
    + intros l Hl0. apply in_seq in Hl0. rewrite (Hl a l) by (auto; lia). reflexivity.
  - rewrite mmul_assoc. unfold mmul at 1. rewrite (sumf_ext _ (fun l => B' a l * mid l b)).
    + rewrite mid_sum_r; auto.
    + intros l Hl0. apply in_seq in Hl0. rewrite (H l b) by (auto; lia). reflexivity.
Qed.

Lemma is_inverse_perm r1 r2 cols B : Permutation r1 r2 -> is_inverse r1 cols B -> is_inverse r2 cols B.
Proof.
  intros P H a c Ha Hc. rewrite <- (H a c Ha Hc). apply sumf_ext_all; intros l.
  rewrite (ip_perm r2 r1) by (apply Permutation_sym; auto). reflexivity.
Qed.

Lemma qr_indep_none qr rows cols : qr_ok qr -> indep rows cols -> qr rows cols = [].
Proof.
  intros Hq Hi. destruct (Hq rows cols) as [H1 H2]. destruct (qr rows cols) as [|j d] eqn:E; auto.
  exfalso. destruct (H1 j (or_introl eq_refl)) as [Hj (a & La & Ha)].
  set (kept := kept_cols (length cols) (j :: d)) in *.
  (* coefficients of the dependency among cols *)
  assert (Hk : forall l, In l kept -> (l < length cols)%nat /\ l <> j).
  { intros l Hl. apply kept_cols_lt in Hl. simpl in Hl. destruct Hl as [? Hn]. split; auto. }
  assert (Hgen : forall ks b, (forall l, In l ks -> (l < length cols)%nat /\ l <> j) -> length b = length ks ->
     exists v, length v = length cols /\ nth j v 0 = 0 /\
               forall i, lc cols v i = lc (select_cols cols ks) b i).
  { induction ks as [|l ks IH]; intros b Hks Lb.
    - exists (repeat 0 (length cols)). repeat split; [apply repeat_length|apply nth_repeat|].
      intros i. rewrite lc_repeat0. destruct b; reflexivity.
    - destruct b as [|x b]; [discriminate|].
      destruct (IH b) as (v & Lv & Nv & Hv); [intros; apply Hks; simpl; auto|simpl in Lb; lia|].
      destruct (Hks l (or_introl eq_refl)) as [Hl Hlj].
      set (u := map (fun m => if Nat.eqb l m then x else 0) (seq 0 (length cols))).
      assert (Lu : length u = length cols) by (unfold u; rewrite map_length, seq_length; auto).
      assert (Nu : forall m, (m < length cols)%nat -> nth m u 0 = if Nat.eqb l m then x else 0).
      { intros m Hm. unfold u. rewrite nth_indep with (d' := (fun m => if Nat.eqb l m then x else 0) O)
          by (rewrite map_length, seq_length; auto).
        rewrite (map_nth (fun m => if Nat.eqb l m then x else 0)), seq_nth by auto. reflexivity. }
      exists (vadd u v). repeat split.
      + apply vadd_length; auto.
      + assert (Ev : forall (p q : list R) m, length p = length q -> nth m (vadd p q) 0 = nth m p 0 + nth m q 0).
        { induction p as [|p1 p IHp]; intros [|q1 q] m Hpq; simpl in *; try discriminate.
          - destruct m; lra.
          - destruct m; auto. }
        rewrite Ev by congruence. rewrite Nu, Nv by auto.
        rewrite (proj2 (Nat.eqb_neq l j)) by auto. lra.
      + intros i. rewrite lc_vadd, Hv by auto. simpl. f_equal.
        rewrite lc_index by auto.
        rewrite (sumf_ext _ (fun m => ind (keqb Nat.eq_dec l m) * (x * colx cols l i))).
        * apply sumf_ind_key; [apply seq_NoDup|apply in_seq; lia].
        * intros m Hm. apply in_seq in Hm. rewrite Nu by lia. unfold keqb.
          destruct (Nat.eq_dec l m) as [->|Hn].
          -- rewrite Nat.eqb_refl. simpl; ring.
          -- rewrite (proj2 (Nat.eqb_neq l m)) by auto. simpl; ring. }
  destruct (Hgen kept a Hk) as (v & Lv & Nv & Hv).
  { rewrite La. unfold select_cols. apply map_length. }
  (* x_j - sum = 0 is a nontrivial relation *)
  set (u := map (fun m => if Nat.eqb j m then -1 else 0) (seq 0 (length cols))).
  assert (Lu : length u = length cols) by (unfold u; rewrite map_length, seq_length; auto).
  assert (Nu : forall m, (m < length cols)%nat -> nth m u 0 = if Nat.eqb j m then -1 else 0).
  { intros m Hm. unfold u. rewrite nth_indep with (d' := (fun m => if Nat.eqb j m then -1 else 0) O)
      by (rewrite map_length, seq_length; auto).
    rewrite (map_nth (fun m => if Nat.eqb j m then -1 else 0)), seq_nth by auto. reflexivity. }
  assert (E0 : vadd u v = repeat 0 (length cols)).
  { apply Hi; [apply vadd_length; auto|]. intros i Hin. rewrite lc_vadd, Hv, <- Ha by auto.
    rewrite lc_index by auto.
    rewrite (sumf_ext _ (fun m => ind (keqb Nat.eq_dec j m) * (-1 * colx cols j i))).
    - rewrite sumf_ind_key; [ring|apply seq_NoDup|apply in_seq; lia].
    - intros m Hm. apply in_seq in Hm. rewrite Nu by lia. unfold keqb.
      destruct (Nat.eq_dec j m) as [->|Hn].
      + rewrite Nat.eqb_refl. simpl; ring.
      + rewrite (proj2 (Nat.eqb_neq j m)) by auto. simpl; ring. }
  assert (Ev : forall (p q : list R) m, length p = length q -> nth m (vadd p q) 0 = nth m p 0 + nth m q 0).
  { induction p as [|p1 p IHp]; intros [|q1 q] m Hpq; simpl in *; try discriminate.
    - destruct m; lra.
    - destruct m; auto. }
  assert (E1 : nth j (vadd u v) 0 = -1).
  { rewrite Ev by congruence. rewrite Nu, Nv, Nat.eqb_refl by auto. lra. }
  rewrite E0, nth_repeat in E1. lra.
Qed.

End Exist.

(* ---- the sandwich ---- *)
Section Sandwich.

(* the meat of a sum of outer products *)
Lemma sandwich_outer {T} k adj B (ts : list T) (s : T -> nat -> R) M j m :
  (forall a b, (a < k)%nat -> (b < k)%nat -> M a b = sumf (fun t => s t a * s t b) ts) ->
  sandwich k adj B M j m
  = adj * sumf (fun t => sumf (fun a => B j a * s t a) (seq 0 k) * sumf (fun b => B m b * s t b) (seq 0 k)) ts.
Proof.
  intros HM. unfold sandwich. f_equal.
  rewrite (sumf_ext _ (fun a => sumf (fun t => B j a * s t a * sumf (fun b => B m b * s t b) (seq 0 k)) ts)).
  - rewrite sumf_swap. apply sumf_ext_all. intros t. rewrite sumf_scal_r. reflexivity.
  - intros a Ha. apply in_seq in Ha.
    rewrite (sumf_ext _ (fun b => sumf (fun t => B j a * s t a * (B m b * s t b)) ts)).
    + rewrite sumf_swap. apply sumf_ext_all; intros t. rewrite sumf_scal. reflexivity.
    + intros b Hb. apply in_seq in Hb. rewrite HM by lia.
      rewrite Rmult_comm, <- Rmult_assoc, <- sumf_scal. apply sumf_ext_all; intros; ring.
Qed.

Lemma sandwich_sym_outer {T} k adj B (ts : list T) (s : T -> nat -> R) M j m :
  (forall a b, (a < k)%nat -> (b < k)%nat -> M a b = sumf (fun t => s t a * s t b) ts) ->
  sandwich k adj B M j m = sandwich k adj B M m j.
Proof.
  intros HM. rewrite !(sandwich_outer k adj B ts s M) by auto. f_equal.
  apply sumf_ext_all; intros; ring.
Qed.

Lemma sandwich_psd_outer {T} k adj B (ts : list T) (s : T -> nat -> R) M (v : nat -> R) :
  0 <= adj ->
  (forall a b, (a < k)%nat -> (b < k)%nat -> M a b = sumf (fun t => s t a * s t b) ts) ->
  0 <= sumf (fun j => sumf (fun m => v j * sandwich k adj B M j m * v m) (seq 0 k)) (seq 0 k).
Proof.
  intros Hadj HM. set (u := fun t j => sumf (fun a => B j a * s t a) (seq 0 k)).
  rewrite (sumf_ext_all _ (fun j => sumf (fun t => adj * (v j * u t j) * sumf (fun m => v m * u t m) (seq 0 k)) ts)).
  - rewrite sumf_swap.
    rewrite (sumf_ext_all _ (fun t => adj * (sumf (fun j => v j * u t j) (seq 0 k) * sumf (fun m => v m * u t m) (seq 0 k)))).
    + apply sumf_nonneg. intros t _. apply Rmult_le_pos; auto. nra.
    + intros t. rewrite sumf_scal_r, sumf_scal. ring.
  - intros j.
    rewrite (sumf_ext_all _ (fun m => sumf (fun t => adj * (v j * u t j) * (v m * u t m)) ts)).
    + rewrite sumf_swap. apply sumf_ext_all; intros t. rewrite sumf_scal. reflexivity.
    + intros m. rewrite (sandwich_outer k adj B ts s M) by auto.
      transitivity (adj * (v j * v m) * sumf (fun t => u t j * u t m) ts); [unfold u; ring|].
      rewrite <- sumf_scal. apply sumf_ext_all; intros; ring.
Qed.

Lemma sandwich_diag_nonneg {T} k adj B (ts : list T) (s : T -> nat -> R) M j :
  0 <= adj ->
  (forall a b, (a < k)%nat -> (b < k)%nat -> M a b = sumf (fun t => s t a * s t b) ts) ->
  0 <= sandwich k adj B M j j.
Proof.
  intros Ha HM. rewrite (sandwich_outer k adj B ts s M) by auto.
  apply Rmult_le_pos; auto. apply sumf_nonneg; intros; nra.
Qed.

Lemma sandwich_ext k adj adj' B B' M M' j m :
  adj = adj' -> (j < k)%nat -> (m < k)%nat ->
  (forall a b, (a < k)%nat -> (b < k)%nat -> B a b = B' a b) ->
  (forall a b, (a < k)%nat -> (b < k)%nat -> M a b = M' a b) ->
  sandwich k adj B M j m = sandwich k adj' B' M' j m.
Proof.
  intros -> Hj Hm HB HM. unfold sandwich. f_equal. apply sumf_ext; intros a Ha. apply sumf_ext; intros b Hb.
  apply in_seq in Ha, Hb. rewrite (HB j a), (HB m b), (HM a b) by lia. reflexivity.
Qed.

(* the Rust product B M B is the Python double solve when B is symmetric *)
Lemma sandwich_rust_eq k adj B M j m :
  (m < k)%nat -> (forall a b, (a < k)%nat -> (b < k)%nat -> B a b = B b a) ->
  sandwich_rust k adj B M j m = sandwich k adj B M j m.
Proof.
  intros Hm HB. unfold sandwich_rust, sandwich. f_equal. apply sumf_ext; intros a Ha. apply sumf_ext; intros b Hb.
  apply in_seq in Ha, Hb. rewrite (HB b m) by lia. reflexivity.
Qed.

Context {I : Type}.
Implicit Types (rows : list I) (cols : list (I -> R)) (e : I -> R).

Lemma hc1_outer rows cols e a b :
  hc1_meat rows cols e a b = sumf (fun i => (colx cols a i * e i) * (colx cols b i * e i)) rows.
Proof. apply sumf_ext_all; intros; ring. Qed.

Lemma hc1_dual rows cols e adj B j m :
  sandwich (length cols) adj B (hc1_meat rows cols e) j m
  = adj * sumf (fun i => (qcol cols B j i * e i) * (qcol cols B m i * e i)) rows.
Proof.
  rewrite (sandwich_outer _ adj B rows (fun i a => colx cols a i * e i)) by (intros; apply hc1_outer).
  f_equal. apply sumf_ext_all; intros i. unfold qcol.
  f_equal; rewrite <- sumf_scal_r; apply sumf_ext_all; intros; ring.
Qed.

Section Cl.
Context {K : Type} (eqd : forall x y : K, {x = y} + {x <> y}).

Lemma cl_score_dual rows cols e (cl : I -> K) g B j :
  sumf (fun a => B j a * cl_score eqd rows cols e cl g a) (seq 0 (length cols))
  = sumf (fun i => qcol cols B j i * e i) (filter (fun i => keqb eqd (cl i) g) rows).
Proof.
  unfold cl_score, qcol.
  rewrite (sumf_ext_all _ (fun a => sumf (fun i => B j a * (colx cols a i * e i)) (filter (fun i => keqb eqd (cl i) g) rows)))
    by (intros; rewrite sumf_scal; reflexivity).
  rewrite sumf_swap. apply sumf_ext_all; intros i. rewrite <- sumf_scal_r.
  apply sumf_ext_all; intros; ring.
Qed.

Lemma cl_dual rows cols e cl adj B j m :
  sandwich (length cols) adj B (cl_meat eqd rows cols e cl) j m
  = adj * sumf (fun g => sumf (fun i => qcol cols B j i * e i) (filter (fun i => keqb eqd (cl i) g) rows)
                       * sumf (fun i => qcol cols B m i * e i) (filter (fun i => keqb eqd (cl i) g) rows))
               (cl_keys eqd rows cl).
Proof.
  rewrite (sandwich_outer _ adj B (cl_keys eqd rows cl) (fun g a => cl_score eqd rows cols e cl g a)) by reflexivity.
  f_equal. apply sumf_ext_all; intros g. rewrite !cl_score_dual. reflexivity.
Qed.

(* one row per cluster: the cluster meat is the HC1 meat *)
Lemma cl_meat_unique_gen (ks : list K) rows cols e (cl : I -> K) a b :
  NoDup ks -> NoDup (map cl rows) -> (forall i, In i rows -> In (cl i) ks) ->
  sumf (fun g => cl_score eqd rows cols e cl g a * cl_score eqd rows cols e cl g b) ks
  = hc1_meat rows cols e a b.
Proof.
  revert ks; induction rows as [|i rows IH]; intros ks Hks Hr Hin.
  - unfold cl_score, hc1_meat; simpl. rewrite sumf_zero; auto. intros; ring.
  - inversion Hr as [|? ? Hni Hr']; subst.
    unfold hc1_meat. cbn [sumf]. fold (hc1_meat rows cols e a b).
    rewrite <- (IH ks) by (auto; intros; apply Hin; simpl; auto).
    rewrite <- (sumf_ind_key eqd ks (cl i) (colx cols a i * (colx cols b i * (e i * e i)))) by (auto; apply Hin; simpl; auto).
    rewrite <- sumf_add. apply sumf_ext. intros g _. unfold cl_score. cbn [filter].
    destruct (keqb eqd (cl i) g) eqn:E.
    + apply keqb_true in E.
      assert (F0 : filter (fun i0 => keqb eqd (cl i0) g) rows = []).
      { destruct (filter (fun i0 => keqb eqd (cl i0) g) rows) as [|x l] eqn:F; auto. exfalso.
        assert (Hx : In x (filter (fun i0 => keqb eqd (cl i0) g) rows)) by (rewrite F; simpl; auto).
        apply filter_In in Hx. destruct Hx as [Hx1 Hx2]. apply keqb_true in Hx2.
        apply Hni. rewrite E, <- Hx2. apply in_map; auto. }
      rewrite F0. unfold ind; simpl. ring.
    + unfold ind; simpl. ring.
Qed.

Lemma nodup_id (l : list K) : NoDup l -> nodup eqd l = l.
Proof. apply nodup_fixed_point. Qed.

Lemma cl_meat_unique rows cols e (cl : I -> K) a b :
  NoDup (map cl rows) -> cl_meat eqd rows cols e cl a b = hc1_meat rows cols e a b.
Proof.
  intros H. unfold cl_meat. apply cl_meat_unique_gen; auto.
  - apply NoDup_nodup.
  - intros i Hi. apply nodup_In. apply in_map; auto.
Qed.

Lemma filter_perm (p : I -> bool) (l l' : list I) : Permutation l l' -> Permutation (filter p l) (filter p l').
Proof.
  induction 1; simpl; auto.
  - destruct (p x); auto.
  - destruct (p x), (p y); auto. apply perm_swap.
  - eapply perm_trans; eauto.
Qed.

Lemma cl_keys_perm r1 r2 (cl : I -> K) : Permutation r1 r2 -> Permutation (cl_keys eqd r1 cl) (cl_keys eqd r2 cl).
Proof.
  intros P. apply NoDup_Permutation; try apply NoDup_nodup.
  intros g. unfold cl_keys. rewrite !nodup_In.
  split; intros H; eapply Permutation_in; [apply Permutation_map; exact P|exact H|apply Permutation_map, Permutation_sym; exact P|exact H].
Qed.

Lemma cl_meat_perm r1 r2 cols e (cl : I -> K) a b :
  Permutation r1 r2 -> cl_meat eqd r1 cols e cl a b = cl_meat eqd r2 cols e cl a b.
Proof.
  intros P. unfold cl_meat. rewrite (sumf_perm _ _ _ (cl_keys_perm r1 r2 cl P)).
  apply sumf_ext_all; intros g. unfold cl_score.
  rewrite !(sumf_perm _ _ _ (filter_perm (fun i => keqb eqd (cl i) g) _ _ P)). reflexivity.
Qed.

Lemma cl_meat_ext rows cols e e' (cl : I -> K) a b :
  (forall i, In i rows -> e i = e' i) -> cl_meat eqd rows cols e cl a b = cl_meat eqd rows cols e' cl a b.
Proof.
  intros H. unfold cl_meat. apply sumf_ext_all; intros g. unfold cl_score.
  f_equal; apply sumf_ext; intros i Hi; apply filter_In in Hi; rewrite H by tauto; reflexivity.
Qed.
End Cl.

(* renaming cluster ids *)
Lemma nodup_map_inj {K L} (eqK : forall x y : K, {x = y} + {x <> y}) (eqL : forall x y : L, {x = y} + {x <> y})
  (f : K -> L) (l : list K) :
  (forall x y, In x l -> In y l -> f x = f y -> x = y) ->
  nodup eqL (map f l) = map f (nodup eqK l).
Proof.
  induction l as [|a l IH]; intros H; simpl; auto.
  destruct (in_dec eqK a l) as [Hin|Hni].
  - destruct (in_dec eqL (f a) (map f l)) as [_|Hn].
    + apply IH. intros; apply H; simpl; auto.
    + exfalso; apply Hn, in_map; auto.
  - destruct (in_dec eqL (f a) (map f l)) as [Hin|_].
    + exfalso. apply in_map_iff in Hin. destruct Hin as (x & E & Hx).
      apply Hni. rewrite <- (H x a); simpl; auto.
    + simpl. f_equal. apply IH. intros; apply H; simpl; auto.
Qed.

Lemma cl_keys_relabel {K L} eqK eqL rows (cl : I -> K) (f : K -> L) :
  (forall x y, In x (map cl rows) -> In y (map cl rows) -> f x = f y -> x = y) ->
  cl_keys eqL rows (fun i => f (cl i)) = map f (cl_keys eqK rows cl).
Proof.
  intros H. unfold cl_keys. rewrite <- (map_map cl f). apply nodup_map_inj; auto.
Qed.

Lemma cl_meat_relabel {K L} eqK eqL rows cols e (cl : I -> K) (f : K -> L) a b :
  (forall x y, In x (map cl rows) -> In y (map cl rows) -> f x = f y -> x = y) ->
  cl_meat eqL rows cols e (fun i => f (cl i)) a b = cl_meat eqK rows cols e cl a b.
Proof.
  intros H. unfold cl_meat. rewrite (cl_keys_relabel eqK eqL) by auto. rewrite sumf_map.
  apply sumf_ext. intros g Hg. unfold cl_score.
  apply nodup_In in Hg.
  assert (E : filter (fun i => keqb eqL (f (cl i)) (f g)) rows = filter (fun i => keqb eqK (cl i) g) rows).
  { apply filter_ext_in. intros i Hi. destruct (keqb eqK (cl i) g) eqn:E1.
    - apply keqb_true in E1. apply keqb_true. congruence.
    - apply keqb_false in E1. apply keqb_false. intros E2. apply E1. apply H; auto. apply in_map; auto. }
  rewrite E. reflexivity.
Qed.

Lemma hc1_meat_perm r1 r2 cols e a b : Permutation r1 r2 -> hc1_meat r1 cols e a b = hc1_meat r2 cols e a b.
Proof. apply sumf_perm. Qed.
Lemma hc1_meat_ext rows cols e e' a b :
  (forall i, In i rows -> e i = e' i) -> hc1_meat rows cols e a b = hc1_meat rows cols e' a b.
Proof. intros H; apply sumf_ext; intros i Hi; rewrite H by auto; reflexivity. Qed.

End Sandwich.

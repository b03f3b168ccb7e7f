(* Linear programming over the reals: what scipy.optimize.linprog promises (minimise c'x subject to A x <= b,
   no sign restrictions), and a solver that keeps the promise (Fourier-Motzkin elimination), used as the
   instance showing that the specification can be met. *)
From Verif Require Import Prelude Linalg_proofs.
From Coq Require Import Arith ZArith List Lia Lra.
Import ListNotations.
Open Scope R_scope.

(* a row of A with its entry of b *)
Definition con : Type := (list R * R)%type.
Fixpoint ldot (a x : list R) : R :=
  match a, x with p :: a', q :: x' => p * q + ldot a' x' | _, _ => 0 end.
Definition sat (x : list R) (r : con) : Prop := ldot (fst r) x <= snd r.
Definition feasible (n : nat) (cs : list con) (x : list R) : Prop := length x = n /\ Forall (sat x) cs.
Definition is_min (n : nat) (cs : list con) (c : list R) (v : R) : Prop :=
  (exists x, feasible n cs x /\ ldot c x = v) /\ (forall x, feasible n cs x -> v <= ldot c x).
Definition wide (n : nat) (cs : list con) : Prop := Forall (fun r => length (fst r) = n) cs.

(* result.fun when result.success, None otherwise (infeasible or unbounded) *)
Definition lp_ok (lp : nat -> list con -> list R -> option R) : Prop :=
  forall n cs c, wide n cs -> length c = n ->
    match lp n cs c with Some v => is_min n cs c v | None => ~ exists v, is_min n cs c v end.

Lemma ldot_vadd a b x : length a = length b -> ldot (vadd a b) x = ldot a x + ldot b x.
Proof.
  revert b x. induction a as [|p a IH]; destruct b as [|q b]; simpl; intros x H; try discriminate; [ring|].
  destruct x as [|z x]; simpl; [ring|]. rewrite IH by lia. ring.
Qed.
Lemma ldot_vscal t a x : ldot (vscal t a) x = t * ldot a x.
Proof.
  revert x. induction a as [|p a IH]; simpl; intros x; [destruct x; ring|]. destruct x; simpl; [ring|]. rewrite IH. ring.
Qed.
Lemma ldot_app a b x y : length a = length x -> ldot (a ++ b) (x ++ y) = ldot a x + ldot b y.
Proof.
  revert x. induction a as [|p a IH]; destruct x as [|q x]; simpl; intros H; try discriminate; [ring|].
  rewrite IH by lia. ring.
Qed.
Lemma ldot_opp a x : ldot (map Ropp a) x = - ldot a x.
Proof.
  revert x. induction a as [|p a IH]; simpl; intros x; [ring|]. destruct x; simpl; [ring|]. rewrite IH. ring.
Qed.
Lemma ldot_repeat0 n x : ldot (repeat 0 n) x = 0.
Proof. revert x. induction n; simpl; intros x; [reflexivity|]. destruct x; [reflexivity|]. rewrite IHn. ring. Qed.
Lemma ldot_nil_r a : ldot a [] = 0.
Proof. destruct a; reflexivity. Qed.
Lemma ldot_sub a x y : length x = length y -> ldot a (vadd x (vscal (-1) y)) = ldot a x - ldot a y.
Proof.
  revert x y. induction a as [|p a IH]; intros x y H; [simpl; ring|].
  destruct x as [|u x], y as [|v y]; simpl; try discriminate; [ring|]. rewrite IH by (simpl in H; lia). ring.
Qed.

(* ---- Fourier-Motzkin ---- *)
Definition hd0 (r : con) : R := match fst r with a :: _ => a | [] => 0 end.
Definition tl0 (r : con) : list R := match fst r with _ :: l => l | [] => [] end.
Definition comb (p q : con) : con :=
  (vadd (vscal (- hd0 q) (tl0 p)) (vscal (hd0 p) (tl0 q)), - hd0 q * snd p + hd0 p * snd q).
Definition zeros (cs : list con) := filter (fun r => Reqb (hd0 r) 0) cs.
Definition poss (cs : list con) := filter (fun r => Rltb 0 (hd0 r)) cs.
Definition negs (cs : list con) := filter (fun r => Rltb (hd0 r) 0) cs.
Definition elim (cs : list con) : list con :=
  map (fun r => (tl0 r, snd r)) (zeros cs) ++ flat_map (fun p => map (comb p) (negs cs)) (poss cs).
Fixpoint elims (n : nat) (cs : list con) : list con := match n with O => cs | S m => elims m (elim cs) end.

(* one unknown: the least v satisfying every  a v <= b *)
Definition lowers (cs : list con) : list R := map (fun r => snd r / hd0 r) (negs cs).
Definition max_of (x : R) (l : list R) : R := fold_right Rmax x l.
Definition least1 (cs : list con) : option R :=
  match lowers cs with
  | [] => None
  | x :: l => let v := max_of x l in
              if forallb (fun r => Rleb (hd0 r * v) (snd r)) cs then Some v else None
  end.
Definition fm_lp (n : nat) (cs : list con) (c : list R) : option R :=
  least1 (elims n (map (fun r => (fst r ++ [0], snd r)) cs ++ [(map Ropp c ++ [1], 0); (c ++ [-1], 0)])).

Lemma max_of_ge x l : x <= max_of x l /\ forall y, In y l -> y <= max_of x l.
Proof.
  induction l as [|z l [IH1 IH2]]; simpl; [split; [lra|tauto]|].
  split.
  - eapply Rle_trans; [exact IH1|apply Rmax_r].
  - intros y [<-|H]; [apply Rmax_l|]. eapply Rle_trans; [apply IH2; auto|apply Rmax_r].
Qed.
Lemma max_of_in x l : In (max_of x l) (x :: l).
Proof.
  induction l as [|z l IH]; simpl; [auto|]. unfold Rmax. destruct (Rle_dec z (max_of x l)); [|auto].
  destruct IH as [IH|IH]; [left|right; right]; auto.
Qed.

Lemma between (L U : list R) : (forall l u, In l L -> In u U -> l <= u) ->
  exists x, (forall l, In l L -> l <= x) /\ (forall u, In u U -> x <= u).
Proof.
  intros H. destruct L as [|l0 L].
  - destruct U as [|u0 U]; [exists 0; split; simpl; tauto|].
    exists (- max_of (- u0) (map Ropp U)). split; [simpl; tauto|].
    destruct (max_of_ge (- u0) (map Ropp U)) as [H1 H2].
    intros u [<-|Hu]; [lra|]. specialize (H2 (- u)). pose proof (H2 (in_map Ropp U u Hu)). lra.
  - exists (max_of l0 L). destruct (max_of_ge l0 L) as [H1 H2]. split.
    + intros l [<-|Hl]; auto.
    + intros u Hu. apply H; auto. apply max_of_in.
Qed.

Lemma sat_cons x xs r n : length (fst r) = S n -> (sat (x :: xs) r <-> hd0 r * x + ldot (tl0 r) xs <= snd r).
Proof. unfold sat, hd0, tl0. destruct (fst r) as [|a l]; [discriminate|]. simpl. tauto. Qed.
Lemma tl0_len r n : length (fst r) = S n -> length (tl0 r) = n.
Proof. unfold tl0. destruct (fst r); simpl; [discriminate|lia]. Qed.

Lemma comb_sat p q xs n : length (fst p) = S n -> length (fst q) = S n ->
  (sat xs (comb p q) <-> - hd0 q * ldot (tl0 p) xs + hd0 p * ldot (tl0 q) xs <= - hd0 q * snd p + hd0 p * snd q).
Proof.
  intros Hp Hq. unfold sat, comb. cbn [fst snd].
  rewrite ldot_vadd by (rewrite !vscal_length, (tl0_len p n), (tl0_len q n); auto). rewrite !ldot_vscal. tauto.
Qed.

Lemma elim_ok n cs xs : wide (S n) cs ->
  (Forall (sat xs) (elim cs) <-> exists x, Forall (sat (x :: xs)) cs).
Proof.
  intros W. unfold wide in W. rewrite Forall_forall in W. unfold elim.
  assert (Hz : forall r, In r (zeros cs) -> In r cs /\ hd0 r = 0).
  { intros r Hr. apply filter_In in Hr as [? Hr]. unfold Reqb in Hr. destruct (Req_EM_T (hd0 r) 0); [auto|discriminate]. }
  assert (Hp : forall r, In r (poss cs) -> In r cs /\ 0 < hd0 r).
  { intros r Hr. apply filter_In in Hr as [? Hr]. apply Rltb_true in Hr. auto. }
  assert (Hn : forall r, In r (negs cs) -> In r cs /\ hd0 r < 0).
  { intros r Hr. apply filter_In in Hr as [? Hr]. apply Rltb_true in Hr. auto. }
  rewrite Forall_app, !Forall_forall. split.
  - intros [Z PN].
    set (U := map (fun r => (snd r - ldot (tl0 r) xs) / hd0 r) (poss cs)).
    set (L := map (fun r => (snd r - ldot (tl0 r) xs) / hd0 r) (negs cs)).
    destruct (between L U) as (x & HL & HU).
    { intros l u Hl Hu. apply in_map_iff in Hl as (q & <- & Hq). apply in_map_iff in Hu as (p & <- & Hp').
      destruct (Hp p Hp') as [Ip Pp]. destruct (Hn q Hq) as [Iq Pq].
      assert (S1 : sat xs (comb p q)).
      { apply PN. apply in_flat_map. exists p. split; auto. apply in_map; auto. }
      rewrite (comb_sat p q xs n) in S1 by auto.
      apply (Rmult_le_reg_r (hd0 p * (- hd0 q))); [nra|].
      replace ((snd q - ldot (tl0 q) xs) / hd0 q * (hd0 p * - hd0 q)) with (- (snd q - ldot (tl0 q) xs) * hd0 p) by (field; lra).
      replace ((snd p - ldot (tl0 p) xs) / hd0 p * (hd0 p * - hd0 q)) with ((snd p - ldot (tl0 p) xs) * - hd0 q) by (field; lra).
      nra. }
    exists x. rewrite Forall_forall. intros r Hr. rewrite (sat_cons x xs r n) by auto.
    destruct (Rtotal_order (hd0 r) 0) as [Lt|[E|Gt]].
    + assert (Hl : (snd r - ldot (tl0 r) xs) / hd0 r <= x).
      { apply HL. apply in_map_iff. exists r. split; auto. apply filter_In. split; auto. apply Rltb_true; auto. }
      apply (Rmult_le_compat_neg_l (hd0 r)) in Hl; [|lra].
      replace (hd0 r * ((snd r - ldot (tl0 r) xs) / hd0 r)) with (snd r - ldot (tl0 r) xs) in Hl by (field; lra). lra.
    + rewrite E. assert (S1 : sat xs (tl0 r, snd r)).
      { apply Z. apply in_map_iff. exists r. split; auto. apply filter_In. split; auto. unfold Reqb. destruct (Req_EM_T (hd0 r) 0); auto. }
      unfold sat in S1. simpl in S1. lra.
    + assert (Hu : x <= (snd r - ldot (tl0 r) xs) / hd0 r).
      { apply HU. apply in_map_iff. exists r. split; auto. apply filter_In. split; auto. apply Rltb_true; auto. }
      apply (Rmult_le_compat_l (hd0 r)) in Hu; [|lra].
      replace (hd0 r * ((snd r - ldot (tl0 r) xs) / hd0 r)) with (snd r - ldot (tl0 r) xs) in Hu by (field; lra). lra.
  - intros (x & H). rewrite Forall_forall in H. split.
    + intros r' Hr'. apply in_map_iff in Hr' as (r & <- & Hr). destruct (Hz r Hr) as [I0 E].
      specialize (H r I0). rewrite (sat_cons x xs r n) in H by auto. rewrite E in H. unfold sat. simpl. lra.
    + intros r' Hr'. apply in_flat_map in Hr' as (p & Hp' & Hq). apply in_map_iff in Hq as (q & <- & Hq).
      destruct (Hp p Hp') as [Ip Pp]. destruct (Hn q Hq) as [Iq Pq].
      pose proof (H p Ip) as H1. pose proof (H q Iq) as H2.
      rewrite (sat_cons x xs p n) in H1 by auto. rewrite (sat_cons x xs q n) in H2 by auto.
      rewrite (comb_sat p q xs n) by auto. nra.
Qed.

Lemma elim_wide n cs : wide (S n) cs -> wide n (elim cs).
Proof.
  unfold wide. rewrite !Forall_forall. intros W r Hr. unfold elim in Hr. apply in_app_or in Hr as [Hr|Hr].
  - apply in_map_iff in Hr as (q & <- & Hq). apply filter_In in Hq as [Hq _]. simpl. apply tl0_len; auto.
  - apply in_flat_map in Hr as (p & Hp & Hq). apply in_map_iff in Hq as (q & <- & Hq).
    apply filter_In in Hp as [Hp _]. apply filter_In in Hq as [Hq _]. unfold comb. cbn [fst].
    apply vadd_length; rewrite vscal_length; apply tl0_len; auto.
Qed.

Lemma elims_ok n : forall cs v, wide (n + 1) cs ->
  wide 1 (elims n cs) /\ (Forall (sat [v]) (elims n cs) <-> exists x, length x = n /\ Forall (sat (x ++ [v])) cs).
Proof.
  induction n as [|n IH]; intros cs v W.
  - simpl. split; auto. split; intros H; [exists []; auto|]. destruct H as (x & L & H). destruct x; [auto|discriminate].
  - simpl. replace (S n + 1)%nat with (S (n + 1)) in W by lia.
    destruct (IH (elim cs) v (elim_wide _ _ W)) as [W1 E]. split; auto. rewrite E. split.
    + intros (x & L & H). apply (elim_ok (n + 1) cs _ W) in H as (x0 & H). exists (x0 :: x). simpl. auto.
    + intros (x & L & H). destruct x as [|x0 x]; [discriminate|]. exists x. split; [simpl in L; lia|].
      apply (elim_ok (n + 1) cs _ W). exists x0. exact H.
Qed.

Lemma sat1 v r : length (fst r) = 1%nat -> (sat [v] r <-> hd0 r * v <= snd r).
Proof. unfold sat, hd0. destruct (fst r) as [|a [|]]; try discriminate. simpl. intros _. rewrite Rplus_0_r. tauto. Qed.

Lemma least1_ok cs : wide 1 cs ->
  match least1 cs with
  | Some v => Forall (sat [v]) cs /\ forall w, Forall (sat [w]) cs -> v <= w
  | None => forall v, ~ (Forall (sat [v]) cs /\ forall w, Forall (sat [w]) cs -> v <= w)
  end.
Proof.
  intros W. unfold wide in W. rewrite Forall_forall in W. unfold least1.
  assert (LB : forall w, Forall (sat [w]) cs -> forall l, In l (lowers cs) -> l <= w).
  { intros w Hw l Hl. apply in_map_iff in Hl as (r & <- & Hr). apply filter_In in Hr as [Hr Hs]. apply Rltb_true in Hs.
    rewrite Forall_forall in Hw. specialize (Hw r Hr). rewrite sat1 in Hw by auto.
    apply Rmult_le_reg_r with (- hd0 r); [lra|].
    replace (snd r / hd0 r * - hd0 r) with (- snd r) by (field; lra). nra. }
  destruct (lowers cs) as [|x l] eqn:EL.
  - intros v [Hv Hmin].
    assert (H1 : Forall (sat [v - 1]) cs).
    { rewrite Forall_forall in *. intros r Hr. specialize (Hv r Hr). rewrite sat1 in * by auto.
      assert (0 <= hd0 r).
      { destruct (Rle_dec 0 (hd0 r)); auto. exfalso.
        assert (Hin : In (snd r / hd0 r) (lowers cs)).
        { apply in_map_iff. exists r. split; auto. apply filter_In. split; auto. apply Rltb_true. lra. }
        rewrite EL in Hin. destruct Hin. }
      nra. }
    specialize (Hmin _ H1). lra.
  - cbv zeta. set (v := max_of x l).
    assert (Hvin : In v (lowers cs)) by (rewrite EL; apply max_of_in).
    assert (Hvge : forall y, In y (lowers cs) -> y <= v).
    { rewrite EL. intros y [<-|Hy]; [exact (proj1 (max_of_ge x l))|exact (proj2 (max_of_ge x l) y Hy)]. }
    destruct (forallb (fun r => Rleb (hd0 r * v) (snd r)) cs) eqn:EF.
    + rewrite forallb_forall in EF. split.
      * rewrite Forall_forall. intros r Hr. rewrite sat1 by auto. specialize (EF r Hr). apply Rleb_true in EF. exact EF.
      * intros w Hw. apply LB; auto. apply max_of_in.
    + intros w [Hw _]. assert (v <= w) by (apply LB; auto; apply max_of_in).
      enough (forallb (fun r => Rleb (hd0 r * v) (snd r)) cs = true) by congruence.
      rewrite forallb_forall. intros r Hr. apply Rleb_true. rewrite Forall_forall in Hw. specialize (Hw r Hr).
      rewrite sat1 in Hw by auto.
      destruct (Rle_dec 0 (hd0 r)); [nra|].
      assert (Hl : snd r / hd0 r <= v).
      { apply Hvge. apply in_map_iff. exists r. split; auto. apply filter_In. split; auto. apply Rltb_true. lra. }
      apply (Rmult_le_compat_neg_l (hd0 r)) in Hl; [|lra].
      replace (hd0 r * (snd r / hd0 r)) with (snd r) in Hl by (field; lra). exact Hl.
Qed.

Lemma fm_system n cs c v : wide n cs -> length c = n ->
  let S := map (fun r => (fst r ++ [0], snd r)) cs ++ [(map Ropp c ++ [1], 0); (c ++ [-1], 0)] in
  wide (n + 1) S /\
  ((exists x, length x = n /\ Forall (sat (x ++ [v])) S) <-> exists x, feasible n cs x /\ ldot c x = v).
Proof.
  intros W Hc S. unfold wide in *. rewrite Forall_forall in W. split.
  - unfold S. rewrite Forall_app, !Forall_forall. split.
    + intros r Hr. apply in_map_iff in Hr as (q & <- & Hq). cbn [fst]. rewrite app_length, (W q Hq). reflexivity.
    + intros r [<-|[<-|[]]]; cbn [fst]; rewrite app_length, ?map_length, Hc; reflexivity.
  - assert (E : forall x, length x = n -> (Forall (sat (x ++ [v])) S <-> Forall (sat x) cs /\ ldot c x = v)).
    { intros x L. unfold S. rewrite Forall_app, !Forall_forall.
      assert (E1 : sat (x ++ [v]) (map Ropp c ++ [1], 0) <-> v <= ldot c x).
      { unfold sat. cbn [fst snd]. rewrite ldot_app by (rewrite map_length; lia). rewrite ldot_opp. simpl. split; lra. }
      assert (E2 : sat (x ++ [v]) (c ++ [-1], 0) <-> ldot c x <= v).
      { unfold sat. cbn [fst snd]. rewrite ldot_app by lia. simpl. split; lra. }
      split.
      - intros [H1 H2]. split.
        + intros r Hr. specialize (H1 (fst r ++ [0], snd r)).
          assert (Hs : sat (x ++ [v]) (fst r ++ [0], snd r)) by (apply H1; apply in_map_iff; exists r; auto).
          unfold sat in *. cbn [fst snd] in Hs. rewrite ldot_app in Hs by (rewrite (W r Hr); auto). simpl in Hs. lra.
        + pose proof (proj1 E1 (H2 _ (or_introl eq_refl))). pose proof (proj1 E2 (H2 _ (or_intror (or_introl eq_refl)))). lra.
      - intros [H1 H2]. split.
        + intros r Hr. apply in_map_iff in Hr as (q & <- & Hq). unfold sat. cbn [fst snd].
          rewrite ldot_app by (rewrite (W q Hq); auto). simpl. specialize (H1 q Hq). unfold sat in H1. lra.
        + intros r [<-|[<-|[]]]; [apply E1|apply E2]; lra. }
    split.
    + intros (x & L & H). apply E in H as [H1 H2]; auto. exists x. split; [split; auto|auto].
    + intros (x & [L H1] & H2). exists x. split; auto. apply E; auto.
Qed.

Theorem fm_lp_ok : lp_ok fm_lp.
Proof.
  intros n cs c W Hc. unfold fm_lp.
  set (S := map (fun r => (fst r ++ [0], snd r)) cs ++ [(map Ropp c ++ [1], 0); (c ++ [-1], 0)]).
  assert (WS : wide (n + 1) S) by (apply (fm_system n cs c 0 W Hc)).
  assert (EQ : forall v, Forall (sat [v]) (elims n S) <-> exists x, feasible n cs x /\ ldot c x = v).
  { intros v. rewrite (proj2 (elims_ok n S v WS)). apply (fm_system n cs c v W Hc). }
  assert (EM : forall v, (Forall (sat [v]) (elims n S) /\ forall w, Forall (sat [w]) (elims n S) -> v <= w) <-> is_min n cs c v).
  { intros v. unfold is_min. rewrite EQ. split; intros [H1 H2]; split; auto.
    - intros x Hx. apply H2. apply EQ. exists x; auto.
    - intros w Hw. apply EQ in Hw as (x & Hx & <-). auto. }
  pose proof (least1_ok (elims n S) (proj1 (elims_ok n S 0 WS))) as H.
  destruct (least1 (elims n S)) as [v|].
  - apply EM. exact H.
  - intros (v & Hv). apply (H v). apply EM. exact Hv.
Qed.

Lemma least1_none cs : wide 1 cs -> least1 cs = None ->
  (forall v, ~ Forall (sat [v]) cs) \/ (forall v w, Forall (sat [v]) cs -> w <= v -> Forall (sat [w]) cs).
Proof.
  intros W. unfold wide in W. rewrite Forall_forall in W. unfold least1.
  assert (LB : forall w, Forall (sat [w]) cs -> forall l, In l (lowers cs) -> l <= w).
  { intros w Hw l Hl. apply in_map_iff in Hl as (r & <- & Hr). apply filter_In in Hr as [Hr Hs]. apply Rltb_true in Hs.
    rewrite Forall_forall in Hw. specialize (Hw r Hr). rewrite sat1 in Hw by auto.
    apply Rmult_le_reg_r with (- hd0 r); [lra|].
    replace (snd r / hd0 r * - hd0 r) with (- snd r) by (field; lra). nra. }
  destruct (lowers cs) as [|x l] eqn:EL.
  - intros _. right. intros v w Hv Hw. rewrite Forall_forall in *. intros r Hr. specialize (Hv r Hr). rewrite sat1 in * by auto.
    assert (0 <= hd0 r).
    { destruct (Rle_dec 0 (hd0 r)); auto. exfalso.
      assert (Hin : In (snd r / hd0 r) (lowers cs)).
      { apply in_map_iff. exists r. split; auto. apply filter_In. split; auto. apply Rltb_true. lra. }
      rewrite EL in Hin. destruct Hin. }
    nra.
  - cbv zeta. destruct (forallb _ cs) eqn:EF; [discriminate|]. intros _. left. intros w Hw.
    set (v := max_of x l) in *.
    assert (v <= w) by (apply LB; auto; apply max_of_in).
    enough (forallb (fun r => Rleb (hd0 r * v) (snd r)) cs = true) by congruence.
    rewrite forallb_forall. intros r Hr. apply Rleb_true. rewrite Forall_forall in Hw. specialize (Hw r Hr).
    rewrite sat1 in Hw by auto.
    destruct (Rle_dec 0 (hd0 r)); [nra|].
    assert (Hl : snd r / hd0 r <= v).
    { assert (Hi : In (snd r / hd0 r) (x :: l)).
      { rewrite <- EL. apply in_map_iff. exists r. split; auto. apply filter_In. split; auto. apply Rltb_true. lra. }
      destruct Hi as [<-|Hi]; [exact (proj1 (max_of_ge x l))|exact (proj2 (max_of_ge x l) _ Hi)]. }
    apply (Rmult_le_compat_neg_l (hd0 r)) in Hl; [|lra].
    replace (hd0 r * (snd r / hd0 r)) with (snd r) in Hl by (field; lra). exact Hl.
Qed.

(* a feasible program bounded below attains its minimum *)
Theorem lp_attained n cs c m : wide n cs -> length c = n ->
  (exists x, feasible n cs x) -> (forall x, feasible n cs x -> m <= ldot c x) -> exists v, is_min n cs c v.
Proof.
  intros W Hc (x0 & Hx0) Hb. pose proof (fm_lp_ok n cs c W Hc) as H.
  destruct (fm_lp n cs c) as [v|] eqn:E; [eauto|]. exfalso.
  unfold fm_lp in E. set (S := map (fun r => (fst r ++ [0], snd r)) cs ++ [(map Ropp c ++ [1], 0); (c ++ [-1], 0)]) in *.
  assert (WS : wide (n + 1) S) by (apply (fm_system n cs c 0 W Hc)).
  assert (EQ : forall v, Forall (sat [v]) (elims n S) <-> exists x, feasible n cs x /\ ldot c x = v).
  { intros v. rewrite (proj2 (elims_ok n S v WS)). apply (fm_system n cs c v W Hc). }
  destruct (least1_none _ (proj1 (elims_ok n S 0 WS)) E) as [N|D].
  - apply (N (ldot c x0)). apply EQ. eauto.
  - assert (H1 : Forall (sat [ldot c x0]) (elims n S)) by (apply EQ; eauto).
    assert (H2 : Forall (sat [m - 1]) (elims n S)) by (apply (D _ _ H1); specialize (Hb x0 Hx0); lra).
    apply EQ in H2 as (x & Hx & Ex). specialize (Hb x Hx). lra.
Qed.

(* a solver that keeps its promise: what each answer means *)
Lemma lp_some lp n cs c v : lp_ok lp -> wide n cs -> length c = n -> (lp n cs c = Some v <-> is_min n cs c v).
Proof.
  intros H W Hc. specialize (H n cs c W Hc). split.
  - intros E. rewrite E in H. exact H.
  - intros M. destruct (lp n cs c) as [w|]; [|exfalso; eauto].
    destruct H as [(x & Hx & E1) H1]. destruct M as [(x' & Hx' & E2) H2]. f_equal.
    specialize (H1 x' Hx'). specialize (H2 x Hx). lra.
Qed.
Lemma lp_none lp n cs c : lp_ok lp -> wide n cs -> length c = n ->
  (forall m, exists x, feasible n cs x /\ ldot c x < m) -> lp n cs c = None.
Proof.
  intros H W Hc U. specialize (H n cs c W Hc). destruct (lp n cs c) as [v|]; auto.
  destruct H as [_ H]. destruct (U v) as (x & Hx & Hl). specialize (H x Hx). lra.
Qed.

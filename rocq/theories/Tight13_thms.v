(* When the cyclic penalty search of TROP stops (C79). *)
From Coq Require Import Reals Lra Lia.
From Verif Require Import Prelude Flt Trop_model Trop_sel.
From Coq Require Import Arith ZArith String List.
Import ListNotations.
Open Scope R_scope.

(* the first value of the grid with the smallest score; None is an infinite score *)
Definition first_best (f : lam -> option R) (grid : list lam) (v : lam) : Prop :=
  exists l1 l2, grid = l1 ++ v :: l2 /\ (forall w, In w l1 -> elt (f v) (f w) = true) /\ (forall w, In w grid -> elt (f w) (f v) = false).

Lemma elt_trans a b c : elt a b = true -> elt b c = true -> elt a c = true.
Proof. unfold elt. destruct a, b, c; try discriminate; auto. rewrite !Rltb_true. lra. Qed.
Lemma elt_le a b c : elt a b = true -> elt c b = false -> elt a c = true.
Proof. unfold elt. destruct a, b, c; try discriminate; auto. rewrite !Rltb_true, Rltb_false. lra. Qed.
Lemma elt_none a : elt None a = false.
Proof. reflexivity. Qed.

Lemma search_fold f pre grid v s : s = f v -> (exists l1 l2, pre = l1 ++ v :: l2 /\ (forall w, In w l1 -> elt (f v) (f w) = true) /\ (forall w, In w pre -> elt (f w) (f v) = false)) ->
  let r := fold_left (fun bs w => if elt (f w) (snd bs) then (w, f w) else bs) grid (v, s) in
  first_best f (pre ++ grid) (fst r) /\ snd r = f (fst r).
Proof.
  revert pre v s. induction grid as [|x grid IH]; intros pre v s -> (l1 & l2 & E & A & B); cbn [fold_left].
  - cbn [fst snd]. split; [|reflexivity]. rewrite app_nil_r. exists l1, l2. auto.
  - cbn [snd]. replace (pre ++ x :: grid) with ((pre ++ [x]) ++ grid) by (rewrite <- app_assoc; reflexivity).
    destruct (elt (f x) (f v)) eqn:D; apply IH; try reflexivity.
    + exists pre, []. split; [reflexivity|]. assert (C : forall w, In w pre -> elt (f x) (f w) = true) by (intros w Hw; apply (elt_le _ (f v)); auto).
      split; [exact C|]. intros w Hw. apply in_app_or in Hw as [Hw|[<-|[]]]; [|unfold elt; destruct (f x); [apply Rltb_false; lra|reflexivity]].
      specialize (C w Hw). revert C. unfold elt. destruct (f x), (f w); try discriminate; auto. rewrite Rltb_true, Rltb_false. lra.
    + exists l1, (l2 ++ [x]). split; [rewrite E, <- app_assoc; reflexivity|]. split; [exact A|]. intros w Hw. apply in_app_or in Hw as [Hw|[<-|[]]]; auto.
Qed.
Lemma search_first f grid : grid <> [] -> first_best f grid (fst (uni_search f grid)) /\ snd (uni_search f grid) = f (fst (uni_search f grid)).
Proof.
  intros Hg. destruct grid as [|x grid]; [congruence|]. change (uni_search f (x :: grid)) with (fold_left (fun bs w => if elt (f w) (snd bs) then (w, f w) else bs) grid (if elt (f x) None then (x, f x) else (x, None))).
  assert (E : (if elt (f x) None then (x, f x) else (x, None)) = (x, f x)) by (destruct (f x); reflexivity). rewrite E.
  apply (search_fold f [x] grid x (f x) eq_refl). exists [], []. split; [reflexivity|]. split; [intros w []|].
  intros w [<-|[]]. unfold elt. destruct (f x); [apply Rltb_false; lra|reflexivity].
Qed.

Section Stop.
Variable score : lam -> lam -> lam -> option R.
Variables gt gu gn : list lam.
Hypothesis Hgt : gt <> [].
Hypothesis Hgu : gu <> [].
Hypothesis Hgn : gn <> [].

(* one round: the unit penalty, then the time penalty, then the nuclear-norm penalty *)
Definition round (l l' : lam3) : Prop :=
  let '(lt, lu, ln) := l in let '(lt', lu', ln') := l' in
  first_best (fun v => score lt v ln) gu lu' /\ first_best (fun v => score v lu' ln) gt lt' /\ first_best (fun v => score lt' lu' v) gn ln'.
Definition sc (l : lam3) : option R := let '(a, b, c) := l in score a b c.
Definition within6 (a b : option R) : Prop := exists x y, a = Some x /\ b = Some y /\ Rabs (x - y) < / 10 ^ 6.

(* p 0, p 1, ..., p n are successive rounds *)
Definition rounds (p : nat -> lam3) (n : nat) : Prop := forall i, (i < n)%nat -> round (p i) (p (S i)).

Lemma close6_iff a b : close6 a b = true <-> within6 a b.
Proof.
  unfold close6, within6. destruct a as [x|], b as [y|]; split; try discriminate; try (intros (? & ? & ? & ? & _); discriminate).
  - rewrite Rltb_true. intros H. exists x, y. auto.
  - intros (x' & y' & [= ->] & [= ->] & H). now apply Rltb_true.
Qed.
Lemma stop_at k : forall prev l, exists p n, p 0%nat = l /\ p n = cycling score gt gu gn k prev l /\ (n <= k)%nat /\ rounds p n /\
  (forall i, (S i < n)%nat -> ~ within6 (sc (p (S i))) (if Nat.eqb i 0 then prev else sc (p i))) /\
  (n = k \/ exists m, n = S m /\ within6 (sc (p (S m))) (if Nat.eqb m 0 then prev else sc (p m))).
Proof.
  induction k as [|k IH]; intros prev l.
  - exists (fun _ => l), 0%nat. repeat split; auto; intros i Hi; lia.
  - destruct l as [[lt lu] ln]. cbn [cycling].
    set (lu' := fst (uni_search (fun v => score lt v ln) gu)). set (lt' := fst (uni_search (fun v => score v lu' ln) gt)). set (r := uni_search (fun v => score lt' lu' v) gn).
    pose proof (search_first (fun v => score lt v ln) gu Hgu) as [U _]. pose proof (search_first (fun v => score v lu' ln) gt Hgt) as [V _].
    pose proof (search_first (fun v => score lt' lu' v) gn Hgn) as [W Ws]. fold lu' in U. fold lt' in V. fold r in W, Ws. set (l' := (lt', lu', fst r)).
    assert (R1 : round (lt, lu, ln) l') by (unfold l'; cbn; auto).
    assert (Es : snd r = sc l') by exact Ws.
    destruct (close6 (snd r) prev) eqn:C.
    + exists (fun i => match i with O => (lt, lu, ln) | _ => l' end), 1%nat. split; [reflexivity|]. split; [reflexivity|]. split; [lia|].
      split; [intros [|i] Hi; [exact R1|lia]|]. split; [intros i Hi; lia|]. right. exists 0%nat. split; [reflexivity|]. cbn [Nat.eqb]. rewrite <- Es. apply close6_iff. exact C.
    + destruct (IH (snd r) l') as (p & n & P0 & Pn & Ln & Rn & Nn & Sn).
      exists (fun i => match i with O => (lt, lu, ln) | S j => p j end), (S n). split; [reflexivity|]. split; [exact Pn|]. split; [lia|].
      split; [intros [|i] Hi; [rewrite P0; exact R1|apply Rn; lia]|]. split.
      * intros [|i] Hi; cbn [Nat.eqb].
        -- rewrite P0, <- Es. intros F. apply close6_iff in F. congruence.
        -- specialize (Nn i ltac:(lia)). destruct i as [|i]; cbn [Nat.eqb] in Nn; [rewrite P0, <- Es|]; exact Nn.
      * destruct Sn as [->|(m & -> & Hm)]; [left; reflexivity|right]. exists (S m). split; [reflexivity|]. cbn [Nat.eqb].
        destruct m as [|m]; cbn [Nat.eqb] in Hm; [rewrite P0, <- Es|]; exact Hm.
Qed.

(* the two-stage search: three one-dimensional starts, then rounds until the score changes by less than 1e-6, ten at most *)
Theorem two_stage_stops : exists p n, 
  first_best (fun v => score v (Some 0) None) gt (fst (fst (p 0%nat))) /\ first_best (fun v => score (Some 0) v None) gu (snd (fst (p 0%nat))) /\
  first_best (fun v => score None (Some 0) v) gn (snd (p 0%nat)) /\
  rounds p n /\ p n = two_stage score gt gu gn /\ (1 <= n <= 10)%nat /\
  (forall i, (0 < i)%nat -> (S i < n)%nat -> ~ within6 (sc (p (S i))) (sc (p i))) /\
  (n = 10%nat \/ (2 <= n)%nat /\ within6 (sc (p n)) (sc (p (n - 1)%nat))).
Proof.
  unfold two_stage.
  pose proof (search_first (fun v => score v (Some 0) None) gt Hgt) as [A _]. pose proof (search_first (fun v => score (Some 0) v None) gu Hgu) as [B _].
  pose proof (search_first (fun v => score None (Some 0) v) gn Hgn) as [C _].
  destruct (stop_at 10 None (fst (uni_search (fun v => score v (Some 0) None) gt), fst (uni_search (fun v => score (Some 0) v None) gu), fst (uni_search (fun v => score None (Some 0) v) gn)))
    as (p & n & P0 & Pn & Ln & Rn & Nn & Sn).
  exists p, n. rewrite P0. cbn [fst snd]. split; [exact A|]. split; [exact B|]. split; [exact C|]. split; [exact Rn|]. split; [exact Pn|].
  assert (X : n = 10%nat \/ (2 <= n)%nat /\ within6 (sc (p n)) (sc (p (n - 1)%nat))).
  { destruct Sn as [->|(m & -> & Hm)]; [left; reflexivity|]. right. destruct m as [|m]; cbn [Nat.eqb] in Hm.
    - destruct Hm as (x & y & _ & F & _). discriminate.
    - split; [lia|]. replace (S (S m) - 1)%nat with (S m) by lia. exact Hm. }
  split; [destruct X as [X|[X _]]; lia|]. split; [|exact X]. intros [|i] Hi Hn; [lia|]. exact (Nn (S i) Hn).
Qed.
End Stop.

(* two values per grid and the score (a-1)^2 + b^2 + c^2: the search ends at (1, 0, 0) *)
Definition sq_score (a b c : lam) : option R := Some ((conv_w a - 1) * (conv_w a - 1) + conv_w b * conv_w b + conv_w c * conv_w c).
Lemma sq_search a b c : two_stage sq_score [Some 0; Some 1] [Some 0; Some 1] [Some 0; Some 1] = (Some a, Some b, Some c) -> a = 1 /\ b = 0 /\ c = 0.
Proof.
  destruct (two_stage_stops sq_score [Some 0; Some 1] [Some 0; Some 1] [Some 0; Some 1]) as (p & n & _ & _ & _ & Hr & Hn & [N _] & _); try discriminate.
  intros E. rewrite E in Hn. destruct n as [|n]; [lia|]. specialize (Hr n ltac:(lia)). rewrite Hn in Hr. unfold round in Hr. destruct (p n) as [[x y] z].
  destruct Hr as (H1 & H2 & H3). destruct H1 as (l1 & l2 & E1 & _ & B1), H2 as (m1 & m2 & E2 & _ & B2), H3 as (k1 & k2 & E3 & _ & B3).
  specialize (B1 (Some 0) (or_introl eq_refl)). specialize (B2 (Some 1) (or_intror (or_introl eq_refl))). specialize (B3 (Some 0) (or_introl eq_refl)).
  unfold sq_score, conv_w, elt in B1, B2, B3. apply Rltb_false in B1, B2, B3.
  assert (I1 : In (Some b) [Some 0; Some 1]) by (rewrite E1; apply in_or_app; right; left; reflexivity).
  assert (I2 : In (Some a) [Some 0; Some 1]) by (rewrite E2; apply in_or_app; right; left; reflexivity).
  assert (I3 : In (Some c) [Some 0; Some 1]) by (rewrite E3; apply in_or_app; right; left; reflexivity).
  destruct I1 as [[= <-]|[[= <-]|[]]], I2 as [[= <-]|[[= <-]|[]]], I3 as [[= <-]|[[= <-]|[]]]; repeat split; try reflexivity; exfalso; lra.
Qed.
Theorem sq_case : two_stage sq_score [Some 0; Some 1] [Some 0; Some 1] [Some 0; Some 1] = (Some 1, Some 0, Some 0).
Proof.
  pose proof (two_stage_in sq_score [Some 0; Some 1] [Some 0; Some 1] [Some 0; Some 1] ltac:(discriminate) ltac:(discriminate) ltac:(discriminate)) as H.
  pose proof sq_search as S. destruct (two_stage sq_score _ _ _) as [[a b] c]. cbn [in3] in H. destruct H as (A & B & C).
  assert (X : forall v : lam, In v [Some 0; Some 1] -> exists r, v = Some r) by (intros v [<-|[<-|[]]]; eauto).
  destruct (X _ A) as (a' & ->), (X _ B) as (b' & ->), (X _ C) as (c' & ->). destruct (S a' b' c' eq_refl) as (-> & -> & ->). reflexivity.
Qed.

(* Dimension: independent columns inside the span of k columns are at most k; the rank found by any rank-revealing
   factorisation is determined by the column space. *)
From Coq Require Import Reals Lra Lia.
From Verif Require Import Prelude Flt Linalg_model Linalg_proofs Linalg_vcov Linalg_thms.
From Coq Require Import Arith ZArith String List.
Import ListNotations.
Open Scope R_scope.

Definition same_span {I} (rows : list I) (A B : list (I -> R)) : Prop :=
  (forall c, In c A -> span rows B c) /\ (forall c, In c B -> span rows A c).

Section Dim.
Context {I : Type}.
Implicit Types (rows : list I) (A B D : list (I -> R)).

Lemma eliminate rows b B a xa va A : xa <> 0 -> length va = length B -> (forall i, In i rows -> a i = xa * b i + lc B va i) ->
  (forall c, In c A -> span rows (b :: B) c) ->
  exists A', length A' = length A /\ (forall c, In c A' -> span rows B c) /\
    forall e, length e = length A -> exists s, forall i, In i rows -> lc A' e i = lc A e i - s * a i.
Proof.
  intros Hx Lv Ha. induction A as [|c A IH]; intros H.
  - exists []. split; [easy|]. split; [easy|]. intros e _. exists 0. intros i _. cbn [lc]. ring.
  - destruct (IH (fun x Hx' => H x (or_intror Hx'))) as (A' & LA & HA & HE).
    destruct (H c (or_introl eq_refl)) as (v & Lc & Ec). destruct v as [|x v]; [easy|]. cbn [length] in Lc.
    exists ((fun i => c i - x / xa * a i) :: A'). split; [cbn [length]; now rewrite LA|]. split.
    + intros f [<-|Hf]; [|now apply HA]. exists (vadd v (vscal (- (x / xa)) va)). split; [apply vadd_length; [lia|now rewrite vscal_length]|].
      intros i Hi. rewrite lc_vadd by (rewrite ?vscal_length; lia). rewrite lc_vscal, Ec, Ha by easy. cbn [lc]. field. easy.
    + intros [|y e] Le; [easy|]. cbn [length] in Le. destruct (HE e ltac:(lia)) as [s Hs]. exists (s + y * (x / xa)). intros i Hi. cbn [lc]. rewrite Hs by easy. ring.
Qed.

Lemma repeat_app_split (c e : list R) n m : length c = n -> c ++ e = repeat 0 (n + m) -> c = repeat 0 n /\ e = repeat 0 m.
Proof.
  revert c. induction n as [|n IH]; intros [|x c] L H; cbn [length] in L; try easy. cbn [Nat.add app repeat] in H. injection H as -> H.
  destruct (IH c ltac:(lia) H) as [-> ->]. easy.
Qed.

Theorem indep_le rows B : forall A, indep rows A -> (forall c, In c A -> span rows B c) -> (length A <= length B)%nat.
Proof.
  induction B as [|b B IH].
  - intros [|a A] Hi H; [easy|]. exfalso. apply indep_cons in Hi. destruct Hi as [_ Hn]. apply Hn. destruct (H a (or_introl eq_refl)) as (v & _ & Ev).
    exists (repeat 0 (length A)). split; [apply repeat_length|]. intros i Hr. rewrite lc_repeat0, Ev by easy. now destruct v.
  - assert (G : forall A D, indep rows (D ++ A) -> (forall c, In c D -> span rows B c) -> (forall c, In c A -> span rows (b :: B) c) ->
        (length D + length A <= Datatypes.S (length B))%nat).
    { induction A as [|a A IA]; intros D Hi HD HA.
      - rewrite app_nil_r in Hi. specialize (IH D Hi HD). cbn [length]. lia.
      - destruct (HA a (or_introl eq_refl)) as (v & Lv & Ev). destruct v as [|x v]; [easy|]. cbn [length] in Lv.
        destruct (Req_dec x 0) as [->|Hx].
        + replace (D ++ a :: A) with ((D ++ [a]) ++ A) in Hi by now rewrite <- app_assoc.
          specialize (IA (D ++ [a]) Hi). rewrite app_length in IA. cbn [length] in *. enough (length D + 1 + length A <= Datatypes.S (length B))%nat by lia.
          apply IA; [|intros c Hc; apply HA; now right]. intros c Hc. apply in_app_or in Hc. destruct Hc as [Hc|[<-|[]]]; [now apply HD|].
          exists v. split; [lia|]. intros i Hr. rewrite Ev by easy. cbn [lc]. ring.
        + destruct (eliminate rows b B a x v A Hx ltac:(lia)) as (A' & LA & SA & EA).
          { intros i Hr. rewrite Ev by easy. cbn [lc]. ring. }
          { intros c Hc. apply HA. now right. }
          assert (Hi' : indep rows (D ++ A')).
          { intros w Lw Hw. rewrite app_length in Lw. set (c := firstn (length D) w). set (e := skipn (length D) w).
            assert (Lc : length c = length D) by (unfold c; rewrite firstn_length; lia).
            assert (Le : length e = length A') by (unfold e; rewrite skipn_length; lia).
            assert (Ew : w = c ++ e) by (symmetry; apply firstn_skipn).
            destruct (EA e ltac:(lia)) as [s Hs].
            assert (Z : c ++ (- s) :: e = repeat 0 (length (D ++ a :: A))).
            { apply Hi; [rewrite !app_length; cbn [length]; lia|]. intros i Hr. rewrite lc_app by easy. cbn [lc].
              specialize (Hw i Hr). rewrite Ew, lc_app in Hw by easy. rewrite Hs in Hw by easy. lra. }
            rewrite app_length in Z. apply repeat_app_split in Z; [|easy]. destruct Z as [Zc Ze]. cbn [length repeat] in Ze. injection Ze as _ Ze.
            rewrite Ew, Zc, Ze, app_length, repeat_app, LA. easy. }
          assert (L := IH (D ++ A') Hi'). rewrite app_length in L. cbn [length]. enough (length D + length A' <= length B)%nat by lia. apply L.
          intros c Hc. apply in_app_or in Hc. destruct Hc; auto. }
    intros A Hi H. specialize (G A [] Hi). cbn [length] in G. cbn [length]. apply G; easy.
Qed.

Lemma indep_same_length rows A B : indep rows A -> indep rows B -> same_span rows A B -> length A = length B.
Proof. intros HA HB [H1 H2]. apply Nat.le_antisymm; now apply (indep_le rows). Qed.

Lemma same_span_sym rows A B : same_span rows A B -> same_span rows B A.
Proof. now intros [? ?]. Qed.
Lemma same_span_trans rows A B C : same_span rows A B -> same_span rows B C -> same_span rows A C.
Proof. intros [H1 H2] [H3 H4]. split; intros c Hc; [apply (span_trans rows B)|apply (span_trans rows B)]; auto. Qed.
Lemma same_span_iff rows A B f : same_span rows A B -> span rows A f <-> span rows B f.
Proof. intros [H1 H2]. split; apply span_trans; auto. Qed.

(* the kept columns of a rank-revealing factorisation span what the columns span *)
Lemma kept_same_span (qr : list I -> list (I -> R) -> list nat) rows cols : qr_ok qr ->
  same_span rows (select_cols cols (kept_cols (length cols) (qr rows cols))) cols.
Proof.
  intros Hqr. destruct (Hqr rows cols) as [H1 _]. split.
  - intros c Hc. apply span_in. unfold select_cols in Hc. apply in_map_iff in Hc. destruct Hc as (j & <- & Hj). apply colx_in. apply kept_cols_lt in Hj. tauto.
  - now apply qr_ok_span.
Qed.
(* the rank does not depend on the columns chosen to describe the space, nor on the factorisation *)
Theorem rank_unique (qr qr' : list I -> list (I -> R) -> list nat) rows cols cols' : qr_ok qr -> qr_ok qr' -> same_span rows cols cols' ->
  length (kept_cols (length cols) (qr rows cols)) = length (kept_cols (length cols') (qr' rows cols')).
Proof.
  intros H H' S0. assert (K := kept_same_span qr rows cols H). assert (K' := kept_same_span qr' rows cols' H').
  destruct (H rows cols) as [_ I1]. destruct (H' rows cols') as [_ I2].
  assert (E := indep_same_length rows _ _ I1 I2 (same_span_trans _ _ _ _ K (same_span_trans _ _ _ _ S0 (same_span_sym _ _ _ K')))).
  unfold select_cols in E. now rewrite !map_length in E.
Qed.
End Dim.

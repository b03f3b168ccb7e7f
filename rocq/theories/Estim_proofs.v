(* Proofs about the object layer of Estim_model.v. *)
From Coq Require Import Arith ZArith String Ascii List Bool Lia.
From Verif Require Import Prelude Estim_model.
Import ListNotations.

(* ---------- specification-side vocabulary ---------- *)

(* text between separators, put together again *)
Fixpoint join (sep : ascii) (l : list text) : text :=
  match l with
  | [] => []
  | [x] => x
  | x :: r => x ++ sep :: join sep r
  end.

Definition blanks (s : text) : Prop := Forall (fun c => blank c = true) s.

(* a name with arbitrary blanks around it *)
Record padded : Type := mk_pad { pd_l : text; pd_name : text; pd_r : text }.
Definition written (p : padded) : text := pd_l p ++ pd_name p ++ pd_r p.

(* a column name the formula language can express: no operator characters, no outer blanks *)
Definition plain (n : text) : Prop :=
  strip n = n /\ ~ In ch_tilde n /\ ~ In ch_star n /\ ~ In ch_plus n /\ ~ In ch_colon n.
Definition okpad (p : padded) : Prop := blanks (pd_l p) /\ plain (pd_name p) /\ blanks (pd_r p).

(* ---------- strip ---------- *)

Lemma lstrip_blanks a s : blanks a -> lstrip (a ++ s) = lstrip s.
Proof. induction 1 as [|c a H _ IH]; simpl; [reflexivity|]. rewrite H. exact IH. Qed.

Lemma lstrip_all a : blanks a -> lstrip a = [].
Proof. intros H. rewrite <- (app_nil_r a). rewrite lstrip_blanks by exact H. reflexivity. Qed.

Lemma lstrip_len s : (length (lstrip s) <= length s)%nat.
Proof. induction s as [|c s IH]; simpl; [lia|]. destruct (blank c); simpl; lia. Qed.

Lemma lstrip_decomp s : exists a, blanks a /\ s = a ++ lstrip s.
Proof.
  induction s as [|c s (a & Ha & E)]; [exists []; split; [constructor|reflexivity]|].
  simpl. destruct (blank c) eqn:B.
  - exists (c :: a). split; [constructor; assumption|]. simpl. rewrite <- E. reflexivity.
  - exists []. split; [constructor|reflexivity].
Qed.

Lemma blanks_rev a : blanks a -> blanks (rev a).
Proof. intros H. apply Forall_rev. exact H. Qed.

Lemma strip_decomp s : exists a b, blanks a /\ blanks b /\ s = a ++ strip s ++ b.
Proof.
  destruct (lstrip_decomp s) as (a & Ha & E).
  destruct (lstrip_decomp (rev (lstrip s))) as (b & Hb & E2).
  exists a, (rev b). split; [exact Ha|]. split; [apply blanks_rev; exact Hb|].
  unfold strip. rewrite <- rev_app_distr. rewrite <- E2. rewrite rev_involutive. exact E.
Qed.

Lemma lstrip_head_keep c r s : blank c = false -> lstrip ((c :: r) ++ s) = (c :: r) ++ s.
Proof. intros H. simpl. rewrite H. reflexivity. Qed.

Lemma lstrip_app_r s b : blanks b ->
  lstrip (s ++ b) = lstrip s ++ (match lstrip s with [] => [] | _ => b end).
Proof.
  intros Hb. induction s as [|c s IH]; simpl; [apply lstrip_all; exact Hb|].
  destruct (blank c) eqn:B; [exact IH|]. reflexivity.
Qed.

Lemma strip_pad a s b : blanks a -> blanks b -> strip (a ++ s ++ b) = strip s.
Proof.
  intros Ha Hb. unfold strip. rewrite lstrip_blanks by exact Ha.
  rewrite lstrip_app_r by exact Hb.
  destruct (lstrip s) as [|c r]; [reflexivity|].
  rewrite rev_app_distr. rewrite lstrip_blanks by (apply blanks_rev; exact Hb). reflexivity.
Qed.

Lemma strip_written p : okpad p -> strip (written p) = pd_name p.
Proof. intros (Ha & (Hn & _) & Hb). unfold written. rewrite strip_pad by assumption. exact Hn. Qed.

Lemma strip_idem s : strip (strip s) = strip s.
Proof.
  destruct (strip_decomp s) as (a & b & Ha & Hb & E).
  rewrite E at 2. rewrite strip_pad by assumption. reflexivity.
Qed.

(* ---------- split ---------- *)

Lemma split_cons sep s : exists h q, split sep s = h :: q.
Proof.
  destruct s as [|c s]; simpl; [eexists; eexists; reflexivity|].
  destruct (ascii_dec c sep); [eexists; eexists; reflexivity|].
  destruct (split sep s); eexists; eexists; reflexivity.
Qed.

Lemma split_none sep a : ~ In sep a -> split sep a = [a].
Proof.
  induction a as [|c a IH]; intros H; simpl; [reflexivity|].
  destruct (ascii_dec c sep) as [->|N]; [exfalso; apply H; left; reflexivity|].
  rewrite IH; [reflexivity|]. intros K; apply H; right; exact K.
Qed.

Lemma split_app sep a r : ~ In sep a -> split sep (a ++ sep :: r) = a :: split sep r.
Proof.
  induction a as [|c a IH]; intros H; simpl.
  - destruct (ascii_dec sep sep); [reflexivity|congruence].
  - destruct (ascii_dec c sep) as [->|N]; [exfalso; apply H; left; reflexivity|].
    rewrite IH; [reflexivity|]. intros K; apply H; right; exact K.
Qed.

Lemma split_join sep l : l <> [] -> Forall (fun x => ~ In sep x) l -> split sep (join sep l) = l.
Proof.
  induction l as [|x l IH]; intros Hn H; [congruence|].
  inversion H as [|? ? Hx Hl]; subst.
  destruct l as [|y l]; [apply split_none; exact Hx|].
  change (join sep (x :: y :: l)) with (x ++ sep :: join sep (y :: l)).
  rewrite split_app by exact Hx. rewrite IH; [reflexivity|congruence|exact Hl].
Qed.

Lemma join_split sep s : join sep (split sep s) = s.
Proof.
  induction s as [|c s IH]; simpl; [reflexivity|].
  destruct (ascii_dec c sep) as [->|N].
  - destruct (split_cons sep s) as (h & q & E). rewrite E in IH |- *. simpl. simpl in IH. rewrite IH. reflexivity.
  - destruct (split_cons sep s) as (h & q & E). rewrite E in IH |- *.
    destruct q as [|z q]; simpl in IH |- *; rewrite IH; reflexivity.
Qed.

Lemma has_In c s : has c s = true <-> In c s.
Proof.
  unfold has. rewrite existsb_exists. split.
  - intros (x & Hx & E). destruct (ascii_dec x c); [subst; exact Hx|discriminate].
  - intros H. exists c. split; [exact H|]. destruct (ascii_dec c c); congruence.
Qed.

Lemma has_false c s : has c s = false <-> ~ In c s.
Proof. rewrite <- has_In. destruct (has c s); split; congruence. Qed.

Lemma blanks_not_in c a : blank c = false -> blanks a -> ~ In c a.
Proof.
  intros Hc Ha Hi. unfold blanks in Ha. rewrite Forall_forall in Ha.
  specialize (Ha _ Hi). congruence.
Qed.

Lemma In_strip c s : blank c = false -> (In c (strip s) <-> In c s).
Proof.
  intros Hc. destruct (strip_decomp s) as (a & b & Ha & Hb & E). split; intros H.
  - rewrite E. apply in_or_app. right. apply in_or_app. left. exact H.
  - rewrite E in H. apply in_app_or in H. destruct H as [H|H]; [exfalso; exact (blanks_not_in c a Hc Ha H)|].
    apply in_app_or in H. destruct H as [H|H]; [exact H|exfalso; exact (blanks_not_in c b Hc Hb H)].
Qed.

Lemma has_strip c s : blank c = false -> has c (strip s) = has c s.
Proof.
  intros Hc. destruct (has c s) eqn:E.
  - apply has_In. apply In_strip; [exact Hc|]. apply has_In. exact E.
  - apply has_false. rewrite In_strip by exact Hc. apply has_false. exact E.
Qed.

Lemma split_blank_l sep a s : blank sep = false -> blanks a ->
  map strip (split sep (a ++ s)) = map strip (split sep s).
Proof.
  intros Hs Ha. induction Ha as [|c a Hc Ha IH]; [reflexivity|].
  simpl. destruct (ascii_dec c sep) as [->|N]; [congruence|].
  destruct (split_cons sep (a ++ s)) as (h & q & E). rewrite E in IH |- *.
  rewrite <- IH. simpl. f_equal. pose proof (strip_pad [c] h [] (Forall_cons _ Hc (Forall_nil _)) (Forall_nil _)) as K.
  rewrite app_nil_r in K. exact K.
Qed.

Lemma split_blank_r sep b s : blank sep = false -> blanks b ->
  exists i l, split sep s = i ++ [l] /\ split sep (s ++ b) = i ++ [l ++ b].
Proof.
  intros Hs Hb. induction s as [|c s IH].
  - exists [], []. split; [reflexivity|]. simpl. apply split_none. apply blanks_not_in; assumption.
  - destruct IH as (i & l & E1 & E2). simpl.
    destruct (ascii_dec c sep) as [->|N].
    + exists ([] :: i), l. rewrite E1, E2. split; reflexivity.
    + rewrite E1, E2. destruct i as [|h i]; simpl.
      * exists [], (c :: l). split; reflexivity.
      * exists ((c :: h) :: i), l. split; reflexivity.
Qed.

Lemma split_strip sep s : blank sep = false -> map strip (split sep (strip s)) = map strip (split sep s).
Proof.
  intros Hs. destruct (strip_decomp s) as (a & b & Ha & Hb & E).
  rewrite E at 2. rewrite split_blank_l by assumption.
  destruct (split_blank_r sep b (strip s) Hs Hb) as (i & l & E1 & E2).
  rewrite E1, E2, !map_app. simpl. f_equal. f_equal.
  symmetry. exact (strip_pad [] l b (Forall_nil _) Hb).
Qed.

(* ---------- the parser on well-formed formulas ---------- *)

Lemma mem_In x l : mem x l = true <-> In x l.
Proof.
  unfold mem. rewrite existsb_exists. split.
  - intros (y & Hy & E). unfold teqb in E. destruct (text_dec x y); [subst; exact Hy|discriminate].
  - intros H. exists x. split; [exact H|]. unfold teqb. destruct (text_dec x x); congruence.
Qed.

Lemma teqb_refl x : teqb x x = true.
Proof. unfold teqb. destruct (text_dec x x); congruence. Qed.

Lemma written_free c p : blank c = false -> okpad p -> ~ In c (pd_name p) -> ~ In c (written p).
Proof.
  intros Hc (Ha & _ & Hb) Hn H. unfold written in H.
  apply in_app_or in H. destruct H as [H|H]; [exact (blanks_not_in c _ Hc Ha H)|].
  apply in_app_or in H. destruct H as [H|H]; [exact (Hn H)|exact (blanks_not_in c _ Hc Hb H)].
Qed.

Lemma nb_tilde : blank ch_tilde = false. Proof. reflexivity. Qed.
Lemma nb_star : blank ch_star = false. Proof. reflexivity. Qed.
Lemma nb_plus : blank ch_plus = false. Proof. reflexivity. Qed.
Lemma nb_colon : blank ch_colon = false. Proof. reflexivity. Qed.

Lemma w_tilde p : okpad p -> ~ In ch_tilde (written p).
Proof. intros H. apply written_free; [reflexivity|exact H|]. apply H. Qed.
Lemma w_star p : okpad p -> ~ In ch_star (written p).
Proof. intros H. apply written_free; [reflexivity|exact H|]. apply H. Qed.
Lemma w_plus p : okpad p -> ~ In ch_plus (written p).
Proof. intros H. apply written_free; [reflexivity|exact H|]. apply H. Qed.
Lemma w_colon p : okpad p -> ~ In ch_colon (written p).
Proof. intros H. apply written_free; [reflexivity|exact H|]. apply H. Qed.

Lemma join_free c sep l : c <> sep -> Forall (fun x => ~ In c x) l -> ~ In c (join sep l).
Proof.
  intros Hc H. induction H as [|x l Hx Hl IH]; [intros []|].
  destruct l as [|y l]; [exact Hx|].
  change (join sep (x :: y :: l)) with (x ++ sep :: join sep (y :: l)).
  intros K. apply in_app_or in K. destruct K as [K|[K|K]]; [exact (Hx K)|congruence|exact (IH K)].
Qed.

Definition star_rhs (d t : padded) (xs : list padded) : text :=
  written d ++ ch_star :: join ch_plus (map written (t :: xs)).
(* y ~ d * t + x1 + ... + xn with arbitrary blanks *)
Definition star_formula (y d t : padded) (xs : list padded) : text :=
  written y ++ ch_tilde :: star_rhs d t xs.

Lemma Forall_written c l :
  (forall p, okpad p -> ~ In c (written p)) -> Forall okpad l -> Forall (fun x => ~ In c x) (map written l).
Proof. intros H Hl. induction Hl; simpl; constructor; auto. Qed.

Lemma map_strip_written l : Forall okpad l -> map strip (map written l) = map pd_name l.
Proof. induction 1; simpl; [reflexivity|]. rewrite strip_written by assumption. f_equal. assumption. Qed.

Lemma star_split d t xs : okpad d -> okpad t -> Forall okpad xs ->
  split ch_star (star_rhs d t xs) = [written d; join ch_plus (map written (t :: xs))].
Proof.
  intros Hd Ht Hx. unfold star_rhs. rewrite split_app by (apply w_star; exact Hd).
  f_equal. apply split_none. apply join_free; [discriminate|].
  apply Forall_written; [exact w_star|]. constructor; assumption.
Qed.

Lemma unpack2_map2 (l : list text) a b : map strip l = [a; b] ->
  exists a' b', l = [a'; b'] /\ strip a' = a /\ strip b' = b.
Proof.
  destruct l as [|a' [|b' [|]]]; simpl; intros H; try discriminate.
  injection H as Ha Hb. exists a', b'. auto.
Qed.

Lemma parse_star_ok d t xs : okpad d -> okpad t -> Forall okpad xs ->
  parse_star (strip (star_rhs d t xs)) = Ok (pd_name d, pd_name t, some_ne (map pd_name xs)).
Proof.
  intros Hd Ht Hx. pose proof (split_strip ch_star (star_rhs d t xs) eq_refl) as E.
  rewrite star_split in E by assumption.
  cbn [map] in E. apply unpack2_map2 in E. destruct E as (a & b & E & Ea & Eb).
  unfold parse_star. rewrite E. cbn [unpack2 bind fst snd].
  rewrite Ea, Eb. rewrite strip_written by exact Hd.
  remember (join ch_plus (written t :: map written xs)) as J eqn:DJ.
  change (written t :: map written xs) with (map written (t :: xs)) in DJ.
  rewrite has_strip by reflexivity.
  assert (ES : split ch_plus J = map written (t :: xs)).
  { rewrite DJ. apply split_join; [discriminate|]. apply Forall_written; [exact w_plus|]. constructor; assumption. }
  pose proof (split_strip ch_plus J eq_refl) as E2. rewrite ES in E2.
  rewrite map_strip_written in E2 by (constructor; assumption).
  destruct xs as [|x xs].
  - assert (EJ : has ch_plus J = false).
    { apply has_false. rewrite DJ. simpl. apply w_plus. exact Ht. }
    rewrite EJ, DJ. simpl. rewrite strip_written by exact Ht. reflexivity.
  - assert (EJ : has ch_plus J = true).
    { apply has_In. rewrite DJ. simpl. apply in_or_app. right. left. reflexivity. }
    rewrite EJ. destruct (split ch_plus (strip J)) as [|h q]; [discriminate|].
    simpl in E2. injection E2 as E3 E4. rewrite E3, E4. reflexivity.
Qed.

Theorem parse_star_formula cols y d t xs :
  okpad y -> okpad d -> okpad t -> Forall okpad xs ->
  In (pd_name y) cols -> In (pd_name d) cols -> In (pd_name t) cols ->
  (forall x, In x xs -> In (pd_name x) cols) ->
  parse_formula cols (star_formula y d t xs) =
  Ok (mk_parsed (pd_name y) (pd_name d) (pd_name t) (some_ne (map pd_name xs))).
Proof.
  intros Hy Hd Ht Hx Cy Cd Ct Cx. unfold parse_formula, star_formula.
  assert (E1 : has ch_tilde (written y ++ ch_tilde :: star_rhs d t xs) = true).
  { apply has_In. apply in_or_app. right. left. reflexivity. }
  rewrite E1. cbn [negb].
  assert (Hfree : ~ In ch_tilde (star_rhs d t xs)).
  { unfold star_rhs. intros K. apply in_app_or in K. destruct K as [K|[K|K]].
    - exact (w_tilde d Hd K).
    - discriminate.
    - revert K. apply join_free; [discriminate|]. apply Forall_written; [exact w_tilde|].
      constructor; assumption. }
  rewrite split_app by (apply w_tilde; exact Hy). rewrite split_none by exact Hfree.
  cbn [unpack2 bind fst snd]. rewrite has_strip by reflexivity.
  assert (E2 : has ch_star (star_rhs d t xs) = true).
  { apply has_In. unfold star_rhs. apply in_or_app. right. left. reflexivity. }
  rewrite E2. rewrite parse_star_ok by assumption. cbn [bind].
  rewrite strip_written by exact Hy.
  assert (E3 : forallb (fun c => mem c cols) [pd_name y; pd_name d; pd_name t] = true).
  { apply forallb_forall. intros c Hc. apply mem_In. simpl in Hc.
    destruct Hc as [<-|[<-|[<-|[]]]]; assumption. }
  rewrite E3. cbn [negb].
  assert (E4 : forallb (fun c => mem c cols) (match some_ne (map pd_name xs) with Some l => l | None => [] end) = true).
  { apply forallb_forall. intros c Hc. apply mem_In.
    destruct xs as [|x xs]; [destruct Hc|]. cbn [map some_ne] in Hc.
    change (pd_name x :: map pd_name xs) with (map pd_name (x :: xs)) in Hc.
    apply in_map_iff in Hc. destruct Hc as (z & <- & Hz). apply Cx. exact Hz. }
  rewrite E4. reflexivity.
Qed.

(* y ~ m1 + ... + d:t + ... + mn *)
Definition inter (d t : padded) : text := written d ++ ch_colon :: written t.
Definition colon_formula (y d t : padded) (pre post : list padded) : text :=
  written y ++ ch_tilde :: join ch_plus (map written pre ++ inter d t :: map written post).

Lemma scan_plain l i m r : Forall (fun x => ~ In ch_colon x) l ->
  scan_terms (l ++ r) i m = scan_terms r i (m ++ l).
Proof.
  intros H. revert m. induction H as [|x l Hx Hl IH]; intros m; simpl; [rewrite app_nil_r; reflexivity|].
  apply has_false in Hx. rewrite Hx. rewrite IH. rewrite <- app_assoc. reflexivity.
Qed.

Lemma names_free c l : (forall p, okpad p -> ~ In c (pd_name p)) -> Forall okpad l ->
  Forall (fun x => ~ In c x) (map pd_name l).
Proof. intros H Hl. induction Hl; simpl; constructor; auto. Qed.

Theorem parse_colon_formula cols y d t pre post :
  okpad y -> okpad d -> okpad t -> Forall okpad pre -> Forall okpad post ->
  In (pd_name y) cols -> In (pd_name d) cols -> In (pd_name t) cols ->
  (forall x, In x (pre ++ post) -> In (pd_name x) cols) ->
  parse_formula cols (colon_formula y d t pre post) =
  Ok (mk_parsed (pd_name y) (pd_name d) (pd_name t)
        (some_ne (filter (fun x => negb (teqb x (pd_name d)) && negb (teqb x (pd_name t)))
                         (map pd_name (pre ++ post))))).
Proof.
  intros Hy Hd Ht Hpre Hpost Cy Cd Ct Cx. unfold parse_formula, colon_formula.
  set (terms := map written pre ++ inter d t :: map written post).
  assert (Hfree : forall c, c <> ch_colon -> blank c = false ->
      (forall p, okpad p -> ~ In c (written p)) -> Forall (fun x => ~ In c x) terms).
  { intros c Nc Bc Hc. unfold terms. apply Forall_app. split; [apply Forall_written; assumption|].
    constructor; [|apply Forall_written; assumption].
    unfold inter. intros K. apply in_app_or in K. destruct K as [K|[K|K]].
    - exact (Hc d Hd K).
    - congruence.
    - exact (Hc t Ht K). }
  assert (Hne : terms <> []) by (unfold terms; destruct (map written pre); discriminate).
  assert (E1 : has ch_tilde (written y ++ ch_tilde :: join ch_plus terms) = true).
  { apply has_In. apply in_or_app. right. left. reflexivity. }
  rewrite E1. cbn [negb].
  rewrite split_app by (apply w_tilde; exact Hy).
  rewrite split_none by (apply join_free; [discriminate|apply Hfree; [discriminate|reflexivity|exact w_tilde]]).
  cbn [unpack2 bind fst snd]. rewrite !has_strip by reflexivity.
  assert (E2 : has ch_star (join ch_plus terms) = false).
  { apply has_false. apply join_free; [discriminate|apply Hfree; [discriminate|reflexivity|exact w_star]]. }
  rewrite E2.
  assert (ES : split ch_plus (join ch_plus terms) = terms).
  { apply split_join; [exact Hne|]. apply Hfree; [discriminate|reflexivity|exact w_plus]. }
  assert (E3 : has ch_colon (join ch_plus terms) = true).
  { apply has_In. rewrite <- (join_split ch_plus (join ch_plus terms)). rewrite ES.
    assert (K : forall l, In (inter d t) l -> In ch_colon (join ch_plus l)).
    { induction l as [|x l IH]; [intros []|]. intros [E|Hi].
      - subst. destruct l as [|z l]; simpl; unfold inter.
        + apply in_or_app. right. left. reflexivity.
        + apply in_or_app. left. apply in_or_app. right. left. reflexivity.
      - destruct l as [|z l]; [destruct Hi|]. simpl. apply in_or_app. right. right. exact (IH Hi). }
    apply K. unfold terms. apply in_or_app. right. left. reflexivity. }
  rewrite E3. unfold parse_colon. rewrite split_strip by reflexivity. rewrite ES.
  unfold terms. rewrite map_app. cbn [map]. rewrite !map_strip_written by assumption.
  assert (Hcolon : has ch_colon (strip (inter d t)) = true).
  { rewrite has_strip by reflexivity. apply has_In. unfold inter. apply in_or_app. right. left. reflexivity. }
  rewrite (scan_plain (map pd_name pre)) by (apply names_free; [intros p Hp; apply Hp|exact Hpre]).
  cbn [scan_terms]. rewrite Hcolon. cbn [app].
  rewrite <- (app_nil_r (map pd_name post)).
  rewrite (scan_plain (map pd_name post)) by (apply names_free; [intros p Hp; apply Hp|exact Hpost]).
  cbn [scan_terms fst snd].
  rewrite split_strip by reflexivity.
  assert (ED : split ch_colon (inter d t) = [written d; written t]).
  { unfold inter. rewrite split_app by (apply w_colon; exact Hd). f_equal. apply split_none. apply w_colon. exact Ht. }
  rewrite ED. cbn [map]. rewrite !strip_written by assumption. cbn [unpack2 bind fst snd].
  rewrite <- map_app.
  assert (E5 : forallb (fun c => mem c cols) [pd_name y; pd_name d; pd_name t] = true).
  { apply forallb_forall. intros c Hc. apply mem_In. simpl in Hc.
    destruct Hc as [<-|[<-|[<-|[]]]]; assumption. }
  rewrite E5. cbn [negb].
  set (fl := filter _ _).
  assert (E6 : forallb (fun c => mem c cols) (match some_ne fl with Some l => l | None => [] end) = true).
  { apply forallb_forall. intros c Hc. apply mem_In.
    assert (Hin : In c fl) by (destruct fl; [destruct Hc|exact Hc]).
    unfold fl in Hin. apply filter_In in Hin. destruct Hin as [Hin _].
    apply in_map_iff in Hin. destruct Hin as (z & <- & Hz). apply Cx. exact Hz. }
  rewrite E6. reflexivity.
Qed.

(* ---------- soundness and errors ---------- *)

Lemma unpack2_err {A} (l : list A) e : unpack2 l = Err e -> e = ValueError.
Proof. destruct l as [|a [|b [|]]]; simpl; congruence. Qed.

Lemma parse_formula_sound cols f p : parse_formula cols f = Ok p ->
  In (p_outcome p) cols /\ In (p_treatment p) cols /\ In (p_time p) cols /\
  (forall l x, p_covariates p = Some l -> In x l -> In x cols).
Proof.
  unfold parse_formula. destruct (negb (has ch_tilde f)); [discriminate|].
  destruct (unpack2 (split ch_tilde f)) as [lr|e]; [|discriminate]. cbn [bind].
  match goal with |- bind ?x _ = _ -> _ => destruct x as [[[d t] cv]|e] end; [|discriminate]. cbn [bind].
  destruct (forallb _ [_; _; _]) eqn:E1; [|discriminate]. cbn [negb].
  destruct (forallb _ (match cv with Some l => l | None => [] end)) eqn:E2; [|discriminate]. cbn [negb].
  intros H. injection H as <-. simpl. rewrite forallb_forall in E1, E2.
  split; [apply mem_In, E1; simpl; auto|]. split; [apply mem_In, E1; simpl; auto|].
  split; [apply mem_In, E1; simpl; auto|].
  intros l x -> Hx. apply mem_In. apply E2. exact Hx.
Qed.

Lemma parse_formula_only_value_error cols f e : parse_formula cols f = Err e -> e = ValueError.
Proof.
  unfold parse_formula. destruct (negb (has ch_tilde f)); [congruence|].
  destruct (unpack2 (split ch_tilde f)) as [lr|e'] eqn:E; cbn [bind];
    [|intros H; injection H as <-; exact (unpack2_err _ _ E)].
  match goal with |- bind ?x _ = _ -> _ => destruct x as [[[d t] cv]|e'] eqn:E2 end; cbn [bind].
  - repeat match goal with |- (if ?b then _ else _) = _ -> _ => destruct b end; congruence.
  - intros H. injection H as <-. revert E2. clear E.
    destruct (has ch_star (strip (snd lr))).
    + unfold parse_star. destruct (unpack2 _) eqn:E3; cbn [bind].
      * cbv zeta. destruct (has ch_plus _); [|discriminate].
        destruct (split ch_plus _); discriminate.
      * intros K; injection K as <-. exact (unpack2_err _ _ E3).
    + destruct (has ch_colon _); [|congruence].
      unfold parse_colon. destruct (fst _); [|congruence].
      destruct (unpack2 _) eqn:E3; cbn [bind]; [congruence|].
      intros K; injection K as <-. exact (unpack2_err _ _ E3).
Qed.

Lemma parse_formula_no_tilde cols f : ~ In ch_tilde f -> parse_formula cols f = Err ValueError.
Proof. intros H. apply has_false in H. unfold parse_formula. rewrite H. reflexivity. Qed.

Lemma split_length sep s : length (split sep s) = S (count_occ ascii_dec s sep).
Proof.
  induction s as [|c s IH]; simpl; [reflexivity|].
  destruct (ascii_dec c sep); simpl; [rewrite IH; reflexivity|].
  destruct (split sep s) as [|h q]; simpl in *; [discriminate|exact IH].
Qed.

Lemma unpack2_ok {A} (l : list A) p : unpack2 l = Ok p -> l = [fst p; snd p].
Proof. destruct l as [|a [|b [|]]]; simpl; try discriminate. intros H; injection H as <-; reflexivity. Qed.

Lemma parse_formula_needs cols f p : parse_formula cols f = Ok p ->
  count_occ ascii_dec f ch_tilde = 1%nat /\ (In ch_star f \/ In ch_colon f).
Proof.
  unfold parse_formula. destruct (negb (has ch_tilde f)); [discriminate|].
  destruct (unpack2 (split ch_tilde f)) as [lr|e] eqn:E; [|discriminate]. cbn [bind].
  apply unpack2_ok in E. pose proof (split_length ch_tilde f) as L. rewrite E in L. simpl in L.
  intros H. split; [lia|].
  assert (J : f = fst lr ++ ch_tilde :: snd lr).
  { rewrite <- (join_split ch_tilde f), E. reflexivity. }
  revert H. destruct (has ch_star (strip (snd lr))) eqn:S1.
  - intros _. left. apply has_In in S1. apply (proj1 (In_strip ch_star (snd lr) eq_refl)) in S1.
    rewrite J. apply in_or_app. right. right. exact S1.
  - destruct (has ch_colon (strip (snd lr))) eqn:S2; [|discriminate].
    intros _. right. apply has_In in S2. apply (proj1 (In_strip ch_colon (snd lr) eq_refl)) in S2.
    rewrite J. apply in_or_app. right. right. exact S2.
Qed.

(* ---------- argument resolution ---------- *)

Lemma fit_args_formula_wins cols f o d t c : fit_args cols (Some f) o d t c = parse_formula cols f.
Proof. reflexivity. Qed.

Definition ex_cols : list text := map t_ ["y"; "d"; "t"; "x"; "z"]%string.

Lemma fit_args_drops_covariates :
  exists f c p, fit_args ex_cols (Some f) None None None (Some c) = Ok p /\
    c <> [] /\ (forall x, In x c -> In x ex_cols) /\ p_covariates p = None.
Proof.
  exists (t_ "y ~ d * t"), [t_ "x"]. eexists. split; [vm_compute; reflexivity|].
  split; [discriminate|]. split; [|reflexivity].
  intros x [<-|[]]. vm_compute. tauto.
Qed.

(* two interactions: the last one wins and the true time variable becomes a covariate *)
Lemma two_interactions_last_wins :
  parse_formula ex_cols (t_ "y ~ d + t + d:t + d:x") =
  Ok (mk_parsed (t_ "y") (t_ "d") (t_ "x") (Some [t_ "t"])).
Proof. vm_compute. reflexivity. Qed.

(* covariates before the product are read as part of the treatment's name *)
Lemma star_covariates_first_rejected :
  parse_formula ex_cols (t_ "y ~ x + d * t") = Err ValueError.
Proof. vm_compute. reflexivity. Qed.

(* ---------- get_params / set_params ---------- *)

Section Attrs.
Context {V : Type}.
Implicit Types (o : obj V) (k : string).

Lemma get_set_same o k v : getattr (setattr o k v) k = Some v.
Proof.
  induction o as [|[k' v'] o IH]; simpl; [destruct (string_dec k k); congruence|].
  destruct (string_dec k k') as [->|N]; simpl.
  - destruct (string_dec k' k'); congruence.
  - destruct (string_dec k k'); congruence.
Qed.

Lemma get_set_other o k k' v : k' <> k -> getattr (setattr o k v) k' = getattr o k'.
Proof.
  intros N. induction o as [|[a b] o IH]; simpl.
  - destruct (string_dec k' k); congruence.
  - destruct (string_dec k a) as [->|M]; simpl.
    + destruct (string_dec k' a); congruence.
    + destruct (string_dec k' a); congruence.
Qed.

Lemma set_same_id o k v : getattr o k = Some v -> setattr o k v = o.
Proof.
  induction o as [|[a b] o IH]; simpl; [discriminate|].
  destruct (string_dec k a) as [->|N]; [congruence|]. intros H. rewrite IH by exact H. reflexivity.
Qed.

Lemma hasattr_get ca o k v : getattr o k = Some v -> hasattr ca o k = true.
Proof. unfold hasattr. intros ->. reflexivity. Qed.

(* set_params( **get_params()) is the identity *)
Theorem set_get_identity ca names o ps : get_params names o = Ok ps -> set_params ca o ps = (o, Ok tt).
Proof.
  revert ps. induction names as [|k names IH]; intros ps H; simpl in H; [injection H as <-; reflexivity|].
  destruct (getattr o k) as [v|] eqn:E; [|discriminate].
  destruct (get_params names o) as [q|] eqn:Q; [|discriminate]. cbn [bind] in H. injection H as <-.
  simpl. rewrite (hasattr_get ca o k v E). rewrite (set_same_id o k v E). apply IH. reflexivity.
Qed.

Lemma get_params_lookup names o ps : get_params names o = Ok ps ->
  forall k, In k names -> lookup ps k = getattr o k.
Proof.
  revert ps. induction names as [|a names IH]; intros ps H k Hk; [destruct Hk|]. simpl in H.
  destruct (getattr o a) as [v|] eqn:E; [|discriminate].
  destruct (get_params names o) as [q|] eqn:Q; [|discriminate]. cbn [bind] in H. injection H as <-.
  simpl. destruct (string_dec k a) as [->|N]; [symmetry; exact E|].
  apply (IH q eq_refl). destruct Hk; [congruence|assumption].
Qed.

Lemma get_params_keys names o ps : get_params names o = Ok ps -> map fst ps = names.
Proof.
  revert ps. induction names as [|a names IH]; intros ps H; simpl in H; [injection H as <-; reflexivity|].
  destruct (getattr o a) as [v|] eqn:E; [|discriminate].
  destruct (get_params names o) as [q|] eqn:Q; [|discriminate]. cbn [bind] in H. injection H as <-.
  simpl. f_equal. apply IH. reflexivity.
Qed.

(* effect of a successful call: later assignments to the same key win, other attributes keep their value *)
Lemma set_params_getattr ca o ps o' : set_params ca o ps = (o', Ok tt) ->
  forall k, getattr o' k = match lookup (rev ps) k with Some v => Some v | None => getattr o k end.
Proof.
  revert o. induction ps as [|[a b] ps IH]; intros o H k; simpl in H; [injection H as <-; reflexivity|].
  destruct (hasattr ca o a); [|discriminate].
  rewrite (IH _ H k). simpl.
  assert (L : forall l, lookup (l ++ [(a, b)]) k =
    match lookup l k with Some v => Some v | None => if string_dec k a then Some b else None end).
  { induction l as [|[x y] l IHl]; simpl; [reflexivity|].
    destruct (string_dec k x); [reflexivity|exact IHl]. }
  rewrite L. destruct (lookup (rev ps) k); [reflexivity|].
  destruct (string_dec k a) as [->|N]; [apply get_set_same|apply get_set_other; exact N].
Qed.

Theorem set_one ca o k v : hasattr ca o k = true ->
  exists o', set_params ca o [(k, v)] = (o', Ok tt) /\ getattr o' k = Some v /\
    forall k', k' <> k -> getattr o' k' = getattr o k'.
Proof.
  intros H. exists (setattr o k v). split; [simpl; rewrite H; reflexivity|].
  split; [apply get_set_same|]. intros k' N. apply get_set_other. exact N.
Qed.

Theorem set_unknown ca o k v ps : hasattr ca o k = false ->
  set_params ca o ((k, v) :: ps) = (o, Err ValueError).
Proof. intros H. simpl. rewrite H. reflexivity. Qed.

(* setattr on attributes that exist keeps hasattr unchanged, so the whole call succeeds iff all names
   are attributes, and it never invents attributes except by shadowing class attributes *)
Lemma hasattr_set ca o k v x : hasattr ca o k = true -> hasattr ca (setattr o k v) x = hasattr ca o x.
Proof.
  intros H. destruct (string_dec x k) as [->|N].
  - rewrite H. apply (hasattr_get ca _ k v). apply get_set_same.
  - unfold hasattr. rewrite get_set_other by exact N. reflexivity.
Qed.

Theorem set_params_succeeds_iff ca o ps :
  snd (set_params ca o ps) = Ok tt <-> (forall k v, In (k, v) ps -> hasattr ca o k = true).
Proof.
  revert o. induction ps as [|[a b] ps IH]; intros o; simpl; [split; [intros _ k v []|reflexivity]|].
  destruct (hasattr ca o a) eqn:E.
  - rewrite IH. split.
    + intros H k v [K|K]; [injection K as <- <-; exact E|].
      rewrite <- (hasattr_set ca o a b k E). exact (H k v K).
    + intros H k v K. rewrite hasattr_set by exact E. exact (H k v (or_intror K)).
  - simpl. split; [discriminate|]. intros H. specialize (H a b (or_introl eq_refl)). congruence.
Qed.

Theorem set_params_error ca o ps e : snd (set_params ca o ps) = Err e -> e = ValueError.
Proof.
  revert o. induction ps as [|[a b] ps IH]; intros o; simpl; [discriminate|].
  destruct (hasattr ca o a); [apply IH|]. simpl. congruence.
Qed.

(* Bacon: unknown names are ignored *)
Lemma bacon_unknown_ignored ok o ps : lookup ps "weights"%string = None ->
  set_params_bacon ok o ps = (o, Ok tt).
Proof. unfold set_params_bacon. intros ->. reflexivity. Qed.

(* Bacon's setter is atomic *)
Lemma bacon_atomic ok o ps e : snd (set_params_bacon ok o ps) = Err e -> fst (set_params_bacon ok o ps) = o.
Proof. unfold set_params_bacon. destruct (lookup ps _) as [v|]; [destruct (ok v)|]; simpl; congruence. Qed.

End Attrs.

(* DifferenceInDifferences *)
Lemma did_params_ok a b c d e f g h :
  get_params did_param_names (did_init a b c d e f g h) =
  Ok [("robust", a); ("cluster", b); ("alpha", c); ("inference", d); ("n_bootstrap", e);
      ("bootstrap_weights", f); ("seed", g); ("rank_deficient_action", h)]%string.
Proof. reflexivity. Qed.

(* constructing with new values and setting them afterwards give the same object *)
Theorem did_set_is_construct a b c d e f g h a' b' c' d' e' f' g' h' :
  set_params did_class_attrs (did_init a b c d e f g h)
    [("robust", a'); ("cluster", b'); ("alpha", c'); ("inference", d'); ("n_bootstrap", e');
     ("bootstrap_weights", f'); ("seed", g'); ("rank_deficient_action", h')]%string
  = (did_init a' b' c' d' e' f' g' h', Ok tt).
Proof. reflexivity. Qed.

(* an unknown name after a known one: raises, but the known one has been assigned *)
Lemma did_set_not_atomic :
  exists ps, snd (set_params did_class_attrs did_default ps) = Err ValueError /\
    getattr (fst (set_params did_class_attrs did_default ps)) "alpha" <> getattr did_default "alpha".
Proof.
  exists [("alpha", PNum 1 10); ("bogus", PNone)]%string. split; [reflexivity|]. simpl. discriminate.
Qed.

(* names that are not parameters are accepted *)
Lemma did_set_accepts_non_parameters :
  exists k v, ~ In k did_param_names /\ snd (set_params did_class_attrs did_default [(k, v)]) = Ok tt /\
    getattr (fst (set_params did_class_attrs did_default [(k, v)])) k = Some v.
Proof.
  exists "fit"%string, PNone. split; [|split; reflexivity].
  intros H. vm_compute in H. repeat destruct H as [H|H]; try discriminate H. exact H.
Qed.

(* HonestDiD: the invalid value stays in place after the exception *)
Definition honest_default : obj pval :=
  [("method", PStr "relative_magnitude"); ("M", PNum 1 1); ("alpha", PNum 5 100); ("l_vec", PNone)]%string.
(* honest_did.py:1012-1025 _validate_params, for numeric M and alpha *)
Definition honest_valid (o : obj pval) : bool :=
  match getattr o "method", getattr o "M", getattr o "alpha" with
  | Some (PStr m), Some (PNum n d), Some (PNum a b) =>
      mem_s m ["smoothness"; "relative_magnitude"; "combined"]%string
      && (0 <=? n * d)%Z && (0 <? a * b)%Z && (a * b <? b * b)%Z
  | _, _, _ => false
  end.
Lemma honest_set_keeps_invalid :
  honest_valid honest_default = true /\
  exists ps, snd (set_params_validated honest_valid [] honest_default ps) = Err ValueError /\
    honest_valid (fst (set_params_validated honest_valid [] honest_default ps)) = false.
Proof. split; [reflexivity|]. exists [("M", PNum (-1) 1)]%string. split; reflexivity. Qed.

(* CallawaySantAnna *)
Lemma cs_init_ok c a m w wt r b o : cs_init c a m w wt r b = Ok o ->
  cs_weights o = cs_weight_type o /\ cs_weights_known o = true /\
  In (cs_control o) ["never_treated"; "not_yet_treated"]%string /\
  In (cs_method o) ["dr"; "ipw"; "reg"]%string /\
  In (cs_rda o) ["warn"; "error"; "silent"]%string /\ In (cs_base o) ["varying"; "universal"]%string.
Proof.
  unfold cs_init.
  destruct (mem_s c _) eqn:E1; [|discriminate]. cbn [negb].
  destruct (mem_s m _) eqn:E2; [|discriminate]. cbn [negb].
  set (w' := match match wt with Some _ => _ | None => _ end with None => _ | Some _ => _ end).
  destruct (mem_s w' _) eqn:E3; [|discriminate]. cbn [negb].
  destruct (mem_s r _) eqn:E4; [|discriminate]. cbn [negb].
  destruct (mem_s b _) eqn:E5; [|discriminate]. cbn [negb].
  intros H. injection H as <-. cbn. unfold cs_weights_known, cs_drawn; cbn.
  unfold mem_s in *. 
  destruct (in_dec string_dec c _); [|discriminate].
  destruct (in_dec string_dec m _); [|discriminate].
  destruct (in_dec string_dec w' _); [|discriminate].
  destruct (in_dec string_dec r _); [|discriminate].
  destruct (in_dec string_dec b _); [|discriminate].
  split; [reflexivity|]. split; [reflexivity|]. auto.
Qed.

(* set_params(bootstrap_weights=w) does not change the weights that are drawn *)
Lemma cs_weights_setter_ineffective :
  exists o o' o2, cs_init "never_treated" 0 "dr" None None "warn" "varying" = Ok o /\
    cs_set o "bootstrap_weights" "webb" = (o', Ok tt) /\
    cs_init "never_treated" 0 "dr" (Some "webb"%string) None "warn" "varying" = Ok o2 /\
    cs_weights o' = cs_weights o2 /\ cs_drawn o' = cs_drawn o /\ cs_drawn o' <> cs_drawn o2.
Proof.
  eexists. eexists. eexists. split; [reflexivity|]. split; [reflexivity|]. split; [reflexivity|].
  split; [reflexivity|]. split; [reflexivity|]. cbn. discriminate.
Qed.

(* set_params does not validate: a value the constructor rejects is accepted *)
Lemma cs_set_unvalidated :
  exists o o', cs_init "never_treated" 0 "dr" None None "warn" "varying" = Ok o /\
    cs_set o "estimation_method" "typo" = (o', Ok tt) /\
    cs_init "never_treated" 0 "typo" None None "warn" "varying" = Err ValueError.
Proof. eexists. eexists. repeat split; reflexivity. Qed.

(* PreTrendsPower: round trip under the alias *)
Lemma pretrends_roundtrip {V} ca (a p t w : V) rest ps :
  let o := ("alpha"%string, a) :: ("target_power"%string, p) :: ("violation_type"%string, t)
             :: ("violation_weights"%string, w) :: rest in
  get_params_pretrends o = Ok ps -> set_params_pretrends ca o ps = (o, Ok tt).
Proof. intros o H. cbv in H. injection H as <-. reflexivity. Qed.

(* ---------- inference label ---------- *)

Definition no_boot (s : istate) : Prop := is_boot s = None.

Lemma run_app s l1 l2 : run_events s (l1 ++ l2) =
  (fst (run_events (fst (run_events s l1)) l2),
   snd (run_events s l1) ++ snd (run_events (fst (run_events s l1)) l2)).
Proof.
  revert s. induction l1 as [|e l IH]; intros s; simpl; [destruct (run_events s l2); reflexivity|].
  rewrite IH. simpl. rewrite app_assoc. reflexivity.
Qed.

(* a label is "wild_bootstrap" iff this fit or an earlier fit on the object ran the bootstrap *)
Theorem label_exact s l : forall i r, nth_error (snd (run_events s l)) i = Some r ->
  (rp_label r = Wild <->
   is_boot s <> None \/ exists j q, (j <= i)%nat /\ nth_error (snd (run_events s l)) j = Some q /\ rp_used q = Wild).
Proof.
  revert s. induction l as [|e l IH]; intros s i r H; [destruct i; discriminate|].
  destruct e as [v|b|n].
  - simpl in H |- *. exact (IH _ i r H).
  - simpl in H |- *. exact (IH _ i r H).
  - simpl in H |- *. destruct i as [|i]; simpl in H.
    + injection H as <-. simpl. split.
      * intros K. destruct (uses_wild s) eqn:U.
        { right. exists O. eexists. split; [lia|]. split; [reflexivity|]. simpl. reflexivity. }
        left. destruct (is_boot s); discriminate.
      * intros [K|(j & q & Hj & Hq & Hw)].
        { destruct (uses_wild s); [reflexivity|]. destruct (is_boot s); congruence. }
        assert (j = O) by lia. subst j. simpl in Hq. injection Hq as <-. simpl in Hw.
        destruct (uses_wild s); [reflexivity|discriminate].
    + rewrite (IH _ i r H). simpl. destruct (uses_wild s) eqn:U.
      * split; intros _; [right|left; discriminate].
        exists O. eexists. split; [lia|]. split; [reflexivity|reflexivity].
      * split.
        { intros [K|(j & q & Hj & Hq & Hw)]; [left; exact K|].
          right. exists (S j), q. split; [lia|]. split; assumption. }
        { intros [K|(j & q & Hj & Hq & Hw)]; [left; exact K|].
          destruct j as [|j]; simpl in Hq.
          - injection Hq as <-. simpl in Hw. discriminate.
          - right. exists j, q. split; [lia|]. split; assumption. }
Qed.

(* hence a fresh object's first fit is labelled correctly *)
Theorem first_fit_label inference cl l run r :
  (forall e, In e l -> match e with Fit _ => False | _ => True end) ->
  snd (run_events (fresh inference cl) (l ++ [Fit run])) = [r] -> rp_label r = rp_used r.
Proof.
  intros Hl H.
  pose proof (label_exact (fresh inference cl) (l ++ [Fit run]) 0 r) as L.
  rewrite H in L. specialize (L eq_refl).
  destruct (rp_used r) eqn:U.
  - destruct (rp_label r) eqn:E; [reflexivity|]. exfalso.
    destruct (proj1 L eq_refl) as [K|(j & q & Hj & Hq & Hw)]; [apply K; reflexivity|].
    assert (j = O) by lia. subst j. simpl in Hq. injection Hq as <-. congruence.
  - apply L. right. exists O, r. split; [lia|]. split; [reflexivity|exact U].
Qed.

(* soundness in one direction: a fit that ran the bootstrap says so, and carries its own run *)
Theorem wild_fit_labelled s l : forall i r, nth_error (snd (run_events s l)) i = Some r ->
  rp_used r = Wild -> rp_label r = Wild.
Proof.
  intros i r H U. apply (label_exact s l i r H). right. exists i, r. auto.
Qed.

(* the stale label *)
Theorem stale_label : exists l r,
  nth_error (snd (run_events (fresh "wild_bootstrap" true) l)) 1 = Some r /\
  rp_used r = Analytical /\ rp_label r = Wild /\ rp_boot r = Some O.
Proof.
  exists [Fit 0; SetInference "analytical"; Fit 1]. eexists. split; [reflexivity|].
  repeat split; reflexivity.
Qed.

(* The power-curve and decomposition plots of visualization.py, and concrete cases *)
From Verif Require Import Prelude Flt Linalg_thms Multi_model Multi_proofs Honest_model Honest_ex Lp Bacon_model Trop_sel Vis_model Vis_proofs Vis_thms.
From Coq Require Import Arith ZArith String List.
Import ListNotations.
Open Scope R_scope.

(* ---- np.interp ---- *)
Definition increasing (l : list R) : Prop := forall i, (S i < length l)%nat -> nth i l 0 < nth (S i) l 0.
Definition segment (xp fp : list R) (i : nat) (x : R) : R :=
  nth i fp 0 + (x - nth i xp 0) * (nth (S i) fp 0 - nth i fp 0) / (nth (S i) xp 0 - nth i xp 0).
(* documented behaviour: linear between increasing sample points, the last value to the right of the last one *)
Record interp_ok (interp : R -> list R -> list R -> R) : Prop := {
  i_seg : forall xp fp x i, increasing xp -> length fp = length xp -> (S i < length xp)%nat ->
          nth i xp 0 <= x <= nth (S i) xp 0 -> interp x xp fp = segment xp fp i x;
  i_right : forall xp fp x, xp <> [] -> length fp = length xp -> last xp 0 < x -> interp x xp fp = last fp 0 }.

Fixpoint lin_go (x : R) (xp fp : list R) : R :=
  match xp, fp with
  | a :: ((b :: _) as xr), u :: ((w :: _) as fr) => if Rleb x b then u + (x - a) * (w - u) / (b - a) else lin_go x xr fr
  | _, u :: _ => u
  | _, [] => 0
  end.
Definition lin_interp (x : R) (xp fp : list R) : R := if Rltb (last xp 0) x then last fp 0 else lin_go x xp fp.

Lemma inc_tail a l : increasing (a :: l) -> increasing l.
Proof. intros H i Hi. apply (H (S i)). simpl. lia. Qed.
Lemma inc_lt l : increasing l -> forall i j, (i < j)%nat -> (j < length l)%nat -> nth i l 0 < nth j l 0.
Proof.
  intros H i j Hij. induction j as [|j IH]; [lia|]. intros Hj. specialize (H j Hj).
  destruct (Nat.eq_dec i j) as [->|N]; [auto|]. assert (nth i l 0 < nth j l 0) by (apply IH; lia). lra.
Qed.
Lemma last_nth (l : list R) : last l 0 = nth (length l - 1) l 0.
Proof.
  induction l as [|a l IH]; [reflexivity|]. destruct l as [|b l]; [reflexivity|]. change (last (a :: b :: l) 0) with (last (b :: l) 0).
  rewrite IH. simpl. rewrite Nat.sub_0_r. reflexivity.
Qed.
Lemma lin_go_seg xp : forall fp x i, increasing xp -> length fp = length xp -> (S i < length xp)%nat ->
  nth i xp 0 <= x <= nth (S i) xp 0 -> lin_go x xp fp = segment xp fp i x.
Proof.
  induction xp as [|a xp IH]; intros fp x i H L Hi Hx; [simpl in Hi; lia|].
  destruct xp as [|b xp]; [simpl in Hi; lia|]. destruct fp as [|u fp]; [discriminate|]. destruct fp as [|w fp]; [discriminate|].
  assert (Hab : a < b) by (apply (H 0%nat); simpl; lia).
  change (lin_go x (a :: b :: xp) (u :: w :: fp)) with (if Rleb x b then u + (x - a) * (w - u) / (b - a) else lin_go x (b :: xp) (w :: fp)).
  destruct (Rleb x b) eqn:E.
  - apply Rleb_true in E. destruct i as [|[|i]].
    + reflexivity.
    + simpl in Hx. assert (x = b) by lra. subst x. unfold segment. simpl. replace (b - b) with 0 by ring. rewrite Rmult_0_l. unfold Rdiv at 2. rewrite Rmult_0_l. field. lra.
    + exfalso. assert (b < nth (S (S i)) (a :: b :: xp) 0) by (apply (inc_lt _ H 1 (S (S i))); lia). lra.
  - apply Rleb_false in E. destruct i as [|i].
    + simpl in Hx. lra.
    + rewrite (IH (w :: fp) x i); [reflexivity|now apply inc_tail in H|simpl in *; lia|simpl in *; lia|exact Hx].
Qed.
Lemma lin_interp_ok : interp_ok lin_interp.
Proof.
  constructor; intros; unfold lin_interp.
  - replace (Rltb (last xp 0) x) with false.
    + now apply lin_go_seg.
    + symmetry. apply Rltb_false. rewrite last_nth. destruct (Nat.eq_dec (S i) (length xp - 1)) as [<-|N]; [lra|].
      assert (nth (S i) xp 0 < nth (length xp - 1) xp 0) by (apply inc_lt; auto; lia). lra.
  - now replace (Rltb (last xp 0) x) with true by (symmetry; now apply Rltb_true).
Qed.

(* ---- specification: a point of the drawn polyline ---- *)
Definition on_curve (xs ys : list R) (x y : R) : Prop :=
  (exists i, (i < length xs)%nat /\ x = nth i xs 0 /\ y = nth i ys 0) \/
  (exists i, (S i < length xs)%nat /\ nth i xs 0 <= x <= nth (S i) xs 0 /\ y = segment xs ys i x).

Lemma rindex_some x l : forall i, rindex x l = Some i -> (i < length l)%nat /\ nth i l 0 = x.
Proof.
  induction l as [|y l IH]; intros i; simpl; [discriminate|]. destruct (Reqb x y) eqn:E.
  - intros H; injection H as <-. apply Reqb_true in E. split; [lia|auto].
  - destruct (rindex x l) as [n|]; [|discriminate]. intros H; injection H as <-. destruct (IH n eq_refl). split; [lia|auto].
Qed.
Lemma rindex_none x l : rindex x l = None -> ~ In x l.
Proof.
  induction l as [|y l IH]; simpl; [tauto|]. destruct (Reqb x y) eqn:E; [discriminate|]. apply Reqb_false in E.
  destruct (rindex x l); [discriminate|]. intros _ [X|X]; [congruence|auto]. apply IH; auto.
Qed.
Lemma fold_min_R a l : (fold_right Rmin a l <= a) /\ (forall x, In x l -> fold_right Rmin a l <= x) /\ In (fold_right Rmin a l) (a :: l).
Proof.
  induction l as [|y l (A & B & C)]; simpl; [split; [lra|split; [tauto|auto]]|]. split; [|split].
  - eapply Rle_trans; [apply Rmin_r|exact A].
  - intros x [->|H]; [apply Rmin_l|]. eapply Rle_trans; [apply Rmin_r|auto].
  - unfold Rmin. destruct (Rle_dec _ _); simpl in *; tauto.
Qed.
Lemma fold_max_R a l : (a <= fold_right Rmax a l) /\ (forall x, In x l -> x <= fold_right Rmax a l) /\ In (fold_right Rmax a l) (a :: l).
Proof.
  induction l as [|y l (A & B & C)]; simpl; [split; [lra|split; [tauto|auto]]|]. split; [|split].
  - eapply Rle_trans; [exact A|apply Rmax_r].
  - intros x [->|H]; [apply Rmax_l|]. eapply Rle_trans; [|apply Rmax_r]; auto.
  - unfold Rmax. destruct (Rle_dec _ _); simpl in *; tauto.
Qed.
Lemma range_spec l x : l <> [] -> ((Rleb (rmin l) x && Rleb x (rmax l) = true) <-> (exists a b, In a l /\ In b l /\ a <= x <= b)).
Proof.
  intros N. destruct l as [|c l]; [congruence|]. simpl rmin. simpl rmax. rewrite andb_true_iff, !Rleb_true.
  destruct (fold_min_R c l) as (A & B & C). destruct (fold_max_R c l) as (D & E & F). split.
  - intros [X Y]. exists (fold_right Rmin c l), (fold_right Rmax c l). auto.
  - intros (a & b & Ha & Hb & Hx). split.
    + destruct Ha as [<-|Ha]; [lra|specialize (B a Ha); lra].
    + destruct Hb as [<-|Hb]; [lra|specialize (E b Hb); lra].
Qed.
Lemma find_segment l x : increasing l -> forall j, (j < length l)%nat -> nth 0 l 0 <= x <= nth j l 0 -> (0 < j)%nat ->
  exists i, (S i < length l)%nat /\ nth i l 0 <= x <= nth (S i) l 0.
Proof.
  intros H j. induction j as [|j IH]; intros Hj Hx Hp; [lia|].
  destruct (Rle_dec (nth j l 0) x) as [L|L].
  - exists j. split; [exact Hj|lra].
  - destruct j as [|j]; [lra|]. apply IH; [lia|lra|lia].
Qed.

Lemma interp_on_curve interp xs ys x : interp_ok interp -> increasing xs -> length ys = length xs -> xs <> [] ->
  Rleb (rmin xs) x && Rleb x (rmax xs) = true ->
  on_curve xs ys x (interp x xs ys) \/ (exists a, xs = [a] /\ x = a).
Proof.
  intros HI H L N Hr. apply (range_spec _ _ N) in Hr. destruct Hr as (a & b & Ha & Hb & Hx).
  apply (In_nth _ _ 0) in Ha. destruct Ha as (ia & Hia & Ea). apply (In_nth _ _ 0) in Hb. destruct Hb as (ib & Hib & Eb).
  destruct (Nat.eq_dec (length xs) 1) as [L1|L1].
  - right. destruct xs as [|c [|d xs]]; simpl in L1; try lia. exists c. split; [reflexivity|].
    simpl in *. assert (ia = 0%nat) by lia. assert (ib = 0%nat) by lia. subst. simpl in *. lra.
  - assert (L2 : (0 < length xs)%nat) by (destruct xs; simpl in *; [congruence|lia]).
    assert (X0 : nth 0 xs 0 <= x).
    { destruct ia; [lra|]. assert (nth 0 xs 0 < nth (S ia) xs 0) by (apply inc_lt; auto; lia). lra. }
    assert (X1 : x <= nth (length xs - 1) xs 0).
    { destruct (Nat.eq_dec ib (length xs - 1)) as [<-|]; [lra|]. assert (nth ib xs 0 < nth (length xs - 1) xs 0) by (apply inc_lt; auto; lia). lra. }
    destruct (find_segment xs x H (length xs - 1)) as (i & Hi & Hs); [lia|lra|lia|].
    left. right. exists i. split; [exact Hi|]. split; [exact Hs|]. now apply (i_seg _ HI).
Qed.

Section PC.
Variable interp : R -> list R -> list R -> R.
Hypothesis HI : interp_ok interp.

(* the curve and the marker of plot_power_curve *)
Theorem power_marker src sizes powers mde target ea sm st pl :
  plot_power_curve interp src sizes powers mde target ea sm st = Ok pl ->
  increasing (fst (pp_curve pl)) -> length (snd (pp_curve pl)) = length (fst (pp_curve pl)) ->
  forall x, pp_mde pl = Some x ->
  (forall y, pp_marker pl = Some y -> on_curve (fst (pp_curve pl)) (snd (pp_curve pl)) x y) /\
  (pp_marker pl = None <-> forall a, In a (fst (pp_curve pl)) -> x < a \/ a < x /\ forall b, In b (fst (pp_curve pl)) -> b < x).
Proof.
  unfold plot_power_curve. match goal with |- context [bind ?m _] => destruct m as [[[[s p] m0] e0]|] end; cbn [bind]; [|discriminate].
  intros H Hinc HL x Hx.
  assert (E : fst (pp_curve pl) = s /\ snd (pp_curve pl) = p /\ s <> [] /\ pp_marker pl = pc_marker interp s p x).
  { destruct (if sm then m0 else None) as [y|] eqn:El; [|injection H as <-; discriminate].
    destruct s as [|s0 s]; [discriminate|]. injection H as <-. cbn in *. injection Hx as ->. repeat split; auto. discriminate. }
  destruct E as (_ & _ & Ns & ->).
  assert (E1 : fst (pp_curve pl) = s /\ snd (pp_curve pl) = p).
  { destruct (if sm then m0 else None) as [y|] eqn:El; [|injection H as <-; discriminate].
    destruct s as [|s0 s]; [discriminate|]. injection H as <-. auto. }
  destruct E1 as [E1 E2]. rewrite E1, E2 in *. clear H. unfold pc_marker. destruct (rindex x s) as [i|] eqn:Ei.
  - apply rindex_some in Ei. destruct Ei as [Hi Ex]. split.
    + intros y Hy. left. exists i. split; [exact Hi|]. split; [auto|]. symmetry. now apply nth_error_nth.
    + split; [intros Hn; apply nth_error_None in Hn; lia|]. intros Ha. exfalso.
      assert (In x s) by (rewrite <- Ex; now apply nth_In). destruct (Ha x H) as [?|[? _]]; lra.
  - apply rindex_none in Ei. destruct (Rleb (rmin s) x && Rleb x (rmax s)) eqn:Er.
    + split.
      * intros y Hy. injection Hy as <-. destruct (interp_on_curve interp s p x HI Hinc HL Ns Er) as [C|(a & -> & ->)]; [exact C|].
        exfalso. apply Ei. now left.
      * split; [discriminate|]. intros Ha. exfalso. apply (range_spec _ _ Ns) in Er. destruct Er as (a & b & Ha' & Hb & Hx').
        destruct (Ha b Hb) as [L|[L1 L2]]; [|specialize (L2 _ Hb); lra].
        destruct (Ha a Ha') as [L'|[L1 L2]]; [lra|]. specialize (L2 b Hb). lra.
    + split; [discriminate|]. split; [intros _|reflexivity]. intros a Ha.
      destruct (Rlt_dec x a) as [L|L]; [now left|]. right.
      assert (Na : a <> x) by (intros ->; contradiction). split; [lra|]. intros b Hb.
      destruct (Rlt_dec b x) as [|L3]; [auto|]. exfalso.
      assert (T : Rleb (rmin s) x && Rleb x (rmax s) = true) by (apply (range_spec _ _ Ns); exists a, b; repeat split; auto; lra). congruence.
Qed.

(* with simulation results and no mde argument the "MDE" line is the true effect of the simulation *)
Theorem simulation_line s p te target ea st pl :
  plot_power_curve interp (Some (PCSim s p te)) None None None target ea true st = Ok pl -> pp_mde pl = Some te.
Proof. unfold plot_power_curve. cbn [bind]. destruct s; [discriminate|]. intros H; injection H as <-. reflexivity. Qed.
Theorem simulation_line_refuted : exists s p te pl,
  plot_power_curve interp (Some (PCSim s p te)) None None None (4/5) true true true = Ok pl /\
  pp_mde pl = Some te /\ pp_marker pl = Some (1/20) /\ increasing s /\ pp_target pl = Some (4/5).
Proof.
  exists [1; 2; 3], [1/20; 1/2; 9/10], 1. eexists. split; [reflexivity|]. cbn [pp_mde pp_marker pp_target]. split; [reflexivity|]. split.
  - unfold pc_marker. cbn [rindex]. replace (Reqb 1 1) with true by (symmetry; now apply Reqb_true). reflexivity.
  - split; [|reflexivity]. intros [|[|i]] Hi; simpl in *; try lra. lia.
Qed.

(* effect sizes in decreasing order: the marker is not on the curve *)
Theorem marker_order_refuted : exists s p mde pl,
  plot_power_curve interp None (Some s) (Some p) (Some mde) (4/5) true true true = Ok pl /\
  pp_curve pl = (s, p) /\ pp_marker pl = Some (1/5) /\ forall y, on_curve s p mde y -> y = 2/5.
Proof.
  exists [3; 2; 1], [9/10; 3/5; 1/5], (3/2). eexists. split; [reflexivity|]. cbn [pp_curve pp_marker]. split; [reflexivity|]. split.
  - unfold pc_marker. cbn [rindex]. replace (Reqb (3/2) 3) with false by (symmetry; apply Reqb_false; lra).
    replace (Reqb (3/2) 2) with false by (symmetry; apply Reqb_false; lra). replace (Reqb (3/2) 1) with false by (symmetry; apply Reqb_false; lra).
    replace (Rleb (rmin [3; 2; 1]) (3/2) && Rleb (3/2) (rmax [3; 2; 1])) with true.
    + rewrite (i_right _ HI); simpl; try reflexivity; try lra. discriminate.
    + symmetry. apply (range_spec [3; 2; 1]); [discriminate|]. exists 1, 3. simpl. repeat split; auto; lra.
  - intros y [(i & Hi & Ex & Ey)|(i & Hi & Hx & Ey)].
    + destruct i as [|[|[|i]]]; simpl in *; try lra. lia.
    + destruct i as [|[|i]]; simpl in *; try lra; lia.
Qed.

(* plot_pretrends_power: the marker is on the curve *)
Theorem pretrends_marker src M p mdv target sm st pl xs ys x y :
  plot_pretrends_power interp src M p mdv target sm st = Ok pl -> pq_curve pl = Some (xs, ys) ->
  increasing xs -> length ys = length xs -> (1 < length xs)%nat -> pq_mdv pl = Some x -> pq_marker pl = Some y -> on_curve xs ys x y.
Proof.
  unfold plot_pretrends_power. match goal with |- context [bind ?mm _] => destruct mm as [[[[m q] v] tg]|] end; cbn [bind]; [|discriminate].
  match goal with |- context [bind ?m _] => destruct m as [tl|] end; cbn [bind]; [|discriminate].
  set (line := if sm then _ else _). intros H Hc Hinc HL Hlen Hx Hy.
  assert (E : q = Some ys /\ m = xs /\ line = Some x /\ (if Rleb (rmin m) x && Rleb x (rmax m) then Some (interp x m ys) else None) = Some y).
  { destruct line as [l|]; [|injection H as <-; discriminate]. destruct q as [q|]; [|injection H as <-; discriminate].
    destruct m as [|m0 m]; [discriminate|]. injection H as <-. cbn in Hc, Hx, Hy. injection Hc as <- <-. injection Hx as ->. auto. }
  destruct E as (_ & -> & _ & E). destruct (_ && _) eqn:Er in E; [|discriminate]. injection E as <-.
  destruct (interp_on_curve interp xs ys x HI Hinc HL) as [C|(a & -> & _)]; auto; [destruct xs; simpl in *; [lia|discriminate]|simpl in Hlen; lia].
Qed.

(* the target line: always the argument, so the default 0.80 hides the target the curve was computed for *)
Theorem pretrends_target xs ys mdv tg target sm pl :
  plot_pretrends_power interp (Some (PTCurve xs ys mdv tg)) None None None target sm true = Ok pl ->
  pq_target pl = Some (match target with Some t => t | None => tg end).
Proof.
  unfold plot_pretrends_power. destruct target as [t|]; cbn [bind or_else]; intros H.
  - destruct (if sm then _ else _); [destruct xs|]; try discriminate; injection H as <-; reflexivity.
  - destruct (if sm then _ else _); [destruct xs|]; try discriminate; injection H as <-; reflexivity.
Qed.
Theorem pretrends_target_refuted xs ys mdv tg sm pl : tg <> 4/5 ->
  plot_pretrends_power interp (Some (PTCurve xs ys mdv tg)) None None None (Some (4/5)) sm true = Ok pl ->
  pq_target pl <> Some tg.
Proof. intros N H. rewrite (pretrends_target _ _ _ _ _ _ _ H). congruence. Qed.
Theorem pretrends_single mdv target sm st pl :
  plot_pretrends_power interp (Some (PTSingle mdv)) None None None target sm st = Ok pl -> pq_curve pl = None /\ pq_marker pl = None.
Proof.
  unfold plot_pretrends_power. cbn [bind or_else]. destruct st; [destruct target; cbn [bind]|cbn [bind]]; try discriminate;
  destruct (if sm then _ else _); intros H; injection H as <-; auto.
Qed.
End PC.

(* ---- plot_bacon ---- *)
Lemma ctype_eqb_eq a b : ctype_eqb a b = true <-> a = b.
Proof. destruct a, b; simpl; split; congruence. Qed.
Theorem bacon_scatter_complete o ty e w :
  (exists l, In (ty, l) (bacon_scatter o) /\ In (e, w) l) <->
  exists c, In c (bo_comparisons o) /\ cmp_type c = ty /\ cmp_est c = e /\ cmp_weight c = w.
Proof.
  unfold bacon_scatter. split.
  - intros (l & Hl & Hin). apply filter_In in Hl. destruct Hl as [Hl _]. apply in_map_iff in Hl. destruct Hl as (t & Eq & _).
    injection Eq as -> <-. apply in_map_iff in Hin. destruct Hin as (c & Ec & Hc). injection Ec as <- <-. apply filter_In in Hc.
    destruct Hc as [Hc Ht]. apply ctype_eqb_eq in Ht. eauto.
  - intros (c & Hc & <- & <- & <-). eexists. split.
    + apply filter_In. split; [apply in_map_iff; exists (cmp_type c); split; [reflexivity|destruct (cmp_type c); simpl; tauto]|].
      cbn [snd]. destruct (map _ _) eqn:E; [|reflexivity]. exfalso.
      assert (X : In (cmp_est c, cmp_weight c) []).
      { rewrite <- E. apply in_map_iff. exists c. split; [reflexivity|]. apply filter_In. split; auto. now apply ctype_eqb_eq. }
      destruct X.
    + cbn. apply in_map_iff. exists c. split; [reflexivity|]. apply filter_In. split; auto. now apply ctype_eqb_eq.
Qed.
Theorem bacon_scatter_once o : length (flat_map snd (bacon_scatter o)) = length (bo_comparisons o).
Proof.
  assert (F : forall l : list (ctype * list (fl * R)), length (flat_map snd (filter (fun x => match snd x with [] => false | _ => true end) l)) = length (flat_map snd l)).
  { induction l as [|(t, [|a l0]) l IH]; simpl; auto. now rewrite !app_length, IH. }
  unfold bacon_scatter. rewrite F. cbn [bacon_types map flat_map snd]. rewrite app_nil_r, !app_length, !map_length.
  induction (bo_comparisons o) as [|c l IH]; [reflexivity|]. cbn [filter]. destruct (cmp_type c); simpl; lia.
Qed.
(* the bars are the weights by type and add up to the sum of all weights *)
Theorem bacon_bars_total {I} (rows : list I) u t g y exact :
  sumf snd (bacon_bars (bacon_fit rows u t g y exact)) = sumf cmp_weight (bo_comparisons (bacon_fit rows u t g y exact)).
Proof.
  unfold bacon_bars. cbn [bacon_fit bo_weights bo_comparisons bacon_types map sumf snd]. unfold type_weight.
  induction (normalised (reweighted rows u t g y exact)) as [|c l IH]; simpl; [lra|].
  destruct (cmp_type c); simpl; lra.
Qed.

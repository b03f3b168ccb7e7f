(* Parameter names and setters (C10), the reference marker of an event study (C90), the effect path of the divorce panel (C97). *)
From Coq Require Import Reals Lra Lia.
From Verif Require Import Prelude Flt Estim_model Bacon_model Vis_model Data_model Data_proofs.
From Coq Require Import Arith ZArith String List.
Import ListNotations.
Open Scope R_scope.

(* get_params of PreTrendsPower has the keywords of the constructor, in its order *)
Theorem pretrends_keys {V} (a p t w : V) rest :
  let o := ("alpha"%string, a) :: ("target_power"%string, p) :: ("violation_type"%string, t)
             :: ("violation_weights"%string, w) :: rest in
  get_params_pretrends o = Ok [("alpha"%string, a); ("power"%string, p); ("violation_type"%string, t); ("violation_weights"%string, w)].
Proof. reflexivity. Qed.

(* the attributes of a CallawaySantAnna object by name *)
Definition cs_attr (o : cs_obj) (k : string) : option string :=
  if string_dec k "control_group" then Some (cs_control o)
  else if string_dec k "estimation_method" then Some (cs_method o)
  else if string_dec k "bootstrap_weights" then Some (cs_weights o)
  else if string_dec k "bootstrap_weight_type" then Some (cs_weight_type o)
  else if string_dec k "rank_deficient_action" then Some (cs_rda o)
  else if string_dec k "base_period" then Some (cs_base o) else None.
Theorem cs_set_one o k v : match cs_attr o k with
  | Some _ => snd (cs_set o k v) = Ok tt /\ cs_anticipation (fst (cs_set o k v)) = cs_anticipation o /\
              forall k', cs_attr (fst (cs_set o k v)) k' = if string_dec k' k then Some v else cs_attr o k'
  | None => cs_set o k v = (o, Err ValueError)
  end.
Proof.
  destruct o as [c a m w wt r b]. unfold cs_attr at 1, cs_set.
  repeat match goal with |- context [string_dec k ?s] => destruct (string_dec k s) as [->|] end; try reflexivity;
  (split; [reflexivity|]; split; [reflexivity|]; intros k'; unfold cs_attr; cbn [fst cs_control cs_method cs_weights cs_weight_type cs_rda cs_base];
   repeat match goal with |- context [string_dec k' ?s] => destruct (string_dec k' s) as [->|] end; try reflexivity; try congruence; try discriminate).
Qed.

(* the reference of an event study is the first entry recorded with n_groups = 0 *)
Theorem marker_spec es : match find_marker es with
  | Some q => exists l1 e l2, es = l1 ++ (q, e) :: l2 /\ ev_n_groups e = Some O /\ forall x, In x l1 -> ev_n_groups (snd x) <> Some O
  | None => forall x, In x es -> ev_n_groups (snd x) <> Some O
  end.
Proof.
  induction es as [|[p e] l IH]; cbn [find_marker]; [intros x []|]. destruct (ev_n_groups e) as [[|n]|] eqn:E; cbn [Nat.eqb].
  - exists [], e, l. split; [reflexivity|]. split; [exact E|]. intros x [].
  - destruct (find_marker l) as [q|].
    + destruct IH as (l1 & e1 & l2 & -> & A & B). exists ((p, e) :: l1), e1, l2. split; [reflexivity|]. split; [exact A|]. intros x [<-|Hx]; [cbn; congruence|auto].
    + intros x [<-|Hx]; [cbn; congruence|auto].
  - destruct (find_marker l) as [q|].
    + destruct IH as (l1 & e1 & l2 & -> & A & B). exists ((p, e) :: l1), e1, l2. split; [reflexivity|]. split; [exact A|]. intros x [<-|Hx]; [cbn; congruence|auto].
    + intros x [<-|Hx]; [cbn; congruence|auto].
Qed.

Lemma year_range y : In y (zrange 1968 21) -> (1968 <= y)%Z.
Proof. unfold zrange. generalize (seq 0 21). intros l H. apply in_map_iff in H as (n & <- & _). lia. Qed.
Definition path (f y : Z) : R :=
  if Z.eq_dec f 0 then 0 else if Z_lt_dec y f then 0 else if Z_lt_dec (y - f) 3 then 1 / 2 else if Z_lt_dec (y - f) 6 then 3 / 10
  else if Z_lt_dec (y - f) 11 then 1 / 10 else 0.
Lemma path_nonneg f y : 0 <= path f y.
Proof. unfold path. destruct (Z.eq_dec f 0); [lra|]. destruct (Z_lt_dec y f); [lra|]. destruct (Z_lt_dec _ 3); [lra|]. destruct (Z_lt_dec _ 6); [lra|]. destruct (Z_lt_dec _ 11); lra. Qed.
Lemma path_eq f y : f = 0%Z \/ (1968 <= f)%Z -> (if active f y then divorce_effect (y - f) else 0) = path f y.
Proof.
  intros F. unfold active, divorce_effect, path. destruct (Z.eq_dec f 0) as [->|Nf]; [reflexivity|]. replace (Z.ltb 0 f) with true by (symmetry; apply Z.ltb_lt; lia). cbn [andb].
  destruct (Z.leb_spec f y), (Z_lt_dec y f); try lia; try reflexivity.
  destruct (Z.leb_spec (y - f) 2), (Z_lt_dec (y - f) 3); try lia; try lra.
  destruct (Z.leb_spec (y - f) 5), (Z_lt_dec (y - f) 6); try lia; try lra.
  destruct (Z.leb_spec (y - f) 10), (Z_lt_dec (y - f) 11); try lia; try lra.
Qed.
Lemma path_out b te y : 1 <= b -> (1968 <= y)%Z -> 0 <= te -> Rmax 0 (b + IZR (y - 1978) * (5 / 100) + te + 0) = b + IZR (y - 1978) * (5 / 100) + te.
Proof. intros Hb Y T. rewrite Rplus_0_r. apply Rmax_right. assert (IZR (-10) <= IZR (y - 1978)) by (apply IZR_le; lia). lra. Qed.
Lemma divorce_in rnd base noise r : In r (divorce_rows rnd base noise) -> exists s f y, In (s, f) divorce_states /\ In y (zrange 1968 21) /\
  pr_state r = s /\ pr_year r = y /\ pr_first r = (if Z.leb 1968 f then f else 0%Z) /\
  pr_outcome r = rnd (Rmax 0 (base s + IZR (y - 1978) * (5 / 100) + (if active f y then divorce_effect (y - f) else 0) + noise s y)).
Proof.
  unfold divorce_rows. generalize divorce_states (zrange 1968 21). intros l ys H. apply in_flat_map in H as ([s f] & Hs & H). apply in_map_iff in H as (y & <- & Hy).
  exists s, f, y. repeat (split; [first [assumption|reflexivity]|]). reflexivity.
Qed.
(* without noise and rounding: half a point for three years, then 0.3, 0.1 and nothing after ten years *)
Theorem divorce_path base r : (forall s, 1 <= base s) -> In r (divorce_rows (fun x => x) base (fun _ _ => 0)) ->
  pr_outcome r = base (pr_state r) + IZR (pr_year r - 1978) * (5 / 100) +
    (if Z.eq_dec (pr_first r) 0 then 0 else if Z_lt_dec (pr_year r) (pr_first r) then 0
     else if Z_lt_dec (pr_year r - pr_first r) 3 then 1 / 2 else if Z_lt_dec (pr_year r - pr_first r) 6 then 3 / 10
     else if Z_lt_dec (pr_year r - pr_first r) 11 then 1 / 10 else 0).
Proof.
  intros Hb H. destruct (divorce_in _ _ _ _ H) as (s & f & y & Hs & Hy & Es & Ey & Ef & Eo).
  assert (FF := divorce_states_first (s, f) Hs). cbn [snd] in FF. rewrite FF in Ef. rewrite Eo, Es, Ey, Ef. fold (path f y).
  assert (F : f = 0%Z \/ (1968 <= f)%Z) by (destruct (Z.leb_spec 1968 f); lia).
  rewrite path_eq by exact F. apply path_out; [apply Hb|apply year_range; exact Hy|apply path_nonneg].
Qed.
Theorem divorce_path_case : exists r, In r (divorce_rows (fun x => x) (fun _ => 1) (fun _ _ => 0)) /\ pr_state r = "CA"%string /\ pr_year r = 1974%Z /\ pr_first r = 1970%Z /\ pr_outcome r = 11 / 10.
Proof.
  assert (S : In ("CA", 1970)%string%Z divorce_states) by (apply (nth_error_In _ 2); vm_compute; reflexivity). assert (Y : In 1974%Z (zrange 1968 21)) by (apply (nth_error_In _ 6); vm_compute; reflexivity).
  eexists. split; [unfold divorce_rows; apply in_flat_map; exists ("CA", 1970)%string%Z; split; [exact S|]; apply in_map_iff; exists 1974%Z; split; [reflexivity|exact Y]|].
  cbn [pr_state pr_year pr_first pr_outcome fst snd]. repeat (split; [reflexivity|]). change (active 1970 1974) with true. change (divorce_effect (1974 - 1970)) with (3/10). replace (IZR (1974 - 1978)) with (-4) by reflexivity. rewrite Rmax_right; lra.
Qed.

(* plot_bacon: the two plots and nothing else; an average is printed on a bar of more than one per cent *)
Theorem bacon_kinds kind o : plot_bacon kind o =
  if string_dec kind "scatter" then Ok (inl (bacon_scatter o)) else if string_dec kind "bar" then Ok (inr (bacon_bars o)) else Err ValueError.
Proof.
  unfold plot_bacon. destruct (string_dec kind "scatter") as [->|A]; [reflexivity|]. apply String.eqb_neq in A. rewrite A.
  destruct (string_dec kind "bar") as [->|B]; [reflexivity|]. apply String.eqb_neq in B. now rewrite B.
Qed.
Theorem bacon_labels o ty a : In (ty, a) (bacon_bar_labels o) <-> bo_averages o ty = Some a /\ 1 / 100 < bo_weights o ty.
Proof.
  unfold bacon_bar_labels, keepo. rewrite in_flat_map. split.
  - intros (ty' & _ & H). destruct (bo_averages o ty') as [b|] eqn:E; [|destruct H]. destruct (Rltb (1/100) (bo_weights o ty')) eqn:F; [|destruct H].
    destruct H as [H|[]]. injection H as -> ->. apply Rltb_true in F. auto.
  - intros [H1 H2]. exists ty. split; [destruct ty; cbn; tauto|]. rewrite H1. apply Rltb_true in H2. rewrite H2. now left.
Qed.

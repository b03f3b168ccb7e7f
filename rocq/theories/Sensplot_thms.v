From Verif Require Import Prelude Flt Multi_model Linalg_thms Lp Honest_model Honest_proofs Honest_ex Sensplot_model.
From Coq Require Import Arith ZArith String List Lia Lra.
Import ListNotations.
Open Scope R_scope.

(* the interval of a result contains zero *)
Definition covers_zero (o : hd_out) : Prop := fle (ho_ci_lb o) (Fin 0) = true /\ fle (Fin 0) (ho_ci_ub o) = true.

Lemma covers_zero_iff o : covers_zero o <-> has_zero (ho_ci_lb o) (ho_ci_ub o) = true.
Proof. unfold covers_zero, has_zero. rewrite Bool.andb_true_iff. tauto. Qed.

Lemma bisect_inside inc n : forall lo hi a b, lo < hi -> bisect n inc lo hi = Ok (a, b) -> lo <= a /\ a < b /\ b <= hi.
Proof.
  induction n as [|n IH]; cbn [bisect]; intros lo hi a b H E.
  - injection E as <- <-. lra.
  - destruct (inc ((lo + hi) / 2)) as [[|]|]; cbn [bind] in E; try discriminate; apply IH in E; lra.
Qed.

Lemma transition_spec inc : forall l M0 v, increasing (M0 :: map fst l) -> transition inc (Some (M0, false)) l = Ok v ->
  match v with
  | None => forall M f, In (M, f) l -> f = false
  | Some bd => exists b, In (b, true) l /\ M0 < bd < b /\ forall M f, In (M, f) l -> M < b -> M < bd /\ f = false
  end.
Proof.
  induction l as [|[M f] l IH]; intros M0 v Hs E.
  - cbn in E. injection E as <-. intros ? ? [].
  - cbn [transition] in E. cbn [map fst] in Hs. destruct Hs as [H1 H2]. destruct f.
    + destruct (bisect 20 inc M0 M) as [[a b]|] eqn:EB; cbn [bind fst snd] in E; [|discriminate]. injection E as <-.
      apply bisect_inside in EB; [|exact H1]. exists M. split; [left; reflexivity|]. split; [lra|].
      intros M' f' [E'|Hin] L; [injection E' as <- <-; lra|]. exfalso. clear - H2 Hin L.
      revert M H2 Hin L. induction l as [|[x g] l IH]; intros M H2 Hin L; [destruct Hin|].
      cbn [map fst] in H2. destruct H2 as [H2 H3]. destruct Hin as [E|Hin]; [injection E as -> ->; lra|].
      apply (IH x H3 Hin). lra.
    + specialize (IH M v H2 E). destruct v as [bd|].
      * destruct IH as (b & Hb & Hr & HF). exists b. split; [right; exact Hb|]. split; [lra|].
        intros M' f' [E'|Hin] L; [injection E' as <- <-; split; [lra|reflexivity]|]. exact (HF M' f' Hin L).
      * intros M' f' [E'|Hin]; [congruence|]. exact (IH M' f' Hin).
Qed.

Lemma increasing_head M l : increasing (M :: l) -> forall x, In x l -> M < x.
Proof.
  revert M. induction l as [|y l IH]; intros M H x Hx; [destruct Hx|]. destruct H as [H1 H2]. destruct Hx as [<-|Hx]; [exact H1|].
  specialize (IH y H2 x Hx). lra.
Qed.

Lemma mapr_forall2 {A B} (f : A -> res B) l : forall bs, mapr f l = Ok bs -> Forall2 (fun a b => f a = Ok b) l bs.
Proof.
  induction l as [|a l IH]; intros bs H; cbn in H.
  - injection H as <-. constructor.
  - destruct (f a) eqn:E; cbn [bind] in H; [|discriminate]. destruct (mapr f l); cbn [bind] in H; [|discriminate].
    injection H as <-. constructor; auto.
Qed.

Lemma forall2_len {A B} (P : A -> B -> Prop) l bs : Forall2 P l bs -> length l = length bs.
Proof. induction 1; cbn; congruence. Qed.

Lemma forall2_combine {A B} (P : A -> B -> Prop) l bs : Forall2 P l bs -> forall a b, In (a, b) (combine l bs) -> P a b.
Proof.
  induction 1 as [|x y l bs H HF IH]; cbn; [intros ? ? []|]. intros a b [E|Hin]; [injection E as <- <-; exact H|auto].
Qed.

Lemma combine_total {A B} (l : list A) (bs : list B) a : length l = length bs -> In a l -> exists b, In (a, b) (combine l bs).
Proof.
  revert bs. induction l as [|x l IH]; intros [|y bs] E H; cbn in *; try discriminate; [destruct H|].
  destruct H as [<-|H]; [eauto|]. destruct (IH bs ltac:(lia) H) as (b & Hb). eauto.
Qed.

Lemma combine_map_r {A B C} (f : B -> C) (l : list A) (bs : list B) : combine l (map f bs) = map (fun p => (fst p, f (snd p))) (combine l bs).
Proof. revert bs. induction l as [|x l IH]; intros [|y bs]; cbn; congruence. Qed.

Lemma nth_combine {A B} (l : list A) (bs : list B) k a b : nth_error l k = Some a -> nth_error bs k = Some b -> nth_error (combine l bs) k = Some (a, b).
Proof.
  revert l bs. induction k as [|k IH]; intros [|x l] [|y bs]; cbn; intros H1 H2; try discriminate; [congruence|auto].
Qed.

Lemma forall2_nth {A B} (P : A -> B -> Prop) l bs k a : Forall2 P l bs -> nth_error l k = Some a -> exists b, nth_error bs k = Some b /\ P a b.
Proof.
  intros H. revert k. induction H as [|x y l bs H HF IH]; intros [|k] E; cbn in *; try discriminate; [|auto].
  injection E as <-. eauto.
Qed.

Section SP.
Variable lp : nat -> list con -> list R -> option R.
Variable ppf : option Z -> R -> R.

Lemma sens_shape cfg r grid q : hd_sensitivity lp ppf cfg r grid = Ok q ->
  exists os o0, Forall2 (fun M o => hd_fit lp ppf cfg r (Some M) = Ok o) (hs_M q) os /\
    hs_bounds q = map (fun o => (ho_lb o, ho_ub o)) os /\ hs_cis q = map (fun o => (ho_ci_lb o, ho_ci_ub o)) os /\
    find_breakdown (includes lp ppf cfg r) (hs_M q) (map (fun o => has_zero (ho_ci_lb o) (ho_ci_ub o)) os) = Ok (hs_breakdown q) /\
    hd_fit lp ppf cfg r (Some 0) = Ok o0 /\ hs_est q = ho_est o0.
Proof.
  unfold hd_sensitivity. cbv zeta. set (g := match grid with Some g => g | None => _ end).
  destruct (mapr _ g) as [os|] eqn:EM; cbn [bind]; [|discriminate].
  rewrite map_map. cbn [fst snd].
  destruct (find_breakdown _ _ _) as [bd|] eqn:EB; cbn [bind]; [|discriminate].
  destruct (hd_fit lp ppf cfg r (Some 0)) as [o0|] eqn:E0; cbn [bind]; [|discriminate].
  intros E. injection E as <-. exists os, o0. cbn [hs_M hs_bounds hs_cis hs_breakdown hs_est]. apply mapr_forall2 in EM. auto 8.
Qed.

(* what is drawn *)
Theorem sens_plot_shows cfg r grid q b1 b2 b3 : hd_sensitivity lp ppf cfg r grid = Ok q -> hs_M q <> [] ->
  exists p o0, plot_sensitivity q b1 b2 b3 = Ok p /\
    hd_fit lp ppf cfg r (Some 0) = Ok o0 /\ sq_hlines p = [ho_est o0; Fin 0] /\
    sq_vline p = (if b3 then hs_breakdown q else None) /\
    (if b1 then exists band, sq_band p = Some band /\ length band = length (hs_M q) /\
       (forall k M, nth_error (hs_M q) k = Some M -> exists o, hd_fit lp ppf cfg r (Some M) = Ok o /\ nth_error band k = Some (M, ho_lb o, ho_ub o))
     else sq_band p = None) /\
    (if b2 then exists lower upper, sq_lines p = Some (lower, upper) /\ length lower = length (hs_M q) /\ length upper = length (hs_M q) /\
       (forall k M, nth_error (hs_M q) k = Some M -> exists o, hd_fit lp ppf cfg r (Some M) = Ok o /\
          nth_error lower k = Some (M, ho_ci_lb o) /\ nth_error upper k = Some (M, ho_ci_ub o))
     else sq_lines p = None).
Proof.
  intros H Hne. destruct (sens_shape _ _ _ _ H) as (os & o0 & HF & EB & EC & _ & E0 & Ee).
  assert (HL := forall2_len _ _ _ HF). assert (Hos : os <> []) by (intros ->; destruct (hs_M q); [congruence|discriminate]).
  assert (C : forall A (f : fl * fl -> A) (g : hd_out -> fl * fl), column f (map g os) = Ok (map (fun o => f (g o)) os)).
  { intros A f g. destruct os as [|o os]; [congruence|]. cbn. rewrite map_map. reflexivity. }
  unfold plot_sensitivity. rewrite EB, EC, !C. cbn [bind fst snd].
  assert (N : forall k M, nth_error (hs_M q) k = Some M -> exists o, hd_fit lp ppf cfg r (Some M) = Ok o /\ nth_error os k = Some o).
  { intros k M E. destruct (forall2_nth _ _ _ _ _ HF E) as (o & A & B). eauto. }
  destruct b1, b2; cbn [bind]; eexists; exists o0; (split; [reflexivity|]); cbn [sq_hlines sq_band sq_lines sq_vline]; rewrite Ee;
    (split; [exact E0|]); (split; [reflexivity|]); (split; [reflexivity|]); split; try reflexivity.
  all: try (eexists; split; [reflexivity|]; split; [rewrite !combine_length, !map_length; lia|];
       intros k M E; destruct (N k M E) as (o & A & B); exists o; split; [exact A|]; apply nth_combine; [apply nth_combine; [exact E|]|];
       rewrite nth_error_map, B; reflexivity).
  all: eexists; eexists; split; [reflexivity|]; split; [rewrite combine_length, map_length; lia|]; split; [rewrite combine_length, map_length; lia|];
       intros k M E; destruct (N k M E) as (o & A & B); exists o; split; [exact A|];
       split; apply nth_combine; auto; rewrite nth_error_map, B; reflexivity.
Qed.

Theorem sens_plots_agree q b1 b2 b3 : sens_plot_method q b1 b2 b3 = plot_sensitivity q b1 b2 b3.
Proof. unfold sens_plot_method, plot_sensitivity. destruct b3, (hs_breakdown q); reflexivity. Qed.

(* where the vertical line is *)
Theorem sens_line cfg r grid q : hd_sensitivity lp ppf cfg r grid = Ok q -> increasing (hs_M q) -> (forall M, In M (hs_M q) -> 0 <= M) ->
  (hs_breakdown q = None <-> forall M o, In M (hs_M q) -> hd_fit lp ppf cfg r (Some M) = Ok o -> ~ covers_zero o) /\
  (forall bd, hs_breakdown q = Some bd ->
     (forall M o, In M (hs_M q) -> M < bd -> hd_fit lp ppf cfg r (Some M) = Ok o -> ~ covers_zero o) /\
     exists M o, In M (hs_M q) /\ bd <= M /\ hd_fit lp ppf cfg r (Some M) = Ok o /\ covers_zero o /\
       forall M', In M' (hs_M q) -> M' < M -> M' < bd).
Proof.
  intros H Hinc Hpos. destruct (sens_shape _ _ _ _ H) as (os & o0 & HF & _ & _ & EB & _ & _).
  assert (HL := forall2_len _ _ _ HF).
  set (flag := fun o => has_zero (ho_ci_lb o) (ho_ci_ub o)) in *.
  (* flags of the grid points *)
  assert (FL : forall M f, In (M, f) (combine (hs_M q) (map flag os)) -> exists o, hd_fit lp ppf cfg r (Some M) = Ok o /\ flag o = f).
  { intros M f Hin. rewrite combine_map_r in Hin. apply in_map_iff in Hin as ([M' o] & E & Hin). cbn in E. injection E as <- <-.
    exists o. split; [|reflexivity]. exact (forall2_combine _ _ _ HF _ _ Hin). }
  assert (LF : forall M o, In M (hs_M q) -> hd_fit lp ppf cfg r (Some M) = Ok o -> In (M, flag o) (combine (hs_M q) (map flag os))).
  { intros M o Hin E. destruct (combine_total (hs_M q) os M HL Hin) as (o' & Ho). assert (E' := forall2_combine _ _ _ HF _ _ Ho). cbn in E'.
    rewrite combine_map_r. apply in_map_iff. exists (M, o'). split; [cbn; congruence|exact Ho]. }
  assert (CV : forall o, covers_zero o <-> flag o = true) by (intros o; apply covers_zero_iff).
  assert (FO : forall f, In f (map flag os) -> exists M, In (M, f) (combine (hs_M q) (map flag os))).
  { intros f Hf. apply In_nth_error in Hf as (k & Hk). assert (k < length (map flag os))%nat by (apply nth_error_Some; congruence).
    rewrite map_length in *. destruct (nth_error (hs_M q) k) as [M|] eqn:EM; [|apply nth_error_None in EM; lia].
    exists M. apply nth_error_In with k. apply nth_combine; auto. }
  unfold find_breakdown in EB.
  destruct (existsb (fun b => b) (map flag os)) eqn:EX; cbn [negb] in EB.
  2:{ injection EB as EB. rewrite <- EB. split; [|discriminate]. split; [|reflexivity]. intros _ M o Hin E K. apply CV in K.
      specialize (LF M o Hin E). apply in_combine_r in LF. rewrite K in LF.
      enough (existsb (fun b => b) (map flag os) = true) by congruence. apply existsb_exists. exists true. auto. }
  assert (HX : exists M, In (M, true) (combine (hs_M q) (map flag os))).
  { apply existsb_exists in EX as (f & Hf & ->). auto. }
  destruct (hs_M q) as [|M0 grid'] eqn:EG; [cbn in HX; destruct HX as (? & [])|].
  destruct os as [|o1 os]; [discriminate|]. cbn [map combine] in *.
  assert (Hlt := increasing_head _ _ Hinc).
  assert (Z0 : flag o1 = true -> Some 0 = hs_breakdown q ->
    (hs_breakdown q = None <-> forall M o, In M (M0 :: grid') -> hd_fit lp ppf cfg r (Some M) = Ok o -> ~ covers_zero o) /\
    (forall bd, hs_breakdown q = Some bd ->
     (forall M o, In M (M0 :: grid') -> M < bd -> hd_fit lp ppf cfg r (Some M) = Ok o -> ~ covers_zero o) /\
     exists M o, In M (M0 :: grid') /\ bd <= M /\ hd_fit lp ppf cfg r (Some M) = Ok o /\ covers_zero o /\
       forall M', In M' (M0 :: grid') -> M' < M -> M' < bd)).
  { intros F1 <-. destruct (FL M0 true) as (o & Eo & Fo); [left; congruence|]. apply CV in Fo. split.
    - split; [discriminate|]. intros K. exfalso. exact (K M0 o (or_introl eq_refl) Eo Fo).
    - intros bd Ebd. injection Ebd as <-. split.
      + intros M o' Hin L. specialize (Hpos M Hin). lra.
      + exists M0, o. split; [left; reflexivity|]. split; [apply Hpos; left; reflexivity|]. split; [exact Eo|]. split; [exact Fo|].
        intros M' [<-|Hin] L; [lra|]. specialize (Hlt M' Hin). lra. }
  destruct (flag o1) eqn:F1.
  - apply Z0; [reflexivity|]. destruct (forallb _ _); cbn [forallb transition andb] in EB; congruence.
  - clear Z0. cbn [forallb andb transition] in EB.
    assert (MF : map fst (combine grid' (map flag os)) = grid').
    { clear - HL. cbn in HL. apply eq_add_S in HL. revert os HL. induction grid' as [|x l IH]; intros [|y os] E; cbn in *; try discriminate; [reflexivity|].
      f_equal. apply IH. lia. }
    apply transition_spec in EB; [|rewrite MF; exact Hinc].
    destruct (hs_breakdown q) as [bd|].
    + destruct EB as (b & Hb & Hr & HS). split.
      * split; [discriminate|]. intros K. exfalso. destruct (FL b true (or_intror Hb)) as (o & Eo & Fo). apply CV in Fo.
        apply in_combine_l in Hb. exact (K b o (or_intror Hb) Eo Fo).
      * intros bd' E'. injection E' as <-. split.
        -- intros M o Hin L Eo K. apply CV in K. specialize (LF M o Hin Eo). rewrite K in LF. destruct LF as [E|Hin'].
           ++ congruence.
           ++ destruct (HS M true Hin' ltac:(lra)). discriminate.
        -- destruct (FL b true (or_intror Hb)) as (o & Eo & Fo). apply CV in Fo. exists b, o.
           assert (Hbg := in_combine_l _ _ _ _ Hb). split; [right; exact Hbg|]. split; [lra|]. split; [exact Eo|]. split; [exact Fo|].
           intros M' [<-|Hin] L; [lra|]. rewrite <- MF in Hin. apply in_map_iff in Hin as ([M'' f] & E & Hin). cbn in E. subst M''.
           exact (proj1 (HS M' f Hin L)).
    + exfalso. destruct HX as (M & [E|Hin]); [congruence|]. specialize (EB M true Hin). discriminate.
Qed.

Theorem sens_has_breakdown cfg r grid q : hd_sensitivity lp ppf cfg r grid = Ok q -> increasing (hs_M q) -> (forall M, In M (hs_M q) -> 0 <= M) ->
  (has_breakdown q = true <-> exists M o, In M (hs_M q) /\ hd_fit lp ppf cfg r (Some M) = Ok o /\ covers_zero o).
Proof.
  intros H Hi Hp. destruct (sens_line _ _ _ _ H Hi Hp) as [A B]. unfold has_breakdown. destruct (hs_breakdown q) as [bd|].
  - split; [intros _|reflexivity]. destruct (B bd eq_refl) as (_ & M & o & K1 & _ & K2 & K3 & _). eauto.
  - split; [discriminate|]. intros (M & o & K1 & K2 & K3). exfalso. exact (proj1 A eq_refl M o K1 K2 K3).
Qed.

Theorem sens_line_monotone cfg r grid q : hd_sensitivity lp ppf cfg r grid = Ok q -> increasing (hs_M q) -> (forall M, In M (hs_M q) -> 0 <= M) ->
  (forall M1 M2 o1 o2, M1 <= M2 -> hd_fit lp ppf cfg r (Some M1) = Ok o1 -> hd_fit lp ppf cfg r (Some M2) = Ok o2 -> covers_zero o1 -> covers_zero o2) ->
  forall bd, hs_breakdown q = Some bd -> forall M o, In M (hs_M q) -> hd_fit lp ppf cfg r (Some M) = Ok o -> (covers_zero o <-> bd <= M).
Proof.
  intros H Hi Hp Hm bd Eb M o Hin Eo. destruct (sens_line _ _ _ _ H Hi Hp) as (_ & K). destruct (K bd Eb) as (K1 & M1 & o1 & In1 & L1 & E1 & C1 & K2). split.
  - intros C. destruct (Rle_or_lt bd M) as [L|L]; [exact L|]. exfalso. exact (K1 M o Hin L Eo C).
  - intros L. destruct (Rle_or_lt M1 M) as [L2|L2]; [exact (Hm M1 M o1 o L2 E1 Eo C1)|]. specialize (K2 M Hin L2). lra.
Qed.

Theorem sens_line_relative cfg r grid q M0 o0 th s m : hd_method cfg = "relative_magnitude"%string ->
  hd_fit lp ppf cfg r M0 = Ok o0 -> ho_est o0 = Fin th -> ho_se o0 = Fin s -> max_pre r = Fin m -> 0 <= m ->
  hd_sensitivity lp ppf cfg r grid = Ok q -> increasing (hs_M q) -> (forall M, In M (hs_M q) -> 0 <= M) ->
  forall bd, hs_breakdown q = Some bd -> forall M o, In M (hs_M q) -> hd_fit lp ppf cfg r (Some M) = Ok o -> (covers_zero o <-> bd <= M).
Proof.
  intros Hmt H0 Et Es Em Hm H Hi Hp bd Eb M o Hin Eo. eapply sens_line_monotone; eauto. clear M o Hin Eo.
  assert (V : forall M o, hd_fit lp ppf cfg r (Some M) = Ok o ->
     ho_ci_lb o = Fin (th - M * m - ppf None (1 - hd_alpha cfg / 2) * s) /\ ho_ci_ub o = Fin (th + M * m + ppf None (1 - hd_alpha cfg / 2) * s)).
  { intros M o E. destruct (rm_any lp ppf cfg r M0 M o0 Hmt H0) as (o' & H' & EM & Et' & Es'). rewrite E in H'. injection H' as <-.
    rewrite Et in Et'. rewrite Es in Es'. destruct (rm_values lp ppf cfg r _ _ _ _ _ Hmt E Et' Es' Em) as (_ & _ & A & B). rewrite EM in A, B. auto. }
  intros M1 M2 o1 o2 L E1 E2 [C1 C2]. destruct (V _ _ E1) as [A1 B1]. destruct (V _ _ E2) as [A2 B2]. split.
  - rewrite A1 in C1. rewrite A2. cbn [fle] in *. apply Rleb_true in C1. apply Rleb_true.
    assert (M1 * m <= M2 * m) by (apply Rmult_le_compat_r; lra). lra.
  - rewrite B1 in C2. rewrite B2. cbn [fle] in *. apply Rleb_true in C2. apply Rleb_true.
    assert (M1 * m <= M2 * m) by (apply Rmult_le_compat_r; lra). lra.
Qed.

(* an empty grid *)
Theorem sens_empty cfg r o : hd_fit lp ppf cfg r (Some 0) = Ok o ->
  exists q, hd_sensitivity lp ppf cfg r (Some []) = Ok q /\ hs_breakdown q = None /\ has_breakdown q = false /\
    forall b1 b2 b3, plot_sensitivity q b1 b2 b3 = (if b1 || b2 then Err IndexError
      else Ok {| sq_hlines := [ho_est o; Fin 0]; sq_band := None; sq_lines := None; sq_vline := None |}).
Proof.
  intros H. unfold hd_sensitivity. cbn [mapr bind map find_breakdown existsb negb]. rewrite H. cbn [bind]. eexists. split; [reflexivity|].
  split; [reflexivity|]. split; [reflexivity|]. intros [|] [|] [|]; reflexivity.
Qed.
End SP.

(* a grid that is not sorted: the line is drawn at 0 although an interval to its right excludes zero *)
Theorem sens_unsorted_refuted : exists cfg r q M o, hd_sensitivity fm_lp toy_ppf cfg r (Some [5; 1]) = Ok q /\
  hs_breakdown q = Some 0 /\ In M (hs_M q) /\ 0 < M /\ hd_fit fm_lp toy_ppf cfg r (Some M) = Ok o /\ ~ covers_zero o.
Proof.
  exists rm_cfg, (one_post (Fin 22)). assert (E : Rabs 22 - 19 = 3) by (rewrite Rabs_pos_eq; lra).
  assert (I5 := one_post_includes 22 5). assert (I1 := one_post_includes 22 1). rewrite E in *.
  rewrite (proj2 (Rleb_true 3 5)) in I5 by lra. rewrite (proj2 (Rleb_false 3 1)) in I1 by lra.
  unfold includes in I5, I1.
  destruct (hd_fit fm_lp toy_ppf rm_cfg (one_post (Fin 22)) (Some 5)) as [o5|] eqn:E5; [|discriminate].
  destruct (hd_fit fm_lp toy_ppf rm_cfg (one_post (Fin 22)) (Some 1)) as [o1|] eqn:E1; [|discriminate].
  destruct (one_post_fit (Fin 22) (Some 0)) as (o0 & E0).
  cbn [bind] in I5, I1. injection I5 as I5. injection I1 as I1.
  eexists. exists 1, o1. split.
  - unfold hd_sensitivity. cbn [mapr]. rewrite E5, E1. cbn [bind map fst snd]. rewrite I5, I1. cbn [find_breakdown existsb forallb negb orb andb combine transition bind].
    rewrite E0. cbn [bind]. reflexivity.
  - cbn [hs_breakdown hs_M]. split; [reflexivity|]. split; [right; left; reflexivity|]. split; [lra|]. split; [exact E1|].
    rewrite covers_zero_iff, I1. discriminate.
Qed.

(* one post period with effect 22, standard error 1, critical value 19: the line is near 3 on the grid 0, 2, 5 *)
Theorem sens_case : exists q p bd, hd_sensitivity fm_lp toy_ppf rm_cfg (one_post (Fin 22)) (Some [0; 2; 5]) = Ok q /\
  plot_sensitivity q true true true = Ok p /\ sq_vline p = Some bd /\ Rabs (bd - 3) <= 1 / 100 /\
  sq_band p = Some [(0, Fin 22, Fin 22); (2, Fin 20, Fin 24); (5, Fin 17, Fin 27)] /\
  sq_lines p = Some ([(0, Fin 3); (2, Fin 1); (5, Fin (-2))], [(0, Fin 41); (2, Fin 43); (5, Fin 46)]).
Proof.
  assert (E : Rabs 22 - 19 = 3) by (rewrite Rabs_pos_eq; lra).
  destruct (one_post_exact 22) as (o & Ho & A & B & X). rewrite E in X.
  assert (G0 : increasing [0; 2; 5]) by (cbn; repeat split; lra).
  destruct (rm_sensitivity fm_lp toy_ppf rm_cfg (one_post (Fin 22)) None o 22 1 1 [0; 2; 5]
     eq_refl Ho A B (one_post_max _) ltac:(lra) G0 ltac:(discriminate)) as (q & Hq & E1 & E2 & E3 & E4 & E5 & E6 & E7 & E8).
  rewrite X in *. destruct E8 as (bd & a & b & Eb & Hc & Hab & Hbd); [exists 0; split; [left; reflexivity|lra]|exists 5; split; [right; right; left; reflexivity|lra]|].
  assert (Z : toy_ppf None (1 - hd_alpha rm_cfg / 2) = 19) by (cbn [rm_cfg hd_alpha]; apply z19). rewrite Z in E5.
  exists q. eexists. exists bd. split; [exact Hq|]. split; [unfold plot_sensitivity; rewrite E4, E5, E1; cbn [map column bind fst snd combine]; reflexivity|].
  cbn [sq_vline sq_band sq_lines]. split; [exact Eb|]. split.
  - assert (b - a <= 5). { cbn in Hc. destruct Hc as [[<- <-]|[[<- <-]|[]]]; lra. }
    apply Rle_trans with ((b - a) / 2 ^ 21); [exact Hbd|]. apply Rle_trans with (5 / 2 ^ 21).
    + apply Rmult_le_compat_r; [apply Rlt_le, Rinv_0_lt_compat, pow_lt; lra|exact H].
    + apply Rmult_le_reg_r with (2 ^ 21); [apply pow_lt; lra|]. unfold Rdiv. rewrite Rmult_assoc, Rinv_l by (apply pow_nonzero; lra).
      assert (2 ^ 9 <= 2 ^ 21) by (apply Rle_pow; [lra|lia]). lra.
  - split; repeat f_equal; lra.
Qed.

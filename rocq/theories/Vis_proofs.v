(* Proofs about Vis_model.v *)
From Verif Require Import Prelude Flt Multi_model Multi_proofs Honest_model Bacon_model Vis_model.
From Coq Require Import Arith ZArith String List Sorting.Sorted.
Import ListNotations.
Open Scope R_scope.

Lemma in_keepo {A B} (f : A -> option B) l b : In b (keepo f l) <-> exists a, In a l /\ f a = Some b.
Proof.
  unfold keepo. rewrite in_flat_map. split; intros (a & Ha & H); exists a; split; auto.
  - destruct (f a); [destruct H as [->|[]]; auto|destruct H].
  - rewrite H. now left.
Qed.

Lemma zget_in {A} k (v : A) d : zget k d = Some v -> In (k, v) d.
Proof.
  induction d as [|(j, w) d IH]; simpl; [discriminate|].
  destruct (Z.eqb_spec k j) as [->|E]; intros H; [injection H as ->; now left|right; auto].
Qed.
Lemma zget_none {A} k (d : list (Z * A)) : zget k d = None <-> ~ In k (zkeys d).
Proof.
  induction d as [|(j, w) d IH]; simpl; [tauto|].
  destruct (Z.eqb_spec k j) as [->|E].
  - split; [discriminate|intros H; exfalso; apply H; now left].
  - rewrite IH. split; [intros H [X|X]; [congruence|auto]|tauto].
Qed.
Lemma in_zget {A} k (v : A) d : NoDup (zkeys d) -> In (k, v) d -> zget k d = Some v.
Proof.
  induction d as [|(j, w) d IH]; simpl; [intros _ []|].
  intros ND [E|H].
  - injection E as -> ->. now rewrite Z.eqb_refl.
  - inversion ND as [|? ? Hn ND']; subst. destruct (Z.eqb_spec k j) as [->|E]; [|auto].
    exfalso; apply Hn. apply in_map_iff. exists (j, v); auto.
Qed.
Lemma zget_map {A B} (f : A -> B) k d : zget k (map (fun x => (fst x, f (snd x))) d) = option_map f (zget k d).
Proof. induction d as [|(j, w) d IH]; simpl; [reflexivity|]. destruct (Z.eqb k j); auto. Qed.
Lemma zkeys_map {A B} (f : A -> B) (d : list (Z * A)) : zkeys (map (fun x => (fst x, f (snd x))) d) = zkeys d.
Proof. unfold zkeys. rewrite map_map. apply map_ext. reflexivity. Qed.
Lemma zget_mapk {A B} (f : Z -> A -> B) k d : zget k (map (fun x => (fst x, f (fst x) (snd x))) d) = option_map (f k) (zget k d).
Proof.
  induction d as [|(j, w) d IH]; simpl; [reflexivity|]. destruct (Z.eqb_spec k j) as [->|]; auto.
Qed.

Lemma zget_zset {A} k j (v : A) d : zget k (zset j v d) = if Z.eqb k j then Some v else zget k d.
Proof.
  induction d as [|(i, w) d IH]; simpl.
  - destruct (Z.eqb_spec k j); auto.
  - destruct (Z.eqb_spec j i) as [->|E]; simpl.
    + destruct (Z.eqb_spec k i); auto.
    + rewrite IH. destruct (Z.eqb_spec k i) as [->|E2]; [|reflexivity].
      destruct (Z.eqb_spec i j); [congruence|reflexivity].
Qed.
Lemma zget_fold {A} k l : forall d : list (Z * A),
  zget k (fold_left (fun d p => zset (fst p) (snd p) d) l d)
  = match zget k (rev l) with Some v => Some v | None => zget k d end.
Proof.
  induction l as [|(j, v) l IH]; intros d; simpl; [reflexivity|].
  rewrite IH, zget_zset. simpl.
  assert (E : forall a b : list (Z * A), zget k (a ++ b) = match zget k a with Some v => Some v | None => zget k b end).
  { induction a as [|(i, w) a IHa]; intros b; simpl; [reflexivity|]. destruct (Z.eqb k i); auto. }
  rewrite E. destruct (zget k (rev l)); [reflexivity|]. simpl. destruct (Z.eqb k j); reflexivity.
Qed.
(* dict(zip(...)): the last value of a key *)
Lemma zget_zdict {A} k (l : list (Z * A)) : zget k (zdict l) = zget k (rev l).
Proof. unfold zdict. rewrite zget_fold. destruct (zget k (rev l)); reflexivity. Qed.

Lemma fsub_fin0 v : ffinite v = true -> fsub v v = Fin 0.
Proof. destruct v; try discriminate. intros _. simpl. f_equal. lra. Qed.
Lemma fsub_nan_fin e v : ffinite v = true -> fisnan (fsub e v) = fisnan e.
Proof. destruct v; try discriminate. destruct e; reflexivity. Qed.

(* ---- specification: what the plot of a results object should show ---- *)
Definition reported (r : vresults) (p : Z) (e s : fl) : Prop :=
  match r with
  | VFrame _ _ _ rows => exists ci l1 l2, rows = l1 ++ (p, e, s, ci) :: l2 /\ ~ In p (map (fun x => fst (fst (fst x))) l2)
  | VMulti pe _ _ => In (p, (e, s)) pe
  | VEvent (Some es) => exists n, In (p, {| ev_effect := e; ev_se := s; ev_n_groups := n |}) es
  | _ => False
  end.
(* the keys of a dictionary are distinct *)
Definition keys_ok (r : vresults) : Prop :=
  match r with VMulti pe _ _ => NoDup (zkeys pe) | VEvent (Some es) => NoDup (zkeys es) | _ => True end.
(* the periods on the axis: those asked for, or the object's own *)
Definition on_axis (r : vresults) (periods post : option (list Z)) (p : Z) : Prop :=
  match periods with
  | Some l => In p l
  | None => match r with
            | VFrame _ _ _ rows => In p (map (fun x => fst (fst (fst x))) rows)
            | VMulti _ _ post0 => match post with Some l => In p l | None => In p post0 end
            | VEvent (Some es) => In p (zkeys es)
            | _ => False
            end
  end.
Definition bar (z : R) (e s : fl) : fl * fl :=
  match s with Fin _ => (fsub e (fmul (Fin z) s), fadd e (fmul (Fin z) s)) | _ => (NaN, NaN) end.

Section P.
Variable ppf : option Z -> R -> R.

Lemma extract_spec r periods pre post ref d : keys_ok r -> extract_plot_data r periods pre post ref = Ok d ->
  (forall p e s, (zget p (vd_effects d) = Some e /\ zget p (vd_se d) = Some s) <-> reported r p e s)
  /\ (forall p, (exists e, zget p (vd_effects d) = Some e) <-> (exists s, zget p (vd_se d) = Some s))
  /\ exists ps, vd_periods d = Some ps /\ (forall p, In p ps <-> on_axis r periods post p).
Proof.
  intros HK. destruct r as [hp he hs rows|pe pre0 post0|[es|]|]; simpl; try discriminate.
  - destruct hp, he, hs; simpl; try discriminate. intros H; injection H as <-. simpl.
    assert (E : forall p, zget p (zdict (map (fun x => (fst (fst (fst x)), snd (fst (fst x)))) rows))
       = option_map (fun y => fst (fst y)) (zget p (map (fun x : Z * fl * fl * option (fl*fl) => (fst (fst (fst x)), (snd (fst (fst x)), snd (fst x), snd x))) (rev rows)))).
    { intros p. rewrite zget_zdict, <- map_rev. generalize (rev rows). clear. induction l as [|(((q, e), s), c) l IH]; simpl; [reflexivity|].
      destruct (Z.eqb p q); auto. }
    assert (E2 : forall p, zget p (zdict (map (fun x => (fst (fst (fst x)), snd (fst x))) rows))
       = option_map (fun y => snd (fst y)) (zget p (map (fun x : Z * fl * fl * option (fl*fl) => (fst (fst (fst x)), (snd (fst (fst x)), snd (fst x), snd x))) (rev rows)))).
    { intros p. rewrite zget_zdict, <- map_rev. generalize (rev rows). clear. induction l as [|(((q, e), s), c) l IH]; simpl; [reflexivity|].
      destruct (Z.eqb p q); auto. }
    assert (K : forall p e s c, zget p (map (fun x : Z * fl * fl * option (fl*fl) => (fst (fst (fst x)), (snd (fst (fst x)), snd (fst x), snd x))) (rev rows)) = Some (e, s, c)
       <-> exists l1 l2, rows = l1 ++ (p, e, s, c) :: l2 /\ ~ In p (map (fun x => fst (fst (fst x))) l2)).
    { clear. intros p e s c. induction rows as [|(((q, a), b), d) rows IH] using rev_ind.
      - simpl. split; [discriminate|]. intros (l1 & l2 & H & _). destruct l1; discriminate.
      - rewrite rev_app_distr. simpl. destruct (Z.eqb_spec p q) as [->|N].
        + split.
          * intros H; injection H as -> -> ->. exists rows, []. split; auto.
          * intros (l1 & l2 & H & Hn). destruct l2 as [|x l2] using rev_ind.
            -- apply app_inj_tail in H. destruct H as [_ H]. injection H as -> -> ->. reflexivity.
            -- clear IHl2. change ((q, e, s, c) :: l2 ++ [x]) with (((q, e, s, c) :: l2) ++ [x]) in H. rewrite app_assoc in H. apply app_inj_tail in H. destruct H as [_ <-].
               exfalso; apply Hn. rewrite map_app. apply in_or_app. right. now left.
        + rewrite IH. split; intros (l1 & l2 & H & Hn).
          * exists l1, (l2 ++ [(q, a, b, d)]). split; [rewrite H, <- app_assoc; reflexivity|].
            rewrite map_app. intros X. apply in_app_or in X. destruct X as [X|[X|[]]]; auto.
          * destruct l2 as [|x l2] using rev_ind.
            -- apply app_inj_tail in H. destruct H as [_ H]. injection H as -> -> -> ->. congruence.
            -- clear IHl2. change ((p, e, s, c) :: l2 ++ [x]) with (((p, e, s, c) :: l2) ++ [x]) in H. rewrite app_assoc in H. apply app_inj_tail in H. destruct H as [-> <-].
               exists l1, l2. split; [reflexivity|]. intros X. apply Hn. rewrite map_app. apply in_or_app. now left. }
    split; [|split].
    + intros p e s. rewrite E, E2. split.
      * intros [H1 H2]. destruct (zget p _) as [((a, b), c)|] eqn:G in H1; [|discriminate].
        rewrite G in H2. simpl in H1, H2. injection H1 as ->. injection H2 as ->. apply K in G. destruct G as (l1 & l2 & G). exists c, l1, l2. exact G.
      * intros (c & l1 & l2 & G). assert (X : exists l1 l2, rows = l1 ++ (p, e, s, c) :: l2 /\ ~ In p (map (fun x => fst (fst (fst x))) l2)) by eauto.
        apply K in X. rewrite X. auto.
    + intros p. rewrite E, E2. destruct (zget p _) as [((a, b), c)|]; simpl; split; intros [x X]; try discriminate; eauto.
    + destruct periods as [l|]; simpl; eexists; (split; [reflexivity|]); tauto.
  - intros H; injection H as <-. simpl. split; [|split].
    + intros p e s. rewrite (zget_map fst), (zget_map snd). split.
      * intros [H1 H2]. destruct (zget p pe) as [(a, b)|] eqn:G; [|discriminate]. simpl in *. injection H1 as ->. injection H2 as ->. now apply zget_in.
      * intros H. rewrite (in_zget _ _ _ HK H). auto.
    + intros p. rewrite (zget_map fst), (zget_map snd). destruct (zget p pe); simpl; split; intros [x X]; try discriminate; eauto.
    + destruct periods as [l|]; simpl; [eexists; split; [reflexivity|tauto]|]. destruct post; simpl; eexists; (split; [reflexivity|]); tauto.
  - intros H; injection H as <-. simpl. split; [|split].
    + intros p e s. rewrite (zget_map ev_effect), (zget_map ev_se). split.
      * intros [H1 H2]. destruct (zget p es) as [[a b n]|] eqn:G; [|discriminate]. simpl in *. injection H1 as ->. injection H2 as ->. exists n. now apply zget_in.
      * intros [n H]. rewrite (in_zget _ _ _ HK H). auto.
    + intros p. rewrite (zget_map ev_effect), (zget_map ev_se). destruct (zget p es); simpl; split; intros [x X]; try discriminate; eauto.
    + destruct periods as [l|]; simpl; eexists; (split; [reflexivity|]); [tauto|].
      intros p. apply zsort_In.
Qed.

Lemma bar_eq alpha e s :
  (if ffinite s then (fsub e (fmul (zcrit ppf alpha) s), fadd e (fmul (zcrit ppf alpha) s)) else (NaN, NaN))
  = bar (ppf None (1 - alpha / 2)) e s.
Proof. destruct s; reflexivity. Qed.

(* normalisation that applies to a plot: Some v = the finite effect of an explicitly given reference *)
Definition applies (r : vresults) (ref : option Z) (v : fl) : Prop :=
  exists p s, ref = Some p /\ reported r p v s /\ ffinite v = true.
Definition shown_se (ref : option Z) (norm : bool) (p : Z) (s : fl) : fl :=
  match ref with Some q => if norm && Z.eqb p q then NaN else s | None => s end.

Lemma points_gen r periods pre post ref alpha sh sr pl : keys_ok r ->
  plot_event_study ppf (Some r) None None periods pre post ref alpha sh sr = Ok pl ->
  exists d, extract_plot_data r periods pre post ref = Ok d /\
  ep_points pl = keepo (es_point_of ppf alpha (fst (normalise_ref (match ref with Some _ => negb (vd_inferred d) | None => false end) (vd_ref d) (vd_effects d) (vd_se d)))
                       (snd (normalise_ref (match ref with Some _ => negb (vd_inferred d) | None => false end) (vd_ref d) (vd_effects d) (vd_se d))) (vd_ref d))
                       (match vd_periods d with Some l => l | None => zsort (zkeys (vd_effects d)) end).
Proof.
  intros HK. unfold plot_event_study. destruct (extract_plot_data r periods pre post ref) as [d|e]; simpl; [|discriminate].
  intros H. exists d. split; [reflexivity|]. destruct (keepo _ _) as [|q l] eqn:E in H; [discriminate|].
  injection H as <-. simpl. rewrite <- E. reflexivity.
Qed.

Lemma inferred_flag r periods pre post ref d : extract_plot_data r periods pre post ref = Ok d ->
  ref <> None -> vd_inferred d = false /\ vd_ref d = ref.
Proof.
  destruct r as [hp he hs rows|pe pre0 post0|[es|]|]; simpl; try discriminate.
  - destruct hp, he, hs; simpl; try discriminate. intros H _; injection H as <-; auto.
  - intros H _; injection H as <-; auto.
  - destruct ref; [|congruence]. intros H _; injection H as <-; auto.
Qed.

(* no reference given: exactly the reported effects of the chosen periods, with normal intervals *)
Theorem points_no_ref r periods pre post alpha sh sr pl : keys_ok r ->
  plot_event_study ppf (Some r) None None periods pre post None alpha sh sr = Ok pl ->
  forall p e s ci, (exists f, In {| sp_period := p; sp_effect := e; sp_se := s; sp_ci := ci; sp_ref := f |} (ep_points pl))
    <-> on_axis r periods post p /\ reported r p e s /\ e <> NaN /\ ci = bar (ppf None (1 - alpha / 2)) e s.
Proof.
  intros HK H. destruct (points_gen _ _ _ _ _ _ _ _ _ HK H) as (d & Ed & Ep).
  destruct (extract_spec _ _ _ _ _ _ HK Ed) as (S1 & S2 & ps & Eps & S3).
  rewrite Eps in Ep.
  assert (N : normalise_ref false (vd_ref d) (vd_effects d) (vd_se d) = (vd_effects d, vd_se d)).
  { unfold normalise_ref. destruct (vd_ref d); [|reflexivity]. destruct (zget z (vd_effects d)); reflexivity. }
  rewrite N in Ep. simpl in Ep. intros p e s ci. rewrite Ep. split.
  - intros [f Hf]. apply in_keepo in Hf. destruct Hf as (q & Hq & Hf). unfold es_point_of in Hf.
    rewrite bar_eq in Hf. destruct (zget q (vd_effects d)) as [v|] eqn:G; [|discriminate].
    destruct (fisnan v) eqn:Nv; [discriminate|].
    destruct (proj1 (S2 q) (ex_intro _ v G)) as [w Hw]. rewrite Hw in Hf. injection Hf as -> -> -> <- _.
    split; [now apply S3|]. split; [apply S1; auto|]. split; [intros ->; discriminate|reflexivity].
  - intros (Ha & Hr & Hn & ->). apply S1 in Hr. destruct Hr as [He Hs].
    eexists. apply in_keepo. exists p. split; [now apply S3|]. unfold es_point_of. rewrite bar_eq, He, Hs.
    destruct e; try congruence; reflexivity.
Qed.

(* a reference with a finite reported effect v is given *)
Theorem points_ref r periods pre post q v sq alpha sh sr pl : keys_ok r ->
  reported r q (Fin v) sq ->
  plot_event_study ppf (Some r) None None periods pre post (Some q) alpha sh sr = Ok pl ->
  forall p e s ci f, In {| sp_period := p; sp_effect := e; sp_se := s; sp_ci := ci; sp_ref := f |} (ep_points pl)
    <-> on_axis r periods post p
        /\ (exists e0 s0, reported r p e0 s0 /\ e0 <> NaN /\ e = fsub e0 (Fin v)
            /\ s = (if Z.eq_dec p q then NaN else s0))
        /\ ci = bar (ppf None (1 - alpha / 2)) e s /\ f = (if Z.eq_dec p q then true else false).
Proof.
  intros HK HR H. destruct (points_gen _ _ _ _ _ _ _ _ _ HK H) as (d & Ed & Ep).
  destruct (extract_spec _ _ _ _ _ _ HK Ed) as (S1 & S2 & ps & Eps & S3).
  destruct (inferred_flag _ _ _ _ _ _ Ed) as [I1 I2]; [discriminate|].
  rewrite Eps, I1, I2 in Ep. simpl negb in Ep. apply S1 in HR. destruct HR as [R1 R2].
  unfold normalise_ref in Ep. rewrite R1 in Ep. simpl andb in Ep. cbv iota in Ep. cbn [fst snd] in Ep.
  intros p e s ci f. rewrite Ep. split.
  - intros Hf. apply in_keepo in Hf. destruct Hf as (x & Hx & Hf). unfold es_point_of in Hf.
    rewrite bar_eq in Hf. rewrite (zget_map (fun y => fsub y (Fin v))) in Hf.
    rewrite (zget_mapk (fun k y => if Z.eqb k q then NaN else y)) in Hf.
    destruct (zget x (vd_effects d)) as [a|] eqn:G; [|discriminate]. cbn [option_map] in Hf.
    rewrite fsub_nan_fin in Hf by reflexivity. destruct (fisnan a) eqn:Na; [discriminate|].
    destruct (proj1 (S2 x) (ex_intro _ a G)) as [w Hw]. rewrite Hw in Hf. cbn [option_map] in Hf. injection Hf as -> <- <- <- <-.
    split; [now apply S3|]. split.
    + exists a, w. split; [apply S1; auto|]. split; [intros ->; discriminate|]. split; [reflexivity|].
      destruct (Z.eqb_spec p q), (Z.eq_dec p q); congruence.
    + split; [reflexivity|]. destruct (Z.eqb_spec p q), (Z.eq_dec p q); congruence.
  - intros (Ha & (e0 & s0 & Hr & Hn & -> & ->) & -> & ->). apply S1 in Hr. destruct Hr as [He Hs].
    apply in_keepo. exists p. split; [now apply S3|]. unfold es_point_of. rewrite bar_eq.
    rewrite (zget_map (fun y => fsub y (Fin v))), (zget_mapk (fun k y => if Z.eqb k q then NaN else y)), He, Hs.
    cbn [option_map]. rewrite fsub_nan_fin by reflexivity. destruct (fisnan e0) eqn:Ne; [destruct e0; discriminate || congruence|].
    destruct (Z.eqb_spec p q), (Z.eq_dec p q); try congruence; reflexivity.
Qed.
End P.

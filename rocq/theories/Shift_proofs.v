(* Moving the origin of the calendar: CallawaySantAnna. *)
From Coq Require Import Reals Lra Lia.
From Verif Require Import Prelude Flt Stats_model Linalg_model Linalg_vcov Did_model Multi_model Multi_proofs Bacon_model Staggered_model Staggered_proofs Staggered_thms Staggered_more.
From Coq Require Import Arith ZArith String List FunctionalExtensionality.
Import ListNotations.
Open Scope R_scope.

(* first_treat on a calendar whose origin is d periods earlier; 0 keeps meaning never treated *)
Definition cshift (d : Z) (c : coh) : coh :=
  match c with CFin k => if Z.eqb k 0 then CFin 0 else CFin (k + d) | c => c end.
(* the same error, or the transformed result *)
Definition on_ok {A B} (f : A -> B) (r : res A) : res B := match r with Ok a => Ok (f a) | Err e => Err e end.
(* treatment dates are positive on both calendars *)
Definition origin_ok (d : Z) (c : coh) : Prop :=
  match c with CFin k => (k = 0 \/ (0 < k /\ 0 < k + d))%Z | _ => True end.
Definition group_ok (d : Z) (c : coh) : Prop :=
  match c with CFin k => (0 < k /\ 0 < k + d)%Z | CInf => True | CNaN => False end.
Definition shift_gte (d : Z) (e : gte) : gte :=
  {| ge_g := cshift d (ge_g e); ge_t := (ge_t e + d)%Z; ge_base := (ge_base e + d)%Z; ge_eff := ge_eff e; ge_se := ge_se e;
     ge_T := ge_T e; ge_C := ge_C e; ge_tinf := ge_tinf e; ge_cinf := ge_cinf e |}.
Definition shift_boot (d : Z) (b : cs_boot) : cs_boot :=
  {| cb_gt := map (fun x => (cshift d (fst (fst x)), (snd (fst x) + d)%Z, snd x)) (cb_gt b);
     cb_overall := cb_overall b; cb_dist := cb_dist b; cb_es := cb_es b;
     cb_group := map (fun x => (cshift d (fst x), snd x)) (cb_group b) |}.
Definition shift_cs (d : Z) (r : cs_result) : cs_result :=
  {| cr_effects := map (shift_gte d) (cr_effects r); cr_reports := cr_reports r;
     cr_att := cr_att r; cr_se := cr_se r; cr_t := cr_t r; cr_p := cr_p r; cr_ci := cr_ci r;
     cr_groups := map (cshift d) (cr_groups r); cr_periods := map (fun s => (s + d)%Z) (cr_periods r);
     cr_n_obs := cr_n_obs r; cr_n_treated := cr_n_treated r; cr_n_control := cr_n_control r;
     cr_es := cr_es r; cr_group := option_map (map (fun x => (cshift d (fst x), snd x))) (cr_group r);
     cr_boot := option_map (shift_boot d) (cr_boot r) |}.

Section Basics.
Variable d : Z.
Notation sh := (cshift d).
Notation ok := (origin_ok d).
Lemma group_origin c : group_ok d c -> ok c.
Proof. destruct c; cbn; auto. Qed.
Lemma sh_inj a b : ok a -> ok b -> sh a = sh b -> a = b.
Proof.
  destruct a as [k| |], b as [l| |]; cbn; intros Ha Hb; repeat match goal with |- context [Z.eqb ?x 0] => destruct (Z.eqb_spec x 0) end; intros H; try discriminate H; try reflexivity; try (f_equal; lia); try (injection H as H; f_equal; lia).
Qed.
Lemma sh_eqb a b : ok a -> ok b -> c_eqb (sh a) (sh b) = c_eqb a b.
Proof.
  intros Ha Hb. destruct (c_eqb a b) eqn:E.
  - apply c_eqb_true in E. subst. apply c_eqb_refl.
  - apply c_eqb_false in E. apply c_eqb_false. intros H. apply E, sh_inj; auto.
Qed.
Lemma sh_never c : ok c -> c_never (sh c) = c_never c.
Proof.
  destruct c as [k| |]; cbn; auto. intros H. destruct (Z.eqb_spec k 0) as [->|N]; [reflexivity|]. cbn. apply Z.eqb_neq. lia.
Qed.
Lemma sh_gt0 c : ok c -> c_gt (sh c) 0 = c_gt c 0.
Proof.
  destruct c as [k| |]; cbn; auto. intros H. destruct (Z.eqb_spec k 0) as [->|N]; [reflexivity|]. cbn. transitivity true; [apply Z.ltb_lt; lia|symmetry; apply Z.ltb_lt; lia].
Qed.
Lemma leb_shift a b : Z.leb (a + d) (b + d) = Z.leb a b.
Proof. apply eq_true_iff_eq. rewrite !Z.leb_le. lia. Qed.
Lemma ltb_shift a b : Z.ltb (a + d) (b + d) = Z.ltb a b.
Proof. apply eq_true_iff_eq. rewrite !Z.ltb_lt. lia. Qed.
Lemma eqb_shift a b : Z.eqb (a + d) (b + d) = Z.eqb a b.
Proof. apply eq_true_iff_eq. rewrite !Z.eqb_eq. lia. Qed.
Lemma sh_gt c s : ok c -> c_never c = false -> c_gt (sh c) (s + d) = c_gt c s.
Proof.
  destruct c as [k| |]; cbn; auto. intros H N. rewrite N. cbn. apply ltb_shift.
Qed.
Lemma sh_fin k : (0 < k)%Z -> sh (CFin k) = CFin (k + d).
Proof. intros H. cbn. destruct (Z.eqb_spec k 0); [lia|reflexivity]. Qed.
Lemma sh_before a c s : group_ok d c -> before a (sh c) (s + d) = before a c s.
Proof.
  destruct c as [k| |]; cbn; auto. intros H. destruct (Z.eqb_spec k 0); [lia|]. cbn. replace (k + d - a)%Z with (k - a + d)%Z by lia. apply ltb_shift.
Qed.
Lemma zinsert_shift x l : zinsert (x + d) (map (fun s => (s + d)%Z) l) = map (fun s => (s + d)%Z) (zinsert x l).
Proof. induction l as [|y l IH]; cbn; auto. rewrite leb_shift. destruct (Z.leb x y); cbn; [reflexivity|]. now rewrite IH. Qed.
Lemma zsort_shift l : zsort (map (fun s => (s + d)%Z) l) = map (fun s => (s + d)%Z) (zsort l).
Proof. induction l as [|y l IH]; cbn; auto. unfold zsort in IH. rewrite IH. apply zinsert_shift. Qed.
Lemma sorted_shift l : zsort (nodup Z.eq_dec (map (fun s => (s + d)%Z) l)) = map (fun s => (s + d)%Z) (zsort (nodup Z.eq_dec l)).
Proof. rewrite (nodup_map_inj Z.eq_dec Z.eq_dec) by (intros; lia). apply zsort_shift. Qed.
Lemma zmem_shift b l : zmem (b + d) (map (fun s => (s + d)%Z) l) = zmem b l.
Proof. unfold zmem. induction l as [|y l IH]; cbn; auto. rewrite IH. now rewrite eqb_shift. Qed.
Lemma filter_map_comm {A B} (f : A -> B) p l : filter p (map f l) = map f (filter (fun a => p (f a)) l).
Proof. induction l as [|a l IH]; cbn; auto. rewrite IH. destruct (p (f a)); reflexivity. Qed.
End Basics.

(* aggregation of relabelled cells *)
Section Agg.
Variable d : Z.
Notation sg := (shift_gte d).
Definition shw (ew : gte * R) : gte * R := (sg (fst ew), snd ew).
Lemma by_size_sh l : by_size (map sg l) = map shw (by_size l).
Proof.
  unfold by_size. rewrite !map_map. apply map_ext. intros e. unfold shw. cbn. f_equal. rewrite sumf_map. reflexivity.
Qed.
Lemma equally_sh l : equally (map sg l) = map shw (equally l).
Proof. unfold equally. rewrite !map_map. unfold len. rewrite map_length. reflexivity. Qed.
Lemma weighted_sh l : weighted (map shw l) = weighted l.
Proof. unfold weighted. rewrite map_map. reflexivity. Qed.
Lemma flat_map_map' {A B C} (f : A -> B) (h : B -> list C) l : flat_map h (map f l) = flat_map (fun a => h (f a)) l.
Proof. induction l as [|a l IH]; cbn; auto. now rewrite IH. Qed.
Lemma agg_units_sh l : agg_units (map shw l) = agg_units l.
Proof. unfold agg_units. rewrite flat_map_map'. reflexivity. Qed.
Lemma psi_sh l a : psi (map shw l) a = psi l a.
Proof. unfold psi. rewrite flat_map_map'. reflexivity. Qed.
Lemma agg_se_sh l : agg_se (map shw l) = agg_se l.
Proof. unfold agg_se. rewrite agg_units_sh. do 2 f_equal. apply map_ext. intros a. now rewrite psi_sh. Qed.
Lemma boot_agg_sh w l : boot_agg w (map shw l) = boot_agg w l.
Proof. unfold boot_agg. rewrite map_map. reflexivity. Qed.
Lemma forallb_map' {A B} (f : A -> B) p l : forallb p (map f l) = forallb (fun a => p (f a)) l.
Proof. induction l as [|a l IH]; cbn; auto. now rewrite IH. Qed.
Lemma agg_se_wif_sh size size' cohort cohort' l :
  (forall ew, In ew l -> size' (cshift d (ge_g (fst ew))) = size (ge_g (fst ew)) /\
     forall a, c_eqb (cohort' a) (cshift d (ge_g (fst ew))) = c_eqb (cohort a) (ge_g (fst ew))) ->
  agg_se_wif size' cohort' (map shw l) = agg_se_wif size cohort l.
Proof.
  intros H.
  assert (P : forall ew, In ew l -> wif_pg size' (map shw l) (sg (fst ew)) = wif_pg size l (fst ew)).
  { intros ew Hew. unfold wif_pg. rewrite agg_units_sh. cbn. now rewrite (proj1 (H ew Hew)). }
  assert (S : wif_sum size' (map shw l) = wif_sum size l).
  { unfold wif_sum. rewrite sumf_map. apply sumf_ext. intros ew Hew. exact (P ew Hew). }
  assert (D : forall a ew, In ew l -> wif_ind cohort' a (sg (fst ew)) = wif_ind cohort a (fst ew)).
  { intros a ew Hew. unfold wif_ind. cbn. now rewrite (proj2 (H ew Hew)). }
  assert (K : forall a, wif_contrib size' cohort' (map shw l) (fun e => toR (ge_eff e)) a = wif_contrib size cohort l (fun e => toR (ge_eff e)) a).
  { intros a. unfold wif_contrib. cbv zeta. rewrite S, !sumf_map.
    assert (E : sumf (fun ew => wif_ind cohort' a (fst (shw ew)) - wif_pg size' (map shw l) (fst (shw ew))) l = sumf (fun ew => wif_ind cohort a (fst ew) - wif_pg size l (fst ew)) l).
    { apply sumf_ext. intros ew Hew. cbn [shw fst]. now rewrite P, D. }
    rewrite E. apply sumf_ext. intros ew Hew. cbn [shw fst]. rewrite P, D by auto. reflexivity. }
  unfold agg_se_wif. rewrite S, agg_units_sh, forallb_map'. cbn [shw fst]. destruct (Req_EM_T _ 0); [reflexivity|].
  unfold eff_fin at 1. cbn [shift_gte ge_eff]. change (forallb (fun a : gte * R => match ge_eff (fst a) with Fin _ => true | _ => false end) l) with (forallb (fun ew => eff_fin (fst ew)) l).
  destruct (forallb _ l); [|reflexivity]. cbv zeta. do 2 f_equal. apply map_ext. intros a. now rewrite psi_sh, K.
Qed.
Lemma post_sh a l : Forall (fun e => group_ok d (ge_g e)) l -> filter (ge_post a) (map sg l) = map sg (filter (ge_post a) l).
Proof.
  intros H. rewrite filter_map_comm. f_equal. apply filter_ext_in. intros e He. unfold ge_post. cbn. rewrite sh_before; [reflexivity|]. exact (proj1 (Forall_forall _ _) H e He).
Qed.
Lemma rel_sh e : group_ok d (ge_g e) -> rel_time (sg e) = rel_time e.
Proof.
  unfold rel_time. cbn. destruct (ge_g e) as [k| |]; cbn; auto. intros H. destruct (Z.eqb_spec k 0); [lia|]. f_equal. lia.
Qed.
Lemma rel_keys_sh l : Forall (fun e => group_ok d (ge_g e)) l -> rel_keys (map sg l) = rel_keys l.
Proof.
  intros H. unfold rel_keys. rewrite Forall_forall in H.
  assert (E : map rel_time (map sg l) = map rel_time l) by (rewrite map_map; apply map_ext_in; intros e He; apply rel_sh; auto).
  assert (A : forall L, existsb (fun e => negb (is_some (rel_time e))) L = existsb (fun o : option Z => negb (is_some o)) (map rel_time L)).
  { induction L as [|x L IH]; cbn; auto. now rewrite IH. }
  assert (B : forall L, flat_map (fun e => match rel_time e with Some z => [z] | None => [] end) L = flat_map (fun o : option Z => match o with Some z => [z] | None => [] end) (map rel_time L)).
  { induction L as [|x L IH]; cbn; auto. now rewrite IH. }
  rewrite !A, !B, E. reflexivity.
Qed.
Lemma cells_sh l k : Forall (fun e => group_ok d (ge_g e)) l -> cells_at (map sg l) k = map sg (cells_at l k).
Proof.
  intros H. rewrite Forall_forall in H. unfold cells_at. rewrite filter_map_comm. f_equal. apply filter_ext_in. intros e He. now rewrite rel_sh by auto.
Qed.
Lemma Forall_filter' {A} (P : A -> Prop) p l : Forall P l -> Forall P (filter p l).
Proof. rewrite !Forall_forall. intros H x Hx. apply filter_In in Hx. apply H, Hx. Qed.
Lemma balanced_sh bal l : Forall (fun e => group_ok d (ge_g e)) l -> balanced_effects bal (map sg l) = map sg (balanced_effects bal l).
Proof.
  intros H. destruct bal as [b|]; [|reflexivity]. unfold balanced_effects. cbv zeta. change (filter (fun e => oz_eqb (rel_time e) (Some b)) ?L) with (cells_at L (Some b)).
  rewrite cells_sh by auto. rewrite filter_map_comm. f_equal. apply filter_ext_in. intros e He.
  assert (F : Forall (fun e => group_ok d (ge_g e)) (cells_at l (Some b))) by (apply Forall_filter', H).
  rewrite Forall_forall in H. specialize (H e He). revert F. induction (cells_at l (Some b)) as [|x L IH]; intros F; cbn; auto.
  apply Forall_cons_iff in F as [Fx F]. cbn in IH. rewrite IH by auto. f_equal. apply sh_eqb; apply group_origin; auto.
Qed.
Lemma balanced_ok bal l : Forall (fun e => group_ok d (ge_g e)) l -> Forall (fun e => group_ok d (ge_g e)) (balanced_effects bal l).
Proof. intros H. destruct bal; [|exact H]. apply Forall_filter', H. Qed.
Lemma es_sh sf ppf cfg bal l : Forall (fun e => group_ok d (ge_g e)) l -> agg_event_study sf ppf cfg bal (map sg l) = agg_event_study sf ppf cfg bal l.
Proof.
  intros H. unfold agg_event_study. rewrite balanced_sh by auto. pose proof (balanced_ok bal l H) as B. rewrite rel_keys_sh by auto.
  assert (E : forall e, es_effect sf ppf (cs_alpha cfg) (map sg (balanced_effects bal l)) e = es_effect sf ppf (cs_alpha cfg) (balanced_effects bal l) e).
  { intros e. unfold es_effect. rewrite cells_sh, by_size_sh, weighted_sh, agg_se_sh, map_length by auto. reflexivity. }
  rewrite (map_ext _ (fun e => (e, es_effect sf ppf (cs_alpha cfg) (balanced_effects bal l) e))) by (intros e; now rewrite E). reflexivity.
Qed.
Lemma group_cells_sh a l g0 : Forall (fun e => group_ok d (ge_g e)) l -> origin_ok d g0 -> group_cells a (map sg l) (cshift d g0) = map sg (group_cells a l g0).
Proof.
  intros H Hg. rewrite Forall_forall in H. unfold group_cells. rewrite filter_map_comm. f_equal. apply filter_ext_in. intros e He. specialize (H e He).
  unfold ge_post. cbn. rewrite sh_before by auto. rewrite sh_eqb; auto. apply group_origin; auto.
Qed.
Lemma by_group_sh sf ppf cfg gs l : Forall (fun e => group_ok d (ge_g e)) l -> Forall (origin_ok d) gs ->
  agg_by_group sf ppf cfg (map (cshift d) gs) (map sg l) = map (fun x => (cshift d (fst x), snd x)) (agg_by_group sf ppf cfg gs l).
Proof.
  intros H Hg. unfold agg_by_group. rewrite flat_map_map'. induction gs as [|g0 gs IH]; [reflexivity|]. apply Forall_cons_iff in Hg as [Hg0 Hg].
  cbn [flat_map]. rewrite map_app, <- IH by auto. f_equal. rewrite group_cells_sh by auto.
  destruct (group_cells (cs_anticipation cfg) l g0) as [|c cs]; [reflexivity|].
  cbn [map]. change (sg c :: map sg cs) with (map sg (c :: cs)). cbv zeta. rewrite equally_sh, weighted_sh, agg_se_sh, map_length. reflexivity.
Qed.
Lemma prepare_es_sh bal l : Forall (fun e => group_ok d (ge_g e)) l ->
  prepare_es bal (map sg l) = map (fun p => (fst p, map shw (snd p))) (prepare_es bal l).
Proof.
  intros H. unfold prepare_es. cbv zeta. rewrite balanced_sh by auto. pose proof (balanced_ok bal l H) as B. rewrite rel_keys_sh, map_map by auto. cbn [fst snd].
  apply map_ext. intros e. now rewrite cells_sh, by_size_sh by auto.
Qed.
Lemma prepare_group_sh a gs l : Forall (fun e => group_ok d (ge_g e)) l -> Forall (origin_ok d) gs ->
  prepare_group a (map (cshift d) gs) (map sg l) = map (fun p => (cshift d (fst p), map shw (snd p))) (prepare_group a gs l).
Proof.
  intros H Hg. unfold prepare_group. rewrite flat_map_map'. induction gs as [|g0 gs IH]; [reflexivity|]. apply Forall_cons_iff in Hg as [Hg0 Hg].
  cbn [flat_map]. rewrite map_app, <- IH by auto. f_equal. rewrite group_cells_sh by auto.
  destruct (group_cells a l g0) as [|c cs]; [reflexivity|]. cbn [map]. change (sg c :: map sg cs) with (map sg (c :: cs)). now rewrite equally_sh.
Qed.
Lemma boot_sh cfg ws gs es grp bal l : Forall (fun e => group_ok d (ge_g e)) l -> Forall (origin_ok d) gs ->
  run_bootstrap cfg ws (map (cshift d) gs) es grp bal (map sg l) = shift_boot d (run_bootstrap cfg ws gs es grp bal l).
Proof.
  intros H Hg. unfold run_bootstrap, shift_boot. cbv zeta. cbn [cb_gt cb_overall cb_dist cb_es cb_group].
  rewrite post_sh, prepare_es_sh, prepare_group_sh by auto.
  assert (B : forall L, map (fun w => boot_agg w (map shw L)) ws = map (fun w => boot_agg w L) ws) by (intros L; apply map_ext; intros w; apply boot_agg_sh).
  f_equal.
  - rewrite !map_map. reflexivity.
  - destruct (filter (ge_post (cs_anticipation cfg)) l) as [|c cs]; [reflexivity|]. cbn [map]. change (sg c :: map sg cs) with (map sg (c :: cs)). now rewrite by_size_sh, weighted_sh, B.
  - destruct (filter (ge_post (cs_anticipation cfg)) l) as [|c cs]; [reflexivity|]. cbn [map]. change (sg c :: map sg cs) with (map sg (c :: cs)). now rewrite by_size_sh, B.
  - destruct es; [|reflexivity]. rewrite !map_map. apply map_ext. intros p. cbn [fst snd]. now rewrite weighted_sh, B.
  - destruct grp; [|reflexivity]. rewrite !map_map. apply map_ext. intros p. cbn [fst snd]. now rewrite weighted_sh, B.
Qed.
End Agg.

Section CS.
Context {I : Type}.
Variable qr : list Z -> list (Z -> R) -> list nat.
Variable lstsq : list Z -> list (Z -> R) -> (Z -> R) -> list R.
Variable inv : list Z -> list (Z -> R) -> option (nat -> nat -> R).
Variable logit : list Z -> list Z -> list (Z -> R) -> option (Z -> R).
Variable sf : option Z -> fl -> fl.
Variable ppf : option Z -> R -> R.
Variables (rows : list I) (u t : I -> Z) (g : I -> coh) (y : I -> option R) (covs : list (I -> option R)) (d : Z).
Hypothesis Hok : forall i, In i rows -> origin_ok d (g i).
Notation t' := (fun i => (t i + d)%Z).
Notation g' := (fun i => cshift d (g i)).
Notation up := (map (fun s => (s + d)%Z)).

Lemma periods_sh : cs_periods rows t' = up (cs_periods rows t).
Proof. unfold cs_periods. rewrite <- (map_map t (fun s => (s + d)%Z)). apply sorted_shift. Qed.
Lemma timing_sh : timing_groups rows g' = up (timing_groups rows g).
Proof.
  unfold timing_groups. rewrite <- sorted_shift. do 2 f_equal. unfold finite_cohorts. revert Hok. induction rows as [|i l IH]; intros H; [reflexivity|].
  cbn [flat_map]. rewrite map_app, <- IH by (intros; apply H; now right). f_equal. specialize (H i (or_introl eq_refl)).
  destruct (g i) as [k| |]; cbn in *; auto. destruct (Z.eqb_spec k 0) as [->|N]; [reflexivity|]. destruct H as [H|H]; [lia|].
  rewrite !(proj2 (Z.ltb_lt _ _)) by lia. reflexivity.
Qed.
Lemma existsb_ext' {A} (p q : A -> bool) l : (forall a, In a l -> p a = q a) -> existsb p l = existsb q l.
Proof. induction l as [|a l IH]; cbn; intros H; auto. rewrite H, IH by auto. reflexivity. Qed.
Lemma groups_sh : cs_groups rows g' = map (cshift d) (cs_groups rows g).
Proof.
  unfold cs_groups. rewrite map_app, timing_sh. f_equal.
  - rewrite !map_map. apply map_ext_in. intros k Hk. symmetry. apply sh_fin. unfold timing_groups in Hk. rewrite zsort_In, nodup_In in Hk. unfold finite_cohorts in Hk.
    apply in_flat_map in Hk as (i & _ & Hk). destruct (g i) as [z| |]; try destruct Hk. destruct (Z.ltb_spec 0 z) as [L|]; [|destruct Hk]. destruct Hk as [<-|[]]. exact L.
  - rewrite (existsb_ext' _ (fun i => c_eqb (g i) CInf)); [destruct (existsb _ _); reflexivity|]. intros i Hi. change CInf with (cshift d CInf) at 1. apply sh_eqb; [auto|exact Logic.I].
Qed.
Lemma groups_ok : Forall (group_ok d) (cs_groups rows g).
Proof.
  apply Forall_forall. intros c Hc. unfold cs_groups in Hc. apply in_app_iff in Hc as [Hc|Hc].
  - apply in_map_iff in Hc as (k & <- & Hk). unfold timing_groups in Hk. rewrite zsort_In, nodup_In in Hk. apply in_flat_map in Hk as (i & Hi & Hk). specialize (Hok i Hi).
    destruct (g i) as [z| |]; try destruct Hk. destruct (Z.ltb_spec 0 z) as [L|]; [|destruct Hk]. destruct Hk as [<-|[]]. cbn in *. lia.
  - destruct (existsb _ _); [|destruct Hc]. destruct Hc as [<-|[]]. exact Logic.I.
Qed.
Lemma cell_sh a p : cell_rows rows u t' a (p + d) = cell_rows rows u t a p.
Proof. unfold cell_rows. apply filter_ext. intros i. now rewrite eqb_shift. Qed.
Lemma outcome_sh a p : cs_outcome rows u t' y a (p + d) = cs_outcome rows u t y a p.
Proof. unfold cs_outcome. now rewrite cell_sh. Qed.
Lemma duplicates_sh : cs_duplicates rows u t' = cs_duplicates rows u t.
Proof. unfold cs_duplicates. apply existsb_ext'. intros i _. now rewrite cell_sh. Qed.
Lemma cohort_sh a : cs_cohort rows u g' a = cshift d (cs_cohort rows u g a).
Proof.
  unfold cs_cohort, unit_cohort. rewrite <- (map_map g (cshift d)), filter_map_comm.
  rewrite (filter_ext _ (fun c => match c with CNaN => false | _ => true end)) by (intros [k| |]; cbn; auto; destruct (Z.eqb k 0); reflexivity).
  destruct (filter _ _); reflexivity.
Qed.
Lemma cohort_ok a : origin_ok d (cs_cohort rows u g a).
Proof.
  unfold cs_cohort, unit_cohort. destruct (filter _ _) as [|c l] eqn:E; [exact Logic.I|].
  assert (H : In c (c :: l)) by now left. rewrite <- E in H. apply filter_In in H as [H _]. apply in_map_iff in H as (i & <- & Hi). apply filter_In in Hi. apply Hok, Hi.
Qed.
Lemma control_sh cfg gr s a : group_ok d gr -> is_control rows u g' cfg (cshift d gr) (s + d) a = is_control rows u g cfg gr s a.
Proof.
  intros H. unfold is_control. cbv zeta. rewrite cohort_sh. pose proof (cohort_ok a) as O. rewrite sh_never by auto. destruct (String.eqb _ _); [reflexivity|].
  destruct (c_never (cs_cohort rows u g a)) eqn:N; [reflexivity|]. rewrite sh_gt by auto. rewrite sh_eqb; auto. apply group_origin, H.
Qed.
Lemma pair_sh b s a : has_pair rows u t' y (b + d) (s + d) a = has_pair rows u t y b s a.
Proof. unfold has_pair. now rewrite !outcome_sh. Qed.
Lemma change_sh b s : change rows u t' y (b + d) (s + d) = change rows u t y b s.
Proof. apply functional_extensionality. intros a. unfold change. now rewrite !outcome_sh. Qed.
Lemma treated_sh gr b s : group_ok d gr -> treated_units rows u t' g' y (cshift d gr) (b + d) (s + d) = treated_units rows u t g y gr b s.
Proof.
  intros H. unfold treated_units. apply filter_ext. intros a. rewrite cohort_sh, pair_sh, sh_eqb; auto using cohort_ok, group_origin.
Qed.
Lemma controls_sh cfg gr b s : group_ok d gr -> control_units rows u t' g' y cfg (cshift d gr) (b + d) (s + d) = control_units rows u t g y cfg gr b s.
Proof. intros H. unfold control_units. apply filter_ext. intros a. now rewrite control_sh, pair_sh. Qed.
Lemma cov_sh b us : cov_columns rows u t' covs (b + d) us = cov_columns rows u t covs b us.
Proof.
  unfold cov_columns. destruct covs as [|c cs]; [reflexivity|].
  assert (E : forall c a, cs_cov rows u t' c a (b + d) = cs_cov rows u t c a b) by (intros; unfold cs_cov; now rewrite cell_sh).
  assert (F : (fun (c : I -> option R) a => oR (cs_cov rows u t' c a (b + d))) = (fun c a => oR (cs_cov rows u t c a b))).
  { apply functional_extensionality. intros c0. apply functional_extensionality. intros a. now rewrite E. }
  rewrite F. assert (G : (fun a => forallb (fun c => isS (cs_cov rows u t' c a (b + d))) (c :: cs)) = (fun a => forallb (fun c => isS (cs_cov rows u t c a b)) (c :: cs))).
  { apply functional_extensionality. intros a. f_equal. apply functional_extensionality. intros c0. now rewrite E. }
  now rewrite G.
Qed.
Lemma base_sh cfg gr s : group_ok d gr -> cs_base cfg (cshift d gr) (s + d) = option_map (fun s => (s + d)%Z) (cs_base cfg gr s).
Proof.
  intros H. unfold cs_base. cbv zeta. rewrite sh_before by auto.
  assert (E : match cshift d gr with CFin k => Some (k - 1 - cs_anticipation cfg)%Z | _ => None end = option_map (fun s => (s + d)%Z) match gr with CFin k => Some (k - 1 - cs_anticipation cfg)%Z | _ => None end).
  { destruct gr as [k| |]; auto. cbn in H. rewrite sh_fin by lia. cbn. f_equal. lia. }
  rewrite E. destruct (cs_universal cfg); [reflexivity|]. destruct (before _ _ _); [|reflexivity]. cbn. f_equal. lia.
Qed.
Lemma att_sh cfg gr s : group_ok d gr ->
  att_gt qr lstsq inv logit rows u t' g' y covs cfg (cshift d gr) (s + d) = on_ok (option_map (shift_gte d)) (att_gt qr lstsq inv logit rows u t g y covs cfg gr s).
Proof.
  intros H. unfold att_gt. rewrite base_sh by auto. destruct (cs_base cfg gr s) as [b|]; [|reflexivity]. cbn [option_map].
  rewrite periods_sh, !zmem_shift. destruct (zmem b _); [|reflexivity]. destruct (zmem s _); [|reflexivity]. cbn [negb]. cbv zeta.
  rewrite treated_sh, controls_sh, change_sh by auto.
  destruct (treated_units rows u t g y gr b s) as [|a l]; [reflexivity|]. destruct (control_units rows u t g y cfg gr b s) as [|c m]; [reflexivity|].
  rewrite cov_sh. destruct (estimate _ _ _ _ _ _ _ _ _); reflexivity.
Qed.
Lemma valid_sh cfg gr : group_ok d gr -> valid_periods rows t' cfg (cshift d gr) = up (valid_periods rows t cfg gr).
Proof.
  intros H. unfold valid_periods. rewrite periods_sh. destruct (cs_universal cfg); rewrite filter_map_comm; f_equal; apply filter_ext; intros s.
  - destruct gr as [k| |]; auto. cbn in H. rewrite sh_fin by lia. replace (k + d - 1 - cs_anticipation cfg)%Z with (k - 1 - cs_anticipation cfg + d)%Z by lia. now rewrite eqb_shift.
  - rewrite sh_before by auto. f_equal. destruct (cs_periods rows t); [reflexivity|]. cbn. apply ltb_shift.
Qed.
Lemma collect_map {A A' B B'} (f : A -> res (option B)) (f' : A' -> res (option B')) (h : A -> A') (k : B -> B') l :
  (forall a, In a l -> f' (h a) = on_ok (option_map k) (f a)) -> collect f' (map h l) = on_ok (map k) (collect f l).
Proof.
  induction l as [|a l IH]; intros H; [reflexivity|]. cbn [map collect]. rewrite H, IH by (auto with datatypes). destruct (f a) as [o|]; [|reflexivity]. cbn.
  destruct (collect f l); [|reflexivity]. cbn. destruct o; reflexivity.
Qed.
Lemma effects_sh cfg : all_effects qr lstsq inv logit rows u t' g' y covs cfg = on_ok (map (shift_gte d)) (all_effects qr lstsq inv logit rows u t g y covs cfg).
Proof.
  unfold all_effects. rewrite groups_sh, flat_map_map'. pose proof groups_ok as G. rewrite Forall_forall in G.
  rewrite <- (collect_map _ (fun gs => att_gt qr lstsq inv logit rows u t' g' y covs cfg (fst gs) (snd gs)) (fun x => (cshift d (fst x), (snd x + d)%Z))).
  - f_equal. revert G. induction (cs_groups rows g) as [|c l IH]; intros G; [reflexivity|]. cbn [flat_map]. rewrite map_app, <- IH by (intros; apply G; now right). f_equal.
    rewrite valid_sh by (apply G; now left). rewrite !map_map. reflexivity.
  - intros [c s] Hc. cbn [fst snd]. apply att_sh. apply in_flat_map in Hc as (c' & Hc' & Hs). apply in_map_iff in Hs as (s' & E & _). injection E as -> _. auto.
Qed.
Lemma effects_ok cfg l : all_effects qr lstsq inv logit rows u t g y covs cfg = Ok l -> Forall (fun e => group_ok d (ge_g e)) l.
Proof.
  intros H. apply Forall_forall. intros e He. destruct (effects_In _ _ _ _ _ _ _ _ _ _ cfg l e H He) as (gr & s & Hgr & _ & Hag).
  destruct (att_gt_inv _ _ _ _ _ _ _ _ _ _ _ _ _ _ Hag) as (E & _). rewrite E. exact (proj1 (Forall_forall _ _) groups_ok gr Hgr).
Qed.
Lemma size_sh gr : group_ok d gr -> group_size rows u g' (cshift d gr) = group_size rows u g gr.
Proof.
  intros H. unfold group_size. do 3 f_equal. apply filter_ext_in. intros i Hi. apply sh_eqb; auto using group_origin.
Qed.
Lemma counts_sh : n_gt0 rows u g' = n_gt0 rows u g /\ n_nev rows u g' = n_nev rows u g.
Proof.
  unfold n_gt0, n_nev. split; f_equal.
  - apply filter_ext. intros a. rewrite cohort_sh. apply sh_gt0, cohort_ok.
  - apply filter_ext. intros a. unfold first_never. destruct (filter _ rows) as [|i l] eqn:E; [reflexivity|].
    assert (Hi : In i rows) by (apply (proj1 (filter_In (fun i => Z.eqb (u i) a) i rows)); rewrite E; left; reflexivity).
    apply sh_never. auto.
Qed.
Lemma in_by_size ew l : In ew (by_size l) -> In (fst ew) l.
Proof. unfold by_size. intros H. apply in_map_iff in H as (e & <- & He). exact He. Qed.
Theorem cs_origin cfg agg bal ws :
  cs_fit qr lstsq inv logit sf ppf rows u t' g' y covs cfg agg bal ws = on_ok (shift_cs d) (cs_fit qr lstsq inv logit sf ppf rows u t g y covs cfg agg bal ws).
Proof.
  unfold cs_fit. rewrite (proj1 counts_sh), (proj2 counts_sh), duplicates_sh. destruct (Nat.eqb _ 0); [reflexivity|]. destruct (cs_duplicates rows u t); [reflexivity|].
  rewrite effects_sh. destruct (all_effects _ _ _ _ _ _ _ _ _ _ cfg) as [l|] eqn:E; [|reflexivity]. cbn [on_ok bind].
  pose proof (effects_ok cfg l E) as L. assert (G : Forall (origin_ok d) (cs_groups rows g)) by (eapply Forall_impl; [|apply groups_ok]; intros; now apply group_origin).
  destruct l as [|e0 l0]; [reflexivity|]. cbn [map]. change (shift_gte d e0 :: map (shift_gte d) l0) with (map (shift_gte d) (e0 :: l0)). set (l := e0 :: l0) in *. clearbody l. cbv zeta.
  assert (A : agg_simple (group_size rows u g') (cs_cohort rows u g') (cs_anticipation cfg) (map (shift_gte d) l) = agg_simple (group_size rows u g) (cs_cohort rows u g) (cs_anticipation cfg) l).
  { unfold agg_simple. rewrite post_sh by auto. assert (P : Forall (fun e => group_ok d (ge_g e)) (filter (ge_post (cs_anticipation cfg)) l)) by (apply Forall_filter'; auto).
    destruct (filter (ge_post (cs_anticipation cfg)) l) as [|c cs]; [reflexivity|]. cbn [map]. change (shift_gte d c :: map (shift_gte d) cs) with (map (shift_gte d) (c :: cs)).
    rewrite by_size_sh, weighted_sh. f_equal. apply agg_se_wif_sh. intros ew Hew. apply in_by_size in Hew. pose proof (proj1 (Forall_forall _ _) P _ Hew) as O.
    split; [now apply size_sh|]. intros a. rewrite cohort_sh. apply sh_eqb; auto using cohort_ok, group_origin. }
  rewrite A. destruct (agg_simple _ _ _ l) as [att se]. rewrite groups_sh, periods_sh.
  destruct ws as [|w ws].
  - cbn [on_ok]. unfold shift_cs. cbn [cr_effects cr_reports cr_att cr_se cr_t cr_p cr_ci cr_groups cr_periods cr_n_obs cr_n_treated cr_n_control cr_es cr_group cr_boot option_map].
    rewrite es_sh, by_group_sh by auto. do 2 f_equal.
    + rewrite map_map. reflexivity.
    + destruct agg as [s|]; [|reflexivity]. destruct (_ || _); reflexivity.
  - cbn [on_ok]. unfold shift_cs. cbn [cr_effects cr_reports cr_att cr_se cr_t cr_p cr_ci cr_groups cr_periods cr_n_obs cr_n_treated cr_n_control cr_es cr_group cr_boot option_map].
    rewrite es_sh, by_group_sh, boot_sh by auto. do 2 f_equal.
    + rewrite map_map. reflexivity.
    + destruct agg as [s|]; [|reflexivity]. destruct (_ || _); reflexivity.
Qed.
End CS.

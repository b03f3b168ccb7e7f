(* Moving the origin of the calendar: the Goodman-Bacon decomposition. *)
From Coq Require Import Reals Lra Lia.
From Verif Require Import Prelude Flt Stats_model Linalg_model Linalg_vcov Did_model Multi_model Multi_proofs Bacon_model Staggered_model Staggered_proofs Shift_proofs Shift_sun.
From Coq Require Import Arith ZArith String List FunctionalExtensionality.
Import ListNotations.
Open Scope R_scope.

Definition shift_cmp (d : Z) (c : comparison) : comparison :=
  {| cmp_treated := (cmp_treated c + d)%Z; cmp_control := option_map (fun k => (k + d)%Z) (cmp_control c); cmp_type := cmp_type c; cmp_est := cmp_est c;
     cmp_weight := cmp_weight c; cmp_nt := cmp_nt c; cmp_nc := cmp_nc c; cmp_window := ((fst (cmp_window c) + d)%Z, (snd (cmp_window c) + d)%Z) |}.
Definition shift_bacon (d : Z) (b : bacon_out) : bacon_out :=
  {| bo_twfe := bo_twfe b; bo_comparisons := map (shift_cmp d) (bo_comparisons b); bo_weights := bo_weights b; bo_averages := bo_averages b;
     bo_n_groups := bo_n_groups b; bo_n_never := bo_n_never b; bo_groups := map (fun k => (k + d)%Z) (bo_groups b); bo_nobs := bo_nobs b;
     bo_error := bo_error b; bo_unbalanced := bo_unbalanced b |}.

Section B.
Context {I : Type}.
Variables (rows : list I) (u t : I -> Z) (g : I -> coh) (y : I -> R) (d : Z).
Hypothesis Hok : forall i, origin_ok d (g i).
Hypothesis Hne : rows <> [].
Notation t' := (fun i => (t i + d)%Z).
Notation g' := (fun i => cshift d (g i)).
Notation up := (map (fun s => (s + d)%Z)).

Lemma bper_sh : bperiods rows t' = up (bperiods rows t).
Proof. apply periods_sh. Qed.
Lemma bper_ne : bperiods rows t <> [].
Proof.
  destruct rows as [|i l] eqn:E; [congruence|]. intros H. assert (K : In (t i) (bperiods (i :: l) t)) by (unfold bperiods; rewrite zsort_In, nodup_In; now left). rewrite H in K. destruct K.
Qed.
Lemma is_sh i k : (0 < k /\ 0 < k + d)%Z -> c_is (cshift d (g i)) (k + d) = c_is (g i) k.
Proof.
  intros H. specialize (Hok i). destruct (g i) as [z| |]; cbn [cshift c_is origin_ok] in *; auto. destruct (Z.eqb_spec z 0) as [->|N]; cbn [c_is]; [|apply eqb_shift].
  transitivity false; [apply Z.eqb_neq|symmetry; apply Z.eqb_neq]; lia.
Qed.
Lemma started_sh i s : c_never (g i) = false -> c_started (cshift d (g i)) (s + d) = c_started (g i) s.
Proof.
  destruct (g i) as [z| |]; cbn [cshift c_started c_never]; auto. intros H. rewrite H. cbn [c_started]. apply leb_shift.
Qed.
Lemma btreat_sh : btreat t' g' = btreat t g.
Proof.
  apply functional_extensionality. intros i. unfold btreat. rewrite sh_never by auto. destruct (c_never (g i)) eqn:N; [reflexivity|]. now rewrite started_sh.
Qed.
Lemma btwfe_sh : btwfe rows u t' g' y = btwfe rows u t g y.
Proof. unfold btwfe. cbv zeta. rewrite btreat_sh, !within_time_shift. reflexivity. Qed.
Definition kok (k : Z) : Prop := (0 < k /\ 0 < k + d)%Z.
Lemma timing_ok k : In k (timing_groups rows g) -> kok k.
Proof.
  intros Hk. unfold timing_groups in Hk. rewrite zsort_In, nodup_In in Hk. apply in_flat_map in Hk as (i & Hi & Hk). specialize (Hok i). unfold kok.
  destruct (g i) as [z| |]; try destruct Hk. destruct (Z.ltb_spec 0 z) as [L|]; [|destruct Hk]. destruct Hk as [<-|[]]. cbn in *. lia.
Qed.
Lemma of_group k : kok k -> filter (fun i => c_is (g' i) (k + d)) rows = filter (fun i => c_is (g i) k) rows.
Proof. intros H. apply filter_ext. intros i. now apply is_sh. Qed.
Lemma of_never : filter (fun i => c_never (g' i)) rows = filter (fun i => c_never (g i)) rows.
Proof. apply filter_ext. intros i. now apply sh_never. Qed.
Lemma pre_sh ty k l : pre_of rows t' ty (k + d) (option_map (fun s => (s + d)%Z) l) = up (pre_of rows t ty k l).
Proof.
  unfold pre_of. rewrite bper_sh. destruct ty, l as [l|]; cbn [option_map]; rewrite filter_map_comm; f_equal; apply filter_ext; intros s; rewrite ?leb_shift, ?ltb_shift; reflexivity.
Qed.
Lemma post_of_sh ty k l : post_of rows t' ty (k + d) (option_map (fun s => (s + d)%Z) l) = up (post_of rows t ty k l).
Proof.
  unfold post_of. rewrite bper_sh. destruct ty, l as [l|]; cbn [option_map]; rewrite filter_map_comm; f_equal; apply filter_ext; intros s; rewrite ?leb_shift, ?ltb_shift; reflexivity.
Qed.
Lemma mem_sh x l : existsb (Z.eqb (x + d)) (up l) = existsb (Z.eqb x) l.
Proof. induction l as [|a l IH]; cbn; auto. rewrite IH, eqb_shift. reflexivity. Qed.
Lemma in_periods_sh ps l : in_periods (I:=I) t' (up ps) l = in_periods t ps l.
Proof. unfold in_periods. apply filter_ext. intros i. apply mem_sh. Qed.
Lemma hd_up l : l <> [] -> hd 0%Z (up l) = (hd 0 l + d)%Z.
Proof. destruct l; [congruence|reflexivity]. Qed.
Lemma last_up l : l <> [] -> last (up l) 0%Z = (last l 0 + d)%Z.
Proof.
  induction l as [|a l IH]; [congruence|]. intros _. destruct l as [|b l]; [reflexivity|]. change (last (up (b :: l)) 0%Z = (last (b :: l) 0 + d)%Z). apply IH. congruence.
Qed.
Lemma len_up l : len (up l) = len l.
Proof. unfold len. now rewrite map_length. Qed.
Lemma vs_never_sh k : kok k -> vs_never rows u t' g' y (k + d) = option_map (shift_cmp d) (vs_never rows u t g y k).
Proof.
  intros Hk. unfold vs_never. cbv zeta. rewrite of_group, of_never by auto. destruct (negb _ || negb _); [reflexivity|].
  rewrite (pre_sh TreatedNever k None : pre_of rows t' TreatedNever (k + d) None = _), (post_of_sh TreatedNever k None : post_of rows t' TreatedNever (k + d) None = _).
  rewrite !nonempty_map. destruct (negb _ || negb _); [reflexivity|]. rewrite !in_periods_sh, bper_sh, !len_up. cbn [option_map]. unfold shift_cmp. cbn.
  rewrite hd_up, last_up by apply bper_ne. reflexivity.
Qed.
Lemma timing_cmp_sh ty k l : kok k -> kok l -> timing_comparison rows u t' g' y ty (k + d) (l + d) = option_map (shift_cmp d) (timing_comparison rows u t g y ty k l).
Proof.
  intros Hk Hl. unfold timing_comparison. cbv zeta. rewrite !of_group by auto. destruct (negb _ || negb _); [reflexivity|].
  rewrite (pre_sh ty k (Some l) : pre_of rows t' ty (k + d) (Some (l + d)%Z) = _), (post_of_sh ty k (Some l) : post_of rows t' ty (k + d) (Some (l + d)%Z) = _).
  rewrite !nonempty_map. destruct (negb _ || negb _); [reflexivity|]. rewrite !in_periods_sh, !map_length, bper_sh, !len_up.
  destruct (fisnan _ || fisnan _); [reflexivity|]. destruct (fisnan _ || fisnan _); [reflexivity|]. cbn [option_map]. unfold shift_cmp. cbn [cmp_treated cmp_control cmp_type cmp_est cmp_weight cmp_nt cmp_nc cmp_window option_map].
  do 2 f_equal. pose proof (hd_up _ bper_ne) as Hh. pose proof (last_up _ bper_ne) as Hl'. destruct ty; cbn [fst snd]; rewrite ?Hh, ?Hl'; f_equal; lia.
Qed.
Lemma olist_map {A B} (f : A -> B) o : olist (option_map f o) = map f (olist o).
Proof. destruct o; reflexivity. Qed.
Lemma timing_pairs_sh gs : (forall k, In k gs -> kok k) -> timing_pairs rows u t' g' y (up gs) = map (shift_cmp d) (timing_pairs rows u t g y gs).
Proof.
  induction gs as [|k gs IH]; intros H; [reflexivity|]. cbn [map timing_pairs]. rewrite map_app, <- IH by (intros; apply H; now right). f_equal. rewrite flat_map_map'.
  assert (Hk : kok k) by (apply H; now left). assert (Hl : forall l, In l gs -> kok l) by (intros; apply H; now right). clear IH H.
  induction gs as [|l gs IH]; [reflexivity|]. cbn [flat_map]. rewrite map_app, <- IH by (intros; apply Hl; now right). f_equal.
  assert (kok l) by (apply Hl; now left). rewrite !timing_cmp_sh, !olist_map, map_app by auto. reflexivity.
Qed.
Lemma n_never_sh : n_never rows u g' = n_never rows u g.
Proof. unfold n_never. f_equal. apply filter_ext. intros a. pose proof (cohort_sh rows u g d a) as E. unfold cs_cohort in E. rewrite E. apply sh_never. apply (cohort_ok rows u g d); auto. Qed.
Lemma comparisons_sh : comparisons0 rows u t' g' y = map (shift_cmp d) (comparisons0 rows u t g y).
Proof.
  unfold comparisons0, never_pairs. rewrite (timing_sh rows g d) by auto. rewrite map_app, timing_pairs_sh by apply timing_ok. f_equal. rewrite n_never_sh. destruct (Nat.ltb _ _); [|reflexivity].
  rewrite flat_map_map'. pose proof timing_ok as T. induction (timing_groups rows g) as [|k l IH]; [reflexivity|]. cbn [flat_map]. rewrite map_app, <- IH by (intros; apply T; now right). f_equal.
  rewrite vs_never_sh, olist_map by (apply T; now left). reflexivity.
Qed.
Definition cok (c : comparison) : Prop := kok (cmp_treated c) /\ match cmp_control c with Some l => kok l | None => True end.
Lemma vs_never_ok k c : kok k -> vs_never rows u t g y k = Some c -> cok c.
Proof.
  intros Hk. unfold vs_never. cbv zeta. repeat (destruct (_ || _); [discriminate|]). intros E. injection E as <-. split; [exact Hk|exact Logic.I].
Qed.
Lemma timing_cmp_ok ty k l c : kok k -> kok l -> timing_comparison rows u t g y ty k l = Some c -> cok c.
Proof.
  intros Hk Hl. unfold timing_comparison. cbv zeta. repeat (destruct (_ || _); [discriminate|]). intros E. injection E as <-. split; auto.
Qed.
Lemma olist_In {A} (a : A) o : In a (olist o) <-> o = Some a.
Proof. destruct o; cbn; split; intros H; [destruct H as [->|[]]; auto|injection H; auto|destruct H|discriminate]. Qed.
Lemma comparisons_ok c : In c (comparisons0 rows u t g y) -> cok c.
Proof.
  unfold comparisons0, never_pairs. rewrite in_app_iff. intros [H|H].
  - destruct (Nat.ltb _ _); [|destruct H]. apply in_flat_map in H as (k & Hk & H). rewrite olist_In in H. apply (vs_never_ok k); auto. now apply timing_ok.
  - pose proof timing_ok as T. induction (timing_groups rows g) as [|k l IH]; [destruct H|]. cbn [timing_pairs] in H. rewrite in_app_iff in H. destruct H as [H|H]; [|apply IH; auto with datatypes].
    apply in_flat_map in H as (m & Hm & H). rewrite in_app_iff, !olist_In in H. destruct H as [H|H]; eapply timing_cmp_ok in H; eauto with datatypes.
Qed.
Lemma exact_sh c : cok c -> exact_weight rows u t' g' (shift_cmp d c) = exact_weight rows u t g c.
Proof.
  intros [Hk Hl]. unfold exact_weight. cbv zeta. cbn [shift_cmp cmp_treated cmp_control cmp_type]. rewrite pre_sh, post_of_sh, !nonempty_map, of_group, !map_length, !len_up by auto.
  destruct (negb _ || negb _); [reflexivity|].
  assert (C : filter (fun i => match option_map (fun k => (k + d)%Z) (cmp_control c) with None => c_never (g' i) | Some l => c_is (g' i) l end) rows = filter (fun i => match cmp_control c with None => c_never (g i) | Some l => c_is (g i) l end) rows).
  { destruct (cmp_control c) as [l|]; cbn [option_map]; [now apply of_group|apply of_never]. }
  rewrite C. rewrite <- map_app.
  rewrite (filter_ext _ (fun i => existsb (Z.eqb (u i)) (nodup Z.eq_dec (map u (filter (fun i => c_is (g i) (cmp_treated c)) rows)) ++ nodup Z.eq_dec (map u (filter (fun i => match cmp_control c with None => c_never (g i) | Some l => c_is (g i) l end) rows)))
     && existsb (Z.eqb (t i)) (pre_of rows t (cmp_type c) (cmp_treated c) (cmp_control c) ++ post_of rows t (cmp_type c) (cmp_treated c) (cmp_control c)))) by (intros i; now rewrite mem_sh).
  reflexivity.
Qed.
Lemma reweighted_sh ex : reweighted rows u t' g' y ex = map (shift_cmp d) (reweighted rows u t g y ex).
Proof.
  unfold reweighted. rewrite comparisons_sh. destruct ex; [|reflexivity]. rewrite !map_map. apply map_ext_in. intros c Hc. rewrite exact_sh by now apply comparisons_ok. reflexivity.
Qed.
Lemma normalised_sh l : normalised (map (shift_cmp d) l) = map (shift_cmp d) (normalised l).
Proof. unfold normalised. cbv zeta. rewrite sumf_map. change (sumf (fun x => cmp_weight (shift_cmp d x)) l) with (sumf cmp_weight l). destruct (Rlt_dec _ _); [|reflexivity]. rewrite !map_map. reflexivity. Qed.
Lemma type_filter_sh l ty : filter (fun c => ctype_eqb (cmp_type c) ty) (map (shift_cmp d) l) = map (shift_cmp d) (filter (fun c => ctype_eqb (cmp_type c) ty) l).
Proof. rewrite filter_map_comm. reflexivity. Qed.
Lemma type_weight_sh l : type_weight (map (shift_cmp d) l) = type_weight l.
Proof. apply functional_extensionality. intros ty. unfold type_weight. rewrite type_filter_sh, sumf_map. reflexivity. Qed.
Lemma type_average_sh l : type_average (map (shift_cmp d) l) = type_average l.
Proof. apply functional_extensionality. intros ty. unfold type_average. rewrite type_filter_sh, type_weight_sh, map_map. reflexivity. Qed.
Theorem bacon_origin ex : bacon_fit rows u t' g' y ex = shift_bacon d (bacon_fit rows u t g y ex).
Proof.
  unfold bacon_fit, shift_bacon. cbv zeta. cbn [bo_twfe bo_comparisons bo_weights bo_averages bo_n_groups bo_n_never bo_groups bo_nobs bo_error bo_unbalanced].
  rewrite reweighted_sh, normalised_sh, type_weight_sh, type_average_sh, (timing_sh rows g d), map_length, n_never_sh, btwfe_sh by auto. f_equal.
  unfold weighted_sum. rewrite map_map. reflexivity.
Qed.
End B.

(* Renaming the periods in an order-preserving way: the Goodman-Bacon decomposition. *)
From Coq Require Import Reals Lra Lia.
From Verif Require Import Prelude Flt Stats_model Linalg_model Linalg_vcov Did_model Multi_model Multi_proofs Bacon_model Staggered_model Staggered_proofs Shift_proofs Shift_sun Shift_bacon Mono_proofs.
From Coq Require Import Arith ZArith String List FunctionalExtensionality.
Import ListNotations.
Open Scope R_scope.

(* first_treat on the renamed calendar; 0 keeps meaning never treated *)
Definition crename (f : Z -> Z) (c : coh) : coh := match c with CFin k => if Z.eqb k 0 then CFin 0 else CFin (f k) | c => c end.
Definition rename_ok (f : Z -> Z) (c : coh) : Prop := match c with CFin k => (k = 0 \/ (0 < k /\ 0 < f k))%Z | _ => True end.
(* a comparison without its time window; the window of an earlier-versus-later comparison ends at l - 1 whether or not that is a period *)
Definition rename_cmp (f : Z -> Z) (c : comparison) : comparison :=
  {| cmp_treated := f (cmp_treated c); cmp_control := option_map f (cmp_control c); cmp_type := cmp_type c; cmp_est := cmp_est c;
     cmp_weight := cmp_weight c; cmp_nt := cmp_nt c; cmp_nc := cmp_nc c;
     cmp_window := match cmp_type c, cmp_control c with
                   | EarlierLater, Some l => (f (fst (cmp_window c)), (f l - 1)%Z)
                   | _, _ => (f (fst (cmp_window c)), f (snd (cmp_window c))) end |}.
Definition rename_bacon (f : Z -> Z) (b : bacon_out) : bacon_out :=
  {| bo_twfe := bo_twfe b; bo_comparisons := map (rename_cmp f) (bo_comparisons b); bo_weights := bo_weights b; bo_averages := bo_averages b;
     bo_n_groups := bo_n_groups b; bo_n_never := bo_n_never b; bo_groups := map f (bo_groups b); bo_nobs := bo_nobs b;
     bo_error := bo_error b; bo_unbalanced := bo_unbalanced b |}.

Section B.
Context {I : Type}.
Variables (rows : list I) (u t : I -> Z) (g : I -> coh) (y : I -> R) (f : Z -> Z).
Hypothesis Hf : increasing f.
Hypothesis Hok : forall i, rename_ok f (g i).
Hypothesis Hne : rows <> [].
Notation t' := (fun i => f (t i)).
Notation g' := (fun i => crename f (g i)).
Notation up := (map f).

Lemma bper_sh : bperiods rows t' = up (bperiods rows t).
Proof. unfold bperiods. rewrite <- (map_map t f). now apply sorted_f. Qed.
Lemma bper_ne : bperiods rows t <> [].
Proof.
  destruct rows as [|i l] eqn:E; [congruence|]. intros H. assert (K : In (t i) (bperiods (i :: l) t)) by (unfold bperiods; rewrite zsort_In, nodup_In; now left). rewrite H in K. destruct K.
Qed.
Lemma r_never c : rename_ok f c -> c_never (crename f c) = c_never c.
Proof. destruct c as [k| |]; cbn; auto. intros H. destruct (Z.eqb_spec k 0) as [->|N]; [reflexivity|]. cbn. apply Z.eqb_neq. lia. Qed.
Lemma r_within x : within Z.eq_dec Z.eq_dec rows u t' x = within Z.eq_dec Z.eq_dec rows u t x.
Proof.
  apply functional_extensionality. intros i. unfold within, group_mean. rewrite (filter_ext (fun j => keqb Z.eq_dec (f (t j)) (f (t i))) (fun j => keqb Z.eq_dec (t j) (t i))); [reflexivity|].
  intros j. unfold keqb. destruct (Z.eq_dec (f (t j)) (f (t i))) as [E|E], (Z.eq_dec (t j) (t i)) as [F|F]; auto; [apply (f_inj f Hf) in E; lia|congruence].
Qed.
Lemma r_cohort a : unit_cohort rows u g' a = crename f (unit_cohort rows u g a).
Proof.
  unfold unit_cohort. rewrite <- (map_map g (crename f)), filter_map_comm.
  rewrite (filter_ext _ (fun c => match c with CNaN => false | _ => true end)) by (intros [k| |]; cbn; auto; destruct (Z.eqb k 0); reflexivity).
  destruct (filter _ _); reflexivity.
Qed.
Lemma r_cohort_ok a : rename_ok f (unit_cohort rows u g a).
Proof.
  unfold unit_cohort. destruct (filter _ _) as [|c l] eqn:E; [exact Logic.I|].
  assert (H : In c (c :: l)) by now left. rewrite <- E in H. apply filter_In in H as [H _]. apply in_map_iff in H as (i & <- & Hi). apply Hok.
Qed.
Lemma r_timing : timing_groups rows g' = up (timing_groups rows g).
Proof.
  unfold timing_groups. rewrite <- sorted_f by auto. do 2 f_equal. unfold finite_cohorts. clear Hne. induction rows as [|i l IH]; [reflexivity|].
  cbn [flat_map]. rewrite map_app, <- IH. f_equal. pose proof (Hok i) as H.
  destruct (g i) as [k| |]; cbn in *; auto. destruct (Z.eqb_spec k 0) as [->|N]; [reflexivity|]. destruct H as [H|H]; [lia|].
  rewrite !(proj2 (Z.ltb_lt _ _)) by lia. reflexivity.
Qed.
Lemma is_sh i k : (0 < k /\ 0 < f k)%Z -> c_is (crename f (g i)) (f k) = c_is (g i) k.
Proof.
  intros H. specialize (Hok i). destruct (g i) as [z| |]; cbn [crename c_is rename_ok] in *; auto. destruct (Z.eqb_spec z 0) as [->|N]; cbn [c_is]; [|now apply f_eqb].
  transitivity false; [apply Z.eqb_neq|symmetry; apply Z.eqb_neq]; lia.
Qed.
Lemma started_sh i s : c_never (g i) = false -> c_started (crename f (g i)) (f s) = c_started (g i) s.
Proof.
  destruct (g i) as [z| |]; cbn [crename c_started c_never]; auto. intros H. rewrite H. cbn [c_started]. now apply f_leb.
Qed.
Lemma btreat_sh : btreat t' g' = btreat t g.
Proof.
  apply functional_extensionality. intros i. unfold btreat. rewrite r_never by auto. destruct (c_never (g i)) eqn:N; [reflexivity|]. now rewrite started_sh.
Qed.
Lemma btwfe_sh : btwfe rows u t' g' y = btwfe rows u t g y.
Proof. unfold btwfe. cbv zeta. rewrite btreat_sh, !r_within. reflexivity. Qed.
Definition kok (k : Z) : Prop := (0 < k /\ 0 < f k)%Z.
Lemma timing_ok k : In k (timing_groups rows g) -> kok k.
Proof.
  intros Hk. unfold timing_groups in Hk. rewrite zsort_In, nodup_In in Hk. apply in_flat_map in Hk as (i & Hi & Hk). specialize (Hok i). unfold kok.
  destruct (g i) as [z| |]; try destruct Hk. destruct (Z.ltb_spec 0 z) as [L|]; [|destruct Hk]. destruct Hk as [<-|[]]. cbn in *. lia.
Qed.
Lemma of_group k : kok k -> filter (fun i => c_is (g' i) (f k)) rows = filter (fun i => c_is (g i) k) rows.
Proof. intros H. apply filter_ext. intros i. now apply is_sh. Qed.
Lemma of_never : filter (fun i => c_never (g' i)) rows = filter (fun i => c_never (g i)) rows.
Proof. apply filter_ext. intros i. now apply r_never. Qed.
Lemma pre_sh ty k l : pre_of rows t' ty (f k) (option_map f l) = up (pre_of rows t ty k l).
Proof.
  unfold pre_of. rewrite bper_sh. destruct ty, l as [l|]; cbn [option_map]; rewrite filter_map_comm; f_equal; apply filter_ext; intros s; rewrite ?f_leb, ?f_ltb by auto; reflexivity.
Qed.
Lemma post_of_sh ty k l : post_of rows t' ty (f k) (option_map f l) = up (post_of rows t ty k l).
Proof.
  unfold post_of. rewrite bper_sh. destruct ty, l as [l|]; cbn [option_map]; rewrite filter_map_comm; f_equal; apply filter_ext; intros s; rewrite ?f_leb, ?f_ltb by auto; reflexivity.
Qed.
Lemma mem_sh x l : existsb (Z.eqb (f x)) (up l) = existsb (Z.eqb x) l.
Proof. induction l as [|a l IH]; cbn; auto. rewrite IH, f_eqb by auto. reflexivity. Qed.
Lemma in_periods_sh ps l : in_periods (I:=I) t' (up ps) l = in_periods t ps l.
Proof. unfold in_periods. apply filter_ext. intros i. apply mem_sh. Qed.
Lemma hd_up l : l <> [] -> hd 0%Z (up l) = f (hd 0%Z l).
Proof. destruct l; [congruence|reflexivity]. Qed.
Lemma last_up l : l <> [] -> last (up l) 0%Z = f (last l 0%Z).
Proof.
  induction l as [|a l IH]; [congruence|]. intros _. destruct l as [|b l]; [reflexivity|]. change (last (up (b :: l)) 0%Z = f (last (b :: l) 0%Z)). apply IH. congruence.
Qed.
Lemma len_up l : len (up l) = len l.
Proof. unfold len. now rewrite map_length. Qed.
Lemma vs_never_sh k : kok k -> vs_never rows u t' g' y (f k) = option_map (rename_cmp f) (vs_never rows u t g y k).
Proof.
  intros Hk. unfold vs_never. cbv zeta. rewrite of_group, of_never by auto. destruct (negb _ || negb _); [reflexivity|].
  rewrite (pre_sh TreatedNever k None : pre_of rows t' TreatedNever (f k) None = _), (post_of_sh TreatedNever k None : post_of rows t' TreatedNever (f k) None = _).
  rewrite !nonempty_map. destruct (negb _ || negb _); [reflexivity|]. rewrite !in_periods_sh, bper_sh, !len_up. cbn [option_map]. unfold rename_cmp. cbn.
  rewrite hd_up, last_up by apply bper_ne. reflexivity.
Qed.
Lemma timing_cmp_sh ty k l : kok k -> kok l -> timing_comparison rows u t' g' y ty (f k) (f l) = option_map (rename_cmp f) (timing_comparison rows u t g y ty k l).
Proof.
  intros Hk Hl. unfold timing_comparison. cbv zeta. rewrite !of_group by auto. destruct (negb _ || negb _); [reflexivity|].
  rewrite (pre_sh ty k (Some l) : pre_of rows t' ty (f k) (Some (f l)) = _), (post_of_sh ty k (Some l) : post_of rows t' ty (f k) (Some (f l)) = _).
  rewrite !nonempty_map. destruct (negb _ || negb _); [reflexivity|]. rewrite !in_periods_sh, !map_length, bper_sh, !len_up.
  destruct (fisnan _ || fisnan _); [reflexivity|]. destruct (fisnan _ || fisnan _); [reflexivity|]. cbn [option_map]. unfold rename_cmp. cbn [cmp_treated cmp_control cmp_type cmp_est cmp_weight cmp_nt cmp_nc cmp_window option_map].
  do 2 f_equal. pose proof (hd_up _ bper_ne) as Hh. pose proof (last_up _ bper_ne) as Hl'. destruct ty; cbn [fst snd]; rewrite ?Hh, ?Hl'; reflexivity.
Qed.
Lemma olist_map' {A B} (h : A -> B) o : olist (option_map h o) = map h (olist o).
Proof. destruct o; reflexivity. Qed.
Lemma timing_pairs_sh gs : (forall k, In k gs -> kok k) -> timing_pairs rows u t' g' y (up gs) = map (rename_cmp f) (timing_pairs rows u t g y gs).
Proof.
  induction gs as [|k gs IH]; intros H; [reflexivity|]. cbn [map timing_pairs]. rewrite map_app, <- IH by (intros; apply H; now right). f_equal. rewrite flat_map_map'.
  assert (Hk : kok k) by (apply H; now left). assert (Hl : forall l, In l gs -> kok l) by (intros; apply H; now right). clear IH H.
  induction gs as [|l gs IH]; [reflexivity|]. cbn [flat_map]. rewrite map_app, <- IH by (intros; apply Hl; now right). f_equal.
  assert (kok l) by (apply Hl; now left). rewrite !timing_cmp_sh, !olist_map', map_app by auto. reflexivity.
Qed.
Lemma n_never_sh : n_never rows u g' = n_never rows u g.
Proof. unfold n_never. f_equal. apply filter_ext. intros a. rewrite r_cohort. apply r_never, r_cohort_ok. Qed.
Lemma comparisons_sh : comparisons0 rows u t' g' y = map (rename_cmp f) (comparisons0 rows u t g y).
Proof.
  unfold comparisons0, never_pairs. rewrite r_timing. rewrite map_app, timing_pairs_sh by apply timing_ok. f_equal. rewrite n_never_sh. destruct (Nat.ltb _ _); [|reflexivity].
  rewrite flat_map_map'. pose proof timing_ok as T. induction (timing_groups rows g) as [|k l IH]; [reflexivity|]. cbn [flat_map]. rewrite map_app, <- IH by (intros; apply T; now right). f_equal.
  rewrite vs_never_sh, olist_map' by (apply T; now left). reflexivity.
Qed.
Definition cok (c : comparison) : Prop := kok (cmp_treated c) /\ match cmp_control c with Some l => kok l | None => True end.
Lemma vs_never_ok k c : kok k -> vs_never rows u t g y k = Some c -> cok c.
Proof.
  intros Hk. unfold vs_never. cbv zeta. repeat (destruct (_ || _); [discriminate|]). intros E. injection E as <-. split; [exact Hk|exact Logic.I].
Qed.
Lemma timing_cmp_ok ty k l c : kok k -> kok l -> timing_comparison rows u t g y ty k l = Some c -> cok c.
Proof.
  intros Hk Hl. unfold timing_comparison. cbv zeta. repeat (destruct (_ || _); [discriminate|]). intros E. injection E as <-. split; auto.
Qed.
Lemma olist_In' {A} (a : A) o : In a (olist o) <-> o = Some a.
Proof. destruct o; cbn; split; intros H; [destruct H as [->|[]]; auto|injection H; auto|destruct H|discriminate]. Qed.
Lemma comparisons_ok c : In c (comparisons0 rows u t g y) -> cok c.
Proof.
  unfold comparisons0, never_pairs. rewrite in_app_iff. intros [H|H].
  - destruct (Nat.ltb _ _); [|destruct H]. apply in_flat_map in H as (k & Hk & H). rewrite olist_In' in H. apply (vs_never_ok k); auto. now apply timing_ok.
  - pose proof timing_ok as T. induction (timing_groups rows g) as [|k l IH]; [destruct H|]. cbn [timing_pairs] in H. rewrite in_app_iff in H. destruct H as [H|H]; [|apply IH; auto with datatypes].
    apply in_flat_map in H as (m & Hm & H). rewrite in_app_iff, !olist_In' in H. destruct H as [H|H]; eapply timing_cmp_ok in H; eauto with datatypes.
Qed.
Lemma exact_sh c : cok c -> exact_weight rows u t' g' (rename_cmp f c) = exact_weight rows u t g c.
Proof.
  intros [Hk Hl]. unfold exact_weight. cbv zeta. cbn [rename_cmp cmp_treated cmp_control cmp_type]. rewrite pre_sh, post_of_sh, !nonempty_map, of_group, !map_length, !len_up by auto.
  destruct (negb _ || negb _); [reflexivity|].
  assert (C : filter (fun i => match option_map f (cmp_control c) with None => c_never (g' i) | Some l => c_is (g' i) l end) rows = filter (fun i => match cmp_control c with None => c_never (g i) | Some l => c_is (g i) l end) rows).
  { destruct (cmp_control c) as [l|]; cbn [option_map]; [now apply of_group|apply of_never]. }
  rewrite C. rewrite <- map_app.
  rewrite (filter_ext _ (fun i => existsb (Z.eqb (u i)) (nodup Z.eq_dec (map u (filter (fun i => c_is (g i) (cmp_treated c)) rows)) ++ nodup Z.eq_dec (map u (filter (fun i => match cmp_control c with None => c_never (g i) | Some l => c_is (g i) l end) rows)))
     && existsb (Z.eqb (t i)) (pre_of rows t (cmp_type c) (cmp_treated c) (cmp_control c) ++ post_of rows t (cmp_type c) (cmp_treated c) (cmp_control c)))) by (intros i; now rewrite mem_sh).
  reflexivity.
Qed.
Lemma reweighted_sh ex : reweighted rows u t' g' y ex = map (rename_cmp f) (reweighted rows u t g y ex).
Proof.
  unfold reweighted. rewrite comparisons_sh. destruct ex; [|reflexivity]. rewrite !map_map. apply map_ext_in. intros c Hc. rewrite exact_sh by now apply comparisons_ok. reflexivity.
Qed.
Lemma normalised_sh l : normalised (map (rename_cmp f) l) = map (rename_cmp f) (normalised l).
Proof. unfold normalised. cbv zeta. rewrite sumf_map. change (sumf (fun x => cmp_weight (rename_cmp f x)) l) with (sumf cmp_weight l). destruct (Rlt_dec _ _); [|reflexivity]. rewrite !map_map. reflexivity. Qed.
Lemma type_filter_sh l ty : filter (fun c => ctype_eqb (cmp_type c) ty) (map (rename_cmp f) l) = map (rename_cmp f) (filter (fun c => ctype_eqb (cmp_type c) ty) l).
Proof. rewrite filter_map_comm. reflexivity. Qed.
Lemma type_weight_sh l : type_weight (map (rename_cmp f) l) = type_weight l.
Proof. apply functional_extensionality. intros ty. unfold type_weight. rewrite type_filter_sh, sumf_map. reflexivity. Qed.
Lemma type_average_sh l : type_average (map (rename_cmp f) l) = type_average l.
Proof. apply functional_extensionality. intros ty. unfold type_average. rewrite type_filter_sh, type_weight_sh, map_map. reflexivity. Qed.
Theorem bacon_rename ex : bacon_fit rows u t' g' y ex = rename_bacon f (bacon_fit rows u t g y ex).
Proof.
  unfold bacon_fit, rename_bacon. cbv zeta. cbn [bo_twfe bo_comparisons bo_weights bo_averages bo_n_groups bo_n_never bo_groups bo_nobs bo_error bo_unbalanced].
  rewrite reweighted_sh, normalised_sh, type_weight_sh, type_average_sh, r_timing, map_length, n_never_sh, btwfe_sh by auto. f_equal.
  unfold weighted_sum. rewrite map_map. reflexivity.
Qed.
End B.

(* rank_control_units and _suggest_treatment_candidates: proofs. *)
From Verif Require Import Prelude Flt Prep_model Prep_proofs.
From Coq Require Import Arith ZArith String List Bool Lia Permutation Sorting.Sorted.
Import ListNotations.
Open Scope R_scope.

(* ---- finite numbers ---- *)
Definition isfin (x : fl) : Prop := exists r, x = Fin r.
Lemma fin_sub x y : isfin x -> isfin y -> isfin (fsub x y). Proof. intros [a ->] [b ->]. eexists; reflexivity. Qed.
Lemma fin_mul x y : isfin x -> isfin y -> isfin (fmul x y). Proof. intros [a ->] [b ->]. eexists; reflexivity. Qed.
Lemma fin_div x y : isfin x -> isfin y -> y <> Fin 0 -> isfin (fdiv x y).
Proof. intros [a ->] [b ->] H. unfold fdiv. destruct (Req_EM_T b 0); [congruence|]. eexists; reflexivity. Qed.
Lemma fin_list (l : list fl) : (forall x, In x l -> isfin x) -> exists r, l = map Fin r.
Proof.
  induction l as [|x l IH]; intros H; [exists []; reflexivity|]. destruct (H x (or_introl eq_refl)) as [a ->]. destruct IH as [r ->]; [intros; apply H; right; auto|]. exists (a :: r). reflexivity.
Qed.
Lemma notna_fin (r : list R) : filter notna (map Fin r) = map Fin r.
Proof. induction r as [|a r IH]; simpl; auto. f_equal; auto. Qed.
Lemma nmean_fin l : l <> [] -> (forall x, In x l -> isfin x) -> isfin (nmean l).
Proof. intros N H. destruct (fin_list l H) as [r ->]. unfold nmean. rewrite notna_fin, fmean_fin; [eexists; reflexivity|]. intros ->. apply N. reflexivity. Qed.
Lemma sumf_nonneg_all {A} (f : A -> R) l : (forall x, In x l -> 0 <= f x) -> 0 <= sumf f l.
Proof. induction l as [|x l IH]; simpl; intros H; [lra|]. pose proof (H x (or_introl eq_refl)). specialize (IH (fun z Hz => H z (or_intror Hz))). lra. Qed.
(* the mean of squares is finite and non-negative *)
Lemma sq_list {A} (f : A -> fl) (l : list A) : (forall x, In x l -> isfin (f x)) -> exists r, map (fun x => fmul (f x) (f x)) l = map Fin r /\ forall z, In z r -> 0 <= z.
Proof.
  induction l as [|x l IH]; intros H; [exists []; simpl; split; auto; contradiction|]. destruct (H x (or_introl eq_refl)) as [a Ea]. destruct IH as (r & Er & Hr); [intros; apply H; right; auto|].
  exists (a * a :: r). simpl. rewrite Ea, Er. split; [reflexivity|]. intros z [<-|Hz]; auto. apply sq_nonneg || nra.
Qed.
Lemma sqrt_fin x : 0 <= x -> exists s, fsqrt (Fin x) = Fin s /\ 0 <= s.
Proof. intros H. unfold fsqrt. destruct (Rlt_dec x 0); [lra|]. exists (sqrt x). split; auto. apply sqrt_pos. Qed.
Lemma rms_fin {A} (f : A -> fl) (l : list A) : l <> [] -> (forall x, In x l -> isfin (f x)) -> exists s, fsqrt (nmean (map (fun x => fmul (f x) (f x)) l)) = Fin s /\ 0 <= s.
Proof.
  intros N H. destruct (sq_list f l H) as (r & Er & Hr). rewrite Er. unfold nmean. rewrite notna_fin.
  assert (Nr : r <> []) by (intros ->; destruct l; [congruence|discriminate]). rewrite fmean_fin by auto. apply sqrt_fin. unfold meanf. apply Rmult_le_pos; [apply sumf_nonneg_all; auto|]. left. apply Rinv_0_lt_compat. destruct r; [congruence|]. unfold len. apply lt_0_INR. simpl; lia.
Qed.
Lemma norm_fin {A} (f : A -> fl) (l : list A) : (forall x, In x l -> isfin (f x)) -> exists s, fsqrt (fsum (map (fun x => fmul (f x) (f x)) l)) = Fin s /\ 0 <= s.
Proof. intros H. destruct (sq_list f l H) as (r & Er & Hr). rewrite Er, fsum_fin. apply sqrt_fin. apply sumf_nonneg_all; auto. Qed.
Lemma nstd_fin l : (2 <= length l)%nat -> (forall x, In x l -> isfin x) -> isfin (nstd l).
Proof.
  intros L H. destruct (fin_list l H) as [r ->]. unfold nstd. rewrite notna_fin. rewrite map_length in *. destruct (Nat.leb_spec (length r) 1); [lia|].
  assert (Nr : r <> []) by (intros ->; simpl in L; lia). assert (M : isfin (fmean (map Fin r))) by (rewrite fmean_fin by auto; eexists; reflexivity).
  destruct (sq_list (fun x => fsub x (fmean (map Fin r))) (map Fin r)) as (q & Eq & Hq).
  { intros x Hx. apply in_map_iff in Hx as (a & <- & _). apply fin_sub; auto. eexists; reflexivity. }
  rewrite Eq, fsum_fin. assert (P : 0 < len (map Fin r) - 1). { unfold len. rewrite map_length. pose proof (le_INR 2 (length r) L). simpl in H1. lra. }
  unfold fdiv. destruct (Req_EM_T (len (map Fin r) - 1) 0); [lra|]. destruct (sqrt_fin (sumf idR q / (len (map Fin r) - 1))) as (s & Es & _); [|rewrite Es; eexists; reflexivity].
  apply Rmult_le_pos; [apply sumf_nonneg_all; auto|]. left. apply Rinv_0_lt_compat. lra.
Qed.
Lemma one_if_zero_fin s : isfin s -> isfin (one_if_zero s) /\ one_if_zero s <> Fin 0.
Proof.
  intros [a ->]. unfold one_if_zero. simpl. destruct (Reqb a 0) eqn:E; [split; [eexists; reflexivity|]|split; [eexists; reflexivity|]].
  - intros K. injection K. lra.
  - apply Reqb_false in E. congruence.
Qed.

(* ---- extremes of a finite list ---- *)
Lemma pymax_fold r : forall m, exists M, fold_left (fun m y => if fgt y m then y else m) (map Fin r) (Fin m) = Fin M /\ m <= M /\ (forall x, In x r -> x <= M) /\ (M = m \/ In M r).
Proof.
  induction r as [|a r IH]; intros m; simpl; [exists m; repeat split; auto; try lra; contradiction|]. unfold fgt at 1. simpl. destruct (Rltb m a) eqn:E.
  - apply Rltb_true in E. destruct (IH a) as (M & EM & H1 & H2 & H3). exists M. split; auto. split; [lra|]. split; [intros x [<-|Hx]; auto|]. right. destruct H3 as [->|]; auto.
  - apply Rltb_false in E. destruct (IH m) as (M & EM & H1 & H2 & H3). exists M. split; auto. split; [lra|]. split; [intros x [<-|Hx]; auto; lra|]. destruct H3; auto.
Qed.
Lemma pymin_fold r : forall m, exists M, fold_left (fun m y => if flt y m then y else m) (map Fin r) (Fin m) = Fin M /\ M <= m /\ (forall x, In x r -> M <= x) /\ (M = m \/ In M r).
Proof.
  induction r as [|a r IH]; intros m; simpl; [exists m; repeat split; auto; try lra; contradiction|]. destruct (Rltb a m) eqn:E.
  - apply Rltb_true in E. destruct (IH a) as (M & EM & H1 & H2 & H3). exists M. split; auto. split; [lra|]. split; [intros x [<-|Hx]; auto|]. right. destruct H3 as [->|]; auto.
  - apply Rltb_false in E. destruct (IH m) as (M & EM & H1 & H2 & H3). exists M. split; auto. split; [lra|]. split; [intros x [<-|Hx]; auto; lra|]. destruct H3; auto.
Qed.
Lemma extremes r d d' : r <> [] -> exists mn mx, pymax (map Fin r) d = Fin mx /\ pymin (map Fin r) d' = Fin mn /\ In mn r /\ In mx r /\ (forall x, In x r -> mn <= x <= mx).
Proof.
  intros N. destruct r as [|a r]; [congruence|]. cbn [map pymax pymin]. destruct (pymax_fold r a) as (M & EM & M1 & M2 & M3). destruct (pymin_fold r a) as (m & Em & m1 & m2 & m3).
  exists m, M. split; [exact EM|]. split; [exact Em|]. split; [simpl; destruct m3 as [->|]; auto|]. split; [simpl; destruct M3 as [->|]; auto|]. intros x [<-|Hx]; auto.
Qed.
(* the min-max normalisation of a list of finite distances *)
Definition minmax (r : list R) (f : list fl) : Prop :=
  exists mn mx, In mn r /\ In mx r /\ (forall x, In x r -> mn <= x <= mx) /\
    f = map (fun x => Fin (if Rltb (mx - mn) (/ 10000000000) then 1 else 1 - (x - mn) / (mx - mn))) r.
Lemma trend_minmax r : r <> [] -> minmax r (trend_scores (map Fin r)).
Proof.
  intros N. destruct (extremes r (Fin 1) (Fin 0) N) as (mn & mx & E1 & E2 & I1 & I2 & B). exists mn, mx. repeat split; auto; try (apply B; auto).
  unfold trend_scores. rewrite E1, E2. replace (fsub (Fin mx) (Fin mn)) with (Fin (mx - mn)) by reflexivity. unfold small. simpl. destruct (Rltb (mx - mn) (/ 10000000000)) eqn:E.
  - rewrite map_map. reflexivity.
  - rewrite map_map. apply map_ext_in. intros a Ha. apply Rltb_false in E. assert (0 < / 10000000000) by (apply Rinv_0_lt_compat; lra). unfold fsub at 2. simpl. unfold fdiv. destruct (Req_EM_T (mx - mn) 0); [lra|]. reflexivity.
Qed.
Lemma cov_minmax r : r <> [] -> minmax r (cov_scores (map Fin r)).
Proof.
  intros N. assert (Q : existsb fisnan (map Fin r) = false) by (clear; induction r; simpl; auto).
  replace (cov_scores (map Fin r)) with (trend_scores (map Fin r)); [apply trend_minmax; auto|]. unfold cov_scores, trend_scores, npmax, npmin. rewrite Q. reflexivity.
Qed.
Lemma minmax_range r f : minmax r f -> forall x, In x f -> exists s, x = Fin s /\ 0 <= s <= 1.
Proof.
  intros (mn & mx & I1 & I2 & B & ->) x Hx. apply in_map_iff in Hx as (a & <- & Ha). eexists; split; [reflexivity|]. destruct (Rltb (mx - mn) (/ 10000000000)) eqn:E; [lra|].
  apply Rltb_false in E. assert (0 < / 10000000000) by (apply Rinv_0_lt_compat; lra). assert (P : 0 < mx - mn) by lra. specialize (B a Ha).
  assert (0 <= (a - mn) / (mx - mn) <= 1); [|lra]. split; [apply Rmult_le_pos; [lra|left; apply Rinv_0_lt_compat; auto]|]. apply (Rmult_le_reg_r (mx - mn)); auto. unfold Rdiv. rewrite Rmult_assoc, Rinv_l by lra. lra.
Qed.
(* the best unit scores one, and the order of the scores is the reverse order of the distances *)
Lemma minmax_best r f : minmax r f -> In (Fin 1) f.
Proof.
  intros (mn & mx & I1 & I2 & B & ->). apply in_map_iff. exists mn. split; auto. f_equal. destruct (Rltb _ _); auto. unfold Rminus at 2. rewrite Rplus_opp_r. unfold Rdiv. rewrite Rmult_0_l. lra.
Qed.
Lemma minmax_worst r f : minmax r f -> (exists a b, In a r /\ In b r /\ / 10000000000 <= b - a) -> In (Fin 0) f.
Proof.
  intros (mn & mx & I1 & I2 & B & ->) (a & b & Ha & Hb & D). pose proof (B a Ha). pose proof (B b Hb). assert (0 < / 10000000000) by (apply Rinv_0_lt_compat; lra).
  apply in_map_iff. exists mx. split; auto. f_equal. destruct (Rltb _ _) eqn:E; [apply Rltb_true in E; lra|]. unfold Rdiv. rewrite Rinv_r by lra. lra.
Qed.
(* Python's max and min keep a NaN that comes first *)
Lemma trend_nan_first rs : trend_scores (NaN :: rs) = map (fun _ => NaN) (NaN :: rs).
Proof.
  assert (A : pymax (NaN :: rs) (Fin 1) = NaN) by (simpl; induction rs as [|x rs IH]; simpl; auto; unfold fgt at 1; rewrite flt_nan_l; auto).
  assert (B : pymin (NaN :: rs) (Fin 0) = NaN) by (simpl; clear A; induction rs as [|x rs IH]; simpl; auto; rewrite flt_nan_r; auto).
  unfold trend_scores. rewrite A, B. simpl. f_equal. apply map_ext. intros a. rewrite fsub_nan_r. reflexivity.
Qed.

(* ---- sorting by score, NaN last ---- *)
Definition q_le {U} (a b : rank_row U) : bool := fisnan (k_quality b) || fge (k_quality a) (k_quality b).
Definition dsort_ok {U} (dsort : list (rank_row U) -> list (rank_row U)) : Prop :=
  forall l, Permutation (dsort l) l /\ StronglySorted (fun a b => q_le a b = true) (dsort l).
Definition dsort_ex {U} : list (rank_row U) -> list (rank_row U) := isort q_le.
Theorem dsort_ex_ok {U} : dsort_ok (@dsort_ex U).
Proof.
  intros l. split; [apply isort_perm|]. apply isort_sorted; unfold q_le, fge.
  - intros a b. destruct (fisnan (k_quality b)) eqn:E; auto. destruct (fisnan (k_quality a)) eqn:E'; auto. simpl. destruct (fle_total (k_quality a) (k_quality b)); auto; intros K; rewrite K in *; discriminate.
  - intros a b c H1 H2. destruct (fisnan (k_quality c)) eqn:E; auto. simpl in *. destruct (fisnan (k_quality b)) eqn:E'; [destruct (k_quality b); try discriminate; rewrite fle_nan_r in H2; discriminate|]. simpl in H1. eapply fle_trans; eauto.
Qed.

Section Rank.
Context {I U : Type} (ueq : forall x y : U, {x = y} + {x <> y}).
Variable dsort : list (rank_row U) -> list (rank_row U).
Hypothesis Hd : dsort_ok dsort.
Variable rows : list I.
Variable u : I -> U.
Variable t : I -> Z.
Variable y : I -> fl.
Notation rank := (rank_control_units ueq dsort rows u t y).
Notation treatedS := (treated_set ueq rows u).

Lemma umem_in x (l : list U) : umem ueq x l = true <-> In x l.
Proof. unfold umem. rewrite existsb_exists. split; [intros (z & Hz & E); apply keqb_true in E; subst; auto|intros H; exists x; split; auto; apply keqb_refl]. Qed.
Lemma all_units_in x : In x (all_units ueq rows u) <-> exists i, In i rows /\ u i = x.
Proof. unfold all_units. rewrite <- in_rev, nodup_In, <- in_rev, in_map_iff. split; intros (i & A & B); eauto. Qed.
Lemma all_units_nodup : NoDup (all_units ueq rows u).
Proof. unfold all_units. eapply Permutation_NoDup; [apply Permutation_rev|]. apply NoDup_nodup. Qed.
Lemma in_pivot_iff pd x : in_pivot ueq u pd x = true <-> exists i, In i pd /\ u i = x.
Proof. unfold in_pivot. rewrite existsb_exists. split; intros (i & A & B); exists i; split; auto; [apply keqb_true in B; auto|apply keqb_true; auto]. Qed.
Lemma pre_data_in ps i : In i (pre_data rows t ps) <-> In i rows /\ In (t i) ps.
Proof. unfold pre_data. rewrite filter_In, existsb_exists. split; [intros (A & p & B & C); apply Z.eqb_eq in C; subst; auto|intros (A & B); split; auto; exists (t i); split; auto; apply Z.eqb_refl]. Qed.

(* a candidate control: observed before treatment, not treated, not excluded *)
Definition is_candidate (treated : list U) (exclude : option (list U)) (ps : list Z) (x : U) : Prop :=
  (exists i, In i rows /\ u i = x /\ In (t i) ps) /\ ~ In x treated /\ (forall ex, exclude = Some ex -> ~ In x ex).
Definition candidates (treated : list U) (exclude : option (list U)) (ps : list Z) : list U :=
  filter (in_pivot ueq u (pre_data rows t ps)) (match exclude with Some ex => filter (fun x => negb (umem ueq x ex)) (filter (fun x => negb (umem ueq x treated)) (all_units ueq rows u))
    | None => filter (fun x => negb (umem ueq x treated)) (all_units ueq rows u) end).
Lemma candidates_in treated exclude ps x : In x (candidates treated exclude ps) <-> is_candidate treated exclude ps x.
Proof.
  unfold candidates, is_candidate. rewrite filter_In, in_pivot_iff.
  assert (P : (exists i, In i (pre_data rows t ps) /\ u i = x) <-> exists i, In i rows /\ u i = x /\ In (t i) ps).
  { split; intros (i & A); exists i; rewrite pre_data_in in *; tauto. }
  assert (Q : (exists i, In i rows /\ u i = x /\ In (t i) ps) -> In x (all_units ueq rows u)) by (intros (i & A & B & _); apply all_units_in; eauto).
  assert (M : forall l, negb (umem ueq x l) = true <-> ~ In x l) by (intros l; rewrite negb_true_iff, <- umem_in; destruct (umem ueq x l); split; congruence).
  rewrite P. destruct exclude as [ex|]; rewrite !filter_In, !M.
  - split; [intros ((A & B) & C); split; auto; split; [tauto|]; intros e E; injection E as <-; auto|intros (A & B & C); auto 8].
  - split; [intros (A & C); split; auto; split; [tauto|]; discriminate|intros (A & B & C); auto 8].
Qed.
Lemma candidates_nodup treated exclude ps : NoDup (candidates treated exclude ps).
Proof. unfold candidates. destruct exclude; repeat apply NoDup_filter; apply all_units_nodup. Qed.

(* one line of the table *)
Definition line (pd : list I) (vp : list Z) (tl treated cands : list U) (covs : list (I -> fl)) (ow cw : R) (require : option (list U)) (x : U) : rank_row U :=
  let rs := map (rmse ueq u t y pd vp tl) cands in
  let ts r := let mx := pymax rs (Fin 1) in let mn := pymin rs (Fin 0) in if small (fsub mx mn) then Fin 1 else fsub (Fin 1) (fdiv (fsub r mn) (fsub mx mn)) in
  let ds := map (cov_dist ueq u pd covs treated) cands in
  let c := if (length covs =? 0)%nat then NaN else
     (let mx := npmax ds (Fin 1) in let mn := npmin ds (Fin 0) in if small (fsub mx mn) then Fin 1 else fsub (Fin 1) (fdiv (fsub (cov_dist ueq u pd covs treated x) mn) (fsub mx mn))) in
  let r := rmse ueq u t y pd vp tl x in
  {| k_unit := x; k_quality := combine_scores ow cw (ts r) c; k_trend := ts r; k_cov := c; k_rmse := r; k_req := match require with Some l => umem ueq x l | None => false end |}.
Definition valid_periods (ps : list Z) : list Z := filter (fun p => existsb (fun i => Z.eqb (t i) p) (pre_data rows t ps)) ps.
Definition seen (ps : list Z) (treated : list U) : list U := filter (in_pivot ueq u (pre_data rows t ps)) treated.

Lemma combine_map {A B C} (f : A -> B) (g : A -> C) l : combine (map f l) (map g l) = map (fun x => (f x, g x)) l.
Proof. induction l; simpl; f_equal; auto. Qed.
Lemma combine_id {A B} (g : A -> B) l : combine l (map g l) = map (fun x => (x, g x)) l.
Proof. induction l; simpl; f_equal; auto. Qed.
Lemma trend_map {A} (f : A -> fl) l : trend_scores (map f l) = map (fun x => let mx := pymax (map f l) (Fin 1) in let mn := pymin (map f l) (Fin 0) in if small (fsub mx mn) then Fin 1 else fsub (Fin 1) (fdiv (fsub (f x) mn) (fsub mx mn))) l.
Proof. unfold trend_scores. cbv zeta. destruct (small _); rewrite map_map; reflexivity. Qed.
Lemma cov_map {A} (f : A -> fl) l : cov_scores (map f l) = map (fun x => let mx := npmax (map f l) (Fin 1) in let mn := npmin (map f l) (Fin 0) in if small (fsub mx mn) then Fin 1 else fsub (Fin 1) (fdiv (fsub (f x) mn) (fsub mx mn))) l.
Proof. unfold cov_scores. cbv zeta. destruct (small _); rewrite map_map; reflexivity. Qed.

(* what a successful call returns *)
Theorem rank_inv d tu pre covs ow cw exclude require n_top suggest out : rank d tu pre covs ow cw exclude require n_top suggest = Ok (Some out) ->
  exists treated, treatedS tu d suggest = Ok treated /\ treated <> [] /\ 0 <= ow <= 1 /\ 0 <= cw <= 1 /\
  let ps := rank_periods rows t pre in let pd := pre_data rows t ps in let cands := candidates treated exclude ps in
  cands <> [] /\ valid_periods ps <> [] /\ seen ps treated <> [] /\ pivot_dup ueq u t pd = false /\ (covs <> [] -> seen ps treated = treated) /\
  (forall rq ex x, require = Some rq -> exclude = Some ex -> In x rq -> ~ In x ex) /\
  out = limit_top dsort n_top (dsort (map (line pd (valid_periods ps) (seen ps treated) treated cands covs ow cw require) cands)).
Proof.
  unfold rank_control_units. destruct (negb (Rleb 0 ow && Rleb ow 1)) eqn:E1; [discriminate|]. destruct (negb (Rleb 0 cw && Rleb cw 1)) eqn:E2; [discriminate|].
  destruct (match tu, d with Some _, Some _ => true | _, _ => false end); [discriminate|].
  destruct (match require, exclude with Some rq, Some ex => existsb (fun x => umem ueq x ex) rq | _, _ => false end) eqn:E3; [discriminate|].
  set (ps := rank_periods rows t pre). destruct (length ps =? 0)%nat; [discriminate|].
  destruct (treatedS tu d suggest) as [treated|e] eqn:Et; [|discriminate]. cbn [bind]. destruct (suggest && (length treated =? 0)%nat); [discriminate|].
  destruct (length treated =? 0)%nat eqn:E4; [discriminate|]. destruct (length (match exclude with Some ex => _ | None => _ end) =? 0)%nat; [discriminate|].
  fold (candidates treated exclude ps). set (pd := pre_data rows t ps). destruct (pivot_dup ueq u t pd) eqn:E5; [discriminate|]. change (filter (fun p => existsb (fun i => Z.eqb (t i) p) pd) ps) with (valid_periods ps).
  destruct (length (valid_periods ps) =? 0)%nat eqn:E6; [discriminate|]. set (cands := candidates treated exclude ps).
  change (filter (in_pivot ueq u pd) (match exclude with Some ex => filter (fun x => negb (umem ueq x ex)) (filter (fun x => negb (umem ueq x treated)) (all_units ueq rows u)) | None => filter (fun x => negb (umem ueq x treated)) (all_units ueq rows u) end)) with cands.
  destruct (length cands =? 0)%nat eqn:E7; [discriminate|]. fold (seen ps treated). change (filter (in_pivot ueq u pd) treated) with (seen ps treated). destruct (length (seen ps treated) =? 0)%nat eqn:E8; [discriminate|].
  destruct (negb (length covs =? 0)%nat && existsb (fun x => negb (in_pivot ueq u pd x)) treated) eqn:E9; [discriminate|].
  intros H. exists treated. split; auto. assert (NN : forall A (l : list A), (length l =? 0)%nat = false -> l <> []) by (intros A l E ->; discriminate).
  apply negb_false_iff, andb_true_iff in E1. apply negb_false_iff, andb_true_iff in E2. rewrite !Rleb_true in E1, E2. split; [auto|]. split; [auto|]. split; [auto|]. split; [auto|]. split; [auto|]. split; [auto|]. split; [auto|]. split.
  { intros Nc. unfold seen. fold pd. apply andb_false_iff in E9 as [E9|E9]; [destruct covs; [congruence|discriminate]|]. clear -E9. induction treated as [|x l IH]; simpl in *; auto. apply orb_false_iff in E9 as [A B]. apply negb_false_iff in A. rewrite A. f_equal; auto. }
  split.
  { intros rq ex x -> -> Hr Hx. assert (K : existsb (fun x => umem ueq x ex) rq = true) by (apply existsb_exists; exists x; split; auto; apply umem_in; auto). congruence. }
  set (F := fun q : U * (fl * (fl * fl)) => _) in H. injection H as <-. f_equal. f_equal.
  rewrite trend_map. assert (CE : (if (length covs =? 0)%nat then map (fun _ => NaN) cands else cov_scores (map (cov_dist ueq u pd covs treated) cands)) =
     map (fun x => if (length covs =? 0)%nat then NaN else (let mx := npmax (map (cov_dist ueq u pd covs treated) cands) (Fin 1) in let mn := npmin (map (cov_dist ueq u pd covs treated) cands) (Fin 0) in if small (fsub mx mn) then Fin 1 else fsub (Fin 1) (fdiv (fsub (cov_dist ueq u pd covs treated x) mn) (fsub mx mn)))) cands).
  { destruct (length covs =? 0)%nat; [reflexivity|apply cov_map]. }
  rewrite CE, combine_map, combine_map, combine_id, map_map. reflexivity.
Qed.

Lemma line_unit pd vp tl treated cands covs ow cw require l : map k_unit (map (line pd vp tl treated cands covs ow cw require) l) = l.
Proof. rewrite map_map. rewrite <- (map_id l) at 2. apply map_ext. reflexivity. Qed.

Lemma line_req pd vp tl treated cands covs ow cw require l : length (filter k_req (map (line pd vp tl treated cands covs ow cw require) l)) = length (filter (fun x => match require with Some rq => umem ueq x rq | None => false end) l).
Proof.
  induction l as [|x l IH]; [reflexivity|]. cbn [map filter]. change (k_req (line pd vp tl treated cands covs ow cw require x)) with (match require with Some rq => umem ueq x rq | None => false end).
  destruct (match require with Some rq => umem ueq x rq | None => false end); simpl; auto.
Qed.

(* ---- the n_top rule ---- *)
Lemma filter_split_length {A} (p : A -> bool) l : (length (filter p l) + length (filter (fun x => negb (p x)) l) = length l)%nat.
Proof. induction l as [|x l IH]; simpl; auto. destruct (p x); simpl; lia. Qed.
Lemma limit_length n_top l : length (limit_top dsort n_top l) = match n_top with None => length l | Some n => Z.to_nat (Z.min (Z.max n (Z.of_nat (length (filter k_req l)))) (Z.of_nat (length l))) end.
Proof.
  unfold limit_top. destruct n_top as [n|]; auto. pose proof (filter_split_length k_req l) as FS. destruct (Z.ltb_spec n (Z.of_nat (length l))) as [L|L].
  - rewrite (Permutation_length (proj1 (Hd _))), app_length, firstn_length. lia.
  - lia.
Qed.
Lemma limit_in n_top l r : In r (limit_top dsort n_top l) -> In r l.
Proof.
  unfold limit_top. destruct n_top as [n|]; auto. destruct (n <? _)%Z; auto. intros H. apply (Permutation_in _ (proj1 (Hd _))) in H. apply in_app_iff in H as [H|H]; [apply filter_In in H; tauto|].
  assert (K : forall A (l : list A) k x, In x (firstn k l) -> In x l). { intros A l0 k x Hx. rewrite <- (firstn_skipn k l0). apply in_app_iff; auto. } apply K, filter_In in H. tauto.
Qed.
Lemma limit_req n_top l r : In r l -> k_req r = true -> In r (limit_top dsort n_top l).
Proof.
  intros H K. unfold limit_top. destruct n_top as [n|]; auto. destruct (n <? _)%Z; auto. apply (Permutation_in _ (Permutation_sym (proj1 (Hd _)))). apply in_app_iff. left. apply filter_In. auto.
Qed.
Lemma limit_sorted n_top l : StronglySorted (fun a b => q_le a b = true) l -> StronglySorted (fun a b => q_le a b = true) (limit_top dsort n_top l).
Proof. intros H. unfold limit_top. destruct n_top as [n|]; auto. destruct (n <? _)%Z; auto. apply Hd. Qed.
Lemma limit_nodup n_top l : NoDup (map k_unit l) -> NoDup (map k_unit (limit_top dsort n_top l)).
Proof.
  intros H. unfold limit_top. destruct n_top as [n|]; auto. destruct (n <? _)%Z; auto. eapply Permutation_NoDup; [apply Permutation_map, Permutation_sym, (proj1 (Hd _))|].
  set (k := Z.to_nat _). assert (P : Permutation (filter k_req l ++ filter (fun r => negb (k_req r)) l) l).
  { clear. induction l as [|x l IH]; simpl; auto. destruct (k_req x); simpl; [auto|]. symmetry. apply Permutation_cons_app. symmetry; auto. }
  eapply Permutation_NoDup in H; [|apply Permutation_map, Permutation_sym, P]. rewrite <- (firstn_skipn k (filter (fun r => negb (k_req r)) l)), app_assoc, map_app in H.
  clear -H. revert H. generalize (map k_unit (filter k_req l ++ firstn k (filter (fun r => negb (k_req r)) l))) as a, (map k_unit (skipn k (filter (fun r => negb (k_req r)) l))) as b.
  induction a as [|x a IH]; simpl; intros b H; [constructor|]. inversion H; subst. constructor; [intros K; apply H2; apply in_app_iff; auto|eauto].
Qed.
(* nothing better is left out *)
Lemma sorted_firstn {A} (R : A -> A -> Prop) l k x z : StronglySorted R l -> In x (firstn k l) -> In z (skipn k l) -> R x z.
Proof.
  intros S. revert k. induction S as [|a l S IH F]; intros k Hx Hz; [destruct k; destruct Hx|]. destruct k; simpl in *; [destruct Hx|]. destruct Hx as [<-|Hx]; [|eauto].
  rewrite Forall_forall in F. apply F. rewrite <- (firstn_skipn k l). apply in_app_iff; auto.
Qed.
Lemma filter_sorted {A} (R : A -> A -> Prop) p l : StronglySorted R l -> StronglySorted R (filter p l).
Proof. induction 1 as [|a l S IH F]; simpl; [constructor|]. destruct (p a); auto. constructor; auto. rewrite Forall_forall in *. intros z Hz. apply filter_In in Hz as [Hz _]. auto. Qed.
Lemma limit_best n_top l r r' : StronglySorted (fun a b => q_le a b = true) l -> In r (limit_top dsort n_top l) -> k_req r = false -> In r' l -> ~ In r' (limit_top dsort n_top l) -> q_le r r' = true.
Proof.
  intros S H K H' N. unfold limit_top in *. destruct n_top as [n|]; [|contradiction]. destruct (n <? _)%Z; [|contradiction].
  apply (Permutation_in _ (proj1 (Hd _))) in H. apply in_app_iff in H as [H|H]; [apply filter_In in H as [_ H]; congruence|].
  assert (N' : ~ In r' (filter k_req l ++ firstn (Z.to_nat (Z.max 0 (n - Z.of_nat (length (filter k_req l))))) (filter (fun r => negb (k_req r)) l))).
  { intros Q. apply N. eapply Permutation_in; [apply Permutation_sym, (proj1 (Hd _))|auto]. }
  assert (KR : k_req r' = false) by (destruct (k_req r') eqn:E; auto; exfalso; apply N'; apply in_app_iff; left; apply filter_In; auto).
  refine (sorted_firstn (fun a b => q_le a b = true) _ _ r r' (filter_sorted _ _ _ S) H _). assert (Q : In r' (filter (fun r => negb (k_req r)) l)) by (apply filter_In; rewrite KR; auto).
  rewrite <- (firstn_skipn (Z.to_nat (Z.max 0 (n - Z.of_nat (length (filter k_req l))))) (filter (fun r => negb (k_req r)) l)) in Q. apply in_app_iff in Q as [Q|Q]; auto. exfalso. apply N'. apply in_app_iff; auto.
Qed.

(* the table returned: sorted, one row per unit, every unit a candidate, every required candidate, the announced number of rows *)
Theorem rank_table d tu pre covs ow cw exclude require n_top suggest out treated : rank d tu pre covs ow cw exclude require n_top suggest = Ok (Some out) -> treatedS tu d suggest = Ok treated ->
  StronglySorted (fun a b => q_le a b = true) out /\ NoDup (map k_unit out) /\
  (forall r, In r out -> is_candidate treated exclude (rank_periods rows t pre) (k_unit r)) /\
  (forall rq x, require = Some rq -> In x rq -> is_candidate treated exclude (rank_periods rows t pre) x -> In x (map k_unit out)) /\
  (forall r, In r out -> k_req r = true <-> exists rq, require = Some rq /\ In (k_unit r) rq) /\
  exists cands, NoDup cands /\ (forall x, In x cands <-> is_candidate treated exclude (rank_periods rows t pre) x) /\
    length out = match n_top with None => length cands | Some n => Z.to_nat (Z.min (Z.max n (Z.of_nat (length (filter (fun x => match require with Some rq => umem ueq x rq | None => false end) cands)))) (Z.of_nat (length cands))) end /\
    (n_top = None -> Permutation (map k_unit out) cands).
Proof.
  intros H T. apply rank_inv in H as (tr & T' & _ & _ & _ & H). rewrite T in T'. injection T' as <-. cbv zeta in H. destruct H as (_ & _ & _ & _ & _ & _ & ->).
  set (ps := rank_periods rows t pre). set (cands := candidates treated exclude ps). set (L := map _ cands).
  assert (UL : map k_unit L = cands) by apply line_unit. assert (P : Permutation (dsort L) L) by apply Hd.
  assert (RQ : forall r, In r L -> k_req r = match require with Some l => umem ueq (k_unit r) l | None => false end) by (intros r Hr; apply in_map_iff in Hr as (x & <- & _); reflexivity).
  split; [apply limit_sorted, Hd|]. split; [apply limit_nodup; eapply Permutation_NoDup; [apply Permutation_map, Permutation_sym, P|]; rewrite UL; apply candidates_nodup|].
  split. { intros r Hr. apply limit_in in Hr. apply candidates_in. fold cands. rewrite <- UL. apply in_map. eapply Permutation_in; eauto. }
  split. { intros rq x E Hx Hc. apply candidates_in in Hc. fold ps cands in Hc. rewrite <- UL in Hc. apply in_map_iff in Hc as (r & Er & Hr). apply in_map_iff. exists r. split; auto. apply limit_req.
    - eapply Permutation_in; [apply Permutation_sym, P|auto].
    - rewrite (RQ r Hr), E, Er. apply umem_in; auto. }
  split. { intros r Hr. apply limit_in in Hr. apply (Permutation_in _ P) in Hr. rewrite (RQ r Hr). destruct require as [rq|].
    - rewrite umem_in. split; [eauto|]. intros (q & E & K). injection E as <-. auto.
    - split; [discriminate|]. intros (q & E & _). discriminate. }
  exists cands. split; [apply candidates_nodup|]. split; [apply candidates_in|]. split.
  - rewrite limit_length. rewrite (Permutation_length P). assert (LL : length L = length cands) by (rewrite <- UL, map_length; auto). rewrite LL. destruct n_top as [n|]; auto.
    assert (FL : length (filter k_req (dsort L)) = length (filter (fun x => match require with Some rq => umem ueq x rq | None => false end) cands)).
    { transitivity (length (filter k_req L)).
      - clear -P. induction P; simpl; auto; try destruct (k_req x); try destruct (k_req y0); simpl; lia.
      - apply line_req. }
    rewrite FL. reflexivity.
  - intros ->. simpl. rewrite <- UL. apply Permutation_map. auto.
Qed.
(* a required unit that is treated, or has no pre-treatment row, is never in the table *)
Theorem rank_required_missing d tu pre covs ow cw exclude require n_top suggest out treated x : rank d tu pre covs ow cw exclude require n_top suggest = Ok (Some out) -> treatedS tu d suggest = Ok treated ->
  In x treated \/ (forall i, In i rows -> u i = x -> ~ In (t i) (rank_periods rows t pre)) -> ~ In x (map k_unit out).
Proof.
  intros H T X K. apply in_map_iff in K as (r & <- & Hr). destruct (rank_table _ _ _ _ _ _ _ _ _ _ _ _ H T) as (_ & _ & C & _). destruct (C r Hr) as ((i & A & B & D) & N & _). destruct X as [X|X]; [auto|]. eapply X; eauto.
Qed.
(* with n_top: no candidate left out beats a listed unit that was not required *)
Theorem rank_top d tu pre covs ow cw exclude require n suggest out full : rank d tu pre covs ow cw exclude require (Some n) suggest = Ok (Some out) -> rank d tu pre covs ow cw exclude require None suggest = Ok (Some full) ->
  incl out full /\ forall r r', In r out -> k_req r = false -> In r' full -> ~ In r' out -> q_le r r' = true.
Proof.
  intros H1 H2. apply rank_inv in H1 as (tr & T & _ & _ & _ & H1). cbv zeta in H1. destruct H1 as (_ & _ & _ & _ & _ & _ & ->).
  apply rank_inv in H2 as (tr' & T' & _ & _ & _ & H2). cbv zeta in H2. destruct H2 as (_ & _ & _ & _ & _ & _ & ->). rewrite T in T'. injection T' as <-.
  change (limit_top dsort None ?l) with l. split; [intros r Hr; eapply limit_in; eauto|]. intros r r' Hr K H' N. eapply limit_best; eauto. apply Hd.
Qed.

(* ---- scores ---- *)
Definition full_panel (ps : list Z) (units : list U) : Prop := forall x p, In x units -> In p (valid_periods ps) -> exists i v, at_cell ueq u t (pre_data rows t ps) x p = i :: v /\ isfin (y i).
Lemma rmse_fin ps tl x : full_panel ps (x :: tl) -> valid_periods ps <> [] -> tl <> [] -> exists s, rmse ueq u t y (pre_data rows t ps) (valid_periods ps) tl x = Fin s /\ 0 <= s.
Proof.
  intros C NV NT. unfold rmse.
  assert (PF : forall x' p, In x' (x :: tl) -> In p (valid_periods ps) -> isfin (pivot ueq u t y (pre_data rows t ps) x' p)) by (intros x' p Hx Hp; destruct (C x' p Hx Hp) as (i & v & E & F); unfold pivot; rewrite E; auto).
  apply (rms_fin (fun p => fsub (pivot ueq u t y (pre_data rows t ps) x p) (nmean (map (fun v => pivot ueq u t y (pre_data rows t ps) v p) tl)))); auto.
  intros p Hp. apply fin_sub; [apply PF; auto; left; auto|]. apply nmean_fin; [destruct tl; [congruence|discriminate]|]. intros z Hz. apply in_map_iff in Hz as (v & <- & Hv). apply PF; auto. right; auto.
Qed.
Lemma unit_cov_fin pd c x : (exists i, In i pd /\ u i = x) -> (forall i, In i pd -> isfin (c i)) -> isfin (unit_cov ueq u pd c x).
Proof.
  intros (i & Hi & E) F. unfold unit_cov. apply nmean_fin.
  - intros K. assert (Q : In i (filter (fun i => keqb ueq (u i) x) pd)) by (apply filter_In; split; auto; apply keqb_true; auto). apply map_eq_nil in K. rewrite K in Q. destruct Q.
  - intros z Hz. apply in_map_iff in Hz as (j & <- & Hj). apply filter_In in Hj as [Hj _]. auto.
Qed.
Lemma cov_dist_fin pd covs treated x : (forall c i, In c covs -> In i pd -> isfin (c i)) -> (forall z, In z (x :: treated) -> exists i, In i pd /\ u i = z) -> ~ In x treated -> treated <> [] ->
  exists s, cov_dist ueq u pd covs treated x = Fin s /\ 0 <= s.
Proof.
  intros F P NX NT. unfold cov_dist.
  apply (norm_fin (fun c => let all := map (unit_cov ueq u pd c) (cov_units ueq u pd) in let m := nmean all in let s := one_if_zero (nstd all) in let z v := fdiv (fsub v m) s in fsub (z (unit_cov ueq u pd c x)) (z (nmean (map (unit_cov ueq u pd c) treated))))).
  intros c Hc. cbv zeta. set (all := map (unit_cov ueq u pd c) (cov_units ueq u pd)).
  assert (CU : forall z, In z (cov_units ueq u pd) <-> exists i, In i pd /\ u i = z) by (intros z; unfold cov_units; rewrite nodup_In, in_map_iff; split; intros (i & A & B); eauto).
  assert (FA : forall v, In v all -> isfin v) by (intros v Hv; apply in_map_iff in Hv as (z & <- & Hz); apply unit_cov_fin; [apply CU; auto|auto]).
  assert (L2 : (2 <= length all)%nat).
  { unfold all. rewrite map_length. destruct treated as [|z tr]; [congruence|]. assert (K : incl [x; z] (cov_units ueq u pd)) by (intros w [<-|[<-|[]]]; apply CU, P; simpl; auto).
    apply (NoDup_incl_length (l := [x; z])) in K; [exact K|]. constructor; [|repeat constructor; auto]. intros [->|[]]. apply NX. left; auto. }
  assert (M : isfin (nmean all)) by (apply nmean_fin; auto; destruct all; simpl in L2; [lia|discriminate]).
  destruct (one_if_zero_fin (nstd all) (nstd_fin all L2 FA)) as [S1 S2].
  assert (Z : forall v, isfin v -> isfin (fdiv (fsub v (nmean all)) (one_if_zero (nstd all)))) by (intros v Hv; apply fin_div; auto; apply fin_sub; auto).
  apply fin_sub; apply Z.
  - apply unit_cov_fin; auto. apply P. left; auto.
  - apply nmean_fin; [destruct treated; [congruence|discriminate]|]. intros v Hv. apply in_map_iff in Hv as (w & <- & Hw). apply unit_cov_fin; auto. apply P. right; auto.
Qed.
Lemma combine_range ow cw o c : 0 <= ow <= 1 -> 0 <= cw <= 1 -> 0 <= o <= 1 -> (c = NaN \/ exists v, c = Fin v /\ 0 <= v <= 1) -> exists s, combine_scores ow cw (Fin o) c = Fin s /\ 0 <= s <= 1.
Proof.
  intros Ho Hc Bo [->|(v & -> & Bv)]; unfold combine_scores; cbn [fisnan]; [eauto|].
  destruct (Rltb 0 (ow + cw)) eqn:E.
  - apply Rltb_true in E. assert (SUM : ow / (ow + cw) + cw / (ow + cw) = 1) by (field; lra). assert (A : 0 <= ow / (ow + cw)) by (apply Rmult_le_pos; [lra|left; apply Rinv_0_lt_compat; lra]).
    assert (B : 0 <= cw / (ow + cw)) by (apply Rmult_le_pos; [lra|left; apply Rinv_0_lt_compat; lra]). eexists; split; [reflexivity|]. set (p := ow / (ow + cw)) in *. set (q := cw / (ow + cw)) in *. nra.
  - eexists; split; [reflexivity|]. nra.
Qed.
(* finite data: every score is between 0 and 1, the best candidate has trend score 1 and the worst 0 *)
Theorem rank_scores d tu pre covs ow cw exclude require n_top suggest out treated : rank d tu pre covs ow cw exclude require n_top suggest = Ok (Some out) -> treatedS tu d suggest = Ok treated ->
  full_panel (rank_periods rows t pre) (candidates treated exclude (rank_periods rows t pre) ++ seen (rank_periods rows t pre) treated) ->
  (forall c i, In c covs -> In i (pre_data rows t (rank_periods rows t pre)) -> isfin (c i)) ->
  forall r, In r out -> (exists s, k_quality r = Fin s /\ 0 <= s <= 1) /\ (exists s, k_trend r = Fin s /\ 0 <= s <= 1) /\ (exists s, k_rmse r = Fin s /\ 0 <= s) /\
    (if (length covs =? 0)%nat then k_cov r = NaN else exists s, k_cov r = Fin s /\ 0 <= s <= 1).
Proof.
  intros H T C FC. apply rank_inv in H as (tr & T' & NT & Bo & Bc & H). rewrite T in T'. injection T' as <-. cbv zeta in H. destruct H as (NC & NV & NS & _ & SEEN & _ & ->).
  set (ps := rank_periods rows t pre) in *. set (cands := candidates treated exclude ps) in *. set (pd := pre_data rows t ps) in *. set (tl := seen ps treated) in *.
  intros r Hr. apply limit_in in Hr. apply (Permutation_in _ (proj1 (Hd _))) in Hr. apply in_map_iff in Hr as (x & <- & Hx).
  assert (FR : forall z, In z cands -> exists s, rmse ueq u t y pd (valid_periods ps) tl z = Fin s /\ 0 <= s).
  { intros z Hz. apply rmse_fin; auto. intros w p Hw Hp. apply C; auto. apply in_app_iff. destruct Hw as [<-|Hw]; auto. }
  set (rs := map (rmse ueq u t y pd (valid_periods ps) tl) cands).
  destruct (fin_list rs) as [q Eq]. { intros v Hv. apply in_map_iff in Hv as (z & <- & Hz). destruct (FR z Hz) as (s & -> & _). eexists; reflexivity. }
  assert (Nq : q <> []) by (intros ->; unfold rs in Eq; destruct cands; [congruence|discriminate]).
  assert (TS : exists o, (let mx := pymax rs (Fin 1) in let mn := pymin rs (Fin 0) in if small (fsub mx mn) then Fin 1 else fsub (Fin 1) (fdiv (fsub (rmse ueq u t y pd (valid_periods ps) tl x) mn) (fsub mx mn))) = Fin o /\ 0 <= o <= 1).
  { apply (minmax_range q (trend_scores rs)); [rewrite Eq; apply trend_minmax; auto|]. unfold rs. rewrite trend_map. apply in_map_iff. exists x. split; auto. }
  destruct TS as (o & Eo & Ro).
  assert (CS : k_cov (line pd (valid_periods ps) tl treated cands covs ow cw require x) = NaN /\ (length covs =? 0)%nat = true \/ (length covs =? 0)%nat = false /\ exists v, k_cov (line pd (valid_periods ps) tl treated cands covs ow cw require x) = Fin v /\ 0 <= v <= 1).
  { unfold line; cbn [k_cov]. destruct (length covs =? 0)%nat eqn:E; [left; auto|right]. split; auto.
    assert (Ncov : covs <> []) by (intros ->; discriminate). specialize (SEEN Ncov). set (ds := map (cov_dist ueq u pd covs treated) cands).
    assert (FD : forall z, In z cands -> exists s, cov_dist ueq u pd covs treated z = Fin s /\ 0 <= s).
    { intros z Hz. pose proof (proj1 (candidates_in treated exclude ps z) Hz) as ((i & A & B & D) & NZ & _). apply cov_dist_fin; auto.
      intros w [<-|Hw]; [exists i; split; auto; apply pre_data_in; auto|]. rewrite <- SEEN in Hw. unfold seen in Hw. apply filter_In in Hw as [_ Hw]. apply in_pivot_iff in Hw. exact Hw. }
    destruct (fin_list ds) as [q' Eq']. { intros v Hv. apply in_map_iff in Hv as (z & <- & Hz). destruct (FD z Hz) as (s & -> & _). eexists; reflexivity. }
    assert (Nq' : q' <> []) by (intros ->; unfold ds in Eq'; destruct cands; [congruence|discriminate]).
    apply (minmax_range q' (cov_scores ds)); [rewrite Eq'; apply cov_minmax; auto|]. unfold ds. rewrite cov_map. apply in_map_iff. exists x. split; auto. }
  assert (TR : k_trend (line pd (valid_periods ps) tl treated cands covs ow cw require x) = Fin o) by (unfold line; cbn [k_trend]; exact Eo).
  split.
  - change (k_quality (line pd (valid_periods ps) tl treated cands covs ow cw require x)) with (combine_scores ow cw (k_trend (line pd (valid_periods ps) tl treated cands covs ow cw require x)) (k_cov (line pd (valid_periods ps) tl treated cands covs ow cw require x))).
    rewrite TR. apply combine_range; auto. destruct CS as [[E _]|[_ E]]; auto.
  - split; [rewrite TR; eauto|]. split; [destruct (FR x Hx) as (s & E & P); exists s; split; auto|]. destruct CS as [[E E2]|[E2 E]]; rewrite E2; auto.
Qed.
(* every line reports the root mean squared distance of its unit to the treated mean *)
Theorem rank_rmse d tu pre covs ow cw exclude require n_top suggest out treated : rank d tu pre covs ow cw exclude require n_top suggest = Ok (Some out) -> treatedS tu d suggest = Ok treated ->
  let ps := rank_periods rows t pre in forall r, In r out -> k_rmse r = rmse ueq u t y (pre_data rows t ps) (valid_periods ps) (seen ps treated) (k_unit r) /\ k_quality r = combine_scores ow cw (k_trend r) (k_cov r).
Proof.
  intros H T ps. apply rank_inv in H as (tr & T' & _ & _ & _ & H). rewrite T in T'. injection T' as <-. cbv zeta in H. destruct H as (_ & _ & _ & _ & _ & _ & ->).
  intros r Hr. apply limit_in in Hr. apply (Permutation_in _ (proj1 (Hd _))) in Hr. apply in_map_iff in Hr as (x & <- & Hx). split; reflexivity.
Qed.
(* without n_top the closest candidate has trend score one; closer is never scored lower *)
Theorem rank_best d tu pre covs ow cw exclude require suggest out treated : rank d tu pre covs ow cw exclude require None suggest = Ok (Some out) -> treatedS tu d suggest = Ok treated ->
  full_panel (rank_periods rows t pre) (candidates treated exclude (rank_periods rows t pre) ++ seen (rank_periods rows t pre) treated) ->
  (exists r, In r out /\ k_trend r = Fin 1) /\
  ((exists r r' a b, In r out /\ In r' out /\ k_rmse r = Fin a /\ k_rmse r' = Fin b /\ / 10000000000 <= b - a) -> exists r, In r out /\ k_trend r = Fin 0) /\
  (forall r r' a b s s', In r out -> In r' out -> k_rmse r = Fin a -> k_rmse r' = Fin b -> a <= b -> k_trend r = Fin s -> k_trend r' = Fin s' -> s' <= s).
Proof.
  intros H T C. apply rank_inv in H as (tr & T' & NT & Bo & Bc & H). rewrite T in T'. injection T' as <-. cbv zeta in H. destruct H as (NC & NV & NS & _ & SEEN & _ & ->).
  change (limit_top dsort None ?l) with l.
  set (ps := rank_periods rows t pre) in *. set (cands := candidates treated exclude ps) in *. set (pd := pre_data rows t ps) in *. set (tl := seen ps treated) in *.
  set (rs := map (rmse ueq u t y pd (valid_periods ps) tl) cands).
  assert (FR : forall z, In z cands -> exists s, rmse ueq u t y pd (valid_periods ps) tl z = Fin s /\ 0 <= s).
  { intros z Hz. apply rmse_fin; auto. intros w p Hw Hp. apply C; auto. apply in_app_iff. destruct Hw as [<-|Hw]; auto. }
  destruct (fin_list rs) as [q Eq]. { intros v Hv. apply in_map_iff in Hv as (z & <- & Hz). destruct (FR z Hz) as (s & -> & _). eexists; reflexivity. }
  assert (Nq : q <> []) by (intros ->; unfold rs in Eq; destruct cands; [congruence|discriminate]).
  pose proof (trend_minmax q Nq) as MM. rewrite <- Eq in MM.
  set (L := map (line pd (valid_periods ps) tl treated cands covs ow cw require) cands).
  assert (PI : forall r, In r (dsort L) <-> In r L) by (intros r; split; apply Permutation_in; [|apply Permutation_sym]; apply Hd).
  assert (TT : trend_scores rs = map k_trend L) by (unfold rs; rewrite trend_map; unfold L; rewrite map_map; reflexivity).
  assert (RR : rs = map k_rmse L) by (unfold rs, L; rewrite map_map; reflexivity).
  rewrite TT in MM. split; [|split].
  - pose proof (minmax_best _ _ MM) as K. apply in_map_iff in K as (r & E & Hr). exists r. split; auto. apply PI; auto.
  - intros (r & r' & a & b & H1 & H2 & E1 & E2 & D). assert (QI : forall r a, In r (dsort L) -> k_rmse r = Fin a -> In a q).
    { intros r0 a0 Hr0 E0. apply PI in Hr0. apply (in_map k_rmse) in Hr0. rewrite <- RR, Eq, E0 in Hr0. apply in_map_iff in Hr0 as (z & Ez & Hz). injection Ez as <-. auto. }
    assert (K : In (Fin 0) (map k_trend L)) by (eapply minmax_worst; eauto; exists a, b; eauto). apply in_map_iff in K as (r0 & E & Hr). exists r0. split; auto. apply PI; auto.
  - destruct MM as (mn & mx & I1 & I2 & B & EM).
    assert (TV : forall r a s, In r (dsort L) -> k_rmse r = Fin a -> k_trend r = Fin s -> s = (if Rltb (mx - mn) (/ 10000000000) then 1 else 1 - (a - mn) / (mx - mn)) /\ mn <= a <= mx).
    { intros r a s Hr Ea Es. apply PI in Hr. apply in_map_iff in Hr as (x & <- & Hx). unfold line in Ea, Es. cbn [k_rmse k_trend] in Ea, Es. fold rs in Es.
      destruct (extremes q (Fin 1) (Fin 0) Nq) as (mn' & mx' & X1 & X2 & X3 & X4 & X5). assert (mn' = mn) by (pose proof (B mn' X3); pose proof (X5 mn I1); lra). assert (mx' = mx) by (pose proof (B mx' X4); pose proof (X5 mx I2); lra). subst mn' mx'.
      assert (Aq : In a q). { assert (K : In (rmse ueq u t y pd (valid_periods ps) tl x) rs) by (apply in_map; auto). rewrite Eq, Ea in K. apply in_map_iff in K as (z & Ez & Hz). injection Ez as <-. auto. }
      split; [|auto]. rewrite Eq, X1, X2, Ea in Es. cbv zeta in Es. replace (fsub (Fin mx) (Fin mn)) with (Fin (mx - mn)) in Es by reflexivity. unfold small in Es. cbn [flt] in Es. destruct (Rltb (mx - mn) (/ 10000000000)) eqn:E.
      - injection Es as <-. reflexivity.
      - apply Rltb_false in E. assert (0 < / 10000000000) by (apply Rinv_0_lt_compat; lra). replace (fsub (Fin a) (Fin mn)) with (Fin (a - mn)) in Es by reflexivity. unfold fdiv in Es. destruct (Req_EM_T (mx - mn) 0); [lra|]. cbn in Es. injection Es as <-. lra. }
    intros r r' a b s s' H1 H2 Ea Eb L0 Es Es'. destruct (TV r a s H1 Ea Es) as [-> _]. destruct (TV r' b s' H2 Eb Es') as [-> _]. destruct (Rltb (mx - mn) (/ 10000000000)) eqn:E; [lra|]. apply Rltb_false in E. assert (0 < / 10000000000) by (apply Rinv_0_lt_compat; lra).
    assert ((a - mn) / (mx - mn) <= (b - mn) / (mx - mn)); [|lra]. apply Rmult_le_compat_r; [left; apply Rinv_0_lt_compat; lra|lra].
Qed.
(* a candidate without a finite comparison that comes first wipes out every score *)
Theorem rank_nan_first d tu pre ow cw exclude require n_top suggest out treated x0 cs : rank d tu pre [] ow cw exclude require n_top suggest = Ok (Some out) -> treatedS tu d suggest = Ok treated ->
  candidates treated exclude (rank_periods rows t pre) = x0 :: cs ->
  rmse ueq u t y (pre_data rows t (rank_periods rows t pre)) (valid_periods (rank_periods rows t pre)) (seen (rank_periods rows t pre) treated) x0 = NaN ->
  forall r, In r out -> k_quality r = NaN.
Proof.
  intros H T EC NR. apply rank_inv in H as (tr & T' & NT & Bo & Bc & H). rewrite T in T'. injection T' as <-. cbv zeta in H. destruct H as (_ & _ & _ & _ & _ & _ & ->).
  intros r Hr. apply limit_in in Hr. apply (Permutation_in _ (proj1 (Hd _))) in Hr. apply in_map_iff in Hr as (x & <- & Hx). rewrite EC in Hx. unfold line; cbn [k_quality]. rewrite EC. unfold combine_scores. simpl (fisnan _).
  set (f := rmse ueq u t y (pre_data rows t (rank_periods rows t pre)) (valid_periods (rank_periods rows t pre)) (seen (rank_periods rows t pre) treated)) in *.
  assert (K : In (let mx := pymax (map f (x0 :: cs)) (Fin 1) in let mn := pymin (map f (x0 :: cs)) (Fin 0) in if small (fsub mx mn) then Fin 1 else fsub (Fin 1) (fdiv (fsub (f x) mn) (fsub mx mn))) (trend_scores (map f (x0 :: cs)))) by (rewrite trend_map; apply in_map_iff; exists x; auto).
  cbn [map] in K. rewrite NR, trend_nan_first in K. apply in_map_iff in K as (z & Ez & _). simpl in Ez |- *. rewrite NR in *. symmetry. exact Ez.
Qed.
End Rank.

(* ---- suggestions ---- *)
Lemma clip01_range x : clip01 x = NaN \/ exists s, clip01 x = Fin s /\ 0 <= s <= 1.
Proof.
  unfold clip01. destruct x as [a| | |]; simpl; [|auto|right; exists 1; split; auto; lra|right; exists 0; split; auto; lra]. destruct (Rltb a 0) eqn:E1; [right; exists 0; split; auto; lra|]. destruct (Rltb 1 a) eqn:E2; [right; exists 1; split; auto; lra|].
  apply Rltb_false in E1. apply Rltb_false in E2. right. exists a. split; auto; lra.
Qed.
Definition nlargest_ok {U} (nl : nat -> list (@cand U) -> list (@cand U)) : Prop := forall n l, (forall c, In c (nl n l) -> In c l) /\ length (nl n l) = Nat.min n (length l).
Definition nlargest_ex {U} (n : nat) (l : list (@cand U)) : list (@cand U) := firstn n (isort (fun a b => fge (n_score a) (n_score b)) l).
Theorem nlargest_ex_ok {U} : nlargest_ok (@nlargest_ex U).
Proof.
  intros n l. unfold nlargest_ex. set (k := isort _ l). assert (P : Permutation k l) by apply isort_perm. split.
  - intros c Hc. eapply Permutation_in; [exact P|]. rewrite <- (firstn_skipn n k). apply in_app_iff; auto.
  - rewrite firstn_length, (Permutation_length P). reflexivity.
Qed.
Section Suggest.
Context {I U : Type} (ueq : forall x y : U, {x = y} + {x <> y}).
Variable u : I -> U.
Variable t : I -> Z.
Variable y : I -> fl.
Variable polyfit : list fl -> fl.
Variable nlargest : nat -> list (@cand U) -> list (@cand U).
Hypothesis Hn : nlargest_ok nlargest.
Theorem suggest_spec rows pre n : let out := suggest_candidates ueq rows u t y polyfit nlargest pre n in
  (length out <= n)%nat /\
  forall c, In c out -> (n_score c = NaN \/ exists s, n_score c = Fin s /\ 0 <= s <= 1) /\ (exists i, In i rows /\ u i = n_unit c /\ In (t i) pre) /\
    n_level c = nmean (map y (filter (fun i => keqb ueq (u i) (n_unit c)) (pre_data rows t pre))) /\
    (n_similar c <= length (filter (fun v => negb (keqb ueq v (n_unit c))) (cov_units ueq u (pre_data rows t pre))))%nat.
Proof.
  intros out. unfold out, suggest_candidates. split; [rewrite (proj2 (Hn n _)); lia|]. intros c Hc. apply (proj1 (Hn n _)) in Hc. apply in_map_iff in Hc as (x & <- & Hx). cbn [n_score n_unit n_level n_similar].
  split; [apply clip01_range|]. apply filter_In in Hx as [_ Hx]. apply in_pivot_iff in Hx as (i & Hi & E). apply pre_data_in in Hi as [Hi Ht]. split; [eauto|]. split; [reflexivity|].
  unfold similar_count. cbv zeta. destruct (fgt _ _).
  - set (m := map _ _). assert (K : forall A (p : A -> bool) l, (length (filter p l) <= length l)%nat) by (intros A p l; induction l; simpl; auto; destruct (p a); simpl; lia). etransitivity; [apply K|]. unfold m. rewrite map_length. auto.
  - rewrite map_length. auto.
Qed.
End Suggest.
(* the trend is fitted on the row order, not on time: the same two rows in the other order give the opposite slope *)
Definition two_point (l : list fl) : fl := match l with [a; b] => fsub b a | _ => Fin 0 end.   (* polyfit on two points *)
Definition sug_ex (swap : bool) : list (nat * Z * R) := if swap then [(1%nat, 1%Z, 5); (1%nat, 0%Z, 2)] else [(1%nat, 0%Z, 2); (1%nat, 1%Z, 5)].
Theorem suggest_slope_refuted : Permutation (sug_ex false) (sug_ex true) /\
  (exists s, In s (map n_slope (suggest_candidates Nat.eq_dec (sug_ex false) (fun i => fst (fst i)) (fun i => snd (fst i)) (fun i => Fin (snd i)) two_point nlargest_ex [0; 1]%Z 1)) /\ s = Fin 3) /\
  (exists s, In s (map n_slope (suggest_candidates Nat.eq_dec (sug_ex true) (fun i => fst (fst i)) (fun i => snd (fst i)) (fun i => Fin (snd i)) two_point nlargest_ex [0; 1]%Z 1)) /\ s = Fin (-3)).
Proof.
  split; [apply perm_swap|]. split; eexists; (split; [cbn; left; reflexivity|]); f_equal; lra.
Qed.

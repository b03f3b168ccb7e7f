(* HonestDiD: what a change of the unit of the outcome does to the bounds, the verdicts and the breakdown value. *)
From Verif Require Import Prelude Flt Linalg_model Linalg_proofs Did_equiv Lp Multi_model Results_model
  Honest_model Honest_proofs Honest_sd Honest_fit Scale_flt.
From Coq Require Import Arith ZArith String List Lia Lra FunctionalExtensionality.
Import ListNotations.
Open Scope R_scope.

(* the results object of the same analysis with the outcome multiplied by s *)
Definition scale_mp (s : R) (m : hd_mp) : hd_mp := {|
  hm_pre := hm_pre m; hm_post := hm_post m;
  hm_eff := fun p => option_map (fun e => (sc s (fst e), sc s (snd e))) (hm_eff m p);
  hm_vcov := option_map (fun v => (fst v, fun i j => sc (s * s) (snd v i j))) (hm_vcov m);
  hm_key := fun p => option_map (sc s) (hm_key m p); hm_avg_se := sc s (hm_avg_se m) |}.
Definition scale_entry (s : R) (e : es_entry) : es_entry :=
  {| ee_t := ee_t e; ee_eff := sc s (ee_eff e); ee_se := sc s (ee_se e); ee_n := ee_n e |}.
Definition scale_cs (s : R) (c : hd_cs) : hd_cs :=
  {| hc_es := option_map (map (scale_entry s)) (hc_es c); hc_overall_se := sc s (hc_overall_se c) |}.
Definition scale_results (s : R) (r : hd_results) : hd_results :=
  match r with HMP m => HMP (scale_mp s m) | HCS c => HCS (scale_cs s c) | HOther => HOther end.
(* the output with every quantity in the unit of the outcome multiplied by s; [M'] is the reported M *)
Definition scale_out (s M' : R) (o : hd_out) : hd_out := {|
  ho_lb := sc s (ho_lb o); ho_ub := sc s (ho_ub o); ho_ci_lb := sc s (ho_ci_lb o); ho_ci_ub := sc s (ho_ci_ub o);
  ho_M := M'; ho_method := ho_method o; ho_est := sc s (ho_est o); ho_se := sc s (ho_se o); ho_alpha := ho_alpha o;
  ho_ci_method := ho_ci_method o |}.
Definition res_map {A B} (f : A -> B) (r : res A) : res B := match r with Ok a => Ok (f a) | Err e => Err e end.

Section S.
Variable s : R.
Hypothesis Hs : 0 < s.
Let Hs2 : 0 < s * s.
Proof. apply Rmult_lt_0_compat; exact Hs. Qed.

Ltac scs := rewrite ?(sc_fin s), ?(sc_nan s), ?(sc_pinf s Hs), ?(sc_ninf s Hs).

Lemma hsc_flt x y : flt (sc s x) (sc s y) = flt x y.
Proof.
  destruct x, y; scs; try reflexivity. cbn [flt]. unfold Rltb.
  destruct (Rlt_dec (s * r) (s * r0)), (Rlt_dec r r0); try reflexivity; exfalso; nra.
Qed.
Lemma hsc_zero : sc s (Fin 0) = Fin 0.
Proof. scs. f_equal. ring. Qed.
Lemma hsc_fle x y : fle (sc s x) (sc s y) = fle x y.
Proof.
  destruct x, y; scs; try reflexivity. cbn [fle]. unfold Rleb.
  destruct (Rle_dec (s * r) (s * r0)), (Rle_dec r r0); try reflexivity; exfalso; nra.
Qed.
Lemma hsc_fle0 x : fle (sc s x) (Fin 0) = fle x (Fin 0).
Proof. rewrite <- hsc_zero at 1. apply hsc_fle. Qed.
Lemma hsc_0fle x : fle (Fin 0) (sc s x) = fle (Fin 0) x.
Proof. rewrite <- hsc_zero at 1. apply hsc_fle. Qed.
Lemma hsc_feqb0 x : feqb (sc s x) (Fin 0) = feqb x (Fin 0).
Proof.
  destruct x; scs; try reflexivity. cbn [feqb]. destruct (Reqb (s * r) 0) eqn:E.
  - apply Reqb_true in E. symmetry. apply Reqb_true. nra.
  - symmetry. destruct (Reqb r 0) eqn:E'; auto. apply Reqb_true in E'. subst. rewrite Rmult_0_r, (proj2 (Reqb_true 0 0) eq_refl) in E. discriminate.
Qed.
Lemma hsc_abs x : fabs (sc s x) = sc s (fabs x).
Proof. destruct x; scs; cbn [fabs]; scs; try reflexivity. rewrite Rabs_mult, (Rabs_pos_eq s) by lra. reflexivity. Qed.
Lemma hsc_mulr k x w : 0 < k -> fmul (sc k x) (Fin w) = sc k (fmul x (Fin w)).
Proof.
  intros Hk. destruct x; rewrite ?(sc_fin k), ?(sc_nan k), ?(sc_pinf k Hk), ?(sc_ninf k Hk); cbn [fmul]; try reflexivity.
  - rewrite sc_fin. f_equal. ring.
  - unfold fsgn_inf. destruct (Rlt_dec 0 w); [rewrite sc_pinf by auto; reflexivity|]. destruct (Rlt_dec w 0); [rewrite sc_ninf by auto; reflexivity|reflexivity].
  - unfold fsgn_inf. destruct (Rlt_dec 0 w); [rewrite sc_ninf by auto; reflexivity|]. destruct (Rlt_dec w 0); [rewrite sc_pinf by auto; reflexivity|reflexivity].
Qed.

Lemma py_max_sc l : forall x, py_max (sc s x) (map (sc s) l) = sc s (py_max x l).
Proof.
  unfold py_max. induction l as [|a l IH]; intros x; [reflexivity|]. cbn [map fold_left]. rewrite <- IH. f_equal.
  unfold py_max2, fgt. rewrite hsc_flt. destruct (flt x a); reflexivity.
Qed.
Lemma fdot_sc l : forall b, fdot l (map (sc s) b) = sc s (fdot l b).
Proof.
  intros b. unfold fdot. rewrite <- (sc_sum s Hs). f_equal. revert b. induction l as [|a l IH]; intros [|x b]; simpl; auto.
  rewrite IH. f_equal. apply (sc_mul s Hs).
Qed.
Lemma qform_sc l S S' : (forall i j, S' i j = sc (s * s) (S i j)) -> qform l S' = sc (s * s) (qform l S).
Proof.
  intros H. unfold qform. rewrite <- (sc_sum (s * s) Hs2), map_map. f_equal. apply map_ext. intros j.
  rewrite <- hsc_mulr by auto. f_equal. rewrite <- (sc_sum (s * s) Hs2), map_map. f_equal. apply map_ext. intros i.
  rewrite H. apply (sc_mul (s * s) Hs2).
Qed.

(* ---- extraction ---- *)
Definition scale_params (p : hd_params) : hd_params := {|
  ep_beta := map (sc s) (ep_beta p); ep_size := ep_size p; ep_sigma := fun i j => sc (s * s) (ep_sigma p i j);
  ep_npre := ep_npre p; ep_npost := ep_npost p; ep_pre := ep_pre p |}.

Lemma diag_sq_sc l i j : diag_sq (map (sc s) l) i j = sc (s * s) (diag_sq l i j).
Proof.
  unfold diag_sq. destruct (Nat.eqb i j).
  - change NaN with (sc s NaN). rewrite map_nth. apply (sc_sq s Hs).
  - rewrite sc_fin. f_equal. ring.
Qed.
Lemma es_insert_sc e l : es_insert (scale_entry s e) (map (scale_entry s) l) = map (scale_entry s) (es_insert e l).
Proof.
  induction l as [|x l IH]; [reflexivity|]. cbn [map es_insert]. cbn [scale_entry ee_t].
  destruct (key_le (ee_t e) (ee_t x)); [reflexivity|]. cbn [map]. rewrite <- IH. reflexivity.
Qed.
Lemma es_sort_sc l : es_sort (map (scale_entry s) l) = map (scale_entry s) (es_sort l).
Proof.
  unfold es_sort. induction l as [|x l IH]; [reflexivity|]. cbn [map fold_right]. rewrite IH. apply es_insert_sc.
Qed.
Lemma filter_entry_sc (f : es_entry -> bool) l : (forall e, f (scale_entry s e) = f e) ->
  filter f (map (scale_entry s) l) = map (scale_entry s) (filter f l).
Proof.
  intros H. induction l as [|x l IH]; [reflexivity|]. cbn [map filter]. rewrite H. destruct (f x); [cbn [map]; f_equal; exact IH|exact IH].
Qed.
Lemma get_effects_sc f l :
  get_effects (fun p => option_map (fun e => (sc s (fst e), sc s (snd e))) (f p)) l
  = res_map (map (fun e => (sc s (fst e), sc s (snd e)))) (get_effects f l).
Proof.
  induction l as [|p l IH]; [reflexivity|]. cbn [get_effects]. rewrite IH. destruct (f p) as [e|]; [|reflexivity]. cbn [option_map].
  destruct (get_effects f l); reflexivity.
Qed.

Lemma extract_sc r : hd_extract (scale_results s r) = res_map scale_params (hd_extract r).
Proof.
  destruct r as [m|c|]; [| |reflexivity]; cbn [scale_results hd_extract].
  - cbn [scale_mp hm_eff hm_post hm_vcov hm_pre]. rewrite get_effects_sc.
    destruct (get_effects (hm_eff m) (hm_post m)) as [es|]; [|reflexivity]. cbn [res_map bind].
    destruct (hm_vcov m) as [[k Sg]|]; cbn [option_map fst snd res_map]; unfold scale_params; cbn [ep_beta ep_size ep_sigma ep_npre ep_npost ep_pre];
      rewrite !map_map; cbn [fst snd]; rewrite ?map_length.
    + reflexivity.
    + do 2 f_equal. extensionality i. extensionality j. rewrite <- diag_sq_sc, map_map. reflexivity.
  - cbn [scale_cs hc_es]. destruct (hc_es c) as [l|]; [|reflexivity]. cbn [option_map res_map]. unfold scale_params.
    rewrite (filter_entry_sc (fun e => Nat.ltb 0 (ee_n e) && ffinite (ee_se e))) by (intros e; cbn [scale_entry ee_n ee_se]; rewrite (sc_finite s Hs); reflexivity).
    rewrite es_sort_sc.
    set (kept := es_sort _). cbn [ep_beta ep_size ep_sigma ep_npre ep_npost ep_pre].
    rewrite (filter_entry_sc (fun e => key_neg (ee_t e))) by reflexivity.
    rewrite (filter_entry_sc (fun e => negb (key_neg (ee_t e)))) by reflexivity.
    rewrite !map_map, !map_length. cbn [scale_entry ee_eff ee_se ee_t]. do 2 f_equal.
    extensionality i. extensionality j. rewrite <- diag_sq_sc, map_map. reflexivity.
Qed.

Lemma post_beta_sc p : post_beta (scale_params p) = map (sc s) (post_beta p).
Proof.
  unfold post_beta, scale_params. cbn [ep_beta ep_npost ep_npre]. rewrite map_length.
  destruct (Nat.eqb _ _); [reflexivity|]. destruct (Nat.eqb _ _); [|reflexivity]. apply skipn_map.
Qed.
Lemma post_sigma_sc p : fst (post_sigma (scale_params p)) = fst (post_sigma p) /\
  forall i j, snd (post_sigma (scale_params p)) i j = sc (s * s) (snd (post_sigma p) i j).
Proof.
  unfold post_sigma. rewrite post_beta_sc, map_length. unfold post_count. cbn [scale_params ep_beta ep_npost ep_npre ep_size ep_sigma].
  rewrite map_length.
  destruct (Nat.eqb (ep_size p) _ && Nat.eqb (ep_size p) _)%bool; [split; reflexivity|].
  destruct (Nat.eqb (ep_size p) _); split; reflexivity.
Qed.
Lemma max_pre_sc r : r <> HOther -> max_pre (scale_results s r) = sc s (max_pre r).
Proof.
  assert (KS : forall l : list (option fl), map fabs (keep_some (map (option_map (sc s)) l)) = map (sc s) (map fabs (keep_some l))).
  { unfold keep_some. induction l as [|[x|] l IH]; [reflexivity| |exact IH]. cbn [map flat_map option_map app]. rewrite IH, hsc_abs. reflexivity. }
  destruct r as [m|c|]; [| |congruence]; intros _; cbn [scale_results max_pre].
  - cbn [scale_mp hm_key hm_pre hm_avg_se]. rewrite <- (map_map (hm_key m) (option_map (sc s))), KS.
    destruct (map fabs (keep_some (map (hm_key m) (hm_pre m)))) as [|x l]; [reflexivity|]. cbn [map]. apply py_max_sc.
  - cbn [scale_cs hc_es hc_overall_se]. destruct (hc_es c) as [l|]; [|reflexivity]. cbn [option_map].
    rewrite (filter_entry_sc (fun e => key_neg (ee_t e) && Nat.ltb 0 (ee_n e))) by reflexivity. rewrite map_map.
    rewrite (map_ext _ (fun e => sc s (fabs (ee_eff e)))) by (intros e; apply hsc_abs). rewrite <- (map_map (fun e => fabs (ee_eff e)) (sc s)).
    destruct (map (fun e => fabs (ee_eff e)) _) as [|x k]; [reflexivity|]. cbn [map]. apply py_max_sc.
Qed.
End S.

(* ---- the linear programs ---- *)
Lemma ldot_scal_r a t x : ldot a (map (Rmult t) x) = t * ldot a x.
Proof. revert x. induction a as [|p a IH]; intros [|q x]; simpl; try ring. rewrite IH. ring. Qed.
Lemma diff2_scal t x i : (i + 2 < length x)%nat -> diff2 (map (Rmult t) x) i = t * diff2 x i.
Proof.
  intros H. unfold diff2. rewrite !(nth_indep (map (Rmult t) x) 0 (t * 0)) by (rewrite map_length; lia).
  rewrite !(map_nth (Rmult t)). ring.
Qed.
Lemma feasible_sd_scal npre npost M t x : 0 < t -> feasible (npre + npost) (cons_sd npre npost M) x ->
  feasible (npre + npost) (cons_sd npre npost (t * M)) (map (Rmult t) x).
Proof.
  intros Ht [L F]. split; [rewrite map_length; exact L|]. apply cons_sd_iff; [rewrite map_length; exact L|].
  intros i Hi. rewrite diff2_scal by lia. rewrite Rabs_mult, (Rabs_pos_eq t) by lra. apply Rmult_le_compat_l; [lra|].
  apply (proj1 (cons_sd_iff npre npost M x L) F i Hi).
Qed.
Lemma is_min_sd_scal npre npost M t c v : 0 < t ->
  is_min (npre + npost) (cons_sd npre npost M) c v -> is_min (npre + npost) (cons_sd npre npost (t * M)) c (t * v).
Proof.
  intros Ht [(x & Fx & Ex) H]. split.
  - exists (map (Rmult t) x). split; [apply feasible_sd_scal; auto|]. rewrite ldot_scal_r, Ex. reflexivity.
  - intros y Fy. assert (It : 0 < / t) by (apply Rinv_0_lt_compat; auto).
    apply (feasible_sd_scal _ _ _ (/ t)) in Fy; auto. replace (/ t * (t * M)) with M in Fy by (field; lra).
    specialize (H _ Fy). rewrite ldot_scal_r in H. apply (Rmult_le_compat_l t) in H; [|lra].
    rewrite <- Rmult_assoc, Rinv_r, Rmult_1_l in H by lra. exact H.
Qed.

Section Fit.
Variable lp : nat -> list con -> list R -> option R.
Variable ppf : option Z -> R -> R.
Hypothesis Hlp : lp_ok lp.
Variable s : R.
Hypothesis Hs : 0 < s.

Lemma lp_sd_scal npre npost M c : length c = (npre + npost)%nat ->
  lp (npre + npost)%nat (cons_sd npre npost (s * M)) c = option_map (Rmult s) (lp (npre + npost)%nat (cons_sd npre npost M) c).
Proof.
  intros Lc. pose proof (Hlp _ (cons_sd npre npost M) c (cons_sd_wide npre npost M) Lc) as H.
  pose proof (Hlp _ (cons_sd npre npost (s * M)) c (cons_sd_wide npre npost (s * M)) Lc) as H'.
  destruct (lp (npre + npost)%nat (cons_sd npre npost M) c) as [v|] eqn:E; cbn [option_map].
  - apply (lp_some _ _ _ _ _ Hlp (cons_sd_wide npre npost (s * M)) Lc). apply is_min_sd_scal; auto.
  - destruct (lp (npre + npost)%nat (cons_sd npre npost (s * M)) c) as [v'|]; [|reflexivity].
    exfalso. apply H. exists (/ s * v'). replace M with (/ s * (s * M)) by (field; lra).
    apply is_min_sd_scal; [apply Rinv_0_lt_compat; auto|exact H'].
Qed.

Lemma solve_sc beta l npre M : length l = length beta ->
  solve_bounds lp (map (sc s) beta) l (cons_sd npre (length (map (sc s) beta)) (s * M)) npre
  = (sc s (fst (solve_bounds lp beta l (cons_sd npre (length beta) M) npre)),
     sc s (snd (solve_bounds lp beta l (cons_sd npre (length beta) M) npre))).
Proof.
  intros Ll. unfold solve_bounds. rewrite map_length.
  destruct (cons_sd npre (length beta) M) as [|c0 cs] eqn:EC.
  - apply cons_sd_nil in EC. rewrite (proj2 (cons_sd_nil npre (length beta) (s * M)) EC). cbn [fst snd].
    rewrite (sc_pinf s Hs), (sc_ninf s Hs). reflexivity.
  - destruct (cons_sd npre (length beta) (s * M)) as [|c1 cs1] eqn:EC1.
    { apply cons_sd_nil in EC1. rewrite (proj2 (cons_sd_nil npre (length beta) M) EC1) in EC. discriminate. }
    rewrite <- EC, <- EC1. rewrite fdot_sc by auto. cbn [fst snd].
    assert (L1 : length (lp_cost npre l) = (npre + length beta)%nat) by (rewrite lp_cost_length, Ll; reflexivity).
    rewrite (lp_sd_scal npre (length beta) M (lp_cost npre l)) by exact L1.
    rewrite (lp_sd_scal npre (length beta) M (map Ropp (lp_cost npre l))) by (rewrite map_length; exact L1).
    rewrite !(sc_add s Hs). f_equal; f_equal.
    + destruct (lp _ _ (lp_cost npre l)) as [v|]; cbn [option_map]; [rewrite sc_fin; reflexivity|rewrite sc_ninf by auto; reflexivity].
    + destruct (lp _ _ (map Ropp (lp_cost npre l))) as [v|]; cbn [option_map]; [rewrite sc_fin; f_equal; ring|rewrite sc_pinf by auto; reflexivity].
Qed.

Lemma flci_sc lb ub se alpha : flci ppf (sc s lb) (sc s ub) (sc s se) alpha
  = res_map (fun c => (sc s (fst c), sc s (snd c))) (flci ppf lb ub se alpha).
Proof.
  unfold flci. rewrite hsc_fle0 by auto. destruct (fle se (Fin 0)); [reflexivity|].
  destruct (Rlt_dec 0 alpha); [|reflexivity]. destruct (Rlt_dec alpha 1); [|reflexivity]. cbn [res_map fst snd].
  rewrite (sc_mul s Hs), (sc_sub s Hs), (sc_add s Hs). reflexivity.
Qed.
Definition sc4 (b : fl * fl * fl * fl) : fl * fl * fl * fl :=
  let '(lb, ub, cl, cu) := b in (sc s lb, sc s ub, sc s cl, sc s cu).
Lemma smooth_bounds_sc alpha beta S S' l npre M : length l = length beta -> (forall i j, S' i j = sc (s * s) (S i j)) ->
  smooth_bounds lp ppf alpha (map (sc s) beta) S' l npre (length (map (sc s) beta)) (s * M)
  = res_map sc4 (smooth_bounds lp ppf alpha beta S l npre (length beta) M).
Proof.
  intros Ll HS. unfold smooth_bounds. rewrite solve_sc by auto.
  destruct (solve_bounds lp beta l (cons_sd npre (length beta) M) npre) as [lb ub]. cbn [fst snd].
  rewrite (qform_sc s Hs l S S' HS), (sc_sqrt s Hs), flci_sc. destruct (flci ppf lb ub _ alpha) as [[a b]|]; reflexivity.
Qed.
Lemma rm_bounds_sc alpha beta S S' l M r : r <> HOther -> (forall i j, S' i j = sc (s * s) (S i j)) ->
  rm_bounds ppf alpha (map (sc s) beta) S' l M (scale_results s r) = sc4 (rm_bounds ppf alpha beta S l M r).
Proof.
  intros Hr HS. unfold rm_bounds, clf_ci. rewrite max_pre_sc, hsc_feqb0, fdot_sc, (qform_sc s Hs l S S' HS), (sc_sqrt s Hs) by auto.
  destruct (feqb (max_pre r) (Fin 0)); cbn [sc4]; rewrite !(sc_mul s Hs), !(sc_sub s Hs), !(sc_add s Hs), ?(sc_sub s Hs); reflexivity.
Qed.

(* relative magnitudes: M is a pure number, everything else carries the unit of the outcome *)
Theorem rm_fit_scale cfg r M : hd_method cfg = "relative_magnitude"%string ->
  hd_fit lp ppf cfg (scale_results s r) M
  = res_map (fun o => scale_out s (ho_M o) o) (hd_fit lp ppf cfg r M).
Proof.
  intros Hm. unfold hd_fit. cbv zeta. rewrite extract_sc by auto.
  destruct (hd_extract r) as [p|e] eqn:Ep; [|reflexivity].
  assert (Hr : r <> HOther) by (intros ->; discriminate). cbn [res_map bind].
  destruct (post_sigma_sc s p) as [E1 E2]. rewrite post_beta_sc, map_length.
  destruct (post_sigma (scale_params s p)) as [sz' Sg']. destruct (post_sigma p) as [sz Sg]. cbn [fst snd] in *. subst sz'.
  destruct (hd_weights (hd_l cfg) (length (post_beta p))) as [l|]; [|reflexivity]. cbn [bind].
  destruct (negb (Nat.eqb sz (length (post_beta p)))); [reflexivity|]. rewrite Hm. cbn [String.eqb Ascii.eqb Bool.eqb].
  cbn [bind]. rewrite (rm_bounds_sc _ _ Sg Sg') by auto.
  destruct (rm_bounds _ _ _ Sg _ _ _) as [[[a b] c] d]. cbn [sc4 res_map]. unfold scale_out. cbn.
  rewrite fdot_sc, (qform_sc s Hs l Sg Sg' E2), (sc_sqrt s Hs) by auto. reflexivity.
Qed.

(* smoothness: M has the unit of the outcome, so it is rescaled with it *)
Theorem sd_fit_scale cfg r M : hd_method cfg = "smoothness"%string ->
  hd_fit lp ppf cfg (scale_results s r) (Some (s * M))
  = res_map (scale_out s (s * M)) (hd_fit lp ppf cfg r (Some M)).
Proof.
  intros Hm. unfold hd_fit. cbv zeta. rewrite extract_sc by auto.
  destruct (hd_extract r) as [p|e] eqn:Ep; [|reflexivity]. cbn [res_map bind].
  destruct (post_sigma_sc s p) as [E1 E2]. rewrite post_beta_sc, map_length.
  destruct (post_sigma (scale_params s p)) as [sz' Sg']. destruct (post_sigma p) as [sz Sg]. cbn [fst snd] in *. subst sz'.
  destruct (hd_weights (hd_l cfg) (length (post_beta p))) as [l|] eqn:El; [|reflexivity]. cbn [bind].
  pose proof (weights_length _ _ _ El) as Ll.
  destruct (negb (Nat.eqb sz (length (post_beta p)))); [reflexivity|]. rewrite Hm. cbn [String.eqb Ascii.eqb Bool.eqb].
  pose proof (smooth_bounds_sc (hd_alpha cfg) (post_beta p) Sg Sg' l (ep_npre p) M Ll E2) as SB. rewrite map_length in SB.
  change (ep_npre (scale_params s p)) with (ep_npre p). rewrite SB.
  destruct (smooth_bounds _ _ _ _ Sg _ _ _ _) as [[[[a b] c] d]|]; [|reflexivity]. cbn [sc4 res_map bind]. unfold scale_out. cbn.
  rewrite fdot_sc, (qform_sc s Hs l Sg Sg' E2), (sc_sqrt s Hs) by auto. reflexivity.
Qed.

(* what is concluded from an interval does not depend on the unit *)
Lemma has_zero_sc lo hi : has_zero (sc s lo) (sc s hi) = has_zero lo hi.
Proof. unfold has_zero. rewrite hsc_fle0, hsc_0fle by auto. reflexivity. Qed.
Theorem conclusion_scale M' o : ho_significant (scale_out s M' o) = ho_significant o /\
  ho_stars (scale_out s M' o) = ho_stars o /\ ho_verdict (scale_out s M' o) = ho_verdict o.
Proof.
  assert (E : ho_significant (scale_out s M' o) = ho_significant o).
  { unfold ho_significant. cbn [scale_out ho_ci_lb ho_ci_ub]. rewrite has_zero_sc. reflexivity. }
  split; [exact E|]. split; [unfold ho_stars; rewrite E; reflexivity|]. unfold ho_verdict. rewrite E.
  destruct (ho_significant o); [|reflexivity]. cbn [scale_out ho_ci_lb]. unfold fgt.
  rewrite <- (hsc_zero s) at 1. rewrite hsc_flt by auto. reflexivity.
Qed.

Theorem rm_includes_scale cfg r M : hd_method cfg = "relative_magnitude"%string ->
  includes lp ppf cfg (scale_results s r) M = includes lp ppf cfg r M.
Proof.
  intros Hm. unfold includes. rewrite rm_fit_scale by auto. destruct (hd_fit lp ppf cfg r (Some M)) as [o|]; [|reflexivity].
  cbn [res_map bind scale_out ho_ci_lb ho_ci_ub]. rewrite has_zero_sc. reflexivity.
Qed.
Theorem sd_includes_scale cfg r M : hd_method cfg = "smoothness"%string ->
  includes lp ppf cfg (scale_results s r) (s * M) = includes lp ppf cfg r M.
Proof.
  intros Hm. unfold includes. rewrite sd_fit_scale by auto. destruct (hd_fit lp ppf cfg r (Some M)) as [o|]; [|reflexivity].
  cbn [res_map bind scale_out ho_ci_lb ho_ci_ub]. rewrite has_zero_sc. reflexivity.
Qed.

Lemma while_bisect_ext inc inc' tol fuel : (forall M, inc M = inc' M) -> forall lo hi,
  while_bisect fuel inc tol lo hi = while_bisect fuel inc' tol lo hi.
Proof.
  intros H. induction fuel as [|f IH]; intros lo hi; cbn [while_bisect]; [reflexivity|]. rewrite H.
  destruct (Rlt_dec tol (hi - lo)); [|reflexivity]. destruct (inc' ((lo + hi) / 2)) as [[|]|]; auto.
Qed.
Lemma bisect_ext inc inc' n : (forall M, inc M = inc' M) -> forall lo hi, bisect n inc lo hi = bisect n inc' lo hi.
Proof.
  intros H. induction n as [|n IH]; intros lo hi; cbn [bisect]; [reflexivity|]. rewrite H.
  destruct (inc' ((lo + hi) / 2)) as [[|]|]; cbn [bind]; auto.
Qed.
Lemma transition_ext inc inc' : (forall M, inc M = inc' M) -> forall l prev, transition inc prev l = transition inc' prev l.
Proof.
  intros H. induction l as [|[M b] l IH]; intros prev; cbn [transition]; [reflexivity|].
  destruct b; [|apply IH]. destruct prev as [[M0 [|]]|]; auto. rewrite (bisect_ext inc inc') by auto. reflexivity.
Qed.

Theorem rm_breakdown_scale cfg r fuel tol : hd_method cfg = "relative_magnitude"%string ->
  breakdown_value lp ppf fuel cfg (scale_results s r) tol = breakdown_value lp ppf fuel cfg r tol.
Proof.
  intros Hm. unfold breakdown_value. rewrite !rm_includes_scale by auto.
  rewrite (while_bisect_ext _ (includes lp ppf cfg r)); [reflexivity|]. intros M. apply rm_includes_scale; auto.
Qed.

Definition scale_sens (q : hd_sens) : hd_sens := {|
  hs_M := hs_M q; hs_bounds := map (fun b => (sc s (fst b), sc s (snd b))) (hs_bounds q);
  hs_cis := map (fun b => (sc s (fst b), sc s (snd b))) (hs_cis q);
  hs_breakdown := hs_breakdown q; hs_est := sc s (hs_est q); hs_se := sc s (hs_se q) |}.

Theorem rm_sensitivity_scale cfg r grid : hd_method cfg = "relative_magnitude"%string ->
  hd_sensitivity lp ppf cfg (scale_results s r) grid = res_map scale_sens (hd_sensitivity lp ppf cfg r grid).
Proof.
  intros Hm. unfold hd_sensitivity. cbv zeta. set (g := match grid with Some g => g | None => default_grid (hd_method cfg) end). clearbody g.
  assert (MR : mapr (fun M => hd_fit lp ppf cfg (scale_results s r) (Some M)) g
    = res_map (map (fun o => scale_out s (ho_M o) o)) (mapr (fun M => hd_fit lp ppf cfg r (Some M)) g)).
  { induction g as [|M g IH]; [reflexivity|]. cbn [mapr]. rewrite IH, rm_fit_scale by auto.
    destruct (hd_fit lp ppf cfg r (Some M)); [|reflexivity]. cbn [res_map bind].
    destruct (mapr (fun M0 => hd_fit lp ppf cfg r (Some M0)) g); reflexivity. }
  rewrite MR. destruct (mapr (fun M => hd_fit lp ppf cfg r (Some M)) g) as [os|]; [|reflexivity]. cbn [res_map bind].
  rewrite !map_map. cbn [scale_out ho_ci_lb ho_ci_ub ho_lb ho_ub].
  assert (FE : map (fun x => has_zero (fst (sc s (ho_ci_lb x), sc s (ho_ci_ub x))) (snd (sc s (ho_ci_lb x), sc s (ho_ci_ub x)))) os
    = map (fun x => has_zero (fst (ho_ci_lb x, ho_ci_ub x)) (snd (ho_ci_lb x, ho_ci_ub x))) os)
    by (apply map_ext; intros o; cbn [fst snd]; apply has_zero_sc).
  rewrite FE.
  assert (FB : forall fl, find_breakdown (includes lp ppf cfg (scale_results s r)) g fl = find_breakdown (includes lp ppf cfg r) g fl).
  { intros fl. unfold find_breakdown. rewrite (transition_ext _ (includes lp ppf cfg r)); [reflexivity|].
    intros M. apply rm_includes_scale; auto. }
  rewrite FB. destruct (find_breakdown _ _ _); [|reflexivity]. cbn [bind]. rewrite rm_fit_scale by auto.
  destruct (hd_fit lp ppf cfg r (Some 0)) as [f|]; [|reflexivity]. cbn [res_map bind]. unfold scale_sens. cbn.
  rewrite !map_map. reflexivity.
Qed.

(* a smoothness analysis over a grid given in the new unit *)
Theorem sd_grid_scale cfg r g : hd_method cfg = "smoothness"%string ->
  mapr (fun M => hd_fit lp ppf cfg (scale_results s r) (Some M)) (map (Rmult s) g)
  = res_map (map (fun o => scale_out s (s * ho_M o) o)) (mapr (fun M => hd_fit lp ppf cfg r (Some M)) g).
Proof.
  intros Hm. induction g as [|M g IH]; [reflexivity|]. cbn [mapr map]. rewrite IH, sd_fit_scale by auto.
  destruct (hd_fit lp ppf cfg r (Some M)) as [o|] eqn:E; [|reflexivity]. cbn [res_map bind].
  assert (EM : ho_M o = M) by (apply hd_fit_inv in E as (p' & l & lb & ub & cl & cu & _ & _ & _ & _ & _ & E6 & _); exact E6).
  destruct (mapr (fun M0 => hd_fit lp ppf cfg r (Some M0)) g); [|reflexivity]. cbn [res_map bind map]. rewrite EM. reflexivity.
Qed.
End Fit.

(* HonestDiD: what the sign of the outcome does to the bounds, the verdicts and the breakdown value. *)
From Verif Require Import Prelude Flt Linalg_model Linalg_proofs Did_equiv Lp Multi_model Results_model
  Honest_model Honest_proofs Honest_sd Honest_fit Linalg_thms Honest_ex Scale_flt Honest_scale.
From Coq Require Import Arith ZArith String List Lia Lra Permutation FunctionalExtensionality.
Import ListNotations.
Open Scope R_scope.

(* the results object of the same analysis with the outcome negated: effects change sign, variances stay *)
Definition flip_mp (m : hd_mp) : hd_mp := {|
  hm_pre := hm_pre m; hm_post := hm_post m;
  hm_eff := fun p => option_map (fun e => (fneg (fst e), snd e)) (hm_eff m p);
  hm_vcov := hm_vcov m; hm_key := fun p => option_map fneg (hm_key m p); hm_avg_se := hm_avg_se m |}.
Definition flip_entry (e : es_entry) : es_entry := {| ee_t := ee_t e; ee_eff := fneg (ee_eff e); ee_se := ee_se e; ee_n := ee_n e |}.
Definition flip_cs (c : hd_cs) : hd_cs := {| hc_es := option_map (map flip_entry) (hc_es c); hc_overall_se := hc_overall_se c |}.
Definition flip_results (r : hd_results) : hd_results :=
  match r with HMP m => HMP (flip_mp m) | HCS c => HCS (flip_cs c) | HOther => HOther end.
(* the output with the sign of every effect changed and the ends of the intervals exchanged *)
Definition flip_out (o : hd_out) : hd_out := {|
  ho_lb := fneg (ho_ub o); ho_ub := fneg (ho_lb o); ho_ci_lb := fneg (ho_ci_ub o); ho_ci_ub := fneg (ho_ci_lb o);
  ho_M := ho_M o; ho_method := ho_method o; ho_est := fneg (ho_est o); ho_se := ho_se o; ho_alpha := ho_alpha o;
  ho_ci_method := ho_ci_method o |}.

Lemma fneg_neg x : fneg (fneg x) = x.
Proof. destruct x; cbn; try reflexivity. rewrite Ropp_involutive. reflexivity. Qed.
Lemma fneg_add x y : fadd (fneg x) (fneg y) = fneg (fadd x y).
Proof. destruct x, y; cbn; try reflexivity. f_equal. ring. Qed.
Lemma fneg_sub x y : fneg (fsub x y) = fadd (fneg x) y.
Proof. unfold fsub. rewrite <- fneg_add, fneg_neg. reflexivity. Qed.
Lemma fneg_mul a x : fmul (Fin a) (fneg x) = fneg (fmul (Fin a) x).
Proof.
  destruct x; cbn [fmul fneg]; try reflexivity.
  - f_equal. ring.
  - unfold fsgn_inf. destruct (Rlt_dec 0 a); [reflexivity|]. destruct (Rlt_dec a 0); reflexivity.
  - unfold fsgn_inf. destruct (Rlt_dec 0 a); [reflexivity|]. destruct (Rlt_dec a 0); reflexivity.
Qed.
Lemma fneg_lt x y : flt (fneg x) (fneg y) = flt y x.
Proof. destruct x, y; cbn; try reflexivity. unfold Rltb. destruct (Rlt_dec (- r) (- r0)), (Rlt_dec r0 r); try reflexivity; exfalso; lra. Qed.
Lemma fneg_le0 x : fle (fneg x) (Fin 0) = fle (Fin 0) x.
Proof. destruct x; cbn; try reflexivity. unfold Rleb. destruct (Rle_dec (- r) 0), (Rle_dec 0 r); try reflexivity; exfalso; lra. Qed.
Lemma fneg_0le x : fle (Fin 0) (fneg x) = fle x (Fin 0).
Proof. rewrite <- fneg_le0, fneg_neg. reflexivity. Qed.
Lemma fneg_abs x : fabs (fneg x) = fabs x.
Proof. destruct x; cbn; try reflexivity. rewrite Rabs_Ropp. reflexivity. Qed.
Lemma fdot_neg l : forall b, fdot l (map fneg b) = fneg (fdot l b).
Proof.
  unfold fdot. assert (Z : fneg (Fin 0) = Fin 0) by (cbn; f_equal; ring).
  induction l as [|a l IH]; intros [|x b]; cbn [map combine fsum fold_right]; try (symmetry; exact Z). cbn [fst snd].
  rewrite fneg_mul. unfold fsum in *. cbn [fold_right]. rewrite <- fneg_add. rewrite <- IH. reflexivity.
Qed.

Definition flip_params (p : hd_params) : hd_params := {|
  ep_beta := map fneg (ep_beta p); ep_size := ep_size p; ep_sigma := ep_sigma p; ep_npre := ep_npre p; ep_npost := ep_npost p; ep_pre := ep_pre p |}.
Lemma es_sort_flip l : es_sort (map flip_entry l) = map flip_entry (es_sort l).
Proof.
  unfold es_sort. induction l as [|x l IH]; [reflexivity|]. cbn [map fold_right]. rewrite IH. generalize (fold_right es_insert [] l). clear.
  induction l as [|a l IH]; [reflexivity|]. cbn [map es_insert]. cbn [flip_entry ee_t]. destruct (key_le (ee_t x) (ee_t a)); [reflexivity|].
  cbn [map]. rewrite <- IH. reflexivity.
Qed.
Lemma filter_flip (f : es_entry -> bool) l : (forall e, f (flip_entry e) = f e) -> filter f (map flip_entry l) = map flip_entry (filter f l).
Proof. intros H. induction l as [|x l IH]; [reflexivity|]. cbn [map filter]. rewrite H. destruct (f x); [cbn [map]; f_equal; exact IH|exact IH]. Qed.
Lemma extract_flip r : hd_extract (flip_results r) = res_map flip_params (hd_extract r).
Proof.
  destruct r as [m|c|]; [| |reflexivity]; cbn [flip_results hd_extract].
  - cbn [flip_mp hm_eff hm_post hm_vcov hm_pre].
    assert (G : get_effects (fun p => option_map (fun e => (fneg (fst e), snd e)) (hm_eff m p)) (hm_post m)
      = res_map (map (fun e => (fneg (fst e), snd e))) (get_effects (hm_eff m) (hm_post m))).
    { induction (hm_post m) as [|p l IH]; [reflexivity|]. cbn [get_effects]. rewrite IH. destruct (hm_eff m p); [|reflexivity]. cbn [option_map].
      destruct (get_effects (hm_eff m) l); reflexivity. }
    rewrite G. destruct (get_effects (hm_eff m) (hm_post m)) as [es|]; [|reflexivity]. cbn [res_map bind].
    destruct (hm_vcov m) as [[k Sg]|]; cbn [res_map]; unfold flip_params; cbn [ep_beta ep_size ep_sigma ep_npre ep_npost ep_pre]; rewrite !map_map, ?map_length; reflexivity.
  - cbn [flip_cs hc_es]. destruct (hc_es c) as [l|]; [|reflexivity]. cbn [option_map res_map]. unfold flip_params.
    rewrite (filter_flip (fun e => Nat.ltb 0 (ee_n e) && ffinite (ee_se e))) by reflexivity. rewrite es_sort_flip. set (kept := es_sort _).
    cbn [ep_beta ep_size ep_sigma ep_npre ep_npost ep_pre].
    rewrite (filter_flip (fun e => key_neg (ee_t e))) by reflexivity. rewrite (filter_flip (fun e => negb (key_neg (ee_t e)))) by reflexivity.
    rewrite !map_map, !map_length. reflexivity.
Qed.
Lemma post_beta_flip p : post_beta (flip_params p) = map fneg (post_beta p).
Proof.
  unfold post_beta, flip_params. cbn [ep_beta ep_npost ep_npre]. rewrite map_length.
  destruct (Nat.eqb _ _); [reflexivity|]. destruct (Nat.eqb _ _); [|reflexivity]. apply skipn_map.
Qed.
Lemma post_sigma_flip p : post_sigma (flip_params p) = post_sigma p.
Proof.
  unfold post_sigma. rewrite post_beta_flip, map_length. unfold post_count. cbn [flip_params ep_beta ep_npost ep_npre ep_size ep_sigma].
  rewrite map_length. reflexivity.
Qed.
(* the largest pre-period violation is a maximum of absolute values *)
Lemma max_pre_flip r : max_pre (flip_results r) = max_pre r.
Proof.
  destruct r as [m|c|]; [| |reflexivity]; cbn [flip_results max_pre].
  - cbn [flip_mp hm_key hm_pre hm_avg_se]. rewrite <- (map_map (hm_key m) (option_map fneg)).
    assert (KS : forall l : list (option fl), map fabs (keep_some (map (option_map fneg) l)) = map fabs (keep_some l)).
    { unfold keep_some. induction l as [|[x|] l IH]; [reflexivity| |exact IH]. cbn [map flat_map option_map app]. rewrite IH, fneg_abs. reflexivity. }
    rewrite KS. reflexivity.
  - cbn [flip_cs hc_es hc_overall_se]. destruct (hc_es c) as [l|]; [|reflexivity]. cbn [option_map].
    rewrite (filter_flip (fun e => key_neg (ee_t e) && Nat.ltb 0 (ee_n e))) by reflexivity. rewrite map_map.
    rewrite (map_ext _ (fun e => fabs (ee_eff e))) by (intros e; apply fneg_abs). reflexivity.
Qed.
Theorem mp_max_pre m v : v <> [] -> keep_some (map (hm_key m) (hm_pre m)) = map Fin v ->
  exists x, max_pre (HMP m) = Fin x /\ 0 <= x /\ (exists a, In a v /\ x = Rabs a) /\ forall a, In a v -> Rabs a <= x.
Proof.
  intros Hn E. cbn [max_pre]. rewrite E, map_map. change (fun x => fabs (Fin x)) with (fun x => Fin (Rabs x)). rewrite <- (map_map Rabs Fin).
  destruct v as [|a v]; [congruence|]. cbn [map]. destruct (py_max_spec (map Rabs v) (Rabs a)) as (x & -> & E1 & E2 & E3). exists x. split; auto.
  split; [pose proof (Rabs_pos a); lra|]. split.
  - destruct E1 as [->|H]; [exists a; simpl; auto|]. apply in_map_iff in H as (c & <- & Hc). exists c. simpl; auto.
  - intros c [<-|Hc]; auto. apply E3. apply in_map; auto.
Qed.

Section Fit.
Variable lp : nat -> list con -> list R -> option R.
Variable ppf : option Z -> R -> R.
Hypothesis Hlp : lp_ok lp.

(* the smoothness constraints do not change under a change of sign, so the two programs have the same value *)
Lemma ldot_opp_r a x : ldot a (map Ropp x) = - ldot a x.
Proof. revert x. induction a as [|p a IH]; intros [|q x]; simpl; try ring. rewrite IH. ring. Qed.
Lemma feasible_sd_neg npre npost M x : feasible (npre + npost) (cons_sd npre npost M) x -> feasible (npre + npost) (cons_sd npre npost M) (map Ropp x).
Proof.
  intros [L F]. split; [rewrite map_length; exact L|]. unfold cons_sd in *. apply Forall_app in F as [F1 F2]. apply Forall_app.
  rewrite Forall_map in F1, F2. rewrite !Forall_map. split; eapply Forall_impl; [|exact F2| |exact F1]; intros r H; unfold sat in *; cbn [fst snd] in *;
    rewrite ?ldot_opp_r, ?ldot_opp in *; lra.
Qed.
Lemma lp_sd_neg npre npost M c : length c = (npre + npost)%nat ->
  lp (npre + npost)%nat (cons_sd npre npost M) (map Ropp c) = lp (npre + npost)%nat (cons_sd npre npost M) c.
Proof.
  intros Lc. assert (W := cons_sd_wide npre npost M). assert (Lc' : length (map Ropp c) = (npre + npost)%nat) by (rewrite map_length; exact Lc).
  assert (G : forall c v, is_min (npre + npost) (cons_sd npre npost M) c v -> is_min (npre + npost) (cons_sd npre npost M) (map Ropp c) v).
  { clear. intros c v [(x & Fx & Ex) H]. split.
    - exists (map Ropp x). split; [apply feasible_sd_neg; exact Fx|]. rewrite ldot_opp_r, ldot_opp, Ex. ring.
    - intros y Fy. apply feasible_sd_neg in Fy. specialize (H _ Fy). rewrite ldot_opp_r in H. rewrite ldot_opp. exact H. }
  destruct (lp (npre + npost)%nat (cons_sd npre npost M) c) as [v|] eqn:E.
  - apply (lp_some _ _ _ _ _ Hlp W Lc'), G, (lp_some _ _ _ _ _ Hlp W Lc). exact E.
  - destruct (lp (npre + npost)%nat (cons_sd npre npost M) (map Ropp c)) as [v|] eqn:E'; [|reflexivity].
    apply (lp_some _ _ _ _ _ Hlp W Lc') in E'. apply G in E'. rewrite map_map in E'. rewrite (map_ext _ (fun x => x)) in E' by (intros; ring).
    rewrite map_id in E'. apply (lp_some _ _ _ _ _ Hlp W Lc) in E'. congruence.
Qed.
Lemma solve_flip beta l npre M : length l = length beta ->
  solve_bounds lp (map fneg beta) l (cons_sd npre (length (map fneg beta)) M) npre
  = (fneg (snd (solve_bounds lp beta l (cons_sd npre (length beta) M) npre)), fneg (fst (solve_bounds lp beta l (cons_sd npre (length beta) M) npre))).
Proof.
  intros Ll. unfold solve_bounds. rewrite map_length. destruct (cons_sd npre (length beta) M) as [|c0 cs] eqn:EC; [reflexivity|]. rewrite <- EC.
  rewrite fdot_neg. cbn [fst snd].
  assert (L1 : length (lp_cost npre l) = (npre + length beta)%nat) by (rewrite lp_cost_length, Ll; reflexivity).
  rewrite (lp_sd_neg npre (length beta) M (lp_cost npre l)) by exact L1.
  destruct (lp _ _ (lp_cost npre l)) as [v|]; rewrite <- !fneg_add; cbn [fneg]; rewrite ?Ropp_involutive; reflexivity.
Qed.
Lemma flci_flip lb ub se alpha : flci ppf (fneg ub) (fneg lb) se alpha = res_map (fun c => (fneg (snd c), fneg (fst c))) (flci ppf lb ub se alpha).
Proof.
  unfold flci. destruct (fle se (Fin 0)); [reflexivity|]. destruct (Rlt_dec 0 alpha); [|reflexivity]. destruct (Rlt_dec alpha 1); [|reflexivity].
  cbn [res_map fst snd]. rewrite fneg_sub. unfold fsub. rewrite fneg_add. reflexivity.
Qed.
Definition flip4 (b : fl * fl * fl * fl) : fl * fl * fl * fl := let '(lb, ub, cl, cu) := b in (fneg ub, fneg lb, fneg cu, fneg cl).
Lemma smooth_flip alpha beta S l npre M : length l = length beta ->
  smooth_bounds lp ppf alpha (map fneg beta) S l npre (length (map fneg beta)) M = res_map flip4 (smooth_bounds lp ppf alpha beta S l npre (length beta) M).
Proof.
  intros Ll. unfold smooth_bounds. rewrite solve_flip by exact Ll. destruct (solve_bounds lp beta l _ npre) as [lb ub]. cbn [fst snd].
  rewrite flci_flip. destruct (flci ppf lb ub _ alpha) as [[a b]|]; reflexivity.
Qed.
Lemma rm_flip alpha beta S l M r : rm_bounds ppf alpha (map fneg beta) S l M (flip_results r) = flip4 (rm_bounds ppf alpha beta S l M r).
Proof.
  unfold rm_bounds, clf_ci. rewrite max_pre_flip, fdot_neg. destruct (feqb (max_pre r) (Fin 0)); cbn [flip4];
    repeat (rewrite ?fneg_sub; unfold fsub; rewrite <- ?fneg_add, ?fneg_neg); reflexivity.
Qed.
Lemma max_min_flip a b : py_max2 (fneg a) (fneg b) = fneg (py_min2 a b).
Proof. unfold py_max2, py_min2, fgt. rewrite fneg_lt. destruct (flt b a); reflexivity. Qed.
Lemma min_max_flip a b : py_min2 (fneg a) (fneg b) = fneg (py_max2 a b).
Proof. unfold py_max2, py_min2, fgt. rewrite fneg_lt. destruct (flt a b); reflexivity. Qed.
Lemma combined_flip alpha beta S l npre M r : length l = length beta ->
  combined_bounds lp ppf alpha (map fneg beta) S l npre (length (map fneg beta)) M (flip_results r)
  = res_map flip4 (combined_bounds lp ppf alpha beta S l npre (length beta) M r).
Proof.
  intros Ll. unfold combined_bounds. rewrite smooth_flip by exact Ll.
  destruct (smooth_bounds lp ppf alpha beta S l npre (length beta) M) as [[[[a b] c] d]|]; [|reflexivity]. cbn [res_map bind flip4].
  rewrite rm_flip. destruct (rm_bounds ppf alpha beta S l M r) as [[[a' b'] c'] d']. cbn [flip4].
  rewrite max_min_flip, min_max_flip, fdot_neg. set (lb := py_max2 a a'). set (ub := py_min2 b b').
  unfold fgt. rewrite fneg_lt. destruct (flt ub lb).
  - rewrite flci_flip. destruct (flci ppf _ _ _ alpha) as [[u v]|]; reflexivity.
  - rewrite flci_flip. destruct (flci ppf lb ub _ alpha) as [[u v]|]; reflexivity.
Qed.

Theorem hd_fit_flip cfg r M : hd_fit lp ppf cfg (flip_results r) M = res_map flip_out (hd_fit lp ppf cfg r M).
Proof.
  unfold hd_fit. cbv zeta. rewrite extract_flip. destruct (hd_extract r) as [p|e]; [|reflexivity]. cbn [res_map bind].
  rewrite post_sigma_flip, post_beta_flip, map_length. destruct (post_sigma p) as [sz Sg].
  destruct (hd_weights (hd_l cfg) (length (post_beta p))) as [l|] eqn:El; [|reflexivity]. cbn [bind]. pose proof (weights_length _ _ _ El) as Ll.
  destruct (negb (Nat.eqb sz (length (post_beta p)))); [reflexivity|]. set (m := match M with Some m => m | None => hd_M cfg end).
  change (ep_npre (flip_params p)) with (ep_npre p).
  pose proof (smooth_flip (hd_alpha cfg) (post_beta p) Sg l (ep_npre p) m Ll) as S1. pose proof (combined_flip (hd_alpha cfg) (post_beta p) Sg l (ep_npre p) m r Ll) as S2.
  rewrite map_length in S1, S2. rewrite S1, S2, rm_flip. clear S1 S2.
  destruct (String.eqb (hd_method cfg) "smoothness"); [|destruct (String.eqb (hd_method cfg) "relative_magnitude")].
  - destruct (smooth_bounds _ _ _ _ _ _ _ _ _) as [[[[a b] c] d]|]; [|reflexivity]. cbn [res_map bind flip4]. unfold flip_out. cbn. rewrite fdot_neg. reflexivity.
  - destruct (rm_bounds _ _ _ _ _ _ _) as [[[a b] c] d]. cbn [res_map bind flip4]. unfold flip_out. cbn. rewrite fdot_neg. reflexivity.
  - destruct (combined_bounds _ _ _ _ _ _ _ _ _ _) as [[[[a b] c] d]|]; [|reflexivity]. cbn [res_map bind flip4]. unfold flip_out. cbn. rewrite fdot_neg. reflexivity.
Qed.
Lemma has_zero_flip lo hi : has_zero (fneg hi) (fneg lo) = has_zero lo hi.
Proof. unfold has_zero. rewrite fneg_le0, fneg_0le. apply Bool.andb_comm. Qed.
Definition flip_verdict (v : verdict) : verdict := match v with Positive => Negative | Negative => Positive | NotRuledOut => NotRuledOut end.
Theorem flip_conclusion o : ho_significant (flip_out o) = ho_significant o /\ ho_stars (flip_out o) = ho_stars o /\
  (fle (ho_ci_lb o) (ho_ci_ub o) = true -> ho_verdict (flip_out o) = flip_verdict (ho_verdict o)).
Proof.
  assert (E : ho_significant (flip_out o) = ho_significant o) by (unfold ho_significant; cbn [flip_out ho_ci_lb ho_ci_ub]; rewrite has_zero_flip; reflexivity).
  split; [exact E|]. split; [unfold ho_stars; rewrite E; reflexivity|]. intros H. unfold ho_verdict. rewrite E. destruct (ho_significant o) eqn:S; [|reflexivity].
  unfold ho_significant, has_zero in S. cbn [flip_out ho_ci_lb]. unfold fgt.
  destruct (ho_ci_lb o) as [a| | |], (ho_ci_ub o) as [b| | |]; cbn in *; try discriminate; try reflexivity;
    unfold Rltb, Rleb in *; repeat (destruct (Rlt_dec _ _) || destruct (Rle_dec _ _)); cbn in *; try discriminate; try reflexivity; exfalso; lra.
Qed.
Theorem includes_flip cfg r M : includes lp ppf cfg (flip_results r) M = includes lp ppf cfg r M.
Proof.
  unfold includes. rewrite hd_fit_flip. destruct (hd_fit lp ppf cfg r (Some M)) as [o|]; [|reflexivity].
  cbn [res_map bind flip_out ho_ci_lb ho_ci_ub]. rewrite has_zero_flip. reflexivity.
Qed.
Theorem breakdown_flip cfg r fuel tol : breakdown_value lp ppf fuel cfg (flip_results r) tol = breakdown_value lp ppf fuel cfg r tol.
Proof.
  unfold breakdown_value. rewrite !includes_flip. rewrite (while_bisect_ext _ (includes lp ppf cfg r)); [reflexivity|]. intros M. apply includes_flip.
Qed.
Definition flip_sens (q : hd_sens) : hd_sens := {|
  hs_M := hs_M q; hs_bounds := map (fun b => (fneg (snd b), fneg (fst b))) (hs_bounds q);
  hs_cis := map (fun b => (fneg (snd b), fneg (fst b))) (hs_cis q);
  hs_breakdown := hs_breakdown q; hs_est := fneg (hs_est q); hs_se := hs_se q |}.
Theorem sensitivity_flip cfg r grid : hd_sensitivity lp ppf cfg (flip_results r) grid = res_map flip_sens (hd_sensitivity lp ppf cfg r grid).
Proof.
  unfold hd_sensitivity. cbv zeta. set (g := match grid with Some g => g | None => default_grid (hd_method cfg) end). clearbody g.
  assert (MR : mapr (fun M => hd_fit lp ppf cfg (flip_results r) (Some M)) g = res_map (map flip_out) (mapr (fun M => hd_fit lp ppf cfg r (Some M)) g)).
  { induction g as [|M g IH]; [reflexivity|]. cbn [mapr]. rewrite IH, hd_fit_flip. destruct (hd_fit lp ppf cfg r (Some M)); [|reflexivity]. cbn [res_map bind].
    destruct (mapr (fun M0 => hd_fit lp ppf cfg r (Some M0)) g); reflexivity. }
  rewrite MR. destruct (mapr (fun M => hd_fit lp ppf cfg r (Some M)) g) as [os|]; [|reflexivity]. cbn [res_map bind].
  rewrite !map_map. cbn [flip_out ho_ci_lb ho_ci_ub ho_lb ho_ub].
  assert (FE : map (fun x => has_zero (fst (fneg (ho_ci_ub x), fneg (ho_ci_lb x))) (snd (fneg (ho_ci_ub x), fneg (ho_ci_lb x)))) os
    = map (fun x => has_zero (fst (ho_ci_lb x, ho_ci_ub x)) (snd (ho_ci_lb x, ho_ci_ub x))) os)
    by (apply map_ext; intros o; cbn [fst snd]; apply has_zero_flip).
  rewrite FE.
  assert (FB : forall fl, find_breakdown (includes lp ppf cfg (flip_results r)) g fl = find_breakdown (includes lp ppf cfg r) g fl).
  { intros fl. unfold find_breakdown. rewrite (transition_ext _ (includes lp ppf cfg r)); [reflexivity|]. intros M. apply includes_flip. }
  rewrite FB. destruct (find_breakdown _ _ _); [|reflexivity]. cbn [bind]. rewrite hd_fit_flip.
  destruct (hd_fit lp ppf cfg r (Some 0)) as [f|]; [|reflexivity]. cbn [res_map bind]. unfold flip_sens. cbn.
  rewrite !map_map. reflexivity.
Qed.
End Fit.

(* ---- the order of the event-study dictionary ---- *)
Lemma key_le_total a b : key_le a b = false -> key_le b a = true.
Proof. destruct a, b; cbn; auto; try discriminate. intros H. apply Z.leb_gt in H. apply Z.leb_le. lia. Qed.
Lemma key_le_anti a b : key_le a b = true -> key_le b a = true -> a = b.
Proof. destruct a, b; cbn; auto; try discriminate. intros H1 H2. apply Z.leb_le in H1, H2. f_equal. lia. Qed.
Lemma key_le_trans a b c : key_le a b = true -> key_le b c = true -> key_le a c = true.
Proof. destruct a, b, c; cbn; auto; try discriminate. intros H1 H2. apply Z.leb_le in H1, H2. apply Z.leb_le. lia. Qed.
Lemma es_insert_comm a b l : ee_t a <> ee_t b -> es_insert a (es_insert b l) = es_insert b (es_insert a l).
Proof.
  intros N. assert (X : forall x y, ee_t x <> ee_t y -> key_le (ee_t x) (ee_t y) = true -> key_le (ee_t y) (ee_t x) = false).
  { intros x y Nxy H. destruct (key_le (ee_t y) (ee_t x)) eqn:E; auto. exfalso. apply Nxy. apply key_le_anti; auto. }
  induction l as [|x l IH]; cbn [es_insert].
  - destruct (key_le (ee_t a) (ee_t b)) eqn:E.
    + rewrite (X a b N E). reflexivity.
    + rewrite (key_le_total _ _ E). reflexivity.
  - destruct (key_le (ee_t b) (ee_t x)) eqn:Eb, (key_le (ee_t a) (ee_t x)) eqn:Ea; cbn [es_insert]; rewrite ?Ea, ?Eb.
    + destruct (key_le (ee_t a) (ee_t b)) eqn:E.
      * rewrite (X a b N E), ?Eb. reflexivity.
      * rewrite (key_le_total _ _ E), ?Ea. reflexivity.
    + destruct (key_le (ee_t a) (ee_t b)) eqn:E; [|reflexivity]. rewrite (key_le_trans _ _ _ E Eb) in Ea. discriminate.
    + destruct (key_le (ee_t b) (ee_t a)) eqn:E; [|reflexivity]. rewrite (key_le_trans _ _ _ E Ea) in Eb. discriminate.
    + rewrite IH. reflexivity.
Qed.
Lemma es_sort_perm l l' : Permutation l l' -> NoDup (map ee_t l) -> es_sort l = es_sort l'.
Proof.
  unfold es_sort. induction 1 as [|x l l' P IH|x y l|l l' l'' P1 IH1 P2 IH2]; intros ND; cbn [fold_right].
  - reflexivity.
  - inversion ND; subst. rewrite IH by assumption. reflexivity.
  - apply es_insert_comm. inversion ND as [|? ? H]; subst. intros E. apply H. left. exact (eq_sym E).
  - rewrite IH1 by exact ND. apply IH2. eapply Permutation_NoDup; [apply Permutation_map; exact P1|exact ND].
Qed.
Lemma filter_perm {A} (f : A -> bool) l l' : Permutation l l' -> Permutation (filter f l) (filter f l').
Proof. induction 1; cbn; try destruct (f x); try destruct (f y); eauto using Permutation. Qed.
Lemma filter_nodup {A B} (g : A -> B) (f : A -> bool) l : NoDup (map g l) -> NoDup (map g (filter f l)).
Proof.
  induction l as [|x l IH]; cbn; intros H; [constructor|]. inversion H; subst. destruct (f x); [|auto]. cbn. constructor; [|auto].
  intros Hin. apply H2. apply in_map_iff in Hin as (z & E & Hz). apply filter_In in Hz as [Hz _]. apply in_map_iff. exists z. auto.
Qed.
Theorem dict_order lp ppf cfg es es' ose M : Permutation es es' -> NoDup (map ee_t es) -> Forall (fun e => ffinite (ee_eff e) = true) (cs_pre es) ->
  hd_fit lp ppf cfg (HCS {| hc_es := Some es'; hc_overall_se := ose |}) M = hd_fit lp ppf cfg (HCS {| hc_es := Some es; hc_overall_se := ose |}) M.
Proof.
  intros P ND F. set (r := HCS {| hc_es := Some es; hc_overall_se := ose |}). set (r' := HCS {| hc_es := Some es'; hc_overall_se := ose |}).
  assert (EX : hd_extract r' = hd_extract r).
  { cbn [r r' hd_extract hc_es]. rewrite (es_sort_perm (filter (fun e => Nat.ltb 0 (ee_n e) && ffinite (ee_se e)) es) (filter (fun e => Nat.ltb 0 (ee_n e) && ffinite (ee_se e)) es'));
      [reflexivity|apply filter_perm; exact P|apply filter_nodup; exact ND]. }
  assert (MP : max_pre r' = max_pre r).
  { assert (P' : Permutation (cs_pre es) (cs_pre es')) by (apply filter_perm; exact P).
    destruct (cs_pre es) as [|e0 l0] eqn:E0.
    - apply Permutation_nil in P'. cbn [r r' max_pre hc_es hc_overall_se]. fold (cs_pre es) (cs_pre es'). rewrite E0, P'. reflexivity.
    - unfold r, r'. assert (V : exists v, map ee_eff (cs_pre es) = map Fin v).
      { rewrite E0. clear -F. induction F as [|e l H F IH]; [exists []; reflexivity|]. destruct IH as [v IH]. destruct (ee_eff e) as [x| | |] eqn:Ee; try discriminate.
        exists (x :: v). cbn [map]. rewrite IH, Ee. reflexivity. }
      assert (V' : exists v, map ee_eff (cs_pre es') = map Fin v).
      { assert (F' : Forall (fun e => ffinite (ee_eff e) = true) (cs_pre es')) by (eapply Permutation_Forall; [exact P'|exact F]).
        clear -F'. induction F' as [|e l H F IH]; [exists []; reflexivity|]. destruct IH as [v IH]. destruct (ee_eff e) as [x| | |] eqn:Ee; try discriminate.
        exists (x :: v). cbn [map]. rewrite IH, Ee. reflexivity. }
      destruct V as [v V], V' as [v' V'].
      destruct (cs_max_pre es ose v) as (m & -> & _ & (a & Ha & ->) & B); [rewrite E0; discriminate|exact V|].
      destruct (cs_max_pre es' ose v') as (m' & -> & _ & (a' & Ha' & ->) & B'); [|exact V'|].
      { intros K. rewrite K in P'. apply Permutation_sym, Permutation_nil in P'. discriminate. }
      assert (PV : Permutation (map Fin v) (map Fin v')) by (rewrite <- V, <- V', E0; apply Permutation_map; exact P').
      assert (I1 : forall x, In x v <-> In x v').
      { assert (J : forall x w, In (Fin x) (map Fin w) <-> In x w) by (intros x w; rewrite in_map_iff; split; [intros (z & K & Hz); injection K as ->; exact Hz|intros Hz; exists x; auto]).
        intros x. rewrite <- !J. split; apply Permutation_in; [exact PV|apply Permutation_sym; exact PV]. }
      f_equal. apply Rle_antisym; [apply B, I1, Ha'|apply B', I1, Ha]. }
  unfold hd_fit. cbv zeta. rewrite EX. destruct (hd_extract r) as [p|]; [|reflexivity]. cbn [bind].
  unfold combined_bounds, rm_bounds. rewrite MP. reflexivity.
Qed.

(* ---- cases ---- *)
Lemma one_post_flip v : flip_results (one_post (Fin v)) = HCS {| hc_es := Some [ent 0 (Fin (- v)) (Fin 1); ent (-1) (Fin (-1)) (Fin 1)]; hc_overall_se := Fin 1 |}.
Proof. reflexivity. Qed.
Theorem flip_case : exists o, hd_fit fm_lp toy_ppf rm_cfg (one_post (Fin 39)) None = Ok o /\ fle (ho_ci_lb o) (ho_ci_ub o) = true /\
  ho_verdict o = Positive /\ ho_verdict (flip_out o) = Negative /\ hd_fit fm_lp toy_ppf rm_cfg (flip_results (one_post (Fin 39))) None = Ok (flip_out o).
Proof.
  destruct (one_post_exact 39) as (o & Ho & A & B & _). exists o. split; [exact Ho|].
  destruct (rm_values fm_lp toy_ppf rm_cfg (one_post (Fin 39)) None o 39 1 1 eq_refl Ho A B (one_post_max _)) as (V1 & V2 & V3 & V4).
  assert (EM : ho_M o = 1) by (apply hd_fit_inv in Ho as (p' & l & lb & ub & cl & cu & _ & _ & _ & _ & _ & E6 & _); exact E6).
  rewrite EM in V3, V4. cbn [rm_cfg hd_alpha] in V3, V4. rewrite z19 in V3, V4.
  assert (L : fle (ho_ci_lb o) (ho_ci_ub o) = true) by (rewrite V3, V4; cbn; apply Rleb_true; lra). split; [exact L|].
  assert (P : ho_verdict o = Positive).
  { unfold ho_verdict, ho_significant, has_zero. rewrite V3, V4. cbn. rewrite (proj2 (Rleb_false _ _)) by lra. cbn. rewrite (proj2 (Rltb_true _ _)) by lra. reflexivity. }
  split; [exact P|]. split; [rewrite (proj2 (proj2 (flip_conclusion o)) L), P; reflexivity|]. rewrite hd_fit_flip by exact fm_lp_ok. rewrite Ho. reflexivity.
Qed.
(* a missing effect is announced as evidence of a negative effect, with either sign of the outcome *)
Theorem flip_nan_refuted : exists o, hd_fit fm_lp toy_ppf rm_cfg (one_post NaN) None = Ok o /\ ho_verdict o = Negative /\
  hd_fit fm_lp toy_ppf rm_cfg (flip_results (one_post NaN)) None = Ok (flip_out o) /\ ho_verdict (flip_out o) = Negative.
Proof.
  destruct (one_post_fit NaN None) as (o & Ho). destruct (one_post_vals _ _ _ Ho) as (_ & _ & N). destruct (N eq_refl) as (_ & N1 & N2).
  exists o. split; [exact Ho|]. rewrite hd_fit_flip by exact fm_lp_ok. rewrite Ho. unfold ho_verdict, ho_significant, has_zero, flip_out. cbn. rewrite N1, N2. auto.
Qed.

From Verif Require Import Prelude Flt Stats_model Stats_proofs Linalg_model Did_model Multi_model Multi_proofs Staggered_model Synth_model Synth_proofs Sdid_model Sdid_proofs Sdid_thms Gap_model Gap_proofs Gap_thms.
From Coq Require Import Arith ZArith String List Lia Lra Permutation.
Import ListNotations.
Open Scope R_scope.

(* ---- finite numbers: float arithmetic is real arithmetic ---- *)
Lemma fsum_map_fin {A} (f : A -> fl) g l : (forall a, In a l -> f a = Fin (g a)) -> fsum (map f l) = Fin (sumf g l).
Proof.
  induction l as [|a l IH]; intros H; [reflexivity|]. cbn [map sumf]. unfold fsum in *. cbn [fold_right].
  rewrite IH by (intros; apply H; right; auto). rewrite H by (left; reflexivity). reflexivity.
Qed.
Lemma fdiv_fin a c : c <> 0 -> fdiv (Fin a) (Fin c) = Fin (a / c).
Proof. intros H. unfold fdiv. destruct (Req_EM_T c 0); [contradiction|reflexivity]. Qed.
Lemma len_nz {A} (l : list A) : l <> [] -> len l <> 0.
Proof. intros H E. apply len_0 in E. contradiction. Qed.
Lemma fmean_map_fin {A} (f : A -> fl) g l : l <> [] -> (forall a, In a l -> f a = Fin (g a)) -> fmean (map f l) = Fin (meanf g l).
Proof.
  intros Hn H. unfold fmean. destruct l as [|a l]; [congruence|]. rewrite (fsum_map_fin f g (a :: l) H). cbn [map].
  change (fdiv (Fin (sumf g (a :: l))) (Fin (len (map f (a :: l)))) = Fin (meanf g (a :: l))).
  rewrite len_map, fdiv_fin by (apply len_nz; discriminate). reflexivity.
Qed.
Lemma gdot_fin {A} w (f : A -> fl) g l : (forall a, In a l -> f a = Fin (g a)) -> gdot (map Fin w) f l = Fin (wdot w g l).
Proof.
  intros H. unfold gdot, wdot. revert w. induction l as [|a l IH]; intros [|x w]; try reflexivity.
  cbn [map combine sumf]. unfold fsum in *. cbn [fold_right fst snd]. rewrite IH by (intros; apply H; right; auto).
  rewrite H by (left; reflexivity). reflexivity.
Qed.
Lemma gstd_fin k l : l <> [] -> INR k < len l -> gstd k (map Fin l) = Fin (std k l).
Proof.
  intros Hn Hk. unfold gstd. rewrite fmean_fin by exact Hn. rewrite map_map, len_map.
  rewrite (fsum_map_fin _ (fun x => (x - meanf idR l) * (x - meanf idR l))) by reflexivity.
  rewrite fdiv_fin by lra. fold (sumsq_dev l). unfold fsqrt. destruct (Rlt_dec _ 0) as [C|C]; [|reflexivity].
  exfalso. assert (0 <= sumsq_dev l) by (unfold sumsq_dev; apply sumf_nonneg; intros; apply sq_nonneg).
  assert (0 <= sumsq_dev l / (len l - INR k)) by (apply Rmult_le_pos; [auto|left; apply Rinv_0_lt_compat; lra]). lra.
Qed.

Lemma gtw_fin Y Y0 pre ctrl ytr y0 zeta : 0 <= zeta -> ctrl <> [] ->
  (forall t a, In t pre -> In a ctrl -> Y t a = Fin (Y0 t a)) -> (forall t, In t pre -> ytr t = Fin (y0 t)) ->
  gap_time_weights Y pre ctrl ytr zeta = map Fin (time_weights Y0 pre ctrl y0 zeta).
Proof.
  intros Hz Hc HY Hy. unfold gap_time_weights, time_weights. destruct pre as [|a [|c r]]; [reflexivity..|]. set (ps := a :: c :: r) in *.
  cbv zeta. set (ds := map (fun t => Rabs (y0 t - meanf (Y0 t) ctrl)) ps).
  assert (E : map (fun t => fabs (fsub (ytr t) (fmean (map (Y t) ctrl)))) ps = map Fin ds).
  { unfold ds. rewrite map_map. apply map_ext_in. intros t Ht. rewrite Hy by exact Ht. rewrite (fmean_map_fin _ (Y0 t) ctrl Hc) by (intros; apply HY; auto). reflexivity. }
  rewrite E. rewrite gstd_fin; [|discriminate|change (INR 0) with 0; apply len_pos; discriminate].
  assert (Hd : forall d, In d ds -> 0 < d + zeta * std 0 ds + eps10).
  { intros d Hd. apply in_map_iff in Hd as (t & <- & _). pose proof (Rabs_pos (y0 t - meanf (Y0 t) ctrl)). pose proof (std_nonneg 0 ds).
    assert (0 <= zeta * std 0 ds) by (apply Rmult_le_pos; auto). unfold eps10. lra. }
  set (inv := map (fun d => 1 / (d + zeta * std 0 ds + eps10)) ds).
  assert (EI : map (fun d => fdiv (Fin 1) (fadd (fadd d (fmul (Fin zeta) (Fin (std 0 ds)))) (Fin eps10))) (map Fin ds) = map Fin inv).
  { unfold inv. rewrite !map_map. apply map_ext_in. intros d Hi. cbn [fmul fadd]. apply fdiv_fin. specialize (Hd d Hi). lra. }
  rewrite EI, fsum_fin, !map_map. apply map_ext. intros x. apply fdiv_fin.
  assert (0 < sumf idR inv); [|lra]. apply sumf_pos.
  - intros x' Hx. apply in_map_iff in Hx as (d & <- & Hx). unfold idR, Rdiv. rewrite Rmult_1_l. left. apply Rinv_0_lt_compat. auto.
  - eexists. split; [left; reflexivity|]. unfold idR, Rdiv. rewrite Rmult_1_l. apply Rinv_0_lt_compat. apply Hd. left. reflexivity.
Qed.

Lemma gsdid_fin Y Y0 pre post ctrl ytr y0 omega lam : post <> [] ->
  (forall t a, In t (pre ++ post) -> In a ctrl -> Y t a = Fin (Y0 t a)) -> (forall t, In t (pre ++ post) -> ytr t = Fin (y0 t)) ->
  gap_sdid Y pre post ctrl ytr (map Fin omega) (map Fin lam) = Fin (sdid Y0 pre post ctrl y0 omega lam).
Proof.
  intros Hp HY Hy. unfold gap_sdid, sdid.
  rewrite (fmean_map_fin ytr y0 post Hp) by (intros; apply Hy, in_app_iff; auto).
  rewrite (gdot_fin lam ytr y0 pre) by (intros; apply Hy, in_app_iff; auto).
  rewrite (gdot_fin omega _ (fun j => meanf (fun t => Y0 t j) post - wdot lam (fun t => Y0 t j) pre) ctrl).
  - reflexivity.
  - intros j Hj. rewrite (fmean_map_fin _ (fun t => Y0 t j) post Hp) by (intros; apply HY; auto; apply in_app_iff; auto).
    rewrite (gdot_fin lam _ (fun t => Y0 t j) pre) by (intros; apply HY; auto; apply in_app_iff; auto). reflexivity.
Qed.

Lemma repeat_fin c k : map Fin (repeat c k) = repeat (Fin c) k.
Proof. induction k as [|k IH]; cbn; [reflexivity|]. rewrite IH. reflexivity. Qed.
Lemma gplacebo_fin Y Y0 pre post lam k (perm : list (Z * R)) : post <> [] -> (0 < k < length perm)%nat ->
  (forall t p, In t (pre ++ post) -> In p perm -> Y t (fst p) = Fin (Y0 t (fst p))) ->
  gap_placebo_one Y pre post (map Fin lam) k (map (fun p => (fst p, Fin (snd p))) perm) = Fin (placebo_one Y0 pre post lam k perm).
Proof.
  intros Hp Hk HY. unfold gap_placebo_one, placebo_one. rewrite firstn_map, skipn_map, !map_map. cbn [fst snd].
  set (pc := firstn k perm). set (pt := skipn k perm).
  rewrite (fsum_map_fin _ snd pc) by reflexivity.
  assert (EW : (if flt (Fin 0) (Fin (sumf snd pc)) then map (fun x : Z * R => fdiv (Fin (snd x)) (Fin (sumf snd pc))) pc else repeat (Fin (1 / INR k)) k)
     = map Fin (if Rlt_dec 0 (sumf snd pc) then map (fun p => snd p / sumf snd pc) pc else repeat (1 / INR k) k)).
  { destruct (Rlt_dec 0 (sumf snd pc)) as [C|C].
    - assert (E : flt (Fin 0) (Fin (sumf snd pc)) = true) by (cbn; apply Rltb_true; exact C). rewrite E, map_map. apply map_ext. intros p. apply fdiv_fin. lra.
    - assert (E : flt (Fin 0) (Fin (sumf snd pc)) = false) by (cbn; apply Rltb_false; lra). rewrite E. symmetry. apply repeat_fin. }
  rewrite EW. apply gsdid_fin; auto.
  - intros t a Ht Ha. apply in_map_iff in Ha. destruct Ha as (p & <- & Hi). apply HY; auto. eapply firstn_In; eauto.
  - intros t Ht. unfold gmean. apply fmean_map_fin.
    + unfold pt. intros E. apply map_eq_nil in E. apply (f_equal (@length _)) in E. rewrite skipn_length in E. cbn in E. lia.
    + intros a Ha. apply in_map_iff in Ha. destruct Ha as (p & <- & Hi). apply HY; auto. eapply skipn_In; eauto.
Qed.

Definition fin_inf (i : sdid_inf) : gap_inf :=
  {| g_t := Fin (s_t i); g_p := Fin (s_p i); g_ci := (Fin (fst (s_ci i)), Fin (snd (s_ci i))) |}.
Lemma ginf_fin sf z att se alpha eff : gap_inference sf z (Fin att) (Fin se) alpha (map Fin eff) = fin_inf (sdid_inference sf z att se alpha eff).
Proof.
  unfold gap_inference, sdid_inference, fin_inf. destruct (Rlt_dec 0 se) as [C|C].
  - assert (E : flt (Fin 0) (Fin se) = true) by (cbn; apply Rltb_true; exact C). rewrite E. cbn [s_t s_p s_ci fst snd].
    rewrite fdiv_fin by lra. f_equal. destruct eff as [|e eff]; [reflexivity|].
    cbn [map]. change (Fin e :: map Fin eff) with (map Fin (e :: eff)). rewrite len_map. f_equal. f_equal.
    unfold share, meanf. rewrite sumf_map, len_map. reflexivity.
  - assert (E : flt (Fin 0) (Fin se) = false) by (cbn; apply Rltb_false; lra). rewrite E. reflexivity.
Qed.

Definition fin_result (alpha : R) (r : sd_result) : gap_result :=
  {| gr_att := Fin (sr_att r); gr_se := Fin (sr_se r); gr_inf := fin_inf (sr_inf r);
     gr_n_obs := sr_n_obs r; gr_n_treated := sr_n_treated r; gr_n_control := sr_n_control r;
     gr_unit_w := map (fun p => (fst p, Fin (snd p))) (sr_unit_w r); gr_time_w := map (fun p => (fst p, Fin (snd p))) (sr_time_w r);
     gr_pre := sr_pre r; gr_post := sr_post r; gr_method := sr_method r;
     gr_rmse := Fin (sr_rmse r); gr_draws := option_map (map Fin) (sr_draws r); gr_nboot := sr_nboot r; gr_alpha := alpha |}.
Definition rmap {A B} (f : A -> B) (r : res A) : res B := match r with Ok x => Ok (f x) | Err e => Err e end.

Lemma combine_fin {A} (l : list A) w : combine l (map Fin w) = map (fun p => (fst p, Fin (snd p))) (combine l w).
Proof. revert w. induction l as [|a l IH]; intros [|x w]; cbn; try reflexivity. f_equal. apply IH. Qed.
Lemma wdot_lc (Y : Z -> Z -> R) ctrl omega s : wdot omega (fun j => Y s j) ctrl = lc (map (fun j s0 => Y s0 j) ctrl) omega s.
Proof. unfold wdot. revert omega. induction ctrl as [|a l IH]; intros [|x w]; cbn; try reflexivity. f_equal. apply IH. Qed.

Section Complete.
Variable backend : list Z -> list (Z -> R) -> (Z -> R) -> R -> list R.
Variable b : gbackend.
Variable fsort : list fl -> list fl.
Variable iter : nat.
Variable gnrm : list Z -> list (Z -> fl) -> R -> fl.
Variables (sf z : R -> R).
Hypothesis Hbe : be_simplex backend.
Hypothesis Hloc : be_local backend.

Lemma gap_omega_fin cfg Y Y0 pre tr ctrl : tr <> [] -> ctrl <> [] -> (forall t a, In t pre -> In a (tr ++ ctrl) -> Y t a = Fin (Y0 t a)) ->
  gap_omega backend b fsort iter gnrm cfg Y pre tr ctrl = Ok (map Fin (sd_omega backend cfg Y0 pre tr ctrl)).
Proof.
  intros Htr Hc HY.
  rewrite (gap_omega_ext backend b fsort iter gnrm Hloc cfg Y (fun t a => Fin (Y0 t a)) pre tr ctrl Htr) by (intros t a Ht Ha; rewrite HY by auto; auto).
  unfold gap_omega, gap_weights, sd_omega, synthetic_weights. destruct ctrl as [|j0 [|j1 js]]; [congruence|reflexivity|]. set (cs := j0 :: j1 :: js).
  assert (F : forallb (fun c => all_finite c pre) (map (fun j t => Fin (Y0 t j)) cs) && all_finite (gmean (fun t a => Fin (Y0 t a)) tr) pre = true).
  { apply Bool.andb_true_iff. split.
    - apply forallb_forall. intros c Hi. apply in_map_iff in Hi. destruct Hi as (j & <- & Hj). apply forallb_forall. reflexivity.
    - apply forallb_forall. intros t Ht. unfold gmean. apply fmean_finite; [exact Htr|]. reflexivity. }
  assert (B : backend pre (map (fun (c : Z -> fl) t => unfin (c t)) (map (fun j t => Fin (Y0 t j)) cs)) (fun t => unfin (gmean (fun t a => Fin (Y0 t a)) tr t)) (sd_lambda cfg)
            = backend pre (map (fun j t => Y0 t j) cs) (fun t => meanf (Y0 t) tr) (sd_lambda cfg)).
  { apply Hloc.
    - intros t Ht. unfold gmean. rewrite (fmean_map_fin _ (Y0 t) tr Htr) by reflexivity. reflexivity.
    - rewrite map_map. cbn [unfin]. clear. induction cs; constructor; auto.
    - discriminate. }
  subst cs. cbn [map length] in *. rewrite F, B. reflexivity.
Qed.

Lemma gap_tw_fin cfg Y Y0 pre tr ctrl : 0 <= sd_zeta cfg -> tr <> [] -> ctrl <> [] -> (forall t a, In t pre -> In a (tr ++ ctrl) -> Y t a = Fin (Y0 t a)) ->
  gap_tw cfg Y pre tr ctrl = map Fin (sd_tw cfg Y0 pre tr ctrl).
Proof.
  intros Hz Htr Hc HY. unfold gap_tw, sd_tw. apply gtw_fin; auto.
  - intros t a Ht Ha. apply HY; auto. apply in_app_iff; auto.
  - intros t Ht. unfold gmean. apply fmean_map_fin; auto. intros a Ha. apply HY; auto. apply in_app_iff; auto.
Qed.

Lemma gap_point_fin cfg Y Y0 pre pst tr ctrl : 0 <= sd_zeta cfg -> pst <> [] -> tr <> [] -> ctrl <> [] ->
  (forall t a, In t (pre ++ pst) -> In a (tr ++ ctrl) -> Y t a = Fin (Y0 t a)) ->
  gap_point backend b fsort iter gnrm cfg Y pre pst tr ctrl = Ok (Fin (sd_point backend cfg Y0 pre pst tr ctrl)).
Proof.
  intros Hz Hp Htr Hc HY. unfold gap_point. assert (HYp : forall t a, In t pre -> In a (tr ++ ctrl) -> Y t a = Fin (Y0 t a)) by (intros; apply HY; auto; apply in_app_iff; auto).
  rewrite (gap_omega_fin cfg Y Y0) by auto. cbn [bind]. rewrite (gap_tw_fin cfg Y Y0) by auto. f_equal. unfold sd_point. apply gsdid_fin; auto.
  - intros t a Ht Ha. apply HY; auto. apply in_app_iff; auto.
  - intros t Ht. unfold gmean. apply fmean_map_fin; auto. intros a Ha. apply HY; auto. apply in_app_iff; auto.
Qed.

Theorem gap_finish_complete cfg Y Y0 pre pst tr ctrl nobs draws perms : 0 <= sd_zeta cfg -> pre <> [] -> pst <> [] -> tr <> [] -> ctrl <> [] ->
  (forall p, In p perms -> Permutation p (seq 0 (length ctrl))) ->
  (forall t a, In t (pre ++ pst) -> In a (tr ++ ctrl) -> Y t a = Fin (Y0 t a)) ->
  gap_finish backend b fsort iter gnrm sf z cfg Y pre pst tr ctrl nobs draws perms =
  rmap (fin_result (sd_alpha cfg)) (sd_finish backend sf z cfg Y0 pre pst tr ctrl nobs draws perms).
Proof.
  intros Hz Hpre Hp Htr Hc Hpm HY. unfold gap_finish, sd_finish.
  assert (HYp : forall t a, In t pre -> In a (tr ++ ctrl) -> Y t a = Fin (Y0 t a)) by (intros; apply HY; auto; apply in_app_iff; auto).
  rewrite (gap_omega_fin cfg Y Y0) by auto. cbn [bind]. rewrite (gap_tw_fin cfg Y Y0) by auto. cbv zeta.
  set (omega := sd_omega backend cfg Y0 pre tr ctrl). set (lam := sd_tw cfg Y0 pre tr ctrl).
  assert (LO : length omega = length ctrl) by (apply (sd_omega_simplex backend Hbe cfg Y0 pre tr ctrl Hc)).
  assert (EM : forall t, In t (pre ++ pst) -> gmean Y tr t = Fin (meanf (Y0 t) tr)).
  { intros t Ht. unfold gmean. apply fmean_map_fin; auto. intros a Ha. apply HY; auto. apply in_app_iff; auto. }
  assert (EA : gap_sdid Y pre pst ctrl (gmean Y tr) (map Fin omega) (map Fin lam) = Fin (sd_point backend cfg Y0 pre pst tr ctrl)).
  { unfold sd_point. apply gsdid_fin; auto. intros t a Ht Ha. apply HY; auto. apply in_app_iff; auto. }
  rewrite EA.
  assert (ER : fsqrt (fmean (map (fun s => fmul (fsub (gmean Y tr s) (gdot (map Fin omega) (fun j => Y s j) ctrl)) (fsub (gmean Y tr s) (gdot (map Fin omega) (fun j => Y s j) ctrl))) pre))
    = Fin (sqrt (meanf (fun s => (meanf (Y0 s) tr - lc (map (fun j s0 => Y0 s0 j) ctrl) omega s) * (meanf (Y0 s) tr - lc (map (fun j s0 => Y0 s0 j) ctrl) omega s)) pre))).
  { rewrite (fmean_map_fin _ (fun s => (meanf (Y0 s) tr - lc (map (fun j s0 => Y0 s0 j) ctrl) omega s) * (meanf (Y0 s) tr - lc (map (fun j s0 => Y0 s0 j) ctrl) omega s)) pre Hpre).
    - unfold fsqrt. destruct (Rlt_dec _ 0) as [C|C]; [|reflexivity]. exfalso.
      assert (0 <= meanf (fun s => (meanf (Y0 s) tr - lc (map (fun j s0 => Y0 s0 j) ctrl) omega s) * (meanf (Y0 s) tr - lc (map (fun j s0 => Y0 s0 j) ctrl) omega s)) pre); [|lra].
      unfold meanf at 1. apply Rmult_le_pos; [apply sumf_nonneg; intros; apply sq_nonneg|]. left. apply Rinv_0_lt_compat. apply len_pos. exact Hpre.
    - intros s Hs. rewrite EM by (apply in_app_iff; auto). rewrite (gdot_fin omega _ (fun j => Y0 s j) ctrl) by (intros; apply HYp; auto; apply in_app_iff; auto).
      rewrite wdot_lc. reflexivity. }
  rewrite ER.
  assert (L1 : forall (x x' : R) l, INR 1 < len (x :: x' :: l)).
  { intros. unfold len. apply lt_INR. cbn. lia. }
  destruct (String.eqb (sd_method cfg) "bootstrap").
  - assert (EB : somes (map (gap_boot_one backend b fsort iter gnrm cfg Y pre pst tr ctrl) draws) = map Fin (somes (map (sd_boot_one backend cfg Y0 pre pst tr ctrl) draws))).
    { clear Hpm. induction draws as [|D l IH]; [reflexivity|]. unfold somes in *. cbn [map flat_map]. rewrite IH, map_app. f_equal.
      unfold gap_boot_one, sd_boot_one.
      assert (I1 : forall x, In x (filter (fun a => zmem a tr) D) -> In x tr) by (intros x Hx; apply filter_In in Hx; apply zmem_In; tauto).
      assert (I2 : forall x, In x (filter (fun a => zmem a ctrl) D) -> In x ctrl) by (intros x Hx; apply filter_In in Hx; apply zmem_In; tauto).
      destruct (filter (fun a => zmem a tr) D) as [|x bt]; [reflexivity|]. destruct (filter (fun a => zmem a ctrl) D) as [|x' bc]; [reflexivity|].
      rewrite (gap_point_fin cfg Y Y0); auto; try discriminate.
      intros t a Ht Ha. apply HY; auto. apply in_app_iff in Ha. apply in_app_iff. destruct Ha; auto. }
    rewrite EB. unfold gap_boot_se, bootstrap_se. destruct (Nat.eqb _ 0); [reflexivity|].
    set (est := somes (map (sd_boot_one backend cfg Y0 pre pst tr ctrl) draws)). destruct est as [|x [|x' l]]; [reflexivity|..].
    + cbn [map bind rmap]. f_equal. unfold fin_result. cbn. change [Fin x] with (map Fin [x]). rewrite ginf_fin, !combine_fin. reflexivity.
    + cbn [map bind]. change (Fin x :: Fin x' :: map Fin l) with (map Fin (x :: x' :: l)). rewrite gstd_fin by (discriminate || apply L1).
      cbn [rmap]. f_equal. unfold fin_result. cbn [sr_att sr_se sr_inf sr_n_obs sr_n_treated sr_n_control sr_unit_w sr_time_w sr_pre sr_post sr_method sr_rmse sr_draws sr_nboot option_map].
      rewrite ginf_fin, !combine_fin. reflexivity.
  - cbn [bind]. unfold gap_placebo_se, placebo_se. destruct (Nat.leb (length ctrl) (length tr)) eqn:EL.
    + cbn [rmap]. f_equal. unfold fin_result. cbn. change (@nil fl) with (map Fin []) at 1. rewrite ginf_fin, !combine_fin. reflexivity.
    + apply Nat.leb_gt in EL.
      assert (EP : map (fun p => gap_placebo_one Y pre pst (map Fin lam) (length ctrl - length tr) (map (fun k => (nth k ctrl 0%Z, nth k (map Fin omega) (Fin 0))) p)) perms
        = map Fin (map (fun p => placebo_one Y0 pre pst lam (length ctrl - length tr) (map (fun k => (nth k ctrl 0%Z, nth k omega 0)) p)) perms)).
      { rewrite map_map. apply map_ext_in. intros p Hi. specialize (Hpm p Hi).
        assert (LP : length p = length ctrl) by (rewrite (Permutation_length Hpm); apply seq_length).
        assert (LT : (0 < length tr)%nat) by (destruct tr; [congruence|cbn; lia]).
        rewrite <- (gplacebo_fin Y Y0 pre pst lam (length ctrl - length tr)).
        - f_equal. rewrite map_map. apply map_ext. intros k. cbn [fst snd]. f_equal. rewrite <- (map_nth Fin). reflexivity.
        - exact Hp.
        - rewrite map_length, LP. lia.
        - intros t q Ht Hq. apply in_map_iff in Hq. destruct Hq as (k & <- & Hk). cbn [fst]. apply HY; auto. apply in_app_iff. right.
          apply nth_In. apply (Permutation_in _ Hpm), in_seq in Hk. lia. }
      rewrite EP. set (eff := map _ perms). destruct eff as [|x [|x' l]].
      * cbn [map rmap]. f_equal. unfold fin_result. cbn. change (@nil fl) with (map Fin []) at 1. rewrite ginf_fin, !combine_fin. reflexivity.
      * cbn [map rmap]. f_equal. unfold fin_result. cbn. change [Fin x] with (map Fin [x]). rewrite ginf_fin, !combine_fin. reflexivity.
      * cbn [map]. change (Fin x :: Fin x' :: map Fin l) with (map Fin (x :: x' :: l)). rewrite gstd_fin by (discriminate || apply L1).
        rewrite len_map. cbn [fmul rmap]. f_equal. unfold fin_result. cbn [sr_att sr_se sr_inf sr_n_obs sr_n_treated sr_n_control sr_unit_w sr_time_w sr_pre sr_post sr_method sr_rmse sr_draws sr_nboot option_map].
        rewrite ginf_fin, !combine_fin. reflexivity.
Qed.
End Complete.

(* ---- the fit on rows ---- *)
Section FitRows.
Variable backend : list Z -> list (Z -> R) -> (Z -> R) -> R -> list R.
Variable b : gbackend.
Variable fsort : list fl -> list fl.
Variable iter : nat.
Variable gnrm : list Z -> list (Z -> fl) -> R -> fl.
Variables (sf z : R -> R).
Hypothesis Hbe : be_simplex backend.
Context {I : Type}.
Variable qr : list I -> list (I -> R) -> list nat.
Variable lstsq : list I -> list (I -> R) -> (I -> R) -> list R.
Variable inv : list I -> list (I -> R) -> option (nat -> nat -> R).
Notation fit := (gap_fit backend b fsort iter gnrm qr lstsq inv sf z).

(* no usable outcome of unit a in period p *)
Definition hole (rows : list I) (u t : I -> Z) (y : I -> fl) (p a : Z) : Prop :=
  forall i, In i rows -> t i = p -> u i = a -> y i = NaN.

Lemma gap_fit_inv rows u t d cfg y covs post draws perms r : fit rows u t d cfg y covs post draws perms = Ok r ->
  exists pre pst w, sdid_periods zmem (sd_periods rows t) post = Ok (pre, pst) /\
  (forall i, In i rows -> y i = NaN -> w i = NaN) /\
  sd_treated rows u d <> [] /\ sd_control rows u d <> [] /\ (forall a, In a (sd_units rows u) -> In a (sd_treated rows u d ++ sd_control rows u d)) /\
  gap_finish backend b fsort iter gnrm sf z cfg (gap_cell rows u t w) pre pst (sd_treated rows u d) (sd_control rows u d) (length rows) draws perms = Ok r.
Proof.
  unfold gap_fit. destruct (forallb _ rows) eqn:EB; cbn [negb]; [|discriminate].
  destruct (sdid_periods zmem (sd_periods rows t) post) as [[pre pst]|e] eqn:EP; cbn [bind]; [|discriminate].
  destruct (sd_treated rows u d) as [|t0 tr] eqn:ET; [discriminate|]. destruct (sd_control rows u d) as [|c0 cr] eqn:EC; [discriminate|].
  rewrite <- ET, <- EC.
  assert (U : forall a, In a (sd_units rows u) -> In a (sd_treated rows u d ++ sd_control rows u d)).
  { intros a Ha. apply in_app_iff. assert (E : sd_first rows u d a = 0 \/ sd_first rows u d a = 1).
    { apply sd_units_In in Ha. destruct Ha as (i & Hi & Ei). unfold sd_first.
      assert (M : In i (filter (fun j => Z.eqb (u j) a) rows)) by (apply filter_In; split; [auto|apply Z.eqb_eq; auto]).
      destruct (filter (fun j => Z.eqb (u j) a) rows) as [|j l] eqn:EF; [contradiction|].
      assert (Hj : In j rows). { assert (K : In j (filter (fun j => Z.eqb (u j) a) rows)) by (rewrite EF; left; reflexivity). apply filter_In in K. tauto. }
      rewrite forallb_forall in EB. specialize (EB j Hj). apply Bool.orb_true_iff in EB. destruct EB as [EB|EB]; apply Reqb_true in EB; auto. }
    unfold sd_treated, sd_control. destruct E as [E|E]; [right|left]; apply filter_In; (split; [exact Ha|]); rewrite E; apply Reqb_true; reflexivity. }
  destruct covs as [|c covs].
  - cbn [bind]. destruct (sd_dup rows u t); [discriminate|]. intros H. exists pre, pst, y. rewrite ET, EC in *. repeat split; auto; discriminate.
  - destruct (all_finite y rows) eqn:EF; [|discriminate].
    destruct (sd_residualize _ _ _ _ _ _ _ _) as [v|e]; cbn [bind]; [|discriminate]. destruct (sd_dup rows u t); [discriminate|].
    intros H. exists pre, pst, (fun i => Fin (v i)). rewrite ET, EC in *. repeat split; auto; try discriminate.
    intros i Hi Hy. unfold all_finite in EF. rewrite forallb_forall in EF. specialize (EF i Hi). rewrite Hy in EF. discriminate.
Qed.

Lemma gap_cell_hole rows u t y w p a : (forall i, In i rows -> y i = NaN -> w i = NaN) -> hole rows u t y p a -> gap_cell rows u t w p a = NaN.
Proof.
  intros Hw Hh. unfold gap_cell. destruct (sd_rows rows u t p a) as [|i l] eqn:E; [reflexivity|].
  assert (M : In i (sd_rows rows u t p a)) by (rewrite E; left; reflexivity). apply filter_In in M. destruct M as [M1 M2].
  apply Bool.andb_true_iff in M2. destruct M2 as [M2 M3]. apply Z.eqb_eq in M2, M3. apply Hw; auto.
Qed.

(* one unit without a usable outcome in one period: nothing is estimated, yet a result is reported *)
Theorem gap_fit_undefined rows u t d cfg y covs post draws perms r p a : fit rows u t d cfg y covs post draws perms = Ok r ->
  In p (map t rows) -> In a (map u rows) -> hole rows u t y p a ->
  gr_att r = NaN /\ g_ci (gr_inf r) = (NaN, NaN) /\
  (if flt (Fin 0) (gr_se r)
   then exists eff, gr_draws r = Some eff /\ (2 <= length eff)%nat /\ g_t (gr_inf r) = NaN /\ g_p (gr_inf r) = Fin (1 / (len eff + 1))
   else g_t (gr_inf r) = Fin 0 /\ g_p (gr_inf r) = Fin 1).
Proof.
  intros H Hp Ha Hh. destruct (gap_fit_inv _ _ _ _ _ _ _ _ _ _ _ H) as (pre & pst & w & EP & Hw & _ & _ & HU & HF).
  apply sd_periods_in in EP. destruct EP as (_ & _ & EP & _).
  apply (gap_finish_gap backend b fsort iter gnrm sf z Hbe cfg _ pre pst _ _ _ draws perms r p a HF).
  - apply EP. apply in_map_iff in Hp. destruct Hp as (i & <- & Hi). unfold sd_periods. apply (sd_units_In rows t). eauto.
  - apply HU. apply in_map_iff in Ha. destruct Ha as (i & <- & Hi). apply sd_units_In. eauto.
  - apply (gap_cell_hole _ _ _ y); auto.
Qed.

Theorem gap_fit_pre rows u t d cfg y covs post draws perms r p a : fit rows u t d cfg y covs post draws perms = Ok r ->
  sd_method cfg = "placebo"%string -> (2 <= length (gr_pre r))%nat ->
  In p (gr_pre r) -> In a (map u rows) -> hole rows u t y p a ->
  (forall q x, In (q, x) (gr_time_w r) -> x = NaN) /\ (gr_se r = NaN \/ gr_se r = Fin 0) /\
  g_t (gr_inf r) = Fin 0 /\ g_p (gr_inf r) = Fin 1.
Proof.
  intros H Hm HL Hp Ha Hh. destruct (gap_fit_inv _ _ _ _ _ _ _ _ _ _ _ H) as (pre & pst & w & EP & Hw & _ & _ & HU & HF).
  assert (E : gr_pre r = pre) by (destruct (gap_finish_inv _ _ _ _ _ _ _ _ _ _ _ _ _ _ _ _ _ HF) as (? & ? & ? & K); tauto).
  rewrite E in *.
  apply (gap_finish_pre backend b fsort iter gnrm sf z Hbe cfg _ pre pst _ _ _ draws perms r p a HF); auto.
  - apply HU. apply in_map_iff in Ha. destruct Ha as (i & <- & Hi). apply sd_units_In. eauto.
  - apply (gap_cell_hole _ _ _ y); auto.
Qed.

Theorem gap_fit_boot rows u t d cfg y covs post draws perms r p a eff D : fit rows u t d cfg y covs post draws perms = Ok r ->
  sd_method cfg = "bootstrap"%string -> b <> BNumpy true ->
  In p (map t rows) -> In a (map u rows) -> hole rows u t y p a ->
  In D draws -> In a D -> (exists c, In c D /\ In c (sd_treated rows u d)) -> (exists c, In c D /\ In c (sd_control rows u d)) ->
  gr_draws r = Some eff -> (2 <= length eff)%nat ->
  gr_se r = NaN /\ g_t (gr_inf r) = Fin 0 /\ g_p (gr_inf r) = Fin 1.
Proof.
  intros H Hm Hb Hp Ha Hh HD HaD HT HC HE HL. destruct (gap_fit_inv _ _ _ _ _ _ _ _ _ _ _ H) as (pre & pst & w & EP & Hw & _ & _ & HU & HF).
  apply sd_periods_in in EP. destruct EP as (_ & _ & EP & _).
  apply (gap_finish_boot backend b fsort iter gnrm sf z Hbe cfg _ pre pst _ _ _ draws perms r eff p a D HF); auto.
  - apply EP. apply in_map_iff in Hp. destruct Hp as (i & <- & Hi). unfold sd_periods. apply (sd_units_In rows t). eauto.
  - apply HU. apply in_map_iff in Ha. destruct Ha as (i & <- & Hi). apply sd_units_In. eauto.
  - apply (gap_cell_hole _ _ _ y); auto.
Qed.

(* complete panels: the fit is the one of Sdid_model *)
Theorem gap_fit_complete rows u t d cfg (y : I -> R) covs post draws perms : be_local backend -> 0 <= sd_zeta cfg -> sd_complete rows u t ->
  (forall p, In p perms -> Permutation p (seq 0 (length (sd_control rows u d)))) ->
  fit rows u t d cfg (fun i => Fin (y i)) covs post draws perms =
  rmap (fin_result (sd_alpha cfg)) (sd_fit backend qr lstsq inv sf z rows u t d cfg y covs post draws perms).
Proof.
  intros Hloc Hz Hc Hp. unfold gap_fit, sd_fit. destruct (forallb _ rows); cbn [negb]; [|reflexivity].
  destruct (sdid_periods zmem (sd_periods rows t) post) as [[pre pst]|e] eqn:EP; cbn [bind]; [|reflexivity].
  destruct (sd_treated rows u d) as [|t0 tr] eqn:ET; [reflexivity|]. destruct (sd_control rows u d) as [|c0 cr] eqn:EC; [reflexivity|].
  rewrite <- EC in Hp.
  assert (F : all_finite (fun i => Fin (y i)) rows = true) by (apply forallb_forall; reflexivity).
  assert (G : forall v, (if sd_dup rows u t then Err ValueError else
      gap_finish backend b fsort iter gnrm sf z cfg (gap_cell rows u t (fun i => Fin (v i))) pre pst (t0 :: tr) (c0 :: cr) (length rows) draws perms)
    = rmap (fin_result (sd_alpha cfg)) (if sd_dup rows u t then Err ValueError else
      sd_finish backend sf z cfg (sd_cell rows u t v) pre pst (t0 :: tr) (c0 :: cr) (length rows) draws perms)).
  { intros v. destruct (sd_dup rows u t) eqn:ED; [reflexivity|]. apply sd_periods_in in EP. destruct EP as (P1 & P2 & P3 & _).
    apply gap_finish_complete; auto; try discriminate.
    - rewrite <- EC. exact Hp.
    - intros p a Ht Ha. apply P3 in Ht. rewrite <- ET, <- EC in Ha. apply sd_groups_units in Ha.
      destruct (sd_cell_at rows u t p a Hc Ht Ha) as (i & Hi & E1 & E2). unfold gap_cell, sd_cell.
      assert (M : In i (sd_rows rows u t p a)) by (apply filter_In; split; [auto|]; rewrite E1, E2, !Z.eqb_refl; reflexivity).
      destruct (sd_rows rows u t p a); [contradiction|reflexivity]. }
  destruct covs as [|c covs].
  - cbn [bind]. apply G.
  - rewrite F. cbn [unfin]. change (fun i : I => y i) with y.
    destruct (sd_residualize qr lstsq inv rows u t y (c :: covs)) as [v|e]; cbn [bind]; [apply G|reflexivity].
Qed.
End FitRows.

(* ---- one treated unit loses its last period; placebo variance with 20 replications ---- *)
Definition gap_rows : list (Z * Z) := [(1, 0); (1, 1); (1, 2); (2, 0); (2, 1); (2, 2); (3, 0); (3, 1)]%Z.
Definition gap_d (i : Z * Z) : R := ind (Z.eqb (fst i) 3).
Definition gap_y (i : Z * Z) : fl := Fin (ind (Z.eqb (fst i) 2 && Z.ltb 0 (snd i))).
Definition gap_cfg (n : nat) : sd_config := {| sd_lambda := 0; sd_zeta := 1; sd_alpha := 5 / 100; sd_method := "placebo"; sd_nboot := n |}.
Definition gap_perms : list (list nat) := concat (repeat [[0; 1]; [1; 0]]%nat 10).

Lemma gReqb01 : Reqb 0 1 = false. Proof. apply Reqb_false. lra. Qed.
Lemma gReqb10 : Reqb 1 0 = false. Proof. apply Reqb_false. lra. Qed.
Lemma gReqb00 : Reqb 0 0 = true. Proof. apply Reqb_true. reflexivity. Qed.
Lemma gReqb11 : Reqb 1 1 = true. Proof. apply Reqb_true. reflexivity. Qed.
Lemma gap_rows_units : sd_units gap_rows fst = [1; 2; 3]%Z. Proof. vm_compute. reflexivity. Qed.
Lemma gap_rows_periods : sd_periods gap_rows snd = [0; 1; 2]%Z. Proof. vm_compute. reflexivity. Qed.
Lemma gap_rows_treated : sd_treated gap_rows fst gap_d = [3%Z].
Proof. unfold sd_treated. rewrite gap_rows_units. unfold sd_first, gap_d, gap_rows, ind. cbn. rewrite gReqb01, gReqb11. reflexivity. Qed.
Lemma gap_rows_control : sd_control gap_rows fst gap_d = [1%Z; 2%Z].
Proof. unfold sd_control. rewrite gap_rows_units. unfold sd_first, gap_d, gap_rows, ind. cbn. rewrite gReqb00, gReqb10. reflexivity. Qed.
Lemma gap_rows_dup : sd_dup gap_rows fst snd = false. Proof. vm_compute. reflexivity. Qed.
Lemma gap_rows_hole : hole gap_rows fst snd gap_y 2 3.
Proof. intros i Hi E1 E2. cbn in Hi. repeat (destruct Hi as [<-|Hi]; [cbn in E1, E2; discriminate|]). contradiction. Qed.

Section Case.
Variable backend : list Z -> list (Z -> R) -> (Z -> R) -> R -> list R.
Variable b : gbackend.
Variable fsort : list fl -> list fl.
Variable iter : nat.
Variable gnrm : list Z -> list (Z -> fl) -> R -> fl.
Variables (sf z : R -> R).
Hypothesis Hbe : be_simplex backend.
Variable qr : list (Z * Z) -> list (Z * Z -> R) -> list nat.
Variable lstsq : list (Z * Z) -> list (Z * Z -> R) -> (Z * Z -> R) -> list R.
Variable inv : list (Z * Z) -> list (Z * Z -> R) -> option (nat -> nat -> R).

Lemma gap_case_tau (w1 w2 : R) k : (k = 0 \/ k = 1)%nat ->
  gap_placebo_one (gap_cell gap_rows fst snd gap_y) [0%Z] [1%Z; 2%Z] [Fin 1] 1
    (map (fun j => (nth j [1%Z; 2%Z] 0%Z, nth j [Fin w1; Fin w2] (Fin 0))) (if Nat.eqb k 0 then [0; 1] else [1; 0])%nat)
  = Fin (if Nat.eqb k 0 then 1 else -1).
Proof.
  set (Y0 := fun t a => ind (Z.eqb a 2 && Z.ltb 0 t)).
  assert (P : forall w, (if Rlt_dec 0 (w + 0) then [w / (w + 0)] else repeat (1 / INR 1) 1) = [1]).
  { intros w. destruct (Rlt_dec 0 (w + 0)); cbn; f_equal; field; lra. }
  intros Hk. transitivity (Fin (placebo_one Y0 [0%Z] [1%Z; 2%Z] [1] 1 (if Nat.eqb k 0 then [(1%Z, w1); (2%Z, w2)] else [(2%Z, w2); (1%Z, w1)]))).
  - rewrite <- (gplacebo_fin (gap_cell gap_rows fst snd gap_y)).
    + destruct Hk as [-> | ->]; reflexivity.
    + discriminate.
    + destruct Hk as [-> | ->]; cbn; lia.
    + intros t p Ht Hp. assert (E : fst p = 1%Z \/ fst p = 2%Z).
      { destruct Hk as [-> | ->]; cbn in Hp; destruct Hp as [<-|[<-|[]]]; auto. }
      cbn in Ht. destruct Ht as [<-|[<-|[<-|[]]]]; destruct E as [-> | ->]; reflexivity.
  - f_equal. destruct Hk as [-> | ->]; cbn [Nat.eqb]; unfold placebo_one; cbn [firstn skipn map fst snd sumf]; rewrite P;
      unfold sdid, wdot, meanf, len, Y0; cbn; field.
Qed.

Lemma gap_case_omega cfg : exists w1 w2,
  gap_omega backend b fsort iter gnrm cfg (gap_cell gap_rows fst snd gap_y) [0%Z] [3%Z] [1%Z; 2%Z] = Ok [Fin w1; Fin w2].
Proof.
  set (Y := gap_cell gap_rows fst snd gap_y). unfold gap_omega, gap_weights. set (cs := map _ [1%Z; 2%Z]).
  assert (F : forallb (fun c => all_finite c [0%Z]) cs && all_finite (gmean Y [3%Z]) [0%Z] = true).
  { apply Bool.andb_true_iff. split; [reflexivity|]. unfold all_finite, gmean. cbn [forallb]. rewrite fmean_finite; [reflexivity|discriminate|].
    intros a [<-|[]]. reflexivity. }
  assert (L := Hbe [0%Z] (map (fun c t => unfin (c t)) cs) (fun t => unfin (gmean Y [3%Z] t)) (sd_lambda cfg) min_weight ltac:(discriminate)).
  destruct L as [_ L]. change (length (map (fun (c : Z -> fl) t => unfin (c t)) cs)) with 2%nat in L. cbn [synthetic_weights] in L.
  set (fw := finish_weights _ _) in L. destruct fw as [|w1 [|w2 [|? ?]]] eqn:EW; try discriminate. exists w1, w2.
  subst fw. unfold cs in *. cbn [map] in *. rewrite F, EW. reflexivity.
Qed.

Lemma gap_case_std : exists s, 0 < s /\ fmul (Fin (sqrt ((20 - 1) / 20))) (gstd 1 (map Fin (concat (repeat [1; -1] 10)))) = Fin s.
Proof.
  set (l := concat (repeat [1; -1] 10)). assert (HL : len l = 20) by (unfold len, l; cbn [repeat concat app length]; rewrite INR_IZR_INZ; reflexivity).
  rewrite gstd_fin; [|discriminate|rewrite HL; cbn; lra]. exists (sqrt ((20 - 1) / 20) * std 1 l). split; [|reflexivity].
  apply Rmult_lt_0_compat; [apply sqrt_lt_R0; lra|]. unfold std, variance. apply sqrt_lt_R0. rewrite HL.
  assert (S : sumsq_dev l = 20). { assert (M : meanf idR l = 0) by (unfold meanf; rewrite HL; unfold l, idR; cbn; lra). unfold sumsq_dev. rewrite M. unfold l. cbn. lra. }
  rewrite S. cbn. lra.
Qed.

Theorem gap_case_fit n draws : exists r,
  gap_fit backend b fsort iter gnrm qr lstsq inv sf z gap_rows fst snd gap_d (gap_cfg n) gap_y [] (Some [1; 2]%Z) draws gap_perms = Ok r /\
  gr_att r = NaN /\ g_t (gr_inf r) = NaN /\ g_ci (gr_inf r) = (NaN, NaN) /\ g_p (gr_inf r) = Fin (1 / 21) /\ gap_significant r = true.
Proof.
  unfold gap_fit.
  assert (EB : forallb (fun i => Reqb (gap_d i) 0 || Reqb (gap_d i) 1) gap_rows = true).
  { apply forallb_forall. intros i _. unfold gap_d, ind. destruct (Z.eqb (fst i) 3); [rewrite gReqb11; apply Bool.orb_true_r|rewrite gReqb00; reflexivity]. }
  rewrite EB, gap_rows_periods, gap_rows_treated, gap_rows_control, gap_rows_dup. cbn [negb].
  replace (sdid_periods zmem [0; 1; 2]%Z (Some [1; 2]%Z)) with (Ok ([0%Z], [1%Z; 2%Z])) by reflexivity. cbn [bind].
  assert (EO := gap_case_omega (gap_cfg n)). destruct EO as (w1 & w2 & EO).
  assert (HN : gap_cell gap_rows fst snd gap_y 2 3 = NaN) by reflexivity.
  assert (T0 := gap_case_tau w1 w2 0 ltac:(auto)). assert (T1 := gap_case_tau w1 w2 1 ltac:(auto)). cbn [Nat.eqb] in T0, T1.
  set (Y := gap_cell gap_rows fst snd gap_y) in *. clearbody Y.
  assert (EEff : map (fun p => gap_placebo_one Y [0%Z] [1%Z; 2%Z] (gap_tw (gap_cfg n) Y [0%Z] [3%Z] [1%Z; 2%Z]) (length [1%Z; 2%Z] - length [3%Z])
                  (map (fun k => (nth k [1%Z; 2%Z] 0%Z, nth k [Fin w1; Fin w2] (Fin 0))) p)) gap_perms = map Fin (concat (repeat [1; -1] 10))).
  { unfold gap_perms. change (gap_tw (gap_cfg n) Y [0%Z] [3%Z] [1%Z; 2%Z]) with [Fin 1]. change (length [1%Z; 2%Z] - length [3%Z])%nat with 1%nat.
    clear EB. set (f := fun p : list nat => _). set (v0 := [0; 1]%nat) in *. set (v1 := [1; 0]%nat) in *.
    assert (F0 : f v0 = Fin 1) by exact T0. assert (F1 : f v1 = Fin (-1)) by exact T1. clearbody f v0 v1.
    cbn [repeat concat app map]. rewrite F0, F1. reflexivity. }
  set (r := gap_finish _ _ _ _ _ _ _ _ _ _ _ _ _ _ _ _).
  assert (ER : exists r0, r = Ok r0 /\ gr_se r0 = fmul (Fin (sqrt ((20 - 1) / 20))) (gstd 1 (map Fin (concat (repeat [1; -1] 10)))) /\
      gr_draws r0 = Some (map Fin (concat (repeat [1; -1] 10))) /\ gr_alpha r0 = 5 / 100).
  { unfold r, gap_finish. rewrite EO. cbn [bind]. change (String.eqb (sd_method (gap_cfg n)) "bootstrap") with false. cbn iota. rewrite EEff.
    eexists. split; [cbn [bind]; unfold gap_placebo_se; cbn [length Nat.leb]; reflexivity|]. cbn [gr_se gr_draws gr_alpha].
    split; [|split; reflexivity]. f_equal. f_equal. f_equal. unfold len. rewrite map_length. cbn [repeat concat app length]. rewrite INR_IZR_INZ. reflexivity. }
  destruct ER as (r0 & ER & ES & ED & EAl). exists r0. split; [exact ER|].
  destruct (gap_finish_gap backend b fsort iter gnrm sf z Hbe (gap_cfg n) Y [0%Z] [1%Z; 2%Z] [3%Z] [1%Z; 2%Z] (length gap_rows) draws gap_perms r0 2%Z 3%Z ER ltac:(cbn; tauto) ltac:(cbn; tauto) HN) as (A & C & K).
  destruct gap_case_std as (s & Hs & Es). rewrite ES, Es in K. assert (E : flt (Fin 0) (Fin s) = true) by (apply flt_fin; exact Hs). rewrite E in K.
  destruct K as (eff & De & _ & Kt & Kp). rewrite ED in De. assert (eff = map Fin (concat (repeat [1; -1] 10))) as -> by congruence.
  assert (HL : len (map Fin (concat (repeat [1; -1] 10))) = 20) by (unfold len; rewrite map_length; cbn [repeat concat app length]; rewrite INR_IZR_INZ; reflexivity).
  rewrite HL in Kp. replace (20 + 1) with 21 in Kp by ring.
  split; [exact A|]. split; [exact Kt|]. split; [exact C|]. split; [exact Kp|].
  unfold gap_significant. rewrite Kp, EAl. apply flt_fin. lra.
Qed.
End Case.

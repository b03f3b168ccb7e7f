(* SyntheticDiD.fit: exact data, order of the rows, covariates *)
From Verif Require Import Prelude Flt Stats_model Stats_proofs Linalg_model Linalg_proofs Linalg_vcov Linalg_thms Did_model Multi_model Multi_proofs Staggered_model Synth_model Synth_proofs Synth_more Sdid_model Sdid_proofs Sdid_thms Trop_rows.
From Coq Require Import Arith ZArith String List Permutation FunctionalExtensionality.
Import ListNotations.
Open Scope R_scope.

Lemma q_cell_ext {I} (rows : list I) (u t : I -> Z) (y y' : I -> R) : (forall i, In i rows -> y' i = y i) -> sd_cell rows u t y' = sd_cell rows u t y.
Proof.
  intros Hy. apply functional_extensionality. intros p. apply functional_extensionality. intros a. unfold sd_cell.
  destruct (sd_rows rows u t p a) as [|i l] eqn:E; [reflexivity|]. apply Hy.
  assert (K : In i (sd_rows rows u t p a)) by (rewrite E; cbn; auto). apply filter_In in K. tauto.
Qed.

Section Exact.
Variable backend : list Z -> list (Z -> R) -> (Z -> R) -> R -> list R.
Hypothesis Hbe : be_simplex backend.
Variables (cfg : sd_config) (Y : Z -> Z -> R) (pre post trs ctrls : list Z) (a b tau : Z -> R).
Hypothesis Hz : 0 <= sd_zeta cfg.
Hypothesis Hpre : pre <> [].
Hypothesis Hpost : post <> [].
Hypothesis Hdisj : forall p, In p pre -> ~ In p post.
Hypothesis HC : forall t j, In t (pre ++ post) -> In j ctrls -> Y t j = a j + b t.
Hypothesis HT0 : forall t j, In t pre -> In j trs -> Y t j = a j + b t.
Hypothesis HT1 : forall t j, In t post -> In j trs -> Y t j = a j + b t + tau t.

Lemma sd_point_exact tr ctrl : tr <> [] -> ctrl <> [] -> incl tr trs -> incl ctrl ctrls ->
  sd_point backend cfg Y pre post tr ctrl = meanf tau post.
Proof.
  intros Ht Hc It Ic. unfold sd_point.
  destruct (sd_omega_simplex backend Hbe cfg Y pre tr ctrl Hc) as [[_ So] Lo].
  destruct (sd_tw_simplex cfg Y pre tr ctrl Hpre Hz) as [[_ Sl] Ll].
  apply (sdid_exact pre post ctrl _ _ Lo Ll So Sl Hpost Y _ a (meanf a tr) b tau).
  - intros; apply HC; auto.
  - intros t Hp. apply meanf_shift; auto.
  - intros t Hp. rewrite (meanf_shift a (Y t) (b t + tau t) tr Ht); [ring|]. intros j Hj. rewrite HT1 by auto. ring.
Qed.

Lemma somes_const {A} (f : A -> option R) c l : (forall x v, f x = Some v -> v = c) -> forall v, In v (somes (map f l)) -> v = c.
Proof.
  intros H v Hv. unfold somes in Hv. apply in_flat_map in Hv as (o & Ho & Hv). apply in_map_iff in Ho as (x & <- & _).
  destruct (f x) as [w|] eqn:E; [|easy]. destruct Hv as [<-|[]]. eauto.
Qed.

Lemma std_const l c : (2 <= length l)%nat -> (forall x, In x l -> x = c) -> std 1 l = 0.
Proof.
  intros Hl H. assert (L : 2 <= len l) by (unfold len; replace 2 with (INR 2) by (simpl; lra); apply le_INR; auto).
  apply std_zero_iff; [simpl; lra|]. intros x Hx.
  assert (M : meanf idR l = c). { rewrite (meanf_ext _ (fun _ => c)) by (intros; unfold idR; auto). apply meanf_const. destruct l; [easy|discriminate]. }
  rewrite M. auto.
Qed.

Theorem sd_finish_exact sf z nobs draws perms r : trs <> [] -> ctrls <> [] ->
  (forall p, In p perms -> Permutation p (seq 0 (length ctrls))) ->
  sd_finish backend sf z cfg Y pre post trs ctrls nobs draws perms = Ok r ->
  sr_att r = meanf tau post /\ sr_se r = 0 /\ s_t (sr_inf r) = 0 /\ s_p (sr_inf r) = 1 /\ s_ci (sr_inf r) = (meanf tau post, meanf tau post) /\ sr_post r = post.
Proof.
  intros Ht Hc Hperm F. unfold sd_finish in F.
  assert (EA := sd_point_exact trs ctrls Ht Hc (incl_refl _) (incl_refl _)). rewrite EA in F.
  destruct (sd_omega_simplex backend Hbe cfg Y pre trs ctrls Hc) as [[_ So] Lo].
  destruct (sd_tw_simplex cfg Y pre trs ctrls Hpre Hz) as [[_ Sl] Ll].
  set (omega := sd_omega backend cfg Y pre trs ctrls) in *. set (lam := sd_tw cfg Y pre trs ctrls) in *.
  match type of F with bind ?x _ = _ => destruct x as [[se eff]|e] eqn:ES; [|discriminate] end. cbn [bind] in F.
  assert (S0 : se = 0).
  { destruct (String.eqb (sd_method cfg) "bootstrap").
    - unfold bootstrap_se in ES. destruct (Nat.eqb (sd_nboot cfg) 0); [discriminate|].
      assert (K : forall v, In v (somes (map (sd_boot_one backend cfg Y pre post trs ctrls) draws)) -> v = meanf tau post).
      { apply somes_const. intros x v. unfold sd_boot_one.
        assert (Z1 : incl (filter (fun j => zmem j trs) x) trs) by (intros j Hj; apply filter_In in Hj as [_ Hj]; apply zmem_In; auto).
        assert (Z2 : incl (filter (fun j => zmem j ctrls) x) ctrls) by (intros j Hj; apply filter_In in Hj as [_ Hj]; apply zmem_In; auto).
        destruct (filter (fun j => zmem j trs) x) as [|x1 l1]; [discriminate|]. destruct (filter (fun j => zmem j ctrls) x) as [|x2 l2]; [discriminate|].
        intros E. injection E as <-. apply sd_point_exact; auto; discriminate. }
      destruct (somes (map (sd_boot_one backend cfg Y pre post trs ctrls) draws)) as [|e1 [|e2 l]] eqn:EE; [discriminate| |].
      + injection ES as <- _. reflexivity.
      + injection ES as <- _. apply (std_const _ (meanf tau post)); [cbn; lia|auto].
    - injection ES as ES. unfold placebo_se in ES. destruct (Nat.leb (length ctrls) (length trs)) eqn:EL; [congruence|]. apply Nat.leb_gt in EL.
      assert (K : forall v, In v (map (fun p => placebo_one Y pre post lam (length ctrls - length trs) (map (fun k => (nth k ctrls 0%Z, nth k omega 0)) p)) perms) -> v = 0).
      { intros v Hv. apply in_map_iff in Hv as (p & <- & Hp). specialize (Hperm p Hp). assert (Hlen := Permutation_length Hperm). rewrite seq_length in Hlen.
        assert (0 < length trs)%nat by (destruct trs; cbn; [congruence|lia]).
        apply (placebo_zero Y pre post lam _ _ a b); auto; [rewrite map_length; lia|].
        intros t j Hs Hj. apply HC; auto. rewrite map_map in Hj. apply in_map_iff in Hj as (k & <- & Hk). cbn [fst].
        apply nth_In. apply (Permutation_in _ Hperm) in Hk. apply in_seq in Hk. lia. }
      destruct (map _ perms) as [|e1 [|e2 l]]; [congruence|congruence|].
      assert (ES' := f_equal fst ES). cbn [fst] in ES'. rewrite <- ES'. rewrite (std_const (e1 :: e2 :: l) 0); [ring|cbn; lia|auto]. }
  injection F as <-. cbn [sr_att sr_se sr_inf sr_post]. subst se. unfold sdid_inference.
  destruct (Rlt_dec 0 0) as [H0|H0]; [lra|]. cbn [s_t s_p s_ci]. rewrite Rmult_0_r, Rminus_0_r, Rplus_0_r. auto 7.
Qed.
End Exact.

Section Rows.
Variable backend : list Z -> list (Z -> R) -> (Z -> R) -> R -> list R.
Context {I : Type}.
Variable qr : list I -> list (I -> R) -> list nat.
Variable lstsq : list I -> list (I -> R) -> (I -> R) -> list R.
Variable inv : list I -> list (I -> R) -> option (nat -> nat -> R).
Variables (sf z : R -> R).
Notation fit := (sd_fit backend qr lstsq inv sf z).

Theorem sd_fit_exact (rows : list I) (u t : I -> Z) d cfg y post draws perms r (a b tau : Z -> R) :
  be_simplex backend -> 0 <= sd_zeta cfg -> sd_complete rows u t ->
  (forall p, In p perms -> Permutation p (seq 0 (length (sd_control rows u d)))) ->
  fit rows u t d cfg y [] post draws perms = Ok r ->
  (forall i, In i rows -> y i = a (u i) + b (t i) + (if zmem (u i) (sd_treated rows u d) && zmem (t i) (sr_post r) then tau (t i) else 0)) ->
  sr_att r = meanf tau (sr_post r) /\ sr_se r = 0 /\ s_t (sr_inf r) = 0 /\ s_p (sr_inf r) = 1 /\ s_ci (sr_inf r) = (sr_att r, sr_att r).
Proof.
  intros Hs Hz Hcm Hp H Hy. apply sd_fit_ok in H as (pre & pst & w & Hb & EP & Ht & Hc & Ew & ED & F). injection Ew as <-.
  destruct (sd_periods_in _ _ _ _ _ EP) as (Pn & Qn & Pi & Pd).
  assert (Er : sr_post r = pst).
  { unfold sd_finish in F. match type of F with bind ?x _ = _ => destruct x as [[se eff]|e]; [|discriminate] end. cbn [bind] in F. injection F as <-. reflexivity. }
  rewrite Er in *.
  assert (Dj : forall j, In j (sd_control rows u d) -> zmem j (sd_treated rows u d) = false).
  { intros j Hj. destruct (zmem j (sd_treated rows u d)) eqn:E; [|reflexivity]. apply zmem_In in E.
    apply filter_In in E as [_ E]. apply filter_In in Hj as [_ Hj]. apply Reqb_true in E, Hj. lra. }
  assert (C : forall p j, In p (pre ++ pst) -> In j (sd_treated rows u d ++ sd_control rows u d) ->
     sd_cell rows u t y p j = a j + b p + (if zmem j (sd_treated rows u d) && zmem p pst then tau p else 0)).
  { intros p j Hpp Hj. apply sd_groups_units in Hj. apply Pi in Hpp. destruct (sd_cell_at rows u t p j Hcm Hpp Hj) as (i & Hi & <- & <-).
    rewrite sd_cell_row by auto. apply Hy; auto. }
  assert (G := sd_finish_exact backend Hs cfg (sd_cell rows u t y) pre pst (sd_treated rows u d) (sd_control rows u d) a b tau Hz Pn Qn).
  assert (G' := fun H1 H2 H3 => G H1 H2 H3 sf z (length rows) draws perms r Ht Hc Hp F). clear G.
  destruct G' as (A & B & C1 & C2 & C3 & _).
  - intros p j Hpp Hj. rewrite C by (auto; apply in_or_app; auto). rewrite Dj by auto. cbn [andb]. ring.
  - intros p j Hpp Hj. rewrite C by (apply in_or_app; auto).
    replace (zmem p pst) with false; [rewrite Bool.andb_false_r; ring|]. symmetry. apply Bool.not_true_iff_false. intros E. apply zmem_In in E. exact (Pd p Hpp E).
  - intros p j Hpp Hj. rewrite C by (apply in_or_app; auto). rewrite (proj2 (zmem_In j _) Hj), (proj2 (zmem_In p _) Hpp). cbn [andb]. ring.
  - rewrite A. auto.
Qed.

(* ---- order of the rows ---- *)
Section Perm.
Variables (rows rows' : list I) (u t : I -> Z) (d : I -> R).
Hypothesis P : Permutation rows rows'.

Lemma q_units : sd_units rows' u = sd_units rows u.
Proof. symmetry. apply zsort_nodup_perm, Permutation_map, P. Qed.
Lemma q_periods : sd_periods rows' t = sd_periods rows t.
Proof. symmetry. apply zsort_nodup_perm, Permutation_map, P. Qed.
Lemma q_rows p a : Permutation (sd_rows rows u t p a) (sd_rows rows' u t p a).
Proof. apply perm_filter, P. Qed.
Lemma q_dup : sd_dup rows' u t = sd_dup rows u t.
Proof.
  unfold sd_dup. rewrite <- (perm_existsb _ rows rows' P).
  assert (G : forall m, existsb (fun i => Nat.ltb 1 (length (sd_rows rows' u t (t i) (u i)))) m = existsb (fun i => Nat.ltb 1 (length (sd_rows rows u t (t i) (u i)))) m).
  { induction m as [|j m IH]; cbn [existsb]; [reflexivity|]. rewrite IH, (Permutation_length (q_rows (t j) (u j))). reflexivity. }
  apply G.
Qed.
Lemma q_cell y : sd_dup rows u t = false -> sd_cell rows' u t y = sd_cell rows u t y.
Proof.
  intros H. apply functional_extensionality. intros p. apply functional_extensionality. intros a. unfold sd_cell.
  rewrite (perm_short _ _ (q_rows p a) (sd_rows_short rows u t H p a)). reflexivity.
Qed.
Hypothesis Hd : sd_constant rows u d.
Lemma q_first a : In a (sd_units rows u) -> sd_first rows' u d a = sd_first rows u d a.
Proof.
  intros _. unfold sd_first. assert (Q := perm_filter (fun i => Z.eqb (u i) a) rows rows' P).
  destruct (filter (fun i => Z.eqb (u i) a) rows) as [|i l] eqn:E1.
  - apply Permutation_nil in Q. rewrite Q. reflexivity.
  - destruct (filter (fun i => Z.eqb (u i) a) rows') as [|j l'] eqn:E2; [apply Permutation_sym, Permutation_nil in Q; discriminate|].
    assert (Hi : In i (filter (fun i => Z.eqb (u i) a) rows)) by (rewrite E1; left; reflexivity).
    assert (Hj : In j (filter (fun i => Z.eqb (u i) a) rows')) by (rewrite E2; left; reflexivity).
    apply filter_In in Hi as [Hi Ei]. apply filter_In in Hj as [Hj Ej]. apply Z.eqb_eq in Ei, Ej.
    apply Hd; [apply (Permutation_in _ (Permutation_sym P)); auto|auto|congruence].
Qed.
Lemma q_treated : sd_treated rows' u d = sd_treated rows u d.
Proof. unfold sd_treated. rewrite q_units. apply filter_ext_in. intros a Ha. rewrite q_first by auto. reflexivity. Qed.
Lemma q_control : sd_control rows' u d = sd_control rows u d.
Proof. unfold sd_control. rewrite q_units. apply filter_ext_in. intros a Ha. rewrite q_first by auto. reflexivity. Qed.
End Perm.

(* ---- covariates ---- *)
Hypothesis Hqr : qr_ok qr.
Hypothesis Hls : lstsq_ok lstsq.

Theorem sd_resid_ls (rows : list I) u t y covs w : sd_residualize qr lstsq inv rows u t y covs = Ok w ->
  exists beta, is_ls rows (sd_design rows u t covs) y beta /\
    forall i, w i = y i - lc (sd_design rows u t covs) beta i + meanf y rows.
Proof.
  unfold sd_residualize. destruct (solve_ols _ _ _ _ _ _ _ _ _ _) as [o|e] eqn:E; [|discriminate]. cbn [bind]. intros H. injection H as <-.
  destruct (solve_ols_projection _ qr lstsq inv Hqr Hls _ _ _ _ _ _ _ E) as (Or & _ & Rs).
  assert (Pr := solve_ols_predict _ qr lstsq inv Hls _ _ _ _ _ _ _ E). unfold predict in Pr.
  exists (map nan_to_zero (o_coef o)). split; [split|].
  - rewrite map_length. destruct (solve_ols_shape _ qr lstsq inv Hls _ _ _ _ _ _ _ E) as (_ & -> & _). apply expand_coef_length.
  - apply Forall_forall. intros c Hc. etransitivity; [|exact (Or c Hc)]. apply sumf_ext. intros i _. rewrite Rs, Pr. reflexivity.
  - intros i. rewrite Rs, Pr. reflexivity.
Qed.

Lemma sd_residualize_ok (rows : list I) u t y covs : is_ok (sd_residualize qr lstsq inv rows u t y covs) = Nat.leb (length (sd_design rows u t covs)) (length rows).
Proof.
  unfold sd_residualize, solve_ols. rewrite Nat.leb_antisym. destruct (Nat.ltb (length rows) (length (sd_design rows u t covs))) eqn:EN; [reflexivity|].
  cbn [parse_action]. destruct (qr rows (sd_design rows u t covs)) as [|d0 ds] eqn:E; [reflexivity|]. rewrite <- E.
  destruct rows as [|i0 rows0] eqn:ER; [discriminate EN|]. rewrite <- ER in *.
  cbv zeta. rewrite (kept_nonzero qr rows (sd_design rows u t covs) (fun _ => 1) i0 Hqr); [reflexivity|now left|rewrite ER; now left|lra].
Qed.

Theorem sd_fit_row_order (rows rows' : list I) (u t : I -> Z) d cfg y covs post draws perms :
  Permutation rows rows' -> sd_constant rows u d ->
  fit rows' u t d cfg y covs post draws perms = fit rows u t d cfg y covs post draws perms.
Proof.
  intros P Hd. unfold sd_fit.
  assert (EB : forallb (fun i => Reqb (d i) 0 || Reqb (d i) 1) rows' = forallb (fun i => Reqb (d i) 0 || Reqb (d i) 1) rows).
  { apply Bool.eq_iff_eq_true. rewrite !forallb_forall. split; intros H i Hi; apply H; [apply (Permutation_in _ P)|apply (Permutation_in _ (Permutation_sym P))]; auto. }
  rewrite EB. destruct (forallb _ rows); cbn [negb]; [|reflexivity].
  rewrite (q_periods rows rows' t P). destruct (sdid_periods zmem (sd_periods rows t) post) as [[pre pst]|e]; cbn [bind]; [|reflexivity].
  rewrite (q_treated rows rows' u d P Hd), (q_control rows rows' u d P Hd).
  destruct (sd_treated rows u d) as [|a tr]; [reflexivity|]. destruct (sd_control rows u d) as [|c ctrl]; [reflexivity|].
  rewrite (q_dup rows rows' u t P), <- (Permutation_length P).
  destruct covs as [|x xs].
  { cbn [bind]. destruct (sd_dup rows u t) eqn:ED; [reflexivity|]. rewrite (q_cell rows rows' u t P) by auto. reflexivity. }
  set (covs := x :: xs).
  assert (EDs : sd_design rows' u t covs = sd_design rows u t covs).
  { unfold sd_design. rewrite (q_units rows rows' u P), (q_periods rows rows' t P). reflexivity. }
  assert (O1 := sd_residualize_ok rows u t y covs). assert (O2 := sd_residualize_ok rows' u t y covs).
  rewrite EDs, <- (Permutation_length P), <- O1 in O2.
  destruct (sd_residualize qr lstsq inv rows' u t y covs) as [w'|e'] eqn:E'; destruct (sd_residualize qr lstsq inv rows u t y covs) as [w|e] eqn:E; try discriminate; cbn [bind].
  - destruct (sd_dup rows u t) eqn:ED; [reflexivity|]. rewrite (q_cell rows rows' u t P) by auto.
    assert (W : forall i, In i rows -> w' i = w i); [|rewrite (q_cell_ext rows u t w w' W); reflexivity].
    destruct (sd_resid_ls _ _ _ _ _ _ E) as (be & B1 & B2). destruct (sd_resid_ls _ _ _ _ _ _ E') as (be' & B1' & B2').
    rewrite EDs in *. intros i Hi. rewrite B2, B2'.
    rewrite (ls_fitted_unique rows (sd_design rows u t covs) y be be' B1); auto; [rewrite (meanf_perm _ _ _ P); reflexivity|].
    apply (ls_perm rows' rows); [apply Permutation_sym, P|exact B1'].
  - assert (X : forall (l : list I) (ee : exc), sd_residualize qr lstsq inv l u t y covs = Err ee -> ee = ValueError).
    { intros l ee. assert (O3 := sd_residualize_ok l u t y covs). revert O3. unfold sd_residualize, solve_ols. rewrite Nat.leb_antisym. destruct (Nat.ltb _ _); [cbn; congruence|]. cbn [negb].
      destruct (bind _ _); [discriminate|]. discriminate. }
    rewrite (X _ _ E), (X _ _ E'). reflexivity.
Qed.
End Rows.

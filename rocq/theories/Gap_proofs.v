From Verif Require Import Prelude Flt Stats_model Linalg_model Did_model Multi_model Staggered_model Synth_model Synth_proofs Sdid_model Sdid_proofs Sdid_thms Gap_model.
From Coq Require Import Arith ZArith String List Lia Lra Permutation.
Import ListNotations.
Open Scope R_scope.

(* ---- NaN in sums and products ---- *)
Lemma combine_right {A B} (w : list A) (l : list B) a : length w = length l -> In a l -> exists x, In (x, a) (combine w l).
Proof.
  revert l. induction w as [|x w IH]; intros [|c l] Hl Ha; cbn in *; try discriminate; try contradiction.
  destruct Ha as [->|Ha]; [exists x; auto|]. destruct (IH l ltac:(lia) Ha) as [v Hv]. exists v; auto.
Qed.
Lemma gdot_nan {A} w (f : A -> fl) l a : length w = length l -> In a l -> f a = NaN -> gdot w f l = NaN.
Proof.
  intros Hl Ha Hf. unfold gdot. apply fsum_nan. destruct (combine_right w l a Hl Ha) as [x Hx].
  apply in_map_iff. exists (x, a). split; [|exact Hx]. cbn [fst snd]. rewrite Hf. apply fmul_nan_r.
Qed.
Lemma gdot_nan_w {A} w (f : A -> fl) l : length w = length l -> l <> [] -> (forall x, In x w -> x = NaN) -> gdot w f l = NaN.
Proof.
  intros Hl Hn Hw. destruct l as [|a l]; [congruence|]. destruct w as [|x w]; [discriminate|].
  unfold gdot. apply fsum_nan. left. cbn [fst snd]. rewrite (Hw x) by (left; reflexivity). reflexivity.
Qed.
Lemma fmean_map_nan {A} (f : A -> fl) l a : In a l -> f a = NaN -> fmean (map f l) = NaN.
Proof. intros Ha Hf. apply fmean_nan. apply in_map_iff. eauto. Qed.
Lemma gmean_nan Y tr t a : In a tr -> Y t a = NaN -> gmean Y tr t = NaN.
Proof. intros. unfold gmean. eapply fmean_map_nan; eauto. Qed.
Lemma gstd_nan k l : In NaN l -> gstd k l = NaN.
Proof.
  intros H. unfold gstd. rewrite (fsum_nan (map _ l)); [reflexivity|].
  apply in_map_iff. exists NaN. split; [reflexivity|exact H].
Qed.

(* the estimate *)
Lemma gap_sdid_nan Y pre post ctrl tr omega lam t a :
  length omega = length ctrl -> length lam = length pre ->
  In t (pre ++ post) -> In a (tr ++ ctrl) -> Y t a = NaN ->
  gap_sdid Y pre post ctrl (gmean Y tr) omega lam = NaN.
Proof.
  intros Ho Hl Ht Ha HY. unfold gap_sdid. apply in_app_iff in Ha. destruct Ha as [Ha|Ha].
  - assert (E : gmean Y tr t = NaN) by (eapply gmean_nan; eauto).
    apply in_app_iff in Ht. destruct Ht as [Ht|Ht].
    + rewrite (gdot_nan lam (gmean Y tr) pre t Hl Ht E). rewrite fsub_nan_r. reflexivity.
    + rewrite (fmean_map_nan (gmean Y tr) post t Ht E). reflexivity.
  - rewrite (gdot_nan omega _ ctrl a Ho Ha); [apply fsub_nan_r|].
    apply in_app_iff in Ht. destruct Ht as [Ht|Ht].
    + rewrite (gdot_nan lam _ pre t Hl Ht HY). apply fsub_nan_r.
    + rewrite (fmean_map_nan (fun s => Y s a) post t Ht HY). reflexivity.
Qed.
Lemma gap_sdid_lam_nan Y pre post ctrl ytr omega lam :
  length lam = length pre -> pre <> [] -> (forall x, In x lam -> x = NaN) ->
  gap_sdid Y pre post ctrl ytr omega lam = NaN.
Proof. intros Hl Hp Hn. unfold gap_sdid. rewrite (gdot_nan_w lam ytr pre Hl Hp Hn), fsub_nan_r. reflexivity. Qed.

Lemma map_all_const {A B} (f : A -> B) c l : (forall x, In x l -> f x = c) -> map f l = repeat c (length l).
Proof. induction l as [|a l IH]; intros H; [reflexivity|]. cbn. rewrite H by (left; reflexivity). rewrite IH; [reflexivity|]. intros; apply H; right; auto. Qed.

Lemma fsum_zeros k : fsum (repeat (Fin 0) k) = Fin 0.
Proof. induction k as [|k IH]; cbn; [reflexivity|]. fold (fsum (repeat (Fin 0) k)). rewrite IH. cbn. f_equal; lra. Qed.

(* ---- unit weights ---- *)
Section W.
Variable b : gbackend.
Variable fsort : list fl -> list fl.
Variables (pre : list Z) (cols : list (Z -> fl)) (y : Z -> fl) (lambda : R).
Notation n := (length cols).
Hypothesis Hgap : (exists t c, In t pre /\ In c cols /\ c t = NaN) \/ (exists t, In t pre /\ y t = NaN).

Lemma ggrad_nan w i : (i < n)%nat -> ggrad b pre cols y lambda w i = NaN.
Proof.
  intros Hi. unfold ggrad. destruct Hgap as [(t & c & Ht & Hc & E)|(t & Ht & E)].
  - rewrite fsum_nan; [reflexivity|]. destruct (In_nth cols c (fun _ => Fin 0) Hc) as (j & Hj & Ej).
    apply in_map_iff. exists j. split; [|apply in_seq; lia].
    unfold gH, gip. rewrite fsum_nan; [reflexivity|].
    apply in_map_iff. exists t. split; [|exact Ht]. unfold gcol at 2. rewrite Ej, E. apply fmul_nan_r.
  - assert (G : gip pre (gcol cols i) y = NaN).
    { unfold gip. apply fsum_nan. apply in_map_iff. exists t. split; [|exact Ht]. rewrite E. apply fmul_nan_r. }
    unfold gf. destruct b; rewrite G; apply fsub_nan_r.
Qed.
Lemma gstep_const step w : gstep b fsort pre cols y lambda step w = repeat (gmax0 b NaN) n.
Proof.
  unfold gstep, gproj. rewrite map_map. transitivity (repeat (gmax0 b NaN) (length (seq 0 n))); [|rewrite seq_length; reflexivity].
  apply map_all_const. intros j Hj. apply in_seq in Hj. rewrite ggrad_nan by lia. rewrite fmul_nan_r, fsub_nan_r. reflexivity.
Qed.
Lemma gpgd_const iter step w : (0 < iter)%nat -> gpgd b fsort pre cols y lambda iter step w = repeat (gmax0 b NaN) n.
Proof.
  revert w. induction iter as [|k IH]; intros w Hk; [lia|]. cbn [gpgd]. rewrite gstep_const.
  destruct (flt _ _); [reflexivity|]. destruct k; [reflexivity|]. apply IH; lia.
Qed.
Lemma gfinish_const m : 0 < m -> (0 < n)%nat -> gfinish cols m (repeat (gmax0 b NaN) n) = map Fin (uniform_w n).
Proof.
  clear Hgap. intros Hm Hn. unfold gfinish.
  rewrite (map_all_const _ (if flt (gmax0 b NaN) (Fin m) then Fin 0 else gmax0 b NaN)), repeat_length by (intros x Hx; apply repeat_spec in Hx; subst; reflexivity).
  assert (E : flt (Fin 0) (fsum (repeat (if flt (gmax0 b NaN) (Fin m) then Fin 0 else gmax0 b NaN) n)) = false).
  { destruct b; cbn [gmax0].
    - cbn [flt]. destruct (Rltb 0 m) eqn:E0; [|apply Rltb_false in E0; lra].
      rewrite fsum_zeros. cbn. destruct (Rltb 0 0) eqn:E1; [apply Rltb_true in E1; lra|reflexivity].
    - cbn [flt]. rewrite fsum_nan; [reflexivity|]. destruct cols; [cbn in Hn; lia|left; reflexivity]. }
  rewrite E. reflexivity.
Qed.
End W.

Lemma w0_length k : length (map Fin (uniform_w k)) = k.
Proof. rewrite map_length. unfold uniform_w. apply repeat_length. Qed.
Lemma gstep_length b fsort pre cols y lambda step w : length (gstep b fsort pre cols y lambda step w) = length cols.
Proof. unfold gstep, gproj. rewrite !map_length. apply seq_length. Qed.
Lemma gpgd_length b fsort pre cols y lambda iter step : forall w, length w = length cols -> length (gpgd b fsort pre cols y lambda iter step w) = length cols.
Proof.
  induction iter as [|k IH]; intros w Hw; [exact Hw|]. cbn [gpgd]. destruct (flt _ _); [apply gstep_length|apply IH, gstep_length].
Qed.
Lemma gfinish_length cols m w : length w = length cols -> length (gfinish cols m w) = length cols.
Proof. intros H. unfold gfinish. destruct (flt _ _); rewrite !map_length; [exact H|]. unfold uniform_w. apply repeat_length. Qed.
Lemma gap_time_length Y pre ctrl y zeta : length (gap_time_weights Y pre ctrl y zeta) = length pre.
Proof. unfold gap_time_weights. destruct pre as [|a [|c pre]]; [reflexivity..|]. rewrite !map_length. reflexivity. Qed.

(* ---- time weights ---- *)
Lemma gap_time_nan Y pre ctrl tr zeta t a : (2 <= length pre)%nat -> In t pre -> In a (tr ++ ctrl) -> Y t a = NaN ->
  forall x, In x (gap_time_weights Y pre ctrl (gmean Y tr) zeta) -> x = NaN.
Proof.
  intros Hp Ht Ha HY. destruct pre as [|p0 [|p1 pre]]; [cbn in Hp; lia..|].
  set (ps := p0 :: p1 :: pre) in *.
  assert (D : In NaN (map (fun s => fabs (fsub (gmean Y tr s) (fmean (map (Y s) ctrl)))) ps)).
  { apply in_map_iff. exists t. split; [|exact Ht]. apply in_app_iff in Ha. destruct Ha as [Ha|Ha].
    - rewrite (gmean_nan Y tr t a Ha HY). reflexivity.
    - rewrite (fmean_map_nan (Y t) ctrl a Ha HY), fsub_nan_r. reflexivity. }
  intros x Hx. unfold gap_time_weights in Hx. fold ps in Hx. cbv zeta in Hx.
  set (ds := map _ ps) in *. rewrite (gstd_nan 0 ds D) in Hx.
  apply in_map_iff in Hx. destruct Hx as (v & <- & Hv). apply in_map_iff in Hv. destruct Hv as (w & <- & _).
  rewrite fmul_nan_r, fadd_nan_r. reflexivity.
Qed.

Section Core.
Variable backend : list Z -> list (Z -> R) -> (Z -> R) -> R -> list R.
Variable b : gbackend.
Variable fsort : list fl -> list fl.
Variable iter : nat.
Variable gnrm : list Z -> list (Z -> fl) -> R -> fl.
Hypothesis Hbe : be_simplex backend.
Hypothesis Hit : (0 < iter)%nat.
Notation weights := (gap_weights backend b fsort iter gnrm).
Notation finish := (gap_finish backend b fsort iter gnrm).
Notation boot_one := (gap_boot_one backend b fsort iter gnrm).

Lemma gap_weights_length pre cols y lambda w : weights pre cols y lambda = Ok w -> length w = length cols.
Proof.
  unfold gap_weights. destruct cols as [|c0 [|c1 cols]]; [intros [= <-]; reflexivity..|]. set (cs := c0 :: c1 :: cols).
  destruct (_ && _).
  - intros [= <-]. rewrite map_length.
    destruct (Hbe pre (map (fun c t => unfin (c t)) cs) (fun t => unfin (y t)) lambda min_weight ltac:(discriminate)) as [_ L].
    rewrite map_length in L. exact L.
  - unfold gcore. destruct b as [|raises].
    + cbn [bind]. intros [= <-]. apply gfinish_length, gpgd_length. exact (w0_length (length cs)).
    + destruct (_ && _); cbn [bind]; [discriminate|]. intros [= <-]. apply gfinish_length, gpgd_length. exact (w0_length (length cs)).
Qed.

(* a gap in the pre-periods: equal weights, or numpy's error *)
Theorem gap_weights_gap pre cols y lambda : (2 <= length cols)%nat ->
  (exists t c, In t pre /\ In c cols /\ c t = NaN) \/ (exists t, In t pre /\ y t = NaN) ->
  weights pre cols y lambda = Ok (map Fin (uniform_w (length cols))) \/
  weights pre cols y lambda = Err LinAlgError /\ b = BNumpy true /\ exists t c, In t pre /\ In c cols /\ ffinite (c t) = false.
Proof.
  intros Hc Hgap. unfold gap_weights. destruct cols as [|c0 [|c1 cols]]; [cbn in Hc; lia..|]. set (cs := c0 :: c1 :: cols) in *.
  assert (F : forallb (fun c => all_finite c pre) cs && all_finite y pre = false).
  { destruct Hgap as [(t & c & Ht & Hi & E)|(t & Ht & E)]; apply Bool.andb_false_iff; [left|right].
    - destruct (forallb _ cs) eqn:EF; [|reflexivity]. rewrite forallb_forall in EF. specialize (EF c Hi). unfold all_finite in EF.
      rewrite forallb_forall in EF. specialize (EF t Ht). rewrite E in EF. discriminate.
    - unfold all_finite. destruct (forallb _ pre) eqn:EF; [|reflexivity]. rewrite forallb_forall in EF. specialize (EF t Ht). rewrite E in EF. discriminate. }
  rewrite F. assert (M : 0 < min_weight) by (unfold min_weight; lra).
  assert (N0 : (0 < length cs)%nat) by (cbn; lia).
  unfold gcore. destruct b as [|raises].
  - left. cbn [bind]. rewrite (gpgd_const BRust fsort pre cs y lambda Hgap) by exact Hit. rewrite gfinish_const by auto. reflexivity.
  - destruct (raises && negb (forallb (fun c => forallb (fun t => ffinite (c t)) pre) cs)) eqn:ER; cbn [bind].
    + right. apply Bool.andb_true_iff in ER. destruct ER as [-> ER]. split; [reflexivity|]. split; [reflexivity|].
      apply Bool.negb_true_iff in ER.
      assert (X : exists c, In c cs /\ forallb (fun t => ffinite (c t)) pre = false).
      { clear -ER. induction cs as [|c l IH]; [discriminate|]. cbn in ER. apply Bool.andb_false_iff in ER. destruct ER as [ER|ER]; [exists c; cbn; auto|].
        destruct (IH ER) as (c' & Hc' & E'). exists c'; cbn; auto. }
      destruct X as (c & Hic & EX).
      assert (X : exists t, In t pre /\ ffinite (c t) = false).
      { clear -EX. induction pre as [|t l IH]; [discriminate|]. cbn in EX. apply Bool.andb_false_iff in EX. destruct EX as [EX|EX]; [exists t; cbn; auto|].
        destruct (IH EX) as (t' & Ht' & E'). exists t'; cbn; auto. }
      destruct X as (t & Ht & Et). exists t, c; auto.
    + left. rewrite (gpgd_const (BNumpy raises) fsort pre cs y lambda Hgap) by exact Hit. rewrite gfinish_const by auto. reflexivity.
Qed.

(* ---- test statistics of an undefined estimate ---- *)
Lemma share_false {A} (p : A -> bool) l : (forall x, In x l -> p x = false) -> share p l = 0.
Proof.
  intros H. unfold share, meanf. rewrite (sumf_ext _ (fun _ => 0)) by (intros x Hx; rewrite H by exact Hx; reflexivity).
  replace (sumf (fun _ : A => 0) l) with 0; [unfold Rdiv; ring|]. clear H. induction l; cbn; [reflexivity|]. rewrite <- IHl. ring.
Qed.
Theorem gap_inference_nan sf z se alpha eff : (flt (Fin 0) se = true -> eff <> []) ->
  let i := gap_inference sf z NaN se alpha eff in
  g_ci i = (NaN, NaN) /\
  (if flt (Fin 0) se then g_t i = NaN /\ g_p i = Fin (1 / (len eff + 1)) else g_t i = Fin 0 /\ g_p i = Fin 1).
Proof.
  intros He i. unfold i, gap_inference. destruct (flt (Fin 0) se); cbn [g_ci g_t g_p]; (split; [reflexivity|]).
  - split; [reflexivity|]. destruct eff as [|e eff]; [exfalso; apply He; reflexivity|].
    rewrite share_false by (intros x _; reflexivity). f_equal. apply Rmax_right.
    unfold Rdiv. rewrite Rmult_1_l. left. apply Rinv_0_lt_compat. assert (0 <= len (e :: eff)) by (unfold len; apply pos_INR). lra.
  - auto.
Qed.
End Core.

(* TripleDifference: what the propensity score diagnostics can be. *)
From Coq Require Import Reals Lra Lia.
From Verif Require Import Prelude Flt Stats_model Stats_proofs Linalg_model Linalg_proofs Linalg_thms Did_model Triple_model Triple_proofs Triple_thms Triple_fit Triple_ex Linalg_vcov Linalg_thms PScore_model.
From Coq Require Import Arith ZArith String List.
Import ListNotations.
Open Scope R_scope.

Lemma clip_in x lo hi : lo <= hi -> lo <= clip x lo hi <= hi.
Proof. intros H. unfold clip. split; [apply Rmin_glb; [exact H|apply Rmax_r]|apply Rmin_l]. Qed.
Lemma clip_crossed x lo hi : hi <= lo -> clip x lo hi = hi.
Proof. intros H. unfold clip. apply Rmin_left. apply Rle_trans with lo; [exact H|apply Rmax_r]. Qed.

(* Bhatia-Davis *)
Lemma variance0_bound (l : list R) lo hi : l <> [] -> (forall x, In x l -> lo <= x <= hi) ->
  0 <= variance 0 l <= (hi - meanf idR l) * (meanf idR l - lo).
Proof.
  intros Hl H. pose proof (len_pos l Hl) as Hp. set (m := meanf idR l).
  assert (E : variance 0 l = meanf (fun x => (x - m) * (x - m)) l).
  { unfold variance, sumsq_dev, meanf at 2. fold m. simpl INR. replace (len l - 0) with (len l) by ring. reflexivity. }
  assert (E2 : meanf (fun x => (x - m) * (x - m)) l = (hi - m) * (m - lo) - meanf (fun x => (hi - x) * (x - lo)) l).
  { rewrite (meanf_ext (fun x => (x - m) * (x - m)) (fun x => (hi + lo - 2 * m) * idR x + (m * m - hi * lo) - (hi - x) * (x - lo)))
      by (intros x _; unfold idR; ring).
    rewrite meanf_sub, meanf_add, meanf_scal, meanf_const by auto. fold m. ring. }
  assert (A : 0 <= meanf (fun x => (x - m) * (x - m)) l).
  { unfold meanf. apply Rmult_le_pos; [apply sumf_nonneg; intros; apply Rle_0_sqr|left; apply Rinv_0_lt_compat; lra]. }
  assert (B : 0 <= meanf (fun x => (hi - x) * (x - lo)) l).
  { unfold meanf. apply Rmult_le_pos; [apply sumf_nonneg; intros x Hx; destruct (H x Hx); apply Rmult_le_pos; lra|left; apply Rinv_0_lt_compat; lra]. }
  rewrite E. split; [exact A|]. rewrite E2. lra.
Qed.

Lemma std0_sq (l : list R) : l <> [] -> 0 <= std 0 l /\ std 0 l * std 0 l = variance 0 l.
Proof.
  intros Hl. unfold std. split; [apply sqrt_pos|]. apply sqrt_sqrt. apply variance_nonneg. simpl. apply len_pos. exact Hl.
Qed.
Lemma std0_const {A} (f : A -> R) c (l : list A) : l <> [] -> (forall x, In x l -> f x = c) ->
  meanf idR (map f l) = c /\ std 0 (map f l) = 0.
Proof.
  intros Hl H. assert (Hm : map f l <> []) by (destruct l; [congruence|discriminate]).
  assert (E : meanf idR (map f l) = c).
  { rewrite meanf_map. rewrite (meanf_ext _ (fun _ => c)) by (intros x Hx; exact (H x Hx)). apply meanf_const. exact Hl. }
  split; [exact E|]. unfold std. destruct (variance0_bound (map f l) c c Hm) as [B1 B2].
  { intros x Hx. apply in_map_iff in Hx. destruct Hx as (a & <- & Ha). rewrite (H a Ha). lra. }
  rewrite E in B2. replace (variance 0 (map f l)) with 0 by nra. apply sqrt_0.
Qed.

Lemma valid_nonempty {I} (rows : list I) y G P T covs : ddd_validate rows y G P T covs = Ok tt -> rows <> [].
Proof.
  unfold ddd_validate. intros H E. subst rows. cbn in H. discriminate.
Qed.

Section PS.
Context {I K : Type} (keq : forall x y : K, {x = y} + {x <> y}).
Variable qr : list I -> list (I -> R) -> list nat.
Variable lstsq : list I -> list (I -> R) -> (I -> R) -> list R.
Variable inv : list I -> list (I -> R) -> option (nat -> nat -> R).
Variable pinv : list I -> list (I -> R) -> nat -> nat -> R.
Variable sf : option Z -> fl -> fl.
Variable ppf : option Z -> R -> R.
Variable logit : list I -> list (I -> R) -> (I -> R) -> option (I -> R).
Notation fitps := (ddd_fit_ps keq qr lstsq inv pinv sf ppf logit).
Notation f x := (fun i => oR (x i)).

Lemma fitps_inv cfg cl rows y G P T covs r s : fitps cfg cl rows y G P T covs = Ok (r, s) ->
  ddd_fit keq qr lstsq inv pinv sf ppf logit cfg cl rows y G P T covs = Ok r /\ rows <> [] /\
  s = (if String.eqb (dd_method cfg) "reg" then None else ps_stats logit (dd_trim cfg) rows (f G) (f P) (map (fun c => f c) covs)).
Proof.
  unfold ddd_fit_ps. destruct (ddd_fit keq qr lstsq inv pinv sf ppf logit cfg cl rows y G P T covs) as [r'|] eqn:E; [|discriminate].
  cbn [bind]. intros H. injection H as <- <-. split; [reflexivity|]. split; [|reflexivity].
  destruct (fit_inv keq qr lstsq inv pinv sf ppf logit _ _ _ _ _ _ _ _ _ E) as (HV & _). exact (valid_nonempty _ _ _ _ _ _ HV).
Qed.

(* reported exactly by the weighting methods with covariates *)
Theorem ps_present cfg cl rows y G P T covs r s : fitps cfg cl rows y G P T covs = Ok (r, s) ->
  (s <> None <-> dd_method cfg <> "reg"%string /\ covs <> []).
Proof.
  intros H. destruct (fitps_inv _ _ _ _ _ _ _ _ _ _ H) as (_ & _ & ->).
  destruct (String.eqb_spec (dd_method cfg) "reg") as [E|N].
  - split; [congruence|intros [A _]; contradiction].
  - destruct covs as [|c cs]; cbn; split; try congruence.
    + intros [_ A]. congruence.
    + intros _. split; [exact N|discriminate].
Qed.

Definition in_trim (trim m s : R) : Prop := trim <= m <= 1 - trim /\ 0 <= s <= 1 / 2 - trim /\ s * s <= (1 - trim - m) * (m - trim).

Lemma score_stats trim rows X z : trim <= 1 / 2 -> rows <> [] ->
  in_trim trim (meanf idR (map (ps_score logit trim rows X z) rows)) (std 0 (map (ps_score logit trim rows X z) rows)).
Proof.
  intros Ht Hr. set (l := map (ps_score logit trim rows X z) rows).
  assert (Hl : l <> []) by (subst l; destruct rows; [congruence|discriminate]).
  assert (HB : forall x, In x l -> trim <= x <= 1 - trim).
  { intros x Hx. apply in_map_iff in Hx. destruct Hx as (i & <- & _). apply clip_in. lra. }
  destruct (variance0_bound l trim (1 - trim) Hl HB) as [V1 V2]. destruct (std0_sq l Hl) as [S1 S2].
  assert (M : trim <= meanf idR l <= 1 - trim) by (apply meanf_bounds; auto).
  split; [exact M|]. split; [|rewrite S2; exact V2]. split; [exact S1|].
  set (m := meanf idR l) in *. set (s := std 0 l) in *.
  apply Rsqr_incr_0_var; [|lra]. unfold Rsqr. pose proof (Rle_0_sqr (m - 1 / 2)). unfold Rsqr in *. nra.
Qed.

(* means and standard deviations lie in the range that the trimming allows *)
Theorem ps_range cfg cl rows y G P T covs r st : dd_trim cfg <= 1 / 2 -> fitps cfg cl rows y G P T covs = Ok (r, Some st) ->
  (dd_trim cfg <= ps_g_mean st <= 1 - dd_trim cfg /\ 0 <= ps_g_std st <= 1 / 2 - dd_trim cfg /\
   ps_g_std st * ps_g_std st <= (1 - dd_trim cfg - ps_g_mean st) * (ps_g_mean st - dd_trim cfg)) /\
  (dd_trim cfg <= ps_p_mean st <= 1 - dd_trim cfg /\ 0 <= ps_p_std st <= 1 / 2 - dd_trim cfg /\
   ps_p_std st * ps_p_std st <= (1 - dd_trim cfg - ps_p_mean st) * (ps_p_mean st - dd_trim cfg)).
Proof.
  intros Ht H. destruct (fitps_inv _ _ _ _ _ _ _ _ _ _ H) as (_ & Hr & E).
  destruct (String.eqb (dd_method cfg) "reg"); [discriminate|]. destruct covs as [|c cs]; [discriminate|].
  injection E as ->. split; exact (score_stats _ _ _ _ Ht Hr).
Qed.

(* a trimming value above one half (not refused) makes every score 1 - trim *)
Theorem ps_crossed cfg cl rows y G P T covs r st : 1 / 2 < dd_trim cfg -> fitps cfg cl rows y G P T covs = Ok (r, Some st) ->
  ps_g_mean st = 1 - dd_trim cfg /\ ps_g_std st = 0 /\ ps_p_mean st = 1 - dd_trim cfg /\ ps_p_std st = 0.
Proof.
  intros Ht H. destruct (fitps_inv _ _ _ _ _ _ _ _ _ _ H) as (_ & Hr & E).
  destruct (String.eqb (dd_method cfg) "reg"); [discriminate|]. destruct covs as [|c cs]; [discriminate|].
  injection E as ->. cbn [ps_g_mean ps_g_std ps_p_mean ps_p_std].
  assert (A : forall X z, meanf idR (map (ps_score logit (dd_trim cfg) rows X z) rows) = 1 - dd_trim cfg /\ std 0 (map (ps_score logit (dd_trim cfg) rows X z) rows) = 0).
  { intros X z. apply std0_const; [exact Hr|]. intros i _. apply clip_crossed. lra. }
  split; [apply A|]. split; [apply A|]. split; apply A.
Qed.

(* failed fits: the clipped sample shares, without spread *)
Theorem ps_failed cfg cl rows y G P T covs r st : fitps cfg cl rows y G P T covs = Ok (r, Some st) ->
  (logit rows (map (fun c => f c) covs) (f G) = None ->
     ps_g_mean st = Rmin (1 - dd_trim cfg) (Rmax (meanf (f G) rows) (dd_trim cfg)) /\ ps_g_std st = 0) /\
  (logit rows (map (fun c => f c) covs) (f P) = None ->
     ps_p_mean st = Rmin (1 - dd_trim cfg) (Rmax (meanf (f P) rows) (dd_trim cfg)) /\ ps_p_std st = 0).
Proof.
  intros H. destruct (fitps_inv _ _ _ _ _ _ _ _ _ _ H) as (_ & Hr & E).
  destruct (String.eqb (dd_method cfg) "reg"); [discriminate|]. destruct covs as [|c cs]; [discriminate|].
  injection E as ->. cbn [ps_g_mean ps_g_std ps_p_mean ps_p_std].
  split; intros HL; (apply std0_const; [exact Hr|]; intros i _; unfold ps_score; cbn [map] in HL; rewrite HL; reflexivity).
Qed.

(* the scores that are summarised are those behind the weights *)
Theorem ps_used cfg rows G P X g p i : X <> [] ->
  let s z := ps_score logit (dd_trim cfg) rows X z i in
  ddd_pcell logit cfg rows G P X g p i =
  Rmin (1 - dd_trim cfg) (Rmax ((if Reqb g 1 then s G else 1 - s G) * (if Reqb p 1 then s P else 1 - s P)) (dd_trim cfg)).
Proof. intros H. destruct X as [|x xs]; [congruence|reflexivity]. Qed.
End PS.

Section LG.
Context {I K : Type} (keq : forall x y : K, {x = y} + {x <> y}).
Variable qr : list I -> list (I -> R) -> list nat.
Variable lstsq : list I -> list (I -> R) -> (I -> R) -> list R.
Variable inv : list I -> list (I -> R) -> option (nat -> nat -> R).
Variable pinv : list I -> list (I -> R) -> nat -> nat -> R.
Variable sf : option Z -> fl -> fl.
Variable ppf : option Z -> R -> R.
Variable bfgs : list I -> list (I -> R) -> (I -> R) -> option (list R).
Notation fitps := (ddd_fit_ps keq qr lstsq inv pinv sf ppf (logistic bfgs)).
Notation f x := (fun i => oR (x i)).

Theorem lg_prob_range (X : list (I -> R)) b i : / (1 + exp 500) <= lg_prob X b i <= / (1 + exp (-500)) /\
  lg_prob X b i / (1 - lg_prob X b i) = exp (Rmin 500 (Rmax (lc ((fun _ => 1) :: X) b i) (-500))).
Proof.
  change (Rmin 500 (Rmax (lc ((fun _ : I => 1) :: X) b i) (-500))) with (clip (lc ((fun _ : I => 1) :: X) b i) (-500) 500).
  unfold lg_prob. set (z := clip _ _ _). assert (Hz : -500 <= z <= 500) by (apply clip_in; lra).
  assert (M : forall a c, a <= c -> exp a <= exp c).
  { intros a c [L|E]; [left; apply exp_increasing; exact L|rewrite E; apply Rle_refl]. }
  pose proof (exp_pos (- z)). pose proof (exp_pos (-500)). pose proof (exp_pos 500).
  assert (E1 : exp (- z) <= exp 500) by (apply M; lra). assert (E2 : exp (-500) <= exp (- z)) by (apply M; lra).
  replace (1 / (1 + exp (- z))) with (/ (1 + exp (- z))) by (field; lra).
  split; [split; apply Rinv_le_contravar; lra|].
  assert (E3 : exp z = / exp (- z)) by (rewrite <- (exp_Ropp (- z)), Ropp_involutive; reflexivity).
  rewrite E3. field. repeat split; lra.
Qed.

Lemma balance_mean rows (X : list (I -> R)) z b : rows <> [] -> lg_grad rows X z b (fun _ => 1) = 0 ->
  meanf (lg_prob X b) rows = meanf z rows.
Proof.
  unfold lg_grad. intros Hr H. rewrite (sumf_ext_all _ (fun i => z i - lg_prob X b i)) in H by (intros; ring).
  rewrite sumf_sub in H. unfold meanf. replace (sumf (lg_prob X b) rows) with (sumf z rows) by lra. reflexivity.
Qed.

(* at a stationary point of the likelihood, and unless the trimming binds, the mean score is the share *)
Theorem ps_balanced cfg cl rows y G P T covs r st : fitps cfg cl rows y G P T covs = Ok (r, Some st) ->
  let X := map (fun c => f c) covs in
  (forall b, bfgs rows X (f G) = Some b -> lg_grad rows X (f G) b (fun _ => 1) = 0 ->
     (forall i, In i rows -> dd_trim cfg <= lg_prob X b i <= 1 - dd_trim cfg) -> ps_g_mean st = meanf (f G) rows) /\
  (forall b, bfgs rows X (f P) = Some b -> lg_grad rows X (f P) b (fun _ => 1) = 0 ->
     (forall i, In i rows -> dd_trim cfg <= lg_prob X b i <= 1 - dd_trim cfg) -> ps_p_mean st = meanf (f P) rows).
Proof.
  intros H X. destruct (fitps_inv keq qr lstsq inv pinv sf ppf (logistic bfgs) _ _ _ _ _ _ _ _ _ _ H) as (_ & Hr & E).
  fold X in E. destruct (String.eqb (dd_method cfg) "reg"); [discriminate|]. unfold ps_stats in E.
  assert (A : forall z b, bfgs rows X z = Some b -> lg_grad rows X z b (fun _ => 1) = 0 ->
     (forall i, In i rows -> dd_trim cfg <= lg_prob X b i <= 1 - dd_trim cfg) ->
     meanf idR (map (ps_score (logistic bfgs) (dd_trim cfg) rows X z) rows) = meanf z rows).
  { intros z b Hb Hg Hi. rewrite <- (balance_mean rows X z b Hr Hg). rewrite meanf_map. apply meanf_ext. intros i Hin.
    unfold ps_score, logistic, idR. rewrite Hb. cbn [option_map]. apply clip_id. apply Hi. exact Hin. }
  destruct X as [|x xs]; [discriminate|]. injection E as ->. cbn [ps_g_mean ps_p_mean]. split; apply A.
Qed.
End LG.

(* the eight rows with one covariate and zero coefficients, where the intercept component of the
   gradient vanishes for the group: every score is one half *)
Section Case.
Variable pinv : list b3 -> list (b3 -> R) -> nat -> nat -> R.
Definition cov1 (i : b3) : option R := Some (ind (snd i)).
Definition bf (_ : list b3) (_ : list (b3 -> R)) (_ : b3 -> R) : option (list R) := Some [0; 0].
Theorem ps_case cl y : (forall i, y i <> None) -> exists r st,
  ddd_fit_ps Z.eq_dec (@gs_dropped b3) (@gs b3) (@gs_inv b3) pinv toy_sf toy_ppf (logistic bf) (cfgm "ipw") cl rows8 y gB pB tB [cov1] = Ok (r, Some st) /\
  lg_grad rows8 [fun i => oR (cov1 i)] (fun i => oR (gB i)) [0; 0] (fun _ => 1) = 0 /\
  ps_g_mean st = 1 / 2 /\ ps_g_std st = 0 /\ ps_p_mean st = 1 / 2 /\ ps_p_std st = 0.
Proof.
  intros Hy. assert (HV : ddd_validate rows8 y gB pB tB [cov1] = Ok tt) by (apply valid8; [exact Hy|constructor; [intros i; discriminate|constructor]]).
  destruct (valid_fits Z.eq_dec (@gs_dropped b3) (@gs b3) (@gs_inv b3) pinv toy_sf toy_ppf (logistic bf) (cfgm "ipw") cl rows8 y gB pB tB [cov1] HV) as [r Hr]; [discriminate|].
  assert (Hp : forall i, lg_prob [fun i : b3 => oR (cov1 i)] [0; 0] i = 1 / 2).
  { intros i. unfold lg_prob. cbn [lc]. rewrite clip_id by lra.
    replace (- (0 * 1 + (0 * oR (cov1 i) + 0))) with 0 by ring. rewrite exp_0. lra. }
  unfold ddd_fit_ps. rewrite Hr. cbn [bind]. change (String.eqb (dd_method (cfgm "ipw")) "reg") with false.
  cbn [map ps_stats]. exists r. eexists. split; [reflexivity|]. cbn [ps_g_mean ps_g_std ps_p_mean ps_p_std].
  assert (A : forall z, meanf idR (map (ps_score (logistic bf) (dd_trim (cfgm "ipw")) rows8 [fun i : b3 => oR (cov1 i)] z) rows8) = 1 / 2 /\
    std 0 (map (ps_score (logistic bf) (dd_trim (cfgm "ipw")) rows8 [fun i : b3 => oR (cov1 i)] z) rows8) = 0).
  { intros z. apply std0_const; [discriminate|]. intros i _. unfold ps_score, logistic, bf. cbn [option_map]. rewrite Hp.
    apply clip_id. simpl. lra. }
  split; [|repeat split; apply A].
  unfold lg_grad. rewrite (sumf_ext_all _ (fun i => oR (gB i) - 1 / 2)) by (intros i; rewrite Hp; ring).
  unfold rows8, gB. cbn. lra.
Qed.
End Case.

From Verif Require Import Prelude Flt Stats_model Linalg_model Did_model Multi_model Multi_proofs Staggered_model Synth_model Synth_proofs Sdid_model Sdid_proofs Sdid_thms Gap_model Gap_proofs.
From Coq Require Import Arith ZArith String List Lia Lra Permutation.
Import ListNotations.
Open Scope R_scope.

Section Thms.
Variable backend : list Z -> list (Z -> R) -> (Z -> R) -> R -> list R.
Variable b : gbackend.
Variable fsort : list fl -> list fl.
Variable iter : nat.
Variable gnrm : list Z -> list (Z -> fl) -> R -> fl.
Variables (sf z : R -> R).
Hypothesis Hbe : be_simplex backend.
Notation finish := (gap_finish backend b fsort iter gnrm sf z).
Notation boot_one := (gap_boot_one backend b fsort iter gnrm).

Lemma gap_omega_length cfg Y pre tr ctrl w : gap_omega backend b fsort iter gnrm cfg Y pre tr ctrl = Ok w -> length w = length ctrl.
Proof. unfold gap_omega. intros H. apply (gap_weights_length backend b fsort iter gnrm Hbe) in H. rewrite map_length in H. exact H. Qed.

Lemma somes_In {A} (l : list (option A)) x : In x (somes l) <-> In (Some x) l.
Proof.
  unfold somes. rewrite in_flat_map. split.
  - intros ([y|] & Hi & Hx); cbn in Hx; [destruct Hx as [->|[]]; exact Hi|contradiction].
  - intros H. exists (Some x). cbn; auto.
Qed.

(* everything reported by the last step *)
Lemma gap_finish_inv cfg Y pre pst tr ctrl nobs draws perms r : finish cfg Y pre pst tr ctrl nobs draws perms = Ok r ->
  exists omega se eff, gap_omega backend b fsort iter gnrm cfg Y pre tr ctrl = Ok omega /\
  gr_att r = gap_sdid Y pre pst ctrl (gmean Y tr) omega (gap_tw cfg Y pre tr ctrl) /\
  gr_unit_w r = combine ctrl omega /\ gr_time_w r = combine pre (gap_tw cfg Y pre tr ctrl) /\
  gr_se r = se /\ gr_inf r = gap_inference sf z (gr_att r) se (sd_alpha cfg) eff /\
  gr_draws r = match eff with [] => None | _ => Some eff end /\ gr_alpha r = sd_alpha cfg /\ gr_pre r = pre /\ gr_post r = pst /\
  (flt (Fin 0) se = true -> (2 <= length eff)%nat) /\
  (if String.eqb (sd_method cfg) "bootstrap"
   then eff = somes (map (boot_one cfg Y pre pst tr ctrl) draws) /\ ((2 <= length eff)%nat -> se = gstd 1 eff)
   else (se, eff) = gap_placebo_se (length ctrl) (length tr)
          (map (fun p => gap_placebo_one Y pre pst (gap_tw cfg Y pre tr ctrl) (length ctrl - length tr)
                           (map (fun k => (nth k ctrl 0%Z, nth k omega (Fin 0))) p)) perms)).
Proof.
  unfold gap_finish. destruct (gap_omega _ _ _ _ _ _ _ _ _ _) as [omega|e] eqn:EO; cbn [bind]; [|discriminate].
  assert (Z0 : flt (Fin 0) (Fin 0) = false) by (cbn; destruct (Rltb 0 0) eqn:E; [apply Rltb_true in E; lra|reflexivity]).
  destruct (String.eqb (sd_method cfg) "bootstrap") eqn:EB.
  - set (est := somes _). unfold gap_boot_se. destruct (Nat.eqb _ 0); cbn [bind]; [discriminate|].
    destruct est as [|x [|x' est']] eqn:EE; cbn [bind]; [discriminate| |]; intros [= <-]; exists omega; eexists; eexists;
      (split; [reflexivity|]); cbn [gr_att gr_unit_w gr_time_w gr_se gr_inf gr_draws gr_alpha gr_pre gr_post];
      repeat (split; [reflexivity|]).
    + split; [rewrite Z0; discriminate|]. split; [reflexivity|]. cbn; lia.
    + split; [cbn; lia|]. split; [reflexivity|reflexivity].
  - cbn [bind]. set (eff0 := map _ perms). destruct (gap_placebo_se (length ctrl) (length tr) eff0) as [se eff] eqn:EP.
    intros [= <-]. exists omega, se, eff. (split; [reflexivity|]); cbn [gr_att gr_unit_w gr_time_w gr_se gr_inf gr_draws gr_alpha gr_pre gr_post];
      repeat (split; [reflexivity|]). split.
    + unfold gap_placebo_se in EP. destruct (Nat.leb _ _); [injection EP as <- <-; rewrite Z0; discriminate|].
      destruct eff0 as [|x [|x' l]]; injection EP as <- <-; try (rewrite Z0; discriminate). cbn; lia.
    + symmetry. exact EP.
Qed.

(* the estimate and its test statistics on a matrix with a gap *)
Lemma gap_finish_gap cfg Y pre pst tr ctrl nobs draws perms r t a : finish cfg Y pre pst tr ctrl nobs draws perms = Ok r ->
  In t (pre ++ pst) -> In a (tr ++ ctrl) -> Y t a = NaN ->
  gr_att r = NaN /\ g_ci (gr_inf r) = (NaN, NaN) /\
  (if flt (Fin 0) (gr_se r)
   then exists eff, gr_draws r = Some eff /\ (2 <= length eff)%nat /\ g_t (gr_inf r) = NaN /\ g_p (gr_inf r) = Fin (1 / (len eff + 1))
   else g_t (gr_inf r) = Fin 0 /\ g_p (gr_inf r) = Fin 1).
Proof.
  intros H Ht Ha HY. destruct (gap_finish_inv _ _ _ _ _ _ _ _ _ _ H) as (omega & se & eff & EO & EA & _ & _ & ES & EI & ED & _ & _ & _ & E2 & _).
  assert (A : gr_att r = NaN).
  { rewrite EA. apply (gap_sdid_nan Y pre pst ctrl tr omega _ t a); auto; [exact (gap_omega_length _ _ _ _ _ _ EO)|apply gap_time_length]. }
  split; [exact A|]. rewrite A in EI.
  assert (NE : flt (Fin 0) se = true -> eff <> []) by (intros K; specialize (E2 K); destruct eff; [cbn in E2; lia|discriminate]).
  destruct (gap_inference_nan sf z se (sd_alpha cfg) eff NE) as [C P]. rewrite <- EI in C, P. split; [exact C|].
  rewrite ES. destruct (flt (Fin 0) se) eqn:EF; [|exact P]. exists eff. split.
  - rewrite ED. destruct eff; [exfalso; apply NE; reflexivity|reflexivity].
  - split; [apply E2; reflexivity|exact P].
Qed.

(* a gap before treatment, at least two pre-periods, placebo variance: reported as t = 0, p = 1 *)
Lemma gap_finish_pre cfg Y pre pst tr ctrl nobs draws perms r t a : finish cfg Y pre pst tr ctrl nobs draws perms = Ok r ->
  sd_method cfg = "placebo"%string -> (2 <= length pre)%nat ->
  In t pre -> In a (tr ++ ctrl) -> Y t a = NaN ->
  (forall p x, In (p, x) (gr_time_w r) -> x = NaN) /\ (gr_se r = NaN \/ gr_se r = Fin 0) /\
  g_t (gr_inf r) = Fin 0 /\ g_p (gr_inf r) = Fin 1.
Proof.
  intros H Hm Hp Ht Ha HY. destruct (gap_finish_inv _ _ _ _ _ _ _ _ _ _ H) as (omega & se & eff & EO & EA & _ & EW & ES & EI & ED & _ & _ & _ & E2 & EE).
  assert (LN : forall x, In x (gap_tw cfg Y pre tr ctrl) -> x = NaN) by (apply (gap_time_nan Y pre ctrl tr (sd_zeta cfg) t a); auto).
  assert (S : gr_se r = NaN \/ gr_se r = Fin 0).
  { rewrite ES, Hm in *. cbn [String.eqb Ascii.eqb Bool.eqb] in EE. unfold gap_placebo_se in EE.
    destruct (Nat.leb _ _); [injection EE as -> ->; auto|].
    assert (N : forall x, In x (map (fun p => gap_placebo_one Y pre pst (gap_tw cfg Y pre tr ctrl) (length ctrl - length tr)
                           (map (fun k => (nth k ctrl 0%Z, nth k omega (Fin 0))) p)) perms) -> x = NaN).
    { intros x Hx. apply in_map_iff in Hx. destruct Hx as (p & <- & _). unfold gap_placebo_one. apply gap_sdid_lam_nan; [apply gap_time_length| |exact LN].
      destruct pre; [cbn in Hp; lia|discriminate]. }
    destruct (map _ perms) as [|x [|x' l]]; [injection EE as -> _; auto..|]. left. injection EE as -> _.
    rewrite gstd_nan; [reflexivity|]. left. apply N. left. reflexivity. }
  split; [|split; [exact S|]].
  - intros p x Hx. rewrite EW in Hx. apply LN. apply in_combine_r in Hx. exact Hx.
  - destruct (gap_finish_gap _ _ _ _ _ _ _ _ _ _ t a H ltac:(apply in_app_iff; auto) Ha HY) as (_ & _ & K).
    assert (F : flt (Fin 0) (gr_se r) = false).
    { destruct S as [-> | ->]; [reflexivity|]. cbn. destruct (Rltb 0 0) eqn:E; [apply Rltb_true in E; lra|reflexivity]. }
    rewrite F in K. exact K.
Qed.

(* a draw with a gap makes the bootstrap standard error undefined *)
Lemma gap_finish_boot cfg Y pre pst tr ctrl nobs draws perms r eff t a D : finish cfg Y pre pst tr ctrl nobs draws perms = Ok r ->
  sd_method cfg = "bootstrap"%string -> b <> BNumpy true ->
  In t (pre ++ pst) -> In a (tr ++ ctrl) -> Y t a = NaN ->
  In D draws -> In a D -> (exists c, In c D /\ In c tr) -> (exists c, In c D /\ In c ctrl) ->
  gr_draws r = Some eff -> (2 <= length eff)%nat ->
  gr_se r = NaN /\ g_t (gr_inf r) = Fin 0 /\ g_p (gr_inf r) = Fin 1.
Proof.
  intros H Hm Hb Ht Ha HY HD HaD (c1 & D1 & T1) (c2 & D2 & T2) HE HL.
  destruct (gap_finish_inv _ _ _ _ _ _ _ _ _ _ H) as (omega & se & eff' & EO & EA & _ & EW & ES & EI & ED & _ & _ & _ & E2 & EE).
  rewrite Hm in EE. cbn [String.eqb Ascii.eqb Bool.eqb] in EE. destruct EE as [EE EG].
  assert (eff' = eff) as -> by (rewrite HE in ED; destruct eff'; [discriminate|congruence]).
  assert (S : gr_se r = NaN).
  { rewrite ES, EG by exact HL. apply gstd_nan. rewrite EE. apply somes_In. apply in_map_iff. exists D. split; [|exact HD].
    unfold gap_boot_one.
    assert (I1 : In c1 (filter (fun v => zmem v tr) D)) by (apply filter_In; split; [auto|apply zmem_In; auto]).
    assert (I2 : In c2 (filter (fun v => zmem v ctrl) D)) by (apply filter_In; split; [auto|apply zmem_In; auto]).
    assert (I3 : In a (filter (fun v => zmem v tr) D ++ filter (fun v => zmem v ctrl) D)).
    { apply in_app_iff. apply in_app_iff in Ha. destruct Ha as [Ha|Ha]; [left|right]; apply filter_In; split; auto; apply zmem_In; auto. }
    set (bt := filter (fun v => zmem v tr) D) in *. set (bc := filter (fun v => zmem v ctrl) D) in *.
    destruct bt as [|x bt']; [contradiction|]. destruct bc as [|x' bc']; [contradiction|].
    unfold gap_point. destruct (gap_omega backend b fsort iter gnrm cfg Y pre (x :: bt') (x' :: bc')) as [w|e] eqn:EW'; cbn [bind].
    - f_equal. apply (gap_sdid_nan Y pre pst _ _ _ _ t a); auto; [exact (gap_omega_length _ _ _ _ _ _ EW')|apply gap_time_length].
    - exfalso. unfold gap_omega, gap_weights in EW'. destruct (map _ (x' :: bc')) as [|? [|? ?]]; [discriminate..|].
      destruct (_ && _); [discriminate|]. unfold gcore in EW'. destruct b as [|[|]]; [discriminate|congruence|]. cbn in EW'. discriminate. }
  split; [exact S|].
  destruct (gap_finish_gap _ _ _ _ _ _ _ _ _ _ t a H Ht Ha HY) as (_ & _ & K). rewrite S in K. exact K.
Qed.

(* a gap of treated units after treatment, placebo variance: weights, draws and standard error are those of any completion *)
Definition be_local : Prop := forall pre c c' g g' l, (forall t, In t pre -> g t = g' t) ->
  Forall2 (fun f f' => forall t, In t pre -> f t = f' t) c c' -> c <> [] -> backend pre c g l = backend pre c' g' l.
Hypothesis Hloc : be_local.

Lemma gmean_ext Y Y' tr t : (forall a, In a tr -> Y t a = Y' t a) -> gmean Y tr t = gmean Y' tr t.
Proof. intros H. unfold gmean. f_equal. apply map_ext_in. exact H. Qed.
Lemma fmean_finite {A} (f : A -> fl) l : l <> [] -> (forall a, In a l -> ffinite (f a) = true) -> ffinite (fmean (map f l)) = true.
Proof.
  intros Hn H. assert (E : map f l = map Fin (map (fun a => unfin (f a)) l)).
  { rewrite map_map. apply map_ext_in. intros a Ha. specialize (H a Ha). destruct (f a); [reflexivity|discriminate..]. }
  rewrite E, fmean_fin; [reflexivity|]. destruct l; [congruence|discriminate].
Qed.
Lemma gdot_ext {A} w (f g : A -> fl) l : (forall a, In a l -> f a = g a) -> gdot w f l = gdot w g l.
Proof. intros H. unfold gdot. f_equal. apply map_ext_in. intros [x a] Hi. apply in_combine_r in Hi. cbn. rewrite H by exact Hi. reflexivity. Qed.
Lemma gap_sdid_ext Y Y' pre post ctrl ytr ytr' omega lam : (forall t a, In t (pre ++ post) -> In a ctrl -> Y t a = Y' t a) ->
  (forall t, In t (pre ++ post) -> ytr t = ytr' t) -> gap_sdid Y pre post ctrl ytr omega lam = gap_sdid Y' pre post ctrl ytr' omega lam.
Proof.
  intros HY Hy. unfold gap_sdid. f_equal; [f_equal|].
  - f_equal. apply map_ext_in. intros t Ht. apply Hy, in_app_iff; auto.
  - apply gdot_ext. intros t Ht. apply Hy, in_app_iff; auto.
  - apply gdot_ext. intros a Ha. f_equal; [f_equal; apply map_ext_in|apply gdot_ext]; intros t Ht; apply HY; auto; apply in_app_iff; auto.
Qed.
Lemma gap_tw_ext cfg Y Y' pre tr ctrl : (forall t a, In t pre -> In a (tr ++ ctrl) -> Y t a = Y' t a) -> gap_tw cfg Y pre tr ctrl = gap_tw cfg Y' pre tr ctrl.
Proof.
  intros HY. unfold gap_tw, gap_time_weights. destruct pre as [|p0 [|p1 pre]]; [reflexivity..|]. set (ps := p0 :: p1 :: pre) in *.
  assert (E : map (fun t => fabs (fsub (gmean Y tr t) (fmean (map (Y t) ctrl)))) ps = map (fun t => fabs (fsub (gmean Y' tr t) (fmean (map (Y' t) ctrl)))) ps).
  { apply map_ext_in. intros t Ht. f_equal. f_equal; [apply gmean_ext; intros a Ha; apply HY; auto; apply in_app_iff; auto|].
    f_equal. apply map_ext_in. intros a Ha. apply HY; auto. apply in_app_iff; auto. }
  cbv zeta. rewrite E. reflexivity.
Qed.
Lemma gap_omega_ext cfg Y Y' pre tr ctrl : tr <> [] -> (forall t a, In t pre -> In a (tr ++ ctrl) -> Y t a = Y' t a /\ ffinite (Y t a) = true) ->
  gap_omega backend b fsort iter gnrm cfg Y pre tr ctrl = gap_omega backend b fsort iter gnrm cfg Y' pre tr ctrl.
Proof.
  intros Htr HY. unfold gap_omega.
  assert (F : forall V, (forall t a, In t pre -> In a (tr ++ ctrl) -> ffinite (V t a) = true) ->
    forallb (fun c => all_finite c pre) (map (fun j t => V t j) ctrl) && all_finite (gmean V tr) pre = true).
  { intros V HV. apply Bool.andb_true_iff. split.
    - apply forallb_forall. intros c Hc. apply in_map_iff in Hc. destruct Hc as (j & <- & Hj). apply forallb_forall. intros t Ht. apply HV; auto. apply in_app_iff; auto.
    - apply forallb_forall. intros t Ht. unfold gmean. apply fmean_finite; [exact Htr|]. intros a Ha. apply HV; auto. apply in_app_iff; auto. }
  assert (F1 := F Y ltac:(intros; apply HY; auto)).
  assert (F2 := F Y' ltac:(intros t a Ht Ha; destruct (HY t a Ht Ha) as [<- K]; exact K)).
  clear F. unfold gap_weights. destruct ctrl as [|j0 [|j1 js]]; [reflexivity..|]. set (cs := j0 :: j1 :: js) in *.
  assert (B : backend pre (map (fun (c : Z -> fl) t => unfin (c t)) (map (fun j t => Y t j) cs)) (fun t => unfin (gmean Y tr t)) (sd_lambda cfg) =
          backend pre (map (fun (c : Z -> fl) t => unfin (c t)) (map (fun j t => Y' t j) cs)) (fun t => unfin (gmean Y' tr t)) (sd_lambda cfg)).
  { apply Hloc.
    - intros t Ht. f_equal. apply gmean_ext. intros a Ha. apply HY; auto. apply in_app_iff; auto.
    - rewrite !map_map. assert (K : forall j, In j cs -> In j (tr ++ cs)) by (intros; apply in_app_iff; auto). clearbody cs. clear F1 F2.
      revert K HY. generalize (tr ++ cs). intros L. clear Htr. induction cs as [|j l IH]; intros K HY; constructor.
      + intros t Ht. f_equal. apply HY; auto. apply K. left; reflexivity.
      + apply IH; auto. intros; apply K; right; auto.
    - discriminate. }
  subst cs. cbn [map] in *. rewrite F1, F2, B. reflexivity.
Qed.
Lemma firstn_In {A} k (l : list A) x : In x (firstn k l) -> In x l.
Proof. intros H. rewrite <- (firstn_skipn k l). apply in_app_iff; auto. Qed.
Lemma skipn_In {A} k (l : list A) x : In x (skipn k l) -> In x l.
Proof. intros H. rewrite <- (firstn_skipn k l). apply in_app_iff; auto. Qed.
Lemma gap_placebo_ext Y Y' pre post lam k (perm : list (Z * fl)) : (forall t p, In t (pre ++ post) -> In p perm -> Y t (fst p) = Y' t (fst p)) ->
  gap_placebo_one Y pre post lam k perm = gap_placebo_one Y' pre post lam k perm.
Proof.
  intros H. unfold gap_placebo_one. apply gap_sdid_ext.
  - intros t a Ht Ha. apply in_map_iff in Ha. destruct Ha as (p & <- & Hp). apply H; auto. eapply firstn_In; eauto.
  - intros t Ht. apply gmean_ext. intros a Ha. apply in_map_iff in Ha. destruct Ha as (p & <- & Hp). apply H; auto. eapply skipn_In; eauto.
Qed.

Lemma gap_finish_post cfg Y Y' pre pst tr ctrl nobs draws perms r r' :
  finish cfg Y pre pst tr ctrl nobs draws perms = Ok r -> finish cfg Y' pre pst tr ctrl nobs draws perms = Ok r' ->
  sd_method cfg = "placebo"%string -> tr <> [] ->
  (forall p, In p perms -> Permutation p (seq 0 (length ctrl))) ->
  (forall t a, In t pre -> In a (tr ++ ctrl) -> Y t a = Y' t a /\ ffinite (Y t a) = true) ->
  (forall t a, In t pst -> In a ctrl -> Y t a = Y' t a) ->
  (exists t a, In t pst /\ In a tr /\ Y t a = NaN) ->
  gr_unit_w r = gr_unit_w r' /\ gr_time_w r = gr_time_w r' /\ gr_draws r = gr_draws r' /\ gr_se r = gr_se r' /\ gr_att r = NaN /\
  (flt (Fin 0) (gr_se r') = true ->
   exists eff, gr_draws r' = Some eff /\ g_p (gr_inf r) = Fin (1 / (len eff + 1)) /\
   (1 / (len eff + 1) < sd_alpha cfg -> gap_significant r = true)).
Proof.
  intros H H' Hm Htr Hp Hpre Hpost (t & a & Ht & Ha & HY).
  destruct (gap_finish_inv _ _ _ _ _ _ _ _ _ _ H) as (omega & se & eff & EO & EA & EU & EW & ES & EI & ED & EAl & _ & _ & E2 & EE).
  destruct (gap_finish_inv _ _ _ _ _ _ _ _ _ _ H') as (omega' & se' & eff' & EO' & EA' & EU' & EW' & ES' & EI' & ED' & _ & _ & _ & E2' & EE').
  rewrite Hm in EE, EE'. cbn [String.eqb Ascii.eqb Bool.eqb] in EE, EE'.
  rewrite (gap_omega_ext cfg Y Y' pre tr ctrl Htr Hpre) in EO. assert (omega' = omega) as -> by congruence.
  assert (ET : gap_tw cfg Y pre tr ctrl = gap_tw cfg Y' pre tr ctrl) by (apply gap_tw_ext; intros; apply Hpre; auto).
  assert (EX : (se, eff) = (se', eff')).
  { rewrite EE, EE', ET. f_equal. apply map_ext_in. intros p Hi. apply gap_placebo_ext. intros s q Hs Hq.
    apply in_map_iff in Hq. destruct Hq as (k & <- & Hk). cbn [fst].
    assert (L : (k < length ctrl)%nat) by (specialize (Hp p Hi); apply (Permutation_in _ Hp), in_seq in Hk; lia).
    assert (IC : In (nth k ctrl 0%Z) ctrl) by (apply nth_In; exact L).
    apply in_app_iff in Hs. destruct Hs as [Hs|Hs]; [apply Hpre|apply Hpost]; auto. apply in_app_iff; auto. }
  injection EX as -> ->.
  destruct (gap_finish_gap _ _ _ _ _ _ _ _ _ _ t a H ltac:(apply in_app_iff; auto) ltac:(apply in_app_iff; auto) HY) as (K1 & _ & K3).
  rewrite EU, EU', EW, EW', ET, ED, ED', ES, ES', K1.
  split; [reflexivity|]. split; [reflexivity|]. split; [reflexivity|]. split; [reflexivity|]. split; [reflexivity|].
  intros F. rewrite ES, F in K3. destruct K3 as (e & De & Le & _ & Pe). exists e. rewrite ED in De. split; [exact De|]. split; [exact Pe|].
  intros Hal. unfold gap_significant. rewrite Pe, EAl. cbn. apply Rltb_true. exact Hal.
Qed.
End Thms.

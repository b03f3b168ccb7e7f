(* HonestDiD, smoothness restriction: the bounds are linear in M, the exact breakdown value, and what depends
   on the unit of the outcome. *)
From Verif Require Import Prelude Flt Stats_model Linalg_model Linalg_proofs Linalg_vcov Linalg_thms Did_equiv Lp Multi_model Results_model
  Honest_model Honest_proofs Honest_sd Honest_fit Honest_ex Scale_flt Honest_scale.
From Coq Require Import Arith ZArith String List Lia Lra.
Import ListNotations.
Open Scope R_scope.

(* the values l'(b - delta) over the trend violations whose second differences are at most M *)
Definition sd_value (npre : nat) (l b : list R) (M v : R) : Prop :=
  exists delta, length delta = (npre + length l)%nat /\
    (forall i, (i + 2 < npre + length l)%nat -> Rabs (diff2 delta i) <= M) /\
    v = ldot l b - ldot l (skipn npre delta).

Lemma sd_value_scal npre l b M t u : 0 <= M ->
  sd_value npre l b M (ldot l b + u) -> sd_value npre l b (Rabs t * M) (ldot l b + t * u).
Proof.
  intros HM (d & L & F & E). exists (map (Rmult t) d). split; [rewrite map_length; exact L|]. split.
  - intros i Hi. rewrite diff2_scal by lia. rewrite Rabs_mult. apply Rmult_le_compat_l; [apply Rabs_pos|apply F; exact Hi].
  - rewrite skipn_map, ldot_scal_r. nra.
Qed.

Lemma ldot_self_pos l : norm1 l <> 0 -> 0 < ldot l l.
Proof.
  assert (N : forall l, 0 <= ldot l l) by (induction l0; simpl; [lra|nra]).
  induction l as [|a l IH]; simpl; intros H; [congruence|]. specialize (N l).
  destruct (Req_EM_T a 0) as [->|Ha]; [|assert (0 < a * a) by nra; lra].
  rewrite Rabs_R0, Rplus_0_l in H. specialize (IH H). lra.
Qed.
Lemma nth_norm1 l i : Rabs (nth i l 0) <= norm1 l.
Proof.
  revert i. induction l as [|a l IH]; intros [|i]; simpl; rewrite ?Rabs_R0; try lra.
  - pose proof (norm1_nonneg l). lra.
  - specialize (IH i). pose proof (Rabs_pos a). lra.
Qed.

Section L.
Variable lp : nat -> list con -> list R -> option R.
Variable ppf : option Z -> R -> R.
Hypothesis Hlp : lp_ok lp.

(* the half-width is w M for one constant w, positive unless all weights are zero *)
Theorem smooth_linear npre b l : length b = length l -> informative npre l ->
  exists w, 0 <= w /\ (norm1 l <> 0 -> 0 < w) /\
    forall M, 0 <= M -> solve_bounds lp (map Fin b) l (cons_sd npre (length l) M) npre
      = (Fin (ldot l b - M * w), Fin (ldot l b + M * w)).
Proof.
  intros Lb (I1 & I2 & I3). set (th := ldot l b).
  destruct (smooth_sharp lp Hlp npre b l 1 Lb ltac:(lra) I1 I2 I3) as (lo & hi & E1 & A1 & _).
  assert (A1' : forall v, lo <= v <= hi <-> sd_value npre l b 1 v) by exact A1. clear A1.
  assert (T0 : forall M, 0 <= M -> sd_value npre l b M th).
  { intros M HM. exists (repeat 0 (npre + length l)). split; [apply repeat_length|]. split.
    - intros i Hi. unfold diff2. rewrite !nth_repeat. replace (0 - 2 * 0 + 0) with 0 by ring. rewrite Rabs_R0. exact HM.
    - assert (Z0 : forall k n, ldot k (skipn n (repeat 0 (npre + length l))) = 0).
      { intros k n. assert (F : Forall (fun x => x = 0) (skipn n (repeat 0 (npre + length l)))).
        { apply Forall_forall. intros x Hx. apply (repeat_spec (npre + length l) 0 x).
          rewrite <- (firstn_skipn n (repeat 0 _)). apply in_or_app. auto. }
        revert F. generalize (skipn n (repeat 0 (npre + length l))). induction k as [|a k IH]; intros [|x z] F; simpl; auto.
        inversion F; subst. rewrite IH by auto. ring. }
      rewrite Z0. fold th. ring. }
  pose proof (proj2 (A1' th) (T0 1 ltac:(lra))) as [Hlo Hhi].
  assert (SY : lo - th = - (hi - th)).
  { assert (N : forall u, sd_value npre l b 1 (th + u) -> sd_value npre l b 1 (th + - u)).
    { intros u Hu. pose proof (sd_value_scal npre l b 1 (-1) u ltac:(lra) Hu) as K.
      replace (Rabs (-1) * 1) with 1 in K by (rewrite Rabs_left; lra). replace (ldot l b + -1 * u) with (th + - u) in K by (unfold th; ring). exact K. }
    assert (B1 : lo <= th + - (hi - th) <= hi).
    { apply A1', N. replace (th + (hi - th)) with hi by ring. apply A1'. lra. }
    assert (B2 : lo <= th + - (lo - th) <= hi).
    { apply A1', N. replace (th + (lo - th)) with lo by ring. apply A1'. lra. }
    lra. }
  exists (hi - th). split; [lra|]. split.
  - intros Hn. pose proof (norm1_nonneg l) as N0. set (e := / (4 * norm1 l)).
    assert (He : 0 < e) by (apply Rinv_0_lt_compat; lra).
    assert (Ee : e * norm1 l = 1/4) by (unfold e; field; lra).
    assert (V : sd_value npre l b 1 (th - e * ldot l l)).
    { exists (repeat 0 npre ++ map (Rmult e) l). split; [rewrite app_length, repeat_length, map_length; reflexivity|]. split.
      - assert (NB : forall i, Rabs (nth i (repeat 0 npre ++ map (Rmult e) l) 0) <= 1/4).
        { intros i. destruct (le_lt_dec npre i) as [H|H].
          - rewrite app_nth2 by (rewrite repeat_length; exact H). rewrite repeat_length.
            replace 0 with (e * 0) by ring. rewrite (map_nth (Rmult e)). rewrite Rabs_mult, (Rabs_pos_eq e) by lra.
            pose proof (nth_norm1 l (i - npre)). nra.
          - rewrite app_nth1 by (rewrite repeat_length; exact H). rewrite nth_repeat, Rabs_R0. lra. }
        intros i _. unfold diff2. pose proof (NB i) as B0. pose proof (NB (i + 1)%nat) as B1. pose proof (NB (i + 2)%nat) as B2.
        apply Rabs_le_inv in B0, B1, B2. apply Rabs_le. lra.
      - rewrite skipn_app, repeat_length, Nat.sub_diag, skipn_all2 by (rewrite repeat_length; auto). cbn [app skipn].
        rewrite ldot_scal_r. reflexivity. }
    apply A1' in V. pose proof (ldot_self_pos l Hn). assert (0 < e * ldot l l) by (apply Rmult_lt_0_compat; auto). lra.
  - intros M HM. destruct (smooth_sharp lp Hlp npre b l M Lb HM I1 I2 I3) as (lo' & hi' & E2 & A2 & Z2). rewrite E2.
    destruct (Req_EM_T M 0) as [->|NM]; [destruct (Z2 eq_refl) as [-> ->]; fold th; f_equal; f_equal; ring|].
    assert (P : 0 < M) by lra.
    assert (A2' : forall v, lo' <= v <= hi' <-> sd_value npre l b M v) by exact A2. clear A2.
    assert (IP : 0 < / M) by (apply Rinv_0_lt_compat; exact P).
    assert (K : forall u, sd_value npre l b M (th + M * u) <-> sd_value npre l b 1 (th + u)).
    { intros u. split; intros Hu.
      - pose proof (sd_value_scal npre l b M (/ M) (M * u) HM Hu) as Q. rewrite (Rabs_pos_eq (/ M)) in Q by lra.
        replace (/ M * M) with 1 in Q by (field; lra). replace (/ M * (M * u)) with u in Q by (field; lra). exact Q.
      - pose proof (sd_value_scal npre l b 1 M u ltac:(lra) Hu) as Q. rewrite (Rabs_pos_eq M) in Q by lra.
        rewrite Rmult_1_r in Q. exact Q. }
    pose proof (proj2 (A2' th) (T0 M HM)) as [Hlo' Hhi'].
    assert (C1 : lo' <= th + M * (hi - th) <= hi').
    { apply A2', K. replace (th + (hi - th)) with hi by ring. apply A1'. lra. }
    assert (C2 : lo' <= th + M * (lo - th) <= hi').
    { apply A2', K. replace (th + (lo - th)) with lo by ring. apply A1'. lra. }
    assert (C3 : lo <= th + / M * (hi' - th) <= hi).
    { apply A1', K. replace (th + M * (/ M * (hi' - th))) with hi' by (field; lra). apply A2'. lra. }
    assert (C4 : lo <= th + / M * (lo' - th) <= hi).
    { apply A1', K. replace (th + M * (/ M * (lo' - th))) with lo' by (field; lra). apply A2'. lra. }
    assert (D3 : hi' - th <= M * (hi - th)).
    { replace (hi' - th) with (M * (/ M * (hi' - th))) by (field; lra). apply Rmult_le_compat_l; lra. }
    assert (D4 : M * (lo - th) <= lo' - th).
    { replace (lo' - th) with (M * (/ M * (lo' - th))) by (field; lra). apply Rmult_le_compat_l; lra. }
    fold th. rewrite SY in C2, D4. f_equal; f_equal; lra.
Qed.

(* the whole profile of intervals of one analysis, and with it the exact breakdown point *)
Theorem smooth_profile cfg r M0 o p b l s : hd_method cfg = "smoothness"%string -> hd_fit lp ppf cfg r (Some M0) = Ok o ->
  hd_extract r = Ok p -> post_beta p = map Fin b -> hd_weights (hd_l cfg) (length b) = Ok l -> ho_se o = Fin s ->
  informative (ep_npre p) l ->
  exists w, 0 <= w /\ (norm1 l <> 0 -> 0 < w) /\
    forall M, 0 <= M -> exists o', hd_fit lp ppf cfg r (Some M) = Ok o' /\
      ho_lb o' = Fin (ldot l b - M * w) /\ ho_ub o' = Fin (ldot l b + M * w) /\
      ho_ci_lb o' = Fin (ldot l b - M * w - ppf None (1 - hd_alpha cfg / 2) * s) /\
      ho_ci_ub o' = Fin (ldot l b + M * w + ppf None (1 - hd_alpha cfg / 2) * s) /\
      includes lp ppf cfg r M = Ok (Rleb (Rabs (ldot l b)) (M * w + ppf None (1 - hd_alpha cfg / 2) * s)).
Proof.
  intros Hm H Ep Eb El Es HI. pose proof (weights_length _ _ _ El) as Ll.
  destruct (smooth_linear (ep_npre p) b l (eq_sym Ll) HI) as (w & W0 & W1 & HW). exists w. split; [exact W0|]. split; [exact W1|].
  intros M HM. destruct (smooth_any lp ppf cfg r M0 M o Hm H) as (o' & H' & Es'). exists o'. split; [exact H'|].
  rewrite Es in Es'. set (z := ppf None (1 - hd_alpha cfg / 2)).
  pose proof (hd_fit_inv _ _ _ _ _ _ H') as (p' & l' & lb & ub & cl & cu & E1 & E2 & E3 & E4 & E5 & E6 & E7 & E8 & E9 & E10 & E).
  rewrite Ep in E1. injection E1 as <-. rewrite Eb, map_length, El in E2. injection E2 as <-.
  rewrite Hm in E. cbn [String.eqb Ascii.eqb Bool.eqb] in E. rewrite E6 in E. unfold smooth_bounds in E.
  rewrite Eb, map_length, <- Ll, HW in E by exact HM.
  destruct (flci ppf _ _ (fsqrt (qform l (snd (post_sigma p)))) (hd_alpha cfg)) as [ci|] eqn:EF; [|discriminate].
  cbn [bind] in E. injection E as -> -> <- <-. rewrite <- E5, Es' in EF. apply flci_inv in EF as (F1 & F2 & ->).
  fold z in E9, E10. unfold fsub in E9, E10. cbn [fst snd fadd fmul fneg] in E9, E10.
  split; [exact E7|]. split; [exact E8|]. split; [exact E9|]. split; [exact E10|].
  unfold includes. rewrite H'. cbn [bind]. rewrite E9, E10. f_equal. unfold has_zero. cbn [fle].
  set (th := ldot l b). destruct (Rleb (Rabs th) (M * w + z * s)) eqn:E.
  - apply Rleb_true in E. apply Rabs_le_inv in E. apply andb_true_intro. split; apply Rleb_true; lra.
  - apply Bool.andb_false_iff.
    destruct (Rleb (th - M * w + - (z * s)) 0) eqn:G1; [|auto].
    destruct (Rleb 0 (th + M * w + z * s)) eqn:G2; [|auto]. apply Rleb_true in G1, G2.
    assert (Rleb (Rabs th) (M * w + z * s) = true) by (apply Rleb_true, Rabs_le; lra). congruence.
Qed.

Lemma while_bisect_ext_in inc inc' tol fuel : forall lo hi, lo <= hi ->
  (forall M, lo <= M <= hi -> inc M = inc' M) -> while_bisect fuel inc tol lo hi = while_bisect fuel inc' tol lo hi.
Proof.
  induction fuel as [|f IH]; intros lo hi HL H; cbn [while_bisect]; [reflexivity|].
  rewrite (H ((lo + hi) / 2)) by lra. destruct (Rlt_dec tol (hi - lo)); [|reflexivity].
  destruct (inc' ((lo + hi) / 2)) as [[|]|]; [| |reflexivity]; apply IH; try lra; intros M HM; apply H; lra.
Qed.

Lemma threshold_search cfg r x tol : (forall M, 0 <= M -> includes lp ppf cfg r M = Ok (Rleb x M)) -> 0 < tol ->
  exists n, forall fuel, (n <= fuel)%nat -> exists v, breakdown_value lp ppf fuel cfg r tol = Some (Ok v) /\
    (x <= 0 -> v = Some 0) /\ (10 < x -> v = None) /\ (0 < x <= 10 -> exists b, v = Some b /\ Rabs (b - x) <= tol / 2).
Proof.
  intros Hi Ht. destruct (enough_fuel tol Ht) as (n & Hn). exists n. intros fuel Hf. unfold breakdown_value.
  rewrite !Hi by lra.
  destruct (Rleb x 0) eqn:F0.
  - apply Rleb_true in F0. exists (Some 0). split; auto. split; auto. split; lra.
  - pose proof F0 as F0'. apply Rleb_false in F0. destruct (Rleb x 10) eqn:F10.
    + rewrite (while_bisect_ext_in _ (fun M => Ok (Rleb x M))) by (try lra; intros M HM; apply Hi; lra).
      destruct (while_bisect fuel (fun M => Ok (Rleb x M)) tol 0 10) as [q|] eqn:W.
      * destruct (while_bisect_brackets _ (Rleb x) tol fuel (fun M => eq_refl) 0 10 q F0' F10 ltac:(lra) W) as (a & c & -> & Ha & Hb & Fa & Fb & Hab).
        apply Rleb_false in Fa. apply Rleb_true in Fb. apply Rleb_true in F10.
        exists (Some ((a + c) / 2)). split; auto. split; [lra|]. split; [lra|]. intros _. exists ((a + c) / 2). split; auto.
        apply Rabs_le. lra.
      * exfalso. apply (while_bisect_stops (fun M => Ok (Rleb x M)) (Rleb x) tol (fun M => eq_refl) fuel 0 10); [lra| |exact W].
        assert (2 ^ n <= 2 ^ fuel) by (apply Rle_pow; [lra|auto]). nra.
    + apply Rleb_false in F10. exists None. split; auto. split; [lra|]. split; auto. lra.
Qed.

Theorem smooth_breakdown_exact cfg r M0 o p b l s tol : hd_method cfg = "smoothness"%string -> hd_fit lp ppf cfg r (Some M0) = Ok o ->
  hd_extract r = Ok p -> post_beta p = map Fin b -> hd_weights (hd_l cfg) (length b) = Ok l -> ho_se o = Fin s ->
  informative (ep_npre p) l -> norm1 l <> 0 -> 0 < tol ->
  exists w, 0 < w /\
    (forall M, 0 <= M -> includes lp ppf cfg r M = Ok (Rleb ((Rabs (ldot l b) - ppf None (1 - hd_alpha cfg / 2) * s) / w) M)) /\
    exists n, forall fuel, (n <= fuel)%nat -> exists v, breakdown_value lp ppf fuel cfg r tol = Some (Ok v) /\
      ((Rabs (ldot l b) - ppf None (1 - hd_alpha cfg / 2) * s) / w <= 0 -> v = Some 0) /\
      (10 < (Rabs (ldot l b) - ppf None (1 - hd_alpha cfg / 2) * s) / w -> v = None) /\
      (0 < (Rabs (ldot l b) - ppf None (1 - hd_alpha cfg / 2) * s) / w <= 10 ->
         exists m, v = Some m /\ Rabs (m - (Rabs (ldot l b) - ppf None (1 - hd_alpha cfg / 2) * s) / w) <= tol / 2).
Proof.
  intros Hm H Ep Eb El Es HI Hn Ht.
  destruct (smooth_profile cfg r M0 o p b l s Hm H Ep Eb El Es HI) as (w & W0 & W1 & HW).
  exists w. split; [auto|]. assert (Hinc : forall M, 0 <= M ->
    includes lp ppf cfg r M = Ok (Rleb ((Rabs (ldot l b) - ppf None (1 - hd_alpha cfg / 2) * s) / w) M)).
  { intros M HM. destruct (HW M HM) as (o' & _ & _ & _ & _ & _ & E). rewrite E. f_equal. apply threshold. auto. }
  split; [exact Hinc|]. apply threshold_search; auto.
Qed.

(* combined restrictions: with uninformative weights (the default ones) M is again a pure number *)
Theorem combined_fit_scale s cfg r M p b l : 0 < s -> hd_method cfg = "combined"%string -> 0 <= M ->
  hd_extract r = Ok p -> post_beta p = map Fin b -> hd_weights (hd_l cfg) (length b) = Ok l -> ~ informative (ep_npre p) l ->
  hd_fit lp ppf cfg (scale_results s r) (Some M) = res_map (scale_out s M) (hd_fit lp ppf cfg r (Some M)).
Proof.
  intros Hs Hm HM Ep Eb El NI. unfold hd_fit. cbv zeta. rewrite extract_sc by auto. rewrite Ep. cbn [res_map bind].
  assert (Hr : r <> HOther) by (intros ->; discriminate).
  destruct (post_sigma_sc s p) as [E1 E2]. rewrite post_beta_sc, map_length.
  destruct (post_sigma (scale_params s p)) as [sz' Sg']. destruct (post_sigma p) as [sz Sg]. cbn [fst snd] in *. subst sz'.
  rewrite Eb, !map_length, El. cbn [bind]. pose proof (weights_length _ _ _ El) as Ll.
  destruct (negb (Nat.eqb sz (length b))); [reflexivity|]. rewrite Hm. cbn [String.eqb Ascii.eqb Bool.eqb].
  change (ep_npre (scale_params s p)) with (ep_npre p).
  assert (Em : map (sc s) (map Fin b) = map Fin (map (Rmult s) b)) by (rewrite !map_map; apply map_ext; intros; reflexivity).
  assert (S1 : solve_bounds lp (map Fin b) l (cons_sd (ep_npre p) (length b) M) (ep_npre p) = (NInf, PInf)).
  { rewrite <- Ll. apply (solve_uninformative lp Hlp); auto. }
  assert (S2 : solve_bounds lp (map (sc s) (map Fin b)) l (cons_sd (ep_npre p) (length b) M) (ep_npre p) = (NInf, PInf)).
  { rewrite Em, <- Ll. apply (solve_uninformative lp Hlp); auto. rewrite map_length. auto. }
  pose proof (rm_bounds_sc ppf s Hs (hd_alpha cfg) (map Fin b) Sg Sg' l M r Hr E2) as RB.
  unfold combined_bounds, smooth_bounds. rewrite S1, S2, RB.
  rewrite (qform_sc s Hs l Sg Sg' E2), (sc_sqrt s Hs), fdot_sc by auto.
  assert (FI : forall se, flci ppf NInf PInf (sc s se) (hd_alpha cfg)
    = res_map (fun c => (sc s (fst c), sc s (snd c))) (flci ppf NInf PInf se (hd_alpha cfg))).
  { intros se. rewrite <- flci_sc by auto. rewrite sc_pinf, sc_ninf by auto. reflexivity. }
  rewrite FI. destruct (flci ppf NInf PInf _ _) as [[c1 c2]|]; [|reflexivity]. cbn [res_map bind fst snd].
  destruct (rm_bounds ppf _ _ Sg _ _ _) as [[[a1 a2] a3] a4]. cbn [sc4].
  unfold py_max2, py_min2, fgt.
  assert (Y1 : flt NInf (sc s a1) = flt NInf a1) by (rewrite <- (hsc_flt s Hs NInf a1), sc_ninf by auto; reflexivity).
  assert (Y2 : flt (sc s a2) PInf = flt a2 PInf) by (rewrite <- (hsc_flt s Hs a2 PInf), sc_pinf by auto; reflexivity).
  rewrite Y1, Y2.
  assert (X1 : (if flt NInf a1 then sc s a1 else NInf) = sc s (if flt NInf a1 then a1 else NInf)) by (destruct (flt NInf a1); rewrite ?sc_ninf by auto; reflexivity).
  assert (X2 : (if flt a2 PInf then sc s a2 else PInf) = sc s (if flt a2 PInf then a2 else PInf)) by (destruct (flt a2 PInf); rewrite ?sc_pinf by auto; reflexivity).
  rewrite X1, X2, hsc_flt by auto. set (A := if flt NInf a1 then a1 else NInf). set (B := if flt a2 PInf then a2 else PInf).
  destruct (flt B A); rewrite flci_sc by auto.
  - destruct (flci ppf (fdot l (map Fin b)) (fdot l (map Fin b)) _ _) as [[d1 d2]|]; reflexivity.
  - destruct (flci ppf A B _ _) as [[d1 d2]|]; reflexivity.
Qed.
End L.

(* Entry points that only pass on to functions already treated: the TripleDifference constructor,
   compute_honest_did, PreTrendsPower.power_at, the finished divorce table, table levels and columns. *)
From Verif Require Import Prelude Flt Stats_model Did_model Multi_model Triple_model Honest_model Pretrends_model Pretrends_proofs Pretrends_thms
  Results_model Staggered_model Export_model Data_model Data_proofs Data_thms Diag_model.
From Coq Require Import Arith ZArith String List Lia.
Import ListNotations.
Open Scope R_scope.

(* TripleDifference(...) *)
Theorem ddd_init_spec m robust alpha trim action :
  (forall cfg, ddd_init m robust alpha trim action = Ok cfg <->
     (m = "dr" \/ m = "reg" \/ m = "ipw")%string /\ (action = "warn" \/ action = "error" \/ action = "silent")%string /\
     cfg = {| dd_method := m; dd_robust := robust; dd_alpha := alpha; dd_trim := trim; dd_action := action |}) /\
  (forall e, ddd_init m robust alpha trim action = Err e -> e = ValueError).
Proof.
  unfold ddd_init. simpl.
  assert (Q : forall s a b c, (String.eqb s a || (String.eqb s b || (String.eqb s c || false)) = true)%bool <-> (s = a \/ s = b \/ s = c)).
  { intros. rewrite !Bool.orb_true_iff, !String.eqb_eq. intuition congruence. }
  destruct (String.eqb m "dr" || (String.eqb m "reg" || (String.eqb m "ipw" || false)))%bool eqn:E1; simpl.
  2: { split; [|now intros e [= <-]]. intros cfg. split; [discriminate|]. intros (H & _). apply Q in H. congruence. }
  destruct (String.eqb action "warn" || (String.eqb action "error" || (String.eqb action "silent" || false)))%bool eqn:E2; simpl.
  2: { split; [|now intros e [= <-]]. intros cfg. split; [discriminate|]. intros (_ & H & _). apply Q in H. congruence. }
  apply Q in E1, E2. split; [|discriminate]. intros cfg. split.
  - intros [= <-]. auto.
  - intros (_ & _ & ->). reflexivity.
Qed.

(* compute_honest_did(results, method, M, alpha) *)
Theorem honest_convenience lp ppf r method M alpha :
  (forall o, compute_honest lp ppf r method M alpha = Ok o <->
     (method = "smoothness" \/ method = "relative_magnitude" \/ method = "combined")%string /\ 0 <= M /\ 0 < alpha < 1 /\
     hd_fit lp ppf {| hd_method := method; hd_M := M; hd_alpha := alpha; hd_l := None |} r None = Ok o) /\
  (forall o, compute_honest lp ppf r method M alpha = Ok o -> ho_method o = method /\ ho_M o = M /\ ho_alpha o = alpha) /\
  (M < 0 -> compute_honest lp ppf r method M alpha = Err ValueError).
Proof.
  assert (G : forall o, compute_honest lp ppf r method M alpha = Ok o <->
     (method = "smoothness" \/ method = "relative_magnitude" \/ method = "combined")%string /\ 0 <= M /\ 0 < alpha < 1 /\
     hd_fit lp ppf {| hd_method := method; hd_M := M; hd_alpha := alpha; hd_l := None |} r None = Ok o).
  { intros o. unfold compute_honest, hd_init.
    destruct (String.eqb method "smoothness" || String.eqb method "relative_magnitude" || String.eqb method "combined")%bool eqn:E.
    - rewrite !Bool.orb_true_iff, !String.eqb_eq in E. cbn [negb].
      destruct (Rlt_dec M 0); cbn [bind]; [split; [discriminate|intros; lra]|].
      destruct (Rlt_dec 0 alpha); cbn [bind]; [|split; [discriminate|intros; lra]].
      destruct (Rlt_dec alpha 1); cbn [bind]; [|split; [discriminate|intros; lra]].
      split; [intros H; repeat split; auto; try lra; intuition|intros (_ & _ & _ & H); exact H].
    - cbn [negb bind]. split; [discriminate|]. intros (H & _).
      rewrite !Bool.orb_false_iff in E. destruct E as [[E1 E2] E3].
      destruct H as [-> | [-> | ->]]; discriminate. }
  split; [exact G|]. split.
  - intros o H. apply G in H as (_ & _ & _ & H). unfold hd_fit in H. cbn [hd_M hd_method hd_alpha hd_l] in H.
    destruct (hd_extract r) as [p|]; [|discriminate]. cbn [bind] in H.
    destruct (post_sigma p) as [size Sg]. destruct (hd_weights None (length (post_beta p))) as [l|]; [|discriminate].
    cbn [bind] in H. destruct (negb _); [discriminate|].
    match type of H with (do b <- ?e ; _) = _ => destruct e as [b|]; [|discriminate] end.
    cbn [bind] in H. destruct b as [[[? ?] ?] ?]. injection H as <-. auto.
  - intros HM. unfold compute_honest, hd_init. destruct (negb _); [reflexivity|].
    destruct (Rlt_dec M 0); [reflexivity|lra].
Qed.

Section PowerAt.
Variables (chi2_ppf : R -> nat -> R) (ncx2_sf ncx2_cdf : R -> nat -> R -> R) (norm_ppf : R -> R)
  (brentq : (R -> R) -> R -> R -> option R) (minv : nat -> (nat -> nat -> R) -> option (nat -> nat -> R))
  (mpinv : nat -> (nat -> nat -> R) -> nat -> nat -> R).
Hypothesis Hx : ncx2_ok chi2_ppf ncx2_sf ncx2_cdf.
Notation fit := (pt_fit chi2_ppf ncx2_sf ncx2_cdf norm_ppf brentq minv mpinv).

(* the class's power_at is the power reported by a fit at M, and equals the result's own power_at *)
Theorem power_at_spec cfg r M pre :
  (forall p, pt_power_at chi2_ppf ncx2_sf ncx2_cdf norm_ppf brentq minv mpinv cfg r M pre = Ok p <->
     exists x, fit cfg r (Some M) pre = Ok x /\ pr_power x = p /\ pr_M x = Fin M) /\
  (forall p M0 x q, pt_power_at chi2_ppf ncx2_sf ncx2_cdf norm_ppf brentq minv mpinv cfg r M pre = Ok p ->
     size_ok cfg -> pc_type cfg <> "custom"%string -> fit cfg r M0 pre = Ok x ->
     vquad minv mpinv (pr_n x) (pr_vcov x) (res_weights (pr_type x) (pr_n x)) = Fin q -> 0 <= q ->
     res_power_at ncx2_cdf minv mpinv x M = Fin p).
Proof.
  assert (G : forall p, pt_power_at chi2_ppf ncx2_sf ncx2_cdf norm_ppf brentq minv mpinv cfg r M pre = Ok p <->
     exists x, fit cfg r (Some M) pre = Ok x /\ pr_power x = p /\ pr_M x = Fin M).
  { intros p. unfold pt_power_at. destruct (fit cfg r (Some M) pre) as [x|e] eqn:E; cbn [bind].
    - assert (pr_M x = Fin M).
      { unfold pt_fit in E. destruct (pt_extract r pre) as [q|]; [|discriminate]. cbn [bind] in E.
        destruct (pt_weights cfg (pp_n q)) as [w|]; [|discriminate]. cbn [bind] in E.
        destruct (pt_power _ _ _ _ _ _ _ _) as [[[? ?] ?] ?]. now injection E as <-. }
      split; [intros [= <-]; eauto|]. intros (x' & [= <-] & <- & _). reflexivity.
    - split; [discriminate|]. intros (x & H & _). discriminate. }
  split; [exact G|]. intros p M0 x q H Hs Hc Hf Hq Hp. apply G in H as (x1 & Hx1 & <- & _).
  destruct (power_at_agrees chi2_ppf ncx2_sf ncx2_cdf norm_ppf brentq minv mpinv Hx cfg r M0 M pre x q Hs Hc Hf Hq Hp) as (x' & Hx' & ->).
  rewrite Hx1 in Hx'. now injection Hx' as <-.
Qed.
End PowerAt.

(* the divorce table: every row once, in order; under absorbing laws the treatment column is the
   indicator of the rows from the first treated year on *)
Theorem divorce_table rows :
  map (fun x => fst (fst x)) (divorce_finish rows) = rows /\
  (forall r g d, In (r, g, d) (divorce_finish rows) -> g = divorce_first rows (lr_state r) /\ d = lr_unilateral r) /\
  ((forall q, In q rows -> lr_unilateral q = 0 \/ lr_unilateral q = 1) ->
   (forall q q', In q rows -> In q' rows -> lr_state q = lr_state q' -> (lr_year q <= lr_year q')%Z -> lr_unilateral q = 1 -> lr_unilateral q' = 1) ->
   (forall q, In q rows -> (0 < lr_year q)%Z) ->
   forall r g d, In (r, g, d) (divorce_finish rows) -> d = if ((0 <? g) && (g <=? lr_year r))%Z then 1 else 0).
Proof.
  split; [unfold divorce_finish; rewrite map_map; simpl; apply map_id|].
  assert (G : forall r g d, In (r, g, d) (divorce_finish rows) -> In r rows /\ g = divorce_first rows (lr_state r) /\ d = lr_unilateral r).
  { intros r g d H. unfold divorce_finish in H. apply in_map_iff in H as (q & [= <- <- <-] & Hq). auto. }
  split; [intros r g d H; now apply G in H|].
  intros H01 Hab Hpos r g d H. apply G in H as (Hr & -> & ->).
  destruct (divorce_first_spec rows r H01 Hab Hpos Hr) as [H1 _].
  destruct (H01 r Hr) as [E|E]; rewrite E in *.
  - destruct (_ && _)%bool eqn:B; [|reflexivity]. apply andb_prop in B as [B1 B2].
    apply Z.ltb_lt in B1. apply Z.leb_le in B2. exfalso. assert (0 = 1) by (apply H1; lia). lra.
  - destruct (proj1 H1 eq_refl) as [B1 B2]. apply Z.ltb_lt in B1. apply Z.leb_le in B2. now rewrite B1, B2.
Qed.

(* the significance column of the period table is p < 0.05 row by row *)
Theorem table_significance l :
  df_significant l = map snd (mp_table l) /\
  (forall k e, nth_error l k = Some e -> nth_error (df_significant l) k = Some (flt (pe_p e) (Fin (1/20)))).
Proof.
  split.
  - unfold df_significant, mp_table. rewrite map_map. apply map_ext. reflexivity.
  - intros k e H. unfold df_significant. rewrite nth_error_map, H. reflexivity.
Qed.
(* which table to_dataframe builds, or ValueError *)
Theorem table_level_export r level :
  match cs_export r level, cs_to_dataframe level (match cr_es r with Some _ => true | None => false end) (match cr_group r with Some _ => true | None => false end) with
  | Ok (TabGT _), Ok TGroupTime | Ok (TabEvent _), Ok TEvent | Ok (TabGroup _), Ok TGroup => True
  | Err e, Err e' => e = ValueError /\ e' = ValueError
  | _, _ => False
  end.
Proof.
  unfold cs_export, cs_to_dataframe. destruct (String.eqb level "group_time"); [exact Logic.I|].
  destruct (String.eqb level "event_study"); [destruct (cr_es r); auto|].
  destruct (String.eqb level "group"); [destruct (cr_group r); auto|auto].
Qed.
(* the printed confidence level of an alpha in whole percent *)
Theorem printed_level k : (0 <= k <= 100)%Z -> conf_level (IZR k / 100) = (100 - k)%Z.
Proof.
  intros _. unfold conf_level. replace ((1 - IZR k / 100) * 100) with (IZR (100 - k)) by (rewrite minus_IZR; field).
  unfold Int_part. assert (E : up (IZR (100 - k)) = (100 - k + 1)%Z).
  { symmetry. apply tech_up; rewrite plus_IZR; lra. }
  rewrite E. lia.
Qed.

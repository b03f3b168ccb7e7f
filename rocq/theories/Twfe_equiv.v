(* TwoWayFixedEffects: how the reported numbers react to unit effects, period effects, covariate terms, a change of
   unit, the order of the rows and the labels of units and periods. *)
From Coq Require Import Reals Lra Lia.
From Verif Require Import Prelude Flt Linalg_model Linalg_proofs Linalg_vcov Linalg_thms Linalg_dual Linalg_rank Linalg_span Did_model Did_spec Did_proofs
  Did_equiv Did_more Multi_model Multi_proofs Multi_thms Scale_flt Within_proofs Absorb_thms Span_thms Reg_equiv Reg_effects Stats_model Boot_model Boot_proofs
  Twfe_model Twfe_proofs.
From Coq Require Import Arith ZArith String List Permutation.
Import ListNotations.
Open Scope R_scope.

Section E.
Context {I U : Type} (ueq : forall x y : U, {x = y} + {x <> y}).
Variable qr : list I -> list (I -> R) -> list nat.
Variable lstsq : list I -> list (I -> R) -> (I -> R) -> list R.
Variable inv : list I -> list (I -> R) -> option (nat -> nat -> R).
Variable pinv : list I -> list (I -> R) -> nat -> nat -> R.
Variable sf : option Z -> fl -> fl.
Variable ppf : option Z -> R -> R.
Hypothesis Hqr : qr_ok qr.
Hypothesis Hls : lstsq_ok lstsq.
Hypothesis Hinv : inv_ok inv.
Notation fit := (twfe_fit ueq qr lstsq inv pinv sf ppf).
Notation W rows u tm := (within ueq Req_EM_T rows u tm).
Notation DD d tm := (fun i => d i * tm i).

(* the interaction is not a combination of the constant and the demeaned covariates *)
Definition tw_identified (rows : list I) (d tm : I -> R) (u : I -> U) (covs : list (I -> R)) : Prop :=
  ~ span rows ((fun _ => 1) :: map (W rows u tm) covs) (DD d tm).

Lemma tw_dual rows d tm u covs : tw_identified rows d tm u covs ->
  exists q, dual rows (twfe_design d tm (map (W rows u tm) covs)) 1 q /\
    forall m, span rows ((fun _ => 1) :: map (W rows u tm) covs) m -> ip rows q m = 0.
Proof.
  intros H. set (cols := twfe_design d tm (map (W rows u tm) covs)).
  assert (D : dual rows cols 1 (fwl_q rows (others cols 1) (colx cols 1))).
  { apply identified_dual. split; [cbn; lia|exact H]. }
  eexists. split; [exact D|]. intros m Hm. apply (dual_orth rows cols 1 _ m D). exact Hm.
Qed.

Lemma r_squared_scale rows (y y' e e' : I -> R) s : s <> 0 -> (forall i, In i rows -> y' i = s * y i) -> (forall i, In i rows -> e' i = s * e i) ->
  r_squared rows y' e' false 0 = r_squared rows y e false 0.
Proof.
  intros Hs Hy He. unfold r_squared. cbv zeta.
  assert (Hm : meanf y' rows = s * meanf y rows) by (rewrite (meanf_ext y' (fun i => s * y i)) by auto; apply meanf_scal). rewrite Hm.
  rewrite (sumf_ext (fun i => (y' i - s * meanf y rows) * (y' i - s * meanf y rows)) (fun i => s * s * ((y i - meanf y rows) * (y i - meanf y rows))))
    by (intros i Hi; rewrite Hy by auto; ring).
  rewrite (sumf_ext (fun i => e' i * e' i) (fun i => s * s * (e i * e i))) by (intros i Hi; rewrite He by auto; ring).
  rewrite !sumf_scal. generalize (sumf (fun i => (y i - meanf y rows) * (y i - meanf y rows)) rows) (sumf (fun i => e i * e i) rows). intros a b.
  assert (Hp : 0 < s * s) by (destruct (Rlt_dec 0 s); nra).
  destruct (Req_EM_T a 0) as [->|Ha], (Req_EM_T (s * s * _) 0) as [E|E]; auto.
  - exfalso; apply E; ring.
  - exfalso. apply Rmult_integral in E as [E|E]; lra.
  - f_equal. field. split; [exact Ha|exact Hs].
Qed.

Lemma within_0 (rows : list I) u tm i : W rows u tm (fun _ => 0) i = 0.
Proof.
  assert (E : (fun _ : I => 0) = (fun _ : I => 0 * 0)) by (apply FunctionalExtensionality.functional_extensionality; intros; ring).
  rewrite E. rewrite (within_scal ueq Req_EM_T rows u tm 0 (fun _ => 0) i). ring.
Qed.
Lemma within_lc (rows : list I) u tm (covs : list (I -> R)) g i : W rows u tm (lc covs g) i = lc (map (W rows u tm) covs) g i.
Proof.
  revert g. induction covs as [|c covs IH]; intros g.
  - destruct g; apply within_0.
  - destruct g as [|b g]; [apply within_0|].
    change (lc (c :: covs) (b :: g)) with (fun j => b * c j + lc covs g j). rewrite (within_add ueq Req_EM_T rows u tm (fun j => b * c j) (lc covs g) i).
    rewrite within_scal, IH. reflexivity.
Qed.
Lemma span_lc (rows : list I) (cols : list (I -> R)) g : span rows ((fun _ => 1) :: cols) (lc cols g).
Proof.
  revert g. induction cols as [|c cols IH]; intros g.
  - exists [0]. split; auto. intros i _. destruct g; cbn; ring.
  - destruct g as [|b g].
    + exists (repeat 0 (length ((fun _ : I => 1) :: c :: cols))). split; [apply repeat_length|]. intros i _. rewrite lc_repeat0. reflexivity.
    + destruct (IH g) as [e [Le He]]. destruct e as [|e0 e]; [discriminate|]. exists (e0 :: b :: e). split; [cbn in *; lia|].
      intros i Hi. specialize (He i Hi). cbn [lc] in *. rewrite He. ring.
Qed.

(* the demeaned outcome is rescaled and receives terms that the design already contains *)
Theorem twfe_ignores cluster alpha action rows y y' d tm u covs r s m :
  s <> 0 -> tw_identified rows d tm u covs ->
  (forall i, In i rows -> W rows u tm y' i = s * W rows u tm y i + m i) ->
  span rows ((fun _ => 1) :: map (W rows u tm) covs) m ->
  fit cluster alpha action rows y d tm u covs = Ok r ->
  exists r', fit cluster alpha action rows y' d tm u covs = Ok r' /\
    tw_att r' = fmul (Fin s) (tw_att r) /\ tw_se r' = fmul (Fin (Rabs s)) (tw_se r) /\ tw_p r' = tw_p r /\
    (0 < s -> tw_t r' = tw_t r /\ tw_ci r' = fscale s (tw_ci r)) /\
    (s < 0 -> tw_t r' = fneg (tw_t r) /\ tw_ci r' = fswap (fscale s (tw_ci r))) /\
    tw_df r' = tw_df r /\ tw_n_obs r' = tw_n_obs r /\ tw_n_treated r' = tw_n_treated r /\ tw_n_control r' = tw_n_control r /\
    (forall i, In i rows -> tw_resid r' i = s * tw_resid r i) /\
    ((forall i, In i rows -> m i = 0) -> tw_r2 r' = tw_r2 r).
Proof.
  intros Hs Hid Hy Hm H. destruct (tw_dual rows d tm u covs Hid) as (q & D & Q).
  unfold twfe_fit in *. cbv zeta in *. set (cols := twfe_design d tm (map (W rows u tm) covs)) in *.
  set (cl := match cluster with Some c => c | None => u end) in *.
  set (adj := (Z.of_nat (length (nodup ueq (map u rows))) + Z.of_nat (length (nodup Req_EM_T (map tm rows))) - 2)%Z) in *.
  destruct (linreg_fit ueq qr lstsq inv pinv true (Some cl) (twfe_action action) adj rows cols (W rows u tm y)) as [reg|] eqn:E; [|discriminate].
  cbn [bind] in H. destruct (linreg_ok_outcome_ex ueq qr lstsq inv pinv _ _ _ _ _ _ _ (W rows u tm y') _ E) as [reg' E'].
  assert (Hm' : span rows cols m).
  { apply (span_trans rows ((fun _ => 1) :: map (W rows u tm) covs)); [|exact Hm]. intros c Hc. apply span_in. unfold cols, twfe_design. cbn [In] in *. tauto. }
  destruct (linreg_shift ueq qr lstsq inv pinv Hqr Hls Hinv _ _ _ _ _ _ _ _ s m _ _ 1%nat q Hs Hy Hm' D E E') as (A & A' & V & Df & Rs).
  rewrite (Q m Hm), Rplus_0_r in A'. rewrite E'. cbn [bind]. rewrite A' in *. rewrite A in *. cbn [fisnan] in *. injection H as <-.
  eexists. split; [reflexivity|]. cbn [tw_att tw_se tw_t tw_p tw_ci tw_df tw_n_obs tw_n_treated tw_n_control tw_resid tw_r2].
  assert (FV : fin_or_nan (l_vcov reg 1%nat 1%nat)).
  { apply (linreg_vcov_fin ueq qr lstsq inv pinv Hls true (Some cl) _ _ _ _ _ _ 1 1 E); [left; reflexivity| |]; unfold cols; cbn; lia. }
  destruct (inference_scale sf ppf (Fin (ip rows q (W rows u tm y))) (l_vcov reg 1%nat 1%nat) s None None alpha (l_df reg) Hs (or_intror (ex_intro _ _ eq_refl)) FV)
    as (I1 & I2 & I3 & I4).
  rewrite <- V in I1, I2, I3, I4. change (fmul (Fin s) (Fin (ip rows q (W rows u tm y)))) with (Fin (s * ip rows q (W rows u tm y))) in *.
  rewrite Df in *.
  split; [reflexivity|]. split; [exact I1|]. split; [exact I2|]. split; [exact I3|]. split; [exact I4|].
  split; [reflexivity|]. split; [reflexivity|]. split; [reflexivity|]. split; [reflexivity|]. split; [exact Rs|].
  intros Hz. apply (r_squared_scale rows _ _ _ _ s Hs); [|exact Rs]. intros i Hi. rewrite Hy, Hz by auto. ring.
Qed.

(* what "rescaled by s" means for a whole result *)
Definition tw_rescaled (rows : list I) (s : R) (r r' : twfe_result I) : Prop :=
  tw_att r' = fmul (Fin s) (tw_att r) /\ tw_se r' = fmul (Fin (Rabs s)) (tw_se r) /\ tw_p r' = tw_p r /\
  (0 < s -> tw_t r' = tw_t r /\ tw_ci r' = fscale s (tw_ci r)) /\
  (s < 0 -> tw_t r' = fneg (tw_t r) /\ tw_ci r' = fswap (fscale s (tw_ci r))) /\
  tw_df r' = tw_df r /\ tw_n_obs r' = tw_n_obs r /\ tw_n_treated r' = tw_n_treated r /\ tw_n_control r' = tw_n_control r /\
  (forall i, In i rows -> tw_resid r' i = s * tw_resid r i).

Theorem twfe_effects cluster alpha action rows y y' d tm u covs r s mm (a : U -> R) (b : R -> R) (g : list R) :
  Within_proofs.balanced ueq Req_EM_T rows u tm mm -> s <> 0 -> tw_identified rows d tm u covs ->
  (forall i, In i rows -> y' i = s * y i + (a (u i) + b (tm i)) + lc covs g i) ->
  fit cluster alpha action rows y d tm u covs = Ok r ->
  exists r', fit cluster alpha action rows y' d tm u covs = Ok r' /\ tw_rescaled rows s r r' /\ (g = [] -> tw_r2 r' = tw_r2 r).
Proof.
  intros Hb Hs Hid Hy H.
  destruct (twfe_ignores cluster alpha action rows y y' d tm u covs r s (lc (map (W rows u tm) covs) g) Hs Hid) as (r' & E & P); auto.
  - intros i Hi. rewrite (within_ext ueq Req_EM_T rows u tm y' (fun j => (s * y j + lc covs g j) + (a (u j) + b (tm j))) i Hi)
      by (intros j Hj; rewrite Hy by auto; ring).
    rewrite (within_absorbs ueq Req_EM_T rows u tm mm Hb (fun j => s * y j + lc covs g j) a b i Hi).
    rewrite (within_add ueq Req_EM_T rows u tm (fun j => s * y j) (lc covs g) i), within_scal, within_lc. reflexivity.
  - apply span_lc.
  - exists r'. split; auto. unfold tw_rescaled. destruct P as (P1 & P2 & P3 & P4 & P5 & P6 & P7 & P8 & P9 & P10 & P11).
    split; [tauto|]. intros ->. apply P11. intros i _. destruct covs; reflexivity.
Qed.

(* a constant and covariate terms: any panel *)
Theorem twfe_affine cluster alpha action rows y y' d tm u covs r s k (g : list R) :
  s <> 0 -> tw_identified rows d tm u covs ->
  (forall i, In i rows -> y' i = s * y i + k + lc covs g i) ->
  fit cluster alpha action rows y d tm u covs = Ok r ->
  exists r', fit cluster alpha action rows y' d tm u covs = Ok r' /\ tw_rescaled rows s r r' /\ (g = [] -> tw_r2 r' = tw_r2 r).
Proof.
  intros Hs Hid Hy H.
  destruct (twfe_ignores cluster alpha action rows y y' d tm u covs r s (lc (map (W rows u tm) covs) g) Hs Hid) as (r' & E & P); auto.
  - intros i Hi. rewrite (within_ext ueq Req_EM_T rows u tm y' (fun j => (s * y j + lc covs g j) + k) i Hi)
      by (intros j Hj; rewrite Hy by auto; ring).
    rewrite (within_add ueq Req_EM_T rows u tm (fun j => s * y j + lc covs g j) (fun _ => k) i).
    rewrite (within_add ueq Req_EM_T rows u tm (fun j => s * y j) (lc covs g) i), within_scal, within_lc.
    assert (Z : W rows u tm (fun _ => k) i = 0).
    { unfold within. rewrite (group_mean_const ueq rows u (fun _ => k) i Hi), (group_mean_const Req_EM_T rows tm (fun _ => k) i Hi).
      rewrite meanf_const by (intros E0; rewrite E0 in Hi; destruct Hi). ring. }
    rewrite Z. ring.
  - apply span_lc.
  - exists r'. split; auto. unfold tw_rescaled. destruct P as (P1 & P2 & P3 & P4 & P5 & P6 & P7 & P8 & P9 & P10 & P11).
    split; [tauto|]. intros ->. apply P11. intros i _. destruct covs; reflexivity.
Qed.

(* the order of the rows *)
Lemma within_perm (r1 r2 : list I) u tm (x : I -> R) : Permutation r1 r2 -> W r1 u tm x = W r2 u tm x.
Proof.
  intros P. apply FunctionalExtensionality.functional_extensionality. intros i. unfold within, group_mean.
  rewrite (meanf_perm x _ _ (filter_perm (fun j => keqb ueq (u j) (u i)) r1 r2 P)),
    (meanf_perm x _ _ (filter_perm (fun j => keqb Req_EM_T (tm j) (tm i)) r1 r2 P)), (meanf_perm x _ _ P). reflexivity.
Qed.
Lemma nodup_map_perm {K} (eqd : forall x y : K, {x = y} + {x <> y}) (f : I -> K) r1 r2 : Permutation r1 r2 ->
  length (nodup eqd (map f r1)) = length (nodup eqd (map f r2)).
Proof. intros P. apply Permutation_length. apply (cl_keys_perm eqd r1 r2 f P). Qed.

Theorem twfe_row_order cluster alpha action r1 r2 y d tm u covs a b :
  Permutation r1 r2 -> tw_identified r1 d tm u covs ->
  fit cluster alpha action r1 y d tm u covs = Ok a -> fit cluster alpha action r2 y d tm u covs = Ok b ->
  tw_att a = tw_att b /\ tw_se a = tw_se b /\ tw_t a = tw_t b /\ tw_p a = tw_p b /\ tw_ci a = tw_ci b /\ tw_df a = tw_df b /\
  tw_n_obs a = tw_n_obs b /\ tw_n_treated a = tw_n_treated b /\ tw_n_control a = tw_n_control b /\ tw_r2 a = tw_r2 b /\
  (forall i, In i r1 -> tw_resid a i = tw_resid b i).
Proof.
  intros P Hid Ha Hb. destruct (tw_dual r1 d tm u covs Hid) as (q & D & _).
  unfold twfe_fit in *. cbv zeta in *.
  assert (EC : map (W r2 u tm) covs = map (W r1 u tm) covs) by (apply map_ext; intros c; symmetry; apply within_perm; auto).
  rewrite EC, <- (within_perm r1 r2 u tm y P) in Hb.
  rewrite <- (nodup_map_perm ueq u r1 r2 P), <- (nodup_map_perm Req_EM_T tm r1 r2 P) in Hb.
  rewrite <- (Permutation_length P) in Hb.
  assert (EN : length (nodup ueq (map u (filter (fun i => Reqb (d i) 1) r2))) = length (nodup ueq (map u (filter (fun i => Reqb (d i) 1) r1))))
    by (symmetry; apply nodup_map_perm; apply filter_perm; auto).
  rewrite EN in Hb.
  destruct (linreg_fit ueq qr lstsq inv pinv true _ _ _ r1 _ _) as [reg1|] eqn:E1; [|discriminate].
  destruct (linreg_fit ueq qr lstsq inv pinv true _ _ _ r2 _ _) as [reg2|] eqn:E2; [|discriminate].
  cbn [bind] in *. destruct (linreg_perm ueq qr lstsq inv pinv Hqr Hls Hinv _ _ _ _ _ _ _ _ _ _ 1%nat q P D E1 E2) as (A & V & Df & Rs).
  destruct (fisnan (nth 1 (l_coef reg1) NaN)); [discriminate|]. destruct (fisnan (nth 1 (l_coef reg2) NaN)); [discriminate|].
  injection Ha as <-. injection Hb as <-. cbn [tw_att tw_se tw_t tw_p tw_ci tw_df tw_n_obs tw_n_treated tw_n_control tw_resid tw_r2].
  rewrite A, V, Df. repeat (split; [reflexivity|]). split; [|exact Rs].
  unfold r_squared. cbv zeta. rewrite <- (meanf_perm (W r1 u tm y) r1 r2 P).
  rewrite <- (sumf_perm (fun i => (W r1 u tm y i - meanf (W r1 u tm y) r1) * (W r1 u tm y i - meanf (W r1 u tm y) r1)) r1 r2 P).
  rewrite <- (sumf_perm (fun i => l_resid reg2 i * l_resid reg2 i) r1 r2 P).
  rewrite (sumf_ext (fun i => l_resid reg2 i * l_resid reg2 i) (fun i => l_resid reg1 i * l_resid reg1 i)) by (intros i Hi; rewrite Rs by auto; reflexivity).
  reflexivity.
Qed.
End E.

(* Invariance and equivariance of the regression layer and of DifferenceInDifferences. *)
From Verif Require Import Prelude Flt Linalg_model Linalg_proofs Linalg_vcov Linalg_thms Did_model Did_spec Did_proofs.
From Coq Require Import Arith ZArith String List.
Import ListNotations.
Open Scope R_scope.

Lemma kept_head k d : ~ In O d -> exists l, kept_cols (S k) d = O :: l.
Proof.
  intros H. unfold kept_cols. cbn [seq filter].
  destruct (existsb (Nat.eqb 0) d) eqn:E.
  - apply existsb_exists in E. destruct E as (x & Hx & E). apply Nat.eqb_eq in E. subst; contradiction.
  - simpl. eauto.
Qed.

Lemma vadd_nth (p q : list R) m : length p = length q -> nth m (vadd p q) 0 = nth m p 0 + nth m q 0.
Proof.
  revert q m; induction p as [|x p IH]; intros [|z q] m H; simpl in *; try discriminate.
  - destruct m; lra.
  - destruct m; auto.
Qed.
Lemma vscal_nth t (p : list R) m : nth m (vscal t p) 0 = t * nth m p 0.
Proof.
  revert m; induction p as [|x p IH]; intros [|m]; simpl; try lra. apply IH.
Qed.

(* affine change of outcome on a design whose first column is the constant *)
Lemma ls_affine {I} (rows : list I) cols y y' s c b b' :
  indep rows ((fun _ => 1) :: cols) ->
  is_ls rows ((fun _ => 1) :: cols) y b -> is_ls rows ((fun _ => 1) :: cols) y' b' ->
  (forall i, In i rows -> y' i = s * y i + c) ->
  b' = vadd (vscal s b) (c :: repeat 0 (length cols)).
Proof.
  intros Hi Hb Hb' Hy. eapply (ls_coef_unique rows); [exact Hi|exact Hb'|].
  apply (ls_ext rows _ (fun i => s * y i + c)); [intros; symmetry; auto|].
  apply (ls_add rows _ (fun i => s * y i) (fun _ => c)); [apply ls_scal; auto|].
  apply ls_exact; [simpl; rewrite repeat_length; auto|].
  intros i _. simpl. rewrite lc_repeat0. ring.
Qed.

Lemma ls_scale_eq {I} (rows : list I) cols y y' s b b' :
  indep rows cols -> is_ls rows cols y b -> is_ls rows cols y' b' ->
  (forall i, In i rows -> y' i = s * y i) -> b' = vscal s b.
Proof.
  intros Hi Hb Hb' Hy. eapply (ls_coef_unique rows); [exact Hi|exact Hb'|].
  apply (ls_ext rows _ (fun i => s * y i)); [intros; symmetry; auto|]. apply ls_scal; auto.
Qed.

Section Affine.
Context {I K : Type} (keq : forall x y : K, {x = y} + {x <> y}).
Variable qr : list I -> list (I -> R) -> list nat.
Variable lstsq : list I -> list (I -> R) -> (I -> R) -> list R.
Variable inv : list I -> list (I -> R) -> option (nat -> nat -> R).
Variable pinv : list I -> list (I -> R) -> nat -> nat -> R.
Hypothesis Hqr : qr_ok qr.
Hypothesis Hls : lstsq_ok lstsq.
Hypothesis Hinv : inv_ok inv.

Notation one := (fun _ : I => 1).

(* whether solve_ols succeeds does not depend on the outcome values *)
Lemma solve_ols_defined rows cols y y' cluster rv action :
  is_ok (solve_ols keq qr lstsq inv rows cols y cluster rv action)
  = is_ok (solve_ols keq qr lstsq inv rows cols y' cluster rv action).
Proof.
  unfold solve_ols. destruct (Nat.ltb _ _); auto. destruct (parse_action action) as [act|]; auto.
  destruct (qr rows cols) as [|d0 d].
  - destruct rv; auto.
    pose proof (robust_vcov_defined keq inv rows cols (fun i => y i - lc cols (lstsq rows cols y) i)
                  (fun i => y' i - lc cols (lstsq rows cols y') i) cluster) as H.
    destruct (robust_vcov keq inv rows cols (fun i => y i - lc cols (lstsq rows cols y) i) cluster);
    destruct (robust_vcov keq inv rows cols (fun i => y' i - lc cols (lstsq rows cols y') i) cluster); auto.
  - destruct (Nat.eqb _ 0); [destruct act; auto|]. destruct act; auto; destruct rv; auto.
    all: set (xr := select_cols cols (kept_cols (length cols) (d0 :: d))).
    all: pose proof (robust_vcov_defined keq inv rows xr (fun i => y i - lc xr (lstsq rows xr y) i)
                  (fun i => y' i - lc xr (lstsq rows xr y') i) cluster) as H.
    all: destruct (robust_vcov keq inv rows xr (fun i => y i - lc xr (lstsq rows xr y) i) cluster);
    destruct (robust_vcov keq inv rows xr (fun i => y' i - lc xr (lstsq rows xr y') i) cluster); auto.
Qed.

Lemma is_ok_ex {A} (r : res A) : is_ok r = true -> exists a, r = Ok a.
Proof. destruct r; simpl; intros; [eauto|discriminate]. Qed.

(* y' = s y + c.  The constant must be kept by the rank check unless c = 0. *)
Theorem solve_ols_affine rows cols y y' s c cluster rv action o :
  (forall i, In i rows -> y' i = s * y i + c) ->
  (~ In O (qr rows (one :: cols)) \/ c = 0) ->
  solve_ols keq qr lstsq inv rows (one :: cols) y cluster rv action = Ok o ->
  exists o', solve_ols keq qr lstsq inv rows (one :: cols) y' cluster rv action = Ok o' /\
    length (o_coef o') = length (o_coef o) /\
    (forall j, (j < length (one :: cols))%nat ->
       nth j (o_coef o') NaN = fadd (fmul (Fin s) (nth j (o_coef o) NaN)) (Fin (if Nat.eqb j 0 then c else 0))) /\
    (forall i, In i rows -> o_resid o' i = s * o_resid o i) /\
    match o_vcov o, o_vcov o' with
    | Some W, Some W' => forall a b, (a < length (one :: cols))%nat -> (b < length (one :: cols))%nat ->
                           W' a b = fmul (Fin (s * s)) (W a b)
    | None, None => True
    | _, _ => False
    end.
Proof.
  intros Hy H0 Ho.
  assert (Hok : is_ok (solve_ols keq qr lstsq inv rows (one :: cols) y' cluster rv action) = true).
  { rewrite (solve_ols_defined rows (one :: cols) y' y cluster rv action), Ho. reflexivity. }
  destruct (is_ok_ex _ Hok) as [o' Ho']. exists o'. split; auto.
  destruct (solve_ols_shape keq qr lstsq inv Hls _ _ _ _ _ _ _ Ho) as (Lb & Hc & Hf & Hr & _ & Hv & _).
  destruct (solve_ols_shape keq qr lstsq inv Hls _ _ _ _ _ _ _ Ho') as (Lb' & Hc' & Hf' & Hr' & _ & Hv' & _).
  destruct (Hqr rows (one :: cols)) as [_ Hind].
  set (C := one :: cols) in *. set (kept := kept_cols (length C) (qr rows C)) in *. set (xr := select_cols C kept) in *.
  set (b := lstsq rows xr y) in *. set (b' := lstsq rows xr y') in *.
  pose proof (Hls rows xr y) as Hb. pose proof (Hls rows xr y') as Hb'. fold b in Hb. fold b' in Hb'.
  assert (Hlx : length xr = length kept) by (unfold xr, select_cols; apply map_length).
  (* relation between the reduced solutions *)
  assert (Hbb : forall p, (p < length kept)%nat ->
    nth p b' 0 = s * nth p b 0 + (if Nat.eqb (nth p kept O) 0 then c else 0)).
  { destruct H0 as [H0|H0].
    - destruct (kept_head (length cols) _ H0) as [l El]. change (S (length cols)) with (length C) in El. fold kept in El.
      assert (Ex : xr = one :: select_cols C l) by (unfold xr; rewrite El; reflexivity).
      assert (Hnd : NoDup kept) by apply kept_cols_nodup.
      rewrite Ex in Hb, Hb', Hind.
      pose proof (ls_affine rows _ y y' s c b b' Hind Hb Hb' Hy) as E.
      intros p Hp. rewrite E.
      rewrite vadd_nth.
      2:{ rewrite vscal_length. destruct Hb as [Lb1 _]. rewrite Lb1. simpl. rewrite repeat_length. reflexivity. }
      rewrite vscal_nth. f_equal. rewrite El in *. destruct p as [|p]; [reflexivity|].
      simpl nth at 1. rewrite nth_repeat. inversion Hnd as [|? ? Hn0 Hnd']; subst.
      simpl. destruct (Nat.eqb (nth p l 0%nat) 0) eqn:E0; auto.
      apply Nat.eqb_eq in E0. exfalso. apply Hn0. rewrite <- E0. apply nth_In. simpl in Hp; lia.
    - subst c. intros p Hp.
      rewrite (ls_scale_eq rows xr y y' s b b' Hind Hb Hb') by (intros; rewrite Hy by auto; ring).
      rewrite vscal_nth. destruct (Nat.eqb _ 0); ring. }
  assert (Hres : forall i, In i rows -> y' i - lc xr b' i = s * (y i - lc xr b i)).
  { intros i Hi. rewrite Hy by auto.
    rewrite !lc_index by (first [apply Hb|apply Hb']).
    rewrite (sumf_ext (fun j => nth j b' 0 * colx xr j i)
       (fun j => s * (nth j b 0 * colx xr j i) + (if Nat.eqb (nth j kept O) 0 then c else 0) * colx xr j i)).
    2:{ intros p Hp. apply in_seq in Hp. rewrite Hbb by lia. ring. }
    rewrite sumf_add, sumf_scal.
    assert (Hc0 : sumf (fun j => (if Nat.eqb (nth j kept O) 0 then c else 0) * colx xr j i) (seq 0 (length xr)) = c).
    { destruct H0 as [H0|H0].
      - destruct (kept_head (length cols) _ H0) as [l El]. change (S (length cols)) with (length C) in El. fold kept in El.
        assert (Hnd : NoDup kept) by apply kept_cols_nodup.
        rewrite Hlx. replace (length kept) with (S (length l)) by (rewrite El; reflexivity). cbn [seq sumf].
        replace (nth 0 kept O) with O by (rewrite El; reflexivity).
        replace (colx xr 0 i) with 1 by (unfold xr; rewrite El; reflexivity).
        rewrite sumf_zero; [simpl; ring|].
        intros p Hp. apply in_seq in Hp. replace (Nat.eqb (nth p kept O) 0) with false; [ring|].
        symmetry. apply Nat.eqb_neq. intros E0. rewrite El in Hnd, E0.
        destruct p as [|p]; [lia|]. inversion Hnd as [|? ? Hn0 _]; subst. apply Hn0. simpl in E0. rewrite <- E0.
        apply nth_In. lia.
      - subst c. apply sumf_zero. intros p _. destruct (Nat.eqb _ 0); ring. }
    rewrite Hc0. ring. }
  split; [rewrite Hc, Hc', !expand_coef_length; auto|]. split.
  { intros j Hj. rewrite Hc, Hc', !expand_coef_nth by auto.
    destruct (index_of j kept) as [p|] eqn:Ep; [|reflexivity].
    destruct (index_of_some _ _ _ Ep) as [Hp Hn]. simpl. rewrite Hbb by auto. rewrite Hn. reflexivity. }
  split.
  { intros i Hi. rewrite Hr, Hr'. apply Hres; auto. }
  destruct rv.
  - destruct Hv as (V & EV & W & EW & HE). destruct Hv' as (V' & EV' & W' & EW' & HE').
    rewrite EW, EW'. intros a d Ha Hd. rewrite HE, HE' by auto. unfold expand_vcov.
    destruct (index_of a kept) as [p|] eqn:Ep; [|reflexivity].
    destruct (index_of d kept) as [q|] eqn:Eq; [|reflexivity].
    destruct (index_of_some _ _ _ Ep) as [Hp _]. destruct (index_of_some _ _ _ Eq) as [Hq0 _].
    simpl. f_equal.
    assert (Hsok : is_ok (robust_vcov keq inv rows xr (fun i => s * (y i - lc xr b i)) cluster) = true).
    { rewrite (robust_vcov_defined keq inv rows xr _ (fun i => y i - lc xr b i)), EV. reflexivity. }
    destruct (is_ok_ex _ Hsok) as [Vs EVs].
    assert (Hp' : (p < length xr)%nat) by (rewrite Hlx; exact Hp).
    assert (Hq' : (q < length xr)%nat) by (rewrite Hlx; exact Hq0).
    rewrite (robust_vcov_resid_ext keq inv Hinv rows xr _ (fun i => s * (y i - lc xr b i)) cluster V' Vs Hres EV' EVs p q Hp' Hq').
    exact (robust_vcov_scale keq inv Hinv rows xr _ s cluster V Vs EV EVs p q Hp' Hq').
  - rewrite Hv, Hv'. exact Logic.I.
Qed.

End Affine.

(* ---- scaling of inference ---- *)
Section InfScale.
Variable sf : option Z -> fl -> fl.
Variable ppf : option Z -> R -> R.

Definition fswap (p : fl * fl) : fl * fl := (snd p, fst p).
Definition fscale (s : R) (p : fl * fl) : fl * fl := (fmul (Fin s) (fst p), fmul (Fin s) (snd p)).

Definition fin_or_nan (v : fl) : Prop := v = NaN \/ exists x, v = Fin x.

Lemma inference_scale coef v s alpha_arg df_arg sa sd :
  s <> 0 -> fin_or_nan coef -> fin_or_nan v ->
  let r := get_inference sf ppf coef v alpha_arg df_arg sa sd in
  let r' := get_inference sf ppf (fmul (Fin s) coef) (fmul (Fin (s * s)) v) alpha_arg df_arg sa sd in
  i_se r' = fmul (Fin (Rabs s)) (i_se r) /\
  i_p r' = i_p r /\
  (0 < s -> i_t r' = i_t r /\ i_ci r' = fscale s (i_ci r)) /\
  (s < 0 -> i_t r' = fneg (i_t r) /\ i_ci r' = fswap (fscale s (i_ci r))).
Proof.
  intros Hs Hc Hv. cbv zeta.
  assert (Hse : fsqrt (fmul (Fin (s * s)) v) = fmul (Fin (Rabs s)) (fsqrt v)).
  { destruct Hv as [->|[x ->]]; [reflexivity|]. simpl.
    assert (0 < s * s) by (destruct (Rlt_dec 0 s); nra).
    destruct (Rlt_dec x 0) as [Hx|Hx].
    - destruct (Rlt_dec (s * s * x) 0); [reflexivity|nra].
    - destruct (Rlt_dec (s * s * x) 0); [nra|]. f_equal.
      rewrite sqrt_mult by lra. f_equal. rewrite <- sqrt_Rsqr_abs. reflexivity. }
  assert (Hsen : fin_or_nan (fsqrt v) /\ (forall x, fsqrt v = Fin x -> 0 <= x)).
  { destruct Hv as [->|[x ->]]; simpl; [split; [left; auto|intros; discriminate]|].
    destruct (Rlt_dec x 0); [split; [left; auto|intros; discriminate]|].
    split; [right; eauto|]. intros z Hz; injection Hz as <-. apply sqrt_pos. }
  destruct Hsen as [Hsen Hpos].
  unfold get_inference. cbn [i_se i_t i_p i_ci]. rewrite Hse.
  set (se := fsqrt v) in *. clearbody se. clear Hse Hv v.
  set (df := use_df _).
  (* the statistic *)
  set (tstat := fun (co s1 : fl) => if fle s1 (Fin 0) then
     if fgt co (Fin 0) then PInf else if flt co (Fin 0) then NInf else Fin 0 else fdiv co s1).
  change (if fle se (Fin 0) then
     if fgt coef (Fin 0) then PInf else if flt coef (Fin 0) then NInf else Fin 0 else fdiv coef se) with (tstat coef se).
  change (if fle (fmul (Fin (Rabs s)) se) (Fin 0) then
     if fgt (fmul (Fin s) coef) (Fin 0) then PInf else if flt (fmul (Fin s) coef) (Fin 0) then NInf else Fin 0
     else fdiv (fmul (Fin s) coef) (fmul (Fin (Rabs s)) se)) with (tstat (fmul (Fin s) coef) (fmul (Fin (Rabs s)) se)).
  assert (Habs : 0 < Rabs s) by (apply Rabs_pos_lt; auto).
  assert (Ht : tstat (fmul (Fin s) coef) (fmul (Fin (Rabs s)) se)
               = if Rlt_dec 0 s then tstat coef se else fneg (tstat coef se)).
  { destruct Hc as [->|[co ->]], Hsen as [->|[e ->]]; unfold tstat; cbn [fmul].
    - simpl. destruct (Rlt_dec 0 s); reflexivity.
    - specialize (Hpos e eq_refl). simpl.
      destruct (Req_dec e 0) as [->|He].
      + replace (Rleb (Rabs s * 0) 0) with true by (symmetry; apply Rleb_true; lra).
        replace (Rleb 0 0) with true by (symmetry; apply Rleb_true; lra).
        unfold fgt; simpl. destruct (Rlt_dec 0 s); simpl; auto. f_equal; lra.
      + replace (Rleb (Rabs s * e) 0) with false by (symmetry; apply Rleb_false; apply Rmult_lt_0_compat; lra).
        replace (Rleb e 0) with false by (symmetry; apply Rleb_false; lra).
        destruct (Rlt_dec 0 s); reflexivity.
    - simpl. destruct (Rlt_dec 0 s); reflexivity.
    - specialize (Hpos e eq_refl). simpl.
      destruct (Req_dec e 0) as [->|He].
      + replace (Rleb (Rabs s * 0) 0) with true by (symmetry; apply Rleb_true; lra).
        replace (Rleb 0 0) with true by (symmetry; apply Rleb_true; lra).
        unfold fgt; simpl. destruct (Rlt_dec 0 s) as [H|H].
        * assert (E1 : Rltb 0 (s * co) = Rltb 0 co).
          { destruct (Rltb 0 co) eqn:E; [apply Rltb_true in E; apply Rltb_true; nra|apply Rltb_false in E; apply Rltb_false; nra]. }
          assert (E2 : Rltb (s * co) 0 = Rltb co 0).
          { destruct (Rltb co 0) eqn:E; [apply Rltb_true in E; apply Rltb_true; nra|apply Rltb_false in E; apply Rltb_false; nra]. }
          rewrite E1, E2. reflexivity.
        * assert (E1 : Rltb 0 (s * co) = Rltb co 0).
          { destruct (Rltb co 0) eqn:E; [apply Rltb_true in E; apply Rltb_true; nra|apply Rltb_false in E; apply Rltb_false; nra]. }
          assert (E2 : Rltb (s * co) 0 = Rltb 0 co).
          { destruct (Rltb 0 co) eqn:E; [apply Rltb_true in E; apply Rltb_true; nra|apply Rltb_false in E; apply Rltb_false; nra]. }
          rewrite E1, E2. destruct (Rltb co 0) eqn:E3, (Rltb 0 co) eqn:E4; simpl; auto.
          -- apply Rltb_true in E3, E4; lra.
          -- f_equal; lra.
      + replace (Rleb (Rabs s * e) 0) with false by (symmetry; apply Rleb_false; apply Rmult_lt_0_compat; lra).
        replace (Rleb e 0) with false by (symmetry; apply Rleb_false; lra).
        destruct (Req_EM_T (Rabs s * e) 0) as [Hz|Hz]; [nra|]. destruct (Req_EM_T e 0); [lra|].
        destruct (Rlt_dec 0 s) as [H|H]; simpl; f_equal.
        * rewrite Rabs_right by lra. field. lra.
        * rewrite Rabs_left by lra. field. lra. }
  rewrite Ht.
  assert (Habst : forall x, fabs (fneg x) = fabs x).
  { intros [x| | |]; simpl; auto. rewrite Rabs_Ropp; auto. }
  split; [reflexivity|]. split.
  { unfold compute_p_value. destruct (Rlt_dec 0 s); [reflexivity|]. rewrite Habst; reflexivity. }
  split; intros Hsg; destruct (Rlt_dec 0 s); try lra; (split; [reflexivity|]).
  - unfold compute_ci, fscale; simpl. rewrite Rabs_right by lra.
    destruct Hc as [->|[co ->]]; [reflexivity|]. destruct Hsen as [->|[e ->]]; [reflexivity|].
    simpl. f_equal; f_equal; ring.
  - unfold compute_ci, fscale, fswap; simpl. rewrite Rabs_left by lra.
    destruct Hc as [->|[co ->]]; [reflexivity|]. destruct Hsen as [->|[e ->]]; [reflexivity|].
    simpl. f_equal; f_equal; ring.
Qed.
End InfScale.

(* ---- DifferenceInDifferences ---- *)
Section DidEquiv.
Context {I K G : Type} (keq : forall x y : K, {x = y} + {x <> y}) (geq : forall x y : G, {x = y} + {x <> y}).
Variable qr : list I -> list (I -> R) -> list nat.
Variable lstsq : list I -> list (I -> R) -> (I -> R) -> list R.
Variable inv : list I -> list (I -> R) -> option (nat -> nat -> R).
Variable pinv : list I -> list (I -> R) -> nat -> nat -> R.
Variable sf : option Z -> fl -> fl.
Variable ppf : option Z -> R -> R.
Hypothesis Hqr : qr_ok qr.
Hypothesis Hls : lstsq_ok lstsq.
Hypothesis Hinv : inv_ok inv.

Notation fit := (did_fit keq geq qr lstsq inv pinv sf ppf).
Notation fR x := (fun i => toR (x i)).

Lemma existsb_ext_in {A} (f g : A -> bool) l : (forall x, In x l -> f x = g x) -> existsb f l = existsb g l.
Proof.
  induction l as [|a l IH]; simpl; auto. intros H. rewrite (H a) by auto. f_equal. apply IH; auto.
Qed.

(* sandwich variances: every reported number transforms as it should when the outcome is y -> s y + c *)
Theorem did_affine_equivariance cfg rows y d t covs dums r s c :
  s <> 0 ->
  (c_robust cfg = true \/ c_cluster cfg <> None) ->
  (c = 0 \/ ~ In O (qr rows (did_design (fR d) (fR t) (map (fun c => fR c) covs ++ dums)))) ->
  fit cfg rows y d t covs dums [] = Ok r ->
  exists r', fit cfg rows (fun i => fadd (fmul (Fin s) (y i)) (Fin c)) d t covs dums [] = Ok r' /\
    r_att r' = fmul (Fin s) (r_att r) /\
    r_se r' = fmul (Fin (Rabs s)) (r_se r) /\
    r_p r' = r_p r /\ r_signif r' = r_signif r /\ r_r2 r' = r_r2 r /\
    (0 < s -> r_t r' = r_t r /\ r_ci r' = fscale s (r_ci r)) /\
    (s < 0 -> r_t r' = fneg (r_t r) /\ r_ci r' = fswap (fscale s (r_ci r))).
Proof.
  intros Hs Hrob Hc0 H.
  set (y2 := fun i => fadd (fmul (Fin s) (y i)) (Fin c)).
  destruct (did_fit_inv keq geq qr lstsq inv pinv sf ppf _ _ _ _ _ _ _ _ _ H)
    as (Ny & Iy & Td & Tt & Zd & Zt & y' & covs' & nabs & reg & EA & ER & Ha & (Hse & Htt & Hp & Hci & Hsg) & _ & _ & _ & _ & Hr2 & _).
  simpl in EA. injection EA as <- <- <-.
  assert (Hfin : forall i, In i rows -> y i = Fin (toR (y i))).
  { intros i Hi. pose proof (has_nan_false rows y Ny i Hi) as Hn.
    assert (Hinf : fisinf (y i) = false).
    { destruct (fisinf (y i)) eqn:E; auto. assert (has_inf rows y = true); [|congruence].
      apply existsb_exists; exists i; auto. }
    destruct (y i); simpl in *; auto; try congruence; try discriminate. }
  assert (Hy2 : forall i, In i rows -> toR (y2 i) = s * toR (y i) + c).
  { intros i Hi. unfold y2. rewrite (Hfin i Hi). reflexivity. }
  destruct (linreg_fit_inv keq qr lstsq inv pinv _ _ _ _ _ _ _ _ ER) as (o & Ho & Hco & Hre & Hfi & Hdf & HV).
  set (extra := map (fun c => fR c) covs ++ dums) in *.
  assert (Hsw : (match c_cluster cfg with Some _ => true | None => c_robust cfg end) = true).
  { destruct (c_cluster cfg); auto. destruct Hrob; auto; congruence. }
  rewrite Hsw in Ho.
  destruct (solve_ols_affine keq qr lstsq inv Hqr Hls Hinv rows (tl (did_design (fR d) (fR t) extra))
              (fR y) (fR y2) s c (c_cluster cfg) true (c_action cfg) o Hy2) as (o' & Ho' & HL & Hcoef & Hres & Hvc).
  { destruct Hc0; auto. } { exact Ho. }
  change ((fun _ : I => 1) :: tl (did_design (fR d) (fR t) extra)) with (did_design (fR d) (fR t) extra) in *.
  destruct (solve_ols_shape keq qr lstsq inv Hls _ _ _ _ _ _ _ Ho) as (Lb1 & Hc1 & _ & _ & _ & (V1 & _ & W & EW & HE) & _).
  destruct (solve_ols_shape keq qr lstsq inv Hls _ _ _ _ _ _ _ Ho') as (Lb2 & Hc2 & _ & _ & _ & (V2 & _ & W' & EW' & HE') & _).
  rewrite EW, EW' in Hvc. rewrite EW in HV.
  (* the transformed call *)
  unfold did_fit.
  assert (HN : has_nan rows y2 = has_nan rows y).
  { unfold has_nan. apply existsb_ext_in. intros i Hi. unfold y2. rewrite (Hfin i Hi). reflexivity. }
  assert (HI : has_inf rows y2 = has_inf rows y).
  { unfold has_inf. apply existsb_ext_in. intros i Hi. unfold y2. rewrite (Hfin i Hi). reflexivity. }
  unfold did_fit in H. cbn [existsb] in H |- *. rewrite HN, HI.
  destruct (has_nan rows y || (has_nan rows d || (has_nan rows t || existsb (has_nan rows) covs))); [discriminate|].
  destruct (negb (two_values rows d)); [discriminate|]. destruct (negb (two_values rows t)); [discriminate|].
  destruct (negb (binary rows d)); [discriminate|]. destruct (negb (binary rows t)); [discriminate|].
  destruct (has_inf rows y || existsb (has_inf rows) covs); [discriminate|]. clear H.
  cbn [absorb_loop]. fold extra. unfold linreg_fit. rewrite Hsw, Ho'. cbn [bind]. rewrite EW'.
  eexists; split; [reflexivity|]. cbn [l_coef l_vcov l_df l_resid r_att r_se r_t r_p r_ci r_signif r_r2].
  assert (H3 : (3 < length (did_design (fR d) (fR t) extra))%nat) by (unfold did_design; simpl; lia).
  assert (Eatt : nth 3 (o_coef o') NaN = fmul (Fin s) (r_att r)).
  { rewrite Hcoef by auto. rewrite Ha, Hco. simpl Nat.eqb. cbv iota.
    destruct (nth 3 (o_coef o) NaN) as [x| | |] eqn:E3; simpl; try reflexivity.
    - f_equal; ring.
    - exfalso. rewrite Hc1 in E3. rewrite expand_coef_nth in E3 by auto. destruct (index_of _ _); discriminate.
    - exfalso. rewrite Hc1 in E3. rewrite expand_coef_nth in E3 by auto. destruct (index_of _ _); discriminate. }
  assert (EV : W' 3%nat 3%nat = fmul (Fin (s * s)) (l_vcov reg 3%nat 3%nat)).
  { rewrite HV. apply Hvc; auto. }
  assert (Hfa : fin_or_nan (r_att r)).
  { rewrite Ha, Hco, Hc1, expand_coef_nth by auto. destruct (index_of _ _); [right; eauto|left; auto]. }
  assert (Hfv : fin_or_nan (l_vcov reg 3%nat 3%nat)).
  { rewrite HV, HE by auto. unfold expand_vcov. destruct (index_of _ _); [right; eauto|left; auto]. }
  assert (Edf : fit_df (length rows) (o_coef o') 0 = l_df reg).
  { rewrite Hdf. unfold fit_df, n_effective. do 3 f_equal.
    rewrite Hc1, Hc2. unfold expand_coef.
    generalize (seq 0 (length (did_design (fR d) (fR t) extra))). intros l.
    induction l as [|j l IH]; auto. cbn [map filter].
    destruct (index_of j _); cbn [fisnan negb length]; rewrite IH; reflexivity. }
  rewrite Eatt, EV, Edf.
  destruct (inference_scale sf ppf (r_att r) (l_vcov reg 3%nat 3%nat) s None None (c_alpha cfg) (l_df reg) Hs Hfa Hfv)
    as (S1 & S2 & S3 & S4).
  rewrite Hse, Hp, Hci, Htt, Hsg, Hr2, Hre.
  split; [reflexivity|]. split; [exact S1|]. split; [exact S2|]. split; [rewrite S2; reflexivity|]. split; [|split; assumption].
  assert (Hrows : rows <> []).
  { intros ->. simpl in Td. discriminate. }
  transitivity (r_squared rows (fun i => s * toR (y i) + c) (fun i => s * o_resid o i) false 0).
  - unfold r_squared.
    rewrite (sumf_ext (fun i => o_resid o' i * o_resid o' i) (fun i => s * o_resid o i * (s * o_resid o i)))
      by (intros i Hi; rewrite Hres by auto; reflexivity).
    rewrite (meanf_ext (fR y2) (fun i => s * toR (y i) + c)) by auto.
    rewrite (sumf_ext (fun i => (toR (y2 i) - meanf (fun i0 => s * toR (y i0) + c) rows) * (toR (y2 i) - meanf (fun i0 => s * toR (y i0) + c) rows))
       (fun i => (s * toR (y i) + c - meanf (fun i0 => s * toR (y i0) + c) rows) * (s * toR (y i) + c - meanf (fun i0 => s * toR (y i0) + c) rows)))
      by (intros i Hi; rewrite Hy2 by auto; reflexivity).
    reflexivity.
  - apply r_squared_affine; auto.
Qed.

(* ---- C07: when does fit succeed ---- *)
Lemma four_cells_two_values rows (d t : I -> fl) :
  zero_one rows (fR d) -> zero_one rows (fR t) ->
  (forall i, In i rows -> d i = Fin (toR (d i))) -> (forall i, In i rows -> t i = Fin (toR (t i))) ->
  four_cells rows (fR d) (fR t) -> two_values rows d = true /\ two_values rows t = true.
Proof.
  intros Zd Zt Fd Ft (H00 & H01 & H10 & H11).
  assert (Hex : forall x z, cell rows (fR d) (fR t) x z <> [] -> exists i, In i rows /\ toR (d i) = x /\ toR (t i) = z).
  { intros x z Hne. destruct (cell rows (fR d) (fR t) x z) as [|i l] eqn:E; [congruence|].
    exists i. apply (cell_in rows (fR d) (fR t)). rewrite E; simpl; auto. }
  destruct (Hex 0 0 H00) as (i0 & I0 & D0 & T0). destruct (Hex 1 1 H11) as (i3 & I3 & D3 & T3).
  split; apply existsb_exists; exists i0; split; auto; apply existsb_exists; exists i3; split; auto.
  - rewrite (Fd i0), (Fd i3), D0, D3 by auto. simpl. rewrite Reqb_01. reflexivity.
  - rewrite (Ft i0), (Ft i3), T0, T3 by auto. simpl. rewrite Reqb_01. reflexivity.
Qed.

Definition finite_col (rows : list I) (x : I -> fl) : Prop := forall i, In i rows -> exists r, x i = Fin r.

Lemma finite_col_checks rows x : finite_col rows x ->
  has_nan rows x = false /\ has_inf rows x = false /\ (forall i, In i rows -> x i = Fin (toR (x i))).
Proof.
  intros H. repeat split.
  - destruct (has_nan rows x) eqn:E; auto. apply existsb_exists in E. destruct E as (i & Hi & E).
    destruct (H i Hi) as [r Hr]. rewrite Hr in E. discriminate.
  - destruct (has_inf rows x) eqn:E; auto. apply existsb_exists in E. destruct E as (i & Hi & E).
    destruct (H i Hi) as [r Hr]. rewrite Hr in E. discriminate.
  - intros i Hi. destruct (H i Hi) as [r Hr]. rewrite Hr. reflexivity.
Qed.

Lemma zero_one_binary rows (x : I -> fl) : finite_col rows x -> zero_one rows (fR x) -> binary rows x = true.
Proof.
  intros Hf Hz. apply forallb_forall. intros i Hi. destruct (Hf i Hi) as [r Hr]. specialize (Hz i Hi).
  cbv beta in Hz. rewrite Hr in *. simpl in *. destruct Hz as [Hz|Hz]; rewrite Hz, Reqb_refl.
  - reflexivity.
  - apply Bool.orb_true_r.
Qed.

(* finite binary data with both values of each indicator: the checks pass and the regression is run *)
Lemma did_fit_reduces0 cfg rows (y d t : I -> fl) :
  finite_col rows y -> finite_col rows d -> finite_col rows t ->
  zero_one rows (fR d) -> zero_one rows (fR t) -> two_values rows d = true -> two_values rows t = true ->
  fit cfg rows y d t [] [] [] =
    do reg <- linreg_fit keq qr lstsq inv pinv (c_robust cfg) (c_cluster cfg) (c_action cfg) 0%Z rows
                (did_design (fR d) (fR t) []) (fR y);
    let att := nth 3 (l_coef reg) NaN in
    let inf := get_inference sf ppf att (l_vcov reg 3%nat 3%nat) None None (c_alpha cfg) (l_df reg) in
    Ok {| r_att := att; r_se := i_se inf; r_t := i_t inf; r_p := i_p inf; r_ci := i_ci inf;
          r_n_obs := length rows; r_n_treated := sumf (fR d) rows;
          r_n_control := sumf (fun i => 1 - fR d i) rows; r_alpha := c_alpha cfg;
          r_coef := l_coef reg; r_vcov := l_vcov reg; r_resid := l_resid reg; r_fitted := l_fitted reg;
          r_r2 := r_squared rows (fR y) (l_resid reg) false 0;
          r_signif := flt (i_p inf) (Fin (c_alpha cfg)) |}.
Proof.
  intros Fy Fd Ft Zd Zt T1 T2.
  destruct (finite_col_checks rows y Fy) as (N1 & I1 & E1).
  destruct (finite_col_checks rows d Fd) as (N2 & I2 & E2).
  destruct (finite_col_checks rows t Ft) as (N3 & I3 & E3).
  unfold did_fit. cbn [existsb]. rewrite N1, N2, N3, T1, T2, (zero_one_binary rows d Fd Zd), (zero_one_binary rows t Ft Zt), I1.
  reflexivity.
Qed.

(* a finite binary data set with the four cells: the checks pass and the regression is run *)
Lemma did_fit_reduces cfg rows (y d t : I -> fl) :
  finite_col rows y -> finite_col rows d -> finite_col rows t ->
  zero_one rows (fR d) -> zero_one rows (fR t) -> four_cells rows (fR d) (fR t) ->
  fit cfg rows y d t [] [] [] =
    do reg <- linreg_fit keq qr lstsq inv pinv (c_robust cfg) (c_cluster cfg) (c_action cfg) 0%Z rows
                (did_design (fR d) (fR t) []) (fR y);
    let att := nth 3 (l_coef reg) NaN in
    let inf := get_inference sf ppf att (l_vcov reg 3%nat 3%nat) None None (c_alpha cfg) (l_df reg) in
    Ok {| r_att := att; r_se := i_se inf; r_t := i_t inf; r_p := i_p inf; r_ci := i_ci inf;
          r_n_obs := length rows; r_n_treated := sumf (fR d) rows;
          r_n_control := sumf (fun i => 1 - fR d i) rows; r_alpha := c_alpha cfg;
          r_coef := l_coef reg; r_vcov := l_vcov reg; r_resid := l_resid reg; r_fitted := l_fitted reg;
          r_r2 := r_squared rows (fR y) (l_resid reg) false 0;
          r_signif := flt (i_p inf) (Fin (c_alpha cfg)) |}.
Proof.
  intros Fy Fd Ft Zd Zt H4.
  destruct (finite_col_checks rows d Fd) as (N2 & I2 & E2).
  destruct (finite_col_checks rows t Ft) as (N3 & I3 & E3).
  destruct (four_cells_two_values rows d t Zd Zt E2 E3 H4) as [T1 T2].
  apply did_fit_reduces0; auto.
Qed.

(* more rows than the four parameters, at least two clusters if clustered: a result with a finite
   variance is returned *)
Theorem did_fit_defined cfg rows (y d t : I -> fl) :
  finite_col rows y -> finite_col rows d -> finite_col rows t ->
  zero_one rows (fR d) -> zero_one rows (fR t) -> four_cells rows (fR d) (fR t) ->
  (4 < length rows)%nat ->
  parse_action (c_action cfg) <> None ->
  (forall cl, c_cluster cfg = Some cl -> (2 <= length (cl_keys keq rows cl))%nat) ->
  exists r se, fit cfg rows y d t [] [] [] = Ok r /\ r_se r = Fin se /\ 0 <= se.
Proof.
  intros Fy Fd Ft Zd Zt H4 Hn Hact Hcl.
  rewrite did_fit_reduces by auto.
  pose proof (sat_indep rows (fR d) (fR t) H4) as Hind.
  pose proof (qr_indep_none qr rows _ Hqr Hind) as Hq.
  set (cols := did_design (fR d) (fR t) []) in *.
  assert (Lc : length cols = 4%nat) by reflexivity.
  assert (Hlt : Nat.ltb (length rows) (length cols) = false) by (apply Nat.ltb_ge; lia).
  assert (Hne : Nat.eqb (length rows) (length cols) = false) by (apply Nat.eqb_neq; lia).
  destruct (inv rows cols) as [B|] eqn:EB.
  2:{ pose proof (Hinv rows cols) as Hi. rewrite EB in Hi. contradiction. }
  assert (HV : forall e, exists V, robust_vcov keq inv rows cols e (c_cluster cfg) = Ok V).
  { intros e. unfold robust_vcov. rewrite Hne, EB. destruct (c_cluster cfg) as [cl|].
    - specialize (Hcl cl eq_refl). rewrite (proj2 (Nat.ltb_ge _ 2)) by lia. eauto.
    - eauto. }
  destruct (parse_action (c_action cfg)) as [act|] eqn:Ea; [|congruence].
  assert (Hsolve : exists o, solve_ols keq qr lstsq inv rows cols (fR y) (c_cluster cfg)
            (match c_cluster cfg with Some _ => true | None => c_robust cfg end) (c_action cfg) = Ok o).
  { unfold solve_ols. rewrite Hlt, Ea, Hq.
    destruct (HV (fun i => toR (y i) - lc cols (lstsq rows cols (fR y)) i)) as [V EV].
    destruct (match c_cluster cfg with Some _ => true | None => c_robust cfg end); [|eauto].
    rewrite EV. simpl. eauto. }
  destruct Hsolve as [o Ho]. unfold linreg_fit. rewrite Ho. cbn [bind].
  destruct (solve_ols_shape keq qr lstsq inv Hls _ _ _ _ _ _ _ Ho) as (Lb & Hc & Hf & Hr & _ & Hv & _ & Hle).
  set (vc := match o_vcov o with Some V => V | None => classical_vcov inv pinv rows cols (o_coef o) (o_resid o) end).
  assert (Hvc : exists x, vc 3%nat 3%nat = Fin x /\ 0 <= x).
  { unfold vc. rewrite Hq in *. rewrite select_cols_full in *.
    destruct (match c_cluster cfg with Some _ => true | None => c_robust cfg end) eqn:Esw.
    - destruct Hv as (V & EV & W & EW & HE). rewrite EW, HE by lia. rewrite kept_cols_nil. unfold expand_vcov.
      rewrite !index_of_seq by lia. eexists; split; [reflexivity|].
      apply (robust_vcov_diag_nonneg keq inv Hinv _ _ _ _ _ Hle EV).
    - rewrite Hv. unfold classical_vcov.
      assert (Hfp : finite_positions (o_coef o) = seq 0 4).
      { rewrite Hc. unfold finite_positions. rewrite expand_coef_length, Lc.
        assert (Hall : forall j, In j (seq 0 4) -> negb (fisnan (nth j (expand_coef (lstsq rows cols (fR y)) 4 (kept_cols 4 [])) NaN)) = true).
        { intros j Hj. apply in_seq in Hj. rewrite expand_coef_nth by lia. rewrite kept_cols_nil, index_of_seq by lia. reflexivity. }
        revert Hall. generalize (seq 0 4). induction l as [|a l IH]; intros Hall; auto.
        cbn [filter]. rewrite (Hall a) by (simpl; auto). f_equal. apply IH. intros; apply Hall; simpl; auto. }
      rewrite Hfp. change (length (seq 0 4)) with 4%nat. change (Nat.eqb 4 0) with false. cbv iota.
      cbv beta. rewrite !index_of_seq by lia.
      replace (select_cols cols (seq 0 4)) with cols by reflexivity.
      unfold bread. rewrite EB.
      pose proof (Hinv rows cols) as HB. rewrite EB in HB.
      rewrite (did_bread_closed rows (fR d) (fR t) Zd Zt B H4 HB).
      unfold fdiv. apply lt_INR in Hn. simpl INR in Hn.
      destruct (Req_EM_T (INR (length rows) - INR 4) 0) as [Hz|Hz]; [simpl INR in Hz; lra|].
      simpl fmul. eexists; split; [reflexivity|].
      destruct H4 as (H00 & H01 & H10 & H11).
      apply Rmult_le_pos.
      + apply Rmult_le_pos; [apply sumf_nonneg; intros; apply sq_nonneg|]. left. apply Rinv_0_lt_compat. simpl INR; lra.
      + pose proof (Rinv_0_lt_compat _ (len_pos _ H00)). pose proof (Rinv_0_lt_compat _ (len_pos _ H01)).
        pose proof (Rinv_0_lt_compat _ (len_pos _ H10)). pose proof (Rinv_0_lt_compat _ (len_pos _ H11)). lra. }
  destruct Hvc as (x & Ex & Hx). eexists. exists (sqrt x). split; [reflexivity|].
  cbn [r_se l_vcov]. unfold get_inference; cbn [i_se]. fold vc. rewrite Ex. split; [apply sqrt_fin; auto|apply sqrt_pos].
Qed.

(* exactly four rows, one per cell: accepted by every check, yet the default variance raises *)
Theorem did_fit_n_equals_k cfg rows (y d t : I -> fl) :
  finite_col rows y -> finite_col rows d -> finite_col rows t ->
  zero_one rows (fR d) -> zero_one rows (fR t) -> four_cells rows (fR d) (fR t) ->
  length rows = 4%nat -> parse_action (c_action cfg) <> None ->
  c_robust cfg = true -> c_cluster cfg = None ->
  fit cfg rows y d t [] [] [] = Err ZeroDivisionError.
Proof.
  intros Fy Fd Ft Zd Zt H4 Hn Hact Hr Hcl.
  rewrite did_fit_reduces by auto. unfold linreg_fit, solve_ols. rewrite Hr, Hcl, Hn.
  change (length (did_design (fR d) (fR t) [])) with 4%nat. change (Nat.ltb 4 4) with false. cbv iota.
  destruct (parse_action (c_action cfg)) as [act|]; [|congruence].
  rewrite (qr_indep_none qr rows _ Hqr (sat_indep rows _ _ H4)).
  unfold robust_vcov. rewrite Hn. reflexivity.
Qed.

(* C03: row order.  Full-rank design, sandwich variance. *)
Theorem did_row_order cfg r1 r2 y d t covs dums a b :
  Permutation r1 r2 ->
  indep r1 (did_design (fR d) (fR t) (map (fun c => fR c) covs ++ dums)) ->
  (c_robust cfg = true \/ c_cluster cfg <> None) ->
  fit cfg r1 y d t covs dums [] = Ok a -> fit cfg r2 y d t covs dums [] = Ok b ->
  r_att a = r_att b /\ r_coef a = r_coef b /\ r_se a = r_se b /\ r_t a = r_t b /\ r_p a = r_p b /\
  r_ci a = r_ci b /\ r_signif a = r_signif b /\ r_n_obs a = r_n_obs b /\ r_r2 a = r_r2 b.
Proof.
  intros P Hind Hrob H1 H2.
  destruct (did_fit_inv keq geq qr lstsq inv pinv sf ppf _ _ _ _ _ _ _ _ _ H1)
    as (_ & _ & _ & _ & _ & _ & y1 & c1 & n1 & reg1 & EA1 & ER1 & Ha1 & (Hse1 & Ht1 & Hp1 & Hci1 & Hsg1) & Hc1 & _ & _ & _ & Hr21 & Hn1).
  destruct (did_fit_inv keq geq qr lstsq inv pinv sf ppf _ _ _ _ _ _ _ _ _ H2)
    as (_ & _ & _ & _ & _ & _ & y2 & c2 & n2 & reg2 & EA2 & ER2 & Ha2 & (Hse2 & Ht2 & Hp2 & Hci2 & Hsg2) & Hc2 & _ & _ & _ & Hr22 & Hn2).
  simpl in EA1, EA2. injection EA1 as <- <- <-. injection EA2 as <- <- <-.
  set (cols := did_design (fR d) (fR t) (map (fun c => fR c) covs ++ dums)) in *.
  assert (Hsw : (match c_cluster cfg with Some _ => true | None => c_robust cfg end) = true).
  { destruct (c_cluster cfg); auto. destruct Hrob; auto; congruence. }
  destruct (linreg_fit_inv keq qr lstsq inv pinv _ _ _ _ _ _ _ _ ER1) as (o1 & Ho1 & Hco1 & Hre1 & _ & Hdf1 & HV1).
  destruct (linreg_fit_inv keq qr lstsq inv pinv _ _ _ _ _ _ _ _ ER2) as (o2 & Ho2 & Hco2 & Hre2 & _ & Hdf2 & HV2).
  rewrite Hsw in *.
  pose proof (qr_indep_none qr r1 _ Hqr Hind) as Q1.
  pose proof (qr_indep_none qr r2 _ Hqr (indep_perm r1 r2 _ P Hind)) as Q2.
  destruct (solve_ols_shape keq qr lstsq inv Hls _ _ _ _ _ _ _ Ho1) as (Lb1 & Hk1 & _ & Hrs1 & _ & (V1 & EV1 & W1 & EW1 & HE1) & _).
  destruct (solve_ols_shape keq qr lstsq inv Hls _ _ _ _ _ _ _ Ho2) as (Lb2 & Hk2 & _ & Hrs2 & _ & (V2 & EV2 & W2 & EW2 & HE2) & _).
  rewrite Q1 in *. rewrite Q2 in *. rewrite select_cols_full in *.
  assert (Eb : lstsq r1 cols (fR y) = lstsq r2 cols (fR y)).
  { apply (ls_coef_unique r1 cols (fR y)); auto. apply (ls_perm r2); [apply Permutation_sym; auto|auto]. }
  assert (Ecoef : o_coef o1 = o_coef o2) by (rewrite Hk1, Hk2, Eb; reflexivity).
  assert (H3 : (3 < length cols)%nat) by (unfold cols, did_design; simpl; lia).
  assert (EW : W1 3%nat 3%nat = W2 3%nat 3%nat).
  { rewrite HE1, HE2 by auto. rewrite kept_cols_nil. unfold expand_vcov. rewrite !index_of_seq by auto. f_equal.
    rewrite Eb in EV1. apply (robust_vcov_perm keq inv Hinv r1 r2 cols _ _ V1 V2 P EV1 EV2); auto. }
  assert (Eatt : r_att a = r_att b) by (rewrite Ha1, Ha2, Hco1, Hco2, Ecoef; reflexivity).
  assert (EVV : l_vcov reg1 3%nat 3%nat = l_vcov reg2 3%nat 3%nat) by (rewrite HV1, HV2, EW1, EW2; auto).
  assert (Edf : l_df reg1 = l_df reg2) by (rewrite Hdf1, Hdf2, Ecoef, (Permutation_length P); reflexivity).
  rewrite Hse1, Hse2, Ht1, Ht2, Hp1, Hp2, Hci1, Hci2, Hsg1, Hsg2, Hr21, Hr22, Hn1, Hn2, Eatt, EVV, Edf.
  repeat split; auto.
  - congruence.
  - apply Permutation_length; auto.
  - rewrite Hre1, Hre2. unfold r_squared. rewrite (meanf_perm _ _ _ P).
    rewrite !(sumf_perm _ _ _ P).
    rewrite (sumf_ext_all (fun i => o_resid o1 i * o_resid o1 i) (fun i => o_resid o2 i * o_resid o2 i))
      by (intros; rewrite Hrs1, Hrs2, Eb; reflexivity). reflexivity.
Qed.

End DidEquiv.

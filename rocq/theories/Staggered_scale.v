(* CallawaySantAnna under y -> c y + alpha_unit + lambda_period (c > 0): the estimators of one cell. *)
From Verif Require Import Prelude Flt Stats_model Stats_proofs Linalg_model Linalg_proofs Linalg_vcov Linalg_thms Did_model Did_proofs Multi_model Multi_proofs Multi_thms Bacon_model Staggered_model Staggered_proofs Staggered_est Scale_flt.
From Coq Require Import Arith ZArith String List.
Import ListNotations.
Open Scope R_scope.

Definition est_rel (c : R) (T C : list Z) (e e' : cs_est) : Prop :=
  ce_att e' = sc c (ce_att e) /\ ce_se e' = sc c (ce_se e) /\
  (forall a, In a T -> ce_tinf e' a = sc c (ce_tinf e a)) /\ (forall a, In a C -> ce_cinf e' a = sc c (ce_cinf e a)).

(* equal errors or related values *)
Definition res_rel {A B} (P : A -> B -> Prop) (x : res A) (y : res B) : Prop :=
  match x, y with Ok a, Ok b => P a b | Err e, Err e' => e = e' | _, _ => False end.

Section Est.
Variable qr : list Z -> list (Z -> R) -> list nat.
Variable lstsq : list Z -> list (Z -> R) -> (Z -> R) -> list R.
Variable inv : list Z -> list (Z -> R) -> option (nat -> nat -> R).
Variable logit : list Z -> list Z -> list (Z -> R) -> option (Z -> R).
Hypothesis Hqr : qr_ok qr.
Hypothesis Hls : lstsq_ok lstsq.
Notation est := (estimate qr lstsq inv logit).
Notation solve C cols dy action := (solve_ols unit_eqd qr lstsq inv C cols dy None false action).
Variables (c k : R).
Hypothesis Hc : 0 < c.

Lemma var1_affine (f f' : Z -> R) l : (forall a, In a l -> f' a = c * f a + k) -> var1 (map f' l) = c * c * var1 (map f l).
Proof.
  intros Hf. unfold var1. rewrite !map_length. destruct (Nat.ltb_spec 1 (length l)) as [L|L]; [|ring].
  unfold variance, len. rewrite !map_length, (sumsq_affine c f f' l k); [unfold Rdiv; ring| |exact Hf].
  intros ->. cbn in L. lia.
Qed.
Lemma mean_affine (f f' : Z -> R) l : l <> [] -> (forall a, In a l -> f' a = c * f a + k) -> meanf f' l = c * meanf f l + k.
Proof. intros Hl Hf. rewrite (meanf_ext _ _ _ Hf), meanf_add, meanf_scal, meanf_const by auto. reflexivity. Qed.
Lemma sqrt_sc v v' : v' = c * c * v -> fsqrt (Fin v') = sc c (fsqrt (Fin v)).
Proof. intros ->. exact (sc_sqrt c Hc (Fin v)). Qed.

(* fits with an intercept: residuals of the controls and of any row on which the outcome changes alike *)
Lemma solve_scale (C : list Z) x dy dy' action : (forall a, In a C -> dy' a = c * dy a + k) ->
  res_rel (fun o o' => (forall a, In a C -> o_resid o' a = c * o_resid o a) /\
     match all_fin (o_coef o), all_fin (o_coef o') with
     | Some b, Some b' => forall a, dy' a = c * dy a + k -> dy' a - lc ((fun _ => 1) :: x) b' a = c * (dy a - lc ((fun _ => 1) :: x) b a)
     | None, None => True | _, _ => False end)
  (solve C ((fun _ => 1) :: x) dy action) (solve C ((fun _ => 1) :: x) dy' action).
Proof.
  intros Hd. set (cols := (fun _ : Z => 1) :: x).
  destruct (solve C cols dy action) as [o|e0] eqn:E, (solve C cols dy' action) as [o'|e'] eqn:E'; unfold res_rel.
  - split.
    + intros a Ha.
      destruct (solve_ols_shape unit_eqd qr lstsq inv Hls _ _ _ _ _ _ _ E) as (Lb & _ & _ & Hr & _).
      destruct (solve_ols_shape unit_eqd qr lstsq inv Hls _ _ _ _ _ _ _ E') as (Lb' & _ & _ & Hr' & _).
      rewrite Hr, Hr', (Hd a Ha).
      set (xr := select_cols cols (kept_cols (length cols) (qr C cols))) in *.
      assert (Sp : span C xr (fun _ => 1)).
      { destruct (Hqr C cols) as [Hq _]. apply (qr_ok_span C cols (qr C cols) Hq). left. reflexivity. }
      destruct Sp as (b1 & L1 & H1).
      rewrite (ls_fitted_unique C xr dy' (lstsq C xr dy') (vadd (vscal c (lstsq C xr dy)) (vscal k b1))); [|apply Hls| |exact Ha].
      * rewrite lc_vadd by (rewrite ?vscal_length; auto; apply Hls). rewrite !lc_vscal, <- (H1 a Ha). ring.
      * apply (ls_ext C xr (fun a => c * dy a + k)); [intros i Hi; rewrite Hd; auto|].
        apply (ls_add C xr (fun a => c * dy a) (fun _ => k)); [apply ls_scal, Hls|].
        apply ls_exact; [rewrite vscal_length; exact L1|]. intros i Hi. rewrite lc_vscal, <- (H1 i Hi). ring.
    + destruct (all_fin (o_coef o)) as [b|] eqn:Eb, (all_fin (o_coef o')) as [b'|] eqn:Eb'; try exact Logic.I.
      * destruct (solve_all_fin qr lstsq inv Hqr Hls _ _ _ _ _ _ E Eb) as (_ & _ & Hb & Hi & _).
        destruct (solve_all_fin qr lstsq inv Hqr Hls _ _ _ _ _ _ E' Eb') as (_ & _ & Hb' & _ & _).
        assert (Eb2 : b' = vadd (vscal c b) (k :: repeat 0 (length x))).
        { apply (ls_coef_unique C cols dy'); auto.
          apply (ls_ext C cols (fun a => c * dy a + k)); [intros; rewrite Hd; auto|].
          apply (ls_add C cols (fun a => c * dy a) (fun _ => k)); [apply ls_scal; exact Hb|].
          apply ls_exact; [simpl; rewrite repeat_length; reflexivity|]. intros a _. simpl. rewrite lc_repeat0. ring. }
        intros a Ha. rewrite Ha, Eb2. change ((fun _ : Z => 1) :: x) with cols. rewrite lc_vadd, lc_vscal.
        -- simpl. rewrite lc_repeat0. ring.
        -- destruct Hb as [Lb _]. rewrite vscal_length. exact Lb.
        -- simpl. rewrite repeat_length. reflexivity.
      * destruct (solve_all_fin qr lstsq inv Hqr Hls _ _ _ _ _ _ E Eb) as (Q & _).
        unfold solve_ols in E'. rewrite Q in E'. destruct (Nat.ltb _ _); [discriminate|]. destruct (parse_action action); [|discriminate].
        injection E' as <-. cbn [o_coef] in Eb'. rewrite all_fin_map in Eb'. discriminate.
      * destruct (solve_all_fin qr lstsq inv Hqr Hls _ _ _ _ _ _ E' Eb') as (Q & _).
        unfold solve_ols in E. rewrite Q in E. destruct (Nat.ltb _ _); [discriminate|]. destruct (parse_action action); [|discriminate].
        injection E as <-. cbn [o_coef] in Eb. rewrite all_fin_map in Eb. discriminate.
  - exfalso. unfold solve_ols in E, E'. destruct (Nat.ltb _ _); [discriminate|]. destruct (parse_action action) as [act|]; [|discriminate].
    destruct (qr C cols); [discriminate|]. destruct (Nat.eqb (length (kept_cols (length cols) (n :: l))) 0); destruct act; discriminate.
  - exfalso. unfold solve_ols in E, E'. destruct (Nat.ltb _ _); [discriminate|]. destruct (parse_action action) as [act|]; [|discriminate].
    destruct (qr C cols); [discriminate|]. destruct (Nat.eqb (length (kept_cols (length cols) (n :: l))) 0); destruct act; discriminate.
  - unfold solve_ols in E, E'. destruct (Nat.ltb _ _); [congruence|]. destruct (parse_action action) as [act|]; [|congruence].
    destruct (qr C cols); [discriminate|]. destruct (Nat.eqb (length (kept_cols (length cols) (n :: l))) 0); destruct act; congruence.
Qed.

Theorem est_scale cfg T C dy dy' xs : T <> [] -> C <> [] -> (forall a, In a T \/ In a C -> dy' a = c * dy a + k) ->
  res_rel (est_rel c T C) (est cfg T C dy xs) (est cfg T C dy' xs).
Proof.
  intros HT HC Hd. pose proof (len_pos _ HT) as PT. pose proof (len_pos _ HC) as PC.
  assert (HdT : forall a, In a T -> dy' a = c * dy a + k) by auto. assert (HdC : forall a, In a C -> dy' a = c * dy a + k) by auto.
  pose proof (mean_affine dy dy' T HT HdT) as MT. pose proof (mean_affine dy dy' C HC HdC) as MC.
  pose proof (var1_affine dy dy' T HdT) as VT. pose proof (var1_affine dy dy' C HdC) as VC.
  assert (RM : est_rel c T C (est_means T C dy) (est_means T C dy')).
  { unfold est_rel, est_means. cbn [ce_att ce_se ce_tinf ce_cinf]. rewrite MT, MC, VT, VC. split; [rewrite sc_fin; apply (f_equal Fin); ring|].
    split; [apply sqrt_sc; field; lra|]. split; intros a Ha; [rewrite (HdT a Ha)|rewrite (HdC a Ha)]; rewrite sc_fin; apply (f_equal Fin); field; lra. }
  unfold estimate. destruct (String.eqb (cs_method cfg) "reg").
  { destruct xs as [x|]; [|exact RM]. unfold est_reg. pose proof (solve_scale C x dy dy' (cs_action cfg) HdC) as HS.
    destruct (solve C ((fun _ => 1) :: x) dy (cs_action cfg)) as [o|], (solve C ((fun _ => 1) :: x) dy' (cs_action cfg)) as [o'|]; try contradiction HS; [|exact HS].
    cbn [bind]. cbn [res_rel] in HS. destruct HS as [HR HS].
    assert (VR : var1 (map (o_resid o') C) = c * c * var1 (map (o_resid o) C)).
    { unfold var1. rewrite !map_length. destruct (Nat.ltb _ _); [|ring]. unfold variance, len. rewrite !map_length.
      rewrite (sumsq_affine c (o_resid o) (o_resid o') C 0); [unfold Rdiv; ring|exact HC|intros a Ha; rewrite (HR a Ha); ring]. }
    destruct (all_fin (o_coef o)) as [b|], (all_fin (o_coef o')) as [b'|]; try contradiction HS; cbn [res_rel].
    - set (r := fun a => dy a - lc ((fun _ => 1) :: x) b a). set (r' := fun a => dy' a - lc ((fun _ => 1) :: x) b' a).
      assert (HrT : forall a, In a T -> r' a = c * r a + 0). { intros a Ha. unfold r, r'. rewrite (HS a) by auto. ring. }
      assert (MR : meanf r' T = c * meanf r T). { rewrite (meanf_ext _ _ _ HrT), meanf_add, meanf_scal, meanf_const by auto. ring. }
      assert (VR' : var1 (map r' T) = c * c * var1 (map r T)).
      { unfold var1. rewrite !map_length. destruct (Nat.ltb _ _); [|ring]. unfold variance, len. rewrite !map_length.
        rewrite (sumsq_affine c r r' T 0); [unfold Rdiv; ring|exact HT|exact HrT]. }
      unfold est_rel. cbn [ce_att ce_se ce_tinf ce_cinf]. fold r r'. rewrite MR, VR, VR'. split; [reflexivity|].
      split; [apply sqrt_sc; field; lra|]. split; intros a Ha.
      { change (Fin ((r' a - c * meanf r T) / len T) = sc c (Fin ((r a - meanf r T) / len T))). rewrite (HrT a Ha), sc_fin. apply (f_equal Fin). field. lra. }
      rewrite (HR a Ha), sc_fin. apply (f_equal Fin). field. lra.
    - unfold est_rel. cbn [ce_att ce_se ce_tinf ce_cinf]. split; [reflexivity|]. split.
      + destruct (Nat.ltb 1 (length T)); [reflexivity|]. rewrite VR. apply sqrt_sc. field. lra.
      + split; [reflexivity|]. intros a Ha. rewrite (HR a Ha), sc_fin. apply (f_equal Fin). field. lra. }
  destruct (String.eqb (cs_method cfg) "ipw").
  { destruct xs as [x|]; cbn [res_rel].
    - pose proof (odds_sum_pos logit T C x HC) as PO.
      assert (MW : sumf (fun a => odds logit T C x a / sumf (odds logit T C x) C * dy' a) C
                   = c * sumf (fun a => odds logit T C x a / sumf (odds logit T C x) C * dy a) C + k).
      { rewrite (sumf_ext _ (fun a => c * (odds logit T C x a / sumf (odds logit T C x) C * dy a) + k / sumf (odds logit T C x) C * odds logit T C x a))
          by (intros a Hi; rewrite HdC by auto; unfold Rdiv; ring).
        rewrite sumf_add, !sumf_scal. field. lra. }
      unfold est_rel, est_ipw. cbn [ce_att ce_se ce_tinf ce_cinf]. rewrite MW, MT, VT.
      set (w := fun a => odds logit T C x a / sumf (odds logit T C x) C). change (sumf (fun a => odds logit T C x a / sumf (odds logit T C x) C * dy a) C) with (sumf (fun a => w a * dy a) C).
      set (mc := sumf (fun a => w a * dy a) C). split; [rewrite sc_fin; apply (f_equal Fin); ring|].
      split.
      { apply sqrt_sc. rewrite (sumf_ext (fun a => odds logit T C x a / sumf (odds logit T C x) C * ((dy' a - (c * mc + k)) * (dy' a - (c * mc + k))))
          (fun a => c * c * (w a * ((dy a - mc) * (dy a - mc))))).
        - rewrite sumf_scal. change (sumf (fun a => odds logit T C x a / sumf (odds logit T C x) C * ((dy a - mc) * (dy a - mc))) C) with (sumf (fun a => w a * ((dy a - mc) * (dy a - mc))) C). field. lra.
        - intros a Ha. rewrite (HdC a Ha). unfold w. ring. }
      split; intros a Ha; [rewrite (HdT a Ha)|rewrite (HdC a Ha)]; rewrite sc_fin; apply (f_equal Fin); [field; lra|unfold w; ring].
    - unfold est_rel, est_ipw_means. cbn [ce_att ce_se ce_tinf ce_cinf]. rewrite MT, MC, VT, VC. split; [rewrite sc_fin; apply (f_equal Fin); ring|].
      split.
      { destruct (Rlt_dec 0 (len T / (len T + len C))); [|rewrite sc_fin; apply (f_equal Fin); ring]. apply sqrt_sc.
        assert (0 < len T / (len T + len C)) by assumption. field. lra. }
      split; intros a Ha; [rewrite (HdT a Ha)|rewrite (HdC a Ha)]; rewrite sc_fin; apply (f_equal Fin); field; lra. }
  destruct xs as [x|]; [|exact RM]. unfold est_dr. pose proof (solve_scale C x dy dy' (cs_action cfg) HdC) as HS.
  destruct (solve C ((fun _ => 1) :: x) dy (cs_action cfg)) as [o|], (solve C ((fun _ => 1) :: x) dy' (cs_action cfg)) as [o'|]; try contradiction HS; [|exact HS].
  cbn [bind]. cbn [res_rel] in HS. destruct HS as [_ HS].
  destruct (all_fin (o_coef o)) as [b|], (all_fin (o_coef o')) as [b'|]; try contradiction HS; cbn [res_rel].
  - set (m := lc ((fun _ => 1) :: x) b) in *. set (m' := lc ((fun _ => 1) :: x) b') in *. set (w := odds logit T C x).
    set (att := meanf (fun a => dy a - m a) T + sumf (fun a => w a * (m a - dy a)) C / len T).
    set (att' := meanf (fun a => dy' a - m' a) T + sumf (fun a => w a * (m' a - dy' a)) C / len T).
    assert (EA : att' = c * att).
    { unfold att', att. rewrite (meanf_ext (fun a => dy' a - m' a) (fun a => c * (dy a - m a))) by (intros a Ha; apply HS; auto).
      rewrite (sumf_ext (fun a => w a * (m' a - dy' a)) (fun a => c * (w a * (m a - dy a)))).
      - rewrite meanf_scal, sumf_scal. field. lra.
      - intros a Ha. replace (m' a - dy' a) with (- (dy' a - m' a)) by ring. rewrite (HS a) by auto. ring. }
    assert (PTT : forall a, In a T -> (dy' a - m' a - att') / len T = c * ((dy a - m a - att) / len T)).
    { intros a Ha. rewrite (HS a), EA by auto. field. lra. }
    assert (PCC : forall a, In a C -> w a * (m' a - dy' a) / len T = c * (w a * (m a - dy a) / len T)).
    { intros a Ha. replace (m' a - dy' a) with (- (dy' a - m' a)) by ring. rewrite (HS a) by auto. field. lra. }
    assert (EV : sumf (fun a => (dy' a - m' a - att') / len T * ((dy' a - m' a - att') / len T)) T + sumf (fun a => w a * (m' a - dy' a) / len T * (w a * (m' a - dy' a) / len T)) C
       = c * c * (sumf (fun a => (dy a - m a - att) / len T * ((dy a - m a - att) / len T)) T + sumf (fun a => w a * (m a - dy a) / len T * (w a * (m a - dy a) / len T)) C)).
    { rewrite Rmult_plus_distr_l, <- !sumf_scal. f_equal; apply sumf_ext; intros a Ha; [rewrite (PTT a Ha)|rewrite (PCC a Ha)]; ring. }
    unfold est_rel. cbn [ce_att ce_se ce_tinf ce_cinf].
    fold w att att'. rewrite EV. set (v := sumf _ T + sumf _ C). split; [rewrite EA; reflexivity|]. split.
    { destruct (Rlt_dec 0 v) as [H|H], (Rlt_dec 0 (c * c * v)) as [H'|H'].
      - apply sqrt_sc. reflexivity.
      - exfalso. apply H'. apply Rmult_lt_0_compat; [apply Rmult_lt_0_compat; exact Hc|exact H].
      - exfalso. apply H. destruct (Rlt_le_dec 0 v) as [|L]; [assumption|]. exfalso.
        assert (0 <= c * c * - v) by (apply Rmult_le_pos; [left; apply Rmult_lt_0_compat; exact Hc|lra]). lra.
      - rewrite sc_fin. apply (f_equal Fin). ring. }
    split; intros a Ha; [rewrite (PTT a Ha)|rewrite (PCC a Ha)]; reflexivity.
  - unfold est_rel. cbn [ce_att ce_se ce_tinf ce_cinf]. split; [reflexivity|]. split; [rewrite sc_fin; apply (f_equal Fin); ring|]. split; reflexivity.
Qed.
End Est.

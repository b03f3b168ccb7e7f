(* The hypotheses of Span_thms are met: identification in a balanced panel whatever the covariates, and concrete fits. *)
From Coq Require Import Reals Lra Lia.
From Verif Require Import Prelude Flt Linalg_model Linalg_proofs Linalg_vcov Linalg_thms Linalg_dual Linalg_rank Linalg_span Did_model Did_spec Did_proofs Did_equiv Did_more Twfe_model Within_proofs Twfe_proofs Absorb_thms Absorb_ex Span_thms.
From Coq Require Import Arith ZArith String List.
Import ListNotations.
Open Scope R_scope.

(* a dual vector of the interaction shows that it is identified *)
Lemma dual_identified {I} (rows : list I) d t extra q : dual rows (did_design d t extra) 3 q -> ~ span rows (main_cols d t extra) (inter d t).
Proof.
  intros (Hj & Hs & Hq) Hn. assert (Z : ip rows (inter d t) q = 0).
  { apply (orth_span rows (main_cols d t extra)); [|easy]. apply Forall_forall. intros c Hc. unfold main_cols in Hc. cbn [In] in Hc.
    assert (G : forall a, a <> 3%nat -> (a < length (did_design d t extra))%nat -> ip rows (colx (did_design d t extra) a) q = 0).
    { intros a Ha Hl. rewrite Hq by easy. now rewrite (proj2 (Nat.eqb_neq a 3)). }
    unfold did_design in G. cbn [length] in G. destruct Hc as [<-|[<-|[<-|Hc]]]; [apply (G 0%nat); lia|apply (G 1%nat); lia|apply (G 2%nat); lia|].
    apply (In_nth _ _ (fun _ => 0)) in Hc. destruct Hc as (m & Hm & <-). apply (G (4 + m)%nat); lia. }
  specialize (Hq 3%nat Hj). change (ip rows (inter d t) q = 1) in Hq. lra.
Qed.

Section Lin.
Context {I K : Type} (keq : forall x y : K, {x = y} + {x <> y}).
Variable qr : list I -> list (I -> R) -> list nat.
Variable lstsq : list I -> list (I -> R) -> (I -> R) -> list R.
Variable inv : list I -> list (I -> R) -> option (nat -> nat -> R).
Variable pinv : list I -> list (I -> R) -> nat -> nat -> R.
Hypothesis Hqr : qr_ok qr.
Hypothesis Hinv : inv_ok inv.
(* a clustered fit is returned when there are more rows than columns and at least two clusters *)
Lemma linreg_defined rows cols y cl robust action nabs : (length cols < length rows)%nat -> (2 <= length (cl_keys keq rows cl))%nat ->
  action = "warn"%string \/ action = "silent"%string -> In (fun _ => 1) cols -> exists reg, linreg_fit keq qr lstsq inv pinv robust (Some cl) action nabs rows cols y = Ok reg.
Proof.
  intros Hn Hcl Hact Hone. assert (K0 : Nat.eqb (length (kept_cols (length cols) (qr rows cols))) 0 = false).
  { destruct rows as [|i0 rows0]; [cbn in Hn; lia|]. apply (kept_nonzero qr _ cols (fun _ => 1) i0 Hqr Hone); [now left|lra]. }
  set (kept := kept_cols (length cols) (qr rows cols)) in *. set (xr := select_cols cols kept).
  assert (Lx : (length xr <= length cols)%nat) by (unfold xr, select_cols; rewrite map_length; apply kept_le).
  assert (HV : forall e, exists V, robust_vcov keq inv rows xr e (Some cl) = Ok V).
  { intros e. assert (Hi := Hinv rows xr). destruct (inv rows xr) as [Bv|] eqn:EB; [|exfalso; apply Hi; apply (Hqr rows cols)].
    assert (Hne : Nat.eqb (length rows) (length xr) = false) by (apply Nat.eqb_neq; lia).
    unfold robust_vcov. rewrite Hne, EB. rewrite (proj2 (Nat.ltb_ge _ 2)) by lia. eauto. }
  assert (Hs : exists o, solve_ols keq qr lstsq inv rows cols y (Some cl) true action = Ok o).
  { unfold solve_ols. rewrite (proj2 (Nat.ltb_ge _ _)) by lia.
    assert (Pa : exists ra, parse_action action = Some ra /\ ra <> ActError) by (destruct Hact as [-> | ->]; eexists; (split; [reflexivity|discriminate])). destruct Pa as (ra & Pa & Na). rewrite Pa.
    destruct (qr rows cols) as [|a l] eqn:EQ.
    - assert (Ex : xr = cols) by (unfold xr, kept; apply select_cols_full). rewrite Ex in HV. edestruct HV as [V ->]. cbn [bind]. eauto.
    - fold kept. rewrite K0. fold xr. destruct ra; [|congruence|]; edestruct HV as [V ->]; cbn [bind]; eauto. }
  destruct Hs as [o Ho]. unfold linreg_fit. rewrite Ho. cbn [bind]. eauto.
Qed.
End Lin.

(* in a balanced panel with a unit that is never treated after and one that is, the interaction is identified whatever the covariates *)
Lemma twfe_identified {I U} (ueq : forall x y : U, {x = y} + {x <> y}) rows (u : I -> U) (d tm : I -> R) m covs a b :
  Within_proofs.balanced ueq Req_EM_T rows u tm m -> In a (map u rows) -> In b (map u rows) ->
  (forall i, In i rows -> u i = a -> d i * tm i = 0) -> (forall i, In i rows -> u i = b -> 0 <= d i * tm i) -> (exists i, In i rows /\ u i = b /\ 0 < d i * tm i) ->
  ~ span rows ((fun _ => 1) :: map (within ueq Req_EM_T rows u tm) covs) (inter d tm).
Proof.
  intros Hb Ha Hbu Za Pb (i0 & Hi0 & Ui0 & P0) (v & Lv & Ev). destruct v as [|c v]; [easy|]. cbn [length] in Lv. rewrite map_length in Lv.
  assert (G : forall k, In k (map u rows) -> sumf (inter d tm) (filter (fun j => keqb ueq (u j) k) rows) = c * len (filter (fun j => keqb ueq (u j) k) rows)).
  { intros k Hk. rewrite (sumf_ext _ (fun i => c + lc (map (within ueq Req_EM_T rows u tm) covs) v i)).
    - rewrite sumf_add, sumf_const. enough (E : sumf (lc (map (within ueq Req_EM_T rows u tm) covs) v) (filter (fun j => keqb ueq (u j) k) rows) = 0) by (rewrite E; ring).
      assert (Lv' : length v = length covs) by lia. clear Lv Ev. revert v Lv'. induction covs as [|x covs IH]; intros [|w v] Lv; cbn [length] in Lv; try lia; cbn [map lc].
      + rewrite sumf_const. ring.
      + rewrite sumf_add, sumf_scal, (within_unit_zero ueq Req_EM_T rows u tm m Hb x k Hk), IH by lia. ring.
    - intros i Hi. apply filter_In in Hi. rewrite Ev by easy. cbn [lc]. ring. }
  assert (P : forall k, In k (map u rows) -> 0 < len (filter (fun j => keqb ueq (u j) k) rows)).
  { intros k Hk. apply len_pos. apply in_map_iff in Hk. destruct Hk as (i & <- & Hi). intros E. assert (X : In i (filter (fun j => keqb ueq (u j) (u i)) rows)) by (apply filter_In; split; [easy|apply keqb_refl]). now rewrite E in X. }
  assert (C0 : c = 0).
  { assert (E := G a Ha). rewrite sumf_zero in E; [specialize (P a Ha); symmetry in E; apply Rmult_integral in E; destruct E; lra|].
    intros i Hi. apply filter_In in Hi. destruct Hi as [Hi E0]. apply keqb_true in E0. now apply Za. }
  assert (E := G b Hbu). rewrite C0, Rmult_0_l in E.
  assert (Z := fun Pn => sumf_nonneg_0 _ _ Pn E). specialize (Z ltac:(intros i Hi; apply filter_In in Hi; destruct Hi as [Hi E0]; apply keqb_true in E0; now apply Pb) i0).
  unfold inter in Z. rewrite Z in P0; [lra|]. apply filter_In. split; [easy|]. now apply keqb_true.
Qed.

(* 4 units and 2 periods with a covariate, measured in two ways *)
Definition tw_fit_cov (x : nat * nat -> R) := twfe_fit Nat.eq_dec (@gs_dropped (nat * nat)) (@gs (nat * nat)) (@gs_inv (nat * nat)) (fun _ _ _ _ => 0)
   toy_sf toy_ppf None (5/100) "warn" tw_rows tw_y (fun i => tw_d (fst i)) tw_tm fst [x].
Lemma tw_identified covs : ~ span tw_rows ((fun _ => 1) :: map (within Nat.eq_dec Req_EM_T tw_rows fst tw_tm) covs) (inter (fun i => tw_d (fst i)) tw_tm).
Proof.
  apply (twfe_identified Nat.eq_dec tw_rows fst _ tw_tm 1 covs 0%nat 2%nat tw_balanced).
  - cbn. auto.
  - cbn. tauto.
  - intros i _ ->. unfold tw_d. cbn [Nat.ltb Nat.leb]. ring.
  - intros i _ ->. unfold tw_d, tw_tm. cbn [Nat.ltb Nat.leb]. rewrite Rmult_1_l. apply pos_INR.
  - exists (2, 1)%nat. split; [cbn; tauto|]. split; [easy|]. unfold tw_d, tw_tm. cbn. lra.
Qed.
Lemma tw_cov_defined x : exists r, tw_fit_cov x = Ok r.
Proof.
  unfold tw_fit_cov, twfe_fit.
  destruct (linreg_defined Nat.eq_dec (@gs_dropped (nat * nat)) (@gs (nat * nat)) (@gs_inv (nat * nat)) (fun _ _ _ _ => 0) gs_dropped_ok gs_inv_ok tw_rows (twfe_design (fun i => tw_d (fst i)) tw_tm (map (within Nat.eq_dec Req_EM_T tw_rows fst tw_tm) [x]))
     (within Nat.eq_dec Req_EM_T tw_rows fst tw_tm tw_y) fst true (twfe_action "warn") (Z.of_nat (length (nodup Nat.eq_dec (map fst tw_rows))) + Z.of_nat (length (nodup Req_EM_T (map tw_tm tw_rows))) - 2)%Z) as [reg ER].
  - vm_compute. lia.
  - vm_compute. lia.
  - right. reflexivity.
  - now left.
  - rewrite ER. cbn [bind].
    assert (D : dual tw_rows (twfe_design (fun i => tw_d (fst i)) tw_tm (map (within Nat.eq_dec Req_EM_T tw_rows fst tw_tm) [x])) 1 (fwl_q tw_rows ((fun _ => 1) :: map (within Nat.eq_dec Req_EM_T tw_rows fst tw_tm) [x]) (inter (fun i => tw_d (fst i)) tw_tm))).
    { apply fwl_dual; [unfold twfe_design; cbn [length]; lia|easy|apply tw_identified| |].
      - intros c Hc. apply span_in. unfold twfe_design. cbn [map In] in *. tauto.
      - intros a Ha Hne. apply span_in. unfold twfe_design in *. cbn [map length] in *. destruct a as [|[|[|a]]]; [cbn; auto|congruence|cbn; auto|lia]. }
    destruct (linreg_fit_inv Nat.eq_dec (@gs_dropped (nat * nat)) (@gs (nat * nat)) (@gs_inv (nat * nat)) (fun _ _ _ _ => 0) _ _ _ _ _ _ _ _ ER) as (o & Ho & Ec & _).
    destruct (ols_dual Nat.eq_dec (@gs_dropped (nat * nat)) (@gs (nat * nat)) (@gs_inv (nat * nat)) gs_dropped_ok gs_ok gs_inv_ok _ _ _ _ _ _ _ _ _ Ho D) as (A1 & _).
    rewrite Ec, A1. cbn [fisnan]. eauto.
Qed.
Theorem twfe_units_case : exists r r', tw_fit_cov (fun i => INR (fst i * snd i)) = Ok r /\ tw_fit_cov (fun i => 2 * INR (fst i * snd i) + 3) = Ok r' /\
  tw_att r = tw_att r' /\ tw_se r = tw_se r' /\ tw_p r = tw_p r'.
Proof.
  destruct (tw_cov_defined (fun i => INR (fst i * snd i))) as [r E]. destruct (tw_cov_defined (fun i => 2 * INR (fst i * snd i) + 3)) as [r' E']. exists r, r'. do 2 (split; [easy|]).
  destruct (twfe_rescaled_covariate Nat.eq_dec (@gs_dropped (nat * nat)) (@gs (nat * nat)) (@gs_inv (nat * nat)) (fun _ _ _ _ => 0) toy_sf toy_ppf gs_dropped_ok gs_ok gs_inv_ok
    None (5/100) "warn" tw_rows tw_y (fun i => tw_d (fst i)) tw_tm fst (fun i => INR (fst i * snd i)) (fun i => 2 * INR (fst i * snd i) + 3) [] 2 3 r r' ltac:(lra) (fun _ _ => eq_refl) E E' (tw_identified _)) as (H1 & H2 & _ & H4 & _). easy.
Qed.

(* the unbalanced panel of Absorb_ex: dropping the first or the last unit's dummy *)
Theorem base_category_case : exists r r',
  a_fit (a_cfg None) b_rows b_y b_d b_t [] (dummies Nat.eq_dec b_g [1; 2]%nat) [] = Ok r /\ a_fit (a_cfg None) b_rows b_y b_d b_t [] (dummies Nat.eq_dec b_g [0; 1]%nat) [] = Ok r' /\
  r_att r = Fin 4 /\ r_att r' = Fin 4 /\ r_se r = r_se r'.
Proof.
  destruct (a_defined None b_rows b_yr b_b b_c [1; 2]%nat b_g [] Logic.I b_four ltac:(vm_compute; lia)) as [r E].
  destruct (a_defined None b_rows b_yr b_b b_c [0; 1]%nat b_g [] Logic.I b_four ltac:(vm_compute; lia)) as [r' E'].
  exists r, r'. do 2 (split; [easy|]).
  destruct (did_fit_dual Nat.eq_dec Nat.eq_dec (@gs_dropped nat) (@gs nat) (@gs_inv nat) ex_pinv toy_sf toy_ppf gs_dropped_ok gs_ok gs_inv_ok (a_cfg None) b_rows b_y b_d b_t [] (dummies Nat.eq_dec b_g [1; 2]%nat) [] r b_yr [] 0%Z b_q E eq_refl b_dual) as (X & _).
  assert (Ks : forall i, In i b_rows -> In (b_g i) [0; 1; 2]%nat).
  { assert (T : forallb (fun i => existsb (Nat.eqb (b_g i)) [0; 1; 2]%nat) b_rows = true) by (vm_compute; reflexivity). intros i Hi. rewrite forallb_forall in T. specialize (T i Hi).
    apply existsb_exists in T. destruct T as (k & Hk & Ek). apply Nat.eqb_eq in Ek. now rewrite Ek. }
  destruct (did_base_category Nat.eq_dec Nat.eq_dec (@gs_dropped nat) (@gs nat) (@gs_inv nat) ex_pinv toy_sf toy_ppf gs_dropped_ok gs_ok gs_inv_ok (a_cfg None) b_rows b_y b_d b_t [] b_g 0%nat [1; 2]%nat 2%nat [0; 1]%nat r r') as (Q1 & Q2 & _); try easy.
  - repeat constructor; cbn; intuition lia.
  - repeat constructor; cbn; intuition lia.
  - intros i Hi. specialize (Ks i Hi). cbn [In] in *. tauto.
  - cbn [map app]. apply (dual_identified b_rows _ _ _ b_q). exact b_dual.
  - assert (V : r_att r = Fin 4) by (rewrite X; apply (f_equal Fin); unfold ip, b_rows; cbn [seq sumf b_q b_yr]; lra).
    split; [easy|]. split; [now rewrite <- Q1|easy].
Qed.

(* the same panel with a covariate in two units of measurement *)
Definition b_x (i : nat) : fl := Fin (match i with 0%nat | 2%nat | 4%nat | 6%nat => 1 | _ => 0 end).
Definition b_x' (i : nat) : fl := Fin (100 * toR (b_x i) + 7).
Theorem covariate_units_case : exists r r', a_fit (a_cfg None) b_rows b_y b_d b_t [b_x] [] [] = Ok r /\ a_fit (a_cfg None) b_rows b_y b_d b_t [b_x'] [] [] = Ok r' /\
  r_att r = r_att r' /\ r_se r = r_se r' /\ r_p r = r_p r'.
Proof.
  assert (Df : forall x, (forall i, In i b_rows -> exists v, x i = Fin v) -> exists r, a_fit (a_cfg None) b_rows b_y b_d b_t [x] [] [] = Ok r).
  { intros x Fx. unfold a_fit. rewrite did_fit_cov_dum by (intros c [<-|[]]; exact Fx).
    apply (did_fit_defined_fe Nat.eq_dec Nat.eq_dec (@gs_dropped nat) (@gs nat) (@gs_inv nat) ex_pinv toy_sf toy_ppf gs_dropped_ok gs_inv_ok); try apply finite_ind; try apply zo_ind; try easy.
    - intros i _. eauto.
    - apply b_four.
    - cbn [map app length]. vm_compute. lia.
    - cbn [map app length]. eapply Nat.le_lt_trans; [apply kept_le|]. vm_compute. lia. }
  destruct (Df b_x) as [r E]; [intros; unfold b_x; eauto|]. destruct (Df b_x') as [r' E']; [intros; unfold b_x'; eauto|]. exists r, r'. do 2 (split; [easy|]).
  assert (Fk : finite_col b_rows b_x) by (intros i _; unfold b_x; eauto).
  destruct (did_rescaled_covariate Nat.eq_dec Nat.eq_dec (@gs_dropped nat) (@gs nat) (@gs_inv nat) ex_pinv toy_sf toy_ppf gs_dropped_ok gs_ok gs_inv_ok (a_cfg None) b_rows b_y b_d b_t b_x b_x' [] 100 7 r r' ltac:(lra) (fun _ _ => eq_refl) E E') as (Q1 & Q2 & _ & Q4 & _); [|easy].
  intros (v & Lv & Ev). destruct v as [|v0 [|v1 [|v2 [|v3 [|]]]]]; try discriminate.
  assert (T : forall i, In i b_rows -> inter (fun i => toR (b_d i)) (fun i => toR (b_t i)) i = v0 + v1 * ind (b_b i) + v2 * ind (b_c i) + v3 * toR (b_x i)).
  { intros i Hi. rewrite Ev by easy. unfold main_cols. cbn [map lc toR]. ring. }
  assert (T1 := T 1%nat ltac:(cbn; tauto)). assert (T3 := T 3%nat ltac:(cbn; tauto)). assert (T5 := T 5%nat ltac:(cbn; tauto)). assert (T7 := T 7%nat ltac:(cbn; tauto)).
  unfold inter in *. cbn in T1, T3, T5, T7. lra.
Qed.

(* HonestDiD: the unused relative-magnitude constraint matrix, the pre-period maximum, concrete cases. *)
From Verif Require Import Prelude Flt Stats_model Linalg_model Linalg_proofs Linalg_vcov Linalg_thms Did_model Did_spec Did_proofs
  Did_equiv Did_more Multi_model Multi_proofs Multi_thms Results_model Results_proofs Lp Honest_model Honest_proofs Honest_sd Honest_fit.
From Coq Require Import Arith ZArith String List Lia Lra.
Import ListNotations.
Open Scope R_scope.

(* ---- the linear program over the box constraints gives the sharp set ---- *)
Lemma unit_row_dot n i s x : length x = n -> (i < n)%nat -> ldot (unit_row n i s) x = s * nth i x 0.
Proof. intros L H. unfold unit_row. rewrite ldot_map_seq by auto. simpl. apply (pick_seq (fun j => nth j x 0) s n i H). Qed.

Lemma cons_rm_iff npre npost M m x : length x = (npre + npost)%nat ->
  (Forall (sat x) (cons_rm npre npost M m) <-> forall i, (i < npost)%nat -> Rabs (nth (npre + i) x 0) <= M * m).
Proof.
  intros L. unfold cons_rm. rewrite Forall_flat_map, Forall_forall. split.
  - intros H i Hi. specialize (H i ltac:(apply in_seq; lia)). inversion H as [|? ? H1 H2]; subst. inversion H2 as [|? ? H3 _]; subst.
    unfold sat in H1, H3. cbn [fst snd] in *. rewrite unit_row_dot in H1, H3 by (auto; lia). apply Rabs_le. lra.
  - intros H i Hi. apply in_seq in Hi. specialize (H i ltac:(lia)). apply Rabs_le_inv in H.
    apply Forall_cons; [|apply Forall_cons; [|apply Forall_nil]]; unfold sat; cbn [fst snd]; rewrite unit_row_dot by (auto; lia); lra.
Qed.
Lemma cons_rm_wide npre npost M m : wide (npre + npost) (cons_rm npre npost M m).
Proof.
  unfold wide, cons_rm. apply Forall_flat_map. apply Forall_forall. intros i _.
  apply Forall_cons; [|apply Forall_cons; [|apply Forall_nil]]; cbn [fst]; unfold unit_row; rewrite map_length, seq_length; reflexivity.
Qed.

Lemma rm_objective npre l M m x : feasible (npre + length l) (cons_rm npre (length l) M m) x ->
  Rabs (ldot l (skipn npre x)) <= norm1 l * (M * m).
Proof.
  intros [L F]. pose proof (proj1 (cons_rm_iff _ _ _ _ _ L) F) as F'. apply ldot_box; [rewrite skipn_length; lia|].
  apply Forall_forall. intros v Hv. apply (In_nth _ _ 0) in Hv as (i & Hi & <-). rewrite skipn_length in Hi.
  rewrite nth_skipn. apply F'. lia.
Qed.
Lemma rm_extreme npre l M m s : 0 <= M * m -> (s = 1 \/ s = -1) ->
  exists x, feasible (npre + length l) (cons_rm npre (length l) M m) x /\ ldot l (skipn npre x) = s * (norm1 l * (M * m)).
Proof.
  intros HB Hs. exists (repeat 0 npre ++ map (fun a => sg a * (s * (M * m))) l).
  assert (L : length (repeat 0 npre ++ map (fun a => sg a * (s * (M * m))) l) = (npre + length l)%nat)
    by (rewrite app_length, repeat_length, map_length; auto).
  assert (E : skipn npre (repeat 0 npre ++ map (fun a => sg a * (s * (M * m))) l) = map (fun a => sg a * (s * (M * m))) l).
  { rewrite skipn_app, repeat_length, Nat.sub_diag, skipn_all2 by (rewrite repeat_length; auto). reflexivity. }
  split; [split; auto|].
  - apply cons_rm_iff; auto. intros i Hi. rewrite <- nth_skipn, E.
    rewrite (nth_indep _ 0 (sg 0 * (s * (M * m)))) by (rewrite map_length; auto). rewrite (map_nth (fun a => sg a * (s * (M * m)))).
    rewrite sg_abs. destruct Hs as [->| ->]; [rewrite Rmult_1_l, Rabs_pos_eq; lra|].
    replace (-1 * (M * m)) with (- (M * m)) by ring. rewrite Rabs_Ropp, Rabs_pos_eq; lra.
  - rewrite E, ldot_sg. ring.
Qed.

Theorem rm_lp lp npre b l M m : lp_ok lp -> l <> [] -> length b = length l -> 0 <= M * m ->
  solve_bounds lp (map Fin b) l (cons_rm npre (length l) M m) npre
  = (Fin (ldot l b - norm1 l * (M * m)), Fin (ldot l b + norm1 l * (M * m))).
Proof.
  intros Hlp Hl Lb HB.
  assert (E1 : lp (npre + length l)%nat (cons_rm npre (length l) M m) (lp_cost npre l) = Some (- (norm1 l * (M * m)))).
  { apply lp_some; auto; [apply cons_rm_wide|apply lp_cost_length|]. split.
    - destruct (rm_extreme npre l M m 1 HB (or_introl eq_refl)) as (x & Fx & Ex). exists x. split; auto.
      rewrite lp_cost_dot by apply Fx. rewrite Ex. ring.
    - intros x Fx. rewrite lp_cost_dot by apply Fx. apply rm_objective in Fx. apply Rabs_le_inv in Fx. lra. }
  assert (E2 : lp (npre + length l)%nat (cons_rm npre (length l) M m) (map Ropp (lp_cost npre l)) = Some (- (norm1 l * (M * m)))).
  { apply lp_some; auto; [apply cons_rm_wide|rewrite map_length; apply lp_cost_length|]. split.
    - destruct (rm_extreme npre l M m (-1) HB (or_intror eq_refl)) as (x & Fx & Ex). exists x. split; auto.
      rewrite ldot_opp, lp_cost_dot by apply Fx. rewrite Ex. ring.
    - intros x Fx. rewrite ldot_opp, lp_cost_dot by apply Fx. apply rm_objective in Fx. apply Rabs_le_inv in Fx. lra. }
  unfold solve_bounds. rewrite map_length, Lb, E1, E2, fdot_fin.
  destruct (cons_rm npre (length l) M m) eqn:EC.
  { exfalso. destruct l as [|a l]; [congruence|]. discriminate. }
  cbn [fadd]. f_equal; f_equal; ring.
Qed.

(* ---- the largest pre-period effect ---- *)
Lemma py_max_spec l : forall x, exists v, py_max (Fin x) (map Fin l) = Fin v /\ (v = x \/ In v l) /\ x <= v /\ forall a, In a l -> a <= v.
Proof.
  unfold py_max. induction l as [|a l IH]; intros x; [exists x; cbn; repeat split; auto; [lra|tauto]|].
  cbn [map fold_left]. unfold py_max2 at 2, fgt. cbn [flt]. destruct (Rltb x a) eqn:E.
  - apply Rltb_true in E. destruct (IH a) as (v & E1 & E2 & E3 & E4). exists v. split; auto. split; [simpl; intuition auto|].
    split; [lra|]. intros c [<-|Hc]; auto.
  - apply Rltb_false in E. destruct (IH x) as (v & E1 & E2 & E3 & E4). exists v. split; auto. split; [simpl; intuition auto|].
    split; [lra|]. intros c [<-|Hc]; auto; lra.
Qed.

Definition cs_pre (es : list es_entry) : list es_entry := filter (fun e => key_neg (ee_t e) && Nat.ltb 0 (ee_n e)) es.
Theorem cs_max_pre es ose v : cs_pre es <> [] -> map ee_eff (cs_pre es) = map Fin v ->
  exists m, max_pre (HCS {| hc_es := Some es; hc_overall_se := ose |}) = Fin m /\ 0 <= m /\
    (exists a, In a v /\ m = Rabs a) /\ forall a, In a v -> Rabs a <= m.
Proof.
  intros Hn E. unfold max_pre. cbn [hc_es]. fold (cs_pre es).
  assert (EM : map (fun e => fabs (ee_eff e)) (cs_pre es) = map Fin (map Rabs v)).
  { rewrite <- (map_map ee_eff fabs), E, !map_map. reflexivity. }
  rewrite EM. destruct v as [|a v]; [destruct (cs_pre es); [congruence|discriminate]|].
  cbn [map]. destruct (py_max_spec (map Rabs v) (Rabs a)) as (m & -> & E1 & E2 & E3). exists m. split; auto.
  split; [pose proof (Rabs_pos a); lra|]. split.
  - destruct E1 as [->|H]; [exists a; simpl; auto|]. apply in_map_iff in H as (c & <- & Hc). exists c. simpl; auto.
  - intros c [<-|Hc]; auto. apply E3. apply in_map; auto.
Qed.

Theorem rm_nan lp ppf cfg r M o : hd_method cfg = "relative_magnitude"%string -> hd_fit lp ppf cfg r M = Ok o ->
  ho_est o = NaN -> ho_lb o = NaN /\ ho_ub o = NaN /\ ho_ci_lb o = NaN /\ ho_ci_ub o = NaN.
Proof.
  intros Hm H Hn. pose proof (hd_fit_inv _ _ _ _ _ _ H) as (p & l & lb & ub & cl & cu & E1 & E2 & E3 & E4 & E5 & E6 & E7 & E8 & E9 & E10 & E).
  rewrite Hm in E. cbn [String.eqb Ascii.eqb Bool.eqb] in E. unfold rm_bounds, clf_ci in E. rewrite <- E4, Hn in E.
  unfold fsub in E. cbn [fadd] in E. rewrite E7, E8, E9, E10. destruct (feqb _ _); injection E as <- <- <- <-; auto.
Qed.

Theorem cs_rm_defined lp ppf cfg es ose M l : hd_method cfg = "relative_magnitude"%string ->
  hd_weights (hd_l cfg) (length (cs_post es)) = Ok l ->
  exists o, hd_fit lp ppf cfg (HCS {| hc_es := Some es; hc_overall_se := ose |}) M = Ok o.
Proof.
  intros Hm El. destruct (cs_extract es ose) as (p & E1 & E2 & E3 & _).
  unfold hd_fit. cbv zeta. rewrite E1. cbn [bind]. destruct (post_sigma p) as [sz Sg]. cbn [fst] in E3.
  rewrite E2, map_length, El, E3, Nat.eqb_refl. cbn [bind negb]. rewrite Hm. cbn [String.eqb Ascii.eqb Bool.eqb bind].
  destruct (rm_bounds _ _ _ _ _ _ _) as [[[? ?] ?] ?]. eauto.
Qed.

(* ---- every MultiPeriodDiD result can be analysed ---- *)
Section MPx.
Context {I K G : Type} (keq : forall x y : K, {x = y} + {x <> y}) (geq : forall x y : G, {x = y} + {x <> y}).
Variable qr : list I -> list (I -> R) -> list nat.
Variable lstsq : list I -> list (I -> R) -> (I -> R) -> list R.
Variable inv : list I -> list (I -> R) -> option (nat -> nat -> R).
Variable sf : option Z -> fl -> fl.
Variable ppf : option Z -> R -> R.
Variable lp : nat -> list con -> list R -> option R.
Hypothesis Hls : lstsq_ok lstsq.
Notation mpfit := (mp_fit keq geq qr lstsq inv sf ppf).

Lemma get_effects_all (es : list period_effect) : NoDup (map pe_period es) ->
  get_effects (fun p => option_map (fun e => (pe_effect e, pe_se e)) (dict_get es p)) (map pe_period es)
  = Ok (map (fun e => (pe_effect e, pe_se e)) es).
Proof.
  intros ND. assert (DG : forall e, In e es -> dict_get es (pe_period e) = Some e).
  { clear - ND. induction es as [|x es IH]; intros e He; [destruct He|]. simpl in *. inversion ND; subst.
    destruct He as [->|He].
    - rewrite (proj2 (dict_get_none es (pe_period e)) H1). rewrite Z.eqb_refl. reflexivity.
    - rewrite IH by auto. reflexivity. }
  assert (GG : forall l, incl l es ->
    get_effects (fun p => option_map (fun e => (pe_effect e, pe_se e)) (dict_get es p)) (map pe_period l)
    = Ok (map (fun e => (pe_effect e, pe_se e)) l)).
  { induction l as [|x l IH]; intros H; [reflexivity|]. simpl. rewrite DG by (apply H; left; auto). cbn [option_map].
    rewrite IH by (intros z Hz; apply H; right; auto). reflexivity. }
  apply GG, incl_refl.
Qed.

Theorem mp_extract_ok cfg rows y d t post ref covs dums absorb r name :
  mpfit cfg rows y d t post ref covs dums absorb = Ok r -> NoDup (mp_post r) ->
  exists p, hd_extract (of_mp name r) = Ok p /\ post_beta p = map pe_effect (mp_effects r) /\ ep_npre p = length (mp_pre r).
Proof.
  intros H ND. destruct (effects_list keq geq qr lstsq inv sf ppf _ _ _ _ _ _ _ _ _ _ _ H) as [EP _].
  rewrite <- EP in ND. pose proof (get_effects_all (mp_effects r) ND) as GE. rewrite EP in GE.
  unfold of_mp. cbn [hd_extract hm_eff hm_post hm_vcov hm_pre]. rewrite GE. cbn [bind]. eexists. split; [reflexivity|].
  split; [|reflexivity]. unfold post_beta. cbn [ep_beta ep_npost]. rewrite !map_length, <- EP, map_length, Nat.eqb_refl, map_map. reflexivity.
Qed.

(* relative magnitudes on a MultiPeriodDiD result: always defined, the average effect plus or minus Mbar times avg_se *)
Theorem mp_rm_defined cfg rows y d t post ref covs dums absorb r name hcfg M :
  mpfit cfg rows y d t post ref covs dums absorb = Ok r -> NoDup (mp_post r) ->
  hd_method hcfg = "relative_magnitude"%string -> hd_l hcfg = None ->
  exists o, hd_fit lp ppf hcfg (of_mp name r) M = Ok o.
Proof.
  intros H ND Hm Hl. destruct (mp_extract_ok _ _ _ _ _ _ _ _ _ _ _ name H ND) as (p & E1 & E2 & E3).
  destruct (mp_leading_block keq geq qr lstsq inv sf ppf Hls _ _ _ _ _ _ _ _ _ _ _ name p H E1) as (L & E & _).
  unfold hd_fit. cbv zeta. rewrite E1. cbn [bind]. rewrite E, Hl. cbn [hd_weights bind]. rewrite L, Nat.eqb_refl. cbn [negb].
  rewrite Hm. cbn [String.eqb Ascii.eqb Bool.eqb bind]. destruct (rm_bounds _ _ _ _ _ _ _) as [[[? ?] ?] ?]. eauto.
Qed.
End MPx.

(* ---- the two-period example: eight rows, two per cell ---- *)
Definition x8_y (i : nat) : R := if Nat.eqb i 7 then 1 else 0.
Lemma x8_cells p : In p [0; 1]%Z -> mcell (seq 0 8) exm_d exm_t 0 p <> [] /\ mcell (seq 0 8) exm_d exm_t 1 p <> [].
Proof.
  assert (G : forall a q k, In k (seq 0 8) -> exm_d k = a -> exm_t k = q -> mcell (seq 0 8) exm_d exm_t a q <> []).
  { intros a q k Hk <- <- E. assert (In k (mcell (seq 0 8) exm_d exm_t (exm_d k) (exm_t k))) as K.
    { unfold mcell. apply filter_In. split; auto. rewrite Reqb_refl, Z.eqb_refl. reflexivity. }
    rewrite E in K. destruct K. }
  intros [<-|[<-|[]]]; split.
  - apply (G 0 0%Z 0%nat); [apply in_seq; lia|reflexivity|reflexivity].
  - apply (G 1 0%Z 1%nat); [apply in_seq; lia|reflexivity|reflexivity].
  - apply (G 0 1%Z 4%nat); [apply in_seq; lia|reflexivity|reflexivity].
  - apply (G 1 1%Z 5%nat); [apply in_seq; lia|reflexivity|reflexivity].
Qed.
Lemma x8_fit_ok robust y :
  exists r, exm_fit (exm_cfg robust None) (seq 0 8) y exm_d exm_t None None [] [] [] = Ok r /\ mp_pre r = [0]%Z /\ mp_post r = [1]%Z.
Proof.
  assert (Hd : zero_one (seq 0 8) exm_d) by (intros i _; apply mod2_01).
  assert (Hid : identified (seq 0 8) exm_d exm_t [1]%Z).
  { split; [repeat constructor; simpl; tauto|]. split.
    - intros p Hp. apply x8_cells. right. exact Hp.
    - apply (one_pre_gap (seq 0 8) exm_d exm_t [1]%Z (fun _ => 0) 0%Z Hd).
      + intros i Hi Hn. apply in_seq in Hi. simpl in Hi.
        do 8 (destruct i as [|i]; [first [reflexivity | exfalso; apply Hn; unfold exm_t; simpl; tauto]|]). lia.
      + intros [K|[]]; discriminate.
      + apply x8_cells; left; auto.
      + apply x8_cells; left; auto. }
  destruct (mp_fit_defined Nat.eq_dec Nat.eq_dec (@gs_dropped nat) (@gs nat) (@gs_inv nat) toy_sf toy_ppf gs_dropped_ok gs_ok gs_inv_ok
     (exm_cfg robust None) (seq 0 8) y exm_d exm_t None None [0]%Z [1]%Z 0%Z) as (r & Hr & E1 & E2 & E3); auto.
  - replace (data_periods (seq 0 8) exm_t) with [0; 1]%Z by reflexivity. simpl. lia.
  - exact Logic.I.
  - discriminate.
  - exists r. auto.
Qed.

Lemma x8_cell a b : cell (seq 0 8) exm_d (at_period exm_t 1) (ind a) (ind b)
  = filter (fun i => Bool.eqb (Nat.odd i) a && Bool.eqb (Nat.leb 4 i) b) (seq 0 8).
Proof.
  unfold cell. apply filter_ext_in. intros i Hi. apply in_seq in Hi.
  assert (E1 : exm_d i = ind (Nat.odd i)).
  { unfold exm_d. do 8 (destruct i as [|i]; [reflexivity|]). lia. }
  assert (E2 : at_period exm_t 1 i = ind (Nat.leb 4 i)).
  { unfold at_period, exm_t. do 8 (destruct i as [|i]; [reflexivity|]). lia. }
  rewrite E1, E2. destruct (Nat.odd i), (Nat.leb 4 i), a, b; cbn [ind Bool.eqb andb]; rewrite ?Reqb_refl, ?Reqb_01, ?Reqb_10; reflexivity.
Qed.
Lemma x8_four : four_cells (seq 0 8) exm_d (at_period exm_t 1).
Proof.
  unfold four_cells. repeat split.
  - change (cell (seq 0 8) exm_d (at_period exm_t 1) (ind false) (ind false) <> []). rewrite x8_cell. discriminate.
  - change (cell (seq 0 8) exm_d (at_period exm_t 1) (ind false) (ind true) <> []). rewrite x8_cell. discriminate.
  - change (cell (seq 0 8) exm_d (at_period exm_t 1) (ind true) (ind false) <> []). rewrite x8_cell. discriminate.
  - change (cell (seq 0 8) exm_d (at_period exm_t 1) (ind true) (ind true) <> []). rewrite x8_cell. discriminate.
Qed.

Lemma x8_values : control_pre_var (seq 0 8) exm_d (at_period exm_t 1) x8_y = 0 /\
  did_hc1 (seq 0 8) exm_d (at_period exm_t 1) x8_y = 1 / 4.
Proof.
  unfold control_pre_var, did_hc1, cell_var, cell_mean.
  change (cell (seq 0 8) exm_d (at_period exm_t 1) 0 0) with (cell (seq 0 8) exm_d (at_period exm_t 1) (ind false) (ind false)).
  change (cell (seq 0 8) exm_d (at_period exm_t 1) 0 1) with (cell (seq 0 8) exm_d (at_period exm_t 1) (ind false) (ind true)).
  change (cell (seq 0 8) exm_d (at_period exm_t 1) 1 0) with (cell (seq 0 8) exm_d (at_period exm_t 1) (ind true) (ind false)).
  change (cell (seq 0 8) exm_d (at_period exm_t 1) 1 1) with (cell (seq 0 8) exm_d (at_period exm_t 1) (ind true) (ind true)).
  rewrite !x8_cell. cbn [filter seq Nat.odd Nat.even negb Nat.leb Bool.eqb andb]. unfold meanf, len, x8_y. cbn. split; field.
Qed.

Theorem honest_se_refuted name : exists r o,
  exm_fit (exm_cfg true None) (seq 0 8) x8_y exm_d exm_t None None [] [] [] = Ok r /\
  hd_fit fm_lp toy_ppf {| hd_method := "relative_magnitude"%string; hd_M := 1; hd_alpha := 1/20; hd_l := None |} (of_mp name r) (Some 0) = Ok o /\
  mp_avg_se r = Fin (1 / 2) /\ ho_se o = Fin 0 /\ ho_se o <> mp_avg_se r.
Proof.
  destruct (x8_fit_ok true x8_y) as (r & Hr & E1 & E2). unfold exm_fit in *.
  destruct (mp_rm_defined Nat.eq_dec Nat.eq_dec (@gs_dropped nat) (@gs nat) (@gs_inv nat) toy_sf toy_ppf fm_lp gs_ok _ _ _ _ _ _ _ _ _ _ _ name
    {| hd_method := "relative_magnitude"%string; hd_M := 1; hd_alpha := 1/20; hd_l := None |} (Some 0) Hr) as (o & Ho); auto.
  { rewrite E2. repeat constructor; simpl; tauto. }
  destruct (two_period_se Nat.eq_dec Nat.eq_dec (@gs_dropped nat) (@gs nat) (@gs_inv nat) toy_sf toy_ppf fm_lp gs_dropped_ok gs_ok gs_inv_ok
    _ _ _ _ _ r name _ _ o 0%Z 1%Z Hr eq_refl eq_refl eq_refl x8_four Ho eq_refl) as (A & _ & B).
  destruct x8_values as [V1 V2]. rewrite V1 in A. rewrite V2 in B. rewrite sqrt_0 in A.
  replace (1 / 4) with (1 / 2 * (1 / 2)) in B by field. rewrite sqrt_square in B by lra.
  exists r, o. rewrite A, B. repeat split; auto. intros K; injection K. lra.
Qed.

(* ---- CallawaySantAnna-type examples: one pre-period effect 1, one post-period effect e, standard errors 1 ---- *)
Definition ent (t : Z) (e s : fl) : es_entry := {| ee_t := Some t; ee_eff := e; ee_se := s; ee_n := 1 |}.
Definition one_post (e : fl) : hd_results :=
  HCS {| hc_es := Some [ent 0 e (Fin 1); ent (-1) (Fin 1) (Fin 1)]; hc_overall_se := Fin 1 |}.
Definition rm_cfg : hd_cfg := {| hd_method := "relative_magnitude"%string; hd_M := 1; hd_alpha := 1/20; hd_l := None |}.
Definition sd_cfg (l : option (list R)) : hd_cfg := {| hd_method := "smoothness"%string; hd_M := 1; hd_alpha := 1/20; hd_l := l |}.
Lemma z19 : toy_ppf None (1 - 1/20/2) = 19.
Proof. unfold toy_ppf. field. Qed.

Lemma one_post_max e : max_pre (one_post e) = Fin 1.
Proof. cbn. rewrite Rabs_R1. reflexivity. Qed.
Lemma one_post_fit e M : exists o, hd_fit fm_lp toy_ppf rm_cfg (one_post e) M = Ok o.
Proof. apply (cs_rm_defined _ _ _ _ _ _ [1 / INR 1]); reflexivity. Qed.
Lemma one_post_vals e M o : hd_fit fm_lp toy_ppf rm_cfg (one_post e) M = Ok o ->
  ho_se o = Fin 1 /\ (forall v, e = Fin v -> ho_est o = Fin v) /\ (e = NaN -> ho_est o = NaN /\ ho_ci_lb o = NaN /\ ho_ci_ub o = NaN).
Proof.
  intros H. destruct (cs_se _ _ _ _ _ _ _ [1] [1] H) as [A B]; [|reflexivity|].
  { cbn. f_equal. f_equal. field. }
  split; [|split].
  - rewrite A. f_equal. cbn. replace (1 * 1 * (1 * 1) + 0) with 1 by ring. apply sqrt_1.
  - intros v ->. rewrite B. cbn. f_equal. ring.
  - intros ->. assert (N : ho_est o = NaN) by (rewrite B; reflexivity). split; auto.
    destruct (rm_nan fm_lp toy_ppf rm_cfg _ _ _ eq_refl H N) as (_ & _ & C1 & C2). auto.
Qed.

Lemma one_post_exact v : exists o, hd_fit fm_lp toy_ppf rm_cfg (one_post (Fin v)) None = Ok o /\
  ho_est o = Fin v /\ ho_se o = Fin 1 /\ (Rabs v - toy_ppf None (1 - hd_alpha rm_cfg / 2) * 1) / 1 = Rabs v - 19.
Proof.
  destruct (one_post_fit (Fin v) None) as (o & Ho). destruct (one_post_vals _ _ _ Ho) as (A & B & _).
  exists o. rewrite (B v eq_refl). repeat split; auto. cbn [rm_cfg hd_alpha]. rewrite z19. field.
Qed.
Lemma one_post_includes v M : includes fm_lp toy_ppf rm_cfg (one_post (Fin v)) M = Ok (Rleb (Rabs v - 19) M).
Proof.
  destruct (one_post_exact v) as (o & Ho & A & B & E).
  rewrite (rm_includes fm_lp toy_ppf rm_cfg (one_post (Fin v)) None o v 1 1 M eq_refl Ho A B (one_post_max _)).
  f_equal. rewrite (threshold v 1 _ 1 M) by lra. rewrite E. reflexivity.
Qed.

(* a finite breakdown point above ten is reported as "no breakdown" *)
Theorem breakdown_none_refuted : exists cfg r tol,
  0 < tol /\ (forall fuel, breakdown_value fm_lp toy_ppf fuel cfg r tol = Some (Ok None)) /\
  exists M, includes fm_lp toy_ppf cfg r M = Ok true.
Proof.
  exists rm_cfg, (one_post (Fin 39)), (1/100). split; [lra|]. assert (E : Rabs 39 - 19 = 20) by (rewrite Rabs_pos_eq; lra). split.
  - intros fuel. unfold breakdown_value. rewrite !one_post_includes, E.
    rewrite (proj2 (Rleb_false 20 0)) by lra. rewrite (proj2 (Rleb_false 20 10)) by lra. reflexivity.
  - exists 20. rewrite one_post_includes, E. rewrite (proj2 (Rleb_true 20 20)) by lra. reflexivity.
Qed.

(* the default grid reports no breakdown where breakdown_value finds one *)
Theorem grid_disagrees : exists cfg r,
  (exists q, hd_sensitivity fm_lp toy_ppf cfg r None = Ok q /\ hs_breakdown q = None) /\
  exists n, forall fuel, (n <= fuel)%nat -> exists b,
    breakdown_value fm_lp toy_ppf fuel cfg r (1/100) = Some (Ok (Some b)) /\ Rabs (b - 3) <= 1/200.
Proof.
  exists rm_cfg, (one_post (Fin 22)). assert (E : Rabs 22 - 19 = 3) by (rewrite Rabs_pos_eq; lra).
  destruct (one_post_exact 22) as (o & Ho & A & B & X). rewrite E in X. split.
  - assert (G0 : increasing (default_grid "relative_magnitude"%string)) by (cbn; repeat split; lra).
    destruct (rm_sensitivity fm_lp toy_ppf rm_cfg (one_post (Fin 22)) None o 22 1 1 (default_grid "relative_magnitude"%string)
       eq_refl Ho A B (one_post_max _) ltac:(lra) G0 ltac:(discriminate)) as (q & Hq & E1 & E2 & E3 & E4 & E5 & E6 & _).
    rewrite X in *. exists q. split; [exact Hq|]. apply E6.
    intros g Hg. cbn in Hg. repeat (destruct Hg as [<-|Hg]; [lra|]). destruct Hg.
  - destruct (rm_breakdown fm_lp toy_ppf rm_cfg (one_post (Fin 22)) None o 22 1 1 (1/100) eq_refl Ho A B (one_post_max _) ltac:(lra) ltac:(lra)) as (_ & n & Hn).
    rewrite X in Hn. exists n. intros fuel Hf. destruct (Hn fuel Hf) as (v & Hv & _ & _ & H). destruct (H ltac:(lra)) as (b & -> & Hb).
    exists b. split; auto. lra.
Qed.

(* a grid that starts above the breakdown point reports 0 although the result at M = 0 is significant *)
Theorem grid_zero_refuted : exists cfg r grid q,
  hd_sensitivity fm_lp toy_ppf cfg r (Some grid) = Ok q /\ hs_breakdown q = Some 0 /\
  includes fm_lp toy_ppf cfg r 0 = Ok false.
Proof.
  exists rm_cfg, (one_post (Fin (39/2))), [1; 2]. assert (E : Rabs (39/2) - 19 = 1/2) by (rewrite Rabs_pos_eq; lra).
  destruct (one_post_exact (39/2)) as (o & Ho & A & B & X). rewrite E in X.
  assert (G0 : increasing [1; 2]) by (cbn; repeat split; lra).
  destruct (rm_sensitivity fm_lp toy_ppf rm_cfg (one_post (Fin (39/2))) None o (39/2) 1 1 [1; 2]
     eq_refl Ho A B (one_post_max _) ltac:(lra) G0 ltac:(discriminate)) as (q & Hq & E1 & E2 & E3 & E4 & E5 & E6 & E7 & _).
  rewrite X in *. exists q. split; [exact Hq|]. split.
  - apply E7. intros g [<-|[<-|[]]]; lra.
  - rewrite one_post_includes, E. rewrite (proj2 (Rleb_false (1/2) 0)) by lra. reflexivity.
Qed.

(* tol = 0: the loop never stops *)
Theorem breakdown_loops_refuted : exists cfg r, forall fuel, breakdown_value fm_lp toy_ppf fuel cfg r 0 = None.
Proof.
  exists rm_cfg, (one_post (Fin 22)). intros fuel. assert (E : Rabs 22 - 19 = 3) by (rewrite Rabs_pos_eq; lra).
  apply (breakdown_loops _ _ _ _ (fun M => Rleb 3 M)); try lra.
  - intros M. rewrite one_post_includes, E. reflexivity.
  - apply Rleb_false; lra.
  - apply Rleb_true; lra.
Qed.

(* an undefined interval is declared significant, with a star, and negative *)
Theorem nan_interval_refuted : exists o, hd_fit fm_lp toy_ppf rm_cfg (one_post NaN) None = Ok o /\
  ho_est o = NaN /\ ho_ci_lb o = NaN /\ ho_ci_ub o = NaN /\
  ho_significant o = true /\ ho_stars o = "*"%string /\ ho_verdict o = Negative.
Proof.
  destruct (one_post_fit NaN None) as (o & Ho). destruct (one_post_vals _ _ _ Ho) as (_ & _ & A). destruct (A eq_refl) as (A1 & A2 & A3).
  exists o. split; auto. split; auto. split; auto. split; auto. destruct (nan_significant o (or_introl A2)) as [S1 S2].
  split; auto. split; auto. unfold ho_verdict. rewrite S1, A2. reflexivity.
Qed.

(* fit(M = -1) is accepted although the constructor rejects it, and the bounds are inverted *)
Theorem negative_M_refuted : exists o, hd_fit fm_lp toy_ppf rm_cfg (one_post (Fin 2)) (Some (-1)) = Ok o /\
  ho_lb o = Fin 3 /\ ho_ub o = Fin 1 /\ hd_init "relative_magnitude" (Some (-1)) (1/20) None = Err ValueError.
Proof.
  destruct (one_post_fit (Fin 2) (Some (-1))) as (o & Ho). destruct (one_post_vals _ _ _ Ho) as (A & B & _).
  destruct (rm_values fm_lp toy_ppf rm_cfg _ _ o 2 1 1 eq_refl Ho (B 2 eq_refl) A (one_post_max _)) as (L & U & _).
  assert (EM : ho_M o = -1).
  { pose proof (hd_fit_inv _ _ _ _ _ _ Ho) as (p & l & lb & ub & cl & cu & _ & _ & _ & _ & _ & E & _). exact E. }
  rewrite EM in *. exists o. split; auto. rewrite L, U. split; [f_equal; ring|]. split; [f_equal; ring|].
  unfold hd_init. cbn [String.eqb Ascii.eqb Bool.eqb orb negb]. destruct (Rlt_dec (-1) 0); [reflexivity|lra].
Qed.

(* no post-period effects: estimate 0 and standard error 0 *)
Definition no_post : hd_results := HCS {| hc_es := Some [ent (-1) (Fin 1) (Fin 1)]; hc_overall_se := Fin 1 |}.
Theorem no_post_case : exists o, hd_fit fm_lp toy_ppf rm_cfg no_post None = Ok o /\ ho_est o = Fin 0 /\ ho_se o = Fin 0 /\
  ho_lb o = Fin (-1) /\ ho_ub o = Fin 1.
Proof.
  assert (H : exists o, hd_fit fm_lp toy_ppf rm_cfg no_post None = Ok o) by (apply (cs_rm_defined _ _ _ _ _ _ []); reflexivity).
  destruct H as (o & Ho). destruct (cs_se _ _ _ _ _ _ _ [] [] Ho eq_refl eq_refl) as [A B]. cbn in A, B. rewrite sqrt_0 in A.
  assert (Em : max_pre no_post = Fin 1) by (cbn; rewrite Rabs_R1; reflexivity).
  destruct (rm_values fm_lp toy_ppf rm_cfg _ _ o 0 0 1 eq_refl Ho B A Em) as (L & U & _).
  assert (EM : ho_M o = 1).
  { pose proof (hd_fit_inv _ _ _ _ _ _ Ho) as (p & l & lb & ub & cl & cu & _ & _ & _ & _ & _ & E & _). exact E. }
  rewrite EM in *. exists o. rewrite L, U. repeat split; auto; f_equal; ring.
Qed.

(* the set reported for weights (1, -1) is half as wide as the identified set *)
Definition two_post : hd_results :=
  HCS {| hc_es := Some [ent 0 (Fin 2) (Fin 1); ent 1 (Fin 1) (Fin 1); ent (-1) (Fin 1) (Fin 1)]; hc_overall_se := Fin 1 |}.
Definition rm_diff : hd_cfg := {| hd_method := "relative_magnitude"%string; hd_M := 1; hd_alpha := 1/20; hd_l := Some [1; -1] |}.
Theorem rm_sharp_refuted : exists o p b, hd_fit fm_lp toy_ppf rm_diff two_post (Some 1) = Ok o /\
  hd_extract two_post = Ok p /\ post_beta p = map Fin b /\ max_pre two_post = Fin 1 /\
  exists lo hi v, ho_lb o = Fin lo /\ ho_ub o = Fin hi /\ id_set [1; -1] b (1 * 1) v /\ ~ lo <= v <= hi.
Proof.
  assert (H : exists o, hd_fit fm_lp toy_ppf rm_diff two_post (Some 1) = Ok o) by (apply (cs_rm_defined _ _ _ _ _ _ [1; -1]); reflexivity).
  destruct H as (o & Ho).
  assert (HX : exists p, hd_extract two_post = Ok p /\ post_beta p = map Fin [2; 1]).
  { destruct (cs_extract [ent 0 (Fin 2) (Fin 1); ent 1 (Fin 1) (Fin 1); ent (-1) (Fin 1) (Fin 1)] (Fin 1)) as (p & E1 & E2 & _).
    exists p. split; [exact E1|]. rewrite E2. reflexivity. }
  destruct HX as (p & EX & EB).
  destruct (cs_se _ _ _ _ _ _ _ [1; -1] [1; 1] Ho eq_refl eq_refl) as [A B]. cbn in B. 
  assert (Em : max_pre two_post = Fin 1) by (cbn; rewrite Rabs_R1; reflexivity).
  destruct (rm_values fm_lp toy_ppf rm_diff _ _ o _ _ 1 eq_refl Ho B A Em) as (L & U & _).
  assert (EM : ho_M o = 1).
  { pose proof (hd_fit_inv _ _ _ _ _ _ Ho) as (p' & l & lb & ub & cl & cu & _ & _ & _ & _ & _ & E & _). exact E. }
  rewrite EM in *. exists o, p, [2; 1]. split; auto. split; auto. split; auto. split; auto.
  eexists _, _, 3. split; [exact L|]. split; [exact U|]. split.
  - apply id_set_interval; [lra|]. cbn. rewrite Rabs_R1. replace (Rabs (-1)) with 1 by (rewrite Rabs_left; lra). lra.
  - lra.
Qed.

(* smoothness: (-inf, inf) with the default weights whatever M, and a bounded set for second differences *)
Theorem smooth_unbounded_case M : 0 <= M -> exists o, hd_fit fm_lp toy_ppf (sd_cfg None) two_post (Some M) = Ok o /\
  ho_est o = Fin (3/2) /\ ho_lb o = NInf /\ ho_ub o = PInf /\ ho_ci_lb o = NInf /\ ho_ci_ub o = PInf.
Proof.
  intros HM. set (es := [ent 0 (Fin 2) (Fin 1); ent 1 (Fin 1) (Fin 1); ent (-1) (Fin 1) (Fin 1)]).
  destruct (cs_extract es (Fin 1)) as (p & E1 & E2 & E3 & E4).
  assert (LN : ep_npre p = 1%nat) by (cbn in E1; injection E1 as <-; reflexivity).
  assert (EB : post_beta p = map Fin [2; 1]) by exact E2.
  assert (Q : qform (repeat (1 / INR 2) 2) (snd (post_sigma p)) = Fin (1/2)).
  { rewrite (qform_diag _ [1; 1]); [f_equal; cbn; field|reflexivity|]. intros i j Hi Hj. exact (E4 i j Hi Hj). }
  assert (HS : fsqrt (Fin (1/2)) = Fin (sqrt (1/2))) by (apply sqrt_fin; lra).
  assert (H0 : 0 < sqrt (1/2)) by (apply sqrt_lt_R0; lra).
  assert (H : exists o, hd_fit fm_lp toy_ppf (sd_cfg None) two_post (Some M) = Ok o).
  { unfold hd_fit. cbv zeta. change (hd_extract two_post) with (hd_extract (HCS {| hc_es := Some es; hc_overall_se := Fin 1 |})).
    rewrite E1. cbn [bind]. destruct (post_sigma p) as [sz Sg] eqn:EP. rewrite EB. cbn [sd_cfg hd_l hd_weights map length bind].
    cbn [fst] in E3. rewrite E3. cbn [length cs_post]. change (Nat.eqb (length (cs_post es)) 2) with true. cbn [negb].
    change (hd_method (sd_cfg None)) with "smoothness"%string. change (hd_alpha (sd_cfg None)) with (1/20).
    cbn [String.eqb Ascii.eqb Bool.eqb]. unfold smooth_bounds.
    destruct (solve_bounds _ _ _ _ _) as [a b]. cbn [snd] in Q. rewrite Q, HS. unfold flci. cbn [fle].
    rewrite (proj2 (Rleb_false (sqrt (1/2)) 0)) by lra.
    destruct (Rlt_dec 0 (1/20)); [|lra]. destruct (Rlt_dec (1/20) 1); [|lra]. cbn [bind]. eexists; reflexivity. }
  destruct H as (o & Ho). exists o. split; auto.
  destruct (cs_se _ _ _ es _ _ _ (repeat (1 / INR 2) 2) [1; 1] Ho eq_refl eq_refl) as [A B].
  destruct (smooth_fit fm_lp toy_ppf fm_lp_ok (sd_cfg None) two_post M o p [2; 1] (repeat (1 / INR 2) 2) _ eq_refl Ho E1 EB eq_refl A HM) as (_ & U & _).
  destruct (U (uniform_uninformative (ep_npre p) 2 ltac:(lia))) as (U1 & U2 & U3 & U4 & _).
  split; [|auto]. rewrite B. cbn. f_equal. field.
Qed.

(* ---- p-value based significance: a NaN p-value is never significant ---- *)
Theorem nan_p_not_significant r p i alpha : rp_p r = NaN -> p = NaN -> i_p i = NaN ->
  rep_significant r = false /\ period_significant p = false /\ is_significant i alpha = false.
Proof. intros E -> Ei. unfold rep_significant, is_significant. rewrite E, Ei. auto. Qed.

Theorem repr_zero : breakdown_shown (Some 0) = breakdown_shown None /\ forall m, m <> 0 -> breakdown_shown (Some m) = Some m.
Proof.
  unfold breakdown_shown. split; [destruct (Reqb 0 0) eqn:E; [reflexivity|apply Reqb_false in E; lra]|].
  intros m H. destruct (Reqb m 0) eqn:E; [apply Reqb_true in E; contradiction|reflexivity].
Qed.

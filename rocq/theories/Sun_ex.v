(* SunAbraham: concrete panels. *)
From Verif Require Import Prelude Flt Stats_model Stats_proofs Linalg_model Linalg_proofs Linalg_vcov Linalg_thms Did_model Did_proofs Within_proofs Multi_model Multi_proofs Multi_thms Bacon_model Bacon_proofs Bacon_thms Boot_model Boot_proofs Staggered_model Staggered_proofs Staggered_est Staggered_thms Staggered_more Staggered_fit Sun_model Sun_proofs Sun_thms Sun_more Sun_cs Sun_inf Sun_boot.
From Coq Require Import Arith ZArith String List Permutation.
Import ListNotations.
Open Scope R_scope.

Definition sa_demo (ctrl : string) (ant : Z) : sa_config := {| sa_control := ctrl; sa_anticipation := ant; sa_alpha := 1/20; sa_action := "warn" |}.
Definition gco (C : Z -> coh) (i : Z * Z) : coh := C (fst i).
Definition y35r (i : Z * Z) : R := IZR (fst i) + IZR (snd i) + match sa_rel snd (gco C35) i with Some e => if Z.leb 0 e then IZR (e + 1) else 0 | None => 0 end.
(* unit 1 treated after the last period; unit 2 never *)
Definition C7 (a : Z) : coh := if Z.eqb a 1 then CFin 7 else CFin 0.
(* unit 1 treated in the first period; unit 2 never *)
Definition C1 (a : Z) : coh := if Z.eqb a 1 then CFin 1 else CFin 0.

Lemma panel_bal n p : balanced Z.eq_dec Z.eq_dec (panel n p) fst snd 1 \/ n = O \/ p = O.
Proof.
  destruct n as [|n]; [auto|]. destruct p as [|p]; [auto|]. left.
  assert (E : panel (S n) (S p) = list_prod (zseq 1 (S n)) (zseq 1 (S p))).
  { unfold panel. generalize (zseq 1 (S n)) as l. induction l as [|a l IH]; [reflexivity|]. cbn [flat_map list_prod]. rewrite IH. reflexivity. }
  assert (N : forall a m, NoDup (zseq a m) /\ forall x, In x (zseq a m) -> (a <= x)%Z).
  { intros a m. revert a. induction m as [|m IH]; intros a; cbn [zseq]; [split; [constructor|intros x []]|]. destruct (IH (a + 1)%Z) as [I1 I2]. split.
    - constructor; [intros H; specialize (I2 _ H); lia|exact I1].
    - intros x [<-|H]; [lia|specialize (I2 x H); lia]. }
  rewrite E. apply product_balanced; try apply N; discriminate.
Qed.
Lemma bal35 : balanced Z.eq_dec Z.eq_dec rows35 fst snd 1.
Proof. destruct (panel_bal 3 6) as [H|[H|H]]; [exact H|discriminate|discriminate]. Qed.
Lemma valid35 i : valid_coh (gco C35 i) = true.
Proof. unfold gco, C35. destruct (Z.eqb (fst i) 1), (Z.eqb (fst i) 2); reflexivity. Qed.

(* ---- the aggregation, at fit level ---- *)
Section Agg.
Context {I : Type}.
Variable qr : list I -> list (I -> R) -> list nat.
Variable lstsq : list I -> list (I -> R) -> (I -> R) -> list R.
Variable inv : list I -> list (I -> R) -> option (nat -> nat -> R).
Variable pinv : list I -> list (I -> R) -> nat -> nat -> R.
Variable sf : option Z -> fl -> fl.
Variable ppf : option Z -> R -> R.
Hypothesis Hqr : qr_ok qr.
Hypothesis Hls : lstsq_ok lstsq.
Variables (u t : I -> Z) (g : I -> coh) (y : I -> R) (covs : list (I -> R)) (cluster : option (I -> Z)).
Notation fit := (sa_fit qr lstsq inv pinv sf ppf u t g y covs cluster).
Theorem fit_weights cfg rows r e w : fit cfg rows = Ok r -> In (e, w) (sa_cweights r) ->
  let size gr := INR (length (filter (fun a => c_gt (unit_cohort rows u g a) 0 && c_eqb (unit_cohort rows u g a) gr) (zsort (nodup Z.eq_dec (map u rows))))) in
  w <> [] /\ sumf snd w = 1 /\
  (forall gr, In gr (map fst w) <-> In gr (sa_rgroups r) /\ In (gr, e) (map fst (sa_coh_effects r))) /\
  (forall gr x, In (gr, x) w -> 0 <= x /\ x = size gr / sumf (fun gw => size (fst gw)) w) /\
  exists ef, In (e, ef) (sa_es r) /\ se_n ef = length w /\
    forall f, (forall k x, In (k, x) (sa_coh_effects r) -> snd k = e -> fst (fst x) = Fin (f k)) -> se_eff ef = Fin (sumf (fun gw => snd gw * f (fst gw, e)) w).
Proof.
  intros Hr Hin size. destruct (sa_fit_inv qr lstsq inv pinv sf ppf u t g y covs cluster cfg rows r Hr) as (_ & _ & reg & _ & Hes & Hw & _ & _ & _ & _ & _ & Hg & _ & _ & _ & Hce).
  rewrite Hw in Hin. apply in_map_iff in Hin as ([e0 [w0 ef]] & E & Hin). cbn [fst snd] in E. apply pair_equal_spec in E as [-> ->].
  assert (Hk : map fst (sa_coh_effects r) = sr_keys reg) by (rewrite Hce, map_map; cbn [fst]; apply map_id).
  destruct (iw_weights sf ppf u g cfg _ _ _ _ _ _ _ Hin) as (_ & Hne & Ew & _ & Hm & H1 & Hx & He & Hn).
  split; [exact Hne|]. split; [exact H1|]. split.
  { intros gr. rewrite Hm, filter_In, has_iff, Hk, Hg. tauto. }
  assert (ET : sumf (fun gw => size (fst gw)) w = sumf (fun gr => INR (sa_size u g rows gr)) (filter (fun gr => sr_has reg (gr, e)) (sa_groups g rows))).
  { rewrite <- Hm, sumf_map. reflexivity. }
  split. { intros gr x Hgx. destruct (Hx _ Hgx) as [X1 X2]. cbn [fst snd] in *. split; [exact X1|]. rewrite ET. exact X2. }
  exists ef. split; [rewrite Hes; apply in_map_iff; exists (e, (w, ef)); split; [reflexivity|exact Hin]|].
  split; [rewrite Hn, <- Hm, map_length; reflexivity|]. intros f Hf. rewrite He. apply fsum_fin_map. intros gw Hgw.
  assert (X : In (fst gw) (map fst w)) by (apply in_map; exact Hgw). rewrite Hm in X. apply filter_In in X as [_ X]. apply has_iff in X.
  assert (X2 : In ((fst gw, e), (sr_eff reg (fst gw, e), fsqrt (sr_vcov reg (sr_idx reg (fst gw, e)) (sr_idx reg (fst gw, e))), sa_weight_of (sa_iw sf ppf u g cfg (sa_groups g rows) (sa_rel_periods t g cfg rows) reg rows) (fst gw, e))) (sa_coh_effects r)).
  { rewrite Hce. apply in_map_iff. exists (fst gw, e). split; [reflexivity|exact X]. }
  specialize (Hf _ _ X2 eq_refl). cbn [fst] in Hf. rewrite Hf. reflexivity.
Qed.
Theorem fit_overall cfg rows r : fit cfg rows = Ok r -> (exists e, In e (map fst (sa_es r)) /\ (0 <= e)%Z) ->
  let post := filter (fun p => Z.leb 0 (fst p)) (sa_es r) in
  let n e := INR (length (filter (fun i => match g i with CFin k => Z.ltb 0 k && Z.eqb (t i) (k + e) | _ => false end) rows)) in
  0 < sumf (fun p => n (fst p)) post /\ (forall p, In p post -> 0 < n (fst p)) /\
  forall f, (forall p, In p post -> se_eff (snd p) = Fin (f (fst p))) ->
    sa_att r = Fin (sumf (fun p => n (fst p) / sumf (fun q => n (fst q)) post * f (fst p)) post).
Proof.
  intros Hr Hpost post n. destruct (sa_fit_inv qr lstsq inv pinv sf ppf u t g y covs cluster cfg rows r Hr) as (_ & _ & reg & Hs & Hes & _ & Ha & _).
  set (es := sa_iw sf ppf u g cfg _ _ reg rows) in *.
  assert (EN : forall e, n e = INR (sa_n_at t g rows e)).
  { intros e. unfold n, sa_n_at. f_equal. f_equal. apply filter_ext. intros i. unfold sa_rel. destruct (g i) as [k| |]; try reflexivity. destruct (Z.ltb 0 k); [|reflexivity]. cbn [andb].
    destruct (Z.eqb_spec (t i) (k + e)), (Z.eqb_spec (t i - k) e); try reflexivity; lia. }
  assert (EP : post = map (fun p => (fst p, snd (snd p))) (sa_post es)).
  { unfold post, sa_post. rewrite Hes. clear. induction es as [|p l IH]; [reflexivity|]. cbn [map filter fst]. destruct (Z.leb 0 (fst p)); cbn [map]; rewrite IH; reflexivity. }
  assert (Hne : sa_post es <> []).
  { destruct Hpost as (e & He & H0). rewrite Hes, map_map in He. cbn [fst] in He. apply in_map_iff in He as (p & Ep & Hp). intros X.
    assert (Y : In p (sa_post es)) by (apply filter_In; split; [exact Hp|rewrite Ep; apply Z.leb_le; exact H0]). rewrite X in Y. destruct Y. }
  assert (Hpos : forall p, In p (sa_post es) -> (0 < sa_n_at t g rows (fst p))%nat).
  { intros [e [w ef]] Hp. apply filter_In in Hp as [Hp _]. exact (n_at_pos qr lstsq inv pinv sf ppf Hls u t g y covs cluster cfg _ _ _ _ _ _ _ Hs Hp). }
  destruct (overall_weights t g rows reg es) as [_ OW]. destruct (OW Hne) as (OA & _ & _ & OV). specialize (OV Hpos).
  assert (Hp2 : forall p, In p post -> 0 < n (fst p)).
  { intros p Hp. rewrite EP in Hp. apply in_map_iff in Hp as (q & <- & Hq). cbn [fst]. rewrite EN. apply lt_0_INR, Hpos, Hq. }
  split; [|split; [exact Hp2|]].
  - rewrite EP in *. destruct (sa_post es) as [|p0 l0]; [congruence|]. cbn [map sumf]. apply Rplus_lt_le_0_compat; [apply (Hp2 (fst p0, snd (snd p0))); left; reflexivity|].
    apply sumf_nonneg. intros p Hp. apply Rlt_le, Hp2. right. exact Hp.
  - intros f Hf. rewrite Ha, OA. rewrite EP, !sumf_map. apply fsum_fin_map. intros p Hp. cbn [fst snd].
    assert (E : se_eff (snd (snd p)) = Fin (f (fst p))) by (apply (Hf (fst p, snd (snd p))); rewrite EP; apply in_map_iff; exists p; split; [reflexivity|exact Hp]).
    rewrite E, (OV p Hp). cbn [fmul fst snd]. f_equal. f_equal. rewrite EN. f_equal. apply sumf_ext. intros q _. cbn [fst]. symmetry. apply EN.
Qed.
(* parallel trends hold exactly: every cohort effect, event-study effect and the average are the true ones *)
Theorem fit_exact_level cfg rows m r (al be : Z -> R) (tau : coh -> Z -> R) (beta : list R) :
  balanced Z.eq_dec Z.eq_dec rows u t m -> (forall i, In i rows -> valid_coh (g i) = true) ->
  fit cfg rows = Ok r -> indep rows (sa_cols u t g covs (map fst (sa_coh_effects r)) rows) -> length beta = length covs ->
  (forall i, In i rows -> y i = al (u i) + be (t i) + (match sa_rel t g i with Some e => tau (g i) e | None => 0 end) + lc covs beta i) ->
  (forall i e, In i rows -> sa_rel t g i = Some e -> (e = sa_ref cfg \/ e < -20 \/ 20 < e)%Z -> tau (g i) e = 0) ->
  (forall k x, In (k, x) (sa_coh_effects r) -> fst (fst x) = Fin (tau (fst k) (snd k))) /\
  (forall e w, In (e, w) (sa_cweights r) -> exists ef, In (e, ef) (sa_es r) /\ se_eff ef = Fin (sumf (fun gw => snd gw * tau (fst gw) e) w)).
Proof.
  intros Hbal Hval Hr Hi Hb Hy H0. destruct (sa_fit_inv qr lstsq inv pinv sf ppf u t g y covs cluster cfg rows r Hr) as (_ & _ & reg & Hs & _ & _ & _ & _ & _ & _ & _ & _ & _ & _ & _ & Hce).
  rewrite (sample_all g cfg rows Hval) in Hs. assert (Hk : map fst (sa_coh_effects r) = sr_keys reg) by (rewrite Hce, map_map; cbn [fst]; apply map_id). rewrite Hk in Hi.
  assert (A : forall k x, In (k, x) (sa_coh_effects r) -> fst (fst x) = Fin (tau (fst k) (snd k))).
  { intros k x Hin. rewrite Hce in Hin. apply in_map_iff in Hin as (k' & E & Hin). apply pair_equal_spec in E as [-> <-]. cbn [fst].
    exact (fit_exact qr lstsq inv pinv Hqr Hls u t g y covs cluster rows m Hbal cfg reg al be tau beta Hs Hi Hb Hy H0 k Hin). }
  split; [exact A|]. intros e w Hin. destruct (fit_weights cfg rows r e w Hr Hin) as (_ & _ & _ & _ & ef & Hef & _ & Hv). exists ef. split; [exact Hef|].
  apply (Hv (fun k => tau (fst k) (snd k))). intros k x Hkx _. apply A. exact Hkx.
Qed.
End Agg.

Section Ex.
Variable qr : list (Z * Z) -> list (Z * Z -> R) -> list nat.
Variable lstsq : list (Z * Z) -> list (Z * Z -> R) -> (Z * Z -> R) -> list R.
Variable inv : list (Z * Z) -> list (Z * Z -> R) -> option (nat -> nat -> R).
Variable pinv : list (Z * Z) -> list (Z * Z -> R) -> nat -> nat -> R.
Variable sf : option Z -> fl -> fl.
Variable ppf : option Z -> R -> R.
Hypothesis Hqr : qr_ok qr.
Hypothesis Hls : lstsq_ok lstsq.
Hypothesis Hinv : inv_ok inv.
Hypothesis Hd : dist_ok sf ppf.
Notation fit C := (fun y => sa_fit qr lstsq inv pinv sf ppf fst snd (gco C) y [] None).

(* the panel 35 can be estimated, with any outcome *)
Theorem fit35 ctrl y : exists r, fit C35 y (sa_demo ctrl 0) rows35 = Ok r /\ length (sa_coh_effects r) = 10%nat /\ ref_observed snd (gco C35) rows35 (sa_demo ctrl 0).
Proof.
  assert (ES : sa_sample (gco C35) (sa_demo ctrl 0) rows35 = rows35) by (apply sample_all; intros i _; apply valid35).
  destruct (fit_succeeds qr lstsq inv pinv sf ppf Hqr Hinv fst snd (gco C35) y [] None (sa_demo ctrl 0) rows35) as (r & Hr & Hk).
  - vm_compute. discriminate.
  - left. reflexivity.
  - rewrite ES. vm_compute. discriminate.
  - rewrite ES. apply Nat.ltb_lt. vm_compute. reflexivity.
  - rewrite ES. apply Nat.leb_le. vm_compute. reflexivity.
  - rewrite ES; apply (sa_cols_nonzero _ fst snd _ [] _ (CFin 3, 0%Z) (1, 3)%Z (1, 2)%Z (3, 3)%Z (3, 2)%Z); try reflexivity; vm_compute; auto 30.
  - exists r. split; [exact Hr|]. split.
    + rewrite <- (map_length fst), Hk, ES. vm_compute. reflexivity.
    + intros i k _ Hg Hkp. unfold gco, C35 in Hg. destruct (Z.eqb (fst i) 1); [injection Hg as <-; vm_compute; tauto|].
      destruct (Z.eqb (fst i) 2); injection Hg as <-; [vm_compute; tauto|lia].
Qed.
(* the first unit drawn three times: IndexError *)
Theorem one_cohort35 y l : sa_fit_boot qr lstsq inv pinv (@gs_dropped (Z * (Z * Z))) (@gs (Z * (Z * Z))) (@gs_inv (Z * (Z * Z))) (fun _ _ _ _ => 0) sf ppf
  (fun i => Z.to_nat (6 * (fst i - 1) + (snd i - 1))) fst snd (gco C35) y [] None (sa_demo "never_treated" 0) rows35 ([1; 1; 1]%Z :: l) = Err IndexError.
Proof.
  destruct (fit35 "never_treated" y) as (r & Hr & _).
  assert (ES : sa_sample (gco C35) (sa_demo "never_treated" 0) rows35 = rows35) by (apply sample_all; intros i _; apply valid35).
  destruct (sa_fit_inv qr lstsq inv pinv sf ppf fst snd (gco C35) y [] None _ rows35 r Hr) as (_ & _ & _ & _ & _ & _ & _ & _ & _ & _ & _ & Hg & _).
  refine (bfit_one_cohort qr lstsq inv pinv (@gs_dropped (Z * (Z * Z))) (@gs (Z * (Z * Z))) (@gs_inv (Z * (Z * Z))) (fun _ _ _ _ => 0) sf ppf
    (fun i => Z.to_nat (6 * (fst i - 1) + (snd i - 1))) fst snd (gco C35) y [] None (sa_demo "never_treated" 0) rows35 [1; 1; 1]%Z l r
    (flat_map (fun k => map (fun s => (k, (1, s)))%Z (zseq 1 6)) [0; 1; 2]%Z) (CFin 3) 1 gs_dropped_ok eq_refl (or_introl eq_refl) Hr _ _ _ _ _).
  - rewrite ES. vm_compute. reflexivity.
  - split; [lia|]. intros a b Ha Hb. vm_compute in Ha, Hb.
    repeat (destruct Ha as [<-|Ha]; [repeat (destruct Hb as [<-|Hb]; [vm_compute; reflexivity|]); destruct Hb|]); destruct Ha.
  - intros p Hp. vm_compute in Hp. repeat (destruct Hp as [<-|Hp]; [reflexivity|]). destruct Hp.
  - rewrite Hg. vm_compute. discriminate.
  - rewrite Hg. apply Nat.leb_le. vm_compute. reflexivity.
Qed.
Lemma gi35 C : (forall i, In i rows35 -> gco C i = C (fst i)). Proof. reflexivity. Qed.

(* exact recovery: the event study and the average are the effects put in the data *)
Theorem exact35 : exists r, fit C35 y35r (sa_demo "never_treated" 0) rows35 = Ok r /\
  forall k x, In (k, x) (sa_coh_effects r) -> fst (fst x) = Fin (if Z.leb 0 (snd k) then IZR (snd k + 1) else 0).
Proof.
  destruct (fit35 "never_treated" y35r) as (r & Hr & _ & Href). exists r. split; [exact Hr|]. intros k x Hin.
  destruct (sa_fit_inv qr lstsq inv pinv sf ppf fst snd (gco C35) y35r [] None _ rows35 r Hr) as (Hn & _ & reg & Hs & _ & _ & _ & _ & _ & _ & _ & _ & _ & _ & _ & Hce).
  rewrite (sample_all (gco C35) (sa_demo "never_treated" 0) rows35 (fun i _ => valid35 i)) in Hs. rewrite Hce in Hin. apply in_map_iff in Hin as (k' & E & Hk). apply pair_equal_spec in E as [-> <-]. cbn [fst].
  apply (fit_exact qr lstsq inv pinv Hqr Hls fst snd (gco C35) y35r [] None rows35 1 bal35 (sa_demo "never_treated" 0) reg
          (fun a => IZR a) (fun s => IZR s) (fun _ e => if Z.leb 0 e then IZR (e + 1) else 0) []); try assumption.
  - apply (fit_full_rank qr lstsq inv pinv Hls fst snd (gco C35) y35r [] None rows35 C35 1 bal35 (gi35 C35) _ reg eq_refl Href Hn Hs).
  - reflexivity.
  - intros i _. unfold y35r. cbn [lc]. destruct (sa_rel snd (gco C35) i); [|ring]. destruct (Z.leb 0 z); ring.
  - intros i e Hi Er [->|[H|H]]; [reflexivity|destruct (Z.leb_spec 0 e); [lia|reflexivity]|].
    exfalso. assert (B : existsb (fun i => match sa_rel snd (gco C35) i with Some e => Z.ltb 20 e | None => false end) rows35 = true) by (apply existsb_exists; exists i; split; [exact Hi|rewrite Er; apply Z.ltb_lt; exact H]).
    vm_compute in B. discriminate.
Qed.

(* no post-treatment period: a zero effect with certainty and p = 1 *)
Theorem no_post7 y : exists r, fit C7 y (sa_demo "never_treated" 0) (panel 2 6) = Ok r /\
  sa_att r = Fin 0 /\ sa_se r = Fin 0 /\ sa_p r = Fin 1 /\ sa_ci r = (Fin 0, Fin 0).
Proof.
  assert (ES : sa_sample (gco C7) (sa_demo "never_treated" 0) (panel 2 6) = panel 2 6) by (vm_compute; reflexivity).
  destruct (fit_succeeds qr lstsq inv pinv sf ppf Hqr Hinv fst snd (gco C7) y [] None (sa_demo "never_treated" 0) (panel 2 6)) as (r & Hr & Hk).
  - vm_compute. discriminate.
  - left. reflexivity.
  - rewrite ES. vm_compute. discriminate.
  - rewrite ES. apply Nat.ltb_lt. vm_compute. reflexivity.
  - rewrite ES. apply Nat.leb_le. vm_compute. reflexivity.
  - rewrite ES; apply (sa_cols_nonzero _ fst snd _ [] _ (CFin 7, (-2)%Z) (1, 5)%Z (1, 1)%Z (2, 5)%Z (2, 1)%Z); try reflexivity; vm_compute; auto 30.
  - exists r. split; [exact Hr|].
    destruct (no_post_effects qr lstsq inv pinv sf ppf Hd fst snd (gco C7) y [] None (sa_demo "never_treated" 0) (panel 2 6) r Hr) as (A & B & _ & P & Q); [|auto].
    intros e ef Hin. destruct (sa_fit_inv qr lstsq inv pinv sf ppf fst snd (gco C7) y [] None _ _ r Hr) as (_ & _ & reg & _ & Hes & _).
    rewrite Hes in Hin. apply in_map_iff in Hin as ([e0 [w ef0]] & E & Hin). cbn [fst snd] in E. apply pair_equal_spec in E as [-> ->].
    destruct (iw_weights sf ppf fst (gco C7) _ _ _ _ _ _ _ _ Hin) as (Hin' & _). vm_compute in Hin'.
    repeat (destruct Hin' as [<-|Hin']; [reflexivity|]). destruct Hin'.
Qed.

(* treated from the first period: the dummies add up to the unit's, so the effects are undefined, with p = 1 *)
Lemma dep1 : ~ indep (panel 2 3) (sa_cols fst snd (gco C1) [] [(CFin 1, 0%Z); (CFin 1, 1%Z); (CFin 1, 2%Z)] (panel 2 3)).
Proof.
  intros H. specialize (H [1; 1; 1] eq_refl). unfold sa_cols in H. cbn [map app] in H.
  assert (B : balanced Z.eq_dec Z.eq_dec (panel 2 3) fst snd 1) by (destruct (panel_bal 2 3) as [X|[X|X]]; [exact X|discriminate|discriminate]).
  assert (E : [1; 1; 1] = repeat 0 3); [|cbn in E; injection E; lra]. apply H. intros i Hi.
  refine (eq_trans (eq_sym (within_lc fst snd (panel 2 3) [sa_dummy snd (gco C1) (CFin 1, 0%Z); sa_dummy snd (gco C1) (CFin 1, 1%Z); sa_dummy snd (gco C1) (CFin 1, 2%Z)] [1; 1; 1] i)) _).
  rewrite (within_ext Z.eq_dec Z.eq_dec (panel 2 3) fst snd _ (fun i => ind (Z.eqb (fst i) 1) + 0) i Hi).
  - exact (within_additive Z.eq_dec Z.eq_dec (panel 2 3) fst snd 1 B (fun a => ind (Z.eqb a 1)) (fun _ => 0) i Hi).
  - intros j Hj. vm_compute in Hj. repeat (destruct Hj as [<-|Hj]; [cbn; unfold sa_dummy, sa_in, sa_rel, gco, C1; cbn; ring|]). destruct Hj.
Qed.
Theorem undefined1 y : exists r, fit C1 y (sa_demo "never_treated" 0) (panel 2 3) = Ok r /\
  exists e ef, In (e, ef) (sa_es r) /\ (0 <= e)%Z /\ se_eff ef = NaN /\ se_p ef = Fin 1 /\ sa_att r = NaN /\ sa_se r = NaN /\ sa_p r = Fin 1.
Proof.
  assert (ES : sa_sample (gco C1) (sa_demo "never_treated" 0) (panel 2 3) = panel 2 3) by (vm_compute; reflexivity).
  destruct (fit_succeeds qr lstsq inv pinv sf ppf Hqr Hinv fst snd (gco C1) y [] None (sa_demo "never_treated" 0) (panel 2 3)) as (r & Hr & Hk).
  - vm_compute. discriminate.
  - left. reflexivity.
  - rewrite ES. vm_compute. discriminate.
  - rewrite ES. apply Nat.ltb_lt. vm_compute. reflexivity.
  - rewrite ES. apply Nat.leb_le. vm_compute. reflexivity.
  - rewrite ES; apply (sa_cols_nonzero _ fst snd _ [] _ (CFin 1, 0%Z) (1, 1)%Z (1, 2)%Z (2, 1)%Z (2, 2)%Z); try reflexivity; vm_compute; auto 30.
  - exists r. split; [exact Hr|]. rewrite ES in Hk.
    assert (Hk' : map fst (sa_coh_effects r) = [(CFin 1, 0%Z); (CFin 1, 1%Z); (CFin 1, 2%Z)]) by (rewrite Hk; vm_compute; reflexivity).
    destruct (rank_deficient qr lstsq inv pinv sf ppf Hqr Hls Hd fst snd (gco C1) y [] None (sa_demo "never_treated" 0) (panel 2 3) r eq_refl) as (e & ef & Hin & A & _ & _ & P & _ & Q).
    + intros i _. unfold gco, C1. destruct (Z.eqb (fst i) 1); reflexivity.
    + exact Hr.
    + rewrite Hk'. exact dep1.
    + intros gr e. rewrite Hk'. intros [E|[E|[E|[]]]]; injection E as <- <-; apply Nat.ltb_lt; vm_compute; reflexivity.
    + assert (He : (0 <= e)%Z).
      { destruct (sa_fit_inv qr lstsq inv pinv sf ppf fst snd (gco C1) y [] None _ _ r Hr) as (_ & _ & reg & _ & Hes & _).
        rewrite Hes in Hin. apply in_map_iff in Hin as ([e0 [w ef0]] & E & Hin). cbn [fst snd] in E. apply pair_equal_spec in E as [-> ->].
        destruct (iw_weights sf ppf fst (gco C1) _ _ _ _ _ _ _ _ Hin) as (Hin' & _). vm_compute in Hin'.
        repeat (destruct Hin' as [<-|Hin']; [discriminate|]). destruct Hin'. }
      destruct (Q He) as (Q1 & Q2 & _ & Q3). exists e, ef. auto 10.
Qed.
(* a unit coded inf is listed among the treated groups and counted as treated *)
Theorem inf_counted y ctrl : exists r r', fit C35 y (sa_demo ctrl 0) rows35 = Ok r /\ fit C35inf y (sa_demo ctrl 0) rows35 = Ok r' /\
  same_estimates r r' /\ ~ In CInf (sa_rgroups r) /\ In CInf (sa_rgroups r') /\ sa_rn_treated r = 2%nat /\ sa_rn_treated r' = 3%nat /\ sa_rn_control r' = 1%nat.
Proof.
  destruct (fit35 ctrl y) as (r & Hr & _).
  pose proof (sa_recode qr lstsq inv pinv sf ppf fst snd (gco C35) (gco C35inf) y [] None) as S.
  assert (Hre : forall i, gco C35inf i = gco C35 i \/ (c_never (gco C35 i) = true /\ c_never (gco C35inf i) = true)).
  { intros i. unfold gco, C35, C35inf. destruct (Z.eqb (fst i) 1); [left; reflexivity|]. destruct (Z.eqb (fst i) 2); [left; reflexivity|right; split; reflexivity]. }
  specialize (S Hre (sa_demo ctrl 0) rows35). cbv beta in *. rewrite Hr in S.
  destruct (sa_fit qr lstsq inv pinv sf ppf fst snd (gco C35inf) y [] None (sa_demo ctrl 0) rows35) as [r'|] eqn:Hr'; [|destruct S].
  exists r, r'. split; [exact Hr|]. split; [reflexivity|]. split; [exact S|].
  destruct (sa_fit_inv qr lstsq inv pinv sf ppf fst snd (gco C35) y [] None _ _ r Hr) as (_ & _ & _ & _ & _ & _ & _ & _ & _ & _ & _ & Hg & Ht & _).
  destruct (sa_fit_inv qr lstsq inv pinv sf ppf fst snd (gco C35inf) y [] None _ _ r' Hr') as (_ & _ & _ & _ & _ & _ & _ & _ & _ & _ & _ & Hg' & Ht' & Hc' & _).
  rewrite Hg, Hg', Ht, Ht', Hc'. vm_compute. split; [intros [E|[E|[]]]; discriminate|]. split; [tauto|]. repeat split.
Qed.

Theorem agree35 qr2 lstsq2 inv2 logit y : exists r c,
  fit C35 y (sa_demo "never_treated" 0) rows35 = Ok r /\
  cs_fit qr2 lstsq2 inv2 logit sf ppf rows35 fst snd (gco C35) (fun i => Some (y i)) [] (demo_cfg "never_treated" 0 "reg" "universal") None None [] = Ok c /\
  sa_att r = cr_att c.
Proof.
  destruct (fit35 "never_treated" y) as (r & Hr & _ & Href). set (cfg := demo_cfg "never_treated" 0 "reg" "universal").
  destruct (no_cov_total qr2 lstsq2 inv2 logit rows35 fst snd (gco C35) (fun i => Some (y i)) [] cfg eq_refl) as (l & Hl & _).
  destruct (cell_exists qr2 lstsq2 inv2 logit rows35 fst snd _ _ [] cfg (CFin 3) 3 2 [1%Z] [3%Z] l eq_refl Hl) as (e3 & He3 & Eg3 & Et3 & _);
    [reflexivity|vm_compute; reflexivity|vm_compute; reflexivity|vm_compute; reflexivity|vm_compute; reflexivity|discriminate|discriminate|vm_compute; tauto|vm_compute; tauto|].
  destruct (fit_ok qr2 lstsq2 inv2 logit sf ppf rows35 fst snd (gco C35) (fun i => Some (y i)) [] cfg None None [] l) as (c & Hc & Er);
    [vm_compute; discriminate|vm_compute; reflexivity|exact Hl|intros E; rewrite E in He3; contradiction|].
  exists r, c. split; [exact Hr|]. split; [exact Hc|].
  apply (fits_agree qr lstsq inv pinv sf ppf Hqr Hls qr2 lstsq2 inv2 logit fst snd (gco C35) y None rows35 C35 bal35 (gi35 C35) (fun i _ => valid35 i) (sa_demo "never_treated" 0) cfg None None [] r c eq_refl eq_refl Href); try assumption; try reflexivity.
  - intros i e Hi Er'. destruct (Z_le_dec (-20) e); [destruct (Z_le_dec e 20); [lia|]|]; exfalso;
    assert (B : existsb (fun i => match sa_rel snd (gco C35) i with Some e => Z.ltb 20 e || Z.ltb e (-20) | None => false end) rows35 = true)
      by (apply existsb_exists; exists i; split; [exact Hi|rewrite Er'; apply orb_true_iff; rewrite !Z.ltb_lt; lia]); vm_compute in B; discriminate.
  - rewrite Er. intros E. assert (X : In e3 (filter (ge_post 0) l)); [|rewrite E in X; destruct X].
    apply filter_In. split; [exact He3|]. unfold ge_post. rewrite Eg3, Et3. reflexivity.
Qed.
End Ex.

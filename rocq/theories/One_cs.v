(* One treatment date on a balanced panel: CallawaySantAnna and SunAbraham (C132). *)
From Coq Require Import Reals Lra Lia.
From Verif Require Import Prelude Flt Stats_model Stats_proofs Linalg_model Linalg_proofs Linalg_vcov Linalg_thms Did_model Did_spec Did_proofs Within_proofs Multi_model Multi_proofs Multi_thms Bacon_model Bacon_proofs Boot_model Boot_proofs Staggered_model Staggered_proofs Staggered_est Staggered_thms Staggered_more Staggered_fit Sun_model Sun_proofs Sun_thms Sun_more Sun_cs One_proofs One_thms.
From Coq Require Import Arith ZArith String List Permutation.
Import ListNotations.
Open Scope R_scope.

Section CS.
Context {I : Type}.
Variable qr : list Z -> list (Z -> R) -> list nat.
Variable lstsq : list Z -> list (Z -> R) -> (Z -> R) -> list R.
Variable inv : list Z -> list (Z -> R) -> option (nat -> nat -> R).
Variable logit : list Z -> list Z -> list (Z -> R) -> option (Z -> R).
Variable sf : option Z -> fl -> fl.
Variable ppf : option Z -> R -> R.
Variables (u t : I -> Z) (g : I -> coh) (y : I -> R).
Variables (rows : list I) (C : Z -> coh) (k : Z).
Hypothesis Hbal : Within_proofs.balanced Z.eq_dec Z.eq_dec rows u t 1.
Hypothesis HC : forall i, In i rows -> g i = C (u i).
Hypothesis Hk : (0 < k)%Z.
Hypothesis Hone : forall i, In i rows -> c_never (g i) = true \/ g i = CFin k.
Notation d := (fun i => ind (c_is (g i) k)).
Notation after := (fun i => ind (Z.leb k (t i))).
Notation late := (filter (fun i => Z.leb (k - 1) (t i)) rows).
Notation yo := (fun i => Some (y i)).
Notation cfit := (cs_fit qr lstsq inv logit sf ppf rows u t g yo []).
Notation periods := (cs_periods rows t).
Notation class := (Sun_cs.class u rows C).
Notation scell := (Sun_proofs.cell rows t g).
Notation cmean := (Sun_proofs.cmean rows t g y).
Notation ps := (filter (Z.leb k) periods).

Lemma Hval1 i : In i rows -> valid_coh (g i) = true.
Proof. intros Hi. unfold valid_coh. destruct (Hone i Hi) as [H|H]; rewrite H; [reflexivity|]. cbn. apply orb_true_iff. right. apply Z.ltb_lt. exact Hk. Qed.
(* the group of a row, as a normalised cohort *)
Definition coh_of (a : bool) : coh := if a then CFin k else CInf.
Lemma norm_group (a : bool) i : In i rows -> c_eqb (norm (g i)) (coh_of a) = Reqb (d i) (ind a).
Proof.
  intros Hi. destruct (Reqb_ind (c_is (g i) k)) as [A1 A0]. pose proof (never_iff rows g k Hk Hone i Hi) as N.
  destruct a; cbn [coh_of ind].
  - rewrite A1, norm_fin by lia. unfold c_eqb. destruct (coh_eq_dec (g i) (CFin k)) as [->|E]; [cbn; symmetry; apply Z.eqb_refl|]. destruct (g i) as [z| |]; cbn; try reflexivity. destruct (Z.eqb_spec z k); [congruence|reflexivity].
  - rewrite A0, norm_inf. exact N.
Qed.
Lemma ps_nodup : NoDup ps.
Proof. apply NoDup_filter. apply zsort_NoDup, NoDup_nodup. Qed.
Lemma ps_mem i : In i rows -> zmem (t i) ps = Z.leb k (t i).
Proof.
  intros Hi. destruct (Z.leb k (t i)) eqn:E.
  - apply zmem_In, filter_In. split; [apply cs_periods_In; exists i; auto|exact E].
  - apply zmem_false. intros X. apply filter_In in X as [_ X]. congruence.
Qed.
Lemma group_len (a : bool) i : In i rows -> d i = ind a -> 0 < len (class (coh_of a)).
Proof.
  intros Hi Ha. apply len_pos. intros E. assert (X : In (u i) (class (coh_of a))); [|rewrite E in X; destruct X].
  apply filter_In. split; [apply cs_units_In; exists i; auto|]. rewrite <- (HC i Hi). rewrite (norm_group a i Hi). apply Reqb_true. exact Ha.
Qed.
Lemma late_post (a : bool) i : In i rows -> d i = ind a -> ps <> [] -> meanf (cmean (coh_of a)) ps = cell_mean late d after y (ind a) 1.
Proof.
  intros Hi Ha Hne. unfold Sun_proofs.cmean, Sun_proofs.cell, cell_mean.
  rewrite (pooled_mean rows t y (fun i => c_eqb (norm (g i)) (coh_of a)) ps (len (class (coh_of a)))).
  - f_equal. unfold Did_spec.cell. rewrite Within_proofs.filter_filter. apply filter_ext_in. intros j Hj. rewrite (norm_group a j Hj), (ps_mem j Hj).
    destruct (Reqb_ind (Z.leb k (t j))) as [-> _]. destruct (Z.leb_spec (k - 1) (t j)); [reflexivity|]. destruct (Z.leb_spec k (t j)); [lia|]. rewrite andb_false_r. reflexivity.
  - exact ps_nodup.
  - exact Hne.
  - pose proof (group_len a i Hi Ha). lra.
  - intros p Hp. apply filter_In in Hp as [Hp _]. exact (cell_len u t g rows C Hbal HC (coh_of a) p Hp).
Qed.
Lemma late_pre (a : bool) : cmean (coh_of a) (k - 1) = cell_mean late d after y (ind a) 0.
Proof.
  unfold Sun_proofs.cmean, Sun_proofs.cell, cell_mean, Did_spec.cell. f_equal. rewrite Within_proofs.filter_filter. apply filter_ext_in. intros j Hj. rewrite (norm_group a j Hj).
  destruct (Reqb_ind (Z.leb k (t j))) as [_ ->]. destruct (Z.leb_spec (k - 1) (t j)), (Z.leb_spec k (t j)), (Z.eqb_spec (t j) (k - 1)); try lia; cbn [negb andb]; rewrite ?andb_true_r, ?andb_false_r; reflexivity.
Qed.

Section Fit.
Variables (cfg : cs_config) (agg : option string) (bal : option Z) (ws : list (Z -> R)) (r : cs_result).
Hypothesis Hctl : cs_control cfg = "never_treated"%string.
Hypothesis Hant : cs_anticipation cfg = 0%Z.
Hypothesis Hr : cfit cfg agg bal ws = Ok r.
Notation post := (filter (ge_post 0) (cr_effects r)).

Lemma effs_ok : all_effects qr lstsq inv logit rows u t g yo [] cfg = Ok (cr_effects r).
Proof. destruct (fit_inv _ _ _ _ _ _ _ _ _ _ _ _ _ _ _ _ _ Hr) as (_ & _ & H & _). exact H. Qed.
Lemma post_cell e : In e post -> ge_g e = CFin k /\ In (ge_t e) ps /\ ge_base e = (k - 1)%Z /\ In (k - 1)%Z periods /\
  ge_n e = len (class (CFin k)) /\ ge_T e <> [] /\
  ge_eff e = Fin ((cmean (coh_of true) (ge_t e) - cmean (coh_of true) (k - 1)) - (cmean (coh_of false) (ge_t e) - cmean (coh_of false) (k - 1))).
Proof.
  intros He. apply filter_In in He as [He Hp]. destruct (effects_In _ _ _ _ _ _ _ _ _ _ cfg _ e effs_ok He) as (gr & s & Hgr & _ & Hag).
  destruct (att_gt_inv _ _ _ _ _ _ _ _ _ _ _ _ _ _ Hag) as (Eg & _ & _ & _ & _ & _ & _ & HT & _).
  assert (Ek : ge_g e = CFin k).
  { rewrite Eg. apply cs_groups_In in Hgr as [Hz (i & Hi & Gi)]. destruct (Hone i Hi) as [H|H]; [|congruence]. rewrite Gi in H. unfold ge_post in Hp. rewrite Eg in Hp.
    destruct gr; cbn in H, Hz, Hp; try discriminate. apply Z.eqb_eq in H. apply Z.ltb_lt in Hz. lia. }
  destruct (base_facts _ _ _ _ _ _ _ _ _ _ cfg _ e effs_ok He) as (_ & _ & _ & HB & _). destruct (HB k Ek) as (_ & B2 & _). rewrite Hant in B2.
  assert (Hge : (k <= ge_t e)%Z). { unfold ge_post in Hp. rewrite Ek in Hp. cbn [before] in Hp. apply negb_true_iff, Z.ltb_ge in Hp. lia. }
  destruct (B2 ltac:(lia)) as [Eb _]. destruct (cs_cell_value qr lstsq inv logit u t g y rows C Hbal HC cfg _ e k Hctl effs_ok He Ek) as (V1 & V2 & V3 & V4).
  replace (k - 1 - 0)%Z with (k - 1)%Z in Eb by lia. rewrite Eb in *.
  split; [exact Ek|]. split; [apply filter_In; split; [exact V2|apply Z.leb_le; exact Hge]|]. split; [reflexivity|]. split; [exact V1|].
  split; [unfold ge_n; rewrite V3; reflexivity|]. split; [exact HT|]. exact V4.
Qed.
Lemma post_times_nodup : NoDup (map ge_t post).
Proof.
  assert (N : NoDup (map (fun c => (ge_g c, ge_t c)) (cr_effects r))).
  { refine (collect_NoDup _ _ _ (cr_effects r) _ _ effs_ok).
    - intros [gr s] c Hc. cbn [fst snd] in Hc. destruct (att_gt_inv _ _ _ _ _ _ _ _ _ _ _ _ _ _ Hc) as (-> & -> & _). reflexivity.
    - pose proof (cs_groups_NoDup rows g) as Hg. induction Hg as [|x L Hx Hg IH]; cbn [flat_map]; [constructor|]. apply NoDup_app_disj.
      * apply FinFun.Injective_map_NoDup; [intros a b E; congruence|]. unfold valid_periods. destruct (cs_universal cfg); apply NoDup_filter; apply zsort_NoDup, NoDup_nodup.
      * exact IH.
      * intros q Hq Hq'. apply in_map_iff in Hq as (s & <- & _). apply in_flat_map in Hq' as (x' & Hx' & Hq'). apply in_map_iff in Hq' as (s' & E & _). congruence. }
  pose proof post_cell as PC. revert N PC. generalize (cr_effects r). intros L. induction L as [|c L IH]; cbn [map filter]; intros N PC; [constructor|].
  inversion N as [|x0 L0 N1 N2]; subst. destruct (ge_post 0 c) eqn:Ec; [|apply IH; assumption]. cbn [map]. constructor; [|apply IH; [exact N2|intros e He; apply PC; right; exact He]].
  intros Y. apply in_map_iff in Y as (c' & E & Hc'). apply N1. rewrite in_map_iff. exists c'. destruct (PC c (or_introl eq_refl)) as [G1 _]. destruct (PC c' (or_intror Hc')) as [G2 _].
  apply filter_In in Hc' as [Hc' _]. split; [congruence|exact Hc'].
Qed.
Lemma never_row : exists i, In i rows /\ d i = ind false.
Proof.
  destruct (fit_inv _ _ _ _ _ _ _ _ _ _ _ _ _ _ _ _ _ Hr) as (Hn & _). unfold n_nev in Hn.
  destruct (filter _ _) as [|a L] eqn:E in Hn; [exfalso; apply Hn; reflexivity|]. assert (Ha : In a (a :: L)) by (left; reflexivity). rewrite <- E in Ha.
  apply filter_In in Ha as [_ Hc]. unfold first_never in Hc. destruct (filter (fun i => Z.eqb (u i) a) rows) as [|i l] eqn:EF; [discriminate|].
  assert (Hi : In i rows) by (apply (proj1 (filter_In (fun i => Z.eqb (u i) a) i rows)); rewrite EF; left; reflexivity). exists i. split; [exact Hi|].
  rewrite (never_iff rows g k Hk Hone i Hi) in Hc. destruct (c_is (g i) k); [discriminate|reflexivity].
Qed.
Lemma post_found i s : In i rows -> g i = CFin k -> In (k - 1)%Z periods -> In s ps -> In s (map ge_t post).
Proof.
  intros Hi Gi Hb Hs. apply filter_In in Hs as [Hs Hge]. apply Z.leb_le in Hge. destruct never_row as (j & Hj & Dj).
  destruct (cell_exists qr lstsq inv logit rows u t g yo [] cfg (CFin k) s (k - 1) (class (CFin k)) (class CInf) (cr_effects r) eq_refl effs_ok) as (c & Hc & E1 & E2 & _).
  - unfold cs_base. rewrite Hant. destruct (cs_universal cfg); [f_equal; lia|]. unfold before. destruct (Z.ltb_spec s (k - 0)); [lia|]. f_equal. lia.
  - apply zmem_true; exact Hb.
  - apply zmem_true; exact Hs.
  - apply (treated_class u t g y rows C Hbal HC k (k - 1) s); [lia|exact Hb|exact Hs].
  - apply (control_class u t g y rows C Hbal HC cfg (CFin k) (k - 1) s); assumption.
  - pose proof (group_len true i Hi ltac:(cbv beta; rewrite Gi; cbn; rewrite Z.eqb_refl; reflexivity)) as L. cbn [coh_of] in L. intros E. rewrite E in L. unfold len in L. simpl in L. lra.
  - pose proof (group_len false j Hj Dj) as L. cbn [coh_of] in L. intros E. rewrite E in L. unfold len in L. simpl in L. lra.
  - apply cs_groups_In. split; [apply Z.ltb_lt; exact Hk|exists i; auto].
  - unfold valid_periods. rewrite Hant. destruct (cs_universal cfg).
    + apply filter_In. split; [exact Hs|]. apply negb_true_iff, Z.eqb_neq. lia.
    + apply filter_In. split; [exact Hs|]. unfold before. destruct (Z.ltb_spec s (k - 0)); [lia|reflexivity].
  - rewrite <- E2. apply in_map. apply filter_In. split; [exact Hc|]. unfold ge_post. rewrite E1. cbn [before]. apply negb_true_iff, Z.ltb_ge. lia.
Qed.
(* the overall effect is the difference in differences on the rows from period k - 1 on: only the last period before
   treatment serves as baseline *)
Theorem cs_one_date i : In i rows -> g i = CFin k -> In (k - 1)%Z (map t rows) -> (exists s, In s (map t rows) /\ (k <= s)%Z) ->
  cr_att r = Fin (did_of_means late d after y).
Proof.
  intros Hi Gi Hb (s0 & Hs0 & Hk0). assert (Hb' : In (k - 1)%Z periods) by (apply cs_periods_In; apply in_map_iff in Hb as (j & E & Hj); exists j; auto).
  assert (Hs' : In s0 ps) by (apply filter_In; split; [apply cs_periods_In; apply in_map_iff in Hs0 as (j & E & Hj); exists j; auto|apply Z.leb_le; exact Hk0]).
  assert (Hps : ps <> []) by (intros E; rewrite E in Hs'; destruct Hs').
  assert (P : Permutation (map ge_t post) ps).
  { apply NoDup_Permutation; [exact post_times_nodup|exact ps_nodup|]. intros s. split; [|apply (post_found i s Hi Gi Hb')].
    intros H. apply in_map_iff in H as (e & <- & He). apply (post_cell e He). }
  assert (Hpost : post <> []) by (intros E; rewrite E in P; cbn in P; apply Permutation_nil in P; congruence).
  destruct (overall_aggregation qr lstsq inv logit sf ppf rows u t g yo [] cfg agg bal ws r Hr) as (_ & _ & O2). rewrite Hant in O2. destruct (O2 Hpost) as (-> & _).
  rewrite by_size_value by (intros e He; destruct (post_cell e He) as (_ & _ & _ & _ & _ & _ & ->); eexists; reflexivity). f_equal.
  set (n := len (class (CFin k))). set (h := fun s => (cmean (coh_of true) s - cmean (coh_of true) (k - 1)) - (cmean (coh_of false) s - cmean (coh_of false) (k - 1))).
  assert (Nn : 0 < n). { exact (group_len true i Hi ltac:(cbv beta; rewrite Gi; cbn; rewrite Z.eqb_refl; reflexivity)). }
  rewrite (sumf_ext _ (fun e => n * h (ge_t e))) by (intros e He; destruct (post_cell e He) as (_ & _ & _ & _ & -> & _ & ->); reflexivity).
  rewrite (sumf_ext ge_n (fun _ => n)) by (intros e He; destruct (post_cell e He) as (_ & _ & _ & _ & -> & _); reflexivity).
  rewrite sumf_scal, sumf_const. replace (sumf (fun e => h (ge_t e)) post) with (sumf h ps) by (rewrite <- (sumf_perm _ _ _ P), sumf_map; reflexivity).
  replace (len post) with (len ps) by (unfold len; rewrite <- (Permutation_length P), map_length; reflexivity).
  assert (Lp : 0 < len ps) by (apply len_pos; exact Hps).
  destruct never_row as (j & Hj & Dj).
  assert (Di : d i = ind true) by (cbv beta; rewrite Gi; cbn; rewrite Z.eqb_refl; reflexivity).
  pose proof (late_post true i Hi Di Hps) as M1. pose proof (late_post false j Hj Dj Hps) as M0.
  pose proof (late_pre true) as B1. pose proof (late_pre false) as B0. cbn [ind] in M1, M0, B1, B0.
  unfold did_of_means. rewrite <- M1, <- M0, <- B1, <- B0. unfold h. unfold meanf. rewrite !sumf_sub, !sumf_const. field. lra.
Qed.
(* without data for period k - 1 there is no estimate at all *)
Theorem cs_no_baseline : ~ In (k - 1)%Z (map t rows) -> cr_att r = NaN.
Proof.
  intros H. destruct (overall_aggregation qr lstsq inv logit sf ppf rows u t g yo [] cfg agg bal ws r Hr) as (_ & O1 & _). rewrite Hant in O1. apply O1.
  destruct post as [|e L] eqn:E; [reflexivity|]. exfalso. destruct (post_cell e) as (_ & _ & _ & Hb & _); [rewrite E; left; reflexivity|].
  apply H. apply cs_periods_In in Hb as (j & Hj & Ej). rewrite <- Ej. apply in_map. exact Hj.
Qed.
End Fit.
End CS.

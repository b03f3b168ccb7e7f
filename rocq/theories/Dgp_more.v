(* Generated factor-model and triple-difference data. *)
From Verif Require Import Prelude Flt Stats_model Linalg_model Linalg_proofs Linalg_vcov Linalg_thms Did_model Did_spec Did_proofs Did_equiv
  Multi_model Triple_model Triple_proofs Triple_thms Triple_fit Power_model Power_thms Diag_model Diag_proofs Diag_ex Dgp_model Dgp_proofs Dgp_thms Dgp_event.
From Coq Require Import Arith ZArith String List Bool Lia.
Import ListNotations.
Open Scope R_scope.

(* ---------- factor data ---------- *)
Lemma bdid_sum {I J} (b c : I -> bool) (f : J -> I -> R) rows js :
  bdid b c (fun i => sumf (fun j => f j i) js) rows = sumf (fun j => bdid b c (f j) rows) js.
Proof.
  induction js as [|j js IH]; simpl.
  - unfold bdid, bmean, meanf. rewrite !sumf_const. unfold Rdiv. ring.
  - rewrite bdid_add, IH. reflexivity.
Qed.
Section Factor.
Context {K G : Type} (keq : forall x y : K, {x = y} + {x <> y}) (geq : forall x y : G, {x = y} + {x <> y}).
Variable qr : list frow -> list (frow -> R) -> list nat.
Variable lstsq : list frow -> list (frow -> R) -> (frow -> R) -> list R.
Variable inv : list frow -> list (frow -> R) -> option (nat -> nat -> R).
Variable pinv : list frow -> list (frow -> R) -> nat -> nat -> R.
Variable sf : option Z -> fl -> fl.
Variable ppf : option Z -> R -> R.
Hypothesis Hqr : qr_ok qr.
Hypothesis Hls : lstsq_ok lstsq.
Hypothesis Hinv : inv_ok inv.
(* DifferenceInDifferences.fit(data, outcome='outcome', treatment='treat', time=post) with post = period >= n_pre *)
Definition did_on_factor (cfg : did_config frow K) (n_pre : nat) (rows : list frow) : res (did_result frow) :=
  did_fit keq geq qr lstsq inv pinv sf ppf cfg rows (fun i => Fin (fr_y i)) (fun i => ofb (fr_treat i)) (fun i => ofb (Nat.leb n_pre (fr_period i))) [] [] [].
Theorem factor_data_bias n n_pre n_post n_treated n_factors effect strength shift fe_sd noise_sd zf zl zu ze rows cfg :
  let T := (n_pre + n_post)%nat in
  let tgap f := gap (fun u => before u n_treated) f (seq 0 n) in                (* treated minus control mean over units *)
  let pgap f := gap (fun t => Nat.leb n_pre t) f (seq 0 T) in                    (* post minus pre mean over periods *)
  (n_treated < Z.of_nat n)%Z -> (0 < n_pre)%nat -> (0 < n_post)%nat ->
  generate_factor_data n n_pre n_post n_treated n_factors effect strength shift fe_sd noise_sd zf zl zu ze = Ok rows ->
  (forall r, did_on_factor cfg n_pre rows = Ok r ->
     r_att r = Fin (effect + strength * sumf (fun j => (shift + tgap (zl j)) * pgap (fun t => zf t j)) (seq 0 n_factors)
                    + noise_sd * noise_did n T n_treated (Z.of_nat n_pre) ze)) /\
  ((4 < n * T)%nat -> parse_action (c_action cfg) <> None -> (forall cl, c_cluster cfg = Some cl -> (2 <= length (cl_keys keq rows cl))%nat) ->
   exists r, did_on_factor cfg n_pre rows = Ok r).
Proof.
  intros T tgap pgap Hn Hpre Hpost. unfold generate_factor_data. fold T.
  destruct (Z.ltb_spec (Z.of_nat n) n_treated); [discriminate|]. destruct (Z.ltb_spec n_treated 1) as [|Ht]; [discriminate|].
  destruct (Rltb fe_sd 0); [discriminate|]. destruct (Rltb noise_sd 0 && _); [discriminate|]. intros E. injection E as <-.
  set (mk := fun ut : nat * nat => _).
  assert (B1 : filter (fun u => before u n_treated) (seq 0 n) <> []) by (apply before_ne; lia).
  assert (B0 : filter (fun u => negb (before u n_treated)) (seq 0 n) <> []) by (apply not_before_ne; lia).
  assert (P1 : filter (fun t => Nat.leb n_pre t) (seq 0 T) <> []) by (apply (in_filter_ne _ _ n_pre); [apply in_seq; unfold T; lia|apply Nat.leb_refl]).
  assert (P0 : filter (fun t => negb (Nat.leb n_pre t)) (seq 0 T) <> []) by (apply (in_filter_ne _ _ O); [apply in_seq; unfold T; lia|apply Bool.negb_true_iff, Nat.leb_gt; lia]).
  assert (C : forall p q, existsb (fun i => Bool.eqb (fr_treat i) p && Bool.eqb (Nat.leb n_pre (fr_period i)) q) (map mk (grid n T)) = true).
  { intros p q. apply existsb_exists. exists (mk ((if p then 0 else n - 1)%nat, (if q then n_pre else 0)%nat)). split.
    - apply in_map. apply in_prod; apply in_seq; destruct p, q; unfold T; lia.
    - cbn. unfold before. apply andb_true_iff. split; apply Bool.eqb_true_iff.
      + destruct p; [apply Z.ltb_lt|apply Z.ltb_ge]; lia.
      + destruct q; [apply Nat.leb_le|apply Nat.leb_gt]; lia. }
  split.
  - intros r E. rewrite (bfit_att keq geq qr lstsq inv pinv sf ppf Hqr Hls fr_y fr_treat (fun i => Nat.leb n_pre (fr_period i)) cfg _ r C E). f_equal.
    rewrite bdid_map.
    transitivity (bdid (fun x : nat * nat => before (fst x) n_treated) (fun x => Nat.leb n_pre (snd x))
      (fun x => (10 + fe_sd * zu (fst x) + ind (before (fst x) n_treated)) + linspace02 T (snd x)
                + ind (before (fst x) n_treated) * (effect * ind (Nat.leb n_pre (snd x)))
                + (strength * sumf (fun j => (zl j (fst x) + shift * ind (before (fst x) n_treated)) * zf (snd x) j) (seq 0 n_factors)
                   + noise_sd * ze (fst x) (snd x))) (grid n T)).
    + transitivity (bdid (fun x : nat * nat => before (fst x) n_treated) (fun x => Nat.leb n_pre (snd x)) (fun a => fr_y (mk a)) (grid n T)).
      * unfold bdid, bmean. f_equal; f_equal; f_equal; apply filter_ext; intros [u t]; reflexivity.
      * apply bdid_ext. intros [u t] _. cbn. unfold normal.
        rewrite (sumf_ext (fun j => (zl j u + (if before u n_treated then shift else 0)) * zf t j) (fun j => (zl j u + shift * ind (before u n_treated)) * zf t j)) by (intros j _; destruct (before u n_treated); cbn; ring).
        destruct (before u n_treated), (Nat.leb n_pre t); cbn [ind andb]; ring.
    + unfold grid. rewrite (bdid_grid (seq 0 n) (seq 0 T) (fun u => before u n_treated) (fun t => Nat.leb n_pre t) (fun u => 10 + fe_sd * zu u + ind (before u n_treated))
        (fun t => linspace02 T t) (fun t => effect * ind (Nat.leb n_pre t)) (fun x => strength * sumf (fun j => (zl j (fst x) + shift * ind (before (fst x) n_treated)) * zf (snd x) j) (seq 0 n_factors)
                   + noise_sd * ze (fst x) (snd x)) B1 B0 P1 P0).
      rewrite gap_scal, gap_ind by exact P1. rewrite bdid_add, !bdid_scal, bdid_sum.
      rewrite (sumf_ext _ (fun j => (shift + tgap (zl j)) * pgap (fun t => zf t j))).
      * unfold noise_did, grid. rewrite Rmult_1_r, <- Rplus_assoc. f_equal. f_equal. unfold bdid, bmean.
        assert (L : forall t, Z.leb (Z.of_nat n_pre) (Z.of_nat t) = Nat.leb n_pre t) by (intros t; destruct (Nat.leb_spec n_pre t), (Z.leb_spec (Z.of_nat n_pre) (Z.of_nat t)); auto; lia).
        f_equal; f_equal; f_equal; apply filter_ext; intros [u t]; cbn [fst snd]; rewrite L; reflexivity.
      * intros j _. rewrite (bdid_prod (seq 0 n) (seq 0 T) (fun u => before u n_treated) (fun t => Nat.leb n_pre t) (fun u => zl j u + shift * ind (before u n_treated)) (fun t => zf t j)).
        rewrite gap_add, gap_scal, gap_ind by exact B1. unfold tgap, pgap. ring.
  - intros L A Cl. apply (bfit_ok keq geq qr lstsq inv pinv sf ppf Hqr Hls Hinv fr_y fr_treat (fun i => Nat.leb n_pre (fr_period i)) cfg _ C); auto.
    rewrite map_length. unfold grid. rewrite prod_length, !seq_length. exact L.
Qed.
End Factor.

(* ---------- triple-difference data ---------- *)
Definition cell3 (g p t : bool) (rows : list drow) : list drow :=
  filter (fun i => Bool.eqb (dr_g i) g && Bool.eqb (dr_p i) p && Bool.eqb (dr_t i) t) rows.
(* eligible difference in differences minus ineligible difference in differences *)
Definition ddd8 (f : drow -> R) (rows : list drow) : R :=
  let c g p t := meanf f (cell3 g p t rows) in
  ((c true true true - c true true false) - (c false true true - c false true false))
  - ((c true false true - c true false false) - (c false false true - c false false false)).
Notation bG := (fun i => Some (ind (dr_g i))).
Notation bP := (fun i => Some (ind (dr_p i))).
Notation bT := (fun i => Some (ind (dr_t i))).
Lemma cell3_cell rows g p t : cell (part rows (fun i => oR (bP i)) (ind p)) (fun i => oR (bG i)) (fun i => oR (bT i)) (ind g) (ind t) = cell3 g p t rows.
Proof.
  unfold cell, part, cell3. rewrite filter_filter_and. apply filter_ext. intros i. cbn [oR]. rewrite !Reqb_ind.
  destruct (Bool.eqb (dr_p i) p), (Bool.eqb (dr_g i) g); reflexivity.
Qed.
Lemma ddd_is_ddd8 rows f : did_of_means (part rows (fun i => oR (bP i)) 1) (fun i => oR (bG i)) (fun i => oR (bT i)) f
  - did_of_means (part rows (fun i => oR (bP i)) 0) (fun i => oR (bG i)) (fun i => oR (bT i)) f = ddd8 f rows.
Proof.
  unfold did_of_means, cell_mean, ddd8. change 1 with (ind true). change 0 with (ind false). rewrite !cell3_cell. ring.
Qed.
Section Cells8.
Variables (m : nat) (mk : bool * bool * bool * nat -> drow).
Hypothesis Mg : forall g p t j, dr_g (mk (g, p, t, j)) = g /\ dr_p (mk (g, p, t, j)) = p /\ dr_t (mk (g, p, t, j)) = t.
Notation rows := (map mk (list_prod ddd_cells (seq 0 m))).
Lemma cell3_rows g p t : cell3 g p t rows = map (fun j => mk (g, p, t, j)) (seq 0 m).
Proof.
  unfold cell3. rewrite filter_map_comm.
  rewrite (filter_ext _ (fun x : bool * bool * bool * nat => (Bool.eqb (fst (fst (fst x))) g && Bool.eqb (snd (fst (fst x))) p && Bool.eqb (snd (fst x)) t) && true)).
  2:{ intros [[[g' p'] t'] j]. destruct (Mg g' p' t' j) as (-> & -> & ->). rewrite andb_true_r. reflexivity. }
  rewrite (filter_prod (fun c => Bool.eqb (fst (fst c)) g && Bool.eqb (snd (fst c)) p && Bool.eqb (snd c) t) (fun _ => true)).
  rewrite (filter_id (fun _ : nat => true)) by reflexivity.
  replace (filter (fun c => Bool.eqb (fst (fst c)) g && Bool.eqb (snd (fst c)) p && Bool.eqb (snd c) t) ddd_cells) with [(g, p, t)] by (destruct g, p, t; reflexivity).
  cbn [list_prod]. rewrite app_nil_r, map_map. reflexivity.
Qed.
Lemma rows8_len : length rows = (8 * m)%nat.
Proof. rewrite map_length, prod_length, seq_length. reflexivity. Qed.
Lemma cell3_len g p t : len (cell3 g p t rows) = INR m.
Proof. rewrite cell3_rows. unfold len. rewrite map_length, seq_length. reflexivity. Qed.
Lemma ddd8_rows (base : bool -> bool -> bool -> R) (extra f : drow -> R) : (0 < m)%nat ->
  (forall g p t j, f (mk (g, p, t, j)) = base g p t + extra (mk (g, p, t, j))) ->
  ddd8 f rows = ((base true true true - base true true false) - (base false true true - base false true false))
    - ((base true false true - base true false false) - (base false false true - base false false false)) + ddd8 extra rows.
Proof.
  intros Hm H.
  assert (C : forall g p t, meanf f (cell3 g p t rows) = base g p t + meanf extra (cell3 g p t rows)).
  { intros g p t. rewrite cell3_rows, !meanf_map, (meanf_ext _ (fun j => base g p t + extra (mk (g, p, t, j)))) by (intros; apply H).
    rewrite meanf_add, meanf_const; [reflexivity|]. destruct m; [lia|discriminate]. }
  unfold ddd8. rewrite !C. ring.
Qed.
End Cells8.

Section Ddd.
Context {K : Type} (keq : forall x y : K, {x = y} + {x <> y}).
Variable qr : list drow -> list (drow -> R) -> list nat.
Variable lstsq : list drow -> list (drow -> R) -> (drow -> R) -> list R.
Variable inv : list drow -> list (drow -> R) -> option (nat -> nat -> R).
Variable pinv : list drow -> list (drow -> R) -> nat -> nat -> R.
Variable sf : option Z -> fl -> fl.
Variable ppf : option Z -> R -> R.
Variable logit : list drow -> list (drow -> R) -> (drow -> R) -> option (drow -> R).
Hypothesis Hqr : qr_ok qr.
Hypothesis Hls : lstsq_ok lstsq.
(* TripleDifference.fit(data, outcome='outcome', group='group', partition='partition', time='time') *)
Definition ddd_on (cfg : ddd_config) (cl : option (drow -> K)) (rows : list drow) : res ddd_result :=
  ddd_fit keq qr lstsq inv pinv sf ppf logit cfg cl rows (fun i => Some (dr_y i)) bG bP bT [].
Theorem ddd_data_recovery m effect ge pe te noise_sd addc age educ ze rows cfg cl r :
  (0 < m)%nat -> generate_ddd_data m effect ge pe te noise_sd addc age educ ze = Ok rows ->
  (dd_method cfg = "reg" \/ (dd_method cfg = "ipw" /\ dd_trim cfg < 1) \/ (dd_method cfg = "dr" /\ dd_trim cfg <= 1/4))%string ->
  ddd_on cfg cl rows = Ok r ->
  tr_att r = Fin (effect + (if addc then 1/10 * ddd8 dr_age rows + 1/2 * ddd8 dr_educ rows else 0)
                  + noise_sd * ddd8 (fun i => ze (dr_unit i)) rows).
Proof.
  intros Hm. unfold generate_ddd_data. destruct (Rltb noise_sd 0 && _); [discriminate|]. intros E. injection E as <-.
  set (mk := fun x : bool * bool * bool * nat => _).
  assert (Mg : forall g p t j, dr_g (mk (g, p, t, j)) = g /\ dr_p (mk (g, p, t, j)) = p /\ dr_t (mk (g, p, t, j)) = t) by (intros; cbn; auto).
  set (rows := map mk (list_prod ddd_cells (seq 0 m))). intros Hmeth Hfit.
  assert (V : did_of_means (part rows (fun i => oR (bP i)) 1) (fun i => oR (bG i)) (fun i => oR (bT i)) (fun i => oR (Some (dr_y i)))
    - did_of_means (part rows (fun i => oR (bP i)) 0) (fun i => oR (bG i)) (fun i => oR (bT i)) (fun i => oR (Some (dr_y i)))
    = effect + (if addc then 1/10 * ddd8 dr_age rows + 1/2 * ddd8 dr_educ rows else 0) + noise_sd * ddd8 (fun i => ze (dr_unit i)) rows).
  { rewrite ddd_is_ddd8. unfold rows.
    rewrite (ddd8_rows m mk Mg (fun g p t => 50 + ge * ind g + pe * ind p + te * ind t + 3/2 * ind g * ind p + 1 * ind g * ind t + 1/2 * ind p * ind t + (if g && p && t then effect else 0))
      (fun i => (if addc then 1/10 * dr_age i + 1/2 * dr_educ i else 0) + noise_sd * ze (dr_unit i))); [|exact Hm|].
    - assert (S : ddd8 (fun i => (if addc then 1/10 * dr_age i + 1/2 * dr_educ i else 0) + noise_sd * ze (dr_unit i)) rows
        = (if addc then 1/10 * ddd8 dr_age rows + 1/2 * ddd8 dr_educ rows else 0) + noise_sd * ddd8 (fun i => ze (dr_unit i)) rows).
      { unfold ddd8. rewrite !meanf_add, !meanf_scal. destruct addc.
        - rewrite !meanf_add, !meanf_scal. ring.
        - unfold meanf at 1 3 5 7 9 11 13 15. rewrite !sumf_const. unfold Rdiv. ring. }
      fold rows. rewrite S. cbn [ind andb]. ring.
    - intros g p t j. cbn. unfold normal. destruct addc; ring. }
  unfold ddd_on in Hfit. destruct Hmeth as [Hr|[[Hi Ht]|[Hd Ht]]].
  - rewrite (reg_fit keq qr lstsq inv pinv sf ppf logit Hqr Hls cfg cl rows _ _ _ _ r Hr Hfit). f_equal. exact V.
  - rewrite (ipw_fit keq qr lstsq inv pinv sf ppf logit cfg cl rows _ _ _ _ r Hi Ht Hfit). f_equal. exact V.
  - assert (M0 : INR m <> 0) by (apply not_0_INR; lia).
    assert (LR : len rows = 8 * INR m).
    { unfold len, rows. rewrite (rows8_len m mk), mult_INR. simpl. ring. }
    assert (L8 : forall g p t, len (cell8 rows (fun i => oR (bG i)) (fun i => oR (bP i)) (fun i => oR (bT i)) (ind g) (ind p) (ind t)) = INR m).
    { intros g p t. rewrite <- (cell3_len m mk Mg g p t). fold rows. f_equal. unfold cell8, cell3. apply filter_ext. intros i. cbn [oR]. rewrite !Reqb_ind. reflexivity. }
    assert (SP : forall l : list drow, len l = len (filter (fun i => Reqb (oR (bT i)) 1) l) + len (filter (fun i => Reqb (oR (bT i)) 0) l)).
    { clear. induction l as [|i l IH]; [unfold len; simpl; lra|]. cbn [filter].
      replace (Reqb (oR (bT i)) 1) with (dr_t i) by (cbn [oR]; change 1 with (ind true); rewrite Reqb_ind; destruct (dr_t i); reflexivity).
      replace (Reqb (oR (bT i)) 0) with (negb (dr_t i)) by (cbn [oR]; change 0 with (ind false); rewrite Reqb_ind; destruct (dr_t i); reflexivity).
      destruct (dr_t i); cbn [negb]; unfold len in *; cbn [length]; rewrite !S_INR, IH; lra. }
    assert (L4 : forall g p, len (cell4 rows (fun i => oR (bG i)) (fun i => oR (bP i)) (ind g) (ind p)) = 2 * INR m).
    { intros g p. rewrite SP. unfold cell4. rewrite !filter_filter_and.
      change 1 with (ind true). change 0 with (ind false). fold (cell8 rows (fun i => oR (bG i)) (fun i => oR (bP i)) (fun i => oR (bT i)) (ind g) (ind p) (ind true)).
      fold (cell8 rows (fun i => oR (bG i)) (fun i => oR (bP i)) (fun i => oR (bT i)) (ind g) (ind p) (ind false)). rewrite !L8. ring. }
    assert (LT : forall t, len (part rows (fun i => oR (bT i)) (ind t)) = 4 * INR m).
    { intros t. assert (X : part rows (fun i => oR (bT i)) (ind t) = map mk (list_prod (filter (fun c => Bool.eqb (snd c) t) ddd_cells) (seq 0 m))).
      { unfold part, rows. rewrite filter_map_comm. f_equal. rewrite <- (filter_id (fun _ : nat => true) (seq 0 m)) at 2 by reflexivity. rewrite <- filter_prod. apply filter_ext.
        intros [[[g p] t'] j]. cbn [fst snd oR]. rewrite Reqb_ind, andb_true_r. destruct (Mg g p t' j) as (_ & _ & ->). reflexivity. }
      rewrite X. unfold len. rewrite map_length, prod_length, seq_length, mult_INR. destruct t; simpl; ring. }
    assert (B : forall x, x = 0 \/ x = 1 -> exists b, x = ind b) by (intros x [->| ->]; [exists false|exists true]; reflexivity).
    rewrite (dr_fit_balanced keq qr lstsq inv pinv sf ppf logit cfg cl rows (fun i => Some (dr_y i)) bG bP bT r Hd); [f_equal; exact V| | |exact Hfit].
    + intros g p Hg Hp. destruct (B g Hg) as (g' & ->). destruct (B p Hp) as (p' & ->). rewrite L4, LR. replace (2 * INR m / (8 * INR m)) with (1/4) by (field; exact M0). lra.
    + intros g p t Hg Hp Ht'. destruct (B g Hg) as (g' & ->). destruct (B p Hp) as (p' & ->). destruct (B t Ht') as (t' & ->). rewrite L8, L4, LT, LR. field. exact M0.
Qed.
End Ddd.

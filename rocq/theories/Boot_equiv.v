(* The wild cluster bootstrap under changes of the outcome that leave the tested hypothesis alone, row order and cluster names. *)
From Verif Require Import Prelude Flt Stats_model Stats_proofs Linalg_model Linalg_proofs Linalg_vcov Linalg_thms Linalg_dual Did_model Did_spec Did_proofs
  Did_equiv Did_more Boot_model Boot_proofs Boot_more Scale_flt Reg_equiv.
From Coq Require Import Arith ZArith String List Lia Lra Permutation Sorting.Sorted.
Import ListNotations.
Open Scope R_scope.

(* ---------- percentiles of the negated sample ---------- *)
Lemma int_part_unique v k : IZR k <= v < IZR k + 1 -> Int_part v = k.
Proof.
  intros H. pose proof (int_part_spec v). assert (Int_part v < k + 1)%Z by (apply lt_IZR; rewrite plus_IZR; lra).
  assert (k < Int_part v + 1)%Z by (apply lt_IZR; rewrite plus_IZR; lra). lia.
Qed.
Lemma interp_at (s : list R) k f : 0 <= f <= 1 -> (S k < length s)%nat ->
  interp s (INR k + f) = nth k s 0 + (nth (S k) s 0 - nth k s 0) * f.
Proof.
  intros Hf Hk. unfold interp. destruct (Req_dec f 1) as [->|N].
  - assert (E : Int_part (INR k + 1) = Z.of_nat (S k)).
    { apply int_part_unique. rewrite <- INR_IZR_INZ, S_INR. lra. }
    assert (F : frac_part (INR k + 1) = 0) by (unfold frac_part; rewrite E, <- INR_IZR_INZ, S_INR; ring).
    rewrite E, F, Nat2Z.id. ring.
  - assert (E : Int_part (INR k + f) = Z.of_nat k) by (apply int_part_unique; rewrite <- INR_IZR_INZ; lra).
    assert (F : frac_part (INR k + f) = f) by (unfold frac_part; rewrite E, <- INR_IZR_INZ; ring).
    rewrite E, F, Nat2Z.id. rewrite Nat.min_l by lia. reflexivity.
Qed.
Lemma interp_int (s : list R) k : interp s (INR k) = nth k s 0.
Proof.
  unfold interp. assert (E : Int_part (INR k) = Z.of_nat k) by (apply int_part_unique; rewrite <- INR_IZR_INZ; lra).
  assert (F : frac_part (INR k) = 0) by (unfold frac_part; rewrite E, <- INR_IZR_INZ; ring). rewrite E, F, Nat2Z.id. ring.
Qed.
Lemma rsort_opp l : rsort (map Ropp l) = rev (map Ropp (rsort l)).
Proof.
  apply sorted_unique; [apply rsort_sorted| |].
  - pose proof (rsort_sorted l) as S. induction S as [|x a S IH Hf]; [constructor|]. cbn [map rev].
    assert (G : forall b, StronglySorted Rle b -> (forall z, In z b -> z <= - x) -> StronglySorted Rle (b ++ [- x])).
    { clear. induction b as [|z b IH]; intros Hs H; cbn; [repeat constructor|]. inversion Hs; subst. constructor.
      - apply IH; auto. intros; apply H; right; auto.
      - apply Forall_app. split; [assumption|]. constructor; [|constructor]. apply H. left. reflexivity. }
    apply G; [exact IH|]. intros z Hz. apply in_rev in Hz. apply in_map_iff in Hz as (y & <- & Hy). rewrite Forall_forall in Hf. specialize (Hf y Hy). lra.
  - eapply perm_trans; [apply rsort_perm|]. eapply perm_trans; [|apply Permutation_rev]. apply Permutation_map, Permutation_sym, rsort_perm.
Qed.
Lemma nth_opp s k : (k < length s)%nat -> nth k (rev (map Ropp s)) 0 = - nth (length s - 1 - k) s 0.
Proof.
  intros H. rewrite rev_nth by (rewrite map_length; exact H). rewrite map_length. replace 0 with (- 0) at 1 by ring. rewrite map_nth.
  f_equal. f_equal. lia.
Qed.
Theorem percentile_opp l q : l <> [] -> 0 <= q <= 1 -> percentile (map Ropp l) q = - percentile l (1 - q).
Proof.
  intros Hne Hq. rewrite !percentile_interp, rsort_opp, rev_length, map_length.
  pose proof (ridx l q Hne Hq) as Hv. set (s := rsort l) in *. assert (Hs : s <> []) by (apply rsort_ne; exact Hne).
  assert (Hl : (0 < length s)%nat) by (destruct s; [congruence|cbn; lia]).
  set (v := q * (INR (length s) - 1)) in *.
  assert (Ew : (1 - q) * (INR (length s) - 1) = INR (length s - 1) - v) by (unfold v; rewrite minus_INR by lia; simpl; ring). rewrite Ew.
  destruct (frac_spec v) as [Ev Hf]. destruct (idx_bound (length s - 1) v) as [Hk Ek]; [rewrite minus_INR by lia; simpl; lra|].
  set (k := Z.to_nat (Int_part v)) in *. set (f := frac_part v) in *.
  assert (Ev' : v = INR k + f) by lra. rewrite Ev'.
  destruct (Req_dec f 0) as [F0|F0].
  - rewrite F0, Rplus_0_r. replace (INR (length s - 1) - INR k) with (INR (length s - 1 - k)) by (rewrite minus_INR by lia; reflexivity).
    rewrite !interp_int. apply nth_opp. lia.
  - assert (HS : (S k < length s)%nat).
    { assert (INR k < INR (length s - 1)); [|apply INR_lt in H; lia]. rewrite (minus_INR (length s) 1) by lia. simpl (INR 1). lra. }
    replace (INR (length s - 1) - (INR k + f)) with (INR (length s - 2 - k) + (1 - f))
      by (replace (length s - 1)%nat with (S k + (length s - 2 - k))%nat by lia; rewrite plus_INR, S_INR; ring).
    rewrite interp_at; [|lra|rewrite rev_length, map_length; lia].
    rewrite interp_at by (try lra; lia).
    rewrite !nth_opp by lia. replace (length s - 1 - S k)%nat with (length s - 2 - k)%nat by lia.
    replace (length s - 1 - k)%nat with (S (length s - 2 - k)) by lia. ring.
Qed.
Lemma percentile_scale l s q : l <> [] -> 0 <= q <= 1 -> s <> 0 ->
  percentile (map (Rmult s) l) q = s * percentile l (if Rlt_dec 0 s then q else 1 - q).
Proof.
  intros Hl Hq Hs. destruct (Rlt_dec 0 s) as [P|P]; [apply percentile_sc; auto|].
  rewrite (map_ext (Rmult s) (fun x => - (- s * x))) by (intros; ring). rewrite <- (map_map (Rmult (- s)) Ropp).
  rewrite percentile_opp; [|destruct l; [congruence|discriminate]|exact Hq]. rewrite percentile_sc by (auto; lra). ring.
Qed.
Lemma std_scale s l : std 1 (map (Rmult s) l) = Rabs s * std 1 l.
Proof.
  unfold std, variance. unfold sumsq_dev at 1, len. rewrite map_length.
  assert (E : sumf (fun x => (x - meanf idR (map (Rmult s) l)) * (x - meanf idR (map (Rmult s) l))) (map (Rmult s) l) = s * s * sumsq_dev l).
  { rewrite sumf_map. unfold sumsq_dev. rewrite <- sumf_scal. apply sumf_ext_all. intros x.
    assert (M : meanf idR (map (Rmult s) l) = s * meanf idR l) by (unfold meanf, len; rewrite sumf_map, map_length; unfold idR; rewrite sumf_scal; unfold Rdiv; ring).
    rewrite M. ring. }
  rewrite E. unfold Rdiv. rewrite Rmult_assoc. rewrite sqrt_mult_alt by apply Rle_0_sqr. f_equal. exact (sqrt_Rsqr_abs s).
Qed.

Section Wild.
Context {I K : Type} (eqd : forall x y : K, {x = y} + {x <> y}).
Variable qr : list I -> list (I -> R) -> list nat.
Variable lstsq : list I -> list (I -> R) -> (I -> R) -> list R.
Variable inv : list I -> list (I -> R) -> option (nat -> nat -> R).
Hypothesis Hqr : qr_ok qr.
Hypothesis Hls : lstsq_ok lstsq.
Hypothesis Hinv : inv_ok inv.
Notation wb := (wild_bootstrap eqd qr lstsq inv).
Notation rvcov := (robust_vcov eqd inv).

Definition tstat (j : nat) (null : R) (bV : list R * (nat -> nat -> R)) : R :=
  if Rltb 0 (snd bV j j) then (nth j (fst bV) 0 - null) / sqrt (snd bV j j) else 0.
Lemma wild_full rows cols y cl j wt null alpha ws r :
  wb rows cols y cl j wt null alpha ws = Ok r ->
  exists bh V0 l, ws <> [] /\ indep rows cols /\ (j < length cols)%nat /\ is_ls rows cols y bh /\
    rvcov rows cols (fun i => y i - lc cols bh i) (Some cl) = Ok V0 /\ 
    w_t r = fdiv (Fin (nth j bh 0 - null)) (Fin (sqrt (V0 j j))) /\
    Forall2 (fun w bV => is_ls rows cols (wild_y cols y cl j null bh w) (fst bV) /\
               rvcov rows cols (fun i => wild_y cols y cl j null bh w i - lc cols (fst bV) i) (Some cl) = Ok (snd bV)) ws l /\
    w_coefs r = map (fun bV => nth j (fst bV) 0) l /\
    w_p r = Rmax (share (fun bV => fge (Fin (Rabs (tstat j null bV))) (fabs (w_t r))) l) (1 / (len ws + 1)) /\
    w_ci r = (percentile (w_coefs r) (alpha / 2), percentile (w_coefs r) (1 - alpha / 2)) /\
    w_se r = (if Nat.eqb (length ws) 1 then NaN else Fin (std 1 (w_coefs r))) /\
    w_nboot r = length ws /\ w_nclusters r = length (cl_keys eqd rows cl).
Proof.
  intros H. destruct (wild_p_exact eqd qr lstsq inv Hqr Hls Hinv _ _ _ _ _ _ _ _ _ _ H) as (bh & V0 & ts & Hb & HV & Ht & HF & Hp).
  destruct (wild_ls eqd qr lstsq inv Hqr Hls _ _ _ _ _ _ _ _ _ _ H) as (bh' & bs & Hind & Hj & Hb' & HF' & Hc).
  assert (bh' = bh) by (eapply ls_coef_unique; eauto). subst bh'.
  destruct (wild_inv eqd qr lstsq inv _ _ _ _ _ _ _ _ _ _ H) as (Hw & _ & _ & ? & ? & ? & _ & _ & _ & _ & _ & _ & _ & Hci & Hse & Hn & Hg).
  assert (X : exists l, Forall2 (fun w bV => is_ls rows cols (wild_y cols y cl j null bh w) (fst bV) /\
               rvcov rows cols (fun i => wild_y cols y cl j null bh w i - lc cols (fst bV) i) (Some cl) = Ok (snd bV)) ws l /\
             map (fun b => nth j b 0) bs = map (fun bV => nth j (fst bV) 0) l /\ ts = map (tstat j null) l).
  { clear - HF HF' Hind. revert bs HF'. induction HF as [|w t ws ts Hw HF IH]; intros bs HF'; inversion HF' as [|? b ? bs' Hb HF'']; subst.
    - exists []. repeat split; constructor.
    - destruct (IH bs' HF'') as (l & L1 & L2 & L3). destruct Hw as (b0 & V & Hl & HV & Et).
      assert (E : b0 = b) by (eapply ls_coef_unique; eauto). subst b0. exists ((b, V) :: l). split; [constructor; [split; auto|exact L1]|].
      cbn [map fst]. rewrite L2, L3. split; [reflexivity|]. f_equal. rewrite Et. reflexivity. }
  destruct X as (l & L1 & L2 & L3). exists bh, V0, l. repeat (split; [first [assumption|rewrite Hc; exact L2]|]).
  split; [|auto]. rewrite Hp, L3. unfold share, meanf, len. rewrite sumf_map, map_length. reflexivity.
Qed.

(* two runs whose fits correspond report corresponding results *)
Lemma abs_t s x v : s <> 0 -> 0 <= v -> fdiv (Fin (s * x)) (Fin (sqrt (s * s * v))) = if Rlt_dec 0 s then fdiv (Fin x) (Fin (sqrt v)) else fneg (fdiv (Fin x) (Fin (sqrt v))).
Proof.
  intros Hs Hv. assert (E : sqrt (s * s * v) = Rabs s * sqrt v).
  { rewrite sqrt_mult_alt by apply Rle_0_sqr. f_equal. exact (sqrt_Rsqr_abs s). }
  rewrite E. pose proof (Rabs_pos_lt s Hs). cbn [fdiv]. destruct (Req_EM_T (sqrt v) 0) as [Z|N].
  - rewrite Z, Rmult_0_r. destruct (Req_EM_T 0 0) as [_|]; [|congruence]. unfold fsgn_inf.
    destruct (Rlt_dec 0 s); repeat (destruct (Rlt_dec _ _)); cbn; try reflexivity; exfalso; nra.
  - destruct (Req_EM_T (Rabs s * sqrt v) 0) as [Z|_]; [apply Rmult_integral in Z; lra|].
    destruct (Rlt_dec 0 s) as [P|P]; cbn [fneg]; f_equal.
    + rewrite Rabs_pos_eq by lra. field. split; assumption.
    + rewrite Rabs_left by lra. field. split; [assumption|lra].
Qed.
Lemma fabs_neg x : fabs (fneg x) = fabs x.
Proof. destruct x; cbn; auto. rewrite Rabs_Ropp. reflexivity. Qed.
Lemma tstat_scale j s null bV bV' : s <> 0 -> nth j (fst bV') 0 = s * nth j (fst bV) 0 -> snd bV' j j = s * s * snd bV j j ->
  Rabs (tstat j (s * null) bV') = Rabs (tstat j null bV).
Proof.
  intros Hs E1 E2. unfold tstat. rewrite E1, E2. assert (P : 0 < s * s) by nra.
  destruct (Rltb 0 (snd bV j j)) eqn:L.
  - apply Rltb_true in L. rewrite (proj2 (Rltb_true _ _)) by nra.
    rewrite sqrt_mult_alt by lra. change (s * s) with (Rsqr s). rewrite sqrt_Rsqr_abs.
    assert (0 < sqrt (snd bV j j)) by (apply sqrt_lt_R0; lra). pose proof (Rabs_pos_lt s Hs).
    replace ((s * nth j (fst bV) 0 - s * null) / (Rabs s * sqrt (snd bV j j))) with (s / Rabs s * ((nth j (fst bV) 0 - null) / sqrt (snd bV j j))) by (field; lra).
    rewrite Rabs_mult. unfold Rdiv at 1. rewrite Rabs_mult, Rabs_inv, Rabs_Rabsolu, Rinv_r by lra. ring.
  - apply Rltb_false in L. rewrite (proj2 (Rltb_false _ _)) by nra. reflexivity.
Qed.

(* multiplying the outcome by s and adding any combination of the other regressors, with the null multiplied by s *)
Theorem wild_affine rows cols y y' cl j wt null alpha ws s g r r' :
  s <> 0 -> 0 <= alpha <= 1 -> length g = length cols -> nth j g 0 = 0 ->
  (forall i, In i rows -> y' i = s * y i + lc cols g i) ->
  wb rows cols y cl j wt null alpha ws = Ok r -> wb rows cols y' cl j wt (s * null) alpha ws = Ok r' ->
  w_p r' = w_p r /\
  w_t r' = (if Rlt_dec 0 s then w_t r else fneg (w_t r)) /\
  w_coefs r' = map (Rmult s) (w_coefs r) /\
  w_se r' = fmul (Fin (Rabs s)) (w_se r) /\
  w_ci r' = (if Rlt_dec 0 s then (s * fst (w_ci r), s * snd (w_ci r)) else (s * snd (w_ci r), s * fst (w_ci r))) /\
  w_nclusters r' = w_nclusters r /\ w_nboot r' = w_nboot r.
Proof.
  intros Hs Ha Lg Gj Hy H H'.
  destruct (wild_full _ _ _ _ _ _ _ _ _ _ H) as (bh & V0 & l & Hne & Hind & Hj & Hb & HV & Ht & HF & Hc & Hp & Hci & Hse & Hn & Hg).
  destruct (wild_full _ _ _ _ _ _ _ _ _ _ H') as (bh' & V0' & l' & _ & _ & _ & Hb' & HV' & Ht' & HF' & Hc' & Hp' & Hci' & Hse' & Hn' & Hg').
  assert (Eb : bh' = vadd (vscal s bh) g).
  { eapply ls_coef_unique; [exact Hind|exact Hb'|]. eapply ls_ext; [|apply ls_add; [apply ls_scal; exact Hb|apply (ls_exact rows cols (lc cols g) g); auto]].
    intros i Hi. rewrite Hy by exact Hi. reflexivity. }
  assert (Lb := proj1 Hb).
  assert (Llc : forall i, lc cols bh' i = s * lc cols bh i + lc cols g i) by (intros i; rewrite Eb, lc_vadd, lc_vscal by (rewrite ?vscal_length; lia); reflexivity).
  assert (Ej : nth j bh' 0 = s * nth j bh 0) by (rewrite Eb, vadd_nth, vscal_nth by (rewrite ?vscal_length; lia); rewrite Gj; ring).
  assert (SC : forall e e' V V', (forall i, In i rows -> e' i = s * e i) -> rvcov rows cols e (Some cl) = Ok V -> rvcov rows cols e' (Some cl) = Ok V' -> V' j j = s * s * V j j).
  { intros e e' V V' He E1 E2.
    destruct (rvcov rows cols (fun i => s * e i) (Some cl)) as [W|] eqn:E3.
    - rewrite (robust_vcov_resid_ext eqd inv Hinv rows cols _ _ _ _ _ He E2 E3 j j Hj Hj).
      exact (robust_vcov_scale eqd inv Hinv rows cols e s (Some cl) V W E1 E3 j j Hj Hj).
    - pose proof (robust_vcov_defined eqd inv rows cols e (fun i => s * e i) (Some cl)) as D. rewrite E1, E3 in D. discriminate. }
  assert (EV : V0' j j = s * s * V0 j j).
  { refine (SC _ _ _ _ _ HV HV'). intros i Hi. rewrite Hy, Llc by exact Hi. ring. }
  assert (PV : 0 <= V0 j j).
  { destruct (solve_ols eqd qr lstsq inv rows cols y (Some cl) true "warn") as [o|] eqn:Eo.
    - destruct (solve_full_vcov eqd qr lstsq inv Hqr Hls Hinv _ _ _ _ _ _ _ Hind Hj Eo) as (b & V & Hb1 & _ & HV1 & _ & P).
      assert (b = bh) by (eapply ls_coef_unique; eauto). subst b. rewrite HV in HV1. injection HV1 as <-. exact P.
    - unfold wild_bootstrap in H. destruct (negb _); [discriminate|]. destruct (Nat.ltb _ 2); [discriminate|]. rewrite Eo in H. discriminate. }
  assert (FL : Forall2 (fun bV bV' => nth j (fst bV') 0 = s * nth j (fst bV) 0 /\ snd bV' j j = s * s * snd bV j j) l l').
  { clear Hc Hc' Hp Hp' Hne Hse Hse' Hn Hn' H H'. revert l' HF'. induction HF as [|w bV ws l Hw HF IH]; intros l' HF'; inversion HF' as [|? bV' ? l2 Hw' HF2]; subst; constructor.
    - destruct Hw as [B1 B2]. destruct Hw' as [B1' B2']. 
      set (gg := vadd g (vscal 0 (unitv (length cols) j))).
      assert (E : fst bV' = vadd (vscal s (fst bV)) g).
      { eapply ls_coef_unique; [exact Hind|exact B1'|]. eapply ls_ext; [|apply ls_add; [apply ls_scal; exact B1|apply (ls_exact rows cols (lc cols g) g); auto]].
        intros i Hi. cbv beta. unfold wild_y. rewrite Llc, Hy by exact Hi. ring. }
      assert (L1 := proj1 B1). split.
      + rewrite E, vadd_nth, vscal_nth by (rewrite ?vscal_length; lia). rewrite Gj. ring.
      + refine (SC _ _ _ _ _ B2 B2'). intros i Hi. rewrite E, lc_vadd, lc_vscal by (rewrite ?vscal_length; lia). unfold wild_y. rewrite Llc, Hy by exact Hi. ring.
    - apply IH. exact HF2. }
  assert (Et : w_t r' = if Rlt_dec 0 s then w_t r else fneg (w_t r)).
  { rewrite Ht', Ht, EV, Ej. replace (s * nth j bh 0 - s * null) with (s * (nth j bh 0 - null)) by ring. apply abs_t; assumption. }
  assert (Ec : w_coefs r' = map (Rmult s) (w_coefs r)).
  { rewrite Hc, Hc', map_map. clear -FL. induction FL as [|a b l l' [E _] F IH]; [reflexivity|]. cbn. rewrite IH, E. reflexivity. }
  assert (Nc : w_coefs r <> []).
  { rewrite Hc. destruct HF; [congruence|discriminate]. }
  split.
  { rewrite Hp, Hp'. f_equal. unfold share, meanf, len. 
    assert (EA : fabs (w_t r') = fabs (w_t r)) by (rewrite Et; destruct (Rlt_dec 0 s); [reflexivity|apply fabs_neg]). rewrite EA.
    assert (EL : length l' = length l) by (symmetry; apply (Forall2_len _ _ _ FL)). rewrite EL. f_equal.
    clear -FL Hs. induction FL as [|a b l l' [E1 E2] F IH]; [reflexivity|]. cbn [sumf]. rewrite IH, (tstat_scale j s null a b Hs E1 E2). reflexivity. }
  split; [exact Et|]. split; [exact Ec|]. split.
  { rewrite Hse, Hse', Ec, std_scale. destruct (Nat.eqb (length ws) 1); reflexivity. }
  split; [|split; congruence].
  rewrite Hci, Hci', Ec. cbn [fst snd]. rewrite !percentile_scale by (auto; lra). destruct (Rlt_dec 0 s); [reflexivity|].
  f_equal; f_equal; f_equal; lra.
Qed.

(* row order *)
Theorem wild_row_order r1 r2 cols y cl j wt null alpha ws a b : Permutation r1 r2 ->
  wb r1 cols y cl j wt null alpha ws = Ok a -> wb r2 cols y cl j wt null alpha ws = Ok b ->
  w_p b = w_p a /\ w_t b = w_t a /\ w_coefs b = w_coefs a /\ w_se b = w_se a /\ w_ci b = w_ci a /\ w_nclusters b = w_nclusters a /\ w_nboot b = w_nboot a.
Proof.
  intros P H H'.
  destruct (wild_full _ _ _ _ _ _ _ _ _ _ H) as (bh & V0 & l & Hne & Hind & Hj & Hb & HV & Ht & HF & Hc & Hp & Hci & Hse & Hn & Hg).
  destruct (wild_full _ _ _ _ _ _ _ _ _ _ H') as (bh' & V0' & l' & _ & Hind' & _ & Hb' & HV' & Ht' & HF' & Hc' & Hp' & Hci' & Hse' & Hn' & Hg').
  assert (Eb : bh' = bh) by (eapply ls_coef_unique; [exact Hind'|exact Hb'|eapply ls_perm; [exact P|exact Hb]]). subst bh'.
  assert (EV : V0' j j = V0 j j) by (symmetry; exact (robust_vcov_perm eqd inv Hinv r1 r2 cols _ _ _ _ P HV HV' j j Hj Hj)).
  assert (FL : Forall2 (fun bV bV' => fst bV' = fst bV /\ snd bV' j j = snd bV j j) l l').
  { clear Hc Hc' Hp Hp' Hne Hse Hse' Hn Hn' H H'. revert l' HF'. induction HF as [|w bV ws l Hw HF IH]; intros l' HF'; inversion HF' as [|? bV' ? l2 Hw' HF2]; subst; constructor.
    - destruct Hw as [B1 B2]. destruct Hw' as [B1' B2'].
      assert (E : fst bV' = fst bV) by (eapply ls_coef_unique; [exact Hind'|exact B1'|eapply ls_perm; [exact P|exact B1]]).
      split; [exact E|]. rewrite E in B2'. symmetry. exact (robust_vcov_perm eqd inv Hinv r1 r2 cols _ _ _ _ P B2 B2' j j Hj Hj).
    - apply IH. exact HF2. }
  assert (Et : w_t b = w_t a) by (rewrite Ht', Ht, EV; reflexivity).
  assert (Ec : w_coefs b = w_coefs a).
  { rewrite Hc, Hc'. clear -FL. induction FL as [|x z l l' [E _] F IH]; [reflexivity|]. cbn. rewrite IH, E. reflexivity. }
  split.
  { rewrite Hp, Hp', Et. f_equal. unfold share, meanf, len. rewrite <- (Forall2_len _ _ _ FL). f_equal.
    clear -FL. induction FL as [|x z l l' [E1 E2] F IH]; [reflexivity|]. cbn [sumf]. rewrite IH. unfold tstat. rewrite E1, E2. reflexivity. }
  split; [exact Et|]. split; [exact Ec|]. split; [rewrite Hse, Hse', Ec; reflexivity|]. split; [rewrite Hci, Hci', Ec; reflexivity|].
  split; [rewrite Hg, Hg'; symmetry; apply Permutation_length, cl_keys_perm; exact P|congruence].
Qed.
(* the same hypothesis stated on the outcome minus a constant treatment effect: the observed t statistic and the replicates agree,
   the replicate t statistics are computed against a null that has moved *)
Theorem wild_same_hypothesis rows cols y y' cl j wt null alpha ws d r r' :
  (forall i, In i rows -> y' i = y i + d * colx cols j i) ->
  wb rows cols y cl j wt null alpha ws = Ok r -> wb rows cols y' cl j wt (null + d) alpha ws = Ok r' ->
  exists l, Forall2 (fun c bV => c = nth j (fst bV) 0) (w_coefs r) l /\
  w_t r' = w_t r /\ w_coefs r' = w_coefs r /\
  w_p r = Rmax (share (fun bV => fge (Fin (Rabs (tstat j null bV))) (fabs (w_t r))) l) (1 / (len ws + 1)) /\
  w_p r' = Rmax (share (fun bV => fge (Fin (Rabs (tstat j (null + d) bV))) (fabs (w_t r))) l) (1 / (len ws + 1)).
Proof.
  intros Hy H H'.
  destruct (wild_full _ _ _ _ _ _ _ _ _ _ H) as (bh & V0 & l & Hne & Hind & Hj & Hb & HV & Ht & HF & Hc & Hp & Hci & Hse & Hn & Hg).
  destruct (wild_full _ _ _ _ _ _ _ _ _ _ H') as (bh' & V0' & l' & _ & _ & _ & Hb' & HV' & Ht' & HF' & Hc' & Hp' & Hci' & Hse' & Hn' & Hg').
  set (g := vscal d (unitv (length cols) j)).
  assert (Lu : length (unitv (length cols) j) = length cols) by (unfold unitv; rewrite map_length, seq_length; reflexivity).
  assert (Lg : length g = length cols) by (unfold g; rewrite vscal_length; exact Lu).
  assert (Gl : forall i, lc cols g i = d * colx cols j i) by (intros i; unfold g; rewrite lc_vscal, unitv_lc by (auto; lia); reflexivity).
  assert (Gj : nth j g 0 = d) by (unfold g; rewrite vscal_nth, unitv_nth, Nat.eqb_refl by lia; ring).
  clearbody g. assert (Lb := proj1 Hb).
  assert (Eb : bh' = vadd bh g).
  { eapply ls_coef_unique; [exact Hind|exact Hb'|]. eapply ls_ext; [|apply ls_add; [exact Hb|apply (ls_exact rows cols (lc cols g) g); auto]].
    intros i Hi. rewrite Hy, Gl by exact Hi. reflexivity. }
  assert (Llc : forall i, lc cols bh' i = lc cols bh i + d * colx cols j i) by (intros i; rewrite Eb, lc_vadd, Gl by lia; reflexivity).
  assert (Ej : nth j bh' 0 = nth j bh 0 + d) by (rewrite Eb, vadd_nth, Gj by lia; reflexivity).
  assert (SC : forall e e' V V', (forall i, In i rows -> e' i = e i) -> rvcov rows cols e (Some cl) = Ok V -> rvcov rows cols e' (Some cl) = Ok V' -> V' j j = V j j).
  { intros e e' V V' He E1 E2. exact (robust_vcov_resid_ext eqd inv Hinv rows cols _ _ _ _ _ He E2 E1 j j Hj Hj). }
  assert (EV : V0' j j = V0 j j) by (refine (SC _ _ _ _ _ HV HV'); intros i Hi; rewrite Hy, Llc by exact Hi; ring).
  assert (FL : Forall2 (fun bV bV' => fst bV' = fst bV /\ snd bV' j j = snd bV j j) l l').
  { clear Gj Hc Hc' Hp Hp' Hne Hse Hse' Hn Hn' H H'. revert l' HF'. induction HF as [|w bV ws l Hw HF IH]; intros l' HF'; inversion HF' as [|? bV' ? l2 Hw' HF2]; subst; constructor.
    - destruct Hw as [B1 B2]. destruct Hw' as [B1' B2'].
      assert (EY : forall i, In i rows -> wild_y cols y' cl j (null + d) (vadd bh g) w i = wild_y cols y cl j null bh w i).
      { intros i Hi. unfold wild_y. rewrite Llc, Hy by exact Hi. ring. }
      assert (E : fst bV' = fst bV) by (eapply ls_coef_unique; [exact Hind|exact B1'|eapply ls_ext; [|exact B1]]; intros i Hi; symmetry; apply EY; exact Hi).
      split; [exact E|]. refine (SC _ _ _ _ _ B2 B2'). intros i Hi. rewrite E, EY by exact Hi. reflexivity.
    - apply IH. exact HF2. }
  assert (Et : w_t r' = w_t r) by (rewrite Ht', Ht, EV, Ej; f_equal; f_equal; ring).
  assert (Ec : w_coefs r' = w_coefs r).
  { rewrite Hc, Hc'. clear -FL. induction FL as [|x z l l' [E _] F IH]; [reflexivity|]. cbn. rewrite IH, E. reflexivity. }
  exists l. split; [rewrite Hc; clear; induction l; constructor; auto|]. split; [exact Et|]. split; [exact Ec|]. split; [exact Hp|].
  rewrite Hp', Et. f_equal. unfold share, meanf, len. rewrite <- (Forall2_len _ _ _ FL). f_equal.
  clear -FL. induction FL as [|x z l l' [E1 E2] F IH]; [reflexivity|]. cbn [sumf]. rewrite IH. unfold tstat. rewrite E1, E2. reflexivity.
Qed.
End Wild.

(* ---------- the p-value depends on where the hypothesis is centred ---------- *)
Definition wy (d : R) (i : nat) : R := fR ex_y i + d * colx wx_cols 3 i.
Definition wrun (d null : R) (ws : list (nat -> R)) : res wild :=
  wild_bootstrap Nat.eq_dec (@gs_dropped nat) (@gs nat) (@gs_inv nat) (seq 0 8) wx_cols (wy d) (fun i => i / 2)%nat 3 "rademacher" null (5/100) ws.
Lemma wrun_ok d null ws : ws <> [] -> exists r, wrun d null ws = Ok r.
Proof.
  intros H. apply wild_defined; auto using gs_dropped_ok, gs_ok, gs_inv_ok, wx_indep.
  - left; reflexivity.
  - simpl; lia.
  - vm_compute. lia.
Qed.
Definition wq (i : nat) : R := (2 * INR (i mod 2) - 1) * (2 * INR ((i / 2) mod 2) - 1) / 2.
Lemma wq_dual : dual (seq 0 8) wx_cols 3 wq.
Proof.
  split; [cbn; lia|]. split.
  - exists [1/2; -1; -1; 2]. split; [reflexivity|]. intros i Hi. apply in_seq in Hi. unfold wq, wx_cols, did_design, ex_d, ex_t.
    do 8 (destruct i as [|i]; [cbn; lra|]). lia.
  - intros j Hj. unfold ip. do 4 (destruct j as [|j]; [unfold wq, wx_cols, did_design, ex_d, ex_t; cbn; lra|]). cbn in Hj. lia.
Qed.
Lemma wy0_ls : is_ls (seq 0 8) wx_cols (wy 0) [8; 5; 12; 4].
Proof. eapply ls_ext; [|exact wx_ls]. intros i _. unfold wy. ring. Qed.
Lemma wx_V0 V : robust_vcov Nat.eq_dec (@gs_inv nat) (seq 0 8) wx_cols (fun i => wy 0 i - lc wx_cols [8; 5; 12; 4] i) (Some (fun i => i / 2)%nat) = Ok V -> 0 < V 3%nat 3%nat.
Proof.
  intros HV.
  destruct (solve_defined Nat.eq_dec (@gs_dropped nat) (@gs nat) (@gs_inv nat) gs_dropped_ok gs_inv_ok (seq 0 8) wx_cols (wy 0) (fun i => i / 2)%nat true "warn"%string)
    as (o & Ho); try exact wx_indep; try discriminate; try (cbn; lia); try (vm_compute; lia).
  destruct (solve_full_vcov Nat.eq_dec (@gs_dropped nat) (@gs nat) (@gs_inv nat) gs_dropped_ok gs_ok gs_inv_ok _ _ _ _ _ _ 3%nat wx_indep ltac:(cbn; lia) Ho)
    as (b & V' & Hb & _ & HV' & HD & _).
  assert (b = [8; 5; 12; 4]) by (eapply ls_coef_unique; [exact wx_indep|exact Hb|exact wy0_ls]). subst b.
  rewrite HV in HV'. injection HV' as <-.
  destruct (ols_dual Nat.eq_dec (@gs_dropped nat) (@gs nat) (@gs_inv nat) gs_dropped_ok gs_ok gs_inv_ok _ _ _ _ _ _ _ 3%nat wq Ho wq_dual) as (_ & HW & _ & HN).
  destruct (HW eq_refl) as (W & EW & E & _). specialize (HN eq_refl). unfold diag in HD. rewrite EW, E in HD. injection HD as HD. rewrite <- HD.
  apply Rmult_lt_0_compat.
  - unfold adj_k. change (length (cl_keys Nat.eq_dec (seq 0 8) (fun i => i / 2)%nat)) with 4%nat.
    apply lt_INR in HN. change (length (seq 0 8)) with 8%nat in *. set (k := INR (n_reported (o_coef o))) in *. clearbody k. simpl INR in *.
    apply Rmult_lt_0_compat; [lra|]. apply Rdiv_lt_0_compat; lra.
  - destruct (ols_is_ls Nat.eq_dec (@gs_dropped nat) (@gs nat) (@gs_inv nat) gs_dropped_ok gs_ok _ _ _ _ _ _ _ Ho) as [L1 L2].
    assert (EB : map nan_to_zero (o_coef o) = [8; 5; 12; 4]) by (eapply ls_coef_unique; [exact wx_indep|exact L1|exact wy0_ls]). rewrite EB in L2.
    rewrite !L2.
    match goal with |- 0 < ?a * ?a + (?b * ?b + (?c * ?c + (?d * ?d + 0))) => assert (E2 : a = 2); [|
      pose proof (Rle_0_sqr b); pose proof (Rle_0_sqr c); pose proof (Rle_0_sqr d); unfold Rsqr in *; rewrite E2; lra] end.
    unfold wq, wy, wx_cols, did_design, ex_d, ex_t, ex_y. cbn. lra.
Qed.
(* every draw keeps all residuals: the p-value of "no effect" is 1, the p-value of "effect 4" on the same data plus an effect of 4 is 1/(B+1) *)
Theorem wild_same_hypothesis_refuted B : (1 <= B)%nat -> exists r r',
  wrun 0 0 (repeat (fun _ => 1) B) = Ok r /\ wrun 4 4 (repeat (fun _ => 1) B) = Ok r' /\
  w_t r' = w_t r /\ w_coefs r' = w_coefs r /\ w_p r = 1 /\ w_p r' = 1 / (INR B + 1).
Proof.
  intros HB. set (ws := repeat (fun _ : nat => 1) B). assert (Hne : ws <> []) by (unfold ws; destruct B; [lia|discriminate]).
  destruct (wrun_ok 0 0 ws Hne) as [r Hr]. destruct (wrun_ok 4 4 ws Hne) as [r' Hr']. exists r, r'. split; [exact Hr|]. split; [exact Hr'|].
  unfold wrun in Hr, Hr'. replace 4 with (0 + 4) in Hr' at 2 by ring.
  assert (Hy : forall i, In i (seq 0 8) -> wy 4 i = wy 0 i + 4 * colx wx_cols 3 i) by (intros i _; unfold wy; ring).
  destruct (wild_same_hypothesis Nat.eq_dec (@gs_dropped nat) (@gs nat) (@gs_inv nat) gs_dropped_ok gs_ok gs_inv_ok _ _ _ _ _ _ _ _ _ _ _ _ _ Hy Hr Hr')
    as (_ & _ & Et & Ec & _). split; [exact Et|]. split; [exact Ec|]. clear Et Ec.
  assert (G : forall c null rr, (c = 0 /\ null = 0 \/ c = 4 /\ null = 4) ->
    wild_bootstrap Nat.eq_dec (@gs_dropped nat) (@gs nat) (@gs_inv nat) (seq 0 8) wx_cols (wy c) (fun i => i / 2)%nat 3 "rademacher" null (5/100) ws = Ok rr ->
    exists v, 0 < v /\ w_t rr = Fin (4 / sqrt v) /\ w_p rr = Rmax (share (fun _ : nat -> R => Rleb (4 / sqrt v) (Rabs (4 - null) / sqrt v)) ws) (1 / (len ws + 1))).
  { intros c null rr Hcn Hrr.
    destruct (wild_full Nat.eq_dec (@gs_dropped nat) (@gs nat) (@gs_inv nat) gs_dropped_ok gs_ok gs_inv_ok _ _ _ _ _ _ _ _ _ _ Hrr)
      as (bh & V0 & l & _ & Hind & Hj & Hb & HV & Ht & HF & _ & Hp & _).
    assert (LS : is_ls (seq 0 8) wx_cols (wy c) [8; 5; 12; 4 + c]).
    { replace [8; 5; 12; 4 + c] with (vadd [8; 5; 12; 4] (vscal c [0; 0; 0; 1])) by (cbn; repeat f_equal; ring).
      eapply ls_ext; [|apply ls_add; [exact wy0_ls|apply ls_scal, (ls_exact (seq 0 8) wx_cols (colx wx_cols 3) [0; 0; 0; 1]); [reflexivity|]]].
      - intros i _. unfold wy. ring.
      - intros i _. cbn. ring. }
    assert (bh = [8; 5; 12; 4 + c]) by (eapply ls_coef_unique; eauto). subst bh.
    assert (RE : forall i, In i (seq 0 8) -> wy c i - lc wx_cols [8; 5; 12; 4 + c] i = wy 0 i - lc wx_cols [8; 5; 12; 4] i).
    { intros i _. unfold wy, colx, wx_cols, did_design. cbn [lc nth app map]. ring. }
    assert (PV : 0 < V0 3%nat 3%nat).
    { destruct (robust_vcov Nat.eq_dec (@gs_inv nat) (seq 0 8) wx_cols (fun i => wy 0 i - lc wx_cols [8; 5; 12; 4] i) (Some (fun i => i / 2)%nat)) as [W|] eqn:EW.
      - rewrite (robust_vcov_resid_ext Nat.eq_dec (@gs_inv nat) gs_inv_ok (seq 0 8) wx_cols _ (fun i => wy 0 i - lc wx_cols [8; 5; 12; 4] i) _ _ _
          RE HV EW 3%nat 3%nat Hj Hj). exact (wx_V0 W EW).
      - pose proof (robust_vcov_defined Nat.eq_dec (@gs_inv nat) (seq 0 8) wx_cols (fun i => wy 0 i - lc wx_cols [8; 5; 12; 4] i)
          (fun i => wy c i - lc wx_cols [8; 5; 12; 4 + c] i) (Some (fun i => i / 2)%nat)) as D. rewrite EW, HV in D. discriminate. }
    assert (PS : 0 < sqrt (V0 3%nat 3%nat)) by (apply sqrt_lt_R0; exact PV).
    assert (Et : w_t rr = Fin (4 / sqrt (V0 3%nat 3%nat))).
    { rewrite Ht. cbn [nth fdiv]. destruct (Req_EM_T (sqrt (V0 3%nat 3%nat)) 0) as [Z|_]; [exfalso; lra|]. f_equal. f_equal. destruct Hcn as [[-> ->]|[-> ->]]; ring. }
    exists (V0 3%nat 3%nat). split; [exact PV|]. split; [exact Et|]. rewrite Hp, Et. f_equal.
    assert (FL : Forall2 (fun (_ : nat -> R) bV => Rabs (tstat 3 null bV) = Rabs (4 - null) / sqrt (V0 3%nat 3%nat)) ws l).
    { assert (W1 : forall w, In w ws -> forall k, w k = 1) by (intros w Hw k; apply repeat_spec in Hw; subst w; reflexivity).
      clear Hp Et Ht Hrr Hr Hr' HB Hne. unfold ws in *. clear ws. revert W1. generalize dependent (repeat (fun _ : nat => 1) B). intros ws HF.
      induction HF as [|w bV ws l [B1 B2] HF IH]; intros W1; constructor; [|apply IH; intros; apply W1; right; auto].
      assert (EY : forall i, wild_y wx_cols (wy c) (fun i => i / 2)%nat 3 null [8; 5; 12; 4 + c] w i = wy c i - null * colx wx_cols 3 i).
      { intros i. unfold wild_y. rewrite (W1 w (or_introl eq_refl)). ring. }
      assert (E : fst bV = [8; 5; 12; 4]).
      { eapply ls_coef_unique; [exact Hind|exact B1|]. eapply ls_ext; [|exact wy0_ls]. intros i _. rewrite EY. unfold wy. destruct Hcn as [[-> ->]|[-> ->]]; ring. }
      assert (EV : snd bV 3%nat 3%nat = V0 3%nat 3%nat).
      { refine (robust_vcov_resid_ext Nat.eq_dec (@gs_inv nat) gs_inv_ok (seq 0 8) wx_cols _ _ _ _ _ _ B2 HV 3%nat 3%nat Hj Hj).
        intros i Hi. cbv beta. rewrite EY, E. etransitivity; [|symmetry; exact (RE i Hi)]. unfold wy. destruct Hcn as [[-> ->]|[-> ->]]; ring. }
      unfold tstat. rewrite E, EV, (proj2 (Rltb_true 0 (V0 3%nat 3%nat))) by exact PV. cbn [nth]. unfold Rdiv. rewrite Rabs_mult, Rabs_inv, (Rabs_pos_eq (sqrt _)) by lra. reflexivity. }
    unfold share, meanf, len. rewrite (Forall2_len _ _ _ FL). f_equal. clear -FL PS.
    induction FL as [|w bV ws l E F IH]; [reflexivity|]. cbn [sumf]. rewrite IH, E. f_equal. f_equal. unfold fge. cbn [fabs fle].
    f_equal. apply Rabs_pos_eq. apply Rlt_le, Rdiv_lt_0_compat; lra. }
  assert (LW : len ws = INR B) by (unfold len, ws; rewrite repeat_length; reflexivity).
  assert (PB : 1 <= INR B) by (change 1 with (INR 1); apply le_INR; exact HB).
  split.
  - destruct (G 0 0 r (or_introl (conj eq_refl eq_refl)) Hr) as (v & Pv & _ & ->). assert (0 < sqrt v) by (apply sqrt_lt_R0; exact Pv).
    rewrite (proj2 (Rleb_true _ _)) by (rewrite Rabs_pos_eq by lra; rewrite Rminus_0_r; lra).
    unfold share. cbn [ind]. rewrite meanf_const by exact Hne. rewrite LW. apply Rmax_left. apply (Rmult_le_reg_r (INR B + 1)); [lra|]. unfold Rdiv. rewrite Rmult_assoc, Rinv_l by lra. lra.
  - assert (Hr2 : wild_bootstrap Nat.eq_dec (@gs_dropped nat) (@gs nat) (@gs_inv nat) (seq 0 8) wx_cols (wy 4) (fun i => i / 2)%nat 3 "rademacher" 4 (5/100) ws = Ok r')
      by (replace (0 + 4) with 4 in Hr' by ring; exact Hr').
    destruct (G 4 4 r' (or_intror (conj eq_refl eq_refl)) Hr2) as (v & Pv & _ & ->). assert (PS : 0 < sqrt v) by (apply sqrt_lt_R0; exact Pv).
    rewrite (proj2 (Rleb_false _ _)).
    + unfold share. cbn [ind]. rewrite meanf_const by exact Hne. rewrite LW. apply Rmax_right. apply Rlt_le, Rdiv_lt_0_compat; lra.
    + replace (4 - 4) with 0 by ring. rewrite Rabs_R0. unfold Rdiv. rewrite Rmult_0_l. apply Rmult_lt_0_compat; [lra|]. apply Rinv_0_lt_compat. exact PS.
Qed.

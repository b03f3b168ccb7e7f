(* Which treatment paths TROP refuses, stated on the rows (C80); unsupported results (C40); the sample-size cap (C41). *)
From Coq Require Import Reals Lra Lia.
From Verif Require Import Prelude Flt Stats_model Multi_model Multi_proofs Power_model Power_proofs Power_thms Pretrends_model Trop_model Trop_proofs Trop_thms Trop_rows Trop_sel.
From Coq Require Import Arith ZArith String List Sorted.
Import ListNotations.
Open Scope R_scope.

Lemma nth_mono l : zsorted l -> forall s t, (s <= t)%nat -> (t < length l)%nat -> (nth s l 0 <= nth t l 0)%Z.
Proof.
  induction l as [|x l IH]; intros Hs s t Hst Ht; [simpl in Ht; lia|]. destruct Hs as [H1 H2]. destruct t as [|t]; [assert (s = 0)%nat by lia; subst; lia|].
  cbn [length] in Ht. destruct s as [|s]; cbn [nth]; [apply H1, nth_In; lia|apply IH; [exact H2|lia|lia]].
Qed.
Section Rows.
Context {I : Type}.
Variables (rows : list I) (u tm : I -> Z) (d : I -> option Z).
Hypothesis Hdup : forall p x, (length (filter (fun r => (tm r =? p)%Z && (u r =? x)%Z) rows) <= 1)%nat.
Notation T := (length (t_periods rows tm)).
Notation N := (length (t_units rows u)).
Notation D := (pD rows u tm d).
Notation miss := (pmiss rows u tm d).

Lemma periods_strict s t : (s < t)%nat -> (t < T)%nat -> (nth s (t_periods rows tm) 0 < nth t (t_periods rows tm) 0)%Z.
Proof.
  intros Hst Ht. assert (L := nth_mono (t_periods rows tm) (zsort_sorted _) s t ltac:(lia) Ht).
  assert (E : nth s (t_periods rows tm) 0%Z <> nth t (t_periods rows tm) 0%Z); [|lia].
  intros E. assert (ND : NoDup (t_periods rows tm)) by (apply zsort_NoDup, NoDup_nodup). rewrite (NoDup_nth _ 0%Z) in ND. specialize (ND s t ltac:(lia) Ht E). lia.
Qed.
Lemma row_cell r : In r rows -> exists i t, (i < N)%nat /\ (t < T)%nat /\ nth i (t_units rows u) 0%Z = u r /\ nth t (t_periods rows tm) 0%Z = tm r /\ cell_row rows u tm t i = Some r.
Proof.
  intros Hr. assert (Hu : In (u r) (t_units rows u)) by (unfold t_units; rewrite zsort_In, nodup_In; apply in_map; exact Hr).
  assert (Hp : In (tm r) (t_periods rows tm)) by (unfold t_periods; rewrite zsort_In, nodup_In; apply in_map; exact Hr).
  destruct (In_nth _ _ 0%Z Hu) as (i & Hi & Ei). destruct (In_nth _ _ 0%Z Hp) as (t & Ht & Et). exists i, t. repeat (split; [assumption|]).
  unfold cell_row, at_cell. rewrite Ei, Et.
  assert (Hin : In r (filter (fun r0 => (tm r0 =? tm r)%Z && (u r0 =? u r)%Z) rows)) by (apply filter_In; split; [exact Hr|rewrite !Z.eqb_refl; reflexivity]).
  specialize (Hdup (tm r) (u r)). destruct (filter _ rows) as [|a [|b l]]; [contradiction Hin| |simpl in Hdup; lia]. destruct Hin as [->|[]]. reflexivity.
Qed.
Lemma spec_cell t i r : cell_row rows u tm t i = Some r -> In r rows /\ u r = nth i (t_units rows u) 0%Z /\ tm r = nth t (t_periods rows tm) 0%Z.
Proof.
  unfold cell_row, at_cell. destruct (filter _ rows) as [|a l] eqn:E; [discriminate|]. cbn [hd_error]. intros H. injection H as ->.
  assert (Hin : In r (r :: l)) by (left; reflexivity). rewrite <- E in Hin. apply filter_In in Hin as [Hin Hk]. apply andb_true_iff in Hk as [H1 H2]. apply Z.eqb_eq in H1, H2. auto.
Qed.
Lemma violating_rows : violating T N D miss = [] <->
  (forall r r' a b, In r rows -> In r' rows -> u r = u r' -> (tm r < tm r')%Z -> d r = Some a -> d r' = Some b -> (a <= b)%Z).
Proof.
  split.
  - intros E r r' a b Hr Hr' Eu Et Ea Eb. destruct (row_cell r Hr) as (i & s & Hi & Hs & Ni & Ns & Cr). destruct (row_cell r' Hr') as (i' & t & Hi' & Ht & Ni' & Nt & Cr').
    assert (i' = i).
    { assert (ND : NoDup (t_units rows u)) by (apply zsort_NoDup, NoDup_nodup). rewrite (NoDup_nth _ 0%Z) in ND. apply ND; [exact Hi'|exact Hi|congruence]. }
    subst i'. assert (Hst : (s < t)%nat).
    { destruct (Nat.lt_ge_cases s t) as [|L]; [assumption|]. exfalso. pose proof (nth_mono (t_periods rows tm) (zsort_sorted _) t s L Hs). lia. }
    assert (F : falls (observed_d T D miss i) = false).
    { destruct (falls (observed_d T D miss i)) eqn:F; [|reflexivity]. exfalso.
      assert (X : In i (violating T N D miss)) by (unfold violating; apply filter_In; split; [apply in_seq; lia|exact F]). rewrite E in X. exact X. }
    apply falls_sorted in F. unfold observed_d in F. rewrite sorted_pairs in F.
    specialize (F s t ltac:(lia) Hst ltac:(lia)). unfold pmiss, pD in F. rewrite Cr, Cr', Ea, Eb in F. auto.
  - intros H. destruct (violating T N D miss) as [|i l] eqn:E; [reflexivity|]. exfalso.
    assert (X : In i (violating T N D miss)) by (rewrite E; left; reflexivity). unfold violating in X. apply filter_In in X as [Hi F]. apply in_seq in Hi.
    assert (G : falls (observed_d T D miss i) = false); [|congruence]. apply falls_sorted. unfold observed_d. apply sorted_pairs.
    intros s t _ Hst Ht Ps Pt. apply negb_true_iff in Ps, Pt. unfold pmiss in Ps, Pt. unfold pD.
    destruct (cell_row rows u tm s i) as [r|] eqn:Er; [|discriminate]. destruct (cell_row rows u tm t i) as [r'|] eqn:Er'; [|discriminate].
    destruct (d r) as [a|] eqn:Ea; [|discriminate]. destruct (d r') as [b|] eqn:Eb; [|discriminate].
    destruct (spec_cell s i r Er) as (A1 & A2 & A3). destruct (spec_cell t i r' Er') as (B1 & B2 & B3).
    apply (H r r' a b A1 B1); [congruence| |exact Ea|exact Eb]. rewrite A3, B3. apply periods_strict; assumption.
Qed.
Theorem refused_paths svd sub odd sf ppf cfg y name draws :
  trop_fit_rows svd sub odd sf ppf cfg rows u tm y d name draws <> TErr ENotAbsorbing <->
  (forall r r' a b, In r rows -> In r' rows -> u r = u r' -> (tm r < tm r')%Z -> d r = Some a -> d r' = Some b -> (a <= b)%Z).
Proof.
  rewrite <- violating_rows. unfold trop_fit_rows. rewrite (proj2 (pdup_short rows u tm) Hdup). unfold trop_fit, check_panel. split.
  - intros H. destruct (violating T N D miss) as [|i l]; [reflexivity|]. exfalso. apply H. reflexivity.
  - intros E. rewrite E. cbn [length Nat.eqb negb].
    destruct (_ =? 0)%nat; [discriminate|]. destruct (_ =? 0)%nat; [discriminate|]. destruct (_ <? 2)%nat; [discriminate|].
    destruct (tune _ _ _ _ _ _ _ _) as [[[lt lu] ln] score]. discriminate.
Qed.
End Rows.
(* unit 1 is treated in period 1 and has no row in period 2: the path 1, (missing), 1 is accepted by this check *)
Theorem gap_not_refused svd sub odd sf ppf cfg y name draws :
  trop_fit_rows svd sub odd sf ppf cfg [(1, 1); (1, 3); (2, 1); (2, 2); (2, 3)]%Z fst snd y (fun r => Some (if Z.eqb (fst r) 1 then 1 else 0)%Z) name draws <> TErr ENotAbsorbing.
Proof.
  apply refused_paths.
  - intros p x. destruct (filter _ _) as [|i l] eqn:El; [simpl; lia|]. rewrite <- El.
    assert (Hi : In i (filter (fun r => (snd r =? p)%Z && (fst r =? x)%Z) [(1, 1); (1, 3); (2, 1); (2, 2); (2, 3)]%Z)) by (rewrite El; left; reflexivity).
    apply filter_In in Hi as [Hi Hk]. apply andb_true_iff in Hk as [H1 H2]. apply Z.eqb_eq in H1, H2. subst x p. clear El.
    repeat (destruct Hi as [<-|Hi]; [vm_compute; lia|]). destruct Hi.
  - intros r r' a b _ _ Eu _ Ea Eb. rewrite Eu in Ea. injection Ea as <-. injection Eb as <-. lia.
Qed.

Theorem pt_unsupported chi2_ppf ncx2_sf ncx2_cdf norm_ppf brentq minv mpinv cfg M pre : pt_fit chi2_ppf ncx2_sf ncx2_cdf norm_ppf brentq minv mpinv cfg POther M pre = Err TypeError.
Proof. reflexivity. Qed.
Theorem required_cap ppf cfg sigma n_pre n_post rho f : pa_required ppf cfg 0 sigma n_pre n_post rho f = Ok 2147483647%Z.
Proof. apply required_zero. Qed.

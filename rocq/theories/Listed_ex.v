(* A period listed twice: the fit on a concrete panel, with both choices of the dropped copy. *)
From Coq Require Import Reals Lra Lia.
From Verif Require Import Prelude Flt Linalg_model Linalg_proofs Linalg_vcov Linalg_thms Did_model Did_spec Did_proofs Multi_model Multi_proofs Multi_thms Did_more Listed_model Listed_proofs.
From Coq Require Import Arith ZArith String List.
Import ListNotations.
Open Scope R_scope.

(* a QR decomposition that, of two equal last columns, drops the very last one *)
Section Qr.
Context {I : Type}.
Definition same_on (rows : list I) (c c' : I -> R) : bool := forallb (fun i => Reqb (c i) (c' i)) rows.
Definition twins (rows : list I) (cols : list (I -> R)) : bool :=
  match rev cols with c :: c' :: _ => same_on rows c c' | _ => false end.
Definition qr_last (rows : list I) (cols : list (I -> R)) : list nat :=
  if twins rows cols then (length cols - 1)%nat :: gs_dropped rows (removelast cols) else gs_dropped rows cols.

Lemma kept_snoc n d : (forall j, In j d -> (j < n)%nat) -> kept_cols (S n) (n :: d) = kept_cols n d.
Proof.
  intros H. unfold kept_cols. replace (S n) with (n + 1)%nat by lia. rewrite seq_app, filter_app. cbn [plus seq filter existsb]. rewrite Nat.eqb_refl. cbn [orb negb].
  rewrite app_nil_r. apply filter_ext_in. intros j Hj. apply in_seq in Hj. cbn [existsb]. destruct (Nat.eqb_spec j n); [lia|reflexivity].
Qed.
Lemma colx_app1 (cs : list (I -> R)) c j : (j < length cs)%nat -> colx (cs ++ [c]) j = colx cs j.
Proof. intros H. unfold colx. now apply app_nth1. Qed.
Lemma qr_last_ok : qr_ok qr_last.
Proof.
  intros rows cols. cbv zeta. unfold qr_last. destruct (twins rows cols) eqn:T; [|exact (gs_dropped_ok rows cols)].
  unfold twins in T. destruct (rev cols) as [|c [|c' l]] eqn:Er; try discriminate.
  assert (Ec : cols = (rev l ++ [c']) ++ [c]) by (rewrite <- (rev_involutive cols), Er; reflexivity). set (cs := rev l ++ [c']) in *. rewrite Ec.
  rewrite removelast_last, app_length. cbn [length]. replace (length cs + 1 - 1)%nat with (length cs) by lia. replace (length cs + 1)%nat with (S (length cs)) by lia.
  destruct (gs_dropped_ok rows cs) as [D1 D2]. cbv zeta in D1. assert (LD : forall j, In j (gs_dropped rows cs) -> (j < length cs)%nat) by (intros j Hj; apply D1; exact Hj).
  rewrite kept_snoc by exact LD. set (kept := kept_cols (length cs) (gs_dropped rows cs)) in *.
  assert (Es : select_cols (cs ++ [c]) kept = select_cols cs kept).
  { unfold select_cols. apply map_ext_in. intros j Hj. apply colx_app1. unfold kept in Hj. apply kept_cols_lt in Hj. tauto. }
  rewrite Es. split; [|exact D2]. intros j [<-|Hj].
  - split; [lia|]. apply (span_trans rows cs); [apply (qr_ok_span rows cs _ D1)|].
    destruct (span_in rows cs c') as (b & Lb & Hb); [unfold cs; apply in_or_app; right; now left|]. exists b. split; [exact Lb|]. intros i Hi. rewrite <- Hb by exact Hi.
    unfold same_on in T. rewrite forallb_forall in T. specialize (T i Hi). apply Reqb_true in T. unfold colx. rewrite app_nth2, Nat.sub_diag by lia. cbn. exact T.
  - destruct (D1 j Hj) as [A B]. split; [lia|]. rewrite colx_app1 by exact A. exact B.
Qed.
End Qr.

(* the fit returns with the last copy dropped: no effect, no average; listed once the effect is a number *)
Section Ex.
Notation LF qr := (mp_fit_listed Nat.eq_dec Nat.eq_dec qr (@gs nat) (@gs_inv nat) toy_sf toy_ppf (exm_cfg true None) (seq 0 12)).
Lemma listed_defined qr y : qr_ok qr -> exists r, LF qr y exm_d exm_t (Some [1; 2; 2]%Z) None [] [] [] = Ok r /\ mp_post r = [1; 2; 2]%Z /\ mp_ref r = 0%Z /\
  mp_coef r = expand_coef (gs (seq 0 12) (select_cols (mp_design exm_d exm_t [0; 1; 2]%Z [1; 2; 2]%Z 0 []) (kept_cols 7 (qr (seq 0 12) (mp_design exm_d exm_t [0; 1; 2]%Z [1; 2; 2]%Z 0 [])))) y) 7
                 (kept_cols 7 (qr (seq 0 12) (mp_design exm_d exm_t [0; 1; 2]%Z [1; 2; 2]%Z 0 []))).
Proof.
  intros Hqr.
  assert (T2 : two_values (seq 0 12) (fun i => Fin (exm_d i)) = true).
  { unfold two_values. apply existsb_exists. exists 0%nat. split; [apply in_seq; lia|]. apply existsb_exists. exists 1%nat. split; [apply in_seq; lia|].
    unfold exm_d. cbn. rewrite Reqb_01. reflexivity. }
  assert (B2 : binary (seq 0 12) (fun i => Fin (exm_d i)) = true).
  { unfold binary. apply forallb_forall. intros i Hi. cbn -[exm_d]. assert (E : exm_d i = 0 \/ exm_d i = 1) by apply mod2_01. destruct E as [-> | ->]; rewrite ?Reqb_refl; auto. apply Bool.orb_true_r. }
  unfold mp_fit_listed, mp_fit. rewrite T2, B2. cbn [negb].
  change (zsort (nodup Z.eq_dec (map exm_t (seq 0 12)))) with [0; 1; 2]%Z. cbn [length Nat.ltb Nat.leb].
  change (mp_setup [0; 1; 2]%Z (Some [1; 2; 2]%Z) None) with (Ok ([0]%Z, [1; 2; 2]%Z, 0%Z)). cbn [bind absorb_loop app].
  set (cols := mp_design exm_d exm_t [0; 1; 2]%Z [1; 2; 2]%Z 0 []).
  assert (NE : qr (seq 0 12) cols <> []).
  { intros E. destruct (one_copy_dropped qr (seq 0 12) cols 5 6 Hqr) as [X|X]; [cbn; lia|cbn; lia|lia|reflexivity|rewrite E in X; destruct X|rewrite E in X; destruct X]. }
  assert (KN : Nat.eqb (length (kept_cols (length cols) (qr (seq 0 12) cols))) 0 = false).
  { apply (kept_nonzero qr (seq 0 12) cols (fun _ => 1) 0%nat Hqr); [now left|apply in_seq; lia|lra]. }
  assert (KL : (length (kept_cols (length cols) (qr (seq 0 12) cols)) <= 7)%nat).
  { unfold kept_cols. eapply Nat.le_trans; [apply filter_len_le|]. rewrite seq_length. cbn. lia. }
  destruct (Hqr (seq 0 12) cols) as [_ Hind]. cbv zeta in Hind.
  unfold solve_ols. change (length (seq 0 12)) with 12%nat. change (Nat.ltb 12 (length cols)) with false. cbv iota.
  change (parse_action (c_action (exm_cfg true None))) with (Some ActWarn). cbv iota zeta beta.
  destruct (qr (seq 0 12) cols) as [|j0 dl] eqn:Eq; [congruence|]. set (dr := j0 :: dl) in *. rewrite KN.
  set (kept := kept_cols (length cols) dr) in *. cbn [c_cluster exm_cfg]. unfold robust_vcov. change (length (seq 0 12)) with 12%nat.
  assert (Lk : length (select_cols cols kept) = length kept) by (unfold select_cols; apply map_length). rewrite Lk.
  destruct (Nat.eqb_spec 12 (length kept)) as [E|_]; [lia|].
  pose proof (gs_inv_ok (seq 0 12) (select_cols cols kept)) as HI. destruct (gs_inv (seq 0 12) (select_cols cols kept)) as [B|]; [|contradiction].
  cbn [bind o_coef o_resid o_vcov c_robust c_cluster exm_cfg negb andb]. 
  match goal with |- context [mp_average ?a ?b ?c ?dd ?e ?f ?g] => destruct (mp_average a b c dd e f g) as [[[[av se] ts] pv] ci] end. cbn [bind].
  unfold mp_read. match goal with |- context [mp_average ?a ?b ?c ?dd ?e ?f ?g] => destruct (mp_average a b c dd e f g) as [[[[av' se'] ts'] pv'] ci'] end.
  eexists. split; [reflexivity|]. cbn [mp_post mp_ref mp_coef]. split; [reflexivity|]. split; reflexivity.
Qed.

(* listed once, both effects are numbers *)
Lemma once_defined qr y : qr_ok qr -> exists r, LF qr y exm_d exm_t (Some [1; 2]%Z) None [] [] [] = Ok r /\
  map pe_period (mp_effects r) = [1; 2]%Z /\ exists a b, map pe_effect (mp_effects r) = [Fin a; Fin b] /\ mp_avg r = Fin ((a + b) / 2).
Proof.
  intros Hqr. rewrite listed_once by (intros l E; injection E as <-; repeat constructor; cbn; intuition discriminate).
  destruct (exm_fit_ok true y) as (r0 & _ & _ & E0 & Hid). rewrite E0 in Hid. clear r0 E0.
  destruct (mp_fit_defined Nat.eq_dec Nat.eq_dec qr (@gs nat) (@gs_inv nat) toy_sf toy_ppf Hqr gs_ok gs_inv_ok
     (exm_cfg true None) (seq 0 12) y exm_d exm_t (Some [1; 2]%Z) None [0]%Z [1; 2]%Z 0%Z) as (r & Hr & E1 & E2 & E3); auto.
  - intros i _. apply mod2_01.
  - replace (data_periods (seq 0 12) exm_t) with [0; 1; 2]%Z by reflexivity. cbn. lia.
  - exact Logic.I.
  - discriminate.
  - exists r. split; [exact Hr|]. destruct (effects_list Nat.eq_dec Nat.eq_dec qr (@gs nat) (@gs_inv nat) toy_sf toy_ppf _ _ _ _ _ _ _ _ _ _ _ Hr) as [EP _].
    split; [rewrite EP, E2; reflexivity|]. rewrite <- E2 in Hid.
    pose proof (mp_period_effects Nat.eq_dec Nat.eq_dec qr (@gs nat) (@gs_inv nat) toy_sf toy_ppf Hqr gs_ok _ _ _ _ _ _ _ _ _ Hr Hid) as HE. cbv zeta in HE. rewrite E2 in HE. cbn [map] in HE.
    eexists. eexists. split; [exact HE|].
    destruct (mp_avg_is_mean Nat.eq_dec Nat.eq_dec qr (@gs nat) (@gs_inv nat) toy_sf toy_ppf _ _ _ _ _ _ _ _ _ _ _ Hr) as [_ HA].
    rewrite (HA [_; _] HE). f_equal. unfold meanf, len, idR. cbn [sumf length]. cbn [INR]. lra.
Qed.

(* listed twice, the last copy dropped: no effect in that period and no average *)
Theorem listed_twice_refuted y : exists r1 r,
  LF (@qr_last nat) y exm_d exm_t (Some [1; 2]%Z) None [] [] [] = Ok r1 /\
  (exists a b, map pe_effect (mp_effects r1) = [Fin a; Fin b] /\ mp_avg r1 = Fin ((a + b) / 2)) /\
  LF (@qr_last nat) y exm_d exm_t (Some [1; 2; 2]%Z) None [] [] [] = Ok r /\
  (exists e, In e (mp_effects r) /\ pe_period e = 2%Z /\ pe_effect e = NaN) /\ mp_avg r = NaN /\ mp_avg_se r = NaN.
Proof.
  destruct (once_defined _ y qr_last_ok) as (r1 & H1 & _ & X). exists r1. destruct (listed_defined _ y qr_last_ok) as (r & H & Ep & Er & Ec).
  exists r. split; [exact H1|]. split; [exact X|]. split; [exact H|].
  destruct (listed_effects Nat.eq_dec Nat.eq_dec (@qr_last nat) (@gs nat) (@gs_inv nat) toy_sf toy_ppf _ _ _ _ _ _ _ _ _ _ _ H) as (_ & L2 & L3 & _ & L5).
  assert (H2 : In 2%Z (map pe_period (mp_effects r))) by (apply L2; rewrite Ep; cbn; tauto). apply in_map_iff in H2 as (e & Ee & He).
  assert (HN : pe_effect e = NaN).
  { destruct (L3 e He) as (j & Hj & Hn & Hl & Hv). rewrite Ep in *. cbn [length] in *. rewrite Ee in *. rewrite Er in Hv.
    assert (Ej : j = 2%nat). { specialize (Hl 2%nat ltac:(lia) eq_refl). lia. } subst j.
    rewrite Hv, Ec. change (mp_index (data_periods (seq 0 12) exm_t) 0 2) with 6%nat. set (cols := mp_design _ _ _ _ _ _).
    rewrite expand_coef_nth by lia. replace (index_of 6 (kept_cols 7 (qr_last (seq 0 12) cols))) with (@None nat); [reflexivity|].
    symmetry. apply index_of_none. intros K. apply kept_cols_lt in K as [_ K]. apply K. unfold qr_last.
    assert (T : twins (seq 0 12) cols = true). { unfold twins, cols, mp_design. cbn [map filter negb Z.eqb app rev]. unfold same_on. apply forallb_forall. intros i _. apply Reqb_refl. }
    rewrite T. now left. }
  split; [exists e; auto|]. apply L5. eauto.
Qed.
End Ex.

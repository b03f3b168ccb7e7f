(* TROP: recovery of the treatment effects under additive untreated outcomes (parallel trends). *)
From Verif Require Import Prelude Flt Stats_model Stats_proofs Linalg_model Multi_model Trop_model Trop_proofs Trop_thms Trop_conv.
From Coq Require Import Arith ZArith String List FunctionalExtensionality.
Import ListNotations.
Open Scope R_scope.

Lemma time_w_pos lt t s : 0 < time_w lt t s.
Proof. apply exp_pos. Qed.

Section Additive.
Variables (T N : nat) (Y : omat) (D : dmat) (a b : nat -> R) (eff : mat).
(* untreated outcomes are unit effect + period effect; treated outcomes add [eff] *)
Definition additive : Prop := forall t i r, (t < T)%nat -> (i < N)%nat -> Y t i = Some r ->
  (D t i = 0%Z -> r = a i + b t) /\ (D t i = 1%Z -> r = a i + b t + eff t i).
(* never-treated units observed in every period *)
Definition fullc (i : nat) : bool := forallb (fun t => (D t i =? 0)%Z && has Y t i) (seq 0 T).
Definition n_full : nat := length (filter fullc (seq 0 N)).

Lemma fullc_at i t : fullc i = true -> (t < T)%nat -> D t i = 0%Z /\ has Y t i = true.
Proof.
  unfold fullc. rewrite forallb_forall. intros H Ht. specialize (H t). rewrite andb_true_iff, Z.eqb_eq in H. apply H. apply in_seq. lia.
Qed.

Hypothesis Hadd : additive.
Lemma ysafe_additive t i : (t < T)%nat -> (i < N)%nat -> D t i = 0%Z -> has Y t i = true -> ysafe Y t i = a i + b t.
Proof.
  intros Ht Hi HD Hh. unfold has in Hh. unfold ysafe. destruct (Y t i) as [r|] eqn:E; [|easy]. now apply (Hadd t i r Ht Hi E).
Qed.

(* the pre-period distance between two units is the gap between their unit effects *)
Lemma dist_additive j i t : (i < N)%nat -> (j < N)%nat ->
  match dist_obs T Y D j i t with Some x => x = Rabs (a i - a j) | None => forall s, (s < T)%nat -> dvalid Y D j i t s = false end.
Proof.
  intros Hi Hj. unfold dist_obs. destruct (filter _ _) as [|s0 r] eqn:E.
  - intros s Hs. destruct (dvalid Y D j i t s) eqn:V; [|easy]. assert (X : In s (filter (dvalid Y D j i t) (seq 0 T))) by (apply filter_In; split; [apply in_seq; lia|easy]).
    rewrite E in X. easy.
  - rewrite (meanf_ext _ (fun _ => (a i - a j) * (a i - a j))).
    + rewrite meanf_const by easy. change ((a i - a j) * (a i - a j)) with (Rsqr (a i - a j)). apply sqrt_Rsqr_abs.
    + intros s Hs. rewrite <- E in Hs. apply filter_In in Hs. destruct Hs as [Hs V]. apply in_seq in Hs. unfold dvalid in V.
      rewrite !andb_true_iff, !Z.eqb_eq in V. destruct V as [[_ [V1 V2]] [V3 V4]].
      rewrite !ysafe_additive by (auto; lia). ring.
Qed.

Variables (lt lu A : R) (t i : nat).
Hypothesis Hlu : 0 <= lu.
Hypothesis HA : forall i j, (i < N)%nat -> (j < N)%nat -> Rabs (a i - a j) <= A.
Hypothesis Ht : (t < T)%nat.
Hypothesis Hi : (i < N)%nat.
Hypothesis HDt : D t i = 1%Z.
Hypothesis Hpre : exists s, (s < T)%nat /\ D s i = 0%Z /\ has Y s i = true.

Lemma unit_w_full j : (j < N)%nat -> fullc j = true -> exp (- lu * A) <= unit_w T Y D lu i t j.
Proof.
  intros Hj Hf. unfold unit_w. destruct (fullc_at j t Hf Ht) as [D0 H0].
  assert (HA0 : 0 <= A) by (eapply Rle_trans; [|apply (HA i i Hi Hi)]; apply Rabs_pos).
  assert (E1 : exp (- lu * A) <= 1).
  { rewrite <- exp_0. destruct (Rle_lt_or_eq_dec (- lu * A) 0) as [P|P]; [nra|left; now apply exp_increasing|rewrite P; lra]. }
  destruct (j =? i)%nat; [easy|]. rewrite D0. cbn [Z.eqb negb]. destruct (Reqb lu 0); [easy|].
  assert (X := dist_additive j i t Hi Hj). destruct (dist_obs T Y D j i t) as [x|].
  - rewrite X. assert (B := HA i j Hi Hj). destruct (Rle_lt_or_eq_dec (- lu * A) (- lu * Rabs (a i - a j))) as [P|P]; [nra|left; now apply exp_increasing|rewrite P; lra].
  - destruct Hpre as (s & Hs & Ds & Ys). specialize (X s Hs). unfold dvalid in X. destruct (fullc_at j s Hf Hs) as [D1 H1].
    rewrite Ds, D1, Ys, H1 in X. destruct (s =? t)%nat eqn:Est; [|easy]. apply Nat.eqb_eq in Est. subst s. rewrite HDt in Ds. easy.
Qed.
Lemma unit_w_le1 j : (j < N)%nat -> unit_w T Y D lu i t j <= 1.
Proof.
  intros Hj. unfold unit_w. destruct (j =? i)%nat; [lra|]. destruct (negb _); [lra|]. destruct (Reqb lu 0); [lra|].
  assert (X := dist_additive j i t Hi Hj). destruct (dist_obs T Y D j i t) as [x|]; [|lra].
  rewrite X. rewrite <- exp_0. assert (P := Rabs_pos (a i - a j)).
  destruct (Rle_lt_or_eq_dec (- lu * Rabs (a i - a j)) 0) as [Q|Q]; [nra|left; now apply exp_increasing|rewrite Q; lra].
Qed.

Variables (svd : svd_fn) (h : lam) (tol lo hi : R) (k : nat).
Hypothesis Hsvd : svd_ok svd.
Hypothesis Hfull : (0 < n_full)%nat.
Hypothesis Hb : forall s, (s < T)%nat -> lo <= b s <= hi.
Hypothesis Hoff : off T N h (hi - lo).
Hypothesis Htol : 0 <= tol.
Definition share : R := INR n_full * exp (- lu * A) / INR N.

Lemma share_range : 0 < share <= 1.
Proof.
  unfold share. assert (HN : 0 < INR N) by (apply lt_0_INR; lia). assert (Hf : 0 < INR n_full) by (apply lt_0_INR; lia).
  assert (HA0 : 0 <= A) by (eapply Rle_trans; [|apply (HA i i Hi Hi)]; apply Rabs_pos).
  assert (E1 : exp (- lu * A) <= 1).
  { rewrite <- exp_0. destruct (Rle_lt_or_eq_dec (- lu * A) 0) as [P|P]; [nra|left; now apply exp_increasing|rewrite P; lra]. }
  assert (E0 := exp_pos (- lu * A)).
  assert (L : INR n_full <= INR N).
  { apply le_INR. unfold n_full. rewrite <- (seq_length N 0) at 2. clear. induction (seq 0 N); simpl; [lia|]. destruct (fullc a); simpl; lia. }
  split.
  - apply Rmult_lt_0_compat; [|now apply Rinv_0_lt_compat]. now apply Rmult_lt_0_compat.
  - apply Rmult_le_reg_r with (INR N); [easy|]. unfold Rdiv. rewrite Rmult_assoc, Rinv_l by lra. nra.
Qed.

Theorem cell_recovers : Y t i <> None -> exists x,
  fit_at svd (Some (Y, D)) T N Y D lt lu h (S k) tol None (t, i) = Fin x /\
  Rabs (x - eff t i) <= Rmax ((1 - share) ^ k * (hi - lo)) (2 * tol / share).
Proof.
  intros HYt. unfold fit_at, tau. destruct (Y t i) as [r|] eqn:Er; [|easy]. eexists. split; [reflexivity|].
  unfold estimate. set (W := masked Y D None (obs_w (Some (Y, D)) T Y D lt lu i t)).
  assert (EW : forall s j, W s j = if mask Y D None s j then time_w lt t s * unit_w T Y D lu i t j else 0) by reflexivity.
  assert (HW : forall s j, 0 <= W s j).
  { intros s j. rewrite EW. destruct (mask Y D None s j); [|lra]. apply Rmult_le_pos; [left; apply time_w_pos|apply unit_w_nonneg]. }
  assert (Sh := share_range).
  assert (HN : 0 < INR N) by (apply lt_0_INR; lia).
  assert (Efull : forall s j, (s < T)%nat -> fullc j = true -> W s j = unit_w T Y D lu i t j * time_w lt t s).
  { intros s j Hs Hf. rewrite EW. destruct (fullc_at j s Hf Hs) as [D0 H0]. unfold mask. rewrite D0, H0. cbn. ring. }
  assert (Rfull : forall s, (s < T)%nat -> time_w lt t s * (INR n_full * exp (- lu * A)) <= sumf (fun j => W s j) (filter fullc (seq 0 N))).
  { intros s Hs. replace (time_w lt t s * (INR n_full * exp (- lu * A))) with (sumf (fun _ : nat => time_w lt t s * exp (- lu * A)) (filter fullc (seq 0 N)))
      by (rewrite sumf_const; unfold len; fold n_full; ring).
    apply sumf_le. intros j Hj. apply filter_In in Hj. destruct Hj as [Hj Hf]. apply in_seq in Hj. rewrite Efull by easy.
    assert (X := unit_w_full j ltac:(lia) Hf). assert (Z := time_w_pos lt t s). nra. }
  assert (Rall : forall s, (s < T)%nat -> sumf (fun j => W s j) (seq 0 N) <= time_w lt t s * INR N).
  { intros s Hs. replace (time_w lt t s * INR N) with (sumf (fun _ : nat => time_w lt t s) (seq 0 N)) by (rewrite sumf_const; unfold len; rewrite seq_length; ring).
    apply sumf_le. intros j Hj. apply in_seq in Hj. rewrite EW. assert (Z := time_w_pos lt t s).
    destruct (mask Y D None s j); [|lra]. assert (X := unit_w_le1 j ltac:(lia)). nra. }
  assert (Hf0 : 0 < INR n_full * exp (- lu * A)) by (apply Rmult_lt_0_compat; [apply lt_0_INR; lia|apply exp_pos]).
  assert (Sub : forall s, sumf (fun j => W s j) (filter fullc (seq 0 N)) <= sumf (fun j => W s j) (seq 0 N)).
  { intros s. generalize (seq 0 N). intros l. induction l as [|x l IH]; simpl; [lra|]. destruct (fullc x); simpl; specialize (HW s x); lra. }
  assert (M := loop_recovers svd T N W (ysafe Y) h tol a b lo hi share fullc (fun s => time_w lt t s) Hsvd HW).
  match goal with |- Rabs ?e <= _ => replace e with (miss_at a b (est_loop svd T N W (ysafe Y) h tol (S k) tzero) t i) end.
  - apply M; clear M; auto; try lia.
    + intros s j Hs Hj Hw. rewrite EW in Hw. destruct (mask Y D None s j) eqn:Em; [|easy]. apply mask_ctl in Em. now apply ysafe_additive.
    + apply sumf_pos; [intros; left; apply time_w_pos|]. exists t. split; [apply in_seq; lia|apply time_w_pos].
    + intros s. left. apply time_w_pos.
    + intros j Hj Hf. exists (unit_w T Y D lu i t j). split; [|intros; now apply Efull].
      eapply Rlt_le_trans; [apply exp_pos|apply (unit_w_full j Hj Hf)].
    + intros s Hs. eapply Rlt_le_trans; [|apply Sub]. eapply Rlt_le_trans; [|apply Rfull, Hs]. apply Rmult_lt_0_compat; [apply time_w_pos|easy].
    + intros s Hs. eapply Rle_trans; [|apply Rfull, Hs]. unfold share.
      apply Rle_trans with (INR n_full * exp (- lu * A) / INR N * (time_w lt t s * INR N)).
      * apply Rmult_le_compat_l; [|apply Rall, Hs]. left. apply Sh.
      * apply Req_le. field. lra.
    + destruct Hpre as (s & Hs & Ds & Ys). unfold colpos. apply sumf_pos; [intros; apply HW|]. exists s. split; [apply in_seq; lia|].
      rewrite EW. unfold mask. rewrite Ds, Ys. cbn. unfold unit_w. rewrite Nat.eqb_refl, Rmult_1_r. apply time_w_pos.
  - unfold miss_at. destruct (Hadd t i r Ht Hi Er) as [_ E1]. rewrite (E1 HDt). ring.
Qed.
End Additive.

(* ------------------------------------------------------------------------------------------- *)
(* the fitted average effect *)

Lemma meanf_close {X} (f g : X -> R) l B : l <> [] -> (forall x, In x l -> Rabs (f x - g x) <= B) -> Rabs (meanf f l - meanf g l) <= B.
Proof.
  intros Hl H. replace (meanf f l - meanf g l) with (meanf (fun x => f x - g x) l) by apply meanf_sub.
  apply Rabs_le. apply meanf_bounds; [easy|]. intros x Hx. specialize (H x Hx). assert (P := Rle_abs (f x - g x)). assert (Q := Rle_abs (- (f x - g x))). rewrite Rabs_Ropp in Q. lra.
Qed.

Section FitRec.
Variable svd : svd_fn.
Variable sub : nat -> nat -> list nat.
Variable odd : lam3 -> option R.
Variable sf : option Z -> fl -> fl.
Variable ppf : option Z -> R -> R.
Hypothesis Hsvd : svd_ok svd.

Theorem fit_recovers cfg T N nobs Y D miss name draws r a b eff A lo hi k :
  trop_fit svd sub odd sf ppf cfg T N nobs Y D miss name draws = TOk r ->
  additive T N Y D a b eff -> (0 < n_full T N Y D)%nat ->
  (forall t i, (t < T)%nat -> (i < N)%nat -> D t i = 1%Z -> has Y t i = true /\ exists s, (s < T)%nat /\ D s i = 0%Z /\ has Y s i = true) ->
  (forall i j, (i < N)%nat -> (j < N)%nat -> Rabs (a i - a j) <= A) -> (forall s, (s < T)%nat -> lo <= b s <= hi) ->
  tc_maxit cfg = S k -> 0 <= tc_tol cfg -> 0 <= conv_w (snd (fst (tr_lambda r))) -> off T N (Some (conv_nn (snd (tr_lambda r)))) (hi - lo) ->
  let d := INR (n_full T N Y D) * exp (- conv_w (snd (fst (tr_lambda r))) * A) / INR N in
  exists x, tr_att r = Fin x /\
    Rabs (x - meanf (fun c => eff (fst c) (snd c)) (treated_obs T N D)) <= Rmax ((1 - d) ^ k * (hi - lo)) (2 * tc_tol cfg / d).
Proof.
  unfold trop_fit. destruct (check_panel T N D miss) eqn:E; [|easy]. apply check_treated in E.
  destruct (tune svd sub odd cfg T N Y D) as [[[lt lu] ln] sc]. intros [= <-] Hadd Hf Htr HA Hb Hk Htol. cbn [tr_lambda tr_att fst snd].
  intros Hlu Hoff. set (d := INR (n_full T N Y D) * exp (- conv_w lu * A) / INR N). unfold att_of, effects. rewrite map_map. cbn [snd].
  set (F := fun c => match fit_at svd (Some (Y, D)) T N Y D (conv_w lt) (conv_w lu) (Some (conv_nn ln)) (tc_maxit cfg) (tc_tol cfg) None c with Fin x => x | _ => 0 end).
  assert (P : forall c, In c (treated_obs T N D) ->
     fit_at svd (Some (Y, D)) T N Y D (conv_w lt) (conv_w lu) (Some (conv_nn ln)) (tc_maxit cfg) (tc_tol cfg) None c = Fin (F c) /\
     Rabs (F c - eff (fst c) (snd c)) <= Rmax ((1 - d) ^ k * (hi - lo)) (2 * tc_tol cfg / d)).
  { intros [t i] Hc. apply in_treated in Hc. destruct Hc as (Ht & Hi & HD). destruct (Htr t i Ht Hi HD) as [Hh Hp].
    assert (HYn : Y t i <> None) by (unfold has in Hh; now destruct (Y t i)).
    destruct (cell_recovers T N Y D a b eff Hadd (conv_w lt) (conv_w lu) A t i Hlu HA Ht Hi HD Hp svd (Some (conv_nn ln)) (tc_tol cfg) lo hi k
      Hsvd Hf Hb Hoff Htol HYn) as (x & Ex & Bx).
    unfold F. rewrite Hk, Ex. cbn [fst snd]. split; [easy|exact Bx]. }
  exists (meanf F (treated_obs T N D)). split.
  - rewrite (map_ext_in _ (fun c => Fin (F c))) by (intros c Hc; apply P, Hc).
    rewrite <- (map_map F Fin), fmean_fin by (destruct (treated_obs T N D); easy). f_equal. rewrite meanf_map. reflexivity.
  - apply meanf_close; [easy|]. intros c Hc. apply P, Hc.
Qed.

(* no common period variation: recovered exactly whenever the tolerance is 0 or one pass is enough *)
Corollary fit_exact_flat cfg T N nobs Y D miss name draws r a b0 eff A k :
  trop_fit svd sub odd sf ppf cfg T N nobs Y D miss name draws = TOk r ->
  additive T N Y D a (fun _ => b0) eff -> (0 < n_full T N Y D)%nat ->
  (forall t i, (t < T)%nat -> (i < N)%nat -> D t i = 1%Z -> has Y t i = true /\ exists s, (s < T)%nat /\ D s i = 0%Z /\ has Y s i = true) ->
  (forall i j, (i < N)%nat -> (j < N)%nat -> Rabs (a i - a j) <= A) ->
  tc_maxit cfg = S k -> tc_tol cfg = 0 -> 0 <= conv_w (snd (fst (tr_lambda r))) -> 0 < conv_nn (snd (tr_lambda r)) ->
  tr_att r = Fin (meanf (fun c => eff (fst c) (snd c)) (treated_obs T N D)).
Proof.
  intros H Hadd Hf Htr HA Hk Htol Hlu Hln.
  destruct (fit_recovers cfg T N nobs Y D miss name draws r a (fun _ => b0) eff A b0 b0 k H Hadd Hf Htr HA ltac:(intros; lra) Hk ltac:(lra) Hlu) as (x & Ex & Bx).
  - split; [easy|]. nra.
  - rewrite Ex. f_equal. rewrite Htol in Bx.
    replace (b0 - b0) with 0 in Bx by ring. rewrite Rmult_0_r, Rmult_0_r in Bx. unfold Rdiv in Bx. rewrite Rmult_0_l, Rmax_left in Bx by lra.
    assert (Z := Rabs_pos (x - meanf (fun c => eff (fst c) (snd c)) (treated_obs T N D))).
    destruct (Req_dec (x - meanf (fun c => eff (fst c) (snd c)) (treated_obs T N D)) 0) as [Q|Q]; [lra|]. apply Rabs_pos_lt in Q. lra.
Qed.
End FitRec.

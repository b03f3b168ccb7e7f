(* TROP: unpenalised low-rank term, penalty selection, weights, inference, validation, resampling. *)
From Verif Require Import Prelude Flt Stats_model Stats_proofs Linalg_model Linalg_thms Multi_model Staggered_more Trop_model Trop_proofs Trop_thms Trop_conv Trop_rec.
From Coq Require Import Arith ZArith String List FunctionalExtensionality Sorted.
Import ListNotations.
Open Scope R_scope.

(* ------------------------------------------------------------------------------------------- *)
(* lambda_nn <= 0: one pass, and L absorbs the residuals of the control cells only *)
Definition one_pass (T N : nat) (W Yz : mat) : tstate :=
  let a := unit_mean T W Yz in
  let b := time_mean N W (fun t i => Yz t i - a i) in
  {| ta := a; tb := b; tlo := fun t i => if Rlt_dec 0 (W t i) then Yz t i - a i - b t else 0 |}.

Lemma unit_mean_self T W (f : nat -> R) : (forall i, ~ 0 < sumf (fun t => W t i) (seq 0 T) -> f i = 0) -> unit_mean T W (fun _ i => f i) = f.
Proof.
  intros H. apply functional_extensionality. intros i. unfold unit_mean. destruct (Rlt_dec _ _) as [P|P]; [|now rewrite H].
  rewrite sumf_scal_r. change (sumf (fun x => W x i) (seq 0 T)) with (sumf (fun t => W t i) (seq 0 T)). field. lra.
Qed.
Lemma time_mean_self N W (f : nat -> R) : (forall t, ~ 0 < sumf (fun i => W t i) (seq 0 N) -> f t = 0) -> time_mean N W (fun t _ => f t) = f.
Proof.
  intros H. apply functional_extensionality. intros t. unfold time_mean. destruct (Rlt_dec _ _) as [P|P]; [|now rewrite H].
  rewrite sumf_scal_r. change (sumf (W t) (seq 0 N)) with (sumf (fun i => W t i) (seq 0 N)). field. lra.
Qed.

Section NN0.
Variables (svd : svd_fn) (T N : nat) (W Yz : mat) (h tol : R).
Hypothesis HW : forall t i, 0 <= W t i.
Hypothesis Hh : h <= 0.
Lemma nn0_first : est_step svd T N W Yz (Some h) tol tzero = one_pass T N W Yz.
Proof.
  unfold est_step, one_pass. cbn [tzero tlo tb].
  assert (EA : unit_mean T W (fun t i => Yz t i - zmat t i - 0) = unit_mean T W Yz) by (apply unit_mean_cong; intros; unfold zmat; ring).
  rewrite EA.
  assert (EB : time_mean N W (fun t i => Yz t i - zmat t i - unit_mean T W Yz i) = time_mean N W (fun t i => Yz t i - unit_mean T W Yz i))
    by (apply time_mean_cong; intros; unfold zmat; ring).
  rewrite EB. f_equal. unfold nn_solve. destruct (Rle_dec h 0); [reflexivity|lra].
Qed.
Lemma nn0_fixed : est_step svd T N W Yz (Some h) tol (one_pass T N W Yz) = one_pass T N W Yz.
Proof.
  set (s := one_pass T N W Yz). unfold est_step.
  assert (EA : unit_mean T W (fun t i => Yz t i - tlo s t i - tb s t) = ta s).
  { rewrite (unit_mean_cong T W _ (fun _ i => ta s i)).
    - apply unit_mean_self. intros i Hi. unfold s, one_pass. cbn [ta]. unfold unit_mean. now destruct (Rlt_dec _ _).
    - intros t i Hw. unfold s, one_pass. cbn [ta tb tlo]. destruct (Rlt_dec 0 (W t i)) as [P|P]; [ring|]. specialize (HW t i). lra. }
  rewrite EA.
  assert (EB : time_mean N W (fun t i => Yz t i - tlo s t i - ta s i) = tb s).
  { rewrite (time_mean_cong N W _ (fun t _ => tb s t)).
    - apply time_mean_self. intros t Ht. unfold s, one_pass. cbn [tb]. unfold time_mean. now destruct (Rlt_dec _ _).
    - intros t i Hw. unfold s, one_pass. cbn [ta tb tlo]. destruct (Rlt_dec 0 (W t i)) as [P|P]; [ring|]. specialize (HW t i). lra. }
  rewrite EB. unfold nn_solve. destruct (Rle_dec h 0); [|lra].
  replace (masked_target W Yz (ta s) (tb s) (tlo s)) with (tlo s); [now destruct s|].
  apply functional_extensionality; intros t; apply functional_extensionality; intros i. unfold masked_target, s, one_pass. cbn [ta tb tlo].
  destruct (Rlt_dec 0 (W t i)); reflexivity.
Qed.
Theorem nn0_loop k : est_loop svd T N W Yz (Some h) tol (S k) tzero = one_pass T N W Yz.
Proof.
  assert (F : forall j, est_loop svd T N W Yz (Some h) tol j (one_pass T N W Yz) = one_pass T N W Yz).
  { induction j; [easy|]. cbn [est_loop]. rewrite nn0_fixed. destruct (Rltb _ _); easy. }
  cbn [est_loop]. rewrite nn0_first. destruct (Rltb _ _); [easy|apply F].
Qed.
End NN0.

(* with lambda_nn <= 0 every effect is outcome - unit mean - period mean of the once-demeaned controls,
   however many iterations are allowed *)
Theorem nn0_effect svd P T N Y D lt lu h maxit tol ex t i r : h <= 0 -> Y t i = Some r -> mask Y D ex t i = false ->
  let W := masked Y D ex (obs_w P T Y D lt lu i t) in
  fit_at svd P T N Y D lt lu (Some h) (S maxit) tol ex (t, i) =
  Fin (r - unit_mean T W (ysafe Y) i - time_mean N W (fun s j => ysafe Y s j - unit_mean T W (ysafe Y) j) t).
Proof.
  intros Hh Er Hm W. unfold fit_at, tau. rewrite Er. f_equal. unfold estimate. fold W. rewrite nn0_loop; [|intros s j; unfold W, masked|easy].
  - unfold one_pass. cbn [ta tb tlo]. destruct (Rlt_dec 0 (W t i)) as [Pp|Pp]; [|ring]. exfalso. unfold W, masked in Pp. rewrite Hm in Pp. lra.
  - destruct (mask Y D ex s j); [apply obs_w_nonneg|lra].
Qed.

(* ------------------------------------------------------------------------------------------- *)
(* penalty selection *)
Definition ole (a b : option R) : Prop := elt b a = false.
Lemma ole_refl a : ole a a.
Proof. unfold ole, elt. destruct a; [|easy]. apply Rltb_false. lra. Qed.
Lemma ole_trans a b c : ole a b -> ole b c -> ole a c.
Proof.
  unfold ole, elt. destruct a as [a|], b as [b|], c as [c|]; try easy. rewrite !Rltb_false. lra.
Qed.
Lemma elt_ole a b : elt a b = true -> ole a b.
Proof. unfold ole, elt. destruct a as [a|], b as [b|]; try easy. rewrite Rltb_true, Rltb_false. lra. Qed.
Lemma elt_false_ole a b : elt a b = false -> ole b a.
Proof. easy. Qed.

Lemma fold_search (score : lam -> option R) (grid : list lam) : forall (v0 : lam) (s0 : option R), let r := fold_left (fun (bs : lam * option R) (v : lam) => if elt (score v) (snd bs) then (v, score v) else bs) grid (v0, s0) in
  (r = (v0, s0) \/ (In (fst r) grid /\ snd r = score (fst r) /\ elt (snd r) s0 = true)) /\ ole (snd r) s0 /\ (forall v, In v grid -> ole (snd r) (score v)).
Proof.
  induction grid as [|g grid IH]; intros v0 s0; cbn [fold_left snd].
  - split; [now left|]. split; [apply ole_refl|easy].
  - destruct (elt (score g) s0) eqn:E.
    + destruct (IH g (score g)) as (A & B & C). match goal with |- context [fold_left ?f grid (g, score g)] => set (r := fold_left f grid (g, score g)) in * end. split.
      * right. destruct A as [A|(A1 & A2 & A3)]; [rewrite A; simpl; auto|]. split; [now right|]. split; [easy|].
        unfold elt in *. destruct (snd r), (score g), s0; try easy. rewrite Rltb_true in *. lra.
      * split; [eapply ole_trans; [exact B|]; now apply elt_ole|]. intros v [<-|Hv]; auto.
    + destruct (IH v0 s0) as (A & B & C). match goal with |- context [fold_left ?f grid (v0, s0)] => set (r := fold_left f grid (v0, s0)) in * end. split; [|split; [easy|]].
      * destruct A as [A|(A1 & A2 & A3)]; [now left|right; split; [now right|easy]].
      * intros v [<-|Hv]; [|auto]. eapply ole_trans; [exact B|exact E].
Qed.
(* the univariate search returns a grid value with the smallest score *)
Theorem uni_search_best score grid : grid <> [] -> let r := uni_search score grid in
  In (fst r) grid /\ (forall v, In v grid -> ole (score (fst r)) (score v)) /\ ole (snd r) (score (fst r)) /\
  (snd r <> None -> snd r = score (fst r)).
Proof.
  intros Hg. cbv zeta.
  assert (F : (uni_search score grid = (hd (Some 0) grid, None) \/ (In (fst (uni_search score grid)) grid /\ snd (uni_search score grid) = score (fst (uni_search score grid)) /\ elt (snd (uni_search score grid)) None = true))
     /\ ole (snd (uni_search score grid)) None /\ (forall v, In v grid -> ole (snd (uni_search score grid)) (score v)))
    by exact (fold_search score grid (hd (Some 0) grid) None).
  revert F. generalize (uni_search score grid). intros r (A & B & C).
  assert (Hin : In (fst r) grid).
  { destruct A as [A|A]; [rewrite A; destruct grid; [easy|now left]|apply A]. }
  split; [easy|]. split; [|split].
  - intros v Hv. destruct A as [A|(_ & A & _)].
    + rewrite A in C. cbn [snd] in C. assert (X := C v Hv). assert (Y := C (fst r) Hin). unfold ole, elt in X, Y |- *.
      destruct (score v), (score (fst r)); easy.
    + rewrite <- A. auto.
  - now apply C.
  - destruct A as [A|(_ & A & _)]; [rewrite A; easy|easy].
Qed.
Lemma uni_single score v : fst (uni_search score [v]) = v.
Proof. unfold uni_search. cbn [fold_left hd snd]. now destruct (elt (score v) None). Qed.

Section Cyc.
Variable score : lam -> lam -> lam -> option R.
Variables gt gu gn : list lam.
Hypothesis Hgt : gt <> [].
Hypothesis Hgu : gu <> [].
Hypothesis Hgn : gn <> [].
Definition sc3 (l : lam3) : option R := let '(a, b, c) := l in score a b c.
Definition in3 (l : lam3) : Prop := let '(a, b, c) := l in In a gt /\ In b gu /\ In c gn.

(* the refinement stays in the grids, never gets worse, and the last value of lambda_nn is optimal given the
   other two *)
Theorem cycling_ok k : forall prev l, in3 l ->
  in3 (cycling score gt gu gn k prev l) /\ ole (sc3 (cycling score gt gu gn k prev l)) (sc3 l) /\
  ((0 < k)%nat -> forall v, In v gn -> ole (sc3 (cycling score gt gu gn k prev l)) (score (fst (fst (cycling score gt gu gn k prev l))) (snd (fst (cycling score gt gu gn k prev l))) v)).
Proof.
  induction k as [|k IH]; intros prev [[lt lu] ln] Hin; [split; [easy|]; split; [apply ole_refl|lia]|]. cbn [cycling].
  set (lu' := fst (uni_search (fun v => score lt v ln) gu)). set (lt' := fst (uni_search (fun v => score v lu' ln) gt)).
  set (rn := uni_search (fun v => score lt' lu' v) gn).
  destruct (uni_search_best (fun v => score lt v ln) gu Hgu) as (U1 & U2 & _). fold lu' in U1, U2.
  destruct (uni_search_best (fun v => score v lu' ln) gt Hgt) as (V1 & V2 & _). fold lt' in V1, V2.
  destruct (uni_search_best (fun v => score lt' lu' v) gn Hgn) as (W1 & W2 & _). fold rn in W1, W2.
  assert (Hin' : in3 (lt', lu', fst rn)) by (simpl; auto).
  assert (Hle : ole (sc3 (lt', lu', fst rn)) (sc3 (lt, lu, ln))).
  { destruct Hin as (I1 & I2 & I3). cbn [sc3]. eapply ole_trans; [apply (W2 ln I3)|]. eapply ole_trans; [apply (V2 lt I1)|]. apply (U2 lu I2). }
  destruct (close6 (snd rn) prev).
  - split; [easy|]. split; [easy|]. intros _. cbn [sc3 fst snd]. exact W2.
  - destruct (IH (snd rn) (lt', lu', fst rn) Hin') as (A & B & C). split; [easy|]. split; [eapply ole_trans; eauto|]. intros _.
    destruct k as [|k]; [|apply C; lia]. cbn [cycling sc3 fst snd]. exact W2.
Qed.
Theorem two_stage_in : in3 (two_stage score gt gu gn).
Proof.
  unfold two_stage. apply cycling_ok. cbn [in3]. split; [|split].
  - apply (uni_search_best _ gt Hgt).
  - apply (uni_search_best _ gu Hgu).
  - apply (uni_search_best _ gn Hgn).
Qed.
End Cyc.
Lemma cycling_single score a b c k : forall prev, cycling score [a] [b] [c] k prev (a, b, c) = (a, b, c).
Proof.
  induction k; intros prev; [easy|]. cbn [cycling]. rewrite !uni_single. destruct (close6 _ _); [easy|apply IHk].
Qed.
Lemma two_stage_single score a b c : two_stage score [a] [b] [c] = (a, b, c).
Proof. unfold two_stage. rewrite !uni_single. apply cycling_single. Qed.

(* ... but it is not the best combination of the grids: coordinate search can stop at a corner *)
Definition corner (a b : lam) : option R :=
  match a, b with
  | Some x, Some y => if Reqb x y then (if Reqb x 0 then Some 1 else Some 0) else Some 2
  | _, _ => None
  end.
Definition corner3 (a b c : lam) : option R := corner a b.
Lemma Reqb_refl x : Reqb x x = true. Proof. now apply Reqb_true. Qed.
Lemma Reqb_01 : Reqb 0 1 = false. Proof. apply Reqb_false. lra. Qed.
Lemma Reqb_10 : Reqb 1 0 = false. Proof. apply Reqb_false. lra. Qed.
Lemma Rltb_t x y : x < y -> Rltb x y = true. Proof. apply Rltb_true. Qed.
Lemma Rltb_f x y : y <= x -> Rltb x y = false. Proof. apply Rltb_false. Qed.
Theorem two_stage_corner : two_stage corner3 [Some 0; Some 1] [Some 0; Some 1] [Some 0] = (Some 0, Some 0, Some 0) /\
  corner3 (Some 0) (Some 0) (Some 0) = Some 1 /\ corner3 (Some 1) (Some 1) (Some 0) = Some 0.
Proof.
  assert (U : forall f g : lam -> option R, f (Some 0) = Some 1 -> f (Some 1) = Some 2 -> fst (uni_search f [Some 0; Some 1]) = Some 0).
  { intros f g E0 E1. unfold uni_search. cbn [fold_left hd snd]. rewrite E0. cbn [elt snd]. rewrite E1. cbn [elt].
    rewrite Rltb_f by lra. reflexivity. }
  assert (C00 : forall c, corner3 (Some 0) (Some 0) c = Some 1) by (intros; unfold corner3, corner; now rewrite !Reqb_refl).
  assert (C01 : forall c, corner3 (Some 0) (Some 1) c = Some 2) by (intros; unfold corner3, corner; now rewrite Reqb_01).
  assert (C10 : forall c, corner3 (Some 1) (Some 0) c = Some 2) by (intros; unfold corner3, corner; now rewrite Reqb_10).
  split; [|split; [apply C00|]].
  - unfold two_stage. rewrite (U (fun v => corner3 v (Some 0) None) (fun _ => None)) by easy.
    rewrite (U (fun v => corner3 (Some 0) v None) (fun _ => None)) by easy. rewrite uni_single.
    assert (Cy : forall k prev, cycling corner3 [Some 0; Some 1] [Some 0; Some 1] [Some 0] k prev (Some 0, Some 0, Some 0) = (Some 0, Some 0, Some 0)).
    { induction k; intros prev; [easy|]. cbn [cycling]. rewrite (U (fun v => corner3 (Some 0) v (Some 0)) (fun _ => None)) by easy.
      rewrite (U (fun v => corner3 v (Some 0) (Some 0)) (fun _ => None)) by easy. rewrite uni_single. destruct (close6 _ _); [easy|apply IHk]. }
    apply Cy.
  - unfold corner3, corner. rewrite Reqb_refl, Reqb_10. reflexivity.
Qed.

(* the selected penalties and the reported score *)
Section TuneFacts.
Variables (svd : svd_fn) (sub : nat -> nat -> list nat) (odd : lam3 -> option R).
Theorem tune_in cfg T N Y D : tc_gt cfg <> [] -> tc_gu cfg <> [] -> tc_gn cfg <> [] ->
  in3 (tc_gt cfg) (tc_gu cfg) (tc_gn cfg) (fst (tune svd sub odd cfg T N Y D)) \/
  tune svd sub odd cfg T N Y D = ((Some 1, Some 1, Some (1/10)), NaN).
Proof.
  intros H1 H2 H3. unfold tune. destruct (final_score _ _ _ _ _); [left|now right]. cbn [fst]. now apply two_stage_in.
Qed.
(* lambda_time = inf is evaluated as 0 by the search, used as 0 by the estimate, but scored as infinite: the
   reported score is the sum of squared control outcomes, whatever the fit *)
Theorem tune_inf_score cfg T N Y D : tc_gt cfg = [None] -> loocv_obs sub (tc_maxs cfg) (control_obs T N Y D) <> [] ->
  fst (fst (fst (tune svd sub odd cfg T N Y D))) = None /\
  snd (tune svd sub odd cfg T N Y D) = Fin (sumf (fun c => ysafe Y (fst c) (snd c) * ysafe Y (fst c) (snd c)) (loocv_obs sub (tc_maxs cfg) (control_obs T N Y D))).
Proof.
  intros Hg Ho. unfold tune. set (obs := loocv_obs _ _ _) in *. rewrite Hg.
  assert (E : forall s gu gn, fst (fst (two_stage s [None] gu gn)) = None).
  { intros s gu gn. unfold two_stage. rewrite uni_single.
    assert (F : forall k prev lu ln, fst (fst (cycling s [None] gu gn k prev (None, lu, ln))) = None).
    { induction k; intros; [easy|]. cbn [cycling]. rewrite uni_single. destruct (close6 _ _); [easy|apply IHk]. }
    apply F. }
  match goal with |- context [two_stage ?s [None] ?gu ?gn] => specialize (E s gu gn); destruct (two_stage s [None] gu gn) as [[lt lu] ln] end.
  cbn [fst] in E. subst lt. cbn [final_score]. destruct obs as [|c r]; [easy|]. cbn [fst snd]. split; [easy|]. f_equal.
  apply sumf_ext_all. intros x. unfold fsq, yfl, ysafe. destruct (Y (fst x) (snd x)); [easy|ring].
Qed.
Lemma tune_single cfg T N Y D a b c : tc_gt cfg = [Some a] -> tc_gu cfg = [Some b] -> tc_gn cfg = [Some c] ->
  loocv_obs sub (tc_maxs cfg) (control_obs T N Y D) <> [] -> fst (tune svd sub odd cfg T N Y D) = (Some a, Some b, Some c).
Proof.
  intros H1 H2 H3 Ho. unfold tune. rewrite H1, H2, H3, two_stage_single. cbn [final_score]. unfold loocv_score. destruct (loocv_obs _ _ _); easy.
Qed.
End TuneFacts.

(* ------------------------------------------------------------------------------------------- *)
(* weights *)
Lemma exp_le_1 x : x <= 0 -> exp x <= 1.
Proof. intros H. rewrite <- exp_0. destruct (Rle_lt_or_eq_dec x 0 H) as [P|P]; [left; now apply exp_increasing|rewrite P; lra]. Qed.
Lemma dist_obs_nonneg T Y D j i t d : dist_obs T Y D j i t = Some d -> 0 <= d.
Proof. unfold dist_obs. destruct (filter _ _); [easy|]. intros [= <-]. apply sqrt_pos. Qed.
Theorem weights_range T Y D lt lu i t s j : 0 <= lt -> 0 <= lu -> 0 <= obs_w (Some (Y, D)) T Y D lt lu i t s j <= 1.
Proof.
  intros Hl Hu. split; [apply obs_w_nonneg|]. unfold obs_w.
  assert (A : time_w lt t s <= 1) by (apply exp_le_1; assert (P := Rabs_pos (INR t - INR s)); nra).
  assert (B : unit_w T Y D lu i t j <= 1).
  { unfold unit_w. destruct (j =? i)%nat; [lra|]. destruct (negb _); [lra|]. destruct (Reqb lu 0); [lra|].
    destruct (dist_obs T Y D j i t) as [d|] eqn:E; [|lra]. apply dist_obs_nonneg in E. apply exp_le_1. nra. }
  assert (A0 := time_w_pos lt t s). assert (B0 := unit_w_nonneg T Y D lu i t j). nra.
Qed.
(* the target cell has weight 1; a unit treated in the target period has weight 0; nearer periods weigh at least
   as much; units at a larger distance weigh at most as much *)
Theorem weights_shape T Y D lt lu i t : 0 <= lt -> 0 <= lu ->
  obs_w (Some (Y, D)) T Y D lt lu i t t i = 1 /\
  (forall s j, j <> i -> D t j <> 0%Z -> obs_w (Some (Y, D)) T Y D lt lu i t s j = 0) /\
  (forall s s' j, Rabs (INR t - INR s) <= Rabs (INR t - INR s') -> obs_w (Some (Y, D)) T Y D lt lu i t s' j <= obs_w (Some (Y, D)) T Y D lt lu i t s j) /\
  (forall s j k d d', j <> i -> k <> i -> D t j = 0%Z -> D t k = 0%Z -> dist_obs T Y D j i t = Some d -> dist_obs T Y D k i t = Some d' -> d <= d' ->
     obs_w (Some (Y, D)) T Y D lt lu i t s k <= obs_w (Some (Y, D)) T Y D lt lu i t s j).
Proof.
  intros Hl Hu. unfold obs_w. split; [|split; [|split]].
  - unfold time_w, unit_w. rewrite Nat.eqb_refl, Rminus_diag_eq, Rabs_R0, Rmult_0_r, exp_0 by easy. ring.
  - intros s j Hj HD. unfold unit_w. apply Nat.eqb_neq in Hj. rewrite Hj. apply Z.eqb_neq in HD. rewrite HD. cbn [negb]. ring.
  - intros s s' j H. apply Rmult_le_compat_r; [apply unit_w_nonneg|]. unfold time_w.
    destruct (Rle_lt_or_eq_dec (- lt * Rabs (INR t - INR s')) (- lt * Rabs (INR t - INR s))) as [P|P]; [nra|left; now apply exp_increasing|rewrite P; lra].
  - intros s j k d d' Hj Hk Dj Dk Ej Ek Hd. apply Rmult_le_compat_l; [left; apply time_w_pos|]. unfold unit_w. apply Nat.eqb_neq in Hj, Hk.
    rewrite Hj, Hk, Dj, Dk. cbn [Z.eqb negb]. destruct (Reqb lu 0); [lra|]. rewrite Ej, Ek.
    destruct (Rle_lt_or_eq_dec (- lu * d') (- lu * d)) as [P|P]; [nra|left; now apply exp_increasing|rewrite P; lra].
Qed.
(* distances: symmetric, blind to period effects common to all units and to treated outcomes *)
Definition add_time (Y : omat) (c : nat -> R) : omat := fun t i => match Y t i with Some r => Some (r + c t) | None => None end.
Theorem dist_facts T Y D j i t : dist_obs T Y D j i t = dist_obs T Y D i j t /\
  (forall c, dist_obs T (add_time Y c) D j i t = dist_obs T Y D j i t) /\ (forall e, dist_obs T (add_effect Y D e) D j i t = dist_obs T Y D j i t).
Proof.
  split; [|split].
  - unfold dist_obs. replace (dvalid Y D i j t) with (dvalid Y D j i t).
    + destruct (filter _ _); [easy|]. f_equal. f_equal. apply meanf_ext. intros. ring.
    + apply functional_extensionality. intros s. unfold dvalid. rewrite (andb_comm (D s i =? 0)%Z), (andb_comm (has Y s i)). reflexivity.
  - intros c. unfold dist_obs.
    assert (Eh : forall s i, has (add_time Y c) s i = has Y s i) by (intros s i0; unfold has, add_time; now destruct (Y s i0)).
    replace (dvalid (add_time Y c) D j i t) with (dvalid Y D j i t) by (apply functional_extensionality; intros s; unfold dvalid; now rewrite !Eh).
    destruct (filter _ _) eqn:E; [easy|]. f_equal. f_equal. apply meanf_ext. intros s Hs. rewrite <- E in Hs. apply filter_In in Hs. destruct Hs as [_ Hs].
    unfold dvalid in Hs. rewrite !andb_true_iff in Hs. destruct Hs as [_ [H1 H2]]. unfold has in H1, H2. unfold ysafe, add_time.
    destruct (Y s i), (Y s j); try easy. ring.
  - intros e. now rewrite dist_obs_add.
Qed.

(* ------------------------------------------------------------------------------------------- *)
(* inference: the p-value and the interval use different distributions *)
Section Inf.
Variables (sf : option Z -> fl -> fl) (ppf : option Z -> R -> R).
Hypothesis Hd : dist_ok sf ppf.
Theorem trop_inf_ok att se n alpha : 0 < se -> 0 < alpha < 1 ->
  let df := Some (Z.max 1 (Z.of_nat n - 1)) in
  let r := trop_inf sf ppf (Fin att) (Fin se) n alpha in
  exists p lo hi, ti_t r = Fin (att / se) /\ ti_p r = Fin p /\ ti_ci r = (Fin lo, Fin hi) /\ lo < att < hi /\
    (p < alpha <-> ppf df (1 - alpha / 2) < Rabs (att / se)) /\
    ((0 < lo \/ hi < 0) <-> ppf None (1 - alpha / 2) < Rabs (att / se)).
Proof.
  intros Hs Ha df r. unfold r, trop_inf. assert (F : flt (Fin 0) (Fin se) = true) by (simpl; now apply Rltb_true). rewrite F.
  assert (Et : fdiv (Fin att) (Fin se) = Fin (att / se)) by (unfold fdiv; destruct (Req_EM_T se 0); [lra|easy]). rewrite Et. cbn [ti_t ti_p ti_ci fabs].
  fold df. destruct (d_fin sf ppf Hd df (Rabs (att / se))) as (q & Eq & Bq). rewrite Eq.
  unfold u_ci, u_ppf. cbn [fmul fsub fadd]. set (cv := ppf None (1 - alpha / 2)).
  assert (Cv : 0 < cv) by (apply (d_pos sf ppf Hd None alpha Ha)).
  exists (2 * q), (att - cv * se), (att + cv * se). split; [easy|]. split; [easy|]. split; [easy|].
  split; [split; nra|]. split; [apply (d_dual sf ppf Hd df _ q alpha (Rabs_pos _) Eq Ha)|].
  assert (Em : Rabs (att / se) = Rabs att / se) by (unfold Rdiv; rewrite Rabs_mult, (Rabs_pos_eq (/ se)) by (left; now apply Rinv_0_lt_compat); easy).
  rewrite Em. split.
  - intros H. apply Rmult_lt_reg_r with se; [easy|]. unfold Rdiv. rewrite Rmult_assoc, Rinv_l by lra. unfold Rabs. destruct (Rcase_abs att); nra.
  - intros H. apply (Rmult_lt_compat_r se) in H; [|easy]. unfold Rdiv in H. rewrite Rmult_assoc, Rinv_l in H by lra. unfold Rabs in H. destruct (Rcase_abs att); [right|left]; nra.
Qed.
Lemma trop_inf_bad att se n alpha : flt (Fin 0) se = false ->
  trop_inf sf ppf att se n alpha = {| ti_t := NaN; ti_p := NaN; ti_ci := (NaN, NaN) |}.
Proof. intros H. unfold trop_inf. now rewrite H. Qed.
End Inf.
(* a distribution with heavier tails for finite degrees of freedom *)
Definition heavy_sf (df : option Z) (x : fl) : fl := match df with None => toy_sf None x | Some _ => toy_sf None (fdiv x (Fin 2)) end.
Definition heavy_ppf (df : option Z) (q : R) : R := match df with None => toy_ppf None q | Some _ => 2 * toy_ppf None q end.
Lemma fdiv2 x : fdiv (Fin x) (Fin 2) = Fin (x / 2).
Proof. unfold fdiv. destruct (Req_EM_T 2 0); [lra|easy]. Qed.
Lemma heavy_dist_ok : dist_ok heavy_sf heavy_ppf.
Proof.
  pose proof toy_dist_ok as T. constructor.
  - intros [d|]; [reflexivity|apply (d_nan _ _ T)].
  - intros [d|]; [|apply (d_inf _ _ T)]. unfold heavy_sf. replace (fdiv PInf (Fin 2)) with PInf; [apply (d_inf _ _ T)|].
    unfold fdiv. destruct (Rlt_dec 2 0); [lra|easy].
  - intros [d|] x; [|apply (d_fin _ _ T)]. unfold heavy_sf. rewrite fdiv2. apply (d_fin _ _ T).
  - intros [d|]; [|apply (d_zero _ _ T)]. unfold heavy_sf. rewrite fdiv2. replace (0 / 2) with 0 by field. apply (d_zero _ _ T).
  - intros [d|] x p Hx; [|now apply (d_half _ _ T)]. unfold heavy_sf. rewrite fdiv2. apply (d_half _ _ T). lra.
  - intros [d|] x p a Hx; [|now apply (d_dual _ _ T)]. unfold heavy_sf, heavy_ppf. rewrite fdiv2. intros E Ha.
    rewrite (d_dual _ _ T None (x / 2) p a ltac:(lra) E Ha). lra.
  - intros [d|] a Ha; unfold heavy_ppf; assert (X := d_pos _ _ T None a Ha); lra.
Qed.
(* interval excludes 0 while the p-value is above the level *)
Theorem trop_inf_disagree : let r := trop_inf heavy_sf heavy_ppf (Fin 30) (Fin 1) 5 (1/20) in
  exists p lo hi, ti_p r = Fin p /\ ti_ci r = (Fin lo, Fin hi) /\ 0 < lo /\ 1/20 < p.
Proof.
  unfold trop_inf. assert (F : flt (Fin 0) (Fin 1) = true) by (simpl; apply Rltb_true; lra). rewrite F.
  assert (Et : fdiv (Fin 30) (Fin 1) = Fin 30) by (unfold fdiv; destruct (Req_EM_T 1 0); [lra|f_equal; field]). rewrite Et. cbn [ti_p ti_ci fabs].
  rewrite (Rabs_pos_eq 30) by lra. unfold heavy_sf. rewrite fdiv2. unfold toy_sf. destruct (Rle_dec 0 (30 / 2)); [|lra].
  unfold u_ci, u_ppf, heavy_ppf, toy_ppf. cbn [fmul fsub fadd]. do 3 eexists. split; [reflexivity|]. split; [reflexivity|]. split; [|lra].
  replace (2 * (1 - (1 - 1 / 20 / 2))) with (1/20) by field. lra.
Qed.

(* ------------------------------------------------------------------------------------------- *)
(* acceptance of a panel *)
Lemma falls_sorted l : falls l = false <-> StronglySorted Z.le l.
Proof.
  induction l as [|a l IH]; [split; constructor|]. destruct l as [|b l].
  - split; [repeat constructor|easy].
  - cbn [falls]. rewrite orb_false_iff, Z.ltb_ge, IH. split.
    + intros [H1 H2]. constructor; [easy|]. constructor; [easy|]. apply StronglySorted_inv in H2. destruct H2 as [_ H2].
      eapply Forall_impl; [|exact H2]. intros x. simpl. lia.
    + intros H. apply StronglySorted_inv in H. destruct H as [H1 H2]. split; [now inversion H2|easy].
Qed.
Lemma sorted_pairs (f : nat -> Z) (p : nat -> bool) n : forall a,
  StronglySorted Z.le (map f (filter p (seq a n))) <-> (forall s t, (a <= s)%nat -> (s < t)%nat -> (t < a + n)%nat -> p s = true -> p t = true -> (f s <= f t)%Z).
Proof.
  induction n as [|n IH]; intros a; [split; [lia|constructor]|]. cbn [seq filter]. destruct (p a) eqn:E.
  - cbn [map]. split.
    + intros H s t Hs Hst Ht Ps Pt. apply StronglySorted_inv in H. destruct H as [H1 H2]. destruct (Nat.eq_dec s a) as [->|Hn].
      * rewrite Forall_forall in H2. apply H2. apply in_map. apply filter_In. split; [apply in_seq; lia|easy].
      * apply (proj1 (IH (S a)) H1 s t); auto; lia.
    + intros H. constructor.
      * apply IH. intros s t Hs Hst Ht Ps Pt. apply H; auto; lia.
      * apply Forall_forall. intros z Hz. apply in_map_iff in Hz. destruct Hz as (t & <- & Ht). apply filter_In in Ht. destruct Ht as [Ht Pt]. apply in_seq in Ht.
        apply H; auto; lia.
  - rewrite IH. split; intros H s t Hs Hst Ht Ps Pt.
    + destruct (Nat.eq_dec s a) as [->|Hn]; [congruence|]. apply H; auto; lia.
    + apply H; auto; lia.
Qed.
Lemma len0 {A} (l : list A) : (length l =? 0)%nat = true <-> l = [].
Proof. rewrite Nat.eqb_eq. destruct l; [easy|split; [simpl; lia|easy]]. Qed.
Theorem check_panel_iff T N D miss : check_panel T N D miss = TOk tt <->
  (forall i s t, (i < N)%nat -> (s < t)%nat -> (t < T)%nat -> miss s i = false -> miss t i = false -> (D s i <= D t i)%Z) /\
  (exists t i, (t < T)%nat /\ (i < N)%nat /\ D t i = 1%Z) /\
  (exists i, (i < N)%nat /\ forall t, (t < T)%nat -> D t i <> 1%Z) /\
  (forall t i, (t < 2)%nat -> (t < T)%nat -> (i < N)%nat -> D t i <> 1%Z).
Proof.
  assert (A : (length (violating T N D miss) =? 0)%nat = true <-> (forall i s t, (i < N)%nat -> (s < t)%nat -> (t < T)%nat -> miss s i = false -> miss t i = false -> (D s i <= D t i)%Z)).
  { rewrite len0. unfold violating. split.
    - intros E i s t Hi Hst Ht Ms Mt. destruct (falls (observed_d T D miss i)) eqn:F.
      + assert (X : In i (filter (fun i => falls (observed_d T D miss i)) (seq 0 N))) by (apply filter_In; split; [apply in_seq; lia|easy]). rewrite E in X. easy.
      + apply falls_sorted in F. unfold observed_d in F. rewrite sorted_pairs in F. apply F; try lia; [now rewrite Ms|now rewrite Mt].
    - intros H. destruct (filter _ _) as [|i r] eqn:E; [easy|]. exfalso. assert (X : In i (i :: r)) by now left. rewrite <- E in X. apply filter_In in X.
      destruct X as [Hi F]. apply in_seq in Hi. assert (G : falls (observed_d T D miss i) = false).
      { apply falls_sorted. unfold observed_d. apply sorted_pairs. intros s t _ Hst Ht Ps Pt. apply negb_true_iff in Ps, Pt. apply (H i s t); auto; lia. }
      congruence. }
  assert (B : (length (treated_obs T N D) =? 0)%nat = false <-> (exists t i, (t < T)%nat /\ (i < N)%nat /\ D t i = 1%Z)).
  { rewrite <- not_true_iff_false, len0. split.
    - intros H. destruct (treated_obs T N D) as [|[t i] r] eqn:E; [easy|]. exists t, i. apply in_treated. rewrite E. now left.
    - intros (t & i & H) E. apply in_treated in H. rewrite E in H. easy. }
  assert (Ev : forall i, ever T D i = false <-> (forall t, (t < T)%nat -> D t i <> 1%Z)).
  { intros i. unfold ever. rewrite <- not_true_iff_false, existsb_exists. split.
    - intros H t Ht E. apply H. exists t. split; [apply in_seq; lia|now apply Z.eqb_eq].
    - intros H (t & Ht & E). apply in_seq in Ht. apply Z.eqb_eq in E. apply (H t); [lia|easy]. }
  assert (C : (length (filter (fun i => negb (ever T D i)) (seq 0 N)) =? 0)%nat = false <-> (exists i, (i < N)%nat /\ forall t, (t < T)%nat -> D t i <> 1%Z)).
  { rewrite <- not_true_iff_false, len0. split.
    - intros H. destruct (filter _ _) as [|i r] eqn:E; [easy|]. exists i. assert (X : In i (i :: r)) by now left. rewrite <- E in X. apply filter_In in X.
      destruct X as [Hi F]. apply in_seq in Hi. apply negb_true_iff in F. split; [lia|now apply Ev].
    - intros (i & Hi & H) E. assert (X : In i (filter (fun i => negb (ever T D i)) (seq 0 N))).
      { apply filter_In. split; [apply in_seq; lia|]. apply negb_true_iff. now apply Ev. }
      rewrite E in X. easy. }
  assert (F : (exists t i, (t < T)%nat /\ (i < N)%nat /\ D t i = 1%Z) -> ((first_treat T N D <? 2)%nat = false <-> (forall t i, (t < 2)%nat -> (t < T)%nat -> (i < N)%nat -> D t i <> 1%Z))).
  { intros (t1 & i1 & Ht1 & Hi1 & E1). rewrite Nat.ltb_ge. unfold first_treat.
    assert (Tr : forall t, existsb (fun i => (D t i =? 1)%Z) (seq 0 N) = true <-> exists i, (i < N)%nat /\ D t i = 1%Z).
    { intros t. rewrite existsb_exists. split; intros (i & Hi & E); exists i.
      - apply in_seq in Hi. apply Z.eqb_eq in E. split; [lia|easy].
      - split; [apply in_seq; lia|now apply Z.eqb_eq]. }
    assert (Hd : forall p n a, In t1 (filter p (seq a n)) -> let k := hd T (filter p (seq a n)) in In k (filter p (seq a n)) /\ forall t, In t (filter p (seq a n)) -> (k <= t)%nat).
    { intros p n. induction n as [|n IH]; intros a H; [easy|]. cbn [seq filter] in H |- *. destruct (p a) eqn:Ep.
      - cbn [hd]. split; [now left|]. intros t [<-|Ht]; [lia|]. apply filter_In in Ht. destruct Ht as [Ht _]. apply in_seq in Ht. lia.
      - apply IH. exact H. }
    assert (X1 : In t1 (filter (fun t => existsb (fun i => (D t i =? 1)%Z) (seq 0 N)) (seq 0 T))).
    { apply filter_In. split; [apply in_seq; lia|]. apply Tr. eauto. }
    destruct (Hd _ _ _ X1) as [K1 K2]. set (k := hd T _) in *. split.
    - intros Hk t i Ht HtT Hi E. assert (X : In t (filter (fun t => existsb (fun i => (D t i =? 1)%Z) (seq 0 N)) (seq 0 T))).
      { apply filter_In. split; [apply in_seq; lia|]. apply Tr. eauto. }
      specialize (K2 t X). lia.
    - intros H. destruct (le_lt_dec 2 k) as [L|L]; [easy|]. exfalso. apply filter_In in K1. destruct K1 as [K0 K1]. apply in_seq in K0. apply Tr in K1. destruct K1 as (i & Hi & E).
      apply (H k i); auto; lia. }
  unfold check_panel. destruct (length (violating T N D miss) =? 0)%nat; cbn [negb].
  2:{ split; [easy|]. intros (H & _). apply A in H. easy. }
  destruct (length (treated_obs T N D) =? 0)%nat. { split; [easy|]. intros (_ & H & _). apply B in H. easy. }
  assert (HB : exists t i, (t < T)%nat /\ (i < N)%nat /\ D t i = 1%Z) by now apply B.
  destruct (length (filter (fun i => negb (ever T D i)) (seq 0 N)) =? 0)%nat. { split; [easy|]. intros (_ & _ & H & _). apply C in H. easy. }
  assert (HC : exists i, (i < N)%nat /\ forall t, (t < T)%nat -> D t i <> 1%Z) by now apply C.
  specialize (F HB). destruct (first_treat T N D <? 2)%nat.
  - split; [easy|]. intros (_ & _ & _ & H). apply F in H. easy.
  - split; [|easy]. intros _. split; [now apply A|]. split; [easy|]. split; [easy|]. now apply F.
Qed.

(* ------------------------------------------------------------------------------------------- *)
(* resampling *)
(* the jackknife replicate leaving unit k out does not look at unit k's outcomes when lambda_unit = 0 *)
Theorem jack_blind svd T N Y Y' D k lt h maxit tol :
  (forall t i, i <> k -> Y' t i = Y t i) ->
  att_of (effects svd (Some (Y', D)) T N (drop_o Y' k) (drop_d D k) lt 0 h maxit tol) =
  att_of (effects svd (Some (Y, D)) T N (drop_o Y k) (drop_d D k) lt 0 h maxit tol).
Proof.
  intros H. replace (drop_o Y' k) with (drop_o Y k).
  2:{ apply functional_extensionality; intros t; apply functional_extensionality; intros i. unfold drop_o. destruct (i =? k)%nat eqn:E; [easy|].
      apply Nat.eqb_neq in E. symmetry. now apply H. }
  unfold effects. f_equal. apply map_ext. intros [t i]. f_equal. unfold fit_at.
  replace (obs_w (Some (Y', D)) T (drop_o Y k) (drop_d D k) lt 0 i t) with (obs_w (Some (Y, D)) T (drop_o Y k) (drop_d D k) lt 0 i t); [easy|].
  unfold obs_w. apply functional_extensionality; intros s; apply functional_extensionality; intros j. f_equal. unfold unit_w.
  replace (Reqb 0 0) with true by (symmetry; now apply Reqb_true). reflexivity.
Qed.
(* degenerate resampling: no usable replicate gives a standard error of 0 and missing inference; a single
   bootstrap replicate gives NaN, a single jackknife replicate 0 *)
Theorem resample_degenerate x : boot_se [] = Fin 0 /\ boot_se [x] = NaN /\ jack_se [] = Fin 0 /\ jack_se [x] = Fin 0.
Proof.
  repeat split. unfold boot_se, fstd1. rewrite andb_false_r. reflexivity.
Qed.
Section Res.
Variables (svd : svd_fn) (sub : nat -> nat -> list nat) (odd : lam3 -> option R) (sf : option Z -> fl -> fl) (ppf : option Z -> R -> R).
Theorem one_treated_jackknife cfg T N nobs Y D miss name draws r : tc_boot cfg = false ->
  trop_fit svd sub odd sf ppf cfg T N nobs Y D miss name draws = TOk r -> tr_n_treated r = 1%nat ->
  tr_se r = Fin 0 /\ tr_inf r = {| ti_t := NaN; ti_p := NaN; ti_ci := (NaN, NaN) |}.
Proof.
  intros Hb. unfold trop_fit. destruct (check_panel T N D miss) eqn:E; [|easy]. destruct (tune svd sub odd cfg T N Y D) as [[[lt lu] ln] sc].
  intros [= <-]. cbn [tr_n_treated tr_se tr_inf]. rewrite Hb. intros H1.
  assert (Z : jack_reps svd T N Y D (conv_w lt) (conv_w lu) (Some (conv_nn ln)) (tc_maxit cfg) (tc_tol cfg) = []).
  { unfold jack_reps. destruct (filter (ever T D) (seq 0 N)) as [|k [|k' r']] eqn:Ef; [easy| |easy]. cbn [flat_map].
    replace (treated_obs T N (drop_d D k)) with (@nil (nat * nat)); [easy|]. symmetry.
    destruct (treated_obs T N (drop_d D k)) as [|[t i] rr] eqn:Et; [easy|]. exfalso.
    assert (X : In (t, i) (treated_obs T N (drop_d D k))) by (rewrite Et; now left). apply in_treated in X. destruct X as (Ht & Hi & HD).
    unfold drop_d in HD. destruct (i =? k)%nat eqn:Ek; [easy|]. apply Nat.eqb_neq in Ek.
    assert (In i [k]). { rewrite <- Ef. apply filter_In. split; [apply in_seq; lia|]. unfold ever. apply existsb_exists. exists t. split; [apply in_seq; lia|now rewrite HD]. }
    destruct H as [H|[]]. congruence. }
  rewrite Z. split; [easy|]. apply trop_inf_bad. simpl. apply Rltb_false. lra.
Qed.
End Res.

(* The compiled joint solver: fixed points, equivariance, tuning, resampling. *)
From Verif Require Import Prelude Flt Stats_model Linalg_model Linalg_proofs Linalg_minnorm Multi_model Trop_model Trop_proofs Trop_joint Trop_jproofs Trop_jthms Trop_rust Trop_rjoint Trop_rjoint_proofs.
From Coq Require Import Arith ZArith String List FunctionalExtensionality Lia Lra.
Import ListNotations.
Open Scope R_scope.

(* a sweep that changes nothing *)
Definition settled (T N : nat) (y : mat) (D : dmat) (w : mat) (c : jcoef) : Prop :=
  let c' := rj_sweep T N y D w c in
  jmu c' = jmu c /\ jtau c' = jtau c /\ (forall i, (i < N)%nat -> ja c' i = ja c i) /\ (forall t, (t < T)%nat -> jb c' t = jb c t).
(* no sum of weights that gates an update is positive but at most 1e-10 *)
Definition gates (T N : nat) (D : dmat) (w : mat) : Prop :=
  (forall i, (i < N)%nat -> tiny < sumf (fun t => w t i) (seq 0 T) \/ forall t, (t < T)%nat -> w t i = 0) /\
  (forall t, (t < T)%nat -> tiny < sumf (fun i => w t i) (seq 0 N) \/ forall i, (i < N)%nat -> w t i = 0) /\
  (tiny < sumf (fun x => w (fst x) (snd x)) (treated_obs T N D) \/ forall x, In x (treated_obs T N D) -> w (fst x) (snd x) = 0).

Lemma in_tr T N D x : In x (treated_obs T N D) -> (fst x < T)%nat /\ (snd x < N)%nat /\ D (fst x) (snd x) = 1%Z.
Proof. intros Hx. apply filter_In in Hx. destruct Hx as [Hx Hd]. destruct x as [t i]. apply in_cells in Hx. apply Z.eqb_eq in Hd. tauto. Qed.
Section Fixed.
Variables (T N : nat) (y : mat) (D : dmat) (w : mat) (c : jcoef).
Hypothesis Hw : wpos2 T N w.
Hypothesis HD : forall t i, D t i = 0%Z \/ D t i = 1%Z.
Hypothesis Hs : settled T N y D w c.
Hypothesis Hg : gates T N D w.
Hypothesis Hp : 0 < sumf (fun x => w (fst x) (snd x)) (cells T N).
Let e (t i : nat) : R := y t i - fitv D c t i.

Lemma fix_alpha i : (1 <= i < N)%nat -> sumf (fun t => w t i * e t i) (seq 0 T) = 0.
Proof.
  intros Hi. destruct Hs as (_ & _ & Ha & _). destruct Hg as (G & _ & _). specialize (Ha i (proj2 Hi)). unfold rj_sweep in Ha. cbv zeta in Ha. cbn [ja] in Ha.
  destruct (G i (proj2 Hi)) as [G1|G1].
  - unfold rj_alpha in Ha. cbv zeta in Ha. rewrite (proj2 (Nat.leb_le 1 i)), (proj2 (Nat.ltb_lt i N)), (proj2 (Rltb_true _ _) G1) in Ha by lia. cbn [andb] in Ha.
    assert (P := tiny_pos). assert (Q := wmean_orth (fun t => w t i) (fun t => y t i - jmu c - jb c t - jtau c * IZR (D t i)) (seq 0 T) (ja c i) ltac:(lra) (eq_sym Ha)).
    rewrite <- Q. apply sumf_ext. intros t _. unfold e, fitv. ring.
  - apply sumf_zero. intros t Ht. apply seq_lt in Ht. rewrite G1 by easy. ring.
Qed.
Lemma ja_settled i : (i < N)%nat -> rj_alpha T N y D w c i = ja c i.
Proof. intros Hi. destruct Hs as (_ & _ & Ha & _). exact (Ha i Hi). Qed.
Lemma jb_settled t : (t < T)%nat -> rj_beta T N y D w {| jmu := jmu c; ja := rj_alpha T N y D w c; jb := jb c; jtau := jtau c |} t = jb c t.
Proof. intros Ht. destruct Hs as (_ & _ & _ & Hb). exact (Hb t Ht). Qed.
Lemma fix_beta t : (1 <= t < T)%nat -> sumf (fun i => w t i * e t i) (seq 0 N) = 0.
Proof.
  intros Ht. destruct Hg as (_ & G & _). assert (Hb := jb_settled t (proj2 Ht)).
  destruct (G t (proj2 Ht)) as [G1|G1].
  - unfold rj_beta in Hb. cbv zeta in Hb. rewrite (proj2 (Nat.leb_le 1 t)), (proj2 (Nat.ltb_lt t T)), (proj2 (Rltb_true _ _) G1) in Hb by lia. cbn [andb jmu ja jtau] in Hb.
    rewrite (sumf_ext (fun i => w t i * _) (fun i => w t i * (y t i - jmu c - ja c i - jtau c * IZR (D t i)))) in Hb.
    2: { intros i Hi. apply seq_lt in Hi. now rewrite ja_settled. }
    assert (P := tiny_pos). assert (Q := wmean_orth (fun i => w t i) (fun i => y t i - jmu c - ja c i - jtau c * IZR (D t i)) (seq 0 N) (jb c t) ltac:(lra) (eq_sym Hb)).
    rewrite <- Q. apply sumf_ext. intros i _. unfold e, fitv. ring.
  - apply sumf_zero. intros i Hi. apply seq_lt in Hi. rewrite G1 by easy. ring.
Qed.
Lemma fix_tau : sumf (fun x => w (fst x) (snd x) * e (fst x) (snd x)) (treated_obs T N D) = 0.
Proof.
  destruct Hg as (_ & _ & [G|G]).
  - assert (Ht : rj_tau T N y D w {| jmu := jmu c; ja := rj_alpha T N y D w c; jb := rj_beta T N y D w {| jmu := jmu c; ja := rj_alpha T N y D w c; jb := jb c; jtau := jtau c |}; jtau := jtau c |} = jtau c) by (destruct Hs as (_ & Ht & _); exact Ht).
    unfold rj_tau in Ht. cbv zeta in Ht. rewrite (proj2 (Rltb_true _ _) G) in Ht. cbn [jmu ja jb] in Ht.
    rewrite (sumf_ext (fun x => w (fst x) (snd x) * _) (fun x => w (fst x) (snd x) * (y (fst x) (snd x) - jmu c - ja c (snd x) - jb c (fst x)))) in Ht.
    2: { intros x Hx. apply in_tr in Hx. rewrite ja_settled, jb_settled by easy. reflexivity. }
    assert (P := tiny_pos). assert (Q := wmean_orth (fun x => w (fst x) (snd x)) (fun x => y (fst x) (snd x) - jmu c - ja c (snd x) - jb c (fst x)) (treated_obs T N D) (jtau c) ltac:(lra) (eq_sym Ht)).
    rewrite <- Q. apply sumf_ext. intros x Hx. apply in_tr in Hx. destruct Hx as (_ & _ & Hd). unfold e, fitv. rewrite Hd. ring.
  - apply sumf_zero. intros x Hx. rewrite G by easy. ring.
Qed.
Lemma fix_mu : bsum (seq 0 N) (seq 0 T) (fun t i => w t i * e t i) = 0.
Proof.
  assert (Hm : rj_mu T N y D w (let c1 := {| jmu := jmu c; ja := rj_alpha T N y D w c; jb := jb c; jtau := jtau c |} in
    let c2 := {| jmu := jmu c; ja := rj_alpha T N y D w c; jb := rj_beta T N y D w c1; jtau := jtau c |} in
    {| jmu := jmu c; ja := rj_alpha T N y D w c; jb := rj_beta T N y D w c1; jtau := rj_tau T N y D w c2 |}) = jmu c) by (destruct Hs as (Hm & _); exact Hm).
  assert (Ht : rj_tau T N y D w {| jmu := jmu c; ja := rj_alpha T N y D w c; jb := rj_beta T N y D w {| jmu := jmu c; ja := rj_alpha T N y D w c; jb := jb c; jtau := jtau c |}; jtau := jtau c |} = jtau c) by (destruct Hs as (_ & Ht & _); exact Ht).
  cbv zeta in Hm. rewrite Ht in Hm. unfold rj_mu in Hm. cbn [jmu ja jb jtau] in Hm.
  rewrite (sumf_ext (fun x => w (fst x) (snd x) * _) (fun x => w (fst x) (snd x) * (y (fst x) (snd x) - ja c (snd x) - jb c (fst x) - jtau c * IZR (D (fst x) (snd x))))) in Hm.
  2: { intros [t i] Hx. apply in_cells in Hx. cbn [fst snd]. rewrite ja_settled, jb_settled by easy. reflexivity. }
  rewrite <- (cells_bsum T N (fun t i => w t i * e t i)).
  assert (Q := wmean_orth (fun x => w (fst x) (snd x)) (fun x => y (fst x) (snd x) - ja c (snd x) - jb c (fst x) - jtau c * IZR (D (fst x) (snd x))) (cells T N) (jmu c) Hp (eq_sym Hm)).
  rewrite <- Q. apply sumf_ext. intros x Hx. unfold e, fitv. ring.
Qed.
Theorem fix_normal mu a b tau : bsum (seq 0 N) (seq 0 T) (fun t i => w t i * (mu + a i + b t + tau * IZR (D t i)) * (y t i - fitv D c t i)) = 0.
Proof.
  fold (e). 
  rewrite (bsum_ext _ _ _ (fun t i => ((mu + a 0%nat + b 0%nat) * (w t i * e t i) + (a i - a 0%nat) * (w t i * e t i)) + ((b t - b 0%nat) * (w t i * e t i) + tau * (IZR (D t i) * (w t i * e t i))))).
  2: { intros t i _ _. unfold e. ring. }
  rewrite !bsum_add. rewrite !bsum_scal. rewrite fix_mu.
  replace (bsum (seq 0 N) (seq 0 T) (fun t i => (a i - a 0%nat) * (w t i * e t i))) with 0.
  2: { symmetry. rewrite bsum_swap. apply sumf_zero. intros i Hi. apply seq_lt in Hi. rewrite sumf_scal. destruct i as [|i]; [ring|]. rewrite fix_alpha by lia. ring. }
  replace (bsum (seq 0 N) (seq 0 T) (fun t i => (b t - b 0%nat) * (w t i * e t i))) with 0.
  2: { symmetry. apply sumf_zero. intros t Ht. apply seq_lt in Ht. rewrite sumf_scal. destruct t as [|t]; [ring|]. rewrite fix_beta by lia. ring. }
  replace (bsum (seq 0 N) (seq 0 T) (fun t i => IZR (D t i) * (w t i * e t i))) with 0; [ring|].
  symmetry. rewrite <- (cells_bsum T N (fun t i => IZR (D t i) * (w t i * e t i))). rewrite (sumf_part (fun x => (D (fst x) (snd x) =? 1)%Z)).
  rewrite (sumf_zero _ (filter (fun x => negb _) _)).
  2: { intros x Hx. apply filter_In in Hx. destruct Hx as [_ Hx]. apply negb_true_iff, Z.eqb_neq in Hx. destruct (HD (fst x) (snd x)) as [E|E]; [rewrite E; ring|easy]. }
  fold (treated_obs T N D). rewrite (sumf_ext _ (fun x => w (fst x) (snd x) * e (fst x) (snd x))); [rewrite fix_tau; ring|].
  intros x Hx. apply in_tr in Hx. destruct Hx as (_ & _ & Hd). rewrite Hd. ring.
Qed.

Theorem fix_is_wls lstsq cp : mn_ok lstsq -> wls lstsq T N y D w = JOk cp ->
  (forall t i, (t < T)%nat -> (i < N)%nat -> 0 < w t i -> fitv D c t i = fitv D cp t i) /\ (ident T N D w -> jtau c = jtau cp).
Proof.
  intros Hmn Hc. set (dm := jmu cp - jmu c). set (da := fun i => ja cp i - ja c i). set (db := fun t => jb cp t - jb c t). set (dt := jtau cp - jtau c).
  assert (N1 := fix_normal dm da db dt). assert (N2 := wls_normal lstsq Hmn T N y D w cp dm da db dt Hw Hc).
  assert (Z : bsum (seq 0 N) (seq 0 T) (fun t i => w t i * (dm + da i + db t + dt * IZR (D t i)) * (dm + da i + db t + dt * IZR (D t i))) = 0).
  { rewrite (bsum_ext _ _ _ (fun t i => w t i * (dm + da i + db t + dt * IZR (D t i)) * (y t i - fitv D c t i) - w t i * (dm + da i + db t + dt * IZR (D t i)) * (y t i - fitv D cp t i))).
    - rewrite bsum_sub, N1, N2. ring.
    - intros t i _ _. unfold fitv, dm, da, db, dt. ring. }
  assert (F : forall t i, (t < T)%nat -> (i < N)%nat -> 0 < w t i -> dm + da i + db t + dt * IZR (D t i) = 0).
  { intros t i Ht Hi P. rewrite <- (cells_bsum T N (fun t i => w t i * (dm + da i + db t + dt * IZR (D t i)) * (dm + da i + db t + dt * IZR (D t i)))) in Z.
    assert (Z1 : w t i * (dm + da i + db t + dt * IZR (D t i)) * (dm + da i + db t + dt * IZR (D t i)) = 0).
    { refine (sumf_nonneg_0 _ _ _ Z (t, i) _); [|now apply in_cells].
      intros [s j] Hx. apply in_cells in Hx. cbn [fst snd]. rewrite Rmult_assoc. apply Rmult_le_pos; [apply Hw; tauto|apply Rle_0_sqr]. }
    rewrite Rmult_assoc in Z1. apply Rmult_integral in Z1. destruct Z1 as [Z1|Z1]; [lra|]. apply Rmult_integral in Z1. tauto. }
  split.
  - intros t i Ht Hi P. specialize (F t i Ht Hi P). unfold fitv, dm, da, db, dt in *. lra.
  - intros (i & j & s & t & Hi & Hj & Hss & Ht & W1 & W2 & W3 & W4 & Hid).
    assert (Z1 := F s i Hss Hi W1). assert (Z2 := F s j Hss Hj W2). assert (Z3 := F t i Ht Hi W3). assert (Z4 := F t j Ht Hj W4).
    assert (Z5 : dt * (IZR (D t i) - IZR (D t j) - (IZR (D s i) - IZR (D s j))) = 0) by lra.
    apply Rmult_integral in Z5. destruct Z5 as [Z5|Z5]; [unfold dt in Z5; lra|easy].
Qed.
End Fixed.

(* ------------------------------------------------------------------------------------------- *)
(* equivariance of the sweep *)
Definition scale_c (k : R) (c : jcoef) : jcoef := {| jmu := k * jmu c; ja := fun i => k * ja c i; jb := fun t => k * jb c t; jtau := k * jtau c |}.
Definition shift_c (k : R) (c : jcoef) : jcoef := {| jmu := jmu c + k; ja := ja c; jb := jb c; jtau := jtau c |}.
Lemma sumf_wk {X} (w f g : X -> R) k l : (forall x, f x = k * g x) -> sumf (fun x => w x * f x) l = k * sumf (fun x => w x * g x) l.
Proof. intros H. rewrite <- sumf_scal. apply sumf_ext. intros x _. rewrite H. ring. Qed.
Section Equi.
Variables (T N : nat) (D : dmat) (w : mat).
Lemma alpha_scale y k c i : rj_alpha T N (fun t i => k * y t i) D w (scale_c k c) i = k * rj_alpha T N y D w c i.
Proof.
  unfold rj_alpha, scale_c. cbv zeta. cbn [jmu ja jb jtau]. destruct (_ && Rltb tiny _); [|reflexivity].
  rewrite (sumf_wk (fun t => w t i) _ (fun t => y t i - jmu c - jb c t - jtau c * IZR (D t i)) k) by (intros; ring). unfold Rdiv. ring.
Qed.
Lemma beta_scale y k c t : rj_beta T N (fun t i => k * y t i) D w (scale_c k c) t = k * rj_beta T N y D w c t.
Proof.
  unfold rj_beta, scale_c. cbv zeta. cbn [jmu ja jb jtau]. destruct (_ && Rltb tiny _); [|reflexivity].
  rewrite (sumf_wk (fun i => w t i) _ (fun i => y t i - jmu c - ja c i - jtau c * IZR (D t i)) k) by (intros; ring). unfold Rdiv. ring.
Qed.
Lemma tau_scale y k c : rj_tau T N (fun t i => k * y t i) D w (scale_c k c) = k * rj_tau T N y D w c.
Proof.
  unfold rj_tau, scale_c. cbv zeta. cbn [jmu ja jb jtau]. destruct (Rltb tiny _); [|reflexivity].
  rewrite (sumf_wk (fun x => w (fst x) (snd x)) _ (fun x => y (fst x) (snd x) - jmu c - ja c (snd x) - jb c (fst x)) k) by (intros; ring). unfold Rdiv. ring.
Qed.
Lemma mu_scale y k c : rj_mu T N (fun t i => k * y t i) D w (scale_c k c) = k * rj_mu T N y D w c.
Proof.
  unfold rj_mu, scale_c. cbn [jmu ja jb jtau].
  rewrite (sumf_wk (fun x => w (fst x) (snd x)) _ (fun x => y (fst x) (snd x) - ja c (snd x) - jb c (fst x) - jtau c * IZR (D (fst x) (snd x))) k) by (intros; ring). unfold Rdiv. ring.
Qed.
Theorem sweep_scale y k c : rj_sweep T N (fun t i => k * y t i) D w (scale_c k c) = scale_c k (rj_sweep T N y D w c).
Proof.
  unfold rj_sweep. cbv zeta. cbn [jmu ja jb jtau].
  set (c1 := {| jmu := jmu c; ja := rj_alpha T N y D w c; jb := jb c; jtau := jtau c |}).
  set (c2 := {| jmu := jmu c; ja := rj_alpha T N y D w c; jb := rj_beta T N y D w c1; jtau := jtau c |}).
  set (c3 := {| jmu := jmu c; ja := rj_alpha T N y D w c; jb := rj_beta T N y D w c1; jtau := rj_tau T N y D w c2 |}).
  assert (E1 : rj_alpha T N (fun t i => k * y t i) D w (scale_c k c) = fun i => k * rj_alpha T N y D w c i) by (apply functional_extensionality; intros; apply alpha_scale).
  rewrite E1. assert (E2 : rj_beta T N (fun t i => k * y t i) D w (scale_c k c1) = fun t => k * rj_beta T N y D w c1 t) by (apply functional_extensionality; intros; apply beta_scale).
  change {| jmu := jmu (scale_c k c); ja := fun i => k * rj_alpha T N y D w c i; jb := jb (scale_c k c); jtau := jtau (scale_c k c) |} with (scale_c k c1).
  rewrite E2. change {| jmu := jmu (scale_c k c); ja := fun i => k * rj_alpha T N y D w c i; jb := fun t => k * rj_beta T N y D w c1 t; jtau := jtau (scale_c k c) |} with (scale_c k c2).
  rewrite tau_scale. change {| jmu := jmu (scale_c k c); ja := fun i => k * rj_alpha T N y D w c i; jb := fun t => k * rj_beta T N y D w c1 t; jtau := k * rj_tau T N y D w c2 |} with (scale_c k c3).
  rewrite mu_scale. reflexivity.
Qed.
Lemma alpha_shift y k c i : rj_alpha T N (fun t i => y t i + k) D w (shift_c k c) i = rj_alpha T N y D w c i.
Proof.
  unfold rj_alpha, shift_c. cbv zeta. cbn [jmu ja jb jtau]. destruct (_ && Rltb tiny _); [|reflexivity].
  f_equal. apply sumf_ext. intros; ring.
Qed.
Lemma beta_shift y k c t : rj_beta T N (fun t i => y t i + k) D w (shift_c k c) t = rj_beta T N y D w c t.
Proof.
  unfold rj_beta, shift_c. cbv zeta. cbn [jmu ja jb jtau]. destruct (_ && Rltb tiny _); [|reflexivity].
  f_equal. apply sumf_ext. intros; ring.
Qed.
Lemma tau_shift y k c : rj_tau T N (fun t i => y t i + k) D w (shift_c k c) = rj_tau T N y D w c.
Proof.
  unfold rj_tau, shift_c. cbv zeta. cbn [jmu ja jb jtau]. destruct (Rltb tiny _); [|reflexivity]. f_equal. apply sumf_ext. intros; ring.
Qed.
Lemma mu_shift y k c : sumf (fun x => w (fst x) (snd x)) (cells T N) <> 0 -> rj_mu T N (fun t i => y t i + k) D w (shift_c k c) = rj_mu T N y D w c + k.
Proof.
  intros H. unfold rj_mu, shift_c. cbn [jmu ja jb jtau].
  rewrite (sumf_ext _ (fun x => w (fst x) (snd x) * (y (fst x) (snd x) - ja c (snd x) - jb c (fst x) - jtau c * IZR (D (fst x) (snd x))) + k * w (fst x) (snd x))) by (intros; ring).
  rewrite sumf_add, sumf_scal. field. exact H.
Qed.
Theorem sweep_shift y k c : sumf (fun x => w (fst x) (snd x)) (cells T N) <> 0 ->
  rj_sweep T N (fun t i => y t i + k) D w (shift_c k c) = shift_c k (rj_sweep T N y D w c).
Proof.
  intros H. unfold rj_sweep. cbv zeta. cbn [jmu ja jb jtau].
  set (c1 := {| jmu := jmu c; ja := rj_alpha T N y D w c; jb := jb c; jtau := jtau c |}).
  set (c2 := {| jmu := jmu c; ja := rj_alpha T N y D w c; jb := rj_beta T N y D w c1; jtau := jtau c |}).
  set (c3 := {| jmu := jmu c; ja := rj_alpha T N y D w c; jb := rj_beta T N y D w c1; jtau := rj_tau T N y D w c2 |}).
  assert (E1 : rj_alpha T N (fun t i => y t i + k) D w (shift_c k c) = rj_alpha T N y D w c) by (apply functional_extensionality; intros; apply alpha_shift).
  rewrite E1. assert (E2 : rj_beta T N (fun t i => y t i + k) D w (shift_c k c1) = rj_beta T N y D w c1) by (apply functional_extensionality; intros; apply beta_shift).
  change {| jmu := jmu (shift_c k c); ja := rj_alpha T N y D w c; jb := jb (shift_c k c); jtau := jtau (shift_c k c) |} with (shift_c k c1).
  rewrite E2. change {| jmu := jmu (shift_c k c); ja := rj_alpha T N y D w c; jb := rj_beta T N y D w c1; jtau := jtau (shift_c k c) |} with (shift_c k c2).
  rewrite tau_shift. change {| jmu := jmu (shift_c k c); ja := rj_alpha T N y D w c; jb := rj_beta T N y D w c1; jtau := rj_tau T N y D w c2 |} with (shift_c k c3).
  rewrite mu_shift by exact H. reflexivity.
Qed.
Lemma stop_shift k a b : rj_stop (shift_c k a) (shift_c k b) = rj_stop a b.
Proof. unfold rj_stop, shift_c. cbn [jmu jtau]. now replace (jmu b + k - (jmu a + k)) with (jmu b - jmu a) by ring. Qed.
Lemma stop_neg a b : rj_stop (scale_c (-1) a) (scale_c (-1) b) = rj_stop a b.
Proof.
  unfold rj_stop, scale_c. cbn [jmu jtau]. replace (-1 * jmu b - -1 * jmu a) with (- (jmu b - jmu a)) by ring. replace (-1 * jtau b - -1 * jtau a) with (- (jtau b - jtau a)) by ring.
  now rewrite !Rabs_Ropp.
Qed.
Lemma bcd_shift y k : sumf (fun x => w (fst x) (snd x)) (cells T N) <> 0 -> forall n c,
  rj_bcd T N (fun t i => y t i + k) D w n (shift_c k c) = shift_c k (rj_bcd T N y D w n c).
Proof.
  intros H. induction n as [|n IH]; intros c; cbn [rj_bcd]; [easy|]. rewrite sweep_shift by easy. rewrite stop_shift. destruct (rj_stop _ _); [easy|apply IH].
Qed.
Lemma bcd_neg y : forall n c, rj_bcd T N (fun t i => -1 * y t i) D w n (scale_c (-1) c) = scale_c (-1) (rj_bcd T N y D w n c).
Proof.
  induction n as [|n IH]; intros c; cbn [rj_bcd]; [easy|]. rewrite sweep_scale. rewrite stop_neg. destruct (rj_stop _ _); [easy|apply IH].
Qed.
Theorem solve_shift y k : rj_solve T N (fun t i => y t i + k) D w = option_map (shift_c k) (rj_solve T N y D w).
Proof.
  unfold rj_solve. destruct (Rltb _ tiny) eqn:E; [easy|]. cbn [option_map]. apply Rltb_false in E. assert (P := tiny_pos). apply (f_equal Some).
  rewrite <- bcd_shift by lra. f_equal. unfold rj_start, shift_c. cbn [jmu ja jb jtau]. f_equal.
  rewrite (sumf_ext _ (fun x => w (fst x) (snd x) * y (fst x) (snd x) + k * w (fst x) (snd x))) by (intros; ring). rewrite sumf_add, sumf_scal. field. lra.
Qed.
Theorem solve_neg y : rj_solve T N (fun t i => -1 * y t i) D w = option_map (scale_c (-1)) (rj_solve T N y D w).
Proof.
  unfold rj_solve. destruct (Rltb _ tiny) eqn:E; [easy|]. cbn [option_map]. apply (f_equal Some).
  rewrite <- bcd_neg. f_equal. unfold rj_start, scale_c. cbn [jmu ja jb jtau]. f_equal; try (apply functional_extensionality; intros); try ring.
  rewrite (sumf_wk (fun x => w (fst x) (snd x)) _ (fun x => y (fst x) (snd x)) (-1)) by (intros; ring). unfold Rdiv. ring.
Qed.
End Equi.

(* ------------------------------------------------------------------------------------------- *)
(* tuning *)
Lemma rj_search_inv (score : lam3 -> fl) (g : list lam3) : forall best b, fold_left (fun best l => if flt (score l) (snd best) then (l, score l) else best) g best = b ->
  (b = best \/ In (fst b) g /\ snd b = score (fst b)).
Proof.
  induction g as [|l g IH]; intros best b; cbn [fold_left]; [intros <-; now left|]. destruct (flt (score l) (snd best)).
  - intros H. apply IH in H. destruct H as [->|[H1 H2]]; right; [split; [now left|reflexivity]|split; [now right|easy]].
  - intros H. apply IH in H. destruct H as [->|[H1 H2]]; [now left|right; split; [now right|easy]].
Qed.
Lemma flt_trans a b c : flt a b = true -> flt b c = true -> flt a c = true.
Proof.
  destruct a as [a| | |], b as [b| | |], c as [c| | |]; cbn; intros H1 H2; try easy; try (apply Rltb_true in H1; apply Rltb_true in H2; apply Rltb_true; lra).
Qed.
Lemma flt_irr a : flt a a = false.
Proof. destruct a as [a| | |]; cbn; try easy. apply Rltb_false. lra. Qed.
Lemma rj_search_min (score : lam3 -> fl) (g : list lam3) : forall best,
  let b := fold_left (fun best l => if flt (score l) (snd best) then (l, score l) else best) g best in
  (flt (snd b) (snd best) = true \/ snd b = snd best) /\ forall l, In l g -> flt (score l) (snd b) = false.
Proof.
  induction g as [|l g IH]; intros best; cbv zeta; cbn [fold_left]; [split; [now right|easy]|].
  destruct (flt (score l) (snd best)) eqn:E.
  - destruct (IH (l, score l)) as [H1 H2]. cbn [snd] in H1. split.
    + left. destruct H1 as [H1|H1]; [eapply flt_trans; eassumption|now rewrite H1].
    + intros l' [<-|Hl]; [|now apply H2]. destruct H1 as [H1|H1]; [|rewrite H1; apply flt_irr].
      apply not_true_is_false; intros E2. assert (Q := flt_trans _ _ _ E2 H1). now rewrite flt_irr in Q.
  - destruct (IH best) as [H1 H2]. split; [easy|]. intros l' [<-|Hl]; [|now apply H2]. destruct H1 as [H1|H1]; [|now rewrite H1].
    apply not_true_is_false; intros E2. assert (Q := flt_trans _ _ _ E2 H1). congruence.
Qed.
Theorem rj_search_spec score g first b v : rj_search score g first = (b, v) -> ffinite v = true ->
  In b g /\ score b = v /\ forall l, In l g -> flt (score l) v = false.
Proof.
  unfold rj_search. intros H F. assert (H1 := rj_search_inv score g _ _ H). assert (H2 := proj2 (rj_search_min score g (first, PInf))). rewrite H in H2. cbn [fst snd] in *.
  destruct H1 as [H1|[H1 H3]]; [inversion H1; subst; easy|]. split; [easy|]. split; [easy|exact H2].
Qed.

(* every score with a NaN weight on an observed cell in all but one fit is NaN or infinite *)
Lemma rj_sum_nan svd T N Y D W h maxit tol obs : ffinite (rj_sum svd T N Y D W h maxit tol obs NaN) = false.
Proof.
  induction obs as [|c obs IH]; cbn [rj_sum]; [easy|]. destruct (rj_fit _ _ _ _ _ _ _ _ _); [easy|easy|]. cbn [fadd]. exact IH.
Qed.
Lemma existsb_intro {A} (f : A -> bool) l x : In x l -> f x = true -> existsb f l = true.
Proof. intros H1 H2. apply existsb_exists. now exists x. Qed.
Lemma rj_sum_poison svd T N Y D W h maxit tol c t i : forall obs acc, In c obs -> (t < T)%nat -> (i < N)%nat -> has Y t i = true ->
  W t i = None -> (t, i) <> c -> ffinite (rj_sum svd T N Y D W h maxit tol obs acc) = false.
Proof.
  induction obs as [|c' obs IH]; intros acc Hc Ht Hi Hy HW Hn; [easy|]. cbn [rj_sum].
  destruct Hc as [<-|Hc].
  - unfold rj_fit. cbv zeta. rewrite (existsb_intro _ (cells T N) (t, i)); [apply rj_sum_nan|now apply in_cells|].
    unfold rj_isnan, rj_seen, rj_skip. cbn [fst snd]. rewrite Hy. destruct ((t =? fst c')%nat && (i =? snd c')%nat) eqn:E; [|now rewrite HW].
    apply andb_prop in E. destruct E as [E1 E2]. apply Nat.eqb_eq in E1, E2. exfalso. apply Hn. destruct c'; cbn [fst snd] in *; congruence.
  - destruct (rj_fit _ _ _ _ _ _ _ _ _); [easy|now apply IH|now apply IH].
Qed.
Theorem rj_score_poison svd T N p Y D obs maxit tol lt h c t i : (0 < T - p)%nat -> In c obs -> (t < T)%nat -> (i < N)%nat -> has Y t i = true ->
  j_valid T N p Y D i = [] -> (t, i) <> c -> ffinite (rj_score svd T N p Y D obs maxit tol lt 0 h) = false.
Proof.
  intros Hp Hc Ht Hi Hy Hv Hn. unfold rj_score. destruct obs as [|c' obs]; [easy|].
  apply (rj_sum_poison _ _ _ _ _ _ _ _ _ c t i); try easy. now apply rj_weights_nan.
Qed.

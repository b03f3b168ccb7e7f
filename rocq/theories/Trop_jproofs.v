(* TROP, joint method: the weighted regression. *)
From Verif Require Import Prelude Flt Stats_model Linalg_model Linalg_proofs Linalg_minnorm Multi_model Trop_model Trop_proofs Trop_conv Trop_obj Trop_joint.
From Coq Require Import Arith ZArith String List FunctionalExtensionality.
Import ListNotations.
Open Scope R_scope.


(* a combination of indicator columns *)
Lemma lc_ind (g : cell2 -> nat) (s : cell2 -> R) c : forall n a b, length b = n ->
  lc (map (fun k c => ind (g c =? k)%nat * s c) (seq a n)) b c = s c * (if ((a <=? g c) && (g c <? a + n))%nat then nth (g c - a) b 0 else 0).
Proof.
  induction n as [|n IH]; intros a b Hb; destruct b as [|x b]; try discriminate; cbn [seq map lc].
  - replace ((a <=? g c) && (g c <? a + 0))%nat with false; [cbn iota; ring|]. symmetry. apply andb_false_iff. rewrite Nat.leb_gt, Nat.ltb_ge. lia.
  - rewrite IH by (injection Hb; auto). unfold ind. destruct (g c =? a)%nat eqn:E.
    + apply Nat.eqb_eq in E. subst a. rewrite (proj2 (Nat.leb_gt (S (g c)) (g c))) by lia. rewrite Nat.leb_refl. rewrite (proj2 (Nat.ltb_lt (g c) (g c + S n))) by lia.
      cbn [andb]. rewrite Nat.sub_diag. cbn [nth]. ring.
    + apply Nat.eqb_neq in E. destruct ((S a <=? g c) && (g c <? S a + n))%nat eqn:F.
      * apply andb_true_iff in F. rewrite Nat.leb_le, Nat.ltb_lt in F. replace ((a <=? g c) && (g c <? a + S n))%nat with true.
        -- replace (g c - a)%nat with (S (g c - S a)) by lia. cbn [nth]. cbn iota. ring.
        -- symmetry. apply andb_true_iff. rewrite Nat.leb_le, Nat.ltb_lt. lia.
      * replace ((a <=? g c) && (g c <? a + S n))%nat with false; [cbn iota; ring|]. symmetry. apply andb_false_iff. apply andb_false_iff in F.
        rewrite Nat.leb_gt, Nat.ltb_ge in *. lia.
Qed.

(* the fitted value of a coefficient list *)
Definition coef_of (T N : nat) (b : list R) : jcoef :=
  {| jmu := nth 0 b 0; ja := fun i => if (i =? 0)%nat || (N <=? i)%nat then 0 else nth i b 0;
     jb := fun t => if (t =? 0)%nat || (T <=? t)%nat then 0 else nth (N - 1 + t) b 0; jtau := last b 0 |}.
Definition fitv (D : dmat) (c : jcoef) (t i : nat) : R := jmu c + ja c i + jb c t + jtau c * IZR (D t i).
Definition wcols (T N : nat) (D : dmat) (w : mat) := map (fun f c => f c * sqw w c) (j_cols T N D).
Definition n_par (T N : nat) : nat := (1 + (N - 1) + (T - 1) + 1)%nat.
Lemma j_cols_length T N D : length (j_cols T N D) = n_par T N.
Proof. unfold j_cols, n_par. rewrite !app_length. cbn [length]. rewrite !map_length, !seq_length. cbn [length]. lia. Qed.
Lemma wcols_length T N D w : length (wcols T N D w) = n_par T N.
Proof. unfold wcols. rewrite map_length. apply j_cols_length. Qed.

Lemma skipn_plus {A} a : forall b (l : list A), skipn a (skipn b l) = skipn (a + b) l.
Proof.
  induction b as [|b IH]; intros l; [now rewrite Nat.add_0_r|]. rewrite Nat.add_succ_r. destruct l as [|x l]; [now rewrite !skipn_nil|]. apply IH.
Qed.
Lemma split_coef (T N : nat) (b : list R) : length b = n_par T N ->
  b = ((nth 0 b 0 :: firstn (N - 1) (skipn 1 b)) ++ firstn (T - 1) (skipn (S (N - 1)) b) ++ [last b 0]).
Proof.
  intros H. unfold n_par in H. destruct b as [|x b]; [cbn in H; lia|]. cbn [nth skipn app]. f_equal.
  rewrite <- (firstn_skipn (N - 1) b) at 1. f_equal.
  rewrite <- (firstn_skipn (T - 1) (skipn (N - 1) b)) at 1. f_equal. rewrite skipn_plus.
  cbn [length] in H. assert (L : length (skipn (T - 1 + (N - 1)) b) = 1%nat) by (rewrite skipn_length; lia).
  assert (E : last (x :: b) 0 = last (skipn (T - 1 + (N - 1)) b) 0).
  { rewrite <- (firstn_skipn (T - 1 + (N - 1)) b) at 1. destruct (skipn (T - 1 + (N - 1)) b) as [|z [|z' r]] eqn:Es; try discriminate.
    rewrite app_comm_cons, last_last. reflexivity. }
  rewrite E. destruct (skipn (T - 1 + (N - 1)) b) as [|z [|z' r]]; try discriminate. reflexivity.
Qed.
Lemma lc_wcols T N D w b t i : length b = n_par T N -> (t < T)%nat -> (i < N)%nat ->
  lc (wcols T N D w) b (t, i) = sqw w (t, i) * fitv D (coef_of T N b) t i.
Proof.
  intros H Ht Hi. rewrite (split_coef T N b H) at 1. unfold n_par in H. unfold wcols, j_cols. rewrite !map_app. cbn [map].
  rewrite lc_app by (cbn [length]; rewrite !map_length, firstn_length, skipn_length, seq_length; lia).
  rewrite lc_app by (rewrite !map_length, firstn_length, skipn_length, seq_length; lia).
  cbn [lc]. rewrite !map_map. rewrite (lc_ind snd (sqw w)) by (rewrite firstn_length, skipn_length; lia). rewrite (lc_ind fst (sqw w)) by (rewrite firstn_length, skipn_length; lia).
  cbn [fst snd]. unfold fitv, coef_of. cbn [jmu ja jb jtau].
  assert (E1 : (if ((1 <=? i) && (i <? 1 + (N - 1)))%nat then nth (i - 1) (firstn (N - 1) (skipn 1 b)) 0 else 0) = (if (i =? 0)%nat || (N <=? i)%nat then 0 else nth i b 0)).
  { rewrite (proj2 (Nat.leb_gt N i)), orb_false_r by lia. destruct i as [|i]; [reflexivity|]. rewrite (proj2 (Nat.leb_le _ _)), (proj2 (Nat.ltb_lt _ _)) by lia. cbn [andb Nat.eqb]. replace (S i - 1)%nat with i by lia.
    rewrite <- (firstn_skipn 1 b) at 2. rewrite app_nth2; rewrite firstn_length; replace (Nat.min 1 (length b)) with 1%nat by lia; [|lia]. replace (S i - 1)%nat with i by lia.
    rewrite <- (firstn_skipn (N - 1) (skipn 1 b)) at 2. rewrite app_nth1; [reflexivity|]. rewrite firstn_length, skipn_length. lia. }
  assert (E2 : (if ((1 <=? t) && (t <? 1 + (T - 1)))%nat then nth (t - 1) (firstn (T - 1) (skipn (S (N - 1)) b)) 0 else 0) = (if (t =? 0)%nat || (T <=? t)%nat then 0 else nth (N - 1 + t) b 0)).
  { rewrite (proj2 (Nat.leb_gt T t)), orb_false_r by lia. destruct t as [|t]; [reflexivity|]. rewrite (proj2 (Nat.leb_le _ _)), (proj2 (Nat.ltb_lt _ _)) by lia. cbn [andb Nat.eqb]. replace (S t - 1)%nat with t by lia.
    rewrite <- (firstn_skipn (S (N - 1)) b) at 2. rewrite app_nth2; rewrite firstn_length; replace (Nat.min (S (N - 1)) (length b)) with (S (N - 1)) by lia; [|lia].
    replace (N - 1 + S t - S (N - 1))%nat with t by lia.
    rewrite <- (firstn_skipn (T - 1) (skipn (S (N - 1)) b)) at 2. rewrite app_nth1; [reflexivity|]. rewrite firstn_length, skipn_length. lia. }
  rewrite E1, E2. ring.
Qed.

(* every unit + period + treatment function is a fitted value *)
Definition coefs (T N : nat) (mu : R) (a b : nat -> R) (tau : R) : list R :=
  ((mu + a 0%nat + b 0%nat) :: map (fun k => a k - a 0%nat) (seq 1 (N - 1))) ++ map (fun k => b k - b 0%nat) (seq 1 (T - 1)) ++ [tau].
Lemma coefs_length T N mu a b tau : length (coefs T N mu a b tau) = n_par T N.
Proof. unfold coefs, n_par. rewrite !app_length. cbn [length]. rewrite !map_length, !seq_length. lia. Qed.
Lemma nth_map_seq (f : nat -> R) n : forall a k, (k < n)%nat -> nth k (map f (seq a n)) 0 = f (a + k)%nat.
Proof.
  induction n as [|n IH]; intros a k Hk; [lia|]. destruct k as [|k]; cbn [seq map nth]; [f_equal; lia|]. rewrite IH by lia. f_equal. lia.
Qed.
Lemma fitv_coefs T N D mu a b tau t i : (t < T)%nat -> (i < N)%nat ->
  fitv D (coef_of T N (coefs T N mu a b tau)) t i = mu + a i + b t + tau * IZR (D t i).
Proof.
  intros Ht Hi. unfold fitv, coef_of. cbn [jmu ja jb jtau].
  assert (E1 : last (coefs T N mu a b tau) 0 = tau) by (unfold coefs; now rewrite !app_assoc, last_last).
  rewrite E1. rewrite (proj2 (Nat.leb_gt N i)), (proj2 (Nat.leb_gt T t)), !orb_false_r by lia.
  assert (E2 : (if (i =? 0)%nat then 0 else nth i (coefs T N mu a b tau) 0) = a i - a 0%nat).
  { destruct i as [|i]; cbn [Nat.eqb]; [ring|]. unfold coefs. rewrite app_nth1 by (cbn [length]; rewrite map_length, seq_length; lia).
    cbn [nth]. rewrite nth_map_seq by lia. f_equal. }
  assert (E3 : (if (t =? 0)%nat then 0 else nth (N - 1 + t) (coefs T N mu a b tau) 0) = b t - b 0%nat).
  { destruct t as [|t]; cbn [Nat.eqb]; [ring|]. unfold coefs. rewrite app_nth2; cbn [length]; rewrite map_length, seq_length; [|lia].
    replace (N - 1 + S t - S (N - 1))%nat with t by lia. rewrite app_nth1 by (rewrite map_length, seq_length; lia). rewrite nth_map_seq by lia. f_equal. }
  rewrite E2, E3. unfold coefs. cbn [app nth]. ring.
Qed.

Definition wpos2 (T N : nat) (w : mat) : Prop := forall t i, (t < T)%nat -> (i < N)%nat -> 0 <= w t i.
Lemma sqw_sq w t i : 0 <= w t i -> sqw w (t, i) * sqw w (t, i) = w t i.
Proof. intros H. unfold sqw. cbn [fst snd]. rewrite Rmax_left by easy. now apply sqrt_sqrt. Qed.
Lemma sqw_pos w t i : 0 < w t i -> 0 < sqw w (t, i).
Proof. intros H. unfold sqw. cbn [fst snd]. rewrite Rmax_left by lra. now apply sqrt_lt_R0. Qed.
Lemma sqw_zero w t i : w t i = 0 -> sqw w (t, i) = 0.
Proof. intros H. unfold sqw. cbn [fst snd]. rewrite H, Rmax_left by lra. apply sqrt_0. Qed.

(* the treatment column is separated from the unit and period effects by a 2 x 2 block of cells with weight *)
Definition ident (T N : nat) (D : dmat) (w : mat) : Prop := exists i j s t, (i < N)%nat /\ (j < N)%nat /\ (s < T)%nat /\ (t < T)%nat /\
  0 < w s i /\ 0 < w s j /\ 0 < w t i /\ 0 < w t j /\ IZR (D t i) - IZR (D t j) - (IZR (D s i) - IZR (D s j)) <> 0.

Section Wls.
Variable lstsq : lstsq_fn.
Hypothesis Hmn : mn_ok lstsq.
Variables (T N : nat) (D : dmat) (w : mat).
Hypothesis Hw : wpos2 T N w.

Definition yw (y : mat) : cell2 -> R := fun c => y (fst c) (snd c) * sqw w c.
Lemma wls_inv y c : wls lstsq T N y D w = JOk c -> exists b, c = coef_of T N b /\ is_mn (cells T N) (wcols T N D w) (yw y) b.
Proof. unfold wls. destruct (Rltb _ _); [easy|]. intros [= <-]. eexists. split; [reflexivity|apply Hmn]. Qed.
Lemma wls_def y b : is_mn (cells T N) (wcols T N D w) (yw y) b ->
  wls lstsq T N y D w = if Rltb (sumf (fun c => w (fst c) (snd c)) (cells T N)) (/ (10 ^ 10)) then JVal else JOk (coef_of T N b).
Proof.
  intros H. unfold wls. destruct (Rltb _ _); [easy|]. change (map (fun f c => f c * sqw w c) (j_cols T N D)) with (wcols T N D w).
  change (fun c => y (fst c) (snd c) * sqw w c) with (yw y).
  rewrite (mn_unique (cells T N) (wcols T N D w) (yw y) (yw y) (lstsq (cells T N) (wcols T N D w) (yw y)) b (fun _ _ => eq_refl) (Hmn _ _ _) H). reflexivity.
Qed.
(* the solution depends on outcomes with positive weight only *)
Lemma wls_cong y y' : (forall t i, (t < T)%nat -> (i < N)%nat -> w t i <> 0 -> y t i = y' t i) -> wls lstsq T N y D w = wls lstsq T N y' D w.
Proof.
  intros H. rewrite (wls_def y (lstsq (cells T N) (wcols T N D w) (yw y)) (Hmn _ _ _)). rewrite (wls_def y' (lstsq (cells T N) (wcols T N D w) (yw y')) (Hmn _ _ _)).
  rewrite (mn_cong lstsq Hmn _ _ (yw y) (yw y')); [easy|]. intros [t i] Hc. apply in_cells in Hc. unfold yw. cbn [fst snd].
  destruct (Req_dec (w t i) 0) as [E|E]; [rewrite sqw_zero by easy; ring|]. rewrite H by tauto. ring.
Qed.

Lemma kernel_tau v : ident T N D w -> kernel (cells T N) (wcols T N D w) v -> last v 0 = 0.
Proof.
  intros (i & j & s & t & Hi & Hj & Hs & Ht & W1 & W2 & W3 & W4 & HD) [Lv Kv]. rewrite wcols_length in Lv.
  assert (Z : forall t i, (t < T)%nat -> (i < N)%nat -> 0 < w t i -> fitv D (coef_of T N v) t i = 0).
  { intros t' i' Ht' Hi' Hw'. specialize (Kv (t', i')). rewrite in_cells in Kv. specialize (Kv (conj Ht' Hi')). rewrite lc_wcols in Kv by easy.
    apply Rmult_integral in Kv. destruct Kv as [Kv|Kv]; [|easy]. assert (P := sqw_pos w t' i' Hw'). lra. }
  assert (Z1 := Z s i Hs Hi W1). assert (Z2 := Z s j Hs Hj W2). assert (Z3 := Z t i Ht Hi W3). assert (Z4 := Z t j Ht Hj W4).
  unfold fitv in *. change (last v 0) with (jtau (coef_of T N v)).
  assert (E : jtau (coef_of T N v) * (IZR (D t i) - IZR (D t j) - (IZR (D s i) - IZR (D s j))) = 0) by lra.
  apply Rmult_integral in E. tauto.
Qed.

(* adding c times the treatment column shifts tau by c and changes nothing else *)
Definition addtau (c : R) (x : jcoef) : jcoef := {| jmu := jmu x; ja := ja x; jb := jb x; jtau := jtau x + c |}.
Definition elast (n : nat) : list R := repeat 0 (n - 1) ++ [1].
Lemma nth_vadd a : forall b k, length a = length b -> nth k (vadd a b) 0 = nth k a 0 + nth k b 0.
Proof.
  induction a as [|x a IH]; intros [|z b] k H; try discriminate; [destruct k; cbn; ring|]. destruct k as [|k]; cbn [vadd nth]; [easy|]. apply IH. now injection H.
Qed.
Lemma nth_vscal t a k : nth k (vscal t a) 0 = t * nth k a 0.
Proof. revert k. induction a as [|x a IH]; intros [|k]; cbn; try ring. apply IH. Qed.
Lemma last_nth (l : list R) : last l 0 = nth (length l - 1) l 0.
Proof.
  induction l as [|x l IH]; [easy|]. destruct l as [|z l]; [easy|]. change (last (x :: z :: l) 0) with (last (z :: l) 0). rewrite IH. cbn [length].
  replace (S (S (length l)) - 1)%nat with (S (length l)) by lia. replace (S (length l) - 1)%nat with (length l) by lia. reflexivity.
Qed.
Lemma nth_elast n k : (0 < n)%nat -> nth k (elast n) 0 = if (k =? n - 1)%nat then 1 else 0.
Proof.
  intros Hn. unfold elast. destruct (k =? n - 1)%nat eqn:E.
  - apply Nat.eqb_eq in E. subst k. rewrite app_nth2; rewrite repeat_length; [|lia]. now rewrite Nat.sub_diag.
  - apply Nat.eqb_neq in E. destruct (Nat.lt_ge_cases k (n - 1)) as [L|L].
    + rewrite app_nth1 by (now rewrite repeat_length). apply nth_repeat.
    + rewrite app_nth2; rewrite repeat_length; [|lia]. destruct (k - (n - 1))%nat as [|m] eqn:Em; [lia|]. now destruct m.
Qed.
Lemma elast_length n : (0 < n)%nat -> length (elast n) = n.
Proof. intros H. unfold elast. rewrite app_length, repeat_length. cbn. lia. Qed.
Lemma dotl_elast v n : (0 < n)%nat -> length v = n -> dotl (elast n) v = last v 0.
Proof.
  intros Hn H. rewrite dotl_index by (now rewrite elast_length). rewrite last_nth, H.
  rewrite (sumf_ext _ (fun k => if (k =? n - 1)%nat then nth (n - 1) v 0 else 0)).
  - assert (S1 : In (n - 1)%nat (seq 0 n)) by (apply in_seq; lia). apply in_split in S1. destruct S1 as (l1 & l2 & E).
    assert (Nd := seq_NoDup n 0). rewrite E in Nd |- *. apply NoDup_remove_2 in Nd. rewrite in_app_iff in Nd. rewrite sumf_app. cbn [sumf]. rewrite Nat.eqb_refl.
    rewrite !(sumf_zero (fun k => if (k =? n - 1)%nat then nth (n - 1) v 0 else 0)); [ring| |]; intros k Hk; destruct (k =? n - 1)%nat eqn:Ek; try easy; apply Nat.eqb_eq in Ek; subst k; tauto.
  - intros k Hk. rewrite nth_elast by easy. destruct (k =? n - 1)%nat eqn:Ek; [apply Nat.eqb_eq in Ek; subst; ring|ring].
Qed.
Lemma n_par_pos : (0 < n_par T N)%nat. Proof. unfold n_par. lia. Qed.
Lemma coef_of_addlast c b : length b = n_par T N -> coef_of T N (vadd b (vscal c (elast (n_par T N)))) = addtau c (coef_of T N b).
Proof.
  intros Hb. assert (Le : length (vscal c (elast (n_par T N))) = n_par T N) by (rewrite vscal_length; apply elast_length, n_par_pos).
  assert (Nn : forall k, nth k (vadd b (vscal c (elast (n_par T N)))) 0 = nth k b 0 + c * (if (k =? n_par T N - 1)%nat then 1 else 0)).
  { intros k. rewrite nth_vadd by congruence. now rewrite nth_vscal, nth_elast by apply n_par_pos. }
  unfold coef_of, addtau. cbn [jmu ja jb jtau]. f_equal.
  - rewrite Nn. destruct (0 =? n_par T N - 1)%nat eqn:E; [|ring]. apply Nat.eqb_eq in E. unfold n_par in E. lia.
  - apply functional_extensionality; intros i. destruct ((i =? 0)%nat || (N <=? i)%nat) eqn:E; [easy|]. rewrite Nn. apply orb_false_iff in E. destruct E as [E0 E]. apply Nat.leb_gt in E.
    destruct (i =? n_par T N - 1)%nat eqn:E2; [|ring]. apply Nat.eqb_eq in E2. unfold n_par in E2. lia.
  - apply functional_extensionality; intros t. destruct ((t =? 0)%nat || (T <=? t)%nat) eqn:E; [easy|]. rewrite Nn. apply orb_false_iff in E. destruct E as [E0 E].
    apply Nat.leb_gt in E. apply Nat.eqb_neq in E0.
    destruct (N - 1 + t =? n_par T N - 1)%nat eqn:E2; [|ring]. apply Nat.eqb_eq in E2. unfold n_par in E2. lia.
  - rewrite !last_nth, Nn. rewrite (vadd_length b _ (n_par T N)) by easy. rewrite Hb, Nat.eqb_refl. ring.
Qed.
Theorem wls_shift y y' c : ident T N D w -> (forall t i, (t < T)%nat -> (i < N)%nat -> w t i <> 0 -> y' t i = y t i + c * IZR (D t i)) ->
  wls lstsq T N y' D w = match wls lstsq T N y D w with JOk x => JOk (addtau c x) | e => e end.
Proof.
  intros Hid Hy. set (b := lstsq (cells T N) (wcols T N D w) (yw y)). assert (Hb : is_mn (cells T N) (wcols T N D w) (yw y) b) by apply Hmn.
  rewrite (wls_def y b Hb). assert (Lb : length b = n_par T N) by (rewrite <- (wcols_length T N D w); apply Hb).
  set (e := vscal c (elast (n_par T N))). assert (Le : length e = n_par T N) by (unfold e; rewrite vscal_length; apply elast_length, n_par_pos).
  assert (M : is_mn (cells T N) (wcols T N D w) (yw y') (vadd b e)).
  { split.
    - apply (ls_ext (cells T N) (wcols T N D w) (fun x => yw y x + lc (wcols T N D w) e x)).
      + intros [t i] Hc. apply in_cells in Hc. destruct Hc as [Ht Hi]. rewrite lc_wcols by (easy || tauto).
        assert (E : fitv D (coef_of T N e) t i = c * IZR (D t i)).
        { assert (Z0 : coef_of T N e = addtau c (coef_of T N (repeat 0 (n_par T N)))).
          { rewrite <- coef_of_addlast by apply repeat_length. f_equal. fold e. clear -Le. revert Le. generalize (n_par T N). induction e as [|x l IH]; intros [|n] H; try discriminate; [easy|].
            cbn [repeat vadd]. rewrite <- IH by (injection H; auto). f_equal. ring. }
          rewrite Z0. unfold fitv, addtau, coef_of. cbn [jmu ja jb jtau]. rewrite !nth_repeat. destruct ((i =? 0)%nat || (N <=? i)%nat), ((t =? 0)%nat || (T <=? t)%nat);
          rewrite last_nth, nth_repeat; ring. }
        rewrite E. unfold yw. cbn [fst snd]. destruct (Req_dec (w t i) 0) as [E0|E0]; [rewrite sqw_zero by easy; ring|]. rewrite Hy by easy. ring.
      + apply ls_add; [apply Hb|]. apply ls_exact; [rewrite wcols_length; easy|easy].
    - intros v Kv. assert (Lv := proj1 Kv). rewrite wcols_length in Lv. rewrite dotl_vadd by congruence. rewrite (proj2 Hb v Kv). unfold e. rewrite dotl_vscal, dotl_elast by (easy || apply n_par_pos).
      rewrite (kernel_tau v Hid Kv). ring. }
  rewrite (wls_def y' _ M). destruct (Rltb _ _); [easy|]. unfold e. now rewrite coef_of_addlast.
Qed.

(* exact recovery *)
Theorem wls_exact y c mu a b tau : wls lstsq T N y D w = JOk c ->
  (forall t i, (t < T)%nat -> (i < N)%nat -> w t i <> 0 -> y t i = mu + a i + b t + tau * IZR (D t i)) ->
  (forall t i, (t < T)%nat -> (i < N)%nat -> w t i <> 0 -> fitv D c t i = y t i) /\ (ident T N D w -> jtau c = tau).
Proof.
  intros Hc Hy. destruct (wls_inv y c Hc) as (bl & -> & [Hls _]).
  assert (Ls : is_ls (cells T N) (wcols T N D w) (yw y) (coefs T N mu a b tau)).
  { apply ls_exact; [rewrite wcols_length; apply coefs_length|]. intros [t i] Hx. apply in_cells in Hx. destruct Hx as [Ht Hi]. rewrite lc_wcols by (apply coefs_length || easy).
    rewrite fitv_coefs by easy. unfold yw. cbn [fst snd]. destruct (Req_dec (w t i) 0) as [E0|E0]; [rewrite sqw_zero by easy; ring|]. rewrite Hy by easy. ring. }
  assert (F : forall t i, (t < T)%nat -> (i < N)%nat -> w t i <> 0 -> fitv D (coef_of T N bl) t i = mu + a i + b t + tau * IZR (D t i)).
  { intros t i Ht Hi Hz. assert (E := ls_fitted_unique _ _ _ _ _ Hls Ls (t, i) (proj2 (in_cells T N t i) (conj Ht Hi))).
    rewrite !lc_wcols in E by (easy || apply coefs_length || (rewrite <- (wcols_length T N D w); apply Hls)). rewrite fitv_coefs in E by easy.
    assert (P : 0 < sqw w (t, i)) by (apply sqw_pos; specialize (Hw t i Ht Hi); lra). apply Rmult_eq_reg_l in E; [easy|lra]. }
  split; [intros t i Ht Hi Hz; rewrite F, Hy by easy; easy|].
  intros (i & j & s & t & Hi & Hj & Hs & Ht & W1 & W2 & W3 & W4 & HD).
  assert (Z1 := F s i Hs Hi ltac:(lra)). assert (Z2 := F s j Hs Hj ltac:(lra)). assert (Z3 := F t i Ht Hi ltac:(lra)). assert (Z4 := F t j Ht Hj ltac:(lra)).
  unfold fitv in *. assert (E : (jtau (coef_of T N bl) - tau) * (IZR (D t i) - IZR (D t j) - (IZR (D s i) - IZR (D s j))) = 0) by lra.
  apply Rmult_integral in E. destruct E; [lra|easy].
Qed.
End Wls.

(* wild_bootstrap_se: the exact p-value in terms of least squares fits and cluster-robust variances. *)
From Verif Require Import Prelude Flt Stats_model Stats_proofs Linalg_model Linalg_proofs Linalg_vcov Linalg_thms Did_model Did_spec Did_proofs Did_equiv Boot_model Boot_proofs.
From Coq Require Import Arith ZArith String List Lia Lra.
Import ListNotations.
Open Scope R_scope.

Section Wild.
Context {I K : Type} (eqd : forall x y : K, {x = y} + {x <> y}).
Variable qr : list I -> list (I -> R) -> list nat.
Variable lstsq : list I -> list (I -> R) -> (I -> R) -> list R.
Variable inv : list I -> list (I -> R) -> option (nat -> nat -> R).
Hypothesis Hqr : qr_ok qr.
Hypothesis Hls : lstsq_ok lstsq.
Hypothesis Hinv : inv_ok inv.
Notation wb := (wild_bootstrap eqd qr lstsq inv).
Notation solve := (solve_ols eqd qr lstsq inv).
Notation rvcov := (robust_vcov eqd inv).

Lemma solve_full_vcov rows cols y cl action o j :
  indep rows cols -> (j < length cols)%nat -> solve rows cols y (Some cl) true action = Ok o ->
  exists b V, is_ls rows cols y b /\ o_coef o = map Fin b /\
    rvcov rows cols (fun i => y i - lc cols b i) (Some cl) = Ok V /\ diag (o_vcov o) j = Fin (V j j) /\ 0 <= V j j.
Proof.
  intros Hind Hj H.
  destruct (solve_ols_full_rank eqd qr lstsq inv Hqr Hls _ _ _ _ _ _ _ Hind H) as (b & Hb & Hlb & Hu).
  pose proof (solve_ols_shape eqd qr lstsq inv Hls _ _ _ _ _ _ _ H) as S. cbv zeta in S.
  rewrite (qr_indep_none qr rows cols Hqr Hind), select_cols_full in S.
  destruct S as (_ & _ & _ & _ & _ & (V & HV & W & HW & HE) & _ & Hle).
  assert (Eb : lstsq rows cols y = b) by (apply Hu, Hls). rewrite Eb in HV.
  exists b, V. split; [apply Hu; reflexivity|]. split; [exact Hb|]. split; [exact HV|].
  split.
  - unfold diag. rewrite HW, HE by auto. rewrite kept_cols_nil. unfold expand_vcov. rewrite index_of_seq by auto. reflexivity.
  - exact (robust_vcov_diag_nonneg eqd inv Hinv _ _ _ _ _ Hle HV j).
Qed.

Definition wild_y (cols : list (I -> R)) (y : I -> R) (cl : I -> K) (j : nat) (null : R) (bh : list R) (w : K -> R) (i : I) : R :=
  lc cols bh i - null * colx cols j i + (y i - lc cols bh i) * w (cl i).

Theorem wild_p_exact rows cols y cl j wt null alpha ws r :
  wb rows cols y cl j wt null alpha ws = Ok r ->
  exists bh V0 ts,
    is_ls rows cols y bh /\
    rvcov rows cols (fun i => y i - lc cols bh i) (Some cl) = Ok V0 /\
    w_t r = fdiv (Fin (nth j bh 0 - null)) (Fin (sqrt (V0 j j))) /\
    Forall2 (fun w t => exists b V,
               is_ls rows cols (wild_y cols y cl j null bh w) b /\
               rvcov rows cols (fun i => wild_y cols y cl j null bh w i - lc cols b i) (Some cl) = Ok V /\
               t = if Rltb 0 (V j j) then (nth j b 0 - null) / sqrt (V j j) else 0) ws ts /\
    w_p r = Rmax (share (fun t => fge (Fin (Rabs t)) (fabs (w_t r))) ts) (1 / (len ws + 1)).
Proof.
  intros H. pose proof (fun Hd => wild_rank_deficient eqd qr lstsq inv Hqr Hls rows cols y cl j wt null alpha ws Hd r H) as Hd.
  assert (Hq : qr rows cols = []).
  { destruct (qr rows cols); auto. exfalso; apply Hd; discriminate. }
  pose proof (not_dropped_indep qr Hqr rows cols Hq) as Hind.
  apply wild_inv in H as (_ & Hj & _ & o & orr & reps & Eo & Er & En & HF & Hc & Ht & Hp & _).
  destruct (solve_full_vcov _ _ _ _ _ _ j Hind Hj Eo) as (bh & V0 & Hlsh & Hbh & HV0 & HD0 & P0).
  destruct (solve_ols_full_rank eqd qr lstsq inv Hqr Hls _ _ _ _ _ _ _ Hind Er) as (br & Hbr & Hlbr & Hur).
  assert (Hlbh : length bh = length cols) by apply Hlsh.
  assert (Hbr' : br = vadd bh (vscal (- null) (unitv (length cols) j))).
  { symmetry. apply Hur. eapply ls_ext; [|apply ls_add; [exact Hlsh|apply ls_scal, ls_exact with (y := colx cols j)]].
    - intros i Hi; simpl. ring.
    - unfold unitv. rewrite map_length, seq_length; auto.
    - intros i Hi. rewrite unitv_lc; auto. }
  assert (Hfit : forall i, lc cols br i = lc cols bh i - null * colx cols j i).
  { intros i. rewrite Hbr', lc_vadd.
    - rewrite lc_vscal, unitv_lc by auto. ring.
    - auto.
    - rewrite vscal_length. unfold unitv. rewrite map_length, seq_length; auto. }
  assert (Hres : forall i, In i rows -> o_resid orr i = y i - lc cols bh i).
  { intros i Hi.
    destruct (solve_ols_projection eqd qr lstsq inv Hqr Hls _ _ _ _ _ _ _ Er) as (_ & Hf & Hre).
    rewrite Hre, (Hf br (proj2 (Hur br) eq_refl) i Hi), Hfit. ring. }
  rewrite Hbr, fin_map_nan in HF.
  assert (Hnth : forall b, length b = length cols -> nth j (map Fin b) NaN = Fin (nth j b 0)).
  { intros b Hl. rewrite nth_indep with (d' := Fin 0) by (rewrite map_length; lia). apply (map_nth Fin). }
  exists bh, V0, (map snd reps). split; [exact Hlsh|]. split; [exact HV0|].
  split. { rewrite Ht, Hbh, (Hnth bh Hlbh), HD0, sqrt_fin by exact P0. reflexivity. }
  split.
  2: { rewrite Hp. f_equal. unfold share. rewrite meanf_map. reflexivity. }
  clear Hc Hp. induction HF as [|w ct ws reps Hw HF IH]; [constructor|]. simpl. constructor; [|exact IH].
  unfold wild_rep in Hw.
  destruct (solve rows cols (fun i => lc cols br i + o_resid orr i * w (cl i)) (Some cl) true "warn") as [os|] eqn:Es;
    cbn [bind] in Hw; [|discriminate].
  destruct (solve_full_vcov _ _ _ _ _ _ j Hind Hj Es) as (b & V & Hb & Hcb & HV & HD & PV).
  assert (Hy : forall i, In i rows -> lc cols br i + o_resid orr i * w (cl i) = wild_y cols y cl j null bh w i).
  { intros i Hi. unfold wild_y. rewrite Hfit, Hres by auto. reflexivity. }
  assert (Hdef : exists V', rvcov rows cols (fun i => wild_y cols y cl j null bh w i - lc cols b i) (Some cl) = Ok V').
  { pose proof (robust_vcov_defined eqd inv rows cols (fun i => lc cols br i + o_resid orr i * w (cl i) - lc cols b i)
      (fun i => wild_y cols y cl j null bh w i - lc cols b i) (Some cl)) as E.
    rewrite HV in E. destruct (rvcov rows cols (fun i => wild_y cols y cl j null bh w i - lc cols b i) (Some cl)) as [V'|]; [eauto|discriminate]. }
  destruct Hdef as (V' & HV').
  assert (EV : V j j = V' j j).
  { eapply (robust_vcov_resid_ext eqd inv Hinv); [|exact HV|exact HV'|..]; auto. intros i Hi. simpl. rewrite Hy by auto. reflexivity. }
  exists b, V'. split; [eapply ls_ext; [exact Hy|exact Hb]|]. split; [exact HV'|].
  inversion Hw; subst ct; clear Hw. cbn [snd]. rewrite HD, Hcb, (Hnth b (proj1 Hb)), sqrt_fin by exact PV. cbn [nan_to_zero].
  rewrite <- EV. unfold fgt. cbn [flt].
  destruct (Rltb 0 (V j j)) eqn:E1.
  - apply Rltb_true in E1. assert (E2 : 0 < sqrt (V j j)) by (apply sqrt_lt_R0; exact E1).
    apply Rltb_true in E2. rewrite E2. reflexivity.
  - apply Rltb_false in E1. assert (E3 : V j j = 0) by lra. rewrite E3, sqrt_0.
    destruct (Rltb 0 0) eqn:E2; [apply Rltb_true in E2; lra|reflexivity].
Qed.

(* the replicates, hence the reported interval, move with the tested null: testing [null] instead of 0 shifts
   every bootstrap coefficient by -null *)
Theorem wild_null_shift rows cols y cl j wt null alpha ws r r0 :
  0 <= alpha <= 1 ->
  wb rows cols y cl j wt null alpha ws = Ok r -> wb rows cols y cl j wt 0 alpha ws = Ok r0 ->
  w_coefs r = map (fun c => c - null) (w_coefs r0) /\
  fst (w_ci r) = fst (w_ci r0) - null /\ snd (w_ci r) = snd (w_ci r0) - null.
Proof.
  intros Ha H H0.
  destruct (wild_ls eqd qr lstsq inv Hqr Hls _ _ _ _ _ _ _ _ _ _ H) as (bh & bs & Hind & Hj & Hb & HF & Hc).
  destruct (wild_ls eqd qr lstsq inv Hqr Hls _ _ _ _ _ _ _ _ _ _ H0) as (bh0 & bs0 & _ & _ & Hb0 & HF0 & Hc0).
  assert (E : bh0 = bh) by (eapply ls_coef_unique; eauto). subst bh0.
  assert (EC : w_coefs r = map (fun c => c - null) (w_coefs r0)).
  { rewrite Hc, Hc0, map_map. clear Hc Hc0 H H0. revert bs0 HF0.
    induction HF as [|w b ws bs Hw HF IH]; intros bs0 HF0; inversion HF0; subst; [reflexivity|].
    simpl. f_equal; [|apply IH; auto].
    match goal with Hy : is_ls rows cols _ ?b1 |- _ = nth j ?b1 0 - null =>
      assert (E1 : b = vadd b1 (vscal (- null) (unitv (length cols) j)));
      [eapply ls_coef_unique; [exact Hind|exact Hw|];
       eapply ls_ext; [|apply ls_add; [exact Hy|apply ls_scal, ls_exact with (y := colx cols j)]]
      |pose proof (proj1 Hy) as L1]
    end.
    - intros i Hi; simpl. ring.
    - unfold unitv. rewrite map_length, seq_length; auto.
    - intros i Hi. rewrite unitv_lc; auto.
    - rewrite E1. rewrite vadd_nth.
      + rewrite vscal_nth, unitv_nth, Nat.eqb_refl by auto. ring.
      + rewrite vscal_length. unfold unitv. rewrite map_length, seq_length; auto. }
  split; [exact EC|].
  assert (Hne : w_coefs r0 <> []).
  { destruct (wild_inv eqd qr lstsq inv _ _ _ _ _ _ _ _ _ _ H0) as (Hw & _).
    pose proof (proj2 (wild_ci_ordered eqd qr lstsq inv _ _ _ _ _ _ _ _ _ _ Ha H0)) as L.
    intros E. rewrite E in L. destruct ws; [congruence|discriminate]. }
  apply wild_inv in H as (_ & _ & _ & ? & ? & ? & _ & _ & _ & _ & _ & _ & _ & Hci & _).
  apply wild_inv in H0 as (_ & _ & _ & ? & ? & ? & _ & _ & _ & _ & _ & _ & _ & Hci0 & _).
  rewrite Hci, Hci0, EC. cbn [fst snd].
  assert (Em : map (fun c => c - null) (w_coefs r0) = map (fun c => 1 * c + - null) (w_coefs r0))
    by (apply map_ext; intros; ring).
  rewrite Em. rewrite !percentile_affine by (auto; lra). split; ring.
Qed.
End Wild.

(* Corollaries and cases for the row order of SunAbraham and MultiPeriodDiD. *)
From Coq Require Import Reals Lra Lia.
From Verif Require Import Prelude Flt Stats_model Stats_proofs Linalg_model Linalg_proofs Linalg_vcov Linalg_thms Linalg_dual Did_model Did_spec Did_proofs Did_equiv Within_proofs Multi_model Multi_proofs Multi_thms
  Boot_model Boot_proofs Bacon_model Bacon_proofs Bacon_thms Staggered_model Staggered_proofs Staggered_est Staggered_thms Staggered_more Staggered_fit Sun_model Sun_proofs Sun_thms Sun_more Sun_cs Sun_inf Sun_boot Sun_ex Sun_equiv Sun_rows.
From Coq Require Import Arith ZArith String List Permutation.
Import ListNotations.
Open Scope R_scope.

Section C.
Context {I : Type}.
Variable qr : list I -> list (I -> R) -> list nat.
Variable lstsq : list I -> list (I -> R) -> (I -> R) -> list R.
Variable inv : list I -> list (I -> R) -> option (nat -> nat -> R).
Variable pinv : list I -> list (I -> R) -> nat -> nat -> R.
Variable sf : option Z -> fl -> fl.
Variable ppf : option Z -> R -> R.
Hypothesis Hqr : qr_ok qr.
Hypothesis Hls : lstsq_ok lstsq.
Hypothesis Hinv : inv_ok inv.
Variables (u t : I -> Z) (g : I -> coh) (y : I -> R) (cluster : option (I -> Z)).
Notation fit := (sa_fit qr lstsq inv pinv sf ppf u t g y [] cluster).

(* balanced panels whose cohorts are attributes of the unit and whose reference periods are observed *)
Theorem sa_row_order_balanced cfg rows rows' C m r : Permutation rows rows' -> balanced Z.eq_dec Z.eq_dec rows u t m -> (forall i, In i rows -> g i = C (u i)) ->
  (forall i, In i rows -> valid_coh (g i) = true) -> ref_observed t g rows cfg -> fit cfg rows = Ok r -> fit cfg rows' = Ok r.
Proof.
  intros P Hb HC Hv Hr Hf. rewrite <- Hf. assert (ES : sa_sample g cfg rows = rows) by (apply sample_all; exact Hv).
  apply (sa_row_order qr lstsq inv pinv sf ppf Hqr Hls Hinv u t g y [] cluster rows rows' cfg P).
  - intros i j Hi Hj E. rewrite (HC i Hi), (HC j Hj), E. reflexivity.
  - unfold sa_full_rank. rewrite ES.
    destruct (sa_fit_inv qr lstsq inv pinv sf ppf u t g y [] cluster cfg rows r Hf) as (Hn & _ & reg & Hs & _). rewrite ES in Hs.
    destruct (saturated_inv qr lstsq inv pinv Hls u t g y [] cluster _ _ _ _ _ Hs) as (Ek & _). rewrite <- Ek.
    exact (fit_full_rank qr lstsq inv pinv Hls u t g y [] cluster rows C m Hb HC cfg reg eq_refl Hr Hn Hs).
Qed.
End C.

Section M.
Context {I K G : Type} (keq : forall x y : K, {x = y} + {x <> y}) (geq : forall x y : G, {x = y} + {x <> y}).
Variable qr : list I -> list (I -> R) -> list nat.
Variable lstsq : list I -> list (I -> R) -> (I -> R) -> list R.
Variable inv : list I -> list (I -> R) -> option (nat -> nat -> R).
Variable sf : option Z -> fl -> fl.
Variable ppf : option Z -> R -> R.
Hypothesis Hqr : qr_ok qr.
Hypothesis Hls : lstsq_ok lstsq.
Hypothesis Hinv : inv_ok inv.
Notation fit := (mp_fit keq geq qr lstsq inv sf ppf).

Theorem mp_row_order_identified cfg r1 r2 y d t post ref a : Permutation r1 r2 -> zero_one r1 d ->
  fit cfg r1 y d t post ref [] [] [] = Ok a -> identified r1 d t (mp_post a) ->
  exists b, fit cfg r2 y d t post ref [] [] [] = Ok b /\ mp_same (length (mp_coef a)) a b.
Proof.
  intros P Hd Ha (Hn & Hc & Hs).
  assert (HF : mp_full_rank geq r1 y d t post ref [] [] []).
  { intros pre post' ref' Hset.
    assert (E : post' = mp_post a).
    { revert Ha. unfold mp_fit. destruct (negb _); [discriminate|]. destruct (negb _); [discriminate|]. destruct (Nat.ltb _ 2); [discriminate|]. rewrite Hset. cbn [bind absorb_loop].
      destruct (solve_ols _ _ _ _ _ _ _ _ _ _); [|discriminate]. cbn [bind]. destruct (if (_ && _)%bool then _ else _); [|discriminate]. cbn [bind].
      destruct (mp_average _ _ _ _ _ _ _) as [[[[av ase] at'] ap] aci]. injection 1 as <-. reflexivity. }
    subst post'. change (zsort (nodup Z.eq_dec (map t r1))) with (data_periods r1 t) in *. cbn [absorb_loop fst snd app].
    destruct (mp_setup_ok _ _ _ _ _ _ Hset (data_periods_nodup r1 t)) as (_ & _ & Hincl & Href & _).
    apply (mp_indep r1 d t (data_periods r1 t) (mp_post a) ref' Hd); auto; [intros i Hi; apply data_periods_in; eauto|apply data_periods_occ|apply data_periods_nodup]. }
  pose proof (mp_row_order keq geq qr lstsq inv sf ppf Hqr Hls Hinv cfg r1 r2 y d t post ref [] [] [] P HF) as H. rewrite Ha in H.
  destruct (fit cfg r2 y d t post ref [] [] []) as [b|]; [|contradiction]. exists b. split; [reflexivity|exact H].
Qed.
End M.

(* first_treat coded row by row: unit 1 is "never treated" in period 1 and of cohort 2 in period 2 *)
Definition vary_g (i : Z * Z) : coh := if (Z.eqb (fst i) 1 && Z.eqb (snd i) 2)%bool then CFin 2 else CFin 0.
Definition vary1 : list (Z * Z) := [(1, 1); (1, 2); (2, 1); (2, 2)]%Z.
Definition vary2 : list (Z * Z) := [(1, 2); (1, 1); (2, 1); (2, 2)]%Z.

Section Ex.
Variable qr : list (Z * Z) -> list (Z * Z -> R) -> list nat.
Variable lstsq : list (Z * Z) -> list (Z * Z -> R) -> (Z * Z -> R) -> list R.
Variable inv : list (Z * Z) -> list (Z * Z -> R) -> option (nat -> nat -> R).
Variable pinv : list (Z * Z) -> list (Z * Z -> R) -> nat -> nat -> R.
Variable sf : option Z -> fl -> fl.
Variable ppf : option Z -> R -> R.
Hypothesis Hqr : qr_ok qr.
Hypothesis Hls : lstsq_ok lstsq.
Hypothesis Hinv : inv_ok inv.
Notation fit y := (sa_fit qr lstsq inv pinv sf ppf fst snd vary_g y [] None (sa_demo "never_treated" 0)).

Theorem row_order_35 y rows' : Permutation rows35 rows' -> exists r,
  sa_fit qr lstsq inv pinv sf ppf fst snd (gco C35) y [] None (sa_demo "never_treated" 0) rows35 = Ok r /\
  sa_fit qr lstsq inv pinv sf ppf fst snd (gco C35) y [] None (sa_demo "never_treated" 0) rows' = Ok r.
Proof.
  intros P. destruct (fit35 qr lstsq inv pinv sf ppf Hqr Hinv "never_treated" y) as (r & Hr & _ & Ho). exists r. split; [exact Hr|].
  apply (sa_row_order_balanced qr lstsq inv pinv sf ppf Hqr Hls Hinv fst snd (gco C35) y None (sa_demo "never_treated" 0) rows35 rows' C35 1 r P bal35); auto.
  intros i _. apply valid35.
Qed.

Lemma vary_sample l : sa_sample vary_g (sa_demo "never_treated" 0) l = l.
Proof. apply sample_all. intros i _. unfold vary_g. destruct (_ && _)%bool; reflexivity. Qed.

Theorem row_order_varying_cohort y : exists r r', Permutation vary1 vary2 /\ fit y vary1 = Ok r /\ fit y vary2 = Ok r' /\
  sa_es r = [] /\ sa_att r = Fin 0 /\ sa_rn_treated r = 0%nat /\ sa_rn_control r = 2%nat /\
  map fst (sa_es r') = [0%Z] /\ sa_att r' = Fin (y (1, 2)%Z - y (1, 1)%Z - (y (2, 2)%Z - y (2, 1)%Z)) /\ sa_rn_treated r' = 1%nat /\ sa_rn_control r' = 1%nat.
Proof.
  assert (F1 : exists r, fit y vary1 = Ok r /\ map fst (sa_coh_effects r) = [(CFin 2, 0%Z)]).
  { destruct (fit_succeeds qr lstsq inv pinv sf ppf Hqr Hinv fst snd vary_g y [] None (sa_demo "never_treated" 0) vary1) as (r & Hr & Hk); rewrite ?vary_sample in *.
    - vm_compute. discriminate.
    - left. reflexivity.
    - vm_compute. discriminate.
    - apply Nat.ltb_lt. vm_compute. reflexivity.
    - apply Nat.leb_le. vm_compute. reflexivity.
    - apply (sa_cols_nonzero _ fst snd _ [] _ (CFin 2, 0%Z) (1, 2)%Z (1, 1)%Z (2, 2)%Z (2, 1)%Z); try reflexivity; vm_compute; auto 30.
    - exists r. split; [exact Hr|]. rewrite Hk. vm_compute. reflexivity. }
  assert (F2 : exists r, fit y vary2 = Ok r /\ map fst (sa_coh_effects r) = [(CFin 2, 0%Z)]).
  { destruct (fit_succeeds qr lstsq inv pinv sf ppf Hqr Hinv fst snd vary_g y [] None (sa_demo "never_treated" 0) vary2) as (r & Hr & Hk); rewrite ?vary_sample in *.
    - vm_compute. discriminate.
    - left. reflexivity.
    - vm_compute. discriminate.
    - apply Nat.ltb_lt. vm_compute. reflexivity.
    - apply Nat.leb_le. vm_compute. reflexivity.
    - apply (sa_cols_nonzero _ fst snd _ [] _ (CFin 2, 0%Z) (1, 2)%Z (1, 1)%Z (2, 2)%Z (2, 1)%Z); try reflexivity; vm_compute; auto 30.
    - exists r. split; [exact Hr|]. rewrite Hk. vm_compute. reflexivity. }
  destruct F1 as (r & Hr & Kr), F2 as (r' & Hr' & Kr'). exists r, r'. split; [apply perm_swap|]. split; [exact Hr|]. split; [exact Hr'|].
  destruct (sa_fit_inv qr lstsq inv pinv sf ppf fst snd vary_g y [] None _ _ r Hr) as (_ & _ & reg & _ & A1 & _ & A3 & _ & _ & _ & _ & _ & A9 & A10 & _).
  destruct (sa_fit_inv qr lstsq inv pinv sf ppf fst snd vary_g y [] None _ _ r' Hr') as (_ & _ & reg' & Hs & B1 & _ & B3 & _ & _ & _ & _ & _ & B9 & B10 & _).
  assert (EG1 : sa_groups vary_g vary1 = [CFin 2]) by (vm_compute; reflexivity). assert (EG2 : sa_groups vary_g vary2 = [CFin 2]) by (vm_compute; reflexivity).
  assert (ER1 : sa_rel_periods snd vary_g (sa_demo "never_treated" 0) vary1 = [0%Z]) by (vm_compute; reflexivity).
  assert (ER2 : sa_rel_periods snd vary_g (sa_demo "never_treated" 0) vary2 = [0%Z]) by (vm_compute; reflexivity).
  rewrite EG1, ER1 in *. rewrite EG2, ER2 in *.
  assert (EI : sa_iw sf ppf fst vary_g (sa_demo "never_treated" 0) [CFin 2] [0%Z] reg vary1 = []).
  { unfold sa_iw. cbn [flat_map]. unfold sa_weights. destruct (Req_EM_T _ 0) as [|E0]; [reflexivity|]. exfalso. apply E0.
    cbn [filter]. destruct (sr_has reg (CFin 2, 0%Z)); cbn [sumf]; [|reflexivity]. replace (sa_size fst vary_g vary1 (CFin 2)) with 0%nat by (vm_compute; reflexivity). simpl. lra. }
  rewrite EI in *. split; [exact A1|]. split; [exact A3|]. split; [rewrite A9; vm_compute; reflexivity|]. split; [rewrite A10; vm_compute; reflexivity|].
  clear A1 A3 A9 A10 EI EG1 ER1 Hr Kr r reg. rewrite vary_sample in Hs.
  destruct (saturated_inv qr lstsq inv pinv Hls fst snd vary_g y [] None _ _ _ _ _ Hs) as (Ek & _ & o & Ho & Hc & _).
  assert (EK : sr_keys reg' = [(CFin 2, 0%Z)]) by (rewrite Ek; vm_compute; reflexivity). rewrite EK in Ho.
  assert (EW : sa_weights fst vary_g [CFin 2] reg' vary2 0 = [(CFin 2, 1)]).
  { unfold sa_weights. replace (filter (fun gr => sr_has reg' (gr, 0%Z)) [CFin 2]) with [CFin 2] by (cbn; unfold sr_has, sr_at; rewrite EK; reflexivity).
    cbn [sumf map]. replace (sa_size fst vary_g vary2 (CFin 2)) with 1%nat by (vm_compute; reflexivity). simpl INR.
    destruct (Req_EM_T (1 + 0) 0); [lra|]. do 2 f_equal. field. }
  set (v := y (1, 2)%Z - y (1, 1)%Z - (y (2, 2)%Z - y (2, 1)%Z)).
  assert (HE : sr_eff reg' (CFin 2, 0%Z) = Fin v).
  { unfold sr_eff, sr_at. rewrite EK, Hc. cbn [key_index]. replace (key_eqb (CFin 2, 0%Z) (CFin 2, 0%Z)) with true by reflexivity.
    set (q := fun i : Z * Z => if Z.eqb (fst i) (snd i) then -1 else 1).
    assert (Hip : forall x : Z * Z -> R, ip vary2 q x = x (1, 2)%Z - x (1, 1)%Z + x (2, 1)%Z - x (2, 2)%Z) by (intros x; unfold ip, vary2, q; cbn; ring).
    assert (HW : forall x i, In i vary2 -> within Z.eq_dec Z.eq_dec vary2 fst snd x i = q i / 4 * (x (1, 2)%Z - x (1, 1)%Z + x (2, 1)%Z - x (2, 2)%Z)).
    { intros x i Hi. cbn in Hi. unfold q. destruct Hi as [<-|[<-|[<-|[<-|[]]]]]; unfold within, group_mean, meanf, vary2, len; cbn; field. }
    assert (HD : dual vary2 (sa_cols fst snd vary_g [] [(CFin 2, 0%Z)] vary2) 0 q).
    { split; [cbn; lia|]. split.
      - exists [4]. split; [reflexivity|]. intros i Hi. unfold sa_cols. cbn [map app]. unfold lc. cbn [combine fold_right map]. cbn. rewrite HW by exact Hi. unfold sa_dummy, sa_in, sa_rel, vary_g. cbn. field.
      - intros k Hk0. cbn in Hk0. assert (k = 0%nat) by lia. subst k. unfold colx, sa_cols. cbn [map app nth]. rewrite ip_sym, Hip, !HW by (cbn; tauto).
        unfold q, sa_dummy, sa_in, sa_rel, vary_g. cbn. field. }
    destruct (ols_dual Z.eq_dec qr lstsq inv Hqr Hls Hinv _ _ _ _ _ _ _ _ _ Ho HD) as (Hv & _). rewrite Hv. f_equal.
    rewrite Hip, !HW by (cbn; tauto). unfold v, q. cbn. field. }
  assert (EI : sa_iw sf ppf fst vary_g (sa_demo "never_treated" 0) [CFin 2] [0%Z] reg' vary2 = [(0%Z, ([(CFin 2, 1)], sa_effect sf ppf (1/20) reg' 0 [(CFin 2, 1)]))]).
  { unfold sa_iw. cbn [flat_map]. rewrite EW. reflexivity. }
  rewrite EI in *. split; [rewrite B1; reflexivity|]. split.
  - rewrite B3. unfold sa_overall, sa_post. cbn [filter fst]. replace (Z.leb 0 0) with true by reflexivity. cbn [sa_overall_weights flat_map].
    unfold sa_overall_weights, sa_post. cbn [filter fst snd flat_map map app]. replace (Z.leb 0 0) with true by reflexivity. cbn [flat_map map app fst snd].
    cbn [se_eff sa_effect]. cbn [map fst snd]. rewrite HE. cbn [fmul fsum fold_right fadd].
    unfold sa_pw, sa_post. cbn [filter fst]. replace (Z.leb 0 0) with true by reflexivity. cbn [sumf fst].
    replace (sa_n_at snd vary_g vary2 0) with 1%nat by (vm_compute; reflexivity). simpl Nat.max. simpl INR. cbn. f_equal. field.
  - split; [rewrite B9; vm_compute; reflexivity|rewrite B10; vm_compute; reflexivity].
Qed.
End Ex.

(* three periods, two treated and two control rows in each, in the opposite order *)
Theorem row_order_exm robust y : exists a b, exm_fit (exm_cfg robust None) (seq 0 12) y exm_d exm_t None None [] [] [] = Ok a /\
  exm_fit (exm_cfg robust None) (rev (seq 0 12)) y exm_d exm_t None None [] [] [] = Ok b /\ mp_same (length (mp_coef a)) a b.
Proof.
  destruct (exm_fit_ok robust y) as (a & Ha & _ & _ & Hid).
  destruct (mp_row_order_identified Nat.eq_dec Nat.eq_dec (@gs_dropped nat) (@gs nat) (@gs_inv nat) toy_sf toy_ppf gs_dropped_ok gs_ok gs_inv_ok
    (exm_cfg robust None) (seq 0 12) (rev (seq 0 12)) y exm_d exm_t None None a (Permutation_rev _)) as (b & Hb & Hs); auto.
  - intros i _. unfold exm_d. pose proof (Nat.mod_upper_bound i 2). destruct (i mod 2)%nat as [|[|k]]; [left; reflexivity|right; reflexivity|lia].
  - exists a, b. auto.
Qed.

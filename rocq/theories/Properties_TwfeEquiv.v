(* TwoWayFixedEffects: unit effects, unit of measurement, row order, labels, decompose (C125). *)
From Coq Require Import Reals.
From Verif Require Import Prelude Flt Linalg_model Linalg_proofs Linalg_vcov Linalg_thms Linalg_dual Did_model Did_spec Did_equiv
  Within_proofs Stats_model Staggered_model Bacon_model Twfe_model Twfe_proofs Twfe_equiv Twfe_labels.
From Coq Require Import Arith ZArith String List Permutation.
Import ListNotations.
Open Scope R_scope.

Section E.
Context {I U : Type} (ueq : forall x y : U, {x = y} + {x <> y}).
Variable qr : list I -> list (I -> R) -> list nat.
Variable lstsq : list I -> list (I -> R) -> (I -> R) -> list R.
Variable inv : list I -> list (I -> R) -> option (nat -> nat -> R).
Variable pinv : list I -> list (I -> R) -> nat -> nat -> R.
Variable sf : option Z -> fl -> fl.
Variable ppf : option Z -> R -> R.
Hypothesis Hqr : qr_ok qr.
Hypothesis Hls : lstsq_ok lstsq.
Hypothesis Hinv : inv_ok inv.
Notation fit := (twfe_fit ueq qr lstsq inv pinv sf ppf).
Notation tw_identified := (tw_identified ueq).
Theorem C125_unit_and_period_effects cluster alpha action rows y y' d tm u covs r s mm (a : U -> R) (b : R -> R) (g : list R) :
  Within_proofs.balanced ueq Req_EM_T rows u tm mm -> s <> 0 -> tw_identified rows d tm u covs ->
  (forall i, In i rows -> y' i = s * y i + (a (u i) + b (tm i)) + lc covs g i) ->
  fit cluster alpha action rows y d tm u covs = Ok r ->
  exists r', fit cluster alpha action rows y' d tm u covs = Ok r' /\ tw_rescaled rows s r r' /\ (g = [] -> tw_r2 r' = tw_r2 r).
Proof. exact (twfe_effects ueq qr lstsq inv pinv sf ppf Hqr Hls Hinv cluster alpha action rows y y' d tm u covs r s mm a b g). Qed.
Theorem C125_affine cluster alpha action rows y y' d tm u covs r s k (g : list R) :
  s <> 0 -> tw_identified rows d tm u covs ->
  (forall i, In i rows -> y' i = s * y i + k + lc covs g i) ->
  fit cluster alpha action rows y d tm u covs = Ok r ->
  exists r', fit cluster alpha action rows y' d tm u covs = Ok r' /\ tw_rescaled rows s r r' /\ (g = [] -> tw_r2 r' = tw_r2 r).
Proof. exact (twfe_affine ueq qr lstsq inv pinv sf ppf Hqr Hls Hinv cluster alpha action rows y y' d tm u covs r s k g). Qed.
Theorem C125_row_order cluster alpha action r1 r2 y d tm u covs a b :
  Permutation r1 r2 -> tw_identified r1 d tm u covs ->
  fit cluster alpha action r1 y d tm u covs = Ok a -> fit cluster alpha action r2 y d tm u covs = Ok b ->
  tw_att a = tw_att b /\ tw_se a = tw_se b /\ tw_t a = tw_t b /\ tw_p a = tw_p b /\ tw_ci a = tw_ci b /\ tw_df a = tw_df b /\
  tw_n_obs a = tw_n_obs b /\ tw_n_treated a = tw_n_treated b /\ tw_n_control a = tw_n_control b /\ tw_r2 a = tw_r2 b /\
  (forall i, In i r1 -> tw_resid a i = tw_resid b i).
Proof. exact (twfe_row_order ueq qr lstsq inv pinv sf ppf Hqr Hls Hinv cluster alpha action r1 r2 y d tm u covs a b). Qed.
Theorem C125_period_labels_law cluster alpha action rows y (dU : U -> R) tm u m k r r' :
  let d := fun i => dU (u i) in
  let D := fun i => d i * tm i in
  let q := ss rows D + 2 * k * cv rows D d + k * k * ss rows d in
  Within_proofs.balanced ueq Req_EM_T rows u tm m -> ss rows D <> 0 -> q <> 0 ->
  fit cluster alpha action rows y d tm u [] = Ok r ->
  fit cluster alpha action rows y d (fun i => tm i + k) u [] = Ok r' ->
  exists a, tw_att r = Fin a /\ tw_att r' = Fin (a * ss rows D / q).
Proof. exact (twfe_period_labels ueq qr lstsq inv pinv sf ppf Hqr Hls cluster alpha action rows y dU tm u m k r r'). Qed.
End E.
Section U.
Context {I U V : Type} (ueq : forall x y : U, {x = y} + {x <> y}) (veq : forall x y : V, {x = y} + {x <> y}).
Variable qr : list I -> list (I -> R) -> list nat.
Variable lstsq : list I -> list (I -> R) -> (I -> R) -> list R.
Variable inv : list I -> list (I -> R) -> option (nat -> nat -> R).
Variable pinv : list I -> list (I -> R) -> nat -> nat -> R.
Variable sf : option Z -> fl -> fl.
Variable ppf : option Z -> R -> R.
Variable f : U -> V.
Hypothesis Hf : forall x z, f x = f z -> x = z.
Theorem C125_unit_names cluster alpha action rows y d tm u covs :
  qr_ok qr ->
  match twfe_fit ueq qr lstsq inv pinv sf ppf cluster alpha action rows y d tm u covs,
        twfe_fit veq qr lstsq inv pinv sf ppf (option_map (fun c i => f (c i)) cluster) alpha action rows y d tm (fun i => f (u i)) covs with
  | Ok a, Ok b => tw_att a = tw_att b /\ tw_se a = tw_se b /\ tw_t a = tw_t b /\ tw_p a = tw_p b /\ tw_ci a = tw_ci b /\ tw_df a = tw_df b /\
                  tw_n_obs a = tw_n_obs b /\ tw_n_treated a = tw_n_treated b /\ tw_n_control a = tw_n_control b /\ tw_r2 a = tw_r2 b
  | Err x, Err x' => x = x'
  | _, _ => False
  end.
Proof. exact (twfe_unit_names ueq veq qr lstsq inv pinv sf ppf f Hf cluster alpha action rows y d tm u covs). Qed.
End U.
Section D.
Context {I : Type}.
Variable qr : list I -> list (I -> R) -> list nat.
Variable lstsq : list I -> list (I -> R) -> (I -> R) -> list R.
Variable inv : list I -> list (I -> R) -> option (nat -> nat -> R).
Variable pinv : list I -> list (I -> R) -> nat -> nat -> R.
Variable sf : option Z -> fl -> fl.
Variable ppf : option Z -> R -> R.
Hypothesis Hqr : qr_ok qr.
Hypothesis Hls : lstsq_ok lstsq.
Notation fit := (twfe_fit Z.eq_dec qr lstsq inv pinv sf ppf).
Notation WZ rows u t := (within Z.eq_dec Z.eq_dec rows u t).
Theorem C125_fit_vs_decompose cluster alpha action rows y d (u t : I -> Z) g m r :
  let D := btreat t g in
  let tm := fun i => IZR (t i) in
  Within_proofs.balanced Z.eq_dec Z.eq_dec rows u t m ->
  (forall i, In i rows -> d i * tm i = D i) -> 0 < ip rows (WZ rows u t D) (WZ rows u t D) ->
  fit cluster alpha action rows y d tm u [] = Ok r ->
  tw_att r = Fin (btwfe rows u t g y * (ip rows (WZ rows u t D) (WZ rows u t D) / ss rows D)).
Proof. exact (twfe_vs_decompose qr lstsq inv pinv sf ppf Hqr Hls cluster alpha action rows y d u t g m r). Qed.
Theorem C125_fit_below_decompose cluster alpha action rows y d (u t : I -> Z) g m r i0 i1 :
  let D := btreat t g in
  let tm := fun i => IZR (t i) in
  Within_proofs.balanced Z.eq_dec Z.eq_dec rows u t m ->
  (forall i, In i rows -> d i * tm i = D i) -> 0 < ip rows (WZ rows u t D) (WZ rows u t D) ->
  In i0 rows -> (forall j, In j rows -> u j = u i0 -> D j = 0) -> In i1 rows -> D i1 <> 0 ->
  fit cluster alpha action rows y d tm u [] = Ok r ->
  exists c, 0 < c < 1 /\ tw_att r = Fin (c * btwfe rows u t g y) /\ (btwfe rows u t g y <> 0 -> tw_att r <> Fin (btwfe rows u t g y)).
Proof. exact (twfe_not_decomposed qr lstsq inv pinv sf ppf Hqr Hls cluster alpha action rows y d u t g m r i0 i1). Qed.
End D.
Theorem C125_period_labels_refuted :
  exists r r', tl_run tw_tm tw_rows tw_y (fun i => tw_d (fst i)) = Ok r /\ tl_run tl_year tw_rows tw_y (fun i => tw_d (fst i)) = Ok r' /\
    tw_att r = Fin 1 /\ tw_att r' = Fin (3 / 16232843).
Proof. exact twfe_year_labels_refuted. Qed.
Theorem C125_unbalanced_effects_refuted :
  exists r r', tl_run tw_tm tl_ub (fun _ => 0) (fun i => tl_ud (fst i)) = Ok r /\
    tl_run tw_tm tl_ub (fun i => if Nat.eqb (fst i) 2 then 1 else 0) (fun i => tl_ud (fst i)) = Ok r' /\
    tw_att r = Fin 0 /\ tw_att r' = Fin (- (2 / 9)).
Proof. exact twfe_unit_effects_unbalanced_refuted. Qed.
Theorem C125_decompose_refuted : exists r,
  twfe_fit Z.eq_dec (@gs_dropped (Z * Z)) (@gs (Z * Z)) (@gs_inv (Z * Z)) (fun _ _ _ _ => 0) toy_sf toy_ppf None (5/100) "warn"
    zrows zy zd (fun i => IZR (snd i)) fst [] = Ok r /\ btwfe zrows fst snd zg zy = 3 /\ tw_att r = Fin 1.
Proof. exact twfe_decompose_refuted. Qed.
Theorem C125_case : exists r, tl_fit tw_y = Ok r /\ Within_proofs.balanced Nat.eq_dec Req_EM_T tw_rows fst tw_tm 1 /\
  tw_identified Nat.eq_dec tw_rows (fun i => tw_d (fst i)) tw_tm fst [tl_cov].
Proof. exact twfe_effects_case. Qed.
Print Assumptions C125_unit_and_period_effects.
Print Assumptions C125_affine.
Print Assumptions C125_row_order.
Print Assumptions C125_period_labels_law.
Print Assumptions C125_unit_names.
Print Assumptions C125_fit_vs_decompose.
Print Assumptions C125_fit_below_decompose.
Print Assumptions C125_period_labels_refuted.
Print Assumptions C125_unbalanced_effects_refuted.
Print Assumptions C125_decompose_refuted.
Print Assumptions C125_case.

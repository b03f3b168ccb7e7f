(* Effects the regressions and triple differences should ignore (C119, C120). *)
From Coq Require Import Reals.
From Verif Require Import Prelude Flt Stats_model Linalg_model Linalg_proofs Linalg_vcov Linalg_thms Linalg_dual Did_model Did_spec Did_proofs Did_equiv Did_more Multi_model Multi_proofs Multi_thms Span_thms Triple_model Triple_proofs Triple_thms Triple_fit Triple_ex Reg_equiv Reg_effects Triple_equiv Effects_ex.
From Coq Require Import Arith ZArith String List Permutation.
Import ListNotations.
Open Scope R_scope.

Section Reg.
Context {I K G : Type} (keq : forall x y : K, {x = y} + {x <> y}).
Context (geq : forall x y : G, {x = y} + {x <> y}).
Variable qr : list I -> list (I -> R) -> list nat.
Variable lstsq : list I -> list (I -> R) -> (I -> R) -> list R.
Variable inv : list I -> list (I -> R) -> option (nat -> nat -> R).
Variable pinv : list I -> list (I -> R) -> nat -> nat -> R.
Variable sf : option Z -> fl -> fl.
Variable ppf : option Z -> R -> R.
Hypothesis Hqr : qr_ok qr.
Hypothesis Hls : lstsq_ok lstsq.
Hypothesis Hinv : inv_ok inv.
Section Did.
Notation fit := (did_fit keq geq qr lstsq inv pinv sf ppf).
Notation fR x := (fun i => toR (x i)).
Theorem C119_did_design_terms cfg rows y y' d t covs dums r s m :
  let extra := map (fun c => fR c) covs ++ dums in
  s <> 0 -> (forall i, In i rows -> y' i = Fin (s * toR (y i) + m i)) ->
  span rows (main_cols (fR d) (fR t) extra) m -> ~ span rows (main_cols (fR d) (fR t) extra) (inter (fR d) (fR t)) ->
  fit cfg rows y d t covs dums [] = Ok r -> variance_defined (c_robust cfg) (c_cluster cfg) (length rows) (n_reported (r_coef r)) ->
  exists r', fit cfg rows y' d t covs dums [] = Ok r' /\
    r_att r' = fmul (Fin s) (r_att r) /\ r_se r' = fmul (Fin (Rabs s)) (r_se r) /\ r_p r' = r_p r /\ r_signif r' = r_signif r /\
    (0 < s -> r_t r' = r_t r /\ r_ci r' = fscale s (r_ci r)) /\
    (s < 0 -> r_t r' = fneg (r_t r) /\ r_ci r' = fswap (fscale s (r_ci r))) /\
    (forall i, In i rows -> r_resid r' i = s * r_resid r i).
Proof. exact (did_ignores_design_terms keq geq qr lstsq inv pinv sf ppf Hqr Hls Hinv cfg rows y y' d t covs dums r s m). Qed.
Theorem C119_did_group_period_effects cfg rows y y' d t r a b c :
  (forall i, In i rows -> y' i = Fin (toR (y i) + (a + b * toR (d i) + c * toR (t i)))) ->
  four_cells rows (fR d) (fR t) -> (4 < length rows)%nat \/ c_robust cfg = true \/ c_cluster cfg <> None ->
  did_fit keq geq qr lstsq inv pinv sf ppf cfg rows y d t [] [] [] = Ok r ->
  exists r', did_fit keq geq qr lstsq inv pinv sf ppf cfg rows y' d t [] [] [] = Ok r' /\
    r_att r' = r_att r /\ r_se r' = r_se r /\ r_t r' = r_t r /\ r_p r' = r_p r /\ r_ci r' = r_ci r /\ r_signif r' = r_signif r /\
    (forall i, In i rows -> r_resid r' i = r_resid r i).
Proof. exact (did_group_period_effects keq geq qr lstsq inv pinv sf ppf Hqr Hls Hinv cfg rows y y' d t r a b c). Qed.
End Did.
Section Mp.
Notation fit := (mp_fit keq geq qr lstsq inv sf ppf).
Theorem C119_mp_design_terms cfg rows y y' d t post ref covs dums r s m :
  let all := data_periods rows t in
  let cols := mp_design d t all (mp_post r) (mp_ref r) (covs ++ dums) in
  s <> 0 -> (forall i, In i rows -> y' i = s * y i + m i) ->
  fit cfg rows y d t post ref covs dums [] = Ok r ->
  span rows (mp_main d t all (mp_ref r) (covs ++ dums)) m ->
  (forall j, (j < length (mp_post r))%nat -> identified_col rows cols (mp_index all (mp_ref r) j)) ->
  variance_defined (c_robust cfg) (c_cluster cfg) (length rows) (n_reported (mp_coef r)) ->
  exists r', fit cfg rows y' d t post ref covs dums [] = Ok r' /\
    mp_pre r' = mp_pre r /\ mp_post r' = mp_post r /\ mp_ref r' = mp_ref r /\ mp_df r' = mp_df r /\
    Forall2 (effect_scaled s) (mp_effects r) (mp_effects r') /\
    mp_avg r' = fmul (Fin s) (mp_avg r) /\ mp_avg_se r' = fmul (Fin (Rabs s)) (mp_avg_se r) /\ mp_avg_p r' = mp_avg_p r /\
    (0 < s -> mp_avg_t r' = mp_avg_t r /\ mp_avg_ci r' = fscale s (mp_avg_ci r)) /\
    (s < 0 -> mp_avg_t r' = fneg (mp_avg_t r) /\ mp_avg_ci r' = fswap (fscale s (mp_avg_ci r))).
Proof. exact (mp_ignores_design_terms keq geq qr lstsq inv sf ppf Hqr Hls Hinv cfg rows y y' d t post ref covs dums r s m). Qed.
Theorem C119_mp_group_period_effects cfg rows y y' d t post ref r s b (g : Z -> R) :
  s <> 0 -> (forall i, In i rows -> y' i = s * y i + (b * d i + g (t i))) ->
  mp_fit keq geq qr lstsq inv sf ppf cfg rows y d t post ref [] [] [] = Ok r -> identified rows d t (mp_post r) ->
  c_robust cfg = true \/ c_cluster cfg <> None \/ (2 + length (data_periods rows t) + length (mp_post r) <= length rows)%nat ->
  exists r', mp_fit keq geq qr lstsq inv sf ppf cfg rows y' d t post ref [] [] [] = Ok r' /\
    mp_pre r' = mp_pre r /\ mp_post r' = mp_post r /\ mp_ref r' = mp_ref r /\ mp_df r' = mp_df r /\
    Forall2 (effect_scaled s) (mp_effects r) (mp_effects r') /\
    mp_avg r' = fmul (Fin s) (mp_avg r) /\ mp_avg_se r' = fmul (Fin (Rabs s)) (mp_avg_se r) /\ mp_avg_p r' = mp_avg_p r /\
    (0 < s -> mp_avg_t r' = mp_avg_t r /\ mp_avg_ci r' = fscale s (mp_avg_ci r)) /\
    (s < 0 -> mp_avg_t r' = fneg (mp_avg_t r) /\ mp_avg_ci r' = fswap (fscale s (mp_avg_ci r))).
Proof. exact (mp_group_period_effects keq geq qr lstsq inv sf ppf Hqr Hls Hinv cfg rows y y' d t post ref r s b g). Qed.
End Mp.
End Reg.
Example C119_did_case n robust a b c : (4 < n)%nat ->
  exists r r', ex_fit (ex_cfg robust None) (seq 0 n) ex_y ex_d ex_t [] [] [] = Ok r /\
    ex_fit (ex_cfg robust None) (seq 0 n) (fun i => Fin (toR (ex_y i) + (a + b * toR (ex_d i) + c * toR (ex_t i)))) ex_d ex_t [] [] [] = Ok r' /\
    r_att r' = r_att r /\ r_se r' = r_se r.
Proof. apply ex_effects. Qed.
Example C119_mp_case robust y s b g : s <> 0 ->
  exists r r', exm_fit (exm_cfg robust None) (seq 0 12) y exm_d exm_t None None [] [] [] = Ok r /\
    exm_fit (exm_cfg robust None) (seq 0 12) (fun i => s * y i + (b * exm_d i + g (exm_t i))) exm_d exm_t None None [] [] [] = Ok r' /\
    mp_post r = [1; 2]%Z /\ mp_avg r' = fmul (Fin s) (mp_avg r) /\ mp_avg_se r' = fmul (Fin (Rabs s)) (mp_avg_se r).
Proof. apply exm_effects. Qed.
Section Triple.
Context {I K : Type} (keq : forall x y : K, {x = y} + {x <> y}).
Variable qr : list I -> list (I -> R) -> list nat.
Variable lstsq : list I -> list (I -> R) -> (I -> R) -> list R.
Variable inv : list I -> list (I -> R) -> option (nat -> nat -> R).
Variable pinv : list I -> list (I -> R) -> nat -> nat -> R.
Variable sf : option Z -> fl -> fl.
Variable ppf : option Z -> R -> R.
Variable logit : list I -> list (I -> R) -> (I -> R) -> option (I -> R).
Notation fit := (ddd_fit keq qr lstsq inv pinv sf ppf logit).
Notation f x := (fun i => oR (x i)).
Theorem C120_ipw_pairwise cfg cl rows y y' G P T covs r r' s h1 h2 h3 : dd_method cfg = "ipw"%string -> 0 < dd_trim cfg < 1 ->
  fit cfg cl rows y G P T covs = Ok r -> fit cfg cl rows y' G P T covs = Ok r' ->
  (forall i, In i rows -> y' i = Some (s * oR (y i) + pairwise h1 h2 h3 (oR (G i)) (oR (P i)) (oR (T i)))) ->
  tr_att r' = fmul (Fin s) (tr_att r).
Proof. exact (ipw_pairwise keq qr lstsq inv pinv sf ppf logit cfg cl rows y y' G P T covs r r' s h1 h2 h3). Qed.
Theorem C120_ipw_scale cfg cl rows y y' G P T covs r s : dd_method cfg = "ipw"%string -> s <> 0 ->
  fit cfg cl rows y G P T covs = Ok r -> (forall i, In i rows -> y' i = Some (s * oR (y i))) ->
  exists r', fit cfg cl rows y' G P T covs = Ok r' /\ ddd_scaled s r r'.
Proof. exact (ipw_scale keq qr lstsq inv pinv sf ppf logit cfg cl rows y y' G P T covs r s). Qed.
Theorem C120_dr_terms cfg cl rows y y' G P T covs r s h : dd_method cfg = "dr"%string -> s <> 0 ->
  fit cfg cl rows y G P T covs = Ok r ->
  (forall i, In i rows -> y' i = Some (s * oR (y i) + h (oR (G i)) (oR (P i)) (oR (T i)))) ->
  exists r', fit cfg cl rows y' G P T covs = Ok r' /\ tr_se r' = fmul (Fin (Rabs s)) (tr_se r) /\
    (forall rh, fit cfg cl rows (fun i => Some (h (oR (G i)) (oR (P i)) (oR (T i)))) G P T covs = Ok rh ->
       tr_att r' = fadd (fmul (Fin s) (tr_att r)) (tr_att rh) /\ (tr_att rh = Fin 0 -> ddd_scaled s r r')).
Proof. exact (dr_terms keq qr lstsq inv pinv sf ppf logit cfg cl rows y y' G P T covs r s h). Qed.
Theorem C120_dr_scale cfg cl rows y y' G P T covs r s : dd_method cfg = "dr"%string -> s <> 0 ->
  fit cfg cl rows y G P T covs = Ok r -> (forall i, In i rows -> y' i = Some (s * oR (y i))) ->
  exists r', fit cfg cl rows y' G P T covs = Ok r' /\ ddd_scaled s r r'.
Proof. exact (dr_scale keq qr lstsq inv pinv sf ppf logit cfg cl rows y y' G P T covs r s). Qed.
Theorem C120_dr_pairwise_balanced_partial cfg cl rows y y' G P T r s h1 h2 h3 : dd_method cfg = "dr"%string -> s <> 0 -> unclipped rows (f G) (f P) cfg ->
  (forall g p t, (g = 0 \/ g = 1) -> (p = 0 \/ p = 1) -> (t = 0 \/ t = 1) ->
     len (cell8 rows (f G) (f P) (f T) g p t) / len (cell4 rows (f G) (f P) g p) = len (part rows (f T) t) / len rows) ->
  fit cfg cl rows y G P T [] = Ok r ->
  (forall i, In i rows -> y' i = Some (s * oR (y i) + pairwise h1 h2 h3 (oR (G i)) (oR (P i)) (oR (T i)))) ->
  exists r', fit cfg cl rows y' G P T [] = Ok r' /\ ddd_scaled s r r'.
Proof. exact (dr_pairwise_balanced keq qr lstsq inv pinv sf ppf logit cfg cl rows y y' G P T r s h1 h2 h3). Qed.
Theorem C120_reg_row_order cfg cl r1 r2 y G P T covs a b : qr_ok qr -> lstsq_ok lstsq -> inv_ok inv -> Permutation r1 r2 -> dd_method cfg = "reg"%string ->
  identified_col r1 (ddd_design (f G) (f P) (f T) (map (fun c => f c) covs)) 7 ->
  fit cfg cl r1 y G P T covs = Ok a -> fit cfg cl r2 y G P T covs = Ok b -> same_numbers a b.
Proof. exact (reg_row_order keq qr lstsq inv pinv sf ppf logit cfg cl r1 r2 y G P T covs a b). Qed.
Hypothesis Hlogit : forall r1 r2 X z, Permutation r1 r2 -> logit r1 X z = logit r2 X z.
Theorem C120_weighting_row_order cfg cl r1 r2 y G P T covs a b : Permutation r1 r2 -> dd_method cfg <> "reg"%string ->
  fit cfg cl r1 y G P T covs = Ok a -> fit cfg cl r2 y G P T covs = Ok b -> same_numbers a b.
Proof. exact (weighting_row_order keq qr lstsq inv pinv sf ppf logit Hlogit cfg cl r1 r2 y G P T covs a b). Qed.
Hypothesis Hqr : qr_ok qr.
Hypothesis Hls : lstsq_ok lstsq.
Hypothesis Hinv : inv_ok inv.
Theorem C120_reg_pairwise cfg cl rows y y' G P T covs r s h1 h2 h3 gamma :
  let X := map (fun c => f c) covs in
  dd_method cfg = "reg"%string -> s <> 0 -> fit cfg cl rows y G P T covs = Ok r -> length gamma = length covs ->
  (forall i, In i rows -> y' i = Some (s * oR (y i) + (pairwise h1 h2 h3 (oR (G i)) (oR (P i)) (oR (T i)) + lc X gamma i))) ->
  identified_col rows (ddd_design (f G) (f P) (f T) X) 7 ->
  dd_robust cfg = true \/ (8 + length covs < length rows)%nat ->
  exists r', fit cfg cl rows y' G P T covs = Ok r' /\ ddd_scaled s r r'.
Proof. exact (reg_pairwise keq qr lstsq inv pinv sf ppf logit Hqr Hls Hinv cfg cl rows y y' G P T covs r s h1 h2 h3 gamma). Qed.
End Triple.
Section Ex.
Variable pinv : list b3 -> list (b3 -> R) -> nat -> nat -> R.
Variable logit : list b3 -> list (b3 -> R) -> (b3 -> R) -> option (b3 -> R).
Notation fit := (ddd_fit Z.eq_dec (@gs_dropped b3) (@gs b3) (@gs_inv b3) pinv toy_sf toy_ppf logit).
Notation f x := (fun i => oR (x i)).
Theorem C120_level_refuted cl : exists a b c d,
  fit (cfgm "ipw") cl rows8 (cst 0) gB pB tB [] = Ok a /\ fit (cfgm "ipw") cl rows8 (cst 1) gB pB tB [] = Ok b /\ tr_se a <> tr_se b /\
  fit (cfgm "dr") cl rows9 (cst 0) gB pB tB [] = Ok c /\ fit (cfgm "dr") cl rows9 (cst 1) gB pB tB [] = Ok d /\ tr_att c <> tr_att d.
Proof. exact (level_not_ignored pinv logit cl). Qed.
Example C120_case_reg cl y h1 h2 h3 : (forall i, y i <> None) -> exists r r', fit cfgc cl rows9 y gB pB tB [] = Ok r /\
  fit cfgc cl rows9 (fun i => Some (oR (y i) + pairwise h1 h2 h3 (oR (gB i)) (oR (pB i)) (oR (tB i)))) gB pB tB [] = Ok r' /\ tr_att r' = fmul (Fin 1) (tr_att r).
Proof. apply ex9_reg_effects. Qed.
Example C120_case_weighting m cl y : m <> "reg"%string -> (forall i, y i <> None) -> exists r, fit (cfgm m) cl rows9 y gB pB tB [] = Ok r.
Proof. apply ex9_fits. Qed.
End Ex.
Print Assumptions C119_did_design_terms.
Print Assumptions C119_did_group_period_effects.
Print Assumptions C119_mp_design_terms.
Print Assumptions C119_mp_group_period_effects.
Print Assumptions C120_ipw_pairwise.
Print Assumptions C120_ipw_scale.
Print Assumptions C120_dr_terms.
Print Assumptions C120_dr_scale.
Print Assumptions C120_dr_pairwise_balanced_partial.
Print Assumptions C120_reg_row_order.
Print Assumptions C120_weighting_row_order.
Print Assumptions C120_reg_pairwise.
Print Assumptions C120_level_refuted.

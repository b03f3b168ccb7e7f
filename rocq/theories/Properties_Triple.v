(* Properties of TripleDifference: statements only. *)
From Verif Require Import Prelude Flt Stats_model Linalg_model Linalg_proofs Linalg_vcov Linalg_thms Did_model Did_spec
  Multi_model Triple_model Triple_proofs Triple_thms Triple_fit Triple_ex.
From Coq Require Import Arith ZArith String List.
Import ListNotations.
Open Scope R_scope.

Section P.
Context {I K : Type} (keq : forall x y : K, {x = y} + {x <> y}).
Variable qr : list I -> list (I -> R) -> list nat.
Variable lstsq : list I -> list (I -> R) -> (I -> R) -> list R.
Variable inv : list I -> list (I -> R) -> option (nat -> nat -> R).
Variable pinv : list I -> list (I -> R) -> nat -> nat -> R.
Variable sf : option Z -> fl -> fl.
Variable ppf : option Z -> R -> R.
Variable logit : list I -> list (I -> R) -> (I -> R) -> option (I -> R).
Hypothesis Hqr : qr_ok qr.
Hypothesis Hls : lstsq_ok lstsq.
Hypothesis Hinv : inv_ok inv.
Hypothesis Hd : dist_ok sf ppf.
Notation fit := (ddd_fit keq qr lstsq inv pinv sf ppf logit).
Notation f x := (fun i => oR (x i)).

(* C30 *)
Theorem C30_reg cfg cl rows y G P T r : dd_method cfg = "reg"%string ->
  fit cfg cl rows y G P T [] = Ok r ->
  tr_att r = Fin (did_of_means (part rows (f P) 1) (f G) (f T) (f y) - did_of_means (part rows (f P) 0) (f G) (f T) (f y)).
Proof. exact (reg_fit keq qr lstsq inv pinv sf ppf logit Hqr Hls cfg cl rows y G P T r). Qed.

Theorem C30_ipw cfg cl rows y G P T r : dd_method cfg = "ipw"%string -> dd_trim cfg < 1 ->
  fit cfg cl rows y G P T [] = Ok r ->
  tr_att r = Fin (did_of_means (part rows (f P) 1) (f G) (f T) (f y) - did_of_means (part rows (f P) 0) (f G) (f T) (f y)).
Proof. exact (ipw_fit keq qr lstsq inv pinv sf ppf logit cfg cl rows y G P T r). Qed.

(* dr: only when every group-partition cell has the same share of post rows (and no share is clipped) *)
Theorem C30_dr_partial cfg cl rows y G P T r : dd_method cfg = "dr"%string ->
  (forall g p, (g = 0 \/ g = 1) -> (p = 0 \/ p = 1) ->
     dd_trim cfg <= len (cell4 rows (f G) (f P) g p) / len rows <= 1 - dd_trim cfg) ->
  (forall g p t, (g = 0 \/ g = 1) -> (p = 0 \/ p = 1) -> (t = 0 \/ t = 1) ->
     len (cell8 rows (f G) (f P) (f T) g p t) / len (cell4 rows (f G) (f P) g p) = len (part rows (f T) t) / len rows) ->
  fit cfg cl rows y G P T [] = Ok r ->
  tr_att r = Fin (did_of_means (part rows (f P) 1) (f G) (f T) (f y) - did_of_means (part rows (f P) 0) (f G) (f T) (f y)).
Proof. exact (dr_fit_balanced keq qr lstsq inv pinv sf ppf logit cfg cl rows y G P T r). Qed.

(* what dr computes in general: each cell mean is inflated by its relative share of the period *)
Theorem C30_dr_formula cfg cl rows y G P T r : dd_method cfg = "dr"%string ->
  (forall g p, (g = 0 \/ g = 1) -> (p = 0 \/ p = 1) ->
     dd_trim cfg <= len (cell4 rows (f G) (f P) g p) / len rows <= 1 - dd_trim cfg) ->
  fit cfg cl rows y G P T [] = Ok r ->
  let m g p t := meanf (f y) (cell8 rows (f G) (f P) (f T) g p t) *
    ((len (cell8 rows (f G) (f P) (f T) g p t) / len (cell4 rows (f G) (f P) g p)) / (len (part rows (f T) t) / len rows)) in
  tr_att r = Fin ((m 1 1 1 - m 1 1 0) - (m 1 0 1 - m 1 0 0) - (m 0 1 1 - m 0 1 0) + (m 0 0 1 - m 0 0 0)).
Proof. exact (fun Hm Hu H => proj1 (dr_fit keq qr lstsq inv pinv sf ppf logit cfg cl rows y G P T r Hm Hu H)). Qed.

Theorem C30_missing_cell cfg cl rows y G P T covs g p t :
  In (g, p, t) [(1,1,0); (1,1,1); (1,0,0); (1,0,1); (0,1,0); (0,1,1); (0,0,0); (0,0,1)] ->
  (forall i, In i rows -> ~ (oR (G i) = g /\ oR (P i) = p /\ oR (T i) = t)) ->
  fit cfg cl rows y G P T covs = Err ValueError.
Proof.
  exact (no_row_rejected keq qr lstsq inv pinv sf ppf logit cfg cl rows y G P T covs g p t).
Qed.

(* exactly which data is accepted *)
Theorem C30_validation rows (y G P T : I -> option R) covs :
  ddd_validate rows y G P T covs = Ok tt <->
  no_missing rows y /\ no_missing rows G /\ no_missing rows P /\ no_missing rows T /\
  (forall c, In c covs -> no_missing rows c) /\
  zero_one rows (f G) /\ zero_one rows (f P) /\ zero_one rows (f T) /\
  four_cells (part rows (f P) 1) (f G) (f T) /\ four_cells (part rows (f P) 0) (f G) (f T).
Proof. exact (validate_ok rows y G P T covs). Qed.

Theorem C30_valid_fits cfg cl rows y G P T covs :
  ddd_validate rows y G P T covs = Ok tt -> dd_method cfg <> "reg"%string ->
  exists r, fit cfg cl rows y G P T covs = Ok r.
Proof. exact (valid_fits keq qr lstsq inv pinv sf ppf logit cfg cl rows y G P T covs). Qed.

Theorem C30_counts cfg cl rows y G P T covs r : fit cfg cl rows y G P T covs = Ok r ->
  tr_n_obs r = length rows /\ fold_right Nat.add 0%nat (tr_n r) = length rows /\ Forall (fun n => (2 <= n)%nat) (tr_n r) /\
  length (tr_means r) = 8%nat.
Proof. exact (counts keq qr lstsq inv pinv sf ppf logit cfg cl rows y G P T covs r). Qed.

(* C31: the fitted outcomes cancel, so the estimate is the same for any outcome model *)
Theorem C31_outcome_model_refuted cfg rows (y mu mu' G P T : I -> R) X :
  dr_att logit cfg rows y mu G P T X = dr_att logit cfg rows y mu' G P T X.
Proof. exact (dr_ignores_outcome_model logit rows G P T cfg y mu mu' X). Qed.

(* a constant added to the outcome moves the estimate by the constant times the estimate for y = 1 *)
Theorem C31_shift_partial cfg rows (y mu mu' mu1 G P T : I -> R) X c :
  dr_att logit cfg rows (fun i => y i + c) mu G P T X
  = dr_att logit cfg rows y mu' G P T X + c * dr_att logit cfg rows (fun _ => 1) mu1 G P T X.
Proof. exact (dr_shift logit rows G P T cfg y mu mu' mu1 X c). Qed.

Theorem C31_error_action_refuted rows (y G P T : I -> R) X i : X <> [] -> In i rows ->
  (2 <= length (cell8 rows G P T (G i) (P i) (T i)))%nat ->
  mu_fit keq qr lstsq inv "error" rows y G P T X i = meanf y (cell8 rows G P T (G i) (P i) (T i)).
Proof. exact (dr_error_action_no_model keq qr lstsq inv Hqr rows y G P T X i). Qed.

(* C32 *)
Theorem C32_cluster_refuted cfg cl cl' rows y G P T covs r : fit cfg cl rows y G P T covs = Ok r ->
  exists r', fit cfg cl' rows y G P T covs = Ok r' /\
    tr_att r' = tr_att r /\ tr_se r' = tr_se r /\ tr_t r' = tr_t r /\ tr_p r' = tr_p r /\ tr_ci r' = tr_ci r.
Proof.
  exact (fun H => ex_intro _ _ (conj (cluster_ignored keq qr lstsq inv pinv sf ppf logit cfg cl cl' rows y G P T covs r H)
    (conj eq_refl (conj eq_refl (conj eq_refl (conj eq_refl eq_refl)))))).
Qed.

Theorem C32_n_clusters_partial cfg (cl : I -> K) rows y G P T covs r : fit cfg (Some cl) rows y G P T covs = Ok r ->
  tr_n_clusters r = Some (length (nodup keq (map cl rows))).
Proof.
  exact (fun H => match fit_inv keq qr lstsq inv pinv sf ppf logit cfg (Some cl) rows y G P T covs r H with
    | conj _ (ex_intro _ _ (conj _ (conj _ (conj _ (conj _ (conj _ (conj _ (conj _ (conj _ (conj _ (conj _ (conj _ (conj _ E)))))))))))))
      => E end).
Qed.

Theorem C32_robust_refuted cfg cl rows y G P T covs b : dd_method cfg <> "reg"%string ->
  fit cfg cl rows y G P T covs =
  fit {| dd_method := dd_method cfg; dd_robust := b; dd_alpha := dd_alpha cfg; dd_trim := dd_trim cfg; dd_action := dd_action cfg |}
      cl rows y G P T covs.
Proof. exact (robust_ignored keq qr lstsq inv pinv sf ppf logit cfg cl rows y G P T covs b). Qed.

(* C63 *)
Theorem C63_adjusted cfg cl rows y G P T covs r : dd_method cfg = "reg"%string ->
  fit cfg cl rows y G P T covs = Ok r ->
  let X := map (fun c => f c) covs in
  exists b, is_ls rows (ddd_design (f G) (f P) (f T) X) (f y) b /\ nan_to_zero (tr_att r) = nth 7 b 0 /\
    nth 7 b 0 =
      did_of_means (part rows (f P) 1) (f G) (f T) (fun i => oR (y i) - lc X (skipn 8 b) i)
      - did_of_means (part rows (f P) 0) (f G) (f T) (fun i => oR (y i) - lc X (skipn 8 b) i).
Proof. exact (reg_fit_covs keq qr lstsq inv pinv sf ppf logit Hqr Hls cfg cl rows y G P T covs r). Qed.

Theorem C63_exact cfg cl rows y G P T covs r (h1 h2 h3 : R -> R -> R) gamma tau :
  dd_method cfg = "reg"%string -> fit cfg cl rows y G P T covs = Ok r ->
  let X := map (fun c => f c) covs in
  indep rows (ddd_design (f G) (f P) (f T) X) -> length gamma = length covs ->
  (forall i, In i rows -> oR (y i) = h1 (oR (G i)) (oR (P i)) + h2 (oR (G i)) (oR (T i)) + h3 (oR (P i)) (oR (T i))
                          + lc X gamma i + tau * (oR (G i) * oR (P i) * oR (T i))) ->
  tr_att r = Fin tau.
Proof. exact (reg_exact keq qr lstsq inv pinv sf ppf logit Hqr Hls cfg cl rows y G P T covs r h1 h2 h3 gamma tau). Qed.

Theorem C63_hc1 cfg cl rows y G P T r : dd_method cfg = "reg"%string -> dd_robust cfg = true ->
  fit cfg cl rows y G P T [] = Ok r ->
  let V p := cell_var (part rows (f P) p) (f G) (f T) (f y) in
  let v := len rows / (len rows - 8) *
    (V 1 0 0 + V 1 0 1 + V 1 1 0 + V 1 1 1 + (V 0 0 0 + V 0 0 1 + V 0 1 0 + V 0 1 1)) in
  tr_se r = Fin (sqrt v) /\ 0 <= v.
Proof. exact (reg_hc1_se keq qr lstsq inv pinv sf ppf logit Hqr Hls Hinv cfg cl rows y G P T r). Qed.

Theorem C63_dr_se cfg cl rows y G P T r : dd_method cfg = "dr"%string ->
  (forall g p, (g = 0 \/ g = 1) -> (p = 0 \/ p = 1) ->
     dd_trim cfg <= len (cell4 rows (f G) (f P) g p) / len rows <= 1 - dd_trim cfg) ->
  (forall g p t, In (g, p, t) all_cells -> (2 <= length (cell8 rows (f G) (f P) (f T) g p t))%nat) ->
  eight_cells rows (f G) (f P) (f T) ->
  fit cfg cl rows y G P T [] = Ok r ->
  tr_se r = Fin (sqrt (sumf (fun c => let '(g, p, t) := c in
     let l := cell8 rows (f G) (f P) (f T) g p t in
     sumf (fun i => (oR (y i) - meanf (f y) l) * (oR (y i) - meanf (f y) l)) l / (len l - 1) / len l)
     [(1,1,0); (1,1,1); (1,0,0); (1,0,1); (0,1,0); (0,1,1); (0,0,0); (0,0,1)])).
Proof.
  exact (fun Hm Hu H2 He H => eq_trans (proj2 (dr_fit keq qr lstsq inv pinv sf ppf logit cfg cl rows y G P T r Hm Hu H))
    (f_equal Fin (dr_se_closed rows (f y) (f G) (f P) (f T) He H2))).
Qed.

(* C64 *)
Theorem C64_coherent_partial cfg cl rows y G P T covs r a se :
  fit cfg cl rows y G P T covs = Ok r -> tr_att r = Fin a -> tr_se r = Fin se -> 0 < se -> 0 < dd_alpha cfg < 1 ->
  exists p lo hi, tr_t r = Fin (a / se) /\ tr_p r = Fin p /\ tr_ci r = (Fin lo, Fin hi) /\
    0 < p <= 1 /\ lo < a < hi /\ a - lo = hi - a /\ (p < dd_alpha cfg <-> (hi < 0 \/ 0 < lo)).
Proof. exact (ddd_coherent keq qr lstsq inv pinv sf ppf logit cfg cl rows y G P T covs r a se Hd). Qed.

Theorem C64_zero_se_refuted cfg cl rows y G P T covs r :
  fit cfg cl rows y G P T covs = Ok r -> fgt (tr_se r) (Fin 0) = false ->
  tr_t r = Fin 0 /\ tr_p r = Fin 1.
Proof. exact (zero_se_p_one keq qr lstsq inv pinv sf ppf logit cfg cl rows y G P T covs r Hd). Qed.

Theorem C64_undefined_refuted cfg cl rows y G P T covs r : dd_method cfg = "reg"%string ->
  fit cfg cl rows y G P T covs = Ok r ->
  In 7%nat (qr rows (ddd_design (f G) (f P) (f T) (map (fun c => f c) covs))) ->
  tr_att r = NaN /\ tr_se r = NaN /\ tr_ci r = (NaN, NaN) /\ tr_t r = Fin 0 /\ tr_p r = Fin 1.
Proof. exact (reg_dropped keq qr lstsq inv pinv sf ppf logit Hls Hd cfg cl rows y G P T covs r). Qed.

Theorem C64_eight_rows_refuted cfg cl rows y G P T : dd_method cfg = "reg"%string -> dd_robust cfg = true ->
  parse_action (dd_action cfg) <> None ->
  ddd_validate rows y G P T [] = Ok tt -> length rows = 8%nat ->
  fit cfg cl rows y G P T [] = Err ZeroDivisionError.
Proof. exact (reg_eight_rows keq qr lstsq inv pinv sf ppf logit Hqr cfg cl rows y G P T). Qed.

(* C65: reg (robust, no covariates) and dr *)
Theorem C65_reg_dr_partial cfg cl rows y G P T c r r' :
  (dd_method cfg = "reg"%string /\ dd_robust cfg = true \/ dd_method cfg = "dr"%string) ->
  fit cfg cl rows y G P T [] = Ok r -> fit cfg cl rows (fun i => option_map (fun v => v + c) (y i)) G P T [] = Ok r' ->
  tr_se r' = tr_se r.
Proof. exact (se_shift keq qr lstsq inv pinv sf ppf logit Hqr Hls Hinv cfg cl rows y G P T c r r'). Qed.
End P.

Section Cases.
Variable pinv : list b3 -> list (b3 -> R) -> nat -> nat -> R.
Variable logit : list b3 -> list (b3 -> R) -> (b3 -> R) -> option (b3 -> R).
Notation fit := (ddd_fit Z.eq_dec (@gs_dropped b3) (@gs b3) (@gs_inv b3) pinv toy_sf toy_ppf logit).
Notation f x := (fun i => oR (x i)).

(* C30: constant outcome, nine rows *)
Theorem C30_dr_refuted cl c : exists r, fit (cfgm "dr") cl rows9 (cst c) gB pB tB [] = Ok r /\
  tr_att r = Fin (- (27 / 40) * c) /\
  did_of_means (part rows9 (f pB) 1) (f gB) (f tB) (f (cst c)) - did_of_means (part rows9 (f pB) 0) (f gB) (f tB) (f (cst c)) = 0.
Proof. exact (dr9 (@gs_dropped b3) (@gs b3) (@gs_inv b3) pinv toy_sf toy_ppf logit cl c). Qed.

Theorem C31_shift_refuted cl : exists r r', fit (cfgm "dr") cl rows9 (cst 0) gB pB tB [] = Ok r /\
  fit (cfgm "dr") cl rows9 (cst 1) gB pB tB [] = Ok r' /\ tr_att r = Fin (- (27/40) * 0) /\ tr_att r' = Fin (- (27/40) * 1).
Proof.
  exact (match dr9 (@gs_dropped b3) (@gs b3) (@gs_inv b3) pinv toy_sf toy_ppf logit cl 0,
               dr9 (@gs_dropped b3) (@gs b3) (@gs_inv b3) pinv toy_sf toy_ppf logit cl 1 with
         | ex_intro _ r (conj A (conj B _)), ex_intro _ r' (conj A' (conj B' _)) =>
             ex_intro _ r (ex_intro _ r' (conj A (conj A' (conj B B')))) end).
Qed.

(* C65 *)
Theorem C65_ipw_se_shift_refuted cl c : exists r, fit (cfgm "ipw") cl rows8 (cst c) gB pB tB [] = Ok r /\
  tr_att r = Fin 0 /\ tr_se r = Fin (sqrt (16 * (c * c) / 7)).
Proof. exact (ipw8 (@gs_dropped b3) (@gs b3) (@gs_inv b3) pinv toy_sf toy_ppf logit cl c). Qed.

(* C64: one row per cell *)
Theorem C64_dr_p_one_refuted cl c : exists r, fit (cfgm "dr") cl rows8 (yspike c) gB pB tB [] = Ok r /\
  tr_att r = Fin c /\ tr_se r = Fin 0 /\ tr_t r = Fin 0 /\ tr_p r = Fin 1 /\ tr_ci r = (Fin c, Fin c).
Proof. exact (dr8 (@gs_dropped b3) (@gs b3) (@gs_inv b3) pinv toy_sf toy_ppf logit cl c toy_dist_ok). Qed.

Example C64_undefined_case cl c : exists r, fit cfgc cl rows9 (cst c) gB pB tB [gpt] = Ok r /\
  tr_att r = NaN /\ tr_se r = NaN /\ tr_t r = Fin 0 /\ tr_p r = Fin 1.
Proof. exact (reg_collinear pinv logit cl c). Qed.

Example C30_case cl c : ddd_validate rows8 (yspike c) gB pB tB [] = Ok tt /\
  exists r, fit (cfgm "dr") cl rows8 (yspike c) gB pB tB [] = Ok r /\ tr_att r = Fin c.
Proof.
  exact (conj (valid8 (yspike c) [] (fun i => ltac:(discriminate)) ltac:(constructor))
    (match dr8 (@gs_dropped b3) (@gs b3) (@gs_inv b3) pinv toy_sf toy_ppf logit cl c toy_dist_ok with
     | ex_intro _ r (conj A (conj B _)) => ex_intro _ r (conj A B) end)).
Qed.
End Cases.

Print Assumptions C30_reg.
Print Assumptions C30_ipw.
Print Assumptions C30_dr_partial.
Print Assumptions C30_dr_formula.
Print Assumptions C30_missing_cell.
Print Assumptions C30_validation.
Print Assumptions C30_valid_fits.
Print Assumptions C30_counts.
Print Assumptions C30_dr_refuted.
Print Assumptions C31_outcome_model_refuted.
Print Assumptions C31_shift_partial.
Print Assumptions C31_shift_refuted.
Print Assumptions C31_error_action_refuted.
Print Assumptions C32_cluster_refuted.
Print Assumptions C32_n_clusters_partial.
Print Assumptions C32_robust_refuted.
Print Assumptions C63_adjusted.
Print Assumptions C63_exact.
Print Assumptions C63_hc1.
Print Assumptions C63_dr_se.
Print Assumptions C64_coherent_partial.
Print Assumptions C64_zero_se_refuted.
Print Assumptions C64_undefined_refuted.
Print Assumptions C64_eight_rows_refuted.
Print Assumptions C64_dr_p_one_refuted.
Print Assumptions C65_reg_dr_partial.
Print Assumptions C65_ipw_se_shift_refuted.

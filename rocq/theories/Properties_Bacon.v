(* Properties of the Goodman-Bacon decomposition: statements only. *)
From Verif Require Import Prelude Flt Linalg_model Did_model Within_proofs Multi_model Multi_proofs Bacon_model Bacon_proofs Bacon_thms.
From Coq Require Import Arith ZArith String List.
Import ListNotations.
Open Scope R_scope.

(* ---- C33 ---- *)
Theorem C33_weights_are_a_distribution {I} (rows : list I) u t g exact y :
  let o := bacon_fit rows u t g y exact in
  (bo_comparisons o = [] <-> comparisons0 rows u t g y = []) /\
  (comparisons0 rows u t g y <> [] ->
    (forall c, In c (bo_comparisons o) -> 0 < cmp_weight c <= 1) /\
    sumf cmp_weight (bo_comparisons o) = 1 /\
    (forall ty, 0 <= bo_weights o ty <= 1) /\
    bo_weights o TreatedNever + bo_weights o EarlierLater + bo_weights o LaterEarlier = 1).
Proof. exact (fit_weights rows u t g exact y). Qed.
(* rows of the treated group are untreated in the pre-periods and treated in the post-periods; rows of
   the control group have one status throughout the window *)
Theorem C33_windows {I} (rows : list I) u t g y c i : In c (comparisons0 rows u t g y) -> In i rows ->
  let is_treated i := c_is (g i) (cmp_treated c) = true in
  let is_control i := match cmp_control c with None => c_never (g i) = true | Some l => c_is (g i) l = true end in
  let pre := pre_of rows t (cmp_type c) (cmp_treated c) (cmp_control c) in
  let post := post_of rows t (cmp_type c) (cmp_treated c) (cmp_control c) in
  (is_treated i -> In (t i) pre -> btreat t g i = 0) /\
  (is_treated i -> In (t i) post -> btreat t g i = 1) /\
  (is_control i -> In (t i) pre \/ In (t i) post -> btreat t g i = match cmp_type c with LaterEarlier => 1 | _ => 0 end).
Proof.
  intros Hc Hi. pose proof (window_status rows u t g y c i Hc Hi) as H. unfold sel, cpre, cpost in H. cbv zeta.
  destruct (cmp_control c); exact H.
Qed.
Theorem C33_estimate_is_2x2 {I} (rows : list I) u t g y c : In c (comparisons0 rows u t g y) ->
  let T := filter (fun i => c_is (g i) (cmp_treated c)) rows in
  let K := filter (fun i => match cmp_control c with None => c_never (g i) | Some l => c_is (g i) l end) rows in
  let pre := pre_of rows t (cmp_type c) (cmp_treated c) (cmp_control c) in
  let post := post_of rows t (cmp_type c) (cmp_treated c) (cmp_control c) in
  pre <> [] /\ post <> [] /\ T <> [] /\ K <> [] /\
  cmp_nt c = length (nodup Z.eq_dec (map u T)) /\ cmp_nc c = length (nodup Z.eq_dec (map u K)) /\
  cmp_est c = fsub (fsub (smean y (in_periods t post T)) (smean y (in_periods t pre T)))
                   (fsub (smean y (in_periods t post K)) (smean y (in_periods t pre K))).
Proof.
  intros Hc. destruct (cmp_facts rows u t g y c Hc) as (_ & _ & (A & B & D & E) & (F & G) & H & _). cbv zeta.
  exact (conj A (conj B (conj D (conj E (conj F (conj G H)))))).
Qed.
Theorem C33_types_add_up {I} (rows : list I) u t g m C exact y :
  balanced Z.eq_dec Z.eq_dec rows u t m -> (forall i, In i rows -> g i = C (u i)) ->
  (forall i, In i rows -> c_never (g i) = true \/ exists z, (0 < z)%Z /\ g i = CFin z) ->
  let o := bacon_fit rows u t g y exact in
  weighted_sum (bo_comparisons o)
    = Fin (contribution o TreatedNever + contribution o EarlierLater + contribution o LaterEarlier) /\
  (forall ty a lo hi, bo_averages o ty = Some a ->
     (forall c, In c (bo_comparisons o) -> cmp_type c = ty -> lo <= toR (cmp_est c) <= hi) ->
     exists x, a = Fin x /\ lo <= x <= hi).
Proof. exact (fun H1 H2 H3 => fit_contributions rows u t g m C H1 H2 H3 exact y). Qed.

(* ---- C34 ---- *)
(* the comparisons and their estimates are complete: with weights (treated units) x (control units) x
   (pre-periods) x (post-periods) they average to the two-way coefficient *)
Theorem C34_comparisons_complete {I} (rows : list I) u t g m C y :
  balanced Z.eq_dec Z.eq_dec rows u t m -> (forall i, In i rows -> g i = C (u i)) ->
  (forall i, In i rows -> c_never (g i) = true \/ exists z, (0 < z)%Z /\ g i = CFin z) ->
  let cs := comparisons0 rows u t g y in
  let w c := INR (cmp_nt c) * INR (cmp_nc c) * len (pre_of rows t (cmp_type c) (cmp_treated c) (cmp_control c))
             * len (post_of rows t (cmp_type c) (cmp_treated c) (cmp_control c)) in
  (cs = [] -> btwfe rows u t g y = 0) /\
  (cs <> [] -> btwfe rows u t g y = sumf (fun c => w c * toR (cmp_est c)) cs / sumf w cs).
Proof. exact (fun H1 H2 H3 => goodman_bacon rows u t g m C H1 H2 H3 y). Qed.
(* that coefficient is the one of a regression with unit and period effects *)
Theorem C34_twfe_is_two_way {I} (rows : list I) u t g m y tau (a b : Z -> R) :
  balanced Z.eq_dec Z.eq_dec rows u t m ->
  is_twoway_fit rows u t y (btreat t g) tau a b ->
  ip rows (within Z.eq_dec Z.eq_dec rows u t (btreat t g)) (within Z.eq_dec Z.eq_dec rows u t (btreat t g)) <> 0 ->
  btwfe rows u t g y = tau.
Proof. exact (btwfe_two_way rows u t g m y tau a b). Qed.
(* the code's weights differ from these by factors that vary across comparisons *)
Theorem C34_exact_weights {I} (rows : list I) u t g m C y c :
  balanced Z.eq_dec Z.eq_dec rows u t m -> (forall i, In i rows -> g i = C (u i)) ->
  (forall i, In i rows -> c_never (g i) = true \/ exists z, (0 < z)%Z /\ g i = CFin z) ->
  In c (comparisons0 rows u t g y) ->
  exact_weight rows u t g c
  = gb_weight rows t c * INR (cmp_nt c + cmp_nc c)
    / (INR (cmp_nc c) * INR (length (cpre rows t c) + length (cpost rows t c))
       * (len (nodup Z.eq_dec (map u rows)) ^ 2 * len (bperiods rows t))).
Proof. exact (fun H1 H2 H3 => exact_weight_gb rows u t g m C H1 H2 H3 y c). Qed.
Theorem C34_approximate_weights {I} (rows : list I) u t g y c : In c (comparisons0 rows u t g y) ->
  cmp_weight c = gb_weight rows t c / (INR (cmp_nt c + cmp_nc c) ^ 2 * INR (length (cpre rows t c) + length (cpost rows t c)) * len (bperiods rows t)).
Proof. exact (approx_weight_gb rows u t g y c). Qed.
Theorem C34_identity_refuted exact :
  balanced Z.eq_dec Z.eq_dec exb_rows fst snd 1 /\
  bo_twfe (bacon_fit exb_rows fst snd (fun i => exb_coh (fst i)) exb_y exact) = 1 / 2 /\
  bo_error (bacon_fit exb_rows fst snd (fun i => exb_coh (fst i)) exb_y exact) = Fin (1 / 14).
Proof. exact (conj exb_balanced (identity_refuted exact)). Qed.
(* cases in which the identity does hold *)
Theorem C34_one_cohort_partial {I} (rows : list I) u t g m C exact y k :
  balanced Z.eq_dec Z.eq_dec rows u t m -> (forall i, In i rows -> g i = C (u i)) ->
  (forall i, In i rows -> c_never (g i) = true \/ exists z, (0 < z)%Z /\ g i = CFin z) ->
  timing_groups rows g = [k] -> bo_error (bacon_fit rows u t g y exact) = Fin 0.
Proof. exact (fun H1 H2 H3 => fit_one_cohort rows u t g m C H1 H2 H3 exact y k). Qed.
Theorem C34_constant_effect_partial {I} (rows : list I) u t g m C exact y (a b : Z -> R) tau :
  balanced Z.eq_dec Z.eq_dec rows u t m -> (forall i, In i rows -> g i = C (u i)) ->
  (forall i, In i rows -> c_never (g i) = true \/ exists z, (0 < z)%Z /\ g i = CFin z) ->
  (forall i, In i rows -> y i = a (u i) + b (t i) + tau * btreat t g i) ->
  comparisons0 rows u t g y <> [] ->
  bo_twfe (bacon_fit rows u t g y exact) = tau /\ bo_error (bacon_fit rows u t g y exact) = Fin 0.
Proof. exact (fun H1 H2 H3 => fit_homogeneous rows u t g m C H1 H2 H3 exact y a b tau). Qed.

(* ---- C22, Bacon part ---- *)
Theorem C22_bacon_codings_agree {I} (rows : list I) u t g g' exact y :
  (forall i, In i rows -> g' i = g i \/ ((g i = CFin 0 \/ g i = CInf) /\ (g' i = CFin 0 \/ g' i = CInf))) ->
  bacon_fit rows u t g' y exact = bacon_fit rows u t g y exact.
Proof.
  intros H. apply bacon_recode. intros i Hi. destruct (H i Hi) as [E|[E1 E2]]; [left; exact E|right].
  split; [destruct E1 as [->| ->]|destruct E2 as [->| ->]]; reflexivity.
Qed.

Example C33_case : map cmp_type (comparisons0 exb_rows fst snd (fun i => exb_coh (fst i)) exb_y)
  = [TreatedNever; TreatedNever; EarlierLater; LaterEarlier].
Proof. cbv -[Rplus Rmult Rinv Ropp IZR Rminus Rdiv INR meanf len exb_y]. reflexivity. Qed.
Example C34_case : (forall i, In i exb_rows -> c_never (exb_coh (fst i)) = true \/ exists z, (0 < z)%Z /\ exb_coh (fst i) = CFin z).
Proof. exact exb_valid. Qed.

Print Assumptions C33_weights_are_a_distribution.
Print Assumptions C33_windows.
Print Assumptions C33_types_add_up.
Print Assumptions C34_comparisons_complete.
Print Assumptions C34_twfe_is_two_way.
Print Assumptions C34_exact_weights.
Print Assumptions C34_identity_refuted.
Print Assumptions C34_one_cohort_partial.
Print Assumptions C34_constant_effect_partial.
Print Assumptions C22_bacon_codings_agree.

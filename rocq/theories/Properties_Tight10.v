(* Constructors, convenience functions and table columns (C36, C40, C49, C64, C68, C98). *)
From Coq Require Import Reals.
From Verif Require Import Prelude Flt Stats_model Did_model Multi_model Triple_model Honest_model Pretrends_model Pretrends_proofs Pretrends_thms
  Results_model Staggered_model Export_model Data_model Data_proofs Data_thms Diag_model Tight10_thms.
From Coq Require Import Arith ZArith String List.
Import ListNotations.
Open Scope R_scope.

Theorem C64_constructor m robust alpha trim action :
  (forall cfg, ddd_init m robust alpha trim action = Ok cfg <->
     (m = "dr" \/ m = "reg" \/ m = "ipw")%string /\ (action = "warn" \/ action = "error" \/ action = "silent")%string /\
     cfg = {| dd_method := m; dd_robust := robust; dd_alpha := alpha; dd_trim := trim; dd_action := action |}) /\
  (forall e, ddd_init m robust alpha trim action = Err e -> e = ValueError).
Proof. exact (ddd_init_spec m robust alpha trim action). Qed.
Theorem C36_convenience_function lp ppf r method M alpha :
  (forall o, compute_honest lp ppf r method M alpha = Ok o <->
     (method = "smoothness" \/ method = "relative_magnitude" \/ method = "combined")%string /\ 0 <= M /\ 0 < alpha < 1 /\
     hd_fit lp ppf {| hd_method := method; hd_M := M; hd_alpha := alpha; hd_l := None |} r None = Ok o) /\
  (forall o, compute_honest lp ppf r method M alpha = Ok o -> ho_method o = method /\ ho_M o = M /\ ho_alpha o = alpha) /\
  (M < 0 -> compute_honest lp ppf r method M alpha = Err ValueError).
Proof. exact (honest_convenience lp ppf r method M alpha). Qed.
Section PowerAt.
Variables (chi2_ppf : R -> nat -> R) (ncx2_sf ncx2_cdf : R -> nat -> R -> R) (norm_ppf : R -> R)
  (brentq : (R -> R) -> R -> R -> option R) (minv : nat -> (nat -> nat -> R) -> option (nat -> nat -> R))
  (mpinv : nat -> (nat -> nat -> R) -> nat -> nat -> R).
Hypothesis Hx : ncx2_ok chi2_ppf ncx2_sf ncx2_cdf.
Notation fit := (pt_fit chi2_ppf ncx2_sf ncx2_cdf norm_ppf brentq minv mpinv).
Theorem C40_class_power_at cfg r M pre :
  (forall p, pt_power_at chi2_ppf ncx2_sf ncx2_cdf norm_ppf brentq minv mpinv cfg r M pre = Ok p <->
     exists x, fit cfg r (Some M) pre = Ok x /\ pr_power x = p /\ pr_M x = Fin M) /\
  (forall p M0 x q, pt_power_at chi2_ppf ncx2_sf ncx2_cdf norm_ppf brentq minv mpinv cfg r M pre = Ok p ->
     size_ok cfg -> pc_type cfg <> "custom"%string -> fit cfg r M0 pre = Ok x ->
     vquad minv mpinv (pr_n x) (pr_vcov x) (res_weights (pr_type x) (pr_n x)) = Fin q -> 0 <= q ->
     res_power_at ncx2_cdf minv mpinv x M = Fin p).
Proof. exact (power_at_spec chi2_ppf ncx2_sf ncx2_cdf norm_ppf brentq minv mpinv Hx cfg r M pre). Qed.
End PowerAt.
Theorem C98_table rows :
  map (fun x => fst (fst x)) (divorce_finish rows) = rows /\
  (forall r g d, In (r, g, d) (divorce_finish rows) -> g = divorce_first rows (lr_state r) /\ d = lr_unilateral r) /\
  ((forall q, In q rows -> lr_unilateral q = 0 \/ lr_unilateral q = 1) ->
   (forall q q', In q rows -> In q' rows -> lr_state q = lr_state q' -> (lr_year q <= lr_year q')%Z -> lr_unilateral q = 1 -> lr_unilateral q' = 1) ->
   (forall q, In q rows -> (0 < lr_year q)%Z) ->
   forall r g d, In (r, g, d) (divorce_finish rows) -> d = if ((0 <? g) && (g <=? lr_year r))%Z then 1 else 0).
Proof. exact (divorce_table rows). Qed.
Theorem C49_table_significance l :
  df_significant l = map snd (mp_table l) /\
  (forall k e, nth_error l k = Some e -> nth_error (df_significant l) k = Some (flt (pe_p e) (Fin (1/20)))).
Proof. exact (table_significance l). Qed.
Theorem C49_table_level r level :
  match cs_export r level, cs_to_dataframe level (match cr_es r with Some _ => true | None => false end) (match cr_group r with Some _ => true | None => false end) with
  | Ok (TabGT _), Ok TGroupTime | Ok (TabEvent _), Ok TEvent | Ok (TabGroup _), Ok TGroup => True
  | Err e, Err e' => e = ValueError /\ e' = ValueError
  | _, _ => False
  end.
Proof. exact (table_level_export r level). Qed.
Theorem C68_printed_level k : (0 <= k <= 100)%Z -> conf_level (IZR k / 100) = (100 - k)%Z.
Proof. exact (printed_level k). Qed.
Example C98_table_case :
  map (fun x => (snd (fst x), snd x)) (divorce_finish [ {| lr_state := "A"; lr_year := 1969; lr_unilateral := 0 |};
     {| lr_state := "A"; lr_year := 1970; lr_unilateral := 1 |}; {| lr_state := "B"; lr_year := 1970; lr_unilateral := 0 |} ])
  = [(1970%Z, 0); (1970%Z, 1); (0%Z, 0)].
Proof.
  unfold divorce_finish, divorce_first. simpl.
  rewrite Rplus_0_l, !Rplus_0_r, (proj2 (Rltb_true 0 1)) by lra.
  unfold Rltb. destruct (Rlt_dec 0 0); [lra|]. unfold Reqb. destruct (Req_EM_T 0 1); [lra|]. destruct (Req_EM_T 1 1); [|lra]. reflexivity.
Qed.
Print Assumptions C64_constructor.
Print Assumptions C36_convenience_function.
Print Assumptions C40_class_power_at.
Print Assumptions C98_table.
Print Assumptions C49_table_significance.
Print Assumptions C49_table_level.
Print Assumptions C68_printed_level.

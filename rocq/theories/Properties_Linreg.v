(* The LinearRegression helper (C129). *)
From Coq Require Import Reals.
From Verif Require Import Prelude Flt Linalg_model Linalg_proofs Linalg_vcov Linalg_thms Linalg_rank Trop_sel Linreg_model Linreg_proofs.
From Coq Require Import Arith ZArith String List.
Import ListNotations.
Open Scope R_scope.

Section S.
Context {I K : Type} (eqd : forall x y : K, {x = y} + {x <> y}).
Variable qr : list I -> list (I -> R) -> list nat.
Variable lstsq : list I -> list (I -> R) -> (I -> R) -> list R.
Variable inv : list I -> list (I -> R) -> option (nat -> nat -> R).
Variable pinv : list I -> list (I -> R) -> nat -> nat -> R.
Variable sf : option Z -> fl -> fl.
Variable ppf : option Z -> R -> R.
Hypothesis Hqr : qr_ok qr.
Hypothesis Hls : lstsq_ok lstsq.
Notation cfgT := (lr_cfg I K).
Notation state := (lr_state I).
Notation fit := (lr_fit eqd qr lstsq inv pinv).
Notation inf := (lr_inference sf ppf).
Theorem C129_unfitted (cfg : cfgT) i l alpha df adj {J} (X : list (J -> R)) :
  @lr_coefficient I None i = Err ValueError /\ @lr_se I None i = Err ValueError /\ inf cfg None i alpha df = Err ValueError /\
  lr_batch sf ppf cfg None l alpha df = Err ValueError /\ lr_all sf ppf cfg None alpha df = Err ValueError /\
  @lr_r2 I None adj = Err ValueError /\ lr_predict cfg None X = Err ValueError.
Proof. exact (lr_unfitted sf ppf cfg i l alpha df adj X). Qed.
Theorem C129_failed_fit_keeps_state (cfg : cfgT) st rows X y cl adj e st' : fit cfg st rows X y cl adj = (Err e, st') -> st' = st.
Proof. exact (lr_fit_failure eqd qr lstsq inv pinv cfg st rows X y cl adj e st'). Qed.
Theorem C129_refit (cfg : cfgT) st0 st1 rows X y cl adj : fst (fit cfg st0 rows X y cl adj) = fst (fit cfg st1 rows X y cl adj) /\
  (is_ok (fst (fit cfg st0 rows X y cl adj)) = true -> snd (fit cfg st0 rows X y cl adj) = snd (fit cfg st1 rows X y cl adj)).
Proof. exact (lr_refit eqd qr lstsq inv pinv cfg st0 st1 rows X y cl adj). Qed.
Theorem C129_fit_returns (cfg : cfgT) st rows X y adj : c_robust cfg = false -> c_cluster cfg = None ->
  is_ok (fst (fit cfg st rows X y None adj)) = true <->
  (length (with_intercept cfg X) <= length rows)%nat /\
  ((c_action cfg = "warn" \/ c_action cfg = "silent")%string /\ (with_intercept cfg X = [] \/ exists c i, In c (with_intercept cfg X) /\ In i rows /\ c i <> 0) \/
   (c_action cfg = "error"%string /\ qr rows (with_intercept cfg X) = [])).
Proof. exact (lr_fit_returns eqd qr lstsq inv pinv Hqr cfg st rows X y adj). Qed.
Theorem C129_cluster_argument (cfg : cfgT) st rows X y c adj :
  fit cfg st rows X y (Some c) adj =
  fit {| c_intercept := c_intercept cfg; c_robust := c_robust cfg; c_cluster := Some c; c_alpha := c_alpha cfg; c_action := c_action cfg |} st rows X y None adj.
Proof. exact (lr_cluster_argument eqd qr lstsq inv pinv cfg st rows X y c adj). Qed.
Theorem C129_column_space (cfg cfg' : cfgT) st0 st0' rows X X' y cl adj u u' st st' :
  c_robust cfg' = c_robust cfg -> c_cluster cfg' = c_cluster cfg ->
  fit cfg st0 rows X y cl adj = (Ok u, st) -> fit cfg' st0' rows X' y cl adj = (Ok u', st') ->
  same_span rows (with_intercept cfg X) (with_intercept cfg' X') ->
  exists f f', st = Some f /\ st' = Some f' /\ l_df (f_reg f) = l_df (f_reg f') /\
    (forall i, In i rows -> l_resid (f_reg f) i = l_resid (f_reg f') i /\ l_fitted (f_reg f) i = l_fitted (f_reg f') i) /\
    lr_r2 st false = lr_r2 st' false /\ lr_r2 st true = lr_r2 st' true.
Proof. exact (lr_span eqd qr lstsq inv pinv Hqr Hls cfg cfg' st0 st0' rows X X' y cl adj u u' st st'). Qed.
Theorem C129_intercept_redundant (cfg cfg' : cfgT) st0 st0' rows X y cl adj u u' st st' :
  c_intercept cfg = true -> c_intercept cfg' = false -> c_robust cfg' = c_robust cfg -> c_cluster cfg' = c_cluster cfg ->
  fit cfg st0 rows X y cl adj = (Ok u, st) -> fit cfg' st0' rows X y cl adj = (Ok u', st') -> span rows X (fun _ => 1) ->
  exists f f', st = Some f /\ st' = Some f' /\ l_df (f_reg f) = l_df (f_reg f') /\
    (forall i, In i rows -> l_resid (f_reg f) i = l_resid (f_reg f') i /\ l_fitted (f_reg f) i = l_fitted (f_reg f') i) /\
    lr_r2 st false = lr_r2 st' false /\ lr_r2 st true = lr_r2 st' true.
Proof. exact (lr_intercept_redundant eqd qr lstsq inv pinv Hqr Hls cfg cfg' st0 st0' rows X y cl adj u u' st st'). Qed.
Section Fitted.
Variables (cfg : cfgT) (st0 : state) (rows : list I) (X : list (I -> R)) (y : I -> R) (cl : option (I -> K)) (adj : Z) (u : unit) (st : state).
Hypothesis HF : fit cfg st0 rows X y cl adj = (Ok u, st).
Let k := (length X + if c_intercept cfg then 1 else 0)%nat.
Theorem C129_index_range i alpha df : is_ok (inf cfg st i alpha df) = true <-> (- Z.of_nat k <= i < Z.of_nat k)%Z.
Proof. exact (lr_index_range eqd qr lstsq inv pinv sf ppf Hqr Hls cfg st0 rows X y cl adj u st HF i alpha df). Qed.
Theorem C129_index_error i alpha df : ~ (- Z.of_nat k <= i < Z.of_nat k)%Z -> inf cfg st i alpha df = Err IndexError.
Proof. exact (lr_index_error eqd qr lstsq inv pinv sf ppf Hqr Hls cfg st0 rows X y cl adj u st HF i alpha df). Qed.
Theorem C129_negative_index i alpha df : (- Z.of_nat k <= i < 0)%Z -> inf cfg st i alpha df = inf cfg st (i + Z.of_nat k)%Z alpha df.
Proof. exact (lr_negative_index eqd qr lstsq inv pinv sf ppf Hqr Hls cfg st0 rows X y cl adj u st HF i alpha df). Qed.
Theorem C129_accessors i alpha df r : inf cfg st i alpha df = Ok r ->
  lr_coefficient st i = Ok (i_coef r) /\ lr_se st i = Ok (i_se r) /\ i_alpha r = match alpha with Some a => a | None => c_alpha cfg end.
Proof. exact (lr_accessors eqd qr lstsq inv pinv sf ppf Hqr Hls cfg st0 rows X y cl adj u st HF i alpha df r). Qed.
Theorem C129_all alpha df : exists rs, lr_all sf ppf cfg st alpha df = Ok rs /\ length rs = k /\
  forall j d, (j < k)%nat -> inf cfg st (Z.of_nat j) alpha df = Ok (nth j rs d).
Proof. exact (lr_all_ok eqd qr lstsq inv pinv sf ppf Hqr Hls cfg st0 rows X y cl adj u st HF alpha df). Qed.
Theorem C129_batch_ok l alpha df : is_ok (lr_batch sf ppf cfg st l alpha df) = true <-> forall i, In i l -> (- Z.of_nat k <= i < Z.of_nat k)%Z.
Proof. exact (lr_batch_ok eqd qr lstsq inv pinv sf ppf Hqr Hls cfg st0 rows X y cl adj u st HF l alpha df). Qed.
Theorem C129_batch_error l alpha df e : lr_batch sf ppf cfg st l alpha df = Err e -> e = IndexError.
Proof. exact (lr_batch_error eqd qr lstsq inv pinv sf ppf Hqr Hls cfg st0 rows X y cl adj u st HF l alpha df e). Qed.
Theorem C129_batch_entries l alpha df d : lr_batch sf ppf cfg st l alpha df = Ok d ->
  (forall i, In i l -> exists r, inf cfg st i alpha df = Ok r /\ lookup d i = Some r) /\ (forall i, ~ In i l -> lookup d i = None) /\
  NoDup (map fst d) /\ (forall i, In i (map fst d) <-> In i l) /\ (NoDup l -> map fst d = l).
Proof. exact (lr_batch_entries eqd qr lstsq inv pinv sf ppf Hqr Hls cfg st0 rows X y cl adj u st HF l alpha df d). Qed.
Theorem C129_predict_training : exists p f, lr_predict cfg st X = Ok p /\ st = Some f /\ forall i, p i = l_fitted (f_reg f) i.
Proof. exact (lr_predict_training eqd qr lstsq inv pinv Hqr Hls cfg st0 rows X y cl adj u st HF). Qed.
Theorem C129_predict_new {J} (new : list J) (Xn : list (J -> R)) : length Xn = length X ->
  (forall c, length c = k -> (forall i, In i rows -> lc (with_intercept cfg X) c i = 0) -> forall j, In j new -> lc (if c_intercept cfg then (fun _ => 1) :: Xn else Xn) c j = 0) ->
  exists p, lr_predict cfg st Xn = Ok p /\
    forall b, is_ls rows (with_intercept cfg X) y b -> forall j, In j new -> p j = lc (if c_intercept cfg then (fun _ => 1) :: Xn else Xn) b j.
Proof. exact (lr_predict_new eqd qr lstsq inv pinv Hqr Hls cfg st0 rows X y cl adj u st HF new Xn). Qed.
Theorem C129_df_default i alpha : exists f, st = Some f /\ inf cfg st i alpha None = inf cfg st i alpha (Some (l_df (f_reg f))).
Proof. exact (lr_df_default eqd qr lstsq inv pinv sf ppf Hqr Hls cfg st0 rows X y cl adj u st HF i alpha). Qed.
Theorem C129_df_normal i alpha df r : inf cfg st i alpha df = Ok r ->
  exists f, st = Some f /\ let d := match df with Some d => d | None => l_df (f_reg f) end in
  (i_df r = None <-> (d <= 0)%Z) /\ (i_df r <> None -> i_df r = Some d) /\ i_p r = fmul (Fin 2) (sf (i_df r) (fabs (i_t r))).
Proof. exact (lr_df_normal eqd qr lstsq inv pinv sf ppf Hqr Hls cfg st0 rows X y cl adj u st HF i alpha df r). Qed.
End Fitted.
End S.
Section Ex.
Variable qr : list nat -> list (nat -> R) -> list nat.
Variable lstsq : list nat -> list (nat -> R) -> (nat -> R) -> list R.
Variable inv : list nat -> list (nat -> R) -> option (nat -> nat -> R).
Variable pinv : list nat -> list (nat -> R) -> nat -> nat -> R.
Hypothesis Hqr : qr_ok qr.
Hypothesis Hls : lstsq_ok lstsq.
Hypothesis Hinv : inv_ok inv.
Let rows := [0; 1; 2]%nat.
Theorem C129_case : exists st f, lr_fit Nat.eq_dec qr lstsq inv pinv (@lr_demo nat nat) None rows [] INR None 0%Z = (Ok tt, st) /\ st = Some f /\
  l_df (f_reg f) = 2%Z /\ lr_coefficient st 0 = Ok (Fin 1) /\ lr_se st 0 = Ok (Fin (sqrt (1 / 3))).
Proof. exact (lr_ex qr lstsq inv pinv Hqr Hls Hinv). Qed.
Theorem C129_redundant_case : exists st st',
  lr_fit Nat.eq_dec qr lstsq inv pinv (@lr_demo nat nat) None rows [fun _ => 1; INR] INR None 0%Z = (Ok tt, st) /\
  lr_fit Nat.eq_dec qr lstsq inv pinv {| c_intercept := false; c_robust := false; c_cluster := @None (nat -> nat); c_alpha := 1 / 20; c_action := "warn" |} None rows [fun _ => 1; INR] INR None 0%Z = (Ok tt, st') /\
  span rows [fun _ => 1; INR] (fun _ => 1) /\ (forall b, lr_r2 st b = lr_r2 st' b).
Proof. exact (lr_ex_redundant qr lstsq inv pinv Hqr Hls). Qed.
Theorem C129_df_none_refuted : exists st r rn, lr_fit Nat.eq_dec qr lstsq inv pinv (@lr_demo nat nat) None rows [] INR None 0%Z = (Ok tt, st) /\
  lr_inference heavy_sf heavy_ppf (@lr_demo nat nat) st 0 None None = Ok r /\ lr_inference heavy_sf heavy_ppf (@lr_demo nat nat) st 0 None (Some 0%Z) = Ok rn /\
  i_df r = Some 2%Z /\ i_df rn = None /\ i_t r = i_t rn /\ i_p r <> i_p rn.
Proof. exact (lr_df_none_refuted qr lstsq inv pinv Hqr Hls Hinv). Qed.
End Ex.
Print Assumptions C129_unfitted.
Print Assumptions C129_failed_fit_keeps_state.
Print Assumptions C129_refit.
Print Assumptions C129_fit_returns.
Print Assumptions C129_cluster_argument.
Print Assumptions C129_column_space.
Print Assumptions C129_intercept_redundant.
Print Assumptions C129_index_range.
Print Assumptions C129_index_error.
Print Assumptions C129_negative_index.
Print Assumptions C129_accessors.
Print Assumptions C129_all.
Print Assumptions C129_batch_ok.
Print Assumptions C129_batch_error.
Print Assumptions C129_batch_entries.
Print Assumptions C129_predict_training.
Print Assumptions C129_predict_new.
Print Assumptions C129_df_default.
Print Assumptions C129_df_normal.
Print Assumptions C129_case.
Print Assumptions C129_redundant_case.
Print Assumptions C129_df_none_refuted.

(* Properties of the synthetic difference-in-differences code: statements only. *)
From Verif Require Import Prelude Flt Stats_model Stats_proofs Linalg_model Linalg_proofs Synth_model Synth_proofs Synth_more.
From Coq Require Import Arith ZArith String List Permutation.
Import ListNotations.
Open Scope R_scope.

(* C26 *)
Theorem C26_unit_weights {T} iter nrm (pre : list T) cols y lambda m : cols <> [] ->
  in_simplex (synthetic_weights (synth_numpy iter nrm pre cols y lambda) (length cols) m) /\
  length (synthetic_weights (synth_numpy iter nrm pre cols y lambda) (length cols) m) = length cols /\
  in_simplex (synthetic_weights (synth_rust iter pre cols y lambda) (length cols) m) /\
  length (synthetic_weights (synth_rust iter pre cols y lambda) (length cols) m) = length cols.
Proof. exact (unit_weights_simplex iter nrm pre cols y lambda m). Qed.

Theorem C26_time_weights {T J} (Y : T -> J -> R) pre ctrl y zeta : pre <> [] -> 0 <= zeta ->
  in_simplex (time_weights Y pre ctrl y zeta) /\ length (time_weights Y pre ctrl y zeta) = length pre.
Proof. exact (time_weights_simplex Y pre ctrl y zeta). Qed.

(* C27 *)
Theorem C27_in_simplex v : v <> [] -> in_simplex (project_simplex v) /\ length (project_simplex v) = length v.
Proof. intros H. split; [exact (project_in_simplex v H)|exact (project_length v)]. Qed.
Theorem C27_nearest v z : v <> [] -> length z = length v -> in_simplex z ->
  sqd v (project_simplex v) + sqd (project_simplex v) z <= sqd v z.
Proof. exact (project_nearest v z). Qed.
Theorem C27_unique v z : v <> [] -> length z = length v -> in_simplex z ->
  (forall z', length z' = length v -> in_simplex z' -> sqd v z <= sqd v z') -> z = project_simplex v.
Proof. exact (project_unique v z). Qed.
Theorem C27_idempotent z : in_simplex z -> project_simplex z = z.
Proof. exact (project_idempotent z). Qed.
Theorem C27_order_preserving v i j : (i < length v)%nat -> (j < length v)%nat -> nth i v 0 <= nth j v 0 ->
  nth i (project_simplex v) 0 <= nth j (project_simplex v) 0.
Proof. exact (project_monotone v i j). Qed.
Theorem C27_backends_agree v : project_simplex_rust v = project_simplex v.
Proof. exact (project_rust_eq v). Qed.
Example C27_case : project_simplex [2; 3/2; -(7)] = [3/4; 1/4; 0].
Proof.
  symmetry. apply project_unique; [discriminate|reflexivity| |].
  - split; [intros x [<-|[<-|[<-|[]]]]; lra|simpl; unfold idR; lra].
  - intros z Hl [Hz Hs]. destruct z as [|a [|b [|c [|]]]]; simpl in Hl; try discriminate.
    assert (0 <= a) by (apply Hz; simpl; auto). assert (0 <= b) by (apply Hz; simpl; auto). assert (0 <= c) by (apply Hz; simpl; auto).
    simpl in Hs. unfold idR in Hs. unfold sqd; simpl.
    pose proof (sq_nonneg (a - 3/4)). pose proof (sq_nonneg (b - 1/4)). pose proof (sq_nonneg c). nra.
Qed.

(* C28 *)
Theorem C28_linear {T J} (pre post : list T) (ctrl : list J) omega lambda (Y1 Y2 : T -> J -> R) y1 y2 s :
  sdid (fun t j => s * Y1 t j + Y2 t j) pre post ctrl (fun t => s * y1 t + y2 t) omega lambda
  = s * sdid Y1 pre post ctrl y1 omega lambda + sdid Y2 pre post ctrl y2 omega lambda.
Proof. exact (sdid_linear pre post ctrl omega lambda Y1 Y2 y1 y2 s). Qed.

Theorem C28_exact {T J} (pre post : list T) (ctrl : list J) omega lambda (Y : T -> J -> R) (y : T -> R) (a : J -> R) aT (b tau : T -> R) :
  length omega = length ctrl -> length lambda = length pre -> sumf idR omega = 1 -> sumf idR lambda = 1 -> post <> [] ->
  (forall t j, In t (pre ++ post) -> In j ctrl -> Y t j = a j + b t) ->
  (forall t, In t pre -> y t = aT + b t) ->
  (forall t, In t post -> y t = aT + b t + tau t) ->
  sdid Y pre post ctrl y omega lambda = meanf tau post.
Proof. intros L1 L2 S1 S2 Hp. exact (sdid_exact pre post ctrl omega lambda L1 L2 S1 S2 Hp Y y a aT b tau). Qed.

Theorem C28_invariant {T J} (pre post : list T) (ctrl : list J) omega lambda (Y : T -> J -> R) (y : T -> R) (a : J -> R) aT (b : T -> R) :
  length omega = length ctrl -> length lambda = length pre -> sumf idR omega = 1 -> sumf idR lambda = 1 -> post <> [] ->
  sdid (fun t j => Y t j + (a j + b t)) pre post ctrl (fun t => y t + (aT + b t)) omega lambda
  = sdid Y pre post ctrl y omega lambda.
Proof. intros L1 L2 S1 S2 Hp. exact (sdid_invariant pre post ctrl omega lambda L1 L2 S1 S2 Hp Y y a aT b). Qed.

Theorem C28_shift_post {T J} (pre post : list T) (ctrl : list J) omega lambda (Y : T -> J -> R) (y y' : T -> R) c :
  post <> [] ->
  (forall t, In t pre -> y' t = y t) -> (forall t, In t post -> y' t = y t + c) ->
  sdid Y pre post ctrl y' omega lambda = sdid Y pre post ctrl y omega lambda + c.
Proof. intros Hp. exact (sdid_shift_post pre post ctrl omega lambda Hp Y y y' c). Qed.

Theorem C28_uniform_is_did {T J} (Y : T -> J -> R) (y : T -> R) pre post (ctrl : list J) :
  pre <> [] -> post <> [] -> ctrl <> [] ->
  sdid Y pre post ctrl y (uniform_w (length ctrl)) (uniform_w (length pre))
  = (meanf y post - meanf y pre)
    - (meanf (fun t => meanf (Y t) ctrl) post - meanf (fun t => meanf (Y t) ctrl) pre).
Proof. exact (sdid_uniform_is_did Y y pre post ctrl). Qed.

(* every weight vector the code produces qualifies *)
Example C28_weights_qualify {T J} iter nrm (Y : T -> J -> R) (pre : list T) (ctrl : list J) y lambda m zeta :
  ctrl <> [] -> pre <> [] -> 0 <= zeta ->
  let cols := map (fun j t => Y t j) ctrl in
  let omega := synthetic_weights (synth_numpy iter nrm pre cols y lambda) (length cols) m in
  let lam := time_weights Y pre ctrl y zeta in
  length omega = length ctrl /\ length lam = length pre /\ sumf idR omega = 1 /\ sumf idR lam = 1.
Proof.
  intros H1 H2 H3 cols omega lam.
  assert (Hc : cols <> []) by (unfold cols; destruct ctrl; [congruence|discriminate]).
  destruct (unit_weights_simplex iter nrm pre cols y lambda m Hc) as ((_ & A) & B & _).
  destruct (time_weights_simplex Y pre ctrl y zeta H2 H3) as ((_ & C) & D).
  repeat split; auto. unfold omega. rewrite B. apply map_length.
Qed.

Theorem C28_periods {T} (mem : T -> list T -> bool) all post pre pst :
  (forall x l, mem x l = true <-> In x l) -> NoDup all ->
  sdid_periods mem all post = Ok (pre, pst) ->
  pre <> [] /\ pst <> [] /\ (forall x, In x all <-> In x pre \/ In x pst) /\
  (forall x, In x pre -> ~ In x pst).
Proof. exact (sdid_periods_spec mem all post pre pst). Qed.

(* C29 *)
Theorem C29_placebo_se_is_population_sd nc nt effects : (nt < nc)%nat -> (2 <= length effects)%nat ->
  placebo_se nc nt effects = (std 0 effects, effects).
Proof. exact (placebo_se_is_sd nc nt effects). Qed.
Theorem C29_parallel_controls_zero_placebo {T J} (Y : T -> J -> R) pre post lambda n_pseudo (perm : list (J * R)) (a : J -> R) (b : T -> R) :
  (0 < n_pseudo < length perm)%nat -> length lambda = length pre -> sumf idR lambda = 1 -> post <> [] ->
  (forall t j, In t (pre ++ post) -> In j (map fst perm) -> Y t j = a j + b t) ->
  placebo_one Y pre post lambda n_pseudo perm = 0.
Proof. exact (placebo_zero Y pre post lambda n_pseudo perm a b). Qed.
Theorem C29_p_value_bounds sf z att se alpha draws : 0 < se -> draws <> [] ->
  let r := sdid_inference sf z att se alpha draws in
  1 / (len draws + 1) <= s_p r <= 1 /\ s_t r * se = att /\
  (s_p r = 1 / (len draws + 1) \/ s_p r = share (fun d => Rleb (Rabs att) (Rabs d)) draws).
Proof. exact (sdid_p_bounds sf z att se alpha draws). Qed.
(* refuted: p-value and interval disagree about zero *)
Theorem C29_p_and_interval_agree_refuted sf z : 0 < z (1 - (5 / 100) / 2) < 5 ->
  let r := sdid_inference sf z 10 (std 1 [9; 11]) (5 / 100) [9; 11] in
  bootstrap_se 2 [9; 11] = Ok (std 1 [9; 11], [9; 11]) /\ s_p r = 1 / 2 /\ 0 < fst (s_ci r).
Proof. exact (sdid_bootstrap_p_incoherent sf z). Qed.
Theorem C29_zero_spread_p_is_one sf z att alpha draws :
  let r := sdid_inference sf z att 0 alpha draws in s_p r = 1 /\ s_t r = 0 /\ s_ci r = (att, att).
Proof. exact (sdid_zero_se sf z att alpha draws). Qed.

(* C52 *)
Theorem C52_same_step_size_same_iterate {T} (pre : list T) cols y lambda step w :
  grad_step project_simplex_rust (length cols) step (grad_rust pre cols y lambda) w
  = grad_step project_simplex (length cols) step (grad_py pre cols y lambda) w.
Proof. exact (backends_same_step pre cols y lambda step w). Qed.
Theorem C52_fixed_point_is_optimal {T} (pre : list T) cols y lambda step w z :
  0 < step -> 0 <= lambda -> cols <> [] ->
  grad_step project_simplex (length cols) step (grad_py pre cols y lambda) w = w ->
  length z = length cols -> in_simplex z ->
  objective pre cols y lambda w <= objective pre cols y lambda z.
Proof. exact (fixed_point_optimal pre cols y lambda step w z). Qed.
(* refuted: one pre-period, controls 10 and 0, treated 6.  Rust ends on weight (0,1) with squared error 36
   for every even iteration count, while (0.6, 0.4) has error 0 and the NumPy iteration contracts to it *)
Theorem C52_backends_agree_refuted k : (1 <= k)%nat ->
  synth_rust (2 * k) two_pre two_cols two_y 0 = [0; 1] /\
  objective two_pre two_cols two_y 0 [0; 1] = 36 /\
  objective two_pre two_cols two_y 0 [6 / 10; 4 / 10] = 0.
Proof. exact (rust_weights_bad k). Qed.
Theorem C52_numpy_contracts x : 0 <= x <= 1 ->
  exists x', py_step [x; 1 - x] = [x'; 1 - x'] /\ 0 <= x' <= 1 /\ Rabs (x' - 6 / 10) <= 51 / 100 * Rabs (x - 6 / 10).
Proof. exact (py_step_contracts x). Qed.

Print Assumptions C26_unit_weights.
Print Assumptions C26_time_weights.
Print Assumptions C27_in_simplex.
Print Assumptions C27_nearest.
Print Assumptions C27_unique.
Print Assumptions C27_idempotent.
Print Assumptions C27_order_preserving.
Print Assumptions C27_backends_agree.
Print Assumptions C28_linear.
Print Assumptions C28_exact.
Print Assumptions C28_invariant.
Print Assumptions C28_shift_post.
Print Assumptions C28_uniform_is_did.
Print Assumptions C28_periods.
Print Assumptions C29_placebo_se_is_population_sd.
Print Assumptions C29_parallel_controls_zero_placebo.
Print Assumptions C29_p_value_bounds.
Print Assumptions C29_p_and_interval_agree_refuted.
Print Assumptions C29_zero_spread_p_is_one.
Print Assumptions C52_same_step_size_same_iterate.
Print Assumptions C52_fixed_point_is_optimal.
Print Assumptions C52_backends_agree_refuted.
Print Assumptions C52_numpy_contracts.

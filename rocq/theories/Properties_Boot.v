(* Properties of the bootstrap weight generators and of wild_bootstrap_se: statements only. *)
From Verif Require Import Prelude Flt Stats_model Linalg_model Linalg_proofs Linalg_vcov Linalg_thms Did_model Did_spec Did_proofs
  Did_equiv Did_more Boot_model Boot_proofs Boot_more.
From Coq Require Import Arith ZArith String List.
Import ListNotations.
Open Scope R_scope.

(* C15 *)
Theorem C15_moments :
  (forall d, In d [rademacher; webb; mammen] ->
     Ex d (fun _ => 1) = 1 /\ (forall vp, In vp d -> 0 <= snd vp) /\ Ex d (fun w => w) = 0 /\ Ex d (fun w => w * w) = 1)
  /\ Ex mammen (fun w => w * w * w) = 1.
Proof.
  split; [|exact mammen_third]. intros d [<-|[<-|[<-|[]]]]; [exact rademacher_std|exact webb_std|exact mammen_std].
Qed.

Theorem C15_sum_of_weighted_clusters d (c : list R) :
  In d [rademacher; webb; mammen] ->
  Exv (draws d (length c)) (fun _ => 1) = 1 /\
  Exv (draws d (length c)) (dot c) = 0 /\
  Exv (draws d (length c)) (fun w => dot c w * dot c w) = sumf (fun a => a * a) c.
Proof.
  intros Hd. assert (H : standardised d) by (destruct Hd as [<-|[<-|[<-|[]]]]; [exact rademacher_std|exact webb_std|exact mammen_std]).
  split; [exact (draws_mass d _ (proj1 H))|]. split; [exact (draws_mean d c (proj1 H) (proj1 (proj2 (proj2 H))))|exact (draws_variance d c H)].
Qed.

Theorem C15_backends_same_law s d : boot_dist_py s = Ok d ->
  exists d', boot_dist_rust s = Ok d' /\ forall f, Ex d' f = Ex d f.
Proof. exact (rust_numpy_same_law s d). Qed.

Example C15_backends_differ_on_case : boot_dist_rust "Rademacher" = Ok rademacher_rust /\ boot_dist_py "Rademacher" = Err ValueError.
Proof. exact rust_accepts_more. Qed.

Section P.
Context {I G : Type} (eqd : forall x y : G, {x = y} + {x <> y}).
Variable qr : list I -> list (I -> R) -> list nat.
Variable lstsq : list I -> list (I -> R) -> (I -> R) -> list R.
Variable inv : list I -> list (I -> R) -> option (nat -> nat -> R).
Hypothesis Hqr : qr_ok qr.
Hypothesis Hls : lstsq_ok lstsq.
Hypothesis Hinv : inv_ok inv.
Notation wb := (wild_bootstrap eqd qr lstsq inv).

(* C16, the part that holds *)
Theorem C16_p_value_bounds rows cols y cl j wt null alpha ws r :
  wb rows cols y cl j wt null alpha ws = Ok r ->
  1 / (len ws + 1) <= w_p r <= 1 /\ 0 < w_p r.
Proof. exact (wild_p_bounds eqd qr lstsq inv rows cols y cl j wt null alpha ws r). Qed.

Theorem C16_interval_ordered rows cols y cl j wt null alpha ws r :
  0 <= alpha <= 1 ->
  wb rows cols y cl j wt null alpha ws = Ok r ->
  fst (w_ci r) <= snd (w_ci r) /\ length (w_coefs r) = length ws.
Proof. exact (wild_ci_ordered eqd qr lstsq inv rows cols y cl j wt null alpha ws r). Qed.

(* C16: what the replicates are really centred at *)
Theorem C16_replicates_centre rows cols y cl j wt null alpha ws r (pi : list R) bh :
  wb rows cols y cl j wt null alpha ws = Ok r ->
  is_ls rows cols y bh ->
  length pi = length ws -> sumf idR pi = 1 ->
  (forall g, In g (map cl rows) -> sumf (fun wp => snd wp * fst wp g) (combine ws pi) = 0) ->
  sumf (fun cp => fst cp * snd cp) (combine (w_coefs r) pi) = nth j bh 0 - null.
Proof. exact (wild_centre eqd qr lstsq inv Hqr Hls rows cols y cl j wt null alpha ws r pi bh). Qed.

(* C16: the p-value is the share of draws whose |t| is at least the observed |t|, each t computed from the
   least squares fit of that draw's bootstrap outcome and its own cluster-robust variance *)
Theorem C16_p_value_exact rows cols y cl j wt null alpha ws r :
  wb rows cols y cl j wt null alpha ws = Ok r ->
  exists bh V0 ts,
    is_ls rows cols y bh /\
    robust_vcov eqd inv rows cols (fun i => y i - lc cols bh i) (Some cl) = Ok V0 /\
    w_t r = fdiv (Fin (nth j bh 0 - null)) (Fin (sqrt (V0 j j))) /\
    Forall2 (fun w t => exists b V,
               let ystar := fun i => lc cols bh i - null * colx cols j i + (y i - lc cols bh i) * w (cl i) in
               is_ls rows cols ystar b /\
               robust_vcov eqd inv rows cols (fun i => ystar i - lc cols b i) (Some cl) = Ok V /\
               t = if Rltb 0 (V j j) then (nth j b 0 - null) / sqrt (V j j) else 0) ws ts /\
    w_p r = Rmax (share (fun t => fge (Fin (Rabs t)) (fabs (w_t r))) ts) (1 / (len ws + 1)).
Proof. exact (wild_p_exact eqd qr lstsq inv Hqr Hls Hinv rows cols y cl j wt null alpha ws r). Qed.

(* C16: the reported interval moves with the null being tested *)
Theorem C16_interval_depends_on_null rows cols y cl j wt null alpha ws r r0 :
  0 <= alpha <= 1 ->
  wb rows cols y cl j wt null alpha ws = Ok r -> wb rows cols y cl j wt 0 alpha ws = Ok r0 ->
  w_coefs r = map (fun c => c - null) (w_coefs r0) /\
  fst (w_ci r) = fst (w_ci r0) - null /\ snd (w_ci r) = snd (w_ci r0) - null.
Proof. exact (wild_null_shift eqd qr lstsq inv Hqr Hls rows cols y cl j wt null alpha ws r r0). Qed.

Theorem C16_defined rows cols y cl j wt null alpha ws :
  known_weights wt -> indep rows cols -> (length cols < length rows)%nat ->
  (2 <= length (cl_keys eqd rows cl))%nat -> (j < length cols)%nat -> ws <> [] ->
  exists r, wb rows cols y cl j wt null alpha ws = Ok r.
Proof. exact (wild_defined eqd qr lstsq inv Hqr Hls Hinv rows cols y cl j wt null alpha ws). Qed.

Theorem C16_rank_deficient_always_raises rows cols y cl j wt null alpha ws :
  qr rows cols <> [] -> forall r, wb rows cols y cl j wt null alpha ws <> Ok r.
Proof. exact (wild_rank_deficient eqd qr lstsq inv Hqr Hls rows cols y cl j wt null alpha ws). Qed.
End P.

(* C16 refuted: testing the null 0 on a 2x2 data set with ATT 4, every sign-symmetric set of draws gives
   bootstrap coefficients with mean 4, not 0 *)
Theorem C16_null_imposed_refuted (ws : list (nat -> R)) : ws <> [] ->
  exists r, wx_run (ws ++ map (fun w g => - w g) ws) = Ok r /\ meanf idR (w_coefs r) = 4.
Proof. exact (wild_null_not_imposed ws). Qed.

Example C16_run_exists (ws : list (nat -> R)) : ws <> [] -> exists r, wx_run ws = Ok r.
Proof. exact (wx_ok ws). Qed.

Print Assumptions C15_moments.
Print Assumptions C15_sum_of_weighted_clusters.
Print Assumptions C15_backends_same_law.
Print Assumptions C16_p_value_bounds.
Print Assumptions C16_interval_ordered.
Print Assumptions C16_replicates_centre.
Print Assumptions C16_p_value_exact.
Print Assumptions C16_interval_depends_on_null.
Print Assumptions C16_defined.
Print Assumptions C16_rank_deficient_always_raises.
Print Assumptions C16_null_imposed_refuted.

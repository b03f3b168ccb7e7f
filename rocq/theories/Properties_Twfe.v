(* Properties of the within transformation and of TwoWayFixedEffects: statements only. *)
From Verif Require Import Prelude Flt Linalg_model Linalg_proofs Linalg_vcov Linalg_thms Did_model Did_spec Did_proofs Did_equiv Did_more
  Within_proofs Stats_model Boot_model Boot_proofs Twfe_model Twfe_proofs.
From Coq Require Import Arith ZArith String List.
Import ListNotations.
Open Scope R_scope.

(* C12: one grouping variable, any panel *)
Section One.
Context {I G : Type} (geq : forall x y : G, {x = y} + {x <> y}).
Theorem C12_oneway (rows : list I) (g : I -> G) x :
  (forall k, sumf (demean geq rows g x) (filter (fun j => keqb geq (g j) k) rows) = 0) /\
  (forall (a : G -> R) i, In i rows -> demean geq rows g (fun j => x j + a (g j)) i = demean geq rows g x i) /\
  (forall i, demean geq rows g (demean geq rows g x) i = demean geq rows g x i).
Proof.
  split; [exact (demean_group_zero geq rows g x)|]. split; [exact (fun a i => demean_absorbs geq rows g x a i)|exact (demean_idempotent geq rows g x)].
Qed.
End One.

(* C12: two grouping variables, balanced panel *)
Section Two.
Context {I U T : Type} (ueq : forall x y : U, {x = y} + {x <> y}) (teq : forall x y : T, {x = y} + {x <> y}).
Variables (rows : list I) (u : I -> U) (t : I -> T) (m : nat).
Hypothesis Hbal : balanced ueq teq rows u t m.
Notation W := (within ueq teq rows u t).

Theorem C12_additive_effects_vanish x (a : U -> R) (b : T -> R) i : In i rows ->
  W (fun j => x j + (a (u j) + b (t j))) i = W x i.
Proof. exact (within_absorbs ueq teq rows u t m Hbal x a b i). Qed.
Theorem C12_unit_means_zero x a : In a (map u rows) -> sumf (W x) (filter (fun j => keqb ueq (u j) a) rows) = 0.
Proof. exact (within_unit_zero ueq teq rows u t m Hbal x a). Qed.
Theorem C12_period_means_zero x b : In b (map t rows) -> sumf (W x) (filter (fun j => keqb teq (t j) b) rows) = 0.
Proof. exact (within_time_zero ueq teq rows u t m Hbal x b). Qed.
Theorem C12_idempotent x i : In i rows -> W (W x) i = W x i.
Proof. exact (within_idempotent ueq teq rows u t m Hbal x i). Qed.
(* equivalent to unit and period dummies: tau solves the two-way fixed-effects normal equations iff ... *)
Theorem C12_frisch_waugh y D tau a b :
  is_twoway_fit rows u t y D tau a b -> ip rows (W D) (W D) <> 0 ->
  tau = ip rows (W D) (W y) / ip rows (W D) (W D).
Proof. exact (twoway_coef ueq teq rows u t m Hbal y D tau a b). Qed.
Theorem C12_frisch_waugh_exists y D : ip rows (W D) (W D) <> 0 ->
  exists a b, is_twoway_fit rows u t y D (ip rows (W D) (W y) / ip rows (W D) (W D)) a b.
Proof. exact (twoway_fit_exists ueq teq rows u t m Hbal y D). Qed.
End Two.

(* C12 refuted on unbalanced panels: a pure unit effect survives on the rows (A,0) (A,1) (B,0) *)
Theorem C12_unbalanced_refuted :
  exists (a : nat -> R) (i : nat * nat), In i ub_rows /\
    within Nat.eq_dec Nat.eq_dec ub_rows fst snd (fun j => a (fst j)) i <> 0.
Proof. exact within_unbalanced_refuted. Qed.
Example C12_balanced_panels {U T} (ueq : forall x y : U, {x = y} + {x <> y}) (teq : forall x y : T, {x = y} + {x <> y}) us ts :
  NoDup us -> NoDup ts -> us <> [] -> ts <> [] -> balanced ueq teq (list_prod us ts) fst snd 1.
Proof. exact (product_balanced ueq teq us ts). Qed.

(* C14 *)
Section P.
Context {I U : Type} (ueq : forall x y : U, {x = y} + {x <> y}).
Variable qr : list I -> list (I -> R) -> list nat.
Variable lstsq : list I -> list (I -> R) -> (I -> R) -> list R.
Variable inv : list I -> list (I -> R) -> option (nat -> nat -> R).
Variable pinv : list I -> list (I -> R) -> nat -> nat -> R.
Variable sf : option Z -> fl -> fl.
Variable ppf : option Z -> R -> R.
Hypothesis Hqr : qr_ok qr.
Hypothesis Hls : lstsq_ok lstsq.
Hypothesis Hinv : inv_ok inv.
Notation fit := (twfe_fit ueq qr lstsq inv pinv sf ppf).
Notation W rows u tm := (within ueq Req_EM_T rows u tm).

Theorem C14_att_is_slope_on_raw_interaction cluster alpha action rows y d tm u r :
  fit cluster alpha action rows y d tm u [] = Ok r ->
  ss rows (fun i => d i * tm i) <> 0 ->
  tw_att r = Fin (sumf (fun i => (d i * tm i - meanf (fun i => d i * tm i) rows) * W rows u tm y i) rows
                  / ss rows (fun i => d i * tm i)).
Proof. exact (twfe_att_formula ueq qr lstsq inv pinv sf ppf Hqr Hls cluster alpha action rows y d tm u r). Qed.

Theorem C14_unit_and_period_effects_irrelevant cluster alpha action rows y d tm u m (a : U -> R) (b : R -> R) r r' :
  balanced ueq Req_EM_T rows u tm m -> ss rows (fun i => d i * tm i) <> 0 ->
  fit cluster alpha action rows y d tm u [] = Ok r ->
  fit cluster alpha action rows (fun i => y i + (a (u i) + b (tm i))) d tm u [] = Ok r' ->
  tw_att r' = tw_att r.
Proof. exact (twfe_additive_invariant ueq qr lstsq inv pinv sf ppf Hqr Hls cluster alpha action rows y d tm u m a b r r'). Qed.

(* any period labels: p = share of treated units, q and v = mean and variance of the labels *)
Theorem C14_attenuation cluster alpha action (rows : list I) (y : I -> R) (dU : U -> R) (tm : I -> R) (u : I -> U) m (a : U -> R) (b : R -> R) tau r :
  let p := meanf dU (nodup ueq (map u rows)) in
  let q := meanf idR (nodup Req_EM_T (map tm rows)) in
  let v := meanf (fun x => (x - q) * (x - q)) (nodup Req_EM_T (map tm rows)) in
  balanced ueq Req_EM_T rows u tm m ->
  (forall i, In i rows -> dU (u i) = 0 \/ dU (u i) = 1) -> 0 < p -> p < 1 -> 0 < v ->
  (forall i, In i rows -> y i = a (u i) + b (tm i) + tau * (dU (u i) * tm i)) ->
  fit cluster alpha action rows y (fun i => dU (u i)) tm u [] = Ok r ->
  tw_att r = Fin (tau * ((1 - p) * v / ((1 - p) * (q * q) + v))).
Proof. exact (twfe_attenuation ueq qr lstsq inv pinv sf ppf Hqr Hls cluster alpha action rows y dU tm u m a b tau r). Qed.

(* refuted on every balanced panel with a 0/1 post indicator *)
Theorem C14_recovers_tau_refuted cluster alpha action (rows : list I) (y : I -> R) (dU : U -> R) (tm : I -> R) (u : I -> U) m (a : U -> R) (b : R -> R) tau r :
  let p := meanf dU (nodup ueq (map u rows)) in
  balanced ueq Req_EM_T rows u tm m ->
  (forall i, In i rows -> dU (u i) = 0 \/ dU (u i) = 1) -> 0 < p -> p < 1 ->
  (forall i, In i rows -> tm i = 0 \/ tm i = 1) -> (exists i, In i rows /\ tm i = 0) -> (exists i, In i rows /\ tm i = 1) ->
  (forall i, In i rows -> y i = a (u i) + b (tm i) + tau * (dU (u i) * tm i)) ->
  fit cluster alpha action rows y (fun i => dU (u i)) tm u [] = Ok r ->
  tw_att r = Fin (tau * ((1 - p) / (2 - p))) /\ (tau <> 0 -> tw_att r <> Fin tau).
Proof. exact (twfe_never_recovers ueq qr lstsq inv pinv sf ppf Hqr Hls cluster alpha action rows y dU tm u m a b tau r). Qed.

Theorem C14_defined cluster alpha action rows y d tm u :
  ss rows (fun i => d i * tm i) <> 0 -> (2 < length rows)%nat ->
  (2 <= length (cl_keys ueq rows (match cluster with Some c => c | None => u end)))%nat ->
  exists r, fit cluster alpha action rows y d tm u [] = Ok r.
Proof. exact (twfe_defined ueq qr lstsq inv pinv sf ppf Hqr Hls Hinv cluster alpha action rows y d tm u). Qed.
End P.

(* 4 units, 2 periods, two treated, effect 3: the reported ATT is 1 *)
Theorem C14_concrete_refuted : exists r, tw_run = Ok r /\ tw_att r = Fin 1.
Proof. exact twfe_constant_effect_refuted. Qed.

(* C53 *)
Theorem C53_warns_exactly_when_staggered {I U} (ueq : forall x y : U, {x = y} + {x <> y}) rows d t (u : I -> U) :
  staggered_warns ueq rows d t u = true <->
  exists a b ia ib,
    In ia rows /\ d ia = true /\ u ia = a /\ (forall i, In i rows -> d i = true -> u i = a -> (t ia <= t i)%Z) /\
    In ib rows /\ d ib = true /\ u ib = b /\ (forall i, In i rows -> d i = true -> u i = b -> (t ib <= t i)%Z) /\
    t ia <> t ib.
Proof.
  rewrite staggered_warns_iff. split.
  - intros (a & b & za & zb & Ha & Hb & Hne). apply first_treated_spec in Ha as [(ia & A1 & A2 & A3 & A4) A5].
    apply first_treated_spec in Hb as [(ib & B1 & B2 & B3 & B4) B5]. subst za zb. exists a, b, ia, ib. repeat (split; auto).
  - intros (a & b & ia & ib & A1 & A2 & A3 & A5 & B1 & B2 & B3 & B5 & Hne). exists a, b, (t ia), (t ib).
    split; [|split; auto]; apply first_treated_spec; (split; [eexists; eauto|auto]).
Qed.
Example C53_case : staggered_warns Nat.eq_dec (list_prod (seq 0 3) (seq 0 4))
    (fun i => Nat.leb (fst i + 1) (snd i)) (fun i => Z.of_nat (snd i)) fst = true.
Proof. vm_compute. reflexivity. Qed.

Print Assumptions C12_oneway.
Print Assumptions C12_additive_effects_vanish.
Print Assumptions C12_unit_means_zero.
Print Assumptions C12_period_means_zero.
Print Assumptions C12_idempotent.
Print Assumptions C12_frisch_waugh.
Print Assumptions C12_frisch_waugh_exists.
Print Assumptions C12_unbalanced_refuted.
Print Assumptions C14_att_is_slope_on_raw_interaction.
Print Assumptions C14_unit_and_period_effects_irrelevant.
Print Assumptions C14_attenuation.
Print Assumptions C14_recovers_tau_refuted.
Print Assumptions C14_defined.
Print Assumptions C14_concrete_refuted.
Print Assumptions C53_warns_exactly_when_staggered.

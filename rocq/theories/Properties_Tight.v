(* Exact descriptions of helper functions (C18, C40, C46, C53, C117). *)
From Coq Require Import Reals.
From Verif Require Import Prelude Flt Linalg_model Did_model Multi_model Multi_proofs Bacon_model Staggered_model Pretrends_model Prep_model Diag_model Twfe_model Synth_model Sdid_model Tight_thms.
From Coq Require Import Arith ZArith String List.
Import ListNotations.
Open Scope R_scope.

Theorem C18_valid_periods {I} (rows : list I) (t : I -> Z) cfg gr s :
  In s (valid_periods rows t cfg gr) <->
  In s (map t rows) /\
  (if cs_universal cfg then forall k, gr = CFin k -> s <> (k - 1 - cs_anticipation cfg)%Z
   else gr = CNaN \/ (exists k, gr = CFin k /\ (k - cs_anticipation cfg <= s)%Z) \/ exists p, In p (map t rows) /\ (p < s)%Z).
Proof. apply valid_periods_spec. Qed.
Theorem C40_power_adequate r : res_adequate r = true <-> pr_target r <= pr_power r.
Proof. apply res_adequate_spec. Qed.
Theorem C46_unit_first {I U} (ueq : forall x y : U, {x = y} + {x <> y}) l1 i l2 (u : I -> U) (d : I -> fl) :
  (forall j, In j l1 -> u j = u i -> d j = NaN) -> d i <> NaN -> unit_first ueq (l1 ++ i :: l2) u d (u i) = d i.
Proof. apply unit_first_spec. Qed.
Theorem C46_n_treated {I U} (ueq : forall x y : U, {x = y} + {x <> y}) rows (u : I -> U) (d : I -> fl) :
  (forall i j, In i rows -> In j rows -> u i = u j -> d i = d j) -> (forall i, In i rows -> d i = Fin 0 \/ d i = Fin 1) ->
  n_treated_units ueq rows u d = length (nodup ueq (map u (filter (fun i => feqb (d i) (Fin 1)) rows))).
Proof. apply n_treated_spec. Qed.
Theorem C53_group_indicator {I U} (ueq : forall x y : U, {x = y} + {x <> y}) rows d t (u : I -> U) :
  (forall i j, In i rows -> In j rows -> u i = u j -> d i = d j) ->
  (forall i j, In i rows -> In j rows -> exists k, In k rows /\ u k = u i /\ t k = t j) ->
  staggered_warns ueq rows d t u = false.
Proof. apply staggered_group_indicator. Qed.
Theorem C117_init_methods cfg : sd_init_ok cfg = true <-> sd_method cfg = "bootstrap"%string \/ sd_method cfg = "placebo"%string.
Proof. apply sd_init_spec. Qed.
Theorem C53_coding_case : let rows := list_prod (seq 0 4) (seq 1 4) in let u (i : nat * nat) := fst i in let t (i : nat * nat) := Z.of_nat (snd i) in
  staggered_warns Nat.eq_dec rows (fun i => (fst i <? 2)%nat && (fst i + 2 <=? snd i)%nat) t u = true /\
  staggered_warns Nat.eq_dec rows (fun i => (fst i <? 2)%nat) t u = false.
Proof. exact staggered_coding_case. Qed.
Print Assumptions C18_valid_periods.
Print Assumptions C40_power_adequate.
Print Assumptions C46_unit_first.
Print Assumptions C46_n_treated.
Print Assumptions C53_group_indicator.
Print Assumptions C53_coding_case.
Print Assumptions C117_init_methods.

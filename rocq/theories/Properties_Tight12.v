(* When rank_control_units ranks, and which exception it raises otherwise (C45). *)
From Verif Require Import Prelude Flt Prep_model Prep_proofs Prep_rank Prep_ex Tight12_thms.
From Coq Require Import Arith ZArith String List.
Import ListNotations.
Open Scope R_scope.

Section RankDefined.
Context {I U : Type} (ueq : forall x y : U, {x = y} + {x <> y}).
Variable dsort : list (rank_row U) -> list (rank_row U).
Variable rows : list I.
Variable u : I -> U.
Variable t : I -> Z.
Variable y : I -> fl.
Notation rank := (rank_control_units ueq dsort rows u t y).
Notation treatedS := (treated_set ueq rows u).
Notation rankable := (rankable rows u t).
Notation counts_treated := (counts_treated rows u).
Theorem C45_treated_units tu d suggest l : treatedS tu d suggest = Ok l -> forall x, In x l <-> counts_treated tu d x.
Proof. exact (treated_set_spec ueq rows u tu d suggest l). Qed.
Theorem C45_defined d tu pre covs ow cw exclude require n_top suggest :
  (exists out, rank d tu pre covs ow cw exclude require n_top suggest = Ok (Some out)) <->
  rankable d tu pre ow cw exclude require /\
  (covs <> [] -> forall x, counts_treated tu d x -> exists i, In i rows /\ u i = x /\ In (t i) (rank_periods rows t pre)).
Proof. exact (rank_defined ueq dsort rows u t y d tu pre covs ow cw exclude require n_top suggest). Qed.
Theorem C45_exception d tu pre covs ow cw exclude require n_top suggest e :
  rank d tu pre covs ow cw exclude require n_top suggest = Err e ->
  e = ValueError \/
  (e = KeyError /\ rankable d tu pre ow cw exclude require /\ covs <> [] /\
   exists x, counts_treated tu d x /\ forall i, In i rows -> u i = x -> ~ In (t i) (rank_periods rows t pre)).
Proof. exact (rank_error ueq dsort rows u t y d tu pre covs ow cw exclude require n_top suggest e). Qed.
End RankDefined.
Theorem C45_default_pre_periods {I} (rows : list I) (t : I -> Z) p :
  In p (rank_periods rows t None) <->
  In p (map t rows) /\ (2 * length (filter (fun q => Z.leb q p) (nodup Z.eq_dec (map t rows))) <= length (nodup Z.eq_dec (map t rows)))%nat.
Proof. exact (default_pre_periods rows t p). Qed.
(* the panel of C45_case, unit 1 treated, unit 3 required *)
Theorem C45_defined_case : rankable rk_rows (fun i => fst (fst i)) (fun i => snd (fst i)) None (Some [1%nat]) None (7/10) (3/10) None (Some [1%nat; 3%nat]).
Proof. refine (proj1 (proj1 (rank_defined Nat.eq_dec dsort_ex rk_rows _ _ (fun i => Fin (snd i)) None (Some [1%nat]) None [] (7/10) (3/10) None (Some [1%nat; 3%nat]) None false) _)). exact (rk_ok None). Qed.
Print Assumptions C45_treated_units.
Print Assumptions C45_defined.
Print Assumptions C45_exception.
Print Assumptions C45_default_pre_periods.
Print Assumptions C45_defined_case.

(* Exchanging and complementing indicators: concrete data. *)
From Coq Require Import Reals Lra Lia.
From Verif Require Import Prelude Flt Stats_model Stats_proofs Linalg_model Linalg_proofs Linalg_vcov Linalg_thms Linalg_dual
  Did_model Did_spec Did_proofs Did_equiv Multi_model Reg_effects Triple_model Triple_proofs Triple_thms Triple_fit Triple_more Triple_ex Triple_equiv Swap_proofs Swap_triple.
From Coq Require Import Arith ZArith String List.
Import ListNotations.
Open Scope R_scope.

(* no covariates: the interaction is identified as soon as the four cells are filled *)
Lemma four_identified {I G} (geq : forall x y : G, {x = y} + {x <> y}) rows (y d t : I -> fl) :
  four_cells rows (fun i => toR (d i)) (fun i => toR (t i)) -> did_identified geq rows y d t [] [] [].
Proof. intros H. unfold did_identified. cbn [absorb_loop map app fst snd]. apply indep_identified; [apply sat_indep; exact H|cbn; lia]. Qed.

(* nine rows, each of the four cells filled *)
Definition dB (i : b3) : fl := Fin (ind (fst (fst i))).
Definition sB (i : b3) : fl := Fin (ind (snd i)).
Lemma dB_cells : four_cells rows9 (fun i => toR (dB i)) (fun i => toR (sB i)).
Proof.
  assert (E : forall a b, cell rows9 (fun i => toR (dB i)) (fun i => toR (sB i)) (ind a) (ind b) = filter (fun i => Bool.eqb (fst (fst i)) a && Bool.eqb (snd i) b) rows9).
  { intros a b. apply filter_ext. intros [[x z] w]. cbn. now rewrite !Reqb_ind. }
  change 1 with (ind true). change 0 with (ind false). unfold four_cells.
  assert (N : forall a b, cell rows9 (fun i => toR (dB i)) (fun i => toR (sB i)) (ind a) (ind b) <> []) by (intros a b; rewrite E; destruct a, b; discriminate).
  change 1 with (ind true). change 0 with (ind false). repeat split; apply N.
Qed.
Lemma dB_fits {K G} (keq : forall x y : K, {x = y} + {x <> y}) (geq : forall x y : G, {x = y} + {x <> y}) qr lstsq inv pinv sf ppf cfg (y : b3 -> R) :
  qr_ok qr -> lstsq_ok lstsq -> inv_ok inv -> parse_action (c_action cfg) <> None -> c_cluster cfg = None ->
  did_identified geq rows9 (fun i => Fin (y i)) dB sB [] [] [] /\ exists r, did_fit keq geq qr lstsq inv pinv sf ppf cfg rows9 (fun i => Fin (y i)) dB sB [] [] [] = Ok r.
Proof.
  intros Hqr Hls Hinv Ha Hc. split; [apply four_identified, dB_cells|].
  destruct (did_fit_defined keq geq qr lstsq inv pinv sf ppf Hqr Hls Hinv cfg rows9 (fun i => Fin (y i)) dB sB) as (r & _ & H & _); eauto.
  - intros i _. eexists; reflexivity.
  - intros i _. eexists; reflexivity.
  - intros i _. eexists; reflexivity.
  - intros [[x z] w] _. cbn. destruct x; auto.
  - intros [[x z] w] _. cbn. destruct w; auto.
  - apply dB_cells.
  - cbn. lia.
  - intros cl E. congruence.
Qed.

(* ipw on one observation per cell, the outcome c in the treated, eligible, post cell and 0 elsewhere *)
Section Ipw.
Variable qr : list b3 -> list (b3 -> R) -> list nat.
Variable lstsq : list b3 -> list (b3 -> R) -> (b3 -> R) -> list R.
Variable inv : list b3 -> list (b3 -> R) -> option (nat -> nat -> R).
Variable pinv : list b3 -> list (b3 -> R) -> nat -> nat -> R.
Variable sf : option Z -> fl -> fl.
Variable ppf : option Z -> R -> R.
Variable logit : list b3 -> list (b3 -> R) -> (b3 -> R) -> option (b3 -> R).
Notation fit := (ddd_fit Z.eq_dec qr lstsq inv pinv sf ppf logit).
Notation f x := (fun i => oR (x i)).

Lemma cell4_8 a b : len (cell4 rows8 (f gB) (f pB) (ind a) (ind b)) = 2.
Proof. rewrite cell4_b. destruct a, b; unfold len; cbn; lra. Qed.
Lemma cell4_8G a b : len (cell4 rows8 (f (ocomp gB)) (f pB) (ind a) (ind b)) = 2.
Proof.
  rewrite (cell4_comp_g rows8 (f gB) (f pB)) by reflexivity. replace (1 - ind a) with (ind (negb a)) by (destruct a; cbn; ring). apply cell4_8.
Qed.
Lemma comp_ind (x : bool) : 1 - ind x = ind (negb x).
Proof. destruct x; cbn; ring. Qed.
Theorem ipw_reversed_se cl : exists a b c, fit (cfgm "ipw") cl rows8 (yspike 1) gB pB tB [] = Ok a /\ fit (cfgm "ipw") cl rows8 (yspike 1) gB pB (ocomp tB) [] = Ok b /\
  fit (cfgm "ipw") cl rows8 (yspike 1) (ocomp gB) pB tB [] = Ok c /\
  tr_att a = Fin 1 /\ tr_att b = Fin (-1) /\ tr_att c = Fin (-1) /\ tr_se a = Fin (sqrt (14 / 56)) /\ tr_se b = Fin (sqrt (78 / 56)) /\ tr_se c = Fin (sqrt (46 / 56)).
Proof.
  assert (HV : ddd_validate rows8 (yspike 1) gB pB tB [] = Ok tt) by (apply valid8; [intros i; discriminate|constructor]).
  destruct (valid_fits Z.eq_dec qr lstsq inv pinv sf ppf logit (cfgm "ipw") cl rows8 (yspike 1) gB pB tB [] HV) as [a Ha]; [discriminate|].
  destruct (valid_fits Z.eq_dec qr lstsq inv pinv sf ppf logit (cfgm "ipw") cl rows8 (yspike 1) gB pB (ocomp tB) [] (validate_comp_t _ _ _ _ _ _ HV)) as [b Hb]; [discriminate|].
  destruct (valid_fits Z.eq_dec qr lstsq inv pinv sf ppf logit (cfgm "ipw") cl rows8 (yspike 1) (ocomp gB) pB tB [] (validate_comp_g _ _ _ _ _ _ HV)) as [c Hc]; [discriminate|].
  exists a, b, c. split; [exact Ha|]. split; [exact Hb|]. split; [exact Hc|].
  assert (L : dd_trim (cfgm "ipw") < 1) by (cbn; lra).
  assert (UG : unclipped rows8 (f (ocomp gB)) (f pB) (cfgm "ipw")).
  { intros g p Hg Hp. rewrite (cell4_comp_g rows8 (f gB) (f pB)) by reflexivity. apply (unclipped8 "ipw"); auto using flip_01. }
  destruct (ipw_se_closed Z.eq_dec qr lstsq inv pinv sf ppf logit (cfgm "ipw") _ _ _ _ _ _ _ eq_refl L (unclipped8 "ipw") Ha) as [A1 A2].
  destruct (ipw_se_closed Z.eq_dec qr lstsq inv pinv sf ppf logit (cfgm "ipw") _ _ _ _ _ _ _ eq_refl L (unclipped8 "ipw") Hb) as [B1 B2].
  destruct (ipw_se_closed Z.eq_dec qr lstsq inv pinv sf ppf logit (cfgm "ipw") _ _ _ _ _ _ _ eq_refl L UG Hc) as [C1 C2].
  assert (EA : ddd_of_dids rows8 (f gB) (f pB) (f tB) (f (yspike 1)) = 1).
  { rewrite <- ddd_comb_dids, comb_b, !cell8_b. unfold meanf, len. cbn. field. }
  assert (EB : ddd_of_dids rows8 (f gB) (f pB) (f (ocomp tB)) (f (yspike 1)) = -1).
  { transitivity (- ddd_of_dids rows8 (f gB) (f pB) (f tB) (f (yspike 1))); [|lra]. rewrite <- !ddd_comb_dids. apply comb_rev. intros g p _ _.
    rewrite !(cell8_comp_t rows8 (f gB) (f pB) (f tB) (f (ocomp tB))) by reflexivity. destruct one_minus as [-> ->]. split; reflexivity. }
  assert (EC : ddd_of_dids rows8 (f (ocomp gB)) (f pB) (f tB) (f (yspike 1)) = -1).
  { rewrite (of_dids_comp_g rows8 (f (yspike 1)) (f gB) (f pB) (f tB)) by reflexivity. lra. }
  rewrite EA in A1, A2. rewrite EB in B1, B2. rewrite EC in C1, C2. split; [exact A1|]. split; [exact B1|]. split; [exact C1|].
  assert (L8 : len rows8 = 8) by (unfold len; cbn; lra).
  rewrite A2, B2, C2, L8.
  assert (PA : forall i, ipw_psi rows8 (f (yspike 1)) (f gB) (f pB) (f tB) 1 i =
     (if snd i then 1 else -1) * (if Bool.eqb (fst (fst i)) (snd (fst i)) then 1 else -1) * (oR (yspike 1 i) - (if fst (fst i) && snd (fst i) then 1 else 0)) * 4).
  { intros [[x z] w]. unfold ipw_psi. rewrite L8. cbn [gB pB tB oR fst snd]. rewrite cell4_8. change (Reqb (ind w) 1) with (Reqb (ind w) (ind true)). change (Reqb (ind x) 1) with (Reqb (ind x) (ind true)). change (Reqb (ind z) 1) with (Reqb (ind z) (ind true)). rewrite !Reqb_ind. destruct x, z, w; cbn; field. }
  assert (PB : forall i, ipw_psi rows8 (f (yspike 1)) (f gB) (f pB) (f (ocomp tB)) (-1) i =
     (if snd i then -1 else 1) * (if Bool.eqb (fst (fst i)) (snd (fst i)) then 1 else -1) * (oR (yspike 1 i) - (if fst (fst i) && snd (fst i) then -1 else 0)) * 4).
  { intros [[x z] w]. unfold ipw_psi. rewrite L8. cbn [gB pB tB ocomp option_map oR fst snd]. rewrite comp_ind, cell4_8. change (Reqb (ind (negb w)) 1) with (Reqb (ind (negb w)) (ind true)). change (Reqb (ind x) 1) with (Reqb (ind x) (ind true)). change (Reqb (ind z) 1) with (Reqb (ind z) (ind true)). rewrite !Reqb_ind. destruct x, z, w; cbn; field. }
  assert (PC : forall i, ipw_psi rows8 (f (yspike 1)) (f (ocomp gB)) (f pB) (f tB) (-1) i =
     (if snd i then 1 else -1) * (if Bool.eqb (negb (fst (fst i))) (snd (fst i)) then 1 else -1) * (oR (yspike 1 i) - (if negb (fst (fst i)) && snd (fst i) then -1 else 0)) * 4).
  { intros [[x z] w]. unfold ipw_psi. rewrite L8. change (oR (ocomp gB (x, z, w))) with (1 - ind x). rewrite comp_ind. cbn [gB pB tB oR fst snd]. rewrite cell4_8G. change (Reqb (ind w) 1) with (Reqb (ind w) (ind true)). change (Reqb (ind (negb x)) 1) with (Reqb (ind (negb x)) (ind true)). change (Reqb (ind z) 1) with (Reqb (ind z) (ind true)). rewrite !Reqb_ind. destruct x, z, w; cbn; field. }
  rewrite (map_ext _ _ PA), (map_ext _ _ PB), (map_ext _ _ PC). unfold variance, sumsq_dev, meanf, len, idR. cbn.
  repeat split; f_equal; f_equal; field.
Qed.
End Ipw.

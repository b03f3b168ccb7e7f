(* One treatment date on a balanced panel (C132). *)
From Coq Require Import Reals.
From Verif Require Import Prelude Flt Linalg_model Linalg_proofs Linalg_vcov Linalg_thms Did_model Did_spec Did_proofs Within_proofs Multi_model Multi_proofs
  Bacon_model Twfe_model Twfe_proofs Staggered_model Staggered_fit Sun_model Sun_proofs Sun_ex One_thms One_cs One_twfe One_ex.
From Coq Require Import Arith ZArith String List.
Import ListNotations.
Open Scope R_scope.

Section Mp.
Context {I K G : Type} (keq : forall x y : K, {x = y} + {x <> y}) (geq : forall x y : G, {x = y} + {x <> y}).
Variable qr : list I -> list (I -> R) -> list nat.
Variable lstsq : list I -> list (I -> R) -> (I -> R) -> list R.
Variable inv : list I -> list (I -> R) -> option (nat -> nat -> R).
Variable pinv : list I -> list (I -> R) -> nat -> nat -> R.
Variable sf : option Z -> fl -> fl.
Variable ppf : option Z -> R -> R.
Hypothesis Hqr : qr_ok qr.
Hypothesis Hls : lstsq_ok lstsq.
Theorem C132_average_of_periods cfg rows y (u t : I -> Z) (dU : Z -> R) m post ref r i0 i1 :
  let d := fun i => dU (u i) in
  let after := fun i => ind (zmem (t i) (mp_post r)) in
  Within_proofs.balanced Z.eq_dec Z.eq_dec rows u t m ->
  In i0 rows -> d i0 = 0 -> In i1 rows -> d i1 = 1 ->
  mp_fit keq geq qr lstsq inv sf ppf cfg rows y d t post ref [] [] [] = Ok r -> NoDup (mp_post r) ->
  mp_avg r = Fin (did_of_means rows d after y) /\
  map pe_effect (mp_effects r) = map (fun p => Fin ((mmean rows d t y 1 p - mmean rows d t y 0 p)
     - (cell_mean rows d after y 1 0 - cell_mean rows d after y 0 0))) (mp_post r).
Proof. exact (mp_one_date keq geq qr lstsq inv sf ppf Hqr Hls cfg rows y u t dU m post ref r i0 i1). Qed.
Theorem C132_did cfg cfg' rows y (u t : I -> Z) (dU : Z -> R) m post ref r r' i0 i1 :
  let d := fun i => dU (u i) in
  let after := fun i => ind (zmem (t i) post) in
  Within_proofs.balanced Z.eq_dec Z.eq_dec rows u t m ->
  In i0 rows -> d i0 = 0 -> In i1 rows -> d i1 = 1 -> NoDup post ->
  did_fit keq geq qr lstsq inv pinv sf ppf cfg rows (fun i => Fin (y i)) (fun i => Fin (d i)) (fun i => Fin (after i)) [] [] [] = Ok r ->
  mp_fit keq geq qr lstsq inv sf ppf cfg' rows y d t (Some post) ref [] [] [] = Ok r' ->
  r_att r = Fin (did_of_means rows d after y) /\ mp_avg r' = r_att r.
Proof. exact (did_one_date keq geq qr lstsq inv pinv sf ppf Hqr Hls cfg cfg' rows y u t dU m post ref r r' i0 i1). Qed.
End Mp.
Section Bacon.
Context {I : Type}.
Variables (rows : list I) (u t : I -> Z) (g : I -> coh) (m : nat) (C : Z -> coh) (k : Z).
Hypothesis Hbal : Within_proofs.balanced Z.eq_dec Z.eq_dec rows u t m.
Hypothesis HC : forall i, In i rows -> g i = C (u i).
Hypothesis Hk : (0 < k)%Z.
Hypothesis Hone : forall i, In i rows -> c_never (g i) = true \/ g i = CFin k.
Notation d := (fun i => ind (c_is (g i) k)).
Notation after := (fun i => ind (Z.leb k (t i))).
Hypothesis H4 : four_cells rows d after.
Theorem C132_bacon y exact :
  bo_twfe (bacon_fit rows u t g y exact) = did_of_means rows d after y /\ bo_error (bacon_fit rows u t g y exact) = Fin 0 /\
  exists c, bo_comparisons (bacon_fit rows u t g y exact) = [c] /\ cmp_weight c = 1 /\ cmp_est c = Fin (did_of_means rows d after y).
Proof. exact (bacon_one_date rows u t g m C k Hbal HC Hk Hone H4 y exact). Qed.
End Bacon.
Section CS.
Context {I : Type}.
Variable qr : list Z -> list (Z -> R) -> list nat.
Variable lstsq : list Z -> list (Z -> R) -> (Z -> R) -> list R.
Variable inv : list Z -> list (Z -> R) -> option (nat -> nat -> R).
Variable logit : list Z -> list Z -> list (Z -> R) -> option (Z -> R).
Variable sf : option Z -> fl -> fl.
Variable ppf : option Z -> R -> R.
Variables (u t : I -> Z) (g : I -> coh) (y : I -> R).
Variables (rows : list I) (C : Z -> coh) (k : Z).
Hypothesis Hbal : Within_proofs.balanced Z.eq_dec Z.eq_dec rows u t 1.
Hypothesis HC : forall i, In i rows -> g i = C (u i).
Hypothesis Hk : (0 < k)%Z.
Hypothesis Hone : forall i, In i rows -> c_never (g i) = true \/ g i = CFin k.
Notation d := (fun i => ind (c_is (g i) k)).
Notation after := (fun i => ind (Z.leb k (t i))).
Notation late := (filter (fun i => Z.leb (k - 1) (t i)) rows).
Variables (cfg : cs_config) (agg : option string) (bal : option Z) (ws : list (Z -> R)) (r : cs_result).
Hypothesis Hctl : cs_control cfg = "never_treated"%string.
Hypothesis Hant : cs_anticipation cfg = 0%Z.
Hypothesis Hr : cs_fit qr lstsq inv logit sf ppf rows u t g (fun i => Some (y i)) [] cfg agg bal ws = Ok r.
Theorem C132_callaway i : In i rows -> g i = CFin k -> In (k - 1)%Z (map t rows) -> (exists s, In s (map t rows) /\ (k <= s)%Z) ->
  cr_att r = Fin (did_of_means late d after y).
Proof. exact (cs_one_date qr lstsq inv logit sf ppf u t g y rows C k Hbal HC Hk Hone cfg agg bal ws r Hctl Hant Hr i). Qed.
Theorem C132_callaway_no_baseline : ~ In (k - 1)%Z (map t rows) -> cr_att r = NaN.
Proof. exact (cs_no_baseline qr lstsq inv logit sf ppf u t g y rows C k Hbal HC Hone cfg agg bal ws r Hctl Hant Hr). Qed.
End CS.
Section Sun.
Context {I : Type}.
Variable qr : list I -> list (I -> R) -> list nat.
Variable lstsq : list I -> list (I -> R) -> (I -> R) -> list R.
Variable inv : list I -> list (I -> R) -> option (nat -> nat -> R).
Variable pinv : list I -> list (I -> R) -> nat -> nat -> R.
Variable sf : option Z -> fl -> fl.
Variable ppf : option Z -> R -> R.
Hypothesis Hqr : qr_ok qr.
Hypothesis Hls : lstsq_ok lstsq.
Variable qr2 : list Z -> list (Z -> R) -> list nat.
Variable lstsq2 : list Z -> list (Z -> R) -> (Z -> R) -> list R.
Variable inv2 : list Z -> list (Z -> R) -> option (nat -> nat -> R).
Variable logit : list Z -> list Z -> list (Z -> R) -> option (Z -> R).
Variables (u t : I -> Z) (g : I -> coh) (y : I -> R) (cluster : option (I -> Z)).
Variables (rows : list I) (C : Z -> coh) (k : Z).
Hypothesis Hbal : Within_proofs.balanced Z.eq_dec Z.eq_dec rows u t 1.
Hypothesis HC : forall i, In i rows -> g i = C (u i).
Hypothesis Hk : (0 < k)%Z.
Hypothesis Hone : forall i, In i rows -> c_never (g i) = true \/ g i = CFin k.
Notation d := (fun i => ind (c_is (g i) k)).
Notation after := (fun i => ind (Z.leb k (t i))).
Notation late := (filter (fun i => Z.leb (k - 1) (t i)) rows).
Theorem C132_sun_abraham cfg ccfg agg bal ws r c i : sa_anticipation cfg = 0%Z -> cs_anticipation ccfg = 0%Z -> cs_control ccfg = "never_treated"%string ->
  In i rows -> g i = CFin k -> In (k - 1)%Z (map t rows) -> (exists s, In s (map t rows) /\ (k <= s)%Z) ->
  (forall j, In j rows -> g j = CFin k -> (-20 <= t j - k <= 20)%Z) ->
  sa_fit qr lstsq inv pinv sf ppf u t g y [] cluster cfg rows = Ok r ->
  cs_fit qr2 lstsq2 inv2 logit sf ppf rows u t g (fun i => Some (y i)) [] ccfg agg bal ws = Ok c ->
  sa_att r = Fin (did_of_means late d after y) /\ cr_att c = Fin (did_of_means late d after y).
Proof. exact (sun_one_date qr lstsq inv pinv sf ppf Hqr Hls qr2 lstsq2 inv2 logit u t g y cluster rows C k Hbal HC Hk Hone cfg ccfg agg bal ws r c i). Qed.
End Sun.
Section Twfe.
Context {I : Type}.
Variable qr : list I -> list (I -> R) -> list nat.
Variable lstsq : list I -> list (I -> R) -> (I -> R) -> list R.
Variable inv : list I -> list (I -> R) -> option (nat -> nat -> R).
Variable pinv : list I -> list (I -> R) -> nat -> nat -> R.
Variable sf : option Z -> fl -> fl.
Variable ppf : option Z -> R -> R.
Hypothesis Hqr : qr_ok qr.
Hypothesis Hls : lstsq_ok lstsq.
Variables (rows : list I) (u t : I -> Z) (g : I -> coh) (m : nat) (C : Z -> coh).
Hypothesis Hbal : Within_proofs.balanced Z.eq_dec Z.eq_dec rows u t m.
Hypothesis HC : forall i, In i rows -> g i = C (u i).
Hypothesis Hone : forall i, In i rows -> c_never (g i) = true \/ g i = CFin 1.
Hypothesis Ht : forall i, In i rows -> t i = 0%Z \/ t i = 1%Z.
Notation d := (fun i => ind (c_is (g i) 1)).
Notation after := (fun i => ind (Z.leb 1 (t i))).
Hypothesis H4 : four_cells rows d after.
Theorem C132_twfe_attenuated cluster alpha action y r :
  let p := meanf (fun a => ind (c_is (C a) 1)) (units Z.eq_dec rows u) in
  twfe_fit Z.eq_dec qr lstsq inv pinv sf ppf cluster alpha action rows y d (fun i => IZR (t i)) u [] = Ok r ->
  0 < p < 1 /\ tw_att r = Fin (did_of_means rows d after y * ((1 - p) / (2 - p))).
Proof. exact (twfe_one_date qr lstsq inv pinv sf ppf Hqr Hls rows u t g m C Hbal HC Hone Ht H4 cluster alpha action y r). Qed.
End Twfe.
Section Ex.
Variable qr : list (Z * Z) -> list (Z * Z -> R) -> list nat.
Variable lstsq : list (Z * Z) -> list (Z * Z -> R) -> (Z * Z -> R) -> list R.
Variable inv : list (Z * Z) -> list (Z * Z -> R) -> option (nat -> nat -> R).
Variable pinv : list (Z * Z) -> list (Z * Z -> R) -> nat -> nat -> R.
Variable sf : option Z -> fl -> fl.
Variable ppf : option Z -> R -> R.
Hypothesis Hqr : qr_ok qr.
Hypothesis Hls : lstsq_ok lstsq.
Hypothesis Hinv : inv_ok inv.
Theorem C132_case qr2 lstsq2 inv2 logit : exists rd rm rs rc,
  did_fit Z.eq_dec Z.eq_dec qr lstsq inv pinv sf ppf o_cfg o_rows (fun i => Fin (o_y i)) (fun i => Fin (o_d i)) (fun i => Fin (o_post i)) [] [] [] = Ok rd /\
  mp_fit Z.eq_dec Z.eq_dec qr lstsq inv sf ppf o_cfg o_rows o_y o_d snd (Some [3; 4]%Z) None [] [] [] = Ok rm /\
  sa_fit qr lstsq inv pinv sf ppf fst snd (gco o_C) o_y [] None (sa_demo "never_treated" 0) o_rows = Ok rs /\
  cs_fit qr2 lstsq2 inv2 logit sf ppf o_rows fst snd (gco o_C) (fun i => Some (o_y i)) [] (demo_cfg "never_treated" 0 "reg" "varying") None None [] = Ok rc /\
  r_att rd = Fin 10 /\ mp_avg rm = Fin 10 /\ bo_twfe (bacon_fit o_rows fst snd (gco o_C) o_y true) = 10 /\
  sa_att rs = Fin (17 / 2) /\ cr_att rc = Fin (17 / 2).
Proof. exact (one_date_case qr lstsq inv pinv sf ppf Hqr Hls Hinv qr2 lstsq2 inv2 logit). Qed.
End Ex.
Print Assumptions C132_average_of_periods.
Print Assumptions C132_did.
Print Assumptions C132_bacon.
Print Assumptions C132_callaway.
Print Assumptions C132_callaway_no_baseline.
Print Assumptions C132_sun_abraham.
Print Assumptions C132_twfe_attenuated.
Print Assumptions C132_case.

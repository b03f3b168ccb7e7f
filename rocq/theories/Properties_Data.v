(* Properties of the data sets, datasets.py. *)
From Verif Require Import Prelude Flt Multi_model Data_model Data_proofs Data_thms.
From Coq Require Import Arith ZArith String List.
Import ListNotations.
Open Scope R_scope.

(* C95 *)
Section C95.
Context {C D : Type}.
Variable parse : C -> res D.
Variable fallback : string -> D.
Variable finish : string -> D -> res D.
Theorem C95_download_kept (w : cache C) name force c l n wr : In name dataset_names -> (w name = None \/ force = true) ->
  (forall o, In o l -> leaves name o) ->
  fst (load_dataset parse fallback finish w name force (NetOk c) WDone) = value_of parse finish name c /\
  load_dataset parse fallback finish (run parse fallback finish (snd (load_dataset parse fallback finish w name force (NetOk c) WDone)) l) name false n wr
  = (value_of parse finish name c, run parse fallback finish (snd (load_dataset parse fallback finish w name force (NetOk c) WDone)) l).
Proof. eapply download_kept; eauto. Qed.
Theorem C95_history l : forall (w : cache C) name c, w name = Some c -> (forall o, In o l -> leaves name o) -> run parse fallback finish w l name = Some c.
Proof. eapply cached_history; eauto. Qed.
Theorem C95_cached (w : cache C) name c n wr : In name dataset_names -> w name = Some c ->
  load_dataset parse fallback finish w name false n wr = (value_of parse finish name c, w).
Proof. eapply cached_load; eauto. Qed.
Theorem C95_origin l : forall (w : cache C) name c, run parse fallback finish w l name = Some c -> w name = Some c \/
  exists force n wr, In (OLoad name force n wr) l /\ ((n = NetOk c /\ wr = WDone) \/ exists c0, n = NetOk c0 /\ wr = WCrash c).
Proof. eapply cache_origin; eauto. Qed.
Theorem C95_other_names (w : cache C) name other force n wr : other <> name -> snd (load_dataset parse fallback finish w name force n wr) other = w other.
Proof. eapply other_names; eauto. Qed.
Theorem C95_clear l (w : cache C) name : run parse fallback finish w (l ++ [OClear]) name = None.
Proof. eapply clear_forgets; eauto. Qed.
Theorem C95_unknown_name (w : cache C) name force n wr : ~ In name dataset_names -> load_dataset parse fallback finish w name force n wr = (Raised ValueError, w).
Proof. eapply unknown_name; eauto. Qed.
End C95.
(* C96 *)
Section C96.
Context {C D : Type}.
Variable parse : C -> res D.
Variable fallback : string -> D.
Variable finish : string -> D -> res D.
Theorem C96_fallback (w : cache C) name force wr : In name dataset_names -> w name = None ->
  load_dataset parse fallback finish w name force NetUrlError wr = (match finish name (fallback name) with Ok d => Got d | Err e => Raised e end, w).
Proof. eapply fallback_not_cached; eauto. Qed.
Theorem C96_other_failure (w : cache C) name force wr : In name dataset_names -> (w name = None \/ force = true) ->
  load_dataset parse fallback finish w name force NetOther wr = (NetFailure, w).
Proof. eapply other_failure; eauto. Qed.
Theorem C96_forced_failure (w : cache C) name c wr : In name dataset_names -> w name = Some c ->
  load_dataset parse fallback finish w name true NetUrlError wr = (value_of parse finish name c, w).
Proof. eapply forced_failure; eauto. Qed.
Theorem C96_interrupted (w : cache C) name force c c' l n wr : In name dataset_names -> (w name = None \/ force = true) ->
  (forall o, In o l -> leaves name o) ->
  fst (load_dataset parse fallback finish w name force (NetOk c) (WCrash c')) = Killed /\
  fst (load_dataset parse fallback finish (run parse fallback finish (snd (load_dataset parse fallback finish w name force (NetOk c) (WCrash c'))) l) name false n wr) = value_of parse finish name c'.
Proof. eapply interrupted_write; eauto. Qed.
End C96.
Theorem C96_offline_refuted : exists (w : cache nat) name a b wr,
  fst (load_dataset (fun c => Ok c) (fun _ => 0%nat) (fun _ d => Ok d) w name false (NetOk 7%nat) wr) = Got a /\
  fst (load_dataset (fun c => Ok c) (fun _ => 0%nat) (fun _ d => Ok d) w name false NetUrlError wr) = Got b /\ a <> b.
Proof. eapply offline_refuted; eauto. Qed.
Theorem C96_forced_refuted : exists (w : cache nat) name wr,
  w name = Some 3%nat /\
  fst (load_dataset (fun c => Ok c) (fun _ => 0%nat) (fun _ d => Ok d) w name true NetUrlError wr) = Got 3%nat.
Proof. eapply forced_refuted; eauto. Qed.
Theorem C96_interrupted_refuted : exists name (c c' : nat), c <> c' /\
  forall n wr, fst (load_dataset (fun c => Ok c) (fun _ => 0%nat) (fun _ d => Ok d)
     (snd (load_dataset (fun c => Ok c) (fun _ => 0%nat) (fun _ d => Ok d) empty_cache name false (NetOk c) (WCrash c'))) name false n wr) = Got c'.
Proof. eapply interrupted_refuted; eauto. Qed.
(* C97 *)
Theorem C97_castle rnd base noise :
  panel_ok (map (fun x => (fst x, if Z_le_dec (snd x) 2010 then snd x else 0%Z)) castle_adoption) 2000 2010 (castle_rows rnd base noise).
Proof. eapply castle_panel; eauto. Qed.
Theorem C97_castle_size rnd base noise : length (castle_rows rnd base noise) = (49 * 11)%nat.
Proof. eapply castle_size; eauto. Qed.
Theorem C97_castle_cohorts rnd base noise r : In r (castle_rows rnd base noise) -> pr_first r = 0%Z \/ (2005 <= pr_first r <= 2010)%Z.
Proof. eapply castle_cohorts; eauto. Qed.
Theorem C97_castle_effect base r : (forall s, 1 <= base s) -> In r (castle_rows (fun x => x) base (fun _ _ => 0)) ->
  pr_outcome r - (base (pr_state r) + IZR (pr_year r - 2005) * (1/10)) = if Z.eqb (pr_treated r) 1 then base (pr_state r) * (8/100) else 0.
Proof. eapply castle_effect; eauto. Qed.
Theorem C97_divorce rnd base noise :
  panel_ok (filter (fun x => if Z.eq_dec (snd x) 0 then true else if Z_lt_dec (snd x) 1968 then false else true) divorce_adoption)
    1968 1988 (divorce_rows rnd base noise).
Proof. eapply divorce_panel; eauto. Qed.
Theorem C97_divorce_size rnd base noise : length (divorce_rows rnd base noise) = (41 * 21)%nat.
Proof. eapply divorce_size; eauto. Qed.
Theorem C97_divorce_always_refuted rnd base noise : exists s, (exists r, In r (divorce_rows rnd base noise) /\ pr_state r = s) /\
  forall r, In r (divorce_rows rnd base noise) -> pr_state r = s -> pr_treated r = 1%Z.
Proof. eapply divorce_always_refuted; eauto. Qed.
Theorem C97_mpdta rnd cohort base noise : let rows := mpdta_rows rnd cohort base noise in
  NoDup (map (fun r => (cr_county r, cr_year r)) rows) /\
  (forall c y, (exists r, In r rows /\ cr_county r = c /\ cr_year r = y) <-> (1 <= c <= 500)%Z /\ (2003 <= y <= 2007)%Z) /\
  (forall r, In r rows -> cr_first r = cohort (cr_county r) /\ (cr_treat r = 1%Z <-> (0 < cr_first r)%Z)).
Proof. eapply mpdta_panel; eauto. Qed.
Theorem C97_mpdta_effect cohort base c g y : (1 <= c <= 500)%Z -> cohort c = g -> (2003 <= y <= 2007)%Z -> (2003 < g)%Z ->
  forall r r0, In r (mpdta_rows (fun x => x) cohort base (fun _ _ => 0)) -> In r0 (mpdta_rows (fun x => x) cohort base (fun _ _ => 0)) ->
  cr_county r = c -> cr_county r0 = c -> cr_year r = y -> cr_year r0 = (g - 1)%Z ->
  cr_lemp r - cr_lemp r0 = IZR (y - (g - 1)) * (2/100)
    + (if Z_lt_dec y g then 0 else if Z.eq_dec g 2004 then -4/100 + IZR (y - g) * (1/100)
       else if Z.eq_dec g 2006 then -3/100 + IZR (y - g) * (1/100) else -25/1000).
Proof. eapply mpdta_did; eauto. Qed.
Theorem C97_card_krueger rnd d : let rows := ck_rows rnd d in
  map st_id rows = zrange 1 310 /\ length (filter st_nj rows) = 231%nat /\
  (forall r, In r rows -> st_change r = st_post r - st_pre r /\ (st_treated r = 1%Z <-> st_nj r = true)).
Proof. eapply ck_stores; eauto. Qed.
Theorem C97_card_krueger_did rnd d : let rows := ck_rows rnd d in let nj := filter st_nj rows in let pa := filter (fun r => negb (st_nj r)) rows in
  (meanf st_post nj - meanf st_pre nj) - (meanf st_post pa - meanf st_pre pa) = meanf st_change nj - meanf st_change pa.
Proof. eapply ck_did; eauto. Qed.
Theorem C97_card_krueger_published : let d := fun i : Z => if Z_le_dec i 231 then (2044/100, 59/100) else (2333/100, -216/100) in
  let rows := ck_rows (fun x => x) d in let nj := filter st_nj rows in let pa := filter (fun r => negb (st_nj r)) rows in
  (meanf st_post nj - meanf st_pre nj) - (meanf st_post pa - meanf st_pre pa) = 275/100.
Proof. eapply ck_published; eauto. Qed.
(* C98 *)
Theorem C98_first_treat rows r :
  (forall q, In q rows -> lr_unilateral q = 0 \/ lr_unilateral q = 1) ->
  (forall q q', In q rows -> In q' rows -> lr_state q = lr_state q' -> (lr_year q <= lr_year q')%Z -> lr_unilateral q = 1 -> lr_unilateral q' = 1) ->
  (forall q, In q rows -> (0 < lr_year q)%Z) -> In r rows ->
  (lr_unilateral r = 1 <-> (0 < divorce_first rows (lr_state r) <= lr_year r)%Z) /\
  (divorce_first rows (lr_state r) = 0%Z <-> forall q, In q rows -> lr_state q = lr_state r -> lr_unilateral q = 0).
Proof. eapply divorce_first_spec; eauto. Qed.
Theorem C98_repealed_refuted : exists r, In r repealed /\ lr_unilateral r = 0 /\ (0 < divorce_first repealed (lr_state r) <= lr_year r)%Z.
Proof. eapply repealed_refuted; eauto. Qed.
Theorem C98_case : divorce_first two_laws "A" = 1970%Z /\ divorce_first two_laws "B" = 0%Z.
Proof. eapply two_laws_case; eauto. Qed.
Print Assumptions C95_download_kept.
Print Assumptions C95_history.
Print Assumptions C95_cached.
Print Assumptions C95_origin.
Print Assumptions C95_other_names.
Print Assumptions C95_clear.
Print Assumptions C95_unknown_name.
Print Assumptions C96_fallback.
Print Assumptions C96_other_failure.
Print Assumptions C96_forced_failure.
Print Assumptions C96_interrupted.
Print Assumptions C96_offline_refuted.
Print Assumptions C96_forced_refuted.
Print Assumptions C96_interrupted_refuted.
Print Assumptions C97_castle.
Print Assumptions C97_castle_size.
Print Assumptions C97_castle_cohorts.
Print Assumptions C97_castle_effect.
Print Assumptions C97_divorce.
Print Assumptions C97_divorce_size.
Print Assumptions C97_divorce_always_refuted.
Print Assumptions C97_mpdta.
Print Assumptions C97_mpdta_effect.
Print Assumptions C97_card_krueger.
Print Assumptions C97_card_krueger_did.
Print Assumptions C97_card_krueger_published.
Print Assumptions C98_first_treat.
Print Assumptions C98_repealed_refuted.
Print Assumptions C98_case.

(* Exact descriptions of small functions whose wrong versions other theorems do not notice. *)
From Coq Require Import Reals Lra Lia.
From Verif Require Import Prelude Flt Linalg_model Did_model Multi_model Multi_proofs Bacon_model Staggered_model Pretrends_model Prep_model Diag_model Twfe_model Twfe_proofs Synth_model Sdid_model.
From Coq Require Import Arith ZArith String List.
Import ListNotations.
Open Scope R_scope.

(* periods for which a group's effect is attempted, staggered.py:676-686 *)
Theorem valid_periods_spec {I} (rows : list I) (t : I -> Z) cfg gr s :
  In s (valid_periods rows t cfg gr) <->
  In s (map t rows) /\
  (if cs_universal cfg then forall k, gr = CFin k -> s <> (k - 1 - cs_anticipation cfg)%Z
   else gr = CNaN \/ (exists k, gr = CFin k /\ (k - cs_anticipation cfg <= s)%Z) \/ exists p, In p (map t rows) /\ (p < s)%Z).
Proof.
  assert (Hin : forall x, In x (cs_periods rows t) <-> In x (map t rows)) by (intros x; unfold cs_periods; now rewrite zsort_In, nodup_In).
  unfold valid_periods. destruct (cs_universal cfg).
  - rewrite filter_In, Hin. apply and_iff_compat_l. destruct gr as [k| |]; try easy. rewrite Bool.negb_true_iff, Z.eqb_neq. split; [intros H k' E; congruence|intros H; now apply H].
  - rewrite filter_In, Hin. apply and_iff_compat_l. rewrite Bool.orb_true_iff, Bool.negb_true_iff.
    assert (F : (match cs_periods rows t with p0 :: _ => Z.ltb p0 s | [] => false end) = true <-> exists p, In p (map t rows) /\ (p < s)%Z).
    { assert (So := zsort_sorted (nodup Z.eq_dec (map t rows))). fold (cs_periods rows t) in So. destruct (cs_periods rows t) as [|p0 l] eqn:E.
      - split; [easy|]. intros (p & Hp & _). apply Hin in Hp. rewrite ?E in Hp. easy.
      - rewrite Z.ltb_lt. split; [intros H; exists p0; split; [apply Hin; rewrite ?E; now left|easy]|]. intros (p & Hp & Hlt). apply Hin in Hp. rewrite ?E in Hp.
        assert (p0 <= p)%Z; [|lia]. destruct Hp as [<-|Hp]; [lia|]. now apply (proj1 So). }
    rewrite F. destruct gr as [k| |]; cbn [before].
    + rewrite Z.ltb_ge. split; [intros [H|H]; [right; left; eauto|tauto]|]. intros [H|[(k' & E & H)|H]]; [easy|injection E as ->; now left|now right].
    + split; [intros [H|H]; [easy|tauto]|]. intros [H|[(k' & E & _)|H]]; [easy|easy|now right].
    + split; [intros _; now left|intros _; now left].
Qed.

(* the value of a unit is that of its first row with a value, diagnostics.py:597-604 *)
Theorem unit_first_spec {I U} (ueq : forall x y : U, {x = y} + {x <> y}) l1 i l2 (u : I -> U) (d : I -> fl) :
  (forall j, In j l1 -> u j = u i -> d j = NaN) -> d i <> NaN -> unit_first ueq (l1 ++ i :: l2) u d (u i) = d i.
Proof.
  intros H Hi. unfold unit_first. rewrite filter_app. cbn [filter]. rewrite keqb_refl, map_app, filter_app.
  assert (E : filter notna (map d (filter (fun j => keqb ueq (u j) (u i)) l1)) = []).
  { induction l1 as [|j l1 IH]; [easy|]. cbn [filter]. specialize (IH (fun k Hk => H k (or_intror Hk))). destruct (keqb ueq (u j) (u i)) eqn:E; [|easy]. apply keqb_true in E. cbn [map filter]. rewrite (H j (or_introl eq_refl) E). cbn. easy. }
  rewrite E. cbn [app map filter]. destruct (d i) as [x| | |]; cbn [notna fisnan negb]; try easy. 
Qed.
Theorem n_treated_spec {I U} (ueq : forall x y : U, {x = y} + {x <> y}) rows (u : I -> U) (d : I -> fl) :
  (forall i j, In i rows -> In j rows -> u i = u j -> d i = d j) -> (forall i, In i rows -> d i = Fin 0 \/ d i = Fin 1) ->
  n_treated_units ueq rows u d = length (nodup ueq (map u (filter (fun i => feqb (d i) (Fin 1)) rows))).
Proof.
  intros Hc H01.
  assert (V : forall i, In i rows -> unit_first ueq rows u d (u i) = d i).
  { intros i Hi. unfold unit_first. assert (Hf : In i (filter (fun j => keqb ueq (u j) (u i)) rows)) by (apply filter_In; split; [easy|apply keqb_refl]).
    destruct (filter (fun j => keqb ueq (u j) (u i)) rows) as [|j l] eqn:E; [easy|]. assert (Hj : In j (filter (fun j => keqb ueq (u j) (u i)) rows)) by (rewrite E; now left).
    apply filter_In in Hj. destruct Hj as [Hj Ej]. apply keqb_true in Ej. cbn [map filter]. rewrite (Hc j i Hj Hi Ej). destruct (H01 i Hi) as [-> | ->]; easy. }
  unfold n_treated_units, unit_list. apply Permutation.Permutation_length. apply Permutation.NoDup_Permutation; [apply NoDup_filter, NoDup_nodup|apply NoDup_nodup|].
  intros x. rewrite filter_In, !nodup_In, !in_map_iff. split.
  - intros [(i & <- & Hi) E]. rewrite V in E by easy. exists i. split; [easy|]. now apply filter_In.
  - intros (i & <- & Hi). apply filter_In in Hi. destruct Hi as [Hi E]. split; [eauto|]. now rewrite V.
Qed.
(* power_adequate, pretrends.py:113-116 *)
Theorem res_adequate_spec r : res_adequate r = true <-> pr_target r <= pr_power r.
Proof. unfold res_adequate. apply Rleb_true. Qed.

(* twfe.py:283-316 on a time-constant group indicator, which is what fit multiplies by the time column: in a balanced panel the check never warns *)
Theorem staggered_group_indicator {I U} (ueq : forall x y : U, {x = y} + {x <> y}) rows d t (u : I -> U) :
  (forall i j, In i rows -> In j rows -> u i = u j -> d i = d j) ->
  (forall i j, In i rows -> In j rows -> exists k, In k rows /\ u k = u i /\ t k = t j) ->
  staggered_warns ueq rows d t u = false.
Proof.
  intros Hd Hb. apply Bool.not_true_iff_false. intros W. apply staggered_warns_iff in W. destruct W as (a & b & za & zb & Ha & Hb' & Hne).
  apply first_treated_spec in Ha. apply first_treated_spec in Hb'. destruct Ha as [(i & Hi & Di & <- & <-) Mi]. destruct Hb' as [(j & Hj & Dj & <- & <-) Mj].
  destruct (Hb i j Hi Hj) as (k & Hk & Uk & Tk). destruct (Hb j i Hj Hi) as (l & Hl & Ul & Tl).
  assert (t i <= t k)%Z by (apply Mi; [easy|rewrite (Hd k i Hk Hi Uk); easy|easy]).
  assert (t j <= t l)%Z by (apply Mj; [easy|rewrite (Hd l j Hl Hj Ul); easy|easy]). lia.
Qed.
(* periods 1..4, cohorts starting in 2 and 3: coded as status the check warns, coded as group it does not *)
Theorem staggered_coding_case : let rows := list_prod (seq 0 4) (seq 1 4) in let u (i : nat * nat) := fst i in let t (i : nat * nat) := Z.of_nat (snd i) in
  staggered_warns Nat.eq_dec rows (fun i => (fst i <? 2)%nat && (fst i + 2 <=? snd i)%nat) t u = true /\
  staggered_warns Nat.eq_dec rows (fun i => (fst i <? 2)%nat) t u = false.
Proof. cbv zeta. split; vm_compute; reflexivity. Qed.

(* SyntheticDiD.__init__, synthetic_did.py:147-153 *)
Theorem sd_init_spec cfg : sd_init_ok cfg = true <-> sd_method cfg = "bootstrap"%string \/ sd_method cfg = "placebo"%string.
Proof. unfold sd_init_ok. rewrite Bool.orb_true_iff, !String.eqb_eq. tauto. Qed.

(* Theorems added after seeded bugs survived: the names of the DiD coefficients and the period table (C122), the grid of the pre-trends power curve (C40). *)
From Coq Require Import Reals Lra Lia.
From Verif Require Import Prelude Flt Results_model Multi_model Honest_model Pretrends_model Export_model Export_proofs.
From Coq Require Import Arith ZArith String List.
Import ListNotations.
Open Scope R_scope.

Lemma get_at names coefs j n c : NoDup names -> length coefs = length names -> nth_error names j = Some n ->
  nth_error coefs j = Some c -> dget (coef_dict names coefs) n = Some (VF c).
Proof.
  intros N L Hn Hc. destruct (coef_dict_get names coefs j c N L Hc) as (m & Hm & G). rewrite Hn in Hm. injection Hm as <-. exact G.
Qed.
Theorem did_coefficients treatment time covs fes coefs : NoDup (did_names treatment time covs fes) ->
  length coefs = length (did_names treatment time covs fes) ->
  let d := coef_dict (did_names treatment time covs fes) coefs in
  dget d "const" = Some (VF (nth 0 coefs NaN)) /\
  dget d treatment = Some (VF (nth 1 coefs NaN)) /\
  dget d time = Some (VF (nth 2 coefs NaN)) /\
  dget d (treatment ++ ":" ++ time)%string = Some (VF (nth 3 coefs NaN)) /\
  forall j x, nth_error covs j = Some x -> dget d x = Some (VF (nth (4 + j) coefs NaN)).
Proof.
  intros N L d.
  assert (G : forall j n, nth_error (did_names treatment time covs fes) j = Some n -> dget d n = Some (VF (nth j coefs NaN))).
  { intros j n Hn. apply (get_at _ _ j); auto. apply nth_error_nth'. rewrite L. apply nth_error_Some. congruence. }
  repeat split; try (apply G; reflexivity).
  intros j x Hx. apply G. unfold did_names. cbn [plus nth_error app]. rewrite nth_error_app1; [exact Hx|]. apply nth_error_Some. congruence.
Qed.
Theorem did_coefficients_case c0 c1 c2 c3 c4 : NoDup (did_names "treated" "post" ["size"%string] []) /\
  dget (coef_dict (did_names "treated" "post" ["size"%string] []) [c0; c1; c2; c3; c4]) "treated:post" = Some (VF c3) /\
  dget (coef_dict (did_names "treated" "post" ["size"%string] []) [c0; c1; c2; c3; c4]) "treated" = Some (VF c1).
Proof.
  split; [|split; reflexivity]. cbn. repeat constructor; cbn; intuition discriminate.
Qed.

Theorem period_table l : length (mp_table l) = length l /\
  forall j e, nth_error l j = Some e -> exists w s, nth_error (mp_table l) j = Some (w, s) /\
    tw_key w = pe_period e /\ tw_eff w = pe_effect e /\ tw_se w = pe_se e /\ tw_t w = pe_t e /\ tw_p w = pe_p e /\
    pe_ci e = (tw_lo w, tw_hi w) /\
    (forall p, pe_p e = Fin p -> (s = true <-> p < 1 / 20)) /\ (pe_p e = NaN -> s = false).
Proof.
  split; [apply map_length|]. intros j e H. unfold mp_table. rewrite (map_nth_error _ _ _ H).
  do 2 eexists. split; [reflexivity|]. cbn. repeat split; auto; try (destruct (pe_ci e); reflexivity).
  - intros K. unfold period_significant in K. rewrite H0 in K. cbn in K. apply Rltb_true in K. lra.
  - intros K. unfold period_significant. rewrite H0. cbn. apply Rltb_true. lra.
  - intros K. rewrite K. reflexivity.
Qed.
Theorem period_table_case : 
  map snd (mp_table [{| pe_period := 3%Z; pe_effect := Fin 2; pe_se := Fin (1/100); pe_t := Fin 200; pe_p := Fin (1/10); pe_ci := (Fin 1, Fin 3) |};
                     {| pe_period := 4%Z; pe_effect := Fin 2; pe_se := Fin 1; pe_t := Fin 2; pe_p := Fin (1/25); pe_ci := (Fin 1, Fin 3) |}]) = [false; true].
Proof.
  cbn. unfold period_significant. cbn. f_equal; [apply Rltb_false; lra|f_equal; apply Rltb_true; lra].
Qed.

Theorem linspace_points b n : (2 <= n)%nat -> length (linspace0 b n) = n /\ nth 0 (linspace0 b n) (-1) = 0 /\
  nth (n - 1) (linspace0 b n) (-1) = b /\
  (forall k, (k < n - 1)%nat -> nth (S k) (linspace0 b n) (-1) - nth k (linspace0 b n) (-1) = b / (INR n - 1)).
Proof.
  intros Hn. destruct n as [|[|m]]; try lia.
  assert (P : INR (S m) <> 0) by (apply not_0_INR; lia).
  assert (N : forall k, (k < S (S m))%nat -> nth k (linspace0 b (S (S m))) (-1) = b * INR k / INR (S m)).
  { intros k Hk. unfold linspace0. rewrite (nth_indep _ (-1) ((fun i => b * INR i / INR (S (S m) - 1)) 0%nat)) by (rewrite map_length, seq_length; lia).
    rewrite (map_nth (fun i => b * INR i / INR (S (S m) - 1)) (seq 0 (S (S m))) 0%nat k). cbv beta. rewrite seq_nth by lia. replace (S (S m) - 1)%nat with (S m) by lia. reflexivity. }
  split. { unfold linspace0. rewrite map_length, seq_length. reflexivity. }
  split. { rewrite N by lia. simpl (INR 0). unfold Rdiv. ring. }
  split. { rewrite N by lia. replace (S (S m) - 1)%nat with (S m) by lia. field. exact P. }
  intros k Hk. rewrite !N by lia. rewrite (S_INR k), (S_INR (S m)). field. lra.
Qed.

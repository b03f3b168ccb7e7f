(* SyntheticDiD.fit: what the reported result does and does not depend on *)
From Verif Require Import Prelude Flt Stats_model Linalg_model Linalg_proofs Did_model Multi_model Multi_proofs Staggered_model Synth_model Synth_proofs Synth_more Sdid_model Sdid_proofs Trop_rows.
From Coq Require Import Arith ZArith String List Permutation.
Import ListNotations.
Open Scope R_scope.

Section Matrix.
Variable backend : list Z -> list (Z -> R) -> (Z -> R) -> R -> list R.
Definition be_simplex : Prop := forall pre cols y lambda m, cols <> [] ->
  in_simplex (synthetic_weights (backend pre cols y lambda) (length cols) m) /\
  length (synthetic_weights (backend pre cols y lambda) (length cols) m) = length cols.
Hypothesis Hbe : be_simplex.

Lemma sd_omega_simplex cfg Y pre tr ctrl : ctrl <> [] ->
  in_simplex (sd_omega backend cfg Y pre tr ctrl) /\ length (sd_omega backend cfg Y pre tr ctrl) = length ctrl.
Proof.
  intros Hc. unfold sd_omega. rewrite <- (map_length (fun j t => Y t j) ctrl).
  apply Hbe. destruct ctrl; cbn; congruence.
Qed.

Lemma sd_tw_simplex cfg Y pre tr ctrl : pre <> [] -> 0 <= sd_zeta cfg ->
  in_simplex (sd_tw cfg Y pre tr ctrl) /\ length (sd_tw cfg Y pre tr ctrl) = length pre.
Proof. intros. apply time_weights_simplex; auto. Qed.

Lemma sdid_local {T J} (Y Y' : T -> J -> R) pre post ctrl y y' omega lambda :
  (forall t j, In t (pre ++ post) -> In j ctrl -> Y' t j = Y t j) -> (forall t, In t (pre ++ post) -> y' t = y t) ->
  sdid Y' pre post ctrl y' omega lambda = sdid Y pre post ctrl y omega lambda.
Proof.
  intros HY Hy. assert (P1 : forall t, In t pre -> In t (pre ++ post)) by (intros; apply in_or_app; auto).
  assert (P2 : forall t, In t post -> In t (pre ++ post)) by (intros; apply in_or_app; auto).
  unfold sdid. rewrite (meanf_ext y' y), (wdot_ext lambda y' y) by auto. f_equal.
  apply wdot_ext. intros j Hj. f_equal; [apply meanf_ext; auto|apply wdot_ext; auto].
Qed.

Lemma sdid_shift_local {T J} (Y Y' : T -> J -> R) pre post ctrl y y' omega lambda (b : T -> R) :
  length omega = length ctrl -> length lambda = length pre -> sumf idR omega = 1 -> sumf idR lambda = 1 -> post <> [] ->
  (forall t j, In t (pre ++ post) -> In j ctrl -> Y' t j = Y t j + b t) -> (forall t, In t (pre ++ post) -> y' t = y t + b t) ->
  sdid Y' pre post ctrl y' omega lambda = sdid Y pre post ctrl y omega lambda.
Proof.
  intros Lo Ll So Sl Hp HY Hy.
  rewrite <- (sdid_invariant pre post ctrl omega lambda Lo Ll So Sl Hp Y y (fun _ => 0) 0 b).
  apply sdid_local; intros; [rewrite HY by auto|rewrite Hy by auto]; ring.
Qed.

Lemma meanf_shift {A} (f f' : A -> R) c l : l <> [] -> (forall a, In a l -> f' a = f a + c) -> meanf f' l = meanf f l + c.
Proof. intros Hl H. rewrite (meanf_ext f' (fun a => f a + c)) by auto. rewrite meanf_add, meanf_const by auto. reflexivity. Qed.

Section Shift.
Variables (cfg : sd_config) (Y Y' : Z -> Z -> R) (b : Z -> R) (pre post : list Z).
Hypothesis Hshift : be_shift backend.
Hypothesis Hz : 0 <= sd_zeta cfg.
Hypothesis Hpre : pre <> [].
Hypothesis Hpost : post <> [].

Lemma sd_omega_shift tr ctrl : tr <> [] -> ctrl <> [] ->
  (forall t j, In t pre -> In j (tr ++ ctrl) -> Y' t j = Y t j + b t) ->
  sd_omega backend cfg Y' pre tr ctrl = sd_omega backend cfg Y pre tr ctrl.
Proof.
  intros Ht Hc HY. unfold sd_omega. f_equal. apply (Hshift pre b).
  - destruct ctrl; cbn; congruence.
  - unfold shift_cols. assert (G : forall j, In j ctrl -> In j (tr ++ ctrl)) by (intros; apply in_or_app; auto).
    clear Hc. induction ctrl as [|j l IH]; cbn; constructor.
    + intros t Hp. apply HY; auto. apply G; cbn; auto.
    + apply IH.
      * intros t k Hp Hk. apply HY; auto. apply in_app_or in Hk. apply in_or_app. cbn. tauto.
      * intros k Hk. apply in_or_app; auto.
  - intros t Hp. apply meanf_shift; auto. intros a Ha. apply HY; auto. apply in_or_app; auto.
Qed.

Lemma sd_tw_shift tr ctrl : tr <> [] -> ctrl <> [] ->
  (forall t j, In t pre -> In j (tr ++ ctrl) -> Y' t j = Y t j + b t) ->
  sd_tw cfg Y' pre tr ctrl = sd_tw cfg Y pre tr ctrl.
Proof.
  intros Ht Hc HY. unfold sd_tw, time_weights. destruct pre as [|p [|q r]] eqn:E; auto. rewrite <- E in *.
  assert (D : map (fun t => Rabs (meanf (Y' t) tr - meanf (Y' t) ctrl)) pre = map (fun t => Rabs (meanf (Y t) tr - meanf (Y t) ctrl)) pre).
  { apply map_ext_in. intros t Hp. f_equal.
    rewrite (meanf_shift (Y t) (Y' t) (b t) tr), (meanf_shift (Y t) (Y' t) (b t) ctrl); auto; [ring| |];
      intros a Ha; apply HY; auto; apply in_or_app; auto. }
  rewrite D. reflexivity.
Qed.

Lemma sd_point_shift tr ctrl : tr <> [] -> ctrl <> [] ->
  (forall t j, In t (pre ++ post) -> In j (tr ++ ctrl) -> Y' t j = Y t j + b t) ->
  sd_point backend cfg Y' pre post tr ctrl = sd_point backend cfg Y pre post tr ctrl.
Proof.
  intros Ht Hc HY. unfold sd_point.
  assert (HY' : forall t j, In t pre -> In j (tr ++ ctrl) -> Y' t j = Y t j + b t) by (intros; apply HY; auto; apply in_or_app; auto).
  rewrite sd_omega_shift, sd_tw_shift by auto.
  destruct (sd_omega_simplex cfg Y pre tr ctrl Hc) as [[_ So] Lo].
  destruct (sd_tw_simplex cfg Y pre tr ctrl Hpre Hz) as [[_ Sl] Ll].
  apply (sdid_shift_local _ _ _ _ _ _ _ _ _ b); auto.
  - intros; apply HY; auto. apply in_or_app; auto.
  - intros t Hp. apply meanf_shift; auto. intros a Ha. apply HY; auto. apply in_or_app; auto.
Qed.

Lemma somes_ext {A B} (f g : A -> option B) l : (forall a, f a = g a) -> somes (map f l) = somes (map g l).
Proof. intros H. rewrite (map_ext f g) by auto. reflexivity. Qed.

Lemma sd_boot_shift tr ctrl draw :
  (forall t j, In t (pre ++ post) -> In j (tr ++ ctrl) -> Y' t j = Y t j + b t) ->
  sd_boot_one backend cfg Y' pre post tr ctrl draw = sd_boot_one backend cfg Y pre post tr ctrl draw.
Proof.
  intros HY. unfold sd_boot_one.
  assert (Z1 : forall a, In a (filter (fun a => zmem a tr) draw) -> In a tr)
    by (intros a Ha; apply filter_In in Ha as [_ Ha]; apply zmem_In; auto).
  assert (Z2 : forall a, In a (filter (fun a => zmem a ctrl) draw) -> In a ctrl)
    by (intros a Ha; apply filter_In in Ha as [_ Ha]; apply zmem_In; auto).
  destruct (filter (fun a => zmem a tr) draw) as [|x l] eqn:E1; [reflexivity|].
  destruct (filter (fun a => zmem a ctrl) draw) as [|x' l'] eqn:E2; [reflexivity|].
  f_equal. apply sd_point_shift; try discriminate. intros t j Hp Hj. apply HY; auto.
  apply in_app_or in Hj. apply in_or_app. destruct Hj; auto.
Qed.

Lemma placebo_shift lambda n_pseudo (perm : list (Z * R)) : (0 < n_pseudo < length perm)%nat ->
  length lambda = length pre -> sumf idR lambda = 1 ->
  (forall t j, In t (pre ++ post) -> In j (map fst perm) -> Y' t j = Y t j + b t) ->
  placebo_one Y' pre post lambda n_pseudo perm = placebo_one Y pre post lambda n_pseudo perm.
Proof.
  intros Hn Ll Sl HY. unfold placebo_one. destruct (placebo_weights_ok n_pseudo perm ltac:(lia)) as [Lw Sw].
  assert (Hpt : map fst (skipn n_pseudo perm) <> []).
  { intros E. apply (f_equal (@length _)) in E. rewrite map_length, skipn_length in E. simpl in E. lia. }
  assert (Hin : forall j, In j (map fst (skipn n_pseudo perm)) \/ In j (map fst (firstn n_pseudo perm)) -> In j (map fst perm)).
  { intros j H. rewrite <- (firstn_skipn n_pseudo perm), map_app. apply in_or_app. tauto. }
  apply (sdid_shift_local _ _ _ _ _ _ _ _ _ b); auto.
  intros t Hp. apply meanf_shift; auto.
Qed.

Theorem sd_finish_shift sf z tr ctrl nobs draws perms : tr <> [] -> ctrl <> [] ->
  (forall p, In p perms -> Permutation p (seq 0 (length ctrl))) ->
  (forall t j, In t (pre ++ post) -> In j (tr ++ ctrl) -> Y' t j = Y t j + b t) ->
  sd_finish backend sf z cfg Y' pre post tr ctrl nobs draws perms = sd_finish backend sf z cfg Y pre post tr ctrl nobs draws perms.
Proof.
  intros Ht Hc Hperm HY. unfold sd_finish.
  assert (HY' : forall t j, In t pre -> In j (tr ++ ctrl) -> Y' t j = Y t j + b t) by (intros; apply HY; auto; apply in_or_app; auto).
  rewrite (sd_omega_shift tr ctrl), (sd_tw_shift tr ctrl), (sd_point_shift tr ctrl) by auto.
  destruct (sd_omega_simplex cfg Y pre tr ctrl Hc) as [[Po So] Lo].
  destruct (sd_tw_simplex cfg Y pre tr ctrl Hpre Hz) as [[Pl Sl] Ll].
  set (omega := sd_omega backend cfg Y pre tr ctrl) in *. set (lam := sd_tw cfg Y pre tr ctrl) in *.
  assert (ER : meanf (fun s => (meanf (Y' s) tr - lc (map (fun j s0 => Y' s0 j) ctrl) omega s) * (meanf (Y' s) tr - lc (map (fun j s0 => Y' s0 j) ctrl) omega s)) pre
             = meanf (fun s => (meanf (Y s) tr - lc (map (fun j s0 => Y s0 j) ctrl) omega s) * (meanf (Y s) tr - lc (map (fun j s0 => Y s0 j) ctrl) omega s)) pre).
  { apply meanf_ext. intros s Hs.
    assert (SC : shift_cols pre b (map (fun j s0 => Y s0 j) ctrl) (map (fun j s0 => Y' s0 j) ctrl)).
    { assert (G : forall t j, In t pre -> In j ctrl -> Y' t j = Y t j + b t) by (intros; apply HY'; auto; apply in_or_app; auto).
      revert G. clear. intros G. unfold shift_cols. induction ctrl as [|j l IH]; cbn; constructor.
      - intros t Hp. apply G; cbn; auto.
      - apply IH. intros; apply G; cbn; auto. }
    rewrite (shift_lc _ _ _ _ SC omega s) by (auto; rewrite map_length; auto).
    rewrite (meanf_shift (Y s) (Y' s) (b s) tr); auto.
    2:{ intros a Ha. apply HY'; auto. apply in_or_app; auto. }
    rewrite So. ring. }
  rewrite ER.
  rewrite (somes_ext _ (sd_boot_one backend cfg Y pre post tr ctrl)) by (intros; apply sd_boot_shift; auto).
  assert (EP : placebo_se (length ctrl) (length tr) (map (fun p => placebo_one Y' pre post lam (length ctrl - length tr) (map (fun k => (nth k ctrl 0%Z, nth k omega 0)) p)) perms)
             = placebo_se (length ctrl) (length tr) (map (fun p => placebo_one Y pre post lam (length ctrl - length tr) (map (fun k => (nth k ctrl 0%Z, nth k omega 0)) p)) perms)).
  { unfold placebo_se at 1 2. destruct (Nat.leb (length ctrl) (length tr)) eqn:EL; [reflexivity|]. apply Nat.leb_gt in EL.
    rewrite (map_ext_in _ (fun p => placebo_one Y pre post lam (length ctrl - length tr) (map (fun k => (nth k ctrl 0%Z, nth k omega 0)) p))); [reflexivity|].
    intros p Hp. specialize (Hperm p Hp). assert (Hlen := Permutation_length Hperm). rewrite seq_length in Hlen.
    assert (0 < length tr)%nat by (destruct tr; cbn; [congruence|lia]).
    apply placebo_shift; auto; [rewrite map_length; lia|].
    intros t j Hs Hj. apply HY; auto. rewrite map_map in Hj. apply in_map_iff in Hj as (k & <- & Hk). cbn [fst].
    apply in_or_app. right. apply nth_In. apply (Permutation_in _ Hperm) in Hk. apply in_seq in Hk. lia. }
  rewrite EP. reflexivity.
Qed.
End Shift.
End Matrix.

Lemma rust_simplex iter : be_simplex (be_rust iter).
Proof. intros pre cols y lambda m H. destruct (unit_weights_simplex iter 0 pre cols y lambda m H) as (_ & _ & A & B). auto. Qed.
Lemma numpy_simplex iter nrm : be_simplex (be_numpy iter nrm).
Proof. intros pre cols y lambda m H. destruct (unit_weights_simplex iter (nrm pre cols lambda) pre cols y lambda m H) as (A & B & _). auto. Qed.

(* ---- the fit on rows ---- *)
Section Rows.
Variable backend : list Z -> list (Z -> R) -> (Z -> R) -> R -> list R.
Context {I : Type}.
Variable qr : list I -> list (I -> R) -> list nat.
Variable lstsq : list I -> list (I -> R) -> (I -> R) -> list R.
Variable inv : list I -> list (I -> R) -> option (nat -> nat -> R).
Variables (sf z : R -> R).
Notation fit := (sd_fit backend qr lstsq inv sf z).
Notation fin := (sd_finish backend sf z).

Definition sd_binary (rows : list I) (d : I -> R) : Prop := forall i, In i rows -> d i = 0 \/ d i = 1.
(* every unit is observed in every period *)
Definition sd_complete (rows : list I) (u t : I -> Z) : Prop :=
  forall i j, In i rows -> In j rows -> exists k, In k rows /\ u k = u i /\ t k = t j.
Definition sd_constant (rows : list I) (u : I -> Z) (d : I -> R) : Prop :=
  forall i j, In i rows -> In j rows -> u i = u j -> d i = d j.

Lemma sd_binary_b rows d : forallb (fun i => Reqb (d i) 0 || Reqb (d i) 1) rows = true <-> sd_binary rows d.
Proof.
  rewrite forallb_forall. unfold sd_binary. split; intros H i Hi; specialize (H i Hi).
  - apply Bool.orb_true_iff in H. rewrite !Reqb_true in H. exact H.
  - apply Bool.orb_true_iff. rewrite !Reqb_true. exact H.
Qed.

Theorem sd_fit_ok (rows : list I) (u t : I -> Z) d cfg y covs post draws perms r :
  fit rows u t d cfg y covs post draws perms = Ok r <->
  exists pre pst w, sd_binary rows d /\ sdid_periods zmem (sd_periods rows t) post = Ok (pre, pst)
    /\ sd_treated rows u d <> [] /\ sd_control rows u d <> []
    /\ (match covs with [] => Ok y | _ => sd_residualize qr lstsq inv rows u t y covs end) = Ok w
    /\ sd_dup rows u t = false
    /\ fin cfg (sd_cell rows u t w) pre pst (sd_treated rows u d) (sd_control rows u d) (length rows) draws perms = Ok r.
Proof.
  unfold sd_fit. assert (BB := sd_binary_b rows d). destruct (forallb _ rows); cbn [negb].
  2:{ split; [discriminate|]. intros (? & ? & ? & Hb & _). apply BB in Hb. discriminate. }
  assert (Hb : sd_binary rows d) by (apply BB; reflexivity).
  destruct (sdid_periods zmem (sd_periods rows t) post) as [[pre pst]|e]; cbn [bind].
  2:{ split; [discriminate|]. intros (? & ? & ? & _ & ? & _). discriminate. }
  destruct (sd_treated rows u d) as [|a tr].
  { split; [discriminate|]. intros (? & ? & ? & _ & _ & ? & _). congruence. }
  destruct (sd_control rows u d) as [|c ctrl].
  { split; [discriminate|]. intros (? & ? & ? & _ & _ & _ & ? & _). congruence. }
  destruct (match covs with [] => Ok y | _ => sd_residualize qr lstsq inv rows u t y covs end) as [w|e]; cbn [bind].
  2:{ split; [discriminate|]. intros (? & ? & ? & _ & _ & _ & _ & ? & _). discriminate. }
  destruct (sd_dup rows u t).
  { split; [discriminate|]. intros (? & ? & ? & _ & _ & _ & _ & _ & ? & _). discriminate. }
  split.
  - intros H. exists pre, pst, w. repeat split; auto; discriminate.
  - intros (p & q & w' & _ & E & _ & _ & Ew & _ & H). injection E as <- <-. injection Ew as <-. exact H.
Qed.

Lemma sd_units_In rows (u : I -> Z) a : In a (sd_units rows u) <-> exists i, In i rows /\ u i = a.
Proof.
  unfold sd_units. rewrite zsort_In, nodup_In, in_map_iff. split; intros (i & H1 & H2); exists i; auto.
Qed.
Lemma sd_units_NoDup rows (u : I -> Z) : NoDup (sd_units rows u).
Proof. unfold sd_units. apply zsort_NoDup, NoDup_nodup. Qed.

Lemma sd_rows_short (rows : list I) (u t : I -> Z) : sd_dup rows u t = false -> forall p a, (length (sd_rows rows u t p a) <= 1)%nat.
Proof.
  intros H p a. destruct (sd_rows rows u t p a) as [|i [|j l]] eqn:E; cbn; try lia. exfalso.
  assert (Hi : In i (sd_rows rows u t p a)) by (rewrite E; cbn; auto).
  unfold sd_rows in Hi. apply filter_In in Hi as [Hi Hk]. apply andb_prop in Hk as [K1 K2]. apply Z.eqb_eq in K1, K2.
  assert (X : sd_dup rows u t = true); [|congruence]. unfold sd_dup. apply existsb_exists. exists i. split; auto.
  rewrite K1, K2, E. reflexivity.
Qed.

Lemma sd_cell_row (rows : list I) (u t : I -> Z) y i : sd_dup rows u t = false -> In i rows -> sd_cell rows u t y (t i) (u i) = y i.
Proof.
  intros Hd Hi. assert (S := sd_rows_short rows u t Hd (t i) (u i)). unfold sd_cell.
  assert (M : In i (sd_rows rows u t (t i) (u i))) by (apply filter_In; split; auto; rewrite !Z.eqb_refl; reflexivity).
  destruct (sd_rows rows u t (t i) (u i)) as [|j [|k l]]; cbn in *; [easy| |lia]. destruct M as [<-|[]]. reflexivity.
Qed.

Lemma sd_cell_at (rows : list I) (u t : I -> Z) p a : sd_complete rows u t -> In p (sd_periods rows t) -> In a (sd_units rows u) ->
  exists i, In i rows /\ t i = p /\ u i = a.
Proof.
  intros Hc Hp Ha. apply sd_units_In in Ha as (i & Hi & <-). unfold sd_periods in Hp. apply sd_units_In in Hp as (j & Hj & <-).
  destruct (Hc i j Hi Hj) as (k & Hk & E1 & E2). exists k; auto.
Qed.

Lemma sd_groups_units (rows : list I) (u : I -> Z) (d : I -> R) a : In a (sd_treated rows u d ++ sd_control rows u d) -> In a (sd_units rows u).
Proof. intros H. apply in_app_or in H as [H|H]; apply filter_In in H as [H _]; exact H. Qed.

Lemma sd_periods_in rows (t : I -> Z) post pre pst : sdid_periods zmem (sd_periods rows t) post = Ok (pre, pst) ->
  pre <> [] /\ pst <> [] /\ (forall p, In p (pre ++ pst) <-> In p (sd_periods rows t)) /\ (forall p, In p pre -> ~ In p pst).
Proof.
  intros H. apply sdid_periods_spec in H; [|apply zmem_In|unfold sd_periods; apply (sd_units_NoDup rows t)].
  destruct H as (A & B & C & D). repeat split; auto; intros K; [apply C, in_app_or, K|apply in_or_app, C, K].
Qed.

(* period effects, compiled backend: nothing reported changes *)
Theorem sd_fit_period_effects (rows : list I) (u t : I -> Z) d cfg y y' (b : Z -> R) post draws perms :
  be_simplex backend -> be_shift backend -> 0 <= sd_zeta cfg -> sd_complete rows u t ->
  (forall p, In p perms -> Permutation p (seq 0 (length (sd_control rows u d)))) ->
  (forall i, In i rows -> y' i = y i + b (t i)) ->
  fit rows u t d cfg y' [] post draws perms = fit rows u t d cfg y [] post draws perms.
Proof.
  intros Hs Hb Hz Hc Hp Hy. unfold sd_fit. destruct (forallb _ rows); cbn [negb]; [|reflexivity].
  destruct (sdid_periods zmem (sd_periods rows t) post) as [[pre pst]|e] eqn:EP; cbn [bind]; [|reflexivity].
  destruct (sd_treated rows u d) as [|a tr] eqn:ET; [reflexivity|].
  destruct (sd_control rows u d) as [|c ctrl] eqn:EC; [reflexivity|].
  destruct (sd_dup rows u t) eqn:ED; [reflexivity|].
  destruct (sd_periods_in _ _ _ _ _ EP) as (Pn & Qn & Pi & _).
  apply (sd_finish_shift backend Hs cfg _ _ b); auto; try discriminate.
  intros p x Hp' Hx. rewrite <- ET, <- EC in Hx. apply sd_groups_units in Hx. apply Pi in Hp'.
  destruct (sd_cell_at rows u t p x Hc Hp' Hx) as (i & Hi & <- & <-).
  rewrite !sd_cell_row by auto. apply Hy; auto.
Qed.

(* what a successful fit reports *)
Theorem sd_fit_report (rows : list I) (u t : I -> Z) d cfg y covs post draws perms r : be_simplex backend -> 0 <= sd_zeta cfg ->
  fit rows u t d cfg y covs post draws perms = Ok r ->
  map fst (sr_unit_w r) = sd_control rows u d /\ in_simplex (map snd (sr_unit_w r)) /\
  map fst (sr_time_w r) = sr_pre r /\ in_simplex (map snd (sr_time_w r)) /\
  (forall p, In p (sd_periods rows t) <-> In p (sr_pre r) \/ In p (sr_post r)) /\
  (forall p, In p (sr_pre r) -> ~ In p (sr_post r)) /\
  sr_n_obs r = length rows /\ sr_n_treated r = length (sd_treated rows u d) /\ sr_n_control r = length (sd_control rows u d) /\
  Permutation (sd_treated rows u d ++ sd_control rows u d) (sd_units rows u).
Proof.
  intros Hs Hz H. apply sd_fit_ok in H as (pre & pst & w & Hb & EP & Ht & Hc & _ & _ & F).
  destruct (sd_periods_in _ _ _ _ _ EP) as (Pn & Qn & Pi & Pd).
  set (tr := sd_treated rows u d) in *. set (ctrl := sd_control rows u d) in *. set (Y := sd_cell rows u t w) in *.
  destruct (sd_omega_simplex backend Hs cfg Y pre tr ctrl Hc) as [Sw Lw].
  destruct (sd_tw_simplex cfg Y pre tr ctrl Pn Hz) as [Sl Ll].
  unfold sd_finish in F.
  match type of F with bind ?x _ = _ => destruct x as [[se eff]|e]; [|discriminate] end. cbn [bind] in F.
  injection F as <-. cbn [sr_unit_w sr_time_w sr_pre sr_post sr_n_obs sr_n_treated sr_n_control].
  assert (M1 : forall (l : list Z) (m : list R), length m = length l -> map fst (combine l m) = l /\ map snd (combine l m) = m).
  { induction l as [|a l IH]; intros [|b m] Hl; cbn in *; try discriminate; auto. destruct (IH m) as [A B]; [lia|]. rewrite A, B. auto. }
  destruct (M1 ctrl _ Lw) as [A1 A2]. destruct (M1 pre _ Ll) as [B1 B2]. rewrite A1, A2, B1, B2.
  repeat split; auto; try apply Sw; try apply Sl.
  - intros K. apply in_app_or, Pi, K.
  - intros K. apply Pi, in_or_app, K.
  - assert (G : forall l, (forall a, In a l -> sd_first rows u d a = 0 \/ sd_first rows u d a = 1) ->
       Permutation (filter (fun a => Reqb (sd_first rows u d a) 1) l ++ filter (fun a => Reqb (sd_first rows u d a) 0) l) l).
    { induction l as [|a l IH]; intros K; cbn; [constructor|].
      assert (IH' := IH ltac:(intros; apply K; cbn; auto)).
      destruct (K a ltac:(cbn; auto)) as [E|E]; rewrite E.
      - rewrite (proj2 (Reqb_true 0 0) eq_refl). rewrite (proj2 (Reqb_false 0 1)) by lra.
        apply Permutation_sym, Permutation_cons_app, Permutation_sym, IH'.
      - rewrite (proj2 (Reqb_true 1 1) eq_refl). rewrite (proj2 (Reqb_false 1 0)) by lra.
        cbn. constructor. exact IH'. }
    apply G. intros a Ha. apply sd_units_In in Ha as (i & Hi & <-). unfold sd_first.
    assert (M : In i (filter (fun i0 => Z.eqb (u i0) (u i)) rows)) by (apply filter_In; split; auto; apply Z.eqb_refl).
    destruct (filter (fun i0 => Z.eqb (u i0) (u i)) rows) as [|k l] eqn:E; [easy|].
    apply Hb. assert (K : In k (k :: l)) by (cbn; auto). rewrite <- E in K. apply filter_In in K. tauto.
Qed.

(* the reported fit measure is zero exactly when the synthetic control matches every pre-period *)
Theorem sd_fit_rmse (rows : list I) (u t : I -> Z) d cfg y post draws perms r :
  fit rows u t d cfg y [] post draws perms = Ok r ->
  0 <= sr_rmse r /\
  (sr_rmse r = 0 <-> forall p, In p (sr_pre r) ->
     meanf (sd_cell rows u t y p) (sd_treated rows u d) = sumf (fun q => snd q * sd_cell rows u t y p (fst q)) (sr_unit_w r)).
Proof.
  intros H. apply sd_fit_ok in H as (pre & pst & w & Hb & EP & Ht & Hc & Ew & _ & F).
  injection Ew as <-. unfold sd_finish in F.
  match type of F with bind ?x _ = _ => destruct x as [[se eff]|e]; [|discriminate] end. cbn [bind] in F.
  injection F as <-. cbn [sr_rmse sr_pre sr_unit_w]. split; [apply sqrt_pos|].
  set (Y := sd_cell rows u t y). set (tr := sd_treated rows u d) in *. set (ctrl := sd_control rows u d) in *.
  set (omega := sd_omega backend cfg Y pre tr ctrl).
  assert (E : forall p, lc (map (fun j s => Y s j) ctrl) omega p = sumf (fun q => snd q * Y p (fst q)) (combine ctrl omega)).
  { intros p. generalize omega. clear. intros om. revert om; induction ctrl as [|j l IH]; intros [|x om]; cbn; try reflexivity.
    rewrite IH. reflexivity. }
  set (g := fun s => (meanf (Y s) tr - lc (map (fun j s0 => Y s0 j) ctrl) omega s) * (meanf (Y s) tr - lc (map (fun j s0 => Y s0 j) ctrl) omega s)).
  assert (G0 : forall s, In s pre -> 0 <= g s) by (intros; unfold g; apply sq_nonneg).
  assert (Pn : pre <> []) by apply (sd_periods_in _ _ _ _ _ EP).
  assert (LP : 0 < len pre) by (apply len_pos; auto).
  split.
  - intros Z0 p Hp. fold g in Z0.
    assert (M0 : 0 <= meanf g pre) by (unfold meanf, Rdiv; apply Rmult_le_pos; [apply sumf_nonneg; auto|left; apply Rinv_0_lt_compat; auto]).
    apply sqrt_eq_0 in Z0; auto. unfold meanf in Z0.
    assert (S0 : sumf g pre = 0) by (apply (f_equal (fun v => v * len pre)) in Z0; unfold Rdiv in Z0; rewrite Rmult_assoc, Rinv_l in Z0 by lra; lra).
    assert (Gp := sumf_nonneg_0 g pre G0 S0 p Hp). unfold g in Gp. rewrite E in Gp. destruct (Rmult_integral _ _ Gp); lra.
  - intros Hm. rewrite (meanf_ext _ (fun _ => 0)).
    + rewrite meanf_const by auto. apply sqrt_0.
    + intros s Hs. unfold g. rewrite E, (Hm s Hs). ring.
Qed.
End Rows.

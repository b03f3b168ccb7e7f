(* Pre-trends power: what is read of the estimators' results; concrete cases and refutations. *)
From Verif Require Import Prelude Flt Linalg_model Linalg_proofs Linalg_vcov Linalg_thms Did_model Multi_model Multi_proofs Multi_thms
  Results_model Results_proofs Honest_model Honest_fit Pretrends_model Pretrends_proofs Pretrends_thms.
From Coq Require Import Arith ZArith String List Lia Lra Permutation Sorted.
Import ListNotations.
Open Scope R_scope.

(* ---- dictionaries ---- *)
Lemma key_eqb_eq a b : key_eqb a b = true <-> a = b.
Proof.
  destruct a, b; simpl; split; intros H; try discriminate; try reflexivity.
  - apply Z.eqb_eq in H; subst; auto.
  - injection H as <-. apply Z.eqb_refl.
  - apply Bool.andb_true_iff in H as [H1 H2]. apply String.eqb_eq in H1. apply Z.eqb_eq in H2. subst; auto.
  - injection H as <- <-. rewrite String.eqb_refl, Z.eqb_refl. reflexivity.
  - apply Nat.eqb_eq in H; subst; auto.
  - injection H as <-. apply Nat.eqb_refl.
Qed.
Lemma dict_set_keys d k v x : In x (map fst (dict_set d k v)) <-> In x (map fst d) \/ x = k.
Proof.
  induction d as [|[k' v'] d IH]; simpl; [intuition|]. destruct (key_eqb k k') eqn:E; simpl.
  - apply key_eqb_eq in E. subst. intuition.
  - rewrite IH. intuition.
Qed.
Lemma dict_fold_keys l d x : In x (map fst (fold_left (fun d kv => dict_set d (fst kv) (snd kv)) l d)) <-> In x (map fst d) \/ In x (map fst l).
Proof.
  revert d. induction l as [|[k v] l IH]; intros d; simpl; [tauto|]. rewrite IH, dict_set_keys. simpl. intuition.
Qed.
Lemma dict_find_in d k : dict_find d k <> None <-> In k (map fst d).
Proof.
  unfold dict_find. induction d as [|[k' v'] d IH]; simpl; [tauto|]. destruct (key_eqb k k') eqn:E; simpl.
  - apply key_eqb_eq in E. subst. split; [auto|discriminate].
  - rewrite IH. split; auto. intros [->|H]; auto. rewrite (proj2 (key_eqb_eq k k) eq_refl) in E. discriminate.
Qed.
Lemma dict_of_find l k : dict_find (dict_of l) k <> None <-> In k (map fst l).
Proof. rewrite dict_find_in. unfold dict_of. rewrite dict_fold_keys. simpl. tauto. Qed.
Lemma dict_set_new d k v : ~ In k (map fst d) -> dict_set d k v = d ++ [(k, v)].
Proof.
  induction d as [|[k' v'] d IH]; simpl; intros H; [reflexivity|]. destruct (key_eqb k k') eqn:E.
  - apply key_eqb_eq in E. subst. exfalso. auto.
  - rewrite IH by auto. reflexivity.
Qed.
Lemma dict_of_nodup l : NoDup (map fst l) -> dict_of l = l.
Proof.
  intros H. unfold dict_of. change l with ([] ++ l) at 2. assert (D : NoDup (map fst ([] ++ l))) by auto. clear H.
  revert D. generalize (@nil (coef_key * fl)) as d. induction l as [|[k v] l IH]; intros d D; simpl; [rewrite app_nil_r; auto|].
  rewrite map_app in D. simpl in D. pose proof (NoDup_remove_2 _ _ _ D) as N. rewrite dict_set_new.
  - rewrite IH; [rewrite <- app_assoc; reflexivity|]. rewrite <- app_assoc. rewrite map_app. exact D.
  - intros K. apply N. apply in_or_app. auto.
Qed.
Lemma key_index_nth l j k v : NoDup (map fst l) -> nth_error l j = Some (k, v) -> key_index l k = j /\ dict_find l k = Some v.
Proof.
  revert j. induction l as [|[k' v'] l IH]; intros j D H; [destruct j; discriminate|]. inversion D; subst.
  unfold dict_find. destruct j as [|j]; simpl in *.
  - injection H as -> ->. rewrite (proj2 (key_eqb_eq k k) eq_refl). auto.
  - destruct (key_eqb k k') eqn:E.
    + apply key_eqb_eq in E. subst. exfalso. apply H2. apply nth_error_In in H. apply (in_map fst) in H. exact H.
    + destruct (IH j H3 H) as [-> H5]. unfold dict_find in H5. auto.
Qed.
(* repeated names: the last value is stored, at the position of the first *)
Lemma dict_set_find d k v x : dict_find (dict_set d k v) x = if key_eqb x k then Some v else dict_find d x.
Proof.
  unfold dict_find. induction d as [|[k' v'] d IH]; cbn [dict_set find fst].
  - destruct (key_eqb x k) eqn:E; reflexivity.
  - destruct (key_eqb k k') eqn:E; cbn [find fst].
    + apply key_eqb_eq in E. subst k'. destruct (key_eqb x k); reflexivity.
    + destruct (key_eqb x k') eqn:E2; [|exact IH]. destruct (key_eqb x k) eqn:E3; [|reflexivity].
      apply key_eqb_eq in E2, E3. subst. rewrite (proj2 (key_eqb_eq k' k') eq_refl) in E. discriminate.
Qed.
Theorem dict_of_last l k v l' : ~ In k (map fst l') -> dict_find (dict_of (l ++ (k, v) :: l')) k = Some v.
Proof.
  intros H. unfold dict_of. rewrite fold_left_app. cbn [fold_left fst snd]. generalize (fold_left (fun d kv => dict_set d (fst kv) (snd kv)) l []). intros d.
  assert (G : dict_find (dict_set d k v) k = Some v) by (rewrite dict_set_find, (proj2 (key_eqb_eq k k) eq_refl); reflexivity).
  revert G. generalize (dict_set d k v). clear d. induction l' as [|[k' v'] l' IH]; intros d G; [exact G|]. cbn [fold_left fst snd]. apply IH.
  - intros K. apply H. right. exact K.
  - rewrite dict_set_find. destruct (key_eqb k k') eqn:E; [|exact G]. apply key_eqb_eq in E. exfalso. apply H. left. symmetry. exact E.
Qed.
Theorem dict_of_shift a b c k1 k2 : key_eqb k1 k2 = false -> let l := [(k1, a); (k1, b); (k2, c)] in
  dict_of l = [(k1, b); (k2, c)] /\ key_index (dict_of l) k2 = 1%nat /\ nth_error l 2 = Some (k2, c).
Proof.
  intros E l. assert (E' : key_eqb k2 k1 = false) by (destruct (key_eqb k2 k1) eqn:F; [apply key_eqb_eq in F; subst; rewrite (proj2 (key_eqb_eq k1 k1) eq_refl) in E; discriminate|reflexivity]).
  assert (L : dict_of l = [(k1, b); (k2, c)]) by (unfold dict_of, l; cbn; rewrite (proj2 (key_eqb_eq k1 k1) eq_refl); cbn; rewrite E'; reflexivity).
  rewrite L. cbn. rewrite E', (proj2 (key_eqb_eq k2 k2) eq_refl). auto.
Qed.
Lemma names_inter treatment all post ref ne p : In (KInter treatment p) (mp_names treatment all post ref ne) <-> In p post.
Proof.
  unfold mp_names. rewrite !in_app_iff. split.
  - intros [[H|[H|[]]]|[H|[H|H]]]; try discriminate.
    + apply in_map_iff in H as (? & H & _). discriminate.
    + apply in_map_iff in H as (q & H & Hq). injection H as <-. auto.
    + apply in_map_iff in H as (? & H & _). discriminate.
  - intros H. right. right. left. apply in_map. auto.
Qed.
Lemma names_nodup treatment all post ref ne : NoDup all -> NoDup post -> NoDup (mp_names treatment all post ref ne).
Proof.
  intros Ha Hp.
  assert (Inj : forall {A} (f : A -> coef_key) l, (forall x y, f x = f y -> x = y) -> NoDup l -> NoDup (map f l)).
  { intros A f l Hf. induction l as [|x l IH]; intros H; simpl; [constructor|]. inversion H; subst. constructor; auto.
    intros K. apply in_map_iff in K as (y & E & Hy). apply Hf in E. subst. auto. }
  assert (App : forall l l' : list coef_key, NoDup l -> NoDup l' -> (forall x, In x l -> ~ In x l') -> NoDup (l ++ l')).
  { intros l l' H H' Hd. induction l as [|x l IH]; simpl; auto. inversion H; subst. constructor.
    - rewrite in_app_iff. intros [K|K]; [auto|]. apply (Hd x); simpl; auto.
    - apply IH; auto. intros y Hy. apply Hd. right; auto. }
  unfold mp_names. apply App; [repeat constructor; simpl; intuition discriminate| |].
  - apply App; [apply Inj; [intros x y E; injection E; auto|apply NoDup_filter; auto]| |].
    + apply App; [apply Inj; [intros x y E; injection E; auto|auto]|apply Inj; [intros x y E; injection E; auto|apply seq_NoDup]|].
      intros x H K. apply in_map_iff in H as (? & <- & _). apply in_map_iff in K as (? & K & _). discriminate.
    + intros x H K. apply in_map_iff in H as (? & <- & _). apply in_app_iff in K as [K|K]; apply in_map_iff in K as (? & K & _); discriminate.
  - intros x H K. simpl in H. rewrite !in_app_iff in K.
    destruct H as [<-|[<-|[]]]; destruct K as [K|[K|K]]; apply in_map_iff in K as (? & K & _); discriminate.
Qed.
Lemma map_fst_combine {A B} (l : list A) (l' : list B) : map fst (combine l l') = firstn (length l') l.
Proof. revert l'. induction l as [|x l IH]; intros [|y l']; simpl; auto. f_equal. auto. Qed.
Lemma NoDup_firstn {A} (l : list A) n : NoDup l -> NoDup (firstn n l).
Proof.
  revert n. induction l as [|x l IH]; intros [|n] H; simpl; try constructor; inversion H; subst.
  - intros K. apply H2. rewrite <- (firstn_skipn n l). apply in_or_app. auto.
  - apply IH; auto.
Qed.
Lemma nth_error_combine {A B} (l : list A) (l' : list B) j a b : nth_error l j = Some a -> nth_error l' j = Some b ->
  nth_error (combine l l') j = Some (a, b).
Proof. revert l' j. induction l as [|x l IH]; intros [|y l'] [|j]; simpl; try discriminate; [congruence|apply IH]. Qed.
Lemma names_at treatment all post ref ne j p : nth_error post j = Some p ->
  nth_error (mp_names treatment all post ref ne) (mp_index all ref j) = Some (KInter treatment p).
Proof.
  intros H. unfold mp_names, mp_index. set (f := filter _ all). assert (Hj : (j < length post)%nat) by (apply nth_error_Some; congruence).
  rewrite nth_error_app2 by (simpl; lia). rewrite nth_error_app2 by (rewrite map_length; simpl; lia).
  rewrite nth_error_app1 by (rewrite !map_length; simpl; lia). rewrite map_length. simpl length.
  replace (2 + length f + j - 2 - length f)%nat with j by lia. apply map_nth_error. auto.
Qed.

Lemma extract_mp_ok m ps : ps <> [] -> pm_coef m <> [] ->
  let est := filter (fun p => match dict_find (pm_coef m) (inter p) with Some _ => true | None => false end) ps in est <> [] ->
  let ses := map (fun p => match pm_eff m p with Some e => snd e | None => pm_avg_se m end) est in
  let idxs := map (fun p => key_index (pm_coef m) (inter p)) est in
  pt_extract_mp m (Some ps) = Ok {|
    pp_eff := map (fun p => match dict_find (pm_coef m) (inter p) with Some v => v | None => NaN end) est; pp_ses := ses;
    pp_vcov := match pm_vcov m with
               | Some (k, W) => if Nat.ltb (list_max_nat idxs) k then (fun i j => W (nth i idxs 0%nat) (nth j idxs 0%nat)) else diag_sq ses
               | None => diag_sq ses
               end;
    pp_n := length est |}.
Proof.
  intros Hp Hc est He ses idxs. unfold pt_extract_mp. destruct ps as [|p0 ps]; [congruence|]. destruct (pm_coef m) as [|kv l] eqn:E; [congruence|].
  fold est. destruct est as [|q est'] eqn:EE; [congruence|]. reflexivity.
Qed.

Section Mp.
Context {I K G : Type} (keq : forall x y : K, {x = y} + {x <> y}) (geq : forall x y : G, {x = y} + {x <> y}).
Variable qr : list I -> list (I -> R) -> list nat.
Variable lstsq : list I -> list (I -> R) -> (I -> R) -> list R.
Variable inv : list I -> list (I -> R) -> option (nat -> nat -> R).
Variable sf : option Z -> fl -> fl.
Variable ppf : option Z -> R -> R.
Hypothesis Hls : lstsq_ok lstsq.
Notation fit := (mp_fit keq geq qr lstsq inv sf ppf).

Lemma coef_find treatment all ne (r : mp_result I) p :
  dict_find (dict_of (combine (mp_names treatment all (mp_post r) (mp_ref r) ne) (mp_coef r))) (inter p) <> None ->
  treatment = "treated"%string /\ In p (mp_post r).
Proof.
  intros H. apply dict_of_find in H. rewrite map_fst_combine in H.
  assert (H0 : In (inter p) (mp_names treatment all (mp_post r) (mp_ref r) ne)).
  { rewrite <- (firstn_skipn (length (mp_coef r))). apply in_or_app. auto. }
  unfold inter in H0. assert (E : treatment = "treated"%string).
  { unfold mp_names in H0. rewrite !in_app_iff in H0. destruct H0 as [[H0|[H0|[]]]|[H0|[H0|H0]]]; try discriminate;
      apply in_map_iff in H0 as (q & H0 & _); try discriminate. injection H0; auto. }
  subst treatment. split; auto. apply names_inter in H0. exact H0.
Qed.
(* the pre-periods MultiPeriodDiD reports have no interaction: the default analysis always fails *)
Theorem mp_default_fails cfg rows y d t post ref covs dums absorb r treatment ne :
  fit cfg rows y d t post ref covs dums absorb = Ok r ->
  pt_extract (pt_of_mp treatment (data_periods rows t) ne r) None = Err ValueError.
Proof.
  intros H. destruct (mp_fit_inv keq geq qr lstsq inv sf ppf _ _ _ _ _ _ _ _ _ _ _ H) as (_ & S0 & y' & covs' & nabs & o & idxs & _ & Ho & Hc & _).
  destruct (mp_setup_ok _ _ _ _ _ _ S0 (data_periods_nodup rows t)) as (Hpre & _ & _ & _ & Hdis & _).
  unfold pt_of_mp. cbn [pt_extract]. unfold pt_extract_mp. cbn [pm_pre pm_coef].
  set (dd := dict_of _).
  assert (E : filter (fun p => match dict_find dd (inter p) with Some _ => true | None => false end) (mp_pre r) = []).
  { destruct (filter _ (mp_pre r)) as [|p l] eqn:E; auto. exfalso.
    assert (Hp : In p (filter (fun p => match dict_find dd (inter p) with Some _ => true | None => false end) (mp_pre r))) by (rewrite E; left; auto).
    apply filter_In in Hp as [Hp Hf]. destruct (dict_find dd (inter p)) eqn:F; [|discriminate].
    destruct (coef_find treatment (data_periods rows t) ne r p) as [_ Hq]; [unfold dd in F; congruence|]. apply Hdis in Hp. tauto. }
  assert (Hdd : dd <> []).
  { intros K0. assert (In KConst (map fst dd)) as K1; [|rewrite K0 in K1; destruct K1].
    unfold dd, dict_of. rewrite dict_fold_keys. right. rewrite map_fst_combine.
    destruct (solve_ols_shape keq qr lstsq inv Hls _ _ _ _ _ _ _ Ho) as (_ & Hk & _).
    rewrite Hc, Hk, expand_coef_length. unfold mp_design. simpl length. simpl. auto. }
  destruct (mp_pre r) as [|p0 pr] eqn:EP; [congruence|]. destruct dd as [|kv dd'] eqn:ED; [congruence|]. rewrite E. reflexivity.
Qed.
(* so does any list of periods when the treatment column is not called "treated" *)
Theorem mp_name_required cfg rows y d t post ref covs dums absorb r treatment ne pre :
  fit cfg rows y d t post ref covs dums absorb = Ok r -> treatment <> "treated"%string ->
  pt_extract (pt_of_mp treatment (data_periods rows t) ne r) pre = Err ValueError.
Proof.
  intros H Ht. destruct (mp_fit_inv keq geq qr lstsq inv sf ppf _ _ _ _ _ _ _ _ _ _ _ H) as (_ & S0 & y' & covs' & nabs & o & idxs & _ & Ho & Hc & _).
  unfold pt_of_mp. cbn [pt_extract]. unfold pt_extract_mp. cbn [pm_pre pm_coef].
  set (dd := dict_of _). set (al := match pre with Some l => l | None => _ end).
  assert (E : filter (fun p => match dict_find dd (inter p) with Some _ => true | None => false end) al = []).
  { destruct (filter _ al) as [|p l] eqn:E; auto. exfalso.
    assert (Hp : In p (filter (fun p => match dict_find dd (inter p) with Some _ => true | None => false end) al)) by (rewrite E; left; auto).
    apply filter_In in Hp as [Hp Hf]. destruct (dict_find dd (inter p)) eqn:F; [|discriminate].
    destruct (coef_find treatment (data_periods rows t) ne r p) as [Hq _]; [unfold dd in F; congruence|]. auto. }
  assert (Hdd : dd <> []).
  { intros K0. assert (In KConst (map fst dd)) as K1; [|rewrite K0 in K1; destruct K1].
    unfold dd, dict_of. rewrite dict_fold_keys. right. rewrite map_fst_combine.
    destruct (solve_ols_shape keq qr lstsq inv Hls _ _ _ _ _ _ _ Ho) as (_ & Hk & _).
    rewrite Hc, Hk, expand_coef_length. unfold mp_design. simpl length. simpl. auto. }
  destruct al as [|p0 pr]; [reflexivity|]. destruct dd as [|kv dd'] eqn:ED; [congruence|]. rewrite E. reflexivity.
Qed.

Lemma eff_at cfg rows y d t post ref covs dums absorb r j p :
  fit cfg rows y d t post ref covs dums absorb = Ok r -> NoDup (mp_post r) -> nth_error (mp_post r) j = Some p ->
  exists e, dict_get (mp_effects r) p = Some e /\ In e (mp_effects r) /\ pe_period e = p /\
    pe_effect e = nth (mp_index (data_periods rows t) (mp_ref r) j) (mp_coef r) NaN /\
    pe_se e = fsqrt (mp_vcov r (mp_index (data_periods rows t) (mp_ref r) j) (mp_index (data_periods rows t) (mp_ref r) j)).
Proof.
  intros H ND Hj. destruct (effects_list keq geq qr lstsq inv sf ppf _ _ _ _ _ _ _ _ _ _ _ H) as [EP _].
  destruct (mp_fit_inv keq geq qr lstsq inv sf ppf _ _ _ _ _ _ _ _ _ _ _ H) as (_ & _ & y' & covs' & nabs & o & idxs & _ & _ & _ & _ & _ & _ & Ei & Ee & _).
  destruct (dict_get (mp_effects r) p) as [e|] eqn:D.
  2:{ exfalso. apply dict_get_none in D. apply D. rewrite EP. apply nth_error_In in Hj. auto. }
  exists e. split; auto. apply dict_get_some in D as [D1 D2]. split; auto. split; auto.
  rewrite Ee, Ei, combine_idx in D1. rewrite map_map in D1. apply in_map_iff in D1 as (k & <- & Hk). cbn [fst snd] in *. simpl in D2.
  apply in_seq in Hk. assert (k = j).
  { apply (proj1 (NoDup_nth_error (mp_post r)) ND); [lia|]. rewrite Hj. rewrite <- D2. apply nth_error_nth'. lia. }
  subst k. unfold mp_effect. cbn [pe_effect pe_se]. auto.
Qed.

(* periods estimated as post periods but declared pre-treatment: the right coefficients, errors and covariances *)
Theorem mp_explicit cfg rows y d t post ref covs dums absorb r ne ps :
  fit cfg rows y d t post ref covs dums absorb = Ok r -> NoDup (mp_post r) ->
  let est := filter (fun p => zmem p (mp_post r)) ps in
  (est = [] -> pt_extract (pt_of_mp "treated" (data_periods rows t) ne r) (Some ps) = Err ValueError) /\
  (est <> [] -> exists p, pt_extract (pt_of_mp "treated" (data_periods rows t) ne r) (Some ps) = Ok p /\
     pp_n p = length est /\ length (pp_eff p) = length est /\ length (pp_ses p) = length est /\
     forall i, (i < length est)%nat -> exists e ki, In e (mp_effects r) /\ pe_period e = nth i est 0%Z /\
       nth i (pp_eff p) NaN = pe_effect e /\ nth i (pp_ses p) NaN = pe_se e /\
       nth_error (mp_post r) ki = Some (nth i est 0%Z) /\ fsqrt (pp_vcov p i i) = pe_se e /\
       forall j kj, (j < length est)%nat -> nth_error (mp_post r) kj = Some (nth j est 0%Z) ->
         pp_vcov p i j = mp_vcov r (mp_index (data_periods rows t) (mp_ref r) ki) (mp_index (data_periods rows t) (mp_ref r) kj)).
Proof.
  intros H ND est. destruct (mp_fit_inv keq geq qr lstsq inv sf ppf _ _ _ _ _ _ _ _ _ _ _ H) as (_ & S0 & y' & covs' & nabs & o & idxs & _ & Ho & Hc & _).
  destruct (solve_ols_shape keq qr lstsq inv Hls _ _ _ _ _ _ _ Ho) as (_ & Hk & _).
  set (all := data_periods rows t) in *.
  assert (LC : (mp_index all (mp_ref r) (length (mp_post r)) <= length (mp_coef r))%nat).
  { rewrite Hc, Hk, expand_coef_length. unfold mp_design, mp_index. rewrite !app_length, !map_length. simpl length. lia. }
  set (l := combine (mp_names "treated" all (mp_post r) (mp_ref r) ne) (mp_coef r)).
  assert (NDl : NoDup (map fst l)).
  { unfold l. rewrite map_fst_combine. apply NoDup_firstn. apply names_nodup; auto. apply data_periods_nodup. }
  assert (Ed : dict_of l = l) by (apply dict_of_nodup; auto).
  assert (At : forall j p, nth_error (mp_post r) j = Some p ->
    key_index l (inter p) = mp_index all (mp_ref r) j /\ dict_find l (inter p) = Some (nth (mp_index all (mp_ref r) j) (mp_coef r) NaN) /\
    (mp_index all (mp_ref r) j < length (mp_coef r))%nat).
  { intros j p Hj. assert (Hjl : (j < length (mp_post r))%nat) by (apply nth_error_Some; congruence).
    assert (Hi : (mp_index all (mp_ref r) j < length (mp_coef r))%nat) by (unfold mp_index in *; lia).
    destruct (key_index_nth l (mp_index all (mp_ref r) j) (inter p) (nth (mp_index all (mp_ref r) j) (mp_coef r) NaN) NDl) as [E1 E2]; auto.
    unfold l. apply nth_error_combine; [apply names_at; auto|]. apply nth_error_nth'. auto. }
  assert (Fd : forall p, (match dict_find l (inter p) with Some _ => true | None => false end) = zmem p (mp_post r)).
  { intros p. destruct (zmem p (mp_post r)) eqn:E.
    - apply zmem_In in E. apply In_nth_error in E as (j & Hj). destruct (At j p Hj) as (_ & -> & _). reflexivity.
    - destruct (dict_find l (inter p)) eqn:F; auto. exfalso. assert (Hq : In p (mp_post r)).
      { apply (coef_find "treated" all ne r p). fold l. rewrite Ed. congruence. }
      apply zmem_In in Hq. congruence. }
  assert (HE : filter (fun p => match dict_find l (inter p) with Some _ => true | None => false end) ps = est).
  { apply filter_ext. exact Fd. }
  assert (Hl : l <> []).
  { intros K0. assert (LL : length l = 0%nat) by (rewrite K0; reflexivity). unfold l in LL. rewrite combine_length in LL.
    assert (L2 : (2 <= length (mp_coef r))%nat) by (unfold mp_index in LC; lia).
    assert (L1 : (2 <= length (mp_names "treated" all (mp_post r) (mp_ref r) ne))%nat) by (unfold mp_names; rewrite app_length; simpl; lia). lia. }
  unfold pt_of_mp. cbn [pt_extract].
  set (m := {| pm_pre := mp_pre r |}). assert (Em : pm_coef m = l) by (unfold m; cbn [pm_coef]; fold all; fold l; exact Ed).
  split.
  - intros E0. unfold pt_extract_mp. rewrite Em, HE, E0. destruct ps; [reflexivity|]. destruct l; [congruence|]. reflexivity.
  - intros Hne. assert (Hps : ps <> []) by (intros K0; apply Hne; unfold est; rewrite K0; reflexivity).
    pose proof (extract_mp_ok m ps Hps) as X. rewrite Em in X. specialize (X Hl). cbv zeta in X. rewrite HE in X. specialize (X Hne). rewrite X. clear X.
    cbn [m pm_pre pm_coef pm_eff pm_vcov pm_avg_se].
    set (g := fun p => match option_map (fun e : period_effect => (pe_effect e, pe_se e)) (dict_get (mp_effects r) p) with Some e => snd e | None => mp_avg_se r end). set (ses := map g est). set (ix := map (fun p => key_index l (inter p)) est).
    assert (IN : forall i, (i < length est)%nat -> exists k, nth_error (mp_post r) k = Some (nth i est 0%Z)).
    { intros i Hi. apply In_nth_error. apply zmem_In. assert (Q : In (nth i est 0%Z) est) by (apply nth_In; auto). unfold est in Q at 2. apply filter_In in Q. apply Q. }
    assert (IX : forall i k, (i < length est)%nat -> nth_error (mp_post r) k = Some (nth i est 0%Z) -> nth i ix 0%nat = mp_index all (mp_ref r) k).
    { intros i k Hi Hkk. unfold ix. rewrite (nth_indep _ 0%nat (key_index l (inter 0%Z))) by (rewrite map_length; auto).
      rewrite (map_nth (fun p => key_index l (inter p))). apply (At k). auto. }
    assert (MX : (list_max_nat ix < length (mp_coef r))%nat).
    { assert (A : forall x, In x ix -> (x < length (mp_coef r))%nat).
      { intros x Hx. destruct (In_nth _ _ 0%nat Hx) as (i & Hi & <-). unfold ix in Hi. rewrite map_length in Hi. destruct (IN i Hi) as (k & Hkk).
        rewrite (IX i k Hi Hkk). destruct (At k _ Hkk) as (_ & _ & ?); auto. }
      assert (0 < length (mp_coef r))%nat by (unfold mp_index in LC; lia).
      clear - A H0. unfold list_max_nat. induction ix as [|x ix IH]; simpl; [auto|]. pose proof (A x (or_introl eq_refl)).
      assert (fold_right Nat.max 0 ix < length (mp_coef r))%nat by (apply IH; intros; apply A; right; auto). lia. }
    eexists. split; [reflexivity|]. cbn [pp_n pp_eff pp_ses pp_vcov]. rewrite (proj2 (Nat.ltb_lt _ _) MX).
    split; auto. split; [apply map_length|]. split; [unfold ses; apply map_length|].
    intros i Hi. destruct (IN i Hi) as (k & Hkk). destruct (eff_at _ _ _ _ _ _ _ _ _ _ _ _ _ H ND Hkk) as (e & D & He & Hpe & Heff & Hse).
    exists e, k. split; auto. split; auto. split; [|split; [|split; [auto|split]]].
    + rewrite (nth_indep _ NaN ((fun p => match dict_find l (inter p) with Some v => v | None => NaN end) 0%Z)) by (rewrite map_length; auto).
      rewrite (map_nth (fun p => match dict_find l (inter p) with Some v => v | None => NaN end)). destruct (At k _ Hkk) as (_ & -> & _). rewrite Heff. reflexivity.
    + unfold ses. rewrite (nth_indep _ NaN (g 0%Z)) by (rewrite map_length; auto). rewrite (map_nth g). unfold g. rewrite D. reflexivity.
    + rewrite (IX i k Hi Hkk). symmetry. exact Hse.
    + intros j kj Hj Hkj. rewrite (IX i k Hi Hkk), (IX j kj Hj Hkj). reflexivity.
Qed.
End Mp.

(* ---- event studies ---- *)
Lemma sort_len l : length (es_sort l) = length l.
Proof. induction l as [|e l IH]; simpl; auto. rewrite insert_len, IH. reflexivity. Qed.
Theorem es_extract l p : pt_extract_es l = Ok p -> exists kept, es_sorted kept /\
  (forall e, In e kept <-> In e l /\ key_neg (ee_t e) = true /\ (0 < ee_n e)%nat /\ ffinite (ee_se e) = true) /\
  length kept = length (filter (fun e => key_neg (ee_t e) && Nat.ltb 0 (ee_n e) && ffinite (ee_se e)) l) /\
  pp_n p = length kept /\ pp_eff p = map ee_eff kept /\ pp_ses p = map ee_se kept /\
  (forall i j, pp_vcov p i j = if Nat.eqb i j then fmul (nth i (map ee_se kept) NaN) (nth i (map ee_se kept) NaN) else Fin 0).
Proof.
  unfold pt_extract_es. cbv zeta. set (kept := es_sort _). intros H. exists kept.
  assert (E : {| pp_eff := map ee_eff kept; pp_ses := map ee_se kept; pp_vcov := diag_sq (map ee_se kept); pp_n := length kept |} = p).
  { destruct kept; [discriminate|]. injection H as <-. reflexivity. }
  rewrite <- E. cbn [pp_eff pp_ses pp_vcov pp_n]. split; [apply sort_sorted|]. split.
  - intros e. unfold kept. rewrite sort_in, filter_In, !Bool.andb_true_iff, Nat.ltb_lt. tauto.
  - split; [unfold kept; apply sort_len|]. repeat split; auto.
Qed.
Theorem es_extract_fails l : pt_extract_es l = Err ValueError <->
  forall e, In e l -> ~ (key_neg (ee_t e) = true /\ (0 < ee_n e)%nat /\ ffinite (ee_se e) = true).
Proof.
  unfold pt_extract_es. cbv zeta. set (kept := es_sort _).
  assert (IN : forall e, In e kept <-> In e l /\ key_neg (ee_t e) = true /\ (0 < ee_n e)%nat /\ ffinite (ee_se e) = true).
  { intros e. unfold kept. rewrite sort_in, filter_In, !Bool.andb_true_iff, Nat.ltb_lt. tauto. }
  destruct kept as [|e k]; split; intros H; try discriminate; auto.
  - intros e He K. apply (proj2 (IN e)). tauto.
  - exfalso. destruct (proj1 (IN e) (or_introl eq_refl)) as [A B]. exact (H e A B).
Qed.

Section Facts.
Variable chi2_ppf : R -> nat -> R.
Variable ncx2_sf ncx2_cdf : R -> nat -> R -> R.
Variable norm_ppf : R -> R.
Variable brentq : (R -> R) -> R -> R -> option R.
Variable minv : nat -> (nat -> nat -> R) -> option (nat -> nat -> R).
Variable mpinv : nat -> (nat -> nat -> R) -> nat -> nat -> R.
Notation fit := (pt_fit chi2_ppf ncx2_sf ncx2_cdf norm_ppf brentq minv mpinv).
Notation mdv := (pt_mdv chi2_ppf ncx2_sf norm_ppf brentq minv mpinv).
Notation power cfg M w V := (fst (fst (fst (pt_power chi2_ppf ncx2_cdf minv mpinv cfg M w V)))).
Notation vq := (vquad minv mpinv).
Notation res_at := (res_power_at ncx2_cdf minv mpinv).
Notation sens := (pt_sensitivity chi2_ppf ncx2_sf ncx2_cdf norm_ppf brentq minv mpinv).

(* a missing variance is reported as a powerless test, not as an error *)
Theorem nan_variance cfg w V M i j : (i < length w)%nat -> (j < length w)%nat -> ffinite (V i j) = false ->
  mdv cfg w V = PInf /\ power cfg M w V = pc_alpha cfg.
Proof.
  intros Hi Hj HV. assert (A : forall u, length u = length w -> vq (length u) V u = NaN).
  { intros u Hu. unfold vquad. replace (all_fin (length u) V) with false; auto. symmetry. unfold all_fin.
    destruct (forallb _ _) eqn:E; auto. rewrite forallb_forall in E. specialize (E i). rewrite forallb_forall in E by (apply in_seq; lia).
    rewrite E in HV by (apply in_seq; lia). discriminate. }
  split.
  - unfold pt_mdv. rewrite A by auto. destruct (Rleb 1000 _); reflexivity.
  - unfold pt_power. cbn [fst]. destruct M as [m| | |]; auto. rewrite <- (map_length (Rmult m) w) at 1. rewrite A by apply map_length. reflexivity.
Qed.

Theorem sensitivity_verdict cfg r pre x m s : fit cfg r None pre = Ok x -> pr_mdv x = Fin m -> np_max (pr_ses x) = Fin s -> 0 < s ->
  exists v, sens cfg r pre = Ok (Fin m, Fin s, Fin (m / s), v) /\
    (v = Sensitive <-> m < s) /\ (v = Moderate <-> s <= m < 2 * s) /\ (v = LowPower <-> 2 * s <= m) /\
    (res_informative x = true <-> v = Sensitive \/ v = Moderate).
Proof.
  intros H Em Es Hs. unfold pt_sensitivity. rewrite H. cbn [bind]. rewrite Em, Es. cbn [ffinite].
  assert (E0 : fgt (Fin s) (Fin 0) = true) by (apply Rltb_true; auto). rewrite E0. cbn [andb].
  assert (E1 : fdiv (Fin m) (Fin s) = Fin (m / s)). { unfold fdiv. destruct (Req_EM_T s 0); [lra|auto]. }
  rewrite E1. cbn [flt]. eexists. split; [reflexivity|].
  assert (D : forall k, m / s < k <-> m < k * s).
  { intros k. split; intros K. - apply (Rmult_lt_compat_r s) in K; auto. replace (m / s * s) with m in K by (field; lra). exact K.
    - apply (Rmult_lt_reg_r s); auto. replace (m / s * s) with m by (field; lra). exact K. }
  assert (I : res_informative x = Rltb m (2 * s)).
  { unfold res_informative. rewrite Em. destruct (pr_ses x) eqn:E; [discriminate|]. rewrite Es. reflexivity. }
  rewrite I, Rltb_true. pose proof (D 1) as D1. pose proof (D 2) as D2. rewrite Rmult_1_l in D1.
  destruct (Rltb (m / s) 1) eqn:B1; [apply Rltb_true in B1|apply Rltb_false in B1; destruct (Rltb (m / s) 2) eqn:B2; [apply Rltb_true in B2|apply Rltb_false in B2]].
  - apply D1 in B1. repeat split; intros; try discriminate; try lra; auto.
  - apply D2 in B2. assert (s <= m) by (destruct (Rle_lt_dec s m); auto; apply D1 in r0; lra). repeat split; intros; try discriminate; try lra; auto.
  - assert (2 * s <= m) by (destruct (Rle_lt_dec (2 * s) m); auto; apply D2 in r0; lra).
    repeat split; intros; try discriminate; try lra; auto. destruct H1; discriminate.
Qed.

Hypothesis Hx : ncx2_ok chi2_ppf ncx2_sf ncx2_cdf.
Hypothesis Hm : minv_ok minv.

Definition exc_es : pt_results := PCS (Some [{| ee_t := Some (-2)%Z; ee_eff := Fin 0; ee_se := Fin 1; ee_n := 5 |};
                                            {| ee_t := Some (-1)%Z; ee_eff := Fin 0; ee_se := Fin 2; ee_n := 5 |}]).
Definition exc_cfg a t : pt_cfg := {| pc_alpha := a; pc_target := t; pc_type := "custom"; pc_weights := Some [1; 0] |}.
Definition exc_p : pre_params := {| pp_eff := [Fin 0; Fin 0]; pp_ses := [Fin 1; Fin 2]; pp_vcov := diag_sq [Fin 1; Fin 2]; pp_n := 2 |}.
Lemma exc_extract : pt_extract exc_es None = Ok exc_p.
Proof. reflexivity. Qed.
Lemma exc_w a t : pt_weights (exc_cfg a t) 2 = Ok [1; 0].
Proof.
  unfold pt_weights, pt_raw. simpl. unfold normalise, l2. simpl sumf. f_equal.
  assert (E : sqrt (sumf (fun x : R => x * x) [1; 0]) = 1) by (unfold sumf; simpl; replace (1 * 1 + (0 * 0 + 0)) with 1 by ring; apply sqrt_1).
  cbn [sumf] in *. rewrite E. replace (Rltb 0 1) with true by (symmetry; apply Rltb_true; lra). simpl. f_equal; [|f_equal]; field.
Qed.
Lemma exc_equal_weights : res_weights "custom" 2 = [1 / sqrt 2; 1 / sqrt 2].
Proof.
  unfold res_weights. simpl. unfold normalise, l2.
  assert (E : sumf (fun x : R => x * x) [1; 1] = 2) by (unfold sumf; simpl; ring). rewrite E.
  replace (Rltb 0 (sqrt 2)) with true by (symmetry; apply Rltb_true; apply sqrt_lt_R0; lra). reflexivity.
Qed.
Lemma exc_quad w0 w1 : vq 2 (diag_sq [Fin 1; Fin 2]) [w0; w1] = Fin (w0 * w0 + w1 * w1 / 4).
Proof.
  pose proof (vquad_diag minv mpinv Hm [1; 2] [w0; w1] eq_refl) as E. cbn [length map] in E. rewrite E.
  - f_equal. unfold sumf; simpl. field.
  - intros s [<-|[<-|[]]]; lra.
Qed.
(* a custom pattern: the results' own power_at uses equal weights and disagrees with refitting, for every M *)
Theorem custom_power_at_refuted a t M : 0 < a < 1 -> M <> 0 ->
  exists x x', fit (exc_cfg a t) exc_es None None = Ok x /\ fit (exc_cfg a t) exc_es (Some M) None = Ok x' /\
    exists p, res_at x M = Fin p /\ p < pr_power x'.
Proof.
  intros Ha HM. unfold pt_fit. rewrite exc_extract. cbn [bind]. change (pp_n exc_p) with 2%nat. rewrite exc_w. cbn [bind].
  destruct (pt_power _ _ _ _ _ _ _ _) as [[[pw nc] st] cv] eqn:E0.
  destruct (pt_power _ _ _ _ (exc_cfg a t) (Fin M) _ _) as [[[pw' nc'] st'] cv'] eqn:E1.
  do 2 eexists. split; [reflexivity|]. split; [reflexivity|].
  assert (Ecv : cv = chi2_ppf (1 - a) 2) by (unfold pt_power in E0; injection E0 as _ _ _ <-; reflexivity).
  cbn [pr_power]. assert (Epw : pw' = power (exc_cfg a t) (Fin M) [1; 0] (pp_vcov exc_p)) by (rewrite E1; reflexivity).
  assert (HMM : 0 < M * M) by nra.
  assert (S2 : 1 / sqrt 2 * (1 / sqrt 2) = 1 / 2).
  { replace (1 / sqrt 2 * (1 / sqrt 2)) with (1 / (sqrt 2 * sqrt 2)) by (field; apply Rgt_not_eq, sqrt_lt_R0; lra). rewrite sqrt_sqrt by lra. reflexivity. }
  exists (ncx2_sf (chi2_ppf (1 - a) 2) 2 (M * M * (5 / 8))). split.
  - unfold res_power_at. cbn [pr_n pr_vcov pr_type pr_cv exc_p pp_n pp_vcov pc_type exc_cfg]. rewrite exc_equal_weights, exc_quad.
    rewrite S2. replace (1 / 2 + 1 / 2 / 4) with (5 / 8) by field. rewrite (x_cdf _ _ _ Hx) by nra. rewrite Ecv. f_equal. ring.
  - rewrite Epw. rewrite (power_nc chi2_ppf ncx2_sf ncx2_cdf minv mpinv Hx (exc_cfg a t) M [1; 0] (pp_vcov exc_p) 1).
    + apply (x_mono _ _ _ Hx); [apply (x_cv _ _ _ Hx); [exact Ha|simpl; lia]|simpl; lia|split; nra].
    + exact Ha.
    + discriminate.
    + cbn [length exc_p pp_vcov]. rewrite exc_quad. f_equal. field.
    + nra.
Qed.
End Facts.

(* ---- concrete cases ---- *)
Definition toy_fit := pt_fit toy_chi2_ppf toy_ncx2_sf toy_ncx2_cdf (fun q => q) sup_brentq gs_minv (fun _ _ _ _ => 0).
Definition toy_mdv := pt_mdv toy_chi2_ppf toy_ncx2_sf (fun q => q) sup_brentq gs_minv (fun _ _ _ _ => 0).
Definition one_cfg : pt_cfg := {| pc_alpha := 1/20; pc_target := 4/5; pc_type := "constant"; pc_weights := None |}.
Theorem toy_mdv_value : toy_mdv one_cfg [1] (diag_sq [Fin 2]) = Fin (sqrt 300).
Proof.
  assert (Q : vquad gs_minv (fun _ _ _ _ => 0) 1 (diag_sq [Fin 2]) [1] = Fin (1 / 4)).
  { pose proof (vquad_diag gs_minv (fun _ _ _ _ => 0) gs_minv_ok [2] [1] eq_refl) as E. cbn [length map] in E. rewrite E.
    - f_equal. unfold sumf; simpl. field.
    - intros s [<-|[]]; lra. }
  assert (Sz : size_ok one_cfg) by (unfold size_ok; simpl; lra).
  destruct (mdv_finite_iff toy_chi2_ppf toy_ncx2_sf toy_ncx2_cdf (fun q => q) sup_brentq gs_minv (fun _ _ _ _ => 0) toy_ncx2_ok sup_brentq_ok one_cfg [1] (diag_sq [Fin 2]) Sz ltac:(discriminate)) as [F _].
  { simpl; lra. }
  destruct (proj2 F) as (m & Em).
  { split; [exists (1/4); split; [exact Q|lra]|]. simpl. unfold toy_ncx2_sf, toy_chi2_ppf. apply (Rmult_le_reg_r (531)); [lra|].
    replace ((1 + 512) / (1 + 512 + (1 - 1 / 20) / (1 - (1 - 1 / 20))) * 531) with (513 * 531 / 532) by field. lra. }
  change (toy_mdv one_cfg [1] (diag_sq [Fin 2]) = Fin m) in Em. rewrite Em. f_equal.
  destruct (mdv_attains toy_chi2_ppf toy_ncx2_sf toy_ncx2_cdf (fun q => q) sup_brentq gs_minv (fun _ _ _ _ => 0) toy_ncx2_ok sup_brentq_ok one_cfg [1] (diag_sq [Fin 2]) m Sz ltac:(discriminate)) as (M0 & P & _); [simpl; lra|exact Em|].
  rewrite (power_nc toy_chi2_ppf toy_ncx2_sf toy_ncx2_cdf gs_minv (fun _ _ _ _ => 0) toy_ncx2_ok one_cfg m [1] (diag_sq [Fin 2]) (1/4) Sz ltac:(discriminate) Q) in P by (pose proof (sq_nonneg m); nra).
  simpl in P. unfold toy_ncx2_sf, toy_chi2_ppf in P. pose proof (sq_nonneg m) as Hsq.
  replace ((1 - 1 / 20) / (1 - (1 - 1 / 20))) with 19 in P by field.
  assert (E : m * m = 300).
  { apply (f_equal (fun z => z * (1 + m * m * (1 / 4) + 19))) in P. unfold Rdiv in P. rewrite Rmult_assoc, Rinv_l in P by nra. lra. }
  symmetry. apply sqrt_lem_1; nra.
Qed.
Theorem custom_case : exists x x', toy_fit (exc_cfg (1/20) (4/5)) exc_es None None = Ok x /\ toy_fit (exc_cfg (1/20) (4/5)) exc_es (Some 1) None = Ok x' /\
    exists p, res_power_at toy_ncx2_cdf gs_minv (fun _ _ _ _ => 0) x 1 = Fin p /\ p < pr_power x'.
Proof.
  apply (custom_power_at_refuted toy_chi2_ppf toy_ncx2_sf toy_ncx2_cdf (fun q => q) sup_brentq gs_minv (fun _ _ _ _ => 0) toy_ncx2_ok gs_minv_ok); lra.
Qed.
Theorem mp_case robust y : exists r, exm_fit (exm_cfg robust None) (seq 0 12) y exm_d exm_t None None [] [] [] = Ok r /\
  pt_extract (pt_of_mp "treated" (data_periods (seq 0 12) exm_t) 0 r) None = Err ValueError /\
  exists p, pt_extract (pt_of_mp "treated" (data_periods (seq 0 12) exm_t) 0 r) (Some [1]%Z) = Ok p /\ pp_n p = 1%nat.
Proof.
  destruct (exm_fit_ok robust y) as (r & H & _ & E & _). exists r. split; auto. split.
  - apply (mp_default_fails Nat.eq_dec Nat.eq_dec _ _ _ _ _ (@gs_ok nat) _ _ _ _ _ _ _ _ _ _ _ _ _ H).
  - destruct (mp_explicit Nat.eq_dec Nat.eq_dec _ _ _ _ _ (@gs_ok nat) _ _ _ _ _ _ _ _ _ _ _ 0%nat [1]%Z H) as [_ P].
    { rewrite E. repeat constructor; simpl; intuition discriminate. }
    rewrite E in P. destruct P as (p & Hp & Hn & _); [discriminate|]. eauto.
Qed.

(* More exact descriptions of parts of fitted results whose wrong versions other theorems do not notice. *)
From Coq Require Import Reals Lra Lia.
From Verif Require Import Prelude Flt Stats_model Linalg_model Did_model Multi_model Multi_proofs Bacon_model Staggered_model Staggered_thms Sun_model Sun_proofs Sun_thms Sun_boot Triple_model Triple_fit.
From Coq Require Import Arith ZArith String List.
Import ListNotations.
Open Scope R_scope.

(* staggered_aggregation.py:419-434: the injected reference period has effect 0 and undefined inference *)
Theorem es_reference_injected sf ppf cfg bal effects :
  cs_universal cfg = true -> balanced_effects bal effects <> [] ->
  (forall e, In e (balanced_effects bal effects) -> rel_time e <> Some (-1 - cs_anticipation cfg)%Z) ->
  In (Some (-1 - cs_anticipation cfg)%Z,
      {| ef_eff := Fin 0; ef_se := NaN; ef_t := NaN; ef_p := NaN; ef_ci := (NaN, NaN); ef_n := 0 |})
     (agg_event_study sf ppf cfg bal effects).
Proof.
  intros Hu Hne Hno. unfold agg_event_study. set (l := balanced_effects bal effects) in *. rewrite Hu.
  set (es := map _ (rel_keys l)).
  assert (N : nonempty es = true).
  { destruct l as [|e l0] eqn:El; [congruence|]. assert (X : In (rel_time e) (rel_keys (e :: l0))) by (apply rel_keys_In; exists e; split; [left|]; reflexivity).
    unfold es. destruct (rel_keys (e :: l0)); [destruct X|reflexivity]. }
  assert (F : existsb (fun p => oz_eqb (fst p) (Some (-1 - cs_anticipation cfg)%Z)) es = false).
  { apply Bool.not_true_iff_false. intros X. apply existsb_exists in X as (p & Hp & E). unfold es in Hp. apply in_map_iff in Hp as (k & <- & Hk).
    apply rel_keys_In in Hk as (c & Hc & <-). cbn [fst] in E. apply (Hno c Hc). unfold oz_eqb in E. destruct (rel_time c); [|discriminate]. apply Z.eqb_eq in E. congruence. }
  rewrite N, F. cbn [andb negb]. apply in_or_app. right. left. reflexivity.
Qed.

(* staggered.py:734-747: with bootstrap weights the reported inference is the bootstrap's *)
Section Boot.
Context {I : Type}.
Variable qr : list Z -> list (Z -> R) -> list nat.
Variable lstsq : list Z -> list (Z -> R) -> (Z -> R) -> list R.
Variable inv : list Z -> list (Z -> R) -> option (nat -> nat -> R).
Variable logit : list Z -> list Z -> list (Z -> R) -> option (Z -> R).
Variable sf : option Z -> fl -> fl.
Variable ppf : option Z -> R -> R.
Variables (rows : list I) (u t : I -> Z) (g : I -> coh) (y : I -> option R) (covs : list (I -> option R)).
Theorem cs_bootstrap_reported cfg agg bal ws r :
  cs_fit qr lstsq inv logit sf ppf rows u t g y covs cfg agg bal ws = Ok r ->
  match cr_boot r with
  | Some b => ws <> [] /\ cr_se r = bs_se (cb_overall b) /\ cr_t r = cs_t (cr_att r) (bs_se (cb_overall b)) /\
              cr_p r = bs_p (cb_overall b) /\ cr_ci r = bs_ci (cb_overall b)
  | None => ws = [] /\ cr_ci r = u_ci ppf (cr_att r) (cr_se r) (cs_alpha cfg) None
  end.
Proof.
  unfold cs_fit. destruct (Nat.eqb _ 0); [discriminate|]. destruct (cs_duplicates _ _ _); [discriminate|].
  destruct (all_effects _ _ _ _ _ _ _ _ _ _ _) as [l|]; [|discriminate]. cbn [bind]. destruct l as [|e0 l]; [discriminate|].
  destruct (agg_simple _ _ _ _) as [att se]. intros H. injection H as <-. cbn. destruct ws as [|w ws]; cbn; repeat split; discriminate.
Qed.
End Boot.

(* sun_abraham.py:655-663: the weight stored with a cohort effect is the one in cohort_weights, 0 when there is none *)
Section Sun.
Context {I : Type}.
Variable qr : list I -> list (I -> R) -> list nat.
Variable lstsq : list I -> list (I -> R) -> (I -> R) -> list R.
Variable inv : list I -> list (I -> R) -> option (nat -> nat -> R).
Variable pinv : list I -> list (I -> R) -> nat -> nat -> R.
Variable sf : option Z -> fl -> fl.
Variable ppf : option Z -> R -> R.
Variables (u t : I -> Z) (g : I -> coh) (y : I -> R) (covs : list (I -> R)) (cluster : option (I -> Z)).
Notation fit := (sa_fit qr lstsq inv pinv sf ppf u t g y covs cluster).

Lemma first_of_nodup {A B} (key : A -> B) (eqb : B -> B -> bool) l x : (forall a b, eqb a b = true <-> a = b) -> NoDup (map key l) -> In x l ->
  filter (fun p => eqb (key p) (key x)) l = [x].
Proof.
  intros He. induction l as [|a l IH]; intros Hn Hx; [destruct Hx|]. inversion Hn as [|? ? N1 N2]; subst. cbn [filter].
  destruct Hx as [->|Hx].
  - rewrite (proj2 (He (key x) (key x)) eq_refl). f_equal. 
    assert (X : forall p, In p l -> eqb (key p) (key x) = false).
    { intros p Hp. apply Bool.not_true_iff_false. rewrite He. intros E. apply N1. rewrite <- E. apply in_map; auto. }
    clear - X. induction l as [|p l IH]; auto. cbn. rewrite X by (left; auto). apply IH. intros; apply X; right; auto.
  - destruct (eqb (key a) (key x)) eqn:E; [|apply IH; auto]. exfalso. apply He in E. apply N1. rewrite E. apply in_map; auto.
Qed.

Lemma iw_keys cfg groups rels reg rows : NoDup rels -> NoDup (map fst (sa_iw sf ppf u g cfg groups rels reg rows)).
Proof.
  intros H. unfold sa_iw. induction rels as [|e rels IH]; [constructor|]. inversion H; subst. cbn [flat_map].
  assert (S : forall x, In x (map fst (sa_iw sf ppf u g cfg groups rels reg rows)) -> In x rels).
  { intros x Hx. apply in_map_iff in Hx as (p & <- & Hp). unfold sa_iw in Hp. apply in_flat_map in Hp as (e' & He & Hp).
    destruct (sa_weights u g groups reg rows e'); [destruct Hp|]. destruct Hp as [<-|[]]. exact He. }
  destruct (sa_weights u g groups reg rows e); [apply IH; auto|]. cbn [app map]. constructor; [|apply IH; auto]. intros X. apply S in X. auto.
Qed.
Lemma weights_keys groups reg rows e : NoDup groups -> NoDup (map fst (sa_weights u g groups reg rows e)).
Proof.
  intros H. unfold sa_weights. destruct (Req_EM_T _ 0); [constructor|]. rewrite map_map. cbn. rewrite map_id. apply NoDup_filter; auto.
Qed.

Theorem sa_cohort_weight cfg rows r gr e x s w : fit cfg rows = Ok r ->
  In ((gr, e), (x, s, w)) (sa_coh_effects r) ->
  (forall ws, In (e, ws) (sa_cweights r) -> (forall w', In (gr, w') ws -> w = w') /\ (~ In gr (map fst ws) -> w = 0)) /\
  (~ In e (map fst (sa_cweights r)) -> w = 0).
Proof.
  intros H Hin. destruct (sa_fit_inv qr lstsq inv pinv sf ppf u t g y covs cluster cfg rows r H) as (_ & _ & reg & _ & Hes).
  cbv zeta in Hes. destruct Hes as (_ & HW & _ & _ & _ & _ & _ & _ & _ & _ & _ & HE).
  set (es := sa_iw sf ppf u g cfg (sa_groups g rows) (sa_rel_periods t g cfg rows) reg rows) in *.
  rewrite HE in Hin. apply in_map_iff in Hin as (k & E & Hk). injection E as -> _ _ <-.
  assert (Nk : NoDup (map fst es)) by (apply iw_keys, rel_periods_NoDup).
  rewrite HW. split.
  - intros ws Hw. apply in_map_iff in Hw as (p & E & Hp). injection E as <- <-. unfold sa_weight_of. cbn [fst snd].
    rewrite (first_of_nodup fst Z.eqb es p Z.eqb_eq Nk Hp).
    assert (Np : NoDup (map fst (fst (snd p)))).
    { unfold es, sa_iw in Hp. apply in_flat_map in Hp as (e' & He & Hp).
      pose proof (weights_keys (sa_groups g rows) reg rows e' (cs_groups_NoDup rows g)) as X.
      destruct (sa_weights u g (sa_groups g rows) reg rows e'); [destruct Hp|]. destruct Hp as [<-|[]]. exact X. }
    assert (Ce : forall a b, c_eqb a b = true <-> a = b).
    { intros a b. unfold c_eqb. destruct (coh_eq_dec a b); split; congruence. }
    split.
    + intros w' Hw. pose proof (first_of_nodup fst c_eqb (fst (snd p)) (gr, w') Ce Np Hw) as X. cbn [fst] in X. rewrite X. reflexivity.
    + intros Hno. destruct (filter (fun gw => c_eqb (fst gw) gr) (fst (snd p))) as [|q l] eqn:F; auto. exfalso. apply Hno.
      assert (Hq : In q (filter (fun gw => c_eqb (fst gw) gr) (fst (snd p)))) by (rewrite F; left; auto). apply filter_In in Hq as [Hq E]. apply Ce in E. rewrite <- E. apply in_map; auto.
  - intros Hno. unfold sa_weight_of. cbn [fst snd]. destruct (filter (fun p => Z.eqb (fst p) e) es) as [|q l] eqn:F; auto. exfalso. apply Hno.
    assert (Hq : In q (filter (fun p => Z.eqb (fst p) e) es)) by (rewrite F; left; auto). apply filter_In in Hq as [Hq E]. apply Z.eqb_eq in E.
    rewrite map_map. cbn. rewrite <- E. apply (in_map (fun x => fst x) es q Hq).
Qed.
End Sun.

(* sun_abraham.py:1064-1133: the event-study distribution behind each reported effect *)
Section SunBoot2.
Context {I : Type}.
Variable qr : list I -> list (I -> R) -> list nat.
Variable lstsq : list I -> list (I -> R) -> (I -> R) -> list R.
Variable inv : list I -> list (I -> R) -> option (nat -> nat -> R).
Variable pinv : list I -> list (I -> R) -> nat -> nat -> R.
Variable qrb : list (Z * I) -> list (Z * I -> R) -> list nat.
Variable lstsqb : list (Z * I) -> list (Z * I -> R) -> (Z * I -> R) -> list R.
Variable invb : list (Z * I) -> list (Z * I -> R) -> option (nat -> nat -> R).
Variable pinvb : list (Z * I) -> list (Z * I -> R) -> nat -> nat -> R.
Variable sf : option Z -> fl -> fl.
Variable ppf : option Z -> R -> R.
Variables (label : I -> nat) (u t : I -> Z) (g : I -> coh) (y : I -> R) (covs : list (I -> R)) (cluster : option (I -> Z)).
Notation fit := (sa_fit qr lstsq inv pinv sf ppf u t g y covs cluster).
Notation bfit := (sa_fit_boot qr lstsq inv pinv qrb lstsqb invb pinvb sf ppf label u t g y covs cluster).
Notation est := (sa_estimate qrb lstsqb invb pinvb sf ppf fst (lift t) (lift g) (lift y) (map lift covs) (option_map lift cluster)).

Theorem sa_boot_event_study cfg rows draws s r e ef : bfit cfg rows draws = Ok s -> fit cfg rows = Ok r -> In (e, ef) (sa_es r) ->
  exists dist, length dist = length draws /\
    (let st := sa_boot_stats (sa_alpha cfg) (se_eff ef) dist in In (e, (se_eff ef, sa_t (se_eff ef) (bs_se st), st)) (sb_es s)) /\
    forall b d, nth_error draws b = Some d -> exists smp, boot_sample label u (sa_sample g cfg rows) d = Some smp /\
      match est cfg (sa_rgroups r) (sa_rel_periods t g cfg rows) smp smp with
      | Ok (_, es, _) => (forall w ef', In (e, (w, ef')) es -> nth_error dist b = Some (se_eff ef')) /\
                         (~ In e (map fst es) -> nth_error dist b = Some (se_eff ef))
      | Err _ => nth_error dist b = Some (se_eff ef)
      end.
Proof.
  intros H Hr He. unfold sa_fit_boot in H. rewrite Hr in H. cbn [bind] in H. set (orig := fun e : Z => match filter _ (sa_es r) with p :: _ => _ | [] => _ end) in H.
  assert (Ho : orig e = se_eff ef).
  { assert (N : NoDup (map fst (sa_es r))).
    { destruct (sa_fit_inv qr lstsq inv pinv sf ppf u t g y covs cluster cfg rows r Hr) as (_ & _ & reg & _ & Hes). cbv zeta in Hes. destruct Hes as (-> & _).
      rewrite map_map. cbn. apply (iw_keys sf ppf u g cfg (sa_groups g rows) (sa_rel_periods t g cfg rows) reg rows), rel_periods_NoDup. }
    unfold orig. pose proof (first_of_nodup fst Z.eqb (sa_es r) (e, ef) Z.eqb_eq N He) as X. cbn [fst] in X. rewrite X. reflexivity. }
  destruct (sa_boot_iters _ draws) as [reps|] eqn:Ei; [|discriminate H]. cbn [bind] in H. injection H as <-. cbn [sb_es].
  destruct (iters_forall _ _ _ Ei) as [HL HN]. exists (map (fun x => fst x e) reps). split; [rewrite map_length; exact HL|]. split.
  - cbv zeta. apply in_map_iff. exists (e, ef). split; [reflexivity|exact He].
  - intros b d Hb. destruct (HN b d Hb) as (x & Hx & Hi). unfold sa_boot_iter in Hi. destruct (boot_sample label u (sa_sample g cfg rows) d) as [smp|]; [|discriminate].
    exists smp. split; [reflexivity|]. rewrite nth_error_map, Hx. cbn [option_map].
    destruct (est cfg (sa_rgroups r) (sa_rel_periods t g cfg rows) smp smp) as [[[reg es] [att se]]|ex] eqn:Ee.
    + injection Hi as <-. cbn [sa_replicate fst].
      assert (N : NoDup (map fst es)).
      { unfold sa_estimate in Ee. destruct (sa_saturated _ _ _ _ _ _ _ _ _ _ _ _ _ _) as [rg|]; [|discriminate]. cbn [bind] in Ee. injection Ee as _ <- _.
        apply iw_keys, rel_periods_NoDup. }
      split.
      * intros w ef' Hin. f_equal.
        assert (N' : NoDup (map fst (map (fun p : Z * (list (coh * R) * sa_eff) => (fst p, se_eff (snd (snd p)))) es))) by (rewrite map_map; exact N).
        assert (Hin' : In (e, se_eff ef') (map (fun p : Z * (list (coh * R) * sa_eff) => (fst p, se_eff (snd (snd p)))) es)) by (apply in_map_iff; exists (e, (w, ef')); auto).
        pose proof (first_of_nodup fst Z.eqb _ (e, se_eff ef') Z.eqb_eq N' Hin') as X. cbn [fst] in X. rewrite X. reflexivity.
      * intros Hno. f_equal. rewrite <- Ho. destruct (filter _ (map _ es)) as [|q l] eqn:F; auto. exfalso. apply Hno.
        match type of F with filter ?p ?L = _ => assert (Hq : In q (filter p L)) by (rewrite F; left; auto) end.
        apply filter_In in Hq as [Hq E]. apply Z.eqb_eq in E. apply in_map_iff in Hq as (p & <- & Hp). cbn [fst] in E. rewrite <- E. apply in_map; auto.
    + rewrite <- Ho. destruct ex; try discriminate; injection Hi as <-; reflexivity.
Qed.
End SunBoot2.

(* triple_diff.py:702-717: the eight cell means, in the order of the code *)
Section Triple.
Context {I K : Type} (keq : forall x y : K, {x = y} + {x <> y}).
Variable qr : list I -> list (I -> R) -> list nat.
Variable lstsq : list I -> list (I -> R) -> (I -> R) -> list R.
Variable inv : list I -> list (I -> R) -> option (nat -> nat -> R).
Variable pinv : list I -> list (I -> R) -> nat -> nat -> R.
Variable sf : option Z -> fl -> fl.
Variable ppf : option Z -> R -> R.
Variable logit : list I -> list (I -> R) -> (I -> R) -> option (I -> R).
Theorem ddd_means_reported cfg cl rows (y G P T : I -> option R) covs r :
  ddd_fit keq qr lstsq inv pinv sf ppf logit cfg cl rows y G P T covs = Ok r ->
  let mean gv pv tv := meanf (fun i => oR (y i)) (filter (fun i => Reqb (oR (G i)) gv && Reqb (oR (P i)) pv && Reqb (oR (T i)) tv) rows) in
  let count gv pv := length (filter (fun i => Reqb (oR (G i)) gv && Reqb (oR (P i)) pv) rows) in
  tr_means r = [mean 1 1 0; mean 1 1 1; mean 1 0 0; mean 1 0 1; mean 0 1 0; mean 0 1 1; mean 0 0 0; mean 0 0 1] /\
  tr_n r = [count 1 1; count 1 0; count 0 1; count 0 0] /\ tr_n_obs r = length rows.
Proof.
  intros H. destruct (fit_inv keq qr lstsq inv pinv sf ppf logit cfg cl rows y G P T covs r H) as (_ & out & _ & _ & _ & _ & _ & _ & _ & E3 & E2 & E1 & _).
  rewrite E1, E2, E3. repeat split.
Qed.
End Triple.

(* Generated staggered-adoption data: Callaway-Sant'Anna and Sun-Abraham. *)
From Verif Require Import Prelude Flt Stats_model Linalg_model Linalg_proofs Linalg_vcov Linalg_thms Did_model Within_proofs Multi_model Multi_proofs Multi_thms Bacon_model Bacon_proofs Bacon_thms
  Staggered_model Staggered_proofs Staggered_est Staggered_thms Staggered_more Staggered_fit Sun_model Sun_proofs Sun_thms Sun_more Sun_ex
  Power_model Power_thms Diag_model Dgp_model Dgp_proofs Dgp_thms Dgp_event.
From Coq Require Import Arith ZArith String List Bool Lia.
Import ListNotations.
Open Scope R_scope.

Definition true_att (effect : R) (dynamic : bool) (growth : R) (g t : Z) : R :=
  if dynamic then effect * (1 + growth * (IZR t - IZR g)) else effect.

Section Gen.
Variables (n T : nat) (cohorts : option (list Z)) (never_frac effect : R) (dynamic : bool) (growth fe_sd trend noise_sd : R)
  (pick : nat -> nat) (zu : nat -> R) (ze : nat -> nat -> R).
Notation gen := (generate_staggered_data n T cohorts never_frac effect dynamic growth fe_sd trend noise_sd pick zu ze).
Definition cps : list Z := match cohorts with None => default_cohorts T | Some l => l end.
Notation k := (truncZ (INR n * never_frac)).
Definition first_of (u : nat) : Z := if Dgp_model.before u k then 0%Z else nth (pick (u - Z.to_nat k)%nat) cps 0%Z.
Lemma stag_inv rows : gen = Ok rows ->
  (forall c, In c cps -> (1 <= c < Z.of_nat T)%Z) /\ (0 <= k)%Z /\ ((k < Z.of_nat n)%Z -> cps <> []) /\
  map (fun i => (sg_unit i, sg_period i)) rows = grid n T /\
  (forall i, In i rows -> sg_first i = first_of (sg_unit i) /\ sg_treated i = (Z.ltb 0 (sg_first i) && Z.leb (sg_first i) (Z.of_nat (sg_period i))) /\
     sg_effect i = (if sg_treated i then true_att effect dynamic growth (sg_first i) (Z.of_nat (sg_period i)) else 0) /\
     sg_y i = 10 + fe_sd * zu (sg_unit i) + trend * INR (sg_period i) + sg_effect i + noise_sd * ze (sg_unit i) (sg_period i)).
Proof.
  unfold generate_staggered_data. fold cps. destruct (existsb _ cps) eqn:Ex; [discriminate|].
  destruct (Z.ltb_spec k 0) as [|Hk]; [discriminate|].
  destruct (Z.ltb 0 (Z.of_nat n - k) && match cps with [] => true | _ => false end) eqn:Ec; [discriminate|].
  destruct (Rltb fe_sd 0); [discriminate|]. destruct (Rltb noise_sd 0 && _); [discriminate|]. intros E. injection E as <-.
  split; [|split; [exact Hk|split; [|split]]].
  - intros c Hc. assert (X : (Z.ltb c 1 || Z.leb (Z.of_nat T) c) = false).
    { apply Bool.not_true_is_false. intros Y. rewrite <- Bool.not_true_iff_false in Ex. apply Ex, existsb_exists. exists c. auto. }
    apply orb_false_iff in X. destruct X as [X1 X2]. apply Z.ltb_ge in X1. apply Z.leb_gt in X2. lia.
  - intros Hlt C. rewrite C in Ec. rewrite (proj2 (Z.ltb_lt 0 (Z.of_nat n - k))) in Ec by lia. discriminate.
  - rewrite map_map. transitivity (map (fun x : nat * nat => x) (grid n T)); [|apply map_id]. apply map_ext. intros [u t]. reflexivity.
  - intros i Hi. apply in_map_iff in Hi. destruct Hi as ([u t] & <- & _). cbn. fold (first_of u). split; [reflexivity|]. split; [reflexivity|].
    split; [|unfold normal; ring]. unfold true_att. rewrite <- INR_IZR_INZ. reflexivity.
Qed.
Lemma first_range rows u : gen = Ok rows -> (first_of u = 0 \/ 1 <= first_of u < Z.of_nat T)%Z.
Proof.
  intros H. destruct (stag_inv rows H) as (Hc & _). unfold first_of. destruct (Dgp_model.before u k); [left; reflexivity|].
  destruct (Nat.lt_ge_cases (pick (u - Z.to_nat k)%nat) (length cps)) as [L|L]; [right; apply Hc, nth_In; exact L|left; apply nth_overflow; exact L].
Qed.
(* every unit is observed in every period, cohorts are constant within units *)
Theorem stag_shape rows : gen = Ok rows ->
  length rows = (n * T)%nat /\ NoDup (map (fun i => (sg_unit i, sg_period i)) rows) /\
  (forall u t, (u < n)%nat -> (t < T)%nat -> exists i, In i rows /\ sg_unit i = u /\ sg_period i = t) /\
  (forall i j, In i rows -> In j rows -> sg_unit i = sg_unit j -> sg_first i = sg_first j) /\
  (forall i, In i rows -> (sg_unit i < n)%nat /\ (sg_period i < T)%nat /\ (sg_first i = 0 \/ 1 <= sg_first i < Z.of_nat T)%Z) /\
  (forall i, In i rows -> (Z.of_nat (sg_unit i) < k)%Z -> sg_first i = 0%Z) /\
  ((forall j, (pick j < length cps)%nat) -> forall i, In i rows -> (k <= Z.of_nat (sg_unit i))%Z -> In (sg_first i) cps).
Proof.
  intros H. destruct (stag_inv rows H) as (Hc & Hk & Hn & M & F). split; [|split; [|split; [|split; [|split; [|split]]]]].
  - rewrite <- (map_length (fun i => (sg_unit i, sg_period i))), M. unfold grid. rewrite prod_length, !seq_length. reflexivity.
  - rewrite M. apply NoDup_list_prod; apply seq_NoDup.
  - intros u t Hu Ht. assert (X : In (u, t) (map (fun i => (sg_unit i, sg_period i)) rows)) by (rewrite M; apply in_prod; apply in_seq; lia).
    apply in_map_iff in X. destruct X as (i & E & Hi). injection E as E1 E2. exists i. auto.
  - intros i j Hi Hj E. destruct (F i Hi) as (-> & _). destruct (F j Hj) as (-> & _). rewrite E. reflexivity.
  - intros i Hi. assert (X : In (sg_unit i, sg_period i) (grid n T)) by (rewrite <- M; apply in_map_iff; exists i; auto).
    unfold grid in X. apply in_prod_iff in X. destruct X as [X1 X2]. apply in_seq in X1. apply in_seq in X2.
    split; [lia|]. split; [lia|]. destruct (F i Hi) as (-> & _). apply (first_range rows); exact H.
  - intros i Hi Hu. destruct (F i Hi) as (-> & _). unfold first_of. unfold Dgp_model.before. rewrite (proj2 (Z.ltb_lt _ _)) by exact Hu. reflexivity.
  - intros Hp i Hi Hu. destruct (F i Hi) as (-> & _). unfold first_of. unfold Dgp_model.before. rewrite (proj2 (Z.ltb_ge _ _)) by exact Hu. apply nth_In, Hp.
Qed.
End Gen.

(* the generator's own default cohorts are rejected by its own check when there are fewer than three periods *)
Theorem stag_default_error n T never_frac effect dynamic growth fe_sd trend noise_sd pick zu ze : (T <= 2)%nat ->
  generate_staggered_data n T None never_frac effect dynamic growth fe_sd trend noise_sd pick zu ze = Err ValueError.
Proof. intros H. unfold generate_staggered_data. destruct T as [|[|[|T]]]; [reflexivity|reflexivity|reflexivity|lia]. Qed.
Theorem stag_default_ok n T never_frac effect dynamic growth fe_sd trend noise_sd pick zu ze : (3 <= T)%nat -> 0 <= never_frac -> 0 <= fe_sd -> 0 <= noise_sd ->
  exists rows, generate_staggered_data n T None never_frac effect dynamic growth fe_sd trend noise_sd pick zu ze = Ok rows.
Proof.
  intros H H1 H2 H3. unfold generate_staggered_data.
  assert (D : forall c, In c (default_cohorts T) -> (1 <= c < Z.of_nat T)%Z).
  { unfold default_cohorts. intros c. destruct (Nat.leb_spec 8 T) as [L|L]; cbn [In]; intros Hc.
    - destruct Hc as [<-|[<-|[<-|[]]]]; lia.
    - assert (Z.of_nat T / 3 >= 1)%Z by (apply Z.le_ge, Z.div_le_lower_bound; lia).
      assert (2 * Z.of_nat T / 3 < Z.of_nat T)%Z by (apply Z.div_lt_upper_bound; lia).
      assert (Z.of_nat T / 3 <= 2 * Z.of_nat T / 3)%Z by (apply Z.div_le_mono; lia).
      destruct Hc as [<-|[<-|[]]]; lia. }
  destruct (existsb _ (default_cohorts T)) eqn:Ex.
  { apply existsb_exists in Ex. destruct Ex as (c & Hc & X). apply D in Hc. apply orb_true_iff in X. destruct X as [X|X]; [apply Z.ltb_lt in X|apply Z.leb_le in X]; lia. }
  assert (N : 0 <= INR n * never_frac) by (apply Rmult_le_pos; [apply pos_INR|exact H1]).
  pose proof (trunc_nonneg _ N) as B.
  assert (K : (-1 < truncZ (INR n * never_frac))%Z) by (apply lt_IZR; lra).
  rewrite (proj2 (Z.ltb_ge _ 0)) by lia.
  assert (Ne : match default_cohorts T with [] => true | _ => false end = false) by (unfold default_cohorts; destruct (Nat.leb 8 T); reflexivity).
  rewrite Ne, andb_false_r.
  replace (Rltb fe_sd 0) with false by (symmetry; unfold Rltb; destruct (Rlt_dec fe_sd 0); [lra|reflexivity]).
  replace (Rltb noise_sd 0) with false by (symmetry; unfold Rltb; destruct (Rlt_dec noise_sd 0); [lra|reflexivity]).
  cbn [andb]. eexists. reflexivity.
Qed.

(* ---------- Callaway-Sant'Anna ---------- *)
Notation su := (fun i => Z.of_nat (sg_unit i)).
Notation st := (fun i => Z.of_nat (sg_period i)).
Notation sgr := (fun i => CFin (sg_first i)).
Notation sy := (fun i => Some (sg_y i)).
Section CS.
Variable qr : list Z -> list (Z -> R) -> list nat.
Variable lstsq : list Z -> list (Z -> R) -> (Z -> R) -> list R.
Variable inv : list Z -> list (Z -> R) -> option (nat -> nat -> R).
Variable logit : list Z -> list Z -> list (Z -> R) -> option (Z -> R).
Variable sf : option Z -> fl -> fl.
Variable ppf : option Z -> R -> R.
Hypothesis Hqr : qr_ok qr.
Hypothesis Hls : lstsq_ok lstsq.
(* CallawaySantAnna.fit(data, 'outcome', 'unit', 'period', 'first_treat', aggregate=agg, balance_e=bal) *)
Definition cs_on (cfg : cs_config) (rows : list srow) (agg : option string) (bal : option Z) (ws : list (Z -> R)) : res cs_result :=
  cs_fit qr lstsq inv logit sf ppf rows su st sgr sy [] cfg agg bal ws.
Variables (n T : nat) (cohorts : option (list Z)) (never_frac effect : R) (dynamic : bool) (growth fe_sd trend : R)
  (pick : nat -> nat) (zu : nat -> R) (ze : nat -> nat -> R).
Notation gen := (generate_staggered_data n T cohorts never_frac effect dynamic growth fe_sd trend 0 pick zu ze).
Notation k := (truncZ (INR n * never_frac)).
Notation fo := (first_of n T cohorts never_frac pick).
Lemma stag_model rows : gen = Ok rows ->
  (forall i, In i rows -> sgr i = CFin (fo (Z.to_nat (su i)))) /\
  (forall i v, In i rows -> sy i = Some v ->
     v = (10 + fe_sd * zu (Z.to_nat (su i))) + trend * IZR (st i)
         + match CFin (fo (Z.to_nat (su i))) with CFin g => if Z.ltb 0 g && Z.leb g (st i) then true_att effect dynamic growth g (st i) else 0 | _ => 0 end).
Proof.
  intros H. destruct (stag_inv _ _ _ _ _ _ _ _ _ _ _ _ _ rows H) as (_ & _ & _ & _ & F). split.
  - intros i Hi. destruct (F i Hi) as (-> & _). rewrite Nat2Z.id. reflexivity.
  - intros i v Hi E. injection E as <-. destruct (F i Hi) as (E1 & E2 & E3 & E4). rewrite Nat2Z.id, E4, E3, E2, E1, <- INR_IZR_INZ. ring.
Qed.
Theorem stag_cs_cells rows cfg agg bal ws r e g : gen = Ok rows -> (0 <= cs_anticipation cfg)%Z ->
  cs_on cfg rows agg bal ws = Ok r -> In e (cr_effects r) -> ge_g e = CFin g ->
  (cs_control cfg = "never_treated"%string \/ cs_basemode cfg <> "universal"%string \/ (ge_base e <= ge_t e)%Z) ->
  ge_eff e = Fin (if Z.leb g (ge_t e) then true_att effect dynamic growth g (ge_t e) else 0).
Proof.
  intros H Ha Hr He Hg Hc. destruct (stag_model rows H) as [M1 M2].
  destruct (fit_inv _ _ _ _ _ _ _ _ _ _ _ _ _ _ _ _ _ Hr) as (_ & _ & Hl & _).
  destruct (no_cov_total qr lstsq inv logit rows su st sgr sy [] cfg eq_refl) as (l & Hl' & HF). rewrite Hl in Hl'. injection Hl' as <-.
  destruct (HF e He) as (x & Ex). rewrite Ex. f_equal.
  apply (exact_recovery qr lstsq inv logit Hqr Hls rows su st sgr sy [] (fun z => CFin (fo (Z.to_nat z))) (fun z => 10 + fe_sd * zu (Z.to_nat z)) (fun z => trend * IZR z)
    (fun g t => true_att effect dynamic growth g t) cfg _ e x M1 M2 Ha Hl He Ex); [|exact Hg].
  destruct Hc as [Hc|[Hc|Hc]]; auto. right; left. apply String.eqb_neq. exact Hc.
Qed.
(* constant effects: the overall estimate is the effect *)
Lemma sumf_pos_ne {A} (f : A -> R) l : l <> [] -> (forall c, In c l -> 0 < f c) -> 0 < sumf f l.
Proof.
  intros H F. destruct l as [|c l]; [congruence|]. clear H. revert c F. induction l as [|d l IH]; intros c F.
  - cbn. pose proof (F c (or_introl eq_refl)). lra.
  - change (0 < f c + sumf f (d :: l)). pose proof (F c (or_introl eq_refl)). pose proof (IH d (fun x Hx => F x (or_intror Hx))). lra.
Qed.
Theorem stag_cs_overall rows cfg agg bal ws r : gen = Ok rows -> dynamic = false -> cs_anticipation cfg = 0%Z ->
  cs_on cfg rows agg bal ws = Ok r -> (exists e g, In e (cr_effects r) /\ ge_g e = CFin g /\ (g <= ge_t e)%Z) -> cr_att r = Fin effect.
Proof.
  intros H Hd Ha Hr (e & g & He & Hg & Hge). destruct (stag_model rows H) as [M1 M2].
  destruct (fit_inv _ _ _ _ _ _ _ _ _ _ _ _ _ _ _ _ _ Hr) as (_ & _ & Hl & _).
  destruct (no_cov_total qr lstsq inv logit rows su st sgr sy [] cfg eq_refl) as (l & Hl' & HF). rewrite Hl in Hl'. injection Hl' as <-.
  assert (Hp : filter (ge_post 0) (cr_effects r) <> []).
  { apply (in_filter_ne _ _ e He). unfold ge_post, Staggered_model.before. rewrite Hg. apply Bool.negb_true_iff, Z.ltb_ge. lia. }
  pose proof (overall_recovery qr lstsq inv logit sf ppf Hqr Hls rows su st sgr sy [] (fun z => CFin (fo (Z.to_nat z))) (fun z => 10 + fe_sd * zu (Z.to_nat z)) (fun z => trend * IZR z)
    (fun g t => true_att effect dynamic growth g t) cfg agg bal ws r M1 M2 Ha Hr HF Hp) as X.
  rewrite X. f_equal.
  assert (Cell : forall c, In c (filter (ge_post 0) (cr_effects r)) -> 0 < len (ge_T c) /\ match ge_g c with CFin k => true_att effect dynamic growth k (ge_t c) | _ => 0 end = effect).
  { intros c Hc. apply filter_In in Hc. destruct Hc as [Hc Hpc]. split.
    - apply len_pos. exact (proj1 (cell_facts qr lstsq inv logit rows su st sgr sy [] cfg _ c Hl Hc)).
    - pose proof (effects_not_nan qr lstsq inv logit rows su st sy [] sgr cfg _ c Hl Hc) as Nn. unfold ge_post in Hpc. destruct (ge_g c) as [z| |]; [rewrite Hd; reflexivity|cbn in Hpc; congruence|cbn in Hpc; congruence]. }
  rewrite (sumf_ext _ (fun c => effect * len (ge_T c))).
  - rewrite sumf_scal. assert (P : 0 < sumf (fun c => len (ge_T c)) (filter (ge_post 0) (cr_effects r))).
    { apply sumf_pos_ne; [exact Hp|]. intros c Hc. apply Cell. exact Hc. }
    field. lra.
  - intros c Hc. destruct (Cell c Hc) as [_ E]. rewrite E. ring.
Qed.
Lemma stag_row rows a p : gen = Ok rows -> (a < n)%nat -> (p < T)%nat ->
  exists i, In i rows /\ sg_unit i = a /\ sg_period i = p /\ length (filter (fun j => Z.eqb (Z.of_nat (sg_unit j)) (Z.of_nat a) && Z.eqb (Z.of_nat (sg_period j)) (Z.of_nat p)) rows) = 1%nat.
Proof.
  intros H Ha Hp. destruct (stag_shape _ _ _ _ _ _ _ _ _ _ _ _ _ rows H) as (_ & Nd & Ex & _). destruct (Ex a p Ha Hp) as (i & Hi & E1 & E2).
  exists i. repeat split; auto. set (l := filter _ rows).
  assert (E : map (fun i => (sg_unit i, sg_period i)) l = filter (fun x => Nat.eqb (fst x) a && Nat.eqb (snd x) p) (map (fun i => (sg_unit i, sg_period i)) rows)).
  { unfold l. clear. induction rows as [|j rows IH]; [reflexivity|]. cbn [filter map fst snd].
    replace (Z.eqb (Z.of_nat (sg_unit j)) (Z.of_nat a)) with (Nat.eqb (sg_unit j) a) by (destruct (Nat.eqb_spec (sg_unit j) a), (Z.eqb_spec (Z.of_nat (sg_unit j)) (Z.of_nat a)); lia).
    replace (Z.eqb (Z.of_nat (sg_period j)) (Z.of_nat p)) with (Nat.eqb (sg_period j) p) by (destruct (Nat.eqb_spec (sg_period j) p), (Z.eqb_spec (Z.of_nat (sg_period j)) (Z.of_nat p)); lia).
    destruct (Nat.eqb _ a && Nat.eqb _ p); cbn [map]; rewrite IH; reflexivity. }
  assert (Hin : In i l) by (apply filter_In; split; [exact Hi|rewrite E1, E2, !Z.eqb_refl; reflexivity]).
  pose proof (NoDup_filter (fun x => Nat.eqb (fst x) a && Nat.eqb (snd x) p) Nd) as Nl. rewrite <- E in Nl.
  assert (All : forall x, In x (map (fun i => (sg_unit i, sg_period i)) l) -> x = (a, p)).
  { intros [x1 x2] Hx. rewrite E in Hx. apply filter_In in Hx as [_ Hx]. apply andb_true_iff in Hx as [X1 X2]. cbn in X1, X2. apply Nat.eqb_eq in X1, X2. congruence. }
  destruct l as [|j [|j' l']]; [destruct Hin|reflexivity|]. exfalso. cbn [map] in *. inversion Nl as [|? ? N1 _]. apply N1. left.
  rewrite (All (sg_unit j', sg_period j')) by (right; left; reflexivity). symmetry. apply All. left. reflexivity.
Qed.
Lemma stag_outcome rows a p : gen = Ok rows -> (a < n)%nat -> (p < T)%nat -> exists v, cs_outcome rows su st sy (Z.of_nat a) (Z.of_nat p) = Some v.
Proof.
  intros H Ha Hp. destruct (stag_row rows a p H Ha Hp) as (i & _ & _ & _ & L). unfold cs_outcome, cell_rows.
  destruct (filter _ rows) as [|j l]; [discriminate|]. eexists. reflexivity.
Qed.
Lemma stag_nodup rows : gen = Ok rows -> cs_duplicates rows su st = false.
Proof.
  intros H. unfold cs_duplicates. apply Bool.not_true_is_false. intros X. apply existsb_exists in X as (i & Hi & X). apply Nat.ltb_lt in X.
  destruct (stag_shape _ _ _ _ _ _ _ _ _ _ _ _ _ rows H) as (_ & _ & _ & _ & B & _). destruct (B i Hi) as (B1 & B2 & _).
  destruct (stag_row rows _ _ H B1 B2) as (j & _ & _ & _ & L). unfold cell_rows in X. lia.
Qed.
Lemma stag_unit rows a : gen = Ok rows -> (a < n)%nat -> (0 < T)%nat -> In (Z.of_nat a) (cs_units rows su) /\ cs_cohort rows su sgr (Z.of_nat a) = CFin (fo a).
Proof.
  intros H Ha HT. destruct (stag_row rows a 0 H Ha HT) as (i & Hi & E1 & _).
  assert (X : In (Z.of_nat a) (cs_units rows su)).
  { unfold cs_units. apply zsort_In, nodup_In, in_map_iff. exists i. rewrite E1. auto. }
  split; [exact X|]. rewrite (cohort_const rows su sgr (fun z => CFin (fo (Z.to_nat z))) _ (proj1 (stag_model rows H)) X), Nat2Z.id. reflexivity.
Qed.
Lemma stag_period rows p : gen = Ok rows -> (0 < n)%nat -> (p < T)%nat -> In (Z.of_nat p) (cs_periods rows st).
Proof.
  intros H Hn Hp. destruct (stag_row rows 0 p H Hn Hp) as (i & Hi & _ & E2 & _). unfold cs_periods. apply zsort_In, nodup_In, in_map_iff. exists i. rewrite E2. auto.
Qed.
(* with at least one never-treated unit a fit exists, and it reports every treated cohort at every period from its adoption on *)
Theorem stag_cs_defined rows cfg agg bal ws a : gen = Ok rows -> cs_anticipation cfg = 0%Z -> (0 < k)%Z ->
  (a < n)%nat -> (0 < fo a)%Z ->
  exists r, cs_on cfg rows agg bal ws = Ok r /\
    forall b p, (b < n)%nat -> (0 < fo b)%Z -> (fo b <= Z.of_nat p)%Z -> (p < T)%nat ->
      exists e, In e (cr_effects r) /\ ge_g e = CFin (fo b) /\ ge_t e = Z.of_nat p /\ ge_base e = (fo b - 1)%Z.
Proof.
  intros H Ha Hk Han Hfa.
  destruct (no_cov_total qr lstsq inv logit rows su st sgr sy [] cfg eq_refl) as (l & Hl & _).
  assert (n0 : (0 < n)%nat) by lia.
  assert (Hf0 : fo 0%nat = 0%Z).
  { unfold first_of, Dgp_model.before. rewrite (proj2 (Z.ltb_lt _ _)) by (cbn; lia). reflexivity. }
  assert (Cell : forall b p, (b < n)%nat -> (0 < fo b)%Z -> (fo b <= Z.of_nat p)%Z -> (p < T)%nat ->
      exists e, In e l /\ ge_g e = CFin (fo b) /\ ge_t e = Z.of_nat p /\ ge_base e = (fo b - 1)%Z).
  { intros b p Hb Hfb Hp HpT. set (q := Z.to_nat (fo b - 1)). assert (Eq : (fo b - 1)%Z = Z.of_nat q) by (unfold q; lia).
    assert (HqT : (q < T)%nat) by lia.
    assert (Pair : forall c, (c < n)%nat -> has_pair rows su st sy (Z.of_nat q) (Z.of_nat p) (Z.of_nat c) = true).
    { intros c Hc. unfold has_pair. destruct (stag_outcome rows c q H Hc HqT) as (v1 & ->). destruct (stag_outcome rows c p H Hc HpT) as (v2 & ->). reflexivity. }
    destruct (stag_unit rows b H Hb ltac:(lia)) as [Ub Cb]. destruct (stag_unit rows 0 H n0 ltac:(lia)) as [U0 C0].
    destruct (cell_exists qr lstsq inv logit rows su st sgr sy [] cfg (CFin (fo b)) (Z.of_nat p) (Z.of_nat q)
       (treated_units rows su st sgr sy (CFin (fo b)) (Z.of_nat q) (Z.of_nat p)) (control_units rows su st sgr sy cfg (CFin (fo b)) (Z.of_nat q) (Z.of_nat p)) l eq_refl Hl)
      as (e & He & Eg & Et & Eb & _).
    - unfold cs_base, Staggered_model.before. rewrite Ha. rewrite (proj2 (Z.ltb_ge _ _)) by lia. replace (fo b - 1 - 0)%Z with (Z.of_nat q) by lia. destruct (cs_universal cfg); reflexivity.
    - apply zmem_true. apply stag_period; auto.
    - apply zmem_true. apply stag_period; auto.
    - reflexivity.
    - reflexivity.
    - apply (in_filter_ne _ _ (Z.of_nat b) Ub). rewrite Cb, Pair by exact Hb. rewrite (proj2 (c_eqb_true _ _) eq_refl). reflexivity.
    - apply (in_filter_ne _ _ (Z.of_nat 0) U0). unfold is_control. rewrite C0, Hf0, Pair by exact n0. destruct (String.eqb _ _); reflexivity.
    - unfold cs_groups. apply in_app_iff. left. apply in_map. apply group_in. split; [exact Hfb|].
      destruct (stag_row rows b p H Hb HpT) as (i & Hi & E1 & _). exists i. split; [exact Hi|]. rewrite (proj1 (stag_model rows H) i Hi), Nat2Z.id, E1. reflexivity.
    - unfold valid_periods. destruct (cs_universal cfg); apply filter_In; (split; [apply stag_period; auto|]).
      + apply Bool.negb_true_iff, Z.eqb_neq. lia.
      + unfold Staggered_model.before. rewrite (proj2 (Z.ltb_ge _ _)) by lia. reflexivity.
    - exists e. rewrite Eq. auto. }
  destruct (first_range n T cohorts never_frac effect dynamic growth fe_sd trend 0 pick zu ze rows a H) as [R|R]; [lia|].
  destruct (Cell a (Z.to_nat (fo a))) as (e & He & _); [exact Han|exact Hfa|lia|lia|].
  destruct (fit_ok qr lstsq inv logit sf ppf rows su st sgr sy [] cfg agg bal ws l) as (r & Hr & Er).
  - unfold n_nev. destruct (stag_unit rows 0 H n0 ltac:(lia)) as [U0 C0]. intros X. apply length_zero_iff_nil in X. revert X. apply (in_filter_ne _ _ (Z.of_nat 0) U0). rewrite first_never_cohort by discriminate. rewrite C0, Hf0. reflexivity.
  - apply stag_nodup. exact H.
  - exact Hl.
  - intros X. rewrite X in He. destruct He.
  - exists r. split; [exact Hr|]. rewrite Er. exact Cell.
Qed.
End CS.

(* ---------- Sun-Abraham ---------- *)
Section SA.
Variable qr : list srow -> list (srow -> R) -> list nat.
Variable lstsq : list srow -> list (srow -> R) -> (srow -> R) -> list R.
Variable inv : list srow -> list (srow -> R) -> option (nat -> nat -> R).
Variable pinv : list srow -> list (srow -> R) -> nat -> nat -> R.
Variable sf : option Z -> fl -> fl.
Variable ppf : option Z -> R -> R.
Hypothesis Hqr : qr_ok qr.
Hypothesis Hls : lstsq_ok lstsq.
Definition sa_on (cfg : sa_config) (rows : list srow) : res sa_result := sa_fit qr lstsq inv pinv sf ppf su st sgr sg_y [] None cfg rows.
Variables (n T : nat) (cohorts : option (list Z)) (never_frac effect : R) (dynamic : bool) (growth fe_sd trend : R)
  (pick : nat -> nat) (zu : nat -> R) (ze : nat -> nat -> R).
Notation gen := (generate_staggered_data n T cohorts never_frac effect dynamic growth fe_sd trend 0 pick zu ze).
Notation fo := (first_of n T cohorts never_frac pick).
Lemma stag_balanced rows : gen = Ok rows -> balanced Z.eq_dec Z.eq_dec rows su st 1.
Proof.
  intros H. split; [lia|]. intros a b Ha Hb. apply in_map_iff in Ha as (i & <- & Hi). apply in_map_iff in Hb as (j & <- & Hj).
  destruct (stag_shape _ _ _ _ _ _ _ _ _ _ _ _ _ rows H) as (_ & _ & _ & _ & B & _). destruct (B i Hi) as (B1 & _). destruct (B j Hj) as (_ & B2 & _).
  destruct (stag_row n T cohorts never_frac effect dynamic growth fe_sd trend pick zu ze rows _ _ H B1 B2) as (_ & _ & _ & _ & L). rewrite <- L. f_equal. apply filter_ext. intros x. unfold keqb.
  destruct (Z.eq_dec (Z.of_nat (sg_unit x)) (Z.of_nat (sg_unit i))) as [E|E]; [rewrite (proj2 (Z.eqb_eq _ _) E)|rewrite (proj2 (Z.eqb_neq _ _) E)];
  (destruct (Z.eq_dec (Z.of_nat (sg_period x)) (Z.of_nat (sg_period j))) as [E'|E']; [rewrite (proj2 (Z.eqb_eq _ _) E')|rewrite (proj2 (Z.eqb_neq _ _) E')]); reflexivity.
Qed.
Theorem stag_sa_effects rows cfg r : gen = Ok rows -> (T <= 21)%nat -> sa_anticipation cfg = 0%Z -> sa_on cfg rows = Ok r ->
  forall g e x, In ((CFin g, e), x) (sa_coh_effects r) -> fst (fst x) = Fin (if Z.leb 0 e then true_att effect dynamic growth g (g + e) else 0).
Proof.
  intros H HT Ha Hr. pose proof (stag_balanced rows H) as Hbal.
  destruct (stag_model n T cohorts never_frac effect dynamic growth fe_sd trend pick zu ze rows H) as [M1 M2].
  destruct (stag_shape _ _ _ _ _ _ _ _ _ _ _ _ _ rows H) as (_ & _ & _ & _ & B & _).
  assert (Hval : forall i, In i rows -> valid_coh (CFin (sg_first i)) = true).
  { intros i Hi. destruct (B i Hi) as (_ & _ & [->|X]); [reflexivity|]. unfold valid_coh. cbn. rewrite (proj2 (Z.ltb_lt _ _)) by lia. apply orb_true_r. }
  destruct (sa_fit_inv qr lstsq inv pinv sf ppf su st sgr sg_y [] None cfg rows r Hr) as (Hn & _ & reg & Hs & _ & _ & _ & _ & _ & _ & _ & _ & _ & _ & _ & Hce).
  rewrite (sample_all sgr cfg rows Hval) in Hs.
  assert (Hk : map fst (sa_coh_effects r) = sr_keys reg) by (rewrite Hce, map_map; cbn [fst]; apply map_id).
  assert (Hi : indep rows (sa_cols su st sgr [] (map fst (sa_coh_effects r)) rows)).
  { rewrite Hk. apply (fit_full_rank qr lstsq inv pinv Hls su st sgr sg_y [] None rows (fun z => CFin (fo (Z.to_nat z))) 1 Hbal M1 cfg reg eq_refl); [|exact Hn|exact Hs].
    intros i g Hi E Hg. injection E as E. unfold sa_ref. rewrite Ha. destruct (B i Hi) as (_ & _ & [X|X]); [lia|].
    destruct (stag_row n T cohorts never_frac effect dynamic growth fe_sd trend pick zu ze rows (sg_unit i) (Z.to_nat (g - 1)) H (proj1 (B i Hi)) ltac:(lia)) as (j & Hj & _ & E2 & _).
    apply in_map_iff. exists j. split; [lia|exact Hj]. }
  set (tau := fun (c : coh) (e : Z) => match c with CFin g => if Z.leb 0 e then true_att effect dynamic growth g (g + e) else 0 | _ => 0 end).
  destruct (fit_exact_level qr lstsq inv pinv sf ppf Hqr Hls su st sgr sg_y [] None cfg rows 1 r
     (fun z => 10 + fe_sd * zu (Z.to_nat z)) (fun z => trend * IZR z) tau [] Hbal Hval Hr Hi eq_refl) as [F _].
  - intros i Hin. rewrite (M2 i (sg_y i) Hin eq_refl). pose proof (M1 i Hin) as E1. injection E1 as E1. cbv beta iota. rewrite <- E1. unfold sa_rel. cbn [lc]. unfold tau.
    destruct (Z.ltb 0 (sg_first i)); cbn [andb]; [|cbn; ring].
    destruct (Z.leb_spec (sg_first i) (Z.of_nat (sg_period i))), (Z.leb_spec 0 (Z.of_nat (sg_period i) - sg_first i)); try lia; [|cbn; ring].
    replace (sg_first i + (Z.of_nat (sg_period i) - sg_first i))%Z with (Z.of_nat (sg_period i)) by ring. cbn. ring.
  - intros i e Hin Hrel He. unfold sa_rel in Hrel. unfold tau. destruct (Z.ltb_spec 0 (sg_first i)); [|discriminate]. injection Hrel as <-.
    destruct (B i Hin) as (_ & B2 & [X|X]); [lia|]. unfold sa_ref in He. rewrite Ha in He. destruct (Z.leb_spec 0 (Z.of_nat (sg_period i) - sg_first i)); [|reflexivity]. lia.
  - intros g e x Hx. rewrite (F (CFin g, e) x Hx). reflexivity.
Qed.
End SA.

(* ---------- backend ---------- *)
Theorem backend_spec env avail :
  (env = Some "python"%string -> backend env avail = Ok (false, false)) /\
  (env = Some "rust"%string -> backend env avail = if avail then Ok (true, true) else Err ImportError) /\
  (env <> Some "python"%string -> env <> Some "rust"%string -> backend env avail = Ok (avail, avail)).
Proof.
  split; [intros ->; reflexivity|]. split; [intros ->; reflexivity|]. intros H1 H2. unfold backend. destruct env as [s|]; [|reflexivity].
  destruct (String.eqb_spec s "python") as [->|]; [congruence|]. destruct (String.eqb_spec s "rust") as [->|]; [congruence|]. reflexivity.
Qed.

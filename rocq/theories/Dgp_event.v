(* MultiPeriodDiD when the treated share is the same in every period, and on generate_event_study_data. *)
From Verif Require Import Prelude Flt Stats_model Linalg_model Linalg_proofs Linalg_vcov Linalg_thms Did_model Did_spec Did_proofs Did_equiv
  Multi_model Multi_proofs Multi_thms Power_model Power_thms Staggered_model Diag_model Diag_proofs Diag_ex Dgp_model Dgp_proofs Dgp_thms.
From Coq Require Import Arith ZArith String List Bool Lia.
Import ListNotations.
Open Scope R_scope.

Lemma filter_filter_and {A} (p q : A -> bool) l : filter p (filter q l) = filter (fun x => q x && p x) l.
Proof. induction l as [|a l IH]; simpl; [reflexivity|]. destruct (q a); simpl; rewrite IH; reflexivity. Qed.

Section Share.
Context {I : Type}.
Variables (rows : list I) (b : I -> bool) (t : I -> Z) (post : list Z) (s : R).
Notation d := (fun i => ind (b i)).
Notation pre := (Multi_proofs.pre_rows rows t post).
Hypothesis Hs : 0 < s < 1.
Hypothesis Hdev : forall i, In i pre -> meanf d (period_rows rows t (t i)) = s.
Hypothesis Hsum : sumf d pre = s * len pre.
Hypothesis Hne : pre <> [].
Lemma sumf_b (f : I -> R) l : sumf f (filter b l) = sumf (fun i => ind (b i) * f i) l.
Proof. induction l as [|a l IH]; simpl; [reflexivity|]. destruct (b a); simpl; rewrite <- IH; lra. Qed.
Lemma sumf_nb (f : I -> R) l : sumf f (filter (fun i => negb (b i)) l) = sumf (fun i => (1 - ind (b i)) * f i) l.
Proof. induction l as [|a l IH]; simpl; [reflexivity|]. destruct (b a); simpl; rewrite <- IH; lra. Qed.
Lemma len_b l : len (filter b l) = sumf d l.
Proof. rewrite <- (Rmult_1_l (len _)), <- (Rmult_1_r (1 * _)). rewrite Rmult_1_r. replace (1 * len (filter b l)) with (sumf (fun _ => 1) (filter b l)) by (rewrite sumf_const; ring). rewrite sumf_b. apply sumf_ext; intros; ring. Qed.
Lemma len_nb l : len (filter (fun i => negb (b i)) l) = len l - sumf d l.
Proof. replace (len (filter (fun i => negb (b i)) l)) with (sumf (fun _ : I => 1) (filter (fun i => negb (b i)) l)) by (rewrite sumf_const; ring). rewrite sumf_nb. rewrite (sumf_ext _ (fun i => 1 - ind (b i))) by (intros; ring). rewrite sumf_sub, sumf_const. ring. Qed.
Lemma share_dev i : In i pre -> dev rows d t i = ind (b i) - s.
Proof. intros H. unfold dev. rewrite Hdev by exact H. reflexivity. Qed.
Lemma share_pre_gap y : sumf (fun i => dev rows d t i * dev rows d t i) pre <> 0 /\
  pre_gap rows d t post y = meanf y (filter b pre) - meanf y (filter (fun i => negb (b i)) pre).
Proof.
  pose proof (len_pos _ Hne) as Hp.
  assert (D : sumf (fun i => dev rows d t i * dev rows d t i) pre = s * (1 - s) * len pre).
  { rewrite (sumf_ext _ (fun i => (1 - 2 * s) * ind (b i) + s * s)).
    - rewrite sumf_add, sumf_scal, sumf_const, Hsum. ring.
    - intros i Hi. rewrite share_dev by exact Hi. destruct (b i); simpl; ring. }
  assert (Dp : 0 < s * (1 - s) * len pre) by (apply Rmult_lt_0_compat; [nra|exact Hp]).
  split; [rewrite D; lra|].
  unfold pre_gap. rewrite D.
  rewrite (sumf_ext _ (fun i => (1 - s) * (ind (b i) * y i) - s * ((1 - ind (b i)) * y i))).
  2:{ intros i Hi. rewrite share_dev by exact Hi. ring. }
  rewrite sumf_sub, !sumf_scal, <- sumf_b, <- sumf_nb. unfold meanf. rewrite len_b, len_nb, Hsum.
  replace (len pre - s * len pre) with ((1 - s) * len pre) by ring. field. repeat split; lra.
Qed.
End Share.

Lemma share_ident {I} (rows : list I) (b : I -> bool) t post s : 0 < s < 1 -> NoDup post ->
  (forall p, In p post -> In p (map t rows)) ->
  (forall p, In p (map t rows) -> meanf (fun i => ind (b i)) (period_rows rows t p) = s) ->
  let pre := filter (fun i => negb (zmem (t i) post)) rows in pre <> [] ->
  identified rows (fun i => ind (b i)) t post /\
  (forall y, pre_gap rows (fun i => ind (b i)) t post y = meanf y (filter b pre) - meanf y (filter (fun i => negb (b i)) pre)) /\
  (forall p, mcell rows (fun i => ind (b i)) t 1 p = filter (fun i => b i && Z.eqb (t i) p) rows) /\
  (forall p, mcell rows (fun i => ind (b i)) t 0 p = filter (fun i => negb (b i) && Z.eqb (t i) p) rows).
Proof.
  intros Hs N P4 Hd pre Hpre.
  assert (Hin : forall i, In i pre -> In i rows /\ ~ In (t i) post).
  { intros i Hi. apply filter_In in Hi. destruct Hi as [Hi X]. split; [exact Hi|]. apply zmem_false, Bool.negb_true_iff. exact X. }
  assert (Hcell : forall l : list I, meanf (fun i => ind (b i)) l = s -> l <> [] -> filter b l <> [] /\ filter (fun i => negb (b i)) l <> []).
  { intros l Hl Hne. pose proof (len_pos l Hne) as Hp. unfold meanf in Hl.
    assert (S1 : sumf (fun i => ind (b i)) l = s * len l) by (rewrite <- Hl; field; lra).
    split; intros C.
    - pose proof (len_b b l) as L. rewrite C in L. unfold len at 1 in L. simpl in L. nra.
    - pose proof (len_nb b l) as L. rewrite C in L. unfold len at 1 in L. simpl in L. nra. }
  assert (Hp2 : forall p, In p (map t rows) -> period_rows rows t p <> []).
  { intros p Hp. apply in_map_iff in Hp. destruct Hp as (i & Ei & Hi). apply (in_filter_ne _ _ i Hi). apply Z.eqb_eq. exact Ei. }
  assert (Hsum : sumf (fun i => ind (b i)) pre = s * len pre).
  { (* by period *)
    set (ks := nodup Z.eq_dec (map t pre)).
    assert (Kn : NoDup ks) by apply NoDup_nodup.
    assert (Kin : forall i, In i pre -> In (t i) ks) by (intros i Hi; apply nodup_In, in_map; exact Hi).
    assert (Kc : forall p, In p ks -> filter (fun i => keqb Z.eq_dec (t i) p) pre = period_rows rows t p).
    { intros p Hp. apply nodup_In, in_map_iff in Hp. destruct Hp as (j & Ej & Hj). destruct (Hin j Hj) as [_ Hj'].
      unfold pre, period_rows. rewrite filter_filter_and. apply filter_ext. intros i. unfold keqb. destruct (Z.eq_dec (t i) p) as [->|C].
      - rewrite Z.eqb_refl, andb_true_r. apply Bool.negb_true_iff, zmem_false. rewrite <- Ej. exact Hj'.
      - rewrite andb_false_r. symmetry. apply Z.eqb_neq. exact C. }
    rewrite <- (sumf_group Z.eq_dec t ks (fun i => ind (b i)) pre Kn Kin).
    transitivity (sumf (fun p => s * sumf (fun _ => 1) (filter (fun i => keqb Z.eq_dec (t i) p) pre)) ks).
    - apply sumf_ext. intros p Hp. rewrite Kc by exact Hp.
      assert (Hp' : In p (map t rows)) by (apply nodup_In, in_map_iff in Hp; destruct Hp as (j & Ej & Hj); apply in_map_iff; exists j; split; [exact Ej|apply Hin; exact Hj]).
      pose proof (Hd p Hp') as M. pose proof (len_pos _ (Hp2 p Hp')) as L. unfold meanf in M. rewrite sumf_const, <- M. field. lra.
    - rewrite sumf_scal, (sumf_group Z.eq_dec t ks (fun _ => 1) pre Kn Kin), sumf_const. ring. }
  assert (Hdev : forall i, In i pre -> meanf (fun i => ind (b i)) (period_rows rows t (t i)) = s).
  { intros i Hi. apply Hd, in_map, Hin. exact Hi. }
  destruct (share_pre_gap rows b t post s Hs Hdev Hsum Hpre (fun _ => 0)) as [Dn _].
  assert (Mc1 : forall p, mcell rows (fun i => ind (b i)) t 1 p = filter (fun i => b i && Z.eqb (t i) p) rows).
  { intros p. unfold mcell. apply filter_ext. intros i. f_equal. change 1 with (ind true). rewrite Reqb_ind. destruct (b i); reflexivity. }
  assert (Mc0 : forall p, mcell rows (fun i => ind (b i)) t 0 p = filter (fun i => negb (b i) && Z.eqb (t i) p) rows).
  { intros p. unfold mcell. apply filter_ext. intros i. f_equal. change 0 with (ind false). rewrite Reqb_ind. destruct (b i); reflexivity. }
  assert (Id : identified rows (fun i => ind (b i)) t post).
  { split; [exact N|]. split; [|exact Dn]. intros p Hp. pose proof (P4 p Hp) as Hp'.
    destruct (Hcell _ (Hd p Hp') (Hp2 p Hp')) as [C1 C0]. unfold period_rows in C1, C0. rewrite filter_filter_and in C1, C0.
    rewrite Mc1, Mc0. split.
    - rewrite (filter_ext _ (fun i => negb (b i) && (t i =? p)%Z)) in C0; [exact C0|]. intros j. apply andb_comm.
    - rewrite (filter_ext _ (fun i => b i && (t i =? p)%Z)) in C1; [exact C1|]. intros j. apply andb_comm. }
  split; [exact Id|]. split; [|split; [exact Mc1|exact Mc0]].
  intros y. exact (proj2 (share_pre_gap rows b t post s Hs Hdev Hsum Hpre y)).
Qed.

(* pooling the pre-periods: each period effect is a 2x2 difference in differences of that period against all of them *)
Section Fit.
Context {I K G : Type} (keq : forall x y : K, {x = y} + {x <> y}) (geq : forall x y : G, {x = y} + {x <> y}).
Variable qr : list I -> list (I -> R) -> list nat.
Variable lstsq : list I -> list (I -> R) -> (I -> R) -> list R.
Variable inv : list I -> list (I -> R) -> option (nat -> nat -> R).
Variable sf : option Z -> fl -> fl.
Variable ppf : option Z -> R -> R.
Hypothesis Hqr : qr_ok qr.
Hypothesis Hls : lstsq_ok lstsq.
Hypothesis Hinv : inv_ok inv.
Notation fit := (mp_fit keq geq qr lstsq inv sf ppf).
Theorem mp_common_share cfg (rows : list I) y (b : I -> bool) t post ref r s :
  fit cfg rows y (fun i => ind (b i)) t post ref [] [] [] = Ok r ->
  0 < s < 1 -> NoDup (mp_post r) ->
  (forall p, In p (map t rows) -> meanf (fun i => ind (b i)) (period_rows rows t p) = s) ->
  let pre := filter (fun i => negb (zmem (t i) (mp_post r))) rows in
  map pe_effect (mp_effects r)
  = map (fun p => Fin ((meanf y (filter (fun i => b i && Z.eqb (t i) p) rows) - meanf y (filter b pre))
                     - (meanf y (filter (fun i => negb (b i) && Z.eqb (t i) p) rows) - meanf y (filter (fun i => negb (b i)) pre)))) (mp_post r).
Proof.
  intros E Hs N Hd pre.
  destruct (mp_periods_thm keq geq qr lstsq inv sf ppf _ _ _ _ _ _ _ _ _ _ _ E) as (_ & P1 & P2 & P3 & P4 & _).
  assert (Hpre : pre <> []).
  { destruct (mp_pre r) as [|q l] eqn:Eq; [congruence|]. destruct (proj1 (P3 q) (or_introl eq_refl)) as ((i & Hi & Ei) & Hq).
    apply (in_filter_ne _ _ i Hi). apply Bool.negb_true_iff, zmem_false. rewrite Ei. exact Hq. }
  destruct (share_ident rows b t (mp_post r) s Hs N) as (Id & PG & Mc1 & Mc0); [|exact Hd|exact Hpre|].
  { intros p Hp. destruct (P4 p Hp) as (i & Hi & Ei). rewrite <- Ei. apply in_map. exact Hi. }
  pose proof (mp_period_effects keq geq qr lstsq inv sf ppf Hqr Hls cfg rows y _ t post ref [] r E Id) as PE. cbv zeta in PE. cbn [absorb_loop fst] in PE.
  rewrite PE. apply map_ext. intros p. unfold effect_formula, mmean. rewrite PG, Mc1, Mc0. f_equal. fold pre. ring.
Qed.
End Fit.

(* ---------- on a grid ---------- *)
Definition gapat {A B} (b : A -> bool) (q : B -> bool) (f : A * B -> R) (us : list A) (ts : list B) : R :=
  meanf f (filter (fun x => b (fst x) && q (snd x)) (list_prod us ts)) - meanf f (filter (fun x => negb (b (fst x)) && q (snd x)) (list_prod us ts)).
Lemma gapat_split {A B} (us : list A) (ts : list B) (b : A -> bool) (q : B -> bool) (h : A -> R) (k w : B -> R) (z : A * B -> R) :
  filter b us <> [] -> filter (fun u => negb (b u)) us <> [] -> filter q ts <> [] ->
  gapat b q (fun x => h (fst x) + k (snd x) + ind (b (fst x)) * w (snd x) + z x) us ts
  = gap b h us + meanf w (filter q ts) + gapat b q z us ts.
Proof.
  intros H1 H2 H3. unfold gapat. rewrite (filter_prod b q), (filter_prod (fun u => negb (b u)) q). rewrite !meanf_add.
  assert (M1 : forall l, meanf (fun x : A * B => h (fst x)) (list_prod l (filter q ts)) = meanf h l).
  { intros l. rewrite <- (Rmult_1_r (meanf h l)), <- (meanf_const 1 (filter q ts) H3), <- meanf_list_prod. apply meanf_ext. intros; ring. }
  assert (M2 : forall l : list A, l <> [] -> meanf (fun x : A * B => k (snd x)) (list_prod l (filter q ts)) = meanf k (filter q ts)).
  { intros l Hl. rewrite <- (Rmult_1_l (meanf k _)), <- (meanf_const 1 l Hl), <- meanf_list_prod. apply meanf_ext. intros; ring. }
  rewrite !M1, !M2 by assumption. rewrite !(meanf_list_prod (fun u => ind (b u)) w).
  rewrite (meanf_ext (fun u => ind (b u)) (fun _ => 1) (filter b us)) by (intros u Hu; apply filter_In in Hu; destruct Hu as [_ ->]; reflexivity).
  rewrite (meanf_ext (fun u => ind (b u)) (fun _ => 0) (filter (fun u => negb (b u)) us)) by (intros u Hu; apply filter_In in Hu; destruct Hu as [_ Hu]; destruct (b u); [discriminate|reflexivity]).
  rewrite !meanf_const by assumption. unfold gap. ring.
Qed.

Section Event.
Context {K G : Type} (keq : forall x y : K, {x = y} + {x <> y}) (geq : forall x y : G, {x = y} + {x <> y}).
Variable qr : list prow -> list (prow -> R) -> list nat.
Variable lstsq : list prow -> list (prow -> R) -> (prow -> R) -> list R.
Variable inv : list prow -> list (prow -> R) -> option (nat -> nat -> R).
Variable sf : option Z -> fl -> fl.
Variable ppf : option Z -> R -> R.
Hypothesis Hqr : qr_ok qr.
Hypothesis Hls : lstsq_ok lstsq.
Hypothesis Hinv : inv_ok inv.
(* MultiPeriodDiD.fit(data, outcome='outcome', treatment='treated', time='period', post_periods=posts, reference_period=ref) *)
Definition multi_on (cfg : did_config prow K) (rows : list prow) (posts : list Z) (ref : option Z) :=
  mp_fit keq geq qr lstsq inv sf ppf cfg rows pr_y (fun i => ind (pr_treated i)) (fun i => Z.of_nat (pr_period i)) (Some posts) ref [] [] [].
(* noise of period p against the pooled pre-periods, treated minus control *)
Definition noise_at (n T : nat) (k : Z) (n_pre : nat) (ze : nat -> nat -> R) (p : Z) : R :=
  gapat (fun u => before u k) (fun t => Z.eqb (Z.of_nat t) p) (fun x => ze (fst x) (snd x)) (seq 0 n) (seq 0 T)
  - gapat (fun u => before u k) (fun t => negb (Nat.leb n_pre t)) (fun x => ze (fst x) (snd x)) (seq 0 n) (seq 0 T).

Lemma share_val n k : (0 < k < Z.of_nat n)%Z -> 0 < meanf (fun u => ind (before u k)) (seq 0 n) < 1.
Proof.
  intros H. pose proof (len_b (fun u => before u k) (seq 0 n)) as L1. pose proof (len_nb (fun u => before u k) (seq 0 n)) as L2.
  pose proof (len_pos _ (before_ne n k ltac:(lia) ltac:(lia))) as P1. pose proof (len_pos _ (not_before_ne n k ltac:(lia) ltac:(lia))) as P2.
  assert (N : 0 < len (seq 0 n)) by (apply len_pos; destruct n; [lia|discriminate]).
  unfold meanf. split; [apply Rdiv_lt_0_compat; lra|]. apply (Rmult_lt_reg_r (len (seq 0 n))); [exact N|]. unfold Rdiv. rewrite Rmult_assoc, Rinv_l by lra. lra.
Qed.

Theorem event_data_recovery n n_pre n_post fraction effect fe_sd noise_sd zu ze rows cfg ref :
  let k := n_first n fraction in let T := (n_pre + n_post)%nat in
  let posts := map Z.of_nat (seq n_pre n_post) in
  (0 < k < Z.of_nat n)%Z -> (0 < n_pre)%nat -> (0 < n_post)%nat ->
  generate_event_study_data n n_pre n_post fraction effect fe_sd noise_sd zu ze = Ok rows ->
  (forall r, multi_on cfg rows posts ref = Ok r ->
     map pe_effect (mp_effects r) = map (fun p => Fin (effect + noise_sd * noise_at n T k n_pre ze p)) posts) /\
  ((1 + T + n_post < n * T)%nat -> (forall p, ref = Some p -> (0 <= p < Z.of_nat T)%Z) ->
   parse_action (c_action cfg) <> None -> (forall cl, c_cluster cfg = Some cl -> (2 <= length (cl_keys keq rows cl))%nat) ->
   exists r, multi_on cfg rows posts ref = Ok r).
Proof.
  intros k T posts Hk Hpre Hpost. unfold generate_event_study_data. fold T. fold k.
  destruct (Rltb fe_sd 0 && _); [discriminate|]. destruct (Rltb noise_sd 0 && _); [discriminate|]. intros E. injection E as <-.
  set (mk := fun ut : nat * nat => _).
  assert (Mt : forall x, pr_treated (mk x) = before (fst x) k) by (intros [u t]; reflexivity).
  assert (Mp : forall x, pr_period (mk x) = snd x) by (intros [u t]; reflexivity).
  assert (My : forall x, pr_y (mk x) = (10 + fe_sd * zu (fst x)) + (INR (snd x) / 2) + ind (before (fst x) k) * (effect * ind (Nat.leb n_pre (snd x))) + noise_sd * ze (fst x) (snd x)).
  { intros [u t]. cbn. unfold normal. replace (Z.leb (Z.of_nat n_pre) (Z.of_nat t)) with (Nat.leb n_pre t).
    - destruct (before u k), (Nat.leb n_pre t); cbn; field.
    - destruct (Nat.leb_spec n_pre t), (Z.leb_spec (Z.of_nat n_pre) (Z.of_nat t)); auto; lia. }
  assert (B1 : filter (fun u => before u k) (seq 0 n) <> []) by (apply before_ne; lia).
  assert (B0 : filter (fun u => negb (before u k)) (seq 0 n) <> []) by (apply not_before_ne; lia).
  assert (Tin : forall p, In p (map (fun i => Z.of_nat (pr_period i)) (map mk (grid n T))) -> exists q, (q < T)%nat /\ p = Z.of_nat q).
  { intros p Hp. rewrite map_map in Hp. apply in_map_iff in Hp. destruct Hp as ([u t] & <- & Hx). rewrite Mp. apply in_prod_iff in Hx. destruct Hx as [_ Hx]. apply in_seq in Hx. exists t. split; [lia|reflexivity]. }
  assert (Pin : forall q, In (Z.of_nat q) posts <-> (n_pre <= q < T)%nat).
  { intros q. unfold posts. rewrite in_map_iff. split.
    - intros (x & Ex & Hx). apply in_seq in Hx. apply Nat2Z.inj in Ex. unfold T. lia.
    - intros Hq. exists q. split; [reflexivity|]. apply in_seq. unfold T in Hq. lia. }
  assert (Np : NoDup posts) by (apply FinFun.Injective_map_NoDup; [intros a b; apply Nat2Z.inj|apply seq_NoDup]).
  assert (Share : forall p, In p (map (fun i => Z.of_nat (pr_period i)) (map mk (grid n T))) ->
    meanf (fun i => ind (pr_treated i)) (period_rows (map mk (grid n T)) (fun i => Z.of_nat (pr_period i)) p) = meanf (fun u => ind (before u k)) (seq 0 n)).
  { intros p Hp. destruct (Tin p Hp) as (q & Hq & ->). unfold period_rows. rewrite filter_map_comm, meanf_map.
    rewrite (filter_ext _ (fun x : nat * nat => true && Z.eqb (Z.of_nat (snd x)) (Z.of_nat q))) by (intros x; rewrite Mp; reflexivity).
    unfold grid. rewrite (filter_prod (fun _ => true) (fun t => Z.eqb (Z.of_nat t) (Z.of_nat q))). rewrite (filter_id (fun _ => true)) by reflexivity.
    rewrite (meanf_ext _ (fun x : nat * nat => ind (before (fst x) k) * 1)) by (intros x _; rewrite Mt; ring).
    rewrite (meanf_list_prod (fun u => ind (before u k)) (fun _ => 1)), meanf_const; [ring|].
    apply (in_filter_ne _ _ q); [apply in_seq; lia|apply Z.eqb_refl]. }
  split.
  - intros r E. assert (EP : mp_post r = posts).
    { destruct (mp_periods_thm keq geq qr lstsq inv sf ppf _ _ _ _ _ _ _ _ _ _ _ E) as (_ & _ & _ & _ & _ & _ & X & _). apply X. reflexivity. }
    pose proof (mp_common_share keq geq qr lstsq inv sf ppf Hqr Hls cfg _ _ _ _ _ _ r _ E (share_val n k Hk) ltac:(rewrite EP; exact Np) Share) as F.
    rewrite EP in F. cbv zeta in F. rewrite F. apply map_ext_in. intros p Hp.
    assert (Hq : exists q, p = Z.of_nat q /\ (n_pre <= q < T)%nat).
    { unfold posts in Hp. apply in_map_iff in Hp. destruct Hp as (q & <- & Hq). exists q. split; [reflexivity|]. apply in_seq in Hq. unfold T. lia. }
    destruct Hq as (q & -> & Hq). f_equal. rewrite !filter_filter_and, !filter_map_comm, !meanf_map.
    rewrite (filter_ext (fun a => pr_treated (mk a) && _) (fun x => before (fst x) k && Z.eqb (Z.of_nat (snd x)) (Z.of_nat q))) by (intros x; rewrite Mt, Mp; reflexivity).
    rewrite (filter_ext (fun a => negb (pr_treated (mk a)) && _) (fun x => negb (before (fst x) k) && Z.eqb (Z.of_nat (snd x)) (Z.of_nat q))) by (intros x; rewrite Mt, Mp; reflexivity).
    assert (Pz : forall x : nat * nat, In x (grid n T) -> negb (zmem (Z.of_nat (pr_period (mk x))) posts) = negb (Nat.leb n_pre (snd x))).
    { intros [u t] Hx. rewrite Mp. cbn [snd]. f_equal. apply in_prod_iff in Hx. destruct Hx as [_ Hx]. apply in_seq in Hx.
      destruct (Nat.leb_spec n_pre t) as [L|L]; [apply zmem_In, Pin; lia|apply zmem_false; rewrite Pin; lia]. }
    rewrite (filter_ext_in (fun a => negb (zmem (Z.of_nat (pr_period (mk a))) posts) && pr_treated (mk a)) (fun x => before (fst x) k && negb (Nat.leb n_pre (snd x)))) by (intros x Hx; rewrite Mt, Pz by exact Hx; apply andb_comm).
    rewrite (filter_ext_in (fun a => negb (zmem (Z.of_nat (pr_period (mk a))) posts) && negb (pr_treated (mk a))) (fun x => negb (before (fst x) k) && negb (Nat.leb n_pre (snd x)))) by (intros x Hx; rewrite Mt, Pz by exact Hx; apply andb_comm).
    rewrite !(meanf_ext (fun a => pr_y (mk a)) (fun x => (10 + fe_sd * zu (fst x)) + (INR (snd x) / 2) + ind (before (fst x) k) * (effect * ind (Nat.leb n_pre (snd x))) + noise_sd * ze (fst x) (snd x))) by (intros x _; apply My).
    pose proof (gapat_split (seq 0 n) (seq 0 T) (fun u => before u k) (fun t => Z.eqb (Z.of_nat t) (Z.of_nat q)) (fun u => 10 + fe_sd * zu u) (fun t => INR t / 2)
      (fun t => effect * ind (Nat.leb n_pre t)) (fun x => noise_sd * ze (fst x) (snd x)) B1 B0) as S1.
    pose proof (gapat_split (seq 0 n) (seq 0 T) (fun u => before u k) (fun t => negb (Nat.leb n_pre t)) (fun u => 10 + fe_sd * zu u) (fun t => INR t / 2)
      (fun t => effect * ind (Nat.leb n_pre t)) (fun x => noise_sd * ze (fst x) (snd x)) B1 B0) as S0.
    assert (Q1 : filter (fun t => Z.eqb (Z.of_nat t) (Z.of_nat q)) (seq 0 T) <> []) by (apply (in_filter_ne _ _ q); [apply in_seq; lia|apply Z.eqb_refl]).
    assert (Q0 : filter (fun t => negb (Nat.leb n_pre t)) (seq 0 T) <> []) by (apply (in_filter_ne _ _ O); [apply in_seq; unfold T; lia|apply Bool.negb_true_iff, Nat.leb_gt; lia]).
    specialize (S1 Q1). specialize (S0 Q0).
    rewrite (meanf_ext (fun t => effect * ind (Nat.leb n_pre t)) (fun _ => effect) (filter (fun t => Z.eqb (Z.of_nat t) (Z.of_nat q)) (seq 0 T))) in S1.
    2:{ intros t Ht. apply filter_In in Ht. destruct Ht as [_ Ht]. apply Z.eqb_eq, Nat2Z.inj in Ht. subst t. rewrite (proj2 (Nat.leb_le _ _)) by lia. cbn. ring. }
    rewrite (meanf_ext (fun t => effect * ind (Nat.leb n_pre t)) (fun _ => 0) (filter (fun t => negb (Nat.leb n_pre t)) (seq 0 T))) in S0.
    2:{ intros t Ht. apply filter_In in Ht. destruct Ht as [_ Ht]. destruct (Nat.leb n_pre t); [discriminate|]. cbn. ring. }
    rewrite meanf_const in S1, S0 by assumption.
    unfold gapat in S1, S0. unfold noise_at, gapat. rewrite !meanf_scal in S1, S0. unfold grid. lra.
  - intros L Hr A Cl. unfold multi_on.
    assert (DP : forall p, In p (data_periods (map mk (grid n T)) (fun i => Z.of_nat (pr_period i))) <-> (0 <= p < Z.of_nat T)%Z).
    { intros p. rewrite data_periods_in. split.
      - intros (i & Hi & <-). destruct (Tin (Z.of_nat (pr_period i))) as (q & Hq & ->); [apply in_map_iff; exists i; auto|]. lia.
      - intros Hp. exists (mk (O, Z.to_nat p)). split; [apply in_map, in_prod; apply in_seq; lia|]. rewrite Mp. cbn [snd]. lia. }
    assert (Ldp : length (data_periods (map mk (grid n T)) (fun i => Z.of_nat (pr_period i))) = T).
    { transitivity (length (map Z.of_nat (seq 0 T))); [|rewrite map_length, seq_length; reflexivity]. apply Permutation_length. apply NoDup_Permutation.
      - apply data_periods_nodup.
      - apply FinFun.Injective_map_NoDup; [intros a b; apply Nat2Z.inj|apply seq_NoDup].
      - intros p. rewrite DP, in_map_iff. split; [intros Hp; exists (Z.to_nat p); split; [lia|apply in_seq; lia]|intros (q & <- & Hq); apply in_seq in Hq; lia]. }
    assert (Su : exists pre' ref', mp_setup (data_periods (map mk (grid n T)) (fun i => Z.of_nat (pr_period i))) (Some posts) ref = Ok (pre', posts, ref')).
    { unfold mp_setup, mp_periods. set (dp := data_periods _ _) in *.
      assert (P0 : exists a l, posts = a :: l) by (unfold posts; destruct n_post; [lia|eexists; eexists; reflexivity]). destruct P0 as (a & l & P0).
      assert (Q0 : exists x l', filter (fun p => negb (zmem p posts)) dp = x :: l').
      { destruct (filter (fun p => negb (zmem p posts)) dp) as [|x l'] eqn:Ef; [|eauto]. exfalso.
        apply (in_filter_ne (fun p => negb (zmem p posts)) dp 0%Z) in Ef; [exact Ef|apply DP; unfold T; lia|].
        apply Bool.negb_true_iff, zmem_false. change 0%Z with (Z.of_nat 0). rewrite Pin. lia. }
      destruct Q0 as (x & l' & ->).
      replace (forallb (fun p => zmem p dp) posts) with true.
      - cbn [negb]. destruct ref as [p|].
        + rewrite (proj2 (zmem_In p dp)) by (apply DP, Hr; reflexivity). exists (x :: l'), p. rewrite P0. reflexivity.
        + exists (x :: l'), x. rewrite P0. reflexivity.
      - symmetry. apply forallb_forall. intros p Hp. apply zmem_In, DP. unfold posts in Hp. apply in_map_iff in Hp. destruct Hp as (q & <- & Hq). apply in_seq in Hq. unfold T. lia. }
    destruct Su as (pre' & ref' & Su).
    destruct (mp_fit_defined keq geq qr lstsq inv sf ppf Hqr Hls Hinv cfg (map mk (grid n T)) pr_y (fun i => ind (pr_treated i)) (fun i => Z.of_nat (pr_period i)) (Some posts) ref pre' posts ref') as (r & Er & _); auto.
    + intros i _. destruct (pr_treated i); cbn; auto.
    + apply (share_ident (map mk (grid n T)) pr_treated (fun i => Z.of_nat (pr_period i)) posts _ (share_val n k Hk) Np).
      * intros p Hp. apply in_map_iff in Hp. destruct Hp as (q & <- & Hq). apply in_seq in Hq. rewrite map_map. apply in_map_iff. exists (O, q). rewrite Mp. split; [reflexivity|]. apply in_prod; apply in_seq; unfold T; lia.
      * exact Share.
      * apply (in_filter_ne _ _ (mk (O, O))); [apply in_map, in_prod; apply in_seq; unfold T; lia|]. rewrite Mp. cbn [snd]. apply Bool.negb_true_iff, zmem_false. rewrite Pin. lia.
    + rewrite Ldp. unfold posts. rewrite !map_length, seq_length. unfold grid. rewrite prod_length, !seq_length. lia.
    + destruct (c_cluster cfg) as [cl|] eqn:Ec; [apply Cl; reflexivity|exact Logic.I].
    + exists r. exact Er.
Qed.
End Event.

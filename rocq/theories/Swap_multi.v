(* MultiPeriodDiD: choosing another reference period changes no reported effect, and counting the other group as treated
   reverses every effect; covariates, dummies, absorbed columns, clusters included. *)
From Coq Require Import Reals Lra Lia.
From Verif Require Import Prelude Flt Linalg_model Linalg_proofs Linalg_vcov Linalg_thms Linalg_dual Linalg_rank Linalg_span Did_model Did_spec Did_proofs Did_equiv Span_thms Reg_effects
  Multi_model Multi_proofs Multi_thms Swap_proofs.
From Coq Require Import Arith ZArith String List.
Import ListNotations.
Open Scope R_scope.

Section Cross.
Context {I K : Type} (eqd : forall x y : K, {x = y} + {x <> y}).
Variable qr : list I -> list (I -> R) -> list nat.
Variable lstsq : list I -> list (I -> R) -> (I -> R) -> list R.
Variable inv : list I -> list (I -> R) -> option (nat -> nat -> R).
Hypothesis Hqr : qr_ok qr.
Hypothesis Hls : lstsq_ok lstsq.
Hypothesis Hinv : inv_ok inv.
Notation solve := (solve_ols eqd qr lstsq inv).

Definition score_x (rows : list I) (q q' e : I -> R) (cluster : option (I -> K)) : R :=
  match cluster with
  | None => sumf (fun i => (q i * e i) * (q' i * e i)) rows
  | Some cl => sumf (fun g => sumf (fun i => q i * e i) (filter (fun i => keqb eqd (cl i) g) rows) * sumf (fun i => q' i * e i) (filter (fun i => keqb eqd (cl i) g) rows))
                    (cl_keys eqd rows cl)
  end.
Lemma score_x_ext rows q q' p p' e e' cluster : (forall i, In i rows -> q i = p i) -> (forall i, In i rows -> q' i = p' i) -> (forall i, In i rows -> e i = e' i) ->
  score_x rows q q' e cluster = score_x rows p p' e' cluster.
Proof.
  intros H1 H2 H3. destruct cluster as [cl|]; cbn [score_x].
  - apply sumf_ext. intros g _. f_equal; apply sumf_ext; intros i Hi; apply filter_In in Hi as [Hi _]; now rewrite ?H1, ?H2, H3.
  - apply sumf_ext. intros i Hi. now rewrite H1, H2, H3.
Qed.
Lemma score_x_sign (rows : list I) q q' e cluster s : s * s = 1 -> score_x rows (fun i => s * q i) (fun i => s * q' i) e cluster = score_x rows q q' e cluster.
Proof.
  intros Hs. destruct cluster as [cl|]; cbn [score_x].
  - apply sumf_ext_all. intros g. set (l := filter _ rows).
    rewrite (sumf_ext_all (fun i => s * q i * e i) (fun i => s * (q i * e i))) by (intros; ring).
    rewrite (sumf_ext_all (fun i => s * q' i * e i) (fun i => s * (q' i * e i))) by (intros; ring). rewrite !sumf_scal.
    replace (s * sumf (fun i => q i * e i) l * (s * sumf (fun i => q' i * e i) l)) with (s * s * (sumf (fun i => q i * e i) l * sumf (fun i => q' i * e i) l)) by ring. rewrite Hs. ring.
  - apply sumf_ext_all. intros i. replace (s * q i * e i * (s * q' i * e i)) with (s * s * (q i * e i * (q' i * e i))) by ring. rewrite Hs. ring.
Qed.

(* every entry of the variance matrix between identified coefficients *)
Lemma ols_cross rows cols y cluster action o W j m q q' : solve rows cols y cluster true action = Ok o -> o_vcov o = Some W -> dual rows cols j q -> dual rows cols m q' ->
  W j m = Fin (adj_k eqd rows (n_reported (o_coef o)) cluster * score_x rows q q' (o_resid o) cluster).
Proof.
  intros H EWo Hd Hd'.
  destruct (solve_ols_shape eqd qr lstsq inv Hls _ _ _ _ _ _ _ H) as (Lb & Ec & Ef & Er & _ & Hv & _ & Hle). cbn iota in Hv.
  destruct (dual_restrict qr Hqr rows cols j q Hd) as (p & Ep & Dx). destruct (dual_restrict qr Hqr rows cols m q' Hd') as (p' & Ep' & Dx').
  set (kept := kept_cols (length cols) (qr rows cols)) in *. set (xr := select_cols cols kept) in *. set (b := lstsq rows xr y) in *.
  assert (Lx : length xr = length kept) by (unfold xr, select_cols; now rewrite map_length).
  assert (Nr : n_reported (o_coef o) = length xr) by (rewrite Ec, Lx; apply n_reported_kept).
  destruct Hv as (V & EV & W' & EW & HE). rewrite EWo in EW. injection EW as <-.
  destruct Hd as (Hj & _ & _). destruct Hd' as (Hm & _ & _).
  rewrite HE by easy. unfold expand_vcov. rewrite Ep, Ep'.
  destruct (robust_vcov_shape eqd inv Hinv _ _ _ _ _ EV) as (_ & _ & B & HB & EVB).
  assert (QE : forall i, In i rows -> qcol xr B p i = q i) by (apply (qcol_unique rows xr B p q HB); apply Dx).
  assert (QE' : forall i, In i rows -> qcol xr B p' i = q' i) by (apply (qcol_unique rows xr B p' q' HB); apply Dx').
  f_equal. rewrite EVB, Nr. unfold adj_of, meat_of.
  rewrite <- (score_x_ext rows (qcol xr B p) (qcol xr B p') q q' (fun i => y i - lc xr b i) (o_resid o) cluster QE QE' (fun i _ => eq_sym (Er i))).
  destruct cluster as [cl|]; [rewrite cl_dual|rewrite hc1_dual]; reflexivity.
Qed.
Lemma inverse_cross (rows : list I) cols B p p' q q' : is_inverse rows cols B -> dual rows cols p q -> dual rows cols p' q' -> B p p' = ip rows q q'.
Proof.
  intros HB (Hp & Hs & Hq) (Hp' & Hs' & Hq'). transitivity (ip rows (qcol cols B p) q'); [|apply ip_ext; [apply (qcol_unique rows cols B p q HB Hp Hs Hq)|easy]].
  unfold ip, qcol. rewrite (sumf_ext_all _ (fun i => sumf (fun a => B p a * (colx cols a i * q' i)) (seq 0 (length cols)))).
  - rewrite sumf_swap. rewrite (sumf_ext _ (fun a => ind (keqb Nat.eq_dec p' a) * B p p')); [rewrite sumf_ind_key; [easy|apply seq_NoDup|apply in_seq; lia]|].
    intros a Ha. apply in_seq in Ha. rewrite sumf_scal. specialize (Hq' a ltac:(lia)). unfold ip in Hq'. rewrite Hq'.
    destruct (a =? p')%nat eqn:E; [apply Nat.eqb_eq in E; subst a; rewrite keqb_refl; unfold ind; ring|]. apply Nat.eqb_neq in E.
    replace (keqb Nat.eq_dec p' a) with false; [unfold ind; ring|]. symmetry. apply keqb_false. congruence.
  - intros i. rewrite <- sumf_scal_r. apply sumf_ext_all. intros. ring.
Qed.
Lemma mp_classical_cross rows cols y cluster rv action o : solve rows cols y cluster rv action = Ok o ->
  exists V, mp_classical inv rows cols (o_coef o) (o_resid o) = Ok V /\
   forall j m q q', dual rows cols j q -> dual rows cols m q' ->
     V j m = fmul (fdiv (Fin (sumf (fun i => o_resid o i * o_resid o i) rows)) (Fin (INR (length rows) - INR (n_reported (o_coef o))))) (Fin (ip rows q q')).
Proof.
  intros H. destruct (solve_ols_shape eqd qr lstsq inv Hls _ _ _ _ _ _ _ H) as (_ & Ec & _).
  unfold mp_classical. rewrite Ec, finite_positions_kept, n_reported_kept. set (kept := kept_cols (length cols) (qr rows cols)) in *.
  assert (Hi := Hinv rows (select_cols cols kept)). destruct (inv rows (select_cols cols kept)) as [B|] eqn:EB.
  2: { exfalso. apply Hi. apply (Hqr rows cols). }
  eexists. split; [reflexivity|]. intros j m q q' D D'. cbv beta.
  destruct (dual_restrict qr Hqr rows cols j q D) as (p & Ep & Dx). destruct (dual_restrict qr Hqr rows cols m q' D') as (p' & Ep' & Dx').
  fold kept in Ep, Ep', Dx, Dx'. rewrite Ep, Ep'. do 2 f_equal. now apply (inverse_cross rows (select_cols cols kept)).
Qed.
Lemma solve_ok_span rows cols cols' y y' cluster rv action : length cols' = length cols -> same_span rows cols cols' ->
  is_ok (solve rows cols y cluster rv action) = is_ok (solve rows cols' y' cluster rv action).
Proof. intros HL Sp. rewrite !(solve_is_ok eqd qr lstsq inv Hqr Hinv). now rewrite (rank_unique qr qr rows cols cols' Hqr Hqr Sp), HL. Qed.
Lemma solve_resid_span rows cols cols' y cluster cluster' rv rv' action action' o o' : solve rows cols y cluster rv action = Ok o -> solve rows cols' y cluster' rv' action' = Ok o' -> same_span rows cols cols' ->
  n_reported (o_coef o') = n_reported (o_coef o) /\ forall i, In i rows -> o_resid o' i = o_resid o i.
Proof.
  intros H H' Sp. destruct (solve_ols_shape eqd qr lstsq inv Hls _ _ _ _ _ _ _ H) as (_ & C & _). destruct (solve_ols_shape eqd qr lstsq inv Hls _ _ _ _ _ _ _ H') as (_ & C' & _).
  split; [rewrite C, C', !n_reported_kept; symmetry; now apply rank_unique|].
  destruct (solve_ols_shape eqd qr lstsq inv Hls _ _ _ _ _ _ _ H) as (_ & _ & _ & Er & _).
  destruct (solve_ols_shape eqd qr lstsq inv Hls _ _ _ _ _ _ _ H') as (_ & _ & _ & Er' & _).
  intros i Hi. rewrite Er, Er'. f_equal.
  set (xr := select_cols cols _). set (xr' := select_cols cols' _).
  assert (Sx : same_span rows xr' xr).
  { destruct Sp as [S1 S2]. destruct (Hqr rows cols) as [A _]. destruct (Hqr rows cols') as [A' _].
    split; intros c Hc.
    - apply (span_trans rows cols); [apply (qr_ok_span rows cols _ A)|]. apply S2. unfold xr', select_cols in Hc. apply in_map_iff in Hc as (a & <- & Ha). apply kept_cols_lt in Ha as [Ha _]. now apply nth_In.
    - apply (span_trans rows cols'); [apply (qr_ok_span rows cols' _ A')|]. apply S1. unfold xr, select_cols in Hc. apply in_map_iff in Hc as (a & <- & Ha). apply kept_cols_lt in Ha as [Ha _]. now apply nth_In. }
  apply (is_ls_span rows xr' xr y _ _ Sx (Hls rows xr' y) (Hls rows xr y) i Hi).
Qed.
End Cross.

Section Mp.
Context {I K G : Type} (keq : forall x y : K, {x = y} + {x <> y}) (geq : forall x y : G, {x = y} + {x <> y}).
Variable qr : list I -> list (I -> R) -> list nat.
Variable lstsq : list I -> list (I -> R) -> (I -> R) -> list R.
Variable inv : list I -> list (I -> R) -> option (nat -> nat -> R).
Variable sf : option Z -> fl -> fl.
Variable ppf : option Z -> R -> R.
Hypothesis Hqr : qr_ok qr.
Hypothesis Hls : lstsq_ok lstsq.
Hypothesis Hinv : inv_ok inv.
Notation fit := (mp_fit keq geq qr lstsq inv sf ppf).
Notation nonref all ref := (filter (fun p => negb (Z.eqb p ref)) all).

(* which column stands at a position *)
Lemma design_cases (d : I -> R) t all post ref extra a : (a < length (mp_design d t all post ref extra))%nat ->
  (a = 0%nat /\ colx (mp_design d t all post ref extra) a = (fun _ => 1)) \/
  (a = 1%nat /\ colx (mp_design d t all post ref extra) a = d) \/
  ((a < mp_index all ref 0)%nat /\ exists p, In p (nonref all ref) /\ colx (mp_design d t all post ref extra) a = at_period t p) \/
  (exists k, (k < length post)%nat /\ a = mp_index all ref k /\ colx (mp_design d t all post ref extra) a = (fun i => d i * at_period t (nth k post 0%Z) i)) \/
  ((mp_index all ref (length post) <= a)%nat /\ In (colx (mp_design d t all post ref extra) a) extra).
Proof.
  unfold colx, mp_design, mp_index. rewrite !app_length, !map_length. cbn [length]. intros Ha.
  destruct a as [|[|a]]; [now left|right; now left|]. right. right. cbn [app nth]. 
  destruct (Nat.lt_ge_cases a (length (nonref all ref))) as [L|L].
  - left. split; [lia|]. exists (nth a (nonref all ref) 0%Z). split; [now apply nth_In|].
    rewrite app_nth1 by (rewrite map_length; auto). rewrite nth_indep with (d' := at_period t 0%Z) by (rewrite map_length; auto). apply map_nth.
  - right. rewrite app_nth2 by (rewrite map_length; auto). rewrite map_length. set (k := (a - length (nonref all ref))%nat).
    destruct (Nat.lt_ge_cases k (length post)) as [L2|L2].
    + left. exists k. split; [auto|]. split; [lia|]. rewrite app_nth1 by (rewrite map_length; auto).
      rewrite nth_indep with (d' := (fun p i => d i * at_period t p i) 0%Z) by (rewrite map_length; auto). now rewrite (map_nth (fun p i => d i * at_period t p i)).
    + right. split; [lia|]. rewrite app_nth2 by (rewrite map_length; auto). rewrite map_length. apply nth_In. lia.
Qed.
Lemma design_inter (d : I -> R) t all post ref extra k : (k < length post)%nat ->
  (mp_index all ref k < length (mp_design d t all post ref extra))%nat /\
  colx (mp_design d t all post ref extra) (mp_index all ref k) = (fun i => d i * at_period t (nth k post 0%Z) i).
Proof.
  intros Hk. assert (L : (mp_index all ref k < length (mp_design d t all post ref extra))%nat) by (unfold mp_design, mp_index; rewrite !app_length, !map_length; cbn [length]; lia).
  split; [exact L|]. destruct (design_cases d t all post ref extra _ L) as [[E _]|[[E _]|[[E _]|[(k' & Hk' & E & ->)|[E _]]]]]; unfold mp_index in E; try lia.
  now assert (k = k') as -> by lia.
Qed.
Lemma design_in_one (d : I -> R) t all post ref extra : In (fun _ => 1) (mp_design d t all post ref extra). Proof. now left. Qed.
Lemma design_in_d (d : I -> R) t all post ref extra : In d (mp_design d t all post ref extra). Proof. right. now left. Qed.
Lemma design_in_period (d : I -> R) t all post ref extra p : In p (nonref all ref) -> In (at_period t p) (mp_design d t all post ref extra).
Proof. intros H. unfold mp_design. apply in_or_app. right. apply in_or_app. left. now apply in_map. Qed.
Lemma design_in_inter (d : I -> R) t all post ref extra p : In p post -> In (fun i => d i * at_period t p i) (mp_design d t all post ref extra).
Proof. intros H. unfold mp_design. apply in_or_app. right. apply in_or_app. right. apply in_or_app. left. exact (in_map (fun p i => d i * at_period t p i) post p H). Qed.
Lemma design_in_extra (d : I -> R) t all post ref extra c : In c extra -> In c (mp_design d t all post ref extra).
Proof. intros H. unfold mp_design. do 3 (apply in_or_app; right). exact H. Qed.

(* the indicators of all periods add up to one *)
Lemma span_sumf {A} (rows : list I) cols (f : A -> I -> R) l : (forall a, In a l -> span rows cols (f a)) -> span rows cols (fun i => sumf (fun a => f a i) l).
Proof.
  induction l as [|a l IH]; intros H; [apply span_zero|].
  change (span rows cols (fun i => f a i + sumf (fun a => f a i) l)). apply span_add; [apply H; now left|]. apply IH. intros; apply H; now right.
Qed.
Lemma period_span (rows : list I) t all ref cols p : NoDup all -> (forall i, In i rows -> In (t i) all) -> In ref all -> In p all ->
  In (fun _ => 1) cols -> (forall p, In p (nonref all ref) -> In (at_period t p) cols) -> span rows cols (at_period t p).
Proof.
  intros Nd Ht Hr Hp H1 H2. destruct (Z.eq_dec p ref) as [->|Hne].
  2: { apply span_in, H2, filter_In. split; [auto|]. apply Bool.negb_true_iff. now apply Z.eqb_neq. }
  apply (span_ext rows cols (fun i => 1 - sumf (fun p => at_period t p i) (nonref all ref))).
  - intros i Hi. assert (E : sumf (fun p => at_period t p i) all = 1).
    { unfold at_period. rewrite (sumf_ext_all _ (fun p => ind (keqb Z.eq_dec (t i) p) * 1)).
      - apply sumf_ind_key; [exact Nd|exact (Ht i Hi)].
      - intros p. rewrite Rmult_1_r. f_equal. unfold keqb. destruct (Z.eq_dec (t i) p) as [->|Hx]; [apply Z.eqb_refl|now apply Z.eqb_neq]. }
    assert (S : forall l, NoDup l -> In ref l -> sumf (fun p => at_period t p i) l = at_period t ref i + sumf (fun p => at_period t p i) (nonref l ref)).
    { assert (S0 : forall l, ~ In ref l -> nonref l ref = l).
      { induction l as [|x l IH]; intros N; [reflexivity|]. cbn [filter]. assert ((x =? ref)%Z = false) as -> by (apply Z.eqb_neq; intros ->; apply N; now left). cbn [negb]. f_equal. apply IH. intros X. apply N. now right. }
      induction l as [|x l IH]; intros N Hin; [contradiction|]. apply NoDup_cons_iff in N as [N1 N2]. cbn [filter].
      destruct (x =? ref)%Z eqn:Ex; cbn [negb].
      - apply Z.eqb_eq in Ex. subst x. now rewrite (S0 l N1).
      - destruct Hin as [->|Hin]; [rewrite Z.eqb_refl in Ex; discriminate|]. specialize (IH N2 Hin).
        change (at_period t x i + sumf (fun p => at_period t p i) l = at_period t ref i + (at_period t x i + sumf (fun p => at_period t p i) (nonref l ref))). lra. }
    specialize (S all Nd Hr). lra.
  - apply span_sub; [now apply span_in|]. apply span_sumf. intros a Ha. apply span_in. now apply H2.
Qed.

Lemma design_same_span rows (d d' : I -> R) t all post ref ref' extra s : s * s = 1 -> (forall i, In i rows -> d' i = (1 - s) / 2 + s * d i) ->
  NoDup all -> (forall i, In i rows -> In (t i) all) -> In ref all -> In ref' all -> incl post all ->
  same_span rows (mp_design d t all post ref extra) (mp_design d' t all post ref' extra).
Proof.
  intros Hs Hd Nd Ht Hr Hr' Hp.
  assert (G0 : forall (d d' : I -> R) ref ref' s, s * s = 1 -> (forall i, In i rows -> d i = (1 - s) / 2 + s * d' i) -> In ref all -> In ref' all ->
    forall c, In c (mp_design d t all post ref extra) -> span rows (mp_design d' t all post ref' extra) c).
  { clear Hs Hd Hr Hr' d d' ref ref' s. intros d d' ref ref' s Hs Hd Hr Hr' c Hc.
    assert (P : forall p, In p all -> span rows (mp_design d' t all post ref' extra) (at_period t p)).
    { intros p Hpa. apply (period_span rows t all ref'); auto; [apply design_in_one|intros; now apply design_in_period]. }
    assert (O1 : span rows (mp_design d' t all post ref' extra) (fun _ => 1)) by (apply span_in, design_in_one).
    unfold mp_design in Hc. apply in_app_or in Hc as [[<-|[<-|[]]]|Hc]; [exact O1| |].
    - apply (span_ext rows _ (fun i => (1 - s) / 2 * 1 + s * d' i)); [intros i Hi; rewrite Hd by auto; ring|].
      apply span_add; [now apply (span_scal rows _ ((1 - s) / 2) (fun _ => 1))|apply span_scal, span_in, design_in_d].
    - apply in_app_or in Hc as [Hc|Hc].
      + apply in_map_iff in Hc as (p & <- & Hc). apply filter_In in Hc as [Hc _]. now apply P.
      + apply in_app_or in Hc as [Hc|Hc]; [|now apply span_in, design_in_extra].
        apply in_map_iff in Hc as (p & <- & Hc).
        apply (span_ext rows _ (fun i => (1 - s) / 2 * at_period t p i + s * (d' i * at_period t p i))); [intros i Hi; rewrite Hd by auto; ring|].
        apply span_add; [now apply span_scal, P, Hp|]. apply (span_scal rows _ s (fun i => d' i * at_period t p i)). now apply span_in, design_in_inter. }
  split; [apply (G0 d d' ref ref' s); auto|apply (G0 d' d ref' ref s); auto].
  intros i Hi. rewrite Hd by auto. replace ((1 - s) / 2 + s * ((1 - s) / 2 + s * d i)) with ((1 - s * s) / 2 + (s * s) * d i) by field. rewrite Hs. field.
Qed.
Lemma design_signed rows (d d' : I -> R) t all post ref ref' extra s k q : s * s = 1 -> (forall i, In i rows -> d' i = (1 - s) / 2 + s * d i) ->
  NoDup all -> (forall i, In i rows -> In (t i) all) -> In ref all -> In ref' all -> incl post all -> (k < length post)%nat ->
  dual rows (mp_design d t all post ref extra) (mp_index all ref k) q -> dual rows (mp_design d' t all post ref' extra) (mp_index all ref' k) (fun i => s * q i).
Proof.
  intros Hs Hd Nd Ht Hr Hr' Hp Hk D. assert (Sp := design_same_span rows d d' t all post ref ref' extra s Hs Hd Nd Ht Hr Hr' Hp).
  apply (dual_transfer rows _ _ _ _ q s D Sp); [now apply design_inter|exact Hs|].
  destruct D as (_ & _ & H).
  assert (E1 : ip rows (fun _ => 1) q = 0).
  { specialize (H 0%nat). cbn in H. apply H. lia. }
  assert (Ed : ip rows d q = 0).
  { specialize (H 1%nat). cbn in H. apply H. lia. }
  assert (Ep : forall p, In p (nonref all ref) -> ip rows (at_period t p) q = 0).
  { intros p Hpn. apply (In_nth _ _ 0%Z) in Hpn as (n & Hn & <-). specialize (H (2 + n)%nat).
    assert (L : (2 + n < length (mp_design d t all post ref extra))%nat) by (unfold mp_design; rewrite !app_length, !map_length; cbn [length]; lia).
    specialize (H L). assert ((2 + n =? mp_index all ref k)%nat = false) as X by (apply Nat.eqb_neq; unfold mp_index; lia). rewrite X in H.
    rewrite <- H. f_equal. unfold colx, mp_design. cbn [app nth Nat.add]. rewrite app_nth1 by (rewrite map_length; auto).
    rewrite nth_indep with (d' := at_period t 0%Z) by (rewrite map_length; auto). symmetry. apply map_nth. }
  assert (Ea : forall p, In p all -> ip rows (at_period t p) q = 0).
  { intros p Hpa. refine (orth_span rows ((fun _ => 1) :: map (at_period t) (nonref all ref)) q _ _ _).
    - apply Forall_forall. intros c [<-|Hc]; [exact E1|]. apply in_map_iff in Hc as (p' & <- & Hc). now apply Ep.
    - apply (period_span rows t all ref); auto; [now left|]. intros p' Hp'. right. now apply in_map. }
  assert (Ei : forall n, (n < length post)%nat -> ip rows (fun i => d i * at_period t (nth n post 0%Z) i) q = if Nat.eqb n k then 1 else 0).
  { intros n Hn. destruct (design_inter d t all post ref extra n Hn) as [L C]. specialize (H _ L). rewrite C in H. rewrite H.
    destruct (Nat.eqb n k) eqn:E; [apply Nat.eqb_eq in E; subst; now rewrite Nat.eqb_refl|]. apply Nat.eqb_neq in E.
    assert ((mp_index all ref n =? mp_index all ref k)%nat = false) as -> by (apply Nat.eqb_neq; unfold mp_index; lia). reflexivity. }
  assert (Ex : forall c, In c extra -> ip rows c q = 0).
  { intros c Hc. apply (In_nth _ _ (fun _ => 0)) in Hc as (n & Hn & <-). specialize (H (mp_index all ref (length post) + n)%nat).
    assert (L : (mp_index all ref (length post) + n < length (mp_design d t all post ref extra))%nat) by (unfold mp_design, mp_index; rewrite !app_length, !map_length; cbn [length]; lia).
    specialize (H L). assert ((mp_index all ref (length post) + n =? mp_index all ref k)%nat = false) as X by (apply Nat.eqb_neq; unfold mp_index; lia). rewrite X in H.
    refine (eq_trans _ H). apply (f_equal (fun c => ip rows c q)). unfold colx, mp_design, mp_index. cbn [app nth Nat.add].
    rewrite app_nth2 by (rewrite map_length; lia). rewrite map_length. rewrite app_nth2 by (rewrite map_length; lia). rewrite map_length.
    match goal with |- _ = nth ?m _ _ => replace m with n by lia end. reflexivity. }
  intros a Ha. destruct (design_cases d' t all post ref' extra a Ha) as [[E ->]|[[E ->]|[[E (p & Hpn & ->)]|[(n & Hn & E & ->)|[E Hin]]]]].
  - assert ((a =? mp_index all ref' k)%nat = false) as -> by (apply Nat.eqb_neq; unfold mp_index; lia). exact E1.
  - assert ((a =? mp_index all ref' k)%nat = false) as -> by (apply Nat.eqb_neq; unfold mp_index; lia).
    rewrite (ip_ext rows d' (fun i => (1 - s) / 2 * 1 + s * d i) q q) by (auto; intros i Hi; rewrite Hd by auto; ring).
    rewrite ip_add_l, !ip_scal_l, E1, Ed. ring.
  - assert ((a =? mp_index all ref' k)%nat = false) as -> by (apply Nat.eqb_neq; unfold mp_index in *; lia). apply Ea. now apply filter_In in Hpn.
  - rewrite (ip_ext rows _ (fun i => (1 - s) / 2 * at_period t (nth n post 0%Z) i + s * (d i * at_period t (nth n post 0%Z) i)) q q) by (auto; intros i Hi; rewrite Hd by auto; ring).
    rewrite ip_add_l, ip_scal_l, (ip_scal_l rows q s (fun i => d i * at_period t (nth n post 0%Z) i)), Ei by auto. rewrite Ea by (apply Hp, nth_In; auto).
    subst a. destruct (Nat.eqb n k) eqn:E2; [apply Nat.eqb_eq in E2; subst; rewrite Nat.eqb_refl; ring|]. apply Nat.eqb_neq in E2.
    assert ((mp_index all ref' n =? mp_index all ref' k)%nat = false) as -> by (apply Nat.eqb_neq; unfold mp_index; lia). ring.
  - assert ((a =? mp_index all ref' k)%nat = false) as -> by (apply Nat.eqb_neq; unfold mp_index in *; lia). now apply Ex.
Qed.

(* one period's numbers for the opposite estimate with the same variance *)
Definition opposite_effect (e e' : period_effect) : Prop :=
  pe_period e' = pe_period e /\ pe_effect e' = fneg (pe_effect e) /\ pe_se e' = pe_se e /\ pe_t e' = fneg (pe_t e) /\ pe_p e' = pe_p e /\
  pe_ci e' = (fneg (snd (pe_ci e)), fneg (fst (pe_ci e))).
Lemma fdiv_opp x v : fdiv (Fin (- x)) v = fneg (fdiv (Fin x) v).
Proof.
  destruct v as [e| | |]; cbn; try reflexivity; try (f_equal; ring). destruct (Req_EM_T e 0).
  - unfold fsgn_inf. destruct (total_order_T x 0) as [[?|?]|?]; repeat match goal with |- context [if ?b then _ else _] => destruct b end; try lra; reflexivity.
  - cbn. f_equal. field. auto.
Qed.
Lemma u_ci_opp x v al df : u_ci ppf (Fin (- x)) v al df = (fneg (snd (u_ci ppf (Fin x) v al df)), fneg (fst (u_ci ppf (Fin x) v al df))).
Proof. unfold u_ci. cbn [fst snd]. set (w := fmul _ v). destruct w as [w| | |]; cbn; try reflexivity. f_equal; f_equal; ring. Qed.
Lemma u_p_opp t df : u_p_value sf (fneg t) df = u_p_value sf t df.
Proof. unfold u_p_value. do 2 f_equal. destruct t; cbn; auto. now rewrite Rabs_Ropp. Qed.
Lemma effect_opp al df coef coef' V V' p idx idx' x : nth idx coef NaN = Fin x -> nth idx' coef' NaN = Fin (- x) -> V' idx' idx' = V idx idx ->
  opposite_effect (mp_effect sf ppf al df coef V p idx) (mp_effect sf ppf al df coef' V' p idx').
Proof.
  intros E E' EV. unfold opposite_effect, mp_effect. cbn [pe_period pe_effect pe_se pe_t pe_p pe_ci]. rewrite E, E', EV, fdiv_opp, u_p_opp, u_ci_opp. repeat split; reflexivity.
Qed.
Lemma average_idx al df es V V' (f g : nat -> nat) l : (forall j m, In j l -> In m l -> V (f j) (f m) = V' (g j) (g m)) ->
  mp_average sf ppf al df es V (map f l) = mp_average sf ppf al df es V' (map g l).
Proof.
  intros H. unfold mp_average. rewrite !map_map, !map_length.
  replace (map (fun a => fsum (map (fun b => V (f a) b) (map f l))) l) with (map (fun a => fsum (map (fun b => V' (g a) b) (map g l))) l); [reflexivity|].
  apply map_ext_in. intros j Hj. f_equal. rewrite !map_map. apply map_ext_in. intros m Hm. symmetry. now apply H.
Qed.
Lemma average_opp al df es V idxs : es <> [] -> forall av se ts pv ci, mp_average sf ppf al df (map Fin es) V idxs = (av, se, ts, pv, ci) ->
  mp_average sf ppf al df (map Fin (map Ropp es)) V idxs = (fneg av, se, fneg ts, pv, (fneg (snd ci), fneg (fst ci))).
Proof.
  intros Hne av se ts pv ci. unfold mp_average. rewrite !existsb_fin.
  assert (Hne' : map Ropp es <> []) by (destruct es; [congruence|discriminate]). rewrite !fmean_fin by auto.
  replace (meanf idR (map Ropp es)) with (- meanf idR es).
  2:{ unfold meanf. rewrite len_map, sumf_map. rewrite (sumf_ext_all (fun x => idR (- x)) (fun x => - idR x)) by (intros; unfold idR; ring). rewrite sumf_opp.
      unfold Rdiv. ring. }
  set (v := fdiv _ _). destruct (fisnan v || flt v (Fin 0))%bool; [intros [= <- <- <- <- <-]; reflexivity|].
  destruct (fgt (fsqrt v) (Fin 0)); intros [= <- <- <- <- <-]; [|reflexivity]. rewrite fdiv_opp, u_p_opp, u_ci_opp. reflexivity.
Qed.

Lemma fit_unfold cfg rows y d t post ref covs dums absorb pre po rf y' covs' nabs o V : two_values rows (fun i => Fin (d i)) = true -> binary rows (fun i => Fin (d i)) = true ->
  (2 <= length (data_periods rows t))%nat -> mp_setup (data_periods rows t) post ref = Ok (pre, po, rf) -> absorb_loop geq rows absorb y covs = (y', covs', nabs) ->
  let cols := mp_design d t (data_periods rows t) po rf (covs' ++ dums) in
  solve_ols keq qr lstsq inv rows cols y' (c_cluster cfg) true (c_action cfg) = Ok o ->
  (if negb (c_robust cfg) && (match c_cluster cfg with None => true | _ => false end) then mp_classical inv rows cols (o_coef o) (o_resid o)
   else match o_vcov o with Some V => Ok V | None => Err TypeError end) = Ok V ->
  let df := (Z.of_nat (length rows) - n_effective (o_coef o) - nabs)%Z in
  let idxs := map (mp_index (data_periods rows t) rf) (seq 0 (length po)) in
  let effs := map (fun pj => mp_effect sf ppf (c_alpha cfg) df (o_coef o) V (fst pj) (snd pj)) (combine po idxs) in
  exists r, mp_fit keq geq qr lstsq inv sf ppf cfg rows y d t post ref covs dums absorb = Ok r /\ mp_effects r = effs /\ mp_pre r = pre /\ mp_post r = po /\ mp_ref r = rf /\ mp_df r = df /\
    mp_n_obs r = length rows /\ mp_n_treated r = sumf d rows /\ mp_n_control r = sumf (fun i => 1 - d i) rows /\ mp_resid r = o_resid o /\
    (mp_avg r, mp_avg_se r, mp_avg_t r, mp_avg_p r, mp_avg_ci r) = mp_average sf ppf (c_alpha cfg) df (map pe_effect effs) V idxs.
Proof.
  intros H1 H2 H3 H4 H5 cols H6 H7 df idxs effs. unfold mp_fit. fold (data_periods rows t). rewrite H1, H2. cbn [negb].
  assert (Nat.ltb (length (data_periods rows t)) 2 = false) as -> by (apply Nat.ltb_ge; lia). rewrite H4. cbn [bind]. rewrite H5. fold cols. rewrite H6. cbn [bind].
  match goal with |- context [bind ?x _] => replace x with (Ok V : res (nat -> nat -> fl)) by (symmetry; exact H7) end. cbn [bind]. fold df. fold idxs. fold effs.
  destruct (mp_average sf ppf (c_alpha cfg) df (map pe_effect effs) V idxs) as [[[[av se] ts] pv] ci]. eexists. split; [reflexivity|]. repeat split; reflexivity.
Qed.

Lemma nonref_length all ref : NoDup all -> In ref all -> S (length (nonref all ref)) = length all.
Proof.
  induction all as [|a l IH]; intros N Hr0; [destruct Hr0|]. apply NoDup_cons_iff in N as [Na N]. destruct Hr0 as [->|Hr]; cbn [filter length].
  - rewrite Z.eqb_refl. cbn [negb]. f_equal.
    assert (E : filter (fun p => negb (p =? ref)%Z) l = l); [|now rewrite E].
    clear IH N. induction l as [|b l IH]; [reflexivity|]. cbn [filter]. destruct (Z.eqb_spec b ref) as [->|_]; [exfalso; apply Na; now left|]. cbn [negb]. f_equal. apply IH. intros H. apply Na. now right.
  - destruct (Z.eqb_spec a ref) as [->|_]; [contradiction|]. cbn [negb length]. f_equal. now apply IH.
Qed.
Lemma mp_change cfg rows y d d' t post ref ref' covs dums absorb r s y' covs' nabs rf' : let all := data_periods rows t in
  mp_fit keq geq qr lstsq inv sf ppf cfg rows y d t post ref covs dums absorb = Ok r -> absorb_loop geq rows absorb y covs = (y', covs', nabs) ->
  s * s = 1 -> (forall i, In i rows -> d' i = (1 - s) / 2 + s * d i) -> two_values rows (fun i => Fin (d' i)) = true -> binary rows (fun i => Fin (d' i)) = true ->
  mp_setup all post ref' = Ok (mp_pre r, mp_post r, rf') ->
  (forall j, (j < length (mp_post r))%nat -> identified_col rows (mp_design d t all (mp_post r) (mp_ref r) (covs' ++ dums)) (mp_index all (mp_ref r) j)) ->
  exists r', mp_fit keq geq qr lstsq inv sf ppf cfg rows y d' t post ref' covs dums absorb = Ok r' /\
    mp_pre r' = mp_pre r /\ mp_post r' = mp_post r /\ mp_ref r' = rf' /\ mp_df r' = mp_df r /\ mp_n_obs r' = mp_n_obs r /\
    mp_n_treated r' = sumf d' rows /\ mp_n_control r' = sumf (fun i => 1 - d' i) rows /\
    (forall i, In i rows -> mp_resid r' i = mp_resid r i) /\
    (s = 1 -> mp_effects r' = mp_effects r /\ mp_avg r' = mp_avg r /\ mp_avg_se r' = mp_avg_se r /\ mp_avg_t r' = mp_avg_t r /\ mp_avg_p r' = mp_avg_p r /\ mp_avg_ci r' = mp_avg_ci r) /\
    (s = -1 -> Forall2 opposite_effect (mp_effects r) (mp_effects r') /\ mp_avg r' = fneg (mp_avg r) /\ mp_avg_se r' = mp_avg_se r /\ mp_avg_t r' = fneg (mp_avg_t r) /\
       mp_avg_p r' = mp_avg_p r /\ mp_avg_ci r' = (fneg (snd (mp_avg_ci r)), fneg (fst (mp_avg_ci r)))).
Proof.
  intros all H EA Hs Hd' V2 B2 S2 Hid.
  destruct (mp_fit_inv keq geq qr lstsq inv sf ppf _ _ _ _ _ _ _ _ _ _ _ H)
    as (Zd & S0 & y0 & covs0 & nabs0 & o & idxs & EA' & Ho & Hco & Hre & _ & Hdf & Eidx & Heff & Havg).
  rewrite EA in EA'. injection EA' as <- <- <-. fold all in S0, Ho, Eidx. set (cols := mp_design d t all (mp_post r) (mp_ref r) (covs' ++ dums)) in *.
  assert (Hn : mp_n_obs r = length rows /\ (2 <= length all)%nat /\
     (if negb (c_robust cfg) && (match c_cluster cfg with None => true | _ => false end) then mp_classical inv rows cols (o_coef o) (o_resid o)
      else match o_vcov o with Some V => Ok V | None => Err TypeError end) = Ok (mp_vcov r)).
  { unfold mp_fit in H. cbv zeta in H. fold (data_periods rows t) in H. fold all in H.
    destruct (negb _) eqn:E1 in H; [discriminate|]. destruct (negb _) eqn:E2 in H; [discriminate|].
    destruct (Nat.ltb _ 2) eqn:E3 in H; [discriminate|]. rewrite S0 in H. cbn [bind] in H. rewrite EA in H. fold cols in H. rewrite Ho in H. cbn [bind] in H.
    match type of H with bind ?x _ = _ => destruct x as [V|] eqn:EV end; [|discriminate]. cbn [bind] in H.
    match type of H with context [mp_average ?a ?b ?c ?dd ?e ?f ?g] => destruct (mp_average a b c dd e f g) as [[[[av se] ts] pv] ci] end.
    injection H as E. apply Nat.ltb_ge in E3. split; [now rewrite <- E|]. split; [exact E3|]. rewrite <- E. cbn [mp_vcov]. first [exact EV|reflexivity]. }
  destruct Hn as (Hn & L2 & HV).
  destruct (mp_setup_ok _ _ _ _ _ _ S0 (data_periods_nodup rows t)) as (_ & Hpost & Hinc & Hrf & _).
  destruct (mp_setup_ok _ _ _ _ _ _ S2 (data_periods_nodup rows t)) as (_ & _ & _ & Hrf' & _).
  assert (Ht : forall i, In i rows -> In (t i) all) by (intros i Hi; apply data_periods_in; eauto).
  set (cols' := mp_design d' t all (mp_post r) rf' (covs' ++ dums)).
  assert (Sp : same_span rows cols cols') by (apply (design_same_span rows d d' t all (mp_post r) (mp_ref r) rf' (covs' ++ dums) s); auto; apply data_periods_nodup).
  assert (LL : length cols' = length cols).
  { unfold cols, cols', mp_design. rewrite !app_length, !map_length. cbn [length].
    pose proof (nonref_length all (mp_ref r) (data_periods_nodup rows t) Hrf). pose proof (nonref_length all rf' (data_periods_nodup rows t) Hrf'). lia. }
  assert (Hok : is_ok (solve_ols keq qr lstsq inv rows cols' y' (c_cluster cfg) true (c_action cfg)) = true).
  { rewrite <- (solve_ok_span keq qr lstsq inv Hqr Hinv rows cols cols' y' y' _ _ _ LL Sp), Ho. reflexivity. }
  destruct (is_ok_ex _ Hok) as [o' Ho'].
  destruct (solve_resid_span keq qr lstsq inv Hqr Hls rows cols cols' y' _ _ _ _ _ _ _ _ Ho Ho' Sp) as [N RE].
  assert (HD : forall j, (j < length (mp_post r))%nat -> exists q, dual rows cols (mp_index all (mp_ref r) j) q /\ dual rows cols' (mp_index all rf' j) (fun i => s * q i)).
  { intros j Hj. pose proof (identified_dual rows cols _ (Hid j Hj)) as D. eexists. split; [exact D|].
    apply (design_signed rows d d' t all (mp_post r) (mp_ref r) rf'); auto; apply data_periods_nodup. }
  assert (HC : forall j, (j < length (mp_post r))%nat -> exists x, nth (mp_index all (mp_ref r) j) (o_coef o) NaN = Fin x /\ nth (mp_index all rf' j) (o_coef o') NaN = Fin (s * x)).
  { intros j Hj. destruct (HD j Hj) as (q & D & D').
    destruct (ols_dual keq qr lstsq inv Hqr Hls Hinv _ _ _ _ _ _ _ _ _ Ho D) as (A1 & _).
    destruct (ols_dual keq qr lstsq inv Hqr Hls Hinv _ _ _ _ _ _ _ _ _ Ho' D') as (A1' & _).
    exists (ip rows q y'). split; [exact A1|]. rewrite A1'. f_equal. apply ip_scal_l. }
  assert (HVV : exists V', (if negb (c_robust cfg) && (match c_cluster cfg with None => true | _ => false end) then mp_classical inv rows cols' (o_coef o') (o_resid o')
      else match o_vcov o' with Some V => Ok V | None => Err TypeError end) = Ok V' /\
      forall j m, (j < length (mp_post r))%nat -> (m < length (mp_post r))%nat -> mp_vcov r (mp_index all (mp_ref r) j) (mp_index all (mp_ref r) m) = V' (mp_index all rf' j) (mp_index all rf' m)).
  { destruct (negb (c_robust cfg) && _)%bool.
    - destruct (mp_classical_cross keq qr lstsq inv Hqr Hls Hinv _ _ _ _ _ _ _ Ho) as (V & EV & VV). rewrite EV in HV. injection HV as <-.
      destruct (mp_classical_cross keq qr lstsq inv Hqr Hls Hinv _ _ _ _ _ _ _ Ho') as (V' & EV' & VV'). exists V'. split; [exact EV'|].
      intros j m Hj Hm. destruct (HD j Hj) as (q & D & D'). destruct (HD m Hm) as (q2 & D2 & D2').
      rewrite (VV _ _ _ _ D D2), (VV' _ _ _ _ D' D2'), N. f_equal; [do 2 f_equal; apply sumf_ext; intros i Hi; now rewrite RE|].
      f_equal. rewrite (ip_scal_l rows (fun i => s * q2 i) s q), ip_scal_r. rewrite <- Rmult_assoc, Hs. ring.
    - destruct (o_vcov o) as [W|] eqn:EW; [|discriminate]. injection HV as E.
      destruct (solve_ols_shape keq qr lstsq inv Hls _ _ _ _ _ _ _ Ho') as (_ & _ & _ & _ & _ & Hv & _). cbn iota in Hv. destruct Hv as (V0 & _ & W' & EW' & _).
      exists W'. rewrite EW'. split; [reflexivity|]. intros j m Hj Hm. destruct (HD j Hj) as (q & D & D'). destruct (HD m Hm) as (q2 & D2 & D2').
      rewrite <- E, (ols_cross keq qr lstsq inv Hqr Hls Hinv _ _ _ _ _ _ _ _ _ _ _ Ho EW D D2), (ols_cross keq qr lstsq inv Hqr Hls Hinv _ _ _ _ _ _ _ _ _ _ _ Ho' EW' D' D2'), N.
      do 2 f_equal. rewrite (score_x_sign keq rows q q2 _ _ s Hs). apply score_x_ext; auto. intros i Hi. symmetry. now apply RE. }
  destruct HVV as (V' & EV' & VV).
  destruct (fit_unfold cfg rows y d' t post ref' covs dums absorb (mp_pre r) (mp_post r) rf' y' covs' nabs o' V' V2 B2 L2 S2 EA Ho' EV')
    as (r' & Hr' & F1 & F2 & F3 & F4 & F5 & F6 & F7 & F8 & F9 & F10).
  fold all in F1, F10.
  rewrite n_effective_reported, N, <- n_effective_reported, <- Hdf in F1, F5, F10.
  exists r'. split; [exact Hr'|]. split; [exact F2|]. split; [exact F3|]. split; [exact F4|]. split; [exact F5|]. split; [now rewrite F6, Hn|]. split; [exact F7|]. split; [exact F8|].
  split; [intros i Hi; rewrite F9, Hre; now apply RE|].
  set (effs' := map _ (combine (mp_post r) (map (mp_index all rf') _))) in *.
  assert (EE : exists es, map pe_effect (mp_effects r) = map Fin es /\ map pe_effect effs' = map Fin (map (Rmult s) es) /\ length es = length (mp_post r)).
  { rewrite Heff. unfold effs'. rewrite Eidx, !combine_idx, !map_map. unfold mp_effect. cbn [pe_effect fst snd]. rewrite Hco.
    assert (GG : forall l, (forall j, In j l -> (j < length (mp_post r))%nat) -> exists es,
       map (fun x => nth (mp_index all (mp_ref r) x) (o_coef o) NaN) l = map Fin es /\ map (fun x => nth (mp_index all rf' x) (o_coef o') NaN) l = map Fin (map (Rmult s) es) /\ length es = length l).
    { induction l as [|j l IH]; intros Hl; [exists []; repeat split; reflexivity|]. destruct (HC j (Hl j (or_introl eq_refl))) as (x & X1 & X2).
      destruct IH as (es & Y1 & Y2 & Y3); [intros; apply Hl; right; auto|]. exists (x :: es). cbn [map length]. rewrite X1, X2, Y1, Y2, Y3. repeat split; reflexivity. }
    destruct (GG (seq 0 (length (mp_post r)))) as (es & Y1 & Y2 & Y3); [intros j Hj; apply in_seq in Hj; lia|].
    exists es. rewrite seq_length in Y3. auto. }
  destruct EE as (es & X1 & X2 & X3).
  assert (Hes : es <> []) by (intros E; apply Hpost; apply length_zero_iff_nil; rewrite <- X3, E; reflexivity).
  assert (AV : forall l, mp_average sf ppf (c_alpha cfg) (mp_df r) l V' (map (mp_index all rf') (seq 0 (length (mp_post r)))) = mp_average sf ppf (c_alpha cfg) (mp_df r) l (mp_vcov r) idxs).
  { intros l. rewrite Eidx. apply average_idx. intros j m Hj Hm. apply in_seq in Hj, Hm. symmetry. apply VV; lia. }
  rewrite AV in F10. split; intros E; subst s.
  - assert (EF : effs' = mp_effects r).
    { rewrite Heff. unfold effs'. rewrite Eidx, !combine_idx, !map_map. apply map_ext_in. intros j Hj. apply in_seq in Hj. cbn [fst snd].
      destruct (HC j ltac:(lia)) as (x & Y1 & Y2). unfold mp_effect. rewrite Hco, Y1, Y2, VV by lia. now rewrite Rmult_1_l. }
    split; [now rewrite F1|]. rewrite EF, <- Havg in F10. now injection F10 as -> -> -> -> ->.
  - split.
    + rewrite F1, Heff. unfold effs'. rewrite Eidx, !combine_idx, !map_map.
      assert (GG : forall l, (forall j, In j l -> (j < length (mp_post r))%nat) -> Forall2 opposite_effect
        (map (fun x => mp_effect sf ppf (c_alpha cfg) (mp_df r) (mp_coef r) (mp_vcov r) (fst (nth x (mp_post r) 0%Z, mp_index all (mp_ref r) x)) (snd (nth x (mp_post r) 0%Z, mp_index all (mp_ref r) x))) l)
        (map (fun x => mp_effect sf ppf (c_alpha cfg) (mp_df r) (o_coef o') V' (fst (nth x (mp_post r) 0%Z, mp_index all rf' x)) (snd (nth x (mp_post r) 0%Z, mp_index all rf' x))) l)).
      { induction l as [|j l IH]; intros Hl; cbn [map]; constructor; [|apply IH; intros; apply Hl; right; auto].
        pose proof (Hl j (or_introl eq_refl)) as Hj. destruct (HC j Hj) as (x & Y1 & Y2). cbn [fst snd]. apply (effect_opp _ _ _ _ _ _ _ _ _ x); [now rewrite Hco|rewrite Y2; f_equal; ring|symmetry; now apply VV]. }
      apply GG. intros j Hj. apply in_seq in Hj. lia.
    + rewrite X2 in F10. rewrite X1 in Havg. symmetry in Havg.
      rewrite (map_ext (Rmult (-1)) Ropp) in F10 by (intros; ring). rewrite (average_opp _ _ _ _ _ Hes _ _ _ _ _ Havg) in F10. now injection F10 as -> -> -> -> ->.
Qed.
End Mp.

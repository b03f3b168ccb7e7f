(* What the estimators return on generated data, for all draws. *)
From Verif Require Import Prelude Flt Stats_model Linalg_model Linalg_proofs Linalg_vcov Linalg_thms Did_model Did_spec Did_proofs Did_equiv
  Multi_model Multi_proofs Multi_thms Power_model Power_thms Staggered_model Diag_model Diag_proofs Diag_ex Dgp_model.
From Coq Require Import Arith ZArith String List Bool Lia.
Import ListNotations.
Open Scope R_scope.

(* ---------- products of lists ---------- *)
Lemma filter_map_comm {A B} (h : A -> B) (p : B -> bool) l : filter p (map h l) = map h (filter (fun a => p (h a)) l).
Proof. induction l as [|a l IH]; simpl; [reflexivity|]. destruct (p (h a)); simpl; rewrite IH; reflexivity. Qed.
Lemma filter_app_list {A} (p : A -> bool) l l' : filter p (l ++ l') = filter p l ++ filter p l'.
Proof. induction l as [|a l IH]; simpl; [reflexivity|]. destruct (p a); simpl; rewrite IH; reflexivity. Qed.
Lemma filter_prod {A B} (p : A -> bool) (q : B -> bool) l l' :
  filter (fun x => p (fst x) && q (snd x)) (list_prod l l') = list_prod (filter p l) (filter q l').
Proof.
  induction l as [|a l IH]; simpl; [reflexivity|]. rewrite filter_app_list, IH, filter_map_comm. cbn [fst snd].
  destruct (p a); simpl.
  - f_equal.
  - assert (E : filter (fun _ : B => false) l' = []) by (clear; induction l'; simpl; auto). rewrite E. reflexivity.
Qed.
Lemma sumf_list_prod {A B} (f : A -> R) (h : B -> R) l l' : sumf (fun x => f (fst x) * h (snd x)) (list_prod l l') = sumf f l * sumf h l'.
Proof.
  induction l as [|a l IH]; simpl; [lra|]. rewrite sumf_app, IH, sumf_map. cbn [fst snd]. rewrite sumf_scal. ring.
Qed.
Lemma len_list_prod {A B} (l : list A) (l' : list B) : len (list_prod l l') = len l * len l'.
Proof. unfold len. rewrite prod_length, mult_INR. reflexivity. Qed.
Lemma meanf_list_prod {A B} (f : A -> R) (h : B -> R) l l' :
  meanf (fun x => f (fst x) * h (snd x)) (list_prod l l') = meanf f l * meanf h l'.
Proof. unfold meanf. rewrite sumf_list_prod, len_list_prod. unfold Rdiv. rewrite Rinv_mult. ring. Qed.

(* ---------- differences in differences on a grid ---------- *)
Section G.
Context {A B : Type} (us : list A) (ts : list B) (b : A -> bool) (c : B -> bool).
Notation rows := (list_prod us ts).
Notation bb := (fun x : A * B => b (fst x)).
Notation cc := (fun x : A * B => c (snd x)).
Definition gap {X} (p : X -> bool) (f : X -> R) (l : list X) : R := meanf f (filter p l) - meanf f (filter (fun x => negb (p x)) l).
Lemma bdid_prod f h : bdid bb cc (fun x => f (fst x) * h (snd x)) rows = gap b f us * gap c h ts.
Proof.
  unfold bdid, bmean, gap.
  rewrite (filter_prod b c), (filter_prod b (fun t => negb (c t))), (filter_prod (fun u => negb (b u)) c), (filter_prod (fun u => negb (b u)) (fun t => negb (c t))).
  rewrite !meanf_list_prod. ring.
Qed.
Lemma gap_const {X} (p : X -> bool) k l : filter p l <> [] -> filter (fun x => negb (p x)) l <> [] -> gap p (fun _ => k) l = 0.
Proof. intros H H'. unfold gap. rewrite !meanf_const by assumption. lra. Qed.
Lemma gap_ind {X} (p : X -> bool) l : filter p l <> [] -> gap p (fun x => ind (p x)) l = 1.
Proof.
  intros H. unfold gap.
  rewrite (meanf_ext (fun x => ind (p x)) (fun _ => 1) (filter p l)) by (intros x Hx; apply filter_In in Hx; destruct Hx as [_ ->]; reflexivity).
  rewrite meanf_const by assumption.
  rewrite (meanf_ext (fun x => ind (p x)) (fun _ => 0) (filter (fun x => negb (p x)) l)).
  - unfold meanf. rewrite sumf_const. unfold Rdiv. ring.
  - intros x Hx. apply filter_In in Hx. destruct Hx as [_ Hx]. destruct (p x); [discriminate|reflexivity].
Qed.
Lemma gap_add {X} (p : X -> bool) f h l : gap p (fun x => f x + h x) l = gap p f l + gap p h l.
Proof. unfold gap. rewrite !meanf_add. ring. Qed.
Lemma gap_scal {X} (p : X -> bool) k f l : gap p (fun x => k * f x) l = k * gap p f l.
Proof. unfold gap. rewrite !meanf_scal. ring. Qed.
Lemma gap_ext {X} (p : X -> bool) f h l : (forall x, In x l -> f x = h x) -> gap p f l = gap p h l.
Proof. intros H. unfold gap. rewrite (meanf_ext f h (filter p l)), (meanf_ext f h (filter (fun x => negb (p x)) l)); auto; intros x Hx; apply filter_In in Hx; apply H; tauto. Qed.
End G.

Lemma bdid_add {I} (b c : I -> bool) f h rows : bdid b c (fun i => f i + h i) rows = bdid b c f rows + bdid b c h rows.
Proof. unfold bdid, bmean. rewrite !meanf_add. ring. Qed.
Lemma bdid_scal {I} (b c : I -> bool) k f rows : bdid b c (fun i => k * f i) rows = k * bdid b c f rows.
Proof. unfold bdid, bmean. rewrite !meanf_scal. ring. Qed.
Lemma bdid_ext {I} (b c : I -> bool) f h rows : (forall i, In i rows -> f i = h i) -> bdid b c f rows = bdid b c h rows.
Proof. intros H. unfold bdid, bmean. rewrite !(meanf_ext f h) by (intros x Hx; apply filter_In in Hx; apply H; tauto). reflexivity. Qed.
Lemma bdid_map {A I} (k : A -> I) (b c : I -> bool) f l : bdid b c f (map k l) = bdid (fun a => b (k a)) (fun a => c (k a)) (fun a => f (k a)) l.
Proof. unfold bdid, bmean. rewrite !filter_map_comm, !meanf_map. reflexivity. Qed.

(* a unit part, a time part, a time part specific to the treated, and anything else *)
Lemma bdid_grid {A B} (us : list A) (ts : list B) (b : A -> bool) (c : B -> bool) (h : A -> R) (k w : B -> R) (z : A * B -> R) :
  filter b us <> [] -> filter (fun u => negb (b u)) us <> [] -> filter c ts <> [] -> filter (fun t => negb (c t)) ts <> [] ->
  bdid (fun x => b (fst x)) (fun x => c (snd x)) (fun x => h (fst x) + k (snd x) + ind (b (fst x)) * w (snd x) + z x) (list_prod us ts)
  = gap c w ts + bdid (fun x => b (fst x)) (fun x => c (snd x)) z (list_prod us ts).
Proof.
  intros H1 H2 H3 H4. rewrite !bdid_add.
  rewrite (bdid_ext _ _ (fun x => h (fst x)) (fun x => h (fst x) * 1)) by (intros; ring).
  rewrite (bdid_ext _ _ (fun x => k (snd x)) (fun x => 1 * k (snd x))) by (intros; ring).
  rewrite (bdid_prod us ts b c h (fun _ => 1)), (bdid_prod us ts b c (fun _ => 1) k), (bdid_prod us ts b c (fun u => ind (b u)) w).
  rewrite !gap_const, gap_ind by assumption. ring.
Qed.

(* ---------- first k of range(n); periods from tp on ---------- *)
Lemma in_filter_ne {A} (p : A -> bool) l x : In x l -> p x = true -> filter p l <> [].
Proof. intros H E C. assert (X : In x []) by (rewrite <- C; apply filter_In; auto). destruct X. Qed.
Lemma before_ne n k : (0 < k)%Z -> (0 < n)%nat -> filter (fun u => before u k) (seq 0 n) <> [].
Proof. intros H Hn. apply (in_filter_ne _ _ O); [apply in_seq; lia|]. unfold before. apply Z.ltb_lt. lia. Qed.
Lemma not_before_ne n k : (k < Z.of_nat n)%Z -> (0 < n)%nat -> filter (fun u => negb (before u k)) (seq 0 n) <> [].
Proof. intros H Hn. apply (in_filter_ne _ _ (n - 1)%nat); [apply in_seq; lia|]. unfold before. apply Bool.negb_true_iff, Z.ltb_ge. lia. Qed.
Lemma post_ne T tp : (tp < Z.of_nat T)%Z -> (0 < T)%nat -> filter (fun t => Z.leb tp (Z.of_nat t)) (seq 0 T) <> [].
Proof. intros H Hn. apply (in_filter_ne _ _ (T - 1)%nat); [apply in_seq; lia|]. apply Z.leb_le. lia. Qed.
Lemma pre_ne T tp : (0 < tp)%Z -> (0 < T)%nat -> filter (fun t => negb (Z.leb tp (Z.of_nat t))) (seq 0 T) <> [].
Proof. intros H Hn. apply (in_filter_ne _ _ O); [apply in_seq; lia|]. apply Bool.negb_true_iff, Z.leb_gt. lia. Qed.

(* ---------- the outcome of each panel, split up ---------- *)
Definition pbdid (rows : list prow) (f : prow -> R) : R := bdid pr_treated pr_post f rows.
Section Two.
Variables (n T : nat) (k tp : Z).
Hypothesis Hk : (0 < k < Z.of_nat n)%Z.
Hypothesis Ht : (0 < tp < Z.of_nat T)%Z.
Variable mk : nat * nat -> prow.
Hypothesis Mt : forall x, pr_treated (mk x) = before (fst x) k.
Hypothesis Mp : forall x, pr_post (mk x) = Z.leb tp (Z.of_nat (snd x)).
Lemma panel_bdid (h kk w : nat -> R) (z : nat * nat -> R) : (forall x, pr_y (mk x) = h (fst x) + kk (snd x) + ind (before (fst x) k) * w (snd x) + z x) ->
  pbdid (map mk (grid n T)) pr_y = gap (fun t => Z.leb tp (Z.of_nat t)) w (seq 0 T)
    + bdid (fun x => before (fst x) k) (fun x => Z.leb tp (Z.of_nat (snd x))) z (grid n T).
Proof.
  intros My. unfold pbdid. rewrite bdid_map. unfold grid.
  rewrite <- (bdid_grid (seq 0 n) (seq 0 T) (fun u => before u k) (fun t => Z.leb tp (Z.of_nat t)) h kk w z);
    [|apply before_ne; lia|apply not_before_ne; lia|apply post_ne; lia|apply pre_ne; lia].
  unfold bdid, bmean.
  rewrite !(filter_ext (fun a => pr_treated (mk a) && pr_post (mk a)) (fun x => before (fst x) k && Z.leb tp (Z.of_nat (snd x)))) by (intros; rewrite Mt, Mp; reflexivity).
  rewrite !(filter_ext (fun a => pr_treated (mk a) && negb (pr_post (mk a))) (fun x => before (fst x) k && negb (Z.leb tp (Z.of_nat (snd x))))) by (intros; rewrite Mt, Mp; reflexivity).
  rewrite !(filter_ext (fun a => negb (pr_treated (mk a)) && pr_post (mk a)) (fun x => negb (before (fst x) k) && Z.leb tp (Z.of_nat (snd x)))) by (intros; rewrite Mt, Mp; reflexivity).
  rewrite !(filter_ext (fun a => negb (pr_treated (mk a)) && negb (pr_post (mk a))) (fun x => negb (before (fst x) k) && negb (Z.leb tp (Z.of_nat (snd x))))) by (intros; rewrite Mt, Mp; reflexivity).
  rewrite !(meanf_ext (fun a => pr_y (mk a)) (fun x => h (fst x) + kk (snd x) + ind (before (fst x) k) * w (snd x) + z x)) by (intros; apply My).
  reflexivity.
Qed.
Lemma panel_cells : forall p q, existsb (fun i => Bool.eqb (pr_treated i) p && Bool.eqb (pr_post i) q) (map mk (grid n T)) = true.
Proof.
  intros p q. apply existsb_exists.
  exists (mk ((if p then 0 else n - 1)%nat, (if q then T - 1 else 0)%nat)). split.
  - apply in_map. apply in_prod; apply in_seq; destruct p, q; lia.
  - rewrite Mt, Mp. cbn [fst snd]. unfold before. apply andb_true_iff. split; apply Bool.eqb_true_iff.
    + destruct p; [apply Z.ltb_lt|apply Z.ltb_ge]; lia.
    + destruct q; [apply Z.leb_le|apply Z.leb_gt]; lia.
Qed.
Lemma panel_len : length (map mk (grid n T)) = (n * T)%nat.
Proof. unfold grid. rewrite map_length, prod_length, !seq_length. reflexivity. Qed.
End Two.

(* ---------- the estimator on such rows ---------- *)
Section F.
Context {K G : Type} (keq : forall x y : K, {x = y} + {x <> y}) (geq : forall x y : G, {x = y} + {x <> y}).
Context {I : Type}.
Variable qr : list I -> list (I -> R) -> list nat.
Variable lstsq : list I -> list (I -> R) -> (I -> R) -> list R.
Variable inv : list I -> list (I -> R) -> option (nat -> nat -> R).
Variable pinv : list I -> list (I -> R) -> nat -> nat -> R.
Variable sf : option Z -> fl -> fl.
Variable ppf : option Z -> R -> R.
Hypothesis Hqr : qr_ok qr.
Hypothesis Hls : lstsq_ok lstsq.
Hypothesis Hinv : inv_ok inv.
Notation fit := (did_fit keq geq qr lstsq inv pinv sf ppf).
Variables (y : I -> R) (b c : I -> bool).
Lemma bcell (rows : list I) x z : cell rows (fun i => toR (ofb (b i))) (fun i => toR (ofb (c i))) x z = cell rows (fun i => ind (b i)) (fun i => ind (c i)) x z.
Proof. unfold cell. apply filter_ext. intros i. rewrite !ofb_toR. reflexivity. Qed.
Lemma bfour (rows : list I) : (forall p q, existsb (fun i => Bool.eqb (b i) p && Bool.eqb (c i) q) rows = true) ->
  four_cells rows (fun i => toR (ofb (b i))) (fun i => toR (ofb (c i))).
Proof. intros H. pose proof (four_bool rows b c H) as F. unfold four_cells in *. rewrite !bcell. exact F. Qed.
Lemma bfit_att cfg (rows : list I) r : (forall p q, existsb (fun i => Bool.eqb (b i) p && Bool.eqb (c i) q) rows = true) ->
  fit cfg rows (fun i => Fin (y i)) (fun i => ofb (b i)) (fun i => ofb (c i)) [] [] [] = Ok r -> r_att r = Fin (bdid b c y rows).
Proof.
  intros H E.
  rewrite (did_att_is_did_of_means keq geq qr lstsq inv pinv sf ppf Hqr Hls _ _ _ _ _ _ E (bfour rows H)).
  f_equal. rewrite <- did_bool. unfold did_of_means, cell_mean. rewrite !bcell. reflexivity.
Qed.
Lemma bfit_ok cfg (rows : list I) : (forall p q, existsb (fun i => Bool.eqb (b i) p && Bool.eqb (c i) q) rows = true) -> (4 < length rows)%nat ->
  parse_action (c_action cfg) <> None -> (forall cl, c_cluster cfg = Some cl -> (2 <= length (cl_keys keq rows cl))%nat) ->
  exists r, fit cfg rows (fun i => Fin (y i)) (fun i => ofb (b i)) (fun i => ofb (c i)) [] [] [] = Ok r.
Proof.
  intros H L A C.
  destruct (did_fit_defined keq geq qr lstsq inv pinv sf ppf Hqr Hls Hinv cfg rows (fun i => Fin (y i)) (fun i => ofb (b i)) (fun i => ofb (c i))) as (r & se & E & _); auto.
  - intros i _; eexists; reflexivity.
  - intros i _. destruct (b i); eexists; reflexivity.
  - intros i _. destruct (c i); eexists; reflexivity.
  - intros i _. destruct (b i); simpl; auto.
  - intros i _. destruct (c i); simpl; auto.
  - apply bfour; exact H.
  - exists r. exact E.
Qed.
End F.

(* Renaming the periods in an order-preserving way: MultiPeriodDiD. *)
From Coq Require Import Reals Lra Lia.
From Verif Require Import Prelude Flt Stats_model Linalg_model Linalg_vcov Did_model Multi_model Multi_proofs Shift_proofs.
From Coq Require Import Arith ZArith String List FunctionalExtensionality.
Import ListNotations.
Open Scope R_scope.

Definition increasing (f : Z -> Z) : Prop := forall a b, (a < b)%Z -> (f a < f b)%Z.
Definition rename_effect (f : Z -> Z) (e : period_effect) : period_effect :=
  {| pe_period := f (pe_period e); pe_effect := pe_effect e; pe_se := pe_se e; pe_t := pe_t e; pe_p := pe_p e; pe_ci := pe_ci e |}.
Definition rename_mp {I} (f : Z -> Z) (r : mp_result I) : mp_result I :=
  {| mp_effects := map (rename_effect f) (mp_effects r); mp_avg := mp_avg r; mp_avg_se := mp_avg_se r; mp_avg_t := mp_avg_t r; mp_avg_p := mp_avg_p r;
     mp_avg_ci := mp_avg_ci r; mp_n_obs := mp_n_obs r; mp_n_treated := mp_n_treated r; mp_n_control := mp_n_control r;
     mp_pre := map f (mp_pre r); mp_post := map f (mp_post r); mp_ref := f (mp_ref r);
     mp_coef := mp_coef r; mp_vcov := mp_vcov r; mp_resid := mp_resid r; mp_df := mp_df r |}.

Section F.
Variable f : Z -> Z.
Hypothesis Hf : increasing f.
Lemma f_lt a b : (f a < f b <-> a < b)%Z.
Proof. split; [|apply Hf]. intros H. destruct (Z.lt_trichotomy a b) as [?|[->|L]]; [auto|lia|]. apply Hf in L. lia. Qed.
Lemma f_le a b : (f a <= f b <-> a <= b)%Z.
Proof. pose proof (f_lt b a). lia. Qed.
Lemma f_inj a b : f a = f b -> a = b.
Proof. pose proof (f_le a b). pose proof (f_le b a). lia. Qed.
Lemma f_leb a b : Z.leb (f a) (f b) = Z.leb a b.
Proof. apply Bool.eq_true_iff_eq. rewrite !Z.leb_le. apply f_le. Qed.
Lemma f_ltb a b : Z.ltb (f a) (f b) = Z.ltb a b.
Proof. apply Bool.eq_true_iff_eq. rewrite !Z.ltb_lt. apply f_lt. Qed.
Lemma f_eqb a b : Z.eqb (f a) (f b) = Z.eqb a b.
Proof. apply Bool.eq_true_iff_eq. rewrite !Z.eqb_eq. split; [apply f_inj|congruence]. Qed.
Lemma zinsert_f x l : zinsert (f x) (map f l) = map f (zinsert x l).
Proof. induction l as [|y l IH]; cbn; auto. rewrite f_leb. destruct (Z.leb x y); cbn; [reflexivity|]. now rewrite IH. Qed.
Lemma sorted_f l : zsort (nodup Z.eq_dec (map f l)) = map f (zsort (nodup Z.eq_dec l)).
Proof.
  rewrite (nodup_map_inj Z.eq_dec Z.eq_dec) by (intros; now apply f_inj). induction (nodup Z.eq_dec l) as [|y m IH]; [reflexivity|]. cbn. unfold zsort in IH. rewrite IH. apply zinsert_f.
Qed.
Lemma zmem_f b l : zmem (f b) (map f l) = zmem b l.
Proof. unfold zmem. induction l as [|y l IH]; cbn; auto. rewrite IH. now rewrite f_eqb. Qed.

Definition rename_setup (s : list Z * list Z * Z) : list Z * list Z * Z := (map f (fst (fst s)), map f (snd (fst s)), f (snd s)).
Lemma periods_f all post : mp_periods (map f all) (option_map (map f) post) = (map f (fst (mp_periods all post)), map f (snd (mp_periods all post))).
Proof.
  unfold mp_periods. destruct post as [l|]; cbn [option_map fst snd].
  - rewrite filter_map_comm. do 2 f_equal. apply filter_ext. intros p. now rewrite zmem_f.
  - rewrite map_length, firstn_map, skipn_map. reflexivity.
Qed.
Lemma setup_f all post ref : mp_setup (map f all) (option_map (map f) post) (option_map f ref) = on_ok rename_setup (mp_setup all post ref).
Proof.
  unfold mp_setup. rewrite periods_f. destruct (mp_periods all post) as [pre ps]. cbn [fst snd]. destruct ps as [|q qs]; [reflexivity|]. destruct pre as [|p0 pre]; [reflexivity|].
  cbn [map]. assert (A : forallb (fun p => zmem p (map f all)) (f q :: map f qs) = forallb (fun p => zmem p all) (q :: qs)).
  { change (f q :: map f qs) with (map f (q :: qs)). rewrite forallb_map'. f_equal. apply functional_extensionality. intros p. apply zmem_f. }
  rewrite A. destruct (forallb (fun p => zmem p all) (q :: qs)); [|reflexivity]. cbn [negb]. destruct ref as [r|]; [|reflexivity]. cbn [option_map]. rewrite zmem_f. destruct (zmem r all); reflexivity.
Qed.
Context {I K G : Type} (keq : forall x y : K, {x = y} + {x <> y}) (geq : forall x y : G, {x = y} + {x <> y}).
Variable qr : list I -> list (I -> R) -> list nat.
Variable lstsq : list I -> list (I -> R) -> (I -> R) -> list R.
Variable inv : list I -> list (I -> R) -> option (nat -> nat -> R).
Variable sf : option Z -> fl -> fl.
Variable ppf : option Z -> R -> R.
Lemma at_period_f (t : I -> Z) p : at_period (fun i => f (t i)) (f p) = at_period t p.
Proof. apply functional_extensionality. intros i. unfold at_period. now rewrite f_eqb. Qed.
Lemma others_f all ref : filter (fun p => negb (Z.eqb p (f ref))) (map f all) = map f (filter (fun p => negb (Z.eqb p ref)) all).
Proof. rewrite filter_map_comm. f_equal. apply filter_ext. intros p. now rewrite f_eqb. Qed.
Lemma design_f d (t : I -> Z) all post ref extra : mp_design d (fun i => f (t i)) (map f all) (map f post) (f ref) extra = mp_design d t all post ref extra.
Proof.
  unfold mp_design. rewrite others_f, !map_map. f_equal. f_equal.
  - apply map_ext. intros p. apply at_period_f.
  - f_equal. apply map_ext. intros p. now rewrite at_period_f.
Qed.
Theorem mp_rename cfg rows y d t post ref covs dums absorb :
  mp_fit keq geq qr lstsq inv sf ppf cfg rows y d (fun i => f (t i)) (option_map (map f) post) (option_map f ref) covs dums absorb
  = on_ok (rename_mp f) (mp_fit keq geq qr lstsq inv sf ppf cfg rows y d t post ref covs dums absorb).
Proof.
  unfold mp_fit. destruct (negb _); [reflexivity|]. destruct (negb _); [reflexivity|]. cbv zeta. rewrite <- (map_map t f), sorted_f, map_length.
  set (all := zsort (nodup Z.eq_dec (map t rows))). destruct (Nat.ltb _ 2); [reflexivity|]. rewrite setup_f.
  destruct (mp_setup all post ref) as [[[pre ps] r0]|]; [|reflexivity]. cbn [on_ok bind rename_setup fst snd].
  destruct (absorb_loop geq rows absorb y covs) as [[y' covs'] n_abs]. rewrite design_f.
  destruct (solve_ols _ _ _ _ _ _ _ _ _ _) as [o|]; [|reflexivity]. cbn [bind].
  set (V0 := if _ && _ then _ else _). destruct V0 as [V|]; [|reflexivity]. cbn [bind].
  assert (X : map (mp_index (map f all) (f r0)) (seq 0 (length (map f ps))) = map (mp_index all r0) (seq 0 (length ps))).
  { rewrite map_length. apply map_ext. intros j. unfold mp_index. now rewrite others_f, map_length. }
  rewrite X. set (idxs := map (mp_index all r0) (seq 0 (length ps))).
  assert (Y : forall (l : list Z) (m : list nat) al df co, map (fun pj => mp_effect sf ppf al df co V (fst pj) (snd pj)) (combine (map f l) m)
    = map (rename_effect f) (map (fun pj => mp_effect sf ppf al df co V (fst pj) (snd pj)) (combine l m))).
  { induction l as [|a l IH]; intros [|b m] al df co; cbn; auto. f_equal. apply IH. }
  rewrite Y. set (effs := map _ (combine ps idxs)). rewrite map_map. change (map (fun x => pe_effect (rename_effect f x)) effs) with (map pe_effect effs).
  destruct (mp_average _ _ _ _ _ _ _) as [[[[avg se] tt] pp] ci]. reflexivity.
Qed.
End F.

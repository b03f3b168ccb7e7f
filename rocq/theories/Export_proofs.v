(* Proofs about the exported dictionaries and tables. *)
From Coq Require Import Reals Lra Lia.
From Verif Require Import Prelude Flt Lp Linalg_model Did_model Multi_model Results_model Bacon_model Staggered_model Sun_model Synth_model Honest_model Sdid_model Export_model.
From Coq Require Import Arith ZArith String List DecimalString Decimal DecimalZ Permutation.
Import ListNotations.
Open Scope R_scope.

(* ---- dictionaries ---- *)
Lemma dget_dput d k v k' : dget (dput d k v) k' = if String.eqb k k' then Some v else dget d k'.
Proof.
  induction d as [|[a x] d IH]; cbn [dput dget]; [reflexivity|].
  destruct (String.eqb_spec a k) as [->|Hak]; cbn [dget].
  - destruct (String.eqb k k'); reflexivity.
  - rewrite IH. destruct (String.eqb_spec a k') as [->|]; [|reflexivity]. destruct (String.eqb_spec k k'); [congruence|reflexivity].
Qed.
Lemma dput_keys d k v : map fst (dput d k v) = if in_dec string_dec k (map fst d) then map fst d else map fst d ++ [k].
Proof.
  induction d as [|[a x] d IH]; cbn [dput map fst]; [destruct (in_dec string_dec k []) as [[]|]; reflexivity|].
  destruct (String.eqb_spec a k) as [->|Hak].
  - destruct (in_dec string_dec k (k :: map fst d)) as [|N]; [reflexivity|exfalso; apply N; left; reflexivity].
  - cbn [map fst]. rewrite IH. destruct (in_dec string_dec k (map fst d)) as [Y|N]; destruct (in_dec string_dec k (a :: map fst d)) as [Y'|N']; try reflexivity.
    + exfalso. apply N'. right. exact Y.
    + exfalso. destruct Y' as [E|Y']; [congruence|contradiction].
Qed.
Lemma dputs_get l : forall d k, NoDup (map fst l) ->
  dget (dputs d l) k = match find (fun kv => String.eqb (fst kv) k) l with Some kv => Some (snd kv) | None => dget d k end.
Proof.
  induction l as [|[a x] l IH]; intros d k ND; [reflexivity|]. cbn [map fst] in ND. apply NoDup_cons_iff in ND as [Hn ND].
  unfold dputs. cbn [fold_left fst snd]. change (dget (dputs (dput d a x) l) k = match find (fun kv => String.eqb (fst kv) k) ((a, x) :: l) with Some kv => Some (snd kv) | None => dget d k end).
  rewrite IH by exact ND. cbn [find fst]. rewrite dget_dput. destruct (String.eqb_spec a k) as [->|]; [|reflexivity].
  destruct (find _ l) as [kv|] eqn:E; [|reflexivity]. apply find_some in E as [Hin E]. apply String.eqb_eq in E. exfalso. apply Hn. rewrite <- E. apply in_map. exact Hin.
Qed.
Lemma dputs_in l d k v : NoDup (map fst l) -> In (k, v) l -> dget (dputs d l) k = Some v.
Proof.
  intros ND Hin. rewrite dputs_get by exact ND. induction l as [|[a x] l IH]; [destruct Hin|]. cbn [map fst] in ND. apply NoDup_cons_iff in ND as [Hn ND].
  cbn [find fst]. destruct Hin as [E|Hin]; [injection E as -> ->; rewrite String.eqb_refl; reflexivity|].
  destruct (String.eqb_spec a k) as [->|]; [exfalso; apply Hn; apply (in_map fst) in Hin; exact Hin|]. apply IH; assumption.
Qed.
Lemma dputs_other l d k : ~ In k (map fst l) -> dget (dputs d l) k = dget d k.
Proof.
  revert d. induction l as [|[a x] l IH]; intros d Hn; [reflexivity|]. unfold dputs. cbn [fold_left fst snd].
  change (dget (dputs (dput d a x) l) k = dget d k). rewrite IH by (intros X; apply Hn; right; exact X). rewrite dget_dput.
  destruct (String.eqb_spec a k) as [->|]; [exfalso; apply Hn; left; reflexivity|reflexivity].
Qed.
Lemma dputs_keys l : forall d, NoDup (map fst d ++ map fst l) -> map fst (dputs d l) = map fst d ++ map fst l.
Proof.
  induction l as [|[a x] l IH]; intros d ND; [symmetry; apply app_nil_r|]. unfold dputs. cbn [fold_left fst snd map].
  change (map fst (dputs (dput d a x) l) = map fst d ++ a :: map fst l).
  assert (E : map fst (dput d a x) = map fst d ++ [a]).
  { rewrite dput_keys. destruct (in_dec string_dec a (map fst d)) as [Y|]; [|reflexivity]. exfalso. cbn [map fst] in ND.
    apply NoDup_remove_2 in ND. apply ND. apply in_or_app. left. exact Y. }
  rewrite IH; rewrite E, <- app_assoc; [reflexivity|exact ND].
Qed.

(* ---- coefficient dictionaries ---- *)
Theorem coef_dict_get names coefs j c : NoDup names -> length coefs = length names -> nth_error coefs j = Some c ->
  exists n, nth_error names j = Some n /\ dget (coef_dict names coefs) n = Some (VF c).
Proof.
  intros ND L Hj. assert (Hl : (j < length names)%nat) by (rewrite <- L; apply nth_error_Some; congruence).
  destruct (nth_error names j) as [n|] eqn:En; [|apply nth_error_None in En; lia]. exists n. split; [reflexivity|].
  unfold coef_dict. apply dputs_in.
  - rewrite map_map. cbn [fst]. replace (map (fun x : string * fl => fst x) (combine names coefs)) with names; [exact ND|].
    clear - L. revert coefs L. induction names as [|a l IH]; intros [|b m] L; cbn in *; try lia; [reflexivity|f_equal; apply IH; lia].
  - apply in_map_iff. exists (n, c). split; [reflexivity|]. clear - Hj En. revert j names En coefs Hj. induction j as [|j IH]; intros [|a l] En [|b m] Hj; cbn in *; try discriminate.
    + injection En as ->. injection Hj as ->. left. reflexivity.
    + right. eapply IH; eassumption.
Qed.
Theorem coef_dict_keys names coefs : NoDup names -> length coefs = length names -> map fst (coef_dict names coefs) = names.
Proof.
  intros ND L. assert (E : map fst (map (fun nc : string * fl => (fst nc, VF (snd nc))) (combine names coefs)) = names).
  { rewrite map_map. cbn [fst]. clear - L. revert coefs L. induction names as [|a l IH]; intros [|b m] L; cbn in *; try lia; [reflexivity|f_equal; apply IH; lia]. }
  unfold coef_dict. rewrite dputs_keys; rewrite E; [reflexivity|exact ND].
Qed.
(* a repeated name: the last coefficient is reported, and the dictionary has fewer entries than the regression *)
Theorem coef_dict_last names1 n names2 coefs1 c coefs2 : length coefs1 = length names1 -> length coefs2 = length names2 -> ~ In n names2 ->
  dget (coef_dict (names1 ++ n :: names2) (coefs1 ++ c :: coefs2)) n = Some (VF c).
Proof.
  intros L1 L2 Hn. unfold coef_dict.
  assert (E : combine (names1 ++ n :: names2) (coefs1 ++ c :: coefs2) = combine names1 coefs1 ++ (n, c) :: combine names2 coefs2).
  { clear - L1. revert coefs1 L1. induction names1 as [|a l IH]; intros [|b m] L; cbn in *; try lia; [reflexivity|f_equal; apply IH; lia]. }
  rewrite E, map_app. cbn [map fst snd]. unfold dputs. rewrite fold_left_app. cbn [fold_left fst snd].
  match goal with |- dget (fold_left _ ?l (dput ?d n ?v)) n = _ => change (dget (dputs (dput d n v) l) n = Some v) end.
  rewrite dputs_other; [rewrite dget_dput, String.eqb_refl; reflexivity|]. rewrite map_map. cbn [fst]. intros X. apply Hn.
  clear - X L2. revert coefs2 L2 X. induction names2 as [|a l IH]; intros [|b m] L X; cbn in *; try lia. destruct X as [X|X]; [left; exact X|right; apply (IH m); [lia|exact X]].
Qed.

(* ---- decimal notation ---- *)
Lemma show_inj a b : show a = show b -> a = b.
Proof.
  unfold show. intros H. assert (E : NilEmpty.int_of_string (NilEmpty.string_of_int (Z.to_int a)) = NilEmpty.int_of_string (NilEmpty.string_of_int (Z.to_int b))) by (rewrite H; reflexivity).
  rewrite !NilEmpty.isi in E. injection E as E. apply DecimalZ.to_int_inj. exact E.
Qed.
Lemma cat_inj_l p a b : cat p a = cat p b -> a = b.
Proof. induction p as [|c p IH]; cbn; [auto|]. intros H. injection H as H. apply IH. exact H. Qed.

(* ---- MultiPeriodDiDResults.to_dict ---- *)
Lemma entries_keys_NoDup l : NoDup (map pe_period l) -> NoDup (map fst (mp_entries l)).
Proof.
  induction l as [|e l IH]; intros ND; [constructor|]. cbn [map] in ND. apply NoDup_cons_iff in ND as [Hn ND]. unfold mp_entries. cbn [flat_map]. rewrite map_app.
  assert (Hk : forall k, In k (map fst (mp_entries l)) -> exists e', In e' l /\ (k = cat "effect_period_" (show (pe_period e')) \/ k = cat "se_period_" (show (pe_period e')) \/ k = cat "pval_period_" (show (pe_period e')))).
  { intros k Hin. apply in_map_iff in Hin as (kv & <- & Hin). apply in_flat_map in Hin as (e' & He & Hin). exists e'. split; [exact He|]. cbn in Hin. destruct Hin as [<-|[<-|[<-|[]]]]; cbn [fst]; auto. }
  assert (Hx : forall e', In e' l -> show (pe_period e') <> show (pe_period e)).
  { intros e' He E. apply show_inj in E. apply Hn. rewrite <- E. apply in_map. exact He. }
  cbn [map fst List.app]. specialize (IH ND).
  assert (Hd : forall (P Q : string) a b, cat P a = cat Q b -> (P = Q -> a <> b) -> (forall a b, P <> Q -> cat P a <> cat Q b) -> False).
  { intros P Q a b E N1 N2. destruct (string_dec P Q) as [->|NE]; [apply cat_inj_l in E; exact (N1 eq_refl E)|exact (N2 a b NE E)]. }
  constructor; [|constructor; [|constructor; [|exact IH]]]; intros Hin; cbn [In] in Hin.
  - destruct Hin as [H|[H|H]]; [cbn in H; discriminate|cbn in H; discriminate|].
    apply Hk in H as (e' & He & [H|[H|H]]); [apply cat_inj_l in H; symmetry in H; exact (Hx e' He H)|cbn in H; discriminate|cbn in H; discriminate].
  - destruct Hin as [H|H]; [cbn in H; discriminate|].
    apply Hk in H as (e' & He & [H|[H|H]]); [cbn in H; discriminate|apply cat_inj_l in H; symmetry in H; exact (Hx e' He H)|cbn in H; discriminate].
  - apply Hk in Hin as (e' & He & [H|[H|H]]); [cbn in H; discriminate|cbn in H; discriminate|apply cat_inj_l in H; symmetry in H; exact (Hx e' He H)].
Qed.
Lemma entries_keys l k : In k (map fst (mp_entries l)) -> exists s, k = cat "effect_period_" s \/ k = cat "se_period_" s \/ k = cat "pval_period_" s.
Proof.
  intros Hin. apply in_map_iff in Hin as (kv & <- & Hin). apply in_flat_map in Hin as (e' & He & Hin). exists (show (pe_period e')).
  cbn in Hin. destruct Hin as [<-|[<-|[<-|[]]]]; cbn [fst]; auto.
Qed.
Theorem mp_to_dict_periods {I} (r : mp_result I) nt nc r2 e : NoDup (map pe_period (mp_effects r)) -> In e (mp_effects r) ->
  let d := mp_to_dict r nt nc r2 in
  dget d (cat "effect_period_" (show (pe_period e))) = Some (VF (pe_effect e)) /\
  dget d (cat "se_period_" (show (pe_period e))) = Some (VF (pe_se e)) /\
  dget d (cat "pval_period_" (show (pe_period e))) = Some (VF (pe_p e)).
Proof.
  intros ND He d. pose proof (entries_keys_NoDup _ ND) as NE. unfold d, mp_to_dict.
  assert (X : forall k v, In (k, v) [(cat "effect_period_" (show (pe_period e)), VF (pe_effect e)); (cat "se_period_" (show (pe_period e)), VF (pe_se e)); (cat "pval_period_" (show (pe_period e)), VF (pe_p e))] ->
     dget (dputs (mp_base r nt nc r2) (mp_entries (mp_effects r))) k = Some v).
  { intros k v Hin. apply dputs_in; [exact NE|]. apply in_flat_map. exists e. split; [exact He|exact Hin]. }
  split; [|split]; apply X; cbn; auto.
Qed.
Theorem mp_to_dict_summary {I} (r : mp_result I) nt nc r2 :
  let d := mp_to_dict r nt nc r2 in
  dget d "avg_att" = Some (VF (mp_avg r)) /\ dget d "avg_se" = Some (VF (mp_avg_se r)) /\ dget d "avg_t_stat" = Some (VF (mp_avg_t r)) /\ dget d "avg_p_value" = Some (VF (mp_avg_p r)) /\
  dget d "avg_conf_int_lower" = Some (VF (fst (mp_avg_ci r))) /\ dget d "avg_conf_int_upper" = Some (VF (snd (mp_avg_ci r))) /\
  dget d "n_obs" = Some (VN (mp_n_obs r)) /\ dget d "n_treated" = Some (VN nt) /\ dget d "n_control" = Some (VN nc) /\
  dget d "n_pre_periods" = Some (VN (length (mp_pre r))) /\ dget d "n_post_periods" = Some (VN (length (mp_post r))).
Proof.
  intros d. assert (H : forall k, (forall s, k <> cat "effect_period_" s /\ k <> cat "se_period_" s /\ k <> cat "pval_period_" s) -> dget d k = dget (mp_base r nt nc r2) k).
  { intros k Hk. apply dputs_other. intros Hin. apply entries_keys in Hin as [s Hs]. destruct (Hk s) as (A & B & C). tauto. }
  repeat split; rewrite H by (intros s; cbn; repeat split; discriminate); reflexivity.
Qed.
Theorem mp_to_dict_size {I} (r : mp_result I) nt nc r2 : NoDup (map pe_period (mp_effects r)) ->
  length (mp_to_dict r nt nc r2) = (12 + 3 * length (mp_effects r))%nat.
Proof.
  intros ND. rewrite <- (map_length fst). unfold mp_to_dict. rewrite dputs_keys.
  - rewrite app_length, !map_length. unfold mp_base at 1. cbn [length]. f_equal. clear. induction (mp_effects r) as [|e l IH]; [reflexivity|]. unfold mp_entries in *. cbn [flat_map]. rewrite app_length, IH. cbn [length]. lia.
  - cbn [mp_base map fst]. assert (B : NoDup (map fst (mp_base r nt nc r2))) by (cbn; repeat constructor; cbn; intuition discriminate).
    cbn in B. set (b := map fst (mp_base r nt nc r2)) in *. change (NoDup (b ++ map fst (mp_entries (mp_effects r)))).
    assert (D : forall k, In k b -> ~ In k (map fst (mp_entries (mp_effects r)))).
    { intros k Hb Hin. apply entries_keys in Hin as [s Hs]. unfold b in Hb. cbn in Hb. repeat (destruct Hb as [Hb|Hb]; [subst k; cbn in Hs; destruct Hs as [Hs|[Hs|Hs]]; discriminate|]). exact Hb. }
    change (NoDup b) in B. clearbody b. induction b as [|a b IH]; [apply entries_keys_NoDup; exact ND|]. cbn [List.app]. apply NoDup_cons_iff in B as [B1 B2]. constructor.
    + rewrite in_app_iff. intros [X|X]; [exact (B1 X)|exact (D a (or_introl eq_refl) X)].
    + apply IH; [exact B2|intros k Hk; apply D; right; exact Hk].
Qed.
Theorem did_to_dict_fields {I} (r : did_result I) nt nc r2 method nboot ncl :
  let d := did_to_dict r nt nc r2 method nboot ncl in
  dget d "att" = Some (VF (r_att r)) /\ dget d "se" = Some (VF (r_se r)) /\ dget d "t_stat" = Some (VF (r_t r)) /\ dget d "p_value" = Some (VF (r_p r)) /\
  dget d "conf_int_lower" = Some (VF (fst (r_ci r))) /\ dget d "conf_int_upper" = Some (VF (snd (r_ci r))) /\
  dget d "n_obs" = Some (VN (r_n_obs r)) /\ dget d "inference_method" = Some (VS method) /\
  dget d "n_bootstrap" = option_map VN nboot /\ dget d "n_clusters" = option_map VN ncl /\ NoDup (map fst d).
Proof.
  intros d. unfold d, did_to_dict. destruct nboot, ncl; repeat split; try reflexivity; cbn; repeat constructor; cbn; intuition discriminate.
Qed.

(* ---- tables ---- *)
Section Sort.
Context {K V : Type} (leb : K -> K -> bool).
Hypothesis leb_total : forall a b, leb a b = true \/ leb b a = true.
Hypothesis leb_trans : forall a b c, leb a b = true -> leb b c = true -> leb a c = true.
Lemma kinsert_perm (x : K * V) l : Permutation (kinsert leb x l) (x :: l).
Proof. induction l as [|y l IH]; [apply Permutation_refl|]. cbn [kinsert]. destruct (leb (fst x) (fst y)); [apply Permutation_refl|]. eapply perm_trans; [apply perm_skip, IH|apply perm_swap]. Qed.
Lemma ksort_perm (l : list (K * V)) : Permutation (ksort leb l) l.
Proof. induction l as [|x l IH]; [constructor|]. cbn [ksort fold_right]. eapply perm_trans; [apply kinsert_perm|apply perm_skip, IH]. Qed.
Inductive ksorted : list (K * V) -> Prop :=
| ks_nil : ksorted []
| ks_cons x l : (forall y, In y l -> leb (fst x) (fst y) = true) -> ksorted l -> ksorted (x :: l).
Lemma kinsert_sorted (x : K * V) l : ksorted l -> ksorted (kinsert leb x l).
Proof.
  induction l as [|y l IH]; intros H; [constructor; [intros y []|constructor]|]. cbn [kinsert]. inversion H as [|? ? Hy Hl]; subst.
  destruct (leb (fst x) (fst y)) eqn:E.
  - constructor; [|exact H]. intros z [<-|Hz]; [exact E|]. eapply leb_trans; [exact E|apply Hy; exact Hz].
  - constructor; [|apply IH; exact Hl]. intros z Hz. apply (Permutation_in _ (kinsert_perm x l)) in Hz. destruct Hz as [<-|Hz]; [|apply Hy; exact Hz].
    destruct (leb_total (fst x) (fst y)); congruence.
Qed.
Lemma ksort_sorted (l : list (K * V)) : ksorted (ksort leb l).
Proof. induction l as [|x l IH]; [constructor|]. apply kinsert_sorted. exact IH. Qed.
End Sort.
Lemma ev_leb_total a b : ev_leb a b = true \/ ev_leb b a = true.
Proof. destruct a as [x|], b as [y|]; cbn; auto. rewrite !Z.leb_le. lia. Qed.
Lemma ev_leb_trans a b c : ev_leb a b = true -> ev_leb b c = true -> ev_leb a c = true.
Proof. destruct a as [x|], b as [y|], c as [z|]; cbn; auto; try discriminate. rewrite !Z.leb_le. lia. Qed.
Lemma coh_leb_total a b : coh_leb a b = true \/ coh_leb b a = true.
Proof. destruct a as [x| |], b as [y| |]; cbn; auto. rewrite !Z.leb_le. lia. Qed.
Lemma coh_leb_trans a b c : coh_leb a b = true -> coh_leb b c = true -> coh_leb a c = true.
Proof. destruct a as [x| |], b as [y| |], c as [z| |]; cbn; auto; try discriminate. rewrite !Z.leb_le. lia. Qed.

Theorem cs_export_event r : match cr_es r with
  | None => cs_export r "event_study" = Err ValueError
  | Some l => exists l', Permutation l' l /\ ksorted ev_leb l' /\
      cs_export r "event_study" = Ok (TabEvent (map (fun p => mk_trow (option Z) (fst p) (ef_eff (snd p)) (ef_se (snd p)) (ef_t (snd p)) (ef_p (snd p)) (fst (ef_ci (snd p))) (snd (ef_ci (snd p)))) l'))
  end.
Proof.
  unfold cs_export. cbn [String.eqb Ascii.eqb]. destruct (cr_es r) as [l|]; [|reflexivity]. exists (ksort ev_leb l). split; [apply ksort_perm|]. split; [apply ksort_sorted; [apply ev_leb_total|apply ev_leb_trans]|reflexivity].
Qed.
Theorem cs_export_group r : match cr_group r with
  | None => cs_export r "group" = Err ValueError
  | Some l => exists l', Permutation l' l /\ ksorted coh_leb l' /\
      cs_export r "group" = Ok (TabGroup (map (fun p => mk_trow coh (fst p) (ef_eff (snd p)) (ef_se (snd p)) (ef_t (snd p)) (ef_p (snd p)) (fst (ef_ci (snd p))) (snd (ef_ci (snd p)))) l'))
  end.
Proof.
  unfold cs_export. cbn [String.eqb Ascii.eqb]. destruct (cr_group r) as [l|]; [|reflexivity]. exists (ksort coh_leb l). split; [apply ksort_perm|]. split; [apply ksort_sorted; [apply coh_leb_total|apply coh_leb_trans]|reflexivity].
Qed.
Theorem cs_export_cells r : length (cr_reports r) = length (cr_effects r) -> exists l, cs_export r "group_time" = Ok (TabGT l) /\
  map tw_key l = map (fun e => (ge_g e, ge_t e)) (cr_effects r) /\ map tw_eff l = map ef_eff (cr_reports r) /\ map tw_se l = map ef_se (cr_reports r) /\
  map tw_t l = map ef_t (cr_reports r) /\ map tw_p l = map ef_p (cr_reports r) /\ map (fun w => (tw_lo w, tw_hi w)) l = map ef_ci (cr_reports r).
Proof.
  intros L. eexists. split; [reflexivity|]. revert L. generalize (cr_reports r) as b, (cr_effects r) as a. intros b a. revert b.
  induction a as [|x a IH]; intros [|y b] L; cbn [length] in L; try discriminate; [repeat split; reflexivity|].
  injection L as L. destruct (IH b L) as (A & B & C & D & E & F). cbn [combine map]. repeat split; f_equal; try assumption. cbn. destruct (ef_ci y); reflexivity.
Qed.
Theorem cs_export_level r level : is_ok (cs_export r level) = true <->
  level = "group_time"%string \/ level = "event_study"%string /\ cr_es r <> None \/ level = "group"%string /\ cr_group r <> None.
Proof.
  unfold cs_export. destruct (String.eqb_spec level "group_time") as [->|N1]; [cbn; intuition|].
  destruct (String.eqb_spec level "event_study") as [->|N2]; [destruct (cr_es r); cbn; intuition congruence|].
  destruct (String.eqb_spec level "group") as [->|N3]; [destruct (cr_group r); cbn; intuition congruence|]. cbn. intuition discriminate.
Qed.
Theorem sa_export_event r : exists l', Permutation l' (sa_es r) /\ ksorted Z.leb l' /\
  sa_export r "event_study" = Ok (SaEvent (map (fun p => mk_trow Z (fst p) (se_eff (snd p)) (se_se (snd p)) (se_t (snd p)) (se_p (snd p)) (fst (se_ci (snd p))) (snd (se_ci (snd p)))) l')).
Proof.
  exists (ksort Z.leb (sa_es r)). split; [apply ksort_perm|]. split; [|reflexivity]. apply ksort_sorted.
  - intros a b. rewrite !Z.leb_le. lia.
  - intros a b c. rewrite !Z.leb_le. lia.
Qed.
Theorem sa_export_cohort r : exists l', Permutation l' (sa_coh_effects r) /\ sa_export r "cohort" = Ok (SaCohort l').
Proof. exists (ksort key_leb (sa_coh_effects r)). split; [apply ksort_perm|reflexivity]. Qed.

(* unit weights *)
Theorem weights_table_top sort w : (forall l, Permutation (sort l) l /\ desc (sort l)) -> w <> [] ->
  exists x r, weights_table sort w = x :: r /\ In x w /\ (forall z, In z w -> snd z <= snd x) /\ Permutation (x :: r) w.
Proof.
  intros Hs Hw. unfold weights_table. destruct (Hs w) as [P D]. destruct (sort w) as [|x r] eqn:E; [apply Permutation_nil in P; congruence|].
  exists x, r. split; [reflexivity|]. split; [apply (Permutation_in _ P); left; reflexivity|]. split; [|exact P].
  intros z Hz. apply (Permutation_in _ (Permutation_sym P)) in Hz. destruct Hz as [->|Hz]; [lra|]. apply (In_nth _ _ (0%Z, 0)) in Hz as (j & Hj & <-).
  apply (D 0%nat (S j)). cbn [length]. lia.
Qed.
Lemma winsert_perm x l : Permutation (winsert x l) (x :: l).
Proof. induction l as [|y l IH]; [apply Permutation_refl|]. cbn [winsert]. destruct (Rleb (snd y) (snd x)); [apply Permutation_refl|]. eapply perm_trans; [apply perm_skip, IH|apply perm_swap]. Qed.
Lemma wsort_perm l : Permutation (wsort l) l.
Proof. induction l as [|x l IH]; [constructor|]. cbn [wsort fold_right]. eapply perm_trans; [apply winsert_perm|apply perm_skip, IH]. Qed.
Inductive wsorted : list (Z * R) -> Prop :=
| ws_nil : wsorted []
| ws_cons x l : (forall y, In y l -> snd y <= snd x) -> wsorted l -> wsorted (x :: l).
Lemma winsert_sorted x l : wsorted l -> wsorted (winsert x l).
Proof.
  induction l as [|y l IH]; intros H; [constructor; [intros y []|constructor]|]. cbn [winsert]. inversion H as [|? ? Hy Hl]; subst.
  destruct (Rleb (snd y) (snd x)) eqn:E.
  - apply Rleb_true in E. constructor; [|exact H]. intros z [<-|Hz]; [exact E|]. specialize (Hy z Hz). lra.
  - apply Rleb_false in E. constructor; [|apply IH; exact Hl]. intros z Hz. apply (Permutation_in _ (winsert_perm x l)) in Hz. destruct Hz as [<-|Hz]; [lra|apply Hy; exact Hz].
Qed.
Lemma wsorted_desc l : wsorted l -> desc l.
Proof.
  induction 1 as [|x l Hx Hl IH]; intros i j Hij; [cbn in Hij; lia|]. destruct j as [|j]; [lia|]. cbn [length] in Hij. destruct i as [|i]; cbn [nth].
  - apply Hx. apply nth_In. lia.
  - apply IH. lia.
Qed.
Theorem wsort_ok l : Permutation (wsort l) l /\ desc (wsort l).
Proof. split; [apply wsort_perm|]. apply wsorted_desc. induction l as [|x l IH]; [constructor|]. apply winsert_sorted. exact IH. Qed.

(* sensitivity table *)
Section Sens.
Variable lp : nat -> list con -> list R -> option R.
Variable ppf : option Z -> R -> R.
Lemma mapr_F2 {A B} (f : A -> res B) l m : mapr f l = Ok m -> Forall2 (fun a b => f a = Ok b) l m.
Proof.
  revert m. induction l as [|a l IH]; intros m H; cbn [mapr] in H; [injection H as <-; constructor|].
  destruct (f a) as [b|] eqn:E; [|discriminate]. cbn [bind] in H. destruct (mapr f l) as [bs|]; [|discriminate]. cbn [bind] in H. injection H as <-. constructor; [exact E|apply IH; reflexivity].
Qed.
Theorem sens_table_rows cfg r grid q : hd_sensitivity lp ppf cfg r grid = Ok q ->
  Forall2 (fun M row => exists o, hd_fit lp ppf cfg r (Some M) = Ok o /\
      row = (M, (ho_lb o, ho_ub o), (ho_ci_lb o, ho_ci_ub o), ho_significant o))
    (match grid with Some g => g | None => default_grid (hd_method cfg) end) (sens_table q).
Proof.
  unfold hd_sensitivity. cbv zeta. set (g := match grid with Some g => g | None => _ end). clearbody g. intros H.
  destruct (mapr _ g) as [os|] eqn:E; [|discriminate]. cbn [bind] in H. destruct (find_breakdown _ _ _) as [bd|]; [|discriminate]. cbn [bind] in H.
  destruct (hd_fit lp ppf cfg r (Some 0)) as [f0|]; [|discriminate]. cbn [bind] in H. injection H as <-. apply mapr_F2 in E. unfold sens_table. cbn [hs_M hs_bounds hs_cis].
  induction E as [|M o g os E1 E IH]; [constructor|]. cbn [map combine]. constructor; [|exact IH]. exists o. split; [exact E1|]. reflexivity.
Qed.
End Sens.

(* ---- concrete cases ---- *)
(* MultiPeriodDiD with a categorical column called "period" among the fixed effects: its dummies take the names of the period dummies *)
Theorem mp_names_collide coefs : length coefs = 7%nat ->
  let names := mp_names "treated" [2; 3]%Z [3]%Z [] [("period", ["2"; "3"])]%string in
  length names = 7%nat /\ dget (coef_dict names coefs) "period_2" = Some (VF (nth 5 coefs NaN)) /\ dget (coef_dict names coefs) "period_3" = Some (VF (nth 6 coefs NaN)) /\
  length (coef_dict names coefs) = 5%nat.
Proof. intros L. do 8 (destruct coefs as [|? coefs]; try discriminate). vm_compute. auto. Qed.
(* the treatment column listed as a covariate *)
Theorem did_names_collide c0 c1 c2 c3 c4 : dget (coef_dict (did_names "treated" "post" ["treated"] []) [c0; c1; c2; c3; c4])%string "treated" = Some (VF c4).
Proof. reflexivity. Qed.
(* MultiPeriodDiD without covariates and a treatment column called "treated": all names differ *)
Lemma NoDup_app_dis {A} (a b : list A) : NoDup a -> NoDup b -> (forall x, In x a -> ~ In x b) -> NoDup (a ++ b).
Proof.
  induction a as [|x a IH]; intros Ha Hb H; [exact Hb|]. apply NoDup_cons_iff in Ha as [H1 H2]. cbn [List.app]. constructor.
  - rewrite in_app_iff. intros [X|X]; [exact (H1 X)|exact (H x (or_introl eq_refl) X)].
  - apply IH; [exact H2|exact Hb|]. intros z Hz. apply H. right. exact Hz.
Qed.
Theorem mp_names_NoDup nonref post : NoDup nonref -> NoDup post -> NoDup (mp_names "treated" nonref post [] []).
Proof.
  intros H1 H2. unfold mp_names. cbn [flat_map]. rewrite !app_nil_r.
  assert (M : forall pre l, NoDup l -> NoDup (map (fun p => cat pre (show p)) l)).
  { intros pre l H. induction H as [|x l Hn Hl IH]; [constructor|]. cbn [map]. constructor; [|exact IH]. intros X. apply in_map_iff in X as (z & E & Hz). apply cat_inj_l, show_inj in E. subst z. contradiction. }
  apply NoDup_app_dis; [repeat constructor; cbn; intuition discriminate| |].
  - apply NoDup_app_dis; [apply M; exact H1|apply (M "treated:period_"%string); exact H2|].
    intros x X Y. apply in_map_iff in X as (z & <- & _). apply in_map_iff in Y as (w & E & _). cbn in E. discriminate.
  - intros x X Y. apply in_app_iff in Y as [Y|Y]; apply in_map_iff in Y as (z & <- & _); cbn in X; destruct X as [X|[X|[]]]; discriminate.
Qed.
(* and each period interaction is found under its name *)
Theorem mp_coefficient nonref post coefs j p c : NoDup nonref -> NoDup post -> length coefs = (2 + length nonref + length post)%nat ->
  nth_error post j = Some p -> nth_error coefs (2 + length nonref + j) = Some c ->
  dget (coef_dict (mp_names "treated" nonref post [] []) coefs) (cat "treated:period_" (show p)) = Some (VF c).
Proof.
  intros H1 H2 L Hp Hc.
  assert (Ln : length coefs = length (mp_names "treated" nonref post [] [])).
  { unfold mp_names. cbn [flat_map]. rewrite !app_nil_r, !app_length, !map_length. cbn [length]. lia. }
  destruct (coef_dict_get _ coefs _ c (mp_names_NoDup _ _ H1 H2) Ln Hc) as (n & Hn & Hg).
  assert (E : n = cat "treated:period_" (show p)); [|rewrite <- E; exact Hg].
  unfold mp_names in Hn. cbn [flat_map] in Hn. rewrite !app_nil_r in Hn. rewrite nth_error_app2 in Hn by (cbn; lia). cbn [length] in Hn.
  rewrite nth_error_app2 in Hn by (rewrite map_length; lia). rewrite map_length in Hn. replace (2 + length nonref + j - 2 - length nonref)%nat with j in Hn by lia.
  rewrite (map_nth_error _ _ _ Hp) in Hn. injection Hn as <-. reflexivity.
Qed.

(* Properties of the estimator objects: formula parser, argument resolution, parameters, inference
   label. Statements only. *)
From Coq Require Import Arith ZArith String Ascii List Bool.
From Verif Require Import Prelude Estim_model Estim_proofs.
Import ListNotations.

(* ---- C09 ---- *)
Theorem C09_product_formula cols y d t xs :
  okpad y -> okpad d -> okpad t -> Forall okpad xs ->
  In (pd_name y) cols -> In (pd_name d) cols -> In (pd_name t) cols ->
  (forall x, In x xs -> In (pd_name x) cols) ->
  fit_args cols (Some (star_formula y d t xs)) None None None None =
  Ok (mk_parsed (pd_name y) (pd_name d) (pd_name t) (some_ne (map pd_name xs))).
Proof. exact (parse_star_formula cols y d t xs). Qed.
Theorem C09_interaction_formula cols y d t pre post :
  okpad y -> okpad d -> okpad t -> Forall okpad pre -> Forall okpad post ->
  In (pd_name y) cols -> In (pd_name d) cols -> In (pd_name t) cols ->
  (forall x, In x (pre ++ post) -> In (pd_name x) cols) ->
  fit_args cols (Some (colon_formula y d t pre post)) None None None None =
  Ok (mk_parsed (pd_name y) (pd_name d) (pd_name t)
        (some_ne (filter (fun x => negb (teqb x (pd_name d)) && negb (teqb x (pd_name t)))
                         (map pd_name (pre ++ post))))).
Proof. exact (parse_colon_formula cols y d t pre post). Qed.
Theorem C09_only_existing_columns cols f p : parse_formula cols f = Ok p ->
  In (p_outcome p) cols /\ In (p_treatment p) cols /\ In (p_time p) cols /\
  (forall l x, p_covariates p = Some l -> In x l -> In x cols).
Proof. exact (parse_formula_sound cols f p). Qed.
Theorem C09_errors cols f :
  (forall e, parse_formula cols f = Err e -> e = ValueError) /\
  (count_occ ascii_dec f "~"%char <> 1%nat -> parse_formula cols f = Err ValueError) /\
  (~ In "*"%char f -> ~ In ":"%char f -> parse_formula cols f = Err ValueError).
Proof.
  split; [exact (fun e => parse_formula_only_value_error cols f e)|].
  split; [intros H|intros H1 H2]; destruct (parse_formula cols f) as [p|e] eqn:E;
    try (f_equal; exact (parse_formula_only_value_error cols f e E));
    exfalso; destruct (parse_formula_needs cols f p E) as [A [B|B]]; auto.
Qed.
Theorem C09_explicit cols o d t c : fit_args cols None (Some o) (Some d) (Some t) c = Ok (mk_parsed o d t c).
Proof. exact eq_refl. Qed.
(* the property also says the covariates argument is used: it is not *)
Theorem C09_covariates_argument_refuted :
  exists f c p, fit_args ex_cols (Some f) None None None (Some c) = Ok p /\
    c <> [] /\ (forall x, In x c -> In x ex_cols) /\ p_covariates p = None.
Proof. exact fit_args_drops_covariates. Qed.
Theorem C09_second_interaction_refuted :
  parse_formula ex_cols (t_ "y ~ d + t + d:t + d:x") =
  Ok (mk_parsed (t_ "y") (t_ "d") (t_ "x") (Some [t_ "t"])).
Proof. exact two_interactions_last_wins. Qed.

(* non-trivial instances *)
Definition padx (l n r : string) : padded := mk_pad (t_ l) (t_ n) (t_ r).
Lemma padx_ok l n r : forallb blank (t_ l) && forallb blank (t_ r)
    && negb (has ch_tilde (t_ n)) && negb (has ch_star (t_ n)) && negb (has ch_plus (t_ n)) && negb (has ch_colon (t_ n))
    && teqb (strip (t_ n)) (t_ n) = true -> okpad (padx l n r).
Proof.
  intros H. repeat (apply andb_true_iff in H; destruct H as [H ?]).
  repeat match goal with K : negb (has _ _) = true |- _ => apply negb_true_iff, has_false in K end.
  unfold teqb in *. destruct (text_dec (strip (t_ n)) (t_ n)) as [E|]; [|discriminate].
  split; [|split; [split; [exact E|auto]|]]; simpl; apply Forall_forall; apply forallb_forall; assumption.
Qed.
Example C09_product_example :
  parse_formula (map t_ ["log wage"; "treated"; "post"; "age"; "female"]%string)
    (t_ " log wage ~treated  *post + age+  female ") =
  Ok (mk_parsed (t_ "log wage") (t_ "treated") (t_ "post") (Some [t_ "age"; t_ "female"])).
Proof.
  exact (C09_product_formula (map t_ ["log wage"; "treated"; "post"; "age"; "female"]%string)
    (padx " " "log wage" " ") (padx "" "treated" "  ") (padx "" "post" " ") [padx " " "age" ""; padx "  " "female" " "]
    ltac:(apply padx_ok; reflexivity) ltac:(apply padx_ok; reflexivity) ltac:(apply padx_ok; reflexivity)
    ltac:(repeat constructor; apply padx_ok; reflexivity)
    ltac:(vm_compute; tauto) ltac:(vm_compute; tauto) ltac:(vm_compute; tauto)
    ltac:(intros x [<-|[<-|[]]]; vm_compute; tauto)).
Qed.
Example C09_interaction_example :
  parse_formula (map t_ ["y"; "d"; "t"; "x"]%string) (t_ "y ~ x + d + t + d : t") =
  Ok (mk_parsed (t_ "y") (t_ "d") (t_ "t") (Some [t_ "x"])).
Proof. vm_compute. reflexivity. Qed.

(* ---- C10 ---- *)
Theorem C10_set_get_identity {V} ca names (o : obj V) ps :
  get_params names o = Ok ps -> set_params ca o ps = (o, Ok tt).
Proof. exact (set_get_identity ca names o ps). Qed.
Theorem C10_get_reads_attributes {V} names (o : obj V) ps : get_params names o = Ok ps ->
  map fst ps = names /\ forall k, In k names -> lookup ps k = getattr o k.
Proof. intros H. exact (conj (get_params_keys names o ps H) (get_params_lookup names o ps H)). Qed.
Theorem C10_set_one {V} ca (o : obj V) k v : hasattr ca o k = true ->
  exists o', set_params ca o [(k, v)] = (o', Ok tt) /\ getattr o' k = Some v /\
    forall k', k' <> k -> getattr o' k' = getattr o k'.
Proof. exact (set_one ca o k v). Qed.
Theorem C10_set_many {V} ca (o : obj V) ps o' : set_params ca o ps = (o', Ok tt) ->
  forall k, getattr o' k = match lookup (rev ps) k with Some v => Some v | None => getattr o k end.
Proof. exact (set_params_getattr ca o ps o'). Qed.
Theorem C10_unknown_raises {V} ca (o : obj V) ps :
  (snd (set_params ca o ps) = Ok tt <-> forall k v, In (k, v) ps -> hasattr ca o k = true) /\
  (forall e, snd (set_params ca o ps) = Err e -> e = ValueError).
Proof. exact (conj (set_params_succeeds_iff ca o ps) (fun e => set_params_error ca o ps e)). Qed.
Theorem C10_set_is_construct a b c d e f g h a' b' c' d' e' f' g' h' :
  set_params did_class_attrs (did_init a b c d e f g h)
    [("robust", a'); ("cluster", b'); ("alpha", c'); ("inference", d'); ("n_bootstrap", e');
     ("bootstrap_weights", f'); ("seed", g'); ("rank_deficient_action", h')]%string
  = (did_init a' b' c' d' e' f' g' h', Ok tt).
Proof. exact (did_set_is_construct a b c d e f g h a' b' c' d' e' f' g' h'). Qed.
Theorem C10_pretrends_roundtrip {V} ca (a p t w : V) rest ps :
  let o := ("alpha"%string, a) :: ("target_power"%string, p) :: ("violation_type"%string, t)
             :: ("violation_weights"%string, w) :: rest in
  get_params_pretrends o = Ok ps -> set_params_pretrends ca o ps = (o, Ok tt).
Proof. exact (pretrends_roundtrip ca a p t w rest ps). Qed.
Theorem C10_bacon_atomic {V} ok (o : obj V) ps e :
  snd (set_params_bacon ok o ps) = Err e -> fst (set_params_bacon ok o ps) = o.
Proof. exact (bacon_atomic ok o ps e). Qed.
Theorem C10_cs_constructor_validates c a m w wt r b o : cs_init c a m w wt r b = Ok o ->
  cs_weights o = cs_weight_type o /\ cs_weights_known o = true /\
  In (cs_control o) ["never_treated"; "not_yet_treated"]%string /\
  In (cs_method o) ["dr"; "ipw"; "reg"]%string /\
  In (cs_rda o) ["warn"; "error"; "silent"]%string /\ In (cs_base o) ["varying"; "universal"]%string.
Proof. exact (cs_init_ok c a m w wt r b o). Qed.
Theorem C10_atomicity_refuted :
  exists ps, snd (set_params did_class_attrs did_default ps) = Err ValueError /\
    getattr (fst (set_params did_class_attrs did_default ps)) "alpha" <> getattr did_default "alpha".
Proof. exact did_set_not_atomic. Qed.
Theorem C10_non_parameter_accepted_refuted :
  exists k v, ~ In k did_param_names /\ snd (set_params did_class_attrs did_default [(k, v)]) = Ok tt /\
    getattr (fst (set_params did_class_attrs did_default [(k, v)])) k = Some v.
Proof. exact did_set_accepts_non_parameters. Qed.
Theorem C10_cs_weights_refuted :
  exists o o' o2, cs_init "never_treated" 0 "dr" None None "warn" "varying" = Ok o /\
    cs_set o "bootstrap_weights" "webb" = (o', Ok tt) /\
    cs_init "never_treated" 0 "dr" (Some "webb"%string) None "warn" "varying" = Ok o2 /\
    cs_weights o' = cs_weights o2 /\ cs_drawn o' = cs_drawn o /\ cs_drawn o' <> cs_drawn o2.
Proof. exact cs_weights_setter_ineffective. Qed.
Theorem C10_cs_unvalidated_refuted :
  exists o o', cs_init "never_treated" 0 "dr" None None "warn" "varying" = Ok o /\
    cs_set o "estimation_method" "typo" = (o', Ok tt) /\
    cs_init "never_treated" 0 "typo" None None "warn" "varying" = Err ValueError.
Proof. exact cs_set_unvalidated. Qed.
Theorem C10_honest_keeps_invalid_refuted :
  honest_valid honest_default = true /\
  exists ps, snd (set_params_validated honest_valid [] honest_default ps) = Err ValueError /\
    honest_valid (fst (set_params_validated honest_valid [] honest_default ps)) = false.
Proof. exact honest_set_keeps_invalid. Qed.
Theorem C10_bacon_unknown_refuted {V} ok (o : obj V) ps : lookup ps "weights"%string = None ->
  set_params_bacon ok o ps = (o, Ok tt).
Proof. exact (bacon_unknown_ignored ok o ps). Qed.
Example C10_example : exists ps, get_params did_param_names did_default = Ok ps /\ length ps = 8%nat /\
  set_params did_class_attrs did_default ps = (did_default, Ok tt).
Proof. eexists. split; [reflexivity|]. split; reflexivity. Qed.

(* ---- C08 ---- *)
Theorem C08_label_exact s l i r : nth_error (snd (run_events s l)) i = Some r ->
  (rp_label r = Wild <->
   is_boot s <> None \/ exists j q, (j <= i)%nat /\ nth_error (snd (run_events s l)) j = Some q /\ rp_used q = Wild).
Proof. exact (label_exact s l i r). Qed.
Theorem C08_first_fit inference cl l run r :
  (forall e, In e l -> match e with Fit _ => False | _ => True end) ->
  snd (run_events (fresh inference cl) (l ++ [Fit run])) = [r] -> rp_label r = rp_used r.
Proof. exact (first_fit_label inference cl l run r). Qed.
Theorem C08_bootstrap_fit_labelled s l i r : nth_error (snd (run_events s l)) i = Some r ->
  rp_used r = Wild -> rp_label r = Wild.
Proof. exact (wild_fit_labelled s l i r). Qed.
Theorem C08_stale_label_refuted : exists l r,
  nth_error (snd (run_events (fresh "wild_bootstrap" true) l)) 1 = Some r /\
  rp_used r = Analytical /\ rp_label r = Wild /\ rp_boot r = Some O.
Proof. exact stale_label. Qed.
Example C08_example :
  map rp_used (snd (run_events (fresh "analytical" true)
     [Fit 0; SetInference "wild_bootstrap"; Fit 1; SetCluster false; Fit 2]))
  = [Analytical; Wild; Analytical].
Proof. reflexivity. Qed.

Print Assumptions C09_product_formula.
Print Assumptions C09_interaction_formula.
Print Assumptions C09_only_existing_columns.
Print Assumptions C09_errors.
Print Assumptions C09_explicit.
Print Assumptions C09_covariates_argument_refuted.
Print Assumptions C09_second_interaction_refuted.
Print Assumptions C10_set_get_identity.
Print Assumptions C10_get_reads_attributes.
Print Assumptions C10_set_one.
Print Assumptions C10_set_many.
Print Assumptions C10_unknown_raises.
Print Assumptions C10_set_is_construct.
Print Assumptions C10_pretrends_roundtrip.
Print Assumptions C10_bacon_atomic.
Print Assumptions C10_cs_constructor_validates.
Print Assumptions C10_atomicity_refuted.
Print Assumptions C10_non_parameter_accepted_refuted.
Print Assumptions C10_cs_weights_refuted.
Print Assumptions C10_cs_unvalidated_refuted.
Print Assumptions C10_honest_keeps_invalid_refuted.
Print Assumptions C10_bacon_unknown_refuted.
Print Assumptions C08_label_exact.
Print Assumptions C08_first_fit.
Print Assumptions C08_bootstrap_fit_labelled.
Print Assumptions C08_stale_label_refuted.

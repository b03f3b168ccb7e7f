(* The object layer of the estimators: the formula parser, the resolution of fit()'s arguments,
   get_params / set_params, constructor validation, and the part of the instance state that decides
   which inference method a result is labelled with.
   Sources: diff_diff/estimators.py, twfe.py, staggered.py, bacon.py, honest_did.py, pretrends.py.
   Text is a list of ASCII characters; Python's str.strip also removes the non-ASCII blanks, which
   are not representable here. *)
From Coq Require Import Arith ZArith String Ascii List Bool.
From Verif Require Import Prelude.
Import ListNotations.

Definition text := list ascii.
Definition t_ (s : string) : text := list_ascii_of_string s.

Definition text_dec : forall a b : text, {a = b} + {a <> b} := list_eq_dec ascii_dec.
Definition teqb (a b : text) : bool := if text_dec a b then true else false.

(* str.strip(): ASCII blanks are 9-13, 28-31 and 32. *)
Definition blank (c : ascii) : bool :=
  let n := nat_of_ascii c in
  ((9 <=? n) && (n <=? 13) || (28 <=? n) && (n <=? 32))%nat.

Fixpoint lstrip (s : text) : text :=
  match s with
  | [] => []
  | c :: r => if blank c then lstrip r else s
  end.
Definition strip (s : text) : text := rev (lstrip (rev (lstrip s))).

(* str.split(sep) for a one-character separator: never the empty list. *)
Fixpoint split (sep : ascii) (s : text) : list text :=
  match s with
  | [] => [[]]
  | c :: r => if ascii_dec c sep then [] :: split sep r
              else match split sep r with
                   | h :: q => (c :: h) :: q
                   | [] => [[c]]
                   end
  end.

(* "c" in s *)
Definition has (c : ascii) (s : text) : bool := existsb (fun x => if ascii_dec x c then true else false) s.

Definition ch_tilde : ascii := "~"%char.
Definition ch_star : ascii := "*"%char.
Definition ch_plus : ascii := "+"%char.
Definition ch_colon : ascii := ":"%char.

Definition mem (x : text) (l : list text) : bool := existsb (teqb x) l.

(* a, b = xs : ValueError unless there are exactly two values *)
Definition unpack2 {A} (l : list A) : res (A * A) :=
  match l with [a; b] => Ok (a, b) | _ => Err ValueError end.

Record parsed : Type := mk_parsed {
  p_outcome : text; p_treatment : text; p_time : text; p_covariates : option (list text) }.

(* `covariates if covariates else None` *)
Definition some_ne (l : list text) : option (list text) :=
  match l with [] => None | _ => Some l end.

(* estimators.py:464-487, the "*" branch of _parse_formula.
   The first "*" part is the treatment as written; a "+" after the time variable starts covariates. *)
Definition parse_star (rhs : text) : res (text * text * option (list text)) :=
  do p <- unpack2 (split ch_star rhs) ;
  let treatment := strip (fst p) in
  let time := strip (snd p) in
  if has ch_plus time then
    match split ch_plus time with
    | h :: q => Ok (treatment, strip h, Some (map strip q))
    | [] => Ok (treatment, time, None)
    end
  else Ok (treatment, time, None).

(* estimators.py:488-513: the loop keeps the last term that contains ":", everything else is a main
   effect. *)
Fixpoint scan_terms (terms : list text) (inter : option text) (mains : list text)
  : option text * list text :=
  match terms with
  | [] => (inter, mains)
  | x :: r => if has ch_colon x then scan_terms r (Some x) mains
              else scan_terms r inter (mains ++ [x])
  end.

Definition parse_colon (rhs : text) : res (text * text * option (list text)) :=
  let sc := scan_terms (map strip (split ch_plus rhs)) None [] in
  match fst sc with
  | None => Err ValueError
  | Some it =>
      do p <- unpack2 (map strip (split ch_colon it)) ;
      let covs := filter (fun x => negb (teqb x (fst p)) && negb (teqb x (snd p))) (snd sc) in
      Ok (fst p, snd p, some_ne covs)
  end.

(* estimators.py:440-531 _parse_formula(formula, data) *)
Definition parse_formula (cols : list text) (f : text) : res parsed :=
  if negb (has ch_tilde f) then Err ValueError
  else
    do lr <- unpack2 (split ch_tilde f) ;
    let outcome := strip (fst lr) in
    let rhs := strip (snd lr) in
    do ttc <- (if has ch_star rhs then parse_star rhs
               else if has ch_colon rhs then parse_colon rhs
               else Err ValueError) ;
    match ttc with
    | (treatment, time, covs) =>
        if negb (forallb (fun c => mem c cols) [outcome; treatment; time]) then Err ValueError
        else if negb (forallb (fun c => mem c cols) (match covs with Some l => l | None => [] end))
        then Err ValueError
        else Ok (mk_parsed outcome treatment time covs)
    end.

(* estimators.py:205-215: fit()'s argument resolution. With a formula, the values parsed from it
   replace all four arguments. *)
Definition fit_args (cols : list text) (formula outcome treatment time : option text)
    (covariates : option (list text)) : res parsed :=
  match formula with
  | Some f => parse_formula cols f
  | None =>
      match outcome, treatment, time with
      | Some o, Some d, Some t => Ok (mk_parsed o d t covariates)
      | _, _, _ => Err ValueError
      end
  end.

(* ---------- instances as attribute dictionaries ---------- *)

Section Attributes.
Context {V : Type}.

(* the instance __dict__, in insertion order *)
Definition obj := list (string * V).

Fixpoint getattr (o : obj) (k : string) : option V :=
  match o with
  | [] => None
  | (k', v) :: r => if string_dec k k' then Some v else getattr r k
  end.

(* setattr: overwrite in place, else append *)
Fixpoint setattr (o : obj) (k : string) (v : V) : obj :=
  match o with
  | [] => [(k, v)]
  | (k', v') :: r => if string_dec k k' then (k', v) :: r else (k', v') :: setattr r k v
  end.

(* hasattr also sees methods and properties of the class. *)
Definition hasattr (class_attrs : list string) (o : obj) (k : string) : bool :=
  match getattr o k with
  | Some _ => true
  | None => if in_dec string_dec k class_attrs then true else false
  end.

(* estimators.py:590-609 get_params (and the same shape in every other estimator): a dictionary
   from parameter names to the current attribute of the same name. A missing attribute would raise
   AttributeError. *)
Fixpoint get_params (names : list string) (o : obj) : res obj :=
  match names with
  | [] => Ok []
  | k :: r =>
      match getattr o k with
      | None => Err AttributeError
      | Some v => do q <- get_params r o ; Ok ((k, v) :: q)
      end
  end.

(* estimators.py:611-628, staggered.py:1099-1106, sun_abraham.py:1173-1180, triple_diff.py:1195-1213,
   synthetic_did.py:731-738, trop.py:3096-3103: the loop of set_params. The state is returned with
   the outcome because the assignments made before a raise persist. *)
Fixpoint set_params (ca : list string) (o : obj) (ps : list (string * V)) : obj * res unit :=
  match ps with
  | [] => (o, Ok tt)
  | (k, v) :: r =>
      if hasattr ca o k then set_params ca (setattr o k v) r else (o, Err ValueError)
  end.

(* honest_did.py:1036-1044: the same loop followed by _validate_params, which raises when the new
   state is not valid. *)
Definition set_params_validated (valid : obj -> bool) (ca : list string) (o : obj)
    (ps : list (string * V)) : obj * res unit :=
  match set_params ca o ps with
  | (o', Ok _) => (o', if valid o' then Ok tt else Err ValueError)
  | r => r
  end.

(* bacon.py:873-882: only "weights" is looked at, every other key is dropped without an error. *)
Fixpoint lookup (ps : list (string * V)) (k : string) : option V :=
  match ps with
  | [] => None
  | (k', v) :: r => if string_dec k k' then Some v else lookup r k
  end.

Definition set_params_bacon (ok : V -> bool) (o : obj) (ps : list (string * V)) : obj * res unit :=
  match lookup ps "weights"%string with
  | Some v => if ok v then (setattr o "weights"%string v, Ok tt) else (o, Err ValueError)
  | None => (o, Ok tt)
  end.

(* pretrends.py:473-482: "power" is stored under target_power. *)
Fixpoint set_params_pretrends (ca : list string) (o : obj) (ps : list (string * V)) : obj * res unit :=
  match ps with
  | [] => (o, Ok tt)
  | (k, v) :: r =>
      if string_dec k "power" then set_params_pretrends ca (setattr o "target_power"%string v) r
      else if hasattr ca o k then set_params_pretrends ca (setattr o k v) r
      else (o, Err ValueError)
  end.

(* pretrends.py:464-471 *)
Definition get_params_pretrends (o : obj) : res obj :=
  do a <- get_params ["alpha"%string] o ;
  do b <- get_params ["target_power"%string] o ;
  do c <- get_params ["violation_type"%string; "violation_weights"%string] o ;
  Ok (a ++ map (fun kv => ("power"%string, snd kv)) b ++ c).

End Attributes.
Arguments obj V : clear implicits.

(* parameter values that occur in the examples *)
Inductive pval : Type := PNone | PBool (b : bool) | PNum (n d : Z) | PStr (s : string).

(* estimators.py:120-144 DifferenceInDifferences.__init__ with its defaults *)
Definition did_param_names : list string :=
  ["robust"; "cluster"; "alpha"; "inference"; "n_bootstrap"; "bootstrap_weights"; "seed";
   "rank_deficient_action"]%string.

Definition did_init (robust cluster alpha inference n_boot weights seed rda : pval) : obj pval :=
  [("robust", robust); ("cluster", cluster); ("alpha", alpha); ("inference", inference);
   ("n_bootstrap", n_boot); ("bootstrap_weights", weights); ("seed", seed);
   ("rank_deficient_action", rda);
   ("is_fitted_", PBool false); ("results_", PNone); ("_coefficients", PNone); ("_vcov", PNone);
   ("_bootstrap_results", PNone)]%string.

Definition did_default : obj pval :=
  did_init (PBool true) PNone (PNum 5 100) (PStr "analytical") (PNum 999 1) (PStr "rademacher")
           PNone (PStr "warn").

(* public names of the class body of DifferenceInDifferences that hasattr sees *)
Definition did_class_attrs : list string :=
  ["fit"; "predict"; "get_params"; "set_params"; "summary"; "print_summary"; "_fit_ols";
   "_run_wild_bootstrap_inference"; "_parse_formula"; "_validate_data"; "__init__"; "__class__";
   "__dict__"; "__doc__"; "__module__"]%string.

(* staggered.py:295-369 CallawaySantAnna.__init__: validation, and the two names of the bootstrap
   weight option. [mem_s] is Python's "in" on a list of strings. *)
Definition mem_s (s : string) (l : list string) : bool := if in_dec string_dec s l then true else false.

Record cs_obj : Type := mk_cs {
  cs_control : string; cs_anticipation : Z; cs_method : string;
  cs_weights : string;        (* self.bootstrap_weights *)
  cs_weight_type : string;    (* self.bootstrap_weight_type *)
  cs_rda : string; cs_base : string }.

Definition cs_init (control : string) (anticipation : Z) (method : string)
    (weights weight_type : option string) (rda base : string) : res cs_obj :=
  if negb (mem_s control ["never_treated"; "not_yet_treated"]%string) then Err ValueError
  else if negb (mem_s method ["dr"; "ipw"; "reg"]%string) then Err ValueError
  else
    let w1 := match weight_type with
              | Some wt => match weights with None => Some wt | Some w => Some w end
              | None => weights end in
    let w := match w1 with None => "rademacher"%string | Some w => w end in
    if negb (mem_s w ["rademacher"; "mammen"; "webb"]%string) then Err ValueError
    else if negb (mem_s rda ["warn"; "error"; "silent"]%string) then Err ValueError
    else if negb (mem_s base ["varying"; "universal"]%string) then Err ValueError
    else Ok (mk_cs control anticipation method w w rda base).

(* staggered.py:1099-1106 restricted to the string-valued keyword arguments *)
Definition cs_set (o : cs_obj) (k v : string) : cs_obj * res unit :=
  let '(mk_cs c a m w wt r b) := o in
  if string_dec k "control_group" then (mk_cs v a m w wt r b, Ok tt)
  else if string_dec k "estimation_method" then (mk_cs c a v w wt r b, Ok tt)
  else if string_dec k "bootstrap_weights" then (mk_cs c a m v wt r b, Ok tt)
  else if string_dec k "bootstrap_weight_type" then (mk_cs c a m w v r b, Ok tt)
  else if string_dec k "rank_deficient_action" then (mk_cs c a m w wt v b, Ok tt)
  else if string_dec k "base_period" then (mk_cs c a m w wt r v, Ok tt)
  else (o, Err ValueError).

(* staggered_bootstrap.py:382-384, 518: the weights actually drawn, and the reported weight type,
   are those of self.bootstrap_weight_type *)
Definition cs_drawn (o : cs_obj) : string := cs_weight_type o.

(* staggered_bootstrap.py:44-63 / 128-150: unknown weight types raise *)
Definition cs_weights_known (o : cs_obj) : bool :=
  mem_s (cs_drawn o) ["rademacher"; "mammen"; "webb"]%string.

(* ---------- which inference method is reported ---------- *)

Inductive imethod : Type := Analytical | Wild.

(* The instance attributes that matter: inference, cluster is not None, _bootstrap_results (Some b:
   the results object of the bootstrap run numbered b). *)
Record istate : Type := mk_is {
  is_inference : string; is_clustered : bool; is_boot : option nat }.

Inductive event : Type :=
  | SetInference (s : string)          (* set_params(inference=s) *)
  | SetCluster (b : bool)              (* set_params(cluster=...) : None or a column *)
  | Fit (run : nat).                   (* a call of fit() that returns; run numbers the calls *)

(* What a fit returns: the method that produced se/p/CI, the method the result is labelled with, and
   the bootstrap run whose n_bootstrap / n_clusters are copied into the result. *)
Record report : Type := mk_rep {
  rp_used : imethod; rp_label : imethod; rp_boot : option nat }.

(* estimators.py:298-300: the wild bootstrap runs iff inference == "wild_bootstrap" and cluster is
   not None *)
Definition uses_wild (s : istate) : bool :=
  (if string_dec (is_inference s) "wild_bootstrap" then true else false) && is_clustered s.

(* estimators.py:298-359: label and copied fields come from self._bootstrap_results, which a
   bootstrap run sets (429) and nothing ever clears. *)
Definition fit_report (s : istate) (run : nat) : istate * report :=
  let boot := if uses_wild s then Some run else is_boot s in
  (mk_is (is_inference s) (is_clustered s) boot,
   mk_rep (if uses_wild s then Wild else Analytical)
          (match boot with Some _ => Wild | None => Analytical end) boot).

Definition step (s : istate) (e : event) : istate * list report :=
  match e with
  | SetInference v => (mk_is v (is_clustered s) (is_boot s), [])
  | SetCluster b => (mk_is (is_inference s) b (is_boot s), [])
  | Fit run => let r := fit_report s run in (fst r, [snd r])
  end.

Fixpoint run_events (s : istate) (l : list event) : istate * list report :=
  match l with
  | [] => (s, [])
  | e :: r => let a := step s e in let b := run_events (fst a) r in (fst b, snd a ++ snd b)
  end.

(* estimators.py:120-144: a new instance *)
Definition fresh (inference : string) (clustered : bool) : istate := mk_is inference clustered None.

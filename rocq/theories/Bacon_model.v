(* Model of BaconDecomposition (diff_diff/bacon.py:402-867). *)
From Verif Require Import Prelude Flt Linalg_model Did_model Multi_model.
From Coq Require Import Arith ZArith String List.
Import ListNotations.
Open Scope R_scope.

(* A value of the first_treat column after pd.to_numeric.  Finite values are taken in Z: the code only
   compares them with each other and with periods, and subtracts 1. *)
Inductive coh : Type := CFin (g : Z) | CInf | CNaN.
Definition coh_eq_dec (a b : coh) : {a = b} + {a <> b}.
Proof. decide equality. apply Z.eq_dec. Defined.

(* (first_treat == 0) | (first_treat == np.inf), bacon.py:462, 470-472, 637, 713 *)
Definition c_never (c : coh) : bool := match c with CFin g => Z.eqb g 0 | CInf => true | CNaN => false end.
(* first_treat == g *)
Definition c_is (c : coh) (g : Z) : bool := match c with CFin g' => Z.eqb g' g | _ => false end.
(* time >= first_treat *)
Definition c_started (c : coh) (t : Z) : bool := match c with CFin g => Z.leb g t | _ => false end.

Inductive ctype : Type := TreatedNever | EarlierLater | LaterEarlier.

(* Comparison2x2, bacon.py:20-57; control None = "never_treated" *)
Record comparison := {
  cmp_treated : Z; cmp_control : option Z; cmp_type : ctype;
  cmp_est : fl; cmp_weight : R; cmp_nt : nat; cmp_nc : nat; cmp_window : Z * Z }.
Definition set_weight (c : comparison) (w : R) : comparison :=
  {| cmp_treated := cmp_treated c; cmp_control := cmp_control c; cmp_type := cmp_type c; cmp_est := cmp_est c;
     cmp_weight := w; cmp_nt := cmp_nt c; cmp_nc := cmp_nc c; cmp_window := cmp_window c |}.

(* Series.mean(): NaN on an empty selection *)
Definition smean {I} (y : I -> R) (l : list I) : fl := match l with [] => NaN | _ => Fin (meanf y l) end.

Section Bacon.
Context {I : Type}.
Variables (rows : list I) (u t : I -> Z) (g : I -> coh) (y : I -> R).

(* sorted(df[time].unique()), bacon.py:458 *)
Definition bperiods : list Z := zsort (nodup Z.eq_dec (map t rows)).
(* sorted([g for g in df[first_treat].unique() if g > 0 and g != np.inf]), bacon.py:463-464 *)
Definition finite_cohorts : list Z :=
  flat_map (fun i => match g i with CFin z => if Z.ltb 0 z then [z] else [] | _ => [] end) rows.
Definition timing_groups : list Z := zsort (nodup Z.eq_dec finite_cohorts).
(* unit_info and n_never_treated, bacon.py:467-470: 'first' skips missing values *)
Definition unit_cohort (a : Z) : coh :=
  match filter (fun c => match c with CNaN => false | _ => true end) (map g (filter (fun i => Z.eqb (u i) a) rows)) with
  | [] => CNaN | c :: _ => c end.
Definition n_never : nat := length (filter (fun a => c_never (unit_cohort a)) (nodup Z.eq_dec (map u rows))).
(* the treatment indicator, bacon.py:474-475 *)
Definition btreat (i : I) : R := ind (negb (c_never (g i)) && c_started (g i) (t i)).

(* _compute_twfe, bacon.py:569-594 *)
Definition btwfe : R :=
  let dw := within Z.eq_dec Z.eq_dec rows u t btreat in
  let yw := within Z.eq_dec Z.eq_dec rows u t y in
  let d_var := sumf (fun i => dw i * dw i) rows in
  if Rlt_dec 0 d_var then sumf (fun i => dw i * yw i) rows / d_var else 0.

Definition nunique_units (l : list I) : nat := length (nodup Z.eq_dec (map u l)).
Definition in_periods (ps : list Z) (l : list I) : list I := filter (fun i => existsb (Z.eqb (t i)) ps) l.
Definition nonempty {A} (l : list A) : bool := match l with [] => false | _ => true end.

(* windows, bacon.py:624-650, 726-727, 795-825 *)
Definition pre_of (ty : ctype) (k : Z) (l : option Z) : list Z :=
  match ty, l with
  | LaterEarlier, Some ge => filter (fun s => Z.leb ge s && Z.ltb s k) bperiods
  | _, _ => filter (fun s => Z.ltb s k) bperiods
  end.
Definition post_of (ty : ctype) (k : Z) (l : option Z) : list Z :=
  match ty, l with
  | EarlierLater, Some gl => filter (fun s => Z.leb k s && Z.ltb s gl) bperiods
  | _, _ => filter (fun s => Z.leb k s) bperiods
  end.

Definition did22 (tpost tpre cpost cpre : fl) : fl := fsub (fsub tpost tpre) (fsub cpost cpre).

(* _compute_treated_vs_never, bacon.py:694-766 *)
Definition vs_never (k : Z) : option comparison :=
  let dt := filter (fun i => c_is (g i) k) rows in
  let dn := filter (fun i => c_never (g i)) rows in
  if negb (nonempty dt) || negb (nonempty dn) then None else
  let pre := pre_of TreatedNever k None in
  let post := post_of TreatedNever k None in
  if negb (nonempty pre) || negb (nonempty post) then None else
  let est := did22 (smean y (in_periods post dt)) (smean y (in_periods pre dt))
                   (smean y (in_periods post dn)) (smean y (in_periods pre dn)) in
  let nt := nunique_units dt in let nc := nunique_units dn in
  let nk := INR nt / INR (nt + nc) in
  let dk := len post / len bperiods in
  Some {| cmp_treated := k; cmp_control := None; cmp_type := TreatedNever; cmp_est := est;
          cmp_weight := nk * (1 - nk) * dk * (1 - dk); cmp_nt := nt; cmp_nc := nc;
          cmp_window := (hd 0%Z bperiods, last bperiods 0%Z) |}.

(* _compute_timing_comparison, bacon.py:768-867 *)
Definition timing_comparison (ty : ctype) (k l : Z) : option comparison :=
  let dt := filter (fun i => c_is (g i) k) rows in
  let dc := filter (fun i => c_is (g i) l) rows in
  if negb (nonempty dt) || negb (nonempty dc) then None else
  let nt := nunique_units dt in let nc := nunique_units dc in
  let pre := pre_of ty k (Some l) in
  let post := post_of ty k (Some l) in
  if negb (nonempty pre) || negb (nonempty post) then None else
  let window := match ty with EarlierLater => (hd 0%Z bperiods, (l - 1)%Z) | _ => (l, last bperiods 0%Z) end in
  let tpre := smean y (in_periods pre dt) in let tpost := smean y (in_periods post dt) in
  let cpre := smean y (in_periods pre dc) in let cpost := smean y (in_periods post dc) in
  if fisnan tpre || fisnan tpost then None else
  if fisnan cpre || fisnan cpost then None else
  let nk := INR nt / INR (nt + nc) in
  let total := (length pre + length post)%nat in
  let dk := if Nat.ltb 0 total then len post / INR total else 0 in
  let time_share := INR total / len bperiods in
  Some {| cmp_treated := k; cmp_control := Some l; cmp_type := ty; cmp_est := did22 tpost tpre cpost cpre;
          cmp_weight := nk * (1 - nk) * dk * (1 - dk) * time_share; cmp_nt := nt; cmp_nc := nc;
          cmp_window := window |}.

Definition olist {A} (o : option A) : list A := match o with Some a => [a] | None => [] end.

(* the two nested loops, bacon.py:492-509 *)
Fixpoint timing_pairs (gs : list Z) : list comparison :=
  match gs with
  | [] => []
  | ge :: later =>
      flat_map (fun gl => olist (timing_comparison EarlierLater ge gl) ++ olist (timing_comparison LaterEarlier gl ge)) later
      ++ timing_pairs later
  end.
Definition never_pairs : list comparison :=
  if Nat.ltb 0 n_never then flat_map (fun k => olist (vs_never k)) timing_groups else [].
(* bacon.py:480-509 *)
Definition comparisons0 : list comparison := never_pairs ++ timing_pairs timing_groups.

(* _recompute_exact_weights, bacon.py:596-692 *)
Definition exact_weight (c : comparison) : R :=
  let k := cmp_treated c in
  let pre := pre_of (cmp_type c) k (cmp_control c) in
  let post := post_of (cmp_type c) k (cmp_control c) in
  let ut := nodup Z.eq_dec (map u (filter (fun i => c_is (g i) k) rows)) in
  let uc := nodup Z.eq_dec (map u (filter (fun i => match cmp_control c with None => c_never (g i) | Some l => c_is (g i) l end) rows)) in
  if negb (nonempty pre) || negb (nonempty post) then 0 else
  let d22 := filter (fun i => existsb (Z.eqb (u i)) (ut ++ uc) && existsb (Z.eqb (t i)) (pre ++ post)) rows in
  if negb (nonempty d22) then 0 else
  let nk := length ut in let nl := length uc in
  if Nat.eqb nk 0 || Nat.eqb nl 0 then 0 else
  let sample_share := len d22 / len rows in
  let nk_share := INR nk / INR (nk + nl) in
  let dk := len post / INR (length pre + length post) in
  let var_d := nk_share * dk * (1 - dk) in
  let unit_share := INR (nk + nl) / INR (length (nodup Z.eq_dec (map u rows))) in
  sample_share * var_d * unit_share.

(* bacon.py:512-521: the weights, then normalised when the total is positive *)
Definition reweighted (exact : bool) : list comparison :=
  if exact then map (fun c => set_weight c (exact_weight c)) comparisons0 else comparisons0.
Definition normalised (l : list comparison) : list comparison :=
  let total := sumf cmp_weight l in
  if Rlt_dec 0 total then map (fun c => set_weight c (cmp_weight c / total)) l else l.

Definition ctype_eqb (a b : ctype) : bool :=
  match a, b with TreatedNever, TreatedNever | EarlierLater, EarlierLater | LaterEarlier, LaterEarlier => true | _, _ => false end.
(* bacon.py:524-542 *)
Definition type_weight (l : list comparison) (ty : ctype) : R :=
  sumf cmp_weight (filter (fun c => ctype_eqb (cmp_type c) ty) l).
Definition type_average (l : list comparison) (ty : ctype) : option fl :=
  if Rlt_dec 0 (type_weight l ty)
  then Some (fdiv (fsum (map (fun c => fmul (Fin (cmp_weight c)) (cmp_est c)) (filter (fun c => ctype_eqb (cmp_type c) ty) l)))
                  (Fin (type_weight l ty)))
  else None.
Definition weighted_sum (l : list comparison) : fl := fsum (map (fun c => fmul (Fin (cmp_weight c)) (cmp_est c)) l).

Record bacon_out := {
  bo_twfe : R; bo_comparisons : list comparison;
  bo_weights : ctype -> R; bo_averages : ctype -> option fl;
  bo_n_groups : nat; bo_n_never : nat; bo_groups : list Z; bo_nobs : nat; bo_error : fl; bo_unbalanced : bool }.

(* fit, bacon.py:402-567.  Missing columns are outside the model; bo_unbalanced = the warning of 447-455 *)
Definition bacon_fit (exact : bool) : bacon_out :=
  let cs := normalised (reweighted exact) in
  {| bo_twfe := btwfe; bo_comparisons := cs;
     bo_weights := type_weight cs; bo_averages := type_average cs;
     bo_n_groups := length timing_groups; bo_n_never := n_never; bo_groups := timing_groups;
     bo_nobs := length rows; bo_error := fabs (fsub (Fin btwfe) (weighted_sum cs));
     bo_unbalanced := Nat.ltb 1 (length (nodup Nat.eq_dec
        (map (fun a => length (filter (fun i => Z.eqb (u i) a) rows)) (nodup Z.eq_dec (map u rows))))) |}.
End Bacon.

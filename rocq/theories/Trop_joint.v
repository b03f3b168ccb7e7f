(* diff_diff/trop.py, method="joint" (lines 855-1825): one treatment effect for the whole treated block,
   estimated by weighted least squares with unit and period effects and an optional low-rank part.
   Real arithmetic; infinite outcomes are not modelled; the Rust fast paths are not used here. *)
From Verif Require Import Prelude Flt Stats_model Linalg_model Multi_model Trop_model.
From Coq Require Import Arith ZArith String List.
Import ListNotations.
Open Scope R_scope.

(* ValueError is caught by the cross-validation and the resampling loops, UnboundLocalError is not *)
Inductive jout (A : Type) := JOk (a : A) | JVal | JUnbound.
Arguments JOk {A} _. Arguments JVal {A}. Arguments JUnbound {A}.

(* ------------------------------------------------------------------------------------------- *)
(* _compute_joint_weights, trop.py:859-951; [p] = treated_periods *)
Definition j_center (T p : nat) : R := INR T - INR p / 2.
Definition j_time_w (T p : nat) (lt : R) (t : nat) : R := exp (- lt * Rabs (INR t - j_center T p)).
(* np.nanmean over the treated units; NaN when none is observed *)
Definition avg_treated (T N : nat) (Y : omat) (D : dmat) (t : nat) : option R :=
  match filter (fun i => ever T D i && has Y t i) (seq 0 N) with
  | [] => None
  | l => Some (meanf (fun i => ysafe Y t i) l)
  end.
(* the pre-periods in which the difference to the average treated trajectory is finite *)
Definition j_valid (T N p : nat) (Y : omat) (D : dmat) (i : nat) : list nat :=
  filter (fun t => (t <? T - p)%nat && (has Y t i && match avg_treated T N Y D t with Some _ => true | None => false end)) (seq 0 T).
Definition j_gap (T N : nat) (Y : omat) (D : dmat) (t i : nat) : R :=
  match avg_treated T N Y D t with Some m => m - ysafe Y t i | None => 0 end.
Definition j_dist (T N p : nat) (Y : omat) (D : dmat) (i : nat) : R :=
  let v := j_valid T N p Y D i in
  sqrt (sumf (fun t => j_gap T N Y D t i * j_gap T N Y D t i) v / Rmax (len v) 1).
Definition j_unit_w (T N p : nat) (Y : omat) (D : dmat) (lu : R) (i : nat) : R :=
  match j_valid T N p Y D i with [] => 0 | _ => exp (- lu * j_dist T N p Y D i) end.
Definition j_weights (T N p : nat) (Y : omat) (D : dmat) (lt lu : R) : jout mat :=
  if (length (filter (ever T D) (seq 0 N)) =? 0)%nat then JVal        (* "No treated units found" *)
  else if (T - p =? 0)%nat then JVal                                  (* "No pre-treatment periods" *)
  else JOk (fun t i => j_time_w T p lt t * j_unit_w T N p Y D lu i).

(* ------------------------------------------------------------------------------------------- *)
(* _solve_joint_no_lowrank, trop.py:1036-1127.  [lstsq] = np.linalg.lstsq (or the pseudo-inverse when it
   raises): in both cases the minimum-norm least-squares solution.  Missing outcomes arrive here with
   weight 0 and value 0. *)
Definition cell2 := (nat * nat)%type.
Definition lstsq_fn := list cell2 -> list (cell2 -> R) -> (cell2 -> R) -> list R.
Record jcoef := { jmu : R; ja : nat -> R; jb : nat -> R; jtau : R }.
Definition j_cols (T N : nat) (D : dmat) : list (cell2 -> R) :=
  ((fun _ => 1) :: map (fun k c => ind (snd c =? k)%nat) (seq 1 (N - 1)))
  ++ map (fun k c => ind (fst c =? k)%nat) (seq 1 (T - 1)) ++ [fun c => IZR (D (fst c) (snd c))].
Definition sqw (w : mat) (c : cell2) : R := sqrt (Rmax (w (fst c) (snd c)) 0).
Definition wls (lstsq : lstsq_fn) (T N : nat) (y : mat) (D : dmat) (w : mat) : jout jcoef :=
  if Rltb (sumf (fun c => w (fst c) (snd c)) (cells T N)) (/ (10 ^ 10)) then JVal   (* "All weights are zero" *)
  else
    let b := lstsq (cells T N) (map (fun f c => f c * sqw w c) (j_cols T N D)) (fun c => y (fst c) (snd c) * sqw w c) in
    JOk {| jmu := nth 0 b 0;
           ja := fun i => if (i =? 0)%nat || (N <=? i)%nat then 0 else nth i b 0;
           jb := fun t => if (t =? 0)%nat || (T <=? t)%nat then 0 else nth (N - 1 + t) b 0;
           jtau := last b 0 |}.
(* zero weight for missing outcomes, trop.py:1069-1075 and 1174-1176 *)
Definition seen (Y : omat) (w : mat) : mat := fun t i => if has Y t i then w t i else 0.

(* _solve_joint_with_lowrank, trop.py:1129-1221.  With max_iter = 0 the return statement uses unbound
   variables. *)
Definition j_resid (y : mat) (D : dmat) (c : jcoef) : mat :=
  fun t i => y t i - jmu c - ja c i - jb c t - jtau c * IZR (D t i).
Definition j_eta (T N : nat) (w : mat) : R := if Rlt_dec 0 (wmax T N w) then 1 / wmax T N w else 1.
Fixpoint low_loop (lstsq : lstsq_fn) (svd : svd_fn) (T N : nat) (y : mat) (D : dmat) (w : mat) (h tol : R) (k : nat) (L : mat)
  (prev : option jcoef) : jout (jcoef * mat) :=
  match k with
  | O => match prev with Some c => JOk (c, L) | None => JUnbound end
  | S k' =>
    match wls lstsq T N (fun t i => y t i - L t i) D w with
    | JOk c =>
      let L' := prox_step svd T N w (j_resid y D c) (Some (j_eta T N w * h)) L in
      if Rltb (mdiff T N L' L) tol then JOk (c, L') else low_loop lstsq svd T N y D w h tol k' L' (Some c)
    | JVal => JVal
    | JUnbound => JUnbound
    end
  end.
(* the branch of trop.py:1011-1017, 1461-1467, 1745-1750 and 1801-1806 *)
Definition j_solve (lstsq : lstsq_fn) (svd : svd_fn) (T N : nat) (Y : omat) (D : dmat) (w : mat) (h : R) (maxit : nat) (tol : R)
  : jout (jcoef * mat) :=
  if Rle_dec (10 ^ 10) h then
    match wls lstsq T N (ysafe Y) D (seen Y w) with JOk c => JOk (c, zmat) | JVal => JVal | JUnbound => JUnbound end
  else low_loop lstsq svd T N (ysafe Y) D (seen Y w) h tol maxit zmat None.

(* ------------------------------------------------------------------------------------------- *)
(* _loocv_score_joint, trop.py:953-1034; control cells are observed, so every one is valid *)
Definition skip (w : mat) (c : cell2) : mat := fun t i => if (t =? fst c)%nat && (i =? snd c)%nat then 0 else w t i.
Definition j_pseudo (Y : omat) (r : jcoef * mat) (c : cell2) : R :=
  let '(co, L) := r in ysafe Y (fst c) (snd c) - jmu co - ja co (snd c) - jb co (fst c) - L (fst c) (snd c).
Fixpoint j_sum (lstsq : lstsq_fn) (svd : svd_fn) (T N : nat) (Y : omat) (D : dmat) (w : mat) (h : R) (maxit : nat) (tol : R)
  (obs : list cell2) (acc : R) : jout (option R) :=
  match obs with
  | [] => JOk (Some acc)
  | c :: r =>
    match j_solve lstsq svd T N Y D (skip w c) h maxit tol with
    | JOk s => j_sum lstsq svd T N Y D w h maxit tol r (acc + j_pseudo Y s c * j_pseudo Y s c)
    | JVal => JOk None
    | JUnbound => JUnbound
    end
  end.
Definition j_score (lstsq : lstsq_fn) (svd : svd_fn) (T N p : nat) (Y : omat) (D : dmat) (obs : list cell2) (maxit : nat) (tol : R)
  (lt lu h : R) : jout (option R) :=
  match j_weights T N p Y D lt lu with
  | JOk w => match obs with
             | [] => JOk None
             | _ => j_sum lstsq svd T N Y D w h maxit tol obs 0
             end
  | JVal => JOk None                     (* trop.py:1433-1434: the combination is skipped *)
  | JUnbound => JUnbound
  end.
(* grid search, trop.py:1411-1442 *)
Definition grid3 (gt gu gn : list lam) : list lam3 := list_prod (list_prod gt gu) gn.
Fixpoint j_search (score : lam3 -> jout (option R)) (g : list lam3) (best : option (lam3 * R)) : jout (option (lam3 * R)) :=
  match g with
  | [] => JOk best
  | l :: r =>
    match score l with
    | JOk (Some s) => j_search score r (match best with Some (_, b) => if Rltb s b then Some (l, s) else best | None => Some (l, s) end)
    | JOk None => j_search score r best
    | JVal => j_search score r best
    | JUnbound => JUnbound
    end
  end.

(* ------------------------------------------------------------------------------------------- *)
(* adoption check, trop.py:1328-1348: first observed treated period of each ever-treated unit *)
Definition first_obs (T : nat) (D : dmat) (miss : nat -> nat -> bool) (i : nat) : list nat :=
  firstn 1 (filter (fun t => negb (miss t i) && (D t i =? 1)%Z) (seq 0 T)).
Definition starts (T N : nat) (D : dmat) (miss : nat -> nat -> bool) : list nat :=
  nodup Nat.eq_dec (flat_map (first_obs T D miss) (filter (ever T D) (seq 0 N))).
Definition check_joint (T N : nat) (D : dmat) (miss : nat -> nat -> bool) : tout unit :=
  match check_panel T N D miss with
  | TErr e => TErr e
  | TOk _ => if (1 <? length (starts T N D miss))%nat then TErr EStaggered else TOk tt
  end.

(* one fit with fixed penalties, trop.py:1452-1467, 1695-1752 *)
Definition j_fixed (lstsq : lstsq_fn) (svd : svd_fn) (T N p : nat) (Y : omat) (D : dmat) (lt lu h : R) (maxit : nat) (tol : R)
  : jout (jcoef * mat) :=
  match j_weights T N p Y D lt lu with
  | JOk w => j_solve lstsq svd T N Y D w h maxit tol
  | JVal => JVal
  | JUnbound => JUnbound
  end.
(* collects the successful replicates *)
Fixpoint j_collect {A} (f : A -> jout (jcoef * mat)) (l : list A) : jout (list fl) :=
  match l with
  | [] => JOk []
  | x :: r =>
    match f x with
    | JOk s => match j_collect f r with JOk v => JOk (Fin (jtau (fst s)) :: v) | e => e end
    | JVal => j_collect f r
    | JUnbound => JUnbound
    end
  end.
(* _bootstrap_variance_joint (Python branch), trop.py:1624-1693: draws = sampled unit positions, control
   units first; every period is assumed to occur in the sample *)
Definition j_boot (lstsq : lstsq_fn) (svd : svd_fn) (T p : nat) (Y : omat) (D : dmat) (lt lu h : R) (maxit : nat) (tol : R)
  (name : nat -> string) (draws : list (list nat)) : jout (list fl) :=
  j_collect (fun smp => let cols := boot_cols name smp in
               j_fixed lstsq svd T (length cols) p (sel_o Y cols) (sel_d D cols) lt lu h maxit tol) draws.
(* _jackknife_variance_joint, trop.py:1754-1825 *)
Definition skip_unit (w : mat) (k : nat) : mat := fun t i => if (i =? k)%nat then 0 else w t i.
Definition j_jack1 (lstsq : lstsq_fn) (svd : svd_fn) (T N p : nat) (Y : omat) (D : dmat) (lt lu h : R) (maxit : nat) (tol : R) (k : nat)
  : jout (jcoef * mat) :=
  match j_weights T N p Y (drop_d D k) lt lu with
  | JOk w => j_solve lstsq svd T N Y (drop_d D k) (skip_unit w k) h maxit tol
  | JVal => JVal
  | JUnbound => JUnbound
  end.
Definition j_jack (lstsq : lstsq_fn) (svd : svd_fn) (T N p : nat) (Y : omat) (D : dmat) (lt lu h : R) (maxit : nat) (tol : R)
  : jout (list fl) :=
  j_collect (j_jack1 lstsq svd T N p Y D lt lu h maxit tol) (filter (ever T D) (seq 0 N)).

(* ------------------------------------------------------------------------------------------- *)
(* _fit_joint, trop.py:1223-1573 *)
Inductive jfit := FOk (att : R) (se : fl) (inf : tinf) (effs : list (cell2 * R)) (l : lam3) (score : fl) (reps : list fl)
  | FErr (e : terr) | FWeights (* ValueError of the final fit *) | FUnbound.
Section Fit.
Variable lstsq : lstsq_fn.
Variable svd : svd_fn.
Variable sub : nat -> nat -> list nat.
Variable sf : option Z -> fl -> fl.
Variable ppf : option Z -> R -> R.
Definition j_tune (cfg : tcfg) (T N p : nat) (Y : omat) (D : dmat) : jout (lam3 * fl) :=
  let obs := loocv_obs sub (tc_maxs cfg) (control_obs T N Y D) in
  match j_search (fun l => j_score lstsq svd T N p Y D obs (tc_maxit cfg) (tc_tol cfg) (conv_w (fst (fst l))) (conv_w (snd (fst l))) (conv_nn (snd l)))
          (grid3 (tc_gt cfg) (tc_gu cfg) (tc_gn cfg)) None with
  | JOk (Some (l, s)) => JOk (l, Fin s)
  | JOk None => JOk ((Some 1, Some 1, Some (1/10)), NaN)
  | JVal => JVal
  | JUnbound => JUnbound
  end.
Definition joint_fit (cfg : tcfg) (T N : nat) (Y : omat) (D : dmat) (miss : nat -> nat -> bool) (name : nat -> string)
  (draws : list (list nat)) : jfit :=
  match check_joint T N D miss with
  | TErr e => FErr e
  | TOk _ =>
    let p := (T - first_treat T N D)%nat in
    match j_tune cfg T N p Y D with
    | JOk (l, score) =>
      let '(lt, lu, ln) := l in
      match j_fixed lstsq svd T N p Y D (conv_w lt) (conv_w lu) (conv_nn ln) (tc_maxit cfg) (tc_tol cfg) with
      | JOk (c, L) =>
        let reps := if tc_boot cfg
                    then j_boot lstsq svd T p Y D (conv_w lt) (conv_w lu) (conv_nn ln) (tc_maxit cfg) (tc_tol cfg) name draws
                    else j_jack lstsq svd T N p Y D (conv_w lt) (conv_w lu) (conv_nn ln) (tc_maxit cfg) (tc_tol cfg) in
        match reps with
        | JOk r =>
          let se := if tc_boot cfg then boot_se r else jack_se r in
          FOk (jtau c) se (trop_inf sf ppf (Fin (jtau c)) se (length (treated_obs T N D)) (tc_alpha cfg))
              (map (fun x => (x, jtau c)) (treated_obs T N D)) l score r
        | _ => FUnbound
        end
      | JVal => FWeights
      | JUnbound => FUnbound
      end
    | _ => FUnbound
    end
  end.
End Fit.

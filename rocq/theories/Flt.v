(* Extended reals with NaN: the float64 values whose special cases the package branches on.
   Exact arithmetic, no rounding, one zero (the sign of zero is not modelled).
   Comparison and arithmetic follow numpy (IEEE 754): every ordered comparison with NaN is False,
   x/0 is +-inf for x <> 0 and NaN for 0/0 (numpy scalar division, warnings not modelled). *)
From Verif Require Import Prelude.

Inductive fl : Type := Fin (r : R) | NaN | PInf | NInf.

Definition fisnan (x : fl) : bool := match x with NaN => true | _ => false end.
Definition ffinite (x : fl) : bool := match x with Fin _ => true | _ => false end.
Definition fisinf (x : fl) : bool := match x with PInf | NInf => true | _ => false end.

Definition fneg (x : fl) : fl :=
  match x with Fin r => Fin (- r) | NaN => NaN | PInf => NInf | NInf => PInf end.

Definition fadd (x y : fl) : fl :=
  match x, y with
  | NaN, _ | _, NaN => NaN
  | Fin a, Fin b => Fin (a + b)
  | Fin _, i => i
  | i, Fin _ => i
  | PInf, PInf => PInf
  | NInf, NInf => NInf
  | _, _ => NaN
  end.

Definition fsub (x y : fl) : fl := fadd x (fneg y).

Definition fsgn_inf (r : R) (pos neg zero : fl) : fl :=
  if Rlt_dec 0 r then pos else if Rlt_dec r 0 then neg else zero.

Definition fmul (x y : fl) : fl :=
  match x, y with
  | NaN, _ | _, NaN => NaN
  | Fin a, Fin b => Fin (a * b)
  | Fin a, PInf | PInf, Fin a => fsgn_inf a PInf NInf NaN
  | Fin a, NInf | NInf, Fin a => fsgn_inf a NInf PInf NaN
  | PInf, PInf | NInf, NInf => PInf
  | PInf, NInf | NInf, PInf => NInf
  end.

Definition fdiv (x y : fl) : fl :=
  match x, y with
  | NaN, _ | _, NaN => NaN
  | Fin a, Fin b => if Req_EM_T b 0 then fsgn_inf a PInf NInf NaN else Fin (a / b)
  | Fin _, PInf | Fin _, NInf => Fin 0
  | PInf, Fin b => if Rlt_dec b 0 then NInf else PInf
  | NInf, Fin b => if Rlt_dec b 0 then PInf else NInf
  | _, _ => NaN
  end.

Definition fabs (x : fl) : fl :=
  match x with Fin r => Fin (Rabs r) | NaN => NaN | PInf | NInf => PInf end.

Definition fsqrt (x : fl) : fl :=
  match x with
  | Fin r => if Rlt_dec r 0 then NaN else Fin (sqrt r)
  | NaN => NaN | PInf => PInf | NInf => NaN
  end.

(* x < y, x <= y, x == y *)
Definition flt (x y : fl) : bool :=
  match x, y with
  | NaN, _ | _, NaN => false
  | Fin a, Fin b => Rltb a b
  | NInf, NInf | PInf, PInf => false
  | NInf, _ => true
  | _, PInf => true
  | _, _ => false
  end.

Definition fle (x y : fl) : bool :=
  match x, y with
  | NaN, _ | _, NaN => false
  | Fin a, Fin b => Rleb a b
  | NInf, _ => true
  | _, PInf => true
  | _, _ => false
  end.

Definition feqb (x y : fl) : bool :=
  match x, y with
  | Fin a, Fin b => Reqb a b
  | PInf, PInf | NInf, NInf => true
  | _, _ => false
  end.

Definition fgt x y := flt y x.
Definition fge x y := fle y x.

Lemma flt_nan_l y : flt NaN y = false. Proof. reflexivity. Qed.
Lemma flt_nan_r x : flt x NaN = false. Proof. destruct x; reflexivity. Qed.
Lemma fle_nan_l y : fle NaN y = false. Proof. reflexivity. Qed.
Lemma fle_nan_r x : fle x NaN = false. Proof. destruct x; reflexivity. Qed.
Lemma fadd_nan_l y : fadd NaN y = NaN. Proof. reflexivity. Qed.
Lemma fadd_nan_r x : fadd x NaN = NaN. Proof. destruct x; reflexivity. Qed.
Lemma fmul_nan_l y : fmul NaN y = NaN. Proof. reflexivity. Qed.
Lemma fmul_nan_r x : fmul x NaN = NaN. Proof. destruct x; reflexivity. Qed.
Lemma fdiv_nan_l y : fdiv NaN y = NaN. Proof. reflexivity. Qed.
Lemma fdiv_nan_r x : fdiv x NaN = NaN. Proof. destruct x; reflexivity. Qed.
Lemma fsub_nan_l y : fsub NaN y = NaN. Proof. reflexivity. Qed.
Lemma fsub_nan_r x : fsub x NaN = NaN. Proof. destruct x; reflexivity. Qed.

Lemma flt_fin a b : flt (Fin a) (Fin b) = true <-> a < b.
Proof. simpl; apply Rltb_true. Qed.
Lemma fle_fin a b : fle (Fin a) (Fin b) = true <-> a <= b.
Proof. simpl; apply Rleb_true. Qed.

(* np.mean of a list: any NaN poisons, the empty mean is NaN *)
Definition fsum (l : list fl) : fl := fold_right fadd (Fin 0) l.
Definition fmean (l : list fl) : fl :=
  match l with [] => NaN | _ => fdiv (fsum l) (Fin (len l)) end.

Lemma fsum_fin (l : list R) : fsum (map Fin l) = Fin (sumf idR l).
Proof. induction l as [|a l IH]; simpl; [reflexivity|]. rewrite IH; reflexivity. Qed.

Lemma fsum_nan (l : list fl) : In NaN l -> fsum l = NaN.
Proof.
  induction l as [|a l IH]; simpl; [contradiction|].
  intros [->|H]; [reflexivity|]. rewrite IH by auto. apply fadd_nan_r.
Qed.

Lemma fmean_fin (l : list R) : l <> [] -> fmean (map Fin l) = Fin (meanf idR l).
Proof.
  intros H. unfold fmean. destruct l as [|a l]; [congruence|].
  change (match map Fin (a :: l) with [] => NaN | _ => fdiv (fsum (map Fin (a :: l))) (Fin (len (map Fin (a :: l)))) end)
    with (fdiv (fsum (map Fin (a :: l))) (Fin (len (map Fin (a :: l))))).
  rewrite fsum_fin, len_map. unfold fdiv.
  destruct (Req_EM_T (len (a :: l)) 0) as [H0|H0]; [|reflexivity].
  apply len_0 in H0; discriminate.
Qed.

Lemma fmean_nan (l : list fl) : In NaN l -> fmean l = NaN.
Proof.
  intros H. unfold fmean. destruct l as [|a l]; [inversion H|].
  rewrite fsum_nan by exact H. reflexivity.
Qed.

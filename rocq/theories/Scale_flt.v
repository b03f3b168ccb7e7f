(* Multiplying float values by a positive constant: the algebra used for equivariance of reported
   estimates, standard errors and intervals. *)
From Verif Require Import Prelude Flt Stats_model Stats_proofs.
From Coq Require Import Arith ZArith String List.
Import ListNotations.
Open Scope R_scope.

Definition sc (c : R) (x : fl) : fl := fmul (Fin c) x.

Section Sc.
Variable c : R.
Hypothesis Hc : 0 < c.

Lemma sgn_inf_pos (x y z : fl) : fsgn_inf c x y z = x.
Proof. unfold fsgn_inf. destruct (Rlt_dec 0 c); [reflexivity|contradiction]. Qed.

Lemma sc_fin r : sc c (Fin r) = Fin (c * r). Proof. reflexivity. Qed.
Lemma sc_nan : sc c NaN = NaN. Proof. reflexivity. Qed.
Lemma sc_pinf : sc c PInf = PInf. Proof. apply sgn_inf_pos. Qed.
Lemma sc_ninf : sc c NInf = NInf. Proof. apply sgn_inf_pos. Qed.

Ltac scs := rewrite ?sc_fin, ?sc_nan, ?sc_pinf, ?sc_ninf.

Lemma sc_add x y : sc c (fadd x y) = fadd (sc c x) (sc c y).
Proof. destruct x, y; cbn [fadd]; scs; cbn [fadd]; try reflexivity. f_equal. ring. Qed.
Lemma sc_neg x : sc c (fneg x) = fneg (sc c x).
Proof. destruct x; cbn [fneg]; scs; cbn [fneg]; try reflexivity. f_equal. ring. Qed.
Lemma sc_sub x y : sc c (fsub x y) = fsub (sc c x) (sc c y).
Proof. unfold fsub. rewrite sc_add, sc_neg. reflexivity. Qed.
Lemma sc_mul w x : fmul (Fin w) (sc c x) = sc c (fmul (Fin w) x).
Proof.
  destruct x; scs; cbn [fmul]; scs; try reflexivity.
  - f_equal. ring.
  - unfold fsgn_inf. destruct (Rlt_dec 0 w); [rewrite sc_pinf; reflexivity|]. destruct (Rlt_dec w 0); [rewrite sc_ninf; reflexivity|reflexivity].
  - unfold fsgn_inf. destruct (Rlt_dec 0 w); [rewrite sc_ninf; reflexivity|]. destruct (Rlt_dec w 0); [rewrite sc_pinf; reflexivity|reflexivity].
Qed.
Lemma sc_sum (l : list fl) : fsum (map (sc c) l) = sc c (fsum l).
Proof.
  induction l as [|x l IH]; [cbn; f_equal; ring|]. change (fadd (sc c x) (fsum (map (sc c) l)) = sc c (fadd x (fsum l))).
  rewrite IH, sc_add. reflexivity.
Qed.
Lemma sc_sq x : fmul (sc c x) (sc c x) = sc (c * c) (fmul x x).
Proof.
  destruct x; scs; cbn [fmul]; try reflexivity; unfold sc; cbn [fmul].
  - f_equal. ring.
  - unfold fsgn_inf. destruct (Rlt_dec 0 (c * c)) as [|N]; [reflexivity|exfalso; apply N; nra].
  - unfold fsgn_inf. destruct (Rlt_dec 0 (c * c)) as [|N]; [reflexivity|exfalso; apply N; nra].
Qed.
Lemma sc_sqrt x : fsqrt (sc (c * c) x) = sc c (fsqrt x).
Proof.
  destruct x; cbn [fsqrt]; scs; try reflexivity; unfold sc; cbn [fmul fsqrt].
  - destruct (Rlt_dec (c * c * r) 0) as [H|H], (Rlt_dec r 0) as [H'|H']; cbn [fmul]; try reflexivity.
    + exfalso. assert (P : 0 <= c * c * r) by (apply Rmult_le_pos; [left; apply Rmult_lt_0_compat; exact Hc|lra]). lra.
    + exfalso. assert (P : 0 < c * c * - r) by (apply Rmult_lt_0_compat; [apply Rmult_lt_0_compat; exact Hc|lra]). lra.
    + apply (f_equal Fin). rewrite sqrt_mult by nra. rewrite sqrt_square by lra. reflexivity.
  - unfold fsgn_inf. destruct (Rlt_dec 0 (c * c)) as [|N]; [|exfalso; apply N; nra]. cbn [fsqrt]. destruct (Rlt_dec 0 c); [reflexivity|contradiction].
  - unfold fsgn_inf. destruct (Rlt_dec 0 (c * c)) as [|N]; [|exfalso; apply N; nra]. reflexivity.
Qed.
Lemma sc_div x s : 0 < s -> fdiv (sc c x) (Fin (c * s)) = fdiv x (Fin s).
Proof.
  intros Hs. assert (0 < c * s) by nra. destruct x; scs; cbn [fdiv]; try reflexivity.
  - destruct (Req_EM_T (c * s) 0) as [E|E]; [lra|]. destruct (Req_EM_T s 0) as [E'|E']; [lra|]. apply (f_equal Fin). field. lra.
  - destruct (Rlt_dec (c * s) 0); [lra|]. destruct (Rlt_dec s 0); [lra|reflexivity].
  - destruct (Rlt_dec (c * s) 0); [lra|]. destruct (Rlt_dec s 0); [lra|reflexivity].
Qed.
Lemma sc_ge0 x : fge (sc c x) (Fin 0) = fge x (Fin 0).
Proof.
  destruct x; scs; try reflexivity. unfold fge. cbn [fle]. unfold Rleb.
  destruct (Rle_dec 0 (c * r)), (Rle_dec 0 r); try reflexivity; exfalso; nra.
Qed.
Lemma sc_finite x : ffinite (sc c x) = ffinite x.
Proof. destruct x; scs; reflexivity. Qed.

(* lists of reals *)
Lemma mean_sc (l : list R) : meanf idR (map (Rmult c) l) = c * meanf idR l.
Proof. unfold meanf, len. rewrite map_length, sumf_map. rewrite (sumf_ext_all _ (fun x => c * idR x)) by reflexivity. rewrite sumf_scal. unfold Rdiv. ring. Qed.
Lemma sumsq_sc l : sumsq_dev (map (Rmult c) l) = c * c * sumsq_dev l.
Proof.
  unfold sumsq_dev. rewrite sumf_map, mean_sc, <- sumf_scal. apply sumf_ext_all. intros x. unfold idR. ring.
Qed.
Lemma share_le0_sc l : share (fun x => Rleb x 0) (map (Rmult c) l) = share (fun x => Rleb x 0) l.
Proof.
  unfold share, meanf, len. rewrite map_length, sumf_map. f_equal. apply sumf_ext_all. intros x. f_equal. unfold Rleb.
  destruct (Rle_dec (c * x) 0), (Rle_dec x 0); try reflexivity; exfalso; nra.
Qed.
Lemma share_ge0_sc l : share (fun x => Rleb 0 x) (map (Rmult c) l) = share (fun x => Rleb 0 x) l.
Proof.
  unfold share, meanf, len. rewrite map_length, sumf_map. f_equal. apply sumf_ext_all. intros x. f_equal. unfold Rleb.
  destruct (Rle_dec 0 (c * x)), (Rle_dec 0 x); try reflexivity; exfalso; nra.
Qed.
Lemma percentile_sc l q : l <> [] -> 0 <= q <= 1 -> percentile (map (Rmult c) l) q = c * percentile l q.
Proof.
  intros Hl Hq. rewrite (map_ext (Rmult c) (fun x => c * x + 0)) by (intros; ring). rewrite percentile_affine by auto. ring.
Qed.
(* a common affine change multiplies the sum of squared deviations *)
Lemma sumsq_affine {A} (f f' : A -> R) l k : l <> [] -> (forall a, In a l -> f' a = c * f a + k) ->
  sumsq_dev (map f' l) = c * c * sumsq_dev (map f l).
Proof.
  intros Hl Hf. assert (M : meanf idR (map f' l) = c * meanf idR (map f l) + k).
  { transitivity (meanf f' l); [unfold meanf, len; rewrite map_length, sumf_map; reflexivity|].
    rewrite (meanf_ext _ _ _ Hf), meanf_add, meanf_scal, meanf_const by auto.
    f_equal. f_equal. unfold meanf, len. rewrite map_length, sumf_map. reflexivity. }
  unfold sumsq_dev. rewrite !sumf_map, M, <- sumf_scal. apply sumf_ext. intros a Ha. unfold idR. rewrite (Hf a Ha). ring.
Qed.
End Sc.

Lemma sc_1 x : sc 1 x = x.
Proof.
  destruct x; cbn [sc fmul]; try reflexivity; unfold sc; cbn [fmul]; try (apply (f_equal Fin); ring);
    unfold fsgn_inf; destruct (Rlt_dec 0 1); try reflexivity; lra.
Qed.

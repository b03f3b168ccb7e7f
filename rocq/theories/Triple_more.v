(* The inverse-probability-weighting standard error in closed form. *)
From Verif Require Import Prelude Flt Stats_model Stats_proofs Linalg_model Linalg_proofs Linalg_vcov Linalg_thms
  Did_model Did_spec Did_proofs Multi_model Triple_model Triple_proofs Triple_thms Triple_fit.
From Coq Require Import Arith ZArith String List Lia.
Import ListNotations.
Open Scope R_scope.

Section Ipw.
Context {I K : Type} (keq : forall x y : K, {x = y} + {x <> y}).
Variable qr : list I -> list (I -> R) -> list nat.
Variable lstsq : list I -> list (I -> R) -> (I -> R) -> list R.
Variable inv : list I -> list (I -> R) -> option (nat -> nat -> R).
Variable pinv : list I -> list (I -> R) -> nat -> nat -> R.
Variable sf : option Z -> fl -> fl.
Variable ppf : option Z -> R -> R.
Variable logit : list I -> list (I -> R) -> (I -> R) -> option (I -> R).
Notation fit := (ddd_fit keq qr lstsq inv pinv sf ppf logit).
Notation f x := (fun i => oR (x i)).
(* signed outcome of a row over the share of its group-partition cell; the estimate is subtracted in cell (1,1) only, in both periods *)
Definition ipw_psi (rows : list I) (y G P T : I -> R) (att : R) (i : I) : R :=
  (if Reqb (T i) 1 then 1 else -1) * (if Reqb (G i) (P i) then 1 else -1)
  * (y i - (if Reqb (G i) 1 && Reqb (P i) 1 then att else 0))
  * (len rows / len (cell4 rows G P (G i) (P i))).
Theorem ipw_se_closed cfg cl rows y G P T r : dd_method cfg = "ipw"%string -> dd_trim cfg < 1 -> unclipped rows (f G) (f P) cfg -> fit cfg cl rows y G P T [] = Ok r ->
  let att := ddd_of_dids rows (f G) (f P) (f T) (f y) in
  tr_att r = Fin att /\
  tr_se r = Fin (sqrt (variance 1 (map (ipw_psi rows (f y) (f G) (f P) (f T) att) rows) / len rows)).
Proof.
  intros Hm Ht Hu H att. pose proof (ipw_fit keq qr lstsq inv pinv sf ppf logit cfg cl rows y G P T r Hm Ht H) as HA. split; [exact HA|].
  destruct (fit_inv _ _ _ _ _ _ _ _ _ _ _ _ _ _ _ _ _ H) as (HV & out & HO & E1 & E2 & _).
  apply validate_ok in HV. destruct HV as (_ & _ & _ & _ & _ & ZG & ZP & _ & H8).
  unfold ddd_est in HO. rewrite Hm in HO. simpl in HO. injection HO as <-. rewrite E2. simpl do_se. rewrite E1 in HA. simpl do_att in HA. injection HA as HA. rewrite HA.
  unfold ipw_se. do 3 f_equal. f_equal. apply map_ext_in. intros i Hi.
  assert (L5 : 0 < len rows) by (apply len_pos; intros ->; destruct Hi).
  assert (L : forall g p, (g = 0 \/ g = 1) -> (p = 0 \/ p = 1) -> 0 < len (cell4 rows (f G) (f P) g p)).
  { intros g p A B. apply len_pos, (cell4_ne rows (f G) (f P) (f T) g p 0). apply (eight_ne rows (f G) (f P) (f T) H8); auto. }
  unfold ipw_inf, ipw_psi, ddd_ratio, in4. rewrite !pcell_nocov, !clip_id by (apply Hu; auto).
  pose proof (L 1 1 ltac:(auto) ltac:(auto)) as L11. pose proof (L 1 0 ltac:(auto) ltac:(auto)) as L10. pose proof (L 0 1 ltac:(auto) ltac:(auto)) as L01. pose proof (L 0 0 ltac:(auto) ltac:(auto)) as L00.
  cbv beta. destruct (ZG i Hi) as [->| ->], (ZP i Hi) as [->| ->]; rewrite ?Reqb_refl, ?Reqb_01, ?Reqb_10; cbn [andb]; try (field; lra). unfold att. field. lra.
Qed.
End Ipw.

(* Parameter names and setters (C10), reference marker (C90), plots of the Bacon decomposition (C94), effect path of the divorce panel (C97). *)
From Coq Require Import Reals.
From Verif Require Import Prelude Flt Estim_model Bacon_model Vis_model Data_model Tight6_thms.
From Coq Require Import Arith ZArith String List.
Import ListNotations.
Open Scope R_scope.

Theorem C10_pretrends_keys {V} (a p t w : V) rest :
  let o := ("alpha"%string, a) :: ("target_power"%string, p) :: ("violation_type"%string, t)
             :: ("violation_weights"%string, w) :: rest in
  get_params_pretrends o = Ok [("alpha"%string, a); ("power"%string, p); ("violation_type"%string, t); ("violation_weights"%string, w)].
Proof. exact (pretrends_keys a p t w rest). Qed.
Theorem C10_cs_set_one o k v : match cs_attr o k with
  | Some _ => snd (cs_set o k v) = Ok tt /\ cs_anticipation (fst (cs_set o k v)) = cs_anticipation o /\
              forall k', cs_attr (fst (cs_set o k v)) k' = if string_dec k' k then Some v else cs_attr o k'
  | None => cs_set o k v = (o, Err ValueError)
  end.
Proof. exact (cs_set_one o k v). Qed.
Theorem C90_reference_marker es : match find_marker es with
  | Some q => exists l1 e l2, es = l1 ++ (q, e) :: l2 /\ ev_n_groups e = Some O /\ forall x, In x l1 -> ev_n_groups (snd x) <> Some O
  | None => forall x, In x es -> ev_n_groups (snd x) <> Some O
  end.
Proof. exact (marker_spec es). Qed.
Theorem C97_divorce_path base r : (forall s, 1 <= base s) -> In r (divorce_rows (fun x => x) base (fun _ _ => 0)) ->
  pr_outcome r = base (pr_state r) + IZR (pr_year r - 1978) * (5 / 100) +
    (if Z.eq_dec (pr_first r) 0 then 0 else if Z_lt_dec (pr_year r) (pr_first r) then 0
     else if Z_lt_dec (pr_year r - pr_first r) 3 then 1 / 2 else if Z_lt_dec (pr_year r - pr_first r) 6 then 3 / 10
     else if Z_lt_dec (pr_year r - pr_first r) 11 then 1 / 10 else 0).
Proof. exact (divorce_path base r). Qed.
Theorem C97_divorce_path_case : exists r, In r (divorce_rows (fun x => x) (fun _ => 1) (fun _ _ => 0)) /\ pr_state r = "CA"%string /\ pr_year r = 1974%Z /\ pr_first r = 1970%Z /\ pr_outcome r = 11 / 10.
Proof. exact divorce_path_case. Qed.
Theorem C94_plot_kinds kind o : plot_bacon kind o =
  if string_dec kind "scatter" then Ok (inl (bacon_scatter o)) else if string_dec kind "bar" then Ok (inr (bacon_bars o)) else Err ValueError.
Proof. exact (bacon_kinds kind o). Qed.
Theorem C94_bar_labels o ty a : In (ty, a) (bacon_bar_labels o) <-> bo_averages o ty = Some a /\ 1 / 100 < bo_weights o ty.
Proof. exact (bacon_labels o ty a). Qed.
Print Assumptions C10_pretrends_keys.
Print Assumptions C10_cs_set_one.
Print Assumptions C90_reference_marker.
Print Assumptions C97_divorce_path.
Print Assumptions C97_divorce_path_case.
Print Assumptions C94_plot_kinds.
Print Assumptions C94_bar_labels.

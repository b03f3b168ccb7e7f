(* datasets.py: the download cache, the loaders and the fallback data.
   Not modelled: urllib, the text of files and pandas' CSV parser ([parse] is an arbitrary function), the pseudo
   random generator (the draws of the fallback data are arguments), the rounding of the generated numbers
   ([rnd] is an arbitrary function) and the global seed that the fallback sets. *)
From Verif Require Import Prelude Flt Multi_model.
From Coq Require Import Arith ZArith String List.
Import ListNotations.
Open Scope R_scope.

(* ---- the cache, datasets.py:25-62 ---- *)
Section Cache.
Context {C D : Type}.
Variable parse : C -> res D.                    (* pd.read_csv(StringIO(content)); its errors are ValueErrors *)
Variable fallback : string -> D.                (* the _construct_*_data functions *)
Variable finish : string -> D -> res D.         (* renaming and derived columns *)

(* what the network answers to one request: the whole body, an HTTPError/URLError, or another exception
   (time-out while reading, undecodable body) *)
Inductive net := NetOk (c : C) | NetUrlError | NetOther.
(* cache_path.write_text: completed, or interrupted (process killed, disk full) with the file holding [c] *)
Inductive write := WDone | WCrash (c : C).
(* a value, a Python exception, an uncaught network exception (not a RuntimeError), an interrupted call *)
Inductive outcome A := Got (a : A) | Raised (e : exc) | NetFailure | Killed.
Arguments Got {A} _. Arguments Raised {A} _. Arguments NetFailure {A}. Arguments Killed {A}.

Definition cache := string -> option C.
Definition put (w : cache) (k : string) (c : C) : cache := fun j => if String.eqb j k then Some c else w j.
Definition empty_cache : cache := fun _ => None.     (* clear_cache, datasets.py:57-62: every *.csv is removed *)

(* _download_with_cache, datasets.py:31-54 *)
Definition download (w : cache) (name : string) (force : bool) (n : net) (wr : write) : outcome C * cache :=
  match w name, force with
  | Some c, false => (Got c, w)
  | _, _ =>
      match n with
      | NetOk c => match wr with
                   | WDone => (Got c, put w name c)
                   | WCrash c' => (Killed, put w name c')
                   end
      | NetUrlError => match w name with Some c => (Got c, w) | None => (Raised RuntimeError, w) end
      | NetOther => (NetFailure, w)
      end
  end.

(* load_card_krueger, load_castle_doctrine, load_divorce_laws, load_mpdta: datasets.py:127-152, 273-299,
   418-448, 576-595.  Only RuntimeError leads to the fallback *)
Definition lift {A} (r : res A) : outcome A := match r with Ok a => Got a | Err e => Raised e end.
Definition load (w : cache) (name : string) (force : bool) (n : net) (wr : write) : outcome D * cache :=
  match download w name force n wr with
  | (Got c, w') => (lift (do d <- parse c ; finish name d), w')
  | (Raised RuntimeError, w') => (lift (finish name (fallback name)), w')
  | (Raised e, w') => (Raised e, w')
  | (NetFailure, w') => (NetFailure, w')
  | (Killed, w') => (Killed, w')
  end.

(* load_dataset and list_datasets, datasets.py:647-708 *)
Definition dataset_names : list string := ["card_krueger"; "castle_doctrine"; "divorce_laws"; "mpdta"]%string.
Definition load_dataset (w : cache) (name : string) (force : bool) (n : net) (wr : write) : outcome D * cache :=
  if existsb (String.eqb name) dataset_names then load w name force n wr else (Raised ValueError, w).

(* a session: loads and clear_cache calls, in any order, each with its own network answer; a killed process can
   be followed by another one using the same cache *)
Inductive op := OLoad (name : string) (force : bool) (n : net) (wr : write) | OClear.
Definition step (w : cache) (o : op) : cache :=
  match o with OLoad name force n wr => snd (load_dataset w name force n wr) | OClear => empty_cache end.
Definition run (w : cache) (l : list op) : cache := fold_left step l w.
End Cache.
Arguments Got {A} _. Arguments Raised {A} _. Arguments NetFailure {A}. Arguments Killed {A}.
Arguments net C : clear implicits. Arguments write C : clear implicits. Arguments op C : clear implicits.
Arguments cache C : clear implicits.

(* ---- fallback panels ---- *)
(* _construct_castle_doctrine_data, datasets.py:302-359 *)
Definition castle_adoption : list (string * Z) :=
  [("AL", 2006); ("AK", 2006); ("AZ", 2006); ("FL", 2005); ("GA", 2006);
   ("IN", 2006); ("KS", 2006); ("KY", 2006); ("LA", 2006); ("MI", 2006);
   ("MS", 2006); ("MO", 2007); ("MT", 2009); ("NH", 2011); ("NC", 2011);
   ("ND", 2007); ("OH", 2008); ("OK", 2006); ("PA", 2011); ("SC", 2006);
   ("SD", 2006); ("TN", 2007); ("TX", 2007); ("UT", 2010); ("WV", 2008);
   ("CA", 0); ("CO", 0); ("CT", 0); ("DE", 0); ("HI", 0); ("ID", 0);
   ("IL", 0); ("IA", 0); ("ME", 0); ("MD", 0); ("MA", 0); ("MN", 0);
   ("NE", 0); ("NV", 0); ("NJ", 0); ("NM", 0); ("NY", 0); ("OR", 0);
   ("RI", 0); ("VT", 0); ("VA", 0); ("WA", 0); ("WI", 0); ("WY", 0)]%string%Z.
Definition zrange (a : Z) (n : nat) : list Z := map (fun i => (a + Z.of_nat i)%Z) (seq 0 n).
Record panel_row := { pr_state : string; pr_year : Z; pr_first : Z; pr_treated : Z; pr_outcome : R }.
Definition active (first year : Z) : bool := Z.ltb 0 first && Z.leb first year.
Definition castle_states : list (string * Z) := map (fun x => (fst x, if Z.leb (snd x) 2010 then snd x else 0%Z)) castle_adoption.
(* base s, noise s y: the draws; rnd: round(., 2) *)
Definition castle_rows (rnd : R -> R) (base : string -> R) (noise : string -> Z -> R) : list panel_row :=
  flat_map (fun sf => map (fun y =>
     let trend := IZR (y - 2005) * (1/10) in
     let te := if active (snd sf) y then base (fst sf) * (8/100) else 0 in
     {| pr_state := fst sf; pr_year := y; pr_first := snd sf; pr_treated := if active (snd sf) y then 1%Z else 0%Z;
        pr_outcome := rnd (Rmax 0 (base (fst sf) + trend + te + noise (fst sf) y)) |}) (zrange 2000 11)) castle_states.

(* _construct_divorce_laws_data, datasets.py:451-525 (divorce_rate column) *)
Definition divorce_adoption : list (string * Z) :=
  [("AK", 1935); ("AL", 1971); ("AZ", 1973); ("CA", 1970); ("CO", 1972);
   ("CT", 1973); ("DE", 1968); ("FL", 1971); ("GA", 1973); ("HI", 1973);
   ("IA", 1970); ("ID", 1971); ("IN", 1973); ("KS", 1969); ("KY", 1972);
   ("MA", 1975); ("ME", 1973); ("MI", 1972); ("MN", 1974); ("MO", 0);
   ("MT", 1975); ("NC", 0); ("ND", 1971); ("NE", 1972); ("NH", 1971);
   ("NJ", 0); ("NM", 1973); ("NV", 1967); ("NY", 0); ("OH", 0);
   ("OK", 1975); ("OR", 1971); ("PA", 0); ("RI", 1975); ("SD", 1985);
   ("TN", 0); ("TX", 1970); ("UT", 1987); ("VA", 0); ("WA", 1973);
   ("WI", 1978); ("WV", 1984); ("WY", 1977)]%string%Z.
Definition divorce_states : list (string * Z) :=
  filter (fun x => Z.eqb (snd x) 0 || (Z.leb 1968 (snd x) && Z.leb (snd x) 1990)) divorce_adoption.
Definition divorce_effect (since : Z) : R :=
  if Z.leb since 2 then 5/10 else if Z.leb since 5 then 3/10 else if Z.leb since 10 then 1/10 else 0.
Definition divorce_rows (rnd : R -> R) (base : string -> R) (noise : string -> Z -> R) : list panel_row :=
  flat_map (fun sf => map (fun y =>
     let trend := IZR (y - 1978) * (5/100) in
     let te := if active (snd sf) y then divorce_effect (y - snd sf) else 0 in
     let first := if Z.leb 1968 (snd sf) then snd sf else 0%Z in
     {| pr_state := fst sf; pr_year := y; pr_first := first; pr_treated := if active first y then 1%Z else 0%Z;
        pr_outcome := rnd (Rmax 0 (base (fst sf) + trend + te + noise (fst sf) y)) |}) (zrange 1968 21)) divorce_states.

(* _construct_mpdta_data, datasets.py:598-644 (lemp): cohort i is the draw of county i; the column treat says
   whether the county is ever treated *)
Record county_row := { cr_county : Z; cr_year : Z; cr_first : Z; cr_treat : Z; cr_lemp : R }.
Definition mpdta_effect (first year : Z) : R :=
  if active first year then
    if Z.eqb first 2004 then -4/100 + IZR (year - first) * (1/100)
    else if Z.eqb first 2006 then -3/100 + IZR (year - first) * (1/100)
    else -25/1000
  else 0.
Definition mpdta_rows (rnd : R -> R) (cohort : Z -> Z) (base : Z -> R) (noise : Z -> Z -> R) : list county_row :=
  flat_map (fun c => map (fun y =>
     {| cr_county := c; cr_year := y; cr_first := cohort c; cr_treat := if Z.ltb 0 (cohort c) then 1%Z else 0%Z;
        cr_lemp := rnd (base c + IZR (y - 2003) * (2/100) + mpdta_effect (cohort c) y + noise c y) |})
     [2003; 2004; 2005; 2006; 2007]%Z) (zrange 1 500).

(* _construct_card_krueger_data, datasets.py:155-215: the stores; d i = (pre, change) is the draw of store i *)
Record store := { st_id : Z; st_nj : bool; st_chain : string; st_treated : Z; st_pre : R; st_post : R; st_change : R }.
Definition ck_counts (nj : bool) : list (string * nat) :=
  (if nj then [("bk", 85); ("kfc", 62); ("roys", 48); ("wendys", 36)]
   else [("bk", 30); ("kfc", 20); ("roys", 14); ("wendys", 15)])%string%nat.
Definition ck_slots : list (bool * string) :=
  flat_map (fun nj => flat_map (fun x => repeat (nj, fst x) (snd x)) (ck_counts nj)) [true; false].
Definition ck_rows (rnd : R -> R) (d : Z -> R * R) : list store :=
  map (fun x => let i := Z.of_nat (S (fst x)) in
                let pre := rnd (Rmax 0 (fst (d i))) in
                let post := rnd (Rmax 0 (fst (d i) + snd (d i))) in
                {| st_id := i; st_nj := fst (snd x); st_chain := snd (snd x);
                   st_treated := if fst (snd x) then 1%Z else 0%Z; st_pre := pre; st_post := post;
                   st_change := post - pre |})
      (combine (seq 0 (length ck_slots)) ck_slots).

(* ---- derived columns of a downloaded divorce file, datasets.py:430-446: state, year, unilateral ---- *)
Record law_row := { lr_state : string; lr_year : Z; lr_unilateral : R }.
Fixpoint zmin_of (l : list Z) : option Z :=
  match l with [] => None | a :: r => match zmin_of r with None => Some a | Some b => Some (Z.min a b) end end.
Definition divorce_first (rows : list law_row) (s : string) : Z :=
  let mine := filter (fun r => String.eqb (lr_state r) s) rows in
  if Rltb 0 (sumf lr_unilateral mine)
  then match zmin_of (map lr_year (filter (fun r => Reqb (lr_unilateral r) 1) mine)) with Some y => y | None => 0%Z end
  else 0%Z.
Definition divorce_finish (rows : list law_row) : list (law_row * Z * R) :=
  map (fun r => (r, divorce_first rows (lr_state r), lr_unilateral r)) rows.

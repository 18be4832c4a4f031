(** C113: tables of items (antelope_reports/tables/base.py, flowables.py). *)
From Coq Require Import String.
From Verif Require Import Num Base PyStr.
Open Scope string_scope.
Open Scope list_scope.

(** Python's order of tuples of texts: the first difference decides. *)
Fixpoint lex_leb (a b : list string) : bool :=
  match a, b with
  | [], _ => true
  | _ :: _, [] => false
  | x :: a', y :: b' => if eqb x y then lex_leb a' b' else String.leb x y
  end.
Section Sort.
Context {A : Type} (leb : A -> A -> bool).
Fixpoint tinsert (a : A) (l : list A) : list A :=
  match l with [] => [a] | b :: r => if leb a b then a :: l else b :: tinsert a r end.
Definition tsort (l : list A) : list A := fold_right tinsert [] l.
End Sort.

(** Tuples are compared component by component. *)
Fixpoint list_eqb {A} `{EqB A} (a b : list A) : bool :=
  match a, b with [], [] => true | x :: a', y :: b' => eqb x y && list_eqb a' b' | _, _ => false end.
Lemma list_eqb_spec {A} `{EqB A} (a b : list A) : reflect (a = b) (list_eqb a b).
Proof.
  revert b. induction a as [|x a IH]; intros [|y b]; cbn; try (constructor; congruence).
  destruct (eqb_spec x y) as [->|N]; [|constructor; congruence]. cbn. destruct (IH b) as [->|N]; constructor; congruence.
Qed.
#[export] Instance EqB_list {A} `{EqB A} : EqB (list A) := {| eqb := list_eqb; eqb_spec := list_eqb_spec |}.

(** Outcomes: [IndexErr] and [TypeErr] are the exceptions raised while printing. *)
Inductive tres (A : Type) := TOk (a : A) | IndexErr | TypeErr.
Arguments TOk {A} a. Arguments IndexErr {A}. Arguments TypeErr {A}.
Definition tbind {A B} (x : tres A) (f : A -> tres B) : tres B :=
  match x with TOk a => f a | IndexErr => IndexErr | TypeErr => TypeErr end.
Fixpoint tmap {A B} (f : A -> tres B) (l : list A) : tres (list B) :=
  match l with
  | [] => TOk []
  | a :: r => tbind (f a) (fun b => tbind (tmap f r) (fun bs => TOk (b :: bs)))
  end.

(** ** The table *)
Section Table.
(** Items; row components with their [str()]; what the subclass defines: the criterion (base.py:185-208), the row of an item
    (74-82), its note (84-92) and the data of a list of items (104-112).  [near] is the number of left-hand headings.
    Simplification: two row components are equal only if they are the same value. *)
Context {Item K D : Type} `{EqB K}.
Variable str : K -> string.
Variable crit : Item -> bool.
Variable pull : Item -> list K.
Variable note_of : Item -> string.
Variable near : nat.

(** base.py:192-205: cells by (row, column), the rows, the notes, the columns.  Simplification: the set of rows is a list;
    it is sorted before it is printed, from any order ([rows] below). *)
Record table := Table { t_d : dict (list K * nat) (list Item); t_rows : list (list K); t_notes : dict (list K) string; t_cols : list (list Item) }.
Definition empty_table : table := Table [] [] [] [].

(** [_generate_items], base.py:94-102 *)
Definition generate (col : list Item) : list Item := filter crit col.
Definition cell (t : table) (r : list K) (i : nat) : list Item := match dget (r, i) (t_d t) with Some l => l | None => [] end.
(** [_add_rowitem], base.py:210-216 *)
Definition add_rowitem (i : nat) (t : table) (x : Item) : table :=
  let r := pull x in
  Table (dset (r, i) (cell t r i ++ [x]) (t_d t)) (set_add r (t_rows t))
        (if din r (t_notes t) then t_notes t else dset r (note_of x) (t_notes t)) (t_cols t).
(** [add_column], base.py:218-222 *)
Definition add_column (t : table) (col : list Item) : table :=
  let i := length (t_cols t) in
  let t' := fold_left (add_rowitem i) (generate col) t in
  Table (t_d t') (t_rows t') (t_notes t') (t_cols t' ++ [col]).
(** [__init__] with the columns, or later calls of [add_column] *)
Definition build (cols : list (list Item)) : table := fold_left add_column cols empty_table.

(** [_sorted_rows], base.py:224-226 *)
Definition row_leb (a b : list K) : bool := lex_leb (map str a) (map str b).
Definition sorted_rows (rows : list (list K)) : list (list K) := tsort row_leb rows.

(** [_build_near_header], base.py:125-133 *)
Definition ditto : string := """""".
Definition near_cell (r : list K) (prev : option (list K)) (i : nat) : tres string :=
  match prev with
  | Some p => match nth_error p i, nth_error r i with
              | Some a, Some b => TOk (if eqb a b then ditto else str b)
              | _, _ => IndexErr
              end
  | None => match nth_error r i with Some b => TOk (str b) | None => IndexErr end
  end.
Definition near_header (r : list K) (prev : option (list K)) : tres (list string) := tmap (near_cell r prev) (seq 0 near).
Definition note (t : table) (r : list K) : string := match dget r (t_notes t) with Some n => n | None => "" end.

(** *** One line for each row ([_returns_sets] is False) *)
Variable extract : list Item -> D.
Record line := Line { l_near : list string; l_vals : list D; l_note : string }.
(** [_build_row], base.py:135-183 *)
Definition build_row (t : table) (prev : option (list K)) (r : list K) : tres line :=
  tbind (near_header r prev) (fun h =>
    TOk (Line h (map (fun i => extract (cell t r i)) (seq 0 (length (t_cols t)))) (note t r))).
(** The lines of [dataframe] (base.py:290-303) and of [text] (228-250) *)
Fixpoint lines_from (t : table) (prev : option (list K)) (rs : list (list K)) : tres (list line) :=
  match rs with
  | [] => TOk []
  | r :: rs' => tbind (build_row t prev r) (fun l => tbind (lines_from t (Some r) rs') (fun ls => TOk (l :: ls)))
  end.
Definition lines (t : table) (rows : list (list K)) : tres (list line) := lines_from t None (sorted_rows rows).
End Table.

(** *** Several lines for each row ([_returns_sets] is True) *)
Section Sets.
Context {Item K V : Type} `{EqB K}.
Variable str : K -> string.
Variable near : nat.
(** The data of a cell: values by a text (flowables.py:83-127) *)
Variable extract : list Item -> dict string V.
Record sline := SLine { s_near : list string; s_vals : list (option V); s_key : string; s_note : string }.
(** [x[-2]], the last character of the text but one *)
Definition last_but_one (s : string) : option string :=
  if Nat.ltb (String.length s) 2 then None else Some (String.substring (String.length s - 2) 1 s).
Definition keys_of (ds : list (dict string V)) : list string := set_of (flat_map dkeys ds).
(** base.py:146-178.  [keys] are the keys of all columns; simplification: keys that
    sort alike stay in the order in which the columns have them (in Python, the order of a set). *)
Definition key_leb (a b : string) : bool :=
  match last_but_one a, last_but_one b with Some x, Some y => String.leb x y | _, _ => true end.
Definition sort_keys (keys : list string) : tres (list string) :=
  if forallb (fun k => match last_but_one k with Some _ => true | None => false end) keys then TOk (tsort key_leb keys) else IndexErr.
Fixpoint sub_lines (h : list string) (n : string) (ds : list (dict string V)) (keys : list string) : list sline :=
  match keys with
  | [] => []
  | k :: ks => SLine h (map (dget k) ds) k n :: sub_lines (repeat "" near) "" ds ks
  end.
Definition build_rows (t : @table Item K) (prev : option (list K)) (r : list K) : tres (list sline) :=
  tbind (near_header str near r prev) (fun h =>
    let ds := map (fun i => extract (cell t r i)) (seq 0 (length (t_cols t))) in
    tbind (sort_keys (keys_of ds)) (fun ks => TOk (sub_lines h (note t r) ds ks))).
(** [dataframe], base.py:290-297: no previous row is given, so the headings are never abbreviated. *)
Definition frame_lines (t : @table Item K) (rows : list (list K)) : tres (list (list sline)) := tmap (build_rows t None) (sorted_rows str rows).
(** [text], base.py:228-288: [prt_row[0]] (245) fails for a row without lines, and [fmt % header] (275) fails unless there is
    one heading more than columns, near headings and keys ([far] right-hand headings). *)
Fixpoint text_from (t : @table Item K) (prev : option (list K)) (rs : list (list K)) : tres (list (list sline)) :=
  match rs with
  | [] => TOk []
  | r :: rs' => tbind (build_rows t prev r) (fun l =>
      match l with
      | [] => if Nat.eqb near 0 then tbind (text_from t (Some r) rs') (fun ls => TOk (l :: ls)) else IndexErr
      | _ => tbind (text_from t (Some r) rs') (fun ls => TOk (l :: ls))
      end)
  end.
Definition text (far : nat) (t : @table Item K) (rows : list (list K)) : tres (list (list sline)) :=
  tbind (text_from t None (sorted_rows str rows)) (fun ls => if Nat.eqb far 2 then TOk ls else TypeErr).
End Sets.

(** ** FlowablesGrid: the data of a cell *)
(** What a column yields (flowables.py:30-62): exchanges with a value and values by reference exchange (direction and flow
    name), characterizations with their factors by location, components of LCIA results.  [gflow] is what the grid asks of a
    flow: the row ([parse_flow]), the canonical text ([_canonical], 64-81) and the name.
    Simplifications: no factor is None; numbers are rational. *)
Record gflow := GFlow { g_row : list string; g_canon : string; g_name : string }.
Inductive gitem :=
  | GExch (f : gflow) (v : option Qc) (vd : list (string * string * Qc))
  | GCf (f : gflow) (locs : list (string * Qc))
  | GComp (f : gflow) (v : Qc).
Definition g_flow (x : gitem) : gflow := match x with GExch f _ _ | GCf f _ | GComp f _ => f end.
(** [defaultdict(float)] *)
Definition gget (k : string) (d : dict string Qc) : Qc := match dget k d with Some v => v | None => Q2Qc 0 end.
Definition gadd (k : string) (v : Qc) (d : dict string Qc) : dict string Qc := dset k (gget k d + v)%Qc d.
(** reading an absent key stores 0 *)
Definition gtouch (k : string) (d : dict string Qc) : dict string Qc := if din k d then d else dset k (Q2Qc 0) d.
Definition qzero (v : Qc) : bool := if Qc_eq_dec v (Q2Qc 0) then true else false.
Definition qeqb (v w : Qc) : bool := if Qc_eq_dec v w then true else false.
(** flowables.py:116-119; [fuel] bounds the loop (C113 shows that it suffices) *)
Fixpoint free_key (fuel : nat) (k : string) (d : dict string Qc) : string * dict string Qc :=
  match fuel with
  | 0 => (k, d)
  | S n => let d := gtouch k d in if qzero (gget k d) then (k, d) else free_key n (k ++ ".")%string d
  end.
(** flowables.py:106-119 *)
Definition put_cf (f : gflow) (d : dict string Qc) (lv : string * Qc) : dict string Qc :=
  let '(loc, v) := lv in
  let key := if eqb loc "GLO" then g_canon f else loc in
  let d := gtouch key d in
  if qzero (gget key d) then dset key v d
  else if qeqb (gget key d) v then d
  else let '(k, d) := free_key (S (length d)) ("[" ++ loc ++ "] " ++ g_name f)%string d in dset k v d.
(** [_extract_data_from_item], flowables.py:83-127 *)
Definition g_put (d : dict string Qc) (x : gitem) : dict string Qc :=
  match x with
  | GExch f v vd =>
      let d := fold_left (fun d r => gadd (fst (fst r) ++ ": " ++ snd (fst r))%string (snd r) d) vd d in
      match v with Some v => gadd (g_canon f) v d | None => d end
  | GCf f locs => fold_left (put_cf f) locs d
  | GComp f v => gadd (g_canon f) v d
  end.
Definition g_extract (xs : list gitem) : dict string Qc := fold_left g_put xs [].
(** The grid (flowables.py:6-12, 129-147): two near headings, and the one right-hand heading of the base class (base.py:70). *)
Definition grid (incl : gitem -> bool) (cols : list (list gitem)) : @table gitem string :=
  build incl (fun x => g_row (g_flow x)) (fun _ => "") cols.
Definition grid_text (t : table) (rows : list (list string)) := text (fun s => s) 2 g_extract 1 t rows.
Definition grid_frame (t : table) (rows : list (list string)) := frame_lines (fun s => s) 2 g_extract t rows.

(** C127: the allocation grid (antelope_reports/tables/allocation.py over antelope_reports/tables/base.py). *)
From Coq Require Import String.
From Verif Require Import Num Base PyStr TableModel.
Open Scope string_scope.
Open Scope list_scope.

(** What the grid asks of an exchange: the identity of its flow, direction, the flow's ['Compartment'] (texts) and ['Name'],
    [unit], the text of the flow ([str(flow)]), termination, [is_reference], [value] and [comment] ([None] prints as "").
    Simplification: numbers are rational. *)
Record ax := AX { x_flow : nat; x_dir : string; x_comp : list string; x_name : string; x_unit : string; x_fstr : string;
                  x_term : option string; x_isref : bool; x_value : option Qc; x_comment : string }.
(** A process, as the grid sees it: [inventory(ref_flow)] (processes.py:326-360) and its [references()] (416-422).
    Simplification: [references(flow)] selects by the identity of the flow, as a process reference does (process_ref.py:70-79). *)
Record aproc := AProc { a_inv : option nat -> list ax; a_refs : list ax }.
Definition references (p : aproc) (f : option nat) : list ax :=
  match f with None => a_refs p | Some f => filter (fun r => eqb (x_flow r) f) (a_refs p) end.

(** What is put into the table: an exchange of an inventory, or (true) the exchange with the value 1 made for a reference. *)
Definition gcell : Type := (ax * bool)%type.
(** The row: direction, is it a reference, compartment, flow name (allocation.py:27-35, 90), here as the tuple by which
    the rows are sorted ([_sorted_rows], 94-96: references first): "0" for a reference, "1" otherwise. *)
Definition flag (ref : bool) : string := if ref then "0" else "1".
Definition ag_pull (c : gcell) : list string :=
  let x := fst c in [flag (snd c); x_dir x; String.concat "; " (x_comp x); x_name x].
(** [_pull_note_from_item], allocation.py:37-38; the exchange made for a reference has no comment (87, exchanges.py:49-60) *)
Definition ag_note (c : gcell) : string := if snd c then "" else x_comment (fst c).

(** [_generate_items], allocation.py:16-25: the criterion of the base class is not asked. *)
Definition ag_generate (inv : list ax) : list ax := filter (fun x => negb (x_isref x)) inv.

(** [_add_alloc_column], allocation.py:70-82 *)
Fixpoint ag_add_items (i : nat) (xs : list ax) (t : @table gcell string) (count : bool) : @table gcell string * bool :=
  match xs with
  | [] => (t, count)
  | x :: r => match x_value x with
              | Some _ => ag_add_items i r (add_rowitem ag_pull ag_note i t (x, false)) true
              | None => ag_add_items i r t count
              end
  end.
(** [_add_alloc_refs], allocation.py:84-92.  The columns are remembered by the items they hold (the code remembers the process,
    whose name is printed below the table). *)
Definition ag_ref_item (r : ax) : gcell :=
  (AX (x_flow r) (x_dir r) (x_comp r) (x_name r) (x_unit r) (x_fstr r) None true (Some (Q2Qc 1)) "", true).
Definition ag_items (xs : list ax) : list gcell :=
  map (fun x => (x, false)) (filter (fun x => match x_value x with Some _ => true | None => false end) xs).
Definition ag_add_refs (i : nat) (p : aproc) (f : option nat) (t : @table gcell string) (col : list gcell) : @table gcell string :=
  let t' := fold_left (fun t r => add_rowitem ag_pull ag_note i t (ag_ref_item r)) (references p f) t in
  Table (t_d t') (t_rows t') (t_notes t') (t_cols t' ++ [col]).
(** One column, allocation.py:116-123: the references are added, and the column is counted, only if the inventory has an item. *)
Definition ag_add_one (p : aproc) (t : @table gcell string) (f : option nat) : @table gcell string :=
  let i := length (t_cols t) in
  let xs := ag_generate (a_inv p f) in
  let '(t', count) := ag_add_items i xs t false in
  if count then ag_add_refs i p f t' (ag_items xs ++ map ag_ref_item (references p f)) else t'.
(** [add_column], allocation.py:113-123 *)
Definition ag_add (unalloc : bool) (t : @table gcell string) (p : aproc) : @table gcell string :=
  let t := if unalloc then ag_add_one p t None else t in
  fold_left (ag_add_one p) (map (fun r => Some (x_flow r)) (a_refs p)) t.
(** [__init__], allocation.py:125-134 with base.py:185-208 *)
Definition ag_grid (unalloc : bool) (ps : list aproc) : @table gcell string := fold_left (ag_add unalloc) ps empty_table.

(** [_canonical], allocation.py:40-52.  [ar] is the archive: the name of the process with the given reference, if it has one. *)
Definition ag_key (ar : string -> option string) (x : ax) : string :=
  let term := match x_term x with Some t => ar t | None => None end in
  (x_unit x ++ " " ++ match term with None => x_fstr x | Some name => name end)%string.
(** [_extract_data_from_item], allocation.py:54-68 *)
Definition ag_put (ar : string -> option string) (d : dict string Qc) (c : gcell) : dict string Qc :=
  match x_value (fst c) with None => d | Some v => gadd (ag_key ar (fst c)) v d end.
Definition ag_extract (ar : string -> option string) (cs : list gcell) : dict string Qc := fold_left (ag_put ar) cs [].

(** [_build_near_header], allocation.py:98-111: the direction ([""] below the same one) and the mark of a reference *)
Definition ag_dir (r : list string) : string := nth 1 r "".
Definition ag_near (r : list string) (prev : option (list string)) : list string :=
  [match prev with Some p => if eqb (ag_dir r) (ag_dir p) then ditto else ag_dir r | None => ag_dir r end;
   if eqb (nth 0 r "") (flag true) then "{*}" else ""].
(** [_build_row], base.py:135-178 *)
Definition ag_rows (ar : string -> option string) (t : @table gcell string) (prev : option (list string)) (r : list string)
  : tres (list (@sline Qc)) :=
  let ds := map (fun i => ag_extract ar (cell t r i)) (seq 0 (length (t_cols t))) in
  tbind (sort_keys (keys_of ds)) (fun ks => TOk (sub_lines 2 (ag_near r prev) (note t r) ds ks)).
(** [dataframe], base.py:290-303, and [text], base.py:228-288; [rows] is the set of rows in any order.  The two right-hand
    headings (allocation.py:14) are as many as [text] has place for, and a row without lines would be an IndexError (245).
    Numbers are printed with three significant digits: not modelled. *)
Definition ag_sorted (rows : list (list string)) : list (list string) := sorted_rows (fun s : string => s) rows.
Definition ag_frame (ar : string -> option string) (t : @table gcell string) (rows : list (list string)) : tres (list (list (@sline Qc))) :=
  tmap (ag_rows ar t None) (ag_sorted rows).
Fixpoint ag_text_from (ar : string -> option string) (t : @table gcell string) (prev : option (list string)) (rs : list (list string))
  : tres (list (list (@sline Qc))) :=
  match rs with
  | [] => TOk []
  | r :: rs' => tbind (ag_rows ar t prev r) (fun l =>
      match l with [] => IndexErr | _ => tbind (ag_text_from ar t (Some r) rs') (fun ls => TOk (l :: ls)) end)
  end.
Definition ag_text (ar : string -> option string) (t : @table gcell string) (rows : list (list string)) : tres (list (list (@sline Qc))) :=
  ag_text_from ar t None (ag_sorted rows).

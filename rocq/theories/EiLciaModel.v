(** Model of /repo/antelope_catalog/providers/ecoinvent_lcia.py (EcoinventLcia): indicator list and factor sheet into quantities, flows
    and factors.

    Simplifications: the sheets are already read, with all their columns; texts in value cells are not numerals; strings contain no
    uuid, and two names never have the same uuid3; factors are rationals; notes, comments and the mass quantity (whose key no row has)
    are left out, as every flow has it for its reference; the archive has no upstream. *)
From Coq Require Import String.
From Verif Require Import Num Base.
Open Scope nat_scope.
Open Scope string_scope.
Open Scope list_scope.

Inductive cell := CNum (v : Qc) | CText (s : string).
(** Quantity columns; flow columns; 'Known issue', value *)
Record qcols := QC { q_method : string; q_cat : string; q_ind : string; q_unit : string }.
Record fcols := FC { f_name : string; f_comp : string; f_sub : string }.
Record erow := ER { e_q : qcols; e_f : fcols; e_issue : cell; e_val : cell }.
(** [_quantity_key], [_flow_key], ecoinvent_lcia.py:82-88 *)
Definition join3 (a b c : string) : string := (a ++ ", " ++ b ++ ", " ++ c)%string.
Definition qkey (q : qcols) : string := join3 (q_method q) (q_cat q) (q_ind q).
Definition fkey (f : fcols) : string := join3 (f_name f) (f_comp f) (f_sub f).

(** ** The archive *)
Inductive eent := EQty (q : qcols) | EFlow (f : fcols) (ch : dict string Qc).
Record earch := EA { a_ents : dict string eent; a_loaded : bool }.
Definition enew : earch := EA [] false.
Inductive eerr := EValue | EDuplicate | EAttribute | EAssertion.
Definition put (k : string) (e : eent) (a : earch) : earch := EA (dset k e (a_ents a)) (a_loaded a).
(** [_create_quantity], 90-109: whatever has the key is returned *)
Definition create_quantity (q : qcols) (a : earch) : earch := if din (qkey q) (a_ents a) then a else put (qkey q) (EQty q) a.
(** [_create_flow], 119-130 *)
Definition create_flow (f : fcols) (a : earch) : earch := if din (fkey f) (a_ents a) then a else put (fkey f) (EFlow f []) a.
(** [_get_value], 132-136 *)
Definition value_cell (r : erow) : cell := match e_issue r with CText "" => e_val r | c => c end.
(** One row of [_load_all], 142-146 *)
Definition add_row (r : erow) (a : earch) : earch * option eerr :=
  let a1 := create_quantity (e_q r) (create_flow (e_f r) a) in
  match value_cell r with
  | CText _ => (a1, Some EValue)
  | CNum v =>
      match dget (fkey (e_f r)) (a_ents a1) with
      | Some (EFlow f ch) =>
          match dget (qkey (e_q r)) ch with
          | Some _ => (a1, Some EDuplicate)
          | None => match dget (qkey (e_q r)) (a_ents a1) with
                    | Some (EQty _) => (put (fkey (e_f r)) (EFlow f (dset (qkey (e_q r)) v ch)) a1, None)
                    | _ => (a1, Some EAssertion)
                    end
          end
      | _ => (a1, Some EAttribute)
      end
  end.
Fixpoint add_rows (l : list erow) (a : earch) : earch * option eerr :=
  match l with
  | [] => (a, None)
  | r :: l => match add_row r a with (a1, None) => add_rows l a1 | (a1, Some e) => (a1, Some e) end
  end.
(** [_load_all], 138-147, and [load_all] of EntityStore: once it has succeeded it does nothing *)
Definition load (inds : list qcols) (rows : list erow) (a : earch) : earch * option eerr :=
  if a_loaded a then (a, None)
  else match add_rows rows (fold_left (fun a q => create_quantity q a) inds a) with
       | (a1, None) => (EA (a_ents a1) true, None)
       | (a1, Some e) => (a1, Some e)
       end.
(** [load_all] called n times, errors caught *)
Fixpoint loads (inds : list qcols) (rows : list erow) (n : nat) : earch := match n with O => enew | S n => fst (load inds rows (loads inds rows n)) end.

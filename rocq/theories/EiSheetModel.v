(** Model of /repo/antelope_catalog/providers/ecoinvent_spreadsheet.py (EcoinventSpreadsheet): the sheets of an activity overview into
    quantities, flows and processes.  The properties of a flow are a LowerDict (LowerModel.v).

    Simplifications: the sheets are already read, with all their columns, and cells are texts; no name contains a uuid, two names never have the
    same uuid3, which is never the uuid of an activity; the properties of quantities are left out, and of processes it is only modelled which row
    describes them; the archive has no upstream and its other data (fg, bg, lcia) are left out. *)
From Coq Require Import String.
From Verif Require Import Base LowerModel.
Open Scope string_scope.
Open Scope list_scope.

(** Columns of 'elementary exchanges', 'intermediate exchanges' (the internal version has no 'CAS', 'comment', 'synonyms') and 'activity overview';
    [ac_uuid]: [str(uuid.UUID(u))], None if it is no uuid, line 352; [ac_data]: the columns that describe the activity *)
Record elrow := EL { el_name : string; el_comp : string; el_sub : string; el_unit : string; el_cas : string; el_formula : string; el_syn : string }.
Record imrow := IM { im_name : string; im_unit : string; im_cas : string; im_comment : string; im_syn : string }.
Record acrow := AC { ac_uuid : option string; ac_data : list (string * string); ac_prod : string; ac_group : string }.
Inductive pval := PText (s : string) | PList (l : list string).

(** Arguments of [_create_flow]: what is hashed (and the external reference), Name, Compartment, unit, the other keyword arguments *)
Record fargs := FA { fa_key : string; fa_name : string; fa_comp : list string; fa_unit : string; fa_kw : list (string * pval) }.
(** [_elementary_key], 282-284 *)
Definition elementary_key (r : elrow) : string := (el_name r ++ " [" ++ el_comp r ++ ", " ++ el_sub r ++ "]")%string.
(** [_external_elementary], 299-310, and [_internal_elementary], 326-341 *)
Definition el_args (internal : bool) (r : elrow) : fargs :=
  FA (elementary_key r) (el_name r) [el_comp r; el_sub r] (el_unit r)
     ([("CasNumber", PText (el_cas r)); ("Comment", PText ""); ("Formula", PText (el_formula r))] ++ if internal then [] else [("Synonyms", PText (el_syn r))]).
(** [_external_intermediate], 286-297, and [_internal_intermediate], 312-324 *)
Definition im_args (internal : bool) (r : imrow) : fargs :=
  FA (im_name r) (im_name r) ["Intermediate flow"] (im_unit r)
     (if internal then [("CasNumber", PText ""); ("Comment", PText "")]
      else [("CasNumber", PText (im_cas r)); ("Comment", PText (im_comment r)); ("Synonyms", PText (im_syn r))]).

(** ** The archive *)
Inductive xent := XQty | XFlow (unit : string) (d : ldict pval).
(** The row that describes it, the flows of its exchanges (all outputs), those that are references *)
Record xproc := XP { xp_row : acrow; xp_exch : list string; xp_refs : list string }.
Record xarch := XA { x_ents : dict string xent; x_procs : dict string xproc; x_loaded : bool }.
Definition xnew : xarch := XA [] [] false.
Inductive xerr := XValue | XAttribute.

(** [_create_quantity], 238-258: whatever has the key is returned *)
Definition create_quantity (e : dict string xent) (u : string) : dict string xent := if din u e then e else dset u XQty e.
(** [LcEntity.__init__], entities.py:34-62, and [LcFlow.__init__], flows.py:31-43 *)
Definition new_props (f : fargs) : ldict pval :=
  let d := fold_left (fun d p => setitem (fst p) (snd p) d)
    ([("Name", PText ""); ("Comment", PText ""); ("Name", PText (fa_name f)); ("Compartment", PList (fa_comp f))] ++ fa_kw f) [] in
  fold_left (fun d k => if contains k d then d else setitem k (PText "") d) ["CasNumber"; "Compartment"] d.
(** [_create_flow], 260-271.  That the entity of the unit is a quantity is shown in EiSheetProps.v (all units are created first). *)
Definition create_flow (e : dict string xent) (f : fargs) : dict string xent :=
  match dget (fa_key f) e with
  | None => dset (fa_key f) (XFlow (fa_unit f) (update (fa_kw f) (new_props f))) (create_quantity e (fa_unit f))
  | Some XQty => e
  | Some (XFlow u d) => dset (fa_key f) (XFlow u (update (fa_kw f) d)) e
  end.
(** One row of [load_activities], 343-402: the process is added before its flow is looked up ([exch_flow] None is AttributeError in
    [add_exchange], processes.py:559); an exchange that exists is left alone, 560-562 *)
Definition add_activity (r : acrow) (a : xarch) : xarch * option xerr :=
  match ac_uuid r with
  | None => (a, Some XValue)
  | Some u =>
      let p := match dget u (x_procs a) with Some p => p | None => XP r [] [] end in
      match dget (ac_prod r) (x_ents a) with
      | None => (XA (x_ents a) (dset u p (x_procs a)) (x_loaded a), Some XAttribute)
      | Some _ =>
          let refs := if eqb (ac_group r) "ReferenceProduct" then set_add (ac_prod r) (xp_refs p) else xp_refs p in
          (XA (x_ents a) (dset u (XP (xp_row p) (set_add (ac_prod r) (xp_exch p)) refs) (x_procs a)) (x_loaded a), None)
      end
  end.
Fixpoint add_activities (l : list acrow) (a : xarch) : xarch * option xerr :=
  match l with
  | [] => (a, None)
  | r :: l => match add_activity r a with (a1, None) => add_activities l a1 | (a1, Some e) => (a1, Some e) end
  end.
(** [_create_quantities], 273-280: the units are a set; the two sheets of flows in the order of [_load_all] *)
Definition sheet_rows (internal : bool) (els : list elrow) (ims : list imrow) : list fargs := map (el_args internal) els ++ map (im_args internal) ims.
Definition load_flows (fs : list fargs) (e : dict string xent) : dict string xent :=
  fold_left create_flow fs (fold_left create_quantity (set_of (map fa_unit fs)) e).
(** [_load_all], 404-420, and [load_all], entity_store.py:573-577: once it has succeeded it does nothing *)
Definition load (fs : list fargs) (acs : list acrow) (a : xarch) : xarch * option xerr :=
  if x_loaded a then (a, None)
  else match add_activities acs (XA (load_flows fs (x_ents a)) (x_procs a) (x_loaded a)) with
       | (a1, None) => (XA (x_ents a1) (x_procs a1) true, None)
       | (a1, Some e) => (a1, Some e)
       end.
(** [load_all] called n times, errors caught *)
Fixpoint loads (fs : list fargs) (acs : list acrow) (n : nat) : xarch := match n with O => xnew | S n => fst (load fs acs (loads fs acs n)) end.

(** ** Reading a property ([flow\[k\]]), writing the flow ([serialize], entities.py:240-271: [items]; all modelled values are written as they are)
    and reading the file again ([LcFlow(uid, **entity_j)], basic_archive.py:184-189) *)
Definition read (k : string) (d : ldict pval) : option pval := getitem k d.
Definition written (k : string) (d : ldict pval) : option pval := dget k (items d).
Definition reread (d : ldict pval) : ldict pval := fold_left (fun d p => setitem (fst p) (snd p) d) (items d) (setitem "Comment" (PText "") (setitem "Name" (PText "") [])).

(** Model of writing an archive to a file and loading it again: /repo/lcatools/archives/basic_archive.py,
    /repo/lcatools/archives/lc_archive.py ([serialize], [load_from_dict], [entity_from_json]), the [serialize] methods of
    /repo/lcatools/entities/{entities,flows,quantities}.py and of /repo/lcatools/characterizations.py.
    Properties are those of LowerModel, flows those of FlowModel, processes those of ProcModel. *)
From Coq Require Import String.
From Verif Require Import Num Base PyStr LowerModel FlowModel ProcModel.
Open Scope string_scope.
Open Scope list_scope.

(** Property values.  [PObj] is any other object, known by its [str()]; lists, sets and dicts hold texts (simplification). *)
Inductive pval :=
  | PNone | PText (s : string) | PNumber (v : Qc) | PList (l : list string) | PSet (l : list string)
  | PDict (d : list (string * string)) | PEntity (origin ext etype : string) | PObj (str : string).

(** What is written for a value, entities.py:255-276: [None] is left out, a set is sorted, an entity becomes a dict of
    three texts, any other object its [str()]. *)
Fixpoint sinsert (a : string) (l : list string) : list string :=
  match l with [] => [a] | b :: r => if String.leb a b then a :: l else b :: sinsert a r end.
Definition ssort (l : list string) : list string := fold_right sinsert [] l.
Definition save_val (v : pval) : option pval :=
  match v with
  | PNone => None
  | PSet l => Some (PList (ssort l))
  | PEntity o x t => Some (PDict [("origin", o); ("externalId", x); ("entity_type", t)])
  | PObj s => Some (PText s)
  | _ => Some v
  end.

(** What every entity has (entities.py:42-67): uuid, origin (None until stored), [_external_ref], properties. *)
Record meta := Meta { m_uuid : string; m_origin : option string; m_ext : option string; m_props : @ldict pval }.
(** [external_ref], entities.py:134-138 *)
Definition ext_ref (m : meta) : string := match m_ext m with Some x => x | None => m_uuid m end.

(** An archive: its entities by type, in the order added (entity_store.py:458-476).  Simplifications: a process's flows and
    a quantity used for allocation are numbers in ProcModel; [fn] and [qn] give their uuids.  [kid] is [_key_to_id],
    entity_store.py:76-99, which depends only on the namespace uuid, saved among the init arguments. *)
Record aqty := AQ { aq_meta : meta; aq_unit : string }.
Record aflow := AF { af_meta : meta; af_flow : flow }.
Record aproc := AP { ap_meta : meta; ap_proc : proc }.
Record archive := Archive { a_ref : string; a_qs : list aqty; a_fs : list aflow; a_ps : list aproc }.

(** ** Writing *)
(** What is written of an entity, entities.py:245-276 (no fields are dropped: [_drop_fields] is empty in both classes). *)
Record ejson := EJ { ej_uuid : string; ej_ext : string; ej_origin : option string; ej_props : list (string * pval) }.
Definition save_props (d : @ldict pval) : list (string * pval) :=
  flat_map (fun kv => match save_val (snd kv) with Some w => [(fst kv, w)] | None => [] end) (items d).
(** A property with the name under which the class writes its own list is overwritten by it ([over]). *)
Definition ent_json (domesticate : bool) (over : list string) (m : meta) : ejson :=
  EJ (m_uuid m) (ext_ref m) (if domesticate then None else m_origin m)
     (filter (fun kv => negb (mem (fst kv) over)) (save_props (m_props m))).

(** [Characterization.value], characterizations.py:65-74: a number or None, or the dict of locations. *)
Inductive cval := CVNum (v : Qc) | CVDict (l : list (string * option Qc)).
Definition char_value (c : char) : option cval :=
  match dget "GLO" (c_locs c) with
  | Some v => option_map CVNum v
  | None => match c_locs c with
            | [] => None
            | [(_, v)] => option_map CVNum v
            | l => Some (CVDict l)
            end
  end.
(** [Characterization.serialize(values=...)], characterizations.py:155-166.  Simplification: the quantity equals the
    reference if it has the same uuid. *)
Record cjson := CJ { cj_q : string; cj_ref : bool; cj_value : option cval }.
Definition char_json (values : bool) (r : option qty) (c : char) : cjson :=
  let isr := match r with Some r => eqb (q_uuid (c_q c)) (q_uuid r) | None => false end in
  CJ (q_uuid (c_q c)) isr (if isr then None else if values then char_value c else None).
(** Sorting by a text key (Python's [sorted]: stable) *)
Section Sort.
Context {A : Type} (key : A -> string).
Fixpoint kinsert (a : A) (l : list A) : list A :=
  match l with [] => [a] | b :: r => if String.leb (key a) (key b) then a :: l else b :: kinsert a r end.
Definition ksort (l : list A) : list A := fold_right kinsert [] l.
End Sort.
(** [LcFlow.serialize], flows.py:272-281: all characterizations, or that of the reference quantity only *)
Definition flow_json (characterizations values : bool) (f : flow) : list cjson :=
  let js := map (fun p => char_json values (f_ref f) (snd p)) (f_chars f) in
  if characterizations then ksort cj_q js else filter cj_ref js.

(** The lists that flows (flows.py:275-279) and processes (processes.py:639-646) write *)
Definition f_over : list string := ["characterizations"].
Definition p_over : list string := ["exchanges"].

(** A process: its exchanges (ProcModel.serialize) and the quantity it is allocated by with its external_ref; without
    [exchanges], only the references (processes.py:635-648). *)
Record pjson := PJ { pj_ent : ejson; pj_xs : list xjson; pj_q : option (nat * string) }.
Record ajson := AJ { aj_qs : list (ejson * string); aj_fs : list (ejson * list cjson); aj_ps : list pjson }.

Section Names.
Variables fn qn : nat -> string.
Variable kid : string -> option string.

Definition find_q (u : string) (ar : archive) : option aqty := find (fun q => eqb (m_uuid (aq_meta q)) u) (a_qs ar).
Definition find_f (u : string) (ar : archive) : option aflow := find (fun f => eqb (m_uuid (af_meta f)) u) (a_fs ar).
Definition find_p (u : string) (ar : archive) : option aproc := find (fun p => eqb (m_uuid (ap_meta p)) u) (a_ps ar).

(** The factor that allocation uses: [flow.cf(quantity)] for the entities of the archive (flows.py:236-249).
    Simplification: an absent factor (None) counts as 0 here. *)
Definition acf (ar : archive) (f q : nat) : Qc :=
  match find_f (fn f) ar with
  | Some x => match FlowModel.cf (Qty 0 (qn q)) "GLO" (af_flow x) with INum v => v | _ => Q2Qc 0 end
  | None => Q2Qc 0
  end.

(** A process with values or not: exchanges.py:232-242, 469-476 *)
Definition strip_x (values : bool) (x : xjson) : xjson :=
  if values then x else XJ (j_flow x) (j_dir x) (j_term x) (j_ref x) None [].
Definition proc_json (domesticate exchanges values : bool) (ar : archive) (p : aproc) : pjson :=
  let '(xs, q) := ProcModel.serialize (ap_proc p) in
  PJ (ent_json domesticate p_over (ap_meta p))
     (map (strip_x values) (if exchanges then xs else filter j_ref xs))
     (match q with
      | Some q => Some (q, match find_q (qn q) ar with Some x => ext_ref (aq_meta x) | None => qn q end)
      | None => None
      end).

(** [LcArchive.serialize], lc_archive.py:155-173, over [BasicArchive.serialize], basic_archive.py:336-353;
    [complete=True] is [_serialize_all] (lc_archive.py:175-176). *)
Definition save (domesticate exchanges characterizations values : bool) (ar : archive) : ajson :=
  AJ (ksort (fun x => ej_uuid (fst x)) (map (fun q => (ent_json domesticate [] (aq_meta q), aq_unit q)) (a_qs ar)))
     (ksort (fun x => ej_uuid (fst x)) (map (fun f => (ent_json domesticate f_over (af_meta f), flow_json characterizations values (af_flow f))) (a_fs ar)))
     (ksort (fun x => ej_uuid (pj_ent x)) (map (proc_json domesticate exchanges values ar) (a_ps ar))).

(** ** Loading *)
Inductive jexn := JOldJson | JKeyError | JTypeError | JAttributeError | JPropertyExists | JFlow (e : fexn) | JProc (e : pexn).
Inductive jres (A : Type) := JOk (a : A) | JErr (e : jexn).
Arguments JOk {A}. Arguments JErr {A}.

(** The constructor: keyword arguments named like its own parameters are taken by it, the others become properties
    (entities.py:42-67; flows.py:32; [own]: the names of the subclass's own parameters); then the defaults of the class
    ([dflt]: flows.py:39-41, processes.py:194-199). *)
Definition put_props (l : list (string * pval)) (d : @ldict pval) : @ldict pval :=
  fold_left (fun d kv => LowerModel.setitem (fst kv) (snd kv) d) l d.
Definition fill (dflt : list (string * pval)) (d : @ldict pval) : @ldict pval :=
  fold_left (fun d kv => if contains (fst kv) d then d else LowerModel.setitem (fst kv) (snd kv) d) dflt d.
Definition has_key (k : string) (l : list (string * pval)) : bool := existsb (fun kv => eqb (fst kv) k) l.
Definition construct (ref : string) (own : list string) (dflt : list (string * pval)) (e : ejson) (uid : string) : jres meta :=
  let ps := ej_props e in
  if has_key "entity_uuid" ps || has_key "entity_type" ps then JErr JTypeError
  else if existsb (fun k => has_key k ps) own then JErr JAttributeError
  else
    let x := match dget "external_ref" ps with Some (PText s) => Some s | _ => None end in
    let rest := filter (fun kv => negb (eqb (fst kv) "external_ref")) ps in
    JOk (Meta uid (Some (match ej_origin e with Some o => o | None => ref end)) x
              (fill dflt (put_props rest (LowerModel.setitem "Comment" (PText "") (LowerModel.setitem "Name" (PText "") []))))).

Definition q_dflt : list (string * pval) := [].
Definition f_dflt : list (string * pval) := [("CasNumber", PText ""); ("Compartment", PText "")].
Definition p_dflt : list (string * pval) := [("SpatialScope", PText "GLO"); ("TemporalScope", PText "0"); ("Classifications", PList [])].

(** [entity_from_json], basic_archive.py:219-244, around the making of the entity: refuse 'tags'; add it (KeyError if its
    uuid is taken, entity_store.py:458-460); restore the external_ref if it leads to this entity (240-244). *)
Definition uuids (ar : archive) : list string :=
  map (fun q => m_uuid (aq_meta q)) (a_qs ar) ++ map (fun f => m_uuid (af_meta f)) (a_fs ar) ++ map (fun p => m_uuid (ap_meta p)) (a_ps ar).
Definition restore_ext (x : string) (m : meta) : jres meta :=
  match kid x with
  | Some u => if eqb u (m_uuid m)
              then match m_ext m with
                   | None => JOk (if eqb x (m_uuid m) then m else Meta (m_uuid m) (m_origin m) (Some x) (m_props m))
                   | Some _ => JErr JPropertyExists
                   end
              else JOk m
  | None => JOk m
  end.
Definition enter (ar : archive) (own : list string) (dflt : list (string * pval)) (e : ejson) : jres meta :=
  if has_key "tags" (ej_props e) then JErr JOldJson
  else match construct (a_ref ar) own dflt e (ej_uuid e) with
       | JErr x => JErr x
       | JOk m => if mem (ej_uuid e) (uuids ar) then JErr JKeyError else restore_ext (ej_ext e) m
       end.

(** [_quantity_from_json], basic_archive.py:176-182 *)
Definition load_q (ar : archive) (j : ejson * string) : jres archive :=
  match enter ar [] q_dflt (fst j) with
  | JErr x => JErr x
  | JOk m => JOk (Archive (a_ref ar) (a_qs ar ++ [AQ m (snd j)]) (a_fs ar) (a_ps ar))
  end.
(** [_flow_from_json], basic_archive.py:184-208: a characterization whose quantity is not in the archive is skipped *)
Definition vspec_of (v : option cval) : vspec :=
  match v with None => VNone | Some (CVNum x) => VNum x | Some (CVDict l) => VDict l end.
Fixpoint load_chars (ar : archive) (cs : list cjson) (f : flow) : jres flow :=
  match cs with
  | [] => JOk f
  | c :: rest =>
      match kid (cj_q c) with
      | Some u => match find_q u ar with
                  | Some q => match add_characterization (Qty 0 (m_uuid (aq_meta q))) (cj_ref c) (vspec_of (cj_value c)) false None None f with
                              | (f', None) => load_chars ar rest f'
                              | (_, Some e) => JErr (JFlow e)
                              end
                  | None => load_chars ar rest f
                  end
      | None => load_chars ar rest f
      end
  end.
(** Whether the compartment is not empty (see FlowModel.flow) *)
Definition comp_of (d : @ldict pval) : bool :=
  match LowerModel.getitem "Compartment" d with Some (PText "") | Some (PList []) => false | _ => true end.
Definition load_f (ar : archive) (j : ejson * list cjson) : jres archive :=
  match enter ar ["local_unit"] f_dflt (fst j) with
  | JErr x => JErr x
  | JOk m => match load_chars ar (snd j) (Flow None [] (comp_of (m_props m))) with
             | JErr x => JErr x
             | JOk f => JOk (Archive (a_ref ar) (a_qs ar) (a_fs ar ++ [AF m f]) (a_ps ar))
             end
  end.
(** [_process_from_json], lc_archive.py:84-139: KeyError if a flow is not in the archive; if the allocation quantity is not
    found, [allocate_by_quantity(None)].  Simplification: the quantity found is the one written, or none. *)
Definition load_p (ar : archive) (j : pjson) : jres archive :=
  match enter ar [] p_dflt (pj_ent j) with
  | JErr x => JErr x
  | JOk m =>
      if forallb (fun x => match find_f (fn (j_flow x)) ar with Some _ => true | None => false end) (pj_xs j) then
        match load (acf ar) (pj_xs j, match pj_q j with
                                      | Some (q, x) => match kid x with
                                                       | Some u => if eqb u (qn q) then match find_q u ar with Some _ => Some q | None => None end else None
                                                       | None => None
                                                       end
                                      | None => None
                                      end) with
        | PErr e => JErr (JProc e)
        | POk p => JOk (Archive (a_ref ar) (a_qs ar) (a_fs ar) (a_ps ar ++ [AP m p]))
        end
      else JErr JKeyError
  end.
Fixpoint load_each {J} (f : archive -> J -> jres archive) (js : list J) (ar : archive) : jres archive :=
  match js with
  | [] => JOk ar
  | j :: rest => match f ar j with JErr x => JErr x | JOk ar' => load_each f rest ar' end
  end.
(** [load_from_dict], basic_archive.py:246-286 and lc_archive.py:68-82, into a new archive with reference [ref] *)
Definition load_archive (ref : string) (j : ajson) : jres archive :=
  match load_each load_q (aj_qs j) (Archive ref [] [] []) with
  | JErr x => JErr x
  | JOk a1 => match load_each load_f (aj_fs j) a1 with
              | JErr x => JErr x
              | JOk a2 => load_each load_p (aj_ps j) a2
              end
  end.
End Names.
Arguments JOk {A}. Arguments JErr {A}.

(** Model of the index of a foreground archive: /repo/antelope_catalog/foreground/foreground.py 57-91 (_key_to_id), 174-197 (add), 207-239 (name_fragment), 381-404 (_del_f, del_orphans),
    with EntityStore._get_entity, __getitem__, _add and entities_by_type (/repo/lcatools/archives/entity_store.py:418-476, 579-581) and LcEntity.external_ref, link, origin and merge
    (/repo/lcatools/entities/entities.py:115-120, 131-148, 178-180, 296-310)
    and EntityRef.merge (/repo/lcatools/entity_refs/base.py:143-156).

    Simplifications: an object is its uuid, origin, external reference, type, whether it is an entity (and not a reference), validity, background flag, parent, and properties; [to_uuid]
    (/repo/lcatools/interfaces/__init__.py:27-45) is an arbitrary function and [next] on a set takes an arbitrary element; the archive has no upstream; [make_ref] gives a new object each time
    (the code keeps it) with the same uuid, reference, type and properties; counters and messages are left out; [entities_by_type] is given in the order of the set and not sorted. *)
From Verif Require Import Num Base PyStr.
Open Scope nat_scope.
Open Scope list_scope.

Record obj := Ob { o_uuid : string; o_origin : option string; o_ext : option string; o_type : string; o_ent : bool; o_valid : bool; o_bg : bool; o_parent : option nat; o_props : dict string string }.
Inductive aexn := AValueError | AAttributeError | AMergeError | AKeyError | AFragmentNotFound | APropertyExists.
(** the objects, the next number, the archive's reference, [_entities], [_ext_ref_mapping], [_uuid_map], [_ents_by_type] *)
Record far := Far { a_objs : dict nat obj; a_next : nat; a_ref : string; a_ents : dict string nat; a_ext : dict string string; a_uuid : dict string (list string); a_type : dict string (list string) }.

(** [external_ref], [link], entities.py:131-135, 178-180 *)
Definition ext_ref (o : obj) : string := match o_ext o with Some e => e | None => o_uuid o end.
Definition link (o : obj) : string := ((match o_origin o with Some r => r | None => "None" end) ++ "/" ++ ext_ref o)%string.
(** sets *)
Definition sget (k : string) (d : dict string (list string)) : list string := match dget k d with Some l => l | None => [] end.
Definition sadd (x : string) (l : list string) : list string := if mem x l then l else l ++ [x].
Definition srem (x : string) (l : list string) : list string := filter (fun y => negb (eqb y x)) l.
Definition with_objs x (s : far) := Far x (a_next s) (a_ref s) (a_ents s) (a_ext s) (a_uuid s) (a_type s).
Definition with_ents x (s : far) := Far (a_objs s) (a_next s) (a_ref s) x (a_ext s) (a_uuid s) (a_type s).
Definition with_ext x (s : far) := Far (a_objs s) (a_next s) (a_ref s) (a_ents s) x (a_uuid s) (a_type s).
Definition with_uuid x (s : far) := Far (a_objs s) (a_next s) (a_ref s) (a_ents s) (a_ext s) x (a_type s).
Definition with_type x (s : far) := Far (a_objs s) (a_next s) (a_ref s) (a_ents s) (a_ext s) (a_uuid s) x.

Section Far.
Context (to_uuid : string -> option string) (pick : list string -> option string).
(** [_key_to_id], 57-91 *)
Definition key_to_id (s : far) (key : string) : option string :=
  if din key (a_ents s) then Some key
  else match dget key (a_ext s) with
       | Some l => Some l
       | None => match to_uuid key with Some u => match dget u (a_uuid s) with Some l => pick l | None => None end | None => None end
       end.
(** [__getitem__], [_get_entity] *)
Definition get (s : far) (key : string) : option nat := match key_to_id s key with Some l => dget l (a_ents s) | None => None end.
Definition types : list string := ["quantity"; "flow"; "fragment"].
(** [LcEntity.merge], entities.py:296-310: what is missing is added; [EntityRef.merge], /repo/lcatools/entity_refs/base.py:143-156, overwrites ([update]), though its comment says the left argument
    is dominant *)
Definition merged_props (c o : obj) : dict string string :=
  if o_ent c then o_props c ++ filter (fun e => negb (din (fst e) (o_props c))) (o_props o) else fold_left (fun d e => dset (fst e) (snd e) d) (o_props o) (o_props c).
Definition merge (s : far) (cur : nat) (o : obj) : far * option aexn :=
  match dget cur (a_objs s) with
  | None => (s, Some AAttributeError)
  | Some c => if negb (eqb (o_type c) (o_type o)) then (s, Some AMergeError)
              else if negb (eqb (ext_ref c) (ext_ref o)) then (s, Some AMergeError)
              else (with_objs (dset cur (Ob (o_uuid c) (o_origin c) (o_ext c) (o_type c) (o_ent c) (o_valid c) (o_bg c) (o_parent c) (merged_props c o)) (a_objs s)) s, None)
  end.
(** the object that is stored: the origin is set if there is none; of an entity of another origin a reference is made, 182-190 *)
Definition localize (s : far) (i : nat) (o : obj) : far * nat * obj :=
  match o_origin o with
  | None => let o1 := Ob (o_uuid o) (Some (a_ref s)) (o_ext o) (o_type o) (o_ent o) (o_valid o) (o_bg o) (o_parent o) (o_props o) in (with_objs (dset i o1 (a_objs s)) s, i, o1)
  | Some r => if o_ent o && negb (eqb r (a_ref s))
              then let o1 := Ob (o_uuid o) (Some r) (Some (ext_ref o)) (o_type o) false true (o_bg o) (o_parent o) (o_props o) in
                   (Far (dset (a_next s) o1 (a_objs s)) (S (a_next s)) (a_ref s) (a_ents s) (a_ext s) (a_uuid s) (a_type s), a_next s, o1)
              else (s, i, o)
  end.
(** [add], 174-197 *)
Definition add (s : far) (i : nat) : far * option aexn :=
  match dget i (a_objs s) with
  | None => (s, Some AAttributeError)
  | Some o0 =>
      if negb (mem (o_type o0) types) then (s, Some AValueError)
      else let '(s1, k, o) := localize s i o0 in
           let fin := fun s2 => (with_uuid (dset (o_uuid o) (sadd (link o) (sget (o_uuid o) (a_uuid s2))) (a_uuid s2)) s2, None) in
           if din (link o) (a_ents s1)
           then match get s1 (o_uuid o) with
                | None => (s1, Some AAttributeError)
                | Some cur => match merge s1 cur o with (s2, Some e) => (s2, Some e) | (s2, None) => fin s2 end
                end
           else if o_valid o
                then fin (with_type (dset (o_type o) (sadd (link o) (sget (o_type o) (a_type s1))) (a_type s1)) (with_ents (dset (link o) k (a_ents s1)) s1))
                else (s1, Some AValueError)
  end.
(** [name_fragment], 207-239 *)
Definition name_fragment (s : far) (i : nat) (name : string) : far * option aexn :=
  match dget i (a_objs s) with
  | None => (s, Some AAttributeError)
  | Some o =>
      if negb (eqb (get s (link o)) (Some i)) then (s, Some AFragmentNotFound)
      else match key_to_id s name with
           | Some _ => (s, Some AValueError)
           | None =>
               match o_ext o with
               | Some _ => (s, Some APropertyExists)
               | None =>
                   let o1 := Ob (o_uuid o) (o_origin o) (if eqb name (o_uuid o) then None else Some name) (o_type o) (o_ent o) (o_valid o) (o_bg o) (o_parent o) (o_props o) in
                   let s1 := with_ext (dset name (link o1) (a_ext s)) (with_objs (dset i o1 (a_objs s)) s) in
                   match dget (link o) (a_ents s1) with
                   | None => (s1, Some AKeyError)
                   | Some v =>
                       let s2 := with_ents (dset (link o1) v (ddel (link o) (a_ents s1))) s1 in
                       if negb (mem (link o) (sget (o_uuid o) (a_uuid s2))) then (s2, Some AKeyError)
                       else let s3 := with_uuid (dset (o_uuid o) (sadd (link o1) (srem (link o) (sget (o_uuid o) (a_uuid s2)))) (a_uuid s2)) s2 in
                            if negb (mem (link o) (sget "fragment" (a_type s3))) then (s3, Some AKeyError)
                            else (with_type (dset "fragment" (sadd (link o1) (srem (link o) (sget "fragment" (a_type s3)))) (a_type s3)) s3, None)
                   end
               end
           end
  end.
(** [entities_by_type], entity_store.py:579-581 *)
Definition by_type (s : far) (t : string) : list (option nat) := map (fun l => dget l (a_ents s)) (sget t (a_type s)).
(** [_del_f], 381-383 *)
Definition del_f (s : far) (o : obj) : far * option aexn := if din (o_uuid o) (a_ents s) then (with_ents (ddel (o_uuid o) (a_ents s)) s, None) else (s, Some AKeyError).
(** [del_orphans], 385-399; [linked i] says that some termination ends in fragment [i] ([_find_links], 401-405) *)
Definition orphan (linked : nat -> bool) (s : far) (e : option nat) : option obj :=
  match e with
  | Some i => match dget i (a_objs s) with
              | Some o => match o_parent o with None => if o_bg o && negb (linked i) then Some o else None | Some _ => None end
              | None => None
              end
  | None => None
  end.
Fixpoint del_loop (linked : nat -> bool) (for_real : bool) (l : list (option nat)) (s : far) : far * option aexn :=
  match l with
  | [] => (s, None)
  | e :: t => match orphan linked s e with
              | Some o => if for_real then match del_f s o with (s1, Some x) => (s1, Some x) | (s1, None) => del_loop linked for_real t s1 end else del_loop linked for_real t s
              | None => del_loop linked for_real t s
              end
  end.
Definition del_orphans (linked : nat -> bool) (for_real : bool) (s : far) : far * option aexn := del_loop linked for_real (by_type s "fragment") s.

(** histories *)
Inductive aop := Add (i : nat) | Name (i : nat) (n : string).
Definition astep (s : far) (op : aop) : far * option aexn := match op with Add i => add s i | Name i n => name_fragment s i n end.
Fixpoint arun (s : far) (ops : list aop) : far := match ops with [] => s | op :: t => arun (fst (astep s op)) t end.
End Far.

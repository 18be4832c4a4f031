(** Model of /repo/lcatools/entities/lower_dict.py (class LowerDict) and of the property dictionary of
    /repo/lcatools/entities/entities.py (LcEntity: item access, update, merge). *)
From Verif Require Import Base PyStr.
Open Scope string_scope.
Open Scope nat_scope.
Open Scope list_scope.

(** A key object held by the underlying [dict]: a [LowerDict.Key] (lower_dict.py:27-35) or a plain [str] (inserted by the
    inherited methods).  Only the spelling and the class matter. *)
Inductive kobj := KKey (s : string) | KPlain (s : string).
Definition spelling (k : kobj) : string := match k with KKey s => s | KPlain s => s end.

(** What the dict hashes: [hash(self.lower())] for a [Key] (31-32), [hash(self)] for a plain string.  Two key objects
    denote the same entry iff these strings are equal: a [Key] compares equal to any string with the same lower-casing
    (34-35; [dict] lets the [Key] side decide), and [lower] is idempotent.  Simplification: different strings never have
    the same hash. *)
Definition hkey (k : kobj) : string := match k with KKey s => lower s | KPlain s => s end.

Section LD.
Context {V : Type}.
(** The dict, in insertion order: hashed string -> (key object first inserted, value). *)
Definition ldict := dict string (kobj * V).

(** [dict.__setitem__]: an existing entry keeps its key object. *)
Definition raw_set (k : kobj) (v : V) (d : ldict) : ldict :=
  match dget (hkey k) d with
  | Some (k0, _) => dset (hkey k) (k0, v) d
  | None => dset (hkey k) (k, v) d
  end.
Definition raw_get (k : kobj) (d : ldict) : option V := option_map snd (dget (hkey k) d).

(** [__setitem__] lower_dict.py:48-50, [__getitem__] 52-54 ([None] is KeyError), [__contains__] 44-46, [pop] 56-58 (the
    default is None, so it never raises). *)
Definition setitem (k : string) (v : V) (d : ldict) : ldict := raw_set (KKey k) v d.
Definition getitem (k : string) (d : ldict) : option V := raw_get (KKey k) d.
Definition contains (k : string) (d : ldict) : bool := din (hkey (KKey k)) d.
Definition pop (k : string) (d : ldict) : ldict * option V := (ddel (hkey (KKey k)) d, raw_get (KKey k) d).

(** [items] lower_dict.py:60-62: a plain dict keyed by spelling (a later entry with the same spelling replaces the value). *)
Definition items (d : ldict) : dict string V :=
  fold_left (fun acc p => dset (spelling (fst (snd p))) (snd (snd p)) acc) d [].
(** [keys] lower_dict.py:64-65 *)
Definition keys (d : ldict) : list string := dkeys (items d).

(** [__init__] lower_dict.py:37-42: positional and keyword arguments go to [dict.__init__] unconverted, [data] through [__setitem__]. *)
Definition raw_update (l : list (string * V)) (d : ldict) : ldict :=
  fold_left (fun d p => raw_set (KPlain (fst p)) (snd p) d) l d.
Definition new (args data : list (string * V)) : ldict :=
  fold_left (fun d p => setitem (fst p) (snd p) d) data (raw_update args []).

(** Inherited from [dict], not overridden: [update], [get], [__delitem__] ([None]: KeyError). *)
Definition update := raw_update.
Definition get (k : string) (d : ldict) : option V := raw_get (KPlain k) d.
Definition delitem (k : string) (d : ldict) : option ldict := if din k d then Some (ddel k d) else None.
End LD.
Arguments ldict : clear implicits.

(** ** Entities, as far as their properties go *)

(** An [LcEntity] (entities.py:34-62): type, external reference, properties; [ref_field] is the class attribute
    [_ref_field], [en_ref] the reference entity (an identifier, or None). *)
Record entity := Entity { en_type : string; en_ext : string; en_rf : string; en_ref : option string; en_d : ldict string }.

Inductive nexn := NValueError | NKeyError | NMergeError.
Inductive nres (A : Type) := NOk (a : A) | NErr (e : nexn).
Arguments NOk {A} _. Arguments NErr {A} _.

Definition forbidden : list string := ["entityid"; "entitytype"; "externalid"; "origin"].

(** [__getitem__], entities.py:277-284.  A value is a property, the reference entity, or the type. *)
Inductive value := VProp (v : string) | VRef (r : option string) | VType (t : string).
Definition ent_get (k : string) (e : entity) : nres value :=
  if eqb (lower k) (lower (en_rf e)) then NOk (VRef (en_ref e))
  else if eqb k "EntityType" then NOk (VType (en_type e))
  else match getitem k (en_d e) with Some v => NOk (VProp v) | None => NErr NKeyError end.

(** [__setitem__], entities.py:286-294 (the value of a reference assignment is taken to be valid, [_set_reference] not
    overridden). *)
Definition ent_set (k : string) (v : string) (e : entity) : nres entity :=
  if eqb k "EntityType" then NErr NValueError
  else if eqb (lower k) (lower (en_rf e)) then NOk (Entity (en_type e) (en_ext e) (en_rf e) (Some v) (en_d e))
  else if mem (lower k) forbidden then NErr NKeyError
  else NOk (Entity (en_type e) (en_ext e) (en_rf e) (en_ref e) (setitem k v (en_d e))).

(** [merge], entities.py:296-310: [k not in self.keys()] tests the spelling. *)
Fixpoint merge_loop (ks : list string) (self other : entity) : entity * option nexn :=
  match ks with
  | [] => (self, None)
  | k :: r =>
      if mem k (keys (en_d self)) then merge_loop r self other
      else match ent_get k other with
           | NOk (VProp v) => match ent_set k v self with
                              | NOk self' => merge_loop r self' other
                              | NErr e => (self, Some e)
                              end
           | NOk (VRef (Some v)) => match ent_set k v self with
                                    | NOk self' => merge_loop r self' other
                                    | NErr e => (self, Some e)
                                    end
           | NOk _ => (self, Some NValueError)
           | NErr e => (self, Some e)
           end
  end.
Definition merge (self other : entity) : entity * option nexn :=
  if negb (eqb (en_type self) (en_type other)) then (self, Some NMergeError)
  else if negb (eqb (en_ext self) (en_ext other)) then (self, Some NMergeError)
  else merge_loop (keys (en_d other)) self other.

(** [update], entities.py:216-217 *)
Definition ent_update (l : list (string * string)) (e : entity) : entity :=
  Entity (en_type e) (en_ext e) (en_rf e) (en_ref e) (update l (en_d e)).

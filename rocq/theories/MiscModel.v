(** Model of the direction helpers (/repo/lcatools/interfaces/iindex.py:8-31), of equality and hashing of entities and
    references (/repo/lcatools/entities/entities.py:129-133,338-361; /repo/lcatools/entity_refs/base.py:53-130), and of unit
    conversion in /repo/lcatools/entities/quantities.py:33-80 and /repo/lcatools/entities/flows.py:83-133. *)
From Verif Require Import Num Base PyStr.
Open Scope Qc_scope.
Open Scope string_scope.
Open Scope list_scope.

(** ** Directions *)

(** A Python argument, as far as the helpers can tell: None, a string, a number (int, float, bool), another hashable
    object, an unhashable one. *)
Inductive parg := ANone | AStr (s : string) | ANum (v : Qc) | AHashable | AUnhashable.
Inductive dexn := DKeyError | DIndexError | DTypeError | DInvalidDirection.
Inductive dres := DStr (s : string) | DNone | DErr (e : dexn).

(** [check_direction], iindex.py:11-17.  The table has the keys 0, 1, 'i', 'o'; numbers are compared by value. *)
Definition table (k : parg) : dres :=
  match k with
  | ANum v => if eqb v 0 then DStr "Input" else if eqb v 1 then DStr "Output" else DErr DKeyError
  | AStr s => if eqb s "i" then DStr "Input" else if eqb s "o" then DStr "Output" else DErr DKeyError
  | ANone | AHashable => DErr DKeyError
  | AUnhashable => DErr DTypeError
  end.
Definition check_direction (a : parg) : dres :=
  match a with
  | AStr "" => DErr DIndexError
  | AStr (String c _) => table (AStr (lower (String c "")))
  | _ => table a
  end.

(** [comp_dir], iindex.py:24-31 *)
Definition directions : list string := ["Input"; "Output"].
Definition comp_dir (a : parg) : dres :=
  match a with
  | ANone => DNone
  | _ => match check_direction a with
         | DStr d => match find (fun k => negb (eqb k d)) directions with Some k => DStr k | None => DErr DKeyError end
         | DErr DKeyError => DErr DInvalidDirection
         | r => r
         end
  end.

(** ** Entities and references *)

(** An LcEntity (entities.py:34-62): type, uuid, origin and external reference (both may be unset).  A BaseRef
    (entity_refs/base.py:34-51): type (None: 'unknown'), origin, external reference, uuid. *)
Inductive eobj :=
| OEnt (etype uuid : string) (origin ext : option string)
| ORef (etype : option string) (origin ref : string) (uuid : option string).

(** [external_ref], entities.py:129-133 and base.py:57-59; [entity_type], entities.py:76-78 and base.py:69-73; [origin] *)
Definition ext_ref (o : eobj) : string :=
  match o with OEnt _ u _ (Some x) => x | OEnt _ u _ None => u | ORef _ _ r _ => r end.
Definition etype_of (o : eobj) : string := match o with OEnt t _ _ _ => t | ORef (Some t) _ _ _ => t | ORef None _ _ _ => "unknown" end.
Definition origin_of (o : eobj) : option string := match o with OEnt _ _ g _ => g | ORef _ g _ _ => Some g end.
(** [uuid], entities.py:173-175 and base.py:61-63 *)
Definition uuid_of (o : eobj) : string :=
  match o with OEnt _ u _ _ => u | ORef _ _ r (Some "") => r | ORef _ _ r (Some u) => u | ORef _ _ r None => r end.

(** [a == b]: entities.py:345-361 when [a] is an entity, base.py:117-124 when it is a reference. [None]: TypeError
    ([startswith(None)]). *)
Definition starts (s p : string) : bool := prefix p s.
Definition py_eq (a b : eobj) : option bool :=
  match a with
  | OEnt _ _ _ _ => Some (eqb (ext_ref a) (ext_ref b) && eqb (origin_of a) (origin_of b) && eqb (etype_of a) (etype_of b))
  | ORef _ g _ _ =>
      if eqb (etype_of a) (etype_of b) && eqb (ext_ref a) (ext_ref b)
      then match origin_of b with Some h => Some (starts g h || starts h g) | None => None end
      else Some false
  end.

(** [hash(a)]: entities.py:338-343 (AttributeError without origin), base.py:129-130 with [link] 65-67.  What is hashed; different
    data are taken to have different hashes. *)
Inductive hdata := HPair (origin uuid : string) | HString (s : string) | HFails.
Definition py_hash (a : eobj) : hdata :=
  match a with
  | OEnt _ u (Some g) _ => HPair g u
  | OEnt _ _ None _ => HFails
  | ORef _ g r _ => HString (g ++ "/" ++ r)
  end.

(** ** Units of a quantity *)

(** A quantity: reference unit and conversion table (None: no such property). *)
Record quantity := Quantity { qu_unit : string; qu_table : option (dict string Qc) }.

(** [convert], quantities.py:33-80: how many [to] units are in one [from_unit].  [to is self.reference_entity] compares a
    string with an LcUnit object and never holds. *)
Inductive ures := UNum (v : Qc) | UNone | UZeroDivision | UTypeError.
Definition uconvert (from_unit to : option string) (q : quantity) : ures :=
  match qu_table q with
  | None => UNone
  | Some t =>
      let fr := match from_unit with None => qu_unit q | Some u => u end in
      match dget fr t with
      | None => UNone
      | Some i => let to := match to with None => qu_unit q | Some u => u end in
                  match dget to t with
                  | None => UNone
                  | Some o => if eqb i 0 then UZeroDivision else UNum (o / i)
                  end
      end
  end.

(** The local unit of a flow, flows.py:83-110 ([set_local_unit]), 132-133 ([unset_local_unit]); flow = (reference quantity, local unit) *)
Definition set_local_unit (u : string) (q : quantity) (local : option string) : option string * option ures :=
  match uconvert None (Some u) q with
  | UNum _ => (Some u, None)
  | UNone => (local, None)
  | e => (local, Some e)
  end.
(** [mag], flows.py:112-120; [imag], 122-130: passes [fr=], which [convert] does not have. *)
Definition mag (amount : Qc) (q : quantity) (local : option string) : ures :=
  match local with
  | None => UNum amount
  | Some u => match uconvert None (Some u) q with UNum k => UNum (amount * k) | UNone => UTypeError | e => e end
  end.
Definition imag (amount : Qc) (q : quantity) (local : option string) : ures :=
  match local with None => UNum amount | Some _ => UTypeError end.

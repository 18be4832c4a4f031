(** Model of /repo/lcatools/characterizations.py (Characterization) and of the quantitative part of
    /repo/lcatools/entities/flows.py (LcFlow: reference quantity, characterizations, conversion). *)
From Verif Require Import Num Base PyStr.
Open Scope Qc_scope.
Open Scope string_scope.
Open Scope list_scope.

Inductive fexn := XDuplicate | XTypeError | XMissingFactor | XValueError | XDeleteReference | XKeyError | XIndexError
                | XZeroDivision | XAttributeError.

(** A quantity: the Python object (identity) and its uuid. Two objects may carry the same uuid. *)
Record qty := Qty { q_obj : nat; q_uuid : string }.

(** A factor value: a number or None. *)
Notation pyval := (option Qc).

(** Characterization (characterizations.py:6-34): quantity, [_locations], [_origins].  The flow is the one that holds it;
    [_natural_dirn] is not modelled. *)
Record char := Char { c_q : qty; c_locs : dict string pyval; c_orig : dict string (option string) }.

(** Characterization(flow, quantity), characterizations.py:14-34 (no keyword arguments) *)
Definition new_char (q : qty) : char := Char q [] [].

(** What indexing returns: a number or None, or (for two special names) an entity. *)
Inductive item := INum (v : Qc) | INone | IEntity.
Definition of_pyval (v : pyval) : item := match v with Some x => INum x | None => INone end.

(** [__getitem__], characterizations.py:80-91 *)
Definition char_get (loc : string) (c : char) : item :=
  if eqb loc "quantity" then IEntity
  else if eqb loc "flow" then IEntity
  else match dget loc (c_locs c) with
       | Some v => of_pyval v
       | None => match c_locs c with
                 | [] => INone
                 | _ => match dget "GLO" (c_locs c) with Some v => of_pyval v | None => INum 0 end
                 end
       end.

(** [__setitem__], characterizations.py:93-97: formatting the message with %g fails when the present value is None. *)
Definition char_set (loc : string) (v : pyval) (c : char) : char * option fexn :=
  match dget loc (c_locs c) with
  | Some (Some _) => (c, Some XDuplicate)
  | Some None => (c, Some XTypeError)
  | None => (Char (c_q c) (dset loc v (c_locs c)) (c_orig c), None)
  end.

(** [update_values], characterizations.py:99-100; [value] setter, 76-78 *)
Definition char_update (l : list (string * pyval)) (c : char) : char :=
  Char (c_q c) (fold_left (fun d p => dset (fst p) (snd p) d) l (c_locs c)) (c_orig c).
Definition char_set_value (v : pyval) (c : char) : char := Char (c_q c) (dset "GLO" v (c_locs c)) (c_orig c).

(** [add_value], characterizations.py:102-109 *)
Definition add_value (v : pyval) (loc : option string) (org : option string) (overwrite : bool) (c : char) : char * option fexn :=
  let l := match loc with None => "GLO" | Some l => l end in
  let c1 := if overwrite then Char (c_q c) (ddel l (c_locs c)) (c_orig c) else c in
  match char_set l v c1 with
  | (c2, None) => (Char (c_q c2) (c_locs c2) (dset l org (c_orig c2)), None)
  | (c2, Some e) => (c2, Some e)
  end.

(** [scale], characterizations.py:111-113: in insertion order, stopping at the first None ([None * factor]: TypeError). *)
Fixpoint scale_locs (k : Qc) (d : dict string pyval) : dict string pyval * option fexn :=
  match d with
  | [] => ([], None)
  | (l, Some v) :: r => let '(r', e) := scale_locs k r in ((l, Some (v * k)) :: r', e)
  | (l, None) :: r => ((l, None) :: r, Some XTypeError)
  end.
Definition scale (k : Qc) (c : char) : char * option fexn :=
  let '(d, e) := scale_locs k (c_locs c) in (Char (c_q c) d (c_orig c), e).

(** [locations], characterizations.py:115-116; [is_null], 61-63 *)
Definition locations (c : char) : list string := dkeys (c_locs c).
Definition is_null (c : char) : bool := match c_locs c with [] => true | _ => false end.

(** ** Flows *)

(** LcFlow (flows.py:18-51): reference quantity, characterizations by quantity uuid, and whether [str(flow)] works:
    [__str__] (145-152) takes the last item of the compartment, which raises IndexError while the compartment is empty
    (the default ''). *)
Record flow := Flow { f_ref : option qty; f_chars : dict string char; f_comp : bool }.

(** Scaling every characterization (flows.py:73-74), stopping at the first failure. *)
Fixpoint scale_all (k : Qc) (d : dict string char) : dict string char * option fexn :=
  match d with
  | [] => ([], None)
  | (u, c) :: r => match scale k c with
                   | (c', None) => let '(r', e) := scale_all k r in ((u, c') :: r', e)
                   | (c', Some e) => ((u, c') :: r, Some e)
                   end
  end.

(** [cf], flows.py:236-249 (indexing a characterization never raises KeyError) *)
Definition cf (q : qty) (loc : string) (f : flow) : item :=
  match dget (q_uuid q) (f_chars f) with Some c => char_get loc c | None => INum 0 end.

(** [_set_reference], flows.py:61-75, with entities.py:190-197; the argument is a quantity.  The messages printed before a
    change contain [str(self)]. *)
Definition set_reference (q : qty) (f : flow) : flow * option fexn :=
  match f_ref f with
  | None => (Flow (Some q) (f_chars f) (f_comp f), None)
  | Some r =>
      if eqb (q_uuid r) (q_uuid q) then (f, None)
      else if negb (f_comp f) then (f, Some XIndexError)
      else match cf q "GLO" f with
           | INum inc =>
               if eqb inc 0 then (f, Some XMissingFactor)
               else match scale_all (1 / inc) (f_chars f) with
                    | (d, None) => (Flow (Some q) d (f_comp f), None)
                    | (d, Some e) => (Flow (f_ref f) d (f_comp f), Some e)
                    end
           | INone => (f, Some XMissingFactor)
           | IEntity => (f, Some XTypeError)
           end
  end.

(** The [value] argument of [add_characterization]: absent, a number, or a dict of locations. *)
Inductive vspec := VNone | VNum (v : Qc) | VDict (l : list (string * pyval)).

(** [add_characterization], flows.py:162-206 *)
Definition add_characterization (q : qty) (reference : bool) (value : vspec) (overwrite : bool) (loc org : option string)
    (f : flow) : flow * option fexn :=
  let step (value : vspec) (f : flow) :=
    match dget (q_uuid q) (f_chars f), value with
    | Some c, VNone => (f, None)
    | None, VNone => (Flow (f_ref f) (dset (q_uuid q) (new_char q) (f_chars f)) (f_comp f), None)
    | oc, VDict l =>
        let c := match oc with Some c => c | None => new_char q end in
        (Flow (f_ref f) (dset (q_uuid q) (char_update l c) (f_chars f)) (f_comp f), None)
    | oc, VNum v =>
        let c := match oc with Some c => c | None => new_char q end in
        let '(c', e) := add_value (Some v) loc org overwrite c in
        (Flow (f_ref f) (dset (q_uuid q) c' (f_chars f)) (f_comp f), e)
    end in
  if reference then
    match value with
    | VDict _ => (f, Some XValueError)
    | VNum v => if eqb v 1 then
                  match set_reference q f with (f', None) => step (VNum 1) f' | (f', Some e) => (f', Some e) end
                else (f, Some XValueError)
    | VNone => match set_reference q f with (f', None) => step (VNum 1) f' | (f', Some e) => (f', Some e) end
    end
  else step value f.

(** [__init__], flows.py:32-51: with a reference quantity, which gets the factor 1 *)
Definition new_flow (q : option qty) (comp : bool) : flow :=
  match q with
  | None => Flow None [] comp
  | Some q => fst (add_characterization q true VNone false None None (Flow (Some q) [] comp))
  end.

(** [has_characterization], flows.py:208-220 *)
Definition has_characterization (q : qty) (loc : option string) (f : flow) : bool :=
  match dget (q_uuid q) (f_chars f) with
  | None => false
  | Some c => match loc with None => true | Some l => if eqb l "GLO" then true else din l (c_locs c) end
  end.

(** [del_characterization], flows.py:222-225: the test is object identity *)
Definition del_characterization (q : qty) (f : flow) : flow * option fexn :=
  match f_ref f with
  | Some r => if eqb (q_obj q) (q_obj r) then (f, Some XDeleteReference)
              else if din (q_uuid q) (f_chars f) then (Flow (f_ref f) (ddel (q_uuid q) (f_chars f)) (f_comp f), None)
              else (f, Some XKeyError)
  | None => if din (q_uuid q) (f_chars f) then (Flow (f_ref f) (ddel (q_uuid q) (f_chars f)) (f_comp f), None)
            else (f, Some XKeyError)
  end.

(** Arithmetic on what [cf] returns: [val * out / inn] (flows.py:263), left to right. *)
Inductive cres := CNum (v : Qc) | CErr (e : fexn).
Definition ratio (val : Qc) (out inn : item) : cres :=
  match out, inn with
  | INum o, INum i => if eqb i 0 then CErr XZeroDivision else CNum (val * o / i)
  | _, _ => CErr XTypeError
  end.

(** [convert], flows.py:251-263: an absent quantity is the reference (AttributeError when there is none) *)
Definition or_ref (q : option qty) (f : flow) : option qty := match q with Some q => Some q | None => f_ref f end.
Definition convert (val : Qc) (to fr : option qty) (loc : string) (f : flow) : cres :=
  match or_ref to f, or_ref fr f with
  | Some t, Some r => ratio val (cf t loc f) (cf r loc f)
  | _, _ => CErr XAttributeError
  end.

(** [merge], flows.py:265-270, as far as the characterizations go: the first missing one is passed as the quantity, and a
    Characterization has no uuid. *)
Definition merge_chars (f other : flow) : flow * option fexn :=
  if forallb (fun u => din u (f_chars f)) (dkeys (f_chars other)) then (f, None) else (f, Some XAttributeError).

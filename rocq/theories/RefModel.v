(** Model of /repo/lcatools/entity_refs/base.py (BaseRef, EntityRef: properties), /repo/lcatools/entity_refs/flow_ref.py (FlowRef: factors),
    /repo/lcatools/entity_refs/process_ref.py (ProcessRef: reference exchanges), [make_ref] of /repo/lcatools/entities/entities.py:68-79 and
    /repo/lcatools/entities/fragments.py:197-200, and the [get_item] query (catalog_query.py:99-107, implementations/basic.py:42-46).

    Simplifications: property values are None, strings or other objects; one interface of an origin either holds the entity, or is a static archive that
    gives None for it, or raises EntityNotFound; the external_ref is fixed; printing is not modelled. *)
From Coq Require Import String List.
From Verif Require Import Num Base PyStr LowerModel FlowModel ProcModel ConfModel InvModel.
Open Scope nat_scope.
Open Scope string_scope.
Open Scope list_scope.

Inductive pv := PNone | PStr (s : string) | PObj (n : nat).
Inductive rexn := RKeyError | RNotFound | RAttribute.

(** * Properties *)
(** what an interface of the origin holds under the external_ref, [_fetch], basic.py:62-67 *)
Inductive holds := HEntity (d : ldict pv) | HNothing | HRaises.
(** [get_item], implementations/basic.py:42-46 *)
Definition impl_get_item (h : holds) (k : string) : pv + rexn :=
  match h with
  | HRaises => inr RNotFound
  | HNothing => inr RKeyError
  | HEntity d => match LowerModel.getitem k d with Some v => inl v | None => inr RKeyError end
  end.
(** [_perform_query], abstract_query.py:50-64, for [get_item] (catalog_query.py:99-107, basic_query.py:25-33): EntityNotFound and None go on to the next
    interface, any other exception ends the query *)
Fixpoint query_get_item (l : list holds) (k : string) : pv + rexn :=
  match l with
  | [] => inr RNotFound
  | h :: r => match impl_get_item h k with
              | inr RNotFound => query_get_item r k
              | inr e => inr e
              | inl PNone => query_get_item r k
              | inl v => inl v
              end
  end.
(** the dictionary [_d] of a reference *)
Definition rdict := dict string pv.
(** [_localitem], base.py:79-84 *)
Definition localitem (r : rdict) (k : string) : pv :=
  match dget k r with
  | Some v => v
  | None => match dget ("local_" ++ k)%string r with Some v => v | None => PNone end
  end.
(** [has_property], base.py:94-95 *)
Definition has_property (r : rdict) (k : string) : bool := match localitem r k with PNone => false | _ => true end.
(** [__setitem__], base.py:97-101 *)
Definition set_prop (k : string) (v : pv) (r : rdict) : rdict :=
  let k := lower k in dset (if prefix "local_" k then k else ("local_" ++ k)%string) v r.
(** [EntityRef.get_item], base.py:294-320 *)
Definition get_item (l : list holds) (force : bool) (k : string) (r : rdict) : rdict * (pv + rexn) :=
  match (if force then PNone else localitem r k) with
  | PNone => match query_get_item l k with
             | inr RKeyError => (r, inl PNone)
             | inr e => (r, inr e)
             | inl PNone => (r, inl PNone)
             | inl (PStr EmptyString) => (r, inl PNone)
             | inl v => (dset k v r, inl v)
             end
  | v => (r, inl v)
  end.
(** [EntityRef.__getitem__], base.py:322-326 *)
Definition ref_getitem (l : list holds) (k : string) (r : rdict) : rdict * (pv + rexn) :=
  match get_item l false k r with (r', inl PNone) => (r', inr RKeyError) | x => x end.
(** the properties given to a new reference, entities.py:70-78; [sig] the signature fields without the reference field *)
Definition ref_props (sig : list string) (d : ldict pv) : rdict :=
  fold_left (fun r k => match LowerModel.getitem k d with Some v => dset k v r | None => r end) sig [].
(** [merge], base.py:143-156, of references that may be merged *)
Definition merge (r other : rdict) : rdict := fold_left (fun r kv => dset (fst kv) (snd kv) r) other r.

(** * References made from entities *)
(** [_query_ref] of an entity: the query of the first call, entities.py:51, 68-79; of a fragment, fragments.py:197-200 with FragmentRef.set_config,
    fragment_ref.py:22-27 *)
Definition make_ref (memo : option nat) (query : nat) : option nat * nat := match memo with Some q => (memo, q) | None => (Some query, query) end.
Definition fragment_make_ref (memo : option nat) (isset : bool) (query : nat) : (option nat * bool) * (nat + rexn) :=
  let '(m, q) := make_ref memo query in if isset then ((m, true), inr RAttribute) else ((m, true), inl q).

(** * Factors of a flow reference *)
(** [FlowRef]: characterizations by the quantity's uuid, [_cfs_fetched], flow_ref.py:19-23 *)
Record fref := FRf { r_chars : dict string char; r_fetched : bool }.
(** [add_characterization], flow_ref.py:57-72 *)
Definition ref_add_char (q : qty) (value : vspec) (loc : option string) (overwrite : bool) (r : fref) : fref * option fexn :=
  match dget (q_uuid q) (r_chars r), value with
  | Some _, VNone => (r, None)
  | None, VNone => (FRf (dset (q_uuid q) (new_char q) (r_chars r)) (r_fetched r), None)
  | oc, VDict l => (FRf (dset (q_uuid q) (char_update l (match oc with Some c => c | None => new_char q end)) (r_chars r)) (r_fetched r), None)
  | oc, VNum v => let '(c, e) := add_value (Some v) loc None overwrite (match oc with Some c => c | None => new_char q end) in
                  (FRf (dset (q_uuid q) c (r_chars r)) (r_fetched r), e)
  end.
(** [FlowRef.__init__], 19-23 *)
Definition new_fref (q : qty) : fref := fst (ref_add_char q (VNum 1%Qc) None false (FRf [] false)).
(** the query [cf], iquantity.py:79-90 and implementations/quantity.py:140-149: the flow of the archive is asked; None (no quantity interface, or no value) is QuantityRequired *)
Definition query_cf (src : option flow) (q : qty) (loc : string) : option item :=
  match src with
  | None => None
  | Some f => match FlowModel.cf q loc f with INone => None | v => Some v end
  end.
(** [cf], flow_ref.py:99-111 *)
Definition ref_cf (src : option flow) (q : qty) (loc : string) (r : fref) : fref * item :=
  match dget (q_uuid q) (r_chars r) with
  | Some c => (r, char_get loc c)
  | None => let v := match query_cf src q loc with Some (INum v) => v | _ => 0%Qc end in
            (fst (ref_add_char q (VNum v) (Some loc) false r), INum v)
  end.
(** [profile], flow_ref.py:118-147: the values of the source's characterizations are taken over for quantities not yet known *)
Definition take (c : char) (r : fref) : fref :=
  if din (q_uuid (c_q c)) (r_chars r) then r
  else fst (ref_add_char (c_q c) (VDict (map (fun l => (l, match dget l (c_locs c) with Some v => v | None => None end)) (locations c))) None false r).
Definition ref_profile (src : option flow) (r : fref) : fref :=
  if r_fetched r then r
  else match src with
       | None => r
       | Some f => let r := fold_left (fun r uc => take (snd uc) r) (f_chars f) r in FRf (r_chars r) true
       end.

(** * Reference exchanges of a process reference *)
(** the process, its references when the reference was made, the default *)
Record pref := PRf { pf_proc : nat; pf_refs : list key; pf_default : option nat }.
(** [ProcessRef.__init__], process_ref.py:14-24, with LcProcess._make_ref_ref, processes.py:201-202 *)
Definition new_pref (pr : nat) (p : proc) : pref := PRf pr (p_refs p) (match p_refs p with [k] => Some (k_flow k) | _ => None end).
(** what is given as a reference flow: nothing, an external_ref, a flow or an exchange *)
Inductive rarg := RNone | RStr (f : nat) | RFlow (f : nat) | RExch (k : key).
(** [default_rx] setter, 40-51 ([None] and other objects are no references) *)
Definition set_default (a : rarg) (r : pref) : pref :=
  let f := match a with RNone => None | RStr f => Some f | RFlow f => Some f | RExch k => Some (k_flow k) end in
  match f with
  | Some f => if mem f (map k_flow (pf_refs r)) then PRf (pf_proc r) (pf_refs r) (Some f) else r
  | None => r
  end.
(** [_use_ref_exch], 94-100: a string has no [entity_type].  The flow handed on, as a string or as an object *)
Inductive handed := HdNone | HdStr (f : nat) | HdFlow (f : nat).
Definition use_ref (r : pref) (a : rarg) : handed + rexn :=
  match a with
  | RNone => inl (match pf_default r with Some f => HdStr f | None => HdNone end)
  | RStr _ => inr RAttribute
  | RFlow f => inl (HdFlow f)
  | RExch k => inl (HdFlow (k_flow k))
  end.
Definition flow_of (h : handed) : option nat := match h with HdNone => None | HdStr f => Some f | HdFlow f => Some f end.
(** [lci], 181-183 and [foreground], 151-153, answered by the background interface of the archive (InvModel.v); [inventory], 114-116, does not use the default *)
Inductive qexn := QRef (e : rexn) | QArch (e : iexn).
Definition ask_ref {A} (q : nat -> option nat -> A + iexn) (r : pref) (a : rarg) : A + qexn :=
  match use_ref r a with
  | inr e => inr (QRef e)
  | inl h => match q (pf_proc r) (flow_of h) with inl x => inl x | inr e => inr (QArch e) end
  end.
Definition ref_lci (s : store) : pref -> rarg -> list (key * option Qc) + qexn := ask_ref (lci s).
Definition ref_foreground (s : store) : pref -> rarg -> key + qexn := ask_ref (foreground s).
(** [exchange_relation], 118-122: takes the external_ref of what [_use_ref_exch] gives *)
Definition ref_relation (s : store) (r : pref) (a : rarg) (f : nat) (d : dirn) (t : option string) : Qc + qexn :=
  match use_ref r a with
  | inr e => inr (QRef e)
  | inl (HdFlow rf) => match exchange_relation s (pf_proc r) (Some rf) f d t with inl x => inl x | inr e => inr (QArch e) end
  | inl _ => inr (QRef RAttribute)
  end.
(** [references], 70-79: by external_ref or by flow *)
Definition pf_references (r : pref) (a : option nat) : list key := filter (fun k => match a with None => true | Some f => Nat.eqb (k_flow k) f end) (pf_refs r).

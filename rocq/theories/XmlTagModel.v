(** Model of the search for tags in XML: /repo/antelope_catalog/providers/xml_widgets.py:15-39.  An element is its namespace,
    tag and text and its children.  Simplifications: no wildcard tags, no comments; a data type has no characters special to
    regular expressions and a namespace no newline. *)
From Coq Require Import String List Bool.
Import ListNotations.
Open Scope string_scope.
Open Scope list_scope.

Inductive el := El (ns tag text : string) (children : list el).
Definition kids (e : el) : list el := match e with El _ _ _ c => c end.
(** [e.iter()]: the element and all below it *)
Fixpoint iter (e : el) : list el := match e with El _ _ _ c => e :: flat_map iter c end.
Definition named (ns tag : string) (e : el) : bool := match e with El n t _ _ => String.eqb n ns && String.eqb t tag end.
Definition nsmap := list (option string * string).
Definition same_prefix (a b : option string) : bool :=
  match a, b with None, None => true | Some x, Some y => String.eqb x y | _, _ => false end.
(** [o.nsmap[ns]] *)
Definition ns_of (m : nsmap) (ns : option string) : option string :=
  match List.find (fun kv => same_prefix (fst kv) ns) m with Some kv => Some (snd kv) | None => None end.
(** [o.find('.//{ns}tag')], [o.findall]: what is below, not the element itself *)
Inductive found := Element (e : el) | EmptyText.
Inductive one := One (f : found) | OneKey.
Inductive many := Many (l : list found) | ManyKey.
(** [find_tag], lines 19-26 *)
Definition find_tag (m : nsmap) (o : el) (tag : string) (ns : option string) : one :=
  match ns_of m ns with
  | None => OneKey
  | Some u => One (match List.find (named u tag) (flat_map iter (kids o)) with Some e => Element e | None => EmptyText end)
  end.
(** [find_tags], lines 29-36 *)
Definition find_tags (m : nsmap) (o : el) (tag : string) (ns : option string) : many :=
  match ns_of m ns with
  | None => ManyKey
  | Some u => Many (match filter (named u tag) (flat_map iter (kids o)) with [] => [EmptyText] | l => map Element l end)
  end.
(** [find_common], line 38 *)
Definition find_common (m : nsmap) (o : el) (tag : string) : one := find_tag m o tag (Some "common").
(** [re.search(dtype + '$', v)]: from each position *)
Fixpoint ends (d v : string) : bool :=
  String.eqb d v || match v with String _ r => ends d r | EmptyString => false end.
(** [find_ns], lines 15-16; [None]: StopIteration *)
Definition find_ns (m : nsmap) (d : string) : option (option string) :=
  match List.find (fun kv => ends d (snd kv)) m with Some kv => Some (fst kv) | None => None end.

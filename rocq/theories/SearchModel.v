(** C115: searching an archive (lcatools/archives/basic_archive.py 288-334, entity_store.py 486-502, implementations/index.py 57-76). *)
From Coq Require Import String.
From Verif Require Import Base PyStr.
Open Scope string_scope.
Open Scope list_scope.

(** A property: None, a text, a list (or the keys of a dict), or a value that cannot be iterated, such as a number. *)
Inductive tag := TagNone | TagStr (s : string) | TagList (l : list tag) | TagNum.
(** An entity: uuid, type, and properties under their spelling in the LowerDict ([keys()] gives plain strings: lower_dict.py:64-65).
    No two property names differ in case only (C49). *)
Record sent := SEnt { se_id : string; se_type : string; se_props : dict string tag; se_lcia : bool }.
(** An archive: its entities in order of insertion, and the archive upstream. *)
Inductive sarch := SArch (ents : list sent) (up : option sarch).
Definition a_ents (a : sarch) : list sent := match a with SArch l _ => l end.
Definition a_up (a : sarch) : option sarch := match a with SArch _ u => u end.

Section Search.
(** [re.search(pattern, text, flags=re.IGNORECASE)]; None is an invalid pattern, which raises re.error *)
Variable rx : string -> string -> option bool.
(** [re.search(pattern, text)] of find_partial_id *)
Variable rx0 : string -> string -> option bool.

Inductive serr := STypeError | SReError.
Inductive sout (A : Type) := SOk (a : A) | SErr (e : serr).
Arguments SOk {A} a. Arguments SErr {A} e.

(** [' '.join] *)
Fixpoint joinsp (l : list string) : string :=
  match l with [] => "" | [a] => a | a :: r => a ++ " " ++ joinsp r end.
(** [_recurse_expand_subtag], basic_archive.py:296-302; iterating a number raises TypeError *)
Fixpoint expand (t : tag) : sout string :=
  match t with
  | TagNone => SOk ""
  | TagStr s => SOk s
  | TagNum => SErr STypeError
  | TagList l =>
      (fix all (l : list tag) (acc : list string) : sout string :=
         match l with
         | [] => SOk (joinsp (rev acc))
         | x :: r => match expand x with SOk s => all r (s :: acc) | SErr e => SErr e end
         end) l []
  end.
(** A keyword argument: a pattern or a list of patterns (307-308) *)
Definition kwargs := list (string * list string).
(** the inner loop, 309-310; [keep and ...] does not search once [keep] is False *)
Fixpoint pats_loop (keep : bool) (t : tag) (ps : list string) : sout bool :=
  match ps with
  | [] => SOk keep
  | p :: r => if keep then
                match expand t with
                | SErr e => SErr e
                | SOk s => match rx p s with None => SErr SReError | Some b => pats_loop b t r end
                end
              else pats_loop false t r
  end.
(** [_narrow_search], 288-311: an entity without the property is left out at once *)
Fixpoint narrow (keep : bool) (e : sent) (kw : kwargs) : sout bool :=
  match kw with
  | [] => SOk keep
  | (k, ps) :: r => match dget k (se_props e) with
                    | None => SOk false
                    | Some t => match pats_loop keep t ps with SErr x => SErr x | SOk b => narrow b e r end
                    end
  end.
(** A generator: what it yields, and the exception that ends it *)
Fixpoint yield_matching (kw : kwargs) (es : list sent) : list sent * option serr :=
  match es with
  | [] => ([], None)
  | e :: r => match narrow true e kw with
              | SErr x => ([], Some x)
              | SOk b => let '(l, x) := yield_matching kw r in (if b then e :: l else l, x)
              end
  end.
(** [entities_by_type], entity_store.py:579-581: in order of the uuids *)
Fixpoint id_insert (e : sent) (l : list sent) : list sent :=
  match l with [] => [e] | b :: r => if String.leb (se_id e) (se_id b) then e :: l else b :: id_insert e r end.
Definition by_type (a : sarch) (t : string) : list sent := fold_right id_insert [] (filter (fun e => String.eqb (se_type e) t) (a_ents a)).
(** [search], basic_archive.py:313-334.  [etype] is the positional argument, [entity_type] the keyword (popped only if there is no
    positional one; otherwise it stays among the properties).  Line 334 creates a generator for the upstream archive and drops it. *)
Definition search (a : sarch) (etype : option string) (upstream : bool) (entity_type : option string) (kw : kwargs) : list sent * option serr :=
  match etype, entity_type with
  | Some t, None => yield_matching kw (by_type a t)
  | Some t, Some t' => yield_matching (kw ++ [("entity_type", [t'])]) (by_type a t)
  | None, Some t => yield_matching kw (by_type a t)
  | None, None => yield_matching kw (a_ents a)
  end.
(** [find_partial_id], entity_store.py:486-502: result sets are lists; upstream results follow *)
Fixpoint starts (p s : string) : bool :=
  match p, s with
  | EmptyString, _ => true
  | String a p', String b s' => Ascii.eqb a b && starts p' s'
  | _, EmptyString => false
  end.
Fixpoint partial_id (a : sarch) (uid : string) (upstream startswith : bool) : list sent :=
  match a with
  | SArch l u =>
      filter (fun e => if startswith then starts uid (se_id e) else match rx0 uid (se_id e) with Some b => b | None => false end) l
      ++ (if upstream then match u with Some b => partial_id b uid upstream startswith | None => [] end else [])
  end.
(** [processes], [flows], [quantities] and [lcia_methods] of the index, index.py:60-76 *)
Definition index_search (a : sarch) (t : string) (kw : kwargs) : list sent * option serr := search a (Some t) false None kw.
Definition lcia_methods (a : sarch) (kw : kwargs) : list sent * option serr :=
  let '(l, x) := search a (Some "quantity") false None kw in (filter se_lcia l, x).
(** [count], index.py:57-58 and entity_store.py:583-584 *)
Definition count (a : sarch) (t : string) : nat := length (by_type a t).
End Search.

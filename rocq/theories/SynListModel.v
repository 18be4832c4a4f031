(** Model of /repo/synlist/synlist.py, class SynList. *)
From Verif Require Import Base PyStr.
Open Scope string_scope.
Open Scope nat_scope.
Open Scope list_scope.

(** What a caller may pass where the code expects a "term": [None], a string, or an [int] index
    (synlist.py:109-116 tests [term is None] and [isinstance(term, int)]).
    Simplification: negative ints are not modelled. *)
Inductive term := TNone | TStr (s : string) | TInt (n : nat).

Definition term_eqb (a b : term) : bool :=
  match a, b with
  | TNone, TNone => true | TStr s, TStr t => String.eqb s t | TInt n, TInt m => Nat.eqb n m | _, _ => false
  end.
Lemma term_eqb_spec a b : reflect (a = b) (term_eqb a b).
Proof.
  destruct a as [|s|n], b as [|t|m]; cbn; try (constructor; congruence).
  - destruct (String.eqb_spec s t); constructor; congruence.
  - destruct (Nat.eqb_spec n m); constructor; congruence.
Qed.
#[export] Instance EqB_term : EqB term := {| eqb_spec := term_eqb_spec |}.

(** Exceptions the modelled methods can raise. *)
Inductive exn := KeyError | IndexError | AttributeError | TypeError | TermFound | InconsistentIndices
               | EntityFound | CannotSplitName.

(** Result of a call: a returned value or an exception. *)
Inductive res (A : Type) := Ok (a : A) | Err (e : exn).
Arguments Ok {A} _. Arguments Err {A} _.

(** One position of the three parallel lists [_name], [_entity], [_list] (synlist.py:59-64; [new_item] 76-81 appends to
    all three at once, nothing ever removes a position, so one list of records is the same state).
    [syns = None] is Python's [_list[i] = None] (a merged-away item). Entities are opaque tokens. *)
Record item := Item { i_name : option string; i_entity : option nat; i_syns : option (list string) }.

(** [__init__], synlist.py:59-64 *)
Record synlist := SL { s_ic : bool; s_items : list item; s_dict : dict string nat }.
Definition empty (ic : bool) : synlist := SL ic [] [].

(** [_sanitize], synlist.py:90-94 *)
Definition sanitize (s : synlist) (key : string) : string :=
  let key := strip key in if s_ic s then lower key else key.

Definition set_items (s : synlist) (l : list item) : synlist := SL (s_ic s) l (s_dict s).
Definition set_dict (s : synlist) (d : dict string nat) : synlist := SL (s_ic s) (s_items s) d.
Definition with_name (n : option string) (it : item) : item := Item n (i_entity it) (i_syns it).
Definition with_entity (e : option nat) (it : item) : item := Item (i_name it) e (i_syns it).
Definition with_syns (x : option (list string)) (it : item) : item := Item (i_name it) (i_entity it) x.

(** [_get_index], synlist.py:109-116 *)
Definition get_index (s : synlist) (t : term) : res nat :=
  match t with
  | TNone => Err KeyError
  | TInt n => if n <? length (s_items s) then Ok n else Err IndexError
  | TStr k => match dget (sanitize s k) (s_dict s) with Some i => Ok i | None => Err KeyError end
  end.

(** [_known] / [index], synlist.py:301-308, 118-124: KeyError becomes None, IndexError propagates. *)
Definition index (s : synlist) (t : term) : res (option nat) :=
  match get_index s t with Ok i => Ok (Some i) | Err KeyError => Ok None | Err e => Err e end.

(** [new_item], synlist.py:76-81 *)
Definition new_item (s : synlist) (entity : option nat) : synlist * nat :=
  (set_items s (s_items s ++ [Item None entity (Some [])]), length (s_items s)).

(** [_new_term], synlist.py:96-107.  Order of effects as in the code: the term is put in the set first.
    A position whose set is None raises AttributeError ('NoneType' has no attribute 'add'); a position out of range
    raises IndexError; an int term raises AttributeError from [.strip()]. *)
Definition new_term (s : synlist) (t : term) (i : nat) : synlist * res unit :=
  match t with
  | TNone => (s, Ok tt)
  | TStr "" => (s, Ok tt)
  | TInt _ => (s, Err AttributeError)
  | TStr k =>
      let key := sanitize s k in
      match nth_error (s_items s) i with
      | None => (s, Err IndexError)
      | Some it =>
          match i_syns it with
          | None => (s, Err AttributeError)
          | Some ts =>
              let s1 := set_items s (upd i (with_syns (Some (set_add k ts))) (s_items s)) in
              match dget key (s_dict s1) with
              | Some j => if Nat.eqb j i then (s1, Ok tt) else (s1, Err TermFound)
              | None =>
                  let s2 := set_dict s1 (dset key i (s_dict s1)) in
                  (match i_name it with
                   | None => set_items s2 (upd i (with_name (Some k)) (s_items s2))
                   | Some _ => s2
                   end, Ok tt)
              end
          end
      end
  end.

(** [add_term], synlist.py:141-152 *)
Definition add_term (s : synlist) (t : term) : synlist * res nat :=
  match get_index s t with
  | Ok i => (s, Ok i)
  | Err KeyError =>
      let '(s1, i) := new_item s None in
      match new_term s1 t i with
      | (s2, Ok _) => (s2, Ok i)
      | (s2, Err e) => (s2, Err e)
      end
  | Err e => (s, Err e)
  end.

(** [find_indices], synlist.py:154-167, as the pair (distinct indices found, set of terms under the None key).
    Simplification: the sets of known terms under each index are not kept (no caller in this class reads them). *)
Fixpoint find_indices (s : synlist) (it : list term) (found : list nat) (un : list term) : res (list nat * list term) :=
  match it with
  | [] => Ok (found, un)
  | t :: r =>
      match get_index s t with
      | Ok i => find_indices s r (set_add i found) un
      | Err KeyError => find_indices s r found (set_add t un)
      | Err e => Err e
      end
  end.

(** [_merge_set_with_index], synlist.py:169-171 *)
Fixpoint merge_set_with_index (s : synlist) (it : list term) (i : nat) : synlist * res unit :=
  match it with
  | [] => (s, Ok tt)
  | t :: r => match new_term s t i with
              | (s1, Ok _) => merge_set_with_index s1 r i
              | (s1, Err e) => (s1, Err e)
              end
  end.

(** the filtering loop of [_new_set], synlist.py:173-189 *)
Fixpoint unmatched_of (s : synlist) (it : list term) : res (list term) :=
  match it with
  | [] => Ok []
  | t :: r => match get_index s t with
              | Ok _ => unmatched_of s r
              | Err KeyError => match unmatched_of s r with Ok u => Ok (t :: u) | Err e => Err e end
              | Err e => Err e
              end
  end.

(** [_new_set], synlist.py:173-189 *)
Definition new_set (s : synlist) (it : list term) : synlist * res (option nat) :=
  match unmatched_of s it with
  | Err e => (s, Err e)
  | Ok [] => (s, Ok None)
  | Ok u => let '(s1, i) := new_item s None in
            match merge_set_with_index s1 u i with
            | (s2, Ok _) => (s2, Ok (Some i))
            | (s2, Err e) => (s2, Err e)
            end
  end.

(** [add_set], synlist.py:191-220.  [ord] is the iteration order of the Python set [unmatched]. *)
Definition add_set (ord : list term -> list term) (s : synlist) (it : list term) (merge : bool)
  : synlist * res (option nat) :=
  match find_indices s it [] [] with
  | Err e => (s, Err e)
  | Ok (found, un) =>
      match found, merge with
      | [], _ | _, false => new_set s (ord un)
      | [i], true => match merge_set_with_index s (ord un) i with
                     | (s1, Ok _) => (s1, Ok (Some i))
                     | (s1, Err e) => (s1, Err e)
                     end
      | _, true => (s, Err InconsistentIndices)
      end
  end.
(** [add_synonyms], synlist.py:261-262 *)
Definition add_synonyms ord s it := add_set ord s it true.
(** [add_synonym], synlist.py:252-259 *)
Definition add_synonym (s : synlist) (i : nat) (t : term) : synlist * res unit := new_term s t i.

(** [set_name], synlist.py:222-230, for a string argument. *)
Definition set_name (s : synlist) (name : string) : synlist * res nat :=
  match get_index s (TStr name) with
  | Ok i => (set_items s (upd i (with_name (Some name)) (s_items s)), Ok i)
  | Err e => (s, Err e)
  end.

(** [set_entity], synlist.py:66-71 *)
Definition set_entity (s : synlist) (t : term) (e : option nat) : synlist * res unit :=
  match get_index s t with
  | Err x => (s, Err x)
  | Ok i => match nth_error (s_items s) i with
            | None => (s, Err IndexError)
            | Some it => match i_entity it, e with
                         | Some _, Some _ => (s, Err EntityFound)
                         | _, _ => (set_items s (upd i (with_entity e) (s_items s)), Ok tt)
                         end
            end
  end.

(** the re-keying loop of [_merge], synlist.py:232-238 *)
Fixpoint rekey (s : synlist) (ts : list string) (i : nat) (d : dict string nat) : dict string nat :=
  match ts with [] => d | t :: r => rekey s r i (dset (sanitize s t) i d) end.

(** [_merge], synlist.py:232-238.  [self._list[into].union(self._list[merge])]: AttributeError when the target is None,
    TypeError when the merged one is None.  With [merge = into] the item ends as None. *)
Definition merge1 (s : synlist) (m into : nat) : synlist * res unit :=
  match nth_error (s_items s) into, nth_error (s_items s) m with
  | Some ti, Some mi =>
      match i_syns ti, i_syns mi with
      | None, _ => (s, Err AttributeError)
      | _, None => (s, Err TypeError)
      | Some a, Some b =>
          let u := set_union a b in
          let s1 := set_items s (upd into (with_syns (Some u)) (s_items s)) in
          let s2 := set_dict s1 (rekey s1 u into (s_dict s1)) in
          (set_items s2 (upd m (fun it => Item None (i_entity it) None) (s_items s2)), Ok tt)
      end
  | _, _ => (s, Err IndexError)
  end.
Fixpoint merge_all (s : synlist) (ms : list nat) (into : nat) : synlist * res unit :=
  match ms with
  | [] => (s, Ok tt)
  | m :: r => match merge1 s m into with
              | (s1, Ok _) => merge_all s1 r into
              | (s1, Err e) => (s1, Err e)
              end
  end.
Fixpoint indices_of (s : synlist) (ts : list term) : res (list nat) :=
  match ts with
  | [] => Ok []
  | t :: r => match get_index s t with
              | Err e => Err e
              | Ok i => match indices_of s r with Ok l => Ok (i :: l) | Err e => Err e end
              end
  end.
(** [merge], synlist.py:240-250.  [ordn] is the iteration order of the set of indices. *)
Definition merge (ordn : list nat -> list nat) (s : synlist) (d : term) (ts : list term) : synlist * res unit :=
  match get_index s d with
  | Err e => (s, Err e)
  | Ok into => match indices_of s ts with
               | Err e => (s, Err e)
               | Ok l => merge_all s (ordn (set_of l)) into
               end
  end.

(** [synonym_set], synlist.py:332-338 (IndexError = None, a merged-away item = Some None). *)
Definition synonym_set (s : synlist) (i : nat) : option (option (list string)) :=
  option_map i_syns (nth_error (s_items s) i).
(** [name(i)] for an index *)
Definition item_name (s : synlist) (i : nat) : option string :=
  match nth_error (s_items s) i with Some it => i_name it | None => None end.
(** [entity(i)] for an index *)
Definition item_entity (s : synlist) (i : nat) : option nat :=
  match nth_error (s_items s) i with Some it => i_entity it | None => None end.
(** [all_terms], synlist.py:126-131 *)
Definition all_terms (s : synlist) : list string := dkeys (s_dict s).

(** [are_synonyms], synlist.py:316-318, on two string terms ([_known] cannot raise on those). *)
Definition are_synonyms (s : synlist) (a b : string) : bool :=
  match dget (sanitize s a) (s_dict s), dget (sanitize s b) (s_dict s) with
  | Some i, Some j => Nat.eqb i j
  | _, _ => false
  end.

(** [_matches], synlist.py:264-280, for a string term. *)
Definition matches (s : synlist) (t : string) : res (nat * list string) :=
  match get_index s (TStr t) with
  | Err e => Err e
  | Ok i => match synonym_set s i with
            | Some (Some ts) =>
                let m := filter (fun k => String.eqb (sanitize s k) (sanitize s t)) ts in
                match item_name s i with
                | Some n => if mem n m then Err CannotSplitName else Ok (i, m)
                | None => Ok (i, m)
                end
            | Some None => Err TypeError   (* for k in None *)
            | None => Err IndexError
            end
  end.
(** [split_term], synlist.py:282-299 (method body) *)
Definition split_term (s : synlist) (t : string) : synlist * res (option nat) :=
  match matches s t with
  | Err e => (s, Err e)
  | Ok (i, m) =>
      let s1 := set_items s (upd i (fun it => with_syns (option_map (fun ts => filter (fun k => negb (mem k m)) ts) (i_syns it)) it) (s_items s)) in
      match new_set s1 (map TStr m) with
      | (s2, Err e) => (s2, Err e)
      | (s2, Ok r) => match set_name s2 t with
                      | (s3, Ok _) => (s3, Ok r)
                      | (s3, Err e) => (s3, Err e)
                      end
      end
  end.

(** [_serialize_set]/[serialize], synlist.py:343-345, 347-353: live items in order, (name, synonyms). *)
Fixpoint serialize_items (l : list item) : list (option string * list string) :=
  match l with
  | [] => []
  | it :: r => match i_syns it with Some ts => (i_name it, ts) :: serialize_items r | None => serialize_items r end
  end.
Record json := Json { j_ic : bool; j_sets : list (option string * list string) }.
Definition serialize (s : synlist) : json := Json (s_ic s) (serialize_items (s_items s)).

(** [from_json], synlist.py:46-57.  A null name makes [set_name(None)] raise KeyError. *)
Fixpoint load_sets (ord : list term -> list term) (s : synlist) (js : list (option string * list string)) : synlist * res unit :=
  match js with
  | [] => (s, Ok tt)
  | (n, ts) :: r =>
      match add_set ord s (map TStr ts ++ [match n with Some k => TStr k | None => TNone end]) false with
      | (s1, Err e) => (s1, Err e)
      | (s1, Ok _) =>
          match n with
          | None => (s1, Err KeyError)
          | Some k => match set_name s1 k with
                      | (s2, Err e) => (s2, Err e)
                      | (s2, Ok _) => load_sets ord s2 r
                      end
          end
      end
  end.
Definition from_json (ord : list term -> list term) (j : json) : synlist * res unit := load_sets ord (empty (j_ic j)) (j_sets j).

(** The mutating public methods as operations. *)
Inductive op :=
| OAddTerm (t : term)
| OAddSet (ord : list term -> list term) (it : list term) (mrg : bool)
| OAddSynonym (i : nat) (t : term)
| OSetName (n : string)
| OSetEntity (t : term) (e : option nat)
| OMerge (ordn : list nat -> list nat) (d : term) (ts : list term).

Inductive out := Returned | Raised (e : exn).
Definition out_of {A} (r : res A) : out := match r with Ok _ => Returned | Err e => Raised e end.
Definition step (s : synlist) (o : op) : synlist * out :=
  match o with
  | OAddTerm t => let '(s', r) := add_term s t in (s', out_of r)
  | OAddSet ord it m => let '(s', r) := add_set ord s it m in (s', out_of r)
  | OAddSynonym i t => let '(s', r) := add_synonym s i t in (s', out_of r)
  | OSetName n => let '(s', r) := set_name s n in (s', out_of r)
  | OSetEntity t e => let '(s', r) := set_entity s t e in (s', out_of r)
  | OMerge ordn d ts => let '(s', r) := merge ordn s d ts in (s', out_of r)
  end.

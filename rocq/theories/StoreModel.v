(** Model of /repo/lcatools/archives/entity_store.py (class EntityStore: adding, indexing, retrieving entities, and the
    registry that maps semantic references to data sources) and of [local_ref] in /repo/lcatools/interfaces/__init__.py. *)
From Coq Require Import ZArith.
From Verif Require Import Base PyStr.
Open Scope string_scope.
Open Scope nat_scope.
Open Scope list_scope.

Inductive sexn := SKeyError | STypeError | SValueError | SAssertion | SInvalidRef | SSourceKnown | SIndexError
                | SAttributeError | SPropertyExists.
Inductive sres (A : Type) := SOk (a : A) | SErr (e : sexn).
Arguments SOk {A} _. Arguments SErr {A} _.

(** ** [local_ref], interfaces/__init__.py:48-68 *)

(** [str.translate(str.maketrans('/\\', '..', ':~'))], line 61 *)
Fixpoint translate (s : string) : string :=
  match s with
  | EmptyString => EmptyString
  | String c r =>
      if Ascii.eqb c "/" || Ascii.eqb c "\" then String "." (translate r)
      else if Ascii.eqb c ":" || Ascii.eqb c "~" then translate r
      else String c (translate r)
  end.

(** The part of [s] from its last '.' on, with the part before it; [None] when there is no '.'. *)
Fixpoint split_last_dot (s : string) : option (string * string) :=
  match s with
  | EmptyString => None
  | String c r => match split_last_dot r with
                  | Some (a, b) => Some (String c a, b)
                  | None => if Ascii.eqb c "." then Some (EmptyString, s) else None
                  end
  end.
Fixpoint all_dots (s : string) : bool :=
  match s with EmptyString => true | String c r => Ascii.eqb c "." && all_dots r end.
(** [os.path.splitext] on a string without path separators (posixpath: leading dots do not start an extension). *)
Definition splitext (s : string) : string * string :=
  match split_last_dot s with
  | Some (a, b) => if all_dots a then (s, EmptyString) else (a, b)
  | None => (s, EmptyString)
  end.

Definition known_exts : list string := [".gz"; ".json"; ".zip"; ".txt"; ".spold"; ".7z"].
(** The loop of lines 62-63; every turn shortens the string, so [fuel = length s] never runs out
    (theorem [strip_exts_exact] in StoreProps.v). *)
Fixpoint strip_exts (fuel : nat) (s : string) : string :=
  match fuel with
  | 0 => s
  | S n => if mem (snd (splitext s)) known_exts then strip_exts n (fst (splitext s)) else s
  end.

(** Lines 64-65: [xf[0]] raises IndexError on the empty string. *)
Fixpoint lstrip_dots (s : string) : option string :=
  match s with
  | EmptyString => None
  | String c r => if Ascii.eqb c "." then lstrip_dots r else Some s
  end.
(** Lines 66-67 (after lines 64-65 the string has a character that is not '.', so this loop cannot raise). *)
Fixpoint rstrip_dots (s : string) : string :=
  match s with
  | EmptyString => EmptyString
  | String c r => match rstrip_dots r with
                  | EmptyString => if Ascii.eqb c "." then EmptyString else String c EmptyString
                  | r' => String c r'
                  end
  end.
(** [local_ref(source)]: [None.translate] raises AttributeError, a source made of dots only raises IndexError. *)
Definition local_ref (source : option string) : sres string :=
  match source with
  | None => SErr SAttributeError
  | Some s =>
      let xf := translate s in
      match lstrip_dots (strip_exts (String.length xf) xf) with
      | None => SErr SIndexError
      | Some y => SOk ("local." ++ rstrip_dots y)%string
      end
  end.

(** [ref_regex.match(ref)], entity_store.py:25 and 226: [match] only anchors the start, so any string that begins with
    a letter, digit or underscore is accepted. *)
Definition word_char (c : ascii) : bool :=
  let n := nat_of_ascii c in
  ((48 <=? n) && (n <=? 57)) || ((65 <=? n) && (n <=? 90)) || ((97 <=? n) && (n <=? 122)) || (n =? 95).
Definition valid_ref (ref : string) : bool :=
  match ref with String c _ => word_char c | EmptyString => false end.

(** ** Entities and archives *)

(** What an archive looks at in an entity (entities.py:34-62): UUID, type, origin (set once, 84-86 and 117-122),
    external reference, and the outcome of [validate()]. *)
Record ent := Ent { e_uuid : string; e_type : string; e_origin : option string; e_ext : string; e_valid : bool }.
(** Entities are Python objects shared between archives: a heap indexed by object identity. *)
Definition heap := list ent.

(** The argument of a lookup: None, an int, or a string (entity_store.py:433-456). *)
Inductive key := KNone | KInt (n : Z) | KStr (s : string).

Definition names_t := dict string (list (option string)).

(** An [EntityStore] (entity_store.py:125-213) without its upstream.  [s_keyid] is [_key_to_id] (76-99: a UUID found in
    the argument, else the UUID3 of the argument in the archive's namespace, else None), a fixed function of the
    archive because its namespace never changes; for an int the branch [_key_to_nsuuid] of [__getitem__] gives the same
    answer, because [to_uuid] of an int is None.  Subclasses override it, so it is left arbitrary.
    [s_dref] is the entry 'dataReference' of the serialisation dictionary (211), set once at construction.
    Not modelled: printing, the other serialised arguments, [_loaded], [_static]. *)
Record store := Store { s_dref : string; s_source : option string; s_names : names_t; s_types : list string; s_keyid : key -> option string;
                        s_ents : dict (option string) nat; s_counter : dict string nat;
                        s_bytype : dict string (list (option string)) }.

Definition with_source x (s : store) := Store (s_dref s) x (s_names s) (s_types s) (s_keyid s) (s_ents s) (s_counter s) (s_bytype s).
Definition with_names x (s : store) := Store (s_dref s) (s_source s) x (s_types s) (s_keyid s) (s_ents s) (s_counter s) (s_bytype s).
Definition with_counter x (s : store) := Store (s_dref s) (s_source s) (s_names s) (s_types s) (s_keyid s) (s_ents s) x (s_bytype s).

(** [defaultdict(set)[k]] / [defaultdict(int)[k]] read (the insertion of the empty value is only observable for
    [_catalog_names]; see [get_sources]). *)
Definition sget {A} (k : string) (d : dict string (list A)) : list A := match dget k d with Some l => l | None => [] end.
Definition nget (k : string) (d : dict string nat) : nat := match dget k d with Some n => n | None => 0 end.

(** property [ref], entity_store.py:262-267: the first reference, in insertion order, whose sources contain ours. *)
Fixpoint first_ref (src : option string) (n : names_t) : option string :=
  match n with [] => None | (k, s) :: r => if mem src s then Some k else first_ref src r end.
Definition ref_of (s : store) : sres string :=
  match first_ref (s_source s) (s_names s) with Some k => SOk k | None => local_ref (s_source s) end.

(** ** The registry: [_add_name], entity_store.py:215-246 *)

(** Result of the loop of lines 228-242: fall through with the (possibly reduced) registry, return early, or raise. *)
Inductive loop_res := LFall (n : names_t) | LReturn (n : names_t) | LRaise (n : names_t) (e : sexn).

(** One turn per registered reference; [seen] is the part of the dict already visited.  The branch of lines 230-235
    compares [source == self.source and k == local_ref(self.source)]; the call of [local_ref] can raise. *)
Fixpoint name_loop (self : option string) (ref : string) (source : option string) (rewrite : bool)
    (seen todo : names_t) : loop_res :=
  match todo with
  | [] => LFall seen
  | (k, s) :: r =>
      if mem source s && negb (eqb source None) then
        let rest := (* lines 236-242 *)
          if eqb k ref then LReturn (seen ++ todo)
          else if rewrite then name_loop self ref source rewrite (seen ++ [(k, set_remove source s)]) r
          else LRaise (seen ++ todo) SSourceKnown in
        if eqb source self then
          match local_ref self with
          | SErr e => LRaise (seen ++ todo) e
          | SOk l => if eqb k l then LReturn (dset ref s (ddel k (seen ++ todo))) else rest
          end
        else rest
      else name_loop self ref source rewrite (seen ++ [(k, s)]) r
  end.

Definition add_name (ref : string) (source : option string) (rewrite : bool) (st : store) : store * option sexn :=
  if negb (valid_ref ref) then (st, Some SInvalidRef)
  else match name_loop (s_source st) ref source rewrite [] (s_names st) with
       | LReturn n => (with_names n st, None)
       | LRaise n e => (with_names n st, Some e)
       | LFall n =>
           let st1 := with_names (dset ref (set_add source (sget ref n)) n) st in
           (* lines 245-246 *)
           match ref_of st1 with
           | SErr e => (st1, Some e)
           | SOk r => if eqb ref r && eqb (s_source st1) None && rewrite
                      then (with_source source st1, None) else (st1, None)
           end
       end.

(** [__init__], entity_store.py:125-213, and [_set_source], 257-260. *)
Definition init (source ref : option string) (types : list string) (keyid : key -> option string) : sres store :=
  match (match ref with Some r => SOk r | None => local_ref source end) with
  | SErr e => SErr e
  | SOk r => match add_name r source false (Store r source [] types keyid [] [] []) with
             | (st, None) => SOk st
             | (_, Some e) => SErr e
             end
  end.
Definition set_source (ref : string) (source : option string) (st : store) : store * option sexn :=
  add_name ref source false (with_source source st).

(** property [names], entity_store.py:274-293, along a chain of upstream archives (most downstream first). *)
Fixpoint chain_names (ch : list store) : dict (option string) string :=
  match ch with
  | [] => []
  | st :: up => fold_left (fun acc p => fold_left (fun acc v => dset v (fst p) acc) (snd p) acc) (s_names st) (chain_names up)
  end.

(** [str.startswith] *)
Fixpoint starts_with (p s : string) : bool :=
  match p, s with
  | EmptyString, _ => true
  | String a p', String b s' => Ascii.eqb a b && starts_with p' s'
  | _, _ => false
  end.

(** [get_sources], entity_store.py:295-302: line 296 inserts an empty entry for an unknown name. *)
Definition get_sources (name : string) (st : store) : store * list (option string) :=
  let n := match dget name (s_names st) with Some _ => s_names st | None => dset name [] (s_names st) end in
  let s := sget name n in
  (with_names n st,
   match s with
   | [] => fold_left (fun acc p => if starts_with name (fst p) then set_union acc (snd p) else acc) n s
   | _ => s
   end).

(** [write_to_file], entity_store.py:608-620: the effect on the archive (the file itself is not modelled).  [up] are the
    names of the upstream archives. *)
Definition write_to_file (filename : string) (up : list store) (st : store) : store * option sexn :=
  match s_source st with
  | None => match ref_of st with
            | SErr e => (st, Some e)
            | SOk r => set_source r (Some filename) st
            end
  | Some _ =>
      if din (Some filename) (chain_names (st :: up)) then (st, None)
      else match ref_of st with SErr e => (st, Some e) | SOk r => add_name r (Some filename) false st end
  end.

(** ** Saving and loading the registry *)

(** The part of [serialize()] (entity_store.py:590-598) used to rebuild the registry: 'catalogNames' without null or
    empty sources, and 'dataReference' (inside 'initArgs'), as a list of (reference, source) pairs.  JSON lists them in
    sorted order; [load] takes the pairs in any order. *)
Definition falsy (v : option string) : bool := match v with None => true | Some x => eqb x EmptyString end.
Definition saved_names (st : store) : list (string * option string) :=
  flat_map (fun p => map (fun v => (fst p, v)) (filter (fun v => negb (falsy v)) (snd p))) (s_names st).

Fixpoint add_names (l : list (string * option string)) (st : store) : store * option sexn :=
  match l with
  | [] => (st, None)
  | (r, v) :: l' => match add_name r v false st with (st1, None) => add_names l' st1 | e => e end
  end.

(** [BasicArchive.from_file], basic_archive.py:49-70, and lines 259-275 of [load_from_dict]: a new archive whose source is
    the file, the saved names (in the order the file lists them), then the file itself under the archive's reference.
    ('dataReference' is written inside 'initArgs', so the branch of lines 267-274 is not taken.) *)
Definition load (filename dref : string) (saved : list (string * option string)) (types : list string) (keyid : key -> option string)
  : sres store :=
  match init (Some filename) (Some dref) types keyid with
  | SErr e => SErr e
  | SOk st => match add_names saved st with
              | (_, Some e) => SErr e
              | (st1, None) => match ref_of st1 with
                               | SErr e => SErr e
                               | SOk r => match add_name r (Some filename) true st1 with
                                          | (st2, None) => SOk st2
                                          | (_, Some e) => SErr e
                                          end
                               end
              end
  end.

(** ** Entities: [_add], entity_store.py:458-476 *)
Definition set_origin (i : nat) (o : string) (h : heap) : heap :=
  upd i (fun e => Ent (e_uuid e) (e_type e) (Some o) (e_ext e) (e_valid e)) h.

Definition insert_ent (i : nat) (k : option string) (t : string) (st : store) : store :=
  Store (s_dref st) (s_source st) (s_names st) (s_types st) (s_keyid st) (dset k i (s_ents st))
        (dset t (S (nget t (s_counter st))) (s_counter st))
        (dset t (set_add k (sget t (s_bytype st))) (s_bytype st)).

Definition add (i : nat) (k : option string) (h : heap) (st : store) : heap * store * option sexn :=
  match nth_error h i with
  | None => (h, st, Some SAttributeError) (* not an entity: never used *)
  | Some e =>
      if din k (s_ents st) then (h, st, Some SKeyError)
      else if negb (mem (e_type e) (s_types st)) then (h, st, Some STypeError)
      else if negb (e_valid e) then (h, st, Some SValueError)
      else match e_origin e with
           | Some _ => (h, insert_ent i k (e_type e) st, None)
           | None => if eqb (s_keyid st (KStr (e_ext e))) k
                     then match ref_of st with
                          | SErr x => (h, st, Some x)
                          | SOk r => (set_origin i r h, insert_ent i k (e_type e) st, None)
                          end
                     else (h, st, Some SAssertion)
           end
  end.

(** [BasicArchive.add], archives/basic_archive.py:137-140: the key is the UUID of the entity. *)
Definition basic_add (i : nat) (h : heap) (st : store) : heap * store * option sexn :=
  match nth_error h i with
  | None => (h, st, Some SAttributeError)
  | Some e => if mem (e_type e) (s_types st) then add i (Some (e_uuid e)) h st else (h, st, Some SValueError)
  end.

(** [check_counter], entity_store.py:478-484 (the printed numbers are not modelled). *)
Definition check_counter (t : option string) (st : store) : store :=
  match t with
  | Some x => with_counter (dset x 0 (s_counter st)) st
  | None => with_counter (fold_left (fun c x => dset x 0 c) (s_types st) (s_counter st)) st
  end.

(** [count_by_type], entity_store.py:583-584; [entities_by_type], 579-581 (the keys, sorted; a None key among others
    cannot be sorted by Python, which the model does not represent). *)
Definition count_by_type (t : string) (st : store) : nat := length (sget t (s_bytype st)).

Fixpoint sinsert (x : option string) (l : list (option string)) : list (option string) :=
  match l with
  | [] => [x]
  | y :: r => match x, y with
              | Some a, Some b => if String.leb a b then x :: l else y :: sinsert x r
              | _, _ => x :: l
              end
  end.
Definition ssort (l : list (option string)) : list (option string) := fold_right sinsert [] l.
(** [self._entities[u]] raises KeyError for a key that is not stored. *)
Fixpoint lookup_all (ks : list (option string)) (d : dict (option string) nat) : option (list nat) :=
  match ks with
  | [] => Some []
  | k :: r => match dget k d, lookup_all r d with Some i, Some l => Some (i :: l) | _, _ => None end
  end.
Definition entities_by_type (t : string) (st : store) : option (list nat) :=
  lookup_all (ssort (sget t (s_bytype st))) (s_ents st).

(** [_get_entity], entity_store.py:418-431: [None] is KeyError.  The origin setter (entities.py:117-122) cannot raise
    here since the origin is None. *)
Definition get_entity (k : option string) (h : heap) (st : store) : heap * sres (option nat) :=
  match dget k (s_ents st) with
  | None => (h, SErr SKeyError)
  | Some i => match nth_error h i with
              | Some (Ent _ _ None _ _) => match ref_of st with
                                         | SOk r => (set_origin i r h, SOk (Some i))
                                         | SErr x => (h, SErr x)
                                         end
              | _ => (h, SOk (Some i))
              end
  end.

(** [__getitem__], entity_store.py:433-456, for an archive and the chain of its upstream archives. *)
Fixpoint getitem (k : key) (h : heap) (ch : list store) : heap * sres (option nat) :=
  match k with
  | KNone => (h, SOk None)
  | _ =>
    match ch with
    | [] => (h, SOk None)
    | st :: up =>
        let local h :=
          match get_entity (s_keyid st k) h st with
          | (h', SErr SKeyError) => (h', SOk None)
          | r => r
          end in
        match up with
        | [] => local h
        | _ => match getitem k h up with
               | (h', SOk None) => local h'
               | r => r
               end
        end
    end
  end.

(** [retrieve_or_fetch_entity], entity_store.py:513-531.  [fetch] is the subclass's [_fetch], an arbitrary function of
    the heap and the key; the boolean tells whether it was called. *)
Definition retrieve_or_fetch (fetch : heap -> key -> heap * sres (option nat)) (k : key) (h : heap) (ch : list store)
  : heap * sres (option nat) * bool :=
  match k with
  | KNone => (fetch h k, true)
  | _ => match getitem k h ch with
         | (h', SOk None) => (fetch h' k, true)
         | r => (r, false)
         end
  end.

(** Model of /repo/antelope_catalog/lc_resource.py (class LcResource: construction, matching, saving, loading) and of
    /repo/antelope_catalog/catalog/lc_resolver.py (class LcCatalogResolver). *)
From Coq Require Import ZArith.
From Verif Require Import Base PyStr.
Open Scope string_scope.
Open Scope nat_scope.
Open Scope list_scope.

Inductive rexn := RKeyError | RUnknownOrigin | RFileNotFound | RValueError | RAttributeError.
Inductive rres (A : Type) := ROk (a : A) | RErr (e : rexn).
Arguments ROk {A} _. Arguments RErr {A} _.

(** The attributes of a resource other than its reference (lc_resource.py:160-210), also used for its serialised form
    (330-342), since JSON keeps them all.  [d_url] is [args['download']['url']] when the resource has a 'download' argument,
    [d_filetype] the 'filetype' argument, [d_other] stands for every other init argument and the stored configuration.
    Simplifications: a 'download' argument always has a 'url'; init arguments never shadow the fixed JSON keys; the
    set of interfaces is a duplicate-free list in some iteration order; JSON round-trips [d_other] unchanged. *)
Record rdata := RD { d_source : option string; d_type : string; d_url : option string; d_filetype : option string;
                     d_ifaces : list string; d_prio : Z; d_static : bool; d_internal : bool; d_other : string }.

(** A resource object; [r_id] is Python object identity (LcResource defines no [__eq__]). *)
Record res := Res { r_id : nat; r_ref : string; r_data : rdata }.

(** catalog_query.py:8 *)
Definition interface_types : list string := ["basic"; "index"; "inventory"; "background"; "quantity"; "foreground"].

(** [_normalize_interfaces] / [add_interface], lc_resource.py:139-158 ('basic' first, unknown names ignored). *)
Definition norm_ifaces (l : list string) : list string :=
  set_of ("basic" :: filter (fun i => mem i interface_types) l).

(** [__init__], lc_resource.py:160-210 *)
Definition construct (d : rdata) : rres rdata :=
  match d_source d, d_url d with
  | None, None => RErr RKeyError
  | _, _ => ROk (RD (d_source d) (d_type d) (d_url d) (d_filetype d) (norm_ifaces (d_ifaces d)) (d_prio d)
                    (d_static d) (d_internal d) (d_other d))
  end.

(** property [static], lc_resource.py:273-275 *)
Definition static_of (d : rdata) : bool := d_static d || String.eqb (lower (d_type d)) "json".

(** [serialize], lc_resource.py:330-342 *)
Definition serialize (d : rdata) : rdata :=
  RD (d_source d) (d_type d) (d_url d) (d_filetype d) (d_ifaces d) (d_prio d) (static_of d) (d_internal d) (d_other d).

(** [str.endswith] *)
Fixpoint ends_with (s suf : string) : bool :=
  if String.eqb s suf then true else match s with EmptyString => false | String _ r => ends_with r suf end.

(** [from_dict], lc_resource.py:34-54 ('filetype' is consumed and appended to the source; [None.endswith] raises). *)
Definition from_dict (d : rdata) : rres rdata :=
  match d_filetype d with
  | None => construct d
  | Some ft =>
      match d_source d with
      | None => RErr RAttributeError
      | Some s => construct (RD (Some (if ends_with s ft then s else (s ++ ft)%string)) (d_type d) (d_url d) None
                                (d_ifaces d) (d_prio d) (d_static d) (d_internal d) (d_other d))
      end
  end.

(** [matches(self, k)], lc_resource.py:344-357; [k] a serialised resource.  [k['download']] or
    [self._args['download']] raise KeyError when absent. *)
Definition matches (self k : rdata) : rres bool :=
  match d_source k, d_source self with
  | Some a, Some b => ROk (eqb a b)
  | _, _ => match d_url k, d_url self with Some a, Some b => ROk (eqb a b) | _, _ => RErr RKeyError end
  end.

(** [[f k for k in l]]: every element is evaluated, the first exception is raised. *)
Fixpoint map_res {A B} (f : A -> rres B) (l : list A) : rres (list B) :=
  match l with
  | [] => ROk []
  | x :: r => match f x with
              | RErr e => RErr e
              | ROk y => match map_res f r with RErr e => RErr e | ROk ys => ROk (y :: ys) end
              end
  end.
(** [[k for k in l if f k]] *)
Fixpoint filter_res {A} (f : A -> rres bool) (l : list A) : rres (list A) :=
  match l with
  | [] => ROk []
  | x :: r => match f x with
              | RErr e => RErr e
              | ROk b => match filter_res f r with RErr e => RErr e | ROk ys => ROk (if b then x :: ys else ys) end
              end
  end.
(** [any(f k for k in l)] over a generator: stops at the first true. *)
Fixpoint any_res {A} (f : A -> rres bool) (l : list A) : rres bool :=
  match l with
  | [] => ROk false
  | x :: r => match f x with RErr e => RErr e | ROk true => ROk true | ROk false => any_res f r end
  end.

(** A file in the resource directory: a JSON document [{ref: [entries]}] under the file name [ref], or one that is not
    JSON (empty or truncated). *)
Inductive file := FJson (l : list rdata) | FBroken.
Definition disk := dict string file.

(** [exists], lc_resource.py:227-238 (the [any] ranges over a list, so all entries are compared). *)
Definition exists_in (dk : disk) (r : res) : rres bool :=
  match dget (r_ref r) dk with
  | Some (FJson l) => match map_res (matches (r_data r)) l with
                      | RErr e => RErr e | ROk bs => ROk (existsb (fun b => b) bs) end
  | _ => ROk false
  end.

(** The list of entries [write_to_file] is going to dump, lc_resource.py:371-383. *)
Definition write_content (dk : disk) (r : res) : rres (list rdata) :=
  match dget (r_ref r) dk with
  | None => ROk [serialize (r_data r)]
  | Some f =>
      let j := match f with FJson l => l | FBroken => [] end in
      match filter_res (fun k => match matches (r_data r) k with ROk b => ROk (negb b) | RErr e => RErr e end) j with
      | RErr e => RErr e
      | ROk l => ROk (l ++ [serialize (r_data r)])
      end
  end.

(** [write_to_file], lc_resource.py:359-386 (the resource directory exists). *)
Definition write_to_file (dk : disk) (r : res) : disk * rres unit :=
  match write_content dk r with
  | RErr e => (dk, RErr e)
  | ROk l => (dset (r_ref r) (FJson l) dk, ROk tt)
  end.

(** The states of the directory a process killed during [write_to_file] can leave behind: before [open(.., 'w')],
    after the truncation but before the closing brace has reached the file, after the dump (lc_resource.py:384-385). *)
Definition write_crash_points (dk : disk) (r : res) : list disk :=
  match write_content dk r with
  | RErr _ => [dk]
  | ROk l => [dk; dset (r_ref r) FBroken dk; dset (r_ref r) (FJson l) dk]
  end.

(** A resolver: [_resources] (a defaultdict(list)), the resource directory, and the next object identity. *)
Record resolver := RS { rs_mem : dict string (list res); rs_disk : disk; rs_next : nat }.

Definition mget (ref : string) (m : dict string (list res)) : list res :=
  match dget ref m with Some l => l | None => [] end.

(** [sorted(.., key=lambda x: x.priority)]: stable. *)
Fixpoint insert_prio (r : res) (l : list res) : list res :=
  match l with
  | [] => [r]
  | x :: t => if (d_prio (r_data r) <=? d_prio (r_data x))%Z then r :: l else x :: insert_prio r t
  end.
Fixpoint sort_prio (l : list res) : list res :=
  match l with [] => [] | x :: t => insert_prio x (sort_prio t) end.

Fixpoint number (n : nat) (ref : string) (l : list rdata) : list res :=
  match l with [] => [] | d :: t => Res n ref d :: number (S n) ref t end.

(** [from_json], lc_resource.py:56-68, for a readable file; new objects numbered from [n]. *)
Definition from_json (n : nat) (ref : string) (l : list rdata) : rres (list res) :=
  match map_res from_dict l with RErr e => RErr e | ROk ds => ROk (sort_prio (number n ref ds)) end.

(** [_update_semantic_ref], lc_resolver.py:50-58 *)
Definition update_semantic_ref (s : resolver) (ref : string) : rres resolver :=
  match dget ref (rs_disk s) with
  | None => RErr RFileNotFound
  | Some FBroken => ROk s
  | Some (FJson l) => match from_json (rs_next s) ref l with
                      | RErr e => RErr e
                      | ROk rs => ROk (RS (dset ref rs (rs_mem s)) (rs_disk s) (rs_next s + length l))
                      end
  end.

(** [index_resources], lc_resolver.py:60-62 *)
Fixpoint index_resources (s : resolver) (refs : list string) : rres resolver :=
  match refs with
  | [] => ROk s
  | ref :: t => match update_semantic_ref s ref with RErr e => RErr e | ROk s' => index_resources s' t end
  end.

(** [__init__], lc_resolver.py:21-26: a new resolver on an existing directory ([n]: identities already used). *)
Definition start (dk : disk) (n : nat) : rres resolver := index_resources (RS [] dk n) (dkeys dk).

(** [has_resource], lc_resolver.py:79-81; subscripting the defaultdict creates the key. *)
Definition has_resource (s : resolver) (r : res) : resolver * rres bool :=
  let m := match dget (r_ref r) (rs_mem s) with Some _ => rs_mem s | None => dset (r_ref r) [] (rs_mem s) end in
  (RS m (rs_disk s) (rs_next s), any_res (fun k => matches (r_data k) (serialize (r_data r))) (mget (r_ref r) m)).

(** [add_resource], lc_resolver.py:64-77 *)
Definition add_resource (s : resolver) (r : res) (store : bool) : resolver * rres unit :=
  match exists_in (rs_disk s) r with
  | RErr e => (s, RErr e)
  | ROk true => (s, ROk tt)
  | ROk false =>
      match has_resource s r with
      | (s1, RErr e) => (s1, RErr e)
      | (s1, ROk true) => (s1, ROk tt)
      | (s1, ROk false) =>
          let append dk := RS (dset (r_ref r) (mget (r_ref r) (rs_mem s1) ++ [r]) (rs_mem s1)) dk (rs_next s1) in
          if store then
            match write_to_file (rs_disk s1) r with
            | (dk, RErr e) => (RS (rs_mem s1) dk (rs_next s1), RErr e)
            | (dk, ROk _) => (append dk, ROk tt)
            end
          else (append (rs_disk s1), ROk tt)
      end
  end.

(** [new_resource], lc_resolver.py:83-86 *)
Definition new_resource (s : resolver) (ref : string) (d : rdata) (store : bool) : resolver * rres res :=
  match construct d with
  | RErr e => (s, RErr e)
  | ROk d' =>
      let r := Res (rs_next s) ref d' in
      match add_resource (RS (rs_mem s) (rs_disk s) (S (rs_next s))) r store with
      | (s', ROk _) => (s', ROk r)
      | (s', RErr e) => (s', RErr e)
      end
  end.

(** [_write_or_delete_resource_file], lc_resolver.py:169-175 *)
Definition write_or_delete (dk : disk) (ref : string) (rs : list res) : disk * rres unit :=
  match filter_res (exists_in dk) rs with
  | RErr e => (dk, RErr e)
  | ROk [] => match dget ref dk with None => (dk, RErr RFileNotFound) | Some _ => (ddel ref dk, ROk tt) end
  | ROk l => (dset ref (FJson (map (fun k => serialize (r_data k)) l)) dk, ROk tt)
  end.

Definition has_id (i : nat) (l : list res) : bool := existsb (fun x => Nat.eqb (r_id x) i) l.
(** [list.remove]: the first occurrence. *)
Fixpoint remove_id (i : nat) (l : list res) : list res :=
  match l with [] => [] | x :: t => if Nat.eqb (r_id x) i then t else x :: remove_id i t end.

(** [delete_resource], lc_resolver.py:88-96 *)
Definition delete_resource (s : resolver) (r : res) : resolver * rres unit :=
  let ref := r_ref r in
  let m := match dget ref (rs_mem s) with Some _ => rs_mem s | None => dset ref [] (rs_mem s) end in
  if negb (has_id (r_id r) (mget ref m)) then (RS m (rs_disk s) (rs_next s), RErr RKeyError) else
  let l := remove_id (r_id r) (mget ref m) in
  let m1 := dset ref l m in
  match write_or_delete (rs_disk s) ref l with
  | (dk, RErr e) => (RS m1 dk (rs_next s), RErr e)
  | (dk, ROk _) => (RS (match l with [] => ddel ref m1 | _ => m1 end) dk (rs_next s), ROk tt)
  end.

(** [write_resource_files], lc_resolver.py:177-179 *)
Fixpoint write_files (dk : disk) (m : dict string (list res)) : disk * rres unit :=
  match m with
  | [] => (dk, ROk tt)
  | (ref, l) :: t => match write_or_delete dk ref l with (dk', ROk _) => write_files dk' t | (dk', RErr e) => (dk', RErr e) end
  end.

(** [satisfies], lc_resource.py:281-291 (a single string is a one-element list). *)
Definition satisfies (d : rdata) (ifs : option (list string)) : bool :=
  match ifs with
  | None => true
  | Some l => existsb (fun i => String.eqb i "basic" || mem i (d_ifaces d)) l
  end.

(** [str.split('.')] *)
Fixpoint split_dot (s : string) : list string :=
  match s with
  | EmptyString => [EmptyString]
  | String c r => if Ascii.eqb c "."%char then EmptyString :: split_dot r
                  else match split_dot r with [] => [String c EmptyString] | w :: ws => String c w :: ws end
  end.

Fixpoint list_eqb (a b : list string) : bool :=
  match a, b with
  | [], [] => true | x :: r, y :: t => String.eqb x y && list_eqb r t | _, _ => false
  end.

(** the test of lc_resolver.py:126-129 *)
Definition ref_matches (req ref : string) (strict : bool) : bool :=
  (negb strict || String.eqb ref req)
  && list_eqb (firstn (length (split_dot req)) (split_dot ref)) (split_dot req).

(** [resolve], lc_resolver.py:114-136; the generator consumed to its end. *)
Fixpoint resolve_loop (m : dict string (list res)) (req : string) (ifs : option (list string)) (strict : bool)
  : list res * bool :=
  match m with
  | [] => ([], false)
  | (ref, l) :: t =>
      let '(out, found) := resolve_loop t req ifs strict in
      if ref_matches req ref strict then (filter (fun r => satisfies (r_data r) ifs) l ++ out, true) else (out, found)
  end.
Definition resolve (s : resolver) (req : string) (ifs : option (list string)) (strict : bool) : rres (list res) :=
  match resolve_loop (rs_mem s) req ifs strict with
  | (out, true) => ROk out
  | (_, false) => RErr RUnknownOrigin
  end.

(** [resources_with_source], lc_resolver.py:105-109 *)
Definition with_source (s : resolver) (src : string) : list res :=
  flat_map (fun p => filter (fun r => eqb (d_source (r_data r)) (Some src)) (snd p)) (rs_mem s).

(** [get_resource], lc_resolver.py:138-167 *)
Definition get_resource (s : resolver) (ref : string) (ifs : option (list string)) (source : option string)
           (strict include_internal : bool) : rres res :=
  match (match source with Some src => ROk (with_source s src) | None => resolve s ref ifs strict end) with
  | RErr e => RErr e
  | ROk l =>
      match sort_prio (filter (fun r => include_internal || negb (d_internal (r_data r))) l) with
      | [] => RErr RKeyError
      | [r] => ROk r
      | r :: _ => if strict then RErr RValueError else ROk r
      end
  end.

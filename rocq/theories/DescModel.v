(** Model of descendants of archives: the references made by construct_new_ref and by EntityStore.create_descendant, and what the
    latter does to the archive and to the files (/repo/lcatools/archives/entity_store.py), with the registry of StoreModel.v.

    Simplifications: the clock (date, time) stands still during one call; there are no directories below archive_path, so that a name with a slash
    cannot be opened; references hold no line breaks; the entities are one value; the directory is not modelled, nor that it is created; opening a file
    succeeds otherwise, and the write is complete (crashes: C54, C83, C91). *)
From Coq Require Import String.
From Verif Require Import Base PyStr StoreModel.
Open Scope string_scope.
Open Scope nat_scope.
Open Scope list_scope.

(** ** References *)
(** [ref.split('.')]: all but the last component, joined again (the empty string if there is one component), and the last, entity_store.py:42,55 *)
Definition parts (ref : string) : string * string :=
  match split_last_dot ref with
  | Some (a, String _ b) => (a, b)
  | _ => ("", ref)
  end.
(** [0-9-] *)
Definition stamp_char (c : ascii) : bool := let n := nat_of_ascii c in ((48 <=? n) && (n <=? 57)) || (n =? 45).
Fixpoint all_stamp (s : string) : bool := match s with EmptyString => true | String c r => stamp_char c && all_stamp r end.
(** How many such characters the string ends in *)
Fixpoint trail (s : string) : nat :=
  match s with
  | EmptyString => 0
  | String c r => if all_stamp s then S (String.length r) else trail r
  end.
(** [re.search('[0-9-]{6,}$', old_tail)] and what it decides, entity_store.py:53-58, 317-322 *)
Definition strip (ref : string) : string := if 6 <=? trail (snd (parts ref)) then fst (parts ref) else ref.
(** [re.match('[A-Za-z0-9_-]+', signifier)]: the start is all that is looked at, lines 49, 313 *)
Definition sig_ok (sig : string) : bool := match sig with EmptyString => false | String c _ => word_char c || (nat_of_ascii c =? 45) end.
Definition dotted (a b : string) : string := (a ++ "." ++ b)%string.
(** [_construct_new_ref], 304-324: None is ValueError. [d] is the date, [t] the time of day. *)
Definition descend (d t ref : string) (sig : option string) : option string :=
  match sig with
  | None => Some (dotted (strip ref) (if eqb (snd (parts ref)) d then (d ++ "-" ++ t)%string else d))
  | Some s => if sig_ok s then Some (dotted (strip ref) (dotted s d)) else None
  end.
(** [construct_new_ref], 40-62 *)
Inductive cres := CRef (r : string) | CValue | CCreation.
Definition construct_new_ref (d t ref : string) (sig : option string) : cres :=
  match descend d t ref sig with
  | None => CValue
  | Some r => if eqb r ref then CCreation else CRef r
  end.

(** ** Archives and files *)
Record darch (A : Type) := DA { d_st : store; d_loaded : bool; d_ents : A }.
Arguments DA {A}. Arguments d_st {A}. Arguments d_loaded {A}. Arguments d_ents {A}.
(** What a file holds, 590-598 and 614-617: names, 'dataReference' of the initArgs, 'loaded', entities *)
Record dfile (A : Type) := DF { df_names : list (string * option string); df_dref : string; df_loaded : bool; df_ents : A }.
Arguments DF {A}. Arguments df_names {A}. Arguments df_dref {A}. Arguments df_loaded {A}. Arguments df_ents {A}.
(** What [_load_all] of the class does: entities loaded; NotImplementedError; another exception, with some entities loaded *)
Inductive loadres (A : Type) := LNew (x : A) | LNotImpl | LRaise (x : A).
Arguments LNew {A}. Arguments LNotImpl {A}. Arguments LRaise {A}.
(** [load_all], 573-577, with the except clause of 357-360 *)
Definition dload {A} (ld : loadres A) (a : darch A) : darch A * bool :=
  if d_loaded a then (a, true)
  else match ld with
       | LNew x => (DA (d_st a) true x, true)
       | LNotImpl => (a, true)
       | LRaise x => (DA (d_st a) false x, false)
       end.
Inductive derr := DValue | DKey | DExists | DLoad | DStore (e : sexn) | DOs.
Inductive dres := DOk (ref : string) | DErr (e : derr).
Fixpoint has_slash (s : string) : bool := match s with EmptyString => false | String c r => Ascii.eqb c "/" || has_slash r end.
(** [os.path.join(archive_path, new_ref + '.json.gz')], 348-349 *)
Definition file_of (dir ref : string) : string := (dir ++ "/" ++ ref ++ ".json.gz")%string.
Definition to_file {A} (a : darch A) : dfile A := DF (saved_names (d_st a)) (s_dref (d_st a)) (d_loaded a) (d_ents a).

(** [create_descendant], 326-364; [up] are the upstream archives *)
Definition create {A} (d t dir : string) (sig : option string) (force : bool) (up : list store) (ld : loadres A) (a : darch A) (fs : dict string (dfile A))
  : darch A * dict string (dfile A) * dres :=
  match ref_of (d_st a) with
  | SErr e => (a, fs, DErr (DStore e))
  | SOk r =>
      match descend d t r sig with
      | None => (a, fs, DErr DValue)
      | Some n =>
          if eqb n r then (a, fs, DErr DKey)
          else let f := file_of dir n in
          if din f fs && negb force then (a, fs, DErr DExists)
          else match dload ld a with
               | (a1, false) => (a1, fs, DErr DLoad)
               | (a1, true) =>
                   match set_source n (Some f) (d_st a1) with
                   | (st, Some e) => (DA st (d_loaded a1) (d_ents a1), fs, DErr (DStore e))
                   | (st, None) =>
                       match write_to_file f up st with
                       | (st2, Some e) => (DA st2 (d_loaded a1) (d_ents a1), fs, DErr (DStore e))
                       | (st2, None) =>
                           let a2 := DA st2 (d_loaded a1) (d_ents a1) in
                           if has_slash n then (a2, fs, DErr DOs) else (a2, dset f (to_file a2) fs, DOk n)
                       end
                   end
               end
      end
  end.

(** Reading a file again: [from_already_open_file] with a reference, or (None) [from_file], basic_archive.py:49-102; [pairs] are the names in
    the order in which the file lists them *)
Definition reopen {A} (ref : option string) (f : string) (x : dfile A) (pairs : list (string * option string)) (types : list string)
  (keyid : key -> option string) : sres (darch A) :=
  match load f (match ref with Some r => r | None => df_dref x end) pairs types keyid with
  | SErr e => SErr e
  | SOk st => SOk (DA st (df_loaded x) (df_ents x))
  end.

(** Model of the shell-style menus: /repo/lcatools/interact.py.  A user is the list of lines that are typed; a function
    answers together with the lines left over, or raises.  Texts are ASCII; what is printed is not modelled. *)
From Coq Require Import String Ascii ZArith.
From Verif Require Import Base PyStr TableModel.
Open Scope string_scope.
Open Scope nat_scope.
Open Scope list_scope.

(** The exceptions; [XEof]: the lines are used up while one is asked for ([EOFError] of [input]). *)
Inductive iexn := XIndex | XType | XStop | XKey | XEof.
Inductive ires (A : Type) := Ans (a : A) (rest : list string) | Fail (e : iexn).
Arguments Ans {A} _ _. Arguments Fail {A} _.
Definition ibind {A B} (m : ires A) (f : A -> list string -> ires B) : ires B :=
  match m with Ans a rest => f a rest | Fail e => Fail e end.

(** [str.upper] (ASCII) *)
Definition upper_char (c : ascii) : ascii :=
  let n := nat_of_ascii c in if (97 <=? n) && (n <=? 122) then ascii_of_nat (n - 32) else c.
Fixpoint upper (s : string) : string :=
  match s with EmptyString => EmptyString | String c r => String (upper_char c) (upper r) end.
Definition uppercase : string := "ABCDEFGHIJKLMNOPQRSTUVWXYZ".
Definition memc (c : ascii) (l : list ascii) : bool := existsb (Ascii.eqb c) l.

(** The letter of one option, interact.py:95-101: [next] past the end raises [StopIteration] ([None]). *)
Fixpoint first_new (menu : list ascii) (letters : string) : option ascii :=
  match letters with
  | EmptyString => None
  | String c r => if memc c menu then first_new menu r else Some c
  end.
(** interact.py:94-102 *)
Fixpoint letters_from (menu : list ascii) (args : list string) : option (list ascii) :=
  match args with
  | [] => Some menu
  | a :: r => match first_new menu (upper (a ++ uppercase)) with
              | Some j => letters_from (menu ++ [j]) r
              | None => None
              end
  end.
Definition menu_letters (args : list string) : option (list ascii) := letters_from [] args.

(** [next(i for i, k in enumerate(menu) if k == s)], interact.py:132; [None] also if [s] is not a single character. *)
Fixpoint index_of (s : string) (menu : list ascii) : option nat :=
  match menu with [] => None | k :: r => if String.eqb s (String k "") then Some 0 else option_map S (index_of s r) end.

(** [l[z]] of a list *)
Definition py_nth {A} (l : list A) (z : Z) : option A :=
  if Z.leb 0 z then nth_error l (Z.to_nat z)
  else if Z.leb 0 (Z.of_nat (length l) + z) then nth_error l (Z.to_nat (Z.of_nat (length l) + z)) else None.

(** The answers of [_pick_list]: (None, None), (z, None) and (None, i). *)
Inductive choice := Nothing | Item (z : Z) | Option (i : nat).

Section Menus.
(** [int(c)], [None] where it raises [ValueError] *)
Variable int_of : string -> option Z.

(** The loop of [_pick_list], interact.py:120-137; [n] is [len(items)], [None] for [items=None] ([len] raises). *)
Fixpoint pick_loop (n : option nat) (menu : list ascii) (ins : list string) : ires choice :=
  match ins with
  | [] => Fail XEof
  | c :: rest =>
    if String.eqb c "None" || String.eqb c "" then Ans Nothing rest
    else match int_of c with
         | Some z => match n with
                     | None => Fail XType
                     | Some k => if Z.ltb z (Z.of_nat k) then Ans (Item z) rest else pick_loop n menu rest
                     end
         | None => match index_of (upper c) menu with
                   | Some i => Ans (Option i) rest
                   | None => pick_loop n menu rest
                   end
         end
  end.
(** [_pick_list(items, *args)], interact.py:67-137 *)
Definition pick_menu (n : option nat) (args : list string) (ins : list string) : ires choice :=
  match menu_letters args with None => Fail XStop | Some menu => pick_loop n menu ins end.

(** [pick_list], interact.py:161-170 *)
Definition pick_list {E} (show : E -> string) (objects : list E) (ins : list string) : ires (option E) :=
  let l := tsort (fun a b => String.leb (show a) (show b)) objects in
  match l with
  | [x] => Ans (Some x) ins
  | _ => ibind (pick_menu (Some (length l)) [] ins) (fun c rest =>
      match c with
      | Nothing => Ans None rest
      | Item z => match py_nth l z with Some x => Ans (Some x) rest | None => Fail XIndex end
      | Option _ => Fail XType
      end)
  end.

(** [menu_list], interact.py:173-182: None, -1 or the option *)
Inductive mchoice := MNone | MUp | MChoice (s : string).
Definition menu_list (args : list string) (go_up : bool) (ins : list string) : ires mchoice :=
  let choices := tsort String.leb args ++ (if go_up then ["<go up one level>"] else []) in
  ibind (pick_menu None choices ins) (fun c rest =>
    match c with
    | Nothing => Ans MNone rest
    | Item _ => Fail XType
    | Option i => if go_up && Nat.eqb i (length choices - 1) then Ans MUp rest
                  else match nth_error choices i with Some s => Ans (MChoice s) rest | None => Fail XIndex end
    end).

(** [ifinput], interact.py:28-32, and [cyoa], 52-64 *)
Fixpoint prefixb (a b : string) : bool :=
  match a, b with
  | EmptyString, _ => true
  | String x a', String y b' => Ascii.eqb x y && prefixb a' b'
  | String _ _, EmptyString => false
  end.
(** [a in b] *)
Fixpoint infixb (a b : string) : bool :=
  prefixb a b || match b with EmptyString => false | String _ b' => infixb a b' end.
Fixpoint cyoa (valid : string) (default : option string) (ins : list string) : ires string :=
  match ins with
  | [] => Fail XEof
  | c :: rest =>
    let i := match default with Some d => if String.eqb c "" then d else c | None => c end in
    if infixb (lower i) (lower valid) then Ans (lower i) rest
    else match int_of i with Some _ => Ans (lower i) rest | None => cyoa valid default rest end
  end.

(** [pick_one_or], interact.py:140-158: an item, or the text typed *)
Definition pick_one_or {E} (items : list E) (default : option string) (ins : list string) : ires (E + string) :=
  match ins with
  | [] => Fail XEof
  | c0 :: rest =>
    let c := match default with Some d => if String.eqb c0 "" then d else c0 | None => c0 end in
    match int_of c with
    | Some z => match py_nth items z with Some x => Ans (inl x) rest | None => Fail XIndex end
    | None => Ans (inr c) rest
    end
  end.

(** [get_kv_pairs], interact.py:35-49 *)
Fixpoint get_kv_pairs (d : dict string string) (ins : list string) : ires (dict string string) :=
  match ins with
  | [] => Fail XEof
  | k :: rest =>
    if String.eqb k "" then Ans d rest
    else match rest with [] => Fail XEof | v :: rest' => get_kv_pairs (dset k v d) rest' end
  end.

(** * Narrowing a list of entities *)
Section Entities.
Context {E : Type} `{EqB E}.
(** A group key is a text or something that cannot be compared with a text or with itself (None), [None]. *)
Definition key := option string.

(** [itertools.groupby]: runs of equal keys *)
Fixpoint runs (f : E -> string) (l : list E) : list (string * list E) :=
  match l with
  | [] => []
  | a :: r => match runs f r with
              | (k, g) :: t => if String.eqb (f a) k then (k, a :: g) :: t else (f a, [a]) :: (k, g) :: t
              | [] => [(f a, [a])]
              end
  end.
(** [_group_by], interact.py:198-214: [sorted] with more than one object compares every key with another one *)
Definition group_by (l : list E) (f : E -> key) : list (key * list E) :=
  if (1 <? length l) && existsb (fun e => match f e with None => true | _ => false end) l then [(None, l)]
  else match l with
       | [a] => [(f a, [a])]
       | _ => let s e := match f e with Some k => k | None => "" end in
              map (fun g => (Some (fst g), snd g)) (runs s (tsort (fun a b => String.leb (s a) (s b)) l))
       end.
(** [pick_from_groups], interact.py:185-195 ([None]: keep all) *)
Definition pick_from_groups (groups : list (key * list E)) (ins : list string) : ires (option (list E)) :=
  match groups with
  | [_] => Ans None ins
  | _ => ibind (pick_menu (Some (length groups)) ["done (keep all)"] ins) (fun c rest =>
      match c with
      | Nothing => Ans None rest
      | Option _ => Ans None rest
      | Item z => match py_nth groups z with Some g => Ans (Some (snd g)) rest | None => Fail XIndex end
      end)
  end.
(** [_metagroup], interact.py:222-224; the key function may raise [KeyError] ([None]) *)
Definition metagroup (l : list E) (f : E -> option key) (ins : list string) : ires (option (list E)) :=
  if existsb (fun e => match f e with None => true | _ => false end) l then Fail XKey
  else pick_from_groups
         (tsort (fun a b => length (snd b) <=? length (snd a))
                (group_by l (fun e => match f e with Some k => k | None => None end))) ins.
(** [... or entities] *)
Definition or_all (l : list E) (m : ires (option (list E))) : ires (list E) :=
  ibind m (fun r rest => Ans (match r with Some (x :: s) => x :: s | _ => l end) rest).

(** What an entity carries: [ent.entity_type]; [ent[tag]] as a group key and as a list of levels ([None]: no such key). *)
Variable etype : E -> string.
Variable tag_of : string -> E -> option key.
Variable hier : string -> E -> option (list key).
(** [str(ent)] *)
Variable show : E -> string.

(** [pick_by_tag], interact.py:227-240 *)
Definition tag_key (tag : string) (e : E) : key := match tag_of tag e with Some k => k | None => Some "(none)" end.
Definition pick_by_tag (l : list E) (tag : string) (ins : list string) : ires (list E) :=
  or_all l (metagroup l (fun e => Some (tag_key tag e)) ins).
(** [pick_by_hier], interact.py:252-257 *)
Definition level_key (tag : string) (level : nat) (e : E) : option key :=
  match hier tag e with
  | None => None
  | Some ks => Some (match nth_error ks level with Some k => k | None => Some "(none)" end)
  end.
Definition pick_by_hier (l : list E) (tag : string) (level : nat) (ins : list string) : ires (list E) :=
  or_all l (metagroup l (level_key tag level) ins).
(** [descend_hier], interact.py:268-275.  Every turn that goes on takes a line, so the lines bound the turns. *)
Fixpoint descend_from (fuel : nat) (l : list E) (tag : string) (level : nat) (ins : list string) : ires (list E) :=
  match fuel with
  | O => Fail XEof
  | S n => ibind (pick_by_hier l tag level ins) (fun subset rest =>
             if list_eqb subset l then Ans l rest else descend_from n subset tag (S level) rest)
  end.
Definition descend_hier (l : list E) (tag : string) (ins : list string) : ires (list E) :=
  descend_from (S (length ins)) l tag 0 ins.
(** [pick_by_etype], interact.py:278-279 *)
Definition pick_by_etype (l : list E) (ins : list string) : ires (option (list E)) :=
  metagroup l (fun e => Some (Some (etype e))) ins.
(** [select_subset], interact.py:282-290 *)
Fixpoint select_subset (l : list E) (tags : list string) (ins : list string) : ires (list E) :=
  match tags with
  | [] => Fail XIndex
  | tag :: tags' => ibind (pick_by_tag l tag ins) (fun subset rest =>
      if list_eqb subset l then Ans l rest
      else match tags' with [] => Ans subset rest | _ => select_subset subset tags' rest end)
  end.
Definition has_tag (tag : string) (l : list E) : bool :=
  existsb (fun e => match tag_of tag e with Some _ => true | None => false end) l.
(** [filter_processes], interact.py:297-311 *)
Definition filter_processes (l : list E) (ins : list string) : ires (option E) :=
  if length l <? 10 then pick_list show l ins
  else ibind (if has_tag "Classifications" l then descend_hier l "Classifications" ins else Ans l ins) (fun l1 ins1 =>
    if length l1 <? 10 then pick_list show l1 ins1
    else ibind (if has_tag "IsicClass" l1 then pick_by_tag l1 "IsicClass" ins1 else Ans l1 ins1) (fun l2 ins2 =>
      if length l2 <? 10 then pick_list show l2 ins2
      else ibind (pick_by_tag l2 "SpatialScope" ins2) (fun l3 ins3 => pick_list show l3 ins3))).
(** [filter_flows], interact.py:314-319 *)
Definition filter_flows (l : list E) (ins : list string) : ires (option E) :=
  if length l <? 10 then pick_list show l ins
  else ibind (descend_hier l "Compartment" ins) (fun l1 ins1 => pick_list show l1 ins1).
(** [filter_quantities], interact.py:322-324 *)
Definition filter_quantities (l : list E) (ins : list string) : ires (option E) :=
  ibind (select_subset l ["Method"; "Category"; "Indicator"] ins) (fun l1 ins1 => pick_list show l1 ins1).
(** the table of pickers, interact.py:341-347 *)
Definition picker (t : string) : option (list E -> list string -> ires (option E)) :=
  if String.eqb t "process" then Some filter_processes
  else if String.eqb t "flow" then Some filter_flows
  else if String.eqb t "quantity" then Some filter_quantities
  else if String.eqb t "exchange" || String.eqb t "characterization" then Some (pick_list show)
  else None.
(** [pick_one], interact.py:327-348 *)
Definition pick_one (l : list E) (ins : list string) : ires (option E) :=
  match l with
  | [] => Ans None ins
  | e0 :: r =>
    let run l' ins' := match l' with
                       | [] => Fail XIndex
                       | e :: _ => match picker (etype e) with Some p => p l' ins' | None => Fail XKey end
                       end in
    if existsb (fun e => negb (String.eqb (etype e) (etype e0))) r
    then ibind (pick_by_etype l ins) (fun sub rest => match sub with None => Ans None rest | Some s => run s rest end)
    else run l ins
  end.
End Entities.

(** [pick_reference], interact.py:383-392: the flows of the process's references, with their names *)
Definition pick_reference {F} (name : F -> string) (flows : list F) (ins : list string) : ires (option F) :=
  let choices := tsort (fun a b => String.leb (name a) (name b)) flows in
  match choices with
  | [x] => Ans (Some x) ins
  | _ => ibind (pick_menu (Some (length choices)) [] ins) (fun c rest =>
      match c with
      | Item z => match py_nth choices z with Some x => Ans (Some x) rest | None => Fail XIndex end
      | _ => Ans None rest
      end)
  end.
End Menus.

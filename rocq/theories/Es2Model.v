(** Model of /repo/antelope_catalog/providers/ecospold2/ecospold2.py (EcospoldV2Archive): import of linked (allocated) and unlinked
    EcoSpold 2 datasets.  Processes are those of ProcModel.

    Simplifications: XML is already parsed; uuids are numbers, flows and processes in separate id spaces; the datasets are a map
    from activity to reference flow to file, as [_map_datasets] (106-110) builds it from names with two lower-case uuids; the sets
    of reference flows, whose order Python leaves open, are lists in any order; a file that cannot be read or parsed raises one
    exception; descriptive fields are left out, of a comment only whether there is one; elementary and intermediate exchanges only;
    amounts are rationals. *)
From Coq Require Import String.
From Verif Require Import Num Base PyStr ProcModel.
Open Scope nat_scope.
Open Scope string_scope.
Open Scope list_scope.

Inductive grp := GOut (n : nat) | GIn | GNone.
Record x2 := X2 { y_flow : nat; y_unit : nat; y_inter : bool; y_group : grp; y_cls : list (string * string);
                  y_amount : Qc; y_term : option string; y_comment : bool }.
(** A file: the activity id it states, and its exchanges *)
Record file := F2 { f_act : nat; f_data : list x2 }.
Record source := Src { s_linked : bool; s_files : dict nat (dict nat (option file)) }.

Inductive eexn := FileNotFound | BadFile | RefNotFound | Directionless | ProcExn (e : pexn) | NoComment.
Inductive eret (A : Type) := EOk (a : A) | EErr (e : eexn).
Arguments EOk {A} _. Arguments EErr {A} _.

(** The archive: processes, flows with the unit of their reference quantity, the keys of [_process_flow_map], [_loaded] *)
Record arch := Ar { a_p : dict nat proc; a_f : dict nat nat; a_known : list nat; a_loaded : bool }.
Definition new_arch (s : source) : arch := Ar [] [] (dkeys (s_files s)) false.
Definition put_p (a : arch) (i : nat) (p : proc) : arch := Ar (dset i p (a_p a)) (a_f a) (a_known a) (a_loaded a).

(** [_create_flow], 197-231, with [_create_quantity], 161-181 *)
Definition create_flow (x : x2) (a : arch) : arch :=
  if din (y_flow x) (a_f a) then a else Ar (a_p a) (dset (y_flow x) (y_unit x) (a_f a)) (a_known a) (a_loaded a).

(** One extracted exchange and the loop of [_collect_exchanges], 305-348 *)
Record eex := EX { e_flow : nat; e_dir : dirn; e_value : Qc; e_term : option string; e_ref : bool; e_comment : bool }.
Definition is_ref_out (n : nat) (cls : list (string * string)) : bool :=
  Nat.eqb n 0 || (Nat.eqb n 2 && existsb (fun c => eqb (fst c) "By-product classification" && String.prefix "allocat" (snd c)) cls).
Fixpoint collect (l : list x2) (a : arch) : arch * eret (list eex) :=
  match l with
  | [] => (a, EOk [])
  | x :: l =>
      let a1 := create_flow x a in
      match y_group x with
      | GNone => (a1, EErr Directionless)
      | g => let '(d, r) := match g with GOut n => (Output, is_ref_out n (y_cls x)) | _ => (Input, false) end in
             match collect l a1 with
             | (a2, EErr e) => (a2, EErr e)
             | (a2, EOk es) => (a2, EOk (EX (y_flow x) d (y_amount x) (y_term x) r (y_comment x) :: es))
             end
      end
  end.

(** [has_reference], processes.py:432-437: errors other than NoExchangeFound are raised *)
Definition has_reference (p : proc) (r : nat) : eret bool :=
  match find_exchange p (SFlow r) (Some true) None with
  | POk _ => EOk true
  | PErr NoExchangeFound => EOk false
  | PErr e => EErr (ProcExn e)
  end.
Definition targ_of (t : option string) : targ := match t with None => TNone | Some s => TStr s end.
Definition nocf : nat -> nat -> Qc := fun _ _ => 0%Qc.

(** The loop over the extracted exchanges, 432-463; the process is mutated, so it is returned also after an error. *)
Fixpoint add_all (linked : bool) (rx : option key) (l : list eex) (p : proc) : proc * eret unit :=
  match l with
  | [] => (p, EOk tt)
  | x :: l =>
      if eqb (e_value x) 0%Qc && linked then add_all linked rx l p
      else
        let terminated := match e_term x with Some _ => true | None => false end in
        let term := if e_ref x && terminated && linked then None else e_term x in
        let isref := e_ref x && negb (terminated && negb linked) in
        match add_exchange p (e_flow x) (e_dir x) rx (Some (e_value x)) (targ_of term) false with
        | (p1, PErr e) => (p1, EErr (ProcExn e))
        | (p1, POk k) =>
            if e_comment x && match k with None => true | Some _ => false end then (p1, EErr NoComment)
            else if negb linked && isref
                 then match add_reference nocf p1 (e_flow x) (e_dir x) with
                      | (p2, PErr e) => (p2, EErr (ProcExn e))
                      | (p2, POk _) => add_all linked rx l p2
                      end
                 else add_all linked rx l p1
        end
  end.

(** [_create_process_and_single_reference], 387-464.  [objectify] (371-385) reads the file; [_create_process_entity] (258-289) adds
    the process under the id the file states; [_grab_reference_flow], 291-303. *)
Definition create_single (s : source) (i r : nat) (exchanges : bool) (a : arch) : arch * eret unit :=
  match (match dget i (a_p a) with Some p => has_reference p r | None => EOk false end) with
  | EErr e => (a, EErr e)
  | EOk true => (a, EOk tt)
  | EOk false =>
      match dget r (match dget i (s_files s) with Some fs => fs | None => [] end) with
      | None => (a, EErr FileNotFound)
      | Some None => (a, EErr BadFile)
      | Some (Some f) =>
          let u := f_act f in
          let p := match dget u (a_p a) with Some p => p | None => new_proc end in
          let a1 := put_p a u p in
          match has_reference p r with
          | EErr e => (a1, EErr e)
          | EOk true => (a1, EOk tt)
          | EOk false =>
              match (if s_linked s
                     then match find (fun x => y_inter x && Nat.eqb (y_flow x) r) (f_data f) with
                          | None => (a1, p, EErr RefNotFound)
                          | Some x =>
                              let a2 := create_flow x a1 in
                              match add_exchange p r Output None None TNone false with
                              | (p1, PErr e) => (a2, p1, EErr (ProcExn e))
                              | (p1, POk _) => match add_reference nocf p1 r Output with
                                               | (p2, PErr e) => (a2, p2, EErr (ProcExn e))
                                               | (p2, POk k) => (a2, p2, EOk (Some k))
                                               end
                              end
                          end
                     else (a1, p, EOk None)) with
              | (a2, p2, EErr e) => (put_p a2 u p2, EErr e)
              | (a2, p2, EOk rx) =>
                  if exchanges then
                    match collect (f_data f) a2 with
                    | (a3, EErr e) => (put_p a3 u p2, EErr e)
                    | (a3, EOk es) => let '(p3, res) := add_all (s_linked s) rx es p2 in (put_p a3 u p3, res)
                    end
                  else (put_p a2 u p2, EOk tt)
              end
          end
      end
  end.
Fixpoint create_list (s : source) (i : nat) (l : list nat) (exchanges : bool) (a : arch) : arch * eret unit :=
  match l with
  | [] => (a, EOk tt)
  | r :: l => match create_single s i r exchanges a with
              | (a1, EErr e) => (a1, EErr e)
              | (a1, EOk _) => create_list s i l exchanges a1
              end
  end.
Definition refs_of (s : source) (i : nat) : list nat := dkeys (match dget i (s_files s) with Some fs => fs | None => [] end).
(** [get(uuid)]: [retrieve_or_fetch_entity], entity_store.py:513-531 and [_fetch], 486-502.  Looking up [_process_flow_map], a
    defaultdict, makes the key known. *)
Definition get (s : source) (i : nat) (a : arch) : arch * eret unit :=
  match dget i (a_p a) with
  | Some _ => (a, EOk tt)
  | None => create_list s i (refs_of s i) true (Ar (a_p a) (a_f a) (set_add i (a_known a)) (a_loaded a))
  end.
(** [_load_all], 556-567 *)
Fixpoint load_list (s : source) (l : list nat) (exchanges : bool) (a : arch) : arch * eret unit :=
  match l with
  | [] => (a, EOk tt)
  | i :: l => match create_list s i (refs_of s i) exchanges a with
              | (a1, EErr e) => (a1, EErr e)
              | (a1, EOk _) => load_list s l exchanges a1
              end
  end.
(** [load_all], entity_store.py:573-577 *)
Definition load_all (s : source) (exchanges : bool) (a : arch) : arch * eret unit :=
  if a_loaded a then (a, EOk tt)
  else match load_list s (a_known a) exchanges a with
       | (a1, EErr e) => (a1, EErr e)
       | (a1, EOk _) => (Ar (a_p a1) (a_f a1) (a_known a1) true, EOk tt)
       end.
(** What [retrieve_lcia_scores], 504-554, does to the archive *)
Definition scores (s : source) (i r : nat) (a : arch) : arch * eret unit :=
  match dget r (match dget i (s_files s) with Some fs => fs | None => [] end) with
  | None => (a, EErr FileNotFound)
  | Some None => (a, EErr BadFile)
  | Some (Some f) =>
      let a1 := match dget (f_act f) (a_p a) with Some _ => a | None => put_p a (f_act f) new_proc end in
      match find (fun x => y_inter x && Nat.eqb (y_flow x) r) (f_data f) with
      | None => (a1, EErr RefNotFound)
      | Some x => (create_flow x a1, EOk tt)
      end
  end.

Inductive eop := Get (i : nat) | LoadAll (exchanges : bool) | Scores (i r : nat).
Definition estep (s : source) (o : eop) (a : arch) : arch * eret unit :=
  match o with Get i => get s i a | LoadAll b => load_all s b a | Scores i r => scores s i r a end.
(** The archive after a history of calls, failed ones included *)
Definition ehist (s : source) (l : list eop) : arch := fold_left (fun a o => fst (estep s o a)) l (new_arch s).
(** [count_by_type('process')], 116-119, and the keys that [processes()], 121-127, gets one by one *)
Definition process_count (a : arch) : nat := List.length (a_known a).

(** Model of /repo/lcatools/implementations/configure.py (ConfigureImplementation), of the characterization part of
    /repo/lcatools/entities/flows.py it drives, and of the termination index of /repo/lcatools/implementations/index.py.

    Simplifications: an archive is its processes (ProcModel.v, by external_ref), the characterizations of its flows and the
    termination index; flow and quantity arguments always resolve in the archive (process arguments may not), an entity
    is named by its number; every characterization is its 'GLO' value (configuration uses no other location); printing is
    left out; directions are the raw strings supplied by the caller.  A Python set or dict iterates in the order of the
    list that models it, the same each time. *)
From Coq Require Import String Ascii List.
From Verif Require Import Num Base PyStr ProcModel.
Open Scope nat_scope.
Open Scope string_scope.
Open Scope list_scope.

Inductive cexn := CProc (e : pexn) | CNotFound | CRuntimeError | CDeleteReference | CInvalidDirection | CIndexError | CTypeError | CValueError.
Notation step := (option cexn).

(** The archive: processes, flow characterizations (flows.py:35, by (flow, quantity)), the [ti] attribute (index.py:28-34),
    a set of (flow, direction, process), absent until the index interface is first made *)
Record arch := A { a_procs : dict nat proc; a_cfs : dict (nat * nat) Qc; a_ti : option (list (nat * dirn * nat)) }.
(** [LcFlow.cf], flows.py:236-249 *)
Definition acf (a : arch) (f q : nat) : Qc := match dget (f, q) (a_cfs a) with Some v => v | None => Q2Qc 0 end.
Definition get (a : arch) (pr : nat) : option proc := dget pr (a_procs a).
Definition set_proc (a : arch) (pr : nat) (p : proc) : arch := A (dset pr p (a_procs a)) (a_cfs a) (a_ti a).

(** interfaces/iindex.py:7-8, 11-17: the two directions, and [check_direction] on a string *)
Definition canon (s : string) : option dirn :=
  if String.eqb s "Input" then Some Input else if String.eqb s "Output" then Some Output else None.
Definition check_direction (s : string) : dirn + cexn :=
  match s with
  | EmptyString => inr CIndexError
  | String c _ => if (Ascii.eqb c "i" || Ascii.eqb c "I")%bool then inl Input
                  else if (Ascii.eqb c "o" || Ascii.eqb c "O")%bool then inl Output
                  else inr (CProc PKeyError)
  end.
(** [comp_dir], iindex.py:24-31 (an empty string raises IndexError, which is not caught) *)
Definition opp (d : dirn) : dirn := match d with Input => Output | Output => Input end.
Definition comp_dir (s : option string) : option dirn + cexn :=
  match s with
  | None => inl None
  | Some s => match check_direction s with
              | inl d => inl (Some (opp d))
              | inr (CProc PKeyError) => inr CInvalidDirection
              | inr e => inr e
              end
  end.

(** [_check_direction], configure.py:80-88: the direction of the only un-terminated exchange of the flow *)
Definition find_direction (p : proc) (f : nat) : dirn + cexn :=
  match filter (fun k => match k_term k with None => true | Some _ => false end) (gen_exchanges p (Some f) None None) with
  | [_; _] => inr (CProc PValueError)
  | [] => inr (CProc PKeyError)
  | k :: _ => inl (k_dir k)
  end.

(** [set_reference], configure.py:90-106.  A direction string other than 'Input'/'Output' is not the direction of any
    exchange: [add_reference] (processes.py:402-405, [_set_reference] 219-236) then recomputes the allocation and raises KeyError. *)
Definition set_reference (a : arch) (pr f : nat) (d : option string) : arch * step :=
  match get a pr with
  | None => (a, Some CNotFound)
  | Some p =>
      match (match d with None => match find_direction p f with inl d => inl (Some d) | inr e => inr e end | Some s => inl (canon s) end) with
      | inr e => (a, Some e)
      | inl (Some d) => let '(p', r) := add_reference (acf a) p f d in
                        (set_proc a pr p', match r with POk _ => None | PErr e => Some (CProc e) end)
      | inl None => (set_proc a pr (match alloc_qty p with Some _ => allocate (acf a) p (p_qty p) | None => p end), Some (CProc PKeyError))
      end
  end.

(** the arguments of [unset_reference]: all processes with the flow and direction; one process, all its references
    (in the direction); one process, flow and direction *)
Inductive uarg := UAll (f : nat) (d : option string) | URefs (pr : nat) (d : option string) | UOne (pr f : nat) (d : option string).
(** [remove_reference] on each (flow, direction) of a list, configure.py:129-135 *)
Fixpoint remove_all (cf : nat -> nat -> Qc) (p : proc) (ks : list key) : proc * step :=
  match ks with
  | [] => (p, None)
  | k :: r => match remove_reference cf p (k_flow k) (k_dir k) with
              | (p', POk _) => remove_all cf p' r
              | (p', PErr e) => (p', Some (CProc e))
              end
  end.
(** configure.py:121-127: [p.references()] walks the set [reference_entity] (processes.py:416-422) while [remove_reference]
    takes a member out of it, so the walk ends in RuntimeError (set changed size during iteration) after one removal *)
Fixpoint remove_everywhere (a : arch) (ps : list (nat * proc)) (f : nat) (d : dirn) : arch * step :=
  match ps with
  | [] => (a, None)
  | (pr, p) :: r => if mem (f, d, None) (p_refs p)
                    then (set_proc a pr (fst (remove_reference (acf a) p f d)), Some CRuntimeError)
                    else remove_everywhere a r f d
  end.
(** [unset_reference], configure.py:108-139 *)
Definition unset_reference (a : arch) (u : uarg) : arch * step :=
  match u with
  | UAll f d => match d with
                | None => (a, None)
                | Some s => match canon s with None => (a, None) | Some d => remove_everywhere a (a_procs a) f d end
                end
  | URefs pr d =>
      match get a pr with
      | None => (a, Some CNotFound)
      | Some p => let ks := match d with
                            | None => p_refs p
                            | Some s => match canon s with None => [] | Some d => filter (fun k => eqb (k_dir k) d) (p_refs p) end
                            end in
                  let '(p', e) := remove_all (acf a) p ks in (set_proc a pr p', e)
      end
  | UOne pr f d =>
      match get a pr with
      | None => (a, Some CNotFound)
      | Some p =>
          match (match d with None => match find_direction p f with inl d => inl (Some d) | inr e => inr e end | Some s => inl (canon s) end) with
          | inr e => (a, Some e)
          | inl None => (a, Some (CProc PKeyError))
          | inl (Some d) => let '(p', r) := remove_reference (acf a) p f d in
                            (set_proc a pr p', match r with POk _ => None | PErr e => Some (CProc e) end)
          end
      end
  end.

(** [is_allocated], processes.py:497-533, strict=False; [r] is a member of reference_entity, found by [find_exchange] *)
Definition is_allocated (cf : nat -> nat -> Qc) (p : proc) (r : key) : bool :=
  match find_exchange p (SExch r) (Some true) None with
  | PErr _ => false
  | POk k => match alloc_qty p with
             | Some q => negb (eqb (cf (k_flow k) q) (Q2Qc 0))
             | None => existsb (fun ke => negb (mem (fst ke) (p_refs p)) && din k (x_vdict (snd ke)))%bool (p_exch p)
             end
  end.
(** [remove_allocation], processes.py:535-537, exchanges.py:438-445 *)
Definition remove_allocation (p : proc) (r : key) : proc :=
  with_exch p (map (fun ke => (fst ke, X (x_value (snd ke)) (ddel r (x_vdict (snd ke))) (x_ref (snd ke)))) (p_exch p)).
(** [allocate_by_quantity], configure.py:164-198 *)
Definition allocate_by_quantity (ow : bool) (a : arch) (pr q : nat) : arch * step :=
  match get a pr with
  | None => (a, Some CNotFound)
  | Some p =>
      if ow then (set_proc a pr (allocate (acf a) (fold_left remove_allocation (p_refs p) p) (Some q)), None)
      else if existsb (is_allocated (acf a) p) (p_refs p) then (a, None)
      else (set_proc a pr (allocate (acf a) p (Some q)), None)
  end.

Section Conf.
(** [reference_entity] of the flows, flows.py:40-51 *)
Variable rq : nat -> option nat.
(** [characterize_flow], configure.py:141-162, with [has_characterization] 208-220, [del_characterization] 222-225 and
    [add_characterization] 162-206 of flows.py *)
Definition characterize_flow (ow : bool) (a : arch) (f q : nat) (v : Qc) : arch * step :=
  let with_cfs c := A (a_procs a) c (a_ti a) in
  if din (f, q) (a_cfs a) then
    if ow then if eqb (rq f) (Some q) then (a, Some CDeleteReference)
               else (with_cfs (dset (f, q) v (ddel (f, q) (a_cfs a))), None)
    else (a, None)
  else (with_cfs (dset (f, q) v (a_cfs a)), None).

(** [re_index], index.py:32-52, cutoffs=False: the references of every process *)
Definition index_of (a : arch) : list (nat * dirn * nat) :=
  set_of (flat_map (fun pp => map (fun k => (k_flow k, k_dir k, fst pp)) (p_refs (snd pp))) (a_procs a)).
Definition re_index (a : arch) : arch := A (a_procs a) (a_cfs a) (Some (index_of a)).
(** making the index interface, index.py:23-26 *)
Definition make_index (a : arch) : arch := match a_ti a with None => re_index a | Some _ => a end.
(** [terminate], index.py:85-106 (the archive has no method of that name), on an archive whose index interface has been made;
    the generator yields a process once per index entry *)
Definition terminate (a : arch) (f : nat) (d : option string) : list nat + cexn :=
  match comp_dir d with
  | inr e => inr e
  | inl cd => inl (map snd (filter (fun e => Nat.eqb (fst (fst e)) f && match cd with None => true | Some d => eqb d (snd (fst e)) end)%bool
                                   (match a_ti a with Some l => l | None => [] end)))
  end.

(** a configuration, configure.py:9-14, 19-29: for each option a set of argument tuples *)
Record config := C { c_set : list (nat * nat * option string); c_unset : list uarg; c_char : list (nat * nat * Qc); c_alloc : list (nat * nat) }.
Section Steps.
  Context {T : Type}.
  Variable f : arch -> T -> arch * step.
  Fixpoint steps (a : arch) (l : list T) : arch * step :=
    match l with
    | [] => (a, None)
    | x :: r => match f a x with (a', None) => steps a' r | (a', Some e) => (a', Some e) end
    end.
End Steps.
Definition bind (x : arch * step) (f : arch -> arch * step) : arch * step :=
  match x with (a, None) => f a | (a, Some e) => (a, Some e) end.
(** [apply_config], configure.py:19-48 *)
Definition apply_config (c : config) (ow : bool) (a : arch) : arch * step :=
  bind (steps (fun a x => set_reference a (fst (fst x)) (snd (fst x)) (snd x)) a (c_set c)) (fun a =>
  bind (steps unset_reference a (c_unset c)) (fun a =>
  bind (steps (fun a x => characterize_flow ow a (fst (fst x)) (snd (fst x)) (snd x)) a (c_char c)) (fun a =>
  bind (steps (fun a x => allocate_by_quantity ow a (fst x) (snd x)) a (c_alloc c)) (fun a =>
  (match a_ti a with Some _ => re_index a | None => a end, None))))).
End Conf.

(** * The configuration stored with a resource, /repo/antelope_catalog/lc_resource.py *)
(** one option with its arguments, all strings that name entities of the archive (or not: [None]) except the value *)
Inductive opt := OSet (pr f : nat) (d : string) | OUnset (pr f : nat) (d : string) | OChar (f q : nat) (v : Qc) | OAlloc (pr q : nat).
(** [check_config], configure.py:50-78: the process must be found, the direction must be one [check_direction] accepts *)
Definition check_config (a : arch) (o : opt) : step :=
  match o with
  | OSet pr f d | OUnset pr f d =>
      match get a pr with
      | None => Some CNotFound
      | Some _ => match check_direction d with inl _ => None | inr (CProc PKeyError) => Some CValueError | inr e => Some e end
      end
  | OChar f q v => None
  | OAlloc pr q => match get a pr with None => Some CNotFound | Some _ => None end
  end.
Definition no_config : config := C [] [] [] [].
(** [_add_config], lc_resource.py:293-300 *)
Definition add_opt (c : config) (o : opt) : config :=
  match o with
  | OSet pr f d => C (c_set c ++ [(pr, f, Some d)]) (c_unset c) (c_char c) (c_alloc c)
  | OUnset pr f d => C (c_set c) (c_unset c ++ [UOne pr f (Some d)]) (c_char c) (c_alloc c)
  | OChar f q v => C (c_set c) (c_unset c) (c_char c ++ [(f, q, v)]) (c_alloc c)
  | OAlloc pr q => C (c_set c) (c_unset c) (c_char c) (c_alloc c ++ [(pr, q)])
  end.
(** a loaded resource: its stored configuration and its archive *)
Record res := R { r_config : config; r_arch : arch }.
(** [add_config], lc_resource.py:302-322, on a resource that stores its configuration (store=True or not internal) *)
Definition add_config (rq : nat -> option nat) (r : res) (o : opt) : res * step :=
  match check_config (r_arch r) o with
  | Some e => (r, Some e)
  | None => let '(a, e) := apply_config rq (add_opt no_config o) false (r_arch r) in (R (add_opt (r_config r) o) a, e)
  end.
(** [_instantiate], lc_resource.py:70-98, and [apply_config], 134-137: the archive as read from the source, then the stored configuration *)
Definition instantiate (rq : nat -> option nat) (source : arch) (c : config) : arch * step :=
  match c with C [] [] [] [] => (source, None) | _ => apply_config rq c false source end.

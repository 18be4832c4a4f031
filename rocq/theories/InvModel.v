(** Model of /repo/lcatools/implementations/inventory.py (InventoryImplementation), /repo/lcatools/implementations/background.py
    (BackgroundImplementation, the proxy background of an ordinary archive) and of the argument handling of
    /repo/antelope_background/background/implementation.py (TarjanBackgroundImplementation).

    Simplifications: the archive is that of ConfModel.v (processes, characterizations, termination index) with the list of its flows;
    entities are named by numbers standing for their external_ref; a direction argument is 'Input', 'Output' or None; generators are lists,
    the first error replaces the list; a process that is not in the archive is one error, [INotFound]. *)
From Coq Require Import String List.
From Verif Require Import Num Base PyStr ProcModel ConfModel.
Open Scope nat_scope.
Open Scope string_scope.
Open Scope list_scope.

Inductive iexn := IProc (e : pexn) | IConf (e : cexn) | INotFound | IAttributeError.
Definition lift {A} (x : pret A) : A + iexn := match x with POk a => inl a | PErr e => inr (IProc e) end.
(** the archive, its flows, [static] (entity_store.py:368-370) *)
Record store := S { s_arch : arch; s_flows : list nat; s_static : bool }.
Definition proc_of (s : store) (pr : nat) : proc + iexn := match get (s_arch s) pr with Some p => inl p | None => inr INotFound end.
(** [get] of a flow, basic.py:62-67, 73: a static archive gives None for what it does not have (entity_store.py, [__getitem__]) *)
Definition fetch_flow (s : store) (f : nat) : option nat + iexn :=
  if mem f (s_flows s) then inl (Some f) else if s_static s then inl None else inr INotFound.

(** [exchange_values], inventory.py:15-29, with [get_reference], basic.py:50-57 and LcProcess.exchange_values, processes.py:308-317 *)
Definition exchange_values (s : store) (pr f : nat) (d : option dirn) (t : option string) (ref : option bool) : list key + iexn :=
  match proc_of s pr with
  | inr e => inr e
  | inl p =>
      match ref with
      | Some true => inl (filter (fun k => Nat.eqb (k_flow k) f) (p_refs p))
      | _ => match fetch_flow s f with
             | inr e => inr e
             | inl fl => inl (filter (fun k => negb (match ref with Some false => is_ref p k | _ => false end)
                                               && match t with None => true | Some t => eqb (k_term k) (Some t) end)%bool
                                     (gen_exchanges p fl d None))
             end
      end
  end.

(** [inventory], inventory.py:31-39, LcProcess.inventory, processes.py:326-360: without a reference flow all exchanges with their own values *)
Definition inventory (s : store) (pr : nat) (r : option nat) : list (key * option Qc) + iexn :=
  match proc_of s pr with
  | inr e => inr e
  | inl p => match r with
             | None => inl (map (fun ke => (fst ke, value (snd ke))) (p_exch p))
             | Some r => match inventory_ref (acf (s_arch s)) p (SFlow r) None with
                         | POk l => inl (map (fun kv => (fst kv, Some (snd kv))) l)
                         | PErr e => inr (IProc e)
                         end
             end
  end.
(** the sum of a list of values, an error if one of them is None *)
Fixpoint total (l : list (option Qc)) : option Qc :=
  match l with [] => Some (Q2Qc 0) | Some v :: r => option_map (Qcplus v) (total r) | None :: _ => None end.
(** [exchange_relation], inventory.py:45-66 *)
Definition exchange_relation (s : store) (pr : nat) (r : option nat) (f : nat) (d : dirn) (t : option string) : Qc + iexn :=
  match inventory s pr r, proc_of s pr with
  | inl l, inl p =>
      let xs := filter (fun kv => Nat.eqb (k_flow (fst kv)) f && eqb (k_dir (fst kv)) d)%bool l in
      match find_exchange p (match r with None => SNone | Some r => SFlow r end) (Some true) None with
      | PErr e => inr (IProc e)
      | POk n =>
          let xs := match t with None => xs | Some t => filter (fun kv => eqb (k_term (fst kv)) (Some t)) xs end in
          match xs with
          | [] => inl (Q2Qc 0)
          | [x] => lift (pdiv (snd x) (exch_value p n))
          | _ => lift (pdiv (total (map snd xs)) (exch_value p n))
          end
      end
  | inr e, _ => inr e
  | _, inr e => inr e
  end.

(** * The proxy background *)
(** [background_flows], background.py:59-72, no search: flow, direction and process of every reference *)
Definition background_flows (s : store) : list (nat * dirn * nat) :=
  flat_map (fun pp => map (fun k => (k_flow k, k_dir k, fst pp)) (p_refs (snd pp))) (a_procs (s_arch s)).
(** [exterior_flows], background.py:74-93, no search.  [is_elementary] is an attribute neither of the class nor of its bases (abstract_query.py:76-84 is
    commented out), so the first flow that nothing terminates ends the generator. *)
Fixpoint exterior_flows (s : store) (d : option string) (fs : list nat) : list nat + iexn :=
  match fs with
  | [] => inl []
  | f :: r => match terminate (make_index (s_arch s)) f d with
              | inr e => inr (IConf e)
              | inl [] => inr IAttributeError
              | inl _ => exterior_flows s d r
              end
  end.
(** [foreground], 125-129; [lci], 155-160 *)
Definition foreground (s : store) (pr : nat) (r : option nat) : key + iexn :=
  match proc_of s pr with inr e => inr e | inl p => lift (find_exchange p (match r with None => SNone | Some r => SFlow r end) (Some true) None) end.
Definition lci (s : store) (pr : nat) (r : option nat) : list (key * option Qc) + iexn := inventory s pr r.
(** [is_in_background], 141-147, through the index interface of the archive: [get] of a static archive does not raise *)
Definition is_in_background (s : store) (pr : nat) : bool := if s_static s then true else match proc_of s pr with inl _ => true | inr _ => false end.
(** [bg_lcia], 162-165: calls [lci] with the process object, which [to_uuid] (interfaces/__init__.py:27-45) hands to uuid.UUID: AttributeError *)
Definition bg_lcia (s : store) (pr : nat) : unit + iexn := match proc_of s pr with inr e => inr e | inl _ => inr IAttributeError end.

(** * Arguments of the flattened background, [_check_ref], antelope_background/background/implementation.py:53-81 *)
Inductive barg := BStr (pr : nat) | BProc (pr : nat) | BExch (pr : nat) (k : key).
(** what is passed on as the reference flow: an external_ref or an exchange object *)
Inductive fref := FRef (f : nat) | FExch (k : key).
Definition check_ref (s : store) (b : barg) (opt : option nat) : nat * fref + iexn :=
  match b with
  | BStr pr => match foreground s pr opt with inl k => inl (pr, FRef (k_flow k)) | inr e => inr e end
  | BProc pr => match foreground s pr opt with inl k => inl (pr, FExch k) | inr e => inr e end
  | BExch pr k => match proc_of s pr with
                  | inr e => inr e
                  | inl p => if is_ref p k then inl (pr, FRef (k_flow k)) else inr (IProc PValueError)
                  end
  end.
(** a query of the flattened background: [q] answers for an external_ref, an exchange object is in no index of it *)
Definition ask {A} (q : nat -> nat -> A) (none : A) (s : store) (b : barg) (opt : option nat) : A + iexn :=
  match check_ref s b opt with inr e => inr e | inl (pr, FRef f) => inl (q pr f) | inl (_, FExch _) => inl none end.

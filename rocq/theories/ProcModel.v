(** Model of /repo/lcatools/entities/processes.py (LcProcess), /repo/lcatools/exchanges.py (Exchange, ExchangeValue) and of
    the process part of /repo/lcatools/archives/lc_archive.py.

    Simplifications: one process, so all exchanges belong to it; an exchange is identified by its key, the hash of
    (flow external_ref, direction, termination) -- hash collisions are not modelled; flows are numbers standing for their
    external_ref (which is also their uuid); a reference argument is an exchange object of the process, given by its key,
    read as the process's own exchange; a [value] argument is a number or None (dict values are not modelled); comments
    are not modelled.  [cf f q] is the flow's characterization factor, constant during the history. *)
From Verif Require Import Num Base PyStr.
Open Scope nat_scope.
Open Scope string_scope.
Open Scope list_scope.

Inductive pexn := DuplicateExchange | AmbiguousReference | ExchangeError | ReferenceSettingFailed | NoExchangeFound
                | MultipleReferencesFound | PKeyError | PTypeError | PValueError | PZeroDivision.
Inductive pret (A : Type) := POk (a : A) | PErr (e : pexn).
Arguments POk {A} _. Arguments PErr {A} _.

Inductive dirn := Input | Output.
Definition dirn_eqb (a b : dirn) : bool := match a, b with Input, Input | Output, Output => true | _, _ => false end.
Lemma dirn_eqb_spec a b : reflect (a = b) (dirn_eqb a b).
Proof. destruct a, b; constructor; congruence. Qed.
#[export] Instance EqB_dirn : EqB dirn := {| eqb_spec := dirn_eqb_spec |}.

(** exchanges.py:53-56, [lkey] 145-151 *)
Notation key := (nat * dirn * option string)%type.
Definition k_flow (k : key) : nat := fst (fst k).
Definition k_dir (k : key) : dirn := snd (fst k).
Definition k_term (k : key) : option string := snd k.

(** ExchangeValue, exchanges.py:297-305: [_value], [_value_dict], [_is_reference] *)
Record exch := X { x_value : option Qc; x_vdict : dict key (option Qc); x_ref : bool }.
(** [value], 311-319 *)
Definition value (e : exch) : option Qc :=
  match x_value e with Some v => Some v | None => match x_vdict e with [(_, v)] => v | _ => None end end.

(** LcProcess, processes.py:166-194: [_exchanges], [reference_entity] (a set, by key), [_alloc_by_quantity], [_alloc_sum] *)
Record proc := P { p_exch : dict key exch; p_refs : list key; p_qty : option nat; p_sum : Qc }.
Definition new_proc : proc := P [] [] None (Q2Qc 0).
(** [alloc_qty], 232-236 *)
Definition alloc_qty (p : proc) : option nat := if eqb (p_sum p) (Q2Qc 0) then None else p_qty p.
Definition with_exch (p : proc) x := P x (p_refs p) (p_qty p) (p_sum p).
Definition p_set (p : proc) (k : key) (e : exch) : proc := with_exch p (dset k e (p_exch p)).

Definition exch_value (p : proc) (k : key) : option Qc := match dget k (p_exch p) with Some e => value e | None => None end.
(** [is_reference] of the process's exchange, exchanges.py:84-86 *)
Definition is_ref (p : proc) (k : key) : bool := match dget k (p_exch p) with Some e => x_ref e | None => false end.
(** [_alloc_dict], 424-440 *)
Definition alloc_dict (cf : nat -> nat -> Qc) (p : proc) (q : nat) : list (key * Qc) :=
  flat_map (fun r => match exch_value p r with Some v => [(r, v * cf (k_flow r) q)%Qc] | None => [] end) (p_refs p).
(** [allocate_by_quantity], 442-471 *)
Definition allocate (cf : nat -> nat -> Qc) (p : proc) (q : option nat) : proc :=
  match q with
  | None => P (p_exch p) (p_refs p) None (Q2Qc 0)
  | Some q => let total := Qcsum (map snd (alloc_dict cf p q)) in
              if eqb total (Q2Qc 0) then p else P (p_exch p) (p_refs p) (Some q) total
  end.
(** [allocation_factors], 473-483 *)
Definition allocation_factors (cf : nat -> nat -> Qc) (p : proc) (q : option nat) : pret (list (key * Qc)) :=
  match (match q with Some q => Some q | None => p_qty p end) with
  | None => PErr PValueError
  | Some q => let d := alloc_dict cf p q in
              let s := Qcsum (map snd d) in
              match d with [] => POk [] | _ => if eqb s (Q2Qc 0) then PErr PZeroDivision else POk (map (fun kv => (fst kv, snd kv / s)%Qc) d) end
  end.

(** [add_reference], 381-384, with [_set_reference], 212-229 and [Exchange.set_ref], exchanges.py:88-92 *)
Definition add_reference (cf : nat -> nat -> Qc) (p : proc) (f : nat) (d : dirn) : proc * pret key :=
  let k : key := (f, d, None) in
  let p1 := match dget k (p_exch p) with
            | Some e => P (dset k (X (x_value e) (x_vdict e) true) (p_exch p)) (set_add k (p_refs p)) (p_qty p) (p_sum p)
            | None => p
            end in
  let p2 := match alloc_qty p1 with Some _ => allocate cf p1 (p_qty p1) | None => p1 end in
  (p2, if din k (p_exch p) then POk k else PErr PKeyError).
(** [remove_reference], 386-393, with [remove_allocation], 517-519 and exchanges.py:434-441 *)
Definition remove_reference (cf : nat -> nat -> Qc) (p : proc) (f : nat) (d : dirn) : proc * pret unit :=
  let k : key := (f, d, None) in
  match dget k (p_exch p) with
  | None => (p, PErr PKeyError)
  | Some e =>
      let xs := dset k (X (x_value e) (x_vdict e) false) (p_exch p) in
      let xs := map (fun ke => (fst ke, X (x_value (snd ke)) (ddel k (x_vdict (snd ke))) (x_ref (snd ke)))) xs in
      let p1 := P xs (set_remove k (p_refs p)) (p_qty p) (p_sum p) in
      (match p_qty p with Some _ => allocate cf p1 (p_qty p) | None => p1 end, POk tt)
  end.

(** [ExchangeValue.__setitem__], exchanges.py:400-432, on the exchange [e] of key [k]; [is_ref] is [key.is_reference] *)
Definition setitem (k : key) (e : exch) (r : key) (is_ref : bool) (v : option Qc) : pret exch :=
  if negb is_ref then PErr AmbiguousReference
  else if din r (x_vdict e) then PErr DuplicateExchange
  else if x_ref e then
    (if eqb k r then match x_value e with None => POk (X v (x_vdict e) true) | Some _ => PErr DuplicateExchange end
     else if eqb v (Some (Q2Qc 0)) then POk e else PErr PValueError)
  else POk (X (x_value e) (dset r v (x_vdict e)) false).
(** [add_to_value], exchanges.py:279-284 *)
Definition add_to_value (e : exch) (r : option key) (v : Qc) : pret exch :=
  match r with
  | None => match x_value e with Some w => POk (X (Some (w + v)%Qc) (x_vdict e) (x_ref e)) | None => PErr PTypeError end
  | Some r => match dget r (x_vdict e) with
              | Some (Some w) => POk (X (x_value e) (dset r (Some (w + v)%Qc) (x_vdict e)) (x_ref e))
              | Some None => PErr PTypeError
              | None => POk e
              end
  end.
(** A termination argument: a string, or another object whose [str] is taken for the stored exchange only. *)
Inductive targ := TNone | TStr (s : string) | TObj (str : string).
Definition t_key (t : targ) : option string := match t with TNone => None | TStr s | TObj s => Some s end.
(** [add_exchange], processes.py:521-587.  The key tested for presence is built from the raw termination, so a termination
    that is not a string never matches.  Returns the key of the exchange (None when the call returns None). *)
Definition add_exchange (p : proc) (f : nat) (d : dirn) (r : option key) (v : option Qc) (t : targ) (dups : bool) : proc * pret (option key) :=
  let k : key := (f, d, t_key t) in
  match (match t with TObj _ => None | _ => dget k (p_exch p) end) with
  | Some e =>
      match v with
      | None => (p, POk None)
      | Some v =>
          if eqb v (Q2Qc 0) then (p, POk None) else
          match (match r with
                 | None => match x_value e with
                           | None => POk (X (Some v) (x_vdict e) (x_ref e))
                           | Some _ => if dups then add_to_value e None v else PErr DuplicateExchange
                           end
                 | Some r => match setitem k e r (is_ref p r) (Some v) with
                             | POk e' => POk e'
                             | PErr DuplicateExchange => if dups then add_to_value e (Some r) v else PErr DuplicateExchange
                             | PErr x => PErr x
                             end
                 end) with
          | POk e' => (p_set p k e', POk (Some k))
          | PErr x => (p, PErr x)
          end
      end
  | None =>
      match r with
      | None => (p_set p k (X v [] false), POk (Some k))
      | Some r => if mem r (p_refs p) then
                    match setitem k (X None [] false) r (is_ref p r) v with
                    | POk e => (p_set p k e, POk (Some k))
                    | PErr x => (p, PErr x)
                    end
                  else (p, PErr PKeyError)
      end
  end.

(** [a / b] with Python's errors *)
Definition pdiv (a b : option Qc) : pret Qc :=
  match a, b with Some a, Some b => if eqb b (Q2Qc 0) then PErr PZeroDivision else POk (a / b)%Qc | _, _ => PErr PTypeError end.
(** [ExchangeValue.__getitem__], exchanges.py:348-398: exchange [k] per unit of exchange [item] *)
Definition getitem (cf : nat -> nat -> Qc) (p : proc) (k item : key) : pret Qc :=
  match dget k (p_exch p), dget item (p_exch p) with
  | Some e, Some i =>
      if x_ref i then
        if x_ref e then POk (if eqb k item then Q2Qc 1 else Q2Qc 0) else
        match alloc_qty p with
        | Some q => match value e with None => PErr PTypeError | Some v => POk (v / p_sum p * cf (k_flow item) q)%Qc end
        | None =>
            match x_vdict e with
            | [] => pdiv (x_value e) (value i)
            | _ => match dget item (x_vdict e) with None => POk (Q2Qc 0) | Some w => pdiv w (value i) end
            end
        end
      else match k_term item with Some _ => PErr ExchangeError | None => pdiv (x_value e) (value i) end
  | _, _ => PErr ExchangeError
  end.

(** [_gen_exchanges], 264-299: keys of the matching exchanges.  [_exch_map] holds the exchanges by flow. *)
Definition gen_exchanges (p : proc) (f : option nat) (d : option dirn) (ref : option bool) : list key :=
  let ks := match f, ref with
            | None, Some true => p_refs p
            | None, Some false => map fst (filter (fun ke => negb (x_ref (snd ke))) (p_exch p))
            | None, None => dkeys (p_exch p)
            | Some f, r => map fst (filter (fun ke => Nat.eqb (k_flow (fst ke)) f && match r with None => true | Some b => Bool.eqb (x_ref (snd ke)) b end) (p_exch p))
            end in
  filter (fun k => match d with None => true | Some d => eqb (k_dir k) d end) ks.
(** [find_exchange], 345-379.  [spec]: nothing, a flow, or an exchange (its direction is the default). *)
Inductive spec := SNone | SFlow (f : nat) | SExch (k : key).
Definition candidates (p : proc) (s : spec) (ref : option bool) (d : option dirn) : list key :=
  match s with
  | SNone => gen_exchanges p None d ref
  | SFlow f => gen_exchanges p (Some f) d ref
  | SExch k => gen_exchanges p (Some (k_flow k)) (match d with None => Some (k_dir k) | _ => d end) ref
  end.
Definition find_exchange (p : proc) (s : spec) (ref : option bool) (d : option dirn) : pret key :=
  let c := candidates p s ref d in
  match c with
  | [] => PErr NoExchangeFound
  | [x] => POk x
  | _ => match filter (fun k => match k_term k with None => true | Some _ => false end) c with
         | [] => PErr AmbiguousReference
         | [x] => POk x
         | _ => PErr MultipleReferencesFound
         end
  end.
(** [inventory], 318-343: the keys yielded with the values they carry ([from_allocated], exchanges.py:256-268, evaluates
    [x[ref]]; the first error stops the generator). *)
Fixpoint inv_values (cf : nat -> nat -> Qc) (p : proc) (r : key) (ks : list key) : pret (list (key * Qc)) :=
  match ks with
  | [] => POk []
  | k :: rest => match getitem cf p k r with
                 | PErr x => PErr x
                 | POk v => match inv_values cf p r rest with PErr x => PErr x | POk l => POk ((k, v) :: l) end
                 end
  end.
Definition inventory_ref (cf : nat -> nat -> Qc) (p : proc) (s : spec) (d : option dirn) : pret (list (key * Qc)) :=
  match (match find_exchange p s None d with PErr MultipleReferencesFound => find_exchange p s (Some true) d | x => x end) with
  | PErr x => PErr x
  | POk r => let isr := is_ref p r in
             inv_values cf p r (filter (fun k => if isr then negb (mem k (p_refs p)) else negb (eqb k r)) (dkeys (p_exch p)))
  end.

(** * JSON *)
(** [ExchangeValue.serialize(values=True)], exchanges.py:236-247, 463-477 *)
Record xjson := XJ { j_flow : nat; j_dir : dirn; j_term : option string; j_ref : bool; j_value : option Qc; j_vdict : list (dirn * nat * option Qc) }.
Definition x_json (ke : key * exch) : xjson :=
  let '(k, e) := ke in
  XJ (k_flow k) (k_dir k) (k_term k) (x_ref e) (value e)
     (if x_ref e then [] else map (fun rv => (k_dir (fst rv), k_flow (fst rv), snd rv)) (x_vdict e)).
(** [LcProcess.serialize(exchanges=True, values=True)], processes.py:606-620: sorted by (direction, flow), stably; and the
    AllocatedByQuantity property *)
Definition j_leb (a b : xjson) : bool :=
  match j_dir a, j_dir b with Input, Output => true | Output, Input => false | _, _ => Nat.leb (j_flow a) (j_flow b) end.
Fixpoint j_insert (a : xjson) (l : list xjson) : list xjson :=
  match l with [] => [a] | b :: r => if j_leb a b then a :: l else b :: j_insert a r end.
Definition j_sort (l : list xjson) : list xjson := fold_right j_insert [] l.
Definition serialize (p : proc) : list xjson * option nat := (j_sort (map x_json (p_exch p)), p_qty p).
(** [_process_from_json], lc_archive.py:86-136.  [ref_x] maps the flow to the exchange returned by add_exchange. *)
Fixpoint load_refs (cf : nat -> nat -> Qc) (xs : list xjson) (p : proc) (ref_x : dict nat (option key)) : proc * pret (dict nat (option key)) :=
  match xs with
  | [] => (p, POk ref_x)
  | x :: rest =>
      match add_exchange p (j_flow x) (j_dir x) None (j_value x) TNone false with
      | (p1, PErr e) => (p1, PErr e)
      | (p1, POk k) => match add_reference cf p1 (j_flow x) (j_dir x) with
                       | (p2, PErr e) => (p2, PErr e)
                       | (p2, POk _) => load_refs cf rest p2 (dset (j_flow x) k ref_x)
                       end
      end
  end.
Definition j_targ (x : xjson) : targ := match j_term x with None => TNone | Some s => TStr s end.
Fixpoint load_vdict (x : xjson) (vs : list (dirn * nat * option Qc)) (ref_x : dict nat (option key)) (p : proc) : proc * pret unit :=
  match vs with
  | [] => (p, POk tt)
  | (_, f, v) :: rest =>
      match dget f ref_x with
      | None => (p, PErr PKeyError)
      | Some rx => match add_exchange p (j_flow x) (j_dir x) rx v (j_targ x) false with
                   | (p1, PErr e) => (p1, PErr e)
                   | (p1, POk _) => load_vdict x rest ref_x p1
                   end
      end
  end.
Fixpoint load_nonrefs (xs : list xjson) (ref_x : dict nat (option key)) (p : proc) : proc * pret unit :=
  match xs with
  | [] => (p, POk tt)
  | x :: rest =>
      let '(p1, r1) := match j_value x with
                       | None => (p, POk None)
                       | Some v => add_exchange p (j_flow x) (j_dir x) None (Some v) (j_targ x) false
                       end in
      match r1 with
      | PErr e => (p1, PErr e)
      | POk _ => match load_vdict x (j_vdict x) ref_x p1 with
                 | (p2, PErr e) => (p2, PErr e)
                 | (p2, POk _) => load_nonrefs rest ref_x p2
                 end
      end
  end.
Definition load (cf : nat -> nat -> Qc) (j : list xjson * option nat) : pret proc :=
  let '(xs, q) := j in
  match load_refs cf (filter j_ref xs) new_proc [] with
  | (_, PErr e) => PErr e
  | (p1, POk ref_x) => match load_nonrefs (filter (fun x => negb (j_ref x)) xs) ref_x p1 with
                       | (_, PErr e) => PErr e
                       | (p2, POk _) => POk (match q with Some q => allocate cf p2 (Some q) | None => p2 end)
                       end
  end.

(** Public mutating calls *)
Inductive pop :=
| PAddExchange (f : nat) (d : dirn) (r : option key) (v : option Qc) (t : targ) (dups : bool)
| PAddReference (f : nat) (d : dirn)
| PRemoveReference (f : nat) (d : dirn)
| PAllocate (q : option nat).
Definition pstep (cf : nat -> nat -> Qc) (p : proc) (o : pop) : proc * option pexn :=
  let out {A} (x : proc * pret A) := (fst x, match snd x with POk _ => None | PErr e => Some e end) in
  match o with
  | PAddExchange f d r v t dups => out (add_exchange p f d r v t dups)
  | PAddReference f d => out (add_reference cf p f d)
  | PRemoveReference f d => out (remove_reference cf p f d)
  | PAllocate q => (allocate cf p q, None)
  end.

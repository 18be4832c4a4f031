(** Model of /repo/antelope_catalog/providers/openlca_jsonld.py (OpenLcaJsonLdArchive): units, flow properties, flows,
    processes and allocation factors of an openLCA JSON-LD archive; processes are those of ProcModel, quantities those of
    MiscModel.

    Simplifications: the JSON objects are already parsed, and have the fields the schema requires; ids are unique across types
    (they are uuids), so each type has its own id space (numbers for flow properties, flows and processes, strings for unit
    groups); the file store is a zip archive (a missing file raises KeyError); descriptive fields (names of flows and
    properties, categories, locations and dates of processes, CAS numbers) are left out; an archive created empty; numbers are
    rationals; the exchange hash is injective; the exchanges of one flow, a set in Python, are taken in insertion order. *)
From Coq Require Import String.
From Verif Require Import Num Base PyStr ProcModel MiscModel.
Open Scope nat_scope.
Open Scope string_scope.
Open Scope list_scope.

(** ** The files *)
Record ounit := OU { ou_name : string; ou_cf : Qc; ou_ref : bool }.
(** A flow: its location's name, if any, and its flow properties (id, conversionFactor, referenceFlowProperty). *)
Record oflow := OF { of_loc : option string; of_props : list (nat * Qc * bool) }.
Record oexch := OX { ox_flow : nat; ox_amount : Qc; ox_input : bool; ox_fp : nat; ox_unit : option string; ox_quant : bool }.
Record oproc := OP { op_name : string; op_exch : list oexch; op_alloc : list (Qc * string * nat); op_default : option string }.
Record source := Src { s_ug : dict string (list ounit); s_fp : dict nat string; s_fl : dict nat oflow; s_pr : dict nat oproc }.

Inductive oexn := OKeyError | OAssertion | OOpenLca | OTypeError | OZeroDiv | ODuplicate | OMultiple.
Inductive oret (A : Type) := OOk (a : A) | OErr (e : oexn).
Arguments OOk {A} _. Arguments OErr {A} _.

(** ** The archive *)
(** Quantities: a flow property, or the allocation quantity of a process name and an allocation type. *)
Inductive qid := FP (n : nat) | AQ (pname typ : string).
Definition qid_eqb (a b : qid) : bool :=
  match a, b with
  | FP n, FP m => Nat.eqb n m
  | AQ p t, AQ p' t' => eqb p p' && eqb t t'
  | _, _ => false
  end.
Lemma qid_eqb_spec a b : reflect (a = b) (qid_eqb a b).
Proof.
  destruct a as [n|p t], b as [m|p' t']; unfold qid_eqb; try (constructor; congruence).
  - destruct (Nat.eqb_spec n m); constructor; congruence.
  - destruct (eqb_spec p p'), (eqb_spec t t'); constructor; congruence.
Qed.
#[export] Instance EqB_qid : EqB qid := {| eqb_spec := qid_eqb_spec |}.
(** A flow entity: reference quantity, factors by quantity and location *)
Record flowe := FE { fe_ref : nat; fe_ch : dict qid (dict string Qc) }.
(** The archive; a process is stored with the allocation quantity it was allocated by. *)
Record oarch := OA { a_q : dict nat quantity; a_f : dict nat flowe; a_p : dict nat (proc * option qid) }.
Definition new_oarch : oarch := OA [] [] [].

(** [cf(quantity)], flows.py:236-249 with characterizations.py:80-91 *)
Definition flow_cf (f : flowe) (q : qid) : Qc :=
  match dget q (fe_ch f) with
  | Some locs => match dget "GLO" locs with Some v => v | None => 0%Qc end
  | None => 0%Qc
  end.
(** [add_characterization(q, value=v, location=loc)], flows.py:162-206, characterizations.py:93-109 *)
Definition add_char (f : flowe) (q : qid) (v : Qc) (loc : string) : oret flowe :=
  let locs := match dget q (fe_ch f) with Some l => l | None => [] end in
  if din loc locs then OErr ODuplicate else OOk (FE (fe_ref f) (dset q (dset loc v locs) (fe_ch f))).

(** [_create_unit], openlca_jsonld.py:80-101 *)
Fixpoint unit_table (l : list ounit) (t : dict string Qc) (u : option string) : oret (dict string Qc * option string) :=
  match l with
  | [] => OOk (t, u)
  | o :: l => if eqb (ou_cf o) 0%Qc then OErr OZeroDiv
              else let t := dset (ou_name o) (1 / ou_cf o)%Qc t in
                   if ou_ref o then if eqb (ou_cf o) 1%Qc then unit_table l t (Some (ou_name o)) else OErr OAssertion
                   else unit_table l t u
  end.
Definition create_unit (s : source) (ug : string) : oret (string * option (dict string Qc)) :=
  match dget ug (s_ug s) with
  | None => OOk (ug, None)
  | Some l => match unit_table l [] None with
              | OErr e => OErr e
              | OOk (t, None) => OErr OOpenLca
              | OOk (t, Some u) => OOk (u, Some t)
              end
  end.
(** [_create_quantity], 103-115 *)
Definition create_quantity (s : source) (q : nat) (a : oarch) : oarch * oret quantity :=
  match dget q (a_q a) with
  | Some e => (a, OOk e)
  | None => match dget q (s_fp s) with
            | None => (a, OErr OKeyError)
            | Some ug => match create_unit s ug with
                         | OErr e => (a, OErr e)
                         | OOk (u, t) => let e := Quantity u t in (OA (dset q e (a_q a)) (a_f a) (a_p a), OOk e)
                         end
            end
  end.

(** [_create_flow], 129-163 *)
Fixpoint flow_props (s : source) (l : list (nat * Qc * bool)) (qs : list (nat * Qc)) (rq : option nat) (a : oarch)
  : oarch * oret (list (nat * Qc) * option nat) :=
  match l with
  | [] => (a, OOk (qs, rq))
  | (q, fac, isref) :: l =>
      match create_quantity s q a with
      | (a1, OErr e) => (a1, OErr e)
      | (a1, OOk _) =>
          if isref then if eqb fac 1%Qc then flow_props s l qs (Some q) a1 else (a1, OErr OAssertion)
          else flow_props s l (if mem q (map fst qs) then qs else qs ++ [(q, fac)]) rq a1
      end
  end.
Fixpoint add_chars (l : list (nat * Qc)) (loc : string) (f : flowe) : oret flowe :=
  match l with
  | [] => OOk f
  | (q, v) :: l => match add_char f (FP q) v loc with OErr e => OErr e | OOk f => add_chars l loc f end
  end.
Definition create_flow (s : source) (f : nat) (a : oarch) : oarch * oret flowe :=
  match dget f (a_f a) with
  | Some e => (a, OOk e)
  | None => match dget f (s_fl s) with
            | None => (a, OErr OKeyError)
            | Some j =>
                let loc := match of_loc j with Some l => l | None => "GLO" end in
                match flow_props s (of_props j) [] None a with
                | (a1, OErr e) => (a1, OErr e)
                | (a1, OOk (qs, None)) => (a1, OErr OOpenLca)
                | (a1, OOk (qs, Some rq)) =>
                    match add_chars qs loc (FE rq [(FP rq, [("GLO", 1%Qc)])]) with
                    | OErr e => (a1, OErr e)
                    | OOk fe => (OA (a_q a1) (dset f fe (a_f a1)) (a_p a1), OOk fe)
                    end
                end
            end
  end.

Definition odir (x : oexch) : dirn := if ox_input x then Input else Output.
(** [_add_exchange], 165-191.  A failed conversion returns None, and [value *= None] is a TypeError; so is the formatting of
    the message when the flow property is not the flow's (line 183-185: one argument for three places). *)
Definition add_ox (s : source) (x : oexch) (p : proc) (a : oarch) : oarch * oret proc :=
  match create_flow s (ox_flow x) a with
  | (a1, OErr e) => (a1, OErr e)
  | (a1, OOk fe) =>
      match create_quantity s (ox_fp x) a1 with
      | (a2, OErr e) => (a2, OErr e)
      | (a2, OOk q) =>
          let vu := match ox_unit x with Some u => u | None => qu_unit q end in
          match (if eqb vu (qu_unit q) then OOk (ox_amount x)
                 else match uconvert (Some vu) None q with
                      | UNum k => OOk (ox_amount x * k)%Qc
                      | UZeroDivision => OErr OZeroDiv
                      | _ => OErr OTypeError
                      end) with
          | OErr e => (a2, OErr e)
          | OOk v => if Nat.eqb (ox_fp x) (fe_ref fe)
                     then match add_exchange p (ox_flow x) (odir x) None (Some v) TNone true with
                          | (p1, POk _) => (a2, OOk p1)
                          | (_, PErr _) => (a2, OErr ODuplicate)
                          end
                     else (a2, OErr OTypeError)
          end
      end
  end.
(** 251-252; the process reached so far is returned also after an error, because it is in the archive already (249) *)
Fixpoint add_oxs (s : source) (l : list oexch) (p : proc) (a : oarch) : oarch * proc * oret unit :=
  match l with
  | [] => (a, p, OOk tt)
  | x :: l => match add_ox s x p a with
              | (a1, OErr e) => (a1, p, OErr e)
              | (a1, OOk p1) => add_oxs s l p1 a1
              end
  end.
(** 254-261; the flows are all in the archive by then *)
Fixpoint add_quants (l : list oexch) (p : proc) : proc * oret unit :=
  match l with
  | [] => (p, OOk tt)
  | x :: l => if ox_quant x then match add_reference (fun _ _ => 0%Qc) p (ox_flow x) (odir x) with
                                 | (p1, POk _) => add_quants l p1
                                 | (p1, PErr _) => (p1, OErr OKeyError)
                                 end
              else add_quants l p
  end.

(** [_apply_olca_allocation], 193-226: one factor.  The allocation quantity ([_create_allocation_quantity], 117-127) is known by
    the name of the process and the type. *)
Definition alloc_one (s : source) (name : string) (af : Qc * string * nat) (p : proc) (a : oarch) : oarch * proc * oret unit :=
  let '(v, typ, f) := af in
  if eqb v 0%Qc then (a, p, OOk tt)
  else if eqb typ "CAUSAL_ALLOCATION" then (a, p, OOk tt)
  else match create_flow s f a with
       | (a1, OErr e) => (a1, p, OErr e)
       | (a1, OOk fe) =>
           match (match find_exchange p (SFlow f) (Some true) None with
                  | POk k => (p, OOk (Some k))
                  | PErr NoExchangeFound =>
                      match gen_exchanges p (Some f) None None with
                      | k :: _ => (fst (add_reference (fun _ _ => 0%Qc) p f (k_dir k)), OOk (Some k))
                      | [] => (p, OOk None)
                      end
                  | PErr _ => (p, OErr OMultiple)
                  end) with
           | (p1, OErr e) => (a1, p1, OErr e)
           | (p1, OOk None) => (a1, p1, OOk tt)
           | (p1, OOk (Some k)) =>
               match exch_value p1 k with
               | None => (a1, p1, OErr OTypeError)
               | Some x => if eqb x 0%Qc then (a1, p1, OErr OZeroDiv)
                           else match add_char fe (AQ name typ) (v / x)%Qc "GLO" with
                                | OErr e => (a1, p1, OErr e)
                                | OOk fe1 => (OA (a_q a1) (dset f fe1 (a_f a1)) (a_p a1), p1, OOk tt)
                                end
               end
           end
       end.
Fixpoint alloc_all (s : source) (name : string) (l : list (Qc * string * nat)) (p : proc) (a : oarch) : oarch * proc * oret unit :=
  match l with
  | [] => (a, p, OOk tt)
  | af :: l => match alloc_one s name af p a with
               | (a1, p1, OErr e) => (a1, p1, OErr e)
               | (a1, p1, OOk _) => alloc_all s name l p1 a1
               end
  end.
(** The factors of the flows of an archive in one quantity *)
Definition arch_cf (a : oarch) (q : qid) : nat -> nat -> Qc := fun f _ => match dget f (a_f a) with Some fe => flow_cf fe q | None => 0%Qc end.
(** [allocate_by_quantity] of the default method, 224-226: in ProcModel the allocation quantity is the number 0 *)
Definition default_alloc (name : string) (m : option string) (p : proc) (a : oarch) : proc * option qid :=
  match m with
  | None => (p, None)
  | Some t => let q := AQ name t in (allocate (arch_cf a q) p (Some 0), Some q)
  end.

(** [_create_process], 228-265 *)
Definition create_process (s : source) (i : nat) (a : oarch) : oarch * oret unit :=
  match dget i (a_p a) with
  | Some _ => (a, OOk tt)
  | None => match dget i (s_pr s) with
            | None => (a, OErr OKeyError)
            | Some j =>
                let put a p := OA (a_q a) (a_f a) (dset i p (a_p a)) in
                match add_oxs s (op_exch j) new_proc a with
                | (a1, p1, OErr e) => (put a1 (p1, None), OErr e)
                | (a1, p1, OOk _) =>
                    match add_quants (op_exch j) p1 with
                    | (p2, OErr e) => (put a1 (p2, None), OErr e)
                    | (p2, OOk _) =>
                        match alloc_all s (op_name j) (filter (fun af => negb (eqb (fst (fst af)) 0%Qc)) (op_alloc j)) p2 a1 with
                        | (a2, p3, OErr e) => (put a2 (p3, None), OErr e)
                        | (a2, p3, OOk _) => (put a2 (default_alloc (op_name j) (op_default j) p3 a2), OOk tt)
                        end
                    end
                end
            end
  end.

(** [get(id)] ([retrieve_or_fetch_entity], entity_store.py:513-531, and [_fetch], 267-280) for the three types, and [load_all]
    (282-286) *)
Inductive oop := GetP (i : nat) | GetF (f : nat) | GetQ (q : nat) | LoadAll.
Fixpoint load_ps (s : source) (l : list nat) (a : oarch) : oarch * oret unit :=
  match l with
  | [] => (a, OOk tt)
  | i :: l => match create_process s i a with (a1, OOk _) => load_ps s l a1 | r => r end
  end.
Definition ostep (s : source) (o : oop) (a : oarch) : oarch * oret unit :=
  match o with
  | GetP i => create_process s i a
  | GetF f => match create_flow s f a with (a1, OOk _) => (a1, OOk tt) | (a1, OErr e) => (a1, OErr e) end
  | GetQ q => match create_quantity s q a with (a1, OOk _) => (a1, OOk tt) | (a1, OErr e) => (a1, OErr e) end
  | LoadAll => load_ps s (dkeys (s_pr s)) a
  end.
(** A history of calls: the archive, and whether every call returned normally *)
Definition ohist (s : source) (l : list oop) : oarch * bool :=
  fold_left (fun ab o => match ostep s o (fst ab) with (a1, OOk _) => (a1, snd ab) | (a1, OErr _) => (a1, false) end) l (new_oarch, true).

(** Model of /repo/antelope_catalog/providers/ilcd/ilcd.py (IlcdArchive) and ilcd_lcia.py (IlcdLcia): unit groups, flow properties,
    flows, processes, LCIA methods and their factors.  Processes are those of ProcModel, quantities those of MiscModel.

    Simplifications: the XML files are already parsed and found by uuid in a zip archive (a missing file raises KeyError); uuids are
    numbers, with an id space per type; a file states the uuid it is named by; within a flow the internal ids of the properties are
    distinct; descriptive fields are left out, of a comment only whether there is one; no upstream archive; amounts are rationals. *)
From Coq Require Import String.
From Verif Require Import Num Base PyStr ProcModel MiscModel.
Open Scope nat_scope.
Open Scope string_scope.
Open Scope list_scope.

(** ** The files *)
Record iunit := IU { u_id : nat; u_name : string; u_mean : Qc }.
Record ugroup := UG { g_units : list iunit; g_ref : nat }.
Record iprop := IProp { ip_id : nat; ip_q : nat; ip_val : Qc }.
Record iflow := IF { fl_props : list iprop; fl_ref : nat }.
Record iexch := IX { ix_id : nat; ix_flow : nat; ix_dir : dirn; ix_amount : option Qc; ix_comment : bool }.
Record iproc := IP { pr_exch : list iexch; pr_ref : option nat }.
(** A factor: flow, location, value (its direction is not looked at) *)
Record ifac := IFac { fa_flow : nat; fa_loc : option string; fa_val : Qc }.
Record imeth := IM { m_ref : nat; m_factors : list ifac }.
Record source := Src { s_ug : dict nat ugroup; s_fp : dict nat nat; s_fl : dict nat iflow; s_pr : dict nat iproc; s_me : dict nat imeth }.

Inductive iexn := IKeyError | IIndexError | IZeroDiv | IValueError | IAttributeError | IProc (e : pexn).
Inductive iret (A : Type) := IOk (a : A) | IErr (e : iexn).
Arguments IOk {A} _. Arguments IErr {A} _.

(** ** The archive *)
(** Quantities: a flow property or an LCIA method *)
Inductive qid := FP (n : nat) | LM (n : nat).
Definition qid_eqb (a b : qid) : bool := match a, b with FP n, FP m | LM n, LM m => Nat.eqb n m | _, _ => false end.
Lemma qid_eqb_spec a b : reflect (a = b) (qid_eqb a b).
Proof. destruct a as [n|n], b as [m|m]; unfold qid_eqb; try (constructor; congruence); destruct (Nat.eqb_spec n m); constructor; congruence. Qed.
#[export] Instance EqB_qid : EqB qid := {| eqb_spec := qid_eqb_spec |}.
Record flowe := FE { fe_ref : option nat; fe_ch : dict qid (dict string Qc) }.
Record arch := Ar { a_q : dict nat quantity; a_f : dict nat flowe; a_m : dict nat nat; a_p : dict nat proc; a_loaded : bool }.
Definition new_arch : arch := Ar [] [] [] [] false.
Definition put_q (a : arch) q e := Ar (dset q e (a_q a)) (a_f a) (a_m a) (a_p a) (a_loaded a).
Definition put_f (a : arch) f e := Ar (a_q a) (dset f e (a_f a)) (a_m a) (a_p a) (a_loaded a).
Definition put_m (a : arch) m e := Ar (a_q a) (a_f a) (dset m e (a_m a)) (a_p a) (a_loaded a).
Definition put_p (a : arch) i p := Ar (a_q a) (a_f a) (a_m a) (dset i p (a_p a)) (a_loaded a).

(** [cf(quantity, locale)], flows.py:236-249, with characterizations.py:80-91 *)
Definition cf (f : flowe) (q : qid) (loc : string) : Qc :=
  match dget q (fe_ch f) with
  | None => 0%Qc
  | Some locs => match dget loc locs with Some v => v | None => match dget "GLO" locs with Some v => v | None => 0%Qc end end
  end.
Definition locs_of (f : flowe) (q : qid) : dict string Qc := match dget q (fe_ch f) with Some l => l | None => [] end.

(** [_create_unit], ilcd.py:281-306: the number of the reference unit is taken as a position in the list. *)
Fixpoint unit_table (l : list iunit) (t : dict string Qc) : iret (dict string Qc) :=
  match l with
  | [] => IOk t
  | u :: l => if eqb (u_mean u) 0%Qc then IErr IZeroDiv else unit_table l (dset (u_name u) (1 / u_mean u)%Qc t)
  end.
Definition create_unit (s : source) (g : nat) : iret (string * dict string Qc) :=
  match dget g (s_ug s) with
  | None => IErr IKeyError
  | Some g => match nth_error (g_units g) (g_ref g) with
              | None => IErr IIndexError
              | Some u => match unit_table (g_units g) [] with IErr e => IErr e | IOk t => IOk (u_name u, t) end
              end
  end.
(** [_create_quantity], 308-337, with [_check_or_retrieve_child], 226-230 *)
Definition create_quantity (s : source) (q : nat) (a : arch) : arch * iret quantity :=
  match dget q (a_q a) with
  | Some e => (a, IOk e)
  | None => match dget q (s_fp s) with
            | None => (a, IErr IKeyError)
            | Some g => match create_unit s g with
                        | IErr e => (a, IErr e)
                        | IOk (u, t) => let e := Quantity u (Some t) in (put_q a q e, IOk e)
                        end
            end
  end.
(** The loop of [_create_flow], 373-396, with [add_characterization], flows.py:162-206 *)
Fixpoint flow_props (s : source) (r : nat) (l : list iprop) (f : flowe) (a : arch) : arch * iret flowe :=
  match l with
  | [] => (a, IOk f)
  | x :: l =>
      match create_quantity s (ip_q x) a with
      | (a1, IErr IKeyError) => flow_props s r l f a1
      | (a1, IErr e) => (a1, IErr e)
      | (a1, IOk _) =>
          let isref := Nat.eqb (ip_id x) r in
          if isref && negb (eqb (ip_val x) 1%Qc) then (a1, IErr IValueError)
          else let rf := if isref then Some (ip_q x) else fe_ref f in
               let locs := locs_of f (FP (ip_q x)) in
               flow_props s r l (FE rf (if din "GLO" locs then fe_ch f else dset (FP (ip_q x)) (dset "GLO" (ip_val x) locs) (fe_ch f))) a1
      end
  end.
(** [_create_flow], 345-399; a KeyError inside it is caught by [_fetch], but none arises there *)
Definition create_flow (s : source) (f : nat) (a : arch) : arch * iret flowe :=
  match dget f (a_f a) with
  | Some e => (a, IOk e)
  | None => match dget f (s_fl s) with
            | None => (a, IErr IKeyError)
            | Some j => match flow_props s (fl_ref j) (fl_props j) (FE None []) a with
                        | (a1, IErr e) => (a1, IErr e)
                        | (a1, IOk fe) => (put_f a1 f fe, IOk fe)
                        end
            end
  end.

(** The first loop of [_create_process], 447-460: all flows are loaded; [_create_dummy_flow_from_exch], 339-343 *)
Fixpoint load_flows (s : source) (l : list iexch) (a : arch) : arch * iret unit :=
  match l with
  | [] => (a, IOk tt)
  | x :: l => match create_flow s (ix_flow x) a with
              | (a1, IOk _) => load_flows s l a1
              | (a1, IErr IKeyError) => load_flows s l (put_f a1 (ix_flow x) (FE None []))
              | (a1, IErr e) => (a1, IErr e)
              end
  end.
Definition nocf : nat -> nat -> Qc := fun _ _ => 0%Qc.
(** The second loop, 464-471; the process is mutated, so it is returned also after an error. *)
Fixpoint add_all (rf : option (nat * dirn)) (l : list iexch) (p : proc) : proc * iret unit :=
  match l with
  | [] => (p, IOk tt)
  | x :: l =>
      match add_exchange p (ix_flow x) (ix_dir x) None (ix_amount x) TNone true with
      | (p1, PErr e) => (p1, IErr (IProc e))
      | (p1, POk k) =>
          if ix_comment x && match k with None => true | Some _ => false end then (p1, IErr IAttributeError)
          else if eqb rf (Some (ix_flow x, ix_dir x))
               then match add_reference nocf p1 (ix_flow x) (ix_dir x) with
                    | (p2, PErr e) => (p2, IErr (IProc e))
                    | (p2, POk _) => add_all rf l p2
                    end
               else add_all rf l p1
      end
  end.
(** [get_reference_flow], 87-95 *)
Definition reference_flow (j : iproc) : iret (option (nat * dirn)) :=
  match pr_ref j with
  | None => IOk None
  | Some n => match find (fun x => Nat.eqb (ix_id x) n) (pr_exch j) with None => IErr IIndexError | Some x => IOk (Some (ix_flow x, ix_dir x)) end
  end.
(** [_create_process], 433-473, with [_create_process_entity], 401-431; reached for a process not held *)
Definition get_process (s : source) (i : nat) (a : arch) : arch * iret unit :=
  match dget i (a_p a) with
  | Some _ => (a, IOk tt)
  | None =>
      match dget i (s_pr s) with
      | None => (a, IOk tt)
      | Some j => match reference_flow j with
                  | IErr e => (a, IErr e)
                  | IOk rf => match load_flows s (pr_exch j) a with
                              | (a1, IErr e) => (a1, IErr e)
                              | (a1, IOk _) => let '(p, r) := add_all rf (pr_exch j) new_proc in (put_p a1 i p, r)
                              end
                  end
      end
  end.

(** [_create_lcia_quantity], ilcd_lcia.py:44-71, with [_make_reference_unit], 29-42 *)
Definition create_method (s : source) (m : nat) (j : imeth) (a : arch) : arch * iret unit :=
  match dget m (a_m a) with
  | Some _ => (a, IOk tt)
  | None => match create_quantity s (m_ref j) a with
            | (a1, IErr e) => (a1, IErr e)
            | (a1, IOk _) => (put_m a1 m (m_ref j), IOk tt)
            end
  end.
(** [has_characterization], flows.py:207-219 *)
Definition has_char (f : flowe) (q : qid) (loc : option string) : bool :=
  match dget q (fe_ch f) with
  | None => false
  | Some locs => match loc with None => true | Some l => eqb l "GLO" || din l locs end
  end.
(** [_load_factor], 89-103 *)
Definition load_factor (s : source) (m : nat) (b : bool) (x : ifac) (a : arch) : arch * iret unit :=
  match dget (fa_flow x) (a_f a), b with
  | None, false => (a, IOk tt)
  | _, _ =>
      match create_flow s (fa_flow x) a with
      | (a1, IErr e) => (a1, IErr e)
      | (a1, IOk f) =>
          if has_char f (LM m) (fa_loc x) then (a1, IOk tt)
          else let l := match fa_loc x with None => "GLO" | Some l => l end in
               (put_f a1 (fa_flow x) (FE (fe_ref f) (dset (LM m) (dset l (fa_val x) (locs_of f (LM m))) (fe_ch f))), IOk tt)
      end
  end.
Fixpoint load_factors (s : source) (m : nat) (b : bool) (l : list ifac) (a : arch) : arch * iret unit :=
  match l with
  | [] => (a, IOk tt)
  | x :: l => match load_factor s m b x a with
              | (a1, IErr e) => (a1, IErr e)
              | (a1, IOk _) => load_factors s m b l a1
              end
  end.
(** [load_lcia_method(u, load_all_flows)], 105-121 *)
Definition load_method (s : source) (m : nat) (b : option bool) (a : arch) : arch * iret unit :=
  match dget m (s_me s) with
  | None => (a, IErr IKeyError)
  | Some j => match create_method s m j a with
              | (a1, IErr e) => (a1, IErr e)
              | (a1, IOk _) => match b with None => (a1, IOk tt) | Some b => load_factors s m b (m_factors j) a1 end
              end
  end.
(** [load_lcia], 123-129: methods that are held are passed over. *)
Fixpoint load_methods (s : source) (b : option bool) (l : list nat) (a : arch) : arch * iret unit :=
  match l with
  | [] => (a, IOk tt)
  | m :: l => match (if din m (a_m a) then (a, IOk tt) else load_method s m b a) with
              | (a1, IErr e) => (a1, IErr e)
              | (a1, IOk _) => load_methods s b l a1
              end
  end.
Definition load_lcia (s : source) (b : option bool) (a : arch) : arch * iret unit := load_methods s b (dkeys (s_me s)) a.
Fixpoint load_processes (s : source) (l : list nat) (a : arch) : arch * iret unit :=
  match l with
  | [] => (a, IOk tt)
  | i :: l => match get_process s i a with
              | (a1, IErr e) => (a1, IErr e)
              | (a1, IOk _) => load_processes s l a1
              end
  end.
(** [load_all], entity_store.py:573-577, with [_load_all], ilcd.py:509-514 and ilcd_lcia.py:73-76 *)
Definition load_all (s : source) (a : arch) : arch * iret unit :=
  if a_loaded a then (a, IOk tt)
  else match load_processes s (dkeys (s_pr s)) a with
       | (a1, IErr e) => (a1, IErr e)
       | (a1, IOk _) => match load_lcia s (Some false) a1 with
                        | (a2, IErr e) => (a2, IErr e)
                        | (a2, IOk _) => (Ar (a_q a2) (a_f a2) (a_m a2) (a_p a2) true, IOk tt)
                        end
       end.

(** Calls: [get] of a process, a flow or a flow property ([_fetch], ilcd.py:475-507; an object not in the archive gives None, a uri
    is not passed), [get] of a method ([_fetch], ilcd_lcia.py:78-87), [load_lcia_method], [load_lcia], [load_all] *)
Inductive iop := GetProcess (i : nat) | GetFlow (f : nat) | GetProperty (q : nat) | GetMethod (m : nat) | LoadMethod (m : nat) (b : option bool) | LoadLcia (b : option bool) | LoadAll.
Definition none_ok {A} (known : bool) (a : arch) (r : arch * iret A) : arch * iret unit :=
  if known then match r with (a1, IOk _) => (a1, IOk tt) | (a1, IErr e) => (a1, IErr e) end else (a, IOk tt).
Definition istep (s : source) (o : iop) (a : arch) : arch * iret unit :=
  match o with
  | GetProcess i => get_process s i a
  | GetFlow f => none_ok (din f (s_fl s)) a (create_flow s f a)
  | GetProperty q => none_ok (din q (s_fp s)) a (create_quantity s q a)
  | GetMethod m => match dget m (s_me s) with None => (a, IOk tt) | Some j => create_method s m j a end
  | LoadMethod m b => load_method s m b a
  | LoadLcia b => load_lcia s b a
  | LoadAll => load_all s a
  end.
Definition ihist (s : source) (l : list iop) : arch := fold_left (fun a o => fst (istep s o a)) l new_arch.

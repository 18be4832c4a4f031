(** Model of /repo/antelope_catalog/providers/ecospold.py (EcospoldV1Archive), of the parts of
    /repo/lcatools/archives/entity_store.py and basic_archive.py it calls ([__getitem__], [add], [retrieve_or_fetch_entity])
    and, through ProcModel, of [LcProcess.add_exchange] and [add_reference].

    Simplifications: a file is the list of its <dataset> elements, already parsed; the file store is a zip archive, so that a
    missing file raises KeyError (a directory raises FileNotFoundError); [uuid3] is injective, so entities are stored under
    the string the uuid is computed from, and no name contains a uuid; an archive created empty (not restored from JSON); no
    upstream archive; descriptive fields (location, dates, categories, CAS numbers, the text of comments) are left out; numbers
    are rationals; the exchange hash is injective. *)
From Coq Require Import String DecimalString.
From Verif Require Import Num Base PyStr ProcModel.
Open Scope nat_scope.
Open Scope string_scope.
Open Scope list_scope.

(** An <exchange> element: the attributes number, unit, meanValue (None when missing), whether it has a generalComment, and
    its group children (the value of outputGroup / OutputGroup, the presence of inputGroup / InputGroup). *)
Record xel := Xel { e_num : nat; e_unit : string; e_mean : option Qc; e_cmt : bool;
                    e_outg : option nat; e_Outg : option nat; e_ing : bool; e_Ing : bool }.
(** A <dataset> element: referenceFunction's name, and the children of flowData. *)
Record dset_ := Ds { d_name : string; d_x : list xel }.

Inductive eexn := EKeyError | EAssertion | EAttribute | ETypeError | EZeroDiv | EValueError.
Inductive eret (A : Type) := EOk (a : A) | EErr (e : eexn).
Arguments EOk {A} _. Arguments EErr {A} _.

(** What the archive holds under a key: a quantity, a flow (its reference unit and its characterization factors by unit), a
    process. *)
Inductive ent := EQty | EFlow (unit_ : string) (cfs : dict string Qc) | EProc (p : proc).
(** entity_store.py:189 [_entities]; ecospold.py:84 [_q_dict] (its keys). *)
Record arch := Ar { ents : dict string ent; qdict : list string }.
Definition new_arch : arch := Ar [] [].

(** [str(key)] of a flow number, entity_store.py:91-99 *)
Definition dec (n : nat) : string := NilEmpty.string_of_uint (Nat.to_uint n).

(** A literal number *)
Definition qc (n : Z) (d : positive) : Qc := Q2Qc (Qmake n d).
(** conversion_dict, ecospold.py:40-50 *)
Definition conversion_dict : dict (string * string) Qc :=
  [ (("kBq", "Bq"), qc 1000 1); (("t", "kg"), qc 1000 1); (("kg*km", "t*km"), qc 1 1000); (("ha", "m2"), qc 10000 1);
    (("sh tn", "t"), qc 907185 1000000); (("sh tn", "kg"), qc 907185 1000); (("kWh", "MJ"), qc 36 10);
    (("MJ", "btu"), qc 947817 1000); (("m3", "l"), qc 1000 1) ].

(** [add] with [_add], basic_archive.py:137-140, entity_store.py:458-476 *)
Definition add_ent (k : string) (e : ent) (a : arch) : arch * eret unit :=
  if din k (ents a) then (a, EErr EKeyError) else (Ar (dset k e (ents a)) (qdict a), EOk tt).

(** [_create_quantity], ecospold.py:113-132 *)
Definition create_quantity (u : string) (a : arch) : arch * eret unit :=
  if mem u (qdict a) then (a, EOk tt)
  else match add_ent u EQty a with
       | (a1, EOk _) => (Ar (ents a1) (qdict a1 ++ [u]), EOk tt)
       | r => r
       end.

(** What the user answers when asked "1 <flow unit> = x <unit>" for a flow (None: not a number, ValueError). *)
Definition prompt := nat -> string -> string -> option Qc.

(** The conversion factor from the flow's unit to another one, ecospold.py:163-169 *)
Definition conv_factor (ask : prompt) (n : nat) (fu u : string) : option Qc :=
  match dget (fu, u) conversion_dict with
  | Some v => Some v
  | None => match dget (u, fu) conversion_dict with
            | Some v => Some (1 / v)%Qc
            | None => ask n fu u
            end
  end.

(** The second half of [_create_flow], ecospold.py:160-170: the flow [n], of unit [fu] and factors [cs], is given a factor for
    the exchange's unit.  Returns the flow's unit and factors. *)
Definition flow_unit (ask : prompt) (n : nat) (u fu : string) (cs : dict string Qc) (a : arch) : arch * eret (string * dict string Qc) :=
  if eqb u fu then (a, EOk (fu, cs))
  else match create_quantity u a with
       | (a1, EErr e) => (a1, EErr e)
       | (a1, EOk _) =>
           if din u cs then (a1, EOk (fu, cs))
           else match conv_factor ask n fu u with
                | None => (a1, EErr EValueError)
                | Some v => let cs' := dset u v cs in
                            (Ar (dset (dec n) (EFlow fu cs') (ents a1)) (qdict a1), EOk (fu, cs'))
                end
       end.
(** [_create_flow], ecospold.py:134-171 *)
Definition create_flow (ask : prompt) (x : xel) (a : arch) : arch * eret (string * dict string Qc) :=
  match dget (dec (e_num x)) (ents a) with
  | Some (EFlow fu cs) => flow_unit ask (e_num x) (e_unit x) fu cs a
  | Some _ => (a, EErr EAssertion)
  | None =>
      match create_quantity (e_unit x) a with
      | (a1, EErr e) => (a1, EErr e)
      | (a1, EOk _) =>
          let cs := [(e_unit x, 1%Qc)] in
          match add_ent (dec (e_num x)) (EFlow (e_unit x) cs) a1 with
          | (a2, EErr e) => (a2, EErr e)
          | (a2, EOk _) => flow_unit ask (e_num x) (e_unit x) (e_unit x) cs a2
          end
      end
  end.

(** The direction of an exchange, and whether it makes its flow a reference: ecospold.py:179-194 *)
Definition ref_group (g : nat) : bool := Nat.eqb g 0 || Nat.eqb g 2.
Definition direction (x : xel) : option (dirn * bool) :=
  match e_outg x with
  | Some g => Some (Output, ref_group g)
  | None => match e_Outg x with
            | Some g => Some (Output, ref_group g)
            | None => if e_ing x then Some (Input, false) else if e_Ing x then Some (Input, false) else None
            end
  end.

(** [_extract_exchanges], ecospold.py:173-201: the reference flows and the list (flow, direction, value, has a comment).
    [f.cf(local_q)], flows.py:236-249, is 0.0 when there is no factor. *)
Fixpoint extract_exchanges (ask : prompt) (l : list xel) (rf : list nat) (fl : list (nat * dirn * Qc * bool)) (a : arch)
  : arch * eret (list nat * list (nat * dirn * Qc * bool)) :=
  match l with
  | [] => (a, EOk (rf, fl))
  | x :: l =>
      match create_flow ask x a with
      | (a1, EErr e) => (a1, EErr e)
      | (a1, EOk (fu, cs)) =>
          match direction x with
          | None => extract_exchanges ask l rf fl a1
          | Some (d, isref) =>
              let rf := if isref then set_add (e_num x) rf else rf in
              match create_quantity (e_unit x) a1 with
              | (a2, EErr e) => (a2, EErr e)
              | (a2, EOk _) =>
                  match e_mean x with
                  | None => (a2, EErr ETypeError)
                  | Some v =>
                      if eqb (e_unit x) fu then extract_exchanges ask l rf (fl ++ [(e_num x, d, v, e_cmt x)]) a2
                      else let c := match dget (e_unit x) cs with Some c => c | None => 0%Qc end in
                           if eqb c 0%Qc then (a2, EErr EZeroDiv)
                           else extract_exchanges ask l rf (fl ++ [(e_num x, d, (v / c)%Qc, e_cmt x)]) a2
                  end
              end
          end
      end
  end.

(** ecospold.py:235-239: the exchanges, in order; [x.comment = cmt] fails when [add_exchange] returned None. *)
Fixpoint add_exchanges (l : list (nat * dirn * Qc * bool)) (p : proc) : eret proc :=
  match l with
  | [] => EOk p
  | (f, d, v, c) :: l =>
      match add_exchange p f d None (Some v) TNone true with
      | (p1, POk (Some _)) => add_exchanges l p1
      | (p1, POk None) => if c then EErr EAttribute else add_exchanges l p1
      | (p1, PErr _) => EErr EValueError
      end
  end.
(** ecospold.py:241-242 *)
Fixpoint add_references (l : list nat) (p : proc) : eret proc :=
  match l with
  | [] => EOk p
  | f :: l => match add_reference (fun _ _ => 0%Qc) p f Output with
              | (p1, POk _) => add_references l p1
              | (_, PErr _) => EErr EKeyError
              end
  end.

(** [_fetch_filename], ecospold.py:92-105 *)
Fixpoint strip_lg (s : string) : string :=
  match s with
  | EmptyString => EmptyString
  | String c r => if mem (String c "") ["<"; ">"] then strip_lg r else String c (strip_lg r)
  end.
Definition fetch_filename (files : dict string (list dset_)) (fn : string) : option (list dset_) :=
  match dget fn files with
  | Some o => Some o
  | None => dget (strip_lg fn) files
  end.

(** [_create_process], ecospold.py:203-246; [o.dataset] is the first <dataset> child (AttributeError when there is none). *)
Definition create_process (ask : prompt) (files : dict string (list dset_)) (fn : string) (a : arch) : arch * eret unit :=
  match fetch_filename files fn with
  | None => (a, EErr EKeyError)
  | Some [] => (a, EErr EAttribute)
  | Some (ds :: _) =>
      match dget (d_name ds) (ents a) with
      | Some (EProc _) => (a, EOk tt)
      | Some _ => (a, EErr EAssertion)
      | None =>
          match extract_exchanges ask (d_x ds) [] [] a with
          | (a1, EErr e) => (a1, EErr e)
          | (a1, EOk (rf, fl)) =>
              match add_exchanges fl new_proc with
              | EErr e => (a1, EErr e)
              | EOk p => match add_references rf p with
                         | EErr e => (a1, EErr e)
                         | EOk p => add_ent (d_name ds) (EProc p) a1
                         end
              end
          end
      end
  end.

(** [_fetch], ecospold.py:248-259; [self[key]] *)
Definition fetch (ask : prompt) (files : dict string (list dset_)) (key : string) (a : arch) : arch * eret (option ent) :=
  match create_process ask files (key ++ ".xml") a with
  | (a1, EOk _) => (a1, EOk (dget key (ents a1)))
  | (a1, EErr e) => (a1, EErr e)
  end.
(** [retrieve_or_fetch_entity], entity_store.py:513-531 *)
Definition get (ask : prompt) (files : dict string (list dset_)) (key : string) (a : arch) : arch * eret (option ent) :=
  match dget key (ents a) with
  | Some e => (a, EOk (Some e))
  | None => fetch ask files key a
  end.

(** [re.search] of a literal in a file name *)
Fixpoint has_prefix (p s : string) : bool :=
  match p, s with
  | EmptyString, _ => true
  | String c p, String d s => if Ascii.eqb c d then has_prefix p s else false
  | _, _ => false
  end.
Fixpoint contains (p s : string) : bool :=
  has_prefix p s || match s with EmptyString => false | String _ r => contains p r end.
Definition natural_gas : string := "Natural gas, combusted in industrial equipment".

(** [_load_all], ecospold.py:261-275 *)
Fixpoint load_gas (ask : prompt) (files : dict string (list dset_)) (l : list string) (a : arch) : arch * eret unit :=
  match l with
  | [] => (a, EOk tt)
  | x :: l => if contains natural_gas x then
                match get ask files natural_gas a with
                | (a1, EOk _) => load_gas ask files l a1
                | (a1, EErr e) => (a1, EErr e)
                end
              else load_gas ask files l a
  end.
Fixpoint load_each (ask : prompt) (files : dict string (list dset_)) (l : list string) (a : arch) : arch * eret unit :=
  match l with
  | [] => (a, EOk tt)
  | x :: l => match create_process ask files x a with
              | (a1, EOk _) => load_each ask files l a1
              | (a1, EErr e) => (a1, EErr e)
              end
  end.
Definition load_all (ask : prompt) (files : dict string (list dset_)) (a : arch) : arch * eret unit :=
  match load_gas ask files (dkeys files) a with
  | (a1, EOk _) => load_each ask files (dkeys files) a1
  | r => r
  end.

(** A history of calls on one archive: [get(key)] and [load_all()], each of which may raise. *)
Inductive eop := OGet (key : string) | OLoadAll.
Definition estep (ask : prompt) (files : dict string (list dset_)) (a : arch) (o : eop) : arch :=
  match o with
  | OGet k => fst (get ask files k a)
  | OLoadAll => fst (load_all ask files a)
  end.
Definition ehist (ask : prompt) (files : dict string (list dset_)) (l : list eop) : arch := fold_left (estep ask files) l new_arch.

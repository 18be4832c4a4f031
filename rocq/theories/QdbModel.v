(** Model of the flow-quantity relation of /repo/lcatools/qdb/qdb.py: CLookup.find, convert, do_lcia.

    Simplifications: the database is not changed during the history (all quantities are already indexed, so [_get_q_ind] is a
    function of the quantity's uuid); compartments are numbers with given parent and children; the flowable indices, the
    compartment (None: MissingCompartment) and the biogenic test of a flow are given with the flow; database factors are
    numbers and belong to flows other than the ones queried; a set of factors is iterated in the order [db_ord] gives it. *)
From Verif Require Import Num Base PyStr FlowModel.
Open Scope Qc_scope.
Open Scope string_scope.
Open Scope list_scope.

(** A stored factor: the uuid of its flow (its identity together with the quantity), that flow's reference quantity, its
    values by location. *)
Record cfac := CFac { cf_flow : string; cf_ref : qty; cf_locs : dict string Qc }.
(** [cf\[locale\]]: characterizations.py:80-91 for a characterization with numeric values *)
Definition cf_at (loc : string) (c : cfac) : Qc :=
  match dget loc (cf_locs c) with
  | Some v => v
  | None => match dget "GLO" (cf_locs c) with Some v => v | None => 0 end
  end.

Record db := DB {
  db_fq : nat -> nat -> nat -> list cfac;      (* flowable, quantity, compartment: _fq_dict *)
  db_parent : nat -> option nat; db_subs : nat -> list nat;
  db_anc : nat -> list nat;                    (* the proper ancestors, nearest first *)
  db_qidx : string -> nat;                     (* _get_q_ind *)
  db_ord : list cfac -> list cfac;             (* iteration order of a set *)
  db_co2 : nat;                                (* _co2_index *)
  db_emission : nat -> bool; db_from_air : nat -> bool;  (* is_subcompartment_of(emissions), of(_comp_from_air) *)
  db_quell : bool }.

(** Union of sets of factors (equal: same flow, the quantity being the same). *)
Definition cf_mem (c : cfac) (l : list cfac) : bool := existsb (fun d => eqb (cf_flow c) (cf_flow d)) l.
Definition cf_add (l : list cfac) (c : cfac) : list cfac := if cf_mem c l then l else l ++ [c].
Definition cf_union (l m : list cfac) : list cfac := fold_left cf_add m l.

(** [CLookup.find(item, dist, return_first=True)], qdb.py:102-147, for dist 2 and dist 3.  [None]: AttributeError (dist 3 at the
    root). *)
Definition find2 (D : db) (look : nat -> list cfac) (c : nat) : list cfac :=
  match look c with
  | _ :: _ => look c
  | [] => let r1 := fold_left (fun acc s => cf_union acc (look s)) (db_subs D c) [] in
          match r1 with
          | _ :: _ => r1
          | [] => match db_parent D c with Some p => look p | None => [] end
          end
  end.
Fixpoint first_found (look : nat -> list cfac) (l : list nat) : list cfac :=
  match l with [] => [] | p :: r => match look p with [] => first_found look r | x => x end end.
Definition find3 (D : db) (look : nat -> list cfac) (c : nat) : option (list cfac) :=
  match find2 D look c with
  | _ :: _ => Some (find2 D look c)
  | [] => match db_parent D c with None => None | Some p => Some (first_found look (db_anc D p)) end
  end.

(** A queried flow: flowable indices, compartment, "is biogenic", and its quantities (FlowModel.flow). *)
Record qflow := QFlow { qf_inds : list nat; qf_comp : option nat; qf_bio : bool; qf_flow : flow }.

Inductive qexn := QMissingCompartment | QMismatch | QAttributeError | QZeroDivision | QFlowError (e : fexn).
Inductive qres (A : Type) := QOk (a : A) | QErr (e : qexn).
Arguments QOk {A} _. Arguments QErr {A} _.

(** [_lookup_cfs], qdb.py:595-603 *)
Definition lookup_cfs (D : db) (inds : list nat) (c q : nat) : list cfac :=
  db_ord D (fold_left (fun acc f => cf_union acc (db_ord D (find2 D (db_fq D f q) c))) inds []).

(** [_conversion_from_flow], qdb.py:605-616: the default locale GLO.  [None]: the Python value None. *)
Definition conversion_from_flow (D : db) (f : flow) (q : nat) : option Qc :=
  match find (fun p => eqb (db_qidx D (q_uuid (c_q (snd p)))) q) (f_chars f) with
  | Some (_, c) => match char_get "GLO" c with INum v => Some v | _ => None end
  | None => None
  end.

(** [_conversion_generator], qdb.py:618-622: the first item it yields *)
Fixpoint conv_gen (D : db) (inds : list nat) (c from_q to_q : nat) : qres (option cfac) :=
  match inds with
  | [] => QOk None
  | f :: r => match find3 D (db_fq D f from_q) c with
              | None => QErr QAttributeError
              | Some l => match find (fun x => eqb (db_qidx D (q_uuid (cf_ref x))) to_q) (db_ord D l) with
                          | Some x => QOk (Some x)
                          | None => conv_gen D r c from_q to_q
                          end
              end
  end.

(** [_lookfor_conversion], qdb.py:651-682 (the origin is not modelled) *)
Definition lookfor (D : db) (inds : list nat) (c from_q to_q : nat) (loc : string) : qres (option Qc) :=
  match conv_gen D inds c from_q to_q with
  | QErr e => QErr e
  | QOk (Some x) => QOk (Some (cf_at loc x))
  | QOk None => match conv_gen D inds c to_q from_q with
                | QErr e => QErr e
                | QOk (Some x) => if eqb (cf_at loc x) 0 then QErr QZeroDivision else QOk (Some (1 / cf_at loc x))
                | QOk None => QOk None
                end
  end.

(** [_convert_values], qdb.py:688-744, with the flow: the values, a flag for a failed conversion, and the flow, on which
    conversions are recorded. *)
Fixpoint convert_values (D : db) (inds : list nat) (c ref_q : nat) (loc : string) (cfs : list cfac) (f : flow)
    (vals : list Qc) (bad : bool) : flow * qres (list Qc) :=
  match cfs with
  | [] => (f, match vals, bad with [], true => QErr QMismatch | _, _ => QOk vals end)
  | x :: r =>
      let factor := cf_at loc x in
      let xq := db_qidx D (q_uuid (cf_ref x)) in
      if eqb xq ref_q then convert_values D inds c ref_q loc r f (vals ++ [factor]) bad
      else match conversion_from_flow D f xq with
           | Some k => convert_values D inds c ref_q loc r f (vals ++ [factor * k]) bad
           | None =>
               match lookfor D inds c xq ref_q loc with
               | QErr e => (f, QErr e)
               | QOk None => convert_values D inds c ref_q loc r f vals true
               | QOk (Some k) =>
                   match add_characterization (cf_ref x) false (VNum k) false (Some loc) None f with
                   | (f', None) => convert_values D inds c ref_q loc r f' (vals ++ [factor * k]) bad
                   | (f', Some e) => (f', QErr (QFlowError e))
                   end
               end
           end
  end.

(** [convert(flow=, query_q_ind=, locale=, quell_biogenic_co2=)], qdb.py:746-813 *)
Definition quelled (D : db) (quell : option bool) (x : qflow) (c : nat) : bool :=
  existsb (eqb (db_co2 D)) (qf_inds x) && (match quell with Some b => b | None => db_quell D end)
  && (if db_emission D c then qf_bio x else db_from_air D c).
Definition convert (D : db) (q : nat) (loc : string) (quell : option bool) (x : qflow) : qflow * qres (option Qc) :=
  match f_ref (qf_flow x) with
  | None => (x, QOk None)
  | Some r =>
      let rq := db_qidx D (q_uuid r) in
      if eqb rq q then (x, QOk (Some 1))
      else match qf_comp x with
           | None => (x, QErr QMissingCompartment)
           | Some c =>
               if quelled D quell x c then (x, QOk (Some 0))
               else let '(f', v) := convert_values D (qf_inds x) c rq loc (lookup_cfs D (qf_inds x) c q) (qf_flow x) [] false in
                    let x' := QFlow (qf_inds x) (qf_comp x) (qf_bio x) f' in
                    (x', match v with QErr e => QErr e | QOk [] => QOk None | QOk (v :: _) => QOk (Some v) end)
           end
  end.

(** One exchange of [do_lcia], qdb.py:833-856: the flow afterwards, and the factor scored: [None] nothing is scored,
    [Some i]: [add_score] is called and [i] is what the factor gives for the locale. *)
Definition lcia_flow (D : db) (q : qty) (loc : string) (quell : option bool) (refresh : bool) (x : qflow) : qflow * qres (option item) :=
  let set_flow x f := QFlow (qf_inds x) (qf_comp x) (qf_bio x) f in
  let score x :=
    match cf q "GLO" (qf_flow x) with
    | INone => QOk None
    | _ => match qf_comp x with
           | None => QErr QMissingCompartment          (* set_natural_direction *)
           | Some _ => QOk (Some (match dget (q_uuid q) (f_chars (qf_flow x)) with Some c => char_get loc c | None => INone end))
           end
    end in
  if refresh || negb (has_characterization q (Some "GLO") (qf_flow x)) then
    match convert D (db_qidx D (q_uuid q)) loc quell x with
    | (x', QErr QMissingCompartment) => (x', QOk None)
    | (x', QOk (Some v)) =>
        match add_characterization q false (VNum v) refresh None None (qf_flow x') with
        | (f, None) => (set_flow x' f, score (set_flow x' f))
        | (f, Some e) => (set_flow x' f, QErr (QFlowError e))
        end
    | (x', QOk None) | (x', QErr QMismatch) =>
        let f := fst (add_characterization q false VNone false None None (qf_flow x')) in (set_flow x' f, score (set_flow x' f))
    | (x', QErr e) => (x', QErr e)
    end
  else (x, score x).

(** [do_lcia], qdb.py:815-858: the inventory is a list of exchanges, each naming a flow of the state; the result lists the
    scores, in order. *)
Definition qstate := dict nat qflow.
Fixpoint do_lcia (D : db) (q : qty) (loc : string) (quell : option bool) (refresh : bool) (inv : list nat) (s : qstate)
    : qstate * qres (list (nat * item)) :=
  match inv with
  | [] => (s, QOk [])
  | i :: r =>
      match dget i s with
      | None => do_lcia D q loc quell refresh r s
      | Some x => match lcia_flow D q loc quell refresh x with
                  | (x', QErr e) => (dset i x' s, QErr e)
                  | (x', QOk o) =>
                      match do_lcia D q loc quell refresh r (dset i x' s) with
                      | (s', QOk l) => (s', QOk (match o with Some v => (i, v) :: l | None => l end))
                      | (s', QErr e) => (s', QErr e)
                      end
                  end
      end
  end.

(** C114: the flowables of an archive (lcatools/implementations/quantity.py) over the model of Flowables. *)
From Coq Require Import String.
From Verif Require Import Base PyStr SynListModel CasModel FlowablesModel.
Open Scope string_scope.
Open Scope nat_scope.
Open Scope list_scope.

(** What the implementation reads of a flow: f['CasNumber'], f['Name'], f.link (origin/uuid), f['Compartment'], and the
    quantities it has a factor for ([has_characterization]), by external reference.
    Simplification: properties are texts and lists of texts; factors are known by the flow and the quantity. *)
Record qflow := QF { qf_cas : string; qf_name : string; qf_link : string; qf_comp : list string; qf_qs : list string }.

Section Impl.
(** The iteration orders of the sets of terms and of indices inside the synonym list *)
Variable ord : list term -> list term.
Variable ordn : list nat -> list nat.

(** The body of the loop of [_init_flowables], quantity.py:21-29 *)
Definition init_one (s : flowables) (f : qflow) : flowables * fres unit :=
  let link (s : flowables) :=
    match fadd_set ord s [TStr (qf_name f); TStr (qf_link f)] true with
    | (s', FOk _) => (s', FOk tt)
    | (s', FErr e) => (s', FErr e)
    end in
  match fadd_set ord s [TStr (qf_cas f); TStr (qf_name f)] true with
  | (s1, FOk _) => match fset_name s1 (qf_name f) with
                   | (s2, FOk _) => link s2
                   | (s2, FErr e) => (s2, FErr e)
                   end
  | (s1, FErr (Base InconsistentIndices)) =>
      match fmerge ordn s1 (TStr (qf_cas f)) [TStr (qf_name f)] false with
      | (s2, FOk _) => link s2
      | (s2, FErr e) => (s2, FErr e)
      end
  | (s1, FErr e) => (s1, FErr e)
  end.
(** [_init_flowables], quantity.py:19-30 *)
Fixpoint init_from (s : flowables) (fs : list qflow) : fres flowables :=
  match fs with
  | [] => FOk s
  | f :: r => match init_one s f with (s1, FOk _) => init_from s1 r | (_, FErr e) => FErr e end
  end.
Definition init_flowables (fs : list qflow) : fres flowables := init_from fempty fs.

(** [flowables], quantity.py:75-95: the distinct items of the flows that pass the filters, then their (cas, name) by name.
    The set of indices is visited in any order ([ordi]); an unknown name would add None. *)
Definition passes (quantity : option string) (comp : option (list string)) (f : qflow) : bool :=
  match comp with Some c => if list_eq_dec String.string_dec (qf_comp f) c then true else false | None => true end
  && match quantity with Some q => mem q (qf_qs f) | None => true end.
Definition index_of (s : flowables) (n : string) : option nat := match findex s (TStr n) with Ok r => r | Err _ => None end.
Fixpoint ninsert (key : nat -> string) (a : nat) (l : list nat) : list nat :=
  match l with [] => [a] | b :: r => if String.leb (key a) (key b) then a :: l else b :: ninsert key a r end.
Definition name_key (s : flowables) (i : nat) : string := match item_name (f_base s) i with Some n => n | None => "" end.
Definition flowables_of (ordi : list nat -> list nat) (s : flowables) (fs : list qflow) (quantity : option string) (comp : option (list string))
  : list (option string * option string) :=
  let ids := set_of (flat_map (fun f => match index_of s (qf_name f) with Some i => [i] | None => [] end) (filter (passes quantity comp) fs)) in
  map (fun i => (item_cas s i, item_name (f_base s) i)) (fold_right (ninsert (name_key s)) [] (ordi ids)).

(** [factors], quantity.py:111-138: the flows whose factor is yielded; [flowable] is looked up first (127), and a flowable
    that is not known becomes None, which is no filter (131). *)
Definition factors_of (s : flowables) (fs : list qflow) (quantity : string) (flowable : option string) (comp : option (list string)) : list qflow :=
  let fb := match flowable with Some n => index_of s n | None => None end in
  filter (fun f => mem quantity (qf_qs f)
                   && match fb with Some i => match index_of s (qf_link f) with Some j => Nat.eqb j i | None => false end | None => true end
                   && match comp with Some c => if list_eq_dec String.string_dec (qf_comp f) c then true else false | None => true end) fs.

(** [compartments], quantity.py:97-109: the parameters [quantity] and [flowable] are not used. *)
Definition compartments_of (fs : list qflow) (quantity flowable : option string) : list (list string) :=
  fold_left (fun acc f => if in_dec (list_eq_dec String.string_dec) (qf_comp f) acc then acc else acc ++ [qf_comp f]) fs [].
End Impl.

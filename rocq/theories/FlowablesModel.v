(** Model of /repo/synlist/flowables.py, class Flowables (a SynList that tracks one CAS number per item). *)
From Verif Require Import Base PyStr SynListModel CasModel.
Open Scope string_scope.
Open Scope nat_scope.
Open Scope list_scope.

(** Exceptions: those of SynList plus ConflictingCas (flowables.py:5). *)
Inductive fexn := Base (e : exn) | ConflictingCas.
Inductive fres (A : Type) := FOk (a : A) | FErr (e : fexn).
Arguments FOk {A} _. Arguments FErr {A} _.
Definition lift {A} (r : res A) : fres A := match r with Ok a => FOk a | Err e => FErr (Base e) end.

(** [__init__], flowables.py:48-53: ignore_case is forced True; [_cas] is parallel to the items. *)
Record flowables := FL { f_base : synlist; f_cas : list (option string) }.
Definition fempty : flowables := FL (empty true) [].
Definition fsan (s : flowables) (k : string) := sanitize (f_base s) k.

(** [pad_cas] on a string already known to match (CasProps.C08 shows fuel 6 always suffices); flowables.py:29-34 *)
Definition pad (k : string) : string := match pad_cas 6 k with Padded p => p | _ => k end.

(** [_get_index], flowables.py:74-80.  For None the super call raises KeyError and [term.strip()] raises AttributeError;
    for a string the second lookup uses [term.lower()]. *)
Definition fget_index (s : flowables) (t : term) : res nat :=
  match get_index (f_base s) t with
  | Err KeyError =>
      match t with
      | TNone => Err AttributeError
      | TStr k => if 3 <? String.length (strip k) then get_index (f_base s) (TStr (lower k)) else Err KeyError
      | TInt _ => Err KeyError
      end
  | r => r
  end.
(** [_known]/[index] inherited, synlist.py:301-308 ([None] is tested before the lookup). *)
Definition findex (s : flowables) (t : term) : res (option nat) :=
  match t with
  | TNone => Ok None
  | _ => match fget_index s t with Ok i => Ok (Some i) | Err KeyError => Ok None | Err e => Err e end
  end.

(** [cas], flowables.py:55-56, for an index *)
Definition item_cas (s : flowables) (i : nat) : option string :=
  match nth_error (f_cas s) i with Some c => c | None => None end.
Definition set_cas (s : flowables) (i : nat) (c : option string) : flowables := FL (f_base s) (upd i (fun _ => c) (f_cas s)).
Definition with_base (s : flowables) (b : synlist) : flowables := FL b (f_cas s).

(** [new_item], flowables.py:69-72 *)
Definition fnew_item (s : flowables) : flowables * nat :=
  let '(b, i) := new_item (f_base s) None in (FL b (f_cas s ++ [None]), i).

(** last part of [_new_term], flowables.py:105-112: add the term, record the key, update the name.  A position whose
    set is None raises AttributeError from [.add]. *)
Definition ffinish (s : flowables) (k key : string) (i : nat) : flowables * fres unit :=
  match nth_error (s_items (f_base s)) i with
  | None => (s, FErr (Base IndexError))
  | Some it =>
      match i_syns it with
      | None => (s, FErr (Base AttributeError))
      | Some ts =>
          let b1 := set_items (f_base s) (upd i (with_syns (Some (set_add k ts))) (s_items (f_base s))) in
          let b2 := set_dict b1 (dset key i (s_dict b1)) in
          let rename := set_items b2 (upd i (with_name (Some k)) (s_items b2)) in
          (with_base s match i_name it with
                       | None => rename
                       | Some n => if cas_match n && negb (cas_match k) then rename else b2
                       end, FOk tt)
      end
  end.
(** the CAS branch of [_new_term], flowables.py:101-104: [_cas[index]] is set, then the trimmed form is added through
    SynList._new_term (which may raise TermFound), then the term itself under the padded key. *)
Definition fcas_term (s : flowables) (k key : string) (i : nat) : flowables * fres unit :=
  let p := pad key in
  let s1 := set_cas s i (Some p) in
  match new_term (f_base s1) (TStr (trim_cas p)) i with
  | (b, Ok _) => ffinish (with_base s1 b) k p i
  | (b, Err e) => (with_base s1 b, FErr (Base e))
  end.
(** [_new_term], flowables.py:91-112 *)
Definition fnew_term (s : flowables) (t : term) (i : nat) : flowables * fres unit :=
  match t with
  | TNone => (s, FOk tt)
  | TStr "" => (s, FOk tt)
  | TInt _ => (s, FErr (Base AttributeError))
  | TStr k =>
      let key := fsan s k in
      match dget key (s_dict (f_base s)) with
      | Some j => if Nat.eqb j i then (s, FOk tt) else (s, FErr (Base TermFound))
      | None =>
          if cas_match key then
            match nth_error (f_cas s) i with
            | None => (s, FErr (Base IndexError))
            | Some (Some c0) => if String.eqb (trim_cas c0) (trim_cas key) then fcas_term s k key i else (s, FErr ConflictingCas)
            | Some None => fcas_term s k key i
            end
          else ffinish s k key i
      end
  end.

Fixpoint fmerge_terms (s : flowables) (it : list term) (i : nat) : flowables * fres unit :=
  match it with
  | [] => (s, FOk tt)
  | t :: r => match fnew_term s t i with
              | (s1, FOk _) => fmerge_terms s1 r i
              | (s1, FErr e) => (s1, FErr e)
              end
  end.
Fixpoint term_strings (it : list term) : option (list string) :=
  match it with
  | [] => Some []
  | TStr k :: r => option_map (cons k) (term_strings r)
  | _ => None
  end.
(** [_merge_set_with_index], flowables.py:170-176 (the regex raises TypeError on a non-string). *)
Definition fmerge_set_with_index (s : flowables) (it : list term) (i : nat) : flowables * fres unit :=
  match term_strings it with
  | None => (s, FErr (Base TypeError))
  | Some ks =>
      match find_cas ks with
      | CasConflict => (s, FErr ConflictingCas)
      | CasNone => fmerge_terms s it i
      | CasOne c => match item_cas s i with
                    | Some c0 => if String.eqb (trim_cas c0) (trim_cas c) then fmerge_terms s it i else (s, FErr ConflictingCas)
                    | None => fmerge_terms s it i
                    end
      end
  end.

(** inherited [add_term], synlist.py:141-152 *)
Definition fadd_term (s : flowables) (t : term) : flowables * fres nat :=
  match fget_index s t with
  | Ok i => (s, FOk i)
  | Err KeyError => let '(s1, i) := fnew_item s in
                    match fnew_term s1 t i with
                    | (s2, FOk _) => (s2, FOk i)
                    | (s2, FErr e) => (s2, FErr e)
                    end
  | Err e => (s, FErr (Base e))
  end.
(** inherited [find_indices], synlist.py:154-167 *)
Fixpoint ffind_indices (s : flowables) (it : list term) (found : list nat) (un : list term) : res (list nat * list term) :=
  match it with
  | [] => Ok (found, un)
  | t :: r =>
      match fget_index s t with
      | Ok i => ffind_indices s r (set_add i found) un
      | Err KeyError => ffind_indices s r found (set_add t un)
      | Err e => Err e
      end
  end.
(** inherited [_new_set], synlist.py:173-189, on terms already known to be unmatched (the only caller in this class
    passes the unmatched set, whose re-test at 179-185 keeps every element). *)
Definition fnew_set (s : flowables) (u : list term) : flowables * fres (option nat) :=
  match u with
  | [] => (s, FOk None)
  | _ => let '(s1, i) := fnew_item s in
         match fmerge_set_with_index s1 u i with
         | (s2, FOk _) => (s2, FOk (Some i))
         | (s2, FErr e) => (s2, FErr e)
         end
  end.
(** inherited [add_set], synlist.py:191-220 *)
Definition fadd_set (ord : list term -> list term) (s : flowables) (it : list term) (merge : bool) : flowables * fres (option nat) :=
  match ffind_indices s it [] [] with
  | Err e => (s, FErr (Base e))
  | Ok (found, un) =>
      match found, merge with
      | [], _ | _, false => fnew_set s (ord un)
      | [i], true => match fmerge_set_with_index s (ord un) i with
                     | (s1, FOk _) => (s1, FOk (Some i))
                     | (s1, FErr e) => (s1, FErr e)
                     end
      | _, true => (s, FErr (Base InconsistentIndices))
      end
  end.
(** inherited [set_name] synlist.py:222-230 and [set_entity] 66-71, through the overridden [_get_index]. *)
Definition fset_name (s : flowables) (name : string) : flowables * fres nat :=
  match fget_index s (TStr name) with
  | Ok i => (with_base s (set_items (f_base s) (upd i (with_name (Some name)) (s_items (f_base s)))), FOk i)
  | Err e => (s, FErr (Base e))
  end.

(** [_merge], flowables.py:114-116 *)
Definition fmerge1 (s : flowables) (m into : nat) : flowables * fres unit :=
  match merge1 (f_base s) m into with
  | (b, Ok _) => (set_cas (with_base s b) m None, FOk tt)
  | (b, Err e) => (with_base s b, FErr (Base e))
  end.
Fixpoint fmerge_all (s : flowables) (ms : list nat) (into : nat) : flowables * fres unit :=
  match ms with
  | [] => (s, FOk tt)
  | m :: r => match fmerge1 s m into with
              | (s1, FOk _) => fmerge_all s1 r into
              | (s1, FErr e) => (s1, FErr e)
              end
  end.
Fixpoint findices_of (s : flowables) (ts : list term) : res (list nat) :=
  match ts with
  | [] => Ok []
  | t :: r => match fget_index s t with
              | Err e => Err e
              | Ok i => match findices_of s r with Ok l => Ok (i :: l) | Err e => Err e end
              end
  end.
(** [filter(None, cas)], flowables.py:133: drops None and '' *)
Fixpoint truthy (l : list (option string)) : list string :=
  match l with
  | [] => []
  | Some c :: r => if String.eqb c "" then truthy r else c :: truthy r
  | None :: r => truthy r
  end.
(** [merge], flowables.py:118-141 *)
Definition fmerge (ordn : list nat -> list nat) (s : flowables) (d : term) (ts : list term) (multi_cas : bool) : flowables * fres unit :=
  match fget_index s d with
  | Err e => (s, FErr (Base e))
  | Ok dom =>
      match findices_of s ts with
      | Err e => (s, FErr (Base e))
      | Ok l =>
          let the_cas := truthy (item_cas s dom :: map (item_cas s) l) in
          let go (the_cas : list string) :=
            match fmerge_all s (ordn (set_of l)) dom with
            | (s1, FErr e) => (s1, FErr e)
            | (s1, FOk _) => (match the_cas with [c] => set_cas s1 dom (Some c) | _ => s1 end, FOk tt)
            end in
          match the_cas with
          | a :: _ :: _ => if multi_cas then go [a] else (s, FErr ConflictingCas)
          | _ => go the_cas
          end
      end
  end.

(** Python [sorted] on ints *)
Fixpoint insert_nat (x : nat) (l : list nat) : list nat :=
  match l with [] => [x] | y :: r => if x <=? y then x :: l else y :: insert_nat x r end.
Fixpoint sort_nat (l : list nat) : list nat := match l with [] => [] | x :: r => insert_nat x (sort_nat r) end.

(** the loop of [check_cas], flowables.py:161-167 *)
Fixpoint check_loop (s : flowables) (it : list string) (inc : string) (conf : list nat) : list nat :=
  match it with
  | [] => conf
  | t :: r =>
      let conf' :=
        match findex s (TStr t) with
        | Ok (Some i) => if mem i conf then conf else
                         match item_cas s i with
                         | Some c => if String.eqb (trim_cas c) inc then conf else set_add i conf
                         | None => conf
                         end
        | _ => conf
        end in
      check_loop s r inc conf'
  end.
(** [check_cas], flowables.py:148-168 (strings). *)
Inductive check_result := CkConflicting | CkNone | CkList (l : list nat).
Definition check_cas (s : flowables) (it : list string) : check_result :=
  match find_cas it with
  | CasConflict => CkConflicting
  | CasNone => CkNone
  | CasOne inc => CkList (sort_nat (check_loop s it inc []))
  end.

Inductive fop :=
| FAddTerm (t : term)
| FAddSet (ord : list term -> list term) (it : list term) (mrg : bool)
| FAddSynonym (i : nat) (t : term)
| FSetName (n : string)
| FMerge (ordn : list nat -> list nat) (d : term) (ts : list term).
Definition fout {A} (r : fres A) : option fexn := match r with FOk _ => None | FErr e => Some e end.
Definition fstep (s : flowables) (o : fop) : flowables * option fexn :=
  match o with
  | FAddTerm t => let '(s', r) := fadd_term s t in (s', fout r)
  | FAddSet ord it m => let '(s', r) := fadd_set ord s it m in (s', fout r)
  | FAddSynonym i t => let '(s', r) := fnew_term s t i in (s', fout r)
  | FSetName n => let '(s', r) := fset_name s n in (s', fout r)
  | FMerge ordn d ts => let '(s', r) := fmerge ordn s d ts false in (s', fout r)
  end.

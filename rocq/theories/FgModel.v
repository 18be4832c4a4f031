(** Model of the saving and loading of fragments: /repo/antelope_catalog/foreground/foreground.py 244-297 (LcForeground),
    /repo/lcatools/entities/fragments.py 80-113, 281-318 (LcFragment.from_json, finish_json_load, serialize) and
    /repo/lcatools/terminations.py 67-100, 500-521 (FlowTermination.from_json, serialize).

    Simplifications, beside those of FragModel.v: the flows and processes a file names are found again (by [fg[...]] in entities.json, or by the catalog);
    a fragment's custom name does not look like a uuid or a link; the values of tags are strings or None, tag names are lower case (LowerDict compares them so);
    score caches are not modelled; two files with different names for one fragment are not modelled ([FTypeError]). *)
From Verif Require Import Num Base PyStr ProcModel FragModel EditModel.
Open Scope nat_scope.
Open Scope string_scope.
Open Scope list_scope.

(** how a fragment is referred to: [external_ref] is the uuid unless a name was given, entities.py:131-148 *)
Inductive eref := EU (u : nat) | EN (s : string).
Inductive jnode := JProc (p : nat) | JFrag (r : eref).
Inductive jterm := JNull | JTerm (n : jnode) (fl : option nat) (d : option dirn) (desc : bool).
(** one entry of a fragment file; the optional fields are those a tag of the same name removes *)
Record jfrag := JF { j_id : nat; j_ext : eref; j_parent : eref; j_flow : option nat; j_dir : option dirn; j_priv : bool; j_bg : bool; j_bal : bool;
  j_evs : dict string (option Qc); j_terms : option (dict string jterm); j_tags : option (dict string (option string)) }.

(** the parts of a fragment that FragModel leaves out: custom name, private flag, tags *)
Record meta := Mt { m_name : option string; m_priv : bool; m_tags : dict string (option string) }.
(** a foreground: the fragments and [_ext_ref_mapping] *)
Record fgs := Fg { g_heap : heap; g_meta : nat -> option meta; g_map : dict string nat }.
Definition empty_fg : fgs := Fg (fun _ => None) (fun _ => None) [].

(** * Saving *)
(** [external_ref], entities.py:131-135 *)
Definition ext_of (st : fgs) (u : nat) : eref := match g_meta st u with Some m => match m_name m with Some s => EN s | None => EU u end | None => EU u end.
(** [_print_ref_field], entities.py:238-242: the string 'None' for a reference fragment *)
Definition parent_ref (st : fgs) (f : frag) : eref := match f_parent f with Some p => ext_of st p | None => EN "None" end.
(** the keys of [_serialize_evs], 281-292 *)
Fixpoint join4 (l : list string) : string := match l with [] => "" | [x] => x | x :: r => (x ++ "____" ++ join4 r)%string end.
Definition ev_key (k : skey) : string := match k with K0 => "0" | K1 => "1" | KS s => s | KT l => join4 l end.
Definition ser_evs (d : dict skey (option Qc)) : dict string (option Qc) := fold_left (fun acc e => dset (ev_key (fst e)) (snd e) acc) d [].
(** json.dump(sort_keys=True): the keys in order *)
Fixpoint kinsert {A} (k : string) (v : A) (l : dict string A) : dict string A :=
  match l with [] => [(k, v)] | (k', v') :: r => if String.leb k k' then (k, v) :: l else (k', v') :: kinsert k v r end.
Definition sort_keys {A} (d : dict string A) : dict string A := fold_right (fun e acc => kinsert (fst e) (snd e) acc) [] d.
(** [FlowTermination.serialize], terminations.py:500-521, of a termination of [f] *)
Definition ser_term (st : fgs) (f : frag) (t : term) : jterm :=
  let fl := if Nat.eqb (t_flow t) (f_flow f) then None else Some (t_flow t) in
  let d := match t_dir t, comp (f_dir f) with Input, Input | Output, Output => None | d, _ => Some d end in
  match t_node t with
  | NNull => JNull
  | NProc p => JTerm (JProc p) fl d (t_desc t)
  | NFrag j => JTerm (JFrag (ext_of st j)) fl d (t_desc t)
  end.
(** [_serialize_terms], fragments.py:294-301 *)
Definition term_key (k : option skey) : string := match k with None => "default" | Some k => ev_key k end.
Definition ser_terms (st : fgs) (f : frag) : dict string jterm := fold_left (fun acc e => dset (term_key (fst e)) (ser_term st f (snd e)) acc) (f_terms f) [].
(** [LcFragment.serialize], 303-318, on [LcEntity.serialize], entities.py:244-275: the last loop removes every tag name from the entry, and raises KeyError
    for a tag that was not put there because its value is None.  LowerDict keys hash as their lower case, so only lower case field names can be hit. *)
Definition fields : list string := ["flow"; "direction"; "terminations"; "tags"].
Definition keep {A} (tags : dict string (option string)) (k : string) (v : A) : option A := if din k tags then None else Some v.
Definition serialize (st : fgs) (u : nat) : fret jfrag :=
  match g_heap st u, g_meta st u with
  | Some f, Some m =>
      let tg := m_tags m in
      if existsb (fun e => match snd e with None => negb (mem (fst e) fields) | Some _ => false end) tg then FErr FKeyError else
      FOk (JF u (ext_of st u) (parent_ref st f) (keep tg "flow" (f_flow f)) (keep tg "direction" (f_dir f)) (m_priv m) (f_bg f) (f_isbal f)
              (sort_keys (ser_evs (f_evs f))) (keep tg "terminations" (sort_keys (ser_terms st f))) (keep tg "tags" (sort_keys tg)))
  | _, _ => FErr FAttributeError
  end.
(** [_recurse_frags], foreground.py:278-282 *)
Fixpoint recurse (n : nat) (h : heap) (u : nat) : fret (list nat) :=
  match n with
  | O => FErr FRecursion
  | S n => match h u with
           | None => FErr FAttributeError
           | Some f => match (fix go (cs : list nat) : fret (list nat) :=
                                match cs with
                                | [] => FOk []
                                | c :: r => match recurse n h c with FErr e => FErr e | FOk l => match go r with FErr e => FErr e | FOk m => FOk (l ++ m) end end
                                end) (child_flows f) with
                       | FErr e => FErr e | FOk l => FOk (u :: l)
                       end
           end
  end.
Fixpoint fmap {A B} (k : A -> fret B) (l : list A) : fret (list B) :=
  match l with [] => FOk [] | x :: r => match k x with FErr e => FErr e | FOk y => match fmap k r with FErr e => FErr e | FOk m => FOk (y :: m) end end end.
Definition tree_file (n : nat) (st : fgs) (r : nat) : fret (list jfrag) := match recurse n (g_heap st) r with FErr e => FErr e | FOk l => fmap (serialize st) l end.

(** the fragment directory: the file of a reference fragment is named by its uuid; [None]: opened for writing, not finished *)
Definition disk := dict nat (option (list jfrag)).
(** [save_fragments], 284-297: the successive states of the directory, and the outcome; [refs] are the reference fragments in the order of [_fragments] *)
Fixpoint write_trees (n : nat) (st : fgs) (refs : list nat) (d : disk) : list disk * disk * fret unit :=
  match refs with
  | [] => ([], d, FOk tt)
  | r :: rest => match tree_file n st r with
                 | FErr e => ([], d, FErr e)
                 | FOk js => let d1 := dset r None d in let d2 := dset r (Some js) d in
                             let '(tr, d', o) := write_trees n st rest d2 in (d1 :: d2 :: tr, d', o)
                 end
  end.
Fixpoint remove_files (l : list nat) (d : disk) : list disk * disk :=
  match l with [] => ([], d) | u :: r => let d1 := ddel u d in let '(tr, d') := remove_files r d1 in (d1 :: tr, d') end.
Definition save_fragments (n : nat) (st : fgs) (refs : list nat) (d : disk) : list disk * disk * fret unit :=
  let '(tr, d1, o) := write_trees n st refs d in
  match o with
  | FErr e => (tr, d1, FErr e)
  | FOk _ => let '(tr2, d2) := remove_files (filter (fun u => negb (mem u refs)) (dkeys d)) d1 in (tr ++ tr2, d2, FOk tt)
  end.

(** * Loading *)
(** [fg[ref]], foreground.py:57-91 and entity_store.py:433-456 *)
Definition resolve (st : fgs) (r : eref) : option nat := match r with EU u => match g_heap st u with Some _ => Some u | None => None end | EN s => dget s (g_map st) end.
(** [i.find('____') >= 0] and [i.split('____')], fragments.py:98-99; [l] is the current piece, backwards *)
Fixpoint strip4 (k : nat) (s : string) : option string :=
  match k, s with O, _ => Some s | S k, String c r => if Ascii.eqb c "_"%char then strip4 k r else None | S _, EmptyString => None end.
Fixpoint split4 (n : nat) (cur : string) (s : string) : list string :=
  match n with
  | O => [cur]
  | S n => match s with
           | EmptyString => [cur]
           | String c r => match strip4 4 s with Some rest => cur :: split4 n "" rest | None => split4 n (cur ++ String c "")%string r end
           end
  end.
Fixpoint has4 (s : string) : bool := match s with EmptyString => false | String _ r => match strip4 4 s with Some _ => true | None => has4 r end end.
Definition load_key (s : string) : skey := if has4 s then KT (split4 (S (String.length s)) "" s) else KS s.
(** [cached_ev] setter, 418-424, with a value that may be None *)
Definition set_cached_o (h : heap) (i : nat) (v : option Qc) : heap * fret unit := match v with Some q => set_cached h i q | None => set_exchange_value h i (ScKey K0) None end.
Section Env.
Context (refq : nat -> nat).
(** objects are known by their uuid; [sh u] is a second object with the uuid [u] *)
Context (sh : nat -> nat).
(** [add_child], 235-243: [_child_flows] is a set, and fragments of the same reference are equal (entities.py:338-361); the new object has no name yet
    ([from_json] sets it afterwards), so it equals an earlier object only if that has none *)
Definition add_child (h : heap) (unnamed : bool) (u o p : nat) : heap :=
  match h p with
  | Some pf => hset h p (if unnamed && (mem u (f_children pf) || mem (sh u) (f_children pf)) then pf else with_children pf (f_children pf ++ [o]))
  | None => h
  end.
(** [LcFragment.from_json], 80-105: the object [o] *)
Definition from_json (st : fgs) (o : nat) (j : jfrag) : heap * fret unit :=
  let h := g_heap st in
  let par := resolve st (j_parent j) in
  match j_flow j, j_dir j, dget "0" (j_evs j) with
  | Some fl, Some d, Some v0 =>
      let h := hset h o (Fr par [] fl d (j_bg j) false None new_evs [(None, null_term fl d)]) in
      let h := match par with Some p => add_child h (match g_meta st (j_id j) with Some m => match m_name m with None => true | Some _ => false end | None => true end) (j_id j) o p | None => h end in
      hbind (if j_bal j then set_balance_flow refq h o else (h, FOk tt)) (fun h =>
      hbind (set_cached_o h o v0) (fun h =>
      match h o, dget "1" (j_evs j) with
      | Some f, Some v1 => (hset h o (with_evs f (fold_left (fun acc e => if eqb (fst e) "0" || eqb (fst e) "1" then acc else dset (load_key (fst e)) (snd e) acc) (j_evs j) (dset K1 v1 (f_evs f)))), FOk tt)
      | _, _ => (h, FErr FKeyError)
      end))
  | _, _, _ => (h, FErr FKeyError)
  end.
(** the tags a new fragment has, entities.py:49-50 and fragments.py:172-173 *)
Definition new_tags : dict string (option string) := [("name", Some ""); ("comment", Some ""); ("stagename", Some "")].
Definition load_tags (j : jfrag) : fret (dict string (option string)) := match j_tags j with Some t => FOk (fold_left (fun acc e => dset (fst e) (snd e) acc) t new_tags) | None => FErr FKeyError end.
Definition ext_name (r : eref) : option string := match r with EN s => Some s | EU _ => None end.
(** one turn of the first loop of [_do_load], 245-249, with [add], 174-197: a second object of the same reference is merged into the first *)
Definition merge_tags (a b : dict string (option string)) : dict string (option string) := fold_left (fun acc e => if din (fst e) acc then acc else dset (fst e) (snd e) acc) b a.
Definition load_one (st : fgs) (j : jfrag) : fgs * fret unit :=
  let u := j_id j in
  match g_meta st u with
  | None =>
      let '(h, o) := from_json st u j in
      match o, load_tags j with
      | FOk _, FOk tg => (Fg h (fun i => if Nat.eqb i u then Some (Mt (ext_name (j_ext j)) (j_priv j) tg) else g_meta st i)
                             (match j_ext j with EN s => dset s u (g_map st) | EU _ => g_map st end), FOk tt)
      | FErr e, _ | _, FErr e => (Fg h (g_meta st) (g_map st), FErr e)
      end
  | Some m =>
      if eqb (m_name m) (ext_name (j_ext j)) then
        let '(h, o) := from_json st (sh u) j in
        match o, load_tags j with
        | FOk _, FOk tg => (Fg h (fun i => if Nat.eqb i u then Some (Mt (m_name m) (m_priv m) (merge_tags (m_tags m) tg)) else g_meta st i) (g_map st), FOk tt)
        | FErr e, _ | _, FErr e => (Fg h (g_meta st) (g_map st), FErr e)
        end
      else (st, FErr FTypeError)
  end.
(** [FlowTermination.from_json], terminations.py:67-100: a fragment that is not found gives a termination to nothing *)
Definition term_of (st : fgs) (f : frag) (t : jterm) : term :=
  match t with
  | JNull => null_term (f_flow f) (f_dir f)
  | JTerm n fl d desc => Tm (match n with JProc p => NProc p | JFrag r => match resolve st r with Some j => NFrag j | None => NNull end end)
      (match fl with Some x => x | None => f_flow f end) (match d with Some x => x | None => comp (f_dir f) end) desc
  end.
(** [finish_json_load], fragments.py:107-113, and the second loop of [_do_load], 251-257 *)
Definition load_tkey (s : string) : option skey := if eqb s "default" || eqb s "null" then None else Some (KS s).
Definition finish_one (st : fgs) (j : jfrag) : fgs * fret unit :=
  match g_heap st (j_id j), j_terms j with
  | Some f, Some ts => (Fg (hset (g_heap st) (j_id j) (with_terms f (fold_left (fun acc e => dset (load_tkey (fst e)) (term_of st f (snd e)) acc) ts (f_terms f)))) (g_meta st) (g_map st), FOk tt)
  | Some _, None => (st, FErr FKeyError)
  | None, _ => (st, FErr FAttributeError)
  end.
Fixpoint geach (l : list jfrag) (step : fgs -> jfrag -> fgs * fret unit) (st : fgs) : fgs * fret unit :=
  match l with [] => (st, FOk tt) | x :: r => let '(st', o) := step st x in match o with FErr e => (st', FErr e) | FOk _ => geach r step st' end end.
Definition do_load (l : list jfrag) (st : fgs) : fgs * fret unit :=
  let '(st1, o) := geach l load_one st in match o with FErr e => (st1, FErr e) | FOk _ => geach l finish_one st1 end.
(** [_load_fragments], 259-276, on the files in the order of os.listdir; an unfinished file raises a ValueError ([FAssertion] here) *)
Fixpoint read_files (fs : list (nat * option (list jfrag))) : fret (list jfrag) :=
  match fs with
  | [] => FOk []
  | (_, None) :: _ => FErr FAssertion
  | (_, Some js) :: r => match read_files r with FErr e => FErr e | FOk l => FOk (js ++ l) end
  end.
Definition load_fragments (files : list (nat * option (list jfrag))) : fgs * fret unit :=
  match read_files files with FErr e => (empty_fg, FErr e) | FOk l => do_load l empty_fg end.
End Env.

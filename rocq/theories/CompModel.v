(** Model of /repo/lcatools/flowdb/compartments.py: class Compartment, [_crawl_compartments] and the lookup of
    CompartmentManager.

    A compartment is a tree.  Python's [parent] pointers, object identity and [_id] hash are implied by the position in the
    tree; a [set] of subcompartments or synonyms is a list in some iteration order, so that a statement about all lists is
    a statement about all iteration orders. *)
From Verif Require Import Base PyStr.
Open Scope string_scope.
Open Scope nat_scope.
Open Scope list_scope.

(** [__init__], compartments.py:320-329.  [c_syns] is [_synonyms], which excludes the name. *)
Inductive comp := C (c_name : string) (c_syns : list string) (c_elem : bool) (c_subs : list comp).

Definition c_name (c : comp) : string := match c with C n _ _ _ => n end.
Definition c_syns (c : comp) : list string := match c with C _ s _ _ => s end.
Definition c_elem (c : comp) : bool := match c with C _ _ e _ => e end.
Definition c_subs (c : comp) : list comp := match c with C _ _ _ l => l end.

(** property [synonyms], compartments.py:342-344 *)
Definition synonyms (c : comp) : list string := c_name c :: c_syns c.
(** [__contains__], compartments.py:457-465 *)
Definition contains (c : comp) (s : string) : bool := mem s (synonyms c).

Definition set_subs (c : comp) (l : list comp) : comp := C (c_name c) (c_syns c) (c_elem c) l.

(** [add_syn] / [add_syns], compartments.py:346-352 *)
Definition add_syn (c : comp) (s : string) : comp :=
  if String.eqb s (c_name c) then c else C (c_name c) (set_add s (c_syns c)) (c_elem c) (c_subs c).
Definition add_syns (c : comp) (l : list string) : comp := fold_left add_syn l c.

(** setter of [name], compartments.py:335-340 *)
Definition rename (c : comp) (v : string) : comp :=
  C v (set_remove v (set_add (c_name c) (c_syns c))) (c_elem c) (c_subs c).

(** [set_elementary], compartments.py:434-437 *)
Fixpoint set_elementary (c : comp) : comp :=
  match c with C n s _ l => C n s true (map set_elementary l) end.
(** [unset_elementary], compartments.py:439-444 (the children get [set_elementary]) *)
Definition unset_elementary (c : comp) (unset_children : bool) : comp :=
  C (c_name c) (c_syns c) false (if unset_children then map set_elementary (c_subs c) else c_subs c).

(** [__getitem__], compartments.py:467-476: the first subcompartment, in iteration order, that contains the name. *)
Fixpoint find_sub (l : list comp) (s : string) : option comp :=
  match l with [] => None | x :: t => if contains x s then Some x else find_sub t s end.
Definition getitem (c : comp) (s : string) : option comp := find_sub (c_subs c) s.
Fixpoint getpath (c : comp) (p : list string) : option comp :=
  match p with [] => Some c | n :: t => match getitem c n with Some x => getpath x t | None => None end end.

Definition overlap (a b : comp) : bool := existsb (fun s => contains b s) (synonyms a).

Definition is_unspecified (s : string) : bool := String.eqb (lower s) "unspecified".

(** [_merge_sub], compartments.py:491-511, as a relation [merge_sub self comp self'], because the loop runs over the set
    [self._subcompartments.union({self})] in an order Python does not fix and takes the first match; [merge_all] is
    the inner loop.  [comp] is not part of the tree of [self] (see [add_subs] for the one exception). *)
Inductive merge_sub : comp -> comp -> comp -> Prop :=
| MS_self self k self' : overlap self k = true ->
    merge_all (add_syns self (synonyms k)) (c_subs k) self' -> merge_sub self k self'
| MS_sub self k a i b i' : c_subs self = a ++ i :: b -> overlap i k = true ->
    merge_all (add_syns i (synonyms k)) (c_subs k) i' -> merge_sub self k (set_subs self (a ++ i' :: b))
| MS_new self k : overlap self k = false -> (forall i, In i (c_subs self) -> overlap i k = false) ->
    merge_sub self k (set_subs self (c_subs self ++ [k]))
with merge_all : comp -> list comp -> comp -> Prop :=
| MA_nil self : merge_all self [] self
| MA_cons self k l s1 s2 : merge_sub self k s1 -> merge_all s1 l s2 -> merge_all self (k :: l) s2.

(** [add_subs] of a non-empty list of names (with [add_sub], compartments.py:354-387).
    - 'unspecified' returns [self], so the rest is added to [self];
    - a name that an existing subcompartment contains continues there ([_merge_sub] of a subcompartment with itself is
      the identity when sibling names are disjoint, lemma [merge_existing_id]);
    - otherwise a new compartment is created and merged; if its name is a synonym of [self] itself, [_merge_sub] joins it
      with [self] and the compartment on which the rest is built is not attached to anything;
    - otherwise it becomes a new subcompartment, elementary iff [self] is. *)
Definition new_comp (n : string) (elem : bool) : comp := C n [] elem [].
Fixpoint add_path (self : comp) (p : list string) : comp :=
  match p with
  | [] => self
  | n :: rest =>
      if is_unspecified n then add_path self rest else
      match (fix go l := match l with
                         | [] => None
                         | x :: t => if contains x n then Some (add_path x rest :: t)
                                     else match go t with Some t' => Some (x :: t') | None => None end
                         end) (c_subs self) with
      | Some l' => set_subs self l'
      | None => if contains self n then self
                else set_subs self (c_subs self ++ [add_path (new_comp n (c_elem self)) rest])
      end
  end.

(** [merge_subs], compartments.py:513-536, for two distinct subcompartments [s1], [s2] of [self]; None: ValueError. *)
Inductive merge_subs : comp -> comp -> comp -> option comp -> Prop :=
| MSS_flag self s1 s2 : c_elem s1 <> c_elem s2 -> merge_subs self s1 s2 None
| MSS_ok self s1 s2 s2' rest rest' : c_elem s1 = c_elem s2 ->
    Permutation (c_subs self) (s1 :: s2 :: rest) -> merge_all (add_syns s2 (synonyms s1)) (c_subs s1) s2' ->
    Permutation rest' (s2' :: rest) -> merge_subs self s1 s2 (Some (set_subs self rest')).

(** [_collapse], compartments.py:550-558: subcompartments are first collapsed into the subcompartment. *)
Fixpoint collapsed_syns (s : comp) : list string :=
  match s with C n sy _ l => (n :: sy) ++ flat_map collapsed_syns l end.
(** [collapse], compartments.py:560-570 *)
Definition collapse (self s1 : comp) (rest : list comp) : comp := add_syns (set_subs self rest) (collapsed_syns s1).

(** [uproot], compartments.py:538-548: [rest] are the other subcompartments of [self]. *)
Definition uproot (self s1 : comp) (rest : list comp) (s2 self' s2' : comp) : Prop :=
  merge_sub s2 s1 s2' /\ self' = set_subs self rest.

(** * Serialisation *)
(** the JSON object: [name] list, optional [elementary], [subcompartments] *)
Inductive json := J (j_names : list string) (j_elem : bool) (j_subs : list json).
Definition j_names (j : json) := match j with J n _ _ => n end.
Definition j_elem (j : json) := match j with J _ e _ => e end.
Definition j_subs (j : json) := match j with J _ _ l => l end.

(** [serialize], compartments.py:587-599.  Simplification: the sort of synonyms and of subcompartments is not modelled;
    both are sets, so their order carries no information. *)
Fixpoint serialize (c : comp) : json := match c with C n s e l => J (n :: s) e (map serialize l) end.

(** [_add_subs_from_json], compartments.py:301-318, for name lists ([serialize] always writes lists); a list is not tested
    for 'unspecified', only [add_sub] does that.  [parent_elem] is the argument [elementary].
    The result of [add_sub] is the compartment the names and subcompartments of the JSON object are added to:
    [self] for 'unspecified', the existing subcompartment, an unattached one if the name is a synonym of [self]
    (then everything below is lost), or the new subcompartment. *)
Fixpoint fill (self : comp) (pe : bool) (j : json) {struct j} : comp :=
  (* adds the JSON subcompartments of j to self *)
  match j with
  | J _ _ subs =>
      fold_left (fun self sj =>
        let e := pe || j_elem sj in
        match j_names sj with
        | [] => self
        | n :: syns =>
            if is_unspecified n then fill (add_syns self syns) e sj
            else match (fix go l := match l with
                                    | [] => None
                                    | x :: t => if contains x n then Some (fill (add_syns x syns) e sj :: t)
                                                else match go t with Some t' => Some (x :: t') | None => None end
                                    end) (c_subs self) with
                 | Some l' => set_subs self l'
                 | None => if contains self n then self
                           else set_subs self (c_subs self ++ [fill (add_syns (new_comp n (c_elem self || e)) syns) e sj])
                 end
        end) subs self
  end.

(** [from_json], compartments.py:280-295: the root's own 'elementary' entry is not read. *)
Definition from_json (j : json) (elementary : bool) : option comp :=
  match j_names j with
  | [] => None
  | n :: syns => Some (fill (add_syns (new_comp n elementary) syns) elementary j)
  end.

(** * Lookup *)
(** [re.search('unspecified$', s, re.IGNORECASE)] (simplification: a trailing newline is not ignored) *)
Fixpoint ends_with (s suf : string) : bool :=
  if String.eqb s suf then true else match s with EmptyString => false | String _ r => ends_with r suf end.
Definition ends_unspecified (s : string) : bool := ends_with (lower s) "unspecified".

Fixpoint drop_known (c : comp) (l : list (option string)) : list (option string) :=
  match l with Some s :: t => if contains c s then drop_known c t else l | _ => l end.
Fixpoint drop_none (l : list (option string)) : list (option string) :=
  match l with None :: t => drop_none t | _ => l end.
Definition drop_unspec (l : list (option string)) : list (option string) :=
  match l with Some s :: t => if ends_unspecified s then t else l | _ => l end.
Definition starts_known (c : comp) (l : list (option string)) : bool :=
  match l with Some s :: _ => contains c s | _ => false end.

(** [_crawl_compartments], compartments.py:247-271: the result as the path of compartments from the start to the match;
    the request list is shared by all branches and shortened as they are visited, so it is returned too. *)
Fixpoint crawl (check_elem : bool) (c : comp) (l : list (option string)) {struct c} : option (list comp) * list (option string) :=
  match c with
  | C n sy e subs =>
      if check_elem && e && starts_known c l then (Some [c], tl l) else
      let l1 := drop_unspec (drop_none (drop_known c l)) in
      match l1 with
      | [] => (Some [c], [])
      | _ :: _ =>
          (fix go (ss : list comp) (l : list (option string)) :=
             match ss with
             | [] => (None, l)
             | s :: t => match crawl check_elem s l with
                         | (Some p, l') => (Some (c :: p), l')
                         | (None, l') => go t l'
                         end
             end) subs l1
      end
  end.
Definition crawl_subs (check_elem : bool) (c : comp) :=
  (fix go (ss : list comp) (l : list (option string)) :=
     match ss with
     | [] => (@None (list comp), l)
     | s :: t => match crawl check_elem s l with (Some p, l') => (Some (c :: p), l') | (None, l') => go t l' end
     end).

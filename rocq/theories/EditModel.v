(** Model of /repo/lcatools/entities/fragment_editor.py ([FragmentEditor], not interactive) and of [LcFragment.observe]
    (/repo/lcatools/entities/fragments.py:504-533) over the heap of fragments of FragModel.v.

    Simplifications: names, comments, stage names and origins are not modelled; uuids of new fragments are arguments (any number not in use);
    an object whose constructor raised is in the heap only through the parent that already lists it (every use of it raises AttributeError). *)
From Verif Require Import Num Base PyStr ProcModel FragModel.
Open Scope Qc_scope.
Open Scope string_scope.
Open Scope list_scope.

(** sequencing of calls that may raise; the state reached when one raises is kept *)
Definition hbind {A} (r : heap * fret A) (k : heap -> heap * fret unit) : heap * fret unit :=
  match r with (h, FOk _) => k h | (h, FErr e) => (h, FErr e) end.
Fixpoint heach {A} (l : list A) (step : heap -> A -> heap * fret unit) (h : heap) : heap * fret unit :=
  match l with [] => (h, FOk tt) | x :: r => hbind (step h x) (heach r step) end.

Section Env.
Context (cf : nat -> nat -> Qc) (refq : nat -> nat).

Definition with_bg (f : frag) b := Fr (f_parent f) (f_children f) (f_flow f) (f_dir f) b (f_isbal f) (f_cons f) (f_evs f) (f_terms f).
(** [to_foreground], fragments.py:837-846 *)
Definition to_foreground (fuel : nat) (h : heap) (i : nat) (k : option skey) : heap * fret unit :=
  match h i with
  | None => (h, FErr FAttributeError)
  | Some f => terminate cf refq fuel (hset h i (with_bg f false)) i (NFrag i) k None None true
  end.

(** [FragmentEditor.create_fragment], fragment_editor.py:11-81, with [LcFragment.__init__], fragments.py:133-188, and no units.
    A reference fragment gets the complementary direction and no balance flag. *)
Definition create_fragment (fuel : nat) (h : heap) (i flow : nat) (d : dirn) (parent : option nat) (value : option Qc) (balance bg : bool) : heap * fret unit :=
  match h i with
  | Some _ => (h, FErr FKeyError)
  | None =>
      match parent with
      | None =>
          let v := match value with Some v => v | None => 1 end in
          set_cached (hset h i (Fr None [] flow (comp d) bg false None new_evs [(None, null_term flow (comp d))])) i v
      | Some p =>
          match h p with
          | None => (h, FErr FAttributeError)
          | Some pf =>
              match dget None (f_terms pf) with
              | None => (h, FErr FKeyError)
              | Some t =>
                  hbind (if is_null t then to_foreground fuel h p None else (h, FOk tt)) (fun h =>
                  match h p with
                  | None => (h, FErr FAttributeError)
                  | Some pf =>
                      match dget None (f_terms pf) with
                      | None => (h, FErr FKeyError)
                      | Some t =>
                          let v := if balance || is_subfrag h p t then 1 else match value with Some v => v | None => 1 end in
                          let h1 := hset h p (with_children pf (set_add i (f_children pf))) in
                          if balance && match f_cons pf with Some _ => true | None => false end then (h1, FErr BalanceAlreadySet) else
                          let h2 := if balance then hset h1 p (with_cons (with_children pf (set_add i (f_children pf))) (Some (refq flow))) else h1 in
                          set_cached (hset h2 i (Fr (Some p) [] flow d bg balance None new_evs [(None, null_term flow d)])) i v
                      end
                  end)
              end
          end
      end
  end.

(** [transfer_evs], 119-125; from [a] to [b] *)
Definition transfer_one (a b : nat) (h : heap) (k : skey) : heap * fret unit :=
  if eqb k K0 || eqb k K1 then (h, FOk tt) else
  match h a, h b with
  | Some f, Some g => match observable h g (ScKey k) with
                      | FErr e => (h, FErr e)
                      | FOk false => (h, FOk tt)
                      | FOk true => match exchange_value f (ScKey k) false with FErr e => (h, FErr e) | FOk v => set_exchange_value h b (ScKey k) (Some v) end
                      end
  | _, _ => (h, FErr FAttributeError)
  end.
Definition transfer_evs (h : heap) (a b : nat) : heap * fret unit :=
  match h a, h b with
  | Some f, Some g =>
      hbind (if eqb (observed_ev f) (Some 0) then (h, FOk tt) else
             match observable h g ScNone with
             | FErr e => (h, FErr e)
             | FOk false => (h, FOk tt)
             | FOk true => set_observed h b (observed_ev f)
             end)
      (heach (dkeys (f_evs f)) (transfer_one a b))
  | _, _ => (h, FErr FAttributeError)
  end.
(** [clear_evs], fragments.py:442-443 *)
Definition clear_evs (h : heap) (i : nat) : heap * fret unit :=
  match h i with None => (h, FErr FAttributeError) | Some f => (hset h i (with_evs f new_evs), FOk tt) end.
(** [_fork_fragment], 168-187; [b]: the new fragment *)
Definition fork_fragment (fuel : nat) (h : heap) (a b : nat) : heap * fret unit :=
  match h a with
  | None => (h, FErr FAttributeError)
  | Some f =>
      hbind (create_fragment fuel h b (f_flow f) (f_dir f) (f_parent f) (Some (cached_ev f)) (f_isbal f) false) (fun h =>
      hbind (transfer_evs h a b) (fun h => clear_evs h a))
  end.
(** [interpose], 189-200 *)
Definition interpose (fuel : nat) (h : heap) (a b : nat) : heap * fret unit :=
  hbind (fork_fragment fuel h a b) (fun h => hbind (to_foreground fuel h b None) (fun h => set_parent h a b)).
(** [split_subfragment], 202-217 *)
Definition split_subfragment (fuel : nat) (h : heap) (a b : nat) : heap * fret unit :=
  hbind (fork_fragment fuel h a b) (fun h => hbind (unset_parent h a) (fun h => terminate cf refq fuel h b (NFrag a) None None None true)).

(** [clone_fragment], 127-166; [s x] is the uuid of the copy of [x] *)
Definition clone_term (fuel : nat) (a b : nat) (h : heap) (e : option skey * term) : heap * fret unit :=
  let '(k, t) := e in
  match t_node t with
  | NNull => (h, FOk tt)
  | node => if is_fg a t then to_foreground fuel h b k else terminate cf refq fuel h b node k (Some (t_flow t)) (Some (t_dir t)) (t_desc t)
  end.
Fixpoint clone (n fuel : nat) (s : nat -> nat) (par : option nat) (h : heap) (a : nat) : heap * fret unit :=
  match n with
  | O => (h, FErr FRecursion)
  | S n =>
      match h a with
      | None => (h, FErr FAttributeError)
      | Some f =>
          hbind (create_fragment fuel h (s a) (f_flow f) (match par with None => comp (f_dir f) | Some _ => f_dir f end) par (Some (cached_ev f)) (f_isbal f) (f_bg f)) (fun h =>
          hbind (transfer_evs h a (s a)) (fun h =>
          hbind (heach (f_terms f) (clone_term fuel a (s a)) h) (heach (child_flows f) (clone n fuel s (Some (s a))))))
      end
  end.

(** [_auto_observe], fragments.py:504-508, and the recursion of [observe], 510-530, with [accept_all=True] *)
Definition auto_observe (h : heap) (i : nat) (sc : scen) : heap * fret unit :=
  match h i with
  | None => (h, FErr FAttributeError)
  | Some f => match sc with ScNone => set_observed h i (Some (cached_ev f)) | _ => set_exchange_value h i sc (Some (cached_ev f)) end
  end.
Fixpoint observe_tree (n : nat) (sc : scen) (h : heap) (i : nat) : heap * fret unit :=
  match n with
  | O => (h, FErr FRecursion)
  | S n =>
      match h i with
      | None => (h, FErr FAttributeError)
      | Some f =>
          match observable h f sc with
          | FErr e => (h, FErr e)
          | FOk o => hbind (if o then auto_observe h i sc else (h, FOk tt)) (heach (child_flows f) (observe_tree n sc))
          end
      end
  end.
(** [observe], 510-533: the traversal at the end can only raise *)
Definition observe (n fuel : nat) (sc : scen) (h : heap) (i : nat) : heap * fret unit :=
  hbind (observe_tree n sc h i) (fun h => match traverse cf refq fuel h sc true i with FErr e => (h, FErr e) | FOk _ => (h, FOk tt) end).
End Env.

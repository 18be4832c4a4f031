(** Model of /repo/lcatools/entities/fragments.py (LcFragment), /repo/lcatools/terminations.py (FlowTermination) and
    /repo/lcatools/fragment_flows.py (FragmentFlow, group_ios).

    Simplifications: a fragment is a number standing for its uuid; the fragments of one foreground are a heap from numbers to
    records, all of the same origin (so [is_local] holds); flows, quantities and processes are numbers standing for entities
    compared by reference; [cf f q] is the flow's characterization factor ([LcFlow.cf], always a number) and [refq f] its
    reference quantity, constant during a history; terminations are to nothing, a process or a fragment (termination to a flow
    or to a remote fragment is not modelled), [inbound_exchange_value] is 1 (terminations.py:356-358); score caches, names, stage names
    and printing are not modelled; numbers are exact rationals.  [frags_seen] is passed by value: the sharing of the set among the
    children of a subfragment node matters only if a child has no parent. *)
From Verif Require Import Num Base PyStr ProcModel.
From Coq Require Export QArith.Qcabs.
Open Scope nat_scope.
Open Scope string_scope.
Open Scope list_scope.

Inductive fexn := InvalidParentChild | FoundBalanceFlow | BalanceAlreadySet | CacheAlreadySet | MissingFlow | ScenarioConflict | DependentFragment
                | CumulatingFlows | FlowConversionError | FZeroDivision | FAssertion | FKeyError | FTypeError | FAttributeError | FRecursion.
Inductive fret (A : Type) := FOk (a : A) | FErr (e : fexn).
Arguments FOk {A} _. Arguments FErr {A} _.

(** keys of [_exchange_values] (0, 1, scenario names, and tuples from JSON); keys of [_terminations] are [None] or these *)
Inductive skey := K0 | K1 | KS (s : string) | KT (l : list string).
Fixpoint slist_eqb (a b : list string) : bool := match a, b with [], [] => true | x :: r, y :: t => String.eqb x y && slist_eqb r t | _, _ => false end.
Lemma slist_eqb_spec a : forall b, reflect (a = b) (slist_eqb a b).
Proof.
  induction a as [|x a IH]; intros [|y b]; cbn; try (constructor; congruence). destruct (String.eqb_spec x y), (IH b); cbn; constructor; congruence.
Qed.
Definition skey_eqb (a b : skey) : bool := match a, b with K0, K0 | K1, K1 => true | KS s, KS t => String.eqb s t | KT l, KT m => slist_eqb l m | _, _ => false end.
Lemma skey_eqb_spec a b : reflect (a = b) (skey_eqb a b).
Proof.
  destruct a as [| |s|l], b as [| |t|m]; cbn; try (constructor; congruence); [destruct (String.eqb_spec s t)|destruct (slist_eqb_spec l m)]; constructor; congruence.
Qed.
#[export] Instance EqB_skey : EqB skey := {| eqb_spec := skey_eqb_spec |}.
(** a scenario argument: None, one key (a tuple is a key), or a set of keys *)
Inductive scen := ScNone | ScKey (k : skey) | ScSet (ks : list skey).

(** FlowTermination, terminations.py:118-174 *)
Inductive tnode := NNull | NProc (p : nat) | NFrag (i : nat).
Record term := Tm { t_node : tnode; t_flow : nat; t_dir : dirn; t_desc : bool }.
Definition comp (d : dirn) : dirn := match d with Input => Output | Output => Input end.
Definition null_term (flow : nat) (d : dirn) : term := Tm NNull flow (comp d) true.
(** [is_null], 283-285 *)
Definition is_null (t : term) : bool := match t_node t with NNull => true | _ => false end.
(** [is_fg], 247-253, of a termination of fragment [i] *)
Definition is_fg (i : nat) (t : term) : bool := match t_node t with NFrag j => Nat.eqb j i | _ => false end.

(** LcFragment, fragments.py:133-188 *)
Record frag := Fr { f_parent : option nat; f_children : list nat; f_flow : nat; f_dir : dirn; f_bg : bool; f_isbal : bool; f_cons : option nat;
  f_evs : dict skey (option Qc); f_terms : dict (option skey) term }.
Definition heap := nat -> option frag.
Definition hset (h : heap) (i : nat) (f : frag) : heap := fun j => if Nat.eqb j i then Some f else h j.
Definition with_evs (f : frag) e := Fr (f_parent f) (f_children f) (f_flow f) (f_dir f) (f_bg f) (f_isbal f) (f_cons f) e (f_terms f).
Definition with_terms (f : frag) t := Fr (f_parent f) (f_children f) (f_flow f) (f_dir f) (f_bg f) (f_isbal f) (f_cons f) (f_evs f) t.
(** [_new_evs], 51-55 *)
Definition new_evs : dict skey (option Qc) := [(K0, Some (Q2Qc 1)); (K1, Some (Q2Qc 0))].

(** * Exchange values and scenarios *)
(** [cached_ev], 414-416 *)
Definition cached_ev (f : frag) : Qc := match dget K0 (f_evs f) with Some (Some v) => if eqb v (Q2Qc 0) then Q2Qc 1 else v | _ => Q2Qc 1 end.
(** [observed_ev], 445-450 *)
Definition observed_ev (f : frag) : option Qc :=
  let ev := match dget K1 (f_evs f) with Some v => v | None => None end in
  match f_parent f with
  | None => if eqb ev (Some (Q2Qc 0)) then match dget K0 (f_evs f) with Some v => v | None => None end else ev
  | Some _ => ev
  end.
(** [_match_scenario_ev], 562-572 *)
Definition match_ev (f : frag) (sc : scen) : fret (option skey) :=
  match sc with
  | ScNone => FOk None
  | ScKey k => FOk (if din k (f_evs f) then Some k else None)
  | ScSet ks => match filter (fun k => din k (f_evs f)) ks with [] => FOk None | [k] => FOk (Some k) | _ => FErr ScenarioConflict end
  end.
(** [_match_scenario_term], 574-586 *)
Definition match_term (f : frag) (sc : scen) : fret (option skey) :=
  match sc with
  | ScNone => FOk None
  | ScKey k => if eqb k K0 || eqb k (KS "0") then FOk None else FOk (if din (Some k) (f_terms f) then Some k else None)
  | ScSet ks => match filter (fun k => din (Some k) (f_terms f)) ks with [] => FOk None | [k] => FOk (Some k) | _ => FErr ScenarioConflict end
  end.
Definition num (v : option Qc) : Qc := match v with Some q => q | None => Q2Qc 0 end.
(** the value stored for a matched scenario, else observed or cached *)
Definition ev_for (f : frag) (m : option skey) (obs : bool) : Qc :=
  match m with
  | None => if obs then num (observed_ev f) else cached_ev f
  | Some k => match dget k (f_evs f) with Some v => num v | None => Q2Qc 0 end
  end.
(** [exchange_value], 588-606 *)
Definition exchange_value (f : frag) (sc : scen) (obs : bool) : fret Qc :=
  match match_ev f sc with FErr e => FErr e | FOk m => FOk (ev_for f m obs) end.
(** [termination], 860-866 *)
Definition termination (f : frag) (sc : scen) : fret term :=
  match match_term f sc with FErr e => FErr e | FOk m => match dget m (f_terms f) with Some t => FOk t | None => FErr ScenarioConflict end end.
(** [is_subfrag], terminations.py:271-281, of a termination of fragment [i] *)
Definition is_subfrag (h : heap) (i : nat) (t : term) : bool :=
  match t_node t, h i with
  | NFrag j, Some f => negb (Nat.eqb j i || f_bg f || match h j with Some g => f_bg g | None => false end)
  | _, _ => false
  end.
(** [_check_observability], 455-465 *)
Definition observable (h : heap) (f : frag) (sc : scen) : fret bool :=
  match f_parent f with
  | None => FOk true
  | Some p => if f_isbal f then FOk false else
      match h p with
      | None => FErr FAttributeError
      | Some pf => match termination pf sc with FErr e => FErr e | FOk t => FOk (negb (is_subfrag h p t)) end
      end
  end.
(** [set_exchange_value], 634-661 *)
Definition set_exchange_value (h : heap) (i : nat) (sc : scen) (v : option Qc) : heap * fret unit :=
  match h i with
  | None => (h, FErr FAttributeError)
  | Some f =>
      match observable h f sc with
      | FErr e => (h, FErr e)
      | FOk false => (h, FErr DependentFragment)
      | FOk true =>
          match sc with
          | ScSet _ | ScKey (KT _) => (h, FErr ScenarioConflict)
          | ScNone => (hset h i (with_evs f (dset K0 v (f_evs f))), FOk tt)
          | ScKey k => let k' := if eqb k (KS "0") then K0 else if eqb k (KS "1") then K1 else k in
                       (hset h i (with_evs f (dset k' v (f_evs f))), FOk tt)
          end
      end
  end.
(** [observed_ev] setter, 467-470 *)
Definition set_observed (h : heap) (i : nat) (v : option Qc) : heap * fret unit :=
  match h i with
  | None => (h, FErr FAttributeError)
  | Some f => match observable h f ScNone with
              | FErr e => (h, FErr e)
              | FOk b => (if b then hset h i (with_evs f (dset K1 v (f_evs f))) else h, FOk tt)
              end
  end.
(** [cached_ev] setter, 418-424 *)
Definition set_cached (h : heap) (i : nat) (v : Qc) : heap * fret unit :=
  match h i with
  | None => (h, FErr FAttributeError)
  | Some f => if eqb (cached_ev f) (Q2Qc 1) then if eqb v (Q2Qc 1) then (h, FOk tt) else set_exchange_value h i (ScKey K0) (Some v)
              else (h, FErr CacheAlreadySet)
  end.
(** [reverse_direction], 681-691 *)
Fixpoint neg_evs (l : dict skey (option Qc)) : option (dict skey (option Qc)) :=
  match l with
  | [] => Some []
  | (k, Some v) :: r => match neg_evs r with Some r' => Some ((k, Some (- v)%Qc) :: r') | None => None end
  | (_, None) :: _ => None
  end.
Definition reversed (f : frag) : option frag :=
  match neg_evs (f_evs f) with
  | Some e => Some (Fr (f_parent f) (f_children f) (f_flow f) (comp (f_dir f)) (f_bg f) (f_isbal f) (f_cons f) e (f_terms f))
  | None => None
  end.
Definition reverse_direction (h : heap) (i : nat) : heap * fret unit :=
  match h i with
  | None => (h, FErr FAttributeError)
  | Some f => match reversed f with Some f' => (hset h i f', FOk tt) | None => (h, FErr FTypeError) end
  end.

(** * Parent and child links *)
Definition with_parent (f : frag) p := Fr p (f_children f) (f_flow f) (f_dir f) (f_bg f) (f_isbal f) (f_cons f) (f_evs f) (f_terms f).
Definition with_children (f : frag) c := Fr (f_parent f) c (f_flow f) (f_dir f) (f_bg f) (f_isbal f) (f_cons f) (f_evs f) (f_terms f).
(** [set_parent], 207-214, [add_child], 235-243 *)
Definition set_parent (h : heap) (i p : nat) : heap * fret unit :=
  match h i, h p with
  | Some f, Some _ =>
      let h1 := hset h i (with_parent f (Some p)) in
      match h1 p with Some pf => (hset h1 p (with_children pf (set_add i (f_children pf))), FOk tt) | None => (h1, FErr FAttributeError) end
  | _, _ => (h, FErr FAttributeError)
  end.
(** [unset_parent], 216-218, [remove_child], 245-253 *)
Definition unset_parent (h : heap) (i : nat) : heap * fret unit :=
  match h i with
  | Some f => match f_parent f with
              | None => (h, FErr FAttributeError)
              | Some p => match h p with
                          | None => (h, FErr FAttributeError)
                          | Some pf => if mem i (f_children pf) then
                                         let h1 := hset h p (with_children pf (set_remove i (f_children pf))) in
                                         match h1 i with Some f1 => (hset h1 i (with_parent f1 None), FOk tt) | None => (h1, FErr FAttributeError) end
                                       else (h, FErr FKeyError)
                          end
              end
  | None => (h, FErr FAttributeError)
  end.
(** a new fragment, 133-188 with [termination=None], [exchange_value=1.0] and no parent; uuids are fresh *)
Definition new_frag (flow : nat) (d : dirn) : frag := Fr None [] flow d false false None new_evs [(None, null_term flow d)].
Definition create_frag (h : heap) (i flow : nat) (d : dirn) : heap * fret unit :=
  match h i with Some _ => (h, FErr FKeyError) | None => (hset h i (new_frag flow d), FOk tt) end.
(** [child_flows], 255-258: sorted by uuid *)
Fixpoint insert (x : nat) (l : list nat) : list nat := match l with [] => [x] | y :: r => if Nat.leb x y then x :: l else y :: insert x r end.
Definition child_flows (f : frag) : list nat := fold_right insert [] (f_children f).
(** [top], 202-205 *)
Fixpoint top (fuel : nat) (h : heap) (i : nat) : fret nat :=
  match fuel with
  | O => FErr FRecursion
  | S n => match h i with None => FErr FAttributeError | Some f => match f_parent f with None => FOk i | Some p => top n h p end end
  end.

(** * Conserved quantities *)
Section Env.
Context (cf : nat -> nat -> Qc) (refq : nat -> nat).
Definition with_cons (f : frag) q := Fr (f_parent f) (f_children f) (f_flow f) (f_dir f) (f_bg f) (f_isbal f) q (f_evs f) (f_terms f).
Definition with_bal (f : frag) b := Fr (f_parent f) (f_children f) (f_flow f) (f_dir f) (f_bg f) b (f_cons f) (f_evs f) (f_terms f).
(** [set_balance_flow], 693-700, [set_conserved_quantity], 707-714 *)
Definition set_balance_flow (h : heap) (i : nat) : heap * fret unit :=
  match h i with
  | None => (h, FErr FAttributeError)
  | Some f => if f_isbal f then (h, FOk tt) else
      match f_parent f with
      | None => (h, FErr FAttributeError)
      | Some p => match h p with
                  | None => (h, FErr FAttributeError)
                  | Some pf => match f_cons pf with
                               | Some _ => (h, FErr BalanceAlreadySet)
                               | None => let h1 := hset h p (with_cons pf (Some (refq (f_flow f)))) in
                                         match h1 i with Some f1 => (hset h1 i (with_bal f1 true), FOk tt) | None => (h1, FErr FAttributeError) end
                               end
                  end
      end
  end.
(** [unset_balance_flow], 702-705 *)
Definition unset_balance_flow (h : heap) (i : nat) : heap * fret unit :=
  match h i with
  | None => (h, FErr FAttributeError)
  | Some f => if negb (f_isbal f) then (h, FOk tt) else
      match f_parent f with
      | None => (h, FErr FAttributeError)
      | Some p => match h p with
                  | None => (h, FErr FAttributeError)
                  | Some pf => let h1 := hset h p (with_cons pf None) in
                               match h1 i with Some f1 => (hset h1 i (with_bal f1 false), FOk tt) | None => (h1, FErr FAttributeError) end
                  end
      end
  end.
(** [balance_flow], 667-675 *)
Definition balance_flow (h : heap) (f : frag) : fret (option nat) :=
  match f_cons f with
  | None => FOk None
  | Some _ => match filter (fun c => match h c with Some g => f_isbal g | None => false end) (child_flows f) with c :: _ => FOk (Some c) | [] => FErr MissingFlow end
  end.
(** [flow_conversion], terminations.py:310-347; [node_weight_multiplier], 364-366 *)
Definition multiplier (flow : nat) (t : term) : fret Qc :=
  if Nat.eqb flow (t_flow t) then FOk (Q2Qc 1) else
  let pq := refq flow in let tq := refq (t_flow t) in
  if Nat.eqb pq tq then FOk (Q2Qc 1) else
  if eqb (cf flow tq) (Q2Qc 0) then
    if eqb (cf (t_flow t) pq) (Q2Qc 0) then FErr FlowConversionError else FOk (Q2Qc 1 / cf (t_flow t) pq)%Qc
  else FOk (cf flow tq).

(** * Fragment flows *)
(** FragmentFlow, fragment_flows.py:130-163: [fragment] (a real one or a GhostFragment of a parent), its flow and direction, [magnitude], [node_weight], [term],
    [is_conserved], and the subfragments of an aggregated node *)
Inductive fref := Real (i : nat) | Ghost (parent : nat).
Inductive ffl := FF (r : fref) (flow : nat) (d : dirn) (mag nw : Qc) (t : term) (kept : bool) (subs : list ffl).
Definition ff_ref (x : ffl) := let '(FF r _ _ _ _ _ _ _) := x in r.
Definition ff_flow (x : ffl) := let '(FF _ f _ _ _ _ _ _) := x in f.
Definition ff_dir (x : ffl) := let '(FF _ _ d _ _ _ _ _) := x in d.
Definition ff_mag (x : ffl) := let '(FF _ _ _ m _ _ _ _) := x in m.
Definition ff_nw (x : ffl) := let '(FF _ _ _ _ w _ _ _) := x in w.
Definition ff_term (x : ffl) := let '(FF _ _ _ _ _ t _ _) := x in t.
Definition ff_cons (x : ffl) := let '(FF _ _ _ _ _ _ c _) := x in c.
Definition ff_subs (x : ffl) := let '(FF _ _ _ _ _ _ _ s) := x in s.
(** [scale], 161-163 *)
Definition fscale (k : Qc) (x : ffl) : ffl := let '(FF r f d m w t c s) := x in FF r f d (m * k)%Qc (w * k)%Qc t c s.
(** [cutoff], 124-128 *)
Definition cutoff (parent flow : nat) (d : dirn) (m : Qc) : ffl := FF (Ghost parent) flow d m m (null_term flow d) false [].

(** [group_ios], 225-295; inputs count positive *)
Definition signed (d : dirn) (m : Qc) : Qc := match d with Input => m | Output => (- m)%Qc end.
Definition out_add (out : dict nat Qc) (f : nat) (m : Qc) : dict nat Qc := dset f ((match dget f out with Some x => x | None => Q2Qc 0 end) + m)%Qc out.
Definition ios_out (ffs : list ffl) : dict nat Qc :=
  fold_left (fun out x => if is_null (ff_term x) then out_add out (ff_flow x) (signed (ff_dir x) (ff_mag x)) else out) ffs [].
Definition sign_dir (v : Qc) : dirn := if Qclt_le_dec v (Q2Qc 0) then Output else Input.
Definition out_flows (parent : nat) (out : dict nat Qc) : list ffl := map (fun e => cutoff parent (fst e) (sign_dir (snd e)) (Qcabs (snd e))) out.
(** [rf], [rd]: flow and direction of [parent.top()] *)
Definition group_ios (parent rf : nat) (rd : dirn) (include_ref : bool) (ffs : list ffl) : fret (list ffl * list ffl) :=
  let out := ios_out ffs in
  let internal := filter (fun x => negb (is_null (ff_term x))) ffs in
  if include_ref then
    match ffs with
    | [] => FErr FKeyError
    | x0 :: _ =>
        let m := ff_mag x0 in
        match dget rf out with
        | Some v =>
            let ad := sign_dir v in
            if eqb ad rd then
              if Qclt_le_dec (Qcabs v) m then
                FOk (out_flows parent (dset rf (match ad with Output => v + m | Input => v - m end)%Qc out), internal)
              else FOk (cutoff parent rf (comp ad) m :: out_flows parent out, internal)
            else FErr CumulatingFlows
        | None => FOk (cutoff parent rf (comp rd) m :: out_flows parent out, internal)
        end
    end
  else FOk (out_flows parent out, internal).

(** * Traversal *)
Definition find_flow (f : nat) (l : list ffl) : option ffl := find (fun x => Nat.eqb (ff_flow x) f) l.
Fixpoint remove_flow (f : nat) (l : list ffl) : list ffl := match l with [] => [] | x :: r => if Nat.eqb (ff_flow x) f then r else x :: remove_flow f r end.
(** arguments of the recursive call: fragment, upstream node weight, frags_seen, conserved_qty, _balance *)
Definition rect := nat -> Qc -> list nat -> option nat -> option Qc -> fret (list ffl * option Qc).

(** the loop over child flows of [_traverse_fg_node], 1143-1160 *)
Fixpoint fg_loop (rec : rect) (nw : Qc) (seen : list nat) (q : option nat) (cs : list nat) (ffs : list ffl) (stock : Qc) (bal : option nat)
  : fret (list ffl * Qc * option nat) :=
  match cs with
  | [] => FOk (ffs, stock, bal)
  | c :: r => match rec c nw seen q None with
              | FOk (l, cv) => fg_loop rec nw seen q r (ffs ++ l) (match cv with Some v => stock + v | None => stock end)%Qc bal
              | FErr FoundBalanceFlow => fg_loop rec nw seen q r ffs stock (Some c)
              | FErr e => FErr e
              end
  end.
(** [_traverse_fg_node], 1086-1177 *)
Definition trav_fg (rec : rect) (h : heap) (sc : scen) (obs : bool) (i : nat) (f : frag) (x : ffl) (seen : list nat) : fret (list ffl) :=
  let t := ff_term x in
  match (if is_fg i t then match f_parent f with None => exchange_value f sc obs | Some _ => FOk (Q2Qc 1) end else FOk (Q2Qc 1)) with
  | FErr e => FErr e
  | FOk s0 =>
      let stock := match f_cons f with
                   | None => s0
                   | Some q => let s := (s0 * cf (f_flow f) q)%Qc in match f_dir f with Input => (- s)%Qc | Output => s end
                   end in
      match fg_loop rec (ff_nw x) seen (f_cons f) (child_flows f) [x] stock None with
      | FErr e => FErr e
      | FOk (ffs, stock, None) => FOk ffs
      | FOk (ffs, stock, Some b) =>
          let s := match h b with Some g => match f_dir g with Input => (- stock)%Qc | Output => stock end | None => stock end in
          match rec b (ff_nw x) seen None (Some s) with FErr e => FErr e | FOk (l, _) => FOk (ffs ++ l) end
      end
  end.
(** [unit_inventory], 1023-1045 *)
Definition unit_inventory (rec : rect) (fuel : nat) (h : heap) (j : nat) : fret (list ffl * list ffl) :=
  match top fuel h j with
  | FErr e => FErr e
  | FOk tp => match rec tp (Q2Qc 1) [] None None with
              | FErr e => FErr e
              | FOk (ffs, _) => match h tp with Some tf => group_ios j (f_flow tf) (f_dir tf) true ffs | None => FErr FAttributeError end
              end
  end.
(** [_do_subfragment_traversal], 1352-1433; [j]: the term node *)
Definition do_subfrag (rec : rect) (fuel : nat) (h : heap) (f : frag) (x : ffl) (j : nat) : fret (list ffl * list ffl * Qc) :=
  match unit_inventory rec fuel h j with
  | FErr e => FErr e
  | FOk (inv, internal) =>
      match find_flow (t_flow (ff_term x)) inv with
      | None => FErr MissingFlow
      | Some m =>
          let inv := remove_flow (t_flow (ff_term x)) inv in
          if eqb (ff_mag m) (Q2Qc 0) then FErr FZeroDivision else
          let inx := if eqb (ff_dir m) (f_dir f) then (- ff_mag m)%Qc else ff_mag m in
          let dn := (ff_nw x / inx)%Qc in
          if t_desc (ff_term x) then FOk (x :: map (fscale dn) internal, inv, dn)
          else FOk ([let '(FF r fl d m _ t c _) := x in FF r fl d m dn t c internal], inv, dn)
      end
  end.
(** the loop over child flows of [_traverse_subfragment], 1219-1239 *)
Fixpoint sub_loop (rec : rect) (h : heap) (dn : Qc) (seen : list nat) (cs : list nat) (ffs inv : list ffl) : fret (list ffl * list ffl) :=
  match cs with
  | [] => FOk (ffs, inv)
  | c :: r => match h c with
              | None => FErr FAttributeError
              | Some g => match find_flow (f_flow g) inv with
                          | None => sub_loop rec h dn seen r ffs inv
                          | Some m => let ev := if eqb (ff_dir m) (f_dir g) then (Q2Qc 0 + ff_mag m)%Qc else (Q2Qc 0 - ff_mag m)%Qc in
                                      match rec c dn seen None (Some ev) with
                                      | FErr e => FErr e
                                      | FOk (l, _) => sub_loop rec h dn seen r (ffs ++ l) (remove_flow (f_flow g) inv)
                                      end
                          end
              end
  end.
(** [_traverse_subfragment], 1179-1245 *)
Definition trav_sub (rec : rect) (fuel : nat) (h : heap) (i : nat) (f : frag) (x : ffl) (j : nat) (seen : list nat) : fret (list ffl) :=
  match h j with
  | None => FErr FAttributeError
  | Some g =>
      if f_bg g then
        match rec j (ff_nw x) [] None None with
        | FErr e => FErr e
        | FOk ([FF _ _ _ m w t c s], _) => FOk [FF (Real i) (f_flow f) (f_dir f) m w t c s]
        | FOk _ => FErr FAssertion
        end
      else match do_subfrag rec fuel h f x j with
           | FErr e => FErr e
           | FOk (ffs, inv, dn) => match sub_loop rec h dn seen (child_flows f) ffs inv with
                                   | FErr e => FErr e
                                   | FOk (ffs, inv) => FOk (ffs ++ map (fscale dn) inv)
                                   end
           end
  end.
(** conserved value and conserved flag, 1308-1330 *)
Definition conservation (h : heap) (f : frag) (ev : Qc) (q : option nat) : fret (option Qc * bool) :=
  match q with
  | Some q => if f_isbal f then FErr FoundBalanceFlow else
              let v := (ev * cf (f_flow f) q)%Qc in
              if eqb v (Q2Qc 0) then FOk (Some v, false) else FOk (Some (match f_dir f with Output => - v | Input => v end)%Qc, true)
  | None => if f_isbal f then FOk (None, true) else
            match balance_flow h f with
            | FErr e => FErr e
            | FOk None => FOk (None, false)
            | FOk (Some _) => match f_cons f with Some q => FOk (None, negb (eqb (cf (f_flow f) q) (Q2Qc 0))) | None => FOk (None, false) end
            end
  end.
(** one call of [_traverse_node], 1247-1349 *)
Definition trav_node (rec : rect) (fuel : nat) (h : heap) (sc : scen) (obs : bool) (i : nat) (nw : Qc) (seen : list nat) (q : option nat) (bal : option Qc)
  : fret (list ffl * option Qc) :=
  match h i with
  | None => FErr FAttributeError
  | Some f =>
      let isref := match f_parent f with None => true | Some _ => false end in
      if isref && mem i seen then FErr InvalidParentChild else
      let seen := if isref then i :: seen else seen in
      match (match bal with
             | Some b => FOk b
             | None => match match_ev f sc with FErr e => FErr e | FOk m => FOk (ev_for f m obs) end
             end) with
      | FErr e => FErr e
      | FOk ev =>
          let mag := (nw * ev)%Qc in
          match match_term f sc with
          | FErr e => FErr e
          | FOk m =>
              match dget m (f_terms f) with
              | None => FErr FKeyError
              | Some t =>
                  match (if isref then FOk nw else if is_null t then FOk mag else match multiplier (f_flow f) t with FErr e => FErr e | FOk k => FOk (mag * k)%Qc end) with
                  | FErr e => FErr e
                  | FOk w =>
                      match conservation h f ev q with
                      | FErr e => FErr e
                      | FOk (cv, kept) =>
                          let x := FF (Real i) (f_flow f) (f_dir f) mag w t kept [] in
                          if is_null t || f_bg f || eqb mag (Q2Qc 0) then FOk ([x], cv) else
                          match t_node t with
                          | NNull => FOk ([x], cv)
                          | NProc _ => match trav_fg rec h sc obs i f x seen with FErr e => FErr e | FOk l => FOk (l, cv) end
                          | NFrag j => if Nat.eqb j i then match trav_fg rec h sc obs i f x seen with FErr e => FErr e | FOk l => FOk (l, cv) end
                                       else match trav_sub rec fuel h i f x j seen with FErr e => FErr e | FOk l => FOk (l, cv) end
                          end
                      end
                  end
              end
          end
      end
  end.
Fixpoint trav (fuel : nat) (h : heap) (sc : scen) (obs : bool) : rect :=
  match fuel with
  | O => fun _ _ _ _ _ => FErr FRecursion
  | S n => trav_node (trav n h sc obs) n h sc obs
  end.
(** [traverse], 1080-1084: a tuple of scenarios is taken as a set *)
Definition as_set (sc : scen) : scen := match sc with ScKey (KT l) => ScSet (map KS l) | _ => sc end.
Definition traverse (fuel : nat) (h : heap) (sc : scen) (obs : bool) (i : nat) : fret (list ffl) :=
  match trav fuel h (as_set sc) obs i (Q2Qc 1) [] None None with FErr e => FErr e | FOk (l, _) => FOk l end.
(** [unit_inventory] as called by a user *)
Definition unit_inv (fuel : nat) (h : heap) (sc : scen) (obs : bool) (i : nat) : fret (list ffl * list ffl) :=
  unit_inventory (trav fuel h (as_set sc) obs) fuel h i.

(** * Terminating *)
Definition key_scen (k : option skey) : scen := match k with None => ScNone | Some k => ScKey k end.
(** [terminate], 792-832; [fl], [d], [desc]: keyword arguments *)
Definition terminate (fuel : nat) (h : heap) (i : nat) (node : tnode) (k : option skey) (fl : option nat) (d : option dirn) (desc : bool) : heap * fret unit :=
  match h i with
  | None => (h, FErr FAttributeError)
  | Some f =>
      let put t := hset h i (with_terms f (dset k t (f_terms f))) in
      let new := Tm node (match fl with Some x => x | None => f_flow f end) (match d with Some x => x | None => comp (f_dir f) end) desc in
      match k with
      | Some (KT _) => (h, FErr ScenarioConflict)
      | _ =>
        if match dget k (f_terms f) with Some t => negb (is_null t) | None => false end then (h, FErr CacheAlreadySet) else
        match node with
        | NNull => (h, FErr FAttributeError)
        | NProc _ => (put new, FOk tt)
        | NFrag j =>
            if Nat.eqb j i then (put new, FOk tt) else
            match top fuel h i with
            | FErr e => (h, FErr e)
            | FOk tp =>
                if Nat.eqb j tp then (put (null_term (f_flow f) (f_dir f)), FOk tt) else
                match traverse fuel h (key_scen k) false j with
                | FErr e => (h, FErr e)
                | FOk ffs => if existsb (fun x => match ff_ref x with Real r => Nat.eqb r tp | Ghost _ => false end) ffs then (h, FErr InvalidParentChild)
                             else (put new, FOk tt)
                end
            end
        end
      end
  end.
(** [clear_termination], 834-835 *)
Definition clear_termination (h : heap) (i : nat) (k : option skey) : heap * fret unit :=
  match h i with None => (h, FErr FAttributeError) | Some f => (hset h i (with_terms f (dset k (null_term (f_flow f) (f_dir f)) (f_terms f))), FOk tt) end.
End Env.

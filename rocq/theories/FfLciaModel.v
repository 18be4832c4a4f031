(** Model of frag_flow_lcia (/repo/lcatools/fragment_flows.py:298-333), FlowTermination.compute_unit_score and score_cache
    (/repo/lcatools/terminations.py:405-463) and LcFragment.fragment_lcia (/repo/lcatools/entities/fragments.py:988-998).

    Traversals are those of FragModel.v, results those of LciaModel.v, for one quantity.
    Simplifications: the unit score of a termination that is not a subfragment is given ([unit_of]): it depends on the fragment, the
    node, the flow and the direction only, and not on what was computed before ([ignore_uncached] is True: a score that cannot be
    computed is a null result).  A termination is known by its fragment, node, flow and direction, so two scenarios with the same
    termination share a cache.  [quantity_ref.ensure_lcia()] is not modelled.  Background fragments that end in another fragment
    are not supported by the code ([bg_lcia] of a local fragment raises); here their unit score is given like any other. *)
From Verif Require Import Num Base PyStr LciaModel ProcModel FragModel.
Open Scope Qc_scope.
Open Scope string_scope.
Open Scope list_scope.

(** what the caches hold for terminations to subfragments: a null result, stored while the termination was descended into
    (terminations.py:416-418, 462); [l_next]: identities of new results *)
Record lstate := LSt { l_nulls : list (nat * (tnode * nat * dirn)); l_next : nat }.
Inductive lout := ROk (r : lres) | RFrag (e : fexn) | RLcia (e : lexn).

Definition tnode_eqb (a b : tnode) : bool := match a, b with NNull, NNull => true | NProc p, NProc q => Nat.eqb p q | NFrag i, NFrag j => Nat.eqb i j | _, _ => false end.
Lemma tnode_eqb_spec a b : reflect (a = b) (tnode_eqb a b).
Proof. destruct a as [|p|p], b as [|q|q]; cbn; try (constructor; congruence); destruct (Nat.eqb_spec p q); constructor; congruence. Qed.
#[export] Instance EqB_tnode : EqB tnode := {| eqb_spec := tnode_eqb_spec |}.
Definition term_id (t : term) : tnode * nat * dirn := (t_node t, t_flow t, t_dir t).

Section Score.
(** [h]: the model; [name i]: uuid of fragment [i]; [ent x]: the fragment flow [x] as a key (FragmentFlow.__eq__, fragment_flows.py:208-216: fragment,
    termination and magnitude); [unit_of]: unit scores of ordinary terminations *)
Context (cf : nat -> nat -> Qc) (refq : nat -> nat) (h : heap) (name : nat -> string) (ent : ffl -> entity) (unit_of : fref -> tnode * nat * dirn -> lres) (quantity : string).

(** [term.is_subfrag], terminations.py:271-281: the fragment and the node.  Entries taken over from a background fragment (fragments.py:1209-1214) keep
    that fragment's termination, which is no subfragment: the termination must be one of the fragment's own. *)
Definition owns (i : nat) (t : term) : bool := match h i with Some f => existsb (fun kt => eqb (term_id (snd kt)) (term_id t)) (f_terms f) | None => false end.
Definition subfrag_of (x : ffl) : option (nat * nat) :=
  match ff_ref x, t_node (ff_term x) with
  | Real i, NFrag j => if is_subfrag h i (ff_term x) && owns i (ff_term x) then Some (i, j) else None
  | _, _ => None
  end.
(** [ff.fragment.uuid]; ghosts always have null terminations *)
Definition ff_name (x : ffl) : string := match ff_ref x with Real i => name i | Ghost _ => "" end.
(** [LciaResult(quantity)] *)
Definition null_result : lres := new_lres 0 quantity None false 1.
Definition cache_null (i : nat) (t : term) (st : lstate) : lstate := LSt ((i, term_id t) :: l_nulls st) (l_next st).

(** the unit score of one fragment flow: [score_cache] 449-463 with [compute_unit_score] 405-447, and the handler of SubFragmentAggregation,
    fragment_flows.py:317-324.  The recursive call loses the scenario.  An aggregated node that was not traversed (zero magnitude) has no
    [_subfrags_params]: TypeError (fragment_flows.py:147-151). *)
Definition unit_score (rec : scen -> list ffl -> lstate -> lstate * lout) (trv : scen -> nat -> fret (list ffl)) (refresh : bool) (sc : scen) (x : ffl) (st : lstate) : lstate * lout :=
  match subfrag_of x with
  | None => (st, ROk (unit_of (ff_ref x) (term_id (ff_term x))))
  | Some (i, j) =>
      if negb refresh && mem (i, term_id (ff_term x)) (l_nulls st) then (st, ROk null_result) else
      if t_desc (ff_term x) then (cache_null i (ff_term x) st, ROk null_result) else
      if eqb (ff_mag x) 0 then (st, RLcia LTypeError) else
      match ff_subs x with
      | [] => match trv sc j with FErr e => (st, RFrag e) | FOk l => rec sc l st end
      | s => rec ScNone s st
      end
  end.
(** the loop over fragment flows, 309-333 *)
Fixpoint lcia_loop (score : ffl -> lstate -> lstate * lout) (l : list ffl) (st : lstate) (res : lres) : lstate * lout :=
  match l with
  | [] => (st, ROk res)
  | x :: r =>
      if FragModel.is_null (ff_term x) then lcia_loop score r st res else
      if eqb (ff_nw x) 0 then lcia_loop score r st res else
      match score x st with
      | (st, ROk v) =>
          if LciaModel.is_null v then lcia_loop score r st res else
          let w := if eqb (t_dir (ff_term x)) (ff_dir x) then ff_nw x * - (1) else ff_nw x in
          match add_summary res (ff_name x) (ent x) w (Inner v) with
          | (res, LOk _) => lcia_loop score r st res
          | (_, LErr e) => (st, RLcia e)
          end
      | (st, e) => (st, e)
      end
  end.
(** [frag_flow_lcia], 298-333 *)
Fixpoint ff_lcia (fuel : nat) (refresh : bool) (sc : scen) (l : list ffl) (st : lstate) : lstate * lout :=
  match fuel with
  | O => (st, RFrag FRecursion)
  | S n => lcia_loop (unit_score (ff_lcia n refresh) (fun sc j => traverse cf refq n h sc true j) refresh sc) l (LSt (l_nulls st) (S (l_next st)))
             (new_lres (l_next st) quantity None false 1)
  end.
(** [fragment_lcia], fragments.py:988-998: observed values *)
Definition fragment_lcia (fuel : nat) (refresh : bool) (sc : scen) (i : nat) (st : lstate) : lstate * lout :=
  match traverse cf refq fuel h sc true i with FErr e => (st, RFrag e) | FOk l => ff_lcia fuel refresh sc l st end.
End Score.

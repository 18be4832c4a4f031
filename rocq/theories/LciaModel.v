(** Model of /repo/lcatools/lcia_results.py.  Numbers are exact rationals (Num.v). *)
From Coq Require Import QArith.Qcabs.
From Verif Require Import Num Base PyStr.
Open Scope string_scope.
Open Scope list_scope.
Open Scope Qc_scope.

Inductive lexn := InconsistentQuantity | InconsistentScenario | DuplicateResult | InconsistentScores | InconsistentSummaries
                | LTypeError | LAttributeError | LKeyError | LValueError | LZeroDivisionError | KeyFunctionError.
Inductive lret (A : Type) := LOk (a : A) | LErr (e : lexn).
Arguments LOk {A} _. Arguments LErr {A} _.

(** What a score is attributed to: any hashable.  Equal tokens stand for [==] (and for [is]) objects. *)
Inductive entity := EStr (s : string) | EObj (n : nat) | EFlow (uuid : string).
Definition entity_eqb (a b : entity) : bool :=
  match a, b with EStr s, EStr t => String.eqb s t | EObj n, EObj m => Nat.eqb n m | EFlow s, EFlow t => String.eqb s t | _, _ => false end.
Lemma entity_eqb_spec a b : reflect (a = b) (entity_eqb a b).
Proof.
  destruct a as [s|n|s], b as [t|m|t]; cbn; try (constructor; congruence).
  - destruct (String.eqb_spec s t); constructor; congruence.
  - destruct (Nat.eqb_spec n m); constructor; congruence.
  - destruct (String.eqb_spec s t); constructor; congruence.
Qed.
#[export] Instance EqB_entity : EqB entity := {| eqb_spec := entity_eqb_spec |}.

(** The [_lc] attribute of a component: the result that contains it, or (only after LciaResult.__add__) another one,
    given by its scale at the time of reading. *)
Inductive owner := Own | Ext (scale : Qc).
Definition scale_of (own : Qc) (l : owner) : Qc := match l with Own => own | Ext s => s end.

(** What DetailedLciaResult reads of an exchange (exchanges.py) and of a Characterization (characterizations.py:30-35,
    62-63, 86-98): process, flow, direction, value; quantity, flow, natural direction, location -> value. *)
Record exchange := Exch { x_process : nat; x_flow : string; x_output : bool; x_value : option Qc }.
Record factor := Factor { fc_quantity : string; fc_dir : option bool; fc_locs : dict string (option Qc) }.
(** [Characterization.__getitem__], characterizations.py:83-94, followed by [or 0.0] *)
Definition fc_get (f : factor) (loc : string) : Qc :=
  match dget loc (fc_locs f) with
  | Some v => match v with Some q => q | None => 0 end
  | None => match dget "GLO" (fc_locs f) with Some (Some q) => q | _ => 0 end
  end.

(** DetailedLciaResult, lcia_results.py:57-65: the location falls back to GLO when the factor lacks it. *)
Record detail := Det { d_lc : owner; d_exch : exchange; d_factor : factor; d_loc : string }.
Definition new_detail (l : owner) (x : exchange) (f : factor) (loc : string) : detail :=
  Det l x f (if din loc (fc_locs f) then loc else "GLO").
(** [_dirn_adjust], 71-89 (the memo cannot change: direction and natural direction are set once) *)
Definition dirn_adjust (d : detail) : Qc :=
  match fc_dir (d_factor d) with None => 1 | Some nd => if Bool.eqb (x_output (d_exch d)) nd then 1 else - (1) end.
(** [value], 105-109 *)
Definition d_value (own : Qc) (d : detail) : Qc :=
  match x_value (d_exch d) with None => 0 | Some v => v * scale_of own (d_lc d) end.
(** [result], 111-115 *)
Definition d_result (own : Qc) (d : detail) : Qc :=
  match fc_locs (d_factor d) with [] => 0 | _ => d_value own d * dirn_adjust d * fc_get (d_factor d) (d_loc d) end.

(** SummaryLciaResult 144-161, AggregateLciaScore 313-316, LciaResult 422-435.  A nested LciaResult is held by value with
    its identity [r_id]; simplification: components are not added to a result after it was nested in another. *)
Inductive comp :=
| Summ (lc : owner) (ent : entity) (nw : Qc) (u : unit_score)
| Agg (lc : owner) (ent : entity) (ds : list detail)
with unit_score := Static (q : Qc) | Inner (r : lres)
with lres := LRes (r_id : nat) (r_scale : Qc) (r_private : bool) (r_quantity : string) (r_scenario : option string)
                  (r_scores : list (string * comp)) (r_failed : list comp).
Definition r_id r := let '(LRes i _ _ _ _ _ _) := r in i.
Definition r_scale r := let '(LRes _ s _ _ _ _ _) := r in s.
Definition r_private r := let '(LRes _ _ p _ _ _ _) := r in p.
Definition r_quantity r := let '(LRes _ _ _ q _ _ _) := r in q.
Definition r_scenario r := let '(LRes _ _ _ _ c _ _) := r in c.
Definition r_scores r := let '(LRes _ _ _ _ _ x _) := r in x.
Definition r_failed r := let '(LRes _ _ _ _ _ _ f) := r in f.
Definition with_scores (r : lres) x := LRes (r_id r) (r_scale r) (r_private r) (r_quantity r) (r_scenario r) x (r_failed r).
Definition with_failed (r : lres) f := LRes (r_id r) (r_scale r) (r_private r) (r_quantity r) (r_scenario r) (r_scores r) f.
(** [set_scale], 481-485 *)
Definition set_scale (r : lres) s := LRes (r_id r) s (r_private r) (r_quantity r) (r_scenario r) (r_scores r) (r_failed r).
Definition new_lres id q scn priv sc := LRes id sc priv q scn [] [].
Definition c_entity c := match c with Summ _ e _ _ => e | Agg _ e _ => e end.

(** [cumulative_result], 189-191 (with [node_weight] 178-180 and [unit_score] 182-187) and 321-325; [own] is the scale of
    the containing result.  The inner loop is [LciaResult.total], 606-607, of the nested result. *)
Fixpoint cum (own : Qc) (c : comp) : Qc :=
  match c with
  | Summ l _ nw (Static q) => nw * scale_of own l * q
  | Summ l _ nw (Inner (LRes _ sc _ _ _ xs _)) =>
      nw * scale_of own l * (fix tot (xs : list (string * comp)) : Qc :=
                               match xs with [] => 0 | (_, x) :: r => cum sc x + tot r end) xs
  | Agg _ _ ds => Qcsum (map (d_result own) ds)
  end.
(** [total], 606-607 *)
Definition total (r : lres) : Qc := Qcsum (map (fun kc => cum (r_scale r) (snd kc)) (r_scores r)).
Definition unit_value (u : unit_score) : Qc := match u with Static q => q | Inner r => total r end.
(** [range], 609-610 *)
Definition range (r : lres) : Qc := Qcsum (map (fun kc => Qcabs (cum (r_scale r) (snd kc))) (r_scores r)).
(** [is_null], 67-69, 170-176, 327-332, 437-442 *)
Fixpoint c_null (own : Qc) (c : comp) : bool :=
  match c with
  | Summ _ _ _ (Static q) => eqb q 0
  | Summ _ _ _ (Inner (LRes _ sc _ _ _ xs _)) =>
      (fix nul (xs : list (string * comp)) : bool := match xs with [] => true | (_, x) :: r => c_null sc x && nul r end) xs
  | Agg _ _ ds => forallb (fun d => eqb (d_result own d) 0) ds
  end.
Definition is_null (r : lres) : bool := forallb (fun kc => c_null (r_scale r) (snd kc)) (r_scores r).

(** [components()] of a summary as the set of entities, 193-198, 654-657 *)
Definition inner_entities (r : lres) : list entity := if r_private r then [] else map (fun kc => c_entity (snd kc)) (r_scores r).
Definition subset {A} `{EqB A} (l m : list A) : bool := forallb (fun x => mem x m) l.
Definition same_set {A} `{EqB A} (l m : list A) : bool := subset l m && subset m l.

(** [SummaryLciaResult.__add__], 241-304, for two summaries read in a result of scale [own].  [sum_nw] is
    [_node_weight + other.node_weight / self._lc.scale]. *)
Definition summ_add (own : Qc) (l1 : owner) (e1 : entity) (nw1 : Qc) (u1 : unit_score)
                    (l2 : owner) (e2 : entity) (nw2 : Qc) (u2 : unit_score) : lret comp :=
  match l1, l2 with
  | Own, Own =>
      let sum_nw (u : unit_score) : lret comp :=
        if eqb own 0 then LErr LZeroDivisionError else LOk (Summ Own e1 (nw1 + (nw2 * own) / own) u) in
      match u1, u2 with
      | Static q1, Static q2 =>
          if eqb (nw1 * own) (nw2 * own) then LOk (Summ Own e1 nw1 (Static (q1 + q2)))
          else if eqb q1 q2 then sum_nw (Static q1) else LErr InconsistentScores
      | Static q1, Inner r2 => if eqb q1 (total r2) then sum_nw (Inner r2) else LErr InconsistentScores
      | Inner r1, _ =>
          if eqb (total r1) (unit_value u2) then
            match u2 with
            | Static _ => sum_nw (Inner r1)
            | Inner r2 =>
                if Nat.eqb (r_id r1) (r_id r2) then (if eqb e1 e2 then sum_nw (Inner r1) else LErr InconsistentSummaries)
                else if same_set (inner_entities r1) (inner_entities r2) then sum_nw (Inner r1) else LErr InconsistentSummaries
            end
          else LErr InconsistentSummaries
      end
  | _, _ => LErr InconsistentSummaries
  end.

(** [add_component], 612-616 *)
Definition add_component (r : lres) (k : string) (e : entity) : lres :=
  if din k (r_scores r) then r else with_scores r (dset k (Agg Own e []) (r_scores r)).
(** [add_score], 618-625; [add_detailed_result], 341-353 (a SummaryLciaResult has no such method) *)
Definition add_score (r : lres) (k : string) (x : exchange) (f : factor) (loc : string) : lres * lret unit :=
  if negb (String.eqb (fc_quantity f) (r_quantity r)) then (r, LErr InconsistentQuantity) else
  let r1 := if din k (r_scores r) then r else add_component r k (EStr k) in
  match dget k (r_scores r1) with
  | Some (Agg l e ds) => (with_scores r1 (dset k (Agg l e (ds ++ [new_detail l x f loc])) (r_scores r1)), LOk tt)
  | _ => (r1, LErr LAttributeError)
  end.
(** [add_summary], 627-647.  [Aggregate += Summary] has no implementation: TypeError. *)
Definition add_summary (r : lres) (k : string) (e : entity) (nw : Qc) (u : unit_score) : lres * lret unit :=
  match dget k (r_scores r) with
  | None => (with_scores r (dset k (Summ Own e nw u) (r_scores r)), LOk tt)
  | Some (Agg _ _ _) => (r, LErr LTypeError)
  | Some (Summ l1 e1 nw1 u1) =>
      match summ_add (r_scale r) l1 e1 nw1 u1 Own e nw u with
      | LOk c => (with_scores r (dset k c (r_scores r)), LOk tt)
      | LErr InconsistentSummaries => (with_failed r (r_failed r ++ [Summ Own e nw u]), LOk tt)
      | LErr x => (r, LErr x)
      end
  end.

(** [aggregate], 516-543.  [key] may raise ([None]); the [finally] still adds the score under 'other' but the exception
    propagates, so no result is returned. *)
Inductive agg_key := AStar (entity_id : option string) | AFun (key : entity -> option string).
Fixpoint agg_loop (key : entity -> option string) (own : Qc) (xs : list (string * comp)) (agg : lres) : lret lres :=
  match xs with
  | [] => LOk agg
  | (_, v) :: rest =>
      match key (c_entity v) with
      | None => LErr KeyFunctionError
      | Some s => match add_summary agg s (EStr s) 1 (Static (cum own v)) with
                  | (agg1, LOk _) => agg_loop key own rest agg1
                  | (_, LErr e) => LErr e
                  end
      end
  end.
Definition aggregate (id : nat) (r : lres) (k : agg_key) : lret lres :=
  let agg := new_lres id (r_quantity r) (r_scenario r) (r_private r) (r_scale r) in
  match k with
  | AStar e => let e := match e with Some e => e | None => "aggregated result" end in
               match add_summary agg e (EStr e) 1 (Static (total r)) with (a, LOk _) => LOk a | (_, LErr x) => LErr x end
  | AFun f => agg_loop f (r_scale r) (r_scores r) agg
  end.

(** [details()] of an AggregateLciaScore, 358-365 *)
Definition nz_details (own : Qc) (ds : list detail) : list detail := filter (fun d => negb (eqb (d_result own d) 0)) ds.
(** the two [for d in c.details()] loops of [flatten], 562-567 and 578-583: [key] is the component key used for the score
    (None: the flow uuid) *)
Fixpoint flat_details (own a : Qc) (key : option string) (ds : list detail) (flat : lres) : lret lres :=
  match ds with
  | [] => LOk flat
  | d :: rest =>
      let fl := x_flow (d_exch d) in
      let flat1 := add_component flat fl (EFlow fl) in
      let x := Exch (x_process (d_exch d)) fl (x_output (d_exch d)) (Some (d_value own d * a)) in
      match add_score flat1 (match key with Some k => k | None => fl end) x (d_factor d) (d_loc d) with
      | (flat2, LOk _) => flat_details own a key rest flat2
      | (_, LErr e) => LErr e
      end
  end.
(** second loop of [flatten], 569-583, over one flattened nested result [r] (scale 1.0).  A private [r] has the single
    key None, which __getitem__ (487-508) does not find (no key starts with 'None'): KeyError. *)
Fixpoint flat_second (a : Qc) (sc : Qc) (xs : list (string * comp)) (flat : lres) : lret lres :=
  match xs with
  | [] => LOk flat
  | (k, c) :: rest =>
      match c with
      | Summ l e nw (Static q) => match add_summary flat k e (nw * scale_of sc l * a) (Static q) with
                                  | (flat1, LOk _) => flat_second a sc rest flat1
                                  | (_, LErr x) => LErr x
                                  end
      | Summ _ _ _ (Inner _) => LErr InconsistentSummaries
      | Agg _ _ ds => match flat_details sc a (Some k) (nz_details sc ds) flat with
                      | LOk flat1 => flat_second a sc rest flat1
                      | LErr x => LErr x
                      end
      end
  end.
Fixpoint flat_recurse (a : Qc) (rs : list lres) (flat : lres) : lret lres :=
  match rs with
  | [] => LOk flat
  | r :: rest => if r_private r then LErr LKeyError else
                 match flat_second a (r_scale r) (r_scores r) flat with
                 | LOk flat1 => flat_recurse a rest flat1
                 | LErr x => LErr x
                 end
  end.
(** [math.isclose(x, y, rel_tol)] *)
Definition Qcleb (x y : Qc) : bool := Qle_bool x y.
Definition isclose (rel x y : Qc) : bool :=
  let m := if Qcleb (Qcabs x) (Qcabs y) then Qcabs y else Qcabs x in Qcleb (Qcabs (x - y)) (rel * m).
Definition tol6 : Qc := Q2Qc (1 # 1000000).

(** [SummaryLciaResult.flatten] of a non-static summary, 236-239, i.e. [LciaResult.flatten(_apply_scale=node_weight)],
    548-596, of its nested result.  The new object's identity is [new]. *)
Fixpoint cflat (new : nat) (own : Qc) (c : comp) {struct c} : lret lres :=
  match c with
  | Summ l _ nw (Inner (LRes _ sc p q scn xs _)) =>
      let a := nw * scale_of own l in
      let fix first (xs : list (string * comp)) (flat : lres) (rec : list lres) : lret (lres * list lres) :=
        match xs with
        | [] => LOk (flat, rec)
        | (k, c) :: rest =>
            match c with
            | Summ l e nw (Static q) => match add_summary flat k e (nw * scale_of sc l * a) (Static q) with
                                        | (flat1, LOk _) => first rest flat1 rec
                                        | (_, LErr x) => LErr x
                                        end
            | Summ _ _ _ (Inner _) => match cflat new sc c with LOk r => first rest flat (rec ++ [r]) | LErr x => LErr x end
            | Agg _ _ ds => match flat_details sc a None (nz_details sc ds) flat with
                            | LOk flat1 => first rest flat1 rec
                            | LErr x => LErr x
                            end
            end
        end in
      match first xs (new_lres new q scn p 1) [] with
      | LErr x => LErr x
      | LOk (flat, rec) =>
          match flat_recurse a rec flat with
          | LErr x => LErr x
          | LOk flat2 =>
              let scaled_total := (fix tot (xs : list (string * comp)) : Qc :=
                               match xs with [] => 0 | (_, x) :: r => cum sc x + tot r end) xs * a in
              if isclose tol6 scaled_total (total flat2) then LOk flat2 else LErr LValueError
          end
      end
  | _ => LErr LAttributeError
  end.
(** [LciaResult.flatten(_apply_scale)] *)
Definition flatten (new : nat) (r : lres) (a : Qc) : lret lres := cflat new 1 (Summ Own (EObj 0) a (Inner r)).

(** [LciaResult.__add__], 704-721.  Returns the new result and the first operand as it is afterwards (its components
    have been reparented to the new result, whose scale is 1.0; the details inside an AggregateLciaScore keep pointing to
    the old result).  [a] and [b] are different objects. *)
Definition reparent (own : Qc) (c : comp) : comp :=
  match c with
  | Summ _ e nw u => Summ Own e nw u
  | Agg _ e ds => Agg Own e (map (fun d => Det (Ext (scale_of own (d_lc d))) (d_exch d) (d_factor d) (d_loc d)) ds)
  end.
Definition foreign (own : Qc) (c : comp) : comp :=
  match c with
  | Summ l e nw u => Summ (Ext (scale_of own l)) e nw u
  | Agg l e ds => Agg (Ext (scale_of own l)) e (map (fun d => Det (Ext (scale_of own (d_lc d))) (d_exch d) (d_factor d) (d_loc d)) ds)
  end.
Definition afterwards (own : Qc) (c : comp) : comp :=
  match c with
  | Summ _ e nw u => Summ (Ext 1) e nw u
  | Agg _ e ds => Agg (Ext 1) e ds
  end.
(** loop over the second operand, 712-720.  Adding two scores with equal entities: TypeError unless both are summaries;
    a summary taken from [self] now belongs to the new result and [v] to [other], so [+=] raises InconsistentSummaries;
    if the entry already present also came from [other] (under a '_'-prefixed key) both belong to [other]. *)
Fixpoint radd_loop (own : Qc) (xs : list (string * comp)) (s : list (string * comp)) : lret (list (string * comp)) :=
  match xs with
  | [] => LOk s
  | (k, v) :: rest =>
      match dget k s with
      | Some w => if eqb (c_entity v) (c_entity w)
                  then match w, v with
                       | Summ (Ext _) e1 nw1 u1, Summ l2 e2 nw2 u2 =>
                           match summ_add own Own e1 nw1 u1 l2 e2 nw2 u2 with
                           | LOk c => radd_loop own rest (dset k (foreign own c) s)
                           | LErr x => LErr x
                           end
                       | Summ Own _ _ _, Summ _ _ _ _ => LErr InconsistentSummaries
                       | _, _ => LErr LTypeError
                       end
                  else radd_loop own rest (dset ("_" ++ k)%string (foreign own v) s)
      | None => radd_loop own rest (dset k (foreign own v) s)
      end
  end.
Definition lres_add (new : nat) (a b : lres) : lret (lres * lres) :=
  if negb (String.eqb (r_quantity a) (r_quantity b)) then LErr InconsistentQuantity
  else if negb (eqb (r_scenario a) (r_scenario b)) then LErr InconsistentScenario
  else
    let s0 := map (fun kc => (fst kc, reparent (r_scale a) (snd kc))) (r_scores a) in
    match radd_loop (r_scale b) (r_scores b) s0 with
    | LErr x => LErr x
    | LOk xs => LOk (LRes new 1 false (r_quantity a) (r_scenario a) xs [],
                     with_scores a (map (fun kc => (fst kc, afterwards (r_scale a) (snd kc))) (r_scores a)))
    end.

(** [contrib_new], 750-789.  [ar] is the value of [self.autorange] (464-469) during the call. *)
Definition contrib_one (r : lres) (ar : Qc) (query : string) : Qc :=
  if String.eqb query "*" then 0 else
  match dget query (r_scores r) with Some c => cum (r_scale r) c * ar | None => 0 end.
Fixpoint last_star (i : nat) (qs : list string) (found : option nat) : option nat :=
  match qs with [] => found | q :: r => last_star (S i) r (if String.eqb q "*" then Some i else found) end.
Definition contrib_new (r : lres) (ar : Qc) (queries : list string) : list Qc * Qc :=
  let results := map (contrib_one r ar) queries in
  let balance := total r * ar - Qcsum results in
  match last_star 0 queries None with
  | Some i => (upd i (fun _ => balance) results, 0)
  | None => (results, balance)
  end.

(** [LciaResults], 792-905: an insertion-ordered dict of results.  [__getitem__] for a string key, 807-820 (a string that
    parses as an int raises TypeError on the list access and takes the same branch). *)
Definition results := dict string lres.
Definition rs_get (rs : results) (item : string) : lres :=
  match find (fun kv => String.prefix item (fst kv)) rs with Some (_, r) => r | None => new_lres 0 "" None false 1 end.
(** [__setitem__], 822-827, with [self._scale] *)
Definition rs_set (scale : Qc) (rs : results) (k : string) (r : lres) : results := dset k (set_scale r scale) rs.
(** [scale(factor)], 841-846: [self[k].set_scale(factor)] for every key; [_indices] holds the dict's keys in order *)
Definition rs_set_scale (f : Qc) (rs : results) (k : string) : results :=
  match find (fun kv => String.prefix k (fst kv)) rs with Some (k', r) => dset k' (set_scale r f) rs | None => rs end.
Definition rs_scale (f : Qc) (rs : results) : results := fold_left (rs_set_scale f) (dkeys rs) rs.
(** An LciaResults object with its [_scale] (800-805), and its two mutating calls: item assignment (and [add], 829-832)
    and [scale], which does nothing when the factor is the current scale. *)
Definition rset := (Qc * results)%type.
Inductive rop := RSet (k : string) (r : lres) | RScale (f : Qc).
Definition rstep (s : rset) (o : rop) : rset :=
  match o with
  | RSet k r => (fst s, rs_set (fst s) (snd s) k r)
  | RScale f => if eqb f (fst s) then s else (f, rs_scale f (snd s))
  end.
Definition new_rset : rset := (1, []).

(** [apply_weighting], 857-897.  First loop: collects component entities and weighted scores; a private result has the
    single key None, not found: KeyError. *)
Fixpoint aw_comps (w own : Qc) (xs : list (string * comp)) (comps : dict string entity) (sc : dict string Qc)
  : lret (dict string entity * dict string Qc) :=
  match xs with
  | [] => LOk (comps, sc)
  | (k, c) :: rest =>
      let sc' := dset k (match dget k sc with Some s => s | None => 0 end + w * cum own c) sc in
      match dget k comps with
      | Some e => if eqb e (c_entity c) then aw_comps w own rest comps sc' else LErr DuplicateResult
      | None => aw_comps w own rest (dset k (c_entity c) comps) sc'
      end
  end.
Fixpoint aw_methods (rs : results) (ws : list (string * Qc)) (comps : dict string entity) (sc : dict string Qc)
  : lret (dict string entity * dict string Qc) :=
  match ws with
  | [] => LOk (comps, sc)
  | (m, w) :: rest =>
      let r := rs_get rs m in
      if r_private r then LErr LKeyError else
      match aw_comps w (r_scale r) (r_scores r) comps sc with
      | LOk (comps', sc') => aw_methods rs rest comps' sc'
      | LErr x => LErr x
      end
  end.
Fixpoint aw_build (comps : dict string entity) (sc : dict string Qc) (out : lres) : lret lres :=
  match comps with
  | [] => LOk out
  | (k, e) :: rest =>
      match add_summary (add_component out k e) k e (match dget k sc with Some s => s | None => 0 end) (Static 1) with
      | (out1, LOk _) => aw_build rest sc out1
      | (_, LErr x) => LErr x
      end
  end.
Definition apply_weighting (new : nat) (rs : results) (ws : list (string * Qc)) (quantity : string) : lret lres :=
  match aw_methods rs ws [] [] with
  | LErr x => LErr x
  | LOk (comps, sc) => aw_build comps sc (new_lres new quantity None false 1)
  end.

(** [traversal_to_lcia], 925-951.  A fragment flow: its fragment's uuid, itself as entity, node weight, whether the
    termination is null, whether its direction equals the fragment's, and the score cache (quantity uuid -> result). *)
Record fflow := FF { ff_frag : string; ff_ent : entity; ff_nw : Qc; ff_null : bool; ff_samedir : bool; ff_scores : list (string * lres) }.
Definition ff_weight (f : fflow) : Qc := if ff_samedir f then ff_nw f * - (1) else ff_nw f.
Fixpoint tl_scores (f : fflow) (sc : list (string * lres)) (rs : results) : lret results :=
  match sc with
  | [] => LOk rs
  | (q, v) :: rest =>
      let rs1 := if din q rs then rs else rs_set 1 rs q (new_lres 0 (r_quantity v) (r_scenario v) false 1) in
      if eqb (total v * ff_nw f) 0 then tl_scores f rest rs1 else
      match find (fun kv => String.prefix q (fst kv)) rs1 with
      | None => LErr LKeyError
      | Some (k', r) => match add_summary r (ff_frag f) (ff_ent f) (ff_weight f) (Inner v) with
                        | (r', LOk _) => tl_scores f rest (dset k' r' rs1)
                        | (_, LErr x) => LErr x
                        end
      end
  end.
Fixpoint tl_loop (ffs : list fflow) (rs : results) : lret results :=
  match ffs with
  | [] => LOk rs
  | f :: rest => if ff_null f then tl_loop rest rs else
                 match tl_scores f (ff_scores f) rs with LOk rs' => tl_loop rest rs' | LErr x => LErr x end
  end.
Definition traversal_to_lcia (ffs : list fflow) : lret results := tl_loop ffs [].

(** Mutating calls on one LciaResult. *)
Inductive lop :=
| LAddComponent (k : string) (e : entity)
| LAddScore (k : string) (x : exchange) (f : factor) (loc : string)
| LAddSummary (k : string) (e : entity) (nw : Qc) (u : unit_score)
| LSetScale (s : Qc).
Definition lstep (r : lres) (o : lop) : lres * lret unit :=
  match o with
  | LAddComponent k e => (add_component r k e, LOk tt)
  | LAddScore k x f loc => add_score r k x f loc
  | LAddSummary k e nw u => add_summary r k e nw u
  | LSetScale s => (set_scale r s, LOk tt)
  end.

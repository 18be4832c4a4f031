(** Model of the background engine: /repo/antelope_background/engine/background_engine.py, tarjan_stack.py, product_flow.py
    and emission.py.

    Simplifications: flows and processes are numbers standing for their external_ref; a product flow is identified by its
    key (flow, process), so object identity is key equality; Python sets are duplicate-free lists, and where a set's
    iteration order reaches an ordering of results an order argument is quantified over; numbers are exact rationals;
    printing and the interpreter's recursion limit are not modelled (the recursion takes a fuel argument; [TFuel] is the
    outcome when it is used up).  The index interface is a fixed database for the whole history:
    [db_inv (f, p)] lists the exchanges of process [p] other than its reference exchange for [f], each with the exchange
    relation [exch[rx]] to that reference. *)
From Verif Require Import Num Base ProcModel.
Open Scope nat_scope.
Open Scope list_scope.

Notation node := (nat * nat)%type.
Notation emis := (nat * dirn)%type.
Record rex := RX { r_flow : nat; r_dir : dirn; r_term : option nat; r_val : option Qc; r_isref : bool }.
Record db := DB { db_inv : node -> list rex; db_terms : nat -> dirn -> list nat; db_ref : node -> option dirn }.
Inductive strategy := Abort | First | Last | Cutoff | Mix | UnknownStrategy.
Inductive bexn := TerminationError | BNotImplemented | BKeyError | BIndexError | BAttributeError | BZeroDivision.
Inductive bret (A : Type) := BOk (a : A) | BErr (e : bexn).
Arguments BOk {A} _. Arguments BErr {A} _.

(** [terminate], background_engine.py:270-304 *)
Definition terminate (D : db) (ems : list emis) (x : rex) (strat : strategy) : bret (option nat) :=
  match r_term x with
  | Some p => BOk (Some p)
  | None =>
      if mem (r_flow x, r_dir x) ems then BOk None else
      match db_terms D (r_flow x) (r_dir x) with
      | [] => BOk None
      | [t] => BOk (Some t)
      | t :: ts =>
          match strat with
          | Abort => BErr TerminationError
          | First => BOk (Some t)
          | Last => BOk (Some (last ts t))
          | Cutoff => BOk None
          | Mix => BErr BNotImplemented
          | UnknownStrategy => BErr BKeyError
          end
      end
  end.

(** Engine state: [_pf_index] (product flow [index] = position), [_lowlinks], [_stack] (top first), [_sccs], [_scc_of],
    [_ef_index], the [_inbound_ev] of each product flow, [_interior_incoming] and [_cutoff_incoming] (in order of append) *)
Record est := E {
  e_pf : list node; e_low : dict node nat; e_stk : list node; e_sccs : dict nat (list node); e_scc_of : dict node nat;
  e_ems : list emis; e_ev : dict node Qc; e_int : list (node * node * Qc); e_cut : list (node * emis * Qc) }.
Definition est0 : est := E [] [] [] [] [] [] [] [] [].

(** position in a list; the length when absent *)
Fixpoint pos {A} `{EqB A} (x : A) (l : list A) : nat := match l with [] => 0 | y :: r => if eqb x y then 0 else S (pos x r) end.
(** [index], 177-178; [_lowlink], 183-184 *)
Definition idx (s : est) (v : node) : nat := pos v (e_pf s).
Definition lowl (s : est) (v : node) : nat := match dget v (e_low s) with Some l => l | None => 0 end.
(** [_set_lowlink], 215-225 *)
Definition set_low (s : est) (v : node) (l : nat) : est :=
  E (e_pf s) (dset v (match dget v (e_low s) with Some m => Nat.min m l | None => l end) (e_low s)) (e_stk s) (e_sccs s) (e_scc_of s)
    (e_ems s) (e_ev s) (e_int s) (e_cut s).
(** [_create_product_flow], 242-257, [_add_product_flow], 186-190, and ProductFlow.__init__, product_flow.py:10-59 *)
Definition create (s : est) (v : node) (d : dirn) : est :=
  let s1 := set_low s v (length (e_pf s)) in
  E (e_pf s ++ [v]) (e_low s1) (v :: e_stk s) (e_sccs s) (e_scc_of s) (e_ems s)
    (dset v (match d with Input => Q2Qc (-1) | Output => Q2Qc 1 end) (e_ev s)) (e_int s) (e_cut s).
(** [_add_emission], 259-268, and [add_cutoff], 702-709 *)
Definition add_cutoff (s : est) (u : node) (e : emis) (v : Qc) : est :=
  E (e_pf s) (e_low s) (e_stk s) (e_sccs s) (e_scc_of s) (set_add e (e_ems s)) (e_ev s) (e_int s) (e_cut s ++ [(u, e, v)]).
(** ProductFlow.[adjust_ev], product_flow.py:79-93 *)
Definition adjust_ev (ev v : Qc) : Qc :=
  if eqb v ev then ev else if Qclt_le_dec ev (Q2Qc 0) then (ev + v)%Qc else (ev - v)%Qc.
(** [add_interior], 711-725 *)
Definition add_interior (s : est) (u w : node) (v : Qc) : est :=
  if eqb u w then
    E (e_pf s) (e_low s) (e_stk s) (e_sccs s) (e_scc_of s) (e_ems s)
      (dset u (adjust_ev (match dget u (e_ev s) with Some x => x | None => Q2Qc 0 end) v) (e_ev s)) (e_int s) (e_cut s)
  else E (e_pf s) (e_low s) (e_stk s) (e_sccs s) (e_scc_of s) (e_ems s) (e_ev s) (e_int s ++ [(u, w, v)]) (e_cut s).
(** TarjanStack.[label_scc], tarjan_stack.py:47-60: pops down to [v]; running out is an IndexError *)
Fixpoint label_scc (i : nat) (v : node) (stk : list node) (sccs : dict nat (list node)) (scc_of : dict node nat)
  : option (list node * dict nat (list node) * dict node nat) :=
  match stk with
  | [] => None
  | u :: rest =>
      let sccs := dset i (set_add u (match dget i sccs with Some l => l | None => [] end)) sccs in
      let scc_of := dset u i scc_of in
      if eqb u v then Some (rest, sccs, scc_of) else label_scc i v rest sccs scc_of
  end.

(** [_rm_product_flow_children], 192-213 *)
Fixpoint drop_until (v : node) (l : list node) : option (list node * list node) :=  (** on the reversed index: popped, rest *)
  match l with
  | [] => None
  | z :: r => if eqb z v then Some ([z], r) else match drop_until v r with Some (p, q) => Some (z :: p, q) | None => None end
  end.
Fixpoint drop_parent {B} (v : node) (l : list (node * B * Qc)) : option (list (node * B * Qc)) :=  (** on the reversed list *)
  match l with
  | [] => None
  | (u, _, _) :: r => if eqb u v then drop_parent v r else Some l
  end.
Fixpoint rm_children (bad : node) (stk : list node) (s : est) : est * option bexn :=
  match stk with
  | [] => (s, Some BIndexError)
  | pf :: rest =>
      let s := E (e_pf s) (e_low s) rest (e_sccs s) (e_scc_of s) (e_ems s) (e_ev s) (e_int s) (e_cut s) in
      match drop_until pf (rev (e_pf s)) with
      | None => (E [] [] rest (e_sccs s) (e_scc_of s) (e_ems s) (e_ev s) (e_int s) (e_cut s), Some BIndexError)
      | Some (popped, kept) =>
          let s := E (rev kept) (filter (fun kv => negb (mem (fst kv) popped)) (e_low s)) rest (e_sccs s) (e_scc_of s) (e_ems s) (e_ev s) (e_int s) (e_cut s) in
          match drop_parent pf (rev (e_int s)) with
          | None => (E (e_pf s) (e_low s) rest (e_sccs s) (e_scc_of s) (e_ems s) (e_ev s) [] (e_cut s), Some BIndexError)
          | Some ri =>
              let s := E (e_pf s) (e_low s) rest (e_sccs s) (e_scc_of s) (e_ems s) (e_ev s) (rev ri) (e_cut s) in
              match drop_parent pf (rev (e_cut s)) with
              | None => (E (e_pf s) (e_low s) rest (e_sccs s) (e_scc_of s) (e_ems s) (e_ev s) (e_int s) [], Some BIndexError)
              | Some rc =>
                  let s := E (e_pf s) (e_low s) rest (e_sccs s) (e_scc_of s) (e_ems s) (e_ev s) (e_int s) (rev rc) in
                  if eqb pf bad then (s, None) else rm_children bad rest s
              end
          end
      end
  end.

Inductive tres := TDone (s : est) | TFail (s : est) (e : bexn) | TFuel.
(** the handler: [except TerminationError: self._rm_product_flow_children(i); raise] *)
Definition handler (i : node) (r : tres) : tres :=
  match r with
  | TFail s TerminationError => match rm_children i (e_stk s) s with (s', None) => TFail s' TerminationError | (s', Some e) => TFail s' e end
  | _ => r
  end.
(** [pval]: outputs are negated, 643-644 *)
Definition pval (x : rex) (v : Qc) : Qc := match r_dir x with Output => (- v)%Qc | Input => v end.
(** one pass of the loop, 622-696; [visit] is the recursive call on a new product flow *)
Definition tstep (D : db) (strat : strategy) (visit : node -> est -> tres) (u : node) (x : rex) (s : est) : tres :=
  match r_val x with
  | None => TDone s
  | Some v =>
      if eqb v (Q2Qc 0) then TDone s else
      if r_isref x then TDone s else
      match terminate D (e_ems s) x strat with
      | BErr e => TFail s e
      | BOk None => TDone (add_cutoff s u (r_flow x, r_dir x) v)
      | BOk (Some p) =>
          let i := (r_flow x, p) in
          if mem i (e_pf s) then
            TDone (add_interior (if mem i (e_stk s) then set_low s u (idx s i) else s) u i (pval x v))
          else match db_ref D i with
               | None => TDone s
               | Some d => match handler i (visit i (create s i d)) with
                           | TDone s2 => TDone (add_interior (set_low s2 u (lowl s2 i)) u i (pval x v))
                           | r => r
                           end
               end
      end
  end.
Fixpoint tloop (D : db) (strat : strategy) (visit : node -> est -> tres) (u : node) (xs : list rex) (s : est) : tres :=
  match xs with
  | [] => TDone s
  | x :: r => match tstep D strat visit u x s with TDone s' => tloop D strat visit u r s' | e => e end
  end.
(** 698-700 *)
Definition finish (u : node) (s : est) : tres :=
  if Nat.eqb (lowl s u) (idx s u) then
    match label_scc (idx s u) u (e_stk s) (e_sccs s) (e_scc_of s) with
    | None => TFail s BIndexError
    | Some (stk, sccs, scc_of) => TDone (E (e_pf s) (e_low s) stk sccs scc_of (e_ems s) (e_ev s) (e_int s) (e_cut s))
    end
  else TDone s.
(** [_traverse_term_exchanges], 594-700 *)
Fixpoint trav (D : db) (strat : strategy) (fuel : nat) (u : node) (s : est) : tres :=
  match fuel with
  | 0 => TFuel
  | S n => match tloop D strat (trav D strat n) u (db_inv D u) s with TDone s1 => finish u s1 | r => r end
  end.
(** [_add_ref_product], 578-592: an already known product flow is skipped by both callers (544-553, 571-576) *)
Definition add_product (D : db) (strat : strategy) (fuel : nat) (s : est) (v : node) : tres :=
  if mem v (e_pf s) then TDone s else
  match db_ref D v with
  | None => TFail s BAttributeError
  | Some d => handler v (trav D strat fuel v (create s v d))
  end.
(** the loop of [add_all_ref_products], 544-553 *)
Fixpoint add_products (D : db) (strat : strategy) (fuel : nat) (s : est) (vs : list node) : tres :=
  match vs with
  | [] => TDone s
  | v :: r => match add_product D strat fuel s v with TDone s' => add_products D strat fuel s' r | e => e end
  end.

(** * Component graph (TarjanStack) *)
(** [_component_cols_by_row] / [_component_rows_by_col] as edges (col depends on row); [_background]; [_downstream] *)
Record cgraph := CG { c_edges : list (nat * nat); c_bg : option nat; c_down : list nat }.
Definition rows_of (g : cgraph) (col : nat) : list nat := map snd (filter (fun e => Nat.eqb (fst e) col) (c_edges g)).
Definition cols_of (g : cgraph) (row : nat) : list nat := map fst (filter (fun e => Nat.eqb (snd e) row) (c_edges g)).
Definition scc_id (s : est) (v : node) : option nat := dget v (e_scc_of s).
Definition scc (s : est) (i : nat) : list node := match dget i (e_sccs s) with Some l => l | None => [] end.
(** the edges added by [add_to_graph], tarjan_stack.py:138-149 (col, row) *)
Definition new_edges (s : est) : list (nat * nat) :=
  flat_map (fun e => match scc_id s (fst (fst e)), scc_id s (snd (fst e)) with Some c, Some r => [(c, r)] | _, _ => [] end) (e_int s).
(** [_set_background], 62-72: the first of the largest components, if larger than one *)
Fixpoint largest (l : dict nat (list node)) (ml : nat) (ind : option nat) : nat * option nat :=
  match l with
  | [] => (ml, ind)
  | (i, t) :: r => if Nat.ltb ml (length t) then largest r (length t) (Some i) else largest r ml ind
  end.
(** [_set_downstream], 74-88: unguarded recursion over the component graph *)
Fixpoint downstream (fuel : nat) (rows : nat -> list nat) (up : nat) (down : list nat) : option (list nat) :=
  match fuel with
  | 0 => None
  | S n => fold_left (fun acc dep => match acc with
                                     | None => None
                                     | Some d => if Nat.eqb dep up then Some d else downstream n rows dep (set_add dep d)
                                     end) (rows up) (Some down)
  end.
(** [add_to_graph] up to the background *)
Definition update_graph (fuel : nat) (s : est) (g : cgraph) : option cgraph :=
  let g1 := CG (set_union (c_edges g) (new_edges s)) (c_bg g) (c_down g) in
  let '(ml, ind) := largest (e_sccs s) 0 None in
  if Nat.ltb 1 ml then
    match ind with
    | Some b => match downstream fuel (rows_of g1) b (c_down g1) with Some d => Some (CG (c_edges g1) (Some b) d) | None => None end
    | None => Some g1
    end
  else Some g1.
(** [_generate_bg_index], 90-103 *)
Definition bg_list (s : est) (g : cgraph) : list node :=
  match c_bg g with None => [] | Some b => scc s b ++ flat_map (scc s) (c_down g) end.
(** [bg_dict], 227-236 *)
Definition bg_dict (s : est) (g : cgraph) (v : node) : option nat := if mem v (bg_list s g) then Some (pos v (bg_list s g)) else None.
Definition is_bg_scc (g : cgraph) (k : nat) : bool := eqb (Some k) (c_bg g) || mem k (c_down g).
(** [_generate_foreground_index], 105-136; [ord] is the order in which Python lists the set of new outputs *)
Fixpoint fg_loop (fuel : nat) (ord : list nat -> list nat) (g : cgraph) (nodes ordering : list nat) : option (list nat) :=
  match nodes with
  | [] => Some ordering
  | _ => match fuel with
         | 0 => None
         | S n => let ready := filter (fun k => match filter (fun j => negb (mem j ordering) && negb (Nat.eqb j k)) (cols_of g k) with [] => true | _ => false end) nodes in
                  fg_loop n ord g (filter (fun k => negb (mem k ready)) nodes) (ordering ++ ord ready)
         end
  end.
Definition fg_order (fuel : nat) (ord : list nat -> list nat) (s : est) (g : cgraph) : option (list nat) :=
  let fgk := filter (fun k => negb (is_bg_scc g k)) (dkeys (e_sccs s)) in
  fg_loop fuel ord g (filter (fun k => match cols_of g k with [] => false | _ => true end) fgk)
                     (filter (fun k => match cols_of g k with [] => true | _ => false end) fgk).
Definition fg_list (s : est) (order : list nat) : list node := flat_map (scc s) order.

(** * Matrix entries: [_update_component_graph], 514-540, [adjust_val], 54-59 *)
Definition ev_of (s : est) (u : node) : Qc := match dget u (e_ev s) with Some x => x | None => Q2Qc 0 end.
Fixpoint adjust_all {B} (s : est) (l : list (node * B * Qc)) : bret (list (node * B * Qc)) :=
  match l with
  | [] => BOk []
  | (u, w, v) :: r => if eqb (ev_of s u) (Q2Qc 0) then BErr BZeroDivision
                      else match adjust_all s r with BOk r' => BOk ((u, w, v / ev_of s u)%Qc :: r') | BErr e => BErr e end
  end.
(** the sorted entry lists: A* ([_interior]), Af+Ad ([_foreground]), B* ([_bg_emission]), Bf ([_cutoff]) *)
Definition split_bg {B} (s : est) (g : cgraph) (l : list (node * B * Qc)) : list (node * B * Qc) * list (node * B * Qc) :=
  (filter (fun e => mem (fst (fst e)) (bg_list s g)) l, filter (fun e => negb (mem (fst (fst e)) (bg_list s g))) l).

(** * The engine: [_update_component_graph], 514-540, and the public calls *)
(** [_interior], [_foreground], [_bg_emission], [_cutoff]; [_a_matrix] (dimension, entries); [_b_matrix] (rows, columns, entries);
    [g_order] is the component ordering behind [_fg_processes], tarjan_stack.py:130-134 *)
Notation trip := (nat * nat * Qc)%type.
Record eng := Eng { g_st : est; g_cg : cgraph; g_order : list nat; g_interior : list (node * node * Qc); g_foreground : list (node * node * Qc);
  g_bgem : list (node * emis * Qc); g_cutoff : list (node * emis * Qc); g_a : option (nat * list trip); g_b : option (nat * nat * list trip); g_all : bool }.
Definition eng0 : eng := Eng est0 (CG [] None []) [] [] [] [] [] None None false.
Inductive ures := UOk (g : eng) | UErr (g : eng) (e : bexn) | UFuel.

(** rows of the entry arrays: [[bg_dict(term), bg_dict(parent), value]]; a missing index is [None], which the sparse
    constructor rejects (modelled as KeyError) *)
Fixpoint mat_rows {B} (rowf colf : B -> option nat) (val : B -> Qc) (l : list B) : option (list trip) :=
  match l with
  | [] => Some []
  | x :: r => match rowf x, colf x, mat_rows rowf colf val r with Some i, Some j, Some t => Some ((i, j, val x) :: t) | _, _, _ => None end
  end.
Definition posof {A} `{EqB A} (x : A) (l : list A) : option nat := if mem x l then Some (pos x l) else None.
(** [_construct_a_matrix], 391-395; [_construct_b_matrix], 373-383 *)
Definition a_rows (s : est) (c : cgraph) (l : list (node * node * Qc)) : option (list trip) :=
  mat_rows (fun e => bg_dict s c (snd (fst e))) (fun e => bg_dict s c (fst (fst e))) snd l.
Definition b_rows (s : est) (c : cgraph) (l : list (node * emis * Qc)) : option (list trip) :=
  mat_rows (fun e => posof (snd (fst e)) (e_ems s)) (fun e => bg_dict s c (fst (fst e))) snd l.
Definition taken (s : est) : est := E (e_pf s) (e_low s) (e_stk s) (e_sccs s) (e_scc_of s) (e_ems s) (e_ev s) [] [].
(** 514-540: entries are popped from the end of the incoming lists *)
Definition eng_update (fuel : nat) (ord : list nat -> list nat) (g : eng) : ures :=
  let s := g_st g in
  match update_graph fuel s (g_cg g) with
  | None => UFuel
  | Some c =>
    match fg_order fuel ord s c with
    | None => UFuel
    | Some order =>
      match adjust_all s (rev (e_int s)), adjust_all s (rev (e_cut s)) with
      | BOk li, BOk lc =>
          let '(ib, ifg) := split_bg s c li in let '(cb, cfg) := split_bg s c lc in
          let g1 := Eng (taken s) c order (g_interior g ++ ib) (g_foreground g ++ ifg) (g_bgem g ++ cb) (g_cutoff g ++ cfg) (g_a g) (g_b g) (g_all g) in
          let n := length (bg_list s c) in let m := length (e_ems s) in
          match c_bg c with
          | None => UOk g1
          | Some _ =>
              match (match g_a g with
                     | Some a => Some (Some a, g_b g)
                     | None => match a_rows s c (g_interior g1), b_rows s c (g_bgem g1) with
                               | Some ra, Some rb => Some (Some (n, ra), Some (m, n, rb))
                               | _, _ => None
                               end
                     end) with
              | None => UErr g1 BKeyError
              | Some (a, b) =>
                  let b' := match b with Some (mr, nc, rb) => if Nat.ltb mr m then Some (m, n, rb) else b | None => b end in
                  UOk (Eng (g_st g1) c order (g_interior g1) (g_foreground g1) (g_bgem g1) (g_cutoff g1) a b' (g_all g))
              end
          end
      | BErr e, _ => UErr g e
      | _, BErr e => UErr g e
      end
    end
  end.
Definition with_st (g : eng) (s : est) : eng := Eng s (g_cg g) (g_order g) (g_interior g) (g_foreground g) (g_bgem g) (g_cutoff g) (g_a g) (g_b g) (g_all g).
(** [add_ref_product], 555-576 *)
Definition add_ref_product (D : db) (strat : strategy) (fuel : nat) (ord : list nat -> list nat) (g : eng) (v : node) : ures :=
  if mem v (e_pf (g_st g)) then UOk g else
  match add_product D strat fuel (g_st g) v with
  | TDone s => eng_update fuel ord (with_st g s)
  | TFail s e => UErr (with_st g s) e
  | TFuel => UFuel
  end.
(** [add_all_ref_products], 544-553; [vs] lists the references of all processes *)
Definition add_all_ref_products (D : db) (strat : strategy) (fuel : nat) (ord : list nat -> list nat) (g : eng) (vs : list node) : ures :=
  if g_all g then UOk g else
  match add_products D strat fuel (g_st g) vs with
  | TDone s => match eng_update fuel ord (with_st g s) with
               | UOk g' => UOk (Eng (g_st g') (g_cg g') (g_order g') (g_interior g') (g_foreground g') (g_bgem g') (g_cutoff g') (g_a g') (g_b g') true)
               | r => r
               end
  | TFail s e => UErr (with_st g s) e
  | TFuel => UFuel
  end.
Inductive bcall := AddRef (v : node) | AddAll (vs : list node).
Definition bcall_run (D : db) (strat : strategy) (fuel : nat) (ord : list nat -> list nat) (g : eng) (c : bcall) : ures :=
  match c with AddRef v => add_ref_product D strat fuel ord g v | AddAll vs => add_all_ref_products D strat fuel ord g vs end.
Fixpoint brun (D : db) (strat : strategy) (fuel : nat) (ord : list nat -> list nat) (g : eng) (cs : list bcall) : ures :=
  match cs with [] => UOk g | c :: r => match bcall_run D strat fuel ord g c with UOk g' => brun D strat fuel ord g' r | e => e end end.

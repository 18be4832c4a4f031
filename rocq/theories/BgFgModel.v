(** Model of the background manager: /repo/antelope_background/engine/background_manager.py, with the foreground of one product
    (tarjan_stack.py:163-195), its matrices (background_engine.py:445-512) and its inventory (background_engine.py:325-339), over the
    engine of BgModel.v.

    Simplifications: as in BgModel.v and FlatModel.v (numbers for external references, exact rationals, matrices as entry lists of
    which those of one cell add up).  A process and the reference flow found for it are given as a product flow ([process.reference],
    modelled in ProcModel.v, is not repeated).  [np.linalg.inv] is an argument: a solver that returns the first column of the inverse
    of I - Af or reports a singular matrix.  The row sets of the component graph are listed in the order in which the edges were added:
    the result is sorted afterwards.  [show] of [inventory] is not modelled. *)
From Verif Require Import Num Base ProcModel BgModel BgLciModel FlatModel.
Open Scope Qc_scope.
Open Scope list_scope.

(** * The foreground of one product flow *)
(** [is_background] of a component number, tarjan_stack.py:258-267: whether a background product flow has that index *)
Definition bg_number (s : est) (c : cgraph) (k : nat) : bool := existsb (fun v => Nat.eqb (idx s v) k) (bg_list s c).
(** [_foreground_components], tarjan_stack.py:163-177; [None] when [fuel] passes are not enough *)
Fixpoint fg_components (fuel : nat) (s : est) (c : cgraph) (queue fg : list nat) : option (list nat) :=
  match queue with
  | [] => Some fg
  | k :: q => match fuel with
              | O => None
              | S n => if mem k fg then fg_components n s c q fg
                       else fg_components n s c (q ++ filter (fun r => negb (bg_number s c r)) (rows_of c k)) (fg ++ [k])
              end
  end.
(** [sorted(..., key=...)]: stable *)
Fixpoint kinsert {A} (key : A -> nat) (x : A) (l : list A) : list A :=
  match l with [] => [x] | y :: r => if Nat.leb (key x) (key y) then x :: l else y :: kinsert key x r end.
Definition ksort {A} (key : A -> nat) (l : list A) : list A := fold_right (kinsert key) [] l.
(** the key (x is not pf, position in the foreground order) of 195, as a number *)
Definition fg_key (g : eng) (pf v : node) : nat := if eqb v pf then O else S (pos v (fg_list (g_st g) (g_order g))).
(** TarjanStack.[foreground], tarjan_stack.py:179-195 *)
Definition foreground_of (fuel : nat) (g : eng) (pf : node) : option (bret (list node)) :=
  match scc_id (g_st g) pf with
  | None => Some (BErr BKeyError)
  | Some i => if is_bg_scc (g_cg g) i then Some (BOk []) else
      match fg_components fuel (g_st g) (g_cg g) [i] [] with
      | None => None
      | Some ks => Some (BOk (ksort (fg_key g pf) (flat_map (scc (g_st g)) ks)))
      end
  end.
(** BackgroundEngine.[is_in_background], background_engine.py:437-443 *)
Definition in_background (g : eng) (v : node) : bool := mem v (bg_list (g_st g) (g_cg g)).
(** [make_foreground(pf)] for a foreground product flow, background_engine.py:445-512, with the entries it loses (fg_cutoff, 496 and 508-511) *)
Definition fg_matrices (g : eng) (pfs : list node) : bret (mat * mat * mat * list (node * node * Qc)) :=
  let s := g_st g in
  let bg := bg_list s (g_cg g) in let p := length pfs in
  let own := filter (fun e => mem (fst (fst e)) pfs) (g_foreground g) in
  let ad_exch := filter (fun e => mem (snd (fst e)) bg) own in
  let af_exch := filter (fun e => negb (mem (snd (fst e)) bg) && mem (snd (fst e)) pfs) own in
  let lost := filter (fun e => negb (mem (snd (fst e)) bg) && negb (mem (snd (fst e)) pfs)) own in
  let bf_exch := filter (fun e => mem (fst (fst e)) pfs) (g_cutoff g) in
  let colf := fun v => posof v pfs in
  match build p p (mat_rows (fun e => colf (snd (fst e))) (fun e => colf (fst (fst e))) snd af_exch),
        build (length bg) p (mat_rows (fun e => posof (snd (fst e)) bg) (fun e => colf (fst (fst e))) snd ad_exch),
        build (length (e_ems s)) p (mat_rows (fun e => posof (snd (fst e)) (e_ems s)) (fun e => colf (fst (fst e))) snd bf_exch) with
  | BOk af, BOk ad, BOk bf => BOk (af, ad, bf, lost)
  | BErr e, _, _ | _, BErr e, _ | _, _, BErr e => BErr e
  end.
(** [make_foreground(pf)] for a background product flow, 473-478: the columns of A* and B* (as (row, value) lists) *)
Definition bg_columns (g : eng) (pf : node) : bret (list (nat * Qc) * list (nat * Qc)) :=
  match posof pf (bg_list (g_st g) (g_cg g)), g_a g, g_b g with
  | Some j, Some (n, a), Some (mr, nc, b) => if Nat.ltb j n && Nat.ltb j nc then BOk (column (Mat n n a) j, column (Mat mr nc b) j) else BErr BIndexError
  | _, _, _ => BErr BAttributeError
  end.

(** * [compute_lci], 325-339 *)
Inductive lres (A : Type) := LOk (a : A) | LErr (e : bexn) | LSingular | LFuel.
Arguments LOk {A} _. Arguments LErr {A} _. Arguments LSingular {A}. Arguments LFuel {A}.
Definition b_entries (g : eng) : list trip := match g_b g with Some (_, _, b) => b | None => [] end.
Definition engine_lci (inv : nat -> list trip -> option vec) (fuel : nat) (g : eng) (pf : node) (thr : Qc) (count : nat) : lres vec :=
  if in_background g pf then
    match snd (compute_bg_lci (g_a g) (b_entries g) (unit_demand (pos pf (bg_list (g_st g) (g_cg g)))) thr count) with
    | Some b => LOk b
    | None => LErr BAttributeError
    end
  else
    match foreground_of fuel g pf with
    | None => LFuel
    | Some (BErr e) => LErr e
    | Some (BOk pfs) =>
        match fg_matrices g pfs with
        | BErr e => LErr e
        | BOk (af, ad, bf, _) =>
            match inv (length pfs) (m_ent af) with
            | None => LSingular
            | Some xt =>
                match snd (compute_bg_lci (g_a g) (b_entries g) (mulv (m_ent ad) xt) thr count) with
                | None => LOk (mulv (m_ent bf) xt)
                | Some b => LOk (vadd b (mulv (m_ent bf) xt))
                end
            end
        end
    end.

(** * The manager's queries on a product flow it knows *)
Definition dir_of (D : db) (v : node) : dirn := match db_ref D v with Some d => d | None => Output end.
(** the stored cells of a matrix in row order, and [nonzero()] paired with [data[i]] *)
Definition stored_cells (m : mat) : list (nat * nat * Qc) := flat_map (fun i => map (fun jq => (i, fst jq, snd jq)) (mrow m i)) (seq 0 (m_rows m)).
Definition scan_cells (m : mat) : list (nat * nat * Qc) :=
  combine (map fst (filter (fun e => negb (eqb (snd e) 0)) (stored_cells m))) (map snd (stored_cells m)).
(** [foreground], background_manager.py:80-102: the reference exchange, then the cells of Af *)
Definition fg_exchange (D : db) (pfs : list node) (e : nat * nat * Qc) : bret xdef :=
  match nth_error pfs (fst (fst e)), nth_error pfs (snd (fst e)) with
  | Some term, Some col => BOk (XD (snd col) (fst term) (opp (dir_of D term)) (Some (snd term)) (snd e))
  | _, _ => BErr BIndexError
  end.
Definition mgr_foreground (D : db) (fuel : nat) (g : eng) (pf : node) : option (bret (list xdef)) :=
  let ref := XD (snd pf) (fst pf) (dir_of D pf) None 1 in
  if in_background g pf then Some (match bg_columns g pf with BOk _ => BOk [ref] | BErr e => BErr e end) else
  match foreground_of fuel g pf with
  | None => None
  | Some (BErr e) => Some (BErr e)
  | Some (BOk pfs) => Some (match fg_matrices g pfs with
                            | BErr e => BErr e
                            | BOk (af, _, _, _) => match bmap (fg_exchange D pfs) (scan_cells af) with BOk xs => BOk (ref :: xs) | BErr e => BErr e end
                            end)
  end.
(** [dependencies], 144-163, with [_background_dependencies], 127-134 *)
Definition bg_dependency (D : db) (g : eng) (pf : node) (e : nat * Qc) : bret xdef :=
  match nth_error (bg_list (g_st g) (g_cg g)) (fst e) with
  | Some term => BOk (XD (snd pf) (fst term) (opp (dir_of D term)) (Some (snd term)) (snd e))
  | None => BErr BIndexError
  end.
Definition signed_dir (q : Qc) : dirn := if Qclt_le_dec q 0 then Output else Input.
Definition mgr_dependencies (D : db) (g : eng) (pf : node) : bret (list xdef) :=
  if in_background g pf then
    match bg_columns g pf with BOk (ad, _) => bmap (bg_dependency D g pf) (scan ad) | BErr e => BErr e end
  else
    let deps := filter (fun e => eqb (fst (fst e)) pf && in_background g (snd (fst e))) (g_foreground g) in
    BOk (map (fun e => XD (snd (fst (fst e))) (fst (snd (fst e))) (signed_dir (snd e)) (Some (snd (snd (fst e)))) (Qcabs (snd e)))
             (ksort (fun e => pos (snd (fst e)) (bg_list (g_st g) (g_cg g))) deps)).
(** [emissions], 165-179, with [_background_emissions], 136-142 *)
Definition bg_emission (g : eng) (pf : node) (e : nat * Qc) : bret xdef :=
  match nth_error (e_ems (g_st g)) (fst e) with
  | Some em => BOk (XD (snd pf) (fst em) (snd em) None (snd e))
  | None => BErr BIndexError
  end.
Definition mgr_emissions (g : eng) (pf : node) : bret (list xdef) :=
  if in_background g pf then
    match bg_columns g pf with BOk (_, bf) => bmap (bg_emission g pf) (scan bf) | BErr e => BErr e end
  else BOk (map (fun e => XD (snd (fst (fst e))) (fst (snd (fst e))) (snd (snd (fst e))) None (snd e)) (filter (fun e => eqb (fst (fst e)) pf) (g_cutoff g))).
(** [inventory], 181-232, without [show]: 211 reads [ems.emission], which an Emission does not have *)
Definition mgr_inventory (D : db) (g : eng) (pf : node) : bret (list xdef) :=
  let ref := XD (snd pf) (fst pf) (dir_of D pf) None 1 in
  if in_background g pf then
    match bg_columns g pf with
    | BErr e => BErr e
    | BOk (ad, bf) =>
        match bmap (fun e => match nth_error (bg_list (g_st g) (g_cg g)) (fst e) with
                             | Some dep => BOk (XD (snd pf) (fst dep) (signed_dir (snd e)) None (Qcabs (snd e)))
                             | None => BErr BIndexError end) (scan ad) with
        | BErr e => BErr e
        | BOk interior => match nonzero bf with [] => BOk (ref :: interior) | _ => BErr BAttributeError end
        end
    end
  else
    BOk (ref :: map (fun e => XD (snd pf) (fst (snd (fst e))) (signed_dir (snd e)) None (snd e)) (filter (fun e => eqb (fst (fst e)) pf) (g_foreground g))
             ++ map (fun e => XD (snd pf) (fst (snd (fst e))) (snd (snd (fst e))) None (snd e)) (filter (fun e => eqb (fst (fst e)) pf) (g_cutoff g))).
(** [lci], 234-249; [in_ex] is the sum of the process's exchange values of the product in the product's direction *)
Definition mgr_lci (inv : nat -> list trip -> option vec) (in_ex : node -> Qc) (fuel : nat) (g : eng) (pf : node) (thr : Qc) (count : nat) : lres (list xdef) :=
  match engine_lci inv fuel g pf thr count with
  | LOk b => LOk (flat_map (fun ie => if eqb (b (fst ie)) 0 then [] else [XD (snd pf) (fst (snd ie)) (snd (snd ie)) None (b (fst ie) * in_ex pf)])
                           (combine (seq 0 (length (e_ems (g_st g)))) (e_ems (g_st g))))
  | LErr e => LErr e | LSingular => LSingular | LFuel => LFuel
  end.
(** [is_in_scc], 68-70 ([is_in_background], 72-74, is [in_background]) *)
Definition mgr_in_scc (g : eng) (pf : node) : bool :=
  match scc_id (g_st g) pf with Some i => Nat.ltb 1 (length (scc (g_st g) i)) | None => false end.
(** [_get_product_flow], 30-36: every query first adds its product flow, if the engine does not know it *)
Definition query {A} (D : db) (fuel : nat) (ord : list nat -> list nat) (g : eng) (pf : node) (q : eng -> A) : option (eng * (A + bexn)) :=
  match add_ref_product D Abort fuel ord g pf with
  | UOk g' => Some (g', inl (q g'))
  | UErr g' e => Some (g', inr e)
  | UFuel => None
  end.

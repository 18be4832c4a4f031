(** Model of the flat background: /repo/antelope_background/background/flat_background.py, with [make_foreground()] of
    /repo/antelope_background/engine/background_engine.py:445-512.

    Simplifications: external references are numbers; matrices are lists of (row, column, value) entries with their shape, and
    what scipy does with them is: entries of one cell add up; the cells named by some entry are stored, even if their sum is zero
    (csr_matrix constructor), a slice keeps them, [nonzero()] drops the zeros, [.data] does not; a product or sum of matrices stores
    no zeros.  Numbers are exact rationals.  The solvers 'spsolve' and 'factorize' (79-82, 486-493) and [_FLATTEN_AF] (False, 21) are
    not modelled; generators are modelled by the list they yield when exhausted, and by the exception if one is raised.  [savemat] and
    [loadmat] are the identity on matrices. *)
From Verif Require Import Num Base ProcModel BgModel BgLciModel.
Open Scope Qc_scope.
Open Scope list_scope.

(** A matrix: rows, columns, entries *)
Record mat := Mat { m_rows : nat; m_cols : nat; m_ent : list trip }.
Definition cell (m : mat) (i j : nat) : Qc := Qcsum (map (fun e => if Nat.eqb (fst (fst e)) i && Nat.eqb (snd (fst e)) j then snd e else 0) (m_ent m)).
Definition is_stored (m : mat) (i j : nat) : bool := existsb (fun e => Nat.eqb (fst (fst e)) i && Nat.eqb (snd (fst e)) j) (m_ent m).
(** [m[:, j]] as (row, value) in row order; [m[i, :]] as (column, value) in column order *)
Definition column (m : mat) (j : nat) : list (nat * Qc) := map (fun i => (i, cell m i j)) (filter (fun i => is_stored m i j) (seq 0 (m_rows m))).
Definition mrow (m : mat) (i : nat) : list (nat * Qc) := map (fun j => (j, cell m i j)) (filter (fun j => is_stored m i j) (seq 0 (m_cols m))).
(** a computed column vector of [n] rows *)
Definition dense (n : nat) (x : vec) : list (nat * Qc) := filter (fun e => negb (eqb (snd e) 0)) (map (fun i => (i, x i)) (seq 0 n)).
(** [nonzero()]: positions of the nonzero values *)
Definition nonzero (v : list (nat * Qc)) : list nat := map fst (filter (fun e => negb (eqb (snd e) 0)) v).
(** [for i in range(len(rows)): ... rows[i] ... data_vec.data[i]]: the i-th nonzero position with the i-th stored value *)
Definition scan (v : list (nat * Qc)) : list (nat * Qc) := combine (nonzero v) (map snd v).

(** [TermRef], 28-72: flow, direction with respect to the term, term (process, or compartment for exterior flows), component label
    (0 is [None]) *)
Record tref := TR { t_flow : nat; t_dir : dirn; t_term : option nat; t_scc : option nat }.
Definition opp (d : dirn) : dirn := match d with Input => Output | Output => Input end.
(** [ExchDef], 75 *)
Record xdef := XD { x_proc : nat; x_flow : nat; x_dir : dirn; x_term : option nat; x_val : Qc }.
(** [FlatBackground], 257-290; the index dictionaries are computed from the lists: the last entry with a key wins *)
Record flat := FB { f_fg : list tref; f_bg : list tref; f_ex : list tref; f_af : option mat; f_ad : option mat; f_bf : option mat; f_A : option mat; f_B : option mat }.
Fixpoint last_pos (term : option nat) (fl : nat) (l : list tref) : option nat :=
  match l with
  | [] => None
  | t :: r => match last_pos term fl r with
              | Some i => Some (S i)
              | None => if eqb (t_term t) term && Nat.eqb (t_flow t) fl then Some O else None
              end
  end.

(** * From the engine *)
(** [construct_sparse], 306-323, of the entry array *)
Definition build (rows cols : nat) (t : option (list trip)) : bret mat := match t with Some t => BOk (Mat rows cols t) | None => BErr BIndexError end.
(** [make_foreground()] for the whole foreground, background_engine.py:445-512: [None] when there is no foreground *)
Definition make_foreground (g : eng) : bret (option (mat * mat * mat)) :=
  let s := g_st g in
  let fg := fg_list s (g_order g) in let bg := bg_list s (g_cg g) in
  let p := length fg in
  if Nat.eqb p 0 then BOk None else
  let ad_exch := filter (fun e => mem (snd (fst e)) bg) (g_foreground g) in
  let af_exch := filter (fun e => negb (mem (snd (fst e)) bg)) (g_foreground g) in
  let colf := fun v => posof v fg in
  match build p p (mat_rows (fun e => colf (snd (fst e))) (fun e => colf (fst (fst e))) snd af_exch),
        build (length bg) p (mat_rows (fun e => posof (snd (fst e)) bg) (fun e => colf (fst (fst e))) snd ad_exch),
        build (length (e_ems s)) p (mat_rows (fun e => posof (snd (fst e)) (e_ems s)) (fun e => colf (fst (fst e))) snd (g_cutoff g)) with
  | BOk af, BOk ad, BOk bf => BOk (Some (af, ad, bf))
  | BErr e, _, _ | _, BErr e, _ | _, _, BErr e => BErr e
  end.
(** [_make_term_ref], 193-198, with [_map_nontrivial_sccs], 191: the label is the process of the product flow whose index is the
    component's id; the direction of a product flow is that of its reference exchange, product_flow.py:52 *)
Definition scc_label (g : eng) (v : node) : option nat :=
  match scc_id (g_st g) v with
  | Some k => if Nat.ltb 1 (length (scc (g_st g) k)) then option_map snd (nth_error (e_pf (g_st g)) k) else None
  | None => None
  end.
Definition make_ref (D : db) (g : eng) (v : node) : tref := TR (fst v) (match db_ref D v with Some d => d | None => Output end) (Some (snd v)) (scc_label g v).
(** [_make_term_ext], 200-205; [comp f] is [flow['Compartment']] *)
Definition make_ext (comp : nat -> list nat) (e : emis) : tref :=
  TR (fst e) (opp (snd e)) (match rev (comp (fst e)) with c :: _ => Some c | [] => None end) None.
(** [from_background_engine], 184-212, and [__init__], 257-290: with no background [lci_db] is the pair (None, None), which is not
    None, and [None.tocsr()] raises AttributeError *)
Definition from_engine (D : db) (comp : nat -> list nat) (g : eng) : bret flat :=
  match make_foreground g with
  | BErr e => BErr e
  | BOk m =>
      match g_a g, g_b g with
      | Some (n, a), Some (mr, nc, b) =>
          BOk (FB (map (make_ref D g) (fg_list (g_st g) (g_order g))) (map (make_ref D g) (bg_list (g_st g) (g_cg g))) (map (make_ext comp) (e_ems (g_st g)))
                  (option_map (fun x => fst (fst x)) m) (option_map (fun x => snd (fst x)) m) (option_map snd m) (Some (Mat n n a)) (Some (Mat mr nc b)))
      | _, _ => BErr BAttributeError
      end
  end.

(** * Queries *)
(** [is_in_background], 334-335 *)
Definition is_in_background (f : flat) (p fl : nat) : bool := match last_pos (Some p) fl (f_bg f) with Some _ => true | None => false end.
(** [is_in_scc], 327-332: KeyError for an unknown product flow *)
Definition is_in_scc (f : flat) (p fl : nat) : bret bool :=
  match last_pos (Some p) fl (f_bg f), last_pos (Some p) fl (f_fg f) with
  | Some i, _ => match nth_error (f_bg f) i with Some t => BOk (match t_scc t with Some _ => true | None => false end) | None => BErr BIndexError end
  | None, Some i => match nth_error (f_fg f) i with Some t => BOk (match t_scc t with Some _ => true | None => false end) | None => BErr BIndexError end
  | None, None => BErr BKeyError
  end.
Fixpoint bmap {A B} (h : A -> bret B) (l : list A) : bret (list B) :=
  match l with
  | [] => BOk []
  | a :: r => match h a with BErr e => BErr e | BOk b => match bmap h r with BErr e => BErr e | BOk bs => BOk (b :: bs) end end
  end.
(** [_generate_exch_defs], 390-402 *)
Definition exch_def (node_ref : nat) (enum : list tref) (e : nat * Qc) : bret xdef :=
  match nth_error enum (fst e) with
  | None => BErr BIndexError
  | Some t => BOk (if Qclt_le_dec (snd e) 0 then XD node_ref (t_flow t) (t_dir t) (t_term t) (- snd e)
                   else XD node_ref (t_flow t) (opp (t_dir t)) (t_term t) (snd e))
  end.
Definition exch_defs (node_ref : nat) (v : list (nat * Qc)) (enum : list tref) : bret (list xdef) := bmap (exch_def node_ref enum) (scan v).
(** [_generate_em_defs], 404-423; the context mode is 'compat' (interfaces/__init__.py:88), so the term is None *)
Definition em_def (node_ref : nat) (enum : list tref) (e : nat * Qc) : bret xdef :=
  match nth_error enum (fst e) with
  | None => BErr BIndexError
  | Some t => BOk (XD node_ref (t_flow t) (opp (t_dir t)) None (snd e))
  end.
Definition em_defs (node_ref : nat) (v : list (nat * Qc)) (enum : list tref) : bret (list xdef) := bmap (em_def node_ref enum) (scan v).
Definition bapp {A} (x y : bret (list A)) : bret (list A) :=
  match x, y with BOk a, BOk b => BOk (a ++ b) | BErr e, _ => BErr e | _, BErr e => BErr e end.
Definition mcol (m : option mat) (j : nat) : bret (list (nat * Qc)) := match m with Some m => BOk (column m j) | None => BErr BAttributeError end.
(** [dependencies], 436-450: for a background process [fg_deps] is a list, and [[].nonzero()] raises AttributeError (for a missing A
    the TypeError raised before it is not told apart) *)
Definition dependencies (f : flat) (p fl : nat) : bret (list xdef) :=
  if is_in_background f p fl then BErr BAttributeError else
  match last_pos (Some p) fl (f_fg f) with
  | None => BErr BKeyError
  | Some j => match mcol (f_af f) j, mcol (f_ad f) j with
              | BOk a, BOk d => bapp (exch_defs p a (f_fg f)) (exch_defs p d (f_bg f))
              | BErr e, _ => BErr e
              | _, BErr e => BErr e
              end
  end.
(** [emissions], 452-461 *)
Definition emissions (f : flat) (p fl : nat) : bret (list xdef) :=
  match (match last_pos (Some p) fl (f_bg f) with
         | Some j => mcol (f_B f) j
         | None => match last_pos (Some p) fl (f_fg f) with Some j => mcol (f_bf f) j | None => BErr BKeyError end
         end) with
  | BOk c => em_defs p c (f_ex f)
  | BErr e => BErr e
  end.
(** [index_of], 292-301 *)
Definition index_of (f : flat) (term : option nat) (fl : nat) : bret nat :=
  match last_pos term fl (f_fg f), last_pos term fl (f_bg f), last_pos term fl (f_ex f) with
  | Some i, _, _ => BOk i
  | None, Some i, _ => BOk i
  | None, None, Some i => BOk i
  | None, None, None => BErr BKeyError
  end.
Definition mrow_refs (m : option mat) (i : nat) (enum : list tref) : bret (list tref) :=
  match m with
  | None => BErr BAttributeError
  | Some m => if Nat.leb (m_rows m) i then BErr BIndexError else
              bmap (fun j => match nth_error enum j with Some t => BOk t | None => BErr BIndexError end) (nonzero (mrow m i))
  end.
(** [consumers], 425-434 *)
Definition consumers (f : flat) (p fl : nat) : bret (list tref) :=
  match index_of f (Some p) fl with
  | BErr e => BErr e
  | BOk i => if is_in_background f p fl then bapp (mrow_refs (f_ad f) i (f_fg f)) (mrow_refs (f_A f) i (f_bg f))
             else mrow_refs (f_af f) i (f_fg f)
  end.
(** [_iterate_a_matrix], 78-106, without [solver] *)
Definition iterate (a : option mat) (y : vec) (thr : Qc) (count : nat) : vec :=
  match a with None => vzero | Some m => bg_loop count (m_rows m) (m_ent m) thr y vzero 0 end.
Definition dot (m : option mat) (x : vec) : vec := match m with Some m => mulv (m_ent m) x | None => vzero end.
Definition nrows (m : option mat) : nat := match m with Some m => m_rows m | None => O end.
(** [_x_tilde], 463-465 *)
Definition x_tilde (f : flat) (j : nat) (thr : Qc) (count : nat) : vec := iterate (f_af f) (unit_demand j) thr count.
(** [ad], 467-474, and [bf], 476-483 *)
Definition ad (f : flat) (p fl : nat) (thr : Qc) (count : nat) : bret (list xdef) :=
  if is_in_background f p fl then dependencies f p fl else
  match last_pos (Some p) fl (f_fg f) with
  | None => BErr BKeyError
  | Some j => exch_defs p (dense (nrows (f_ad f)) (dot (f_ad f) (x_tilde f j thr count))) (f_bg f)
  end.
Definition bf (f : flat) (p fl : nat) (thr : Qc) (count : nat) : bret (list xdef) :=
  if is_in_background f p fl then emissions f p fl else
  match last_pos (Some p) fl (f_fg f) with
  | None => BErr BKeyError
  | Some j => em_defs p (dense (nrows (f_bf f)) (dot (f_bf f) (x_tilde f j thr count))) (f_ex f)
  end.
(** [_compute_bg_lci], 485-494, [_compute_lci], 496-511; [NoLciDatabase] is BNotImplemented here *)
Definition bg_lci (f : flat) (d : vec) (thr : Qc) (count : nat) : vec := dot (f_B f) (iterate (f_A f) d thr count).
Definition complete (f : flat) : bool := match f_A f, f_B f with Some _, Some _ => true | _, _ => false end.
Definition compute_lci (f : flat) (p fl : nat) (thr : Qc) (count : nat) : bret (nat * vec) :=
  match last_pos (Some p) fl (f_bg f) with
  | Some j => if complete f then BOk (nrows (f_B f), bg_lci f (unit_demand j) thr count) else BErr BNotImplemented
  | None => match last_pos (Some p) fl (f_fg f) with
            | None => BErr BKeyError
            | Some j => let x := x_tilde f j thr count in
                        if complete f then BOk (nrows (f_bf f), vadd (bg_lci f (dot (f_ad f) x) thr count) (dot (f_bf f) x))
                        else BOk (nrows (f_bf f), dot (f_bf f) x)
            end
  end.
(** [lci], 513-517 *)
Definition lci (f : flat) (p fl : nat) (thr : Qc) (count : nat) : bret (list xdef) :=
  match compute_lci f p fl thr count with BOk (n, b) => em_defs p (dense n b) (f_ex f) | BErr e => BErr e end.

(** * [foreground(process, ref_flow)], 337-388, with traverse=False: breadth first.  [fuel] bounds the passes of the while loop; [None]
    when it is used up. *)
(** the for loop, 371-388: new rows join the queue *)
Fixpoint enqueue (rows : list nat) (seen q : list nat) : list nat * list nat :=
  match rows with
  | [] => (seen, q)
  | r :: rest => if mem r seen then enqueue rest seen q else enqueue rest (r :: seen) (q ++ [r])
  end.
Fixpoint bfs (fuel : nat) (f : flat) (af : mat) (seen q : list nat) (out : list xdef) : option (bret (list xdef)) :=
  match q with
  | [] => Some (BOk out)
  | c :: q =>
      match fuel with
      | O => None
      | S n =>
          match nth_error (f_fg f) c with
          | None => Some (BErr BIndexError)
          | Some node =>
              match exch_defs (match t_term node with Some p => p | None => O end) (column af c) (f_fg f) with
              | BErr e => Some (BErr e)
              | BOk xs => let '(seen', q') := enqueue (nonzero (column af c)) seen q in bfs n f af seen' q' (out ++ xs)
              end
          end
      end
  end.
Definition foreground_exchanges (fuel : nat) (f : flat) (p fl : nat) : option (bret (list xdef)) :=
  match last_pos (Some p) fl (f_fg f) with
  | None => Some (BErr BKeyError)
  | Some i =>
      match nth_error (f_fg f) i, f_af f with
      | Some t, Some af => bfs fuel f af [i] [i] [XD p fl (t_dir t) None 1]
      | _, _ => Some (BErr BAttributeError)
      end
  end.

(** * Files: [write_to_file], 534-542, [_write_mat], 525-532, [_write_index], 519-523, [from_matfile], 228-255 *)
Record mfile := MF { w_af : mat; w_ad : mat; w_bf : mat; w_lci : option (mat * mat) }.
Record ifile := IF { w_fg : list (nat * nat * option nat * option nat); w_bg : list (nat * nat * option nat * option nat); w_ex : list (nat * nat * option nat * option nat) }.
(** the pair of files of one name, "x.mat" and "x.mat.index.json.gz" *)
Record disk := Disk { d_mat : option mfile; d_index : option ifile }.
Definition dcode (d : dirn) : nat := match d with Input => 0 | Output => 1 end.
Definition dname (n : nat) : dirn := match n with O => Input | _ => Output end.
Definition pack (t : tref) : nat * nat * option nat * option nat := (t_flow t, dcode (t_dir t), t_term t, t_scc t).
Definition unpack (x : nat * nat * option nat * option nat) : tref := let '(fl, d, t, s) := x in TR fl (dname d) t s.
Definition matrix_file (f : flat) (comp : bool) : mfile :=
  let m x := match x with Some m => m | None => Mat 0 0 [] end in
  MF (m (f_af f)) (m (f_ad f)) (m (f_bf f)) (match f_A f, f_B f with Some a, Some b => if comp then Some (a, b) else None | _, _ => None end).
Definition index_file (f : flat) : ifile := IF (map pack (f_fg f)) (map pack (f_bg f)) (map pack (f_ex f)).
(** the disk after each step; a crash leaves one of these *)
Definition write_steps (f : flat) (comp : bool) (d : disk) : list disk :=
  [d; Disk (Some (matrix_file f comp)) (d_index d); Disk (Some (matrix_file f comp)) (Some (index_file f))].
Definition write_to_file (f : flat) (comp : bool) (d : disk) : disk := Disk (Some (matrix_file f comp)) (Some (index_file f)).
Definition from_file (d : disk) : bret flat :=
  match d_mat d, d_index d with
  | Some m, Some i => BOk (FB (map unpack (w_fg i)) (map unpack (w_bg i)) (map unpack (w_ex i)) (Some (w_af m)) (Some (w_ad m)) (Some (w_bf m))
                              (option_map fst (w_lci m)) (option_map snd (w_lci m)))
  | _, _ => BErr BKeyError
  end.

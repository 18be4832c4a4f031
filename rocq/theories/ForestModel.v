(** Model of building a forest of fragments from the foreground of a process: /repo/antelope_catalog/implementations/foreground.py 120-138 (find_or_create_term), 217-347 (create_forest),
    349-370 (_new_node), with LcFragment.has_child (/repo/lcatools/entities/fragments.py:220-233) and FragmentEditor.split_subfragment (/repo/lcatools/entities/fragment_editor.py:168-187, 202-217).

    Simplifications: a fragment is its parent, flow, direction, cached exchange value, background flag and default termination (a process, or a fragment; the termination flow is the fragment's
    flow); the archive's fragments are all fragments of the heap, listed in the order of their creation; a new fragment gets the next unused number; processes and flows are numbers standing for
    external references; exchange values are carried along unchanged, and [observe] at the end (C88), which changes only observed values, is left out; the catalog finds every process;
    the exchanges come as a list, as /repo/lcatools/interfaces/ibackground.py:131-138 promises (the generators of the local implementations raise TypeError at [fx[0]], line 311). *)
From Verif Require Import Num Base PyStr ProcModel.
Open Scope nat_scope.
Open Scope list_scope.

(** a terminated exchange: process, flow, direction, value, termination *)
Record xch := X { x_proc : nat; x_flow : nat; x_dir : dirn; x_val : Qc; x_term : nat }.
Inductive tgt := ToProc (p : nat) | ToFrag (i : nat).
Record fgm := Fg { g_parent : option nat; g_flow : nat; g_dir : dirn; g_val : Qc; g_bg : bool; g_term : tgt }.
Definition fheap := dict nat fgm.
(** the fragments, the next number, [term_map], [_new_frags] *)
Record fst_ := St { s_h : fheap; s_next : nat; s_tm : dict nat nat; s_new : list nat }.
Definition flip (d : dirn) : dirn := match d with Input => Output | Output => Input end.

Section Forest.
(** [process.dependencies(ref_flow=flow)] *)
Context (deps : nat -> nat -> list xch).

Definition add (s : fst_) (f : fgm) : fst_ := St (s_h s ++ [(s_next s, f)]) (S (s_next s)) (s_tm s) (s_new s).
Definition children (i : nat) (h : fheap) : list (nat * fgm) := filter (fun e => eqb (g_parent (snd e)) (Some i)) h.
(** the process a fragment ends in, and whether through a background fragment: [term.term_node], or [term.term_node.term.term_node] *)
Definition target (h : fheap) (f : fgm) : option (nat * bool) :=
  match g_term f with
  | ToProc p => Some (p, g_bg f)
  | ToFrag j => match dget j h with Some g => match g_term g with ToProc p => Some (p, g_bg g) | ToFrag _ => None end | None => None end
  end.
(** [has_child], fragments.py:220-233 *)
Definition has_child (h : fheap) (i flow : nat) (d : dirn) (p : nat) : bool :=
  existsb (fun e => Nat.eqb (g_flow (snd e)) flow && dirn_eqb (g_dir (snd e)) d && match target h (snd e) with Some (q, _) => Nat.eqb q p | None => false end) (children i h).
(** [find_or_create_term(exchange, background=True)], 120-138; [terminates], /repo/lcatools/terminations.py:188-206 *)
Definition ends_bg (x : xch) (f : fgm) : bool :=
  g_bg f && match g_parent f with None => true | Some _ => false end && Nat.eqb (g_flow f) (x_flow x) && dirn_eqb (g_dir f) (x_dir x) && match g_term f with ToProc p => Nat.eqb p (x_term x) | ToFrag _ => false end.
Definition find_or_create (s : fst_) (x : xch) : fst_ * nat :=
  match find (fun e => ends_bg x (snd e)) (s_h s) with
  | Some e => (s, fst e)
  | None => (add s (Fg None (x_flow x) (x_dir x) (Q2Qc 1) true (ToProc (x_term x))), s_next s)
  end.
(** one turn of the loop of [_new_node], 366-369 *)
Definition add_dep (i : nat) (s : fst_) (x : xch) : fst_ :=
  let '(s1, b) := find_or_create s x in add s1 (Fg (Some i) (x_flow x) (x_dir x) (x_val x) false (ToFrag b)).
(** [_new_node], 349-370: a node for process [p], whose number is [s_next s]; [create_fragment] flips the direction when there is no parent *)
Definition new_node (s : fst_) (parent : option nat) (flow : nat) (d : dirn) (v : Qc) (p : nat) : fst_ :=
  fold_left (add_dep (s_next s)) (deps p flow) (add s (Fg parent flow (match parent with None => flip d | Some _ => d end) v false (ToProc p))).
(** [split_subfragment]: a surrogate takes the place and the value of the fragment, which loses its parent *)
Definition split (s : fst_) (n : nat) : fst_ :=
  match dget n (s_h s) with
  | Some f => match g_parent f with
              | Some p => add (St (dset n (Fg None (g_flow f) (g_dir f) (Q2Qc 1) (g_bg f) (g_term f)) (s_h s)) (s_next s) (s_tm s) (s_new s)) (Fg (Some p) (g_flow f) (g_dir f) (g_val f) false (ToFrag n))
              | None => s
              end
  | None => s
  end.
(** [_create_child], 272-291 *)
Definition create_child (s : fst_) (par : nat) (x : xch) : fst_ :=
  match dget (x_term x) (s_tm s) with
  | Some n => add (split s n) (Fg (Some par) (x_flow x) (x_dir x) (x_val x) false (ToFrag n))
  | None => let s1 := new_node s (Some par) (x_flow x) (x_dir x) (x_val x) (x_term x) in
            St (s_h s1) (s_next s1) (dset (x_term x) (s_next s) (s_tm s1)) (s_new s1 ++ [s_next s])
  end.
(** [_try_exch], 293-301 *)
Definition try_exch (s : fst_) (par : nat) (x : xch) : fst_ :=
  if mem par (s_new s) then if has_child (s_h s) par (x_flow x) (x_dir x) (x_term x) then s else create_child s par x else s.
(** the loops, 315-322 and 334-341: exchanges whose process has no node yet are put off *)
Fixpoint pass (s : fst_) (xs : list xch) : fst_ * list xch :=
  match xs with
  | [] => (s, [])
  | x :: t => match dget (x_proc x) (s_tm s) with
              | None => let '(s1, l) := pass s t in (s1, x :: l)
              | Some par => pass (try_exch s par x) t
              end
  end.
(** the loop over what was put off, 324-341: at most ten more passes *)
Fixpoint rounds (n : nat) (s : fst_) (px : list xch) : fst_ * list xch :=
  match n with
  | O => (s, px)
  | S m => match px with [] => (s, []) | _ => let '(s1, l) := pass s px in rounds m s1 l end
  end.
(** [term_map], 261-262: the last fragment listed that ends in a process *)
Definition term_map (h : fheap) : dict nat nat := fold_left (fun d e => match g_term (snd e) with ToProc p => dset p (fst e) d | ToFrag _ => d end) h [].
(** [create_forest], 217-347, of the process [p] with reference exchange [flow], [d], [v], whose foreground has the exchanges [xs]; the result: the fragments, the top fragment, and the exchanges
    abandoned *)
Definition create_forest (h : fheap) (next p flow : nat) (d : dirn) (v : Qc) (xs : list xch) : fheap * nat * list xch :=
  match dget p (term_map h) with
  | Some i => (s_h (split (St h next (term_map h) []) i), i, [])
  | None => let s1 := new_node (St h next (term_map h) []) None flow d v p in
            let '(s2, px) := pass (St (s_h s1) (s_next s1) (dset p next (s_tm s1)) [next]) xs in
            let '(s3, rest) := rounds 10 s2 px in (s_h s3, next, rest)
  end.
End Forest.

(** Model of [compute_bg_lci], /repo/antelope_background/engine/background_engine.py:341-371, and of the sparse products it uses.

    Simplifications: vectors are functions from the row index, matrices lists of (row, column, value) entries, duplicate entries adding
    up as scipy's csr_matrix constructor does ([construct_sparse], 306-323); numbers are exact rationals. *)
From Verif Require Import Num Base ProcModel BgModel.
From Coq Require Export QArith.Qcabs.
Open Scope Qc_scope.
Open Scope list_scope.

Definition vec := nat -> Qc.
Definition vadd (x y : vec) : vec := fun i => x i + y i.
Definition vzero : vec := fun _ => 0.
(** sparse matrix times vector *)
Definition mulv (t : list trip) (x : vec) : vec :=
  fun i => Qcsum (map (fun e => if Nat.eqb (fst (fst e)) i then snd e * x (snd (fst e)) else 0) t).
(** [sum(abs(x).data)] over the [n] rows *)
Definition norm1 (n : nat) (x : vec) : Qc := Qcsum (map (fun i => Qcabs (x i)) (seq 0 n)).
(** the while loop, 357-368: [k] iterations left *)
Fixpoint bg_loop (k : nat) (n : nat) (A : list trip) (thr : Qc) (x total : vec) (sumtotal : Qc) : vec :=
  match k with
  | O => total
  | S k =>
      let total := vadd total x in
      let x := mulv A x in
      let inc := norm1 n x in
      if Qc_eq_bool inc 0 then total else
      let sumtotal := sumtotal + inc in
      if Qclt_le_dec (inc / sumtotal) thr then total else bg_loop k n A thr x total sumtotal
  end.
(** 341-371; [None] in the second place when there is no background matrix *)
Definition compute_bg_lci (A : option (nat * list trip)) (B : list trip) (ad : vec) (thr : Qc) (count : nat) : vec * option vec :=
  match A with
  | None => (vzero, None)
  | Some (n, t) => let total := bg_loop count n t thr ad vzero 0 in (total, Some (mulv B total))
  end.
(** [compute_lci] of a background product flow, 325-330: one unit of it is demanded *)
Definition unit_demand (j : nat) : vec := fun i => if Nat.eqb i j then 1 else 0.

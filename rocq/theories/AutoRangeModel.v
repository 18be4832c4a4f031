(** Model of /repo/lcatools/autorange.py.  Numbers are exact rationals (Num.v); the loop on [r = log10(range)] is modelled
    on [10**r] itself: [r < 0] is [x < 1], [r += 3] is [x * 1000], and so on (exact reformulation; float log10 rounding is
    not modelled). *)
From Coq Require Import QArith.Qcabs ZArith.
From Verif Require Import Num Base PyStr.
Open Scope string_scope.
Open Scope Qc_scope.
Open Scope list_scope.

Definition k1000 : Qc := Q2Qc 1000.
Definition Qcltb (x y : Qc) : bool := negb (Qle_bool y x).
(** [_set_shift], 34-46.  [fuel] bounds the number of iterations; None: not finished yet. *)
Fixpoint shift_loop (fuel : nat) (x : Qc) (shift : Z) : option Z :=
  match fuel with
  | O => None
  | S n => if Qcltb x 1 then shift_loop n (x * k1000) (shift + 1)
           else if Qcltb k1000 x then shift_loop n (x / k1000) (shift - 1)
           else Some shift
  end.
(** [10 ** (3 * shift)], [scale], 58-60 *)
Definition pow1000 (z : Z) : Qc :=
  match z with Z0 => 1 | Zpos p => k1000 ^ Pos.to_nat p | Zneg p => / (k1000 ^ Pos.to_nat p) end.
(** [adjust], 62-63 *)
Definition adjust (shift : Z) (v : Qc) : Qc := v * pow1000 shift.
(** [AutoRange(rng)], 48-56: [log10(0)] raises ValueError *)
Inductive arange := ARunning | AValueError | AShift (s : Z).
Definition auto_range (fuel : nat) (rng : Qc) : arange :=
  if eqb (Qcabs rng) 0 then AValueError else match shift_loop fuel (Qcabs rng) 0 with Some s => AShift s | None => ARunning end.

(** [metric_offsets], 9-23, and [metric_prefixes], 26-27 *)
Definition metric_offsets : list (ascii * Z) :=
  [("a"%char, -6); ("f"%char, -5); ("p"%char, -4); ("n"%char, -3); ("u"%char, -2); ("m"%char, -1); ("k"%char, 1);
   ("M"%char, 2); ("G"%char, 3); ("T"%char, 4); ("P"%char, 5); ("E"%char, 6); ("Z"%char, 7)]%Z.
Definition offset (c : ascii) : option Z := option_map snd (find (fun p => Ascii.eqb c (fst p)) metric_offsets).
Definition prefix_for (z : Z) : option string :=
  if Z.eqb z 0 then Some "" else option_map (fun p => String (fst p) "") (find (fun p => Z.eqb z (snd p)) metric_offsets).
(** [disallow_prefix], 30 *)
Definition disallowed (u : string) : bool := String.prefix "mol" u || String.prefix "MT" u.
Inductive uret := UOk (u : string) | UIndexError | UKeyError.
(** [adj_unit], 65-83 *)
Definition adj_unit (shift : Z) (unit : string) : uret :=
  match unit with
  | EmptyString => UIndexError
  | String c rest =>
      let '(pre, adj) := match (if disallowed unit then None else offset c) with Some z => (z, rest) | None => (0%Z, unit) end in
      match prefix_for (pre - shift) with Some p => UOk (p ++ adj)%string | None => UKeyError end
  end.

(** Model of the CAS-number functions of /repo/synlist/flowables.py. *)
From Verif Require Import Base PyStr.
Open Scope string_scope.
Open Scope nat_scope.

(** [[0-9]] *)
Definition is_digit (c : ascii) : bool := let n := nat_of_ascii c in (48 <=? n) && (n <=? 57).
Definition dash : ascii := "-"%char.
Definition zero : ascii := "0"%char.
Definition newline : ascii := "010"%char.

(** number of leading digits and the rest (['-'] is not a digit, so the greedy split is the only one the regular
    expressions can use) *)
Fixpoint span_digits (s : string) : nat * string :=
  match s with
  | String c r => if is_digit c then let '(n, t) := span_digits r in (S n, t) else (0, s)
  | EmptyString => (0, EmptyString)
  end.
(** ['-[0-9]{2}-[0-9]$']; Python's [$] also accepts one trailing newline *)
Definition cas_tail (s : string) : bool :=
  match s with
  | String d1 (String a (String b (String d2 (String c r)))) =>
      Ascii.eqb d1 dash && is_digit a && is_digit b && Ascii.eqb d2 dash && is_digit c &&
      (String.eqb r "" || String.eqb r (String newline ""))
  | _ => false
  end.
(** [cas_regex.match], flowables.py:13: ['^[0-9]{,6}-[0-9]{2}-[0-9]$'] *)
Definition cas_match (s : string) : bool := let '(n, t) := span_digits s in (n <=? 6) && cas_tail t.
(** [cas_strict.match], flowables.py:14: ['^[0-9]{6}-[0-9]{2}-[0-9]$'] *)
Definition cas_strict (s : string) : bool := let '(n, t) := span_digits s in (n =? 6) && cas_tail t.

(** [trim_cas], flowables.py:37-38: deletes the run of zeros at the start of the string *)
Fixpoint trim_cas (s : string) : string :=
  match s with String c r => if Ascii.eqb c zero then trim_cas r else s | EmptyString => s end.

(** the [while] loop of [pad_cas], flowables.py:32-33; [None] = still looping when the fuel ran out *)
Fixpoint pad_loop (fuel : nat) (cas : string) : option string :=
  if cas_strict cas then Some cas else
  match fuel with 0 => None | S f => pad_loop f (String zero cas) end.
(** [pad_cas], flowables.py:29-34: [inl] = raises NotACas, [inr None] = does not return within the fuel *)
Inductive pad_result := NotACas | Looping | Padded (s : string).
Definition pad_cas (fuel : nat) (cas : string) : pad_result :=
  if cas_match cas then match pad_loop fuel cas with Some p => Padded p | None => Looping end else NotACas.

(** [find_cas], flowables.py:17-26, on a list of strings (Latin-1).  ConflictingCas = None. *)
Inductive cas_found := CasConflict | CasNone | CasOne (c : string).
Definition find_cas (syns : list string) : cas_found :=
  match set_of (map trim_cas (filter cas_match syns)) with
  | [] => CasNone
  | [c] => CasOne c
  | _ => CasConflict
  end.

(** C129: what the menus do not do, and concrete cases (interact.py). *)
From Coq Require Import String Ascii ZArith.
From Verif Require Import Base PyStr TableModel InteractModel InteractProofs InteractProps InteractProps2.
Open Scope string_scope.
Open Scope nat_scope.
Open Scope list_scope.

(** Going down a hierarchy ends at the first level where all agree, although they differ further down: nothing is asked. *)
Definition air (tag : string) (e : nat) : option (list key) :=
  Some (match e with 0 => [Some "air"; Some "urban"] | _ => [Some "air"; Some "rural"] end).
Theorem C129_refuted_descent int_of ins :
  at_level air "Compartment" 0 1 <> at_level air "Compartment" 1 1
  /\ descend_hier int_of air [0; 1] "Compartment" ins = Ans [0; 1] ins.
Proof. split; [discriminate|reflexivity]. Qed.
(** Likewise the tags after one that all agree on are not asked for. *)
Definition traci (tag : string) (e : nat) : option key :=
  Some (Some (if String.eqb tag "Method" then "TRACI" else match e with 0 => "air" | _ => "water" end)).
Theorem C129_refuted_tags int_of ins :
  traci "Category" 0 <> traci "Category" 1
  /\ select_subset int_of traci [0; 1] ["Method"; "Category"; "Indicator"] ins = Ans [0; 1] ins.
Proof. split; [discriminate|reflexivity]. Qed.
(** Ten processes of which only one is classified: [KeyError], whatever is typed. *)
Definition one_class (tag : string) (e : nat) : option (list key) := match e with 0 => Some [Some "A"] | _ => None end.
Theorem C129_refuted_classifications int_of tags show ins : tags "Classifications" 0 <> None ->
  pick_one int_of (fun _ => "process") tags one_class show (seq 0 10) ins = Fail XKey.
Proof.
  intros T. change (filter_processes int_of tags one_class show (seq 0 10) ins = Fail XKey). unfold filter_processes.
  change (length (seq 0 10) <? 10) with false. cbv iota.
  assert (Hc : has_tag tags "Classifications" (seq 0 10) = true).
  { apply existsb_exists. exists 0. split; [left; reflexivity|]. destruct (tags _ 0); [reflexivity|easy]. }
  rewrite Hc. reflexivity.
Qed.
(** There is no picker for fragments. *)
Theorem C129_refuted_fragment int_of tags hier show ins : pick_one int_of (fun _ : nat => "fragment") tags hier show [0] ins = Fail XKey.
Proof. reflexivity. Qed.
(** With several types, keeping all of them (the option that is offered) picks nothing. *)
Theorem C129_refuted_keep_all tags hier show rest :
  pick_one (fun _ => None) (fun e : nat => match e with 0 => "flow" | _ => "process" end) tags hier show [0; 1] ("d" :: rest) = Ans None rest.
Proof. reflexivity. Qed.

(** Concrete cases for the hypotheses above: a way to write every number (tallies, standing for decimal digits) ... *)
Fixpoint tally (s : string) : option nat :=
  match s with
  | "I" => Some 0
  | String c r => if Ascii.eqb c "I" then option_map S (tally r) else None
  | EmptyString => None
  end.
Definition tally_int (s : string) : option Z := option_map Z.of_nat (tally s).
Fixpoint marks (n : nat) : string := match n with O => "I" | S n => String "I" (marks n) end.
Theorem C129_numerals_witness n : exists c, tally_int c = Some (Z.of_nat n) /\ ~ blank c.
Proof.
  exists (marks n). split.
  - unfold tally_int. replace (tally (marks n)) with (Some n); [reflexivity|]. induction n as [|n IH]; [reflexivity|].
    change (tally (marks (S n))) with (match marks n with EmptyString => Some 0 | _ => option_map S (tally (marks n)) end).
    destruct (marks n) eqn:M; [destruct n; discriminate|]. rewrite <- IH. reflexivity.
  - unfold blank. destruct n; cbn; intros [X|X]; discriminate.
Qed.
(** ... and an entity picked among two types: the group of flows first, then the flow. *)
Theorem C129_every_one_witness : let kind (e : nat) := match e with 0 => "process" | _ => "flow" end in
  exists lines, lines <> [] /\ pick_one tally_int kind (fun _ _ => None) air (fun e => match e with 1 => "b" | _ => "a" end) [0; 1; 2] lines = Ans (Some 1) [].
Proof. exists ["x"; "I"; "II"]. split; [discriminate|]. vm_compute. reflexivity. Qed.
Example C129_refined_witness :
  descend_hier tally_int (fun _ e => Some (match e with 0 => [Some "air"; Some "urban"] | 1 => [Some "air"; Some "rural"] | _ => [Some "water"] end))
    [0; 1; 2] "Compartment" ["I"; "II"; "x"] = Ans [0] ["x"].
Proof. vm_compute. reflexivity. Qed.
(** Of the flows of a process's reference exchanges the one of the number, by name, is the reference; it is one of them. *)
Theorem C129_reference {F} int_of (name : F -> string) flows ins :
  match pick_reference int_of name flows ins with
  | Ans (Some x) _ => In x flows
  | Ans None _ => length flows <> 1
  | Fail e => e = XEof \/ e = XIndex
  end.
Proof.
  pose proof (C129_pick_list_partial int_of name flows ins) as P. unfold pick_list, pick_reference in *.
  destruct (tsort _ flows) as [|x [|y l]]; [|apply P|].
  all: destruct (pick_menu int_of _ [] ins) as [ch rest|e] eqn:M; cbn [ibind] in *; [|exact P]; destruct ch as [|z|i]; [apply P| |].
  all: try (exfalso; apply menu_ans in M as (_ & O & _); exact (O i eq_refl eq_refl)).
  all: destruct (py_nth _ z); apply P || exact P.
Qed.
Print Assumptions C129_refuted_descent.
Print Assumptions C129_refuted_classifications.
Print Assumptions C129_every_one_witness.
Print Assumptions C129_reference.

(** C129, continued: which line gives which answer (interact.py). *)
From Coq Require Import String Ascii ZArith Permutation Sorted Lia.
From Verif Require Import Base PyStr TableModel TableProofs InteractModel InteractProofs InteractProps InteractProps2.
Open Scope string_scope.
Open Scope nat_scope.
Open Scope list_scope.
Local Arguments String.eqb : simpl never.
Local Arguments eqb : simpl never.

Section Lines.
Variable int_of : string -> option Z.
(** The groups of a narrowing question are shown by decreasing size; the number of a place narrows to the group there, and an
    empty line, 'None' or the option offered keeps everything. *)
Theorem C129_groups_by_number {E} `{EqB E} (tag_of : string -> E -> option key) tag l : exists shown,
  Permutation shown (group_by l (fun e => match tag_of tag e with Some k => k | None => Some "(none)" end))
  /\ Sorted (fun a b => length (snd b) <= length (snd a)) shown
  /\ (length shown = 1 -> forall ins, pick_by_tag int_of tag_of l tag ins = Ans l ins)
  /\ (length shown <> 1 ->
        (forall i k x g c rest, nth_error shown i = Some (k, x :: g) -> int_of c = Some (Z.of_nat i) -> ~ blank c ->
           pick_by_tag int_of tag_of l tag (c :: rest) = Ans (x :: g) rest)
        /\ (forall c rest, blank c \/ (int_of c = None /\ (c = "d" \/ c = "D")) -> pick_by_tag int_of tag_of l tag (c :: rest) = Ans l rest)).
Proof.
  set (f := fun e => match tag_of tag e with Some k => k | None => Some "(none)" end : key).
  exists (tsort (fun a b => length (snd b) <=? length (snd a)) (group_by l f)). split; [apply tsort_perm|]. split.
  { assert (T : forall a b : key * list E, (length (snd b) <=? length (snd a)) = true \/ (length (snd a) <=? length (snd b)) = true).
    { intros a b. destruct (Nat.leb_spec (length (snd b)) (length (snd a))); [auto|]. right. apply Nat.leb_le. lia. }
    pose proof (tsort_sorted _ T (group_by l f)) as S. clear T. induction S as [|a r S IH Hd]; constructor; [exact IH|].
    destruct Hd as [|b r' L]; constructor. apply Nat.leb_le. exact L. }
  unfold pick_by_tag, metagroup, or_all. rewrite (proj2 (nokey_spec (fun e => Some (tag_key tag_of tag e)) l)) by discriminate.
  change (fun e : E => tag_key tag_of tag e) with f.
  set (gs := tsort _ (group_by l f)). split.
  - intros L ins. destruct gs as [|a [|b r]]; try discriminate. reflexivity.
  - intros L. split.
    + intros i k x g c rest N I B.
      assert (M : pick_menu int_of (Some (length gs)) ["done (keep all)"] (c :: rest) = Ans (Item (Z.of_nat i)) rest).
      { apply (proj2 (C129_first_line int_of (length gs) ["done (keep all)"] ["D"%char] _ _ _ eq_refl)). exists [], c. split; [reflexivity|]. split; [easy|].
        constructor; auto. assert (i < length gs) by (apply nth_error_Some; congruence). lia. }
      unfold pick_from_groups. destruct gs as [|a [|b r]]; [destruct i; discriminate|easy|]. rewrite M. cbn [ibind]. rewrite py_nth_nat, N. reflexivity.
    + intros c rest Hc.
      assert (M : exists ch, (ch = Nothing \/ ch = Option 0) /\ pick_menu int_of (Some (length gs)) ["done (keep all)"] (c :: rest) = Ans ch rest).
      { destruct Hc as [B|(I & D)].
        - exists Nothing. split; [auto|]. apply (proj2 (C129_first_line int_of (length gs) ["done (keep all)"] ["D"%char] _ _ _ eq_refl)).
          exists [], c. split; [reflexivity|]. split; [easy|]. constructor. exact B.
        - exists (Option 0). split; [auto|]. apply (C129_option_chosen_partial int_of (length gs) ["done (keep all)"] ["D"%char] 0 "D"); auto.
          destruct D as [-> | ->]; reflexivity. }
      destruct M as (ch & Ch & M). unfold pick_from_groups. destruct gs as [|a [|b r]]; [|easy|]; rewrite M; cbn [ibind]; destruct Ch as [-> | ->]; reflexivity.
Qed.
Example C129_groups_by_number_witness :
  group_by [1; 2; 3] (fun e => Some (if Nat.eqb e 2 then "a" else "b")) = [(Some "a", [2]); (Some "b", [1; 3])]
  /\ forall rest, int_of "0" = Some 0%Z ->
     pick_by_tag int_of (fun _ e => Some (Some (if Nat.eqb e 2 then "a" else "b"))) [1; 2; 3] "t" ("0" :: rest) = Ans [1; 3] rest.
Proof. split; [reflexivity|]. intros rest I. lazy. lazy in I. rewrite I. reflexivity. Qed.

(** A choice by words waits for the first line that is part of the words offered or a number. *)
Theorem C129_words_first valid default ins r rest : cyoa int_of valid default ins = Ans r rest ->
  exists skipped c, ins = skipped ++ c :: rest
  /\ (forall s, In s skipped -> let typed := match default with Some d => if String.eqb s "" then d else s | None => s end in
        int_of typed = None /\ forall a b, lower valid <> (a ++ lower typed ++ b)%string)
  /\ r = lower (match default with Some d => if String.eqb c "" then d else c | None => c end).
Proof.
  revert r rest. induction ins as [|c l IH]; intros r rest; cbn [cyoa]; [discriminate|].
  set (typed := match default with Some d => if String.eqb c "" then d else c | None => c end).
  destruct (infixb (lower typed) (lower valid)) eqn:X; [intros [= <- <-]; exists [], c; easy|].
  destruct (int_of typed) eqn:I; [intros [= <- <-]; exists [], c; easy|]. intros Y. destruct (IH _ _ Y) as (s & c' & -> & Sk & R).
  exists (c :: s), c'. split; [reflexivity|]. split; [|exact R]. intros t [<- | J]; [|apply Sk, J]. cbn zeta. fold typed. split; [exact I|].
  intros a b Z. assert (T : infixb (lower typed) (lower valid) = true) by (apply infixb_spec; eauto). congruence.
Qed.

(** An item by its number, otherwise the text typed, or for an empty line the default. *)
Theorem C129_item_or_text {E} (items : list E) default c rest :
  let typed := match default with Some d => if String.eqb c "" then d else c | None => c end in
  (int_of typed = None -> pick_one_or int_of items default (c :: rest) = Ans (inr typed) rest)
  /\ (forall i x, int_of typed = Some (Z.of_nat i) -> nth_error items i = Some x -> pick_one_or int_of items default (c :: rest) = Ans (inl x) rest).
Proof.
  cbn zeta. split.
  - intros I. cbn [pick_one_or]. rewrite I. reflexivity.
  - intros i x I N. cbn [pick_one_or]. rewrite I, py_nth_nat, N. reflexivity.
Qed.

(** The reference of a process: by the number of its place among the names, in their order; a blank line picks none. *)
Theorem C129_reference_by_number {F} (name : F -> string) flows : exists shown,
  Permutation shown flows /\ Sorted (fun a b => String.leb (name a) (name b) = true) shown
  /\ (forall x, flows = [x] -> forall ins, pick_reference int_of name flows ins = Ans (Some x) ins)
  /\ (length flows <> 1 ->
        (forall i x c rest, nth_error shown i = Some x -> int_of c = Some (Z.of_nat i) -> ~ blank c ->
           pick_reference int_of name flows (c :: rest) = Ans (Some x) rest)
        /\ forall c rest, blank c -> pick_reference int_of name flows (c :: rest) = Ans None rest).
Proof.
  exists (tsort (fun a b => String.leb (name a) (name b)) flows). split; [apply tsort_perm|]. split.
  { apply (tsort_sorted (fun a b => String.leb (name a) (name b))). intros a b. apply String.leb_total. }
  split; [intros x ->; reflexivity|]. intros L. unfold pick_reference. set (l := tsort _ flows).
  assert (L' : length l <> 1) by (unfold l; rewrite (Permutation_length (tsort_perm _ _)); exact L). split.
  - intros i x c rest N I B.
    assert (M : pick_menu int_of (Some (length l)) [] (c :: rest) = Ans (Item (Z.of_nat i)) rest).
    { apply (proj2 (C129_first_line int_of (length l) [] [] _ _ rest eq_refl)). exists [], c. split; [reflexivity|]. split; [easy|].
      constructor; auto. assert (i < length l) by (apply nth_error_Some; congruence). lia. }
    rewrite M. cbn [ibind]. rewrite py_nth_nat, N. destruct l as [|a [|b r]]; [reflexivity|easy|reflexivity].
  - intros c rest B.
    assert (M : pick_menu int_of (Some (length l)) [] (c :: rest) = Ans Nothing rest).
    { apply (proj2 (C129_first_line int_of (length l) [] [] _ _ rest eq_refl)). exists [], c. split; [reflexivity|]. split; [easy|]. constructor. exact B. }
    rewrite M. cbn [ibind]. destruct l as [|a [|b r]]; [reflexivity|easy|reflexivity].
Qed.
(** With no entities nothing is asked and nothing picked. *)
Theorem C129_nothing_to_pick {E} `{EqB E} etype tag_of hier show ins : pick_one int_of (E := E) etype tag_of hier show [] ins = Ans None ins.
Proof. reflexivity. Qed.
End Lines.
Print Assumptions C129_groups_by_number.
Print Assumptions C129_words_first.
Print Assumptions C129_item_or_text.
Print Assumptions C129_reference_by_number.

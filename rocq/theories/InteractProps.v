(** C129: menus (interact.py). *)
From Coq Require Import String Ascii ZArith Permutation Sorted Lia.
From Verif Require Import Base PyStr TableModel TableProofs SearchProps InteractModel InteractProofs.
Open Scope string_scope.
Open Scope nat_scope.
Open Scope list_scope.
Local Arguments String.eqb : simpl never.
Local Arguments Ascii.eqb : simpl never.
Local Arguments eqb : simpl never.

(** ** The letters of the options: one each, all different; the first one of the option's text, in capitals, and then of the
    alphabet, that no earlier option has. *)
Theorem C129_letters args menu : menu_letters args = Some menu ->
  length menu = length args /\ NoDup menu
  /\ forall i arg ch, nth_error args i = Some arg -> nth_error menu i = Some ch ->
       exists before after, chars (upper (arg ++ "ABCDEFGHIJKLMNOPQRSTUVWXYZ")) = before ++ ch :: after
         /\ ~ In ch (firstn i menu) /\ (forall c, In c before -> In c (firstn i menu)).
Proof.
  intros E. split; [exact (letters_length _ _ _ E)|]. split; [exact (letters_nodup _ _ _ (NoDup_nil _) E)|].
  intros i arg ch A C. exact (letters_nth args [] menu i arg ch E A C).
Qed.
(** Up to 26 options there is always one. *)
Theorem C129_letters_fit args : length args <= 26 -> exists menu, menu_letters args = Some menu.
Proof. intros L. apply letters_fit; [constructor|exact L]. Qed.
Example C129_letters_witness : menu_letters ["abort"; "add"; "dad"; "2 up"] = Some ["A"; "D"; "B"; "2"]%char.
Proof. vm_compute. reflexivity. Qed.
(** With more the menu may not come up at all: [StopIteration]. *)
Theorem C129_refuted_no_letter : exists args, length args = 27 /\ forall int_of n ins, pick_menu int_of n args ins = Fail XStop.
Proof.
  exists (repeat "A" 27). split; [reflexivity|]. intros. unfold pick_menu.
  replace (menu_letters (repeat "A" 27)) with (@None (list ascii)) by (vm_compute; reflexivity). reflexivity.
Qed.

Section Choice.
Variable int_of : string -> option Z.

(** What one line says in a menu of [k] items and options with these letters. *)
Definition blank (c : string) : Prop := c = "" \/ c = "None".
Inductive says (k : nat) (menu : list ascii) (c : string) : choice -> Prop :=
| SaysNothing : blank c -> says k menu c Nothing
| SaysItem z : ~ blank c -> int_of c = Some z -> (z < Z.of_nat k)%Z -> says k menu c (Item z)
| SaysOption i ch : ~ blank c -> int_of c = None -> nth_error menu i = Some ch -> upper c = String ch "" -> says k menu c (Option i).

Lemma blank_spec c : (String.eqb c "None" || String.eqb c "") = true <-> blank c.
Proof.
  unfold blank. destruct (String.eqb_spec c "None"), (String.eqb_spec c ""); cbn; intuition congruence.
Qed.
Lemma loop_spec k menu ins : NoDup menu ->
  (forall ch rest, pick_loop int_of (Some k) menu ins = Ans ch rest <->
     exists skipped c, ins = skipped ++ c :: rest /\ (forall s x, In s skipped -> ~ says k menu s x) /\ says k menu c ch)
  /\ (forall e, pick_loop int_of (Some k) menu ins = Fail e -> e = XEof /\ forall s x, In s ins -> ~ says k menu s x).
Proof.
  intros N. induction ins as [|c r [IH1 IH2]]; cbn.
  - split; [|intros e [= <-]; easy]. intros ch rest. split; [discriminate|]. intros (s & c & E & _). destruct s; discriminate.
  - assert (U : forall x y, says k menu c x -> says k menu c y -> x = y).
    { intros x y X Y. inversion X as [B|z B I L|i h B I L Q]; inversion Y as [B'|z' B' I' L'|i' h' B' I' L' Q']; subst; try easy; try congruence.
      f_equal. rewrite Q in Q'. injection Q' as <-. apply (proj1 (NoDup_nth_error menu) N); [apply nth_error_Some; congruence|congruence]. }
    assert (One : forall x, says k menu c x -> forall ch rest, (Ans x r = Ans ch rest <->
        exists skipped c0, c :: r = skipped ++ c0 :: rest /\ (forall s x, In s skipped -> ~ says k menu s x) /\ says k menu c0 ch)).
    { intros x X ch rest. split; [intros [= <- <-]; exists [], c; easy|]. intros ([|s sk] & c0 & E & Sk & Y).
      - injection E as <- <-. rewrite (U _ _ X Y). reflexivity.
      - injection E as <- ->. destruct (Sk c x (or_introl eq_refl) X). }
    assert (Skip : (forall x, ~ says k menu c x) ->
       (forall ch rest, pick_loop int_of (Some k) menu r = Ans ch rest <->
         exists skipped c0, c :: r = skipped ++ c0 :: rest /\ (forall s x, In s skipped -> ~ says k menu s x) /\ says k menu c0 ch)
       /\ (forall e, pick_loop int_of (Some k) menu r = Fail e -> e = XEof /\ forall s x, c = s \/ In s r -> ~ says k menu s x)).
    { intros No. split.
      - intros ch rest. rewrite IH1. split.
        + intros (sk & c0 & -> & Sk & Y). exists (c :: sk), c0. split; [reflexivity|]. split; [|exact Y]. intros s x [<- | I]; eauto.
        + intros ([|s sk] & c0 & E & Sk & Y); [injection E as <- <-; destruct (No _ Y)|]. injection E as <- ->.
          exists sk, c0. split; [reflexivity|]. split; [|exact Y]. intros s x I. apply Sk. right. exact I.
      - intros e E. destruct (IH2 e E) as (A & B). split; [exact A|]. intros s x [<- | I]; eauto. }
    destruct (String.eqb c "None" || String.eqb c "") eqn:B.
    + apply blank_spec in B. split; [apply One; constructor; exact B|discriminate].
    + assert (B' : ~ blank c) by (rewrite <- blank_spec; congruence). destruct (int_of c) as [z|] eqn:I.
      * destruct (Z.ltb_spec z (Z.of_nat k)) as [L|L].
        -- split; [apply One; constructor; assumption|discriminate].
        -- apply Skip. intros x X. inversion X; try easy; try congruence. assert (z0 = z) by congruence. lia.
      * destruct (index_of (upper c) menu) as [i|] eqn:X.
        -- apply (index_of_spec _ _ _ N) in X as (ch & X & Y). split; [apply One; econstructor; eassumption|discriminate].
        -- apply Skip. intros x Y. inversion Y as [|? ? I'|i ch ? ? Q1 Q2]; try easy; try congruence.
           exact (index_of_none _ _ X ch (nth_error_In _ _ Q1) Q2).
Qed.
(** The first line that says something decides; lines that say nothing are skipped; the rest is left for what comes next. *)
Theorem C129_first_line k args menu ins ch rest : menu_letters args = Some menu ->
  (pick_menu int_of (Some k) args ins = Ans ch rest <->
     exists skipped c, ins = skipped ++ c :: rest /\ (forall s x, In s skipped -> ~ says k menu s x) /\ says k menu c ch).
Proof.
  intros E. unfold pick_menu. rewrite E. apply (proj1 (loop_spec k menu ins (letters_nodup _ _ _ (NoDup_nil _) E))).
Qed.
(** It goes on asking until then. *)
Theorem C129_keeps_asking k args menu ins e : menu_letters args = Some menu ->
  pick_menu int_of (Some k) args ins = Fail e -> e = XEof /\ forall s x, In s ins -> ~ says k menu s x.
Proof.
  intros E. unfold pick_menu. rewrite E. apply (proj2 (loop_spec k menu ins (letters_nodup _ _ _ (NoDup_nil _) E))).
Qed.
(** Every option whose letter is not a number can be chosen, in either case of the letter. *)
Theorem C129_option_chosen_partial k args menu i ch c rest : menu_letters args = Some menu ->
  nth_error menu i = Some ch -> upper c = String ch "" -> int_of c = None ->
  pick_menu int_of (Some k) args (c :: rest) = Ans (Option i) rest.
Proof.
  intros E N U I. apply (proj2 (C129_first_line k args menu (c :: rest) (Option i) rest E)). exists [], c. split; [reflexivity|]. split; [easy|].
  econstructor; eauto. intros [-> | ->]; discriminate U.
Qed.
(** An option whose letter is a digit cannot be chosen by any input: the digit picks an item. *)
Theorem C129_refuted_digit_option k ins rest : int_of "2" = Some 2%Z ->
  nth_error ["2 up"] 0 = Some "2 up" /\ pick_menu int_of (Some k) ["2 up"] ins <> Ans (Option 0) rest
  /\ pick_menu int_of None ["2 up"] ("2" :: rest) = Fail XType.
Proof.
  intros I. split; [reflexivity|]. split.
  - intros X. destruct (proj1 (C129_first_line k ["2 up"] ["2"%char] ins (Option 0) rest eq_refl) X) as (s & c & _ & _ & Y).
    inversion Y as [| |j h B Q M U]; subst. injection M as <-.
    assert (c = "2"); [|congruence]. destruct c as [|a [|b c]]; try discriminate U. injection U as U. f_equal. clear - U. revert U.
    assert (T : forall a, implb (Ascii.eqb (upper_char a) "2") (Ascii.eqb a "2") = true) by (apply for_all_ascii; vm_compute; reflexivity).
    intros U. specialize (T a). rewrite U in T. cbn in T. rewrite Ascii.eqb_refl in T. apply Ascii.eqb_eq. exact T.
  - cbn. rewrite I. reflexivity.
Qed.

(** ** Picking from a list *)
Lemma py_nth_In {A} (l : list A) z x : py_nth l z = Some x -> In x l.
Proof. unfold py_nth. destruct (Z.leb 0 z); [apply nth_error_In|]. destruct (Z.leb 0 _); [apply nth_error_In|discriminate]. Qed.
Lemma py_nth_nat {A} (l : list A) i : py_nth l (Z.of_nat i) = nth_error l i.
Proof. unfold py_nth. destruct (Z.leb_spec 0 (Z.of_nat i)); [rewrite Nat2Z.id; reflexivity|lia]. Qed.
Lemma menu_ans k args ins ch rest : pick_menu int_of (Some k) args ins = Ans ch rest ->
  (exists used, ins = used ++ rest /\ used <> []) /\ (forall i, ch = Option i -> args <> []) /\ (forall z, ch = Item z -> (z < Z.of_nat k)%Z).
Proof.
  intros E. destruct (menu_letters args) as [menu|] eqn:M; [|unfold pick_menu in E; rewrite M in E; discriminate].
  destruct (proj1 (C129_first_line k args menu ins ch rest M) E) as (s & c & -> & _ & Y). split; [|split].
  - exists (s ++ [c]). rewrite <- app_assoc. split; [reflexivity|]. destruct s; discriminate.
  - intros i ->. inversion Y as [| |j h B Q N U]; subst. intros ->. injection M as <-. destruct i; discriminate.
  - intros z ->. inversion Y; assumption.
Qed.
(** The answer is one of the objects; without an answer nothing was picked, or (the list being empty) there was nothing. *)
Theorem C129_pick_list_partial {E} (show : E -> string) objects ins :
  match pick_list int_of show objects ins with
  | Ans (Some x) rest => In x objects /\ exists used, ins = used ++ rest
  | Ans None rest => length objects <> 1 /\ exists used c, ins = used ++ c :: rest /\ blank c
  | Fail e => e = XEof \/ e = XIndex
  end.
Proof.
  unfold pick_list. set (l := tsort _ objects). assert (P : Permutation l objects) by apply tsort_perm.
  assert (L : length objects <> 1 -> forall x, l <> [x]) by (intros L x X; rewrite X in P; apply Permutation_length in P; cbn in P; lia).
  assert (G : match ibind (pick_menu int_of (Some (length l)) [] ins) (fun c rest => match c with
      | Nothing => Ans None rest | Item z => match py_nth l z with Some x => Ans (Some x) rest | None => Fail XIndex end | Option _ => Fail XType end) with
    | Ans (Some x) rest => In x objects /\ exists used, ins = used ++ rest
    | Ans None rest => exists used c, ins = used ++ c :: rest /\ blank c
    | Fail e => e = XEof \/ e = XIndex end).
  { destruct (pick_menu int_of (Some (length l)) [] ins) as [ch rest|e] eqn:M; cbn [ibind].
    - pose proof (menu_ans _ _ _ _ _ M) as ((used & U & _) & O & _). destruct ch as [|z|i].
      + destruct (proj1 (C129_first_line (length l) [] [] ins Nothing rest eq_refl) M) as (s & c & -> & _ & Y). inversion Y; subst; eauto.
      + destruct (py_nth l z) as [x|] eqn:X; [|auto]. split; [|eauto]. eapply Permutation_in; [exact P|]. eapply py_nth_In. exact X.
      + destruct (O i eq_refl eq_refl).
    - left. exact (proj1 (C129_keeps_asking _ [] [] _ _ eq_refl M)). }
  destruct l as [|x [|y l']] eqn:Q.
  - destruct (ibind _ _) as [[x|] rest|]; auto. split; [apply Permutation_length in P; cbn in P; lia|exact G].
  - split; [eapply Permutation_in; [exact P|left; reflexivity]|exists []; reflexivity].
  - destruct (ibind _ _) as [[z|] rest|]; auto. split; [apply Permutation_length in P; cbn in P; lia|exact G].
Qed.
(** The objects are shown in the order of their texts, and the number of a place picks the object there. *)
Theorem C129_pick_by_number {E} (show : E -> string) objects : exists shown,
  Permutation shown objects /\ Sorted (fun a b => String.leb (show a) (show b) = true) shown
  /\ forall i x c rest, nth_error shown i = Some x -> int_of c = Some (Z.of_nat i) -> ~ blank c -> length objects <> 1 ->
       pick_list int_of show objects (c :: rest) = Ans (Some x) rest.
Proof.
  exists (tsort (fun a b => String.leb (show a) (show b)) objects). split; [apply tsort_perm|]. split.
  - apply (tsort_sorted (fun a b => String.leb (show a) (show b))). intros a b. apply String.leb_total.
  - intros i x c rest N I B L. unfold pick_list. set (l := tsort _ objects) in *. assert (P : Permutation l objects) by apply tsort_perm.
    assert (M : pick_menu int_of (Some (length l)) [] (c :: rest) = Ans (Item (Z.of_nat i)) rest).
    { apply (proj2 (C129_first_line (length l) [] [] _ _ rest eq_refl)). exists [], c. split; [reflexivity|]. split; [easy|].
      constructor; auto. assert (i < length l) by (apply nth_error_Some; congruence). lia. }
    rewrite M. cbn [ibind]. rewrite py_nth_nat, N. destruct l as [|y [|y' l']]; [reflexivity| |reflexivity].
    apply Permutation_length in P. cbn in P. lia.
Qed.
(** A negative number is taken too: it counts from the end, or ends in [IndexError] (also with an empty list). *)
Theorem C129_refuted_negative rest : int_of "-1" = Some (-1)%Z -> int_of "-3" = Some (-3)%Z ->
  pick_list int_of id ["a"; "b"] ("-1" :: rest) = Ans (Some "b") rest
  /\ pick_list int_of id ["a"; "b"] ("-3" :: rest) = Fail XIndex
  /\ pick_list int_of (@id string) [] ("-1" :: rest) = Fail XIndex.
Proof. intros I J. cbn. rewrite I, J. repeat split. Qed.

(** ** Menus without items *)
Lemma loop_none menu ins ch rest : NoDup menu -> pick_loop int_of None menu ins = Ans ch rest ->
  exists used c, ins = used ++ c :: rest /\ ((ch = Nothing /\ blank c) \/ exists i l, ch = Option i /\ nth_error menu i = Some l /\ upper c = String l "").
Proof.
  intros N. induction ins as [|c r IH]; cbn; [discriminate|]. destruct (_ || _) eqn:B.
  - intros [= <- <-]. exists [], c. split; [reflexivity|]. left. split; [reflexivity|]. apply blank_spec. exact B.
  - destruct (int_of c); [discriminate|]. destruct (index_of (upper c) menu) as [i|] eqn:I.
    + intros [= <- <-]. exists [], c. split; [reflexivity|]. right. apply (index_of_spec _ _ _ N) in I as (l & L & U). exists i, l. auto.
    + intros X. destruct (IH X) as (u & c' & -> & Y). exists (c :: u), c'. split; [reflexivity|exact Y].
Qed.
(** The answer is one of the arguments; going up is answered only where it was offered.  ([partial]: an answer may not come at
    all, see [C129_refuted_no_letter], and a number raises [TypeError].) *)
Theorem C129_menu_list_partial args go_up ins :
  match menu_list int_of args go_up ins with
  | Ans (MChoice s) rest => In s args /\ exists used c, ins = used ++ c :: rest /\ String.length c = 1
  | Ans MUp rest => go_up = true
  | Ans MNone rest => exists used c, ins = used ++ c :: rest /\ blank c
  | Fail e => e <> XIndex
  end.
Proof.
  unfold menu_list, pick_menu. set (sorted := tsort String.leb args). assert (P : Permutation sorted args) by apply tsort_perm.
  destruct (menu_letters _) as [menu|] eqn:M; [|discriminate]. cbn [ibind].
  destruct (pick_loop int_of None menu ins) as [ch rest|e] eqn:L; cbn [ibind].
  - apply loop_none in L as (u & c & -> & [(-> & B)|(i & l & -> & I & U)]); [eauto| |exact (letters_nodup _ _ _ (NoDup_nil _) M)].
    apply letters_length in M. cbn [length] in M. rewrite app_length in M.
    assert (K : length menu > i) by (apply nth_error_Some; congruence).
    assert (One : String.length c = 1) by (destruct c as [|a [|b c]]; cbn in U; try discriminate; reflexivity).
    destruct go_up; cbn [andb].
    + destruct (Nat.eqb_spec i (length (sorted ++ ["<go up one level>"]) - 1)) as [->|D]; [reflexivity|].
      rewrite app_length in D. cbn [length] in D, M. rewrite nth_error_app1 by lia.
      destruct (nth_error sorted i) as [s|] eqn:S; [|apply nth_error_None in S; lia]. split; [|eauto].
      eapply Permutation_in; [exact P|]. eapply nth_error_In. exact S.
    + rewrite app_nil_r in *. cbn [length] in M. destruct (nth_error sorted i) as [s|] eqn:S; [|apply nth_error_None in S; lia]. split; [|eauto].
      eapply Permutation_in; [exact P|]. eapply nth_error_In. exact S.
  - clear - L. revert L. induction ins as [|c r IH]; cbn; [intros [= <-]; discriminate|]. destruct (_ || _); [discriminate|].
    destruct (int_of c); [intros [= <-]; discriminate|]. destruct (index_of _ _); [discriminate|exact IH].
Qed.
Theorem C129_refuted_number_in_menu rest : int_of "0" = Some 0%Z -> menu_list int_of ["a"; "b"] true ("0" :: rest) = Fail XType.
Proof. intros I. unfold menu_list, pick_menu. cbn. rewrite I. reflexivity. Qed.

(** ** A choice by words: what comes back is in lower case, and either part of the words offered or a number. *)
Lemma prefixb_spec a b : prefixb a b = true <-> exists t, b = (a ++ t)%string.
Proof.
  revert b. induction a as [|x a IH]; intros b; cbn; [split; [exists b; reflexivity|reflexivity]|]. destruct b as [|y b].
  - split; [discriminate|intros (t & X); discriminate].
  - rewrite Bool.andb_true_iff, IH, Ascii.eqb_eq. split; [intros (-> & t & ->); exists t; reflexivity|intros (t & X); injection X as -> ->; eauto].
Qed.
Lemma infixb_spec a b : infixb a b = true <-> exists s t, b = (s ++ a ++ t)%string.
Proof.
  induction b as [|y b IH]; cbn; rewrite Bool.orb_true_iff, prefixb_spec.
  - split; [intros [(t & X)|X]; [exists "", t; exact X|discriminate]|]. intros (s & t & X). left. destruct s; [eauto|discriminate].
  - rewrite IH. split.
    + intros [(t & X)|(s & t & ->)]; [exists "", t; exact X|exists (String y s), t; reflexivity].
    + intros ([|z s] & t & X); [left; eauto|]. injection X as <- ->. right. eauto.
Qed.
Theorem C129_words valid default ins :
  match cyoa int_of valid default ins with
  | Ans r rest => exists skipped c, ins = skipped ++ c :: rest
      /\ let typed := match default with Some d => if String.eqb c "" then d else c | None => c end in
         r = lower typed /\ ((exists s t, lower valid = (s ++ r ++ t)%string) \/ int_of typed <> None)
  | Fail e => e = XEof
  end.
Proof.
  induction ins as [|c rest IH]; cbn [cyoa]; [reflexivity|].
  set (typed := match default with Some d => if String.eqb c "" then d else c | None => c end).
  destruct (infixb (lower typed) (lower valid)) eqn:X.
  - exists [], c. split; [reflexivity|]. cbn zeta. fold typed. split; [reflexivity|]. left. apply infixb_spec. exact X.
  - destruct (int_of typed) eqn:I; [exists [], c; split; [reflexivity|]; cbn zeta; fold typed; split; [reflexivity|right; congruence]|].
    destruct (cyoa int_of valid default rest) as [r rest'|]; [|exact IH]. destruct IH as (s & c' & -> & Y). exists (c :: s), c'. split; [reflexivity|exact Y].
Qed.
(** An empty line, and any part of the words, is a valid choice; so is a number nobody offered. *)
Theorem C129_refuted_not_offered rest : int_of "17" = Some 17%Z ->
  cyoa int_of "yes / no" None ("" :: rest) = Ans "" rest /\ cyoa int_of "yes / no" None ("s / N" :: rest) = Ans "s / n" rest
  /\ cyoa int_of "yes / no" None ("17" :: rest) = Ans "17" rest.
Proof. intros I. cbn. rewrite I. repeat split. Qed.

(** ** Pairs *)
Theorem C129_pairs kvs k rest d : (forall k v, In (k, v) kvs -> k <> "") ->
  exists d', get_kv_pairs d (flat_map (fun p => [fst p; snd p]) kvs ++ "" :: rest) = Ans d' rest
    /\ dget k d' = match find (fun p => String.eqb k (fst p)) (rev kvs) with Some p => Some (snd p) | None => dget k d end.
Proof.
  revert d. induction kvs as [|[a v] l IH]; intros d N; [exists d; split; reflexivity|].
  cbn [flat_map fst snd app get_kv_pairs]. destruct (String.eqb_spec a "") as [->|Na]; [destruct (N "" v); [left; reflexivity|reflexivity]|].
  destruct (IH (dset a v d)) as (d' & E & G); [intros; eapply N; right; eauto|]. exists d'. split; [exact E|]. rewrite G. cbn [rev].
  assert (F : forall (l1 : list (string * string)) x, find (fun p => String.eqb k (fst p)) (l1 ++ [x]) =
     match find (fun p => String.eqb k (fst p)) l1 with Some p => Some p | None => if String.eqb k (fst x) then Some x else None end).
  { intros l1 x. induction l1 as [|y l1 IHl]; cbn; [reflexivity|]. destruct (String.eqb k (fst y)); [reflexivity|exact IHl]. }
  rewrite F. destruct (find _ (rev l)); [reflexivity|]. cbn [fst snd]. rewrite dget_dset. change (eqb k a) with (String.eqb k a).
  destruct (String.eqb k a); reflexivity.
Qed.
End Choice.
Print Assumptions C129_letters.
Print Assumptions C129_first_line.
Print Assumptions C129_pick_list_partial.
Print Assumptions C129_pick_by_number.
Print Assumptions C129_menu_list_partial.
Print Assumptions C129_words.
Print Assumptions C129_pairs.

(** C113: tables of items. *)
From Coq Require Import String Permutation Sorted.
From Verif Require Import Num Base PyStr TableModel TableProofs.
Open Scope string_scope.
Open Scope list_scope.

(** ** Specification *)
(** The order of tuples of texts: a prefix first, otherwise the first difference decides. *)
Definition tuple_le (a b : list string) : Prop :=
  exists p, (a = p /\ exists q, b = p ++ q) \/
            (exists x y a' b', a = p ++ x :: a' /\ b = p ++ y :: b' /\ x <> y /\ String.leb x y = true).
(** Reading headings: a heading [""] repeats the one above. *)
Fixpoint undo (above h : list string) : list string :=
  match above, h with
  | a :: above', s :: h' => (if eqb s """""" then a else s) :: undo above' h'
  | _, _ => h
  end.
Fixpoint read (above : list string) (hs : list (list string)) : list (list string) :=
  match hs with [] => [] | h :: hs' => undo above h :: read (undo above h) hs' end.

Lemma lex_tuple_le a : forall b, lex_leb a b = true -> tuple_le a b.
Proof.
  induction a as [|x a IH]; intros [|y b] L; cbn in L; try discriminate.
  - exists []. left. split; [reflexivity|]. exists []. reflexivity.
  - exists []. left. split; [reflexivity|]. exists (y :: b). reflexivity.
  - change (String.eqb x y) with (eqb x y) in L. destruct (eqb_spec x y) as [->|N].
    + destruct (IH b L) as [p [[-> [q ->]]|(u & v & a' & b' & -> & -> & ? & ?)]]; exists (y :: p).
      * left. split; [reflexivity|]. exists q. reflexivity.
      * right. exists u, v, a', b'. auto.
    + exists []. right. exists x, y, a, b. auto.
Qed.
Lemma map_nth_seq {A} (d : A) l : map (fun i => nth i l d) (seq 0 (length l)) = l.
Proof.
  apply nth_error_ext. intros i. destruct (Nat.lt_ge_cases i (length l)) as [L|L].
  - rewrite (map_nth_error _ i (seq 0 (length l)) (d := i)).
    + symmetry. apply nth_error_nth'. exact L.
    + rewrite (nth_error_nth' _ 0) by (rewrite seq_length; exact L). rewrite seq_nth by exact L. reflexivity.
  - rewrite !(proj2 (nth_error_None _ _)); auto. rewrite map_length, seq_length. exact L.
Qed.
Lemma nth_error_combine {A B} (l : list A) : forall (m : list B) i a b, nth_error l i = Some a -> nth_error m i = Some b -> nth_error (combine l m) i = Some (a, b).
Proof. induction l as [|x l IH]; intros [|y m] [|i] a b E F; cbn in *; try discriminate; [congruence|]. apply IH; auto. Qed.

Section Table.
Context {Item K : Type} `{EqB K}.
Variable str : K -> string.
Variable crit : Item -> bool.
Variable pull : Item -> list K.
Variable note_of : Item -> string.
Variable near : nat.

Notation tab cols := (build crit pull note_of cols).
(** The accepted items of a column with the given row *)
Notation items_of r col := (filter (fun x => crit x && eqb (pull x) r) col).
Definition is_row (cols : list (list Item)) (r : list K) : Prop := exists col x, In col cols /\ In x col /\ crit x = true /\ pull x = r.

Definition hdr (prev : option (list K)) (r : list K) : list string :=
  match prev with Some p => map (fun ab => if eqb (fst ab) (snd ab) then ditto else str (snd ab)) (combine p r) | None => map str r end.
Lemma near_header_ok prev r : length r = near -> (forall p, prev = Some p -> length p = near) -> near_header str near r prev = TOk (hdr prev r).
Proof.
  intros L P. unfold near_header.
  assert (LH : length (hdr prev r) = near). { unfold hdr. destruct prev as [p|]; rewrite map_length; [rewrite combine_length, (P p eq_refl), L; apply Nat.min_id|exact L]. }
  rewrite (tmap_ok _ (fun i => nth i (hdr prev r) "")); [rewrite <- LH at 1; rewrite map_nth_seq; reflexivity|].
  intros i J. apply in_seq in J. unfold near_cell.
  destruct (nth_error r i) as [b|] eqn:EB; [|apply nth_error_None in EB; lia].
  destruct prev as [p|].
  - specialize (P p eq_refl). destruct (nth_error p i) as [a|] eqn:EA; [|apply nth_error_None in EA; lia].
    f_equal. symmetry. apply nth_error_nth. unfold hdr.
    rewrite (map_nth_error _ i _ (nth_error_combine _ _ _ _ _ EA EB)). reflexivity.
  - f_equal. symmetry. apply nth_error_nth. unfold hdr. apply map_nth_error. exact EB.
Qed.
Lemma undo_hdr p r : length p = length r -> ~ In ditto (map str r) -> undo (map str p) (hdr (Some p) r) = map str r.
Proof.
  revert p. induction r as [|b r IH]; intros [|a p] L N; cbn in L; try discriminate; [reflexivity|]. cbn.
  change (String.eqb) with (@eqb string _). cbn in N. destruct (eqb_spec a b) as [->|NE].
  - rewrite (eqb_refl ditto : eqb ditto """""" = true). f_equal. apply IH; [lia|tauto].
  - destruct (eqb_spec (str b) """""") as [E|_]; [exfalso; apply N; left; exact E|]. f_equal. apply IH; [lia|tauto].
Qed.
Lemma undo_nil h : undo [] h = h.
Proof. reflexivity. Qed.

Lemma is_row_In cols r : is_row cols r <-> In r (t_rows (tab cols)).
Proof.
  rewrite (ti_rows _ _ _ _ _ (tinv_build crit pull note_of cols)). unfold is_row, accepted. split.
  - intros (col & x & C & X & A & E). exists x. split; [|exact E]. apply filter_In. split; [|exact A]. apply in_concat. eauto.
  - intros (x & X & E). apply filter_In in X as [X A]. apply in_concat in X as [col [C X]]. exists col, x. auto.
Qed.
Lemma cells_ok {D} (extract : list Item -> D) cols r :
  map (fun i => extract (cell (tab cols) r i)) (seq 0 (length (t_cols (tab cols)))) = map (fun col => extract (items_of r col)) cols.
Proof.
  pose proof (tinv_build crit pull note_of cols) as I. rewrite (ti_cols _ _ _ _ _ I).
  apply nth_error_ext. intros i. destruct (nth_error cols i) as [col|] eqn:E.
  - rewrite (map_nth_error _ i cols E).
    assert (L : i < length cols) by (apply nth_error_Some; congruence).
    rewrite (map_nth_error _ i (seq 0 (length cols)) (d := i)).
    + rewrite (ti_cell _ _ _ _ _ I r i col E). reflexivity.
    + rewrite (nth_error_nth' _ 0) by (rewrite seq_length; exact L). rewrite seq_nth by exact L. reflexivity.
  - apply nth_error_None in E. rewrite !(proj2 (nth_error_None _ _)); auto; rewrite map_length; [|rewrite seq_length]; exact E.
Qed.
Lemma find_filter (P Q : Item -> bool) l : find Q (filter P l) = find (fun x => P x && Q x) l.
Proof. induction l as [|a l IH]; cbn; [reflexivity|]. destruct (P a); cbn; [destruct (Q a); auto|exact IH]. Qed.
Lemma note_ok cols r : is_row cols r -> exists x, find (fun x => crit x && eqb (pull x) r) (concat cols) = Some x /\ note (tab cols) r = note_of x.
Proof.
  intros (col & y & C & Y & A & E). pose proof (tinv_build crit pull note_of cols) as I.
  pose proof (ti_notes _ _ _ _ _ I r) as N. unfold accepted in N. rewrite find_filter in N.
  destruct (find (fun x => crit x && eqb (pull x) r) (concat cols)) as [x|] eqn:F.
  - exists x. split; [reflexivity|]. unfold note. rewrite N. reflexivity.
  - exfalso. assert (G : crit y && eqb (pull y) r = false) by (apply (find_none _ _ F y); apply in_concat; eauto).
    rewrite A, E, eqb_refl in G. discriminate G.
Qed.

(** Every table, whatever columns it was built from and in whatever order the set of its rows is visited, prints one line for
    each row that some accepted item has, and for no other, in the order of the rows' texts; read with "repeat the one above"
    for [""], the headings are the rows' texts; each cell is made of exactly the accepted items of that column with that row,
    in the column's order; the note is that of the first such item. *)
Theorem C113_table {D} (extract : list Item -> D) : forall cols rows,
  Permutation rows (t_rows (tab cols)) ->
  (forall r, is_row cols r -> length r = near /\ ~ In """""" (map str r)) ->
  exists rs ls, lines str near extract (tab cols) rows = TOk ls
    /\ NoDup rs /\ (forall r, In r rs <-> is_row cols r) /\ Sorted (fun a b => tuple_le (map str a) (map str b)) rs
    /\ read [] (map l_near ls) = map (map str) rs
    /\ Forall2 (fun r l => l_vals l = map (fun col => extract (items_of r col)) cols
         /\ exists x, find (fun x => crit x && eqb (pull x) r) (concat cols) = Some x /\ l_note l = note_of x) rs ls.
Proof.
  intros cols rows P W. pose proof (tinv_build crit pull note_of cols) as I.
  set (rs := sorted_rows str rows).
  assert (PR : Permutation rs (t_rows (tab cols))). { unfold rs, sorted_rows. rewrite tsort_perm. exact P. }
  assert (IR : forall r, In r rs <-> is_row cols r). { intros r. rewrite is_row_In. split; apply Permutation_in; [exact PR|symmetry; exact PR]. }
  assert (G : forall l prev, (forall r, In r l -> is_row cols r) -> (forall p, prev = Some p -> is_row cols p) ->
    exists ls, lines_from str near extract (tab cols) prev l = TOk ls
      /\ read (match prev with Some p => map str p | None => [] end) (map l_near ls) = map (map str) l
      /\ Forall2 (fun r l => l_vals l = map (fun col => extract (items_of r col)) cols
         /\ exists x, find (fun x => crit x && eqb (pull x) r) (concat cols) = Some x /\ l_note l = note_of x) l ls).
  { induction l as [|r l IH]; intros prev A B; cbn [lines_from].
    - exists []. repeat split; constructor.
    - assert (R : is_row cols r) by (apply A; left; reflexivity). destruct (W r R) as [LR DR].
      unfold build_row. rewrite near_header_ok; [|exact LR|intros p E; apply W; apply B; exact E]. cbn [tbind].
      destruct (IH (Some r)) as (ls & E1 & E2 & E3); [intros; apply A; right; auto|intros p E; injection E as <-; exact R|].
      rewrite E1. cbn [tbind]. eexists. split; [reflexivity|]. cbn [map l_near read].
      assert (UN : undo (match prev with Some p => map str p | None => [] end) (hdr prev r) = map str r).
      { destruct prev as [p|]; [|reflexivity]. apply undo_hdr; [|exact DR]. rewrite LR. apply W. apply B. reflexivity. }
      rewrite UN, E2. split; [reflexivity|]. constructor; [|exact E3]. cbn [l_vals l_note]. split; [apply cells_ok|]. apply note_ok. exact R. }
  destruct (G rs None) as (ls & E1 & E2 & E3); [apply IR|discriminate|].
  exists rs, ls. split; [exact E1|]. split; [eapply Permutation_NoDup; [symmetry; exact PR|apply (ti_nodup _ _ _ _ _ I)]|]. split; [exact IR|].
  split; [|split; [exact E2|exact E3]].
  assert (S := tsort_sorted (row_leb str) (fun a b => lex_total (map str a) (map str b)) rows). fold (sorted_rows str rows) in S. fold rs in S.
  clear - S. induction S as [|a l S IH HD]; constructor; auto. destruct HD as [|b m HB]; constructor. apply lex_tuple_le. exact HB.
Qed.
(** *** Several lines for a row *)
Section Sets.
Context {V : Type}.
Variable extract : list Item -> dict string V.
Definition datum (r : list K) (col : list Item) : dict string V := extract (items_of r col).

Lemma last_but_one_some k : 2 <= String.length k -> exists s, last_but_one k = Some s.
Proof. intros L. unfold last_but_one. destruct (Nat.ltb_spec (String.length k) 2); [lia|]. eauto. Qed.
Lemma key_total a b : key_leb a b = true \/ key_leb b a = true.
Proof. unfold key_leb. destruct (last_but_one a), (last_but_one b); auto. apply String.leb_total. Qed.
Lemma sub_lines_spec (h : list string) n (ds : list (dict string V)) ks :
  map s_key (sub_lines near h n ds ks) = ks /\ (forall s, In s (sub_lines near h n ds ks) -> s_vals s = map (dget (s_key s)) ds)
  /\ match sub_lines near h n ds ks with [] => True | s :: rest => s_near s = h /\ s_note s = n /\ Forall (fun s => s_near s = repeat "" near /\ s_note s = "") rest end.
Proof.
  revert h n. induction ks as [|k ks IH]; intros h n; cbn [sub_lines map]; [repeat split; intros s []|].
  destruct (IH (repeat "" near) "") as (A & B & C). split; [cbn [map s_key]; f_equal; exact A|]. split.
  - intros s [<-|J]; [reflexivity|apply B; exact J].
  - split; [reflexivity|]. split; [reflexivity|]. destruct (sub_lines near (repeat "" near) "" ds ks) as [|s r]; constructor; [tauto|]. apply C.
Qed.

(** As a data frame, a table whose cells hold several values prints for each row - in the same order - one line for each key
    that some column has for that row, and for no other, with the value of each column that has it; the first of these lines
    carries the row's texts and the note, the others blanks. *)
Theorem C113_frame : forall cols rows,
  Permutation rows (t_rows (tab cols)) ->
  (forall r, is_row cols r -> length r = near) ->
  (forall r col k, In col cols -> In k (dkeys (datum r col)) -> 2 <= String.length k) ->
  exists rs ls, frame_lines str near extract (tab cols) rows = TOk ls
    /\ NoDup rs /\ (forall r, In r rs <-> is_row cols r) /\ Sorted (fun a b => tuple_le (map str a) (map str b)) rs
    /\ Forall2 (fun r sub =>
         NoDup (map s_key sub) /\ (forall k, In k (map s_key sub) <-> exists col, In col cols /\ In k (dkeys (datum r col)))
         /\ (forall s, In s sub -> s_vals s = map (fun col => dget (s_key s) (datum r col)) cols)
         /\ match sub with
            | [] => True
            | s :: rest => s_near s = map str r /\ (exists x, find (fun x => crit x && eqb (pull x) r) (concat cols) = Some x /\ s_note s = note_of x)
                           /\ Forall (fun s => s_near s = repeat "" near /\ s_note s = "") rest
            end) rs ls.
Proof.
  intros cols rows P W KL. pose proof (tinv_build crit pull note_of cols) as I.
  set (rs := sorted_rows str rows).
  assert (PR : Permutation rs (t_rows (tab cols))). { unfold rs, sorted_rows. rewrite tsort_perm. exact P. }
  assert (IR : forall r, In r rs <-> is_row cols r). { intros r. rewrite is_row_In. split; apply Permutation_in; [exact PR|symmetry; exact PR]. }
  set (g := fun r => sub_lines near (map str r) (note (tab cols) r) (map (datum r) cols) (tsort key_leb (keys_of (map (datum r) cols)))).
  assert (BR : forall r, is_row cols r -> build_rows str near extract (tab cols) None r = TOk (g r)).
  { intros r R. unfold build_rows. rewrite near_header_ok; [|apply W; exact R|discriminate]. cbn [tbind hdr]. rewrite (cells_ok extract).
    change (map (fun col => extract (items_of r col)) cols) with (map (datum r) cols).
    unfold sort_keys. rewrite (proj2 (forallb_forall _ _)); [reflexivity|]. intros k J. unfold keys_of in J. rewrite In_set_of in J.
    apply in_flat_map in J as [d [J JK]]. apply in_map_iff in J as [col [<- J]]. destruct (last_but_one_some k) as [s ->]; [|reflexivity]. eapply KL; eauto. }
  exists rs, (map g rs). split; [|split; [eapply Permutation_NoDup; [symmetry; exact PR|apply (ti_nodup _ _ _ _ _ I)]|]; split; [exact IR|]; split].
  - unfold frame_lines. apply tmap_ok. intros r J. apply BR, IR, J.
  - assert (S := tsort_sorted (row_leb str) (fun a b => lex_total (map str a) (map str b)) rows). fold (sorted_rows str rows) in S. fold rs in S.
    clear - S. induction S as [|a l S IH HD]; constructor; auto. destruct HD as [|b m HB]; constructor. apply lex_tuple_le. exact HB.
  - assert (F : forall l, (forall r, In r l -> is_row cols r) -> Forall2 (fun r sub =>
         NoDup (map s_key sub) /\ (forall k, In k (map s_key sub) <-> exists col, In col cols /\ In k (dkeys (datum r col)))
         /\ (forall s, In s sub -> s_vals s = map (fun col => dget (s_key s) (datum r col)) cols)
         /\ match sub with
            | [] => True
            | s :: rest => s_near s = map str r /\ (exists x, find (fun x => crit x && eqb (pull x) r) (concat cols) = Some x /\ s_note s = note_of x)
                           /\ Forall (fun s => s_near s = repeat "" near /\ s_note s = "") rest
            end) l (map g l)); [|apply F, IR].
    induction l as [|r l IH]; intros A; cbn [map]; constructor; [|apply IH; intros; apply A; right; auto].
    destruct (sub_lines_spec (map str r) (note (tab cols) r) (map (datum r) cols) (tsort key_leb (keys_of (map (datum r) cols)))) as (S1 & S2 & S3).
    fold (g r) in S1, S2, S3. rewrite S1. split; [|split; [|split]].
    + eapply Permutation_NoDup; [symmetry; apply tsort_perm|]. apply NoDup_set_of.
    + intros k. split.
      * intros J. apply (Permutation_in _ (tsort_perm _ _)) in J. unfold keys_of in J. rewrite In_set_of in J. apply in_flat_map in J as [d [J JK]].
        apply in_map_iff in J as [col [<- J]]. eauto.
      * intros [col [J JK]]. apply (Permutation_in _ (Permutation_sym (tsort_perm _ _))). unfold keys_of. rewrite In_set_of. apply in_flat_map.
        exists (datum r col). split; [apply in_map; exact J|exact JK].
    + intros s J. rewrite (S2 s J), map_map. reflexivity.
    + destruct (g r) as [|s rest]; [exact Logic.I|]. destruct S3 as (H1 & H2 & H3). split; [exact H1|]. split; [|exact H3].
      rewrite H2. apply note_ok. apply A. left; reflexivity.
Qed.
End Sets.
End Table.
Print Assumptions C113_table.
Print Assumptions C113_frame.

From Coq Require Import String Permutation Sorted.
From Verif Require Import Num Base PyStr TableModel.
Open Scope string_scope.
Open Scope list_scope.

(** * Sorting *)
Section Sort.
Context {A : Type} (leb : A -> A -> bool).
Hypothesis total : forall a b, leb a b = true \/ leb b a = true.
Lemma tinsert_perm a l : Permutation (tinsert leb a l) (a :: l).
Proof. induction l as [|b l IH]; cbn; [reflexivity|]. destruct (leb a b); [reflexivity|]. rewrite IH. apply perm_swap. Qed.
Lemma tsort_perm l : Permutation (tsort leb l) l.
Proof. induction l as [|a l IH]; cbn; [reflexivity|]. rewrite tinsert_perm. constructor. exact IH. Qed.
Lemma tinsert_sorted a l : Sorted (fun a b => leb a b = true) l -> Sorted (fun a b => leb a b = true) (tinsert leb a l).
Proof.
  induction l as [|b l IH]; intros S; cbn; [repeat constructor|]. destruct (leb a b) eqn:E; [constructor; [exact S|constructor; exact E]|].
  inversion S as [|? ? S1 S2]; subst. constructor; [apply IH; exact S1|].
  assert (B : leb b a = true) by (destruct (total a b); congruence).
  destruct l as [|c l]; cbn; [constructor; exact B|]. destruct (leb a c); constructor; [exact B|]. inversion S2; assumption.
Qed.
Lemma tsort_sorted l : Sorted (fun a b => leb a b = true) (tsort leb l).
Proof. induction l as [|a l IH]; cbn; [constructor|]. apply tinsert_sorted, IH. Qed.
End Sort.
Lemma lex_total a : forall b, lex_leb a b = true \/ lex_leb b a = true.
Proof.
  induction a as [|x a IH]; intros [|y b]; cbn; auto. change (String.eqb x y) with (eqb x y). change (String.eqb y x) with (eqb y x).
  rewrite (eqb_sym y x). destruct (eqb_spec x y) as [->|N]; [apply IH|]. apply String.leb_total.
Qed.
Lemma tmap_ok {A B} (f : A -> tres B) (g : A -> B) l : (forall a, In a l -> f a = TOk (g a)) -> tmap f l = TOk (map g l).
Proof.
  induction l as [|a l IH]; intros HF; cbn; [reflexivity|]. rewrite HF by (left; reflexivity). cbn. rewrite IH by (intros; apply HF; right; auto). reflexivity.
Qed.

Section Table.
Context {Item K D : Type} `{EqB K}.
Variable str : K -> string.
Variable crit : Item -> bool.
Variable pull : Item -> list K.
Variable note_of : Item -> string.
Variable near : nat.

(** What the table should hold: the accepted items of a column with a row; the accepted items of all columns. *)
Definition in_row (r : list K) (x : Item) : bool := crit x && eqb (pull x) r.
Definition accepted (cols : list (list Item)) : list Item := filter crit (concat cols).

Record tinv (cols : list (list Item)) (t : @table Item K) : Prop := {
  ti_cols : t_cols t = cols;
  ti_cell : forall r i col, nth_error cols i = Some col -> cell t r i = filter (in_row r) col;
  ti_none : forall r i, length cols <= i -> cell t r i = [];
  ti_rows : forall r, In r (t_rows t) <-> exists x, In x (accepted cols) /\ pull x = r;
  ti_nodup : NoDup (t_rows t);
  ti_notes : forall r, dget r (t_notes t) = option_map note_of (find (fun x => eqb (pull x) r) (accepted cols)) }.

(** One column, item by item *)
Lemma add_items cols i l : forall t done,
  i = length cols ->
  t_cols t = cols ->
  (forall r j col, nth_error cols j = Some col -> cell t r j = filter (in_row r) col) ->
  (forall r j, i < j -> cell t r j = []) ->
  (forall r, cell t r i = filter (fun x => eqb (pull x) r) done) ->
  (forall r, In r (t_rows t) <-> exists x, In x (accepted cols ++ done) /\ pull x = r) -> NoDup (t_rows t) ->
  (forall r, dget r (t_notes t) = option_map note_of (find (fun x => eqb (pull x) r) (accepted cols ++ done))) ->
  let t' := fold_left (add_rowitem pull note_of i) l t in
  t_cols t' = cols
  /\ (forall r j col, nth_error cols j = Some col -> cell t' r j = filter (in_row r) col)
  /\ (forall r j, i < j -> cell t' r j = [])
  /\ (forall r, cell t' r i = filter (fun x => eqb (pull x) r) (done ++ l))
  /\ (forall r, In r (t_rows t') <-> exists x, In x (accepted cols ++ done ++ l) /\ pull x = r) /\ NoDup (t_rows t')
  /\ (forall r, dget r (t_notes t') = option_map note_of (find (fun x => eqb (pull x) r) (accepted cols ++ done ++ l))).
Proof.
  induction l as [|x l IH]; intros t done EI TC OLD NEW CUR ROWS ND NOTES; cbn [fold_left].
  - rewrite app_nil_r. repeat split; auto; apply ROWS.
  - assert (CL : forall r j, cell (add_rowitem pull note_of i t x) r j = if eqb (r, j) (pull x, i) then cell t (pull x) i ++ [x] else cell t r j).
    { intros r j. unfold cell at 1. unfold add_rowitem. cbn [t_d]. rewrite dget_dset. destruct (eqb (r, j) (pull x, i)); reflexivity. }
    assert (FA : forall (P : Item -> bool) l1 l2, find P (l1 ++ l2) = match find P l1 with Some y => Some y | None => find P l2 end).
    { intros P l1 l2. induction l1 as [|a l1 IH']; cbn; [reflexivity|]. destruct (P a); auto. }
    destruct (IH (add_rowitem pull note_of i t x) (done ++ [x])) as (R1 & R2 & R3 & R4 & R5 & R6 & R7); auto.
    + intros r j col J. rewrite CL. destruct (eqb_spec (r, j) (pull x, i)) as [E|]; [|apply OLD; exact J].
      injection E as -> ->. exfalso. assert (nth_error cols i <> None) by congruence. apply nth_error_Some in H0. lia.
    + intros r j J. rewrite CL. destruct (eqb_spec (r, j) (pull x, i)) as [E|]; [|apply NEW; exact J]. injection E as _ E. lia.
    + intros r. rewrite CL, filter_app. cbn [filter]. destruct (eqb_spec (r, i) (pull x, i)) as [E|NE].
      * injection E as ->. rewrite eqb_refl, CUR. reflexivity.
      * destruct (eqb_spec (pull x) r) as [<-|]; [congruence|]. rewrite app_nil_r. apply CUR.
    + intros r. unfold add_rowitem. cbn [t_rows]. rewrite In_set_add, ROWS. split.
      * intros [->|[y [J E]]]; [exists x|exists y]; split; auto; rewrite !in_app_iff in *; cbn; intuition.
      * intros [y [J E]]. rewrite !in_app_iff in J. destruct J as [J|[J|[<-|[]]]]; auto; right; exists y; rewrite in_app_iff; auto.
    + unfold add_rowitem. cbn [t_rows]. apply NoDup_set_add. exact ND.
    + intros r. rewrite app_assoc, FA. cbn [find]. unfold add_rowitem. cbn [t_notes]. unfold din. rewrite (NOTES (pull x)).
      destruct (find (fun x0 => eqb (pull x0) (pull x)) (accepted cols ++ done)) as [y|] eqn:E; cbn [option_map].
      * rewrite NOTES. destruct (find (fun x0 => eqb (pull x0) r) (accepted cols ++ done)) as [z|] eqn:E2; [reflexivity|].
        destruct (eqb_spec (pull x) r) as [E3|]; [rewrite <- E3 in E2; congruence|reflexivity].
      * rewrite dget_dset, (eqb_sym r (pull x)). destruct (eqb_spec (pull x) r) as [E3|].
        -- rewrite <- E3, E. reflexivity.
        -- rewrite NOTES. destruct (find (fun x0 => eqb (pull x0) r) (accepted cols ++ done)); reflexivity.
    + rewrite <- !app_assoc in R4, R5, R7. cbn [app] in R4, R5, R7. repeat split; auto; apply R5.
Qed.
Lemma filter_filter (P Q : Item -> bool) l : filter P (filter Q l) = filter (fun x => Q x && P x) l.
Proof. induction l as [|a l IH]; cbn; [reflexivity|]. destruct (Q a); cbn; [destruct (P a); rewrite IH; reflexivity|exact IH]. Qed.
Lemma tinv_add cols t col : tinv cols t -> tinv (cols ++ [col]) (add_column crit pull note_of t col).
Proof.
  intros [TC CE NO RO ND NT].
  destruct (add_items cols (length cols) (filter crit col) t []) as (R1 & R2 & R3 & R4 & R5 & R6 & R7).
  - reflexivity.
  - exact TC.
  - exact CE.
  - intros r j J. apply NO. lia.
  - intros r. cbn. apply NO. lia.
  - rewrite app_nil_r. exact RO.
  - exact ND.
  - rewrite app_nil_r. exact NT.
  - cbn [app] in *. unfold add_column, generate. rewrite TC.
    assert (AC : accepted (cols ++ [col]) = accepted cols ++ filter crit col).
    { unfold accepted. rewrite concat_app, filter_app. cbn. rewrite app_nil_r. reflexivity. }
    constructor; cbn [t_cols t_rows t_notes].
    + rewrite R1. reflexivity.
    + intros r i c J. unfold cell. cbn [t_d]. fold (cell (fold_left (add_rowitem pull note_of (length cols)) (filter crit col) t) r i).
      destruct (Nat.lt_ge_cases i (length cols)) as [L|L].
      * rewrite nth_error_app1 in J by exact L. apply R2. exact J.
      * rewrite nth_error_app2 in J by exact L. destruct (i - length cols) as [|n] eqn:E; [|destruct n; discriminate].
        injection J as <-. assert (i = length cols) as -> by lia. rewrite R4, filter_filter. reflexivity.
    + intros r i L. rewrite app_length in L. cbn in L. unfold cell. cbn [t_d]. apply R3. lia.
    + rewrite AC. exact R5.
    + exact R6.
    + rewrite AC. exact R7.
Qed.
Lemma tinv_build cols : tinv cols (build crit pull note_of cols).
Proof.
  unfold build. assert (G : forall l done t, tinv done t -> tinv (done ++ l) (fold_left (add_column crit pull note_of) l t)).
  { induction l as [|c l IH]; intros done t I; cbn [fold_left]; [rewrite app_nil_r; exact I|].
    replace (done ++ c :: l) with ((done ++ [c]) ++ l) by (rewrite <- app_assoc; reflexivity). apply IH, tinv_add, I. }
  apply (G cols [] empty_table). constructor; cbn; auto.
  - intros r i col J. destruct i; discriminate.
  - intros r. split; [intros []|intros [x [[] _]]].
  - constructor.
Qed.
End Table.

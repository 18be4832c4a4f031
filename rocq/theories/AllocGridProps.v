(** C127: the allocation grid accounts for the inventories. *)
From Coq Require Import String Permutation Sorted.
From Verif Require Import Num Base PyStr TableModel TableProofs TableProps AllocGridModel AllocGridProofs.
Open Scope string_scope.
Open Scope list_scope.

(** ** Specification *)
(** What a column must show: the row, the text of the line and the number.  A process's column shows, as it is and for each
    reference flow, the non-reference exchanges of that inventory that have a value, under the name of their supplier if the
    archive knows it and of the flow otherwise; and the number 1 for each of the references concerned. *)
Definition row_of (ref : bool) (x : ax) : list string := [if ref then "0" else "1"; x_dir x; String.concat "; " (x_comp x); x_name x].
Definition line_text (ar : string -> option string) (x : ax) : string :=
  (x_unit x ++ " " ++ match x_term x with Some t => match ar t with Some name => name | None => x_fstr x end | None => x_fstr x end)%string.
Definition entries (ar : string -> option string) (p : aproc) (f : option nat) : list (list string * string * Qc) :=
  flat_map (fun x => match x_isref x, x_value x with false, Some v => [(row_of false x, line_text ar x, v)] | _, _ => [] end) (a_inv p f)
  ++ map (fun r => (row_of true r, (x_unit r ++ " " ++ x_fstr r)%string, Q2Qc 1)) (references p f).
(** A column is shown if the inventory has a non-reference exchange with a value. *)
Definition shown (p : aproc) (f : option nat) : Prop := exists x v, In x (a_inv p f) /\ x_isref x = false /\ x_value x = Some v.
(** The number of a line in a column: the sum of the entries with that row and text, nothing if there are none *)
Definition number (es : list (list string * string * Qc)) (r : list string) (k : string) : option Qc :=
  match filter (fun e => eqb (fst (fst e)) r && eqb (snd (fst e)) k) es with [] => None | l => Some (Qcsum (map snd l)) end.
Definition row_total (es : list (list string * string * Qc)) (r : list string) : Qc := Qcsum (map snd (filter (fun e => eqb (fst (fst e)) r) es)).

(** ** Proofs *)
Lemma line_text_key ar x : line_text ar x = ag_key ar x.
Proof. unfold line_text, ag_key. destruct (x_term x) as [t|]; [destruct (ar t)|]; reflexivity. Qed.
Definition entry_of (ar : string -> option string) (c : gcell) : list (list string * string * Qc) :=
  match x_value (fst c) with Some v => [(ag_pull c, ag_key ar (fst c), v)] | None => [] end.
Lemma entries_items ar p f : entries ar p f = flat_map (entry_of ar) (col_items p f).
Proof.
  unfold entries, col_items. rewrite flat_map_app. f_equal.
  - unfold ag_items, ag_generate. induction (a_inv p f) as [|x l IH]; [reflexivity|]. cbn [flat_map filter].
    rewrite IH. destruct (x_isref x); cbn [negb filter]; [reflexivity|].
    destruct (x_value x) as [v|] eqn:E; [|reflexivity]. cbn [map flat_map]. f_equal. unfold entry_of. cbn [fst snd]. rewrite E, line_text_key. reflexivity.
  - induction (references p f) as [|r l IH]; [reflexivity|]. cbn [map flat_map]. rewrite IH. reflexivity.
Qed.
Lemma items_valued p f c : In c (col_items p f) -> exists v, x_value (fst c) = Some v.
Proof.
  unfold col_items. rewrite in_app_iff. intros [J|J].
  - unfold ag_items in J. apply in_map_iff in J as [x [<- J]]. apply filter_In in J as [_ J]. cbn. destruct (x_value x); [eauto|discriminate].
  - apply in_map_iff in J as [r [<- _]]. cbn. eauto.
Qed.
Lemma col_made_shown p f : col_made p f = true <-> shown p f.
Proof.
  unfold col_made, shown, ag_items. destruct (map (fun x => (x, false)) _) as [|c l] eqn:E.
  - split; [discriminate|]. intros (x & v & J & R & V). apply map_eq_nil in E.
    assert (F : In x []); [|destruct F]. rewrite <- E. apply filter_In. rewrite V. split; [|reflexivity]. apply filter_In. rewrite R. auto.
  - split; [|reflexivity]. intros _. assert (J : In c (c :: l)) by (left; reflexivity). rewrite <- E in J. apply in_map_iff in J as [x [_ J]].
    apply filter_In in J as [J V]. apply filter_In in J as [J R]. destruct (x_value x) as [v|] eqn:EV; [|discriminate].
    exists x, v. repeat split; auto. destruct (x_isref x); [discriminate|reflexivity].
Qed.

(** The dictionary of a cell *)
Definition keyed (es : list (list string * string * Qc)) (k : string) : list Qc := map snd (filter (fun e => eqb (snd (fst e)) k) es).
Lemma put_number ar k cs : forall d,
  dget k (fold_left (ag_put ar) cs d) = match keyed (flat_map (entry_of ar) cs) k with [] => dget k d | l => Some (gget k d + Qcsum l)%Qc end.
Proof.
  induction cs as [|c cs IH]; intros d; [reflexivity|]. cbn [fold_left flat_map]. rewrite IH.
  unfold keyed. rewrite filter_app, map_app. unfold ag_put, entry_of. destruct (x_value (fst c)) as [v|]; [|reflexivity].
  cbn [filter fst snd]. destruct (eqb_spec (ag_key ar (fst c)) k) as [<-|N].
  - cbn [map app snd]. unfold gget, gadd. rewrite dget_dset, eqb_refl.
    destruct (map snd (filter _ (flat_map _ cs))) as [|w l] eqn:E.
    + f_equal. unfold Qcsum. cbn. unfold gget. ring.
    + f_equal. unfold Qcsum. cbn [fold_right]. unfold gget. ring.
  - cbn [map app]. unfold gget, gadd. rewrite !dget_dset. destruct (eqb_spec k (ag_key ar (fst c))) as [E|_]; [congruence|]. reflexivity.
Qed.
Lemma filter_entries ar r l : flat_map (entry_of ar) (filter (fun c => yes c && eqb (ag_pull c) r) l) = filter (fun e => eqb (fst (fst e)) r) (flat_map (entry_of ar) l).
Proof.
  induction l as [|c l IH]; [reflexivity|]. cbn [filter flat_map]. unfold yes at 1. cbn [andb]. rewrite filter_app.
  assert (E : filter (fun e : list string * string * Qc => eqb (fst (fst e)) r) (entry_of ar c) = if eqb (ag_pull c) r then entry_of ar c else []).
  { unfold entry_of. destruct (x_value (fst c)); cbn [filter fst]; destruct (eqb (ag_pull c) r); reflexivity. }
  rewrite E. destruct (eqb (ag_pull c) r); cbn [flat_map app]; rewrite IH; reflexivity.
Qed.
Lemma filter_two {A} (f g : A -> bool) l : filter g (filter f l) = filter (fun a => f a && g a) l.
Proof. induction l as [|a l IH]; [reflexivity|]. cbn. destruct (f a); cbn; [destruct (g a); rewrite IH; reflexivity|exact IH]. Qed.
Lemma cell_number ar p f r k : dget k (ag_extract ar (filter (fun c => yes c && eqb (ag_pull c) r) (col_items p f))) = number (entries ar p f) r k.
Proof.
  unfold ag_extract. rewrite put_number, filter_entries, <- entries_items. unfold keyed, number. rewrite filter_two.
  destruct (filter _ (entries ar p f)) as [|e l]; [reflexivity|]. cbn [map]. f_equal. unfold gget. cbn [dget]. apply Qcplus_0_l.
Qed.
Lemma number_some es r k v : number es r k = Some v -> exists w, In (r, k, w) es.
Proof.
  unfold number. destruct (filter _ es) as [|[[r' k'] w] l] eqn:E; [discriminate|]. intros _.
  assert (J : In (r', k', w) ((r', k', w) :: l)) by (left; reflexivity). rewrite <- E in J. apply filter_In in J as [J B]. cbn [fst snd] in B.
  apply andb_true_iff in B as [B1 B2]. apply (proj1 (eqb_eq _ _)) in B1. apply (proj1 (eqb_eq _ _)) in B2. subst. eauto.
Qed.
Lemma number_in es r k w : In (r, k, w) es -> exists v, number es r k = Some v.
Proof.
  intros J. unfold number. destruct (filter _ es) as [|e l] eqn:E; [|eauto].
  assert (F : In (r, k, w) []); [|destruct F]. rewrite <- E. apply filter_In. cbn [fst snd]. rewrite !eqb_refl. auto.
Qed.
(** The lines of a row add up to the row. *)
Lemma sum_at (g : string -> Qc) k0 v ks : NoDup ks ->
  Qcsum (map (fun k => (g k + if eqb k0 k then v else Q2Qc 0)%Qc) ks) = (Qcsum (map g ks) + if mem k0 ks then v else Q2Qc 0)%Qc.
Proof.
  induction 1 as [|k ks N ND IH]; [cbn [map mem]; unfold Qcsum; cbn [fold_right]; ring|].
  cbn [map]. rewrite !Qcsum_cons, IH. cbn [mem]. destruct (eqb_spec k0 k) as [->|NE].
  - destruct (mem_spec k ks) as [J|J]; [contradiction|]. ring.
  - ring.
Qed.
Lemma buckets {A} (key : A -> string) (val : A -> Qc) ks : NoDup ks -> forall l, (forall a, In a l -> In (key a) ks) ->
  Qcsum (map (fun k => Qcsum (map val (filter (fun a => eqb (key a) k) l))) ks) = Qcsum (map val l).
Proof.
  intros ND. induction l as [|a l IH]; intros C.
  - clear. cbn [filter map]. induction ks as [|k ks IH]; [reflexivity|]. cbn [map]. rewrite Qcsum_cons, IH. unfold Qcsum. cbn [fold_right]. ring.
  - cbn [map]. rewrite Qcsum_cons, <- IH by (intros; apply C; right; auto).
    transitivity (Qcsum (map (fun k => (Qcsum (map val (filter (fun a => eqb (key a) k) l)) + if eqb (key a) k then val a else Q2Qc 0)%Qc) ks)).
    + f_equal. apply map_ext. intros k. cbn [filter]. destruct (eqb (key a) k); [cbn [map]; rewrite Qcsum_cons|]; ring.
    + rewrite sum_at by exact ND. destruct (mem_spec (key a) ks) as [J|J]; [ring|]. exfalso. apply J, C. left; reflexivity.
Qed.
Lemma lines_total es r ks : NoDup ks -> (forall k w, In (r, k, w) es -> In k ks) ->
  Qcsum (map (fun k => match number es r k with Some v => v | None => Q2Qc 0 end) ks) = row_total es r.
Proof.
  intros ND C. unfold row_total.
  rewrite <- (buckets (fun e : list string * string * Qc => snd (fst e)) snd ks ND).
  - f_equal. apply map_ext. intros k. unfold number. rewrite filter_two. destruct (filter _ es); reflexivity.
  - intros [[r' k] w] J. apply filter_In in J as [J B]. cbn [fst snd] in B |- *. apply (proj1 (eqb_eq _ _)) in B. subst. eauto.
Qed.

(** ** The grid *)
Section Grid.
Variable ar : string -> option string.
Variable unalloc : bool.
Variable ps : list aproc.
Notation cs := (col_pairs unalloc ps).
Notation g := (ag_grid unalloc ps).
Definition is_grid_row (r : list string) : Prop := exists pf k v, In pf cs /\ In (r, k, v) (entries ar (fst pf) (snd pf)).

Lemma grid_row_tab r : is_grid_row r <-> is_row yes ag_pull (map (fun pf => col_items (fst pf) (snd pf)) cs) r.
Proof.
  split.
  - intros (pf & k & v & J & E). rewrite entries_items in E. apply in_flat_map in E as [c [JC E]]. unfold entry_of in E.
    destruct (x_value (fst c)); [|destruct E]. destruct E as [E|[]]. injection E as E _ _.
    exists (col_items (fst pf) (snd pf)), c. split; [apply in_map_iff; eauto|]. repeat split; auto.
  - intros (col & c & J & JC & _ & E). apply in_map_iff in J as [pf [<- J]]. destruct (items_valued _ _ _ JC) as [v V].
    exists pf, (ag_key ar (fst c)), v. split; [exact J|]. rewrite entries_items. apply in_flat_map. exists c. split; [exact JC|].
    unfold entry_of. rewrite V. left. rewrite E. reflexivity.
Qed.
Lemma grid_data r : map (fun i => ag_extract ar (cell g r i)) (seq 0 (length (t_cols g)))
  = map (fun pf => ag_extract ar (filter (fun c => yes c && eqb (ag_pull c) r) (col_items (fst pf) (snd pf)))) cs.
Proof. rewrite grid_build. rewrite (cells_ok yes ag_pull ag_note (ag_extract ar)), map_map. reflexivity. Qed.

Hypothesis keys : forall pf r k v, In pf cs -> In (r, k, v) (entries ar (fst pf) (snd pf)) -> 2 <= String.length k.
Definition the_data (r : list string) : list (dict string Qc) :=
  map (fun pf => ag_extract ar (filter (fun c => yes c && eqb (ag_pull c) r) (col_items (fst pf) (snd pf)))) cs.
Definition the_keys (r : list string) : list string := tsort key_leb (keys_of (the_data r)).
Lemma the_keys_in r k : In k (the_keys r) <-> exists pf v, In pf cs /\ In (r, k, v) (entries ar (fst pf) (snd pf)).
Proof.
  unfold the_keys. assert (P := tsort_perm key_leb (keys_of (the_data r))).
  transitivity (In k (keys_of (the_data r))); [split; apply Permutation_in; [exact P|symmetry; exact P]|].
  unfold keys_of, the_data. rewrite In_set_of, in_flat_map. split.
  - intros [d [J K]]. apply in_map_iff in J as [pf [<- J]]. apply dget_key_Some in K as [v K]. rewrite cell_number in K.
    destruct (number_some _ _ _ _ K) as [w W]. eauto.
  - intros (pf & v & J & E). eexists. split; [apply in_map_iff; exists pf; split; [reflexivity|exact J]|].
    destruct (number_in _ _ _ _ E) as [w W]. apply dget_Some_key with w. rewrite cell_number. exact W.
Qed.
Lemma ag_rows_ok prev r : ag_rows ar g prev r = TOk (sub_lines 2 (ag_near r prev) (note g r) (the_data r) (the_keys r)).
Proof.
  unfold ag_rows. rewrite grid_data. fold (the_data r). unfold sort_keys.
  rewrite (proj2 (forallb_forall _ _)); [reflexivity|]. intros k J.
  assert (J' : In k (the_keys r)) by (unfold the_keys; apply (Permutation_in _ (Permutation_sym (tsort_perm _ _))); exact J).
  apply the_keys_in in J' as (pf & v & JP & E). destruct (last_but_one_some k) as [s ->]; [eapply keys; eauto|reflexivity].
Qed.
End Grid.

(** What is printed below a heading row [h] with note [n]: one line for each text under which some column has an entry in that
    row, and for no other; in each column the sum of its entries; the first line carries the heading and the note. *)
Definition row_printed ar (cs : list (aproc * option nat)) (r : list string) (h : list string) (n : string) (sub : list (@sline Qc)) : Prop :=
  NoDup (map s_key sub)
  /\ (forall k, In k (map s_key sub) <-> exists pf v, In pf cs /\ In (r, k, v) (entries ar (fst pf) (snd pf)))
  /\ (forall s, In s sub -> s_vals s = map (fun pf => number (entries ar (fst pf) (snd pf)) r (s_key s)) cs)
  /\ match sub with
     | [] => False
     | s :: rest => s_near s = h /\ s_note s = n /\ Forall (fun s => s_near s = [""; ""] /\ s_note s = "") rest
     end.
(** The comment of the first entry of a row: columns in order, in each the inventory before the references *)
Definition first_comment (cs : list (aproc * option nat)) (r : list string) : string :=
  match find (fun e => eqb (fst e) r) (flat_map (fun pf =>
      flat_map (fun x => match x_isref x, x_value x with false, Some v => [(row_of false x, x_comment x)] | _, _ => [] end) (a_inv (fst pf) (snd pf))
      ++ map (fun x => (row_of true x, "")) (references (fst pf) (snd pf))) cs) with
  | Some e => snd e
  | None => ""
  end.
(** The headings: the direction ([""] below the same one in [text]) and the mark of a reference *)
Definition mark (r : list string) : string := match r with s :: _ => if eqb s "0" then "{*}" else "" | [] => "" end.
Definition direction (r : list string) : string := match r with _ :: d :: _ => d | _ => "" end.
Fixpoint headings (above : option (list string)) (rs : list (list string)) : list (list string) :=
  match rs with
  | [] => []
  | r :: rs' => [match above with Some a => if eqb (direction r) (direction a) then """""" else direction r | None => direction r end; mark r]
                :: headings (Some r) rs'
  end.
(** Reading the directions back: [""] repeats the one above. *)
Fixpoint read_dirs (above : string) (hs : list (list string)) : list string :=
  match hs with
  | [] => []
  | h :: hs' => let d := match h with s :: _ => if eqb s """""" then above else s | [] => above end in d :: read_dirs d hs'
  end.
Lemma read_headings rs : forall above, (forall r, In r rs -> direction r <> """""") ->
  read_dirs (match above with Some a => direction a | None => "" end) (headings above rs) = map direction rs.
Proof.
  induction rs as [|r rs IH]; intros above N; [reflexivity|]. cbn [headings read_dirs map].
  assert (D : (if eqb (match above with Some a => if eqb (direction r) (direction a) then """""" else direction r | None => direction r end) """"""
              then match above with Some a => direction a | None => "" end
              else match above with Some a => if eqb (direction r) (direction a) then """""" else direction r | None => direction r end) = direction r).
  { assert (N' := N r (or_introl eq_refl)). destruct above as [a|].
    - destruct (eqb_spec (direction r) (direction a)) as [E|NE].
      + rewrite eqb_refl. auto.
      + destruct (eqb_spec (direction r) """"""); [contradiction|reflexivity].
    - destruct (eqb_spec (direction r) """"""); [contradiction|reflexivity]. }
  rewrite D. f_equal. apply (IH (Some r)). intros r' J. apply N. right; exact J.
Qed.
Lemma comment_items cs r : match find (fun x => yes x && eqb (ag_pull x) r) (concat (map (fun pf => col_items (fst pf) (snd pf)) cs)) with Some x => ag_note x | None => "" end
  = first_comment cs r.
Proof.
  unfold first_comment.
  assert (E : flat_map (fun pf =>
      flat_map (fun x => match x_isref x, x_value x with false, Some v => [(row_of false x, x_comment x)] | _, _ => [] end) (a_inv (fst pf) (snd pf))
      ++ map (fun x => (row_of true x, "")) (references (fst pf) (snd pf))) cs
    = map (fun c => (ag_pull c, ag_note c)) (concat (map (fun pf => col_items (fst pf) (snd pf)) cs))).
  { induction cs as [|pf cs IH]; [reflexivity|]. cbn [flat_map map concat]. rewrite map_app, IH. f_equal. unfold col_items. rewrite map_app. f_equal.
    - unfold ag_items, ag_generate. induction (a_inv (fst pf) (snd pf)) as [|x l IH']; [reflexivity|]. cbn [flat_map filter]. rewrite IH'.
      destruct (x_isref x); cbn [negb filter]; [reflexivity|]. destruct (x_value x); reflexivity.
    - rewrite map_map. reflexivity. }
  rewrite E. clear E. induction (concat _) as [|c l IH]; [reflexivity|]. cbn [find map fst]. unfold yes at 1. cbn [andb].
  destruct (eqb (ag_pull c) r); [reflexivity|exact IH].
Qed.
Lemma grid_note ar unalloc ps r : is_grid_row ar unalloc ps r -> note (ag_grid unalloc ps) r = first_comment (col_pairs unalloc ps) r.
Proof.
  intros R. apply grid_row_tab in R. rewrite grid_build. destruct (note_ok yes ag_pull ag_note _ _ R) as [x [F ->]].
  rewrite <- comment_items, F. reflexivity.
Qed.
Lemma near_heading r prev : [match prev with Some a => if eqb (direction r) (direction a) then """""" else direction r | None => direction r end; mark r] = ag_near r prev.
Proof.
  unfold ag_near, mark, flag. destruct r as [|s [|d r]], prev as [[|s' [|d' p]]|]; reflexivity.
Qed.

(** Every allocation grid, whatever processes it was built from and in whatever order the set of its rows is visited, has one
    column for each process as it is (if asked for) and one for each of its references, in order, but only if the inventory
    concerned has a non-reference exchange with a value.  As a data frame and as text it prints a block for each row that one of
    these columns has an entry in, and for no other, references first and then in the order of directions, compartments and
    names; below each heading, exactly what those columns hold. *)
Theorem C127_grid : forall ar unalloc ps rows,
  let g := ag_grid unalloc ps in
  Permutation rows (t_rows g) ->
  exists (made : aproc -> option nat -> bool) cs,
    (forall p f, made p f = true <-> shown p f)
    /\ cs = flat_map (fun p => map (pair p) (filter (made p) ((if unalloc then [None] else []) ++ map (fun r => Some (x_flow r)) (a_refs p)))) ps
    /\ length (t_cols g) = length cs
    /\ ((forall pf r k v, In pf cs -> In (r, k, v) (entries ar (fst pf) (snd pf)) -> 2 <= String.length k) ->
        exists rs frame text,
          ag_frame ar g rows = TOk frame /\ ag_text ar g rows = TOk text
          /\ NoDup rs /\ (forall r, In r rs <-> exists pf k v, In pf cs /\ In (r, k, v) (entries ar (fst pf) (snd pf)))
          /\ Sorted tuple_le rs
          /\ Forall2 (fun r sub => row_printed ar cs r [direction r; mark r] (first_comment cs r) sub) rs frame
          /\ exists hs, hs = headings None rs
             /\ Forall2 (fun rh sub => row_printed ar cs (fst rh) (snd rh) (first_comment cs (fst rh)) sub) (combine rs hs) text
             /\ ((forall r, In r rs -> direction r <> """""") -> read_dirs "" hs = map direction rs)).
Proof.
  intros ar unalloc ps rows g P. exists col_made, (col_pairs unalloc ps). split; [apply col_made_shown|]. split; [reflexivity|].
  assert (I := tinv_build yes ag_pull ag_note (map (fun pf => col_items (fst pf) (snd pf)) (col_pairs unalloc ps))).
  rewrite <- grid_build in I. fold g in I. split; [rewrite (ti_cols _ _ _ _ _ I), map_length; reflexivity|]. intros KL.
  set (rs := ag_sorted rows).
  assert (PR : Permutation rs (t_rows g)). { unfold rs, ag_sorted, sorted_rows. rewrite tsort_perm. exact P. }
  assert (IR : forall r, In r rs <-> is_grid_row ar unalloc ps r).
  { intros r. rewrite grid_row_tab, is_row_In with (note_of := ag_note), <- grid_build. split; apply Permutation_in; [exact PR|symmetry; exact PR]. }
  assert (RP : forall r h, is_grid_row ar unalloc ps r -> row_printed ar (col_pairs unalloc ps) r h (first_comment (col_pairs unalloc ps) r)
                 (sub_lines 2 h (note g r) (the_data ar unalloc ps r) (the_keys ar unalloc ps r))).
  { intros r h R. unfold row_printed. destruct (sub_lines_spec 2 h (note g r) (the_data ar unalloc ps r) (the_keys ar unalloc ps r)) as (S1 & S2 & S3).
    rewrite S1. split; [|split; [|split]].
    - eapply Permutation_NoDup; [symmetry; apply tsort_perm|]. apply NoDup_set_of.
    - intros k. apply the_keys_in.
    - intros s J. rewrite (S2 s J). unfold the_data. rewrite map_map. apply map_ext. intros pf. apply cell_number.
    - destruct (sub_lines _ _ _ _ _) as [|s rest].
      + destruct R as (pf & k & v & J & E). assert (K : In k (the_keys ar unalloc ps r)) by (apply the_keys_in; eauto). rewrite <- S1 in K. exact K.
      + destruct S3 as (A & B & C). split; [exact A|]. split; [rewrite B; apply (grid_note ar unalloc ps r R)|exact C]. }
  set (fr := fun prev r => sub_lines 2 (ag_near r prev) (note g r) (the_data ar unalloc ps r) (the_keys ar unalloc ps r)).
  assert (TX : forall l prev, (forall r, In r l -> is_grid_row ar unalloc ps r) ->
    exists tx, ag_text_from ar g prev l = TOk tx
      /\ Forall2 (fun rh sub => row_printed ar (col_pairs unalloc ps) (fst rh) (snd rh) (first_comment (col_pairs unalloc ps) (fst rh)) sub) (combine l (headings prev l)) tx).
  { induction l as [|r l IH]; intros prev A; cbn [ag_text_from headings combine]; [exists []; split; [reflexivity|constructor]|].
    rewrite (ag_rows_ok ar unalloc ps KL). cbn [tbind]. assert (R := RP r (ag_near r prev) (A r (or_introl eq_refl))).
    destruct (IH (Some r)) as (tx & E & F); [intros; apply A; right; auto|].
    destruct (sub_lines _ _ _ _ _) as [|s rest] eqn:EQ; [destruct R as (_ & _ & _ & [])|].
    fold g. rewrite E. cbn [tbind]. eexists. split; [reflexivity|]. constructor; [|exact F]. cbn [fst snd]. rewrite near_heading. exact R. }
  destruct (TX rs None) as (tx & E & F); [intros r J; apply IR; exact J|].
  exists rs, (map (fr None) rs), tx. split; [|split; [exact E|]].
  - unfold ag_frame. fold rs. apply tmap_ok. intros r J. apply (ag_rows_ok ar unalloc ps KL).
  - split; [eapply Permutation_NoDup; [symmetry; exact PR|apply (ti_nodup _ _ _ _ _ I)]|]. split; [exact IR|]. split; [|split].
    + assert (S := tsort_sorted (row_leb (fun s : string => s)) (fun a b => lex_total (map (fun s => s) a) (map (fun s => s) b)) rows).
      fold (sorted_rows (fun s : string => s) rows) in S. fold (ag_sorted rows) in S. fold rs in S.
      clear - S. induction S as [|a l S IH HD]; constructor; auto. destruct HD as [|b m HB]; constructor.
      unfold row_leb in HB. rewrite !map_id in HB. apply lex_tuple_le. exact HB.
    + assert (G : forall l, (forall r, In r l -> is_grid_row ar unalloc ps r) ->
        Forall2 (fun r sub => row_printed ar (col_pairs unalloc ps) r [direction r; mark r] (first_comment (col_pairs unalloc ps) r) sub) l (map (fr None) l)).
      { induction l as [|r l IH]; intros A; cbn [map]; constructor; [|apply IH; intros; apply A; right; auto].
        unfold fr. rewrite <- (near_heading r None). apply RP, A. left; reflexivity. }
      apply G. intros r J. apply IR. exact J.
    + exists (headings None rs). split; [reflexivity|]. split; [exact F|]. intros N. apply (read_headings rs None N).
Qed.
Print Assumptions C127_grid.
(** In each column, the numbers of the lines of a row add up to what the column holds in that row: no exchange is lost or
    counted twice, whatever the suppliers are called. *)
Theorem C127_totals : forall ar cs r h n sub j pf,
  row_printed ar cs r h n sub -> nth_error cs j = Some pf ->
  Qcsum (map (fun s => match nth_error (s_vals s) j with Some (Some v) => v | _ => Q2Qc 0 end) sub) = row_total (entries ar (fst pf) (snd pf)) r.
Proof.
  intros ar cs r h n sub j pf (ND & K & V & _) J. rewrite <- (lines_total _ _ (map s_key sub) ND).
  - rewrite map_map. f_equal. apply map_ext_in. intros s S. rewrite (V s S). rewrite (map_nth_error _ _ _ J). reflexivity.
  - intros k w E. apply K. exists pf, w. split; [apply nth_error_In in J; exact J|exact E].
Qed.
Print Assumptions C127_totals.

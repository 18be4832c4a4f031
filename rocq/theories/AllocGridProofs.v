(** C127: the grid is a table of items. *)
From Coq Require Import String Permutation Sorted.
From Verif Require Import Num Base PyStr TableModel TableProofs TableProps AllocGridModel.
Open Scope string_scope.
Open Scope list_scope.

Definition yes (_ : gcell) : bool := true.
(** The items of a column, and whether the column is made *)
Definition col_items (p : aproc) (f : option nat) : list gcell := ag_items (ag_generate (a_inv p f)) ++ map ag_ref_item (references p f).
Definition col_made (p : aproc) (f : option nat) : bool := match ag_items (ag_generate (a_inv p f)) with [] => false | _ => true end.
Definition col_fs (unalloc : bool) (p : aproc) : list (option nat) := (if unalloc then [None] else []) ++ map (fun r => Some (x_flow r)) (a_refs p).
Definition col_pairs (unalloc : bool) (ps : list aproc) : list (aproc * option nat) :=
  flat_map (fun p => map (pair p) (filter (col_made p) (col_fs unalloc p))) ps.

Lemma add_items_fold i xs : forall t c,
  ag_add_items i xs t c = (fold_left (add_rowitem ag_pull ag_note i) (ag_items xs) t, c || match ag_items xs with [] => false | _ => true end).
Proof.
  induction xs as [|x xs IH]; intros t c; cbn [ag_add_items]; [cbn; rewrite orb_false_r; reflexivity|].
  unfold ag_items. cbn [filter]. destruct (x_value x) as [v|] eqn:E.
  - rewrite IH. cbn [map fold_left]. fold (ag_items xs). f_equal. rewrite orb_true_r. reflexivity.
  - apply IH.
Qed.
Lemma filter_yes (l : list gcell) : filter yes l = l.
Proof. induction l as [|a l IH]; [reflexivity|]. cbn. rewrite IH. reflexivity. Qed.
Lemma fold_map_l {A B C} (g : B -> C) (f : A -> C -> A) l : forall a, fold_left f (map g l) a = fold_left (fun a b => f a (g b)) l a.
Proof. induction l as [|b l IH]; intros a; cbn; [reflexivity|apply IH]. Qed.
Lemma add_one_column p t f :
  ag_add_one p t f = if col_made p f then add_column yes ag_pull ag_note t (col_items p f) else t.
Proof.
  unfold ag_add_one, col_made. rewrite add_items_fold. cbn [orb]. destruct (ag_items (ag_generate (a_inv p f))) as [|c l] eqn:E.
  - reflexivity.
  - unfold ag_add_refs, add_column, generate, col_items. rewrite E, filter_yes, fold_left_app, fold_map_l.
    reflexivity.
Qed.
Lemma fold_add_one p fs : forall t,
  fold_left (ag_add_one p) fs t = fold_left (add_column yes ag_pull ag_note) (map (col_items p) (filter (col_made p) fs)) t.
Proof.
  induction fs as [|f fs IH]; intros t; [reflexivity|]. cbn [fold_left filter]. rewrite IH, add_one_column.
  destruct (col_made p f); reflexivity.
Qed.
Lemma grid_build unalloc ps :
  ag_grid unalloc ps = build yes ag_pull ag_note (map (fun pf => col_items (fst pf) (snd pf)) (col_pairs unalloc ps)).
Proof.
  unfold ag_grid, build. assert (G : forall t, fold_left (ag_add unalloc) ps t =
    fold_left (add_column yes ag_pull ag_note) (map (fun pf => col_items (fst pf) (snd pf)) (col_pairs unalloc ps)) t); [|apply G].
  induction ps as [|p ps IH]; intros t; [reflexivity|]. cbn [fold_left]. rewrite IH. unfold col_pairs. cbn [flat_map].
  rewrite map_app, fold_left_app. f_equal. rewrite map_map. cbn [fst snd].
  unfold ag_add, col_fs. rewrite filter_app, map_app, fold_left_app. rewrite <- fold_add_one. f_equal.
  destruct unalloc; [|reflexivity]. cbn [filter]. rewrite add_one_column. destruct (col_made p None); reflexivity.
Qed.

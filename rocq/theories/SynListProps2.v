(** C75: /repo/synlist/synlist.py, [add_term] (141-152): the index it returns. *)
From Verif Require Import Base PyStr SynListModel SynListProofs SynListProps.
Open Scope string_scope.
Open Scope list_scope.

(** For every non-empty string: the call returns, the term is found at the returned index afterwards, every other term keeps
    its index, every other item is untouched; a known term changes nothing at all, an unknown one becomes the name and only
    synonym of a new item at the end. *)
Theorem C75_add_term_partial ic s t s' r : reachable ic s -> t <> "" -> add_term s (TStr t) = (s', r) ->
  exists i, r = Ok i /\ index s' (TStr t) = Ok (Some i) /\
    (forall u, sanitize s u <> sanitize s t -> index s' (TStr u) = index s (TStr u)) /\
    (forall j, j <> i -> synonym_set s' j = synonym_set s j /\ item_name s' j = item_name s j /\ item_entity s' j = item_entity s j) /\
    (index s (TStr t) <> Ok None -> s' = s) /\
    (index s (TStr t) = Ok None -> i = length (s_items s) /\ length (s_items s') = S i /\ synonym_set s' i = Some (Some [t]) /\ item_name s' i = Some t /\
       item_entity s' i = None).
Proof.
  intros R N E. pose proof (reachable_Inv ic s R) as V. unfold add_term in E. cbn [get_index] in E.
  destruct (dget (sanitize s t) (s_dict s)) as [j|] eqn:D.
  - apply pair_equal_inv in E as [<- <-]. exists j. split; [reflexivity|]. split; [apply index_str; exact D|].
    split; [reflexivity|]. split; [auto|]. split; [reflexivity|]. intros X. apply index_str_none in X. congruence.
  - unfold new_item in E. unfold new_term in E. destruct t as [|c w]; [congruence|]. set (t := String c w) in *. clearbody t.
    cbn [s_items set_items s_dict s_ic] in E.
    assert (NE : nth_error (s_items s ++ [Item None None (Some [])]) (length (s_items s)) = Some (Item None None (Some []))).
    { rewrite nth_error_snoc, Nat.eqb_refl. reflexivity. }
    rewrite NE in E. cbn [i_syns] in E.
    assert (SE : sanitize (set_items s (s_items s ++ [Item None None (Some [])])) t = sanitize s t) by reflexivity.
    rewrite SE, D in E. cbn [i_name] in E. apply pair_equal_inv in E as [<- <-]. exists (length (s_items s)).
    split; [reflexivity|]. split; [|split; [|split; [|split]]].
    + apply index_str. cbn. change (sanitize _ t) with (sanitize s t) at 1. rewrite dget_dset, eqb_refl. reflexivity.
    + intros u Nu. unfold index. cbn. change (sanitize _ u) with (sanitize s u). rewrite dget_dset.
      destruct (eqb_spec (sanitize s u) (sanitize s t)); [congruence|reflexivity].
    + intros j Nj. unfold synonym_set, item_name, item_entity. cbn. rewrite !nth_upd_other by congruence. rewrite nth_error_snoc.
      destruct (Nat.eqb_spec j (length (s_items s))); [congruence|auto].
    + intros X. exfalso. apply X. apply index_str_none. exact D.
    + intros _. split; [reflexivity|]. unfold synonym_set, item_name, item_entity. cbn. rewrite !length_upd, app_length. split; [cbn; lia|].
      erewrite nth_upd_same; [|erewrite nth_upd_same; [reflexivity|exact NE]]. cbn. auto.
Qed.
Print Assumptions C75_add_term_partial.
Example C75_nonvacuous : reachable true ex_state /\
  snd (add_term ex_state (TStr " CH4")) = Ok 0 /\ snd (add_term ex_state (TStr "ozone")) = Ok 3.
Proof. split; [apply ex_state_reachable|]. vm_compute. auto. Qed.
(** The empty string (and None) is never known: each call makes another item without name and terms, and returns its index. *)
Theorem C75_refuted_empty : forall s, (forall i, dget (sanitize s "") (s_dict s) <> Some i) ->
  exists s', add_term s (TStr "") = (s', Ok (length (s_items s))) /\ synonym_set s' (length (s_items s)) = Some (Some []) /\
    index s' (TStr "") = Ok None /\ item_name s' (length (s_items s)) = None.
Proof.
  intros s H. unfold add_term. cbn [get_index]. destruct (dget (sanitize s "") (s_dict s)) as [i|] eqn:D; [exfalso; apply (H i); reflexivity|].
  cbn. eexists. split; [reflexivity|]. unfold synonym_set, item_name. cbn. rewrite nth_error_snoc, Nat.eqb_refl. split; [reflexivity|]. split; [|reflexivity].
  apply index_str_none. cbn. exact D.
Qed.
Print Assumptions C75_refuted_empty.

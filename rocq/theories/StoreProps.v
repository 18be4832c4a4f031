(** C46, C47, C48, C69: the entity store. *)
From Coq Require Import ZArith Sorting.Sorted.
From Verif Require Import Base PyStr StoreModel StoreProofs.
Open Scope string_scope.
Open Scope nat_scope.
Open Scope list_scope.
Local Arguments eqb : simpl never.
Local Arguments mem : simpl never.

(** * Histories of an archive
    [up] is the chain of its upstream archives.  [OpNew] creates an entity object somewhere in the program; [OpTouch] is any
    outside change of an entity (origin, external reference, validity; its type and UUID never change). *)
Inductive op :=
| OpNew (e : ent) | OpTouch (i : nat) (origin : option string) (ext : string) (valid : bool)
| OpAdd (i : nat) (k : option string) | OpBasicAdd (i : nat)
| OpCheck (t : option string)
| OpName (ref : string) (source : option string) (rewrite : bool)
| OpSetSource (ref : string) (source : option string)
| OpSources (name : string) | OpWrite (filename : string) | OpGet (k : key).

Definition step (up : list store) (o : op) (h : heap) (st : store) : heap * store * option sexn :=
  match o with
  | OpNew e => (h ++ [e], st, None)
  | OpTouch i g x v => (upd i (fun e => Ent (e_uuid e) (e_type e) g x v) h, st, None)
  | OpAdd i k => add i k h st
  | OpBasicAdd i => basic_add i h st
  | OpCheck t => (h, check_counter t st, None)
  | OpName r s w => let (st', e) := add_name r s w st in (h, st', e)
  | OpSetSource r s => let (st', e) := set_source r s st in (h, st', e)
  | OpSources n => (h, fst (get_sources n st), None)
  | OpWrite f => let (st', e) := write_to_file f up st in (h, st', e)
  | OpGet k => let (h', r) := getitem k h (st :: up) in
               (h', st, match r with SErr e => Some e | SOk _ => None end)
  end.

(** [hist h st ops h' st']: the archive, starting as [st], went through [ops] (with their outcomes). *)
Inductive hist (up : list store) (h0 : heap) (st0 : store) : list (op * option sexn) -> heap -> store -> Prop :=
| hist_nil : hist up h0 st0 [] h0 st0
| hist_snoc tr h st o h' st' r : hist up h0 st0 tr h st -> step up o h st = (h', st', r) ->
    hist up h0 st0 (tr ++ [(o, r)]) h' st'.

(** A new archive and any history. *)
Definition archive_after (up : list store) (tr : list (op * option sexn)) (h : heap) (st : store) : Prop :=
  exists source ref types keyid h0 st0, init source ref types keyid = SOk st0 /\ hist up h0 st0 tr h st.

Ltac run_hist := first [apply hist_nil | eapply hist_snoc; [run_hist | vm_compute; reflexivity]].

(** * Frame facts *)
Definition same_ents (a b : store) : Prop :=
  s_ents a = s_ents b /\ s_types a = s_types b /\ s_keyid a = s_keyid b /\ s_counter a = s_counter b /\ s_bytype a = s_bytype b
  /\ s_dref a = s_dref b.
Lemma same_ents_refl a : same_ents a a. Proof. repeat split. Qed.

Lemma add_name_frame ref source rw st : same_ents (fst (add_name ref source rw st)) st.
Proof.
  unfold add_name. destruct (negb (valid_ref ref)); [apply same_ents_refl|].
  destruct (name_loop _ _ _ _ _ _); try (repeat split; fail).
  cbv zeta. destruct (ref_of _); [|repeat split]. destruct (_ && _ && _); repeat split.
Qed.
Lemma set_source_frame ref source st : same_ents (fst (set_source ref source st)) st.
Proof. exact (add_name_frame ref source false (with_source source st)). Qed.
Lemma write_frame f up st : same_ents (fst (write_to_file f up st)) st.
Proof.
  unfold write_to_file. destruct (s_source st).
  - destruct (din _ _); [apply same_ents_refl|]. destruct (ref_of st); [apply add_name_frame|apply same_ents_refl].
  - destruct (ref_of st); [apply set_source_frame|apply same_ents_refl].
Qed.

Definition same_kind (h h' : heap) : Prop :=
  forall i e, nth_error h i = Some e -> exists e', nth_error h' i = Some e' /\ e_type e' = e_type e /\ e_uuid e' = e_uuid e.
Lemma same_kind_refl h : same_kind h h. Proof. intros i e E; eauto. Qed.
Lemma same_kind_trans a b c : same_kind a b -> same_kind b c -> same_kind a c.
Proof.
  intros A B i e E. destruct (A _ _ E) as (e1 & E1 & T1 & U1). destruct (B _ _ E1) as (e2 & E2 & T2 & U2).
  exists e2. repeat split; congruence.
Qed.
Lemma same_kind_upd i f h : (forall e, e_type (f e) = e_type e /\ e_uuid (f e) = e_uuid e) -> same_kind h (upd i f h).
Proof.
  intros H j e E. rewrite nth_upd. destruct (Nat.eqb i j); [|eauto]. rewrite E. cbn. destruct (H e). eauto.
Qed.
Lemma set_origin_kind i o h : same_kind h (set_origin i o h).
Proof. apply same_kind_upd. intros; split; reflexivity. Qed.
Lemma get_entity_kind k h st : same_kind h (fst (get_entity k h st)).
Proof.
  unfold get_entity. destruct (dget k (s_ents st)) as [i|]; [|apply same_kind_refl].
  destruct (nth_error h i) as [[u t [o|] x v]|]; try apply same_kind_refl.
  destruct (ref_of st); [apply set_origin_kind|apply same_kind_refl].
Qed.
Lemma getitem_kind k ch : forall h, same_kind h (fst (getitem k h ch)).
Proof.
  induction ch as [|st up IH]; intros h; [destruct k; apply same_kind_refl|].
  assert (L : forall h, same_kind h (fst (match get_entity (s_keyid st k) h st with
            | (h', SErr SKeyError) => (h', SOk None) | r => r end))).
  { intros h1. pose proof (get_entity_kind (s_keyid st k) h1 st) as G.
    destruct (get_entity (s_keyid st k) h1 st) as [h2 [a|[]]]; exact G. }
  destruct k; [apply same_kind_refl| |]; cbn [getitem]; (destruct up as [|u up]; [apply L|];
    specialize (IH h); destruct (getitem _ h (u :: up)) as [h1 [[a|]|x]]; cbn [fst] in IH;
    [exact IH|eapply same_kind_trans; [exact IH|apply L]|exact IH]).
Qed.

Lemma step_kind up o h st h' st' r : step up o h st = (h', st', r) -> same_kind h h'.
Proof.
  destruct o as [e|i g x v|i k|i|t|rf s w|rf s|n|f|k]; cbn [step].
  - intros E; injection E as <- _ _. intros j e' J. exists e'. split; [|auto]. rewrite nth_error_app1; auto.
    eapply nth_error_lt; eauto.
  - intros E; injection E as <- _ _. apply same_kind_upd. intros; split; reflexivity.
  - intros E. replace h' with (fst (fst (add i k h st))) by (rewrite E; reflexivity). clear E.
    unfold add. destruct (nth_error h i) as [e|]; [|apply same_kind_refl]. destruct (din _ _); [apply same_kind_refl|].
    destruct (negb _); [apply same_kind_refl|]. destruct (negb _); [apply same_kind_refl|].
    destruct (e_origin e); [apply same_kind_refl|]. destruct (eqb _ _); [|apply same_kind_refl].
    destruct (ref_of st); [apply set_origin_kind|apply same_kind_refl].
  - intros E. replace h' with (fst (fst (basic_add i h st))) by (rewrite E; reflexivity). clear E.
    unfold basic_add. destruct (nth_error h i) as [e|] eqn:N; [|apply same_kind_refl]. destruct (mem _ _) eqn:M; [|apply same_kind_refl].
    unfold add. rewrite N. destruct (din _ _); [apply same_kind_refl|]. destruct (negb _); [apply same_kind_refl|].
    destruct (negb _); [apply same_kind_refl|]. destruct (e_origin e); [apply same_kind_refl|].
    destruct (eqb _ _); [|apply same_kind_refl]. destruct (ref_of st); [apply set_origin_kind|apply same_kind_refl].
  - intros E; injection E as <- _ _. apply same_kind_refl.
  - destruct (add_name _ _ _ _). intros E; injection E as <- _ _. apply same_kind_refl.
  - destruct (set_source _ _ _). intros E; injection E as <- _ _. apply same_kind_refl.
  - intros E; injection E as <- _ _. apply same_kind_refl.
  - destruct (write_to_file _ _ _). intros E; injection E as <- _ _. apply same_kind_refl.
  - pose proof (getitem_kind k (st :: up) h) as G. destruct (getitem k h (st :: up)) as [h1 q]. cbn in G.
    intros E; injection E as <- _ _. exact G.
Qed.

(** * C46: one add *)

(** A failed [_add] (or [add]) changes nothing at all. *)
Theorem C46_failed_add_changes_nothing i k h st h' st' x :
  add i k h st = (h', st', Some x) \/ basic_add i h st = (h', st', Some x) -> h' = h /\ st' = st.
Proof.
  assert (A : forall k h', add i k h st = (h', st', Some x) -> h' = h /\ st' = st).
  { clear. intros k h'. unfold add. destruct (nth_error h i) as [e|]; [|intros E; injection E as <- <- _; auto].
    destruct (din _ _); [intros E; injection E as <- <- _; auto|]. destruct (negb _); [intros E; injection E as <- <- _; auto|].
    destruct (negb _); [intros E; injection E as <- <- _; auto|]. destruct (e_origin e); [discriminate|].
    destruct (eqb _ _); [|intros E; injection E as <- <- _; auto]. destruct (ref_of st); [discriminate|].
    intros E; injection E as <- <- _; auto. }
  intros [E|E]; [eapply A; eauto|]. unfold basic_add in E. destruct (nth_error h i) as [e|]; [|injection E as <- <- _; auto].
  destruct (mem _ _); [eapply A; eauto|]. injection E as <- <- _; auto.
Qed.
Print Assumptions C46_failed_add_changes_nothing.

Lemma add_ok i k h st h' st' : add i k h st = (h', st', None) ->
  exists e, nth_error h i = Some e /\ dget k (s_ents st) = None /\ In (e_type e) (s_types st) /\ e_valid e = true /\
    st' = insert_ent i k (e_type e) st /\
    (e_origin e = None -> s_keyid st (KStr (e_ext e)) = k /\ exists r, ref_of st = SOk r /\ h' = set_origin i r h) /\
    (e_origin e <> None -> h' = h).
Proof.
  unfold add. destruct (nth_error h i) as [e|]; [|discriminate]. unfold din.
  destruct (dget k (s_ents st)) eqn:D; [discriminate|]. destruct (mem_spec (e_type e) (s_types st)) as [M|]; cbn [negb]; [|discriminate].
  destruct (e_valid e) eqn:V; cbn [negb]; [|discriminate]. intros E. exists e. repeat (split; [reflexivity || assumption|]).
  destruct (e_origin e) as [o|] eqn:O.
  - injection E as <- <-. repeat split; congruence.
  - destruct (eqb_spec (s_keyid st (KStr (e_ext e))) k) as [K|]; [|discriminate]. destruct (ref_of st) as [r|] eqn:R; [|discriminate].
    injection E as <- <-. split; [reflexivity|]. split; [|congruence]. intros _. split; [exact K|]. eauto.
Qed.

(** A successful [_add]: the key was free, the type is admitted, exactly that key now holds the entity, the counts of the
    entity's type grow by one, and the other types, keys and entities are untouched.  An entity without origin gets the
    archive's reference, provided its external reference maps to the key. *)
Theorem C46_successful_add i k h st h' st' : add i k h st = (h', st', None) ->
  exists e, nth_error h i = Some e /\ dget k (s_ents st) = None /\ In (e_type e) (s_types st) /\ e_valid e = true /\
    (forall k', dget k' (s_ents st') = if eqb k' k then Some i else dget k' (s_ents st)) /\
    (forall t, nget t (s_counter st') = nget t (s_counter st) + if eqb t (e_type e) then 1 else 0) /\
    (forall j, nth_error h' j =
       if eqb j i then Some (Ent (e_uuid e) (e_type e) (match e_origin e with
                                                         | Some o => Some o
                                                         | None => match ref_of st with SOk r => Some r | _ => None end
                                                         end) (e_ext e) true)
       else nth_error h j) /\
    (e_origin e = None -> s_keyid st (KStr (e_ext e)) = k).
Proof.
  intros A. destruct (add_ok _ _ _ _ _ _ A) as (e & N & D & T & V & -> & O1 & O2). exists e. repeat (split; [assumption|]).
  split; [intros k'; cbn; apply dget_dset|]. split.
  { intros t. cbn. rewrite nget_dset. destruct (eqb_spec t (e_type e)) as [->|]; lia. }
  split; [|intros O; apply (O1 O)]. intros j. destruct (e_origin e) as [o|] eqn:O.
  - rewrite O2 by congruence. destruct (eqb_spec j i) as [->|]; [|reflexivity]. rewrite N. f_equal. destruct e; cbn in *; subst; reflexivity.
  - destruct (O1 eq_refl) as (_ & r & R & ->). rewrite R. unfold set_origin. rewrite nth_upd.
    destruct (Nat.eqb_spec i j) as [->|NE].
    + rewrite eqb_refl, N. cbn. rewrite V. reflexivity.
    + destruct (eqb_spec j i); [congruence|reflexivity].
Qed.
Print Assumptions C46_successful_add.

(** * C46: every history *)

(** The type index and the stored entities say the same. *)
Definition index_agrees (h : heap) (st : store) : Prop :=
  NoDup (dkeys (s_ents st)) /\
  (forall k i, dget k (s_ents st) = Some i -> exists e, nth_error h i = Some e /\ In (e_type e) (s_types st)) /\
  forall t, NoDup (sget t (s_bytype st)) /\
    forall k, In k (sget t (s_bytype st)) <-> exists i e, dget k (s_ents st) = Some i /\ nth_error h i = Some e /\ e_type e = t.

Lemma index_kind h h' st : same_kind h h' -> index_agrees h st -> index_agrees h' st.
Proof.
  intros K (N & B & X). split; [exact N|]. split.
  - intros k i D. destruct (B _ _ D) as (e & E & T). destruct (K _ _ E) as (e' & E' & T' & _). exists e'. split; congruence.
  - intros t. destruct (X t) as [ND W]. split; [exact ND|]. intros k. rewrite W. split.
    + intros (i & e & D & E & T). destruct (K _ _ E) as (e' & E' & T' & _). exists i, e'. repeat split; congruence.
    + intros (i & e' & D & E' & T'). destruct (B _ _ D) as (e & E & T). destruct (K _ _ E) as (e2 & E2 & T2 & _).
      exists i, e. repeat split; congruence.
Qed.
Lemma index_same h a b : same_ents a b -> index_agrees h b -> index_agrees h a.
Proof. intros (E & T & _ & _ & B & _). unfold index_agrees. rewrite E, T, B. auto. Qed.

Lemma index_add i k h st h' st' : add i k h st = (h', st', None) -> index_agrees h st -> index_agrees h' st'.
Proof.
  intros A I. destruct (add_ok _ _ _ _ _ _ A) as (e & N & D & T & V & -> & O1 & O2).
  assert (K : same_kind h h').
  { destruct (e_origin e) eqn:O; [rewrite O2 by congruence; apply same_kind_refl|].
    destruct (O1 eq_refl) as (_ & r & _ & ->). apply set_origin_kind. }
  apply (index_kind h h' _ K). destruct I as (ND & B & X). unfold index_agrees. cbn [s_ents s_types s_bytype insert_ent]. split; [apply NoDup_dset; exact ND|]. split.
  - intros k' i'. rewrite dget_dset. destruct (eqb_spec k' k) as [->|]; [|apply B]. intros E; injection E as <-. eauto.
  - intros t. rewrite sget_dset. destruct (X t) as [NDt Wt]. destruct (eqb_spec t (e_type e)) as [->|NT].
    + split; [apply NoDup_set_add; exact NDt|]. intros k'. rewrite In_set_add, Wt. split.
      * intros [->|(i' & e' & D' & E' & T')].
        -- exists i, e. rewrite dget_dset, eqb_refl. auto.
        -- exists i', e'. rewrite dget_dset. destruct (eqb_spec k' k) as [->|]; [congruence|auto].
      * intros (i' & e' & D' & E' & T'). rewrite dget_dset in D'. destruct (eqb_spec k' k) as [->|]; [auto|]. right. eauto.
    + split; [exact NDt|]. intros k'. rewrite Wt. split.
      * intros (i' & e' & D' & E' & T'). exists i', e'. rewrite dget_dset. destruct (eqb_spec k' k) as [->|]; [congruence|auto].
      * intros (i' & e' & D' & E' & T'). rewrite dget_dset in D'. destruct (eqb_spec k' k) as [->|]; [|eauto].
        injection D' as <-. congruence.
Qed.

Lemma get_sources_frame n st : same_ents (fst (get_sources n st)) st.
Proof. repeat split. Qed.

Lemma check_counter_fields t st : s_ents (check_counter t st) = s_ents st /\ s_bytype (check_counter t st) = s_bytype st /\
  s_types (check_counter t st) = s_types st /\ s_names (check_counter t st) = s_names st /\ s_source (check_counter t st) = s_source st.
Proof. destruct t; repeat split. Qed.

Lemma index_step up o h st h' st' r : step up o h st = (h', st', r) -> index_agrees h st -> index_agrees h' st'.
Proof.
  intros S I. pose proof (index_kind _ _ _ (step_kind _ _ _ _ _ _ _ S) I) as I'.
  destruct o as [e|i g x v|i k|i|t|rf s w|rf s|n|f|k]; cbn [step] in S.
  - injection S as <- <- _. exact I'.
  - injection S as <- <- _. exact I'.
  - destruct r as [x|]; [|eapply index_add; eauto].
    destruct (C46_failed_add_changes_nothing _ _ _ _ _ _ _ (or_introl S)) as [-> ->]. exact I.
  - destruct r as [x|].
    + destruct (C46_failed_add_changes_nothing i None _ _ _ _ _ (or_intror S)) as [-> ->]. exact I.
    + unfold basic_add in S. destruct (nth_error h i); [|discriminate]. destruct (mem _ _); [|discriminate]. eapply index_add; eauto.
  - injection S as <- <- _. destruct (check_counter_fields t st) as (E & B & T & _). unfold index_agrees. rewrite E, B, T. exact I.
  - pose proof (add_name_frame rf s w st) as F. destruct (add_name rf s w st) as [a b]. injection S as <- <- _. exact (index_same _ _ _ F I).
  - pose proof (set_source_frame rf s st) as F. destruct (set_source rf s st) as [a b]. injection S as <- <- _. exact (index_same _ _ _ F I).
  - injection S as <- <- _. exact I.
  - pose proof (write_frame f up st) as F. destruct (write_to_file f up st) as [a b]. injection S as <- <- _. exact (index_same _ _ _ F I).
  - destruct (getitem k h (st :: up)) as [a b]. injection S as <- <- _. exact I'.
Qed.

Lemma init_fields source ref types keyid st : init source ref types keyid = SOk st ->
  s_ents st = [] /\ s_bytype st = [] /\ s_counter st = [] /\ s_types st = types.
Proof.
  unfold init. destruct (match ref with Some r => SOk r | None => local_ref source end) as [r|]; [|discriminate].
  pose proof (add_name_frame r source false (Store r source [] types keyid [] [] [])) as (E & T & _ & C & B & _).
  destruct (add_name _ _ _ _) as [s [x|]]; [discriminate|]. intros X. injection X as <-. auto.
Qed.

Lemma hist_index up tr h st : archive_after up tr h st -> index_agrees h st.
Proof.
  intros (source & ref & types & keyid & h0 & st0 & I & H). induction H as [|tr h st o h' st' r H IH S].
  - destruct (init_fields _ _ _ _ _ I) as (E & B & _ & _). unfold index_agrees. rewrite E, B. cbn. split; [constructor|].
    split; [discriminate|]. intros t. split; [constructor|]. intros k. split; [intros []|intros (? & ? & ? & _); discriminate].
  - eapply index_step; eauto.
Qed.

(** After every history: no key is stored twice, every stored entity has an admitted type, and the index of a type lists
    exactly the keys of the stored entities of that type. *)
Theorem C46_index_agrees_with_entities up tr h st : archive_after up tr h st ->
  NoDup (dkeys (s_ents st)) /\
  (forall k i, dget k (s_ents st) = Some i -> exists e, nth_error h i = Some e /\ In (e_type e) (s_types st)) /\
  (forall t k, In k (sget t (s_bytype st)) <->
               exists i e, dget k (s_ents st) = Some i /\ nth_error h i = Some e /\ e_type e = t).
Proof. intros H. destruct (hist_index _ _ _ _ H) as (N & B & X). repeat split; auto; apply X. Qed.
Print Assumptions C46_index_agrees_with_entities.

(** The type of the entity stored at an entry. *)
Definition is_type (h : heap) (t : string) (p : option string * nat) : bool :=
  match nth_error h (snd p) with Some e => eqb (e_type e) t | None => false end.

Lemma index_count h st t : index_agrees h st ->
  Permutation (sget t (s_bytype st)) (map fst (filter (is_type h t) (s_ents st))).
Proof.
  intros (N & B & X). destruct (X t) as [ND W]. apply NoDup_Permutation; [exact ND| |].
  - clear - N. unfold dkeys in N. induction (s_ents st) as [|[k i] r IH]; cbn; [constructor|]. cbn in N. inversion N as [|? ? N1 N2]; subst.
    destruct (is_type h t (k, i)); [|auto]. cbn. constructor; auto. intros J. apply N1. apply in_map_iff in J as (p & <- & J).
    apply filter_In in J as [J _]. apply in_map; exact J.
  - intros k. rewrite W, in_map_iff. split.
    + intros (i & e & D & E & T). exists (k, i). split; [reflexivity|]. apply filter_In. split; [apply dget_In; exact D|].
      unfold is_type. cbn. rewrite E, T. apply eqb_refl.
    + intros ([k' i] & <- & J). apply filter_In in J as [J F]. unfold is_type in F. cbn in *.
      destruct (nth_error h i) as [e|] eqn:E; [|discriminate]. exists i, e. split; [apply In_dget; auto|]. split; [exact E|].
      apply (proj1 (eqb_eq _ _)) in F. exact F.
Qed.

(** [count_by_type(t)] is the number of stored entities of type [t]. *)
Theorem C46_count_by_type up tr h st t : archive_after up tr h st ->
  count_by_type t st = length (filter (is_type h t) (s_ents st)).
Proof.
  intros H. unfold count_by_type. rewrite (Permutation_length (index_count h st t (hist_index _ _ _ _ H))), map_length. reflexivity.
Qed.
Print Assumptions C46_count_by_type.

(** ** [entities_by_type] *)
Lemma sinsert_perm x l : Permutation (x :: l) (sinsert x l).
Proof.
  induction l as [|z r IH]; cbn; [reflexivity|]. destruct x as [a|], z as [b|]; try reflexivity.
  destruct (String.leb a b); [reflexivity|]. rewrite perm_swap, IH. reflexivity.
Qed.
Lemma ssort_perm l : Permutation l (ssort l).
Proof. induction l as [|x l IH]; cbn; [reflexivity|]. rewrite <- sinsert_perm. constructor. exact IH. Qed.

Definition key_le (a b : option string) : Prop :=
  match a, b with Some x, Some y => String.leb x y = true | _, _ => False end.
Lemma leb_total_false a b : String.leb a b = false -> String.leb b a = true.
Proof.
  unfold String.leb. rewrite (String.compare_antisym a b). destruct (String.compare b a); cbn; congruence.
Qed.
Lemma sinsert_sorted x l : Sorted key_le l -> (forall y, In y (x :: l) -> y <> None) -> Sorted key_le (sinsert x l).
Proof.
  intros S. induction S as [|z r S IH HD]; intros NN; cbn [sinsert]; [repeat constructor|].
  destruct x as [a|]; [|exfalso; apply (NN None); [left; reflexivity|reflexivity]].
  destruct z as [b|]; [|exfalso; apply (NN None); [right; left; reflexivity|reflexivity]].
  destruct (String.leb a b) eqn:L.
  - constructor; [constructor; assumption|constructor; exact L].
  - constructor.
    + apply IH. intros y [<-|J]; apply NN; [left; reflexivity|right; right; exact J].
    + destruct r as [|[c|] r]; cbn [sinsert]; [constructor; cbn; apply leb_total_false; exact L| |].
      * destruct (String.leb a c); constructor; [cbn; apply leb_total_false; exact L|]. inversion HD; subst; assumption.
      * constructor. cbn. apply leb_total_false; exact L.
Qed.
Lemma ssort_sorted l : (forall y, In y l -> y <> None) -> Sorted key_le (ssort l).
Proof.
  induction l as [|x l IH]; intros NN; cbn; [constructor|]. apply sinsert_sorted.
  - apply IH. intros y J. apply NN. right; exact J.
  - intros y [<-|J]; [apply NN; left; reflexivity|]. apply NN. right. eapply Permutation_in; [symmetry; apply ssort_perm|exact J].
Qed.

Lemma lookup_all_spec ks d : (forall k, In k ks -> dget k d <> None) ->
  exists l, lookup_all ks d = Some l /\ Forall2 (fun k i => dget k d = Some i) ks l.
Proof.
  induction ks as [|k ks IH]; intros H; cbn; [exists []; auto|].
  destruct (dget k d) as [i|] eqn:E; [|destruct (H k (or_introl eq_refl) E)].
  destruct IH as (l & -> & F); [intros; apply H; right; assumption|]. eauto.
Qed.

(** [entities_by_type(t)] never raises and yields, for some list of keys that enumerates without repetition the stored
    entities of type [t], the entities at these keys; the keys come in increasing order when they are all strings. *)
Theorem C46_entities_by_type up tr h st t : archive_after up tr h st ->
  exists ks l, entities_by_type t st = Some l /\ Forall2 (fun k i => dget k (s_ents st) = Some i) ks l /\
    NoDup ks /\ (forall k i, dget k (s_ents st) = Some i -> (In k ks <-> exists e, nth_error h i = Some e /\ e_type e = t)) /\
    ((forall k, In k ks -> k <> None) -> Sorted key_le ks).
Proof.
  intros H. pose proof (hist_index _ _ _ _ H) as (N & B & X). destruct (X t) as [ND W].
  unfold entities_by_type. pose proof (ssort_perm (sget t (s_bytype st))) as P.
  destruct (lookup_all_spec (ssort (sget t (s_bytype st))) (s_ents st)) as (l & L & F).
  { intros k J D. apply Permutation_sym in P. apply (Permutation_in _ P) in J. apply W in J as (i & e & D' & _). congruence. }
  exists (ssort (sget t (s_bytype st))), l. split; [exact L|]. split; [exact F|].
  split; [eapply Permutation_NoDup; eauto|]. split.
  - intros k i D. split.
    + intros J. apply Permutation_sym in P. apply (Permutation_in _ P) in J. apply W in J as (i' & e & D' & E & T).
      assert (i' = i) as -> by congruence. eauto.
    + intros (e & E & T). apply (Permutation_in _ P). apply W. eauto.
  - intros NN. apply ssort_sorted. intros y J. apply NN. apply (Permutation_in _ P J).
Qed.
Print Assumptions C46_entities_by_type.

(** ** The counters *)

(** What [check_counter] reports as "new": the number of successful adds of entities of type [t] since the last
    [check_counter(t)] or [check_counter()].  [ty] tells the type of the entity [i] at that moment. *)
Inductive ev := EvAdd (t : string) | EvReset (t : string) | EvResetAll.
Fixpoint new_since (types : list string) (t : string) (evs : list ev) (acc : nat) : nat :=
  match evs with
  | [] => acc
  | EvAdd t' :: r => new_since types t r (if String.eqb t' t then S acc else acc)
  | EvReset t' :: r => new_since types t r (if String.eqb t' t then 0 else acc)
  | EvResetAll :: r => new_since types t r (if mem t types then 0 else acc)
  end.
(** The events of a history. *)
Inductive events (up : list store) (h0 : heap) (st0 : store) : list ev -> heap -> store -> Prop :=
| evs_nil : events up h0 st0 [] h0 st0
| evs_step es h st o h' st' r : events up h0 st0 es h st -> step up o h st = (h', st', r) ->
    events up h0 st0
      (es ++ match o, r with
             | OpAdd i _, None | OpBasicAdd i, None => match nth_error h i with Some e => [EvAdd (e_type e)] | None => [] end
             | OpCheck (Some t), _ => [EvReset t]
             | OpCheck None, _ => [EvResetAll]
             | _, _ => []
             end) h' st'.

Lemma new_since_app types t b : forall a acc, new_since types t (a ++ b) acc = new_since types t b (new_since types t a acc).
Proof. induction a as [|[]]; intros acc; cbn; auto. Qed.

Lemma fold_reset t l : forall c, nget t (fold_left (fun c x => dset x 0 c) l c) = if mem t l then 0 else nget t c.
Proof.
  induction l as [|x l IH]; intros c; cbn [fold_left]; [reflexivity|]. rewrite IH, nget_dset. unfold mem; fold (@mem string _).
  destruct (eqb_spec t x) as [->|]; destruct (mem _ l); reflexivity.
Qed.

Lemma step_types up o h st h' st' r : step up o h st = (h', st', r) -> s_types st' = s_types st.
Proof.
  assert (ADD : forall i k h', add i k h st = (h', st', r) -> s_types st' = s_types st).
  { clear. intros i k h' E. destruct r.
    - destruct (C46_failed_add_changes_nothing _ _ _ _ _ _ _ (or_introl E)) as [_ ->]. reflexivity.
    - destruct (add_ok _ _ _ _ _ _ E) as (e & _ & _ & _ & _ & -> & _). reflexivity. }
  destruct o as [e|i g x v|i k|i|t|rf s w|rf s|n|f|k]; cbn [step]; intros S.
  - injection S as _ <- _. reflexivity.
  - injection S as _ <- _. reflexivity.
  - eapply ADD; eauto.
  - unfold basic_add in S. destruct (nth_error h i); [|injection S as _ <- _; reflexivity].
    destruct (mem _ _); [eapply ADD; eauto|injection S as _ <- _; reflexivity].
  - injection S as _ <- _. apply check_counter_fields.
  - pose proof (add_name_frame rf s w st) as F. destruct (add_name rf s w st). injection S as _ <- _. apply F.
  - pose proof (set_source_frame rf s st) as F. destruct (set_source rf s st). injection S as _ <- _. apply F.
  - injection S as _ <- _. reflexivity.
  - pose proof (write_frame f up st) as F. destruct (write_to_file f up st). injection S as _ <- _. apply F.
  - destruct (getitem k h (st :: up)). injection S as _ <- _. reflexivity.
Qed.

(** The number of new entities kept per type is the number of successful adds since the last report. *)
Theorem C46_new_entity_counter up source ref types keyid h0 st0 es h st t :
  init source ref types keyid = SOk st0 -> events up h0 st0 es h st -> nget t (s_counter st) = new_since types t es 0.
Proof.
  intros I H. destruct (init_fields _ _ _ _ _ I) as (_ & _ & C0 & T0).
  assert (TY : s_types st = types) by (clear t; induction H as [|es h st o h' st' r H IH S]; [exact T0|];
    rewrite (step_types _ _ _ _ _ _ _ S); apply IH).
  revert TY t. induction H as [|es h st o h' st' r H IH S]; intros TY t; [rewrite C0; reflexivity|].
  rewrite new_since_app. rewrite (step_types _ _ _ _ _ _ _ S) in TY. rewrite <- (IH TY t).
  assert (ADD : forall i k h', add i k h st = (h', st', r) -> nget t (s_counter st') = new_since types t
      (match r with None => match nth_error h i with Some e => [EvAdd (e_type e)] | None => [] end | Some _ => [] end) (nget t (s_counter st))).
  { clear. intros i k h' E. destruct r.
    - destruct (C46_failed_add_changes_nothing _ _ _ _ _ _ _ (or_introl E)) as [_ ->]. reflexivity.
    - destruct (add_ok _ _ _ _ _ _ E) as (e & N & _ & _ & _ & -> & _). rewrite N. cbn. rewrite nget_dset.
      change (eqb t (e_type e)) with (String.eqb t (e_type e)). rewrite (String.eqb_sym t).
      destruct (String.eqb_spec (e_type e) t) as [->|]; reflexivity. }
  destruct o as [e|i g x v|i k|i|tt|rf s w|rf s|n|f|k]; cbn [step] in S.
  - injection S as _ <- _. reflexivity.
  - injection S as _ <- _. reflexivity.
  - rewrite (ADD _ _ _ S). destruct r; reflexivity.
  - unfold basic_add in S. destruct (nth_error h i) as [e|] eqn:N; [|injection S as _ <- <-; reflexivity].
    destruct (mem _ _); [|injection S as _ <- <-; reflexivity]. rewrite (ADD _ _ _ S), N. destruct r; reflexivity.
  - injection S as _ <- _. destruct tt as [x|]; cbn.
    + rewrite nget_dset. change (eqb t x) with (String.eqb t x). rewrite (String.eqb_sym t). destruct (String.eqb x t); reflexivity.
    + rewrite fold_reset, TY. destruct (mem t types); reflexivity.
  - pose proof (add_name_frame rf s w st) as (_ & _ & _ & C & _). destruct (add_name rf s w st). injection S as _ <- _. cbn in C |- *. rewrite C. reflexivity.
  - pose proof (set_source_frame rf s st) as (_ & _ & _ & C & _). destruct (set_source rf s st). injection S as _ <- _. cbn in C |- *. rewrite C. reflexivity.
  - injection S as _ <- _. reflexivity.
  - pose proof (write_frame f up st) as (_ & _ & _ & C & _). destruct (write_to_file f up st). injection S as _ <- _. cbn in C |- *. rewrite C. reflexivity.
  - destruct (getitem k h (st :: up)). injection S as _ <- _. reflexivity.
Qed.
Print Assumptions C46_new_entity_counter.

(** ** One key per entity *)

(** In an archive that only adds with [add(entity)] (key = UUID), a stored entity sits under its UUID, hence under one key. *)
Theorem C46_one_key_per_entity up tr h st : archive_after up tr h st ->
  (forall o r, In (o, r) tr -> forall i k, o <> OpAdd i k) ->
  forall k i, dget k (s_ents st) = Some i ->
    (exists e, nth_error h i = Some e /\ k = Some (e_uuid e)) /\ (forall k', dget k' (s_ents st) = Some i -> k' = k).
Proof.
  intros (source & ref & types & keyid & h0 & st0 & I & H) NA.
  assert (K : forall k i, dget k (s_ents st) = Some i -> exists e, nth_error h i = Some e /\ k = Some (e_uuid e)).
  { induction H as [|tr h st o h' st' r H IH S].
    - destruct (init_fields _ _ _ _ _ I) as (E & _). rewrite E. discriminate.
    - assert (IH' : forall k i, dget k (s_ents st) = Some i -> exists e, nth_error h' i = Some e /\ k = Some (e_uuid e)).
      { intros k i D. destruct (IH (fun o r J => NA o r (in_or_app _ _ _ (or_introl J))) _ _ D) as (e & E & ->).
        destruct (step_kind _ _ _ _ _ _ _ S _ _ E) as (e' & E' & _ & U). exists e'. rewrite U. auto. }
      assert (NO : forall i k, o <> OpAdd i k) by (apply (NA o r); rewrite in_app_iff; right; left; reflexivity).
      destruct o as [e|i g x v|i k|i|tt|rf s w|rf s|n|f|k]; cbn [step] in S.
      + injection S as _ <- _. exact IH'.
      + injection S as _ <- _. exact IH'.
      + exfalso. apply (NO i k). reflexivity.
      + unfold basic_add in S. destruct (nth_error h i) as [e|] eqn:N; [|injection S as _ <- <-; exact IH'].
        destruct (mem _ _); [|injection S as _ <- <-; exact IH']. destruct r.
        * destruct (C46_failed_add_changes_nothing _ _ _ _ _ _ _ (or_introl S)) as [_ ->]. exact IH'.
        * assert (SK : same_kind h h') by (eapply (step_kind up (OpAdd i (Some (e_uuid e))) h st); exact S).
          destruct (add_ok _ _ _ _ _ _ S) as (e' & N' & _ & _ & _ & -> & _). assert (e' = e) as -> by congruence.
          intros k j. cbn. rewrite dget_dset. destruct (eqb_spec k (Some (e_uuid e))) as [->|]; [|apply IH'].
          intros E; injection E as <-. destruct (SK _ _ N) as (e2 & E2 & _ & U). exists e2. rewrite U. auto.
      + injection S as _ <- _. destruct (check_counter_fields tt st) as (E & _). rewrite E. exact IH'.
      + pose proof (add_name_frame rf s w st) as (E & _). destruct (add_name rf s w st). injection S as _ <- _. cbn in E. rewrite E. exact IH'.
      + pose proof (set_source_frame rf s st) as (E & _). destruct (set_source rf s st). injection S as _ <- _. cbn in E. rewrite E. exact IH'.
      + injection S as _ <- _. exact IH'.
      + pose proof (write_frame f up st) as (E & _). destruct (write_to_file f up st). injection S as _ <- _. cbn in E. rewrite E. exact IH'.
      + destruct (getitem k h (st :: up)). injection S as _ <- _. exact IH'. }
  intros k i D. split; [apply K; exact D|]. intros k' D'. destruct (K _ _ D) as (e & E & ->). destruct (K _ _ D') as (e' & E' & ->). congruence.
Qed.
Print Assumptions C46_one_key_per_entity.

(** Used directly, [_add] accepts the same entity under a second key once the entity has an origin. *)
Theorem C46_one_key_refuted_for_direct_adds :
  exists up tr h st k1 k2 i, archive_after up tr h st /\ k1 <> k2 /\ dget k1 (s_ents st) = Some i /\ dget k2 (s_ents st) = Some i.
Proof.
  exists [].
  exists ([] ++ [(OpNew (Ent "u" "flow" (Some "x") "u" true), None)] ++ [(OpAdd 0 (Some "u"), None)] ++ [(OpAdd 0 (Some "w"), None)]).
  eexists _, _, (Some "u"), (Some "w"), 0. split.
  - exists (Some "src"), (Some "a.b"), ["flow"], (fun _ => None), []. eexists. split; [vm_compute; reflexivity|].
    rewrite !app_assoc. run_hist.
  - split; [discriminate|]. split; vm_compute; reflexivity.
Qed.
Print Assumptions C46_one_key_refuted_for_direct_adds.

(** A history that exercises the hypotheses: two entities added, one refused because of its type, a duplicate refused. *)
Example C46_example : exists tr h st, archive_after [] tr h st /\ length tr = 7 /\
  count_by_type "flow" st = 1 /\ count_by_type "quantity" st = 1 /\ nget "flow" (s_counter st) = 1 /\
  map snd tr = [None; None; None; None; None; Some SKeyError; Some SValueError].
Proof.
  exists ([] ++ [(OpNew (Ent "u" "flow" None "u" true), None)] ++ [(OpNew (Ent "w" "quantity" (Some "x") "w" true), None)]
      ++ [(OpNew (Ent "p" "process" None "p" true), None)]
      ++ [(OpBasicAdd 0, None)] ++ [(OpBasicAdd 1, None)] ++ [(OpBasicAdd 0, Some SKeyError)] ++ [(OpBasicAdd 2, Some SValueError)]).
  eexists _, _. split.
  - exists (Some "src"), (Some "a.b"), ["flow"; "quantity"], (fun k => match k with KStr s => Some s | _ => None end), []. eexists.
    split; [vm_compute; reflexivity|].
    rewrite !app_assoc. run_hist.
  - repeat split; vm_compute; reflexivity.
Qed.

(** C49: LowerDict; C70: merging entities. *)
From Verif Require Import Base PyStr LowerModel.
Open Scope string_scope.
Open Scope nat_scope.
Open Scope list_scope.
Local Arguments eqb : simpl never.
Local Arguments mem : simpl never.

Section C49.
Context {V : Type}.
Notation ldict := (ldict V).

(** Histories.  [LUpdate] and [LDel] are the methods inherited from [dict]. *)
Inductive lop := LSet (k : string) (v : V) | LPop (k : string) | LUpdate (l : list (string * V)) | LDel (k : string).
Definition lstep (o : lop) (d : ldict) : ldict :=
  match o with
  | LSet k v => setitem k v d
  | LPop k => fst (pop k d)
  | LUpdate l => update l d
  | LDel k => match delitem k d with Some d' => d' | None => d end
  end.
Definition lrun (tr : list lop) (d : ldict) : ldict := fold_left (fun d o => lstep o d) tr d.

(** ** Specification: a case-insensitive map that remembers the first spelling, read off the history. *)

(** The elementary events of a history: an assignment or a removal. *)
Inductive lev := Put (k : string) (v : V) | Drop (k : string).
Definition evs_of (o : lop) : list lev :=
  match o with
  | LSet k v => [Put k v]
  | LPop k => [Drop k]
  | LUpdate l => map (fun p => Put (fst p) (snd p)) l
  | LDel k => [Drop k]
  end.
(** What the map holds for the lower-cased key [K]: the spelling first used since the key was last removed, and the value
    last assigned. *)
Definition ev_entry (K : string) (cur : option (string * V)) (e : lev) : option (string * V) :=
  match e with
  | Put k v => if eqb (lower k) K then Some (match cur with Some (s, _) => s | None => k end, v) else cur
  | Drop k => if eqb (lower k) K then None else cur
  end.
Definition entry (K : string) (es : list lev) : option (string * V) := fold_left (ev_entry K) es None.
(** The keys present, in the order in which they were inserted. *)
Definition ev_order (cur : list string) (e : lev) : list string :=
  match e with
  | Put k _ => if mem (lower k) cur then cur else cur ++ [lower k]
  | Drop k => filter (fun x => negb (eqb (lower k) x)) cur
  end.
Definition order (es : list lev) : list string := fold_left ev_order es [].

(** Keys given to the inherited methods are already lower case (or those methods are not used). *)
Definition proper (o : lop) : Prop :=
  match o with
  | LUpdate l => forall k v, In (k, v) l -> lower k = k
  | LDel k => lower k = k
  | _ => True
  end.

(** ** The dict implements the specification *)
Definition repr (d : ldict) (es : list lev) : Prop :=
  dkeys d = order es /\ NoDup (dkeys d) /\
  forall K, option_map (fun p => (spelling (fst p), snd p)) (dget K d) = entry K es.

Lemma entry_snoc K es e : entry K (es ++ [e]) = ev_entry K (entry K es) e.
Proof. unfold entry. rewrite fold_left_app. reflexivity. Qed.
Lemma order_snoc es e : order (es ++ [e]) = ev_order (order es) e.
Proof. unfold order. rewrite fold_left_app. reflexivity. Qed.

Lemma repr_put ko v d es : hkey ko = lower (spelling ko) -> repr d es -> repr (raw_set ko v d) (es ++ [Put (spelling ko) v]).
Proof.
  intros HK (O & ND & E).
  assert (X : exists k1, raw_set ko v d = dset (hkey ko) (k1, v) d /\
              spelling k1 = match dget (hkey ko) d with Some (k0, _) => spelling k0 | None => spelling ko end).
  { unfold raw_set. destruct (dget (hkey ko) d) as [[k0 v0]|]; eexists; split; reflexivity. }
  destruct X as (k1 & -> & SP). split; [|split].
  - rewrite order_snoc. cbn [ev_order]. rewrite <- HK, <- O, dkeys_dset. unfold din.
    destruct (dget (hkey ko) d) eqn:D.
    + rewrite (proj2 (mem_In _ _)); [reflexivity|]. eapply dget_Some_key; eauto.
    + rewrite (proj2 (mem_nIn _ _)); [reflexivity|]. apply dget_None; exact D.
  - apply NoDup_dset; exact ND.
  - intros K. rewrite entry_snoc. cbn [ev_entry]. rewrite dget_dset, <- HK. rewrite (eqb_sym K).
    destruct (eqb_spec (hkey ko) K) as [<-|]; [|apply E]. cbn. rewrite SP. f_equal. f_equal. rewrite <- E.
    destruct (dget (hkey ko) d) as [[k0 v0]|]; reflexivity.
Qed.

Lemma dkeys_ddel k (d : ldict) : dkeys (ddel k d) = filter (fun x => negb (eqb k x)) (dkeys d).
Proof.
  unfold dkeys, ddel. induction d as [|[k1 v1] r IH]; cbn; [reflexivity|]. destruct (eqb k k1); cbn; [exact IH|f_equal; exact IH].
Qed.

Lemma repr_drop k d es : repr d es -> repr (ddel (lower k) d) (es ++ [Drop k]).
Proof.
  intros (O & ND & E). split; [|split].
  - rewrite order_snoc, dkeys_ddel, O. reflexivity.
  - apply NoDup_ddel; exact ND.
  - intros K. rewrite entry_snoc. cbn [ev_entry]. rewrite dget_ddel, (eqb_sym K).
    destruct (eqb (lower k) K); [reflexivity|apply E].
Qed.

Lemma repr_update l : forall d es, (forall k v, In (k, v) l -> lower k = k) -> repr d es ->
  repr (raw_update l d) (es ++ map (fun p => Put (fst p) (snd p)) l).
Proof.
  induction l as [|[k v] l IH]; intros d es H R; cbn [raw_update fold_left map]; [rewrite app_nil_r; exact R|].
  change (es ++ Put (fst (k, v)) (snd (k, v)) :: map (fun p => Put (fst p) (snd p)) l)
    with (es ++ [Put k v] ++ map (fun p => Put (fst p) (snd p)) l). rewrite app_assoc. apply IH.
  - intros k' v' J. apply (H k' v'). right; exact J.
  - apply (repr_put (KPlain k) v d es); [|exact R]. cbn. symmetry. apply (H k v). left; reflexivity.
Qed.

Lemma repr_run tr : forall d es, repr d es -> Forall proper tr -> repr (lrun tr d) (es ++ flat_map evs_of tr).
Proof.
  induction tr as [|o tr IH]; intros d es R F; cbn [lrun fold_left flat_map]; [rewrite app_nil_r; exact R|].
  rewrite app_assoc. inversion F as [|? ? P F']; subst. apply IH; [|exact F'].
  destruct o as [k v|k|l|k]; cbn [lstep evs_of].
  - apply (repr_put (KKey k)); [reflexivity|exact R].
  - apply repr_drop. exact R.
  - apply repr_update; assumption.
  - cbn in P. unfold delitem, din. destruct (dget k d) eqn:D.
    + pose proof (repr_drop k d es R) as Q. rewrite P in Q. exact Q.
    + assert (DD : ddel (lower k) d = d).
      { rewrite P. apply dget_None in D. clear - D. unfold ddel, dkeys in *. induction d as [|[k1 v1] r IH]; cbn in *; [reflexivity|].
        destruct (eqb_spec k k1) as [->|]; [exfalso; auto|]. cbn. f_equal. apply IH. tauto. }
      pose proof (repr_drop k d es R) as Q. rewrite DD in Q. exact Q.
Qed.

Lemma repr_nil : repr [] [].
Proof. split; [reflexivity|]. split; [constructor|]. intros K. reflexivity. Qed.

(** Lookup, membership and pop answer as the case-insensitive map does. *)
Theorem C49_case_insensitive_map tr k : Forall proper tr ->
  let d := lrun tr [] in let es := flat_map evs_of tr in
  getitem k d = option_map snd (entry (lower k) es) /\
  contains k d = (match entry (lower k) es with Some _ => true | None => false end) /\
  snd (pop k d) = option_map snd (entry (lower k) es).
Proof.
  intros F d es. destruct (repr_run tr [] [] repr_nil F) as (O & ND & E). fold d es in O, ND, E. cbn [app] in *.
  assert (G : getitem k d = option_map snd (entry (lower k) es)).
  { unfold getitem, raw_get. cbn [hkey]. rewrite <- E. destruct (dget (lower k) d); reflexivity. }
  split; [exact G|]. split; [|exact G]. unfold contains, din. cbn [hkey]. rewrite <- E. destruct (dget (lower k) d); reflexivity.
Qed.

(** In particular the case of the key does not matter. *)
Corollary C49_case_does_not_matter tr k k' : Forall proper tr -> lower k = lower k' ->
  getitem k (lrun tr []) = getitem k' (lrun tr []) /\ contains k (lrun tr []) = contains k' (lrun tr []).
Proof.
  intros F E. destruct (C49_case_insensitive_map tr k F) as (A & B & _). destruct (C49_case_insensitive_map tr k' F) as (A' & B' & _).
  rewrite A, A', B, B', E. auto.
Qed.

(** [entry] only holds spellings of its key. *)
Lemma entry_spelling K es s v : entry K es = Some (s, v) -> lower s = K.
Proof.
  revert s v. induction es as [|e es IH] using rev_ind; intros s v; [discriminate|]. rewrite entry_snoc. destruct e as [k w|k]; cbn.
  - destruct (eqb_spec (lower k) K) as [E|]; [|apply IH]. destruct (entry K es) as [[s0 v0]|].
    + intros X; injection X as <- _. eapply IH; reflexivity.
    + intros X; injection X as <- _. exact E.
  - destruct (eqb (lower k) K); [discriminate|apply IH].
Qed.

Lemma items_general (d : ldict) : forall acc, (forall k, In k (dkeys acc) -> forall h p, In (h, p) d -> spelling (fst p) <> k) ->
  NoDup (map (fun p => spelling (fst (snd p))) d) ->
  fold_left (fun acc p => dset (spelling (fst (snd p))) (snd (snd p)) acc) d acc =
  acc ++ map (fun p => (spelling (fst (snd p)), snd (snd p))) d.
Proof.
  induction d as [|[h [ko v]] d IH]; intros acc H ND; cbn [fold_left map]; [rewrite app_nil_r; reflexivity|].
  cbn in ND. inversion ND as [|? ? N1 N2]; subst. cbn [fst snd].
  assert (NI : ~ In (spelling ko) (dkeys acc)) by (intros J; apply (H _ J h (ko, v)); [left|]; reflexivity).
  assert (DS : dset (spelling ko) v acc = acc ++ [(spelling ko, v)]).
  { clear - NI. unfold dkeys in NI. induction acc as [|[a b] acc IH]; cbn in *; [reflexivity|].
    destruct (eqb_spec (spelling ko) a) as [<-|]; [exfalso; auto|]. f_equal. apply IH. tauto. }
  rewrite DS, IH.
  - rewrite <- app_assoc. reflexivity.
  - intros k J h' p' J'. unfold dkeys in J. rewrite map_app, in_app_iff in J. destruct J as [J|[<-|[]]].
    + apply (H k J h' p'). right; exact J'.
    + cbn. intros E. apply N1. apply in_map_iff. exists (h', p'). split; [exact E|exact J'].
  - exact N2.
Qed.

(** [items()] lists, in the order of insertion, each present key once, with its first spelling and its last value. *)
Theorem C49_items tr : Forall proper tr ->
  map Some (items (lrun tr [])) = map (fun K => entry K (flat_map evs_of tr)) (order (flat_map evs_of tr)).
Proof.
  intros F. destruct (repr_run tr [] [] repr_nil F) as (O & ND & E). cbn [app] in *.
  set (d := lrun tr []) in *. set (es := flat_map evs_of tr) in *. unfold items.
  assert (EN : forall h p, In (h, p) d -> entry h es = Some (spelling (fst p), snd p)).
  { intros h p J. rewrite <- E, (In_dget _ _ _ ND J). reflexivity. }
  rewrite items_general.
  - cbn [app]. rewrite <- O. unfold dkeys. rewrite !map_map. apply map_ext_in. intros [h p] J. cbn. symmetry. apply EN. exact J.
  - intros k [].
  - assert (ND2 : NoDup (map (fun p => lower (spelling (fst (snd p)))) d)).
    { replace (map (fun p => lower (spelling (fst (snd p)))) d) with (dkeys d); [exact ND|]. unfold dkeys. apply map_ext_in.
      intros [h p] J. cbn. symmetry. eapply entry_spelling. apply EN. exact J. }
    clear - ND2. revert ND2. rewrite <- (map_map (fun p => spelling (fst (snd p))) lower). apply NoDup_map_inv.
Qed.
End C49.
Print Assumptions C49_case_insensitive_map.
Print Assumptions C49_case_does_not_matter.
Print Assumptions C49_items.

(** A history with several spellings, removal and re-insertion. *)
Example C49_example :
  let tr := [LSet "Name" 1; LSet "Comment" 2; LSet "NAME" 3; LPop "comment"; LSet "cOMMENT" 4; LUpdate [("name", 5)]] in
  Forall proper tr /\ items (lrun tr []) = [("Name", 5); ("cOMMENT", 4)] /\ getitem "nAmE" (lrun tr []) = Some 5.
Proof. split; [|split; reflexivity]. repeat constructor. cbn. intros k v [E|[]]; injection E as <- <-. reflexivity. Qed.

(** The inherited methods are not case-insensitive: [update] with a capitalised key leaves the value that lookup returns
    while [items()] shows the new one, and [get] does not find a key under its own spelling. *)
Theorem C49_inherited_methods_refuted :
  (let d := update [("Name", 2)] (setitem "Name" 1 []) in
   getitem "Name" d = Some 1 /\ items d = [("Name", 2)] /\ length d = 2) /\
  (let d := setitem "Name" 1 ([] : ldict nat) in contains "Name" d = true /\ get "Name" d = None) /\
  (let d := new [("Name", 1)] [] in contains "Name" d = false /\ items d = [("Name", 1)]).
Proof. repeat split. Qed.
Print Assumptions C49_inherited_methods_refuted.

(** * C70: merging entities *)

(** An entity whose properties were set through item assignment. *)
Definition wf_entity (e : entity) : Prop :=
  NoDup (dkeys (en_d e)) /\
  forall h p, In (h, p) (en_d e) -> h = lower (spelling (fst p)) /\ ~ In h forbidden /\ h <> lower (en_rf e).

Lemma wf_set k v e e' : wf_entity e -> ent_set k v e = NOk e' -> wf_entity e'.
Proof.
  intros [ND W]. unfold ent_set. destruct (eqb k "EntityType"); [discriminate|].
  destruct (eqb_spec (lower k) (lower (en_rf e))) as [|NR]; [intros E; injection E as <-; split; [exact ND|exact W]|].
  destruct (mem_spec (lower k) forbidden) as [|NF]; [discriminate|]. intros E; injection E as <-. unfold wf_entity; cbn [en_d en_rf].
  unfold setitem, raw_set. cbn [hkey].
  assert (IN : forall k1 v1, (forall v0, dget (lower k) (en_d e) = Some (k1, v0) \/ k1 = KKey k -> lower k = lower (spelling k1)) ->
     NoDup (dkeys (dset (lower k) (k1, v1) (en_d e))) /\
     ((dget (lower k) (en_d e) = None -> k1 = KKey k) -> (forall k0 v0, dget (lower k) (en_d e) = Some (k0, v0) -> k1 = k0) ->
      forall h p, In (h, p) (dset (lower k) (k1, v1) (en_d e)) -> h = lower (spelling (fst p)) /\ ~ In h forbidden /\ h <> lower (en_rf e))).
  { intros k1 v1 _. split; [apply NoDup_dset; exact ND|]. intros A B h p J.
    assert (D : dget h (dset (lower k) (k1, v1) (en_d e)) = Some p) by (apply In_dget; [apply NoDup_dset; exact ND|exact J]).
    rewrite dget_dset in D. destruct (eqb_spec h (lower k)) as [->|].
    - injection D as <-. cbn. split; [|auto]. destruct (dget (lower k) (en_d e)) as [[k0 v0]|] eqn:D0.
      + rewrite (B _ _ eq_refl). apply dget_In in D0. apply (W _ _ D0).
      + rewrite (A eq_refl). reflexivity.
    - apply W. apply dget_In. exact D. }
  destruct (dget (lower k) (en_d e)) as [[k0 v0]|] eqn:D0.
  - destruct (IN k0 v) as [N I]; [|split; [exact N|apply I]].
    + intros v1 [E| ->]; [|reflexivity]. apply dget_In in D0. symmetry. injection E as _. symmetry. apply (W _ _ D0).
    + discriminate.
    + intros k2 v2 E. injection E as <- _. reflexivity.
  - destruct (IN (KKey k) v) as [N I]; [|split; [exact N|apply I]].
    + intros v1 [E|_]; [discriminate|reflexivity].
    + reflexivity.
    + discriminate.
Qed.

(** The property [k] of an entity. *)
Definition prop (k : string) (e : entity) : option string := getitem k (en_d e).

Lemma prop_set k v e e' x : ent_set k v e = NOk e' -> lower k <> lower (en_rf e) ->
  prop x e' = (if eqb (lower x) (lower k) then Some v else prop x e) /\ en_rf e' = en_rf e /\ en_ref e' = en_ref e.
Proof.
  unfold ent_set. destruct (eqb k "EntityType"); [discriminate|]. destruct (eqb_spec (lower k) (lower (en_rf e))); [contradiction|].
  destruct (mem _ _); [discriminate|]. intros E _; injection E as <-. split; [|auto]. unfold prop, getitem, raw_get. cbn [en_d hkey].
  unfold setitem, raw_set. cbn [hkey]. destruct (dget (lower k) (en_d e)) as [[k0 v0]|] eqn:D; rewrite dget_dset;
    destruct (eqb (lower x) (lower k)); reflexivity.
Qed.

Lemma wf_spellings e : wf_entity e -> NoDup (map (fun p => spelling (fst (snd p))) (en_d e)).
Proof.
  intros [ND W]. assert (ND2 : NoDup (map (fun p => lower (spelling (fst (snd p)))) (en_d e))).
  { replace (map (fun p => lower (spelling (fst (snd p)))) (en_d e)) with (dkeys (en_d e)); [exact ND|]. unfold dkeys.
    apply map_ext_in. intros [h p] J. cbn. apply (W h p J). }
  revert ND2. rewrite <- (map_map (fun p => spelling (fst (snd p))) lower). apply NoDup_map_inv.
Qed.
Lemma wf_keys e : wf_entity e -> keys (en_d e) = map (fun p => spelling (fst (snd p))) (en_d e).
Proof.
  intros W. unfold keys, items, dkeys. rewrite items_general.
  - cbn [app]. rewrite map_map. reflexivity.
  - intros k [].
  - apply wf_spellings. exact W.
Qed.
Lemma wf_keys_lower e : wf_entity e -> map lower (keys (en_d e)) = dkeys (en_d e).
Proof.
  intros W. rewrite wf_keys by exact W. rewrite map_map. unfold dkeys. apply map_ext_in. intros [h p] J. cbn.
  symmetry. apply (proj2 W h p J).
Qed.
Lemma prop_key k e : wf_entity e -> (prop k e <> None <-> In (lower k) (map lower (keys (en_d e)))).
Proof.
  intros W. rewrite wf_keys_lower by exact W. unfold prop, getitem, raw_get. cbn [hkey].
  destruct (dget (lower k) (en_d e)) eqn:D; cbn.
  - split; [intros _; eapply dget_Some_key; eauto|discriminate].
  - split; [congruence|]. intros J. apply dget_None in D. contradiction.
Qed.

Lemma merge_loop_spec other ks : forall self,
  wf_entity self -> wf_entity other -> en_rf self = en_rf other ->
  NoDup (map lower ks) -> (forall k, In k ks -> In k (keys (en_d other))) ->
  (forall k s, In k ks -> In s (keys (en_d self)) -> lower s = lower k -> s = k) ->
  exists self', merge_loop ks self other = (self', None) /\ wf_entity self' /\ en_ref self' = en_ref self /\
    forall x, prop x self' = match prop x self with
                             | Some v => Some v
                             | None => if mem (lower x) (map lower ks) then prop x other else None
                             end.
Proof.
  induction ks as [|k ks IH]; intros self WS WO RF ND SUB CON; cbn [merge_loop].
  { exists self. split; [reflexivity|]. split; [exact WS|]. split; [reflexivity|]. intros x. cbn. destruct (prop x self); reflexivity. }
  cbn in ND. inversion ND as [|? ? N1 N2]; subst.
  destruct (mem_spec k (keys (en_d self))) as [M|M].
  - destruct (IH self) as (s' & E & W' & R' & P); auto.
    + intros k' J. apply SUB. right; exact J.
    + intros k' s J. apply CON. right; exact J.
    + exists s'. repeat (split; [assumption|]). intros x. rewrite P. destruct (prop x self) eqn:PX; [reflexivity|].
      cbn [map]. unfold mem at 2; fold (@mem string _). destruct (eqb_spec (lower x) (lower k)) as [XK|]; [|reflexivity].
      exfalso. assert (Q : prop x self <> None); [|congruence]. apply prop_key; auto. rewrite XK. apply in_map. exact M.
  - assert (KO : In (lower k) (dkeys (en_d other))) by (rewrite <- wf_keys_lower by exact WO; apply in_map; apply SUB; left; reflexivity).
    destruct (dget_key_Some _ _ KO) as [[k0 v] D]. destruct (proj2 WO _ _ (dget_In _ _ _ D)) as (_ & NF & NR).
    assert (PO : prop k other = Some v) by (unfold prop, getitem, raw_get; cbn [hkey]; rewrite D; reflexivity).
    assert (NE : eqb k "EntityType" = false) by (apply eqb_neq; intros ->; apply NF; vm_compute; tauto).
    assert (G : ent_get k other = NOk (VProp v)).
    { unfold ent_get. replace (eqb (lower k) (lower (en_rf other))) with false by (symmetry; apply eqb_neq; exact NR). rewrite NE.
      unfold prop in PO. rewrite PO. reflexivity. }
    rewrite G. rewrite <- RF in NR.
    destruct (ent_set k v self) as [s1|e] eqn:S.
    2:{ exfalso. unfold ent_set in S. rewrite NE in S. destruct (eqb (lower k) (lower (en_rf self))); [discriminate|].
        rewrite (proj2 (mem_nIn _ _) NF) in S. discriminate. }
    assert (PN : prop k self = None).
    { destruct (prop k self) as [pv|] eqn:Q; [|reflexivity]. exfalso. assert (Q' : prop k self <> None) by congruence.
      apply prop_key in Q'; auto. apply in_map_iff in Q' as (sx & E & J). apply M. rewrite <- (CON k sx); auto. left; reflexivity. }
    pose proof (wf_set _ _ _ _ WS S) as W1.
    assert (PS : forall x, prop x s1 = if eqb (lower x) (lower k) then Some v else prop x self) by (intros x; apply (prop_set _ _ _ _ x S NR)).
    destruct (prop_set _ _ _ _ k S NR) as (_ & RF1 & RR1).
    destruct (IH s1) as (s' & E & W' & R' & P); auto.
    + congruence.
    + intros k' J. apply SUB. right; exact J.
    + intros k' s J JS L. apply (CON k' s); [right; exact J| |exact L].
      assert (NKK : lower k' <> lower k) by (intros X; apply N1; rewrite <- X; apply in_map; exact J).
      assert (Q : keys (en_d s1) = keys (en_d self) ++ [k]).
      { rewrite !wf_keys by assumption. clear - S NE NR NF PN. unfold ent_set in S. rewrite NE in S.
        destruct (eqb_spec (lower k) (lower (en_rf self))); [contradiction|]. rewrite (proj2 (mem_nIn _ _) NF) in S. injection S as <-.
        cbn [en_d]. unfold setitem, raw_set. cbn [hkey]. unfold prop, getitem, raw_get in PN. cbn [hkey] in PN.
        destruct (dget (lower k) (en_d self)) eqn:D; [discriminate|].
        replace (dset (lower k) (KKey k, v) (en_d self)) with (en_d self ++ [(lower k, (KKey k, v))]); [rewrite map_app; reflexivity|].
        apply dget_None in D. clear - D. unfold dkeys in D. induction (en_d self) as [|[a b] r IH]; cbn in *; [reflexivity|].
        destruct (eqb_spec (lower k) a) as [<-|]; [exfalso; auto|]. f_equal. apply IH. tauto. }
      rewrite Q, in_app_iff in JS. destruct JS as [JS|[<-|[]]]; [exact JS|congruence].
    + exists s'. split; [exact E|]. split; [exact W'|]. split; [congruence|]. intros x. rewrite P, PS. cbn [map].
      unfold mem at 2; fold (@mem string _). destruct (eqb_spec (lower x) (lower k)) as [XK|]; [|reflexivity].
      replace (prop x self) with (prop k self) by (unfold prop, getitem, raw_get; cbn [hkey]; rewrite XK; reflexivity). rewrite PN.
      unfold prop, getitem, raw_get in PO |- *. cbn [hkey] in *. rewrite XK. symmetry. exact PO.
Qed.

(** Merging entities whose shared properties are spelled the same way: nothing the first entity had changes, and it gains
    exactly the properties it lacked. *)
Theorem C70_merge_adds_only_missing_partial self other :
  wf_entity self -> wf_entity other -> en_rf self = en_rf other -> en_type self = en_type other -> en_ext self = en_ext other ->
  (forall k s, In k (keys (en_d other)) -> In s (keys (en_d self)) -> lower s = lower k -> s = k) ->
  exists self', merge self other = (self', None) /\ en_ref self' = en_ref self /\
    forall x, prop x self' = match prop x self with Some v => Some v | None => prop x other end.
Proof.
  intros WS WO RF T X CON. unfold merge. rewrite T, X, !eqb_refl. cbn [negb].
  destruct (merge_loop_spec other (keys (en_d other)) self) as (s' & E & W & R & P); auto.
  - rewrite wf_keys_lower by exact WO. apply WO.
  - exists s'. split; [exact E|]. split; [exact R|]. intros x. rewrite P. destruct (prop x self); [reflexivity|].
    destruct (mem_spec (lower x) (map lower (keys (en_d other)))) as [M|M]; [reflexivity|].
    destruct (prop x other) eqn:Q; [|reflexivity]. exfalso. apply M. apply prop_key; [exact WO|congruence].
Qed.
Print Assumptions C70_merge_adds_only_missing_partial.

(** A merge between entities of different type or external reference is refused without any change. *)
Theorem C70_merge_refused self other : en_type self <> en_type other \/ en_ext self <> en_ext other ->
  merge self other = (self, Some NMergeError).
Proof.
  intros H. unfold merge. destruct (eqb_spec (en_type self) (en_type other)) as [E1|]; [|reflexivity]. cbn [negb].
  destruct (eqb_spec (en_ext self) (en_ext other)) as [E2|]; [|reflexivity]. destruct H; contradiction.
Qed.
Print Assumptions C70_merge_refused.

(** Entities built by item assignments satisfy [wf_entity]. *)
Definition blank (t x rf : string) : entity := Entity t x rf None (setitem "Comment" "" (setitem "Name" "" [])).
Lemma wf_blank t x rf : lower rf <> "name" -> lower rf <> "comment" -> wf_entity (blank t x rf).
Proof.
  intros A B. split.
  - change (NoDup ["name"; "comment"]). apply NoDup_cons; [intros [H|[]]; discriminate H|]. apply NoDup_cons; [intros []|constructor].
  - change (forall h p, In (h, p) [("name", (KKey "Name", "")); ("comment", (KKey "Comment", ""))] ->
      h = lower (spelling (fst p)) /\ ~ In h forbidden /\ h <> lower rf).
    intros h p [E|[E|[]]]; injection E as <- <-; (split; [reflexivity|]; split; [|congruence]);
      intros [H|[H|[H|[H|[]]]]]; discriminate H.
Qed.
Fixpoint assign (l : list (string * string)) (e : entity) : nres entity :=
  match l with [] => NOk e | (k, v) :: r => match ent_set k v e with NOk e' => assign r e' | x => x end end.
Theorem C70_assigned_entities_are_well_formed t x rf l e :
  lower rf <> "name" -> lower rf <> "comment" -> assign l (blank t x rf) = NOk e -> wf_entity e.
Proof.
  intros A B. pose proof (wf_blank t x rf A B) as W. revert W. generalize (blank t x rf).
  induction l as [|[k v] l IH]; cbn; intros e0 W E; [injection E as <-; exact W|].
  destruct (ent_set k v e0) as [e1|] eqn:S; [|discriminate]. eapply IH; [eapply wf_set; eauto|exact E].
Qed.
Print Assumptions C70_assigned_entities_are_well_formed.

(** Without the condition on the spelling the property is false: a property of the first entity is overwritten. *)
Theorem C70_merge_overwrites_refuted : exists self other self',
  assign [("Region", "US")] (blank "flow" "f" "referenceQuantity") = NOk self /\
  assign [("region", "EU")] (blank "flow" "f" "referenceQuantity") = NOk other /\
  merge self other = (self', None) /\ prop "Region" self = Some "US" /\ prop "Region" self' = Some "EU".
Proof. eexists _, _, _. repeat split; vm_compute; reflexivity. Qed.
Print Assumptions C70_merge_overwrites_refuted.

Example C70_example : exists self other self',
  assign [("Name", "steel"); ("Region", "US")] (blank "flow" "f" "referenceQuantity") = NOk self /\
  assign [("Name", "iron"); ("Density", "7")] (blank "flow" "f" "referenceQuantity") = NOk other /\
  merge self other = (self', None) /\ prop "name" self' = Some "steel" /\ prop "density" self' = Some "7" /\
  (forall k s, In k (keys (en_d other)) -> In s (keys (en_d self)) -> lower s = lower k -> s = k).
Proof.
  eexists _, _, _. repeat split; try (vm_compute; reflexivity).
  intros k s J1 J2. vm_compute in J1, J2. destruct J1 as [<-|[<-|[<-|[]]]], J2 as [<-|[<-|[<-|[]]]]; vm_compute; congruence.
Qed.

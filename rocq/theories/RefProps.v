(** C108: the properties of an entity read through a reference to it. *)
From Coq Require Import String List.
From Verif Require Import Num Base PyStr LowerModel FlowModel ProcModel ConfModel InvModel RefModel.
Open Scope nat_scope.
Open Scope string_scope.
Open Scope list_scope.

Lemma append_inj a b c : (a ++ b)%string = (a ++ c)%string -> b = c.
Proof. induction a as [|x a IH]; cbn; [auto|]. intros E. injection E as E. auto. Qed.
Lemma append_length a b : String.length (a ++ b)%string = String.length a + String.length b.
Proof. induction a as [|x a IH]; cbn; [reflexivity|]. rewrite IH. reflexivity. Qed.
Lemma lower_length s : String.length (lower s) = String.length s.
Proof. induction s as [|c s IH]; cbn; [reflexivity|]. rewrite IH. reflexivity. Qed.
Lemma local_neq k k' : String.length k = String.length k' -> k <> ("local_" ++ k')%string.
Proof. intros E X. apply (f_equal String.length) in X. rewrite append_length in X. cbn in X. lia. Qed.
(** Specification: an entity without properties whose name starts with local_. *)
Definition no_local (d : ldict pv) : Prop := forall k, LowerModel.getitem ("local_" ++ k)%string d = None.
(** A reference all of whose properties are the entity's. *)
Definition mirrors (d : ldict pv) (r : rdict) : Prop := forall k v, dget k r = Some v -> LowerModel.getitem k d = Some v.
Lemma mirrors_props sig d : mirrors d (ref_props sig d).
Proof.
  unfold ref_props. cut (forall r, mirrors d r -> mirrors d (fold_left (fun r k => match LowerModel.getitem k d with Some v => dset k v r | None => r end) sig r)).
  - intros H. apply H. intros k v X. discriminate.
  - induction sig as [|s sig IH]; intros r M; cbn [fold_left]; [exact M|]. apply IH. destruct (LowerModel.getitem s d) as [v|] eqn:G; [|exact M].
    intros k w. rewrite dget_dset. destruct (eqb_spec k s) as [->|]; [intros E; injection E as <-; exact G|apply M].
Qed.
Lemma local_mirror d r k : no_local d -> mirrors d r -> localitem r k = match dget k r with Some v => v | None => PNone end.
Proof.
  intros NL M. unfold localitem. destruct (dget k r); [reflexivity|]. destruct (dget ("local_" ++ k)%string r) eqn:L; [|reflexivity].
  apply M in L. rewrite NL in L. discriminate.
Qed.
Lemma get_mirror d r k : no_local d -> mirrors d r -> mirrors d (fst (get_item [HEntity d] false k r)).
Proof.
  intros NL M. unfold get_item. destruct (localitem r k) eqn:L; try exact M. cbn [query_get_item impl_get_item].
  destruct (LowerModel.getitem k d) as [v|] eqn:G; [|exact M].
  destruct v as [|s|n]; cbn [fst]; [exact M| |].
  - destruct s; cbn [fst]; [exact M|]. intros j w. rewrite dget_dset. destruct (eqb_spec j k) as [->|]; [intros E; injection E as <-; exact G|apply M].
  - intros j w. rewrite dget_dset. destruct (eqb_spec j k) as [->|]; [intros E; injection E as <-; exact G|apply M].
Qed.
(** the reference after a sequence of reads *)
Definition reads (l : list holds) (ks : list string) (r : rdict) : rdict := fold_left (fun r k => fst (get_item l false k r)) ks r.
Lemma reads_mirror d ks : forall r, no_local d -> mirrors d r -> mirrors d (reads [HEntity d] ks r).
Proof. induction ks as [|k ks IH]; intros r NL M; [exact M|]. apply IH; [exact NL|]. apply get_mirror; assumption. Qed.

(** Through a reference made from an entity, after any reads, a property of the entity that is neither None nor the empty string is read as the entity has it, under any
    spelling; what the entity does not have is a KeyError.  Missing: None, the empty string, properties named local_..., a second resource -- see below. *)
Theorem C108_reads_partial : forall sig d ks k, no_local d ->
  let x := snd (ref_getitem [HEntity d] k (reads [HEntity d] ks (ref_props sig d))) in
  (forall v, LowerModel.getitem k d = Some v -> v <> PNone -> v <> PStr "" -> x = inl v)
  /\ (LowerModel.getitem k d = None -> x = inr RKeyError).
Proof.
  intros sig d ks k NL x. subst x. pose proof (reads_mirror d ks _ NL (mirrors_props sig d)) as M. set (r := reads _ _ _) in *. clearbody r.
  unfold ref_getitem, get_item. rewrite (local_mirror d r k NL M). destruct (dget k r) as [w|] eqn:D.
  - apply M in D. rewrite D. split; [|discriminate]. intros v E N0 N1. injection E as <-. destruct w as [|s|n]; [contradiction|reflexivity|reflexivity].
  - cbn [query_get_item impl_get_item]. split.
    + intros v -> N0 N1. destruct v as [|s|n]; [contradiction| |reflexivity]. destruct s; [contradiction|reflexivity].
    + intros ->. reflexivity.
Qed.
(** A property that is None is not read as absent: the entity is said not to exist. *)
Theorem C108_refuted_none : forall d k r, LowerModel.getitem k d = Some PNone -> localitem r k = PNone -> snd (ref_getitem [HEntity d] k r) = inr RNotFound.
Proof. intros d k r G L. unfold ref_getitem, get_item. rewrite L. cbn [query_get_item impl_get_item]. rewrite G. reflexivity. Qed.
(** An empty property is a KeyError, unless it was copied when the reference was made. *)
Theorem C108_refuted_empty : forall sig d ks k, no_local d -> LowerModel.getitem k d = Some (PStr "") ->
  snd (ref_getitem [HEntity d] k (reads [HEntity d] ks (ref_props sig d))) = if mem k sig then inl (PStr "") else inr RKeyError.
Proof.
  intros sig d ks k NL G. pose proof (mirrors_props sig d) as M.
  assert (R : forall ks r, mirrors d r -> mirrors d (reads [HEntity d] ks r) /\ (dget k (reads [HEntity d] ks r) = dget k r)).
  { clear ks. induction ks as [|j ks IH]; intros r Mr; [auto|]. cbn [reads fold_left]. fold (reads [HEntity d] ks (fst (get_item [HEntity d] false j r))).
    destruct (IH _ (get_mirror d r j NL Mr)) as [I1 I2]. split; [exact I1|]. rewrite I2. unfold get_item. destruct (localitem r j) eqn:L; try reflexivity.
    cbn [query_get_item impl_get_item]. destruct (LowerModel.getitem j d) as [v|] eqn:Gj; [|reflexivity].
    destruct v as [|[|c s]|n]; try reflexivity; cbn [fst]; rewrite dget_dset; destruct (eqb_spec k j) as [->|]; try reflexivity; congruence. }
  destruct (R ks _ M) as [Mr Er]. unfold ref_getitem, get_item. rewrite (local_mirror d _ k NL Mr), Er.
  assert (S : dget k (ref_props sig d) = if mem k sig then Some (PStr "") else None).
  { unfold ref_props. cut (forall r, dget k (fold_left (fun r k => match LowerModel.getitem k d with Some v => dset k v r | None => r end) sig r) = if mem k sig then Some (PStr "") else dget k r).
    - intros H. rewrite H. reflexivity.
    - clear - G. induction sig as [|s sig IH]; intros r; cbn [fold_left mem]; [reflexivity|]. rewrite IH. destruct (eqb_spec k s) as [<-|N]; cbn [orb].
      + rewrite G, dget_dset_same. destruct (mem k sig); reflexivity.
      + destruct (mem k sig); [reflexivity|]. destruct (LowerModel.getitem s d); [rewrite dget_dset_other by congruence|]; reflexivity. }
  rewrite S. destruct (mem k sig); [reflexivity|]. cbn [query_get_item impl_get_item]. rewrite G. reflexivity.
Qed.
(** Several resources of an origin: the first that does not raise EntityNotFound decides ... *)
Theorem C108_resources : forall l1 h l2 k r, (forall x, In x l1 -> x = HRaises) -> localitem r k = PNone ->
  (forall d v, h = HEntity d -> LowerModel.getitem k d = Some v -> v <> PNone -> v <> PStr "" -> snd (ref_getitem (l1 ++ h :: l2) k r) = inl v).
Proof.
  intros l1 h l2 k r A L d v -> G N0 N1. unfold ref_getitem, get_item. rewrite L.
  assert (Q : query_get_item (l1 ++ HEntity d :: l2) k = inl v).
  { induction l1 as [|x l1 IH]; cbn [app query_get_item].
    - cbn [impl_get_item]. rewrite G. destruct v; [contradiction|reflexivity|reflexivity].
    - rewrite (A x) by (left; reflexivity). cbn [impl_get_item]. apply IH. intros y Y. apply A. right. exact Y. }
  rewrite Q. destruct v as [|[|c s]|n]; try contradiction; reflexivity.
Qed.
(** ... so a property that only the second resource has is not found, even if the entity itself is only in the second (a static archive does not raise). *)
Theorem C108_refuted_resources : forall h l k r, (h = HNothing \/ exists d, h = HEntity d /\ LowerModel.getitem k d = None) -> localitem r k = PNone ->
  snd (ref_getitem (h :: l) k r) = inr RKeyError.
Proof.
  intros h l k r H L. unfold ref_getitem, get_item. rewrite L. destruct H as [->|[d [-> G]]]; cbn [query_get_item impl_get_item]; [|rewrite G]; reflexivity.
Qed.
(** A property assigned to a reference: read back if the name is in lower case and the reference has not yet a value under that name. *)
Theorem C108_assigned_partial : forall l k v r, lower k = k -> prefix "local_" k = false -> dget k r = None -> v <> PNone ->
  snd (ref_getitem l k (set_prop k v r)) = inl v.
Proof.
  intros l k v r LK P D N. unfold ref_getitem, get_item, localitem, set_prop. rewrite LK, P. rewrite dget_dset_other by (apply local_neq; reflexivity).
  rewrite D, dget_dset_same. destruct v; [contradiction|reflexivity|reflexivity].
Qed.
(** A name with a capital letter: the assignment has no effect on reading it. *)
Theorem C108_refuted_capital : forall l k v r, lower k <> k -> snd (ref_getitem l k (set_prop k v r)) = snd (ref_getitem l k r).
Proof.
  intros l k v r LK. assert (E : localitem (set_prop k v r) k = localitem r k).
  { unfold localitem, set_prop. destruct (prefix "local_" (lower k)) eqn:P.
    - rewrite dget_dset_other by congruence. rewrite (dget_dset_other _ _ v r (fun X => local_neq (lower k) k (lower_length k) (eq_sym X))). reflexivity.
    - rewrite dget_dset_other by (apply local_neq; rewrite lower_length; reflexivity). rewrite dget_dset_other; [reflexivity|].
      intros X. apply append_inj in X. congruence. }
  unfold ref_getitem, get_item. rewrite E. destruct (localitem r k); [|reflexivity|reflexivity].
  destruct (query_get_item l k) as [[|[|c s]|n]|[]]; reflexivity.
Qed.
(** A name that was read before: the assignment has no effect either. *)
Theorem C108_refuted_shadowed : forall l k v w r, prefix "local_" (lower k) = false -> dget k r = Some w -> w <> PNone -> snd (ref_getitem l k (set_prop k v r)) = inl w.
Proof.
  intros l k v w r P D N. unfold ref_getitem, get_item, localitem, set_prop. rewrite P, dget_dset_other by (apply local_neq; rewrite lower_length; reflexivity).
  rewrite D. destruct w; [contradiction|reflexivity|reflexivity].
Qed.
(** What was read once is not asked for again, whatever becomes of the entity. *)
Theorem C108_refuted_stale : forall l l' k v r, snd (ref_getitem l k r) = inl v -> snd (ref_getitem l' k (fst (ref_getitem l k r))) = inl v.
Proof.
  intros l l' k v r H. unfold ref_getitem in *. destruct (get_item l false k r) as [r' [w|e]] eqn:G; [|discriminate].
  assert (L : localitem r' k = w \/ w = PNone).
  { unfold get_item in G. destruct (localitem r k) as [|s|n] eqn:L; [|assert (r' = r /\ w = PStr s) as [-> ->] by (split; congruence); auto|assert (r' = r /\ w = PObj n) as [-> ->] by (split; congruence); auto].
    destruct (query_get_item l k) as [[|[|c s]|n]|[]]; try discriminate; inversion G; subst; auto; left; unfold localitem; rewrite dget_dset_same; reflexivity. }
  destruct w as [|s|n]; [discriminate| |]; destruct L as [L|L]; try discriminate; cbn [snd fst] in *; unfold get_item; rewrite L; exact H.
Qed.
(** Merging: each property is the other's where the other has it, whatever the left argument has. *)
Theorem C108_merge : forall r other k, NoDup (dkeys other) -> dget k (merge r other) = match dget k other with Some v => Some v | None => dget k r end.
Proof.
  intros r other k. unfold merge. revert r. induction other as [|[j w] other IH]; intros r N; cbn [fold_left dget fst snd]; [reflexivity|].
  cbn [dkeys map fst] in N. inversion N as [|? ? N1 N2]; subst. rewrite IH by exact N2. destruct (eqb_spec k j) as [->|NE].
  - rewrite dget_dset_same. destruct (dget j other) eqn:D; [|reflexivity]. exfalso. apply N1. eapply dget_Some_key, D.
  - rewrite dget_dset_other by congruence. reflexivity.
Qed.
(** A reference is bound to the query that asked first: every later caller gets that one.  A fragment can be referenced only once: every later call raises. *)
Fixpoint make_refs (memo : option nat) (qs : list nat) : list nat :=
  match qs with [] => [] | q :: r => let '(m, x) := make_ref memo q in x :: make_refs m r end.
Fixpoint fragment_make_refs (st : option nat * bool) (qs : list nat) : list (nat + rexn) :=
  match qs with [] => [] | q :: r => let '(st, x) := fragment_make_ref (fst st) (snd st) q in x :: fragment_make_refs st r end.
Theorem C108_make_ref : forall q qs, make_refs None (q :: qs) = map (fun _ => q) (q :: qs).
Proof. intros q qs. cbn. f_equal. induction qs as [|x qs IH]; [reflexivity|]. cbn. rewrite IH. reflexivity. Qed.
Theorem C108_refuted_fragment : forall q qs, fragment_make_refs (None, false) (q :: qs) = inl q :: map (fun _ => inr RAttribute) qs.
Proof. intros q qs. cbn. f_equal. induction qs as [|x qs IH]; [reflexivity|]. cbn. rewrite IH. reflexivity. Qed.
Print Assumptions C108_reads_partial. Print Assumptions C108_refuted_empty. Print Assumptions C108_refuted_capital. Print Assumptions C108_refuted_stale.
(** A flow with a name, an empty comment, a number and an empty note. *)
Definition steel : ldict pv := LowerModel.setitem "Note" (PStr "") (LowerModel.setitem "Density" (PObj 785) (LowerModel.setitem "Comment" (PStr "") (LowerModel.setitem "Name" (PStr "steel") []))).
Lemma steel_no_local : no_local steel.
Proof. intros k. unfold no_local, LowerModel.getitem, raw_get. cbn [hkey lower String.append]. reflexivity. Qed.
Example C108_example : snd (ref_getitem [HEntity steel] "density" (ref_props ["Name"; "Comment"] steel)) = inl (PObj 785)
  /\ snd (ref_getitem [HEntity steel] "Comment" (ref_props ["Name"; "Comment"] steel)) = inl (PStr "")
  /\ snd (ref_getitem [HEntity steel] "Note" (ref_props ["Name"; "Comment"] steel)) = inr RKeyError
  /\ snd (ref_getitem [HEntity steel] "grade" (set_prop "grade" (PStr "A36") (ref_props ["Name"; "Comment"] steel))) = inl (PStr "A36")
  /\ snd (ref_getitem [HEntity steel] "Grade" (set_prop "Grade" (PStr "A36") (ref_props ["Name"; "Comment"] steel))) = inr RKeyError
  /\ snd (ref_getitem [HNothing; HEntity steel] "Density" (ref_props ["Name"; "Comment"] steel)) = inr RKeyError.
Proof. repeat split; vm_compute; reflexivity. Qed.

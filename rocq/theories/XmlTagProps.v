(** C132: the search for tags (xml_widgets.py). *)
From Coq Require Import String List Bool Arith Lia Sorted.
From Verif Require Import XmlTagModel.
Import ListNotations.
Open Scope string_scope.
Open Scope nat_scope.
Open Scope list_scope.

(** Where an element is: the positions of the children on the way to it; and the order of the document. *)
Fixpoint at_path (e : el) (p : list nat) : option el :=
  match p with
  | [] => Some e
  | i :: q => match nth_error (kids e) i with Some c => at_path c q | None => None end
  end.
Fixpoint before (p q : list nat) : Prop :=
  match p, q with
  | [], _ :: _ => True
  | i :: p', j :: q' => i < j \/ (i = j /\ before p' q')
  | _, [] => False
  end.
Definition in_order : list (list nat * el) -> Prop := StronglySorted (fun a b => before (fst a) (fst b)).
Definition is_named (u tag : string) (e : el) : Prop := match e with El n t _ _ => n = u /\ t = tag end.
(** [at_prefix m ns u]: the namespace of the first entry for the prefix. *)
Definition at_prefix (m : nsmap) (ns : option string) (u : string) : Prop :=
  exists a b, m = a ++ (ns, u) :: b /\ forall k v, In (k, v) a -> k <> ns.

Fixpoint el_ind2 (P : el -> Prop) (H : forall n t x c, Forall P c -> P (El n t x c)) (e : el) : P e :=
  match e with
  | El n t x c => H n t x c ((fix go l : Forall P l := match l with [] => Forall_nil P | a :: r => Forall_cons a (el_ind2 P H a) (go r) end) c)
  end.
Lemma ss_app {A} (R : A -> A -> Prop) l r : StronglySorted R l -> StronglySorted R r -> (forall a b, In a l -> In b r -> R a b) -> StronglySorted R (l ++ r).
Proof.
  induction 1 as [|a l S IH F]; intros Sr C; [exact Sr|]. cbn. constructor; [apply IH; [exact Sr|intros; apply C; [right|]; assumption]|].
  apply Forall_app. split; [exact F|]. apply Forall_forall. intros b I. apply C; [left; reflexivity|exact I].
Qed.
Lemma ss_map {A B} (R : A -> A -> Prop) (R' : B -> B -> Prop) (f : A -> B) l : (forall a b, R a b -> R' (f a) (f b)) -> StronglySorted R l -> StronglySorted R' (map f l).
Proof. intros M. induction 1 as [|a l S IH F]; cbn; constructor; [exact IH|]. apply Forall_map. eapply Forall_impl; [|exact F]. auto. Qed.
Lemma ss_filter {A} (R : A -> A -> Prop) f l : StronglySorted R l -> StronglySorted R (filter f l).
Proof.
  induction 1 as [|a l S IH F]; cbn; [constructor|]. destruct (f a); [|exact IH]. constructor; [exact IH|].
  apply Forall_forall. intros b I. apply filter_In in I as (I & _). rewrite Forall_forall in F. auto.
Qed.
Definition placed (e : el) (l : list (list nat * el)) : Prop :=
  map snd l = iter e /\ (forall p x, In (p, x) l <-> at_path e p = Some x) /\ in_order l.
Definition placed_from (i : nat) (c : list el) (l : list (list nat * el)) : Prop :=
  map snd l = flat_map iter c /\ (forall p x, In (p, x) l <-> exists k q a, p = (i + k) :: q /\ nth_error c k = Some a /\ at_path a q = Some x) /\ in_order l.
Lemma forest c : Forall (fun e => exists l, placed e l) c -> forall i, exists l, placed_from i c l.
Proof.
  induction 1 as [|e c (l & A & B & C) _ IH]; intros i.
  - exists []. split; [reflexivity|]. split; [|constructor]. intros p x. split; [intros []|]. intros ([|k] & q & a & _ & E & _); discriminate E.
  - destruct (IH (S i)) as (r & A' & B' & C'). exists (map (fun y => (i :: fst y, snd y)) l ++ r). split; [|split].
    + rewrite map_app, map_map. cbn [flat_map]. rewrite <- A, A'. reflexivity.
    + intros p x. rewrite in_app_iff, in_map_iff, B'. split.
      * intros [((q & y) & E & I)|(k & q & a & -> & N & P)].
        -- cbn in E. injection E as <- <-. apply B in I. exists 0, q, e. rewrite Nat.add_0_r. auto.
        -- exists (S k), q, a. rewrite <- plus_n_Sm. auto.
      * intros ([|k] & q & a & -> & N & P).
        -- left. cbn in N. injection N as <-. exists (q, x). rewrite Nat.add_0_r. split; [reflexivity|]. apply B, P.
        -- right. exists k, q, a. rewrite <- plus_n_Sm. auto.
    + apply ss_app; [|exact C'|].
      * eapply ss_map; [|exact C]. intros a b L. right. split; [reflexivity|exact L].
      * intros a (p & x) Ia Ib. apply in_map_iff in Ia as (y & <- & _). apply B' in Ib as (k & q & b & -> & _). left. cbn. lia.
Qed.
Lemma below_placed e : exists l, map snd l = flat_map iter (kids e) /\ (forall p x, In (p, x) l <-> p <> [] /\ at_path e p = Some x) /\ in_order l.
Proof.
  assert (G : forall e, exists l, placed e l).
  { apply el_ind2. intros n t x c F. destruct (forest c F 0) as (l & A & B & C). exists (([], El n t x c) :: l). split; [|split].
    - cbn [map snd iter]. rewrite A. reflexivity.
    - intros p y. cbn [In]. rewrite B. split.
      + intros [[= <- <-]|(k & q & a & -> & N & P)]; [reflexivity|]. cbn. rewrite N. exact P.
      + destruct p as [|k q]; [intros [= <-]; left; reflexivity|]. cbn. destruct (nth_error c k) as [a|] eqn:N; [|discriminate]. intros P. right. exists k, q, a. auto.
    - constructor; [exact C|]. apply Forall_forall. intros (p & y) I. apply B in I as (k & q & a & -> & _). exact I. }
  destruct (forest (kids e)) with (i := 0) as (l & A & B & C). { apply Forall_forall. intros x _. apply G. }
  exists l. split; [exact A|]. split; [|exact C]. intros p x. rewrite B. split.
  - intros (k & q & a & -> & N & P). split; [discriminate|]. cbn. rewrite N. exact P.
  - intros (Np & P). destruct p as [|k q]; [easy|]. cbn in P. destruct (nth_error (kids e) k) as [a|] eqn:N; [|discriminate]. exists k, q, a. auto.
Qed.
Lemma named_spec u tag e : named u tag e = true <-> is_named u tag e.
Proof. destruct e as [n t x c]. cbn. rewrite andb_true_iff, !String.eqb_eq. reflexivity. Qed.
Lemma filter_snd f (l : list (list nat * el)) : filter f (map snd l) = map snd (filter (fun y => f (snd y)) l).
Proof. induction l as [|y l IH]; cbn; [reflexivity|]. destruct (f (snd y)); cbn; rewrite IH; reflexivity. Qed.
Lemma same_prefix_spec a b : same_prefix a b = true <-> a = b.
Proof. destruct a, b; cbn; try easy. rewrite String.eqb_eq. split; [intros ->; reflexivity|intros [= ->]; reflexivity]. Qed.
Lemma find_split {A} (f : A -> bool) l x : List.find f l = Some x <-> exists a b, l = a ++ x :: b /\ f x = true /\ forall y, In y a -> f y = false.
Proof.
  split.
  - induction l as [|y l IH]; cbn; [discriminate|]. destruct (f y) eqn:E.
    + intros [= ->]. exists [], l. split; [reflexivity|]. split; [exact E|intros _ []].
    + intros H. destruct (IH H) as (a & b & -> & X & N). exists (y :: a), b. split; [reflexivity|]. split; [exact X|]. intros z [<-|I]; auto.
  - intros (a & b & -> & X & N). induction a as [|y a IH]; cbn; [rewrite X; reflexivity|]. rewrite (N y (or_introl eq_refl)). apply IH. intros z I. apply N. right. exact I.
Qed.
Lemma ns_of_spec m ns u : ns_of m ns = Some u <-> at_prefix m ns u.
Proof.
  unfold ns_of, at_prefix. split.
  - destruct (List.find _ m) as [[k v]|] eqn:F; [|discriminate]. intros [= <-]. apply find_split in F as (a & b & -> & E & N). apply same_prefix_spec in E. cbn in E. subst k.
    exists a, b. split; [reflexivity|]. intros k w I ->. specialize (N _ I). cbn in N. assert (same_prefix ns ns = true) by (apply same_prefix_spec; reflexivity). congruence.
  - intros (a & b & -> & N). assert (F : List.find (fun kv => same_prefix (fst kv) ns) (a ++ (ns, u) :: b) = Some (ns, u)).
    { apply find_split. exists a, b. split; [reflexivity|]. split; [apply same_prefix_spec; reflexivity|]. intros (k, v) I. cbn. destruct (same_prefix k ns) eqn:E; [|reflexivity].
      apply same_prefix_spec in E. elim (N k v I E). }
    rewrite F. reflexivity.
Qed.

(** ** All elements of the name below the element, in the order of the document; an empty text if there are none. *)
Theorem C132_find_tags m o tag ns u : at_prefix m ns u -> exists l,
  (forall p x, In (p, x) l <-> p <> [] /\ at_path o p = Some x /\ is_named u tag x)
  /\ in_order l
  /\ find_tags m o tag ns = Many (match l with [] => [EmptyText] | _ => map (fun y => Element (snd y)) l end).
Proof.
  intros P. apply ns_of_spec in P. unfold find_tags. rewrite P. destruct (below_placed o) as (l & A & B & C). rewrite <- A, filter_snd.
  exists (filter (fun y => named u tag (snd y)) l). split; [|split].
  - intros p x. rewrite filter_In, B. cbn. rewrite named_spec. tauto.
  - apply ss_filter, C.
  - destruct (filter _ l) as [|y r]; [reflexivity|]. cbn [map]. rewrite map_map. reflexivity.
Qed.
(** The first of them. *)
Theorem C132_find_tag m o tag ns : find_tag m o tag ns =
  match find_tags m o tag ns with ManyKey => OneKey | Many [] => OneKey | Many (f :: _) => One f end.
Proof.
  unfold find_tag, find_tags. destruct (ns_of m ns) as [u|]; [|reflexivity]. f_equal. induction (flat_map iter (kids o)) as [|y l IH]; [reflexivity|].
  cbn [List.find filter]. destruct (named u tag y); [reflexivity|exact IH].
Qed.
(** KeyError, just for a prefix the element does not know. *)
Theorem C132_unknown_prefix m o tag ns : find_tags m o tag ns = ManyKey <-> ~ In ns (map fst m).
Proof.
  unfold find_tags, ns_of. destruct (List.find (fun kv => same_prefix (fst kv) ns) m) as [kv|] eqn:F.
  - split; [discriminate|]. intros N. apply find_some in F as (I & E). apply same_prefix_spec in E. elim N. rewrite <- E. apply in_map, I.
  - split; [|reflexivity]. intros _ I. apply in_map_iff in I as (kv & E & I). pose proof (find_none _ _ F _ I) as X. cbn in X.
    assert (same_prefix (fst kv) ns = true) by (apply same_prefix_spec; exact E). congruence.
Qed.
Lemma ends_spec d v : ends d v = true <-> exists u, v = (u ++ d)%string.
Proof.
  induction v as [|c v IH]; cbn [ends]; rewrite orb_true_iff, String.eqb_eq.
  - split; [intros [->|X]; [exists ""; reflexivity|discriminate]|]. intros ([|c u] & E); [left; symmetry; exact E|discriminate E].
  - rewrite IH. split; [intros [->|(u & ->)]; [exists ""; reflexivity|exists (String c u); reflexivity]|].
    intros ([|x u] & E); [left; symmetry; exact E|]. right. cbn in E. injection E as <- ->. exists u. reflexivity.
Qed.
(** The prefix of a data type: the first whose namespace ends with it; StopIteration if there is none. *)
Theorem C132_find_ns m d k : find_ns m d = Some k <-> exists a v b, m = a ++ (k, v) :: b
  /\ (exists u, v = (u ++ d)%string) /\ forall k' u, ~ In (k', (u ++ d)%string) a.
Proof.
  unfold find_ns. split.
  - destruct (List.find _ m) as [[k' v]|] eqn:F; [|discriminate]. intros [= ->]. apply find_split in F as (a & b & -> & E & N). exists a, v, b.
    split; [reflexivity|]. split; [apply ends_spec, E|]. intros k' u I. specialize (N _ I). cbn in N. assert (ends d (u ++ d) = true) by (apply ends_spec; eauto). congruence.
  - intros (a & v & b & -> & E & N). assert (F : List.find (fun kv => ends d (snd kv)) (a ++ (k, v) :: b) = Some (k, v)).
    { apply find_split. exists a, b. split; [reflexivity|]. split; [apply ends_spec, E|]. intros (k', v') I. cbn. destruct (ends d v') eqn:X; [|reflexivity].
      apply ends_spec in X as (u & ->). elim (N k' u I). }
    rewrite F. reflexivity.
Qed.
Theorem C132_no_ns m d : find_ns m d = None <-> forall k u, ~ In (k, (u ++ d)%string) m.
Proof.
  unfold find_ns. destruct (List.find _ m) as [[k v]|] eqn:F.
  - split; [discriminate|]. intros N. apply find_some in F as (I & E). apply ends_spec in E as (u & E). cbn in E. subst v. elim (N k u I).
  - split; [|reflexivity]. intros _ k u I. pose proof (find_none _ _ F _ I) as X. cbn in X. assert (ends d (u ++ d) = true) by (apply ends_spec; eauto). congruence.
Qed.
Definition leaf (t x : string) : el := El "urn:flow" t x [].
Definition doc : el := El "urn:flow" "name" "" [El "urn:flow" "info" "" [leaf "name" "first"; leaf "other" ""]; leaf "name" "second"].
Theorem C132_witness :
  find_tags [(None, "urn:flow"); (Some "common", "urn:common")] doc "name" None = Many [Element (leaf "name" "first"); Element (leaf "name" "second")]
  /\ find_tag [(None, "urn:flow"); (Some "common", "urn:common")] doc "name" None = One (Element (leaf "name" "first"))
  /\ find_common [(None, "urn:flow"); (Some "common", "urn:common")] doc "name" = One EmptyText
  /\ find_tags [(None, "urn:flow")] doc "name" (Some "common") = ManyKey
  /\ find_ns [(None, "urn:flow"); (Some "common", "urn:common")] "common" = Some (Some "common").
Proof. vm_compute. repeat split. Qed.
Print Assumptions C132_find_tags.
Print Assumptions C132_find_tag.
Print Assumptions C132_unknown_prefix.
Print Assumptions C132_find_ns.
Print Assumptions C132_no_ns.

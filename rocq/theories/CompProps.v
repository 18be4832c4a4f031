(** Compartments: C11 (lookup), C12 (elementary flag), C13 (JSON round trip), C14 (names survive merging). *)
From Verif Require Import Base PyStr CompModel.
Open Scope string_scope.
Open Scope nat_scope.
Open Scope list_scope.
Local Arguments eqb : simpl never.
Local Arguments contains : simpl never.
Local Arguments ends_unspecified : simpl never.

Section Ind.
  Variable P : comp -> Prop.
  Hypothesis H : forall n s e l, Forall P l -> P (C n s e l).
  Fixpoint comp_ind2 (c : comp) : P c :=
    match c with
    | C n s e l => H n s e l ((fix go l := match l return Forall P l with
                                           | [] => Forall_nil P
                                           | x :: t => Forall_cons x (comp_ind2 x) (go t) end) l)
    end.
End Ind.

(** every compartment of a hierarchy *)
Fixpoint nodes (c : comp) : list comp := c :: (match c with C _ _ _ l => flat_map nodes l end).
Lemma nodes_eq c : nodes c = c :: flat_map nodes (c_subs c).
Proof. destruct c; reflexivity. Qed.
Lemma nodes_self c : In c (nodes c).
Proof. rewrite nodes_eq; cbn; auto. Qed.
Lemma nodes_sub c s x : In s (c_subs c) -> In x (nodes s) -> In x (nodes c).
Proof. intros I J. rewrite nodes_eq. right. apply in_flat_map; eauto. Qed.
Lemma nodes_inv c x : In x (nodes c) -> x = c \/ exists s, In s (c_subs c) /\ In x (nodes s).
Proof. rewrite nodes_eq. intros [->|I]; auto. right. apply in_flat_map in I; exact I. Qed.

(** * C11 *)
(** Specification: [p] is a path of nested compartments starting at [c]. *)
Inductive tpath : comp -> list comp -> Prop :=
| tp_one c : tpath c [c]
| tp_cons c s p : In s (c_subs c) -> tpath s p -> tpath c (c :: p).
(** Specification: the names are matched, in order, by compartments of the path (several may be matched by one
    compartment, compartments may be skipped). *)
Inductive monotone : list comp -> list string -> Prop :=
| mo_nil p : monotone p []
| mo_stay c p n ns : contains c n = true -> monotone (c :: p) ns -> monotone (c :: p) (n :: ns)
| mo_next c p ns : monotone p ns -> monotone (c :: p) ns.

Definition proper (n : string) : Prop := ends_unspecified n = false.

Lemma crawl_eq ce c l :
  crawl ce c l = if ce && c_elem c && starts_known c l then (Some [c], tl l) else
    match drop_unspec (drop_none (drop_known c l)) with
    | [] => (Some [c], [])
    | o :: r => crawl_subs ce c (c_subs c) (o :: r)
    end.
Proof. destruct c as [n sy e subs]; cbn [c_elem c_subs crawl]. destruct (ce && e && _); [reflexivity|].
  destruct (drop_unspec (drop_none (drop_known (C n sy e subs) l))) as [|o r]; [reflexivity|]. unfold crawl_subs. reflexivity.
Qed.
Lemma crawl_subs_eq ce c ss l :
  crawl_subs ce c ss l = match ss with
    | [] => (None, l)
    | s :: t => match crawl ce s l with (Some p, l') => (Some (c :: p), l') | (None, l') => crawl_subs ce c t l' end end.
Proof. destruct ss; reflexivity. Qed.

(** the part of a request of proper names that a compartment leaves over *)
Fixpoint leftover (c : comp) (ns : list string) : list string :=
  match ns with n :: t => if contains c n then leftover c t else ns | [] => [] end.
Lemma drop_proper c ns : Forall proper ns ->
  drop_unspec (drop_none (drop_known c (map Some ns))) = map Some (leftover c ns).
Proof.
  induction ns as [|n t IH]; intros F; [reflexivity|]. inversion F as [|? ? Fn Ft]; subst. cbn [map drop_known leftover].
  destruct (contains c n); [auto|]. cbn. rewrite Fn. reflexivity.
Qed.
Lemma leftover_suffix c ns : exists a, ns = a ++ leftover c ns /\ forall n, In n a -> contains c n = true.
Proof.
  induction ns as [|n t [a [E H]]]; cbn; [exists []; split; auto; intros ? []|].
  destruct (contains c n) eqn:K; [|exists []; split; auto; intros ? []].
  exists (n :: a). cbn. split; [congruence|]. intros m [<-|I]; auto.
Qed.
Lemma monotone_app c p a ns : (forall n, In n a -> contains c n = true) -> monotone (c :: p) ns -> monotone (c :: p) (a ++ ns).
Proof. induction a as [|n a IH]; cbn; intros H M; auto. apply mo_stay; auto. Qed.
Lemma leftover_proper c ns : Forall proper ns -> Forall proper (leftover c ns).
Proof. induction ns as [|n t IH]; cbn; auto. intros F. inversion F; subst. destruct (contains c n); auto. Qed.

(** suffixes of a matched request are matched *)
Lemma monotone_suffix p ns : monotone p ns -> forall a b, ns = a ++ b -> monotone p b.
Proof.
  induction 1 as [p|c p n ns K M IH|c p ns M IH]; intros a b E.
  - destruct a, b; try discriminate. constructor.
  - destruct a as [|x a]; cbn in E; [subst; constructor; auto|]. injection E as _ E. eapply IH; eauto.
  - constructor. eapply IH; eauto.
Qed.
(** matching greedily loses nothing *)
Lemma monotone_leftover c p ns : monotone (c :: p) ns -> monotone p (leftover c ns) \/ leftover c ns = [].
Proof.
  intros M. remember (c :: p) as q eqn:Eq. revert c p Eq. induction M as [q|c0 p0 n ns K M IH|c0 p0 ns M IH]; intros c p Eq.
  - right; reflexivity.
  - injection Eq as -> ->. cbn. rewrite K. apply IH; reflexivity.
  - injection Eq as -> ->. left. destruct (leftover_suffix c ns) as [a [E _]]. eapply monotone_suffix; eauto.
Qed.

Lemma monotone_nil ns : monotone [] ns -> ns = [].
Proof. inversion 1; reflexivity. Qed.

Definition suffix (b ns : list string) : Prop := exists a, ns = a ++ b.

Lemma crawl_general c : forall ns, Forall proper ns -> ns <> [] ->
  match crawl false c (map Some ns) with
  | (Some p, l) => l = [] /\ tpath c p
      /\ exists a b, ns = a ++ b /\ b <> [] /\ monotone p b
  | (None, l) => (exists b, l = map Some b /\ b <> [] /\ suffix b ns)
      /\ (forall p, tpath c p -> ~ monotone p ns)
  end.
Proof.
  induction c as [n sy e subs IH] using comp_ind2. intros ns F Ne. rewrite crawl_eq. cbn [andb].
  set (c := C n sy e subs) in *. change (c_subs c) with subs. rewrite drop_proper by exact F.
  destruct (leftover_suffix c ns) as [a [Ea Ha]].
  pose proof (leftover_proper c ns F) as Fl. pose proof (monotone_leftover c) as Mlo. specialize (fun p => Mlo p ns).
  destruct (leftover c ns) as [|m r] eqn:L.
  - cbn. split; auto. split; [constructor|]. exists [], ns. split; auto. split; auto.
    rewrite app_nil_r in Ea. rewrite Ea. rewrite <- (app_nil_r a). apply monotone_app; auto. constructor.
  - cbn [map].
    assert (G : forall ss ns1, (forall s, In s ss -> In s subs) -> Forall proper ns1 -> ns1 <> [] -> suffix ns1 (m :: r) ->
      match crawl_subs false c ss (map Some ns1) with
      | (Some p, l) => l = [] /\ tpath c p /\ (exists q, p = c :: q) /\ exists a b, ns1 = a ++ b /\ b <> [] /\ monotone p b
      | (None, l) => (exists b, l = map Some b /\ b <> [] /\ suffix b ns1)
                     /\ (forall s p, In s ss -> tpath s p -> ~ monotone p (m :: r))
      end).
    { induction ss as [|s t IHt]; intros ns1 Hs F1 N1 Sf.
      - cbn. split; [exists ns1; split; auto; split; auto; exists []; reflexivity|]. intros s p [].
      - rewrite crawl_subs_eq. rewrite Forall_forall in IH. specialize (IH s (Hs s (or_introl eq_refl)) ns1 F1 N1).
        destruct (crawl false s (map Some ns1)) as [[p|] l].
        + destruct IH as (-> & T & a' & b & E & Nb & M). split; auto. split; [apply tp_cons with s; [apply Hs; cbn; auto|exact T]|].
          split; [eauto|]. exists a', b. split; auto. split; auto. constructor; exact M.
        + destruct IH as ((b & -> & Nb & Sb) & Nm).
          assert (Fb : Forall proper b) by (destruct Sb as [x ->]; apply Forall_app in F1; tauto).
          assert (Sb2 : suffix b (m :: r)) by (destruct Sb as [x ->], Sf as [y ->]; exists (y ++ x); apply app_assoc).
          specialize (IHt b (fun q I => Hs q (or_intror I)) Fb Nb Sb2).
          destruct (crawl_subs false c t (map Some b)) as [[p|] l].
          * destruct IHt as (-> & T & Q & a' & b' & E & Nb' & M). split; auto. split; auto. split; auto.
            destruct Sb as [x ->]. exists (x ++ a'), b'. subst b. rewrite app_assoc. auto.
          * destruct IHt as ((b' & -> & Nb' & Sb') & Nm'). split.
            -- exists b'. split; auto. split; auto. destruct Sb as [x ->], Sb' as [y ->]. exists (x ++ y). apply app_assoc.
            -- intros s' p [<-|I] T; [|eauto]. intros M. destruct Sf as [y Sf]. apply (Nm p T).
               eapply monotone_suffix; eauto. }
    specialize (G subs (m :: r) (fun s I => I) Fl ltac:(discriminate) ltac:(exists []; reflexivity)).
    cbn [map] in G. destruct (crawl_subs false c subs (Some m :: map Some r)) as [[p|] l].
    + destruct G as (-> & T & [q ->] & a' & b & E & Nb & M). split; auto. split; auto. exists (a ++ a'), b.
      rewrite Ea, E, app_assoc. auto.
    + destruct G as ((b & -> & Nb & Sb) & Nm). split.
      * exists b. split; auto. split; auto. destruct Sb as [x Sb]. exists (a ++ x). rewrite Ea, Sb. apply app_assoc.
      * intros p T M. inversion T as [|? s q Is Tq]; subst.
        -- apply Mlo in M as [M|M]; [|discriminate]. apply monotone_nil in M. discriminate.
        -- apply Mlo in M as [M|M]; [|discriminate]. eapply Nm; eauto.
Qed.

(** What always holds of a lookup by proper names (non-null, not ending in "unspecified"): a match is found whenever
    some path matches the whole request, and a match found lies on a path that matches a non-empty final part of
    the request.  Missing: that the path matches the whole request (refuted below). *)
Theorem C11_lookup_partial c ns :
  Forall proper ns -> ns <> [] ->
  (forall p, tpath c p -> monotone p ns -> fst (crawl false c (map Some ns)) <> None)
  /\ (forall p, fst (crawl false c (map Some ns)) = Some p ->
        tpath c p /\ exists a b, ns = a ++ b /\ b <> [] /\ monotone p b).
Proof.
  intros F N. pose proof (crawl_general c ns F N) as G. destruct (crawl false c (map Some ns)) as [[q|] l]; cbn.
  - destruct G as (_ & T & X). split; [congruence|]. intros p E. injection E as <-. auto.
  - destruct G as (_ & G). split; [|discriminate]. intros p T M. exfalso. eapply G; eauto.
Qed.

(** When the requested names occur nowhere off the path, the result is exact, whatever the iteration order: the
    shortest initial part of the path that matches the whole request. *)
Definition unknown_in (ns : list string) (x : comp) : Prop :=
  forall y n, In y (nodes x) -> In n ns -> contains y n = false.
Inductive only_path (ns : list string) : comp -> list comp -> Prop :=
| op_one c : only_path ns c [c]
| op_cons c a s b p : c_subs c = a ++ s :: b -> Forall (unknown_in ns) (a ++ b) -> only_path ns s p -> only_path ns c (c :: p).

Lemma crawl_unknown x : forall ns, Forall proper ns -> ns <> [] -> unknown_in ns x ->
  crawl false x (map Some ns) = (None, map Some ns).
Proof.
  induction x as [n sy e subs IH] using comp_ind2. intros ns F N U. rewrite crawl_eq. cbn [andb].
  set (c := C n sy e subs) in *. rewrite drop_proper by exact F. change (c_subs c) with subs.
  assert (L : leftover c ns = ns).
  { destruct ns as [|m r]; auto. cbn. rewrite (U c m); auto; [apply nodes_self|cbn; auto]. }
  rewrite L. destruct ns as [|m r]; [congruence|]. cbn [map].
  assert (G : forall ss, (forall s, In s ss -> In s subs) -> crawl_subs false c ss (map Some (m :: r)) = (None, map Some (m :: r))).
  { induction ss as [|s t IHt]; intros Hs; [reflexivity|]. rewrite crawl_subs_eq.
    rewrite Forall_forall in IH. rewrite (IH s); auto; [apply IHt; intros; apply Hs; cbn; auto|apply Hs; cbn; auto|].
    intros y k Iy Ik. apply (U y k); auto. apply nodes_sub with s; auto. apply Hs; cbn; auto. }
  apply (G subs); auto.
Qed.

Theorem C11_exact_when_names_are_unambiguous ns c p :
  Forall proper ns -> ns <> [] -> only_path ns c p -> monotone p ns ->
  exists q r, p = q ++ r /\ fst (crawl false c (map Some ns)) = Some q /\ monotone q ns
    /\ (forall q1 q2, q = q1 ++ q2 -> q2 <> [] -> ~ monotone q1 ns).
Proof.
  intros F N O M. revert F N M.
  assert (G : forall ns' , Forall proper ns' -> ns' <> [] -> (forall n, In n ns' -> In n ns) -> monotone p ns' ->
    exists q r, p = q ++ r /\ fst (crawl false c (map Some ns')) = Some q /\ monotone q ns'
    /\ (forall q1 q2, q = q1 ++ q2 -> q2 <> [] -> ~ monotone q1 ns')).
  2: { intros. apply G; auto. }
  induction O as [c|c a s b p Es U O IH]; intros ns' F N Sub M.
  - exists [c], []. split; auto. rewrite crawl_eq. cbn [andb]. rewrite drop_proper by exact F.
    assert (L : leftover c ns' = []).
    { apply monotone_leftover in M as [M|M]; auto. apply monotone_nil in M. exact M. }
    rewrite L. cbn. split; auto. split; auto. intros q1 q2 E N2 M1. destruct q1 as [|x q1].
    + apply monotone_nil in M1. contradiction.
    + destruct q1, q2; try discriminate. contradiction.
  - rewrite crawl_eq. cbn [andb]. rewrite drop_proper by exact F.
    destruct (leftover_suffix c ns') as [pre [Ep Hp]].
    destruct (leftover c ns') as [|m r] eqn:L.
    + cbn. exists [c], p. split; auto. split; auto. split.
      * rewrite Ep, app_nil_r. rewrite <- (app_nil_r pre). apply monotone_app; auto. constructor.
      * intros q1 q2 E N2 M1. destruct q1 as [|x q1]; [apply monotone_nil in M1; contradiction|].
        destruct q1, q2; try discriminate. contradiction.
    + cbn [map]. assert (Fl : Forall proper (m :: r)) by (rewrite <- L; apply leftover_proper; exact F).
      assert (Subl : forall n, In n (m :: r) -> In n ns) by (intros k I; apply Sub; rewrite Ep; apply in_app_iff; auto).
      pose proof M as M0. apply monotone_leftover in M as [M|M]; [|congruence]. rewrite L in M.
      destruct (IH (m :: r) Fl ltac:(discriminate) Subl M) as (q & t & Eq & Ec & Mq & Min).
      rewrite Es.
      assert (Ga : forall a', (forall x, In x a' -> unknown_in ns x) ->
                    fst (crawl_subs false c (a' ++ s :: b) (map Some (m :: r))) = Some (c :: q)).
      { induction a' as [|x a' IHa]; intros Ux; cbn [app]; rewrite crawl_subs_eq.
        - destruct (crawl false s (map Some (m :: r))) as [[q'|] l']; cbn in Ec; [|discriminate].
          injection Ec as ->. reflexivity.
        - rewrite crawl_unknown; auto; [apply IHa; intros; apply Ux; cbn; auto|discriminate|].
          intros y k Iy Ik. apply (Ux x (or_introl eq_refl) y k); auto. }
      exists (c :: q), t. split; [cbn; congruence|]. split.
      * apply (Ga a). intros x I. rewrite Forall_forall in U. apply U. apply in_app_iff; auto.
      * split; [rewrite Ep; apply monotone_app; auto; constructor; exact Mq|].
        intros q1 q2 E N2 M1. destruct q1 as [|x q1]; [apply monotone_nil in M1; contradiction|].
        cbn in E. injection E as <- E. apply monotone_leftover in M1 as [M1|M1]; [|congruence]. rewrite L in M1.
        apply (Min q1 q2 E N2 M1).
Qed.

(** Refuted: the names popped in a branch that fails are not restored, so the same hierarchy in two iteration orders
    answers differently, and one answer is a compartment that does not match the request. *)
Definition leaf (n : string) : comp := C n [] false [].
Theorem C11_order_refuted :
  let a := leaf "A" in let b := C "B" [] false [leaf "C"] in
  let t1 := C "root" [] false [a; b] in let t2 := C "root" [] false [b; a] in
  Permutation (c_subs t1) (c_subs t2)
  /\ fst (crawl false t1 [Some "A"; Some "C"]) = Some [t1; b; leaf "C"] /\ ~ monotone [t1; b; leaf "C"] ["A"; "C"]
  /\ fst (crawl false t2 [Some "A"; Some "C"]) = None.
Proof.
  cbn zeta. split; [apply perm_swap|]. split; [vm_compute; reflexivity|]. split; [|vm_compute; reflexivity].
  intros M. repeat match goal with H : monotone _ _ |- _ => inversion H; clear H; subst; try discriminate end.
Qed.
(** Refuted: a request ending in two "unspecified" answers with an arbitrary subcompartment. *)
Theorem C11_unspecified_refuted :
  let t1 := C "root" [] false [C "air" [] false [leaf "urban"; leaf "rural"]] in
  let t2 := C "root" [] false [C "air" [] false [leaf "rural"; leaf "urban"]] in
  option_map (map c_name) (fst (crawl false t1 [Some "air"; Some "unspecified"; Some "unspecified"])) = Some ["root"; "air"; "urban"]
  /\ option_map (map c_name) (fst (crawl false t2 [Some "air"; Some "unspecified"; Some "unspecified"])) = Some ["root"; "air"; "rural"].
Proof. vm_compute. split; reflexivity. Qed.

Example C11_example :
  let urb := C "urban" ["city"] true [] in let air := C "air" ["to air"] true [urb; C "rural" [] true []] in
  let em := C "Emissions" [] true [C "water" [] true []; air] in let t := C "root" [] false [C "Resources" [] true []; em] in
  only_path ["to air"; "city"] t [t; em; air; urb] /\ monotone [t; em; air; urb] ["to air"; "city"]
  /\ fst (crawl false t [Some "to air"; Some "city"]) = Some [t; em; air; urb].
Proof.
  cbn zeta. split; [|split; [|vm_compute; reflexivity]].
  - assert (U : forall x, forallb (fun y => negb (contains y "to air") && negb (contains y "city")) (nodes x) = true ->
                unknown_in ["to air"; "city"] x).
    { intros x B y k Iy Ik. rewrite forallb_forall in B. specialize (B y Iy). apply andb_true_iff in B as [B1 B2].
      apply negb_true_iff in B1, B2. destruct Ik as [<-|[<-|[]]]; auto. }
    eapply op_cons with (a := [C "Resources" [] true []]) (b := []); [reflexivity| |].
    { repeat constructor; apply U; vm_compute; reflexivity. }
    eapply op_cons with (a := [C "water" [] true []]) (b := []); [reflexivity| |].
    { repeat constructor; apply U; vm_compute; reflexivity. }
    eapply op_cons with (a := []) (b := [C "rural" [] true []]); [reflexivity| |constructor].
    repeat constructor; apply U; vm_compute; reflexivity.
  - apply mo_next, mo_next, mo_stay; [vm_compute; reflexivity|]. apply mo_next, mo_stay; [vm_compute; reflexivity|]. constructor.
Qed.

Print Assumptions C11_lookup_partial.
Print Assumptions C11_exact_when_names_are_unambiguous.

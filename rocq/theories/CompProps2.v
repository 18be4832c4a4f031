(** Compartments: C12 (elementary flag), C13 (JSON round trip), C14 (names survive merging). *)
From Verif Require Import Base PyStr CompModel CompProps.
Open Scope string_scope.
Open Scope nat_scope.
Open Scope list_scope.
Local Arguments eqb : simpl never.
Local Arguments contains : simpl never.

(** * Rewriting equations for the nested loops *)
(** replace the first subcompartment that contains a name *)
Definition update_first (l : list comp) (n : string) (f : comp -> comp) : option (list comp) :=
  (fix go l := match l with
               | [] => None
               | x :: t => if contains x n then Some (f x :: t)
                           else match go t with Some t' => Some (x :: t') | None => None end
               end) l.
Lemma update_first_cons x t n f : update_first (x :: t) n f =
  if contains x n then Some (f x :: t) else match update_first t n f with Some t' => Some (x :: t') | None => None end.
Proof. reflexivity. Qed.
Lemma update_first_nil n f : update_first [] n f = None.
Proof. reflexivity. Qed.
Lemma add_path_eq self n rest :
  add_path self (n :: rest) =
  if is_unspecified n then add_path self rest else
  match update_first (c_subs self) n (fun x => add_path x rest) with
  | Some l' => set_subs self l'
  | None => if contains self n then self
            else set_subs self (c_subs self ++ [add_path (new_comp n (c_elem self)) rest])
  end.
Proof. reflexivity. Qed.

Section JInd.
  Variable P : json -> Prop.
  Hypothesis H : forall n e l, Forall P l -> P (J n e l).
  Fixpoint json_ind2 (j : json) : P j :=
    match j with
    | J n e l => H n e l ((fix go l := match l return Forall P l with
                                       | [] => Forall_nil P
                                       | x :: t => Forall_cons x (json_ind2 x) (go t) end) l)
    end.
End JInd.

Definition fill_one (pe : bool) (self : comp) (sj : json) : comp :=
  let e := pe || j_elem sj in
  match j_names sj with
  | [] => self
  | n :: syns =>
      if is_unspecified n then fill (add_syns self syns) e sj
      else match update_first (c_subs self) n (fun x => fill (add_syns x syns) e sj) with
           | Some l' => set_subs self l'
           | None => if contains self n then self
                     else set_subs self (c_subs self ++ [fill (add_syns (new_comp n (c_elem self || e)) syns) e sj])
           end
  end.
Lemma fill_eq self pe j : fill self pe j = fold_left (fill_one pe) (j_subs j) self.
Proof. destruct j as [n e l]. reflexivity. Qed.

Lemma update_first_Some l n f l' : update_first l n f = Some l' ->
  exists a x b, l = a ++ x :: b /\ l' = a ++ f x :: b /\ contains x n = true /\ (forall y, In y a -> contains y n = false).
Proof.
  revert l'. induction l as [|x t IH]; intros l' E; [discriminate|]. rewrite update_first_cons in E. destruct (contains x n) eqn:K.
  - injection E as <-. exists [], x, t. repeat split; auto. intros ? [].
  - destruct (update_first t n f) as [t'|]; [|discriminate]. injection E as <-.
    destruct (IH t' eq_refl) as (a & y & b & -> & -> & Ky & Ha). exists (x :: a), y, b. repeat split; auto.
    intros z [<-|I]; auto.
Qed.
Lemma update_first_None l n f : update_first l n f = None -> forall x, In x l -> contains x n = false.
Proof.
  induction l as [|x t IH]; intros E y I; [destruct I|]. rewrite update_first_cons in E. destruct (contains x n) eqn:K; [discriminate|].
  destruct (update_first t n f); [discriminate|]. destruct I as [<-|I]; auto.
Qed.

Lemma add_syn_fields c s : c_name (add_syn c s) = c_name c /\ c_elem (add_syn c s) = c_elem c /\ c_subs (add_syn c s) = c_subs c.
Proof. unfold add_syn. destruct (String.eqb s (c_name c)); auto. Qed.
Lemma add_syns_fields l : forall c, c_name (add_syns c l) = c_name c /\ c_elem (add_syns c l) = c_elem c /\ c_subs (add_syns c l) = c_subs c.
Proof.
  unfold add_syns. induction l as [|s l IH]; intros c; cbn; [auto|]. destruct (IH (add_syn c s)) as (A & B & D).
  destruct (add_syn_fields c s) as (A' & B' & D'). rewrite A, B, D. auto.
Qed.
Lemma contains_spec c s : contains c s = true <-> In s (synonyms c).
Proof. unfold contains. apply mem_In. Qed.
Lemma In_synonyms_add_syn c s x : In x (synonyms (add_syn c s)) <-> In x (synonyms c) \/ x = s.
Proof.
  unfold add_syn, synonyms. destruct (String.eqb_spec s (c_name c)) as [->|N]; cbn.
  - intuition congruence.
  - rewrite In_set_add. intuition congruence.
Qed.
Lemma In_synonyms_add_syns l : forall c x, In x (synonyms (add_syns c l)) <-> In x (synonyms c) \/ In x l.
Proof.
  unfold add_syns. induction l as [|s l IH]; intros c x; cbn [fold_left]; [cbn; tauto|].
  rewrite IH, In_synonyms_add_syn. cbn. intuition congruence.
Qed.

(** * C12 *)
(** Specification: everything below an elementary compartment is elementary. *)
Definition inherited (c : comp) : Prop :=
  forall x, In x (nodes c) -> c_elem x = true -> forall y, In y (nodes x) -> c_elem y = true.

Lemma inherited_iff c : inherited c <->
  (forall s, In s (c_subs c) -> inherited s /\ (c_elem c = true -> c_elem s = true)).
Proof.
  split.
  - intros H s I. split.
    + intros x Ix Ex y Iy. apply (H x); auto. apply nodes_sub with s; auto.
    + intros E. apply (H c (nodes_self c) E). apply nodes_sub with s; auto. apply nodes_self.
  - intros H x Ix Ex y Iy. apply nodes_inv in Ix as [->|(s & I & Ix)].
    + apply nodes_inv in Iy as [->|(s & I & Iy)]; auto. destruct (H s I) as [Hs Es]. apply (Hs s (nodes_self s)); auto.
    + destruct (H s I) as [Hs _]. apply (Hs x Ix Ex y Iy).
Qed.
Lemma inherited_set_subs c l : (forall s, In s l -> inherited s /\ (c_elem c = true -> c_elem s = true)) -> inherited (set_subs c l).
Proof. intros H. apply inherited_iff. exact H. Qed.
Lemma inherited_add_syns c l : inherited c -> inherited (add_syns c l).
Proof.
  intros H. apply inherited_iff. destruct (add_syns_fields l c) as (_ & E & S). rewrite E, S. apply inherited_iff; exact H.
Qed.

Theorem C12_add_subs_inherits p : forall c, inherited c ->
  inherited (add_path c p) /\ c_elem (add_path c p) = c_elem c.
Proof.
  induction p as [|n rest IH]; intros c H; [auto|]. rewrite add_path_eq. destruct (is_unspecified n); [auto|].
  pose proof (proj1 (inherited_iff c) H) as Hs.
  destruct (update_first (c_subs c) n (fun x => add_path x rest)) as [l'|] eqn:U.
  - apply update_first_Some in U as (a & x & b & E & -> & _). split; [|reflexivity]. apply inherited_set_subs.
    intros s I. rewrite E in Hs. apply in_app_iff in I as [I|[<-|I]].
    + apply Hs, in_app_iff; auto.
    + destruct (Hs x) as [Hx Ex]; [apply in_app_iff; cbn; auto|]. destruct (IH x Hx) as [A B]. rewrite B. auto.
    + apply Hs, in_app_iff; cbn; auto.
  - destruct (contains c n); [auto|]. split; [|reflexivity]. apply inherited_set_subs. intros s I.
    apply in_app_iff in I as [I|[<-|[]]]; [auto|].
    assert (N : inherited (new_comp n (c_elem c))) by (apply inherited_iff; intros ? []).
    destruct (IH _ N) as [A B]. rewrite B. auto.
Qed.

Lemma fill_inherits j : forall c pe, inherited c -> inherited (fill c pe j) /\ c_elem (fill c pe j) = c_elem c.
Proof.
  induction j as [ns e l IH] using json_ind2. intros c pe H. rewrite fill_eq. cbn [j_subs].
  revert c H. induction l as [|sj l IHl]; intros c H; cbn [fold_left]; [auto|].
  inversion IH as [|? ? Hj Hl]; subst. specialize (IHl Hl).
  assert (X : inherited (fill_one pe c sj) /\ c_elem (fill_one pe c sj) = c_elem c).
  { unfold fill_one. destruct (j_names sj) as [|n syns]; [auto|]. set (e' := pe || j_elem sj).
    destruct (is_unspecified n).
    { destruct (Hj (add_syns c syns) e' (inherited_add_syns _ _ H)) as [A B]. split; auto. rewrite B. apply add_syns_fields. }
    pose proof (proj1 (inherited_iff c) H) as Hs.
    destruct (update_first (c_subs c) n _) as [l'|] eqn:U.
    - apply update_first_Some in U as (a & x & b & E & -> & _). split; [|reflexivity]. apply inherited_set_subs.
      intros s I. rewrite E in Hs. apply in_app_iff in I as [I|[<-|I]].
      + apply Hs, in_app_iff; auto.
      + destruct (Hs x) as [Hx Ex]; [apply in_app_iff; cbn; auto|].
        destruct (Hj (add_syns x syns) e' (inherited_add_syns _ _ Hx)) as [A B]. rewrite B.
        destruct (add_syns_fields syns x) as (_ & D & _). rewrite D. auto.
      + apply Hs, in_app_iff; cbn; auto.
    - destruct (contains c n); [auto|]. split; [|reflexivity]. apply inherited_set_subs. intros s I.
      apply in_app_iff in I as [I|[<-|[]]]; [auto|].
      assert (N : inherited (add_syns (new_comp n (c_elem c || e')) syns)).
      { apply inherited_add_syns, inherited_iff. intros ? []. }
      destruct (Hj _ e' N) as [A B]. rewrite B. split; auto.
      destruct (add_syns_fields syns (new_comp n (c_elem c || e'))) as (_ & D & _). rewrite D. cbn. intros ->. reflexivity. }
  destruct X as [X1 X2]. destruct (IHl (fill_one pe c sj) X1) as [Y1 Y2]. split; auto. rewrite Y2; exact X2.
Qed.

Theorem C12_from_json_inherits j e c : from_json j e = Some c -> inherited c /\ c_elem c = e.
Proof.
  unfold from_json. destruct (j_names j) as [|n syns]; [discriminate|]. intros E. injection E as <-.
  assert (N : inherited (add_syns (new_comp n e) syns)) by (apply inherited_add_syns, inherited_iff; intros ? []).
  destruct (fill_inherits j _ e N) as [A B]. split; auto. rewrite B. apply (add_syns_fields syns (new_comp n e)).
Qed.

Theorem C12_set_elementary_marks_all c : forall x, In x (nodes (set_elementary c)) -> c_elem x = true.
Proof.
  induction c as [n s e l IH] using comp_ind2. intros x I. apply nodes_inv in I as [->|(k & I & J)]; [reflexivity|].
  cbn in I. apply in_map_iff in I as (y & <- & I). rewrite Forall_forall in IH. eapply IH; eauto.
Qed.
(** set_elementary changes nothing else *)
Fixpoint shape (c : comp) : comp := match c with C n s _ l => C n s false (map shape l) end.
Theorem C12_set_elementary_keeps_shape c : shape (set_elementary c) = shape c.
Proof.
  induction c as [n s e l IH] using comp_ind2. cbn. f_equal. rewrite map_map. apply map_ext_in.
  intros x I. rewrite Forall_forall in IH. auto.
Qed.

(** Refuted: [unset_elementary(unset_children=True)] marks every compartment below as elementary instead of clearing it. *)
Theorem C12_unset_children_refuted c x s :
  In s (c_subs (unset_elementary c true)) -> In x (nodes s) -> c_elem x = true.
Proof.
  unfold unset_elementary. cbn. intros I J. apply in_map_iff in I as (y & <- & I). eapply C12_set_elementary_marks_all; eauto.
Qed.
Example C12_unset_children_example :
  map c_elem (nodes (unset_elementary (C "air" [] false [C "urban" [] false []]) true)) = [false; true].
Proof. reflexivity. Qed.
(** What does hold: without [unset_children] only the compartment itself changes. *)
Theorem C12_unset_self c : c_elem (unset_elementary c false) = false /\ c_subs (unset_elementary c false) = c_subs c
  /\ synonyms (unset_elementary c false) = synonyms c.
Proof. auto. Qed.
(** Refuted outside the listed operations: merging can put a non-elementary compartment below an elementary one. *)
Theorem C12_merge_refuted : exists self k self', inherited self /\ inherited k /\ merge_sub self k self' /\ ~ inherited self'.
Proof.
  exists (C "air" [] true []), (leaf "urban"), (C "air" [] true [leaf "urban"]).
  split; [apply inherited_iff; intros ? []|]. split; [apply inherited_iff; intros ? []|]. split.
  - apply MS_new; [vm_compute; reflexivity|intros ? []].
  - intros H. apply (proj1 (inherited_iff _)) with (s := leaf "urban") in H; [|cbn; auto]. destruct H as [_ H].
    specialize (H eq_refl). discriminate.
Qed.
Example C12_example :
  let t := C "root" [] false [C "Emissions" [] true [C "air" [] true []]; leaf "Intermediate"] in
  inherited t /\ map c_elem (nodes (add_path t ["Emissions"; "unspecified"; "soil"; "deep"])) = [false; true; true; true; true; false].
Proof.
  split; [|vm_compute; reflexivity]. apply inherited_iff. intros s [<-|[<-|[]]]; (split; [|cbn; auto; discriminate]).
  - apply inherited_iff. intros s [<-|[]]. split; [apply inherited_iff; intros ? []|auto].
  - apply inherited_iff. intros ? [].
Qed.

(** * C13 *)
(** Specification: a hierarchy whose JSON form can be read back: no subcompartment is called "unspecified", siblings share
    no synonym, no name of a subcompartment is a synonym of its parent, sets have no duplicates, and the
    elementary flag is inherited. *)
Inductive wf : comp -> Prop :=
| wf_C n s e l : NoDup (n :: s) ->
    Forall wf l -> Forall (fun x => is_unspecified (c_name x) = false) l ->
    Forall (fun x => ~ In (c_name x) (n :: s)) l ->
    ForallOrdPairs (fun x y => forall k, In k (synonyms x) -> ~ In k (synonyms y)) l ->
    (e = true -> Forall (fun x => c_elem x = true) l) -> wf (C n s e l).

Lemma add_syns_new n e s : NoDup (n :: s) -> add_syns (new_comp n e) s = C n s e [].
Proof.
  unfold add_syns, new_comp. intros N. inversion N as [|? ? A B]; subst.
  assert (G : forall t a, NoDup (a ++ t) -> ~ In n t -> fold_left add_syn t (C n a e []) = C n (a ++ t) e []).
  { induction t as [|x t IH]; intros a Nd Nn; cbn [fold_left]; [rewrite app_nil_r; reflexivity|].
    unfold add_syn at 2. cbn [c_name]. destruct (String.eqb_spec x n) as [->|Ne]; [exfalso; apply Nn; cbn; auto|].
    unfold set_add. cbn [c_syns]. assert (~ In x a) by (intros I; apply NoDup_remove_2 in Nd; apply Nd, in_app_iff; auto).
    rewrite (proj2 (mem_nIn x a)) by assumption. cbn [c_elem c_subs]. rewrite IH; rewrite <- ?app_assoc; auto.
    intros I; apply Nn; cbn; auto. }
  apply (G s []); auto.
Qed.
Lemma update_first_none l n f : (forall x, In x l -> contains x n = false) -> update_first l n f = None.
Proof.
  induction l as [|x t IH]; [reflexivity|]. intros H. rewrite update_first_cons. rewrite H by (cbn; auto). rewrite IH; auto.
  intros; apply H; cbn; auto.
Qed.

Lemma fill_serialize c : wf c -> forall n s e pe, c = C n s e (c_subs c) -> (pe = true -> e = true) ->
  fill (C n s e []) pe (serialize c) = c.
Proof.
  induction c as [n0 s0 e0 l IH] using comp_ind2. intros W n s e pe E Pe. injection E as <- <- <-.
  rewrite fill_eq. cbn [serialize j_subs]. inversion W as [? ? ? ? Nd Wl Un Pa Di El]; subst.
  assert (G : forall r d, l = d ++ r -> fold_left (fill_one pe) (map serialize r) (C n0 s0 e0 d) = C n0 s0 e0 l).
  { induction r as [|x r IHr]; intros d Ed; cbn [map fold_left]; [rewrite Ed, app_nil_r; reflexivity|].
    assert (Ix : In x l) by (rewrite Ed; apply in_app_iff; cbn; auto).
    rewrite Forall_forall in *. destruct x as [xn xs xe xl]. unfold fill_one at 2. cbn [serialize j_names j_elem c_subs c_elem].
    pose proof (Un _ Ix) as Ux. cbn [c_name] in Ux. rewrite Ux.
    rewrite update_first_none.
    - assert (Cn : contains (C n0 s0 e0 d) xn = false).
      { apply not_true_iff_false. rewrite contains_spec. apply (Pa _ Ix). }
      rewrite Cn. assert (Ndx : NoDup (xn :: xs)) by (pose proof (Wl _ Ix) as Wx; inversion Wx; assumption).
      rewrite add_syns_new by exact Ndx.
      assert (Ee : e0 || (pe || xe) = xe).
      { destruct e0; cbn; [symmetry; apply (El eq_refl _ Ix)|].
        destruct pe; cbn; auto. specialize (Pe eq_refl). discriminate. }
      rewrite Ee. unfold set_subs. cbn [c_name c_syns c_elem].
      change (J (xn :: xs) xe (map serialize xl)) with (serialize (C xn xs xe xl)).
      rewrite (IH _ Ix (Wl _ Ix) xn xs xe (pe || xe) eq_refl).
      + apply IHr. rewrite <- app_assoc. exact Ed.
      + destruct xe; auto. rewrite orb_false_r. intros ->. specialize (Pe eq_refl). subst e0. cbn in Ee. discriminate.
    - intros y Iy. apply not_true_iff_false. rewrite contains_spec. intros K.
      assert (OP : forall a b, ForallOrdPairs (fun x y => forall k, In k (synonyms x) -> ~ In k (synonyms y)) (a ++ b) ->
         forall u v, In u a -> In v b -> forall k, In k (synonyms u) -> ~ In k (synonyms v)).
      { clear. induction a as [|z a IHa]; intros b F u v Iu Iv k; [destruct Iu|]. cbn in F. inversion F as [|? ? F1 F2]; subst.
        destruct Iu as [<-|Iu]; [|eauto]. rewrite Forall_forall in F1. apply F1, in_app_iff; auto. }
      rewrite Ed in Di. apply (OP _ _ Di y (C xn xs xe xl) Iy (or_introl eq_refl) xn K). cbn; auto. }
  apply (G l []); reflexivity.
Qed.

(** Reading back what was written rebuilds the hierarchy.  (The sorting done by serialize only picks one of the orders of
    the sets; the theorem is for hierarchies listed in any order.) *)
Theorem C13_round_trip_partial c : wf c -> c_elem c = false -> from_json (serialize c) false = Some c.
Proof.
  intros W E. destruct c as [n s e l]. cbn in E. subst e. unfold from_json. cbn [serialize j_names]. f_equal.
  assert (Nd : NoDup (n :: s)) by (inversion W; assumption). rewrite add_syns_new by exact Nd.
  apply (fill_serialize (C n s false l) W n s false false eq_refl). discriminate.
Qed.

(** Refuted without the extra conditions: an elementary root comes back non-elementary ... *)
Theorem C13_elementary_root_refuted :
  wf (C "air" [] true []) /\ from_json (serialize (C "air" [] true [])) false = Some (C "air" [] false []).
Proof. split; [|reflexivity]. constructor; repeat constructor; cbn; auto. Qed.
(** ... and a subcompartment whose name is a synonym of its parent is lost with everything below it (siblings are
    disjoint and nothing is called "unspecified"). *)
Theorem C13_child_named_as_parent_refuted :
  from_json (serialize (C "root" [] false [C "air" ["to air"] false [C "to air" [] false [leaf "urban"]]])) false
  = Some (C "root" [] false [C "air" ["to air"] false []]).
Proof. vm_compute. reflexivity. Qed.

Example C13_example :
  let t := C "root" ["all"] false [C "Emissions" ["em"; "releases"] true [C "air" ["to air"] true []; C "water" [] true []];
                                   C "Intermediate Flows" [] false [leaf "air"]] in
  wf t /\ from_json (serialize t) false = Some t.
Proof.
  cbn zeta. assert (L : forall n, wf (leaf n)) by (intros n; constructor; repeat constructor; cbn; auto; discriminate).
  assert (W : wf (C "root" ["all"] false [C "Emissions" ["em"; "releases"] true [C "air" ["to air"] true []; C "water" [] true []];
                                   C "Intermediate Flows" [] false [leaf "air"]])).
  { assert (D : forall a b : comp, forallb (fun k => negb (mem k (synonyms b))) (synonyms a) = true ->
              forall k, In k (synonyms a) -> ~ In k (synonyms b)).
    { intros a b F k I. rewrite forallb_forall in F. specialize (F k I). apply negb_true_iff in F. apply mem_nIn; exact F. }
    assert (Ne : forall n s, forallb (fun k => negb (String.eqb n k)) s = true -> ~ In n s).
    { intros n s F I. rewrite forallb_forall in F. specialize (F n I). rewrite String.eqb_refl in F. discriminate. }
    repeat (constructor; try (apply Ne; reflexivity); try (apply D; reflexivity); try reflexivity; try discriminate; try (intros _)). }
  split; [exact W|vm_compute; reflexivity].
Qed.

(** * C14 *)
(** every name known in a hierarchy *)
Definition known (c : comp) : list string := flat_map synonyms (nodes c).
Lemma known_spec c s : In s (known c) <-> In s (synonyms c) \/ exists x, In x (c_subs c) /\ In s (known x).
Proof.
  unfold known. rewrite in_flat_map. split.
  - intros (y & I & J). apply nodes_inv in I as [->|(x & I & K)]; auto. right. exists x. split; auto. apply in_flat_map; eauto.
  - intros [I|(x & I & J)]; [exists c; split; auto; apply nodes_self|]. apply in_flat_map in J as (y & K & L).
    exists y. split; auto. apply nodes_sub with x; auto.
Qed.
Lemma known_add_syns c l s : In s (known (add_syns c l)) <-> In s (known c) \/ In s l.
Proof.
  rewrite !known_spec. destruct (add_syns_fields l c) as (_ & _ & ->). rewrite In_synonyms_add_syns. tauto.
Qed.
Lemma known_set_subs c l s : In s (known (set_subs c l)) <-> In s (synonyms c) \/ exists x, In x l /\ In s (known x).
Proof. rewrite known_spec. reflexivity. Qed.

Scheme merge_sub_mind := Minimality for merge_sub Sort Prop
  with merge_all_mind := Minimality for merge_all Sort Prop.
Combined Scheme merge_mutind from merge_sub_mind, merge_all_mind.

Lemma merge_known :
  (forall self k self', merge_sub self k self' -> forall s, In s (known self') <-> In s (known self) \/ In s (known k))
  /\ (forall self l self', merge_all self l self' ->
        forall s, In s (known self') <-> In s (known self) \/ exists k, In k l /\ In s (known k)).
Proof.
  apply merge_mutind.
  - intros self k self' O M IH s. rewrite IH, known_add_syns. rewrite (known_spec k). tauto.
  - intros self k a i b i' E O M IH s. rewrite known_set_subs, (known_spec self), E. rewrite (known_spec k). split.
    + intros [I|(x & I & K)]; auto. apply in_app_iff in I as [I|[<-|I]].
      * left; right; exists x; rewrite in_app_iff; auto.
      * apply IH in K. rewrite known_add_syns in K. destruct K as [[K|K]|K]; auto.
        left; right; exists i; rewrite in_app_iff; cbn; auto.
      * left; right; exists x; rewrite in_app_iff; cbn; auto.
    + assert (Ki : In s (known i') -> In s (synonyms self) \/ (exists x, In x (a ++ i' :: b) /\ In s (known x))).
      { intros K. right. exists i'. rewrite in_app_iff; cbn; auto. }
      intros [[I|(x & I & K)]|K]; auto.
      * apply in_app_iff in I as [I|[<-|I]].
        -- right; exists x; rewrite in_app_iff; auto.
        -- apply Ki, IH. left. apply known_add_syns; auto.
        -- right; exists x; rewrite in_app_iff; cbn; auto.
      * apply Ki, IH. destruct K as [K|K]; auto. left. apply known_add_syns; auto.
  - intros self k O N s. rewrite known_set_subs, (known_spec self). split.
    + intros [I|(x & I & K)]; auto. apply in_app_iff in I as [I|[<-|[]]]; eauto.
    + intros [[I|(x & I & K)]|K]; auto; right; [exists x|exists k]; rewrite in_app_iff; cbn; auto.
  - intros self s. split; auto. intros [I|(k & [] & _)]; auto.
  - intros self k l s1 s2 M1 IH1 M2 IH2 s. rewrite IH2, IH1. cbn. split.
    + intros [[I|I]|(x & I & K)]; eauto.
    + intros [I|(x & [<-|I] & K)]; eauto.
Qed.

(** Merging a compartment into another keeps exactly the names of both, whichever match the iteration finds first. *)
Theorem C14_merge_keeps_names self k self' : merge_sub self k self' ->
  forall s, In s (known self') <-> In s (known self) \/ In s (known k).
Proof. apply (proj1 merge_known). Qed.

Lemma overlap_dec self k : overlap self k = true \/ (exists a i b, c_subs self = a ++ i :: b /\ overlap i k = true)
  \/ (overlap self k = false /\ forall i, In i (c_subs self) -> overlap i k = false).
Proof.
  destruct (overlap self k); auto. right. induction (c_subs self) as [|x t IH].
  - right. split; auto. intros ? [].
  - destruct (overlap x k) eqn:E; [left; exists [], x, t; auto|]. destruct IH as [(a & i & b & -> & O)|[_ H]].
    + left. exists (x :: a), i, b. auto.
    + right. split; auto. intros i [<-|I]; auto.
Qed.
(** A merge always completes. *)
Theorem C14_merge_total k : forall self, exists self', merge_sub self k self'.
Proof.
  induction k as [n s e l IH] using comp_ind2. set (k := C n s e l) in *.
  assert (A : forall l', (forall x, In x l' -> In x l) -> forall self, exists self', merge_all self l' self').
  { induction l' as [|x t IHt]; intros Sub self; [exists self; constructor|].
    rewrite Forall_forall in IH. destruct (IH x (Sub x (or_introl eq_refl)) self) as [s1 M1].
    destruct (IHt (fun y I => Sub y (or_intror I)) s1) as [s2 M2]. exists s2. econstructor; eauto. }
  intros self. destruct (overlap_dec self k) as [O|[(a & i & b & E & O)|[O N]]].
  - destruct (A l (fun x I => I) (add_syns self (synonyms k))) as [s' M]. exists s'. apply MS_self; auto.
  - destruct (A l (fun x I => I) (add_syns i (synonyms k))) as [i' M]. exists (set_subs self (a ++ i' :: b)).
    eapply MS_sub; eauto.
  - eexists. apply MS_new; auto.
Qed.

Theorem C14_merge_subs_keeps_names self s1 s2 self' : merge_subs self s1 s2 (Some self') ->
  forall s, In s (known self') <-> In s (known self).
Proof.
  intros M s. inversion M as [|? ? ? s2' rest rest' Ee P Ma Pr]; subst. rewrite known_set_subs, (known_spec self).
  pose proof (proj2 merge_known _ _ _ Ma s) as K. rewrite known_add_syns in K.
  split; (intros [I|(x & I & J)]; [auto|right]).
  - apply (Permutation_in _ Pr) in I as [<-|I].
    + apply K in J as [[J|J]|(y & Iy & J)].
      * exists s2. split; auto. apply (Permutation_in _ (Permutation_sym P)); cbn; auto.
      * exists s1. split; [apply (Permutation_in _ (Permutation_sym P)); cbn; auto|]. apply known_spec; auto.
      * exists s1. split; [apply (Permutation_in _ (Permutation_sym P)); cbn; auto|]. apply known_spec; eauto.
    + exists x. split; auto. apply (Permutation_in _ (Permutation_sym P)); cbn; auto.
  - apply (Permutation_in _ P) in I as [<-|[<-|I]].
    + exists s2'. split; [apply (Permutation_in _ (Permutation_sym Pr)); cbn; auto|]. apply K.
      apply known_spec in J as [J|(y & Iy & J)]; eauto.
    + exists s2'. split; [apply (Permutation_in _ (Permutation_sym Pr)); cbn; auto|]. apply K; auto.
    + exists x. split; auto. apply (Permutation_in _ (Permutation_sym Pr)); cbn; auto.
Qed.

Lemma collapsed_known c s : In s (collapsed_syns c) <-> In s (known c).
Proof.
  induction c as [n sy e l IH] using comp_ind2. rewrite known_spec. cbn [collapsed_syns c_subs synonyms c_name c_syns].
  rewrite in_app_iff, in_flat_map. rewrite Forall_forall in IH. split.
  - intros [I|(x & I & J)]; auto. right. exists x. split; auto. apply IH; auto.
  - intros [I|(x & I & J)]; auto. right. exists x. split; auto. apply IH; auto.
Qed.
Theorem C14_collapse_keeps_names self s1 rest : Permutation (c_subs self) (s1 :: rest) ->
  (forall s, In s (known (collapse self s1 rest)) <-> In s (known self))
  /\ (forall s, In s (known s1) -> In s (synonyms (collapse self s1 rest))).
Proof.
  intros P. unfold collapse. split.
  - intros s. rewrite known_add_syns, known_set_subs, (known_spec self), collapsed_known. split.
    + intros [[I|(x & I & J)]|I]; auto; right; [exists x|exists s1]; split; auto;
        apply (Permutation_in _ (Permutation_sym P)); cbn; auto.
    + intros [I|(x & I & J)]; auto. apply (Permutation_in _ P) in I as [<-|I]; eauto.
  - intros s I. apply In_synonyms_add_syns. right. apply collapsed_known; exact I.
Qed.

Theorem C14_uproot_keeps_names self s1 rest s2 self' s2' :
  Permutation (c_subs self) (s1 :: rest) -> uproot self s1 rest s2 self' s2' ->
  forall s, In s (known self) \/ In s (known s2) <-> In s (known self') \/ In s (known s2').
Proof.
  intros P [M ->] s. rewrite known_set_subs, (known_spec self), (C14_merge_keeps_names _ _ _ M s). split.
  - intros [[I|(x & I & J)]|I]; auto. apply (Permutation_in _ P) in I as [<-|I]; eauto 6.
  - intros [[I|(x & I & J)]|[I|I]]; auto; left; right; [exists x|exists s1]; split; auto;
      apply (Permutation_in _ (Permutation_sym P)); cbn; auto.
Qed.

Theorem C14_add_subs_keeps_names p : forall c s, In s (known c) -> In s (known (add_path c p)).
Proof.
  induction p as [|n rest IH]; intros c s I; [exact I|]. rewrite add_path_eq. destruct (is_unspecified n); [auto|].
  destruct (update_first (c_subs c) n (fun x => add_path x rest)) as [l'|] eqn:U.
  - apply update_first_Some in U as (a & x & b & E & -> & _). rewrite known_set_subs. rewrite known_spec, E in I.
    destruct I as [I|(y & I & J)]; auto. right. apply in_app_iff in I as [I|[<-|I]].
    + exists y. rewrite in_app_iff; auto.
    + exists (add_path x rest). rewrite in_app_iff; cbn; auto.
    + exists y. rewrite in_app_iff; cbn; auto.
  - destruct (contains c n); [auto|]. rewrite known_set_subs. rewrite known_spec in I. destruct I as [I|(y & I & J)]; auto.
    right. exists y. rewrite in_app_iff; auto.
Qed.

(** [_merge_sub] of a subcompartment that is already there (as [add_sub] does) changes nothing, when sibling and parent
    synonyms are disjoint throughout. *)
Inductive disjoint_names : comp -> Prop :=
| dn_C n s e l : NoDup (n :: s) -> Forall disjoint_names l ->
    Forall (fun x => overlap (C n s e []) x = false) l ->
    (forall x y, In x l -> In y l -> x = y \/ overlap x y = false) -> NoDup l ->
    disjoint_names (C n s e l).
Lemma add_syns_known c l : (forall s, In s l -> In s (synonyms c)) -> add_syns c l = c.
Proof.
  unfold add_syns. induction l as [|s l IH]; cbn [fold_left]; [reflexivity|]. intros H.
  assert (E : add_syn c s = c).
  { unfold add_syn. destruct (String.eqb_spec s (c_name c)) as [|N]; auto. destruct (H s (or_introl eq_refl)) as [K|K]; [congruence|].
    unfold set_add. rewrite (proj2 (mem_In s (c_syns c)) K). destruct c; reflexivity. }
  rewrite E. apply IH. intros x I. apply H. right. exact I.
Qed.
Lemma overlap_refl c : overlap c c = true.
Proof. unfold overlap. cbn [synonyms existsb]. replace (contains c (c_name c)) with true; auto. symmetry. apply contains_spec. cbn; auto. Qed.
Lemma overlap_ext a b c : synonyms a = synonyms b -> overlap a c = overlap b c.
Proof. unfold overlap. intros ->. reflexivity. Qed.
Lemma merge_self_id k : disjoint_names k -> forall l self', (forall x, In x l -> In x (c_subs k)) -> merge_all k l self' -> self' = k.
Proof.
  induction k as [n s e subs IH] using comp_ind2. intros D. inversion D as [? ? ? ? Nd Dl Dp Ds Ndl]; subst.
  set (k := C n s e subs) in *. induction l as [|x l IHl]; intros self' Sub M; inversion M as [|? ? ? s1 s2 M1 M2]; subst; auto.
  assert (Ix : In x subs) by (apply Sub; cbn; auto).
  assert (E1 : s1 = k).
  { rewrite Forall_forall in *. inversion M1 as [? ? ? O Ma|? ? a i b i' E O Ma|? ? O N]; subst.
    - rewrite (overlap_ext k (C n s e []) x eq_refl) in O. rewrite (Dp x Ix) in O. discriminate.
    - cbn in E. assert (Ii : In i subs) by (rewrite E; apply in_app_iff; cbn; auto).
      destruct (Ds i x Ii Ix) as [->|F]; [|congruence]. rewrite add_syns_known in Ma by auto.
      rewrite (IH x Ix (Dl x Ix) (c_subs x) i' (fun y I => I) Ma). unfold set_subs. cbn. rewrite <- E. reflexivity.
    - pose proof (N x Ix) as F. rewrite overlap_refl in F. discriminate. }
  subst s1. apply IHl; auto. intros y I. apply Sub; cbn; auto.
Qed.
Lemma merge_existing_id self x self' : disjoint_names self -> In x (c_subs self) -> merge_sub self x self' -> self' = self.
Proof.
  intros D I M. apply (merge_self_id self D [x] self'); [intros y [<-|[]]; auto|]. econstructor; [exact M|constructor].
Qed.

(** [add_subs(path)] makes the path resolvable from the compartment, provided no step is "unspecified" or a synonym of
    the compartment it is added to. *)
Inductive addable : comp -> list string -> Prop :=
| ad_nil c : addable c []
| ad_old c n rest x : is_unspecified n = false -> getitem c n = Some x -> addable x rest -> addable c (n :: rest)
| ad_new c n rest : is_unspecified n = false -> getitem c n = None -> contains c n = false ->
    addable (new_comp n (c_elem c)) rest -> addable c (n :: rest).

Lemma find_sub_app a x b n : (forall y, In y a -> contains y n = false) -> contains x n = true -> find_sub (a ++ x :: b) n = Some x.
Proof. induction a as [|y a IH]; cbn; intros H K; [rewrite K; reflexivity|]. rewrite H by auto. apply IH; auto. Qed.
Lemma find_sub_None l n : find_sub l n = None -> forall x, In x l -> contains x n = false.
Proof.
  induction l as [|x t IH]; cbn; intros E y I; [destruct I|]. destruct (contains x n) eqn:K; [discriminate|].
  destruct I as [<-|I]; auto.
Qed.
Lemma add_path_syns p : forall c, synonyms (add_path c p) = synonyms c.
Proof.
  induction p as [|n rest IH]; intros c; [reflexivity|]. rewrite add_path_eq. destruct (is_unspecified n); [auto|].
  destruct (update_first _ _ _); [reflexivity|]. destruct (contains c n); reflexivity.
Qed.

Theorem C14_added_path_resolves_partial p : forall c, addable c p -> exists x, getpath (add_path c p) p = Some x.
Proof.
  induction p as [|n rest IH]; intros c A; [cbn; eauto|]. rewrite add_path_eq.
  inversion A as [|? ? ? x U G Ar|? ? ? U G K Ar]; subst; rewrite U.
  - unfold getitem in G. destruct (update_first (c_subs c) n (fun x => add_path x rest)) as [l'|] eqn:Up.
    + apply update_first_Some in Up as (a & y & b & E & -> & Ky & Ha). rewrite E, (find_sub_app a y b n Ha Ky) in G.
      injection G as <-. cbn [getpath getitem]. unfold getitem. cbn [set_subs c_subs].
      rewrite (find_sub_app a (add_path y rest) b n Ha); [apply IH; exact Ar|].
      apply contains_spec. rewrite add_path_syns. apply contains_spec. exact Ky.
    + exfalso. pose proof (update_first_None _ _ _ Up) as N. clear -G N. induction (c_subs c) as [|y t IHt]; cbn in *; [discriminate|].
      rewrite N in G by auto. auto.
  - unfold getitem in G. rewrite update_first_none by (apply find_sub_None; exact G). rewrite K.
    cbn [getpath]. unfold getitem. cbn [set_subs c_subs].
    rewrite (find_sub_app (c_subs c) (add_path (new_comp n (c_elem c)) rest) [] n (find_sub_None _ _ G)); [apply IH; exact Ar|].
    apply contains_spec. rewrite add_path_syns. cbn; auto.
Qed.

(** Refuted without that proviso: adding ["air"; "urban"] to a compartment called "air" creates "urban" below an unattached
    compartment; neither the path nor the name is known afterwards. *)
Theorem C14_added_path_refuted : exists c p, Forall (fun n => is_unspecified n = false) p
  /\ getpath (add_path c p) p = None /\ ~ In "urban" (known (add_path c p)).
Proof.
  exists (leaf "air"), ["air"; "urban"]. split; [repeat constructor|]. split; [reflexivity|]. cbn. intros [E|[]]; discriminate.
Qed.

(** Renaming keeps every name: the new one is the name, the old one stays as a synonym; nothing else changes. *)
Theorem C14_rename_keeps_names c v :
  c_name (rename c v) = v /\ c_subs (rename c v) = c_subs c /\ c_elem (rename c v) = c_elem c /\
  (forall s, In s (synonyms (rename c v)) <-> s = v \/ In s (synonyms c)) /\ contains (rename c v) (c_name c) = true.
Proof.
  assert (H : forall s, In s (synonyms (rename c v)) <-> s = v \/ In s (synonyms c)).
  { intros s. unfold synonyms, rename. cbn [c_name c_syns In]. rewrite In_set_remove, In_set_add.
    destruct (string_dec s v) as [->|N]; [tauto|]. split; intros [A|A]; auto; right; intuition congruence. }
  repeat split; try apply H. unfold contains. apply mem_In. apply H. right. left. reflexivity.
Qed.
Print Assumptions C14_rename_keeps_names.

Example C14_example :
  let t := C "root" [] false [C "air" ["to air"] true [leaf "rural"]] in
  addable t ["to air"; "urban"; "street"]
  /\ known (add_path t ["to air"; "urban"; "street"]) = ["root"; "air"; "to air"; "rural"; "urban"; "street"].
Proof.
  split; [|vm_compute; reflexivity]. eapply ad_old; [reflexivity|reflexivity|]. apply ad_new; [reflexivity..|].
  apply ad_new; [reflexivity..|]. constructor.
Qed.
Example C14_merge_example :
  merge_sub (C "root" [] false [C "air" [] false [leaf "urban"]]) (C "Air" ["air"] false [C "city" ["urban"] false []; leaf "sea"])
            (C "root" [] false [C "air" ["Air"] false [C "urban" ["city"] false []; leaf "sea"]]).
Proof.
  eapply MS_sub with (a := []) (b := []); [reflexivity|vm_compute; reflexivity|]. cbn.
  eapply MA_cons; [eapply MS_sub with (a := []) (b := []); [reflexivity|vm_compute; reflexivity|apply MA_nil]|].
  eapply MA_cons; [|apply MA_nil].
  match goal with |- merge_sub ?s ?k _ => exact (MS_new s k eq_refl ltac:(intros i [<-|[]]; reflexivity)) end.
Qed.

Print Assumptions C12_add_subs_inherits.
Print Assumptions C12_from_json_inherits.
Print Assumptions C13_round_trip_partial.
Print Assumptions C14_merge_keeps_names.
Print Assumptions C14_merge_subs_keeps_names.
Print Assumptions C14_added_path_resolves_partial.
Print Assumptions merge_existing_id.

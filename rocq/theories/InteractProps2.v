(** C129: narrowing lists of entities down to one (interact.py). *)
From Coq Require Import String Ascii ZArith Permutation Sorted Lia.
From Verif Require Import Base PyStr TableModel TableProofs SearchProps InteractModel InteractProofs InteractProps.
Open Scope string_scope.
Open Scope nat_scope.
Open Scope list_scope.
Local Arguments String.eqb : simpl never.
Local Arguments eqb : simpl never.

(** ** Groups: nothing is lost and nothing doubled; with keys that can be compared, each group holds the entities with its key,
    in their order, and no key has two groups. *)
Theorem C129_groups {E} (f : E -> key) l :
  Permutation (concat (map snd (group_by l f))) l
  /\ (comparable f l ->
        NoDup (map fst (group_by l f))
        /\ (forall k g, In (k, g) (group_by l f) -> g = filter (fun e => eqb (f e) k) l /\ g <> [])
        /\ forall e, In e l -> In (f e) (map fst (group_by l f))).
Proof.
  split; [apply group_by_perm|]. intros C. destruct (group_by_class f l C) as (N & G). split; [exact N|]. split; [exact G|].
  intros e I. destruct (group_by_key f l e C I) as (g & J). apply in_map_iff. exists (f e, g). auto.
Qed.
Example C129_groups_witness :
  group_by [("a", "x"); ("b", "y"); ("c", "x")] (fun e => Some (snd e)) = [(Some "x", [("a", "x"); ("c", "x")]); (Some "y", [("b", "y")])].
Proof. reflexivity. Qed.
(** One key that cannot be compared makes one group of everything. *)
Theorem C129_refuted_groups :
  group_by [("a", Some "x"); ("b", Some "y"); ("c", None)] snd = [(None, [("a", Some "x"); ("b", Some "y"); ("c", None)])].
Proof. reflexivity. Qed.

Section Narrow.
Variable int_of : string -> option Z.
Context {E : Type} `{EqB E}.
Variable etype : E -> string.
Variable tag_of : string -> E -> option key.
Variable hier : string -> E -> option (list key).
Variable show : E -> string.

Definition unkey (f : E -> option key) (e : E) : key := match f e with Some k => k | None => None end.
Lemma nokey_spec {A} (f : E -> option A) l :
  existsb (fun e => match f e with None => true | _ => false end) l = false <-> forall e, In e l -> f e <> None.
Proof.
  split.
  - intros X e I D. assert (T : existsb (fun e => match f e with None => true | _ => false end) l = true) by (apply existsb_exists; exists e; rewrite D; auto).
    congruence.
  - intros Al. apply Bool.not_true_iff_false. intros X. apply existsb_exists in X as (e & I & X). specialize (Al e I). destruct (f e); [discriminate|easy].
Qed.
Lemma group_uncomparable (f : E -> key) l : comparable f l \/ group_by l f = [(None, l)].
Proof.
  unfold group_by. destruct ((1 <? length l) && existsb (fun e => match f e with None => true | _ => false end) l) eqn:X; [right; reflexivity|].
  left. apply Bool.andb_false_iff in X as [X|X]; [left; apply Nat.ltb_ge in X; exact X|]. right. apply nokey_spec. exact X.
Qed.
Lemma sorted_groups_In (gs : list (key * list E)) x : In x (tsort (fun a b => length (snd b) <=? length (snd a)) gs) <-> In x gs.
Proof. split; apply Permutation_in; [|symmetry]; apply tsort_perm. Qed.
Lemma from_groups_ans (gs : list (key * list E)) ins r rest : pick_from_groups int_of gs ins = Ans r rest ->
  exists used, ins = used ++ rest /\ (r = None \/ exists k s, r = Some s /\ In (k, s) gs /\ used <> [] /\ length gs <> 1).
Proof.
  assert (G : ibind (pick_menu int_of (Some (length gs)) ["done (keep all)"] ins) (fun c rest => match c with
      | Nothing => Ans None rest | Option _ => Ans None rest
      | Item z => match py_nth gs z with Some g => Ans (Some (snd g)) rest | None => Fail XIndex end end) = Ans r rest ->
     exists used, ins = used ++ rest /\ (r = None \/ exists k s, r = Some s /\ In (k, s) gs /\ used <> [])).
  { destruct (pick_menu _ _ _ ins) as [ch rest'|] eqn:M; cbn [ibind]; [|discriminate]. apply menu_ans in M as ((used & -> & U) & _).
    destruct ch as [|z|i]; [intros [= <- <-]; eauto| |intros [= <- <-]; eauto].
    destruct (py_nth gs z) as [[k s]|] eqn:N; [|discriminate]. intros [= <- <-]. exists used. split; [reflexivity|]. right. exists k, s.
    split; [reflexivity|]. split; [eapply py_nth_In; exact N|exact U]. }
  unfold pick_from_groups. destruct gs as [|g [|g' gs']].
  - intros X. destruct (G X) as (u & A & [B|(k & s & B & [] & _)]). eauto.
  - intros [= <- <-]. exists []. auto.
  - intros X. destruct (G X) as (u & A & [B|(k & s & B & C & D)]); exists u; split; auto. right. exists k, s. repeat split; auto. discriminate.
Qed.
Lemma metagroup_ans l f ins r rest : metagroup int_of l f ins = Ans r rest ->
  (forall e, In e l -> f e <> None)
  /\ exists used, ins = used ++ rest
     /\ (r = None \/ exists k s, r = Some s /\ s = filter (fun e => eqb (unkey f e) k) l /\ s <> [] /\ used <> []).
Proof.
  unfold metagroup. destruct (existsb _ l) eqn:X; [discriminate|]. intros M. split; [apply nokey_spec; exact X|].
  apply from_groups_ans in M as (used & -> & M). exists used. split; [reflexivity|]. destruct M as [M|(k & s & -> & I & U & L)]; [left; exact M|right].
  apply (proj1 (sorted_groups_In _ _)) in I. exists k, s. split; [reflexivity|]. fold (unkey f) in *.
  destruct (group_uncomparable (unkey f) l) as [C|C].
  - destruct (group_by_class (unkey f) l C) as (_ & G). destruct (G k s I) as (G1 & G2). auto.
  - exfalso. apply L. rewrite C. reflexivity.
Qed.
Lemma or_all_ans l f ins r rest : or_all l (metagroup int_of l f ins) = Ans r rest ->
  (forall e, In e l -> f e <> None)
  /\ exists used, ins = used ++ rest
     /\ (r = l \/ exists k, r = filter (fun e => eqb (unkey f e) k) l /\ r <> [] /\ used <> []).
Proof.
  unfold or_all. destruct (metagroup int_of l f ins) as [m rest'|] eqn:M; cbn [ibind]; [|discriminate]. intros [= <- <-].
  apply metagroup_ans in M as (A & used & -> & M). split; [exact A|]. exists used. split; [reflexivity|].
  destruct M as [->|(k & s & -> & S & N & U)]; [left; reflexivity|right]. destruct s as [|x s]; [easy|]. exists k. auto.
Qed.

(** ** By a tag: the answer is everything, or what has one value of the tag (without the tag, the value '(none)'), as it was
    ordered; it is empty only if there was nothing. *)
Theorem C129_by_tag l tag ins r rest : pick_by_tag int_of tag_of l tag ins = Ans r rest ->
  (r = l \/ exists v, r = filter (fun e => eqb (match tag_of tag e with Some k => k | None => Some "(none)" end) v) l /\ r <> [])
  /\ exists used, ins = used ++ rest.
Proof.
  intros X. apply or_all_ans in X as (_ & used & U & X). split; [|eauto]. destruct X as [X|(k & X & N & _)]; [left; exact X|]. right. exists k. auto.
Qed.

(** ** Down a hierarchy *)
(** The value of an entity at a level: '(none)' below its last one. *)
Definition at_level (tag : string) (e : E) (i : nat) : key :=
  match hier tag e with Some ks => match nth_error ks i with Some k => k | None => Some "(none)" end | None => None end.
Lemma list_eqb_true {A} `{EqB A} (a b : list A) : list_eqb a b = true <-> a = b.
Proof. destruct (list_eqb_spec a b); split; congruence. Qed.
Lemma filter_filter {A} (p q : A -> bool) l : filter p (filter q l) = filter (fun a => q a && p a) l.
Proof. induction l as [|a l IH]; cbn; [reflexivity|]. destruct (q a); cbn; [destruct (p a); congruence|exact IH]. Qed.
Lemma descend_ans fuel : forall l tag level ins r rest, descend_from int_of hier fuel l tag level ins = Ans r rest ->
  exists path used, ins = used ++ rest /\ r = filter (fun e => list_eqb (map (at_level tag e) (seq level (length path))) path) l
    /\ (l <> [] -> r <> []).
Proof.
  induction fuel as [|n IH]; [discriminate|]. intros l tag level ins r rest. cbn [descend_from].
  destruct (pick_by_hier int_of hier l tag level ins) as [sub rest'|] eqn:P; cbn [ibind]; [|discriminate].
  unfold pick_by_hier in P. apply or_all_ans in P as (K & used & -> & P). destruct (list_eqb sub l) eqn:D.
  - intros [= <- <-]. exists [], used. split; [reflexivity|]. split; [|auto]. cbn. symmetry. apply filter_all. reflexivity.
  - intros X. apply IH in X as (path & used' & -> & -> & Ne). destruct P as [->|(k & S & N & _)]; [rewrite (proj2 (list_eqb_true l l) eq_refl) in D; discriminate|].
    exists (k :: path), (used ++ used'). split; [apply app_assoc|]. split; [|auto]. rewrite S, filter_filter.
    apply filter_ext_in. intros e I. cbn [length seq map list_eqb]. f_equal. unfold unkey, at_level, level_key. specialize (K e I). unfold level_key in K.
    destruct (hier tag e); [reflexivity|easy].
Qed.
(** The answer has, level by level, the values of one path; it is empty only if there was nothing. *)
Theorem C129_down_a_hierarchy l tag ins r rest : descend_hier int_of hier l tag ins = Ans r rest ->
  exists path, r = filter (fun e => list_eqb (map (at_level tag e) (seq 0 (length path))) path) l /\ (l <> [] -> r <> []).
Proof. intros X. apply descend_ans in X as (path & used & _ & X). exists path. exact X. Qed.
(** It comes to an end: with enough turns for the lines, more turns change nothing. *)
Lemma descend_turns n : forall m l tag level ins, length ins < n -> length ins < m ->
  descend_from int_of hier n l tag level ins = descend_from int_of hier m l tag level ins.
Proof.
  induction n as [|n IH]; intros m l tag level ins L M; [lia|]. destruct m as [|m]; [lia|]. cbn [descend_from].
  destruct (pick_by_hier int_of hier l tag level ins) as [sub rest|] eqn:P; cbn [ibind]; [|reflexivity].
  unfold pick_by_hier in P. apply or_all_ans in P as (K & used & -> & P). destruct (list_eqb sub l) eqn:D; [reflexivity|].
  destruct P as [->|(k & S & N & U)]; [rewrite (proj2 (list_eqb_true l l) eq_refl) in D; discriminate|].
  rewrite app_length in L, M. destruct used as [|u used]; [easy|]. cbn [length] in L, M. apply IH; lia.
Qed.
Theorem C129_descent_ends l tag ins fuel : length ins < fuel -> descend_from int_of hier fuel l tag 0 ins = descend_hier int_of hier l tag ins.
Proof. intros L. apply descend_turns; lia. Qed.

(** ** By several tags: the answer has one value each of the first few tags. *)
Theorem C129_select_subset_partial l tags ins r rest : select_subset int_of tag_of l tags ins = Ans r rest ->
  exists n values, n <= length tags
    /\ r = filter (fun e => list_eqb (map (fun t => match tag_of t e with Some k => k | None => Some "(none)" end) (firstn n tags)) values) l
    /\ (l <> [] -> r <> []) /\ exists used, ins = used ++ rest.
Proof.
  revert l ins. induction tags as [|t ts IH]; intros l ins; [discriminate|]. cbn [select_subset].
  destruct (pick_by_tag int_of tag_of l t ins) as [sub rest'|] eqn:P; cbn [ibind]; [|discriminate].
  apply or_all_ans in P as (_ & used & -> & P). destruct (list_eqb sub l) eqn:D.
  - intros [= <- <-]. exists 0, []. split; [lia|]. split; [symmetry; apply filter_all; reflexivity|]. split; [auto|eauto].
  - destruct P as [->|(k & Sb & N & _)]; [rewrite (proj2 (list_eqb_true l l) eq_refl) in D; discriminate|]. intros X.
    assert (Y : (ts = [] /\ sub = r /\ rest' = rest) \/ select_subset int_of tag_of sub ts rest' = Ans r rest) by (destruct ts; [injection X as <- <-; auto|auto]).
    destruct Y as [(-> & <- & <-)|Y].
    + exists 1, [k]. split; [cbn; lia|]. split; [|split; [auto|eauto]]. rewrite Sb. apply filter_ext. intros e. cbn. rewrite Bool.andb_true_r. reflexivity.
    + destruct (IH _ _ Y) as (n & vs & L & F & Ne & used' & ->). exists (S n), (k :: vs). split; [cbn; lia|].
      split; [|split; [auto|exists (used ++ used'); apply app_assoc]]. rewrite F, Sb, filter_filter. apply filter_ext. intros e. reflexivity.
Qed.

(** ** One entity *)
Definition yields (l : list E) (m : ires (option E)) : Prop := forall x rest, m = Ans (Some x) rest -> In x l.
Lemma pick_list_yields l l' ins : incl l l' -> yields l' (pick_list int_of show l ins).
Proof. intros I x rest X. pose proof (C129_pick_list_partial int_of show l ins) as P. rewrite X in P. apply I, (proj1 P). Qed.
Lemma bind_yields {A} (m : ires A) (P : A -> Prop) l f : (forall a rest, m = Ans a rest -> P a) -> (forall a rest, P a -> yields l (f a rest)) -> yields l (ibind m f).
Proof. intros M F x rest. destruct m as [a r|]; cbn; [|discriminate]. apply F. eapply M. reflexivity. Qed.
Lemma by_tag_incl l tag ins r rest : pick_by_tag int_of tag_of l tag ins = Ans r rest -> incl r l.
Proof. intros X. apply C129_by_tag in X as [[->|(v & -> & _)] _]; [apply incl_refl|]. intros e I. apply filter_In in I. apply I. Qed.
Lemma descend_incl l tag ins r rest : descend_hier int_of hier l tag ins = Ans r rest -> incl r l.
Proof. intros X. apply C129_down_a_hierarchy in X as (p & -> & _). intros e I. apply filter_In in I. apply I. Qed.
Lemma picker_yields t p l ins : picker int_of tag_of hier show t = Some p -> yields l (p l ins).
Proof.
  unfold picker. destruct (String.eqb t "process"); [|destruct (String.eqb t "flow"); [|destruct (String.eqb t "quantity"); [|destruct (_ || _); [|discriminate]]]]; intros [= <-].
  - unfold filter_processes. destruct (length l <? 10); [apply pick_list_yields, incl_refl|].
    apply bind_yields with (P := fun r => incl r l).
    { intros a rest X. destruct (has_tag _ _ l); [eapply descend_incl; exact X|injection X as <- _; apply incl_refl]. }
    intros l1 ins1 I1. destruct (length l1 <? 10); [apply pick_list_yields, I1|]. apply bind_yields with (P := fun r => incl r l).
    { intros a rest X. destruct (has_tag _ _ l1); [eapply incl_tran; [eapply by_tag_incl; exact X|exact I1]|injection X as <- _; exact I1]. }
    intros l2 ins2 I2. destruct (length l2 <? 10); [apply pick_list_yields, I2|]. apply bind_yields with (P := fun r => incl r l).
    { intros a rest X. eapply incl_tran; [eapply by_tag_incl; exact X|exact I2]. }
    intros l3 ins3 I3. apply pick_list_yields, I3.
  - unfold filter_flows. destruct (length l <? 10); [apply pick_list_yields, incl_refl|]. apply bind_yields with (P := fun r => incl r l).
    { intros a rest X. eapply descend_incl; exact X. }
    intros a rest I. apply pick_list_yields, I.
  - unfold filter_quantities. apply bind_yields with (P := fun r => incl r l).
    { intros a rest X. apply C129_select_subset_partial in X as (n & vs & _ & -> & _). intros e I. apply filter_In in I. apply I. }
    intros a rest I. apply pick_list_yields, I.
  - apply pick_list_yields, incl_refl.
Qed.
(** Whatever is typed: what is picked is one of the entities. *)
Theorem C129_one_of_them l ins x rest : pick_one int_of etype tag_of hier show l ins = Ans (Some x) rest -> In x l.
Proof.
  unfold pick_one. destruct l as [|e0 r]; [discriminate|]. set (l := e0 :: r).
  assert (R : forall l' ins', incl l' l -> yields l (match l' with [] => Fail XIndex | e :: _ =>
     match picker int_of tag_of hier show (etype e) with Some p => p l' ins' | None => Fail XKey end end)).
  { intros l' ins' I x' rest' X. destruct l' as [|e l'']; [discriminate|]. destruct (picker _ _ _ _ (etype e)) as [p|] eqn:P; [|discriminate].
    apply I. exact (picker_yields _ _ _ _ P _ _ X). }
  destruct (existsb _ r).
  - unfold pick_by_etype. destruct (metagroup int_of l _ ins) as [[s|] rest'|] eqn:M; cbn [ibind]; try discriminate. intros X.
    refine (R s rest' _ _ _ X). apply metagroup_ans in M as (_ & used & _ & [M|(k & s' & [= <-] & -> & _)]); [discriminate|].
    intros e I. apply filter_In in I. apply I.
  - intros X. exact (R l ins (incl_refl _) _ _ X).
Qed.

(** ** Every entity can be picked *)
Section Reach.
(** Every number can be typed. *)
Hypothesis numeral : forall n, exists c, int_of c = Some (Z.of_nat n) /\ ~ blank c.
Lemma pick_list_reach l x : In x l -> exists pre, forall ins, pick_list int_of show l (pre ++ ins) = Ans (Some x) ins.
Proof.
  intros I. destruct (Nat.eq_dec (length l) 1) as [L|L].
  - destruct l as [|y [|]]; try discriminate. destruct I as [->|[]]. exists []. reflexivity.
  - destruct (C129_pick_by_number int_of show l) as (shown & P & _ & N).
    assert (J : In x shown) by (eapply Permutation_in; [symmetry; exact P|exact I]). apply In_nth_error in J as (i & J).
    destruct (numeral i) as (c & C & B). exists [c]. intros ins. exact (N i x c ins J C B L).
Qed.
Lemma keep_all (l : list E) (f : E -> option key) : (forall e, In e l -> f e <> None) -> exists pre, forall ins, metagroup int_of l f (pre ++ ins) = Ans None ins.
Proof.
  intros K. unfold metagroup. rewrite (proj2 (nokey_spec f l) K). destruct (tsort _ _) as [|g [|g' gs]].
  - exists [""]. reflexivity.
  - exists []. reflexivity.
  - exists [""]. reflexivity.
Qed.
Lemma keep_all' (l : list E) (f : E -> option key) : (forall e, In e l -> f e <> None) -> exists pre, forall ins, or_all l (metagroup int_of l f (pre ++ ins)) = Ans l ins.
Proof. intros K. destruct (keep_all l f K) as (pre & P). exists pre. intros ins. rewrite P. reflexivity. Qed.
Lemma descend_keep l tag : (forall e, In e l -> hier tag e <> None) -> exists pre, forall ins, descend_hier int_of hier l tag (pre ++ ins) = Ans l ins.
Proof.
  intros K. destruct (keep_all' l (level_key hier tag 0)) as (pre & P).
  { intros e I. unfold level_key. specialize (K e I). destruct (hier tag e); [discriminate|easy]. }
  exists pre. intros ins. unfold descend_hier. cbn [descend_from]. unfold pick_by_hier. rewrite P. cbn [ibind].
  rewrite (proj2 (list_eqb_true l l) eq_refl). reflexivity.
Qed.
Lemma tag_keep l tag : exists pre, forall ins, pick_by_tag int_of tag_of l tag (pre ++ ins) = Ans l ins.
Proof. apply keep_all'. discriminate. Qed.
Lemma picker_reach t p l x : picker int_of tag_of hier show t = Some p -> In x l ->
  (t = "process" -> has_tag tag_of "Classifications" l = true -> forall e, In e l -> hier "Classifications" e <> None) ->
  (t = "flow" -> forall e, In e l -> hier "Compartment" e <> None) ->
  exists pre, forall ins, p l (pre ++ ins) = Ans (Some x) ins.
Proof.
  intros P I HC HF. unfold picker in P. destruct (pick_list_reach l x I) as (p0 & P0).
  destruct (String.eqb_spec t "process") as [T|_]; [|destruct (String.eqb_spec t "flow") as [T|_]; [|destruct (String.eqb_spec t "quantity") as [T|_]; [|destruct (_ || _); [|discriminate]]]]; injection P as <-.
  - unfold filter_processes. destruct (length l <? 10) eqn:L; [exists p0; exact P0|].
    assert (A : exists pre, forall ins, (if has_tag tag_of "Classifications" l then descend_hier int_of hier l "Classifications" (pre ++ ins) else Ans l (pre ++ ins)) = Ans l ins).
    { destruct (has_tag tag_of "Classifications" l) ; [apply descend_keep, (HC T eq_refl)|exists []; reflexivity]. }
    assert (B : exists pre, forall ins, (if has_tag tag_of "IsicClass" l then pick_by_tag int_of tag_of l "IsicClass" (pre ++ ins) else Ans l (pre ++ ins)) = Ans l ins).
    { destruct (has_tag tag_of "IsicClass" l); [apply tag_keep|exists []; reflexivity]. }
    destruct A as (p1 & P1), B as (p2 & P2), (tag_keep l "SpatialScope") as (p3 & P3). exists (p1 ++ p2 ++ p3 ++ p0). intros ins.
    rewrite <- !app_assoc, P1. cbn [ibind]. rewrite L, P2. cbn [ibind]. rewrite L, P3. cbn [ibind]. apply P0.
  - unfold filter_flows. destruct (length l <? 10); [exists p0; exact P0|]. destruct (descend_keep l "Compartment" (HF T)) as (p1 & P1).
    exists (p1 ++ p0). intros ins. rewrite <- app_assoc, P1. apply P0.
  - unfold filter_quantities. destruct (tag_keep l "Method") as (p1 & P1). exists (p1 ++ p0). intros ins. cbn [select_subset]. rewrite <- app_assoc, P1. cbn [ibind].
    rewrite (proj2 (list_eqb_true l l) eq_refl). apply P0.
  - exists p0. exact P0.
Qed.
(** Every entity of a kind there is a picker for can be picked, whatever else is in the list.  ([partial]: where there are classifications
    or compartments to go through, every entity of the kind must have them; see [C129_refuted_classifications].) *)
Theorem C129_every_one_partial l x : In x l ->
  In (etype x) ["process"; "flow"; "quantity"; "exchange"; "characterization"] ->
  (etype x = "process" -> (forall e, In e l -> etype e = "process" -> tag_of "Classifications" e = None)
                       \/ (forall e, In e l -> etype e = "process" -> hier "Classifications" e <> None)) ->
  (etype x = "flow" -> forall e, In e l -> etype e = "flow" -> hier "Compartment" e <> None) ->
  exists lines, pick_one int_of etype tag_of hier show l lines = Ans (Some x) [].
Proof.
  intros I T HC HF. unfold pick_one. destruct l as [|e0 r]; [destruct I|]. set (l := e0 :: r) in *.
  assert (P : exists p, picker int_of tag_of hier show (etype x) = Some p).
  { unfold picker. cbn [In] in T. repeat (destruct T as [<- | T]; [eexists; reflexivity|]). destruct T. }
  destruct P as (p & P).
  assert (R : forall l', In x l' -> incl l' l -> (forall e, In e l' -> etype e = etype x) -> exists pre, forall ins,
     match l' with [] => Fail XIndex | e :: _ => match picker int_of tag_of hier show (etype e) with Some p => p l' (pre ++ ins) | None => Fail XKey end end = Ans (Some x) ins).
  { intros l' J K Ty. destruct (picker_reach _ _ l' x P J) as (pre & Q).
    - intros T1 Ht e Ie. destruct (HC T1) as [No|Al]; [exfalso|apply Al; [apply K, Ie|rewrite (Ty e Ie); exact T1]].
      apply existsb_exists in Ht as (e' & I' & Ht). rewrite (No e' (K e' I')) in Ht; [discriminate|rewrite (Ty e' I'); exact T1].
    - intros T1 e Ie. apply (HF T1); [apply K, Ie|rewrite (Ty e Ie); exact T1].
    - exists pre. intros ins. destruct l' as [|e l'']; [destruct J|]. rewrite (Ty e (or_introl eq_refl)), P. apply Q. }
  destruct (existsb (fun e => negb (String.eqb (etype e) (etype e0))) r) eqn:M.
  - set (f := fun e => Some (etype e) : key).
    assert (C : comparable f l) by (right; intros; discriminate).
    destruct (group_by_key f l x C I) as (g & G). pose proof (group_by_class f l C) as (ND & Cl). destruct (Cl _ _ G) as (Eg & _).
    destruct (R g) as (pre & Q).
    + rewrite Eg. apply filter_In. split; [exact I|]. apply has_key_true. reflexivity.
    + rewrite Eg. intros e Ie. apply filter_In in Ie. apply Ie.
    + intros e Ie. rewrite Eg in Ie. apply filter_In in Ie as (_ & Ie). apply has_key_true in Ie. injection Ie as Ie. exact Ie.
    + assert (Two : length (group_by l f) <> 1).
      { intros L1. apply existsb_exists in M as (e1 & I1 & D1). apply Bool.negb_true_iff, String.eqb_neq in D1.
        destruct (group_by_key f l e0 C (or_introl eq_refl)) as (g0 & G0), (group_by_key f l e1 C (or_intror I1)) as (g1 & G1).
        destruct (group_by l f) as [|a [|]]; try discriminate. destruct G0 as [G0|[]], G1 as [G1|[]]. unfold f in *. congruence. }
      set (gs := tsort (fun a b => length (snd b) <=? length (snd a)) (group_by l f)).
      assert (J : In (f x, g) gs) by (apply sorted_groups_In; exact G). apply In_nth_error in J as (i & J).
      destruct (numeral i) as (c & Cn & B). exists (c :: pre ++ []).
      assert (X : pick_by_etype int_of etype l (c :: pre ++ []) = Ans (Some g) (pre ++ [])).
      { unfold pick_by_etype, metagroup. rewrite (proj2 (nokey_spec (fun e => Some (Some (etype e))) l)) by discriminate.
        change (fun e : E => Some (etype e)) with f. fold gs.
        assert (Lg : length gs <> 1) by (unfold gs; rewrite (Permutation_length (tsort_perm _ _)); exact Two).
        assert (Mn : pick_menu int_of (Some (length gs)) ["done (keep all)"] (c :: pre ++ []) = Ans (Item (Z.of_nat i)) (pre ++ [])).
        { apply (proj2 (C129_first_line int_of (length gs) ["done (keep all)"] ["D"%char] _ _ _ eq_refl)). exists [], c. split; [reflexivity|]. split; [easy|].
          constructor; auto. assert (i < length gs) by (apply nth_error_Some; congruence). lia. }
        unfold pick_from_groups. destruct gs as [|a [|b gs']]; [destruct i; discriminate|easy|]. rewrite Mn. cbn [ibind]. rewrite py_nth_nat, J. reflexivity. }
      rewrite X. cbn [ibind]. apply Q.
  - destruct (R l I (incl_refl _)) as (pre & Q).
    + assert (A : forall e, In e l -> etype e = etype e0).
      { intros e [<- | Ie]; [reflexivity|]. destruct (String.eqb_spec (etype e) (etype e0)) as [|D]; [assumption|]. exfalso.
        assert (Z : existsb (fun e => negb (String.eqb (etype e) (etype e0))) r = true); [|congruence].
        apply existsb_exists. exists e. split; [exact Ie|]. apply Bool.negb_true_iff, String.eqb_neq, D. }
      intros e Ie. rewrite (A e Ie), (A x I). reflexivity.
    + exists (pre ++ []). apply Q.
Qed.
End Reach.
End Narrow.
Print Assumptions C129_groups.
Print Assumptions C129_by_tag.
Print Assumptions C129_down_a_hierarchy.
Print Assumptions C129_descent_ends.
Print Assumptions C129_select_subset_partial.
Print Assumptions C129_one_of_them.
Print Assumptions C129_every_one_partial.

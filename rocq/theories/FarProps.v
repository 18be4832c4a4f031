(** C96, C97: the index of a foreground archive (model: FarModel.v). *)
From Verif Require Import Num Base PyStr FarModel FarProofs.
Open Scope nat_scope.
Open Scope list_scope.
Local Arguments eqb : simpl never.

(** * Specification *)
(** [next] of a set that is not empty gives one of its elements *)
Definition picks (pick : list string -> option string) : Prop := forall l, l <> [] -> exists x, pick l = Some x /\ In x l.
(** the archive holds object [i], which is [o] *)
Definition holds (s : far) (i : nat) (o : obj) : Prop := exists l, dget l (a_ents s) = Some i /\ dget i (a_objs s) = Some o.
(** a step is fit: an added entity has a uuid without slash that [to_uuid] recognizes and that is not a fragment's name, and if an entity has its link already, it has the same uuid;
    a name is given to a fragment, has no slash, and no entity has the link it gives *)
Definition fit (to_uuid : string -> option string) (s : far) (op : aop) : Prop :=
  match op with
  | Add i => forall o, dget i (a_objs s) = Some o -> has_slash (o_uuid o) = false /\ to_uuid (o_uuid o) = Some (o_uuid o) /\ dget (o_uuid o) (a_ext s) = None /\
      forall j c, dget ((match o_origin o with Some r => r | None => a_ref s end) ++ "/" ++ ext_ref o)%string (a_ents s) = Some j -> dget j (a_objs s) = Some c -> o_uuid c = o_uuid o
  | Name i n => has_slash n = false /\ forall o, dget i (a_objs s) = Some o -> o_type o = "fragment" /\ dget ((match o_origin o with Some r => r | None => "None" end) ++ "/" ++ n)%string (a_ents s) = None
  end.
Fixpoint fit_run (to_uuid : string -> option string) (pick : list string -> option string) (s : far) (ops : list aop) : Prop :=
  match ops with [] => True | op :: t => fit to_uuid s op /\ fit_run to_uuid pick (fst (astep to_uuid pick s op)) t end.
(** reached by a history of fit steps from an empty archive *)
Definition reached (to_uuid : string -> option string) (pick : list string -> option string) (s : far) : Prop :=
  exists objs next ref ops, (forall i o, dget i objs = Some o -> i < next) /\ fit_run to_uuid pick (Far objs next ref [] [] [] []) ops /\ arun to_uuid pick (Far objs next ref [] [] [] []) ops = s.

Lemma fit_ok tu s op : fit tu s op -> ok_op tu s op.
Proof. destruct op as [i|i n]; cbn; [|auto]. intros F o D. destruct (F o D) as (A & B & C & E). split; [exact A|]. split; [exact B|]. split; [exact C|]. intros j c [H1 H2]. exact (E j c H1 H2). Qed.
Lemma fit_run_ok tu pick ops : forall s, fit_run tu pick s ops -> ok_run tu pick s ops.
Proof. induction ops as [|op t IH]; intros s; cbn; [auto|]. intros [A B]. split; [apply fit_ok, A|apply IH, B]. Qed.
Lemma reached_coh tu pick s : picks pick -> reached tu pick s -> coh tu s.
Proof. intros PK (objs & next & ref & ops & N & F & <-). apply (run_coh tu pick PK ops); [apply start_coh, N|apply fit_run_ok, F]. Qed.
Lemma reached_run tu pick s ops : picks pick -> reached tu pick s -> fit_run tu pick s ops -> reached tu pick (arun tu pick s ops).
Proof.
  intros PK (objs & next & ref & ops0 & N & F & E) F2. exists objs, next, ref, (ops0 ++ ops). split; [exact N|]. revert E F. generalize (Far objs next ref [] [] [] []). induction ops0 as [|op t IH]; intros s0 E F; cbn in *; [subst; auto|]. destruct F as [F0 F1]. destruct (IH _ E F1) as [A B]. auto.
Qed.

(** * C96 *)
(** every entity is found by its link, and by its uuid one of that uuid; each type lists its entities once each; a name finds its fragment *)
Theorem C96_found_partial tu pick s i o : picks pick -> reached tu pick s -> holds s i o ->
  get tu pick s (link o) = Some i /\ (exists j c, get tu pick s (o_uuid o) = Some j /\ holds s j c /\ o_uuid c = o_uuid o) /\
  (forall k, In (Some k) (by_type s (o_type o)) <-> exists c, holds s k c /\ o_type c = o_type o) /\ NoDup (by_type s (o_type o)) /\ ~ In None (by_type s (o_type o)).
Proof.
  intros PK R (l & DL & D). assert (C := reached_coh tu pick s PK R). destruct (c_ents _ _ C l i DL) as (o' & D' & _ & L & _). rewrite D in D'. injection D' as <-. subst l. split; [apply get_link, DL|]. split.
  - destruct (get_uuid tu pick PK s (link o) i o C (conj DL D)) as (l' & j & c & G & [A B] & U). exists j, c. split; [exact G|]. split; [exists l'; auto|exact U].
  - assert (ST : forall l, In l (sget (o_type o) (a_type s)) -> exists k c, dget l (a_ents s) = Some k /\ dget k (a_objs s) = Some c /\ o_type c = o_type o) by (intros l I; apply (c_type _ _ C) in I as (k & c & [A B] & T); eauto).
    split; [|split].
    + intros k. unfold by_type. rewrite in_map_iff. split.
      * intros (l & E & I). destruct (ST l I) as (k' & c & A & B & T). exists c. split; [exists l; split; [exact E|congruence]|exact T].
      * intros (c & (l & A & B) & T). exists l. split; [exact A|]. apply (c_type _ _ C). exists k, c. split; [split; assumption|exact T].
    + unfold by_type. assert (N := c_tnd _ _ C (o_type o)). revert N ST. generalize (sget (o_type o) (a_type s)). induction l as [|x l IH]; intros N ST; cbn; constructor.
      * intros I. apply in_map_iff in I as (y & E & I). inversion N as [|? ? NI _]; subst. destruct (ST x (or_introl eq_refl)) as (k & c & A & _). rewrite A in E. apply NI. rewrite <- (coh_one tu s y x k C E A). exact I.
      * inversion N; subst. apply IH; [assumption|]. intros y I. apply ST. right. exact I.
    + intros I. unfold by_type in I. apply in_map_iff in I as (l & E & I). destruct (ST l I) as (k & c & A & _). congruence.
Qed.
(** what was added stays, whatever is added or named afterwards *)
Theorem C96_added_stays_partial tu pick s i s1 ops : picks pick -> reached tu pick s -> fit tu s (Add i) -> add tu pick s i = (s1, None) -> fit_run tu pick s1 ops ->
  exists o j c, dget i (a_objs s) = Some o /\ get tu pick s1 ((match o_origin o with Some r => r | None => a_ref s end) ++ "/" ++ ext_ref o)%string = Some j /\ holds (arun tu pick s1 ops) j c /\ get tu pick (arun tu pick s1 ops) (link c) = Some j.
Proof.
  intros PK R F A FR. assert (C := reached_coh tu pick s PK R). destruct (add_coh tu pick s i C (fit_ok tu s (Add i) F)) as (C1 & _ & X). rewrite A in C1, X. cbn in C1, X. destruct (X eq_refl) as (o & j & D & DL). destruct (run_coh tu pick PK ops s1 C1 (fit_run_ok _ _ _ _ FR)) as (C2 & K & _).
  destruct (K _ _ DL) as [l' DL']. destruct (c_ents _ _ C2 l' j DL') as (c & DC & _ & L & _). exists o, j, c. split; [exact D|]. split; [apply get_link; exact DL|]. split; [exists l'; auto|]. apply get_link. rewrite L. exact DL'.
Qed.
(** a fragment that was given a name is found by it, and by the link made of it, ever after; it is the same object and nothing else changes *)
Theorem C96_named_partial tu pick s i n s1 ops : picks pick -> reached tu pick s -> fit tu s (Name i n) -> name_fragment tu pick s i n = (s1, None) -> fit_run tu pick s1 ops ->
  get tu pick s n = None /\ get tu pick (arun tu pick s1 ops) n = Some i /\ (exists o, dget i (a_objs s1) = Some o /\ ext_ref o = n /\ get tu pick s1 (link o) = Some i) /\
  (forall j c, j <> i -> holds s j c <-> holds s1 j c).
Proof.
  intros PK R F A FR. assert (C := reached_coh tu pick s PK R). assert (N := name_coh tu pick PK s i n C F). rewrite A in N. destruct N as (C1 & o & o' & [DL D] & XO & KN & [DL' D'] & SI & NX & KX & KO & KL & OL).
  destruct (run_coh tu pick PK ops s1 C1 (fit_run_ok _ _ _ _ FR)) as (C2 & K & NN). split; [unfold get; rewrite KN; reflexivity|]. destruct (NN n _ i NX DL') as (l' & X1 & X2). destruct (get_name tu pick _ n l' C2 X1) as [G _]. rewrite G. split; [exact X2|]. split.
  - exists o'. split; [exact D'|]. split; [unfold ext_ref; destruct SI as (_ & _ & -> & _); reflexivity|]. apply get_link. rewrite (same_link _ _ SI). exact DL'.
  - intros j c NJ. unfold holds. rewrite (KO j NJ). split; intros (l & H & H2); exists l; (split; [|exact H2]).
    + rewrite KL; [exact H| |]; intros ->; [congruence|]. destruct F as [_ F]. destruct (F o D) as [_ NL]. unfold new_link in H. congruence.
    + rewrite KL in H; [exact H| |]; intros ->; congruence.
Qed.
(** a naming that is refused changes nothing *)
Theorem C96_refused_name_changes_nothing_partial tu pick s i n s1 e : picks pick -> reached tu pick s -> fit tu s (Name i n) -> name_fragment tu pick s i n = (s1, Some e) -> s1 = s.
Proof. intros PK R F A. assert (N := name_coh tu pick PK s i n (reached_coh tu pick s PK R) F). rewrite A in N. exact N. Qed.

Lemma append_inj a b c : (a ++ b = a ++ c)%string -> b = c. Proof. induction a as [|x a IH]; cbn; [auto|]. intros [= H]. exact (IH H). Qed.
Lemma dget_app_s (a b : dict string string) k : dget k (a ++ b) = match dget k a with Some v => Some v | None => dget k b end.
Proof. induction a as [|[x y] a IH]; cbn; [reflexivity|]. destruct (eqb k x); [reflexivity|exact IH]. Qed.
Lemma dget_filter_s (a b : dict string string) k : dget k (filter (fun e => negb (din (fst e) a)) b) = if din k a then None else dget k b.
Proof.
  induction b as [|[x y] b IH]; cbn; [destruct (din k a); reflexivity|]. destruct (din x a) eqn:X; cbn.
  - rewrite IH. destruct (eqb_spec k x) as [->|]; [rewrite X; reflexivity|reflexivity].
  - destruct (eqb_spec k x) as [->|]; [rewrite X; reflexivity|exact IH].
Qed.
(** adding an entity again adds the properties that are missing, keeps the others, and changes nothing else *)
Theorem C96_added_again_partial tu pick s i o j c : picks pick -> reached tu pick s -> fit tu s (Add i) -> dget i (a_objs s) = Some o -> o_origin o = Some (a_ref s) -> holds s j c -> link c = link o -> o_origin c = o_origin o -> o_type c = o_type o -> o_ent c = true ->
  (forall k d, holds s k d -> o_uuid d = o_uuid o -> k = j) ->
  exists s1 c', add tu pick s i = (s1, None) /\ holds s1 j c' /\ o_ext c' = o_ext c /\ o_uuid c' = o_uuid c /\ o_type c' = o_type c /\ (forall p, dget p (o_props c') = match dget p (o_props c) with Some v => Some v | None => dget p (o_props o) end) /\
    (forall k d, k <> j -> holds s k d <-> holds s1 k d).
Proof.
  intros PK R F D RO (l & DL & DC) LE OE TE EN UQ. assert (C := reached_coh tu pick s PK R). destruct (c_ents _ _ C l j DL) as (c0 & DC0 & _ & L & TT & _). rewrite DC in DC0. injection DC0 as <-. subst l. rewrite LE in DL.
  destruct (F o D) as (_ & _ & _ & SU). rewrite RO in SU. assert (LO : link o = (a_ref s ++ "/" ++ ext_ref o)%string) by (unfold link; rewrite RO; reflexivity). rewrite <- LO in SU. assert (UC := SU j c DL DC).
  assert (XE : ext_ref c = ext_ref o). { unfold link in LE. rewrite OE in LE. apply append_inj in LE. cbn in LE. injection LE as LE. exact LE. }
  unfold add. rewrite D. assert (MT : mem (o_type o) types = true) by (apply mem_In; rewrite <- TE; exact TT). rewrite MT. cbn [negb]. unfold localize. rewrite RO, eqb_refl, andb_false_r. unfold din. rewrite DL.
  destruct (get_uuid tu pick PK s (link o) j c C (conj DL DC)) as (l' & k & c1 & G & [A1 A2] & U1). rewrite UC in *. rewrite G. assert (k = j) by (apply (UQ k c1); [exists l'; auto|exact U1]). subst k.
  unfold merge. rewrite DC, TE, XE, !eqb_refl. cbn [negb]. eexists _, _. split; [reflexivity|]. split.
  - exists (link o). cbn. split; [exact DL|]. rewrite dget_dset, eqb_refl. reflexivity.
  - cbn. split; [reflexivity|]. split; [first [exact UC|reflexivity]|]. split; [first [exact TE|symmetry; exact TE|reflexivity]|]. split.
    + intros p. unfold merged_props. rewrite EN, dget_app_s, dget_filter_s. unfold din. destruct (dget p (o_props c)); reflexivity.
    + intros k d NK. unfold holds. cbn. rewrite dget_dset. destruct (eqb_spec k j); [contradiction|reflexivity].
Qed.

(** * Where the hypotheses cannot be dropped *)
Definition tu0 (s : string) : option string := if has_slash s then None else if (String.length s =? 2)%nat then Some s else None.
Definition hd0 (l : list string) : option string := match l with [] => None | x :: _ => Some x end.
Lemma hd0_picks : picks hd0. Proof. intros [|x l] H; [contradiction|]. exists x. cbn. auto. Qed.
Definition flow0 := Ob "u0" None (Some "steel") "flow" true true false None [].
Definition frag0 := Ob "u1" None None "fragment" true true true None [("name", "f")].
(** naming a fragment like the external reference of a flow loses the flow: [_key_to_id] does not look for the link the name gives *)
Theorem C96_name_overwrites_refuted : exists s s1, reached tu0 hd0 s /\ (exists o, holds s 0 o) /\ name_fragment tu0 hd0 s 1 "steel" = (s1, None) /\ (forall o, ~ holds s1 0 o) /\ by_type s1 "flow" = [Some 1].
Proof.
  set (objs := [(0, flow0); (1, frag0)]). exists (arun tu0 hd0 (Far objs 2 "fg" [] [] [] []) [Add 0; Add 1]). eexists. split; [|split; [|split; [vm_compute; reflexivity|split]]].
  - exists objs, 2, "fg", [Add 0; Add 1]. split; [|split; [|reflexivity]].
    + intros i o D. unfold objs in D. cbn in D. destruct (eqb_spec i 0) as [->|]; [lia|]. destruct (eqb_spec i 1) as [->|]; [lia|discriminate].
    + cbn. split; [|split; [|exact I]]; intros o D; vm_compute in D; injection D as <-; (split; [reflexivity|]); (split; [reflexivity|]); (split; [reflexivity|]); intros j c H; vm_compute in H; discriminate.
  - eexists. exists "fg/steel". vm_compute. split; reflexivity.
  - intros o (l & H & _). cbn in H. destruct (eqb l "fg/steel"); discriminate.
  - reflexivity.
Qed.
(** adding a reference again overwrites its properties, although the code says the first is dominant *)
Definition ref0 (v : string) := Ob "u2" (Some "other") (Some "x") "flow" false true false None [("comment", v)].
Theorem C96_reference_overwritten_refuted : exists s s1 c, reached tu0 hd0 s /\ holds s 0 (ref0 "mine") /\ add tu0 hd0 s 1 = (s1, None) /\ holds s1 0 c /\ o_props c = [("comment", "theirs")].
Proof.
  set (objs := [(0, ref0 "mine"); (1, ref0 "theirs")]). exists (arun tu0 hd0 (Far objs 2 "fg" [] [] [] []) [Add 0]). eexists _, _. split; [|split; [|split; [vm_compute; reflexivity|split]]].
  - exists objs, 2, "fg", [Add 0]. split; [|split; [|reflexivity]].
    + intros i o D. unfold objs in D. cbn in D. destruct (eqb_spec i 0) as [->|]; [lia|]. destruct (eqb_spec i 1) as [->|]; [lia|discriminate].
    + cbn. split; [|exact I]. intros o D; vm_compute in D; injection D as <-; (split; [reflexivity|]); (split; [reflexivity|]); (split; [reflexivity|]); intros j c H; vm_compute in H; discriminate.
  - exists "other/x". vm_compute. split; reflexivity.
  - exists "other/x". vm_compute. split; reflexivity.
  - reflexivity.
Qed.
(** of two entities of one uuid, adding the second again may change the first *)
Definition two0 (r v : string) := Ob "u3" (Some r) (Some "x") "flow" false true false None [("comment", v)].
Theorem C96_merged_into_another_refuted : exists s s1 c, reached tu0 hd0 s /\ holds s 0 (two0 "a" "first") /\ holds s 1 (two0 "b" "second") /\ add tu0 hd0 s 1 = (s1, None) /\ holds s1 0 c /\ o_props c = [("comment", "second")].
Proof.
  set (objs := [(0, two0 "a" "first"); (1, two0 "b" "second")]). exists (arun tu0 hd0 (Far objs 2 "fg" [] [] [] []) [Add 0; Add 1]). eexists _, _. split; [|split; [|split; [|split; [vm_compute; reflexivity|split]]]].
  - exists objs, 2, "fg", [Add 0; Add 1]. split; [|split; [|reflexivity]].
    + intros i o D. unfold objs in D. cbn in D. destruct (eqb_spec i 0) as [->|]; [lia|]. destruct (eqb_spec i 1) as [->|]; [lia|discriminate].
    + cbn. split; [|split; [|exact I]]; intros o D; vm_compute in D; injection D as <-; (split; [reflexivity|]); (split; [reflexivity|]); (split; [reflexivity|]); intros j c H; vm_compute in H; discriminate.
  - exists "a/x". vm_compute. split; reflexivity.
  - exists "b/x". vm_compute. split; reflexivity.
  - exists "a/x". vm_compute. split; reflexivity.
  - reflexivity.
Qed.

(** * C97: deleting orphans *)
(** an orphan: a background fragment of the archive, without parent, that nothing ends in *)
Definition is_orphan (linked : nat -> bool) (s : far) (i : nat) (o : obj) : Prop := holds s i o /\ o_type o = "fragment" /\ o_bg o = true /\ o_parent o = None /\ linked i = false.
(** without [for_real], and when there is no orphan, nothing changes; otherwise nothing is deleted either: the first orphan raises KeyError, since entities are kept by link and not by uuid *)
Theorem C97_no_orphan_no_change_partial tu pick linked fr s : picks pick -> reached tu pick s -> fr = false \/ (forall i o, ~ is_orphan linked s i o) -> del_orphans linked fr s = (s, None).
Proof.
  intros PK R H. assert (C := reached_coh tu pick s PK R). unfold del_orphans. assert (G : forall l, (forall e, In e l -> In e (by_type s "fragment")) -> del_loop linked fr l s = (s, None)).
  { induction l as [|e l IH]; intros SUB; [reflexivity|]. cbn. assert (IHl := IH (fun x I => SUB x (or_intror I))). destruct (orphan linked s e) as [o|] eqn:O; [|exact IHl]. destruct H as [->|H]; [exact IHl|]. exfalso. assert (I := SUB e (or_introl eq_refl)). unfold by_type in I. apply in_map_iff in I as (x & <- & I).
    apply (c_type _ _ C) in I as (j & c & [A B] & T). unfold orphan in O. rewrite A, B in O. destruct (o_parent c) eqn:P; [discriminate|]. destruct (o_bg c) eqn:BG; [|discriminate]. destruct (linked j) eqn:LJ; [discriminate|]. apply (H j c). repeat split; try assumption. exists x. auto. }
  apply G. auto.
Qed.
Theorem C97_orphans_never_deleted_refuted tu pick linked s i o : picks pick -> reached tu pick s -> is_orphan linked s i o -> del_orphans linked true s = (s, Some AKeyError).
Proof.
  intros PK R ((l & DL & D) & T & BG & P & LK). assert (C := reached_coh tu pick s PK R). unfold del_orphans.
  assert (IN : In (Some i) (by_type s "fragment")) by (unfold by_type; rewrite <- DL; apply in_map_iff; exists l; split; [reflexivity|apply (c_type _ _ C); exists i, o; split; [split; assumption|exact T]]).
  assert (G : forall ls, (forall e, In e ls -> In e (by_type s "fragment")) -> In (Some i) ls -> del_loop linked true ls s = (s, Some AKeyError)).
  { induction ls as [|e ls IH]; intros SUB IX; [destruct IX|]. cbn. destruct (orphan linked s e) as [c|] eqn:O.
    - assert (I := SUB e (or_introl eq_refl)). unfold by_type in I. apply in_map_iff in I as (x & <- & I). apply (c_type _ _ C) in I as (j & c' & [A B] & _). assert (c = c') by (unfold orphan in O; rewrite A, B in O; destruct (o_parent c'); [discriminate|]; destruct (o_bg c' && negb (linked j)); congruence). subst c'.
      destruct (c_ents _ _ C x j A) as (c' & B' & _ & _ & _ & NS & _). rewrite B in B'. injection B' as <-. unfold del_f, din. destruct (dget (o_uuid c) (a_ents s)) as [k|] eqn:K; [assert (X := coh_key tu _ _ _ C K); congruence|]. reflexivity.
    - destruct IX as [->|IX]; [unfold orphan in O; rewrite D, P, BG, LK in O; discriminate|]. apply IH; [intros x I; apply SUB; right; exact I|exact IX]. }
  apply G; auto.
Qed.

(** * The hypotheses are met *)
Definition objs1 : dict nat obj := [(0, flow0); (1, frag0); (2, Ob "u4" (Some "other") None "flow" true true false None [("comment", "c")]); (3, Ob "u1" (Some "fg") (Some "top") "fragment" true true true None [("name", "g"); ("tag", "t")])].
Definition ops1 : list aop := [Add 0; Add 1; Add 2; Name 1 "top"; Add 3; Name 1 "again"].
Example C96_met : reached tu0 hd0 (arun tu0 hd0 (Far objs1 4 "fg" [] [] [] []) ops1).
Proof.
  exists objs1, 4, "fg", ops1. split; [|split; [|reflexivity]].
  - intros i o D. unfold objs1 in D. cbn in D. do 4 (match type of D with context [eqb i ?k] => destruct (eqb_spec i k) as [->|]; [lia|] end). discriminate.
  - assert (A : forall s i, (match dget i (a_objs s) with Some o => negb (has_slash (o_uuid o)) && eqb (tu0 (o_uuid o)) (Some (o_uuid o)) && negb (din (o_uuid o) (a_ext s)) &&
        match dget ((match o_origin o with Some r => r | None => a_ref s end) ++ "/" ++ ext_ref o)%string (a_ents s) with Some j => match dget j (a_objs s) with Some c => eqb (o_uuid c) (o_uuid o) | None => false end | None => true end | None => false end) = true -> fit tu0 s (Add i)).
    { intros s i H o D. rewrite D in H. rewrite !andb_true_iff in H. destruct H as [[[H1 H2] H3] H4]. split; [apply negb_true_iff, H1|]. split; [apply eqb_eq, H2|]. split; [unfold din in H3; destruct (dget (o_uuid o) (a_ext s)); [discriminate|reflexivity]|].
      intros j c J K. rewrite J, K in H4. apply eqb_eq, H4. }
    assert (B : forall s i n, (negb (has_slash n) && match dget i (a_objs s) with Some o => eqb (o_type o) "fragment" && negb (din ((match o_origin o with Some r => r | None => "None" end) ++ "/" ++ n)%string (a_ents s)) | None => false end) = true -> fit tu0 s (Name i n)).
    { intros s i n H. apply andb_true_iff in H as [H1 H2]. split; [apply negb_true_iff, H1|]. intros o D. rewrite D in H2. apply andb_true_iff in H2 as [H2 H3]. split; [apply eqb_eq, H2|]. unfold din in H3. destruct (dget _ (a_ents s)); [discriminate|reflexivity]. }
    unfold ops1. cbn [fit_run]. repeat (split; [first [apply A; vm_compute; reflexivity|apply B; vm_compute; reflexivity]|]). exact I.
Qed.
Example C96_run : let s := arun tu0 hd0 (Far objs1 4 "fg" [] [] [] []) ops1 in
  get tu0 hd0 s "top" = Some 1 /\ get tu0 hd0 s "u1" = Some 1 /\ get tu0 hd0 s "fg/steel" = Some 0 /\ get tu0 hd0 s "other/u4" = Some 4 /\ by_type s "flow" = [Some 0; Some 4] /\ (exists o, dget 1 (a_objs s) = Some o /\ o_props o = [("name", "f"); ("tag", "t")]) /\ del_orphans (fun _ => false) true s = (s, Some AKeyError).
Proof. vm_compute. repeat split. eexists. split; reflexivity. Qed.

Print Assumptions C96_found_partial.
Print Assumptions C96_added_stays_partial.
Print Assumptions C96_named_partial.
Print Assumptions C96_added_again_partial.
Print Assumptions C97_orphans_never_deleted_refuted.

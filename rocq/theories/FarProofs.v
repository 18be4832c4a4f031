(** The index of a foreground archive stays coherent (model: FarModel.v). *)
From Verif Require Import Num Base PyStr FarModel.
Open Scope nat_scope.
Open Scope list_scope.
Local Arguments eqb : simpl never.

Fixpoint has_slash (s : string) : bool := match s with EmptyString => false | String c r => Ascii.eqb c "/" || has_slash r end.
Lemma slash_app a b : has_slash (a ++ b)%string = has_slash a || has_slash b.
Proof. induction a as [|c a IH]; cbn; [reflexivity|]. rewrite IH, orb_assoc. reflexivity. Qed.
Lemma slash_link o : has_slash (link o) = true. Proof. unfold link. rewrite slash_app. cbn. apply orb_true_r. Qed.

(** * Sets *)
Lemma in_sadd x y l : In y (sadd x l) <-> In y l \/ y = x.
Proof. unfold sadd. destruct (mem x l) eqn:M; [apply mem_In in M; split; [auto|intros [I| ->]; auto]|]. rewrite in_app_iff. cbn. intuition. Qed.
Lemma nd_sadd x l : NoDup l -> NoDup (sadd x l).
Proof. intros N. unfold sadd. destruct (mem x l) eqn:M; [exact N|]. apply NoDup_snoc; [exact N|]. intros I. apply mem_In in I. congruence. Qed.
Lemma in_srem x y l : In y (srem x l) <-> In y l /\ y <> x.
Proof. unfold srem. rewrite filter_In. destruct (eqb_spec y x) as [->|N]; cbn; intuition congruence. Qed.
Lemma nd_srem x l : NoDup l -> NoDup (srem x l). Proof. apply NoDup_filter. Qed.
Lemma sget_dset k k' v d : sget k (dset k' v d) = if eqb k k' then v else sget k d.
Proof. unfold sget. rewrite dget_dset. destruct (eqb k k'); reflexivity. Qed.

Section Far.
Context (to_uuid : string -> option string) (pick : list string -> option string) (PK : forall l, l <> [] -> exists x, pick l = Some x /\ In x l).
Definition stored (s : far) (l : string) (i : nat) (o : obj) : Prop := dget l (a_ents s) = Some i /\ dget i (a_objs s) = Some o.
Record coh (s : far) : Prop := COH {
  c_ents : forall l i, dget l (a_ents s) = Some i -> exists o, dget i (a_objs s) = Some o /\ o_origin o <> None /\ link o = l /\ In (o_type o) types /\ has_slash (o_uuid o) = false /\ dget (o_uuid o) (a_ext s) = None /\ to_uuid (o_uuid o) = Some (o_uuid o);
  c_uuid : forall u l, In l (sget u (a_uuid s)) <-> exists i o, stored s l i o /\ o_uuid o = u;
  c_une : forall u l, dget u (a_uuid s) = Some l -> l <> [];
  c_und : forall u, NoDup (sget u (a_uuid s));
  c_type : forall t l, In l (sget t (a_type s)) <-> exists i o, stored s l i o /\ o_type o = t;
  c_tnd : forall t, NoDup (sget t (a_type s));
  c_ext : forall n l, dget n (a_ext s) = Some l -> has_slash n = false /\ exists i o, stored s l i o /\ o_ext o = Some n;
  c_next : forall i o, dget i (a_objs s) = Some o -> i < a_next s }.

Lemma coh_key s l i : coh s -> dget l (a_ents s) = Some i -> has_slash l = true. Proof. intros C H. destruct (c_ents _ C l i H) as (o & _ & _ & <- & _). apply slash_link. Qed.
Lemma coh_one s l l' i : coh s -> dget l (a_ents s) = Some i -> dget l' (a_ents s) = Some i -> l = l'.
Proof. intros C A B. destruct (c_ents _ C l i A) as (o & D & _ & <- & _). destruct (c_ents _ C l' i B) as (o' & D' & _ & <- & _). congruence. Qed.
Lemma din_get {A} (k : string) (d : dict string A) : din k d = match dget k d with Some _ => true | None => false end.
Proof. reflexivity. Qed.

(** * Retrieval *)
Lemma get_link s l i : dget l (a_ents s) = Some i -> get to_uuid pick s l = Some i.
Proof. intros H. unfold get, key_to_id. rewrite din_get, H. exact H. Qed.
Lemma get_name s n l : coh s -> dget n (a_ext s) = Some l -> get to_uuid pick s n = dget l (a_ents s) /\ dget l (a_ents s) <> None.
Proof.
  intros C H. destruct (c_ext _ C n l H) as [NS (i & o & [D _] & _)]. split; [|congruence]. unfold get, key_to_id. rewrite din_get. destruct (dget n (a_ents s)) as [j|] eqn:E; [assert (X := coh_key s n j C E); congruence|]. rewrite H. reflexivity.
Qed.
Lemma get_uuid s l i o : coh s -> stored s l i o -> exists l' j o', get to_uuid pick s (o_uuid o) = Some j /\ stored s l' j o' /\ o_uuid o' = o_uuid o.
Proof.
  intros C [D O]. destruct (c_ents _ C l i D) as (o1 & O1 & _ & _ & _ & NS & NE & TU). rewrite O in O1. injection O1 as <-. unfold get, key_to_id. rewrite din_get.
  destruct (dget (o_uuid o) (a_ents s)) as [j|] eqn:E; [assert (X := coh_key _ _ _ C E); congruence|]. rewrite NE, TU.
  assert (I : In l (sget (o_uuid o) (a_uuid s))) by (apply (c_uuid _ C); exists i, o; split; [split; assumption|reflexivity]).
  destruct (dget (o_uuid o) (a_uuid s)) as [ls|] eqn:G; [|unfold sget in I; rewrite G in I; destruct I]. destruct (PK ls (c_une _ C _ _ G)) as (x & -> & IX).
  assert (J : In x (sget (o_uuid o) (a_uuid s))) by (unfold sget; rewrite G; exact IX). apply (c_uuid _ C) in J as (j & o' & [DJ OJ] & U). exists x, j, o'. split; [exact DJ|]. split; [split; assumption|exact U].
Qed.

(** * Changes of objects that keep identities *)
Definition same_id (o o' : obj) : Prop := o_uuid o' = o_uuid o /\ o_origin o' = o_origin o /\ o_ext o' = o_ext o /\ o_type o' = o_type o.
Lemma same_link o o' : same_id o o' -> link o' = link o. Proof. intros (U & R & E & _). unfold link, ext_ref. rewrite U, R, E. reflexivity. Qed.
Lemma coh_objs s s' : coh s -> a_ents s' = a_ents s -> a_ext s' = a_ext s -> a_uuid s' = a_uuid s -> a_type s' = a_type s ->
  (forall l i o, stored s l i o -> exists o', dget i (a_objs s') = Some o' /\ same_id o o') -> (forall i o, dget i (a_objs s') = Some o -> i < a_next s') -> coh s'.
Proof.
  intros C E1 E2 E3 E4 K N. assert (FW : forall l i o, stored s l i o -> exists o', stored s' l i o' /\ same_id o o').
  { intros l i o H. destruct (K l i o H) as (o' & D & SI). exists o'. split; [split; [rewrite E1; exact (proj1 H)|exact D]|exact SI]. }
  assert (BW : forall l i o', stored s' l i o' -> exists o, stored s l i o /\ same_id o o').
  { intros l i o' [D O]. rewrite E1 in D. destruct (c_ents _ C l i D) as (o & OO & _). destruct (K l i o (conj D OO)) as (o2 & D2 & SI). rewrite O in D2. injection D2 as <-. exists o. split; [split; assumption|exact SI]. }
  split.
  - intros l i D. rewrite E1 in D. rewrite E2. destruct (c_ents _ C l i D) as (o & OO & R & L & T & NS & NE & TU). destruct (K l i o (conj D OO)) as (o' & D' & SI). exists o'. rewrite (same_link _ _ SI). destruct SI as (U & RR & E & TT). rewrite U, RR, TT. auto 10.
  - intros u l. rewrite E3, (c_uuid _ C u l). split.
    + intros (i & o & H & U). destruct (FW _ _ _ H) as (o' & H' & SI). exists i, o'. split; [exact H'|]. rewrite (proj1 SI). exact U.
    + intros (i & o' & H & U). destruct (BW _ _ _ H) as (o & H' & SI). exists i, o. split; [exact H'|]. rewrite <- (proj1 SI). exact U.
  - rewrite E3. exact (c_une _ C).
  - rewrite E3. exact (c_und _ C).
  - intros t l. rewrite E4, (c_type _ C t l). split.
    + intros (i & o & H & U). destruct (FW _ _ _ H) as (o' & H' & (_ & _ & _ & TT)). exists i, o'. split; [exact H'|congruence].
    + intros (i & o' & H & U). destruct (BW _ _ _ H) as (o & H' & (_ & _ & _ & TT)). exists i, o. split; [exact H'|congruence].
  - rewrite E4. exact (c_tnd _ C).
  - intros n l D. rewrite E2 in D. destruct (c_ext _ C n l D) as [NS (i & o & H & X)]. split; [exact NS|]. destruct (FW _ _ _ H) as (o' & H' & (_ & _ & EE & _)). exists i, o'. split; [exact H'|congruence].
  - exact N.
Qed.

(** * Adding *)
Definition home (s : far) (o : obj) : string := match o_origin o with Some r => r | None => a_ref s end.
Definition home_link (s : far) (o : obj) : string := (home s o ++ "/" ++ ext_ref o)%string.
Lemma localize_spec s i o s1 k o1 : coh s -> dget i (a_objs s) = Some o -> localize s i o = (s1, k, o1) ->
  coh s1 /\ a_ents s1 = a_ents s /\ a_ext s1 = a_ext s /\ a_uuid s1 = a_uuid s /\ a_type s1 = a_type s /\ a_ref s1 = a_ref s /\ dget k (a_objs s1) = Some o1 /\ o_uuid o1 = o_uuid o /\ o_type o1 = o_type o /\ o_origin o1 <> None /\ link o1 = home_link s o /\ o_props o1 = o_props o /\
  (forall l j c, stored s l j c -> stored s1 l j c) /\ (o_ent o = true -> o_origin o = None \/ o_origin o = Some (a_ref s) -> k = i) /\ (forall j c, j <> i -> dget j (a_objs s) = Some c -> dget j (a_objs s1) = Some c).
Proof.
  intros C D E. unfold localize in E. destruct (o_origin o) as [r|] eqn:R.
  - destruct (o_ent o && negb (eqb r (a_ref s))) eqn:B.
    + injection E as <- <- <-. cbn.
      assert (FR : forall j c, dget j (a_objs s) = Some c -> eqb j (a_next s) = false) by (intros j c H; assert (X := c_next _ C _ _ H); destruct (eqb_spec j (a_next s)); [lia|reflexivity]).
      assert (K : forall l j c, stored s l j c -> dget j (dset (a_next s) (Ob (o_uuid o) (Some r) (Some (ext_ref o)) (o_type o) false true (o_bg o) (o_parent o) (o_props o)) (a_objs s)) = Some c).
      { intros l j c [_ H]. rewrite dget_dset, (FR j c H). exact H. }
      split; [|repeat split; try reflexivity; try discriminate].
      * eapply coh_objs; [exact C|reflexivity..| |]; cbn.
        -- intros l j c H. exists c. split; [exact (K l j c H)|repeat split].
        -- intros j c. rewrite dget_dset. destruct (eqb_spec j (a_next s)) as [->|]; [lia|]. intros H. assert (X := c_next _ C _ _ H). lia.
      * rewrite dget_dset, eqb_refl. reflexivity.
      * unfold link, home_link, home. cbn. rewrite R. reflexivity.
      * exact (proj1 H).
      * cbn. exact (K l j c H).
      * intros H [H1|H1]; [discriminate|]. injection H1 as ->. rewrite H, eqb_refl in B. discriminate.
      * intros j c N H. rewrite dget_dset, (FR j c H). exact H.
    + injection E as <- <- <-. split; [exact C|]. repeat split; try reflexivity; try assumption; try congruence.
      * unfold link, home_link, home. rewrite R. reflexivity. * exact (proj1 H). * exact (proj2 H).
  - injection E as <- <- <-. cbn.
    assert (NS : forall l c, ~ stored s l i c). { intros l c [H O]. destruct (c_ents _ C l i H) as (o' & O' & X & _). congruence. }
    assert (K : forall l j c, stored s l j c -> dget j (dset i (Ob (o_uuid o) (Some (a_ref s)) (o_ext o) (o_type o) (o_ent o) (o_valid o) (o_bg o) (o_parent o) (o_props o)) (a_objs s)) = Some c).
    { intros l j c H. rewrite dget_dset. destruct (eqb_spec j i) as [->|]; [destruct (NS l c H)|exact (proj2 H)]. }
    split; [|repeat split; try reflexivity; try discriminate].
    * eapply coh_objs; [exact C|reflexivity..| |]; cbn.
      -- intros l j c H. exists c. split; [exact (K l j c H)|repeat split].
      -- intros j c. rewrite dget_dset. destruct (eqb_spec j i) as [->|]; [intros _; exact (c_next _ C _ _ D)|intros H; exact (c_next _ C _ _ H)].
    * rewrite dget_dset, eqb_refl. reflexivity.
    * unfold link, home_link, home. cbn. rewrite R. reflexivity.
    * exact (proj1 H).
    * cbn. exact (K l j c H).
    * intros j c N H. rewrite dget_dset. destruct (eqb_spec j i) as [->|]; [contradiction|exact H].
Qed.
Lemma merge_ok s cur o s2 : coh s -> merge s cur o = (s2, None) -> exists c, dget cur (a_objs s) = Some c /\ o_type c = o_type o /\ ext_ref c = ext_ref o /\ coh s2 /\ a_ents s2 = a_ents s /\ a_ext s2 = a_ext s /\ a_uuid s2 = a_uuid s /\ a_type s2 = a_type s /\
  (forall j, dget j (a_objs s2) = if eqb j cur then Some (Ob (o_uuid c) (o_origin c) (o_ext c) (o_type c) (o_ent c) (o_valid c) (o_bg c) (o_parent c) (merged_props c o)) else dget j (a_objs s)).
Proof.
  intros C E. unfold merge in E. destruct (dget cur (a_objs s)) as [c|] eqn:D; [|discriminate]. destruct (eqb_spec (o_type c) (o_type o)) as [T|]; [|discriminate]. destruct (eqb_spec (ext_ref c) (ext_ref o)) as [X|]; [|discriminate]. cbn in E. injection E as <-.
  exists c. split; [reflexivity|]. split; [exact T|]. split; [exact X|]. cbn. split; [|repeat split; try reflexivity; intros j; rewrite dget_dset; reflexivity].
  eapply coh_objs; [exact C|reflexivity..| |]; cbn.
  - intros l j o' [_ H]. rewrite dget_dset. destruct (eqb_spec j cur) as [->|]; [|exists o'; split; [exact H|repeat split]]. rewrite D in H. injection H as <-. eexists. split; [reflexivity|repeat split].
  - intros j o'. rewrite dget_dset. destruct (eqb_spec j cur) as [->|]; [intros _; exact (c_next _ C _ _ D)|apply (c_next _ C)].
Qed.
Lemma merge_err s cur o s2 e : merge s cur o = (s2, Some e) -> s2 = s.
Proof. unfold merge. destruct (dget cur (a_objs s)) as [c|]; [|intros [= <-]; reflexivity]. destruct (negb _); [intros [= <-]; reflexivity|]. destruct (negb _); [intros [= <-]; reflexivity|discriminate]. Qed.
(** the entity is fit: its uuid is recognized and no fragment's name, and an entity stored under its link has the same uuid *)
Definition ok_add (s : far) (i : nat) : Prop := forall o, dget i (a_objs s) = Some o -> has_slash (o_uuid o) = false /\ to_uuid (o_uuid o) = Some (o_uuid o) /\ dget (o_uuid o) (a_ext s) = None /\ (forall j c, stored s (home_link s o) j c -> o_uuid c = o_uuid o).
Lemma add_coh s i : coh s -> ok_add s i -> coh (fst (add to_uuid pick s i)) /\ (forall l j, dget l (a_ents s) = Some j -> dget l (a_ents (fst (add to_uuid pick s i))) = Some j) /\
  (snd (add to_uuid pick s i) = None -> exists o j, dget i (a_objs s) = Some o /\ dget (home_link s o) (a_ents (fst (add to_uuid pick s i))) = Some j).
Proof.
  intros C OK. unfold add. destruct (dget i (a_objs s)) as [o0|] eqn:D; [|cbn; split; [exact C|]; split; [auto|discriminate]]. destruct (mem (o_type o0) types) eqn:MT; [|cbn; split; [exact C|]; split; [auto|discriminate]]. cbn [negb]. apply mem_In in MT.
  destruct (localize s i o0) as [[s1 k] o] eqn:LZ. destruct (localize_spec s i o0 s1 k o C D LZ) as (C1 & E1 & E2 & E3 & E4 & E5 & DK & EU & ET & RO & EL & EP & ST & _ & _). destruct (OK o0 D) as (NS & TU & NX & SU). rewrite EL.
  destruct (din (home_link s o0) (a_ents s1)) eqn:DL.
  - rewrite din_get in DL. destruct (dget (home_link s o0) (a_ents s1)) as [j|] eqn:DJ; [|discriminate]. destruct (c_ents _ C1 _ _ DJ) as (c & DC & _). 
    assert (UC : o_uuid c = o_uuid o0). { destruct (c_ents _ C _ _ (eq_trans (eq_sym (f_equal (dget _) E1)) DJ)) as (c0 & DC0 & _). assert (H : stored s (home_link s o0) j c0) by (split; [rewrite <- E1; exact DJ|exact DC0]). rewrite <- (SU j c0 H). destruct (ST _ _ _ H) as [_ DC1]. congruence. }
    destruct (get to_uuid pick s1 (o_uuid o)) as [cur|]; [|cbn; split; [exact C1|]; split; [intros l j0 H; rewrite E1; exact H|discriminate]].
    destruct (merge s1 cur o) as [s2 [e|]] eqn:M.
    + rewrite (merge_err _ _ _ _ _ M). cbn. split; [exact C1|]. split; [intros l j0 H; rewrite E1; exact H|discriminate].
    + destruct (merge_ok s1 cur o s2 C1 M) as (cc & _ & _ & _ & C2 & F1 & F2 & F3 & F4 & _). cbn [fst snd with_uuid a_ents]. split; [|split; [intros l j0 H; rewrite F1, E1; exact H|intros _; exists o0, j; rewrite F1; auto]].
      assert (IN : In (home_link s o0) (sget (o_uuid o) (a_uuid s2))).
      { apply (c_uuid _ C2). destruct (c_ents _ C2 (home_link s o0) j) as (c2 & DC2 & _); [rewrite F1; exact DJ|]. exists j, c2. split; [split; [rewrite F1; exact DJ|exact DC2]|]. rewrite EU, <- UC.
        assert (J : In (home_link s o0) (sget (o_uuid c) (a_uuid s1))) by (apply (c_uuid _ C1); exists j, c; split; [split; assumption|reflexivity]). rewrite <- F3 in J. apply (c_uuid _ C2) in J as (j' & c' & [A1 A2] & A3). rewrite F1, DJ in A1. injection A1 as <-. congruence. }
      assert (SA : sadd (home_link s o0) (sget (o_uuid o) (a_uuid s2)) = sget (o_uuid o) (a_uuid s2)) by (unfold sadd; apply mem_In in IN; rewrite IN; reflexivity). rewrite SA.
      assert (SG : forall u, sget u (dset (o_uuid o) (sget (o_uuid o) (a_uuid s2)) (a_uuid s2)) = sget u (a_uuid s2)) by (intros u; rewrite sget_dset; destruct (eqb_spec u (o_uuid o)) as [->|]; reflexivity).
      destruct C2 as [B1 B2 B3 B4 B5 B6 B7 B8]. split; cbn; try assumption.
      * intros u l. rewrite SG. apply B2.
      * intros u l. rewrite dget_dset. destruct (eqb_spec u (o_uuid o)) as [->|]; [intros [= <-] Z; rewrite Z in IN; destruct IN|apply B3].
      * intros u. rewrite SG. apply B4.
  - rewrite din_get in DL. destruct (dget (home_link s o0) (a_ents s1)) as [j|] eqn:DJ; [discriminate|]. destruct (o_valid o); [|cbn; split; [exact C1|]; split; [intros l j0 H; rewrite E1; exact H|discriminate]].
    cbn [fst snd with_uuid with_type with_ents a_ents a_uuid a_type a_objs a_next a_ext]. rewrite <- EL in *.
    assert (OLD : forall l j0, dget l (a_ents s1) = Some j0 -> eqb l (link o) = false) by (intros l j0 H; destruct (eqb_spec l (link o)) as [->|]; [congruence|reflexivity]).
    split; [|split; [intros l j0 H; rewrite <- E1 in H; rewrite dget_dset, (OLD l j0 H); exact H|intros _; exists o0, k; rewrite dget_dset, <- EL, eqb_refl; auto]].
    assert (STD : forall l j0 c, stored s1 l j0 c \/ (l = link o /\ j0 = k /\ c = o) <-> dget l (dset (link o) k (a_ents s1)) = Some j0 /\ dget j0 (a_objs s1) = Some c).
    { intros l j0 c. rewrite dget_dset. unfold stored. destruct (eqb_spec l (link o)) as [->|NE].
      - split; [intros [[A B]|(_ & -> & ->)]; [congruence|auto]|intros [[= <-] B]; right; repeat split; congruence].
      - split; [intros [H|(A & _)]; [exact H|contradiction]|intros H; left; exact H]. }
    split; cbn.
    + intros l j0. rewrite dget_dset. destruct (eqb_spec l (link o)) as [->|NE]; [intros [= <-]; exists o; rewrite EU, ET, E2; auto 10|apply (c_ents _ C1)].
    + intros u l. rewrite sget_dset. split.
      * intros I. assert (J : In l (sget u (a_uuid s1)) \/ (l = link o /\ u = o_uuid o)). { destruct (eqb_spec u (o_uuid o)) as [->|]; [apply in_sadd in I as [I|I]; auto|auto]. }
        destruct J as [J|[-> ->]]; [apply (c_uuid _ C1) in J as (j0 & c & H & U); exists j0, c; split; [apply (proj1 (STD l j0 c)); left; exact H|exact U]|exists k, o; split; [apply (proj1 (STD _ _ _)); right; auto|reflexivity]].
      * intros (j0 & c & H & U). apply STD in H as [H|(-> & -> & ->)].
        -- assert (I : In l (sget u (a_uuid s1))) by (apply (c_uuid _ C1); eauto). destruct (eqb_spec u (o_uuid o)) as [->|]; [apply in_sadd; auto|exact I].
        -- rewrite U, eqb_refl. apply in_sadd. auto.
    + intros u l. rewrite dget_dset. destruct (eqb_spec u (o_uuid o)) as [->|]; [intros [= <-] Z|apply (c_une _ C1)]. assert (I : In (link o) (sadd (link o) (sget (o_uuid o) (a_uuid s1)))) by (apply in_sadd; auto). rewrite Z in I. destruct I.
    + intros u. rewrite sget_dset. destruct (eqb u (o_uuid o)); [apply nd_sadd, (c_und _ C1)|apply (c_und _ C1)].
    + intros t l. rewrite sget_dset. split.
      * intros I. assert (J : In l (sget t (a_type s1)) \/ (l = link o /\ t = o_type o)). { destruct (eqb_spec t (o_type o)) as [->|]; [apply in_sadd in I as [I|I]; auto|auto]. }
        destruct J as [J|[-> ->]]; [apply (c_type _ C1) in J as (j0 & c & H & U); exists j0, c; split; [apply (proj1 (STD l j0 c)); left; exact H|exact U]|exists k, o; split; [apply (proj1 (STD _ _ _)); right; auto|reflexivity]].
      * intros (j0 & c & H & U). apply STD in H as [H|(-> & -> & ->)].
        -- assert (I : In l (sget t (a_type s1))) by (apply (c_type _ C1); eauto). destruct (eqb_spec t (o_type o)) as [->|]; [apply in_sadd; auto|exact I].
        -- rewrite U, eqb_refl. apply in_sadd. auto.
    + intros t. rewrite sget_dset. destruct (eqb t (o_type o)); [apply nd_sadd, (c_tnd _ C1)|apply (c_tnd _ C1)].
    + intros n l H. destruct (c_ext _ C1 n l H) as [X (j0 & c & H1 & X2)]. split; [exact X|]. exists j0, c. split; [apply (proj1 (STD l j0 c)); left; exact H1|exact X2].
    + exact (c_next _ C1).
Qed.

(** * Naming *)
Definition new_link (o : obj) (n : string) : string := ((match o_origin o with Some r => r | None => "None" end) ++ "/" ++ n)%string.
(** the name has no slash and nothing is stored under the link it gives *)
Definition ok_name (s : far) (i : nat) (n : string) : Prop := has_slash n = false /\ forall o, dget i (a_objs s) = Some o -> o_type o = "fragment" /\ dget (new_link o n) (a_ents s) = None.
Lemma name_coh s i n : coh s -> ok_name s i n ->
  match name_fragment to_uuid pick s i n with
  | (s', Some e) => s' = s
  | (s', None) => coh s' /\ exists o o', stored s (link o) i o /\ o_ext o = None /\ key_to_id to_uuid pick s n = None /\ stored s' (new_link o n) i o' /\ same_id (Ob (o_uuid o) (o_origin o) (Some n) (o_type o) (o_ent o) (o_valid o) (o_bg o) (o_parent o) (o_props o)) o' /\
      dget n (a_ext s') = Some (new_link o n) /\ (forall m l, dget m (a_ext s) = Some l -> dget m (a_ext s') = Some l) /\ (forall j, j <> i -> dget j (a_objs s') = dget j (a_objs s)) /\
      (forall l, l <> link o -> l <> new_link o n -> dget l (a_ents s') = dget l (a_ents s)) /\ dget (link o) (a_ents s') = None
  end.
Proof.
  intros C [NS OK]. unfold name_fragment. destruct (dget i (a_objs s)) as [o|] eqn:D; [|reflexivity]. destruct (OK o eq_refl) as [TF NL]. destruct (eqb_spec (get to_uuid pick s (link o)) (Some i)) as [G|]; [|reflexivity]. cbn [negb].
  destruct (key_to_id to_uuid pick s n) as [|] eqn:KN; [reflexivity|]. destruct (o_ext o) as [|] eqn:XO; [reflexivity|].
  assert (SI : exists o', dget i (a_objs s) = Some o' /\ dget (link o') (a_ents s) = Some i).
  { unfold get in G. destruct (key_to_id to_uuid pick s (link o)) as [l|]; [|discriminate]. destruct (c_ents _ C l i G) as (o' & D' & _ & L & _). exists o'. rewrite L. auto. }
  destruct SI as (o' & D' & DL). rewrite D in D'. injection D' as <-. destruct (c_ents _ C _ _ DL) as (o' & D' & RO & _ & TT & NU & NE & TU). rewrite D in D'. injection D' as <-.
  assert (NK : din n (a_ents s) = false /\ dget n (a_ext s) = None).
  { unfold key_to_id in KN. destruct (din n (a_ents s)); [discriminate|]. destruct (dget n (a_ext s)); [discriminate|]. auto. }
  destruct NK as [NK1 NK2].
  assert (NUU : forall l j c, stored s l j c -> n <> o_uuid c).
  { intros l j c H E. destruct (c_ents _ C l j (proj1 H)) as (c' & DC & _ & _ & _ & NS' & NE' & TU'). rewrite (proj2 H) in DC. injection DC as <-. unfold key_to_id in KN. rewrite NK1, NK2, E, TU' in KN.
    assert (I : In l (sget (o_uuid c) (a_uuid s))) by (apply (c_uuid _ C); eauto). unfold sget in I. destruct (dget (o_uuid c) (a_uuid s)) as [ls|] eqn:Q; [|destruct I]. destruct (PK ls (c_une _ C _ _ Q)) as (x & X & _). congruence. }
  destruct (eqb_spec n (o_uuid o)) as [E|NEU]; [destruct (NUU (link o) i o (conj DL D) E)|].
  set (o1 := Ob (o_uuid o) (o_origin o) (Some n) (o_type o) (o_ent o) (o_valid o) (o_bg o) (o_parent o) (o_props o)).
  assert (L1 : link o1 = new_link o n) by reflexivity. cbn zeta. cbn [with_ext with_objs with_ents with_uuid with_type a_objs a_next a_ref a_ents a_ext a_uuid a_type]. rewrite DL. cbn [o_uuid o1]. rewrite L1.
  assert (MU : In (link o) (sget (o_uuid o) (a_uuid s))) by (apply (c_uuid _ C); exists i, o; split; [split; assumption|reflexivity]). apply mem_In in MU. rewrite MU. cbn [negb with_uuid a_type].
  assert (MT : In (link o) (sget "fragment" (a_type s))) by (apply (c_type _ C); exists i, o; split; [split; assumption|exact TF]). apply mem_In in MT. rewrite MT. cbn [negb].
  cbn [with_type a_objs a_next a_ref a_ents a_ext a_uuid].
  assert (LN : link o <> new_link o n) by (intros E; rewrite E in DL; congruence).
  set (ents' := dset (new_link o n) i (ddel (link o) (a_ents s))). set (objs' := dset i o1 (a_objs s)).
  assert (DE : forall l, dget l ents' = if eqb l (new_link o n) then Some i else if eqb l (link o) then None else dget l (a_ents s)) by (intros l; unfold ents'; rewrite dget_dset, dget_ddel; reflexivity).
  assert (DO : forall j, dget j objs' = if eqb j i then Some o1 else dget j (a_objs s)) by (intros j; unfold objs'; rewrite dget_dset; reflexivity).
  (* what is stored after *)
  assert (STD : forall l j c, (dget l ents' = Some j /\ dget j objs' = Some c) <-> (l = new_link o n /\ j = i /\ c = o1) \/ (stored s l j c /\ j <> i)).
  { intros l j c. rewrite DE, DO. destruct (eqb_spec l (new_link o n)) as [->|N1].
    - split; [intros [[= <-] H]; rewrite eqb_refl in H; injection H as <-; auto|intros [(_ & -> & ->)|[[A _] _]]; [rewrite eqb_refl; auto|congruence]].
    - destruct (eqb_spec l (link o)) as [->|N2]; [split; [intros [X _]; discriminate|intros [(A & _)|[[A _] B]]; [contradiction|congruence]]|].
      split; [intros [A B]; right; assert (j <> i) by (intros ->; apply N2; exact (coh_one s _ _ i C A DL)); destruct (eqb_spec j i); [contradiction|]; split; [split; assumption|assumption]|].
      intros [(A & _)|[[A B] NJ]]; [contradiction|]. destruct (eqb_spec j i); [contradiction|]. auto. }
  assert (OST : forall l j c, stored s l j c -> j = i -> l = link o /\ c = o) by (intros l j c [A B] ->; split; [exact (coh_one s _ _ i C A DL)|congruence]).
  split.
  - split; cbn.
    + intros l j H. assert (exists c, dget j objs' = Some c) as [c DC].
      { rewrite DO. destruct (eqb_spec j i); [eauto|]. rewrite DE in H. destruct (eqb_spec l (new_link o n)) as [->|]; [congruence|]. destruct (eqb_spec l (link o)); [discriminate|]. destruct (c_ents _ C l j H) as (c & DC & _). eauto. }
      exists c. split; [exact DC|]. destruct (proj1 (STD l j c) (conj H DC)) as [(-> & -> & ->)|[H1 NJ]].
      * split; [exact RO|]. split; [exact L1|]. split; [exact TT|]. split; [exact NU|]. split; [|exact TU]. cbn. rewrite dget_dset. destruct (eqb_spec (o_uuid o) n); [congruence|exact NE].
      * destruct (c_ents _ C l j (proj1 H1)) as (c' & DC' & A1 & A2 & A3 & A4 & A5 & A6). rewrite (proj2 H1) in DC'. injection DC' as <-. split; [exact A1|]. split; [exact A2|]. split; [exact A3|]. split; [exact A4|]. split; [|exact A6].
        rewrite dget_dset. destruct (eqb_spec (o_uuid c) n) as [E|]; [destruct (NUU l j c H1 (eq_sym E))|exact A5].
    + intros u l. rewrite sget_dset. split.
      * intros I. assert (J : (l = new_link o n /\ u = o_uuid o) \/ (In l (sget u (a_uuid s)) /\ l <> link o)).
        { destruct (eqb_spec u (o_uuid o)) as [->|NU2]; [apply in_sadd in I as [I|I]; [apply in_srem in I; auto|auto]|]. right. split; [exact I|]. intros ->. apply (c_uuid _ C) in I as (j & c & [A B] & U). rewrite DL in A. injection A as <-. congruence. }
        destruct J as [[-> ->]|[J NL2]]; [exists i, o1; split; [apply STD; auto|reflexivity]|]. apply (c_uuid _ C) in J as (j & c & H & U). exists j, c. split; [apply STD; right; split; [exact H|]|exact U]. intros ->. destruct (OST _ _ _ H eq_refl). contradiction.
      * intros (j & c & H & U). apply STD in H as [(-> & -> & ->)|[H NJ]].
        -- cbn in U. subst u. rewrite eqb_refl. apply in_sadd. auto.
        -- assert (I : In l (sget u (a_uuid s))) by (apply (c_uuid _ C); eauto). destruct (eqb_spec u (o_uuid o)) as [->|]; [|exact I]. apply in_sadd. left. apply in_srem. split; [exact I|]. intros ->. destruct H as [A _]. congruence.
    + intros u l. rewrite dget_dset. destruct (eqb_spec u (o_uuid o)) as [->|]; [intros [= <-] Z|apply (c_une _ C)].
      assert (I : In (new_link o n) (sadd (new_link o n) (srem (link o) (sget (o_uuid o) (a_uuid s))))) by (apply in_sadd; auto). rewrite Z in I. destruct I.
    + intros u. rewrite sget_dset. destruct (eqb u (o_uuid o)); [apply nd_sadd, nd_srem, (c_und _ C)|apply (c_und _ C)].
    + intros t l. rewrite sget_dset. split.
      * intros I. assert (J : (l = new_link o n /\ t = "fragment") \/ (In l (sget t (a_type s)) /\ l <> link o)).
        { destruct (eqb_spec t "fragment") as [->|NU2]; [apply in_sadd in I as [I|I]; [apply in_srem in I; auto|auto]|]. right. split; [exact I|]. intros ->. apply (c_type _ C) in I as (j & c & [A B] & U). rewrite DL in A. injection A as <-. congruence. }
        destruct J as [[-> ->]|[J NL2]]; [exists i, o1; split; [apply STD; auto|exact TF]|]. apply (c_type _ C) in J as (j & c & H & U). exists j, c. split; [apply STD; right; split; [exact H|]|exact U]. intros ->. destruct (OST _ _ _ H eq_refl). contradiction.
      * intros (j & c & H & U). apply STD in H as [(-> & -> & ->)|[H NJ]].
        -- cbn in U. rewrite TF in U. subst t. rewrite eqb_refl. apply in_sadd. auto.
        -- assert (I : In l (sget t (a_type s))) by (apply (c_type _ C); eauto). destruct (eqb_spec t "fragment") as [->|]; [|exact I]. apply in_sadd. left. apply in_srem. split; [exact I|]. intros ->. destruct H as [A _]. congruence.
    + intros t. rewrite sget_dset. destruct (eqb t "fragment"); [apply nd_sadd, nd_srem, (c_tnd _ C)|apply (c_tnd _ C)].
    + intros m l. rewrite dget_dset. destruct (eqb_spec m n) as [->|NM].
      * intros [= <-]. split; [exact NS|]. exists i, o1. split; [apply STD; auto|reflexivity].
      * intros H. destruct (c_ext _ C m l H) as [X (j & c & H1 & X2)]. split; [exact X|]. exists j, c. split; [|exact X2]. apply STD. right. split; [exact H1|]. intros ->. destruct (OST _ _ _ H1 eq_refl) as [_ ->]. congruence.
    + intros j c. rewrite DO. destruct (eqb_spec j i) as [->|]; [intros _; exact (c_next _ C _ _ D)|apply (c_next _ C)].
  - exists o, o1. split; [split; assumption|]. split; [exact XO|]. split; [reflexivity|]. split; [apply STD; auto|]. split; [repeat split|]. cbn. split; [rewrite dget_dset, eqb_refl; reflexivity|]. split; [|split; [|split]].
    + intros m l H. rewrite dget_dset. destruct (eqb_spec m n) as [->|]; [congruence|exact H].
    + intros j NJ. change (dget j objs' = dget j (a_objs s)). rewrite DO. destruct (eqb_spec j i); [contradiction|reflexivity].
    + intros l N1 N2. change (dget l ents' = dget l (a_ents s)). rewrite DE. destruct (eqb_spec l (new_link o n)); [contradiction|]. destruct (eqb_spec l (link o)); [contradiction|reflexivity].
    + change (dget (link o) ents' = None). rewrite DE. destruct (eqb_spec (link o) (new_link o n)); [contradiction|]. rewrite eqb_refl. reflexivity.
Qed.

(** * Histories *)
Definition ok_op (s : far) (op : aop) : Prop := match op with Add i => ok_add s i | Name i n => ok_name s i n end.
Fixpoint ok_run (s : far) (ops : list aop) : Prop := match ops with [] => True | op :: t => ok_op s op /\ ok_run (fst (astep to_uuid pick s op)) t end.
Lemma step_coh s op : coh s -> ok_op s op -> coh (fst (astep to_uuid pick s op)) /\ (forall l j, dget l (a_ents s) = Some j -> exists l', dget l' (a_ents (fst (astep to_uuid pick s op))) = Some j) /\
  (forall n l j, dget n (a_ext s) = Some l -> dget l (a_ents s) = Some j -> exists l', dget n (a_ext (fst (astep to_uuid pick s op))) = Some l' /\ dget l' (a_ents (fst (astep to_uuid pick s op))) = Some j).
Proof.
  intros C OK. destruct op as [i|i n]; cbn in *.
  - destruct (add_coh s i C OK) as (C1 & K & _). split; [exact C1|]. split; [intros l j H; exists l; apply K, H|]. intros n l j H H2. exists l. split; [|apply K, H2].
    clear C1 K. unfold add. destruct (dget i (a_objs s)) as [o0|] eqn:D; [|exact H]. destruct (mem (o_type o0) types); [|exact H]. cbn [negb]. destruct (localize s i o0) as [[s1 k] o] eqn:LZ. destruct (localize_spec s i o0 s1 k o C D LZ) as (C1 & _ & E2 & _). rewrite <- E2 in H.
    destruct (din (link o) (a_ents s1)); [|destruct (o_valid o); exact H]. destruct (get to_uuid pick s1 (o_uuid o)) as [cur|]; [|exact H]. destruct (merge s1 cur o) as [s2 [e|]] eqn:M; [rewrite (merge_err _ _ _ _ _ M); exact H|].
    destruct (merge_ok s1 cur o s2 C1 M) as (_ & _ & _ & _ & _ & _ & F2 & _). cbn. rewrite F2. exact H.
  - assert (N := name_coh s i n C OK). destruct (name_fragment to_uuid pick s i n) as [s' [e|]]; cbn.
    + subst s'. split; [exact C|]. split; eauto.
    + destruct N as (C1 & o & o' & [DL D] & XO & _ & [DL' _] & _ & _ & KX & _ & KL & _). split; [exact C1|].
      assert (KE : forall l j, dget l (a_ents s) = Some j -> l = link o \/ dget l (a_ents s') = Some j).
      { intros l j H. destruct (eqb_spec l (link o)) as [->|N1]; [auto|]. right. rewrite KL; [exact H|exact N1|]. intros ->. destruct OK as [_ OK]. destruct (OK o D) as [_ NL]. congruence. }
      split.
      * intros l j H. destruct (KE l j H) as [->|H2]; [exists (new_link o n); congruence|eauto].
      * intros m l j H H2. destruct (KE l j H2) as [->|H3]; [|exists l; split; [apply KX, H|exact H3]]. exfalso. destruct (c_ext _ C m _ H) as [_ (j' & c & [A B] & X)]. congruence.
Qed.
Lemma run_coh ops : forall s, coh s -> ok_run s ops -> coh (arun to_uuid pick s ops) /\ (forall l j, dget l (a_ents s) = Some j -> exists l', dget l' (a_ents (arun to_uuid pick s ops)) = Some j) /\
  (forall n l j, dget n (a_ext s) = Some l -> dget l (a_ents s) = Some j -> exists l', dget n (a_ext (arun to_uuid pick s ops)) = Some l' /\ dget l' (a_ents (arun to_uuid pick s ops)) = Some j).
Proof.
  induction ops as [|op t IH]; intros s C OK; cbn; [split; [exact C|]; split; eauto|]. destruct OK as [O1 O2]. destruct (step_coh s op C O1) as (C1 & K1 & N1). destruct (IH _ C1 O2) as (C2 & K2 & N2). split; [exact C2|]. split.
  - intros l j H. destruct (K1 l j H) as [l' H']. exact (K2 l' j H').
  - intros n l j H H2. destruct (N1 n l j H H2) as (l' & A & B). exact (N2 n l' j A B).
Qed.
Definition start (objs : dict nat obj) (next : nat) (ref : string) : far := Far objs next ref [] [] [] [].
Lemma start_coh objs next ref : (forall i o, dget i objs = Some o -> i < next) -> coh (start objs next ref).
Proof.
  intros N. split; cbn; try discriminate.
  - intros u l. split; [intros []|intros (i & o & [H _] & _); discriminate].
  - intros u. constructor.
  - intros t l. split; [intros []|intros (i & o & [H _] & _); discriminate].
  - intros t. constructor.
  - exact N.
Qed.
End Far.

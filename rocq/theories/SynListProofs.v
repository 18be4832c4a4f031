(** Lemmas about the SynList model. *)
From Verif Require Import Base PyStr SynListModel.
Arguments sanitize : simpl never. Arguments dget : simpl nomatch. Arguments Nat.ltb : simpl never.

Lemma sanitize_eq s s' k : s_ic s = s_ic s' -> sanitize s k = sanitize s' k.
Proof. intros E. unfold sanitize. rewrite E. reflexivity. Qed.
Lemma sanitize_idem s k : sanitize s (sanitize s k) = sanitize s k.
Proof.
  unfold sanitize. destruct (s_ic s).
  - rewrite <- lower_strip, lower_idem. rewrite strip_idem. reflexivity.
  - apply strip_idem.
Qed.

Definition live (s : synlist) (i : nat) (it : item) (ts : list string) : Prop :=
  nth_error (s_items s) i = Some it /\ i_syns it = Some ts.

Record Inv (s : synlist) : Prop := {
  inv_terms : forall i it ts t, live s i it ts -> In t ts -> dget (sanitize s t) (s_dict s) = Some i;
  inv_dict : forall k i, dget k (s_dict s) = Some i -> exists it ts t, live s i it ts /\ In t ts /\ sanitize s t = k;
  inv_name : forall i it n, nth_error (s_items s) i = Some it -> i_name it = Some n -> dget (sanitize s n) (s_dict s) = Some i;
  inv_nodup : forall i it ts, live s i it ts -> NoDup ts;
  inv_nonempty : forall i it ts, live s i it ts -> ~ In EmptyString ts;
  inv_keys : NoDup (dkeys (s_dict s))
}.

Lemma Inv_empty ic : Inv (empty ic).
Proof.
  split; cbn; try (intros; discriminate); try constructor.
  - intros i it ts t [E _]. destruct i; discriminate.
  - intros i it n E. destruct i; discriminate.
  - intros i it ts [E _]. destruct i; discriminate.
  - intros i it ts [E _]. destruct i; discriminate.
Qed.

(** [s'] is [s] with the (non-empty) strings [us] added to the live item [i]. *)
Record ext (s s' : synlist) (i : nat) (us : list string) : Prop := {
  ext_ic : s_ic s' = s_ic s;
  ext_len : length (s_items s') = length (s_items s);
  ext_other : forall j, j <> i -> nth_error (s_items s') j = nth_error (s_items s) j;
  ext_item : forall it ts, live s i it ts ->
     exists it' ts', live s' i it' ts' /\ (forall t, In t ts' <-> In t ts \/ In t us) /\ (NoDup ts -> NoDup ts') /\
        i_entity it' = i_entity it /\
        (forall n, i_name it = Some n -> i_name it' = Some n) /\
        (i_name it = None -> i_name it' = None \/ exists n, i_name it' = Some n /\ In n us) /\
        (i_name it = None -> (exists u, In u us /\ dget (sanitize s u) (s_dict s) = None) -> i_name it' <> None);
  ext_dict : forall k, dget k (s_dict s') = if mem k (map (sanitize s) us) then Some i else dget k (s_dict s);
  ext_keys : NoDup (dkeys (s_dict s)) -> NoDup (dkeys (s_dict s'))
}.

Lemma ext_refl s i : ext s s i [].
Proof.
  split; auto. intros it ts L. exists it, ts. cbn. repeat split; auto; try tauto; try apply L.
  intros _ [u [[] _]].
Qed.

Lemma map_sanitize_ic s s' us : s_ic s' = s_ic s -> map (sanitize s') us = map (sanitize s) us.
Proof. intros E. apply map_ext. intros; apply sanitize_eq; auto. Qed.

Lemma ext_trans s s1 s2 i us vs it0 ts0 :
  live s i it0 ts0 -> ext s s1 i us -> ext s1 s2 i vs -> ext s s2 i (us ++ vs).
Proof.
  intros L0 X Y. split.
  - rewrite (ext_ic _ _ _ _ Y); apply X.
  - rewrite (ext_len _ _ _ _ Y); apply X.
  - intros j N. rewrite (ext_other _ _ _ _ Y) by exact N. apply X; exact N.
  - intros it ts L. destruct (ext_item _ _ _ _ X it ts L) as (it1 & ts1 & L1 & I1 & N1 & E1 & A1 & B1 & C1).
    destruct (ext_item _ _ _ _ Y it1 ts1 L1) as (it2 & ts2 & L2 & I2 & N2 & E2 & A2 & B2 & C2).
    exists it2, ts2. split; [exact L2|]. split; [|split; [auto|split; [congruence|split; [auto|split]]]].
    + intros t. rewrite I2, I1, in_app_iff. tauto.
    + intros Hn. destruct (B1 Hn) as [Hn1|[n [Hn1 In1]]].
      * destruct (B2 Hn1) as [|[n [? ?]]]; [auto|]. right; exists n; rewrite in_app_iff; auto.
      * right; exists n. rewrite in_app_iff. auto.
    + intros Hn [u [Iu Du]]. apply in_app_iff in Iu.
      destruct (i_name it1) as [n1|] eqn:Hn1.
      * rewrite (A2 n1 eq_refl). discriminate.
      * destruct Iu as [Iu|Iu].
        -- exfalso. apply (C1 Hn); [|reflexivity]. exists u; auto.
        -- apply C2; [reflexivity|]. exists u. split; [exact Iu|].
           rewrite (ext_dict _ _ _ _ X). rewrite (sanitize_eq s1 s u (ext_ic _ _ _ _ X)).
           destruct (mem_spec (sanitize s u) (map (sanitize s) us)) as [M|M]; [|exact Du].
           exfalso. apply in_map_iff in M as [v [Ev Iv]]. apply (C1 Hn); [|reflexivity].
           exists v. rewrite Ev. auto.
  - intros k. rewrite (ext_dict _ _ _ _ Y), (ext_dict _ _ _ _ X). rewrite map_app.
    rewrite (map_sanitize_ic s s1 vs) by apply X.
    destruct (mem_spec k (map (sanitize s) us)) as [M1|M1], (mem_spec k (map (sanitize s) vs)) as [M2|M2],
      (mem_spec k (map (sanitize s) us ++ map (sanitize s) vs)) as [M3|M3]; auto;
      rewrite in_app_iff in M3; tauto.
  - intros N. apply Y, X, N.
Qed.

Lemma ext_Inv s s' i us it ts :
  Inv s -> live s i it ts -> ext s s' i us ->
  (forall u, In u us -> dget (sanitize s u) (s_dict s) = None \/ dget (sanitize s u) (s_dict s) = Some i) ->
  ~ In EmptyString us ->
  Inv s'.
Proof.
  intros V L X G NEU. pose proof (ext_ic _ _ _ _ X) as IC.
  assert (DK : forall k j, dget k (s_dict s) = Some j -> dget k (s_dict s') = Some j).
  { intros k j D. rewrite (ext_dict _ _ _ _ X). destruct (mem_spec k (map (sanitize s) us)) as [M|M]; [|exact D].
    apply in_map_iff in M as [u [<- Iu]]. destruct (G u Iu) as [D2|D2]; congruence. }
  destruct (ext_item _ _ _ _ X it ts L) as (it' & ts' & L' & I' & N' & E' & A' & B' & C').
  assert (LV : forall j jt js, live s' j jt js -> (j = i /\ jt = it' /\ js = ts') \/ (j <> i /\ live s j jt js)).
  { intros j jt js [J1 J2]. destruct (Nat.eq_dec j i) as [->|Nj].
    - left. destruct L' as [L1 L2]. assert (jt = it') by congruence. subst. repeat split; congruence.
    - right. split; auto. split; auto. rewrite <- (ext_other _ _ _ _ X) by exact Nj. exact J1. }
  split.
  - intros j jt js t Lj It. rewrite (sanitize_eq s' s t IC). destruct (LV j jt js Lj) as [[-> [-> ->]]|[Nj Lj2]].
    + apply I' in It. destruct It as [It|It].
      * apply DK. apply (inv_terms s V i it ts t L It).
      * rewrite (ext_dict _ _ _ _ X). destruct (mem_spec (sanitize s t) (map (sanitize s) us)) as [M|M]; auto.
        exfalso; apply M. apply in_map; exact It.
    + apply DK. apply (inv_terms s V j jt js t Lj2 It).
  - intros k j D. rewrite (ext_dict _ _ _ _ X) in D. destruct (mem_spec k (map (sanitize s) us)) as [M|M].
    + injection D as <-. apply in_map_iff in M as [u [<- Iu]]. exists it', ts', u. repeat split; try apply L'.
      * apply I'; auto.
      * apply sanitize_eq; exact IC.
    + destruct (inv_dict s V k j D) as (jt & js & t & Lj & It & Et). destruct (Nat.eq_dec j i) as [->|Nj].
      * exists it', ts', t. repeat split; try apply L'.
        -- apply I'. left. destruct L, Lj. assert (jt = it) by congruence; subst. congruence.
        -- rewrite <- Et. apply sanitize_eq; exact IC.
      * exists jt, js, t. repeat split; auto; try apply Lj.
        -- rewrite (ext_other _ _ _ _ X) by exact Nj. apply Lj.
        -- rewrite <- Et. apply sanitize_eq; exact IC.
  - intros j jt n Nj Hn. rewrite (sanitize_eq s' s n IC). destruct (Nat.eq_dec j i) as [->|Ne].
    + assert (jt = it') by (destruct L'; congruence). subst jt.
      destruct (i_name it) as [m|] eqn:Hm.
      * rewrite (A' m eq_refl) in Hn. injection Hn as <-. apply DK. apply (inv_name s V i it m); auto. apply L.
      * destruct (B' eq_refl) as [|[m [Hm2 Im]]]; [congruence|]. assert (m = n) by congruence. subst m.
        rewrite (ext_dict _ _ _ _ X). destruct (mem_spec (sanitize s n) (map (sanitize s) us)) as [M|M]; auto.
        exfalso; apply M. apply in_map; exact Im.
    + apply DK. apply (inv_name s V j jt n); auto. rewrite <- (ext_other _ _ _ _ X) by exact Ne. exact Nj.
  - intros j jt js Lj. destruct (LV j jt js Lj) as [[-> [-> ->]]|[Nj Lj2]].
    + apply N'. apply (inv_nodup s V i it ts L).
    + apply (inv_nodup s V j jt js Lj2).
  - intros j jt js Lj. destruct (LV j jt js Lj) as [[-> [-> ->]]|[Nj Lj2]].
    + intros H. apply I' in H as [H|H]; [apply (inv_nonempty s V i it ts L H)|exact (NEU H)].
    + apply (inv_nonempty s V j jt js Lj2).
  - apply X, V.
Qed.

(** Adding a string to a live item, when its key is not owned by another item. *)
Lemma new_term_ext s i it ts k :
  live s i it ts -> k <> EmptyString ->
  dget (sanitize s k) (s_dict s) = None \/ dget (sanitize s k) (s_dict s) = Some i ->
  exists s', new_term s (TStr k) i = (s', Ok tt) /\ ext s s' i [k].
Proof.
  intros [L1 L2] NE G. unfold new_term. destruct k as [|c r]; [congruence|]. set (k := String c r) in *.
  rewrite L1, L2. cbn [s_dict set_items].
  destruct G as [D|D]; rewrite D.
  - (* new key *)
    eexists; split; [reflexivity|].
    split.
    + destruct (i_name it); reflexivity.
    + destruct (i_name it); cbn; rewrite !length_upd; reflexivity.
    + intros j N. destruct (i_name it); cbn; rewrite !nth_upd_other by congruence; reflexivity.
    + intros it0 ts0 [L01 L02]. assert (it0 = it) by congruence; subst it0. assert (ts0 = ts) by congruence; subst ts0.
      destruct (i_name it) as [n|] eqn:Hn.
      * exists (with_syns (Some (set_add k ts)) it), (set_add k ts). repeat split; cbn.
        -- apply nth_upd_same; exact L1.
        -- intros H. apply In_set_add in H. destruct H; [right; left; auto|auto].
        -- rewrite In_set_add. intros [H|[H|[]]]; auto.
        -- apply NoDup_set_add.
        -- intros n0 E; congruence.
        -- intros E; congruence.
        -- intros E; congruence.
      * exists (with_name (Some k) (with_syns (Some (set_add k ts)) it)), (set_add k ts). repeat split; cbn.
        -- apply nth_upd_same. apply nth_upd_same; exact L1.
        -- intros H. apply In_set_add in H. destruct H; [right; left; auto|auto].
        -- rewrite In_set_add. intros [H|[H|[]]]; auto.
        -- apply NoDup_set_add.
        -- intros n0 E; discriminate.
        -- intros _. right. exists k; auto.
        -- intros _ _. discriminate.
    + intros k0. cbn [map mem]. destruct (i_name it); cbn [s_dict set_items set_dict]; rewrite dget_dset;
        destruct (eqb k0 (sanitize s k)); reflexivity.
    + intros N. destruct (i_name it); cbn [s_dict set_items set_dict]; apply NoDup_dset; exact N.
  - (* key already at i *)
    rewrite Nat.eqb_refl. eexists; split; [reflexivity|]. split; cbn.
    + reflexivity.
    + apply length_upd.
    + intros j N. apply nth_upd_other; congruence.
    + intros it0 ts0 [L01 L02]. assert (it0 = it) by congruence; subst it0. assert (ts0 = ts) by congruence; subst ts0.
      exists (with_syns (Some (set_add k ts)) it), (set_add k ts). repeat split; cbn; auto.
      * apply nth_upd_same; exact L1.
      * intros H. apply In_set_add in H. destruct H; auto.
      * rewrite In_set_add. intros [H|[H|[]]]; auto.
      * apply NoDup_set_add.
      * intros _ [u [[E|[]] Du]]. subst u. congruence.
    + intros k0. change (set_items s (upd i (with_syns (Some (set_add k ts))) (s_items s))) with
        (set_items s (upd i (with_syns (Some (set_add k ts))) (s_items s))).
      destruct (String.eqb_spec k0 (sanitize s k)) as [->|]; auto.
    + auto.
Qed.

(** The non-empty strings among a list of terms. *)
Fixpoint strs (l : list term) : list string :=
  match l with
  | [] => []
  | TStr EmptyString :: r => strs r
  | TStr k :: r => k :: strs r
  | _ :: r => strs r
  end.
Lemma In_strs k l : In k (strs l) <-> In (TStr k) l /\ k <> EmptyString.
Proof.
  induction l as [|t l IH]; cbn; [tauto|]. destruct t as [|[|c r]|n]; cbn; rewrite ?IH.
  - intuition congruence.
  - split; [intuition|]. intros [[E|E] N]; [congruence|auto].
  - split.
    + intros [<-|[I N]]; [split; [auto|discriminate]|auto].
    + intros [[E|E] N]; [left; congruence|auto].
  - intuition congruence.
Qed.
Lemma strs_nonempty l : ~ In EmptyString (strs l).
Proof. intros I. apply In_strs in I as [_ N]. congruence. Qed.
Definition no_int (l : list term) : Prop := forall n, ~ In (TInt n) l.

Lemma merge_set_ext us : forall s i it ts,
  live s i it ts -> no_int us ->
  (forall u, In u (strs us) -> dget (sanitize s u) (s_dict s) = None \/ dget (sanitize s u) (s_dict s) = Some i) ->
  exists s', merge_set_with_index s us i = (s', Ok tt) /\ ext s s' i (strs us).
Proof.
  induction us as [|t us IH]; intros s i it ts L NI G.
  - exists s; split; [reflexivity|apply ext_refl].
  - assert (NI2 : no_int us) by (intros n I; apply (NI n); right; exact I).
    destruct t as [|[|c r]|n].
    + cbn. apply (IH s i it ts L NI2). exact G.
    + cbn. apply (IH s i it ts L NI2). exact G.
    + set (k := String c r) in *.
      destruct (new_term_ext s i it ts k L) as (s1 & E1 & X1); [discriminate| apply G; cbn; auto |].
      destruct (ext_item _ _ _ _ X1 it ts L) as (it1 & ts1 & L1 & _).
      destruct (IH s1 i it1 ts1 L1 NI2) as (s2 & E2 & X2).
      { intros u Iu. rewrite (sanitize_eq s1 s u (ext_ic _ _ _ _ X1)), (ext_dict _ _ _ _ X1).
        destruct (mem _ _); auto. apply G. cbn; auto. }
      exists s2. split.
      * cbn [merge_set_with_index]. rewrite E1. exact E2.
      * change (strs (TStr k :: us)) with ([k] ++ strs us). eapply ext_trans; eauto.
    + exfalso. apply (NI n). left; reflexivity.
Qed.

(** [new_item] *)
Lemma new_item_live s e : live (fst (new_item s e)) (snd (new_item s e)) (Item None e (Some [])) [].
Proof. cbn. split; [|reflexivity]. cbn. rewrite nth_error_snoc, Nat.eqb_refl. reflexivity. Qed.
Lemma new_item_Inv s e : Inv s -> Inv (fst (new_item s e)).
Proof.
  intros V. cbn. assert (NL : forall j, nth_error (s_items s ++ [Item None e (Some [])]) j =
     if Nat.eqb j (length (s_items s)) then Some (Item None e (Some [])) else nth_error (s_items s) j)
   by (intros; apply nth_error_snoc).
  split; unfold live; cbn.
  - intros i it ts t [L1 L2] I. rewrite NL in L1. destruct (Nat.eqb_spec i (length (s_items s))).
    + injection L1 as <-. cbn in L2. injection L2 as <-. destruct I.
    + apply (inv_terms s V i it ts t); [split; auto|exact I].
  - intros k i D. destruct (inv_dict s V k i D) as (it & ts & t & [L1 L2] & It & Et). exists it, ts, t.
    repeat split; auto. rewrite NL. destruct (Nat.eqb_spec i (length (s_items s))) as [->|]; [|exact L1].
    apply nth_error_lt in L1. lia.
  - intros i it n L1 Hn. rewrite NL in L1. destruct (Nat.eqb_spec i (length (s_items s))).
    + injection L1 as <-. discriminate.
    + apply (inv_name s V i it n); auto.
  - intros i it ts [L1 L2]. rewrite NL in L1. destruct (Nat.eqb_spec i (length (s_items s))).
    + injection L1 as <-. cbn in L2. injection L2 as <-. constructor.
    + apply (inv_nodup s V i it ts); split; auto.
  - intros i it ts [L1 L2]. rewrite NL in L1. destruct (Nat.eqb_spec i (length (s_items s))).
    + injection L1 as <-. cbn in L2. injection L2 as <-. intros [].
    + apply (inv_nonempty s V i it ts); split; auto.
  - apply V.
Qed.

(** find_indices *)
Definition matched (s : synlist) (it : list term) (i : nat) : Prop := exists t, In t it /\ get_index s t = Ok i.
Definition unknown (s : synlist) (it : list term) (t : term) : Prop := In t it /\ get_index s t = Err KeyError.

Lemma find_indices_spec s it : forall f u,
  match find_indices s it f u with
  | Ok (f', u') => (forall i, In i f' <-> In i f \/ matched s it i) /\ (forall t, In t u' <-> In t u \/ unknown s it t) /\
                   (NoDup f -> NoDup f') /\ (NoDup u -> NoDup u') /\
                   (forall t e, In t it -> get_index s t = Err e -> e = KeyError)
  | Err e => e = IndexError /\ exists n, In (TInt n) it /\ length (s_items s) <= n
  end.
Proof.
  induction it as [|t it IH]; intros f u; cbn.
  - split; [|split; [|split; [|split]]]; auto.
    + intros i. split; auto. intros [|[t [[] _]]]; auto.
    + intros t. split; auto. intros [|[[] _]]; auto.
    + intros t e [].
  - destruct (get_index s t) as [i|e] eqn:E.
    + specialize (IH (set_add i f) u). destruct (find_indices s it (set_add i f) u) as [[f' u']|e].
      * destruct IH as (A & B & C & D & F). split; [|split; [|split; [|split]]].
        -- intros j. rewrite A, In_set_add. split.
           ++ intros [[->|I]|[t' [I' E']]]; auto; right; [exists t|exists t']; cbn [In]; auto.
           ++ intros [I|[t' [[<-|I'] E']]]; auto; [left; left; congruence|right; exists t'; auto].
        -- intros t0. rewrite B. split.
           ++ intros [I|[I' E']]; auto. right; split; cbn [In]; auto.
           ++ intros [I|[[<-|I'] E']]; auto; [congruence|right; split; auto].
        -- intros N; apply C, NoDup_set_add, N.
        -- auto.
        -- intros t0 e0 [<-|I0] E0; [congruence|eauto].
      * destruct IH as [-> [n [I L]]]. split; auto. exists n; auto.
    + assert (EE : e = KeyError \/ (e = IndexError /\ exists n, t = TInt n /\ length (s_items s) <= n)).
      { destruct t as [|k|n]; cbn in E; [left; congruence| |].
        - destruct (dget (sanitize s k) (s_dict s)); [discriminate|left; congruence].
        - destruct (Nat.ltb_spec n (length (s_items s))); [discriminate|]. right. split; [congruence|eauto]. }
      destruct EE as [->|[-> [n [-> Ln]]]].
      * specialize (IH f (set_add t u)). destruct (find_indices s it f (set_add t u)) as [[f' u']|e].
        -- destruct IH as (A & B & C & D & F). split; [|split; [|split; [|split]]].
           ++ intros j. rewrite A. split.
              ** intros [I|[t' [I' E']]]; auto. right; exists t'; cbn [In]; auto.
              ** intros [I|[t' [[<-|I'] E']]]; auto; [congruence|right; exists t'; auto].
           ++ intros t0. rewrite B, In_set_add. split.
              ** intros [[->|I]|[I' E']]; auto; right; split; cbn [In]; auto.
              ** intros [I|[[<-|I'] E']]; auto. right; split; auto.
           ++ auto.
           ++ intros N; apply D, NoDup_set_add, N.
           ++ intros t0 e0 [<-|I0] E0; [congruence|eauto].
        -- destruct IH as [-> [n [I L]]]. split; auto. exists n; auto.
      * split; auto. exists n. auto.
Qed.

Lemma get_index_live s t i : Inv s -> get_index s t = Ok i ->
  (exists k, t = TStr k) -> exists it ts, live s i it ts.
Proof.
  intros V E [k ->]. cbn in E. destruct (dget (sanitize s k) (s_dict s)) as [j|] eqn:D; [|discriminate].
  injection E as <-. destruct (inv_dict s V _ _ D) as (it & ts & t & L & _). eauto.
Qed.

Lemma unmatched_all s l : (forall t, In t l -> get_index s t = Err KeyError) -> unmatched_of s l = Ok l.
Proof.
  induction l as [|t l IH]; intros G; cbn; [reflexivity|]. rewrite (G t) by (cbn; auto).
  rewrite IH by (intros; apply G; cbn; auto). reflexivity.
Qed.

Lemma keyerror_no_int s l : (forall t, In t l -> get_index s t = Err KeyError) -> no_int l.
Proof. intros G n I. specialize (G _ I). cbn in G. destruct (n <? length (s_items s)); discriminate. Qed.

(** Description of the state after [new_set] on unknown terms. *)
Lemma new_set_spec s l : Inv s -> (forall t, In t l -> get_index s t = Err KeyError) ->
  (l = [] /\ new_set s l = (s, Ok None)) \/
  (l <> [] /\ exists s', new_set s l = (s', Ok (Some (length (s_items s)))) /\
       ext (fst (new_item s None)) s' (length (s_items s)) (strs l) /\ Inv s').
Proof.
  intros V G. unfold new_set. rewrite (unmatched_all s l G). destruct l as [|t l]; [left; auto|right].
  split; [discriminate|]. cbn [new_item].
  pose proof (new_item_live s None) as L. cbn [fst snd new_item] in L.
  set (s1 := set_items s (s_items s ++ [Item None None (Some [])])) in *.
  assert (GG : forall u, In u (strs (t :: l)) -> dget (sanitize s1 u) (s_dict s1) = None).
  { intros u Iu. apply In_strs in Iu as [Iu _]. specialize (G _ Iu). cbn in G. cbn.
    rewrite (sanitize_eq s1 s u eq_refl). destruct (dget (sanitize s u) (s_dict s)); congruence. }
  destruct (merge_set_ext (t :: l) s1 (length (s_items s)) _ _ L) as (s' & E & X).
  - eapply keyerror_no_int; eauto.
  - intros u Iu. left. auto.
  - rewrite E. exists s'. split; [reflexivity|]. split; [exact X|].
    refine (ext_Inv s1 s' _ _ _ _ (new_item_Inv s None V) L X _ (strs_nonempty _)). intros u Iu; left; auto.
Qed.

(** * add_set: complete case description *)
Definition lawful {A} (ord : list A -> list A) : Prop := forall l, Permutation (ord l) l.

Inductive add_set_case (s : synlist) (it : list term) (mrg : bool) : synlist -> res (option nat) -> Prop :=
| AS_index : (exists n, In (TInt n) it /\ length (s_items s) <= n) -> add_set_case s it mrg s (Err IndexError)
| AS_incons i j : mrg = true -> i <> j -> matched s it i -> matched s it j -> add_set_case s it mrg s (Err InconsistentIndices)
| AS_dead i : mrg = true -> matched s it i -> (forall j, matched s it j -> j = i) -> synonym_set s i = Some None ->
    (exists u, unknown s it (TStr u) /\ u <> EmptyString) -> add_set_case s it mrg s (Err AttributeError)
| AS_dead_ok i : mrg = true -> matched s it i -> (forall j, matched s it j -> j = i) -> synonym_set s i = Some None ->
    (forall u, unknown s it (TStr u) -> u = EmptyString) -> add_set_case s it mrg s (Ok (Some i))
| AS_merge s' i us : mrg = true -> matched s it i -> (forall j, matched s it j -> j = i) ->
    (exists e ts, live s i e ts) ->
    ext s s' i us -> (forall u, In u us <-> unknown s it (TStr u) /\ u <> EmptyString) -> Inv s' ->
    add_set_case s it mrg s' (Ok (Some i))
| AS_none : (mrg = true -> forall j, ~ matched s it j) -> (forall t, ~ unknown s it t) -> add_set_case s it mrg s (Ok None)
| AS_new s' us : (mrg = true -> forall j, ~ matched s it j) -> (exists t, unknown s it t) ->
    ext (fst (new_item s None)) s' (length (s_items s)) us ->
    (forall u, In u us <-> unknown s it (TStr u) /\ u <> EmptyString) -> Inv s' ->
    add_set_case s it mrg s' (Ok (Some (length (s_items s)))).

Lemma merge_set_no_strs us i : forall s, no_int us -> strs us = [] -> merge_set_with_index s us i = (s, Ok tt).
Proof.
  induction us as [|t us IH]; intros s NI E; cbn; [reflexivity|].
  assert (NI2 : no_int us) by (intros n I; apply (NI n); right; exact I).
  destruct t as [|[|c r]|n]; cbn in *; try (apply IH; auto; fail); [discriminate|].
  exfalso. apply (NI n). left; reflexivity.
Qed.
Lemma merge_set_dead us i it : forall s, no_int us -> strs us <> [] -> nth_error (s_items s) i = Some it -> i_syns it = None ->
  merge_set_with_index s us i = (s, Err AttributeError).
Proof.
  induction us as [|t us IH]; intros s NI E L D; [cbn in E; congruence|].
  assert (NI2 : no_int us) by (intros n I; apply (NI n); right; exact I).
  destruct t as [|[|c r]|n]; cbn [strs] in E; cbn [merge_set_with_index].
  - cbn. apply IH; auto.
  - cbn. apply IH; auto.
  - cbn [new_term]. rewrite L, D. reflexivity.
  - exfalso. apply (NI n). left; reflexivity.
Qed.

Lemma add_set_spec ord s it mrg : Inv s -> lawful ord ->
  add_set_case s it mrg (fst (add_set ord s it mrg)) (snd (add_set ord s it mrg)).
Proof.
  intros V LO. unfold add_set. pose proof (find_indices_spec s it [] []) as F.
  destruct (find_indices s it [] []) as [[f u]|e].
  2:{ destruct F as [-> F]. cbn. apply AS_index; exact F. }
  destruct F as (A & B & C & D & K).
  assert (A' : forall i, In i f <-> matched s it i) by (intros i; rewrite A; cbn; tauto).
  assert (B' : forall t, In t (ord u) <-> unknown s it t).
  { intros t. split; intros I.
    - apply (Permutation_in _ (LO u)) in I. apply B in I. destruct I as [[]|I]; exact I.
    - apply (Permutation_in _ (Permutation_sym (LO u))). apply B. auto. }
  assert (G : forall t, In t (ord u) -> get_index s t = Err KeyError) by (intros t I; apply B' in I; apply I).
  assert (NI : no_int (ord u)) by (eapply keyerror_no_int; eauto).
  assert (ST : forall k, In k (strs (ord u)) <-> unknown s it (TStr k) /\ k <> EmptyString)
    by (intros k; rewrite In_strs, B'; tauto).
  assert (NEW : (mrg = true -> forall j, ~ matched s it j) ->
     add_set_case s it mrg (fst (new_set s (ord u))) (snd (new_set s (ord u)))).
  { intros M. destruct (new_set_spec s (ord u) V G) as [[E ->]|[NE (s' & -> & X & V')]]; cbn.
    - apply AS_none; auto. intros t U. apply B' in U. rewrite E in U. destruct U.
    - eapply AS_new; eauto. destruct (ord u) as [|t r]; [congruence|]. exists t. apply B'. cbn; auto. }
  destruct mrg.
  2:{ assert (M : false = true -> forall j, ~ matched s it j) by discriminate.
      specialize (NEW M). destruct f as [|? [|? ?]]; exact NEW. }
  destruct f as [|i [|j f]].
  - apply NEW. intros _ j M. apply A' in M. destruct M.
  - assert (Mi : matched s it i) by (apply A'; cbn; auto).
    assert (Mu : forall j, matched s it j -> j = i) by (intros j M; apply A' in M; cbn in M; intuition).
    destruct (nth_error (s_items s) i) as [e|] eqn:Ei.
    2:{ exfalso. destruct Mi as [t [_ Et]]. destruct t as [|k|n]; cbn in Et; [discriminate| |].
        - destruct (dget (sanitize s k) (s_dict s)) eqn:Dk; [|discriminate]. injection Et as ->.
          destruct (inv_dict s V _ _ Dk) as (? & ? & ? & [L _] & _). congruence.
        - destruct (Nat.ltb_spec n (length (s_items s))); [|discriminate]. injection Et as ->.
          apply nth_error_None in Ei. lia. }
    destruct (i_syns e) as [ts|] eqn:Es.
    + assert (L : live s i e ts) by (split; auto).
      assert (NK : forall k, In k (strs (ord u)) -> dget (sanitize s k) (s_dict s) = None).
      { intros k Ik. apply ST in Ik as [[_ Ek] _]. cbn in Ek. destruct (dget (sanitize s k) (s_dict s)); congruence. }
      destruct (merge_set_ext (ord u) s i e ts L NI) as (s' & -> & X); [intros; left; auto|].
      cbn. eapply AS_merge; eauto. eapply ext_Inv; eauto using strs_nonempty.
    + destruct (strs (ord u)) as [|k r] eqn:Er.
      * rewrite merge_set_no_strs by auto. cbn. apply AS_dead_ok; auto.
        -- unfold synonym_set. rewrite Ei. cbn. congruence.
        -- intros k U. destruct k; auto. exfalso. assert (In (String a k) []) by (apply ST; split; [exact U|discriminate]). auto.
      * erewrite merge_set_dead; eauto; [|congruence]. cbn. eapply AS_dead; eauto.
        -- unfold synonym_set. rewrite Ei. cbn. congruence.
        -- exists k. apply ST. cbn; auto.
  - cbn. eapply AS_incons with (i := i) (j := j); auto.
    + specialize (C (NoDup_nil _)). inversion C as [|? ? N _]. intros ->. apply N; cbn; auto.
    + apply A'; cbn; auto.
    + apply A'; cbn; auto.
Qed.

Lemma add_set_Inv ord s it mrg : Inv s -> lawful ord -> Inv (fst (add_set ord s it mrg)).
Proof. intros V LO. destruct (add_set_spec ord s it mrg V LO); auto. Qed.

Lemma add_set_err_same ord s it mrg e : Inv s -> lawful ord -> snd (add_set ord s it mrg) = Err e -> fst (add_set ord s it mrg) = s.
Proof. intros V LO E. destruct (add_set_spec ord s it mrg V LO); auto; discriminate. Qed.

(** * add_term *)
Lemma add_term_Inv s t : Inv s -> Inv (fst (add_term s t)).
Proof.
  intros V. unfold add_term. destruct (get_index s t) as [i|e] eqn:E; [exact V|].
  destruct t as [|k|n]; cbn in E.
  - injection E as <-. cbn. apply (new_item_Inv s None V).
  - destruct (dget (sanitize s k) (s_dict s)) eqn:D; [discriminate|]. injection E as <-. cbn [new_item].
    destruct k as [|c r]; [cbn; apply (new_item_Inv s None V)|].
    pose proof (new_item_live s None) as L. cbn [fst snd new_item] in L.
    destruct (new_term_ext _ _ _ _ (String c r) L) as (s' & -> & X); [discriminate|left; exact D|].
    cbn. eapply ext_Inv; [apply (new_item_Inv s None V)|exact L|exact X| |].
    { intros u [<-|[]]. left; exact D. } intros [E|[]]; discriminate.
  - destruct (n <? length (s_items s)); [discriminate|]. injection E as <-. exact V.
Qed.
Lemma add_term_no_err s t e : snd (add_term s t) = Err e -> fst (add_term s t) = s /\ e = IndexError.
Proof.
  unfold add_term. destruct (get_index s t) as [i|e0] eqn:E; [discriminate|].
  destruct t as [|k|n]; cbn in E.
  - injection E as <-. cbn. discriminate.
  - destruct (dget (sanitize s k) (s_dict s)) eqn:D; [discriminate|]. injection E as <-. cbn [new_item].
    destruct k as [|c r]; [discriminate|].
    pose proof (new_item_live s None) as L. cbn [fst snd new_item] in L.
    destruct (new_term_ext _ _ _ _ (String c r) L) as (s' & -> & X); [discriminate|left; exact D|]. discriminate.
  - destruct (n <? length (s_items s)); [discriminate|]. injection E as <-. cbn. intros H; split; congruence.
Qed.

(** * add_synonym *)
Lemma add_synonym_cases s i t :
  let s' := fst (add_synonym s i t) in
  match snd (add_synonym s i t) with
  | Ok _ => s' = s \/ exists it ts k, t = TStr k /\ live s i it ts /\ k <> EmptyString /\ ext s s' i [k] /\
              (dget (sanitize s k) (s_dict s) = None \/ dget (sanitize s k) (s_dict s) = Some i)
  | Err TermFound => exists it ts k j, t = TStr k /\ live s i it ts /\ k <> EmptyString /\
              dget (sanitize s k) (s_dict s) = Some j /\ j <> i /\
              s' = set_items s (upd i (with_syns (Some (set_add k ts))) (s_items s))
  | Err _ => s' = s
  end.
Proof.
  unfold add_synonym. destruct t as [|k|n]; cbn; auto. destruct k as [|c r]; cbn; auto. set (k := String c r).
  destruct (nth_error (s_items s) i) as [it|] eqn:Ei; cbn; auto.
  destruct (i_syns it) as [ts|] eqn:Es; cbn; auto.
  assert (L : live s i it ts) by (split; auto).
  destruct (dget (sanitize s k) (s_dict s)) as [j|] eqn:D.
  - destruct (Nat.eqb_spec j i) as [->|N]; cbn.
    + right. exists it, ts, k. destruct (new_term_ext s i it ts k L) as (s' & E & X); [discriminate|auto|].
      split; [reflexivity|split; [exact L|split; [discriminate|split; [|auto]]]]. unfold new_term, k in E. fold k in E. rewrite Ei, Es in E. cbn [s_dict set_items] in E.
      rewrite D, Nat.eqb_refl in E. injection E as <-. exact X.
    + exists it, ts, k, j. repeat split; auto. discriminate.
  - cbn. right. exists it, ts, k. destruct (new_term_ext s i it ts k L) as (s' & E & X); [discriminate|auto|].
    split; [reflexivity|split; [exact L|split; [discriminate|split; [|auto]]]]. unfold new_term, k in E. fold k in E. rewrite Ei, Es in E. cbn [s_dict set_items] in E.
    rewrite D in E. injection E as <-. exact X.
Qed.
Lemma add_synonym_Inv s i t : Inv s -> snd (add_synonym s i t) <> Err TermFound -> Inv (fst (add_synonym s i t)).
Proof.
  intros V N. pose proof (add_synonym_cases s i t) as C. cbv zeta in C.
  destruct (snd (add_synonym s i t)) as [[]|e].
  - destruct C as [->|(it & ts & k & -> & L & NE & X & G)]; auto.
    eapply ext_Inv; eauto; [intros u [<-|[]]; exact G|]. intros [E|[]]; congruence.
  - destruct e; try (rewrite C; exact V). congruence.
Qed.

(** * set_name / set_entity *)
Lemma set_name_Inv s n : Inv s -> Inv (fst (set_name s n)).
Proof.
  intros V. unfold set_name. cbn [get_index]. destruct (dget (sanitize s n) (s_dict s)) as [i|] eqn:D; [|exact V]. cbn.
  destruct (inv_dict s V _ _ D) as (it & ts & t & [L1 L2] & It & Et).
  assert (NL : forall j jt, nth_error (upd i (with_name (Some n)) (s_items s)) j = Some jt ->
     exists jt0, nth_error (s_items s) j = Some jt0 /\ i_syns jt = i_syns jt0 /\ (j = i /\ i_name jt = Some n \/ i_name jt = i_name jt0)).
  { intros j jt E. rewrite nth_upd in E. destruct (Nat.eqb_spec i j) as [->|].
    - destruct (nth_error (s_items s) j) as [jt0|]; [|discriminate]. cbn in E. injection E as <-.
      exists jt0; cbn. auto.
    - exists jt; auto. }
  split; unfold live; cbn.
  - intros j jt js t0 [E1 E2] I. destruct (NL j jt E1) as (jt0 & F1 & F2 & _).
    apply (inv_terms s V j jt0 js t0); [split; congruence|exact I].
  - intros k j Dk. destruct (inv_dict s V k j Dk) as (jt & js & t0 & [J1 J2] & I0 & E0).
    destruct (Nat.eqb_spec i j) as [->|N].
    + exists (with_name (Some n) jt), js, t0. repeat split; auto. apply nth_upd_same; exact J1.
    + exists jt, js, t0. repeat split; auto. rewrite nth_upd_other by exact N. exact J1.
  - intros j jt m E Hm. destruct (NL j jt E) as (jt0 & F1 & F2 & [[-> F3]|F3]).
    + assert (m = n) by congruence. subst. exact D.
    + apply (inv_name s V j jt0 m); congruence.
  - intros j jt js [E1 E2]. destruct (NL j jt E1) as (jt0 & F1 & F2 & _). apply (inv_nodup s V j jt0 js); split; congruence.
  - intros j jt js [E1 E2]. destruct (NL j jt E1) as (jt0 & F1 & F2 & _). apply (inv_nonempty s V j jt0 js); split; congruence.
  - apply V.
Qed.
Lemma set_entity_Inv s t e : Inv s -> Inv (fst (set_entity s t e)).
Proof.
  intros V. unfold set_entity. destruct (get_index s t) as [i|x]; [|exact V].
  destruct (nth_error (s_items s) i) as [it|] eqn:Ei; [|exact V].
  assert (X : Inv (set_items s (upd i (with_entity e) (s_items s)))).
  { assert (NL : forall j jt, nth_error (upd i (with_entity e) (s_items s)) j = Some jt ->
     exists jt0, nth_error (s_items s) j = Some jt0 /\ i_syns jt = i_syns jt0 /\ i_name jt = i_name jt0).
    { intros j jt E. rewrite nth_upd in E. destruct (Nat.eqb_spec i j) as [->|].
      - destruct (nth_error (s_items s) j) as [jt0|]; [|discriminate]. cbn in E. injection E as <-.
        exists jt0; cbn. auto.
      - exists jt; auto. }
    split; unfold live; cbn.
    - intros j jt js t0 [E1 E2] I. destruct (NL j jt E1) as (jt0 & F1 & F2 & _).
      apply (inv_terms s V j jt0 js t0); [split; congruence|exact I].
    - intros k j Dk. destruct (inv_dict s V k j Dk) as (jt & js & t0 & [J1 J2] & I0 & E0).
      destruct (Nat.eqb_spec i j) as [->|N].
      + exists (with_entity e jt), js, t0. repeat split; auto. apply nth_upd_same; exact J1.
      + exists jt, js, t0. repeat split; auto. rewrite nth_upd_other by exact N. exact J1.
    - intros j jt m E Hm. destruct (NL j jt E) as (jt0 & F1 & F2 & F3). apply (inv_name s V j jt0 m); congruence.
    - intros j jt js [E1 E2]. destruct (NL j jt E1) as (jt0 & F1 & F2 & _). apply (inv_nodup s V j jt0 js); split; congruence.
    - intros j jt js [E1 E2]. destruct (NL j jt E1) as (jt0 & F1 & F2 & _). apply (inv_nonempty s V j jt0 js); split; congruence.
    - apply V. }
  destruct (i_entity it); [destruct e|]; auto.
Qed.

(** * merge *)
Lemma rekey_spec s ts i : forall d k, dget k (rekey s ts i d) = if mem k (map (sanitize s) ts) then Some i else dget k d.
Proof.
  induction ts as [|t ts IH]; intros d k; cbn [rekey map mem]; [reflexivity|].
  rewrite IH, dget_dset. destruct (mem k (map (sanitize s) ts)); destruct (eqb k (sanitize s t)); reflexivity.
Qed.
Lemma rekey_keys s ts i : forall d, NoDup (dkeys d) -> NoDup (dkeys (rekey s ts i d)).
Proof. induction ts as [|t ts IH]; intros d N; cbn; auto. apply IH, NoDup_dset, N. Qed.

(** [s'] is [s] after moving the terms of all items in [ms] into [into]. *)
Record merged (s s' : synlist) (ms : list nat) (into : nat) : Prop := {
  mg_ic : s_ic s' = s_ic s;
  mg_len : length (s_items s') = length (s_items s);
  mg_dict : forall k, dget k (s_dict s') = match dget k (s_dict s) with
                                            | Some j => Some (if mem j ms then into else j) | None => None end;
  mg_into : exists it it' ts ts', live s into it ts /\ live s' into it' ts' /\ i_name it' = i_name it /\ i_entity it' = i_entity it /\
              (forall t, In t ts' <-> In t ts \/ exists m mt mts, In m ms /\ live s m mt mts /\ In t mts);
  mg_dead : forall m, In m ms -> exists mt, nth_error (s_items s) m = Some mt /\ i_syns mt <> None /\
                     nth_error (s_items s') m = Some (Item None (i_entity mt) None);
  mg_other : forall j, j <> into -> ~ In j ms -> nth_error (s_items s') j = nth_error (s_items s) j
}.

Lemma merge1_spec s m into it ts mt mts : Inv s -> m <> into -> live s into it ts -> live s m mt mts ->
  exists s', merge1 s m into = (s', Ok tt) /\ merged s s' [m] into /\ Inv s'.
Proof.
  intros V N [I1 I2] [M1 M2]. unfold merge1. rewrite I1, M1, I2, M2. eexists; split; [reflexivity|].
  set (u := set_union ts mts).
  set (s' := set_items _ _).
  assert (ND : forall j, nth_error (s_items s') j =
     if Nat.eqb m j then option_map (fun it => Item None (i_entity it) None) (nth_error (s_items s) j)
     else if Nat.eqb into j then option_map (with_syns (Some u)) (nth_error (s_items s) j) else nth_error (s_items s) j).
  { intros j. unfold s'. cbn. rewrite !nth_upd. destruct (Nat.eqb_spec m j), (Nat.eqb_spec into j); auto. congruence. }
  assert (DD : forall k, dget k (s_dict s') = match dget k (s_dict s) with
                                            | Some j => Some (if mem j [m] then into else j) | None => None end).
  { intros k. unfold s'. cbn [s_dict set_items set_dict]. rewrite rekey_spec.
    change (map (sanitize (set_items s (upd into (with_syns (Some u)) (s_items s)))) u) with (map (sanitize s) u).
    destruct (mem_spec k (map (sanitize s) u)) as [M|M].
    - apply in_map_iff in M as [t [<- It]]. apply In_set_union in It as [It|It].
      + rewrite (inv_terms s V into it ts t (conj I1 I2) It). cbn [mem]. rewrite (proj2 (eqb_neq into m)); auto.
      + rewrite (inv_terms s V m mt mts t (conj M1 M2) It). cbn [mem]. rewrite eqb_refl. reflexivity.
    - destruct (dget k (s_dict s)) as [j|] eqn:D; [|reflexivity]. cbn [mem]. destruct (eqb_spec j m) as [->|]; auto.
      exfalso; apply M. destruct (inv_dict s V k m D) as (jt & js & t & [J1 J2] & It & <-).
      apply in_map. apply In_set_union. right. congruence. }
  assert (SAN : forall k, sanitize s' k = sanitize s k) by (intros; apply sanitize_eq; reflexivity).
  split; [split|].
  - reflexivity.
  - unfold s'. cbn. rewrite !length_upd. reflexivity.
  - exact DD.
  - exists it, (with_syns (Some u) it), ts, u. repeat split; auto.
    + rewrite ND. rewrite (proj2 (Nat.eqb_neq m into)) by auto. rewrite Nat.eqb_refl, I1. reflexivity.
    + intros I. apply In_set_union in I as [I|I]; auto. right. exists m, mt, mts. repeat split; cbn; auto.
    + intros [I|(m' & mt' & mts' & [<-|[]] & [J1 J2] & I)]; apply In_set_union; auto.
      right. congruence.
  - intros m' [<-|[]]. exists mt. rewrite ND, Nat.eqb_refl, M1. repeat split; auto. congruence.
  - intros j N1 N2. rewrite ND. destruct (Nat.eqb_spec m j) as [->|]; [exfalso; apply N2; cbn; auto|].
    rewrite (proj2 (Nat.eqb_neq into j)) by auto. reflexivity.
  - split; unfold live.
    + intros j jt js t [J1 J2] I. rewrite SAN, DD. rewrite ND in J1. destruct (Nat.eqb_spec m j) as [->|Nm].
      { rewrite M1 in J1. cbn in J1. injection J1 as <-. discriminate. }
      destruct (Nat.eqb_spec into j) as [->|Nj].
      * rewrite I1 in J1. cbn in J1. injection J1 as <-. cbn in J2. injection J2 as <-.
        apply In_set_union in I as [I|I].
        -- rewrite (inv_terms s V j it ts t (conj I1 I2) I). cbn [mem]. rewrite (proj2 (eqb_neq j m)); auto.
        -- rewrite (inv_terms s V m mt mts t (conj M1 M2) I). cbn [mem]. rewrite eqb_refl. reflexivity.
      * rewrite (inv_terms s V j jt js t (conj J1 J2) I). cbn [mem]. rewrite (proj2 (eqb_neq j m)); auto.
    + intros k j D. rewrite DD in D. destruct (dget k (s_dict s)) as [j0|] eqn:D0; [|discriminate].
      injection D as D. destruct (inv_dict s V k j0 D0) as (jt & js & t & [J1 J2] & It & Et).
      cbn [mem eqb EqB_nat] in D. destruct (Nat.eqb_spec j0 m) as [->|Nm].
      * subst j. exists (with_syns (Some u) it), u, t. rewrite ND, (proj2 (Nat.eqb_neq m into)), Nat.eqb_refl, I1 by auto.
        split; [split; reflexivity|split; [|rewrite SAN; exact Et]]. apply In_set_union. right. congruence.
      * subst j0. destruct (Nat.eqb_spec into j) as [->|Nj].
        -- exists (with_syns (Some u) it), u, t. rewrite ND, (proj2 (Nat.eqb_neq m j)), Nat.eqb_refl, I1 by auto.
           split; [split; reflexivity|split; [|rewrite SAN; exact Et]]. apply In_set_union. left. congruence.
        -- exists jt, js, t. rewrite ND, (proj2 (Nat.eqb_neq m j)), (proj2 (Nat.eqb_neq into j)) by auto.
           repeat split; auto.
    + intros j jt n J1 Hn. rewrite SAN, DD. rewrite ND in J1. destruct (Nat.eqb_spec m j) as [->|Nm].
      { rewrite M1 in J1. cbn in J1. injection J1 as <-. discriminate. }
      assert (D0 : dget (sanitize s n) (s_dict s) = Some j).
      { destruct (Nat.eqb_spec into j) as [->|Nj].
        - rewrite I1 in J1. cbn in J1. injection J1 as <-. apply (inv_name s V j it n); auto.
        - apply (inv_name s V j jt n); auto. }
      rewrite D0. cbn [mem]. rewrite (proj2 (eqb_neq j m)); auto.
    + intros j jt js [J1 J2]. rewrite ND in J1. destruct (Nat.eqb_spec m j) as [->|Nm].
      { rewrite M1 in J1. cbn in J1. injection J1 as <-. discriminate. }
      destruct (Nat.eqb_spec into j) as [->|Nj].
      * rewrite I1 in J1. cbn in J1. injection J1 as <-. cbn in J2. injection J2 as <-.
        apply NoDup_set_union. apply (inv_nodup s V j it ts); split; auto.
      * apply (inv_nodup s V j jt js); split; auto.
    + intros j jt js [J1 J2]. rewrite ND in J1. destruct (Nat.eqb_spec m j) as [->|Nm].
      { rewrite M1 in J1. cbn in J1. injection J1 as <-. discriminate. }
      destruct (Nat.eqb_spec into j) as [->|Nj].
      * rewrite I1 in J1. cbn in J1. injection J1 as <-. cbn in J2. injection J2 as <-.
        intros I. apply In_set_union in I as [I|I].
        -- apply (inv_nonempty s V j it ts (conj I1 I2) I).
        -- apply (inv_nonempty s V m mt mts (conj M1 M2) I).
      * apply (inv_nonempty s V j jt js); split; auto.
    + unfold s'. cbn [s_dict set_items set_dict]. apply rekey_keys. apply V.
Qed.

Lemma merged_nil s it ts into : live s into it ts -> merged s s [] into.
Proof.
  intros L. split; auto; cbn.
  - intros k. destruct (dget k (s_dict s)); reflexivity.
  - exists it, it, ts, ts. repeat split; try apply L; auto. intros [|(m & ? & ? & [] & _)]; auto.
  - intros m [].
Qed.

Lemma merged_trans s s1 s2 m ms into : ~ In m ms -> m <> into -> ~ In into ms ->
  merged s s1 [m] into -> merged s1 s2 ms into -> merged s s2 (m :: ms) into.
Proof.
  intros NM NI NI2 X Y. split.
  - rewrite (mg_ic _ _ _ _ Y); apply X.
  - rewrite (mg_len _ _ _ _ Y); apply X.
  - intros k. rewrite (mg_dict _ _ _ _ Y), (mg_dict _ _ _ _ X). destruct (dget k (s_dict s)) as [j|]; auto.
    cbn [mem]. destruct (eqb_spec j m) as [->|]; auto. rewrite (proj2 (mem_nIn into ms)); auto.
  - destruct (mg_into _ _ _ _ X) as (it & it1 & ts & ts1 & L & L1 & N1 & E1 & I1).
    destruct (mg_into _ _ _ _ Y) as (jt & it2 & us & ts2 & L1' & L2 & N2 & E2 & I2).
    assert (jt = it1) by (destruct L1, L1'; congruence). subst jt.
    assert (us = ts1) by (destruct L1, L1'; congruence). subst us.
    exists it, it2, ts, ts2. repeat split; try apply L; try apply L2; try congruence.
    + intros I. apply I2 in I as [I|(m' & mt & mts & Im & Lm & It)].
      * apply I1 in I as [I|(m' & mt & mts & [<-|[]] & Lm & It)]; auto. right. exists m, mt, mts. cbn; auto.
      * right. exists m', mt, mts. cbn. repeat split; auto; try apply Lm.
        destruct Lm as [Lm _]. rewrite (mg_other _ _ _ _ X) in Lm; auto; [congruence|cbn; intros [|[]]; congruence].
    + intros [I|(m' & mt & mts & [<-|Im] & Lm & It)]; apply I2.
      * left. apply I1; auto.
      * left. apply I1. right. exists m, mt, mts. cbn; auto.
      * right. exists m', mt, mts. repeat split; auto; try apply Lm.
        rewrite (mg_other _ _ _ _ X); [apply Lm|congruence|cbn; intros [|[]]; congruence].
  - intros m' [<-|Im].
    + destruct (mg_dead _ _ _ _ X m) as (mt & A & B & C); cbn; auto. exists mt. repeat split; auto.
      rewrite (mg_other _ _ _ _ Y) by auto. exact C.
    + destruct (mg_dead _ _ _ _ Y m' Im) as (mt & A & B & C). exists mt. repeat split; auto.
      rewrite (mg_other _ _ _ _ X) in A; auto; [congruence|cbn; intros [|[]]; congruence].
  - intros j N1 N2. rewrite (mg_other _ _ _ _ Y); auto; [|cbn in N2; tauto]. apply (mg_other _ _ _ _ X); auto.
    cbn in *. tauto.
Qed.

Lemma merge_all_spec ms : forall s into it ts, Inv s -> NoDup ms -> ~ In into ms -> live s into it ts ->
  (forall m, In m ms -> exists mt mts, live s m mt mts) ->
  exists s', merge_all s ms into = (s', Ok tt) /\ merged s s' ms into /\ Inv s'.
Proof.
  induction ms as [|m ms IH]; intros s into it ts V ND NI L LM; cbn [merge_all].
  - exists s. split; [reflexivity|]. split; [eapply merged_nil; eauto|exact V].
  - inversion ND as [|? ? NM ND2]; subst.
    destruct (LM m) as (mt & mts & Lm); cbn; auto.
    assert (N : m <> into) by (intros ->; apply NI; cbn; auto).
    assert (NI2 : ~ In into ms) by (intros I; apply NI; cbn; auto).
    destruct (merge1_spec s m into it ts mt mts V N L Lm) as (s1 & E1 & X & V1).
    destruct (mg_into _ _ _ _ X) as (? & it1 & ? & ts1 & ? & L1 & _).
    destruct (IH s1 into it1 ts1 V1 ND2 NI2 L1) as (s2 & E2 & Y & V2).
    + intros m' Im. destruct (LM m') as (mt' & mts' & [Lm1 Lm2]); cbn; auto. exists mt', mts'. split; auto.
      rewrite (mg_other _ _ _ _ X); auto; [congruence|cbn; intros [->|[]]; congruence].
    + rewrite E1, E2. exists s2. split; [reflexivity|]. split; [eapply merged_trans; eauto|exact V2].
Qed.

(** Merging never breaks the invariant unless the target is among the merged. *)
Lemma merge1_Inv s m into : Inv s -> m <> into -> Inv (fst (merge1 s m into)).
Proof.
  intros V N. destruct (nth_error (s_items s) into) as [it|] eqn:Ei; [|unfold merge1; rewrite Ei; exact V].
  destruct (nth_error (s_items s) m) as [mt|] eqn:Em; [|unfold merge1; rewrite Ei, Em; exact V].
  destruct (i_syns it) as [ts|] eqn:Es; [|unfold merge1; rewrite Ei, Em, Es; exact V].
  destruct (i_syns mt) as [mts|] eqn:Ems; [|unfold merge1; rewrite Ei, Em, Es, Ems; exact V].
  destruct (merge1_spec s m into it ts mt mts V N (conj Ei Es) (conj Em Ems)) as (s' & -> & _ & V'). exact V'.
Qed.
Lemma merge_all_Inv ms into : forall s, Inv s -> ~ In into ms -> Inv (fst (merge_all s ms into)).
Proof.
  induction ms as [|m ms IH]; intros s V NI; cbn; [exact V|].
  pose proof (merge1_Inv s m into V) as V1. destruct (merge1 s m into) as [s1 [[]|e]]; cbn in *.
  - apply IH; [|tauto]. apply V1. intros ->; apply NI; auto.
  - apply V1. intros ->; apply NI; auto.
Qed.

Lemma indices_of_spec s ts l : indices_of s ts = Ok l -> Forall2 (fun t i => get_index s t = Ok i) ts l.
Proof.
  revert l. induction ts as [|t ts IH]; intros l; cbn; [intros E; injection E as <-; constructor|].
  destruct (get_index s t) as [i|] eqn:E; [|discriminate]. destruct (indices_of s ts) as [l'|]; [|discriminate].
  intros F; injection F as <-. constructor; auto.
Qed.
Lemma indices_of_In s ts l i : indices_of s ts = Ok l -> In i l <-> exists t, In t ts /\ get_index s t = Ok i.
Proof.
  intros E. apply indices_of_spec in E. induction E as [|t j ts l E F IH]; cbn; [split; [tauto|intros [? [[] _]]]|].
  rewrite IH. split.
  - intros [<-|[t' [I Et]]]; [exists t|exists t']; auto.
  - intros [t' [[<-|I] Et]]; [left; congruence|right; eauto].
Qed.

Definition self_merge (s : synlist) (d : term) (ts : list term) : Prop :=
  exists i t, get_index s d = Ok i /\ In t ts /\ get_index s t = Ok i.

Lemma merge_Inv ordn s d ts : Inv s -> lawful ordn -> ~ self_merge s d ts -> Inv (fst (merge ordn s d ts)).
Proof.
  intros V LO NS. unfold merge. destruct (get_index s d) as [into|] eqn:Ed; [|exact V].
  destruct (indices_of s ts) as [l|] eqn:El; [|exact V]. apply merge_all_Inv; auto.
  intros I. apply (Permutation_in _ (LO _)) in I. apply (proj1 (In_set_of _ _)) in I. apply (indices_of_In _ _ _ _ El) in I as [t [It Et]].
  apply NS. exists into, t. auto.
Qed.

Definition allowed (s : synlist) (o : op) : Prop :=
  match o with
  | OAddSet ord _ _ => lawful ord
  | OAddSynonym i t => snd (add_synonym s i t) <> Err TermFound
  | OMerge ordn d ts => lawful ordn /\ ~ self_merge s d ts
  | _ => True
  end.

Lemma step_Inv s o : Inv s -> allowed s o -> Inv (fst (step s o)).
Proof.
  intros V A. destruct o as [t|ord it m|i t|n|t e|ordn d ts]; cbn in *.
  - pose proof (add_term_Inv s t V). destruct (add_term s t); auto.
  - pose proof (add_set_Inv ord s it m V A). destruct (add_set ord s it m); auto.
  - pose proof (add_synonym_Inv s i t V A). destruct (add_synonym s i t); auto.
  - pose proof (set_name_Inv s n V). destruct (set_name s n); auto.
  - pose proof (set_entity_Inv s t e V). destruct (set_entity s t e); auto.
  - destruct A as [A1 A2]. pose proof (merge_Inv ordn s d ts V A1 A2). destruct (merge ordn s d ts); auto.
Qed.

(** * merge, when it returns *)
Lemma merge1_ok_live s m into s' : merge1 s m into = (s', Ok tt) ->
  (exists it ts, live s into it ts) /\ (exists mt mts, live s m mt mts).
Proof.
  unfold merge1, live. destruct (nth_error (s_items s) into) as [it|]; [|discriminate].
  destruct (nth_error (s_items s) m) as [mt|]; [|discriminate].
  destruct (i_syns it) as [ts|] eqn:E1; [|discriminate]. destruct (i_syns mt) as [mts|] eqn:E2; [|discriminate].
  intros _. split; eauto.
Qed.
Lemma merge_all_ok ms into : forall s s', Inv s -> NoDup ms -> ~ In into ms -> merge_all s ms into = (s', Ok tt) ->
  (ms = [] /\ s' = s) \/ (merged s s' ms into /\ Inv s').
Proof.
  induction ms as [|m ms IH]; intros s s' V ND NI E; cbn in E; [injection E as <-; auto|]. right.
  inversion ND as [|? ? NM ND2]; subst.
  assert (N : m <> into) by (intros ->; apply NI; cbn; auto).
  assert (NI2 : ~ In into ms) by (intros I; apply NI; cbn; auto).
  destruct (merge1 s m into) as [s1 [[]|e]] eqn:E1; [|discriminate].
  destruct (merge1_ok_live _ _ _ _ E1) as [(it & ts & L) (mt & mts & Lm)].
  destruct (merge1_spec s m into it ts mt mts V N L Lm) as (s1' & E1' & X & V1).
  rewrite E1 in E1'. injection E1' as <-.
  destruct (IH s1 s' V1 ND2 NI2 E) as [[-> ->]|[Y V2]]; [split; auto|]. split; auto.
  eapply merged_trans; eauto.
Qed.

Definition in_group (s : synlist) (d : term) (ts : list term) (i : nat) : Prop :=
  exists t, In t (d :: ts) /\ get_index s t = Ok i.

Lemma merge_ok ordn s d ts s' : Inv s -> lawful ordn -> ~ self_merge s d ts -> merge ordn s d ts = (s', Ok tt) ->
  exists into ms, get_index s d = Ok into /\ NoDup ms /\ ~ In into ms /\
    (forall i, In i ms <-> exists t, In t ts /\ get_index s t = Ok i) /\
    ((ms = [] /\ s' = s) \/ (merged s s' ms into /\ Inv s')).
Proof.
  intros V LO NS E. unfold merge in E. destruct (get_index s d) as [into|] eqn:Ed; [|discriminate].
  destruct (indices_of s ts) as [l|] eqn:El; [|discriminate].
  exists into, (ordn (set_of l)).
  assert (IM : forall i, In i (ordn (set_of l)) <-> exists t, In t ts /\ get_index s t = Ok i).
  { intros i. rewrite <- (indices_of_In s ts l i El). rewrite <- (In_set_of i l). split; apply Permutation_in; [apply LO|apply Permutation_sym, LO]. }
  assert (ND : NoDup (ordn (set_of l))) by (eapply Permutation_NoDup; [apply Permutation_sym, LO|apply NoDup_set_of]).
  assert (NI : ~ In into (ordn (set_of l))).
  { intros I. apply IM in I as [t [It Et]]. apply NS. exists into, t; auto. }
  split; [reflexivity|]. split; [exact ND|]. split; [exact NI|]. split; [exact IM|].
  apply merge_all_ok; auto.
Qed.

Lemma are_syn_iff_index s a b : are_synonyms s a b = true <-> exists i, dget (sanitize s a) (s_dict s) = Some i /\ dget (sanitize s b) (s_dict s) = Some i.
Proof.
  unfold are_synonyms. destruct (dget (sanitize s a) (s_dict s)) as [i|], (dget (sanitize s b) (s_dict s)) as [j|];
    try (split; [discriminate|intros [k [? ?]]; discriminate]).
  destruct (Nat.eqb_spec i j) as [->|N]; split; intros H; try discriminate; eauto.
  destruct H as [k [A B]]; congruence.
Qed.
Lemma are_syn_iff_sets s a b : Inv s ->
  are_synonyms s a b = true <->
  exists i it ts t u, live s i it ts /\ In t ts /\ In u ts /\ sanitize s t = sanitize s a /\ sanitize s u = sanitize s b.
Proof.
  intros V. rewrite are_syn_iff_index. split.
  - intros [i [A B]]. destruct (inv_dict s V _ _ A) as (it & ts & t & L & It & Et).
    destruct (inv_dict s V _ _ B) as (it2 & ts2 & u & L2 & Iu & Eu).
    assert (it2 = it) by (destruct L, L2; congruence). subst. assert (ts2 = ts) by (destruct L, L2; congruence). subst.
    exists i, it, ts, t, u. auto.
  - intros (i & it & ts & t & u & L & It & Iu & Et & Eu). exists i. rewrite <- Et, <- Eu.
    split; eapply inv_terms; eauto.
Qed.

(** * JSON *)
Definition jkeys (s : synlist) (p : option string * list string) : list string := map (sanitize s) (snd p).
Definition wf_entry (s : synlist) (p : option string * list string) : Prop :=
  (exists n, fst p = Some n /\ In (sanitize s n) (jkeys s p)) /\ ~ In EmptyString (snd p).
Definition disj {A} (l m : list A) : Prop := forall x, In x l -> ~ In x m.
Inductive wf_json (s : synlist) : list (option string * list string) -> Prop :=
| wfj_nil : wf_json s []
| wfj_cons p r : wf_entry s p -> (forall q, In q r -> disj (jkeys s p) (jkeys s q)) -> wf_json s r -> wf_json s (p :: r).
(** the loaded item for one JSON entry *)
Definition loaded (p : option string * list string) (it : item) : Prop :=
  i_name it = fst p /\ i_entity it = None /\
  exists ts', i_syns it = Some ts' /\ forall t, In t ts' <-> (In t (snd p) \/ (fst p = Some t /\ t <> EmptyString)).

Lemma wf_json_ic s s' l : s_ic s = s_ic s' -> wf_json s l -> wf_json s' l.
Proof.
  intros E. assert (F : forall p, jkeys s' p = jkeys s p) by (intros; apply map_sanitize_ic; auto).
  induction 1 as [|p r [[n [N1 N2]] NE] D W IH]; constructor; auto.
  - split; auto. exists n. rewrite F, (sanitize_eq s' s n) by auto. auto.
  - intros q Q. rewrite !F. auto.
Qed.

Lemma load_one ord s n ts : Inv s -> lawful ord -> wf_entry s (Some n, ts) ->
  (forall k, In k (jkeys s (Some n, ts)) -> dget k (s_dict s) = None) ->
  exists s1 s2 it, add_set ord s (map TStr ts ++ [TStr n]) false = (s1, Ok (Some (length (s_items s)))) /\
    set_name s1 n = (s2, Ok (length (s_items s))) /\ Inv s2 /\ s_ic s2 = s_ic s /\
    s_items s2 = s_items s ++ [it] /\ loaded (Some n, ts) it /\
    (forall k, dget k (s_dict s2) = if mem k (jkeys s (Some n, ts)) then Some (length (s_items s)) else dget k (s_dict s)).
Proof.
  intros V LO [[n' [E1 Nk]] NE] FR. injection E1 as <-. set (it0 := map TStr ts ++ [TStr n]) in *. cbn [snd] in *.
  assert (UK : forall u, In (TStr u) it0 <-> In u ts \/ u = n).
  { intros u. unfold it0. rewrite in_app_iff, in_map_iff. cbn. split.
    - intros [[x [E I]]|[E|[]]]; [injection E as ->; auto|injection E as ->; auto].
    - intros [I| ->]; eauto. }
  assert (UN : forall u, In u ts \/ u = n -> get_index s (TStr u) = Err KeyError).
  { intros u U. cbn. assert (In (sanitize s u) (jkeys s (Some n, ts))) as J.
    { destruct U as [U| ->]; [apply in_map; exact U|exact Nk]. }
    rewrite (FR _ J). reflexivity. }
  assert (NM : forall i, ~ matched s it0 i).
  { intros i [t [It Et]]. unfold it0 in It. apply in_app_iff in It. rewrite in_map_iff in It.
    destruct It as [[x [<- I]]|[<-|[]]]; rewrite UN in Et; auto; discriminate. }
  pose proof (add_set_spec ord s it0 false V LO) as C.
  destruct (add_set ord s it0 false) as [s1 r]. cbn [fst snd] in C.
  inversion C as [[k [I _]]| | | | |M U|s1' us M U X IU V1]; subst; try discriminate.
  - exfalso. unfold it0 in I. apply in_app_iff in I. rewrite in_map_iff in I. destruct I as [[x [E _]]|[E|[]]]; discriminate.
  - exfalso. apply (U (TStr n)). split; [apply UK; auto|apply UN; auto].
  - clear C.
    destruct (ext_item _ _ _ _ X _ _ (new_item_live s None)) as (it1 & ts1 & L1 & I1 & _ & E1 & _).
    cbn [new_item fst snd] in *.
    assert (UU : forall u, In u us <-> (In u ts \/ u = n) /\ u <> EmptyString).
    { intros u. rewrite IU. unfold unknown. rewrite UK. split; intros; intuition. }
    assert (DI : forall k, dget k (s_dict s1) = if mem k (jkeys s (Some n, ts)) then Some (length (s_items s)) else dget k (s_dict s)).
    { intros k. rewrite (ext_dict _ _ _ _ X). cbn [s_dict set_items].
      change (map (sanitize (set_items s (s_items s ++ [Item None None (Some [])]))) us) with (map (sanitize s) us).
      destruct (mem_spec k (map (sanitize s) us)) as [A|A], (mem_spec k (jkeys s (Some n, ts))) as [B|B]; auto; exfalso.
      - apply in_map_iff in A as [u [<- Iu]]. apply B. apply UU in Iu as [[Iu| ->] _]; [apply in_map; exact Iu|exact Nk].
      - unfold jkeys in B. cbn in B. apply in_map_iff in B as [u [<- Iu]]. apply A. apply in_map. apply UU. split; auto. intros ->. auto. }
    assert (SN : set_name s1 n = (set_items s1 (upd (length (s_items s)) (with_name (Some n)) (s_items s1)), Ok (length (s_items s)))).
    { unfold set_name. cbn [get_index]. rewrite (sanitize_eq s1 s n (ext_ic _ _ _ _ X)), DI.
      rewrite (proj2 (mem_In _ _) Nk). reflexivity. }
    pose proof (set_name_Inv s1 n V1) as V2. rewrite SN in V2. cbn [fst] in V2.
    eexists s1, _, (with_name (Some n) it1). split; [reflexivity|]. split; [exact SN|]. split; [exact V2|].
    split; [cbn; apply X|]. split; [|split].
    + cbn. apply nth_error_ext. intros j. rewrite nth_error_snoc.
      destruct (Nat.eqb_spec j (length (s_items s))) as [->|Nj].
      * apply nth_upd_same. apply L1.
      * rewrite nth_upd_other by auto. rewrite (ext_other _ _ _ _ X) by exact Nj. cbn. rewrite nth_error_snoc.
        rewrite (proj2 (Nat.eqb_neq j _)); auto.
    + split; [reflexivity|]. split; [cbn; rewrite E1; reflexivity|]. exists ts1. split; [apply L1|].
      intros t. rewrite I1. rewrite UU. cbn. split.
      * intros [[]|[[I| ->] N]]; auto.
      * intros [I|[E N]]; right; [split; auto; intros ->; auto|]. injection E as ->. auto.
    + exact DI.
Qed.

Lemma load_sets_ok ord js : forall s, Inv s -> lawful ord -> wf_json s js ->
  (forall p k, In p js -> In k (jkeys s p) -> dget k (s_dict s) = None) ->
  exists s' new, load_sets ord s js = (s', Ok tt) /\ Inv s' /\ s_ic s' = s_ic s /\
    s_items s' = s_items s ++ new /\ Forall2 loaded js new.
Proof.
  induction js as [|[n ts] js IH]; intros s V LO W F.
  - exists s, []. cbn. rewrite app_nil_r. auto 10.
  - inversion W as [|? ? WE D W2]; subst. pose proof WE as [[m [E _]] _]. cbn in E. subst n.
    destruct (load_one ord s m ts V LO WE) as (s1 & s2 & it & A & B & V2 & IC & IT & LD & DI).
    { intros k Ik. apply (F (Some m, ts)); cbn; auto. }
    destruct (IH s2 V2 LO) as (s' & new & E' & V' & IC' & IT' & LD').
    + eapply wf_json_ic; [|exact W2]. auto.
    + intros p k Ip Ik. assert (Ik' : In k (jkeys s p)).
      { unfold jkeys in *. rewrite (map_sanitize_ic s s2) in Ik by auto. exact Ik. }
      rewrite DI. destruct (mem_spec k (jkeys s (Some m, ts))) as [M|M].
      * exfalso. apply (D p Ip k M Ik').
      * apply (F p); cbn; auto.
    + exists s', (it :: new). cbn [load_sets]. rewrite A, B. split; [exact E'|]. split; [exact V'|].
      split; [congruence|]. split; [rewrite IT', IT, <- app_assoc; reflexivity|]. constructor; auto.
Qed.

(** every live item has a canonical name *)
Definition all_named (s : synlist) : Prop := forall i it ts, live s i it ts -> i_name it <> None.

Lemma serialize_In l n ts : In (n, ts) (serialize_items l) <-> exists i it, nth_error l i = Some it /\ i_syns it = Some ts /\ i_name it = n.
Proof.
  induction l as [|it l IH]; cbn.
  - split; [tauto|]. intros (i & it & E & _). destruct i; discriminate.
  - destruct (i_syns it) as [us|] eqn:Es; cbn; rewrite IH; split.
    + intros [E|(i & jt & A & B & C)]; [injection E as <- <-; exists 0, it; auto|exists (S i), jt; auto].
    + intros (i & jt & A & B & C). destruct i; cbn in A; [injection A as <-; left; congruence|right; eauto].
    + intros (i & jt & A & B & C). exists (S i), jt; auto.
    + intros (i & jt & A & B & C). destruct i; cbn in A; [injection A as <-; congruence|eauto].
Qed.

Lemma serialize_wf s : Inv s -> all_named s -> wf_json s (serialize_items (s_items s)).
Proof.
  intros V AN.
  assert (G : forall l off, (forall i it, nth_error l i = Some it -> nth_error (s_items s) (off + i) = Some it) ->
     wf_json s (serialize_items l)).
  { induction l as [|it l IH]; intros off H; cbn; [constructor|].
    assert (H2 : forall i jt, nth_error l i = Some jt -> nth_error (s_items s) (S off + i) = Some jt).
    { intros i jt E. rewrite <- (H (S i) jt E). f_equal. lia. }
    specialize (IH (S off) H2). destruct (i_syns it) as [ts|] eqn:Es; [|exact IH].
    pose proof (H 0 it eq_refl) as H0. rewrite Nat.add_0_r in H0.
    assert (L : live s off it ts) by (split; auto).
    constructor; auto.
    - split; cbn; [|apply (inv_nonempty s V off it ts L)].
      destruct (i_name it) as [n|] eqn:Hn; [|exfalso; apply (AN off it ts L Hn)]. exists n. split; auto.
      pose proof (inv_name s V off it n H0 Hn) as D. destruct (inv_dict s V _ _ D) as (jt & us & t & [J1 J2] & It & Et).
      rewrite <- Et. apply in_map. congruence.
    - intros [m us] Q k K1 K2. apply serialize_In in Q as (i & jt & A & B & C).
      unfold jkeys in *. cbn [snd] in *. apply in_map_iff in K1 as [t [<- It]]. apply in_map_iff in K2 as [u [Eu Iu]].
      assert (L2 : live s (S off + i) jt us) by (split; [apply H2; exact A|exact B]).
      pose proof (inv_terms s V _ _ _ t L It) as D1. pose proof (inv_terms s V _ _ _ u L2 Iu) as D2.
      rewrite Eu, D1 in D2. injection D2 as D2. lia. }
  apply (G (s_items s) 0). auto.
Qed.

Lemma loaded_live js new s : Forall2 loaded js new -> s_items s = new ->
  forall a b, Inv s ->
  (are_synonyms s a b = true <-> exists n ts t u, In (n, ts) js /\ (In t ts \/ n = Some t) /\ (In u ts \/ n = Some u) /\ t <> EmptyString /\ u <> EmptyString /\
      sanitize s t = sanitize s a /\ sanitize s u = sanitize s b).
Proof.
  intros F E a b V. rewrite (are_syn_iff_sets s a b V). split.
  - intros (i & it & ts' & t & u & [L1 L2] & It & Iu & Et & Eu).
    assert (X : forall js new i it, Forall2 loaded js new -> nth_error new i = Some it -> exists p, In p js /\ loaded p it).
    { clear. induction js as [|p js IH]; intros new i it F E; inversion F; subst; destruct i; cbn in E; try discriminate.
      - injection E as <-. exists p; cbn; auto.
      - edestruct IH as [q [Q1 Q2]]; eauto. exists q; cbn; auto. }
    destruct (X js new i it F) as [[n ts] [Ip (N & _ & ts2 & S2 & SI)]]; [congruence|].
    assert (ts2 = ts') by congruence. subst ts2. cbn in *.
    pose proof (inv_nonempty s V i it ts' (conj L1 L2)) as NE.
    exists n, ts, t, u. split; [exact Ip|]. apply SI in It as It2. apply SI in Iu as Iu2.
    repeat split; auto; try tauto; intros ->; tauto.
  - intros (n & ts & t & u & Ip & It & Iu & Nt & Nu & Et & Eu).
    assert (X : forall js new p, Forall2 loaded js new -> In p js -> exists i it, nth_error new i = Some it /\ loaded p it).
    { clear. induction js as [|q js IH]; intros new p F I; inversion F; subst; [destruct I|]; destruct I as [->|I].
      - exists 0, y; auto.
      - edestruct IH as (i & it & A & B); eauto. exists (S i), it; auto. }
    destruct (X js new (n, ts) F Ip) as (i & it & A & (N & _ & ts2 & S2 & SI)). cbn in *.
    exists i, it, ts2, t, u. repeat split; auto; try congruence; apply SI; intuition.
Qed.

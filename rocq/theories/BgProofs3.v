(** Component graph of the background engine: background, downstream, foreground order (BgModel.v). *)
From Verif Require Import Num Base ProcModel BgModel BgProofs BgProofs2.
From Coq Require Import Relations Sorted Permutation.
Open Scope nat_scope.
Open Scope list_scope.

(** * Finite acyclic relations *)
Section Acyclic.
  Context {A : Type} (R : A -> A -> Prop).
  Definition acyclic : Prop := forall x, ~ clos_trans A R x x.
  Lemma path_nodup l : acyclic -> Sorted R l -> NoDup l.
  Proof.
    intros AC S. assert (SS : StronglySorted (clos_trans A R) l).
    { apply Sorted_StronglySorted; [intros x y z; apply t_trans|]. induction S as [|a l S IH H]; constructor; auto. destruct H; constructor. apply t_step; auto. }
    induction SS as [|a l SS IH F]; constructor; [|apply IH; inversion S; auto].
    intros J. rewrite Forall_forall in F. apply (AC a). auto.
  Qed.
  Lemma path_short l K : acyclic -> Sorted R l -> incl l K -> length l <= length K.
  Proof. intros AC S I. apply NoDup_incl_length; auto. apply path_nodup; auto. Qed.
  (** a non-empty finite set has an element with no predecessor in it *)
  Lemma has_minimal (K : list A) : acyclic -> K <> [] -> ~ (forall x, In x K -> exists y, In y K /\ R y x).
  Proof.
    intros AC NE ALL. assert (P : forall n, exists l, length l = S n /\ Sorted R l /\ incl l K).
    { induction n as [|n [l [E [S I]]]].
      - destruct K as [|k K]; [congruence|]. exists [k]. split; auto. split; [repeat constructor|]. intros x [<-|[]]; cbn; auto.
      - destruct l as [|a l]; [discriminate|]. destruct (ALL a (I a (or_introl eq_refl))) as [y [Y1 Y2]]. exists (y :: a :: l). cbn in *. split; [lia|].
        split; [constructor; auto|]. intros x [<-|J]; auto. }
    destruct (P (length K)) as [l [E [S I]]]. pose proof (path_short l K AC S I). lia.
  Qed.
End Acyclic.

(** * downstream *)
Section Down.
  Context (rows : nat -> list nat).
  Definition cstep (c r : nat) : Prop := In r (rows c) /\ r <> c.
  Notation plus := (clos_trans nat cstep).
  Lemma downstream_spec n : forall up down d, downstream n rows up down = Some d -> forall r, In r d <-> In r down \/ plus up r.
  Proof.
    induction n as [|n IH]; intros up down d E; [discriminate|]. cbn [downstream] in E.
    assert (W : forall l down d, (forall r, In r l -> In r (rows up)) ->
      fold_left (fun acc dep => match acc with None => None | Some d => if Nat.eqb dep up then Some d else downstream n rows dep (set_add dep d) end) l (Some down) = Some d ->
      forall r, In r d <-> In r down \/ exists s, In s l /\ s <> up /\ (r = s \/ plus s r)).
    { clear E down d. induction l as [|a l IHl]; intros down d S E r; cbn in E.
      - injection E as <-. split; [auto|intros [J|[s [[] _]]]; exact J].
      - destruct (Nat.eqb_spec a up) as [->|NE].
        + rewrite (IHl down d) by (auto; intros; apply S; cbn; auto). split.
          * intros [J|[s [J1 J2]]]; [auto|right; exists s; cbn; auto].
          * intros [J|[s [[<-|J1] [J2 J3]]]]; [auto|congruence|right; exists s; auto].
        + destruct (downstream n rows a (set_add a down)) as [d1|] eqn:E1.
          * rewrite (IHl d1 d) by (auto; intros; apply S; cbn; auto). rewrite (IH _ _ _ E1), In_set_add. split.
            -- intros [[[J|J]|J]|[s [J1 J2]]]; [right; exists a; cbn; auto|auto|right; exists a; cbn; auto|right; exists s; cbn; auto].
            -- intros [J|[s [[<-|J1] [J2 J3]]]]; [auto|destruct J3; auto|right; exists s; auto].
          * exfalso. clear -E. induction l; cbn in E; [discriminate|auto]. }
    intros r. rewrite (W (rows up) down d) by auto. split; (intros [J|J]; [auto|right]).
    - destruct J as [s [J1 [J2 [->|J3]]]]; [apply t_step; split; auto|]. eapply t_trans; [apply t_step; split; eauto|exact J3].
    - apply clos_trans_t1n in J. destruct J as [r [J1 J2]|s r [J1 J2] J3]; [exists r; auto|]. exists s. split; auto. split; auto. right. apply clos_t1n_trans; exact J3.
  Qed.
  Lemma downstream_none n : forall up down, downstream n rows up down = None -> exists l, length l = n /\ Sorted cstep (up :: l).
  Proof.
    induction n as [|n IH]; intros up down E; [exists []; repeat constructor|]. cbn [downstream] in E.
    assert (W : forall l down, (forall r, In r l -> In r (rows up)) ->
      fold_left (fun acc dep => match acc with None => None | Some d => if Nat.eqb dep up then Some d else downstream n rows dep (set_add dep d) end) l (Some down) = None ->
      exists s d, cstep up s /\ downstream n rows s d = None).
    { clear E down. induction l as [|a l IHl]; intros down S E; cbn in E; [discriminate|].
      destruct (Nat.eqb_spec a up) as [->|NE]; [apply (IHl down); auto; intros; apply S; cbn; auto|].
      destruct (downstream n rows a (set_add a down)) as [d1|] eqn:E1; [apply (IHl d1); auto; intros; apply S; cbn; auto|].
      exists a, (set_add a down). split; auto. split; auto. apply S; cbn; auto. }
    destruct (W _ _ (fun r h => h) E) as [s [d [S1 S2]]]. destruct (IH _ _ S2) as [l [L1 L2]]. exists (s :: l). cbn. split; [lia|]. constructor; auto.
  Qed.
  Lemma downstream_total K up down n : acyclic cstep -> In up K -> (forall c r, cstep c r -> In r K) -> length K <= n -> exists d, downstream n rows up down = Some d.
  Proof.
    intros AC J CL LE. destruct (downstream n rows up down) as [d|] eqn:E; [eauto|]. exfalso.
    destruct (downstream_none _ _ _ E) as [l [L1 L2]].
    assert (I : incl (up :: l) K).
    { clear -L2 CL J. intros x [<-|X]; auto. revert up J L2 X. induction l as [|a l IH]; intros up J S X; [destruct X|].
      inversion S as [|? ? S1 H]; subst. inversion H; subst. assert (In a K) by eauto. destruct X as [<-|X]; [auto|]. apply (IH a); auto. }
    pose proof (path_short _ _ _ AC L2 I) as P. cbn in P. lia.
  Qed.
  Lemma NoDup_downstream n : forall up down d, NoDup down -> downstream n rows up down = Some d -> NoDup d.
  Proof.
    induction n as [|n IH]; intros up down d N E; [discriminate|]. cbn [downstream] in E. revert down N E.
    generalize (rows up) as l. induction l as [|a l IHl]; intros down N E; cbn in E; [injection E as <-; auto|].
    destruct (Nat.eqb a up); [eauto|]. destruct (downstream n rows a (set_add a down)) as [d1|] eqn:E1.
    - eapply IHl; [|exact E]. eapply IH; [|exact E1]. apply NoDup_set_add; auto.
    - exfalso. clear -E. induction l; cbn in E; [discriminate|auto].
  Qed.
End Down.

(** * the foreground loop *)
Section Fg.
  Context (g : cgraph) (ord : list nat -> list nat) (ORD : forall l, Permutation (ord l) l).
  (** [j] depends on [k] *)
  Definition dep (j k : nat) : Prop := In j (cols_of g k) /\ j <> k.
  Definition ready (ordering nodes : list nat) : list nat :=
    filter (fun k => match filter (fun j => negb (mem j ordering) && negb (Nat.eqb j k)) (cols_of g k) with [] => true | _ => false end) nodes.
  Lemma In_ready o ns k : In k (ready o ns) <-> In k ns /\ forall j, dep j k -> In j o.
  Proof.
    unfold ready. rewrite filter_In. split; intros [J1 J2]; split; auto.
    - intros j [D1 D2]. destruct (filter _ (cols_of g k)) as [|z zs] eqn:F; [|discriminate].
      destruct (mem_spec j o) as [|N]; auto. exfalso. assert (X : In j []); [|destruct X]. rewrite <- F. apply filter_In. split; auto.
      rewrite (proj2 (mem_nIn _ _) N). cbn. apply Bool.negb_true_iff. apply Nat.eqb_neq; exact D2.
    - destruct (filter _ (cols_of g k)) as [|z zs] eqn:F; auto. exfalso.
      assert (X : In z (z :: zs)) by (cbn; auto). rewrite <- F in X. apply filter_In in X as [X1 X2]. apply Bool.andb_true_iff in X2 as [X2 X3].
      apply Bool.negb_true_iff, mem_nIn in X2. apply Bool.negb_true_iff, Nat.eqb_neq in X3. apply X2, J2. split; auto.
  Qed.
  Definition topo (o : list nat) : Prop := forall a k b, o = a ++ k :: b -> forall j, dep j k -> In j a.
  Lemma topo_app o r : topo o -> (forall k, In k r -> forall j, dep j k -> In j o) -> topo (o ++ r).
  Proof.
    intros T H a k b E j J. destruct (Nat.lt_ge_cases (length a) (length o)) as [L|L].
    - assert (X : exists b', o = a ++ k :: b').
      { clear -E L. revert a E L. induction o as [|x o IH]; intros [|y a] E L; cbn in *; try lia; injection E as -> E; [exists o; reflexivity|].
        destruct (IH a E) as [b' ->]; [lia|]. exists b'; reflexivity. }
      destruct X as [b' X]. eapply T; eauto.
    - assert (X : exists c, a = o ++ c /\ r = c ++ k :: b).
      { clear -E L. revert a E L. induction o as [|x o IH]; intros a E L; [exists a; auto|]. destruct a as [|y a]; cbn in *; [lia|]. injection E as -> E.
        destruct (IH a E) as [c [-> ->]]; [lia|]. exists c; auto. }
      destruct X as [c [-> ->]]. apply in_app_iff. left. apply (H k); auto. apply in_app_iff; cbn; auto.
  Qed.
  Lemma filter_split_perm {A} (f : A -> bool) l : Permutation (filter f l ++ filter (fun x => negb (f x)) l) l.
  Proof. induction l as [|a l IH]; cbn; auto. destruct (f a); cbn; [constructor; auto|]. rewrite <- Permutation_middle. constructor; auto. Qed.
  Lemma fg_loop_ok : acyclic dep -> forall n ns o, length ns <= n -> NoDup ns -> topo o -> (forall k j, In k ns -> dep j k -> In j ns \/ In j o) ->
    exists o', fg_loop n ord g ns o = Some o' /\ Permutation o' (o ++ ns) /\ topo o'.
  Proof.
    intros AC. induction n as [|n IH]; intros ns o LE ND T CL.
    - destruct ns as [|k ns]; [|cbn in LE; lia]. exists o. cbn. rewrite app_nil_r. auto.
    - destruct ns as [|k0 ns0]; [exists o; cbn; rewrite app_nil_r; auto|]. set (ns := k0 :: ns0) in *.
      assert (F : fg_loop (S n) ord g ns o = fg_loop n ord g (filter (fun k => negb (mem k (ready o ns))) ns) (o ++ ord (ready o ns))) by reflexivity.
      rewrite F. clear F.
      assert (RNE : ready o ns <> []).
      { intros E. apply (has_minimal dep ns AC); [discriminate|]. intros x X.
        assert (NR : ~ In x (ready o ns)) by (rewrite E; tauto). rewrite In_ready in NR.
        destruct (filter (fun j => negb (mem j o) && negb (Nat.eqb j x)) (cols_of g x)) as [|z zs] eqn:Z.
        - exfalso. apply NR. apply In_ready. unfold ready. apply filter_In. rewrite Z. auto.
        - assert (Y : In z (z :: zs)) by (cbn; auto). rewrite <- Z in Y. apply filter_In in Y as [Y1 Y2]. apply Bool.andb_true_iff in Y2 as [Y2 Y3].
          apply Bool.negb_true_iff, mem_nIn in Y2. apply Bool.negb_true_iff, Nat.eqb_neq in Y3. exists z.
          assert (DZ : dep z x) by (split; auto). destruct (CL x z X DZ); [auto|contradiction]. }
      assert (RP : Permutation (ready o ns ++ filter (fun k => negb (mem k (ready o ns))) ns) ns).
      { etransitivity; [|apply (filter_split_perm (fun k => mem k (ready o ns)) ns)]. apply Permutation_app_tail.
        apply NoDup_Permutation; [apply NoDup_filter; exact ND|apply NoDup_filter; exact ND|]. intros x. rewrite filter_In, mem_In. split; [|tauto].
        intros X; split; auto. apply In_ready in X. tauto. }
      destruct (IH (filter (fun k => negb (mem k (ready o ns))) ns) (o ++ ord (ready o ns))) as [o' [E1 [E2 E3]]].
      + apply Permutation_length in RP. rewrite app_length in RP. destruct (ready o ns); [congruence|]. cbn [length] in RP. lia.
      + apply NoDup_filter; exact ND.
      + apply topo_app; auto. intros k K j J. apply (Permutation_in _ (ORD _)) in K. apply In_ready in K. apply K; exact J.
      + intros k j K J. apply filter_In in K as [K1 K2]. destruct (CL k j K1 J) as [X|X]; [|right; apply in_app_iff; auto].
        destruct (mem_spec j (ready o ns)) as [Y|Y].
        * right. apply in_app_iff. right. apply (Permutation_in _ (Permutation_sym (ORD _))); exact Y.
        * left. apply filter_In. split; auto. rewrite (proj2 (mem_nIn _ _) Y). reflexivity.
      + exists o'. split; [exact E1|]. split; [|exact E3]. rewrite E2, <- app_assoc. apply Permutation_app_head. rewrite ORD. exact RP.
  Qed.
End Fg.

Lemma In_rows g c r : In r (rows_of g c) <-> In (c, r) (c_edges g).
Proof.
  unfold rows_of. rewrite in_map_iff. split.
  - intros [[a b] [<- J]]. apply filter_In in J as [J1 J2]. cbn in *. apply Nat.eqb_eq in J2. subst; auto.
  - intros J. exists (c, r). split; auto. apply filter_In. split; auto. apply Nat.eqb_refl.
Qed.
Lemma In_cols g c r : In c (cols_of g r) <-> In (c, r) (c_edges g).
Proof.
  unfold cols_of. rewrite in_map_iff. split.
  - intros [[a b] [<- J]]. apply filter_In in J as [J1 J2]. cbn in *. apply Nat.eqb_eq in J2. subst; auto.
  - intros J. exists (c, r). split; auto. apply filter_In. split; auto. apply Nat.eqb_refl.
Qed.
Lemma largest_spec l : forall m i, let '(m', i') := largest l m i in
  m <= m' /\ (forall k t, In (k, t) l -> length t <= m') /\ ((m' = m /\ i' = i) \/ (exists k t, In (k, t) l /\ length t = m' /\ i' = Some k /\ m < m')).
Proof.
  induction l as [|[k t] l IH]; intros m i; cbn [largest In]; [split; [lia|]; split; [tauto|auto]|].
  destruct (Nat.ltb_spec m (length t)).
  - generalize (IH (length t) (Some k)); clear IH; cbv zeta; destruct (largest l (length t) (Some k)) as [m' i']; intros [I1 [I2 I3]]; split; [lia|]. split.
    + intros k' t' [E|J]; [injection E as <- <-; lia|eauto].
    + right. destruct I3 as [[-> ->]|[k' [t' [J1 [J2 [J3 J4]]]]]]; [exists k, t; auto|exists k', t'; repeat split; auto; lia].
  - generalize (IH m i); clear IH; cbv zeta; destruct (largest l m i) as [m' i']; intros [I1 [I2 I3]]; split; [lia|]. split.
    + intros k' t' [E|J]; [injection E as <- <-; lia|eauto].
    + destruct I3 as [[-> ->]|[k' [t' [J1 [J2 [J3 J4]]]]]]; [auto|right; exists k', t'; auto].
Qed.

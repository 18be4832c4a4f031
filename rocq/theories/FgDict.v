(** Dictionaries through JSON: serialized keys and values read back. *)
From Verif Require Import Num Base PyStr ProcModel FragModel EditModel FgModel.
From Coq Require Import Permutation.
Open Scope Qc_scope.
Open Scope string_scope.
Open Scope list_scope.
Local Arguments eqb : simpl never.

Section Put.
Context {K L V W : Type} `{EqB K} `{EqB L} (kf : K -> L) (vf : V -> W).
Definition put (acc : dict L W) (e : K * V) : dict L W := dset (kf (fst e)) (vf (snd e)) acc.
Lemma put_other d : forall acc s, (forall e, In e d -> kf (fst e) <> s) -> dget s (fold_left put d acc) = dget s acc.
Proof.
  induction d as [|e d IH]; intros acc s N; cbn; [reflexivity|]. rewrite IH by (intros e' J; apply N; right; exact J). unfold put. apply dget_dset_other. intros E. apply (N e (or_introl eq_refl)). symmetry. exact E.
Qed.
Lemma put_in d : NoDup (map (fun e => kf (fst e)) d) -> forall acc k v, In (k, v) d -> dget (kf k) (fold_left put d acc) = Some (vf v).
Proof.
  induction d as [|[k0 v0] d IH]; intros N acc k v J; [destruct J|]. cbn in N. inversion N as [|? ? NI N']; subst. destruct J as [[= -> ->]|J]; cbn [fold_left].
  - rewrite put_other; [unfold put; apply dget_dset_same|]. intros e J E. apply NI. cbn. rewrite <- E. apply (in_map (fun e => kf (fst e))), J.
  - apply (IH N' _ _ _ J).
Qed.
Lemma put_nodup d : forall acc, NoDup (dkeys acc) -> NoDup (dkeys (fold_left put d acc)).
Proof. induction d as [|e d IH]; intros acc N; cbn; [exact N|]. apply IH, NoDup_dset, N. Qed.
Lemma put_from d : forall acc s w, dget s (fold_left put d acc) = Some w -> dget s acc = Some w \/ exists k v, In (k, v) d /\ s = kf k /\ w = vf v.
Proof.
  induction d as [|[k0 v0] d IH]; intros acc s w E; cbn in E; [left; exact E|]. apply IH in E as [E|(k & v & J & A)]; [|right; exists k, v; split; [right; exact J|exact A]].
  unfold put in E. cbn in E. rewrite dget_dset in E. destruct (eqb_spec s (kf k0)) as [->|_]; [injection E as <-; right; exists k0, v0; split; [left; reflexivity|auto]|left; exact E].
Qed.
End Put.
Lemma nodup_keys {K L V} (kf : K -> L) (d : list (K * V)) : NoDup (map fst d) -> (forall a b, In a (map fst d) -> In b (map fst d) -> kf a = kf b -> a = b) -> NoDup (map (fun e => kf (fst e)) d).
Proof.
  induction d as [|[k v] d IH]; cbn; intros N I; [constructor|]. inversion N as [|? ? NI N']; subst. constructor; [|apply IH; [exact N'|intros a b A B; apply I; right; assumption]].
  intros J. apply in_map_iff in J as ([k' v'] & E & J). cbn in E. assert (k' = k) by (apply I; [right; apply in_map_iff; exists (k', v'); auto|left; reflexivity|exact E]). subst k'. apply NI, in_map_iff. exists (k, v'). auto.
Qed.

Lemma kinsert_perm {A} k (v : A) l : Permutation (kinsert k v l) ((k, v) :: l).
Proof. induction l as [|[k' v'] l IH]; cbn; [reflexivity|]. destruct (String.leb k k'); [reflexivity|]. rewrite IH. apply perm_swap. Qed.
Lemma sort_perm {A} (d : dict string A) : Permutation (sort_keys d) d.
Proof. induction d as [|[k v] d IH]; cbn; [reflexivity|]. rewrite kinsert_perm. constructor. exact IH. Qed.
Lemma sort_nodup {A} (d : dict string A) : NoDup (dkeys d) -> NoDup (dkeys (sort_keys d)).
Proof. intros N. eapply Permutation_NoDup; [|exact N]. apply Permutation_map. symmetry. apply sort_perm. Qed.
Lemma sort_get {A} (d : dict string A) k : NoDup (dkeys d) -> dget k (sort_keys d) = dget k d.
Proof.
  intros N. destruct (dget k d) as [v|] eqn:E.
  - apply In_dget; [apply sort_nodup, N|]. apply (Permutation_in _ (Permutation_sym (sort_perm d))). apply dget_In, E.
  - apply dget_None. intros J. apply dget_None in E. apply E. unfold dkeys in *. apply (Permutation_in _ (Permutation_map fst (sort_perm d))). exact J.
Qed.

(** * Exchange values *)
Definition ev_keys_ok (d : dict skey (option Qc)) : Prop := NoDup (dkeys d) /\ forall k, In k (dkeys d) -> k = K0 \/ k = K1 \/ exists s, k = KS s /\ has4 s = false /\ s <> "0" /\ s <> "1".
Lemma ev_key_inj d a b : ev_keys_ok d -> In a (dkeys d) -> In b (dkeys d) -> ev_key a = ev_key b -> a = b.
Proof. intros [_ O] A B. destruct (O a A) as [->|[->|(s & -> & _ & N0 & N1)]], (O b B) as [->|[->|(t & -> & _ & M0 & M1)]]; cbn; intros E; try reflexivity; try discriminate; try congruence. Qed.
Lemma ser_evs_get d : ev_keys_ok d -> (forall k v, dget k d = Some v -> dget (ev_key k) (sort_keys (ser_evs d)) = Some v) /\
  (forall s v, In (s, v) (sort_keys (ser_evs d)) -> exists k, dget k d = Some v /\ s = ev_key k) /\ NoDup (dkeys (sort_keys (ser_evs d))).
Proof.
  intros O. assert (N := proj1 O). assert (NS : NoDup (dkeys (ser_evs d))) by (apply (put_nodup ev_key (fun v : option Qc => v)); constructor).
  split; [|split; [|apply sort_nodup, NS]].
  - intros k v E. rewrite sort_get by exact NS. apply (put_in ev_key (fun v : option Qc => v)); [|apply dget_In, E]. apply nodup_keys; [exact N|]. intros a b. apply ev_key_inj, O.
  - intros s v J. apply (Permutation_in _ (sort_perm _)) in J. apply (In_dget s v _ NS) in J. apply (put_from ev_key (fun v : option Qc => v)) in J as [J|(k & v' & J & -> & ->)]; [discriminate|]. exists k. split; [apply In_dget; assumption|reflexivity].
Qed.
Definition load_evs (j acc : dict _ (option Qc)) : dict skey (option Qc) := fold_left (fun acc e => if eqb (fst e) "0" || eqb (fst e) "1" then acc else dset (load_key (fst e)) (snd e) acc) j acc.
Lemma load_evs_filter j : forall acc, load_evs j acc = fold_left (put load_key (fun v => v)) (filter (fun e => negb (eqb (fst e) "0" || eqb (fst e) "1")) j) acc.
Proof. unfold load_evs. induction j as [|e j IH]; intros acc; cbn; [reflexivity|]. destruct (_ || _); cbn; apply IH. Qed.
Lemma evs_round_trip d acc : ev_keys_ok d -> dget K0 acc = dget K0 d -> dget K1 acc = dget K1 d -> (forall k, k <> K0 -> k <> K1 -> dget k acc = None) ->
  forall k, dget k (load_evs (sort_keys (ser_evs d)) acc) = dget k d.
Proof.
  intros O A0 A1 AN k. destruct (ser_evs_get d O) as (G & F & N). rewrite load_evs_filter. set (E := filter _ _).
  assert (EL : forall s v, In (s, v) E -> exists t, s = t /\ dget (KS t) d = Some v /\ load_key s = KS t).
  { intros s v J. apply filter_In in J as [J X]. cbn in X. apply F in J as (k' & D & ->). assert (DK := dget_Some_key _ _ _ D). destruct (proj2 O k' DK) as [->|[->|(t & -> & H4 & _)]]; try discriminate. exists t. cbn. unfold load_key. rewrite H4. auto. }
  assert (NE : NoDup (map (fun e => load_key (fst e)) E)).
  { apply nodup_keys.
    - unfold E. clear - N. unfold dkeys in N. induction (sort_keys (ser_evs d)) as [|e l IH]; cbn; [constructor|]. cbn in N. inversion N as [|? ? NI N']; subst. destruct (negb _); cbn; [|apply IH, N']. constructor; [|apply IH, N'].
      intros J. apply NI. apply in_map_iff in J as (e' & X & J). apply filter_In in J as [J _]. apply in_map_iff. eauto.
    - intros a b A B LE. apply in_map_iff in A as ([a' va] & <- & A). apply in_map_iff in B as ([b' vb] & <- & B). apply EL in A as (t1 & E1 & _ & L1). apply EL in B as (t2 & E2 & _ & L2). cbn in *. congruence. }
  destruct (dget k d) as [v|] eqn:D.
  - assert (DK := dget_Some_key _ _ _ D). destruct (proj2 O k DK) as [->|[->|(t & -> & H4 & T0 & T1)]].
    + rewrite put_other; [congruence|]. intros [s w] J X. apply EL in J as (t & _ & _ & L). cbn in X. congruence.
    + rewrite put_other; [congruence|]. intros [s w] J X. apply EL in J as (t & _ & _ & L). cbn in X. congruence.
    + assert (L : load_key t = KS t) by (unfold load_key; rewrite H4; reflexivity). rewrite <- L. apply (put_in load_key (fun v : option Qc => v) E NE). apply filter_In. split; [apply dget_In, (G _ _ D)|]. cbn.
      destruct (eqb_spec t "0"); [contradiction|]. destruct (eqb_spec t "1"); [contradiction|]. reflexivity.
  - rewrite put_other.
    + destruct (eqb_spec k K0) as [->|N0]; [congruence|]. destruct (eqb_spec k K1) as [->|N1]; [congruence|]. apply AN; assumption.
    + intros [s w] J X. apply EL in J as (t & -> & DT & L). cbn in X. congruence.
Qed.

(** * Terminations *)
Definition term_keys_ok (d : dict (option skey) term) : Prop := NoDup (dkeys d) /\ forall k, In k (dkeys d) -> k = None \/ exists s, k = Some (KS s) /\ s <> "default" /\ s <> "null".
Lemma terms_round_trip (d : dict (option skey) term) (ser : term -> jterm) (des : jterm -> term) acc : term_keys_ok d -> (forall k t, In (k, t) d -> des (ser t) = t) ->
  (forall k, k <> None -> dget k acc = None) -> dget None d <> None ->
  forall k, dget k (fold_left (fun acc e => dset (load_tkey (fst e)) (des (snd e)) acc) (sort_keys (fold_left (fun acc e => dset (term_key (fst e)) (ser (snd e)) acc) d [])) acc) = dget k d.
Proof.
  intros O DS AN D0 k. assert (N := proj1 O). set (J := fold_left (fun (acc : dict string jterm) (e : option skey * term) => dset (term_key (fst e)) (ser (snd e)) acc) d []). assert (NJ : NoDup (dkeys J)) by (apply (put_nodup term_key ser); constructor). set (E := sort_keys J).
  assert (TI : forall a b, In a (dkeys d) -> In b (dkeys d) -> term_key a = term_key b -> a = b).
  { intros a b A B. destruct (proj2 O a A) as [->|(s & -> & N0 & N1)], (proj2 O b B) as [->|(t & -> & M0 & M1)]; cbn; intros X; congruence. }
  assert (EL : forall s w, In (s, w) E -> exists k' t, In (k', t) d /\ s = term_key k' /\ w = ser t /\ load_tkey s = k').
  { intros s w X. apply (Permutation_in _ (sort_perm _)) in X. apply (In_dget s w _ NJ) in X. apply (put_from term_key ser) in X as [X|(k' & t & X & -> & ->)]; [discriminate|]. exists k', t. split; [exact X|]. split; [reflexivity|]. split; [reflexivity|].
    assert (In k' (dkeys d)) as IK by (apply in_map_iff; exists (k', t); auto). destruct (proj2 O k' IK) as [->|(s & -> & N0 & N1)]; [reflexivity|]. cbn. unfold load_tkey. destruct (eqb_spec s "default"); [contradiction|]. destruct (eqb_spec s "null"); [contradiction|]. reflexivity. }
  assert (NE : NoDup (map (fun e => load_tkey (fst e)) E)).
  { apply nodup_keys; [apply sort_nodup, NJ|]. intros a b A B LE. apply in_map_iff in A as ([a' va] & <- & A). apply in_map_iff in B as ([b' vb] & <- & B). apply EL in A as (k1 & t1 & _ & -> & _ & L1). apply EL in B as (k2 & t2 & _ & -> & _ & L2). cbn in *. congruence. }
  destruct (dget k d) as [t|] eqn:D.
  - assert (X : In (term_key k, ser t) E). { apply (Permutation_in _ (Permutation_sym (sort_perm _))). apply dget_In. apply (put_in term_key ser); [apply nodup_keys; [exact N|exact TI]|apply dget_In, D]. }
    destruct (EL _ _ X) as (k' & t' & J' & E1 & E2 & L). assert (KK : k' = k). { apply TI; [apply in_map_iff; exists (k', t'); auto|exact (dget_Some_key _ _ _ D)|congruence]. } rewrite KK in *.
    rewrite <- L at 1. etransitivity; [exact (put_in load_tkey des E NE acc _ _ X)|]. f_equal. apply (DS k). apply dget_In, D.
  - etransitivity; [apply (put_other load_tkey des)|apply AN; congruence]. intros [s w] X EQ. apply EL in X as (k' & t & J' & _ & _ & L). cbn in EQ. rewrite L in EQ. subst k'. apply (In_dget _ _ _ N) in J'. congruence.
Qed.

(** Properties C01-C07 of SynList, stated on the methods' observable results. *)
From Verif Require Import Base PyStr SynListModel SynListProofs.
Open Scope string_scope.
Open Scope list_scope.

(** * Specification vocabulary *)

(** States reachable by public calls.  [allowed] (SynListProofs) excludes exactly: an [add_synonym] call that raises
    TermFound, and a [merge] naming its own dominant item; set iteration orders are arbitrary permutations. *)
Inductive reachable (ic : bool) : synlist -> Prop :=
| r_init : reachable ic (empty ic)
| r_step s o : reachable ic s -> allowed s o -> reachable ic (fst (step s o)).

Definition coherent (s : synlist) : Prop :=
  (* every listed term is found at its item *)
  (forall i ts t, synonym_set s i = Some (Some ts) -> In t ts -> index s (TStr t) = Ok (Some i)) /\
  (* every known key is the sanitized form of a term of the (live) item it points to *)
  (forall k, In k (all_terms s) -> exists i ts t, synonym_set s i = Some (Some ts) /\ In t ts /\ sanitize s t = k /\
                                                   index s (TStr k) = Ok (Some i)) /\
  (* no two items share a term *)
  (forall i j ts us t u, synonym_set s i = Some (Some ts) -> synonym_set s j = Some (Some us) ->
      In t ts -> In u us -> sanitize s t = sanitize s u -> i = j) /\
  (* canonical names resolve to their item *)
  (forall i n, item_name s i = Some n -> index s (TStr n) = Ok (Some i)).

Lemma reachable_Inv ic s : reachable ic s -> Inv s.
Proof. induction 1 as [|s o R IH A]; [apply Inv_empty|apply step_Inv; auto]. Qed.

Lemma synonym_set_live s i ts : synonym_set s i = Some (Some ts) <-> exists it, live s i it ts.
Proof.
  unfold synonym_set, live. destruct (nth_error (s_items s) i) as [it|]; cbn; split.
  - intros E. exists it. split; [reflexivity|congruence].
  - intros [it' [E1 E2]]. congruence.
  - discriminate.
  - intros [it' [E1 E2]]. discriminate.
Qed.
Lemma index_str s t i : index s (TStr t) = Ok (Some i) <-> dget (sanitize s t) (s_dict s) = Some i.
Proof. unfold index. cbn. destruct (dget (sanitize s t) (s_dict s)); split; congruence. Qed.
Lemma index_str_none s t : index s (TStr t) = Ok None <-> dget (sanitize s t) (s_dict s) = None.
Proof. unfold index. cbn. destruct (dget (sanitize s t) (s_dict s)); split; congruence. Qed.

(** * C01 *)
Theorem C01_synlist_coherent ic s : reachable ic s -> coherent s.
Proof.
  intros R. pose proof (reachable_Inv ic s R) as V. split; [|split; [|split]].
  - intros i ts t S I. apply synonym_set_live in S as [it L]. apply index_str. apply (inv_terms s V i it ts t L I).
  - intros k I. destruct (dget_key_Some k (s_dict s) I) as [i D]. destruct (inv_dict s V k i D) as (it & ts & t & L & It & Et).
    exists i, ts, t. split; [apply synonym_set_live; eauto|]. split; [exact It|]. split; [exact Et|].
    apply index_str. rewrite <- Et, sanitize_idem, Et. exact D.
  - intros i j ts us t u A B It Iu E. apply synonym_set_live in A as [it L]. apply synonym_set_live in B as [jt L2].
    pose proof (inv_terms s V _ _ _ _ L It) as D1. pose proof (inv_terms s V _ _ _ _ L2 Iu) as D2. congruence.
  - intros i n H. unfold item_name in H. destruct (nth_error (s_items s) i) as [it|] eqn:E; [|discriminate].
    apply index_str. apply (inv_name s V i it n E H).
Qed.
Print Assumptions C01_synlist_coherent.

Definition ex_ops : list op :=
  [OAddSet (fun l => l) [TStr "Carbon Dioxide"; TStr "CO2 "] true; OAddTerm (TStr "methane");
   OAddSet (fun l => l) [TStr "ch4"; TStr "Methane"; TNone] true; OAddTerm (TStr "DDT");
   OMerge (fun l => l) (TStr "co2") [TStr "METHANE"]].
Definition ex_state : synlist := fold_left (fun s o => fst (step s o)) ex_ops (empty true).
Lemma lawful_id {A} : lawful (fun l : list A => l).
Proof. intros l. apply Permutation_refl. Qed.
Example ex_state_reachable : reachable true ex_state.
Proof.
  unfold ex_state, ex_ops. cbn [fold_left].
  apply r_step; [|cbn; split; [apply lawful_id|]].
  - apply r_step; [|exact I]. apply r_step; [|apply lawful_id]. apply r_step; [|exact I]. apply r_step; [|apply lawful_id].
    apply r_init.
  - intros (i & t & A & [<-|[]] & B). vm_compute in A, B. congruence.
Qed.
Example ex_state_shape : synonym_set ex_state 0 = Some (Some ["Carbon Dioxide"; "CO2 "; "methane"; "ch4"]) /\
  synonym_set ex_state 1 = Some None /\ synonym_set ex_state 2 = Some (Some ["DDT"]) /\ index ex_state (TStr " ch4") = Ok (Some 0).
Proof. vm_compute. repeat split. Qed.

(** Without the guard the claim fails: a rejected add_synonym leaves its term in two items. *)
Theorem C01_after_termfound_refuted :
  exists s i j t ts us, reachable false s /\ snd (step s (OAddSynonym i (TStr t))) = Raised TermFound /\
    let s' := fst (step s (OAddSynonym i (TStr t))) in
    i <> j /\ synonym_set s' i = Some (Some ts) /\ synonym_set s' j = Some (Some us) /\ In t ts /\ In t us.
Proof.
  exists (fst (step (fst (step (empty false) (OAddTerm (TStr "a")))) (OAddTerm (TStr "b")))), 0, 1, "b", ["a"; "b"], ["b"].
  split; [apply r_step; [apply r_step; [apply r_init|exact I]|exact I]|].
  vm_compute. repeat split; try discriminate; auto.
Qed.
Print Assumptions C01_after_termfound_refuted.

(** * C02 *)
Lemma merge_all_err ms into : forall s s' e, ~ In into ms -> Inv s -> (forall m, In m ms -> m < length (s_items s)) ->
  into < length (s_items s) ->
  merge_all s ms into = (s', Err e) -> e = TypeError \/ s' = s.
Proof.
  induction ms as [|m ms IH]; intros s s' e NI V LM LI E; cbn in E; [discriminate|].
  assert (N : m <> into) by (intros ->; apply NI; cbn; auto).
  destruct (merge1 s m into) as [s1 [[]|e1]] eqn:E1.
  - destruct (merge1_ok_live _ _ _ _ E1) as [(it & ts & L) (mt & mts & Lm)].
    destruct (merge1_spec s m into it ts mt mts V N L Lm) as (s1' & E1' & X & V1). rewrite E1 in E1'. injection E1' as <-.
    left. clear IH.
    assert (G : forall ms s1 it1 ts1, ~ In into ms -> Inv s1 -> (forall m, In m ms -> m < length (s_items s1)) ->
       live s1 into it1 ts1 -> forall s' e, merge_all s1 ms into = (s', Err e) -> e = TypeError).
    { clear. induction ms as [|m ms IH]; intros s1 it1 ts1 NI V LM L s' e E; cbn in E; [discriminate|].
      assert (N : m <> into) by (intros ->; apply NI; cbn; auto).
      destruct (merge1 s1 m into) as [s2 [[]|e1]] eqn:E1.
      - destruct (merge1_ok_live _ _ _ _ E1) as [_ (mt & mts & Lm)].
        destruct (merge1_spec s1 m into it1 ts1 mt mts V N L Lm) as (s2' & E2' & X & V1). rewrite E1 in E2'. injection E2' as <-.
        destruct (mg_into _ _ _ _ X) as (_ & it2 & _ & ts2 & _ & L2 & _).
        eapply IH with (s1 := s2); eauto.
        + intros I; apply NI; cbn; auto.
        + intros m' Im. rewrite (mg_len _ _ _ _ X). apply LM; cbn; auto.
      - injection E as <- <-. unfold merge1 in E1. destruct L as [L1 L2]. rewrite L1 in E1.
        destruct (nth_error (s_items s1) m) as [mt|] eqn:Em; [|apply nth_error_None in Em; specialize (LM m); cbn in LM; lia].
        rewrite L2 in E1. destruct (i_syns mt); [discriminate|]. congruence. }
    destruct (mg_into _ _ _ _ X) as (_ & it2 & _ & ts2 & _ & L2 & _).
    eapply (G ms s1 it2 ts2); eauto.
    + intros I; apply NI; cbn; auto.
    + intros m' Im. rewrite (mg_len _ _ _ _ X). apply LM; cbn; auto.
  - injection E as <- <-. right. unfold merge1 in E1.
    destruct (nth_error (s_items s) into) as [it|]; [|congruence].
    destruct (nth_error (s_items s) m) as [mt|]; [|congruence].
    destruct (i_syns it); [|congruence]. destruct (i_syns mt); congruence.
Qed.
Lemma get_index_lt s t i : Inv s -> get_index s t = Ok i -> i < length (s_items s).
Proof.
  intros V E. destruct t as [|k|n]; cbn in E; [discriminate| |].
  - destruct (dget (sanitize s k) (s_dict s)) eqn:D; [|discriminate]. injection E as ->.
    destruct (inv_dict s V _ _ D) as (it & ts & t & [L _] & _). eapply nth_error_lt; eauto.
  - destruct (Nat.ltb_spec n (length (s_items s))); [|discriminate]. congruence.
Qed.

(** Every rejected call leaves the list unchanged, except add_synonym raising TermFound and a merge that names
    (by integer) an item that was already merged away, which raises TypeError half-way. *)
Theorem C02_rejected_unchanged_partial ic s o s' e :
  reachable ic s -> allowed s o -> step s o = (s', Raised e) -> e <> TypeError -> s' = s.
Proof.
  intros R A E NT. pose proof (reachable_Inv ic s R) as V.
  destruct o as [t|ord it m|i t|n|t x|ordn d ts]; cbn in *.
  - pose proof (add_term_no_err s t) as H. destruct (add_term s t) as [s1 [j|e1]]; cbn in *; [discriminate|].
    injection E as <- <-. apply (H e1 eq_refl).
  - pose proof (add_set_err_same ord s it m) as H. destruct (add_set ord s it m) as [s1 [j|e1]]; cbn in *; [discriminate|].
    injection E as <- <-. apply (H e1 V A eq_refl).
  - pose proof (add_synonym_cases s i t) as H. cbv zeta in H. destruct (add_synonym s i t) as [s1 [j|e1]]; cbn in *; [discriminate|].
    injection E as <- <-. destruct e1; auto. congruence.
  - unfold set_name in E. destruct (get_index s (TStr n)); cbn in E; congruence.
  - unfold set_entity in E. destruct (get_index s t) as [i|]; cbn in E; [|congruence].
    destruct (nth_error (s_items s) i) as [it|]; [|cbn in E; congruence].
    destruct (i_entity it), x; cbn in E; congruence.
  - destruct A as [A1 A2]. unfold merge in E. destruct (get_index s d) as [into|] eqn:Ed; [|cbn in E; congruence].
    destruct (indices_of s ts) as [l|] eqn:El; [|cbn in E; congruence].
    destruct (merge_all s (ordn (set_of l)) into) as [s1 [[]|e1]] eqn:Em; cbn in E; [discriminate|]. injection E as <- <-.
    assert (MI : forall i, In i (ordn (set_of l)) -> exists t, In t ts /\ get_index s t = Ok i).
    { intros i I. apply (indices_of_In s ts l i El). apply (In_set_of i l). apply (Permutation_in _ (A1 _)); exact I. }
    assert (NI : ~ In into (ordn (set_of l))).
    { intros I. destruct (MI _ I) as (t & It & Et). apply A2. exists into, t. auto. }
    destruct (merge_all_err _ _ s s1 e1 NI V) as [Q|Q]; auto.
    + intros m I. destruct (MI m I) as (t & _ & Et). eapply get_index_lt; eauto.
    + eapply get_index_lt; eauto.
    + congruence.
Qed.
Print Assumptions C02_rejected_unchanged_partial.

(** What the rejected add_synonym really does: lookups, names and all other sets are untouched, the term is left in the set. *)
Theorem C02_termfound_effect ic s i t s' :
  reachable ic s -> step s (OAddSynonym i (TStr t)) = (s', Raised TermFound) ->
  (forall x, index s' x = index s x) /\ (forall j, item_name s' j = item_name s j) /\
  (forall j, j <> i -> synonym_set s' j = synonym_set s j) /\
  exists ts ts' j, synonym_set s i = Some (Some ts) /\ synonym_set s' i = Some (Some ts') /\ j <> i /\ index s (TStr t) = Ok (Some j) /\
      (forall u, In u ts' <-> u = t \/ In u ts).
Proof.
  intros R E. unfold step in E. pose proof (add_synonym_cases s i (TStr t)) as H. cbv zeta in H.
  destruct (add_synonym s i (TStr t)) as [s1 [u|e]]; cbn [fst snd out_of] in *; [discriminate|]. injection E as <- ->.
  destruct H as (it & ts & k & j & Ek & [L1 L2] & NE & D & Nj & ->). injection Ek as <-.
  assert (NL : forall f, length (upd i f (s_items s)) = length (s_items s)) by (intros; apply length_upd).
  split; [|split; [|split]].
  - intros x. unfold index, get_index. cbn. rewrite NL. reflexivity.
  - intros j'. unfold item_name. cbn. rewrite nth_upd. destruct (Nat.eqb i j'); auto. destruct (nth_error (s_items s) j'); reflexivity.
  - intros j' N. unfold synonym_set. cbn. rewrite nth_upd_other by auto. reflexivity.
  - exists ts, (set_add t ts), j. unfold synonym_set. cbn. rewrite L1. cbn. rewrite L2.
    rewrite (nth_upd_same _ _ _ _ L1). cbn. split; [reflexivity|]. split; [reflexivity|]. split; [auto|]. split; [apply index_str; exact D|].
    intros u. rewrite In_set_add. tauto.
Qed.
Print Assumptions C02_termfound_effect.

Theorem C02_add_synonym_refuted :
  exists s i t s', reachable false s /\ step s (OAddSynonym i (TStr t)) = (s', Raised TermFound) /\
    synonym_set s' i <> synonym_set s i.
Proof.
  exists (fst (step (fst (step (empty false) (OAddTerm (TStr "a")))) (OAddTerm (TStr "b")))), 0, "b". eexists.
  split; [apply r_step; [apply r_step; [apply r_init|exact I]|exact I]|].
  vm_compute. split; [reflexivity|discriminate].
Qed.
Print Assumptions C02_add_synonym_refuted.

(** A merge naming a merged-away item by index raises TypeError after merging the others. *)
Theorem C02_merge_dead_refuted :
  exists s ordn d ts s', reachable false s /\ lawful ordn /\ ~ self_merge s d ts /\
    step s (OMerge ordn d ts) = (s', Raised TypeError) /\ s' <> s.
Proof.
  exists (fold_left (fun s o => fst (step s o)) [OAddTerm (TStr "a"); OAddTerm (TStr "b"); OAddTerm (TStr "c"); OAddTerm (TStr "d");
            OMerge (fun l => l) (TStr "d") [TStr "c"]] (empty false)), (fun l => l), (TStr "a"), [TStr "b"; TInt 2].
  eexists. split; [|split; [apply lawful_id|split]].
  - cbn [fold_left]. apply r_step.
    + do 4 (apply r_step; [|exact I]). apply r_init.
    + cbn. split; [apply lawful_id|]. intros (i & t & A & [<-|[]] & B). vm_compute in A, B. congruence.
  - intros (i & t & A & [<-|[<-|[]]] & B); vm_compute in A, B; congruence.
  - vm_compute. split; [reflexivity|discriminate].
Qed.
Print Assumptions C02_merge_dead_refuted.

Example C02_nonvacuous :
  step ex_state (OAddSet (fun l => l) [TStr "ddt"; TStr "ch4"; TStr "new"] true) = (ex_state, Raised InconsistentIndices).
Proof. vm_compute. reflexivity. Qed.

(** * C03 *)
Definition plain (it : list term) : Prop := forall n, ~ In (TInt n) it.
Definition known_at (s : synlist) (it : list term) (i : nat) : Prop := exists t, In (TStr t) it /\ index s (TStr t) = Ok (Some i).
Definition fresh_in (s : synlist) (it : list term) (u : string) : Prop :=
  In (TStr u) it /\ u <> "" /\ index s (TStr u) = Ok None.
(** [s'] is [s] with exactly the unknown terms of [it] put in item [i] (an item of [s], or a new one at the end). *)
Definition terms_added (s s' : synlist) (it : list term) (i : nat) : Prop :=
  (forall t, index s' (TStr t) = match index s (TStr t) with
                                 | Ok None => if existsb (fun u => match u with TStr u => (negb (String.eqb u "") && String.eqb (sanitize s u) (sanitize s t))%bool | _ => false end) it
                                              then Ok (Some i) else Ok None
                                 | r => r end) /\
  (forall j, j <> i -> j < length (s_items s) -> synonym_set s' j = synonym_set s j /\ item_name s' j = item_name s j /\ item_entity s' j = item_entity s j) /\
  length (s_items s') = Nat.max (length (s_items s)) (S i) /\
  (exists ts ts', (if Nat.ltb i (length (s_items s)) then synonym_set s i = Some (Some ts) else ts = []) /\
     synonym_set s' i = Some (Some ts') /\ forall t, In t ts' <-> In t ts \/ fresh_in s it t) /\
  (forall n, item_name s i = Some n -> item_name s' i = Some n) /\
  (item_name s i = None -> (exists u, fresh_in s it u) -> exists u, item_name s' i = Some u /\ fresh_in s it u) /\
  item_entity s' i = item_entity s i.

Lemma unknown_fresh s it u : unknown s it (TStr u) /\ u <> "" <-> fresh_in s it u.
Proof.
  unfold unknown, fresh_in. rewrite index_str_none. cbn. destruct (dget (sanitize s u) (s_dict s)); split; intros; intuition; congruence.
Qed.
Lemma matched_known s it i : plain it -> matched s it i <-> known_at s it i.
Proof.
  intros P. unfold matched, known_at. split.
  - intros [t [It Et]]. destruct t as [|k|n]; cbn in Et; [discriminate| |exfalso; apply (P n It)].
    exists k. split; auto. apply index_str. destruct (dget (sanitize s k) (s_dict s)); congruence.
  - intros [k [Ik Ek]]. exists (TStr k). split; auto. apply index_str in Ek. cbn. rewrite Ek. reflexivity.
Qed.

Lemma ext_terms_added s0 s s' i it us :
  (s0 = s \/ (s0 = fst (new_item s None) /\ i = length (s_items s))) -> (s0 = s -> i < length (s_items s)) ->
  (exists e ts, live s0 i e ts) ->
  ext s0 s' i us -> (forall u, In u us <-> unknown s it (TStr u) /\ u <> "") -> terms_added s s' it i.
Proof.
  intros S0 LI (e & ts & L) X IU.
  assert (D0 : s_dict s0 = s_dict s) by (destruct S0 as [->|[-> _]]; reflexivity).
  assert (IC0 : s_ic s0 = s_ic s) by (destruct S0 as [->|[-> _]]; reflexivity).
  assert (O0 : forall j, j < length (s_items s) -> nth_error (s_items s0) j = nth_error (s_items s) j).
  { intros j Lj. destruct S0 as [->|[-> _]]; [reflexivity|]. cbn. apply nth_error_app1; exact Lj. }
  assert (N0 : item_name s i = i_name e /\ item_entity s i = i_entity e).
  { unfold item_name, item_entity. destruct L as [L1 L2]. destruct S0 as [->|[-> ->]].
    - rewrite L1. auto.
    - rewrite (proj2 (nth_error_None _ _)) by lia. cbn in L1. rewrite nth_error_snoc, Nat.eqb_refl in L1. injection L1 as <-. auto. }
  destruct (ext_item _ _ _ _ X e ts L) as (e' & ts' & L' & I' & ND' & E' & A' & B' & C').
  assert (FR : forall u, In u us <-> fresh_in s it u) by (intros u; rewrite IU; apply unknown_fresh).
  assert (I2 : item_name s' i = i_name e' /\ item_entity s' i = i_entity e').
  { unfold item_name, item_entity. destruct L' as [L1' _]. rewrite L1'. auto. }
  split; [|split; [|split; [|split; [|split; [|split]]]]].
  - intros t. unfold index. cbn [get_index]. rewrite (sanitize_eq s' s0 t (ext_ic _ _ _ _ X)), (sanitize_eq s0 s t IC0).
    rewrite (ext_dict _ _ _ _ X), D0. rewrite (map_sanitize_ic s s0 us IC0).
    destruct (existsb _ it) eqn:EX.
    + apply existsb_exists in EX as [u0 [Iu0 B]]. destruct u0 as [|u|]; try discriminate.
      apply andb_prop in B as [B1 B2]. apply negb_true_iff in B1. apply String.eqb_neq in B1. apply String.eqb_eq in B2.
      destruct (dget (sanitize s t) (s_dict s)) as [j|] eqn:D.
      * destruct (mem_spec (sanitize s t) (map (sanitize s) us)) as [M|M]; auto. exfalso.
        apply in_map_iff in M as [v [Ev Iv]]. apply FR in Iv as (_ & _ & Fv). apply index_str_none in Fv. congruence.
      * destruct (mem_spec (sanitize s t) (map (sanitize s) us)) as [M|M]; auto. exfalso. apply M.
        rewrite <- B2. apply in_map. apply FR. split; [exact Iu0|]. split; [exact B1|]. apply index_str_none. congruence.
    + destruct (mem_spec (sanitize s t) (map (sanitize s) us)) as [M|M].
      * apply in_map_iff in M as [v [Ev Iv]]. apply FR in Iv as (Iv & Nv & Fv). exfalso.
        rewrite <- not_true_iff_false in EX. apply EX. apply existsb_exists. exists (TStr v). split; auto.
        apply andb_true_iff. split; [apply negb_true_iff, String.eqb_neq; exact Nv|apply String.eqb_eq; exact Ev].
      * destruct (dget (sanitize s t) (s_dict s)); reflexivity.
  - intros j Nj Lj. unfold synonym_set, item_name, item_entity. rewrite (ext_other _ _ _ _ X) by exact Nj. rewrite O0 by exact Lj. auto.
  - rewrite (ext_len _ _ _ _ X). destruct S0 as [->|[-> ->]].
    + specialize (LI eq_refl). lia.
    + cbn. rewrite app_length. cbn. lia.
  - exists ts, ts'. split; [|split].
    + destruct S0 as [->|[-> ->]].
      * specialize (LI eq_refl). rewrite (proj2 (Nat.ltb_lt _ _) LI). apply synonym_set_live; eauto.
      * rewrite Nat.ltb_irrefl. destruct L as [L1 L2]. cbn in L1. rewrite nth_error_snoc, Nat.eqb_refl in L1. injection L1 as <-. cbn in L2. congruence.
    + apply synonym_set_live; eauto.
    + intros t. rewrite I', FR. reflexivity.
  - intros n Hn. destruct I2 as [-> _]. apply A'. destruct N0; congruence.
  - intros Hn [u Fu]. destruct I2 as [I2 _]. rewrite I2. destruct N0 as [N0 _]. rewrite N0 in Hn.
    assert (P : i_name e' <> None). { apply C'; [exact Hn|]. exists u. split; [apply FR; exact Fu|].
      rewrite D0, (sanitize_eq s0 s u IC0). apply index_str_none. apply Fu. }
    destruct (B' Hn) as [Q|[m [Q1 Q2]]]; [congruence|]. exists m. split; [exact Q1|apply FR; exact Q2].
  - destruct I2 as [_ ->]. destruct N0 as [_ ->]. exact E'.
Qed.

Theorem C03_add_set ic s ord it mrg s' r :
  reachable ic s -> lawful ord -> plain it -> add_set ord s it mrg = (s', r) ->
  (* inconsistent *)
  (r = Err InconsistentIndices <-> mrg = true /\ exists i j, i <> j /\ known_at s it i /\ known_at s it j) /\
  (forall e, r = Err e -> e = InconsistentIndices /\ s' = s) /\
  (* a single matched item receives the unknown terms *)
  (forall i, mrg = true -> known_at s it i -> (forall j, known_at s it j -> j = i) -> r = Ok (Some i) /\ terms_added s s' it i) /\
  (* nothing matched, or merge off: unknown terms (or a None / empty entry) open one new item *)
  (mrg = false \/ (forall i, ~ known_at s it i) ->
     ((forall t, In t it -> exists i, index s t = Ok (Some i)) /\ r = Ok None /\ s' = s) \/
     ((exists t, In t it /\ index s t = Ok None) /\ r = Ok (Some (length (s_items s))) /\ terms_added s s' it (length (s_items s)))).
Proof.
  intros R LO P E. pose proof (reachable_Inv ic s R) as V.
  pose proof (add_set_spec ord s it mrg V LO) as C. rewrite E in C. cbn [fst snd] in C.
  assert (KU : forall t, unknown s it t <-> In t it /\ index s t = Ok None).
  { intros t. unfold unknown, index. split; intros [A B]; split; auto.
    - rewrite B. reflexivity.
    - destruct (get_index s t) as [|[]]; congruence. }
  assert (KK : forall t, In t it -> ~ unknown s it t -> exists i, index s t = Ok (Some i)).
  { intros t It NU. unfold unknown in NU. unfold index. destruct t as [|k|n]; [exfalso; apply NU; auto| |exfalso; apply (P n It)].
    cbn in *. destruct (dget (sanitize s k) (s_dict s)) as [i|]; [exists i; reflexivity|exfalso; apply NU; auto]. }
  clear E. destruct C as [[n [I _]]|i j M N A B|i M A U D X|i M A U D X|s' i us M A U L X IU V1|M U|s' us M U X IU V1]; try subst mrg.
  - exfalso. apply (P n I).
  - apply (matched_known s it i P) in A. apply (matched_known s it j P) in B.
    split; [split; [intros _; split; [reflexivity|exists i, j; auto]|reflexivity]|].
    split; [intros e Ee; split; congruence|]. split.
    + intros k _ K1 K2. exfalso. apply N. rewrite (K2 i A), (K2 j B). reflexivity.
    + intros [F|F]; [discriminate|]. exfalso. apply (F i A).
  - exfalso. apply (matched_known s it i P) in A. destruct A as [t [It Et]]. apply index_str in Et.
    destruct (inv_dict s V _ _ Et) as (? & ? & ? & L & _). rewrite (proj2 (synonym_set_live s i x0)) in D by eauto. discriminate.
  - exfalso. apply (matched_known s it i P) in A. destruct A as [t [It Et]]. apply index_str in Et.
    destruct (inv_dict s V _ _ Et) as (? & ? & ? & L & _). rewrite (proj2 (synonym_set_live s i x0)) in D by eauto. discriminate.
  - apply (matched_known s it i P) in A.
    assert (LI : i < length (s_items s)) by (destruct L as (? & ? & L1 & _); eapply nth_error_lt; eauto).
    assert (T : terms_added s s' it i) by (eapply ext_terms_added; eauto).
    split; [split; [discriminate|]|].
    { intros (_ & j & k & N & K1 & K2). exfalso. apply N. rewrite (U j), (U k); auto; apply (matched_known s it _ P); auto. }
    split; [discriminate|]. split.
    + intros j _ K1 _. rewrite (U j) by (apply (matched_known s it j P); exact K1). auto.
    + intros [F|F]; [discriminate|]. exfalso. apply (F i A).
  - split; [split; [discriminate|]|].
    { intros (Em & j & k & N & K1 & K2). exfalso. apply (M Em j). apply (matched_known s it j P); exact K1. }
    split; [discriminate|]. split.
    + intros j Em K1 _. exfalso. apply (M Em j). apply (matched_known s it j P); exact K1.
    + intros _. left. split; [intros t It; apply KK; auto|auto].
  - assert (T : terms_added s s' it (length (s_items s))).
    { eapply ext_terms_added with (s0 := fst (new_item s None)); eauto.
      - intros Q. exfalso. apply (f_equal (fun z => length (s_items z))) in Q. cbn in Q. rewrite app_length in Q. cbn in Q. lia.
      - eexists _, _. apply (new_item_live s None). }
    split; [split; [discriminate|]|].
    { intros (Em & j & k & N & K1 & K2). exfalso. apply (M Em j). apply (matched_known s it j P); exact K1. }
    split; [discriminate|]. split.
    + intros j Em K1 _. exfalso. apply (M Em j). apply (matched_known s it j P); exact K1.
    + intros _. right. split; [|auto]. destruct U as [t U]. exists t. apply KU; exact U.
Qed.
Print Assumptions C03_add_set.
Example C03_nonvacuous :
  plain [TStr "ddt"; TStr "clofenotane"; TNone] /\ known_at ex_state [TStr "ddt"; TStr "clofenotane"; TNone] 2 /\
  fresh_in ex_state [TStr "ddt"; TStr "clofenotane"; TNone] "clofenotane" /\
  snd (add_set (@rev term) ex_state [TStr "ddt"; TStr "clofenotane"; TNone] true) = Ok (Some 2).
Proof.
  split; [intros n [E|[E|[E|[]]]]; discriminate|]. split; [exists "ddt"; vm_compute; auto|].
  split; [vm_compute; repeat split; auto; discriminate|vm_compute; reflexivity].
Qed.

(** * C04 *)
Theorem C04_merge_partial ic s ordn d ts s' :
  reachable ic s -> lawful ordn -> ~ self_merge s d ts -> merge ordn s d ts = (s', Ok tt) ->
  exists into, get_index s d = Ok into /\
  (* synonymy afterwards *)
  (forall a b, are_synonyms s' a b = true <->
      are_synonyms s a b = true \/
      (exists i j, index s (TStr a) = Ok (Some i) /\ index s (TStr b) = Ok (Some j) /\ in_group s d ts i /\ in_group s d ts j)) /\
  (* nothing becomes (un)known, merged items move to the dominant index, others stay *)
  (forall a, match index s (TStr a) with
             | Ok (Some i) => exists i', index s' (TStr a) = Ok (Some i') /\ (in_group s d ts i /\ i' = into \/ ~ in_group s d ts i /\ i' = i)
             | r => index s' (TStr a) = r end) /\
  item_name s' into = item_name s into /\
  (forall us, synonym_set s' into = Some (Some us) -> forall t, In t us <-> exists i ts0, in_group s d ts i /\ synonym_set s i = Some (Some ts0) /\ In t ts0) /\
  (forall j, ~ in_group s d ts j -> synonym_set s' j = synonym_set s j /\ item_name s' j = item_name s j).
Proof.
  intros R LO NS E. pose proof (reachable_Inv ic s R) as V.
  destruct (merge_ok ordn s d ts s' V LO NS E) as (into & ms & Ed & ND & NI & IM & H). exists into. split; [exact Ed|].
  assert (IG : forall i, in_group s d ts i <-> i = into \/ In i ms).
  { intros i. unfold in_group. rewrite IM. split.
    - intros [t [[<-|It] Et]]; [left; congruence|right; eauto].
    - intros [->|[t [It Et]]]; [exists d; cbn; auto|exists t; cbn; auto]. }
  assert (IGD : forall i, {in_group s d ts i} + {~ in_group s d ts i}).
  { intros i. destruct (Nat.eq_dec i into) as [->|N]; [left; apply IG; auto|].
    destruct (mem i ms) eqn:M; [left; apply IG; right; apply mem_In; exact M|right; rewrite IG; apply mem_nIn in M; tauto]. }
  assert (DD : s_ic s' = s_ic s /\ forall k, dget k (s_dict s') = match dget k (s_dict s) with
                                            | Some j => Some (if mem j ms then into else j) | None => None end).
  { destruct H as [[-> ->]|[X _]]; [|split; apply X]. split; auto. intros k. cbn. destruct (dget k (s_dict s)); reflexivity. }
  destruct DD as [IC DD].
  assert (IX : forall a, dget (sanitize s' a) (s_dict s') = match dget (sanitize s a) (s_dict s) with
                                            | Some j => Some (if mem j ms then into else j) | None => None end).
  { intros a. rewrite (sanitize_eq s' s a IC). apply DD. }
  split; [|split; [|split; [|split]]].
  - intros a b. rewrite !are_syn_iff_index. rewrite !IX. split.
    + intros [i [A B]]. destruct (dget (sanitize s a) (s_dict s)) as [ia|] eqn:Da; [|discriminate].
      destruct (dget (sanitize s b) (s_dict s)) as [ib|] eqn:Db; [|discriminate].
      injection A as A. injection B as B.
      destruct (mem_spec ia ms) as [Ma|Ma], (mem_spec ib ms) as [Mb|Mb].
      * right. exists ia, ib. rewrite !index_str, !IG. auto 10.
      * right. exists ia, ib. rewrite !index_str, !IG. subst. auto 10.
      * right. exists ia, ib. rewrite !index_str, !IG. subst. auto 10.
      * left. exists ia. split; congruence.
    + intros [[i [A B]]|(i & j & A & B & Gi & Gj)].
      * rewrite A, B. eauto.
      * apply index_str in A. apply index_str in B. rewrite A, B. exists into.
        apply IG in Gi. apply IG in Gj.
        split; f_equal; [destruct (mem_spec i ms)|destruct (mem_spec j ms)]; auto; tauto.
  - intros a. unfold index at 1. cbn [get_index]. specialize (IX a).
    destruct (dget (sanitize s a) (s_dict s)) as [i|]; [|apply index_str_none; exact IX].
    eexists. split; [apply index_str; exact IX|]. destruct (mem_spec i ms) as [M|M].
    + left. split; [apply IG; auto|reflexivity].
    + destruct (Nat.eq_dec i into) as [->|N]; [left; split; [apply IG; auto|reflexivity]|right]. split; auto. rewrite IG. tauto.
  - destruct H as [[-> ->]|[X _]]; [reflexivity|].
    destruct (mg_into _ _ _ _ X) as (it & it' & us & us' & [L1 _] & [L1' _] & N & _). unfold item_name. rewrite L1, L1'. exact N.
  - intros us S t. destruct H as [[-> ->]|[X _]].
    + split.
      * intros I. exists into, us. rewrite IG. auto.
      * intros (i & ts0 & G & S0 & I). apply IG in G as [->|[]]. congruence.
    + destruct (mg_into _ _ _ _ X) as (it & it' & vs & us' & L & L' & N & _ & I').
      assert (us' = us). { assert (Y : synonym_set s' into = Some (Some us')) by (apply synonym_set_live; eauto). congruence. } subst us'.
      rewrite I'. split.
      * intros [I|(m & mt & mts & Im & Lm & I)].
        -- exists into, vs. split; [apply IG; auto|]. split; [apply synonym_set_live; eauto|exact I].
        -- exists m, mts. split; [apply IG; auto|]. split; [apply synonym_set_live; eauto|exact I].
      * intros (i & ts0 & G & S0 & I). apply synonym_set_live in S0 as [jt Lj]. apply IG in G as [->|G].
        -- left. destruct L, Lj. congruence.
        -- right. exists i, jt, ts0. auto.
  - intros j G. rewrite IG in G. destruct H as [[-> ->]|[X _]]; [auto|].
    unfold synonym_set, item_name. rewrite (mg_other _ _ _ _ X) by tauto. auto.
Qed.
Print Assumptions C04_merge_partial.
Example C04_nonvacuous : snd (merge (fun l => l) ex_state (TStr "ddt") [TStr "co2"; TInt 0]) = Ok tt /\ ~ self_merge ex_state (TStr "ddt") [TStr "co2"; TInt 0].
Proof. split; [vm_compute; reflexivity|]. intros (i & t & A & [<-|[<-|[]]] & B); vm_compute in A, B; congruence. Qed.

(** merging an item into itself destroys it: every one of its terms is still "known" but its synonym set is gone. *)
Theorem C04_self_merge_refuted :
  exists s ordn d t s', reachable false s /\ lawful ordn /\ merge ordn s (TStr d) [TStr t] = (s', Ok tt) /\
     index s' (TStr d) = Ok (Some 0) /\ synonym_set s 0 = Some (Some [d; t]) /\ synonym_set s' 0 = Some None.
Proof.
  exists (fst (step (empty false) (OAddSet (fun l => l) [TStr "a"; TStr "b"] true))), (fun l => l), "a", "b". eexists.
  split; [apply r_step; [apply r_init|apply lawful_id]|]. split; [apply lawful_id|]. vm_compute. repeat split.
Qed.
Print Assumptions C04_self_merge_refuted.

(** * C05 *)
(** live items all named, and the stored name is one of the stored spellings *)
Definition names_listed (s : synlist) : Prop :=
  forall i ts, synonym_set s i = Some (Some ts) -> exists n, item_name s i = Some n /\ In n ts.
(** the live items of a SynList, in order: (name, synonyms) *)
Definition live_items (s : synlist) : list (option string * list string) := serialize_items (s_items s).
Definition same_item (p q : option string * list string) : Prop := fst p = fst q /\ forall t, In t (snd p) <-> In t (snd q).

Theorem C05_roundtrip_partial ic s ord : reachable ic s -> lawful ord -> names_listed s ->
  exists s', from_json ord (serialize s) = (s', Ok tt) /\ Forall2 same_item (live_items s) (live_items s') /\
    length (live_items s') = length (s_items s') /\
    (forall a b, are_synonyms s' a b = are_synonyms s a b) /\ s_ic s' = s_ic s /\ coherent s'.
Proof.
  intros R LO NL. pose proof (reachable_Inv ic s R) as V.
  assert (AN : all_named s).
  { intros i it ts L N. destruct (NL i ts) as [n [Hn _]]; [apply synonym_set_live; eauto|]. unfold item_name in Hn.
    destruct L as [L _]. rewrite L in Hn. congruence. }
  pose proof (serialize_wf s V AN) as W.
  destruct (load_sets_ok ord (serialize_items (s_items s)) (empty (s_ic s)) (Inv_empty _) LO) as (s' & new & E & V' & IC & IT & LD).
  - eapply wf_json_ic; [|exact W]. reflexivity.
  - intros; reflexivity.
  - cbn in IT, IC. exists s'. split; [exact E|].
    assert (NB : forall n ts, In (n, ts) (serialize_items (s_items s)) -> exists k, n = Some k /\ In k ts).
    { intros n ts I. apply serialize_In in I as (i & it & A & B & C). destruct (NL i ts) as [k [Hk Ik]].
      - apply synonym_set_live. exists it; split; auto.
      - unfold item_name in Hk. rewrite A in Hk. exists k. split; [congruence|exact Ik]. }
    split; [|split; [|split; [|split]]].
    + unfold live_items. rewrite IT. revert NB LD. generalize (serialize_items (s_items s)). clear. intros l NB F.
      induction F as [|[n ts] it l new (N & _ & ts' & S & SI) F IH]; cbn; [constructor|]. rewrite S. constructor.
      * split; cbn in *; [congruence|]. intros t. rewrite SI. destruct (NB n ts) as [k [-> Ik]]; [auto|].
        split; [auto|]. intros [I|[Ek _]]; [exact I|]. injection Ek as <-. exact Ik.
      * apply IH. intros; apply NB; cbn; auto.
    + unfold live_items. rewrite IT. revert LD. generalize (serialize_items (s_items s)). clear. intros l F.
      induction F as [|[n ts] it l new (N & _ & ts' & S & SI) F IH]; cbn; [reflexivity|]. rewrite S. cbn. rewrite IH. reflexivity.
    + intros a b. destruct (are_synonyms s' a b) eqn:A1, (are_synonyms s a b) eqn:A2; auto; exfalso.
      * apply (loaded_live _ _ s' LD IT a b V') in A1 as (n & ts & t & u & I & It & Iu & _ & _ & Et & Eu).
        destruct (NB n ts I) as [k [-> Ik]].
        apply serialize_In in I as (i & it & A & B & C). rewrite <- not_true_iff_false in A2. apply A2.
        apply (are_syn_iff_sets s a b V). exists i, it, ts, t, u.
        rewrite !(sanitize_eq s' s) in Et, Eu by exact IC. repeat split; auto.
        -- destruct It as [It|Ek]; [exact It|]. injection Ek as <-; exact Ik.
        -- destruct Iu as [It2|Ek]; [exact It2|]. injection Ek as <-; exact Ik.
      * apply (are_syn_iff_sets s a b V) in A2 as (i & it & ts & t & u & L & It & Iu & Et & Eu).
        rewrite <- not_true_iff_false in A1. apply A1. apply (loaded_live _ _ s' LD IT a b V').
        pose proof (inv_nonempty s V i it ts L) as NE.
        exists (i_name it), ts, t, u. rewrite !(sanitize_eq s' s) by exact IC. repeat split; auto.
        -- apply serialize_In. exists i, it. destruct L. auto.
        -- intros ->; auto.
        -- intros ->; auto.
    + exact IC.
    + clear - V'. pose proof V' as V. split; [|split; [|split]].
      * intros i ts t S I. apply synonym_set_live in S as [it L]. apply index_str. apply (inv_terms s' V i it ts t L I).
      * intros k I. destruct (dget_key_Some k (s_dict s') I) as [i D]. destruct (inv_dict s' V k i D) as (it & ts & t & L & It & Et).
        exists i, ts, t. split; [apply synonym_set_live; eauto|]. split; [exact It|]. split; [exact Et|].
        apply index_str. rewrite <- Et, sanitize_idem, Et. exact D.
      * intros i j ts us t u A B It Iu E. apply synonym_set_live in A as [it L]. apply synonym_set_live in B as [jt L2].
        pose proof (inv_terms s' V _ _ _ _ L It) as D1. pose proof (inv_terms s' V _ _ _ _ L2 Iu) as D2. congruence.
      * intros i n H. unfold item_name in H. destruct (nth_error (s_items s') i) as [it|] eqn:E; [|discriminate].
        apply index_str. apply (inv_name s' V i it n E H).
Qed.
Print Assumptions C05_roundtrip_partial.
Example C05_nonvacuous : names_listed ex_state /\ length (live_items ex_state) = 2.
Proof.
  split; [|vm_compute; reflexivity]. intros [|[|[|i]]] ts S; vm_compute in S.
  - injection S as <-. exists "Carbon Dioxide". vm_compute. auto.
  - discriminate.
  - injection S as <-. exists "DDT". vm_compute. auto.
  - destruct i; discriminate.
Qed.
(** An item without a name (created by [add_set([None])]) makes the saved file unreadable. *)
Theorem C05_unnamed_refuted : exists s, reachable false s /\ snd (from_json (fun l => l) (serialize s)) = Err KeyError.
Proof.
  exists (fst (step (empty false) (OAddSet (fun l => l) [TNone] true))).
  split; [apply r_step; [apply r_init|apply lawful_id]|]. vm_compute. reflexivity.
Qed.
Print Assumptions C05_unnamed_refuted.

(** * C06: split_term never creates a new item; it renames the old one and loses the spelling. *)
Theorem C06_split_term_actual ic s t s' r :
  reachable ic s -> split_term s t = (s', Ok r) ->
  r = None /\ length (s_items s') = length (s_items s) /\
  exists i, index s (TStr t) = Ok (Some i) /\ index s' (TStr t) = Ok (Some i) /\ item_name s' i = Some t /\
     (exists ts ts', synonym_set s i = Some (Some ts) /\ synonym_set s' i = Some (Some ts') /\
        (forall u, In u ts' <-> In u ts /\ sanitize s u <> sanitize s t)).
Proof.
  intros R E. pose proof (reachable_Inv ic s R) as V. unfold split_term, matches in E. cbn [get_index] in E.
  destruct (dget (sanitize s t) (s_dict s)) as [i|] eqn:D; [|discriminate].
  destruct (inv_dict s V _ _ D) as (it & ts & t0 & L & It & Et).
  rewrite (proj2 (synonym_set_live s i ts)) in E by eauto. pose proof L as [L1 L2].
  set (m := filter (fun k => String.eqb (sanitize s k) (sanitize s t)) ts) in *.
  assert (NM : forall n, item_name s i = Some n -> ~ In n m).
  { intros n Hn I. rewrite Hn in E. rewrite (proj2 (mem_In n m) I) in E. discriminate. }
  assert (E2 : match item_name s i with Some n => if mem n m then Err CannotSplitName else Ok (i, m) | None => Ok (i, m) end = Ok (i, m)).
  { destruct (item_name s i) as [n|]; auto. specialize (NM n eq_refl). apply mem_nIn in NM. rewrite NM. reflexivity. }
  rewrite E2 in E. clear E2.
  match type of E with context [new_set ?x _] => set (s1 := x) in * end.
  assert (U : unmatched_of s1 (map TStr m) = Ok []).
  { assert (G : forall l, (forall k, In k l -> sanitize s k = sanitize s t) -> unmatched_of s1 (map TStr l) = Ok []).
    { induction l as [|k l IH]; intros H; cbn; [reflexivity|]. rewrite (sanitize_eq s1 s k eq_refl), (H k), D by (cbn; auto).
      apply IH. intros; apply H; cbn; auto. }
    apply G. intros k I. apply filter_In in I as [_ I]. apply String.eqb_eq; exact I. }
  unfold new_set in E. rewrite U in E. unfold set_name in E. cbn [get_index] in E. rewrite (sanitize_eq s1 s t eq_refl) in E.
  change (s_dict s1) with (s_dict s) in E. rewrite D in E. apply pair_equal_inv in E as [<- E]. injection E as <-.
  split; [reflexivity|]. split; [cbn; rewrite !length_upd; reflexivity|]. exists i. split; [apply index_str; exact D|].
  split; [apply index_str; cbn; exact D|].
  assert (N1 : nth_error (s_items (set_items s1 (upd i (with_name (Some t)) (s_items s1)))) i =
     Some (with_name (Some t) (with_syns (Some (filter (fun k => negb (mem k m)) ts)) it))).
  { change (nth_error (upd i (with_name (Some t)) (s_items s1)) i = Some (with_name (Some t) (with_syns (Some (filter (fun k => negb (mem k m)) ts)) it))).
    apply nth_upd_same. unfold s1. cbn. erewrite nth_upd_same by exact L1. rewrite L2. reflexivity. }
  split; [unfold item_name; rewrite N1; reflexivity|].
  exists ts, (filter (fun k => negb (mem k m)) ts). split; [apply synonym_set_live; eauto|].
  split; [unfold synonym_set; rewrite N1; reflexivity|].
  intros u. rewrite filter_In. split.
  - intros [I B]. split; [exact I|]. intros Q. apply negb_true_iff in B. apply mem_nIn in B. apply B.
    apply filter_In. split; [exact I|apply String.eqb_eq; exact Q].
  - intros [I B]. split; [exact I|]. apply negb_true_iff, mem_nIn. intros J. apply filter_In in J as [_ J].
    apply String.eqb_eq in J. auto.
Qed.
Print Assumptions C06_split_term_actual.
Theorem C06_split_term_refuted : exists s t s' r, reachable true s /\ split_term s t = (s', Ok r) /\
  (* t is still in the old item, which has been renamed to t and no longer lists it; no item was created *)
  r = None /\ index s' (TStr t) = index s (TStr t) /\ item_name s 0 = Some "Carbon Dioxide" /\ item_name s' 0 = Some t /\
  synonym_set s 0 = Some (Some ["Carbon Dioxide"; "CO2 "; "methane"; "ch4"]) /\
  synonym_set s' 0 = Some (Some ["Carbon Dioxide"; "CO2 "; "methane"]) /\ length (s_items s') = length (s_items s).
Proof. eexists ex_state, "ch4", _, None. split; [apply ex_state_reachable|]. vm_compute. repeat split. Qed.
Print Assumptions C06_split_term_refuted.

(** The only positive part: a refused or failing split changes nothing. *)
Theorem C06_refused_split_unchanged_partial ic s t s' e :
  reachable ic s -> split_term s t = (s', Err e) -> s' = s /\ (e = KeyError \/ e = CannotSplitName).
Proof.
  intros R E. pose proof (reachable_Inv ic s R) as V.
  destruct (matches s t) as [[i m]|e'] eqn:M.
  - exfalso. unfold split_term in E. rewrite M in E. unfold matches in M. cbn [get_index] in M.
    destruct (dget (sanitize s t) (s_dict s)) as [j|] eqn:D; [|discriminate].
    destruct (synonym_set s j) as [[ts|]|] eqn:S; [|discriminate|discriminate].
    assert (Q : i = j /\ m = filter (fun k => String.eqb (sanitize s k) (sanitize s t)) ts).
    { destruct (item_name s j) as [n|]; [|split; congruence].
      destruct (mem n _); [discriminate|]. split; congruence. }
    destruct Q as [-> ->].
    match type of E with context [new_set ?x _] => set (s1 := x) in * end.
    match type of E with context [map TStr ?x] => set (m := x) in * end.
    assert (U : unmatched_of s1 (map TStr m) = Ok []).
    { assert (G : forall l, (forall k, In k l -> sanitize s k = sanitize s t) -> unmatched_of s1 (map TStr l) = Ok []).
      { induction l as [|k l IH]; intros H; cbn; [reflexivity|]. rewrite (sanitize_eq s1 s k eq_refl), (H k), D by (cbn; auto).
        apply IH. intros; apply H; cbn; auto. }
      apply G. intros k I. apply filter_In in I as [_ I]. apply String.eqb_eq; exact I. }
    unfold new_set in E. rewrite U in E. unfold set_name in E. cbn [get_index] in E. rewrite (sanitize_eq s1 s t eq_refl) in E.
    change (s_dict s1) with (s_dict s) in E. rewrite D in E. discriminate.
  - unfold split_term in E. rewrite M in E. injection E as <- <-. split; [reflexivity|].
    unfold matches in M. cbn [get_index] in M. destruct (dget (sanitize s t) (s_dict s)) as [j|] eqn:D; [|left; congruence].
    destruct (inv_dict s V _ _ D) as (it & ts & t0 & L & _). rewrite (proj2 (synonym_set_live s j ts)) in M by eauto.
    destruct (item_name s j) as [n|]; [|discriminate]. destruct (mem n _); [right; congruence|discriminate].
Qed.
Print Assumptions C06_refused_split_unchanged_partial.

(** * C07 *)
Theorem C07_are_synonyms_equivalence s :
  (forall a b, are_synonyms s a b = are_synonyms s b a) /\
  (forall a b c, are_synonyms s a b = true -> are_synonyms s b c = true -> are_synonyms s a c = true) /\
  (forall a, are_synonyms s a a = true <-> exists i, index s (TStr a) = Ok (Some i)) /\
  (forall a b, are_synonyms s a b = true <-> exists i, index s (TStr a) = Ok (Some i) /\ index s (TStr b) = Ok (Some i)) /\
  (forall w1 w2 a b, all_space w1 = true -> all_space w2 = true -> are_synonyms s (w1 ++ a ++ w2)%string b = are_synonyms s a b) /\
  (s_ic s = true -> forall a a' b, lower a = lower a' -> are_synonyms s a b = are_synonyms s a' b).
Proof.
  split; [|split; [|split; [|split; [|split]]]].
  - intros a b. destruct (are_synonyms s a b) eqn:A, (are_synonyms s b a) eqn:B; auto.
    + apply are_syn_iff_index in A as [i [A1 A2]]. rewrite <- not_true_iff_false in B. exfalso. apply B. apply are_syn_iff_index. eauto.
    + apply are_syn_iff_index in B as [i [A1 A2]]. rewrite <- not_true_iff_false in A. exfalso. apply A. apply are_syn_iff_index. eauto.
  - intros a b c A B. apply are_syn_iff_index in A as [i [A1 A2]]. apply are_syn_iff_index in B as [j [B1 B2]].
    apply are_syn_iff_index. exists i. split; congruence.
  - intros a. rewrite are_syn_iff_index. split; intros [i H]; exists i; [apply index_str; apply H|apply index_str in H; auto].
  - intros a b. rewrite are_syn_iff_index. split; intros [i [A B]]; exists i; rewrite ?index_str in *; auto.
  - intros w1 w2 a b S1 S2. unfold are_synonyms, sanitize. rewrite strip_pad by assumption. reflexivity.
  - intros IC a a' b E. unfold are_synonyms, sanitize. rewrite IC. rewrite (lower_strip a), E, <- (lower_strip a'). reflexivity.
Qed.
Print Assumptions C07_are_synonyms_equivalence.
Example C07_nonvacuous : are_synonyms ex_state " Ch4 " "carbon dioxide" = true /\ are_synonyms ex_state "ch4" "DDT" = false /\ are_synonyms ex_state "x" "x" = false.
Proof. vm_compute. auto. Qed.

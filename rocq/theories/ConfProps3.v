(** C104: terminating a flow. *)
From Coq Require Import String Ascii List.
From Verif Require Import Num Base PyStr ProcModel ProcProofs ProcProps ConfModel ConfProofs ConfProofs2 ConfProps ConfProps2.
Open Scope nat_scope.
Open Scope string_scope.
Open Scope list_scope.

(** Specification: the direction a string means (its first letter, in either case), and a producer or consumer of the flow: a process
    that has a reference exchange of the flow, in the direction opposite to the one asked for. *)
Definition means (s : string) (d : dirn) : Prop :=
  exists c r, s = String c r /\ match d with Input => c = "i"%char \/ c = "I"%char | Output => c = "o"%char \/ c = "O"%char end.
Definition partner (a : arch) (f : nat) (d : option string) (pr : nat) : Prop :=
  exists p k, get a pr = Some p /\ In k (p_refs p) /\ k_flow k = f
    /\ match d with None => True | Some s => (means s Input /\ k_dir k = Output) \/ (means s Output /\ k_dir k = Input) end.
Lemma check_means s : match check_direction s with inl d => forall d', means s d' <-> d' = d | inr _ => forall d', ~ means s d' end.
Proof.
  destruct s as [|c r]; cbn [check_direction]; [intros d [c [r [H _]]]; discriminate|].
  destruct (Ascii.eqb_spec c "i"), (Ascii.eqb_spec c "I"), (Ascii.eqb_spec c "o"), (Ascii.eqb_spec c "O"); cbn [orb]; try congruence;
  intros d; try split; intros H; try subst d; try (exists c, r; split; [reflexivity|tauto]); destruct H as [c' [r' [E H]]]; injection E as <- <-; destruct d; try reflexivity; destruct H; congruence.
Qed.
Lemma index_nodup a : NoDup (index_of a).
Proof. apply NoDup_set_of. Qed.
Lemma entries a f d ps : terminate (re_index a) f d = inl ps -> shape a ->
  (forall pr, In pr ps <-> partner a f d pr) /\ (d <> None -> NoDup ps).
Proof.
  unfold terminate. cbn [re_index a_ti]. destruct (comp_dir d) as [cd|] eqn:C; [|discriminate]. intros H SH. injection H as <-. split.
  - intros pr. rewrite in_map_iff. split.
    + intros [[[f' d'] pr'] [<- H]]. apply filter_In in H as [H1 H2]. apply (index_in a _ SH) in H1 as [pr [p [k [G [K E]]]]]. injection E as -> -> ->.
      apply andb_prop in H2 as [H2 H3]. cbn [fst snd] in H2, H3. apply Nat.eqb_eq in H2. exists p, k. split; [exact G|]. split; [exact K|]. split; [exact H2|].
      destruct d as [s|]; [|exact Logic.I]. cbn [comp_dir] in C. pose proof (check_means s) as M. destruct (check_direction s) as [d|[[]| | | | | | |]]; try discriminate. injection C as <-.
      change (eqb (opp d) (k_dir k) = true) in H3. apply (proj1 (eqb_eq _ _)) in H3. destruct d; [left|right]; (split; [apply M; reflexivity|symmetry; exact H3]).
    + intros [p [k [G [K [F D]]]]]. exists (f, k_dir k, pr). split; [reflexivity|]. apply filter_In. split; [apply (index_in a _ SH); exists pr, p, k; rewrite F; auto|].
      cbn [fst snd]. rewrite Nat.eqb_refl. cbn [andb]. destruct cd as [cd|]; [|reflexivity]. destruct d as [s|]; [|discriminate].
      cbn [comp_dir] in C. pose proof (check_means s) as M. destruct (check_direction s) as [d|[[]| | | | | | |]]; try discriminate. injection C as <-.
      change (eqb (opp d) (k_dir k) = true). apply (proj2 (eqb_eq _ _)). destruct D as [[D E]|[D E]]; apply M in D; subst d; cbn; congruence.
  - intros N. destruct d as [s|]; [|contradiction N; reflexivity]. cbn [comp_dir] in C. destruct (check_direction s) as [d|[[]| | | | | | |]]; try discriminate. injection C as <-.
    generalize (index_nodup a). generalize (index_of a). intros l ND. induction ND as [|[[f' d'] pr'] l NI ND IH]; [constructor|]. cbn [filter fst snd].
    destruct (Nat.eqb_spec f' f) as [->|]; cbn [andb]; [|exact IH]. change (dirn_eqb (opp d) d') with (eqb (opp d) d'). destruct (eqb_spec (opp d) d') as [<-|]; [|exact IH]. cbn [map snd]. constructor; [|exact IH].
    intros I. apply in_map_iff in I as [[[f2 d2] pr2] [E I]]. cbn [snd] in E. subst pr2. apply filter_In in I as [I1 I2]. apply andb_prop in I2 as [I2 I3].
    cbn [fst snd] in I2, I3. apply Nat.eqb_eq in I2. change (eqb (opp d) d2 = true) in I3. apply (proj1 (eqb_eq _ _)) in I3. subst. contradiction.
Qed.
(** After the archive was (re-)indexed, terminating a flow yields exactly the processes with a reference exchange of it in the
    complementary direction, each once if a direction is given. *)
Theorem C104_terminate_exact : forall rq a f d ps, archive rq a -> terminate (re_index a) f d = inl ps ->
  (forall pr, In pr ps <-> partner a f d pr) /\ (d <> None -> NoDup ps).
Proof. intros rq a f d ps H T. eapply entries; [exact T|]. eapply archive_shape, H. Qed.
(** The same when the index interface is made for the first time, and after every configuration that was applied to an archive
    already indexed, however stale its index was. *)
Theorem C104_first_index : forall rq a f d ps, archive rq a -> a_ti a = None -> terminate (make_index a) f d = inl ps ->
  (forall pr, In pr ps <-> partner a f d pr) /\ (d <> None -> NoDup ps).
Proof. intros rq a f d ps H N. unfold make_index. rewrite N. apply (C104_terminate_exact rq); assumption. Qed.
Lemma ti_kept rq c ow a a1 : shape a -> apply_config rq c ow a = (a1, None) -> (a_ti a1 = None <-> a_ti a = None).
Proof.
  intros S H. apply apply_ok in H as [aS [aU [aC [aA [HS [HU [HC [HA E1]]]]]]]].
  destruct (sets_facts _ _ _ S HS) as [SS [_ [_ [T1 _]]]]. destruct (unsets_facts _ _ _ SS HU) as [SU [_ [_ [T2 _]]]].
  pose proof (chars_procs _ _ _ _ _ _ HC) as [PC TC].
  assert (SC : shape aC) by (split; [unfold pkeys; rewrite PC; apply SU|intros pr p; unfold get; rewrite PC; apply SU]).
  destruct (allocs_facts _ _ _ _ SC HA) as [SA [_ [_ [T3 _]]]]. subst a1. destruct (a_ti aA) eqn:T; cbn; split; congruence.
Qed.
Theorem C104_after_config : forall rq c ow a a1 f d ps, archive rq a -> a_ti a <> None -> apply_config rq c ow a = (a1, None) -> terminate a1 f d = inl ps ->
  (forall pr, In pr ps <-> partner a1 f d pr) /\ (d <> None -> NoDup ps).
Proof.
  intros rq c ow a a1 f d ps H N E T. destruct (archive_shape rq a H) as [S _]. pose proof (apply_shape _ _ _ _ _ S E) as S1.
  assert (X : a_ti a1 = Some (index_of a1)). { destruct (apply_index _ _ _ _ _ E) as [X|X]; [|exact X]. apply (ti_kept _ _ _ _ _ S E) in X. contradiction. }
  eapply entries; [|exact S1]. rewrite <- T. unfold terminate. cbn [re_index a_ti]. rewrite X. reflexivity.
Qed.
(** It fails only on a direction string that means neither direction. *)
Theorem C104_direction : forall a f d, (exists e, terminate a f d = inr e) <-> exists s, d = Some s /\ ~ means s Input /\ ~ means s Output.
Proof.
  intros a f d. unfold terminate. destruct d as [s|]; cbn [comp_dir].
  - pose proof (check_means s) as M. destruct (check_direction s) as [d|e].
    + split; [intros [e H]; discriminate|]. intros [s' [E [A B]]]. injection E as <-. destruct d; [contradiction A|contradiction B]; apply M; reflexivity.
    + split; [intros _; exists s; auto|]. intros _. destruct e as [[]| | | | | | |]; eexists; reflexivity.
  - split; [intros [e H]; discriminate|]. intros [s [E _]]. discriminate.
Qed.
Print Assumptions C104_terminate_exact. Print Assumptions C104_first_index. Print Assumptions C104_after_config. Print Assumptions C104_direction.

Definition town : arch := A
  [(10, grow [PAddExchange 0 Output None (Some (Q2Qc 1)) TNone false; PAddReference 0 Output]);
   (11, grow [PAddExchange 0 Input None (Some (Q2Qc 1)) TNone false; PAddReference 0 Input; PAddExchange 3 Output None (Some (Q2Qc 1)) TNone false]);
   (12, grow [PAddExchange 0 Output None (Some (Q2Qc 1)) TNone false; PAddReference 0 Output; PAddExchange 0 Input None (Some (Q2Qc 1)) TNone false; PAddReference 0 Input])] [] None.
Lemma town_archive : archive (fun _ => None) town.
Proof.
  split; [repeat constructor; cbn; intuition discriminate| |discriminate]. intros pr p. unfold get. cbn [town a_procs dget].
  repeat (match goal with |- context [eqb ?x ?y] => destruct (eqb x y) end; [intros X; injection X as <-; apply built_grow|]). discriminate.
Qed.
Example C104_example : archive (fun _ => None) town /\ terminate (re_index town) 0 (Some "Input") = inl [10; 12] /\ terminate (re_index town) 0 (Some "out") = inl [11; 12]
  /\ terminate (re_index town) 3 None = inl [] /\ terminate (re_index town) 0 (Some "up") = inr CInvalidDirection.
Proof. split; [exact town_archive|]. repeat split; vm_compute; reflexivity. Qed.
(** Without a direction a process with references of the flow on both sides is yielded twice. *)
Theorem C104_refuted_duplicates : terminate (re_index town) 0 None = inl [10; 11; 12; 12].
Proof. vm_compute. reflexivity. Qed.
(** A reference set directly, not through a configuration, is not seen until the next re-index. *)
Theorem C104_refuted_stale : exists a, set_reference (re_index town) 11 3 (Some "Output") = (a, None) /\ partner a 3 (Some "Input") 11
  /\ terminate a 3 (Some "Input") = inl [] /\ terminate (re_index a) 3 (Some "Input") = inl [11].
Proof.
  eexists. split; [vm_compute; reflexivity|]. split; [|split; vm_compute; reflexivity].
  eexists. exists (3, Output, None). split; [vm_compute; reflexivity|]. split; [right; left; reflexivity|]. split; [reflexivity|]. left. split; [exists "I"%char, "nput"; auto|reflexivity].
Qed.

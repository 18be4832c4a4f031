(** C102-C104: configuration of an archive, the stored configuration of a resource, the termination index. *)
From Coq Require Import String List.
From Verif Require Import Num Base PyStr ProcModel ProcProofs ProcProps ConfModel ConfProofs ConfProofs2.
Open Scope nat_scope.
Open Scope string_scope.
Open Scope list_scope.

(** * Specification *)
(** A process any sequence of public calls can produce (characterizations may change between calls). *)
Inductive built : proc -> Prop :=
| b_new : built new_proc
| b_call : forall cf p o, built p -> built (fst (pstep cf p o))
| b_remove_allocation : forall p r, built p -> built (remove_allocation p r).
(** An archive: distinct processes, each built by calls; a flow's reference quantity is among its characterizations. *)
Record archive (rq : nat -> option nat) (a : arch) : Prop := {
  ar_ids : NoDup (map fst (a_procs a));
  ar_built : forall pr p, get a pr = Some p -> built p;
  ar_refq : forall f q, rq f = Some q -> exists v, dget (f, q) (a_cfs a) = Some v }.
(** The same process: the same exchanges with the same values, allocations and reference marks, the same references, the
    same allocation quantity and total. *)
Record same_process (p p' : proc) : Prop := {
  same_exchanges : forall k, dget k (p_exch p') = dget k (p_exch p);
  same_references : forall k, In k (p_refs p') <-> In k (p_refs p);
  same_quantity : p_qty p' = p_qty p;
  same_total : p_sum p' = p_sum p }.
(** The same archive: processes, characterizations and index. *)
Record same_archive (a b : arch) : Prop := {
  same_processes : forall pr, match get a pr, get b pr with Some p, Some p' => same_process p p' | None, None => True | _, _ => False end;
  same_factors : forall f q, dget (f, q) (a_cfs b) = dget (f, q) (a_cfs a);
  same_index : match a_ti a, a_ti b with Some l, Some m => forall e, In e m <-> In e l | None, None => True | _, _ => False end }.
(** Every stored allocation total is the current output of the references. *)
Definition totals_current (a : arch) : Prop :=
  forall pr p q, get a pr = Some p -> p_qty p = Some q -> p_sum p = total_output (acf a) p q.
Definition not_allocated (a : arch) : Prop := forall pr p, get a pr = Some p -> p_qty p = None.

Lemma built_pinv p : built p -> pinv p.
Proof. induction 1; [apply pinv_new|apply pinv_step; assumption|apply remove_allocation_spec; assumption]. Qed.
Lemma archive_shape rq a : archive rq a -> shape a /\ wfq rq a.
Proof.
  intros [A B C]. split; [split; [exact A|intros pr p G; eapply built_pinv, B, G]|].
  intros f q R. destruct (C f q R) as [v D]. unfold din. rewrite D. reflexivity.
Qed.
Lemma sp_same_process p p' : pinv p -> pinv p' -> sp p p' -> same_process p p'.
Proof.
  intros I I' [A B C D]. split; auto. intros k. specialize (A k). unfold pv in A. pose proof (pi_ref p I k) as R. pose proof (pi_ref p' I' k) as R'.
  rewrite B in R'. unfold is_ref_in in *. destruct (dget k (p_exch p)) as [[v d r]|], (dget k (p_exch p')) as [[v' d' r']|]; try discriminate; [|reflexivity].
  cbn in A. injection A as -> ->. f_equal. f_equal.
  assert (r = true <-> In k (p_refs p)) by (rewrite R; split; [intros ->; eexists; split; reflexivity|intros [e [E1 E2]]; injection E1 as <-; exact E2]).
  assert (r' = true <-> In k (p_refs p)) by (rewrite R'; split; [intros ->; eexists; split; reflexivity|intros [e [E1 E2]]; injection E1 as <-; exact E2]).
  destruct r, r'; intuition congruence.
Qed.
Lemma apply_shape rq c ow a a1 : shape a -> apply_config rq c ow a = (a1, None) -> shape a1.
Proof.
  intros S H. apply apply_ok in H as [aS [aU [aC [aA [HS [HU [HC [HA E1]]]]]]]].
  destruct (sets_facts _ _ _ S HS) as [SS _]. destruct (unsets_facts _ _ _ SS HU) as [SU _].
  pose proof (chars_procs _ _ _ _ _ _ HC) as [PC TC].
  assert (SC : shape aC) by (split; [unfold pkeys; rewrite PC; apply SU|intros pr p; unfold get; rewrite PC; apply SU]).
  destruct (allocs_facts _ _ _ _ SC HA) as [SA _]. subst a1. destruct (a_ti aA); exact SA.
Qed.
Lemma same_same_archive a b : shape a -> shape b -> same a b -> same_archive a b.
Proof.
  intros S S' [A B C]. split; [|intros f q; apply B|exact C]. intros pr. specialize (A pr).
  destruct (get a pr) as [p|] eqn:G, (get b pr) as [p'|] eqn:G'; auto. apply sp_same_process; [apply S with pr, G|apply S' with pr, G'|exact A].
Qed.

(** * C102 *)
(** If a configuration was applied, and no stored allocation total is out of date afterwards, then applying it again succeeds
    and changes nothing.  Missing: archives left with an outdated total -- refuted below. *)
Theorem C102_idempotent_partial : forall rq c ow a a1, archive rq a -> apply_config rq c ow a = (a1, None) -> totals_current a1 ->
  exists a2, apply_config rq c ow a1 = (a2, None) /\ same_archive a1 a2.
Proof.
  intros rq c ow a a1 H E T. destruct (archive_shape rq a H) as [S W]. destruct (again rq c ow a a1 S W E T) as [a2 [E2 SM]].
  exists a2. split; [exact E2|]. pose proof (apply_shape _ _ _ _ _ S E) as S1. apply same_same_archive; [exact S1|eapply apply_shape; [exact S1|exact E2]|exact SM].
Qed.
(** In particular on an archive no process of which was allocated by quantity before: any configuration that can be applied once can be applied
    again without effect, with or without overwrite. *)
Theorem C102_idempotent_unallocated : forall rq c ow a a1, archive rq a -> not_allocated a -> apply_config rq c ow a = (a1, None) ->
  totals_current a1 /\ exists a2, apply_config rq c ow a1 = (a2, None) /\ same_archive a1 a2.
Proof.
  intros rq c ow a a1 H N E. destruct (archive_shape rq a H) as [S W]. pose proof (settles rq c ow a a1 S N E) as T.
  split; [exact T|]. eapply C102_idempotent_partial; eauto.
Qed.
Print Assumptions C102_idempotent_partial.
Print Assumptions C102_idempotent_unallocated.

(** Non-vacuity: a process with two products and an input, first without references; the configuration makes both products
    references, undoes a third, characterizes them and allocates. *)
Definition grow (ops : list pop) : proc := fold_left (fun p o => fst (pstep (fun _ _ => Q2Qc 0) p o)) ops new_proc.
Definition joint : proc := grow
  [PAddExchange 0 Output None (Some (Q2Qc 1)) TNone false; PAddExchange 1 Output None (Some (Q2Qc 4)) TNone false;
   PAddExchange 2 Output None (Some (Q2Qc 5)) TNone false; PAddReference 2 Output; PAddExchange 5 Input None (Some (Q2Qc 7)) TNone false].
Lemma built_grow ops : built (grow ops).
Proof. unfold grow. rewrite <- fold_left_rev_right. induction (rev ops); cbn [fold_right]; [constructor|apply b_call; assumption]. Qed.
Definition plant : arch := A [(10, joint)] [((0, 8), Q2Qc 1)] (Some []).
Definition refq (f : nat) : option nat := match f with 0 => Some 8 | _ => None end.
Definition setup : config := C [(10, 0, Some "Output"); (10, 1, None)] [URefs 10 (Some "Input"); UOne 10 2 (Some "Output")] [(0, 9, Q2Qc 2); (1, 9, Q2Qc 3)] [(10, 9)].
Lemma one_archive rq pr p cfs ti : built p -> (forall f q, rq f = Some q -> exists v, dget (f, q) cfs = Some v) -> archive rq (A [(pr, p)] cfs ti).
Proof.
  intros B W. split; [constructor; [intros []|constructor]| |exact W]. intros pr' p'. unfold get. cbn [a_procs dget]. destruct (eqb pr' pr); [|discriminate].
  intros X; injection X as <-. exact B.
Qed.
Example C102_example : archive refq plant /\ not_allocated plant
  /\ exists a1 p, apply_config refq setup false plant = (a1, None) /\ get a1 10 = Some p
     /\ p_refs p = [(0, Output, None); (1, Output, None)] /\ p_qty p = Some 9 /\ p_sum p = Q2Qc 14
     /\ a_ti a1 = Some [(0, Output, 10); (1, Output, 10)].
Proof.
  split; [|split].
  - apply one_archive; [apply built_grow|]. intros [|f] q; cbn [refq]; [|discriminate]. intros X; injection X as <-. exists (Q2Qc 1). reflexivity.
  - intros pr p. unfold get. cbn [plant a_procs dget]. destruct (eqb pr 10); [|discriminate]. intros X; injection X as <-. reflexivity.
  - eexists. eexists. split; [vm_compute; reflexivity|]. split; [vm_compute; reflexivity|]. repeat split; vm_compute; try reflexivity; apply Qc_is_canon; reflexivity.
Qed.

(** An allocated process whose second product is characterized by the configuration: the first application skips the
    allocation that already exists, the second recomputes it because [set_reference] comes before.  The share of the input
    that a unit of the first product receives changes from 7 to 1. *)
Definition co : proc := fold_left (fun p o => fst (pstep (fun f q => match f with 0 => Q2Qc 2 | _ => Q2Qc 0 end) p o))
  [PAddExchange 0 Output None (Some (Q2Qc 1)) TNone false; PAddReference 0 Output; PAddExchange 1 Output None (Some (Q2Qc 4)) TNone false;
   PAddReference 1 Output; PAddExchange 5 Input None (Some (Q2Qc 7)) TNone false; PAllocate (Some 9)] new_proc.
Lemma built_fold cf ops : built (fold_left (fun p o => fst (pstep cf p o)) ops new_proc).
Proof. rewrite <- fold_left_rev_right. induction (rev ops); cbn [fold_right]; [constructor|apply b_call; assumption]. Qed.
Definition works : arch := A [(10, co)] [((0, 9), Q2Qc 2)] None.
Definition refine : config := C [(10, 0, Some "Output")] [] [(1, 9, Q2Qc 3)] [(10, 9)].
Theorem C102_refuted_stale_total : archive (fun _ => None) works /\ exists a1 a2 p1 p2,
  apply_config (fun _ => None) refine false works = (a1, None) /\ apply_config (fun _ => None) refine false a1 = (a2, None)
  /\ get a1 10 = Some p1 /\ get a2 10 = Some p2
  /\ getitem (acf a1) p1 (5, Input, None) (0, Output, None) = POk (Q2Qc 7)
  /\ getitem (acf a2) p2 (5, Input, None) (0, Output, None) = POk (Q2Qc 1).
Proof.
  split; [apply one_archive; [apply built_fold|discriminate]|]. do 4 eexists. do 4 (split; [vm_compute; reflexivity|]).
  split; vm_compute; f_equal; apply Qc_is_canon; reflexivity.
Qed.
(** Without characterizations: a configuration that sets a reference and unsets it again leaves, the second time, another total. *)
Definition lone : proc := fold_left (fun p o => fst (pstep (fun f q => match f with 0 => Q2Qc 2 | _ => Q2Qc 1 end) p o))
  [PAddExchange 0 Output None (Some (Q2Qc 3)) TNone false; PAddReference 0 Output; PAddExchange 1 Output None (Some (Q2Qc 4)) TNone false; PAllocate (Some 9)] new_proc.
Definition shed : arch := A [(10, lone)] [((0, 9), Q2Qc 2); ((1, 9), Q2Qc 1)] None.
Definition undo : config := C [(10, 1, Some "Output")] [UOne 10 1 (Some "Output"); UOne 10 0 (Some "Output")] [] [].
Theorem C102_refuted_set_and_unset : archive (fun _ => None) shed /\ exists a1 a2 p1 p2,
  apply_config (fun _ => None) undo false shed = (a1, None) /\ apply_config (fun _ => None) undo false a1 = (a2, None)
  /\ get a1 10 = Some p1 /\ get a2 10 = Some p2 /\ p_sum p1 = Q2Qc 6 /\ p_sum p2 = Q2Qc 4.
Proof.
  split; [apply one_archive; [apply built_fold|discriminate]|]. do 4 eexists. do 4 (split; [vm_compute; reflexivity|]).
  split; vm_compute; apply Qc_is_canon; reflexivity.
Qed.
Print Assumptions C102_refuted_stale_total.

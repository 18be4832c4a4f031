(** C23-C28, C65: processes, exchanges, allocation. *)
From Verif Require Import Num Base PyStr ProcModel ProcProofs.
Open Scope nat_scope.
Open Scope string_scope.
Open Scope list_scope.

(** * C23 *)
Theorem C23_references_agree : forall cf ops k,
  let p := prun cf ops in
  (In k (p_refs p) <-> is_ref p k = true)
  /\ (In k (p_refs p) -> In k (dkeys (p_exch p)) /\ k_term k = None)
  /\ NoDup (p_refs p).
Proof.
  intros cf ops k p. pose proof (pinv_prun cf ops) as I. fold p in I. repeat split.
  - intros J. apply (pi_ref p I) in J as [e [D R]]. unfold is_ref. rewrite D. exact R.
  - unfold is_ref. destruct (dget k (p_exch p)) as [e|] eqn:D; [|discriminate]. intros R. apply (pi_ref p I). exists e; auto.
  - apply (pi_ref p I) in H as [e [D R]]. eapply dget_Some_key; eauto.
  - apply (pi_term p I); assumption.
  - apply (pi_refs p I).
Qed.
(** What the two mutators do to the set: a successful [add_reference] makes exactly that exchange a reference, a successful
    [remove_reference] takes exactly that one out, and no other call changes which exchanges are references. *)
Theorem C23_reference_effect : forall cf ops o k,
  let p := prun cf ops in let p' := fst (pstep cf p o) in
  (In k (p_refs p') <->
   match o with
   | PAddReference f d => In k (p_refs p) \/ (k = (f, d, None) /\ In k (dkeys (p_exch p)))
   | PRemoveReference f d => In k (p_refs p) /\ k <> (f, d, None)
   | _ => In k (p_refs p)
   end).
Proof.
  intros cf ops o k p p'. pose proof (pinv_prun cf ops) as I. fold p in I. subst p'. destruct o as [f d r v t dups|f d|f d|q]; cbn [pstep fst].
  - unfold add_exchange. repeat match goal with |- context [match ?x with _ => _ end] => destruct x; try reflexivity end.
  - unfold add_reference. cbv zeta. cbn [fst].
    match goal with |- context [match alloc_qty ?q with _ => _ end] => set (p1 := q) end.
    assert (E : p_refs (match alloc_qty p1 with Some _ => allocate cf p1 (p_qty p1) | None => p1 end) = p_refs p1)
      by (destruct (alloc_qty p1); [apply allocate_refs|reflexivity]). rewrite E. subst p1.
    destruct (dget (f, d, None) (p_exch p)) as [e|] eqn:D.
    + cbn. rewrite In_set_add. split; [intros [->|J]; auto|intros [J|[-> J]]; auto].
      right; split; auto. apply dget_Some_key with e; exact D.
    + split; [auto|]. intros [J|[-> J]]; auto. apply dget_None in D. exfalso; apply D; exact J.
  - unfold remove_reference. cbv zeta. destruct (dget (f, d, None) (p_exch p)) as [e|] eqn:D.
    + cbn [fst]. destruct (p_qty p); rewrite ?allocate_refs; cbn [p_refs]; apply In_set_remove.
    + cbn. split; [|tauto]. intros J. split; auto. intros ->. apply (pi_ref p I) in J as [e [J _]]. congruence.
  - rewrite allocate_refs. tauto.
Qed.
Print Assumptions C23_references_agree.
Print Assumptions C23_reference_effect.

(** * C24 *)
(** Specification: the output of the references in terms of quantity [q], from the current values. *)
Definition ref_output (cf : nat -> nat -> Qc) (p : proc) (q : nat) (r : key) : Qc :=
  match exch_value p r with Some v => (v * cf (k_flow r) q)%Qc | None => Q2Qc 0 end.
Definition total_output cf p q : Qc := Qcsum (map (ref_output cf p q) (p_refs p)).
(** The portion of exchange [k] that goes to reference [r]: x[r] * r.value. *)
Definition share cf p k r : Qc :=
  match getitem cf p k r, exch_value p r with POk x, Some v => (x * v)%Qc | _, _ => Q2Qc 0 end.
(** An edit after which the stored total may be out of date: a write to the value of a reference, or a change of the
    reference set that leaves a zero total. *)
Definition keeps_total cf (p : proc) (o : pop) : Prop :=
  alloc_qty p = None \/
  match o with
  | PAddExchange f d _ _ t _ => ~ In (f, d, t_key t) (p_refs p)
  | PAddReference _ _ | PRemoveReference _ _ => forall q, p_qty p = Some q -> total_output cf (fst (pstep cf p o)) q <> Q2Qc 0
  | PAllocate _ => True
  end.
Fixpoint all_steps (cf : nat -> nat -> Qc) (ok : proc -> pop -> Prop) (p : proc) (ops : list pop) : Prop :=
  match ops with [] => True | o :: r => ok p o /\ all_steps cf ok (fst (pstep cf p o)) r end.

Lemma total_alloc_dict cf p q : Qcsum (map snd (alloc_dict cf p q)) = total_output cf p q.
Proof.
  unfold total_output, alloc_dict. induction (p_refs p) as [|r l IH]; [reflexivity|].
  cbn [flat_map map]. rewrite map_app, Qcsum_app, IH. unfold Qcsum at 3. cbn [fold_right]. fold (Qcsum (map (ref_output cf p q) l)). f_equal.
  unfold ref_output. destruct (exch_value p r); unfold Qcsum; cbn [map snd fold_right]; ring.
Qed.
Lemma total_output_ext cf p p' q : p_refs p' = p_refs p -> (forall r, In r (p_refs p) -> exch_value p' r = exch_value p r) ->
  total_output cf p' q = total_output cf p q.
Proof.
  intros E H. unfold total_output. rewrite E. f_equal. apply map_ext_in. intros r I. unfold ref_output. rewrite (H r I). reflexivity.
Qed.
Definition fresh cf p : Prop := forall q, p_qty p = Some q -> p_sum p = total_output cf p q.
Lemma total_allocate cf p q x : total_output cf (allocate cf p q) x = total_output cf p x.
Proof.
  apply total_output_ext; [apply allocate_refs|]. intros r _. unfold exch_value. rewrite allocate_exch. reflexivity.
Qed.
Lemma fresh_allocate cf p q : (total_output cf p q <> Q2Qc 0 \/ fresh cf p) -> fresh cf (allocate cf p (Some q)).
Proof.
  intros H x. rewrite total_allocate. unfold allocate. rewrite total_alloc_dict.
  destruct (eqb_spec (total_output cf p q) (Q2Qc 0)) as [E|N]; cbn [p_qty p_sum].
  - destruct H as [H|H]; [congruence|]. apply H.
  - intros X; injection X as <-. reflexivity.
Qed.
Lemma alloc_qty_None p : pinv p -> alloc_qty p = None -> p_qty p = None.
Proof.
  intros I. unfold alloc_qty. destruct (eqb_spec (p_sum p) (Q2Qc 0)); [|auto].
  destruct (p_qty p) eqn:E; auto. intros _. exfalso. apply (pi_sum p I); congruence.
Qed.
Lemma alloc_qty_eq p : pinv p -> alloc_qty p = p_qty p.
Proof.
  intros I. unfold alloc_qty. destruct (eqb_spec (p_sum p) (Q2Qc 0)); [|auto].
  destruct (p_qty p) eqn:E; auto. exfalso. apply (pi_sum p I); congruence.
Qed.
Lemma add_exchange_other p f d r v t dups k : k <> (f, d, t_key t) ->
  dget k (p_exch (fst (add_exchange p f d r v t dups))) = dget k (p_exch p).
Proof.
  intros N. unfold add_exchange. cbv zeta.
  assert (S : forall e, dget k (p_exch (p_set p (f, d, t_key t) e)) = dget k (p_exch p)) by (intros; apply dget_dset_other; exact N).
  repeat match goal with |- context [match ?x with _ => _ end] => destruct x; try reflexivity; try apply S end.
Qed.
Lemma add_exchange_qty p f d r v t dups :
  p_qty (fst (add_exchange p f d r v t dups)) = p_qty p /\ p_sum (fst (add_exchange p f d r v t dups)) = p_sum p
  /\ p_refs (fst (add_exchange p f d r v t dups)) = p_refs p.
Proof.
  unfold add_exchange. cbv zeta.
  repeat match goal with |- context [match ?x with _ => _ end] => destruct x; try (repeat split; reflexivity) end.
Qed.
Lemma fresh_step cf p o : pinv p -> fresh cf p -> keeps_total cf p o -> fresh cf (fst (pstep cf p o)).
Proof.
  intros I F [N|K].
  - apply (alloc_qty_None p I) in N. destruct o as [f d r v t dups|f d|f d|q]; cbn [pstep fst].
    + destruct (add_exchange_qty p f d r v t dups) as [E _]. intros q X. congruence.
    + unfold add_reference. cbv zeta. cbn [fst].
      match goal with |- context [match alloc_qty ?q with _ => _ end] => set (p1 := q) end.
      assert (Q1 : p_qty p1 = None) by (subst p1; destruct (dget (f, d, None) (p_exch p)); exact N).
      assert (Q2 : alloc_qty p1 = None) by (unfold alloc_qty; rewrite Q1; destruct (eqb (p_sum p1) (Q2Qc 0)); reflexivity).
      rewrite Q2. intros q X; congruence.
    + unfold remove_reference. cbv zeta. rewrite N. destruct (dget (f, d, None) (p_exch p)); intros q X; cbn in X; congruence.
    + destruct q as [q|]; [apply fresh_allocate; auto|intros q X; discriminate].
  - destruct o as [f d r v t dups|f d|f d|q]; cbn [pstep fst] in *.
    + destruct (add_exchange_qty p f d r v t dups) as [E1 [E2 E3]]. intros q X. rewrite E2, (F q) by congruence. symmetry.
      apply total_output_ext; auto. intros r0 J. unfold exch_value. rewrite add_exchange_other; auto. intros ->. auto.
    + unfold add_reference in *. cbv zeta in *. cbn [fst] in *.
      match goal with |- context [match alloc_qty ?q with _ => _ end] => set (p1 := q) in * end.
      assert (Q1 : p_qty p1 = p_qty p) by (subst p1; destruct (dget (f, d, None) (p_exch p)); reflexivity).
      assert (Q2 : p_sum p1 = p_sum p) by (subst p1; destruct (dget (f, d, None) (p_exch p)); reflexivity).
      assert (Q3 : alloc_qty p1 = alloc_qty p) by (unfold alloc_qty; rewrite Q1, Q2; reflexivity).
      rewrite Q3, (alloc_qty_eq p I), Q1 in *. destruct (p_qty p) as [q|] eqn:Q.
      * apply fresh_allocate. left. specialize (K q eq_refl). rewrite total_allocate in K. exact K.
      * intros q X. congruence.
    + unfold remove_reference in *. cbv zeta in *. destruct (dget (f, d, None) (p_exch p)) as [e|]; [|exact F].
      cbn [fst] in *. destruct (p_qty p) as [q|] eqn:Q.
      * apply fresh_allocate. left. specialize (K q eq_refl). rewrite total_allocate in K. exact K.
      * intros q X. discriminate X.
    + destruct q as [q|]; [apply fresh_allocate; auto|intros q X; discriminate].
Qed.
Lemma fresh_history cf ops : forall p, pinv p -> fresh cf p -> all_steps cf (keeps_total cf) p ops ->
  fresh cf (fold_left (fun p o => fst (pstep cf p o)) ops p).
Proof.
  induction ops as [|o ops IH]; intros p I F A; [exact F|]. destruct A as [A1 A2]. cbn [fold_left].
  apply IH; auto using pinv_step, fresh_step.
Qed.

(** Along every history whose later edits keep the stored total up to date, while the process is allocated the shares of
    every non-reference exchange with a value add up to that value.  Missing: histories that write a reference's value or
    leave a zero total while allocated -- refuted below. *)
Theorem C24_shares_add_up_partial : forall cf ops k e v q,
  all_steps cf (keeps_total cf) new_proc ops ->
  let p := prun cf ops in
  alloc_qty p = Some q -> dget k (p_exch p) = Some e -> x_ref e = false -> value e = Some v ->
  Qcsum (map (share cf p k) (p_refs p)) = v.
Proof.
  intros cf ops k e v q A p Q D R V.
  pose proof (pinv_prun cf ops) as I. fold p in I.
  assert (F : fresh cf p) by (apply fresh_history; auto using pinv_new; intros x X; discriminate).
  pose proof Q as Q'. rewrite (alloc_qty_eq p I) in Q'.
  assert (NZ : p_sum p <> Q2Qc 0) by (apply (pi_sum p I); congruence).
  assert (S : forall r, In r (p_refs p) -> share cf p k r = (v / p_sum p * ref_output cf p q r)%Qc).
  { intros r J. unfold share, ref_output. apply (pi_ref p I) in J as [er [Dr Rr]].
    unfold getitem. rewrite D, Dr, Rr, R, Q, V. unfold exch_value. rewrite Dr. destruct (value er); ring. }
  rewrite (map_ext_in _ _ _ S), Qcsum_map_scale. fold (total_output cf p q). rewrite <- (F q Q'). field. exact NZ.
Qed.
Print Assumptions C24_shares_add_up_partial.

Definition kg : nat -> nat -> Qc := fun f _ => match f with 0 => Q2Qc 2 | 1 => Q2Qc 3 | _ => Q2Qc 0 end.
Definition two_refs : list pop :=
  [PAddExchange 0 Output None (Some (Q2Qc 1)) TNone false; PAddReference 0 Output;
   PAddExchange 1 Output None (Some (Q2Qc 4)) TNone false; PAddReference 1 Output;
   PAddExchange 5 Input None (Some (Q2Qc 7)) TNone false; PAllocate (Some 9)].
Ltac qc_eq := apply Qc_is_canon; vm_compute; reflexivity.
Ltac qc_neq := let E := fresh in intros E; apply (f_equal this) in E; vm_compute in E; discriminate E.
Example C24_witness : all_steps kg (keeps_total kg) new_proc two_refs
  /\ alloc_qty (prun kg two_refs) = Some 9
  /\ share kg (prun kg two_refs) (5, Input, None) (0, Output, None) = Q2Qc 1
  /\ share kg (prun kg two_refs) (5, Input, None) (1, Output, None) = Q2Qc 6.
Proof.
  split; [|split; [reflexivity|split; vm_compute; apply Qc_is_canon; reflexivity]].
  cbn [all_steps two_refs]. repeat split; try (left; vm_compute; reflexivity).
Qed.
(** A value given to a reference after allocation: the shares of the exchange (7) come to 49. *)
Definition late_value : list pop :=
  [PAddExchange 0 Output None (Some (Q2Qc 1)) TNone false; PAddReference 0 Output;
   PAddExchange 1 Output None None TNone false; PAddReference 1 Output;
   PAddExchange 5 Input None (Some (Q2Qc 7)) TNone false; PAllocate (Some 9);
   PAddExchange 1 Output None (Some (Q2Qc 4)) TNone false].
Theorem C24_refuted_late_reference_value : let p := prun kg late_value in
  alloc_qty p = Some 9 /\ exch_value p (5, Input, None) = Some (Q2Qc 7) /\ is_ref p (5, Input, None) = false /\
  Qcsum (map (share kg p (5, Input, None)) (p_refs p)) = Q2Qc 49.
Proof. repeat split; vm_compute; try reflexivity; apply Qc_is_canon; reflexivity. Qed.
(** Removing the reference that carried the quantity leaves the allocation in place with the old total: nothing is assigned
    to the remaining reference. *)
Definition zero_left : list pop :=
  [PAddExchange 0 Output None (Some (Q2Qc 1)) TNone false; PAddReference 0 Output;
   PAddExchange 2 Output None (Some (Q2Qc 4)) TNone false; PAddReference 2 Output;
   PAddExchange 5 Input None (Some (Q2Qc 7)) TNone false; PAllocate (Some 9); PRemoveReference 0 Output].
Theorem C24_refuted_zero_total : let p := prun kg zero_left in
  alloc_qty p = Some 9 /\ exch_value p (5, Input, None) = Some (Q2Qc 7) /\ is_ref p (5, Input, None) = false /\
  Qcsum (map (share kg p (5, Input, None)) (p_refs p)) = Q2Qc 0.
Proof. repeat split; vm_compute; try reflexivity; apply Qc_is_canon; reflexivity. Qed.

(** * C25 *)
Definition uvalue (p : proc) (k : key) : option Qc := match dget k (p_exch p) with Some e => x_value e | None => None end.
Definition avalue (p : proc) (k r : key) : option (option Qc) := match dget k (p_exch p) with Some e => dget r (x_vdict e) | None => None end.
(** A second nonzero value for the same exchange, or for the same exchange and reference, is refused and nothing changes. *)
Theorem C25_second_value_refused : forall p f d v w t,
  (forall s, t <> TObj s) -> uvalue p (f, d, t_key t) = Some w -> v <> Q2Qc 0 ->
  add_exchange p f d None (Some v) t false = (p, PErr DuplicateExchange).
Proof.
  intros p f d v w t T U V. unfold uvalue in U. destruct (dget (f, d, t_key t) (p_exch p)) as [e|] eqn:D; [|discriminate].
  unfold add_exchange. cbv zeta. replace (match t with TObj _ => None | _ => dget (f, d, t_key t) (p_exch p) end) with (Some e)
    by (destruct t; try (symmetry; exact D); exfalso; eapply T; reflexivity).
  destruct (eqb_spec v (Q2Qc 0)); [contradiction|]. rewrite U. reflexivity.
Qed.
Theorem C25_second_share_refused : forall p f d r v w t,
  (forall s, t <> TObj s) -> avalue p (f, d, t_key t) r = Some w -> is_ref p r = true -> v <> Q2Qc 0 ->
  add_exchange p f d (Some r) (Some v) t false = (p, PErr DuplicateExchange).
Proof.
  intros p f d r v w t T U R V. unfold avalue in U. destruct (dget (f, d, t_key t) (p_exch p)) as [e|] eqn:D; [|discriminate].
  unfold add_exchange. cbv zeta. replace (match t with TObj _ => None | _ => dget (f, d, t_key t) (p_exch p) end) with (Some e)
    by (destruct t; try (symmetry; exact D); exfalso; eapply T; reflexivity).
  destruct (eqb_spec v (Q2Qc 0)); [contradiction|]. unfold setitem. rewrite R. cbn [negb]. unfold din. rewrite U. reflexivity.
Qed.
(** With add_dups the values are summed. *)
Theorem C25_add_dups_sums : forall p f d v w t,
  (forall s, t <> TObj s) -> uvalue p (f, d, t_key t) = Some w -> v <> Q2Qc 0 ->
  exists p', add_exchange p f d None (Some v) t true = (p', POk (Some (f, d, t_key t))) /\ uvalue p' (f, d, t_key t) = Some (w + v)%Qc
    /\ forall k r, (k <> (f, d, t_key t) -> uvalue p' k = uvalue p k) /\ avalue p' k r = avalue p k r.
Proof.
  intros p f d v w t T U V. unfold uvalue in U. destruct (dget (f, d, t_key t) (p_exch p)) as [e|] eqn:D; [|discriminate].
  unfold add_exchange. cbv zeta. replace (match t with TObj _ => None | _ => dget (f, d, t_key t) (p_exch p) end) with (Some e)
    by (destruct t; try (symmetry; exact D); exfalso; eapply T; reflexivity).
  destruct (eqb_spec v (Q2Qc 0)); [contradiction|]. rewrite U. unfold add_to_value. rewrite U.
  eexists. split; [reflexivity|]. unfold uvalue, avalue; cbn. rewrite dget_dset_same. split; [reflexivity|].
  intros k r. rewrite dget_dset. destruct (eqb_spec k (f, d, t_key t)) as [->|N]; [|auto]. split; [congruence|]. rewrite D; reflexivity.
Qed.
Theorem C25_add_dups_sums_share : forall p f d r v w t,
  (forall s, t <> TObj s) -> avalue p (f, d, t_key t) r = Some (Some w) -> is_ref p r = true -> v <> Q2Qc 0 ->
  exists p', add_exchange p f d (Some r) (Some v) t true = (p', POk (Some (f, d, t_key t))) /\ avalue p' (f, d, t_key t) r = Some (Some (w + v)%Qc)
    /\ forall k s, uvalue p' k = uvalue p k /\ (k <> (f, d, t_key t) \/ s <> r -> avalue p' k s = avalue p k s).
Proof.
  intros p f d r v w t T U R V. unfold avalue in U. destruct (dget (f, d, t_key t) (p_exch p)) as [e|] eqn:D; [|discriminate].
  unfold add_exchange. cbv zeta. replace (match t with TObj _ => None | _ => dget (f, d, t_key t) (p_exch p) end) with (Some e)
    by (destruct t; try (symmetry; exact D); exfalso; eapply T; reflexivity).
  destruct (eqb_spec v (Q2Qc 0)); [contradiction|]. unfold setitem. rewrite R. cbn [negb]. unfold din. rewrite U. unfold add_to_value. rewrite U.
  eexists. split; [reflexivity|]. unfold uvalue, avalue; cbn [p_exch p_set with_exch]. rewrite dget_dset_same. split; [apply dget_dset_same|].
  intros k s. rewrite dget_dset. destruct (eqb_spec k (f, d, t_key t)) as [->|N]; [|auto]. split; [rewrite D; reflexivity|].
  intros [X|X]; [congruence|]. rewrite D; cbn [x_vdict]. apply dget_dset_other; exact X.
Qed.
(** No call of any kind changes a value once set, except add_dups (which adds) and a termination that is not a string;
    shares also go away with the reference they belong to. *)
Definition overwrites (o : pop) : Prop := match o with PAddExchange _ _ _ _ t dups => dups = true \/ exists s, t = TObj s | _ => False end.
Lemma kept_step cf p o k r : ~ overwrites o ->
  let p' := fst (pstep cf p o) in
  (uvalue p k <> None -> uvalue p' k = uvalue p k) /\
  (avalue p k r <> None -> (forall f d, o = PRemoveReference f d -> r <> (f, d, None)) -> avalue p' k r = avalue p k r).
Proof.
  intros NO p'. subst p'. destruct o as [f d s v t dups|f d|f d|q]; cbn [pstep fst].
  - destruct (eqb_spec k (f, d, t_key t)) as [->|N].
    2:{ unfold uvalue, avalue. rewrite add_exchange_other by exact N. auto. }
    unfold add_exchange. cbv zeta.
    assert (T : forall s, t <> TObj s) by (intros s0 E; apply NO; right; exists s0; exact E).
    assert (ND : dups = false) by (destruct dups; [exfalso; apply NO; left; reflexivity|reflexivity]). subst dups.
    destruct (match t with TObj _ => None | _ => dget (f, d, t_key t) (p_exch p) end) as [e|] eqn:K.
    + assert (D : dget (f, d, t_key t) (p_exch p) = Some e) by (destruct t; first [exact K|discriminate K]).
      destruct v as [v|]; [|auto]. destruct (eqb v (Q2Qc 0)); [auto|]. destruct s as [s|].
      * destruct (setitem (f, d, t_key t) e s (is_ref p s) (Some v)) as [e'|x] eqn:S; [|destruct x; auto].
        apply setitem_ok in S as [S1 [S2 [S3 S4]]].
        unfold uvalue, avalue; cbn [fst p_exch p_set with_exch]. rewrite dget_dset_same, D.
        destruct S3 as [[_ [_ [W ->]]]|[[_ [_ [_ ->]]]|[_ ->]]]; cbn [x_value x_vdict]; split; auto; try congruence.
        intros A _. apply dget_dset_other. congruence.
      * destruct (x_value e) eqn:W; [auto|]. unfold uvalue, avalue; cbn [fst p_exch p_set with_exch]. rewrite dget_dset_same, D.
        cbn [x_value x_vdict]. split; auto. congruence.
    + assert (D : dget (f, d, t_key t) (p_exch p) = None) by (destruct t; first [exact K|exfalso; eapply T; reflexivity]).
      unfold uvalue, avalue. rewrite D. split; intros; congruence.
  - unfold add_reference. cbv zeta. cbn [fst].
    match goal with |- context [match alloc_qty ?q with _ => _ end] => set (p1 := q) end.
    assert (E : p_exch (match alloc_qty p1 with Some _ => allocate cf p1 (p_qty p1) | None => p1 end) = p_exch p1)
      by (destruct (alloc_qty p1); [apply allocate_exch|reflexivity]). unfold uvalue, avalue. rewrite E. subst p1.
    destruct (dget (f, d, None) (p_exch p)) as [e|] eqn:D; [|auto]. cbn [p_exch]. rewrite dget_dset.
    destruct (eqb_spec k (f, d, None)) as [->|]; [|auto]. rewrite D. auto.
  - unfold remove_reference. cbv zeta. destruct (dget (f, d, None) (p_exch p)) as [e|] eqn:D; [|auto]. cbn [fst].
    fold (rm_exch (f, d, None) e (p_exch p)).
    match goal with |- context [match p_qty p with Some _ => allocate cf ?q _ | None => _ end] => set (p1 := q) end.
    assert (E : p_exch (match p_qty p with Some _ => allocate cf p1 (p_qty p) | None => p1 end) = p_exch p1)
      by (destruct (p_qty p); [apply allocate_exch|reflexivity]). unfold uvalue, avalue. rewrite E. subst p1. cbn [p_exch].
    rewrite dget_rm_exch. destruct (eqb_spec k (f, d, None)) as [->|].
    + rewrite D. cbn [x_value x_vdict]. split; auto. intros _ X. rewrite dget_ddel. specialize (X f d eq_refl).
      destruct (eqb_spec r (f, d, None)); congruence.
    + destruct (dget k (p_exch p)) as [e0|]; [|auto]. cbn. split; auto. intros _ X. rewrite dget_ddel. specialize (X f d eq_refl).
      destruct (eqb_spec r (f, d, None)); congruence.
  - unfold uvalue, avalue. rewrite allocate_exch. auto.
Qed.
Theorem C25_value_written_once : forall cf ops more k r w,
  Forall (fun o => ~ overwrites o) more ->
  let p := prun cf ops in let p' := prun cf (ops ++ more) in
  (uvalue p k = Some w -> uvalue p' k = Some w) /\
  (forall s, avalue p k r = Some s -> (forall f d, In (PRemoveReference f d) more -> r <> (f, d, None)) -> avalue p' k r = Some s).
Proof.
  intros cf ops more k r w. induction more as [|o more IH] using rev_ind; intros A p p'.
  - subst p'. rewrite app_nil_r. auto.
  - apply Forall_app in A as [A1 A2]. inversion A2 as [|? ? A3 _]; subst. specialize (IH A1). cbv zeta in IH. fold p in IH.
    destruct IH as [H1 H2]. subst p'. rewrite app_assoc, prun_snoc.
    destruct (kept_step cf (prun cf (ops ++ more)) o k r A3) as [K1 K2]. split.
    + intros U. specialize (H1 U). rewrite K1; congruence.
    + intros s U X. assert (Y : avalue (prun cf (ops ++ more)) k r = Some s) by (apply H2; auto; intros; apply X; apply in_app_iff; auto).
      rewrite K2; [exact Y|congruence|]. intros f d ->. apply X. apply in_app_iff; cbn; auto.
Qed.
Theorem C25_error_changes_nothing : forall p f d r v t dups p' x,
  add_exchange p f d r v t dups = (p', PErr x) -> p' = p.
Proof.
  intros p f d r v t dups p' x. unfold add_exchange. cbv zeta.
  repeat match goal with |- context [match ?x with _ => _ end] => destruct x; try (intros E; congruence) end.
Qed.
Print Assumptions C25_second_value_refused.
Print Assumptions C25_second_share_refused.
Print Assumptions C25_add_dups_sums.
Print Assumptions C25_add_dups_sums_share.
Print Assumptions C25_value_written_once.
Print Assumptions C25_error_changes_nothing.
(** Witnesses and deviations from the full claim. *)
Definition one_value := [PAddExchange 5 Input None (Some (Q2Qc 7)) (TStr "t") false].
Example C25_witness : uvalue (prun kg one_value) (5, Input, Some "t") = Some (Q2Qc 7). Proof. reflexivity. Qed.
(** A second value of 0 is dropped without an error. *)
Theorem C25_refuted_zero : forall dups,
  add_exchange (prun kg one_value) 5 Input None (Some (Q2Qc 0)) (TStr "t") dups = (prun kg one_value, POk None).
Proof. destruct dups; reflexivity. Qed.
(** add_dups with the reference itself as the reference: the call succeeds and the value is lost. *)
Definition one_ref := [PAddExchange 0 Output None (Some (Q2Qc 1)) TNone false; PAddReference 0 Output].
Theorem C25_refuted_dups_on_reference :
  exists k, snd (add_exchange (prun kg one_ref) 0 Output (Some (0, Output, None)) (Some (Q2Qc 5)) TNone true) = POk (Some k)
  /\ uvalue (fst (add_exchange (prun kg one_ref) 0 Output (Some (0, Output, None)) (Some (Q2Qc 5)) TNone true)) (0, Output, None) = Some (Q2Qc 1).
Proof. exists (0, Output, None). split; reflexivity. Qed.
(** A termination that is not a string: the existing value is replaced. *)
Theorem C25_refuted_nonstring_termination :
  let (p', r) := add_exchange (prun kg one_value) 5 Input None (Some (Q2Qc 9)) (TObj "t") false in
  r = POk (Some (5, Input, Some "t")) /\ uvalue p' (5, Input, Some "t") = Some (Q2Qc 9).
Proof. split; reflexivity. Qed.

(** * C26 *)
Theorem C26_reference_relation : forall cf ops r s,
  let p := prun cf ops in In r (p_refs p) -> In s (p_refs p) ->
  getitem cf p r s = POk (if eqb r s then Q2Qc 1 else Q2Qc 0).
Proof.
  intros cf ops r s p R S. pose proof (pinv_prun cf ops) as I. fold p in I.
  apply (pi_ref p I) in R as [er [Dr Rr]]. apply (pi_ref p I) in S as [es [Ds Rs]].
  unfold getitem. rewrite Dr, Ds, Rs, Rr. reflexivity.
Qed.
(** Causal allocation: x[r] * r.value is the share entered for r, 0 if none was entered. *)
Theorem C26_causal_share : forall cf ops k e r v,
  let p := prun cf ops in
  dget k (p_exch p) = Some e -> x_ref e = false -> In r (p_refs p) -> alloc_qty p = None -> x_vdict e <> [] ->
  exch_value p r = Some v -> v <> Q2Qc 0 ->
  match dget r (x_vdict e) with
  | None => getitem cf p k r = POk (Q2Qc 0)
  | Some (Some w) => exists x, getitem cf p k r = POk x /\ (x * v)%Qc = w
  | Some None => getitem cf p k r = PErr PTypeError
  end.
Proof.
  intros cf ops k e r v p D R S A N V NZ. pose proof (pinv_prun cf ops) as I. fold p in I.
  apply (pi_ref p I) in S as [er [Dr Rr]]. unfold getitem. rewrite D, Dr, Rr, R, A.
  destruct (x_vdict e) as [|c l] eqn:E; [congruence|]. rewrite <- E. unfold exch_value in V. rewrite Dr in V. rewrite V.
  destruct (dget r (x_vdict e)) as [[w|]|]; cbn [pdiv]; auto.
  destruct (eqb_spec v (Q2Qc 0)); [contradiction|]. eexists; split; [reflexivity|]. field. exact n.
Qed.
(** Without any allocation, x[r] * r.value is the exchange value. *)
Theorem C26_unallocated : forall cf ops k e r v w,
  let p := prun cf ops in
  dget k (p_exch p) = Some e -> x_ref e = false -> In r (p_refs p) -> alloc_qty p = None -> x_vdict e = [] -> value e = Some w ->
  exch_value p r = Some v -> v <> Q2Qc 0 ->
  exists x, getitem cf p k r = POk x /\ (x * v)%Qc = w.
Proof.
  intros cf ops k e r v w p D R S A N W V NZ. pose proof (pinv_prun cf ops) as I. fold p in I.
  apply (pi_ref p I) in S as [er [Dr Rr]]. unfold getitem. rewrite D, Dr, Rr, R, A, N.
  unfold value in W. rewrite N in W. unfold exch_value in V. rewrite Dr in V. rewrite V. destruct (x_value e) as [w'|]; [|discriminate].
  injection W as ->. cbn [pdiv]. destruct (eqb_spec v (Q2Qc 0)) as [|NN]; [contradiction|]. eexists; split; [reflexivity|]. field. exact NN.
Qed.
Print Assumptions C26_reference_relation.
Print Assumptions C26_causal_share.
Print Assumptions C26_unallocated.
Definition causal : list pop :=
  [PAddExchange 0 Output None (Some (Q2Qc 2)) TNone false; PAddReference 0 Output;
   PAddExchange 1 Output None (Some (Q2Qc 4)) TNone false; PAddReference 1 Output;
   PAddExchange 5 Input None (Some (Q2Qc 7)) TNone false;
   PAddExchange 5 Input (Some (0, Output, None)) (Some (Q2Qc 6)) TNone false].
Example C26_witness : getitem kg (prun kg causal) (5, Input, None) (0, Output, None) = POk (Q2Qc 3)
  /\ getitem kg (prun kg causal) (5, Input, None) (1, Output, None) = POk (Q2Qc 0)
  /\ alloc_qty (prun kg causal) = None.
Proof. split; [|split; reflexivity]. vm_compute. f_equal. apply Qc_is_canon; reflexivity. Qed.

(** * C27 *)
Theorem C27_partition_of_unity : forall cf p q l,
  allocation_factors cf p (Some q) = POk l -> l <> [] ->
  map fst l = filter (fun r => match exch_value p r with Some _ => true | None => false end) (p_refs p)
  /\ Qcsum (map snd l) = Q2Qc 1
  /\ forall r x, In (r, x) l -> (x * total_output cf p q)%Qc = ref_output cf p q r.
Proof.
  intros cf p q l. unfold allocation_factors.
  assert (K : map fst (alloc_dict cf p q) = filter (fun r => match exch_value p r with Some _ => true | None => false end) (p_refs p)).
  { unfold alloc_dict. induction (p_refs p) as [|r rs IH]; [reflexivity|]. cbn [flat_map filter]. rewrite map_app, IH.
    destruct (exch_value p r); reflexivity. }
  assert (RO : forall r y, In (r, y) (alloc_dict cf p q) -> y = ref_output cf p q r).
  { intros r y J. unfold alloc_dict in J. apply in_flat_map in J as [r' [_ J]]. unfold ref_output.
    destruct (exch_value p r') eqn:E; [|destruct J]. destruct J as [J|[]]. injection J as -> <-. rewrite E. reflexivity. }
  rewrite total_alloc_dict. destruct (alloc_dict cf p q) as [|a d] eqn:AD.
  { intros E; injection E as <-. congruence. }
  destruct (eqb_spec (total_output cf p q) (Q2Qc 0)) as [|NZ]; [discriminate|]. rewrite <- AD in *. intros E N; injection E as <-.
  split; [|split].
  - rewrite map_map. exact K.
  - rewrite map_map. cbn. rewrite (map_ext _ (fun kv => (/ total_output cf p q * snd kv)%Qc)) by (intros; field; exact NZ).
    rewrite Qcsum_map_scale, total_alloc_dict. field. exact NZ.
  - intros r x J. apply in_map_iff in J as [[r' y] [J1 J2]]. cbn in J1. injection J1 as -> <-. rewrite <- (RO _ _ J2). field. exact NZ.
Qed.
(** When the total is nonzero the factors are returned; when it is zero and some reference has a value, ZeroDivisionError. *)
Theorem C27_when : forall cf p q,
  (total_output cf p q <> Q2Qc 0 -> exists l, allocation_factors cf p (Some q) = POk l /\ l <> [])
  /\ (total_output cf p q = Q2Qc 0 -> (exists r, In r (p_refs p) /\ exch_value p r <> None) -> allocation_factors cf p (Some q) = PErr PZeroDivision).
Proof.
  intros cf p q. unfold allocation_factors. rewrite total_alloc_dict. split.
  - intros NZ. destruct (alloc_dict cf p q) as [|a d] eqn:AD.
    + exfalso. apply NZ. rewrite <- total_alloc_dict, AD. reflexivity.
    + destruct (eqb_spec (total_output cf p q) (Q2Qc 0)); [contradiction|]. eexists; split; [reflexivity|discriminate].
  - intros Z [r [I V]]. destruct (alloc_dict cf p q) as [|a d] eqn:AD.
    + exfalso. destruct (exch_value p r) as [v|] eqn:E; [|congruence].
      assert (J : In (r, (v * cf (k_flow r) q)%Qc) (alloc_dict cf p q)).
      { unfold alloc_dict. apply in_flat_map. exists r. split; auto. rewrite E. cbn; auto. }
      rewrite AD in J. destruct J.
    + rewrite Z, eqb_refl. reflexivity.
Qed.
Print Assumptions C27_partition_of_unity.
Print Assumptions C27_when.
Example C27_witness : allocation_factors kg (prun kg two_refs) (Some 9) =
  POk [((0, Output, None), Q2Qc (1#7)); ((1, Output, None), Q2Qc (6#7))].
Proof. vm_compute. do 2 f_equal; [|f_equal]; f_equal; apply Qc_is_canon; reflexivity. Qed.

(** * C28 *)
(** Specification of a match. *)
Definition matches (p : proc) (s : spec) (ref : option bool) (d : option dirn) (k : key) : Prop :=
  In k (dkeys (p_exch p))
  /\ match s with SNone => True | SFlow f => k_flow k = f | SExch x => k_flow k = k_flow x end
  /\ match d, s with Some d, _ => k_dir k = d | None, SExch x => k_dir k = k_dir x | None, _ => True end
  /\ match ref with None => True | Some b => is_ref p k = b end.
Lemma is_ref_get p k e : dget k (p_exch p) = Some e -> is_ref p k = x_ref e.
Proof. unfold is_ref. intros ->. reflexivity. Qed.
Lemma In_filter_keys p (f : key * exch -> bool) k : pinv p ->
  In k (map fst (filter f (p_exch p))) <-> exists e, dget k (p_exch p) = Some e /\ f (k, e) = true.
Proof.
  intros I. rewrite in_map_iff. split.
  - intros [[k' e] [E J]]. cbn in E. subst k'. apply filter_In in J as [J B]. exists e. split; auto. apply In_dget; auto. apply (pi_keys p I).
  - intros [e [D B]]. exists (k, e). split; auto. apply filter_In. split; auto. apply dget_In; exact D.
Qed.
Lemma NoDup_map_filter {A B} (g : A -> B) (f : A -> bool) l : NoDup (map g l) -> NoDup (map g (filter f l)).
Proof.
  induction l as [|x l IH]; cbn; [auto|]. inversion 1 as [|? ? N ND]; subst. destruct (f x); cbn; auto. constructor; auto.
  intros J. apply N. apply in_map_iff in J as [y [E J]]. apply filter_In in J as [J _]. rewrite <- E. apply in_map; exact J.
Qed.
Lemma gen_exchanges_spec p f d ref : pinv p ->
  NoDup (gen_exchanges p f d ref) /\
  forall k, In k (gen_exchanges p f d ref) <->
    In k (dkeys (p_exch p)) /\ (match f with None => True | Some f => k_flow k = f end) /\ (match d with None => True | Some d => k_dir k = d end)
    /\ match ref with None => True | Some b => is_ref p k = b end.
Proof.
  intros I. unfold gen_exchanges. split.
  - apply NoDup_filter. destruct f as [f|].
    + apply NoDup_map_filter. apply (pi_keys p I).
    + destruct ref as [[|]|]; [apply (pi_refs p I)|apply NoDup_map_filter; apply (pi_keys p I)|apply (pi_keys p I)].
  - intros k. rewrite filter_In.
    assert (DD : (match d with None => true | Some d0 => eqb (k_dir k) d0 end) = true <-> match d with None => True | Some d0 => k_dir k = d0 end).
    { destruct d as [d|]; [|tauto]. apply eqb_eq. }
    rewrite DD. clear DD.
    assert (KK : In k (match f, ref with
            | None, Some true => p_refs p
            | None, Some false => map fst (filter (fun ke => negb (x_ref (snd ke))) (p_exch p))
            | None, None => dkeys (p_exch p)
            | Some f, r => map fst (filter (fun ke => Nat.eqb (k_flow (fst ke)) f && match r with None => true | Some b => Bool.eqb (x_ref (snd ke)) b end) (p_exch p))
            end) <-> In k (dkeys (p_exch p)) /\ (match f with None => True | Some f => k_flow k = f end) /\ match ref with None => True | Some b => is_ref p k = b end).
    { destruct f as [f|].
      - rewrite (In_filter_keys p) by exact I. split.
        + intros [e [D B]]. cbn in B. apply andb_prop in B as [B1 B2]. apply Nat.eqb_eq in B1. split; [eapply dget_Some_key; eauto|split; auto].
          rewrite (is_ref_get _ _ _ D). destruct ref as [b|]; auto. apply Bool.eqb_prop in B2. exact B2.
        + intros [J [F R]]. apply dget_key_Some in J as [e D]. exists e. split; auto. cbn. rewrite F, Nat.eqb_refl. cbn.
          destruct ref as [b|]; auto. rewrite (is_ref_get _ _ _ D) in R. subst b. apply Bool.eqb_reflx.
      - destruct ref as [[|]|].
        + rewrite (pi_ref p I). unfold is_ref_in, is_ref. split.
          * intros [e [D R]]. rewrite D. split; [eapply dget_Some_key; eauto|auto].
          * intros [J [_ R]]. apply dget_key_Some in J as [e D]. rewrite D in R. eauto.
        + rewrite (In_filter_keys p) by exact I. split.
          * intros [e [D B]]. cbn in B. split; [eapply dget_Some_key; eauto|split; auto]. rewrite (is_ref_get _ _ _ D). destruct (x_ref e); auto; discriminate.
          * intros [J [_ R]]. apply dget_key_Some in J as [e D]. exists e. split; auto. cbn. rewrite (is_ref_get _ _ _ D) in R. rewrite R; reflexivity.
        + tauto. }
    rewrite KK. tauto.
Qed.
Lemma find_spec_list (c : list key) : NoDup c ->
  let r := match c with
  | [] => PErr NoExchangeFound
  | [x] => POk x
  | _ => match filter (fun k => match k_term k with None => true | Some _ => false end) c with
         | [] => PErr AmbiguousReference
         | [x] => POk x
         | _ => PErr MultipleReferencesFound
         end
  end in
  (r = PErr NoExchangeFound /\ (forall k, ~ In k c))
  \/ (exists k, r = POk k /\ In k c /\ ((forall k', In k' c -> k' = k) \/ (k_term k = None /\ forall k', In k' c -> k_term k' = None -> k' = k)))
  \/ (r = PErr AmbiguousReference /\ (exists k1 k2, k1 <> k2 /\ In k1 c /\ In k2 c) /\ forall k, In k c -> k_term k <> None)
  \/ (r = PErr MultipleReferencesFound /\ exists k1 k2, k1 <> k2 /\ In k1 c /\ In k2 c /\ k_term k1 = None /\ k_term k2 = None).
Proof.
  intros N. destruct c as [|x [|y c]].
  - left. split; auto.
  - right; left. exists x. split; [reflexivity|]. split; [cbn; auto|]. left. intros k' [E|[]]; auto.
  - right. cbv zeta. set (l := x :: y :: c) in *. set (g := fun k : key => match k_term k with None => true | Some _ => false end).
    assert (G : forall k, In k (filter g l) <-> In k l /\ k_term k = None).
    { intros k. rewrite filter_In. unfold g. destruct (k_term k); split; intros [? ?]; split; auto; congruence. }
    assert (NF : NoDup (filter g l)) by (apply NoDup_filter; exact N).
    destruct (filter g l) as [|a [|b f]].
    + right; left. split; [reflexivity|]. split.
      * exists x, y. split; [|split; cbn; auto]. intros ->. inversion N as [|? ? X _]; subst. apply X; cbn; auto.
      * intros k J T. apply (G k); auto.
    + left. exists a. split; [reflexivity|]. assert (A : In a [a]) by (cbn; auto). apply G in A as [A1 A2]. split; auto. right. split; auto.
      intros k' J T. assert (X : In k' [a]) by (apply G; auto). destruct X as [X|[]]; auto.
    + right; right. split; [reflexivity|]. exists a, b. assert (A : In a (a :: b :: f)) by (cbn; auto). assert (B : In b (a :: b :: f)) by (cbn; auto).
      apply G in A as [A1 A2]. apply G in B as [B1 B2]. repeat split; auto. intros ->. inversion NF as [|? ? X _]; subst. apply X; cbn; auto.
Qed.
Lemma find_cases p s ref d : pinv p ->
  let r := find_exchange p s ref d in let M := matches p s ref d in
  (r = PErr NoExchangeFound /\ (forall k, ~ M k))
  \/ (exists k, r = POk k /\ M k /\ ((forall k', M k' -> k' = k) \/ (k_term k = None /\ forall k', M k' -> k_term k' = None -> k' = k)))
  \/ (r = PErr AmbiguousReference /\ (exists k1 k2, k1 <> k2 /\ M k1 /\ M k2) /\ forall k, M k -> k_term k <> None)
  \/ (r = PErr MultipleReferencesFound /\ exists k1 k2, k1 <> k2 /\ M k1 /\ M k2 /\ k_term k1 = None /\ k_term k2 = None).
Proof.
  intros I. cbv zeta. unfold find_exchange. set (M := matches p s ref d). cbv zeta.
  set (c := candidates p s ref d).
  assert (C : NoDup c /\ forall k, In k c <-> M k).
  { subst c M. unfold candidates, matches. destruct s as [|f|x].
    - destruct (gen_exchanges_spec p None d ref I) as [A B]. split; [exact A|]. intros k. rewrite B. destruct d; tauto.
    - destruct (gen_exchanges_spec p (Some f) d ref I) as [A B]. split; [exact A|]. intros k. rewrite B. destruct d; tauto.
    - destruct (gen_exchanges_spec p (Some (k_flow x)) (match d with None => Some (k_dir x) | _ => d end) ref I) as [A B]. split; [exact A|].
      intros k. rewrite B. destruct d; tauto. }
  destruct C as [C1 C2]. clearbody c. pose proof (find_spec_list c C1) as F. cbv zeta in F.
  destruct F as [[F1 F2]|[[k [F1 [F2 F3]]]|[[F1 [[k1 [k2 [F2 [F3 F4]]]] F5]]|[F1 [k1 [k2 [F2 [F3 [F4 [F5 F6]]]]]]]]]].
  - left. split; auto. intros k J. apply (F2 k). apply C2; exact J.
  - right; left. exists k. split; auto. split; [apply C2; exact F2|]. destruct F3 as [F3|[F3 F4]]; [left|right; split; auto]; intros k' J; [apply F3|apply F4]; apply C2; exact J.
  - right; right; left. split; auto. split; [exists k1, k2; rewrite <- !C2; auto|]. intros k J. apply F5. apply C2; exact J.
  - right; right; right. split; auto. exists k1, k2. rewrite <- !C2. auto.
Qed.
Theorem C28_find_exchange : forall cf ops s ref d,
  let p := prun cf ops in let r := find_exchange p s ref d in let M := matches p s ref d in
  (forall k, r = POk k <-> M k /\ ((forall k', M k' -> k' = k) \/ (k_term k = None /\ forall k', M k' -> k_term k' = None -> k' = k)))
  /\ (r = PErr NoExchangeFound <-> forall k, ~ M k)
  /\ (r = PErr AmbiguousReference <-> (exists k1 k2, k1 <> k2 /\ M k1 /\ M k2) /\ forall k, M k -> k_term k <> None)
  /\ (r = PErr MultipleReferencesFound <-> exists k1 k2, k1 <> k2 /\ M k1 /\ M k2 /\ k_term k1 = None /\ k_term k2 = None).
Proof.
  intros cf ops s ref d p r M. pose proof (find_cases p s ref d (pinv_prun cf ops)) as F. cbv zeta in F. fold r in F. fold M in F.
  clearbody r M. clear p.
  destruct F as [[F1 F2]|[[k [F1 [F2 F3]]]|[[F1 [[k1 [k2 [F2 [F3 F4]]]] F5]]|[F1 [k1 [k2 [F2 [F3 [F4 [F5 F6]]]]]]]]]]; rewrite F1;
    (split; [intros k0; split|split; [split|split; split]]); try discriminate; try (intros _; exact F2); auto.
  - intros [A _]. exfalso. exact (F2 _ A).
  - intros [[? [? [_ [A _]]]] _]. exfalso. exact (F2 _ A).
  - intros [? [? [_ [A _]]]]. exfalso. exact (F2 _ A).
  - intros E; injection E as <-; auto.
  - intros [A [B|[B1 B2]]]; f_equal.
    + apply B; exact F2.
    + destruct F3 as [F3|[F3 F4]]; [symmetry; apply F3; exact A|]. apply B2; auto.
  - intros A. exfalso. exact (A _ F2).
  - intros [[k1 [k2 [N [A B]]]] T]. exfalso. destruct F3 as [F3|[F3 F4]].
    + apply N. rewrite (F3 k1 A), (F3 k2 B). reflexivity.
    + exact (T k F2 F3).
  - intros [k1 [k2 [N [A [B [T1 T2]]]]]]. exfalso. apply N. destruct F3 as [F3|[F3 F4]].
    + rewrite (F3 k1 A), (F3 k2 B). reflexivity.
    + rewrite (F4 k1 A T1), (F4 k2 B T2). reflexivity.
  - intros [A [B|[B _]]]; exfalso.
    + apply F2. rewrite (B k1 F3), (B k2 F4). reflexivity.
    + exact (F5 _ A B).
  - intros A. exfalso. exact (A _ F3).
  - intros _. split; [exists k1, k2; auto|exact F5].
  - intros [a [b [N [A [_ [T _]]]]]]. exfalso. exact (F5 a A T).
  - intros [A [B|[_ B]]]; exfalso; apply F2.
    + rewrite (B k1 F3), (B k2 F4). reflexivity.
    + rewrite (B k1 F3 F5), (B k2 F4 F6). reflexivity.
  - intros A. exfalso. exact (A _ F3).
  - intros [_ A]. exfalso. exact (A k1 F3 F5).
  - intros _. exists k1, k2; auto 10.
Qed.
Print Assumptions C28_find_exchange.
Example C28_witness : find_exchange (prun kg two_refs) SNone (Some true) None = PErr MultipleReferencesFound
  /\ find_exchange (prun kg two_refs) (SFlow 5) None None = POk (5, Input, None)
  /\ find_exchange (prun kg two_refs) (SFlow 6) None None = PErr NoExchangeFound.
Proof. repeat split. Qed.

(** * C65: allocated inventories *)
Lemma inv_values_ok cf p r ks : forall l, inv_values cf p r ks = POk l -> map fst l = ks /\ forall k v, In (k, v) l -> getitem cf p k r = POk v.
Proof.
  induction ks as [|k ks IH]; intros l; cbn.
  - intros E; injection E as <-. split; [reflexivity|intros ? ? []].
  - destruct (getitem cf p k r) as [x|x] eqn:G; [|discriminate]. destruct (inv_values cf p r ks) as [l'|x'] eqn:V; [|discriminate].
    intros E; injection E as <-. destruct (IH l' eq_refl) as [A B]. split; [cbn; rewrite A; reflexivity|].
    intros k' v [J|J]; [injection J as <- <-; exact G|auto].
Qed.
Theorem C65_inventory_of_reference : forall cf ops s d r l,
  let p := prun cf ops in
  find_exchange p s None d = POk r -> inventory_ref cf p s d = POk l ->
  NoDup (map fst l)
  /\ (forall k, In k (map fst l) <-> In k (dkeys (p_exch p)) /\ if is_ref p r then is_ref p k = false else k <> r)
  /\ (forall k v, In (k, v) l -> getitem cf p k r = POk v).
Proof.
  intros cf ops s d r l p F. unfold inventory_ref. rewrite F. intros V. apply inv_values_ok in V as [V1 V2].
  pose proof (pinv_prun cf ops) as I. fold p in I. rewrite V1. split; [|split; [|exact V2]].
  - apply NoDup_filter. apply (pi_keys p I).
  - intros k. rewrite filter_In. destruct (is_ref p r).
    + assert (M : negb (mem k (p_refs p)) = true <-> is_ref p k = false).
      { destruct (C23_references_agree cf ops k) as [A _]. fold p in A. destruct (mem_spec k (p_refs p)) as [J|J]; cbn; rewrite A in J.
        - rewrite J. split; congruence.
        - destruct (is_ref p k); split; congruence. }
      rewrite M. tauto.
    + destruct (eqb_spec k r); cbn; split; intros [? ?]; split; auto; congruence.
Qed.
(** Partition allocation seen through the inventories: the inventories of all the references, each weighted by its
    reference's value, add up to the process's own exchange value. *)
Theorem C65_inventories_add_up_partial : forall cf ops k e v q (inv : key -> list (key * Qc)) (x : key -> Qc),
  all_steps cf (keeps_total cf) new_proc ops ->
  let p := prun cf ops in
  alloc_qty p = Some q -> dget k (p_exch p) = Some e -> x_ref e = false -> value e = Some v ->
  (forall r, In r (p_refs p) -> inventory_ref cf p (SExch r) None = POk (inv r) /\ find_exchange p (SExch r) None None = POk r /\ In (k, x r) (inv r)) ->
  Qcsum (map (fun r => match exch_value p r with Some w => (x r * w)%Qc | None => Q2Qc 0 end) (p_refs p)) = v.
Proof.
  intros cf ops k e v q inv x A p Q D R V H.
  rewrite <- (C24_shares_add_up_partial cf ops k e v q A Q D R V). f_equal. apply map_ext_in. intros r J.
  destruct (H r J) as [H1 [H2 H3]]. destruct (C65_inventory_of_reference cf ops (SExch r) None r (inv r) H2 H1) as [_ [_ G]].
  specialize (G _ _ H3). subst p. unfold share. rewrite G. reflexivity.
Qed.
Print Assumptions C65_inventory_of_reference.
Print Assumptions C65_inventories_add_up_partial.
Example C65_witness : inventory_ref kg (prun kg two_refs) (SFlow 0) None = POk [((5, Input, None), Q2Qc 1)]
  /\ inventory_ref kg (prun kg two_refs) (SFlow 1) None = POk [((5, Input, None), Q2Qc (3#2))].
Proof. split; vm_compute; do 3 f_equal; apply Qc_is_canon; reflexivity. Qed.

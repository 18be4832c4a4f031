(** Invariants of the process model (ProcModel.v). *)
From Verif Require Import Num Base PyStr ProcModel.
Open Scope nat_scope.
Open Scope list_scope.

Definition prun (cf : nat -> nat -> Qc) (ops : list pop) : proc := fold_left (fun p o => fst (pstep cf p o)) ops new_proc.
Lemma prun_snoc cf ops o : prun cf (ops ++ [o]) = fst (pstep cf (prun cf ops) o).
Proof. unfold prun. rewrite fold_left_app. reflexivity. Qed.

Definition is_ref_in (p : proc) (k : key) : Prop := exists e, dget k (p_exch p) = Some e /\ x_ref e = true.
Record pinv (p : proc) : Prop := {
  pi_keys : NoDup (dkeys (p_exch p));
  pi_refs : NoDup (p_refs p);
  pi_ref : forall k, In k (p_refs p) <-> is_ref_in p k;
  pi_term : forall k, In k (p_refs p) -> k_term k = None;
  pi_vd : forall k e r v, dget k (p_exch p) = Some e -> In (r, v) (x_vdict e) -> In r (p_refs p);
  pi_vdn : forall k e, dget k (p_exch p) = Some e -> NoDup (dkeys (x_vdict e));
  pi_sum : p_qty p <> None -> p_sum p <> Q2Qc 0;
  pi_sum0 : p_qty p = None -> p_sum p = Q2Qc 0 }.

Lemma pinv_new : pinv new_proc.
Proof.
  constructor; cbn; try constructor; try tauto; try discriminate; try congruence.
  all: intros; try tauto. destruct H as [e [H _]]; discriminate H.
Qed.

Lemma allocate_exch cf p q : p_exch (allocate cf p q) = p_exch p.
Proof. unfold allocate. destruct q; cbn; [|reflexivity]. match goal with |- context [if ?b then _ else _] => destruct b end; reflexivity. Qed.
Lemma allocate_refs cf p q : p_refs (allocate cf p q) = p_refs p.
Proof. unfold allocate. destruct q; cbn; [|reflexivity]. match goal with |- context [if ?b then _ else _] => destruct b end; reflexivity. Qed.
Lemma pinv_allocate cf p q : pinv p -> pinv (allocate cf p q).
Proof.
  intros [A B C D E F G H].
  constructor.
  1,2,4,5,6: rewrite ?allocate_exch, ?allocate_refs; assumption.
  - intros k. unfold is_ref_in. rewrite allocate_exch, allocate_refs. apply C.
  - unfold allocate. destruct q as [q|]; cbn [p_qty p_sum]; [|congruence].
    destruct (eqb_spec (Qcsum (map snd (alloc_dict cf p q))) (Q2Qc 0)); cbn [p_qty p_sum]; auto.
  - unfold allocate. destruct q as [q|]; cbn [p_qty p_sum]; [|congruence].
    destruct (eqb_spec (Qcsum (map snd (alloc_dict cf p q))) (Q2Qc 0)); cbn [p_qty p_sum]; auto. congruence.
Qed.

Lemma pinv_p_set p k e :
  pinv p -> (x_ref e = true <-> In k (p_refs p)) -> (forall r v, In (r, v) (x_vdict e) -> In r (p_refs p)) -> NoDup (dkeys (x_vdict e)) ->
  pinv (p_set p k e).
Proof.
  intros [A B C D E F G H] R V N. constructor; cbn [p_exch p_refs p_qty p_sum p_set with_exch]; try (apply NoDup_dset; assumption); auto.
  - intros k'. unfold is_ref_in; cbn. setoid_rewrite dget_dset. destruct (eqb_spec k' k) as [->|].
    + rewrite <- R. split; [intros I; exists e; auto|]. intros [e' [X1 X2]]. congruence.
    + apply C.
  - intros k' e' r v. rewrite dget_dset. destruct (eqb_spec k' k) as [->|]; [|apply E].
    intros X; injection X as <-. apply V.
  - intros k' e'. rewrite dget_dset. destruct (eqb_spec k' k) as [->|]; [|apply F].
    intros X; injection X as <-. exact N.
Qed.

Lemma In_dset {K V} `{EqB K} (k : K) (v : V) d k' v' : In (k', v') (dset k v d) -> (k' = k /\ v' = v) \/ In (k', v') d.
Proof.
  induction d as [|[k1 v1] r IH]; cbn; [intros [E|[]]; injection E; auto|].
  destruct (eqb_spec k k1) as [->|]; cbn; intros [E|I].
  - injection E; auto.
  - auto.
  - auto.
  - destruct (IH I); auto.
Qed.
Lemma In_ddel {K V} `{EqB K} (k : K) (d : dict K V) k' v' : In (k', v') (ddel k d) <-> In (k', v') d /\ k' <> k.
Proof.
  unfold ddel. rewrite filter_In. cbn. destruct (eqb_spec k k'); cbn; split; intros [? ?]; split; auto; congruence.
Qed.

Lemma setitem_ok k e r b v e' : setitem k e r b v = POk e' ->
  b = true /\ x_ref e' = x_ref e /\
  ((x_ref e = true /\ k = r /\ x_value e = None /\ e' = X v (x_vdict e) true) \/
   (x_ref e = true /\ k <> r /\ v = Some (Q2Qc 0) /\ e' = e) \/
   (x_ref e = false /\ e' = X (x_value e) (dset r v (x_vdict e)) false)) /\ dget r (x_vdict e) = None.
Proof.
  unfold setitem. destruct b; cbn [negb]; [|discriminate].
  unfold din. destruct (dget r (x_vdict e)) eqn:D; [discriminate|].
  destruct (x_ref e) eqn:R.
  - destruct (eqb_spec k r) as [->|N].
    + destruct (x_value e) eqn:W; [discriminate|]. intros E; injection E as <-. cbn. auto 10.
    + destruct (eqb_spec v (Some (Q2Qc 0))); [|discriminate]. intros E; injection E as <-. auto 10.
  - intros E; injection E as <-. cbn. auto 10.
Qed.
Lemma add_to_value_ok e r v e' : add_to_value e r v = POk e' ->
  x_ref e' = x_ref e /\ (forall k w, In (k, w) (x_vdict e') -> exists w', In (k, w') (x_vdict e)) /\ dkeys (x_vdict e') = dkeys (x_vdict e).
Proof.
  unfold add_to_value. destruct r as [r|].
  - destruct (dget r (x_vdict e)) as [[w|]|] eqn:D; try discriminate.
    + intros E; injection E as <-; cbn. split; [reflexivity|split].
      * intros k w' I. apply In_dset in I as [[-> ->]|I]; [exists (Some w); apply dget_In; exact D|eauto].
      * change (dkeys (dset r (Some (w + v)%Qc) (x_vdict e)) = dkeys (x_vdict e)); rewrite dkeys_dset. unfold din. rewrite D. reflexivity.
    + intros E; injection E as <-. eauto.
  - destruct (x_value e); [|discriminate]. intros E; injection E as <-. cbn; eauto.
Qed.

Lemma pinv_add_exchange p f d r v t dups : pinv p -> pinv (fst (add_exchange p f d r v t dups)).
Proof.
  intros I. unfold add_exchange.
  set (k := (f, d, t_key t) : key). cbv zeta.
  assert (IR : forall r, is_ref p r = true -> In r (p_refs p)).
  { intros r0 X. apply (pi_ref p I). unfold is_ref in X. destruct (dget r0 (p_exch p)) as [e|] eqn:D; [|discriminate]. exists e; auto. }
  destruct (match t with TObj _ => None | _ => dget k (p_exch p) end) as [e|] eqn:K.
  - assert (D : dget k (p_exch p) = Some e) by (destruct t; first [exact K|discriminate K]).
    destruct v as [v|]; [|exact I]. destruct (eqb v (Q2Qc 0)); [exact I|].
    assert (RK : x_ref e = true <-> In k (p_refs p)).
    { rewrite (pi_ref p I). split; [intros X; exists e; auto|intros [e' [X1 X2]]; rewrite D in X1; injection X1 as <-; exact X2]. }
    assert (V : forall r v, In (r, v) (x_vdict e) -> In r (p_refs p)) by (intros; eapply (pi_vd p I); eauto).
    pose proof (pi_vdn p I _ _ D) as N.
    assert (AT : forall r v e', add_to_value e r v = POk e' -> pinv (p_set p k e')).
    { intros r0 v0 e' X. apply add_to_value_ok in X as [X1 [X2 X3]]. apply pinv_p_set; auto.
      - rewrite X1; exact RK.
      - intros r1 v1 J. apply X2 in J as [w J]. eauto.
      - rewrite X3; exact N. }
    destruct r as [r|].
    + destruct (setitem k e r (is_ref p r) (Some v)) as [e'|x] eqn:S.
      * apply setitem_ok in S as [S1 [S2 [S3 S4]]]. cbn. apply pinv_p_set; auto.
        -- rewrite S2; exact RK.
        -- intros r1 v1 J. destruct S3 as [[_ [_ [_ ->]]]|[[_ [_ [_ ->]]]|[_ ->]]]; cbn in J; eauto.
           apply In_dset in J as [[-> _]|J]; eauto.
        -- destruct S3 as [[_ [_ [_ ->]]]|[[_ [_ [_ ->]]]|[_ ->]]]; cbn; try (apply NoDup_dset; assumption); auto.
      * destruct x; try exact I. destruct dups; [|exact I].
        destruct (add_to_value e (Some r) v) eqn:A; [|exact I]. cbn. eapply AT; eauto.
    + destruct (x_value e) as [w|] eqn:W.
      * destruct dups; [|exact I]. destruct (add_to_value e None v) eqn:A; [|exact I]. cbn. eapply AT; eauto.
      * cbn. apply pinv_p_set; auto.
  - assert (NR : In k (p_refs p) -> False).
    { intros J. pose proof (pi_term p I _ J) as T. apply (pi_ref p I) in J as [e [J _]]. destruct t; cbn in *; try congruence; discriminate T. }
    destruct r as [r|].
    + destruct (mem_spec r (p_refs p)) as [M|M]; [|exact I].
      destruct (setitem k (X None [] false) r (is_ref p r) v) as [e'|x] eqn:S; [|exact I].
      apply setitem_ok in S as [S1 [S2 [S3 S4]]]. cbn. destruct S3 as [[S3 _]|[[S3 _]|[_ ->]]]; try discriminate.
      apply pinv_p_set; cbn; auto.
      * split; [discriminate|tauto].
      * intros r1 v1 [J|[]]. injection J as <- _. exact M.
      * constructor; [tauto|constructor].
    + cbn. apply pinv_p_set; cbn; [auto|split; [discriminate|tauto]|tauto|constructor].
Qed.

Lemma pinv_add_reference cf p f d : pinv p -> pinv (fst (add_reference cf p f d)).
Proof.
  intros I. unfold add_reference. cbn.
  set (k := (f, d, @None string) : key).
  match goal with |- pinv (match alloc_qty ?q with _ => _ end) => set (p1 := q) end.
  assert (J : pinv p1).
  { subst p1. destruct (dget k (p_exch p)) as [e|] eqn:D; [|exact I]. destruct I as [A B C DD E F G H]. constructor; cbn [p_exch p_refs p_qty p_sum]; try (apply NoDup_dset; exact A); try (apply NoDup_set_add; exact B); auto.
    - intros k'. rewrite In_set_add. unfold is_ref_in; cbn. setoid_rewrite dget_dset. destruct (eqb_spec k' k) as [->|NE].
      + split; [intros _; eexists; split; [reflexivity|reflexivity]|auto].
      + rewrite (C k'). unfold is_ref_in. tauto.
    - intros k'. rewrite In_set_add. intros [->|J]; auto.
    - intros k' e' r v. rewrite dget_dset. rewrite In_set_add. destruct (eqb_spec k' k) as [->|NE].
      + intros X; injection X as <-; cbn. intros J. right. eauto.
      + intros X J. right. eauto.
    - intros k' e'. rewrite dget_dset. destruct (eqb_spec k' k) as [->|NE]; [|apply F].
      intros X; injection X as <-; cbn. eauto. }
  destruct (alloc_qty p1); [apply pinv_allocate|]; exact J.
Qed.

Lemma dget_map_snd {K V W} `{EqB K} (g : V -> W) k (d : dict K V) :
  dget k (map (fun kv => (fst kv, g (snd kv))) d) = option_map g (dget k d).
Proof. induction d as [|[k1 v1] r IH]; cbn; [reflexivity|]. destruct (eqb k k1); auto. Qed.
Lemma dkeys_map_snd {K V W} (g : V -> W) (d : dict K V) : dkeys (map (fun kv => (fst kv, g (snd kv))) d) = dkeys d.
Proof. unfold dkeys. rewrite map_map. reflexivity. Qed.

(** the exchanges after [remove_reference] *)
Definition rm_exch (k : key) (e : exch) (xs : dict key exch) : dict key exch :=
  map (fun ke => (fst ke, X (x_value (snd ke)) (ddel k (x_vdict (snd ke))) (x_ref (snd ke)))) (dset k (X (x_value e) (x_vdict e) false) xs).
Lemma dget_rm_exch k e xs k' : dget k' (rm_exch k e xs) =
  if eqb k' k then Some (X (x_value e) (ddel k (x_vdict e)) false)
  else option_map (fun e => X (x_value e) (ddel k (x_vdict e)) (x_ref e)) (dget k' xs).
Proof.
  unfold rm_exch. rewrite (dget_map_snd (fun e => X (x_value e) (ddel k (x_vdict e)) (x_ref e))), dget_dset.
  destruct (eqb_spec k' k); reflexivity.
Qed.
Lemma pinv_remove_reference cf p f d : pinv p -> pinv (fst (remove_reference cf p f d)).
Proof.
  intros I. unfold remove_reference. set (k := (f, d, @None string) : key).
  destruct (dget k (p_exch p)) as [e|] eqn:D; [|exact I]. cbn [fst].
  fold (rm_exch k e (p_exch p)).
  match goal with |- pinv (match _ with Some _ => allocate cf ?q _ | None => _ end) => set (p1 := q) end.
  assert (J : pinv p1).
  { subst p1. destruct I as [A B C DD E F G H]. constructor; cbn [p_exch p_refs p_qty p_sum]; auto.
    - unfold rm_exch. rewrite (dkeys_map_snd (fun e => X (x_value e) (ddel k (x_vdict e)) (x_ref e))). apply NoDup_dset; auto.
    - unfold set_remove. apply NoDup_filter; auto.
    - intros k'. rewrite In_set_remove, (C k'). unfold is_ref_in; cbn. setoid_rewrite dget_rm_exch.
      destruct (eqb_spec k' k) as [->|NE].
      + split; [tauto|]. intros [e' [X1 X2]]. injection X1 as <-. discriminate.
      + split.
        * intros [[e' [X1 X2]] _]. rewrite X1. eexists; split; [reflexivity|exact X2].
        * intros [e' [X1 X2]]. split; auto. destruct (dget k' (p_exch p)) as [e0|]; [|discriminate]. injection X1 as <-. exists e0; auto.
    - intros k'. rewrite In_set_remove. intros [J _]; auto.
    - intros k' e' r v. rewrite dget_rm_exch, In_set_remove. destruct (eqb_spec k' k) as [->|NE].
      + intros X; injection X as <-; cbn. rewrite In_ddel. intros [X1 X2]. split; eauto.
      + destruct (dget k' (p_exch p)) as [e0|] eqn:D0; [|discriminate]. intros X; injection X as <-; cbn.
        rewrite In_ddel. intros [X1 X2]. split; eauto.
    - intros k' e'. rewrite dget_rm_exch. destruct (eqb_spec k' k) as [->|NE].
      + intros X; injection X as <-; cbn. apply NoDup_ddel; eauto.
      + destruct (dget k' (p_exch p)) as [e0|] eqn:D0; [|discriminate]. intros X; injection X as <-; cbn. apply NoDup_ddel; eauto. }
  destruct (p_qty p); [apply pinv_allocate|]; exact J.
Qed.
Lemma pinv_step cf p o : pinv p -> pinv (fst (pstep cf p o)).
Proof.
  intros I. destruct o; cbn; [apply pinv_add_exchange|apply pinv_add_reference|apply pinv_remove_reference|apply pinv_allocate]; exact I.
Qed.
Lemma pinv_prun cf ops : pinv (prun cf ops).
Proof. induction ops as [|o ops IH] using rev_ind; [apply pinv_new|]. rewrite prun_snoc. apply pinv_step; exact IH. Qed.

(** Proofs about ConfModel.v, continued: characterizations, allocations, the whole configuration. *)
From Coq Require Import String List Permutation.
From Verif Require Import Num Base PyStr ProcModel ProcProofs ProcProps ConfModel ConfProofs.
Open Scope nat_scope.
Open Scope list_scope.

(** * characterize_flow *)
Section Char.
Variable rq : nat -> option nat.
Definition chars ow := steps (fun a x => characterize_flow rq ow a (fst (fst x)) (snd (fst x)) (snd x)).
Lemma chars_procs ow l : forall a a' e, chars ow a l = (a', e) -> a_procs a' = a_procs a /\ a_ti a' = a_ti a.
Proof.
  induction l as [|[[f q] v] l IH]; intros a a' e; unfold chars in *; cbn [steps fst snd]; [intros H; injection H as <- _; auto|].
  destruct (characterize_flow rq ow a f q v) as [a1 r] eqn:E.
  assert (X : a_procs a1 = a_procs a /\ a_ti a1 = a_ti a).
  { unfold characterize_flow in E. destruct (din (f, q) (a_cfs a)); [destruct ow; [destruct (eqb (rq f) (Some q))|]|]; injection E as <- _; auto. }
  destruct r as [e'|]; [intros H; injection H as <- _; exact X|]. intros H. apply IH in H as [-> ->]. exact X.
Qed.
Lemma char_din ow a f q v a' : characterize_flow rq ow a f q v = (a', None) ->
  din (f, q) (a_cfs a') = true /\ (forall fq, din fq (a_cfs a) = true -> din fq (a_cfs a') = true).
Proof.
  unfold characterize_flow. cbv zeta. intros H.
  assert (X : forall c : dict (nat * nat) Qc, din (f, q) (dset (f, q) v c) = true /\ forall fq, din fq c = true -> din fq (dset (f, q) v c) = true).
  { intros c. unfold din. split; [rewrite dget_dset_same; reflexivity|]. intros fq. rewrite dget_dset. destruct (eqb fq (f, q)); auto. }
  destruct (din (f, q) (a_cfs a)) eqn:D.
  - destruct ow; [destruct (eqb (rq f) (Some q)); [discriminate|]|]; injection H as <-; cbn [a_cfs]; [|split; [exact D|auto]].
    split; [exact (proj1 (X (ddel (f, q) (a_cfs a))))|]. intros fq. unfold din. rewrite dget_dset, dget_ddel. destruct (eqb fq (f, q)); auto.
  - injection H as <-. cbn [a_cfs]. apply X.
Qed.
Lemma chars_din ow l : forall a a', chars ow a l = (a', None) ->
  (forall x, In x l -> din (fst x) (a_cfs a') = true) /\ (forall fq, din fq (a_cfs a) = true -> din fq (a_cfs a') = true).
Proof.
  induction l as [|[[f q] v] l IH]; intros a a'; unfold chars in *; cbn [steps fst snd]; [intros H; injection H as <-; split; [intros ? []|auto]|].
  destruct (characterize_flow rq ow a f q v) as [a1 [e|]] eqn:E; [discriminate|]. intros H. apply IH in H as [H1 H2].
  apply char_din in E as [E1 E2]. split; [|auto]. intros x [<-|I]; auto.
Qed.
Lemma chars_present l : forall a, (forall x, In x l -> din (fst x) (a_cfs a) = true) -> chars false a l = (a, None).
Proof.
  induction l as [|[[f q] v] l IH]; intros a H; unfold chars in *; cbn [steps fst snd]; [reflexivity|].
  pose proof (H (f, q, v) (or_introl eq_refl)) as D. cbn [fst] in D. unfold characterize_flow at 1. rewrite D. apply IH. intros x I. apply H. right. exact I.
Qed.
Fixpoint lastv (l : list (nat * nat * Qc)) (fq : nat * nat) : option Qc :=
  match l with
  | [] => None
  | (k, v) :: r => match lastv r fq with Some w => Some w | None => if eqb fq k then Some v else None end
  end.
Lemma char_over a f q v : rq f <> Some q -> exists a', characterize_flow rq true a f q v = (a', None) /\
  a_procs a' = a_procs a /\ a_ti a' = a_ti a /\ forall fq, dget fq (a_cfs a') = if eqb fq (f, q) then Some v else dget fq (a_cfs a).
Proof.
  intros N. unfold characterize_flow. destruct (din (f, q) (a_cfs a)) eqn:D.
  - destruct (eqb_spec (rq f) (Some q)); [contradiction|]. eexists; split; [reflexivity|]. cbn [a_procs a_ti a_cfs]. repeat split.
    intros fq. rewrite dget_dset, dget_ddel. destruct (eqb fq (f, q)); reflexivity.
  - eexists; split; [reflexivity|]. cbn [a_procs a_ti a_cfs]. repeat split. intros fq. apply dget_dset.
Qed.
Lemma chars_over l : forall a, (forall x, In x l -> rq (fst (fst x)) <> Some (snd (fst x))) ->
  exists a', chars true a l = (a', None) /\ a_procs a' = a_procs a /\ a_ti a' = a_ti a
  /\ forall fq, dget fq (a_cfs a') = match lastv l fq with Some v => Some v | None => dget fq (a_cfs a) end.
Proof.
  induction l as [|[[f q] v] l IH]; intros a H; unfold chars in *; cbn [steps fst snd lastv]; [exists a; auto|].
  destruct (char_over a f q v) as [a1 [E [E1 [E2 E3]]]]; [apply (H (f, q, v)); left; reflexivity|]. rewrite E.
  destruct (IH a1) as [a2 [F [F1 [F2 F3]]]]; [intros x I; apply H; right; exact I|].
  exists a2. split; [exact F|]. split; [congruence|]. split; [congruence|]. intros fq. rewrite F3. destruct (lastv l fq); [reflexivity|].
  rewrite E3. destruct (eqb fq (f, q)); reflexivity.
Qed.
Lemma chars_over_noref l : forall a a', (forall f q, rq f = Some q -> din (f, q) (a_cfs a) = true) -> chars true a l = (a', None) ->
  forall x, In x l -> rq (fst (fst x)) <> Some (snd (fst x)).
Proof.
  induction l as [|[[f q] v] l IH]; intros a a' W H x I; [destruct I|]. unfold chars in *. cbn [steps fst snd] in H.
  destruct (characterize_flow rq true a f q v) as [a1 [e|]] eqn:E; [discriminate|]. destruct I as [<-|I].
  - cbn [fst snd]. intros R. unfold characterize_flow in E. rewrite (W _ _ R), R, eqb_refl in E. discriminate.
  - eapply IH; [|exact H|exact I]. intros f0 q0 R. apply char_din in E as [_ E]. apply E, W, R.
Qed.
End Char.

(** * allocate_by_quantity *)
Lemma pinv_same_refs p p' : pinv p -> p_refs p' = p_refs p -> p_qty p' = p_qty p -> p_sum p' = p_sum p ->
  xkeys p' = xkeys p -> (forall k, is_ref p' k = is_ref p k) ->
  (forall k v d, pv p' k = Some (v, d) -> exists d0, pv p k = Some (v, d0) /\ incl d d0 /\ (NoDup (dkeys d0) -> NoDup (dkeys d))) -> pinv p'.
Proof.
  intros [A B C D E F G H] R Q S X I V. constructor.
  - unfold xkeys in X. rewrite X. exact A.
  - rewrite R. exact B.
  - intros k. rewrite R, (C k). unfold is_ref_in. specialize (I k). unfold is_ref in I.
    split; intros [e [D1 D2]].
    + rewrite D1 in I. destruct (dget k (p_exch p')) as [e'|]; [exists e'; split; [reflexivity|congruence]|congruence].
    + rewrite D1 in I. destruct (dget k (p_exch p)) as [e'|]; [exists e'; split; [reflexivity|congruence]|congruence].
  - intros k. rewrite R. apply D.
  - intros k e r v D1 D2. rewrite R. destruct (V k (x_value e) (x_vdict e)) as [d0 [V1 [V2 _]]]; [unfold pv; rewrite D1; reflexivity|].
    unfold pv in V1. destruct (dget k (p_exch p)) as [e0|] eqn:D0; [|discriminate]. injection V1 as _ <-. eapply E; eauto.
  - intros k e D1. destruct (V k (x_value e) (x_vdict e)) as [d0 [V1 [_ V3]]]; [unfold pv; rewrite D1; reflexivity|].
    unfold pv in V1. destruct (dget k (p_exch p)) as [e0|] eqn:D0; [|discriminate]. injection V1 as _ <-. apply V3. eapply F; eauto.
  - rewrite Q, S. exact G.
  - rewrite Q, S. exact H.
Qed.
Lemma remove_allocation_spec p r : pinv p -> let p' := remove_allocation p r in
  pinv p' /\ p_refs p' = p_refs p /\ p_qty p' = p_qty p /\ p_sum p' = p_sum p /\ xkeys p' = xkeys p /\ forall k, pv p' k = pdel [r] (pv p k).
Proof.
  intros I p'. assert (V : forall k, pv p' k = pdel [r] (pv p k)).
  { intros k. subst p'. unfold pv, remove_allocation. cbn [p_exch with_exch].
    rewrite (dget_map_snd (fun e => X (x_value e) (ddel r (x_vdict e)) (x_ref e))). destruct (dget k (p_exch p)); reflexivity. }
  assert (K : xkeys p' = xkeys p).
  { subst p'. unfold xkeys, remove_allocation. cbn [p_exch with_exch]. apply (dkeys_map_snd (fun e => X (x_value e) (ddel r (x_vdict e)) (x_ref e))). }
  split; [|repeat split; auto].
  apply (pinv_same_refs p); auto.
  - intros k. subst p'. unfold is_ref, remove_allocation. cbn [p_exch with_exch].
    rewrite (dget_map_snd (fun e => X (x_value e) (ddel r (x_vdict e)) (x_ref e))). destruct (dget k (p_exch p)); reflexivity.
  - intros k v d. rewrite V. destruct (pv p k) as [[v0 d0]|]; [|discriminate]. cbn [pdel option_map fst snd]. intros X. injection X as <- <-.
    unfold del_keys. cbn [fold_left]. exists d0. split; [reflexivity|]. split; [|apply NoDup_ddel]. intros [k1 v1]. rewrite In_ddel. tauto.
Qed.
Definition clear (p : proc) : proc := fold_left remove_allocation (p_refs p) p.
Definition cl (x : option (option Qc * dict key (option Qc))) : option (option Qc * dict key (option Qc)) := option_map (fun vd => (fst vd, [])) x.
Lemma cl_cl x : cl (cl x) = cl x. Proof. destruct x; reflexivity. Qed.
Lemma clear_list rs : forall p, pinv p -> let p' := fold_left remove_allocation rs p in
  pinv p' /\ p_refs p' = p_refs p /\ p_qty p' = p_qty p /\ p_sum p' = p_sum p /\ xkeys p' = xkeys p /\ forall k, pv p' k = pdel rs (pv p k).
Proof.
  induction rs as [|r rs IH]; intros p I; cbn [fold_left].
  - split; [exact I|]. do 4 (split; [reflexivity|]). intros k. destruct (pv p k) as [[v d]|]; reflexivity.
  - destruct (remove_allocation_spec p r I) as [A [B [C [D [E F]]]]]. destruct (IH _ A) as [A' [B' [C' [D' [E' F']]]]]. cbv zeta in *.
    split; [exact A'|]. split; [rewrite B'; exact B|]. split; [rewrite C'; exact C|]. split; [rewrite D'; exact D|]. split; [rewrite E'; exact E|].
    intros k. rewrite F', F, pdel_app. reflexivity.
Qed.
Lemma del_keys_in ks : forall d r, In r (dkeys (del_keys ks d)) <-> In r (dkeys d) /\ ~ In r ks.
Proof.
  unfold del_keys. induction ks as [|k ks IH]; intros d r; cbn [fold_left]; [cbn; tauto|].
  rewrite IH, In_dkeys_ddel. cbn. split; [intros [[A B] C]; split; [exact A|]; intros [D|D]; [congruence|contradiction]|].
  intros [A B]. split; [split; [exact A|]|]; intros D; apply B; [left; congruence|right; exact D].
Qed.
Lemma clear_spec p : pinv p -> pinv (clear p) /\ p_refs (clear p) = p_refs p /\ p_qty (clear p) = p_qty p /\ p_sum (clear p) = p_sum p
  /\ xkeys (clear p) = xkeys p /\ forall k, pv (clear p) k = cl (pv p k).
Proof.
  intros I. destruct (clear_list (p_refs p) p I) as [A [B [C [D [E F]]]]].
  split; [exact A|]. split; [exact B|]. split; [exact C|]. split; [exact D|]. split; [exact E|].
  intros k. unfold clear. rewrite F. destruct (pv p k) as [[v d]|] eqn:V; [|reflexivity]. cbn. f_equal. f_equal.
  destruct (del_keys (p_refs p) d) as [|[r w] t] eqn:L; [reflexivity|]. exfalso.
  assert (X : In r (dkeys (del_keys (p_refs p) d))) by (rewrite L; left; reflexivity). apply del_keys_in in X as [X1 X2].
  apply X2. eapply pv_vdict_refs; eauto.
Qed.

Lemma filter_single {T} (l : list T) x : NoDup l -> (forall y, In y l <-> y = x) -> l = [x].
Proof.
  intros N H. destruct l as [|a [|b l]].
  - exfalso. apply (H x). reflexivity.
  - f_equal. apply H. left. reflexivity.
  - exfalso. assert (a = x) by (apply H; left; reflexivity). assert (b = x) by (apply H; right; left; reflexivity).
    inversion N as [|? ? X _]. apply X. left. congruence.
Qed.
Lemma find_ref p r : pinv p -> In r (p_refs p) -> find_exchange p (SExch r) (Some true) None = POk r.
Proof.
  intros I R. unfold find_exchange, candidates. cbv zeta.
  rewrite (filter_single (gen_exchanges p (Some (k_flow r)) (Some (k_dir r)) (Some true)) r); [reflexivity| |].
  - unfold gen_exchanges. apply NoDup_filter. pose proof (pi_keys p I) as N. unfold dkeys in N. revert N. induction (p_exch p) as [|[k e] l IH]; intros N; [constructor|].
    cbn [filter fst]. inversion N as [|? ? N1 N2]. subst. specialize (IH N2). destruct (_ && _)%bool; [|exact IH]. cbn [map fst]. constructor; [|exact IH].
    intros X. apply N1. apply in_map_iff in X as [y [<- Y]]. apply filter_In in Y as [Y _]. apply in_map, Y.
  - intros k. unfold gen_exchanges. rewrite filter_In. split.
    + intros [X D]. apply in_map_iff in X as [[k' e] [E Y]]. cbn in E. subst k'. apply filter_In in Y as [Y Z]. cbn [fst snd] in Z.
      apply Bool.andb_true_iff in Z as [Z1 Z2]. apply Nat.eqb_eq in Z1. apply (proj1 (eqb_eq _ _)) in D. apply In_dget in Y; [|apply (pi_keys p I)].
      assert (Rk : In k (p_refs p)) by (apply (pi_ref p I); exists e; split; [exact Y|destruct (x_ref e); [reflexivity|discriminate]]).
      pose proof (pi_term p I _ Rk) as T1. pose proof (pi_term p I _ R) as T2. clear - Z1 D T1 T2.
      destruct k as [[f d] t], r as [[f' d'] t']. unfold k_flow, k_dir, k_term in *. cbn [fst snd] in *. congruence.
    + intros ->. split; [|apply eqb_refl]. apply (pi_ref p I) in R as [e [D X]]. apply in_map_iff. exists (r, e). split; [reflexivity|].
      apply filter_In. split; [apply dget_In, D|]. cbn [fst snd]. rewrite Nat.eqb_refl, X. reflexivity.
Qed.

Definition isall (cf : nat -> nat -> Qc) (p : proc) : Prop := exists r, In r (p_refs p) /\
  match p_qty p with
  | Some q => cf (k_flow r) q <> Q2Qc 0
  | None => exists k v d, pv p k = Some (v, d) /\ ~ In k (p_refs p) /\ In r (dkeys d)
  end.
Lemma existsb_isall cf p : pinv p -> (existsb (is_allocated cf p) (p_refs p) = true <-> isall cf p).
Proof.
  intros I. rewrite existsb_exists. unfold isall. split; intros [r [R X]]; exists r; (split; [exact R|]).
  - unfold is_allocated in X. rewrite (find_ref p r I R), (alloc_qty_eq p I) in X. destruct (p_qty p) as [q|].
    + destruct (eqb_spec (cf (k_flow r) q) (Q2Qc 0)); [discriminate|assumption].
    + apply existsb_exists in X as [[k e] [K X]]. cbn [fst snd] in X. apply Bool.andb_true_iff in X as [X1 X2].
      exists k, (x_value e), (x_vdict e). split; [unfold pv; rewrite (In_dget k e); [reflexivity|apply (pi_keys p I)|exact K]|].
      split; [destruct (mem_spec k (p_refs p)); [discriminate|assumption]|]. unfold din in X2. destruct (dget r (x_vdict e)) eqn:D; [|discriminate].
      eapply dget_Some_key, D.
  - unfold is_allocated. rewrite (find_ref p r I R), (alloc_qty_eq p I). destruct (p_qty p) as [q|].
    + destruct (eqb_spec (cf (k_flow r) q) (Q2Qc 0)); [contradiction|reflexivity].
    + destruct X as [k [v [d [V [N D]]]]]. unfold pv in V. destruct (dget k (p_exch p)) as [e|] eqn:K; [|discriminate]. injection V as <- <-.
      apply existsb_exists. exists (k, e). split; [apply dget_In, K|]. cbn [fst snd]. destruct (mem_spec k (p_refs p)); [contradiction|].
      unfold din. apply dget_key_Some in D as [w ->]. reflexivity.
Qed.
Lemma isall_same cf cf' p p' : (forall f q, cf' f q = cf f q) -> sp p p' -> isall cf p -> isall cf' p'.
Proof.
  intros C [A B D E] [r [R X]]. exists r. split; [apply B, R|]. rewrite D. destruct (p_qty p) as [q|]; [rewrite C; exact X|].
  destruct X as [k [v [d [V [N K]]]]]. exists k, v, d. rewrite A. repeat split; auto. intros Y. apply N, B, Y.
Qed.
Lemma total_isall cf p q : p_qty p = Some q -> total_output cf p q <> Q2Qc 0 -> isall cf p.
Proof.
  intros Q NZ. destruct (existsb (fun r => negb (eqb (cf (k_flow r) q) (Q2Qc 0))) (p_refs p)) eqn:E.
  - apply existsb_exists in E as [r [R E]]. exists r. split; [exact R|]. rewrite Q. destruct (eqb_spec (cf (k_flow r) q) (Q2Qc 0)); [discriminate|assumption].
  - exfalso. apply NZ. unfold total_output. apply Qcsum_zero. intros r R. unfold ref_output. destruct (exch_value p r); [|reflexivity].
    assert (X : cf (k_flow r) q = Q2Qc 0).
    { destruct (eqb_spec (cf (k_flow r) q) (Q2Qc 0)) as [Z|Z]; [exact Z|]. exfalso.
      assert (Y : existsb (fun r => negb (eqb (cf (k_flow r) q) (Q2Qc 0))) (p_refs p) = true).
      { apply existsb_exists. exists r. split; [exact R|]. destruct (eqb_spec (cf (k_flow r) q) (Q2Qc 0)); [contradiction|reflexivity]. }
      congruence. }
    rewrite X. change (Q2Qc 0) with 0%Qc. ring.
Qed.

Definition alloc_x ow (a : arch) (x : nat * nat) := allocate_by_quantity ow a (fst x) (snd x).
Definition allocs ow := steps (alloc_x ow).
(** what an entry makes of its process *)
Definition g (ow : bool) (cf : nat -> nat -> Qc) (p : proc) (q : nat) : proc :=
  if ow then allocate cf (clear p) (Some q) else if existsb (is_allocated cf p) (p_refs p) then p else allocate cf p (Some q).
Lemma alloc_step ow a pr q : 
  match get a pr with
  | None => snd (allocate_by_quantity ow a pr q) <> None
  | Some p => exists a', allocate_by_quantity ow a pr q = (a', None) /\ a_cfs a' = a_cfs a /\ a_ti a' = a_ti a /\ pkeys a' = pkeys a
      /\ forall pr', get a' pr' = if eqb pr' pr then Some (g ow (acf a) p q) else get a pr'
  end.
Proof.
  unfold allocate_by_quantity. destruct (get a pr) as [p|] eqn:G; [|discriminate]. unfold g.
  destruct ow; [|destruct (existsb _ _)]; eexists; (split; [reflexivity|]); repeat split; try (eapply pkeys_set_proc; exact G); intros pr'; try apply get_set_proc.
  destruct (eqb_spec pr' pr) as [->|]; [exact G|reflexivity].
Qed.
Lemma g_spec ow cf p q : pinv p -> pinv (g ow cf p q) /\ p_refs (g ow cf p q) = p_refs p /\ xkeys (g ow cf p q) = xkeys p
  /\ (p_qty p <> None -> p_qty (g ow cf p q) <> None).
Proof.
  intros I. assert (X : forall p, pinv p -> pinv (allocate cf p (Some q)) /\ p_refs (allocate cf p (Some q)) = p_refs p /\ xkeys (allocate cf p (Some q)) = xkeys p
     /\ (p_qty p <> None -> p_qty (allocate cf p (Some q)) <> None)).
  { intros p' I'. split; [apply pinv_allocate, I'|]. split; [apply allocate_refs|]. split; [unfold xkeys; rewrite allocate_exch; reflexivity|].
    rewrite allocate_total. destruct (eqb _ _); cbn; [auto|discriminate]. }
  unfold g. destruct ow.
  - destruct (clear_spec p I) as [A [B [C [_ [E _]]]]]. destruct (X _ A) as [X1 [X2 [X3 X4]]]. rewrite X2, X3, B, E. rewrite C in X4. auto.
  - destruct (existsb _ _); [auto|]. apply X, I.
Qed.
Lemma allocs_facts ow l : forall a a', shape a -> allocs ow a l = (a', None) ->
  shape a' /\ sk a a' /\ a_cfs a' = a_cfs a /\ a_ti a' = a_ti a /\ (forall pr k, refs_at a' pr k <-> refs_at a pr k)
  /\ (forall x, In x l -> exists p, get a (fst x) = Some p).
Proof.
  induction l as [|[pr q] l IH]; intros a a' S H; unfold allocs in *; cbn [steps] in H.
  - injection H as <-. split; [exact S|]. split; [apply sk_refl|]. repeat split; auto. intros x [].
  - unfold alloc_x in H at 1. cbn [fst snd] in H. pose proof (alloc_step ow a pr q) as A. destruct (get a pr) as [p|] eqn:G.
    2:{ exfalso. destruct (allocate_by_quantity ow a pr q) as [a1 [e|]]; [discriminate|]. apply A. reflexivity. }
    destruct A as [a1 [E [A1 [A2 [A3 A4]]]]]. rewrite E in H. destruct (g_spec ow (acf a) p q (proj2 S _ _ G)) as [B1 [B2 [B3 _]]].
    assert (S1 : shape a1).
    { split; [rewrite A3; apply S|]. intros pr' p'. rewrite A4. destruct (eqb_spec pr' pr); [intros X; injection X as <-; exact B1|apply S]. }
    assert (K1 : sk a a1).
    { split; [exact A3|]. intros pr'. rewrite A4. destruct (eqb_spec pr' pr) as [->|]; [rewrite G; cbn; congruence|reflexivity]. }
    assert (R1 : forall pr' k, refs_at a1 pr' k <-> refs_at a pr' k).
    { intros pr' k. unfold refs_at. rewrite A4. destruct (eqb_spec pr' pr) as [->|]; [|reflexivity]. rewrite G.
      split; intros [z [Z1 Z2]]; injection Z1 as <-; eexists; (split; [reflexivity|]); [rewrite <- B2|rewrite B2]; exact Z2. }
    apply IH in H as [H1 [H2 [H3 [H4 [H5 H6]]]]]; [|exact S1]. split; [exact H1|]. split; [eapply sk_trans; eauto|]. split; [congruence|]. split; [congruence|]. split.
    + intros pr' k. rewrite H5. apply R1.
    + intros x [<-|I]; [exists p; exact G|]. destruct (H6 x I) as [p' G']. rewrite A4 in G'. destruct (eqb_spec (fst x) pr) as [E1|]; [exists p; congruence|eauto].
Qed.

(** the second application of an entry to a process equal to the final one *)
Definition eqv (a1 s : arch) : Prop :=
  shape s /\ pkeys s = pkeys a1 /\ a_ti s = a_ti a1 /\ (forall fq, dget fq (a_cfs s) = dget fq (a_cfs a1))
  /\ forall pr p1, get a1 pr = Some p1 -> exists p2, get s pr = Some p2 /\ sp p1 p2.
Lemma eqv_acf a1 s : eqv a1 s -> forall f q, acf s f q = acf a1 f q.
Proof. intros [_ [_ [_ [H _]]]] f q. unfold acf. rewrite H. reflexivity. Qed.
Lemma allocs_again ow a1 l : forall s, eqv a1 s ->
  (forall x, In x l -> exists p1, get a1 (fst x) = Some p1) ->
  (forall pr q p1 cf p2, In (pr, q) l -> get a1 pr = Some p1 -> (forall f q, cf f q = acf a1 f q) -> pinv p2 -> sp p1 p2 -> sp p1 (g ow cf p2 q)) ->
  exists s', allocs ow s l = (s', None) /\ eqv a1 s'.
Proof.
  induction l as [|[pr q] l IH]; intros s E D H; unfold allocs in *; cbn [steps]; [exists s; auto|].
  unfold alloc_x at 1. cbn [fst snd]. destruct (D (pr, q)) as [p1 G1]; [left; reflexivity|]. cbn [fst] in G1.
  pose proof (eqv_acf _ _ E) as EC. destruct E as [S [PK [T [CF E]]]]. destruct (E pr p1 G1) as [p2 [G2 SP]].
  pose proof (alloc_step ow s pr q) as A. rewrite G2 in A. destruct A as [s1 [-> [A1 [A2 [A3 A4]]]]]. apply IH.
  - split; [|split; [congruence|split; [congruence|split]]].
    + split; [rewrite A3; apply S|]. intros pr' p'. rewrite A4. destruct (eqb_spec pr' pr); [|apply S].
      intros X; injection X as <-. apply g_spec, S with pr, G2.
    + intros fq. rewrite A1. apply CF.
    + intros pr' p1' G1'. rewrite A4. destruct (eqb_spec pr' pr) as [->|]; [|auto]. eexists; split; [reflexivity|].
      assert (p1' = p1) as -> by congruence. eapply H; eauto; [left; reflexivity|apply S with pr, G2].
  - intros x I. apply D. right. exact I.
  - intros. eapply H; eauto. right. assumption.
Qed.

(** without overwrite *)
Lemma allocs_false_kept l : forall s aA, shape s -> allocs false s l = (aA, None) ->
  forall pr p1, get aA pr = Some p1 -> p_qty p1 = None ->
  get s pr = Some p1 /\ forall q, In (pr, q) l -> isall (acf s) p1 \/ total_output (acf s) p1 q = Q2Qc 0.
Proof.
  induction l as [|[pr0 q0] l IH]; intros s aA S H pr p1 G Q; unfold allocs in *; cbn [steps] in H.
  - injection H as <-. split; [exact G|intros q []].
  - unfold alloc_x in H at 1. cbn [fst snd] in H. pose proof (alloc_step false s pr0 q0) as A. destruct (get s pr0) as [p|] eqn:G0.
    2:{ exfalso. destruct (allocate_by_quantity false s pr0 q0) as [a1 [e|]]; [discriminate|]. apply A. reflexivity. }
    destruct A as [s1 [E [A1 [A2 [A3 A4]]]]]. rewrite E in H. destruct (g_spec false (acf s) p q0 (proj2 S _ _ G0)) as [B1 [B2 [B3 B4]]].
    assert (S1 : shape s1).
    { split; [rewrite A3; apply S|]. intros pr' p'. rewrite A4. destruct (eqb_spec pr' pr0); [intros X; injection X as <-; exact B1|apply S]. }
    destruct (IH s1 aA S1 H pr p1 G Q) as [G1 R1]. rewrite A4 in G1. rewrite (acf_eq s1 s A1) in R1.
    destruct (eqb_spec pr pr0) as [->|NE].
    + assert (G1' : g false (acf s) p q0 = p1) by (revert G1; generalize (g false (acf s) p q0); congruence). clear G1. rename G1' into G1. assert (Qp : p_qty p = None) by (destruct (p_qty p) eqn:Z; [exfalso; apply B4; [congruence|]; rewrite G1; exact Q|reflexivity]).
      assert (EP : p = p1 /\ (isall (acf s) p1 \/ total_output (acf s) p1 q0 = Q2Qc 0)).
      { unfold g in G1. destruct (existsb (is_allocated (acf s) p) (p_refs p)) eqn:X.
        - split; [exact G1|]. left. rewrite <- G1. apply existsb_isall; [apply S with pr0, G0|exact X].
        - rewrite allocate_total in G1. destruct (eqb_spec (total_output (acf s) p q0) (Q2Qc 0)) as [Z|Z]; [split; [exact G1|right; congruence]|].
          rewrite <- G1 in Q. discriminate Q. }
      destruct EP as [-> EP]. split; [exact G0|]. intros q [X|X]; [injection X as <-; exact EP|auto].
    + split; [exact G1|]. intros q [X|X]; [congruence|auto].
Qed.

(** with overwrite *)
Definition entries (pr : nat) (l : list (nat * nat)) : list nat := map snd (filter (fun x => Nat.eqb (fst x) pr) l).
Definition pick (t : nat -> Qc) (qs : list nat) (i : option nat * Qc) : option nat * Qc :=
  fold_left (fun acc q => if eqb (t q) (Q2Qc 0) then acc else (Some q, t q)) qs i.
Lemma allocs_true_fold l : forall s aA, shape s -> allocs true s l = (aA, None) ->
  forall pr, get aA pr = option_map (fun p => fold_left (g true (acf s)) (entries pr l) p) (get s pr).
Proof.
  induction l as [|[pr0 q0] l IH]; intros s aA S H pr; unfold allocs in *; cbn [steps] in H.
  - injection H as <-. destruct (get s pr); reflexivity.
  - unfold alloc_x in H at 1. cbn [fst snd] in H. pose proof (alloc_step true s pr0 q0) as A. destruct (get s pr0) as [p|] eqn:G0.
    2:{ exfalso. destruct (allocate_by_quantity true s pr0 q0) as [a1 [e|]]; [discriminate|]. apply A. reflexivity. }
    destruct A as [s1 [E [A1 [A2 [A3 A4]]]]]. rewrite E in H. destruct (g_spec true (acf s) p q0 (proj2 S _ _ G0)) as [B1 _].
    assert (S1 : shape s1).
    { split; [rewrite A3; apply S|]. intros pr' p'. rewrite A4. destruct (eqb_spec pr' pr0); [intros X; injection X as <-; exact B1|apply S]. }
    rewrite (IH s1 aA S1 H pr), A4, (acf_eq s1 s A1). unfold entries. cbn [filter fst].
    destruct (eqb_spec pr pr0) as [->|NE].
    + rewrite Nat.eqb_refl, G0. reflexivity.
    + destruct (Nat.eqb_spec pr0 pr); [congruence|reflexivity].
Qed.
Lemma g_true_spec cf p q : pinv p -> let p' := g true cf p q in
  (forall k, pv p' k = cl (pv p k)) /\ p_refs p' = p_refs p /\ (p_qty p', p_sum p') = pick (total_output cf (clear p)) [q] (p_qty p, p_sum p).
Proof.
  intros I p'. destruct (clear_spec p I) as [A [B [C [D [E F]]]]]. subst p'. cbn [g]. split; [|split].
  - intros k. unfold pv at 1. rewrite allocate_exch. apply F.
  - rewrite allocate_refs. exact B.
  - rewrite allocate_total. unfold pick. cbn [fold_left]. destruct (eqb _ _); cbn [p_qty p_sum]; [congruence|reflexivity].
Qed.
Lemma total_clear cf cf' p p' q : (forall f q, cf' f q = cf f q) -> pinv p -> pinv p' ->
  (forall k, In k (p_refs p') <-> In k (p_refs p)) -> (forall k, cl (pv p' k) = cl (pv p k)) ->
  total_output cf' (clear p') q = total_output cf (clear p) q.
Proof.
  intros C I I' R V. destruct (clear_spec p I) as [A1 [B1 [_ [_ [_ F1]]]]]. destruct (clear_spec p' I') as [A2 [B2 [_ [_ [_ F2]]]]].
  apply total_same; [exact C|apply pi_refs, A1|apply pi_refs, A2| |].
  - intros k. rewrite B1, B2. apply R.
  - intros k. rewrite F1, F2. apply V.
Qed.
Lemma pick_ext t t' qs i : (forall q, t' q = t q) -> pick t' qs i = pick t qs i.
Proof. intros H. unfold pick. revert i. induction qs as [|q qs IH]; intros i; cbn [fold_left]; [reflexivity|]. rewrite H. apply IH. Qed.
Lemma g_true_fold cf qs : forall p, pinv p -> qs <> [] -> let p' := fold_left (g true cf) qs p in
  pinv p' /\ (forall k, pv p' k = cl (pv p k)) /\ p_refs p' = p_refs p /\ (p_qty p', p_sum p') = pick (total_output cf (clear p)) qs (p_qty p, p_sum p).
Proof.
  induction qs as [|q qs IH]; intros p I N; [contradiction|]. cbn [fold_left].
  destruct (g_spec true cf p q I) as [I1 _]. destruct (g_true_spec cf p q I) as [A [B C]]. cbv zeta in *.
  destruct qs as [|q2 qs]; [cbn [fold_left]; auto|].
  destruct (IH (g true cf p q) I1) as [I2 [A2 [B2 C2]]]; [discriminate|]. split; [exact I2|]. split; [intros k; rewrite A2, A, cl_cl; reflexivity|].
  split; [congruence|]. rewrite C2, C.
  assert (TE : forall x, total_output cf (clear (g true cf p q)) x = total_output cf (clear p) x).
  { intros x. apply total_clear; auto; [intros k; rewrite B; reflexivity|intros k; rewrite A, cl_cl; reflexivity]. }
  rewrite (pick_ext _ _ (q2 :: qs) _ TE). reflexivity.
Qed.
Lemma pick_cases t qs : (forall i, pick t qs i = i) \/ (exists x, forall i, pick t qs i = x).
Proof.
  unfold pick. induction qs as [|q qs IH] using rev_ind; [left; reflexivity|].
  destruct (eqb_spec (t q) (Q2Qc 0)) as [Z|Z].
  - destruct IH as [IH|[x IH]]; [left|right; exists x]; intros i; rewrite fold_left_app; cbn [fold_left]; rewrite Z, eqb_refl; apply IH.
  - right. exists (Some q, t q). intros i. rewrite fold_left_app. cbn [fold_left]. destruct (eqb_spec (t q) (Q2Qc 0)); [contradiction|reflexivity].
Qed.
Lemma g_true_again cf cf' qs p p2 : pinv p -> pinv p2 -> (forall f q, cf' f q = cf f q) ->
  sp (fold_left (g true cf) qs p) p2 -> sp (fold_left (g true cf) qs p) (fold_left (g true cf') qs p2).
Proof.
  intros I I2 C S. destruct (Nat.eq_dec (length qs) 0) as [Z|Z]; [destruct qs; [exact S|discriminate]|].
  assert (N : qs <> []) by (intros ->; apply Z; reflexivity). clear Z.
  destruct (g_true_fold cf qs p I N) as [J1 [A1 [B1 C1]]]. destruct (g_true_fold cf' qs p2 I2 N) as [J2 [A2 [B2 C2]]]. cbv zeta in *.
  set (p1 := fold_left (g true cf) qs p) in *. set (p3 := fold_left (g true cf') qs p2) in *. destruct S as [V R Q T].
  assert (TE : forall q, total_output cf' (clear p2) q = total_output cf (clear p) q).
  { intros q. apply total_clear; auto; [intros k; rewrite R, B1; reflexivity|intros k; rewrite V, A1, cl_cl; reflexivity]. }
  assert (E : (p_qty p3, p_sum p3) = (p_qty p1, p_sum p1)).
  { rewrite C2, (pick_ext _ _ _ _ TE). rewrite Q, T. destruct (pick_cases (total_output cf (clear p)) qs) as [X|[x X]]; [apply X|].
    rewrite X, C1, X. reflexivity. }
  injection E as E1 E2. split; [|intros k; rewrite B2; apply R|exact E1|exact E2].
  intros k. rewrite A2, V, A1, cl_cl. reflexivity.
Qed.
Lemma allocs_true_run l : forall s, shape s -> (forall x, In x l -> exists p, get s (fst x) = Some p) -> exists s', allocs true s l = (s', None).
Proof.
  induction l as [|[pr q] l IH]; intros s S D; unfold allocs in *; cbn [steps]; [eauto|].
  unfold alloc_x at 1. cbn [fst snd]. destruct (D (pr, q)) as [p G]; [left; reflexivity|]. cbn [fst] in G.
  pose proof (alloc_step true s pr q) as A. rewrite G in A. destruct A as [s1 [-> [A1 [A2 [A3 A4]]]]]. apply IH.
  - split; [rewrite A3; apply S|]. intros pr' p'. rewrite A4. destruct (eqb_spec pr' pr); [|apply S].
    intros X; injection X as <-. exact (proj1 (g_spec true (acf s) p q (proj2 S _ _ G))).
  - intros x I. destruct (D x (or_intror I)) as [z Z]. rewrite A4. destruct (eqb_spec (fst x) pr); eauto.
Qed.

(** * The whole configuration *)
Definition settled (a : arch) : Prop :=
  forall pr p q, get a pr = Some p -> p_qty p = Some q -> p_sum p = total_output (acf a) p q.
Definition wfq (rq : nat -> option nat) (a : arch) : Prop := forall f q, rq f = Some q -> din (f, q) (a_cfs a) = true.
Record same (a b : arch) : Prop := {
  sm_procs : forall pr, match get a pr, get b pr with Some p, Some q => sp p q | None, None => True | _, _ => False end;
  sm_cfs : forall fq, dget fq (a_cfs b) = dget fq (a_cfs a);
  sm_ti : match a_ti a, a_ti b with Some l, Some m => forall e, In e m <-> In e l | None, None => True | _, _ => False end }.
Lemma eqv_get a1 s : eqv a1 s -> forall pr, match get a1 pr, get s pr with Some p, Some q => sp p q | None, None => True | _, _ => False end.
Proof.
  intros [_ [K [_ [_ E]]]] pr. destruct (get a1 pr) as [p1|] eqn:G.
  - destruct (E _ _ G) as [p2 [-> S]]. exact S.
  - destruct (get s pr) as [p2|] eqn:G2; [|exact Logic.I]. unfold get in *. apply dget_None in G. apply dget_Some_key in G2. apply G. unfold pkeys in K. rewrite <- K. exact G2.
Qed.
Lemma index_in a e : shape a -> (In e (index_of a) <-> exists pr p k, get a pr = Some p /\ In k (p_refs p) /\ e = (k_flow k, k_dir k, pr)).
Proof.
  intros S. unfold index_of. rewrite In_set_of, in_flat_map. split.
  - intros [[pr p] [I X]]. apply in_map_iff in X as [k [<- K]]. exists pr, p, k. split; [apply in_procs; assumption|auto].
  - intros [pr [p [k [G [K ->]]]]]. exists (pr, p). split; [apply in_procs; assumption|]. apply in_map_iff. exists k. auto.
Qed.
Lemma sp_sym p q : sp p q -> sp q p.
Proof. intros [A B C D]. split; intros; [symmetry; apply A|symmetry; apply B|congruence|congruence]. Qed.

Section Main.
Variable rq : nat -> option nat.
(** the phases of a successful application *)
Lemma apply_ok c ow a a1 : apply_config rq c ow a = (a1, None) <->
  exists aS aU aC aA, sets a (c_set c) = (aS, None) /\ steps unset_reference aS (c_unset c) = (aU, None)
    /\ chars rq ow aU (c_char c) = (aC, None) /\ allocs ow aC (c_alloc c) = (aA, None)
    /\ a1 = match a_ti aA with Some _ => re_index aA | None => aA end.
Proof.
  unfold apply_config. fold (sets a (c_set c)). destruct (sets a (c_set c)) as [aS [e|]]; cbn [bind].
  { split; [discriminate|]. intros [? [? [? [? [H _]]]]]. discriminate. }
  destruct (steps unset_reference aS (c_unset c)) as [aU [e|]] eqn:EU; cbn [bind].
  { split; [discriminate|]. intros [? [? [? [? [H [H2 _]]]]]]. injection H as <-. congruence. }
  fold (chars rq ow aU (c_char c)). destruct (chars rq ow aU (c_char c)) as [aC [e|]] eqn:EC; cbn [bind].
  { split; [discriminate|]. intros [? [? [? [? [H [H2 [H3 _]]]]]]]. injection H as <-. rewrite EU in H2. injection H2 as <-. congruence. }
  change (fun a x => allocate_by_quantity ow a (fst x) (snd x)) with (alloc_x ow). fold (allocs ow aC (c_alloc c)).
  destruct (allocs ow aC (c_alloc c)) as [aA [e|]] eqn:EA; cbn [bind].
  { split; [discriminate|]. intros [? [? [? [? [H [H2 [H3 [H4 _]]]]]]]]. injection H as <-. rewrite EU in H2. injection H2 as <-. rewrite EC in H3. injection H3 as <-. congruence. }
  split.
  - intros H. injection H as <-. exists aS, aU, aC, aA. auto.
  - intros [? [? [? [? [H [H2 [H3 [H4 ->]]]]]]]]. injection H as <-. rewrite EU in H2. injection H2 as <-. rewrite EC in H3. injection H3 as <-. rewrite EA in H4. injection H4 as <-. reflexivity.
Qed.

Theorem again c ow a a1 : shape a -> wfq rq a -> apply_config rq c ow a = (a1, None) -> settled a1 ->
  exists a2, apply_config rq c ow a1 = (a2, None) /\ same a1 a2.
Proof.
  intros S W H ST. apply apply_ok in H as [aS [aU [aC [aA [HS [HU [HC [HA E1]]]]]]]].
  destruct (sets_facts _ _ _ S HS) as [SS [KS [CS [TS [FS _]]]]].
  destruct (unsets_facts _ _ _ SS HU) as [SU [KU [CU [TU [FU _]]]]].
  pose proof (chars_procs _ _ _ _ _ _ HC) as [PC TC].
  assert (GC : forall pr, get aC pr = get aU pr) by (intros; unfold get; rewrite PC; reflexivity).
  assert (SC : shape aC) by (split; [unfold pkeys; rewrite PC; apply SU|intros pr p; rewrite GC; apply SU]).
  destruct (allocs_facts _ _ _ _ SC HA) as [SA [KA [CA [TA [FA DA]]]]].
  assert (P1 : a_procs a1 = a_procs aA) by (subst a1; destruct (a_ti aA); reflexivity).
  assert (C1 : a_cfs a1 = a_cfs aC) by (rewrite <- CA; subst a1; destruct (a_ti aA); reflexivity).
  assert (G1 : forall pr, get a1 pr = get aA pr) by (intros; unfold get; rewrite P1; reflexivity).
  assert (S1 : shape a1) by (split; [unfold pkeys; rewrite P1; apply SA|intros pr p; rewrite G1; apply SA]).
  assert (KUC : sk aU aC) by (split; [unfold pkeys; rewrite PC; reflexivity|intros; rewrite GC; reflexivity]).
  assert (KA1 : sk aA a1) by (split; [unfold pkeys; rewrite P1; reflexivity|intros; rewrite G1; reflexivity]).
  assert (KU1 : sk aU a1) by (eapply sk_trans; [exact KUC|]; eapply sk_trans; [exact KA|exact KA1]).
  assert (R1 : forall pr k, refs_at a1 pr k <-> refs_at aU pr k).
  { intros pr k. transitivity (refs_at aA pr k); [unfold refs_at; rewrite G1; reflexivity|]. rewrite FA. unfold refs_at. rewrite GC. reflexivity. }
  (* references *)
  assert (M0 : mid a1 (refs_at aS) a1).
  { split; [reflexivity|]. split; [reflexivity|]. split; [exact S1|]. split; [apply sk_refl|]. intros pr p1 p2 X Y.
    rewrite X in Y. injection Y as <-. repeat split; auto.
    - intros k K. apply FU, R1. exists p1. auto.
    - intros q Q _. apply (ST pr p1 q X Q). }
  destruct (sets_again a1 (c_set c) (refs_at aS) a aS a1 S) as [s1 [E2S M1]]; auto.
  { apply sk_sym. eapply sk_trans; [exact KS|]. eapply sk_trans; [exact KU|exact KU1]. }
  destruct (unsets_again a1 (c_unset c) aS aU s1 S1 SS) as [s2 [E2U M2]]; auto.
  { apply sk_sym. eapply sk_trans; [exact KU|exact KU1]. }
  { intros pr k. apply R1. }
  assert (EQ2 : eqv a1 s2).
  { destruct M2 as [A [B [C [D E]]]]. split; [exact C|]. split; [symmetry; apply sk_sym, D|]. split; [exact B|]. split; [intros fq; rewrite A; reflexivity|].
    intros pr p1 X. destruct (sk_get _ _ _ _ D X) as [p2 [Y _]]. exists p2. split; [exact Y|].
    destruct (E pr p1 p2 X Y) as [V1 [V2 [V3 [V4 V5]]]].
    assert (RI : forall k, In k (p_refs p2) <-> In k (p_refs p1)).
    { intros k. split; [|apply V3]. intros K. apply V4, R1 in K as [z [Z1 Z2]]. rewrite X in Z1. injection Z1 as <-. exact Z2. }
    split; auto. pose proof (proj2 C _ _ Y) as I2. pose proof (proj2 S1 _ _ X) as I1. destruct (p_qty p1) as [q|] eqn:Q.
    - pose proof (ST pr p1 q X Q) as T1.
      assert (T2 : total_output (acf a1) p2 q = total_output (acf a1) p1 q) by (apply total_same; auto using pi_refs).
      rewrite (V5 q V2); [congruence|]. rewrite T2, <- T1. apply (pi_sum p1 I1). congruence.
    - rewrite (pi_sum0 p1 I1 Q), (pi_sum0 p2 I2 V2). reflexivity. }
  (* characterizations *)
  assert (CH : exists s3, chars rq ow s2 (c_char c) = (s3, None) /\ eqv a1 s3).
  { destruct EQ2 as [A [B [C [D E]]]]. destruct ow.
    - assert (NR : forall x, In x (c_char c) -> rq (fst (fst x)) <> Some (snd (fst x))).
      { eapply chars_over_noref; [|exact HC]. intros f q R. rewrite CU, CS. apply W, R. }
      destruct (chars_over rq (c_char c) s2 NR) as [s3 [F1 [F2 [F3 F4]]]]. exists s3. split; [exact F1|].
      destruct (chars_over rq (c_char c) aU NR) as [z [Z1 [_ [_ Z4]]]]. assert (z = aC) as -> by congruence.
      split; [split; [unfold pkeys; rewrite F2; apply A|intros pr p; unfold get; rewrite F2; apply A]|].
      split; [unfold pkeys; rewrite F2; exact B|]. split; [congruence|]. split.
      + intros fq. rewrite F4, D, C1, Z4. destruct (lastv (c_char c) fq); reflexivity.
      + intros pr p1 X. unfold get. rewrite F2. apply (E pr p1 X).
    - exists s2. split; [|exact (conj A (conj B (conj C (conj D E))))]. apply chars_present. intros x I.
      destruct (chars_din _ _ _ _ _ HC) as [X _]. specialize (X x I). unfold din in *. rewrite D, C1. exact X. }
  destruct CH as [s3 [E2C EQ3]].
  (* allocations *)
  assert (DA1 : forall x, In x (c_alloc c) -> exists p1, get a1 (fst x) = Some p1).
  { intros x I. destruct (DA x I) as [p G]. destruct (sk_get _ _ _ _ (sk_trans _ _ _ KA KA1) G) as [p1 [X _]]. eauto. }
  assert (AL : exists s4, allocs ow s3 (c_alloc c) = (s4, None) /\ eqv a1 s4).
  { destruct ow.
    - pose proof (eqv_acf _ _ EQ3) as EC. destruct EQ3 as [A [B [C [D E]]]]. destruct (allocs_true_run (c_alloc c) s3 A) as [s4 F].
      { intros x I. destruct (DA1 x I) as [p1 X]. destruct (E _ _ X) as [p2 [Y _]]. eauto. }
      exists s4. split; [exact F|]. destruct (allocs_facts _ _ _ _ A F) as [S4 [K4 [C4 [T4 _]]]].
      split; [exact S4|]. split; [destruct K4 as [-> _]; exact B|]. split; [congruence|]. split; [intros fq; rewrite C4; apply D|].
      intros pr p1 X. destruct (E pr p1 X) as [p2 [Y SP]]. rewrite (allocs_true_fold _ _ _ A F pr), Y. eexists; split; [reflexivity|].
      rewrite G1, (allocs_true_fold _ _ _ SC HA pr) in X. destruct (get aC pr) as [p|] eqn:G; [|discriminate]. injection X as <-.
      apply g_true_again; auto; [apply SC with pr, G|apply A with pr, Y|]. intros f q. rewrite EC. unfold acf. rewrite C1. reflexivity.
    - apply (allocs_again false a1 (c_alloc c) s3 EQ3 DA1). intros pr q p1 cf p2 I X Ccf I2 SP.
      pose proof (proj2 S1 _ _ X) as I1.
      assert (CASE : isall (acf a1) p1 \/ total_output (acf a1) p1 q = Q2Qc 0).
      { destruct (p_qty p1) as [q1|] eqn:Q.
        - left. apply (total_isall _ _ q1 Q). rewrite <- (ST pr p1 q1 X Q). apply (pi_sum p1 I1). congruence.
        - rewrite G1 in X. destruct (allocs_false_kept _ _ _ SC HA pr p1 X Q) as [_ Z]. specialize (Z q I).
          rewrite (acf_eq a1 aC C1). exact Z. }
      unfold g. destruct (existsb (is_allocated cf p2) (p_refs p2)) eqn:B; [exact SP|]. destruct CASE as [CA1|CA1].
      + exfalso. apply (isall_same _ cf _ _ Ccf SP) in CA1. apply (existsb_isall cf p2 I2) in CA1. congruence.
      + rewrite allocate_total.
        assert (Z : total_output cf p2 q = Q2Qc 0).
        { rewrite <- CA1. destruct SP. apply total_same; auto using pi_refs. }
        rewrite Z, eqb_refl. exact SP. }
  destruct AL as [s4 [E2A EQ4]].
  exists (match a_ti s4 with Some _ => re_index s4 | None => s4 end). split.
  { apply apply_ok. exists s1, s2, s3, s4. auto. }
  pose proof (eqv_get _ _ EQ4) as EG. destruct EQ4 as [A [B [C [D E]]]]. split.
  - intros pr. specialize (EG pr). destruct (a_ti s4); exact EG.
  - intros fq. rewrite <- D. destruct (a_ti s4); reflexivity.
  - rewrite C. rewrite E1. destruct (a_ti aA) as [l|] eqn:TT.
    + cbn [a_ti re_index]. intros e. rewrite (index_in s4 e A), (index_in aA e SA).
      split; intros [pr [p [k [X [Y ->]]]]].
      * specialize (EG pr). rewrite X, G1 in EG. destruct (get aA pr) as [p'|] eqn:Gz; [|contradiction]. exists pr, p', k. split; [exact Gz|]. split; [|reflexivity]. apply (sp_refs _ _ EG), Y.
      * specialize (EG pr). rewrite G1, X in EG. destruct (get s4 pr) as [p'|] eqn:Gz; [|contradiction]. exists pr, p', k. split; [exact Gz|]. split; [|reflexivity]. apply (sp_refs _ _ EG), Y.
    + rewrite TT, C, E1, TT. exact Logic.I.
Qed.

(** a configuration applied to an archive none of whose processes is allocated by quantity leaves every allocation up to date *)
Lemma settles c ow a a1 : shape a -> (forall pr p, get a pr = Some p -> p_qty p = None) -> apply_config rq c ow a = (a1, None) -> settled a1.
Proof.
  intros S N H. apply apply_ok in H as [aS [aU [aC [aA [HS [HU [HC [HA E1]]]]]]]].
  destruct (sets_facts _ _ _ S HS) as [SS [_ [_ [_ [_ FS]]]]].
  destruct (unsets_facts _ _ _ SS HU) as [SU [_ [_ [_ [_ FU]]]]].
  pose proof (chars_procs _ _ _ _ _ _ HC) as [PC TC].
  assert (GC : forall pr, get aC pr = get aU pr) by (intros; unfold get; rewrite PC; reflexivity).
  assert (SC : shape aC) by (split; [unfold pkeys; rewrite PC; apply SU|intros pr p; rewrite GC; apply SU]).
  assert (NC : forall pr p, get aC pr = Some p -> p_qty p = None).
  { intros pr p. rewrite GC. intros X. destruct (p_qty p) as [q|] eqn:Q; [|reflexivity]. exfalso.
    destruct (FU pr p q X Q) as [p1 [X1 Q1]]. destruct (FS pr p1 q X1 Q1) as [p2 [X2 Q2]]. rewrite (N _ _ X2) in Q2. discriminate. }
  set (OK := fun a => forall pr p q, get a pr = Some p -> p_qty p = Some q ->
     p_sum p = total_output (acf a) p q /\ (ow = true -> forall k v d, pv p k = Some (v, d) -> d = [])).
  assert (KEY : forall l s s', shape s -> OK s -> allocs ow s l = (s', None) -> OK s').
  { induction l as [|[pr q] l IH]; intros s s' S0 O0 H0; unfold allocs in *; cbn [steps] in H0; [injection H0 as <-; exact O0|].
    unfold alloc_x in H0 at 1. cbn [fst snd] in H0. pose proof (alloc_step ow s pr q) as A. destruct (get s pr) as [p|] eqn:G.
    2:{ exfalso. destruct (allocate_by_quantity ow s pr q) as [a2 [e|]]; [discriminate|]. apply A. reflexivity. }
    destruct A as [s1 [E [A1 [A2 [A3 A4]]]]]. rewrite E in H0. pose proof (proj2 S0 _ _ G) as I. destruct (g_spec ow (acf s) p q I) as [B1 _].
    apply (IH s1 s'); [|..|exact H0].
    { split; [rewrite A3; apply S0|]. intros pr' p'. rewrite A4. destruct (eqb_spec pr' pr); [intros X; injection X as <-; exact B1|apply S0]. }
    intros pr' p' q' G'. rewrite (acf_eq s1 s A1). rewrite A4 in G'. destruct (eqb_spec pr' pr) as [->|]; [|apply (O0 pr'); exact G'].
    assert (p' = g ow (acf s) p q) as -> by (revert G'; generalize (g ow (acf s) p q); congruence). clear G'. unfold g. destruct ow.
    - destruct (clear_spec p I) as [J1 [J2 [J3 [J4 [J5 J6]]]]]. rewrite allocate_total.
      assert (VD : forall k v d, pv (clear p) k = Some (v, d) -> d = []) by (intros k v d; rewrite J6; destruct (pv p k) as [[v0 d0]|]; cbn; congruence).
      destruct (eqb_spec (total_output (acf s) (clear p) q) (Q2Qc 0)) as [Z|Z].
      + intros Q. rewrite J3 in Q. destruct (O0 pr p q' G Q) as [O1 O2]. split; [|intros _; exact VD]. rewrite J4, O1. symmetry.
        apply total_same; [reflexivity|apply pi_refs, I|apply pi_refs, J1|intros k; rewrite J2; reflexivity|]. intros k. rewrite J6. destruct (pv p k) as [[v d]|] eqn:V; [|reflexivity].
        rewrite (O2 eq_refl k v d V). reflexivity.
      + cbn [p_qty p_sum]. intros Q. injection Q as <-. split; [|intros _; exact VD]. reflexivity.
    - destruct (existsb _ _); [apply (O0 pr); exact G|]. rewrite allocate_total.
      destruct (eqb_spec (total_output (acf s) p q) (Q2Qc 0)) as [Z|Z]; [apply (O0 pr); exact G|].
      cbn [p_qty p_sum]. intros Q. injection Q as <-. split; [|discriminate]. reflexivity. }
  assert (OA : OK aA) by (eapply KEY; [exact SC| |exact HA]; intros pr p q G Q; rewrite (NC pr p G) in Q; discriminate).
  intros pr p q G Q. assert (X : acf a1 = acf aA) by (apply acf_eq; subst a1; destruct (a_ti aA); reflexivity). rewrite X.
  apply (OA pr p q); [|exact Q]. rewrite <- G. subst a1. destruct (a_ti aA); reflexivity.
Qed.
End Main.

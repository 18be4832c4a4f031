(** C87: moving a branch of a model into its own fragment ([split_subfragment]) and what traversals of the model compute. *)
From Verif Require Import Num Base PyStr ProcModel FragModel FragProofs FragProps FragProps4 FragProps5 ObserveProps EditModel EditProofs TravSim SplitProofs SplitSim.
From Coq Require Import Permutation.
Open Scope Qc_scope.
Open Scope string_scope.
Open Scope list_scope.

(** What a split leaves alone: [b] did not exist, [a] was a child of [p]; every other fragment is untouched, [a] keeps everything but its
    parent and its exchange values, and [p] everything but the swap of children. *)
Theorem C87_frame cf refq fuel h a b f p pf h' : rooted h -> parents_exist h -> children_exist h -> h a = Some f -> f_parent f = Some p -> h p = Some pf ->
  (forall t, dget None (f_terms pf) = Some t -> t_node t <> NNull) -> f_isbal f = false ->
  split_subfragment cf refq fuel h a b = (h', FOk tt) ->
  h b = None /\ (forall j, j <> a -> j <> b -> j <> p -> h' j = h j)
  /\ h' a = Some (Fr None (f_children f) (f_flow f) (f_dir f) (f_bg f) (f_isbal f) (f_cons f) new_evs (f_terms f))
  /\ (exists e, h' b = Some (Fr (Some p) [] (f_flow f) (f_dir f) false false None e [(None, Tm (NFrag a) (f_flow f) (comp (f_dir f)) true)]))
  /\ (exists ch, h' p = Some (Fr (f_parent pf) ch (f_flow pf) (f_dir pf) (f_bg pf) (f_isbal pf) (f_cons pf) (f_evs pf) (f_terms pf)) /\ forall c, In c ch <-> c = b \/ (In c (f_children pf) /\ c <> a)).
Proof.
  intros RO PE CE HA FP HP PN IB E. destruct (split_ok cf refq fuel h a b f p pf h' RO PE HA FP HP E) as (NAP & HB & NBP & NBA & h1 & pf1 & g & F & SD1 & INA).
  split; [exact HB|]. split; [exact (sd_frame _ _ _ _ _ _ _ _ _ SD1)|]. split; [rewrite (sd_a _ _ _ _ _ _ _ _ _ SD1); reflexivity|].
  destruct (fk_g _ _ _ _ _ _ _ _ _ _ F) as [e G]. split; [exists e; rewrite (sd_b _ _ _ _ _ _ _ _ _ SD1), G; cbn; rewrite IB; reflexivity|].
  destruct (fk_fields _ _ _ _ _ _ _ _ _ _ F) as (E1 & E2 & E3 & E4 & E5). destruct (fk_cons _ _ _ _ _ _ _ _ _ _ F) as [E6 _]. rewrite IB in E6.
  destruct (fk_terms _ _ _ _ _ _ _ _ _ _ F) as (t0 & D0 & TN & _). assert (N0 : is_null t0 = false) by (specialize (PN t0 D0); unfold is_null; destruct (t_node t0); congruence). destruct (TN N0) as [E7 E8].
  exists (set_remove a (f_children pf1)). split.
  - rewrite (sd_p _ _ _ _ _ _ _ _ _ SD1). unfold with_children. rewrite E1, E2, E3, E4, E5, E6, E7, E8. reflexivity.
  - intros c. unfold set_remove. rewrite filter_In, (fk_children _ _ _ _ _ _ _ _ _ _ F), In_set_add. change (@eqb nat _) with Nat.eqb. destruct (Nat.eqb_spec a c) as [<-|N]; cbn; [split; [intros [_ X]; discriminate|intros [->|[_ X]]; congruence]|].
    split; [intros [[->|J] _]; auto|intros [->|[J _]]; auto].
Qed.
Print Assumptions C87_frame.

(** Splitting a branch off keeps the results of every traversal that does not start at the branch itself: the same activities and
    processes at work, with the same amounts and node weights, apart from the new link [b]; and the same net amount of every flow
    that is cut off. Under: no other subfragment in the scenario; the branch is an ordinary child (not a balance flow, not background) with a
    termination in the scenario, whose flow needs no conversion to the flow it is terminated with, and whose own flow is not cut off below it. *)
Theorem C87_split_keeps_results_partial cf refq fuel n h a b f p pf h' sc obs i l t :
  rooted h -> sound_links h -> parents_exist h -> children_exist h -> no_subfragments h (as_set sc) -> ordinary (as_set sc) ->
  h a = Some f -> f_parent f = Some p -> h p = Some pf -> NoDup (f_children pf) ->
  f_isbal f = false -> f_bg f = false -> f_bg pf = false -> values_ok f -> no_digit_keys f ->
  (forall t, dget None (f_terms pf) = Some t -> t_node t <> NNull) -> never_subfrag h p pf ->
  termination f (as_set sc) = FOk t -> t_node t <> NNull -> multiplier cf refq (f_flow f) t = FOk 1 ->
  (forall j g tj, in_tree h a j -> j <> a -> h j = Some g -> f_flow g = f_flow f -> termination g (as_set sc) = FOk tj -> t_node tj <> NNull) ->
  (f_cons f <> None -> exists c g, In c (f_children f) /\ h c = Some g /\ f_isbal g = true) ->
  split_subfragment cf refq fuel h a b = (h', FOk tt) -> i <> a ->
  traverse cf refq n h sc obs i = FOk l ->
  exists l', traverse cf refq (S n) h' sc obs i = FOk l' /\ same_results b l l'.
Proof.
  intros RO SL PE CE NS OR HA FP HP ND IB BG BGP VO NDK PN NV TA TN MU NC BF E NI T.
  destruct (split_ok cf refq fuel h a b f p pf h' RO PE HA FP HP E) as (NAP & HB & NBP & NBA & h1 & pf1 & g & F & SD1 & INA).
  assert (RA := fk_values _ _ _ _ _ _ _ _ _ _ F IB VO NDK BGP NV).
  destruct (fk_terms _ _ _ _ _ _ _ _ _ _ F) as (t0 & D0 & TN0 & _). assert (N0 : is_null t0 = false) by (specialize (PN t0 D0); unfold is_null; destruct (t_node t0); congruence).
  assert (NIB : i <> b). { intros ->. unfold traverse in T. destruct n as [|n]; [discriminate|]. cbn [trav] in T. unfold trav_node in T. rewrite HB in T. discriminate. }
  assert (BF' : forall e, balance_flow h f <> FErr e).
  { intros e. unfold balance_flow. destruct (f_cons f) as [q|] eqn:FC; [|discriminate]. destruct (BF ltac:(discriminate)) as (c & gc & J & HC & IC). destruct (filter _ (child_flows f)) as [|c0 r] eqn:FI; [|discriminate]. exfalso.
    assert (In c []) by (rewrite <- FI; apply filter_In; split; [apply (Permutation_in _ (Permutation_sym (child_flows_perm f)) J)|rewrite HC; exact IC]). contradiction. }
  unfold traverse in *. destruct (trav cf refq n h (as_set sc) obs i (Q2Qc 1) [] None None) as [[l0 cv]|] eqn:TR; [|discriminate]. injection T as <-.
  destruct (sim cf refq h h1 h' (as_set sc) obs a b p f pf pf1 g RO SL CE NS OR HA FP HP HB F SD1 INA ND IB BG RA (TN0 N0) t TA TN MU NC BF' n i (Q2Qc 1) [] None None NI NIB) as [X _].
  destruct (X l0 cv TR) as (l' & -> & SM). exists l'. auto.
Qed.
Print Assumptions C87_split_keeps_results_partial.

(** * A model: 1 -> 2 (3 of flow 11, process 7) -> 3 (5 of flow 12, cut off), 4 (2 of flow 13, process 8) *)
Definition h87 (fl3 : nat) (d3 : dirn) (v3 : Qc) (tf2 : nat) : heap := fun i => match i with
  | 1%nat => Some (Fr None [2%nat] 10 Output false false None [(K0, Some 1); (K1, Some 0)] [(None, Tm (NFrag 1) 10 Input true)])
  | 2%nat => Some (Fr (Some 1%nat) [3%nat; 4%nat] 11 Input false false None [(K0, Some (Q2Qc 3)); (K1, Some 0)] [(None, Tm (NProc 7) tf2 Output true)])
  | 3%nat => Some (Fr (Some 2%nat) [] fl3 d3 false false None [(K0, Some v3); (K1, Some 0)] [(None, null_term fl3 d3)])
  | 4%nat => Some (Fr (Some 2%nat) [] 13 Input false false None [(K0, Some (Q2Qc 2)); (K1, Some 0)] [(None, Tm (NProc 8) 13 Output true)])
  | _ => None end.
Definition cf87 (fl q : nat) : Qc := if Nat.eqb fl 11 && Nat.eqb q 1 then Q2Qc 2 else if Nat.eqb q 0 then 1 else 0.
Definition rq87 (fl : nat) : nat := if Nat.eqb fl 20 then 1 else 0.
Definition mags_of (r : fret (list ffl)) : option (list (fref * Q)) := match r with FOk l => Some (map (fun x => (ff_ref x, this (ff_mag x))) l) | FErr _ => None end.
Definition before87 h := mags_of (traverse cf87 rq87 9 h ScNone false 1).
Definition after87 h := match split_subfragment cf87 rq87 9 h 2 9 with (h', FOk _) => mags_of (traverse cf87 rq87 9 h' ScNone false 1) | _ => None end.
Example C87_example : before87 (h87 12 Input (Q2Qc 5) 11) = Some [(Real 1, 1); (Real 2, 3); (Real 3, 15); (Real 4, 6)]%Q
  /\ after87 (h87 12 Input (Q2Qc 5) 11) = Some [(Real 1, 1); (Real 9, 3); (Real 2, 3); (Real 4, 6); (Ghost 2, 15)]%Q.
Proof. split; vm_compute; reflexivity. Qed.
Definition ev5 : heap := h87 12 Input (Q2Qc 5) 11.
(** the hypotheses of the theorem hold of that model *)
Ltac nodes H := repeat match type of H with context [match ?i with O => _ | S _ => _ end] => is_var i; destruct i; try discriminate H end.
Example C87_hypotheses : exists h' l, split_subfragment cf87 rq87 9 ev5 2%nat 9%nat = (h', FOk tt) /\ traverse cf87 rq87 8 ev5 ScNone false 1%nat = FOk l /\
  exists l', traverse cf87 rq87 9 h' ScNone false 1%nat = FOk l' /\ same_results 9 l l'.
Proof.
  eexists _, _. split; [vm_compute; reflexivity|]. split; [vm_compute; reflexivity|].
  eapply (C87_split_keeps_results_partial cf87 rq87 9 8 ev5 2%nat 9%nat _ 1%nat _ _ ScNone false 1%nat _ (Tm (NProc 7) 11 Output true)).
  - intros k. exists 4%nat. unfold ev5, h87. do 5 (destruct k as [|k]; [vm_compute; discriminate|]). vm_compute. discriminate.
  - intros p f c g H J HC. unfold ev5, h87 in H, HC. nodes H; injection H as <-; cbn in J; repeat (destruct J as [<-|J]); try contradiction; injection HC as <-; reflexivity.
  - intros j f p H P. unfold ev5, h87 in H. nodes H; injection H as <-; cbn in P; try discriminate P; injection P as <-; discriminate.
  - intros j f c H J. unfold ev5, h87 in H. nodes H; injection H as <-; cbn in J; repeat (destruct J as [<-|J]); try contradiction; discriminate.
  - intros i f t j H T N. unfold ev5, h87 in H. nodes H; injection H as <-; cbn in T; injection T as <-; cbn in N; try discriminate N. injection N as <-. reflexivity.
  - exact I.
  - reflexivity.
  - reflexivity.
  - reflexivity.
  - repeat constructor; cbn; intuition congruence.
  - reflexivity.
  - reflexivity.
  - reflexivity.
  - split; [exists (Q2Qc 3); split; [reflexivity|discriminate]|exists 0; reflexivity].
  - split; reflexivity.
  - intros t [= <-]. discriminate.
  - intros k t [[= <- <-]|[]]. reflexivity.
  - reflexivity.
  - discriminate.
  - reflexivity.
  - intros j g tj T N H FL TT TNN. unfold ev5, h87 in H. nodes H; injection H as <-; cbn in FL; try discriminate FL; congruence.
  - intros X. contradiction X. reflexivity.
  - vm_compute. reflexivity.
  - discriminate.
  - vm_compute. reflexivity.
Qed.

(** Refuted without the provisos. A termination to a flow measured in another quantity: the conversion (here by 2) is applied to the branch but not
    to the fragment it becomes, so process 8 goes from 12 to 6. *)
Theorem C87_refuted_conversion : before87 (h87 12 Input (Q2Qc 5) 20) = Some [(Real 1, 1); (Real 2, 3); (Real 3, 30); (Real 4, 12)]%Q
  /\ after87 (h87 12 Input (Q2Qc 5) 20) = Some [(Real 1, 1); (Real 9, 3); (Real 2, 3); (Real 4, 6); (Ghost 2, 15)]%Q.
Proof. split; vm_compute; reflexivity. Qed.
(** The branch's own flow cut off below it: half a unit needed per unit is taken from the output of the fragment, and everything doubles. *)
Theorem C87_refuted_own_flow : before87 (h87 11 Input (Q2Qc (1 # 2)) 11) = Some [(Real 1, 1); (Real 2, 3); (Real 3, 3 # 2); (Real 4, 6)]%Q
  /\ after87 (h87 11 Input (Q2Qc (1 # 2)) 11) = Some [(Real 1, 1); (Real 9, 3); (Real 2, 6); (Real 4, 12)]%Q.
Proof. split; vm_compute; reflexivity. Qed.
(** The same flow put out below it: the split succeeds and no traversal does any more. *)
Theorem C87_refuted_cumulating : before87 (h87 11 Output 1 11) = Some [(Real 1, 1); (Real 2, 3); (Real 3, 3); (Real 4, 6)]%Q
  /\ snd (split_subfragment cf87 rq87 9 (h87 11 Output 1 11) 2 9) = FOk tt /\ after87 (h87 11 Output 1 11) = None.
Proof. repeat split; vm_compute; reflexivity. Qed.

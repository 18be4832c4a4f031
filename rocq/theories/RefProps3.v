(** C110: the reference exchanges of a process reference. *)
From Coq Require Import String List.
From Verif Require Import Num Base PyStr LowerModel FlowModel ProcModel ProcProofs ProcProps ConfModel ConfProofs ConfProofs2 ConfProps ConfProps2 ConfProps3 InvModel InvProps RefModel.
Open Scope nat_scope.
Open Scope string_scope.
Open Scope list_scope.

(** Specification: the flow an argument names; whether it is that of a reference. *)
Definition names (a : rarg) : option nat := match a with RNone => None | RStr f => Some f | RFlow f => Some f | RExch k => Some (k_flow k) end.
Definition valid (p : proc) (a : rarg) (f : nat) : Prop := names a = Some f /\ exists k, In k (p_refs p) /\ k_flow k = f.
Definition sets (h : list rarg) (r : pref) : pref := fold_left (fun r a => set_default a r) h r.
Lemma set_default_spec a r : pf_proc (set_default a r) = pf_proc r /\ pf_refs (set_default a r) = pf_refs r
  /\ forall f, pf_default (set_default a r) = Some f <-> ((names a = Some f /\ In f (map k_flow (pf_refs r))) \/ ((forall g, names a = Some g -> ~ In g (map k_flow (pf_refs r))) /\ pf_default r = Some f)).
Proof.
  unfold set_default. fold (names a). destruct (names a) as [g|].
  - destruct (mem_spec g (map k_flow (pf_refs r))) as [I|I]; cbn [pf_proc pf_refs pf_default]; (split; [reflexivity|]); (split; [reflexivity|]); intros f; split.
    + intros E. injection E as <-. auto.
    + intros [[E _]|[N _]]; [congruence|]. exfalso. apply (N g); auto.
    + intros E. right. split; [|exact E]. intros x X. injection X as <-. exact I.
    + intros [[E J]|[_ E]]; [injection E as <-; contradiction|exact E].
  - split; [reflexivity|]. split; [reflexivity|]. intros f. split; [intros E; right; split; [discriminate|exact E]|intros [[E _]|[_ E]]; [discriminate|exact E]].
Qed.
(** The default reference is the last valid one that was set, else the process's reference if it has just one: nothing else is accepted, and what is not accepted changes nothing. *)
Theorem C110_default : forall pr p h f, pf_default (sets h (new_pref pr p)) = Some f <->
  ((exists h1 a h2, h = h1 ++ a :: h2 /\ valid p a f /\ forall b g, In b h2 -> ~ valid p b g)
   \/ ((forall b g, In b h -> ~ valid p b g) /\ exists k, p_refs p = [k] /\ k_flow k = f)).
Proof.
  intros pr p h f.
  assert (G : forall h r, pf_refs r = p_refs p -> pf_default (sets h r) = Some f <->
    ((exists h1 a h2, h = h1 ++ a :: h2 /\ valid p a f /\ forall b g, In b h2 -> ~ valid p b g) \/ ((forall b g, In b h -> ~ valid p b g) /\ pf_default r = Some f))).
  { clear h. induction h as [|a h IH]; intros r R.
    - cbn. split; [intros E; right; split; [intros b g []|exact E]|intros [[h1 [a [h2 [E _]]]]|[_ E]]; [destruct h1; discriminate|exact E]].
    - cbn [sets fold_left]. fold (sets h (set_default a r)). destruct (set_default_spec a r) as [_ [S2 S3]]. rewrite IH by congruence. rewrite S3, R. clear IH S3.
      assert (V : forall g, valid p a g <-> names a = Some g /\ In g (map k_flow (p_refs p))).
      { intros g. unfold valid. rewrite in_map_iff. split; intros [X [k [Y Z]]]; split; auto; exists k; auto. }
      split.
      + intros [[h1 [x [h2 [-> [X Y]]]]]|[X [[Y Z]|[Y Z]]]].
        * left. exists (a :: h1), x, h2. auto.
        * left. exists [], a, h. split; [reflexivity|]. split; [apply V; auto|exact X].
        * right. split; [|exact Z]. intros b g [<-|J]; [|apply X, J]. intros W. apply V in W as [W1 W2]. apply (Y g W1 W2).
      + intros [[h1 [x [h2 [E [X Y]]]]]|[X Z]].
        * destruct h1 as [|y h1]; cbn [app] in E; injection E as -> ->.
          -- right. split; [exact Y|]. left. apply V, X.
          -- left. exists h1, x, h2. auto.
        * right. split; [intros b g J; apply X; right; exact J|]. right. split; [|exact Z]. intros g N I. apply (X a g); [left; reflexivity|]. apply V. auto. }
  rewrite G by reflexivity. apply or_iff_compat_l. apply and_iff_compat_l. cbn [new_pref pf_default].
  destruct (p_refs p) as [|k [|k2 l]]; split; try discriminate; try (intros [x [E _]]; discriminate).
  - intros E. injection E as <-. exists k. auto.
  - intros [x [E X]]. injection E as <-. congruence.
Qed.
Lemma sets_proc h r : pf_proc (sets h r) = pf_proc r.
Proof. revert r. induction h as [|a h IH]; intros r; [reflexivity|]. cbn [sets fold_left]. fold (sets h (set_default a r)). rewrite IH. apply (set_default_spec a r). Qed.
(** A query with a flow or an exchange as its reference flow is made for that flow; without one for the default; without a default for none. *)
Theorem C110_queries : forall A (q : nat -> option nat -> A + iexn) pr p h a x, ask_ref q (sets h (new_pref pr p)) a = inl x ->
  q pr (match a with RNone => pf_default (sets h (new_pref pr p)) | _ => names a end) = inl x.
Proof.
  intros A q pr p h a x H. unfold ask_ref, use_ref in H. rewrite sets_proc in H. cbn [pf_proc new_pref] in H. destruct a as [|f|f|k]; [|discriminate| |].
  - destruct (pf_default (sets h (new_pref pr p))); cbn [flow_of] in H; destruct (q pr _); congruence.
  - cbn [flow_of] in H. destruct (q pr (Some f)) eqn:E; cbn [names]; [congruence|discriminate].
  - cbn [flow_of] in H. destruct (q pr (Some (k_flow k))) eqn:E; cbn [names]; [congruence|discriminate].
Qed.
Lemma find_the_reference p f k : pinv p -> In k (p_refs p) -> k_flow k = f -> (forall k', In k' (p_refs p) -> k_flow k' = f -> k' = k) -> find_exchange p (SFlow f) (Some true) None = POk k.
Proof.
  intros I J F U. assert (M : forall k', matches p (SFlow f) (Some true) None k' <-> In k' (p_refs p) /\ k_flow k' = f).
  { intros k'. unfold matches. rewrite (pi_ref p I). unfold is_ref_in, is_ref. split.
    - intros [A [B [_ C]]]. split; [|exact B]. destruct (dget k' (p_exch p)) as [e|]; [exists e; auto|discriminate].
    - intros [[e [D E]] B]. split; [eapply dget_Some_key, D|]. split; [exact B|]. split; [exact Logic.I|]. rewrite D. exact E. }
  pose proof (find_cases p (SFlow f) (Some true) None I) as C. cbv zeta in C. assert (MK : matches p (SFlow f) (Some true) None k) by (apply M; auto).
  destruct C as [[_ C]|[[k' [E [C _]]]|[[_ [[k1 [k2 [N [C1 C2]]]] _]]|[_ [k1 [k2 [N [C1 [C2 _]]]]]]]]].
  - destruct (C k MK).
  - rewrite E. f_equal. apply M in C as [C1 C2]. apply U; assumption.
  - apply M in C1 as [A1 A2]. apply M in C2 as [B1 B2]. exfalso. apply N. rewrite (U k1 A1 A2), (U k2 B1 B2). reflexivity.
  - apply M in C1 as [A1 A2]. apply M in C2 as [B1 B2]. exfalso. apply N. rewrite (U k1 A1 A2), (U k2 B1 B2). reflexivity.
Qed.
(** A process with one reference, asked without a reference flow, whatever defaults were set or tried before, answers for that reference. *)
Theorem C110_single_reference : forall rq s pr p k h, archive rq (s_arch s) -> get (s_arch s) pr = Some p -> p_refs p = [k] ->
  ref_foreground s (sets h (new_pref pr p)) RNone = inl k
  /\ ref_lci s (sets h (new_pref pr p)) RNone = match lci s pr (Some (k_flow k)) with inl x => inl x | inr e => inr (QArch e) end.
Proof.
  intros rq s pr p k h AR G R. assert (D : pf_default (sets h (new_pref pr p)) = Some (k_flow k)).
  { destruct (pf_default (sets h (new_pref pr p))) as [f|] eqn:D.
    - apply C110_default in D as [[h1 [a [h2 [_ [[_ [k' [J <-]]] _]]]]]|[_ [k' [E <-]]]]; [rewrite R in J; destruct J as [<-|[]]; reflexivity|]. rewrite R in E. injection E as <-. reflexivity.
    - exfalso. clear -D R. assert (X : forall h r, pf_default r <> None -> pf_default (sets h r) <> None).
      { clear. induction h as [|a h IH]; intros r N; [exact N|]. cbn [sets fold_left]. apply IH. unfold set_default. destruct (match a with RNone => None | RStr f => Some f | RFlow f => Some f | RExch k => Some (k_flow k) end); [|exact N].
        destruct (mem _ _); [discriminate|exact N]. }
      apply (X h (new_pref pr p)); [|exact D]. cbn. rewrite R. discriminate. }
  unfold ref_foreground, ref_lci, ask_ref, use_ref. rewrite D, sets_proc. cbn [flow_of pf_proc new_pref]. split; [|reflexivity].
  unfold foreground, proc_of. rewrite G. rewrite (find_the_reference p (k_flow k) k); [reflexivity|eapply get_pinv; eauto|rewrite R; left; reflexivity|reflexivity|].
  intros k' J _. rewrite R in J. destruct J as [<-|[]]. reflexivity.
Qed.
(** A process with several references: asked with a reference's flow, or with the reference exchange, the only one with its flow, it answers for that reference. *)
Theorem C110_given_reference : forall rq s pr p k h a, archive rq (s_arch s) -> get (s_arch s) pr = Some p -> In k (p_refs p) -> (forall k', In k' (p_refs p) -> k_flow k' = k_flow k -> k' = k) ->
  a = RFlow (k_flow k) \/ a = RExch k -> ref_foreground s (sets h (new_pref pr p)) a = inl k.
Proof.
  intros rq s pr p k h a AR G J U H. assert (E : use_ref (sets h (new_pref pr p)) a = inl (HdFlow (k_flow k))) by (destruct H as [->| ->]; reflexivity).
  unfold ref_foreground, ask_ref. rewrite E, sets_proc. cbn [flow_of pf_proc new_pref]. unfold foreground, proc_of. rewrite G.
  rewrite (find_the_reference p (k_flow k) k); [reflexivity|eapply get_pinv; eauto|exact J|reflexivity|exact U].
Qed.
(** The flow's external_ref, the form the query interface asks for, is refused by every query of a process reference. *)
Theorem C110_refuted_string : forall A (q : nat -> option nat -> A + iexn) r f, ask_ref q r (RStr f) = inr (QRef RAttribute).
Proof. reflexivity. Qed.
(** [exchange_relation] never uses the default: without a reference flow it always raises AttributeError. *)
Theorem C110_refuted_relation : forall s r f d t, ref_relation s r RNone f d t = inr (QRef RAttribute).
Proof. intros s r f d t. unfold ref_relation, use_ref. destruct (pf_default r); reflexivity. Qed.
(** The references are those the process had when the reference was made: a default that is no longer a reference makes every query without a reference flow fail. *)
Theorem C110_refuted_stale : forall rq s pr p p' h f, archive rq (s_arch s) -> get (s_arch s) pr = Some p' -> pf_default (sets h (new_pref pr p)) = Some f ->
  (forall k, In k (p_refs p') -> k_flow k <> f) -> exists e, ref_foreground s (sets h (new_pref pr p)) RNone = inr e.
Proof.
  intros rq s pr p p' h f AR G D N. unfold ref_foreground, ask_ref, use_ref. rewrite D, sets_proc. cbn [flow_of pf_proc new_pref]. unfold foreground, proc_of. rewrite G.
  pose proof (get_pinv _ _ _ _ AR G) as I. pose proof (find_cases p' (SFlow f) (Some true) None I) as C. cbv zeta in C.
  destruct C as [[-> _]|[[k [E [[A [B [_ C]]] _]]]|[[-> _]|[-> _]]]]; cbn [lift]; eauto.
  exfalso. apply (N k); [|exact B]. apply (pi_ref p' I). unfold is_ref_in. unfold is_ref in C. destruct (dget k (p_exch p')) as [e|]; [exists e; auto|discriminate].
Qed.
Print Assumptions C110_default. Print Assumptions C110_single_reference. Print Assumptions C110_given_reference. Print Assumptions C110_refuted_stale.
(** The mill of C106: one reference; setting another flow is refused. *)
Lemma mill_archive : archive (fun _ => None) (s_arch mill).
Proof.
  split; [repeat constructor; cbn; intuition discriminate| |discriminate]. intros pr p. unfold get. cbn [mill s_arch a_procs dget].
  repeat (match goal with |- context [eqb ?x ?y] => destruct (eqb x y) end; [intros X; injection X as <-; apply built_grow|]). discriminate.
Qed.
Example C110_example : archive (fun _ => None) (s_arch mill) /\ (exists p, get (s_arch mill) 10 = Some p /\ p_refs p = [(0, Output, None)]
  /\ ref_foreground mill (sets [RStr 5; RFlow 7] (new_pref 10 p)) RNone = inl (0, Output, None) /\ ref_foreground mill (new_pref 10 p) (RExch (0, Output, None)) = inl (0, Output, None)).
Proof. split; [exact mill_archive|]. eexists. split; [reflexivity|]. repeat split; vm_compute; reflexivity. Qed.

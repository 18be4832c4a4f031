(** C88: accepting the cached values as observed (model: EditModel.v, [observe]). *)
From Verif Require Import Num Base PyStr ProcModel FragModel FragProofs FragProps FragProps4 FragProps5 EditModel.
Open Scope Qc_scope.
Open Scope string_scope.
Open Scope list_scope.
Local Arguments eqb : simpl never.

Lemma In_insert a b l : In a (insert b l) <-> a = b \/ In a l.
Proof. induction l as [|c l IH]; cbn; [intuition|]. destruct (Nat.leb b c); cbn; [intuition|]. rewrite IH. intuition. Qed.
Lemma In_child_flows c f : In c (child_flows f) <-> In c (f_children f).
Proof. unfold child_flows. induction (f_children f) as [|a l IH]; cbn; [tauto|]. rewrite In_insert, IH. intuition. Qed.

(** * Specification *)
(** the fragments of the tree under [i] *)
Inductive in_tree (h : heap) : nat -> nat -> Prop :=
| tree_self i : in_tree h i i
| tree_child i f c j : h i = Some f -> In c (f_children f) -> in_tree h c j -> in_tree h i j.
(** its exchange value is computed during traversal: it is the balance flow of a parent that conserves a quantity, or a child of a subfragment *)
Definition computed (h : heap) (sc : scen) (j : nat) : Prop := exists f p pf, h j = Some f /\ f_parent f = Some p /\ h p = Some pf /\
  ((f_isbal f = true /\ f_cons pf <> None) \/ exists t, termination pf sc = FOk t /\ is_subfrag h p t = true).
(** its observed value is its cached value, for scenario [sc] *)
Definition agreed (h : heap) (sc : scen) (j : nat) : Prop := forall f, h j = Some f -> exchange_value f sc true = exchange_value f sc false.
(** a balance flow has a parent that conserves a quantity *)
Definition balances_sound (h : heap) : Prop := forall j f p, h j = Some f -> f_isbal f = true -> f_parent f = Some p -> exists pf, h p = Some pf /\ f_cons pf <> None.
(** changing exchange values only *)
Definition only_values (h h' : heap) : Prop := forall j, match h j, h' j with
  | Some f, Some g => exists e, g = with_evs f e
  | None, None => True
  | _, _ => False end.

Lemma only_values_refl h : only_values h h.
Proof. intros j. destruct (h j) as [f|]; [exists (f_evs f); destruct f; reflexivity|exact I]. Qed.
Lemma only_values_trans h1 h2 h3 : only_values h1 h2 -> only_values h2 h3 -> only_values h1 h3.
Proof.
  intros A B j. specialize (A j). specialize (B j). destruct (h1 j) as [f|], (h2 j) as [g|], (h3 j) as [k|]; try tauto. destruct A as [e ->], B as [e' ->]. exists e'. reflexivity.
Qed.
Lemma only_values_some h h' j f : only_values h h' -> h j = Some f -> exists e, h' j = Some (with_evs f e).
Proof. intros O E. specialize (O j). rewrite E in O. destruct (h' j); [|contradiction]. destruct O as [e ->]. eauto. Qed.
Lemma only_values_some' h h' j g : only_values h h' -> h' j = Some g -> exists f e, h j = Some f /\ g = with_evs f e.
Proof. intros O E. specialize (O j). rewrite E in O. destruct (h j) as [f|]; [|contradiction]. destruct O as [e ->]. eauto. Qed.
Lemma only_values_none h h' j : only_values h h' -> h j = None -> h' j = None.
Proof. intros O E. specialize (O j). rewrite E in O. destruct (h' j); [contradiction|reflexivity]. Qed.
Lemma only_values_set h i f e : h i = Some f -> only_values h (hset h i (with_evs f e)).
Proof.
  intros E j. unfold hset. destruct (Nat.eqb_spec j i) as [->|]; [rewrite E; eauto|]. destruct (h j) as [g|]; [exists (f_evs g); destruct g; reflexivity|exact I].
Qed.
Lemma ov_subfrag h h' p t : only_values h h' -> is_subfrag h' p t = is_subfrag h p t.
Proof.
  intros O. unfold is_subfrag. destruct (t_node t) as [| |j]; try reflexivity. destruct (h p) as [f|] eqn:E.
  - destruct (only_values_some _ _ _ _ O E) as [e ->]. cbn. destruct (h j) as [g|] eqn:E'; [destruct (only_values_some _ _ _ _ O E') as [e' ->]|rewrite (only_values_none _ _ _ O E')]; reflexivity.
  - rewrite (only_values_none _ _ _ O E). reflexivity.
Qed.
Lemma ov_observable h h' f e sc : only_values h h' -> observable h' (with_evs f e) sc = observable h f sc.
Proof.
  intros O. unfold observable. cbn. destruct (f_parent f) as [p|]; [|reflexivity]. destruct (f_isbal f); [reflexivity|]. destruct (h p) as [pf|] eqn:E.
  - destruct (only_values_some _ _ _ _ O E) as [e' ->]. change (termination (with_evs pf e') sc) with (termination pf sc). destruct (termination pf sc) as [t|]; [|reflexivity].
    rewrite (ov_subfrag _ _ _ _ O). reflexivity.
  - rewrite (only_values_none _ _ _ O E). reflexivity.
Qed.
Lemma ov_tree h h' i j : only_values h h' -> in_tree h i j -> in_tree h' i j.
Proof. intros O. induction 1 as [i|i f c j E C _ IH]; [constructor|]. destruct (only_values_some _ _ _ _ O E) as [e E']. eapply tree_child; [exact E'|exact C|exact IH]. Qed.
Lemma ov_sym h h' : only_values h h' -> only_values h' h.
Proof. intros O j. specialize (O j). destruct (h j) as [f|], (h' j) as [g|]; auto. destruct O as [e ->]. exists (f_evs f). destruct f; reflexivity. Qed.

(** * What [observe_tree] does *)
(** scenario arguments that name one stored value: all but tuples, sets and the digit names (which stand for the default values) *)
Definition names_value (sc : scen) : Prop := match sc with ScNone | ScKey K0 | ScKey K1 => True | ScKey (KS s) => s <> "0" /\ s <> "1" | _ => False end.
Definition settled (h : heap) (sc : scen) (j : nat) : Prop := agreed h sc j \/ computed h sc j.

Lemma hbind_ok {A} (r : heap * fret A) k h' : hbind r k = (h', FOk tt) -> exists h1 x, r = (h1, FOk x) /\ k h1 = (h', FOk tt).
Proof. destruct r as [h1 [x|e]]; cbn; [eauto|discriminate]. Qed.
Lemma dget_din {V} (k : skey) (v : V) d : din k (dset k v d) = true.
Proof. unfold din. rewrite dget_dset_same. reflexivity. Qed.
Lemma cached_nonzero f : cached_ev f <> 0.
Proof.
  unfold cached_ev. destruct (dget K0 (f_evs f)) as [[v|]|]; try apply one_nz. destruct (eqb_spec v (Q2Qc 0)) as [_|N]; [apply one_nz|exact N].
Qed.
Lemma auto_step h i sc h' f : names_value sc -> h i = Some f -> observable h f sc = FOk true -> auto_observe h i sc = (h', FOk tt) ->
  exists e, h' = hset h i (with_evs f e) /\ exchange_value (with_evs f e) sc true = exchange_value (with_evs f e) sc false /\
    (sc = ScNone -> cached_ev (with_evs f e) = cached_ev f).
Proof.
  intros NV HI OB A. unfold auto_observe in A. rewrite HI in A. destruct sc as [|k|ks].
  - unfold set_observed in A. rewrite HI, OB in A. injection A as <-. eexists. split; [reflexivity|]. split.
    + unfold exchange_value, match_ev, ev_for. f_equal. unfold observed_ev. cbn [f_evs f_parent with_evs]. rewrite dget_dset_same.
      assert (NZ : eqb (Some (cached_ev f)) (Some (Q2Qc 0)) = false). { destruct (eqb_spec (Some (cached_ev f)) (Some (Q2Qc 0))) as [E|]; [|reflexivity]. injection E as E. destruct (cached_nonzero f E). }
      rewrite NZ. cbn. assert (C : cached_ev (with_evs f (dset K1 (Some (cached_ev f)) (f_evs f))) = cached_ev f).
      { unfold cached_ev at 1. cbn. rewrite dget_dset_other by discriminate. reflexivity. }
      rewrite C. destruct (f_parent f); reflexivity.
    + intros _. unfold cached_ev at 1. cbn. rewrite dget_dset_other by discriminate. reflexivity.
  - unfold set_exchange_value in A. rewrite HI, OB in A.
    assert (A' : (hset h i (with_evs f (dset k (Some (cached_ev f)) (f_evs f))), FOk tt) = (h', FOk tt)).
    { destruct k as [| |s|l]; try exact A; [|discriminate]. destruct NV as [N0 N1].
      destruct (eqb_spec (KS s) (KS "0")); [congruence|]. destruct (eqb_spec (KS s) (KS "1")); [congruence|]. exact A. }
    injection A' as <-. eexists. split; [reflexivity|]. split; [|discriminate]. unfold exchange_value, match_ev. cbn [f_evs with_evs]. rewrite dget_din. reflexivity.
  - contradiction NV.
Qed.
Lemma ov_computed h h' sc j : only_values h h' -> computed h sc j -> computed h' sc j.
Proof.
  intros O (f & p & pf & HJ & FP & HP & D). destruct (only_values_some _ _ _ _ O HJ) as [e HJ'], (only_values_some _ _ _ _ O HP) as [e' HP'].
  exists (with_evs f e), p, (with_evs pf e'). repeat (split; [assumption|]). destruct D as [D|(t & T & D)]; [left; exact D|right]. exists t. rewrite (ov_subfrag _ _ _ _ O). auto.
Qed.
Lemma settled_step h h' sc j i f e : h i = Some f -> h' = hset h i (with_evs f e) -> exchange_value (with_evs f e) sc true = exchange_value (with_evs f e) sc false ->
  settled h sc j -> settled h' sc j.
Proof.
  intros HI -> EX [AG|CO]; [|right; eapply ov_computed; [apply only_values_set, HI|exact CO]]. left. intros g HG. unfold hset in HG.
  destruct (Nat.eqb_spec j i) as [->|N]; [injection HG as <-; exact EX|]. apply AG; exact HG.
Qed.
Lemma ov_balances h h' : only_values h h' -> balances_sound h -> balances_sound h'.
Proof.
  intros O B j g p HJ IB FP. destruct (only_values_some' _ _ _ _ O HJ) as (f & e & HF & ->). destruct (B j f p HF IB FP) as (pf & HP & C).
  destruct (only_values_some _ _ _ _ O HP) as [e' HP']. exists (with_evs pf e'). auto.
Qed.
Record observed_rel (sc : scen) (T : nat -> Prop) (h h' : heap) : Prop := OR {
  or_shape : only_values h h';
  or_keep : forall j, settled h sc j -> settled h' sc j;
  or_tree : forall j, T j -> settled h' sc j;
  or_frame : forall j, ~ T j -> h' j = h j;
  or_cached : sc = ScNone -> forall j f g, h j = Some f -> h' j = Some g -> cached_ev g = cached_ev f }.
Lemma observed_rel_trans sc (T U : nat -> Prop) h1 h2 h3 : observed_rel sc T h1 h2 -> observed_rel sc U h2 h3 -> observed_rel sc (fun j => T j \/ U j) h1 h3.
Proof.
  intros A B. split.
  - eapply only_values_trans; [apply A|apply B].
  - intros j J. exact (or_keep _ _ _ _ B j (or_keep _ _ _ _ A j J)).
  - intros j [J|J]; [exact (or_keep _ _ _ _ B j (or_tree _ _ _ _ A j J))|exact (or_tree _ _ _ _ B j J)].
  - intros j N. rewrite (or_frame _ _ _ _ B), (or_frame _ _ _ _ A); tauto.
  - intros E j f g F G. destruct (only_values_some _ _ _ _ (or_shape _ _ _ _ A) F) as [e H2]. rewrite (or_cached _ _ _ _ B E j _ g H2 G). exact (or_cached _ _ _ _ A E j f _ F H2).
Qed.
Lemma observed_rel_ext sc (T U : nat -> Prop) h h' : (forall j, T j <-> U j) -> observed_rel sc T h h' -> observed_rel sc U h h'.
Proof.
  intros E A. split; try apply A.
  - intros j J. exact (or_tree _ _ _ _ A j (proj2 (E j) J)).
  - intros j N. apply (or_frame _ _ _ _ A). intros X. apply N, E, X.
Qed.
Lemma observed_rel_refl sc (T : nat -> Prop) h : (forall j, T j -> settled h sc j) -> observed_rel sc T h h.
Proof. intros X. split; auto. apply only_values_refl. intros _ j f g E E'. congruence. Qed.

Lemma observe_spec sc n : names_value sc -> forall h i h', balances_sound h -> observe_tree n sc h i = (h', FOk tt) -> observed_rel sc (in_tree h i) h h'.
Proof.
  intros NV. induction n as [|n IH]; intros h i h' BS E; [discriminate|]. cbn [observe_tree] in E. destruct (h i) as [f|] eqn:HI; [|discriminate].
  destruct (observable h f sc) as [o|] eqn:OB; [|discriminate]. apply hbind_ok in E as (h1 & [] & E1 & E2).
  assert (A : observed_rel sc (fun j => j = i) h h1).
  { destruct o.
    - destruct (auto_step _ _ _ _ _ NV HI OB E1) as (e & -> & EX & CA). split.
      + apply only_values_set; exact HI.
      + intros j. eapply settled_step; [exact HI|reflexivity|exact EX].
      + intros j ->. left. intros g G. unfold hset in G. rewrite Nat.eqb_refl in G. injection G as <-. exact EX.
      + intros j N. unfold hset. destruct (Nat.eqb_spec j i); [contradiction|reflexivity].
      + intros S0 j f0 g F G. unfold hset in G. destruct (Nat.eqb_spec j i) as [->|]; [|congruence]. injection G as <-. assert (f0 = f) by congruence. subst f0. apply CA, S0.
    - injection E1 as <-. apply observed_rel_refl. intros j ->. right. unfold observable in OB. destruct (f_parent f) as [p|] eqn:FP; [|discriminate].
      destruct (f_isbal f) eqn:IB.
      + destruct (BS i f p HI IB FP) as (pf & HP & C). exists f, p, pf. auto 10.
      + destruct (h p) as [pf|] eqn:HP; [|discriminate]. destruct (termination pf sc) as [t|] eqn:TT; [|discriminate]. exists f, p, pf. repeat (split; [assumption|]). right. exists t.
        split; [exact TT|]. destruct (is_subfrag h p t); [reflexivity|discriminate OB]. }
  assert (B : forall cs h1, only_values h h1 -> balances_sound h1 -> forall h2, heach cs (observe_tree n sc) h1 = (h2, FOk tt) -> observed_rel sc (fun j => exists c, In c cs /\ in_tree h c j) h1 h2).
  { clear - IH NV. induction cs as [|c cs IHc]; intros h1 OV BS1 h2 E; cbn in E.
    - injection E as <-. apply observed_rel_refl. intros j (c & [] & _).
    - apply hbind_ok in E as (h3 & [] & E1 & E2). assert (A := IH _ _ _ BS1 E1). assert (B := IHc h3 (only_values_trans _ _ _ OV (or_shape _ _ _ _ A)) (ov_balances _ _ (or_shape _ _ _ _ A) BS1) _ E2).
      eapply observed_rel_ext; [|exact (observed_rel_trans _ _ _ _ _ _ A B)]. intros j. cbv beta. split.
      + intros [J|(d & D & J)]; [exists c; split; [left; reflexivity|eapply ov_tree; [apply ov_sym; exact OV|exact J]]|exists d; split; [right; exact D|exact J]].
      + intros (d & [<-|D] & J); [left; eapply ov_tree; [exact OV|exact J]|right; eauto]. }
  specialize (B _ h1 (or_shape _ _ _ _ A) (ov_balances _ _ (or_shape _ _ _ _ A) BS) _ E2). eapply observed_rel_ext; [|exact (observed_rel_trans _ _ _ _ _ _ A B)]. intros j. cbv beta. split.
  - intros [->|(c & C & J)]; [constructor|]. eapply tree_child; [exact HI|apply In_child_flows; exact C|exact J].
  - intros J. inversion J as [|? f' c ? HI' C J']; subst; [left; reflexivity|]. right. assert (f' = f) by congruence. subst f'. exists c. split; [apply In_child_flows; exact C|exact J'].
Qed.

(** * Traversals of heaps of the same shape that read the same values are the same *)
Section Eq.
Context (cf : nat -> nat -> Qc) (refq : nat -> nat) (h h' : heap) (sc : scen) (o o' : bool) (P : nat -> Prop).
Definition same_value (j : nat) : Prop := forall f e, h j = Some f -> h' j = Some (with_evs f e) -> exchange_value f sc o = exchange_value (with_evs f e) sc o'.
Hypothesis OV : only_values h h'.
Hypothesis PC : forall j k, P j -> leads h j k -> P k.
Hypothesis HV : forall j, P j -> same_value j \/ computed h sc j.
Hypothesis ME : forall j f e, P j -> h j = Some f -> h' j = Some (with_evs f e) -> forall x, match_ev f sc = FErr x <-> match_ev (with_evs f e) sc = FErr x.
Hypothesis SL : sound_links h.
Hypothesis BP : bg_parentless h.

Definition call_same (q : option nat) (bal : option Qc) (j : nat) : Prop :=
  P j /\ (same_value j \/ bal <> None \/ (q <> None /\ exists f, h j = Some f /\ f_isbal f = true)).
Definition same_rec (r r' : rect) : Prop := forall j nw seen q bal, call_same q bal j -> r j nw seen q bal = r' j nw seen q bal.

Lemma fg_loop_same r r' nw seen q cs : same_rec r r' -> (forall c, In c cs -> call_same q None c) ->
  forall ffs st b, fg_loop r nw seen q cs ffs st b = fg_loop r' nw seen q cs ffs st b.
Proof.
  intros SR. induction cs as [|c cs IH]; intros IN ffs st b; cbn; [reflexivity|]. rewrite (SR c) by (apply IN; left; reflexivity).
  assert (IN' : forall c, In c cs -> call_same q None c) by (intros d D; apply IN; right; exact D). destruct (r' c nw seen q None) as [[l cv]|e]; [apply IH, IN'|]. destruct e; try reflexivity. apply IH, IN'.
Qed.
Lemma fg_loop_from r nw seen q cs : forall ffs st b l s b', fg_loop r nw seen q cs ffs st b = FOk (l, s, b') -> forall c, b' = Some c -> b = Some c \/ In c cs.
Proof.
  induction cs as [|d cs IH]; intros ffs st b l s b' E c B; cbn in E; [injection E as <- <- <-; auto|].
  destruct (r d nw seen q None) as [[l1 cv]|e].
  - destruct (IH _ _ _ _ _ _ E c B); [auto|right; right; assumption].
  - destruct e; try discriminate. destruct (IH _ _ _ _ _ _ E c B) as [[= ->]|J]; right; [left; reflexivity|right; assumption].
Qed.
Lemma same_parentless j f : P j -> h j = Some f -> f_parent f = None -> same_value j.
Proof. intros PJ HJ N. destruct (HV j PJ) as [A|(f' & p & pf & HJ' & N' & _)]; [exact A|congruence]. Qed.
Lemma ov_top n j : top n h' j = top n h j.
Proof.
  revert j. induction n as [|n IH]; intros j; [reflexivity|]. cbn. destruct (h j) as [f|] eqn:HJ; [destruct (only_values_some _ _ _ _ OV HJ) as [e ->]|rewrite (only_values_none _ _ _ OV HJ); reflexivity].
  cbn. destruct (f_parent f); [apply IH|reflexivity].
Qed.
Lemma top_root n j tp : top n h j = FOk tp -> exists f, h tp = Some f /\ f_parent f = None.
Proof.
  revert j. induction n as [|n IH]; intros j E; [discriminate|]. cbn in E. destruct (h j) as [f|] eqn:HJ; [|discriminate]. destruct (f_parent f) as [p|] eqn:FP; [apply (IH _ E)|]. injection E as <-. eauto.
Qed.
Lemma term_in f t : termination f sc = FOk t -> exists k, In (k, t) (f_terms f).
Proof.
  unfold termination. destruct (match_term f sc) as [m|]; [|discriminate]. destruct (dget m (f_terms f)) as [t'|] eqn:D; [|discriminate]. intros [= ->].
  exists m. clear - D. induction (f_terms f) as [|[k v] l IH]; cbn in D; [discriminate|]. destruct (eqb_spec m k) as [->|]; [injection D as ->; left; reflexivity|right; apply IH, D].
Qed.
Lemma trav_fg_same r r' i f e x seen : same_rec r r' -> P i -> h i = Some f -> h' i = Some (with_evs f e) -> termination f sc = FOk (ff_term x) -> is_subfrag h i (ff_term x) = false ->
  trav_fg cf r h sc o i f x seen = trav_fg cf r' h' sc o' i (with_evs f e) x seen.
Proof.
  intros SR PI HI HI' TT NS. unfold trav_fg. change (f_parent (with_evs f e)) with (f_parent f). change (f_cons (with_evs f e)) with (f_cons f).
  change (f_flow (with_evs f e)) with (f_flow f). change (f_dir (with_evs f e)) with (f_dir f). change (child_flows (with_evs f e)) with (child_flows f).
  assert (E0 : (if is_fg i (ff_term x) then match f_parent f with None => exchange_value f sc o | Some _ => FOk (Q2Qc 1) end else FOk (Q2Qc 1))
             = (if is_fg i (ff_term x) then match f_parent f with None => exchange_value (with_evs f e) sc o' | Some _ => FOk (Q2Qc 1) end else FOk (Q2Qc 1))).
  { destruct (is_fg i (ff_term x)); [|reflexivity]. destruct (f_parent f) eqn:FP; [reflexivity|]. exact (same_parentless i f PI HI FP f e HI HI'). }
  rewrite E0. match type of E0 with _ = ?b => clear E0; destruct b as [s0|]; [|reflexivity] end. cbv zeta.
  assert (CH : forall c, In c (child_flows f) -> call_same (f_cons f) None c).
  { intros c C. apply In_child_flows in C. assert (PCc : P c) by (eapply PC; [exact PI|eapply leads_child; [exact HI|exact C]]). split; [exact PCc|].
    destruct (HV c PCc) as [A|(g & p & pf & HC & GP & HP & D)]; [left; exact A|]. assert (p = i) by (assert (X := SL i f c g HI C HC); congruence). subst p.
    assert (pf = f) by congruence. subst pf. destruct D as [[IB CO]|(t & T & SF)]; [right; right; split; [exact CO|exists g; auto]|]. exfalso. congruence. }
  rewrite (fg_loop_same r r' (ff_nw x) seen (f_cons f) (child_flows f) SR CH). destruct (fg_loop r' _ _ _ _ _ _ _) as [[[ffs st] [b|]]|ee] eqn:L; try reflexivity.
  destruct (fg_loop_from _ _ _ _ _ _ _ _ _ _ _ L b eq_refl) as [X|J]; [discriminate|].
  assert (D : match h b with Some g => match f_dir g with Input => (- st)%Qc | Output => st end | None => st end = match h' b with Some g => match f_dir g with Input => (- st)%Qc | Output => st end | None => st end).
  { destruct (h b) as [g|] eqn:HB; [destruct (only_values_some _ _ _ _ OV HB) as [eb ->]|rewrite (only_values_none _ _ _ OV HB)]; reflexivity. }
  rewrite D. rewrite (SR b); [reflexivity|]. split; [apply (CH b J)|right; left; discriminate].
Qed.
Lemma sub_loop_same r r' dn seen cs : same_rec r r' -> (forall c, In c cs -> P c) -> forall ffs inv, sub_loop r h dn seen cs ffs inv = sub_loop r' h' dn seen cs ffs inv.
Proof.
  intros SR. induction cs as [|c cs IH]; intros IN ffs inv; cbn; [reflexivity|]. assert (IN' : forall c, In c cs -> P c) by (intros d D; apply IN; right; exact D).
  destruct (h c) as [g|] eqn:HC; [destruct (only_values_some _ _ _ _ OV HC) as [ec ->]|rewrite (only_values_none _ _ _ OV HC); reflexivity]. cbn.
  destruct (find_flow _ _) as [m|]; [|apply IH, IN']. rewrite (SR c); [|split; [apply IN; left; reflexivity|right; left; discriminate]].
  destruct (r' c dn seen None _) as [[l cv]|]; [apply IH, IN'|reflexivity].
Qed.
Lemma trav_sub_same r r' n i f e x j seen : same_rec r r' -> P i -> h i = Some f -> termination f sc = FOk (ff_term x) -> t_node (ff_term x) = NFrag j -> j <> i ->
  trav_sub r n h i f x j seen = trav_sub r' n h' i (with_evs f e) x j seen.
Proof.
  intros SR PI HI TT TN NE. unfold trav_sub. destruct (h j) as [g|] eqn:HJ; [destruct (only_values_some _ _ _ _ OV HJ) as [ej HJ']; rewrite HJ'|rewrite (only_values_none _ _ _ OV HJ); reflexivity].
  destruct (term_in f _ TT) as [k IN]. cbn [f_bg with_evs]. destruct (f_bg g) eqn:BG.
  - assert (PJ : P j) by (eapply PC; [exact PI|eapply leads_background; eauto]). rewrite (SR j); [reflexivity|]. split; [exact PJ|]. left. exact (same_parentless j g PJ HJ (BP j g HJ BG)).
  - unfold do_subfrag, unit_inventory. rewrite ov_top. destruct (top n h j) as [tp|] eqn:TP; [|reflexivity].
    assert (PT : P tp) by (eapply PC; [exact PI|eapply leads_top; eauto]). destruct (top_root _ _ _ TP) as (tf & HT & NT). destruct (only_values_some _ _ _ _ OV HT) as [et HT'].
    rewrite (SR tp); [|split; [exact PT|left; exact (same_parentless tp tf PT HT NT)]].
    destruct (r' tp _ _ _ _) as [[ffs cv]|]; [|reflexivity]. rewrite HT, HT'. cbn [f_flow f_dir with_evs]. destruct (group_ios _ _ _ _ _) as [[inv il]|]; [|reflexivity].
    destruct (find_flow _ _) as [m|]; [|reflexivity]. destruct (eqb (ff_mag m) (Q2Qc 0)); [reflexivity|]. cbv zeta. change (child_flows (with_evs f e)) with (child_flows f).
    assert (CH : forall c, In c (child_flows f) -> P c) by (intros c C; eapply PC; [exact PI|eapply leads_child; [exact HI|apply In_child_flows; exact C]]).
    destruct (t_desc _); rewrite (sub_loop_same r r' _ _ _ SR CH); reflexivity.
Qed.
Lemma ov_conservation f e ev q : conservation cf h' (with_evs f e) ev q = conservation cf h f ev q.
Proof.
  unfold conservation. destruct q as [q|]; [reflexivity|]. cbn. destruct (f_isbal f); [reflexivity|].
  assert (B : balance_flow h' (with_evs f e) = balance_flow h f).
  { unfold balance_flow. cbn. destruct (f_cons f); [|reflexivity]. change (child_flows (with_evs f e)) with (child_flows f).
    rewrite (filter_ext _ (fun c => match h c with Some g => f_isbal g | None => false end)); [reflexivity|]. intros c.
    destruct (h c) as [g|] eqn:HC; [destruct (only_values_some _ _ _ _ OV HC) as [ec ->]|rewrite (only_values_none _ _ _ OV HC)]; reflexivity. }
  rewrite B. reflexivity.
Qed.
Lemma trav_same n : same_rec (trav cf refq n h sc o) (trav cf refq n h' sc o').
Proof.
  induction n as [|n IH]; intros j nw seen q bal [PJ C]; [reflexivity|]. cbn [trav]. unfold trav_node. destruct (h j) as [f|] eqn:HJ; [|rewrite (only_values_none _ _ _ OV HJ); reflexivity].
  destruct (only_values_some _ _ _ _ OV HJ) as [e HJ']. rewrite HJ'. cbn [f_parent f_flow f_dir f_bg f_terms with_evs].
  destruct (_ && mem j seen); [reflexivity|]. cbv zeta. set (seen' := if match f_parent f with None => true | Some _ => false end then j :: seen else seen). clearbody seen'.
  change (match_term (with_evs f e) sc) with (match_term f sc).
  set (K := fun (hh : heap) (oo : bool) (ff : frag) ev => match match_term f sc with
          | FErr e => FErr e
          | FOk m =>
              match dget m (f_terms f) with
              | None => FErr FKeyError
              | Some t =>
                  match (if match f_parent f with None => true | Some _ => false end then FOk nw else if is_null t then FOk (nw * ev) else match multiplier cf refq (f_flow f) t with FErr e => FErr e | FOk k => FOk (nw * ev * k)%Qc end) with
                  | FErr e => FErr e
                  | FOk w =>
                      match conservation cf hh ff ev q with
                      | FErr e => FErr e
                      | FOk (cv, kept) =>
                          if is_null t || f_bg f || eqb (nw * ev) (Q2Qc 0) then FOk ([FF (Real j) (f_flow f) (f_dir f) (nw * ev) w t kept []], cv) else
                          match t_node t with
                          | NNull => FOk ([FF (Real j) (f_flow f) (f_dir f) (nw * ev) w t kept []], cv)
                          | NProc _ => match trav_fg cf (trav cf refq n hh sc oo) hh sc oo j ff (FF (Real j) (f_flow f) (f_dir f) (nw * ev) w t kept []) seen' with FErr e => FErr e | FOk l => FOk (l, cv) end
                          | NFrag k => if Nat.eqb k j then match trav_fg cf (trav cf refq n hh sc oo) hh sc oo j ff (FF (Real j) (f_flow f) (f_dir f) (nw * ev) w t kept []) seen' with FErr e => FErr e | FOk l => FOk (l, cv) end
                                       else match trav_sub (trav cf refq n hh sc oo) n hh j ff (FF (Real j) (f_flow f) (f_dir f) (nw * ev) w t kept []) k seen' with FErr e => FErr e | FOk l => FOk (l, cv) end
                          end
                      end
                  end
              end
          end : fret (list ffl * option Qc)).
  assert (KE : forall ev, K h o f ev = K h' o' (with_evs f e) ev).
  { intros ev. unfold K. destruct (match_term f sc) as [m|] eqn:MT; [|reflexivity]. destruct (dget m (f_terms f)) as [t|] eqn:DT; [|reflexivity].
    assert (TT : termination f sc = FOk t) by (unfold termination; rewrite MT, DT; reflexivity).
    destruct (if match f_parent f with None => true | Some _ => false end then _ else _) as [w|]; [|reflexivity]. rewrite ov_conservation. destruct (conservation cf h f ev q) as [[cv kept]|]; [|reflexivity].
    destruct (is_null t || f_bg f || eqb (nw * ev) (Q2Qc 0)) eqn:Z; [reflexivity|]. destruct (t_node t) as [|pr|k] eqn:TN; [reflexivity| |].
    - rewrite (trav_fg_same _ _ j f e (FF (Real j) (f_flow f) (f_dir f) (nw * ev) w t kept []) seen' IH PJ HJ HJ' TT); [reflexivity|]. unfold is_subfrag. cbn. rewrite TN. reflexivity.
    - destruct (Nat.eqb_spec k j) as [->|NE].
      + rewrite (trav_fg_same _ _ j f e (FF (Real j) (f_flow f) (f_dir f) (nw * ev) w t kept []) seen' IH PJ HJ HJ' TT); [reflexivity|]. unfold is_subfrag. cbn. rewrite TN, HJ, Nat.eqb_refl. reflexivity.
      + rewrite (trav_sub_same _ _ n j f e (FF (Real j) (f_flow f) (f_dir f) (nw * ev) w t kept []) k seen' IH PJ HJ TT TN NE). reflexivity. }
  change (match match bal with Some b => FOk b | None => match match_ev f sc with FErr e => FErr e | FOk m => FOk (ev_for f m o) end end with FErr e => FErr e | FOk ev => K h o f ev end
        = match match bal with Some b => FOk b | None => match match_ev (with_evs f e) sc with FErr e => FErr e | FOk m => FOk (ev_for (with_evs f e) m o') end end with FErr e => FErr e | FOk ev => K h' o' (with_evs f e) ev end).
  destruct bal as [b|]; [apply KE|]. destruct C as [A|[B|(Q & g & HG & IB)]].
  - specialize (A f e HJ HJ'). unfold exchange_value in A. rewrite A. destruct (match_ev (with_evs f e) sc) as [m|]; [apply KE|reflexivity].
  - contradiction B; reflexivity.
  - assert (g = f) by congruence. subst g. specialize (ME j f e PJ HJ HJ').
    destruct (match_ev f sc) as [m|x]; destruct (match_ev (with_evs f e) sc) as [m'|x'].
    2: { pose proof (proj2 (ME x') eq_refl) as X. discriminate X. }
    2: { pose proof (proj1 (ME x) eq_refl) as X. discriminate X. }
    2: { f_equal. assert (E := proj1 (ME x) eq_refl). congruence. }
    unfold K, conservation. cbn [f_isbal with_evs]. rewrite IB. destruct (match_term f sc) as [m0|] eqn:MT; [|reflexivity]. destruct (dget m0 (f_terms f)) as [t|]; [|reflexivity].
    destruct q as [q|]; [|contradiction Q; reflexivity].
    destruct (f_parent f); [|reflexivity]. destruct (is_null t); [reflexivity|]. destruct (multiplier cf refq (f_flow f) t); reflexivity.
Qed.
End Eq.

(** * C88 *)
Lemma ov_leads h h' i j : only_values h h' -> leads h i j -> leads h' i j.
Proof.
  intros O. destruct 1 as [i f c HI C|i f k t j g HI T TN NE HJ BG|i f k t j g n tp HI T TN NE HJ BG TP].
  - destruct (only_values_some _ _ _ _ O HI) as [e HI']. eapply leads_child; [exact HI'|exact C].
  - destruct (only_values_some _ _ _ _ O HI) as [e HI'], (only_values_some _ _ _ _ O HJ) as [e' HJ']. eapply leads_background; [exact HI'|exact T|exact TN|exact NE|exact HJ'|exact BG].
  - destruct (only_values_some _ _ _ _ O HI) as [e HI'], (only_values_some _ _ _ _ O HJ) as [e' HJ'].
    eapply leads_top; [exact HI'|exact T|exact TN|exact NE|exact HJ'|exact BG|]. rewrite (ov_top h h' O n j). exact TP.
Qed.
Lemma ov_links h h' : only_values h h' -> sound_links h -> sound_links h'.
Proof.
  intros O B p pf c g HP C HC. destruct (only_values_some' _ _ _ _ O HP) as (f1 & e1 & H1 & ->). destruct (only_values_some' _ _ _ _ O HC) as (f2 & e2 & H2 & ->). exact (B p f1 c f2 H1 C H2).
Qed.
Lemma ov_bg h h' : only_values h h' -> bg_parentless h -> bg_parentless h'.
Proof. intros O B j g HJ BG. destruct (only_values_some' _ _ _ _ O HJ) as (f1 & e1 & H1 & ->). exact (B j f1 H1 BG). Qed.
Lemma reaches_snoc h i j k : reaches h i j -> leads h j k -> reaches h i k.
Proof. induction 1 as [i|i j l L _ IH]; intros X; [eapply reaches_step; [exact X|constructor]|eapply reaches_step; [exact L|apply IH, X]]. Qed.

(** Accepting all values of the tree of [i] as observed succeeds only if the observed traversal does; afterwards the observed traversal of [i]
    is the cached traversal, fragment flow for fragment flow; with no scenario it is also the cached traversal from before the call; fragments
    outside the tree are unchanged.  [i] has a value of its own, and the fragments reached outside the tree (subfragments) have been observed. *)
Theorem C88_accept_all cf refq n fuel sc h i h' :
  names_value sc -> sound_links h -> bg_parentless h -> balances_sound h -> ~ computed h sc i ->
  (forall j, reaches h i j -> in_tree h i j \/ agreed h sc j \/ computed h sc j) ->
  observe cf refq n fuel sc h i = (h', FOk tt) ->
  (exists l, traverse cf refq fuel h' sc true i = FOk l) /\
  (forall m, traverse cf refq m h' sc true i = traverse cf refq m h' sc false i) /\
  (sc = ScNone -> forall m, traverse cf refq m h' ScNone true i = traverse cf refq m h ScNone false i) /\
  (forall j, ~ in_tree h i j -> h' j = h j) /\
  (forall j f, in_tree h i j -> h j = Some f -> ~ computed h sc j -> exists g, h' j = Some g /\ exchange_value g sc true = exchange_value g sc false /\
     f_children g = f_children f /\ f_parent g = f_parent f /\ f_terms g = f_terms f).
Proof.
  intros NV SL BP BS NC OUT E. unfold observe in E. apply hbind_ok in E as (h1 & [] & E1 & E2).
  destruct (traverse cf refq fuel h1 sc true i) as [l0|] eqn:TR; [|discriminate]. injection E2 as <-.
  assert (R := observe_spec sc n NV h i h1 BS E1). assert (O := or_shape _ _ _ _ R).
  assert (O' : only_values h1 h) by (apply ov_sym, O).
  assert (RB : forall a j, reaches h1 a j -> reaches h a j). { clear - O'. induction 1 as [k|k j l L _ IH]; [constructor|]. eapply reaches_step; [eapply ov_leads; [exact O'|exact L]|exact IH]. }
  assert (ST : forall j, reaches h1 i j -> settled h1 sc j).
  { intros j RJ. destruct (OUT j (RB i j RJ)) as [T|S0]; [exact (or_tree _ _ _ _ R j T)|exact (or_keep _ _ _ _ R j S0)]. }
  assert (AS : as_set sc = sc) by (destruct sc as [|[]|]; try reflexivity; contradiction NV).
  assert (AI : agreed h1 sc i). { destruct (ST i (reaches_refl _ _)) as [A|C]; [exact A|]. exfalso. apply NC. eapply ov_computed; [exact O'|exact C]. }
  split; [eauto|].
  assert (TW : forall m, traverse cf refq m h1 sc true i = traverse cf refq m h1 sc false i).
  { intros m. unfold traverse. rewrite AS. rewrite (trav_same cf refq h1 h1 sc true false (reaches h1 i)); [reflexivity| | | | | | |].
    - apply only_values_refl.
    - intros j k J L. eapply reaches_snoc; eauto.
    - intros j RJ. destruct (ST j RJ) as [A|C]; [left|right; exact C]. intros f e HF HE. assert (f = with_evs f e) by congruence. rewrite <- H. apply A, HF.
    - intros j f e _ HF HE x. assert (f = with_evs f e) by congruence. rewrite <- H. reflexivity.
    - eapply ov_links; [exact O|exact SL].
    - eapply ov_bg; [exact O|exact BP].
    - split; [constructor|]. left. intros f e HF HE. assert (f = with_evs f e) by congruence. rewrite <- H. apply AI, HF. }
  split; [exact TW|]. split.
  - intros -> m. rewrite TW. unfold traverse. cbn [as_set]. rewrite (trav_same cf refq h h1 ScNone false false (fun _ => True)); [reflexivity|exact O|auto| | |exact SL|exact BP|].
    + intros j _. left. intros f e HF HE. cbn. f_equal. symmetry. exact (or_cached _ _ _ _ R eq_refl j _ _ HF HE).
    + intros j f e _ _ _ x. cbn. split; discriminate.
    + split; [exact I|]. left. intros f e HF HE. cbn. f_equal. symmetry. exact (or_cached _ _ _ _ R eq_refl i _ _ HF HE).
  - split; [exact (or_frame _ _ _ _ R)|]. intros j f T HF C. destruct (only_values_some _ _ _ _ O HF) as [e HJ]. exists (with_evs f e). split; [exact HJ|]. split; [|auto].
    destruct (or_tree _ _ _ _ R j T) as [A|C']; [apply A, HJ|]. exfalso. apply C. eapply ov_computed; [exact O'|exact C'].
Qed.
Print Assumptions C88_accept_all.

(** Example: reference 1 with a child 2 (2 per 1, cut off) and a child 3 terminated to the subfragment 5, whose child 6 is cut off; nothing observed in the tree of 1. *)
Definition evs2 (c o : Q) : dict skey (option Qc) := [(K0, Some (Q2Qc c)); (K1, Some (Q2Qc o))].
Definition h88o (o : Q) : heap := fun i => match i with
  | 1%nat => Some (Fr None [2; 3]%nat 10 Output false false None (evs2 4 0) [(None, Tm (NFrag 1) 10 Input true)])
  | 2%nat => Some (Fr (Some 1%nat) [] 11 Input false false None (evs2 2 0) [(None, null_term 11 Input)])
  | 3%nat => Some (Fr (Some 1%nat) [] 12 Input false false None (evs2 3 0) [(None, Tm (NFrag 5) 12 Output true)])
  | 5%nat => Some (Fr None [6]%nat 12 Input false false None (evs2 1 0) [(None, Tm (NFrag 5) 12 Input true)])
  | 6%nat => Some (Fr (Some 5%nat) [] 13 Input false false None (evs2 5 o) [(None, null_term 13 Input)])
  | _ => None end.
Definition mags (r : fret (list ffl)) : option (list Qc) := match r with FOk l => Some (map ff_mag l) | FErr _ => None end.
Definition one2 (_ _ : nat) : Qc := 1. Definition zer2 (_ : nat) : nat := 0%nat.
Example C88_example : exists h', observe one2 zer2 9 9 ScNone (h88o 5) 1 = (h', FOk tt) /\
  mags (traverse one2 zer2 9 (h88o 5) ScNone true 1) = Some [Q2Qc 4; Q2Qc 0; Q2Qc 0] /\
  mags (traverse one2 zer2 9 h' ScNone true 1) = mags (traverse one2 zer2 9 (h88o 5) ScNone false 1) /\
  mags (traverse one2 zer2 9 h' ScNone true 1) = Some [Q2Qc 4; Q2Qc 2; Q2Qc 3; Q2Qc 3; Q2Qc 15] /\
  (sound_links (h88o 5) /\ bg_parentless (h88o 5) /\ balances_sound (h88o 5) /\ ~ computed (h88o 5) ScNone 1 /\
   forall j, reaches (h88o 5) 1 j -> in_tree (h88o 5) 1 j \/ agreed (h88o 5) ScNone j \/ computed (h88o 5) ScNone j).
Proof.
  eexists. split; [vm_compute; reflexivity|]. split; [vm_compute; reflexivity|]. split; [vm_compute; reflexivity|]. split; [vm_compute; reflexivity|].
  split.
  { intros p f c g HP C HC. destruct p as [|[|[|[|[|[|[|p]]]]]]]; try discriminate; injection HP as <-; cbn in C; repeat (destruct C as [<-|C]; [injection HC as <-; reflexivity|]); contradiction. }
  split. { intros j g HJ. destruct j as [|[|[|[|[|[|[|j]]]]]]]; try discriminate; injection HJ as <-; cbn; congruence. }
  split. { intros j g p HJ. destruct j as [|[|[|[|[|[|[|j]]]]]]]; try discriminate; injection HJ as <-; cbn; congruence. }
  split. { intros (f & p & pf & HJ & FP & _). injection HJ as <-. discriminate. }
  intros j _. destruct j as [|[|[|[|[|[|[|j]]]]]]].
  all: try (right; left; intros f HF; discriminate HF).
  - left. constructor.
  - left. eapply tree_child; [reflexivity|left; reflexivity|constructor].
  - left. eapply tree_child; [reflexivity|right; left; reflexivity|constructor].
  - right; left. intros f HF. injection HF as <-. vm_compute. reflexivity.
  - right; left. intros f HF. injection HF as <-. vm_compute. reflexivity.
Qed.
(** [observe] does not reach into subfragments: with the subfragment unobserved, the observed traversal is not the cached one. *)
Theorem C88_refuted_subfragment : exists h', observe one2 zer2 9 9 ScNone (h88o 0) 1 = (h', FOk tt) /\
  mags (traverse one2 zer2 9 h' ScNone true 1) = Some [Q2Qc 4; Q2Qc 2; Q2Qc 3; Q2Qc 3; Q2Qc 0] /\
  mags (traverse one2 zer2 9 h' ScNone false 1) = Some [Q2Qc 4; Q2Qc 2; Q2Qc 3; Q2Qc 3; Q2Qc 15].
Proof. eexists. split; [vm_compute; reflexivity|]. split; vm_compute; reflexivity. Qed.
Print Assumptions C88_refuted_subfragment.

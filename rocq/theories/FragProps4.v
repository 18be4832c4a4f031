(** Property C44: terminate and unending recursion (model: FragModel.v).  A traversal that exhausts every recursion depth is
    [FErr FRecursion] for every fuel. *)
From Coq Require Import Lia.
From Verif Require Import Num Base PyStr ProcModel FragModel FragProofs FragProps.
Open Scope Qc_scope.
Open Scope string_scope.
Open Scope list_scope.

(** * Specification: what a fragment may lead to *)
(** a child, or the target of any of its terminations (for a target that is not a background fragment, the top of its tree) *)
Inductive leads (h : heap) : nat -> nat -> Prop :=
| leads_child i f c : h i = Some f -> In c (f_children f) -> leads h i c
| leads_background i f k t j g : h i = Some f -> In (k, t) (f_terms f) -> t_node t = NFrag j -> j <> i -> h j = Some g -> f_bg g = true -> leads h i j
| leads_top i f k t j g n tp : h i = Some f -> In (k, t) (f_terms f) -> t_node t = NFrag j -> j <> i -> h j = Some g -> f_bg g = false -> top n h j = FOk tp -> leads h i tp.
Definition acyclic (h : heap) : Prop := well_founded (fun j i => leads h i j).
Inductive reaches (h : heap) : nat -> nat -> Prop :=
| reaches_refl i : reaches h i i
| reaches_step i j k : leads h i j -> reaches h j k -> reaches h i k.
(** every chain of parents ends *)
Definition rooted (h : heap) : Prop := forall k, exists n, top n h k <> FErr FRecursion.

(** * More fuel does not change a result *)
Lemma top_mono h n k : top n h k <> FErr FRecursion -> top (S n) h k = top n h k.
Proof.
  revert k. induction n as [|n IH]; intros k N; [cbn in N; congruence|]. change (top (S (S n)) h k) with (match h k with None => FErr FAttributeError | Some f => match f_parent f with None => FOk k | Some p => top (S n) h p end end).
  cbn [top] in N |- *. destruct (h k) as [f|]; [|reflexivity]. destruct (f_parent f) as [p|]; [|reflexivity]. apply IH. exact N.
Qed.
Lemma top_mono_le h n m k : (n <= m)%nat -> top n h k <> FErr FRecursion -> top m h k = top n h k.
Proof. induction 1; intros N; [reflexivity|]. rewrite top_mono; [apply IHle; exact N|]. rewrite IHle by exact N. exact N. Qed.
Definition le_rec (r r' : rect) : Prop := forall c nw seen q bal, r c nw seen q bal <> FErr FRecursion -> r' c nw seen q bal = r c nw seen q bal.
Section P.
Context (cf : nat -> nat -> Qc) (refq : nat -> nat).
Notation trav := (trav cf refq). Notation trav_node := (trav_node cf refq). Notation trav_fg := (trav_fg cf).
Lemma fg_loop_mono r r' nw seen q cs : le_rec r r' -> forall ffs stock b, fg_loop r nw seen q cs ffs stock b <> FErr FRecursion -> fg_loop r' nw seen q cs ffs stock b = fg_loop r nw seen q cs ffs stock b.
Proof.
  intros L. induction cs as [|c cs IH]; intros ffs stock b N; cbn [fg_loop] in *; [reflexivity|]. specialize (L c nw seen q None).
  destruct (r c nw seen q None) as [[l cv]|e]; [rewrite L by discriminate; apply IH; exact N|]. destruct e; rewrite L by congruence; try reflexivity. apply IH; exact N.
Qed.
Lemma sub_loop_mono r r' h dn seen cs : le_rec r r' -> forall ffs inv, sub_loop r h dn seen cs ffs inv <> FErr FRecursion -> sub_loop r' h dn seen cs ffs inv = sub_loop r h dn seen cs ffs inv.
Proof.
  intros L. induction cs as [|c cs IH]; intros ffs inv N; cbn [sub_loop] in *; [reflexivity|]. destruct (h c) as [g|]; [|reflexivity]. destruct (find_flow (f_flow g) inv) as [m|]; [|apply IH; exact N].
  specialize (L c dn seen None). match goal with |- context [r' c dn seen None ?b] => specialize (L b) end. destruct (r c dn seen None _) as [[l cv]|e]; rewrite L by congruence; [apply IH; exact N|reflexivity].
Qed.
Lemma trav_fg_mono r r' h sc obs i f x seen : le_rec r r' -> trav_fg r h sc obs i f x seen <> FErr FRecursion -> trav_fg r' h sc obs i f x seen = trav_fg r h sc obs i f x seen.
Proof.
  intros L N. unfold FragModel.trav_fg in *. destruct (if is_fg i (ff_term x) then _ else _) as [s0|]; [|reflexivity]. set (st := match f_cons f with None => s0 | Some _ => _ end) in *. clearbody st.
  assert (M := fg_loop_mono r r' (ff_nw x) seen (f_cons f) (child_flows f) L [x] st None). destruct (fg_loop r (ff_nw x) seen (f_cons f) (child_flows f) [x] st None) as [[[l s] [b|]]|e]; rewrite M by congruence; try reflexivity.
  specialize (L b (ff_nw x) seen None). match goal with |- context [r' b (ff_nw x) seen None ?b0] => specialize (L b0) end. destruct (r b (ff_nw x) seen None _) as [[l0 cv]|e]; rewrite L by congruence; reflexivity.
Qed.
Lemma unit_inv_mono r r' n h j : le_rec r r' -> unit_inventory r n h j <> FErr FRecursion -> unit_inventory r' (S n) h j = unit_inventory r n h j.
Proof.
  intros L N. unfold unit_inventory in *. assert (T := top_mono h n j). destruct (top n h j) as [tp|e]; rewrite T by congruence; [|reflexivity]. specialize (L tp (Q2Qc 1) [] None None).
  destruct (r tp (Q2Qc 1) [] None None) as [[l cv]|e]; rewrite L by congruence; reflexivity.
Qed.
Lemma trav_sub_mono r r' n h i f x j seen : le_rec r r' -> trav_sub r n h i f x j seen <> FErr FRecursion -> trav_sub r' (S n) h i f x j seen = trav_sub r n h i f x j seen.
Proof.
  intros L N. unfold trav_sub in *. destruct (h j) as [g|]; [|reflexivity]. destruct (f_bg g).
  - specialize (L j (ff_nw x) [] None None). destruct (r j (ff_nw x) [] None None) as [[l cv]|e]; rewrite L by congruence; reflexivity.
  - unfold do_subfrag in *. assert (U := unit_inv_mono r r' n h j L). destruct (unit_inventory r n h j) as [[inv il]|e]; rewrite U by congruence; [|reflexivity].
    destruct (find_flow _ inv) as [m|]; [|reflexivity]. destruct (eqb (ff_mag m) (Q2Qc 0)); [reflexivity|]. set (dn := ff_nw x / _) in *. clearbody dn.
    destruct (t_desc (ff_term x)); match goal with |- context [sub_loop r' h dn seen ?cs ?a ?b] => assert (S := sub_loop_mono r r' h dn seen cs L a b); destruct (sub_loop r h dn seen cs a b) as [[l v]|e] end; rewrite S by congruence; reflexivity.
Qed.
Lemma trav_node_mono r r' n h sc obs : le_rec r r' -> le_rec (trav_node r n h sc obs) (trav_node r' (S n) h sc obs).
Proof.
  intros L i nw seen q bal N. unfold FragModel.trav_node in *. destruct (h i) as [f|]; [|reflexivity]. destruct (_ && mem i seen); [reflexivity|].
  set (seen' := if match f_parent f with None => true | Some _ => false end then i :: seen else seen) in *. clearbody seen'.
  destruct (match bal with Some b => FOk b | None => _ end) as [ev|]; [|reflexivity]. destruct (match_term f sc) as [m|]; [|reflexivity]. destruct (dget m (f_terms f)) as [t|]; [|reflexivity].
  destruct (if match f_parent f with None => true | Some _ => false end then FOk nw else _) as [w|]; [|reflexivity]. destruct (conservation cf h f ev q) as [[cv kept]|]; [|reflexivity].
  set (x := FF (Real i) (f_flow f) (f_dir f) (nw * ev) w t kept []) in *. clearbody x. destruct (is_null t || f_bg f || eqb (nw * ev) (Q2Qc 0)); [reflexivity|].
  assert (F := trav_fg_mono r r' h sc obs i f x seen' L). destruct (t_node t) as [|p|j]; [reflexivity| |].
  - destruct (trav_fg r h sc obs i f x seen'); rewrite F by congruence; reflexivity.
  - destruct (Nat.eqb j i); [destruct (trav_fg r h sc obs i f x seen'); rewrite F by congruence; reflexivity|].
    assert (S := trav_sub_mono r r' n h i f x j seen' L). destruct (trav_sub r n h i f x j seen'); rewrite S by congruence; reflexivity.
Qed.
Lemma trav_mono n h sc obs : le_rec (trav n h sc obs) (trav (S n) h sc obs).
Proof.
  induction n as [|n IH]; [intros c nw seen q bal N; cbn [FragModel.trav] in N; congruence|].
  change (trav (S (S n)) h sc obs) with (trav_node (trav (S n) h sc obs) (S n) h sc obs). change (trav (S n) h sc obs) with (trav_node (trav n h sc obs) n h sc obs) at 1. apply trav_node_mono. exact IH.
Qed.
Lemma trav_mono_le n m h sc obs : (n <= m)%nat -> le_rec (trav n h sc obs) (trav m h sc obs).
Proof.
  induction 1 as [|m L IH]; intros c nw seen q bal N; [reflexivity|]. rewrite trav_mono; [apply IH; exact N|]. rewrite IH by exact N. exact N.
Qed.

(** * An acyclic model is traversed without unending recursion *)
Definition done (r : rect) (c : nat) : Prop := forall nw seen q bal, r c nw seen q bal <> FErr FRecursion.
Lemma done_mono n m h sc obs c : (n <= m)%nat -> done (trav n h sc obs) c -> done (trav m h sc obs) c.
Proof. intros L D nw seen q bal. rewrite (trav_mono_le n m h sc obs L) by apply D. apply D. Qed.
Lemma group_done p rf rd ffs : group_ios p rf rd true ffs <> FErr FRecursion.
Proof. unfold group_ios. destruct ffs as [|x l]; [discriminate|]. destruct (dget rf _); [|discriminate]. destruct (eqb _ _); [|discriminate]. destruct (Qclt_le_dec _ _); discriminate. Qed.
Lemma trav_node_done h sc obs r n i f : h i = Some f -> (forall c, leads h i c -> done r c) ->
  (forall k t j, In (k, t) (f_terms f) -> t_node t = NFrag j -> top n h j <> FErr FRecursion) -> done (trav_node r n h sc obs) i.
Proof.
  intros HI D T nw seen q bal. unfold FragModel.trav_node. rewrite HI. destruct (_ && mem i seen); [discriminate|].
  set (seen' := if match f_parent f with None => true | Some _ => false end then i :: seen else seen). clearbody seen'.
  assert (ME : match_ev f sc <> FErr FRecursion) by (destruct sc; cbn; try discriminate; destruct (filter _ ks) as [|a [|b l]]; discriminate).
  destruct (match bal with Some b => FOk b | None => _ end) as [ev|] eqn:EV; [|destruct bal; [discriminate|]; destruct (match_ev f sc); congruence].
  assert (MT : match_term f sc <> FErr FRecursion) by (destruct sc; cbn; try discriminate; [destruct (_ || _); discriminate|]; destruct (filter _ ks) as [|a [|b l]]; discriminate).
  destruct (match_term f sc) as [m|]; [|congruence]. destruct (dget m (f_terms f)) as [t|] eqn:DT; [|discriminate]. apply dget_In in DT.
  destruct (if match f_parent f with None => true | Some _ => false end then FOk nw else _) as [w|] eqn:W.
  2:{ destruct (f_parent f); [|discriminate]. destruct (is_null t); [discriminate|]. assert (M : multiplier cf refq (f_flow f) t <> FErr FRecursion).
      { unfold multiplier. destruct (Nat.eqb _ _); [discriminate|]. destruct (Nat.eqb _ _); [discriminate|]. destruct (eqb _ _); [destruct (eqb _ _)|]; discriminate. }
      destruct (multiplier cf refq (f_flow f) t); congruence. }
  destruct (conservation cf h f ev q) as [[cv kept]|e] eqn:CO.
  2:{ unfold conservation in CO. destruct q; [destruct (f_isbal f); [congruence|]; destruct (eqb _ _); discriminate|]. destruct (f_isbal f); [discriminate|]. unfold balance_flow in CO.
      destruct (f_cons f); [|discriminate]. destruct (filter _ _); [congruence|discriminate]. }
  set (x := FF (Real i) (f_flow f) (f_dir f) (nw * ev) w t kept []). destruct (is_null t || f_bg f || eqb (nw * ev) (Q2Qc 0)); [discriminate|].
  assert (CH : forall c, In c (child_flows f) -> done r c) by (intros c J; apply D; econstructor; [exact HI|apply In_child_flows; exact J]).
  assert (FL : forall nw' seen q' cs ffs st b, (forall c, In c cs -> done r c) -> fg_loop r nw' seen q' cs ffs st b <> FErr FRecursion
              /\ (forall l s b', fg_loop r nw' seen q' cs ffs st b = FOk (l, s, Some b') -> b = Some b' \/ In b' cs)).
  { intros nw' sn q'. induction cs as [|c cs IH]; intros ffs st b OK; cbn [fg_loop].
    - split; [discriminate|]. intros l s b' E. injection E as <- <- E. auto.
    - assert (Dc := OK c (or_introl eq_refl) nw' sn q' None). assert (OK' : forall c, In c cs -> done r c) by (intros c0 J; apply OK; cbn; auto).
      destruct (r c nw' sn q' None) as [[l cv0]|e]; [destruct (IH (ffs ++ l) (match cv0 with Some v => st + v | None => st end) b OK') as [I1 I2]; split; [exact I1|intros l0 s0 b' E; destruct (I2 _ _ _ E); cbn; auto]|].
      destruct e; try (split; [discriminate|intros; discriminate]); [|congruence]. destruct (IH ffs st (Some c) OK') as [I1 I2]. split; [exact I1|]. intros l0 s0 b' E. destruct (I2 _ _ _ E) as [X|X]; [injection X as <-; cbn; auto|cbn; auto]. }
  assert (FG : trav_fg r h sc obs i f x seen' <> FErr FRecursion).
  { unfold FragModel.trav_fg. destruct (if is_fg i (ff_term x) then _ else _) as [s0|] eqn:S0.
    - set (st := match f_cons f with None => s0 | Some _ => _ end). destruct (FL (ff_nw x) seen' (f_cons f) (child_flows f) [x] st None CH) as [L1 L2].
      destruct (fg_loop r (ff_nw x) seen' (f_cons f) (child_flows f) [x] st None) as [[[l s] [b|]]|]; [|discriminate|congruence]. destruct (L2 _ _ _ eq_refl) as [X|X]; [discriminate|].
      specialize (CH b X (ff_nw x) seen' None). match goal with |- context [r b (ff_nw x) seen' None ?b0] => specialize (CH b0); destruct (r b (ff_nw x) seen' None b0) as [[l0 cv0]|] end; [discriminate|congruence].
    - destruct (is_fg i (ff_term x)); [|discriminate]. destruct (f_parent f); [discriminate|]. unfold exchange_value in S0. destruct (match_ev f sc); congruence. }
  destruct (t_node t) as [|p|j] eqn:TN; [discriminate| |].
  - destruct (trav_fg r h sc obs i f x seen'); congruence.
  - destruct (Nat.eqb_spec j i) as [|NE]; [destruct (trav_fg r h sc obs i f x seen'); congruence|].
    assert (TS : trav_sub r n h i f x j seen' <> FErr FRecursion).
    { unfold trav_sub. destruct (h j) as [gj|] eqn:HJ; [|discriminate]. destruct (f_bg gj) eqn:BG.
      - assert (DJ : done r j) by (apply D; eapply leads_background; eauto). specialize (DJ (ff_nw x) [] None None). destruct (r j (ff_nw x) [] None None) as [[[|[] [|? ?]] ?]|]; congruence.
      - unfold do_subfrag, unit_inventory. assert (TJ := T m t j DT TN). destruct (top n h j) as [tp|] eqn:TP; [|congruence]. assert (DJ : done r tp) by (apply D; eapply leads_top; eauto).
        specialize (DJ (Q2Qc 1) [] None None). destruct (r tp (Q2Qc 1) [] None None) as [[l cv0]|]; [|congruence]. destruct (h tp) as [tf|]; [|discriminate].
        assert (G := group_done j (f_flow tf) (f_dir tf) l). destruct (group_ios j (f_flow tf) (f_dir tf) true l) as [[inv il]|]; [|congruence].
        destruct (find_flow _ inv) as [mf|]; [|discriminate]. destruct (eqb (ff_mag mf) (Q2Qc 0)); [discriminate|]. set (dn := ff_nw x / _). clearbody dn.
        assert (SL : forall cs ffs v, (forall c, In c cs -> done r c) -> sub_loop r h dn seen' cs ffs v <> FErr FRecursion).
        { induction cs as [|c cs IH]; intros ffs v OK; cbn [sub_loop]; [discriminate|]. destruct (h c) as [g|]; [|discriminate]. assert (OK' : forall c, In c cs -> done r c) by (intros c0 J; apply OK; cbn; auto).
          destruct (find_flow (f_flow g) v) as [m0|]; [|apply IH; exact OK']. assert (Dc := OK c (or_introl eq_refl) dn seen' None). match goal with |- context [r c dn seen' None ?b] => specialize (Dc b); destruct (r c dn seen' None b) as [[l0 cv1]|] end; [apply IH; exact OK'|congruence]. }
        destruct (t_desc (ff_term x)); match goal with |- context [sub_loop r h dn seen' ?cs ?a ?b] => assert (S := SL cs a b CH); destruct (sub_loop r h dn seen' cs a b) as [[l0 v]|] end; congruence. }
    destruct (trav_sub r n h i f x j seen'); congruence.
Qed.
(** finitely many successors need a common depth *)
Lemma common_fuel {A} (P : nat -> A -> Prop) (l : list A) : (forall n m x, (n <= m)%nat -> P n x -> P m x) -> (forall x, In x l -> exists n, P n x) -> exists n, forall x, In x l -> P n x.
Proof.
  intros MO. induction l as [|x l IH]; intros H; [exists 0%nat; intros x []|]. destruct (H x (or_introl eq_refl)) as [n1 P1]. destruct IH as [n2 P2]; [intros y J; apply H; cbn; auto|].
  exists (Nat.max n1 n2). intros y [<-|J]; [apply (MO n1); [apply Nat.le_max_l|auto]|apply (MO n2); [apply Nat.le_max_r|auto]].
Qed.
Lemma acyclic_done h sc obs i : rooted h -> Acc (fun j i => leads h i j) i -> exists n, done (trav n h sc obs) i.
Proof.
  intros RT A. induction A as [i _ IH]. destruct (h i) as [f|] eqn:HI.
  2:{ exists 1%nat. intros nw seen q bal. cbn [FragModel.trav]. unfold FragModel.trav_node. rewrite HI. discriminate. }
  set (targets := flat_map (fun e => match t_node (snd e) with NFrag j => [j] | _ => [] end) (f_terms f)).
  destruct (common_fuel (fun n j => top n h j <> FErr FRecursion) targets) as [n1 N1].
  { intros n m x L N. rewrite (top_mono_le h n m) by auto. exact N. } { intros x _. apply RT. }
  assert (TG : forall k t j, In (k, t) (f_terms f) -> t_node t = NFrag j -> In j targets).
  { intros k t j J TN. unfold targets. apply in_flat_map. exists (k, t). split; auto. cbn [snd]. rewrite TN. cbn; auto. }
  set (via := flat_map (fun j => if Nat.eqb j i then [] else match h j with Some g => if f_bg g then [j] else match top n1 h j with FOk tp => [tp] | _ => [] end | None => [] end) targets).
  set (succs := f_children f ++ via).
  assert (SL : forall c, In c succs -> leads h i c).
  { intros c J. apply in_app_or in J as [J|J]; [eapply leads_child; eauto|]. unfold via in J. apply in_flat_map in J as [j [J1 J2]]. unfold targets in J1. apply in_flat_map in J1 as [[k t] [J1 J3]]. cbn [snd] in J3.
    destruct (t_node t) as [| |j0] eqn:TN; try contradiction. destruct J3 as [->|[]]. destruct (Nat.eqb_spec j i) as [|NE]; [contradiction|]. destruct (h j) as [g|] eqn:HJ; [|contradiction].
    destruct (f_bg g) eqn:BG; [destruct J2 as [<-|[]]; eapply leads_background; eauto|]. destruct (top n1 h j) as [tp|] eqn:TP; [|contradiction]. destruct J2 as [<-|[]]. eapply leads_top; eauto. }
  assert (LS : forall c, leads h i c -> In c succs).
  { intros c L. apply in_or_app. inversion L as [i0 f0 c0 H1 H2|i0 f0 k t j g H1 H2 H3 H4 H5 H6|i0 f0 k t j g n tp H1 H2 H3 H4 H5 H6 H7]; subst; rewrite HI in H1; injection H1 as <-; [auto| |].
    - right. unfold via. apply in_flat_map. exists c. split; [eapply TG; eauto|]. destruct (Nat.eqb_spec c i); [contradiction|]. rewrite H5, H6. cbn; auto.
    - right. unfold via. apply in_flat_map. exists j. split; [eapply TG; eauto|]. destruct (Nat.eqb_spec j i); [contradiction|]. rewrite H5, H6.
      assert (E1 := top_mono_le h n (Nat.max n n1) j (Nat.le_max_l _ _)). rewrite H7 in E1. specialize (E1 ltac:(discriminate)). assert (E2 := top_mono_le h n1 (Nat.max n n1) j (Nat.le_max_r _ _)).
      rewrite E1 in E2. rewrite <- E2 by (apply N1; eapply TG; eauto). cbn; auto. }
  destruct (common_fuel (fun n c => done (trav n h sc obs) c) succs) as [n2 N2].
  { intros n m x L H. apply (done_mono n m); auto. } { intros x J. apply IH. apply SL. exact J. }
  exists (S (Nat.max n1 n2)). cbn [FragModel.trav]. apply trav_node_done with f; auto.
  - intros c L. apply (done_mono n2); [apply Nat.le_max_r|]. apply N2, LS, L.
  - intros k t j J TN. rewrite (top_mono_le h n1) by (try apply Nat.le_max_l; apply N1; eapply TG; eauto). apply N1. eapply TG; eauto.
Qed.
(** For every model in which no fragment leads back to itself and whose parent chains end, every traversal and every unit inventory
    ends, in any scenario, and its result does not depend on the recursion depth available beyond some depth. *)
Theorem C44_acyclic_terminates h : rooted h -> acyclic h -> forall sc obs i,
  exists n, forall m, (n <= m)%nat ->
    traverse cf refq m h sc obs i = traverse cf refq n h sc obs i /\ traverse cf refq n h sc obs i <> FErr FRecursion
    /\ unit_inv cf refq m h sc obs i <> FErr FRecursion.
Proof.
  intros RT AC sc obs i. destruct (acyclic_done h (as_set sc) obs i RT (AC i)) as [n1 D1]. destruct (RT i) as [n2 T2].
  assert (exists n3, forall tp, top n2 h i = FOk tp -> done (trav n3 h (as_set sc) obs) tp) as [n3 D3].
  { destruct (top n2 h i) as [tp|]; [|exists 0%nat; discriminate]. destruct (acyclic_done h (as_set sc) obs tp RT (AC tp)) as [n3 D3]. exists n3. intros t E. injection E as <-. exact D3. }
  exists (Nat.max n1 (Nat.max n2 n3)). intros m L. set (n := Nat.max n1 (Nat.max n2 n3)) in *.
  assert (L1 : (n1 <= n)%nat) by apply Nat.le_max_l. assert (L2 : (n2 <= n)%nat) by (unfold n; lia). assert (L3 : (n3 <= n)%nat) by (unfold n; lia). clearbody n.
  assert (DN : done (trav n h (as_set sc) obs) i) by (apply (done_mono n1); auto). unfold traverse. rewrite (trav_mono_le n m h (as_set sc) obs L) by apply DN. split; [reflexivity|].
  specialize (DN (Q2Qc 1) [] None None). split; [destruct (trav n h (as_set sc) obs i (Q2Qc 1) [] None None) as [[l cv]|]; congruence|].
  unfold unit_inv, unit_inventory. rewrite (top_mono_le h n2 m) by (auto; lia). destruct (top n2 h i) as [tp|]; [|congruence]. assert (DM : done (trav m h (as_set sc) obs) tp) by (apply (done_mono n3); [lia|auto]).
  specialize (DM (Q2Qc 1) [] None None). destruct (trav m h (as_set sc) obs tp (Q2Qc 1) [] None None) as [[l cv]|]; [|congruence]. destruct (h tp) as [tf|]; [|discriminate]. apply group_done.
Qed.
End P.
Print Assumptions C44_acyclic_terminates.

(** * terminate() keeps a model acyclic when its check sees enough *)
(** children know their parent; background fragments have no parent; nothing leads back to itself *)
Definition sound_links (h : heap) : Prop := forall p f c g, h p = Some f -> In c (f_children f) -> h c = Some g -> f_parent g = Some p.
Definition bg_parentless (h : heap) : Prop := forall j g, h j = Some g -> f_bg g = true -> f_parent g = None.
Definition sound (h : heap) : Prop := rooted h /\ acyclic h /\ sound_links h /\ bg_parentless h.
Definition parentless (h : heap) (j : nat) : Prop := exists g, h j = Some g /\ f_parent g = None.
Definition istop (h : heap) (i tp : nat) : Prop := exists n, top n h i = FOk tp.
Lemma istop_parentless h i tp : parentless h i -> istop h i tp -> tp = i.
Proof. intros [g [HG P]] [n T]. destruct n as [|n]; [discriminate|]. cbn [top] in T. rewrite HG, P in T. congruence. Qed.
Lemma istop_is_parentless h i tp : istop h i tp -> parentless h tp.
Proof.
  intros [n T]. revert i T. induction n as [|n IH]; intros i T; [discriminate|]. cbn [top] in T. destruct (h i) as [f|] eqn:HI; [|discriminate]. destruct (f_parent f) as [p|] eqn:P; [apply (IH p T)|]. injection T as <-. exists f; auto.
Qed.
Lemma reach_top h : sound_links h -> bg_parentless h -> forall x i, reaches h x i -> forall tp, istop h i tp -> reaches h x tp \/ istop h x tp.
Proof.
  intros SL BP x i R. induction R as [i|x y i L R IH]; intros tp T; [auto|]. destruct (IH tp T) as [IH1|IH1]; [left; eapply reaches_step; eauto|].
  inversion L as [i0 f c H1 H2|i0 f k t j g H1 H2 H3 H4 H5 H6|i0 f k t j g n tp0 H1 H2 H3 H4 H5 H6 H7]; subst.
  - right. destruct IH1 as [n T1]. destruct n as [|n]; [discriminate|]. cbn [top] in T1. destruct (h y) as [g|] eqn:HY; [|discriminate]. rewrite (SL _ _ _ _ H1 H2 HY) in T1. exists n; exact T1.
  - left. assert (tp = y) by (apply (istop_parentless h); auto; exists g; eauto). subst. eapply reaches_step; [eassumption|constructor].
  - left. assert (tp = y) by (apply (istop_parentless h); auto; apply (istop_is_parentless h j); exists n; auto). subst. eapply reaches_step; [eassumption|constructor].
Qed.
Lemma In_dset {K V} `{EqB K} (k : K) (v : V) d e : In e (dset k v d) -> e = (k, v) \/ In e d.
Proof. induction d as [|[k0 v0] d IH]; cbn; [intuition auto|]. destruct (eqb_spec k k0) as [->|]; cbn; intuition auto. Qed.
Lemma reaches_trans h x y z : reaches h x y -> reaches h y z -> reaches h x z.
Proof. induction 1; auto. intros. eapply reaches_step; eauto. Qed.
Lemma acyclic_add h h' i j : acyclic h -> (forall x y, leads h' x y -> leads h x y \/ (x = i /\ y = j)) -> ~ reaches h j i -> acyclic h'.
Proof.
  intros AC SUB NR. assert (A1 : forall x, Acc (fun y x => leads h x y) x -> ~ reaches h x i -> Acc (fun y x => leads h' x y) x).
  { intros x A. induction A as [x _ IH]. intros N. constructor. intros y L. destruct (SUB x y L) as [L'|[-> ->]]; [|exfalso; apply N; constructor]. apply IH; auto. intros R. apply N. eapply reaches_step; eauto. }
  intros x. assert (A := AC x). induction A as [x _ IH]. constructor. intros y L. destruct (SUB x y L) as [L'|[-> ->]]; [apply IH; exact L'|apply A1; [apply AC|exact NR]].
Qed.

Section H.
Context (h : heap) (i : nat) (f : frag).
Hypothesis HI : h i = Some f.
Lemma put_parent t j : match hset h i (with_terms f t) j with Some g => Some (f_parent g, f_children g, f_bg g) | None => None end = match h j with Some g => Some (f_parent g, f_children g, f_bg g) | None => None end.
Proof. destruct (Nat.eq_dec j i) as [->|NE]; [rewrite hset_same, HI; reflexivity|rewrite hset_other by auto; reflexivity]. Qed.
Lemma put_top t n j : top n (hset h i (with_terms f t)) j = top n h j.
Proof.
  revert j. induction n as [|n IH]; intros j; cbn [top]; [reflexivity|]. assert (P := put_parent t j). destruct (hset h i (with_terms f t) j) as [g|], (h j) as [g'|]; try discriminate; [|reflexivity].
  injection P as -> _ _. destruct (f_parent g'); [apply IH|reflexivity].
Qed.
Lemma put_leads k t x y : leads (hset h i (with_terms f (dset k t (f_terms f)))) x y ->
  leads h x y \/ (x = i /\ exists j g, t_node t = NFrag j /\ j <> i /\ h j = Some g /\ (f_bg g = true /\ y = j \/ istop h j y)).
Proof.
  set (h' := hset h i (with_terms f (dset k t (f_terms f)))). intros L.
  assert (BK : forall x g', h' x = Some g' -> exists g, h x = Some g /\ f_children g = f_children g' /\ f_bg g = f_bg g' /\ (x <> i -> g = g') /\ (x = i -> g = f /\ f_terms g' = dset k t (f_terms f))).
  { intros z g' E. unfold h' in E. destruct (Nat.eq_dec z i) as [->|NE]; [rewrite hset_same in E; injection E as <-; exists f; repeat split; auto; congruence|].
    rewrite hset_other in E by auto. exists g'. repeat split; auto; congruence. }
  inversion L as [i0 f0 c H1 H2|i0 f0 k0 t0 j g H1 H2 H3 H4 H5 H6|i0 f0 k0 t0 j g n tp0 H1 H2 H3 H4 H5 H6 H7]; subst.
  - destruct (BK _ _ H1) as [g [G1 [G2 _]]]. left. rewrite <- G2 in H2. eapply leads_child; eauto.
  - destruct (BK _ _ H1) as [g1 [G1 [_ [_ [G4 G5]]]]]. destruct (BK _ _ H5) as [g2 [K1 [_ [K3 _]]]]. rewrite <- K3 in H6. destruct (Nat.eq_dec x i) as [->|NX].
    + destruct (G5 eq_refl) as [-> G6]. rewrite G6 in H2. apply In_dset in H2 as [H2|H2]; [injection H2 as -> ->|left; eapply leads_background; eauto]. right. split; [reflexivity|]. exists y, g2. do 3 (split; [assumption|]). left; auto.
    + rewrite (G4 NX) in G1. left. eapply leads_background; eauto.
  - destruct (BK _ _ H1) as [g1 [G1 [_ [_ [G4 G5]]]]]. destruct (BK _ _ H5) as [g2 [K1 [_ [K3 _]]]]. rewrite <- K3 in H6. unfold h' in H7. rewrite put_top in H7. destruct (Nat.eq_dec x i) as [->|NX].
    + destruct (G5 eq_refl) as [-> G6]. rewrite G6 in H2. apply In_dset in H2 as [H2|H2]; [injection H2 as -> ->|left; eapply leads_top; eauto]. right. split; [reflexivity|]. exists j, g2. repeat split; auto. right. exists n; auto.
    + rewrite (G4 NX) in G1. left. eapply leads_top; eauto.
Qed.
Lemma put_rest k t : rooted h -> sound_links h -> bg_parentless h -> let h' := hset h i (with_terms f (dset k t (f_terms f))) in rooted h' /\ sound_links h' /\ bg_parentless h'.
Proof.
  intros RT SL BP h'. split; [|split].
  - intros j. destruct (RT j) as [n N]. exists n. unfold h'. rewrite put_top. exact N.
  - intros p pf c g HP JC HC. assert (P1 := put_parent (dset k t (f_terms f)) p). assert (P2 := put_parent (dset k t (f_terms f)) c). fold h' in P1, P2. rewrite HP in P1. rewrite HC in P2.
    destruct (h p) as [pf0|] eqn:E1; [|discriminate]. destruct (h c) as [g0|] eqn:E2; [|discriminate]. injection P1 as _ P1 _. injection P2 as P2 _ _. rewrite P2. eapply SL; eauto. rewrite <- P1. exact JC.
  - intros j g HJ BG. assert (P1 := put_parent (dset k t (f_terms f)) j). fold h' in P1. rewrite HJ in P1. destruct (h j) as [g0|] eqn:E1; [|discriminate]. injection P1 as P1 _ P3. rewrite P1. apply (BP j g0 E1). congruence.
Qed.
End H.

(** For every sound model: a terminate() that returns normally, to a process, to the fragment itself or to a reference fragment [j],
    leaves the model sound, provided that, if [j] can lead back to the tree of the fragment being terminated, the traversal of [j]
    made by the check lists the top of that tree. *)
Definition check_sees (cf : nat -> nat -> Qc) refq fuel (h : heap) (i : nat) (node : tnode) (k : option skey) : Prop :=
  forall j, node = NFrag j -> j <> i -> parentless h j
    /\ forall tp ffs, istop h i tp -> traverse cf refq fuel h (key_scen k) false j = FOk ffs -> reaches h j tp -> exists x, In x ffs /\ ff_ref x = Real tp.
Theorem C44_terminate_keeps_sound_partial cf refq fuel h i node k fl d desc h' : sound h ->
  terminate cf refq fuel h i node k fl d desc = (h', FOk tt) -> check_sees cf refq fuel h i node k -> sound h'.
Proof.
  intros [RT [AC [SL BP]]] E CS. unfold terminate in E. destruct (h i) as [f|] eqn:HI; [|discriminate].
  set (new := Tm node (match fl with Some x => x | None => f_flow f end) (match d with Some x => x | None => comp (f_dir f) end) desc) in E.
  assert (KT' : (if match dget k (f_terms f) with Some t => negb (is_null t) | None => false end then (h, FErr CacheAlreadySet) else
        match node with
        | NNull => (h, FErr FAttributeError)
        | NProc _ => (hset h i (with_terms f (dset k new (f_terms f))), FOk tt)
        | NFrag j =>
            if Nat.eqb j i then (hset h i (with_terms f (dset k new (f_terms f))), FOk tt) else
            match top fuel h i with
            | FErr e => (h, FErr e)
            | FOk tp =>
                if Nat.eqb j tp then (hset h i (with_terms f (dset k (null_term (f_flow f) (f_dir f)) (f_terms f))), FOk tt) else
                match traverse cf refq fuel h (key_scen k) false j with
                | FErr e => (h, FErr e)
                | FOk ffs => if existsb (fun x => match ff_ref x with Real r => Nat.eqb r tp | Ghost _ => false end) ffs then (h, FErr InvalidParentChild)
                             else (hset h i (with_terms f (dset k new (f_terms f))), FOk tt)
                end
            end
        end) = (h', FOk tt)) by (destruct k as [[| |s|l]|]; [exact E|exact E|exact E|discriminate|exact E]). clear E.
  destruct (match dget k (f_terms f) with Some t => negb (is_null t) | None => false end); [discriminate|].
  assert (KEEP : forall t, (forall j, t_node t = NFrag j -> j = i) -> sound (hset h i (with_terms f (dset k t (f_terms f))))).
  { intros t NT. destruct (put_rest h i f HI k t RT SL BP) as [P1 [P2 P3]]. split; [exact P1|]. split; [|split; auto]. intros x. assert (A := AC x). induction A as [x _ IH]. constructor. intros y L.
    apply IH. destruct (put_leads h i f HI k t x y L) as [L'|[_ [j [g [TN [NE _]]]]]]; [exact L'|]. exfalso. apply NE. apply NT. exact TN. }
  destruct node as [|p|j]; [discriminate| |].
  - injection KT' as <-. apply KEEP. cbn. discriminate.
  - destruct (Nat.eqb_spec j i) as [->|NE]. { injection KT' as <-. apply KEEP. cbn. congruence. }
    destruct (top fuel h i) as [tp|] eqn:TP; [|discriminate]. destruct (Nat.eqb_spec j tp) as [->|NT]. { injection KT' as <-. apply KEEP. cbn. discriminate. }
    destruct (traverse cf refq fuel h (key_scen k) false j) as [ffs|] eqn:TR; [|discriminate]. destruct (existsb _ ffs) eqn:EX; [discriminate|]. injection KT' as <-.
    destruct (CS j eq_refl NE) as [PJ CV]. assert (IT : istop h i tp) by (exists fuel; exact TP).
    assert (NR : ~ reaches h j i).
    { intros R. destruct (reach_top h SL BP j i R tp IT) as [R1|R1].
      - destruct (CV tp ffs IT TR R1) as [x [J X]]. assert (T : existsb (fun x => match ff_ref x with Real r => Nat.eqb r tp | Ghost _ => false end) ffs = true) by (apply existsb_exists; exists x; split; auto; rewrite X; apply Nat.eqb_refl). congruence.
      - apply NT. symmetry. apply (istop_parentless h); auto. }
    destruct (put_rest h i f HI k new RT SL BP) as [P1 [P2 P3]]. split; [exact P1|]. split; [|split; auto].
    apply (acyclic_add h _ i j AC); [|exact NR]. intros x y L. destruct (put_leads h i f HI k new x y L) as [L'|[-> [j0 [g [TN [_ [HG Y]]]]]]]; [auto|]. right. split; [reflexivity|].
    cbn in TN. injection TN as <-. destruct Y as [[_ ->]|Y]; [reflexivity|apply (istop_parentless h); auto].
Qed.
Print Assumptions C44_terminate_keeps_sound_partial.

(** Histories of terminate() calls, each of which either raises or is made when its check sees enough: every traversal ends. *)
Record tcall := TC { c_fuel : nat; c_frag : nat; c_node : tnode; c_key : option skey; c_flow : option nat; c_dir : option dirn; c_desc : bool }.
Definition tcall_run cf refq (h : heap) (c : tcall) : heap * fret unit := terminate cf refq (c_fuel c) h (c_frag c) (c_node c) (c_key c) (c_flow c) (c_dir c) (c_desc c).
Fixpoint tcalls cf refq (h : heap) (cs : list tcall) : heap := match cs with [] => h | c :: r => tcalls cf refq (fst (tcall_run cf refq h c)) r end.
Fixpoint checks_see cf refq (h : heap) (cs : list tcall) : Prop :=
  match cs with [] => True | c :: r => check_sees cf refq (c_fuel c) h (c_frag c) (c_node c) (c_key c) /\ checks_see cf refq (fst (tcall_run cf refq h c)) r end.
Lemma terminate_raises cf refq fuel h i node k fl d desc h' e : terminate cf refq fuel h i node k fl d desc = (h', FErr e) -> h' = h.
Proof.
  unfold terminate. destruct (h i) as [f|]; [|congruence]. intros E. destruct k as [[| |s|l]|]; try congruence;
    (destruct (match dget _ (f_terms f) with Some t => _ | None => _ end); [congruence|]; destruct node as [|p|j]; try congruence; destruct (Nat.eqb j i); [congruence|];
     destruct (top fuel h i) as [tp|]; [|congruence]; destruct (Nat.eqb j tp); [congruence|]; destruct (traverse cf refq fuel h _ false j) as [ffs|]; [|congruence]; destruct (existsb _ ffs); congruence).
Qed.
Theorem C44_history_terminates_partial cf refq cs h : sound h -> checks_see cf refq h cs -> forall sc obs i,
  exists n, forall m, (n <= m)%nat -> traverse cf refq m (tcalls cf refq h cs) sc obs i = traverse cf refq n (tcalls cf refq h cs) sc obs i
    /\ traverse cf refq n (tcalls cf refq h cs) sc obs i <> FErr FRecursion.
Proof.
  revert h. induction cs as [|c cs IH]; intros h S OK sc obs i; cbn [tcalls checks_see] in *.
  - destruct S as [RT [AC _]]. destruct (C44_acyclic_terminates cf refq h RT AC sc obs i) as [n H]. exists n. intros m L. destruct (H m L) as [H1 [H2 _]]. auto.
  - destruct OK as [O1 O2]. apply IH; auto. unfold tcall_run in *. destruct (terminate cf refq (c_fuel c) h (c_frag c) (c_node c) (c_key c) (c_flow c) (c_dir c) (c_desc c)) as [h1 [[]|e]] eqn:E; cbn [fst].
    + eapply C44_terminate_keeps_sound_partial; eauto.
    + apply terminate_raises in E. subst. exact S.
Qed.
Print Assumptions C44_history_terminates_partial.

(** * Refuted in general *)
Definition ev1 : dict skey (option Qc) := [(K0, Some 1); (K1, Some 0)].
Definition one (_ _ : nat) : Qc := 1.
Definition zer (_ : nat) : nat := 0%nat.
(** fragments 1 and 2 are reference fragments for flow 10; 2 is a foreground node with child 3, an input of flow 10; 4 is another child of 2, input of flow 11 *)
Definition h44 : heap := fun i => match i with
  | 1%nat => Some (Fr None [] 10 Input false false None ev1 [(None, null_term 10 Input)])
  | 2%nat => Some (Fr None [3%nat; 4%nat] 10 Input false false None ev1 [(None, Tm (NFrag 2) 10 Output true)])
  | 3%nat => Some (Fr (Some 2%nat) [] 10 Input false false None ev1 [(None, null_term 10 Input)])
  | 4%nat => Some (Fr (Some 2%nat) [] 11 Input false false None ev1 [(None, null_term 11 Input)])
  | 5%nat => Some (Fr None [6%nat] 10 Input false false None ev1 [(None, Tm (NFrag 5) 10 Output true)])
  | 6%nat => Some (Fr (Some 5%nat) [] 10 Input false false None ev1 [(None, null_term 10 Input)])
  | _ => None end.
(** recursion through a subfragment node and through the first child of a foreground node, without conserved quantities *)
Definition plain (f : frag) (ev : Qc) (t : term) (sc : scen) : Prop :=
  f_bg f = false /\ f_isbal f = false /\ f_cons f = None /\ exchange_value f sc false = FOk ev /\ ev <> 0 /\ termination f sc = FOk t /\ t_flow t = f_flow f.
Lemma node_sub cf refq r n h sc i f ev t j g nw seen : plain f ev t sc -> h i = Some f -> t_node t = NFrag j -> j <> i -> h j = Some g -> f_bg g = false -> nw <> 0 ->
  (f_parent f = None -> ~ In i seen) -> unit_inventory r n h j = FErr FRecursion -> trav_node cf refq r n h sc false i nw seen None None = FErr FRecursion.
Proof.
  intros [B [IB [FC [EV [NZ [TT TF]]]]]] HI TN NE HJ BG NW NS U. unfold trav_node. rewrite HI. destruct (match f_parent f with None => true | Some _ => false end && mem i seen) eqn:M.
  { apply andb_true_iff in M as [M1 M2]. destruct (f_parent f); [discriminate|]. destruct (mem_spec i seen); [exfalso; apply NS; auto|discriminate]. }
  unfold exchange_value in EV. destruct (match_ev f sc) as [m|]; [|discriminate]. injection EV as EV. rewrite EV. unfold termination in TT. destruct (match_term f sc) as [m'|]; [|discriminate].
  destruct (dget m' (f_terms f)) as [t'|]; [|discriminate]. injection TT as ->. unfold multiplier. rewrite TF, Nat.eqb_refl. assert (N : is_null t = false) by (unfold is_null; rewrite TN; reflexivity). rewrite N.
  set (W := if match f_parent f with None => true | Some _ => false end then FOk nw else _). destruct W as [w|] eqn:EW; [|unfold W in EW; destruct (f_parent f); discriminate].
  unfold conservation. rewrite IB. unfold balance_flow. rewrite FC, B. cbn [orb]. destruct (eqb_spec (nw * ev) (Q2Qc 0)) as [Z|_]; [exfalso; apply Qcmult_integral in Z as [Z|Z]; contradiction|].
  rewrite TN. destruct (Nat.eqb_spec j i); [contradiction|]. unfold trav_sub. rewrite HJ, BG. unfold do_subfrag. rewrite U. reflexivity.
Qed.
Lemma node_fg cf refq r n h sc i f ev t nw seen c rest : plain f ev t sc -> h i = Some f -> t_node t = NFrag i -> child_flows f = c :: rest -> nw <> 0 ->
  (f_parent f = None -> ~ In i seen) -> (forall w sn, w <> 0 -> r c w sn None None = FErr FRecursion) -> trav_node cf refq r n h sc false i nw seen None None = FErr FRecursion.
Proof.
  intros [B [IB [FC [EV [NZ [TT TF]]]]]] HI TN CH NW NS R. unfold trav_node. rewrite HI. destruct (match f_parent f with None => true | Some _ => false end && mem i seen) eqn:M.
  { apply andb_true_iff in M as [M1 M2]. destruct (f_parent f); [discriminate|]. destruct (mem_spec i seen); [exfalso; apply NS; auto|discriminate]. }
  assert (EV0 := EV). unfold exchange_value in EV. destruct (match_ev f sc) as [m|]; [|discriminate]. injection EV as EV. rewrite EV. unfold termination in TT. destruct (match_term f sc) as [m'|]; [|discriminate].
  destruct (dget m' (f_terms f)) as [t'|]; [|discriminate]. injection TT as ->. unfold multiplier. rewrite TF, Nat.eqb_refl. assert (N : is_null t = false) by (unfold is_null; rewrite TN; reflexivity). rewrite N.
  assert (NE : nw * ev <> 0) by (intros Z; apply Qcmult_integral in Z as [Z|Z]; contradiction).
  set (W := if match f_parent f with None => true | Some _ => false end then FOk nw else _). assert (EW : exists w, W = FOk w /\ w <> 0).
  { unfold W. destruct (f_parent f); [exists (nw * ev * Q2Qc 1); split; [reflexivity|]; replace (nw * ev * Q2Qc 1) with (nw * ev) by (change (Q2Qc 1) with 1; ring); exact NE|exists nw; auto]. }
  destruct EW as [w [-> WZ]]. unfold conservation. rewrite IB. unfold balance_flow. rewrite FC, B. cbn [orb]. destruct (eqb_spec (nw * ev) (Q2Qc 0)) as [Z|_]; [contradiction|].
  rewrite TN, Nat.eqb_refl. unfold trav_fg. cbn [ff_term ff_nw]. unfold is_fg. rewrite TN, Nat.eqb_refl. rewrite EV0, FC, CH. cbn [fg_loop]. destruct (f_parent f); rewrite R by exact WZ; reflexivity.
Qed.
Lemma inv_rec r n h j g : h j = Some g -> f_parent g = None -> r j 1 [] None None = FErr FRecursion -> unit_inventory r (S n) h j = FErr FRecursion.
Proof. intros HJ P R. unfold unit_inventory. cbn [top]. rewrite HJ, P. change (Q2Qc 1) with 1. rewrite R. reflexivity. Qed.
Ltac plain := repeat split; try (vm_compute; reflexivity); intros Z; apply (f_equal this) in Z; vm_compute in Z; discriminate.
Lemma one_nz : (1 : Qc) <> 0. Proof. intros Z. apply (f_equal this) in Z. vm_compute in Z. discriminate. Qed.
(** two calls that both return normally, and the resulting model *)
Definition both (h : heap) (c1 c2 : tcall) : Prop := snd (tcall_run one zer h c1) = FOk tt /\ snd (tcall_run one zer (fst (tcall_run one zer h c1)) c2) = FOk tt.
(** (1) 3 is terminated to 1 while 1 is still a cut-off; then 1 is terminated to 2: accepted, because the traversal of 2 does not list the cut-off 1 *)
Definition c1a := TC 9 3 (NFrag 1) None None None true. Definition c1b := TC 9 1 (NFrag 2) None None None true.
Definition h441 : heap := tcalls one zer h44 [c1a; c1b].
Theorem C44_refuted_cutoff_top : both h44 c1a c1b /\ forall n, traverse one zer n h441 ScNone false 1 = FErr FRecursion.
Proof.
  split; [split; vm_compute; reflexivity|].
  assert (G : forall n nw seen, nw <> 0 -> ~ In 1%nat seen -> trav one zer n h441 ScNone false 1%nat nw seen None None = FErr FRecursion).
  2:{ intros n. unfold traverse. cbn [as_set]. rewrite G; auto using one_nz. }
  intros n. induction n as [n IH] using (well_founded_induction Wf_nat.lt_wf). intros nw seen NW NS. destruct n as [|n]; [reflexivity|]. cbn [trav].
  eapply node_sub with (f := Fr None [] 10 Input false false None ev1 [(None, Tm (NFrag 2) 10 Output true)]) (j := 2%nat);
    [plain|reflexivity|reflexivity|discriminate|reflexivity|reflexivity|exact NW|intros _; exact NS|].
  destruct n as [|n]; [reflexivity|]. eapply inv_rec; [reflexivity|reflexivity|]. destruct n as [|n]; [reflexivity|]. cbn [trav].
  eapply node_fg with (f := Fr None [3%nat; 4%nat] 10 Input false false None ev1 [(None, Tm (NFrag 2) 10 Output true)]); [plain|reflexivity|reflexivity|reflexivity|apply one_nz|auto|]. intros w sn WZ.
  eapply node_sub with (f := Fr (Some 2%nat) [] 10 Input false false None ev1 [(None, Tm (NFrag 1) 10 Output true)]) (j := 1%nat);
    [plain|reflexivity|reflexivity|discriminate|reflexivity|reflexivity|exact WZ|discriminate|].
  destruct n as [|n]; [reflexivity|]. eapply inv_rec; [reflexivity|reflexivity|]. apply IH; auto using one_nz.
Qed.
Print Assumptions C44_refuted_cutoff_top.
(** (2) 3 is terminated to 5 with descend=False, then 6 to 2: accepted, because the traversal of 2 does not list the aggregated 5 *)
Definition c2a := TC 9 3 (NFrag 5) None None None false. Definition c2b := TC 9 6 (NFrag 2) None None None true.
Definition h442 : heap := tcalls one zer h44 [c2a; c2b].
Theorem C44_refuted_aggregated : both h44 c2a c2b /\ forall n, traverse one zer n h442 ScNone false 2 = FErr FRecursion.
Proof.
  split; [split; vm_compute; reflexivity|].
  assert (G : forall n nw seen, nw <> 0 -> ~ In 2%nat seen -> trav one zer n h442 ScNone false 2%nat nw seen None None = FErr FRecursion).
  2:{ intros n. unfold traverse. cbn [as_set]. rewrite G; auto using one_nz. }
  intros n. induction n as [n IH] using (well_founded_induction Wf_nat.lt_wf). intros nw seen NW NS. destruct n as [|n]; [reflexivity|]. cbn [trav].
  eapply node_fg with (f := Fr None [3%nat; 4%nat] 10 Input false false None ev1 [(None, Tm (NFrag 2) 10 Output true)]); [plain|reflexivity|reflexivity|reflexivity|exact NW|intros _; exact NS|]. intros w sn WZ.
  destruct n as [|n]; [reflexivity|]. cbn [trav].
  eapply node_sub with (f := Fr (Some 2%nat) [] 10 Input false false None ev1 [(None, Tm (NFrag 5) 10 Output false)]) (j := 5%nat);
    [plain|reflexivity|reflexivity|discriminate|reflexivity|reflexivity|exact WZ|discriminate|].
  destruct n as [|n]; [reflexivity|]. eapply inv_rec; [reflexivity|reflexivity|]. cbn [trav].
  eapply node_fg with (f := Fr None [6%nat] 10 Input false false None ev1 [(None, Tm (NFrag 5) 10 Output true)]); [plain|reflexivity|reflexivity|reflexivity|apply one_nz|auto|]. intros w1 sn1 WZ1.
  destruct n as [|n]; [reflexivity|]. cbn [trav].
  eapply node_sub with (f := Fr (Some 5%nat) [] 10 Input false false None ev1 [(None, Tm (NFrag 2) 10 Output true)]) (j := 2%nat);
    [plain|reflexivity|reflexivity|discriminate|reflexivity|reflexivity|exact WZ1|discriminate|].
  destruct n as [|n]; [reflexivity|]. eapply inv_rec; [reflexivity|reflexivity|]. apply IH; auto using one_nz.
Qed.
(** (3) one call suffices: 3 is terminated to its sibling 4, an interior fragment whose unit inventory is that of their common top *)
Definition c3 := TC 9 3 (NFrag 4) None None None true.
Definition h443 : heap := tcalls one zer h44 [c3].
Theorem C44_refuted_interior : snd (tcall_run one zer h44 c3) = FOk tt /\ forall n, traverse one zer n h443 ScNone false 2 = FErr FRecursion.
Proof.
  split; [vm_compute; reflexivity|].
  assert (G : forall n nw seen, nw <> 0 -> ~ In 2%nat seen -> trav one zer n h443 ScNone false 2%nat nw seen None None = FErr FRecursion).
  2:{ intros n. unfold traverse. cbn [as_set]. rewrite G; auto using one_nz. }
  intros n. induction n as [n IH] using (well_founded_induction Wf_nat.lt_wf). intros nw seen NW NS. destruct n as [|n]; [reflexivity|]. cbn [trav].
  eapply node_fg with (f := Fr None [3%nat; 4%nat] 10 Input false false None ev1 [(None, Tm (NFrag 2) 10 Output true)]); [plain|reflexivity|reflexivity|reflexivity|exact NW|intros _; exact NS|]. intros w sn WZ.
  destruct n as [|n]; [reflexivity|]. cbn [trav].
  eapply node_sub with (f := Fr (Some 2%nat) [] 10 Input false false None ev1 [(None, Tm (NFrag 4) 10 Output true)]) (j := 4%nat);
    [plain|reflexivity|reflexivity|discriminate|reflexivity|reflexivity|exact WZ|discriminate|].
  unfold unit_inventory. destruct n as [|[|n]]; [reflexivity|reflexivity|]. assert (T : top (S (S n)) h443 4 = FOk 2%nat) by reflexivity. rewrite T. change (Q2Qc 1) with 1.
  rewrite IH; auto using one_nz.
Qed.
(** a sound model, and a call that meets the hypotheses: 3 is terminated to 5 *)
Example C44_example : sound h44 /\ check_sees one zer 9 h44 3 (NFrag 5) None /\ snd (tcall_run one zer h44 (TC 9 3 (NFrag 5) None None None true)) = FOk tt.
Proof.
  assert (LD : forall i j, leads h44 i j -> (i = 2%nat /\ (j = 3%nat \/ j = 4%nat)) \/ (i = 5%nat /\ j = 6%nat)).
  { intros i j L. inversion L as [i0 f0 c H1 H2|i0 f0 k0 t0 j0 g H1 H2 H3 H4 H5 H6|i0 f0 k0 t0 j0 g n tp0 H1 H2 H3 H4 H5 H6 H7]; subst;
    (destruct i as [|[|[|[|[|[|[|i]]]]]]]; cbn in H1; try discriminate; injection H1 as <-; cbn in H2; try (destruct H2 as [H2|[]]; injection H2 as <- <-; cbn in H3; try discriminate; injection H3 as <-; contradiction));
    intuition auto. }
  split; [|split].
  - split; [|split; [|split]].
    + intros k. exists 2%nat. destruct k as [|[|[|[|[|[|[|k]]]]]]]; vm_compute; discriminate.
    + intros i. constructor. intros j L. apply LD in L. constructor. intros k L'. apply LD in L'. lia.
    + intros p f c g HP JC HC. destruct p as [|[|[|[|[|[|[|p]]]]]]]; cbn in HP; try discriminate; injection HP as <-; cbn in JC; try contradiction; destruct JC as [<-|JC]; try (cbn in HC; injection HC as <-; reflexivity);
        try contradiction; destruct JC as [<-|[]]; cbn in HC; injection HC as <-; reflexivity.
    + intros j g HJ. destruct j as [|[|[|[|[|[|[|j]]]]]]]; cbn in HJ; try discriminate; injection HJ as <-; discriminate.
  - intros j E NE. injection E as <-. split; [eexists; split; reflexivity|]. intros tp ffs [n T] _ R. exfalso.
    assert (TP : tp = 2%nat) by (destruct n as [|[|n]]; [discriminate|discriminate|]; cbn in T; congruence). subst tp.
    inversion R as [|? j1 ? L R1]; subst. apply LD in L as [[L _]|[_ ->]]; [discriminate|]. inversion R1 as [|? j2 ? L2 R2]; subst. apply LD in L2. lia.
  - vm_compute. reflexivity.
Qed.

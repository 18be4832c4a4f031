(** Heaps that store the same fragments, up to the order of children and dictionary entries, have the same traversals. *)
From Verif Require Import Num Base PyStr ProcModel FragModel.
From Coq Require Import Permutation Lia.
Open Scope Qc_scope.
Open Scope string_scope.
Open Scope list_scope.
Local Arguments eqb : simpl never.

(** the same fragment: as sets, the same children; as maps, the same values and terminations *)
Record same_frag (f g : frag) : Prop := SF {
  sf_parent : f_parent g = f_parent f; sf_children : Permutation (f_children g) (f_children f); sf_flow : f_flow g = f_flow f; sf_dir : f_dir g = f_dir f;
  sf_bg : f_bg g = f_bg f; sf_bal : f_isbal g = f_isbal f; sf_cons : f_cons g = f_cons f;
  sf_evs : forall k, dget k (f_evs g) = dget k (f_evs f); sf_terms : forall k, dget k (f_terms g) = dget k (f_terms f) }.
Definition same_heap (h h' : heap) : Prop := forall i, match h i, h' i with Some f, Some g => same_frag f g | None, None => True | _, _ => False end.

Lemma insert_comm x y l : insert x (insert y l) = insert y (insert x l).
Proof.
  induction l as [|z l IH]; cbn.
  - destruct (Nat.leb_spec x y), (Nat.leb_spec y x); try reflexivity; try lia. assert (x = y) by lia. subst. reflexivity.
  - destruct (Nat.leb_spec y z), (Nat.leb_spec x z); cbn; destruct (Nat.leb_spec x y), (Nat.leb_spec y x); try lia;
      repeat (match goal with |- context [Nat.leb ?a ?b] => destruct (Nat.leb_spec a b); try lia end); try reflexivity; try (assert (x = y) by lia; subst; reflexivity).
    all: rewrite IH; reflexivity.
Qed.
Lemma same_child_flows f g : Permutation (f_children g) (f_children f) -> child_flows g = child_flows f.
Proof. unfold child_flows. induction 1; cbn; [reflexivity|congruence|apply insert_comm|congruence]. Qed.

Section Same.
Context (cf : nat -> nat -> Qc) (refq : nat -> nat) (h h' : heap) (SH : same_heap h h').

Lemma same_some i f : h i = Some f -> exists g, h' i = Some g /\ same_frag f g.
Proof. intros HI. specialize (SH i). rewrite HI in SH. destruct (h' i) as [g|]; [eauto|destruct SH]. Qed.
Lemma same_none i : h i = None -> h' i = None.
Proof. intros HI. specialize (SH i). rewrite HI in SH. destruct (h' i); [destruct SH|reflexivity]. Qed.
Lemma same_din {V} k (d e : dict skey V) : (forall k, dget k e = dget k d) -> din k e = din k d.
Proof. intros E. unfold din. rewrite E. reflexivity. Qed.
Lemma same_match_ev f g sc : same_frag f g -> match_ev g sc = match_ev f sc.
Proof.
  intros S0. assert (D : forall k, din k (f_evs g) = din k (f_evs f)) by (intros k; unfold din; rewrite (sf_evs _ _ S0); reflexivity).
  unfold match_ev. destruct sc as [|k|ks]; [reflexivity|rewrite D; reflexivity|]. rewrite (filter_ext _ _ D). reflexivity.
Qed.
Lemma same_match_term f g sc : same_frag f g -> match_term g sc = match_term f sc.
Proof.
  intros S0. assert (D : forall k, din (Some k) (f_terms g) = din (Some k) (f_terms f)) by (intros k; unfold din; rewrite (sf_terms _ _ S0); reflexivity).
  unfold match_term. destruct sc as [|k|ks]; [reflexivity|rewrite D; reflexivity|]. rewrite (filter_ext _ _ D). reflexivity.
Qed.
Lemma same_ev_for f g m obs : same_frag f g -> ev_for g m obs = ev_for f m obs.
Proof. intros S0. unfold ev_for, observed_ev, cached_ev. rewrite !(sf_evs _ _ S0), (sf_parent _ _ S0). destruct m as [k|]; [rewrite (sf_evs _ _ S0)|]; reflexivity. Qed.
Lemma same_value f g sc obs : same_frag f g -> exchange_value g sc obs = exchange_value f sc obs.
Proof. intros S0. unfold exchange_value. rewrite (same_match_ev _ _ _ S0). destruct (match_ev f sc); [rewrite (same_ev_for _ _ _ _ S0)|]; reflexivity. Qed.
Lemma same_top n : forall i, top n h' i = top n h i.
Proof.
  induction n as [|n IH]; intros i; cbn; [reflexivity|]. destruct (h i) as [f|] eqn:HI; [|rewrite (same_none _ HI); reflexivity]. destruct (same_some _ _ HI) as (g & -> & S0). rewrite (sf_parent _ _ S0).
  destruct (f_parent f); [apply IH|reflexivity].
Qed.
Lemma same_balance f g : same_frag f g -> balance_flow h' g = balance_flow h f.
Proof.
  intros S0. unfold balance_flow. rewrite (sf_cons _ _ S0). destruct (f_cons f); [|reflexivity]. rewrite (same_child_flows _ _ (sf_children _ _ S0)).
  assert (E : forall c, match h' c with Some g => f_isbal g | None => false end = match h c with Some g => f_isbal g | None => false end).
  { intros c. destruct (h c) as [fc|] eqn:HC; [destruct (same_some _ _ HC) as (gc & -> & Sc); apply (sf_bal _ _ Sc)|rewrite (same_none _ HC); reflexivity]. }
  induction (child_flows f) as [|c l IH]; cbn; [reflexivity|]. rewrite E. destruct (match h c with Some g => f_isbal g | None => false end); [reflexivity|exact IH].
Qed.
Lemma same_conservation f g ev q : same_frag f g -> conservation cf h' g ev q = conservation cf h f ev q.
Proof. intros S0. unfold conservation. rewrite (sf_bal _ _ S0), (sf_flow _ _ S0), (sf_dir _ _ S0), (sf_cons _ _ S0), (same_balance _ _ S0). reflexivity. Qed.

Section Rec.
Context (rec rec' : rect) (R : forall c nw sn q b, rec' c nw sn q b = rec c nw sn q b).
Lemma same_fg_loop nw sn q cs : forall ffs st b, fg_loop rec' nw sn q cs ffs st b = fg_loop rec nw sn q cs ffs st b.
Proof. induction cs as [|c cs IH]; intros ffs st b; cbn; [reflexivity|]. rewrite R. destruct (rec c nw sn q None) as [[l cv]|[]]; try reflexivity; apply IH. Qed.
Lemma same_trav_fg sc obs i f g x sn : same_frag f g -> trav_fg cf rec' h' sc obs i g x sn = trav_fg cf rec h sc obs i f x sn.
Proof.
  intros S0. unfold trav_fg. rewrite (sf_parent _ _ S0), (same_value _ _ _ _ S0), (sf_cons _ _ S0), (sf_flow _ _ S0), (sf_dir _ _ S0), (same_child_flows _ _ (sf_children _ _ S0)).
  match goal with |- match ?a with FOk _ => _ | FErr _ => _ end = _ => destruct a as [s0|]; [|reflexivity] end. rewrite same_fg_loop.
  match goal with |- match ?a with FOk _ => _ | FErr _ => _ end = _ => destruct a as [[[ffs stock] [b|]]|]; [|reflexivity|reflexivity] end. rewrite R.
  destruct (h b) as [fb|] eqn:HB; [destruct (same_some _ _ HB) as (gb & -> & Sb); rewrite (sf_dir _ _ Sb); reflexivity|rewrite (same_none _ HB); reflexivity].
Qed.
Lemma same_sub_loop dn sn cs : forall ffs inv, sub_loop rec' h' dn sn cs ffs inv = sub_loop rec h dn sn cs ffs inv.
Proof.
  induction cs as [|c cs IH]; intros ffs inv; cbn; [reflexivity|]. destruct (h c) as [fc|] eqn:HC; [|rewrite (same_none _ HC); reflexivity]. destruct (same_some _ _ HC) as (gc & -> & Sc). rewrite (sf_flow _ _ Sc), (sf_dir _ _ Sc).
  destruct (find_flow (f_flow fc) inv); [|apply IH]. rewrite R. match goal with |- match ?a with FOk _ => _ | FErr _ => _ end = _ => destruct a as [[l cv]|]; [apply IH|reflexivity] end.
Qed.
Lemma same_unit_inventory n j : unit_inventory rec' n h' j = unit_inventory rec n h j.
Proof.
  unfold unit_inventory. rewrite same_top. destruct (top n h j) as [tp|]; [|reflexivity]. rewrite R. destruct (rec tp (Q2Qc 1) [] None None) as [[ffs cv]|]; [|reflexivity].
  destruct (h tp) as [f|] eqn:HT; [destruct (same_some _ _ HT) as (g & -> & S0); rewrite (sf_flow _ _ S0), (sf_dir _ _ S0)|rewrite (same_none _ HT)]; reflexivity.
Qed.
Lemma same_trav_sub n i f g x j sn : same_frag f g -> trav_sub rec' n h' i g x j sn = trav_sub rec n h i f x j sn.
Proof.
  intros S0. unfold trav_sub. destruct (h j) as [fj|] eqn:HJ; [|rewrite (same_none _ HJ); reflexivity]. destruct (same_some _ _ HJ) as (gj & -> & Sj). rewrite (sf_bg _ _ Sj), (sf_flow _ _ S0), (sf_dir _ _ S0), R.
  assert (DS : do_subfrag rec' n h' g x j = do_subfrag rec n h f x j) by (unfold do_subfrag; rewrite same_unit_inventory, (sf_dir _ _ S0); reflexivity).
  rewrite DS. destruct (do_subfrag rec n h f x j) as [[[ffs inv] dn]|]; [rewrite same_sub_loop, (same_child_flows _ _ (sf_children _ _ S0))|]; reflexivity.
Qed.
Lemma same_trav_node n sc obs i nw sn q b : trav_node cf refq rec' n h' sc obs i nw sn q b = trav_node cf refq rec n h sc obs i nw sn q b.
Proof.
  unfold trav_node. destruct (h i) as [f|] eqn:HI; [|rewrite (same_none _ HI); reflexivity]. destruct (same_some _ _ HI) as (g & -> & S0). cbv zeta.
  rewrite (sf_parent _ _ S0). destruct (_ && _); [reflexivity|]. rewrite (same_match_ev _ _ _ S0), (same_match_term _ _ _ S0).
  assert (E : match b with Some b => FOk b | None => match match_ev f sc with FErr e => FErr e | FOk m => FOk (ev_for g m obs) end end = match b with Some b => FOk b | None => match match_ev f sc with FErr e => FErr e | FOk m => FOk (ev_for f m obs) end end) by (destruct b; [reflexivity|]; destruct (match_ev f sc); [rewrite (same_ev_for _ _ _ _ S0)|]; reflexivity).
  rewrite E. clear E. match goal with |- match ?a with FOk _ => _ | FErr _ => _ end = _ => destruct a as [ev|]; [|reflexivity] end.
  destruct (match_term f sc) as [m|]; [|reflexivity]. rewrite (sf_terms _ _ S0 m). destruct (dget m (f_terms f)) as [t|]; [|reflexivity]. rewrite (sf_flow _ _ S0), (sf_dir _ _ S0), (sf_bg _ _ S0), (same_conservation _ _ _ _ S0).
  match goal with |- match ?a with FOk _ => _ | FErr _ => _ end = _ => destruct a as [w|]; [|reflexivity] end. destruct (conservation cf h f ev q) as [[cv kept]|]; [|reflexivity].
  destruct (_ || _); [reflexivity|]. destruct (t_node t) as [|pr|j]; [reflexivity|rewrite (same_trav_fg _ _ _ _ _ _ _ S0); reflexivity|]. rewrite (same_trav_fg _ _ _ _ _ _ _ S0), (same_trav_sub _ _ _ _ _ _ _ S0). reflexivity.
Qed.
End Rec.
Lemma same_trav n sc obs : forall i nw sn q b, trav cf refq n h' sc obs i nw sn q b = trav cf refq n h sc obs i nw sn q b.
Proof. induction n as [|n IH]; intros i nw sn q b; cbn [trav]; [reflexivity|]. apply same_trav_node. intros. apply IH. Qed.
Theorem same_traverse n sc obs i : traverse cf refq n h' sc obs i = traverse cf refq n h sc obs i.
Proof. unfold traverse. rewrite same_trav. reflexivity. Qed.
End Same.

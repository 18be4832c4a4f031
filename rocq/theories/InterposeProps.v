(** C86: interposing a node (model: EditModel.v, [interpose]). *)
From Verif Require Import Num Base PyStr ProcModel FragModel FragProofs FragProps FragProps4 FragProps5 ObserveProps EditModel EditProofs.
Open Scope Qc_scope.
Open Scope string_scope.
Open Scope list_scope.
Local Arguments eqb : simpl never.

Section Env.
Context (cf : nat -> nat -> Qc) (refq : nat -> nat).
Lemma interpose_ok fuel h a b f p pf h' : h a = Some f -> f_parent f = Some p -> h p = Some pf -> a <> p ->
  interpose cf refq fuel h a b = (h', FOk tt) -> exists h1 pf1 g, forked refq h h1 a b p f pf pf1 g /\ h b = None /\ b <> p /\ b <> a /\
    h' a = Some (with_parent (with_evs f new_evs) (Some b)) /\
    h' b = Some (with_children (with_terms g [(None, Tm (NFrag b) (f_flow f) (comp (f_dir f)) true)]) [a]) /\
    h' p = Some pf1 /\ forall j, j <> a -> j <> b -> j <> p -> h' j = h j.
Proof.
  intros HA FP HP NAP E. unfold interpose in E. apply hbind_ok in E as (h1 & [] & E1 & E). apply hbind_ok in E as (h2 & [] & E2 & E3).
  destruct (fork_ok cf refq _ _ _ _ _ _ _ _ HA FP HP NAP E1) as (HB & NBP & NBA & pf1 & g & F). exists h1, pf1, g. split; [exact F|]. split; [exact HB|]. split; [exact NBP|]. split; [exact NBA|].
  destruct (to_foreground_ok cf refq _ _ _ _ _ _ (fk_b _ _ _ _ _ _ _ _ _ _ F) E2) as (_ & _ & ->). destruct (fk_g _ _ _ _ _ _ _ _ _ _ F) as [e G].
  unfold set_parent in E3. rewrite (hset_other _ _ _ a) in E3 by congruence. rewrite (hset_other _ _ _ a) in E3 by congruence. rewrite (fk_a _ _ _ _ _ _ _ _ _ _ F) in E3. rewrite hset_same in E3.
  rewrite (hset_other _ a _ b) in E3 by congruence. rewrite hset_same in E3. injection E3 as <-. subst g. cbn.
  split; [rewrite hset_other by congruence; apply hset_same|]. split; [rewrite hset_same; reflexivity|].
  split.
  - rewrite !hset_other by congruence. exact (fk_p _ _ _ _ _ _ _ _ _ _ F).
  - intros j Na Nb Np. rewrite !hset_other by congruence. apply (fk_frame _ _ _ _ _ _ _ _ _ _ F); assumption.
Qed.
End Env.

(** [b] is a new node between [p] and [a]: its exchange values (for every scenario) are those [a] had, with [a]'s flow and direction; it is a foreground node
    with the one child [a]; [a] becomes its child, with exchange value 1; no other fragment than these and [p] changes.
    Missing: [p] loses the child [a] (see [C86_refuted_double_count]). *)
Theorem C86_takes_over_partial cf refq fuel h a b f p pf h' :
  h a = Some f -> f_parent f = Some p -> h p = Some pf -> a <> p ->
  interpose cf refq fuel h a b = (h', FOk tt) ->
  h b = None /\ (forall j, j <> a -> j <> b -> j <> p -> h' j = h j) /\
  (exists f', h' a = Some f' /\ f_parent f' = Some b /\ f_flow f' = f_flow f /\ f_dir f' = f_dir f /\ f_children f' = f_children f /\ f_terms f' = f_terms f /\
     forall sc, ordinary sc -> exchange_value f' sc false = FOk 1) /\
  (exists g, h' b = Some g /\ f_parent g = Some p /\ f_flow g = f_flow f /\ f_dir g = f_dir f /\ f_children g = [a] /\ f_bg g = false /\ f_isbal g = f_isbal f /\
     (forall sc, as_set sc = ScNone -> exists t, termination g sc = FOk t /\ t_node t = NFrag b /\ t_flow t = f_flow f) /\
     (f_isbal f = false -> values_ok f -> no_digit_keys f -> f_bg pf = false -> never_subfrag h p pf -> forall sc obs, ordinary sc -> exchange_value g sc obs = exchange_value f sc obs)) /\
  (exists pf1, h' p = Some pf1 /\ In b (f_children pf1) /\ f_flow pf1 = f_flow pf /\ f_evs pf1 = f_evs pf /\ f_parent pf1 = f_parent pf).
Proof.
  intros HA FP HP NAP E. destruct (interpose_ok cf refq _ _ _ _ _ _ _ _ HA FP HP NAP E) as (h1 & pf1 & g & F & HB & NBP & NBA & A & B & P & FR).
  split; [exact HB|]. split; [exact FR|]. split.
  - eexists. split; [exact A|]. cbn. repeat (split; [reflexivity|]). intros sc OS. unfold exchange_value.
    assert (M : match_ev (with_parent (with_evs f new_evs) (Some b)) sc = FOk None \/ exists e, sc = ScSet e /\ match_ev (with_parent (with_evs f new_evs) (Some b)) sc = FOk None).
    { assert (D : forall k, ordinary_key k -> din k new_evs = false). { intros k [K0' K1']. unfold din, new_evs. cbn. destruct (eqb_spec k K0); [contradiction|]. destruct (eqb_spec k K1); [contradiction|]. reflexivity. }
      destruct sc as [|k|ks]; cbn.
      - left. reflexivity.
      - left. cbn in OS. change (f_evs (with_parent (with_evs f new_evs) (Some b))) with new_evs. rewrite (D k OS). reflexivity.
      - left. cbn in OS. change (f_evs (with_parent (with_evs f new_evs) (Some b))) with new_evs. assert (FE : filter (fun k => din k new_evs) ks = []).
        { induction ks as [|k ks IH]; [reflexivity|]. cbn [filter]. rewrite (D k (OS k (or_introl eq_refl))). apply IH. intros k' J. apply OS. right. exact J. }
        rewrite FE. reflexivity. }
    destruct M as [->|(e & _ & ->)]; vm_compute; reflexivity.
  - destruct (fk_g _ _ _ _ _ _ _ _ _ _ F) as [e G]. split.
    + eexists. split; [exact B|]. rewrite G. cbn. repeat (split; [reflexivity|]). split.
      * intros sc AS. destruct sc as [|[]|]; try discriminate. eexists. split; [reflexivity|]. auto.
      * intros IB VO ND BG NS. rewrite G in F. assert (R := fk_values _ _ _ _ _ _ _ _ _ _ F IB VO ND BG NS). intros sc obs OS. rewrite <- (R sc obs OS). reflexivity.
    + exists pf1. destruct (fk_fields _ _ _ _ _ _ _ _ _ _ F) as (F1 & F2 & _ & _ & F5). split; [exact P|]. split; [|auto]. rewrite (fk_children _ _ _ _ _ _ _ _ _ _ F). apply In_set_add. auto.
Qed.
Print Assumptions C86_takes_over_partial.

(** Refutation for every tree: [a] stays a child of [p], now with exchange value 1 (0 if observed): wherever [p] is expanded in a traversal, there is an
    entry of [a] with the whole weight of [p]'s node (with 0), whatever the exchange value of [a] was; and one of [b] with the former amount of [a]. *)
Theorem C86_refuted_double_count cf refq fuel h a b f p pf h' : h a = Some f -> f_parent f = Some p -> h p = Some pf -> a <> p -> In a (f_children pf) -> f_isbal f = false ->
  interpose cf refq fuel h a b = (h', FOk tt) -> no_subfragments h' ScNone -> children_have_parents h' ->
  forall m obs i g l y, h' i = Some g -> traverse cf refq m h' ScNone obs i = FOk l -> In y l -> ff_ref y = Real p -> expanded h' p y ->
  (exists x, In x l /\ ff_ref x = Real a /\ ff_mag x = if obs then 0 else ff_nw y) /\
  (values_ok f -> no_digit_keys f -> f_bg pf = false -> never_subfrag h p pf -> exists ev x, exchange_value f ScNone obs = FOk ev /\ In x l /\ ff_ref x = Real b /\ ff_mag x = ff_nw y * ev).
Proof.
  intros HA FP HP NAP IA IB E NS CP m obs i g l y HI TR IY RY EX.
  destruct (interpose_ok cf refq _ _ _ _ _ _ _ _ HA FP HP NAP E) as (h1 & pf1 & gb & F & HB & NBP & NBA & A & B & P & FR).
  destruct (fk_g _ _ _ _ _ _ _ _ _ _ F) as [e G].
  assert (EV : exists ev, exchange_value g ScNone obs = FOk ev) by (cbn; eauto). destruct EV as [ev EV].
  destruct (C78_tree_amounts cf refq h' ScNone obs m i g ev l NS CP HI EV TR) as (x0 & rest & _ & _ & _ & _ & _ & ALL). split.
  - destruct (ALL y p pf1 a IY RY EX P) as (z & IZ & (fz & HZ & RZ & _) & MZ & _).
    + rewrite (fk_children _ _ _ _ _ _ _ _ _ _ F). apply In_set_add. auto.
    + intros f' HF. rewrite A in HF. injection HF as <-. exact IB.
    + exists z. split; [exact IZ|]. split; [exact RZ|]. rewrite (MZ _ (if obs then 0 else 1) A IB); [destruct obs; ring|]. destruct obs; vm_compute; reflexivity.
  - intros VO ND BG NSF. exists (if obs then num (observed_ev f) else cached_ev f). assert (R := fk_values _ _ _ _ _ _ _ _ _ _ F IB VO ND BG NSF ScNone obs I).
    destruct (ALL y p pf1 b IY RY EX P) as (z & IZ & (fz & HZ & RZ & _) & MZ & _).
    + rewrite (fk_children _ _ _ _ _ _ _ _ _ _ F). apply In_set_add. auto.
    + intros f' HF. rewrite B in HF. injection HF as <-. rewrite G. exact IB.
    + exists z. split; [reflexivity|]. split; [exact IZ|]. split; [exact RZ|]. apply (MZ _ _ B); [rewrite G; exact IB|]. rewrite G in R |- *. exact R.
Qed.
Print Assumptions C86_refuted_double_count.

(** Refutation for balance flows: interposing one always raises, and leaves a child of [p] that is not a usable fragment: [p] is never expanded again
    by a traversal that returns. *)
Theorem C86_refuted_balance cf refq fuel h a b f p pf t q : h a = Some f -> f_parent f = Some p -> h p = Some pf -> h b = None -> f_isbal f = true -> f_cons pf = Some q ->
  dget None (f_terms pf) = Some t -> t_node t <> NNull ->
  exists h', interpose cf refq fuel h a b = (h', FErr BalanceAlreadySet) /\ (exists pf1, h' p = Some pf1 /\ f_children pf1 = set_add b (f_children pf)) /\ h' b = None /\
    (no_subfragments h' ScNone -> children_have_parents h' -> forall m obs i g l y, h' i = Some g -> traverse cf refq m h' ScNone obs i = FOk l -> In y l -> ff_ref y = Real p -> ~ expanded h' p y).
Proof.
  intros HA FP HP HB IB CO DT NN. eexists. split.
  { unfold interpose, fork_fragment. rewrite HA, FP. unfold create_fragment. rewrite HB, HP, DT. unfold is_null. destruct (t_node t) eqn:TN; [contradiction| |];
    cbn [hbind]; rewrite HP, DT, IB, CO; cbn; reflexivity. }
  assert (NBP : b <> p) by congruence. split; [eexists; split; [apply hset_same|reflexivity]|]. split; [rewrite hset_other by exact NBP; exact HB|].
  intros NS CP m obs i g l y HI TR IY RY EX. assert (EV : exists ev, exchange_value g ScNone obs = FOk ev) by (cbn; eauto). destruct EV as [ev EV].
  destruct (C78_tree_amounts cf refq _ ScNone obs m i g ev l NS CP HI EV TR) as (x0 & rest & _ & _ & _ & _ & _ & ALL).
  destruct (ALL y p _ b IY RY EX (hset_same _ _ _)) as (z & IZ & (fz & HZ & _) & _).
  - cbn. apply In_set_add. auto.
  - intros f' HF. rewrite hset_other in HF by exact NBP. congruence.
  - rewrite hset_other in HZ by exact NBP. congruence.
Qed.
Print Assumptions C86_refuted_balance.

(** Examples: reference 1, child 2 (3 per 1) with child 4 (5 per 2). *)
Definition h86 (bal : bool) : heap := fun i => match i with
  | 1%nat => Some (Fr None [2]%nat 10 Output false false (if bal then Some 0%nat else None) (evs2 1 1) [(None, Tm (NFrag 1) 10 Input true)])
  | 2%nat => Some (Fr (Some 1%nat) [4]%nat 11 Input false bal None (evs2 3 2) [(None, Tm (NFrag 2) 11 Output true)])
  | 4%nat => Some (Fr (Some 2%nat) [] 12 Input false false None (evs2 5 5) [(None, null_term 12 Input)])
  | _ => None end.
Definition rows (r : fret (list ffl)) : option (list (fref * Q)) := match r with FOk l => Some (map (fun x => (ff_ref x, this (ff_mag x))) l) | FErr _ => None end.
Example C86_example : exists h', interpose one2 zer2 9 (h86 false) 2 3 = (h', FOk tt) /\
  rows (traverse one2 zer2 9 (h86 false) ScNone false 1) = Some [(Real 1, 1%Q); (Real 2, 3%Q); (Real 4, 15%Q)] /\
  rows (traverse one2 zer2 9 h' ScNone false 1) = Some [(Real 1, 1%Q); (Real 2, 1%Q); (Real 4, 5%Q); (Real 3, 3%Q); (Real 2, 3%Q); (Real 4, 15%Q)] /\
  rows (traverse one2 zer2 9 (h86 false) ScNone true 1) = Some [(Real 1, 1%Q); (Real 2, 2%Q); (Real 4, 10%Q)] /\
  rows (traverse one2 zer2 9 h' ScNone true 1) = Some [(Real 1, 1%Q); (Real 2, 0%Q); (Real 3, 2%Q); (Real 2, 0%Q)].
Proof. eexists. repeat split; vm_compute; reflexivity. Qed.
Example C86_hypotheses : let f := Fr (Some 1%nat) [4]%nat 11 Input false false None (evs2 3 2) [(None, Tm (NFrag 2) 11 Output true)] in
  h86 false 2%nat = Some f /\ values_ok f /\ no_digit_keys f /\ (exists pf, h86 false 1%nat = Some pf /\ never_subfrag (h86 false) 1%nat pf /\ In 2%nat (f_children pf)).
Proof.
  cbn. split; [reflexivity|]. split.
  - split; eexists; [split; [reflexivity|]|reflexivity]. intros Z. apply (f_equal this) in Z. vm_compute in Z. discriminate.
  - split; [split; reflexivity|]. eexists. split; [reflexivity|]. split; [|left; reflexivity]. intros k t [[= <- <-]|[]]. reflexivity.
Qed.
Example C86_balance_example : exists h', interpose one2 zer2 9 (h86 true) 2 3 = (h', FErr BalanceAlreadySet) /\
  (exists l, traverse one2 zer2 9 (h86 true) ScNone false 1 = FOk l) /\ traverse one2 zer2 9 h' ScNone false 1 = FErr FAttributeError.
Proof. eexists. split; [vm_compute; reflexivity|]. split; [eexists|]; vm_compute; reflexivity. Qed.

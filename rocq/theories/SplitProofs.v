(** Proofs for C87: traversals before and after [split_subfragment] (model: EditModel.v). *)
From Verif Require Import Num Base PyStr ProcModel FragModel FragProofs FragProps FragProps4 FragProps5 ObserveProps EditModel EditProofs TravSim.
From Coq Require Import Permutation Lia.
Open Scope Qc_scope.
Open Scope string_scope.
Open Scope list_scope.
Local Arguments eqb : simpl never.

(** * Nodes of a closed set on which two heaps agree *)
Section Agree.
Context (cf : nat -> nat -> Qc) (refq : nat -> nat) (h h' : heap) (sc : scen) (obs : bool) (C : nat -> Prop).
Hypothesis CC : forall c g d, C c -> h c = Some g -> In d (f_children g) -> C d.
Hypothesis CE : forall c, C c -> h' c = h c.
Hypothesis CP : forall c g, C c -> h c = Some g -> f_parent g <> None.
Hypothesis NS : forall c, C c -> own_node h sc c.
Definition agree_on (r r' : rect) : Prop := forall c, C c -> forall nw seen seen' q bal, r c nw seen q bal = r' c nw seen' q bal.
Lemma fg_loop_agree r r' nw seen seen' q cs : agree_on r r' -> (forall c, In c cs -> C c) -> forall ffs st b, fg_loop r nw seen q cs ffs st b = fg_loop r' nw seen' q cs ffs st b.
Proof.
  intros A. induction cs as [|c cs IH]; intros IN ffs st b; cbn; [reflexivity|]. rewrite (A c (IN c (or_introl eq_refl)) nw seen seen' q None).
  assert (IN' : forall c, In c cs -> C c) by (intros d D; apply IN; right; exact D). destruct (r' c nw seen' q None) as [[l cv]|e]; [apply IH, IN'|]. destruct e; try reflexivity. apply IH, IN'.
Qed.
(** a node whose record is the same but for its parent and values, all of whose children are in [C] *)
Lemma trav_fg_agree r r' i f f' x seen seen' : agree_on r r' -> (forall c, In c (f_children f) -> C c) ->
  f_cons f' = f_cons f -> f_flow f' = f_flow f -> f_dir f' = f_dir f -> f_children f' = f_children f ->
  (is_fg i (ff_term x) = true -> match f_parent f with None => exchange_value f sc obs | Some _ => FOk 1 end = match f_parent f' with None => exchange_value f' sc obs | Some _ => FOk 1 end) ->
  trav_fg cf r h sc obs i f x seen = trav_fg cf r' h' sc obs i f' x seen'.
Proof.
  intros A IN E1 E2 E3 E4 EV. unfold trav_fg. change (Q2Qc 1) with 1. rewrite E1, E2, E3. unfold child_flows. rewrite E4. fold (child_flows f).
  assert (S0 : (if is_fg i (ff_term x) then match f_parent f with None => exchange_value f sc obs | Some _ => FOk 1 end else FOk 1)
             = (if is_fg i (ff_term x) then match f_parent f' with None => exchange_value f' sc obs | Some _ => FOk 1 end else FOk 1)) by (destruct (is_fg i (ff_term x)); [apply EV; reflexivity|reflexivity]).
  rewrite S0. match type of S0 with _ = ?z => clear S0; destruct z as [s0|]; [|reflexivity] end.
  assert (IN' : forall c, In c (child_flows f) -> C c) by (intros c J; apply IN, In_child_flows, J).
  rewrite (fg_loop_agree r r' (ff_nw x) seen seen' (f_cons f) (child_flows f) A IN'). destruct (fg_loop r' _ _ _ _ _ _ _) as [[[ffs st] [b|]]|e] eqn:L; try reflexivity.
  destruct (fg_loop_from _ _ _ _ _ _ _ _ _ _ _ L b eq_refl) as [X|J]; [discriminate|]. rewrite (CE b (IN' b J)). rewrite (A b (IN' b J) _ seen seen'). reflexivity.
Qed.
Lemma balance_agree f f' : (forall c, In c (f_children f) -> C c) -> f_cons f' = f_cons f -> f_children f' = f_children f -> balance_flow h' f' = balance_flow h f.
Proof.
  intros IN E1 E2. unfold balance_flow. rewrite E1. unfold child_flows. rewrite E2. fold (child_flows f). destruct (f_cons f); [|reflexivity].
  rewrite (filter_ext_in _ (fun c => match h c with Some g => f_isbal g | None => false end)); [reflexivity|]. intros c J. rewrite (CE c); [reflexivity|]. apply IN, In_child_flows, J.
Qed.
Lemma trav_agree n : agree_on (trav cf refq n h sc obs) (trav cf refq n h' sc obs).
Proof.
  induction n as [|n IH]; intros c CCc nw seen seen' q bal; [reflexivity|]. cbn [trav]. unfold trav_node. rewrite (CE c CCc). destruct (h c) as [g|] eqn:HC; [|reflexivity].
  assert (P := CP c g CCc HC). destruct (f_parent g) as [p|] eqn:FP; [|contradiction P; reflexivity]. cbn [andb].
  destruct (match bal with Some b => FOk b | None => _ end) as [ev|]; [|reflexivity]. destruct (match_term g sc) as [m|] eqn:MT; [|reflexivity]. destruct (dget m (f_terms g)) as [t|] eqn:DT; [|reflexivity].
  cbv zeta. destruct (if is_null t then _ else _) as [w|]; [|reflexivity].
  assert (IN : forall d, In d (f_children g) -> C d) by (intros d D; exact (CC c g d CCc HC D)).
  assert (CO : conservation cf h' g ev q = conservation cf h g ev q) by (unfold conservation; rewrite (balance_agree g g IN eq_refl eq_refl); reflexivity). rewrite CO.
  destruct (conservation cf h g ev q) as [[cv kept]|]; [|reflexivity]. destruct (is_null t || f_bg g || eqb (nw * ev) (Q2Qc 0)); [reflexivity|].
  destruct (t_node t) as [|pr|j] eqn:TN; [reflexivity| |].
  - erewrite (trav_fg_agree _ _ c g g _ seen seen' IH IN); reflexivity.
  - assert (TT : termination g sc = FOk t) by (unfold termination; rewrite MT, DT; reflexivity). rewrite (NS c CCc g t j HC TT TN), Nat.eqb_refl. erewrite (trav_fg_agree _ _ c g g _ seen seen' IH IN); reflexivity.
Qed.
(** every entry is that of a node of the set *)
Definition own_of (x : ffl) : Prop := exists j g, C j /\ h j = Some g /\ ff_ref x = Real j /\ ff_flow x = f_flow g /\ termination g sc = FOk (ff_term x).
Lemma fg_run_within rec i f x seen l : (forall c nw seen q bal l cv, C c -> rec c nw seen q bal = FOk (l, cv) -> Forall own_of l) -> (forall c, In c (f_children f) -> C c) ->
  fg_run cf h sc obs rec i f x seen l -> exists rest, l = x :: rest /\ Forall own_of rest.
Proof.
  intros IH IN (s & _ & F & E). cbv zeta in E. assert (EN : forall cs, (forall c, In c cs -> C c) -> Forall own_of (flat_map (ent rec (ff_nw x) seen (f_cons f)) cs)).
  { induction cs as [|c cs IHc]; intros INc; cbn; [constructor|]. apply Forall_app. split; [|apply IHc; intros d D; apply INc; right; exact D].
    unfold ent, out. destruct (rec c _ _ _ _) as [[l0 cv]|] eqn:R; [|constructor]. eapply IH; [apply INc; left; reflexivity|exact R]. }
  assert (IN' : forall c, In c (child_flows f) -> C c) by (intros c J; apply IN, In_child_flows, J).
  destruct (lastof (filter (sig rec (ff_nw x) seen (f_cons f)) (child_flows f)) None) as [b|] eqn:LB.
  - destruct E as (lb & cvb & R & ->). eexists. split; [reflexivity|]. apply Forall_app. split; [apply EN, IN'|]. eapply IH; [|exact R].
    unfold lastof in LB. destruct (rev (filter _ _)) as [|b' r] eqn:RV; [discriminate|]. injection LB as ->. apply IN'. assert (J : In b (rev (filter (sig rec (ff_nw x) seen (f_cons f)) (child_flows f)))) by (rewrite RV; left; reflexivity).
    apply in_rev in J. apply filter_In in J. apply J.
  - eexists. split; [exact E|]. apply EN, IN'.
Qed.
Lemma trav_within n c nw seen q bal l cv : C c -> trav cf refq n h sc obs c nw seen q bal = FOk (l, cv) -> Forall own_of l.
Proof.
  revert c nw seen q bal l cv. induction n as [|n IH]; intros c nw seen q bal l cv CCc E; [discriminate|]. cbn [trav] in E. apply trav_node_run in E; [|apply NS, CCc].
  destruct E as (f & ev & t & w & kept & HI & _ & _ & TT & _ & _ & X). cbv zeta in X.
  assert (OX : own_of (FF (Real c) (f_flow f) (f_dir f) (nw * ev) w t kept [])) by (exists c, f; auto). destruct (_ || _ || _); [rewrite X; auto|].
  apply fg_run_within in X as (rest & -> & F); [constructor; auto|exact IH|]. intros d D. exact (CC c f d CCc HI D).
Qed.
End Agree.

(** * What [split_subfragment] does to the heap *)
(** [a] is above [j]: some number of steps from parent to parent *)
Definition above (h : heap) (a j : nat) : Prop := exists k, forall m, top (k + m) h j = top m h a.
Lemma above_refl h a : above h a a.
Proof. exists 0%nat. reflexivity. Qed.
Lemma above_step h a j f p : h j = Some f -> f_parent f = Some p -> above h a p -> above h a j.
Proof. intros HJ FP [k K]. exists (S k). intros m. cbn. rewrite HJ, FP. apply K. Qed.
Lemma above_cycle h a f p : rooted h -> h a = Some f -> f_parent f = Some p -> above h a p -> False.
Proof.
  intros RO HA FP [k K]. assert (Z : forall t, top (t * (k + 1)) h p = FErr FRecursion).
  { induction t as [|t IH]; [reflexivity|]. replace (S t * (k + 1))%nat with (k + S (t * (k + 1)))%nat by lia. rewrite K. cbn [top]. rewrite HA, FP. exact IH. }
  destruct (RO p) as [n N]. apply N. assert (M := top_mono_le h n (n * (k + 1)) p ltac:(nia) N). rewrite Z in M. symmetry. exact M.
Qed.
Lemma tree_above h a j : sound_links h -> in_tree h a j -> (exists g, h j = Some g) -> above h a j.
Proof.
  intros SL. assert (X : forall i k, in_tree h i k -> above h a i -> (exists g, h k = Some g) -> above h a k).
  { induction 1 as [i|i f c k HI C T IH]; intros A EX; [exact A|]. apply IH; [|exact EX]. assert (HC : exists g, h c = Some g) by (inversion T; subst; [exact EX|eauto]). destruct HC as [g HC].
    exact (above_step h a c g i HC (SL i f c g HI C HC) A). }
  intros T EX. exact (X a j T (above_refl h a) EX).
Qed.
(** parents exist *)
Definition parents_exist (h : heap) : Prop := forall j f p, h j = Some f -> f_parent f = Some p -> h p <> None.
Definition children_exist (h : heap) : Prop := forall j f c, h j = Some f -> In c (f_children f) -> h c <> None.

Section Split.
Context (cf : nat -> nat -> Qc) (refq : nat -> nat).
Record split_done (h h' : heap) (a b p : nat) (f pf g pf1 : frag) : Prop := SD {
  sd_a : h' a = Some (with_parent (with_evs f new_evs) None);
  sd_b : h' b = Some (with_terms g [(None, Tm (NFrag a) (f_flow f) (comp (f_dir f)) true)]);
  sd_p : h' p = Some (with_children pf1 (set_remove a (f_children pf1)));
  sd_frame : forall j, j <> a -> j <> b -> j <> p -> h' j = h j }.
Lemma split_ok fuel h a b f p pf h' : rooted h -> parents_exist h -> h a = Some f -> f_parent f = Some p -> h p = Some pf ->
  split_subfragment cf refq fuel h a b = (h', FOk tt) -> a <> p /\ h b = None /\ b <> p /\ b <> a /\ exists h1 pf1 g, forked refq h h1 a b p f pf pf1 g /\ split_done h h' a b p f pf g pf1 /\ In a (f_children pf).
Proof.
  intros RO PE HA FP HP E. assert (NAP : a <> p). { intros ->. exact (above_cycle h p f p RO HA FP (above_refl _ _)). } split; [exact NAP|].
  unfold split_subfragment in E. apply hbind_ok in E as (h1 & [] & E1 & E). apply hbind_ok in E as (h2 & [] & E2 & E3).
  destruct (fork_ok cf refq _ _ _ _ _ _ _ _ HA FP HP NAP E1) as (HB & NBP & NBA & pf1 & g & F). split; [exact HB|]. split; [exact NBP|]. split; [exact NBA|]. exists h1, pf1, g. split; [exact F|].
  unfold unset_parent in E2. rewrite (fk_a _ _ _ _ _ _ _ _ _ _ F) in E2. cbn [f_parent with_evs] in E2. rewrite FP in E2. rewrite (fk_p _ _ _ _ _ _ _ _ _ _ F) in E2.
  destruct (mem a (f_children pf1)) eqn:MA; [|discriminate]. rewrite hset_other in E2 by exact NAP. rewrite (fk_a _ _ _ _ _ _ _ _ _ _ F) in E2. injection E2 as <-.
  set (h2 := hset (hset h1 p (with_children pf1 (set_remove a (f_children pf1)))) a (with_parent (with_evs f new_evs) None)) in E3.
  assert (A2 : h2 a = Some (with_parent (with_evs f new_evs) None)) by apply hset_same.
  assert (B2 : h2 b = Some g) by (unfold h2; rewrite !hset_other by congruence; apply (fk_b _ _ _ _ _ _ _ _ _ _ F)).
  assert (P2 : h2 p = Some (with_children pf1 (set_remove a (f_children pf1)))) by (unfold h2; rewrite hset_other by congruence; apply hset_same).
  assert (FR2 : forall j, j <> a -> j <> b -> j <> p -> h2 j = h j) by (intros j N1 N2 N3; unfold h2; rewrite !hset_other by assumption; apply (fk_frame _ _ _ _ _ _ _ _ _ _ F); assumption).
  assert (INA : In a (f_children pf)). { apply mem_In in MA. rewrite (fk_children _ _ _ _ _ _ _ _ _ _ F) in MA. apply In_set_add in MA as [->|]; [congruence|assumption]. }
  split; [|exact INA]. unfold terminate in E3. rewrite B2 in E3. destruct (fk_g _ _ _ _ _ _ _ _ _ _ F) as [e G].
  assert (GT : f_terms g = [(None, null_term (f_flow f) (f_dir f))]) by (rewrite G; reflexivity). rewrite GT in E3. cbn [dget] in E3. change (eqb (@None skey) (@None skey)) with true in E3. cbn [negb is_null null_term t_node] in E3.
  destruct (Nat.eqb_spec a b); [congruence|]. destruct (top fuel h2 b) as [tp|] eqn:TP; [|discriminate].
  assert (NT : tp <> a).
  { intros ->. assert (X : forall n j, top n h2 j = FOk a -> j <> b -> (exists gj, h2 j = Some gj) -> above h a j).
    { intros m. induction m as [|m IH]; intros j T NB EX; [discriminate|]. cbn in T. destruct EX as [gj HJ]. rewrite HJ in T. destruct (Nat.eq_dec j a) as [->|NA]; [apply above_refl|].
      assert (HJ' : exists gj', h j = Some gj' /\ f_parent gj' = f_parent gj).
      { destruct (Nat.eq_dec j p) as [->|NP]; [|exists gj; split; [rewrite <- FR2 by assumption; exact HJ|reflexivity]]. exists pf. split; [exact HP|]. rewrite P2 in HJ. injection HJ as <-. cbn. symmetry. apply (fk_fields _ _ _ _ _ _ _ _ _ _ F). }
      destruct HJ' as (gj' & HJ' & PJ). destruct (f_parent gj) as [k|] eqn:PK; [|congruence]. assert (NK : h k <> None) by exact (PE j gj' k HJ' PJ).
      apply (above_step h a j gj' k HJ' PJ). apply IH; [exact T|congruence|]. destruct (Nat.eq_dec k a) as [->|]; [eauto|]. destruct (Nat.eq_dec k p) as [->|]; [eauto|]. assert (k <> b) by congruence. rewrite FR2 by assumption. destruct (h k); [eauto|congruence]. }
    apply (above_cycle h a f p RO HA FP). destruct fuel as [|fu]; [discriminate|]. cbn in TP. rewrite B2 in TP. rewrite G in TP. cbn in TP. apply (X fu p TP); [congruence|eauto]. }
  destruct (Nat.eqb_spec a tp); [congruence|]. destruct (traverse cf refq fuel h2 _ _ a) as [ffs|]; [|discriminate]. destruct (existsb _ _); [discriminate|]. injection E3 as <-. split.
  - rewrite hset_other by congruence. exact A2.
  - rewrite hset_same. do 2 f_equal. rewrite G. reflexivity.
  - rewrite hset_other by congruence. exact P2.
  - intros j N1 N2 N3. rewrite hset_other by exact N2. apply FR2; assumption.
Qed.
End Split.

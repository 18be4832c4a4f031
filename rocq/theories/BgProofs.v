(** Correctness of the Tarjan traversal of the background engine (BgModel.v). *)
From Verif Require Import Num Base ProcModel BgModel.
From Coq Require Import Relations Sorted.
Open Scope nat_scope.
Open Scope list_scope.

(** * Positions *)
Section Pos.
  Context {A : Type} `{EqB A}.
  Lemma pos_app_in (x : A) l m : In x l -> pos x (l ++ m) = pos x l.
  Proof. induction l as [|y l IH]; cbn; [tauto|]. destruct (eqb_spec x y); [auto|]. intros [E|I]; [congruence|]. rewrite IH; auto. Qed.
  Lemma pos_app_notin (x : A) l m : ~ In x l -> pos x (l ++ m) = length l + pos x m.
  Proof. induction l as [|y l IH]; cbn; [auto|]. intros N. destruct (eqb_spec x y); [exfalso; auto|]. rewrite IH; tauto. Qed.
  Lemma pos_lt (x : A) l : In x l -> pos x l < length l.
  Proof. induction l as [|y l IH]; cbn; [tauto|]. destruct (eqb_spec x y); [lia|]. intros [E|I]; [congruence|]. apply IH in I. lia. Qed.
  Lemma pos_inj (x y : A) l : In x l -> pos x l = pos y l -> x = y.
  Proof.
    induction l as [|z l IH]; cbn; [tauto|]. destruct (eqb_spec x z) as [->|N].
    - destruct (eqb_spec y z); [auto|discriminate].
    - intros [E|I]; [congruence|]. destruct (eqb_spec y z) as [->|]; [discriminate|]. intros E; injection E; auto.
  Qed.
  Lemma nth_pos (x : A) l : In x l -> nth_error l (pos x l) = Some x.
  Proof. induction l as [|y l IH]; cbn; [tauto|]. destruct (eqb_spec x y) as [->|]; [reflexivity|]. intros [E|I]; [congruence|auto]. Qed.
  Lemma pos_nth (x : A) l i : NoDup l -> nth_error l i = Some x -> pos x l = i.
  Proof.
    revert i. induction l as [|y l IH]; intros [|i] N E; cbn in *; try discriminate.
    - injection E as ->. rewrite eqb_refl; reflexivity.
    - inversion N as [|? ? N1 N2]; subst. destruct (eqb_spec x y) as [->|]; [exfalso; apply N1; eapply nth_error_In; eauto|]. f_equal. auto.
  Qed.
End Pos.

Section Tarjan.
Context (D : db) (strat : strategy).

(** * The static graph *)
(** how a flow without explicit termination is resolved, not looking at the emissions seen so far *)
Definition sres (f : nat) (d : dirn) : option nat :=
  match terminate D [] (RX f d None None false) strat with BOk o => o | BErr _ => None end.
Definition relevant (x : rex) : option Qc :=
  match r_val x with None => None | Some v => if eqb v (Q2Qc 0) then None else if r_isref x then None else Some v end.
Definition starget (x : rex) : option nat := match r_term x with Some p => Some p | None => sres (r_flow x) (r_dir x) end.
Definition target (x : rex) : option node :=
  match relevant x, starget x with
  | Some _, Some p => match db_ref D (r_flow x, p) with Some _ => Some (r_flow x, p) | None => None end
  | _, _ => None
  end.
Definition targets (xs : list rex) : list node := flat_map (fun x => match target x with Some v => [v] | None => [] end) xs.
Definition edge (u v : node) : Prop := In v (targets (db_inv D u)).
Definition reach : node -> node -> Prop := clos_refl_trans node edge.
Lemma reach_refl u : reach u u. Proof. apply rt_refl. Qed.
Lemma reach_edge u v : edge u v -> reach u v. Proof. apply rt_step. Qed.
Lemma reach_trans u v w : reach u v -> reach v w -> reach u w. Proof. intros; eapply rt_trans; eauto. Qed.
Lemma reach_closed (P : node -> Prop) : (forall u v, P u -> edge u v -> P v) -> forall u v, reach u v -> P u -> P v.
Proof. intros C u v R. induction R; eauto. Qed.

Lemma targets_app a b : targets (a ++ b) = targets a ++ targets b.
Proof. unfold targets. apply flat_map_app. Qed.

(** * Invariant *)
Definition labelled (s : est) (v : node) : Prop := dget v (e_scc_of s) <> None.
Record TI (G : list node) (s : est) : Prop := {
  ti_nd : NoDup (e_pf s);
  ti_ref : forall v, In v (e_pf s) -> db_ref D v <> None;
  ti_part : forall v, In v (e_pf s) <-> In v (e_stk s) \/ labelled s v;
  ti_disj : forall v, In v (e_stk s) -> ~ labelled s v;
  ti_sort : StronglySorted (fun x y => idx s y < idx s x) (e_stk s);
  ti_gray : incl G (e_stk s);
  ti_black : forall v w, In v (e_pf s) -> ~ In v G -> edge v w -> In w (e_pf s);
  ti_lcl : forall v w, labelled s v -> edge v w -> labelled s w;
  ti_comp : forall u v i, dget u (e_scc_of s) = Some i -> (dget v (e_scc_of s) = Some i <-> reach u v /\ reach v u);
  ti_root : forall v i, dget v (e_scc_of s) = Some i -> exists r, In r (e_pf s) /\ idx s r = i /\ dget r (e_scc_of s) = Some i;
  ti_stk : forall x y, In x (e_stk s) -> In y (e_stk s) -> idx s x <= idx s y -> reach x y;
  ti_back : forall y, In y (e_stk s) -> exists g, In g G /\ idx s g <= idx s y /\ reach y g;
  ti_sccs : forall i v, In v (scc s i) <-> dget v (e_scc_of s) = Some i;
  ti_snd : NoDup (dkeys (e_sccs s)) /\ forall i l, dget i (e_sccs s) = Some l -> NoDup l /\ l <> [];
  ti_ems : forall f d, In (f, d) (e_ems s) -> sres f d = None;
  ti_low : forall v, In v (e_pf s) <-> dget v (e_low s) <> None }.

Lemma TI_est0 : TI [] est0.
Proof.
  constructor; unfold labelled, scc; cbn [est0 e_pf e_stk e_sccs e_scc_of e_ems e_low dget dkeys map].
  - constructor.
  - intros v [].
  - intros v. cbn. split; [tauto|]. intros [[]|N]; congruence.
  - intros v [].
  - constructor.
  - intros x [].
  - intros v w [].
  - intros v w X. congruence.
  - intros; discriminate.
  - intros; discriminate.
  - intros x y [].
  - intros y [].
  - intros i v. cbn. split; [tauto|discriminate].
  - split; [constructor|discriminate].
  - intros f d [].
  - intros v. cbn. split; [tauto|congruence].
Qed.
(** only the graph part and the keys of the lowlinks matter *)
Definition same_graph (s s' : est) : Prop :=
  e_pf s' = e_pf s /\ e_stk s' = e_stk s /\ e_sccs s' = e_sccs s /\ e_scc_of s' = e_scc_of s.
Lemma TI_same G s s' : same_graph s s' -> (forall v, dget v (e_low s') <> None <-> dget v (e_low s) <> None) ->
  (forall f d, In (f, d) (e_ems s') -> sres f d = None) -> TI G s -> TI G s'.
Proof.
  intros [E1 [E2 [E3 E4]]] L M I. destruct I.
  constructor; unfold labelled, idx, scc in *; rewrite ?E1, ?E2, ?E3, ?E4; auto.
  intros v. rewrite L. auto.
Qed.
Lemma same_add_interior s u w v : same_graph s (add_interior s u w v) /\ e_low (add_interior s u w v) = e_low s /\ e_ems (add_interior s u w v) = e_ems s.
Proof. unfold add_interior, same_graph. destruct (eqb u w); cbn; auto 10. Qed.
Lemma same_set_low s u l : same_graph s (set_low s u l) /\ e_ems (set_low s u l) = e_ems s.
Proof. unfold set_low, same_graph; cbn; auto 10. Qed.
Lemma same_trans a b c : same_graph a b -> same_graph b c -> same_graph a c.
Proof. unfold same_graph. intros [A1 [A2 [A3 A4]]] [B1 [B2 [B3 B4]]]. repeat split; congruence. Qed.
Lemma idx_same s s' v : e_pf s' = e_pf s -> idx s' v = idx s v.
Proof. unfold idx. intros ->. reflexivity. Qed.

Lemma ti_stk_nd G s : TI G s -> NoDup (e_stk s).
Proof.
  intros I. pose proof (ti_sort G s I) as S. induction S as [|x l S IH F]; constructor; auto.
  intros J. rewrite Forall_forall in F. apply F in J. lia.
Qed.
Lemma ti_stk_pf G s v : TI G s -> In v (e_stk s) -> In v (e_pf s).
Proof. intros I J. apply (ti_part G s I). auto. Qed.
Lemma sorted_app {A} (R : A -> A -> Prop) l x m : StronglySorted R (l ++ x :: m) -> (forall y, In y l -> R y x) /\ (forall y, In y m -> R x y) /\ StronglySorted R m.
Proof.
  induction l as [|a l IH]; cbn; intros S; inversion S as [|? ? S1 F]; subst.
  - split; [tauto|]. split; [|exact S1]. rewrite Forall_forall in F. exact F.
  - destruct (IH S1) as [A1 [A2 A3]]. rewrite Forall_forall in F. split; [|auto]. intros y [<-|J]; auto. apply F. apply in_app_iff; cbn; auto.
Qed.

(** * label_scc *)
Definition getl (i : nat) (d : dict nat (list node)) : list node := match dget i d with Some l => l | None => [] end.
Lemma dset_absent (i : nat) (l : list node) d : dget i d = None -> dset i l d = d ++ [(i, l)].
Proof. induction d as [|[k x] d IH]; cbn [dget dset app]; auto. destruct (eqb_spec i k); [discriminate|]. intros E. rewrite IH; auto. Qed.
Lemma dset_last (i : nat) (l l0 : list node) d : dget i d = None -> dset i l (d ++ [(i, l0)]) = d ++ [(i, l)].
Proof. induction d as [|[k x] d IH]; cbn [dget dset app]; [rewrite eqb_refl; auto|]. destruct (eqb_spec i k); [discriminate|]. intros E. rewrite IH; auto. Qed.
Lemma label_scc_last i v stk : forall base l0 scc_of r, dget i base = None -> label_scc i v stk (base ++ [(i, l0)]) scc_of = Some r -> exists l, snd (fst r) = base ++ [(i, l)].
Proof.
  induction stk as [|u stk IH]; intros base l0 scc_of r N E; cbn [label_scc] in E; [discriminate|]. rewrite (dset_last i _ l0 base N) in E.
  destruct (eqb u v); [injection E as <-; cbn; eauto|]. eapply IH; eauto.
Qed.
Lemma label_scc_app i v stk sccs scc_of r : dget i sccs = None -> label_scc i v stk sccs scc_of = Some r -> exists l, snd (fst r) = sccs ++ [(i, l)].
Proof.
  intros N E. destruct stk as [|u stk]; cbn [label_scc] in E; [discriminate|]. rewrite (dset_absent i _ sccs N) in E.
  destruct (eqb u v); [injection E as <-; cbn; eauto|]. eapply label_scc_last; eauto.
Qed.
Lemma label_scc_spec i v ab : forall rest sccs scc_of, ~ In v ab ->
  exists sccs' scc_of', label_scc i v (ab ++ v :: rest) sccs scc_of = Some (rest, sccs', scc_of')
    /\ (forall x, dget x scc_of' = if mem x (ab ++ [v]) then Some i else dget x scc_of)
    /\ (forall j x, In x (getl j sccs') <-> (j = i /\ In x (ab ++ [v])) \/ In x (getl j sccs))
    /\ (NoDup (dkeys sccs) /\ (forall i l, dget i sccs = Some l -> NoDup l /\ l <> []) -> NoDup (dkeys sccs') /\ (forall i l, dget i sccs' = Some l -> NoDup l /\ l <> [])).
Proof.
  assert (ST : forall u sccs, let sccs1 := dset i (set_add u (getl i sccs)) sccs in
     (forall j x, In x (getl j sccs1) <-> (j = i /\ x = u) \/ In x (getl j sccs)) /\
     (NoDup (dkeys sccs) /\ (forall i l, dget i sccs = Some l -> NoDup l /\ l <> []) -> NoDup (dkeys sccs1) /\ (forall i l, dget i sccs1 = Some l -> NoDup l /\ l <> []))).
  { intros u sccs sccs1. split.
    - intros j x. unfold getl at 1. subst sccs1. rewrite dget_dset. destruct (eqb_spec j i) as [->|N].
      + rewrite In_set_add. fold (getl i sccs). tauto.
      + fold (getl j sccs). split; [auto|]. intros [[E _]|J]; [congruence|exact J].
    - intros [N1 N2]. split; [apply NoDup_dset; exact N1|]. intros j l. subst sccs1. rewrite dget_dset. destruct (eqb_spec j i) as [->|N]; [|apply N2].
      intros E; injection E as <-. split.
      + apply NoDup_set_add. unfold getl. destruct (dget i sccs) as [l|] eqn:Z; [apply (N2 _ _ Z)|constructor].
      + intros Z. assert (J : In u (set_add u (getl i sccs))) by (apply In_set_add; auto). rewrite Z in J. destruct J. }
  induction ab as [|a ab IH]; intros rest sccs scc_of N; cbn [app label_scc].
  - rewrite eqb_refl. fold (getl i sccs). do 2 eexists. split; [reflexivity|]. destruct (ST v sccs) as [S1 S2]. split; [|split; [|exact S2]].
    + intros x. rewrite dget_dset. cbn [mem]. destruct (eqb x v); reflexivity.
    + intros j x. rewrite S1. cbn [In]. split; [intros [[A B]|B]; auto|intros [[A [B|[]]]|B]; auto].
  - destruct (eqb_spec a v) as [->|NE]; [exfalso; apply N; cbn; auto|].
    fold (getl i sccs). destruct (ST a sccs) as [S1 S2].
    destruct (IH rest (dset i (set_add a (getl i sccs)) sccs) (dset a i scc_of)) as [sccs' [of' [L [P1 [P2 P3]]]]]; [intros J; apply N; cbn; auto|].
    exists sccs', of'. split; [exact L|]. split; [|split].
    + intros x. rewrite P1, dget_dset. cbn [mem]. destruct (mem x (ab ++ [v])); destruct (eqb x a); reflexivity.
    + intros j x. rewrite P2, S1. cbn [In]. split; [intros [[A B]|[[A B]|B]]; auto|intros [[A [B|B]]|B]; auto].
    + intros X. apply P3, S2, X.
Qed.

(** * One pass of the loop *)
Lemma terminate_ems s x p : (forall f d, In (f, d) (e_ems s) -> sres f d = None) ->
  terminate D (e_ems s) x strat = BOk p -> starget x = p.
Proof.
  intros M. unfold terminate, starget. destruct (r_term x); [congruence|].
  destruct (mem_spec (r_flow x, r_dir x) (e_ems s)) as [J|J].
  - intros E; injection E as <-. apply M; exact J.
  - intros E. unfold sres, terminate. cbn [r_term mem r_flow r_dir]. rewrite E. reflexivity.
Qed.
Lemma terminate_none_sres ems x : terminate D ems x strat = BOk None -> starget x = None -> sres (r_flow x) (r_dir x) = None.
Proof. unfold terminate, starget. destruct (r_term x); congruence. Qed.

Lemma handler_done i r s : handler i r = TDone s -> r = TDone s.
Proof. destruct r as [s'|s' e|]; cbn; auto. destruct e; auto. destruct (rm_children i (e_stk s') s') as [? [?|]]; discriminate. Qed.

Lemma tstep_cases visit u x s s' :
  (forall f d, In (f, d) (e_ems s) -> sres f d = None) -> (forall v, In v (e_pf s) -> db_ref D v <> None) ->
  tstep D strat visit u x s = TDone s' ->
  (target x = None /\ same_graph s s' /\ e_low s' = e_low s /\ (forall f d, In (f, d) (e_ems s') -> sres f d = None))
  \/ (exists i v, target x = Some i /\ relevant x = Some v /\
       ((In i (e_pf s) /\ In i (e_stk s) /\ s' = add_interior (set_low s u (idx s i)) u i (pval x v))
        \/ (In i (e_pf s) /\ ~ In i (e_stk s) /\ s' = add_interior s u i (pval x v))
        \/ (~ In i (e_pf s) /\ exists d s2, db_ref D i = Some d /\ visit i (create s i d) = TDone s2
             /\ s' = add_interior (set_low s2 u (lowl s2 i)) u i (pval x v)))).
Proof.
  intros M R. unfold tstep, target, relevant.
  assert (SG : same_graph s s) by (unfold same_graph; auto).
  destruct (r_val x) as [v|]; [|intros E; injection E as <-; left; auto].
  destruct (eqb v (Q2Qc 0)); [intros E; injection E as <-; left; auto|].
  destruct (r_isref x); [intros E; injection E as <-; left; auto|].
  destruct (terminate D (e_ems s) x strat) as [[p|]|e] eqn:T; [| |discriminate].
  - rewrite (terminate_ems s x _ M T). set (i := (r_flow x, p)).
    destruct (mem_spec i (e_pf s)) as [J|J].
    + intros E; injection E as <-. destruct (db_ref D i) eqn:DR; [|exfalso; eapply R; eauto].
      right. exists i, v. split; auto. split; auto. destruct (mem_spec i (e_stk s)); [left|right; left]; auto.
    + destruct (db_ref D i) as [d|] eqn:DR; [|intros E; injection E as <-; left; auto].
      destruct (handler i (visit i (create s i d))) as [s2| |] eqn:V; try discriminate. apply handler_done in V.
      intros E; injection E as <-. right. exists i, v. split; auto. split; auto. right; right. split; auto. exists d, s2. auto.
  - rewrite (terminate_ems s x _ M T). intros E; injection E as <-. left. split; auto. split; [|split; [reflexivity|]].
    + unfold same_graph, add_cutoff; auto.
    + cbn. intros f d J. apply In_set_add in J as [J|J]; [|auto]. injection J as -> ->.
      eapply terminate_none_sres; eauto. apply (terminate_ems s x _ M T).
Qed.

(** * Visiting a new product flow *)
Definition visit_post (G : list node) (u : node) (s s2 : est) : Prop :=
  TI G s2
  /\ (exists new, e_pf s2 = e_pf s ++ u :: new)
  /\ (exists above, e_stk s2 = above ++ e_stk s)
  /\ (forall v, In v (e_pf s) -> dget v (e_low s2) = dget v (e_low s))
  /\ ((forall v i, dget v (e_scc_of s) = Some i -> dget v (e_scc_of s2) = Some i) /\ exists ext, e_sccs s2 = e_sccs s ++ ext)
  /\ ((e_stk s2 = e_stk s /\ lowl s2 u = idx s2 u)
      \/ (lowl s2 u < idx s2 u /\ exists y, In y (e_stk s) /\ idx s2 y = lowl s2 u /\ reach u y))
  /\ (forall y z, In y (e_stk s2) -> ~ In y (e_stk s) -> In z (e_stk s) -> edge y z -> lowl s2 u <= idx s2 z).
Definition visit_ok (visit : node -> est -> tres) : Prop := forall G u s d s2,
  TI G s -> ~ In u (e_pf s) -> db_ref D u = Some d -> (forall y, In y (e_stk s) -> reach y u) ->
  visit u (create s u d) = TDone s2 -> visit_post G u s s2.

(** state inside the loop of [u], started from [s0], the targets [done] having been treated *)
Record LI (G : list node) (u : node) (s0 : est) (done : list node) (s : est) : Prop := {
  li_ti : TI (u :: G) s;
  li_pf : exists new, e_pf s = e_pf s0 ++ u :: new;
  li_low0 : forall v, In v (e_pf s0) -> dget v (e_low s) = dget v (e_low s0);
  li_scc0 : (forall v i, dget v (e_scc_of s0) = Some i -> dget v (e_scc_of s) = Some i) /\ exists ext, e_sccs s = e_sccs s0 ++ ext;
  li_done : forall w, In w done -> In w (e_pf s);
  li_le : lowl s u <= idx s u;
  li_att : lowl s u = idx s u \/ exists y, In y (e_stk s0) /\ idx s y = lowl s u /\ reach u y;
  li_stk : exists above, e_stk s = above ++ u :: e_stk s0;
  li_lb : forall y z, In y (e_stk s) -> y <> u -> ~ In y (e_stk s0) -> In z (e_stk s0) -> edge y z -> lowl s u <= idx s z;
  li_lbu : forall w, In w done -> In w (e_stk s0) -> lowl s u <= idx s w }.

Lemma lowl_set_low s u l v : dget u (e_low s) <> None -> lowl (set_low s u l) v = if eqb v u then Nat.min (lowl s u) l else lowl s v.
Proof.
  intros N. unfold lowl, set_low. cbn [e_low]. rewrite dget_dset. destruct (eqb_spec v u) as [->|]; [|reflexivity].
  destruct (dget u (e_low s)); [reflexivity|congruence].
Qed.
Lemma dget_set_low s u l v : v <> u -> dget v (e_low (set_low s u l)) = dget v (e_low s).
Proof. intros N. unfold set_low; cbn [e_low]. apply dget_dset_other; exact N. Qed.
Lemma set_low_dom s u l v : dget u (e_low s) <> None -> (dget v (e_low (set_low s u l)) <> None <-> dget v (e_low s) <> None).
Proof. intros N. unfold set_low; cbn [e_low]. rewrite dget_dset. destruct (eqb_spec v u) as [->|]; [|tauto]. split; congruence. Qed.

Lemma idx_ext s s' v new : e_pf s' = e_pf s ++ new -> In v (e_pf s) -> idx s' v = idx s v.
Proof. intros E J. unfold idx. rewrite E. apply pos_app_in; exact J. Qed.
Lemma idx_new s s' v new : e_pf s' = e_pf s ++ new -> ~ In v (e_pf s) -> length (e_pf s) <= idx s' v.
Proof. intros E J. unfold idx. rewrite E, pos_app_notin by exact J. lia. Qed.
Lemma idx_u s s' u new : e_pf s' = e_pf s ++ u :: new -> ~ In u (e_pf s) -> idx s' u = length (e_pf s).
Proof. intros E J. unfold idx. rewrite E, pos_app_notin by exact J. cbn [pos]. rewrite eqb_refl. lia. Qed.

Lemma TI_create G s u d : TI G s -> ~ In u (e_pf s) -> db_ref D u = Some d -> (forall y, In y (e_stk s) -> reach y u) -> TI (u :: G) (create s u d).
Proof.
  intros I N R RE.
  assert (PF : e_pf (create s u d) = e_pf s ++ [u]) by reflexivity.
  assert (IX : forall v, In v (e_pf s) -> idx (create s u d) v = idx s v) by (intros v J; apply (idx_ext s _ v [u] PF J)).
  assert (IU : idx (create s u d) u = length (e_pf s)) by (apply (idx_u s _ u [] PF N)).
  assert (LT : forall v, In v (e_pf s) -> idx s v < length (e_pf s)) by (intros v J; apply pos_lt; exact J).
  assert (SP : forall v, In v (e_stk s) -> In v (e_pf s)) by (intros v J; eapply ti_stk_pf; eauto).
  assert (NL : ~ labelled s u) by (intros L; apply N; apply (ti_part G s I); auto).
  constructor; cbn [e_pf e_stk e_sccs e_scc_of e_ems e_low create set_low].
  - apply NoDup_snoc; [apply (ti_nd G s I)|exact N].
  - intros v J. apply in_app_iff in J as [J|[<-|[]]]; [apply (ti_ref G s I); exact J|congruence].
  - intros v. rewrite in_app_iff, (ti_part G s I v). unfold labelled; cbn. tauto.
  - intros v [<-|J]; [exact NL|]. apply (ti_disj G s I v J).
  - constructor.
    + pose proof (ti_sort G s I) as S. induction S as [|x l S IH F]; constructor.
      * apply IH; [intros; apply RE; cbn; auto|intros; apply SP; cbn; auto].
      * rewrite Forall_forall in *. intros y J. rewrite !IX; [apply F; exact J| |]; apply SP; cbn; auto.
    + rewrite Forall_forall. intros y J. rewrite IU, IX by auto. auto.
  - intros g [<-|J]; cbn; auto. right. apply (ti_gray G s I); exact J.
  - intros v w J NG Ed. apply in_app_iff. left. apply in_app_iff in J as [J|[<-|[]]]; [|exfalso; apply NG; cbn; auto].
    eapply (ti_black G s I v w J); auto. intros X; apply NG; cbn; auto.
  - apply (ti_lcl G s I).
  - apply (ti_comp G s I).
  - intros v i L. destruct (ti_root G s I v i L) as [r [R1 [R2 R3]]]. exists r. split; [apply in_app_iff; auto|]. split; [rewrite IX; auto|exact R3].
  - intros x y [<-|Jx] [<-|Jy] LE.
    + apply reach_refl.
    + rewrite IU, IX in LE by auto. pose proof (LT y (SP y Jy)). lia.
    + apply RE; exact Jx.
    + rewrite !IX in LE by auto. apply (ti_stk G s I); auto.
  - intros y [<-|J].
    + exists u. split; [cbn; auto|]. split; [lia|apply reach_refl].
    + destruct (ti_back G s I y J) as [g [G1 [G2 G3]]]. exists g. split; [cbn; auto|]. split; [|exact G3].
      rewrite !IX; auto. apply SP. apply (ti_gray G s I); exact G1.
  - apply (ti_sccs G s I).
  - apply (ti_snd G s I).
  - apply (ti_ems G s I).
  - intros v. rewrite in_app_iff, dget_dset, (ti_low G s I v). cbn [In]. destruct (eqb_spec v u) as [->|].
    + split; [discriminate|auto].
    + split; [intros [X|[X|[]]]; [exact X|congruence]|auto].
Qed.
Lemma lowl_create s u d : dget u (e_low s) = None -> lowl (create s u d) u = length (e_pf s).
Proof. intros E. unfold lowl, create, set_low; cbn [e_low]. rewrite dget_dset_same, E. reflexivity. Qed.

Lemma LI_create G s u d : TI G s -> ~ In u (e_pf s) -> db_ref D u = Some d -> (forall y, In y (e_stk s) -> reach y u) -> LI G u s [] (create s u d).
Proof.
  intros I N R RE.
  assert (PF : e_pf (create s u d) = e_pf s ++ [u]) by reflexivity.
  assert (IU : idx (create s u d) u = length (e_pf s)) by (apply (idx_u s _ u [] PF N)).
  assert (LU : lowl (create s u d) u = length (e_pf s)).
  { apply lowl_create. destruct (dget u (e_low s)) eqn:E; auto. exfalso. apply N. apply (ti_low G s I). congruence. }
  constructor.
  - apply TI_create; auto.
  - exists []. exact PF.
  - intros v J. unfold create, set_low; cbn [e_low]. apply dget_dset_other. intros ->; auto.
  - split; auto. exists []. rewrite app_nil_r. reflexivity.
  - intros w [].
  - lia.
  - left. lia.
  - exists []. reflexivity.
  - intros y z J NE NS. cbn in J. destruct J as [<-|J]; [congruence|contradiction].
  - intros w [].
Qed.

(** facts about the stack inside the loop *)
Lemma LI_split G u s0 done s : LI G u s0 done s -> TI G s0 -> ~ In u (e_pf s0) ->
  (forall y, In y (e_stk s0) -> In y (e_stk s) /\ idx s y = idx s0 y /\ idx s y < idx s u)
  /\ (forall y, In y (e_stk s) -> idx s y < idx s u -> In y (e_stk s0))
  /\ In u (e_stk s)
  /\ (forall y, In y (e_stk s) -> reach y u)
  /\ idx s u = length (e_pf s0).
Proof.
  intros L I0 N. destruct (li_stk _ _ _ _ _ L) as [ab ST]. destruct (li_pf _ _ _ _ _ L) as [new PF].
  pose proof (li_ti _ _ _ _ _ L) as I. pose proof (ti_sort _ _ I) as S. rewrite ST in S. apply sorted_app in S as [S1 [S2 _]].
  assert (IU : idx s u = length (e_pf s0)) by (eapply idx_u; eauto).
  assert (A : forall y, In y (e_stk s0) -> In y (e_stk s) /\ idx s y = idx s0 y /\ idx s y < idx s u).
  { intros y J. split; [rewrite ST; apply in_app_iff; cbn; auto|]. split; [eapply idx_ext; eauto; eapply ti_stk_pf; eauto|]. apply S2; exact J. }
  assert (U : In u (e_stk s)) by (rewrite ST; apply in_app_iff; cbn; auto).
  split; [exact A|]. split; [|split; [exact U|split; [|exact IU]]].
  - intros y J LT. rewrite ST in J. apply in_app_iff in J as [J|[<-|J]]; [apply S1 in J; lia|lia|exact J].
  - intros y J. destruct (ti_back _ _ I y J) as [g [[<-|G1] [G2 G3]]]; [exact G3|].
    eapply reach_trans; [exact G3|]. assert (GS : In g (e_stk s0)) by (apply (ti_gray _ _ I0); exact G1).
    destruct (A g GS) as [A1 [A2 A3]]. apply (ti_stk _ _ I); auto. lia.
Qed.

Lemma LI_step visit G u s0 done x s s' :
  visit_ok visit -> TI G s0 -> ~ In u (e_pf s0) -> In x (db_inv D u) ->
  LI G u s0 done s -> tstep D strat visit u x s = TDone s' -> LI G u s0 (done ++ targets [x]) s'.
Proof.
  intros VO I0 N XI L T. pose proof (li_ti _ _ _ _ _ L) as I.
  destruct (LI_split _ _ _ _ _ L I0 N) as [SA [SB [SU [SR IU]]]].
  apply tstep_cases in T; [|apply (ti_ems _ _ I)|apply (ti_ref _ _ I)].
  destruct T as [[T [SG [SL SE]]]|[i [v [T [RV C]]]]].
  - (* nothing in the graph changes *)
    unfold targets; cbn [flat_map]. rewrite T, app_nil_r. destruct SG as [E1 [E2 [E3 E4]]].
    assert (LW : lowl s' u = lowl s u) by (unfold lowl; rewrite SL; reflexivity).
    destruct L. constructor; rewrite ?E1, ?E2, ?E3, ?E4, ?SL, ?LW; auto.
    + apply (TI_same _ s); auto; [unfold same_graph; auto|rewrite SL; tauto].
    + rewrite (idx_same s s') by exact E1. auto.
    + rewrite (idx_same s s') by exact E1. destruct li_att0 as [A|[y [A1 [A2 A3]]]]; [left; exact A|right; exists y]. rewrite (idx_same s s') by exact E1. auto.
    + intros y z. rewrite (idx_same s s') by exact E1. apply li_lb0.
    + intros w. rewrite (idx_same s s') by exact E1. auto.
  - assert (TX : targets [x] = [i]) by (unfold targets; cbn [flat_map]; rewrite T; reflexivity). rewrite TX.
    assert (ED : edge u i).
    { unfold edge, targets. apply in_flat_map. exists x. split; auto. rewrite T. cbn; auto. }
    assert (UL : dget u (e_low s) <> None) by (apply (ti_low _ _ I); eapply ti_stk_pf; eauto).
    destruct C as [[C1 [C2 ->]]|[[C1 [C2 ->]]|[C1 [d [s2 [DR [V ->]]]]]]].
    + (* on the stack *)
      set (s1 := set_low s u (idx s i)). destruct (same_add_interior s1 u i (pval x v)) as [SG2 [SL2 SE2]].
      destruct (same_set_low s u (idx s i)) as [SG1 SE1]. pose proof (same_trans _ _ _ SG1 SG2) as SG. destruct SG as [E1 [E2 [E3 E4]]].
      assert (LW : lowl (add_interior s1 u i (pval x v)) u = Nat.min (lowl s u) (idx s i)).
      { unfold lowl. rewrite SL2. fold (lowl s1 u). subst s1. rewrite lowl_set_low by exact UL. rewrite eqb_refl. reflexivity. }
      set (s' := add_interior s1 u i (pval x v)) in *.
      assert (IX : forall w, idx s' w = idx s w) by (intros; apply idx_same; exact E1).
      destruct L. constructor; rewrite ?E1, ?E2, ?E3, ?E4, ?LW, ?IX; auto.
      * apply (TI_same _ s); [unfold same_graph; auto| | |exact I].
        -- intros w. rewrite SL2. apply set_low_dom; exact UL.
        -- intros f d J. rewrite SE2 in J. apply (ti_ems _ _ I); exact J.
      * intros w J. rewrite SL2. rewrite <- li_low1 by exact J. apply dget_set_low. intros ->; auto.
      * intros w J. apply in_app_iff in J as [J|[<-|[]]]; auto.
      * lia.
      * destruct (Nat.le_gt_cases (lowl s u) (idx s i)) as [LE|GT].
        -- rewrite Nat.min_l by exact LE. destruct li_att0 as [A|[y [A1 [A2 A3]]]]; [left; exact A|right; exists y]. rewrite IX; auto.
        -- rewrite Nat.min_r by lia. right. exists i. split; [|split; [apply IX|apply reach_edge; exact ED]]. apply SB; auto. lia.
      * intros y z Jy NE NS Jz Ez. rewrite IX. specialize (li_lb0 y z Jy NE NS Jz Ez). lia.
      * intros w J Jw. rewrite IX. apply in_app_iff in J as [J|[<-|[]]]; [specialize (li_lbu0 w J Jw)|]; lia.
    + (* already labelled *)
      destruct (same_add_interior s u i (pval x v)) as [SG2 [SL2 SE2]]. destruct SG2 as [E1 [E2 [E3 E4]]].
      set (s' := add_interior s u i (pval x v)) in *.
      assert (IX : forall w, idx s' w = idx s w) by (intros; apply idx_same; exact E1).
      assert (LW : lowl s' u = lowl s u) by (unfold lowl; rewrite SL2; reflexivity).
      destruct L. constructor; rewrite ?E1, ?E2, ?E3, ?E4, ?LW, ?IX, ?SL2; auto.
      * apply (TI_same _ s); [unfold same_graph; auto|intros w; rewrite SL2; tauto| |exact I].
        intros f d J. rewrite SE2 in J. apply (ti_ems _ _ I); exact J.
      * intros w J. apply in_app_iff in J as [J|[<-|[]]]; auto.
      * destruct li_att0 as [A|[y [A1 [A2 A3]]]]; [left; exact A|right; exists y]. rewrite IX; auto.
      * intros y z. rewrite IX. apply li_lb0.
      * intros w J Jw. rewrite IX. apply in_app_iff in J as [J|[<-|[]]]; [auto|]. exfalso. apply C2. apply SA; exact Jw.
    + (* new *)
      assert (RI : forall y, In y (e_stk s) -> reach y i) by (intros y J; eapply reach_trans; [apply SR; exact J|apply reach_edge; exact ED]).
      destruct (VO (u :: G) i s d s2 I C1 DR RI V) as [J2 [[new2 PF2] [[ab2 ST2] [LW2 [SC2 [AT2 LB2]]]]]].
      assert (SSUB : forall y, In y (e_stk s) -> In y (e_stk s2)) by (intros y J; rewrite ST2; apply in_app_iff; auto).
      assert (SPF : forall y, In y (e_stk s) -> In y (e_pf s)) by (intros y J; eapply ti_stk_pf; eauto).
      assert (IX2 : forall w, In w (e_pf s) -> idx s2 w = idx s w) by (intros w J; eapply idx_ext; eauto).
      assert (UL2 : dget u (e_low s2) <> None) by (rewrite LW2; auto; apply SPF; exact SU).
      set (s1 := set_low s2 u (lowl s2 i)). destruct (same_add_interior s1 u i (pval x v)) as [SG2 [SL2 SE2]].
      destruct (same_set_low s2 u (lowl s2 i)) as [SG1 SE1]. pose proof (same_trans _ _ _ SG1 SG2) as SG. destruct SG as [E1 [E2 [E3 E4]]].
      assert (LU2 : lowl s2 u = lowl s u) by (unfold lowl; rewrite LW2; auto; apply SPF; exact SU).
      assert (LW : lowl (add_interior s1 u i (pval x v)) u = Nat.min (lowl s u) (lowl s2 i)).
      { unfold lowl at 1. rewrite SL2. fold (lowl s1 u). subst s1. rewrite lowl_set_low by exact UL2. rewrite eqb_refl, LU2. reflexivity. }
      set (s' := add_interior s1 u i (pval x v)) in *.
      assert (IX : forall w, idx s' w = idx s2 w) by (intros; apply idx_same; exact E1).
      assert (IXI : length (e_pf s) <= idx s2 i) by (eapply idx_new; eauto).
      assert (IUL : idx s u < length (e_pf s)) by (apply pos_lt; apply SPF; exact SU).
      assert (STK0 : forall y, In y (e_stk s0) -> idx s2 y = idx s y) by (intros y J; apply IX2, SPF, SA; exact J).
      destruct L. constructor; rewrite ?E1, ?E2, ?E3, ?E4, ?LW, ?IX; auto.
      * apply (TI_same _ s2); [unfold same_graph; auto| | |exact J2].
        -- intros w. rewrite SL2. apply set_low_dom; exact UL2.
        -- intros f d' J. rewrite SE2 in J. apply (ti_ems _ _ J2); exact J.
      * destruct li_pf0 as [new PF]. exists (new ++ i :: new2). rewrite PF2, PF, <- app_assoc. reflexivity.
      * intros w J. rewrite SL2. destruct li_pf0 as [new PF].
        unfold s1. rewrite dget_set_low by (intros ->; auto). rewrite LW2 by (rewrite PF; apply in_app_iff; auto). auto.
      * destruct li_scc1 as [S1 [e1 S2]]. destruct SC2 as [S3 [e2 S4]]. split; [auto|]. exists (e1 ++ e2). rewrite S4, S2, app_assoc. reflexivity.
      * intros w J. apply in_app_iff in J as [J|[<-|[]]].
        -- rewrite PF2. apply in_app_iff. auto.
        -- rewrite PF2. apply in_app_iff. cbn; auto.
      * rewrite (IX2 u) by (apply SPF; exact SU). lia.
      * rewrite (IX2 u) by (apply SPF; exact SU). destruct (Nat.le_gt_cases (lowl s u) (lowl s2 i)) as [LE|GT].
        -- rewrite Nat.min_l by exact LE. destruct li_att0 as [A|[y [A1 [A2 A3]]]]; [left; exact A|right; exists y]. rewrite IX, STK0; auto.
        -- rewrite Nat.min_r by lia. destruct AT2 as [[_ B]|[_ [y [A1 [A2 A3]]]]]; [lia|]. right. exists y. rewrite IX.
           split; [|split; [exact A2|eapply reach_trans; [apply reach_edge; exact ED|exact A3]]].
           apply SB; auto. rewrite <- (IX2 y) by (apply SPF; exact A1). lia.
      * destruct li_stk0 as [ab ST]. exists (ab2 ++ ab). rewrite ST2, ST, app_assoc. reflexivity.
      * intros y z Jy NE NS Jz Ez. rewrite IX, STK0 by exact Jz.
        destruct (mem_spec y (e_stk s)) as [M|M].
        -- specialize (li_lb0 y z M NE NS Jz Ez). lia.
        -- assert (Jz2 : In z (e_stk s)) by (apply SA; exact Jz). specialize (LB2 y z Jy M Jz2 Ez). rewrite (IX2 z) in LB2 by (apply SPF; exact Jz2). lia.
      * intros w J Jw. rewrite IX, STK0 by exact Jw. apply in_app_iff in J as [J|[<-|[]]].
        -- specialize (li_lbu0 w J Jw). lia.
        -- exfalso. apply C1. apply SPF. apply SA; exact Jw.
Qed.

Lemma LI_loop visit G u s0 : visit_ok visit -> TI G s0 -> ~ In u (e_pf s0) ->
  forall xs done s s', (forall x, In x xs -> In x (db_inv D u)) -> LI G u s0 done s ->
  tloop D strat visit u xs s = TDone s' -> LI G u s0 (done ++ targets xs) s'.
Proof.
  intros VO I0 N. induction xs as [|x xs IH]; intros done s s' S L T; cbn in T.
  - injection T as <-. cbn. rewrite app_nil_r. exact L.
  - destruct (tstep D strat visit u x s) as [s1| |] eqn:E; try discriminate.
    change (x :: xs) with ([x] ++ xs). rewrite targets_app, app_assoc. apply (IH _ s1); auto; [intros; apply S; cbn; auto|].
    eapply LI_step; eauto. apply S; cbn; auto.
Qed.

Lemma finish_ok G u s0 s s2 : TI G s0 -> ~ In u (e_pf s0) -> LI G u s0 (targets (db_inv D u)) s -> finish u s = TDone s2 -> visit_post G u s0 s2.
Proof.
  intros I0 N L F. pose proof (li_ti _ _ _ _ _ L) as I.
  destruct (LI_split _ _ _ _ _ L I0 N) as [SA [SB [SU [SR IU]]]].
  destruct (li_stk _ _ _ _ _ L) as [ab ST]. destruct (li_pf _ _ _ _ _ L) as [new PF].
  pose proof (ti_sort _ _ I) as SO. rewrite ST in SO. apply sorted_app in SO as [S1 [S2 S3]].
  assert (NAB : ~ In u ab) by (intros J; apply S1 in J; lia).
  assert (SPF : forall y, In y (e_stk s) -> In y (e_pf s)) by (intros y J; eapply ti_stk_pf; eauto).
  assert (NG : ~ In u G) by (intros J; apply N; eapply ti_stk_pf; eauto; apply (ti_gray _ _ I0); exact J).
  unfold finish in F. destruct (Nat.eqb_spec (lowl s u) (idx s u)) as [LE|LN].
  - (* a component *)
    rewrite ST in F. destruct (label_scc_spec (idx s u) u ab (e_stk s0) (e_sccs s) (e_scc_of s) NAB) as [sccs' [of' [LS [P1 [P2 P3]]]]].
    rewrite LS in F. injection F as <-.
    set (s2 := E (e_pf s) (e_low s) (e_stk s0) sccs' of' (e_ems s) (e_ev s) (e_int s) (e_cut s)).
    set (C := ab ++ [u]) in *.
    assert (CS : forall y, In y (e_stk s) <-> In y C \/ In y (e_stk s0)).
    { intros y. rewrite ST. unfold C. rewrite !in_app_iff. cbn. tauto. }
    assert (CD : forall y, In y C -> ~ In y (e_stk s0)).
    { intros y Jc Js. destruct (SA y Js) as [_ [_ LT]]. unfold C in Jc. apply in_app_iff in Jc as [Jc|[<-|[]]]; [apply S1 in Jc|]; lia. }
    assert (CL : forall y, In y C -> ~ labelled s y) by (intros y J; apply (ti_disj _ _ I); apply CS; auto).
    assert (CR : forall y, In y C -> reach y u /\ reach u y).
    { intros y J. assert (Js : In y (e_stk s)) by (apply CS; auto). split; [apply SR; exact Js|]. apply (ti_stk _ _ I); auto.
      unfold C in J. apply in_app_iff in J as [J|[<-|[]]]; [apply S1 in J|]; lia. }
    assert (LAB : forall y, labelled s2 y <-> In y C \/ labelled s y).
    { intros y. unfold labelled; cbn. rewrite P1. destruct (mem_spec y C); split; intros X; auto; try congruence. destruct X as [X|X]; [contradiction|exact X]. }
    assert (ROOT : forall v, dget v (e_scc_of s) <> Some (idx s u)).
    { intros v X. destruct (ti_root _ _ I v _ X) as [r [R1 [R2 R3]]]. assert (r = u) by (apply (pos_inj r u (e_pf s)); auto). subst r.
      apply (ti_disj _ _ I u SU). unfold labelled. congruence. }
    assert (CLOSED : forall v w, In v C \/ labelled s v -> edge v w -> In w C \/ labelled s w).
    { intros v w [J|J] Ed; [|right; eapply (ti_lcl _ _ I); eauto].
      assert (WP : In w (e_pf s)).
      { unfold C in J. apply in_app_iff in J as [J|[<-|[]]].
        - apply (ti_black _ _ I v w); auto; [apply SPF; rewrite ST; apply in_app_iff; auto|].
          intros [X|X]; [subst v; auto|]. apply (CD v); [unfold C; apply in_app_iff; auto|]. apply (ti_gray _ _ I0); exact X.
        - apply (li_done _ _ _ _ _ L). exact Ed. }
      apply (ti_part _ _ I) in WP as [WP|WP]; [|auto]. apply CS in WP as [WP|WP]; [auto|]. exfalso.
      destruct (SA w WP) as [_ [_ LT]]. unfold C in J. apply in_app_iff in J as [J|[<-|[]]].
      - assert (X : lowl s u <= idx s w).
        { apply (li_lb _ _ _ _ _ L v w); auto; [rewrite ST; apply in_app_iff; auto|intros ->; auto|].
          apply CD. unfold C; apply in_app_iff; auto. }
        lia.
      - pose proof (li_lbu _ _ _ _ _ L w Ed WP). lia. }
    assert (IX : forall w, idx s2 w = idx s w) by reflexivity.
    assert (T2 : TI G s2).
    { constructor; cbn [e_pf e_stk e_sccs e_scc_of e_ems e_low s2]; try (apply I).
      - intros v. rewrite LAB, (ti_part _ _ I v), CS. tauto.
      - intros v J X. apply LAB in X as [X|X]; [apply (CD v X J)|]. apply (ti_disj _ _ I v); auto. apply CS; auto.
      - exact S3.
      - apply (ti_gray _ _ I0).
      - intros v w J NGv Ed. destruct (eqb_spec v u) as [->|NE]; [apply (li_done _ _ _ _ _ L); exact Ed|].
        apply (ti_black _ _ I v w J); auto. intros [X|X]; [congruence|auto].
      - intros v w X Ed. apply LAB. apply LAB in X. eapply CLOSED; eauto.
      - intros a b i. rewrite !P1. destruct (mem_spec a C) as [Ma|Ma].
        + intros Ei; injection Ei as <-. destruct (mem_spec b C) as [Mb|Mb].
          * split; [intros _|auto]. destruct (CR a Ma) as [A1 A2]. destruct (CR b Mb) as [B1 B2]. split; eapply reach_trans; eauto.
          * split; [intros X; exfalso; apply (ROOT b); exact X|]. intros [R1 R2]. exfalso.
            assert (X : In b C \/ labelled s b) by (apply (reach_closed (fun z => In z C \/ labelled s z) CLOSED a b R1); auto).
            destruct X as [X|X]; [contradiction|]. apply (CL a Ma). apply (reach_closed (labelled s) (ti_lcl _ _ I) b a R2 X).
        + intros Ei. destruct (mem_spec b C) as [Mb|Mb]; [|apply (ti_comp _ _ I); exact Ei].
          split; [intros X; injection X as <-; exfalso; apply (ROOT a); exact Ei|]. intros [R1 R2]. exfalso. apply (CL b Mb).
          apply (reach_closed (labelled s) (ti_lcl _ _ I) a b R1). unfold labelled; congruence.
      - intros v i. rewrite P1. destruct (mem_spec v C) as [Mv|Mv].
        + intros Ei; injection Ei as <-. exists u. split; [apply SPF; exact SU|]. split; [reflexivity|]. rewrite P1.
          destruct (mem_spec u C) as [|X]; auto. exfalso; apply X. unfold C; apply in_app_iff; cbn; auto.
        + intros Ei. destruct (ti_root _ _ I v i Ei) as [r [R1 [R2 R3]]]. exists r. split; auto. split; auto. rewrite P1.
          destruct (mem_spec r C) as [X|]; auto. exfalso. apply (CL r X). unfold labelled; congruence.
      - intros a b Ja Jb. apply (ti_stk _ _ I); apply CS; auto.
      - intros y J. destruct (ti_back _ _ I0 y J) as [g [G1 [G2 G3]]]. exists g. split; auto. split; auto.
        rewrite !IX. destruct (SA y J) as [_ [Y _]]. destruct (SA g (ti_gray _ _ I0 g G1)) as [_ [Y2 _]]. lia.
      - intros i v. unfold scc; cbn. fold (getl i sccs'). rewrite P2, P1. pose proof (ti_sccs _ _ I i v) as Q. unfold scc in Q. fold (getl i (e_sccs s)) in Q. rewrite Q.
        destruct (mem_spec v C) as [Mv|Mv].
        + split; [intros [[-> _]|X]; [reflexivity|]|intros X; injection X as <-; auto]. exfalso. apply (CL v Mv). unfold labelled; congruence.
        + tauto.
      - apply P3. apply (ti_snd _ _ I). }
    split; [exact T2|]. split; [exists new; exact PF|]. split; [exists []; reflexivity|]. split; [apply (li_low0 _ _ _ _ _ L)|].
    split; [|split].
    + destruct (li_scc0 _ _ _ _ _ L) as [LS1 [ext LS2]]. split.
      2:{ assert (DN : dget (idx s u) (e_sccs s) = None).
          { destruct (dget (idx s u) (e_sccs s)) as [l|] eqn:Z; auto. exfalso. destruct (ti_snd _ _ I) as [_ SN]. destruct (SN _ _ Z) as [_ NE].
            destruct l as [|v l]; [congruence|]. apply (ROOT v). apply (ti_sccs _ _ I). unfold scc. rewrite Z. cbn; auto. }
          destruct (label_scc_app _ _ _ _ _ _ DN LS) as [l Z]. cbn in Z. exists (ext ++ [(idx s u, l)]). cbn. rewrite Z, LS2, app_assoc. reflexivity. }
      intros v i X. cbn. rewrite P1. pose proof (LS1 v i X) as Y. destruct (mem_spec v C) as [Mv|]; [|exact Y].
      exfalso. apply (CL v Mv). unfold labelled; congruence.
    + left. split; [reflexivity|exact LE].
    + intros y z Jy NJ. cbn in Jy. contradiction.
  - (* stays on the stack *)
    injection F as <-. pose proof (li_le _ _ _ _ _ L) as LL. assert (LT : lowl s u < idx s u) by lia.
    destruct (li_att _ _ _ _ _ L) as [A|[y0 [A1 [A2 A3]]]]; [lia|].
    assert (T2 : TI G s).
    { destruct I. constructor; auto.
      - intros g J. apply ti_gray0. cbn; auto.
      - intros v w J NGv Ed. destruct (eqb_spec v u) as [->|NE]; [apply (li_done _ _ _ _ _ L); exact Ed|].
        apply (ti_black0 v w J); auto. intros [X|X]; [congruence|auto].
      - intros y J. destruct (ti_back0 y J) as [g [[<-|G1] [G2 G3]]]; [|exists g; auto].
        destruct (ti_back _ _ I0 y0 A1) as [g' [B1 [B2 B3]]]. exists g'. split; auto.
        destruct (SA y0 A1) as [_ [Y1 Y2]]. destruct (SA g' (ti_gray _ _ I0 g' B1)) as [_ [Y3 _]]. split; [lia|].
        eapply reach_trans; [exact G3|]. eapply reach_trans; eauto. }
    split; [exact T2|]. split; [exists new; exact PF|]. split; [exists (ab ++ [u]); rewrite <- app_assoc; exact ST|]. split; [apply (li_low0 _ _ _ _ _ L)|].
    split; [apply (li_scc0 _ _ _ _ _ L)|]. split.
    + right. split; [exact LT|]. exists y0; auto.
    + intros y z Jy NJ Jz Ez. destruct (eqb_spec y u) as [->|NE]; [apply (li_lbu _ _ _ _ _ L); auto|].
      apply (li_lb _ _ _ _ _ L y z); auto.
Qed.

Theorem trav_ok n : visit_ok (trav D strat n).
Proof.
  induction n as [|n IH]; intros G u s d s2 I N DR RE T; [discriminate|]. cbn [trav] in T.
  destruct (tloop D strat (trav D strat n) u (db_inv D u) (create s u d)) as [s1| |] eqn:L; try discriminate.
  eapply finish_ok; eauto. change (targets (db_inv D u)) with ([] ++ targets (db_inv D u)).
  eapply LI_loop; eauto. apply LI_create; auto.
Qed.
End Tarjan.

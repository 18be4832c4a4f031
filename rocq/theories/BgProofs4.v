(** Histories of the background engine (BgModel.v): the invariant that every sequence of successful additions keeps. *)
From Verif Require Import Num Base ProcModel BgModel BgProofs BgProofs2 BgProofs3.
From Coq Require Import Relations Sorted Permutation.
Open Scope nat_scope.
Open Scope list_scope.

Section Hist.
Context (D : db) (strat : strategy).
Notation target := (target D strat). Notation edge := (edge D strat). Notation reach := (reach D strat).
Notation TI := (TI D strat). Notation Ints := (Ints D strat). Notation Cuts := (Cuts D strat). Notation Evs := (Evs D strat).

(** * One batch of additions *)
Definition batch (vs : list node) (s s2 : est) : Prop := TI [] s2 /\ exists new,
    e_pf s2 = e_pf s ++ new
    /\ (forall v, In v vs -> In v (e_pf s2))
    /\ (forall v, In v new -> exists r, In r vs /\ reach r v)
    /\ Permutation (e_int s2) (e_int s ++ flat_map Ints new)
    /\ Permutation (e_cut s2) (e_cut s ++ flat_map Cuts new)
    /\ (forall v, In v (e_pf s) -> dget v (e_ev s2) = dget v (e_ev s))
    /\ (forall v, In v new -> dget v (e_ev s2) = Evs v)
    /\ ((forall v i, dget v (e_scc_of s) = Some i -> dget v (e_scc_of s2) = Some i) /\ exists ext, e_sccs s2 = e_sccs s ++ ext)
    /\ (forall e, In e (e_ems s2) <-> In e (e_ems s) \/ In e (map cem (flat_map Cuts new)))
    /\ (NoDup (e_ems s) -> NoDup (e_ems s2)).

Lemma TI_stk_nil s : TI [] s -> e_stk s = [].
Proof.
  intros I. destruct (e_stk s) as [|y l] eqn:E; auto. destruct (ti_back _ _ _ _ I y) as [g [[] _]]. rewrite E; cbn; auto.
Qed.
Lemma TI_REF G s : TI G s -> REF D s.
Proof. intros I. split; [apply (ti_nd _ _ _ _ I)|apply (ti_ref _ _ _ _ I)]. Qed.

Lemma batch_refl s : TI [] s -> batch [] s s.
Proof. intros I. split; auto. exists []. cbn. rewrite !app_nil_r. intuition. exists []. rewrite app_nil_r; auto. Qed.
Lemma batch_trans vs ws s1 s2 s3 : batch vs s1 s2 -> batch ws s2 s3 -> batch (vs ++ ws) s1 s3.
Proof.
  intros [I2 [n1 [A1 [A2 [A3 [A4 [A5 [A6 [A7 [A8 [A9 A10]]]]]]]]]]] [I3 [n2 [B1 [B2 [B3 [B4 [B5 [B6 [B7 [B8 [B9 B10]]]]]]]]]]].
  split; auto. exists (n1 ++ n2). rewrite !flat_map_app.
  split; [rewrite B1, A1, app_assoc; reflexivity|].
  split; [intros v J; apply in_app_iff in J as [J|J]; auto; rewrite B1; apply in_app_iff; auto|].
  split; [intros v J; apply in_app_iff in J as [J|J]; [destruct (A3 v J) as [r [R1 R2]]|destruct (B3 v J) as [r [R1 R2]]]; exists r; rewrite in_app_iff; auto|].
  split; [rewrite B4, A4, <- app_assoc; reflexivity|]. split; [rewrite B5, A5, <- app_assoc; reflexivity|].
  split; [intros v J; rewrite B6; auto; rewrite A1; apply in_app_iff; auto|].
  split; [intros v J; apply in_app_iff in J as [J|J]; auto; rewrite B6; auto; rewrite A1; apply in_app_iff; auto|].
  split; [destruct A8 as [A8 [x1 A8']], B8 as [B8 [x2 B8']]; split; [auto|exists (x1 ++ x2); rewrite B8', A8', app_assoc; reflexivity]|]. split; [|auto]. intros e. rewrite B9, A9, map_app, in_app_iff. tauto.
Qed.

Lemma add_product_batch fuel s v s2 : TI [] s -> add_product D strat fuel s v = TDone s2 -> batch [v] s s2.
Proof.
  intros I. unfold add_product. destruct (mem_spec v (e_pf s)) as [J|J].
  - intros E; injection E as <-. split; auto. exists []. cbn. rewrite !app_nil_r. intuition; subst; auto. exists []. rewrite app_nil_r; auto.
  - destruct (db_ref D v) as [d|] eqn:DR; [|discriminate]. intros E. apply handler_done in E.
    assert (RE : forall y, In y (e_stk s) -> reach y v) by (rewrite (TI_stk_nil s I); intros y []).
    destruct (trav_ok D strat fuel [] v s d s2 I J DR RE E) as [T2 [_ [_ [_ [SC _]]]]].
    destruct (trav_acc D strat fuel v s d s2 (ti_ems _ _ _ _ I) (TI_REF _ _ I) J DR E) as [_ [_ [new [W1 [W2 [W3 [W4 [W5 [W6 [W7 W8]]]]]]]]]].
    split; auto. exists (v :: new). split; [exact W1|]. split; [intros x [<-|[]]; rewrite W1; apply in_app_iff; cbn; auto|].
    split; [|auto 10]. intros x [<-|X]; exists v; cbn; split; auto. apply reach_refl.
Qed.
Lemma add_products_batch fuel vs : forall s s2, TI [] s -> add_products D strat fuel s vs = TDone s2 -> batch vs s s2.
Proof.
  induction vs as [|v vs IH]; intros s s2 I E; cbn in E; [injection E as <-; apply batch_refl; auto|].
  destruct (add_product D strat fuel s v) as [s1| |] eqn:A; try discriminate. pose proof (add_product_batch _ _ _ _ I A) as B.
  change (v :: vs) with ([v] ++ vs). eapply batch_trans; [exact B|]. apply IH; auto. apply B.
Qed.

(** * Interior entries and edges *)
Lemma In_Ints u a w q : In (a, w, q) (Ints u) -> a = u /\ edge u w /\ w <> u.
Proof.
  unfold BgProofs2.Ints, ints. intros J. apply in_flat_map in J as [x [J1 J2]].
  destruct (BgProofs.target D strat x) as [i|] eqn:T; [|destruct J2]. destruct (relevant x) as [v|]; [|destruct J2].
  destruct (eqb_spec u i) as [->|N]; [destruct J2|]. destruct J2 as [E|[]]. injection E as <- <- <-. split; auto. split; auto.
  unfold BgProofs.edge, targets. apply in_flat_map. exists x. split; auto. rewrite T; cbn; auto.
Qed.
Lemma edge_Ints u w : edge u w -> w <> u -> exists q, In (u, w, q) (Ints u).
Proof.
  unfold BgProofs.edge, targets. intros J N. apply in_flat_map in J as [x [J1 J2]]. destruct (BgProofs.target D strat x) as [i|] eqn:T; [|destruct J2].
  destruct J2 as [->|[]]. assert (R : exists v, relevant x = Some v).
  { unfold BgProofs.target in T. destruct (relevant x) as [v|]; [eauto|discriminate]. }
  destruct R as [v R]. exists (pval x v). apply in_flat_map. exists x. split; auto. rewrite T, R. destruct (eqb_spec u w); [congruence|]. cbn; auto.
Qed.
Lemma Ints_parent u e : In e (Ints u) -> fst (fst e) = u.
Proof. destruct e as [[a w] q]. intros J. apply In_Ints in J. cbn. tauto. Qed.
Lemma Cuts_parent u e : In e (Cuts u) -> fst (fst e) = u.
Proof.
  unfold BgProofs2.Cuts, cuts. intros J. apply in_flat_map in J as [x [J1 J2]]. destruct (relevant x); [|destruct J2].
  destruct (starget D strat x); [destruct J2|]. destruct J2 as [<-|[]]. reflexivity.
Qed.

(** * The component graph *)
Definition evq (u : node) : Qc := match Evs u with Some x => x | None => Q2Qc 0 end.
(** an entry as it is sorted: divided by the net output of its column *)
Definition adj {B} (e : node * B * Qc) : node * B * Qc := (fst e, (snd e / evq (fst (fst e)))%Qc).
Definition is_bg (g : eng) (v : node) : Prop := In v (bg_list (g_st g) (g_cg g)).
Definition fgk (s : est) (c : cgraph) : list nat := filter (fun k => negb (is_bg_scc c k)) (dkeys (e_sccs s)).

Record CI (s : est) (c : cgraph) : Prop := {
  ci_e1 : forall u w, In u (e_pf s) -> edge u w -> w <> u -> exists a r, scc_id s u = Some a /\ scc_id s w = Some r /\ In (a, r) (c_edges c);
  ci_e2 : forall a r, In (a, r) (c_edges c) -> exists u w, edge u w /\ scc_id s u = Some a /\ scc_id s w = Some r;
  ci_down : forall a r, In a (c_down c) -> In (a, r) (c_edges c) -> In r (c_down c);
  ci_bg : forall b r, c_bg c = Some b -> In (b, r) (c_edges c) -> r = b \/ In r (c_down c);
  ci_nb : forall b, c_bg c = Some b -> ~ In b (c_down c) /\ exists m, 1 < m /\ largest (e_sccs s) 0 None = (m, Some b);
  ci_nobg : c_bg c = None -> c_down c = [] /\ fst (largest (e_sccs s) 0 None) <= 1;
  ci_dk : incl (c_down c) (dkeys (e_sccs s));
  ci_dn : NoDup (c_down c) }.

Record GI (g : eng) : Prop := {
  gi_ti : TI [] (g_st g);
  gi_inc : e_int (g_st g) = [] /\ e_cut (g_st g) = [];
  gi_ci : CI (g_st g) (g_cg g);
  gi_ord : Permutation (g_order g) (fgk (g_st g) (g_cg g));
  gi_topo : topo (g_cg g) (g_order g);
  gi_ev : forall v, In v (e_pf (g_st g)) -> dget v (e_ev (g_st g)) = Evs v;
  gi_int : Permutation (g_interior g ++ g_foreground g) (map adj (flat_map Ints (e_pf (g_st g))));
  gi_cut : Permutation (g_bgem g ++ g_cutoff g) (map adj (flat_map Cuts (e_pf (g_st g))));
  gi_emsnd : NoDup (e_ems (g_st g));
  gi_ems : forall e, In e (e_ems (g_st g)) <-> In e (map cem (flat_map Cuts (e_pf (g_st g))));
  gi_a : g_a g = None <-> c_bg (g_cg g) = None;
  gi_ab : g_a g = None -> g_b g = None /\ g_interior g = [] /\ g_bgem g = [] }.

Lemma GI_eng0 : GI eng0.
Proof.
  assert (X : forall A (x : A), In x [] <-> In x []) by tauto.
  constructor; cbn [eng0 g_st g_cg g_order g_interior g_foreground g_bgem g_cutoff g_a g_b est0 e_int e_cut e_pf flat_map map app c_bg e_ems e_ev]; auto; try tauto; try (constructor; fail).
  - apply TI_est0.
  - constructor; cbn; try tauto; try congruence; try (constructor; fail); try (intros ? []); try (intros ? ? []; fail); try discriminate.
    intros _. split; auto.
  - intros a k b E. destruct a; discriminate.
  - intros v [].
Qed.

(** components in the graph are ordered by reachability *)
Lemma scc_key s v i : TI [] s -> scc_id s v = Some i -> In i (dkeys (e_sccs s)).
Proof.
  intros I E. apply (ti_sccs _ _ _ _ I) in E. unfold scc in E. destruct (dget i (e_sccs s)) as [l|] eqn:Z; [|destruct E]. eapply dget_Some_key; eauto.
Qed.
Lemma key_scc s i : TI [] s -> In i (dkeys (e_sccs s)) -> exists v, scc_id s v = Some i.
Proof.
  intros I J. apply dget_key_Some in J as [l E]. destruct (ti_snd _ _ _ _ I) as [_ S]. destruct (S i l E) as [_ NE]. destruct l as [|v l]; [congruence|].
  exists v. apply (ti_sccs _ _ _ _ I). unfold scc. rewrite E. cbn; auto.
Qed.
Lemma scc_reach s u v i : TI [] s -> scc_id s u = Some i -> scc_id s v = Some i -> reach u v.
Proof. intros I U V. apply (ti_comp _ _ _ _ I u v i U). exact V. Qed.
Definition cs (c : cgraph) : nat -> nat -> Prop := fun a r => In (a, r) (c_edges c) /\ r <> a.
Definition edges_sound (s : est) (es : list (nat * nat)) : Prop :=
  forall a r, In (a, r) es -> exists u w, edge u w /\ scc_id s u = Some a /\ scc_id s w = Some r.
Lemma cs_reach s c a r : TI [] s -> edges_sound s (c_edges c) -> clos_trans nat (cs c) a r -> forall u w, scc_id s u = Some a -> scc_id s w = Some r -> reach u w.
Proof.
  intros I C T. apply clos_trans_t1n in T. induction T as [a r [T _]|a b r [T _] T2 IH]; intros u w U W.
  - destruct (C a r T) as [u0 [w0 [Ed [U0 W0]]]].
    eapply reach_trans; [eapply scc_reach; [exact I|exact U|exact U0]|]. eapply reach_trans; [apply reach_edge; exact Ed|]. eapply scc_reach; eauto.
  - destruct (C a b T) as [u0 [w0 [Ed [U0 W0]]]].
    eapply reach_trans; [eapply scc_reach; [exact I|exact U|exact U0]|]. eapply reach_trans; [apply reach_edge; exact Ed|]. eapply IH; eauto.
Qed.
Lemma cs_acyclic s c : TI [] s -> edges_sound s (c_edges c) -> acyclic (cs c).
Proof.
  intros I C x T. pose proof T as T'. apply clos_trans_t1n in T'.
  assert (Q : exists y, cs c x y /\ (y = x \/ clos_trans nat (cs c) y x)).
  { inversion T' as [y H|y z H H2]; subst; [exists x; auto|exists y]. split; auto. right. apply clos_t1n_trans; auto. }
  destruct Q as [y [[E N] [->|R]]]; [congruence|]. destruct (C x y E) as [u [w [Ed [U W]]]].
  assert (R2 : reach w u) by (eapply cs_reach; eauto).
  assert (S : dget w (e_scc_of s) = Some x) by (apply (ti_comp _ _ _ _ I u w x U); split; [apply reach_edge; exact Ed|exact R2]).
  unfold scc_id in W. congruence.
Qed.
Lemma cstep_cs c a r : cstep (rows_of c) a r <-> cs c a r.
Proof. unfold cstep, cs. rewrite In_rows. tauto. Qed.
Lemma dep_cs c j k : dep c j k <-> cs c j k.
Proof. unfold dep, cs. rewrite In_cols. intuition. Qed.
Lemma acyclic_iff {A} (R S : A -> A -> Prop) : (forall x y, R x y <-> S x y) -> acyclic R -> acyclic S.
Proof.
  intros E AC x T. apply (AC x). assert (W : forall a b, clos_trans A S a b -> clos_trans A R a b); [|auto].
  clear -E. intros a b T. induction T; [apply t_step, E; auto|eapply t_trans; eauto].
Qed.
Lemma TI_closed s u w : TI [] s -> In u (e_pf s) -> edge u w -> In w (e_pf s).
Proof. intros I J E. apply (ti_black _ _ _ _ I u w); auto. Qed.
Lemma TI_reach_closed s u w : TI [] s -> In u (e_pf s) -> reach u w -> In w (e_pf s).
Proof. intros I J R. apply (reach_closed D strat (fun x => In x (e_pf s)) (fun a b => TI_closed s a b I) u w R J). Qed.
Lemma labelled_pf s u : TI [] s -> (In u (e_pf s) <-> exists i, scc_id s u = Some i).
Proof.
  intros I. rewrite (ti_part _ _ _ _ I u), (TI_stk_nil s I). unfold labelled, scc_id. split.
  - intros [[]|N]. destruct (dget u (e_scc_of s)); [eauto|congruence].
  - intros [i ->]. right. discriminate.
Qed.

Lemma new_edges_spec s a r : In (a, r) (new_edges s) <-> exists u w q, In (u, w, q) (e_int s) /\ scc_id s u = Some a /\ scc_id s w = Some r.
Proof.
  unfold new_edges. rewrite in_flat_map. split.
  - intros [[[u w] q] [J1 J2]]. cbn in J2. destruct (scc_id s u) as [x|] eqn:U; [|destruct J2]. destruct (scc_id s w) as [y|] eqn:W; [|destruct J2].
    destruct J2 as [E|[]]. injection E as <- <-. exists u, w, q. auto.
  - intros [u [w [q [J [U W]]]]]. exists (u, w, q). split; auto. cbn. rewrite U, W. cbn; auto.
Qed.
Lemma largest_app l e : forall m i, largest (l ++ e) m i = largest e (fst (largest l m i)) (snd (largest l m i)).
Proof. induction l as [|[k t] l IH]; intros m i; cbn [largest app]; [reflexivity|]. destruct (Nat.ltb m (length t)); apply IH. Qed.
Lemma largest_key l m i b : snd (largest l m i) = Some b -> i = Some b /\ snd (largest l m i) = i \/ In b (dkeys l).
Proof.
  pose proof (largest_spec l m i) as S. destruct (largest l m i) as [m' i']. cbn. intros ->. destruct S as [_ [_ [[_ S]|[k [t [S1 [_ [S2 _]]]]]]]].
  - left. subst; auto.
  - right. injection S2 as ->. apply in_map_iff. exists (k, t). auto.
Qed.

Lemma CI_update vs s0 s c0 fuel : TI [] s0 -> e_int s0 = [] -> CI s0 c0 -> batch vs s0 s ->
  match update_graph fuel s c0 with Some c => CI s c | None => fuel < length (dkeys (e_sccs s)) end.
Proof.
  intros I0 EI C [I [new [A1 [_ [_ [A4 [_ [_ [_ [[A8 [ext X8]] _]]]]]]]]]]. rewrite EI in A4. cbn [app] in A4.
  assert (NEW : forall a r, In (a, r) (new_edges s) <-> exists u w, In u new /\ edge u w /\ w <> u /\ scc_id s u = Some a /\ scc_id s w = Some r).
  { intros a r. rewrite new_edges_spec. split.
    - intros [u [w [q [J [U W]]]]]. apply (Permutation_in _ A4) in J. apply in_flat_map in J as [v [J1 J2]]. apply In_Ints in J2 as [-> [J2 J3]]. exists v, w. auto.
    - intros [u [w [J [Ed [N [U W]]]]]]. destruct (edge_Ints u w Ed N) as [q Q]. exists u, w, q. split; auto.
      apply (Permutation_in _ (Permutation_sym A4)). apply in_flat_map. exists u. auto. }
  unfold update_graph. set (es := set_union (c_edges c0) (new_edges s)).
  assert (ES : forall a r, In (a, r) es <-> In (a, r) (c_edges c0) \/ In (a, r) (new_edges s)) by (intros; apply In_set_union).
  assert (OLD : forall u i, scc_id s0 u = Some i -> scc_id s u = Some i) by exact A8.
  assert (E1 : forall u w, In u (e_pf s) -> edge u w -> w <> u -> exists a r, scc_id s u = Some a /\ scc_id s w = Some r /\ In (a, r) es).
  { intros u w J Ed N. rewrite A1 in J. apply in_app_iff in J as [J|J].
    - destruct (ci_e1 _ _ C u w J Ed N) as [a [r [U [W Q]]]]. exists a, r. rewrite ES. auto.
    - assert (JP : In u (e_pf s)) by (rewrite A1; apply in_app_iff; auto).
      destruct (proj1 (labelled_pf s u I) JP) as [a U]. destruct (proj1 (labelled_pf s w I) (TI_closed s u w I JP Ed)) as [r W].
      exists a, r. split; auto. split; auto. apply ES. right. apply NEW. exists u, w. auto. }
  assert (E2 : edges_sound s es).
  { intros a r J. apply ES in J as [J|J].
    - destruct (ci_e2 _ _ C a r J) as [u [w [Ed [U W]]]]. exists u, w. auto.
    - apply NEW in J as [u [w [_ [Ed [_ [U W]]]]]]. exists u, w. auto. }
  assert (KEYS : dkeys (e_sccs s) = dkeys (e_sccs s0) ++ dkeys ext) by (unfold dkeys; rewrite X8, map_app; reflexivity).
  assert (KND : NoDup (dkeys (e_sccs s))) by apply (ti_snd _ _ _ _ I).
  (* edges out of old components are old *)
  assert (OUT : forall a r, In a (dkeys (e_sccs s0)) -> In (a, r) es -> r = a \/ In (a, r) (c_edges c0)).
  { intros a r K J. destruct (key_scc s0 a I0 K) as [u0 U0]. destruct (E2 a r J) as [u [w [Ed [U W]]]].
    assert (P0 : In u0 (e_pf s0)) by (apply labelled_pf; eauto).
    assert (PU : In u (e_pf s0)) by (eapply TI_reach_closed; [exact I0|exact P0|]; eapply scc_reach; [exact I|apply OLD; exact U0|exact U]).
    destruct (eq_dec w u) as [->|N]; [left; congruence|]. right. destruct (ci_e1 _ _ C u w PU Ed N) as [a' [r' [U' [W' Q]]]].
    apply OLD in U', W'. congruence. }
  pose proof (largest_app (e_sccs s0) ext 0 None) as LA. rewrite <- X8 in LA.
  destruct (largest (e_sccs s) 0 None) as [ml ind] eqn:L. destruct (Nat.ltb_spec 1 ml) as [ML|ML].
  - destruct ind as [b|].
    2:{ exfalso. pose proof (largest_spec (e_sccs s) 0 None) as S. rewrite L in S. destruct S as [_ [_ [[-> _]|[k [t [_ [_ [S _]]]]]]]]; [lia|discriminate]. }
    set (g1 := CG es (c_bg c0) (c_down c0)).
    assert (BK : In b (dkeys (e_sccs s))).
    { pose proof (largest_key (e_sccs s) 0 None b) as S. rewrite L in S. destruct (S eq_refl) as [[S1 _]|S1]; [discriminate|exact S1]. }
    assert (AC : acyclic (cstep (rows_of g1))).
    { eapply acyclic_iff; [|apply (cs_acyclic s g1 I E2)]. intros x y. symmetry. apply cstep_cs. }
    assert (CK : forall a r, cstep (rows_of g1) a r -> In r (dkeys (e_sccs s))).
    { intros a r S. apply cstep_cs in S as [S _]. destruct (E2 a r S) as [u [w [_ [_ W]]]]. eapply scc_key; eauto. }
    destruct (downstream fuel (rows_of g1) b (c_down g1)) as [d|] eqn:DN.
    2:{ destruct (Nat.lt_ge_cases fuel (length (dkeys (e_sccs s)))) as [|GE]; auto.
        destruct (downstream_total (rows_of g1) _ b (c_down g1) fuel AC BK CK GE) as [d Ed]. congruence. }
    pose proof (downstream_spec _ _ _ _ _ DN) as DS. cbn [c_edges c_down g1] in *.
    assert (NB : ~ In b (c_down c0)).
    { intros J. destruct (c_bg c0) as [b0|] eqn:CB.
      - destruct (ci_nb _ _ C b0 CB) as [NB [m [M1 M2]]]. rewrite M2 in LA. cbn [fst snd] in LA.
        pose proof (largest_key ext m (Some b0) b) as S. rewrite <- LA in S. cbn [snd] in S. destruct (S eq_refl) as [[S1 _]|S1]; [injection S1 as ->; auto|].
        rewrite KEYS in KND. apply (NoDup_app_disj _ _ KND b); auto. apply (ci_dk _ _ C); exact J.
      - destruct (ci_nobg _ _ C CB) as [Z _]. rewrite Z in J. destruct J. }
    constructor; cbn [c_edges c_bg c_down].
    + exact E1.
    + exact E2.
    + intros a r J Q. destruct (Nat.eq_dec r a) as [->|N]; auto. apply DS. apply DS in J as [J|J].
      * destruct (OUT a r (ci_dk _ _ C a J) Q) as [->|O]; [congruence|]. left. eapply (ci_down _ _ C); eauto.
      * right. eapply t_trans; [exact J|]. apply t_step. apply cstep_cs. split; auto.
    + intros b' r E. injection E as <-. intros Q. destruct (Nat.eq_dec r b) as [->|N]; auto. right. apply DS. right. apply t_step. apply cstep_cs. split; auto.
    + intros b' E. injection E as <-. split; [|exists ml; rewrite L; auto]. intros J. apply DS in J as [J|J]; [auto|]. apply (AC b J).
    + discriminate.
    + intros r J. apply DS in J as [J|J]; [rewrite KEYS; apply in_app_iff; left; apply (ci_dk _ _ C); exact J|].
      apply clos_trans_tn1 in J. inversion J; subst; eauto.
    + eapply NoDup_downstream; [|exact DN]. apply (ci_dn _ _ C).
  - assert (CB : c_bg c0 = None).
    { destruct (c_bg c0) as [b0|] eqn:CB; auto. exfalso. destruct (ci_nb _ _ C b0 CB) as [NB [m [M1 M2]]]. rewrite M2 in LA. cbn [fst snd] in LA.
      pose proof (largest_spec ext m (Some b0)) as S. rewrite <- LA in S. destruct S as [S _]. lia. }
    destruct (ci_nobg _ _ C CB) as [DZ _].
    constructor; cbn [c_edges c_bg c_down]; rewrite ?CB, ?DZ.
    + exact E1.
    + exact E2.
    + intros a r [].
    + discriminate.
    + discriminate.
    + intros _. rewrite L. auto.
    + intros x [].
    + constructor.
Qed.
End Hist.

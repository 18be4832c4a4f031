(** Properties C30-C33, C35-C37 of the background engine (model: BgModel.v). *)
From Verif Require Import Num Base ProcModel BgModel BgProofs BgProofs2 BgProofs3 BgProofs4 BgProofs5.
From Coq Require Import Relations Sorted Permutation.
Open Scope nat_scope.
Open Scope list_scope.

(** * Independent specification: who depends on whom *)
(** the process an exchange is terminated by, under a termination strategy, according to the database alone *)
Inductive resolves (D : db) (strat : strategy) (x : rex) : nat -> Prop :=
| res_explicit p : r_term x = Some p -> resolves D strat x p
| res_unique t : r_term x = None -> db_terms D (r_flow x) (r_dir x) = [t] -> resolves D strat x t
| res_first t t' ts : strat = First -> r_term x = None -> db_terms D (r_flow x) (r_dir x) = t :: t' :: ts -> resolves D strat x t
| res_last t t' ts : strat = Last -> r_term x = None -> db_terms D (r_flow x) (r_dir x) = t' :: ts ++ [t] -> resolves D strat x t.
(** product flow [u] depends on product flow [v]: some non-reference exchange of [u] with a nonzero value is terminated by
    the process of [v], which has the exchanged flow as a reference *)
Definition depends (D : db) (strat : strategy) (u v : node) : Prop :=
  exists x q p d, In x (db_inv D u) /\ r_val x = Some q /\ q <> Q2Qc 0 /\ r_isref x = false /\ resolves D strat x p
    /\ v = (r_flow x, p) /\ db_ref D v = Some d.
Definition needs (D : db) (strat : strategy) : node -> node -> Prop := clos_refl_trans node (depends D strat).

Lemma resolves_starget D strat x p : resolves D strat x p <-> starget D strat x = Some p.
Proof.
  unfold starget, sres, terminate. cbn [r_term r_flow r_dir mem]. split.
  - intros [p' E|t E T|t t' ts S E T|t t' ts S E T]; rewrite E; auto; rewrite T; auto; subst; auto.
    destruct (ts ++ [t]) as [|a l] eqn:Z; [destruct ts; discriminate|]. rewrite <- Z. rewrite last_last. reflexivity.
  - destruct (r_term x) as [q|] eqn:E; [intros H; injection H as ->; apply res_explicit; auto|].
    destruct (db_terms D (r_flow x) (r_dir x)) as [|t [|t' ts]] eqn:T; [discriminate|intros H; injection H as ->; apply res_unique; auto|].
    destruct strat; try discriminate; intros H.
    + injection H as <-. eapply res_first; eauto.
    + assert (P : p = last (t' :: ts) t) by (injection H as <-; reflexivity). clear H.
      destruct (exists_last (l := t' :: ts)) as [l [a Z]]; [discriminate|]. rewrite Z in P. rewrite last_last in P. subst p. eapply res_last; eauto. rewrite T, Z. reflexivity.
Qed.
Lemma depends_edge D strat u v : depends D strat u v <-> edge D strat u v.
Proof.
  unfold depends, edge, targets. rewrite in_flat_map. split.
  - intros [x [q [p [d [J [V [NZ [R [S [-> DR]]]]]]]]]]. exists x. split; auto. unfold target, relevant. rewrite V.
    destruct (eqb_spec q (Q2Qc 0)); [contradiction|]. rewrite R, (proj1 (resolves_starget D strat x p) S), DR. cbn; auto.
  - intros [x [J T]]. unfold target, relevant in T. destruct (r_val x) as [q|] eqn:V; [|destruct T]. destruct (eqb_spec q (Q2Qc 0)); [destruct T|].
    destruct (r_isref x) eqn:R; [destruct T|]. destruct (starget D strat x) as [p|] eqn:S; [|destruct T]. destruct (db_ref D (r_flow x, p)) as [d|] eqn:DR; [|destruct T].
    destruct T as [<-|[]]. exists x, q, p, d. repeat split; auto. apply resolves_starget; auto.
Qed.
Lemma needs_reach D strat u v : needs D strat u v <-> reach D strat u v.
Proof.
  unfold needs, reach. split; intros R; (induction R; [apply rt_step, depends_edge; auto|apply rt_refl|eapply rt_trans; eauto]).
Qed.

(** Observations on the engine *)
Definition indexed (g : eng) (v : node) : Prop := In v (e_pf (g_st g)).
Definition component (g : eng) (v : node) : option nat := scc_id (g_st g) v.
Definition background (g : eng) : list node := bg_list (g_st g) (g_cg g).
Definition foreground (g : eng) : list node := fg_list (g_st g) (g_order g).
(** [add_all_ref_products] always adds the references of the one database *)
Definition one_list (cs : list bcall) : Prop := forall vs ws, In (AddAll vs) cs -> In (AddAll ws) cs -> vs = ws.

Section Histories.
Context (D : db) (strat : strategy) (ord : list nat -> list nat) (ORD : forall l, Permutation (ord l) l).
Notation GI := (GI D strat).

Lemma brun_app fuel cs1 : forall g cs2, brun D strat fuel ord g (cs1 ++ cs2) = match brun D strat fuel ord g cs1 with UOk g' => brun D strat fuel ord g' cs2 | r => r end.
Proof. induction cs1 as [|c cs1 IH]; intros g cs2; cbn [app brun]; auto. destruct (bcall_run D strat fuel ord g c); auto. Qed.

Lemma brun_ok fuel cs : forall g g', GI g -> brun D strat fuel ord g cs = UOk g' ->
  GI g' /\ (exists new, e_pf (g_st g') = e_pf (g_st g) ++ new /\ forall v, In v new -> exists r, is_root cs r /\ reach D strat r v).
Proof.
  induction cs as [|c cs IH]; intros g g' G R; cbn [brun] in R.
  - injection R as <-. split; auto. exists []. rewrite app_nil_r. split; auto. intros v [].
  - destruct (bcall_run D strat fuel ord g c) as [g1| |] eqn:B; try discriminate.
    destruct (bcall_ok D strat ord ORD fuel g c g1 G B) as [G1 [[n1 [E1 R1]] _]]. destruct (IH g1 g' G1 R) as [G2 [n2 [E2 R2]]]. split; auto.
    exists (n1 ++ n2). split; [rewrite E2, E1, app_assoc; reflexivity|]. intros v J. apply in_app_iff in J as [J|J].
    + destruct (R1 v J) as [r [Q1 Q2]]. exists r. split; auto. exists c. cbn; auto.
    + destruct (R2 v J) as [r [[c' [Q0 Q1]] Q2]]. exists r. split; auto. exists c'. cbn; auto.
Qed.
Lemma brun_roots fuel cs : forall g g' before, GI g -> one_list (before ++ cs) -> brun D strat fuel ord g cs = UOk g' ->
  (g_all g = true -> exists vs, In (AddAll vs) before /\ incl vs (e_pf (g_st g))) -> forall r, is_root cs r -> In r (e_pf (g_st g')).
Proof.
  induction cs as [|c cs IH]; intros g g' before G O R A r [c' [J K]]; [destruct J|]. cbn [brun] in R.
  destruct (bcall_run D strat fuel ord g c) as [g1| |] eqn:B; try discriminate.
  destruct (bcall_ok D strat ord ORD fuel g c g1 G B) as [G1 [[n1 [E1 R1]] [S1 S2]]].
  destruct (brun_ok fuel cs g1 g' G1 R) as [_ [n2 [E2 _]]].
  assert (C : incl (bcall_products c) (e_pf (g_st g1))).
  { destruct (g_all g) eqn:GA; [|auto]. destruct (A eq_refl) as [vs [V1 V2]]. destruct c as [v|ws].
    - cbn [bcall_run] in B. unfold add_ref_product in B. destruct (mem_spec v (e_pf (g_st g))) as [M|M]; [injection B as <-; intros x [<-|[]]; auto|].
      destruct (add_product D strat fuel (g_st g) v) as [s| |] eqn:AP; try discriminate.
      pose proof (add_product_batch D strat fuel (g_st g) v s (gi_ti _ _ _ G) AP) as BB.
      pose proof (eng_update_ok D strat ord ORD fuel g _ s G BB) as U. rewrite B in U. destruct U as [_ [U2 _]]. destruct BB as [_ [nn [_ [BB _]]]]. rewrite U2. exact BB.
    - assert (ws = vs) by (apply O; apply in_app_iff; cbn; auto). subst ws. cbn [bcall_products]. intros x X. rewrite E1. apply in_app_iff. left. auto. }
  destruct J as [->|J].
  - rewrite E2. apply in_app_iff. left. apply C; exact K.
  - apply (IH g1 g' (before ++ [c]) G1); auto; [rewrite <- app_assoc; exact O| |exists c'; auto].
    intros A1. destruct (S2 A1) as [A0|[vs ->]].
    + destruct (A A0) as [vs [V1 V2]]. exists vs. rewrite in_app_iff. split; auto. intros x X. rewrite E1. apply in_app_iff. auto.
    + exists vs. split; [apply in_app_iff; cbn; auto|exact C].
Qed.
End Histories.

(** * C30: components are exactly the cycles *)
(** For every database, strategy, history of additions and iteration order: every indexed product flow belongs to a component,
    and two of them to the same one iff each needs the other. *)
Theorem C30_components D strat ord fuel cs g :
  (forall l, Permutation (ord l) l) -> brun D strat fuel ord eng0 cs = UOk g ->
  (forall v, indexed g v <-> exists i, component g v = Some i)
  /\ (forall u v, indexed g u -> indexed g v -> (component g u = component g v <-> needs D strat u v /\ needs D strat v u))
  /\ (forall i v, In v (scc (g_st g) i) <-> component g v = Some i).
Proof.
  intros ORD R. destruct (brun_ok D strat ord ORD fuel cs eng0 g (GI_eng0 D strat) R) as [G _]. pose proof (gi_ti _ _ _ G) as I.
  split; [intros v; apply (labelled_pf D strat); exact I|]. split; [|intros i v; apply (ti_sccs _ _ _ _ I)].
  intros u v JU JV. rewrite !needs_reach. apply (labelled_pf D strat _ _ I) in JU as [i U]. apply (labelled_pf D strat _ _ I) in JV as [j V].
  unfold component. rewrite U, V. rewrite <- (ti_comp _ _ _ _ I u v i U). unfold scc_id in V. rewrite V. split; congruence.
Qed.
Print Assumptions C30_components.

(** * C31: the traversal covers everything reachable, once *)
Theorem C31_coverage D strat ord fuel cs g :
  (forall l, Permutation (ord l) l) -> one_list cs -> brun D strat fuel ord eng0 cs = UOk g ->
  (forall v, indexed g v <-> exists r, is_root cs r /\ needs D strat r v)
  /\ NoDup (e_pf (g_st g))
  /\ (forall v, indexed g v -> nth_error (e_pf (g_st g)) (idx (g_st g) v) = Some v).
Proof.
  intros ORD O R. destruct (brun_ok D strat ord ORD fuel cs eng0 g (GI_eng0 D strat) R) as [G [new [E N]]]. pose proof (gi_ti _ _ _ G) as I. cbn in E.
  split; [|split; [apply (ti_nd _ _ _ _ I)|intros v J; apply nth_pos; exact J]].
  intros v. unfold indexed. split.
  - intros J. rewrite E in J. destruct (N v J) as [r [R1 R2]]. exists r. split; auto. apply needs_reach; auto.
  - intros [r [R1 R2]]. apply needs_reach in R2. eapply (TI_reach_closed D strat); [exact I| |exact R2].
    apply (brun_roots D strat ord ORD fuel cs eng0 g [] (GI_eng0 D strat) O R); [discriminate|exact R1].
Qed.
Print Assumptions C31_coverage.

(** what exchange [x] of column [u] must contribute: an interior entry [sign * value / net output of u] for each dependency on
    another product flow; a cut-off entry [value / net output of u] for each exchange without a terminating process *)
Definition interior_spec (D : db) (strat : strategy) (u : node) : list (node * node * Qc) :=
  flat_map (fun x => match target D strat x, r_val x with
                     | Some w, Some q => if eqb u w then [] else [(u, w, (match r_dir x with Output => - q | Input => q end) / evq D strat u)%Qc]
                     | _, _ => [] end) (db_inv D u).
Definition cutoff_spec (D : db) (strat : strategy) (u : node) : list (node * emis * Qc) :=
  flat_map (fun x => match r_val x with
                     | Some q => if negb (eqb q (Q2Qc 0)) && negb (r_isref x)
                                 then match starget D strat x with None => [(u, (r_flow x, r_dir x), q / evq D strat u)%Qc] | Some _ => [] end else []
                     | None => [] end) (db_inv D u).
Lemma interior_spec_eq D strat u : map (adj D strat) (Ints D strat u) = interior_spec D strat u.
Proof.
  unfold Ints, ints, interior_spec. induction (db_inv D u) as [|x l IH]; cbn [flat_map]; auto. rewrite map_app, IH. f_equal.
  destruct (target D strat x) as [w|] eqn:T; auto. unfold target in T. destruct (relevant x) as [q|] eqn:R; [|discriminate].
  unfold relevant in R. destruct (r_val x) as [q'|]; [|discriminate]. destruct (eqb q' (Q2Qc 0)); [discriminate|]. destruct (r_isref x); [discriminate|]. injection R as ->.
  destruct (eqb u w); auto.
Qed.
Lemma cutoff_spec_eq D strat u : map (adj D strat) (Cuts D strat u) = cutoff_spec D strat u.
Proof.
  unfold Cuts, cuts, cutoff_spec. induction (db_inv D u) as [|x l IH]; cbn [flat_map]; auto. rewrite map_app, IH. f_equal.
  unfold relevant. destruct (r_val x) as [q|]; auto. destruct (eqb q (Q2Qc 0)); auto. destruct (r_isref x); auto. cbn. destruct (starget D strat x); auto.
Qed.
Lemma map_flat_map {A B C} (f : B -> C) (h : A -> list B) l : map f (flat_map h l) = flat_map (fun x => map f (h x)) l.
Proof. induction l as [|x l IH]; cbn; auto. rewrite map_app, IH. reflexivity. Qed.
(** every terminated exchange becomes exactly one entry (with multiplicity), in A*/Af/Ad or in B*/Bf, and the emissions
    are exactly those of the cut-off entries *)
Theorem C31_entries D strat ord fuel cs g :
  (forall l, Permutation (ord l) l) -> brun D strat fuel ord eng0 cs = UOk g ->
  Permutation (g_interior g ++ g_foreground g) (flat_map (interior_spec D strat) (e_pf (g_st g)))
  /\ Permutation (g_bgem g ++ g_cutoff g) (flat_map (cutoff_spec D strat) (e_pf (g_st g)))
  /\ NoDup (e_ems (g_st g))
  /\ (forall e, In e (e_ems (g_st g)) <-> exists c, In c (g_bgem g ++ g_cutoff g) /\ snd (fst c) = e).
Proof.
  intros ORD R. destruct (brun_ok D strat ord ORD fuel cs eng0 g (GI_eng0 D strat) R) as [G _].
  assert (P2 : Permutation (g_bgem g ++ g_cutoff g) (flat_map (cutoff_spec D strat) (e_pf (g_st g)))).
  { rewrite (gi_cut _ _ _ G), map_flat_map. erewrite flat_map_ext; [reflexivity|]. intros u. apply cutoff_spec_eq. }
  split; [rewrite (gi_int _ _ _ G), map_flat_map; erewrite flat_map_ext; [reflexivity|]; intros u; apply interior_spec_eq|].
  split; [exact P2|]. split; [apply (gi_emsnd _ _ _ G)|]. intros e. rewrite (gi_ems _ _ _ G e), in_map_iff. split.
  - intros [c [C1 C2]]. exists (adj D strat c). split; [|exact C1]. apply (Permutation_in _ (Permutation_sym (gi_cut _ _ _ G))). apply in_map; exact C2.
  - intros [c [C1 C2]]. apply (Permutation_in _ (gi_cut _ _ _ G)) in C1. apply in_map_iff in C1 as [c' [<- C1]]. exists c'. auto.
Qed.
Print Assumptions C31_entries.

(** Termination: on a finite database (a list [U] of product flows closed under dependency) without ambiguous terminations and
    without zero net outputs, every history succeeds, given recursion depth for as many product flows as there are. *)
Definition ambiguous (D : db) (strat : strategy) : Prop :=
  exists x, r_term x = None /\ 2 <= length (db_terms D (r_flow x) (r_dir x)) /\ (strat = Abort \/ strat = Mix \/ strat = UnknownStrategy).
Lemma scc_count D strat s : TI D strat [] s -> length (dkeys (e_sccs s)) <= length (e_pf s).
Proof.
  intros I. rewrite <- (seq_length (length (e_pf s)) 0). apply NoDup_incl_length; [apply (ti_snd _ _ _ _ I)|]. intros i J.
  destruct (key_scc D strat s i I J) as [v V]. destruct (ti_root _ _ _ _ I v i V) as [r [R1 [R2 _]]]. apply in_seq. rewrite <- R2. split; [lia|]. cbn. apply pos_lt; exact R1.
Qed.
Section Total.
Context (D : db) (strat : strategy) (ord : list nat -> list nat) (ORD : forall l, Permutation (ord l) l) (U : list node).
Hypothesis CL : forall u v, In u U -> depends D strat u v -> In v U.
Hypothesis NA : ~ ambiguous D strat.
Lemma no_term_err e : ~ term_err D strat e.
Proof.
  intros [x T]. apply NA. unfold terminate in T. cbn [mem] in T. destruct (r_term x) eqn:R; [discriminate|]. exists x. split; auto.
  destruct (db_terms D (r_flow x) (r_dir x)) as [|t [|t' ts]]; try discriminate. cbn. split; [lia|]. destruct strat; try discriminate; auto.
Qed.
Lemma U_closed : closed D strat U.
Proof. intros u v J Ed. apply (CL u); auto. apply depends_edge; auto. Qed.
Lemma add_product_total fuel s v : TI D strat [] s -> incl (e_pf s) U -> In v U -> db_ref D v <> None -> length U <= fuel ->
  exists s2, add_product D strat fuel s v = TDone s2 /\ incl (e_pf s2) U.
Proof.
  intros I S J R F. unfold add_product. destruct (mem_spec v (e_pf s)) as [M|M]; [eauto|]. destruct (db_ref D v) as [d|] eqn:DR; [|congruence].
  assert (RE : forall y, In y (e_stk s) -> reach D strat y v) by (rewrite (TI_stk_nil D strat s I); intros y []).
  assert (UV : unv U (create s v d) < fuel).
  { eapply Nat.lt_le_trans; [apply (unv_create U s v d J M)|]. etransitivity; [|exact F]. apply filter_length_le'. }
  destruct (trav_total D strat U U_closed no_term_err fuel [] v s d J I M DR RE UV) as [s2 T].
  exists s2. rewrite T. split; auto. destruct (trav_acc D strat fuel v s d s2 (ti_ems _ _ _ _ I) (TI_REF D strat _ _ I) M DR T) as [_ [_ [new [W1 [W2 _]]]]].
  rewrite W1. intros x X. apply in_app_iff in X as [X|[<-|X]]; auto. apply (reach_closed D strat (fun z => In z U) U_closed v x); auto.
Qed.
Lemma add_products_total fuel vs : forall s, TI D strat [] s -> incl (e_pf s) U -> incl vs U -> (forall v, In v vs -> db_ref D v <> None) -> length U <= fuel ->
  exists s2, add_products D strat fuel s vs = TDone s2 /\ incl (e_pf s2) U.
Proof.
  induction vs as [|v vs IH]; intros s I S J R F; cbn [add_products]; [eauto|].
  destruct (add_product_total fuel s v I S) as [s1 [E1 S1]]; auto; [apply J; cbn; auto|apply R; cbn; auto|]. rewrite E1.
  apply IH; auto; [apply (add_product_batch D strat fuel s v s1 I E1)|intros x X; apply J; cbn; auto|intros x X; apply R; cbn; auto].
Qed.
Hypothesis NZ : forall u, In u U -> evq D strat u <> Q2Qc 0.
Lemma eng_update_total fuel g vs s : GI D strat g -> batch D strat vs (g_st g) s -> incl (e_pf s) U -> length U <= fuel ->
  exists g', eng_update fuel ord (with_st g s) = UOk g' /\ GI D strat g' /\ g_st g' = taken s.
Proof.
  intros G B S F. pose proof (eng_update_ok D strat ord ORD fuel g vs s G B) as H. pose proof (proj1 B) as I.
  destruct (eng_update fuel ord (with_st g s)) as [g'|g' e|]; [exists g'; tauto| |].
  - destruct H as [_ [u [J Z]]]. exfalso. apply (NZ u); auto.
  - exfalso. pose proof (scc_count D strat s I). pose proof (NoDup_incl_length (ti_nd _ _ _ _ I) S). lia.
Qed.
Lemma brun_total fuel cs : forall g, GI D strat g -> incl (e_pf (g_st g)) U -> (forall r, is_root cs r -> In r U /\ db_ref D r <> None) -> length U <= fuel ->
  exists g', brun D strat fuel ord g cs = UOk g'.
Proof.
  induction cs as [|c cs IH]; intros g G S RT F; cbn [brun]; [eauto|].
  assert (RC : forall v, In v (bcall_products c) -> In v U /\ db_ref D v <> None) by (intros v J; apply RT; exists c; cbn; auto).
  assert (STEP : exists g1, bcall_run D strat fuel ord g c = UOk g1 /\ GI D strat g1 /\ incl (e_pf (g_st g1)) U).
  { destruct c as [v|vs]; cbn [bcall_run bcall_products] in *.
    - unfold add_ref_product. destruct (mem v (e_pf (g_st g))); [eauto|]. destruct (RC v (or_introl eq_refl)) as [R1 R2].
      destruct (add_product_total fuel (g_st g) v (gi_ti _ _ _ G) S R1 R2 F) as [s [E Q]]. rewrite E.
      pose proof (add_product_batch D strat fuel _ _ _ (gi_ti _ _ _ G) E) as B. destruct (eng_update_total fuel g _ s G B Q F) as [g1 [E1 [G1 T1]]].
      exists g1. split; auto. split; auto. rewrite T1. exact Q.
    - unfold add_all_ref_products. destruct (g_all g); [eauto|].
      destruct (add_products_total fuel vs (g_st g) (gi_ti _ _ _ G) S) as [s [E Q]]; auto; [intros x X; apply RC; auto|intros x X; apply RC; auto|]. rewrite E.
      pose proof (add_products_batch D strat fuel _ _ _ (gi_ti _ _ _ G) E) as B. destruct (eng_update_total fuel g _ s G B Q F) as [g1 [E1 [G1 T1]]].
      rewrite E1. eexists. split; [reflexivity|]. cbn [g_st]. split; [destruct G1; constructor; auto|]. rewrite T1. exact Q. }
  destruct STEP as [g1 [-> [G1 S1]]]. apply IH; auto. intros r [c' [J K]]. apply RT. exists c'. cbn; auto.
Qed.
End Total.
Theorem C31_terminates D strat ord U fuel cs :
  (forall l, Permutation (ord l) l) ->
  (forall u v, In u U -> depends D strat u v -> In v U) -> ~ ambiguous D strat -> (forall u, In u U -> evq D strat u <> Q2Qc 0) ->
  (forall r, is_root cs r -> In r U /\ db_ref D r <> None) -> length U <= fuel ->
  exists g, brun D strat fuel ord eng0 cs = UOk g.
Proof.
  intros ORD CL NA NZ RT F. apply (brun_total D strat ord ORD U CL NA NZ fuel cs eng0 (GI_eng0 D strat)); auto. intros x [].
Qed.
Print Assumptions C31_terminates.

(** * C32: the background is closed under dependency *)
Theorem C32_background_closed D strat ord fuel cs g :
  (forall l, Permutation (ord l) l) -> brun D strat fuel ord eng0 cs = UOk g ->
  (forall u v, In u (background g) -> depends D strat u v -> In v (background g))
  /\ NoDup (background g) /\ incl (background g) (e_pf (g_st g))
  /\ (forall e, In e (g_interior g ++ g_foreground g) -> In (fst (fst e)) (background g) -> In (snd (fst e)) (background g)).
Proof.
  intros ORD R. destruct (brun_ok D strat ord ORD fuel cs eng0 g (GI_eng0 D strat) R) as [G _]. pose proof (gi_ti _ _ _ G) as I. pose proof (gi_ci _ _ _ G) as C.
  assert (CLO : forall u v, In u (background g) -> edge D strat u v -> In v (background g)) by (intros u v J Ed; eapply bg_closed; eauto).
  split; [intros u v J Dp; apply (CLO u); auto; apply depends_edge; auto|]. split; [apply (bg_list_nd D strat); auto|]. split.
  - intros v J. apply (bg_list_spec D strat) in J as [k [K _]]; auto. apply (labelled_pf D strat _ _ I). eauto.
  - intros e J B. apply (Permutation_in _ (gi_int _ _ _ G)) in J. apply in_map_iff in J as [[[u w] q] [<- J]]. cbn in *.
    apply in_flat_map in J as [u' [_ J]]. apply In_Ints in J as [-> [J _]]. eapply CLO; eauto.
Qed.
Print Assumptions C32_background_closed.
(** the background is the largest component of more than one member together with everything it depends on (one batch) *)
Theorem C32_background_is D strat ord fuel vs g :
  (forall l, Permutation (ord l) l) -> brun D strat fuel ord eng0 [AddAll vs] = UOk g ->
  background g = [] /\ (forall u v, indexed g u -> indexed g v -> needs D strat u v -> needs D strat v u -> u = v)
  \/ (exists b, indexed g b /\ (forall v, In v (background g) <-> needs D strat b v)
       /\ 1 < length (scc (g_st g) (match component g b with Some i => i | None => 0 end))
       /\ forall k, length (scc (g_st g) k) <= length (scc (g_st g) (match component g b with Some i => i | None => 0 end))).
Proof.
  intros ORD R. destruct (brun_ok D strat ord ORD fuel _ eng0 g (GI_eng0 D strat) R) as [G _]. pose proof (gi_ti _ _ _ G) as I. pose proof (gi_ci _ _ _ G) as C.
  assert (LEN : forall k t, dget k (e_sccs (g_st g)) = Some t -> In (k, t) (e_sccs (g_st g))) by (intros k t E; apply dget_In; exact E).
  destruct (c_bg (g_cg g)) as [b0|] eqn:CB.
  - right. destruct (ci_nb _ _ _ _ C b0 CB) as [NB [m [M1 M2]]].
    pose proof (largest_spec (e_sccs (g_st g)) 0 None) as LS. rewrite M2 in LS. destruct LS as [_ [L2 [[_ L3]|[k [t [L3 [L4 [L5 _]]]]]]]]; [discriminate|]. injection L5 as <-.
    assert (TK : dget b0 (e_sccs (g_st g)) = Some t) by (apply In_dget; auto; apply (ti_snd _ _ _ _ I)).
    destruct t as [|b t]; [cbn in L4; lia|].
    assert (BB : component g b = Some b0) by (apply (ti_sccs _ _ _ _ I); unfold scc; rewrite TK; cbn; auto).
    exists b. split; [apply (labelled_pf D strat _ _ I); eauto|]. rewrite BB. unfold scc at 1 3. rewrite TK. split; [|split].
    + (* background = what b needs *)
      assert (DOWN : forall k, In k (c_down (g_cg g)) -> clos_trans nat (cs (g_cg g)) b0 k).
      { cbn [brun bcall_run] in R. unfold add_all_ref_products in R. cbn [eng0 g_all] in R.
        destruct (add_products D strat fuel (g_st eng0) vs) as [s| |] eqn:A; try discriminate.
        destruct (eng_update fuel ord (with_st eng0 s)) as [g1| |] eqn:EU; try discriminate. injection R as <-. cbn [g_cg g_st] in *.
        unfold eng_update in EU. cbn [with_st g_st g_cg] in EU. destruct (update_graph fuel s (g_cg eng0)) as [c|] eqn:UG; [|discriminate].
        assert (GC : g_cg g1 = c).
        { destruct (fg_order fuel ord s c); [|discriminate]. destruct (adjust_all s (rev (e_int s))); [|discriminate]. destruct (adjust_all s (rev (e_cut s))); [|discriminate].
          destruct (split_bg s c a) as [? ?]. destruct (split_bg s c a0) as [? ?]. destruct (c_bg c) eqn:Z; [|injection EU as <-; reflexivity].
          cbn [with_st eng0 g_a g_interior g_bgem] in EU. destruct (a_rows _ _ _); [|discriminate]. destruct (b_rows _ _ _); [|discriminate]. injection EU as <-. reflexivity. }
        rewrite GC in *. unfold update_graph in UG. destruct (largest (e_sccs s) 0 None) as [ml ind]. destruct (Nat.ltb 1 ml).
        - destruct ind as [b1|]; [|injection UG as <-; discriminate].
          cbn [eng0 g_cg c_edges c_bg c_down] in UG. set (g0 := CG _ _ _) in UG. destruct (downstream fuel (rows_of g0) b1 []) as [d|] eqn:DN; [|discriminate].
          injection UG as <-. cbn [c_bg] in CB. injection CB as ->. cbn [c_down]. intros k K. apply (downstream_spec _ _ _ _ _ DN) in K as [[]|K].
          clear -K. induction K as [x y S|x y z _ I1 _ I2]; [apply t_step; apply cstep_cs in S; exact S|eapply t_trans; eauto].
        - injection UG as <-. discriminate. }
      intros v. unfold background. rewrite (bg_list_spec D strat _ _ v I C), needs_reach. split.
      * intros [k [K1 K2]]. apply is_bg_spec in K2 as [K2|K2].
        -- rewrite CB in K2. injection K2 as ->. eapply scc_reach; eauto.
        -- eapply (cs_reach D strat); [exact I|intros a r; apply (ci_e2 _ _ _ _ C)|apply DOWN; exact K2|exact BB|exact K1].
      * intros RR. apply (bg_list_spec D strat _ _ v I C). apply (reach_closed D strat (fun z => In z (bg_list (g_st g) (g_cg g))) (fun x y => bg_closed D strat _ _ x y I C) b v RR).
        apply (bg_list_spec D strat _ _ b I C). exists b0. split; auto. apply is_bg_spec; auto.
    + lia.
    + intros k. unfold scc. destruct (dget k (e_sccs (g_st g))) as [t'|] eqn:Z; [|cbn; lia]. rewrite L4. apply (L2 k t'). apply LEN; exact Z.
  - left. split; [unfold background, bg_list; rewrite CB; reflexivity|]. destruct (ci_nobg _ _ _ _ C CB) as [_ M].
    pose proof (largest_spec (e_sccs (g_st g)) 0 None) as LS. destruct (largest (e_sccs (g_st g)) 0 None) as [m ind]. destruct LS as [_ [L2 _]]. cbn in M.
    intros u v JU JV N1 N2. apply needs_reach in N1, N2. apply (labelled_pf D strat _ _ I) in JU as [i Ui].
    assert (Vi : scc_id (g_st g) v = Some i) by (apply (ti_comp _ _ _ _ I u v i Ui); auto).
    apply (ti_sccs _ _ _ _ I) in Ui, Vi. unfold scc in Ui, Vi. destruct (dget i (e_sccs (g_st g))) as [t|] eqn:Z; [|destruct Ui].
    pose proof (L2 i t (LEN i t Z)). destruct t as [|a [|b t]]; [destruct Ui| |cbn in H; lia]. destruct Ui as [<-|[]], Vi as [<-|[]]. reflexivity.
Qed.
Print Assumptions C32_background_is.
(** no history of additions can fail on a missing row or column index: after a successful traversal the only error an update can
    raise is the division by a zero net output *)
Theorem C32_no_missing_index D strat ord fuel cs g vs s :
  (forall l, Permutation (ord l) l) -> brun D strat fuel ord eng0 cs = UOk g -> add_products D strat fuel (g_st g) vs = TDone s ->
  forall g' e, eng_update fuel ord (with_st g s) = UErr g' e -> e = BZeroDivision /\ exists u, In u (e_pf s) /\ evq D strat u = Q2Qc 0.
Proof.
  intros ORD R A g' e U. destruct (brun_ok D strat ord ORD fuel cs eng0 g (GI_eng0 D strat) R) as [G _].
  pose proof (eng_update_ok D strat ord ORD fuel g vs s G (add_products_batch D strat fuel vs _ _ (gi_ti _ _ _ G) A)) as H. rewrite U in H. exact H.
Qed.
Print Assumptions C32_no_missing_index.

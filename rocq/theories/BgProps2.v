(** Properties C33, C35-C37 of the background engine, and the matrices of a single batch (model: BgModel.v). *)
From Verif Require Import Num Base ProcModel BgModel BgProofs BgProofs2 BgProofs3 BgProofs4 BgProofs5 BgProps.
From Coq Require Import Relations Sorted Permutation.
Open Scope nat_scope.
Open Scope list_scope.

(** * C33: the foreground order *)
Theorem C33_foreground_order D strat ord fuel cs g :
  (forall l, Permutation (ord l) l) -> brun D strat fuel ord eng0 cs = UOk g ->
  NoDup (foreground g)
  /\ (forall v, In v (foreground g) <-> indexed g v /\ ~ In v (background g))
  /\ (forall u v, In u (foreground g) -> In v (foreground g) -> depends D strat u v -> ~ needs D strat v u -> pos u (foreground g) < pos v (foreground g)).
Proof.
  intros ORD R. destruct (brun_ok D strat ord ORD fuel cs eng0 g (GI_eng0 D strat) R) as [G _]. pose proof (gi_ti _ _ _ G) as I. pose proof (gi_ci _ _ _ G) as C.
  pose proof (gi_ord _ _ _ G) as P. pose proof (gi_topo _ _ _ G) as T.
  assert (ND : NoDup (g_order g)) by (eapply Permutation_NoDup; [symmetry; exact P|]; apply NoDup_filter; apply (ti_snd _ _ _ _ I)).
  assert (NF : NoDup (foreground g)) by (apply (NoDup_flat_scc D strat); auto).
  assert (MEM : forall v, In v (foreground g) <-> exists k, In k (g_order g) /\ scc_id (g_st g) v = Some k).
  { intros v. unfold foreground, fg_list. rewrite in_flat_map. split; intros [k [K1 K2]]; exists k; split; auto; apply (ti_sccs _ _ _ _ I); exact K2. }
  split; [exact NF|]. split.
  - intros v. rewrite MEM. unfold background. rewrite (bg_list_spec D strat _ _ v I C). unfold indexed. split.
    + intros [k [K1 K2]]. split; [apply (labelled_pf D strat _ _ I); eauto|]. intros [k' [K3 K4]]. replace k' with k in K4 by congruence.
      apply (Permutation_in _ P) in K1. apply filter_In in K1 as [_ K1]. rewrite K4 in K1. discriminate.
    + intros [J NB]. apply (labelled_pf D strat _ _ I) in J as [k K]. exists k. split; auto. apply (Permutation_in _ (Permutation_sym P)). apply filter_In.
      split; [eapply scc_key; eauto|]. destruct (is_bg_scc (g_cg g) k) eqn:B; auto. exfalso. apply NB. eauto.
  - intros u v JU JV Dp NN. apply MEM in JU as [a [A1 A2]]. apply MEM in JV as [r [R1 R2]].
    assert (PU : In u (e_pf (g_st g))) by (apply (labelled_pf D strat _ _ I); eauto).
    assert (NE : v <> u) by (intros ->; apply NN; apply rt_refl). apply depends_edge in Dp.
    destruct (ci_e1 _ _ _ _ C u v PU Dp NE) as [a' [r' [A' [R' Q]]]]. replace a' with a in * by congruence. replace r' with r in * by congruence.
    assert (AR : a <> r). { intros ->. apply NN, needs_reach. eapply scc_reach; eauto. }
    apply in_split in R1 as [l [b E]]. assert (AL : In a l) by (eapply T; [exact E|]; apply dep_cs; split; auto).
    unfold foreground, fg_list in *. rewrite E in *. rewrite flat_map_app. cbn [flat_map].
    assert (UL : In u (flat_map (scc (g_st g)) l)) by (apply in_flat_map; exists a; split; auto; apply (ti_sccs _ _ _ _ I); auto).
    rewrite pos_app_in by exact UL. rewrite pos_app_notin.
    + pose proof (pos_lt u _ UL). lia.
    + intros VL. rewrite flat_map_app in NF. cbn [flat_map] in NF. apply (NoDup_app_disj _ _ NF v VL). apply in_app_iff. left. apply (ti_sccs _ _ _ _ I); auto.
Qed.
Print Assumptions C33_foreground_order.

(** * The matrices of a database added in one batch *)
Lemma single_form D strat fuel ord vs g : (forall l, Permutation (ord l) l) -> brun D strat fuel ord eng0 [AddAll vs] = UOk g ->
  exists s c, batch D strat vs est0 s /\ g_st g = taken s /\ g_cg g = c /\ update_graph fuel s (CG [] None []) = Some c
    /\ g_interior g = filter (fun e => mem (fst (fst e)) (bg_list s c)) (map (adj D strat) (rev (e_int s)))
    /\ g_bgem g = filter (fun e => mem (fst (fst e)) (bg_list s c)) (map (adj D strat) (rev (e_cut s)))
    /\ (forall b, c_bg c = Some b -> exists ra rb, a_rows s c (g_interior g) = Some ra /\ b_rows s c (g_bgem g) = Some rb
          /\ g_a g = Some (length (bg_list s c), ra) /\ g_b g = Some (length (e_ems s), length (bg_list s c), rb)).
Proof.
  intros ORD R. cbn [brun bcall_run] in R. unfold add_all_ref_products in R. cbn [eng0 g_all g_st] in R.
  destruct (add_products D strat fuel est0 vs) as [s| |] eqn:A; try discriminate.
  pose proof (add_products_batch D strat fuel vs est0 s (TI_est0 D strat) A) as B.
  destruct (eng_update fuel ord (with_st eng0 s)) as [g1| |] eqn:EU; try discriminate. injection R as <-. cbn [g_cg g_st g_interior g_bgem g_a g_b].
  assert (EVQ : forall v, In v (e_pf s) -> ev_of s v = evq D strat v).
  { intros v J. destruct B as [_ [new [B1 [_ [_ [_ [_ [_ [B7 _]]]]]]]]]. unfold ev_of, evq. rewrite B7; auto. rewrite B1 in J. exact J. }
  assert (PI : forall e, In e (rev (e_int s)) -> In (fst (fst e)) (e_pf s)).
  { intros e J. destruct B as [_ [new [B1 [_ [_ [B4 _]]]]]]. apply in_rev in J. apply (Permutation_in _ B4) in J. cbn in J, B1. apply in_flat_map in J as [u [J1 J2]].
    apply Ints_parent in J2. rewrite J2, B1. exact J1. }
  assert (PC : forall e, In e (rev (e_cut s)) -> In (fst (fst e)) (e_pf s)).
  { intros e J. destruct B as [_ [new [B1 [_ [_ [_ [B5 _]]]]]]]. apply in_rev in J. apply (Permutation_in _ B5) in J. cbn in J, B1. apply in_flat_map in J as [u [J1 J2]].
    apply Cuts_parent in J2. rewrite J2, B1. exact J1. }
  unfold eng_update in EU. cbn [with_st g_st g_cg eng0] in EU. destruct (update_graph fuel s (CG [] None [])) as [c|] eqn:UG; [|discriminate].
  destruct (fg_order fuel ord s c); [|discriminate].
  pose proof (adjust_all_ok D strat s (rev (e_int s)) (fun e h => EVQ _ (PI e h))) as HI.
  pose proof (adjust_all_ok D strat s (rev (e_cut s)) (fun e h => EVQ _ (PC e h))) as HC.
  destruct (adjust_all s (rev (e_int s))) as [li|]; [|discriminate]. destruct (adjust_all s (rev (e_cut s))) as [lc|]; [|discriminate].
  destruct HI as [-> _], HC as [-> _]. unfold split_bg in EU. exists s, c. split; [exact B|].
  destruct (c_bg c) eqn:CB.
  - cbn [with_st eng0 g_a g_b g_interior g_bgem app] in EU.
    destruct (a_rows s c _) as [ra|] eqn:RA; [|discriminate]. destruct (b_rows s c _) as [rb|] eqn:RB; [|discriminate]. injection EU as <-.
    cbn [g_st g_cg g_interior g_bgem g_a g_b]. rewrite Nat.ltb_irrefl. do 5 (split; [auto|]). intros b _. exists ra, rb. auto.
  - injection EU as <-. cbn [g_st g_cg g_interior g_bgem g_a g_b with_st eng0 app]. do 5 (split; [auto|]). discriminate.
Qed.
Lemma mat_rows_spec {B C E} (rf cf : B -> option nat) val l t (bl : list C) (el : list E) (rn : B -> E) (cn : B -> C) :
  (forall b i, rf b = Some i -> nth_error el i = Some (rn b)) -> (forall b i, cf b = Some i -> nth_error bl i = Some (cn b)) ->
  mat_rows rf cf val l = Some t ->
  map (fun r => (nth_error el (fst (fst r)), nth_error bl (snd (fst r)), snd r)) t = map (fun e => (Some (rn e), Some (cn e), val e)) l.
Proof.
  intros H1 H2. revert t. induction l as [|x l IH]; intros t M; cbn in M; [injection M as <-; reflexivity|].
  destruct (rf x) as [i|] eqn:Rx; [|discriminate]. destruct (cf x) as [j|] eqn:Cx; [|discriminate]. destruct (mat_rows rf cf val l) as [t'|]; [|discriminate].
  injection M as <-. cbn. rewrite (H1 _ _ Rx), (H2 _ _ Cx), (IH t' eq_refl). reflexivity.
Qed.
Lemma bg_dict_nth s c v i : bg_dict s c v = Some i -> nth_error (bg_list s c) i = Some v.
Proof. unfold bg_dict. destruct (mem_spec v (bg_list s c)) as [J|]; [|discriminate]. intros E; injection E as <-. apply nth_pos; exact J. Qed.
Lemma posof_nth {A} `{EqB A} (x : A) l i : posof x l = Some i -> nth_error l i = Some x.
Proof. unfold posof. destruct (mem_spec x l) as [J|]; [|discriminate]. intros E; injection E as <-. apply nth_pos; exact J. Qed.
Lemma filter_all {A} (f : A -> bool) l : (forall x, In x l -> f x = true) -> filter f l = l.
Proof. induction l as [|a l IH]; cbn; auto. intros F. rewrite (F a) by auto. rewrite IH; auto. Qed.
Lemma filter_false' {A} (f : A -> bool) l : (forall x, In x l -> f x = false) -> filter f l = [].
Proof. induction l as [|a l IH]; cbn; auto. intros F. rewrite (F a) by auto. apply IH; auto. Qed.
Lemma Permutation_filter {A} (f : A -> bool) l m : Permutation l m -> Permutation (filter f l) (filter f m).
Proof. induction 1; cbn; auto; [destruct (f x); auto|destruct (f x), (f y); auto; constructor|etransitivity; eauto]. Qed.
Lemma filter_flat_parent {B} (f : node -> list (node * B * Qc)) (S : list node) l : (forall u e, In e (f u) -> fst (fst e) = u) ->
  filter (fun e => mem (fst (fst e)) S) (flat_map f l) = flat_map f (filter (fun u => mem u S) l).
Proof.
  intros P. induction l as [|u l IH]; cbn [flat_map filter]; auto. rewrite filter_app, IH. destruct (mem u S) eqn:M; cbn [flat_map].
  - f_equal. apply filter_all. intros e J. rewrite (P u e J). exact M.
  - rewrite filter_false'; auto. intros e J. rewrite (P u e J). exact M.
Qed.
(** C32 (matrices): after [add_all_ref_products], the technology matrix A* has one row and column per background product flow and
    contains exactly the normalised dependencies of the background product flows; B* exactly their cut-off exchanges. *)
Theorem C32_matrices D strat ord fuel vs g :
  (forall l, Permutation (ord l) l) -> brun D strat fuel ord eng0 [AddAll vs] = UOk g -> background g <> [] ->
  exists ra rb, g_a g = Some (length (background g), ra) /\ g_b g = Some (length (e_ems (g_st g)), length (background g), rb)
  /\ Permutation (map (fun r => (nth_error (background g) (fst (fst r)), nth_error (background g) (snd (fst r)), snd r)) ra)
                 (map (fun e => (Some (snd (fst e)), Some (fst (fst e)), snd e)) (flat_map (interior_spec D strat) (background g)))
  /\ Permutation (map (fun r => (nth_error (e_ems (g_st g)) (fst (fst r)), nth_error (background g) (snd (fst r)), snd r)) rb)
                 (map (fun e => (Some (snd (fst e)), Some (fst (fst e)), snd e)) (flat_map (cutoff_spec D strat) (background g))).
Proof.
  intros ORD R NE. destruct (single_form D strat fuel ord vs g ORD R) as [s [c [B [S1 [S2 [UG [SI [SB SA]]]]]]]].
  destruct (brun_ok D strat ord ORD fuel _ eng0 g (GI_eng0 D strat) R) as [G _]. pose proof (gi_ti _ _ _ G) as I. pose proof (gi_ci _ _ _ G) as C.
  assert (BG : background g = bg_list s c) by (unfold background; rewrite S1, S2; reflexivity).
  destruct (c_bg c) as [b|] eqn:CB; [|exfalso; apply NE; rewrite BG; unfold bg_list; rewrite CB; reflexivity].
  destruct (SA b eq_refl) as [ra [rb [RA [RB [GA GB]]]]]. exists ra, rb. rewrite BG, S1. cbn [taken e_ems]. split; [exact GA|]. split; [exact GB|].
  destruct B as [IS [new [B1 [_ [_ [B4 [B5 _]]]]]]]. cbn in B1, B4, B5. subst new.
  assert (BP : Permutation (filter (fun u => mem u (bg_list s c)) (e_pf s)) (bg_list s c)).
  { rewrite S1, S2 in C. apply NoDup_Permutation; [apply NoDup_filter, (ti_nd _ _ _ _ IS)|rewrite <- BG; unfold background; apply (bg_list_nd D strat); auto; apply G|].
    intros v. rewrite filter_In, mem_In. split; [tauto|]. intros J. split; auto. rewrite S1 in I.
    apply (bg_list_spec D strat (taken s) c v I C) in J as [k [K _]]. apply (labelled_pf D strat (taken s) v I). eauto. }
  split.
  - rewrite (mat_rows_spec (fun e : node * node * Qc => bg_dict s c (snd (fst e))) (fun e => bg_dict s c (fst (fst e))) snd (g_interior g) ra (bg_list s c) (bg_list s c)
       (fun e => snd (fst e)) (fun e => fst (fst e)) (fun e i => bg_dict_nth s c _ i) (fun e i => bg_dict_nth s c _ i) RA).
    apply Permutation_map. rewrite SI. etransitivity; [apply Permutation_filter, Permutation_map; etransitivity; [symmetry; apply Permutation_rev|exact B4]|].
    rewrite map_flat_map, (filter_flat_parent _ (bg_list s c)); [rewrite BP|].
    + erewrite flat_map_ext; [reflexivity|]. intros u. apply interior_spec_eq.
    + intros u e J. apply in_map_iff in J as [e' [<- J]]. apply Ints_parent in J. exact J.
  - rewrite (mat_rows_spec (fun e : node * emis * Qc => posof (snd (fst e)) (e_ems s)) (fun e => bg_dict s c (fst (fst e))) snd (g_bgem g) rb (bg_list s c) (e_ems s)
       (fun e => snd (fst e)) (fun e => fst (fst e)) (fun e i => posof_nth _ _ i) (fun e i => bg_dict_nth s c _ i) RB).
    apply Permutation_map. rewrite SB. etransitivity; [apply Permutation_filter, Permutation_map; etransitivity; [symmetry; apply Permutation_rev|exact B5]|].
    rewrite map_flat_map, (filter_flat_parent _ (bg_list s c)); [rewrite BP|].
    + erewrite flat_map_ext; [reflexivity|]. intros u. apply cutoff_spec_eq.
    + intros u e J. apply in_map_iff in J as [e' [<- J]]. apply Cuts_parent in J. exact J.
Qed.
Print Assumptions C32_matrices.

(** * A concrete database (non-vacuity and refutations) *)
Definition idord (l : list nat) : list nat := l.
Lemma idord_perm l : Permutation (idord l) l. Proof. apply Permutation_refl. Qed.
Definition qh : Qc := Q2Qc (1 # 10).
(** 0: p needs q (1); q emits flow 9; x (2) and y (3) need each other; x needs p; z (4) needs x and emits *)
Definition D35 : db := DB
  (fun v => match v with
            | (0, 0) => [RX 1 Input (Some 1) (Some (Q2Qc (1 # 2))) false]
            | (1, 1) => [RX 9 Output None (Some (Q2Qc 3)) false]
            | (2, 2) => [RX 3 Input (Some 3) (Some qh) false; RX 0 Input (Some 0) (Some (Q2Qc 1)) false]
            | (3, 3) => [RX 2 Input None (Some qh) false; RX 3 Input (Some 3) (Some qh) false]
            | (4, 4) => [RX 2 Input None (Some (Q2Qc 2)) false; RX 9 Output None (Some (Q2Qc 1)) false; RX 4 Output None (Some (Q2Qc 1)) true]
            | _ => [] end)
  (fun f d => if Nat.eqb f 2 then [2] else []) (fun v => if Nat.eqb (fst v) (snd v) then Some Output else None).
Definition res35 (cs : list bcall) : eng := match brun D35 Abort 50 idord eng0 cs with UOk g => g | _ => eng0 end.
Definition one_batch : list bcall := [AddAll [(4, 4); (0, 0); (2, 2)]].
Example C30_example : exists g, brun D35 Abort 50 idord eng0 one_batch = UOk g
  /\ component g (2, 2) = component g (3, 3) /\ component g (2, 2) <> component g (0, 0) /\ length (background g) = 4 /\ foreground g = [(4, 4)].
Proof. exists (res35 one_batch). split; [vm_compute; reflexivity|]. vm_compute. repeat split; auto. discriminate. Qed.
Example C31_example : one_list one_batch /\ ~ ambiguous D35 Abort
  /\ (let U := [(0, 0); (1, 1); (2, 2); (3, 3); (4, 4)] in
      (forall u v, In u U -> depends D35 Abort u v -> In v U) /\ (forall u, In u U -> evq D35 Abort u <> Q2Qc 0)
      /\ forall r, is_root one_batch r -> In r U /\ db_ref D35 r <> None).
Proof.
  split; [intros vs ws [E1|[]] [E2|[]]; congruence|]. split.
  - intros [x [_ [L _]]]. cbn in L. destruct (r_flow x =? 2); cbn in L; lia.
  - split; [|split].
    + intros u v J Dp. apply depends_edge in Dp. cbn in J.
      destruct J as [<-|[<-|[<-|[<-|[<-|[]]]]]]; vm_compute in Dp; (repeat destruct Dp as [Dp|Dp]); try contradiction; subst; vm_compute; tauto.
    + intros u J. cbn in J. destruct J as [<-|[<-|[<-|[<-|[<-|[]]]]]]; intros E; apply (f_equal this) in E; vm_compute in E; discriminate.
    + intros r [c [[<-|[]] K]]. cbn in K. destruct K as [<-|[<-|[<-|[]]]]; cbn; split; auto 10; discriminate.
Qed.

(** * C35: order of additions *)
(** What does not depend on how the products are added: the indexed product flows, the components, the entries and the emissions. *)
Lemma Permutation_flat_map' {A B} (f : A -> list B) l m : Permutation l m -> Permutation (flat_map f l) (flat_map f m).
Proof. induction 1; cbn; auto; [apply Permutation_app_head; auto|rewrite !app_assoc; apply Permutation_app_tail, Permutation_app_comm|etransitivity; eauto]. Qed.
Theorem C35_order_partial D strat ord1 ord2 fuel1 fuel2 cs1 cs2 g1 g2 :
  (forall l, Permutation (ord1 l) l) -> (forall l, Permutation (ord2 l) l) -> one_list cs1 -> one_list cs2 ->
  (forall v, is_root cs1 v <-> is_root cs2 v) ->
  brun D strat fuel1 ord1 eng0 cs1 = UOk g1 -> brun D strat fuel2 ord2 eng0 cs2 = UOk g2 ->
  (forall v, indexed g1 v <-> indexed g2 v)
  /\ (forall u v, indexed g1 u -> indexed g1 v -> (component g1 u = component g1 v <-> component g2 u = component g2 v))
  /\ Permutation (g_interior g1 ++ g_foreground g1) (g_interior g2 ++ g_foreground g2)
  /\ Permutation (g_bgem g1 ++ g_cutoff g1) (g_bgem g2 ++ g_cutoff g2)
  /\ Permutation (e_ems (g_st g1)) (e_ems (g_st g2)).
Proof.
  intros O1 O2 L1 L2 RT R1 R2.
  destruct (C31_coverage D strat ord1 fuel1 cs1 g1 O1 L1 R1) as [A1 [A2 _]]. destruct (C31_coverage D strat ord2 fuel2 cs2 g2 O2 L2 R2) as [B1 [B2 _]].
  assert (IX : forall v, indexed g1 v <-> indexed g2 v).
  { intros v. rewrite A1, B1. split; intros [r [X Y]]; exists r; split; auto; apply RT; auto. }
  assert (PP : Permutation (e_pf (g_st g1)) (e_pf (g_st g2))) by (apply NoDup_Permutation; auto).
  destruct (C30_components D strat ord1 fuel1 cs1 g1 O1 R1) as [_ [C1 _]]. destruct (C30_components D strat ord2 fuel2 cs2 g2 O2 R2) as [_ [C2 _]].
  destruct (C31_entries D strat ord1 fuel1 cs1 g1 O1 R1) as [E1 [F1 [M1 N1]]]. destruct (C31_entries D strat ord2 fuel2 cs2 g2 O2 R2) as [E2 [F2 [M2 N2]]].
  split; [exact IX|]. split; [|split; [|split]].
  - intros u v JU JV. rewrite C1, C2 by (auto; apply IX; auto). tauto.
  - rewrite E1, E2. apply Permutation_flat_map'; exact PP.
  - rewrite F1, F2. apply Permutation_flat_map'; exact PP.
  - apply NoDup_Permutation; auto. intros e. rewrite N1, N2.
    assert (Q : forall c, In c (g_bgem g1 ++ g_cutoff g1) <-> In c (g_bgem g2 ++ g_cutoff g2)).
    { intros c. split; intros J; (eapply Permutation_in; [|exact J]); rewrite F1, F2; [|symmetry]; apply Permutation_flat_map'; exact PP. }
    split; intros [c [X Y]]; exists c; split; auto; apply Q; auto.
Qed.
Print Assumptions C35_order_partial.
(** the technology matrix in terms of product flows *)
Definition technology (g : eng) : list (option node * option node * Qc) :=
  match g_a g with Some (_, t) => map (fun r => (nth_error (background g) (fst (fst r)), nth_error (background g) (snd (fst r)), snd r)) t | None => [] end.
(** Refuted: the same product flows added one by one give a technology matrix that lacks the dependency of p on q, although the
    background (as reported) is the same set. *)
Theorem C35_refuted_incremental : exists D g1 g2 (a b : node),
  brun D Abort 50 idord eng0 [AddRef a; AddRef b] = UOk g1 /\ brun D Abort 50 idord eng0 [AddAll [a; b]] = UOk g2
  /\ Permutation (background g1) (background g2) /\ ~ Permutation (technology g1) (technology g2)
  /\ exists e, In e (technology g2) /\ ~ In e (technology g1).
Proof.
  exists D35, (res35 [AddRef (0, 0); AddRef (2, 2)]), (res35 [AddAll [(0, 0); (2, 2)]]), (0, 0), (2, 2).
  split; [vm_compute; reflexivity|]. split; [vm_compute; reflexivity|]. split.
  - apply NoDup_Permutation; [vm_compute; repeat constructor; cbn; intuition discriminate|vm_compute; repeat constructor; cbn; intuition discriminate|].
    intros v. split; intros J; vm_compute in J; vm_compute; intuition.
  - assert (E : length (technology (res35 [AddRef (0, 0); AddRef (2, 2)])) = 3 /\ length (technology (res35 [AddAll [(0, 0); (2, 2)]])) = 4) by (vm_compute; auto).
    destruct E as [E1 E2]. split; [intros P; apply Permutation_length in P; lia|].
    exists (Some (1, 1), Some (0, 0), Q2Qc (1 # 2)). split.
    + vm_compute. repeat (left; apply pair_equal_spec; split; [reflexivity|apply Qc_is_canon; reflexivity] || right); auto.
    + intros J. apply (in_map fst) in J. vm_compute in J. intuition discriminate.
Qed.
(** Refuted also within one batch: with two largest components of equal size, the order of the processes decides which one is the
    background. *)
Definition D35b : db := DB
  (fun v => match v with
            | (0, 0) => [RX 1 Input (Some 1) (Some qh) false] | (1, 1) => [RX 0 Input (Some 0) (Some qh) false]
            | (2, 2) => [RX 3 Input (Some 3) (Some qh) false] | (3, 3) => [RX 2 Input (Some 2) (Some qh) false]
            | _ => [] end)
  (fun f d => []) (fun v => if Nat.eqb (fst v) (snd v) then Some Output else None).
Theorem C35_refuted_tie : exists D g1 g2 (a b : node),
  brun D Abort 50 idord eng0 [AddAll [a; b]] = UOk g1 /\ brun D Abort 50 idord eng0 [AddAll [b; a]] = UOk g2
  /\ In a (background g1) /\ ~ In a (background g2).
Proof.
  exists D35b, (match brun D35b Abort 50 idord eng0 [AddAll [(0, 0); (2, 2)]] with UOk g => g | _ => eng0 end),
    (match brun D35b Abort 50 idord eng0 [AddAll [(2, 2); (0, 0)]] with UOk g => g | _ => eng0 end), (0, 0), (2, 2).
  split; [vm_compute; reflexivity|]. split; [vm_compute; reflexivity|]. split; vm_compute; intuition discriminate.
Qed.

(** * C36: a failed product leaves traces (refuted) *)
(** flow 8 has two providers, so it cannot be terminated under 'abort' *)
Definition D36 : db := DB
  (fun v => match v with
            | (0, 0) => [RX 8 Input None (Some (Q2Qc 1)) false]
            | (1, 1) => [RX 2 Input (Some 2) (Some (Q2Qc 1)) false; RX 8 Input None (Some (Q2Qc 1)) false]
            | (2, 2) => [RX 3 Input (Some 3) (Some (Q2Qc 1)) false; RX 9 Output None (Some (Q2Qc 1)) false]
            | (4, 4) => [RX 5 Input (Some 5) (Some (Q2Qc 1)) false]
            | _ => [] end)
  (fun f d => if Nat.eqb f 8 then [6; 7] else []) (fun v => if Nat.eqb (fst v) (snd v) then Some Output else None).
(** the error raised is not the documented TerminationError but an IndexError of the clean-up *)
Theorem C36_refuted_exception : exists D v s, terminate D [] (hd (RX 0 Input None None false) (db_inv D v)) Abort = BErr TerminationError
  /\ add_ref_product D Abort 50 idord eng0 v = UErr s BIndexError.
Proof. exists D36, (0, 0). eexists. split; vm_compute; reflexivity. Qed.
(** and when the clean-up does succeed, components of the removed product flows stay behind: a later, correct addition then reports a
    component holding two product flows that do not need each other, one of which is not even indexed *)
Theorem C36_refuted_stale_component : exists D v w g g' u i,
  add_ref_product D Abort 50 idord eng0 v = UErr g TerminationError
  /\ add_ref_product D Abort 50 idord g w = UOk g'
  /\ In u (scc (g_st g') i) /\ In (5, 5) (scc (g_st g') i) /\ u <> (5, 5) /\ ~ indexed g' u
  /\ background g' <> [] /\ ~ needs D Abort (5, 5) u.
Proof.
  exists D36, (1, 1), (4, 4). eexists. eexists. exists (2, 2), 1. split; [vm_compute; reflexivity|]. split; [vm_compute; reflexivity|].
  split; [vm_compute; auto|]. split; [vm_compute; auto|]. split; [discriminate|]. split; [vm_compute; intuition discriminate|]. split; [vm_compute; discriminate|].
  intros N. apply needs_reach in N. assert (X : (2, 2) = (5, 5)); [|discriminate].
  apply (reach_closed D36 Abort (fun z => z = (5, 5))) in N; auto. intros u v -> Ed. vm_compute in Ed. destruct Ed.
Qed.

(** * C37: termination strategy *)
(** complete decision table; the last column of outcomes is exclusive, so each line is an equivalence *)
Theorem C37_decision_table D ems x strat :
  let multi := 2 <= length (db_terms D (r_flow x) (r_dir x)) in
  let open := r_term x = None /\ ~ In (r_flow x, r_dir x) ems in
  (forall p, r_term x = Some p -> terminate D ems x strat = BOk (Some p))
  /\ (r_term x = None -> In (r_flow x, r_dir x) ems -> terminate D ems x strat = BOk None)
  /\ (open -> db_terms D (r_flow x) (r_dir x) = [] -> terminate D ems x strat = BOk None)
  /\ (forall p, open -> db_terms D (r_flow x) (r_dir x) = [p] -> terminate D ems x strat = BOk (Some p))
  /\ (open -> multi ->
      (strat = First -> terminate D ems x strat = BOk (hd_error (db_terms D (r_flow x) (r_dir x))))
      /\ (strat = Last -> terminate D ems x strat = BOk (hd_error (rev (db_terms D (r_flow x) (r_dir x)))))
      /\ (strat = Cutoff -> terminate D ems x strat = BOk None)
      /\ (strat = Abort -> terminate D ems x strat = BErr TerminationError)
      /\ (strat = Mix -> terminate D ems x strat = BErr BNotImplemented)
      /\ (strat = UnknownStrategy -> terminate D ems x strat = BErr BKeyError)).
Proof.
  unfold terminate. split; [intros p ->; reflexivity|]. split.
  { intros -> J. rewrite (proj2 (mem_In _ _) J). reflexivity. }
  split; [intros [-> NJ] ->; rewrite (proj2 (mem_nIn _ _) NJ); reflexivity|]. split; [intros p [-> NJ] ->; rewrite (proj2 (mem_nIn _ _) NJ); reflexivity|].
  intros [-> NJ]. rewrite (proj2 (mem_nIn _ _) NJ). destruct (db_terms D (r_flow x) (r_dir x)) as [|t [|t' ts]]; cbn [length]; try lia. intros _.
  split; [intros ->; reflexivity|]. split; [|split; [intros ->; reflexivity|split; [intros ->; reflexivity|split; intros ->; reflexivity]]].
  intros ->. destruct (exists_last (l := t' :: ts)) as [l [a Z]]; [discriminate|]. rewrite Z, last_last. change (t :: l ++ [a]) with ((t :: l) ++ [a]). rewrite rev_app_distr. reflexivity.
Qed.
Print Assumptions C37_decision_table.
Example C37_example : terminate D36 [] (RX 8 Input None (Some (Q2Qc 1)) false) First = BOk (Some 6)
  /\ terminate D36 [] (RX 8 Input None (Some (Q2Qc 1)) false) Last = BOk (Some 7)
  /\ terminate D36 [(8, Input)] (RX 8 Input None (Some (Q2Qc 1)) false) Last = BOk None.
Proof. repeat split; vm_compute; reflexivity. Qed.
(** What does hold: a call that fails leaves the published results (matrices, sorted entries, background, foreground order) alone. *)
Theorem C36_published_unchanged_partial D strat ord fuel g c g' e :
  (forall l, Permutation (ord l) l) -> (forall cs, brun D strat fuel ord eng0 cs = UOk g ->
  bcall_run D strat fuel ord g c = UErr g' e ->
  g_a g' = g_a g /\ g_b g' = g_b g /\ g_interior g' = g_interior g /\ g_foreground g' = g_foreground g /\ g_bgem g' = g_bgem g /\ g_cutoff g' = g_cutoff g
  /\ g_cg g' = g_cg g /\ g_order g' = g_order g).
Proof.
  intros ORD cs R. destruct (brun_ok D strat ord ORD fuel cs eng0 g (GI_eng0 D strat) R) as [G _].
  assert (UPD : forall s g2 e2, (exists vs, batch D strat vs (g_st g) s) -> eng_update fuel ord (with_st g s) = UErr g2 e2 -> g2 = with_st g s).
  { intros s g2 e2 [vs B] U. pose proof (eng_update_ok D strat ord ORD fuel g vs s G B) as H. rewrite U in H. destruct H as [-> _].
    unfold eng_update in U. cbn [with_st g_st g_cg] in U. destruct (update_graph fuel s (g_cg g)); [|discriminate]. destruct (fg_order fuel ord s c0); [|discriminate].
    destruct (adjust_all s (rev (e_int s))); [destruct (adjust_all s (rev (e_cut s)))|]; [|injection U as <- _; reflexivity|injection U as <- _; reflexivity].
    destruct (split_bg s c0 a) as [? ?], (split_bg s c0 a0) as [? ?]. destruct (c_bg c0); [|discriminate]. cbn [with_st g_a g_b] in U. destruct (g_a g); [discriminate|].
    destruct (a_rows s c0 _); [|discriminate]. destruct (b_rows s c0 _); discriminate. }
  destruct c as [v|vs]; cbn [bcall_run].
  - unfold add_ref_product. destruct (mem v (e_pf (g_st g))); [discriminate|]. destruct (add_product D strat fuel (g_st g) v) as [s|s e'|] eqn:A; try discriminate.
    + intros U. apply UPD in U; [subst; cbn; auto 10|]. exists [v]. eapply add_product_batch; eauto. apply G.
    + intros U. injection U as <- _. cbn; auto 10.
  - unfold add_all_ref_products. destruct (g_all g); [discriminate|]. destruct (add_products D strat fuel (g_st g) vs) as [s|s e'|] eqn:A; try discriminate.
    + intros U. destruct (eng_update fuel ord (with_st g s)) as [g1|g1 e1|] eqn:EU; try discriminate. injection U as <- <-.
      apply UPD in EU; [subst; cbn; auto 10|]. exists vs. eapply add_products_batch; eauto. apply G.
    + intros U. injection U as <- _. cbn; auto 10.
Qed.
Print Assumptions C36_published_unchanged_partial.

(** Properties C66 and C67: net output of a self-consuming process, and the material balance solved by the background LCI
    (models: BgModel.v, BgLciModel.v). *)
From Verif Require Import Num Base ProcModel BgModel BgProofs BgProofs2 BgProofs3 BgProofs4 BgProofs5 BgProps BgProps2 BgLciModel BgLciProps.
From Coq Require Import Permutation Lqa.
Open Scope Qc_scope.
Open Scope list_scope.

(** * Specification *)
(** the signed amounts (inputs positive) of product flow [v] exchanged by the process of product flow [u] *)
Definition uses (D : db) (strat : strategy) (u v : node) : list Qc :=
  flat_map (fun x => match target D strat x, r_val x with
                     | Some w, Some q => if eqb w v then [match r_dir x with Output => - q | Input => q end] else []
                     | _, _ => [] end) (db_inv D u).
Definition use (D : db) (strat : strategy) (u v : node) : Qc := Qcsum (uses D strat u v).
(** the amounts of emission [e] (unterminated exchanges) of the process of [u] *)
Definition emission_amount (D : db) (strat : strategy) (u : node) (e : emis) : Qc :=
  Qcsum (flat_map (fun x => match r_val x with
                            | Some q => if negb (eqb q 0) && negb (r_isref x) && eqb (r_flow x, r_dir x) e
                                        then match starget D strat x with None => [q] | Some _ => [] end else []
                            | None => [] end) (db_inv D u)).
(** [target] says what the relation [depends] says: some nonzero non-reference exchange of [u] is terminated at [v] *)
Lemma uses_depends D strat u v : uses D strat u v <> [] <-> depends D strat u v.
Proof.
  rewrite depends_edge. unfold uses, edge, targets. rewrite in_flat_map. split.
  - intros N. induction (db_inv D u) as [|x l IH]; [contradiction|]. cbn [flat_map] in N.
    destruct (target D strat x) as [w|] eqn:T; [|destruct (IH N) as [y [Y1 Y2]]; exists y; cbn; auto].
    destruct (eqb_spec w v) as [->|NE]; [exists x; rewrite T; cbn; auto|]. destruct (r_val x); destruct (IH N) as [y [Y1 Y2]]; exists y; cbn; auto.
  - intros [x [J T]] E. apply (in_nil (a := match r_dir x with Output => - match r_val x with Some q => q | None => 0 end | Input => match r_val x with Some q => q | None => 0 end end)).
    rewrite <- E. apply in_flat_map. exists x. split; auto. destruct (target D strat x) as [w|] eqn:TT; [|destruct T]. destruct T as [->|[]].
    unfold target, relevant in TT. destruct (r_val x); [|discriminate]. destruct (eqb_spec v v); [|contradiction]. cbn; auto.
Qed.

(** * C66 *)
Lemma selfs_uses D strat u : selfs D strat u (db_inv D u) = uses D strat u u.
Proof.
  unfold selfs, uses. apply flat_map_ext. intros x. unfold target. unfold relevant. destruct (r_val x) as [q|]; auto.
  destruct (eqb q (Q2Qc 0)); auto. destruct (r_isref x); auto. destruct (starget D strat x); auto. destruct (db_ref D (r_flow x, n)); auto.
  destruct (eqb_spec u (r_flow x, n)) as [E1|NE]; destruct (eqb_spec (r_flow x, n) u) as [E|NE']; try congruence; auto.
Qed.
Lemma Qcsum_pos l : (forall q, In q l -> 0 < q) -> 0 <= Qcsum l.
Proof.
  induction l as [|a l IH]; intros P; [apply Qcle_refl|]. rewrite Qcsum_cons. rewrite <- (Qcplus_0_l 0). apply Qcplus_le_compat.
  - apply Qclt_le_weak, P; cbn; auto.
  - apply IH. intros q J; apply P; cbn; auto.
Qed.
Lemma adjust_fold l : forall ev, (forall q, In q l -> 0 < q) -> Qcsum l < ev -> fold_left adjust_ev l ev = ev - Qcsum l.
Proof.
  induction l as [|a l IH]; intros ev P LT; [cbn; unfold Qcsum; cbn; ring|]. cbn [fold_left]. rewrite Qcsum_cons in *.
  assert (PA : 0 < a) by (apply P; cbn; auto). assert (PL : 0 <= Qcsum l) by (apply Qcsum_pos; intros; apply P; cbn; auto).
  assert (E : adjust_ev ev a = ev - a).
  { unfold adjust_ev. destruct (eqb_spec a ev) as [->|NE].
    - exfalso. assert (X : ev <= ev + Qcsum l) by (rewrite <- (Qcplus_0_r ev) at 1; apply Qcplus_le_compat; [apply Qcle_refl|auto]). apply (Qclt_not_le _ _ LT X).
    - destruct (Qclt_le_dec ev (Q2Qc 0)) as [N|N]; auto. exfalso. assert (X : 0 <= a + Qcsum l).
      { rewrite <- (Qcplus_0_l 0). apply Qcplus_le_compat; auto. apply Qclt_le_weak; auto. }
      apply (Qclt_not_le _ _ N). apply Qclt_le_weak. eapply Qcle_lt_trans; eauto. }
  rewrite E, IH; [ring|intros; apply P; cbn; auto|].
  apply Qclt_minus_iff in LT. apply Qclt_minus_iff. replace (ev - a + - Qcsum l) with (ev + - (a + Qcsum l)) by ring. exact LT.
Qed.
(** A process with an output reference that consumes less than one unit of its own product per unit made: the columns of the
    published matrices are normalised by the net output 1 - own use. *)
Theorem C66_net_output_partial D strat ord fuel cs g u :
  (forall l, Permutation (ord l) l) -> brun D strat fuel ord eng0 cs = UOk g -> indexed g u ->
  db_ref D u = Some Output -> (forall q, In q (uses D strat u u) -> 0 < q) -> use D strat u u < 1 ->
  evq D strat u = 1 - use D strat u u
  /\ (forall w q, In (u, w, q) (g_interior g ++ g_foreground g) ->
        exists r, In r (uses D strat u w) /\ q = r / (1 - use D strat u u))
  /\ (forall w r, w <> u -> In r (uses D strat u w) -> In (u, w, r / (1 - use D strat u u)) (g_interior g ++ g_foreground g)).
Proof.
  intros ORD R IX DR P LT. assert (EV : evq D strat u = 1 - use D strat u u).
  { unfold evq, Evs, evs. rewrite DR. rewrite selfs_uses. apply adjust_fold; auto. }
  split; [exact EV|]. destruct (C31_entries D strat ord fuel cs g ORD R) as [PI _]. rewrite <- EV. split.
  - intros w q J. apply (Permutation_in _ PI) in J. apply in_flat_map in J as [u' [_ J]]. unfold interior_spec in J. apply in_flat_map in J as [x [X J]].
    destruct (target D strat x) as [w'|] eqn:T; [|destruct J]. destruct (r_val x) as [v|] eqn:V; [|destruct J]. destruct (eqb_spec u' w'); [destruct J|].
    destruct J as [J|[]]. injection J as -> -> <-. exists (match r_dir x with Output => - v | Input => v end). split; auto.
    unfold uses. apply in_flat_map. exists x. split; auto. rewrite T, V. destruct (eqb_spec w w); [cbn; auto|contradiction].
  - intros w r NE J. apply (Permutation_in _ (Permutation_sym PI)). apply in_flat_map. exists u. split; [exact IX|]. unfold uses in J. apply in_flat_map in J as [x [X J]].
    unfold interior_spec. apply in_flat_map. exists x. split; auto. destruct (target D strat x) as [w'|]; [|destruct J]. destruct (r_val x) as [v|]; [|destruct J].
    destruct (eqb_spec w' w) as [->|]; [|destruct J]. destruct J as [<-|[]]. destruct (eqb_spec u w); [congruence|]. cbn; auto.
Qed.
Print Assumptions C66_net_output_partial.

(** two product flows in a cycle, the first consuming a quarter of its own product and emitting flow 9 *)
Definition Q (n : Z) (d : positive) : Qc := Q2Qc (n # d).
Definition D66 : db := DB
  (fun u => if eqb u (1, 1)%nat then [RX 1 Input (Some 1%nat) (Some (Q 1 4)) false; RX 2 Input (Some 2%nat) (Some (Q 1 1)) false; RX 9 Output None (Some (Q 3 1)) false]
            else if eqb u (2, 2)%nat then [RX 1 Input (Some 1%nat) (Some (Q 1 2)) false] else [])
  (fun _ _ => []) (fun u => if eqb u (1, 1)%nat || eqb u (2, 2)%nat then Some Output else None).
Example C66_example : exists g, brun D66 Abort 10 (fun l => l) eng0 [AddAll [(1, 1)]%nat] = UOk g /\ indexed g (1, 1)%nat
  /\ (forall q, In q (uses D66 Abort (1, 1)%nat (1, 1)%nat) -> 0 < q) /\ use D66 Abort (1, 1)%nat (1, 1)%nat < 1
  /\ In ((1, 1)%nat, (2, 2)%nat, Q 4 3) (g_interior g ++ g_foreground g).
Proof.
  eexists. split; [vm_compute; reflexivity|]. split; [vm_compute; auto|]. split; [intros q J; vm_compute in J; destruct J as [<-|[]]; reflexivity|].
  split; [reflexivity|]. vm_compute. auto.
Qed.

(** Refuted for a process with an input reference (treatment): one unit treated, a quarter unit of the same flow given back: net
    treatment 3/4, but the model, like the code, normalises by 5/4. *)
Definition D66i : db := DB (fun u => if eqb u (1, 1)%nat then [RX 1 Output (Some 1%nat) (Some (Q 1 4)) false; RX 2 Input (Some 2%nat) (Some (Q 1 1)) false] else [])
  (fun _ _ => []) (fun u => if eqb u (1, 1)%nat then Some Input else if eqb u (2, 2)%nat then Some Output else None).
Theorem C66_refuted_input_reference : exists D u g, brun D Abort 10 (fun l => l) eng0 [AddAll [u]] = UOk g
  /\ db_ref D u = Some Input /\ use D Abort u u = - Q 1 4
  /\ In (u, (2, 2)%nat, - Q 4 5) (g_interior g ++ g_foreground g) /\ - Q 4 5 <> Q 1 1 / (- (1) - use D Abort u u).
Proof.
  exists D66i, (1, 1)%nat. eexists. split; [vm_compute; reflexivity|]. split; [reflexivity|]. split; [apply Qc_is_canon; reflexivity|].
  split; [vm_compute; auto|]. intros E. apply (f_equal this) in E. vm_compute in E. discriminate.
Qed.
(** Refuted when a self-use equals what is left of the output: two self-inputs of one half and a return of a quarter leave 1/4, but
    the second half is ignored and the column is normalised by 3/4. *)
Definition D66e : db := DB (fun u => if eqb u (1, 1)%nat then
    [RX 1 Input (Some 1%nat) (Some (Q 1 2)) false; RX 1 Input (Some 1%nat) (Some (Q 1 2)) false; RX 1 Output (Some 1%nat) (Some (Q 1 4)) false; RX 2 Input (Some 2%nat) (Some (Q 1 1)) false] else [])
  (fun _ _ => []) (fun u => if eqb u (1, 1)%nat then Some Output else if eqb u (2, 2)%nat then Some Output else None).
Theorem C66_refuted_equal_self_use : exists D u g, brun D Abort 10 (fun l => l) eng0 [AddAll [u]] = UOk g
  /\ db_ref D u = Some Output /\ use D Abort u u = Q 3 4
  /\ In (u, (2, 2)%nat, Q 4 3) (g_interior g ++ g_foreground g) /\ Q 4 3 <> Q 1 1 / (1 - use D Abort u u).
Proof.
  exists D66e, (1, 1)%nat. eexists. split; [vm_compute; reflexivity|]. split; [reflexivity|]. split; [apply Qc_is_canon; reflexivity|].
  split; [vm_compute; auto|]. intros E. apply (f_equal this) in E. vm_compute in E. discriminate.
Qed.

(** * C67: the LCI solves the material balance *)
Lemma Qcsum_flat_map {A B} (f : B -> Qc) (h : A -> list B) l : Qcsum (map f (flat_map h l)) = Qcsum (map (fun a => Qcsum (map f (h a))) l).
Proof. induction l as [|a l IH]; cbn [flat_map map]; auto. rewrite map_app, Qcsum_app, Qcsum_cons, IH. reflexivity. Qed.
Lemma pos_nth_error {A} `{EqB A} (l : list A) i x : NoDup l -> nth_error l i = Some x -> pos x l = i.
Proof.
  intros N E. assert (J : In x l) by (eapply nth_error_In; eauto). pose proof (nth_pos x l J) as E2.
  apply (NoDup_nth_error l) ; auto; [apply pos_lt; auto|congruence].
Qed.
(** the demand on a product flow or emission as a function of the node *)
Definition rowsum {R C} `{EqB R} (v : R) (Y : C -> Qc) (t : option R * option C * Qc) : Qc :=
  match t with (Some w, Some u, q) => if eqb w v then q * Y u else 0 | _ => 0 end.
Lemma mulv_named {R} `{EqB R} (rows : list R) (cols : list node) (m : list trip) (x : vec) (es : list (node * R * Qc)) k v :
  NoDup rows -> NoDup cols -> nth_error rows k = Some v ->
  Permutation (map (fun r => (nth_error rows (fst (fst r)), nth_error cols (snd (fst r)), snd r)) m)
              (map (fun e => (Some (snd (fst e)), Some (fst (fst e)), snd e)) es) ->
  mulv m x k = Qcsum (map (fun e => if eqb (snd (fst e)) v then snd e * x (pos (fst (fst e)) cols) else 0) es).
Proof.
  intros NR NC K P. transitivity (Qcsum (map (rowsum v (fun u => x (pos u cols))) (map (fun r => (nth_error rows (fst (fst r)), nth_error cols (snd (fst r)), snd r)) m))).
  - unfold mulv. rewrite map_map. apply Qcsum_ext. intros [[r c] q] J. cbn [fst snd].
    assert (I : In (nth_error rows r, nth_error cols c, q) (map (fun e : node * R * Qc => (Some (snd (fst e)), Some (fst (fst e)), snd e)) es)).
    { apply (Permutation_in _ P). apply in_map_iff. exists (r, c, q). auto. }
    apply in_map_iff in I as [[[u w] q'] [E _]]. cbn in E. injection E as E1 E2 _. rewrite <- E1, <- E2. unfold rowsum.
    symmetry in E1, E2. rewrite (pos_nth_error cols c u NC E2).
    destruct (Nat.eqb_spec r k) as [->|NE].
    + assert (w = v) by congruence. subst w. destruct (eqb_spec v v); [auto|contradiction].
    + destruct (eqb_spec w v) as [->|]; auto. exfalso. apply NE. rewrite <- (pos_nth_error rows r v NR E1). apply (pos_nth_error rows k v NR K).
  - rewrite (Qcsum_perm _ _ (Permutation_map _ P)), map_map. apply Qcsum_ext. intros [[u w] q] _. reflexivity.
Qed.
Lemma interior_row D strat u v X : Qcsum (map (fun e : node * node * Qc => if eqb (snd (fst e)) v then snd e * X (fst (fst e)) else 0) (interior_spec D strat u))
  = if eqb u v then 0 else use D strat u v * (X u / evq D strat u).
Proof.
  unfold interior_spec, use, uses. destruct (eqb_spec u v) as [->|NE].
  - apply Qcsum_zero. intros [[a b] q] J. apply in_flat_map in J as [x [_ J]]. destruct (target D strat x) as [w|]; [|destruct J]. destruct (r_val x); [|destruct J].
    destruct (eqb_spec v w); [destruct J|]. destruct J as [J|[]]. injection J as <- <- <-. cbn [fst snd]. destruct (eqb_spec w v); [congruence|auto].
  - rewrite Qcsum_flat_map. induction (db_inv D u) as [|x l IH]; [cbn; unfold Qcsum; cbn; ring|]. cbn [map flat_map]. rewrite Qcsum_cons, IH, Qcsum_app.
    destruct (target D strat x) as [w|]; [|cbn; unfold Qcsum; cbn; ring]. destruct (r_val x) as [q|]; [|cbn; unfold Qcsum; cbn; ring].
    destruct (eqb_spec w v) as [->|NW].
    + destruct (eqb_spec u v); [congruence|]. cbn [map snd fst]. destruct (eqb_spec v v); [|contradiction]. rewrite !Qcsum_cons, !Qcsum_nil. unfold Qcdiv. destruct (r_dir x); ring.
    + destruct (eqb u w); cbn [map fst snd]; [unfold Qcsum; cbn; ring|]. destruct (eqb_spec w v); [congruence|]. rewrite Qcsum_cons, !Qcsum_nil. ring.
Qed.
Lemma cutoff_row D strat u e X : Qcsum (map (fun c : node * emis * Qc => if eqb (snd (fst c)) e then snd c * X (fst (fst c)) else 0) (cutoff_spec D strat u))
  = emission_amount D strat u e * (X u / evq D strat u).
Proof.
  unfold cutoff_spec, emission_amount. rewrite Qcsum_flat_map. induction (db_inv D u) as [|x l IH]; [cbn; unfold Qcsum; cbn; ring|]. cbn [map flat_map]. rewrite Qcsum_cons, IH, Qcsum_app.
  change (0 : Qc) with (Q2Qc 0) in *.
  destruct (r_val x) as [q|]; [|cbn; unfold Qcsum; cbn; ring]. destruct (negb (eqb q (Q2Qc 0)) && negb (r_isref x)); [|cbn; unfold Qcsum; cbn; ring]. rewrite andb_true_l.
  destruct (starget D strat x); [destruct (eqb _ e); cbn; unfold Qcsum; cbn; ring|]. cbn [map fst snd].
  destruct (eqb_spec (r_flow x, r_dir x) e); rewrite ?Qcsum_cons, ?Qcsum_nil; unfold Qcdiv; ring.
Qed.
(** If [x] solves the published linear system for the demand [d], the activity levels [Y u = x_u / net output of u] satisfy, for
    every background product flow, net output = demand + use by the other processes, with the amounts of the database; and the
    inventory computed with the published emission matrix is the sum of the processes' emissions at these levels. *)
Theorem C67_material_balance D strat ord fuel vs g n A mr nc B d x :
  (forall l, Permutation (ord l) l) -> brun D strat fuel ord eng0 [AddAll vs] = UOk g -> background g <> [] ->
  g_a g = Some (n, A) -> g_b g = Some (mr, nc, B) -> (forall u, In u (background g) -> evq D strat u <> 0) ->
  (forall i, x i = d i + mulv A x i) ->
  let Y := fun u => x (pos u (background g)) / evq D strat u in
  (forall v, In v (background g) ->
     evq D strat v * Y v = d (pos v (background g)) + Qcsum (map (fun u => if eqb u v then 0 else use D strat u v * Y u) (background g)))
  /\ (forall k e, nth_error (e_ems (g_st g)) k = Some e ->
     mulv B x k = Qcsum (map (fun u => emission_amount D strat u e * Y u) (background g))).
Proof.
  intros ORD R NE GA GB NZ SOL Y. destruct (C32_matrices D strat ord fuel vs g ORD R NE) as [ra [rb [EA [EB [PA PB]]]]].
  rewrite EA in GA. injection GA as <- <-. rewrite EB in GB. injection GB as <- <- <-.
  destruct (C32_background_closed D strat ord fuel _ g ORD R) as [_ [ND [_ _]]]. destruct (C31_entries D strat ord fuel _ g ORD R) as [_ [_ [NDE _]]]. split.
  - intros v J. unfold Y at 1. unfold Qcdiv. rewrite <- (Qcmult_comm (/ evq D strat v)), Qcmult_assoc, Qcmult_inv_r by auto. rewrite Qcmult_1_l, SOL. f_equal.
    rewrite (mulv_named (background g) (background g) ra x _ (pos v (background g)) v ND ND (nth_pos v _ J) PA).
    rewrite Qcsum_flat_map. apply Qcsum_ext. intros u _. apply (interior_row D strat u v (fun u => x (pos u (background g)))).
  - intros k e K. rewrite (mulv_named (e_ems (g_st g)) (background g) rb x _ k e NDE ND K PB). rewrite Qcsum_flat_map. apply Qcsum_ext. intros u _.
    apply (cutoff_row D strat u e (fun u => x (pos u (background g)))).
Qed.
Print Assumptions C67_material_balance.
(** With the net output of C66: gross output = demand + use by all processes, including the own use. *)
Theorem C67_gross_balance D strat ord fuel vs g n A mr nc B d x :
  (forall l, Permutation (ord l) l) -> brun D strat fuel ord eng0 [AddAll vs] = UOk g -> background g <> [] ->
  g_a g = Some (n, A) -> g_b g = Some (mr, nc, B) ->
  (forall u, In u (background g) -> db_ref D u = Some Output /\ (forall q, In q (uses D strat u u) -> 0 < q) /\ use D strat u u < 1) ->
  (forall i, x i = d i + mulv A x i) ->
  exists Y : node -> Qc,
  (forall v, In v (background g) -> Y v = d (pos v (background g)) + Qcsum (map (fun u => use D strat u v * Y u) (background g)))
  /\ (forall k e, nth_error (e_ems (g_st g)) k = Some e ->
     mulv B x k = Qcsum (map (fun u => emission_amount D strat u e * Y u) (background g))).
Proof.
  intros ORD R NE GA GB GU SOL. destruct (C32_background_closed D strat ord fuel _ g ORD R) as [_ [ND [INC _]]].
  assert (EV : forall u, In u (background g) -> evq D strat u = 1 - use D strat u u).
  { intros u J. destruct (GU u J) as [G1 [G2 G3]]. apply (C66_net_output_partial D strat ord fuel _ g u ORD R (INC u J) G1 G2 G3). }
  assert (NZ : forall u, In u (background g) -> evq D strat u <> 0).
  { intros u J Z. rewrite (EV u J) in Z. destruct (GU u J) as [_ [_ G3]]. assert (E1 : use D strat u u = 1) by (rewrite <- (Qcplus_0_l (use D strat u u)), <- Z; ring).
    rewrite E1 in G3. apply (Qclt_not_eq _ _ G3); reflexivity. }
  destruct (C67_material_balance D strat ord fuel vs g n A mr nc B d x ORD R NE GA GB NZ SOL) as [H1 H2]. set (Y := fun u => x (pos u (background g)) / evq D strat u).
  exists Y. split; [|exact H2].
  intros v J. assert (HV : evq D strat v * Y v = d (pos v (background g)) + Qcsum (map (fun u => if eqb u v then 0 else use D strat u v * Y u) (background g))) by exact (H1 v J).
  assert (S : Qcsum (map (fun u => use D strat u v * Y u) (background g)) = use D strat v v * Y v + Qcsum (map (fun u => if eqb u v then 0 else use D strat u v * Y u) (background g))).
  { clearbody Y. clear - J ND. induction (background g) as [|a l IH]; [destruct J|]. cbn [map]. rewrite !Qcsum_cons. inversion ND as [|? ? NA NL]; subst. destruct J as [->|J].
    - destruct (eqb_spec v v); [|contradiction]. rewrite Qcplus_0_l. f_equal. apply Qcsum_ext. intros u U. destruct (eqb_spec u v); [congruence|auto].
    - rewrite IH; auto. destruct (eqb_spec a v); [congruence|ring]. }
  clear H1 H2. clearbody Y. rewrite S. rewrite (EV v J) in HV. transitivity ((1 - use D strat v v) * Y v + use D strat v v * Y v); [ring|]. rewrite HV. ring.
Qed.
Print Assumptions C67_gross_balance.

(** Concrete case: the cycle of D66, demand one unit of (1,1).  Activity: (1,1) makes Y1 = 1 + Y1/4 + Y2/2, Y2 = Y1. *)
Definition x67 : vec := fun i => match i with 0%nat => Q 4 1 | 1%nat => Q 3 1 | _ => 0 end.
Definition d67 : vec := fun i => match i with 1%nat => 1 | _ => 0 end.
Example C67_example : exists g A mr nc B, brun D66 Abort 10 (fun l => l) eng0 [AddAll [(1, 1)]%nat] = UOk g
  /\ background g = [(2, 2)%nat; (1, 1)%nat] /\ g_a g = Some (2%nat, A) /\ g_b g = Some (mr, nc, B)
  /\ (forall u, In u (background g) -> db_ref D66 u = Some Output /\ (forall q, In q (uses D66 Abort u u) -> 0 < q) /\ use D66 Abort u u < 1)
  /\ (forall i, x67 i = d67 i + mulv A x67 i) /\ mulv B x67 0%nat = Q 12 1.
Proof.
  eexists _, _, _, _, _. split; [vm_compute; reflexivity|]. split; [vm_compute; reflexivity|]. split; [vm_compute; reflexivity|]. split; [vm_compute; reflexivity|].
  split; [|split; [|apply Qc_is_canon; vm_compute; reflexivity]].
  - intros u J. vm_compute in J. destruct J as [<-|[<-|[]]]; split; [reflexivity| |reflexivity|].
    + split; [intros q J; vm_compute in J; destruct J|vm_compute; reflexivity].
    + split; [intros q J; vm_compute in J; destruct J as [<-|[]]; reflexivity|vm_compute; reflexivity].
  - intros [|[|i]]; apply Qc_is_canon; vm_compute; reflexivity.
Qed.

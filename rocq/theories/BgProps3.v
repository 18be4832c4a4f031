(** C36: what the clean-up after a failed addition does restore. *)
From Coq Require Import Sorted Relations.
From Verif Require Import Num Base ProcModel BgModel BgProofs BgProofs2 BgProofs3 BgProofs4 BgProofs5 BgProps BgProps2.
Open Scope nat_scope.
Open Scope list_scope.
Local Arguments eqb : simpl never.

Lemma nd_l {A} (l m : list A) : NoDup (l ++ m) -> NoDup l.
Proof. induction l as [|x l IH]; cbn; intros N; constructor; inversion N as [|? ? N1 N2]; subst; auto. intros J. apply N1. apply in_app_iff; auto. Qed.
Lemma nd_r {A} (l m : list A) : NoDup (l ++ m) -> NoDup m.
Proof. induction l as [|x l IH]; cbn; intros N; [exact N|]. inversion N; auto. Qed.

Section Cleanup.
Context (D : db) (strat : strategy).

Lemma drop_until_spec v l : ~ In v l -> forall r, drop_until v (l ++ v :: r) = Some (l ++ [v], r).
Proof.
  induction l as [|z l IH]; intros N r; cbn [app drop_until].
  - rewrite eqb_refl. reflexivity.
  - destruct (eqb_spec z v) as [->|NE]; [exfalso; apply N; left; reflexivity|]. rewrite IH; [reflexivity|]. intros J. apply N. right; exact J.
Qed.

(** [ab] lists, latest first, some of [new], earliest first. *)
Inductive picks : list node -> list node -> Prop :=
| picks_nil new : picks [] new
| picks_cons v ab n1 n2 : picks ab n1 -> picks (v :: ab) (n1 ++ v :: n2).

Lemma rm_children_restores i : forall ab rest P new s s', e_stk s = ab ++ i :: rest -> e_pf s = P ++ i :: new -> NoDup (e_pf s) ->
  picks ab new -> ~ In i ab -> rm_children i (ab ++ i :: rest) s = (s', None) -> e_pf s' = P /\ e_stk s' = rest.
Proof.
  induction ab as [|v ab IH]; intros rest P new s s' ES EP ND PK NI E; cbn [app rm_children] in E; cbn [e_pf e_low e_int e_cut e_sccs e_scc_of e_ems e_ev] in E.
  - assert (NN : ~ In i (rev new)). { rewrite <- in_rev. rewrite EP in ND. apply NoDup_remove_2 in ND. intros J. apply ND. apply in_app_iff; auto. }
    rewrite EP, rev_app_distr in E. cbn [rev] in E. rewrite <- app_assoc in E. cbn [app] in E. rewrite drop_until_spec in E by exact NN.
    destruct (drop_parent i (rev (e_int s))) as [ri|]; [|discriminate]. destruct (drop_parent i (rev (e_cut s))) as [rc|]; [|discriminate].
    rewrite eqb_refl in E. injection E as <-. cbn. rewrite rev_involutive. auto.
  - inversion PK as [|? ? n1 n2 PK' E1 E2]; subst.
    assert (NN : ~ In v (rev n2)).
    { rewrite <- in_rev. rewrite EP in ND. change (P ++ i :: n1 ++ v :: n2) with (P ++ (i :: n1) ++ v :: n2) in ND. rewrite app_assoc in ND.
      apply NoDup_remove_2 in ND. intros J. apply ND. apply in_app_iff; auto. }
    assert (RV : rev (e_pf s) = rev n2 ++ v :: rev (P ++ i :: n1)).
    { rewrite EP. change (P ++ i :: n1 ++ v :: n2) with (P ++ (i :: n1) ++ v :: n2). rewrite app_assoc, rev_app_distr. cbn [rev]. rewrite <- app_assoc. reflexivity. }
    rewrite RV, drop_until_spec in E by exact NN.
    destruct (drop_parent v (rev (e_int s))) as [ri|]; [|discriminate]. destruct (drop_parent v (rev (e_cut s))) as [rc|]; [|discriminate].
    destruct (eqb_spec v i) as [->|NE]; [exfalso; apply NI; left; reflexivity|].
    refine (IH rest P n1 _ s' _ _ _ PK' _ E); cbn [e_stk e_pf].
    + reflexivity.
    + rewrite rev_involutive. reflexivity.
    + rewrite rev_involutive. rewrite EP in ND. change (P ++ i :: n1 ++ v :: n2) with (P ++ (i :: n1) ++ v :: n2) in ND. rewrite app_assoc in ND.
      apply nd_l in ND. exact ND.
    + intros J. apply NI. right; exact J.
Qed.

(** In the course of a visit, the part of the stack above the visited product flow picks from what was indexed after it. *)
Lemma picks_of_sorted (idx : node -> nat) (new : list node) : forall ab,
  (forall k v, nth_error new k = Some v -> idx v = k) -> NoDup new -> (forall v, In v ab -> In v new) -> StronglySorted (fun x y => idx y < idx x) ab -> picks ab new.
Proof.
  intros ab. revert new. induction ab as [|v ab IH]; intros new IX ND INC S; [constructor|].
  inversion S as [|? ? S' F]; subst. destruct (in_split v new (INC v (or_introl eq_refl))) as (n1 & n2 & ->). constructor.
  assert (IV : idx v = length n1) by (apply IX; rewrite nth_error_app2, Nat.sub_diag by lia; reflexivity).
  apply IH.
  - intros k w E. apply IX. rewrite nth_error_app1; [exact E|]. apply nth_error_Some. congruence.
  - apply nd_l in ND. exact ND.
  - intros w J. rewrite Forall_forall in F. pose proof (F w J) as LT. cbn in LT. specialize (INC w (or_intror J)). apply in_app_iff in INC as [INC|INC]; [exact INC|].
    exfalso. apply In_nth_error in INC as (k & E). assert (IW : idx w = length n1 + k) by (apply IX; rewrite nth_error_app2 by lia; rewrite <- E; f_equal; lia). lia.
  - exact S'.
Qed.

Definition visit_fails_ok (visit : node -> est -> tres) : Prop := forall G u s d s2,
  TI D strat G s -> ~ In u (e_pf s) -> db_ref D u = Some d -> (forall y, In y (e_stk s) -> reach D strat y u) ->
  visit u (create s u d) = TFail s2 TerminationError ->
  exists s1 done, LI D strat G u s done s1 /\ e_pf s2 = e_pf s1 /\ e_stk s2 = e_stk s1.

Lemma handler_restores visit G u s d s3 : visit_fails_ok visit ->
  TI D strat G s -> ~ In u (e_pf s) -> db_ref D u = Some d -> (forall y, In y (e_stk s) -> reach D strat y u) ->
  handler u (visit u (create s u d)) = TFail s3 TerminationError -> e_pf s3 = e_pf s /\ e_stk s3 = e_stk s.
Proof.
  intros VF I N DR RE H. destruct (visit u (create s u d)) as [|s2 e|] eqn:V; cbn in H; try discriminate.
  destruct e; try discriminate. destruct (rm_children u (e_stk s2) s2) as [s' [e|]] eqn:RM.
  - injection H as <- ->. exfalso. clear -RM. revert RM. generalize (e_stk s2). intros l. generalize s2 as s. induction l as [|x l IH]; intros s E; cbn in E; [discriminate|].
    destruct (drop_until x (rev (e_pf s))) as [[? ?]|]; [|discriminate].
    destruct (drop_parent x (rev (e_int s))); [|discriminate]. destruct (drop_parent x (rev (e_cut s))); [|discriminate].
    destruct (eqb x u); [discriminate|]. apply IH in E. exact E.
  - injection H as <-. destruct (VF G u s d s2 I N DR RE V) as (s1 & dn & L & EP & ES).
    destruct (li_pf _ _ _ _ _ _ _ L) as [new PF]. destruct (li_stk _ _ _ _ _ _ _ L) as [ab ST]. pose proof (li_ti _ _ _ _ _ _ _ L) as I1.
    rewrite ES, ST in RM. pose proof (ti_nd _ _ _ _ I1) as ND. rewrite PF in ND.
    pose proof (ti_sort _ _ _ _ I1) as SS. rewrite ST in SS. apply sorted_app in SS as S3. destruct S3 as [S1 _].
    assert (IU : idx s1 u = length (e_pf s)) by (eapply idx_u; eauto).
    eapply (rm_children_restores u ab (e_stk s) (e_pf s) new s2 s'); [congruence|congruence|rewrite EP, PF; exact ND| | |exact RM].
    + apply (picks_of_sorted (fun v => idx s1 v - S (length (e_pf s)))).
      * intros k v E. unfold idx. rewrite PF. rewrite (pos_nth v _ (length (e_pf s) + S k)).
        -- lia.
        -- exact ND.
        -- rewrite nth_error_app2 by lia. replace (length (e_pf s) + S k - length (e_pf s)) with (S k) by lia. exact E.
      * apply nd_r in ND. inversion ND; assumption.
      * intros v J. assert (Jp : In v (e_pf s1)) by (eapply ti_stk_pf; [exact I1|rewrite ST; apply in_app_iff; auto]).
        rewrite PF in Jp. pose proof (S1 v J) as LT. cbn in LT. apply in_app_iff in Jp as [Jp|[<-|Jp]]; [|lia|exact Jp].
        exfalso. rewrite (idx_ext s s1 v (u :: new) PF Jp) in LT. assert (idx s v < length (e_pf s)) by (unfold idx; apply pos_lt; exact Jp). lia.
      * assert (SA : StronglySorted (fun x y => idx s1 y < idx s1 x) ab).
        { clear -SS. induction ab as [|x ab IH]; [constructor|]. cbn in SS. inversion SS as [|? ? S' F]; subst. constructor; [apply IH; exact S'|].
          rewrite Forall_forall in *. intros y J. apply F. apply in_app_iff; auto. }
        assert (GE : forall v, In v ab -> S (length (e_pf s)) <= idx s1 v) by (intros v J; specialize (S1 v J); cbn in S1; lia).
        clear -SA GE. induction SA as [|x l SA IH F]; constructor; [apply IH; intros v J; apply GE; right; exact J|].
        rewrite Forall_forall in *. intros y J. specialize (F y J). cbn in F. pose proof (GE y (or_intror J)). pose proof (GE x (or_introl eq_refl)). lia.
    + intros J. specialize (S1 u J). cbn in S1. lia.
Qed.

Lemma fails_step visit G u s0 done x s s2 : visit_fails_ok visit -> TI D strat G s0 -> ~ In u (e_pf s0) -> In x (db_inv D u) -> LI D strat G u s0 done s ->
  tstep D strat visit u x s = TFail s2 TerminationError -> e_pf s2 = e_pf s /\ e_stk s2 = e_stk s.
Proof.
  intros VF I0 N Jx L. pose proof (li_ti _ _ _ _ _ _ _ L) as I. unfold tstep. destruct (r_val x) as [v|] eqn:RV; [|discriminate].
  destruct (eqb v (Q2Qc 0)) eqn:RZ; [discriminate|]. destruct (r_isref x) eqn:RR; [discriminate|].
  destruct (terminate D (e_ems s) x strat) as [[p|]|e] eqn:T; [|discriminate|intros E; injection E as <- ->; auto].
  destruct (mem_spec (r_flow x, p) (e_pf s)) as [J|J]; [discriminate|].
  destruct (db_ref D (r_flow x, p)) as [d|] eqn:DR; [|discriminate].
  destruct (handler (r_flow x, p) (visit (r_flow x, p) (create s (r_flow x, p) d))) as [s3|s3 e|] eqn:H; try discriminate.
  intros E. injection E as -> ->. eapply (handler_restores visit (u :: G)); eauto.
  intros y Jy. destruct (LI_split _ _ _ _ _ _ _ L I0 N) as (_ & _ & _ & R & _). eapply reach_trans; [apply R; exact Jy|]. apply reach_edge.
  unfold edge, targets. apply in_flat_map. exists x. split; [exact Jx|]. unfold target, relevant. rewrite RV, RZ, RR.
  rewrite (terminate_ems D strat s x _ (ti_ems _ _ _ _ I) T), DR. left; reflexivity.
Qed.
Lemma fails_loop visit G u s0 : visit_ok D strat visit -> visit_fails_ok visit -> TI D strat G s0 -> ~ In u (e_pf s0) ->
  forall xs done s s2, (forall x, In x xs -> In x (db_inv D u)) -> LI D strat G u s0 done s ->
  tloop D strat visit u xs s = TFail s2 TerminationError ->
  exists s1 done', LI D strat G u s0 done' s1 /\ e_pf s2 = e_pf s1 /\ e_stk s2 = e_stk s1.
Proof.
  intros VO VF I0 N. induction xs as [|x xs IH]; intros done s s2 INC L E; cbn [tloop] in E; [discriminate|].
  destruct (tstep D strat visit u x s) as [s1|s1 e|] eqn:TS; try discriminate.
  - eapply IH; [intros y J; apply INC; right; exact J| |exact E]. eapply (LI_step D strat visit); eauto. apply INC; left; reflexivity.
  - injection E as -> ->. exists s, done. split; [exact L|]. eapply fails_step; eauto. apply INC; left; reflexivity.
Qed.
Lemma trav_fails_ok n : visit_fails_ok (trav D strat n).
Proof.
  induction n as [|n IH]; intros G u s d s2 I N DR RE T; [discriminate|]. cbn [trav] in T.
  destruct (tloop D strat (trav D strat n) u (db_inv D u) (create s u d)) as [s1|s1 e|] eqn:L; try discriminate.
  - unfold finish in T. destruct (Nat.eqb _ _); [|discriminate]. destruct (label_scc _ _ _ _ _) as [[[? ?] ?]|]; discriminate.
  - injection T as -> ->. eapply fails_loop; eauto; [apply trav_ok|apply LI_create; auto].
Qed.
End Cleanup.

Lemma adjust_err {B} s (l : list (node * B * Qc)) : adjust_all s l = BErr TerminationError -> False.
Proof.
  induction l as [|[[u w] v] l IH]; cbn [adjust_all]; [discriminate|]. destruct (eqb _ _); [discriminate|].
  destruct (adjust_all s l); [discriminate|]. intros E. apply IH. congruence.
Qed.
(** After a refused addition (TerminationError), the indexed product flows are those indexed before, in the same order: the
    failed product flow and everything first met on its account is gone from the index. *)
Theorem C36_index_restored_partial D strat ord fuel cs g v g' : (forall l, Permutation (ord l) l) ->
  brun D strat fuel ord eng0 cs = UOk g -> add_ref_product D strat fuel ord g v = UErr g' TerminationError ->
  ~ indexed g v /\ e_pf (g_st g') = e_pf (g_st g) /\ e_stk (g_st g') = e_stk (g_st g).
Proof.
  intros ORD R E. destruct (brun_ok D strat ord ORD fuel cs eng0 g (GI_eng0 D strat) R) as [G _].
  unfold add_ref_product, indexed in *. destruct (mem_spec v (e_pf (g_st g))) as [J|J]; [discriminate|]. split; [exact J|].
  unfold add_product in E. destruct (mem_spec v (e_pf (g_st g))) as [J'|_]; [contradiction|].
  destruct (db_ref D v) as [d|] eqn:DR; [|discriminate].
  destruct (handler v (trav D strat fuel v (create (g_st g) v d))) as [s|s e|] eqn:H.
  - exfalso. unfold eng_update in E. destruct (update_graph fuel _ _); [|discriminate]. destruct (fg_order _ _ _ _); [|discriminate].
    destruct (adjust_all _ (rev (e_int _))) as [a|e1] eqn:A1; [destruct (adjust_all _ (rev (e_cut _))) as [b|e2] eqn:A2|].
    + destruct (split_bg _ _ a), (split_bg _ _ b). destruct (c_bg _); [|discriminate]. destruct (g_a _); [discriminate|].
      destruct (a_rows _ _ _); [|discriminate]. destruct (b_rows _ _ _); discriminate.
    + injection E as _ ->. apply adjust_err in A2. exact A2.
    + injection E as _ ->. apply adjust_err in A1. exact A1.
  - injection E as <- ->. cbn. eapply handler_restores; [apply trav_fails_ok|apply (gi_ti _ _ _ G)|exact J|exact DR| |exact H].
    intros y Jy. destruct (ti_back _ _ _ _ (gi_ti _ _ _ G) y Jy) as (k & [] & _).
  - discriminate.
Qed.
Print Assumptions C36_index_restored_partial.
(** The hypotheses are met: on the database of the refutations, adding (1, 1) first indexes (2, 2) and (3, 3) and then fails. *)
Example C36_restored_example : exists g', add_ref_product D36 Abort 50 idord eng0 (1, 1) = UErr g' TerminationError
  /\ e_pf (g_st g') = [] /\ dget (2, 2) (e_ev (g_st g')) <> None.
Proof. eexists. split; [vm_compute; reflexivity|]. split; [reflexivity|discriminate]. Qed.

(** C120: EcoSpold 2 datasets are imported faithfully, whatever calls come before and after. *)
From Coq Require Import String.
From Verif Require Import Num Base PyStr ProcModel Es2Model Es2Proofs.
From Verif Require OlcaProps.
Open Scope nat_scope.
Open Scope string_scope.
Open Scope list_scope.

(** The archive holds the process [i] with the reference product [r]. *)
Definition reference_of (a : arch) (i r : nat) : Prop := exists p, dget i (a_p a) = Some p /\ In (r, Output, None) (p_refs p).
(** The calls that are asked for exchanges *)
Definition whole (o : eop) : Prop := match o with Get _ | LoadAll true => True | LoadAll false | Scores _ _ => False end.
(** Now and after any later calls, the process reports under the reference [r] its own dataset. *)
Definition faithful (s : source) (l : list eop) (i r : nat) : Prop :=
  forall l2, exists F p, dataset s i r F /\ dget i (a_p (ehist s (l ++ l2))) = Some p /\ inventory_is F r p.

Lemma ehist_app s l1 l2 : ehist s (l1 ++ l2) = erun s l2 (ehist s l1).
Proof. unfold ehist, erun. apply fold_left_app. Qed.
Lemma ehist_step s l o a' res : estep s o (ehist s l) = (a', res) -> ehist s (l ++ [o]) = a'.
Proof. intros E. rewrite ehist_app. unfold erun. cbn [fold_left]. now rewrite E. Qed.
Lemma done_faithful s l i r : s_linked s = true -> well_named s -> no_cross s -> done s (ehist s l) i r -> faithful s l i r.
Proof.
  intros LK WN NC D l2. rewrite ehist_app.
  destruct (erun_props s LK WN NC l _ (inv_new s)) as (I0 & _).
  destruct (erun_props s LK WN NC l2 (ehist s l) I0) as (I & K).
  destruct (keeps_done s _ _ _ _ K D) as (p & F & E & DS & H). exists F, p. split; [auto|]. split; [auto|]. eapply (reported s); eauto.
Qed.

(** A reference that appears during a successful call with exchanges *)
Theorem C120_linked_partial s l o a' i r : s_linked s = true -> well_named s -> no_cross s -> whole o ->
  estep s o (ehist s l) = (a', EOk tt) -> ~ reference_of (ehist s l) i r -> reference_of a' i r -> faithful s (l ++ [o]) i r.
Proof.
  intros LK WN NC FU E N R. apply done_faithful; auto. rewrite (ehist_step _ _ _ _ _ E).
  destruct (erun_props s LK WN NC l _ (inv_new s)) as (I0 & _).
  destruct (estep_props s LK WN NC _ _ _ _ I0 E) as (_ & _ & A). 
  assert (FU' : full o) by (destruct o as [|[]|]; cbn in *; tauto). destruct (A eq_refl FU' i r R) as [H | H]; [contradiction|exact H].
Qed.
(** [get] of a process that is not held *)
Theorem C120_get_linked_partial s l i a' : s_linked s = true -> well_named s -> no_cross s ->
  dget i (a_p (ehist s l)) = None -> estep s (Get i) (ehist s l) = (a', EOk tt) ->
  forall r, names s i r -> faithful s (l ++ [Get i]) i r.
Proof.
  intros LK WN NC N E r (fs & F & H1 & H2).
  destruct (erun_props s LK WN NC l _ (inv_new s)) as (I0 & _).
  apply (C120_linked_partial s l (Get i) a'); cbn; auto.
  - intros (p & Ep & _). congruence.
  - cbn [estep] in E. unfold get in E. rewrite N in E.
    destruct (create_list_props s LK WN NC i true (refs_of s i) (Ar (a_p (ehist s l)) (a_f (ehist s l)) (set_add i (a_known (ehist s l))) (a_loaded (ehist s l))) _ _ I0 E) as (_ & _ & A).
    apply (proj1 (A eq_refl)). unfold refs_of. rewrite H1. unfold dkeys. apply in_map_iff. exists (r, F). split; [auto|]. apply dget_In. auto.
Qed.
(** [load_all] first *)
Theorem C120_load_all_linked_partial s a' : s_linked s = true -> well_named s -> no_cross s ->
  estep s (LoadAll true) (new_arch s) = (a', EOk tt) -> forall i r, names s i r -> faithful s [LoadAll true] i r.
Proof.
  intros LK WN NC E i r (fs & F & H1 & H2). apply (C120_linked_partial s [] (LoadAll true) a'); cbn; auto.
  - intros (p & Ep & _). discriminate.
  - cbn [estep] in E. unfold load_all in E. cbn [new_arch a_loaded a_known] in E.
    destruct (load_list s (dkeys (s_files s)) true _) as (a1, [[]|x]) eqn:E1; inversion E; subst.
    destruct (load_list_props s LK WN NC true _ _ _ _ (inv_new s) E1) as (_ & _ & A).
    destruct (proj1 (A eq_refl) i r) as (p & Ep & Hp).
    + unfold dkeys. apply in_map_iff. exists (i, fs). split; [auto|]. apply dget_In. auto.
    + unfold refs_of. rewrite H1. unfold dkeys. apply in_map_iff. exists (r, F). split; [auto|]. apply dget_In. auto.
    + exists p. auto.
Qed.
(** A dataset with two amounts for the same exchange is never imported. *)
Theorem C120_conflict_never s l o a' i r F k v v' : s_linked s = true -> well_named s -> no_cross s -> whole o ->
  dataset s i r F -> lists F k v -> lists F k v' -> v <> v' ->
  estep s o (ehist s l) = (a', EOk tt) -> ~ reference_of (ehist s l) i r -> ~ reference_of a' i r.
Proof.
  intros LK WN NC FU DS L1 L2 NE E N R. destruct (C120_linked_partial s l o a' i r LK WN NC FU E N R []) as (F' & p & DS' & _ & _ & H & _).
  destruct DS as (fs & A & B), DS' as (fs' & A' & B'). apply NE. apply (H k); congruence.
Qed.
(** Unlinked: a process with one dataset *)
Theorem C120_unlinked_partial s l o a' i r F : s_linked s = false -> well_named s -> sole s i r -> dataset s i r F -> whole o ->
  estep s o (ehist s l) = (a', EOk tt) -> dget i (a_p (ehist s l)) = None -> dget i (a_p a') <> None ->
  forall l2, exists p, dget i (a_p (ehist s (l ++ o :: l2))) = Some p /\ content_is F p.
Proof.
  intros LK WN S DS FU E N P l2. destruct (uestep s LK WN _ _ _ _ E) as (_ & A).
  destruct (dget i (a_p a')) as [p|] eqn:Ep; [|congruence].
  assert (FU' : full o) by (destruct o as [|[]|]; cbn in *; tauto). destruct (A eq_refl FU' i p Ep) as [H | H]; [congruence|].
  specialize (H r F S DS). change (o :: l2) with ([o] ++ l2). rewrite app_assoc, ehist_app, (ehist_step _ _ _ _ _ E).
  destruct (uerun s LK WN l2 a' _ _ Ep) as (p' & E' & K). exists p'. split; [auto|]. destruct (K r F S DS H) as (es & I & U'). eapply content; eauto.
Qed.

(** ** Witnesses *)
Definition q (n : Z) : Qc := Q2Qc (inject_Z n).
Definition ref_ f (v : Z) : x2 := X2 f 0 true (GOut 0) [] (q v) None false.
Definition in_ f (v : Z) (t : option string) : x2 := X2 f 0 true GIn [] (q v) t false.
Definition src (b : bool) (l : list (nat * nat * list x2)) : source :=
  Src b (fold_left (fun d x => let '(i, r, data) := x in dset i (dset r (Some (F2 i data)) (match dget i d with Some fs => fs | None => [] end)) d) l []).
(** Two products of the activity 1, allocated *)
Definition s1 : source := src true [(1, 10, [ref_ 10 2; in_ 20 6 (Some "p2"); in_ 21 4 None]); (1, 11, [ref_ 11 1; in_ 20 5 (Some "p2")]); (2, 20, [ref_ 20 1; in_ 21 3 None])].
Lemma by_well_named s : forallb (fun i => forallb (fun r => match snd r with Some F => Nat.eqb (f_act F) (fst i) | None => true end) (snd i)) (s_files s) = true -> well_named s.
Proof.
  intros H i r F (fs & A & B). rewrite forallb_forall in H. specialize (H _ (dget_In _ _ _ A)). cbn in H. rewrite forallb_forall in H. specialize (H _ (dget_In _ _ _ B)).
  cbn in H. now apply Nat.eqb_eq.
Qed.
Lemma by_no_cross s : forallb (fun i => forallb (fun r => match snd r with
    | Some F => forallb (fun r' => Nat.eqb r' (fst r) || negb (existsb (fun x => Nat.eqb (y_flow x) r') (f_data F))) (dkeys (snd i)) | None => true end) (snd i)) (s_files s) = true -> no_cross s.
Proof.
  intros H i r r' F v (fs & A & B) (fs' & F' & A' & B') NE (x & I & (d & t & K & _) & _). rewrite forallb_forall in H. specialize (H _ (dget_In _ _ _ A)). cbn in H.
  rewrite forallb_forall in H. specialize (H _ (dget_In _ _ _ B)). cbn in H. rewrite forallb_forall in H. assert (fs' = fs) as -> by congruence.
  assert (IK : In r' (dkeys fs)) by (unfold dkeys; apply in_map_iff; exists (r', F'); split; [auto|]; now apply dget_In).
  specialize (H _ IK). apply orb_true_iff in H as [H | H]; [apply Nat.eqb_eq in H; contradiction|]. apply negb_true_iff in H.
  assert (T : existsb (fun x => Nat.eqb (y_flow x) r') (f_data F) = true); [|congruence]. apply existsb_exists. exists x. split; [auto|]. inversion K. apply Nat.eqb_refl.
Qed.
Definition val (a : arch) (i : nat) (k r : key) : pret Qc := match dget i (a_p a) with Some p => getitem nocf p k r | None => PErr PKeyError end.
Definition held (a : arch) (i : nat) (k : key) : option Qc := match dget i (a_p a) with Some p => exch_value p k | None => None end.
Definition oks (s : source) (l : list eop) (o : eop) : eret unit := snd (estep s o (ehist s l)).
Notation K f d t := ((f, d, t) : key).

Theorem C120_witness_linked : s_linked s1 = true /\ well_named s1 /\ no_cross s1 /\ oks s1 [Scores 2 20] (Get 1) = EOk tt /\ names s1 1 10 /\ names s1 1 11 /\
  faithful s1 [Scores 2 20; Get 1] 1 10 /\ faithful s1 [Scores 2 20; Get 1] 1 11 /\
  val (ehist s1 [Get 1]) 1 (K 20 Input (Some "p2")) (K 10 Output None) = POk (q 3) /\ val (ehist s1 [Get 1]) 1 (K 20 Input (Some "p2")) (K 11 Output None) = POk (q 5) /\
  val (ehist s1 [Get 1]) 1 (K 21 Input None) (K 11 Output None) = POk (q 0).
Proof.
  assert (A : s_linked s1 = true) by reflexivity. assert (B : well_named s1) by (apply by_well_named; vm_compute; reflexivity).
  assert (C : no_cross s1) by (apply by_no_cross; vm_compute; reflexivity).
  assert (D : oks s1 [Scores 2 20] (Get 1) = EOk tt) by (vm_compute; reflexivity).
  assert (N1 : names s1 1 10) by (eexists; eexists; split; vm_compute; reflexivity). assert (N2 : names s1 1 11) by (eexists; eexists; split; vm_compute; reflexivity).
  assert (EE : estep s1 (Get 1) (ehist s1 [Scores 2 20]) = (fst (estep s1 (Get 1) (ehist s1 [Scores 2 20])), EOk tt)) by (unfold oks in D; rewrite <- D; apply surjective_pairing).
  pose proof (C120_get_linked_partial s1 [Scores 2 20] 1 _ A B C eq_refl EE) as H.
  repeat (split; [first [assumption|apply (H _ N1)|apply (H _ N2)|apply OlcaProps.ok_q; vm_compute; reflexivity]|]). apply OlcaProps.ok_q; vm_compute; reflexivity.
Qed.
(** Unlinked: two marked products, one of them linked; a by-product classified for allocation *)
Definition s2 : source := src false [(1, 10, [ref_ 10 2; X2 12 0 true (GOut 2) [("CPC", "x"); ("By-product classification", "allocatable product")] (q 1) None false;
   X2 13 0 true (GOut 0) [] (q 1) (Some "p3") false; in_ 20 6 None; in_ 20 0 None])].
Theorem C120_witness_unlinked : s_linked s2 = false /\ well_named s2 /\ sole s2 1 10 /\ oks s2 [] (Get 1) = EOk tt /\ oks s2 [Get 1] (LoadAll true) = EOk tt /\
  held (ehist s2 [Get 1]) 1 (K 20 Input None) = Some (q 6) /\
  match dget 1 (a_p (ehist s2 [Get 1])) with Some p => p_refs p = [K 10 Output None; K 12 Output None] | None => False end.
Proof.
  split; [reflexivity|]. split; [apply by_well_named; vm_compute; reflexivity|]. split.
  - intros r (fs & F & A & B). vm_compute in A. inversion A; subst. apply dget_In in B. destruct B as [E | []]; inversion E; auto.
  - split; [vm_compute; reflexivity|]. split; [vm_compute; reflexivity|]. split; [apply OlcaProps.some_q; vm_compute; reflexivity|]. vm_compute. reflexivity.
Qed.

(** ** What the code does not keep *)
(** A failed import leaves a truncated process, which the next [get] returns as if it were whole. *)
Definition s3 : source := src true [(1, 10, [ref_ 10 1; in_ 20 6 None; in_ 20 7 None; in_ 21 4 None])].
Theorem C120_refuted_truncated : oks s3 [] (Get 1) = EErr (ProcExn DuplicateExchange) /\ oks s3 [Get 1] (Get 1) = EOk tt /\
  oks s3 [Get 1; Get 1] (LoadAll true) = EOk tt /\
  val (ehist s3 [Get 1; Get 1; LoadAll true]) 1 (K 20 Input None) (K 10 Output None) = POk (q 6) /\
  held (ehist s3 [Get 1; Get 1; LoadAll true]) 1 (K 21 Input None) = None /\ val (ehist s3 [Get 1; Get 1; LoadAll true]) 1 (K 21 Input None) (K 10 Output None) = PErr ExchangeError.
Proof. repeat (split; [first [vm_compute; reflexivity|apply OlcaProps.ok_q; vm_compute; reflexivity]|]). vm_compute; reflexivity. Qed.
(** Asking for LCIA scores first makes [get] return a process without exchanges. *)
Theorem C120_refuted_scores : oks s1 [] (Scores 2 20) = EOk tt /\ oks s1 [Scores 2 20] (Get 2) = EOk tt /\ dget 2 (a_p (ehist s1 [Scores 2 20; Get 2])) = Some new_proc /\
  val (ehist s1 [Get 2]) 2 (K 21 Input None) (K 20 Output None) = POk (q 3).
Proof. repeat (split; [vm_compute; reflexivity|]). apply OlcaProps.ok_q; vm_compute; reflexivity. Qed.
(** [load_all] without exchanges: neither [get] nor another [load_all] ever fills the processes. *)
Theorem C120_refuted_index : oks s1 [] (LoadAll false) = EOk tt /\ oks s1 [LoadAll false] (LoadAll true) = EOk tt /\ oks s1 [LoadAll false; LoadAll true] (Get 2) = EOk tt /\
  match dget 2 (a_p (ehist s1 [LoadAll false; LoadAll true; Get 2])) with Some p => dkeys (p_exch p) = [K 20 Output None] /\ exch_value p (K 20 Output None) = None | None => False end.
Proof. repeat (split; [vm_compute; reflexivity|]). vm_compute. auto. Qed.
(** A dataset that lists the other product of its activity: the outcome depends on the order in which the files are loaded. *)
Definition s4 r1 d1 r2 d2 : source := src true [(1, r1, d1); (1, r2, d2)].
Theorem C120_refuted_cross : let d10 := [ref_ 10 1; X2 11 0 true (GOut 0) [] (q 3) None false] in let d11 := [ref_ 11 1] in
  oks (s4 10 d10 11 d11) [] (Get 1) = EOk tt /\ oks (s4 11 d11 10 d10) [] (Get 1) = EErr (ProcExn PValueError) /\
  val (ehist (s4 10 d10 11 d11) [Get 1]) 1 (K 11 Output None) (K 10 Output None) = POk (q 0).
Proof. cbv zeta. split; [vm_compute; reflexivity|]. split; [vm_compute; reflexivity|]. apply OlcaProps.ok_q; vm_compute; reflexivity. Qed.
(** The same flow stated in another unit by a second dataset: its amount is read in the unit of the first. *)
Definition s5 : source := src true [(1, 10, [ref_ 10 1; X2 20 7 true GIn [] (q 2) None false]); (2, 11, [ref_ 11 1; X2 20 8 true GIn [] (q 2000) None false])].
Theorem C120_refuted_unit : oks s5 [] (LoadAll true) = EOk tt /\ dget 20 (a_f (ehist s5 [LoadAll true])) = Some 7 /\
  val (ehist s5 [LoadAll true]) 1 (K 20 Input None) (K 10 Output None) = POk (q 2) /\ val (ehist s5 [LoadAll true]) 2 (K 20 Input None) (K 11 Output None) = POk (q 2000).
Proof. split; [vm_compute; reflexivity|]. split; [vm_compute; reflexivity|]. split; apply OlcaProps.ok_q; vm_compute; reflexivity. Qed.
(** [get] of an unknown id succeeds in finding nothing, but counts as a process from then on. *)
Theorem C120_refuted_phantom s l i : dget i (a_p (ehist s l)) = None -> refs_of s i = [] -> ~ In i (a_known (ehist s l)) ->
  oks s l (Get i) = EOk tt /\ dget i (a_p (ehist s (l ++ [Get i]))) = None /\ process_count (ehist s (l ++ [Get i])) = S (process_count (ehist s l)).
Proof.
  intros N R K. unfold oks. rewrite ehist_app. unfold erun. cbn [fold_left estep]. unfold get. rewrite N, R. cbn [create_list fst snd a_p]. split; [auto|]. split; [auto|].
  unfold process_count. cbn [a_known]. unfold set_add. destruct (mem_spec i (a_known (ehist s l))); [contradiction|]. rewrite app_length. cbn. lia.
Qed.
(** An unlinked dataset whose named product is not a reference: after [get], [load_all] fails. *)
Definition s6 : source := src false [(1, 10, [X2 10 0 true (GOut 0) [] (q 1) (Some "p9") false; in_ 20 6 None])].
Theorem C120_refuted_unlinked : oks s6 [] (Get 1) = EOk tt /\ oks s6 [Get 1] (LoadAll true) = EErr (ProcExn DuplicateExchange) /\ oks s6 [] (LoadAll true) = EOk tt.
Proof. repeat (split; [vm_compute; reflexivity|]). vm_compute; reflexivity. Qed.
(** A second listing of amount zero is ignored unless it carries a comment. *)
Definition s7 (c : bool) : source := src false [(1, 10, [ref_ 10 1; in_ 20 6 None; X2 20 0 true GIn [] (q 0) None c])].
Theorem C120_refuted_comment : oks (s7 false) [] (Get 1) = EOk tt /\ oks (s7 true) [] (Get 1) = EErr NoComment.
Proof. split; vm_compute; reflexivity. Qed.

Print Assumptions C120_linked_partial.
Print Assumptions C120_get_linked_partial.
Print Assumptions C120_load_all_linked_partial.
Print Assumptions C120_conflict_never.
Print Assumptions C120_unlinked_partial.

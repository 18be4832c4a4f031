(** C119: importing an openLCA JSON-LD archive (/repo/antelope_catalog/providers/openlca_jsonld.py).  The specification ([in_ref],
    [declares], [exchanges_of], [references_of], [stated], [stated_total], [partitions], [whole], [faithful], [flow_ok]) is in
    OlcaProofs.v. *)
From Coq Require Import String.
From Verif Require Import Num Base PyStr ProcModel MiscModel OlcaModel OlcaProofs QcLra.
Open Scope nat_scope.
Open Scope string_scope.
Open Scope list_scope.
Local Arguments eqb : simpl never.

(** Whatever calls came before and come after (failed ones included): a process that entered the archive during a call that
    returned normally has, from then on, exactly the exchanges of its file, in the reference units, the references of its file, and
    its exchanges are partitioned among the references by the stated factors of its default allocation method. *)
Theorem C119_import_history s : unique_units s -> unique_names s -> forall l1 o l2 a i,
  ostep s o (fst (ohist s l1)) = (a, OOk tt) -> dget i (a_p (fst (ohist s l1))) = None -> dget i (a_p a) <> None ->
  let b := fst (ohist s (l1 ++ o :: l2)) in
  exists j p q, dget i (s_pr s) = Some j /\ dget i (a_p b) = Some (p, q) /\
    faithful s j (fun t => arch_cf b (AQ (op_name j) t)) p q.
Proof.
  intros US UN l1 o l2 a i E N1 N2 b. unfold b. rewrite ohist_fold in *.
  rewrite fold_left_app. set (ab := fold_left (hstep s) l1 (new_oarch, true)) in *. cbn [fold_left].
  destruct (fold_props s US l1 UN (new_oarch, true) (hinv_new s)) as (H1 & _). fold ab in H1.
  destruct (ostep_props s US o _ _ _ UN E H1) as (H2 & _ & I2).
  assert (HS : hstep s ab o = (a, snd ab)) by (unfold hstep; now rewrite E). rewrite HS.
  destruct (fold_props s US l2 UN (a, snd ab) H2) as (H3 & L3). cbn [fst] in L3.
  exact (imported_later s _ _ _ L3 H3 (I2 eq_refl) i N1 N2).
Qed.

(** Imported data is never changed: quantities, the flows' reference properties and factors, the processes, and the factors by
    which they are allocated. *)
Theorem C119_stable s : unique_units s -> unique_names s -> forall l1 l2,
  let a := fst (ohist s l1) in let b := fst (ohist s (l1 ++ l2)) in
  (forall q e, dget q (a_q a) = Some e -> dget q (a_q b) = Some e) /\
  (forall f e, dget f (a_f a) = Some e -> exists e', dget f (a_f b) = Some e' /\ fe_ref e' = fe_ref e /\ forall q, flow_cf e' (FP q) = flow_cf e (FP q)) /\
  (forall i x, dget i (a_p a) = Some x -> dget i (a_p b) = Some x) /\
  (forall i j t f, dget i (a_p a) <> None -> dget i (s_pr s) = Some j -> arch_cf b (AQ (op_name j) t) f 0 = arch_cf a (AQ (op_name j) t) f 0).
Proof.
  intros US UN l1 l2 a b. unfold a, b. rewrite !ohist_fold, fold_left_app.
  destruct (fold_props s US l1 UN (new_oarch, true) (hinv_new s)) as (H1 & _).
  destruct (fold_props s US l2 UN _ H1) as (_ & L1 & L2 & L3 & L4). split; [auto|]. split; [|split; [auto|]].
  - intros f e E. destruct (L2 _ _ E) as (e' & E' & R & K). exists e'. split; [auto|]. split; [auto|]. intros q. unfold flow_cf. now rewrite K.
  - intros i j t f Hi Hj. exact (L4 i j Hi Hj t f).
Qed.

(** A [load_all] that returns normally has imported every process file, each faithfully unless it was there before. *)
Theorem C119_load_all s : unique_units s -> unique_names s -> forall l a, ostep s LoadAll (fst (ohist s l)) = (a, OOk tt) ->
  forall i j, dget i (s_pr s) = Some j -> exists p q, dget i (a_p a) = Some (p, q) /\
    (dget i (a_p (fst (ohist s l))) = None -> faithful s j (fun t => arch_cf a (AQ (op_name j) t)) p q).
Proof.
  intros US UN l a E i j Hj. rewrite ohist_fold in *. destruct (fold_props s US l UN (new_oarch, true) (hinv_new s)) as (H1 & _).
  cbn [ostep] in E. destruct (load_ps_props s US _ UN _ _ _ E H1) as (_ & _ & G). destruct (G eq_refl) as (I & A).
  pose proof (A i (dget_Some_key _ _ _ Hj)) as NI. destruct (dget i (a_p a)) as [(p, q)|] eqn:Ei; [|contradiction]. exists p, q. split; [auto|].
  intros N. destruct (I i N) as (j' & p' & q' & Ej & Ep & F); [congruence|]. rewrite Ei in Ep. inversion Ep; subst. rewrite Hj in Ej. inversion Ej; subst. exact F.
Qed.

(** Every flow in the archive agrees with its file, after any history. *)
Theorem C119_flows s : unique_units s -> forall l f e, dget f (a_f (fst (ohist s l))) = Some e ->
  exists j, dget f (s_fl s) = Some j /\ In (fe_ref e, 1%Qc, true) (of_props j) /\ flow_cf e (FP (fe_ref e)) = 1%Qc /\
    (forall q fac, q <> fe_ref e -> of_loc j = None -> In (q, fac, false) (of_props j) -> (forall fac', In (q, fac', false) (of_props j) -> fac' = fac) ->
       flow_cf e (FP q) = fac) /\
    (forall q, q <> fe_ref e -> (forall fac, ~ In (q, fac, false) (of_props j)) -> flow_cf e (FP q) = 0%Qc).
Proof.
  intros US l f e E. destruct (ohist_einv s US l) as (_ & I). destruct (I f e E) as (j & A & B & C & D & F). exists j.
  split; [auto|]. split; [auto|]. split; [auto|]. split; [|auto]. intros q fac NE L. apply D; [auto|now left].
Qed.
(** ... but a flow whose file names a location has no factor for any property but its reference property: *)
Theorem C119_refuted_location s : unique_units s -> forall l f e j loc q, dget f (a_f (fst (ohist s l))) = Some e ->
  dget f (s_fl s) = Some j -> of_loc j = Some loc -> loc <> "GLO" -> q <> fe_ref e -> flow_cf e (FP q) = 0%Qc.
Proof.
  intros US l f e j loc q E Ej L NL NE. destruct (ohist_einv s US l) as (_ & I). destruct (I f e E) as (j' & A & B & C & D & F).
  rewrite Ej in A. inversion A; subst j'. apply F; [auto|]. left. intros [EE | EE]; rewrite EE in L; inversion L; auto.
Qed.

(** Every flow property in the archive has the reference unit of its unit group, and converts from every unit of the group by the
    stated factor; conversions have no other source. *)
Theorem C119_quantities s : unique_units s -> forall l q e, dget q (a_q (fst (ohist s l))) = Some e ->
  exists ug, dget q (s_fp s) = Some ug /\
    (forall us, dget ug (s_ug s) = Some us -> (exists o, In o us /\ ou_name o = qu_unit e /\ ou_cf o = 1%Qc) /\
       (forall o, In o us -> uconvert (Some (ou_name o)) None e = UNum (ou_cf o)) /\
       (forall u c, uconvert (Some u) None e = UNum c -> exists o, In o us /\ ou_name o = u /\ ou_cf o = c)).
Proof.
  intros US l q e E. destruct (ohist_einv s US l) as (I & _). destruct (I q e E) as ((ug & A) & B & C & D). exists ug. split; [auto|].
  intros us Eu. split; [|split].
  - destruct B as (ug' & A' & [(B & _) | [(B & _) | (l' & o & B & Ho & En & Ec)]]); [discriminate|congruence|].
    exists o. assert (us = l') as -> by congruence. inversion En; auto.
  - intros o Ho. eauto.
  - intros u c Ec. destruct (C u c Ec) as (ug' & A' & [(F & _) | [(F & _) | (l' & o & F & Ho & En & Ec')]]); [discriminate|congruence|].
    exists o. assert (us = l') as -> by congruence. inversion En; auto.
Qed.

(** ** Failures *)
(** An exchange in a flow property that is not its flow's reference property cannot be imported, whatever the flow's factors. *)
Theorem C119_refuted_other_property s : unique_units s -> forall l i j x fl a,
  dget i (a_p (fst (ohist s l))) = None -> dget i (s_pr s) = Some j -> In x (op_exch j) -> dget (ox_flow x) (s_fl s) = Some fl ->
  ~ In (ox_fp x, 1%Qc, true) (of_props fl) -> ostep s (GetP i) (fst (ohist s l)) <> (a, OOk tt).
Proof.
  intros US l i j x fl a N Ej Hx Ef NR E. destruct (ohist_einv s US l) as (Q & I). cbn [ostep] in E. unfold create_process in E. rewrite N, Ej in E.
  destruct (add_oxs s (op_exch j) new_proc (fst (ohist s l))) as ((a1, p1), [[]|y]) eqn:E1; [|discriminate].
  destruct (add_oxs_fp s US _ _ _ _ _ E1 (conj Q I)) with (x := x) as (fe & R & (fl' & A & B & _)); [repeat split; try discriminate; auto|auto|].
  rewrite Ef in A. inversion A; subst fl'. rewrite R in B. contradiction.
Qed.
(** A failed import leaves what it had read so far: later calls return that as the process. *)
Theorem C119_refuted_failed_import s l i j a e : dget i (s_pr s) = Some j -> ostep s (GetP i) (fst (ohist s l)) = (a, OErr e) ->
  ostep s (GetP i) a = (a, OOk tt) /\ exists p, dget i (a_p a) = Some (p, None).
Proof.
  intros Ej E. cbn [ostep] in *. set (a0 := fst (ohist s l)) in *. assert (K : exists p, dget i (a_p a) = Some (p, None)).
  { unfold create_process in E. destruct (dget i (a_p a0)); [discriminate|]. rewrite Ej in E.
    destruct (add_oxs _ _ _ _) as ((a1, p1), [u1|y]); [|inversion E; subst; cbn [a_p]; rewrite dget_dset_same; eauto].
    destruct (add_quants _ _) as (p2, [u2|y]); [|inversion E; subst; cbn [a_p]; rewrite dget_dset_same; eauto].
    destruct (alloc_all _ _ _ _ _) as ((a2, p3), [u3|y]); [discriminate|inversion E; subst; cbn [a_p]; rewrite dget_dset_same; eauto]. }
  split; [|exact K]. destruct K as (p & K). unfold create_process. now rewrite K.
Qed.

(** ** A concrete archive *)
Definition qd (n : Z) (d : positive) : Qc := Q2Qc (n # d).
Definition fl0 := OF None [(0, 1%Qc, true)].
Definition exs : list oexch :=
  [OX 0 (qd 2 1) false 0 (Some "t") true; OX 1 (qd 1000 1) false 0 (Some "kg") false;
   OX 2 (qd 10 1) true 1 (Some "kWh") false; OX 2 (qd 4 1) true 1 None false].
Definition facs : list (Qc * string * nat) :=
  [(qd 3 4, "PHYSICAL_ALLOCATION", 0); (qd 1 4, "PHYSICAL_ALLOCATION", 1); (qd 9 10, "ECONOMIC_ALLOCATION", 0); (qd 1 2, "CAUSAL_ALLOCATION", 2)].
Definition src : source :=
  Src [("um", [OU "kg" 1%Qc true; OU "t" (qd 1000 1) false]); ("ue", [OU "MJ" 1%Qc true; OU "kWh" (qd 18 5) false])]
      [(0, "um"); (1, "ue")]
      [(0, OF None [(0, 1%Qc, true); (1, qd 40 1, false)]); (1, fl0); (2, OF None [(1, 1%Qc, true)]); (3, OF (Some "DE") [(0, 1%Qc, true); (1, qd 40 1, false)])]
      [(0, OP "p" exs facs (Some "PHYSICAL_ALLOCATION"));
       (1, OP "broken" [OX 0 1%Qc false 0 None true; OX 9 1%Qc true 0 None false] [] None);
       (2, OP "heat" [OX 0 1%Qc false 0 None true; OX 3 1%Qc true 1 None false] [] None);
       (3, OP "twin" [OX 0 1%Qc false 0 None true] [(1%Qc, "PHYSICAL_ALLOCATION", 0)] (Some "PHYSICAL_ALLOCATION"));
       (4, OP "zero" [OX 0 0%Qc false 0 None true] [(1%Qc, "PHYSICAL_ALLOCATION", 0)] (Some "PHYSICAL_ALLOCATION"));
       (5, OP "causal" [OX 0 1%Qc false 0 None true; OX 1 1%Qc false 0 None true; OX 2 (qd 10 1) true 1 None false]
             [(qd 3 4, "CAUSAL_ALLOCATION", 0); (qd 1 4, "CAUSAL_ALLOCATION", 1)] (Some "CAUSAL_ALLOCATION"))].
Example C119_witness_names : unique_units src /\ unique_names src.
Proof.
  split.
  - intros ug l. unfold src. cbn [s_ug dget]. repeat (destruct (eqb _ _); [intros E; inversion E; subst; repeat constructor; cbn; intuition discriminate|]). discriminate.
  - intros i j i' j'. unfold src. cbn [s_pr dget].
    destruct (eqb_spec i 0), (eqb_spec i 1), (eqb_spec i 2), (eqb_spec i 3), (eqb_spec i 4), (eqb_spec i 5); try congruence; intros E; inversion E; subst; clear E;
    destruct (eqb_spec i' 0), (eqb_spec i' 1), (eqb_spec i' 2), (eqb_spec i' 3), (eqb_spec i' 4), (eqb_spec i' 5); try congruence; intros E; inversion E; subst; cbn; congruence.
Qed.
Lemma some_q a x : match a with Some y => Qeq_bool (this y) (this x) | None => false end = true -> a = Some x.
Proof. destruct a as [y|]; [|discriminate]. intros H. f_equal. apply Qc_is_canon. now apply Qeq_bool_eq. Qed.
Lemma ok_q a x : match a with POk y => Qeq_bool (this y) (this x) | PErr _ => false end = true -> a = POk x.
Proof. destruct a as [y|]; [|discriminate]. intros H. f_equal. apply Qc_is_canon. now apply Qeq_bool_eq. Qed.
Definition hist0 : list oop := [GetF 3; GetP 0; GetP 1; GetP 1].
(** The hypotheses of [C119_import_history] hold of the second call, and this is what it finds at the end: 10 kWh + 4 MJ of
    electricity, partitioned by the physical factors: 0.75 * 40 / 2000 per kg of the first product. *)
Example C119_witness_history :
  (exists a, ostep src (GetP 0) (fst (ohist src [GetF 3])) = (a, OOk tt) /\ dget 0 (a_p (fst (ohist src [GetF 3]))) = None /\ dget 0 (a_p a) <> None) /\
  exists p, dget 0 (a_p (fst (ohist src hist0))) = Some (p, Some (AQ "p" "PHYSICAL_ALLOCATION")) /\
    exch_value p (2, Input, None) = Some (qd 40 1) /\ exch_value p (0, Output, None) = Some (qd 2000 1) /\
    p_refs p = [(0, Output, None); (1, Output, None)] /\
    let cf := arch_cf (fst (ohist src hist0)) (AQ "p" "PHYSICAL_ALLOCATION") in
    getitem cf p (2, Input, None) (0, Output, None) = POk (qd 3 200) /\ getitem cf p (2, Input, None) (1, Output, None) = POk (qd 1 100).
Proof.
  split.
  - eexists. split; [vm_compute; reflexivity|]. split; [reflexivity|vm_compute; discriminate].
  - eexists. split; [vm_compute; reflexivity|]. split; [apply some_q; vm_compute; reflexivity|]. split; [apply some_q; vm_compute; reflexivity|].
    split; [vm_compute; reflexivity|]. split; apply ok_q; vm_compute; reflexivity.
Qed.
(** The failed import of process 1 leaves a process with the first exchange only, which the next call returns. *)
Theorem C119_refuted_truncated :
  exists a e, ostep src (GetP 1) (fst (ohist src [])) = (a, OErr e) /\ ostep src (GetP 1) a = (a, OOk tt) /\
    exists p, dget 1 (a_p a) = Some (p, None) /\ dkeys (p_exch p) = [(0, Output, None)] /\ p_refs p = [].
Proof. do 2 eexists. split; [vm_compute; reflexivity|]. split; [vm_compute; reflexivity|]. eexists. split; [vm_compute; reflexivity|]. split; vm_compute; reflexivity. Qed.
Example C119_witness_other_property : exists a, ostep src (GetP 2) (fst (ohist src [])) = (a, OErr OTypeError).
Proof. eexists. vm_compute. reflexivity. Qed.
Example C119_witness_location : exists e, dget 3 (a_f (fst (ohist src hist0))) = Some e /\ fe_ref e = 0 /\ dget (FP 1) (fe_ch e) <> None.
Proof. eexists. split; [vm_compute; reflexivity|]. split; [reflexivity|vm_compute; discriminate]. Qed.
(** A product with a stated factor and a zero amount fails the import; factors of the causal method are ignored, and the process is
    left unallocated. *)
Theorem C119_refuted_zero : exists a, ostep src (GetP 4) (fst (ohist src [])) = (a, OErr OZeroDiv).
Proof. eexists. vm_compute. reflexivity. Qed.
Theorem C119_refuted_causal : exists a p, ostep src (GetP 5) (fst (ohist src [])) = (a, OOk tt) /\ dget 5 (a_p a) = Some (p, Some (AQ "causal" "CAUSAL_ALLOCATION")) /\
  let cf := arch_cf a (AQ "causal" "CAUSAL_ALLOCATION") in
  getitem cf p (2, Input, None) (0, Output, None) = POk (qd 10 1) /\ getitem cf p (2, Input, None) (1, Output, None) = POk (qd 10 1).
Proof. do 2 eexists. split; [vm_compute; reflexivity|]. split; [vm_compute; reflexivity|]. split; apply ok_q; vm_compute; reflexivity. Qed.
(** Two processes of one name (say, in two places) share the allocation quantities: the second cannot be imported, and what it leaves
    is not allocated. *)
Definition twins : source :=
  Src (s_ug src) (s_fp src) (s_fl src)
    [(0, OP "p" exs facs (Some "PHYSICAL_ALLOCATION")); (1, OP "p" exs facs (Some "PHYSICAL_ALLOCATION"))].
Theorem C119_refuted_same_name : exists a p, ostep twins (GetP 1) (fst (ohist twins [GetP 0])) = (a, OErr ODuplicate) /\
  ostep twins (GetP 1) a = (a, OOk tt) /\ dget 1 (a_p a) = Some (p, None) /\ p_refs p = [(0, Output, None)].
Proof. do 2 eexists. split; [vm_compute; reflexivity|]. split; [vm_compute; reflexivity|]. split; vm_compute; reflexivity. Qed.
Example C119_witness_load_all : exists a, ostep twins LoadAll (fst (ohist twins [])) = (a, OErr ODuplicate).
Proof. eexists. vm_compute. reflexivity. Qed.
Definition one : source := Src (s_ug src) (s_fp src) (s_fl src) [(0, OP "p" exs facs (Some "PHYSICAL_ALLOCATION")); (1, OP "q" exs facs None)].
Example C119_witness_load_all_ok : unique_units one /\ unique_names one /\ exists a, ostep one LoadAll (fst (ohist one [])) = (a, OOk tt).
Proof.
  split; [exact (proj1 C119_witness_names)|]. split; [|eexists; vm_compute; reflexivity].
  intros i j i' j'. unfold one. cbn [s_pr dget]. destruct (eqb_spec i 0), (eqb_spec i 1); try congruence; intros E; inversion E; subst; clear E;
    destruct (eqb_spec i' 0), (eqb_spec i' 1); try congruence; intros E; inversion E; subst; cbn; congruence.
Qed.

Print Assumptions C119_import_history.
Print Assumptions C119_stable.
Print Assumptions C119_load_all.
Print Assumptions C119_flows.
Print Assumptions C119_quantities.
Print Assumptions C119_refuted_other_property.

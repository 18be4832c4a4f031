(** C124: the ecoinvent LCIA provider: all the factors of the sheet or, after an error, those before it. *)
From Coq Require Import String Lia.
From Verif Require Import Num Base TraciProofs EiLciaModel EiLciaProofs.
Open Scope nat_scope.
Open Scope string_scope.
Open Scope list_scope.
Local Arguments eqb : simpl never.

Lemma load_new_good inds rows : good inds rows -> exists a, load inds rows enew = (EA (a_ents a) true, None) /\ inv inds rows a.
Proof. intros G. unfold load. cbn [a_loaded enew]. fold (start inds). destruct (add_rows_good _ _ G) as (a & -> & I & _). exists a. auto. Qed.
Lemma load_new_bad inds pre r post : good inds pre -> ~ good inds (pre ++ [r]) -> exists a e, load inds (pre ++ r :: post) enew = (mid r a, Some e) /\ inv inds pre a.
Proof. intros G N. unfold load. cbn [a_loaded enew]. fold (start inds). destruct (add_rows_bad _ _ _ post G N) as (a & e & I & _ & _ & ->). exists a, e. auto. Qed.
(** load_all succeeds exactly if every row has a number, no row has the flow and the method of another, and no flow is named like a method. *)
Theorem C124_succeeds inds rows : snd (load inds rows enew) = None <-> good inds rows.
Proof.
  split.
  - intros H. destruct (good_or inds rows) as [G|(pre & r & post & -> & G & N)]; [exact G|]. destruct (load_new_bad _ _ _ post G N) as (a & e & E & _). rewrite E in H. discriminate H.
  - intros G. destruct (load_new_good _ _ G) as (a & -> & _). reflexivity.
Qed.
(** Calling it again changes nothing, also after an error. *)
Theorem C124_once inds rows n : loads inds rows (S n) = loads inds rows 1.
Proof.
  induction n as [|n IH]; [reflexivity|]. change (loads inds rows (S (S n))) with (fst (load inds rows (loads inds rows (S n)))). rewrite IH. cbn [loads].
  destruct (load inds rows enew) as (a, [e|]) eqn:E; cbn [fst].
  - destruct (load_again _ _ _ _ E) as (_ & e' & -> & _). reflexivity.
  - assert (L: a_loaded a = true) by (unfold load in E; cbn [a_loaded enew] in E; destruct (add_rows _ _) as (a1, [e|]); [discriminate|injection E as <-; reflexivity]).
    unfold load. rewrite L. reflexivity.
Qed.
(** Then the archive has exactly the factors of the rows ... *)
Theorem C124_loaded inds rows n : good inds rows -> forall fk qk v, holds (loads inds rows (S n)) fk qk v <-> exists r, In r rows /\ states r fk qk v.
Proof.
  intros G fk qk v. rewrite C124_once. cbn [loads]. destruct (load_new_good _ _ G) as (a & E & I). rewrite E. cbn [fst]. split.
  - intros (f & ch & E1 & E2). cbn [a_ents] in E1. apply (proj2 (i_f _ _ _ I _ _ _ E1)), E2.
  - intros (r & J & S). pose proof S as (S1 & _). destruct (i_p _ _ _ I fk) as (f & ch & E1); [rewrite map_map, in_map_iff; exists r; auto|]. exists f, ch. split; [exact E1|]. apply (proj2 (i_f _ _ _ I _ _ _ E1)). exists r. auto.
Qed.
(** ... and the methods and flows of the indicator list and the rows, each as first described. *)
Theorem C124_entities inds rows n : good inds rows ->
  (forall k q, dget k (a_ents (loads inds rows (S n))) = Some (EQty q) <-> first_with qkey (inds ++ map e_q rows) k q) /\
  (forall k f, (exists ch, dget k (a_ents (loads inds rows (S n))) = Some (EFlow f ch)) <-> first_with fkey (map e_f rows) k f).
Proof.
  intros G. rewrite C124_once. cbn [loads]. destruct (load_new_good _ _ G) as (a & E & I). rewrite E. cbn [fst a_ents]. split; [exact (i_q _ _ _ I)|]. intros k f. split.
  - intros (ch & H). apply (i_f _ _ _ I _ _ _ H).
  - intros H. destruct (i_p _ _ _ I k) as (f' & ch & H'); [apply first_with_in; exists f; exact H|]. exists ch. rewrite H'. f_equal. f_equal. exact (first_with_fun _ _ _ _ _ (proj1 (i_f _ _ _ I _ _ _ H')) H).
Qed.
(** Otherwise it has the factors of the rows before the first bad one, and load_all fails for ever. *)
Theorem C124_failed inds pre r post n : good inds pre -> ~ good inds (pre ++ [r]) ->
  (forall fk qk v, holds (loads inds (pre ++ r :: post) (S n)) fk qk v <-> exists r', In r' pre /\ states r' fk qk v) /\
  snd (load inds (pre ++ r :: post) (loads inds (pre ++ r :: post) n)) <> None /\
  (pre <> [] -> snd (load inds (pre ++ r :: post) (loads inds (pre ++ r :: post) (S n))) = Some EDuplicate) /\
  (pre = [] -> snd (load inds (pre ++ r :: post) (loads inds (pre ++ r :: post) (S n))) = snd (load inds (pre ++ r :: post) enew)).
Proof.
  intros G N. destruct (load_new_bad _ _ _ post G N) as (a & e & E & I). assert (L1: loads inds (pre ++ r :: post) 1 = mid r a) by (cbn [loads]; rewrite E; reflexivity).
  destruct (load_again _ _ _ _ E) as (_ & e' & E' & O & D). split; [|split; [|split]].
  - intros fk qk v. rewrite C124_once, L1, mid_holds. split.
    + intros (f & ch & E1 & E2). apply (proj2 (i_f _ _ _ I _ _ _ E1)), E2.
    + intros (r' & J & S). pose proof S as (S1 & _). destruct (i_p _ _ _ I fk) as (f & ch & E1); [rewrite map_map, in_map_iff; exists r'; auto|]. exists f, ch. split; [exact E1|]. apply (proj2 (i_f _ _ _ I _ _ _ E1)). exists r'. auto.
  - destruct n as [|n]; [cbn [loads]; rewrite E; discriminate|]. rewrite C124_once, L1, E'. discriminate.
  - intros P. rewrite C124_once, L1, E'. cbn [snd]. f_equal. destruct pre as [|r0 pre]; [contradiction|]. apply (D r0 (pre ++ r :: post) eq_refl). exact (good_prefix inds [r0] pre G).
  - intros ->. rewrite C124_once, L1, E', E. cbn [app snd] in *. unfold load in E, E'. cbn [a_loaded enew] in E. rewrite mid_loaded in E'. destruct (a_loaded a) eqn:L; [discriminate|].
    destruct (add_rows_bad inds [] r post G N) as (a0 & e0 & I0 & _ & A & B). fold (start inds) in E. cbn [app] in B. rewrite B in E. injection E as EM <-.
    rewrite inds_again in E' by (intros q J; rewrite <- EM, mid_get; pose proof (inv_has _ _ _ _ I0 J) as X; destruct (dget (qkey q) (a_ents a0)); [discriminate|congruence]).
    rewrite <- EM in E'. cbn [add_rows] in E'. rewrite (add_row_again _ _ _ _ A) in E'. congruence.
Qed.
(** Rows are good or there is a first bad one: the two cases are all. *)
Theorem C124_cases inds rows : good inds rows \/ exists pre r post, rows = pre ++ r :: post /\ good inds pre /\ ~ good inds (pre ++ [r]).
Proof. exact (good_or inds rows). Qed.
(** In no state is there a factor that no row states. *)
Theorem C124_sound inds rows n fk qk v : holds (loads inds rows n) fk qk v -> exists r, In r rows /\ states r fk qk v.
Proof.
  destruct n as [|n]; [intros (f & ch & E & _); discriminate E|]. destruct (good_or inds rows) as [G|(pre & r & post & -> & G & N)]; [apply C124_loaded, G|].
  intros H. apply (proj1 (C124_failed _ _ _ post n G N)) in H. destruct H as (r' & J & S). exists r'. split; [apply in_or_app; auto|exact S].
Qed.
(** Without a comma in compartments and subcompartments, different flows have different keys; likewise methods. *)
Lemma join3_key a b c : join3 a b c = TraciModel.flow_key (TraciModel.flow_key a b) c.
Proof. unfold join3, TraciModel.flow_key. induction a as [|x a IH]; [reflexivity|]. cbn. f_equal. exact IH. Qed.
Theorem C124_keys_partial f g : comma (f_comp f) = false -> comma (f_sub f) = false -> comma (f_comp g) = false -> comma (f_sub g) = false -> fkey f = fkey g -> f = g.
Proof.
  intros A1 A2 B1 B2. unfold fkey. rewrite !join3_key. intros E. apply key_inj in E; [|assumption|assumption]. destruct E as (E & E3). apply key_inj in E; [|assumption|assumption]. destruct E as (E1 & E2).
  destruct f, g. cbn in *. congruence.
Qed.

(** ** Witnesses and what is refuted *)
Definition gwp : qcols := QC "IPCC" "climate change" "GWP 100a" "kg CO2-Eq".
Definition co2 : fcols := FC "Carbon dioxide" "air" "unspecified".
Definition ch4 : fcols := FC "Methane" "air" "unspecified".
Definition none : cell := CText "".
Definition row1 : erow := ER gwp co2 none (CNum 1%Qc).
Definition row2 : erow := ER gwp ch4 (CNum (Q2Qc 25)) none.
Theorem C124_witness : good [gwp] [row1; row2] /\ holds (loads [gwp] [row1; row2] 1) (fkey ch4) (qkey gwp) (Q2Qc 25) /\
  good [gwp] [row1] /\ ~ good [gwp] ([row1] ++ [row1]) /\ comma (f_comp co2) = false.
Proof.
  split; [apply C124_succeeds; vm_compute; reflexivity|]. split; [eexists; eexists; split; vm_compute; reflexivity|]. split; [apply C124_succeeds; vm_compute; reflexivity|].
  split; [rewrite <- C124_succeeds; vm_compute; discriminate|reflexivity].
Qed.
(** A remark in 'Known issue' is taken for the value: the rows from there on are never loaded. *)
Theorem C124_refuted_issue : let rows := [row1; ER gwp ch4 (CText "see the report") (CNum (Q2Qc 25)); ER gwp (FC "N2O" "air" "unspecified") none (CNum (Q2Qc 298))] in
  snd (load [] rows enew) = Some EValue /\ forall n v, ~ holds (loads [] rows n) "N2O, air, unspecified" (qkey gwp) v.
Proof.
  cbv zeta. split; [vm_compute; reflexivity|]. intros n v H. destruct n as [|n]; [destruct H as (f & ch & E & _); discriminate E|].
  assert (G: good [] [row1]) by (apply C124_succeeds; vm_compute; reflexivity).
  assert (N: ~ good [] ([row1] ++ [ER gwp ch4 (CText "see the report") (CNum (Q2Qc 25))])) by (rewrite <- C124_succeeds; vm_compute; discriminate).
  apply (proj1 (C124_failed _ _ _ [ER gwp (FC "N2O" "air" "unspecified") none (CNum (Q2Qc 298))] n G N)) in H. destruct H as (r' & [<-|[]] & S1 & _). vm_compute in S1. discriminate S1.
Qed.
(** A row given twice: load_all fails, and when called again fails at the first row. *)
Theorem C124_refuted_twice : let rows := [row1; row2; row2] in snd (load [] rows enew) = Some EDuplicate /\ forall n, snd (load [] rows (loads [] rows n)) = Some EDuplicate.
Proof.
  cbv zeta. split; [vm_compute; reflexivity|]. intros [|n]; [vm_compute; reflexivity|]. rewrite C124_once. vm_compute. reflexivity.
Qed.
(** The unit of the first description counts, whatever unit the rows of the factors state. *)
Theorem C124_refuted_unit : let g := QC "IPCC" "climate change" "GWP 100a" "g CO2-Eq" in
  dget (qkey g) (a_ents (loads [gwp] [ER g co2 none (CNum (Q2Qc 1000))] 1)) = Some (EQty gwp) /\ holds (loads [gwp] [ER g co2 none (CNum (Q2Qc 1000))] 1) (fkey co2) (qkey gwp) (Q2Qc 1000).
Proof. split; [vm_compute; reflexivity|eexists; eexists; split; vm_compute; reflexivity]. Qed.
(** Commas: two substances become one flow, which has the factors of both. *)
Theorem C124_refuted_commas : let f := FC "Xylene, m" "air" "low. pop." in let g := FC "Xylene" "m, air" "low. pop." in
  let q := QC "TRACI" "smog" "O3" "kg" in f <> g /\
  good [] [ER gwp f none (CNum 1%Qc); ER q g none (CNum (Q2Qc 2))] /\
  exists ch, dget (fkey g) (a_ents (loads [] [ER gwp f none (CNum 1%Qc); ER q g none (CNum (Q2Qc 2))] 1)) = Some (EFlow f ch) /\ dget (qkey gwp) ch = Some 1%Qc /\ dget (qkey q) ch = Some (Q2Qc 2).
Proof.
  split; [discriminate|]. split; [apply C124_succeeds; vm_compute; reflexivity|]. eexists. split; [vm_compute; reflexivity|]. split; vm_compute; reflexivity.
Qed.

Print Assumptions C124_succeeds. Print Assumptions C124_once. Print Assumptions C124_loaded. Print Assumptions C124_entities. Print Assumptions C124_failed. Print Assumptions C124_cases. Print Assumptions C124_sound. Print Assumptions C124_keys_partial.

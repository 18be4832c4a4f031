(** C118: the EcoSpold v1 import. *)
From Coq Require Import String DecimalString.
From Verif Require Import Num Base PyStr ProcModel EcoModel EcoProofs QcLra.
Open Scope nat_scope.
Open Scope string_scope.
Open Scope list_scope.
Local Arguments eqb : simpl never.

(** Whatever calls were made and whichever of them failed, a process in the archive says what a dataset of its name says: for
    each flow and direction one exchange, whose value in the flow's unit is the total of the dataset's amounts in whatever
    units they were given; no other exchange; and its references are its outputs of group 0 or 2. *)
Theorem C118_faithful size ask files l k p : physical size -> honest size ask ->
  dget k (ents (ehist ask files l)) = Some (EProc p) ->
  exists fn ds rest, dget fn files = Some (ds :: rest) /\ d_name ds = k /\ faithful size (ehist ask files l) (d_x ds) p.
Proof. intros P H E. exact (proj2 (ehist_inv size ask P H files l) k p E). Qed.

(** Later calls never alter what is in the archive: processes and quantities stay as they are, a flow keeps its unit and its
    factors. *)
Theorem C118_stable size ask files l l' : physical size -> honest size ask -> grows (ehist ask files l) (ehist ask files (l ++ l')).
Proof.
  intros P H. unfold ehist at 2. rewrite fold_left_app. exact (proj2 (ehist_from size ask P H files l' _ (ehist_inv size ask P H files l))).
Qed.

(** When [load_all] returns, every file's (first) dataset is there under its name. *)
Theorem C118_load_all size ask files l a fn ds rest : physical size -> honest size ask ->
  load_all ask files (ehist ask files l) = (a, EOk tt) -> dget fn files = Some (ds :: rest) ->
  exists p, dget (d_name ds) (ents a) = Some (EProc p).
Proof. intros P H E F. destruct (load_all_props size ask P H files _ _ _ E (ehist_inv size ask P H files l)) as (_ & _ & C). eauto. Qed.

(** For archives without the defects listed below it does return, after any history. *)
Theorem C118_loads size ask files l : physical size -> honest size ask -> clean ask files ->
  exists a, load_all ask files (ehist ask files l) = (a, EOk tt).
Proof.
  intros P H C. destruct (ehist_kinv size ask P H files C l) as (K & S).
  destruct (load_all_total size ask P H files C _ K S) as (a & E & _). eauto.
Qed.

(** [get] of a key whose file holds a dataset of that name returns that process. *)
Theorem C118_get size ask files l key a r ds rest : physical size -> honest size ask -> clean ask files ->
  dget (key ++ ".xml")%string files = Some (ds :: rest) -> d_name ds = key ->
  get ask files key (ehist ask files l) = (a, r) ->
  exists p, r = EOk (Some (EProc p)) /\ dget key (ents a) = Some (EProc p).
Proof.
  intros P H C F N E. destruct (ehist_kinv size ask P H files C l) as (K & S).
  destruct (dataset_in files _ _ _ F) as (Hd & _). pose proof C as (_ & _ & C3 & _).
  unfold get in E. destruct (dget key (ents (ehist ask files l))) as [e|] eqn:Ek.
  - inversion E; subst. destruct K as (_ & _ & K3). pose proof (K3 _ _ Ek) as Q. destruct e as [| u cs | p]; [| |eauto]; exfalso.
    + destruct Q as (y & Hy & Q). destruct (C3 _ _ Hd Hy). congruence.
    + destruct Q as (y & Hy & Q & _). destruct (C3 _ _ Hd Hy). congruence.
  - unfold fetch in E. destruct (create_process_total size ask P H files C (key ++ ".xml")%string _ K S (dget_Some_key _ _ _ F)) as (a1 & E1 & _).
    rewrite E1 in E. inversion E; subst.
    destruct (create_process_props size ask P H files _ _ _ _ E1 (ehist_inv size ask P H files l)) as (_ & _ & D).
    destruct (D eq_refl ds rest) as (p & Hp); [unfold fetch_filename; now rewrite F|]. exists p. rewrite Hp. auto.
Qed.

(** The same for a name with angle brackets, whose file is named without them. *)
Definition trimmed (s : string) : string :=
  string_of_list_ascii (filter (fun c => negb (Ascii.eqb c "<" || Ascii.eqb c ">")) (list_ascii_of_string s)).
Lemma strip_trimmed s : strip_lg s = trimmed s.
Proof.
  unfold trimmed. induction s as [|c s IH]; [reflexivity|]. cbn [strip_lg list_ascii_of_string filter mem]. rewrite IH.
  destruct (Ascii.eqb_spec c "<") as [->|N1]; [reflexivity|]. destruct (Ascii.eqb_spec c ">") as [->|N2]; [reflexivity|].
  destruct (eqb_spec (String c "") "<") as [E|]; [inversion E; congruence|]. destruct (eqb_spec (String c "") ">") as [E|]; [inversion E; congruence|].
  reflexivity.
Qed.
Theorem C118_get_trimmed size ask files l key a r ds rest : physical size -> honest size ask -> clean ask files ->
  dget (key ++ ".xml")%string files = None -> dget (trimmed (key ++ ".xml")) files = Some (ds :: rest) -> d_name ds = key ->
  get ask files key (ehist ask files l) = (a, r) ->
  exists p, r = EOk (Some (EProc p)) /\ dget key (ents a) = Some (EProc p).
Proof.
  intros P H C F0 F N E. destruct (ehist_kinv size ask P H files C l) as (K & S).
  destruct (dataset_in files _ _ _ F) as (Hd & _). pose proof C as (_ & _ & C3 & _).
  unfold get in E. destruct (dget key (ents (ehist ask files l))) as [e|] eqn:Ek.
  - inversion E; subst. destruct K as (_ & _ & K3). pose proof (K3 _ _ Ek) as Q. destruct e as [| u cs | p]; [| |eauto]; exfalso.
    + destruct Q as (y & Hy & Q). destruct (C3 _ _ Hd Hy). congruence.
    + destruct Q as (y & Hy & Q & _). destruct (C3 _ _ Hd Hy). congruence.
  - assert (FF : fetch_filename files (key ++ ".xml")%string = Some (ds :: rest)) by (unfold fetch_filename; now rewrite F0, strip_trimmed).
    unfold fetch in E. destruct (create_process_total size ask P H files C (trimmed (key ++ ".xml")) _ K S (dget_Some_key _ _ _ F)) as (a1 & E1 & _).
    assert (E2 : create_process ask files (key ++ ".xml")%string (ehist ask files l) = (a1, EOk tt)).
    { rewrite <- E1. unfold create_process. rewrite FF. unfold fetch_filename. now rewrite F. }
    rewrite E2 in E. inversion E; subst.
    destruct (create_process_props size ask P H files _ _ _ _ E2 (ehist_inv size ask P H files l)) as (_ & _ & D).
    destruct (D eq_refl ds rest FF) as (p & Hp). exists p. rewrite Hp. auto.
Qed.

(** When dataset names are unique, the order of the calls does not matter physically: two archives that both hold the process
    have the same exchanges, in the same physical amounts, and the same references. *)
Lemma names_unique files fn1 ds1 r1 fn2 ds2 r2 : NoDup (map d_name (datasets files)) ->
  dget fn1 files = Some (ds1 :: r1) -> dget fn2 files = Some (ds2 :: r2) -> d_name ds1 = d_name ds2 -> ds1 = ds2.
Proof.
  intros ND E1 E2 EN. destruct (dataset_in files _ _ _ E1) as (I1 & _). destruct (dataset_in files _ _ _ E2) as (I2 & _).
  revert ND I1 I2. generalize (datasets files) as L. induction L as [|d L IH]; cbn; [contradiction|]. intros ND I1 I2. inversion ND; subst.
  destruct I1 as [-> | I1], I2 as [-> | I2]; auto.
  - exfalso. apply H1. rewrite EN. now apply in_map.
  - exfalso. apply H1. rewrite <- EN. now apply in_map.
Qed.
Theorem C118_order size ask files l1 l2 k p1 p2 : physical size -> honest size ask -> NoDup (map d_name (datasets files)) ->
  dget k (ents (ehist ask files l1)) = Some (EProc p1) -> dget k (ents (ehist ask files l2)) = Some (EProc p2) ->
  (forall n d, (dget (n, d, None) (p_exch p1) = None <-> dget (n, d, None) (p_exch p2) = None) /\
     forall v1, exch_value p1 (n, d, None) = Some v1 ->
       exists u1 c1 u2 c2 v2, dget (dec n) (ents (ehist ask files l1)) = Some (EFlow u1 c1) /\
         dget (dec n) (ents (ehist ask files l2)) = Some (EFlow u2 c2) /\
         exch_value p2 (n, d, None) = Some v2 /\ (v1 * size n u1 = v2 * size n u2)%Qc) /\
  forall r, In r (p_refs p1) <-> In r (p_refs p2).
Proof.
  intros P H ND E1 E2. destruct (C118_faithful _ _ _ _ _ _ P H E1) as (f1 & d1 & r1 & X1 & Y1 & A1 & B1 & _ & D1 & _).
  destruct (C118_faithful _ _ _ _ _ _ P H E2) as (f2 & d2 & r2 & X2 & Y2 & A2 & B2 & _ & D2 & _).
  assert (d1 = d2) as -> by (eapply names_unique; eauto; congruence). split.
  - intros n d. destruct (existsb (on n d) (d_x d2)) eqn:O.
    + destruct (A1 n d O) as (u1 & c1 & v1 & F1 & V1 & W1). destruct (A2 n d O) as (u2 & c2 & v2 & F2 & V2 & W2). split.
      * split; intros Z; exfalso; [unfold exch_value in V1; rewrite Z in V1|unfold exch_value in V2; rewrite Z in V2]; discriminate.
      * intros v1' V1'. assert (v1' = v1) as -> by congruence. exists u1, c1, u2, c2, v2. repeat split; auto. congruence.
    + split; [rewrite (B1 _ _ O), (B2 _ _ O); tauto|]. intros v1. unfold exch_value. rewrite (B1 _ _ O). discriminate.
  - intros ((n, d), t). rewrite D1, D2. tauto.
Qed.

(** Loading everything a second time changes nothing. *)
Lemma create_process_noop ask files fn a ds rest p : fetch_filename files fn = Some (ds :: rest) -> dget (d_name ds) (ents a) = Some (EProc p) ->
  create_process ask files fn a = (a, EOk tt).
Proof. intros F E. unfold create_process. now rewrite F, E. Qed.
Lemma get_ok_again ask files k a a1 o b : get ask files k a = (a1, EOk o) -> grows a b ->
  (forall fn ds rest, dget fn files = Some (ds :: rest) -> exists p, dget (d_name ds) (ents b) = Some (EProc p)) ->
  exists o', get ask files k b = (b, EOk o').
Proof.
  intros E G A. unfold get, fetch in *. destruct (dget k (ents b)) eqn:Eb; [eauto|].
  destruct (dget k (ents a)) as [e|] eqn:Ea.
  { exfalso. specialize (G _ _ Ea). destruct e; [congruence|destruct G as (? & ? & _); congruence|congruence]. }
  destruct (create_process ask files (k ++ ".xml")%string a) as (a2, [[]|x]) eqn:E1; [|discriminate].
  unfold create_process in E1. destruct (fetch_filename files (k ++ ".xml")%string) as [[|ds rest]|] eqn:Ef; try discriminate.
  destruct (fetch_filename_in _ _ _ Ef) as (fn' & Hf). destruct (A _ _ _ Hf) as (p & Hp).
  rewrite (create_process_noop _ _ _ _ _ _ _ Ef Hp). eauto.
Qed.
Theorem C118_idempotent size ask files l a : physical size -> honest size ask ->
  load_all ask files (ehist ask files l) = (a, EOk tt) -> load_all ask files a = (a, EOk tt).
Proof.
  intros P H E. pose proof (ehist_inv size ask P H files l) as I. pose proof (load_all_props size ask P H files _ _ _ E I) as (_ & _ & A).
  specialize (A eq_refl). revert E I. generalize (ehist ask files l) as a0. intros a0 E I. unfold load_all in *.
  destruct (load_gas ask files (dkeys files) a0) as (a1, [[]|x]) eqn:E1; [|discriminate].
  assert (I1 : ainv size files a1) by (destruct (load_gas_props size ask P H files _ _ _ _ E1 I); auto).
  assert (G1 : grows a1 a) by (destruct (load_each_props size ask P H files _ _ _ _ E I1) as (_ & ? & _); auto).
  assert (LG : forall ks b, load_gas ask files ks b = (a1, EOk tt) -> ainv size files b -> load_gas ask files ks a = (a, EOk tt)).
  { induction ks as [|x ks IH]; intros b EB IB; cbn [load_gas] in *; [auto|]. destruct (contains natural_gas x); [|eauto].
    destruct (get ask files natural_gas b) as (b1, [o|y]) eqn:E2; [|discriminate].
    destruct (get_props size ask P H files _ _ _ _ E2 IB) as (IB1 & GB & _).
    destruct (load_gas_props size ask P H files _ _ _ _ EB IB1) as (_ & GB1).
    destruct (get_ok_again ask files natural_gas b b1 o a E2) as (o' & Eo); [eauto using grows_trans|auto|]. rewrite Eo. eauto. }
  rewrite (LG _ _ E1 I).
  assert (LE : forall ks b r, load_each ask files ks b = (r, EOk tt) -> load_each ask files ks a = (a, EOk tt)).
  { induction ks as [|x ks IH]; intros b r EB; cbn [load_each] in *; [auto|].
    destruct (create_process ask files x b) as (b1, [[]|y]) eqn:E2; [|discriminate].
    unfold create_process in E2. destruct (fetch_filename files x) as [[|ds rest]|] eqn:Ef; try discriminate.
    destruct (fetch_filename_in _ _ _ Ef) as (fn' & Hf). destruct (A _ _ _ Hf) as (p & Hp).
    rewrite (create_process_noop _ _ _ _ _ _ _ Ef Hp). eauto. }
  exact (LE _ _ _ E).
Qed.

(** ** A concrete archive *)
Definition size0 : sizes := fun _ u =>
  match dget u [("kBq", qc 1000 1); ("t", qc 1000 1); ("t*km", qc 1000 1); ("ha", qc 10000 1); ("sh tn", qc 907185 1000);
                ("kWh", (qc 36 10 * qc 947817 1000)%Qc); ("MJ", qc 947817 1000); ("m3", qc 1000 1)] with
  | Some v => v
  | None => 1%Qc
  end.
Definition ask0 : prompt := fun n a b => Some (size0 n a / size0 n b)%Qc.
Lemma size0_nz n u : size0 n u <> 0%Qc.
Proof.
  unfold size0. destruct (dget u _) as [v|] eqn:E; [|discriminate]. apply dget_In in E. cbn [In] in E.
  repeat (destruct E as [E | E]; [inversion E; discriminate|]). contradiction.
Qed.
Lemma physical0 : physical size0.
Proof. intros n. split; [apply size0_nz|]. repeat split; apply Qc_is_canon; vm_compute; reflexivity. Qed.
Lemma honest0 : honest size0 ask0.
Proof. intros n a b x E. inversion E; subst. field. apply size0_nz. Qed.
Definition inp n u v := Xel n u (Some v) false None None true false.
Definition outp n u v g := Xel n u (Some v) true (Some g) None false false.
Definition files0 : dict string (list dset_) :=
  [ ("Steel.xml", [Ds "Steel" [outp 1 "kg" (qc 1 1) 0; inp 2 "t" (qc 3 1); inp 2 "kg" (qc 500 1); inp 3 "kWh" (qc 2 1)]]);
    ("Power.xml", [Ds "Power" [outp 3 "MJ" (qc 36 1) 0; inp 2 "kg" (qc 7 1); Xel 9 "kg" None false None None false false]]) ].
Definition steel_is (l : list eop) (val : Qc) (unit_ : string) : Prop := exists p v cs,
  dget "Steel" (ents (ehist ask0 files0 l)) = Some (EProc p) /\ exch_value p (2, Input, None) = Some v /\ v = val /\
  dget "2" (ents (ehist ask0 files0 l)) = Some (EFlow unit_ cs) /\ In ((1, Output, None) : key) (p_refs p).
(** Loading Steel first, its 3 t and 500 kg of flow 2 are 3.5 in the flow's unit, t. *)
Theorem C118_example : steel_is [OGet "Steel"; OLoadAll] (qc 35 10) "t".
Proof. do 3 eexists. split; [reflexivity|]. split; [reflexivity|]. split; [apply Qc_is_canon; vm_compute; reflexivity|]. split; [reflexivity|]. apply mem_In. reflexivity. Qed.
(** The unit of a flow, and with it the number stored, depends on which dataset was loaded first. *)
Theorem C118_refuted_unit : steel_is [OGet "Power"; OGet "Steel"] (qc 3500 1) "kg".
Proof. do 3 eexists. split; [reflexivity|]. split; [reflexivity|]. split; [apply Qc_is_canon; vm_compute; reflexivity|]. split; [reflexivity|]. apply mem_In. reflexivity. Qed.
Definition files1 : dict string (list dset_) := map (fun kv => (fst kv, map (fun d => Ds (d_name d) (filter directed (d_x d))) (snd kv))) files0.
Theorem C118_clean_case : clean ask0 files1.
Proof.
  split; [repeat constructor; cbn; intuition discriminate|]. split.
  { intros fn o E. apply dget_In in E. cbn in E. destruct E as [E | [E | []]]; inversion E; discriminate. }
  split. { intros ds x D X. cbn in D, X. repeat (destruct D as [<- | D]; [repeat (destruct X as [<- | X]; [split; discriminate|]); contradiction|]); contradiction. }
  split. { intros x y X Y. cbn in X, Y. repeat (destruct X as [<- | X]; [repeat (destruct Y as [<- | Y]; [discriminate|]); contradiction|]); contradiction. }
  split. { intros x X. cbn in X. repeat (destruct X as [<- | X]; [discriminate|]); contradiction. }
  split. { intros x X. cbn in X. repeat (destruct X as [<- | X]; [discriminate|]); contradiction. }
  split. { intros. right. right. discriminate. }
  intros fn F. cbn in F. destruct F as [<- | [<- | []]]; discriminate.
Qed.

(** ** What fails *)
(** Two datasets of one name (say, one per location): the second is dropped without a word. *)
Definition files2 : dict string (list dset_) :=
  [("a.xml", [Ds "Steel" [outp 1 "kg" (qc 1 1) 0]]); ("b.xml", [Ds "Steel" [outp 2 "kg" (qc 1 1) 0]])].
Theorem C118_refuted_same_name : exists a p, load_all ask0 files2 new_arch = (a, EOk tt) /\
  dget "Steel" (ents a) = Some (EProc p) /\ dget ((2, Output, None) : key) (p_exch p) = None /\ dget (dec 2) (ents a) = None.
Proof. do 2 eexists. split; [reflexivity|]. vm_compute. auto. Qed.
(** Further datasets of one file are ignored. *)
Theorem C118_refuted_second_dataset : exists a,
  load_all ask0 [("a.xml", [Ds "Steel" [outp 1 "kg" (qc 1 1) 0]; Ds "Power" [outp 3 "MJ" (qc 1 1) 0]])] new_arch = (a, EOk tt) /\
  dget "Power" (ents a) = None.
Proof. eexists. split; [reflexivity|]. vm_compute. auto. Qed.
(** A process named like a unit or like a flow number is refused, as is everything after it. *)
Theorem C118_refuted_collision : exists a,
  load_all ask0 [("a.xml", [Ds "kg" [outp 1 "kg" (qc 1 1) 0]])] new_arch = (a, EErr EKeyError) /\
  (exists b, load_all ask0 [("a.xml", [Ds "S" [outp 1 "kg" (qc 1 1) 0]]); ("1.xml", [Ds "1" [outp 2 "kg" (qc 1 1) 0]])] new_arch = (b, EErr EAssertion)) /\
  (* the flows of a process that could not be made stay *)
  dget "kg" (ents a) = Some EQty /\ dget "1" (ents a) <> None.
Proof. eexists. split; [reflexivity|]. split; [eexists; reflexivity|]. vm_compute. split; [auto|discriminate]. Qed.
(** [get] of a file whose dataset has another name loads it and returns None. *)
Theorem C118_refuted_get : exists a p,
  get ask0 [("Steel.xml", [Ds "Steel, at plant" [outp 1 "kg" (qc 1 1) 0]])] "Steel" new_arch = (a, EOk None) /\
  dget "Steel, at plant" (ents a) = Some (EProc p).
Proof. do 2 eexists. split; reflexivity. Qed.
(** A second exchange of a flow, of value zero and with a comment, makes the dataset unreadable. *)
Theorem C118_refuted_zero : exists a,
  get ask0 [("S.xml", [Ds "S" [outp 1 "kg" (qc 1 1) 0; Xel 2 "kg" (Some (qc 1 1)) true None None true false;
                                Xel 2 "kg" (Some 0%Qc) true None None true false]])] "S" new_arch = (a, EErr EAttribute).
Proof. eexists. reflexivity. Qed.

Print Assumptions C118_faithful.
Print Assumptions C118_stable.
Print Assumptions C118_load_all.
Print Assumptions C118_loads.
Print Assumptions C118_get.
Print Assumptions C118_order.
Print Assumptions C118_idempotent.
Print Assumptions C118_example.

(** C57 directions, C58/C72 equality and hashing, C73 units. *)
From Verif Require Import Num Base PyStr MiscModel.
Open Scope Qc_scope.
Open Scope string_scope.
Open Scope list_scope.
Local Arguments eqb : simpl never.

(** * C57 *)

(** Specification: the direction an argument denotes. *)
Inductive denotes : parg -> string -> Prop :=
| den_i c r : (c = "i" \/ c = "I")%char -> denotes (AStr (String c r)) "Input"
| den_o c r : (c = "o" \/ c = "O")%char -> denotes (AStr (String c r)) "Output"
| den_0 : denotes (ANum 0) "Input"
| den_1 : denotes (ANum 1) "Output".
Definition opposite (d : string) : string := if eqb d "Input" then "Output" else "Input".

Lemma lower_first c : (lower (String c "") = "i" <-> (c = "i" \/ c = "I")%char) /\ (lower (String c "") = "o" <-> (c = "o" \/ c = "O")%char).
Proof.
  assert (H : forall c, (Bool.eqb (eqb (lower (String c "")) "i") (orb (Ascii.eqb c "i") (Ascii.eqb c "I")) &&
                         Bool.eqb (eqb (lower (String c "")) "o") (orb (Ascii.eqb c "o") (Ascii.eqb c "O")))%bool = true).
  { apply for_all_ascii. vm_compute. reflexivity. }
  specialize (H c). apply andb_true_iff in H as [A B]. apply Bool.eqb_prop in A, B.
  split.
  - rewrite <- (eqb_eq (lower (String c ""))). rewrite A, orb_true_iff, !Ascii.eqb_eq. tauto.
  - rewrite <- (eqb_eq (lower (String c ""))). rewrite B, orb_true_iff, !Ascii.eqb_eq. tauto.
Qed.

Lemma check_spec a : (forall d, check_direction a = DStr d <-> denotes a d).
Proof.
  intros d. destruct a as [|s|v| |].
  - cbn. split; [discriminate|inversion 1].
  - destruct s as [|c r]; cbn [check_direction]; [split; [discriminate|inversion 1]|].
    destruct (lower_first c) as [LI LO]. unfold table. destruct (eqb_spec (lower (String c "")) "i") as [E|NE].
    + split; [intros X; injection X as <-; constructor; tauto|]. inversion 1; subst; [reflexivity|]. exfalso.
      assert (lower (String c "") = "o") by tauto. congruence.
    + destruct (eqb_spec (lower (String c "")) "o") as [E|NE'].
      * split; [intros X; injection X as <-; constructor; tauto|]. inversion 1; subst; [exfalso; tauto|reflexivity].
      * split; [discriminate|]. inversion 1; subst; exfalso; tauto.
  - cbn. destruct (eqb_spec v 0) as [->|N0]; [|destruct (eqb_spec v 1) as [->|N1]].
    + split; [intros X; injection X as <-; constructor|inversion 1; reflexivity].
    + split; [intros X; injection X as <-; constructor|]. inversion 1; first [reflexivity|exfalso; congruence].
    + split; [discriminate|]. inversion 1; congruence.
  - cbn. split; [discriminate|inversion 1].
  - cbn. split; [discriminate|inversion 1].
Qed.
Lemma denotes_dir a d : denotes a d -> d = "Input" \/ d = "Output".
Proof. inversion 1; auto. Qed.

(** check_direction accepts exactly the spellings above. *)
Theorem C57_accepted a d : check_direction a = DStr d <-> denotes a d.
Proof. apply check_spec. Qed.

(** The complement of an accepted argument is the other direction, and complementing twice gives its canonical name. *)
Theorem C57_involution a d : denotes a d ->
  comp_dir a = DStr (opposite d) /\ opposite d <> d /\ comp_dir (AStr (opposite d)) = DStr d /\ check_direction (AStr d) = DStr d.
Proof.
  intros H. pose proof (proj2 (check_spec a d) H) as C. assert (a <> ANone) by (intros ->; inversion H).
  assert (CD : comp_dir a = DStr (opposite d)).
  { unfold comp_dir. destruct a; try congruence; rewrite C; destruct (denotes_dir _ _ H) as [->| ->]; reflexivity. }
  split; [exact CD|]. destruct (denotes_dir _ _ H) as [->| ->]; (split; [discriminate|]; split; reflexivity).
Qed.

(** None stays None; any other hashable argument, empty strings excepted, raises InvalidDirection. *)
Theorem C57_rejected_partial a : a <> ANone -> a <> AStr "" -> a <> AUnhashable -> (forall d, ~ denotes a d) -> comp_dir a = DErr DInvalidDirection.
Proof.
  intros N1 N2 N3 H. assert (C : check_direction a = DErr DKeyError).
  { assert (K : forall d, check_direction a <> DStr d) by (intros d E; apply (H d), check_spec, E).
    destruct a as [|s|v| |]; try congruence; try reflexivity.
    - destruct s as [|c r]; [congruence|]. cbn [check_direction table] in *. destruct (eqb _ "i"); [exfalso; eapply K; reflexivity|].
      destruct (eqb _ "o"); [exfalso; eapply K; reflexivity|reflexivity].
    - cbn in *. destruct (eqb v 0); [exfalso; eapply K; reflexivity|]. destruct (eqb v 1); [exfalso; eapply K; reflexivity|reflexivity]. }
  unfold comp_dir. destruct a; try congruence; rewrite C; reflexivity.
Qed.
Theorem C57_none : comp_dir ANone = DNone.
Proof. reflexivity. Qed.
(** The excepted ones raise something else, and check_direction itself does not translate its error. *)
Theorem C57_rejected_refuted : comp_dir (AStr "") = DErr DIndexError /\ comp_dir AUnhashable = DErr DTypeError /\ check_direction (AStr "x") = DErr DKeyError.
Proof. repeat split. Qed.
Print Assumptions C57_accepted.
Print Assumptions C57_involution.
Print Assumptions C57_rejected_partial.

Example C57_example : denotes (AStr "output") "Output" /\ comp_dir (AStr "OUT") = DStr "Input" /\ comp_dir (AStr "sideways") = DErr DInvalidDirection.
Proof. split; [apply den_o; auto|]. split; reflexivity. Qed.

(** * C58: equal hashes; C72: equality is an equivalence *)
Definition is_ent (o : eobj) : Prop := match o with OEnt _ _ _ _ => True | _ => False end.

(** Among entities whose uuid is determined by origin and external reference (as in an archive that derives uuids from
    external references), equal entities hash equally. *)
Theorem C58_equal_hash_partial (g : option string -> string -> string) a b :
  is_ent a -> is_ent b -> uuid_of a = g (origin_of a) (ext_ref a) -> uuid_of b = g (origin_of b) (ext_ref b) ->
  py_eq a b = Some true -> py_hash a = py_hash b.
Proof.
  destruct a as [t u o x|], b as [t' u' o' x'|]; try contradiction. intros _ _ U U' E. cbn [py_eq] in E. injection E as E.
  apply andb_true_iff in E as [E T]. apply andb_true_iff in E as [X O]. apply (proj1 (eqb_eq _ _)) in X, O. cbn [origin_of] in *. subst o'.
  assert (E : u = u'); [|subst u'; reflexivity]. change (uuid_of (OEnt t u o x) = uuid_of (OEnt t' u' o x')). rewrite U, U'. f_equal. exact X.
Qed.
(** In particular entities that never got an external reference. *)
Corollary C58_no_external_ref t u o t' u' o' : py_eq (OEnt t u o None) (OEnt t' u' o' None) = Some true ->
  py_hash (OEnt t u o None) = py_hash (OEnt t' u' o' None).
Proof. intros E. apply (C58_equal_hash_partial (fun _ x => x)); cbn; auto. Qed.

(** References of the same origin. *)
Theorem C58_refs_same_origin_partial t g r u t' r' u' : py_eq (ORef t g r u) (ORef t' g r' u') = Some true ->
  py_hash (ORef t g r u) = py_hash (ORef t' g r' u').
Proof.
  unfold py_eq. destruct (eqb (etype_of _) _ && eqb (ext_ref _) _) eqn:E; [|discriminate]. intros _.
  apply andb_true_iff in E as [_ E]. apply (proj1 (eqb_eq _ _)) in E. cbn in E. subst. reflexivity.
Qed.

(** In general equal objects have different hashes: two entities known under one external reference, an entity and its own
    reference, references whose origins extend one another; and hashing an entity without origin fails. *)
Theorem C58_refuted :
  (let a := OEnt "flow" "u1" (Some "db") (Some "steel") in let b := OEnt "flow" "u2" (Some "db") (Some "steel") in
   py_eq a b = Some true /\ py_hash a <> py_hash b) /\
  (let a := OEnt "flow" "u1" (Some "db") (Some "steel") in let b := ORef (Some "flow") "db" "steel" (Some "u1") in
   py_eq a b = Some true /\ py_eq b a = Some true /\ py_hash a <> py_hash b) /\
  (let a := ORef (Some "flow") "db" "steel" None in let b := ORef (Some "flow") "db.v2" "steel" None in
   py_eq a b = Some true /\ py_hash a <> py_hash b) /\
  py_hash (OEnt "flow" "u1" None None) = HFails.
Proof. repeat split; try reflexivity; discriminate. Qed.

(** C72: equality of entities is an equivalence relation. *)
Theorem C72_entity_equality_partial :
  (forall a, is_ent a -> py_eq a a = Some true) /\
  (forall a b, is_ent a -> is_ent b -> py_eq a b = Some true -> py_eq b a = Some true) /\
  (forall a b c, is_ent a -> is_ent b -> is_ent c -> py_eq a b = Some true -> py_eq b c = Some true -> py_eq a c = Some true).
Proof.
  assert (K : forall a b, is_ent a -> (py_eq a b = Some true <-> ext_ref a = ext_ref b /\ origin_of a = origin_of b /\ etype_of a = etype_of b)).
  { intros [t u o x|] b; [|contradiction]. intros _. cbn [py_eq]. split.
    - intros E. injection E as E. apply andb_true_iff in E as [E T]. apply andb_true_iff in E as [X O].
      apply (proj1 (eqb_eq _ _)) in X, O, T. auto.
    - intros (X & O & T). rewrite X, O, T, !eqb_refl. reflexivity. }
  split; [|split].
  - intros a A. apply K; auto.
  - intros a b A B E. apply K in E as (X & O & T); [|exact A]. apply K; auto.
  - intros a b c A B C E F. apply K in E as (X & O & T); [|exact A]. apply K in F as (X' & O' & T'); [|exact B]. apply K; [exact A|]. repeat split; congruence.
Qed.

Lemma prefix_refl s : prefix s s = true.
Proof. induction s as [|c s IH]; [reflexivity|]. cbn. destruct (Ascii.ascii_dec c c); [exact IH|congruence]. Qed.
(** References: reflexive and symmetric. *)
Theorem C72_reference_equality_partial t g r u : py_eq (ORef t g r u) (ORef t g r u) = Some true /\
  forall t' g' r' u', py_eq (ORef t g r u) (ORef t' g' r' u') = py_eq (ORef t' g' r' u') (ORef t g r u).
Proof.
  split.
  - unfold py_eq. rewrite !eqb_refl. cbn [andb origin_of]. unfold starts. rewrite prefix_refl. reflexivity.
  - intros. unfold py_eq. rewrite (eqb_sym (etype_of (ORef t' g' r' u'))), (eqb_sym (ext_ref (ORef t' g' r' u'))).
    destruct (_ && _); [|reflexivity]. cbn [origin_of]. rewrite orb_comm. reflexivity.
Qed.
(** It is not transitive, not symmetric between an entity and a reference, and can raise. *)
Theorem C72_refuted :
  (let a := ORef (Some "flow") "db.v1" "x" None in let b := ORef (Some "flow") "db" "x" None in let c := ORef (Some "flow") "db.v2" "x" None in
   py_eq a b = Some true /\ py_eq b c = Some true /\ py_eq a c = Some false) /\
  (let e := OEnt "flow" "u" (Some "db.v1") (Some "x") in let r := ORef (Some "flow") "db" "x" None in
   py_eq r e = Some true /\ py_eq e r = Some false) /\
  (let e := OEnt "flow" "u" None (Some "x") in let r := ORef (Some "flow") "db" "x" None in
   py_eq r e = None /\ py_eq e r = Some false).
Proof. repeat split; reflexivity. Qed.
Print Assumptions C58_equal_hash_partial.
Print Assumptions C58_no_external_ref.
Print Assumptions C58_refs_same_origin_partial.
Print Assumptions C58_refuted.
Print Assumptions C72_entity_equality_partial.
Print Assumptions C72_reference_equality_partial.
Print Assumptions C72_refuted.

Example C58_example : let g := fun (o : option string) x => ("uuid of " ++ x)%string in
  let a := OEnt "flow" "uuid of steel" (Some "db") (Some "steel") in
  is_ent a /\ uuid_of a = g (origin_of a) (ext_ref a) /\ py_eq a a = Some true.
Proof. repeat split. Qed.

(** * C73: unit conversion of a quantity *)

(** A conversion exists exactly when both units are in the table; its value is the ratio of the entries. *)
Theorem C73_defined fr to q v : uconvert (Some fr) (Some to) q = UNum v <->
  exists t i o, qu_table q = Some t /\ dget fr t = Some i /\ dget to t = Some o /\ i <> 0 /\ v = o / i.
Proof.
  unfold uconvert. destruct (qu_table q) as [t|]; [|split; [discriminate|intros (t & i & o & E & _); discriminate]].
  split.
  - destruct (dget fr t) as [i|] eqn:F; [|discriminate]. destruct (dget to t) as [o|] eqn:T; [|discriminate].
    destruct (eqb_spec i 0); [discriminate|]. intros E; injection E as <-. exists t, i, o. auto.
  - intros (t' & i & o & E & F & T & NZ & ->). injection E as <-. rewrite F, T, (proj2 (eqb_neq _ _) NZ). reflexivity.
Qed.
(** Units left out are the reference unit. *)
Theorem C73_default_unit fr to q : uconvert fr to q =
  uconvert (Some (match fr with Some u => u | None => qu_unit q end)) (Some (match to with Some u => u | None => qu_unit q end)) q.
Proof. destruct fr, to; reflexivity. Qed.
(** Conversions compose and can be undone. *)
Theorem C73_composition a b c q v w : uconvert (Some a) (Some b) q = UNum v -> uconvert (Some b) (Some c) q = UNum w ->
  uconvert (Some a) (Some c) q = UNum (v * w).
Proof.
  intros A B. apply C73_defined in A as (t & i & o & T & F & G & NZ & ->). apply C73_defined in B as (t' & i' & o' & T' & F' & G' & NZ' & ->).
  assert (t' = t) by congruence. subst t'. assert (i' = o) by congruence. subst i'. apply C73_defined.
  exists t, i, o'. repeat split; auto. field. auto.
Qed.
Theorem C73_inverse a b q v w : uconvert (Some a) (Some b) q = UNum v -> uconvert (Some b) (Some a) q = UNum w -> v * w = 1.
Proof.
  intros A B. pose proof (C73_composition a b a q v w A B) as C. apply C73_defined in C as (t & i & o & T & F & G & NZ & E).
  assert (o = i) by congruence. subst o. rewrite E. field. exact NZ.
Qed.
(** Multiplying the whole table by a number changes nothing, as documented. *)
Theorem C73_table_scale a b u t k : k <> 0 ->
  uconvert a b (Quantity u (Some (map (fun p => (fst p, snd p * k)) t))) = uconvert a b (Quantity u (Some t)).
Proof.
  intros NZ. assert (D : forall K, dget K (map (fun p => (fst p, snd p * k)) t) = option_map (fun v => v * k) (dget K t)).
  { intros K. induction t as [|[x y] t IH]; [reflexivity|]. cbn. destruct (eqb K x); [reflexivity|exact IH]. }
  unfold uconvert; cbn [qu_table qu_unit]. rewrite !D. set (fr := match a with Some u0 => u0 | None => u end).
  destruct (dget fr t) as [i|]; [|reflexivity]. set (to := match b with Some u0 => u0 | None => u end). cbn [option_map].
  destruct (dget to t) as [o|]; [|reflexivity]. cbn [option_map].
  destruct (eqb_spec (i * k) 0) as [E|E], (eqb_spec i 0) as [E'|E']; try reflexivity.
  - exfalso. apply Qcmult_integral in E. destruct E; contradiction.
  - exfalso. apply E. subst. ring.
  - f_equal. field. auto.
Qed.
(** The magnitude of a flow in a local unit that was accepted. *)
Theorem C73_local_unit u q local local' : set_local_unit u q local = (local', None) ->
  (local' = Some u /\ exists k, uconvert None (Some u) q = UNum k /\ forall x, mag x q local' = UNum (x * k)) \/ local' = local.
Proof.
  unfold set_local_unit. destruct (uconvert None (Some u) q) as [k| | |] eqn:E; intros X; try discriminate X; injection X as <-; [left|right; reflexivity].
  split; [reflexivity|]. exists k. split; [reflexivity|]. intros x. unfold mag. rewrite E. reflexivity.
Qed.

(** Contrary to the documentation the reference unit is not taken to be 1 when it is missing from the table; and the
    inverse magnitude always raises once a local unit is set. *)
Theorem C73_refuted :
  (let q := Quantity "kg" (Some [("lb", Q2Qc (2204622 # 1000000))]) in uconvert (Some "lb") None q = UNone /\ uconvert None (Some "lb") q = UNone) /\
  (let q := Quantity "kg" (Some [("kg", 1); ("lb", Q2Qc (22 # 10))]) in
   exists local, set_local_unit "lb" q None = (local, None) /\ forall x, imag x q local = UTypeError).
Proof. split; [split; reflexivity|]. eexists. split; reflexivity. Qed.
Print Assumptions C73_defined.
Print Assumptions C73_composition.
Print Assumptions C73_inverse.
Print Assumptions C73_table_scale.
Print Assumptions C73_local_unit.
Print Assumptions C73_refuted.

Example C73_example : let q := Quantity "kg" (Some [("kg", 1); ("lb", Q2Qc (22 # 10)); ("t", Q2Qc (1 # 1000))]) in
  (exists v w, uconvert (Some "lb") (Some "t") q = UNum v /\ uconvert (Some "t") (Some "kg") q = UNum w) /\
  set_local_unit "lb" q None = (Some "lb", None).
Proof. split; [eexists _, _; split; reflexivity|reflexivity]. Qed.

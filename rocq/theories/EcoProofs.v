(** Specification and proofs for EcoModel. *)
From Coq Require Import String DecimalString DecimalNat.
From Verif Require Import Num Base PyStr ProcModel EcoModel QcLra.
Open Scope nat_scope.
Open Scope string_scope.
Open Scope list_scope.
Local Arguments eqb : simpl never.

(** ** Specification *)

(** Sizes of units, for each flow (the user may give a density): [size n u] is the physical amount that one [u] of flow [n]
    stands for. *)
Definition sizes := nat -> string -> Qc.
(** The sizes respect the facts about units recorded in ecospold.py's table. *)
Definition physical (size : sizes) : Prop := forall n,
  (forall u, size n u <> 0%Qc) /\
  size n "kBq" = (qc 1000 1 * size n "Bq")%Qc /\ size n "t" = (qc 1000 1 * size n "kg")%Qc /\
  size n "t*km" = (qc 1000 1 * size n "kg*km")%Qc /\ size n "ha" = (qc 10000 1 * size n "m2")%Qc /\
  size n "sh tn" = (qc 907185 1000 * size n "kg")%Qc /\ size n "kWh" = (qc 36 10 * size n "MJ")%Qc /\
  size n "MJ" = (qc 947817 1000 * size n "btu")%Qc /\ size n "m3" = (qc 1000 1 * size n "l")%Qc.
(** The user's answers are right: asked for x with 1 [a] = x [b], for the flow [n]. *)
Definition honest (size : sizes) (ask : prompt) : Prop := forall n a b x, ask n a b = Some x -> size n a = (x * size n b)%Qc.

(** What a dataset says. *)
Definition is_output (x : xel) : bool := match e_outg x, e_Outg x with None, None => false | _, _ => true end.
Definition is_input (x : xel) : bool := negb (is_output x) && (e_ing x || e_Ing x).
Definition goes (x : xel) (d : dirn) : bool := match d with Output => is_output x | Input => is_input x end.
(** The group of an output *)
Definition out_group (x : xel) : option nat := match e_outg x with Some g => Some g | None => e_Outg x end.
Definition mean (x : xel) : Qc := match e_mean x with Some v => v | None => 0%Qc end.
Definition on (n : nat) (d : dirn) (x : xel) : bool := Nat.eqb (e_num x) n && goes x d.
(** The physical amount of flow [n] the dataset's exchanges declare in direction [d] *)
Fixpoint amount (size : sizes) (n : nat) (d : dirn) (l : list xel) : Qc :=
  match l with
  | [] => 0%Qc
  | x :: l => ((if on n d x then mean x * size n (e_unit x) else 0) + amount size n d l)%Qc
  end.
(** The process [p] of archive [a] says what the dataset [l] says. *)
Definition faithful (size : sizes) (a : arch) (l : list xel) (p : proc) : Prop :=
  (forall n d, existsb (on n d) l = true ->
     exists u cs v, dget (dec n) (ents a) = Some (EFlow u cs) /\ exch_value p (n, d, None) = Some v /\
                    (v * size n u)%Qc = amount size n d l) /\
  (forall n d, existsb (on n d) l = false -> dget (n, d, None) (p_exch p) = None) /\
  (forall n d s, dget (n, d, Some s) (p_exch p) = None) /\
  (forall n d t, In (n, d, t) (p_refs p) <->
     d = Output /\ t = None /\ exists x, In x l /\ e_num x = n /\ (out_group x = Some 0 \/ out_group x = Some 2)) /\
  (forall k, is_ref p k = true <-> In k (p_refs p)).
(** Nothing already in [a] is altered in [b], except that flows may gain factors. *)
Definition grows (a b : arch) : Prop := forall k e, dget k (ents a) = Some e ->
  match e with
  | EFlow u cs => exists cs', dget k (ents b) = Some (EFlow u cs') /\ forall w c, dget w cs = Some c -> dget w cs' = Some c
  | _ => dget k (ents b) = Some e
  end.

(** ** Proofs *)

Lemma dec_inj n m : dec n = dec m -> n = m.
Proof.
  unfold dec. intros E. apply (f_equal NilEmpty.uint_of_string) in E. rewrite !NilEmpty.usu in E. inversion E as [E'].
  now rewrite <- (Unsigned.of_to n), <- (Unsigned.of_to m), E'.
Qed.

Lemma conv_table size n a b f : physical size -> dget (a, b) conversion_dict = Some f -> size n a = (f * size n b)%Qc.
Proof.
  intros P E. destruct (P n) as (_ & H1 & H2 & H3 & H4 & H5 & H6 & H7 & H8).
  apply dget_In in E. unfold conversion_dict in E.
  assert (D : forall z w (x y : Qc), (z * w)%Qc = 1%Qc -> x = (z * y)%Qc -> y = (w * x)%Qc).
  { intros z w x y Z ->. rewrite Qcmult_assoc, (Qcmult_comm w z), Z. ring. }
  cbn [In] in E. repeat (destruct E as [E | E]; [inversion E; subst; clear E|]); try contradiction; auto.
  - apply (D (qc 1000 1)); [apply Qc_is_canon; vm_compute; reflexivity|exact H3].
  - rewrite H5, H2. rewrite Qcmult_assoc. f_equal. apply Qc_is_canon; vm_compute; reflexivity.
Qed.

Lemma conv_right size ask n fu u v : physical size -> honest size ask -> conv_factor ask n fu u = Some v ->
  size n fu = (v * size n u)%Qc.
Proof.
  intros P H. unfold conv_factor. destruct (dget (fu, u) conversion_dict) eqn:E1; [intros E; inversion E; subst; eauto using conv_table|].
  destruct (dget (u, fu) conversion_dict) as [w|] eqn:E2.
  - intros E. inversion E; subst. pose proof (conv_table size n u fu w P E2) as E3.
    assert (w <> 0%Qc). { intros ->. apply (proj1 (P n) u). rewrite E3. ring. }
    rewrite E3. field. exact H0.
  - intros E. eauto.
Qed.

(** Invariant of the flows *)
Definition finv (size : sizes) (a : arch) : Prop :=
  forall n u cs, dget (dec n) (ents a) = Some (EFlow u cs) -> forall w c, dget w cs = Some c -> size n u = (c * size n w)%Qc.

Lemma grows_refl a : grows a a.
Proof. intros k [| u cs |] E; auto. eexists. eauto. Qed.
Lemma grows_trans a b c : grows a b -> grows b c -> grows a c.
Proof.
  intros A B k e E. specialize (A _ _ E). destruct e as [| u cs |]; try exact (B _ _ A).
  destruct A as (cs1 & E1 & A). destruct (B _ _ E1) as (cs2 & E2 & B'). exists cs2. auto.
Qed.
Lemma din_get {V} k (d : dict string V) : din k d = match dget k d with Some _ => true | None => false end.
Proof.
  induction d as [|(k0, v0) d IH]; [reflexivity|]. unfold din in *. cbn. destruct (eqb k k0); auto.
Qed.

Definition procs (a b : arch) : Prop := forall k p, dget k (ents b) = Some (EProc p) -> dget k (ents a) = Some (EProc p).

Lemma add_ent_ok k e a a' : add_ent k e a = (a', EOk tt) ->
  dget k (ents a) = None /\ a' = Ar (dset k e (ents a)) (qdict a) /\ grows a a'.
Proof.
  unfold add_ent. rewrite din_get. destruct (dget k (ents a)) eqn:E; [discriminate|]. intros F. inversion F; subst.
  split; [auto|]. split; [auto|]. intros k' e' E'. cbn [ents]. rewrite dget_dset. destruct (eqb_spec k' k); [subst; congruence|].
  destruct e'; eauto.
Qed.
Lemma add_ent_err k e a a' x : add_ent k e a = (a', EErr x) -> a' = a.
Proof. unfold add_ent. destruct (din _ _); intros F; inversion F; auto. Qed.

Section S.
Context (size : sizes) (ask : prompt) (P : physical size) (H : honest size ask).

Lemma create_quantity_props u a a' r : create_quantity u a = (a', r) -> finv size a ->
  finv size a' /\ grows a a' /\ procs a a'.
Proof.
  unfold create_quantity. destruct (mem u (qdict a)).
  - intros E I. inversion E; subst. split; [auto|split; [apply grows_refl|intros k p; auto]].
  - destruct (add_ent u EQty a) as (a1, [[]|x]) eqn:E1; intros E I; inversion E; subst.
    + apply add_ent_ok in E1 as (E0 & -> & G). cbn [ents qdict]. split; [|split].
      * intros n v cs. cbn [ents]. rewrite dget_dset. destruct (eqb _ _); [discriminate|]. apply I.
      * exact G.
      * intros k p. cbn [ents]. rewrite dget_dset. destruct (eqb _ _); [discriminate|]. auto.
    + apply add_ent_err in E1 as ->. split; [auto|split; [apply grows_refl|intros k p; auto]].
Qed.

Lemma flow_unit_props n u fu cs a a' r : flow_unit ask n u fu cs a = (a', r) -> finv size a ->
  dget (dec n) (ents a) = Some (EFlow fu cs) ->
  finv size a' /\ grows a a' /\ procs a a' /\
  (forall fu' cs', r = EOk (fu', cs') -> fu' = fu /\ dget (dec n) (ents a') = Some (EFlow fu cs')).
Proof.
  unfold flow_unit. intros E I F. destruct (eqb_spec u fu).
  { inversion E; subst. split; [auto|]. split; [apply grows_refl|]. split; [intros k p; auto|]. intros ? ? EE; inversion EE; subst; auto. }
  destruct (create_quantity u a) as (a1, [[]|x]) eqn:E1.
  2:{ inversion E; subst. destruct (create_quantity_props _ _ _ _ E1 I) as (A & B & C). repeat split; auto; discriminate. }
  destruct (create_quantity_props _ _ _ _ E1 I) as (A & B & C).
  assert (F1 : dget (dec n) (ents a1) = Some (EFlow fu cs)).
  { unfold create_quantity in E1. destruct (mem u (qdict a)); [inversion E1; subst; auto|].
    destruct (add_ent u EQty a) as (a2, [[]|x]) eqn:E2; inversion E1; subst. apply add_ent_ok in E2 as (E0 & -> & G).
    cbn [ents]. rewrite dget_dset. destruct (eqb_spec (dec n) u); [subst; congruence|auto]. }
  destruct (din u cs) eqn:Eu.
  { inversion E; subst. split; [auto|]. split; [auto|]. split; [auto|]. intros ? ? EE; inversion EE; subst; auto. }
  destruct (conv_factor ask n fu u) as [v|] eqn:Ev.
  2:{ inversion E; subst. split; [auto|]. split; [auto|]. split; [auto|]. discriminate. }
  inversion E; subst. clear E. pose proof (conv_right _ _ _ _ _ _ P H Ev) as Hv. split; [|split; [|split]].
  - intros m u' cs0. cbn [ents]. rewrite dget_dset. destruct (eqb_spec (dec m) (dec n)) as [En|].
    + apply dec_inj in En. subst. intros EE; inversion EE; subst. intros w c. rewrite dget_dset.
      destruct (eqb_spec w u); [intros EC; inversion EC; subst; auto|]. intros EC. exact (A _ _ _ F1 _ _ EC).
    + apply A.
  - apply (grows_trans _ a1); [auto|]. intros k e EK. cbn [ents]. rewrite dget_dset. destruct (eqb_spec k (dec n)).
    + subst. rewrite F1 in EK. inversion EK; subst. exists (dset u v cs). split; [auto|]. intros w c EC. rewrite dget_dset.
      destruct (eqb_spec w u); [subst; rewrite din_get, EC in Eu; discriminate|auto].
    + destruct e; eauto.
  - intros k p. cbn [ents]. rewrite dget_dset. destruct (eqb _ _); [discriminate|]. apply C.
  - intros fu' cs' EE. inversion EE; subst. split; [auto|]. cbn [ents]. now rewrite dget_dset_same.
Qed.

Lemma create_flow_props x a a' r : create_flow ask x a = (a', r) -> finv size a ->
  finv size a' /\ grows a a' /\ procs a a' /\
  (forall fu cs, r = EOk (fu, cs) -> dget (dec (e_num x)) (ents a') = Some (EFlow fu cs)).
Proof.
  unfold create_flow. intros E I. destruct (dget (dec (e_num x)) (ents a)) as [[| fu cs | p]|] eqn:E0.
  - inversion E; subst. split; [auto|]. split; [apply grows_refl|]. split; [intros k p; auto|]. discriminate.
  - destruct (flow_unit_props _ _ _ _ _ _ _ E I E0) as (A & B & C & D). repeat split; auto.
    intros fu' cs' EE. destruct (D _ _ EE) as (-> & ?). auto.
  - inversion E; subst. split; [auto|]. split; [apply grows_refl|]. split; [intros k q; auto|discriminate].
  - destruct (create_quantity (e_unit x) a) as (a1, [[]|y]) eqn:E1; destruct (create_quantity_props _ _ _ _ E1 I) as (A & B & C).
    2:{ inversion E; subst. split; [auto|]. split; [auto|]. split; [auto|]. discriminate. }
    destruct (add_ent (dec (e_num x)) (EFlow (e_unit x) [(e_unit x, 1%Qc)]) a1) as (a2, [[]|y]) eqn:E2.
    2:{ inversion E; subst. apply add_ent_err in E2 as ->. repeat split; auto; discriminate. }
    apply add_ent_ok in E2 as (E2 & -> & G).
    assert (I2 : finv size (Ar (dset (dec (e_num x)) (EFlow (e_unit x) [(e_unit x, 1%Qc)]) (ents a1)) (qdict a1))).
    { intros n u cs. cbn [ents]. rewrite dget_dset. destruct (eqb_spec (dec n) (dec (e_num x))).
      - intros EE; inversion EE; subst. intros w c. cbn. destruct (eqb_spec w (e_unit x)) as [->|]; [|discriminate].
        intros EC; inversion EC; subst. ring.
      - apply A. }
    assert (F2 : dget (dec (e_num x)) (ents (Ar (dset (dec (e_num x)) (EFlow (e_unit x) [(e_unit x, 1%Qc)]) (ents a1)) (qdict a1)))
                 = Some (EFlow (e_unit x) [(e_unit x, 1%Qc)])) by (cbn [ents]; now rewrite dget_dset_same).
    destruct (flow_unit_props _ _ _ _ _ _ _ E I2 F2) as (A3 & B3 & C3 & D3). repeat split; auto.
    + eapply grows_trans; [exact B|]. eapply grows_trans; eauto.
    + intros k p EK. apply C3 in EK. cbn [ents] in EK. rewrite dget_dset in EK. destruct (eqb _ _); [discriminate|]. auto.
    + intros fu cs EE. destruct (D3 _ _ EE) as (-> & ?). auto.
Qed.

(** One entry of the flow list says what one exchange says *)
Definition entry_ok (a : arch) (x : xel) (t : nat * dirn * Qc * bool) : Prop :=
  let '(n, d, v, c) := t in
  n = e_num x /\ goes x d = true /\ (exists b, direction x = Some (d, b)) /\ c = e_cmt x /\
  exists u cs, dget (dec n) (ents a) = Some (EFlow u cs) /\ (v * size n u)%Qc = (mean x * size n (e_unit x))%Qc.
Lemma entry_grows a b x t : grows a b -> entry_ok a x t -> entry_ok b x t.
Proof.
  intros G. destruct t as (((n, d), v), c). intros (A & B & C & D & u & cs & E & F). repeat split; auto.
  destruct (G _ _ E) as (cs' & E' & _). eauto.
Qed.

Definition directed (x : xel) : bool := match direction x with Some _ => true | None => false end.
Lemma direction_goes x d b : direction x = Some (d, b) -> goes x d = true.
Proof.
  unfold direction, goes, is_input, is_output. destruct (e_outg x), (e_Outg x); try (intros E; inversion E; subst; reflexivity).
  destruct (e_ing x), (e_Ing x); intros E; inversion E; subst; reflexivity.
Qed.
Lemma goes_direction x d : goes x d = true -> exists b, direction x = Some (d, b).
Proof.
  unfold direction, goes, is_input, is_output. destruct d, (e_outg x), (e_Outg x); try discriminate; eauto.
  destruct (e_ing x), (e_Ing x); try discriminate; eauto.
Qed.
Lemma direction_ref x d b : direction x = Some (d, b) ->
  (b = true <-> d = Output /\ (out_group x = Some 0 \/ out_group x = Some 2)).
Proof.
  unfold direction, out_group. 
  assert (R : forall g, ref_group g = true <-> Some g = Some 0 \/ Some g = Some 2).
  { intros g. unfold ref_group. destruct g as [|[|[|g]]]; cbn; split; auto; try (intros [E | E]; congruence); discriminate. }
  destruct (e_outg x) as [g|]; [intros E; inversion E; subst; rewrite R; tauto|].
  destruct (e_Outg x) as [g|]; [intros E; inversion E; subst; rewrite R; tauto|].
  destruct (e_ing x), (e_Ing x); intros E; inversion E; subst; split; try discriminate; intros (? & _); discriminate.
Qed.

Lemma extract_props l : forall rf fl a a' r, extract_exchanges ask l rf fl a = (a', r) -> finv size a ->
  finv size a' /\ grows a a' /\ procs a a' /\
  (forall rf' fl', r = EOk (rf', fl') ->
     (exists new, fl' = fl ++ new /\ Forall2 (entry_ok a') (filter directed l) new) /\
     (forall n, In n rf' <-> In n rf \/ exists x, In x l /\ e_num x = n /\ (out_group x = Some 0 \/ out_group x = Some 2))).
Proof.
  induction l as [|x l IH]; intros rf fl a a' r E I; cbn [extract_exchanges] in E.
  - inversion E; subst. split; [auto|]. split; [apply grows_refl|]. split; [intros k p; auto|]. intros rf' fl' EE; inversion EE; subst.
    split; [exists []; rewrite app_nil_r; split; [auto|constructor]|]. intros n. split; [auto|intros [? | (x & [] & _)]; auto].
  - destruct (create_flow ask x a) as (a1, [(fu, cs)|y]) eqn:E1; destruct (create_flow_props _ _ _ _ E1 I) as (A & B & C & D).
    2:{ inversion E; subst. split; [auto|]. split; [auto|]. split; [auto|]. discriminate. }
    specialize (D _ _ eq_refl). cbn [filter]. unfold directed at 1. destruct (direction x) as [(d, isref)|] eqn:Ed.
    2:{ destruct (IH _ _ _ _ _ E A) as (A2 & B2 & C2 & D2). split; [auto|]. split; [eapply grows_trans; eauto|]. split; [intros k p HH; auto|].
        intros rf' fl' EE. destruct (D2 _ _ EE) as (D3 & D4). split; [exact D3|]. intros n. rewrite D4. split.
        - intros [? | (z & ? & ?)]; [auto|right; exists z; cbn; auto].
        - intros [? | (z & [-> | Hz] & ? & HO)]; [auto| |right; eauto].
          exfalso. unfold direction, out_group in *. destruct (e_outg z); [discriminate|]. destruct (e_Outg z); [discriminate|].
          destruct HO; discriminate. }
    destruct (create_quantity (e_unit x) a1) as (a2, [[]|y]) eqn:E2; destruct (create_quantity_props _ _ _ _ E2 A) as (A2 & B2 & C2).
    2:{ inversion E; subst. split; [auto|]. split; [eapply grows_trans; eauto|]. split; [intros k p HH; auto|]. discriminate. }
    destruct (B2 _ _ D) as (cs2 & D2 & K2).
    destruct (e_mean x) as [v|] eqn:Ev.
    2:{ inversion E; subst. split; [auto|]. split; [eapply grows_trans; eauto|]. split; [intros k p HH; auto|]. discriminate. }
    assert (S : forall w, extract_exchanges ask l (if isref then set_add (e_num x) rf else rf) (fl ++ [(e_num x, d, w, e_cmt x)]) a2 = (a', r) ->
                (w * size (e_num x) fu)%Qc = (v * size (e_num x) (e_unit x))%Qc ->
       finv size a' /\ grows a a' /\ procs a a' /\
      (forall rf' fl', r = EOk (rf', fl') ->
         (exists new, fl' = fl ++ new /\ Forall2 (entry_ok a') (x :: filter directed l) new) /\
         (forall n, In n rf' <-> In n rf \/ exists z, In z (x :: l) /\ e_num z = n /\ (out_group z = Some 0 \/ out_group z = Some 2)))).
    { intros w EW HW. destruct (IH _ _ _ _ _ EW A2) as (A3 & B3 & C3 & D3). split; [auto|].
      split; [eapply grows_trans; [|eapply grows_trans]; eauto|]. split; [intros k p HH; auto|].
      intros rf' fl' EE. destruct (D3 _ _ EE) as ((new & -> & F) & D4). split.
      - exists ((e_num x, d, w, e_cmt x) :: new). split; [now rewrite <- app_assoc|]. constructor; [|exact F].
        destruct (B3 _ _ D2) as (cs3 & D5 & _). repeat split; eauto using direction_goes.
        exists fu, cs3. split; [auto|]. unfold mean. now rewrite Ev.
      - intros n. rewrite D4. pose proof (direction_ref _ _ _ Ed) as R. destruct isref.
        + rewrite In_set_add. destruct R as (R & _). destruct (R eq_refl) as (_ & RO). split.
          * intros [[-> | ?] | (z & ? & ?)]; [right; exists x; cbn; auto|auto|right; exists z; cbn; auto].
          * intros [? | (z & [<- | Hz] & <- & HO)]; [auto|auto|right; eauto].
        + split.
          * intros [? | (z & ? & ?)]; [auto|right; exists z; cbn; auto].
          * intros [? | (z & [<- | Hz] & <- & HO)]; [auto| |right; eauto]. exfalso.
            assert (false = true); [|discriminate]. apply R. split; [|auto].
            unfold direction, out_group in *. destruct (e_outg x); [congruence|]. destruct (e_Outg x); [congruence|]. destruct HO; discriminate. }
    destruct (eqb_spec (e_unit x) fu) as [Eu|].
    + apply (S v); [exact E|now rewrite Eu].
    + destruct (dget (e_unit x) cs) as [c|] eqn:Ec.
      * destruct (eqb_spec c 0%Qc).
        { inversion E; subst. split; [auto|]. split; [eapply grows_trans; eauto|]. split; [intros k p HH; auto|]. discriminate. }
        apply (S (v / c)%Qc); [exact E|]. rewrite (A _ _ _ D _ _ Ec). field. auto.
      * change (eqb 0%Qc 0%Qc) with true in E. cbv iota in E. inversion E; subst.
        split; [auto|]. split; [eapply grows_trans; eauto|]. split; [intros k p HH; auto|]. discriminate.
Qed.
End S.

(** *** The process built from a flow list *)
Definition entry := (nat * dirn * Qc * bool)%type.
Definition en_on (n : nat) (d : dirn) (t : entry) : bool := let '(m, e, _, _) := t in Nat.eqb m n && eqb e d.
Definition en_val (t : entry) : Qc := let '(_, _, v, _) := t in v.
Fixpoint tot (n : nat) (d : dirn) (l : list entry) : Qc :=
  match l with [] => 0%Qc | t :: l => ((if en_on n d t then en_val t else 0) + tot n d l)%Qc end.
Definition plain (p : proc) : Prop :=
  (forall n d e, dget (n, d, None) (p_exch p) = Some e -> exists v, e = X (Some v) [] false) /\
  (forall n d s, dget (n, d, Some s) (p_exch p) = None) /\ p_refs p = [] /\ p_qty p = None /\ p_sum p = 0%Qc.

Lemma add_one p f d v p1 r : plain p -> add_exchange p f d None (Some v) TNone true = (p1, r) ->
  plain p1 /\ (exists k, r = POk k) /\
  forall n e, dget (n, e, None) (p_exch p1) =
    if Nat.eqb f n && eqb d e then Some (X (Some (match dget (n, e, None) (p_exch p) with Some (X (Some w) _ _) => w + v | _ => v end)%Qc) [] false)
    else dget (n, e, None) (p_exch p).
Proof.
  intros (P1 & P2 & P3 & P4 & P5) E. unfold add_exchange in E. cbn [t_key] in E.
  assert (ON : forall n e, (Nat.eqb f n && eqb d e) = eqb ((n, e, None) : key) (f, d, None)).
  { intros n e. destruct (Nat.eqb_spec f n), (eqb_spec d e), (eqb_spec ((n, e, None) : key) (f, d, None)); subst; auto; try congruence. }
  assert (Z : forall w, (forall n s e, dget (n, e, Some s) (dset ((f, d, None) : key) w (p_exch p)) = None)).
  { intros w n s e. rewrite dget_dset. destruct (eqb_spec ((n, e, Some s) : key) (f, d, None)); [discriminate|apply P2]. }
  destruct (dget (f, d, None) (p_exch p)) as [x|] eqn:Ex.
  - destruct (P1 _ _ _ Ex) as (w & ->). destruct (eqb_spec v (Q2Qc 0)) as [->|Nv].
    + inversion E; subst. split; [repeat split; auto|]. split; [eauto|]. intros n e. rewrite ON.
      destruct (eqb_spec ((n, e, None) : key) (f, d, None)) as [EE|]; [|auto]. inversion EE; subst. rewrite Ex. do 3 f_equal. change (Q2Qc 0) with 0%Qc. ring.
    + cbn [x_value add_to_value x_vdict x_ref] in E. inversion E; subst. split; [|split; [eauto|]].
      * split; [|split; [|split; [|split]]]; cbn; auto.
        intros n e y. rewrite dget_dset. destruct (eqb _ _); [intros EE; inversion EE; eauto|apply P1].
      * intros n e. rewrite ON. cbn. rewrite dget_dset. destruct (eqb_spec ((n, e, None) : key) (f, d, None)) as [EE|]; [|auto].
        inversion EE; subst. now rewrite Ex.
  - inversion E; subst. split; [|split; [eauto|]].
    + split; [|split; [|split; [|split]]]; cbn; auto.
      intros n e y. rewrite dget_dset. destruct (eqb _ _); [intros EE; inversion EE; eauto|apply P1].
    + intros n e. rewrite ON. cbn. rewrite dget_dset. destruct (eqb_spec ((n, e, None) : key) (f, d, None)) as [EE|]; [|auto].
      inversion EE; subst. now rewrite Ex.
Qed.

Lemma add_exchanges_props l : forall p p', plain p -> add_exchanges l p = EOk p' ->
  plain p' /\ forall n d, dget (n, d, None) (p_exch p') =
    match dget (n, d, None) (p_exch p) with
    | Some (X (Some w) _ _) => Some (X (Some (w + tot n d l)%Qc) [] false)
    | Some e => Some e
    | None => if existsb (en_on n d) l then Some (X (Some (tot n d l)) [] false) else None
    end.
Proof.
  induction l as [|(((f, d), v), c) l IH]; intros p p' PL E; cbn [add_exchanges] in E.
  - inversion E; subst. split; [auto|]. intros n d. destruct PL as (P1 & _). destruct (dget (n, d, None) (p_exch p')) as [e|] eqn:Ee; [|reflexivity].
    destruct (P1 _ _ _ Ee) as (w & ->). cbn. do 3 f_equal. ring.
  - destruct (add_exchange p f d None (Some v) TNone true) as (p1, r) eqn:E1.
    destruct (add_one _ _ _ _ _ _ PL E1) as (PL1 & (k & ->) & G1).
    assert (E2 : add_exchanges l p1 = EOk p') by (destruct k; [|destruct c]; congruence). clear E E1.
    destruct (IH _ _ PL1 E2) as (PL2 & G2). split; [auto|]. intros n e. rewrite G2, G1. cbn [tot existsb en_on en_val].
    destruct (Nat.eqb f n && eqb d e); cbn [orb].
    + destruct PL as (P1 & _). destruct (dget (n, e, None) (p_exch p)) as [y|] eqn:Ey; [destruct (P1 _ _ _ Ey) as (w & ->)|]; do 3 f_equal; ring.
    + destruct PL as (P1 & _). destruct (dget (n, e, None) (p_exch p)) as [y|] eqn:Ey; [destruct (P1 _ _ _ Ey) as (w & ->)|];
        try destruct (existsb (en_on n e) l); try reflexivity; do 3 f_equal; ring.
Qed.

(** after [add_references]: flags and references *)
Definition unref (e : exch) : exch := X (x_value e) (x_vdict e) false.
Definition rinv (p : proc) : Prop := p_sum p = 0%Qc /\ (forall k, is_ref p k = true <-> In k (p_refs p)) /\ (forall k, In k (p_refs p) -> k_dir k = Output /\ k_term k = None).
Lemma add_reference_props p f p1 r : rinv p -> add_reference (fun _ _ => 0%Qc) p f Output = (p1, r) ->
  rinv p1 /\ (forall k, exch_value p1 k = exch_value p k) /\
  (forall k, dget k (p_exch p1) = None <-> dget k (p_exch p) = None) /\
  (forall k, r = POk k -> forall k', In k' (p_refs p1) <-> In k' (p_refs p) \/ k' = (f, Output, None)) /\
  (dget (f, Output, None) (p_exch p) <> None -> exists k, r = POk k).
Proof.
  intros (R1 & R2 & R3) E. unfold add_reference in E.
  destruct (dget (f, Output, None) (p_exch p)) as [e|] eqn:Ee.
  - cbn [alloc_qty] in E. unfold alloc_qty in E. cbn [p_sum] in E. rewrite R1 in E. change (eqb 0%Qc (Q2Qc 0)) with true in E. cbv iota in E.
    inversion E; subst. clear E. split; [|split; [|split; [|split]]]; cbn [p_exch p_refs].
    + split; [auto|]. split.
      * intros k. cbn [p_refs]. rewrite In_set_add, <- R2. unfold is_ref. cbn [p_exch]. rewrite dget_dset. destruct (eqb_spec k (f, Output, None)) as [->|N]; [cbn; tauto|].
        split; [auto|intros [? | ?]; [contradiction|auto]].
      * intros k. cbn [p_refs]. rewrite In_set_add. intros [-> | ?]; auto.
    + intros k. unfold exch_value. cbn [p_exch]. rewrite dget_dset. destruct (eqb_spec k (f, Output, None)) as [->|]; [|auto]. now rewrite Ee.
    + intros k. rewrite dget_dset. destruct (eqb_spec k (f, Output, None)) as [->|]; [|tauto]. rewrite Ee. split; discriminate.
    + intros k _ k'. rewrite In_set_add. tauto.
    + intros _. unfold din. rewrite Ee. eauto.
  - unfold alloc_qty in E. rewrite R1 in E. change (eqb 0%Qc (Q2Qc 0)) with true in E. cbv iota in E. unfold din in E. rewrite Ee in E.
    inversion E; subst. split; [repeat split; auto; try apply R2; apply R3; auto|]. split; [auto|]. split; [tauto|]. split; [discriminate|congruence].
Qed.
Lemma add_references_props l : forall p p', rinv p -> add_references l p = EOk p' ->
  rinv p' /\ (forall k, exch_value p' k = exch_value p k) /\ (forall k, dget k (p_exch p') = None <-> dget k (p_exch p) = None) /\
  (forall k, In k (p_refs p') <-> In k (p_refs p) \/ exists f, In f l /\ k = (f, Output, None)).
Proof.
  induction l as [|f l IH]; intros p p' R E; cbn [add_references] in E.
  - inversion E; subst. split; [auto|]. split; [auto|]. split; [tauto|]. intros k. split; [auto|intros [? | (? & [] & _)]; auto].
  - destruct (add_reference (fun _ _ => 0%Qc) p f Output) as (p1, [k0|]) eqn:E1; [|discriminate].
    destruct (add_reference_props _ _ _ _ R E1) as (R1 & V1 & N1 & I1 & _). destruct (IH _ _ R1 E) as (R2 & V2 & N2 & I2).
    split; [auto|]. split; [intros k; now rewrite V2|]. split; [intros k; now rewrite N2|].
    intros k. rewrite I2, (I1 _ eq_refl). split.
    + intros [[? | ->] | (g & ? & ->)]; [auto|right; exists f; cbn; auto|right; exists g; cbn; auto].
    + intros [? | (g & [-> | ?] & ->)]; [auto|auto|right; eauto].
Qed.
Lemma add_references_total l : forall p, rinv p -> (forall f, In f l -> dget (f, Output, None) (p_exch p) <> None) ->
  exists p', add_references l p = EOk p'.
Proof.
  induction l as [|f l IH]; intros p R A; cbn [add_references]; [eauto|].
  destruct (add_reference (fun _ _ => 0%Qc) p f Output) as (p1, r) eqn:E1.
  destruct (add_reference_props _ _ _ _ R E1) as (R1 & V1 & N1 & _ & T). destruct (T (A f (or_introl eq_refl))) as (k & ->).
  apply IH; [auto|]. intros g Hg. rewrite N1. apply A. cbn. auto.
Qed.
Lemma plain_rinv p : plain p -> rinv p.
Proof.
  intros (P1 & P2 & P3 & P4 & P5). split; [auto|]. rewrite P3. split; [|intros k []]. intros ((n, d), t). split; [|intros []].
  unfold is_ref. destruct t as [s|]; [now rewrite P2|]. destruct (dget (n, d, None) (p_exch p)) as [e|] eqn:E; [|discriminate].
  destruct (P1 _ _ _ E) as (v & ->). discriminate.
Qed.
Lemma plain_new : plain new_proc.
Proof. repeat split; cbn; auto; discriminate. Qed.

Lemma on_goes n d x : on n d x = true <-> e_num x = n /\ exists b, direction x = Some (d, b).
Proof.
  unfold on. rewrite andb_true_iff, Nat.eqb_eq. split; intros (A & B); split; auto using goes_direction. destruct B as (b & B). eauto using direction_goes.
Qed.
Lemma entries_on size a n d l l' : Forall2 (entry_ok size a) l l' -> existsb (en_on n d) l' = existsb (on n d) l.
Proof.
  induction 1 as [|x t l l' E F IH]; [reflexivity|]. cbn. rewrite IH. f_equal. destruct t as (((m, e), v), c).
  destruct E as (-> & G & (b & D) & _). cbn. destruct (on n d x) eqn:O.
  - apply on_goes in O as (<- & b' & D'). assert (e = d) as -> by congruence. now rewrite Nat.eqb_refl, eqb_refl.
  - destruct (Nat.eqb_spec (e_num x) n), (eqb_spec e d); subst; auto. exfalso.
    assert (on (e_num x) d x = true); [apply on_goes; eauto|congruence].
Qed.
Lemma entries_tot size a n d u cs l l' : Forall2 (entry_ok size a) l l' -> dget (dec n) (ents a) = Some (EFlow u cs) ->
  (tot n d l' * size n u)%Qc = amount size n d l.
Proof.
  intros F U. induction F as [|x t l l' E F IH]; cbn; [ring|]. rewrite <- IH. destruct t as (((m, e), v), c).
  destruct E as (-> & G & (b & D) & _ & u' & cs' & U' & V). cbn. destruct (on n d x) eqn:O.
  - apply on_goes in O as (<- & b' & D'). assert (e = d) as -> by congruence. rewrite Nat.eqb_refl, eqb_refl. cbn [andb].
    assert (u' = u) as -> by congruence. rewrite <- V. ring.
  - replace (Nat.eqb (e_num x) n && eqb e d) with false; [ring|]. destruct (Nat.eqb_spec (e_num x) n), (eqb_spec e d); subst; auto. exfalso.
    assert (on (e_num x) d x = true); [apply on_goes; eauto|congruence].
Qed.
Lemma on_filter n d l : existsb (on n d) (filter directed l) = existsb (on n d) l.
Proof.
  induction l as [|x l IH]; [reflexivity|]. cbn [filter existsb amount]. unfold directed at 1. destruct (direction x) as [(e, b)|] eqn:D; cbn [existsb amount orb]; rewrite IH; auto.
  destruct (on n d x) eqn:O; [|auto]. apply on_goes in O as (_ & b & D'). congruence.
Qed.
Lemma amount_filter size n d l : amount size n d (filter directed l) = amount size n d l.
Proof.
  induction l as [|x l IH]; [reflexivity|]. cbn [filter existsb amount]. unfold directed at 1. destruct (direction x) as [(e, b)|] eqn:D; cbn [existsb amount orb]; rewrite IH; auto.
  destruct (on n d x) eqn:O; [|ring]. apply on_goes in O as (_ & b & D'). congruence.
Qed.

Lemma on_entry size a n d l l' : Forall2 (entry_ok size a) l l' -> existsb (on n d) l = true ->
  exists u cs, dget (dec n) (ents a) = Some (EFlow u cs).
Proof.
  induction 1 as [|x t l l' E F IH]; cbn; [discriminate|]. intros O. apply orb_true_iff in O as [O | O]; [|auto].
  apply on_goes in O as (<- & _). destruct t as (((m, e), v), c). destruct E as (-> & _ & _ & _ & u & cs & U & _). eauto.
Qed.

(** The process built from the extracted flow list is faithful *)
Lemma built_faithful size a l rf new p p' :
  Forall2 (entry_ok size a) (filter directed l) new -> add_exchanges new new_proc = EOk p -> add_references rf p = EOk p' ->
  (forall n, In n rf <-> exists x, In x l /\ e_num x = n /\ (out_group x = Some 0 \/ out_group x = Some 2)) ->
  faithful size a l p'.
Proof.
  intros F E1 E2 R. destruct (add_exchanges_props _ _ _ plain_new E1) as (PL & G). cbn [new_proc p_exch dget] in G.
  destruct (add_references_props _ _ _ (plain_rinv _ PL) E2) as (RI & V & N & I).
  split; [|split; [|split; [|split]]].
  - intros n d O. rewrite <- on_filter in O. destruct (on_entry _ _ _ _ _ _ F O) as (u & cs & U). exists u, cs, (tot n d new). split; [auto|]. split.
    + rewrite V. unfold exch_value. rewrite G, (entries_on _ _ _ _ _ _ F), O. reflexivity.
    + rewrite (entries_tot _ _ _ _ _ _ _ _ F U). apply amount_filter.
  - intros n d O. rewrite <- on_filter in O. apply N. now rewrite G, (entries_on _ _ _ _ _ _ F), O.
  - intros n d s. apply N. apply PL.
  - intros n d t. rewrite I. destruct PL as (_ & _ & P3 & _). rewrite P3. split.
    + intros [[] | (f & Hf & E)]. inversion E; subst. split; [auto|]. split; [auto|]. now apply R.
    + intros (-> & -> & X). right. exists n. split; [now apply R|auto].
  - apply RI.
Qed.
Lemma faithful_grows size a b l p : grows a b -> faithful size a l p -> faithful size b l p.
Proof.
  intros G (A & B). split; [|exact B]. intros n d O. destruct (A n d O) as (u & cs & v & E & W). destruct (G _ _ E) as (cs' & E' & _). eauto.
Qed.

(** ** The archive *)
Definition ainv (size : sizes) (files : dict string (list dset_)) (a : arch) : Prop :=
  finv size a /\ forall k p, dget k (ents a) = Some (EProc p) ->
    exists fn ds rest, dget fn files = Some (ds :: rest) /\ d_name ds = k /\ faithful size a (d_x ds) p.
Lemma ainv_grow size files a b : ainv size files a -> finv size b -> grows a b -> procs a b -> ainv size files b.
Proof.
  intros (A & B) F G Pr. split; [auto|]. intros k p E. destruct (B k p (Pr _ _ E)) as (fn & ds & rest & X & Y & Z). exists fn, ds, rest. eauto using faithful_grows.
Qed.

Lemma fetch_filename_in files fn o : fetch_filename files fn = Some o -> exists fn', dget fn' files = Some o.
Proof. unfold fetch_filename. destruct (dget fn files) eqn:E; [intros F; inversion F; subst; eauto|eauto]. Qed.

Section T.
Context (size : sizes) (ask : prompt) (P : physical size) (H : honest size ask) (files : dict string (list dset_)).

Lemma create_process_props fn a a' r : create_process ask files fn a = (a', r) -> ainv size files a ->
  ainv size files a' /\ grows a a' /\
  (r = EOk tt -> forall ds rest, fetch_filename files fn = Some (ds :: rest) -> exists p, dget (d_name ds) (ents a') = Some (EProc p)).
Proof.
  unfold create_process. intros E I. destruct (fetch_filename files fn) as [[|ds rest]|] eqn:Ef.
  1,3: inversion E; subst; split; [auto|split; [apply grows_refl|discriminate]].
  destruct (dget (d_name ds) (ents a)) as [[| u cs | p]|] eqn:Ed.
  1,2: inversion E; subst; split; [auto|split; [apply grows_refl|discriminate]].
  { inversion E; subst. split; [auto|split; [apply grows_refl|]]. intros _ ds' rest' EE. inversion EE; subst. eauto. }
  destruct (extract_exchanges ask (d_x ds) [] [] a) as (a1, r1) eqn:E1.
  destruct (extract_props size ask P H _ _ _ _ _ _ E1 (proj1 I)) as (A & B & C & D). pose proof (ainv_grow _ _ _ _ I A B C) as I1.
  destruct r1 as [(rf, fl)|e]; [|inversion E; subst; split; [auto|split; [auto|discriminate]]].
  destruct (D _ _ eq_refl) as ((new & -> & F) & R). cbn [app] in *.
  destruct (add_exchanges new new_proc) as [p|e] eqn:E2; [|inversion E; subst; split; [auto|split; [auto|discriminate]]].
  destruct (add_references rf p) as [p'|e] eqn:E3; [|inversion E; subst; split; [auto|split; [auto|discriminate]]].
  destruct r as [[]|e]; [|apply add_ent_err in E as ->; split; [auto|split; [auto|discriminate]]].
  apply add_ent_ok in E as (E4 & -> & G).
  assert (FA : faithful size a1 (d_x ds) p').
  { eapply built_faithful; eauto. intros n. rewrite R. split; [intros [[] | ?]; auto|auto]. }
  split; [|split].
  - split.
    + intros n u cs. cbn [ents]. rewrite dget_dset. destruct (eqb _ _); [discriminate|]. apply A.
    + intros k q. cbn [ents]. rewrite dget_dset. destruct (eqb_spec k (d_name ds)) as [->|].
      * intros EE. inversion EE; subst. destruct (fetch_filename_in _ _ _ Ef) as (fn' & Hfn). exists fn', ds, rest.
        split; [auto|]. split; [auto|]. eapply faithful_grows; eauto.
      * intros EE. destruct I1 as (_ & I1). destruct (I1 _ _ EE) as (fn' & ds' & rest' & X & Y & Z). exists fn', ds', rest'. eauto using faithful_grows.
  - eapply grows_trans; eauto.
  - intros _ ds' rest' EE. inversion EE; subst. exists p'. cbn [ents]. apply dget_dset_same.
Qed.

Lemma get_props k a a' r : get ask files k a = (a', r) -> ainv size files a ->
  ainv size files a' /\ grows a a' /\ (forall o, r = EOk o -> o = dget k (ents a')).
Proof.
  unfold get, fetch. intros E I. destruct (dget k (ents a)) eqn:Ek.
  { inversion E; subst. split; [auto|]. split; [apply grows_refl|]. intros o EE; inversion EE; congruence. }
  destruct (create_process ask files (k ++ ".xml")%string a) as (a1, r1) eqn:E1. destruct (create_process_props _ _ _ _ E1 I) as (A & B & C).
  destruct r1 as [[]|e]; inversion E; subst; split; auto; split; auto; try discriminate. intros o EE; inversion EE; auto.
Qed.
Lemma load_gas_props l : forall a a' r, load_gas ask files l a = (a', r) -> ainv size files a -> ainv size files a' /\ grows a a'.
Proof.
  induction l as [|x l IH]; intros a a' r E I; cbn [load_gas] in E; [inversion E; subst; split; [auto|apply grows_refl]|].
  destruct (contains natural_gas x); [|eauto].
  destruct (get ask files natural_gas a) as (a1, [o|e]) eqn:E1; destruct (get_props _ _ _ _ E1 I) as (A & B & _).
  - destruct (IH _ _ _ E A). split; [auto|]. eapply grows_trans; eauto.
  - inversion E; subst. auto.
Qed.
Lemma load_each_props l : forall a a' r, load_each ask files l a = (a', r) -> ainv size files a -> ainv size files a' /\ grows a a' /\
  (r = EOk tt -> forall fn ds rest, In fn l -> fetch_filename files fn = Some (ds :: rest) -> exists p, dget (d_name ds) (ents a') = Some (EProc p)).
Proof.
  induction l as [|x l IH]; intros a a' r E I; cbn [load_each] in E; [inversion E; subst; split; [auto|split; [apply grows_refl|intros ? ? ? ? []]]|].
  destruct (create_process ask files x a) as (a1, [[]|e]) eqn:E1; destruct (create_process_props _ _ _ _ E1 I) as (A & B & C).
  - destruct (IH _ _ _ E A) as (A2 & B2 & C2). split; [auto|]. split; [eapply grows_trans; eauto|]. intros R fn ds rest [-> | Hf] Hs; [|eauto].
    destruct (C eq_refl _ _ Hs) as (p & Hp). exists p. exact (B2 _ _ Hp).
  - inversion E; subst. split; [auto|]. split; [auto|discriminate].
Qed.
Lemma load_all_props a a' r : load_all ask files a = (a', r) -> ainv size files a -> ainv size files a' /\ grows a a' /\
  (r = EOk tt -> forall fn ds rest, dget fn files = Some (ds :: rest) -> exists p, dget (d_name ds) (ents a') = Some (EProc p)).
Proof.
  unfold load_all. intros E I. destruct (load_gas ask files (dkeys files) a) as (a1, [[]|e]) eqn:E1; destruct (load_gas_props _ _ _ _ E1 I) as (A & B).
  - destruct (load_each_props _ _ _ _ E A) as (A2 & B2 & C2). split; [auto|]. split; [eapply grows_trans; eauto|].
    intros R fn ds rest Hf. apply (C2 R fn ds rest); [eapply dget_Some_key; eauto|]. unfold fetch_filename. now rewrite Hf.
  - inversion E; subst. split; [auto|]. split; [auto|discriminate].
Qed.
Lemma estep_props o a : ainv size files a -> ainv size files (estep ask files a o) /\ grows a (estep ask files a o).
Proof.
  intros I. destruct o as [k|]; cbn [estep].
  - destruct (get ask files k a) eqn:E. destruct (get_props _ _ _ _ E I) as (? & ? & _). auto.
  - destruct (load_all ask files a) eqn:E. destruct (load_all_props _ _ _ E I) as (? & ? & _). auto.
Qed.
Lemma ehist_from l : forall a, ainv size files a -> ainv size files (fold_left (estep ask files) l a) /\ grows a (fold_left (estep ask files) l a).
Proof.
  induction l as [|o l IH]; intros a I; cbn [fold_left]; [split; [auto|apply grows_refl]|].
  destruct (estep_props o a I) as (A & B). destruct (IH _ A). split; [auto|]. eapply grows_trans; eauto.
Qed.
Lemma ehist_inv l : ainv size files (ehist ask files l).
Proof. apply ehist_from. split; [intros n u cs; discriminate|intros k p; discriminate]. Qed.
End T.

(** ** Archives that load without error *)
Definition datasets (files : dict string (list dset_)) : list dset_ := flat_map (fun kv => match snd kv with ds :: _ => [ds] | [] => [] end) files.
Definition elements (files : dict string (list dset_)) : list xel := flat_map d_x (datasets files).
Definition clean (ask : prompt) (files : dict string (list dset_)) : Prop :=
  NoDup (dkeys files) /\ (forall fn o, dget fn files = Some o -> o <> []) /\
  (* process names, unit names and flow numbers are told apart *)
  (forall ds x, In ds (datasets files) -> In x (elements files) -> d_name ds <> e_unit x /\ d_name ds <> dec (e_num x)) /\
  (forall x y, In x (elements files) -> In y (elements files) -> e_unit x <> dec (e_num y)) /\
  (* the values are there, and are not zero when they carry a comment *)
  (forall x, In x (elements files) -> e_mean x <> None) /\
  (forall x, In x (elements files) -> e_cmt x = true -> e_mean x <> Some 0%Qc) /\
  (* two units used for one flow are in the table, or the user knows the factor *)
  (forall x y, In x (elements files) -> In y (elements files) -> e_num x = e_num y -> e_unit x <> e_unit y ->
     In (e_unit x, e_unit y) (dkeys conversion_dict) \/ In (e_unit y, e_unit x) (dkeys conversion_dict) \/ ask (e_num x) (e_unit x) (e_unit y) <> None) /\
  (* the data set asked for by name is there when a file name mentions it *)
  (forall fn, In fn (dkeys files) -> contains natural_gas fn = true -> In (natural_gas ++ ".xml")%string (dkeys files)).

Section U.
Context (size : sizes) (ask : prompt) (P : physical size) (H : honest size ask) (files : dict string (list dset_)) (CL : clean ask files).
Local Notation XS := (elements files).

Definition kinv (a : arch) : Prop :=
  finv size a /\
  (forall u, dget u (ents a) = Some EQty -> In u (qdict a)) /\
  forall k e, dget k (ents a) = Some e ->
    match e with
    | EQty => exists x, In x XS /\ k = e_unit x
    | EFlow u cs => exists x, In x XS /\ k = dec (e_num x) /\ u = e_unit x
    | EProc _ => exists ds, In ds (datasets files) /\ k = d_name ds
    end.

Lemma quantity_total x a : kinv a -> In x XS -> exists a', create_quantity (e_unit x) a = (a', EOk tt) /\ kinv a'.
Proof.
  intros (K1 & K2 & K3) Hx. unfold create_quantity. destruct (mem_spec (e_unit x) (qdict a)).
  { exists a. split; [auto|]. split; [auto|split; auto]. }
  unfold add_ent. rewrite din_get. destruct CL as (_ & _ & C3 & C4 & _). destruct (dget (e_unit x) (ents a)) as [e|] eqn:E.
  - exfalso. pose proof (K3 _ _ E) as Q. destruct e as [| u cs | p].
    + apply n. apply K2. exact E.
    + destruct Q as (y & Hy & Q & _). exact (C4 _ _ Hx Hy Q).
    + destruct Q as (ds & Hd & Q). destruct (C3 _ _ Hd Hx) as (W & _). congruence.
  - eexists. split; [reflexivity|]. cbn [ents qdict]. split; [|split].
    + intros m u cs. cbn [ents]. rewrite dget_dset. destruct (eqb _ _); [discriminate|]. apply K1.
    + intros u. cbn [ents qdict]. rewrite dget_dset, in_app_iff. destruct (eqb_spec u (e_unit x)) as [->|]; [cbn; auto|]. auto.
    + intros k e. cbn [ents]. rewrite dget_dset. destruct (eqb_spec k (e_unit x)) as [->|]; [|apply K3]. intros EE; inversion EE; subst. eauto.
Qed.

Lemma conv_total x y : In x XS -> In y XS -> e_num x = e_num y -> e_unit x <> e_unit y ->
  exists v, conv_factor ask (e_num x) (e_unit x) (e_unit y) = Some v.
Proof.
  intros Hx Hy En Eu. unfold conv_factor. destruct CL as (_ & _ & _ & _ & _ & _ & C7 & _). 
  destruct (dget (e_unit x, e_unit y) conversion_dict) eqn:E1; [eauto|]. destruct (dget (e_unit y, e_unit x) conversion_dict) eqn:E2; [eauto|].
  apply dget_None in E1. apply dget_None in E2. destruct (C7 x y Hx Hy En Eu) as [? | [? | N]]; try contradiction.
  destruct (ask (e_num x) (e_unit x) (e_unit y)); [eauto|contradiction].
Qed.

Lemma flow_unit_total x y cs a : kinv a -> In x XS -> In y XS -> e_num x = e_num y ->
  dget (dec (e_num x)) (ents a) = Some (EFlow (e_unit y) cs) -> din (e_unit y) cs = true ->
  exists a' cs', flow_unit ask (e_num x) (e_unit x) (e_unit y) cs a = (a', EOk (e_unit y, cs')) /\ kinv a' /\ din (e_unit x) cs' = true /\
                 (forall u, din u cs = true -> din u cs' = true).
Proof.
  intros K Hx Hy En F Fy. unfold flow_unit. destruct (eqb_spec (e_unit x) (e_unit y)) as [->|N]; [exists a, cs; auto|].
  destruct (quantity_total x a K Hx) as (a1 & E1 & K1). rewrite E1.
  assert (F1 : dget (dec (e_num x)) (ents a1) = Some (EFlow (e_unit y) cs)).
  { 
    unfold create_quantity in E1. destruct (mem (e_unit x) (qdict a)); [inversion E1; subst; auto|].
    destruct (add_ent (e_unit x) EQty a) as (a2, [[]|z]) eqn:E2; inversion E1; subst. apply add_ent_ok in E2 as (E0 & -> & _).
    cbn [ents]. rewrite dget_dset. destruct (eqb_spec (dec (e_num x)) (e_unit x)); [subst; congruence|auto]. }
  destruct (din (e_unit x) cs) eqn:Ex; [exists a1, cs; auto|].
  destruct (conv_total y x Hy Hx (eq_sym En) (not_eq_sym N)) as (v & Ev). rewrite En, Ev in *.
  do 2 eexists. split; [reflexivity|]. destruct K1 as (A1 & A2 & A3).
  assert (DI : forall u, din u (dset (e_unit x) v cs) = eqb u (e_unit x) || din u cs).
  { intros u. rewrite !din_get, dget_dset. destruct (eqb u (e_unit x)); reflexivity. }
  split; [|split; [rewrite DI, eqb_refl; auto|intros u Hu; rewrite DI, Hu; apply orb_true_r]].
  split; [|split].
  - intros m u' cs0. cbn [ents]. rewrite dget_dset. destruct (eqb_spec (dec m) (dec (e_num y))) as [Em|].
    + apply dec_inj in Em. subst. intros EE; inversion EE; subst. intros w c. rewrite dget_dset.
      destruct (eqb_spec w (e_unit x)); [intros EC; inversion EC; subst; eapply conv_right; eauto|]. intros EC. exact (A1 _ _ _ F1 _ _ EC).
    + apply A1.
  - intros u. cbn [ents qdict]. rewrite dget_dset. destruct (eqb _ _); [discriminate|]. apply A2.
  - intros k e. cbn [ents]. rewrite dget_dset. destruct (eqb_spec k (dec (e_num y))) as [->|]; [|apply A3].
    intros EE; inversion EE; subst. exists y. auto.
Qed.

(** every flow has a factor for its own unit *)
Definition selfinv (a : arch) : Prop := forall k u cs, dget k (ents a) = Some (EFlow u cs) -> din u cs = true.
Lemma create_quantity_self u a a' r : create_quantity u a = (a', r) -> selfinv a -> selfinv a'.
Proof.
  unfold create_quantity. destruct (mem _ _); [intros E; inversion E; subst; auto|].
  destruct (add_ent u EQty a) as (a1, [[]|x]) eqn:E1; intros E I; inversion E; subst.
  - apply add_ent_ok in E1 as (_ & -> & _). intros k u' cs. cbn [ents]. rewrite dget_dset. destruct (eqb _ _); [discriminate|]. apply I.
  - apply add_ent_err in E1 as ->. auto.
Qed.
Lemma flow_unit_self n u fu cs a a' r : flow_unit ask n u fu cs a = (a', r) -> selfinv a -> din fu cs = true -> selfinv a'.
Proof.
  unfold flow_unit. intros E I D. destruct (eqb u fu); [inversion E; subst; auto|].
  destruct (create_quantity u a) as (a1, [[]|x]) eqn:E1; pose proof (create_quantity_self _ _ _ _ E1 I); [|inversion E; subst; auto].
  destruct (din u cs); [inversion E; subst; auto|]. destruct (conv_factor ask n fu u); inversion E; subst; auto.
  intros k u' cs'. cbn [ents]. rewrite dget_dset. destruct (eqb _ _); [|apply H0]. intros EE; inversion EE; subst.
  rewrite din_get, dget_dset. destruct (eqb _ _); [auto|]. rewrite <- din_get. auto.
Qed.

Lemma create_flow_total x a : kinv a -> selfinv a -> In x XS ->
  exists a' y cs, create_flow ask x a = (a', EOk (e_unit y, cs)) /\ kinv a' /\ selfinv a' /\ din (e_unit x) cs = true /\ In y XS /\ e_num y = e_num x /\
                  dget (dec (e_num x)) (ents a') = Some (EFlow (e_unit y) cs).
Proof.
  intros K S Hx. unfold create_flow. destruct (dget (dec (e_num x)) (ents a)) as [e|] eqn:E.
  - pose proof K as (K1 & K2 & K3). pose proof (K3 _ _ E) as Q. destruct CL as (_ & _ & C3 & C4 & _). destruct e as [| u cs | p].
    + exfalso. destruct Q as (y & Hy & Q). exact (C4 _ _ Hy Hx (eq_sym Q)).
    + destruct Q as (y & Hy & Q & ->). apply dec_inj in Q. pose proof (S _ _ _ E) as D.
      destruct (flow_unit_total x y cs a K Hx Hy Q E D) as (a' & cs' & F & K' & D' & _).
      exists a', y, cs'. rewrite F. split; [auto|]. split; [auto|]. split; [eapply flow_unit_self; eauto|]. split; [auto|]. split; [auto|]. split; [auto|].
      destruct (flow_unit_props size ask P H _ _ _ _ _ _ _ F K1 E) as (_ & _ & _ & G). apply (G _ _ eq_refl).
    + exfalso. destruct Q as (ds & Hd & Q). destruct (C3 _ _ Hd Hx) as (_ & W). congruence.
  - destruct (quantity_total x a K Hx) as (a1 & E1 & K1). rewrite E1. pose proof (create_quantity_self _ _ _ _ E1 S) as S1.
    unfold add_ent. rewrite din_get.
    assert (E2 : dget (dec (e_num x)) (ents a1) = None).
    { unfold create_quantity in E1. destruct (mem (e_unit x) (qdict a)); [inversion E1; subst; auto|].
      destruct (add_ent (e_unit x) EQty a) as (a2, [[]|z]) eqn:E2; inversion E1; subst. apply add_ent_ok in E2 as (E0 & -> & _).
      cbn [ents]. rewrite dget_dset. destruct (eqb_spec (dec (e_num x)) (e_unit x)) as [Q|]; [|auto].
      exfalso. destruct CL as (_ & _ & _ & C4 & _). exact (C4 x x Hx Hx (eq_sym Q)). }
    rewrite E2. unfold flow_unit. rewrite eqb_refl. exists (Ar (dset (dec (e_num x)) (EFlow (e_unit x) [(e_unit x, 1%Qc)]) (ents a1)) (qdict a1)), x, [(e_unit x, 1%Qc)].
    assert (D0 : din (e_unit x) [(e_unit x, 1%Qc)] = true) by (unfold din; cbn; now rewrite eqb_refl).
    split; [auto|]. split; [|split; [|split; [auto|split; [auto|split; [auto|cbn [ents]; apply dget_dset_same]]]]].
    + destruct K1 as (A1 & A2 & A3). split; [|split].
      * intros n u cs. cbn [ents]. rewrite dget_dset. destruct (eqb_spec (dec n) (dec (e_num x))).
        { intros EE; inversion EE; subst. intros w c. cbn. destruct (eqb_spec w (e_unit x)) as [->|]; [|discriminate]. intros EC; inversion EC; subst. ring. }
        apply A1.
      * intros u. cbn [ents qdict]. rewrite dget_dset. destruct (eqb _ _); [discriminate|]. apply A2.
      * intros k e. cbn [ents]. rewrite dget_dset. destruct (eqb_spec k (dec (e_num x))) as [->|]; [|apply A3]. intros EE; inversion EE; subst. eauto.
    + intros k u cs. cbn [ents]. rewrite dget_dset. destruct (eqb _ _); [|apply S1]. intros EE; inversion EE; subst. auto.
Qed.

Lemma extract_total l : forall rf fl a, kinv a -> selfinv a -> (forall x, In x l -> In x XS) ->
  (forall n d v c, In (n, d, v, c) fl -> c = true -> v <> 0%Qc) ->
  exists a' rf' fl', extract_exchanges ask l rf fl a = (a', EOk (rf', fl')) /\ kinv a' /\ selfinv a' /\
                     (forall n d v c, In (n, d, v, c) fl' -> c = true -> v <> 0%Qc).
Proof.
  induction l as [|x l IH]; intros rf fl a K S L NZ; cbn [extract_exchanges]; [exists a, rf, fl; auto|].
  assert (Hx : In x XS) by (apply L; cbn; auto). assert (L' : forall z, In z l -> In z XS) by (intros z Hz; apply L; cbn; auto).
  destruct (create_flow_total x a K S Hx) as (a1 & y & cs & E1 & K1 & S1 & D1 & Hy & En & F1). rewrite E1.
  destruct (direction x) as [(d, isref)|]; [|apply IH; auto].
  destruct (quantity_total x a1 K1 Hx) as (a2 & E2 & K2). rewrite E2. pose proof (create_quantity_self _ _ _ _ E2 S1) as S2.
  pose proof CL as (_ & _ & _ & _ & C5 & C6 & _). destruct (e_mean x) as [v|] eqn:Ev; [|exfalso; exact (C5 x Hx Ev)].
  assert (NV : e_cmt x = true -> v <> 0%Qc). { intros Hc ->. exact (C6 x Hx Hc Ev). }
  assert (APP : forall w, (e_cmt x = true -> w <> 0%Qc) -> forall n e v' c, In (n, e, v', c) (fl ++ [(e_num x, d, w, e_cmt x)]) -> c = true -> v' <> 0%Qc).
  { intros w Hw n e v' c Hi Hc. apply in_app_iff in Hi as [Hi | [Hi | []]]; [eauto|]. inversion Hi; subst. auto. }
  destruct (eqb_spec (e_unit x) (e_unit y)); [apply IH; auto; apply (APP v NV)|].
  rewrite din_get in D1. destruct (dget (e_unit x) cs) as [c|] eqn:Ec; [|discriminate].
  pose proof (proj1 K1 _ _ _ F1 _ _ Ec) as SZ.
  assert (c <> 0%Qc). { intros ->. apply (proj1 (P (e_num x)) (e_unit y)). rewrite SZ. ring. }
  destruct (eqb_spec c 0%Qc); [contradiction|]. apply IH; auto. apply APP. intros Hc Z. apply (NV Hc).
  assert (v = (v / c * c)%Qc) as -> by (field; auto). rewrite Z. ring.
Qed.

Lemma add_exchanges_total l : (forall n d v c, In (n, d, v, c) l -> c = true -> v <> 0%Qc) -> forall p, plain p -> exists p', add_exchanges l p = EOk p'.
Proof.
  induction l as [|(((f, d), v), c) l IH]; intros NZ p PL; cbn [add_exchanges]; [eauto|].
  assert (NZ' : forall n e w b, In (n, e, w, b) l -> b = true -> w <> 0%Qc) by (intros n e w b Hi; apply (NZ n e w b); cbn; auto).
  destruct (add_exchange p f d None (Some v) TNone true) as (p1, r) eqn:E1.
  destruct (add_one _ _ _ _ _ _ PL E1) as (PL1 & (k & ->) & _). destruct k as [k|]; [auto|].
  destruct c; [|auto]. exfalso. assert (Nv : v <> 0%Qc) by (apply (NZ f d v true); cbn; auto).
  unfold add_exchange in E1. cbn [t_key] in E1. destruct (dget (f, d, None) (p_exch p)) as [e|] eqn:Ee; [|discriminate].
  destruct (eqb_spec v (Q2Qc 0)) as [->|]; [contradiction Nv; reflexivity|].
  destruct PL as (P1 & _). destruct (P1 _ _ _ Ee) as (w & ->). discriminate.
Qed.

Lemma dataset_in fn ds rest : dget fn files = Some (ds :: rest) -> In ds (datasets files) /\ (forall x, In x (d_x ds) -> In x XS).
Proof.
  intros E. apply dget_In in E. assert (I : In ds (datasets files)). { apply in_flat_map. exists (fn, ds :: rest). cbn. auto. }
  split; [auto|]. intros x Hx. apply in_flat_map. eauto.
Qed.
Lemma create_process_total fn a : kinv a -> selfinv a -> In fn (dkeys files) ->
  exists a', create_process ask files fn a = (a', EOk tt) /\ kinv a' /\ selfinv a'.
Proof.
  intros K S Hf. apply dget_key_Some in Hf as (o & Ho). unfold create_process, fetch_filename. rewrite Ho.
  pose proof CL as (_ & C2 & C3 & C4 & _). destruct o as [|ds rest]; [exfalso; exact (C2 _ _ Ho eq_refl)|].
  destruct (dataset_in _ _ _ Ho) as (Hd & Hds).
  pose proof K as (K1 & K2 & K3). destruct (dget (d_name ds) (ents a)) as [e|] eqn:E.
  - pose proof (K3 _ _ E) as Q. destruct e as [| u cs | p]; [exfalso|exfalso|eauto].
    + destruct Q as (y & Hy & Q). destruct (C3 _ _ Hd Hy) as (W & _). congruence.
    + destruct Q as (y & Hy & Q & _). destruct (C3 _ _ Hd Hy) as (_ & W). congruence.
  - destruct (extract_total (d_x ds) [] [] a K S Hds ltac:(intros ? ? ? ? [])) as (a1 & rf & fl & E1 & K' & S' & NZ). rewrite E1.
    destruct (add_exchanges_total fl NZ new_proc plain_new) as (p & Ep). rewrite Ep.
    destruct (extract_props size ask P H _ _ _ _ _ _ E1 K1) as (_ & G & PR & D). destruct (D _ _ eq_refl) as ((new & Efl & F) & R). cbn [app] in Efl. subst fl.
    destruct (add_exchanges_props _ _ _ plain_new Ep) as (PL & G2).
    destruct (add_references_total rf p (plain_rinv _ PL)) as (p' & Ep').
    { intros f Hf'. apply R in Hf' as [[] | (x & Hx & <- & Ho')]. rewrite G2. cbn [new_proc p_exch dget].
      rewrite (entries_on _ _ _ _ _ _ F), on_filter. replace (existsb (on (e_num x) Output) (d_x ds)) with true; [discriminate|].
      symmetry. apply existsb_exists. exists x. split; [auto|]. unfold on. rewrite Nat.eqb_refl. unfold goes, is_output. unfold out_group in Ho'.
      destruct (e_outg x), (e_Outg x); auto. destruct Ho'; discriminate. }
    rewrite Ep'. unfold add_ent. rewrite din_get. destruct K' as (A1 & A2 & A3).
    assert (E2 : dget (d_name ds) (ents a1) = None).
    { destruct (dget (d_name ds) (ents a1)) as [e|] eqn:E2; [|auto]. exfalso. pose proof (A3 _ _ E2) as Q. destruct e as [| u cs | q].
      - destruct Q as (y & Hy & Q). destruct (C3 _ _ Hd Hy) as (W & _). congruence.
      - destruct Q as (y & Hy & Q & _). destruct (C3 _ _ Hd Hy) as (_ & W). congruence.
      - apply PR in E2. congruence. }
    rewrite E2. eexists. split; [reflexivity|]. split; [split; [|split]|].
    + intros n u cs. cbn [ents]. rewrite dget_dset. destruct (eqb _ _); [discriminate|]. apply A1.
    + intros u. cbn [ents qdict]. rewrite dget_dset. destruct (eqb _ _); [discriminate|]. apply A2.
    + intros k e. cbn [ents]. rewrite dget_dset. destruct (eqb_spec k (d_name ds)) as [->|]; [|apply A3]. intros EE; inversion EE; subst. eauto.
    + intros k u cs. cbn [ents]. rewrite dget_dset. destruct (eqb _ _); [discriminate|]. apply S'.
Qed.
Lemma load_gas_total l : forall a, kinv a -> selfinv a -> (forall x, In x l -> In x (dkeys files)) ->
  exists a', load_gas ask files l a = (a', EOk tt) /\ kinv a' /\ selfinv a'.
Proof.
  induction l as [|x l IH]; intros a K S L; cbn [load_gas]; [eauto|].
  assert (L' : forall z, In z l -> In z (dkeys files)) by (intros z Hz; apply L; cbn; auto).
  destruct (contains natural_gas x) eqn:Ex; [|auto].
  unfold get. destruct (dget natural_gas (ents a)); [auto|]. unfold fetch.
  destruct CL as (_ & _ & _ & _ & _ & _ & _ & C8). pose proof (C8 x (L x (or_introl eq_refl)) Ex) as Hg.
  destruct (create_process_total _ a K S Hg) as (a1 & E1 & K1 & S1). rewrite E1. auto.
Qed.
Lemma load_each_total l : forall a, kinv a -> selfinv a -> (forall x, In x l -> In x (dkeys files)) ->
  exists a', load_each ask files l a = (a', EOk tt) /\ kinv a' /\ selfinv a'.
Proof.
  induction l as [|x l IH]; intros a K S L; cbn [load_each]; [eauto|].
  assert (L' : forall z, In z l -> In z (dkeys files)) by (intros z Hz; apply L; cbn; auto).
  destruct (create_process_total x a K S (L x (or_introl eq_refl))) as (a1 & E1 & K1 & S1). rewrite E1. auto.
Qed.
Lemma load_all_total a : kinv a -> selfinv a -> exists a', load_all ask files a = (a', EOk tt) /\ kinv a' /\ selfinv a'.
Proof.
  intros K S. unfold load_all. destruct (load_gas_total (dkeys files) a K S ltac:(auto)) as (a1 & E1 & K1 & S1). rewrite E1. apply load_each_total; auto.
Qed.
Lemma get_kinv k a : kinv a -> selfinv a -> kinv (fst (get ask files k a)) /\ selfinv (fst (get ask files k a)).
Proof.
  intros K S. unfold get. destruct (dget k (ents a)); [auto|]. unfold fetch.
  assert (A : kinv (fst (create_process ask files (k ++ ".xml")%string a)) /\ selfinv (fst (create_process ask files (k ++ ".xml")%string a))).
  { destruct (fetch_filename files (k ++ ".xml")%string) eqn:Ef.
    - assert (exists fn, In fn (dkeys files) /\ create_process ask files (k ++ ".xml")%string a = create_process ask files fn a) as (fn & Hf & Ec).
      { unfold fetch_filename in Ef. destruct (dget (k ++ ".xml")%string files) eqn:Ed.
        - exists (k ++ ".xml")%string. split; [eapply dget_Some_key; eauto|auto].
        - exists (strip_lg (k ++ ".xml")%string). split; [eapply dget_Some_key; eauto|].
          unfold create_process, fetch_filename. now rewrite Ed, Ef. }
      rewrite Ec. destruct (create_process_total fn a K S Hf) as (a1 & E1 & K1 & S1). rewrite E1. auto.
    - unfold create_process. rewrite Ef. auto. }
  destruct (create_process ask files (k ++ ".xml")%string a) as (a1, [[]|e]); auto.
Qed.
Lemma ehist_kinv l : kinv (ehist ask files l) /\ selfinv (ehist ask files l).
Proof.
  unfold ehist. assert (K0 : kinv new_arch). { split; [intros n u cs; discriminate|split; [intros u; discriminate|intros k e; discriminate]]. }
  assert (S0 : selfinv new_arch) by (intros k u cs; discriminate). revert K0 S0. generalize new_arch.
  induction l as [|o l IH]; intros a K S; cbn [fold_left]; [auto|]. destruct o as [k|]; cbn [estep].
  - destruct (get_kinv k a K S). auto.
  - destruct (load_all_total a K S) as (a1 & E1 & K1 & S1). rewrite E1. auto.
Qed.
End U.

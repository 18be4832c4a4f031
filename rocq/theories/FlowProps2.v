(** C51 (refuted parts), C52, C71: conversions and the reference quantity of a flow. *)
From Verif Require Import Num Base PyStr FlowModel FlowProps.
Open Scope Qc_scope.
Open Scope string_scope.
Open Scope list_scope.
Local Arguments eqb : simpl never.

(** ** C51: what does not hold *)
Definition qm := Qty 1 "mass".
Definition qv := Qty 2 "volume".
Definition qe := Qty 3 "energy".
Definition qc (z : Q) : Qc := Q2Qc z.
Lemma inum_ok i b : (match i with INum a => Qeq_bool (this a) (this b) | _ => false end) = true -> i = INum b.
Proof. destruct i; try discriminate. intros E. f_equal. apply Qc_is_canon. apply Qeq_bool_eq. exact E. Qed.
Lemma cnum_ok i b : (match i with CNum a => Qeq_bool (this a) (this b) | _ => false end) = true -> i = CNum b.
Proof. destruct i; try discriminate. intros E. f_equal. apply Qc_is_canon. apply Qeq_bool_eq. exact E. Qed.
Ltac qnum := repeat split; try reflexivity; try (apply inum_ok; vm_compute; reflexivity); try (apply cnum_ok; vm_compute; reflexivity).

(** A flow with reference mass, 2 litres and 8 MJ per kg, and another volume in the US. *)
Definition water : flow :=
  fst (add_characterization qe false (VNum (qc 8)) false None None
  (fst (add_characterization qv false (VNum (qc 4)) false (Some "US") None
  (fst (add_characterization qv false (VNum (qc 2)) false None None (new_flow (Some qm) true)))))).

(** The new reference quantity does not have the factor 1 where it has a value of its own. *)
Theorem C51_new_reference_is_one_refuted : exists f',
  set_reference qv water = (f', None) /\ f_ref f' = Some qv /\ cf qv "GLO" f' = INum 1 /\ cf qv "US" f' = INum (qc 2) /\
  convert 1 None (Some qm) "US" f' = CNum (qc 4).
Proof. eexists. split; [reflexivity|]. qnum. Qed.

Example C51_example :
  (exists f', set_reference qv water = (f', None)) /\ f_ref water = Some qm /\ q_uuid qm <> q_uuid qv /\
  convert (qc 3) (Some qe) (Some qv) "GLO" water = CNum (qc 12).
Proof. split; [eexists; reflexivity|]. qnum. discriminate. Qed.

(** [add_characterization(q, reference=True)] can never change the reference of a flow and return: when the factor of [q]
    is known it raises DuplicateCharacterizationError, otherwise MissingFactor ... *)
Theorem C51_reference_argument_refuted q r f value org : f_ref f = Some r -> q_uuid r <> q_uuid q ->
  snd (add_characterization q true value false None org f) <> None.
Proof.
  intros R NE.
  assert (X : forall f', set_reference q f = (f', None) -> exists c, dget (q_uuid q) (f_chars f') = Some c /\ dget "GLO" (c_locs c) = Some (Some 1)).
  { intros f' S. destruct (C51_new_reference_is_one_partial q r f f' R NE S) as (_ & C & _). unfold cf in C.
    destruct (dget (q_uuid q) (f_chars f')) as [c|]; [|discriminate C]. exists c. split; [reflexivity|].
    unfold char_get in C. change (eqb "GLO" "quantity") with false in C. change (eqb "GLO" "flow") with false in C. cbn iota in C.
    destruct (dget "GLO" (c_locs c)) as [[v|]|]; cbn in C; [injection C as ->; reflexivity|discriminate|].
    destruct (c_locs c); [discriminate|]. discriminate C. }
  unfold add_characterization. destruct value as [|v|l].
  3: discriminate.
  - destruct (set_reference q f) as [f' [e|]]; [discriminate|]. destruct (X f' eq_refl) as (c & D & G). rewrite D. cbn.
    unfold add_value, char_set. rewrite G. discriminate.
  - destruct (eqb v 1); [|discriminate].
    destruct (set_reference q f) as [f' [e|]]; [discriminate|]. destruct (X f' eq_refl) as (c & D & G). rewrite D. cbn.
    unfold add_value, char_set. rewrite G. discriminate.
Qed.
(** ... and the error comes after the change has been made. *)
Theorem C51_failed_change_refuted : exists f',
  add_characterization qv true VNone false None None water = (f', Some XDuplicate) /\ f_ref f' = Some qv /\ cf qe "GLO" f' = INum (qc 4).
Proof. eexists. split; [reflexivity|]. qnum. Qed.
Print Assumptions C51_new_reference_is_one_refuted.
Print Assumptions C51_reference_argument_refuted.
Print Assumptions C51_failed_change_refuted.

(** * C52: consistency of conversion *)

(** When a conversion succeeds. *)
Theorem C52_defined v a b loc f : (exists w, convert v (Some b) (Some a) loc f = CNum w) <->
  exists o i, cf b loc f = INum o /\ cf a loc f = INum i /\ i <> 0.
Proof.
  unfold convert, ratio; cbn [or_ref]. destruct (cf b loc f) as [o| |], (cf a loc f) as [i| |]; split; intros H;
    try (destruct H as (w & E); discriminate E); try (destruct H as (o' & i' & E & E' & _); discriminate).
  - destruct (eqb_spec i 0); [destruct H as (w & E); discriminate E|]. eauto.
  - destruct H as (o' & i' & E & E' & NZ). injection E as <-. injection E' as <-.
    rewrite (proj2 (eqb_neq _ _) NZ). eauto.
Qed.

(** Converting in two steps is converting directly (quantities left out stand for the reference). *)
Theorem C52_composition v w z a b c loc f :
  convert v b a loc f = CNum w -> convert w c b loc f = CNum z -> convert v c a loc f = CNum z.
Proof.
  unfold convert, ratio. destruct (or_ref a f) as [qa|], (or_ref b f) as [qb|]; try discriminate.
  destruct (or_ref c f) as [qx|]; [|discriminate].
  destruct (cf qb loc f) as [o| |]; destruct (cf qa loc f) as [i| |]; try discriminate.
  destruct (eqb_spec i 0) as [|NI]; [discriminate|]. intros E1. injection E1 as <-.
  destruct (cf qx loc f) as [p| |]; try discriminate. destruct (eqb_spec o 0) as [|NO]; [discriminate|].
  intros E2. injection E2 as <-. f_equal. field. auto.
Qed.

(** Both steps are possible whenever the direct one is and the intermediate factor is a nonzero number. *)
Theorem C52_steps_possible v z a b c loc f o : cf b loc f = INum o -> o <> 0 ->
  convert v (Some c) (Some a) loc f = CNum z ->
  exists w, convert v (Some b) (Some a) loc f = CNum w /\ convert w (Some c) (Some b) loc f = CNum z.
Proof.
  intros B NZ D. destruct (proj1 (C52_defined v a c loc f) (ex_intro _ z D)) as (p & i & CP & CI & NI).
  destruct (proj2 (C52_defined v a b loc f)) as [w W]; [eauto|]. exists w. split; [exact W|].
  destruct (proj2 (C52_defined w b c loc f)) as [z' Z]; [eauto 6|].
  pose proof (C52_composition v w z' (Some a) (Some b) (Some c) loc f W Z) as K. congruence.
Qed.

(** Converting a quantity to itself, and there and back, changes nothing. *)
Theorem C52_identity v a loc f w : convert v a a loc f = CNum w -> w = v.
Proof.
  unfold convert, ratio. destruct (or_ref a f) as [q|]; [|discriminate]. destruct (cf q loc f) as [i| |]; try discriminate.
  destruct (eqb_spec i 0); [discriminate|]. intros E; injection E as <-. field. assumption.
Qed.
Theorem C52_round_trip v w z a b loc f : convert v b a loc f = CNum w -> convert w a b loc f = CNum z -> z = v.
Proof. intros A B. eapply C52_identity. eapply C52_composition; eauto. Qed.
Print Assumptions C52_defined.
Print Assumptions C52_composition.
Print Assumptions C52_steps_possible.
Print Assumptions C52_identity.
Print Assumptions C52_round_trip.

Example C52_example :
  convert (qc 3) (Some qv) None "GLO" water = CNum (qc 6) /\ convert (qc 6) (Some qe) (Some qv) "GLO" water = CNum (qc 24) /\
  convert (qc 3) (Some qe) None "GLO" water = CNum (qc 24).
Proof. qnum. Qed.

(** * C71: the reference quantity has the factor 1 *)
Inductive fop := FAdd (q : qty) (reference : bool) (value : vspec) (overwrite : bool) (loc org : option string)
               | FSetRef (q : qty) | FDel (q : qty) | FFactor (u : string) (o : cop).
(** Changing a characterization held by the flow directly. *)
Definition on_factor (u : string) (o : cop) (f : flow) : flow * option fexn :=
  match dget u (f_chars f) with
  | None => (f, None)
  | Some c => let '(c', e) := cstep o c in (Flow (f_ref f) (dset u c' (f_chars f)) (f_comp f), e)
  end.
Definition fstep (o : fop) (f : flow) : flow * option fexn :=
  match o with
  | FAdd q r v ow loc org => add_characterization q r v ow loc org f
  | FSetRef q => set_reference q f
  | FDel q => del_characterization q f
  | FFactor u o => on_factor u o f
  end.
Definition frun (tr : list fop) (f : flow) : flow := fold_left (fun f o => fst (fstep o f)) tr f.

(** Calls that do not write factors of the current reference quantity, store no None, and set a reference without a location. *)
Definition is_ref (u : string) (f : flow) : Prop := exists r, f_ref f = Some r /\ q_uuid r = u.
Definition polite (o : fop) (f : flow) : Prop :=
  match o with
  | FAdd q true _ _ loc _ => loc = None
  | FAdd q false VNone _ _ _ => True
  | FAdd q false (VNum _) _ _ _ => ~ is_ref (q_uuid q) f
  | FAdd q false (VDict l) _ _ _ => ~ is_ref (q_uuid q) f /\ forall k v, In (k, v) l -> v <> None
  | FSetRef q => True
  | FDel q => ~ is_ref (q_uuid q) f
  | FFactor u o => ~ is_ref u f /\ not_none o
  end.
Fixpoint polite_run (f : flow) (tr : list fop) : Prop :=
  match tr with [] => True | o :: r => polite o f /\ polite_run (fst (fstep o f)) r end.

Definition good_char (c : char) : Prop := NoDup (dkeys (c_locs c)) /\ numeric c.
Definition good (f : flow) : Prop :=
  NoDup (dkeys (f_chars f)) /\ (forall u c, dget u (f_chars f) = Some c -> good_char c) /\
  exists r, f_ref f = Some r /\ exists c, dget (q_uuid r) (f_chars f) = Some c /\ dget "GLO" (c_locs c) = Some (Some 1).

Lemma good_new q : good_char (new_char q).
Proof. split; [constructor|]. intros K. discriminate. Qed.
Lemma good_cstep o c : good_char c -> not_none o -> good_char (fst (cstep o c)).
Proof.
  intros [ND N] NN. destruct (cstep_locs o c ND (or_intror N)) as [ND' D]. split; [exact ND'|]. intros K. rewrite D.
  apply rec_step_not_none; [exact NN|apply N].
Qed.
(** Storing a good characterization under a quantity other than the reference. *)
Lemma good_store u c f : good f -> ~ is_ref u f -> good_char c -> good (Flow (f_ref f) (dset u c (f_chars f)) (f_comp f)).
Proof.
  intros (ND & G & r & R & c0 & D0 & G0) NR GC. split; [apply NoDup_dset; exact ND|]. split.
  - cbn [f_chars]. intros u' c'. rewrite dget_dset. destruct (eqb u' u); [intros E; injection E as <-; exact GC|apply G].
  - exists r. split; [exact R|]. exists c0. cbn [f_chars]. rewrite dget_dset_other; [auto|]. intros E. apply NR. exists r. auto.
Qed.
(** Storing one with factor 1 under the reference. *)
Lemma good_store_ref r c f : good f -> f_ref f = Some r -> good_char c -> dget "GLO" (c_locs c) = Some (Some 1) ->
  good (Flow (f_ref f) (dset (q_uuid r) c (f_chars f)) (f_comp f)).
Proof.
  intros (ND & G & r' & R & c0 & D0 & G0) R' GC GL. assert (r' = r) by congruence. subst r'. split; [apply NoDup_dset; exact ND|]. split.
  - cbn [f_chars]. intros u' c'. rewrite dget_dset. destruct (eqb u' (q_uuid r)); [intros E; injection E as <-; exact GC|apply G].
  - exists r. split; [exact R|]. exists c. cbn [f_chars]. rewrite dget_dset_same. auto.
Qed.

Lemma cf_glo_1 q f : cf q "GLO" f = INum 1 -> exists c, dget (q_uuid q) (f_chars f) = Some c /\ dget "GLO" (c_locs c) = Some (Some 1).
Proof.
  unfold cf. intros C. destruct (dget (q_uuid q) (f_chars f)) as [c|]; [|discriminate C]. exists c. split; [reflexivity|].
  unfold char_get in C. change (eqb "GLO" "quantity") with false in C. change (eqb "GLO" "flow") with false in C. cbn iota in C.
  destruct (dget "GLO" (c_locs c)) as [[v|]|]; cbn in C; [injection C as ->; reflexivity|discriminate|].
  destruct (c_locs c); [discriminate|]. discriminate C.
Qed.
Lemma good_set_reference q f : good f -> good (fst (set_reference q f)).
Proof.
  intros Gd. destruct (set_reference q f) as [f' e] eqn:S. cbn. pose proof Gd as (ND & G & r & R & c0 & D0 & G0).
  destruct (eqb_spec (q_uuid r) (q_uuid q)) as [E|NE].
  { unfold set_reference in S. rewrite R, E, eqb_refl in S. injection S as <- _. exact Gd. }
  destruct e as [e|].
  - destruct (C51_change_possible q r f R NE) as [_ K].
    + split; [exact ND|]. intros u c J. apply (G u c). apply In_dget; assumption.
    + intros u c J. apply (G u c). apply In_dget; assumption.
    + rewrite S in K. cbn in K. rewrite K by discriminate. exact Gd.
  - destruct (C51_new_reference_is_one_partial q r f f' R NE S) as (R' & C1 & _). unfold set_reference in S.
    rewrite R, (proj2 (eqb_neq _ _) NE) in S. destruct (f_comp f); [|discriminate]. cbn [negb] in S.
    destruct (cf q "GLO" f) as [inc| |]; [|discriminate..]. destruct (eqb inc 0); [discriminate|].
    destruct (scale_all (1 / inc) (f_chars f)) as [d [e|]] eqn:SA; [discriminate|]. injection S as <-.
    destruct (scale_all_success _ _ _ SA) as [DK DD]. split; [cbn [f_chars]; rewrite DK; exact ND|]. split.
    + cbn [f_chars]. intros u c' D'. specialize (DD u). destruct (dget u (f_chars f)) as [c|] eqn:D; [|congruence].
      destruct DD as (c'' & D'' & SC). assert (c'' = c') by congruence. subst c''. destruct (G u c D) as [N1 N2].
      destruct (scale_success _ _ _ SC) as (_ & K & V). split; [rewrite K; exact N1|]. intros l. rewrite V. specialize (N2 l).
      destruct (dget l (c_locs c)) as [[v|]|]; cbn; congruence.
    + exists q. split; [reflexivity|]. apply cf_glo_1. exact C1.
Qed.
Lemma good_ref_add q ow org f : good f -> is_ref (q_uuid q) f -> forall f' e,
  (let '(c', e) := add_value (Some 1) None org ow (match dget (q_uuid q) (f_chars f) with Some c => c | None => new_char q end) in
   (Flow (f_ref f) (dset (q_uuid q) c' (f_chars f)) (f_comp f), e)) = (f', e) -> good f'.
Proof.
  intros Gd (r & R & U) f' e. pose proof Gd as (ND & G & r' & R' & c0 & D0 & G0). assert (r' = r) by congruence. subst r'.
  rewrite <- U in *. rewrite D0. specialize (G _ _ D0).
  pose proof (good_cstep (CAdd (Some 1) None org ow) c0 G) as GC. cbn [cstep not_none] in GC. specialize (GC ltac:(discriminate)).
  destruct (cstep_locs (CAdd (Some 1) None org ow) c0 (proj1 G) (or_intror (proj2 G))) as [_ V]. specialize (V "GLO").
  cbn [cstep rec_step default_loc] in V. rewrite eqb_refl, G0 in V.
  destruct (add_value (Some 1) None org ow c0) as [c' e']. cbn [fst] in *. intros E; injection E as <- _.
  apply good_store_ref; auto. rewrite V. destruct ow; reflexivity.
Qed.
Lemma set_reference_ref q f f' : good f -> set_reference q f = (f', None) -> is_ref (q_uuid q) f'.
Proof.
  intros (ND & G & r & R & _) S. destruct (eqb_spec (q_uuid r) (q_uuid q)) as [E|NE].
  - unfold set_reference in S. rewrite R, E, eqb_refl in S. injection S as <-. exists r. auto.
  - destruct (C51_new_reference_is_one_partial q r f f' R NE S) as (R' & _). exists q. auto.
Qed.

Lemma good_step o f : good f -> polite o f -> good (fst (fstep o f)).
Proof.
  intros Gd P. pose proof Gd as (ND & G & r & R & c0 & D0 & G0). destruct o as [q reference value ow loc org|q|q|u o]; cbn [fstep].
  - unfold add_characterization. destruct reference.
    + cbn in P. subst loc. pose proof (good_set_reference q f Gd) as GS.
      assert (X : forall f', set_reference q f = (f', None) -> good f' ->
        good (fst (let '(c', e) := add_value (Some 1) None org ow (match dget (q_uuid q) (f_chars f') with Some c => c | None => new_char q end) in
                   (Flow (f_ref f') (dset (q_uuid q) c' (f_chars f')) (f_comp f'), e)))).
      { intros f' S G'. pose proof (good_ref_add q ow org f' G' (set_reference_ref q f f' Gd S)) as K.
        destruct (add_value _ _ _ _ _) as [c' e]. eapply K. reflexivity. }
      destruct value as [|v|l]; [|destruct (eqb v 1); [|exact Gd]|exact Gd];
        (destruct (set_reference q f) as [f' [e|]]; [exact GS|]; specialize (X f' eq_refl GS);
         destruct (dget (q_uuid q) (f_chars f')); exact X).
    + destruct value as [|v|l]; cbn in P.
      * destruct (dget (q_uuid q) (f_chars f)) eqn:D; [exact Gd|]. cbn [fst]. apply good_store; [exact Gd| |apply good_new].
        intros (r' & R' & U). assert (r' = r) by congruence. subst r'. congruence.
      * assert (X : good_char (match dget (q_uuid q) (f_chars f) with Some c => c | None => new_char q end))
          by (destruct (dget (q_uuid q) (f_chars f)) eqn:D; [apply (G _ _ D)|apply good_new]).
        pose proof (good_cstep (CAdd (Some v) loc org ow) _ X ltac:(discriminate)) as Y. cbn [cstep] in Y.
        destruct (dget (q_uuid q) (f_chars f)); destruct (add_value (Some v) loc org ow _); cbn [fst] in *; apply good_store; auto.
      * destruct P as [P NN].
        assert (X : good_char (match dget (q_uuid q) (f_chars f) with Some c => c | None => new_char q end))
          by (destruct (dget (q_uuid q) (f_chars f)) eqn:D; [apply (G _ _ D)|apply good_new]).
        pose proof (good_cstep (CUpdate l) _ X NN) as Y. cbn [cstep fst] in Y.
        destruct (dget (q_uuid q) (f_chars f)); cbn [fst]; apply good_store; auto.
  - apply good_set_reference. exact Gd.
  - cbn in P. unfold del_characterization. rewrite R. destruct (eqb (q_obj q) (q_obj r)); [exact Gd|].
    destruct (din (q_uuid q) (f_chars f)); [|exact Gd]. cbn [fst]. split; [apply NoDup_ddel; exact ND|]. split.
    + cbn [f_chars]. intros u c. rewrite dget_ddel. destruct (eqb u (q_uuid q)); [discriminate|apply G].
    + exists r. split; [reflexivity|]. exists c0. cbn [f_chars]. rewrite dget_ddel. destruct (eqb_spec (q_uuid r) (q_uuid q)) as [E|]; [|auto].
      exfalso. apply P. exists r. auto.
  - destruct P as [P NN]. unfold on_factor. destruct (dget u (f_chars f)) as [c|] eqn:D; [|exact Gd].
    pose proof (good_cstep o c (G _ _ D) NN) as Y. destruct (cstep o c) as [c' e]. apply good_store; auto.
Qed.

Lemma good_new_flow q comp : good (new_flow (Some q) comp).
Proof.
  unfold new_flow, add_characterization, set_reference. cbn [f_ref f_chars]. rewrite eqb_refl. cbn. split; [|split].
  - repeat constructor. intros [].
  - intros u c. cbn. destruct (eqb u (q_uuid q)); [|discriminate]. intros E; injection E as <-. split.
    + cbn. repeat constructor. intros [].
    + intros K. cbn. destruct (eqb K "GLO"); discriminate.
  - exists q. split; [reflexivity|]. cbn. rewrite eqb_refl. eexists. split; [reflexivity|]. reflexivity.
Qed.

(** A flow created with a reference quantity: after any such history (failed calls included) it has a reference quantity,
    whose factor is 1, and converting between nothing in particular returns the value. *)
Theorem C71_reference_factor_is_one_partial q comp tr : polite_run (new_flow (Some q) comp) tr ->
  let f := frun tr (new_flow (Some q) comp) in
  exists r, f_ref f = Some r /\ cf r "GLO" f = INum 1 /\ forall v, convert v None None "GLO" f = CNum v.
Proof.
  intros P f. assert (Gd : good f).
  { subst f. unfold frun. pose proof (good_new_flow q comp) as G. revert P G. generalize (new_flow (Some q) comp).
    induction tr as [|o tr IH]; intros f0 P G; [exact G|]. cbn in *. destruct P as [P1 P2]. apply IH; [exact P2|].
    apply good_step; assumption. }
  destruct Gd as (_ & _ & r & R & c & D & G). exists r. split; [exact R|].
  assert (C : cf r "GLO" f = INum 1) by (unfold cf; rewrite D; unfold char_get; rewrite G; reflexivity).
  split; [exact C|]. intros v. unfold convert, or_ref. rewrite R, C. cbn. change (eqb 1 0) with false. cbn. f_equal. field; discriminate.
Qed.

(** Each condition is needed. *)
Theorem C71_refuted :
  (* a factor for the reference quantity itself *)
  (exists f, add_characterization qm false (VNum (qc 2)) true None None water = (f, None) /\ f_ref f = Some qm /\ cf qm "GLO" f = INum (qc 2)) /\
  (* deletion through another object with the same uuid *)
  (exists f, del_characterization (Qty 9 "mass") water = (f, None) /\ f_ref f = Some qm /\ convert 1 None None "GLO" f = CErr XZeroDivision) /\
  (* a reference given with a location to a flow that had none *)
  (exists f, add_characterization qm true VNone false (Some "US") None (new_flow None true) = (f, None) /\ f_ref f = Some qm /\ cf qm "GLO" f = INum 0) /\
  (* a reference assigned to a flow that had none *)
  (exists f, set_reference qm (new_flow None true) = (f, None) /\ f_ref f = Some qm /\ convert 1 None None "GLO" f = CErr XZeroDivision) /\
  (* a failed change while some factor is None *)
  (exists f, set_reference qv (fst (add_characterization qe false (VDict [("EU", None)]) false None None water)) = (f, Some XTypeError) /\
     f_ref f = Some qm /\ cf qm "GLO" f = INum (qc (1 # 2))).
Proof. repeat match goal with |- _ /\ _ => split end; (eexists; split; [reflexivity|]; qnum). Qed.
Print Assumptions C71_reference_factor_is_one_partial.
Print Assumptions C71_refuted.

Example C71_example : let tr := [FAdd qv false (VNum (qc 2)) false None None; FSetRef qv; FAdd qe true VNone false None None;
                                 FAdd qe false (VNum (qc 3)) true (Some "US") None; FDel qm; FAdd qv true VNone true None None] in
  polite_run (new_flow (Some qm) true) tr /\ f_ref (frun tr (new_flow (Some qm) true)) = Some qv.
Proof. cbn. repeat split; try (intros (r & R & U); injection R as <-; discriminate U). Qed.

(** C50: a factor that was added is what is read back, with its origin, and nothing else changes. *)
From Verif Require Import Num Base PyStr FlowModel FlowProps FlowProps2.
Open Scope Qc_scope.
Open Scope string_scope.
Open Scope list_scope.
Local Arguments eqb : simpl never.

(** What is recorded on a flow for a quantity: the value and the origin of the value at a location. *)
Definition recorded_at (u l : string) (f : flow) : option (option Qc) :=
  match dget u (f_chars f) with Some c => dget l (c_locs c) | None => None end.
Definition origin_at (u l : string) (f : flow) : option (option string) :=
  match dget u (f_chars f) with Some c => dget l (c_orig c) | None => None end.

Theorem C50_add_then_read q v ow loc org f f' : add_characterization q false (VNum v) ow loc org f = (f', None) ->
  let L := match loc with Some l => l | None => "GLO" end in
  (L <> "quantity" -> L <> "flow" -> cf q L f' = INum v) /\
  recorded_at (q_uuid q) L f' = Some (Some v) /\ origin_at (q_uuid q) L f' = Some org /\
  (forall u l, (u, l) <> (q_uuid q, L) -> recorded_at u l f' = recorded_at u l f /\ origin_at u l f' = origin_at u l f) /\
  f_ref f' = f_ref f /\
  (ow = false -> recorded_at (q_uuid q) L f = None).
Proof.
  intros E L.
  assert (H : exists c c', (dget (q_uuid q) (f_chars f) = Some c \/ (dget (q_uuid q) (f_chars f) = None /\ c = new_char q)) /\
     add_value (Some v) loc org ow c = (c', None) /\ f' = Flow (f_ref f) (dset (q_uuid q) c' (f_chars f)) (f_comp f)).
  { unfold add_characterization in E. destruct (dget (q_uuid q) (f_chars f)) as [c|].
    - destruct (add_value (Some v) loc org ow c) as [c' e] eqn:A. apply pair_equal_inv in E as [<- ->]. exists c, c'. auto.
    - destruct (add_value (Some v) loc org ow (new_char q)) as [c' e] eqn:A. apply pair_equal_inv in E as [<- ->]. exists (new_char q), c'. auto. }
  clear E. destruct H as (c & c' & HC & A & ->).
  assert (RO : forall l, recorded_at (q_uuid q) l f = dget l (c_locs c) /\ origin_at (q_uuid q) l f = dget l (c_orig c)).
  { intros l. unfold recorded_at, origin_at. destruct HC as [->|[-> ->]]; auto. }
  assert (AV : (forall l, dget l (c_locs c') = if eqb l L then Some (Some v) else dget l (c_locs c)) /\
               (forall l, dget l (c_orig c') = if eqb l L then Some org else dget l (c_orig c)) /\
               (ow = false -> dget L (c_locs c) = None)).
  { clear -A. unfold add_value in A. fold L in A. unfold char_set in A. destruct ow; cbn [c_locs c_q c_orig] in A.
    - rewrite dget_ddel, eqb_refl in A. injection A as <-. cbn. repeat split; [| |discriminate].
      + intros l. rewrite dget_dset, dget_ddel. destruct (eqb l L); reflexivity.
      + intros l. rewrite dget_dset. reflexivity.
    - destruct (dget L (c_locs c)) as [[w|]|] eqn:G; [discriminate|discriminate|]. injection A as <-. cbn. repeat split; auto.
      + intros l. rewrite dget_dset. reflexivity.
      + intros l. rewrite dget_dset. reflexivity. }
  destruct AV as (AL & AO & AN).
  assert (CF : dget (q_uuid q) (dset (q_uuid q) c' (f_chars f)) = Some c') by apply dget_dset_same.
  repeat split; cbn [f_ref].
  - intros N1 N2. unfold cf. cbn [f_chars]. rewrite CF. unfold char_get. destruct (eqb_spec L "quantity"); [contradiction|].
    destruct (eqb_spec L "flow"); [contradiction|]. rewrite AL, eqb_refl. reflexivity.
  - unfold recorded_at. cbn [f_chars]. rewrite CF, AL, eqb_refl. reflexivity.
  - unfold origin_at. cbn [f_chars]. rewrite CF, AO, eqb_refl. reflexivity.
  - destruct (eqb_spec u (q_uuid q)) as [->|NU].
    + destruct (RO l) as [-> _]. unfold recorded_at. cbn [f_chars]. rewrite CF, AL. destruct (eqb_spec l L) as [->|]; [congruence|reflexivity].
    + unfold recorded_at. cbn [f_chars]. rewrite dget_dset_other by exact NU. reflexivity.
  - destruct (eqb_spec u (q_uuid q)) as [->|NU].
    + destruct (RO l) as [_ ->]. unfold origin_at. cbn [f_chars]. rewrite CF, AO. destruct (eqb_spec l L) as [->|]; [congruence|reflexivity].
    + unfold origin_at. cbn [f_chars]. rewrite dget_dset_other by exact NU. reflexivity.
  - intros OW. destruct (RO L) as [-> _]. apply AN, OW.
Qed.
Print Assumptions C50_add_then_read.

(** The factor at a location is what is recorded there, else the global one; 0 when only other locations have values or
    the flow has no such characterization. *)
Theorem C50_cf q loc f : loc <> "quantity" -> loc <> "flow" ->
  cf q loc f =
    match recorded_at (q_uuid q) loc f, recorded_at (q_uuid q) "GLO" f with
    | Some (Some v), _ => INum v
    | Some None, _ => INone
    | None, Some (Some v) => INum v
    | None, Some None => INone
    | None, None => match dget (q_uuid q) (f_chars f) with Some (Char _ [] _) => INone | _ => INum 0 end
    end.
Proof.
  intros N1 N2. unfold cf, recorded_at. destruct (dget (q_uuid q) (f_chars f)) as [[cq locs og]|]; [|reflexivity].
  unfold char_get. cbn [c_locs]. destruct (eqb_spec loc "quantity"); [contradiction|]. destruct (eqb_spec loc "flow"); [contradiction|].
  destruct (dget loc locs) as [[v|]|]; [reflexivity|reflexivity|]. destruct locs as [|p l]; [reflexivity|]. destruct (dget "GLO" (p :: l)) as [[v|]|]; reflexivity.
Qed.
Print Assumptions C50_cf.

Example C50_add_example : let q := Qty 7 "gwp" in
  exists f', add_characterization q false (VNum (Q2Qc 3)) false (Some "US") (Some "ei") (new_flow (Some (Qty 1 "kg")) true) = (f', None) /\
    recorded_at "gwp" "US" f' = Some (Some (Q2Qc 3)) /\ cf q "DE" f' = INum 0 /\ cf (Qty 1 "kg") "DE" f' = INum 1.
Proof. eexists. split; [reflexivity|]. repeat split. Qed.

(** * Merging: [merge], flows.py:265-270, takes over missing characterizations of another flow -- it never does: the first
    one missing makes it raise. *)
Theorem C50_merge_refuted f other : (exists u, din u (f_chars other) = true /\ din u (f_chars f) = false) ->
  merge_chars f other = (f, Some XAttributeError).
Proof.
  intros (u & I1 & I2). unfold merge_chars.
  destruct (forallb (fun u => din u (f_chars f)) (dkeys (f_chars other))) eqn:F; [|reflexivity].
  rewrite forallb_forall in F. rewrite (F u) in I2; [discriminate|]. unfold din in I1. destruct (dget u (f_chars other)) as [c|] eqn:G; [|discriminate]. apply dget_In in G. apply (in_map fst) in G. exact G.
Qed.
Print Assumptions C50_merge_refuted.

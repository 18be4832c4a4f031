(** C50-C52, C71: characterizations and unit conversion of flows. *)
From Verif Require Import Num Base PyStr FlowModel.
Open Scope Qc_scope.
Open Scope string_scope.
Open Scope list_scope.
Local Arguments eqb : simpl never.

(** * C50: one characterization under any history of calls *)

(** The public ways to change a characterization. *)
Inductive cop := CAdd (v : option Qc) (loc : option string) (org : option string) (overwrite : bool)
               | CSet (loc : string) (v : option Qc) | CUpdate (l : list (string * option Qc)) | CValue (v : option Qc) | CScale (k : Qc).
Definition cstep (o : cop) (c : char) : char * option fexn :=
  match o with
  | CAdd v loc org ow => add_value v loc org ow c
  | CSet loc v => char_set loc v c
  | CUpdate l => (char_update l c, None)
  | CValue v => (char_set_value v c, None)
  | CScale k => scale k c
  end.
Definition crun (tr : list cop) (c : char) : char := fold_left (fun c o => fst (cstep o c)) tr c.

(** Specification: the value recorded for one location, read off the history; [None]: no value, [Some None]: the value None. *)
Definition default_loc (loc : option string) : string := match loc with None => "GLO" | Some l => l end.
Definition once (cur : option (option Qc)) (v : option Qc) := match cur with None => Some v | Some w => Some w end.
Definition rec_step (K : string) (cur : option (option Qc)) (o : cop) : option (option Qc) :=
  match o with
  | CAdd v loc _ ow => if eqb (default_loc loc) K then (if ow then Some v else once cur v) else cur
  | CSet loc v => if eqb loc K then once cur v else cur
  | CUpdate l => fold_left (fun cur p => if eqb (fst p) K then Some (snd p) else cur) l cur
  | CValue v => if eqb "GLO" K then Some v else cur
  | CScale k => option_map (option_map (fun v => v * k)) cur
  end.
Definition recorded (K : string) (tr : list cop) : option (option Qc) := fold_left (rec_step K) tr None.
Definition writes (o : cop) : bool := match o with CScale _ => false | CUpdate [] => false | _ => true end.

(** Histories in which None is never stored, or nothing is scaled. *)
Definition not_none (o : cop) : Prop :=
  match o with CAdd v _ _ _ | CSet _ v | CValue v => v <> None | CUpdate l => forall k v, In (k, v) l -> v <> None | CScale _ => True end.
Definition no_scale (o : cop) : Prop := match o with CScale _ => False | _ => True end.
Definition sane (tr : list cop) : Prop := Forall not_none tr \/ Forall no_scale tr.

Lemma dget_scale_locs k d : (forall l v, In (l, v) d -> v <> None) ->
  snd (scale_locs k d) = None /\ forall K, dget K (fst (scale_locs k d)) = option_map (option_map (fun v => v * k)) (dget K d).
Proof.
  induction d as [|[l v] d IH]; intros H; [split; reflexivity|]. cbn [scale_locs].
  destruct v as [v|]; [|exfalso; apply (H l None); [left|]; reflexivity].
  destruct IH as [A B]; [intros l' v' J; apply (H l' v'); right; exact J|]. destruct (scale_locs k d) as [d' e]. cbn in *. subst e.
  split; [reflexivity|]. intros K. cbn. destruct (eqb K l); [reflexivity|apply B].
Qed.

Lemma dget_update l : forall d K,
  dget K (fold_left (fun d (p : string * option Qc) => dset (fst p) (snd p) d) l d) =
  fold_left (fun cur p => if eqb (fst p) K then Some (snd p) else cur) l (dget K d).
Proof.
  induction l as [|[k v] l IH]; intros d K; [reflexivity|]. cbn [fold_left fst snd]. rewrite IH, dget_dset, (eqb_sym K). reflexivity.
Qed.

Definition numeric (c : char) : Prop := forall K, dget K (c_locs c) <> Some None.
Lemma scale_numeric k c : NoDup (dkeys (c_locs c)) -> numeric c ->
  snd (scale k c) = None /\ (forall K, dget K (c_locs (fst (scale k c))) = option_map (option_map (fun v => v * k)) (dget K (c_locs c))) /\
  dkeys (c_locs (fst (scale k c))) = dkeys (c_locs c) /\ c_q (fst (scale k c)) = c_q c.
Proof.
  intros ND N. destruct (dget_scale_locs k (c_locs c)) as [A B].
  { intros l v J E. subst. apply (N l). apply In_dget; assumption. }
  assert (DK : forall d, dkeys (fst (scale_locs k d)) = dkeys d).
  { intros d. unfold dkeys. induction d as [|[l v] d IH]; [reflexivity|]. cbn. destruct v; [|reflexivity].
    destruct (scale_locs k d). cbn in *. rewrite IH. reflexivity. }
  unfold scale. specialize (DK (c_locs c)). destruct (scale_locs k (c_locs c)) as [d e]. cbn in *. auto.
Qed.

(** One call: effect on every location. *)
Lemma dkeys_update l : forall d : dict string (option Qc), NoDup (dkeys d) -> NoDup (dkeys (fold_left (fun d p => dset (fst p) (snd p) d) l d)).
Proof. induction l as [|[k v] l IH]; intros d ND; [exact ND|]. cbn. apply IH. apply NoDup_dset. exact ND. Qed.
Lemma cstep_locs o c : NoDup (dkeys (c_locs c)) -> (no_scale o \/ numeric c) ->
  NoDup (dkeys (c_locs (fst (cstep o c)))) /\
  forall K, dget K (c_locs (fst (cstep o c))) = rec_step K (dget K (c_locs c)) o.
Proof.
  intros ND NS. destruct o as [v loc org ow|loc v|l|v|k]; cbn [cstep rec_step].
  - unfold add_value. fold (default_loc loc). destruct ow.
    + cbn [c_q c_locs c_orig char_set]. unfold char_set. cbn [c_locs]. rewrite dget_ddel, eqb_refl. cbn.
      split; [apply NoDup_dset, NoDup_ddel, ND|]. intros K. rewrite dget_dset, dget_ddel, (eqb_sym K).
      destruct (eqb (default_loc loc) K); reflexivity.
    + unfold char_set. destruct (dget (default_loc loc) (c_locs c)) as [[w|]|] eqn:D; cbn; (split; [try apply NoDup_dset; exact ND|]).
      1,2: intros K; destruct (eqb_spec (default_loc loc) K) as [<-|]; [rewrite D|]; reflexivity.
      intros K. rewrite dget_dset, (eqb_sym K). destruct (eqb_spec (default_loc loc) K) as [<-|]; [rewrite D|]; reflexivity.
  - unfold char_set. destruct (dget loc (c_locs c)) as [[w|]|] eqn:D; cbn; (split; [try apply NoDup_dset; exact ND|]).
    1,2: intros K; destruct (eqb_spec loc K) as [<-|]; [rewrite D|]; reflexivity.
    intros K. rewrite dget_dset, (eqb_sym K). destruct (eqb_spec loc K) as [<-|]; [rewrite D|]; reflexivity.
  - cbn. split; [apply dkeys_update; exact ND|]. intros K. apply dget_update.
  - cbn. split; [apply NoDup_dset; exact ND|]. intros K. rewrite dget_dset, (eqb_sym K). reflexivity.
  - destruct NS as [[]|N]. destruct (scale_numeric k c ND N) as (_ & B & DK & _). split; [rewrite DK; exact ND|exact B].
Qed.

Lemma rec_step_not_none K o cur : not_none o -> cur <> Some None -> rec_step K cur o <> Some None.
Proof.
  intros N C. destruct o as [v loc org ow|loc v|l|v|k]; cbn in *.
  - destruct (eqb _ K); [|exact C]. destruct ow; [congruence|]. destruct cur; cbn; congruence.
  - destruct (eqb _ K); [|exact C]. destruct cur; cbn; congruence.
  - revert cur C. induction l as [|[k v] l IH]; intros cur C; [exact C|]. cbn. apply IH; [intros k' v' J; apply (N k' v'); right; exact J|].
    destruct (eqb k K); [|exact C]. intros E; injection E as ->. apply (N k None); [left|]; reflexivity.
  - destruct (eqb _ K); congruence.
  - destruct cur as [[x|]|]; cbn; congruence.
Qed.

Lemma crun_locs q tr : sane tr ->
  NoDup (dkeys (c_locs (crun tr (new_char q)))) /\
  forall K, dget K (c_locs (crun tr (new_char q))) = recorded K tr.
Proof.
  unfold crun, recorded. induction tr as [|o tr IH] using rev_ind; intros S; [split; [constructor|reflexivity]|].
  assert (S' : sane tr) by (destruct S as [S|S]; [left|right]; apply Forall_app in S; apply S).
  destruct (IH S') as [ND D]. rewrite !fold_left_app. cbn [fold_left]. set (c := fold_left _ tr (new_char q)) in *.
  assert (NS : no_scale o \/ numeric c).
  { destruct S as [S|S]; [right|left].
    - intros K. rewrite D. clear - S. apply Forall_app in S as [S _]. unfold recorded.
      assert (G : forall cur, cur <> Some None -> fold_left (rec_step K) tr cur <> Some None); [|apply G; discriminate].
      induction S as [|o' tr' N S IH]; intros cur C; [exact C|]. cbn. apply IH. apply rec_step_not_none; assumption.
    - apply Forall_app in S as [_ S]. inversion S; assumption. }
  destruct (cstep_locs o c ND NS) as [ND' D']. split; [exact ND'|]. intros K. rewrite D', D, fold_left_app. reflexivity.
Qed.

Lemma rec_written K tr : recorded K tr <> None -> existsb writes tr = true.
Proof.
  unfold recorded. induction tr as [|o tr IH] using rev_ind; [intros H; exfalso; apply H; reflexivity|]. rewrite fold_left_app, existsb_app. cbn [fold_left existsb].
  intros H. destruct (existsb writes tr) eqn:E; [reflexivity|]. cbn.
  assert (N : fold_left (rec_step K) tr None = None) by (destruct (fold_left (rec_step K) tr None); [exfalso; assert (false = true) by (apply IH; discriminate); discriminate|reflexivity]).
  rewrite N in H. destruct o as [v loc org ow|loc v|[|p l]|v|k]; cbn in *; try reflexivity; congruence.
Qed.
Lemma fold_some K l : forall cur, cur <> None -> fold_left (fun cur (p : string * option Qc) => if eqb (fst p) K then Some (snd p) else cur) l cur <> None.
Proof. induction l as [|p l IH]; intros cur C; [exact C|]. cbn. apply IH. destruct (eqb (fst p) K); [discriminate|exact C]. Qed.
Lemma written_rec tr : existsb writes tr = true -> exists K, recorded K tr <> None.
Proof.
  unfold recorded. induction tr as [|o tr IH] using rev_ind; [discriminate|]. rewrite existsb_app. cbn [existsb].
  intros H. rewrite orb_false_r in H. apply orb_true_iff in H as [H|H].
  - destruct (IH H) as [K NK]. exists K. rewrite fold_left_app. cbn [fold_left].
    set (cur := fold_left (rec_step K) tr None) in *. destruct o as [v loc org ow|loc v|l|v|k]; cbn.
    + destruct (eqb _ K); [|exact NK]. destruct ow; [discriminate|]. destruct cur; cbn; congruence.
    + destruct (eqb _ K); [|exact NK]. destruct cur; cbn; congruence.
    + apply fold_some. exact NK.
    + destruct (eqb _ K); congruence.
    + destruct cur; cbn; congruence.
  - destruct o as [v loc org ow|loc v|[|p l]|v|k]; try discriminate H.
    + exists (default_loc loc). rewrite fold_left_app. cbn. rewrite eqb_refl. destruct ow; [discriminate|]. destruct (fold_left _ tr None); discriminate.
    + exists loc. rewrite fold_left_app. cbn. rewrite eqb_refl. destruct (fold_left _ tr None); discriminate.
    + exists (fst p). rewrite fold_left_app. cbn. rewrite eqb_refl. apply fold_some. discriminate.
    + exists "GLO". rewrite fold_left_app. cbn. discriminate.
Qed.

(** Lookup after any history: the location's own value, else the GLO value, else 0; None before anything was stored. *)
Theorem C50_lookup_partial q tr loc : sane tr -> loc <> "quantity" -> loc <> "flow" ->
  char_get loc (crun tr (new_char q)) =
    match recorded loc tr, recorded "GLO" tr with
    | Some v, _ => of_pyval v
    | None, Some v => of_pyval v
    | None, None => if existsb writes tr then INum 0 else INone
    end.
Proof.
  intros S NQ NF. destruct (crun_locs q tr S) as [ND D]. unfold char_get.
  rewrite (proj2 (eqb_neq _ _) NQ), (proj2 (eqb_neq _ _) NF), !D.
  destruct (recorded loc tr) as [v|] eqn:R; [reflexivity|].
  destruct (existsb writes tr) eqn:W.
  - destruct (written_rec tr W) as [K NK]. rewrite <- D in NK. destruct (c_locs (crun tr (new_char q))) eqn:CL; [exfalso; apply NK; reflexivity|].
    reflexivity.
  - assert (E : recorded "GLO" tr = None) by (destruct (recorded "GLO" tr) eqn:G; [exfalso; assert (X : recorded "GLO" tr <> None) by congruence; apply rec_written in X; congruence|reflexivity]).
    rewrite E. destruct (c_locs (crun tr (new_char q))) as [|[K v] r] eqn:CL; [reflexivity|]. exfalso.
    assert (X : recorded K tr <> None) by (rewrite <- D; cbn; rewrite eqb_refl; discriminate). apply rec_written in X. congruence.
Qed.

(** Write once: [add_value] succeeds exactly when the location is free or overwriting is allowed; a refused call changes
    nothing, an accepted one only its own location. *)
Theorem C50_write_once q tr v loc org ow : sane tr ->
  let c := crun tr (new_char q) in let r := add_value v loc org ow c in
  (snd r = None <-> ow = true \/ recorded (default_loc loc) tr = None) /\
  (snd r <> None -> fst r = c) /\
  (snd r = None -> forall K, dget K (c_locs (fst r)) = if eqb K (default_loc loc) then Some v else dget K (c_locs c)).
Proof.
  intros S c r. destruct (crun_locs q tr S) as [ND D]. fold c in ND, D. rewrite <- D. subst r. unfold add_value. fold (default_loc loc).
  destruct ow.
  - unfold char_set. cbn [c_q c_locs c_orig]. rewrite dget_ddel, eqb_refl. cbn. split; [tauto|]. split; [congruence|].
    intros _ K. rewrite dget_dset, dget_ddel. destruct (eqb K (default_loc loc)); reflexivity.
  - unfold char_set. destruct (dget (default_loc loc) (c_locs c)) as [[w|]|] eqn:DG; cbn.
    + split; [|split; [reflexivity|congruence]]. split; [discriminate|]. intros [E|E]; discriminate.
    + split; [|split; [reflexivity|congruence]]. split; [discriminate|]. intros [E|E]; discriminate.
    + split; [tauto|]. split; [congruence|]. intros _ K. apply dget_dset.
Qed.

(** [scale] multiplies every location, when all values are numbers. *)
Theorem C50_scale_partial q tr k : Forall not_none tr ->
  let c := crun tr (new_char q) in
  snd (scale k c) = None /\ locations (fst (scale k c)) = locations c /\
  forall K, dget K (c_locs (fst (scale k c))) = option_map (option_map (fun v => v * k)) (dget K (c_locs c)).
Proof.
  intros F c. destruct (crun_locs q tr (or_introl F)) as [ND D]. fold c in ND, D.
  destruct (scale_numeric k c ND) as (A & B & DK & _); [|auto].
  intros K. rewrite D. unfold recorded. assert (G : forall cur, cur <> Some None -> fold_left (rec_step K) tr cur <> Some None); [|apply G; discriminate].
  clear - F. induction F as [|o' tr' N S IH]; intros cur C; [exact C|]. cbn. apply IH. apply rec_step_not_none; assumption.
Qed.

(** With a None value it stops midway, part of the locations scaled and part not. *)
Theorem C50_scale_refuted : exists c, c = crun [CAdd (Some 1) None None false; CAdd None (Some "US") None false; CAdd (Some (Q2Qc 3)) (Some "EU") None false] (new_char (Qty 0 "q")) /\
  snd (scale (Q2Qc 2) c) = Some XTypeError /\ char_get "GLO" (fst (scale (Q2Qc 2) c)) = INum (Q2Qc 2) /\ char_get "EU" (fst (scale (Q2Qc 2) c)) = INum (Q2Qc 3).
Proof. eexists. split; [reflexivity|]. repeat split; cbn; f_equal; apply Qc_is_canon; reflexivity. Qed.

(** Two location names are never found. *)
Theorem C50_special_names_refuted : exists c, c = crun [CAdd (Some 1) (Some "flow") None false] (new_char (Qty 0 "q")) /\
  In "flow" (locations c) /\ char_get "flow" c = IEntity.
Proof. eexists. split; [reflexivity|]. split; [left; reflexivity|reflexivity]. Qed.
Print Assumptions C50_lookup_partial.
Print Assumptions C50_write_once.
Print Assumptions C50_scale_partial.
Print Assumptions C50_scale_refuted.
Print Assumptions C50_special_names_refuted.

Example C50_example :
  let tr := [CAdd (Some (Q2Qc 2)) None None false; CAdd (Some (Q2Qc 3)) (Some "US") None false; CAdd (Some (Q2Qc 5)) (Some "US") None false; CScale (Q2Qc 2);
             CAdd (Some (Q2Qc 7)) (Some "EU") None true] in
  sane tr /\ recorded "US" tr = Some (Some (Q2Qc 3 * Q2Qc 2)) /\ recorded "EU" tr = Some (Some (Q2Qc 7)) /\ recorded "FR" tr = None.
Proof. split; [left; repeat constructor; discriminate|]. repeat split. Qed.

(** * C51: changing the reference quantity *)

(** Flows as they arise: no two entries of one quantity or location. *)
Definition flow_wf (f : flow) : Prop :=
  NoDup (dkeys (f_chars f)) /\ forall u c, In (u, c) (f_chars f) -> NoDup (dkeys (c_locs c)).

Lemma scale_success k c c' : scale k c = (c', None) -> c_q c' = c_q c /\ dkeys (c_locs c') = dkeys (c_locs c) /\
  forall K, dget K (c_locs c') = option_map (option_map (fun v => v * k)) (dget K (c_locs c)).
Proof.
  unfold scale. destruct (scale_locs k (c_locs c)) as [d e] eqn:S. intros E; injection E as <- ->. cbn. split; [reflexivity|].
  revert d S. generalize (c_locs c). induction d as [|[l v] r IH]; intros d S; cbn in S.
  - injection S as <-. split; reflexivity.
  - destruct v as [v|]; [|discriminate]. destruct (scale_locs k r) as [r' e'] eqn:S'. injection S as <- ->.
    destruct (IH _ eq_refl) as [A B]. unfold dkeys in *. cbn. rewrite A. split; [reflexivity|]. intros K.
    destruct (eqb K l); [reflexivity|apply B].
Qed.

Definition item_mul (k : Qc) (i : item) : item := match i with INum v => INum (v * k) | x => x end.
Lemma char_get_scaled k c c' loc : scale k c = (c', None) -> char_get loc c' = item_mul k (char_get loc c).
Proof.
  intros S. destruct (scale_success _ _ _ S) as (_ & DK & D). unfold char_get.
  destruct (eqb loc "quantity"); [reflexivity|]. destruct (eqb loc "flow"); [reflexivity|]. rewrite !D.
  destruct (dget loc (c_locs c)) as [[v|]|]; [reflexivity..|]. cbn [option_map].
  destruct (c_locs c) as [|p r] eqn:CL; destruct (c_locs c') as [|p' r'] eqn:CL'; try discriminate DK; [reflexivity|].
  destruct (dget "GLO" (p :: r)) as [[v|]|]; try reflexivity. cbn. f_equal. ring.
Qed.

Lemma scale_all_success k d d' : scale_all k d = (d', None) ->
  dkeys d' = dkeys d /\ forall u, match dget u d with
                                  | Some c => exists c', dget u d' = Some c' /\ scale k c = (c', None)
                                  | None => dget u d' = None
                                  end.
Proof.
  revert d'. induction d as [|[u c] r IH]; intros d' S; cbn in S; [injection S as <-; split; reflexivity|].
  destruct (scale k c) as [c' e] eqn:SC. destruct e; [discriminate|]. destruct (scale_all k r) as [r' e] eqn:SR. injection S as <- ->.
  destruct (IH _ eq_refl) as [A B]. unfold dkeys in *. cbn. rewrite A. split; [reflexivity|]. intros u'. destruct (eqb u' u); [eauto|apply B].
Qed.

(** Every factor is divided by the factor of the new reference quantity. *)
Lemma cf_after_change q f f' r : f_ref f = Some r -> q_uuid r <> q_uuid q -> set_reference q f = (f', None) ->
  exists inc, cf q "GLO" f = INum inc /\ inc <> 0 /\ f_ref f' = Some q /\
    forall x loc, cf x loc f' = item_mul (1 / inc) (cf x loc f).
Proof.
  intros R NE. unfold set_reference. rewrite R, (proj2 (eqb_neq _ _) NE). destruct (f_comp f); [|discriminate]. cbn [negb].
  destruct (cf q "GLO" f) as [inc| |] eqn:C; [|discriminate..]. destruct (eqb_spec inc 0) as [|NZ]; [discriminate|].
  destruct (scale_all (1 / inc) (f_chars f)) as [d e] eqn:S. destruct e; [discriminate|]. intros E; injection E as <-.
  exists inc. split; [reflexivity|]. split; [exact NZ|]. split; [reflexivity|]. intros x loc. unfold cf. cbn [f_chars].
  destruct (scale_all_success _ _ _ S) as [_ D]. specialize (D (q_uuid x)). destruct (dget (q_uuid x) (f_chars f)) as [c|].
  - destruct D as (c' & -> & SC). apply char_get_scaled. exact SC.
  - rewrite D. cbn. f_equal. ring.
Qed.

Lemma ratio_mul v k a b : k <> 0 -> ratio v (item_mul k a) (item_mul k b) = ratio v a b.
Proof.
  intros K. destruct a as [a| |], b as [b| |]; cbn; try reflexivity.
  destruct (eqb_spec (b * k) 0) as [E|E], (eqb_spec b 0) as [E'|E']; try reflexivity.
  - exfalso. apply Qcmult_integral in E. destruct E; contradiction.
  - exfalso. apply E. subst. ring.
  - f_equal. field. auto.
Qed.

(** A change of reference quantity leaves the conversion between any two quantities, at any locale, unchanged. *)
Theorem C51_conversions_unchanged q f f' : set_reference q f = (f', None) ->
  forall v a b loc, convert v (Some a) (Some b) loc f' = convert v (Some a) (Some b) loc f.
Proof.
  intros S v a b loc. unfold convert; cbn [or_ref]. destruct (f_ref f) as [r|] eqn:R.
  - destruct (eqb_spec (q_uuid r) (q_uuid q)) as [E|NE].
    + unfold set_reference in S. rewrite R, E, eqb_refl in S. injection S as <-. reflexivity.
    + destruct (cf_after_change q f f' r R NE S) as (inc & C & NZ & _ & D). rewrite !D. apply ratio_mul.
      intros E. apply NZ. apply (f_equal (fun x => inc * x)) in E. replace (inc * (1 / inc)) with 1 in E by (field; exact NZ).
      replace (inc * 0) with 0 in E by ring. exfalso. discriminate E.
  - unfold set_reference in S. rewrite R in S. injection S as <-. reflexivity.
Qed.

(** What was measured in the old reference unit can still be converted from it. *)
Corollary C51_old_reference_unit q r f f' : f_ref f = Some r -> set_reference q f = (f', None) ->
  forall v a loc, convert v (Some a) (Some r) loc f' = convert v (Some a) None loc f.
Proof.
  intros R S v a loc. rewrite (C51_conversions_unchanged q f f' S). unfold convert; cbn [or_ref]. rewrite R. reflexivity.
Qed.

(** The new reference has the factor 1, at GLO and wherever it has no value of its own. *)
Theorem C51_new_reference_is_one_partial q r f f' : f_ref f = Some r -> q_uuid r <> q_uuid q -> set_reference q f = (f', None) ->
  f_ref f' = Some q /\ cf q "GLO" f' = INum 1 /\
  forall loc, cf q loc f = cf q "GLO" f -> cf q loc f' = INum 1.
Proof.
  intros R NE S. destruct (cf_after_change q f f' r R NE S) as (inc & C & NZ & FR & D).
  assert (X : forall loc, cf q loc f = cf q "GLO" f -> cf q loc f' = INum 1).
  { intros loc E. rewrite D, E, C. cbn. f_equal. field. exact NZ. }
  split; [exact FR|]. split; [apply X; reflexivity|exact X].
Qed.

(** Exactly when the change is possible: the flow prints, all factors are numbers and the new quantity's factor is known. *)
Theorem C51_change_possible q r f : f_ref f = Some r -> q_uuid r <> q_uuid q -> flow_wf f ->
  (forall u c, In (u, c) (f_chars f) -> numeric c) ->
  (snd (set_reference q f) = None <-> f_comp f = true /\ exists inc, cf q "GLO" f = INum inc /\ inc <> 0) /\
  (snd (set_reference q f) <> None -> fst (set_reference q f) = f).
Proof.
  intros R NE [ND WC] N. unfold set_reference. rewrite R, (proj2 (eqb_neq _ _) NE). destruct (f_comp f); cbn [negb].
  2:{ cbn. split; [split; [discriminate|intros [E _]; discriminate]|reflexivity]. }
  destruct (cf q "GLO" f) as [inc| |] eqn:C.
  2:{ cbn. split; [split; [discriminate|intros (_ & i & E & _); discriminate]|reflexivity]. }
  2:{ cbn. split; [split; [discriminate|intros (_ & i & E & _); discriminate]|reflexivity]. }
  destruct (eqb_spec inc 0) as [->|NZ]; cbn.
  { split; [split; [discriminate|intros (_ & i & E & X); injection E as <-; exfalso; apply X; reflexivity]|reflexivity]. }
  assert (S : snd (scale_all (1 / inc) (f_chars f)) = None).
  { clear - WC N. induction (f_chars f) as [|[u c] d IH]; [reflexivity|]. cbn.
    destruct (scale_numeric (1 / inc) c) as (A & _); [apply (WC u); left; reflexivity|apply (N u); left; reflexivity|].
    destruct (scale (1 / inc) c) as [c' e]. cbn in A. subst e.
    destruct (scale_all (1 / inc) d) as [d' e]. apply IH; intros u' c'' J; [apply (WC u')|apply (N u')]; right; exact J. }
  destruct (scale_all (1 / inc) (f_chars f)) as [d e]. cbn in S. subst e. cbn. split; [|congruence].
  split; [|reflexivity]. intros _. split; [reflexivity|]. exists inc. auto.
Qed.
Print Assumptions C51_conversions_unchanged.
Print Assumptions C51_old_reference_unit.
Print Assumptions C51_new_reference_is_one_partial.
Print Assumptions C51_change_possible.

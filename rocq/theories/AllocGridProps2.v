(** C127: the columns of an allocated process; what the grid does not show. *)
From Coq Require Import String Permutation Sorted.
From Verif Require Import Num Base PyStr TableModel TableProofs TableProps.
From Verif Require Import ProcModel.
From Verif Require ProcProofs ProcProps.
From Verif Require Import AllocGridModel AllocGridProofs AllocGridProps.
Open Scope string_scope.
Open Scope list_scope.

(** ** The process of C23-C29 as the grid sees it (processes.py:326-360, 416-422) *)
Section Process.
(** What the flows are called, and the comments *)
Variables (comp : nat -> list string) (name unit text : nat -> string) (comment : key -> string).
Definition dir_text (d : ProcModel.dirn) : string := match d with ProcModel.Input => "Input" | ProcModel.Output => "Output" end.
Definition ax_of (k : key) (ref : bool) (v : option Qc) : ax :=
  AX (k_flow k) (dir_text (k_dir k)) (comp (k_flow k)) (name (k_flow k)) (unit (k_flow k)) (text (k_flow k)) (k_term k) ref v (comment k).
(** An inventory that raises an exception ends the grid; the theorem below assumes that none does. *)
Definition grid_proc (cf : nat -> nat -> Qc) (p : proc) : aproc :=
  AProc (fun f => match f with
                  | None => map (fun ke => ax_of (fst ke) (ProcModel.x_ref (snd ke)) (ProcModel.value (snd ke))) (p_exch p)
                  | Some f => match inventory_ref cf p (SFlow f) None with POk l => map (fun kv => ax_of (fst kv) false (Some (snd kv))) l | PErr _ => [] end
                  end)
        (map (fun r => ax_of r true (exch_value p r)) (p_refs p)).

Definition key_row (k : key) : list string := ["1"; dir_text (k_dir k); String.concat "; " (comp (k_flow k)); name (k_flow k)].
Definition in_row_of (r : list string) (k : key) : bool := eqb (key_row k) r.
Definition pick (b : bool) (v : Qc) : Qc := if b then v else Q2Qc 0.

Lemma row_total_app es es' r : row_total (es ++ es') r = (row_total es r + row_total es' r)%Qc.
Proof. unfold row_total. rewrite filter_app, map_app, Qcsum_app. reflexivity. Qed.
Lemma refs_total (l : list ax) d t : row_total (map (fun r => (row_of true r, (x_unit r ++ " " ++ x_fstr r)%string, Q2Qc 1)) l) ("1" :: d :: t) = Q2Qc 0.
Proof. unfold row_total. induction l as [|x l IH]; [reflexivity|]. cbn [map filter fst row_of]. change (eqb ("0" :: _) ("1" :: d :: t)) with false. exact IH. Qed.
Lemma vals_total ar (l : list (key * Qc)) r :
  row_total (flat_map (fun x => match x_isref x, x_value x with false, Some v => [(row_of false x, line_text ar x, v)] | _, _ => [] end)
               (map (fun kv => ax_of (fst kv) false (Some (snd kv))) l)) r
  = Qcsum (map (fun kv => pick (in_row_of r (fst kv)) (snd kv)) l).
Proof.
  induction l as [|[k v] l IH]; [reflexivity|]. cbn [map flat_map ax_of x_isref x_value fst snd]. rewrite row_total_app, IH, Qcsum_cons. f_equal.
  unfold row_total. cbn [filter fst]. change (row_of false (ax_of k false (Some v))) with (key_row k). fold (in_row_of r k).
  destruct (in_row_of r k); cbn [map snd]; unfold Qcsum; cbn [fold_right pick]; ring.
Qed.
Lemma own_total ar (l : list (key * ProcModel.exch)) r :
  row_total (flat_map (fun x => match x_isref x, x_value x with false, Some v => [(row_of false x, line_text ar x, v)] | _, _ => [] end)
               (map (fun ke => ax_of (fst ke) (ProcModel.x_ref (snd ke)) (ProcModel.value (snd ke))) l)) r
  = Qcsum (map (fun ke => match ProcModel.x_ref (snd ke), ProcModel.value (snd ke) with false, Some v => pick (in_row_of r (fst ke)) v | _, _ => Q2Qc 0 end) l).
Proof.
  induction l as [|[k e] l IH]; [reflexivity|]. cbn [map flat_map ax_of x_isref x_value fst snd]. rewrite row_total_app, IH, Qcsum_cons. f_equal.
  destruct (ProcModel.x_ref e); [reflexivity|]. destruct (ProcModel.value e) as [v|]; [|reflexivity].
  unfold row_total. cbn [filter fst]. change (row_of false (ax_of k false (Some v))) with (key_row k). fold (in_row_of r k).
  destruct (in_row_of r k); cbn [map snd]; unfold Qcsum; cbn [fold_right pick]; ring.
Qed.
Lemma sum_swap {A B} (f : A -> B -> Qc) la lb : Qcsum (map (fun a => Qcsum (map (f a) lb)) la) = Qcsum (map (fun b => Qcsum (map (fun a => f a b) la)) lb).
Proof.
  induction la as [|a la IH]; cbn [map].
  - symmetry. apply Qcsum_zero. intros; reflexivity.
  - rewrite Qcsum_cons, IH, <- Qcsum_map_add. apply Qcsum_ext. intros b _. rewrite Qcsum_cons. reflexivity.
Qed.
Definition got (x : ProcModel.pret Qc) : Qc := match x with POk v => v | PErr _ => Q2Qc 0 end.

(** In a grid of a process allocated by a quantity, in each row of exchanges the columns of the references, each weighted by
    its reference's value, add up to the process's own column: the allocation distributes what the grid shows.  Missing: as
    in C24, histories that change a reference's value while allocated; the process's own column shows 1 for each reference,
    not its value (refuted below). *)
Theorem C127_allocation_partial : forall ar cf ops q d t,
  ProcProps.all_steps cf (ProcProps.keeps_total cf) ProcModel.new_proc ops ->
  let p := ProcProofs.prun cf ops in
  let g := grid_proc cf p in
  alloc_qty p = Some q ->
  (forall k e, dget k (p_exch p) = Some e -> ProcModel.x_ref e = false -> ProcModel.value e <> None) ->
  (forall r, In r (p_refs p) -> exists l, inventory_ref cf p (SFlow (k_flow r)) None = POk l
     /\ (find_exchange p (SFlow (k_flow r)) None None = POk r
         \/ find_exchange p (SFlow (k_flow r)) None None = PErr MultipleReferencesFound /\ find_exchange p (SFlow (k_flow r)) (Some true) None = POk r)) ->
  Qcsum (map (fun r => match exch_value p r with
                       | Some w => (w * row_total (entries ar g (Some (k_flow r))) ("1" :: d :: t))%Qc
                       | None => Q2Qc 0 end) (p_refs p))
  = row_total (entries ar g None) ("1" :: d :: t).
Proof.
  intros ar cf ops q d t A p g Q V H. set (r0 := "1" :: d :: t).
  pose proof (ProcProofs.pinv_prun cf ops) as I. fold p in I.
  set (ks := filter (fun k => negb (mem k (p_refs p))) (dkeys (p_exch p))).
  assert (T0 : row_total (entries ar g None) r0 = Qcsum (map (fun k => pick (in_row_of r0 k) (match dget k (p_exch p) with Some e => match ProcModel.value e with Some v => v | None => Q2Qc 0 end | None => Q2Qc 0 end)) ks)).
  { unfold entries. rewrite row_total_app. unfold r0 at 2. rewrite refs_total, Qcplus_0_r. cbn [g grid_proc a_inv]. rewrite own_total.
    unfold ks. assert (ND := ProcProofs.pi_keys p I).
    assert (MR : forall k e, In (k, e) (p_exch p) -> mem k (p_refs p) = ProcModel.x_ref e).
    { intros k e J. apply (In_dget k e _ ND) in J. destruct (mem_spec k (p_refs p)) as [M|M].
      - apply (ProcProofs.pi_ref p I) in M. destruct M as [e' [D R]]. rewrite J in D. injection D as <-. symmetry. exact R.
      - destruct (ProcModel.x_ref e) eqn:R; [|reflexivity]. exfalso. apply M. apply (ProcProofs.pi_ref p I). exists e. auto. }
    assert (DG : forall k e, In (k, e) (p_exch p) -> dget k (p_exch p) = Some e) by (intros k e J; apply In_dget; assumption).
    clear - MR DG. assert (G : forall l, incl l (p_exch p) ->
      Qcsum (map (fun ke => match ProcModel.x_ref (snd ke), ProcModel.value (snd ke) with false, Some v => pick (in_row_of r0 (fst ke)) v | _, _ => Q2Qc 0 end) l)
      = Qcsum (map (fun k => pick (in_row_of r0 k) (match dget k (p_exch p) with Some e => match ProcModel.value e with Some v => v | None => Q2Qc 0 end | None => Q2Qc 0 end))
          (filter (fun k => negb (mem k (p_refs p))) (dkeys l)))); [|apply G, incl_refl].
    induction l as [|[k e] l IH]; intros S; [reflexivity|]. assert (J : In (k, e) (p_exch p)) by (apply S; left; reflexivity).
    cbn [map dkeys filter fst snd]. change (map fst l) with (dkeys l). rewrite Qcsum_cons, (MR k e J), IH by (intros y Y; apply S; right; exact Y).
    destruct (ProcModel.x_ref e); cbn [negb]; [apply Qcplus_0_l|]. cbn [map]. rewrite Qcsum_cons, (DG k e J). f_equal.
    destruct (ProcModel.value e); [reflexivity|]. unfold pick. destruct (in_row_of r0 k); reflexivity. }
  rewrite T0.
  assert (T1 : forall r, In r (p_refs p) -> row_total (entries ar g (Some (k_flow r))) r0 = Qcsum (map (fun k => pick (in_row_of r0 k) (got (ProcModel.getitem cf p k r))) ks)).
  { intros r J. destruct (H r J) as (l & E & F). unfold entries. rewrite row_total_app. unfold r0 at 2. rewrite refs_total, Qcplus_0_r. cbn [g grid_proc a_inv].
    rewrite E, vals_total.
    assert (EV : ProcModel.inv_values cf p r ks = POk l).
    { assert (R : ProcModel.is_ref p r = true).
      { apply (ProcProofs.pi_ref p I) in J. destruct J as [e [D R]]. unfold ProcModel.is_ref. rewrite D. exact R. }
      unfold inventory_ref in E. destruct F as [F|[F F']]; rewrite F in E; [|rewrite F' in E]; rewrite R in E; exact E. }
    apply ProcProps.inv_values_ok in EV as [K G].
    rewrite <- K, map_map. apply Qcsum_ext. intros [k v] JL. cbn [fst snd]. rewrite (G k v JL). reflexivity. }
  transitivity (Qcsum (map (fun r => Qcsum (map (fun k => pick (in_row_of r0 k) (ProcProps.share cf p k r)) ks)) (p_refs p))).
  - apply Qcsum_ext. intros r J. rewrite (T1 r J). destruct (exch_value p r) as [w|] eqn:W.
    + rewrite <- Qcsum_map_scale. apply Qcsum_ext. intros k _. unfold ProcProps.share. rewrite W. unfold pick. destruct (in_row_of r0 k); [|ring].
      destruct (ProcModel.getitem cf p k r); cbn [got]; ring.
    + symmetry. apply Qcsum_zero. intros k _. unfold ProcProps.share. rewrite W. unfold pick. destruct (in_row_of r0 k); [|reflexivity].
      destruct (ProcModel.getitem cf p k r); reflexivity.
  - rewrite sum_swap. apply Qcsum_ext. intros k J. unfold ks in J. apply filter_In in J as [JK N].
    destruct (dget_key_Some k (p_exch p) JK) as [e D]. rewrite D.
    assert (R : ProcModel.x_ref e = false).
    { destruct (ProcModel.x_ref e) eqn:R; [|reflexivity]. exfalso. apply negb_true_iff in N. apply mem_nIn in N. apply N. apply (ProcProofs.pi_ref p I). exists e. auto. }
    destruct (ProcModel.value e) as [v|] eqn:VE; [|exfalso; exact (V k e D R VE)].
    unfold pick. destruct (in_row_of r0 k); [|apply Qcsum_zero; reflexivity].
    exact (ProcProps.C24_shares_add_up_partial cf ops k e v q A Q D R VE).
Qed.
End Process.
Print Assumptions C127_allocation_partial.

(** ** Witnesses *)
Definition smelters : string -> option string := fun t => if eqb t "p1" then Some "smelter" else if eqb t "p2" then Some "smelter" else None.
(** A process with two references (values 1 and 4) and an input of 7, allocated 1 : 6 (C24) *)
Definition names (f : nat) : string := match f with 0 => "copper" | 1 => "sulfuric acid" | _ => "ore" end.
Definition g2 : aproc := grid_proc (fun _ => ["Products"]) names (fun _ => "kg") names (fun _ => "") ProcProps.kg (ProcProofs.prun ProcProps.kg ProcProps.two_refs).
Definition frame2 := ag_frame smelters (ag_grid true [g2]) (t_rows (ag_grid true [g2])).
Definition vals_of (x : tres (list (list (@sline Qc)))) : list (list string * string * list (option Q)) :=
  match x with TOk ls => map (fun s => (s_near s, s_key s, map (option_map this) (s_vals s))) (concat ls) | _ => [] end.
(** The table: as it is, for copper, for sulfuric acid. *)
Theorem C127_witness :
  vals_of frame2 = [ (["Output"; "{*}"], "kg copper", [Some 1; Some 1; None]);
                     (["Output"; "{*}"], "kg sulfuric acid", [Some 1; None; Some 1]);
                     (["Input"; ""], "kg ore", [Some 7; Some 1; Some (3 # 2)]) ]%Q
  /\ (forall pf r k v, In pf (col_pairs true [g2]) -> In (r, k, v) (entries smelters (fst pf) (snd pf)) -> 2 <= String.length k)
  /\ ProcProps.all_steps ProcProps.kg (ProcProps.keeps_total ProcProps.kg) ProcModel.new_proc ProcProps.two_refs
  /\ (forall k e, dget k (p_exch (ProcProofs.prun ProcProps.kg ProcProps.two_refs)) = Some e -> ProcModel.x_ref e = false -> ProcModel.value e <> None)
  /\ (forall r, In r (p_refs (ProcProofs.prun ProcProps.kg ProcProps.two_refs)) ->
        exists l, inventory_ref ProcProps.kg (ProcProofs.prun ProcProps.kg ProcProps.two_refs) (SFlow (k_flow r)) None = POk l
          /\ find_exchange (ProcProofs.prun ProcProps.kg ProcProps.two_refs) (SFlow (k_flow r)) None None = POk r).
Proof.
  split; [vm_compute; reflexivity|]. split; [|split; [apply ProcProps.C24_witness|split]].
  - intros pf r k v J E. vm_compute in J. destruct J as [<-|[<-|[<-|[]]]]; vm_compute in E;
      repeat (destruct E as [E|E]; [injection E as <- <- <-; cbn; lia|]); destruct E.
  - intros k e D R V. apply dget_In in D. vm_compute in D. repeat (destruct D as [D|D]; [injection D as <- <-; vm_compute in R, V; discriminate|]). destruct D.
  - intros r J. vm_compute in J. destruct J as [<-|[<-|[]]]; (eexists; split; [vm_compute; reflexivity|vm_compute; reflexivity]).
Qed.
(** ** What is refuted *)
(** The column of the process as it is shows 1 for every reference, whatever its value: 7 of ore beside 1 of sulfuric acid,
    of which there are 4. *)
Theorem C127_refuted_reference_value :
  exists r, In r (a_refs g2) /\ x_value r = Some (Q2Qc 4) /\ number (entries smelters g2 None) (row_of true r) "kg sulfuric acid" = Some (Q2Qc 1).
Proof.
  exists (ax_of (fun _ => ["Products"]) names (fun _ => "kg") names (fun _ => "") (1, ProcModel.Output, None) true (Some (Q2Qc 4))).
  split; [right; left; reflexivity|]. split; [reflexivity|]. vm_compute. f_equal.
Qed.
(** In general: what stands in a row of references is how many there are. *)
Theorem C127_refuted_counts : forall ar p f r k, hd "" r = "0" ->
  forall v, number (entries ar p f) r k = Some v ->
  v = Qcsum (map (fun _ => Q2Qc 1) (filter (fun x => eqb (row_of true x) r && eqb (x_unit x ++ " " ++ x_fstr x)%string k) (references p f))).
Proof.
  intros ar p f r k R v. unfold number, entries. rewrite filter_app.
  assert (N : filter (fun e => eqb (fst (fst e)) r && eqb (snd (fst e)) k)
     (flat_map (fun x => match x_isref x, x_value x with false, Some v => [(row_of false x, line_text ar x, v)] | _, _ => [] end) (a_inv p f)) = []).
  { induction (a_inv p f) as [|x l IH]; [reflexivity|]. cbn [flat_map]. rewrite filter_app, IH, app_nil_r.
    destruct (x_isref x); [reflexivity|]. destruct (x_value x); [|reflexivity]. cbn [filter fst snd].
    destruct (eqb_spec (row_of false x) r) as [E|_]; [rewrite <- E in R; discriminate R|reflexivity]. }
  rewrite N. cbn [app]. clear N.
  assert (M : forall l, map snd (filter (fun e => eqb (fst (fst e)) r && eqb (snd (fst e)) k) (map (fun r => (row_of true r, (x_unit r ++ " " ++ x_fstr r)%string, Q2Qc 1)) l))
     = map (fun _ => Q2Qc 1) (filter (fun x => eqb (row_of true x) r && eqb (x_unit x ++ " " ++ x_fstr x)%string k) l)).
  { induction l as [|x l IH]; [reflexivity|]. cbn [map filter fst snd]. destruct (_ && _); cbn [map]; rewrite IH; reflexivity. }
  rewrite <- M. destruct (filter _ _) as [|e l]; [discriminate|]. intros E. injection E as <-. reflexivity.
Qed.
(** A process whose other exchanges have no values is not in the table at all, not even its references. *)
Theorem C127_refuted_missing : forall unalloc p, (forall f x, In x (a_inv p f) -> x_isref x = false -> x_value x = None) ->
  forall ps, ag_grid unalloc (p :: ps) = ag_grid unalloc ps.
Proof.
  intros unalloc p N ps. rewrite !grid_build. f_equal. f_equal. unfold col_pairs. cbn [flat_map].
  assert (F : filter (col_made p) (col_fs unalloc p) = []); [|rewrite F; reflexivity].
  induction (col_fs unalloc p) as [|f l IH]; [reflexivity|]. cbn [filter]. destruct (col_made p f) eqn:M; [|exact IH].
  apply col_made_shown in M. destruct M as (x & v & J & R & V). rewrite (N f x J R) in V. discriminate.
Qed.
Definition ref_only : aproc := AProc (fun _ => [AX 0 "Output" [] "steel" "kg" "steel" None true (Some (Q2Qc 1)) ""]) [AX 0 "Output" [] "steel" "kg" "steel" None true (Some (Q2Qc 1)) ""].
Example C127_missing_witness : a_refs ref_only <> [] /\ t_cols (ag_grid true [ref_only]) = [].
Proof. split; [discriminate|reflexivity]. Qed.
(** Suppliers with one name are shown as one. *)
Definition inp (f : nat) (name : string) (term : option string) (v : Qc) : ax := AX f "Input" ["Products"] name "kg" name term false (Some v) "".
Definition one_proc (xs : list ax) : aproc := AProc (fun _ => xs) [].
Definition frame_of (ar : string -> option string) (xs : list ax) := let g := ag_grid true [one_proc xs] in ag_frame ar g (t_rows g).
Theorem C127_refuted_suppliers :
  vals_of (frame_of smelters [inp 5 "copper" (Some "p1") (Q2Qc 2); inp 5 "copper" (Some "p2") (Q2Qc 3)]) = [(["Input"; ""], "kg smelter", [Some 5%Q])]
  /\ vals_of (frame_of smelters [inp 5 "copper" (Some "p1") (Q2Qc 5)]) = [(["Input"; ""], "kg smelter", [Some 5%Q])].
Proof. split; vm_compute; reflexivity. Qed.
(** Which flow a supplier delivers is not printed: inventories that differ in their flows give the same table. *)
Theorem C127_refuted_flow :
  frame_of smelters [inp 5 "copper" (Some "p1") (Q2Qc 2)] = frame_of smelters [inp 6 "slag" (Some "p1") (Q2Qc 2)]
  /\ [inp 5 "copper" (Some "p1") (Q2Qc 2)] <> [inp 6 "slag" (Some "p1") (Q2Qc 2)].
Proof. split; [reflexivity|discriminate]. Qed.
(** A text of one character cannot be sorted: IndexError. *)
Theorem C127_refuted_short : frame_of smelters [AX 5 "Input" [] "x" "" "" None false (Some (Q2Qc 2)) ""] = IndexErr.
Proof. reflexivity. Qed.
Print Assumptions C127_witness.
Print Assumptions C127_refuted_reference_value.
Print Assumptions C127_refuted_counts.
Print Assumptions C127_refuted_missing.
Print Assumptions C127_refuted_suppliers.
Print Assumptions C127_refuted_flow.
Print Assumptions C127_refuted_short.

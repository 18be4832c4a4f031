(** C98: descending into a subfragment or aggregating it gives the same results. *)
From Verif Require Import Num Base PyStr ProcModel FragModel FragProofs DescendProofs.
Open Scope Qc_scope.
Open Scope string_scope.
Open Scope list_scope.
Local Arguments eqb : simpl never.

(** Two models that differ only in [descend] settings: traversals fail alike or, with the contents of the aggregated nodes in place, list the same
    entries in the same order. *)
Theorem C98_traversal cf refq fuel h1 h2 sc obs i : same_but_descend h1 h2 ->
  match traverse cf refq fuel h1 sc obs i, traverse cf refq fuel h2 sc obs i with
  | FOk l1, FOk l2 => Forall2 (same_entry h1) (opened_all l1) (opened_all l2)
  | FErr e1, FErr e2 => e2 = e1
  | _, _ => False
  end.
Proof.
  intros S. pose proof (traverse_same cf refq h1 h2 S fuel sc obs i) as R.
  destruct (traverse cf refq fuel h1 sc obs i), (traverse cf refq fuel h2 sc obs i); cbn in R; auto. apply R.
Qed.
Print Assumptions C98_traversal.
(** The inventory (net inputs and outputs) is the same list. *)
Theorem C98_inventory cf refq fuel h1 h2 sc obs i : same_but_descend h1 h2 ->
  match unit_inv cf refq fuel h1 sc obs i, unit_inv cf refq fuel h2 sc obs i with
  | FOk (ext1, int1), FOk (ext2, int2) => ext2 = ext1 /\ Forall2 (same_entry h1) (opened_all int1) (opened_all int2)
  | FErr e1, FErr e2 => e2 = e1
  | _, _ => False
  end.
Proof.
  intros S. unfold unit_inv. pose proof (unit_inventory_same h1 h2 S _ _ fuel i (proj1 (trav_same cf refq h1 h2 S fuel (as_set sc) obs))) as R.
  destruct (unit_inventory _ fuel h1 i) as [[]|], (unit_inventory _ fuel h2 i) as [[]|]; cbn in R; try contradiction; [|exact R]. split; apply R.
Qed.
Print Assumptions C98_inventory.
(** So each process is run equally often, and each flow is cut off in the same net amount. *)
Definition activity (p : nat) (l : list ffl) : Qc :=
  Qcsum (map (fun x => match t_node (ff_term x) with NProc p' => if Nat.eqb p' p then ff_nw x else 0 | _ => 0 end) (opened_all l)).
Definition cut_off (f : nat) (l : list ffl) : Qc :=
  Qcsum (map (fun x => match t_node (ff_term x) with NNull => if Nat.eqb (ff_flow x) f then match ff_dir x with Input => ff_mag x | Output => - ff_mag x end else 0 | _ => 0 end) (opened_all l)).
Theorem C98_totals cf refq fuel h1 h2 sc obs i l1 l2 : same_but_descend h1 h2 ->
  traverse cf refq fuel h1 sc obs i = FOk l1 -> traverse cf refq fuel h2 sc obs i = FOk l2 ->
  (forall p, activity p l2 = activity p l1) /\ (forall f, cut_off f l2 = cut_off f l1).
Proof.
  intros S E1 E2. pose proof (C98_traversal cf refq fuel h1 h2 sc obs i S) as R. rewrite E1, E2 in R. unfold activity, cut_off. split; intros p; f_equal.
  - induction R as [|x y l m E _ IH]; [reflexivity|]. cbn [map]. rewrite IH. f_equal. destruct E as (_ & _ & _ & _ & _ & (N & _) & W). rewrite N.
    destruct W as [->|(_ & ? & ? & ? & ? & ? & _ & _ & _ & _ & N' & _)]; [reflexivity|]. rewrite N'. reflexivity.
  - induction R as [|x y l m E _ IH]; [reflexivity|]. cbn [map]. rewrite IH. f_equal. destruct E as (_ & -> & -> & -> & _ & (N & _) & _). rewrite N. reflexivity.
Qed.
Print Assumptions C98_totals.

(** When everything is descended into, nothing is hidden: the traversal is its own opened form. *)
Definition all_descend (h : heap) : Prop := forall i f k t, h i = Some f -> In (k, t) (f_terms f) -> t_desc t = true.
Definition plain_list (l : list ffl) : Prop := Forall leaf l.
Lemma plain_opened l : plain_list l -> opened_all l = l.
Proof.
  induction 1 as [|x l P _ IH]; [reflexivity|]. unfold opened_all in *. cbn [flat_map]. rewrite IH. destruct x as [r f d m w t c s]. unfold leaf in P. cbn in P. subst s.
  cbn [opened flat_map app]. f_equal. f_equal; ring.
Qed.
Lemma plain_scale k l : plain_list l -> plain_list (map (fscale k) l).
Proof. induction 1 as [|x l P _ IH]; constructor; [destruct x; exact P|exact IH]. Qed.
Lemma plain_inv r n h j inv int : (forall i nw s q b l cv, r i nw s q b = FOk (l, cv) -> plain_list l) -> unit_inventory r n h j = FOk (inv, int) -> plain_list inv /\ plain_list int.
Proof.
  intros RP. unfold unit_inventory. destruct (top n h j) as [tp|]; [|discriminate]. destruct (r tp (Q2Qc 1) [] None None) as [[l cv]|] eqn:R; [|discriminate]. apply RP in R.
  destruct (h tp) as [tf|]; [|discriminate]. unfold group_ios. cbv zeta.
  assert (I : plain_list (filter (fun x => negb (is_null (ff_term x))) l)). { apply Forall_forall. intros x J. apply filter_In in J as [J _]. eapply Forall_forall in R; eauto. }
  assert (OF : forall o, plain_list (out_flows j o)). { intros o. unfold out_flows. apply Forall_map, Forall_forall. intros; reflexivity. }
  destruct l as [|x0 l]; [discriminate|]. destruct (dget (f_flow tf) _) as [v|].
  - destruct (eqb (sign_dir v) (f_dir tf)); [|discriminate]. destruct (Qclt_le_dec _ _); intros E; injection E as <- <-; (split; [|exact I]); [apply OF|constructor; [reflexivity|apply OF]].
  - intros E; injection E as <- <-. split; [constructor; [reflexivity|apply OF]|exact I].
Qed.
Lemma plain_remove f l : plain_list l -> plain_list (remove_flow f l).
Proof. induction 1 as [|x l P Q IH]; cbn; [constructor|]. destruct (Nat.eqb (ff_flow x) f); [exact Q|constructor; [exact P|exact IH]]. Qed.
Lemma plain_trav cf refq h sc obs : all_descend h -> forall n i nw s q b l cv, trav cf refq n h sc obs i nw s q b = FOk (l, cv) -> plain_list l.
Proof.
  intros AD. induction n as [|n IH]; intros i nw s q b l cv E; [discriminate|]. cbn in E. unfold trav_node in E. destruct (h i) as [f|] eqn:HI; [|discriminate].
  destruct (_ && mem i s); [discriminate|]. cbv zeta in E. destruct (match b with Some b => FOk b | None => _ end) as [ev|]; [|discriminate].
  destruct (match_term f sc) as [m|]; [|discriminate]. destruct (dget m (f_terms f)) as [t|] eqn:DT; [|discriminate].
  destruct (if match f_parent f with None => true | Some _ => false end then _ else _) as [w|]; [|discriminate]. destruct (conservation cf h f ev q) as [[cv' kept]|]; [|discriminate].
  set (x := FF (Real i) (f_flow f) (f_dir f) (nw * ev) w t kept []) in E. assert (PX : plain_list [x]) by (constructor; [reflexivity|constructor]).
  set (seen' := if match f_parent f with None => true | Some _ => false end then i :: s else s) in E. clearbody seen'.
  destruct (is_null t || f_bg f || eqb (nw * ev) (Q2Qc 0)); [injection E as <- <-; exact PX|].
  assert (TF : forall l1, trav_fg cf (trav cf refq n h sc obs) h sc obs i f x seen' = FOk l1 -> plain_list l1).
  { intros l1 F. unfold trav_fg in F. destruct (if is_fg i (ff_term x) then _ else _) as [s0|]; [|discriminate]. cbv zeta in F.
    assert (L : forall cs ffs st bb l2 s2 b2, plain_list ffs -> fg_loop (trav cf refq n h sc obs) (ff_nw x) seen' (f_cons f) cs ffs st bb = FOk (l2, s2, b2) -> plain_list l2).
    { induction cs as [|c cs IHc]; intros ffs st bb l2 s2 b2 P L; cbn [fg_loop] in L; [congruence|].
      destruct (trav cf refq n h sc obs c (ff_nw x) seen' (f_cons f) None) as [[l3 c3]|e] eqn:R; [eapply IHc; [|exact L]; apply Forall_app; split; [exact P|eapply IH; exact R]|].
      destruct e; try discriminate L. exact (IHc _ _ _ _ _ _ P L). }
    destruct (fg_loop _ _ _ _ _ _ _ _) as [[[ffs st] b1]|] eqn:FL; [|discriminate]. apply L in FL; [|exact PX]. destruct b1 as [b1|]; [|injection F as <-; exact FL].
    destruct (trav cf refq n h sc obs b1 _ _ None _) as [[l3 c3]|] eqn:R; [|discriminate]. injection F as <-. apply Forall_app. split; [exact FL|eapply IH; exact R]. }
  destruct (t_node t) as [|p|j] eqn:TN; [injection E as <- <-; exact PX| |].
  { destruct (trav_fg _ _ _ _ _ _ _ _ _) as [l1|]; [|discriminate]. injection E as <- <-. apply TF; reflexivity. }
  destruct (Nat.eqb j i). { destruct (trav_fg _ _ _ _ _ _ _ _ _) as [l1|]; [|discriminate]. injection E as <- <-. apply TF; reflexivity. }
  destruct (trav_sub _ _ _ _ _ _ _ _) as [l1|] eqn:TS; [|discriminate]. injection E as <- <-. unfold trav_sub in TS. destruct (h j) as [g|] eqn:HJ; [|discriminate]. destruct (f_bg g).
  { destruct (trav cf refq n h sc obs j (ff_nw x) [] None None) as [[l2 c2]|] eqn:R; [|discriminate]. apply IH in R. destruct l2 as [|[r2 f2 d2 m2 w2 t2 k2 s2] [|? ?]]; try discriminate TS. injection TS as <-.
    inversion R as [|? ? L2 _]. constructor; [exact L2|constructor]. }
  destruct (do_subfrag _ _ _ _ _ _) as [[[ffs inv] dn]|] eqn:DS; [|discriminate]. unfold do_subfrag in DS.
  destruct (unit_inventory _ _ _ _) as [[inv0 int]|] eqn:U; [|discriminate]. destruct (plain_inv _ _ _ _ _ _ IH U) as [PI PT].
  destruct (find_flow _ inv0) as [y|]; [|discriminate]. cbv zeta in DS. destruct (eqb (ff_mag y) (Q2Qc 0)); [discriminate|].
  assert (D : t_desc (ff_term x) = true). { cbn. eapply AD; [exact HI|]. apply dget_In. exact DT. }
  rewrite D in DS. injection DS as <- <- <-.
  assert (L : forall cs ffs inv l2 inv2, plain_list ffs -> plain_list inv -> sub_loop (trav cf refq n h sc obs) h (ff_nw x / (if eqb (ff_dir y) (f_dir f) then (- ff_mag y)%Qc else ff_mag y)) seen' cs ffs inv = FOk (l2, inv2) -> plain_list l2 /\ plain_list inv2).
  { induction cs as [|c cs IHc]; intros ffs iv l2 inv2 P Q L; cbn [sub_loop] in L; [injection L as <- <-; auto|]. destruct (h c) as [gc|]; [|discriminate]. destruct (find_flow (f_flow gc) iv) as [z|]; [|exact (IHc _ _ _ _ P Q L)].
    destruct (trav cf refq n h sc obs c _ seen' None _) as [[l3 c3]|] eqn:R; [|discriminate]. eapply IHc; [| |exact L]; [apply Forall_app; split; [exact P|eapply IH; exact R]|apply plain_remove; exact Q]. }
  destruct (sub_loop _ _ _ _ _ _ _) as [[l2 inv2]|] eqn:SL; [|discriminate]. injection TS as <-. apply L in SL; [|constructor; [reflexivity|apply plain_scale; exact PT]|apply plain_remove; exact PI].
  apply Forall_app. split; [apply SL|apply plain_scale, SL].
Qed.
Theorem C98_all_descended cf refq fuel h sc obs i l : all_descend h -> traverse cf refq fuel h sc obs i = FOk l -> opened_all l = l.
Proof.
  intros AD E. unfold traverse in E. destruct (trav _ _ _ _ _ _ _ _ _ _ _) as [[l' cv]|] eqn:T; [|discriminate]. injection E as ->. apply plain_opened. eapply plain_trav; eassumption.
Qed.
Print Assumptions C98_all_descended.

(** A fragment (1) with a child (2) that ends in the fragment 4, whose child (5) is a process; 4 also takes flow 13, which 3 supplies from a process.
    Aggregated, the entry of 2 holds the process of 5. *)
Definition h98 (d : bool) : heap := fun i => match i with
  | 1%nat => Some (Fr None [2%nat] 10 Output false false None [(K0, Some (Q2Qc 1)); (K1, Some (Q2Qc 0))] [(None, Tm (NFrag 1) 10 Input true)])
  | 2%nat => Some (Fr (Some 1%nat) [3%nat] 11 Input false false None [(K0, Some (Q2Qc 6)); (K1, Some (Q2Qc 0))] [(None, Tm (NFrag 4) 11 Output d)])
  | 3%nat => Some (Fr (Some 2%nat) [] 13 Input false false None [(K0, Some (Q2Qc 1)); (K1, Some (Q2Qc 0))] [(None, Tm (NProc 8) 13 Output true)])
  | 4%nat => Some (Fr None [5%nat; 6%nat] 11 Input false false None [(K0, Some (Q2Qc 2)); (K1, Some (Q2Qc 0))] [(None, Tm (NFrag 4) 11 Output true)])
  | 5%nat => Some (Fr (Some 4%nat) [] 12 Input false false None [(K0, Some (Q2Qc 5)); (K1, Some (Q2Qc 0))] [(None, Tm (NProc 9) 12 Output true)])
  | 6%nat => Some (Fr (Some 4%nat) [] 13 Input false false None [(K0, Some (Q2Qc 7)); (K1, Some (Q2Qc 0))] [(None, null_term 13 Input)])
  | _ => None end.
Definition one98 (f q : nat) : Qc := 1.
Definition zer98 (f : nat) : nat := 0%nat.
Definition t98 d := traverse one98 zer98 9 (h98 d) ScNone false 1.
Definition show (r : fret (list ffl)) := match r with FOk l => Some (map (fun x => (ff_ref x, this (ff_mag x), this (ff_nw x), length (ff_subs x))) l) | FErr _ => None end.
Example C98_example : same_but_descend (h98 true) (h98 false) /\
  show (t98 true) = Some [(Real 1, 1%Q, 1%Q, 0%nat); (Real 2, 6%Q, 6%Q, 0%nat); (Real 4, 6%Q, 3%Q, 0%nat); (Real 5, 15%Q, 15%Q, 0%nat); (Real 3, 21%Q, 21%Q, 0%nat)] /\
  show (t98 false) = Some [(Real 1, 1%Q, 1%Q, 0%nat); (Real 2, 6%Q, 3%Q, 2%nat); (Real 3, 21%Q, 21%Q, 0%nat)] /\
  exists l1 l2, t98 true = FOk l1 /\ t98 false = FOk l2 /\ this (activity 9 l1) = 15%Q /\ this (activity 9 l2) = 15%Q.
Proof.
  split.
  { intros i. do 7 (destruct i as [|i]; [cbn; try exact I; unfold same_frag, same_term; cbn; repeat (split; [reflexivity|]); repeat constructor|]). exact I. }
  split; [vm_compute; reflexivity|]. split; [vm_compute; reflexivity|]. eexists. eexists. split; [vm_compute; reflexivity|]. split; [vm_compute; reflexivity|]. split; vm_compute; reflexivity.
Qed.

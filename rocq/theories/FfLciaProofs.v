(** Specification and proofs for C99: the LCIA score of a fragment. *)
From Verif Require Import Num Base PyStr LciaModel LciaProofs LciaProps ProcModel FragModel FragProofs DescendProofs FfLciaModel.
Open Scope Qc_scope.
Open Scope string_scope.
Open Scope list_scope.
Local Arguments eqb : simpl never.

(** * Specification *)
(** [P] of an entry, of what it holds, and so on *)
Fixpoint everywhere (P : ffl -> Prop) (x : ffl) : Prop :=
  P x /\ (fix all (l : list ffl) : Prop := match l with [] => True | y :: r => everywhere P y /\ all r end) (ff_subs x).
Lemma everywhere_iff P x : everywhere P x <-> P x /\ Forall (everywhere P) (ff_subs x).
Proof.
  destruct x as [r f d m w t c s]. cbn [everywhere ff_subs]. split; intros [A B]; (split; [exact A|]).
  - clear A. revert B. induction s as [|y s IH]; intros B; [constructor|]. destruct B as [B1 B2]. constructor; [exact B1|exact (IH B2)].
  - clear A. induction B as [|y s B1 _ IH]; [exact I|]. split; [exact B1|exact IH].
Qed.

Section Spec.
Context (h : heap) (unit_of : fref -> tnode * nat * dirn -> lres).
(** Node weight times unit score, negative if the termination runs against the fragment; nothing for cut-offs and subfragments. *)
Definition own_impact (x : ffl) : Qc :=
  if FragModel.is_null (ff_term x) then 0 else
  match subfrag_of h x with
  | Some _ => 0
  | None => (if eqb (t_dir (ff_term x)) (ff_dir x) then - (1) else 1) * ff_nw x * total (unit_of (ff_ref x) (term_id (ff_term x)))
  end.
(** The impact of a traversal, with the contents of the aggregated nodes in place. *)
Definition impact (l : list ffl) : Qc := Qcsum (map own_impact (opened_all l)).
(** An entry that stands for an aggregated subfragment. *)
Definition aggregated (x : ffl) : Prop := subfrag_of h x <> None /\ t_desc (ff_term x) = false.
(** Each aggregated node holds something, its termination does not run against the fragment, and no null score was cached for it. *)
Definition scorable (refresh : bool) (st : lstate) (x : ffl) : Prop :=
  aggregated x -> ff_nw x <> 0 -> ff_subs x <> [] /\ t_dir (ff_term x) <> ff_dir x /\
  (refresh = true \/ forall i, ff_ref x = Real i -> ~ In (i, term_id (ff_term x)) (l_nulls st)).
(** No fragment is listed twice (cut-offs apart). *)
Definition listed_once (l : list ffl) : Prop := NoDup (map ff_ref (filter (fun x => negb (FragModel.is_null (ff_term x))) (opened_all l))).
End Spec.

(** * Proofs *)
Section P.
Context (cf : nat -> nat -> Qc) (refq : nat -> nat) (h : heap) (name : nat -> string) (ent : ffl -> entity) (unit_of : fref -> tnode * nat * dirn -> lres) (quantity : string).
Hypothesis NI : forall i j, name i = name j -> i = j.
Notation impact := (impact h unit_of).
Notation own_impact := (own_impact h unit_of).

(** what holds of every entry of a traversal *)
Definition wf (x : ffl) : Prop :=
  (FragModel.is_null (ff_term x) = false -> exists i, ff_ref x = Real i) /\
  (ff_subs x <> [] -> aggregated h x /\ (ff_nw x <> 0 -> ff_mag x <> 0)).

Lemma subfrag_scale k x : subfrag_of h (fscale k x) = subfrag_of h x.
Proof. destruct x; reflexivity. Qed.
Lemma own_scale k x : own_impact (fscale k x) = k * own_impact x.
Proof.
  unfold FfLciaProofs.own_impact. rewrite subfrag_scale, null_scale. destruct (FragModel.is_null (ff_term x)); [ring|]. destruct (subfrag_of h x); [ring|].
  destruct x as [r f d m w t c s]. cbn. destruct (eqb (t_dir t) d); ring.
Qed.
Lemma sum_scale k l : Qcsum (map own_impact (map (fscale k) l)) = k * Qcsum (map own_impact l).
Proof. induction l as [|x l IH]; cbn [map]; [rewrite Qcsum_nil; ring|]. rewrite !Qcsum_cons, own_scale, IH. ring. Qed.
Lemma impact_app l m : impact (l ++ m) = impact l + impact m.
Proof. unfold FfLciaProofs.impact. rewrite opened_app, map_app, Qcsum_app. reflexivity. Qed.
Lemma impact_nil : impact [] = 0. Proof. reflexivity. Qed.
Definition strip (x : ffl) : ffl := let '(FF r f d m w t c _) := x in FF r f d m w t c [].
Lemma opened_one x : opened_all [x] = strip x :: map (fscale (ff_nw x)) (opened_all (ff_subs x)).
Proof.
  unfold opened_all at 1. cbn [flat_map]. rewrite app_nil_r. destruct x as [r f d m w t c s]. cbn [opened strip ff_nw ff_subs]. f_equal; [f_equal; ring|].
  rewrite opened_at. f_equal. f_equal. ring.
Qed.
Lemma own_strip x : own_impact (strip x) = own_impact x.
Proof. destruct x; reflexivity. Qed.
Lemma impact_one x : impact [x] = own_impact x + ff_nw x * impact (ff_subs x).
Proof. unfold FfLciaProofs.impact at 1. rewrite opened_one. cbn [map]. rewrite Qcsum_cons, own_strip, sum_scale. reflexivity. Qed.
Lemma own_zero x : ff_nw x = 0 -> own_impact x = 0.
Proof. intros Z. unfold FfLciaProofs.own_impact. rewrite Z. destruct (FragModel.is_null _); [ring|]. destruct (subfrag_of h x); [ring|]. destruct (eqb _ _); ring. Qed.

Definition live (l : list ffl) : list fref := map ff_ref (filter (fun x => negb (FragModel.is_null (ff_term x))) (opened_all l)).
Lemma live_app l m : live (l ++ m) = live l ++ live m.
Proof. unfold live. rewrite opened_app, filter_app, map_app. reflexivity. Qed.
Lemma live_scaled k l : map ff_ref (filter (fun x => negb (FragModel.is_null (ff_term x))) (map (fscale k) l)) = map ff_ref (filter (fun x => negb (FragModel.is_null (ff_term x))) l).
Proof. induction l as [|x l IH]; [reflexivity|]. cbn. rewrite null_scale. destruct (FragModel.is_null (ff_term x)); cbn; [exact IH|]. rewrite IH. destruct x; reflexivity. Qed.
Lemma live_one x : live [x] = (if FragModel.is_null (ff_term x) then [] else [ff_ref x]) ++ live (ff_subs x).
Proof.
  unfold live at 1. rewrite opened_one. cbn [filter]. assert (N : FragModel.is_null (ff_term (strip x)) = FragModel.is_null (ff_term x)) by (destruct x; reflexivity). rewrite N.
  destruct (FragModel.is_null (ff_term x)); cbn [negb map app]; rewrite live_scaled; [reflexivity|]. f_equal. destruct x; reflexivity.
Qed.

Fixpoint depth (x : ffl) : nat := S ((fix mx (l : list ffl) : nat := match l with [] => 0%nat | y :: r => Nat.max (depth y) (mx r) end) (ff_subs x)).
Definition depths (l : list ffl) : nat := fold_right (fun x n => Nat.max (depth x) n) 0%nat l.
Lemma depth_eq x : depth x = S (depths (ff_subs x)).
Proof. destruct x as [r f d m w t c s]. cbn [depth ff_subs]. f_equal. Qed.

Lemma null_total v : LciaModel.is_null v = true -> total v = 0.
Proof. intros H. unfold LciaModel.is_null in H. apply Qcsum_zero. intros [k c] J. cbn. apply c_null_cum. rewrite forallb_forall in H. exact (H _ J). Qed.
Lemma add_new r k e w v : r_scale r = 1 -> dget k (r_scores r) = None -> exists r', add_summary r k e w (Inner v) = (r', LOk tt) /\ r_scale r' = 1 /\
  total r' = total r + w * total v /\ (forall k', In k' (dkeys (r_scores r')) -> k' = k \/ In k' (dkeys (r_scores r))).
Proof.
  intros S D. unfold add_summary. rewrite D. eexists. split; [reflexivity|]. destruct r as [i s p q scn xs fl]. cbn in S, D. subst s. cbn [with_scores r_scale r_scores]. split; [reflexivity|]. split.
  - unfold with_scores. rewrite (total_csum (LRes _ _ _ _ _ _ _)), (total_csum (LRes i 1 p q scn xs fl)). cbn [r_scale r_scores r_id r_private r_quantity r_scenario r_failed]. rewrite csum_dset, D, cum_inner. cbn [scale_of]. ring.
  - intros k' J. apply In_dkeys_dset in J as [->|J]; auto.
Qed.

Notation nul := (fun x : ffl => FragModel.is_null (ff_term x)).
Definition grown (st st' : lstate) (l : list ffl) : Prop := forall i k, In (i, k) (l_nulls st') -> In (i, k) (l_nulls st) \/ In (Real i) (live l).
Lemma nodup_app_l {A} (l m : list A) : NoDup (l ++ m) -> NoDup l.
Proof. induction l as [|a l IH]; cbn; [constructor|]. inversion 1; subst. constructor; [rewrite in_app_iff in *; tauto|auto]. Qed.
Lemma nodup_app_r {A} (l m : list A) : NoDup (l ++ m) -> NoDup m.
Proof. induction l as [|a l IH]; cbn; [auto|]. inversion 1; subst. auto. Qed.
Lemma nodup_disj {A} (l m : list A) : NoDup (l ++ m) -> forall x, In x l -> ~ In x m.
Proof. induction l as [|a l IH]; cbn; [intros _ x []|]. inversion 1; subst. intros x [<-|J]; [rewrite in_app_iff in *; tauto|auto]. Qed.

(** aggregated entries inside [l] are listed by [live] *)
Lemma everywhere_live P l x : Forall (everywhere P) l -> In x l -> everywhere P x.
Proof. intros F J. eapply Forall_forall in F; eauto. Qed.
Lemma subfrag_ref x p : subfrag_of h x = Some p -> ff_ref x = Real (fst p) /\ FragModel.is_null (ff_term x) = false.
Proof.
  unfold subfrag_of, FragModel.is_null. destruct (ff_ref x) as [i|]; [|discriminate]. destruct (t_node (ff_term x)); try discriminate. destruct (_ && _); [|discriminate]. intros [= <-]. auto.
Qed.
(** the conditions survive when only keys of fragments not listed in [l] were added *)
Lemma scorable_grown refresh st st' x : forall (L : forall i k, In (i, k) (l_nulls st') -> In (i, k) (l_nulls st) \/ ~ In (Real i) (live [x])),
  everywhere (scorable h refresh st) x -> everywhere (scorable h refresh st') x.
Proof.
  induction x as [r f d m w t c s IH] using ffl_ind2. intros L E. apply everywhere_iff in E as [E1 E2]. apply everywhere_iff. set (x := FF r f d m w t c s) in *. split.
  - intros A N. destruct (E1 A N) as (Q1 & Q2 & Q3). split; [exact Q1|]. split; [exact Q2|]. destruct Q3 as [Q3|Q3]; [left; exact Q3|right]. intros i R J.
    destruct (L _ _ J) as [K|K]; [exact (Q3 i R K)|]. apply K. rewrite live_one. destruct A as [A _]. destruct (subfrag_of h x) as [p|] eqn:SP; [|contradiction].
    destruct (subfrag_ref x p SP) as [_ ->]. left. exact R.
  - cbn [ff_subs x] in *. rewrite Forall_forall in *. intros y J. apply IH; [exact J| |apply E2; exact J]. intros i k K. destruct (L i k K) as [K'|K']; [left; exact K'|right]. intros Z. apply K'. rewrite live_one.
    apply in_app_iff. right. cbn [ff_subs x]. apply in_split in J as (s1 & s2 & ->). rewrite live_app. change (y :: s2) with ([y] ++ s2). rewrite live_app, !in_app_iff. auto.
Qed.

Definition good (refresh : bool) (st : lstate) (x : ffl) : Prop := everywhere wf x /\ everywhere (scorable h refresh st) x.
Lemma good_grown refresh st st' x l : grown st st' l -> (forall i, In i (live l) -> ~ In i (live [x])) -> good refresh st x -> good refresh st' x.
Proof.
  intros G D [A B]. split; [exact A|]. eapply scorable_grown; [|exact B]. intros i k J. destruct (G i k J) as [K|K]; auto.
Qed.

Notation score n refresh sc := (unit_score h unit_of quantity (ff_lcia cf refq h name ent unit_of quantity n refresh) (fun sc j => traverse cf refq n h sc true j) refresh sc).
Notation run n := (ff_lcia cf refq h name ent unit_of quantity n).

(** the score of one entry *)
Definition level_ok (n : nat) : Prop := forall refresh sc l st, (depths l < n)%nat -> Forall (good refresh st) l -> NoDup (live l) ->
  exists st' r, run n refresh sc l st = (st', ROk r) /\ total r = impact l /\ grown st st' l.
Lemma score_ok n refresh sc x st : level_ok n -> (depth x <= n)%nat -> good refresh st x -> NoDup (live [x]) -> FragModel.is_null (ff_term x) = false -> ff_nw x <> 0 ->
  exists st' v, score n refresh sc x st = (st', ROk v) /\ grown st st' [x] /\
    (if eqb (t_dir (ff_term x)) (ff_dir x) then ff_nw x * - (1) else ff_nw x) * total v = impact [x].
Proof.
  intros LV DE [W G] ND NN NZ. apply everywhere_iff in W as [[W1 W2] W3]. apply everywhere_iff in G as [G1 G3]. rewrite impact_one. unfold unit_score.
  destruct (subfrag_of h x) as [[i j]|] eqn:SP.
  - assert (OI : own_impact x = 0) by (unfold FfLciaProofs.own_impact; rewrite SP, NN; reflexivity). rewrite OI.
    destruct (subfrag_ref x _ SP) as [RX _]. cbn in RX. destruct (t_desc (ff_term x)) eqn:DS.
    + assert (SE0 : ff_subs x = []). { destruct (ff_subs x) eqn:E; [reflexivity|]. destruct (W2 ltac:(discriminate)) as [[_ Z] _]. congruence. }
      rewrite SE0, impact_nil. assert (N0 : total (null_result quantity) = 0) by reflexivity.
      destruct (negb refresh && mem (i, term_id (ff_term x)) (l_nulls st)); eexists; eexists; (split; [reflexivity|]); (split; [|rewrite N0; destruct (eqb _ _); ring]).
      * intros a b J. left. exact J.
      * intros a b [J|J]; [right; injection J as <- <-; rewrite live_one, NN, RX; left; reflexivity|left; exact J].
    + assert (AG : aggregated h x) by (split; [rewrite SP; discriminate|exact DS]). destruct (G1 AG NZ) as (Q1 & Q2 & Q3).
      assert (C : negb refresh && mem (i, term_id (ff_term x)) (l_nulls st) = false).
      { destruct refresh; [reflexivity|]. cbn. destruct Q3 as [Q3|Q3]; [discriminate|]. destruct (mem _ _) eqn:M; [|reflexivity]. exfalso. apply (Q3 i RX). apply mem_In. exact M. }
      rewrite C. destruct (W2 Q1) as [_ M]. destruct (eqb_spec (ff_mag x) 0) as [Z|_]; [destruct (M NZ Z)|].
      destruct (eqb_spec (t_dir (ff_term x)) (ff_dir x)) as [Z|_]; [contradiction|].
      destruct (LV refresh ScNone (ff_subs x) st) as (st' & r & E & T & GR).
      * rewrite depth_eq in DE. lia.
      * rewrite Forall_forall in *. intros y J. split; auto.
      * rewrite live_one in ND. eapply nodup_app_r; exact ND.
      * assert (EX : match ff_subs x with [] => match traverse cf refq n h sc true j with FErr e => (st, RFrag e) | FOk l => run n refresh sc l st end | s => run n refresh ScNone s st end = (st', ROk r)).
        { destruct (ff_subs x) as [|y s]; [contradiction|]. exact E. }
        exists st', r. split; [exact EX|]. split.
        -- intros a b J. destruct (GR a b J) as [K|K]; [left; exact K|right]. rewrite live_one. apply in_app_iff. right. exact K.
        -- rewrite T. ring.
  - assert (SE0 : ff_subs x = []). { destruct (ff_subs x) eqn:E; [reflexivity|]. destruct (W2 ltac:(discriminate)) as [[Z _] _]. congruence. }
    eexists. eexists. split; [reflexivity|]. split; [intros a b J; left; exact J|]. rewrite SE0, impact_nil. unfold FfLciaProofs.own_impact. rewrite NN, SP.
    destruct (eqb (t_dir (ff_term x)) (ff_dir x)); ring.
Qed.
Lemma grown_app st st1 st2 l m : grown st st1 l -> grown st1 st2 m -> grown st st2 (l ++ m).
Proof. intros A B i k J. rewrite live_app, in_app_iff. destruct (B i k J) as [K|K]; [destruct (A i k K)|]; auto. Qed.
Lemma loop_ok n refresh sc : level_ok n -> forall l st res done, (depths l <= n)%nat -> Forall (good refresh st) l -> NoDup (live (done ++ l)) -> r_scale res = 1 ->
  (forall k, In k (dkeys (r_scores res)) -> exists i, k = name i /\ In (Real i) (live done)) ->
  exists st' r, lcia_loop name ent (score n refresh sc) l st res = (st', ROk r) /\ total r = total res + impact l /\ grown st st' l.
Proof.
  intros LV. induction l as [|x l IH]; intros st res done DE G ND SC KS; cbn [lcia_loop].
  - exists st, res. split; [reflexivity|]. rewrite impact_nil. split; [ring|]. intros i k J. left. exact J.
  - cbn [depths fold_right] in DE. fold (depths l) in DE. change (x :: l) with ([x] ++ l) in *. inversion G as [|? ? Gx Gl]; subst.
    assert (ND' : NoDup (live ((done ++ [x]) ++ l))) by (rewrite <- app_assoc; exact ND).
    assert (KD : forall k, In k (dkeys (r_scores res)) -> exists i, k = name i /\ In (Real i) (live (done ++ [x]))).
    { intros k J. destruct (KS k J) as (i & E & K). exists i. split; [exact E|]. rewrite live_app, in_app_iff. auto. }
    rewrite impact_app. rewrite !live_app in ND. pose proof (nodup_app_r _ _ ND) as NDx. pose proof (nodup_app_l _ _ NDx) as NDx1. pose proof (nodup_disj _ _ NDx) as DX.
    destruct (FragModel.is_null (ff_term x)) eqn:NN.
    { destruct (IH st res (done ++ [x]) ltac:(lia) Gl ND' SC KD) as (st' & r & E & T & GR). exists st', r. split; [exact E|]. split.
      - rewrite T, impact_one. destruct Gx as [W _]. apply everywhere_iff in W as [[_ W2] _]. destruct (ff_subs x) as [|y s] eqn:SU.
        + rewrite impact_nil. unfold FfLciaProofs.own_impact. rewrite NN. ring.
        + destruct (W2 ltac:(discriminate)) as [[A _] _]. destruct (subfrag_of h x) as [p|] eqn:SP; [|contradiction]. destruct (subfrag_ref x p SP). congruence.
      - apply (grown_app st st st' [x] l); [intros i k J; left; exact J|exact GR]. }
    destruct (eqb_spec (ff_nw x) 0) as [Z|NZ].
    { destruct (IH st res (done ++ [x]) ltac:(lia) Gl ND' SC KD) as (st' & r & E & T & GR). exists st', r. split; [exact E|]. split.
      - rewrite T, impact_one, own_zero, Z by exact Z. ring.
      - apply (grown_app st st st' [x] l); [intros i k J; left; exact J|exact GR]. }
    destruct (score_ok n refresh sc x st LV ltac:(lia) Gx NDx1 NN NZ) as (st1 & v & E & GR & T). rewrite E.
    assert (Gl1 : Forall (good refresh st1) l).
    { rewrite Forall_forall in Gl |- *. intros y J. eapply good_grown; [exact GR| |apply Gl; exact J]. intros i K K'. apply (DX i K). apply in_split in J as (s1 & s2 & ->).
      rewrite live_app. change (y :: s2) with ([y] ++ s2). rewrite live_app, !in_app_iff. auto. }
    destruct (LciaModel.is_null v) eqn:NV.
    { destruct (IH st1 res (done ++ [x]) ltac:(lia) Gl1 ND' SC KD) as (st' & r & E' & T' & GR'). exists st', r. split; [exact E'|]. split.
      - rewrite T', <- T, (null_total v NV). ring.
      - exact (grown_app st st1 st' [x] l GR GR'). }
    cbv zeta. set (w := if eqb (t_dir (ff_term x)) (ff_dir x) then ff_nw x * - (1) else ff_nw x) in *.
    destruct Gx as [W _]. apply everywhere_iff in W as [[W1 _] _]. destruct (W1 NN) as [i RX].
    assert (D : dget (ff_name name x) (r_scores res) = None).
    { apply dget_None. intros J. destruct (KS _ J) as (i' & E1 & K). unfold ff_name in E1. rewrite RX in E1. apply NI in E1. subst i'.
      apply (nodup_disj _ _ ND (Real i) K). apply in_app_iff. left. rewrite live_one, NN. left. exact RX. }
    destruct (add_new res (ff_name name x) (ent x) w v SC D) as (res' & -> & SC' & T1 & K1).
    destruct (IH st1 res' (done ++ [x]) ltac:(lia) Gl1 ND' SC') as (st' & r & E' & T' & GR').
    { intros k J. destruct (K1 k J) as [->|K]; [|auto]. unfold ff_name. rewrite RX. exists i. split; [reflexivity|]. rewrite live_app, live_one, NN, !in_app_iff. right. left. left. exact RX. }
    exists st', r. split; [exact E'|]. split; [rewrite T', T1, T; ring|exact (grown_app st st1 st' [x] l GR GR')].
Qed.
Lemma level_all n : level_ok n.
Proof.
  induction n as [|n IH]; intros refresh sc l st D G ND; [lia|]. cbn [ff_lcia].
  destruct (loop_ok n refresh sc IH l (LSt (l_nulls st) (S (l_next st))) (new_lres (l_next st) quantity None false 1) [] ltac:(lia)) as (st' & r & E & T & GR).
  - exact G.
  - exact ND.
  - reflexivity.
  - intros k [].
  - exists st', r. split; [exact E|]. split; [rewrite T; change (total (new_lres (l_next st) quantity None false 1)) with 0; ring|exact GR].
Qed.

(** ** Traversals *)
Notation wfs := (Forall (everywhere wf)).
Lemma wf_scale k x : everywhere wf x -> everywhere wf (fscale k x).
Proof.
  intros E. apply everywhere_iff in E as [[A B] C]. apply everywhere_iff. destruct x as [r f d m w t c s]. cbn in *. split; [|exact C]. split; [exact A|]. cbn. intros N. destruct (B N) as [D F]. split; [exact D|].
  intros Z Z'. assert (k <> 0) by (intros ->; apply Z; ring). assert (w <> 0) by (intros ->; apply Z; ring). apply Qcmult_integral in Z' as [Z'|Z']; [exact (F H0 Z')|contradiction].
Qed.
Lemma wfs_scale k l : wfs l -> wfs (map (fscale k) l).
Proof. induction 1; constructor; auto using wf_scale. Qed.
Lemma wf_leaf x : ff_subs x = [] -> (FragModel.is_null (ff_term x) = false -> exists i, ff_ref x = Real i) -> everywhere wf x.
Proof. intros E R. apply everywhere_iff. rewrite E. split; [|constructor]. split; [exact R|]. rewrite E. intros N. contradiction. Qed.
Lemma wfs_cutoffs p o : wfs (out_flows p o).
Proof. unfold out_flows. apply Forall_map, Forall_forall. intros e _. apply wf_leaf; [reflexivity|discriminate]. Qed.
Lemma wf_inv r n j inv int : (forall i nw s q b l cv, r i nw s q b = FOk (l, cv) -> wfs l) -> unit_inventory r n h j = FOk (inv, int) -> wfs inv /\ wfs int.
Proof.
  intros RP. unfold unit_inventory. destruct (top n h j) as [tp|]; [|discriminate]. destruct (r tp (Q2Qc 1) [] None None) as [[l cv]|] eqn:R; [|discriminate]. apply RP in R.
  destruct (h tp) as [tf|]; [|discriminate]. unfold group_ios. cbv zeta.
  assert (I : wfs (filter (fun x => negb (FragModel.is_null (ff_term x))) l)). { apply Forall_forall. intros x J. apply filter_In in J as [J _]. eapply Forall_forall in R; eauto. }
  assert (CU : forall f d m, everywhere wf (cutoff j f d m)) by (intros; apply wf_leaf; [reflexivity|discriminate]).
  destruct l as [|x0 l]; [discriminate|]. destruct (dget (f_flow tf) _) as [v|].
  - destruct (eqb (sign_dir v) (f_dir tf)); [|discriminate]. destruct (Qclt_le_dec _ _); intros E; injection E as <- <-; (split; [|exact I]); [apply wfs_cutoffs|constructor; [apply CU|apply wfs_cutoffs]].
  - intros E; injection E as <- <-. split; [constructor; [apply CU|apply wfs_cutoffs]|exact I].
Qed.
Lemma wfs_remove f l : wfs l -> wfs (remove_flow f l).
Proof. induction 1 as [|x l P Q IH]; cbn; [constructor|]. destruct (Nat.eqb (ff_flow x) f); [exact Q|constructor; [exact P|exact IH]]. Qed.
Lemma trav_wf sc obs : forall n i nw s q b l cv, trav cf refq n h sc obs i nw s q b = FOk (l, cv) -> wfs l.
Proof.
  induction n as [|n IH]; intros i nw s q b l cv E; [discriminate|]. cbn in E. unfold trav_node in E. destruct (h i) as [f|] eqn:HI; [|discriminate].
  destruct (_ && mem i s); [discriminate|]. cbv zeta in E. destruct (match b with Some b => FOk b | None => _ end) as [ev|]; [|discriminate].
  destruct (match_term f sc) as [m|]; [|discriminate]. destruct (dget m (f_terms f)) as [t|] eqn:DT; [|discriminate].
  destruct (if match f_parent f with None => true | Some _ => false end then _ else _) as [w|]; [|discriminate]. destruct (conservation cf h f ev q) as [[cv' kept]|]; [|discriminate].
  set (x := FF (Real i) (f_flow f) (f_dir f) (nw * ev) w t kept []) in E. assert (PX : wfs [x]) by (constructor; [apply wf_leaf; [reflexivity|exists i; reflexivity]|constructor]).
  set (seen' := if match f_parent f with None => true | Some _ => false end then i :: s else s) in E. clearbody seen'.
  destruct (FragModel.is_null t || f_bg f || eqb (nw * ev) (Q2Qc 0)) eqn:ZZ; [injection E as <- <-; exact PX|].
  assert (TF : forall l1, trav_fg cf (trav cf refq n h sc obs) h sc obs i f x seen' = FOk l1 -> wfs l1).
  { intros l1 F. unfold trav_fg in F. destruct (if is_fg i (ff_term x) then _ else _) as [s0|]; [|discriminate]. cbv zeta in F.
    assert (L : forall cs ffs st bb l2 s2 b2, wfs ffs -> fg_loop (trav cf refq n h sc obs) (ff_nw x) seen' (f_cons f) cs ffs st bb = FOk (l2, s2, b2) -> wfs l2).
    { induction cs as [|c cs IHc]; intros ffs st bb l2 s2 b2 P L; cbn [fg_loop] in L; [congruence|].
      destruct (trav cf refq n h sc obs c (ff_nw x) seen' (f_cons f) None) as [[l3 c3]|e] eqn:R; [eapply IHc; [|exact L]; apply Forall_app; split; [exact P|eapply IH; exact R]|].
      destruct e; try discriminate L. exact (IHc _ _ _ _ _ _ P L). }
    destruct (fg_loop _ _ _ _ _ _ _ _) as [[[ffs st] b1]|] eqn:FL; [|discriminate]. apply L in FL; [|exact PX]. destruct b1 as [b1|]; [|injection F as <-; exact FL].
    destruct (trav cf refq n h sc obs b1 _ _ None _) as [[l3 c3]|] eqn:R; [|discriminate]. injection F as <-. apply Forall_app. split; [exact FL|eapply IH; exact R]. }
  destruct (t_node t) as [|p|j] eqn:TN; [injection E as <- <-; exact PX| |].
  { destruct (trav_fg _ _ _ _ _ _ _ _ _) as [l1|]; [|discriminate]. injection E as <- <-. apply TF; reflexivity. }
  destruct (Nat.eqb_spec j i) as [JI|JI]. { destruct (trav_fg _ _ _ _ _ _ _ _ _) as [l1|]; [|discriminate]. injection E as <- <-. apply TF; reflexivity. }
  destruct (trav_sub _ _ _ _ _ _ _ _) as [l1|] eqn:TS; [|discriminate]. injection E as <- <-. unfold trav_sub in TS. destruct (h j) as [g|] eqn:HJ; [|discriminate]. destruct (f_bg g) eqn:BG.
  { destruct (trav cf refq n h sc obs j (ff_nw x) [] None None) as [[l2 c2]|] eqn:R; [|discriminate]. pose proof (IH _ _ _ _ _ _ _ R) as R'. destruct l2 as [|[r2 f2 d2 m2 w2 t2 k2 s2] [|? ?]]; try discriminate TS. injection TS as <-.
    constructor; [|constructor]. apply wf_leaf; [|intros _; exists i; reflexivity]. cbn. destruct n as [|n]; [discriminate|]. cbn in R. unfold trav_node in R. rewrite HJ in R. destruct (_ && mem j []); [discriminate|]. cbv zeta in R.
    destruct (match_ev g sc); [|discriminate]. destruct (match_term g sc) as [m'|]; [|discriminate]. destruct (dget m' (f_terms g)) as [t'|]; [|discriminate].
    destruct (if match f_parent g with None => true | Some _ => false end then _ else _); [|discriminate]. destruct (conservation cf h g _ None) as [[c' k']|]; [|discriminate].
    rewrite BG, orb_true_r in R. cbn [orb] in R. injection R as <- <- <- <- <- <- <- <- <-. reflexivity. }
  destruct (do_subfrag _ _ _ _ _ _) as [[[ffs inv] dn]|] eqn:DS; [|discriminate]. unfold do_subfrag in DS.
  destruct (unit_inventory _ _ _ _) as [[inv0 int]|] eqn:U; [|discriminate]. destruct (wf_inv _ _ _ _ _ IH U) as [PI PT].
  destruct (find_flow _ inv0) as [y|]; [|discriminate]. cbv zeta in DS. destruct (eqb (ff_mag y) (Q2Qc 0)); [discriminate|].
  apply orb_false_iff in ZZ as [ZZ Z3]. apply orb_false_iff in ZZ as [Z1 Z2].
  assert (SF : subfrag_of h x <> None).
  { unfold subfrag_of. cbn. rewrite TN. assert (I1 : is_subfrag h i t = true). { unfold is_subfrag. rewrite TN, HI, HJ, Z2, BG. destruct (Nat.eqb_spec j i); [contradiction|reflexivity]. }
    assert (I2 : owns h i t = true). { unfold owns. rewrite HI. apply existsb_exists. exists (m, t). split; [apply dget_In; exact DT|]. cbn. apply eqb_refl. }
    rewrite I1, I2. discriminate. }
  assert (PF : wfs ffs /\ wfs inv).
  { destruct (t_desc (ff_term x)) eqn:DD; injection DS as <- <- <-; (split; [|apply wfs_remove; exact PI]).
    - constructor; [inversion PX; assumption|apply wfs_scale; exact PT].
    - constructor; [|constructor]. apply everywhere_iff. split; [|exact PT]. split; [exists i; reflexivity|]. intros _. split; [split; [exact SF|exact DD]|].
      intros _. cbn. destruct (eqb_spec (nw * ev) (Q2Qc 0)); [discriminate|assumption]. }
  clear DS. assert (L : forall cs ffs inv l2 inv2, wfs ffs -> wfs inv -> sub_loop (trav cf refq n h sc obs) h dn seen' cs ffs inv = FOk (l2, inv2) -> wfs l2 /\ wfs inv2).
  { induction cs as [|c cs IHc]; intros ffs' iv l2 inv2 P Q L; cbn [sub_loop] in L; [injection L as <- <-; auto|]. destruct (h c) as [gc|]; [|discriminate]. destruct (find_flow (f_flow gc) iv) as [z|]; [|exact (IHc _ _ _ _ P Q L)].
    destruct (trav cf refq n h sc obs c _ seen' None _) as [[l3 c3]|] eqn:R; [|discriminate]. eapply IHc; [| |exact L]; [apply Forall_app; split; [exact P|eapply IH; exact R]|apply wfs_remove; exact Q]. }
  destruct (sub_loop _ _ _ _ _ _ _) as [[l2 inv2]|] eqn:SL; [|discriminate]. injection TS as <-. apply L in SL; try apply PF.
  apply Forall_app. split; [apply SL|apply wfs_scale, SL].
Qed.
Lemma traverse_wf n sc obs i l : traverse cf refq n h sc obs i = FOk l -> wfs l.
Proof. unfold traverse. destruct (trav _ _ _ _ _ _ _ _ _ _ _) as [[l' cv]|] eqn:T; [|discriminate]. intros [= ->]. eapply trav_wf; exact T. Qed.
End P.

(** C99: the LCIA score of a fragment is the sum of what its nodes contribute, and does not depend on the [descend] settings. *)
From Verif Require Import Num Base PyStr LciaModel ProcModel FragModel FragProofs FragProps4 DescendProofs FfLciaModel FfLciaProofs.
Open Scope Qc_scope.
Open Scope string_scope.
Open Scope list_scope.
Local Arguments eqb : simpl never.

(** [fragment_lcia] returns a result whose total is the impact of the traversal with everything in place, for every fragment of every model whose
    traversal lists no fragment twice and whose aggregated nodes are scorable. *)
Theorem C99_fragment_lcia_partial cf refq h name ent unit_of quantity fuel sc i l refresh st :
  (forall a b, name a = name b -> a = b) -> traverse cf refq fuel h sc true i = FOk l ->
  listed_once l -> Forall (everywhere (scorable h refresh st)) l ->
  exists N, forall n, (N <= n)%nat -> exists st' r,
    fragment_lcia cf refq h name ent unit_of quantity n refresh sc i st = (st', ROk r) /\ total r = impact h unit_of l.
Proof.
  intros NI T LO SC. pose proof (traverse_wf cf refq h fuel sc true i l T) as W. exists (Nat.max fuel (S (depths l))). intros n LE.
  assert (T' : traverse cf refq n h sc true i = FOk l).
  { unfold traverse in *. pose proof (trav_mono_le cf refq fuel n h (as_set sc) true ltac:(lia) i (Q2Qc 1) [] None None) as M.
    destruct (trav cf refq fuel h (as_set sc) true i (Q2Qc 1) [] None None) as [[l' cv]|e]; [|discriminate]. rewrite M by discriminate. exact T. }
  unfold fragment_lcia. rewrite T'.
  destruct (level_all cf refq h name ent unit_of quantity NI n refresh sc l st) as (st' & r & E & TT & _); [lia| |exact LO|].
  - rewrite Forall_forall in *. intros x J. split; auto.
  - exists st', r. auto.
Qed.
Print Assumptions C99_fragment_lcia_partial.

(** So the [descend] settings do not matter. *)
Lemma subfrag_same h1 h2 x y : same_but_descend h1 h2 -> ff_ref y = ff_ref x -> same_term (ff_term x) (ff_term y) -> subfrag_of h2 y = subfrag_of h1 x.
Proof.
  intros S R (TN & TF & TD). unfold subfrag_of. rewrite R, TN. destruct (ff_ref x) as [i|]; [|reflexivity]. destruct (t_node (ff_term x)) as [|p|j] eqn:TT; try reflexivity.
  assert (A : is_subfrag h2 i (ff_term y) = is_subfrag h1 i (ff_term x)).
  { unfold is_subfrag. rewrite TN, TT. pose proof (S i) as Si. pose proof (S j) as Sj. destruct (h1 i) as [f|], (h2 i) as [g|]; try contradiction; [|reflexivity].
    destruct Si as (_ & _ & _ & _ & -> & _). destruct (h1 j) as [f'|], (h2 j) as [g'|]; try contradiction; [|reflexivity]. destruct Sj as (_ & _ & _ & _ & -> & _). reflexivity. }
  assert (B : owns h2 i (ff_term y) = owns h1 i (ff_term x)).
  { unfold owns. pose proof (S i) as Si. destruct (h1 i) as [f|], (h2 i) as [g|]; try contradiction; [|reflexivity]. destruct Si as (_ & _ & _ & _ & _ & _ & _ & _ & F).
    assert (E : term_id (ff_term y) = term_id (ff_term x)) by (unfold term_id; rewrite TN, TF, TD, TT; reflexivity). rewrite E. clear - F.
    induction F as [|a b ts us [_ (N1 & N2 & N3)] _ IH]; [reflexivity|]. cbn [existsb]. rewrite IH. f_equal. unfold term_id at 1 3. rewrite N1, N2, N3. reflexivity. }
  rewrite A, B. reflexivity.
Qed.
Lemma ends_subfrag h x : ends_in_subfragment h x -> subfrag_of h x <> None.
Proof.
  intros (i & f & k & j & g & R & HI & BF & IK & TN & N & HJ & BG). unfold subfrag_of. rewrite R, TN. assert (A : is_subfrag h i (ff_term x) = true).
  { unfold is_subfrag. rewrite TN, HI, HJ, BF, BG. destruct (Nat.eqb_spec j i); [contradiction|reflexivity]. }
  assert (B : owns h i (ff_term x) = true) by (unfold owns; rewrite HI; apply existsb_exists; exists (k, ff_term x); split; [exact IK|apply eqb_refl]).
  rewrite A, B. discriminate.
Qed.
Lemma impact_same h1 h2 unit_of l1 l2 : same_but_descend h1 h2 -> Forall2 (same_entry h1) (opened_all l1) (opened_all l2) -> impact h2 unit_of l2 = impact h1 unit_of l1.
Proof.
  intros S F. unfold impact. f_equal. induction F as [|x y l m E _ IH]; [reflexivity|]. cbn [map]. rewrite IH. f_equal. pose proof E as (R & _ & D & _ & _ & T & W).
  unfold own_impact. rewrite (subfrag_same h1 h2 x y S R T), (null_same _ _ T). destruct (FragModel.is_null (ff_term x)); [reflexivity|].
  destruct W as [W|[_ ES]]; [|apply ends_subfrag in ES; destruct (subfrag_of h1 x); [reflexivity|contradiction]]. destruct (subfrag_of h1 x); [reflexivity|].
  destruct T as (TN & TF & TD). unfold term_id. rewrite TN, TF, TD, D, W, R. reflexivity.
Qed.
Lemma once_same h1 l1 l2 : Forall2 (same_entry h1) (opened_all l1) (opened_all l2) -> listed_once l1 -> listed_once l2.
Proof.
  intros F. unfold listed_once. assert (E : map ff_ref (filter (fun x => negb (FragModel.is_null (ff_term x))) (opened_all l2)) = map ff_ref (filter (fun x => negb (FragModel.is_null (ff_term x))) (opened_all l1))).
  { induction F as [|x y l m (R & _ & _ & _ & _ & T & _) _ IH]; [reflexivity|]. cbn [filter]. rewrite (null_same _ _ T). destruct (FragModel.is_null (ff_term x)); cbn [negb map]; congruence. }
  rewrite E. auto.
Qed.
Theorem C99_descend_partial cf refq h1 h2 name ent unit_of quantity fuel sc i l1 l2 refresh st :
  same_but_descend h1 h2 -> (forall a b, name a = name b -> a = b) -> traverse cf refq fuel h1 sc true i = FOk l1 -> traverse cf refq fuel h2 sc true i = FOk l2 ->
  listed_once l1 -> Forall (everywhere (scorable h1 refresh st)) l1 -> Forall (everywhere (scorable h2 refresh st)) l2 ->
  exists N, forall n, (N <= n)%nat -> exists st1 r1 st2 r2,
    fragment_lcia cf refq h1 name ent unit_of quantity n refresh sc i st = (st1, ROk r1) /\
    fragment_lcia cf refq h2 name ent unit_of quantity n refresh sc i st = (st2, ROk r2) /\ total r2 = total r1.
Proof.
  intros S NI T1 T2 LO S1 S2. pose proof (traverse_same cf refq h1 h2 S fuel sc true i) as R. rewrite T1, T2 in R. cbn in R. destruct R as (R & _).
  destruct (C99_fragment_lcia_partial cf refq h1 name ent unit_of quantity fuel sc i l1 refresh st NI T1 LO S1) as [N1 P1].
  destruct (C99_fragment_lcia_partial cf refq h2 name ent unit_of quantity fuel sc i l2 refresh st NI T2 (once_same h1 l1 l2 R LO) S2) as [N2 P2].
  exists (Nat.max N1 N2). intros n LE. destruct (P1 n ltac:(lia)) as (st1 & r1 & E1 & I1). destruct (P2 n ltac:(lia)) as (st2 & r2 & E2 & I2).
  exists st1, r1, st2, r2. split; [exact E1|]. split; [exact E2|]. rewrite I1, I2. apply impact_same; assumption.
Qed.
Print Assumptions C99_descend_partial.

(** * Cases *)
(** observed values; process 9 scores 3 per unit, process 8 scores 2 *)
Definition evs (v : Z) : dict skey (option Qc) := [(K0, Some (Q2Qc (inject_Z v))); (K1, Some (Q2Qc (inject_Z v)))].
Definition scored (id : nat) (v : Z) : lres := LRes id 1 false "q" None [("p", Summ Own (EStr "p") 1 (Static (Q2Qc (inject_Z v))))] [].
Definition unit99 (r : fref) (t : tnode * nat * dirn) : lres := match fst (fst t) with NProc 9 => scored 109 3 | NProc 8 => scored 108 2 | _ => new_lres 0 "q" None false 1 end.
Fixpoint name99 (n : nat) : string := match n with O => "f" | S n => String "."%char (name99 n) end.
Definition ent99 (x : ffl) : entity := EObj (match ff_ref x with Real i => i | Ghost _ => 0 end + 100 * Z.to_nat (Qnum (this (ff_mag x))))%nat.
Definition one99 (f q : nat) : Qc := 1.
Definition zer99 (f : nat) : nat := 0%nat.
Definition st0 : lstate := LSt [] 1000.
Definition lcia99 h sc i st := fragment_lcia one99 zer99 h name99 ent99 unit99 "q" 9 false sc i st.
Definition score99 (o : lstate * lout) : option Q := match snd o with ROk r => Some (this (total r)) | _ => None end.
Definition impact99 h sc i : option Q := match traverse one99 zer99 9 h sc true i with FOk l => Some (this (impact h unit99 l)) | _ => None end.

(** The model of C98's example: 6 units of fragment 4, which makes 2 from 5 units of process 9 and 7 of a flow that process 8 supplies. *)
Definition h99 (d : bool) (dir : dirn) : heap := fun i => match i with
  | 1%nat => Some (Fr None [2%nat] 10 Output false false None (evs 1) [(None, Tm (NFrag 1) 10 Input true)])
  | 2%nat => Some (Fr (Some 1%nat) [3%nat] 11 Input false false None (evs 6) [(None, Tm (NFrag 4) 11 dir d)])
  | 3%nat => Some (Fr (Some 2%nat) [] 13 Input false false None (evs 1) [(None, Tm (NProc 8) 13 Output true)])
  | 4%nat => Some (Fr None [5%nat; 6%nat] 11 Input false false None (evs 2) [(None, Tm (NFrag 4) 11 Output true)])
  | 5%nat => Some (Fr (Some 4%nat) [] 12 Input false false None (evs 5) [(None, Tm (NProc 9) 12 Output true)])
  | 6%nat => Some (Fr (Some 4%nat) [] 13 Input false false None (evs 7) [(None, null_term 13 Input)])
  | _ => None end.
Lemma name99_inj a : forall b, name99 a = name99 b -> a = b.
Proof. induction a as [|a IH]; intros [|b]; cbn; intros E; try discriminate; [reflexivity|]. injection E as E. f_equal. apply IH, E. Qed.
Example C99_example : same_but_descend (h99 true Output) (h99 false Output) /\ (exists l, traverse one99 zer99 9 (h99 false Output) ScNone true 1 = FOk l /\ listed_once l /\
    Forall (everywhere (scorable (h99 false Output) false st0)) l) /\
  score99 (lcia99 (h99 true Output) ScNone 1 st0) = Some (87%Q) /\ score99 (lcia99 (h99 false Output) ScNone 1 st0) = Some (87%Q).
Proof.
  split.
  { intros i. do 7 (destruct i as [|i]; [cbn; try exact I; unfold same_frag, same_term; cbn; repeat (split; [reflexivity|]); repeat constructor|]). exact I. }
  split; [|split; vm_compute; reflexivity]. eexists. split; [vm_compute; reflexivity|]. split.
  - unfold listed_once. cbn. repeat constructor; cbn; intuition discriminate.
  - repeat (apply Forall_cons || apply Forall_nil); cbn [everywhere ff_subs]; repeat (apply conj || exact I);
      (intros [A B] N; try (cbn in A; congruence); try (cbn in B; discriminate B)).
    split; [discriminate|]. split; [discriminate|]. right. intros i _ [].
Qed.

(** What the conditions exclude. *)
(** A fragment used twice in different amounts: descended into, the second use is lost; aggregated, it is counted. *)
Definition h99b (d : bool) : heap := fun i => match i with
  | 1%nat => Some (Fr None [2%nat; 3%nat] 10 Output false false None (evs 1) [(None, Tm (NFrag 1) 10 Input true)])
  | 2%nat => Some (Fr (Some 1%nat) [] 11 Input false false None (evs 6) [(None, Tm (NFrag 4) 11 Output d)])
  | 3%nat => Some (Fr (Some 1%nat) [] 11 Input false false None (evs 1) [(None, Tm (NFrag 4) 11 Output d)])
  | 4%nat => Some (Fr None [5%nat] 11 Input false false None (evs 1) [(None, Tm (NFrag 4) 11 Output true)])
  | 5%nat => Some (Fr (Some 4%nat) [] 12 Input false false None (evs 5) [(None, Tm (NProc 9) 12 Output true)])
  | _ => None end.
Theorem C99_used_twice_refuted : impact99 (h99b true) ScNone 1 = Some 105%Q /\ impact99 (h99b false) ScNone 1 = Some 105%Q /\
  score99 (lcia99 (h99b true) ScNone 1 st0) = Some 90%Q /\ score99 (lcia99 (h99b false) ScNone 1 st0) = Some 105%Q.
Proof. repeat split; vm_compute; reflexivity. Qed.
(** A null score is cached while the termination is descended into; once it is aggregated, the subfragment's score is missing. *)
Theorem C99_cached_null_refuted : exists st, lcia99 (h99 true Output) ScNone 1 st0 = (st, snd (lcia99 (h99 true Output) ScNone 1 st0)) /\
  score99 (lcia99 (h99 true Output) ScNone 1 st) = Some 87%Q /\ score99 (lcia99 (h99 false Output) ScNone 1 st) = Some 42%Q /\ impact99 (h99 false Output) ScNone 1 = Some 87%Q.
Proof. eexists. split; [vm_compute; reflexivity|]. repeat split; vm_compute; reflexivity. Qed.
(** A termination with the fragment's own direction: the aggregated score is negated, the descended one is not. *)
Theorem C99_direction_refuted : score99 (lcia99 (h99 true Input) ScNone 1 st0) = Some 87%Q /\ score99 (lcia99 (h99 false Input) ScNone 1 st0) = Some (-3)%Q /\
  impact99 (h99 false Input) ScNone 1 = Some 87%Q.
Proof. repeat split; vm_compute; reflexivity. Qed.
(** Scenario "s" cuts off fragment 6.  Reached through an aggregated fragment, it is scored as without the scenario. *)
Definition h99s (d : bool) : heap := fun i => match i with
  | 1%nat => Some (Fr None [2%nat] 10 Output false false None (evs 1) [(None, Tm (NFrag 1) 10 Input true)])
  | 2%nat => Some (Fr (Some 1%nat) [] 11 Input false false None (evs 1) [(None, Tm (NFrag 4) 11 Output d)])
  | 4%nat => Some (Fr None [5%nat] 11 Input false false None (evs 1) [(None, Tm (NFrag 4) 11 Output true)])
  | 5%nat => Some (Fr (Some 4%nat) [] 12 Input false false None (evs 1) [(None, Tm (NFrag 6) 12 Output d)])
  | 6%nat => Some (Fr None [] 12 Input false false None (evs 1) [(None, Tm (NProc 9) 12 Output true); (Some (KS "s"), null_term 12 Input)])
  | _ => None end.
Theorem C99_scenario_lost_refuted : score99 (lcia99 (h99s true) (ScKey (KS "s")) 1 st0) = Some 0%Q /\ impact99 (h99s false) (ScKey (KS "s")) 1 = Some 0%Q /\
  score99 (lcia99 (h99s false) (ScKey (KS "s")) 1 st0) = Some 3%Q.
Proof. repeat split; vm_compute; reflexivity. Qed.
Print Assumptions C99_used_twice_refuted.
Print Assumptions C99_cached_null_refuted.
Print Assumptions C99_direction_refuted.
Print Assumptions C99_scenario_lost_refuted.

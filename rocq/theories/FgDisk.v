(** Saving and loading a foreground's fragments through the files of its directory (model: FgModel.v), also when saving stops half way. *)
From Verif Require Import Num Base PyStr ProcModel FragModel EditModel ObserveProps FgModel FgTrav FgDict FgProofs FgTree.
From Coq Require Import Permutation Lia.
Open Scope nat_scope.
Open Scope string_scope.
Open Scope list_scope.
Local Arguments eqb : simpl never.

Lemma fmap_spec {A B} (k : A -> fret B) l : forall m, fmap k l = FOk m -> Forall2 (fun y x => k x = FOk y) m l.
Proof. induction l as [|x l IH]; cbn; intros m E; [injection E as <-; constructor|]. destruct (k x) as [y|] eqn:K; [|discriminate]. destruct (fmap k l) as [r|]; [|discriminate]. injection E as <-. constructor; [exact K|]. apply IH. reflexivity. Qed.

(** the fragments of a foreground that can be saved: [refs] are those without a parent, and every fragment is in the tree of one *)
Record foreground_ok (refq sh : nat -> nat) (st : fgs) (refs : list nat) : Prop := FGO {
  fg_ok : forall u f, g_heap st u = Some f -> exists m, g_meta st u = Some m /\ storable refq st u f m;
  fg_names : forall u v fu fv mu mv s, g_heap st u = Some fu -> g_heap st v = Some fv -> g_meta st u = Some mu -> g_meta st v = Some mv -> m_name mu = Some s -> m_name mv = Some s -> u = v;
  fg_shadow : forall u v fv, g_heap st v = Some fv -> sh u <> v;
  fg_nodup : NoDup refs; fg_refs : forall r, In r refs <-> exists f, g_heap st r = Some f /\ f_parent f = None;
  fg_trees : forall u f, g_heap st u = Some f -> exists r, In r refs /\ in_tree (g_heap st) r u }.

Definition file_of (st : fgs) (r : nat) (c : option (list jfrag)) : Prop := exists n js, c = Some js /\ tree_file n st r = FOk js.

Section One.
Context (refq sh : nat -> nat) (st : fgs) (refs : list nat) (OK : foreground_ok refq sh st refs).
Lemma kids_ok u f c : g_heap st u = Some f -> (In c (f_children f) <-> exists g, g_heap st c = Some g /\ f_parent g = Some u).
Proof. intros HU. destruct (fg_ok _ _ _ _ OK u f HU) as (m & _ & O). apply (fo_kids _ _ _ _ _ O). Qed.
Lemma par_ok u f p : g_heap st u = Some f -> f_parent f = Some p -> g_heap st p <> None.
Proof. intros HU. destruct (fg_ok _ _ _ _ OK u f HU) as (m & _ & O). apply (fo_par _ _ _ _ _ O). Qed.
Lemma ndc_ok u f : g_heap st u = Some f -> NoDup (f_children f).
Proof. intros HU. destruct (fg_ok _ _ _ _ OK u f HU) as (m & _ & O). apply (fo_ndc _ _ _ _ _ O). Qed.
Lemma read_ok fs : Forall (fun e => file_of st (fst e) (snd e)) fs -> exists js ls, read_files fs = FOk js /\ Forall2 (fun r l => exists n, recurse n (g_heap st) r = FOk l) (map fst fs) ls /\ entries st js (concat ls).
Proof.
  induction fs as [|[r c] fs IH]; intros F; inversion F as [|? ? (n & js & C & T) F']; [exists [], []; repeat constructor|]. cbn in C. subst. destruct (IH F') as (js' & ls & R & G & E). unfold tree_file in T. cbn in T. destruct (recurse n (g_heap st) r) as [l|] eqn:RC; [|discriminate].
  exists (js ++ js'), (l :: ls). cbn. rewrite R. split; [reflexivity|]. split; [constructor; [exists n; exact RC|exact G]|]. apply Forall2_app; [|exact E]. apply fmap_spec, T.
Qed.
Lemma load_ok fs : NoDup (map fst fs) -> (forall r, In r (map fst fs) <-> In r refs) -> Forall (fun e => file_of st (fst e) (snd e)) fs -> exists s, load_fragments refq sh fs = (s, FOk tt) /\ same_state st s.
Proof.
  intros ND RF F. destruct (read_ok fs F) as (js & ls & R & G & E). unfold load_fragments. rewrite R.
  destruct (trees_ok (g_heap st) kids_ok par_ok ndc_ok (map fst fs) ls ND) as (N & B & I); [intros r J; apply (fg_refs _ _ _ _ OK), RF, J|exact G|].
  apply (do_load_ok refq sh st (fg_ok _ _ _ _ OK) (fg_names _ _ _ _ OK) (fg_shadow _ _ _ _ OK) js (concat ls) E N).
  - intros A u B' f p EQ HU FP. exact (B [] A u B' f p EQ HU FP).
  - intros u. rewrite I. split.
    + intros (r & J & T). apply RF, (fg_refs _ _ _ _ OK) in J as (f & HR & _). inversion T as [|? f' c ? HR' J' T']; subst; [congruence|]. apply (tree_anc _ kids_ok par_ok) in T. inversion T as [|? g p ? HU _ _]; subst; congruence.
    + intros HU. destruct (g_heap st u) as [f|] eqn:X; [|contradiction]. destruct (fg_trees _ _ _ _ OK u f X) as (r & J & T). exists r. split; [apply RF, J|exact T].
Qed.
End One.

(** * Saving over the files of another state *)
Section Two.
Context (st0 st1 : fgs) (refs0 refs1 : list nat).
(** the files of [D] are those of the new state, the others those of the old *)
Definition stage (D : list nat) (x : disk) : Prop := NoDup (dkeys x) /\ forall r, match dget r x with
  | Some c => if mem r D then In r refs1 /\ file_of st1 r c else In r refs0 /\ file_of st0 r c
  | None => if mem r D then ~ In r refs1 else ~ In r refs0 end.
Definition unfinished (x : disk) : Prop := exists r, dget r x = Some None.
Lemma stage_write n r js D x : stage D x -> In r refs1 -> tree_file n st1 r = FOk js -> stage (r :: D) (dset r (Some js) x).
Proof.
  intros [N I] J T. split; [apply NoDup_dset, N|]. intros r'. rewrite dget_dset. cbn [mem]. destruct (eqb_spec r' r) as [->|NE]; cbn; [split; [exact J|]; exists n, js; auto|]. exact (I r').
Qed.
Lemma stage_remove r D x : stage D x -> ~ In r refs1 -> stage (r :: D) (ddel r x).
Proof. intros [N I] J. split; [apply NoDup_ddel, N|]. intros r'. rewrite dget_ddel. cbn [mem]. destruct (eqb_spec r' r) as [->|NE]; cbn; [exact J|]. exact (I r'). Qed.
Lemma write_stages n refs : forall D x tr x' o, stage D x -> (forall r, In r refs -> In r refs1) -> write_trees n st1 refs x = (tr, x', o) ->
  (forall y, In y tr -> unfinished y \/ exists D', stage D' y) /\ (exists D', stage D' x' /\ (o = FOk tt -> forall r, In r D' <-> In r D \/ In r refs)).
Proof.
  induction refs as [|r refs IH]; cbn; intros D x tr x' o I S1 E.
  - injection E as <- <- <-. split; [intros y []|]. exists D. split; [exact I|]. intros _ r. tauto.
  - destruct (tree_file n st1 r) as [js|e] eqn:T; [|injection E as <- <- <-; split; [intros y []|exists D; split; [exact I|discriminate]]]. destruct (write_trees n st1 refs (dset r (Some js) x)) as [[tr' x2] o'] eqn:W. injection E as <- <- <-.
    assert (I1 := stage_write n r js D x I (S1 r (or_introl eq_refl)) T). destruct (IH (r :: D) _ tr' x2 o' I1 (fun r' J => S1 r' (or_intror J)) W) as (A & D' & B & C). split.
    + intros y [<-|[<-|J]]; [left; exists r; apply dget_dset_same|right; exists (r :: D); exact I1|exact (A y J)].
    + exists D'. split; [exact B|]. intros X r'. rewrite (C X r'). cbn. intuition congruence.
Qed.
Lemma remove_stages l : forall D x tr x', stage D x -> (forall r, In r l -> ~ In r refs1) -> remove_files l x = (tr, x') ->
  (forall y, In y tr -> exists D', stage D' y) /\ exists D', stage D' x' /\ forall r, In r D' <-> In r D \/ In r l.
Proof.
  induction l as [|r l IH]; cbn; intros D x tr x' I S1 E.
  - injection E as <- <-. split; [intros y []|]. exists D. split; [exact I|]. intros r. tauto.
  - destruct (remove_files l (ddel r x)) as [tr' x2] eqn:W. injection E as <- <-. assert (I1 := stage_remove r D x I (S1 r (or_introl eq_refl))). destruct (IH (r :: D) _ tr' x2 I1 (fun r' J => S1 r' (or_intror J)) W) as (A & D' & B & C). split.
    + intros y [<-|J]; [exists (r :: D); exact I1|exact (A y J)].
    + exists D'. split; [exact B|]. intros r'. rewrite (C r'). cbn. intuition congruence.
Qed.
Lemma save_stages n x tr x' o : stage [] x -> save_fragments n st1 refs1 x = (tr, x', o) ->
  (forall y, In y tr \/ y = x' -> unfinished y \/ exists D, stage D y) /\ (o = FOk tt -> exists D, stage D x' /\ forall r, In r refs0 \/ In r refs1 -> In r D).
Proof.
  intros I E. unfold save_fragments in E. destruct (write_trees n st1 refs1 x) as [[tr1 x1] o1] eqn:W. destruct (write_stages n refs1 [] x tr1 x1 o1 I (fun r J => J) W) as (A & D1 & I1 & C1).
  destruct o1 as [[]|e]; [|injection E as <- <- <-; split; [|discriminate]; intros y [J| ->]; [exact (A y J)|right; eauto]]. destruct (remove_files _ x1) as [tr2 x2] eqn:R. injection E as <- <- <-.
  assert (NR : forall r, In r (filter (fun u => negb (mem u refs1)) (dkeys x)) -> ~ In r refs1) by (intros r J; apply filter_In in J as [_ J]; apply negb_true_iff, mem_nIn in J; exact J).
  destruct (remove_stages _ D1 x1 tr2 x2 I1 NR R) as (B & D2 & I2 & C2).
  split.
  - intros y [J| ->]; [apply in_app_iff in J as [J|J]; [exact (A y J)|right; exact (B y J)]|right; eauto].
  - intros _. exists D2. split; [exact I2|]. intros r J. apply C2. rewrite (C1 eq_refl). destruct (mem_spec r refs1) as [K|K]; [tauto|]. destruct J as [J|J]; [|contradiction]. right. apply filter_In. split.
    + destruct I as [_ I]. specialize (I r). destruct (dget r x) as [c|] eqn:G; [exact (dget_Some_key _ _ _ G)|contradiction].
    + apply negb_true_iff, mem_nIn, K.
Qed.
End Two.
(** whatever files were there, a completed save leaves exactly those of the state *)
Lemma save_files n st refs x tr x' : NoDup (dkeys x) -> save_fragments n st refs x = (tr, x', FOk tt) ->
  NoDup (dkeys x') /\ (forall r, In r (dkeys x') <-> In r refs) /\ forall r c, dget r x' = Some c -> file_of st r c.
Proof.
  intros N E. unfold save_fragments in E. destruct (write_trees n st refs x) as [[tr1 x1] o1] eqn:W. destruct o1 as [[]|e]; [|discriminate]. destruct (remove_files _ x1) as [tr2 x2] eqn:R. injection E as <- <-.
  assert (A : forall rs y tr y', NoDup (dkeys y) -> write_trees n st rs y = (tr, y', FOk tt) -> NoDup (dkeys y') /\ (forall r, In r rs -> exists c, dget r y' = Some c /\ file_of st r c) /\ forall r, ~ In r rs -> dget r y' = dget r y).
  { induction rs as [|r rs IH]; cbn; intros y t y' NY E; [injection E as <- <-; split; [exact NY|split; [intros r []|reflexivity]]|]. destruct (tree_file n st r) as [js|] eqn:T; [|discriminate]. destruct (write_trees n st rs _) as [[t' y2] o'] eqn:E'. injection E as <- <- ->.
    destruct (IH _ _ _ (NoDup_dset r (Some js) y NY) E') as (P & Q & O). split; [exact P|]. split.
    - intros r' J. destruct (mem_spec r' rs) as [K|K]; [exact (Q r' K)|]. destruct J as [<-|J]; [|contradiction]. rewrite (O r K), dget_dset_same. exists (Some js). split; [reflexivity|]. exists n, js. auto.
    - intros r' K. rewrite O by tauto. apply dget_dset_other. intros ->. apply K. left. reflexivity. }
  destruct (A refs x tr1 x1 N W) as (P & Q & O).
  assert (B : forall l y tr y', NoDup (dkeys y) -> remove_files l y = (tr, y') -> NoDup (dkeys y') /\ forall r, dget r y' = if mem r l then None else dget r y).
  { induction l as [|r l IH]; cbn; intros y t y' NY E; [injection E as <- <-; split; [exact NY|reflexivity]|]. destruct (remove_files l (ddel r y)) as [t' y2] eqn:E'. injection E as <- <-. destruct (IH _ _ _ (NoDup_ddel r y NY) E') as (P' & Q'). split; [exact P'|].
    intros r'. rewrite Q', dget_ddel. destruct (eqb_spec r' r) as [->|NE]; destruct (mem _ l); reflexivity. }
  destruct (B _ x1 tr2 x2 P R) as (P2 & Q2). split; [exact P2|].
  assert (X : forall r, (In r refs -> dget r x2 = dget r x1) /\ (~ In r refs -> dget r x2 = None)).
  { intros r. rewrite Q2. split; intros J.
    - destruct (mem_spec r (filter (fun u => negb (mem u refs)) (dkeys x))) as [K|K]; [|reflexivity]. apply filter_In in K as [_ K]. apply negb_true_iff, mem_nIn in K. contradiction.
    - destruct (mem_spec r (filter (fun u => negb (mem u refs)) (dkeys x))) as [K|K]; [reflexivity|]. rewrite (O r J). apply dget_None. intros L. apply K, filter_In. split; [exact L|]. apply negb_true_iff, mem_nIn, J. }
  split.
  - intros r. destruct (mem_spec r refs) as [J|J].
    + destruct (Q r J) as (c & G & _). rewrite <- (proj1 (X r) J) in G. split; [auto|]. intros _. exact (dget_Some_key _ _ _ G).
    + split; [|contradiction]. intros K. apply (proj2 (X r)), dget_None in J. contradiction.
  - intros r c G. destruct (mem_spec r refs) as [J|J]; [|rewrite (proj2 (X r) J) in G; discriminate]. rewrite (proj1 (X r) J) in G. destruct (Q r J) as (c' & G' & F). congruence.
Qed.
Lemma listing_ok (x : disk) fs : NoDup (dkeys x) -> Permutation fs x -> NoDup (map fst fs) /\ (forall r, In r (map fst fs) <-> In r (dkeys x)) /\ forall r c, In (r, c) fs -> dget r x = Some c.
Proof.
  intros N P. assert (PK : Permutation (map fst fs) (dkeys x)) by (apply Permutation_map, P). split; [exact (Permutation_NoDup (Permutation_sym PK) N)|]. split; [intros r; split; apply Permutation_in; [exact PK|symmetry; exact PK]|].
  intros r c J. apply In_dget; [exact N|]. exact (Permutation_in _ P J).
Qed.

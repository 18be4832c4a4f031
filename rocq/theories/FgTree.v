(** The files written for the trees of a foreground (model: FgModel.v): every fragment once, parents before their children. *)
From Verif Require Import Num Base PyStr ProcModel FragModel EditModel ObserveProps FgModel FgTrav FgDict FgProofs.
From Coq Require Import Permutation Lia.
Open Scope nat_scope.
Open Scope string_scope.
Open Scope list_scope.
Local Arguments eqb : simpl never.

Lemma insert_in x l y : In y (insert x l) <-> y = x \/ In y l.
Proof. induction l as [|z l IH]; cbn; [intuition congruence|]. destruct (Nat.leb x z); cbn; [intuition congruence|]. rewrite IH. intuition congruence. Qed.
Lemma child_flows_in f c : In c (child_flows f) <-> In c (f_children f).
Proof. unfold child_flows. induction (f_children f) as [|x l IH]; cbn; [tauto|]. rewrite insert_in, IH. intuition congruence. Qed.
Lemma insert_perm x l : Permutation (insert x l) (x :: l).
Proof. induction l as [|z l IH]; cbn; [reflexivity|]. destruct (Nat.leb x z); [reflexivity|]. rewrite IH. apply perm_swap. Qed.
Lemma child_flows_perm f : Permutation (child_flows f) (f_children f).
Proof. unfold child_flows. induction (f_children f) as [|x l IH]; cbn; [reflexivity|]. rewrite insert_perm. constructor. exact IH. Qed.

Lemma nodup_app2 {A} (l m : list A) : NoDup l -> NoDup m -> (forall v, In v l -> ~ In v m) -> NoDup (l ++ m).
Proof.
  intros N1 N2 D. induction l as [|x l IH]; cbn; [exact N2|]. inversion N1 as [|? ? NX N1']; subst. constructor; [rewrite in_app_iff; intros [J|J]; [contradiction|exact (D x (or_introl eq_refl) J)]|].
  apply IH; [exact N1'|]. intros v J. apply D. right. exact J.
Qed.

(** * [recurse] *)
Fixpoint go (rc : nat -> fret (list nat)) (cs : list nat) : fret (list nat) :=
  match cs with [] => FOk [] | c :: r => match rc c with FErr e => FErr e | FOk l => match go rc r with FErr e => FErr e | FOk m => FOk (l ++ m) end end end.
Lemma recurse_eq n h u : recurse (S n) h u = match h u with None => FErr FAttributeError | Some f => match go (recurse n h) (child_flows f) with FErr e => FErr e | FOk l => FOk (u :: l) end end.
Proof.
  cbn [recurse]. destruct (h u) as [f|]; [|reflexivity].
  assert (E : forall cs, (fix g (cs : list nat) : fret (list nat) := match cs with [] => FOk [] | c :: r => match recurse n h c with FErr e => FErr e | FOk l => match g r with FErr e => FErr e | FOk m => FOk (l ++ m) end end end) cs = go (recurse n h) cs)
    by (induction cs as [|c r IH]; cbn; [reflexivity|]; rewrite IH; reflexivity). rewrite E. reflexivity.
Qed.
(** what [go] returns: the concatenation of the children's lists *)
Lemma go_spec rc cs l : go rc cs = FOk l -> exists ls, Forall2 (fun c m => rc c = FOk m) cs ls /\ l = concat ls.
Proof.
  revert l. induction cs as [|c cs IH]; cbn; intros l E; [injection E as <-; exists []; split; [constructor|reflexivity]|]. destruct (rc c) as [m|] eqn:R; [|discriminate]. destruct (go rc cs) as [m'|]; [|discriminate]. injection E as <-.
  destruct (IH m' eq_refl) as (ls & F & ->). exists (m :: ls). split; [constructor; assumption|reflexivity].
Qed.
Lemma go_In rc cs l v : go rc cs = FOk l -> (In v l <-> exists c m, In c cs /\ rc c = FOk m /\ In v m).
Proof.
  revert l. induction cs as [|c cs IH]; cbn; intros l E; [injection E as <-; cbn; split; [tauto|intros (c & m & [] & _)]|]. destruct (rc c) as [m|] eqn:R; [|discriminate]. destruct (go rc cs) as [m'|]; [|discriminate]. injection E as <-.
  rewrite in_app_iff, (IH m' eq_refl). split.
  - intros [J|(c' & m2 & J & K)]; [exists c, m; auto|exists c', m2; auto].
  - intros (c' & m2 & [->|J] & K & W); [left; congruence|right; eauto].
Qed.
Lemma go_sub rc cs l c m : go rc cs = FOk l -> In c cs -> rc c = FOk m -> length m <= length l.
Proof.
  revert l. induction cs as [|c' cs IH]; cbn; intros l E J R; [destruct J|]. destruct (rc c') as [m1|] eqn:R1; [|discriminate]. destruct (go rc cs) as [m2|]; [|discriminate]. injection E as <-. rewrite app_length.
  destruct J as [->|J]; [assert (m1 = m) by congruence; subst; lia|]. specialize (IH m2 eq_refl J R). lia.
Qed.
Lemma go_each rc cs l c : go rc cs = FOk l -> In c cs -> exists m, rc c = FOk m.
Proof.
  revert l. induction cs as [|c' cs IH]; cbn; intros l E J; [destruct J|]. destruct (rc c') as [m1|] eqn:R1; [|discriminate]. destruct (go rc cs) as [m2|]; [|discriminate]. destruct J as [->|J]; [eauto|]. exact (IH m2 eq_refl J).
Qed.
Lemma recurse_mono n : forall h u l k, recurse n h u = FOk l -> n <= k -> recurse k h u = FOk l.
Proof.
  induction n as [|n IH]; intros h u l k E LE; [discriminate|]. destruct k as [|k]; [lia|]. rewrite recurse_eq in E |- *. destruct (h u) as [f|]; [|discriminate].
  assert (G : forall cs m, go (recurse n h) cs = FOk m -> go (recurse k h) cs = FOk m).
  { induction cs as [|c cs IHc]; cbn; intros m X; [exact X|]. destruct (recurse n h c) as [m1|] eqn:R; [|discriminate]. rewrite (IH h c m1 k R) by lia. destruct (go (recurse n h) cs) as [m2|]; [|discriminate]. rewrite (IHc m2 eq_refl). exact X. }
  destruct (go (recurse n h) (child_flows f)) as [m|] eqn:X; [|discriminate]. rewrite (G _ _ X). exact E.
Qed.
Lemma recurse_det n k h u l m : recurse n h u = FOk l -> recurse k h u = FOk m -> l = m.
Proof. intros A B. apply (recurse_mono n h u l (max n k)) in A; [|lia]. apply (recurse_mono k h u m (max n k)) in B; [|lia]. congruence. Qed.

Section Tree.
Context (h : heap).
(** parents and children name each other *)
Context (KIDS : forall u f c, h u = Some f -> (In c (f_children f) <-> exists g, h c = Some g /\ f_parent g = Some u)).
Context (PAR : forall u f p, h u = Some f -> f_parent f = Some p -> h p <> None).
Context (NDC : forall u f, h u = Some f -> NoDup (f_children f)).

Inductive anc : nat -> nat -> Prop :=
| anc_self v : anc v v
| anc_up v f p u : h v = Some f -> f_parent f = Some p -> anc p u -> anc v u.
Lemma anc_trans a b c : anc a b -> anc b c -> anc a c.
Proof. induction 1; intros K; [exact K|]. econstructor; eauto. Qed.
Lemma tree_anc u v : in_tree h u v <-> anc v u.
Proof.
  split.
  - induction 1 as [i|i f c j HI J T IH]; [constructor|]. apply (KIDS i f c HI) in J as (g & HC & GP). apply (anc_trans j c i IH). econstructor; [exact HC|exact GP|constructor].
  - assert (TR : forall a b c, in_tree h a b -> in_tree h b c -> in_tree h a c) by (induction 1; intros K; [exact K|econstructor; eauto]).
    induction 1 as [v|v f p u HV FP A IH]; [constructor|]. destruct (h p) as [fp|] eqn:HP; [|destruct (PAR v f p HV FP HP)]. apply (TR _ _ _ IH). apply (tree_child h p fp v v HP); [|constructor]. apply (KIDS p fp v HP). eauto.
Qed.
Lemma anc_linear v c d : anc v c -> anc v d -> anc c d \/ anc d c.
Proof.
  induction 1 as [v|v f p u HV FP A IH]; intros B; [left; exact B|]. inversion B as [|? f' p' ? HV' FP' B']; subst; [right; econstructor; eauto|]. assert (p' = p) by congruence. subst. apply IH, B'.
Qed.
Lemma recurse_in n : forall u l, recurse n h u = FOk l -> forall v, In v l <-> in_tree h u v.
Proof.
  induction n as [|n IH]; intros u l E v; [discriminate|]. rewrite recurse_eq in E. destruct (h u) as [f|] eqn:HU; [|discriminate]. destruct (go _ (child_flows f)) as [m|] eqn:G; [|discriminate]. injection E as <-. cbn. rewrite (go_In _ _ _ v G). split.
  - intros [->|(c & m' & J & R & W)]; [constructor|]. apply (tree_child h u f c v HU); [apply child_flows_in, J|]. apply (IH c m' R), W.
  - intros T. inversion T as [|? f' c ? HU' J T']; subst; [left; reflexivity|]. right. rewrite HU in HU'. injection HU' as <-. apply child_flows_in in J. destruct (go_each _ _ _ c G J) as (m' & R). exists c, m'. split; [exact J|]. split; [exact R|]. apply (IH c m' R), T'.
Qed.
Lemma recurse_some n u l v : recurse n h u = FOk l -> In v l -> exists k m, recurse k h v = FOk m /\ length m <= length l /\ (v <> u -> length m < length l).
Proof.
  revert u l. induction n as [|n IH]; intros u l E J; [discriminate|]. assert (E' := E). rewrite recurse_eq in E. destruct (h u) as [f|] eqn:HU; [|discriminate]. destruct (go _ (child_flows f)) as [m|] eqn:G; [|discriminate]. injection E as <-.
  destruct J as [->|J]; [exists (S n), (v :: m); split; [exact E'|split; [lia|congruence]]|]. apply (go_In _ _ _ v G) in J as (c & m' & J & R & W). destruct (IH c m' R W) as (k & m2 & R2 & L1 & _). exists k, m2. split; [exact R2|]. assert (L := go_sub _ _ _ _ _ G J R). cbn. split; [lia|]. intros _. lia.
Qed.
(** a fragment whose tree was walked through is not below its own children *)
Lemma acyclic n u f l c : recurse n h u = FOk l -> h u = Some f -> In c (f_children f) -> ~ in_tree h c u.
Proof.
  intros E HU J T. destruct n as [|n]; [discriminate|]. assert (E' := E). rewrite recurse_eq, HU in E'. destruct (go _ (child_flows f)) as [m|] eqn:G; [|discriminate]. injection E' as <-. apply child_flows_in in J. destruct (go_each _ _ _ c G J) as (m' & R).
  apply (recurse_in n c m' R) in T. destruct (recurse_some n c m' u R T) as (k & m2 & R2 & L1 & _). assert (X := recurse_det _ _ _ _ _ _ E R2). subst m2. assert (L := go_sub _ _ _ _ _ G J R). cbn in L1. lia.
Qed.
Lemma recurse_nodup n : forall u l, recurse n h u = FOk l -> NoDup l.
Proof.
  induction n as [|n IH]; intros u l E; [discriminate|]. assert (E' := E). rewrite recurse_eq in E. destruct (h u) as [f|] eqn:HU; [|discriminate]. destruct (go _ (child_flows f)) as [m|] eqn:G; [|discriminate]. injection E as <-.
  assert (AC : forall c, In c (child_flows f) -> ~ in_tree h c u) by (intros c J; apply (acyclic (S n) u f _ c E' HU), child_flows_in, J).
  assert (KD : forall c, In c (child_flows f) -> exists g, h c = Some g /\ f_parent g = Some u) by (intros c J; apply (KIDS u f c HU), child_flows_in, J).
  assert (ND : NoDup (child_flows f)) by (apply (Permutation_NoDup (Permutation_sym (child_flows_perm f))), (NDC u f HU)). constructor.
  - intros J. apply (go_In _ _ _ u G) in J as (c & m' & J & R & W). apply (recurse_in n c m' R) in W. exact (AC c J W).
  - clear E'. revert m G ND AC KD. generalize (child_flows f). intros cs. induction cs as [|c cs IHc]; cbn; intros m G ND AC KD; [injection G as <-; constructor|]. destruct (recurse n h c) as [m1|] eqn:R; [|discriminate]. destruct (go (recurse n h) cs) as [m2|] eqn:G2; [|discriminate]. injection G as <-. inversion ND as [|? ? NI ND']; subst.
    assert (D2 : NoDup m2) by (apply IHc; [reflexivity|exact ND'|intros d J; apply AC; right; exact J|intros d J; apply KD; right; exact J]).
    assert (DISJ : forall v, In v m1 -> ~ In v m2).
    { intros v J1 J2. apply (recurse_in n c m1 R) in J1. apply (go_In _ _ _ v G2) in J2 as (d & m' & J & R' & W). apply (recurse_in n d m' R') in W. apply tree_anc in J1, W. assert (NE : c <> d) by (intros ->; contradiction).
      assert (X : forall a b, a <> b -> In a (c :: cs) -> In b (c :: cs) -> anc a b -> False).
      { intros a b NAB JA JB A. inversion A as [|? g p ? HA GP A']; subst; [contradiction|]. destruct (KD a JA) as (g' & HA' & GP'). rewrite HA in HA'. injection HA' as <-. assert (p = u) by congruence. subst p. apply (AC b JB), tree_anc, A'. }
      destruct (anc_linear v c d J1 W) as [A|A]; [apply (X c d NE); cbn; tauto|apply (X d c (not_eq_sym NE)); cbn; tauto]. }
    exact (nodup_app2 _ _ (IH c m1 R) D2 DISJ).
Qed.
(** parents come before their children *)
Definition before (P L : list nat) : Prop := forall A u B f p, L = A ++ u :: B -> h u = Some f -> f_parent f = Some p -> In p (P ++ A).
Lemma before_app P L M : before P L -> before (P ++ L) M -> before P (L ++ M).
Proof.
  intros BL BM A u B f p E HU FP. revert L M P BL BM E. induction A as [|a A IH]; intros L M P BL BM E.
  - destruct L as [|x L]; cbn in E; [|injection E as -> _; apply (BL [] u L f p eq_refl HU FP)]. subst M. rewrite app_nil_r in BM. exact (BM [] u B f p eq_refl HU FP).
  - destruct L as [|x L]; cbn in E; [subst M; rewrite app_nil_r in BM; exact (BM (a :: A) u B f p eq_refl HU FP)|]. injection E as -> E. assert (X := IH L M (P ++ [a])).
    rewrite <- !app_assoc in X. apply X; [|exact BM|exact E]. intros A' u' B' f' p' E' HU' FP'. rewrite <- app_assoc. cbn. apply (BL (a :: A') u' B' f' p'); [rewrite E'; reflexivity|exact HU'|exact FP'].
Qed.
Lemma before_mono P Q L : incl P Q -> before P L -> before Q L.
Proof. intros I B A u B' f p E HU FP. assert (X := B A u B' f p E HU FP). apply in_app_iff in X. apply in_app_iff. destruct X; auto. Qed.
Lemma recurse_before n : forall P u l, recurse n h u = FOk l -> (forall f p, h u = Some f -> f_parent f = Some p -> In p P) -> before P l.
Proof.
  induction n as [|n IH]; intros P u l E PU; [discriminate|]. rewrite recurse_eq in E. destruct (h u) as [f|] eqn:HU; [|discriminate]. destruct (go _ (child_flows f)) as [m|] eqn:G; [|discriminate]. injection E as <-.
  change (u :: m) with ([u] ++ m). apply before_app.
  - intros A v B g p E HV FP. destruct A as [|a A]; [injection E as <- _|destruct A; discriminate]. rewrite app_nil_r. rewrite HU in HV. injection HV as <-. apply (PU f p eq_refl FP).
  - assert (KD : forall c, In c (child_flows f) -> forall g p, h c = Some g -> f_parent g = Some p -> In p (P ++ [u])).
    { intros c J g p HC GP. apply child_flows_in, (KIDS u f c HU) in J as (g' & HC' & GP'). assert (p = u) by congruence. subst. apply in_app_iff. right. left. reflexivity. }
    revert m G KD. generalize (P ++ [u]) as Q. generalize (child_flows f) as cs. induction cs as [|c cs IHc]; cbn; intros Q m G KD; [injection G as <-; intros A ? ? ? ? X; destruct A; discriminate|]. destruct (recurse n h c) as [m1|] eqn:R; [|discriminate]. destruct (go (recurse n h) cs) as [m2|] eqn:G2; [|discriminate]. injection G as <-.
    apply before_app; [apply (IH Q c m1 R), (KD c (or_introl eq_refl))|]. apply IHc; [reflexivity|]. intros d J g p HC GP. apply in_app_iff. left. apply (KD d (or_intror J) g p HC GP).
Qed.
(** the trees of the reference fragments *)
Lemma trees_ok : forall refs ls, NoDup refs -> (forall r, In r refs -> exists f, h r = Some f /\ f_parent f = None) -> Forall2 (fun r l => exists n, recurse n h r = FOk l) refs ls ->
  NoDup (concat ls) /\ (forall P, before P (concat ls)) /\ forall v, In v (concat ls) <-> exists r, In r refs /\ in_tree h r v.
Proof.
  induction refs as [|r refs IH]; intros ls ND RF F; inversion F as [|? l ? ls' [n R] F']; subst.
  - cbn. split; [constructor|]. split; [intros P A ? ? ? ? X; destruct A; discriminate|]. intros v. split; [tauto|intros (r & [] & _)].
  - inversion ND as [|? ? NI ND']; subst. destruct (IH ls' ND') as (N2 & B2 & I2); [intros r' J; apply RF; right; exact J|exact F'|]. destruct (RF r (or_introl eq_refl)) as (fr & HR & FR). cbn [concat].
    assert (IN : forall v, In v (l ++ concat ls') <-> exists r', In r' (r :: refs) /\ in_tree h r' v).
    { intros v. rewrite in_app_iff, (I2 v), (recurse_in n r l R v). split; [intros [T|(r' & J & T)]; [exists r|exists r']; cbn; auto|intros (r' & [<-|J] & T); [left; exact T|right; eauto]]. }
    assert (DISJ : forall v, In v l -> ~ In v (concat ls')).
    { intros v J1 J2. apply (recurse_in n r l R) in J1. apply I2 in J2 as (r' & J & T). apply tree_anc in J1, T. destruct (RF r' (or_intror J)) as (f' & HR' & FR').
      assert (X : r = r'); [|subst; contradiction]. destruct (anc_linear v r r' J1 T) as [A|A]; inversion A; subst; try reflexivity; congruence. }
    assert (N1 := recurse_nodup n r l R). split; [|split; [|exact IN]].
    + exact (nodup_app2 _ _ N1 N2 DISJ).
    + intros P. apply before_app; [|apply B2]. apply (recurse_before n P r l R). intros f p HF FP. congruence.
Qed.
End Tree.

(** A directory holding some trees of one state of a foreground and some of another (model: FgModel.v). *)
From Verif Require Import Num Base PyStr ProcModel FragModel EditModel ObserveProps FgModel FgTrav FgDict FgProofs FgTree FgDisk.
From Coq Require Import Permutation Lia.
Open Scope nat_scope.
Open Scope string_scope.
Open Scope list_scope.
Local Arguments eqb : simpl never.

(** the trees of the reference fragments in [D] as in [st1], the others as in [st0]; [root u] is the reference fragment of [u]'s tree *)
Definition mix (root : nat -> nat) (D : list nat) (st0 st1 : fgs) : fgs :=
  Fg (fun u => g_heap (if mem (root u) D then st1 else st0) u) (fun u => g_meta (if mem (root u) D then st1 else st0) u) [].
(** between the two states no fragment moved to another tree, and names were neither changed nor reused; fragments that are terminated to are in both *)
Record compatible (root : nat -> nat) (st0 st1 : fgs) : Prop := CMP {
  cp_root : forall s u f, s = st0 \/ s = st1 -> g_heap s u = Some f -> in_tree (g_heap s) (root u) u /\ exists r, g_heap s (root u) = Some r /\ f_parent r = None;
  cp_same : forall u f0 f1 m0 m1, g_heap st0 u = Some f0 -> g_heap st1 u = Some f1 -> g_meta st0 u = Some m0 -> g_meta st1 u = Some m1 -> m_name m0 = m_name m1;
  cp_names : forall u v f0 f1 m0 m1 s, g_heap st0 u = Some f0 -> g_heap st1 v = Some f1 -> g_meta st0 u = Some m0 -> g_meta st1 v = Some m1 -> m_name m0 = Some s -> m_name m1 = Some s -> u = v;
  cp_targets : forall s u f k t j, s = st0 \/ s = st1 -> g_heap s u = Some f -> In (k, t) (f_terms f) -> t_node t = NFrag j -> g_heap st0 j <> None /\ g_heap st1 j <> None }.

Lemma recurse_ext h h' n : forall u, (forall v, in_tree h u v -> h v = h' v) -> recurse n h u = recurse n h' u.
Proof.
  induction n as [|n IH]; intros u E; [reflexivity|]. rewrite !recurse_eq. rewrite <- (E u (tree_self h u)). destruct (h u) as [f|] eqn:HU; [|reflexivity].
  assert (X : forall cs, (forall c, In c cs -> In c (f_children f)) -> go (recurse n h) cs = go (recurse n h') cs).
  { induction cs as [|c cs IHc]; cbn; intros S; [reflexivity|]. rewrite (IH c); [|intros v T; apply E; exact (tree_child h u f c v HU (S c (or_introl eq_refl)) T)]. rewrite IHc by (intros d J; apply S; right; exact J). reflexivity. }
  rewrite X; [reflexivity|]. intros c J. apply child_flows_in, J.
Qed.
Lemma fmap_ext {A B} (k k' : A -> fret B) l : (forall x, In x l -> k x = k' x) -> fmap k l = fmap k' l.
Proof. induction l as [|x l IH]; cbn; intros E; [reflexivity|]. rewrite (E x (or_introl eq_refl)), IH by (intros y J; apply E; right; exact J). reflexivity. Qed.

Section Mix.
Context (refq sh root : nat -> nat) (st0 st1 : fgs) (refs0 refs1 : list nat).
Context (OK0 : foreground_ok refq sh st0 refs0) (OK1 : foreground_ok refq sh st1 refs1) (CP : compatible root st0 st1).
Context (D : list nat).
Let st := mix root D st0 st1.
Let side (u : nat) := if mem (root u) D then st1 else st0.
Lemma side_or u : side u = st0 \/ side u = st1. Proof. unfold side. destruct (mem _ _); auto. Qed.
Lemma heap_side u : g_heap st u = g_heap (side u) u. Proof. reflexivity. Qed.
Lemma meta_side u : g_meta st u = g_meta (side u) u. Proof. reflexivity. Qed.
Lemma side_eq u v : root u = root v -> side u = side v. Proof. unfold side. intros ->. reflexivity. Qed.
Lemma both_ok s : s = st0 \/ s = st1 -> exists refs, foreground_ok refq sh s refs.
Proof. intros [->| ->]; eauto. Qed.
Lemma root_same s u v fu fv : s = st0 \/ s = st1 -> g_heap s u = Some fu -> g_heap s v = Some fv -> in_tree (g_heap s) u v -> root v = root u.
Proof.
  intros S HU HV T. destruct (both_ok s S) as (refs & OK). destruct (cp_root _ _ _ CP s u fu S HU) as (TU & ru & RU & PU). destruct (cp_root _ _ _ CP s v fv S HV) as (TV & rv & RV & PV).
  assert (K := kids_ok _ _ _ _ OK). assert (P := par_ok _ _ _ _ OK). apply (tree_anc _ K P) in T, TU, TV. assert (A := anc_trans _ _ _ _ T TU).
  destruct (anc_linear _ v _ _ TV A) as [B|B]; inversion B as [|? g p ? HG GP _]; subst; congruence.
Qed.
Lemma root_child s u c fu fc : s = st0 \/ s = st1 -> g_heap s u = Some fu -> g_heap s c = Some fc -> f_parent fc = Some u -> root c = root u.
Proof.
  intros S HU HC FP. destruct (both_ok s S) as (refs & OK). apply (root_same s u c fu fc S HU HC). apply (tree_child _ u fu c c HU); [|constructor]. apply (kids_ok _ _ _ _ OK u fu c HU). eauto.
Qed.
Lemma root_ref s u f : s = st0 \/ s = st1 -> g_heap s u = Some f -> f_parent f = None -> root u = u.
Proof.
  intros S HU FP. destruct (both_ok s S) as (refs & OK). destruct (cp_root _ _ _ CP s u f S HU) as (TU & _). apply (tree_anc _ (kids_ok _ _ _ _ OK) (par_ok _ _ _ _ OK)) in TU. inversion TU as [|? g p ? HG GP _]; subst; congruence.
Qed.
(** fragments of one state that are in the same tree as a fragment of the mixture *)
Lemma mix_child u fu c : g_heap st u = Some fu -> In c (f_children fu) <-> exists g, g_heap st c = Some g /\ f_parent g = Some u.
Proof.
  intros HU. rewrite heap_side in HU. destruct (both_ok _ (side_or u)) as (refs & OK). rewrite (kids_ok _ _ _ _ OK u fu c HU). split.
  - intros (g & HC & GP). exists g. split; [|exact GP]. rewrite heap_side. rewrite (side_eq c u); [exact HC|]. exact (root_child _ u c fu g (side_or u) HU HC GP).
  - intros (g & HC & GP). exists g. split; [|exact GP]. rewrite heap_side in HC. destruct (both_ok _ (side_or c)) as (refs' & OK'). assert (PU := par_ok _ _ _ _ OK' c g u HC GP). destruct (g_heap (side c) u) as [f'|] eqn:HU'; [|contradiction].
    rewrite <- (side_eq c u); [exact HC|]. exact (root_child _ u c f' g (side_or c) HU' HC GP).
Qed.
Lemma mix_side_child u fu c : g_heap st u = Some fu -> In c (f_children fu) -> g_heap st c = g_heap (side u) c.
Proof.
  intros HU J. rewrite heap_side in HU. destruct (both_ok _ (side_or u)) as (refs & OK). apply (kids_ok _ _ _ _ OK u fu c HU) in J as (g & HC & GP). rewrite heap_side. rewrite (side_eq c u); [reflexivity|]. exact (root_child _ u c fu g (side_or u) HU HC GP).
Qed.
Lemma mix_storable u f : g_heap st u = Some f -> exists m, g_meta st u = Some m /\ storable refq st u f m.
Proof.
  intros HU. assert (HS := HU). rewrite heap_side in HS. destruct (both_ok _ (side_or u)) as (refs & OK). destruct (fg_ok _ _ _ _ OK u f HS) as (m & HM & O). exists m. split; [exact HM|]. destruct O. split; try assumption.
  - intros c. apply (mix_child u f c HU).
  - intros p FP. assert (X := fo_par p FP). destruct (g_heap (side u) p) as [fp|] eqn:HP; [|contradiction]. rewrite heap_side. rewrite (side_eq p u); [congruence|]. symmetry. exact (root_child _ p u fp f (side_or u) HP HS FP).
  - intros q. rewrite fo_cons. split; intros (c & g & J & HC & X); exists c, g; (split; [exact J|]; split; [|exact X]).
    + rewrite (mix_side_child u f c HU J). exact HC.
    + rewrite <- (mix_side_child u f c HU J). exact HC.
  - intros c d gc gd JC JD HC HD. rewrite (mix_side_child u f c HU JC) in HC. rewrite (mix_side_child u f d HU JD) in HD. apply (fo_one c d gc gd JC JD HC HD).
  - intros k t j J TN. destruct (cp_targets _ _ _ CP _ u f k t j (side_or u) HS J TN) as [A B]. rewrite heap_side. destruct (side_or j) as [-> | ->]; assumption.
Qed.
Lemma mix_ext u f j : g_heap st0 j <> None -> g_heap st1 j <> None -> g_heap (side u) u = Some f -> ext_of st j = ext_of (side u) j.
Proof.
  intros A B HU. destruct (g_heap st0 j) as [f0|] eqn:H0; [|contradiction]. destruct (g_heap st1 j) as [f1|] eqn:H1; [|contradiction]. destruct (fg_ok _ _ _ _ OK0 j f0 H0) as (m0 & M0 & _). destruct (fg_ok _ _ _ _ OK1 j f1 H1) as (m1 & M1 & _).
  assert (E := cp_same _ _ _ CP j f0 f1 m0 m1 H0 H1 M0 M1). unfold ext_of. rewrite meta_side. destruct (side_or j) as [-> | ->], (side_or u) as [-> | ->]; rewrite ?M0, ?M1, ?E; reflexivity.
Qed.
Lemma mix_serialize u f : g_heap st u = Some f -> serialize st u = serialize (side u) u.
Proof.
  intros HU. assert (HS := HU). rewrite heap_side in HS. destruct (both_ok _ (side_or u)) as (refs & OK). destruct (fg_ok _ _ _ _ OK u f HS) as (m & HM & O).
  assert (EU : ext_of st u = ext_of (side u) u) by (unfold ext_of; rewrite meta_side; reflexivity).
  assert (EP : parent_ref st f = parent_ref (side u) f).
  { unfold parent_ref. destruct (f_parent f) as [p|] eqn:FP; [|reflexivity]. assert (X := fo_par _ _ _ _ _ O p FP). destruct (g_heap (side u) p) as [fp|] eqn:HP; [|contradiction]. unfold ext_of. rewrite meta_side. rewrite (side_eq p u); [reflexivity|]. symmetry. exact (root_child _ p u fp f (side_or u) HP HS FP). }
  assert (ET : ser_terms st f = ser_terms (side u) f).
  { unfold ser_terms. assert (G : forall l acc, (forall e, In e l -> In e (f_terms f)) -> fold_left (fun acc e => dset (term_key (fst e)) (ser_term st f (snd e)) acc) l acc = fold_left (fun acc e => dset (term_key (fst e)) (ser_term (side u) f (snd e)) acc) l acc).
    { induction l as [|[k t] l IH]; cbn [fold_left]; intros acc S; [reflexivity|]. cbn [fst snd]. replace (ser_term st f t) with (ser_term (side u) f t); [apply IH; intros e J; apply S; right; exact J|]. unfold ser_term. destruct (t_node t) as [|pr|j] eqn:TN; try reflexivity.
      destruct (cp_targets _ _ _ CP _ u f k t j (side_or u) HS (S _ (or_introl eq_refl)) TN) as [A B]. rewrite (mix_ext u f j A B HS). reflexivity. }
    apply G. auto. }
  unfold serialize. rewrite heap_side, meta_side, HS, HM, EU, EP, ET. reflexivity.
Qed.
Lemma mix_file r c : g_heap (side r) r <> None -> root r = r -> file_of (side r) r c -> file_of st r c.
Proof.
  intros HR RR (n & js & -> & T). exists n, js. split; [reflexivity|]. rewrite <- T. unfold tree_file. destruct (g_heap (side r) r) as [fr|] eqn:HF; [|contradiction]. destruct (both_ok _ (side_or r)) as (refs & OK).
  assert (S : forall v, in_tree (g_heap (side r)) r v -> side v = side r /\ g_heap (side r) v <> None).
  { intros v TV. assert (HV : g_heap (side r) v <> None).
    { assert (A := TV). apply (tree_anc _ (kids_ok _ _ _ _ OK) (par_ok _ _ _ _ OK)) in A. inversion A as [|? g p ? HG GP _]; subst; congruence. }
    split; [|exact HV]. destruct (g_heap (side r) v) as [fv|] eqn:X; [|contradiction]. apply side_eq. exact (root_same _ r v fr fv (side_or r) HF X TV). }
  rewrite <- (recurse_ext (g_heap (side r)) (g_heap st) n r); [|intros v TV; rewrite heap_side; rewrite (proj1 (S v TV)); reflexivity].
  destruct (recurse n (g_heap (side r)) r) as [l|] eqn:R; [|reflexivity]. apply fmap_ext. intros v J. apply (recurse_in _ n r l R) in J. destruct (S v J) as [E HV]. destruct (g_heap (side r) v) as [fv|] eqn:X; [|contradiction].
  rewrite (mix_serialize v fv); [rewrite E; reflexivity|]. rewrite heap_side, E. exact X.
Qed.
Lemma mix_ok refs : NoDup refs -> (forall r, In r refs <-> if mem r D then In r refs1 else In r refs0) -> foreground_ok refq sh st refs.
Proof.
  intros ND RF. assert (RR : forall r, In r refs <-> exists f, g_heap st r = Some f /\ f_parent f = None).
  { intros r. rewrite RF. split.
    - intros J. assert (X : exists f, g_heap (if mem r D then st1 else st0) r = Some f /\ f_parent f = None) by (destruct (mem r D); [apply (fg_refs _ _ _ _ OK1), J|apply (fg_refs _ _ _ _ OK0), J]). destruct X as (f & HR & FP). exists f. split; [|exact FP].
      rewrite heap_side. unfold side. rewrite (root_ref (if mem r D then st1 else st0) r f); [exact HR|destruct (mem r D); auto|exact HR|exact FP].
    - intros (f & HR & FP). assert (R := root_ref _ r f (side_or r) HR FP). rewrite heap_side in HR. unfold side in HR. rewrite R in HR. destruct (mem r D); [apply (fg_refs _ _ _ _ OK1)|apply (fg_refs _ _ _ _ OK0)]; eauto. }
  split; [exact mix_storable| | |exact ND|exact RR|].
  - intros u v fu fv mu mv s HU HV MU MV NU NV. rewrite heap_side in HU, HV. rewrite meta_side in MU, MV. destruct (side_or u) as [E|E], (side_or v) as [F|F]; rewrite E in HU, MU; rewrite F in HV, MV.
    + exact (fg_names _ _ _ _ OK0 u v fu fv mu mv s HU HV MU MV NU NV).
    + exact (cp_names _ _ _ CP u v fu fv mu mv s HU HV MU MV NU NV).
    + symmetry. exact (cp_names _ _ _ CP v u fv fu mv mu s HV HU MV MU NV NU).
    + exact (fg_names _ _ _ _ OK1 u v fu fv mu mv s HU HV MU MV NU NV).
  - intros u v fv HV. rewrite heap_side in HV. destruct (both_ok _ (side_or v)) as (rs & OK). exact (fg_shadow _ _ _ _ OK u v fv HV).
  - intros u f HU. assert (HS := HU). rewrite heap_side in HS. destruct (cp_root _ _ _ CP _ u f (side_or u) HS) as (T & r & HR & PR). assert (R := root_ref _ (root u) r (side_or u) HR PR). exists (root u). split.
    + apply RR. exists r. split; [|exact PR]. rewrite heap_side. rewrite (side_eq (root u) u R). exact HR.
    + assert (X : forall a v, in_tree (g_heap (side u)) a v -> (exists fa, g_heap (side u) a = Some fa) -> root a = root u -> in_tree (g_heap st) a v).
      { induction 1 as [i|i fi c j HI J T' IH]; intros EX RA; [constructor|]. assert (HI' : g_heap st i = Some fi) by (rewrite heap_side, (side_eq i u RA); exact HI). apply (tree_child _ i fi c j HI' J). assert (K := J). rewrite (mix_child i fi c HI') in K. destruct K as (g & HC & GP).
        destruct (both_ok _ (side_or u)) as (rs & OK). destruct (proj1 (kids_ok _ _ _ _ OK i fi c HI) J) as (g' & HC' & GP'). apply IH; [eauto|]. rewrite <- RA. exact (root_child _ i c fi g' (side_or u) HI HC' GP'). }
      apply X; [exact T|eauto|exact R].
Qed.
Lemma mix_load x fs : stage st0 st1 refs0 refs1 D x -> Permutation fs x -> exists s, load_fragments refq sh fs = (s, FOk tt) /\ same_state st s.
Proof.
  intros [N I] P. destruct (listing_ok x fs N P) as (NF & KF & GF). assert (RF : forall r, In r (map fst fs) <-> if mem r D then In r refs1 else In r refs0).
  { intros r. rewrite KF. specialize (I r). destruct (dget r x) as [c|] eqn:G; [assert (K := dget_Some_key _ _ _ G); destruct (mem r D); tauto|]. apply dget_None in G. destruct (mem r D); tauto. }
  assert (OK := mix_ok (map fst fs) NF RF). apply (load_ok refq sh st (map fst fs) OK fs NF); [tauto|]. apply Forall_forall. intros [r c] J. cbn. assert (G := GF r c J). specialize (I r). rewrite G in I.
  assert (JR : In r (map fst fs)) by (apply in_map_iff; exists (r, c); auto). apply (fg_refs _ _ _ _ OK) in JR as (f & HR & FP). assert (R := root_ref _ r f (side_or r) HR FP). rewrite heap_side in HR. apply mix_file; [congruence|exact R|]. unfold side. rewrite R. destruct (mem r D); apply I.
Qed.
End Mix.

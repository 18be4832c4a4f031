(** C117: the background manager: the foreground, the reports and the inventory of one product (model: BgFgModel.v; proofs: BgFgProofs.v,
    BgFgLci.v). *)
From Verif Require Import Num Base ProcModel BgModel BgProofs BgProofs2 BgProofs3 BgProofs4 BgProofs5 BgProps BgProps2 BgLciModel BgLciProps BgNetProps FlatModel FlatProofs FlatProofs2 FlatProps FlatMain FlatLci BgFgModel BgFgProofs BgFgLci.
From Coq Require Import Permutation Lia Relations.
Open Scope Qc_scope.
Open Scope list_scope.
Local Arguments eqb : simpl never.

(** * Specification *)
(** [uses], [use], [emission_amount], [ordinary], [no_cancellation], [need], [ask], [supplied], [one] and [inventory] speak of the database
    only (BgNetProps.v, FlatProps.v, FlatLci.v); [inverts] is the specification of the linear solver (BgFgLci.v). *)
(** [g] is the state of a manager after its first call, which added one product or the whole database *)
Definition fresh (D : db) (strat : strategy) (g : eng) : Prop :=
  exists ord fuel c, (forall l, Permutation (ord l) l) /\ brun D strat fuel ord eng0 [c] = UOk g.
(** the state of a manager after any calls *)
Definition reached (D : db) (strat : strategy) (g : eng) : Prop :=
  exists ord fuel cs, (forall l, Permutation (ord l) l) /\ brun D strat fuel ord eng0 cs = UOk g.
(** the products that [u] needs, itself included, outside the background *)
Definition foreground_products (D : db) (strat : strategy) (g : eng) (u : node) (l : list node) : Prop :=
  NoDup l /\ forall v, In v l <-> needs D strat u v /\ in_background g v = false.
(** the foreground of [u] has no cycle *)
Definition acyclic_above (D : db) (strat : strategy) (g : eng) (u : node) : Prop :=
  forall v w, needs D strat u v -> in_background g v = false -> needs D strat v w -> needs D strat w v -> v = w.

(** * A first call for one product is a call for the list of that product *)
Definition allg (g : eng) : eng := Eng (g_st g) (g_cg g) (g_order g) (g_interior g) (g_foreground g) (g_bgem g) (g_cutoff g) (g_a g) (g_b g) true.
Lemma fresh_all D strat g : fresh D strat g -> exists ord fuel vs b, (forall l, Permutation (ord l) l) /\ brun D strat fuel ord eng0 [AddAll vs] = UOk (Eng (g_st g) (g_cg g) (g_order g) (g_interior g) (g_foreground g) (g_bgem g) (g_cutoff g) (g_a g) (g_b g) b).
Proof.
  intros (ord & fuel & [v|vs] & ORD & R).
  - exists ord, fuel, [v], true. split; [exact ORD|]. cbn [brun bcall_run] in *. unfold add_ref_product in R. unfold add_all_ref_products. change (g_all eng0) with false. change (mem v (e_pf (g_st eng0))) with false in R. cbv iota in R |- *.
    cbn [add_products]. destruct (add_product D strat fuel (g_st eng0) v) as [s|s e|]; try discriminate. destruct (eng_update fuel ord (with_st eng0 s)) as [g'|g' e|]; try discriminate. injection R as ->. reflexivity.
  - exists ord, fuel, vs, (g_all g). split; [exact ORD|]. rewrite R. destruct g; reflexivity.
Qed.
Lemma in_bg_iff' g v : in_background g v = true <-> In v (background g).
Proof. unfold in_background, background. apply mem_In. Qed.
Lemma in_bg_false g v : in_background g v = false <-> ~ In v (background g).
Proof. rewrite <- in_bg_iff'. destruct (in_background g v); split; congruence. Qed.

(** * The foreground, after any calls *)
(** The foreground of a product, in the order of the columns: each product that [u] needs (itself included) outside the background, once;
    [u] first; a product before those it depends on, but for cycles; empty exactly for a background product. *)
Theorem C117_foreground D strat g u n : reached D strat g -> indexed g u -> (S (length (c_edges (g_cg g))) <= n)%nat ->
  exists l, foreground_of n g u = Some (BOk l) /\ foreground_products D strat g u l
    /\ (in_background g u = false -> nth_error l 0 = Some u) /\ (in_background g u = true -> l = [])
    /\ (forall i j v w, nth_error l i = Some v -> nth_error l j = Some w -> depends D strat v w -> ~ needs D strat w v -> (i < j)%nat).
Proof.
  intros (ord & fuel & cs & ORD & R) IU FU. destruct (foreground_nodes D strat ord fuel cs g ORD R n u IU FU) as (l & EL & ND & ML & HD & TO). exists l. split; [exact EL|].
  split; [split; [exact ND|]; intros v; rewrite ML, in_bg_false; reflexivity|]. split; [intros B; apply HD, in_bg_false, B|]. split.
  - intros B. apply in_bg_iff' in B. destruct l as [|v l]; [reflexivity|]. exfalso. assert (J : In v (v :: l)) by (apply or_introl; reflexivity). apply ML in J as [N NB]. apply NB. exact (closed_needs D strat ord fuel cs g ORD R u v B N).
  - intros i j v w EI EJ DP NN. rewrite (pos_eq l i v ND EI), (pos_eq l j w ND EJ). apply TO; auto; eapply nth_error_In; eassumption.
Qed.
Print Assumptions C117_foreground.

(** [is_in_scc] is true exactly for a product that needs, and is needed by, another one. *)
Theorem C117_in_scc D strat g u : reached D strat g -> indexed g u ->
  (mgr_in_scc g u = true <-> exists v, v <> u /\ needs D strat u v /\ needs D strat v u).
Proof.
  intros (ord & fuel & cs & ORD & R) IU. destruct (C30_components D strat ord fuel cs g ORD R) as (C1 & C2 & C3).
  destruct (brun_ok D strat ord ORD fuel cs eng0 g (GI_eng0 D strat) R) as [G _]. pose proof (gi_ti _ _ _ G) as I.
  destruct (proj1 (C1 u) IU) as [i EI]. unfold mgr_in_scc. unfold component in EI. rewrite EI. rewrite Nat.ltb_lt.
  assert (JU : In u (scc (g_st g) i)) by (apply C3; exact EI). assert (ND : NoDup (scc (g_st g) i)).
  { unfold scc. destruct (dget i (e_sccs (g_st g))) as [t|] eqn:T; [|constructor]. destruct (ti_snd _ _ _ _ I) as [_ S]. apply (S i t T). }
  split.
  - intros L. destruct (scc (g_st g) i) as [|a [|b r]] eqn:S; [destruct JU|cbn in L; lia|].
    assert (X : exists v, In v (a :: b :: r) /\ v <> u).
    { destruct (eqb_spec a u) as [->|NE]; [|exists a; split; [apply or_introl; reflexivity|exact NE]]. exists b. split; [cbn; auto|]. intros ->. inversion ND as [|? ? NI _]; subst. apply NI. cbn; auto. }
    destruct X as (v & JV & NE). rewrite <- S in JV. apply C3 in JV. exists v. split; [exact NE|]. apply C2; [exact IU|apply C1; eauto|]. unfold component in *. congruence.
  - intros (v & NE & N1 & N2). assert (IV : indexed g v). { apply (TI_reach_closed D strat _ u v I IU). apply needs_reach, N1. }
    assert (CV : component g v = Some i). { rewrite <- EI. symmetry. apply C2; auto. }
    apply C3 in CV. destruct (scc (g_st g) i) as [|a [|b r]]; [destruct JU| |cbn; lia]. cbn in JU, CV. exfalso. apply NE. destruct JU as [<-|[]], CV as [<-|[]]; reflexivity.
Qed.
Print Assumptions C117_in_scc.

(** * The inventory *)
Section Queries.
Context (D : db) (strat : strategy) (ord : list nat -> list nat) (fuel : nat) (vs : list node) (g : eng).
Hypothesis ORD : forall l, Permutation (ord l) l.
Hypothesis R : brun D strat fuel ord eng0 [AddAll vs] = UOk g.
Notation fg := (foreground g). Notation bg := (background g). Notation ems := (e_ems (g_st g)).
Let NB := bg_nd D strat ord fuel vs g ORD R.
Let NEM := ems_nd D strat ord fuel vs g ORD R.

Lemma enum_in {A} (l : list A) i x : In (i, x) (combine (seq 0 (length l)) l) <-> nth_error l i = Some x.
Proof.
  assert (G : forall k, In (i, x) (combine (seq k (length l)) l) <-> (k <= i)%nat /\ nth_error l (i - k) = Some x).
  { induction l as [|a l IH]; intros k; cbn [length seq combine]; [split; [intros []|intros [_ H]; destruct (i - k)%nat; discriminate]|]. cbn [In]. rewrite IH. split.
    - intros [[= <- <-]|[L H]]; [rewrite Nat.sub_diag; split; [lia|reflexivity]|]. split; [lia|]. replace (i - k)%nat with (S (i - S k)) by lia. exact H.
    - intros [L H]. destruct (Nat.eq_dec k i) as [->|N]; [rewrite Nat.sub_diag in H; injection H as ->; auto|]. right. split; [lia|]. replace (i - k)%nat with (S (i - S k)) in H by lia. exact H. }
  rewrite G, Nat.sub_0_r. split; [tauto|]. intros H. split; [lia|exact H].
Qed.
Lemma lci_report (u : node) (b : vec) (c : Qc) (INV : emis -> Qc) : c <> 0 -> (forall i e, nth_error ems i = Some e -> b i = INV e) -> (forall e, INV e <> 0 -> In e ems) ->
  let xs := flat_map (fun ie : nat * emis => if eqb (b (fst ie)) 0 then [] else [XD (snd u) (fst (snd ie)) (snd (snd ie)) None (b (fst ie) * c)]) (combine (seq 0 (length ems)) ems) in
  NoDup xs /\ forall x, In x xs <-> exists e, INV e <> 0 /\ x = XD (snd u) (fst e) (snd e) None (INV e * c).
Proof.
  intros NC BV COV xs. split.
  - subst xs. assert (Q : forall (l : list (nat * emis)), NoDup (map snd l) -> NoDup (flat_map (fun ie => if eqb (b (fst ie)) 0 then [] else [XD (snd u) (fst (snd ie)) (snd (snd ie)) None (b (fst ie) * c)]) l)).
    { induction l as [|[i e] l IH]; cbn [map flat_map fst snd]; intros N; [constructor|]. inversion N as [|? ? NI NL]; subst. destruct (eqb (b i) 0); [apply IH, NL|]. cbn [app]. constructor; [|apply IH, NL].
      intros J. apply in_flat_map in J as ([j e'] & J & X). cbn [fst snd] in X. destruct (eqb (b j) 0); [destruct X|]. destruct X as [X|[]]. apply NI. injection X as X1 X2 _. apply in_map_iff. exists (j, e'). split; [|exact J]. cbn. destruct e, e'; cbn in *; congruence. }
    apply Q. assert (M : forall {A} (l : list A) k, map snd (combine (seq k (length l)) l) = l) by (clear; intros A l; induction l as [|a l IH]; intros k; cbn; [reflexivity|rewrite IH; reflexivity]). rewrite M. exact NEM.
  - intros x. subst xs. rewrite in_flat_map. split.
    + intros ([i e] & J & X). cbn [fst snd] in X. apply enum_in in J. destruct (eqb_spec (b i) 0) as [|NZ]; [destruct X|]. destruct X as [<-|[]]. exists e. rewrite <- (BV i e J). auto.
    + intros (e & NZ & ->). pose proof (nth_pos e ems (COV e NZ)) as E. exists (pos e ems, e). split; [apply enum_in; exact E|]. cbn [fst snd]. rewrite (BV _ e E). destruct (eqb_spec (INV e) 0); [contradiction|]. cbn; auto.
Qed.
Lemma lci_all inv in_ex n u thr count : (forall w, indexed g w -> ordinary D strat w) -> inverts inv -> indexed g u -> (fg_fuel g <= n)%nat -> in_ex u <> 0 ->
  exists l, foreground_products D strat g u l /\
  ((mgr_lci inv in_ex n g u thr count = LSingular /\ ~ acyclic_above D strat g u) \/
   exists xs k X, mgr_lci inv in_ex n g u thr count = LOk xs /\ (forall v, In v l -> X v = one u v + ask D strat l X v)
    /\ supplied D strat bg (fun v => one u v + ask D strat l X v) thr count k X
    /\ NoDup xs /\ forall x, In x xs <-> exists e, inventory D strat (l ++ bg) X e <> 0 /\ x = XD (snd u) (fst e) (snd e) None (inventory D strat (l ++ bg) X e * in_ex u)).
Proof.
  intros O IV IU FU NC. destruct (engine_lci_spec D strat ord fuel vs g ORD R O inv n u thr count IV IU FU) as (l & [ND ML] & H). exists l. split; [split; [exact ND|]; intros v; rewrite ML, in_bg_false; reflexivity|].
  unfold mgr_lci. destruct H as [[-> NA]|(b & k & X & -> & XF & XB & BV)].
  - apply or_introl. split; [reflexivity|]. intros A. apply NA. intros v w N1 N2 N3 N4. apply in_bg_false in N2. exact (A v w N1 N2 N3 N4).
  - apply or_intror. eexists _, k, X. split; [reflexivity|]. split; [exact XF|]. split; [exact XB|].
    apply (lci_report u b (in_ex u) (inventory D strat (l ++ bg) X) NC); [exact BV|].
    intros e NZ. destruct (mem e ems) eqn:M; [apply mem_In; exact M|]. exfalso. apply NZ. unfold inventory. apply Qcsum_zero. intros w JW.
    assert (IW : indexed g w). { apply (indexed_split D strat ord fuel vs g ORD R). apply in_app_iff in JW as [JW|JW]; [apply or_introl; exact (l_fg D strat ord fuel vs g ORD R u l IU ML w JW)|apply or_intror; exact JW]. }
    assert (EM : emission_amount D strat w e = 0).
    { rewrite emission_emitted. destruct (emitted D strat w e) as [|q r] eqn:EW; [reflexivity|]. exfalso.
      assert (Y : In e ems) by (apply (emitted_indexed D strat ord fuel vs g ORD R w e IW); rewrite EW; discriminate). apply mem_In in Y. congruence. }
    rewrite EM. unfold Qcdiv. ring.
Qed.

(** * The reports *)
(** what [u] exchanges with the background, exchange by exchange, per unit of net output *)
Definition to_background (u : node) : list xdef :=
  flat_map (fun x => match target D strat x, r_val x with
                     | Some w, Some q => if in_background g w then [exchange_of u w ((match r_dir x with Output => - q | Input => q end) / (1 - use D strat u u))] else []
                     | _, _ => [] end) (db_inv D u).
Definition to_environment (u : node) : list xdef :=
  flat_map (fun x => match r_val x with
                     | Some q => if negb (eqb q 0) && negb (r_isref x) then match starget D strat x with None => [XD (snd u) (r_flow x) (r_dir x) None (q / (1 - use D strat u u))] | Some _ => [] end else []
                     | None => [] end) (db_inv D u).
Lemma own_entries {B} (h : node -> list (node * B * Qc)) (es : list (node * B * Qc)) u : (forall v e, In e (h v) -> fst (fst e) = v) -> Permutation es (flat_map h fg) -> In u fg ->
  Permutation (filter (fun e => eqb (fst (fst e)) u) es) (h u).
Proof.
  intros P E J. etransitivity; [apply Permutation_filter; exact E|].
  rewrite (filter_ext (fun e : node * B * Qc => eqb (fst (fst e)) u) (fun e => mem (fst (fst e)) [u])) by (intros e; apply Bool.eq_iff_eq_true; rewrite mem_In; cbn; destruct (eqb_spec (fst (fst e)) u); intuition congruence).
  rewrite (filter_flat_parent h [u] fg P). replace (h u) with (flat_map h [u]) by (cbn; apply app_nil_r). apply Permutation_flat_map.
  apply NoDup_Permutation; [apply NoDup_filter, (fg_nd D strat ord fuel vs g ORD R)|repeat constructor; intros []|]. intros v. rewrite filter_In, mem_In. cbn. split; [tauto|]. intros [<-|[]]. auto.
Qed.
Lemma deps_foreground u : indexed g u -> in_background g u = false -> ordinary D strat u -> exists xs, mgr_dependencies D g u = BOk xs /\ Permutation xs (to_background u).
Proof.
  intros IU NBU O. unfold mgr_dependencies. rewrite NBU. eexists. split; [reflexivity|].
  assert (JF : In u fg). { apply (indexed_split D strat ord fuel vs g ORD R) in IU as [J|J]; [exact J|]. apply in_bg_iff' in J. congruence. }
  destruct (foreground_entries D strat ord fuel vs g ORD R) as [F1 _]. etransitivity; [apply Permutation_map, ksort_perm|].
  rewrite (filter_ext _ (fun e : node * node * Qc => in_background g (snd (fst e)) && eqb (fst (fst e)) u)) by (intros e; apply andb_comm).
  assert (FF : forall (A : Type) (p q : A -> bool) l, filter (fun x => p x && q x) l = filter p (filter q l)).
  { clear. intros A p q l. induction l as [|a l IH]; cbn; [reflexivity|]. destruct (q a); cbn; destruct (p a); cbn; rewrite IH; reflexivity. }
  rewrite FF. etransitivity; [apply Permutation_map, Permutation_filter, (own_entries _ _ u (interior_parent D strat) F1 JF)|].
  unfold interior_spec, to_background. rewrite (evq_ordinary D strat u O). induction (db_inv D u) as [|x xs IH]; [reflexivity|]. cbn [flat_map]. rewrite filter_app, map_app. apply Permutation_app; [|exact IH].
  destruct (target D strat x) as [w|]; [|reflexivity]. destruct (r_val x) as [q|]; [|reflexivity]. destruct (eqb_spec u w) as [<-|NE].
  - rewrite NBU. reflexivity.
  - cbn [filter fst snd]. destruct (in_background g w); reflexivity.
Qed.
Lemma ems_foreground u : indexed g u -> in_background g u = false -> ordinary D strat u -> exists xs, mgr_emissions g u = BOk xs /\ Permutation xs (to_environment u).
Proof.
  intros IU NBU O. unfold mgr_emissions. rewrite NBU. eexists. split; [reflexivity|].
  assert (JF : In u fg). { apply (indexed_split D strat ord fuel vs g ORD R) in IU as [J|J]; [exact J|]. apply in_bg_iff' in J. congruence. }
  destruct (foreground_entries D strat ord fuel vs g ORD R) as [_ F2]. etransitivity; [apply Permutation_map, (own_entries _ _ u (cutoff_parent D strat) F2 JF)|].
  unfold cutoff_spec, to_environment. rewrite (evq_ordinary D strat u O). induction (db_inv D u) as [|x xs IH]; [reflexivity|]. cbn [flat_map]. rewrite map_app. apply Permutation_app; [|exact IH].
  destruct (r_val x) as [q|]; [|reflexivity]. change (Q2Qc 0) with (0 : Qc). destruct (negb (eqb q 0) && negb (r_isref x)); [|reflexivity]. destruct (starget D strat x); reflexivity.
Qed.
Lemma bg_cols u : (forall w, indexed g w -> ordinary D strat w) -> in_background g u = true -> exists A B, bg_columns g u = BOk (column A (pos u bg), column B (pos u bg))
  /\ m_rows A = length bg /\ m_rows B = length ems /\ named bg bg (m_ent A) (flat_map (interior_spec D strat) bg) /\ named ems bg (m_ent B) (flat_map (cutoff_spec D strat) bg)
  /\ (forall v w, In v bg -> In w bg -> cell A (pos v bg) (pos w bg) = need D strat w v) /\ (forall w k e, In w bg -> nth_error ems k = Some e -> cell B k (pos w bg) = per D strat w e).
Proof.
  intros O J. apply in_bg_iff' in J. assert (NE : bg <> []) by (intros Z; rewrite Z in J; destruct J).
  destruct (bg_matrices D strat ord fuel vs g ORD R O NE) as (A & B & EA & EB & RA & CA & RB & CB & NA & NBm & VA & VB). exists A, B. split; [|tauto].
  unfold bg_columns. fold bg. unfold posof. pose proof J as J'. apply mem_In in J'. rewrite J', EA, EB. pose proof (pos_lt u bg J) as L. apply Nat.ltb_lt in L. rewrite L. cbn [andb].
  unfold column; cbn [m_rows]; rewrite RA, RB; reflexivity.
Qed.
Lemma need_use u w : need D strat u w <> 0 -> w <> u /\ use D strat u w <> 0 /\ need D strat u w = use D strat u w / (1 - use D strat u u).
Proof.
  unfold need. destruct (eqb_spec u w) as [->|NE]; [contradiction|]. intros NZ. split; [congruence|]. split; [|reflexivity]. intros Z. apply NZ. rewrite Z. unfold Qcdiv. ring.
Qed.
Lemma need_nz u w : ordinary D strat u -> w <> u -> use D strat u w <> 0 -> need D strat u w <> 0 /\ need D strat u w = use D strat u w / (1 - use D strat u u).
Proof.
  intros O NE U. unfold need. destruct (eqb_spec u w); [congruence|]. split; [apply (per_unit_nz D strat u _ O U)|reflexivity].
Qed.
Lemma deps_background u : (forall w, indexed g w -> ordinary D strat w) -> in_background g u = true -> no_cancellation D strat u ->
  exists xs, mgr_dependencies D g u = BOk xs /\ NoDup xs /\ forall x, In x xs <-> exists w, w <> u /\ use D strat u w <> 0 /\ x = XD (snd u) (fst w) Input (Some (snd w)) (use D strat u w / (1 - use D strat u u)).
Proof.
  intros O MB [NCU _]. pose proof MB as JB. apply in_bg_iff' in JB. destruct (bg_cols u O MB) as (A & B & E & RA & RB & NA & NBm & VA & VB).
  assert (IXb : forall v, In v bg -> indexed g v) by (apply (bg_in D strat ord fuel vs g ORD R)). pose proof (O u (IXb u JB)) as OU.
  unfold mgr_dependencies. rewrite MB, E. pose proof (nth_pos u bg JB) as EJ.
  assert (COL : forall i q, In (i, q) (column A (pos u bg)) <-> exists w, nth_error bg i = Some w /\ w <> u /\ use D strat u w <> 0 /\ q = use D strat u w / (1 - use D strat u u)).
  { intros i q. rewrite (column_rows bg bg A _ (pos u bg) u i q NB NB NA RA EJ). split.
    - intros (w & EI & -> & r & J). apply (entry_interior D strat bg u w r NB JB), interior_has in J as [U NE]. pose proof (NCU w U) as NZ. exists w. split; [exact EI|]. split; [congruence|]. split; [exact NZ|].
      rewrite (pos_eq bg i w NB EI), VA by (auto; eapply nth_error_In; exact EI). apply need_nz; auto.
    - intros (w & EI & NE & NZ & ->). exists w. split; [exact EI|]. split.
      + rewrite (pos_eq bg i w NB EI), VA by (auto; eapply nth_error_In; exact EI). symmetry. apply need_nz; auto.
      + assert (UN : uses D strat u w <> []) by (intros Z; apply NZ; unfold use; rewrite Z; reflexivity). destruct (interior_in D strat u w UN) as [r J]; [congruence|]. exists r. apply in_flat_map. exists u. auto. }
  rewrite scan_nz by (intros [i q] J; apply COL in J as (w & _ & NE & NZ & ->); cbn; apply (per_unit_nz D strat u _ OU NZ)).
  assert (DEF : forall i q w, nth_error bg i = Some w -> bg_dependency D g u (i, q) = BOk (XD (snd u) (fst w) Input (Some (snd w)) q)).
  { intros i q w EI. unfold bg_dependency. cbn [fst snd]. fold bg. rewrite EI. unfold dir_of. assert (JW : In w bg) by (eapply nth_error_In; exact EI). destruct (O w (IXb w JW)) as [-> _]. reflexivity. }
  destruct (bmap_ok (bg_dependency D g u) (column A (pos u bg))) as (xs & EX & S).
  { intros [i q] J. apply COL in J as (w & EI & _). rewrite (DEF i q w EI). eauto. }
  exists xs. split; [exact EX|]. split.
  - eapply (bmap_nd _ fst); [|apply column_nd|exact EX]. intros [i q] [j r] x J1 J2 X1 X2. apply COL in J1 as (w & EI & _). apply COL in J2 as (w' & EK & _). rewrite (DEF i q w EI) in X1. rewrite (DEF j r w' EK) in X2. cbn.
    injection X1 as <-. injection X2 as X Y _. assert (w = w') by (destruct w, w'; cbn in *; congruence). subst w'. rewrite (pos_eq bg i w NB EI), (pos_eq bg j w NB EK). reflexivity.
  - intros x. rewrite S. split.
    + intros ([i q] & J & X). apply COL in J as (w & EI & NE & NZ & ->). rewrite (DEF i _ w EI) in X. injection X as <-. exists w. auto.
    + intros (w & NE & NZ & ->). assert (UN : uses D strat u w <> []) by (intros Z; apply NZ; unfold use; rewrite Z; reflexivity). apply uses_depends in UN.
      destruct (C32_background_closed D strat ord fuel _ g ORD R) as (CL & _). pose proof (CL u w JB UN) as JW. pose proof (nth_pos w bg JW) as EW.
      eexists (pos w bg, _). split; [apply COL; exists w; auto|]. apply (DEF _ _ w EW).
Qed.
Lemma ems_background u : (forall w, indexed g w -> ordinary D strat w) -> in_background g u = true -> no_cancellation D strat u ->
  exists xs, mgr_emissions g u = BOk xs /\ NoDup xs /\ forall x, In x xs <-> exists e, emission_amount D strat u e <> 0 /\ x = XD (snd u) (fst e) (snd e) None (emission_amount D strat u e / (1 - use D strat u u)).
Proof.
  intros O MB [_ NCE]. pose proof MB as JB. apply in_bg_iff' in JB. destruct (bg_cols u O MB) as (A & B & E & RA & RB & NA & NBm & VA & VB).
  assert (IXb : forall v, In v bg -> indexed g v) by (apply (bg_in D strat ord fuel vs g ORD R)). pose proof (O u (IXb u JB)) as OU.
  unfold mgr_emissions. rewrite MB, E. pose proof (nth_pos u bg JB) as EJ.
  assert (COL : forall i q, In (i, q) (column B (pos u bg)) <-> exists e, nth_error ems i = Some e /\ emission_amount D strat u e <> 0 /\ q = emission_amount D strat u e / (1 - use D strat u u)).
  { intros i q. rewrite (column_rows ems bg B _ (pos u bg) u i q NEM NB NBm RB EJ). split.
    - intros (e & EI & -> & r & J). apply entry_cutoff, cutoff_has in J. exists e. split; [exact EI|]. split; [rewrite emission_emitted; apply NCE, J|]. rewrite (VB u i e JB EI). reflexivity.
    - intros (e & EI & NZ & ->). exists e. split; [exact EI|]. split; [rewrite (VB u i e JB EI); reflexivity|]. assert (UN : emitted D strat u e <> []) by (intros Z; apply NZ; rewrite emission_emitted, Z; reflexivity).
      destruct (cutoff_in D strat u e UN) as [r J]. exists r. apply in_flat_map. exists u. auto. }
  rewrite scan_nz by (intros [i q] J; apply COL in J as (e & _ & NZ & ->); cbn; apply (per_unit_nz D strat u _ OU NZ)).
  assert (DEF : forall i q e, nth_error ems i = Some e -> bg_emission g u (i, q) = BOk (XD (snd u) (fst e) (snd e) None q)) by (intros i q e EI; unfold bg_emission; cbn [fst snd]; rewrite EI; reflexivity).
  destruct (bmap_ok (bg_emission g u) (column B (pos u bg))) as (xs & EX & S).
  { intros [i q] J. apply COL in J as (e & EI & _). rewrite (DEF i q e EI). eauto. }
  exists xs. split; [exact EX|]. split.
  - eapply (bmap_nd _ fst); [|apply column_nd|exact EX]. intros [i q] [j r] x J1 J2 X1 X2. apply COL in J1 as (w & EI & _). apply COL in J2 as (w' & EK & _). rewrite (DEF i q w EI) in X1. rewrite (DEF j r w' EK) in X2. cbn.
    injection X1 as <-. injection X2 as X Y _. assert (w = w') by (destruct w, w'; cbn in *; congruence). subst w'. rewrite (pos_eq ems i w NEM EI), (pos_eq ems j w NEM EK). reflexivity.
  - intros x. rewrite S. split.
    + intros ([i q] & J & X). apply COL in J as (e & EI & NZ & ->). rewrite (DEF i _ e EI) in X. injection X as <-. exists e. auto.
    + intros (e & NZ & ->). assert (UN : emitted D strat u e <> []) by (intros Z; apply NZ; rewrite emission_emitted, Z; reflexivity).
      pose proof (emitted_indexed D strat ord fuel vs g ORD R u e (IXb u JB) UN) as JE. pose proof (nth_pos e ems JE) as EW.
      eexists (pos e ems, _). split; [apply COL; exists e; auto|]. apply (DEF _ _ e EW).
Qed.
Lemma scan_cells_nz m : (forall e, In e (stored_cells m) -> snd e <> 0) -> scan_cells m = stored_cells m.
Proof.
  unfold scan_cells. generalize (stored_cells m). induction l as [|[[i j] q] l IH]; intros NZ; [reflexivity|]. cbn [filter snd map]. pose proof (NZ _ (or_introl eq_refl)) as N. cbn in N. destruct (eqb_spec q 0); [contradiction|].
  cbn [negb map fst combine]. rewrite IH by (intros e J; apply NZ; right; exact J). reflexivity.
Qed.
Lemma In_stored_cells m i j q : In (i, j, q) (stored_cells m) <-> (i < m_rows m)%nat /\ (j < m_cols m)%nat /\ is_stored m i j = true /\ q = cell m i j.
Proof.
  unfold stored_cells. rewrite in_flat_map. split.
  - intros (i' & J & X). apply in_seq in J. apply in_map_iff in X as ([j' q'] & X & J'). cbn in X. injection X as -> -> ->. apply In_mrow in J' as (A & B & C). repeat split; auto; lia.
  - intros (A & B & C & E). exists i. split; [apply in_seq; lia|]. apply in_map_iff. exists (j, q). split; [reflexivity|]. apply In_mrow. auto.
Qed.
Lemma stored_cells_nd m : NoDup (map fst (stored_cells m)).
Proof.
  unfold stored_cells. assert (H : forall rs, NoDup rs -> NoDup (map fst (flat_map (fun i => map (fun jq : nat * Qc => (i, fst jq, snd jq)) (mrow m i)) rs))).
  { induction rs as [|i rs IH]; intros N; [constructor|]. inversion N as [|? ? NI NL]; subst. cbn [flat_map]. rewrite map_app, map_map. cbn [fst]. apply nodup_app; [| apply IH, NL |].
    - unfold mrow. rewrite map_map. cbn [fst]. apply FinFun.Injective_map_NoDup; [intros a b E; injection E; auto|]. apply NoDup_filter, seq_NoDup.
    - intros [a b] J1 J2. apply in_map_iff in J1 as (jq & E & _). injection E as <- _. apply in_map_iff in J2 as ([[a' b'] q'] & E & J2). cbn in E. injection E as -> ->. apply in_flat_map in J2 as (i' & J & X). apply in_map_iff in X as (jq' & E & _). injection E as <- _ _. contradiction. }
  apply H, seq_NoDup.
Qed.
Lemma fg_report n u : (forall w, indexed g w -> ordinary D strat w) -> (forall w, indexed g w -> no_cancellation D strat w) -> indexed g u -> (fg_fuel g <= n)%nat ->
  exists ps, mgr_foreground D n g u = Some (BOk (XD (snd u) (fst u) Output None 1 :: map (fun p => XD (snd (fst p)) (fst (snd p)) Input (Some (snd (snd p))) (use D strat (fst p) (snd p) / (1 - use D strat (fst p) (fst p)))) ps))
    /\ NoDup ps /\ forall v w, In (v, w) ps <-> needs D strat u v /\ in_background g v = false /\ in_background g w = false /\ w <> v /\ use D strat v w <> 0.
Proof.
  intros O NC IU FU. unfold mgr_foreground. assert (DU : dir_of D u = Output) by (unfold dir_of; destruct (O u IU) as [-> _]; reflexivity). rewrite DU. destruct (in_background g u) eqn:MB.
  - destruct (bg_cols u O MB) as (A & B & E & _). rewrite E. exists []. split; [reflexivity|]. split; [constructor|]. intros v w. split; [intros []|]. intros (N & NBv & _). exfalso.
    apply in_bg_iff' in MB. apply in_bg_false in NBv. apply NBv. exact (closed_needs D strat ord fuel _ g ORD R u v MB N).
  - destruct (foreground_nodes D strat ord fuel [AddAll vs] g ORD R n u IU FU) as (l & EL & ND & ML & HD & TO). rewrite EL.
    destruct (fg_matrices_spec D strat ord fuel vs g ORD R u l IU ND ML) as (af & ad & bf & EM & RA & CA & RD & CD & RB & CB & NA & NAd & NBf). rewrite EM.
    assert (IXl : forall v, In v l -> indexed g v) by (intros v J; apply (indexed_split D strat ord fuel vs g ORD R); apply or_introl; exact (l_fg D strat ord fuel vs g ORD R u l IU ML v J)).
    assert (COL : forall i j q, In (i, j, q) (stored_cells af) <-> exists v w, nth_error l i = Some w /\ nth_error l j = Some v /\ w <> v /\ use D strat v w <> 0 /\ q = use D strat v w / (1 - use D strat v v)).
    { intros i j q. rewrite In_stored_cells, RA, CA. split.
      - intros (LI & LJ & S & ->). apply nth_error_Some in LI, LJ. destruct (nth_error l i) as [w|] eqn:EI; [|contradiction]. destruct (nth_error l j) as [v|] eqn:EJ; [|contradiction]. exists v, w. split; [reflexivity|]. split; [reflexivity|].
        apply (named_stored l l af _ i j w v ND ND NA EI EJ) in S as [r S]. unfold afl in S. apply filter_In in S as [S _]. pose proof (nth_error_In _ _ EI) as JW. pose proof (nth_error_In _ _ EJ) as JV.
        apply (entry_interior D strat l v w r ND JV), interior_has in S as [U NE]. destruct (NC v (IXl v JV)) as [NCV _]. pose proof (NCV w U) as NZ. split; [congruence|]. split; [exact NZ|].
        rewrite (pos_eq l i w ND EI), (pos_eq l j v ND EJ), (cell_afl D strat g u l ND ML af v w NA JV JW). apply rel_ordinary; [apply O, IXl, JV|congruence].
      - intros (v & w & EI & EJ & NE & NZ & ->). pose proof (nth_error_In _ _ EI) as JW. pose proof (nth_error_In _ _ EJ) as JV. split; [apply nth_error_Some; congruence|]. split; [apply nth_error_Some; congruence|]. split.
        + apply (named_stored l l af _ i j w v ND ND NA EI EJ). assert (UN : uses D strat v w <> []) by (intros Z; apply NZ; unfold use; rewrite Z; reflexivity). destruct (interior_in D strat v w UN) as [r J]; [congruence|]. exists r. unfold afl. apply filter_In. split; [apply in_flat_map; eauto|].
          cbn [fst snd]. apply ML in JW as [_ X]. destruct (mem w bg) eqn:M; [apply mem_In in M; contradiction|reflexivity].
        + rewrite (pos_eq l i w ND EI), (pos_eq l j v ND EJ), (cell_afl D strat g u l ND ML af v w NA JV JW). symmetry. apply rel_ordinary; [apply O, IXl, JV|congruence]. }
    rewrite scan_cells_nz.
    2:{ intros [[i j] q] J. apply COL in J as (v & w & _ & EJ & _ & NZ & ->). cbn. apply (per_unit_nz D strat v _ (O v (IXl v (nth_error_In _ _ EJ))) NZ). }
    assert (DEF : forall i j q v w, nth_error l i = Some w -> nth_error l j = Some v -> fg_exchange D l (i, j, q) = BOk (XD (snd v) (fst w) Input (Some (snd w)) q)).
    { intros i j q v w EI EJ. unfold fg_exchange. cbn [fst snd]. rewrite EI, EJ. unfold dir_of. destruct (O w (IXl w (nth_error_In _ _ EI))) as [-> _]. reflexivity. }
    set (pr := fun e : nat * nat * Qc => (nth (snd (fst e)) l u, nth (fst (fst e)) l u)). exists (map pr (stored_cells af)).
    assert (NTH : forall i v, nth_error l i = Some v -> nth i l u = v) by (intros i v E; apply nth_error_nth; exact E).
    assert (BM : forall cs, (forall e, In e cs -> In e (stored_cells af)) -> bmap (fg_exchange D l) cs = BOk (map (fun p => XD (snd (fst p)) (fst (snd p)) Input (Some (snd (snd p))) (use D strat (fst p) (snd p) / (1 - use D strat (fst p) (fst p)))) (map pr cs))).
    { induction cs as [|[[i j] q] cs IH]; intros IN; [reflexivity|]. cbn [bmap map]. destruct (proj1 (COL i j q) (IN _ (or_introl eq_refl))) as (v & w & EI & EJ & NE & NZ & Q). rewrite (DEF i j q v w EI EJ), IH by (intros e J; apply IN; right; exact J).
      unfold pr. cbn [fst snd]. rewrite (NTH j v EJ), (NTH i w EI), Q. reflexivity. }
    rewrite (BM _ (fun e J => J)). split; [reflexivity|]. split.
    + pose proof (stored_cells_nd af) as N. assert (H : forall cs, (forall e, In e cs -> In e (stored_cells af)) -> NoDup (map fst cs) -> NoDup (map pr cs)).
      { induction cs as [|[[i j] q] cs IH]; intros IN NC'; [constructor|]. cbn [map] in *. inversion NC' as [|? ? NI NL]; subst. constructor; [|apply IH; [intros e J; apply IN; right; exact J|exact NL]].
        intros J. apply NI. apply in_map_iff in J as ([[i' j'] q'] & E & J). apply in_map_iff. exists (i', j', q'). split; [|exact J]. unfold pr in E. cbn [fst snd] in E.
        destruct (proj1 (COL i j q) (IN _ (or_introl eq_refl))) as (v & w & EI & EJ & _). destruct (proj1 (COL i' j' q') (IN _ (or_intror J))) as (v' & w' & EI' & EJ' & _).
        rewrite (NTH j v EJ), (NTH i w EI), (NTH j' v' EJ'), (NTH i' w' EI') in E. injection E as -> ->. cbn. rewrite (pos_eq l i w ND EI), (pos_eq l j v ND EJ), (pos_eq l i' w ND EI'), (pos_eq l j' v ND EJ'). reflexivity. }
      apply H; [auto|exact N].
    + intros v w. rewrite in_map_iff. split.
      * intros ([[i j] q] & E & J). apply COL in J as (v' & w' & EI & EJ & NE & NZ & _). unfold pr in E. cbn [fst snd] in E. rewrite (NTH j v' EJ), (NTH i w' EI) in E. injection E as -> ->. pose proof (nth_error_In _ _ EI) as JW. pose proof (nth_error_In _ _ EJ) as JV.
        apply ML in JV as [N1 N2]. apply ML in JW as [_ N3]. rewrite !in_bg_false. auto 8.
      * intros (N & NBv & NBw & NE & NZ). rewrite in_bg_false in NBv, NBw. assert (JV : In v l) by (apply ML; auto).
        assert (UN : uses D strat v w <> []) by (intros Z; apply NZ; unfold use; rewrite Z; reflexivity). apply uses_depends in UN. assert (JW : In w l) by (apply ML; split; [eapply rt_trans; [exact N|apply rt_step; exact UN]|exact NBw]).
        pose proof (nth_pos v l JV) as EJ. pose proof (nth_pos w l JW) as EI. eexists (pos w l, pos v l, _). split; [|apply COL; exists v, w; auto 8]. unfold pr. cbn [fst snd]. rewrite (NTH _ v EJ), (NTH _ w EI). reflexivity.
Qed.
End Queries.

(** * C117 *)
(** The matrices of the foreground of a product, in the first state of a manager: nothing is lost, and the cell of row [w] and column [v] is
    the amount of [w] used (or emitted) per unit of net output of [v]. *)
Theorem C117_matrices D strat g u l : fresh D strat g -> indexed g u -> foreground_products D strat g u l -> (forall w, indexed g w -> ordinary D strat w) ->
  exists af ad bf, fg_matrices g l = BOk (af, ad, bf, []) /\ (m_rows af, m_cols af) = (length l, length l) /\ (m_rows ad, m_cols ad) = (length (background g), length l)
    /\ (m_rows bf, m_cols bf) = (length (e_ems (g_st g)), length l)
    /\ (forall i j v w, nth_error l j = Some v -> nth_error l i = Some w -> v <> w -> cell af i j = use D strat v w / (1 - use D strat v v))
    /\ (forall j v, nth_error l j = Some v -> cell af j j = 0)
    /\ (forall i j v w, nth_error l j = Some v -> nth_error (background g) i = Some w -> cell ad i j = use D strat v w / (1 - use D strat v v))
    /\ (forall i j v e, nth_error l j = Some v -> nth_error (e_ems (g_st g)) i = Some e -> cell bf i j = emission_amount D strat v e / (1 - use D strat v v)).
Proof.
  intros F IU [ND ML'] O. destruct (fresh_all D strat g F) as (ord & fuel & vs & b & ORD & R). set (g' := Eng _ _ _ _ _ _ _ _ _ b) in R. change (indexed g' u) in IU. change (forall w, indexed g' w -> ordinary D strat w) in O.
  change (fg_matrices g l) with (fg_matrices g' l). change (background g) with (background g'). change (e_ems (g_st g)) with (e_ems (g_st g')).
  assert (ML : forall v, In v l <-> needs D strat u v /\ ~ In v (background g')) by (intros v; rewrite ML'; change (in_background g v) with (in_background g' v); rewrite in_bg_false; reflexivity).
  assert (NB := bg_nd D strat ord fuel vs g' ORD R). clearbody g'.
  destruct (fg_matrices_spec D strat ord fuel vs g' ORD R u l IU ND ML) as (af & ad & bf & EM & RA & CA & RD & CD & RB & CB & NA & NAd & NBf). exists af, ad, bf. rewrite RA, CA, RD, CD, RB, CB. do 4 (split; [first [exact EM|reflexivity]|]).
  assert (IXl : forall v, In v l -> indexed g' v) by (intros v J; apply (indexed_split D strat ord fuel vs g' ORD R); apply or_introl; exact (l_fg D strat ord fuel vs g' ORD R u l IU ML v J)).
  split; [|split; [|split]].
  - intros i j v w EJ EI NE. pose proof (nth_error_In _ _ EJ) as JV. pose proof (nth_error_In _ _ EI) as JW. rewrite (pos_eq l i w ND EI), (pos_eq l j v ND EJ), (cell_afl D strat g' u l ND ML af v w NA JV JW). apply rel_ordinary; auto.
  - intros j v EJ. pose proof (nth_error_In _ _ EJ) as JV. rewrite (pos_eq l j v ND EJ), (cell_afl D strat g' u l ND ML af v v NA JV JV). unfold rel. rewrite eqb_refl. reflexivity.
  - intros i j v w EJ EI. pose proof (nth_error_In _ _ EJ) as JV. pose proof (nth_error_In _ _ EI) as JW. rewrite (pos_eq _ i w NB EI), (pos_eq l j v ND EJ), (cell_adl D strat ord fuel vs g' ORD R l ND ad v w NAd JV JW). apply rel_ordinary; auto.
    intros ->. apply ML in JV as [_ X]. contradiction.
  - intros i j v e EJ EI. pose proof (nth_error_In _ _ EJ) as JV. rewrite (pos_eq l j v ND EJ), (cell_bfl D strat ord fuel vs g' ORD R l ND bf v i e NBf JV EI). apply emi_ordinary; auto.
Qed.
Print Assumptions C117_matrices.

(** The inventory of one product, in the first state of a manager, with an exact solver: either the foreground has a cycle and its matrix is
    singular, or the report has, once each, exactly the emissions with a nonzero total over net outputs [X] of the foreground and the
    background products, times the reference value of the process; [X] balances the foreground exactly, and the background up to the
    round of suppliers at which the iteration stops. *)
Theorem C117_lci_partial D strat g u n inv in_ex thr count : fresh D strat g -> (forall w, indexed g w -> ordinary D strat w) -> inverts inv -> indexed g u ->
  (S (length (c_edges (g_cg g))) <= n)%nat -> in_ex u <> 0 ->
  exists l, foreground_products D strat g u l /\
  ((mgr_lci inv in_ex n g u thr count = LSingular /\ ~ acyclic_above D strat g u) \/
   exists xs k X, let d := fun v => one u v + ask D strat l X v in
     mgr_lci inv in_ex n g u thr count = LOk xs /\ supplied D strat (background g) d thr count k X
     /\ (forall v, In v l -> X v = one u v + ask D strat (l ++ background g) X v)
     /\ (forall v, In v (background g) -> X v + rounds D strat (background g) k d v = one u v + ask D strat (l ++ background g) X v)
     /\ NoDup xs /\ forall x, In x xs <-> exists e, inventory D strat (l ++ background g) X e <> 0 /\ x = XD (snd u) (fst e) (snd e) None (inventory D strat (l ++ background g) X e * in_ex u)).
Proof.
  intros F O IV IU FU NC. destruct (fresh_all D strat g F) as (ord & fuel & vs & b & ORD & R).
  destruct (lci_all D strat ord fuel vs _ ORD R inv in_ex n u thr count O IV IU FU NC) as (l & FP & H). exists l. split; [exact FP|]. destruct H as [[E NA]|(xs & k & X & E & XF & XB & S)].
  - apply or_introl. split; [exact E|exact NA].
  - apply or_intror. exists xs, k, X. cbv zeta. split; [exact E|]. split; [exact XB|]. split; [|split; [|exact S]].
    + intros v J. rewrite ask_app, (XF v J) at 1. assert (Z : ask D strat (background g) X v = 0); [|rewrite Z; ring]. unfold ask. apply Qcsum_zero. intros w JW.
      assert (U : need D strat w v = 0); [|rewrite U; ring]. unfold need. destruct (eqb w v); [reflexivity|]. destruct (uses D strat w v) as [|q r] eqn:UE; [unfold use; rewrite UE; unfold Qcsum, Qcdiv; cbn; ring|]. exfalso.
      assert (N : uses D strat w v <> []) by (rewrite UE; discriminate). apply uses_depends in N. destruct (C32_background_closed D strat ord fuel _ _ ORD R) as (CL & _). pose proof (CL w v JW N) as B.
      destruct FP as [_ ML]. apply ML in J as [_ J]. apply in_bg_iff' in B. change (in_background g v = true) in B. change (in_background g v = false) in J. congruence.
    + intros v J. rewrite ask_app. pose proof (supplied_balance _ _ _ _ _ _ _ _ XB v J) as B. cbv beta in B. change (background _) with (background g) in B. rewrite B. ring.
Qed.
Print Assumptions C117_lci_partial.
(** ... so a foreground without cycles always has an inventory. *)
Corollary C117_lci_acyclic D strat g u n inv in_ex thr count : fresh D strat g -> (forall w, indexed g w -> ordinary D strat w) -> inverts inv -> indexed g u ->
  (S (length (c_edges (g_cg g))) <= n)%nat -> in_ex u <> 0 -> acyclic_above D strat g u -> exists xs, mgr_lci inv in_ex n g u thr count = LOk xs.
Proof.
  intros F O IV IU FU NC AC. destruct (C117_lci_partial D strat g u n inv in_ex thr count F O IV IU FU NC) as (l & _ & [[_ N]|(xs & k & X & E & _)]); [contradiction|eauto].
Qed.
Print Assumptions C117_lci_acyclic.

(** The reports, in the first state of a manager. *)
Theorem C117_dependencies_partial D strat g u : fresh D strat g -> indexed g u -> (forall w, indexed g w -> ordinary D strat w) -> no_cancellation D strat u ->
  exists xs, mgr_dependencies D g u = BOk xs /\
    (in_background g u = false -> Permutation xs (flat_map (fun x => match target D strat x, r_val x with
       | Some w, Some q => if in_background g w then [exchange_of u w ((match r_dir x with Output => - q | Input => q end) / (1 - use D strat u u))] else []
       | _, _ => [] end) (db_inv D u)))
    /\ (in_background g u = true -> NoDup xs /\ forall x, In x xs <-> exists w, w <> u /\ use D strat u w <> 0 /\ x = XD (snd u) (fst w) Input (Some (snd w)) (use D strat u w / (1 - use D strat u u))).
Proof.
  intros F IU O NC. destruct (fresh_all D strat g F) as (ord & fuel & vs & b & ORD & R). destruct (in_background g u) eqn:MB.
  - destruct (deps_background D strat ord fuel vs _ ORD R u O MB NC) as (xs & E & N & S). exists xs. split; [exact E|]. split; [discriminate|]. intros _. split; [exact N|exact S].
  - destruct (deps_foreground D strat ord fuel vs _ ORD R u IU MB (O u IU)) as (xs & E & P). exists xs. split; [exact E|]. split; [intros _; exact P|discriminate].
Qed.
Print Assumptions C117_dependencies_partial.
Theorem C117_emissions_partial D strat g u : fresh D strat g -> indexed g u -> (forall w, indexed g w -> ordinary D strat w) -> no_cancellation D strat u ->
  exists xs, mgr_emissions g u = BOk xs /\
    (in_background g u = false -> Permutation xs (flat_map (fun x => match r_val x with
       | Some q => if negb (eqb q 0) && negb (r_isref x) then match starget D strat x with None => [XD (snd u) (r_flow x) (r_dir x) None (q / (1 - use D strat u u))] | Some _ => [] end else []
       | None => [] end) (db_inv D u)))
    /\ (in_background g u = true -> NoDup xs /\ forall x, In x xs <-> exists e, emission_amount D strat u e <> 0 /\ x = XD (snd u) (fst e) (snd e) None (emission_amount D strat u e / (1 - use D strat u u))).
Proof.
  intros F IU O NC. destruct (fresh_all D strat g F) as (ord & fuel & vs & b & ORD & R). destruct (in_background g u) eqn:MB.
  - destruct (ems_background D strat ord fuel vs _ ORD R u O MB NC) as (xs & E & N & S). exists xs. split; [exact E|]. split; [discriminate|]. intros _. split; [exact N|exact S].
  - destruct (ems_foreground D strat ord fuel vs _ ORD R u IU MB (O u IU)) as (xs & E & P). exists xs. split; [exact E|]. split; [intros _; exact P|discriminate].
Qed.
Print Assumptions C117_emissions_partial.
(** [foreground]: the reference exchange, then one exchange for each pair of foreground products of [u] of which the second is used by the
    first, with the net amount per unit of net output. *)
Theorem C117_foreground_report_partial D strat g u n : fresh D strat g -> (forall w, indexed g w -> ordinary D strat w) -> (forall w, indexed g w -> no_cancellation D strat w) -> indexed g u ->
  (S (length (c_edges (g_cg g))) <= n)%nat ->
  exists ps, mgr_foreground D n g u = Some (BOk (XD (snd u) (fst u) Output None 1 :: map (fun p => XD (snd (fst p)) (fst (snd p)) Input (Some (snd (snd p))) (use D strat (fst p) (snd p) / (1 - use D strat (fst p) (fst p)))) ps))
    /\ NoDup ps /\ forall v w, In (v, w) ps <-> needs D strat u v /\ in_background g v = false /\ in_background g w = false /\ w <> v /\ use D strat v w <> 0.
Proof.
  intros F O NC IU FU. destruct (fresh_all D strat g F) as (ord & fuel & vs & b & ORD & R). exact (fg_report D strat ord fuel vs _ ORD R n u O NC IU FU).
Qed.
Print Assumptions C117_foreground_report_partial.

(** Refuted, always: the inventory of a background product that has an emission raises AttributeError. *)
Theorem C117_refuted_inventory D strat g u e : fresh D strat g -> (forall w, indexed g w -> ordinary D strat w) -> in_background g u = true -> emission_amount D strat u e <> 0 ->
  mgr_inventory D g u = BErr BAttributeError.
Proof.
  intros F O MB NZ. destruct (fresh_all D strat g F) as (ord & fuel & vs & b & ORD & R). set (g' := Eng _ _ _ _ _ _ _ _ _ b) in R. change (mgr_inventory D g u) with (mgr_inventory D g' u). change (forall w, indexed g' w -> ordinary D strat w) in O. change (in_background g' u = true) in MB.
  clearbody g'. destruct (bg_cols D strat ord fuel vs g' ORD R u O MB) as (A & B & E & RA & RB & NA & NBm & VA & VB). unfold mgr_inventory. rewrite MB, E.
  pose proof MB as JB. apply in_bg_iff' in JB. assert (NB := bg_nd D strat ord fuel vs g' ORD R). assert (NEM := ems_nd D strat ord fuel vs g' ORD R). pose proof (nth_pos u _ JB) as EJ.
  destruct (bmap_ok (fun e0 : nat * Qc => match nth_error (bg_list (g_st g') (g_cg g')) (fst e0) with Some dep => BOk (XD (snd u) (fst dep) (signed_dir (snd e0)) None (Qcabs (snd e0))) | None => BErr BIndexError end) (scan (column A (pos u (background g'))))) as (xs & EX & _).
  { intros [i q] J. apply in_combine_l in J. unfold nonzero in J. apply in_map_iff in J as ([i' q'] & <- & J). apply filter_In in J as [J _]. apply In_column in J as (L & _). rewrite RA in L. apply nth_error_Some in L. cbn [fst]. unfold background in L.
    destruct (nth_error (bg_list (g_st g') (g_cg g')) i'); [eauto|contradiction]. }
  rewrite EX. destruct (nonzero (column B (pos u (background g')))) as [|i r] eqn:N; [|reflexivity]. exfalso.
  assert (UN : emitted D strat u e <> []) by (intros Z; apply NZ; rewrite emission_emitted, Z; reflexivity). assert (IU : indexed g' u) by (apply (bg_in D strat ord fuel vs g' ORD R); exact JB).
  pose proof (emitted_indexed D strat ord fuel vs g' ORD R u e IU UN) as JE. destruct (cutoff_in D strat u e UN) as [r J].
  assert (X : In (pos e (e_ems (g_st g'))) (nonzero (column B (pos u (background g'))))); [|rewrite N in X; destruct X].
  unfold nonzero. apply in_map_iff. exists (pos e (e_ems (g_st g')), per D strat u e). split; [reflexivity|]. apply filter_In. split.
  - apply (column_rows (e_ems (g_st g')) (background g') B _ (pos u (background g')) u _ _ NEM NB NBm RB EJ). exists e. split; [apply nth_pos, JE|]. split; [rewrite (VB u _ e JB (nth_pos e _ JE)); reflexivity|]. exists r. apply in_flat_map. exists u. auto.
  - cbn [snd]. destruct (eqb_spec (per D strat u e) 0) as [Z|]; [|reflexivity]. exfalso. apply (per_unit_nz D strat u _ (O u IU) NZ). exact Z.
Qed.
Print Assumptions C117_refuted_inventory.

(** * Examples *)
(** A solver that can be computed with: the sum of the powers, if it is the solution, otherwise elimination. *)
Definition quick (n : nat) (t : list trip) : option vec :=
  let x := neumann t (unit_demand 0) n in if forallb (fun i => eqb (x i) (unit_demand 0 i + mulv t x i)) (seq 0 n) then Some x else gauss n t.
Lemma quick_inverts : inverts quick.
Proof.
  intros n t. unfold quick. destruct (forallb _ _) eqn:F; [|apply gauss_inverts]. split; [|discriminate]. intros x [= <-] i L. rewrite forallb_forall in F. assert (J : In i (seq 0 n)) by (apply in_seq; lia). specialize (F i J).
  destruct (eqb_spec (neumann t (unit_demand 0) n i) (unit_demand 0 i + mulv t (neumann t (unit_demand 0) n) i)) as [E|]; [exact E|discriminate].
Qed.
Definition first (D : db) (u : node) : eng := match brun D Abort 20 (fun l => l) eng0 [AddRef u] with UOk g => g | _ => eng0 end.
Lemma first_fresh D u : match brun D Abort 20 (fun l => l) eng0 [AddRef u] with UOk _ => true | _ => false end = true -> fresh D Abort (first D u).
Proof. intros E. exists (fun l => l), 20%nat, (AddRef u). split; [auto|]. unfold first. destruct (brun D Abort 20 (fun l => l) eng0 [AddRef u]); congruence. Qed.
Definition one_report (x : xdef) (r : lres (list xdef)) : Prop := exists q, r = LOk [XD (x_proc x) (x_flow x) (x_dir x) (x_term x) q] /\ q = x_val x.
(** The database of C80, asked for product (4, 4) only: 4 needs 3, which is foreground too, over the background cycle of 1 and 2. *)
Example C117_example : let g := first D80 (4, 4)%nat in
  fresh D80 Abort g /\ (forall w, indexed g w -> ordinary D80 Abort w) /\ (exists u v, in_background g u = true /\ in_background g v = false /\ indexed g u /\ indexed g v)
  /\ foreground_of 10 g (4, 4)%nat = Some (BOk [(4, 4); (3, 3)]%nat) /\ acyclic_above D80 Abort g (4, 4)%nat
  /\ one_report (XD 4 9 Output None (Q 764 3)) (mgr_lci quick (fun _ => 1) 10 g (4, 4)%nat (Q 1 4) 3).
Proof.
  cbv zeta. assert (F : fresh D80 Abort (first D80 (4, 4)%nat)) by (apply first_fresh; vm_compute; reflexivity). split; [exact F|].
  assert (IX : forall w, indexed (first D80 (4, 4)%nat) w -> In w [(1, 1); (2, 2); (3, 3); (4, 4)]%nat).
  { intros w J. change (In w (e_pf (g_st (first D80 (4, 4)%nat)))) in J. vm_compute in J. cbn. tauto. }
  split. { intros w J. apply IX in J. assert (X : listed flat80 w).
    { destruct J as [<-|[<-|[<-|[<-|[]]]]]; [apply or_intror, in_bg_check|apply or_intror, in_bg_check|apply or_introl, in_fg_check|apply or_introl, in_fg_check]; vm_compute; reflexivity. }
    exact (proj1 C81_example w X). }
  split; [exists (1, 1)%nat, (3, 3)%nat; (split; [vm_compute; reflexivity|split; [vm_compute; reflexivity|split; vm_compute; tauto]])|]. split; [vm_compute; reflexivity|]. split.
  - intros v w N NB N1 N2. assert (RE : reached D80 Abort (first D80 (4, 4)%nat)) by (destruct F as (o & f & c & A & B); exists o, f, [c]; auto).
    assert (IU : indexed (first D80 (4, 4)%nat) (4, 4)%nat) by (vm_compute; tauto).
    destruct (C117_foreground D80 Abort (first D80 (4, 4)%nat) (4, 4)%nat 10 RE IU) as (l & E & [ND ML] & _); [vm_compute; lia|]. assert (L : l = [(4, 4); (3, 3)]%nat) by (vm_compute in E; congruence). subst l.
    assert (JV : In v [(4, 4); (3, 3)]%nat) by exact (proj2 (ML v) (conj N NB)).
    destruct (eqb_spec v w) as [|NE]; [assumption|]. exfalso. assert (IV : indexed (first D80 (4, 4)%nat) v) by (destruct JV as [<-|[<-|[]]]; vm_compute; tauto).
    pose proof (proj2 (C117_in_scc D80 Abort (first D80 (4, 4)%nat) v RE IV) (ex_intro _ w (conj (not_eq_sym NE) (conj N1 N2)))) as X.
    assert (Y : forallb (fun v => negb (mgr_in_scc (first D80 (4, 4)%nat) v)) [(4, 4); (3, 3)]%nat = true) by (vm_compute; reflexivity). rewrite forallb_forall in Y. specialize (Y v JV). rewrite X in Y. discriminate Y.
  - eexists. split; [vm_compute; reflexivity|]. apply Qc_is_canon; vm_compute; reflexivity.
Qed.
(** Refuted: the direction and the value of one report.  The inventory of (4, 4) has its output of one unit of 2 as an output of -1; the
    background product (2, 2) of the second database has its output of waste as an output of -1/2 in [dependencies], where the same
    exchange of a foreground product is an output of 2. *)
Theorem C117_refuted_sign : exists D g u, fresh D Abort g /\ ordinary D Abort u /\ in_background g u = false /\ In (RX 2 Output (Some 2%nat) (Some (Q 1 1)) false) (db_inv D u)
  /\ exists xs q, mgr_inventory D g u = BOk xs /\ In (XD (snd u) 2 Output None q) xs /\ q < 0.
Proof.
  exists D80, (first D80 (4, 4)%nat), (4, 4)%nat. split; [apply C117_example|]. split; [apply (proj1 (proj2 C117_example)); vm_compute; tauto|]. split; [vm_compute; reflexivity|]. split; [right; left; reflexivity|].
  eexists. eexists. split; [vm_compute; reflexivity|]. split; [right; left; reflexivity|]. vm_compute; reflexivity.
Qed.
Theorem C117_refuted_branches : exists D g u v, fresh D Abort g /\ ordinary D Abort u /\ ordinary D Abort v /\ in_background g u = true /\ in_background g v = false
  /\ In (RX 1 Output (Some 1%nat) (Some (Q 1 2)) false) (db_inv D u) /\ In (RX 1 Output (Some 1%nat) (Some (Q 2 1)) false) (db_inv D v)
  /\ (exists q, mgr_dependencies D g u = BOk [XD (snd u) 1 Output (Some 1%nat) q] /\ q = - Q 1 2) /\ (exists q, mgr_dependencies D g v = BOk [XD (snd v) 1 Output (Some 1%nat) q] /\ q = Q 2 1).
Proof.
  exists D80i, (first D80i (3, 3)%nat), (2, 2)%nat, (3, 3)%nat. split; [apply first_fresh; vm_compute; reflexivity|].
  split; [split; [reflexivity|split; [intros q J; vm_compute in J; destruct J|vm_compute; reflexivity]]|]. split; [split; [reflexivity|split; [intros q J; vm_compute in J; destruct J|vm_compute; reflexivity]]|].
  split; [vm_compute; reflexivity|]. split; [vm_compute; reflexivity|]. split; [left; reflexivity|]. split; [left; reflexivity|].
  split; (eexists; split; [vm_compute; reflexivity|apply Qc_is_canon; vm_compute; reflexivity]).
Qed.
(** Refuted for a treatment process (reference an input): process 3 takes in two units of 1 and emits one unit of 9 per unit treated; the
    reports are an output of two units of 1, an emission of -1 and an inventory of -1. *)
Definition D117 : db := DB (fun u => if eqb u (3, 3)%nat then [RX 1 Input (Some 1%nat) (Some (Q 2 1)) false; RX 9 Output None (Some (Q 1 1)) false] else cyc u)
  (fun _ _ => []) (fun u => if eqb u (3, 3)%nat then Some Input else if mem u [(1, 1); (2, 2)]%nat then Some Output else None).
Theorem C117_refuted_treatment : exists g, fresh D117 Abort g /\ in_background g (3, 3)%nat = false /\ db_inv D117 (3, 3)%nat = [RX 1 Input (Some 1%nat) (Some (Q 2 1)) false; RX 9 Output None (Some (Q 1 1)) false]
  /\ (exists q, mgr_dependencies D117 g (3, 3)%nat = BOk [XD 3 1 Output (Some 1%nat) q] /\ q = Q 2 1) /\ (exists q, mgr_emissions g (3, 3)%nat = BOk [XD 3 9 Output None q] /\ q = Q (-1) 1)
  /\ one_report (XD 3 9 Output None (Q (-1) 1)) (mgr_lci quick (fun _ => 1) 10 g (3, 3)%nat (Q 1 4) 3).
Proof.
  exists (first D117 (3, 3)%nat). split; [apply first_fresh; vm_compute; reflexivity|]. split; [vm_compute; reflexivity|]. split; [reflexivity|].
  split; [|split]; (eexists; split; [vm_compute; reflexivity|apply Qc_is_canon; vm_compute; reflexivity]).
Qed.
(** Refuted: what a manager answers depends on what it was asked before.  The same question, (0, 0) of the database of C35, to a new manager
    and to one that was asked for (2, 2) in between: the emission disappears. *)
Theorem C117_refuted_history : exists D g1 g2 u, brun D Abort 50 (fun l => l) eng0 [AddRef u] = UOk g1 /\ brun D Abort 50 (fun l => l) eng0 [AddRef u; AddRef (2, 2)%nat; AddRef u] = UOk g2
  /\ inverts quick /\ one_report (XD 0 9 Output None (Q 3 2)) (mgr_lci quick (fun _ => 1) 20 g1 u (Q 1 4) 30) /\ mgr_lci quick (fun _ => 1) 20 g2 u (Q 1 4) 30 = LOk [].
Proof.
  exists D35, (res35 [AddRef (0, 0)%nat]), (res35 [AddRef (0, 0); AddRef (2, 2); AddRef (0, 0)]%nat), (0, 0)%nat. split; [vm_compute; reflexivity|]. split; [vm_compute; reflexivity|]. split; [exact quick_inverts|].
  split; [|vm_compute; reflexivity]. eexists. split; [vm_compute; reflexivity|]. apply Qc_is_canon; vm_compute; reflexivity.
Qed.
Print Assumptions C117_refuted_history.
(** The hypothesis [no_cancellation] can be computed; it holds for the products of the example. *)
Lemma no_cancellation_check D strat u :
  forallb (fun x => match target D strat x with Some w => negb (eqb (use D strat u w) 0) | None => true end
                    && match emitted D strat u (r_flow x, r_dir x) with [] => true | _ => negb (eqb (emission_amount D strat u (r_flow x, r_dir x)) 0) end) (db_inv D u) = true -> no_cancellation D strat u.
Proof.
  rewrite forallb_forall. intros H. split.
  - intros w N Z. destruct (uses D strat u w) as [|q l] eqn:E; [contradiction|]. assert (J : In q (uses D strat u w)) by (rewrite E; left; reflexivity). unfold uses in J. apply in_flat_map in J as (x & JX & J).
    destruct (target D strat x) as [w'|] eqn:T; [|destruct J]. destruct (r_val x); [|destruct J]. destruct (eqb_spec w' w) as [->|]; [|destruct J]. specialize (H x JX). rewrite T in H. apply andb_true_iff in H as [H _]. rewrite Z, eqb_refl in H. discriminate.
  - intros e N Z. destruct (emitted D strat u e) as [|q l] eqn:E; [contradiction|]. assert (J : In q (emitted D strat u e)) by (rewrite E; left; reflexivity). unfold emitted in J. apply in_flat_map in J as (x & JX & J).
    destruct (r_val x); [|destruct J]. destruct (eqb_spec (r_flow x, r_dir x) e) as [EE|]; [|rewrite andb_false_r in J; destruct J]. specialize (H x JX). rewrite EE, emission_emitted, E in H. apply andb_true_iff in H as [_ H]. rewrite Z, eqb_refl in H. discriminate.
Qed.
Example C117_example_hypotheses : forall w, indexed (first D80 (4, 4)%nat) w -> no_cancellation D80 Abort w.
Proof.
  assert (X : forallb (fun u => forallb (fun x => match target D80 Abort x with Some w => negb (eqb (use D80 Abort u w) 0) | None => true end
                    && match emitted D80 Abort u (r_flow x, r_dir x) with [] => true | _ => negb (eqb (emission_amount D80 Abort u (r_flow x, r_dir x)) 0) end) (db_inv D80 u)) (e_pf (g_st (first D80 (4, 4)%nat))) = true) by (vm_compute; reflexivity).
  rewrite forallb_forall in X. intros w J. apply no_cancellation_check. exact (X w J).
Qed.

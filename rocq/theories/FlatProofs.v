(** Supporting lemmas for the flat background (model: FlatModel.v). *)
From Verif Require Import Num Base ProcModel BgModel BgProofs BgProofs2 BgProofs3 BgProofs4 BgProofs5 BgProps BgProps2 BgLciModel BgLciProps BgNetProps FlatModel.
From Coq Require Import Permutation Lia.
Open Scope Qc_scope.
Open Scope list_scope.
Local Arguments eqb : simpl never.

Definition named {R} (rows : list R) (cols : list node) (m : list trip) (es : list (node * R * Qc)) : Prop :=
  Permutation (map (fun r => (nth_error rows (fst (fst r)), nth_error cols (snd (fst r)), snd r)) m)
              (map (fun e => (Some (snd (fst e)), Some (fst (fst e)), snd e)) es).

Lemma nodup_app {A} (l m : list A) : NoDup l -> NoDup m -> (forall x, In x l -> In x m -> False) -> NoDup (l ++ m).
Proof.
  induction 1 as [|a l N ND IH]; intros NM Dj; cbn; [exact NM|]. constructor.
  - rewrite in_app_iff. intros [J|J]; [contradiction|]. apply (Dj a); cbn; auto.
  - apply IH; [exact NM|]. intros x J K. apply (Dj x); cbn; auto.
Qed.
Lemma cell_mulv m i j : cell m i j = mulv (m_ent m) (unit_demand j) i.
Proof.
  unfold cell, mulv, unit_demand. apply Qcsum_ext. intros [[a b] q] _. cbn. destruct (Nat.eqb a i); cbn; [|destruct (Nat.eqb b j); reflexivity].
  destruct (Nat.eqb b j); ring.
Qed.
Lemma unit_demand_pos (u : node) (cols : list node) j : NoDup cols -> nth_error cols j = Some u -> forall v, In v cols -> unit_demand j (pos v cols) = if eqb v u then 1 else 0.
Proof.
  intros ND E v J. unfold unit_demand. destruct (eqb_spec v u) as [->|N].
  - rewrite (pos_nth_error cols j u ND E), Nat.eqb_refl. reflexivity.
  - destruct (Nat.eqb_spec (pos v cols) j) as [P|_]; [|reflexivity]. exfalso. apply N. pose proof (nth_pos v cols J) as X. congruence.
Qed.
(** parents of the entries are columns *)
Lemma named_parent {R} (rows : list R) cols m es e : named rows cols m es -> In e es -> In (fst (fst e)) cols.
Proof.
  intros P J. assert (X : In (Some (snd (fst e)), Some (fst (fst e)), snd e) (map (fun r : trip => (nth_error rows (fst (fst r)), nth_error cols (snd (fst r)), snd r)) m)).
  { eapply Permutation_in; [symmetry; exact P|]. apply in_map_iff. eauto. }
  apply in_map_iff in X as (r & E & _). injection E as E1 E2 E3. eapply nth_error_In; eassumption.
Qed.
Lemma named_cell {R} `{EqB R} (rows : list R) cols m es i j w u : NoDup rows -> NoDup cols -> named rows cols (m_ent m) es ->
  nth_error rows i = Some w -> nth_error cols j = Some u ->
  cell m i j = Qcsum (map (fun e => if eqb (snd (fst e)) w then snd e * (if eqb (fst (fst e)) u then 1 else 0) else 0) es).
Proof.
  intros NR NC P EI EJ. rewrite cell_mulv, (mulv_named rows cols (m_ent m) (unit_demand j) es i w NR NC EI P). apply Qcsum_ext. intros e J.
  rewrite (unit_demand_pos u cols j NC EJ); [reflexivity|]. exact (named_parent rows cols (m_ent m) es e P J).
Qed.
(** which cells are stored *)
Lemma named_stored {R} `{EqB R} (rows : list R) cols m es i j w u : NoDup rows -> NoDup cols -> named rows cols (m_ent m) es ->
  nth_error rows i = Some w -> nth_error cols j = Some u -> (is_stored m i j = true <-> exists q, In (u, w, q) es).
Proof.
  intros NR NC P EI EJ. unfold is_stored. rewrite existsb_exists. split.
  - intros ([[a b] q] & J & E). cbn in E. apply andb_true_iff in E as [E1 E2]. apply Nat.eqb_eq in E1, E2. subst a b.
    assert (X : In (Some w, Some u, q) (map (fun e : node * R * Qc => (Some (snd (fst e)), Some (fst (fst e)), snd e)) es)).
    { eapply Permutation_in; [exact P|]. apply in_map_iff. exists (i, j, q). cbn. rewrite EI, EJ. auto. }
    apply in_map_iff in X as ([[u' w'] q'] & E & X). cbn in E. injection E as -> -> ->. eauto.
  - intros (q & J). assert (X : In (Some w, Some u, q) (map (fun r : trip => (nth_error rows (fst (fst r)), nth_error cols (snd (fst r)), snd r)) (m_ent m))).
    { eapply Permutation_in; [symmetry; exact P|]. apply in_map_iff. exists (u, w, q). auto. }
    apply in_map_iff in X as ([[a b] q'] & E & X). cbn in E. injection E as E1 E2 ->. exists (a, b, q). split; [exact X|]. cbn.
    apply andb_true_iff. split; apply Nat.eqb_eq.
    + apply (NoDup_nth_error rows); [exact NR|apply nth_error_Some; congruence|congruence].
    + apply (NoDup_nth_error cols); [exact NC|apply nth_error_Some; congruence|congruence].
Qed.

(** * The entries of the foreground *)
Section Build.
Context (D : db) (strat : strategy) (ord : list nat -> list nat) (fuel : nat) (vs : list node) (g : eng).
Hypothesis ORD : forall l, Permutation (ord l) l.
Hypothesis R : brun D strat fuel ord eng0 [AddAll vs] = UOk g.
Notation fg := (foreground g). Notation bg := (background g). Notation ems := (e_ems (g_st g)).

(** the entries of [make_foreground] *)
Definition af_entries : list (node * node * Qc) := filter (fun e => negb (mem (snd (fst e)) bg)) (flat_map (interior_spec D strat) fg).
Definition ad_entries : list (node * node * Qc) := filter (fun e => mem (snd (fst e)) bg) (flat_map (interior_spec D strat) fg).
Definition bf_entries : list (node * emis * Qc) := flat_map (cutoff_spec D strat) fg.

Lemma interior_parent u e : In e (interior_spec D strat u) -> fst (fst e) = u.
Proof. unfold interior_spec. intros J. apply in_flat_map in J as (x & _ & J). destruct (target D strat x) as [n|]; [|destruct J]. destruct (r_val x); [|destruct J]. destruct (eqb u n); [destruct J|]. destruct J as [<-|[]]. reflexivity. Qed.
Lemma cutoff_parent u e : In e (cutoff_spec D strat u) -> fst (fst e) = u.
Proof.
  rewrite <- cutoff_spec_eq. intros J. apply in_map_iff in J as (e' & <- & J). apply Cuts_parent in J. exact J.
Qed.
Lemma fg_nd : NoDup fg. Proof. destruct (C33_foreground_order D strat ord fuel _ g ORD R) as (? & _). assumption. Qed.
Lemma fg_spec v : In v fg <-> indexed g v /\ ~ In v bg. Proof. destruct (C33_foreground_order D strat ord fuel _ g ORD R) as (_ & X & _). apply X. Qed.
Lemma bg_nd : NoDup bg. Proof. destruct (C32_background_closed D strat ord fuel _ g ORD R) as (_ & X & _). exact X. Qed.
Lemma bg_in v : In v bg -> indexed g v. Proof. destruct (C32_background_closed D strat ord fuel _ g ORD R) as (_ & _ & X & _). apply X. Qed.
Lemma ems_nd : NoDup ems. Proof. destruct (C31_entries D strat ord fuel _ g ORD R) as (_ & _ & X & _). exact X. Qed.
Lemma indexed_split v : indexed g v <-> In v fg \/ In v bg.
Proof. rewrite fg_spec. split; [|intros [[X _]|X]; [exact X|apply bg_in, X]]. intros J. destruct (mem v bg) eqn:M; [right; apply mem_In, M|left; split; [exact J|]]. intros X. apply mem_In in X. congruence. Qed.

Lemma pf_split : Permutation (e_pf (g_st g)) (bg ++ fg).
Proof.
  destruct (brun_ok D strat ord ORD fuel _ eng0 g (GI_eng0 D strat) R) as [G _]. pose proof (gi_ti _ _ _ G) as I.
  apply NoDup_Permutation; [apply (ti_nd _ _ _ _ I)| |].
  - apply nodup_app; [apply bg_nd|apply fg_nd|]. intros v J K. apply fg_spec in K as [_ K]. contradiction.
  - intros v. change (In v (e_pf (g_st g))) with (indexed g v). rewrite in_app_iff, indexed_split. tauto.
Qed.
Lemma interior_bg : Permutation (g_interior g) (flat_map (interior_spec D strat) bg) /\ Permutation (g_bgem g) (flat_map (cutoff_spec D strat) bg).
Proof.
  destruct (single_form D strat fuel ord vs g ORD R) as [s [c [B [S1 [S2 [UG [SI [SB _]]]]]]]].
  destruct (brun_ok D strat ord ORD fuel _ eng0 g (GI_eng0 D strat) R) as [G _]. pose proof (gi_ti _ _ _ G) as I. pose proof (gi_ci _ _ _ G) as C.
  assert (BG : background g = bg_list s c) by (unfold background; rewrite S1, S2; reflexivity). rewrite BG.
  destruct B as [IS [new [B1 [_ [_ [B4 [B5 _]]]]]]]. cbn in B1, B4, B5. subst new.
  assert (BP : Permutation (filter (fun u => mem u (bg_list s c)) (e_pf s)) (bg_list s c)).
  { rewrite S1, S2 in C. apply NoDup_Permutation; [apply NoDup_filter, (ti_nd _ _ _ _ IS)|rewrite <- BG; unfold background; apply (bg_list_nd D strat); auto; apply G|].
    intros v. rewrite filter_In, mem_In. split; [tauto|]. intros J. split; auto. rewrite S1 in I.
    apply (bg_list_spec D strat (taken s) c v I C) in J as [k [K _]]. apply (labelled_pf D strat (taken s) v I). eauto. }
  split.
  - rewrite SI. etransitivity; [apply Permutation_filter, Permutation_map; etransitivity; [symmetry; apply Permutation_rev|exact B4]|].
    rewrite map_flat_map, (filter_flat_parent _ (bg_list s c)); [rewrite BP|].
    + erewrite flat_map_ext; [reflexivity|]. intros u. apply interior_spec_eq.
    + intros u e J. apply in_map_iff in J as [e' [<- J]]. apply Ints_parent in J. exact J.
  - rewrite SB. etransitivity; [apply Permutation_filter, Permutation_map; etransitivity; [symmetry; apply Permutation_rev|exact B5]|].
    rewrite map_flat_map, (filter_flat_parent _ (bg_list s c)); [rewrite BP|].
    + erewrite flat_map_ext; [reflexivity|]. intros u. apply cutoff_spec_eq.
    + intros u e J. apply in_map_iff in J as [e' [<- J]]. apply Cuts_parent in J. exact J.
Qed.
Lemma foreground_entries : Permutation (g_foreground g) (flat_map (interior_spec D strat) fg) /\ Permutation (g_cutoff g) (flat_map (cutoff_spec D strat) fg).
Proof.
  destruct interior_bg as [I1 I2]. destruct (C31_entries D strat ord fuel _ g ORD R) as (E1 & E2 & _). split.
  - apply (Permutation_app_inv_l (g_interior g)). rewrite E1, I1, <- flat_map_app. apply Permutation_flat_map. exact pf_split.
  - apply (Permutation_app_inv_l (g_bgem g)). rewrite E2, I2, <- flat_map_app. apply Permutation_flat_map. exact pf_split.
Qed.
Lemma posof_nth' {A} `{EqB A} (x : A) l i : posof x l = Some i -> nth_error l i = Some x.
Proof. apply posof_nth. Qed.

(** the matrices of the foreground *)
Lemma make_foreground_spec m : make_foreground g = BOk m ->
  (fg = [] /\ m = None) \/
  exists af ad bf, m = Some (af, ad, bf) /\ fg <> [] /\ m_rows af = length fg /\ m_cols af = length fg /\ m_rows ad = length bg /\ m_cols ad = length fg /\ m_rows bf = length ems /\ m_cols bf = length fg
    /\ named fg fg (m_ent af) af_entries /\ named bg fg (m_ent ad) ad_entries /\ named ems fg (m_ent bf) bf_entries.
Proof.
  unfold make_foreground. fold fg. fold bg. destruct (Nat.eqb_spec (length fg) 0) as [Z|NZ].
  - intros [= <-]. left. destruct fg; [auto|discriminate].
  - cbv zeta. unfold build. intros E.
    destruct (mat_rows (fun e : node * node * Qc => posof (snd (fst e)) fg) _ _ _) as [ra|] eqn:RA; [|discriminate].
    destruct (mat_rows (fun e : node * node * Qc => posof (snd (fst e)) bg) _ _ _) as [rd|] eqn:RD; [|discriminate].
    destruct (mat_rows (fun e : node * emis * Qc => posof (snd (fst e)) ems) _ _ _) as [rb|] eqn:RB; [|discriminate].
    injection E as <-. right. exists (Mat (length fg) (length fg) ra), (Mat (length bg) (length fg) rd), (Mat (length ems) (length fg) rb).
    split; [reflexivity|]. split; [intros Z; rewrite Z in NZ; apply NZ; reflexivity|]. cbn. do 6 (split; [reflexivity|]). destruct foreground_entries as [F1 F2]. unfold named. split; [|split].
    + rewrite (mat_rows_spec _ _ snd _ ra fg fg (fun e => snd (fst e)) (fun e => fst (fst e)) (fun e i => posof_nth' _ _ i) (fun e i => posof_nth' _ _ i) RA).
      apply Permutation_map. unfold af_entries. apply Permutation_filter. exact F1.
    + rewrite (mat_rows_spec _ _ snd _ rd fg bg (fun e => snd (fst e)) (fun e => fst (fst e)) (fun e i => posof_nth' _ _ i) (fun e i => posof_nth' _ _ i) RD).
      apply Permutation_map. unfold ad_entries. apply Permutation_filter. exact F1.
    + rewrite (mat_rows_spec _ _ snd _ rb fg ems (fun e => snd (fst e)) (fun e => fst (fst e)) (fun e i => posof_nth' _ _ i) (fun e i => posof_nth' _ _ i) RB).
      apply Permutation_map. exact F2.
Qed.
End Build.

(** Supporting lemmas for the background manager (model: BgFgModel.v). *)
From Verif Require Import Num Base ProcModel BgModel BgProofs BgProofs2 BgProofs3 BgProofs4 BgProofs5 BgProps BgProps2 BgLciModel BgLciProps BgNetProps FlatModel FlatProofs FlatProofs2 FlatProps FlatMain FlatLci BgFgModel.
From Coq Require Import Permutation Lia Relations Sorted.
Open Scope Qc_scope.
Open Scope list_scope.
Local Arguments eqb : simpl never.

Lemma filter_le {A} (f : A -> bool) l : (length (filter f l) <= length l)%nat.
Proof. induction l as [|a l IH]; cbn; [lia|]. destruct (f a); cbn; lia. Qed.
(** * Sorting *)
Lemma kinsert_perm {A} (key : A -> nat) x l : Permutation (kinsert key x l) (x :: l).
Proof. induction l as [|y l IH]; cbn; [reflexivity|]. destruct (Nat.leb (key x) (key y)); [reflexivity|]. rewrite IH. apply perm_swap. Qed.
Lemma ksort_perm {A} (key : A -> nat) l : Permutation (ksort key l) l.
Proof. unfold ksort. induction l as [|x l IH]; cbn; [reflexivity|]. rewrite kinsert_perm. constructor. exact IH. Qed.
Lemma kinsert_sorted {A} (key : A -> nat) x l : StronglySorted (fun a b => (key a <= key b)%nat) l -> StronglySorted (fun a b => (key a <= key b)%nat) (kinsert key x l).
Proof.
  induction 1 as [|y l S IH F]; cbn; [repeat constructor|]. destruct (Nat.leb_spec (key x) (key y)) as [L|L].
  - constructor; [constructor; assumption|]. constructor; [exact L|]. eapply Forall_impl; [|exact F]. intros z Hz. cbn in Hz. lia.
  - constructor; [exact IH|]. apply Forall_forall. intros z J. apply (Permutation_in _ (kinsert_perm key x l)) in J. destruct J as [<-|J]; [lia|]. rewrite Forall_forall in F. apply F, J.
Qed.
Lemma ksort_sorted {A} (key : A -> nat) l : StronglySorted (fun a b => (key a <= key b)%nat) (ksort key l).
Proof. unfold ksort. induction l as [|x l IH]; cbn; [constructor|]. apply kinsert_sorted, IH. Qed.
Lemma sorted_pos (key : node -> nat) (l : list node) u v : StronglySorted (fun a b => (key a <= key b)%nat) l -> In u l -> In v l -> (key u < key v)%nat -> (pos u l < pos v l)%nat.
Proof.
  induction 1 as [|y l S IH F]; intros JU JV LT; [destruct JU|]. cbn [pos]. rewrite Forall_forall in F. destruct (eqb_spec v y) as [->|NV].
  - exfalso. destruct JU as [->|JU]; [lia|]. pose proof (F u JU). lia.
  - destruct JV as [->|JV]; [contradiction|]. destruct (eqb_spec u y) as [->|NU]; [lia|]. destruct JU as [->|JU]; [contradiction|]. pose proof (IH JU JV LT). lia.
Qed.

(** * The components of a foreground *)
Section Components.
Context (s : est) (c : cgraph).
Definition nbr (k r : nat) : Prop := In (k, r) (c_edges c) /\ bg_number s c r = false.
Definition nexts (k : nat) : list nat := filter (fun r => negb (bg_number s c r)) (rows_of c k).
Lemma In_nexts k r : In r (nexts k) <-> nbr k r.
Proof.
  unfold nexts, nbr, rows_of. rewrite filter_In, in_map_iff, negb_true_iff. split.
  - intros ([[a b] [E J]] & N). cbn in E. subst b. apply filter_In in J as [J E]. cbn in E. apply Nat.eqb_eq in E. subst a. auto.
  - intros [J N]. split; [|exact N]. exists (k, r). split; [reflexivity|]. apply filter_In. split; [exact J|apply Nat.eqb_refl].
Qed.
Definition left (fg : list nat) : nat := length (filter (fun e => negb (mem (fst e) fg)) (c_edges c)).
Lemma left_app fg k : mem k fg = false -> (left (fg ++ [k]) + length (rows_of c k) = left fg)%nat.
Proof.
  intros M. unfold left, rows_of. rewrite map_length. induction (c_edges c) as [|[a r] es IH]; [reflexivity|]. cbn [filter fst].
  assert (MA : mem a (fg ++ [k]) = mem a fg || Nat.eqb a k).
  { apply Bool.eq_iff_eq_true. rewrite orb_true_iff, !mem_In, in_app_iff. cbn. rewrite Nat.eqb_eq. intuition. }
  rewrite MA. destruct (Nat.eqb_spec a k) as [->|NE].
  - rewrite M. cbn [orb negb length]. lia.
  - rewrite orb_false_r. destruct (negb (mem a fg)); cbn [length]; lia.
Qed.
Lemma fg_components_spec i0 : forall fuel queue fg, NoDup fg -> (length queue + left fg <= fuel)%nat ->
  (forall x, In x fg \/ In x queue -> clos_refl_trans nat nbr i0 x) -> (forall k r, In k fg -> nbr k r -> In r fg \/ In r queue) ->
  exists ks, fg_components fuel s c queue fg = Some ks /\ NoDup ks /\ (forall x, In x fg \/ In x queue -> In x ks)
    /\ (forall x, In x ks -> clos_refl_trans nat nbr i0 x) /\ (forall k r, In k ks -> nbr k r -> In r ks).
Proof.
  induction fuel as [|fuel IH]; intros queue fg ND FU RE CL.
  - destruct queue as [|k q]; [|cbn in FU; lia]. exists fg. cbn. split; [reflexivity|]. split; [exact ND|]. split; [intros x [J|[]]; exact J|]. split; [intros x J; apply RE; auto|].
    intros k r J N. destruct (CL k r J N) as [X|[]]. exact X.
  - destruct queue as [|k q].
    + exists fg. cbn. split; [reflexivity|]. split; [exact ND|]. split; [intros x [J|[]]; exact J|]. split; [intros x J; apply RE; auto|].
      intros k r J N. destruct (CL k r J N) as [X|[]]. exact X.
    + cbn [fg_components]. destruct (mem k fg) eqn:M.
      * destruct (IH q fg ND) as (ks & E & N1 & N2 & N3 & N4).
        { cbn in FU. lia. }
        { intros x [J|J]; apply RE; cbn; auto. }
        { intros a r J N. destruct (CL a r J N) as [X|[<-|X]]; auto. left. apply mem_In. exact M. }
        exists ks. split; [exact E|]. split; [exact N1|]. split; [|auto]. intros x [J|[<-|J]]; [apply N2; auto| |apply N2; auto]. apply N2. left. apply mem_In. exact M.
      * assert (NK : ~ In k fg) by (intros J; apply mem_In in J; congruence). fold (nexts k).
        destruct (IH (q ++ nexts k) (fg ++ [k])) as (ks & E & N1 & N2 & N3 & N4).
        { apply NoDup_snoc; assumption. }
        { rewrite app_length. pose proof (left_app fg k M). assert (X : (length (nexts k) <= length (rows_of c k))%nat) by (unfold nexts; apply filter_le). cbn in FU. lia. }
        { intros x J. rewrite !in_app_iff in J. destruct J as [[J|[<-|[]]]|[J|J]]; [apply RE; auto|apply RE; cbn; auto|apply RE; cbn; auto|]. apply In_nexts in J. eapply rt_trans; [apply (RE k); cbn; auto|apply rt_step; exact J]. }
        { intros a r J N. rewrite !in_app_iff. apply in_app_iff in J as [J|[<-|[]]]; [destruct (CL a r J N) as [X|[<-|X]]; cbn; auto|]. right. right. apply In_nexts. exact N. }
        exists ks. split; [exact E|]. split; [exact N1|]. split; [|auto]. intros x J. apply N2. rewrite !in_app_iff. cbn in *. tauto.
Qed.
End Components.

Section Nodes.
Context (D : db) (strat : strategy) (ord : list nat -> list nat) (fuel : nat) (cs : list bcall) (g : eng).
Hypothesis ORD : forall l, Permutation (ord l) l.
Hypothesis R : brun D strat fuel ord eng0 cs = UOk g.
Let G : GI D strat g := proj1 (brun_ok D strat ord ORD fuel cs eng0 g (GI_eng0 D strat) R).
Let I := gi_ti _ _ _ G.
Let C := gi_ci _ _ _ G.
Lemma idx_inj v w : In v (e_pf (g_st g)) -> In w (e_pf (g_st g)) -> idx (g_st g) v = idx (g_st g) w -> v = w.
Proof. intros JV JW E. pose proof (nth_pos v _ JV) as A. pose proof (nth_pos w _ JW) as B. unfold idx in E. rewrite E in A. congruence. Qed.
Lemma bg_number_scc v k : scc_id (g_st g) v = Some k -> bg_number (g_st g) (g_cg g) k = is_bg_scc (g_cg g) k.
Proof.
  intros E. destruct (ti_root _ _ _ _ I v k E) as (r & JR & IR & ER). apply Bool.eq_iff_eq_true. unfold bg_number. rewrite existsb_exists. split.
  - intros (w & J & X). apply Nat.eqb_eq in X. pose proof J as J'. apply (bg_list_spec D strat _ _ w I C) in J as (k' & K & B). assert (w = r).
    { apply idx_inj; [apply (labelled_pf D strat _ _ I); eauto|exact JR|congruence]. } subst w. unfold scc_id in K. congruence.
  - intros B. exists r. split; [|apply Nat.eqb_eq; exact IR]. apply (bg_list_spec D strat _ _ r I C). eauto.
Qed.
Lemma closed_needs u v : In u (background g) -> needs D strat u v -> In v (background g).
Proof.
  intros J N. destruct (C32_background_closed D strat ord fuel cs g ORD R) as (CL & _). apply clos_rt_rtn1 in N. induction N as [|a b S _ IH]; [exact J|]. eapply CL; eassumption.
Qed.
Definition fg_fuel : nat := S (length (c_edges (g_cg g))).
Lemma foreground_nodes n u : indexed g u -> (fg_fuel <= n)%nat ->
  exists l, foreground_of n g u = Some (BOk l) /\ NoDup l /\ (forall v, In v l <-> needs D strat u v /\ ~ In v (background g))
    /\ (~ In u (background g) -> nth_error l 0 = Some u)
    /\ (forall v w, In v l -> In w l -> depends D strat v w -> ~ needs D strat w v -> (pos v l < pos w l)%nat).
Proof.
  intros JU FU. pose proof JU as JU'. apply (labelled_pf D strat _ _ I) in JU' as [i EI]. unfold foreground_of. rewrite EI. destruct (is_bg_scc (g_cg g) i) eqn:B.
  - assert (BU : In u (background g)) by (apply (bg_list_spec D strat _ _ u I C); eauto). exists []. split; [reflexivity|]. split; [constructor|]. split; [|split; [contradiction|intros v w []]].
    intros v. split; [intros []|]. intros [N NB]. exfalso. apply NB. eapply closed_needs; eassumption.
  - destruct (fg_components_spec (g_st g) (g_cg g) i n [i] []) as (ks & E & ND & K1 & K2 & K3).
    + constructor.
    + unfold left. rewrite filter_all by (intros; reflexivity). exact FU.
    + intros x [[]|[<-|[]]]. apply rt_refl.
    + intros k r [].
    + rewrite E. set (l0 := flat_map (scc (g_st g)) ks). assert (N0 : NoDup l0) by (apply (NoDup_flat_scc D strat); assumption).
      pose proof (ksort_perm (fg_key g u) l0) as P. eexists. split; [reflexivity|].
      assert (M : forall v, In v l0 <-> needs D strat u v /\ ~ In v (background g)).
      { intros v. unfold l0. rewrite in_flat_map. split.
        - intros (k & JK & JV). apply (ti_sccs _ _ _ _ I) in JV. apply K2 in JK. apply clos_rt_rtn1 in JK. revert v JV.
          assert (X : is_bg_scc (g_cg g) k = false /\ forall v, scc_id (g_st g) v = Some k -> needs D strat u v).
          { induction JK as [|a r [S NB] _ [_ IH]]; [split; [exact B|]; intros v V; apply needs_reach; eapply scc_reach; eassumption|].
            destruct (ci_e2 _ _ _ _ C a r S) as (x & y & Ed & X & Y). split; [rewrite <- (bg_number_scc y r Y); exact NB|]. intros v V.
            eapply rt_trans; [apply (IH x X)|]. eapply rt_trans; [apply rt_step, depends_edge; exact Ed|]. apply needs_reach. eapply scc_reach; eassumption. }
          destruct X as [NB X]. intros v V. split; [apply X, V|]. intros J. apply (bg_list_spec D strat _ _ v I C) in J as (k' & V' & B'). unfold scc_id in *. congruence.
        - intros [N NB]. apply clos_rt_rtn1 in N. revert NB. induction N as [|a b S NA IH]; intros NB.
          + exists i. split; [apply K1; cbn; auto|]. apply (ti_sccs _ _ _ _ I). exact EI.
          + assert (NBA : ~ In a (background g)). { intros X. apply NB. destruct (C32_background_closed D strat ord fuel cs g ORD R) as (CL & _). eapply CL; eassumption. }
            destruct (IH NBA) as (k & JK & JA). destruct (eqb_spec b a) as [->|NE]; [exists k; auto|]. apply depends_edge in S. apply (ti_sccs _ _ _ _ I) in JA.
            assert (PA : In a (e_pf (g_st g))) by (apply (labelled_pf D strat _ _ I); exists k; exact JA).
            destruct (ci_e1 _ _ _ _ C a b PA S NE) as (k' & r & A' & B' & Q). unfold scc_id in A'. replace k' with k in * by congruence.
            exists r. split; [|apply (ti_sccs _ _ _ _ I); exact B']. apply (K3 k r JK). split; [exact Q|]. rewrite (bg_number_scc b r B').
            destruct (is_bg_scc (g_cg g) r) eqn:BR; [|reflexivity]. exfalso. apply NB. apply (bg_list_spec D strat _ _ b I C). eauto. }
      assert (U0 : In u l0) by (apply M; split; [apply rt_refl|]; intros J; apply (bg_list_spec D strat _ _ u I C) in J as (k' & V' & B'); unfold scc_id in *; congruence).
      pose proof (ksort_sorted (fg_key g u) l0) as SS.
      split; [eapply Permutation_NoDup; [symmetry; exact P|exact N0]|]. split; [intros v; rewrite <- M; split; apply Permutation_in; [exact P|symmetry; exact P]|]. split.
      * intros _. destruct (ksort (fg_key g u) l0) as [|y l] eqn:EL; [apply Permutation_nil in P; rewrite P in U0; destruct U0|]. cbn. destruct (eqb_spec y u) as [->|NE]; [reflexivity|]. exfalso.
        assert (JU2 : In u (y :: l)) by (eapply Permutation_in; [symmetry; exact P|exact U0]). destruct JU2 as [->|JU2]; [contradiction|]. inversion SS as [|? ? _ F]; subst. rewrite Forall_forall in F. specialize (F u JU2). unfold fg_key in F at 2. rewrite eqb_refl in F.
        unfold fg_key in F. destruct (eqb_spec y u); [contradiction|lia].
      * intros v w JV JW Dp NN. apply (sorted_pos (fg_key g u)); auto. apply (Permutation_in _ P) in JV, JW. apply M in JV, JW. unfold fg_key. destruct (eqb_spec w u) as [->|NW].
        { exfalso. apply NN. tauto. }
        destruct (eqb_spec v u) as [->|NV]; [lia|]. apply -> Nat.succ_lt_mono. destruct (C33_foreground_order D strat ord fuel cs g ORD R) as (_ & FS & FO). apply FO; auto.
        { apply FS. split; [|tauto]. apply (TI_reach_closed D strat _ u v I JU). apply needs_reach. tauto. }
        { apply FS. split; [|tauto]. apply (TI_reach_closed D strat _ u w I JU). apply needs_reach. tauto. }
Qed.
Lemma in_bg_spec v : in_background g v = true <-> In v (background g).
Proof. unfold in_background, background. apply mem_In. Qed.
End Nodes.

(** * The matrices of the foreground of one product *)
Lemma mat_rows_total {B} (rf cf : B -> option nat) val (l : list B) : (forall x, In x l -> rf x <> None /\ cf x <> None) -> exists t, mat_rows rf cf val l = Some t.
Proof.
  induction l as [|x l IH]; intros K; cbn; [eauto|]. destruct (K x (or_introl eq_refl)) as [A B']. destruct (rf x); [|contradiction]. destruct (cf x); [|contradiction].
  destruct IH as [t ->]; [intros y J; apply K; right; exact J|]. eauto.
Qed.
Lemma posof_in {A} `{EqB A} (x : A) l : In x l -> posof x l <> None.
Proof. intros J. unfold posof. apply mem_In in J. rewrite J. discriminate. Qed.

Section Build.
Context (D : db) (strat : strategy) (ord : list nat -> list nat) (fuel : nat) (vs : list node) (g : eng).
Hypothesis ORD : forall l, Permutation (ord l) l.
Hypothesis R : brun D strat fuel ord eng0 [AddAll vs] = UOk g.
Notation fg := (foreground g). Notation bg := (background g). Notation ems := (e_ems (g_st g)).
Context (u : node) (l : list node).
Hypothesis IU : indexed g u.
Hypothesis ND : NoDup l.
Hypothesis ML : forall v, In v l <-> needs D strat u v /\ ~ In v bg.

Lemma l_fg v : In v l -> In v fg.
Proof.
  intros J. apply ML in J as [N B]. apply (fg_spec D strat ord fuel vs g ORD R). split; [|exact B].
  destruct (brun_ok D strat ord ORD fuel _ eng0 g (GI_eng0 D strat) R) as [G _]. apply (TI_reach_closed D strat _ u v (gi_ti _ _ _ G) IU). apply needs_reach, N.
Qed.
Lemma l_filter {B} (h : node -> list (node * B * Qc)) (es : list (node * B * Qc)) : (forall v e, In e (h v) -> fst (fst e) = v) -> Permutation es (flat_map h fg) ->
  Permutation (filter (fun e => mem (fst (fst e)) l) es) (flat_map h l).
Proof.
  intros P E. etransitivity; [apply Permutation_filter; exact E|]. rewrite (filter_flat_parent h l fg P). apply Permutation_flat_map. apply NoDup_Permutation; [apply NoDup_filter, (fg_nd D strat ord fuel vs g ORD R)|exact ND|].
  intros v. rewrite filter_In, mem_In. split; [tauto|]. intros J. split; [apply l_fg, J|exact J].
Qed.
Definition afl : list (node * node * Qc) := filter (fun e => negb (mem (snd (fst e)) bg)) (flat_map (interior_spec D strat) l).
Definition adl : list (node * node * Qc) := filter (fun e => mem (snd (fst e)) bg) (flat_map (interior_spec D strat) l).
Definition bfl : list (node * emis * Qc) := flat_map (cutoff_spec D strat) l.
Lemma filter_ext' {A} (f h : A -> bool) (m : list A) : (forall a, In a m -> f a = h a) -> filter f m = filter h m.
Proof. induction m as [|a m IH]; intros E; cbn; [reflexivity|]. rewrite (E a (or_introl eq_refl)), IH by (intros b J; apply E; right; exact J). reflexivity. Qed.
Lemma entry_term e : In e (flat_map (interior_spec D strat) l) -> ~ In (snd (fst e)) bg -> In (snd (fst e)) l.
Proof.
  intros J NB. apply in_flat_map in J as (v & JV & J). pose proof (interior_parent D strat v e J) as P. destruct e as [[v' w] q]. cbn in *. subst v'. apply interior_has in J as [U _]. apply uses_depends in U.
  apply ML in JV as [N _]. apply ML. split; [eapply rt_trans; [exact N|apply rt_step; exact U]|exact NB].
Qed.
Lemma fg_matrices_spec : exists af ad bf, fg_matrices g l = BOk (af, ad, bf, [])
  /\ m_rows af = length l /\ m_cols af = length l /\ m_rows ad = length bg /\ m_cols ad = length l /\ m_rows bf = length ems /\ m_cols bf = length l
  /\ named l l (m_ent af) afl /\ named bg l (m_ent ad) adl /\ named ems l (m_ent bf) bfl.
Proof.
  destruct (foreground_entries D strat ord fuel vs g ORD R) as [F1 F2]. pose proof (l_filter _ _ (interior_parent D strat) F1) as P1. pose proof (l_filter _ _ (cutoff_parent D strat) F2) as P2.
  assert (TERM : forall e, In e (filter (fun e => mem (fst (fst e)) l) (g_foreground g)) -> mem (snd (fst e)) bg = false -> In (snd (fst e)) l).
  { intros e J M. apply entry_term; [eapply Permutation_in; [exact P1|exact J]|]. intros X. apply mem_In in X. congruence. }
  assert (PAR : forall e, In e (filter (fun e => mem (fst (fst e)) l) (g_foreground g)) -> In (fst (fst e)) l) by (intros e J; apply filter_In in J as [_ J]; apply mem_In; exact J).
  unfold fg_matrices. fold bg. cbv zeta.
  set (own := filter (fun e => mem (fst (fst e)) l) (g_foreground g)) in *.
  assert (EAF : filter (fun e : node * node * Qc => negb (mem (snd (fst e)) bg) && mem (snd (fst e)) l) own = filter (fun e => negb (mem (snd (fst e)) bg)) own).
  { apply filter_ext'. intros e J. destruct (mem (snd (fst e)) bg) eqn:M; [reflexivity|]. cbn. apply mem_In. apply TERM; assumption. }
  assert (ELO : filter (fun e : node * node * Qc => negb (mem (snd (fst e)) bg) && negb (mem (snd (fst e)) l)) own = []).
  { apply filter_false'. intros e J. destruct (mem (snd (fst e)) bg) eqn:M; [reflexivity|]. cbn. apply negb_false_iff, mem_In. apply TERM; assumption. }
  rewrite EAF, ELO. unfold build.
  destruct (mat_rows_total (fun e : node * node * Qc => posof (snd (fst e)) l) (fun e => posof (fst (fst e)) l) snd (filter (fun e => negb (mem (snd (fst e)) bg)) own)) as [ra RA].
  { intros e J. apply filter_In in J as [J M]. apply negb_true_iff in M. split; apply posof_in; [apply TERM; assumption|apply PAR; exact J]. }
  destruct (mat_rows_total (fun e : node * node * Qc => posof (snd (fst e)) bg) (fun e => posof (fst (fst e)) l) snd (filter (fun e => mem (snd (fst e)) bg) own)) as [rd RD].
  { intros e J. apply filter_In in J as [J M]. split; apply posof_in; [apply mem_In; exact M|apply PAR; exact J]. }
  destruct (mat_rows_total (fun e : node * emis * Qc => posof (snd (fst e)) ems) (fun e => posof (fst (fst e)) l) snd (filter (fun e => mem (fst (fst e)) l) (g_cutoff g))) as [rb RB].
  { intros e J. apply filter_In in J as [J M]. split; apply posof_in; [|apply mem_In; exact M]. destruct (C31_entries D strat ord fuel _ g ORD R) as (_ & _ & _ & X). apply X. exists e. split; [apply in_app_iff; auto|reflexivity]. }
  rewrite RA, RD, RB. eexists _, _, _. split; [reflexivity|]. cbn. do 6 (split; [reflexivity|]). unfold named. split; [|split].
  - rewrite (mat_rows_spec _ _ snd _ ra l l (fun e => snd (fst e)) (fun e => fst (fst e)) (fun e i => posof_nth _ _ i) (fun e i => posof_nth _ _ i) RA). apply Permutation_map. unfold afl. apply Permutation_filter. exact P1.
  - rewrite (mat_rows_spec _ _ snd _ rd l bg (fun e => snd (fst e)) (fun e => fst (fst e)) (fun e i => posof_nth _ _ i) (fun e i => posof_nth _ _ i) RD). apply Permutation_map. unfold adl. apply Permutation_filter. exact P1.
  - rewrite (mat_rows_spec _ _ snd _ rb l ems (fun e => snd (fst e)) (fun e => fst (fst e)) (fun e i => posof_nth _ _ i) (fun e i => posof_nth _ _ i) RB). apply Permutation_map. exact P2.
Qed.
Let NB := bg_nd D strat ord fuel vs g ORD R.
Let NEM := ems_nd D strat ord fuel vs g ORD R.
Lemma cell_afl af v w : named l l (m_ent af) afl -> In v l -> In w l -> cell af (pos w l) (pos v l) = rel D strat v w.
Proof.
  intros N JV JW. rewrite (named_cell l l af _ (pos w l) (pos v l) w v ND ND N (nth_pos w l JW) (nth_pos v l JV)). unfold afl.
  rewrite (sum_filtered (fun w => negb (mem w bg)) (flat_map (interior_spec D strat) l) v w); [apply sum_interior; assumption|].
  apply ML in JW as [_ X]. destruct (mem w bg) eqn:M; [|reflexivity]. apply mem_In in M. contradiction.
Qed.
Lemma cell_adl ad v w : named bg l (m_ent ad) adl -> In v l -> In w bg -> cell ad (pos w bg) (pos v l) = rel D strat v w.
Proof.
  intros N JV JW. rewrite (named_cell bg l ad _ (pos w bg) (pos v l) w v NB ND N (nth_pos w bg JW) (nth_pos v l JV)). unfold adl.
  rewrite (sum_filtered (fun w => mem w bg) (flat_map (interior_spec D strat) l) v w); [apply sum_interior; assumption|]. apply mem_In. exact JW.
Qed.
Lemma cell_bfl bf v k e : named ems l (m_ent bf) bfl -> In v l -> nth_error ems k = Some e -> cell bf k (pos v l) = emi D strat v e.
Proof.
  intros N JV JE. rewrite (named_cell ems l bf _ k (pos v l) e v NEM ND N JE (nth_pos v l JV)). apply sum_cutoff; assumption.
Qed.
End Build.

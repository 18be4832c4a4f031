(** Supporting lemmas for the background manager, continued: the inverse of I - Af, and the inventory (model: BgFgModel.v). *)
From Verif Require Import Num Base ProcModel BgModel BgProofs BgProofs2 BgProofs3 BgProofs4 BgProofs5 BgProps BgProps2 BgLciModel BgLciProps BgNetProps FlatModel FlatProofs FlatProofs2 FlatProps FlatMain FlatLci BgFgModel BgFgProofs.
From Coq Require Import Permutation Lia Relations Sorted.
Open Scope Qc_scope.
Open Scope list_scope.
Local Arguments eqb : simpl never.

(** * Specification of the solver *)
(** [x] is the first column of the inverse of I - T: (I - T) x is the first unit vector *)
Definition first_column (n : nat) (t : list trip) (x : vec) : Prop := forall i, (i < n)%nat -> x i = unit_demand 0 i + mulv t x i.
(** I - T is invertible: every right hand side has a solution *)
Definition regular (n : nat) (t : list trip) : Prop := forall d : vec, exists x : vec, forall i, (i < n)%nat -> x i = d i + mulv t x i.
(** An exact [np.linalg.inv(...)[:, 0]], which may report a singular matrix only if it is one *)
Definition inverts (inv : nat -> list trip -> option vec) : Prop :=
  forall n t, (forall x, inv n t = Some x -> first_column n t x) /\ (regular n t -> inv n t <> None).

(** * There is such a solver: Gaussian elimination *)
Definition eqn : Type := ((nat -> Qc) * Qc)%type.
Definition lhs (k : nat) (a : nat -> Qc) (x : vec) : Qc := Qcsum (map (fun j => a j * x j) (seq 0 k)).
Definition sat (k : nat) (eqs : list eqn) (x : vec) : Prop := forall e, In e eqs -> lhs k (fst e) x = snd e.
Lemma lhs_S k a x : lhs (S k) a x = lhs k a x + a k * x k.
Proof. unfold lhs. rewrite seq_S, map_app, Qcsum_app. cbn. unfold Qcsum. cbn. ring. Qed.
Lemma lhs_ext k a x y : (forall j, (j < k)%nat -> x j = y j) -> lhs k a x = lhs k a y.
Proof. intros E. unfold lhs. apply Qcsum_ext. intros j J. apply in_seq in J. rewrite E by lia. reflexivity. Qed.
Lemma lhs_elim k a b r x : lhs k (fun j => a j - r * b j) x = lhs k a x - r * lhs k b x.
Proof. induction k as [|k IH]; [unfold lhs, Qcsum; cbn; ring|]. rewrite !lhs_S, IH. ring. Qed.
Lemma solve k : forall eqs, {x | sat k eqs x} + {forall x, ~ sat k eqs x}.
Proof.
  induction k as [|k IH]; intros eqs.
  - destruct (forallb (fun e : eqn => eqb (snd e) 0) eqs) eqn:F.
    + left. exists vzero. intros e J. rewrite forallb_forall in F. specialize (F e J). destruct (eqb_spec (snd e) 0) as [E|]; [|discriminate]. rewrite E. reflexivity.
    + right. intros x S. assert (X : forallb (fun e : eqn => eqb (snd e) 0) eqs = true); [|congruence]. apply forallb_forall. intros e J. rewrite <- (S e J). apply eqb_refl.
  - destruct (find (fun e : eqn => negb (eqb (fst e k) 0)) eqs) as [[a b]|] eqn:F.
    + apply find_some in F as [J N]. cbn in N. assert (AK : a k <> 0) by (intros Z; rewrite Z, eqb_refl in N; discriminate).
      destruct (IH (map (fun e : eqn => (fun j => fst e j - fst e k / a k * a j, snd e - fst e k / a k * b)) eqs)) as [[x S]|S].
      * left. exists (fun j => if Nat.eqb j k then (b - lhs k a x) / a k else x j). intros e JE. rewrite lhs_S, Nat.eqb_refl.
        rewrite (lhs_ext k (fst e) _ x) by (intros j L; destruct (Nat.eqb_spec j k); [lia|reflexivity]).
        assert (SE := S _ (in_map (fun e : eqn => (fun j => fst e j - fst e k / a k * a j, snd e - fst e k / a k * b)) eqs e JE)). cbn [fst snd] in SE. rewrite lhs_elim in SE.
        replace (lhs k (fst e) x) with (snd e - fst e k / a k * b + fst e k / a k * lhs k a x) by (rewrite <- SE; ring). field. exact AK.
      * right. intros x SX. apply (S x). intros e' JE. apply in_map_iff in JE as (e & <- & JE). cbn [fst snd]. rewrite lhs_elim. pose proof (SX e JE) as A. pose proof (SX _ J) as B. cbn [fst snd] in B. rewrite lhs_S in A, B.
        rewrite <- A, <- B. field. exact AK.
    + assert (Z : forall e, In e eqs -> fst e k = 0). { intros e J. pose proof (find_none _ _ F e J) as X. cbn in X. destruct (eqb_spec (fst e k) 0); [assumption|discriminate]. }
      destruct (IH eqs) as [[x S]|S].
      * left. exists x. intros e J. rewrite lhs_S, (Z e J), (S e J). ring.
      * right. intros x SX. apply (S x). intros e J. rewrite <- (SX e J), lhs_S, (Z e J). ring.
Qed.
Definition width (n : nat) (t : list trip) : nat := fold_right (fun e m => Nat.max (S (snd (fst e))) m) n t.
Lemma width_n n t : (n <= width n t)%nat. Proof. unfold width. induction t; cbn [fold_right]; lia. Qed.
Lemma width_in n t e : In e t -> (snd (fst e) < width n t)%nat. Proof. unfold width. induction t as [|a t IH]; intros J; [destruct J|]. cbn [fold_right]. destruct J as [<-|J]; [lia|]. specialize (IH J). lia. Qed.
Lemma mulv_lhs m t x i : (forall e, In e t -> (snd (fst e) < m)%nat) -> mulv t x i = lhs m (fun j => cell (Mat 0 0 t) i j) x.
Proof.
  intros B. unfold lhs, cell, mulv. cbn [m_ent]. induction t as [|e t IH]; cbn [map].
  - rewrite Qcsum_nil. symmetry. apply Qcsum_zero. intros j _. cbn [map]. unfold Qcsum. cbn [fold_right]. ring.
  - rewrite Qcsum_cons, IH by (intros y J; apply B; right; exact J).
    transitivity (Qcsum (map (fun j => (if Nat.eqb (fst (fst e)) i && Nat.eqb (snd (fst e)) j then snd e else 0) * x j + Qcsum (map (fun e => if Nat.eqb (fst (fst e)) i && Nat.eqb (snd (fst e)) j then snd e else 0) t) * x j) (seq 0 m))).
    + rewrite Qcsum_map_add. f_equal. rewrite (Qcsum_single _ (seq 0 m) (snd (fst e)) (seq_NoDup _ _)).
      * rewrite Nat.eqb_refl, andb_true_r. destruct (Nat.eqb (fst (fst e)) i); [reflexivity|ring].
      * apply in_seq. specialize (B e (or_introl eq_refl)). lia.
      * intros j _ NE. destruct (Nat.eqb_spec (snd (fst e)) j); [congruence|]. rewrite andb_false_r. ring.
    + apply Qcsum_ext. intros j _. rewrite Qcsum_cons. ring.
Qed.
Definition system (n : nat) (t : list trip) (d : vec) : list eqn := map (fun i => (fun j => unit_demand i j - cell (Mat 0 0 t) i j, d i)) (seq 0 n).
Lemma lhs_unit m i x : (i < m)%nat -> lhs m (unit_demand i) x = x i.
Proof.
  intros L. unfold lhs. rewrite (Qcsum_single _ (seq 0 m) i (seq_NoDup _ _)); [unfold unit_demand; rewrite Nat.eqb_refl; ring|apply in_seq; lia|]. intros j _ NE. unfold unit_demand. destruct (Nat.eqb_spec j i); [congruence|ring].
Qed.
Lemma system_sat n t d x : sat (width n t) (system n t d) x <-> forall i, (i < n)%nat -> x i = d i + mulv t x i.
Proof.
  assert (E : forall i, (i < n)%nat -> lhs (width n t) (fun j => unit_demand i j - cell (Mat 0 0 t) i j) x = x i - mulv t x i).
  { intros i L. transitivity (lhs (width n t) (fun j => unit_demand i j - 1 * cell (Mat 0 0 t) i j) x); [unfold lhs; apply Qcsum_ext; intros; cbv beta; ring|].
    rewrite lhs_elim, lhs_unit by (pose proof (width_n n t); lia). rewrite (mulv_lhs (width n t) t x i (width_in n t)). change (fun j : nat => cell (Mat 0 0 t) i j) with (cell (Mat 0 0 t) i). ring. }
  unfold sat, system. split.
  - intros S i L. specialize (S _ (in_map (fun i => (fun j => unit_demand i j - cell (Mat 0 0 t) i j, d i)) (seq 0 n) i (proj2 (in_seq n 0 i) (conj (Nat.le_0_l i) L)))). cbn [fst snd] in S. rewrite E in S by exact L. rewrite <- S. ring.
  - intros S e J. apply in_map_iff in J as (i & <- & J). apply in_seq in J. cbn [fst snd]. rewrite E by lia. rewrite (S i) at 1 by lia. ring.
Qed.
Definition gauss (n : nat) (t : list trip) : option vec := match solve (width n t) (system n t (unit_demand 0)) with inleft (exist _ x _) => Some x | inright _ => None end.
Lemma gauss_inverts : inverts gauss.
Proof.
  intros n t. unfold gauss. destruct (solve (width n t) (system n t (unit_demand 0))) as [[x S]|S].
  - split; [|discriminate]. intros x' [= <-] i L. apply (proj1 (system_sat n t (unit_demand 0) x) S i L).
  - split; [discriminate|]. intros RG _. destruct (RG (unit_demand 0)) as [x X]. exact (S x (proj2 (system_sat n t (unit_demand 0) x) X)).
Qed.

(** * A foreground without cycles has a regular matrix *)
Lemma triangular_regular (l : list node) (m : mat) es : NoDup l -> named l l (m_ent m) es ->
  (forall v w, In v l -> In w l -> cell m (pos v l) (pos w l) <> 0 -> (pos w l < pos v l)%nat) -> regular (length l) (m_ent m).
Proof.
  intros N P T d. assert (Z : forall k v, In v l -> (pos v l < k)%nat -> powv (m_ent m) k d (pos v l) = 0).
  { induction k as [|k IH]; intros v J L; [lia|]. cbn [powv]. rewrite (mulv_cells l l m es _ _ N P). apply Qcsum_zero. intros w JW. destruct (Qc_eq_dec (cell m (pos v l) (pos w l)) 0) as [E|NE]; [rewrite E; ring|].
    pose proof (T v w J JW NE). rewrite (IH w JW) by lia. ring. }
  exists (neumann (m_ent m) d (length l)). intros i L. rewrite mulv_neumann, neumann_S. apply nth_error_Some in L. destruct (nth_error l i) as [v|] eqn:E; [|contradiction].
  assert (J : In v l) by (eapply nth_error_In; exact E). rewrite (pos_eq l i v N E), (Z _ v J (pos_lt v l J)). ring.
Qed.

Section Lci.
Context (D : db) (strat : strategy) (ord : list nat -> list nat) (fuel : nat) (vs : list node) (g : eng).
Hypothesis ORD : forall l, Permutation (ord l) l.
Hypothesis R : brun D strat fuel ord eng0 [AddAll vs] = UOk g.
Hypothesis O : forall w, indexed g w -> ordinary D strat w.
Notation fg := (foreground g). Notation bg := (background g). Notation ems := (e_ems (g_st g)).
Let NB := bg_nd D strat ord fuel vs g ORD R.
Let NEM := ems_nd D strat ord fuel vs g ORD R.
Let IXb : forall v, In v bg -> indexed g v := bg_in D strat ord fuel vs g ORD R.

Lemma bg_matrices : bg <> [] -> exists A B, g_a g = Some (length bg, m_ent A) /\ g_b g = Some (length ems, length bg, m_ent B) /\ m_rows A = length bg /\ m_cols A = length bg /\ m_rows B = length ems /\ m_cols B = length bg
  /\ named bg bg (m_ent A) (flat_map (interior_spec D strat) bg) /\ named ems bg (m_ent B) (flat_map (cutoff_spec D strat) bg)
  /\ (forall v w, In v bg -> In w bg -> cell A (pos v bg) (pos w bg) = need D strat w v)
  /\ (forall w k e, In w bg -> nth_error ems k = Some e -> cell B k (pos w bg) = per D strat w e).
Proof.
  intros NE. destruct (C32_matrices D strat ord fuel vs g ORD R NE) as (ra & rb & EA & EB & PA & PB). exists (Mat (length bg) (length bg) ra), (Mat (length ems) (length bg) rb). cbn [m_ent m_rows m_cols].
  do 6 (split; [assumption || reflexivity|]). split; [exact PA|]. split; [exact PB|]. split.
  - intros v w JV JW. rewrite (named_cell bg bg (Mat (length bg) (length bg) ra) _ (pos v bg) (pos w bg) v w NB NB PA (nth_pos v bg JV) (nth_pos w bg JW)). rewrite (sum_interior D strat bg w v NB JW).
    apply (rel_need D strat g O w v (IXb w JW)).
  - intros w k e JW K. rewrite (named_cell ems bg (Mat (length ems) (length bg) rb) _ k (pos w bg) e w NEM NB PB K (nth_pos w bg JW)). rewrite (sum_cutoff D strat bg w e NB JW). apply (emi_per D strat g O w e (IXb w JW)).
Qed.
Lemma no_bg_matrices : bg = [] -> g_a g = None.
Proof.
  intros Z. destruct (g_a g) as [[n a]|] eqn:GA; [|reflexivity]. exfalso.
  destruct (brun_ok D strat ord ORD fuel _ eng0 g (GI_eng0 D strat) R) as [G _]. pose proof (gi_ti _ _ _ G) as I. pose proof (gi_ci _ _ _ G) as C.
  destruct (c_bg (g_cg g)) as [b0|] eqn:CB; [|apply (gi_a _ _ _ G) in CB; congruence].
  destruct (ci_nb _ _ _ _ C b0 CB) as [_ [m [M1 M2]]].
  pose proof (largest_spec (e_sccs (g_st g)) 0 None) as LS. rewrite M2 in LS. destruct LS as [_ [L2 [[_ L3]|[k [t [L3 [L4 [L5 _]]]]]]]]; [discriminate|]. injection L5 as <-.
  assert (TK : dget b0 (e_sccs (g_st g)) = Some t) by (apply In_dget; auto; apply (ti_snd _ _ _ _ I)).
  unfold background, bg_list in Z. rewrite CB in Z. unfold scc at 1 in Z. rewrite TK in Z. destruct t; [cbn in L4; lia|discriminate].
Qed.
(** the background stage, for any demand *)
Lemma bg_stage (d : vec) thr count : bg <> [] -> exists b k y, snd (compute_bg_lci (g_a g) (b_entries g) d thr count) = Some b
  /\ supplied D strat bg (fun v => d (pos v bg)) thr count k y /\ forall i e, nth_error ems i = Some e -> b i = Qcsum (map (fun w => per D strat w e * y w) bg).
Proof.
  intros NE. destruct (bg_matrices NE) as (A & B & EA & EB & RA & _ & RB & _ & NA & NBm & CA & CB). unfold compute_bg_lci, b_entries. rewrite EA, EB. cbn [snd].
  destruct (stage D strat bg A _ d thr count NB NA RA CA) as [k K]. unfold iterate in K. rewrite RA in K. eexists _, k, _. split; [reflexivity|]. split; [exact K|]. intros i e E. rewrite (mulv_cells ems bg B _ _ i NB NBm). apply Qcsum_ext. intros w JW.
  rewrite (CB w i e JW E). reflexivity.
Qed.
Lemma supplied_nil d thr count x : exists k, supplied D strat [] d thr count k x.
Proof.
  assert (S : forall k, small D strat [] d thr k) by (intros k; left; unfold size; cbn; reflexivity).
  exists (Nat.min 1 count). split; [lia|]. split; [lia|]. split; [auto|]. split; [intros j J; lia|]. intros v [].
Qed.

(** the foreground of [u] has no cycle *)
Definition acyclic_fg (u : node) : Prop := forall v w, needs D strat u v -> ~ In v bg -> needs D strat v w -> needs D strat w v -> v = w.
Lemma engine_lci_spec inv n u thr count : inverts inv -> indexed g u -> (fg_fuel g <= n)%nat ->
  exists l, (NoDup l /\ forall v, In v l <-> needs D strat u v /\ ~ In v bg) /\
  ((engine_lci inv n g u thr count = LSingular /\ ~ acyclic_fg u) \/
   exists b k X, engine_lci inv n g u thr count = LOk b /\ (forall v, In v l -> X v = one u v + ask D strat l X v)
    /\ supplied D strat bg (fun v => one u v + ask D strat l X v) thr count k X
    /\ forall i e, nth_error ems i = Some e -> b i = Qcsum (map (fun w => per D strat w e * X w) (l ++ bg))).
Proof.
  intros IV IU FU. destruct (foreground_nodes D strat ord fuel [AddAll vs] g ORD R n u IU FU) as (l & EL & ND & ML & HD & TO). exists l. split; [split; assumption|].
  unfold engine_lci. destruct (in_background g u) eqn:MB.
  - right. pose proof (proj1 (in_bg_spec g u) MB) as JB.
    assert (LN : l = []). { destruct l as [|v l']; [reflexivity|]. exfalso. assert (J : In v (v :: l')) by (left; reflexivity). apply ML in J as [N NBV]. apply NBV. eapply closed_needs; eassumption. }
    assert (NE : bg <> []) by (intros Z; rewrite Z in JB; destruct JB). fold bg.
    destruct (bg_stage (unit_demand (pos u bg)) thr count NE) as (b & k & y & EB & SB & BV). rewrite EB. exists b, k, y. subst l. split; [reflexivity|]. split; [intros v []|]. split; [|intros i e E; rewrite (BV i e E); reflexivity].
    eapply supplied_ext; [| |exact SB]; [|reflexivity]. intros v JV. cbn beta. rewrite (unit_demand_pos u bg (pos u bg) NB (nth_pos u bg JB) v JV). unfold one, ask. cbn. unfold Qcsum. cbn. ring.
  - assert (NBU : ~ In u bg) by (intros X; apply (in_bg_spec g u) in X; congruence). specialize (HD NBU). rewrite EL.
    destruct (fg_matrices_spec D strat ord fuel vs g ORD R u l IU ND ML) as (af & ad & bf & EM & RA & CA & RD & CD & RB & CB & NA & NAd & NBf). rewrite EM.
    assert (IXl : forall v, In v l -> indexed g v) by (intros v J; apply (indexed_split D strat ord fuel vs g ORD R); left; exact (l_fg D strat ord fuel vs g ORD R u l IU ML v J)).
    destruct (IV (length l) (m_ent af)) as [IV1 IV2]. destruct (inv (length l) (m_ent af)) as [x|] eqn:EI.
    + right. specialize (IV1 x eq_refl).
      assert (JU : In u l) by (apply nth_error_In in HD; exact HD). assert (P0 : pos u l = 0%nat) by (symmetry; apply pos_eq; assumption).
      assert (U1 : forall v, In v l -> unit_demand 0 (pos v l) = one u v) by (intros v J; rewrite <- P0; apply (unit_demand_pos u l); [exact ND|rewrite P0; exact HD|exact J]).
      assert (XF : forall v, In v l -> x (pos v l) = one u v + ask D strat l (fun w => x (pos w l)) v).
      { intros v J. rewrite (IV1 (pos v l)) at 1 by (apply pos_lt, J). rewrite (U1 v J). f_equal. rewrite (mulv_cells l l af _ x _ ND NA). unfold ask. apply Qcsum_ext. intros w JW.
        rewrite (cell_afl D strat g u l ND ML af w v NA JW J), (rel_need D strat g O w v (IXl w JW)). reflexivity. }
      assert (BF : forall i e, nth_error ems i = Some e -> mulv (m_ent bf) x i = Qcsum (map (fun w => per D strat w e * x (pos w l)) l)).
      { intros i e E. rewrite (mulv_cells ems l bf _ x i ND NBf). apply Qcsum_ext. intros w JW. rewrite (cell_bfl D strat ord fuel vs g ORD R l ND bf w i e NBf JW E), (emi_per D strat g O w e (IXl w JW)). reflexivity. }
      assert (AD : forall v, In v bg -> mulv (m_ent ad) x (pos v bg) = ask D strat l (fun w => x (pos w l)) v).
      { intros v JV. rewrite (mulv_cells bg l ad _ x _ ND NAd). unfold ask. apply Qcsum_ext. intros w JW. rewrite (cell_adl D strat ord fuel vs g ORD R l ND ad w v NAd JW JV), (rel_need D strat g O w v (IXl w JW)). reflexivity. }
      assert (ZN : bg = [] \/ bg <> []) by (clear; destruct bg; [now apply or_introl|apply or_intror; discriminate]). destruct ZN as [Z|NE].
      * rewrite (no_bg_matrices Z). cbn [compute_bg_lci snd]. rewrite Z, app_nil_r.
        destruct (supplied_nil (fun v => one u v + ask D strat l (fun w => x (pos w l)) v) thr count (fun w => x (pos w l))) as [k K]. exists (mulv (m_ent bf) x), k, (fun w => x (pos w l)). auto.
      * destruct (bg_stage (mulv (m_ent ad) x) thr count NE) as (b & k & y & EB & SB & BV). rewrite EB.
        set (X := fun w => if mem w bg then y w else x (pos w l)).
        assert (Xl : forall w, In w l -> X w = x (pos w l)). { intros w J. unfold X. apply ML in J as [_ J]. destruct (mem w bg) eqn:M; [apply mem_In in M; contradiction|reflexivity]. }
        assert (Xb : forall w, In w bg -> X w = y w). { intros w J. unfold X. apply mem_In in J. rewrite J. reflexivity. }
        assert (AX : forall v, ask D strat l X v = ask D strat l (fun w => x (pos w l)) v) by (intros v; apply ask_ext; exact Xl).
        eexists _, k, X. split; [reflexivity|]. split; [intros v J; rewrite (Xl v J), AX; apply XF, J|]. split.
        -- eapply supplied_ext; [| |exact SB]; [|intros v J; symmetry; apply Xb, J]. intros v J. cbn beta. rewrite (AD v J), AX. unfold one. destruct (eqb_spec v u) as [->|_]; [contradiction|ring].
        -- intros i e E. unfold vadd. rewrite (BV i e E), (BF i e E), map_app, Qcsum_app, Qcplus_comm. f_equal; apply Qcsum_ext; intros w J; [rewrite (Xl w J)|rewrite (Xb w J)]; reflexivity.
    + left. split; [reflexivity|]. intros AC. apply IV2; [|reflexivity]. apply (triangular_regular l af _ ND NA). intros v w JV JW NZ. rewrite (cell_afl D strat g u l ND ML af w v NA JW JV) in NZ.
      unfold rel in NZ. destruct (eqb_spec w v) as [->|NE]; [contradiction NZ; reflexivity|].
      assert (Dp : depends D strat w v). { apply uses_depends. intros Z. apply NZ. unfold use. rewrite Z. unfold Qcsum, Qcdiv. cbn. ring. }
      apply TO; auto. intros N. apply NE. apply ML in JW as [N1 N2]. apply (AC w v N1 N2); [apply rt_step; exact Dp|exact N].
Qed.
End Lci.

(** C82: the life cycle inventory computed by the flat background (model: FlatModel.v). *)
From Verif Require Import Num Base ProcModel BgModel BgProofs BgProofs2 BgProofs3 BgProofs4 BgProofs5 BgProps BgProps2 BgLciModel BgLciProps BgNetProps FlatModel FlatProofs FlatProofs2 FlatProps FlatMain.
From Coq Require Import Permutation Lia.
Open Scope Qc_scope.
Open Scope list_scope.
Local Arguments eqb : simpl never.

(** * Specification, in terms of the database *)
(** What one unit of net output of [w] needs of [v] from the process of [v]. *)
Definition need (D : db) (strat : strategy) (w v : node) : Qc := if eqb w v then 0 else use D strat w v / (1 - use D strat w w).
(** One round of suppliers: the products a net output [d] of the products [l] asks for. *)
Definition ask (D : db) (strat : strategy) (l : list node) (d : node -> Qc) (v : node) : Qc := Qcsum (map (fun w => need D strat w v * d w) l).
Fixpoint rounds (D : db) (strat : strategy) (l : list node) (k : nat) (d : node -> Qc) (v : node) : Qc :=
  match k with O => d v | S k => ask D strat l (rounds D strat l k d) v end.
Definition size (l : list node) (x : node -> Qc) : Qc := Qcsum (map (fun v => Qcabs (x v)) l).
(** [x] is the output of the products [l] for the demand [d] after rounds 0 to k-1 among [l], where [k] is the first round, from 1 on, which
    is empty or smaller than [thr] times the sum of the sizes of the rounds 1 to [k], or the last one allowed. *)
Definition small (D : db) (strat : strategy) (l : list node) (d : node -> Qc) (thr : Qc) (k : nat) : Prop :=
  let s j := size l (rounds D strat l j d) in s k = 0 \/ s k / Qcsum (map (fun j => s (S j)) (seq 0 k)) < thr.
Definition supplied (D : db) (strat : strategy) (l : list node) (d : node -> Qc) (thr : Qc) (count k : nat) (x : node -> Qc) : Prop :=
  (k <= count)%nat /\ ((0 < count)%nat -> (0 < k)%nat) /\ (small D strat l d thr k \/ k = count) /\ (forall j, (0 < j < k)%nat -> ~ small D strat l d thr j)
  /\ forall v, In v l -> x v = Qcsum (map (fun j => rounds D strat l j d v) (seq 0 k)).
(** the products of the [fg] and [bg] lists *)
Definition node_of (t : tref) : node := (t_flow t, match t_term t with Some p => p | None => 0%nat end).
Definition fg_products (f : flat) : list node := map node_of (f_fg f).
Definition bg_products (f : flat) : list node := map node_of (f_bg f).
Definition products (f : flat) : list node := fg_products f ++ bg_products f.
Definition one (u v : node) : Qc := if eqb v u then 1 else 0.

(** * Proofs *)
Lemma Qcsum_single {A} (F : A -> Qc) l a : NoDup l -> In a l -> (forall b, In b l -> b <> a -> F b = 0) -> Qcsum (map F l) = F a.
Proof.
  induction 1 as [|b l N ND IH]; intros J Z; [destruct J|]. cbn [map]. rewrite Qcsum_cons. destruct J as [->|J].
  - rewrite Qcsum_zero; [ring|]. intros c JC. apply Z; [right; exact JC|]. intros ->. contradiction.
  - rewrite IH; auto; [|intros c JC; apply Z; right; exact JC]. rewrite (Z b); [ring|left; reflexivity|]. intros ->. contradiction.
Qed.
Lemma mulv_cells {R} (rows : list R) cols m es x i : NoDup cols -> named rows cols (m_ent m) es ->
  mulv (m_ent m) x i = Qcsum (map (fun w => cell m i (pos w cols) * x (pos w cols)) cols).
Proof.
  intros NC P. assert (V : forall e, In e (m_ent m) -> exists w, nth_error cols (snd (fst e)) = Some w).
  { intros e J. assert (X : In (nth_error rows (fst (fst e)), nth_error cols (snd (fst e)), snd e) (map (fun e : node * R * Qc => (Some (snd (fst e)), Some (fst (fst e)), snd e)) es)).
    { eapply Permutation_in; [exact P|]. apply in_map_iff. exists e. auto. }
    apply in_map_iff in X as (y & E & _). injection E as _ E _. eauto. }
  clear P. unfold mulv, cell. revert V. induction (m_ent m) as [|e t IH]; intros V; cbn [map].
  - rewrite Qcsum_nil. symmetry. apply Qcsum_zero. intros w _. cbn [map]. unfold Qcsum. cbn [fold_right]. ring.
  - rewrite Qcsum_cons, IH by (intros y J; apply V; right; exact J). destruct (V e (or_introl eq_refl)) as [w0 E0]. pose proof (pos_eq cols _ _ NC E0) as P0.
    transitivity (Qcsum (map (fun w => (if Nat.eqb (fst (fst e)) i && Nat.eqb (snd (fst e)) (pos w cols) then snd e else 0) * x (pos w cols)
      + Qcsum (map (fun e => if Nat.eqb (fst (fst e)) i && Nat.eqb (snd (fst e)) (pos w cols) then snd e else 0) t) * x (pos w cols)) cols)).
    + rewrite Qcsum_map_add. f_equal. rewrite (Qcsum_single _ cols w0 NC); [|eapply nth_error_In; exact E0|].
      * rewrite <- P0, Nat.eqb_refl, andb_true_r. destruct (Nat.eqb (fst (fst e)) i); [reflexivity|ring].
      * intros w JW NE. destruct (Nat.eqb_spec (snd (fst e)) (pos w cols)) as [X|]; [|rewrite andb_false_r; ring]. exfalso. apply NE.
        pose proof (nth_pos w cols JW) as Y. rewrite <- X, E0 in Y. congruence.
    + apply Qcsum_ext. intros w _. rewrite Qcsum_cons. ring.
Qed.
Lemma map_pos {A} `{EqB A} (l : list A) : NoDup l -> map (fun v => pos v l) l = seq 0 (length l).
Proof.
  intros N. apply nth_ext with (d := 0%nat) (d' := 0%nat); [rewrite map_length, seq_length; reflexivity|]. rewrite map_length. intros i L.
  destruct (nth_error l i) as [x|] eqn:E; [|apply nth_error_None in E; lia]. assert (X : nth_error (map (fun v => pos v l) l) i = Some (pos x l)) by (rewrite nth_error_map, E; reflexivity).
  rewrite (nth_error_nth _ _ _ X), seq_nth by exact L. cbn. apply pos_nth_error; assumption.
Qed.
Lemma norm1_named n (l : list node) x : NoDup l -> n = length l -> norm1 n x = size l (fun v => x (pos v l)).
Proof. intros N ->. unfold norm1, size. rewrite <- (map_pos l N), map_map. reflexivity. Qed.

Lemma rounds_powv D strat l m es d : NoDup l -> named l l (m_ent m) es -> (forall v w, In v l -> In w l -> cell m (pos v l) (pos w l) = need D strat w v) ->
  forall k v, In v l -> powv (m_ent m) k d (pos v l) = rounds D strat l k (fun v => d (pos v l)) v.
Proof.
  intros N P C. induction k as [|k IH]; intros v J; [reflexivity|]. cbn [powv rounds]. rewrite (mulv_cells l l m es _ _ N P). unfold ask. apply Qcsum_ext.
  intros w JW. rewrite (C v w J JW), (IH w JW). reflexivity.
Qed.
Lemma stage D strat l m es d thr count : NoDup l -> named l l (m_ent m) es -> m_rows m = length l -> (forall v w, In v l -> In w l -> cell m (pos v l) (pos w l) = need D strat w v) ->
  exists k, supplied D strat l (fun v => d (pos v l)) thr count k (fun v => iterate (Some m) d thr count (pos v l)).
Proof.
  intros N P RW C. pose proof (rounds_powv D strat l m es d N P C) as RP.
  destruct (bg_loop_spec (m_rows m) (m_ent m) thr d count 0 d vzero 0) as [k [M1 [M2 [M3 [M4 [_ M6]]]]]]; [reflexivity|reflexivity|reflexivity|].
  assert (SZ : forall j, norm1 (m_rows m) (powv (m_ent m) j d) = size l (rounds D strat l j (fun v => d (pos v l)))).
  { intros j. rewrite (norm1_named _ l _ N RW). unfold size. apply Qcsum_ext. intros v J. rewrite (RP j v J). reflexivity. }
  assert (I : forall j, incsum (m_rows m) (m_ent m) d j = Qcsum (map (fun i => size l (rounds D strat l (S i) (fun v => d (pos v l)))) (seq 0 j))).
  { intros j. unfold incsum. apply Qcsum_ext. intros i _. apply SZ. }
  exists k. split; [lia|]. split; [exact M2|]. split; [|split].
  - rewrite SZ, I in M4. unfold small. cbn [plus] in M4. tauto.
  - intros j J. destruct (M6 j J) as [A B]. rewrite SZ in A, B. rewrite I in B. unfold small. tauto.
  - intros v J. unfold iterate. rewrite M3. unfold neumann. apply Qcsum_ext. intros j _. apply RP, J.
Qed.

Section Lci.
Context (D : db) (strat : strategy) (ord : list nat -> list nat) (fuel : nat) (vs : list node) (g : eng) (comp : nat -> list nat) (f : flat).
Hypothesis ORD : forall l, Permutation (ord l) l.
Hypothesis R : brun D strat fuel ord eng0 [AddAll vs] = UOk g.
Hypothesis FE : from_engine D comp g = BOk f.
Hypothesis O : forall w, indexed g w -> ordinary D strat w.
Notation fg := (foreground g). Notation bg := (background g). Notation ems := (e_ems (g_st g)).
Let SH := flat_shape D strat ord fuel vs g comp f ORD R FE.
Let NF := nd_fg D strat ord fuel vs g ORD R.
Let NB := nd_bg D strat ord fuel vs g ORD R.
Let NEM := nd_ems D strat ord fuel vs g ORD R.
Let IXf : forall v, In v fg -> indexed g v. Proof. intros v J. apply (indexed_split D strat ord fuel vs g ORD R). left; exact J. Qed.
Let IXb : forall v, In v bg -> indexed g v. Proof. intros v J. apply (indexed_split D strat ord fuel vs g ORD R). right; exact J. Qed.

Lemma rel_need w v : indexed g w -> rel D strat w v = need D strat w v.
Proof. intros J. unfold rel, need. destruct (eqb w v); [reflexivity|]. rewrite (evq_ordinary D strat w (O w J)). reflexivity. Qed.
Definition per (w : node) (e : emis) : Qc := emission_amount D strat w e / (1 - use D strat w w).
Lemma emi_per w e : indexed g w -> emi D strat w e = per w e.
Proof. intros J. unfold emi, per. rewrite (evq_ordinary D strat w (O w J)). reflexivity. Qed.
Lemma fg_prod : fg_products f = fg.
Proof. unfold fg_products. rewrite (sh_fg _ _ _ _ _ SH), map_map. transitivity (map (fun x => x) fg); [|apply map_id]. apply map_ext. intros [a b]. reflexivity. Qed.
Lemma bg_prod : bg_products f = bg.
Proof. unfold bg_products. rewrite (sh_bg _ _ _ _ _ SH), map_map. transitivity (map (fun x => x) bg); [|apply map_id]. apply map_ext. intros [a b]. reflexivity. Qed.

(** the vector of emissions for outputs [x] of the foreground and [y] of the background *)
Lemma lci_vec u thr count : indexed g u -> exists n b, compute_lci f (snd u) (fst u) thr count = BOk (n, b) /\ n = length ems /\
  exists kf kb x y, (In u fg -> supplied D strat fg (one u) thr count kf x) /\ (~ In u fg -> forall v, In v fg -> x v = 0)
    /\ supplied D strat bg (fun v => if mem u bg then one u v else ask D strat fg x v) thr count kb y
    /\ forall k e, nth_error ems k = Some e -> b k = Qcsum (map (fun w => per w e * x w) fg) + Qcsum (map (fun w => per w e * y w) bg).
Proof.
  intros JU. destruct (sh_A _ _ _ _ _ SH) as (A & EA & RA & CA & NA). destruct (sh_B _ _ _ _ _ SH) as (B & EB & RB & CB & NBm).
  assert (BEM : forall y k e, nth_error ems k = Some e -> mulv (m_ent B) y k = Qcsum (map (fun w => per w e * y (pos w bg)) bg)).
  { intros y k e K. rewrite (mulv_cells ems bg B _ y k NB NBm). apply Qcsum_ext. intros w JW. rewrite (cell_B D strat ord fuel vs g comp f ORD R FE B w k e EB JW K), (emi_per w e (IXb w JW)). reflexivity. }
  assert (STB : forall d, exists k, supplied D strat bg (fun v => d (pos v bg)) thr count k (fun v => iterate (Some A) d thr count (pos v bg))).
  { intros d. eapply stage; [exact NB|exact NA|exact RA|]. intros v w JV JW. rewrite (cell_A D strat ord fuel vs g comp f ORD R FE A w v EA JW JV). apply rel_need, IXb, JW. }
  unfold compute_lci, complete. rewrite EA, EB. apply (indexed_split D strat ord fuel vs g ORD R) in JU. destruct (mem u bg) eqn:MB.
  - apply mem_In in MB. rewrite (bg_yes D strat ord fuel vs g comp f ORD R FE u MB). eexists _, _. split; [reflexivity|]. split; [cbn; exact RB|].
    destruct (STB (unit_demand (pos u bg))) as [kb KB]. exists 0%nat, kb, (fun _ => 0), (fun v => iterate (Some A) (unit_demand (pos u bg)) thr count (pos v bg)).
    split; [intros X; exfalso; exact (fg_not_bg D strat ord fuel vs g ORD R u X MB)|]. split; [reflexivity|]. split.
    + assert (EQ : forall v, In v bg -> unit_demand (pos u bg) (pos v bg) = one u v) by (intros v J; apply (unit_demand_pos u bg); [exact NB|apply nth_pos, MB|exact J]).
      revert KB. clear - EQ NB. generalize (fun v => iterate (Some A) (unit_demand (pos u bg)) thr count (pos v bg)). intros y (K1 & K2 & K3 & K4 & K5).
      assert (RE : forall j v, In v bg -> rounds D strat bg j (fun v => unit_demand (pos u bg) (pos v bg)) v = rounds D strat bg j (one u) v).
      { induction j as [|j IH]; intros v J; cbn [rounds]; [apply EQ, J|]. unfold ask. apply Qcsum_ext. intros w JW. rewrite IH by exact JW. reflexivity. }
      assert (SE : forall j, size bg (rounds D strat bg j (fun v => unit_demand (pos u bg) (pos v bg))) = size bg (rounds D strat bg j (one u))).
      { intros j. unfold size. apply Qcsum_ext. intros v J. rewrite RE by exact J. reflexivity. }
      assert (SM : forall j, small D strat bg (fun v => unit_demand (pos u bg) (pos v bg)) thr j <-> small D strat bg (one u) thr j).
      { intros j. unfold small. rewrite SE. rewrite (Qcsum_ext _ (fun i => size bg (rounds D strat bg (S i) (one u)))) by (intros i _; apply SE). reflexivity. }
      split; [exact K1|]. split; [exact K2|]. split; [rewrite <- SM; exact K3|]. split; [intros j J; rewrite <- SM; apply K4, J|]. intros v J. rewrite (K5 v J). apply Qcsum_ext. intros j _. apply RE, J.
    + intros k e K. rewrite (Qcsum_zero (fun w => per w e * 0)) by (intros; ring). rewrite Qcplus_0_l. unfold bg_lci, dot. rewrite EA, EB. apply BEM, K.
  - assert (NBU : ~ In u bg) by (intros X; apply mem_In in X; congruence). destruct JU as [JU|JU]; [|contradiction].
    rewrite (bg_no D strat ord fuel vs g comp f ORD R FE u NBU), (fg_yes D strat ord fuel vs g comp f ORD R FE u JU).
    destruct (sh_f _ _ _ _ _ SH) as [(Z & _)|(af & ad & bf & E1 & E2 & E3 & R1 & C1 & R2 & C2 & R3 & C3 & N1 & N2 & N3)]; [exfalso; rewrite Z in JU; destruct JU|].
    unfold x_tilde, bg_lci, dot. rewrite E1, E2, E3, EA, EB. eexists _, _. split; [reflexivity|]. split; [cbn; exact R3|].
    set (xv := iterate (Some af) (unit_demand (pos u fg)) thr count).
    destruct (stage D strat fg af _ (unit_demand (pos u fg)) thr count NF N1 R1) as [kf KF].
    { intros v w JV JW. rewrite (cell_af D strat ord fuel vs g comp f ORD R FE af w v E1 JW JV). apply rel_need, IXf, JW. }
    destruct (STB (mulv (m_ent ad) xv)) as [kb KB].
    exists kf, kb, (fun v => xv (pos v fg)), (fun v => iterate (Some A) (mulv (m_ent ad) xv) thr count (pos v bg)). split; [|split; [|split]].
    + intros _. assert (EQ : forall v, In v fg -> unit_demand (pos u fg) (pos v fg) = one u v) by (intros v J; apply (unit_demand_pos u fg); [exact NF|apply nth_pos, JU|exact J]).
      revert KF. fold xv. clear - EQ NF. generalize (fun v => xv (pos v fg)). intros y (K1 & K2 & K3 & K4 & K5).
      assert (RE : forall j v, In v fg -> rounds D strat fg j (fun v => unit_demand (pos u fg) (pos v fg)) v = rounds D strat fg j (one u) v).
      { induction j as [|j IH]; intros v J; cbn [rounds]; [apply EQ, J|]. unfold ask. apply Qcsum_ext. intros w JW. rewrite IH by exact JW. reflexivity. }
      assert (SE : forall j, size fg (rounds D strat fg j (fun v => unit_demand (pos u fg) (pos v fg))) = size fg (rounds D strat fg j (one u))).
      { intros j. unfold size. apply Qcsum_ext. intros v J. rewrite RE by exact J. reflexivity. }
      assert (SM : forall j, small D strat fg (fun v => unit_demand (pos u fg) (pos v fg)) thr j <-> small D strat fg (one u) thr j).
      { intros j. unfold small. rewrite SE. rewrite (Qcsum_ext _ (fun i => size fg (rounds D strat fg (S i) (one u)))) by (intros i _; apply SE). reflexivity. }
      split; [exact K1|]. split; [exact K2|]. split; [rewrite <- SM; exact K3|]. split; [intros j J; rewrite <- SM; apply K4, J|]. intros v J. rewrite (K5 v J). apply Qcsum_ext. intros j _. apply RE, J.
    + contradiction.
    + set (d2 := fun v => ask D strat fg (fun v => xv (pos v fg)) v).
      assert (EQ : forall v, In v bg -> mulv (m_ent ad) xv (pos v bg) = d2 v).
      { intros v J. rewrite (mulv_cells bg fg ad _ xv _ NF N2). unfold d2, ask. apply Qcsum_ext. intros w JW. rewrite (cell_ad D strat ord fuel vs g comp f ORD R FE ad w v E2 JW J), (rel_need w v (IXf w JW)). reflexivity. }
      revert KB. generalize (fun v => iterate (Some A) (mulv (m_ent ad) xv) thr count (pos v bg)). intros y (K1 & K2 & K3 & K4 & K5).
      assert (RE : forall j v, In v bg -> rounds D strat bg j (fun v => mulv (m_ent ad) xv (pos v bg)) v = rounds D strat bg j d2 v).
      { induction j as [|j IH]; intros v J; cbn [rounds]; [apply EQ, J|]. unfold ask. apply Qcsum_ext. intros w JW. rewrite IH by exact JW. reflexivity. }
      assert (SE : forall j, size bg (rounds D strat bg j (fun v => mulv (m_ent ad) xv (pos v bg))) = size bg (rounds D strat bg j d2)).
      { intros j. unfold size. apply Qcsum_ext. intros v J. rewrite RE by exact J. reflexivity. }
      assert (SM : forall j, small D strat bg (fun v => mulv (m_ent ad) xv (pos v bg)) thr j <-> small D strat bg d2 thr j).
      { intros j. unfold small. rewrite SE. rewrite (Qcsum_ext _ (fun i => size bg (rounds D strat bg (S i) d2))) by (intros i _; apply SE). reflexivity. }
      split; [exact K1|]. split; [exact K2|]. split; [change (small D strat bg d2 thr kb \/ kb = count); rewrite <- SM; exact K3|]. split; [intros j J; change (~ small D strat bg d2 thr j); rewrite <- SM; apply K4, J|].
      intros v J. rewrite (K5 v J). apply Qcsum_ext. intros j _. apply RE, J.
    + intros k e K. unfold vadd. rewrite Qcplus_comm. f_equal; [|apply BEM, K]. rewrite (mulv_cells ems fg bf _ xv k NF N3). apply Qcsum_ext. intros w JW.
      rewrite (cell_bf D strat ord fuel vs g comp f ORD R FE bf w k e E3 JW K), (emi_per w e (IXf w JW)). reflexivity.
Qed.
End Lci.

(** * C82 *)
(** the inventory of net outputs [X] of the products [l]: emissions per unit of net output *)
Definition inventory (D : db) (strat : strategy) (l : list node) (X : node -> Qc) (e : emis) : Qc := Qcsum (map (fun w => emission_amount D strat w e / (1 - use D strat w w) * X w) l).
(** the outputs computed for one unit of [u]: first the rounds among the foreground products (nothing for a background product), then the
    rounds among the background products, for what the foreground outputs ask of them *)
Definition outputs (D : db) (strat : strategy) (f : flat) (u : node) (thr : Qc) (count kf kb : nat) (X : node -> Qc) : Prop :=
  (in_fg f u -> supplied D strat (fg_products f) (one u) thr count kf X /\ supplied D strat (bg_products f) (ask D strat (fg_products f) X) thr count kb X)
  /\ (in_bg f u -> (forall v, in_fg f v -> X v = 0) /\ supplied D strat (bg_products f) (one u) thr count kb X).

Lemma rounds_ext D strat l d d' : (forall v, In v l -> d v = d' v) -> forall k v, In v l -> rounds D strat l k d v = rounds D strat l k d' v.
Proof. intros E. induction k as [|k IH]; intros v J; cbn [rounds]; [apply E, J|]. unfold ask. apply Qcsum_ext. intros w JW. rewrite IH by exact JW. reflexivity. Qed.
Lemma supplied_ext D strat l d d' thr count k x x' : (forall v, In v l -> d v = d' v) -> (forall v, In v l -> x v = x' v) -> supplied D strat l d thr count k x -> supplied D strat l d' thr count k x'.
Proof.
  intros E EX (K1 & K2 & K3 & K4 & K5). pose proof (rounds_ext D strat l d d' E) as RE.
  assert (SE : forall j, size l (rounds D strat l j d) = size l (rounds D strat l j d')) by (intros j; unfold size; apply Qcsum_ext; intros v J; rewrite RE by exact J; reflexivity).
  assert (SM : forall j, small D strat l d thr j <-> small D strat l d' thr j).
  { intros j. unfold small. rewrite SE. rewrite (Qcsum_ext _ (fun i => size l (rounds D strat l (S i) d'))) by (intros i _; apply SE). reflexivity. }
  split; [exact K1|]. split; [exact K2|]. split; [rewrite <- SM; exact K3|]. split; [intros j J; rewrite <- SM; apply K4, J|]. intros v J. rewrite <- (EX v J), (K5 v J). apply Qcsum_ext. intros j _. apply RE, J.
Qed.

(** For every database, every listed product [u], every threshold and limit: the inventory reports, once each, exactly the emissions with a
    nonzero total over the outputs of the rounds computed, with that total. *)
Theorem C82_lci_partial D strat comp vs f u thr count : built D strat comp vs f -> listed f u -> (forall w, listed f w -> ordinary D strat w) ->
  exists xs kf kb X, lci f (snd u) (fst u) thr count = BOk xs /\ NoDup xs /\ outputs D strat f u thr count kf kb X
    /\ forall x, In x xs <-> exists e, inventory D strat (products f) X e <> 0 /\ x = XD (snd u) (fst e) (snd e) None (inventory D strat (products f) X e).
Proof.
  intros (ord & fuel & g & ORD & R & FE) JU O. pose proof (listed_iff D strat ord fuel vs g comp f ORD R FE) as LI.
  assert (O' : forall w, indexed g w -> ordinary D strat w) by (intros w J; apply O, LI, J). apply LI in JU.
  destruct (lci_vec D strat ord fuel vs g comp f ORD R FE O' u thr count JU) as (n & b & E & NE & kf & kb & x & y & F1 & F2 & SB & BV).
  pose proof (nd_fg D strat ord fuel vs g ORD R) as NF. pose proof (nd_bg D strat ord fuel vs g ORD R) as NB. pose proof (fg_not_bg D strat ord fuel vs g ORD R) as FB.
  pose proof (nd_ems D strat ord fuel vs g ORD R) as NEM.
  set (X := fun w => if mem w (background g) then y w else x w).
  assert (XF : forall w, In w (foreground g) -> X w = x w). { intros w J. unfold X. destruct (mem w (background g)) eqn:M; [|reflexivity]. apply mem_In in M. exfalso. exact (FB w J M). }
  assert (XB : forall w, In w (background g) -> X w = y w). { intros w J. unfold X. apply mem_In in J. rewrite J. reflexivity. }
  assert (INV : forall e, inventory D strat (products f) X e = Qcsum (map (fun w => per D strat w e * x w) (foreground g)) + Qcsum (map (fun w => per D strat w e * y w) (background g))).
  { intros e. unfold inventory, products. rewrite (fg_prod D strat ord fuel vs g comp f ORD R FE), (bg_prod D strat ord fuel vs g comp f ORD R FE), map_app, Qcsum_app. f_equal; apply Qcsum_ext; intros w J; unfold per; [rewrite (XF w J)|rewrite (XB w J)]; reflexivity. }
  unfold lci. rewrite E.
  destruct (em_defs_spec (snd u) (dense n b) (f_ex f)) as (xs & EX & S).
  { intros [i q] J. apply In_dense in J as (L & -> & N). cbn. split; [exact N|]. rewrite NE in L. apply nth_error_Some. rewrite (nth_ex D strat ord fuel vs g comp f ORD R FE).
    apply nth_error_Some in L. destruct (nth_error (e_ems (g_st g)) i); [discriminate|contradiction]. }
  exists xs, kf, kb, X. split; [exact EX|]. split; [|split].
  - eapply em_defs_nd; [apply dense_nd| | |exact EX].
    + intros [i q] J. apply In_dense in J as (_ & _ & N). exact N.
    + intros i j s t Si Tj F T. rewrite (nth_ex D strat ord fuel vs g comp f ORD R FE) in Si, Tj. destruct (nth_error (e_ems (g_st g)) i) as [[a c]|] eqn:EI; [|discriminate]. destruct (nth_error (e_ems (g_st g)) j) as [[a' c']|] eqn:EK; [|discriminate].
      injection Si as <-. injection Tj as <-. cbn in F, T. assert (c = c') by (destruct c, c'; cbn in T; congruence). subst a' c'. rewrite (pos_eq _ i _ NEM EI), (pos_eq _ j _ NEM EK). reflexivity.
  - unfold outputs. rewrite (fg_prod D strat ord fuel vs g comp f ORD R FE), (bg_prod D strat ord fuel vs g comp f ORD R FE). split.
    + intros J. apply (in_fg_iff D strat ord fuel vs g comp f ORD R FE) in J. split; [eapply supplied_ext; [reflexivity| |exact (F1 J)]; intros v JV; symmetry; apply XF, JV|].
      assert (M : mem u (background g) = false) by (destruct (mem u (background g)) eqn:M; [apply mem_In in M; exfalso; exact (FB u J M)|reflexivity]). rewrite M in SB.
      eapply supplied_ext; [| |exact SB]; [|intros v JV; symmetry; apply XB, JV]. intros v JV. unfold ask. apply Qcsum_ext. intros w JW. rewrite (XF w JW). reflexivity.
    + intros J. apply (in_bg_iff D strat ord fuel vs g comp f ORD R FE) in J. split.
      * intros v JV. apply (in_fg_iff D strat ord fuel vs g comp f ORD R FE) in JV. rewrite (XF v JV). apply F2; [|exact JV]. intros J'. exact (FB u J' J).
      * apply mem_In in J. rewrite J in SB. eapply supplied_ext; [| |exact SB]; [reflexivity|]. intros v JV. symmetry. apply XB, JV.
  - intros z. rewrite S. split.
    + intros (i & q & t & J & T & ->). apply In_dense in J as (L & -> & N). rewrite (nth_ex D strat ord fuel vs g comp f ORD R FE) in T. destruct (nth_error (e_ems (g_st g)) i) as [e|] eqn:EI; [|discriminate]. injection T as <-.
      exists e. rewrite INV, <- (BV i e EI). split; [exact N|]. cbn. destruct (snd e); reflexivity.
    + intros (e & N & ->). assert (JE : In e (e_ems (g_st g))).
      { destruct (mem e (e_ems (g_st g))) eqn:M; [apply mem_In; exact M|]. exfalso. apply N. unfold inventory. apply Qcsum_zero. intros w JW.
        assert (EM : emission_amount D strat w e = 0).
        { rewrite emission_emitted. destruct (emitted D strat w e) as [|q l] eqn:EW; [reflexivity|]. exfalso.
          assert (JW' : indexed g w). { apply LI. unfold products in JW. rewrite (fg_prod D strat ord fuel vs g comp f ORD R FE), (bg_prod D strat ord fuel vs g comp f ORD R FE) in JW. apply in_app_iff in JW as [JW|JW]; [left; apply (in_fg_iff D strat ord fuel vs g comp f ORD R FE)|right; apply (in_bg_iff D strat ord fuel vs g comp f ORD R FE)]; exact JW. }
          assert (Y : In e (e_ems (g_st g))) by (apply (emitted_indexed D strat ord fuel vs g ORD R w e JW'); rewrite EW; discriminate). apply mem_In in Y. congruence. }
        rewrite EM. unfold Qcdiv. ring. }
      pose proof (nth_pos e _ JE) as EI. exists (pos e (e_ems (g_st g))), (inventory D strat (products f) X e), (make_ext comp e). split; [|split].
      * apply In_dense. split; [rewrite NE; apply pos_lt, JE|]. split; [rewrite INV, (BV _ e EI); reflexivity|exact N].
      * rewrite (nth_ex D strat ord fuel vs g comp f ORD R FE), EI. reflexivity.
      * cbn. destruct (snd e); reflexivity.
Qed.
Print Assumptions C82_lci_partial.

(** What such outputs mean: the balance of every product up to the round not computed. *)
Lemma ask_ext D strat l x x' v : (forall w, In w l -> x w = x' w) -> ask D strat l x v = ask D strat l x' v.
Proof. intros E. unfold ask. apply Qcsum_ext. intros w J. rewrite (E w J). reflexivity. Qed.
Lemma ask_sum D strat l (F : nat -> node -> Qc) js v : ask D strat l (fun w => Qcsum (map (fun j => F j w) js)) v = Qcsum (map (fun j => ask D strat l (F j) v) js).
Proof.
  induction js as [|j js IH]; cbn [map]; [rewrite Qcsum_nil; apply Qcsum_zero; intros; ring|]. rewrite Qcsum_cons, <- IH. unfold ask. rewrite <- Qcsum_map_add. apply Qcsum_ext. intros w _. rewrite Qcsum_cons. ring.
Qed.
Lemma supplied_balance D strat l d thr count k x : supplied D strat l d thr count k x -> forall v, In v l -> x v + rounds D strat l k d v = d v + ask D strat l x v.
Proof.
  intros (_ & _ & _ & _ & E) v J. rewrite (E v J), (ask_ext D strat l x (fun w => Qcsum (map (fun j => rounds D strat l j d w) (seq 0 k)))) by exact E. rewrite ask_sum.
  clear. induction k as [|k IH]; [cbn; unfold Qcsum; cbn; ring|]. rewrite seq_S, !map_app, !Qcsum_app. cbn [map plus rounds]. rewrite !Qcsum_cons, !Qcsum_nil.
  transitivity ((Qcsum (map (fun j => rounds D strat l j d v) (seq 0 k)) + rounds D strat l k d v) + ask D strat l (rounds D strat l k d) v); [ring|]. rewrite IH. change (ask D strat l (fun v0 => rounds D strat l k d v0) v) with (ask D strat l (rounds D strat l k d) v). ring.
Qed.
Lemma need_bg_fg D strat comp vs f w v : built D strat comp vs f -> in_bg f w -> in_fg f v -> need D strat w v = 0.
Proof.
  intros (ord & fuel & g & ORD & R & FE) JW JV. apply (in_bg_iff D strat ord fuel vs g comp f ORD R FE) in JW. apply (in_fg_iff D strat ord fuel vs g comp f ORD R FE) in JV.
  unfold need. destruct (eqb w v); [reflexivity|]. destruct (uses D strat w v) as [|q l] eqn:U; [unfold use; rewrite U; unfold Qcsum, Qcdiv; cbn; ring|]. exfalso.
  assert (N : uses D strat w v <> []) by (rewrite U; discriminate). apply uses_depends in N. destruct (C32_background_closed D strat ord fuel _ g ORD R) as (CL & _).
  exact (fg_not_bg D strat ord fuel vs g ORD R v JV (CL w v JW N)).
Qed.
Lemma in_fg_products D strat comp vs f v : built D strat comp vs f -> (In v (fg_products f) <-> in_fg f v).
Proof. intros (ord & fuel & g & ORD & R & FE). rewrite (fg_prod D strat ord fuel vs g comp f ORD R FE). symmetry. apply (in_fg_iff D strat ord fuel vs g comp f ORD R FE). Qed.
Lemma in_bg_products D strat comp vs f v : built D strat comp vs f -> (In v (bg_products f) <-> in_bg f v).
Proof. intros (ord & fuel & g & ORD & R & FE). rewrite (bg_prod D strat ord fuel vs g comp f ORD R FE). symmetry. apply (in_bg_iff D strat ord fuel vs g comp f ORD R FE). Qed.
Lemma ask_app D strat l m x v : ask D strat (l ++ m) x v = ask D strat l x v + ask D strat m x v.
Proof. unfold ask. rewrite map_app, Qcsum_app. reflexivity. Qed.
(** the round of the stage of [v] that was not computed *)
Definition left_out (D : db) (strat : strategy) (f : flat) (u : node) (kf kb : nat) (X : node -> Qc) (v : node) : Qc :=
  if mem v (bg_products f) then rounds D strat (bg_products f) kb (if mem u (bg_products f) then one u else ask D strat (fg_products f) X) v
  else if mem u (bg_products f) then 0 else rounds D strat (fg_products f) kf (one u) v.
Theorem C82_balance D strat comp vs f u thr count kf kb X : built D strat comp vs f -> listed f u -> outputs D strat f u thr count kf kb X ->
  forall v, listed f v -> X v + left_out D strat f u kf kb X v = one u v + ask D strat (products f) X v.
Proof.
  intros B JU OU v JV. destruct (C80_listed D strat comp vs f B) as (_ & DJ & _). unfold products. rewrite ask_app. unfold left_out.
  assert (MB : forall x, mem x (bg_products f) = true <-> in_bg f x) by (intros x; rewrite mem_In; apply (in_bg_products D strat comp vs f x B)).
  assert (NB : forall x, in_fg f x -> mem x (bg_products f) = false) by (intros x J; destruct (mem x (bg_products f)) eqn:M; [apply MB in M; exfalso; exact (DJ x J M)|reflexivity]).
  destruct JU as [JU|JU].
  - rewrite (NB u JU). destruct OU as [OU _]. destruct (OU JU) as [SF SB]. destruct JV as [JV|JV].
    + rewrite (NB v JV). rewrite (supplied_balance _ _ _ _ _ _ _ _ SF v) by (apply (in_fg_products D strat comp vs f v B); exact JV).
      assert (Z : ask D strat (bg_products f) X v = 0). { unfold ask. apply Qcsum_zero. intros w J. apply (in_bg_products D strat comp vs f w B) in J. rewrite (need_bg_fg D strat comp vs f w v B J JV). ring. }
      rewrite Z. ring.
    + pose proof (proj2 (MB v) JV) as M. rewrite M. rewrite (supplied_balance _ _ _ _ _ _ _ _ SB v) by (apply (in_bg_products D strat comp vs f v B); exact JV).
      assert (Z : one u v = 0). { unfold one. destruct (eqb_spec v u) as [->|]; [exfalso; exact (DJ u JU JV)|reflexivity]. } rewrite Z. ring.
  - pose proof (proj2 (MB u) JU) as MU. rewrite MU. destruct OU as [_ OU]. destruct (OU JU) as [ZF SB].
    assert (AF : forall x, ask D strat (fg_products f) X x = 0). { intros x. unfold ask. apply Qcsum_zero. intros w J. apply (in_fg_products D strat comp vs f w B) in J. rewrite (ZF w J). ring. }
    rewrite AF. destruct JV as [JV|JV].
    + rewrite (NB v JV), (ZF v JV). assert (Z : ask D strat (bg_products f) X v = 0). { unfold ask. apply Qcsum_zero. intros w J. apply (in_bg_products D strat comp vs f w B) in J. rewrite (need_bg_fg D strat comp vs f w v B J JV). ring. }
      rewrite Z. unfold one. destruct (eqb_spec v u) as [->|]; [exfalso; exact (DJ u JV JU)|ring].
    + pose proof (proj2 (MB v) JV) as M. rewrite M. rewrite (supplied_balance _ _ _ _ _ _ _ _ SB v) by (apply (in_bg_products D strat comp vs f v B); exact JV). ring.
Qed.
Print Assumptions C82_balance.

(** When no process takes a net return of another's product, the outputs (and so the inventory of positive emissions) never exceed those of
    any nonnegative solution of the full balance: truncation only leaves out. *)
Lemma ask_le D strat l x y v : (forall w, In w l -> 0 <= need D strat w v) -> (forall w, In w l -> x w <= y w) -> ask D strat l x v <= ask D strat l y v.
Proof.
  intros N L. unfold ask. induction l as [|w l IH]; [apply Qcle_refl|]. cbn [map]. rewrite !Qcsum_cons. apply Qcplus_le_compat; [|apply IH; intros; [apply N|apply L]; right; assumption].
  rewrite !(Qcmult_comm (need _ _ _ _)). apply Qcmult_le_compat_r; [apply L|apply N]; left; reflexivity.
Qed.
Lemma ask_nonneg D strat l x v : (forall w, In w l -> 0 <= need D strat w v) -> (forall w, In w l -> 0 <= x w) -> 0 <= ask D strat l x v.
Proof.
  intros N L. eapply Qcle_trans; [|apply (ask_le D strat l (fun _ => 0) x v N L)]. unfold ask. rewrite Qcsum_zero; [apply Qcle_refl|]. intros; ring.
Qed.
Lemma rounds_nonneg D strat l d : (forall w v, In w l -> In v l -> 0 <= need D strat w v) -> (forall v, In v l -> 0 <= d v) -> forall k v, In v l -> 0 <= rounds D strat l k d v.
Proof. intros N P. induction k as [|k IH]; intros v J; cbn [rounds]; [apply P, J|]. apply ask_nonneg; [intros w JW; apply N; assumption|exact IH]. Qed.
(** partial sums stay below any super-solution *)
Lemma supplied_below D strat l d thr count k x s : (forall w v, In w l -> In v l -> 0 <= need D strat w v) -> supplied D strat l d thr count k x ->
  (forall v, In v l -> 0 <= s v) -> (forall v, In v l -> d v + ask D strat l s v <= s v) -> forall v, In v l -> x v <= s v.
Proof.
  intros N (_ & _ & _ & _ & E) P SS. assert (G : forall k v, In v l -> Qcsum (map (fun j => rounds D strat l j d v) (seq 0 k)) <= s v).
  { clear E. induction k0 as [|k0 IH]; intros v J; [cbn [seq map]; unfold Qcsum; cbn [fold_right]; apply P, J|].
    eapply Qcle_trans; [|apply (SS v J)]. cbn [seq map]. rewrite Qcsum_cons. apply Qcplus_le_compat; [apply Qcle_refl|]. rewrite <- seq_shift, map_map.
    change (Qcsum (map (fun j => ask D strat l (rounds D strat l j d) v) (seq 0 k0)) <= ask D strat l s v). rewrite <- ask_sum. apply ask_le; [intros w JW; apply N; assumption|exact IH]. }
  intros v J. rewrite (E v J). apply G, J.
Qed.
Lemma supplied_nonneg D strat l d thr count k x : (forall w v, In w l -> In v l -> 0 <= need D strat w v) -> (forall v, In v l -> 0 <= d v) -> supplied D strat l d thr count k x -> forall v, In v l -> 0 <= x v.
Proof.
  intros N P (_ & _ & _ & _ & E) v J. rewrite (E v J). destruct (Qcsum_nonneg (fun j => rounds D strat l j d v) (seq 0 k)) as [X _]; [|exact X]. intros j _. apply rounds_nonneg; assumption.
Qed.
Theorem C82_never_overstated D strat comp vs f u thr count kf kb X S : built D strat comp vs f -> listed f u -> outputs D strat f u thr count kf kb X ->
  (forall w v, listed f w -> listed f v -> 0 <= need D strat w v) -> (forall v, listed f v -> 0 <= S v /\ S v = one u v + ask D strat (products f) S v) ->
  forall v, listed f v -> 0 <= X v /\ X v <= S v.
Proof.
  intros B JU OU N SOL. pose proof (in_fg_products D strat comp vs f) as IF. pose proof (in_bg_products D strat comp vs f) as IB.
  assert (LF : forall v, In v (fg_products f) -> listed f v) by (intros v J; left; apply (IF v B); exact J). assert (LB : forall v, In v (bg_products f) -> listed f v) by (intros v J; right; apply (IB v B); exact J).
  assert (O1 : forall v, 0 <= one u v) by (intros v; unfold one; destruct (eqb v u); [discriminate|apply Qcle_refl]).
  assert (SP : forall v, listed f v -> 0 <= S v) by (intros v J; apply (SOL v J)).
  assert (AB : forall v, listed f v -> 0 <= ask D strat (bg_products f) S v) by (intros v J; apply ask_nonneg; [intros w JW; apply N; auto|intros w JW; apply SP; auto]).
  assert (AF : forall v, listed f v -> 0 <= ask D strat (fg_products f) S v) by (intros v J; apply ask_nonneg; [intros w JW; apply N; auto|intros w JW; apply SP; auto]).
  assert (PL : forall a b : Qc, 0 <= b -> a <= a + b) by (intros a b H; rewrite <- (Qcplus_0_r a) at 1; apply Qcplus_le_compat; [apply Qcle_refl|exact H]).
  assert (PR : forall a b : Qc, 0 <= b -> a <= b + a) by (intros a b H; rewrite Qcplus_comm; apply PL, H).
  destruct JU as [JU|JU].
  - destruct OU as [OU _]. destruct (OU JU) as [SF SB].
    assert (F1 : forall v, In v (fg_products f) -> 0 <= X v) by (apply (supplied_nonneg D strat _ (one u) thr count kf); [intros w v A C; apply N; auto|intros v _; apply O1|exact SF]).
    assert (F2 : forall v, In v (fg_products f) -> X v <= S v).
    { apply (supplied_below D strat _ (one u) thr count kf); [intros w v A C; apply N; auto|exact SF|intros v J; apply SP; auto|]. intros v J. destruct (SOL v (LF v J)) as [_ E]. rewrite E. unfold products. rewrite ask_app.
      rewrite Qcplus_assoc. apply PL, AB, LF, J. }
    assert (AX : forall v, listed f v -> ask D strat (fg_products f) X v <= ask D strat (fg_products f) S v) by (intros v J; apply ask_le; [intros w JW; apply N; auto|exact F2]).
    assert (B1 : forall v, In v (bg_products f) -> 0 <= X v).
    { apply (supplied_nonneg D strat _ (ask D strat (fg_products f) X) thr count kb); [intros w v A C; apply N; auto| |exact SB]. intros v J. apply ask_nonneg; [intros w JW; apply N; auto|exact F1]. }
    assert (B2 : forall v, In v (bg_products f) -> X v <= S v).
    { apply (supplied_below D strat _ (ask D strat (fg_products f) X) thr count kb); [intros w v A C; apply N; auto|exact SB|intros v J; apply SP; auto|]. intros v J. destruct (SOL v (LB v J)) as [_ E]. rewrite E. unfold products. rewrite ask_app.
      eapply Qcle_trans; [|apply PR, O1]. apply Qcplus_le_compat; [apply AX; auto|apply Qcle_refl]. }
    intros v [J|J]; [apply (IF v B) in J|apply (IB v B) in J]; auto.
  - destruct OU as [_ OU]. destruct (OU JU) as [ZF SB].
    assert (B1 : forall v, In v (bg_products f) -> 0 <= X v) by (apply (supplied_nonneg D strat _ (one u) thr count kb); [intros w v A C; apply N; auto|intros v _; apply O1|exact SB]).
    assert (B2 : forall v, In v (bg_products f) -> X v <= S v).
    { apply (supplied_below D strat _ (one u) thr count kb); [intros w v A C; apply N; auto|exact SB|intros v J; apply SP; auto|]. intros v J. destruct (SOL v (LB v J)) as [_ E]. rewrite E. unfold products. rewrite ask_app.
      apply Qcplus_le_compat; [apply Qcle_refl|]. apply PR, AF; auto. }
    intros v [J|J]; [rewrite (ZF v J); split; [apply Qcle_refl|apply SP; left; exact J]|apply (IB v B) in J; auto].
Qed.
Print Assumptions C82_never_overstated.

(** Refuted: the inventory is not the exact one.  One unit of (1,1) in the cycle of D80, with the default threshold 1e-8 and limit 100: the full
    balance is solved by net outputs 3 of (1,1) and 4 of (2,2), so the emission of flow 9 is 12 units; the report is less. *)
Definition thr82 : Qc := Q2Qc (1 # 100000000).
Definition S82 : node -> Qc := fun v => if eqb v (1, 1)%nat then Q 3 1 else if eqb v (2, 2)%nat then Q 4 1 else 0.
Theorem C82_refuted_exact : exists D vs f u X, built D Abort comp80 vs f /\ listed f u /\ (forall w, listed f w -> ordinary D Abort w)
  /\ (forall v, listed f v -> X v = one u v + ask D Abort (products f) X v) /\ inventory D Abort (products f) X (9%nat, Output) = Q 12 1
  /\ exists q, lci f (snd u) (fst u) thr82 100 = BOk [XD (snd u) 9 Output None q] /\ q < Q 12 1.
Proof.
  exists D80, [(4, 4)]%nat, flat80, (1, 1)%nat, S82. split; [exact built80|]. split; [right; apply in_bg_check; vm_compute; reflexivity|]. split; [exact (proj1 C81_example)|]. split; [|split].
  - assert (L : forall w, listed flat80 w -> In w [(1, 1); (2, 2); (3, 3); (4, 4)]%nat).
    { assert (X : forall t w, In t (f_fg flat80 ++ f_bg flat80) -> refers t w -> In w [(1, 1); (2, 2); (3, 3); (4, 4)]%nat).
      { intros t [a b] J [F T]. vm_compute in J. destruct J as [<-|[<-|[<-|[<-|[]]]]]; cbn in F, T; injection T as <-; subst a; cbn; tauto. }
      intros w [(t & J & RT)|(t & J & RT)]; [apply (X t w (proj2 (in_app_iff _ _ _) (or_introl J)) RT)|apply (X t w (proj2 (in_app_iff _ _ _) (or_intror J)) RT)]. }
    intros v J. apply L in J. destruct J as [<-|[<-|[<-|[<-|[]]]]]; apply Qc_is_canon; vm_compute; reflexivity.
  - apply Qc_is_canon; vm_compute; reflexivity.
  - assert (X : match lci flat80 1 1 thr82 100 with BOk [x] => (Nat.eqb (x_proc x) 1 && Nat.eqb (x_flow x) 9 && match x_dir x, x_term x with Output, None => true | _, _ => false end
        && (if Qclt_le_dec (x_val x) (Q 12 1) then true else false))%bool | _ => false end = true) by (vm_compute; reflexivity).
    cbn [fst snd]. destruct (lci flat80 1 1 thr82 100) as [[|[p fl d t q] [|]]|]; try discriminate X. cbn in X. apply andb_true_iff in X as [X X4]. apply andb_true_iff in X as [X X3]. apply andb_true_iff in X as [X1 X2].
    apply Nat.eqb_eq in X1, X2. subst p fl. destruct d, t; try discriminate X3. exists q. split; [reflexivity|]. destruct (Qclt_le_dec q (Q 12 1)); [assumption|discriminate].
Qed.
Print Assumptions C82_refuted_exact.

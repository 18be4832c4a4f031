(** Supporting lemmas for the flat background, continued: what the queries read. *)
From Verif Require Import Num Base ProcModel BgModel BgProofs BgProofs2 BgProofs3 BgProofs4 BgProofs5 BgProps BgProps2 BgLciModel BgLciProps BgNetProps FlatModel FlatProofs.
From Coq Require Import Permutation Lia.
Open Scope Qc_scope.
Open Scope list_scope.
Local Arguments eqb : simpl never.

(** * Columns *)
Lemma In_column m j i q : In (i, q) (column m j) <-> (i < m_rows m)%nat /\ is_stored m i j = true /\ q = cell m i j.
Proof.
  unfold column. rewrite in_map_iff. split.
  - intros (k & E & J). injection E as -> <-. apply filter_In in J as [J S]. apply in_seq in J. repeat split; auto; lia.
  - intros (L & S & ->). exists i. split; [reflexivity|]. apply filter_In. split; [apply in_seq; lia|exact S].
Qed.
Lemma column_nd m j : NoDup (map fst (column m j)).
Proof. unfold column. rewrite map_map. cbn. rewrite map_id. apply NoDup_filter, seq_NoDup. Qed.
Lemma In_mrow m j i q : In (j, q) (mrow m i) <-> (j < m_cols m)%nat /\ is_stored m i j = true /\ q = cell m i j.
Proof.
  unfold mrow. rewrite in_map_iff. split.
  - intros (k & E & J). injection E as -> <-. apply filter_In in J as [J S]. apply in_seq in J. repeat split; auto; lia.
  - intros (L & S & ->). exists j. split; [reflexivity|]. apply filter_In. split; [apply in_seq; lia|exact S].
Qed.
Lemma In_nonzero v i : In i (nonzero v) <-> exists q, In (i, q) v /\ q <> 0.
Proof.
  unfold nonzero. rewrite in_map_iff. split.
  - intros ([i' q] & <- & J). apply filter_In in J as [J N]. exists q. split; [exact J|]. intros ->. cbn in N. rewrite eqb_refl in N. discriminate.
  - intros (q & J & N). exists (i, q). split; [reflexivity|]. apply filter_In. split; [exact J|]. cbn. destruct (eqb_spec q 0); [contradiction|reflexivity].
Qed.
Lemma scan_nz v : (forall e, In e v -> snd e <> 0) -> scan v = v.
Proof.
  intros N. unfold scan, nonzero. rewrite (filter_all (fun e : nat * Qc => negb (eqb (snd e) 0))).
  - clear N. induction v as [|[i q] v IH]; cbn; [reflexivity|]. rewrite IH. reflexivity.
  - intros e J. destruct (eqb_spec (snd e) 0) as [E|_]; [exfalso; exact (N e J E)|reflexivity].
Qed.
Lemma In_dense n x i q : In (i, q) (dense n x) <-> (i < n)%nat /\ q = x i /\ q <> 0.
Proof.
  unfold dense. rewrite filter_In, in_map_iff. cbn. split.
  - intros ((k & E & J) & N). injection E as -> <-. apply in_seq in J. repeat split; [lia|]. intros E. rewrite E, eqb_refl in N. discriminate.
  - intros (L & -> & N). split; [exists i; split; [reflexivity|apply in_seq; lia]|]. destruct (eqb_spec (x i) 0); [contradiction|reflexivity].
Qed.
Lemma dense_nd n x : NoDup (map fst (dense n x)).
Proof.
  assert (X : forall l, NoDup l -> NoDup (map fst (filter (fun e : nat * Qc => negb (eqb (snd e) 0)) (map (fun i => (i, x i)) l)))).
  { induction 1 as [|a l N ND IH]; cbn; [constructor|]. destruct (negb (eqb (x a) 0)); [|exact IH]. cbn. constructor; [|exact IH].
    intros J. apply in_map_iff in J as ([i q] & E & J). apply filter_In in J as [J _]. apply in_map_iff in J as (k & E2 & J). injection E2 as -> _. cbn in E. congruence. }
  apply X, seq_NoDup.
Qed.
Lemma bmap_ok {A B} (h : A -> bret B) l : (forall a, In a l -> exists b, h a = BOk b) -> exists bs, bmap h l = BOk bs /\ forall b, In b bs <-> exists a, In a l /\ h a = BOk b.
Proof.
  induction l as [|a l IH]; intros K; cbn.
  - exists []. split; [reflexivity|]. intros b. split; [intros []|intros (a & [] & _)].
  - destruct (K a (or_introl eq_refl)) as [b HB]. destruct IH as (bs & E & S); [intros c J; apply K; right; exact J|]. rewrite HB, E. exists (b :: bs). split; [reflexivity|].
    intros b'. cbn. rewrite S. split.
    + intros [<-|(c & J & HC)]; [exists a; auto|exists c; auto].
    + intros (c & [<-|J] & HC); [left; congruence|right; exists c; auto].
Qed.
Lemma bmap_nd {A B C} (h : A -> bret B) (ka : A -> C) (l : list A) bs : (forall a a' b, In a l -> In a' l -> h a = BOk b -> h a' = BOk b -> ka a = ka a') -> NoDup (map ka l) -> bmap h l = BOk bs -> NoDup bs.
Proof.
  revert bs. induction l as [|a l IH]; intros bs INJ ND E; cbn in E; [injection E as <-; constructor|].
  destruct (h a) as [b|] eqn:HA; [|discriminate]. destruct (bmap h l) as [bs'|] eqn:EB; [|discriminate]. injection E as <-. cbn in ND. inversion ND as [|x y N1 N2]; subst. constructor.
  - intros J. apply N1. assert (X : exists a', In a' l /\ h a' = BOk b).
    { clear -EB J. revert bs' EB J. induction l as [|c l IH]; intros bs' EB J; cbn in EB; [injection EB as <-; destruct J|]. destruct (h c) as [b'|] eqn:HC; [|discriminate]. destruct (bmap h l) as [bs''|]; [|discriminate].
      injection EB as <-. destruct J as [->|J]; [exists c; cbn; auto|]. destruct (IH _ eq_refl J) as (a' & ? & ?). exists a'. cbn. auto. }
    destruct X as (a' & JA & HA'). rewrite (INJ a a' b); cbn; auto. apply in_map. exact JA.
  - apply IH; auto. intros c c' b' J J'. apply INJ; cbn; auto.
Qed.

(** * Lookup of a product flow *)
Lemma last_pos_None term fl l : last_pos term fl l = None <-> forall t, In t l -> ~ (t_term t = term /\ t_flow t = fl).
Proof.
  induction l as [|t l IH]; cbn; [split; [intros _ ? []|reflexivity]|]. destruct (last_pos term fl l) as [i|] eqn:E.
  - split; [discriminate|]. intros N. exfalso. assert (X : Some i = None) by (apply IH; intros t' J; apply N; right; exact J). discriminate.
  - destruct (eqb_spec (t_term t) term) as [E1|N1]; cbn; [destruct (Nat.eqb_spec (t_flow t) fl) as [E2|N2]|].
    + split; [discriminate|]. intros N. exfalso. apply (N t); auto.
    + split; [|reflexivity]. intros _ t' [<-|J]; [tauto|]. apply (proj1 IH eq_refl t' J).
    + split; [|reflexivity]. intros _ t' [<-|J]; [tauto|]. apply (proj1 IH eq_refl t' J).
Qed.
Lemma last_pos_in D g (l : list node) v : NoDup l -> In v l -> last_pos (Some (snd v)) (fst v) (map (make_ref D g) l) = Some (pos v l).
Proof.
  induction 1 as [|a l N ND IH]; intros J; [destruct J|]. cbn [map last_pos pos]. destruct (eqb_spec v a) as [->|NE].
  - assert (E : last_pos (Some (snd a)) (fst a) (map (make_ref D g) l) = None).
    { apply last_pos_None. intros t JT [E1 E2]. apply in_map_iff in JT as (b & <- & JB). cbn in E1, E2. injection E1 as E1. apply N. replace a with b; [exact JB|]. destruct a, b. cbn in *. congruence. }
    rewrite E. cbn [make_ref t_term t_flow]. rewrite eqb_refl, Nat.eqb_refl. reflexivity.
  - destruct J as [->|J]; [contradiction|]. rewrite (IH J). reflexivity.
Qed.
Lemma last_pos_out D g (l : list node) v : ~ In v l -> last_pos (Some (snd v)) (fst v) (map (make_ref D g) l) = None.
Proof.
  intros N. apply last_pos_None. intros t JT [E1 E2]. apply in_map_iff in JT as (b & <- & JB). cbn in E1, E2. injection E1 as E1. apply N. replace v with b; [exact JB|]. destruct v, b. cbn in *. congruence.
Qed.

(** * The flat background of a database *)
Section Flat.
Context (D : db) (strat : strategy) (ord : list nat -> list nat) (fuel : nat) (vs : list node) (g : eng) (comp : nat -> list nat) (f : flat).
Hypothesis ORD : forall l, Permutation (ord l) l.
Hypothesis R : brun D strat fuel ord eng0 [AddAll vs] = UOk g.
Hypothesis FE : from_engine D comp g = BOk f.
Notation fg := (foreground g). Notation bg := (background g). Notation ems := (e_ems (g_st g)).

Lemma bg_nonempty : bg <> [].
Proof.
  unfold from_engine in FE. destruct (make_foreground g); [|discriminate]. destruct (g_a g) as [[n a0]|] eqn:GA; [|discriminate].
  destruct (brun_ok D strat ord ORD fuel _ eng0 g (GI_eng0 D strat) R) as [G _]. pose proof (gi_ti _ _ _ G) as I. pose proof (gi_ci _ _ _ G) as C.
  destruct (c_bg (g_cg g)) as [b0|] eqn:CB; [|apply (gi_a _ _ _ G) in CB; congruence].
  destruct (ci_nb _ _ _ _ C b0 CB) as [NB [m [M1 M2]]].
  pose proof (largest_spec (e_sccs (g_st g)) 0 None) as LS. rewrite M2 in LS. destruct LS as [_ [L2 [[_ L3]|[k [t [L3 [L4 [L5 _]]]]]]]]; [discriminate|]. injection L5 as <-.
  assert (TK : dget b0 (e_sccs (g_st g)) = Some t) by (apply In_dget; auto; apply (ti_snd _ _ _ _ I)).
  unfold background, bg_list. rewrite CB. unfold scc at 1. rewrite TK. destruct t; [cbn in L4; lia|discriminate].
Qed.
Record shape : Prop := {
  sh_fg : f_fg f = map (make_ref D g) fg;
  sh_bg : f_bg f = map (make_ref D g) bg;
  sh_ex : f_ex f = map (make_ext comp) ems;
  sh_A : exists A, f_A f = Some A /\ m_rows A = length bg /\ m_cols A = length bg /\ named bg bg (m_ent A) (flat_map (interior_spec D strat) bg);
  sh_B : exists B, f_B f = Some B /\ m_rows B = length ems /\ m_cols B = length bg /\ named ems bg (m_ent B) (flat_map (cutoff_spec D strat) bg);
  sh_f : (fg = [] /\ f_af f = None /\ f_ad f = None /\ f_bf f = None) \/
    exists af ad bf, f_af f = Some af /\ f_ad f = Some ad /\ f_bf f = Some bf
    /\ m_rows af = length fg /\ m_cols af = length fg /\ m_rows ad = length bg /\ m_cols ad = length fg /\ m_rows bf = length ems /\ m_cols bf = length fg
    /\ named fg fg (m_ent af) (af_entries D strat g) /\ named bg fg (m_ent ad) (ad_entries D strat g) /\ named ems fg (m_ent bf) (bf_entries D strat g) }.
Lemma flat_shape : shape.
Proof.
  pose proof bg_nonempty as NE. destruct (C32_matrices D strat ord fuel vs g ORD R NE) as (ra & rb & EA & EB & PA & PB).
  unfold from_engine in FE. destruct (make_foreground g) as [m|] eqn:MF; [|discriminate]. rewrite EA, EB in FE. injection FE as H.
  split; rewrite <- H; try reflexivity.
  - eexists. split; [reflexivity|]. cbn. auto.
  - eexists. split; [reflexivity|]. cbn. auto.
  - destruct (make_foreground_spec D strat ord fuel vs g ORD R m MF) as [[E ->]|(af & ad & bf & -> & _ & K)]; [left; auto|]. right. exists af, ad, bf. cbn. tauto.
Qed.

(** * Cells *)
(** the net output of [u] and the amounts per unit of it *)
Lemma sum_pick {B} (eqe : B -> bool) (es : list (node * B * Qc)) u : Qcsum (map (fun e => if eqe (snd (fst e)) then snd e * (if eqb (fst (fst e)) u then 1 else 0) else 0) es)
  = Qcsum (map (fun e => if eqe (snd (fst e)) then snd e * (if eqb (fst (fst e)) u then 1 else 0) else 0) (filter (fun e => eqb (fst (fst e)) u) es)).
Proof.
  induction es as [|e es IH]; [reflexivity|]. cbn [map filter]. destruct (eqb (fst (fst e)) u) eqn:E.
  - cbn [map]. rewrite !Qcsum_cons, IH, E. reflexivity.
  - rewrite Qcsum_cons, IH. destruct (eqe (snd (fst e))); ring.
Qed.
Lemma flat_one {B} (h : node -> list (node * B * Qc)) (l : list node) u : (forall v e, In e (h v) -> fst (fst e) = v) -> NoDup l -> In u l ->
  filter (fun e => eqb (fst (fst e)) u) (flat_map h l) = h u.
Proof.
  intros P. induction 1 as [|a l N ND IH]; intros J; [destruct J|]. cbn [flat_map]. rewrite filter_app.
  destruct (eqb_spec a u) as [->|NE].
  - rewrite filter_all; [|intros e JE; rewrite (P u e JE); apply eqb_refl]. rewrite filter_false', app_nil_r; [reflexivity|].
    intros e JE. apply in_flat_map in JE as (v & JV & JE). rewrite (P v e JE). destruct (eqb_spec v u); [subst; contradiction|reflexivity].
  - destruct J as [->|J]; [contradiction|]. rewrite filter_false'; [exact (IH J)|]. intros e JE. rewrite (P a e JE). destruct (eqb_spec a u); [contradiction|reflexivity].
Qed.
Definition unit1 (u v : node) : Qc := if eqb v u then 1 else 0.
Lemma sum_interior l u w : NoDup l -> In u l ->
  Qcsum (map (fun e => if eqb (snd (fst e)) w then snd e * (if eqb (fst (fst e)) u then 1 else 0) else 0) (flat_map (interior_spec D strat) l))
  = if eqb u w then 0 else use D strat u w / evq D strat u.
Proof.
  intros ND J. rewrite (sum_pick (fun x => eqb x w)), (flat_one (interior_spec D strat) l u (interior_parent D strat) ND J).
  etransitivity; [exact (interior_row D strat u w (unit1 u))|]. unfold unit1. rewrite eqb_refl. destruct (eqb u w); [reflexivity|]. unfold Qcdiv. ring.
Qed.
Lemma sum_cutoff l u e : NoDup l -> In u l ->
  Qcsum (map (fun c => if eqb (snd (fst c)) e then snd c * (if eqb (fst (fst c)) u then 1 else 0) else 0) (flat_map (cutoff_spec D strat) l))
  = emission_amount D strat u e / evq D strat u.
Proof.
  intros ND J. rewrite (sum_pick (fun x => eqb x e)), (flat_one (cutoff_spec D strat) l u (cutoff_parent D strat) ND J).
  etransitivity; [exact (cutoff_row D strat u e (unit1 u))|]. unfold unit1. rewrite eqb_refl. unfold Qcdiv. ring.
Qed.
Lemma sum_filtered (P : node -> bool) l u w : P w = true ->
  Qcsum (map (fun e : node * node * Qc => if eqb (snd (fst e)) w then snd e * (if eqb (fst (fst e)) u then 1 else 0) else 0) (filter (fun e => P (snd (fst e))) l))
  = Qcsum (map (fun e => if eqb (snd (fst e)) w then snd e * (if eqb (fst (fst e)) u then 1 else 0) else 0) l).
Proof.
  intros PW. induction l as [|e l IH]; [reflexivity|]. cbn [filter map]. rewrite Qcsum_cons. destruct (P (snd (fst e))) eqn:E.
  - cbn [map]. rewrite Qcsum_cons, IH. reflexivity.
  - rewrite IH. destruct (eqb_spec (snd (fst e)) w) as [<-|_]; [congruence|ring].
Qed.
Definition rel (u w : node) : Qc := if eqb u w then 0 else use D strat u w / evq D strat u.
Definition emi (u : node) (e : emis) : Qc := emission_amount D strat u e / evq D strat u.
Lemma nd_fg : NoDup fg. Proof. exact (fg_nd D strat ord fuel vs g ORD R). Qed.
Lemma nd_bg : NoDup bg. Proof. exact (bg_nd D strat ord fuel vs g ORD R). Qed.
Lemma nd_ems : NoDup ems. Proof. exact (ems_nd D strat ord fuel vs g ORD R). Qed.
Lemma fg_not_bg v : In v fg -> ~ In v bg. Proof. intros J. apply (fg_spec D strat ord fuel vs g ORD R) in J. tauto. Qed.

Lemma cell_af af u w : f_af f = Some af -> In u fg -> In w fg -> cell af (pos w fg) (pos u fg) = rel u w.
Proof.
  intros E JU JW. destruct flat_shape as [_ _ _ _ _ [(_ & X & _)|(af' & ad & bf & E1 & _ & _ & _ & _ & _ & _ & _ & _ & N & _ & _)]]; [congruence|]. assert (af' = af) by congruence. subst af'.
  rewrite (named_cell fg fg af _ (pos w fg) (pos u fg) w u nd_fg nd_fg N (nth_pos w fg JW) (nth_pos u fg JU)). unfold af_entries.
  rewrite (sum_filtered (fun w => negb (mem w bg)) (flat_map (interior_spec D strat) fg) u w); [apply sum_interior; [apply nd_fg|exact JU]|].
  destruct (mem w bg) eqn:M; [|reflexivity]. apply mem_In in M. exfalso. exact (fg_not_bg w JW M).
Qed.
Lemma cell_ad ad u w : f_ad f = Some ad -> In u fg -> In w bg -> cell ad (pos w bg) (pos u fg) = rel u w.
Proof.
  intros E JU JW. destruct flat_shape as [_ _ _ _ _ [(_ & _ & X & _)|(af' & ad' & bf & _ & E1 & _ & _ & _ & _ & _ & _ & _ & _ & N & _)]]; [congruence|]. assert (ad' = ad) by congruence. subst ad'.
  rewrite (named_cell bg fg ad _ (pos w bg) (pos u fg) w u nd_bg nd_fg N (nth_pos w bg JW) (nth_pos u fg JU)). unfold ad_entries.
  rewrite (sum_filtered (fun w => mem w bg) (flat_map (interior_spec D strat) fg) u w); [apply sum_interior; [apply nd_fg|exact JU]|]. apply mem_In. exact JW.
Qed.
Lemma cell_bf bf u k e : f_bf f = Some bf -> In u fg -> nth_error ems k = Some e -> cell bf k (pos u fg) = emi u e.
Proof.
  intros E JU JW. destruct flat_shape as [_ _ _ _ _ [(_ & _ & _ & X)|(af' & ad' & bf' & _ & _ & E1 & _ & _ & _ & _ & _ & _ & _ & _ & N)]]; [congruence|]. assert (bf' = bf) by congruence. subst bf'.
  rewrite (named_cell ems fg bf _ k (pos u fg) e u nd_ems nd_fg N JW (nth_pos u fg JU)). apply sum_cutoff; [apply nd_fg|exact JU].
Qed.
Lemma cell_A A u w : f_A f = Some A -> In u bg -> In w bg -> cell A (pos w bg) (pos u bg) = rel u w.
Proof.
  intros E JU JW. destruct (sh_A flat_shape) as (A' & E1 & _ & _ & N). assert (A' = A) by congruence. subst A'.
  rewrite (named_cell bg bg A _ (pos w bg) (pos u bg) w u nd_bg nd_bg N (nth_pos w bg JW) (nth_pos u bg JU)). apply sum_interior; [apply nd_bg|exact JU].
Qed.
Lemma cell_B B u k e : f_B f = Some B -> In u bg -> nth_error ems k = Some e -> cell B k (pos u bg) = emi u e.
Proof.
  intros E JU JW. destruct (sh_B flat_shape) as (B' & E1 & _ & _ & N). assert (B' = B) by congruence. subst B'.
  rewrite (named_cell ems bg B _ k (pos u bg) e u nd_ems nd_bg N JW (nth_pos u bg JU)). apply sum_cutoff; [apply nd_bg|exact JU].
Qed.
End Flat.

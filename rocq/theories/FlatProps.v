(** C80 (dependencies and emissions), C81 (consumers): the flat background of a database (model: FlatModel.v). *)
From Verif Require Import Num Base ProcModel BgModel BgProofs BgProofs2 BgProofs3 BgProofs4 BgProofs5 BgProps BgProps2 BgLciModel BgLciProps BgNetProps FlatModel FlatProofs FlatProofs2.
From Coq Require Import Permutation Lia.
Open Scope Qc_scope.
Open Scope list_scope.
Local Arguments eqb : simpl never.

(** * Specification *)
(** [f] is the flat background of the whole database [D]: [add_all_ref_products] followed by [from_background_engine]. *)
Definition flat_of (D : db) (strat : strategy) (comp : nat -> list nat) (g : eng) (f : flat) : Prop :=
  exists ord fuel vs, (forall l, Permutation (ord l) l) /\ brun D strat fuel ord eng0 [AddAll vs] = UOk g /\ from_engine D comp g = BOk f.
(** An ordinary product: the reference flow is an output, its own use is positive and below its output of 1. *)
Definition ordinary (D : db) (strat : strategy) (u : node) : Prop :=
  db_ref D u = Some Output /\ (forall q, In q (uses D strat u u) -> 0 < q) /\ use D strat u u < 1.
(** What the process of [u] uses of [w] and emits of [e], per unit of net output. *)
Definition per_unit (D : db) (strat : strategy) (u : node) (q : Qc) : Qc := q / (1 - use D strat u u).
(** The amounts of emission [e] among the exchanges of [u]: those without a terminating process. *)
Definition emitted (D : db) (strat : strategy) (u : node) (e : emis) : list Qc :=
  flat_map (fun x => match r_val x with
                     | Some q => if negb (eqb q 0) && negb (r_isref x) && eqb (r_flow x, r_dir x) e
                                 then match starget D strat x with None => [q] | Some _ => [] end else []
                     | None => [] end) (db_inv D u).
(** The amounts of one product (or emission) in the database do not cancel out. *)
Definition no_cancellation (D : db) (strat : strategy) (u : node) : Prop :=
  (forall w, uses D strat u w <> [] -> use D strat u w <> 0) /\ (forall e, emitted D strat u e <> [] -> Qcsum (emitted D strat u e) <> 0).
Lemma emission_emitted D strat u e : emission_amount D strat u e = Qcsum (emitted D strat u e).
Proof. reflexivity. Qed.

Lemma evq_ordinary D strat u : ordinary D strat u -> evq D strat u = 1 - use D strat u u.
Proof.
  intros (DR & P & LT). unfold evq, Evs, evs. rewrite DR, selfs_uses. apply adjust_fold; [exact P|]. unfold use in LT. exact LT.
Qed.
Lemma ordinary_pos D strat u : ordinary D strat u -> 0 < 1 - use D strat u u.
Proof. intros (_ & _ & LT). apply Qclt_minus_iff in LT. exact LT. Qed.

Lemma Qc_inv_pos (x : Qc) : 0 < x -> 0 < / x.
Proof.
  intros P. destruct (Qclt_le_dec 0 (/ x)) as [L|L]; [exact L|]. exfalso.
  assert (X : x * / x = 1) by (apply Qcmult_inv_r; intros Z; rewrite Z in P; apply (Qclt_not_eq _ _ P); reflexivity).
  assert (Y : / x * x <= 0 * x) by (apply Qcmult_le_compat_r; [exact L|apply Qclt_le_weak, P]).
  rewrite Qcmult_comm, X, Qcmult_0_l in Y. apply (Qcle_not_lt _ _ Y). reflexivity.
Qed.

Lemma exch_defs_spec p v enum : (forall e, In e v -> snd e <> 0 /\ (fst e < length enum)%nat) ->
  exists xs, exch_defs p v enum = BOk xs /\ forall x, In x xs <-> exists i q t, In (i, q) v /\ nth_error enum i = Some t /\
    x = (if Qclt_le_dec q 0 then XD p (t_flow t) (t_dir t) (t_term t) (- q) else XD p (t_flow t) (opp (t_dir t)) (t_term t) q).
Proof.
  intros N. unfold exch_defs. rewrite (scan_nz v) by (intros e J; apply (N e J)).
  destruct (bmap_ok (exch_def p enum) v) as (xs & E & S).
  { intros e J. unfold exch_def. destruct (N e J) as [_ L]. apply nth_error_Some in L. destruct (nth_error enum (fst e)); [eauto|congruence]. }
  exists xs. split; [exact E|]. intros x. rewrite S. split.
  - intros ([i q] & J & X). unfold exch_def in X. cbn in X. destruct (nth_error enum i) as [t|] eqn:T; [|discriminate]. injection X as <-. exists i, q, t. auto.
  - intros (i & q & t & J & T & ->). exists (i, q). split; [exact J|]. unfold exch_def. cbn. rewrite T. reflexivity.
Qed.
Lemma em_defs_spec p v enum : (forall e, In e v -> snd e <> 0 /\ (fst e < length enum)%nat) ->
  exists xs, em_defs p v enum = BOk xs /\ forall x, In x xs <-> exists i q t, In (i, q) v /\ nth_error enum i = Some t /\ x = XD p (t_flow t) (opp (t_dir t)) None q.
Proof.
  intros N. unfold em_defs. rewrite (scan_nz v) by (intros e J; apply (N e J)).
  destruct (bmap_ok (em_def p enum) v) as (xs & E & S).
  { intros e J. unfold em_def. destruct (N e J) as [_ L]. apply nth_error_Some in L. destruct (nth_error enum (fst e)); [eauto|congruence]. }
  exists xs. split; [exact E|]. intros x. rewrite S. split.
  - intros ([i q] & J & X). unfold em_def in X. cbn in X. destruct (nth_error enum i) as [t|] eqn:T; [|discriminate]. injection X as <-. exists i, q, t. auto.
  - intros (i & q & t & J & T & ->). exists (i, q). split; [exact J|]. unfold em_def. cbn. rewrite T. reflexivity.
Qed.

Lemma exch_defs_nd p v enum xs : NoDup (map fst v) -> (forall e, In e v -> snd e <> 0) -> (forall i j s t, nth_error enum i = Some s -> nth_error enum j = Some t -> t_flow s = t_flow t -> t_term s = t_term t -> i = j) ->
  exch_defs p v enum = BOk xs -> NoDup xs.
Proof.
  intros ND NZ INJ E. unfold exch_defs in E. rewrite (scan_nz v NZ) in E. eapply (bmap_nd _ fst v xs); [|exact ND|exact E].
  intros a a' b _ _ X X'. unfold exch_def in X, X'. destruct (nth_error enum (fst a)) as [s|] eqn:S; [|discriminate]. destruct (nth_error enum (fst a')) as [t|] eqn:T; [|discriminate].
  apply (INJ _ _ s t S T); destruct (Qclt_le_dec (snd a) 0); destruct (Qclt_le_dec (snd a') 0); congruence.
Qed.
Lemma em_defs_nd p v enum xs : NoDup (map fst v) -> (forall e, In e v -> snd e <> 0) -> (forall i j s t, nth_error enum i = Some s -> nth_error enum j = Some t -> t_flow s = t_flow t -> opp (t_dir s) = opp (t_dir t) -> i = j) ->
  em_defs p v enum = BOk xs -> NoDup xs.
Proof.
  intros ND NZ INJ E. unfold em_defs in E. rewrite (scan_nz v NZ) in E. eapply (bmap_nd _ fst v xs); [|exact ND|exact E].
  intros a a' b _ _ X X'. unfold em_def in X, X'. destruct (nth_error enum (fst a)) as [s|] eqn:S; [|discriminate]. destruct (nth_error enum (fst a')) as [t|] eqn:T; [|discriminate].
  apply (INJ _ _ s t S T); congruence.
Qed.

Section Flat.
Context (D : db) (strat : strategy) (ord : list nat -> list nat) (fuel : nat) (vs : list node) (g : eng) (comp : nat -> list nat) (f : flat).
Hypothesis ORD : forall l, Permutation (ord l) l.
Hypothesis R : brun D strat fuel ord eng0 [AddAll vs] = UOk g.
Hypothesis FE : from_engine D comp g = BOk f.
Notation fg := (foreground g). Notation bg := (background g). Notation ems := (e_ems (g_st g)).
Let SH := flat_shape D strat ord fuel vs g comp f ORD R FE.
Let NF := nd_fg D strat ord fuel vs g ORD R.
Let NB := nd_bg D strat ord fuel vs g ORD R.
Let NEM := nd_ems D strat ord fuel vs g ORD R.

Lemma bg_yes u : In u bg -> last_pos (Some (snd u)) (fst u) (f_bg f) = Some (pos u bg).
Proof. intros J. rewrite (sh_bg _ _ _ _ _ SH). apply last_pos_in; assumption. Qed.
Lemma bg_no u : ~ In u bg -> last_pos (Some (snd u)) (fst u) (f_bg f) = None.
Proof. intros J. rewrite (sh_bg _ _ _ _ _ SH). apply last_pos_out; assumption. Qed.
Lemma fg_yes u : In u fg -> last_pos (Some (snd u)) (fst u) (f_fg f) = Some (pos u fg).
Proof. intros J. rewrite (sh_fg _ _ _ _ _ SH). apply last_pos_in; assumption. Qed.
Lemma fg_no u : ~ In u fg -> last_pos (Some (snd u)) (fst u) (f_fg f) = None.
Proof. intros J. rewrite (sh_fg _ _ _ _ _ SH). apply last_pos_out; assumption. Qed.
Lemma nth_fg i : nth_error (f_fg f) i = option_map (make_ref D g) (nth_error fg i).
Proof. rewrite (sh_fg _ _ _ _ _ SH). apply nth_error_map. Qed.
Lemma nth_bg i : nth_error (f_bg f) i = option_map (make_ref D g) (nth_error bg i).
Proof. rewrite (sh_bg _ _ _ _ _ SH). apply nth_error_map. Qed.
Lemma nth_ex i : nth_error (f_ex f) i = option_map (make_ext comp) (nth_error ems i).
Proof. rewrite (sh_ex _ _ _ _ _ SH). apply nth_error_map. Qed.

(** stored cells *)
Lemma interior_has u w q : In (u, w, q) (interior_spec D strat u) -> uses D strat u w <> [] /\ u <> w.
Proof.
  unfold interior_spec, uses. intros J. apply in_flat_map in J as (x & JX & J). destruct (target D strat x) as [v|] eqn:T; [|destruct J]. destruct (r_val x) as [r|] eqn:RV; [|destruct J].
  destruct (eqb_spec u v) as [|NE]; [destruct J|]. destruct J as [J|[]]. injection J as -> _. split; [|exact NE].
  intros Z. assert (X : In (match r_dir x with Output => - r | Input => r end) []); [|destruct X]. rewrite <- Z. apply in_flat_map. exists x. split; [exact JX|]. rewrite T, RV, eqb_refl. left; reflexivity.
Qed.
Lemma interior_in u w : uses D strat u w <> [] -> u <> w -> exists q, In (u, w, q) (interior_spec D strat u).
Proof.
  unfold interior_spec, uses. intros N NE. induction (db_inv D u) as [|x l IH]; cbn in N |- *; [contradiction|].
  destruct (target D strat x) as [v|] eqn:T; [|destruct (IH N) as [q J]; exists q; exact J].
  destruct (r_val x) as [r|] eqn:RV; [|destruct (IH N) as [q J]; exists q; exact J].
  destruct (eqb_spec v w) as [->|NV].
  - destruct (eqb_spec u w); [contradiction|]. eexists. left; reflexivity.
  - destruct (IH N) as [q J]. exists q. apply in_app_iff. right; exact J.
Qed.
Lemma entry_interior l u w q : NoDup l -> In u l -> In (u, w, q) (flat_map (interior_spec D strat) l) -> In (u, w, q) (interior_spec D strat u).
Proof. intros _ _ J. apply in_flat_map in J as (v & _ & J). pose proof (interior_parent D strat v _ J) as E. cbn in E. subst v. exact J. Qed.
Lemma cutoff_has u e q : In (u, e, q) (cutoff_spec D strat u) -> emitted D strat u e <> [].
Proof.
  intros J Z. unfold cutoff_spec in J. apply in_flat_map in J as (x & JX & J).
  assert (X : exists r, In r (emitted D strat u e)); [|destruct X as [r X]; rewrite Z in X; destruct X].
  unfold emitted. destruct (r_val x) as [r|] eqn:RV; [|destruct J]. exists r. apply in_flat_map. exists x. split; [exact JX|]. rewrite RV.
  change (0 : Qc) with (Q2Qc 0). destruct (negb (eqb r (Q2Qc 0)) && negb (r_isref x)); [|destruct J]. destruct (starget D strat x) as [|]; [destruct J|]. destruct J as [J|[]]. injection J as <- _. rewrite eqb_refl. left; reflexivity.
Qed.
Lemma cutoff_in u e : emitted D strat u e <> [] -> exists q, In (u, e, q) (cutoff_spec D strat u).
Proof.
  unfold emitted. intros N. assert (X : exists r, In r (emitted D strat u e)) by (unfold emitted; destruct (flat_map _ _) as [|r l]; [contradiction|exists r; left; reflexivity]).
  destruct X as [r X]. unfold emitted in X. apply in_flat_map in X as (x & JX & X). unfold cutoff_spec. destruct (r_val x) as [q|] eqn:RV; [|destruct X].
  destruct (negb (eqb q 0) && negb (r_isref x)) eqn:C; [|destruct X]. cbn [andb] in X. destruct (eqb_spec (r_flow x, r_dir x) e) as [EE|]; [|destruct X].
  destruct (starget D strat x) eqn:ST; [destruct X|]. eexists. apply in_flat_map. exists x. split; [exact JX|]. rewrite RV. change (Q2Qc 0) with (0 : Qc). rewrite C, ST, EE. left; reflexivity.
Qed.
Lemma entry_cutoff l u e q : In (u, e, q) (flat_map (cutoff_spec D strat) l) -> In (u, e, q) (cutoff_spec D strat u).
Proof. intros J. apply in_flat_map in J as (v & _ & J). pose proof (cutoff_parent D strat v _ J) as E. cbn in E. subst v. exact J. Qed.
Lemma pos_eq {A} `{EqB A} (l : list A) i x : NoDup l -> nth_error l i = Some x -> i = pos x l.
Proof. intros ND E. symmetry. apply pos_nth_error; assumption. Qed.

(** what the columns hold *)
Lemma rel_ordinary u w : ordinary D strat u -> u <> w -> rel D strat u w = per_unit D strat u (use D strat u w).
Proof. intros O NE. unfold rel, per_unit. destruct (eqb_spec u w); [contradiction|]. rewrite (evq_ordinary D strat u O). reflexivity. Qed.
Lemma emi_ordinary u e : ordinary D strat u -> emi D strat u e = per_unit D strat u (emission_amount D strat u e).
Proof. intros O. unfold emi, per_unit. rewrite (evq_ordinary D strat u O). reflexivity. Qed.
Lemma per_unit_nz u q : ordinary D strat u -> q <> 0 -> per_unit D strat u q <> 0.
Proof.
  intros O N E. apply N. unfold per_unit, Qcdiv in E. apply Qcmult_integral in E as [E|E]; [exact E|]. exfalso. pose proof (ordinary_pos D strat u O) as P.
  assert (X : (1 - use D strat u u) * / (1 - use D strat u u) = 1) by (apply Qcmult_inv_r; intros Z; rewrite Z in P; apply (Qclt_not_eq _ _ P); reflexivity).
  rewrite E in X. ring_simplify in X. discriminate X.
Qed.

Lemma column_rows {Rw} `{EqB Rw} (rows : list Rw) cols m es j u i q : NoDup rows -> NoDup cols -> named rows cols (m_ent m) es -> m_rows m = length rows -> nth_error cols j = Some u ->
  (In (i, q) (column m j) <-> exists w, nth_error rows i = Some w /\ q = cell m i j /\ exists r, In (u, w, r) es).
Proof.
  intros NR NC NM MR EJ. rewrite In_column, MR. split.
  - intros (L & S & ->). apply nth_error_Some in L. destruct (nth_error rows i) as [w|] eqn:EI; [|contradiction]. exists w. split; [reflexivity|]. split; [reflexivity|].
    apply (named_stored rows cols m es i j w u NR NC NM EI EJ). exact S.
  - intros (w & EI & -> & X). split; [apply nth_error_Some; congruence|]. split; [|reflexivity]. apply (named_stored rows cols m es i j w u NR NC NM EI EJ). exact X.
Qed.

(** one column of Af, Ad or A *)
Lemma product_column (rows : list node) cols m es u (P : node -> bool) (enum : list tref) :
  NoDup rows -> NoDup cols -> named rows cols (m_ent m) es -> m_rows m = length rows -> In u cols ->
  (forall w q, In (u, w, q) es <-> P w = true /\ In (u, w, q) (interior_spec D strat u)) ->
  (forall w, In w rows -> cell m (pos w rows) (pos u cols) = rel D strat u w) ->
  (forall w, uses D strat u w <> [] -> P w = true -> In w rows) ->
  (forall i, nth_error enum i = option_map (make_ref D g) (nth_error rows i)) ->
  ordinary D strat u -> (forall w, In w rows -> db_ref D w = Some Output) -> no_cancellation D strat u ->
  exists xs, exch_defs (snd u) (column m (pos u cols)) enum = BOk xs /\ NoDup xs /\
    forall x, In x xs <-> exists w, P w = true /\ w <> u /\ use D strat u w <> 0 /\
      x = XD (snd u) (fst w) (if Qclt_le_dec (use D strat u w) 0 then Output else Input) (Some (snd w)) (Qcabs (per_unit D strat u (use D strat u w))).
Proof.
  intros NR NC NM MR JU ES CELL COV EN O OUT [NCU _].
  assert (EJ : nth_error cols (pos u cols) = Some u) by (apply nth_pos; exact JU).
  assert (COL : forall i q, In (i, q) (column m (pos u cols)) -> exists w, nth_error rows i = Some w /\ In w rows /\ P w = true /\ u <> w /\ use D strat u w <> 0 /\ q = per_unit D strat u (use D strat u w)).
  { intros i q J. apply (column_rows rows cols m es (pos u cols) u i q NR NC NM MR EJ) in J as (w & EI & -> & r & J). apply ES in J as [PW J]. apply interior_has in J as [U NE].
    assert (JW : In w rows) by (eapply nth_error_In; exact EI). exists w. repeat split; auto.
    rewrite (pos_eq rows i w NR EI), CELL by exact JW. apply rel_ordinary; assumption. }
  destruct (exch_defs_spec (snd u) (column m (pos u cols)) enum) as (xs & E & S).
  { intros [i q] J. destruct (COL i q J) as (w & EI & _ & _ & _ & U & ->). cbn. split; [apply per_unit_nz; assumption|]. apply nth_error_Some. rewrite EN, EI. discriminate. }
  exists xs. split; [exact E|]. split.
  { eapply exch_defs_nd; [apply column_nd| | |exact E].
    - intros [i q] J. destruct (COL i q J) as (w & _ & _ & _ & _ & U & ->). apply per_unit_nz; assumption.
    - intros i j s t Si Tj F T. rewrite EN in Si, Tj. destruct (nth_error rows i) as [[a b]|] eqn:EI; [|discriminate]. destruct (nth_error rows j) as [[a' b']|] eqn:EK; [|discriminate].
      injection Si as <-. injection Tj as <-. cbn in F, T. injection T as <-. subst a'. rewrite (pos_eq rows i _ NR EI), (pos_eq rows j _ NR EK). reflexivity. }
  intros x. rewrite S.
  assert (SIGN : forall w, (if Qclt_le_dec (per_unit D strat u (use D strat u w)) 0 then Output else Input) = (if Qclt_le_dec (use D strat u w) 0 then Output else Input)).
  { intros w. pose proof (ordinary_pos D strat u O) as POS. unfold per_unit. destruct (Qclt_le_dec (use D strat u w / (1 - use D strat u u)) 0) as [L|L]; destruct (Qclt_le_dec (use D strat u w) 0) as [L'|L']; try reflexivity; exfalso.
    - apply (Qclt_not_le _ _ L). unfold Qcdiv. rewrite <- (Qcmult_0_l (/ (1 - use D strat u u))). apply Qcmult_le_compat_r; [exact L'|]. apply Qclt_le_weak, Qc_inv_pos, POS.
    - apply (Qclt_not_le _ _ L'). assert (X : use D strat u w = use D strat u w / (1 - use D strat u u) * (1 - use D strat u u)).
      { unfold Qcdiv. rewrite <- Qcmult_assoc, (Qcmult_comm (/ _)), Qcmult_inv_r; [ring|]. intros Z. rewrite Z in POS. apply (Qclt_not_eq _ _ POS). reflexivity. }
      rewrite X, <- (Qcmult_0_l (1 - use D strat u u)). apply Qcmult_le_compat_r; [exact L|]. apply Qclt_le_weak, POS. }
  split.
  - intros (i & q & t & J & T & ->). destruct (COL i q J) as (w & EI & JW & PW & NE & U & ->). rewrite EN, EI in T. injection T as <-. exists w. repeat split; auto.
    rewrite <- SIGN. unfold make_ref. cbn [t_flow t_dir t_term]. rewrite (OUT w JW). destruct (Qclt_le_dec (per_unit D strat u (use D strat u w)) 0) as [L|L]; [rewrite Qcabs_neg by (apply Qclt_le_weak, L)|rewrite Qcabs_pos by exact L]; reflexivity.
  - intros (w & PW & NE & U & ->). assert (UN : uses D strat u w <> []) by (intros Z; apply U; unfold use; rewrite Z; reflexivity).
    assert (JW : In w rows) by (apply COV; assumption). destruct (interior_in u w UN) as [r J]; [congruence|].
    exists (pos w rows), (per_unit D strat u (use D strat u w)), (make_ref D g w). split; [|split].
    + apply (column_rows rows cols m es (pos u cols) u _ _ NR NC NM MR EJ). exists w. split; [apply nth_pos; exact JW|]. split; [rewrite CELL by exact JW; symmetry; apply rel_ordinary; [exact O|congruence]|].
      exists r. apply ES. auto.
    + rewrite EN, (nth_pos w rows JW). reflexivity.
    + rewrite <- SIGN. unfold make_ref. cbn [t_flow t_dir t_term]. rewrite (OUT w JW). destruct (Qclt_le_dec (per_unit D strat u (use D strat u w)) 0) as [L|L]; [rewrite Qcabs_neg by (apply Qclt_le_weak, L)|rewrite Qcabs_pos by exact L]; reflexivity.
Qed.
(** one column of Bf or B *)
Lemma emission_column cols m u : NoDup cols -> named ems cols (m_ent m) (flat_map (cutoff_spec D strat) cols) -> m_rows m = length ems -> In u cols ->
  (forall k e, nth_error ems k = Some e -> cell m k (pos u cols) = emi D strat u e) -> (forall e, emitted D strat u e <> [] -> In e ems) ->
  ordinary D strat u -> no_cancellation D strat u ->
  exists xs, em_defs (snd u) (column m (pos u cols)) (f_ex f) = BOk xs /\ NoDup xs /\
    forall x, In x xs <-> exists e, emission_amount D strat u e <> 0 /\ x = XD (snd u) (fst e) (snd e) None (per_unit D strat u (emission_amount D strat u e)).
Proof.
  intros NC NM MR JU CELL COV O [_ NCE]. assert (EJ : nth_error cols (pos u cols) = Some u) by (apply nth_pos; exact JU).
  assert (COL : forall i q, In (i, q) (column m (pos u cols)) -> exists e, nth_error ems i = Some e /\ emission_amount D strat u e <> 0 /\ q = per_unit D strat u (emission_amount D strat u e)).
  { intros i q J. apply (column_rows ems cols m _ (pos u cols) u i q NEM NC NM MR EJ) in J as (e & EI & -> & r & J). apply entry_cutoff, cutoff_has in J. exists e. split; [exact EI|]. split; [apply NCE, J|].
    rewrite (CELL i e EI). apply emi_ordinary, O. }
  destruct (em_defs_spec (snd u) (column m (pos u cols)) (f_ex f)) as (xs & E & S).
  { intros [i q] J. destruct (COL i q J) as (e & EI & U & ->). cbn. split; [apply per_unit_nz; assumption|]. apply nth_error_Some. rewrite nth_ex, EI. discriminate. }
  exists xs. split; [exact E|]. split.
  { eapply em_defs_nd; [apply column_nd| | |exact E].
    - intros [i q] J. destruct (COL i q J) as (e & _ & U & ->). apply per_unit_nz; assumption.
    - intros i j s t Si Tj F T. rewrite nth_ex in Si, Tj. destruct (nth_error ems i) as [[a b]|] eqn:EI; [|discriminate]. destruct (nth_error ems j) as [[a' b']|] eqn:EK; [|discriminate].
      injection Si as <-. injection Tj as <-. cbn in F, T. assert (b = b') by (destruct b, b'; cbn in T; congruence). subst a' b'. rewrite (pos_eq ems i _ NEM EI), (pos_eq ems j _ NEM EK). reflexivity. }
  intros x. rewrite S. split.
  - intros (i & q & t & J & T & ->). destruct (COL i q J) as (e & EI & U & ->). rewrite nth_ex, EI in T. injection T as <-. exists e. split; [exact U|]. cbn. destruct (snd e); reflexivity.
  - intros (e & U & ->). assert (UN : emitted D strat u e <> []) by (intros Z; apply U; rewrite emission_emitted, Z; reflexivity).
    pose proof (COV e UN) as JE. destruct (cutoff_in u e UN) as [r J].
    exists (pos e ems), (per_unit D strat u (emission_amount D strat u e)), (make_ext comp e). split; [|split].
    + apply (column_rows ems cols m _ (pos u cols) u _ _ NEM NC NM MR EJ). exists e. split; [apply nth_pos; exact JE|]. split; [rewrite (CELL _ e (nth_pos e ems JE)); symmetry; apply emi_ordinary, O|].
      exists r. apply in_flat_map. exists u. auto.
    + rewrite nth_ex, (nth_pos e ems JE). reflexivity.
    + cbn. destruct (snd e); reflexivity.
Qed.
Lemma uses_indexed u w : indexed g u -> uses D strat u w <> [] -> indexed g w.
Proof.
  intros J U. apply uses_depends in U. destruct (C31_coverage D strat ord fuel [AddAll vs] g ORD) as (X & _ & _).
  - intros a b [A|[]] [B|[]]. congruence.
  - exact R.
  - apply X in J as (r & JR & N). apply X. exists r. split; [exact JR|]. eapply Relation_Operators.rt_trans; [exact N|]. apply Relation_Operators.rt_step. exact U.
Qed.
Lemma emitted_indexed u e : indexed g u -> emitted D strat u e <> [] -> In e ems.
Proof.
  intros J N. destruct (cutoff_in u e N) as [q Q]. destruct (C31_entries D strat ord fuel _ g ORD R) as (_ & PC & _ & X). apply X. exists (u, e, q). split; [|reflexivity].
  eapply Permutation_in; [symmetry; exact PC|]. apply in_flat_map. exists u. split; [exact J|exact Q].
Qed.
Lemma deps_fg u : In u fg -> ordinary D strat u -> (forall w, indexed g w -> db_ref D w = Some Output) -> no_cancellation D strat u ->
  exists xs, dependencies f (snd u) (fst u) = BOk xs /\ NoDup xs /\
    forall x, In x xs <-> exists w, w <> u /\ use D strat u w <> 0 /\
      x = XD (snd u) (fst w) (if Qclt_le_dec (use D strat u w) 0 then Output else Input) (Some (snd w)) (Qcabs (per_unit D strat u (use D strat u w))).
Proof.
  intros JU O OUT NC. pose proof (fg_not_bg D strat ord fuel vs g ORD R u JU) as NBU.
  assert (IX : forall v, In v fg \/ In v bg -> indexed g v) by (intros v X; apply (indexed_split D strat ord fuel vs g ORD R); exact X).
  unfold dependencies, is_in_background. rewrite (bg_no u NBU), (fg_yes u JU).
  destruct (sh_f _ _ _ _ _ SH) as [(Z & _)|(af & ad & bf & E1 & E2 & E3 & R1 & C1 & R2 & C2 & R3 & C3 & N1 & N2 & N3)]; [exfalso; rewrite Z in JU; destruct JU|].
  rewrite E1, E2. cbn [mcol].
  destruct (product_column fg fg af (af_entries D strat g) u (fun w => negb (mem w bg)) (f_fg f)) as (xs & X1 & XN & X2); auto.
  { intros w q. unfold af_entries. rewrite filter_In. cbn. rewrite and_comm. split; intros [A B]; split; auto; [eapply (entry_interior fg); eauto|apply in_flat_map; exists u; auto]. }
  { intros w JW. apply (cell_af D strat ord fuel vs g comp f ORD R FE af u w E1 JU JW). }
  { intros w U PW. apply (fg_spec D strat ord fuel vs g ORD R). split; [apply (uses_indexed u w); auto|]. intros B. apply mem_In in B. rewrite B in PW. discriminate. }
  { intros i. apply nth_fg. }
  destruct (product_column bg fg ad (ad_entries D strat g) u (fun w => mem w bg) (f_bg f)) as (ys & Y1 & YN & Y2); auto.
  { intros w q. unfold ad_entries. rewrite filter_In. cbn. rewrite and_comm. split; intros [A B]; split; auto; [eapply (entry_interior fg); eauto|apply in_flat_map; exists u; auto]. }
  { intros w JW. apply (cell_ad D strat ord fuel vs g comp f ORD R FE ad u w E2 JU JW). }
  { intros w U PW. apply mem_In. exact PW. }
  { intros i. apply nth_bg. }
  rewrite X1, Y1. cbn [bapp]. exists (xs ++ ys). split; [reflexivity|]. split.
  { apply nodup_app; auto. intros x JX JY. apply X2 in JX as ([a b] & P1 & _ & _ & ->). apply Y2 in JY as ([a' b'] & P2 & _ & _ & EQ). injection EQ as <- _ <- _. rewrite P2 in P1. discriminate. }
  intros x. rewrite in_app_iff, X2, Y2. split.
  - intros [(w & _ & H)|(w & _ & H)]; exists w; exact H.
  - intros (w & H). destruct (mem w bg) eqn:M; [right|left]; exists w; rewrite M; auto.
Qed.
Lemma ems_any u : indexed g u -> ordinary D strat u -> no_cancellation D strat u ->
  exists xs, emissions f (snd u) (fst u) = BOk xs /\ NoDup xs /\
    forall x, In x xs <-> exists e, emission_amount D strat u e <> 0 /\ x = XD (snd u) (fst e) (snd e) None (per_unit D strat u (emission_amount D strat u e)).
Proof.
  intros JU O NC. assert (COV : forall e, emitted D strat u e <> [] -> In e ems) by (intros e N; eapply emitted_indexed; eauto).
  unfold emissions. apply (indexed_split D strat ord fuel vs g ORD R) in JU as [JU|JU].
  - pose proof (fg_not_bg D strat ord fuel vs g ORD R u JU) as NBU. rewrite (bg_no u NBU), (fg_yes u JU).
    destruct (sh_f _ _ _ _ _ SH) as [(Z & _)|(af & ad & bf & E1 & E2 & E3 & R1 & C1 & R2 & C2 & R3 & C3 & N1 & N2 & N3)]; [exfalso; rewrite Z in JU; destruct JU|].
    rewrite E3. cbn [mcol]. apply emission_column; auto. intros k e K. apply (cell_bf D strat ord fuel vs g comp f ORD R FE bf u k e E3 JU K).
  - rewrite (bg_yes u JU). destruct (sh_B _ _ _ _ _ SH) as (B & E & R1 & C1 & N). rewrite E. cbn [mcol]. apply emission_column; auto.
    intros k e K. apply (cell_B D strat ord fuel vs g comp f ORD R FE B u k e E JU K).
Qed.

(** rows *)
Lemma make_ref_inj v w : make_ref D g v = make_ref D g w -> v = w.
Proof. destruct v, w. unfold make_ref. cbn. intros E. injection E as -> _ -> _. reflexivity. Qed.
Lemma filter_keys_nd {A B} (P : A * B -> bool) l : NoDup (map fst l) -> NoDup (map fst (filter P l)).
Proof.
  induction l as [|[a b] l IH]; cbn; intros N; [constructor|]. inversion N as [|? ? NA NL]; subst. destruct (P (a, b)); [|auto]. cbn. constructor; [|auto].
  intros J. apply NA. apply in_map_iff in J as (x & <- & J). apply filter_In in J as [J _]. apply in_map. exact J.
Qed.
Lemma row_refs (rows cols : list node) m es v (enum : list tref) : NoDup rows -> NoDup cols -> named rows cols (m_ent m) es -> m_rows m = length rows -> m_cols m = length cols -> In v rows ->
  (forall w, In w cols -> cell m (pos v rows) (pos w cols) = rel D strat w v) -> (forall i, nth_error enum i = option_map (make_ref D g) (nth_error cols i)) ->
  exists ts, mrow_refs (Some m) (pos v rows) enum = BOk ts /\ NoDup ts /\ forall t, In t ts <-> exists w, In w cols /\ rel D strat w v <> 0 /\ t = make_ref D g w.
Proof.
  intros NR NC NM MR MC JV CELL EN. unfold mrow_refs. assert (L : (pos v rows < m_rows m)%nat) by (rewrite MR; apply pos_lt; exact JV). destruct (Nat.leb_spec (m_rows m) (pos v rows)); [lia|].
  assert (NZ : forall j, In j (nonzero (mrow m (pos v rows))) <-> exists w, nth_error cols j = Some w /\ rel D strat w v <> 0).
  { intros j. rewrite In_nonzero. split.
    - intros (q & J & N). apply In_mrow in J as (LJ & _ & ->). rewrite MC in LJ. apply nth_error_Some in LJ. destruct (nth_error cols j) as [w|] eqn:EJ; [|contradiction]. exists w. split; [reflexivity|].
      assert (JW : In w cols) by (eapply nth_error_In; exact EJ). rewrite (pos_eq cols j w NC EJ), CELL in N by exact JW. exact N.
    - intros (w & EJ & N). assert (JW : In w cols) by (eapply nth_error_In; exact EJ).
      assert (CJ : cell m (pos v rows) j = rel D strat w v) by (rewrite (pos_eq cols j w NC EJ); apply CELL; exact JW).
      exists (cell m (pos v rows) j). split; [|rewrite CJ; exact N]. apply In_mrow.
      split; [rewrite MC; apply nth_error_Some; congruence|]. split; [|reflexivity]. destruct (is_stored m (pos v rows) j) eqn:S; [reflexivity|]. exfalso. apply N. rewrite <- CJ.
      unfold cell. apply Qcsum_zero. intros e JE. unfold is_stored in S. destruct (Nat.eqb (fst (fst e)) (pos v rows) && Nat.eqb (snd (fst e)) j) eqn:B; [|reflexivity]. exfalso.
      assert (X : existsb (fun e => Nat.eqb (fst (fst e)) (pos v rows) && Nat.eqb (snd (fst e)) j) (m_ent m) = true) by (apply existsb_exists; eauto). congruence. }
  destruct (bmap_ok (fun j => match nth_error enum j with Some t => BOk t | None => BErr BIndexError end) (nonzero (mrow m (pos v rows)))) as (ts & E & S).
  { intros j J. apply NZ in J as (w & EJ & _). rewrite EN, EJ. eexists. reflexivity. }
  exists ts. split; [exact E|]. split.
  { eapply (bmap_nd _ (fun j => j)); [| |exact E].
    - intros i j b _ _ X X'. cbv beta in X, X'. rewrite EN in X, X'. destruct (nth_error cols i) as [[a1 b1]|] eqn:EI; [|discriminate]. destruct (nth_error cols j) as [[a' b']|] eqn:EK; [|discriminate].
      cbn in X, X'. injection X as <-. injection X' as <- _ <- _. rewrite (pos_eq cols i _ NC EI), (pos_eq cols j _ NC EK). reflexivity.
    - rewrite map_id. unfold nonzero. apply filter_keys_nd. unfold mrow. rewrite map_map. cbn. rewrite map_id. apply NoDup_filter, seq_NoDup. }
  intros t. rewrite S. split.
  - intros (j & J & T). apply NZ in J as (w & EJ & N). rewrite EN, EJ in T. injection T as <-. exists w. split; [eapply nth_error_In; exact EJ|auto].
  - intros (w & JW & N & ->). exists (pos w cols). split; [apply NZ; exists w; split; [apply nth_pos; exact JW|exact N]|]. rewrite EN, (nth_pos w cols JW). reflexivity.
Qed.
Lemma consumers_any v : indexed g v -> fg <> [] -> exists ts, consumers f (snd v) (fst v) = BOk ts /\ NoDup ts /\ forall t, In t ts <-> exists w, indexed g w /\ rel D strat w v <> 0 /\ t = make_ref D g w.
Proof.
  intros JV NE. destruct (sh_f _ _ _ _ _ SH) as [(Z & _)|(af & ad & bf & E1 & E2 & E3 & R1 & C1 & R2 & C2 & R3 & C3 & N1 & N2 & N3)]; [contradiction|].
  destruct (sh_A _ _ _ _ _ SH) as (A & EA & RA & CA & NA).
  unfold consumers, index_of, is_in_background. destruct (mem v bg) eqn:M.
  - apply mem_In in M. assert (NFV : ~ In v fg) by (intros X; apply (fg_not_bg D strat ord fuel vs g ORD R v X M)). rewrite (fg_no v NFV), (bg_yes v M), E2, EA.
    destruct (row_refs bg fg ad _ v (f_fg f) NB NF N2 R2 C2 M) as (xs & X1 & XN & X2); [intros w JW; apply (cell_ad D strat ord fuel vs g comp f ORD R FE ad w v E2 JW M)|intros i; apply nth_fg|].
    destruct (row_refs bg bg A _ v (f_bg f) NB NB NA RA CA M) as (ys & Y1 & YN & Y2); [intros w JW; apply (cell_A D strat ord fuel vs g comp f ORD R FE A w v EA JW M)|intros i; apply nth_bg|].
    rewrite X1, Y1. cbn [bapp]. exists (xs ++ ys). split; [reflexivity|]. split.
    { apply nodup_app; auto. intros t JX JY. apply X2 in JX as (w & JW & _ & ->). apply Y2 in JY as (w' & JW' & _ & EQ). apply make_ref_inj in EQ. subst w'. apply (fg_not_bg D strat ord fuel vs g ORD R w JW JW'). }
    intros t. rewrite in_app_iff, X2, Y2. split.
    + intros [(w & JW & H)|(w & JW & H)]; exists w; (split; [apply (indexed_split D strat ord fuel vs g ORD R); auto|exact H]).
    + intros (w & JW & H). apply (indexed_split D strat ord fuel vs g ORD R) in JW as [JW|JW]; [left|right]; exists w; auto.
  - assert (NBV : ~ In v bg) by (intros X; apply mem_In in X; congruence). assert (JF : In v fg) by (apply (fg_spec D strat ord fuel vs g ORD R); auto).
    rewrite (fg_yes v JF), (bg_no v NBV), E1.
    destruct (row_refs fg fg af _ v (f_fg f) NF NF N1 R1 C1 JF) as (xs & X1 & XN & X2); [intros w JW; apply (cell_af D strat ord fuel vs g comp f ORD R FE af w v E1 JW JF)|intros i; apply nth_fg|].
    exists xs. split; [exact X1|]. split; [exact XN|]. intros t. rewrite X2. split.
    + intros (w & JW & H). exists w. split; [apply (indexed_split D strat ord fuel vs g ORD R); auto|exact H].
    + intros (w & JW & N & T). exists w. split; [|auto]. apply (indexed_split D strat ord fuel vs g ORD R) in JW as [JW|JW]; [exact JW|]. exfalso. apply NBV.
      assert (U : uses D strat w v <> []) by (intros Z; apply N; unfold rel; destruct (eqb w v); [reflexivity|]; unfold use; rewrite Z; unfold Qcsum, Qcdiv; cbn; ring).
      apply uses_depends in U. destruct (C32_background_closed D strat ord fuel _ g ORD R) as (CL & _). exact (CL w v JW U).
Qed.
End Flat.

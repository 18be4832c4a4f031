(** C84: the foreground traversal of the flat background (model: FlatModel.v). *)
From Verif Require Import Num Base ProcModel BgModel BgProofs BgProofs2 BgProofs3 BgProofs4 BgProofs5 BgProps BgProps2 BgLciModel BgLciProps BgNetProps FlatModel FlatProofs FlatProofs2 FlatProps FlatMain.
From Coq Require Import Permutation Lia Relations.
Open Scope Qc_scope.
Open Scope list_scope.
Local Arguments eqb : simpl never.

(** * Breadth first search *)
Lemma enqueue_spec rows : forall seen q, NoDup seen -> exists new, enqueue rows seen q = (rev new ++ seen, q ++ new) /\ NoDup (rev new ++ seen) /\ incl new rows /\ incl rows (rev new ++ seen).
Proof.
  induction rows as [|r rows IH]; intros seen q N; cbn [enqueue]; [exists []; rewrite app_nil_r; repeat split; auto; intros x []|].
  destruct (mem r seen) eqn:M.
  - destruct (IH seen q N) as (new & E & N' & A & B). exists new. split; [exact E|]. split; [exact N'|]. split; [apply incl_tl, A|]. intros x [<-|J]; [|apply B, J]. apply in_app_iff. right. apply mem_In. exact M.
  - assert (NR : ~ In r seen) by (intros X; apply mem_In in X; congruence). destruct (IH (r :: seen) (q ++ [r])) as (new & E & N' & A & B); [constructor; assumption|].
    exists (r :: new). cbn [rev]. rewrite <- !app_assoc. cbn [app]. rewrite <- app_assoc in E. split; [exact E|]. split; [exact N'|]. split.
    + intros x [<-|J]; [left; reflexivity|right; apply A, J].
    + intros x [<-|J]; [apply in_app_iff; right; left; reflexivity|apply B, J].
Qed.

Section Bfs.
Context (f : flat) (af : mat).
Hypothesis OK : forall c, (c < length (f_fg f))%nat -> exists xs, exch_defs (match nth_error (f_fg f) c with Some t => match t_term t with Some p => p | None => O end | None => O end) (column af c) (f_fg f) = BOk xs.
Hypothesis BD : forall c r, In r (nonzero (column af c)) -> (r < length (f_fg f))%nat.
Notation N := (length (f_fg f)).
Definition hx (c : nat) : list xdef := match exch_defs (match nth_error (f_fg f) c with Some t => match t_term t with Some p => p | None => O end | None => O end) (column af c) (f_fg f) with BOk xs => xs | BErr _ => [] end.
Definition succ (c r : nat) : Prop := In r (nonzero (column af c)).
Lemma bfs_spec i0 : forall fuel seen q out P, NoDup seen -> Permutation seen (P ++ q) -> (forall x, In x seen -> (x < N)%nat /\ clos_refl_trans nat succ i0 x) ->
  (forall c r, In c P -> succ c r -> In r seen) -> (N - length P <= fuel)%nat ->
  exists P', bfs fuel f af seen q out = Some (BOk (out ++ flat_map hx P')) /\ NoDup (P ++ P') /\ incl seen (P ++ P')
    /\ (forall x, In x (P ++ P') -> clos_refl_trans nat succ i0 x) /\ (forall c r, In c (P ++ P') -> succ c r -> In r (P ++ P')).
Proof.
  induction fuel as [|fuel IH]; intros seen q out P ND PM RE CL FU.
  - assert (NP : NoDup (P ++ q)) by (eapply Permutation_NoDup; eassumption). destruct q as [|c q].
    + exists []. cbn. rewrite !app_nil_r in *. split; [reflexivity|]. split; [exact NP|]. split; [intros x J; eapply Permutation_in; eassumption|]. split; [intros x J; apply RE; eapply Permutation_in; [symmetry; exact PM|exact J]|].
      intros c r J S. eapply Permutation_in; [exact PM|]. eapply CL; eassumption.
    + exfalso. assert (L : (length (P ++ c :: q) <= length (seq 0 N))%nat).
      { apply NoDup_incl_length; [exact NP|]. intros x J. apply in_seq. split; [lia|]. apply RE. eapply Permutation_in; [symmetry; exact PM|exact J]. }
      rewrite seq_length, app_length in L. cbn in L. lia.
  - destruct q as [|c q].
    + assert (NP : NoDup P) by (eapply Permutation_NoDup; [|exact ND]; rewrite app_nil_r in PM; exact PM). exists []. cbn. rewrite !app_nil_r in *. split; [reflexivity|]. split; [exact NP|]. split; [intros x J; eapply Permutation_in; eassumption|]. split; [intros x J; apply RE; eapply Permutation_in; [symmetry; exact PM|exact J]|].
      intros c r J S. eapply Permutation_in; [exact PM|]. eapply CL; eassumption.
    + assert (JC : In c seen) by (eapply Permutation_in; [symmetry; exact PM|]; apply in_app_iff; right; left; reflexivity).
      destruct (RE c JC) as [LC RC]. cbn [bfs]. destruct (OK c LC) as [xs EX]. assert (HX : hx c = xs) by (unfold hx; rewrite EX; reflexivity).
      destruct (nth_error (f_fg f) c) as [t|] eqn:ET; [|apply nth_error_None in ET; lia]. rewrite EX.
      destruct (enqueue_spec (nonzero (column af c)) seen q ND) as (new & E & N' & A & B). rewrite E.
      destruct (IH (rev new ++ seen) (q ++ new) (out ++ xs) (P ++ [c])) as (P' & E2 & I1 & I2 & I3 & I4).
      * exact N'.
      * rewrite <- (Permutation_rev new), PM, <- app_assoc. cbn [app]. rewrite Permutation_app_comm. rewrite <- !app_assoc. reflexivity.
      * intros x J. apply in_app_iff in J as [J|J]; [|apply RE, J]. apply in_rev in J. pose proof (A x J) as SX. split; [eapply BD; exact SX|]. eapply rt_trans; [exact RC|]. apply rt_step. exact SX.
      * intros c' r J S. apply in_app_iff in J as [J|[<-|[]]]; [apply in_app_iff; right; eapply CL; eassumption|apply B; exact S].
      * rewrite app_length. cbn. lia.
      * exists (c :: P'). cbn [flat_map]. rewrite HX. rewrite <- app_assoc in E2. split; [exact E2|]. rewrite <- app_assoc in I1, I2, I3, I4. cbn [app] in I1, I2, I3, I4.
        split; [exact I1|]. split; [intros x J; apply I2, in_app_iff; right; exact J|]. split; [exact I3|exact I4].
Qed.
Lemma bfs_top i0 fuel out : (i0 < N)%nat -> (N <= fuel)%nat ->
  exists P, bfs fuel f af [i0] [i0] out = Some (BOk (out ++ flat_map hx P)) /\ NoDup P /\ forall c, In c P <-> clos_refl_trans nat succ i0 c.
Proof.
  intros L FU. destruct (bfs_spec i0 fuel [i0] [i0] out []) as (P & E & ND & I2 & I3 & I4); cbn [app length]; try lia.
  - constructor; [intros []|constructor].
  - reflexivity.
  - intros x [<-|[]]. split; [exact L|apply rt_refl].
  - intros c r [].
  - exists P. split; [exact E|]. split; [exact ND|]. intros c. split; [apply I3|]. intros C. apply clos_rt_rtn1 in C. induction C as [|b c S _ IH]; [apply I2; left; reflexivity|]. eapply I4; eassumption.
Qed.
End Bfs.

(** * Specification *)
(** [w] is another foreground product of which the process of [v] makes a nonzero net use *)
Definition fg_need (D : db) (strat : strategy) (f : flat) (v w : node) : Prop := in_fg f w /\ w <> v /\ use D strat v w <> 0.
(** For every database, every foreground product [u]: the traversal ends after at most as many steps as there are foreground products, and yields
    the reference exchange of [u], then for each product [v] reached from [u] through foreground products, once, one exchange for each foreground product
    its process uses, with the net amount per unit of net output.  Partial: outputs as references, no cancellation, as in C80. *)
Theorem C84_foreground_partial D strat comp vs f u fuel : built D strat comp vs f -> in_fg f u -> (length (f_fg f) <= fuel)%nat ->
  (forall w, in_fg f w -> ordinary D strat w /\ no_cancellation D strat w) ->
  exists L (xs : node -> list xdef), foreground_exchanges fuel f (snd u) (fst u) = Some (BOk (XD (snd u) (fst u) Output None 1 :: flat_map xs L))
    /\ NoDup L /\ (forall v, In v L <-> clos_refl_trans node (fg_need D strat f) u v)
    /\ forall v, In v L -> NoDup (xs v) /\ forall x, In x (xs v) <-> exists w, fg_need D strat f v w /\ x = exchange_of v w (use D strat v w / (1 - use D strat v v)).
Proof.
  intros (ord & fl & g & ORD & R & FE) JU FU O. pose proof (in_fg_iff D strat ord fl vs g comp f ORD R FE) as IF. pose proof (flat_shape D strat ord fl vs g comp f ORD R FE) as SH.
  pose proof (nd_fg D strat ord fl vs g ORD R) as NF. apply IF in JU.
  destruct (sh_f _ _ _ _ _ SH) as [(Z & _)|(af & ad & bf & E1 & E2 & E3 & R1 & C1 & R2 & C2 & R3 & C3 & N1 & N2 & N3)]; [exfalso; rewrite Z in JU; destruct JU|].
  assert (LF : length (f_fg f) = length (foreground g)) by (rewrite (sh_fg _ _ _ _ _ SH), map_length; reflexivity).
  assert (COLS : forall v, In v (foreground g) -> exists xs, exch_defs (snd v) (column af (pos v (foreground g))) (f_fg f) = BOk xs /\ NoDup xs /\
     forall x, In x xs <-> exists w, fg_need D strat f v w /\ x = exchange_of v w (use D strat v w / (1 - use D strat v v))).
  { intros v JV. destruct (O v (proj2 (IF v) JV)) as [OV NV].
    destruct (product_column D strat g (foreground g) (foreground g) af (af_entries D strat g) v (fun w => negb (mem w (background g))) (f_fg f)) as (xs & X1 & X2 & X3); auto.
    { intros w q. unfold af_entries. rewrite filter_In. cbn. rewrite and_comm. split; intros [A B]; split; auto; [eapply (entry_interior D strat (foreground g)); eauto|apply in_flat_map; exists v; auto]. }
    { intros w JW. apply (cell_af D strat ord fl vs g comp f ORD R FE af v w E1 JV JW). }
    { intros w U PW. apply (fg_spec D strat ord fl vs g ORD R). split; [apply (uses_indexed D strat ord fl vs g ORD R v w); [apply (indexed_split D strat ord fl vs g ORD R); left; exact JV|exact U]|]. intros B. apply mem_In in B. rewrite B in PW. discriminate. }
    { intros i. apply (nth_fg D strat ord fl vs g comp f ORD R FE). }
    { intros w JW. destruct (O w (proj2 (IF w) JW)) as [[X _] _]. exact X. }
    exists xs. split; [exact X1|]. split; [exact X2|]. intros x. rewrite X3. unfold exchange_of. split.
    - intros (w & PW & NE & U & ->). exists w. split; [|rewrite (sign_div _ _ (ordinary_pos D strat v OV)); reflexivity]. split; [|auto]. apply IF. apply (fg_spec D strat ord fl vs g ORD R). split; [|intros B; apply mem_In in B; rewrite B in PW; discriminate].
      apply (uses_indexed D strat ord fl vs g ORD R v w); [apply (indexed_split D strat ord fl vs g ORD R); left; exact JV|]. intros Z. apply U. unfold use. rewrite Z. reflexivity.
    - intros (w & (FW & NE & U) & ->). exists w. apply IF in FW. split; [|split; [exact NE|split; [exact U|rewrite (sign_div _ _ (ordinary_pos D strat v OV)); reflexivity]]].
      destruct (mem w (background g)) eqn:M; [|reflexivity]. apply mem_In in M. exfalso. exact (fg_not_bg D strat ord fl vs g ORD R w FW M). }
  assert (TERM : forall v, In v (foreground g) -> nth_error (f_fg f) (pos v (foreground g)) = Some (make_ref D g v)) by (intros v J; rewrite (nth_fg D strat ord fl vs g comp f ORD R FE), (nth_pos v _ J); reflexivity).
  assert (AT : forall c, (c < length (f_fg f))%nat -> exists v, In v (foreground g) /\ c = pos v (foreground g)).
  { intros c L. rewrite LF in L. apply nth_error_Some in L. destruct (nth_error (foreground g) c) as [v|] eqn:E; [|contradiction]. exists v. split; [eapply nth_error_In; exact E|apply pos_eq; assumption]. }
  assert (OKc : forall c, (c < length (f_fg f))%nat -> exists xs, exch_defs (match nth_error (f_fg f) c with Some t => match t_term t with Some p => p | None => 0%nat end | None => 0%nat end) (column af c) (f_fg f) = BOk xs).
  { intros c L. destruct (AT c L) as (v & JV & ->). rewrite (TERM v JV). cbn. destruct (COLS v JV) as (xs & E & _). eauto. }
  assert (BDc : forall c r, In r (nonzero (column af c)) -> (r < length (f_fg f))%nat).
  { intros c r J. apply In_nonzero in J as (q & J & _). apply In_column in J as (L & _). rewrite LF, <- R1. exact L. }
  assert (SUC : forall v r, In v (foreground g) -> (succ af (pos v (foreground g)) r <-> exists w, r = pos w (foreground g) /\ fg_need D strat f v w)).
  { intros v r JV. unfold succ. rewrite In_nonzero. destruct (O v (proj2 (IF v) JV)) as [OV NV]. split.
    - intros (q & J & NQ). apply In_column in J as (L & _ & ->). rewrite R1, <- LF in L. destruct (AT r L) as (w & JW & ->). exists w. split; [reflexivity|].
      rewrite (cell_af D strat ord fl vs g comp f ORD R FE af v w E1 JV JW) in NQ. split; [apply IF, JW|]. destruct (eqb_spec v w) as [->|NE]; [exfalso; apply NQ; unfold rel; rewrite eqb_refl; reflexivity|].
      split; [congruence|]. intros U. apply NQ. rewrite (rel_ordinary D strat v w OV NE), U. unfold per_unit, Qcdiv. ring.
    - intros (w & -> & FW & NE & U). apply IF in FW. exists (cell af (pos w (foreground g)) (pos v (foreground g))).
      assert (CZ : cell af (pos w (foreground g)) (pos v (foreground g)) <> 0).
      { rewrite (cell_af D strat ord fl vs g comp f ORD R FE af v w E1 JV FW), (rel_ordinary D strat v w OV) by congruence. apply per_unit_nz; assumption. }
      split; [|exact CZ]. apply In_column. split; [rewrite R1; apply pos_lt, FW|]. split; [|reflexivity]. destruct (is_stored af (pos w (foreground g)) (pos v (foreground g))) eqn:S; [reflexivity|]. exfalso. apply CZ.
      unfold cell. apply Qcsum_zero. intros e JE. unfold is_stored in S. destruct (Nat.eqb (fst (fst e)) (pos w (foreground g)) && Nat.eqb (snd (fst e)) (pos v (foreground g))) eqn:B; [|reflexivity]. exfalso.
      assert (X : existsb (fun e => Nat.eqb (fst (fst e)) (pos w (foreground g)) && Nat.eqb (snd (fst e)) (pos v (foreground g))) (m_ent af) = true) by (apply existsb_exists; exists e; auto). congruence. }
  destruct (bfs_top f af OKc BDc (pos u (foreground g)) fuel [XD (snd u) (fst u) (t_dir (make_ref D g u)) None 1]) as (P & EB & NP & PR); [rewrite LF; apply pos_lt, JU|exact FU|].
  assert (PV : forall c, In c P -> exists v, In v (foreground g) /\ c = pos v (foreground g) /\ clos_refl_trans node (fg_need D strat f) u v).
  { intros c J. apply PR in J. apply clos_rt_rtn1 in J. induction J as [|b c S _ (v & JV & -> & C)]; [exists u; split; [exact JU|split; [reflexivity|apply rt_refl]]|].
    apply (SUC v c JV) in S as (w & -> & FN). exists w. split; [apply IF; apply FN|]. split; [reflexivity|]. eapply rt_trans; [exact C|]. apply rt_step. exact FN. }
  set (L := flat_map (fun c => match nth_error (foreground g) c with Some v => [v] | None => [] end) P).
  assert (PL : P = map (fun v => pos v (foreground g)) L).
  { unfold L. clear - PV NF. revert PV. induction P as [|c P IH]; intros PV; [reflexivity|]. destruct (PV c (or_introl eq_refl)) as (v & JV & -> & _). cbn [flat_map]. rewrite (nth_pos v _ JV). cbn [app map]. f_equal. apply IH. intros c J. apply PV. right; exact J. }
  assert (IL : forall v, In v L <-> clos_refl_trans node (fg_need D strat f) u v).
  { intros v. split.
    - intros J. unfold L in J. apply in_flat_map in J as (c & JC & J). destruct (PV c JC) as (w & JW & -> & C). rewrite (nth_pos w _ JW) in J. destruct J as [<-|[]]. exact C.
    - intros C. assert (X : In v (foreground g) /\ clos_refl_trans nat (succ af) (pos u (foreground g)) (pos v (foreground g))).
      { apply clos_rt_rtn1 in C. induction C as [|a b S _ [JA CA]]; [split; [exact JU|apply rt_refl]|]. assert (JB : In b (foreground g)) by (apply IF; apply S). split; [exact JB|].
        eapply rt_trans; [exact CA|]. apply rt_step. apply (SUC a _ JA). exists b. auto. }
      destruct X as [JV X]. apply PR in X. unfold L. apply in_flat_map. exists (pos v (foreground g)). split; [exact X|]. rewrite (nth_pos v _ JV). left; reflexivity. }
  exists L, (fun v => hx f af (pos v (foreground g))). split; [|split; [|split; [exact IL|]]].
  - unfold foreground_exchanges. rewrite (fg_yes D strat ord fl vs g comp f ORD R FE u JU), (TERM u JU), E1. cbv iota beta. rewrite EB.
    assert (DU : t_dir (make_ref D g u) = Output) by (unfold make_ref; cbn; destruct (O u (proj2 (IF u) JU)) as [[-> _] _]; reflexivity). rewrite DU. cbn [app]. do 3 f_equal.
    rewrite PL at 1. rewrite flat_map_concat_map, map_map, <- flat_map_concat_map. reflexivity.
  - rewrite PL in NP. eapply NoDup_map_inv. exact NP.
  - intros v J. apply IL in J. assert (JV : In v (foreground g)). { apply clos_rt_rtn1 in J. destruct J as [|a b S _]; [exact JU|apply IF; apply S]. }
    unfold hx. rewrite (TERM v JV). cbn. destruct (COLS v JV) as (xs & -> & X). exact X.
Qed.
Print Assumptions C84_foreground_partial.
Example C84_example : exists xs, foreground_exchanges 2 flat80 4 4 = Some (BOk xs) /\ map (fun x => (x_proc x, x_flow x, x_term x)) xs = [(4%nat, 4%nat, None); (4%nat, 3%nat, Some 3%nat)].
Proof. eexists. split; vm_compute; reflexivity. Qed.

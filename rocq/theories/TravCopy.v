(** Traversals of a tree of fragments and of a copy of it under other names; used for C89 and C90. *)
From Verif Require Import Num Base PyStr ProcModel FragModel FragProofs FragProps FragProps4 FragProps5 ObserveProps TravSim.
From Coq Require Import Permutation Lia.
Open Scope Qc_scope.
Open Scope string_scope.
Open Scope list_scope.
Local Arguments eqb : simpl never.

(** renaming fragments by [s] *)
Definition ren_node (s : nat -> nat) (n : tnode) : tnode := match n with NFrag j => NFrag (s j) | _ => n end.
Definition ren_term (s : nat -> nat) (t : term) : term := Tm (ren_node s (t_node t)) (t_flow t) (t_dir t) (t_desc t).
Definition ren_ref (s : nat -> nat) (r : fref) : fref := match r with Real j => Real (s j) | Ghost j => Ghost (s j) end.
Definition renamed (s : nat -> nat) (x : ffl) : ffl := FF (ren_ref s (ff_ref x)) (ff_flow x) (ff_dir x) (ff_mag x) (ff_nw x) (ren_term s (ff_term x)) (ff_cons x) (ff_subs x).

(** [g] (at [s j] in [h']) is a copy of [f] (at [j] in [h]), as far as traversals in scenario [sc] go *)
Record copy (s : nat -> nat) (sc : scen) (obs : bool) (f g : frag) : Prop := CP {
  cp_parent : f_parent g = None <-> f_parent f = None;
  cp_flow : f_flow g = f_flow f; cp_dir : f_dir g = f_dir f; cp_bg : f_bg g = f_bg f; cp_isbal : f_isbal g = f_isbal f; cp_cons : f_cons g = f_cons f;
  cp_children : Permutation (child_flows g) (map s (child_flows f));
  cp_value : f_isbal f = false -> exchange_value g sc obs = exchange_value f sc obs;
  cp_balance : forall v, exchange_value f sc obs = FOk v -> exists v', exchange_value g sc obs = FOk v';
  cp_term : forall t, termination f sc = FOk t -> termination g sc = FOk (ren_term s t) }.

Lemma perm_single {A} (l m : list A) : Permutation l m -> (length m <= 1)%nat -> l = m.
Proof.
  intros P L. destruct m as [|x [|y m]]; [apply Permutation_sym, Permutation_nil in P; exact P| |cbn in L; lia]. apply Permutation_sym, Permutation_length_1_inv in P. exact P.
Qed.
Lemma filter_map_swap {A B} (k : A -> B) (P : B -> bool) l : filter P (map k l) = map k (filter (fun x => P (k x)) l).
Proof. induction l as [|x l IH]; cbn; [reflexivity|]. destruct (P (k x)); cbn; rewrite IH; reflexivity. Qed.
Lemma filter_permute {A} (P : A -> bool) l m : Permutation l m -> Permutation (filter P l) (filter P m).
Proof. induction 1; cbn; [reflexivity|destruct (P x); [constructor; auto|auto]|destruct (P x), (P y); try reflexivity; apply perm_swap|etransitivity; eauto]. Qed.
Lemma nodup_one {A} (l : list A) : NoDup l -> (forall x y, In x l -> In y l -> x = y) -> (length l <= 1)%nat.
Proof. intros N E. destruct l as [|x [|y l]]; cbn; [lia|lia|]. exfalso. assert (x = y) by (apply E; [left|right; left]; reflexivity). subst. inversion N as [|? ? NI _]. apply NI. left. reflexivity. Qed.

Section Copy.
Context (cf : nat -> nat -> Qc) (refq : nat -> nat) (h h' : heap) (sc : scen) (obs : bool) (s : nat -> nat) (D : nat -> Prop).
Hypothesis CP0 : forall j, D j -> exists f g, h j = Some f /\ h' (s j) = Some g /\ copy s sc obs f g.
Hypothesis DC : forall j f c, D j -> h j = Some f -> In c (f_children f) -> D c.
Hypothesis DP : forall j f c g, D j -> h j = Some f -> In c (f_children f) -> h c = Some g -> f_parent g <> None.
Hypothesis NDC : forall j f, D j -> h j = Some f -> NoDup (f_children f).
(** at most one balance flow; a balance flow has a conserving parent *)
Hypothesis ONE : forall j f c d gc gd, D j -> h j = Some f -> In c (f_children f) -> In d (f_children f) -> h c = Some gc -> h d = Some gd -> f_isbal gc = true -> f_isbal gd = true -> c = d.
Hypothesis BAL : forall j f c g, D j -> h j = Some f -> In c (f_children f) -> h c = Some g -> f_isbal g = true -> f_cons f <> None.
Hypothesis ROOT : forall j f, D j -> h j = Some f -> f_parent f = None -> f_isbal f = true -> False.
Hypothesis NSD : forall c, D c -> own_node h sc c.


Lemma copy_own c f g t : D c -> h c = Some f -> h' (s c) = Some g -> copy s sc obs f g -> termination f sc = FOk t -> own_node h' sc (s c).
Proof.
  intros Dc HF HG C TF g0 t0 j HG0 TT TN. rewrite HG in HG0. injection HG0 as <-. rewrite (cp_term _ _ _ _ _ C t TF) in TT. injection TT as <-. cbn in TN. destruct (t_node t) as [| |k] eqn:TK; try discriminate.
  cbn in TN. injection TN as <-. f_equal. exact (NSD c Dc f t k HF TF TK).
Qed.
Lemma is_null_ren t : is_null (ren_term s t) = is_null t.
Proof. unfold is_null, ren_term. cbn. destruct (t_node t); reflexivity. Qed.
Lemma copy_weight f g t nw m w : copy s sc obs f g -> node_weight cf refq f t nw m w -> node_weight cf refq g (ren_term s t) nw m w.
Proof.
  intros C W. unfold node_weight in *. rewrite is_null_ren, (cp_flow _ _ _ _ _ C). destruct (f_parent f) as [p|] eqn:FP.
  - destruct (f_parent g) as [p'|] eqn:GP; [|apply (cp_parent _ _ _ _ _ C) in GP; congruence]. exact W.
  - rewrite (proj2 (cp_parent _ _ _ _ _ C) FP). exact W.
Qed.
Lemma copy_isbal c : D c -> match h' (s c) with Some g => f_isbal g | None => false end = match h c with Some g => f_isbal g | None => false end.
Proof. intros Dc. destruct (CP0 c Dc) as (f & g & -> & -> & C). apply (cp_isbal _ _ _ _ _ C). Qed.
Lemma copy_conservation c f g ev q : D c -> h c = Some f -> copy s sc obs f g -> conservation cf h' g ev q = conservation cf h f ev q.
Proof.
  intros Dc HF C. unfold conservation. rewrite (cp_isbal _ _ _ _ _ C), (cp_flow _ _ _ _ _ C), (cp_dir _ _ _ _ _ C), (cp_cons _ _ _ _ _ C). destruct q; [reflexivity|]. destruct (f_isbal f); [reflexivity|].
  unfold balance_flow. rewrite (cp_cons _ _ _ _ _ C). destruct (f_cons f) as [q|]; [|reflexivity].
  assert (P := filter_permute (fun c => match h' c with Some g => f_isbal g | None => false end) _ _ (cp_children _ _ _ _ _ C)). rewrite filter_map_swap in P.
  rewrite (filter_ext_in (fun x => match h' (s x) with Some g => f_isbal g | None => false end) (fun c => match h c with Some g => f_isbal g | None => false end)) in P.
  2:{ intros d J. apply copy_isbal. apply (DC c f d Dc HF). apply In_child_flows, J. }
  destruct (filter (fun c => match h c with Some g => f_isbal g | None => false end) (child_flows f)) as [|d r].
  - cbn in P. apply Permutation_sym, Permutation_nil in P. rewrite P. reflexivity.
  - destruct (filter _ (child_flows g)) as [|d' r']; [apply Permutation_nil in P; discriminate|reflexivity].
Qed.
Definition rel (l l' : list ffl) : Prop := Permutation (map (renamed s) l) l'.
Lemma rel_app l l' m m' : rel l l' -> rel m m' -> rel (l ++ m) (l' ++ m').
Proof. unfold rel. intros A B. rewrite map_app. apply Permutation_app; assumption. Qed.
Definition good (c : nat) (q : option nat) (bal : option Qc) : Prop := forall f, h c = Some f -> f_isbal f = true -> q <> None \/ bal <> None.
Lemma copy_signal c f nw seen seen' q bal : D c -> h c = Some f -> (f_parent f = None -> mem (s c) seen' = false) ->
  signal_run cf refq h sc obs c nw seen q bal -> signal_run cf refq h' sc obs (s c) nw seen' q bal.
Proof.
  intros Dc HF SN (f2 & ev & t & w & q' & -> & H2 & IB & _ & V & TT & W). rewrite HF in H2. injection H2 as <-. destruct (CP0 c Dc) as (f2 & g & H2 & HG & C). rewrite HF in H2. injection H2 as <-.
  assert (VG : exists ev', node_value sc obs g bal ev'). { unfold node_value in *. destruct bal as [b|]; [eauto|]. apply (cp_balance _ _ _ _ _ C ev V). } destruct VG as [ev' VG].
  assert (WG : exists w', node_weight cf refq g (ren_term s t) nw (nw * ev') w').
  { apply (copy_weight f g t nw (nw * ev) w C) in W. unfold node_weight in *. destruct (f_parent g); [|eauto]. rewrite is_null_ren in *. destruct (is_null t); [eauto|]. destruct W as (k & K & _). eauto. }
  destruct WG as [w' WG]. exists g, ev', (ren_term s t), w', q'. split; [reflexivity|]. split; [exact HG|]. split; [rewrite (cp_isbal _ _ _ _ _ C); exact IB|]. split; [intros GP; apply SN; apply (cp_parent _ _ _ _ _ C), GP|].
  split; [exact VG|]. split; [apply (cp_term _ _ _ _ _ C), TT|exact WG].
Qed.
Lemma SOK c n : D c -> forall f d nw sn q b, h c = Some f -> In d (child_flows f) -> trav cf refq n h sc obs d nw sn q b = FErr FoundBalanceFlow -> q <> None.
Proof. intros Dc f d nw sn q b HF J. apply (trav_signal_in cf refq h sc obs D n d nw sn q b NSD); [intros c0 f0 d0; apply DC|]. apply (DC c f d Dc HF). apply In_child_flows, J. Qed.
Lemma trav_copy n : forall c f nw seen seen' q bal, D c -> h c = Some f -> good c q bal -> (f_parent f = None -> mem (s c) seen' = false) ->
  (forall l cv, trav cf refq n h sc obs c nw seen q bal = FOk (l, cv) -> exists l', trav cf refq n h' sc obs (s c) nw seen' q bal = FOk (l', cv) /\ rel l l') /\
  (trav cf refq n h sc obs c nw seen q bal = FErr FoundBalanceFlow -> trav cf refq n h' sc obs (s c) nw seen' q bal = FErr FoundBalanceFlow).
Proof.
  induction n as [|n IH]; intros c f nw seen seen' q bal Dc HF GO SN; [split; discriminate|]. split.
  2:{ cbn [trav]. intros E. apply trav_node_signal in E; [|exact (NSD c Dc)|exact (SOK c n Dc)]. apply trav_node_signal_of. exact (copy_signal c f nw seen seen' q bal Dc HF SN E). }
  intros l cv E. cbn [trav] in E. apply trav_node_run in E; [|exact (NSD c Dc)]. destruct E as (f2 & ev & t & w & kept & H2 & _ & V & TT & W & CO & X). rewrite HF in H2. injection H2 as <-.
  destruct (CP0 c Dc) as (f2 & g & H2 & HG & C). rewrite HF in H2. injection H2 as <-. cbv zeta in X. set (x := FF (Real c) (f_flow f) (f_dir f) (nw * ev) w t kept []) in X.
  assert (VG : node_value sc obs g bal ev).
  { unfold node_value in *. destruct bal as [b|]; [exact V|]. destruct (f_isbal f) eqn:IB; [|rewrite (cp_value _ _ _ _ _ C IB); exact V]. exfalso. destruct (GO f HF IB) as [NQ|NB]; [|congruence]. unfold conservation in CO. rewrite IB in CO. destruct q; [discriminate|contradiction]. }
  set (r := trav cf refq n h sc obs) in *. set (r' := trav cf refq n h' sc obs).
  assert (Y : exists l', (if is_null t || f_bg f || eqb (nw * ev) 0 then l' = [renamed s x] else fg_run cf h' sc obs r' (s c) g (renamed s x) (see (s c) g seen') l') /\ rel l l').
  { destruct (is_null t || f_bg f || eqb (nw * ev) 0) eqn:STOP; [exists [renamed s x]; split; [reflexivity|subst l; unfold rel; reflexivity]|].
    set (sn := see c f seen) in *. set (sn' := see (s c) g seen'). destruct X as (st & SS & FI & X). cbv zeta in X. change (ff_nw (renamed s x)) with (ff_nw x).
    assert (SS' : start_stock cf sc obs (s c) g (ren_term s t) st).
    { unfold start_stock in *. cbn [x ff_term] in SS. rewrite (cp_flow _ _ _ _ _ C), (cp_dir _ _ _ _ _ C), (cp_cons _ _ _ _ _ C). destruct SS as (s0 & S1 & S2). exists s0. split; [|exact S2]. rewrite <- S1.
      assert (FG : is_fg (s c) (ren_term s t) = is_fg c t). { unfold is_fg. cbn. destruct (t_node t) as [| |k] eqn:TK; try reflexivity. cbn. rewrite (NSD c Dc f t k HF TT TK), !Nat.eqb_refl. reflexivity. }
      rewrite FG. destruct (is_fg c t); [|reflexivity]. destruct (f_parent f) as [p|] eqn:FP.
      - destruct (f_parent g) eqn:GP; [reflexivity|apply (cp_parent _ _ _ _ _ C) in GP; congruence].
      - rewrite (proj2 (cp_parent _ _ _ _ _ C) FP). destruct (f_isbal f) eqn:IB; [|apply (cp_value _ _ _ _ _ C IB)]. exfalso. exact (ROOT c f Dc HF FP IB). }
    assert (CH : forall d, In d (child_flows f) -> D d /\ exists fd, h d = Some fd /\ (f_parent fd = None -> mem (s d) sn' = false)).
    { intros d J. apply In_child_flows in J. assert (Dd := DC c f d Dc HF J). split; [exact Dd|]. destruct (CP0 d Dd) as (fd & _ & HD & _). exists fd. split; [exact HD|]. intros P. destruct (DP c f d fd Dc HF J HD P). }
    assert (GD : forall d, In d (child_flows f) -> good d (f_cons f) None). { intros d J fd HD IB. left. apply In_child_flows in J. exact (BAL c f d fd Dc HF J HD IB). }
    assert (KID : forall d, In d (child_flows f) -> (sig r (ff_nw x) sn (f_cons f) d = true /\ sig r' (ff_nw x) sn' (f_cons f) (s d) = true) \/
        exists l1 l2 cv1, out r (ff_nw x) sn (f_cons f) d = FOk (l1, cv1) /\ out r' (ff_nw x) sn' (f_cons f) (s d) = FOk (l2, cv1) /\ rel l1 l2).
    { intros d J. destruct (CH d J) as (Dd & fd & HD & SD). destruct (IH d fd (ff_nw x) sn sn' (f_cons f) None Dd HD (GD d J) SD) as [I1 I2]. destruct (FI d J) as [S1|(l1 & cv1 & O1)].
      - left. split; [exact S1|]. unfold sig, out in *. fold r in I2. destruct (r d (ff_nw x) sn (f_cons f) None) as [|e]; [discriminate|]. destruct e; try discriminate. fold r' in I2. rewrite (I2 eq_refl). reflexivity.
      - right. destruct (I1 l1 cv1 O1) as (l2 & O2 & R2). exists l1, l2, cv1. auto. }
    assert (SIG : forall d, In d (child_flows f) -> sig r' (ff_nw x) sn' (f_cons f) (s d) = sig r (ff_nw x) sn (f_cons f) d).
    { intros d J. destruct (KID d J) as [[-> ->]|(l1 & l2 & cv1 & O1 & O2 & _)]; [reflexivity|]. unfold sig. rewrite O1, O2. reflexivity. }
    assert (FI' : forall d', In d' (child_flows g) -> fine r' (ff_nw x) sn' (f_cons f) d').
    { intros d' J. apply (Permutation_in _ (cp_children _ _ _ _ _ C)) in J. apply in_map_iff in J as (d & <- & J). destruct (KID d J) as [[_ S1]|(l1 & l2 & cv1 & _ & O2 & _)]; [left; exact S1|right; eauto]. }
    assert (ENT : rel (flat_map (ent r (ff_nw x) sn (f_cons f)) (child_flows f)) (flat_map (ent r' (ff_nw x) sn' (f_cons f)) (child_flows g))).
    { unfold rel. etransitivity; [|apply Permutation_flat_map, Permutation_sym, (cp_children _ _ _ _ _ C)].
      assert (G : forall ds, (forall d, In d ds -> In d (child_flows f)) -> rel (flat_map (ent r (ff_nw x) sn (f_cons f)) ds) (flat_map (ent r' (ff_nw x) sn' (f_cons f)) (map s ds))).
      { induction ds as [|d ds IHd]; intros I; cbn [flat_map map]; [unfold rel; reflexivity|]. apply rel_app; [|apply IHd; intros d' J'; apply I; right; exact J'].
        unfold ent. destruct (KID d (I d (or_introl eq_refl))) as [[S1 S2]|(l1 & l2 & cv1 & -> & -> & R)]; [|exact R]. unfold sig in S1, S2. destruct (out r _ _ _ d); [discriminate|]. destruct (out r' _ _ _ (s d)); [discriminate|]. unfold rel; reflexivity. }
      apply G. auto. }
    assert (SUM : Qcsum (map (cvn r' (ff_nw x) sn' (f_cons f)) (child_flows g)) = Qcsum (map (cvn r (ff_nw x) sn (f_cons f)) (child_flows f))).
    { rewrite (Qcsum_perm _ _ (Permutation_map (cvn r' (ff_nw x) sn' (f_cons f)) (cp_children _ _ _ _ _ C))). rewrite map_map. f_equal. apply map_ext_in. intros d J. unfold cvn.
      destruct (KID d J) as [[S1 S2]|(l1 & l2 & cv1 & -> & -> & _)]; [|reflexivity]. unfold sig in S1, S2. destruct (out r _ _ _ d); [discriminate|]. destruct (out r' _ _ _ (s d)); [discriminate|]. reflexivity. }
    assert (SB : forall d, In d (child_flows f) -> sig r (ff_nw x) sn (f_cons f) d = true -> exists fd, h d = Some fd /\ f_isbal fd = true).
    { intros d J S1. unfold sig, out in S1. destruct (r d _ _ _ _) as [|e] eqn:RD; [discriminate|]. destruct e; try discriminate. unfold r in RD. destruct n as [|n0]; [discriminate|]. cbn [trav] in RD. apply trav_node_signal in RD; [|exact (NSD d (proj1 (CH d J)))|exact (SOK d n0 (proj1 (CH d J)))].
      destruct RD as (fd & _ & _ & _ & _ & _ & HD & IB & _). eauto. }
    assert (LEN : (length (filter (sig r (ff_nw x) sn (f_cons f)) (child_flows f)) <= 1)%nat).
    { apply nodup_one; [apply NoDup_filter; exact (Permutation_NoDup (Permutation_sym (child_flows_perm f)) (NDC c f Dc HF))|]. intros d1 d2 J1 J2. apply filter_In in J1 as [J1 S1]. apply filter_In in J2 as [J2 S2].
      destruct (SB d1 J1 S1) as (f1 & H1 & B1). destruct (SB d2 J2 S2) as (f2 & H2 & B2). apply In_child_flows in J1. apply In_child_flows in J2. exact (ONE c f d1 d2 f1 f2 Dc HF J1 J2 H1 H2 B1 B2). }
    assert (FILT : filter (sig r' (ff_nw x) sn' (f_cons f)) (child_flows g) = map s (filter (sig r (ff_nw x) sn (f_cons f)) (child_flows f))).
    { apply perm_single; [|rewrite map_length; exact LEN]. etransitivity; [apply filter_permute, (cp_children _ _ _ _ _ C)|]. rewrite filter_map_swap. erewrite filter_ext_in; [reflexivity|]. intros d J. apply SIG, J. }
    unfold fg_run. rewrite (cp_cons _ _ _ _ _ C). change (ff_term (renamed s x)) with (ren_term s t). change (ff_nw (renamed s x)) with (ff_nw x). cbv zeta. rewrite FILT.
    destruct (filter (sig r (ff_nw x) sn (f_cons f)) (child_flows f)) as [|bb rest] eqn:FB.
    - cbn in X |- *. eexists. split; [exists st; split; [exact SS'|]; split; [exact FI'|]; reflexivity|]. subst l. apply (rel_app [x] [renamed s x]); [unfold rel; reflexivity|exact ENT].
    - assert (rest = []) by (destruct rest; [reflexivity|cbn in LEN; lia]). subst rest. cbn [map lastof rev app] in X |- *. destruct X as (lb & cvb & RB & ->).
      assert (JB : In bb (child_flows f) /\ sig r (ff_nw x) sn (f_cons f) bb = true) by (apply filter_In; rewrite FB; left; reflexivity). destruct JB as [JB SBB]. destruct (CH bb JB) as (Db & fb & HB & SNb).
      destruct (IH bb fb (ff_nw x) sn sn' None (Some (towards h bb (st + Qcsum (map (cvn r (ff_nw x) sn (f_cons f)) (child_flows f))))) Db HB) as [I1 _]; [intros f3 H3 B3; right; discriminate|exact SNb|].
      destruct (I1 lb cvb RB) as (lb' & RB' & RR). eexists. split.
      + exists st. split; [exact SS'|]. split; [exact FI'|]. exists lb', cvb. split; [|reflexivity]. rewrite SUM. unfold towards in *. destruct (CP0 bb Db) as (fb2 & gb & HB2 & HGB & CB). rewrite HB2 in RB'. rewrite HGB, (cp_dir _ _ _ _ _ CB). exact RB'.
      + apply (rel_app (x :: _) (renamed s x :: _)); [|exact RR]. apply (rel_app [x] [renamed s x]); [unfold rel; reflexivity|exact ENT]. }
  destruct Y as (l' & Y & R). exists l'. split; [|exact R]. cbn [trav]. apply trav_node_run; [exact (copy_own c f g t Dc HF HG C TT)|].
  exists g, ev, (ren_term s t), w, kept. split; [exact HG|]. split; [intros GP; apply SN; apply (cp_parent _ _ _ _ _ C), GP|]. split; [exact VG|]. split; [exact (cp_term _ _ _ _ _ C t TT)|].
  split; [exact (copy_weight f g t nw (nw * ev) w C W)|]. split; [rewrite (copy_conservation c f g ev q Dc HF C); exact CO|]. cbv zeta. rewrite is_null_ren, (cp_flow _ _ _ _ _ C), (cp_dir _ _ _ _ _ C), (cp_bg _ _ _ _ _ C). exact Y.
Qed.
End Copy.

(** Proofs for C87, continued: the induction over the traversal. *)
From Verif Require Import Num Base PyStr ProcModel FragModel FragProofs FragProps FragProps4 FragProps5 ObserveProps EditModel EditProofs TravSim SplitProofs.
From Coq Require Import Permutation Lia.
Open Scope Qc_scope.
Open Scope string_scope.
Open Scope list_scope.
Local Arguments eqb : simpl never.

(** The entries a user reads: activities and processes at work other than the link [b] ([work]), and the net amount of every flow
    that is cut off. *)
Definition line (x : ffl) := (ff_ref x, ff_flow x, ff_dir x, ff_mag x, ff_nw x, ff_term x).
Definition at_work (b : nat) (x : ffl) : bool :=
  match t_node (ff_term x) with NNull => false | _ => true end && negb (eqb (ff_mag x) 0) && negb (match ff_ref x with Real j => Nat.eqb j b | Ghost _ => false end).
Definition work (b : nat) (l : list ffl) := map line (filter (at_work b) l).
Definition same_results (b : nat) (l l' : list ffl) : Prop :=
  Permutation (work b l) (work b l') /\ forall fl, net fl (cutoffs l) = net fl (cutoffs l').

Lemma work_app b l m : work b (l ++ m) = work b l ++ work b m.
Proof. unfold work. rewrite filter_app, map_app. reflexivity. Qed.
Lemma cutoffs_app l m : cutoffs (l ++ m) = cutoffs l ++ cutoffs m.
Proof. apply filter_app. Qed.
Lemma net_app fl l m : net fl (l ++ m) = net fl l + net fl m.
Proof. unfold net. rewrite map_app, Qcsum_app. reflexivity. Qed.
Lemma net_perm fl l m : Permutation l m -> net fl l = net fl m.
Proof. induction 1; rewrite ?net_cons; try congruence; ring. Qed.
Lemma filter_perm {A} (P : A -> bool) l m : Permutation l m -> Permutation (filter P l) (filter P m).
Proof. induction 1; cbn; [reflexivity|destruct (P x); [constructor; auto|auto]|destruct (P x), (P y); try reflexivity; apply perm_swap|etransitivity; eauto]. Qed.
Lemma same_perm b l m : Permutation l m -> same_results b l m.
Proof. intros P. split; [apply Permutation_map, filter_perm, P|]. intros fl. apply net_perm, filter_perm, P. Qed.
Lemma same_refl b l : same_results b l l.
Proof. apply same_perm. reflexivity. Qed.
Lemma same_trans b l m o : same_results b l m -> same_results b m o -> same_results b l o.
Proof. intros [A B] [C D]. split; [etransitivity; eauto|]. intros fl. rewrite B. apply D. Qed.
Lemma same_sym b l m : same_results b l m -> same_results b m l.
Proof. intros [A B]. split; [symmetry; exact A|]. intros fl. symmetry. apply B. Qed.
Lemma same_app b l l' m m' : same_results b l l' -> same_results b m m' -> same_results b (l ++ m) (l' ++ m').
Proof.
  intros [A B] [C D]. split; [rewrite !work_app; apply Permutation_app; assumption|]. intros fl. rewrite !cutoffs_app, !net_app, B, D. reflexivity.
Qed.
Lemma net_scale fl k l : net fl (map (fscale k) l) = net fl l * k.
Proof.
  induction l as [|x l IH]; cbn [map]; [unfold net, Qcsum; cbn; ring|]. rewrite !net_cons, IH. destruct (fscale_fields k x) as (_ & -> & -> & _ & -> & _). destruct (Nat.eqb _ _); [|ring]. destruct (ff_dir x); cbn; ring.
Qed.
Lemma cutoffs_scale k l : cutoffs (map (fscale k) l) = map (fscale k) (cutoffs l).
Proof. unfold cutoffs. induction l as [|x l IH]; cbn; [reflexivity|]. destruct (fscale_fields k x) as (_ & _ & _ & -> & _). destruct (t_node (ff_term x)); cbn; rewrite IH; reflexivity. Qed.

(** * One node *)
Section Sim.
Context (cf : nat -> nat -> Qc) (refq : nat -> nat) (h h' : heap) (sc : scen) (obs : bool) (b : nat).
Definition child_sim (r r' : rect) (nw : Qc) (seen : list nat) (q : option nat) (c d : nat) : Prop :=
  (sig r nw seen q c = true /\ sig r' nw seen q d = true) \/ exists l l' cv, out r nw seen q c = FOk (l, cv) /\ out r' nw seen q d = FOk (l', cv) /\ same_results b l l'.
Lemma child_sim_fine r r' nw seen q c d : child_sim r r' nw seen q c d -> fine r' nw seen q d /\ cvn r nw seen q c = cvn r' nw seen q d /\ same_results b (ent r nw seen q c) (ent r' nw seen q d) /\ sig r nw seen q c = sig r' nw seen q d.
Proof.
  unfold fine, cvn, ent, sig. intros [[A B]|(l & l' & cv & A & B & R)].
  - split; [left; exact B|]. unfold sig in *. destruct (out r nw seen q c) as [|e]; [discriminate|]. destruct (out r' nw seen q d) as [|e']; [discriminate|]. split; [reflexivity|]. split; [apply same_refl|congruence].
  - split; [right; eauto|]. rewrite A, B. auto.
Qed.
Lemma flat_map_same r r' nw seen q L L' : Forall2 (child_sim r r' nw seen q) L L' -> same_results b (flat_map (ent r nw seen q) L) (flat_map (ent r' nw seen q) L').
Proof. induction 1 as [|c d L L' S F IH]; cbn; [apply same_refl|]. apply same_app; [apply (child_sim_fine _ _ _ _ _ _ _ S)|exact IH]. Qed.
Lemma cvn_same r r' nw seen q L L' : Forall2 (child_sim r r' nw seen q) L L' -> map (cvn r nw seen q) L = map (cvn r' nw seen q) L'.
Proof. induction 1 as [|c d L L' S F IH]; cbn; [reflexivity|]. f_equal; [apply (child_sim_fine _ _ _ _ _ _ _ S)|exact IH]. Qed.
Lemma fg_run_sim r r' i f f' x seen l L L' :
  f_cons f' = f_cons f -> f_flow f' = f_flow f -> f_dir f' = f_dir f -> f_parent f' = f_parent f -> exchange_value f' sc obs = exchange_value f sc obs ->
  Permutation (child_flows f) L -> Permutation (child_flows f') L' -> Forall2 (child_sim r r' (ff_nw x) seen (f_cons f)) L L' ->
  filter (sig r' (ff_nw x) seen (f_cons f)) (child_flows f') = filter (sig r (ff_nw x) seen (f_cons f)) (child_flows f) ->
  (forall bb, In bb (child_flows f) -> sig r (ff_nw x) seen (f_cons f) bb = true -> (forall s, towards h' bb s = towards h bb s) /\
     forall v lb cvb, r bb (ff_nw x) seen None (Some v) = FOk (lb, cvb) -> exists lb', r' bb (ff_nw x) seen None (Some v) = FOk (lb', cvb) /\ same_results b lb lb') ->
  fg_run cf h sc obs r i f x seen l -> exists l', fg_run cf h' sc obs r' i f' x seen l' /\ same_results b l l'.
Proof.
  intros E1 E2 E3 E4 E5 P P' F2 SG BB (s & SS & FI & E). cbv zeta in E.
  assert (SS' : start_stock cf sc obs i f' (ff_term x) s). { unfold start_stock in *. rewrite E1, E2, E3, E4, E5. exact SS. }
  assert (FI' : forall c, In c (child_flows f') -> fine r' (ff_nw x) seen (f_cons f) c).
  { intros c J. apply (Permutation_in _ P') in J. clear - F2 J. induction F2 as [|c0 d L L' S F IH]; [contradiction|]. destruct J as [<-|J]; [apply (child_sim_fine _ _ _ _ _ _ _ S)|apply IH, J]. }
  assert (ENT : same_results b (flat_map (ent r (ff_nw x) seen (f_cons f)) (child_flows f)) (flat_map (ent r' (ff_nw x) seen (f_cons f)) (child_flows f'))).
  { eapply same_trans; [apply same_perm, Permutation_flat_map, P|]. eapply same_trans; [apply flat_map_same, F2|]. apply same_perm, Permutation_flat_map. symmetry. exact P'. }
  assert (SUM : Qcsum (map (cvn r' (ff_nw x) seen (f_cons f)) (child_flows f')) = Qcsum (map (cvn r (ff_nw x) seen (f_cons f)) (child_flows f))).
  { rewrite (Qcsum_perm _ _ (Permutation_map (cvn r (ff_nw x) seen (f_cons f)) P)), (Qcsum_perm _ _ (Permutation_map (cvn r' (ff_nw x) seen (f_cons f)) P')). f_equal. symmetry. apply cvn_same, F2. }
  unfold fg_run. rewrite E1. cbv zeta. rewrite SG. destruct (lastof (filter (sig r (ff_nw x) seen (f_cons f)) (child_flows f)) None) as [bb|] eqn:LB.
  - assert (J : In bb (filter (sig r (ff_nw x) seen (f_cons f)) (child_flows f))). { unfold lastof in LB. destruct (rev (filter _ _)) as [|b' rr] eqn:RV; [discriminate|]. injection LB as ->. apply in_rev. rewrite RV. left. reflexivity. }
    apply filter_In in J as [J SB]. destruct (BB bb J SB) as [TW RB]. destruct E as (lb & cvb & R & ->). apply RB in R as (lb' & R' & SM). eexists. split.
    + exists s. split; [exact SS'|]. split; [exact FI'|]. exists lb', cvb. rewrite SUM, TW. split; [exact R'|reflexivity].
    + apply (same_app b (x :: _) (x :: _)); [|exact SM]. apply (same_app b [x] [x]); [apply same_refl|exact ENT].
  - eexists. split.
    + exists s. split; [exact SS'|]. split; [exact FI'|]. reflexivity.
    + subst l. apply (same_app b [x] [x]); [apply same_refl|exact ENT].
Qed.
End Sim.

Lemma new_value g sc obs : f_evs g = new_evs -> f_parent g = None -> ordinary sc -> exchange_value g sc obs = FOk 1.
Proof.
  intros E P OR. unfold exchange_value, match_ev, ev_for, cached_ev, observed_ev. rewrite E, P. destruct sc as [|k|ks]; cbn in OR.
  - destruct obs; reflexivity.
  - destruct OR as [A B]. assert (D : din k new_evs = false) by (unfold din; cbn; destruct (eqb_spec k K0); [contradiction|]; destruct (eqb_spec k K1); [contradiction|]; reflexivity).
    destruct (eqb_spec k K0); [contradiction|]. destruct (eqb_spec k K1); [contradiction|]. rewrite ?D. destruct obs; reflexivity.
  - assert (Z : filter (fun k => din k new_evs) ks = []). { induction ks as [|k ks IH]; cbn; [reflexivity|]. destruct (OR k (or_introl eq_refl)) as [A B]. unfold din at 1. cbn. destruct (eqb_spec k K0); [contradiction|]. destruct (eqb_spec k K1); [contradiction|]. apply IH. intros k' J. apply OR. right. exact J. }
    rewrite Z. destruct obs; reflexivity.
Qed.

(** a fragment with only its default termination *)
Lemma only_default g sc t : f_terms g = [(None, t)] -> termination g sc = FOk t.
Proof.
  intros E. unfold termination, match_term. rewrite E. destruct sc as [|k|ks].
  - reflexivity.
  - destruct (_ || _); reflexivity.
  - assert (Z : filter (fun k => din (Some k) [(@None skey, t)]) ks = []) by (induction ks as [|k ks IH]; [reflexivity|exact IH]). rewrite Z. reflexivity.
Qed.
Lemma lines_scale b k l : Forall (fun x => ff_ref x <> Real b) l -> work b (map (fscale k) (filter (fun x => match t_node (ff_term x) with NNull => false | _ => true end) l)) = work b (map (fscale k) l).
Proof.
  intros F. unfold work. f_equal. induction F as [|x l NX F IH]; cbn; [reflexivity|]. destruct (t_node (ff_term x)) eqn:TN; cbn; rewrite IH; [|reflexivity|reflexivity].
  unfold at_work at 2. destruct (fscale_fields k x) as (_ & _ & _ & -> & _). rewrite TN. reflexivity.
Qed.
Lemma work_ext b x y l : line x = line y -> work b (x :: l) = work b (y :: l).
Proof. unfold line. intros [= A B C D E F]. unfold work. cbn [filter]. assert (AW : at_work b x = at_work b y) by (unfold at_work; rewrite A, D, F; reflexivity). rewrite AW. destruct (at_work b y); [cbn; unfold line; rewrite A, B, C, D, E, F; reflexivity|reflexivity]. Qed.
Lemma cut_ext x y l : line x = line y -> forall fl, net fl (cutoffs (x :: l)) = net fl (cutoffs (y :: l)).
Proof. unfold line. intros [= A B C D E F] fl. rewrite !cutoffs_cons. rewrite F. destruct (is_null (ff_term y)); [|reflexivity]. rewrite !net_cons. rewrite B, C, D. reflexivity. Qed.

Section Main.
Context (cf : nat -> nat -> Qc) (refq : nat -> nat) (h h1 h' : heap) (sc : scen) (obs : bool) (a b p : nat) (f pf pf1 g : frag).
Hypothesis RO : rooted h.
Hypothesis SL : sound_links h.
Hypothesis CE : children_exist h.
Hypothesis NS : no_subfragments h sc.
Hypothesis OR : ordinary sc.
Hypothesis HA : h a = Some f.
Hypothesis FP : f_parent f = Some p.
Hypothesis HP : h p = Some pf.
Hypothesis HB : h b = None.
Hypothesis FK1 : forked refq h h1 a b p f pf pf1 g.
Hypothesis SD1 : split_done h h' a b p f pf g pf1.
Hypothesis INA : In a (f_children pf).
Hypothesis ND : NoDup (f_children pf).
Hypothesis IB : f_isbal f = false.
Hypothesis BG : f_bg f = false.
Hypothesis RA : reads_as f g.
Hypothesis PT : f_terms pf1 = f_terms pf /\ f_bg pf1 = f_bg pf.
Variable t : term.
Hypothesis TA : termination f sc = FOk t.
Hypothesis TN : t_node t <> NNull.
Hypothesis MU : multiplier cf refq (f_flow f) t = FOk 1.
Hypothesis NC : forall j gj tj, in_tree h a j -> j <> a -> h j = Some gj -> f_flow gj = f_flow f -> termination gj sc = FOk tj -> t_node tj <> NNull.
Hypothesis BF : forall e, balance_flow h f <> FErr e.

Let C (j : nat) : Prop := in_tree h a j /\ j <> a /\ h j <> None.
Lemma NAP : a <> p.
Proof. intros ->. exact (above_cycle h p f p RO HA FP (above_refl _ _)). Qed.
Lemma not_p j : in_tree h a j -> j <> p.
Proof. intros T ->. apply (above_cycle h a f p RO HA FP). apply tree_above; eauto. Qed.
Lemma tree_snoc i j gj c : in_tree h i j -> h j = Some gj -> In c (f_children gj) -> in_tree h i c.
Proof. induction 1 as [i|i fi d k HI D T IH]; intros HJ J; [eapply tree_child; [exact HJ|exact J|constructor]|eapply tree_child; [exact HI|exact D|apply IH; assumption]]. Qed.
Lemma child_not_a j gj c : h j = Some gj -> In c (f_children gj) -> in_tree h a j -> c <> a.
Proof. intros HJ J T ->. apply (above_cycle h a f p RO HA FP). rewrite (SL j gj a f HJ J HA) in FP. injection FP as <-. apply tree_above; eauto. Qed.
Lemma C_child c gc d : C c -> h c = Some gc -> In d (f_children gc) -> C d.
Proof. intros (T & N & E) HC J. split; [eapply tree_snoc; eauto|]. split; [exact (child_not_a c gc d HC J T)|exact (CE c gc d HC J)]. Qed.
Lemma C_of_a d : In d (f_children f) -> C d.
Proof. intros J. split; [eapply tree_snoc; [constructor|exact HA|exact J]|]. split; [exact (child_not_a a f d HA J (tree_self h a))|exact (CE a f d HA J)]. Qed.
Lemma C_same c : C c -> h' c = h c.
Proof. intros (T & N & E). apply (sd_frame _ _ _ _ _ _ _ _ _ SD1); [exact N|congruence|apply not_p, T]. Qed.
Lemma C_parent c gc : C c -> h c = Some gc -> f_parent gc <> None.
Proof.
  intros (T & N & E) HC. assert (X : forall i k, in_tree h i k -> k <> i -> forall gk, h k = Some gk -> f_parent gk <> None).
  { induction 1 as [i|i fi d k HI D T' IH]; intros NE gk HK; [contradiction|]. destruct (Nat.eq_dec k d) as [->|NK]; [rewrite (SL i fi d gk HI D HK); discriminate|exact (IH NK gk HK)]. }
  exact (X a c T N gc HC).
Qed.
Lemma C_own c : C c -> own_node h sc c.
Proof. intros _ fc tc j HC. apply NS. exact HC. Qed.
Lemma C_not j : C j -> Real j <> Real b.
Proof. intros (_ & _ & E) [= ->]. contradiction. Qed.

(** the node [a] before, the node [b] after *)
Lemma at_split n nw seen q l cv : trav cf refq n h sc obs a nw seen q None = FOk (l, cv) -> exists l', trav cf refq (S n) h' sc obs b nw seen q None = FOk (l', cv) /\ same_results b l l'.
Proof.
  intros E. destruct n as [|n]; [discriminate|]. cbn [trav] in E. apply trav_node_run in E; [|intros fc tc j HC; apply NS; exact HC].
  destruct E as (f0 & ev & t0 & w & kept & HA0 & _ & V & T0 & W & CO & X). rewrite HA in HA0. injection HA0 as <-. rewrite TA in T0. injection T0 as <-.
  cbn [node_value] in V. unfold node_weight in W. rewrite FP in W. assert (NL : is_null t = false) by (unfold is_null; destruct (t_node t); [contradiction TN; reflexivity|reflexivity|reflexivity]). rewrite NL in W. destruct W as (k & K & W). rewrite MU in K. injection K as <-. rewrite Qcmult_1_r in W. subst w.
  destruct (fk_g _ _ _ _ _ _ _ _ _ _ FK1) as [e G].
  assert (HB' := sd_b _ _ _ _ _ _ _ _ _ SD1). set (tb := Tm (NFrag a) (f_flow f) (comp (f_dir f)) true) in HB'. set (g' := with_terms g [(None, tb)]) in HB'.
  assert (GV : exchange_value g' sc obs = FOk ev) by (rewrite <- V; rewrite <- (RA sc obs OR); unfold g'; rewrite G; reflexivity).
  assert (GE : match match_ev g' sc with FErr e => FErr e | FOk m => FOk (ev_for g' m obs) end = FOk ev) by exact GV.
  assert (GT : termination g' sc = FOk tb) by (apply only_default; reflexivity).
  assert (GM : exists m, match_term g' sc = FOk m /\ dget m (f_terms g') = Some tb). { unfold termination in GT. destruct (match_term g' sc) as [m|]; [|discriminate]. destruct (dget m (f_terms g')) eqn:D; [|discriminate]. exists m. split; [reflexivity|congruence]. }
  destruct GM as (m & GM1 & GM2).
  assert (GP : f_parent g' = Some p) by (unfold g'; rewrite G; reflexivity). assert (GF : f_flow g' = f_flow f) by (unfold g'; rewrite G; reflexivity). assert (GD : f_dir g' = f_dir f) by (unfold g'; rewrite G; reflexivity).
  assert (GB : f_bg g' = false) by (unfold g'; rewrite G; reflexivity). assert (GC : f_children g' = []) by (unfold g'; rewrite G; reflexivity). assert (GI : f_isbal g' = false) by (unfold g'; rewrite G; exact IB). assert (GN : f_cons g' = None) by (unfold g'; rewrite G; reflexivity).
  assert (GO : exists kept', conservation cf h' g' ev q = FOk (cv, kept')).
  { unfold conservation in *. rewrite GI, GF, GD. rewrite IB in CO. destruct q as [q'|].
    - match type of CO with (if ?z then _ else _) = _ => destruct z end; injection CO as <- _; eauto.
    - unfold balance_flow at 1. rewrite GN. assert (CVN : cv = None). { destruct (balance_flow h f) as [[?|]|]; [|congruence|discriminate]. destruct (f_cons f); congruence. } subst cv. eauto. }
  destruct GO as [kept' GO].
  assert (GMU : multiplier cf refq (f_flow g') tb = FOk 1) by (unfold multiplier; rewrite GF; cbn [tb t_flow]; rewrite Nat.eqb_refl; reflexivity).
  set (mag := nw * ev) in *. set (x' := FF (Real b) (f_flow f) (f_dir f) mag (mag * 1) tb kept' []).
  assert (NODE : trav cf refq (S (S n)) h' sc obs b nw seen q None =
     if eqb mag 0 then FOk ([x'], cv) else match trav_sub (trav cf refq (S n) h' sc obs) (S n) h' b g' x' a seen with FErr e => FErr e | FOk l => FOk (l, cv) end).
  { change (trav cf refq (S (S n)) h' sc obs b nw seen q None) with (trav_node cf refq (trav cf refq (S n) h' sc obs) (S n) h' sc obs b nw seen q None).
    unfold trav_node. rewrite HB'. fold g'. rewrite GP. cbn [andb]. rewrite GE. fold mag. rewrite GM1, GM2. cbn [is_null tb t_node]. rewrite GMU, GO, GB. change (Q2Qc 0) with 0. cbn [orb]. fold tb. rewrite GF, GD. fold x'. cbv zeta. destruct (eqb mag 0); [reflexivity|].
    destruct (Nat.eqb_spec a b) as [AB|AB]; [exfalso; congruence|]. reflexivity. }
  rewrite NODE. clear NODE. rewrite NL, BG in X. cbn [orb] in X. cbv zeta in X. destruct (eqb_spec mag 0) as [MZ|MZ].
  { subst l. eexists. split; [reflexivity|]. split; [|intros fl; unfold cutoffs; cbn; destruct (t_node t) eqn:TT; [contradiction TN; reflexivity|reflexivity|reflexivity]].
    unfold work, x'. cbn. unfold at_work. cbn. rewrite MZ. change (eqb 0 0) with true. cbn. rewrite !andb_false_r. reflexivity. }
  (* the traversal of [a] as a reference *)
  set (fa := with_parent (with_evs f new_evs) None). assert (HA' : h' a = Some fa) by exact (sd_a _ _ _ _ _ _ _ _ _ SD1).
  assert (FAV : exchange_value fa sc obs = FOk 1) by (apply new_value; [reflexivity|reflexivity|exact OR]).
  assert (FAT : termination fa sc = FOk t) by exact TA.
  assert (SEE : see a f seen = seen) by (unfold see; rewrite FP; reflexivity). rewrite SEE in X.
  set (x := FF (Real a) (f_flow f) (f_dir f) mag mag t kept []) in X.
  assert (CAK : exists kept1, conservation cf h' fa 1 None = FOk (None, kept1)).
  { assert (BE : balance_flow h' fa = balance_flow h f) by (apply (balance_agree h h' C C_same f fa C_of_a); reflexivity). unfold conservation. rewrite BE. change (f_isbal fa) with (f_isbal f). rewrite IB. destruct (balance_flow h f) as [[bb|]|e0] eqn:BQ; [|eauto|destruct (BF e0 eq_refl)]. destruct (f_cons fa); eauto. }
  destruct CAK as [kept1 CAK]. set (xa := FF (Real a) (f_flow f) (f_dir f) 1 1 t kept1 []). set (xa0 := FF (Real a) (f_flow f) (f_dir f) 1 1 t kept []).
  apply trav_fg_run in X. assert (XS : x = fscale mag xa0) by (unfold x, xa0; cbn; rewrite !Qcmult_1_l; reflexivity). rewrite XS in X. rewrite (trav_fg_linear cf mag _ _ _ _ _ _ _ _ (trav_linear cf refq mag n h sc obs MZ)) in X.
  destruct (trav_fg cf (trav cf refq n h sc obs) h sc obs a f xa0 seen) as [l0|e0] eqn:T0; [|discriminate]. injection X as <-.
  assert (T1 := T0). apply trav_fg_run in T1. apply (fg_run_within cf h sc obs C) in T1 as (rest & L0 & OWN); [|intros c nw0 s0 q0 b0 l1 cv1 CC0; apply (trav_within cf refq h sc obs C C_child C_own); exact CC0|exact C_of_a].
  assert (TA1 : trav_fg cf (trav cf refq n h' sc obs) h' sc obs a fa xa [a] = FOk (xa :: rest)).
  { assert (Y : trav_fg cf (trav cf refq n h' sc obs) h' sc obs a fa xa0 [a] = FOk l0).
    { rewrite <- T0. symmetry. apply (trav_fg_agree cf h h' sc obs C C_same); try reflexivity; [exact (trav_agree cf refq h h' sc obs C C_child C_same C_parent C_own n)|exact C_of_a|]. intros _. rewrite FP. symmetry. exact FAV. }
    apply trav_fg_run in Y. apply trav_fg_run. destruct Y as (s & S1 & S2 & S3). exists s. split; [exact S1|]. split; [exact S2|]. cbv zeta in S3 |- *. change (ff_nw xa0) with (ff_nw xa) in S3. rewrite L0 in S3.
    destruct (lastof _ None) as [bb|]; [destruct S3 as (lb & cvb & R & S3); exists lb, cvb; split; [exact R|]|]; injection S3 as S3; rewrite S3; reflexivity. }
  assert (TRA : trav cf refq (S n) h' sc obs a 1 [] None None = FOk (xa :: rest, None)).
  { cbn [trav]. apply trav_node_run.
    - intros f2 t2 j2 HA2 TT2 N2. rewrite HA' in HA2. injection HA2 as <-. apply (NS a f t2 j2 HA TT2 N2).
    - exists fa, 1, t, 1, kept1. split; [exact HA'|]. split; [reflexivity|]. split; [exact FAV|]. split; [exact FAT|]. split; [reflexivity|]. split; [exact CAK|]. cbv zeta. rewrite NL. change (f_bg fa) with (f_bg f). rewrite BG. rewrite Qcmult_1_l.
      destruct (eqb_spec 1 0) as [Z|_]; [discriminate|]. cbn [orb]. change (see a fa []) with [a]. apply trav_fg_run in TA1. exact TA1. }
  assert (UI : unit_inventory (trav cf refq (S n) h' sc obs) (S n) h' a = group_ios a (f_flow f) (f_dir f) true (xa :: rest)).
  { unfold unit_inventory. cbn [top]. rewrite HA'. cbn [fa with_parent f_parent]. change (Q2Qc 1) with 1. rewrite TRA. rewrite HA'. reflexivity. }
  assert (OUT : ~ occurs (f_flow f) (cutoffs (xa :: rest))).
  { unfold occurs. rewrite cutoffs_cons. cbn [xa ff_term]. rewrite NL. intros J. apply in_map_iff in J as (y & FY & IY). apply filter_In in IY as [IY NY]. destruct (proj1 (Forall_forall _ _) OWN y IY) as (j & gj & (TJ & NJ & EJ) & HJ & RJ & FJ & TTJ).
    apply (NC j gj (ff_term y) TJ NJ HJ ltac:(congruence) TTJ). destruct (t_node (ff_term y)); [reflexivity|discriminate|discriminate]. }
  destruct (ios_out_spec (xa :: rest)) as (OND & OK & OV).
  assert (GR : group_ios a (f_flow f) (f_dir f) true (xa :: rest) = FOk (cutoff a (f_flow f) (comp (f_dir f)) 1 :: out_flows a (ios_out (xa :: rest)), filter (fun y => negb (is_null (ff_term y))) (xa :: rest))).
  { unfold group_ios. assert (DN : dget (f_flow f) (ios_out (xa :: rest)) = None) by (apply dget_None; intros J; apply OUT, OK, J). rewrite DN. reflexivity. }
  unfold trav_sub. rewrite HA'. change (f_bg fa) with (f_bg f). rewrite BG. unfold do_subfrag. rewrite UI, GR. cbn [x' ff_term tb t_flow t_desc ff_nw]. unfold find_flow, remove_flow. cbn [find cutoff ff_flow ff_mag ff_dir]. rewrite Nat.eqb_refl. change (Q2Qc 0) with 0.
  change (ff_mag (cutoff a (f_flow f) (comp (f_dir f)) 1)) with 1. change (ff_dir (cutoff a (f_flow f) (comp (f_dir f)) 1)) with (comp (f_dir f)). change (Q2Qc 0) with 0.
  assert (Z1 : eqb 1 0 = false) by (destruct (eqb_spec 1 0); [discriminate|reflexivity]). assert (Z2 : eqb (comp (f_dir f)) (f_dir f) = false) by (destruct (f_dir f); reflexivity). rewrite Z1, GD, Z2.
  assert (DV : mag * 1 / 1 = mag) by (field; discriminate). rewrite DV. unfold child_flows. rewrite GC. cbn [fold_right sub_loop]. eexists. split; [reflexivity|].
  (* same results *)
  rewrite L0. apply same_sym. set (inv := out_flows a (ios_out (xa :: rest))). set (R := xa :: rest).
  assert (IE : filter (fun y => negb (is_null (ff_term y))) R = filter (fun y => match t_node (ff_term y) with NNull => false | _ => true end) R) by (apply filter_ext; intros y; unfold is_null; destruct (t_node (ff_term y)); reflexivity). rewrite IE.
  assert (NRB : Forall (fun y => ff_ref y <> Real b) R). { constructor; [cbn; intros [= ->]; congruence|]. eapply Forall_impl; [|exact OWN]. intros y (j & gj & CJ & _ & RJ & _). rewrite RJ. apply C_not, CJ. }
  assert (LX : line (fscale mag xa) = line (fscale mag xa0)) by reflexivity.
  split.
  - rewrite work_app. cbn [map]. assert (W1 : work b (x' :: map (fscale mag) (filter (fun y => match t_node (ff_term y) with NNull => false | _ => true end) R)) = work b (map (fscale mag) (filter (fun y => match t_node (ff_term y) with NNull => false | _ => true end) R))).
    { unfold work. cbn [filter]. unfold at_work at 1. cbn. rewrite Nat.eqb_refl. cbn. rewrite andb_false_r. reflexivity. }
    rewrite W1. rewrite lines_scale by exact NRB. assert (W2 : work b (map (fscale mag) inv) = []).
    { unfold work. assert (Z : forall d, filter (at_work b) (map (fscale mag) (out_flows a d)) = []) by (induction d as [|y d IHd]; [reflexivity|cbn; exact IHd]). unfold inv. rewrite Z. reflexivity. }
    rewrite W2, app_nil_r. unfold R. cbn [map]. rewrite (work_ext b _ _ _ LX). reflexivity.
  - intros fl. rewrite cutoffs_app, net_app, cutoffs_cons. cbn [x' ff_term tb is_null t_node]. 
    assert (C1 : forall l, cutoffs (map (fscale mag) (filter (fun y => match t_node (ff_term y) with NNull => false | _ => true end) l)) = []).
    { intros l1. rewrite cutoffs_scale. unfold cutoffs. induction l1 as [|y l1 IHl]; cbn; [reflexivity|]. destruct (t_node (ff_term y)) eqn:Q; cbn; rewrite ?Q; exact IHl. }
    rewrite C1. assert (C2 : cutoffs (map (fscale mag) inv) = map (fscale mag) inv).
    { rewrite cutoffs_scale. f_equal. assert (Z : forall d, cutoffs (out_flows a d) = out_flows a d) by (induction d as [|y d IHd]; cbn; [reflexivity|f_equal; exact IHd]). apply Z. }
    rewrite C2, net_scale. unfold inv. rewrite net_out_flows by exact OND. cbn [map]. rewrite <- (cut_ext _ _ (map (fscale mag) rest) LX fl). change (fscale mag xa :: map (fscale mag) rest) with (map (fscale mag) R). rewrite cutoffs_scale, net_scale.
    assert (NUM : num (dget fl (ios_out R)) = net fl (cutoffs R)).
    { destruct (dget fl (ios_out R)) as [v|] eqn:DV1; [cbn; apply OV; exact DV1|]. cbn. symmetry. unfold net. apply Qcsum_zero. intros y J. destruct (Nat.eqb_spec (ff_flow y) fl) as [<-|]; [|reflexivity]. exfalso. apply dget_None in DV1. apply DV1, OK. unfold occurs. apply in_map, J. }
    fold R. rewrite NUM. unfold net at 1. unfold Qcsum. cbn. ring.
Qed.

(** any other node *)
Record alike (c : nat) (fc fc' : frag) : Prop := AL {
  al_get : h' c = Some fc';
  al_parent : f_parent fc' = f_parent fc; al_flow : f_flow fc' = f_flow fc; al_dir : f_dir fc' = f_dir fc; al_bg : f_bg fc' = f_bg fc; al_isbal : f_isbal fc' = f_isbal fc;
  al_cons : f_cons fc' = f_cons fc; al_evs : f_evs fc' = f_evs fc; al_terms : f_terms fc' = f_terms fc;
  al_kids : exists K, K = filter (fun x => negb (Nat.eqb a x)) (child_flows fc) /\ K = filter (fun x => negb (Nat.eqb b x)) (child_flows fc') /\
    (child_flows fc = K /\ child_flows fc' = K \/ Permutation (child_flows fc) (a :: K) /\ Permutation (child_flows fc') (b :: K)) }.
Lemma filter_all {A} (P : A -> bool) l : (forall x, In x l -> P x = true) -> filter P l = l.
Proof. induction l as [|x l IH]; intros F; cbn; [reflexivity|]. rewrite (F x (or_introl eq_refl)). f_equal. apply IH. intros y J. apply F. right. exact J. Qed.
Lemma perm_pick (x : nat) l : NoDup l -> In x l -> Permutation l (x :: filter (fun y => negb (Nat.eqb x y)) l).
Proof.
  induction l as [|y l IH]; intros N J; [contradiction|]. inversion N as [|? ? NI N']; subst. cbn. destruct (Nat.eqb_spec x y) as [->|NE]; cbn.
  - rewrite filter_all; [reflexivity|]. intros z Z. destruct (Nat.eqb_spec y z) as [->|]; [contradiction|reflexivity].
  - destruct J as [->|J]; [contradiction|]. rewrite perm_swap. constructor. apply IH; assumption.
Qed.
Lemma alike_of c fc : c <> a -> c <> b -> h c = Some fc -> exists fc', alike c fc fc'.
Proof.
  intros NA NB HC. destruct (Nat.eq_dec c p) as [->|NP].
  - rewrite HP in HC. injection HC as <-. exists (with_children pf1 (set_remove a (f_children pf1))). destruct (fk_fields _ _ _ _ _ _ _ _ _ _ FK1) as (E1 & E2 & E3 & E4 & E5). destruct (fk_cons _ _ _ _ _ _ _ _ _ _ FK1) as [E6 _]. rewrite IB in E6.
    assert (NBI : ~ In b (f_children pf)) by (intros J; exact (CE p pf b HP J HB)).
    assert (CH : f_children pf1 = f_children pf ++ [b]). { rewrite (fk_children _ _ _ _ _ _ _ _ _ _ FK1). unfold set_add. destruct (mem_spec b (f_children pf)) as [J|_]; [contradiction|reflexivity]. }
    assert (NAB : a <> b) by congruence.
    assert (CH' : set_remove a (f_children pf1) = filter (fun x => negb (Nat.eqb a x)) (f_children pf) ++ [b]). { rewrite CH. unfold set_remove. change (@eqb nat _) with Nat.eqb. rewrite filter_app. cbn. destruct (Nat.eqb_spec a b); [contradiction|reflexivity]. }
    split; try (cbn; first [assumption|apply PT]).
    + exact (sd_p _ _ _ _ _ _ _ _ _ SD1).
    + exists (filter (fun x => negb (Nat.eqb a x)) (child_flows pf)). split; [reflexivity|].
      assert (KB : filter (fun x => negb (Nat.eqb a x)) (child_flows pf) = filter (fun x => negb (Nat.eqb b x)) (child_flows (with_children pf1 (set_remove a (f_children pf1))))).
      { unfold child_flows. rewrite !filter_isort. f_equal. cbn [f_children with_children]. rewrite CH', filter_app. cbn. rewrite Nat.eqb_refl. cbn. rewrite app_nil_r. symmetry. apply filter_all. intros x J. apply filter_In in J as [J _]. destruct (Nat.eqb_spec b x) as [<-|]; [contradiction|reflexivity]. }
      split; [exact KB|]. right. split.
      * apply perm_pick; [exact (Permutation_NoDup (Permutation_sym (child_flows_perm pf)) ND)|exact (Permutation_in _ (Permutation_sym (child_flows_perm pf)) INA)].
      * rewrite KB, CH'. assert (PM := child_flows_perm (with_children pf1 (set_remove a (f_children pf1)))). cbn [f_children with_children] in PM. rewrite CH' in PM. apply perm_pick.
        -- apply (Permutation_NoDup (Permutation_sym PM)). apply (Permutation_NoDup (Permutation_cons_append _ b)). constructor; [intros J; apply filter_In in J as [J _]; contradiction|apply NoDup_filter, ND].
        -- apply (Permutation_in _ (Permutation_sym PM)). apply in_or_app. right. left. reflexivity.
  - exists fc. split; try reflexivity.
    + rewrite <- HC. apply (sd_frame _ _ _ _ _ _ _ _ _ SD1); assumption.
    + exists (child_flows fc). assert (XA : forall x, In x (child_flows fc) -> negb (Nat.eqb a x) = true). { intros x J. apply In_child_flows in J. destruct (Nat.eqb_spec a x) as [<-|]; [|reflexivity]. rewrite (SL c fc a f HC J HA) in FP. congruence. }
      assert (XB : forall x, In x (child_flows fc) -> negb (Nat.eqb b x) = true). { intros x J. apply In_child_flows in J. destruct (Nat.eqb_spec b x) as [<-|]; [|reflexivity]. destruct (CE c fc b HC J HB). }
      split; [symmetry; apply filter_all, XA|]. split; [symmetry; apply filter_all, XB|]. left. auto.
Qed.
Lemma alike_value c fc fc' s o : alike c fc fc' -> exchange_value fc' s o = exchange_value fc s o.
Proof. intros A. unfold exchange_value, match_ev, ev_for, cached_ev, observed_ev. rewrite (al_evs _ _ _ A), (al_parent _ _ _ A). reflexivity. Qed.
Lemma alike_term c fc fc' s : alike c fc fc' -> termination fc' s = termination fc s.
Proof. intros A. unfold termination, match_term. rewrite (al_terms _ _ _ A). reflexivity. Qed.
Lemma filter_skip {A} (P Q : A -> bool) l : (forall x, In x l -> P x = true -> Q x = true) -> filter P l = filter P (filter Q l).
Proof.
  induction l as [|x l IH]; intros I; cbn; [reflexivity|]. assert (I' : forall x, In x l -> P x = true -> Q x = true) by (intros y J; apply I; right; exact J). specialize (IH I').
  destruct (Q x) eqn:QX; cbn; destruct (P x) eqn:PX; try (rewrite IH; reflexivity). rewrite (I x (or_introl eq_refl) PX) in QX. discriminate.
Qed.
Lemma alike_filter c fc fc' (P P' : nat -> bool) : alike c fc fc' -> P a = false -> (In b (child_flows fc') -> P' b = false) -> (forall x, In x (child_flows fc) -> x <> a -> x <> b -> P' x = P x) -> h c = Some fc -> filter P' (child_flows fc') = filter P (child_flows fc).
Proof.
  intros A Pa Pb E HC. destruct (al_kids _ _ _ A) as (K & K1 & K2 & _).
  rewrite (filter_skip P (fun x => negb (Nat.eqb a x))) by (intros x _ PX; destruct (Nat.eqb_spec a x) as [<-|]; [congruence|reflexivity]). rewrite <- K1.
  rewrite (filter_skip P' (fun x => negb (Nat.eqb b x))) by (intros x JX PX; destruct (Nat.eqb_spec b x) as [<-|]; [rewrite (Pb JX) in PX; discriminate|reflexivity]). rewrite <- K2.
  apply filter_ext_in. intros x J. rewrite K1 in J. apply filter_In in J as [J NX]. apply E; [exact J| |].
  - intros ->. rewrite Nat.eqb_refl in NX. discriminate.
  - intros ->. apply In_child_flows in J. exact (CE c fc b HC J HB).
Qed.
Lemma isbal_b : match h' b with Some x => f_isbal x | None => false end = false.
Proof. rewrite (sd_b _ _ _ _ _ _ _ _ _ SD1). destruct (fk_g _ _ _ _ _ _ _ _ _ _ FK1) as [e ->]. exact IB. Qed.
Lemma alike_isbal x : x <> a -> x <> b -> match h' x with Some y => f_isbal y | None => false end = match h x with Some y => f_isbal y | None => false end.
Proof.
  intros NA NB. destruct (h x) as [fx|] eqn:HX; [destruct (alike_of x fx NA NB HX) as [fx' A]; rewrite (al_get _ _ _ A); apply (al_isbal _ _ _ A)|].
  rewrite (sd_frame _ _ _ _ _ _ _ _ _ SD1); [rewrite HX; reflexivity|exact NA|exact NB|congruence].
Qed.
Lemma alike_balance c fc fc' : alike c fc fc' -> h c = Some fc -> balance_flow h' fc' = balance_flow h fc.
Proof.
  intros A HC. unfold balance_flow. rewrite (al_cons _ _ _ A). destruct (f_cons fc); [|reflexivity].
  rewrite (alike_filter c fc fc' (fun x => match h x with Some y => f_isbal y | None => false end) (fun x => match h' x with Some y => f_isbal y | None => false end) A); [reflexivity| |intros _; exact isbal_b| |exact HC].
  - rewrite HA. exact IB.
  - intros x _ NA NB. apply alike_isbal; assumption.
Qed.
Lemma alike_conservation c fc fc' ev q : alike c fc fc' -> h c = Some fc -> conservation cf h' fc' ev q = conservation cf h fc ev q.
Proof. intros A HC. unfold conservation. rewrite (alike_balance c fc fc' A HC), (al_isbal _ _ _ A), (al_flow _ _ _ A), (al_dir _ _ _ A), (al_cons _ _ _ A). reflexivity. Qed.
Lemma alike_own c fc fc' : alike c fc fc' -> h c = Some fc -> own_node h' sc c.
Proof. intros A HC f2 t2 j2 H2 T2 N2. rewrite (al_get _ _ _ A) in H2. injection H2 as <-. rewrite (alike_term c fc fc' sc A) in T2. exact (NS c fc t2 j2 HC T2 N2). Qed.
Lemma alike_signal c fc fc' nw seen q bal : alike c fc fc' -> h c = Some fc -> signal_run cf refq h sc obs c nw seen q bal -> signal_run cf refq h' sc obs c nw seen q bal.
Proof.
  intros A HC (f2 & ev & t2 & w & q' & -> & H2 & I2 & P2 & V2 & T2 & W2). rewrite HC in H2. injection H2 as <-. exists fc', ev, t2, w, q'. split; [reflexivity|]. split; [exact (al_get _ _ _ A)|]. split; [rewrite (al_isbal _ _ _ A); exact I2|].
  split; [rewrite (al_parent _ _ _ A); exact P2|]. split; [unfold node_value in *; destruct bal; [exact V2|rewrite (alike_value c fc fc' sc obs A); exact V2]|]. split; [rewrite (alike_term c fc fc' sc A); exact T2|].
  unfold node_weight in *. rewrite (al_parent _ _ _ A), (al_flow _ _ _ A). exact W2.
Qed.
Lemma C_own_any c : own_node h sc c.
Proof. intros fc tc j HC. apply NS. exact HC. Qed.
Lemma a_not_signal n nw seen q : trav cf refq n h sc obs a nw seen q None <> FErr FoundBalanceFlow.
Proof.
  intros E. destruct n as [|n]; [discriminate|]. cbn [trav] in E. apply trav_node_signal in E; [|exact (C_own_any a)|intros f3 c nw0 s0 q0 b0 _ _; apply trav_signal_q, NS].
  destruct E as (f2 & ev & t2 & w & q' & _ & H2 & I2 & _). congruence.
Qed.
Lemma sim n : forall c nw seen q bal, c <> a -> c <> b ->
  (forall l cv, trav cf refq n h sc obs c nw seen q bal = FOk (l, cv) -> exists l', trav cf refq (S n) h' sc obs c nw seen q bal = FOk (l', cv) /\ same_results b l l') /\
  (trav cf refq n h sc obs c nw seen q bal = FErr FoundBalanceFlow -> trav cf refq (S n) h' sc obs c nw seen q bal = FErr FoundBalanceFlow).
Proof.
  induction n as [|n IH]; intros c nw seen q bal NA NB; [split; discriminate|]. split.
  2:{ cbn [trav]. intros E. apply trav_node_signal in E; [|exact (C_own_any c)|intros f3 c0 nw0 s0 q0 b0 _ _; apply trav_signal_q, NS]. apply trav_node_signal_of.
      assert (HC := E). destruct HC as (fc & _ & _ & _ & _ & _ & HC & _). destruct (alike_of c fc NA NB HC) as [fc' A]. exact (alike_signal c fc fc' nw seen q bal A HC E). }
  intros l cv E. cbn [trav] in E. apply trav_node_run in E; [|exact (C_own_any c)]. destruct E as (fc & ev & tc & w & kept & HC & SN & V & TT & W & CO & X). cbv zeta in X.
  destruct (alike_of c fc NA NB HC) as [fc' A]. set (x := FF (Real c) (f_flow fc) (f_dir fc) (nw * ev) w tc kept []) in X.
  assert (Y : exists l', (if is_null tc || f_bg fc || eqb (nw * ev) 0 then l' = [x] else fg_run cf h' sc obs (trav cf refq (S n) h' sc obs) c fc' x (see c fc seen) l') /\ same_results b l l').
  { destruct (is_null tc || f_bg fc || eqb (nw * ev) 0); [exists [x]; split; [reflexivity|subst l; apply same_refl]|].
    set (sn := see c fc seen) in *. set (r := trav cf refq n h sc obs) in *. set (r' := trav cf refq (S n) h' sc obs).
    assert (FI := X). destruct FI as (_ & _ & FI & _).
    assert (CS : forall d, In d (child_flows fc) -> d <> a -> child_sim b r r' (ff_nw x) sn (f_cons fc) d d).
    { intros d D DA. assert (DB : d <> b) by (intros ->; apply In_child_flows in D; exact (CE c fc b HC D HB)). destruct (IH d (ff_nw x) sn (f_cons fc) None DA DB) as [I1 I2]. destruct (FI d D) as [S1|(l1 & cv1 & O1)].
      - left. split; [exact S1|]. unfold sig, out in *. fold r in I2. destruct (r d (ff_nw x) sn (f_cons fc) None) as [|e1] eqn:RD; [discriminate|]. destruct e1; try discriminate. unfold r'. rewrite (I2 eq_refl). reflexivity.
      - right. destruct (I1 l1 cv1 O1) as (l2 & T2 & R2). exists l1, l2, cv1. auto. }
    assert (SG : forall d, In d (child_flows fc) -> d <> a -> d <> b -> sig r' (ff_nw x) sn (f_cons fc) d = sig r (ff_nw x) sn (f_cons fc) d) by (intros d D DA _; symmetry; apply (child_sim_fine _ _ _ _ _ _ _ _ (CS d D DA))).
    assert (SGA : sig r (ff_nw x) sn (f_cons fc) a = false). { unfold sig, out. assert (Z := a_not_signal n (ff_nw x) sn (f_cons fc)). fold r in Z. destruct (r a (ff_nw x) sn (f_cons fc) None) as [|e1]; [reflexivity|]. destruct e1; try reflexivity. contradiction Z. reflexivity. }
    assert (SGB : In b (child_flows fc') -> sig r' (ff_nw x) sn (f_cons fc) b = false).
    { intros JB. destruct (al_kids _ _ _ A) as (K & _ & _ & [[KA KB]|[KA _]]); [rewrite KB, <- KA in JB; apply In_child_flows in JB; destruct (CE c fc b HC JB HB)|].
      assert (AI : In a (child_flows fc)) by (apply (Permutation_in _ (Permutation_sym KA)); left; reflexivity). destruct (FI a AI) as [S1|(l1 & cv1 & O1)]; [congruence|]. destruct (at_split n (ff_nw x) sn (f_cons fc) l1 cv1 O1) as (l2 & T2 & R2).
      unfold sig, out, r'. rewrite T2. reflexivity. }
    destruct (al_kids _ _ _ A) as (K & K1 & K2 & KK).
    assert (KS : forall d, In d K -> In d (child_flows fc) /\ d <> a). { intros d D. rewrite K1 in D. apply filter_In in D as [D N]. split; [exact D|]. intros ->. rewrite Nat.eqb_refl in N. discriminate. }
    assert (F2 : forall L, (forall d, In d L -> In d K) -> Forall2 (child_sim b r r' (ff_nw x) sn (f_cons fc)) L L).
    { induction L as [|d L IHL]; intros I; constructor; [destruct (KS d (I d (or_introl eq_refl))); apply CS; assumption|apply IHL; intros d' D'; apply I; right; exact D']. }
    assert (FILT : filter (sig r' (ff_nw x) sn (f_cons fc)) (child_flows fc') = filter (sig r (ff_nw x) sn (f_cons fc)) (child_flows fc)) by (apply (alike_filter c fc fc' _ _ A SGA SGB SG HC)).
    assert (BBH : forall bb, In bb (child_flows fc) -> sig r (ff_nw x) sn (f_cons fc) bb = true -> (forall s, towards h' bb s = towards h bb s) /\
       forall v lb cvb, r bb (ff_nw x) sn None (Some v) = FOk (lb, cvb) -> exists lb', r' bb (ff_nw x) sn None (Some v) = FOk (lb', cvb) /\ same_results b lb lb').
    { intros bb B1 B2. assert (BA : bb <> a) by congruence. assert (BB : bb <> b) by (intros ->; apply In_child_flows in B1; exact (CE c fc b HC B1 HB)). split; [|intros v lb cvb; apply (IH bb _ _ _ _ BA BB)].
      intros s. unfold towards. destruct (h bb) as [fb|] eqn:HBB; [destruct (alike_of bb fb BA BB HBB) as [fb' A']; rewrite (al_get _ _ _ A'), (al_dir _ _ _ A'); reflexivity|].
      apply In_child_flows in B1. destruct (CE c fc bb HC B1 HBB). }
    destruct KK as [[KA KB]|[KA KB]].
    - apply (fg_run_sim cf h h' sc obs b r r' c fc fc' x sn l K K); [exact (al_cons _ _ _ A)|exact (al_flow _ _ _ A)|exact (al_dir _ _ _ A)|exact (al_parent _ _ _ A)|exact (alike_value c fc fc' sc obs A)|rewrite KA; reflexivity|rewrite KB; reflexivity|apply F2; auto|exact FILT|exact BBH|exact X].
    - apply (fg_run_sim cf h h' sc obs b r r' c fc fc' x sn l (a :: K) (b :: K)); [exact (al_cons _ _ _ A)|exact (al_flow _ _ _ A)|exact (al_dir _ _ _ A)|exact (al_parent _ _ _ A)|exact (alike_value c fc fc' sc obs A)|exact KA|exact KB| |exact FILT|exact BBH|exact X].
      constructor; [|apply F2; auto]. assert (AI : In a (child_flows fc)) by (apply (Permutation_in _ (Permutation_sym KA)); left; reflexivity). destruct (FI a AI) as [S1|(l1 & cv1 & O1)]; [congruence|]. right. destruct (at_split n (ff_nw x) sn (f_cons fc) l1 cv1 O1) as (l2 & T2 & R2). exists l1, l2, cv1. auto. }
  destruct Y as (l' & Y & SM). exists l'. split; [|exact SM]. change (trav cf refq (S (S n)) h' sc obs) with (trav_node cf refq (trav cf refq (S n) h' sc obs) (S n) h' sc obs). apply trav_node_run; [exact (alike_own c fc fc' A HC)|].
  exists fc', ev, tc, w, kept. split; [exact (al_get _ _ _ A)|]. split; [rewrite (al_parent _ _ _ A); exact SN|]. split; [unfold node_value in *; destruct bal; [exact V|rewrite (alike_value c fc fc' sc obs A); exact V]|]. split; [rewrite (alike_term c fc fc' sc A); exact TT|].
  split; [unfold node_weight in *; rewrite (al_parent _ _ _ A), (al_flow _ _ _ A); exact W|]. split; [rewrite (alike_conservation c fc fc' ev q A HC); exact CO|]. cbv zeta. rewrite (al_flow _ _ _ A), (al_dir _ _ _ A), (al_bg _ _ _ A). fold x. unfold see. rewrite (al_parent _ _ _ A). exact Y.
Qed.
End Main.

(** C16-C22, C62-C64: /repo/lcatools/lcia_results.py. *)
From Coq Require Import QArith.Qcabs.
From Verif Require Import Num Base PyStr LciaModel LciaProofs.
Open Scope string_scope.
Open Scope list_scope.
Open Scope Qc_scope.
Open Scope list_scope.

(** * C16 *)
(** Whenever [s1 + s2] returns, its cumulative result is the sum of the two cumulative results. *)
Theorem C16_summary_addition : forall own l1 e1 nw1 u1 l2 e2 nw2 u2 c,
  summ_add own l1 e1 nw1 u1 l2 e2 nw2 u2 = LOk c ->
  cum own c = cum own (Summ l1 e1 nw1 u1) + cum own (Summ l2 e2 nw2 u2) /\ c_entity c = e1.
Proof.
  intros * H. destruct (summ_add_owners _ _ _ _ _ _ _ _ _ _ H) as [-> ->]. apply summ_add_ok in H as ((nw & u & ->) & C & _). auto.
Qed.
Print Assumptions C16_summary_addition.
(** It returns exactly in these cases (two summaries of the same result, nonzero scale): equal weights or equal unit
    scores for two static ones; equal unit scores if one is nested; equal totals and, for two different nested results,
    the same set of visible component entities, or for the same nested result, the same entity. *)
Definition addable (e1 : entity) (nw1 : Qc) (u1 : unit_score) (e2 : entity) (nw2 : Qc) (u2 : unit_score) : Prop :=
  match u1, u2 with
  | Static q1, Static q2 => nw1 = nw2 \/ q1 = q2
  | Static q, Inner r | Inner r, Static q => q = total r
  | Inner r1, Inner r2 => total r1 = total r2 /\
      if Nat.eqb (r_id r1) (r_id r2) then e1 = e2 else forall x, In x (inner_entities r1) <-> In x (inner_entities r2)
  end.
Lemma subset_spec {A} `{EqB A} (l m : list A) : subset l m = true <-> forall x, In x l -> In x m.
Proof. unfold subset. rewrite forallb_forall. split; intros H0 x I; specialize (H0 x I); apply mem_In; exact H0. Qed.
Lemma same_set_spec {A} `{EqB A} (l m : list A) : same_set l m = true <-> forall x, In x l <-> In x m.
Proof.
  unfold same_set. rewrite andb_true_iff, !subset_spec. split.
  - intros [X Y] x. split; auto.
  - intros X. split; intros x; apply X.
Qed.
Theorem C16_addition_returns_iff : forall own e1 nw1 u1 e2 nw2 u2, own <> 0 ->
  (exists c, summ_add own Own e1 nw1 u1 Own e2 nw2 u2 = LOk c) <-> addable e1 nw1 u1 e2 nw2 u2.
Proof.
  intros own e1 nw1 u1 e2 nw2 u2 N. unfold summ_add.
  assert (Z : eqb own 0 = false) by (apply eqb_neq; exact N). rewrite Z.
  destruct u1 as [q1|r1], u2 as [q2|r2]; cbn [addable unit_value].
  - destruct (eqb_spec (nw1 * own) (nw2 * own)) as [E|NE].
    + split; [intros _; left|intros _; eauto]. rewrite <- (div_cancel nw1 own N), <- (div_cancel nw2 own N), E. reflexivity.
    + destruct (eqb_spec q1 q2) as [->|NQ]; [split; eauto|]. split; [intros [c E]; discriminate|]. intros [->|]; tauto.
  - destruct (eqb_spec q1 (total r2)) as [->|NQ]; split; eauto; [intros [c E]; discriminate|tauto].
  - destruct (eqb_spec (total r1) q2) as [->|NQ]; split; eauto; [intros [c E]; discriminate|congruence].
  - destruct (eqb_spec (total r1) (total r2)) as [->|NQ]; [|split; [intros [c E]; discriminate|tauto]].
    destruct (Nat.eqb (r_id r1) (r_id r2)).
    + destruct (eqb_spec e1 e2) as [->|NE]; split; eauto; [intros [c E]; discriminate|tauto].
    + destruct (same_set (inner_entities r1) (inner_entities r2)) eqn:SS.
      * pose proof (proj1 (same_set_spec _ _) SS). split; eauto.
      * split; [intros [c E]; discriminate|]. intros [_ X]. pose proof (proj2 (same_set_spec (inner_entities r1) (inner_entities r2)) X). congruence.
Qed.
Print Assumptions C16_addition_returns_iff.

Definition ex_inner (k : string) (v : Qc) : lres := LRes 7 1 false "q" None [(k, Summ Own (EStr k) 1 (Static v))] [].
Example C16_nonvacuous : exists c, summ_add (Q2Qc 2) Own (EObj 1) (Q2Qc 3) (Inner (ex_inner "a" (Q2Qc 5))) Own (EObj 2) (Q2Qc 4) (Static (Q2Qc 5)) = LOk c
  /\ cum (Q2Qc 2) c = Q2Qc 70.
Proof. eexists. split; [reflexivity|]. apply Qc_is_canon. reflexivity. Qed.

(** * C17 *)
(** The contribution of a submitted call at scale [s]. *)
Definition factor_at (f : factor) (loc : string) : Qc :=
  match dget loc (fc_locs f), dget "GLO" (fc_locs f) with
  | Some v, _ | None, Some v => match v with Some q => q | None => 0 end
  | None, None => 0
  end.
Definition sign_of (x : exchange) (f : factor) : Qc :=
  match fc_dir f with Some d => if Bool.eqb (x_output x) d then 1 else - (1) | None => 1 end.
Definition contribution (s : Qc) (o : lop) : Qc :=
  match o with
  | LAddScore _ x f loc => match x_value x with Some v => s * v * sign_of x f * factor_at f loc | None => 0 end
  | LAddSummary _ _ nw u => s * nw * unit_value u
  | _ => 0
  end.
Definition as_summary (o : lop) : option comp := match o with LAddSummary _ e nw u => Some (Summ Own e nw u) | _ => None end.
(** Histories of one result; [ops] are the calls that returned.  Calls that raise are allowed.  Scales are nonzero. *)
Inductive hist : lres -> list lop -> Prop :=
| hi_new id q scn p sc : sc <> 0 -> hist (new_lres id q scn p sc) []
| hi_ok r ops o r' : hist r ops -> lstep r o = (r', LOk tt) -> (forall s, o = LSetScale s -> s <> 0) -> hist r' (ops ++ [o])
| hi_err r ops o r' e : hist r ops -> lstep r o = (r', LErr e) -> hist r' ops.

Lemma detail_contribution s x f loc : d_result s (new_detail Own x f loc) = contribution s (LAddScore "" x f loc).
Proof.
  unfold d_result, new_detail, contribution, d_value, dirn_adjust, sign_of, factor_at. cbn [d_factor d_exch d_lc d_loc scale_of].
  rewrite fc_get_glo. unfold fc_get. destruct (fc_locs f) as [|p l] eqn:L.
  - cbn. destruct (x_value x); [ring|reflexivity].
  - rewrite <- L in *. clear p l L. destruct (x_value x) as [v|]; [|ring]. destruct (dget loc (fc_locs f)) as [[w|]|]; [ring|ring|].
    destruct (dget "GLO" (fc_locs f)) as [[w|]|]; ring.
Qed.
Definition partition_of (ops : list lop) (r : lres) kept lost : Prop :=
  Permutation ops (kept ++ lost) /\ map as_summary lost = map Some (r_failed r) /\
  forall s, csum s (r_scores r) = Qcsum (map (contribution s) kept).
Lemma hist_inv r ops : hist r ops -> all_own r /\ r_scale r <> 0 /\ exists kept lost, partition_of ops r kept lost.
Proof.
  induction 1 as [id q scn p sc N|r ops o r' H (A & N & kept & lost & P1 & P2 & P3) E NZ|r ops o r' e H (A & N & kept & lost & P1 & P2 & P3) E].
  - split; [constructor|]. split; [exact N|]. exists [], []. split; [constructor|]. split; reflexivity.
  - assert (PK : Permutation (ops ++ [o]) ((kept ++ [o]) ++ lost)).
    { rewrite <- app_assoc. etransitivity; [apply Permutation_app_tail; exact P1|]. rewrite <- app_assoc. apply Permutation_app_head. apply Permutation_app_comm. }
    assert (K : r_failed r' = r_failed r -> (forall s, csum s (r_scores r') = csum s (r_scores r) + contribution s o) -> exists kept lost, partition_of (ops ++ [o]) r' kept lost).
    { intros F C. exists (kept ++ [o]), lost. split; [exact PK|]. split; [rewrite F; exact P2|]. intros s. rewrite C, P3, map_app, Qcsum_app.
      cbn [map]. rewrite Qcsum_cons, Qcsum_nil. ring. }
    destruct o as [k e|k x f loc|k e nw u|s]; cbn [lstep] in E.
    + apply pair_equal_inv in E as [<- _]. destruct (add_component_same r k e) as (S & F & _). split; [apply add_component_own; exact A|].
      split; [rewrite S; exact N|]. apply K; [exact F|]. intros s. rewrite add_component_csum. cbn. ring.
    + pose proof (add_score_spec r k x f loc A) as Sp. rewrite E in Sp. destruct Sp as (A' & S & F & _ & _ & C). split; [exact A'|].
      split; [rewrite S; exact N|]. apply K; [exact F|]. intros s. rewrite C, detail_contribution. reflexivity.
    + pose proof (add_summary_spec r k e nw u A) as Sp. rewrite E in Sp. destruct Sp as (A' & S & _ & _ & C). split; [exact A'|].
      split; [rewrite S; exact N|]. destruct C as [(F & _ & C)|(F & C)].
      * apply K; [exact F|]. intros s. rewrite (C N s), cum_summ. cbn. ring.
      * exists kept, (lost ++ [LAddSummary k e nw u]). split; [rewrite app_assoc; apply Permutation_app_tail; exact P1|]. split.
        -- rewrite !map_app, P2, F, map_app. reflexivity.
        -- intros s. rewrite C. apply P3.
    + apply pair_equal_inv in E as [<- _]. split; [exact A|]. split; [apply NZ; reflexivity|]. apply K; [reflexivity|]. intros s'.
      destruct r; cbn. ring.
  - destruct o as [k e0|k x f loc|k e0 nw u|s]; cbn [lstep] in E; try discriminate.
    + pose proof (add_score_spec r k x f loc A) as Sp. rewrite E in Sp. destruct Sp as (A' & S & F & _ & _ & C). split; [exact A'|].
      split; [rewrite S; exact N|]. exists kept, lost. split; [exact P1|]. split; [rewrite F; exact P2|]. intros s. rewrite C. apply P3.
    + pose proof (add_summary_spec r k e0 nw u A) as Sp. rewrite E in Sp. destruct Sp as (_ & _ & _ & _ & ->). split; [exact A|]. split; [exact N|].
      exists kept, lost. split; [exact P1|]. split; assumption.
Qed.
(** After any history the total, at the current and at every other scale, is the sum of the contributions of all calls
    that returned, except exactly the summaries listed in [failed]. *)
Theorem C17_no_score_lost : forall r ops, hist r ops ->
  exists kept lost, Permutation ops (kept ++ lost) /\ map as_summary lost = map Some (r_failed r) /\
    total r = Qcsum (map (contribution (r_scale r)) kept) /\
    forall s, total (set_scale r s) = Qcsum (map (contribution s) kept).
Proof.
  intros r ops H. destruct (hist_inv r ops H) as (_ & _ & kept & lost & P1 & P2 & P3). exists kept, lost.
  split; [exact P1|]. split; [exact P2|]. split; [rewrite total_csum; apply P3|]. intros s. rewrite total_csum. destruct r. apply P3.
Qed.
Print Assumptions C17_no_score_lost.
Definition ex_factor := Factor "q" (Some true) [("GLO", Some (Q2Qc 3)); ("US", Some (Q2Qc 2))].
Definition ex_lops := [LAddComponent "f" (EFlow "f"); LAddScore "f" (Exch 1 "f" true (Some (Q2Qc 2))) ex_factor "US"; LSetScale (Q2Qc 2);
  LAddSummary "s" (EObj 1) (Q2Qc 1) (Static (Q2Qc 5)); LAddSummary "t" (EObj 1) (Q2Qc 1) (Inner (ex_inner "a" (Q2Qc 1)));
  LAddSummary "t" (EObj 1) (Q2Qc 1) (Static (Q2Qc 5))].
Fixpoint runs (r : lres) (ops : list lop) : option lres :=
  match ops with
  | [] => Some r
  | o :: rest => match o with LSetScale s => if eqb s 0 then None else runs (fst (lstep r o)) rest
                 | _ => match lstep r o with (r', LOk _) => runs r' rest | _ => None end end
  end.
Lemma runs_hist ops : forall r past r', hist r past -> runs r ops = Some r' -> hist r' (past ++ ops).
Proof.
  induction ops as [|o ops IH]; intros r past r' H E; cbn [runs] in E.
  - injection E as <-. rewrite app_nil_r. exact H.
  - rewrite (app_assoc past [o] ops : past ++ o :: ops = _). destruct o as [k e|k x f loc|k e nw u|s].
    4: { destruct (eqb_spec s 0) as [|N]; [discriminate|]. eapply IH; [|exact E]. eapply hi_ok; [exact H|reflexivity|]. intros s' Q. injection Q as <-. exact N. }
    all: destruct (lstep r _) as [r1 [[]|]] eqn:L; [|discriminate]; eapply IH; [|exact E]; eapply hi_ok; [exact H|exact L|discriminate].
Qed.
Example C17_nonvacuous : exists r, hist r ex_lops /\ total r = Q2Qc 20 /\ length (r_failed r) = 1%nat.
Proof.
  eexists. split; [|split].
  - apply (runs_hist ex_lops (new_lres 0 "q" None false 1) []); [constructor; discriminate|]. vm_compute. reflexivity.
  - apply Qc_is_canon. reflexivity.
  - reflexivity.
Qed.
(** The scale must be nonzero when summaries are added: at scale 0 two static summaries of different weights are merged
    as if the weights were equal, and the score is wrong once the scale is set back. *)
Theorem C17_refuted_at_scale_zero : exists ops r,
  fold_left (fun r o => fst (lstep r o)) ops (new_lres 0 "q" None false 1) = r /\
  Forall (fun o => exists k e nw u, o = LAddSummary k e nw u \/ exists s, o = LSetScale s) ops /\
  r_failed r = [] /\ r_scale r = 1 /\ total r <> Qcsum (map (contribution 1) ops).
Proof.
  exists [LSetScale 0; LAddSummary "k" (EStr "k") 1 (Static 1); LAddSummary "k" (EStr "k") (Q2Qc 2) (Static 1); LSetScale 1].
  eexists. split; [reflexivity|]. split; [|split; [reflexivity|split; [reflexivity|]]].
  - repeat constructor; try (exists "k", (EStr "k"), 1, (Static 1); right; eexists; reflexivity); do 4 eexists; left; reflexivity.
  - intros E. apply (f_equal this) in E. vm_compute in E. discriminate.
Qed.
Print Assumptions C17_refuted_at_scale_zero.

(** * C18 *)
Definition aggregate_total_preserved := forall id r k a, aggregate id r k = LOk a -> total a = total r.
(** [aggregate] returns whenever the key function is defined on every component entity; the components are the distinct
    key values in order of first occurrence, each scoring the sum over its components; the total is [scale] times too
    large -- equal exactly for unscaled results. *)
Theorem C18_aggregate_partial : forall id r key, (forall k c, In (k, c) (r_scores r) -> key (c_entity c) <> None) ->
  exists a, aggregate id r (AFun key) = LOk a /\
    total a = r_scale r * total r /\ (r_scale r = 1 -> total a = total r) /\ r_failed a = [] /\
    dkeys (r_scores a) = set_of (map (fun kc => match key (c_entity (snd kc)) with Some s => s | None => "" end) (r_scores r)) /\
    forall s c, dget s (r_scores a) = Some c ->
      cum (r_scale a) c = r_scale r * Qcsum (map (fun kc => cum (r_scale r) (snd kc))
        (filter (fun kc => match key (c_entity (snd kc)) with Some s' => String.eqb s s' | None => false end) (r_scores r))).
Proof.
  intros id r key H. cbn [aggregate].
  destruct (agg_loop_spec key (r_scale r) (r_scores r) (new_lres id (r_quantity r) (r_scenario r) (r_private r) (r_scale r)) ltac:(constructor) H)
    as (a & E & U & S & F & C & K & A). exists a. split; [exact E|].
  assert (T : total a = r_scale r * total r).
  { rewrite !total_csum, C, S. cbn [r_scores new_lres r_scale]. unfold csum at 1. cbn [map]. rewrite Qcsum_nil. ring. }
  split; [exact T|]. split; [intros E1; rewrite T, E1; ring|]. split; [exact F|]. split; [exact K|].
  intros s c D. specialize (A s). unfold at_key in A. rewrite D in A. cbn [r_scores new_lres dget] in A.
  pose proof (Forall_dget _ s _ _ U D) as (e & q & Ec). cbn in Ec. subst c. rewrite !cum_static in *. cbn [scale_of] in *. rewrite S. cbn [r_scale new_lres].
  unfold csum in A. rewrite Qcplus_0_l in A. change (fun kc : string * comp => match key (c_entity (snd kc)) with Some s0 => eqb s s0 | None => false end) with
     (fun kc : string * comp => match key (c_entity (snd kc)) with Some s0 => String.eqb s s0 | None => false end) in A. rewrite <- A. ring.
Qed.
Print Assumptions C18_aggregate_partial.
Theorem C18_aggregate_star_partial : forall id r e, exists a, aggregate id r (AStar e) = LOk a /\
  dkeys (r_scores a) = match e with Some e => e | None => "aggregated result" end :: [] /\
  total a = r_scale r * total r /\ (r_scale r = 1 -> total a = total r).
Proof.
  intros id r e. cbn [aggregate]. eexists. split; [reflexivity|]. split; [reflexivity|].
  assert (T : total (with_scores (new_lres id (r_quantity r) (r_scenario r) (r_private r) (r_scale r))
     (dset match e with Some e => e | None => "aggregated result" end (Summ Own (EStr match e with Some e => e | None => "aggregated result" end) 1 (Static (total r))) [])) = r_scale r * total r).
  { rewrite total_csum. cbn [with_scores new_lres r_scores dset r_scale]. unfold csum. cbn [map snd]. rewrite cum_static. cbn [scale_of]. rewrite Qcsum_cons, Qcsum_nil. ring. }
  split; [exact T|]. intros E1. etransitivity; [exact T|]. rewrite E1. ring.
Qed.
Print Assumptions C18_aggregate_star_partial.
Example C18_nonvacuous : exists a, aggregate 1 (LRes 0 1 false "q" None [("a", Summ Own (EStr "x") 1 (Static (Q2Qc 2))); ("b", Summ Own (EStr "y") (Q2Qc 3) (Static (Q2Qc 2)));
   ("c", Summ Own (EStr "x") 1 (Static (Q2Qc 5)))] []) (AFun (fun e => match e with EStr s => Some s | _ => None end)) = LOk a /\ dkeys (r_scores a) = ["x"; "y"] /\ total a = Q2Qc 13.
Proof. eexists. split; [reflexivity|]. split; [reflexivity|]. apply Qc_is_canon. reflexivity. Qed.
(** The scale is applied twice. *)
Theorem C18_refuted_double_scale : ~ aggregate_total_preserved.
Proof.
  intros H. specialize (H 1%nat (LRes 0 (Q2Qc 2) false "q" None [("a", Summ Own (EStr "x") 1 (Static 1))] []) (AStar None) _ eq_refl).
  apply (f_equal this) in H. vm_compute in H. discriminate.
Qed.
Print Assumptions C18_refuted_double_scale.
(** The documentation says components where the key function fails are grouped together; in fact the call raises. *)
Theorem C18_refuted_failing_key : forall id r key, (exists k c, In (k, c) (r_scores r) /\ key (c_entity c) = None) ->
  aggregate id r (AFun key) = LErr KeyFunctionError.
Proof. intros id r key H. apply agg_loop_raises; [constructor|exact H]. Qed.
Print Assumptions C18_refuted_failing_key.

(** * C19 *)
Theorem C19_flatten_total : forall new r a,
  match flatten new r a with
  | LOk f => total f = a * total r /\ r_scale f = 1 /\ r_failed f = [] /\
             forall k c, In (k, c) (r_scores f) -> match c with Summ _ _ _ (Inner _) => False | _ => True end
  | LErr e => e <> LValueError
  end.
Proof.
  intros new r a. unfold flatten. pose proof (cflat_spec new (Summ Own (EObj 0) a (Inner r)) 1) as H.
  destruct (cflat new 1 (Summ Own (EObj 0) a (Inner r))) as [f|e]; [|exact H]. destruct H as [V T].
  split; [rewrite T, cum_inner; cbn; ring|]. split; [apply V|]. split; [apply V|]. intros k c I.
  pose proof (fo_comps f V) as F. rewrite Forall_forall in F. specialize (F _ I). cbn in F. destruct c as [l e nw [q|r0]|]; auto.
Qed.
Print Assumptions C19_flatten_total.

(** Sufficient condition for [flatten] to return: only detailed scores of the result's own quantity, nested to any depth
    in non-private results. *)
Inductive detailed (q : string) : comp -> Prop :=
| dt_agg l e ds : Forall (fun d => fc_quantity (d_factor d) = q) ds -> detailed q (Agg l e ds)
| dt_inner l e nw r : r_private r = false -> r_quantity r = q -> (forall k c, In (k, c) (r_scores r) -> detailed q c) -> detailed q (Summ l e nw (Inner r)).
Definition agg_q (q : string) (r : lres) : Prop := r_quantity r = q /\ r_private r = false /\
  Forall (fun kc => exists l e ds, snd kc = Agg l e ds /\ Forall (fun d => fc_quantity (d_factor d) = q) ds) (r_scores r).
Lemma agg_q_component q r k e : agg_q q r -> agg_q q (add_component r k e).
Proof.
  intros (Q & P & F). destruct (add_component_same r k e) as (_ & _ & Q' & P'). split; [congruence|]. split; [congruence|].
  rewrite add_component_scores. destruct (din _ _); [exact F|]. apply Forall_dset; [exact F|]. intros k'. exists Own, e, []. auto.
Qed.
Lemma agg_q_score q r k x f loc : agg_q q r -> fc_quantity f = q -> exists r', add_score r k x f loc = (r', LOk tt) /\ agg_q q r'.
Proof.
  intros V Qf. unfold add_score. rewrite Qf. destruct V as (Q & V). rewrite Q, String.eqb_refl. cbn [negb]. cbv zeta.
  set (r1 := if din k (r_scores r) then r else add_component r k (EStr k)).
  assert (V1 : agg_q q r1) by (unfold r1; destruct (din k (r_scores r)); [split; assumption|apply agg_q_component; split; assumption]).
  assert (D : exists c, dget k (r_scores r1) = Some c).
  { unfold r1, din. destruct (dget k (r_scores r)) eqn:D; [rewrite D; eauto|]. rewrite dget_add_component, D, eqb_refl. eauto. }
  destruct D as [c D]. rewrite D. destruct V1 as (Q1 & P1 & F1). pose proof (Forall_dget _ k _ _ F1 D) as (l & e & ds & Ec & Fd). cbn in Ec. subst c.
  eexists. split; [reflexivity|]. destruct r1; cbn in *. split; [exact Q1|]. split; [exact P1|]. apply Forall_dset; [exact F1|].
  intros k'. cbn. do 3 eexists. split; [reflexivity|]. apply Forall_app. split; [exact Fd|]. constructor; [exact Qf|constructor].
Qed.
Lemma agg_q_details q own a key ds : Forall (fun d => fc_quantity (d_factor d) = q) ds -> forall flat, agg_q q flat ->
  exists flat', flat_details own a key ds flat = LOk flat' /\ agg_q q flat'.
Proof.
  induction 1 as [|d ds Qd F IH]; intros flat V; cbn [flat_details]; [eauto|]. cbv zeta.
  match goal with |- context [add_score ?r ?k ?x ?f ?l] => destruct (agg_q_score q r k x f l (agg_q_component _ _ _ _ V) Qd) as (flat2 & -> & V2) end. apply IH. exact V2.
Qed.
Lemma nz_forall (P : detail -> Prop) own ds : Forall P ds -> Forall P (nz_details own ds).
Proof. rewrite !Forall_forall. intros H d I. apply filter_In in I as [I _]. auto. Qed.
Lemma agg_q_second q a sc xs : Forall (fun kc => exists l e ds, snd kc = Agg l e ds /\ Forall (fun d => fc_quantity (d_factor d) = q) ds) xs ->
  forall flat, agg_q q flat -> exists flat', flat_second a sc xs flat = LOk flat' /\ agg_q q flat'.
Proof.
  induction 1 as [|[k c] xs (l & e & ds & Ec & Fd) F IH]; intros flat V; cbn [flat_second]; [eauto|]. cbn in Ec. subst c.
  destruct (agg_q_details q sc a (Some k) _ (nz_forall _ sc ds Fd) flat V) as (flat1 & -> & V1). apply IH. exact V1.
Qed.
Lemma agg_q_recurse q a rs : Forall (agg_q q) rs -> forall flat, agg_q q flat -> exists flat', flat_recurse a rs flat = LOk flat' /\ agg_q q flat'.
Proof.
  induction 1 as [|r rs (Q & P & F) Fr IH]; intros flat V; cbn [flat_recurse]; [eauto|]. rewrite P.
  destruct (agg_q_second q a (r_scale r) (r_scores r) F flat V) as (flat1 & -> & V1). apply IH. exact V1.
Qed.
Lemma agg_q_first q rf sc a xs : (forall k c, In (k, c) xs -> detailed q c /\ match c with Summ _ _ _ (Inner _) => exists r, rf c = LOk r /\ agg_q q r | _ => True end) ->
  forall flat rec, agg_q q flat -> Forall (agg_q q) rec ->
  exists flat' rec', first_loop rf sc a xs flat rec = LOk (flat', rec') /\ agg_q q flat' /\ Forall (agg_q q) rec'.
Proof.
  induction xs as [|[k c] xs IH]; intros H flat rec V R; cbn [first_loop]; [eauto|].
  destruct (H k c ltac:(cbn; auto)) as [D E].
  assert (H' : forall k c, In (k, c) xs -> detailed q c /\ match c with Summ _ _ _ (Inner _) => exists r, rf c = LOk r /\ agg_q q r | _ => True end)
    by (intros k' c' I; apply (H k' c'); cbn; auto).
  destruct D as [l e ds Fd|l e nw r P Q Hr].
  - destruct (agg_q_details q sc a None _ (nz_forall _ sc ds Fd) flat V) as (flat1 & -> & V1). apply IH; assumption.
  - destruct E as (r' & -> & V'). apply IH; [exact H'|exact V|]. apply Forall_app. split; [exact R|]. constructor; [exact V'|constructor].
Qed.
Lemma cflat_returns q new c : forall own, detailed q c -> match c with Summ _ _ _ (Inner _) => exists r, cflat new own c = LOk r /\ agg_q q r | _ => True end.
Proof.
  induction c as [l e nw s|l e ds|l e nw r IH] using comp_ind'; intros own D; [exact I|exact I|].
  inversion D as [|? ? ? ? P Q H]; subst. destruct r as [i sc p q scn xs fl]. cbn [r_private r_quantity r_scores] in *. subst p.
  pose proof (cflat_spec new (Summ l e nw (Inner (LRes i sc false q scn xs fl))) own) as NV.
  rewrite cflat_unfold in *. set (a := nw * scale_of own l) in *.
  destruct (agg_q_first q (cflat new sc) sc a xs ltac:(intros k c I; split; [eauto|]; apply (IH k c I); eauto) (new_lres new q scn false 1) []) as (flat & rec & E & V & R).
  { split; [reflexivity|]. split; [reflexivity|constructor]. } { constructor. }
  rewrite E in *. destruct (agg_q_recurse q a rec R flat V) as (flat2 & E2 & V2). rewrite E2 in *.
  destruct (isclose _ _ _); [eauto|]. congruence.
Qed.
Theorem C19_flatten_returns : forall new r a q, r_quantity r = q -> r_private r = false ->
  (forall k c, In (k, c) (r_scores r) -> detailed q c) -> exists f, flatten new r a = LOk f /\ total f = a * total r.
Proof.
  intros new r a q Q P H. pose proof (C19_flatten_total new r a) as T.
  destruct (cflat_returns q new (Summ Own (EObj 0) a (Inner r)) 1) as (f & E & _); [constructor; auto|].
  unfold flatten in *. rewrite E in *. exists f. tauto.
Qed.
Print Assumptions C19_flatten_returns.
Definition ex_deep : lres :=
  let leaf := LRes 1 1 false "q" None [("f", Agg Own (EFlow "f") [new_detail Own (Exch 1 "f" true (Some (Q2Qc 2))) ex_factor "US"])] [] in
  let mid := LRes 2 (Q2Qc 3) false "q" None [("x", Summ Own (EObj 4) (Q2Qc 5) (Inner leaf)); ("f", Agg Own (EFlow "f") [new_detail Own (Exch 2 "f" false (Some (Q2Qc 1))) ex_factor "DE"])] [] in
  LRes 3 (Q2Qc 2) false "q" None [("m", Summ Own (EObj 5) (Q2Qc 7) (Inner mid)); ("n", Summ Own (EObj 6) 1 (Inner leaf))] [].
Example C19_nonvacuous : (forall k c, In (k, c) (r_scores ex_deep) -> detailed "q" c) /\
  exists f, flatten 9 ex_deep 1 = LOk f /\ total f = total ex_deep /\ dkeys (r_scores f) = ["f"] /\ total ex_deep = Q2Qc 722.
Proof.
  split.
  - assert (L : forall ds, Forall (fun d => fc_quantity (d_factor d) = "q") ds -> detailed "q" (Agg Own (EFlow "f") ds)) by (intros; constructor; assumption).
    cbn. intros k c [E|[E|[]]]; injection E as <- <-; constructor; try reflexivity; cbn.
    + intros k c [E|[E|[]]]; injection E as <- <-; [constructor; try reflexivity; cbn; intros k c [E|[]]; injection E as <- <-|]; apply L; repeat constructor.
    + intros k c [E|[]]; injection E as <- <-; apply L; repeat constructor.
  - eexists. split; [vm_compute; reflexivity|]. split; [apply Qc_is_canon; reflexivity|]. split; [reflexivity|apply Qc_is_canon; reflexivity].
Qed.
(** A nested private result makes [flatten] raise KeyError. *)
Theorem C19_refuted_private_nested : exists r, r_private r = false /\ total r <> 0 /\ flatten 9 r 1 = LErr LKeyError.
Proof.
  exists (LRes 0 1 false "q" None [("m", Summ Own (EObj 5) 1 (Inner (LRes 1 1 true "q" None
            [("f", Agg Own (EFlow "f") [new_detail Own (Exch 1 "f" true (Some (Q2Qc 2))) ex_factor "US"])] [])))] []).
  split; [reflexivity|]. split; [|vm_compute; reflexivity]. intros E. apply (f_equal this) in E. vm_compute in E. discriminate.
Qed.
Print Assumptions C19_refuted_private_nested.

(** * C20 *)
Lemma upd_sum i b l : (i < length l)%nat -> nth i l 0 = 0 -> Qcsum (upd i (fun _ => b) l) = Qcsum l + b.
Proof.
  revert i. induction l as [|x l IH]; intros [|i] L N; cbn [length nth upd] in *; try lia.
  - rewrite !Qcsum_cons, N. ring.
  - rewrite !Qcsum_cons, IH by (auto; lia). ring.
Qed.
Lemma last_star_spec qs : forall i f, match last_star i qs f with
  | Some j => f = Some j \/ (exists n, j = (i + n)%nat /\ nth_error qs n = Some "*")
  | None => f = None /\ ~ In "*" qs end.
Proof.
  induction qs as [|q qs IH]; intros i f; cbn [last_star]; [destruct f; auto|].
  specialize (IH (S i) (if String.eqb q "*" then Some i else f)). destruct (last_star (S i) qs (if String.eqb q "*" then Some i else f)) as [j|].
  - destruct IH as [E|(n & -> & E)].
    + destruct (String.eqb_spec q "*") as [->|N]; [|auto]. injection E as <-. right. exists 0%nat. split; [lia|reflexivity].
    + right. exists (S n). split; [lia|exact E].
  - destruct IH as [E N]. destruct (String.eqb_spec q "*") as [->|Nq]; [discriminate|]. split; [exact E|]. intros [X|X]; auto.
Qed.
Theorem C20_contributions : forall r ar qs res bal, contrib_new r ar qs = (res, bal) ->
  length res = length qs /\ Qcsum res + bal = total r * ar /\ (In "*" qs -> bal = 0) /\
  forall i q, nth_error qs i = Some q -> q <> "*" ->
    nth_error res i = Some (match dget q (r_scores r) with Some c => cum (r_scale r) c * ar | None => 0 end).
Proof.
  intros r ar qs res bal. unfold contrib_new. pose proof (last_star_spec qs 0 None) as L. destruct (last_star 0 qs None) as [j|]; intros E; injection E as <- <-.
  - destruct L as [L|(n & -> & L)]; [discriminate|]. cbn [plus]. rewrite length_upd, map_length. split; [reflexivity|].
    assert (Ln : (n < length qs)%nat) by (apply nth_error_Some; congruence). split; [|split; [reflexivity|]].
    + rewrite upd_sum; [ring|rewrite map_length; exact Ln|]. apply nth_error_nth. rewrite nth_error_map, L. reflexivity.
    + intros i q Eq Nq. assert (Ni : n <> i) by congruence.
      assert (U : forall (l : list Qc) n i f, n <> i -> nth_error (upd n f l) i = nth_error l i).
      { clear. induction l as [|x l IH]; intros [|n] [|i] f N; cbn; auto; congruence. }
      rewrite U by exact Ni. rewrite nth_error_map, Eq. cbn. unfold contrib_one. destruct (String.eqb_spec q "*"); [congruence|reflexivity].
  - destruct L as [_ L]. rewrite map_length. split; [reflexivity|]. split; [ring|]. split; [tauto|].
    intros i q Eq Nq. rewrite nth_error_map, Eq. cbn. unfold contrib_one. destruct (String.eqb_spec q "*"); [congruence|reflexivity].
Qed.
Print Assumptions C20_contributions.
Lemma Qcabs_sum l : Qcabs (Qcsum l) <= Qcsum (map Qcabs l).
Proof.
  induction l as [|x l IH]; cbn [map]; [discriminate|]. rewrite !Qcsum_cons. eapply Qcle_trans; [apply Qcabs_triangle|].
  apply Qcplus_le_compat; [apply Qcle_refl|exact IH].
Qed.
(** [range] bounds the total, which is what auto-ranging relies on. *)
Theorem C20_total_within_range : forall r, Qcabs (total r) <= range r.
Proof. intros r. unfold total, range. eapply Qcle_trans; [apply Qcabs_sum|]. rewrite map_map. apply Qcle_refl. Qed.
Print Assumptions C20_total_within_range.
Example C20_nonvacuous : contrib_new ex_deep (Q2Qc 10) ["m"; "zzz"; "*"] = ([Q2Qc 7140; 0; Q2Qc 80], 0).
Proof. vm_compute. reflexivity. Qed.

(** * C21 *)
Definition weighted_sum (rs : results) (ws : list (string * Qc)) : Qc := Qcsum (map (fun mw => snd mw * total (rs_get rs (fst mw))) ws).
Lemma aw_build_nonempty comps sc out : comps <> [] -> r_scores out = [] -> exists x, aw_build comps sc out = LErr x.
Proof.
  destruct comps as [|[k e] comps]; [congruence|]. intros _ N. cbn [aw_build].
  unfold add_summary. rewrite dget_add_component, N. cbn [dget]. rewrite eqb_refl. eauto.
Qed.
Lemma aw_comps_grow w own xs : forall comps sc comps' sc', aw_comps w own xs comps sc = LOk (comps', sc') ->
  (comps' = [] -> comps = [] /\ xs = []).
Proof.
  induction xs as [|[k c] xs IH]; intros comps sc comps' sc'; cbn [aw_comps].
  - intros E. injection E as <- <-. auto.
  - cbv zeta. destruct (dget k comps) as [e|] eqn:D.
    + destruct (eqb e (c_entity c)); [|discriminate]. intros E N. destruct (IH _ _ _ _ E N) as [-> _]. discriminate.
    + intros E N. destruct (IH _ _ _ _ E N) as [X _]. apply (f_equal dkeys) in X. rewrite dkeys_dset in X. unfold din in X. rewrite D in X.
      destruct comps; discriminate.
Qed.
Lemma aw_methods_grow rs ws : forall comps sc comps' sc', aw_methods rs ws comps sc = LOk (comps', sc') ->
  comps' = [] -> comps = [] /\ forall m w, In (m, w) ws -> r_scores (rs_get rs m) = [].
Proof.
  induction ws as [|[m w] ws IH]; intros comps sc comps' sc'; cbn [aw_methods].
  - intros E. injection E as <- <-. intros ->. split; [reflexivity|]. intros m w [].
  - cbv zeta. destruct (r_private (rs_get rs m)); [discriminate|].
    destruct (aw_comps w (r_scale (rs_get rs m)) (r_scores (rs_get rs m)) comps sc) as [[c1 s1]|] eqn:E1; [|discriminate].
    intros E N. destruct (IH _ _ _ _ E N) as [-> H]. destruct (aw_comps_grow _ _ _ _ _ _ _ E1 eq_refl) as [-> X]. split; [reflexivity|].
    intros m' w' [Q|I]; [injection Q as -> ->; exact X|eauto].
Qed.
(** Weighting any result that has at least one component raises. *)
Theorem C21_refuted_always_raises : forall new rs ws q m w, In (m, w) ws -> r_scores (rs_get rs m) <> [] ->
  exists e, apply_weighting new rs ws q = LErr e.
Proof.
  intros new rs ws q m w I N. unfold apply_weighting. destruct (aw_methods rs ws [] []) as [[comps sc]|e] eqn:E; [|eauto].
  apply aw_build_nonempty; [|reflexivity]. intros Z. destruct (aw_methods_grow _ _ _ _ _ _ E Z) as [_ H]. apply N. eauto.
Qed.
Print Assumptions C21_refuted_always_raises.
(** What is left: when it returns, the total is the weighted sum (of results without components). *)
Theorem C21_weighting_partial : forall new rs ws q r, apply_weighting new rs ws q = LOk r -> total r = weighted_sum rs ws.
Proof.
  intros new rs ws q r E. assert (H : forall m w, In (m, w) ws -> r_scores (rs_get rs m) = []).
  { intros m w I. destruct (r_scores (rs_get rs m)) eqn:D; [reflexivity|].
    destruct (C21_refuted_always_raises new rs ws q m w I) as [x X]; [rewrite D; discriminate|congruence]. }
  unfold weighted_sum. rewrite Qcsum_zero.
  - unfold apply_weighting in E. destruct (aw_methods rs ws [] []) as [[comps sc]|x] eqn:M; [|discriminate]. destruct comps as [|p comps].
    + cbn in E. injection E as <-. reflexivity.
    + destruct (aw_build_nonempty (p :: comps) sc (new_lres new q None false 1)) as [x X]; [discriminate|reflexivity|congruence].
  - intros [m w] I. cbn. rewrite total_csum, (H m w I). unfold csum. cbn. ring.
Qed.
Print Assumptions C21_weighting_partial.
(** The scores collected before the failing step are the right ones: for every component key, the sum over the methods of the
    weight times the scores under that key, and their total is the weighted sum. *)
Definition scores_under (k : string) (r : lres) : Qc := Qcsum (map (fun kc => cum (r_scale r) (snd kc)) (filter (fun kc => String.eqb k (fst kc)) (r_scores r))).
Definition dval (k : string) (sc : dict string Qc) : Qc := match dget k sc with Some s => s | None => 0 end.
Lemma Qcsum_dset k v (sc : dict string Qc) : Qcsum (map snd (dset k v sc)) = Qcsum (map snd sc) + v - dval k sc.
Proof.
  unfold dval. induction sc as [|[k' v'] sc IH]; cbn [dset dget map snd].
  - rewrite Qcsum_cons. change (Qcsum []) with 0. ring.
  - destruct (eqb_spec k k') as [->|N]; cbn [map snd]; rewrite !Qcsum_cons; [ring|]. rewrite IH. ring.
Qed.
Lemma aw_comps_scores w own xs : forall comps sc comps' sc', aw_comps w own xs comps sc = LOk (comps', sc') ->
  (forall k, dval k sc' = dval k sc + w * Qcsum (map (fun kc => cum own (snd kc)) (filter (fun kc => String.eqb k (fst kc)) xs))) /\
  Qcsum (map snd sc') = Qcsum (map snd sc) + w * Qcsum (map (fun kc => cum own (snd kc)) xs).
Proof.
  induction xs as [|[k c] xs IH]; intros comps sc comps' sc'; cbn [aw_comps].
  - intros E. injection E as <- <-. change (Qcsum []) with 0. cbn. change (Qcsum []) with 0. split; [intros k; ring|ring].
  - cbv zeta. set (s1 := dset k _ sc). assert (H : forall cc, aw_comps w own xs cc s1 = LOk (comps', sc') ->
      (forall k0, dval k0 sc' = dval k0 sc + w * Qcsum (map (fun kc => cum own (snd kc)) (filter (fun kc => String.eqb k0 (fst kc)) ((k, c) :: xs)))) /\
      Qcsum (map snd sc') = Qcsum (map snd sc) + w * Qcsum (map (fun kc => cum own (snd kc)) ((k, c) :: xs))).
    { intros cc E. apply IH in E as [E1 E2]. split.
      - intros k0. rewrite E1. unfold dval, s1. rewrite dget_dset. cbn [filter fst]. change (eqb k0 k) with (String.eqb k0 k).
        destruct (String.eqb_spec k0 k) as [->|N]; cbn [map snd]; rewrite ?Qcsum_cons; ring.
      - rewrite E2. unfold s1. rewrite Qcsum_dset. unfold dval. cbn [map snd]. rewrite Qcsum_cons. ring. }
    destruct (dget k comps); [destruct (eqb _ _); [apply H|discriminate]|apply H].
Qed.
Theorem C21_collected_scores : forall rs ws comps sc, aw_methods rs ws [] [] = LOk (comps, sc) ->
  (forall k, dval k sc = Qcsum (map (fun mw => snd mw * scores_under k (rs_get rs (fst mw))) ws)) /\
  Qcsum (map snd sc) = weighted_sum rs ws.
Proof.
  intros rs ws comps sc E. assert (H : forall ws cc s0 comps sc, aw_methods rs ws cc s0 = LOk (comps, sc) ->
    (forall k, dval k sc = dval k s0 + Qcsum (map (fun mw => snd mw * scores_under k (rs_get rs (fst mw))) ws)) /\
    Qcsum (map snd sc) = Qcsum (map snd s0) + weighted_sum rs ws).
  { clear. unfold weighted_sum. induction ws as [|[m w] ws IH]; intros cc s0 comps sc; cbn [aw_methods].
    - intros E. injection E as <- <-. cbn. change (Qcsum []) with 0. split; [intros k; ring|ring].
    - cbv zeta. destruct (r_private (rs_get rs m)); [discriminate|].
      destruct (aw_comps w (r_scale (rs_get rs m)) (r_scores (rs_get rs m)) cc s0) as [[c1 s1]|] eqn:E1; [|discriminate]. intros E.
      apply IH in E as [A B]. apply aw_comps_scores in E1 as [A1 B1]. cbn [map fst snd]. split.
      + intros k. rewrite A, A1, Qcsum_cons. unfold scores_under. ring.
      + rewrite B, B1, Qcsum_cons, total_csum. unfold csum. ring. }
  apply H in E as [A B]. split.
  - intros k. rewrite A. unfold dval at 1. cbn. ring.
  - rewrite B. cbn. change (Qcsum []) with 0. ring.
Qed.
Print Assumptions C21_collected_scores.
Example C21_collected_nonvacuous : match aw_methods [("gwp", ex_deep)] [("gwp", Q2Qc 3)] [] [] with LOk (_, sc) => Qcsum (map snd sc) = Q2Qc 3 * total ex_deep /\ total ex_deep <> 0 | LErr _ => False end.
Proof. vm_compute. split; [reflexivity|discriminate]. Qed.
Example C21_refuted_instance : apply_weighting 1 [("gwp", ex_deep)] [("gwp", 1)] "single" = LErr LTypeError.
Proof. reflexivity. Qed.

(** * C22 *)
Definition add_keeps_operands := forall new a b r a', lres_add new a b = LOk (r, a') -> total r = total a + total b /\ total a' = total a.
Definition no_clash (a b : lres) : Prop := forall k v w, In (k, v) (r_scores b) -> dget k (r_scores a) = Some w ->
  c_entity v <> c_entity w /\ ~ In ("_" ++ k)%string (dkeys (r_scores a)) /\ ~ In ("_" ++ k)%string (dkeys (r_scores b)).
Lemma cum_foreign own c own' : cum own' (foreign own c) = cum own c.
Proof.
  destruct c as [l e nw u|l e ds]; cbn [foreign].
  - rewrite !cum_summ. reflexivity.
  - rewrite !cum_agg, map_map. reflexivity.
Qed.
Lemma cum_reparent own c : own = 1 -> c_own c -> cum 1 (reparent own c) = cum own c.
Proof.
  intros -> O. destruct c as [l e nw u|l e ds]; cbn [reparent].
  - cbn in O. subst l. reflexivity.
  - rewrite !cum_agg, map_map. apply Qcsum_ext. intros d I. reflexivity.
Qed.
Lemma cum_afterwards own c : own = 1 -> c_own c -> cum own (afterwards own c) = cum own c.
Proof.
  intros -> O. destruct c as [l e nw u|l e ds]; cbn [afterwards].
  - cbn in O. subst l. rewrite !cum_summ. reflexivity.
  - reflexivity.
Qed.
Lemma radd_ok (A : list (string * comp)) own xs : forall s pre,
  NoDup (map fst xs) -> (forall k, In k pre -> ~ In k (map fst xs)) ->
  (forall k, In k (dkeys s) -> In k (dkeys A) \/ In k pre \/ exists k0, In k0 pre /\ k = ("_" ++ k0)%string) ->
  (forall k w, dget k A = Some w -> exists w', dget k s = Some w' /\ c_entity w' = c_entity w) ->
  (forall k k0, In k (map fst xs) -> In k0 (pre ++ map fst xs) -> In k0 (dkeys A) -> k <> ("_" ++ k0)%string) ->
  (forall k0, In k0 pre -> In ("_" ++ k0)%string (dkeys s) -> ~ In ("_" ++ k0)%string (dkeys A) -> ~ In ("_" ++ k0)%string pre -> In k0 (dkeys A)) ->
  (forall k v w, In (k, v) xs -> dget k A = Some w ->
     c_entity v <> c_entity w /\ ~ In ("_" ++ k)%string (dkeys A) /\ ~ In ("_" ++ k)%string (pre ++ map fst xs)) ->
  exists s', radd_loop own xs s = LOk s' /\ csum 1 s' = csum 1 s + csum own xs.
Proof.
  induction xs as [|[k v] xs IH]; intros s pre ND Dj KS KA KB KP NC; cbn [radd_loop].
  - exists s. split; [reflexivity|]. unfold csum at 3. cbn. ring.
  - cbn [map] in *. inversion ND as [|? ? Nk ND']; subst.
    assert (Kpre : ~ In k pre) by (intros I; apply (Dj k I); cbn; auto).
    assert (Step : forall s1 k1, s1 = dset k1 (foreign own v) s -> dget k1 s = None ->
        (k1 = k \/ (k1 = ("_" ++ k)%string /\ In k (dkeys A))) -> (k1 = k -> ~ In k (dkeys A)) ->
        exists s', radd_loop own xs s1 = LOk s' /\ csum 1 s' = csum 1 s + csum own ((k, v) :: xs)).
    { intros s1 k1 -> D1 K1 K1A.
      destruct (IH (dset k1 (foreign own v) s) (pre ++ [k])) as (s' & E & C).
      - exact ND'.
      - intros k0 I. apply in_app_iff in I as [I|[<-|[]]]; [|exact Nk]. intros J. apply (Dj k0 I). cbn. auto.
      - intros k0 I. apply In_dkeys_dset in I as [->|I].
        + destruct K1 as [->|[-> _]]; [right; left; apply in_app_iff; cbn; auto|]. right; right. exists k. split; [apply in_app_iff; cbn; auto|reflexivity].
        + destruct (KS k0 I) as [X|[X|(k2 & X & ->)]]; [auto|right; left; apply in_app_iff; auto|]. right; right. exists k2. split; [apply in_app_iff; auto|reflexivity].
      - intros k0 w D. destruct (KA k0 w D) as (w' & D' & E'). exists w'. split; [|exact E']. rewrite dget_dset. destruct (eqb_spec k0 k1) as [->|]; [congruence|exact D'].
      - intros k0 k2 I0 I2. apply KB; [cbn; auto|]. rewrite <- app_assoc in I2. cbn in I2. exact I2.
      - intros k0 I0 Is NA NP. apply In_dkeys_dset in Is. apply in_app_iff in I0 as [I0|[<-|[]]].
        + destruct Is as [Is|Is].
          * destruct K1 as [->|[-> KA']].
            -- exfalso. apply NP. apply in_app_iff. right. cbn. auto.
            -- injection Is as ->. exact KA'.
          * apply KP; auto. intros X. apply NP. apply in_app_iff. auto.
        + destruct Is as [Is|Is].
          * destruct K1 as [K1|[K1 KA']]; [|exact KA']. rewrite K1 in Is. exfalso. apply NP. apply in_app_iff. right. cbn. auto.
          * destruct (KS _ Is) as [X|[X|(k2 & X & Q)]]; [tauto|exfalso; apply NP; apply in_app_iff; auto|]. injection Q as <-. tauto.
      - intros k0 v0 w I0 D0. destruct (NC k0 v0 w ltac:(cbn; auto) D0) as (N1 & N2 & N3). split; [exact N1|]. split; [exact N2|].
        rewrite <- app_assoc. exact N3.
      - exists s'. split; [exact E|]. rewrite C, csum_dset, D1, cum_foreign, csum_cons. ring. }
    destruct (dget k s) as [w|] eqn:D.
    + assert (KinA : In k (dkeys A)).
      { destruct (KS k (dget_Some_key _ _ _ D)) as [X|[X|(k0 & X & Q)]]; [exact X|tauto|].
        destruct (mem_spec k (dkeys A)) as [|NA]; [assumption|]. exfalso.
        apply (KB k k0); [cbn; auto|apply in_app_iff; auto| |exact Q]. apply KP; rewrite <- ?Q; auto. eapply dget_Some_key; exact D. }
      destruct (dget_key_Some _ _ KinA) as [wa Da]. destruct (KA k wa Da) as (w' & D' & E'). rewrite D in D'. injection D' as <-.
      destruct (NC k v wa ltac:(cbn; auto) Da) as (N1 & N2 & N3).
      destruct (eqb_spec (c_entity v) (c_entity w)) as [E|_]; [congruence|]. eapply Step; [reflexivity| |auto|].
      * apply dget_None. intros I. destruct (KS _ I) as [X|[X|(k0 & X & Q)]]; [tauto|apply N3; apply in_app_iff; auto|]. injection Q as <-. tauto.
      * intros Q. exfalso. apply (f_equal String.length) in Q. cbn in Q. lia.
    + eapply Step; [reflexivity|exact D|auto|]. intros _ I. destruct (dget_key_Some _ _ I) as [wa Da]. destruct (KA k wa Da) as (w' & D' & _). congruence.
Qed.
Theorem C22_add_partial : forall new a b, r_quantity a = r_quantity b -> r_scenario a = r_scenario b -> r_scale a = 1 ->
  all_own a -> NoDup (dkeys (r_scores b)) -> no_clash a b ->
  exists r a', lres_add new a b = LOk (r, a') /\ total r = total a + total b /\ total a' = total a.
Proof.
  intros new a b Q S Sc O ND NC. unfold lres_add. rewrite Q, String.eqb_refl. cbn [negb]. rewrite S, eqb_refl. cbn [negb].
  set (s0 := map _ (r_scores a)).
  assert (K0 : dkeys s0 = dkeys (r_scores a)) by (unfold s0, dkeys; rewrite map_map; reflexivity).
  assert (G0 : forall k, dget k s0 = option_map (reparent (r_scale a)) (dget k (r_scores a))).
  { intros k. unfold s0. clear. induction (r_scores a) as [|[k0 c] xs IH]; [reflexivity|]. cbn [map fst snd dget]. destruct (eqb k k0); [reflexivity|exact IH]. }
  destruct (radd_ok (r_scores a) (r_scale b) (r_scores b) s0 []) as (s' & E & C).
  - exact ND.
  - intros k [].
  - intros k I. rewrite K0 in I. auto.
  - intros k w D. exists (reparent (r_scale a) w). rewrite G0, D. split; [reflexivity|]. destruct w; reflexivity.
  - intros k k0 I I0 IA X. subst k. cbn [app] in I0. apply in_map_iff in I0 as [[k1 v1] [<- I1]]. cbn [fst] in *.
    destruct (dget_key_Some _ _ IA) as [w D]. destruct (NC k1 v1 w I1 D) as (_ & _ & N). apply N. exact I.
  - intros k0 [].
  - intros k v w I D. exact (NC k v w I D).
  - rewrite E. eexists. eexists. split; [reflexivity|]. split.
    + rewrite total_csum. cbn [r_scale r_scores]. rewrite C, <- total_csum. f_equal.
      rewrite total_csum. unfold s0, csum. rewrite map_map. apply Qcsum_ext. intros [k c] I. cbn [snd].
      apply cum_reparent; [exact Sc|]. unfold all_own in O. rewrite Forall_forall in O. exact (O _ I).
    + unfold total. destruct a as [i sc p q scn xs fl]. cbn [with_scores r_scale r_scores] in *. rewrite map_map. apply Qcsum_ext. intros [k c] I. cbn [snd].
      apply cum_afterwards; [exact Sc|]. unfold all_own in O. rewrite Forall_forall in O. exact (O _ I).
Qed.
Print Assumptions C22_add_partial.
Definition ex_a := LRes 1 1 false "q" None [("x", Summ Own (EObj 1) (Q2Qc 2) (Static (Q2Qc 3))); ("f", Agg Own (EFlow "f") [new_detail Own (Exch 1 "f" true (Some (Q2Qc 2))) ex_factor "US"])] [].
Definition ex_b := LRes 2 (Q2Qc 5) false "q" None [("x", Summ Own (EObj 2) 1 (Static 1)); ("g", Agg Own (EFlow "g") [new_detail Own (Exch 1 "g" false (Some 1)) ex_factor "US"])] [].
Example C22_nonvacuous : all_own ex_a /\ no_clash ex_a ex_b /\ exists r a', lres_add 3 ex_a ex_b = LOk (r, a') /\ dkeys (r_scores r) = ["x"; "f"; "_x"; "g"] /\ total r = Q2Qc 5.
Proof.
  split; [repeat constructor|]. split.
  - intros k v w [E|[E|[]]]; injection E as <- <-; intros D; vm_compute in D; [|discriminate]. injection D as <-. split; [discriminate|]. cbn.
    split; intros [E|[E|[]]]; discriminate.
  - eexists. eexists. split; [vm_compute; reflexivity|]. split; [reflexivity|apply Qc_is_canon; reflexivity].
Qed.
(** With a scale other than 1, [a + b] changes the total of [a] (and has the wrong total). *)
Theorem C22_refuted_scaled_operand : exists a b r a', lres_add 9 a b = LOk (r, a') /\ total a' <> total a /\ total r <> total a + total b.
Proof.
  exists (LRes 1 (Q2Qc 2) false "q" None [("x", Summ Own (EObj 1) 1 (Static 1))] []), (LRes 2 1 false "q" None [] []).
  eexists. eexists. split; [vm_compute; reflexivity|]. split; intros E; apply (f_equal this) in E; vm_compute in E; discriminate.
Qed.
Print Assumptions C22_refuted_scaled_operand.
(** A component of [b] whose key is '_k' is overwritten when key 'k' clashes. *)
Theorem C22_refuted_lost_component : exists a b r a', r_scale a = 1 /\ r_scale b = 1 /\ lres_add 9 a b = LOk (r, a') /\ total r <> total a + total b.
Proof.
  exists (LRes 1 1 false "q" None [("k", Summ Own (EObj 1) 1 (Static 1))] []), (LRes 2 1 false "q" None [("_k", Summ Own (EObj 2) 1 (Static 1)); ("k", Summ Own (EObj 3) 1 (Static 1))] []).
  eexists. eexists. split; [reflexivity|]. split; [reflexivity|]. split; [vm_compute; reflexivity|]. intros E. apply (f_equal this) in E. vm_compute in E. discriminate.
Qed.
Print Assumptions C22_refuted_lost_component.
(** Results sharing a component (same key, same entity) cannot be added at all. *)
Theorem C22_refuted_shared_component : forall new a b k v w, In (k, w) (r_scores a) -> NoDup (dkeys (r_scores a)) ->
  hd_error (r_scores b) = Some (k, v) -> c_entity v = c_entity w -> exists e, lres_add new a b = LErr e.
Proof.
  intros new a b k v w I ND H E. unfold lres_add. destruct (negb _); [eauto|]. destruct (negb _); [eauto|].
  destruct (r_scores b) as [|[k0 v0] xs]; [discriminate|]. injection H as -> ->. cbn [radd_loop].
  set (s0 := map _ (r_scores a)).
  assert (G0 : forall k, dget k s0 = option_map (reparent (r_scale a)) (dget k (r_scores a))).
  { intros k0. unfold s0. clear. induction (r_scores a) as [|[k1 c] xs IH]; [reflexivity|]. cbn [map fst snd dget]. destruct (eqb k0 k1); [reflexivity|exact IH]. }
  rewrite G0, (In_dget _ _ _ ND I). cbn [option_map].
  assert (X : c_entity (reparent (r_scale a) w) = c_entity w) by (destruct w; reflexivity). rewrite X, E, eqb_refl.
  destruct w as [l e nw u|l e ds]; cbn [reparent]; destruct v; eauto.
Qed.
Print Assumptions C22_refuted_shared_component.

(** * C62 *)
(** No key is a proper prefix of another; in particular keys of one length such as UUIDs. *)
Definition prefix_free (U : string -> Prop) : Prop := forall k k', U k -> U k' -> String.prefix k k' = true -> k = k'.
Lemma prefix_length k : forall k', String.prefix k k' = true -> String.length k' = String.length k -> k = k'.
Proof.
  induction k as [|c k IH]; intros [|c' k']; cbn; try discriminate; auto. destruct (ascii_dec c c') as [->|]; [|discriminate].
  intros P L. injection L as L. f_equal. auto.
Qed.
Lemma uuid_prefix_free n : prefix_free (fun k => String.length k = n).
Proof. intros k k' L L' P. apply prefix_length; congruence. Qed.
Lemma prefix_refl k : String.prefix k k = true.
Proof. induction k as [|c k IH]; cbn; [reflexivity|]. destruct (ascii_dec c c); congruence. Qed.
Lemma find_prefix {V} U (rs : dict string V) k : prefix_free U -> U k -> (forall k', In k' (dkeys rs) -> U k') ->
  find (fun kv => String.prefix k (fst kv)) rs = match dget k rs with Some v => Some (k, v) | None => None end.
Proof.
  intros PF Uk. induction rs as [|[k0 v0] rs IH]; intros H; [reflexivity|]. cbn [find fst dget].
  destruct (eqb_spec k k0) as [->|N]; [rewrite prefix_refl; reflexivity|].
  destruct (String.prefix k k0) eqn:P; [|apply IH; intros k' I; apply H; cbn; auto].
  exfalso. apply N. apply PF; [exact Uk|apply H; cbn; auto|exact P].
Qed.
Lemma dkeys_dset_in {V} k (v : V) (d : dict string V) : In k (dkeys d) -> dkeys (dset k v d) = dkeys d.
Proof. intros I. rewrite dkeys_dset. unfold din. destruct (dget_key_Some _ _ I) as [w ->]. reflexivity. Qed.
Lemma rs_set_scale_spec U f (rs : results) k : prefix_free U -> U k -> (forall k', In k' (dkeys rs) -> U k') ->
  dkeys (rs_set_scale f rs k) = dkeys rs /\
  forall k', dget k' (rs_set_scale f rs k) = if eqb k' k then option_map (fun r => set_scale r f) (dget k' rs) else dget k' rs.
Proof.
  intros PF Uk H. unfold rs_set_scale. rewrite (find_prefix U) by assumption. destruct (dget k rs) as [r|] eqn:D.
  - split; [apply dkeys_dset_in; eapply dget_Some_key; exact D|]. intros k'. rewrite dget_dset. destruct (eqb_spec k' k) as [->|]; [rewrite D; reflexivity|reflexivity].
  - split; [reflexivity|]. intros k'. destruct (eqb_spec k' k) as [->|]; [rewrite D; reflexivity|reflexivity].
Qed.
Lemma rs_scale_spec U f ks : prefix_free U -> (forall k, In k ks -> U k) -> forall rs, (forall k', In k' (dkeys rs) -> U k') ->
  dkeys (fold_left (rs_set_scale f) ks rs) = dkeys rs /\
  forall k', dget k' (fold_left (rs_set_scale f) ks rs) = if mem k' ks then option_map (fun r => set_scale r f) (dget k' rs) else dget k' rs.
Proof.
  intros PF. induction ks as [|k ks IH]; intros Hk rs H; cbn [fold_left mem]; [split; reflexivity|].
  destruct (rs_set_scale_spec U f rs k PF (Hk k ltac:(cbn; auto)) H) as [K1 G1].
  destruct (IH ltac:(intros; apply Hk; cbn; auto) (rs_set_scale f rs k) ltac:(rewrite K1; exact H)) as [K2 G2].
  split; [congruence|]. intros k'. rewrite G2, G1. destruct (eqb k' k); [|reflexivity].
  destruct (dget k' rs) as [r|]; [|destruct (mem k' ks); reflexivity]. cbn. destruct (mem k' ks); [destruct r; reflexivity|reflexivity].
Qed.
Definition rsteps (os : list rop) : rset := fold_left rstep os new_rset.
Definition keys_in (U : string -> Prop) (os : list rop) : Prop := forall k r, In (RSet k r) os -> U k.
(** the last result stored under a key *)
Definition last_set (os : list rop) (k : string) : option lres :=
  fold_left (fun acc o => match o with RSet k' r => if String.eqb k k' then Some r else acc | RScale _ => acc end) os None.
Lemma last_set_snoc os o k : last_set (os ++ [o]) k = match o with RSet k' r => if String.eqb k k' then Some r else last_set os k | RScale _ => last_set os k end.
Proof. unfold last_set. rewrite fold_left_app. reflexivity. Qed.
Lemma rsteps_snoc os o : rsteps (os ++ [o]) = rstep (rsteps os) o.
Proof. unfold rsteps. rewrite fold_left_app. reflexivity. Qed.
Lemma rsteps_keys U os : prefix_free U -> keys_in U os -> forall k, In k (dkeys (snd (rsteps os))) -> U k.
Proof.
  intros PF. induction os as [|o os IH] using rev_ind; intros KI k; [intros []|].
  assert (KI1 : keys_in U os) by (intros k1 r1 I; apply (KI k1 r1); apply in_app_iff; auto). specialize (IH KI1).
  rewrite rsteps_snoc. destruct (rsteps os) as [sc1 rs1]. cbn [snd] in IH. destruct o as [k1 r1|f]; cbn [rstep fst snd].
  - unfold rs_set. intros I. apply In_dkeys_dset in I as [->|I]; [|auto]. apply (KI k1 r1). apply in_app_iff. cbn. auto.
  - destruct (eqb f sc1); cbn [snd]; [apply IH|]. unfold rs_scale. destruct (rs_scale_spec U f (dkeys rs1) PF IH rs1 IH) as [K _]. rewrite K. apply IH.
Qed.
(** For prefix-free keys: every key retrieves the result last stored under it, at the current scale. *)
Theorem C62_lookup_and_scale_partial : forall U os, prefix_free U -> keys_in U os ->
  let '(sc, rs) := rsteps os in
  forall k, U k -> match last_set os k with
                   | Some r => rs_get rs k = set_scale r sc
                   | None => ~ In k (dkeys rs) /\ r_scores (rs_get rs k) = []
                   end.
Proof.
  intros U os PF KI.
  assert (GET : forall k (rs : results), (forall k', In k' (dkeys rs) -> U k') -> U k -> rs_get rs k = match dget k rs with Some r => r | None => new_lres 0 "" None false 1 end).
  { intros k rs' H Uk. unfold rs_get. rewrite (find_prefix U) by assumption. destruct (dget k rs'); reflexivity. }
  assert (P : match rsteps os with (sc, rs) => forall k, U k -> dget k rs = option_map (fun r => set_scale r sc) (last_set os k) end).
  { induction os as [|o os IH] using rev_ind; [intros k _; reflexivity|].
    assert (KI1 : keys_in U os) by (intros k1 r1 I; apply (KI k1 r1); apply in_app_iff; auto). specialize (IH KI1).
    pose proof (rsteps_keys U os PF KI1) as X. rewrite rsteps_snoc. destruct (rsteps os) as [sc rs]. cbn [snd] in X.
    destruct o as [k1 r1|f]; cbn [rstep fst snd].
    - intros k Uk. rewrite last_set_snoc. unfold rs_set. rewrite dget_dset. change (String.eqb k k1) with (eqb k k1). destruct (eqb k k1); [reflexivity|auto].
    - destruct (eqb_spec f sc) as [->|N]; intros k Uk; rewrite last_set_snoc; [auto|]. unfold rs_scale.
      destruct (rs_scale_spec U f (dkeys rs) PF X rs X) as [_ G]. rewrite G, (IH k Uk). destruct (mem_spec k (dkeys rs)) as [I|NI].
      + destruct (last_set os k) as [r|]; [destruct r|]; reflexivity.
      + apply dget_None in NI. rewrite (IH k Uk) in NI. destruct (last_set os k); [discriminate|reflexivity]. }
  pose proof (rsteps_keys U os PF KI) as X. destruct (rsteps os) as [sc rs]. cbn [snd] in X. intros k Uk. specialize (P k Uk). rewrite (GET k rs X Uk).
  destruct (last_set os k) as [r|]; cbn in P; rewrite P; [reflexivity|]. split; [apply dget_None; exact P|reflexivity].
Qed.
Print Assumptions C62_lookup_and_scale_partial.
Example C62_nonvacuous : prefix_free (fun k => String.length k = 2%nat) /\
  let os := [RSet "ab" ex_a; RSet "cd" ex_b; RScale (Q2Qc 4)] in keys_in (fun k => String.length k = 2%nat) os /\ rs_get (snd (rsteps os)) "cd" = set_scale ex_b (Q2Qc 4).
Proof. split; [apply uuid_prefix_free|]. split; [|reflexivity]. intros k r [E|[E|[E|[]]]]; try discriminate E; injection E as <- <-; reflexivity. Qed.
(** A key that is a prefix of an earlier key is unreachable by name and is not rescaled. *)
Theorem C62_refuted_prefix_keys : exists os k r, last_set os k = Some r /\ let '(sc, rs) := rsteps os in
  rs_get rs k <> set_scale r sc /\ exists r', dget k rs = Some r' /\ r_scale r' <> sc.
Proof.
  exists [RSet "gwp100" ex_a; RSet "gwp" ex_b; RScale (Q2Qc 4)], "gwp", ex_b. split; [reflexivity|]. cbn. split; [discriminate|].
  eexists. split; [vm_compute; reflexivity|]. discriminate.
Qed.
Print Assumptions C62_refuted_prefix_keys.

(** * C63 *)
(** the submissions of a traversal for quantity [q]: (fragment, fragment flow, signed node weight, unit result) *)
Definition entries (ffs : list fflow) : list (fflow * (string * lres)) :=
  flat_map (fun f => if ff_null f then [] else map (fun qv => (f, qv)) (ff_scores f)) ffs.
Definition submissions (q : string) (es : list (fflow * (string * lres))) : list (entity * Qc * lres) :=
  flat_map (fun fe => let '(f, (q', v)) := fe in
     if String.eqb q q' then (if eqb (total v * ff_nw f) 0 then [] else [(ff_ent f, if ff_samedir f then - ff_nw f else ff_nw f, v)]) else []) es.
Definition sub_score (x : entity * Qc * lres) : Qc := let '(_, w, v) := x in w * total v.
Definition sub_comp (x : entity * Qc * lres) : comp := let '(e, w, v) := x in Summ Own e w (Inner v).
Definition nested_ok (r : lres) : Prop := r_scale r = 1 /\ Forall (fun kc => exists e nw v, snd kc = Summ Own e nw (Inner v)) (r_scores r).
Lemma nested_add r k e nw v : nested_ok r -> exists r', add_summary r k e nw (Inner v) = (r', LOk tt) /\ nested_ok r' /\
  ((r_failed r' = r_failed r /\ total r' = total r + nw * total v) \/ (r_failed r' = r_failed r ++ [Summ Own e nw (Inner v)] /\ total r' = total r)).
Proof.
  intros [S F]. unfold add_summary. destruct (dget k (r_scores r)) as [c|] eqn:D.
  - pose proof (Forall_dget _ k _ _ F D) as (e1 & nw1 & v1 & Ec). cbn in Ec. subst c.
    destruct (summ_add (r_scale r) Own e1 nw1 (Inner v1) Own e nw (Inner v)) as [c|x] eqn:A.
    + eexists. split; [reflexivity|]. pose proof (summ_add_ok _ _ _ _ _ _ _ _ A) as (_ & C & _).
      assert (Sh : exists nw2, c = Summ Own e1 nw2 (Inner v1)).
      { unfold summ_add in A. cbn [unit_value] in A. destruct (eqb (total v1) (total v)); [|discriminate].
        destruct (eqb (r_scale r) 0); destruct (Nat.eqb (r_id v1) (r_id v)); try destruct (eqb e1 e); try destruct (same_set _ _); try discriminate A; injection A as <-; eauto. }
      destruct Sh as [nw2 ->]. destruct r as [i s p q scn xs fl]. cbn [with_scores r_scale r_scores r_failed] in *. split.
      * split; [exact S|]. apply Forall_dset; [exact F|]. intros k'. cbn. eauto.
      * left. split; [reflexivity|]. unfold with_scores. rewrite (total_csum (LRes _ _ _ _ _ _ _)), (total_csum (LRes i s p q scn xs fl)). cbn [r_scale r_scores r_id r_private r_quantity r_scenario r_failed]. rewrite csum_dset, D, C, (cum_inner s Own e), S. cbn [scale_of]. ring.
    + assert (x = InconsistentSummaries).
      { unfold summ_add in A. cbn [unit_value] in A. destruct (eqb (total v1) (total v)); [|congruence]. rewrite S in A. change (eqb 1 0) with false in A.
        destruct (Nat.eqb (r_id v1) (r_id v)); [destruct (eqb e1 e)|destruct (same_set _ _)]; congruence. }
      subst x. eexists. split; [reflexivity|]. destruct r as [i s p q scn xs fl]. cbn in *. split; [split; assumption|]. right. split; reflexivity.
  - eexists. split; [reflexivity|]. destruct r as [i s p q scn xs fl]. cbn [with_scores r_scale r_scores r_failed] in *. split.
    + split; [exact S|]. apply Forall_dset; [exact F|]. intros k'. cbn. eauto.
    + left. split; [reflexivity|]. unfold with_scores. rewrite (total_csum (LRes _ _ _ _ _ _ _)), (total_csum (LRes i s p q scn xs fl)). cbn [r_scale r_scores r_id r_private r_quantity r_scenario r_failed]. rewrite csum_dset, D, cum_inner, S. cbn [scale_of]. ring.
Qed.
Definition tl_inv (es : list (fflow * (string * lres))) (rs : results) : Prop :=
  forall q, match dget q rs with
            | None => ~ In q (map (fun fe => fst (snd fe)) es)
            | Some r => In q (map (fun fe => fst (snd fe)) es) /\ nested_ok r /\ exists kept lost, Permutation (submissions q es) (kept ++ lost) /\
                        map sub_comp lost = r_failed r /\ total r = Qcsum (map sub_score kept)
            end.
Lemma submissions_app q es es' : submissions q (es ++ es') = submissions q es ++ submissions q es'.
Proof. apply flat_map_app. Qed.
Lemma Perm_snoc_l {A} (l k m : list A) x : Permutation l (k ++ m) -> Permutation (l ++ [x]) ((k ++ [x]) ++ m).
Proof.
  intros P. rewrite <- app_assoc. etransitivity; [apply Permutation_app_tail; exact P|]. rewrite <- app_assoc. apply Permutation_app_head. apply Permutation_app_comm.
Qed.
Lemma tl_scores_inv U f : prefix_free U -> forall sc past rs, (forall q v, In (q, v) sc -> U q) -> (forall q, In q (dkeys rs) -> U q) -> tl_inv past rs ->
  exists rs', tl_scores f sc rs = LOk rs' /\ (forall q, In q (dkeys rs') -> U q) /\ tl_inv (past ++ map (fun qv => (f, qv)) sc) rs'.
Proof.
  intros PF. induction sc as [|[q v] sc IH]; intros past rs Us Ur V.
  - exists rs. cbn. rewrite app_nil_r. auto.
  - cbn [tl_scores map]. cbv zeta. match goal with |- context [tl_scores f sc ?x] => set (rs1 := x) end.
    assert (Uq : U q) by (apply (Us q v); cbn; auto).
    assert (Ur1 : forall q', In q' (dkeys rs1) -> U q').
    { unfold rs1. destruct (din q rs); [exact Ur|]. unfold rs_set. intros q' I. apply In_dkeys_dset in I as [->|I]; auto. }
    assert (D1 : exists r, dget q rs1 = Some r /\ nested_ok r /\ exists kept lost, Permutation (submissions q past) (kept ++ lost) /\
                 map sub_comp lost = r_failed r /\ total r = Qcsum (map sub_score kept)).
    { unfold rs1, din. pose proof (V q) as Vq. destruct (dget q rs) as [r|] eqn:D.
      - exists r. split; [exact D|]. tauto.
      - unfold rs_set. rewrite dget_dset_same. eexists. split; [reflexivity|]. split; [split; [reflexivity|constructor]|]. exists [], [].
        split; [|split; reflexivity]. replace (submissions q past) with (@nil (entity * Qc * lres)); [constructor|].
        clear - Vq. unfold submissions. induction past as [|[f [q' v']] past IH]; [reflexivity|]. cbn in *.
        destruct (String.eqb_spec q q') as [->|]; [tauto|]. cbn. apply IH. tauto. }
    assert (O1 : forall q', q' <> q -> dget q' rs1 = dget q' rs).
    { intros q' N. unfold rs1, rs_set. destruct (din q rs); [reflexivity|]. apply dget_dset_other. exact N. }
    clearbody rs1. destruct D1 as (r & D1 & NO & kept & lost & P1 & P2 & P3).
    replace (past ++ (f, (q, v)) :: map (fun qv => (f, qv)) sc) with ((past ++ [(f, (q, v))]) ++ map (fun qv => (f, qv)) sc) by (rewrite <- app_assoc; reflexivity).
    assert (S1 : forall q', submissions q' [(f, (q, v))] =
       if String.eqb q' q then (if eqb (total v * ff_nw f) 0 then [] else [(ff_ent f, if ff_samedir f then - ff_nw f else ff_nw f, v)]) else [])
      by (intros q'; unfold submissions; cbn [flat_map]; rewrite app_nil_r; reflexivity).
    destruct (eqb (total v * ff_nw f) 0) eqn:Z.
    + apply IH; [intros; eapply Us; cbn; eauto|exact Ur1|]. intros q'. destruct (eqb_spec q' q) as [->|N].
      * rewrite D1. split; [rewrite map_app, in_app_iff; cbn; auto|]. split; [exact NO|]. exists kept, lost. rewrite submissions_app, S1, String.eqb_refl, app_nil_r. auto.
      * rewrite (O1 _ N). specialize (V q'). rewrite map_app, submissions_app, S1. destruct (String.eqb_spec q' q); [congruence|]. rewrite app_nil_r.
        destruct (dget q' rs); rewrite in_app_iff; cbn [map fst snd In]; intuition.
    + rewrite (find_prefix U) by assumption. rewrite D1.
      destruct (nested_add r (ff_frag f) (ff_ent f) (ff_weight f) v NO) as (r' & E & NO' & C). rewrite E.
      assert (W : ff_weight f = if ff_samedir f then - ff_nw f else ff_nw f) by (unfold ff_weight; destruct (ff_samedir f); [ring|reflexivity]).
      apply IH; [intros; eapply Us; cbn; eauto|intros q' I; apply In_dkeys_dset in I as [->|I]; auto|]. intros q'. rewrite dget_dset. destruct (eqb_spec q' q) as [->|N].
      * split; [rewrite map_app, in_app_iff; cbn; auto|]. split; [exact NO'|].
        set (x := (ff_ent f, if ff_samedir f then - ff_nw f else ff_nw f, v)).
        assert (Sx : submissions q (past ++ [(f, (q, v))]) = submissions q past ++ [x]).
        { rewrite submissions_app, S1, String.eqb_refl. reflexivity. }
        rewrite Sx. destruct C as [[F T]|[F T]].
        -- exists (kept ++ [x]), lost. split; [apply Perm_snoc_l; exact P1|]. split; [congruence|]. rewrite T, P3, map_app, Qcsum_app. cbn [map].
           rewrite Qcsum_cons, Qcsum_nil. unfold x, sub_score. rewrite W. ring.
        -- exists kept, (lost ++ [x]). split; [rewrite app_assoc; apply Permutation_app_tail; exact P1|]. split; [|congruence].
           rewrite map_app, P2, F, W. reflexivity.
      * rewrite (O1 _ N). specialize (V q'). rewrite map_app, submissions_app, S1. destruct (String.eqb_spec q' q); [congruence|]. rewrite app_nil_r.
        destruct (dget q' rs); rewrite in_app_iff; cbn [map fst snd In]; intuition.
Qed.
(** A traversal's results: one result per quantity scored by a non-null termination; its total is the sum of signed node
    weight times unit score over the fragment flows, except exactly those recorded in [failed]. *)
Theorem C63_traversal_totals_partial : forall U ffs, prefix_free U -> (forall f q v, In f ffs -> In (q, v) (ff_scores f) -> U q) ->
  exists rs, traversal_to_lcia ffs = LOk rs /\
    forall q, match dget q rs with
              | None => forall f v, In f ffs -> ff_null f = false -> ~ In (q, v) (ff_scores f)
              | Some r => exists kept lost, Permutation (submissions q (entries ffs)) (kept ++ lost) /\ map sub_comp lost = r_failed r /\
                          total r = Qcsum (map sub_score kept)
              end.
Proof.
  intros U ffs PF H. unfold traversal_to_lcia.
  assert (G : forall ffs past rs, (forall f q v, In f ffs -> In (q, v) (ff_scores f) -> U q) -> (forall q, In q (dkeys rs) -> U q) -> tl_inv past rs ->
     exists rs', tl_loop ffs rs = LOk rs' /\ tl_inv (past ++ entries ffs) rs').
  { clear ffs H. induction ffs as [|f ffs IH]; intros past rs H Ur V; cbn [tl_loop entries flat_map].
    - exists rs. rewrite app_nil_r. auto.
    - fold (entries ffs). destruct (ff_null f).
      + cbn [app]. apply IH; [intros; eapply H; cbn; eauto|exact Ur|exact V].
      + destruct (tl_scores_inv U f PF (ff_scores f) past rs) as (rs1 & -> & Ur1 & V1); [intros; eapply H; cbn; eauto|exact Ur|exact V|].
        rewrite app_assoc. apply IH; [intros; eapply H; cbn; eauto|exact Ur1|exact V1]. }
  destruct (G ffs [] [] H) as (rs & E & V); [intros q []|intros q; cbn; tauto|]. exists rs. split; [exact E|]. cbn [app] in V. intros q. specialize (V q).
  destruct (dget q rs) as [r|]; [tauto|]. intros f v If Nf Iq. apply V. apply in_map_iff. exists (f, (q, v)). split; [reflexivity|].
  unfold entries. apply in_flat_map. exists f. split; [exact If|]. rewrite Nf. apply in_map. exact Iq.
Qed.
Print Assumptions C63_traversal_totals_partial.
Example C63_nonvacuous : exists rs, traversal_to_lcia [FF "frag1" (EObj 1) (Q2Qc 2) false false [("gwp", ex_inner "a" (Q2Qc 3))]; FF "frag2" (EObj 2) 1 false true [("gwp", ex_inner "b" 1)]] = LOk rs
  /\ total (rs_get rs "gwp") = Q2Qc 5.
Proof. eexists. split; [vm_compute; reflexivity|apply Qc_is_canon; reflexivity]. Qed.
(** A score can indeed go missing: a fragment that occurs twice in the traversal (for instance inside a subfragment used
    twice) with different magnitudes has two unequal fragment flows carrying the same cached unit score, and the second
    one is not added. *)
Theorem C63_refuted_repeated_fragment : exists ffs rs, traversal_to_lcia ffs = LOk rs /\ Forall (fun f => ff_null f = false) ffs /\
  exists q r, dget q rs = Some r /\ total r <> Qcsum (map sub_score (submissions q (entries ffs))).
Proof.
  exists [FF "frag1" (EObj 1) 1 false false [("gwp", ex_inner "a" 1)]; FF "frag1" (EObj 2) (Q2Qc 2) false false [("gwp", ex_inner "a" 1)]].
  eexists. split; [vm_compute; reflexivity|]. split; [repeat constructor|]. exists "gwp". eexists. split; [reflexivity|].
  intros E. apply (f_equal this) in E. vm_compute in E. discriminate.
Qed.
Print Assumptions C63_refuted_repeated_fragment.

(** * C64 *)
Lemma nul_forallb sc xs : (fix nul (xs : list (string * comp)) : bool := match xs with [] => true | (_, x) :: r => c_null sc x && nul r end) xs
  = forallb (fun kc => c_null sc (snd kc)) xs.
Proof. induction xs as [|[k x] xs IH]; [reflexivity|]. cbn [forallb snd]. rewrite <- IH. reflexivity. Qed.
Lemma c_null_cum c : forall own, c_null own c = true -> cum own c = 0.
Proof.
  induction c as [l e nw q|l e ds|l e nw r IH] using comp_ind'; intros own.
  - cbn [c_null]. rewrite cum_static. destruct (eqb_spec q 0) as [->|]; [intros _; ring|discriminate].
  - cbn [c_null]. rewrite cum_agg. intros H. apply Qcsum_zero. intros d I. rewrite forallb_forall in H. specialize (H d I).
    destruct (eqb_spec (d_result own d) 0); [assumption|discriminate].
  - destruct r as [i sc p q scn xs fl]. cbn [c_null]. rewrite nul_forallb, cum_inner. intros H.
    assert (T : total (LRes i sc p q scn xs fl) = 0).
    { apply Qcsum_zero. intros [k c] I. cbn [r_scale r_scores snd] in *. rewrite forallb_forall in H. apply (IH k c I). exact (H _ I). }
    rewrite T. ring.
Qed.
(** A result that reports itself null has total 0, at any depth of nesting. *)
Theorem C64_null_is_zero : forall r, is_null r = true -> total r = 0.
Proof.
  intros r H. unfold is_null in H. apply Qcsum_zero. intros [k c] I. cbn. apply c_null_cum. rewrite forallb_forall in H. exact (H _ I).
Qed.
Print Assumptions C64_null_is_zero.
Example C64_nonvacuous : is_null (LRes 0 1 false "q" None [("a", Summ Own (EObj 1) (Q2Qc 5) (Inner (ex_inner "z" 0))); ("b", Agg Own (EStr "b") [new_detail Own (Exch 1 "f" true None) ex_factor "US"])] []) = true.
Proof. reflexivity. Qed.

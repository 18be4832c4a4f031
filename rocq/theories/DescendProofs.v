(** Specification and proofs for C98: the [descend] setting of a termination does not change the results of a traversal. *)
From Verif Require Import Num Base PyStr ProcModel FragModel FragProofs.
Open Scope Qc_scope.
Open Scope string_scope.
Open Scope list_scope.
Local Arguments eqb : simpl never.

(** * Specification *)
(** Two terminations that differ at most in [descend]. *)
Definition same_term (t u : term) : Prop := t_node u = t_node t /\ t_flow u = t_flow t /\ t_dir u = t_dir t.
(** Two models that differ at most in the [descend] settings of their terminations. *)
Definition same_frag (f g : frag) : Prop :=
  f_parent g = f_parent f /\ f_children g = f_children f /\ f_flow g = f_flow f /\ f_dir g = f_dir f /\ f_bg g = f_bg f /\
  f_isbal g = f_isbal f /\ f_cons g = f_cons f /\ f_evs g = f_evs f /\
  Forall2 (fun a b => fst b = fst a /\ same_term (snd a) (snd b)) (f_terms f) (f_terms g).
Definition same_but_descend (h1 h2 : heap) : Prop :=
  forall i, match h1 i, h2 i with Some f, Some g => same_frag f g | None, None => True | _, _ => False end.

(** A traversal with the contents of its aggregated nodes in place: what an entry holds, scaled by its node weight. *)
Fixpoint opened (k : Qc) (x : ffl) : list ffl :=
  let '(FF r f d m w t c s) := x in FF r f d (m * k) (w * k) t c [] :: flat_map (opened (k * w)) s.
Definition opened_all (l : list ffl) : list ffl := flat_map (opened 1) l.

(** The entry of a fragment that ends in a subfragment: another fragment, neither of the two a background fragment. *)
Definition ends_in_subfragment (h : heap) (x : ffl) : Prop :=
  exists i f k j g, ff_ref x = Real i /\ h i = Some f /\ f_bg f = false /\ In (k, ff_term x) (f_terms f) /\ t_node (ff_term x) = NFrag j /\ j <> i /\ h j = Some g /\ f_bg g = false.
(** The same fragment, flow, direction, magnitude, node; the same node weight, except at a node that is a subfragment and is
    descended into in one of the two and aggregated in the other. *)
Definition same_entry (h : heap) (x y : ffl) : Prop :=
  ff_ref y = ff_ref x /\ ff_flow y = ff_flow x /\ ff_dir y = ff_dir x /\ ff_mag y = ff_mag x /\ ff_cons y = ff_cons x /\ same_term (ff_term x) (ff_term y) /\
  (ff_nw y = ff_nw x \/ (t_desc (ff_term y) <> t_desc (ff_term x) /\ ends_in_subfragment h x)).

(** * Proofs *)
Lemma ffl_ind2 (P : ffl -> Prop) : (forall r f d m w t c s, Forall P s -> P (FF r f d m w t c s)) -> forall x, P x.
Proof.
  intros H. fix IH 1. intros [r f d m w t c s]. apply H. induction s as [|a s IHs]; [constructor|]. constructor; [apply IH|exact IHs].
Qed.
Lemma opened_scale x : forall a k, opened (a * k) x = map (fscale k) (opened a x).
Proof.
  induction x as [r f d m w t c s IH] using ffl_ind2. intros a k. cbn [opened map fscale]. f_equal; [f_equal; ring|].
  clear - IH. induction IH as [|x s Hx _ IHs]; [reflexivity|]. cbn [flat_map]. rewrite map_app, <- IHs, <- Hx. do 2 f_equal. ring.
Qed.
Lemma opened_fscale k x a : opened a (fscale k x) = opened (a * k) x.
Proof. destruct x as [r f d m w t c s]. cbn [opened fscale]. f_equal; [f_equal; ring|]. replace (a * (w * k)) with (a * k * w) by ring. reflexivity. Qed.
Lemma opened_all_scale k l : opened_all (map (fscale k) l) = map (fscale k) (opened_all l).
Proof. unfold opened_all. induction l as [|x l IH]; [reflexivity|]. cbn [map flat_map]. rewrite map_app, <- IH, opened_fscale, <- opened_scale. reflexivity. Qed.
Lemma opened_at k l : flat_map (opened k) l = map (fscale k) (opened_all l).
Proof. unfold opened_all. induction l as [|x l IH]; [reflexivity|]. cbn [flat_map]. rewrite map_app, <- IH, <- opened_scale. do 2 f_equal. ring. Qed.
Lemma opened_app l m : opened_all (l ++ m) = opened_all l ++ opened_all m.
Proof. apply flat_map_app. Qed.

Lemma null_scale k x : is_null (ff_term (fscale k x)) = is_null (ff_term x).
Proof. destruct x; reflexivity. Qed.
Section T.
Context (cf : nat -> nat -> Qc) (refq : nat -> nat) (h1 h2 : heap).
Notation same_entry := (same_entry h1).
Notation SE := (Forall2 same_entry).
Definition nulls (l : list ffl) := filter (fun x => is_null (ff_term x)) l.
Definition inner (l : list ffl) := filter (fun x => negb (is_null (ff_term x))) l.
Definition RL (l m : list ffl) : Prop := SE (opened_all l) (opened_all m) /\ SE (opened_all (inner l)) (opened_all (inner m)) /\ SE (nulls l) (nulls m).
Definition RR {A} (R : A -> A -> Prop) (x y : fret A) : Prop := match x, y with FOk a, FOk b => R a b | FErr e, FErr e' => e' = e | _, _ => False end.

Lemma same_term_refl t : same_term t t. Proof. repeat split. Qed.
Lemma same_entry_refl x : same_entry x x.
Proof. unfold DescendProofs.same_entry. repeat split. left; reflexivity. Qed.
Lemma SE_refl l : SE l l. Proof. induction l; constructor; auto using same_entry_refl. Qed.
Lemma same_entry_scale k x y : same_entry x y -> same_entry (fscale k x) (fscale k y).
Proof.
  destruct x as [r f d m w t c s], y as [r' f' d' m' w' t' c' s']. unfold DescendProofs.same_entry. cbn. intros (-> & -> & -> & -> & -> & T & W).
  repeat (split; [reflexivity|]). split; [exact T|]. destruct W as [->|W]; [left; reflexivity|right; exact W].
Qed.
Lemma SE_scale k l m : SE l m -> SE (map (fscale k) l) (map (fscale k) m).
Proof. induction 1; constructor; auto using same_entry_scale. Qed.
Lemma RL_app l m l' m' : RL l m -> RL l' m' -> RL (l ++ l') (m ++ m').
Proof.
  intros (A & B & C) (A' & B' & C'). unfold RL, inner, nulls. rewrite !filter_app, !opened_app. auto using Forall2_app.
Qed.
Lemma RL_refl l : RL l l. Proof. repeat split; apply SE_refl. Qed.
Lemma null_same t u : same_term t u -> is_null u = is_null t.
Proof. intros (E & _). unfold is_null. rewrite E. reflexivity. Qed.
Lemma inner_scale k l : inner (map (fscale k) l) = map (fscale k) (inner l).
Proof. unfold inner. induction l as [|x l IH]; [reflexivity|]. cbn. rewrite null_scale, IH. destruct (is_null (ff_term x)); reflexivity. Qed.
Lemma nulls_scale k l : nulls (map (fscale k) l) = map (fscale k) (nulls l).
Proof. unfold nulls. induction l as [|x l IH]; [reflexivity|]. cbn. rewrite null_scale, IH. destruct (is_null (ff_term x)); reflexivity. Qed.
Lemma RL_scale k l m : RL l m -> RL (map (fscale k) l) (map (fscale k) m).
Proof. intros (A & B & C). unfold RL. rewrite !inner_scale, !nulls_scale, !opened_all_scale. auto using SE_scale. Qed.
(** one entry without contents *)
Definition leaf (x : ffl) := ff_subs x = [].
Lemma RL_leaf x y : leaf x -> leaf y -> same_entry x y -> RL [x] [y].
Proof.
  intros LX LY E. assert (O : SE (opened_all [x]) (opened_all [y])).
  { unfold opened_all. cbn [flat_map]. destruct x as [r f d m w t c s], y as [r' f' d' m' w' t' c' s']. unfold leaf in *. cbn in LX, LY. subst s s'. cbn. constructor; [|constructor].
    apply (same_entry_scale 1) in E. exact E. }
  assert (N : is_null (ff_term y) = is_null (ff_term x)) by (apply null_same, E).
  unfold RL, inner, nulls. cbn [filter]. rewrite N. destruct (is_null (ff_term x)); cbn [negb]; auto using SE_refl.
Qed.
Lemma inner_inner l : inner (inner l) = inner l.
Proof. unfold inner. induction l as [|x l IH]; [reflexivity|]. cbn. destruct (is_null (ff_term x)) eqn:E; cbn; [exact IH|]. rewrite E. cbn. rewrite IH. reflexivity. Qed.
Lemma nulls_inner l : nulls (inner l) = [].
Proof. unfold nulls, inner. induction l as [|x l IH]; [reflexivity|]. cbn. destruct (is_null (ff_term x)) eqn:E; cbn; [exact IH|]. rewrite E. exact IH. Qed.
Lemma RL_head x l y m : RL (x :: l) (y :: m) -> ff_mag y = ff_mag x.
Proof.
  intros (A & _). unfold opened_all in A. cbn [flat_map] in A. destruct x as [r f d m0 w t c s], y as [r' f' d' m' w' t' c' s']. cbn in A. inversion A as [|? ? ? ? S _]. 
  destruct S as (_ & _ & _ & M & _). cbn in M. rewrite !Qcmult_1_r in M. exact M.
Qed.
Lemma RL_nil_l m : RL [] m -> m = [].
Proof. intros (A & _). destruct m as [|x m]; [reflexivity|]. cbn in A. destruct x. cbn in A. inversion A. Qed.
Lemma RL_nil_r l : RL l [] -> l = [].
Proof. intros (A & _). destruct l as [|x m]; [reflexivity|]. cbn in A. destruct x. cbn in A. inversion A. Qed.

(** ** Reading the two models *)
Lemma ios_nulls l : ios_out l = fold_left (fun out x => out_add out (ff_flow x) (signed (ff_dir x) (ff_mag x))) (nulls l) [].
Proof.
  unfold ios_out. generalize (@nil (nat * Qc)). induction l as [|x l IH]; intros o; [reflexivity|]. cbn. destruct (is_null (ff_term x)); cbn; apply IH.
Qed.
Lemma ios_same l m : RL l m -> ios_out m = ios_out l.
Proof.
  intros (_ & _ & C). rewrite !ios_nulls. generalize (@nil (nat * Qc)). induction C as [|x y l' m' S _ IH]; intros o; [reflexivity|]. cbn.
  destruct S as (_ & -> & -> & -> & _). apply IH.
Qed.
Lemma group_same p rf rd incl l m : RL l m ->
  RR (fun a b => fst b = fst a /\ snd a = inner (snd a) /\ snd b = inner (snd b) /\ SE (opened_all (snd a)) (opened_all (snd b))) (group_ios p rf rd incl l) (group_ios p rf rd incl m).
Proof.
  intros R. pose proof R as (_ & B & _). pose proof (ios_same l m R) as IO. unfold group_ios. cbv zeta. rewrite IO. fold (inner l) (inner m).
  assert (K : forall a : list ffl, RR (fun a b => fst b = fst a /\ snd a = inner (snd a) /\ snd b = inner (snd b) /\ SE (opened_all (snd a)) (opened_all (snd b))) (FOk (a, inner l)) (FOk (a, inner m))).
  { intros a. cbn. rewrite !inner_inner. auto. }
  destruct incl; [|apply K]. destruct l as [|x l], m as [|y m].
  - cbn. reflexivity.
  - apply RL_nil_l in R. discriminate.
  - apply RL_nil_r in R. discriminate.
  - rewrite (RL_head _ _ _ _ R). destruct (dget rf (ios_out (x :: l))) as [v|]; [|apply K]. destruct (eqb (sign_dir v) rd); [|cbn; reflexivity].
    destruct (Qclt_le_dec (Qcabs v) (ff_mag x)); apply K.
Qed.

Hypothesis SH : same_but_descend h1 h2.

Lemma same_at i f : h1 i = Some f -> exists g, h2 i = Some g /\ same_frag f g.
Proof. intros E. specialize (SH i). rewrite E in SH. destruct (h2 i) as [g|]; [eauto|contradiction]. Qed.
Lemma none_at i : h1 i = None -> h2 i = None.
Proof. intros E. specialize (SH i). rewrite E in SH. destruct (h2 i); [contradiction|reflexivity]. Qed.

Lemma same_ev f g sc obs : same_frag f g -> match_ev g sc = match_ev f sc /\ (forall m, ev_for g m obs = ev_for f m obs) /\ exchange_value g sc obs = exchange_value f sc obs.
Proof.
  intros (P & _ & _ & _ & _ & _ & _ & E & _). assert (A : match_ev g sc = match_ev f sc) by (unfold match_ev; rewrite E; reflexivity).
  assert (B : forall m, ev_for g m obs = ev_for f m obs) by (intros m; unfold ev_for, observed_ev, cached_ev; rewrite E, P; reflexivity).
  split; [exact A|]. split; [exact B|]. unfold exchange_value. rewrite A. destruct (match_ev f sc); [rewrite B|]; reflexivity.
Qed.
Lemma same_din ts us : Forall2 (fun a b : option skey * term => fst b = fst a /\ same_term (snd a) (snd b)) ts us -> forall k, din k us = din k ts.
Proof.
  unfold din. intros F k. induction F as [|[k1 t] [k2 u] ts us [E _] _ IH]; [reflexivity|]. cbn in E. subst k2. cbn. destruct (eqb k k1); auto.
Qed.
Lemma same_dget ts us : Forall2 (fun a b : option skey * term => fst b = fst a /\ same_term (snd a) (snd b)) ts us -> forall k,
  match dget k ts, dget k us with Some t, Some u => same_term t u | None, None => True | _, _ => False end.
Proof.
  intros F k. induction F as [|[k1 t] [k2 u] ts us [E S] _ IH]; [cbn; exact I|]. cbn in E, S. subst k2. cbn. destruct (eqb k k1); auto.
Qed.
Lemma same_match_term f g sc : same_frag f g -> match_term g sc = match_term f sc.
Proof.
  intros (_ & _ & _ & _ & _ & _ & _ & _ & T). unfold match_term. destruct sc as [|k|ks]; [reflexivity| |].
  - rewrite (same_din _ _ T). reflexivity.
  - assert (E : filter (fun k => din (Some k) (f_terms g)) ks = filter (fun k => din (Some k) (f_terms f)) ks).
    { induction ks as [|k ks IH]; [reflexivity|]. cbn. rewrite (same_din _ _ T), IH. reflexivity. }
    rewrite E. reflexivity.
Qed.
Lemma same_children f g : same_frag f g -> child_flows g = child_flows f.
Proof. intros (_ & C & _). unfold child_flows. rewrite C. reflexivity. Qed.
Lemma same_top n i : top n h2 i = top n h1 i.
Proof.
  revert i. induction n as [|n IH]; intros i; [reflexivity|]. cbn. destruct (h1 i) as [f|] eqn:E.
  - destruct (same_at i f E) as (g & -> & P & _). rewrite P. destruct (f_parent f); [apply IH|reflexivity].
  - rewrite (none_at i E). reflexivity.
Qed.
Lemma same_multiplier fl t u : same_term t u -> multiplier cf refq fl u = multiplier cf refq fl t.
Proof. intros (_ & E & _). unfold multiplier. rewrite E. reflexivity. Qed.
Lemma same_isbal c : match h2 c with Some g => f_isbal g | None => false end = match h1 c with Some g => f_isbal g | None => false end.
Proof. destruct (h1 c) as [f|] eqn:E; [destruct (same_at c f E) as (g & -> & S); apply S|rewrite (none_at c E); reflexivity]. Qed.
Lemma same_conservation f g ev q : same_frag f g -> conservation cf h2 g ev q = conservation cf h1 f ev q.
Proof.
  intros S. pose proof S as (_ & C & FL & D & _ & B & K & _). unfold conservation, balance_flow. rewrite B, FL, D, K, (same_children f g S).
  assert (E : filter (fun c => match h2 c with Some g => f_isbal g | None => false end) (child_flows f) = filter (fun c => match h1 c with Some g => f_isbal g | None => false end) (child_flows f)).
  { induction (child_flows f) as [|c cs IH]; [reflexivity|]. cbn. rewrite same_isbal, IH. reflexivity. }
  rewrite E. reflexivity.
Qed.

(** ** The traversal *)
Definition rel_calls (r1 r2 : rect) : Prop := forall i nw seen q bal, RR (fun a b => snd b = snd a /\ RL (fst a) (fst b)) (r1 i nw seen q bal) (r2 i nw seen q bal).

Lemma fg_loop_same r1 r2 nw seen q : rel_calls r1 r2 -> forall cs l m st b, RL l m ->
  RR (fun a b => snd b = snd a /\ RL (fst (fst a)) (fst (fst b)) /\ snd (fst b) = snd (fst a)) (fg_loop r1 nw seen q cs l st b) (fg_loop r2 nw seen q cs m st b).
Proof.
  intros RC. induction cs as [|c cs IH]; intros l m st b R; [cbn; auto|]. cbn [fg_loop]. specialize (RC c nw seen q None).
  destruct (r1 c nw seen q None) as [[l1 cv]|e], (r2 c nw seen q None) as [[l2 cv2]|e2]; cbn in RC; try contradiction.
  - destruct RC as [-> RC]. apply IH. apply RL_app; assumption.
  - subst e2. destruct e; try (cbn; reflexivity). apply IH. exact R.
Qed.
Lemma sub_loop_same r1 r2 dn seen : rel_calls r1 r2 -> forall cs l m inv, RL l m ->
  RR (fun a b => snd b = snd a /\ RL (fst a) (fst b)) (sub_loop r1 h1 dn seen cs l inv) (sub_loop r2 h2 dn seen cs m inv).
Proof.
  intros RC. induction cs as [|c cs IH]; intros l m inv R; [cbn; auto|]. cbn [sub_loop]. destruct (h1 c) as [f|] eqn:E; [|rewrite (none_at c E); cbn; reflexivity].
  destruct (same_at c f E) as (g & -> & S). pose proof S as (_ & _ & FL & D & _). rewrite FL, D. destruct (find_flow (f_flow f) inv) as [x|]; [|apply IH; exact R].
  cbv zeta. specialize (RC c dn seen None (Some (if eqb (ff_dir x) (f_dir f) then Q2Qc 0 + ff_mag x else Q2Qc 0 - ff_mag x))).
  destruct (r1 c dn seen None _) as [[l1 cv]|e], (r2 c dn seen None _) as [[l2 cv2]|e2]; cbn in RC; try contradiction; [|subst; cbn; reflexivity].
  apply IH, RL_app; [exact R|apply RC].
Qed.
Lemma trav_fg_same r1 r2 sc obs i f g x y seen : rel_calls r1 r2 -> same_frag f g -> RL [x] [y] -> ff_nw y = ff_nw x -> same_term (ff_term x) (ff_term y) ->
  RR RL (trav_fg cf r1 h1 sc obs i f x seen) (trav_fg cf r2 h2 sc obs i g y seen).
Proof.
  intros RC S R W (TN & _). pose proof S as (P & C & FL & D & BG & B & K & EV & T). unfold trav_fg, is_fg. rewrite TN, P, K, FL, D, W, (same_children f g S).
  rewrite (proj2 (proj2 (same_ev f g sc obs S))).
  destruct (if match t_node (ff_term x) with NFrag j => Nat.eqb j i | _ => false end then _ else _) as [s0|e]; [|cbn; reflexivity]. cbv zeta.
  set (st := match f_cons f with None => s0 | Some q => _ end). clearbody st.
  pose proof (fg_loop_same r1 r2 (ff_nw x) seen (f_cons f) RC (child_flows f) [x] [y] st None R) as L.
  destruct (fg_loop r1 (ff_nw x) seen (f_cons f) (child_flows f) [x] st None) as [[[l1 s1] b1]|e1], (fg_loop r2 (ff_nw x) seen (f_cons f) (child_flows f) [y] st None) as [[[l2 s2] b2]|e2]; cbn in L; try contradiction; [|subst; cbn; reflexivity].
  destruct L as (-> & L & ->). destruct b1 as [b|]; [|exact L].
  set (z1 := match h1 b with Some g0 => _ | None => _ end). set (z2 := match h2 b with Some g0 => _ | None => _ end).
  assert (Z : z2 = z1). { unfold z1, z2. destruct (h1 b) as [fb|] eqn:E; [destruct (same_at b fb E) as (gb & -> & Sb); destruct Sb as (_ & _ & _ & -> & _)|rewrite (none_at b E)]; reflexivity. }
  rewrite Z. specialize (RC b (ff_nw x) seen None (Some z1)). destruct (r1 b _ seen None _) as [[l3 cv]|e], (r2 b _ seen None _) as [[l4 cv2]|e2]; cbn in RC; try contradiction; [|subst; cbn; reflexivity].
  cbn. apply RL_app; [exact L|apply RC].
Qed.
Lemma unit_inventory_same r1 r2 n j : rel_calls r1 r2 ->
  RR (fun a b => fst b = fst a /\ snd a = inner (snd a) /\ snd b = inner (snd b) /\ SE (opened_all (snd a)) (opened_all (snd b))) (unit_inventory r1 n h1 j) (unit_inventory r2 n h2 j).
Proof.
  intros RC. unfold unit_inventory. rewrite same_top. destruct (top n h1 j) as [tp|e]; [|cbn; reflexivity].
  specialize (RC tp (Q2Qc 1) [] None None). destruct (r1 tp _ [] None None) as [[l1 cv]|e], (r2 tp _ [] None None) as [[l2 cv2]|e2]; cbn in RC; try contradiction; [|subst; cbn; reflexivity].
  destruct (h1 tp) as [f|] eqn:E; [|rewrite (none_at tp E); cbn; reflexivity]. destruct (same_at tp f E) as (g & -> & S). destruct S as (_ & _ & -> & -> & _). apply group_same, RC.
Qed.
Lemma do_subfrag_same r1 r2 n f g x y j : rel_calls r1 r2 -> same_frag f g -> leaf x -> leaf y -> same_entry x y -> ff_nw y = ff_nw x ->
  t_node (ff_term x) = NFrag j -> ends_in_subfragment h1 x ->
  RR (fun a b => RL (fst (fst a)) (fst (fst b)) /\ snd (fst b) = snd (fst a) /\ snd b = snd a) (do_subfrag r1 n h1 f x j) (do_subfrag r2 n h2 g y j).
Proof.
  intros RC S LX LY E W TN ES. unfold do_subfrag. pose proof (unit_inventory_same r1 r2 n j RC) as U.
  destruct (unit_inventory r1 n h1 j) as [[inv int1]|e], (unit_inventory r2 n h2 j) as [[inv2 int2]|e2]; cbn in U; try contradiction; [|subst; cbn; reflexivity].
  destruct U as (-> & I1 & I2 & O). destruct S as (_ & _ & _ & D & _). pose proof E as (ER & EF & ED & EM & EC & (ETN & ETF & ETD) & EW). rewrite ETF, D, W.
  destruct (find_flow (t_flow (ff_term x)) inv) as [m|]; [|cbn; reflexivity]. cbv zeta. destruct (eqb (ff_mag m) (Q2Qc 0)); [cbn; reflexivity|].
  set (dn := ff_nw x / (if eqb (ff_dir m) (f_dir f) then _ else _)). clearbody dn.
  assert (NX : is_null (ff_term x) = false) by (unfold is_null; rewrite TN; reflexivity). assert (NY : is_null (ff_term y) = false) by (unfold is_null; rewrite ETN, TN; reflexivity).
  (* the entry and its scaled contents, in either form *)
  set (sx := if t_desc (ff_term x) then x :: map (fscale dn) int1 else [let '(FF r fl d m _ t c _) := x in FF r fl d m dn t c int1]).
  set (sy := if t_desc (ff_term y) then y :: map (fscale dn) int2 else [let '(FF r fl d m _ t c _) := y in FF r fl d m dn t c int2]).
  assert (G : RL sx sy).
  { assert (OX : forall z zi (TZ : is_null (ff_term z) = false) (LZ : leaf z) (IZ : zi = inner zi), let s := if t_desc (ff_term z) then z :: map (fscale dn) zi else [let '(FF r fl d m _ t c _) := z in FF r fl d m dn t c zi] in
        inner s = s /\ nulls s = [] /\ exists w, (t_desc (ff_term z) = true -> w = ff_nw z) /\ (t_desc (ff_term z) = false -> w = dn) /\
          opened_all s = (let '(FF r fl d m _ t c _) := z in FF r fl d m w t c []) :: map (fscale dn) (opened_all zi)).
    { intros z zi TZ LZ IZ. destruct z as [r fl d m0 w t c s]. unfold leaf in LZ. cbn in LZ. subst s. cbn [ff_term ff_nw] in *. destruct (t_desc t) eqn:DT; cbv zeta; (split; [|split]).
      - unfold inner at 1. cbn [filter ff_term]. rewrite TZ. cbn [negb]. f_equal. fold (inner (map (fscale dn) zi)). rewrite inner_scale, <- IZ. reflexivity.
      - unfold nulls. cbn [filter ff_term]. rewrite TZ. fold (nulls (map (fscale dn) zi)). rewrite nulls_scale, IZ, nulls_inner. reflexivity.
      - exists w. split; [reflexivity|]. split; [discriminate|]. unfold opened_all at 1. cbn [flat_map opened app]. f_equal; [f_equal; ring|]. fold (opened_all (map (fscale dn) zi)). apply opened_all_scale.
      - unfold inner. cbn [filter ff_term]. rewrite TZ. reflexivity.
      - unfold nulls. cbn [filter ff_term]. rewrite TZ. reflexivity.
      - exists dn. split; [discriminate|]. split; [reflexivity|]. unfold opened_all at 1. cbn [flat_map opened app]. rewrite app_nil_r. f_equal; [f_equal; ring|]. rewrite opened_at. f_equal; f_equal; ring. }
    destruct (OX x int1 NX LX I1) as (A1 & A2 & wx & A3 & A4 & A5). destruct (OX y int2 NY LY I2) as (B1 & B2 & wy & B3 & B4 & B5).
    fold sx in A1, A2, A5. fold sy in B1, B2, B5. assert (OO : SE (opened_all sx) (opened_all sy)).
    { rewrite A5, B5. constructor; [|apply SE_scale, O]. destruct x as [r fl d m0 w t c s], y as [r' fl' d' m' w' t' c' s']. cbn in *. subst r' fl' d' m' c'.
      unfold DescendProofs.same_entry. cbn. repeat (split; [reflexivity|]). split; [split; [exact ETN|split; [exact ETF|exact ETD]]|]. destruct (t_desc t') eqn:DY, (t_desc t) eqn:DX.
      - left. rewrite A3, B3 by reflexivity. exact W.
      - right. split; [discriminate|]. exact ES.
      - right. split; [discriminate|]. exact ES.
      - left. rewrite A4, B4 by reflexivity. reflexivity. }
    unfold RL. rewrite A1, B1, A2, B2. auto using Forall2_nil. }
  destruct (t_desc (ff_term x)), (t_desc (ff_term y)); cbn; auto.
Qed.
(** a background fragment gives one entry without contents *)
Definition one_same (a b : list ffl * option Qc) : Prop := exists x y, fst a = [x] /\ fst b = [y] /\ leaf x /\ leaf y /\ same_entry x y /\ ff_nw y = ff_nw x.
Definition bg_same (r1 r2 : rect) : Prop := forall j nw seen q bal f, h1 j = Some f -> f_bg f = true -> RR one_same (r1 j nw seen q bal) (r2 j nw seen q bal).
Lemma trav_sub_same r1 r2 n i f g x y j seen k : rel_calls r1 r2 -> bg_same r1 r2 -> same_frag f g -> leaf x -> leaf y -> same_entry x y -> ff_nw y = ff_nw x ->
  h1 i = Some f -> f_bg f = false -> In (k, ff_term x) (f_terms f) -> ff_ref x = Real i -> t_node (ff_term x) = NFrag j -> j <> i ->
  RR RL (trav_sub r1 n h1 i f x j seen) (trav_sub r2 n h2 i g y j seen).
Proof.
  intros RC BS S LX LY E W HI BI IK RX TN N. unfold trav_sub. destruct (h1 j) as [fj|] eqn:HJ; [|rewrite (none_at j HJ); cbn; reflexivity].
  destruct (same_at j fj HJ) as (gj & HJ2 & SJ). rewrite HJ2. pose proof SJ as (_ & _ & _ & _ & BG & _). rewrite BG. destruct (f_bg fj) eqn:BF.
  - rewrite W. specialize (BS j (ff_nw x) [] None None fj HJ BF).
    destruct (r1 j (ff_nw x) [] None None) as [[l1 cv]|e], (r2 j (ff_nw x) [] None None) as [[l2 cv2]|e2]; cbn in BS; try contradiction; [|subst; cbn; reflexivity].
    destruct BS as (a & b & A & B & La & Lb & SEab & Wab). cbn in A, B. subst l1 l2.
    destruct a as [ra fa da ma wa ta ca sa], b as [rb fb db mb wb tb cb sb]. unfold leaf in La, Lb. cbn in La, Lb, Wab. subst sa sb wb.
    destruct S as (_ & _ & FL & D & _). rewrite FL, D. cbn. apply RL_leaf; [reflexivity|reflexivity|].
    destruct SEab as (Er & Ef & Ed & Em & Ec & Et & _). cbn in *. subst mb cb. unfold DescendProofs.same_entry. cbn. repeat (split; [reflexivity|]). split; [exact Et|left; reflexivity].
  - assert (ES : ends_in_subfragment h1 x) by (exists i, f, k, j, fj; auto 10).
    pose proof (do_subfrag_same r1 r2 n f g x y j RC S LX LY E W TN ES) as DS.
    destruct (do_subfrag r1 n h1 f x j) as [[[l1 inv] dn]|e], (do_subfrag r2 n h2 g y j) as [[[l2 inv2] dn2]|e2]; cbn in DS; try contradiction; [|subst; cbn; reflexivity].
    destruct DS as (DS & -> & ->). rewrite (same_children f g S). pose proof (sub_loop_same r1 r2 dn seen RC (child_flows f) l1 l2 inv DS) as L.
    destruct (sub_loop r1 h1 dn seen (child_flows f) l1 inv) as [[m1 i1]|e], (sub_loop r2 h2 dn seen (child_flows f) l2 inv) as [[m2 i2]|e2]; cbn in L; try contradiction; [|subst; cbn; reflexivity].
    destruct L as [-> L]. cbn. apply RL_app; [exact L|apply RL_refl].
Qed.
Lemma trav_node_same r1 r2 n sc obs i nw seen q bal : rel_calls r1 r2 -> bg_same r1 r2 ->
  let a := trav_node cf refq r1 n h1 sc obs i nw seen q bal in let b := trav_node cf refq r2 n h2 sc obs i nw seen q bal in
  RR (fun a b => snd b = snd a /\ RL (fst a) (fst b)) a b /\ (forall f, h1 i = Some f -> f_bg f = true -> RR one_same a b).
Proof.
  intros RC BS. cbv zeta. unfold trav_node. destruct (h1 i) as [f|] eqn:HI; [|rewrite (none_at i HI); cbn; split; [reflexivity|discriminate]].
  destruct (same_at i f HI) as (g & -> & S). pose proof S as (P & _ & FL & D & BG & _ & _ & _ & T). destruct (same_ev f g sc obs S) as (EV1 & EV2 & _).
  rewrite P, EV1, FL, D, BG, (same_match_term f g sc S). cbv zeta.
  destruct (_ && mem i seen); [cbn; split; [reflexivity|reflexivity]|].
  set (seen' := if match f_parent f with None => true | Some _ => false end then i :: seen else seen). clearbody seen'.
  assert (EVE : match bal with Some b => FOk b | None => match match_ev f sc with FErr e => FErr e | FOk m => FOk (ev_for g m obs) end end
              = match bal with Some b => FOk b | None => match match_ev f sc with FErr e => FErr e | FOk m => FOk (ev_for f m obs) end end).
  { destruct bal; [reflexivity|]. destruct (match_ev f sc); [rewrite EV2|]; reflexivity. }
  rewrite EVE. clear EVE. destruct (match bal with Some b => FOk b | None => _ end) as [ev|e]; [|cbn; split; [reflexivity|reflexivity]].
  destruct (match_term f sc) as [m|e]; [|cbn; split; reflexivity]. pose proof (same_dget _ _ T m) as DT.
  destruct (dget m (f_terms f)) as [t|] eqn:GT, (dget m (f_terms g)) as [u|]; try contradiction; [|cbn; split; reflexivity].
  rewrite (null_same t u DT), (same_multiplier (f_flow f) t u DT).
  destruct (if match f_parent f with None => true | Some _ => false end then _ else _) as [w|e]; [|cbn; split; reflexivity].
  rewrite (same_conservation f g ev q S). destruct (conservation cf h1 f ev q) as [[cv kept]|e]; [|cbn; split; reflexivity].
  set (x := FF (Real i) (f_flow f) (f_dir f) (nw * ev) w t kept []). set (y := FF (Real i) (f_flow f) (f_dir f) (nw * ev) w u kept []).
  assert (E : same_entry x y). { unfold DescendProofs.same_entry. cbn. repeat (split; [reflexivity|]). split; [exact DT|left; reflexivity]. }
  assert (R : RL [x] [y]) by (apply RL_leaf; [reflexivity|reflexivity|exact E]).
  destruct (is_null t || f_bg f || eqb (nw * ev) (Q2Qc 0)) eqn:Z.
  { cbn. split; [split; [reflexivity|exact R]|]. intros f' _ _. exists x, y. do 4 (split; [reflexivity|]). split; [exact E|reflexivity]. }
  split.
  2:{ intros f' [= <-] B. rewrite B, orb_true_r in Z. discriminate. }
  assert (TF : RR (fun a b => snd b = snd a /\ RL (fst a) (fst b)) (match trav_fg cf r1 h1 sc obs i f x seen' with FErr e => FErr e | FOk l => FOk (l, cv) end)
                 (match trav_fg cf r2 h2 sc obs i g y seen' with FErr e => FErr e | FOk l => FOk (l, cv) end)).
  { pose proof (trav_fg_same r1 r2 sc obs i f g x y seen' RC S R eq_refl DT) as F.
    destruct (trav_fg cf r1 h1 sc obs i f x seen'), (trav_fg cf r2 h2 sc obs i g y seen'); cbn in F |- *; auto. }
  pose proof DT as (TN & _). rewrite TN. destruct (t_node t) as [|p|j] eqn:TT; [cbn; auto|exact TF|].
  destruct (Nat.eqb_spec j i) as [->|N]; [exact TF|].
  apply orb_false_iff in Z as [Z _]. apply orb_false_iff in Z as [_ Z].
  pose proof (trav_sub_same r1 r2 n i f g x y j seen' m RC BS S eq_refl eq_refl E eq_refl HI Z (dget_In _ _ _ GT) eq_refl TT N) as F.
  destruct (trav_sub r1 n h1 i f x j seen'), (trav_sub r2 n h2 i g y j seen'); cbn in F |- *; auto.
Qed.
Lemma trav_same n sc obs : rel_calls (trav cf refq n h1 sc obs) (trav cf refq n h2 sc obs) /\ bg_same (trav cf refq n h1 sc obs) (trav cf refq n h2 sc obs).
Proof.
  induction n as [|n [IH1 IH2]]; [split; [intros i nw seen q bal|intros i nw seen q bal f _ _]; reflexivity|]. split.
  - intros i nw seen q bal. apply (trav_node_same _ _ n sc obs i nw seen q bal IH1 IH2).
  - intros i nw seen q bal f. apply (trav_node_same _ _ n sc obs i nw seen q bal IH1 IH2).
Qed.
Lemma traverse_same n sc obs i : RR RL (traverse cf refq n h1 sc obs i) (traverse cf refq n h2 sc obs i).
Proof.
  unfold traverse. pose proof (proj1 (trav_same n (as_set sc) obs) i (Q2Qc 1) [] None None) as R.
  destruct (trav cf refq n h1 _ _ _ _ _ _ _) as [[l c]|e], (trav cf refq n h2 _ _ _ _ _ _ _) as [[l' c']|e']; cbn in R |- *; try contradiction; [apply R|exact R].
Qed.
End T.

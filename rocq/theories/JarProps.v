(** C111: a complete archive written to a file and loaded again. *)
From Coq Require Import String Permutation.
From Verif Require Import Num Base PyStr LowerModel FlowModel ProcModel ProcProofs ProcProps ProcJsonProps JarModel JarProofs.
Open Scope string_scope.
Open Scope list_scope.

Section C111.
Variables fn qn : nat -> string.
Variable kid : string -> option string.

(** ** What the archive must satisfy *)
Record archive_ok (ar : archive) : Prop := {
  ao_uuids : NoDup (uuids ar);
  ao_qs : forall q, In q (a_qs ar) -> meta_ok kid [] q_dflt (aq_meta q);
  ao_fs : forall f, In f (a_fs ar) -> meta_ok kid (["local_unit"] ++ f_over) f_dflt (af_meta f) /\ flow_ok kid ar (af_flow f);
  ao_ps : forall p, In p (a_ps ar) ->
    meta_ok kid p_over p_dflt (ap_meta p)
    /\ (forall k, In k (dkeys (p_exch (ap_proc p))) -> find_f (fn (k_flow k)) ar <> None)
    /\ (forall q, p_qty (ap_proc p) = Some q -> find_q (qn q) ar <> None)
    /\ json_ok (acf fn qn ar) (ap_proc p) /\ exists ops, ap_proc p = prun (acf fn qn ar) ops }.

(** ** When two archives hold the same *)
Definition same_ent (dom : bool) (ref : string) (m m' : meta) : Prop :=
  same_meta m m' /\ m_origin m' = (if dom then Some ref else m_origin m).
Definition same_qty dom ref (q q' : aqty) : Prop := same_ent dom ref (aq_meta q) (aq_meta q') /\ aq_unit q' = aq_unit q.
Definition same_flw dom ref (f f' : aflow) : Prop := same_ent dom ref (af_meta f) (af_meta f') /\ same_flow (af_flow f) (af_flow f').
Definition same_prc dom ref (c c' : nat -> nat -> Qc) (p p' : aproc) : Prop :=
  same_ent dom ref (ap_meta p) (ap_meta p')
  /\ p_qty (ap_proc p') = p_qty (ap_proc p)
  /\ (forall k, In k (p_refs (ap_proc p')) <-> In k (p_refs (ap_proc p)))
  /\ (forall k, In k (dkeys (p_exch (ap_proc p'))) <-> In k (dkeys (p_exch (ap_proc p))))
  /\ (forall k, is_ref (ap_proc p') k = is_ref (ap_proc p) k /\ exch_value (ap_proc p') k = exch_value (ap_proc p) k)
  /\ (forall k r, In r (p_refs (ap_proc p)) -> ProcModel.getitem c' (ap_proc p') k r = ProcModel.getitem c (ap_proc p) k r).

Lemma uuids_q ar q : In q (a_qs ar) -> In (m_uuid (aq_meta q)) (uuids ar).
Proof. intros J. unfold uuids. rewrite !in_app_iff. left. apply in_map_iff. eauto. Qed.

Lemma load_qs dom qs : forall ar,
  (forall q, In q qs -> meta_ok kid [] q_dflt (aq_meta q)) ->
  NoDup (map (fun q => m_uuid (aq_meta q)) qs) -> (forall q, In q qs -> ~ In (m_uuid (aq_meta q)) (uuids ar)) ->
  exists qs', load_each (load_q kid) (map (fun q => (ent_json dom [] (aq_meta q), aq_unit q)) qs) ar
              = JOk (Archive (a_ref ar) (a_qs ar ++ qs') (a_fs ar) (a_ps ar)) /\ Forall2 (same_qty dom (a_ref ar)) qs qs'.
Proof.
  induction qs as [|q qs IH]; intros ar OK ND NI; cbn [map load_each].
  - exists []. rewrite app_nil_r. destruct ar; auto.
  - inversion ND as [|? ? N ND']; subst. unfold load_q at 1. cbn [fst snd].
    destruct (enter_ok kid ar [] [] q_dflt dom (aq_meta q)) as [m' [E [S O]]]; [apply OK; left; reflexivity|apply NI; left; reflexivity|].
    rewrite E. destruct (IH (Archive (a_ref ar) (a_qs ar ++ [AQ m' (aq_unit q)]) (a_fs ar) (a_ps ar))) as [qs' [L F]].
    + intros; apply OK; right; auto.
    + exact ND'.
    + intros q' J J'. apply (NI q'); [right; exact J|]. unfold uuids in J' |- *. cbn [a_qs a_fs a_ps] in J'. rewrite map_app, !in_app_iff in *.
      destruct J' as [[J'|[E'|[]]]|J']; auto. cbn [aq_meta] in E'. exfalso. apply N. destruct S as [S _]. rewrite S in E'. rewrite E'. apply in_map_iff. eauto.
    + exists (AQ m' (aq_unit q) :: qs'). cbn [a_ref a_qs a_fs a_ps] in L, F. rewrite <- app_assoc in L. split; [exact L|]. constructor; [|exact F].
      split; [split; [exact S|exact O]|reflexivity].
Qed.

Lemma load_fs dom ar0 fs : forall ar,
  (forall u, find_q u ar0 <> None -> find_q u ar <> None) ->
  (forall f, In f fs -> meta_ok kid (["local_unit"] ++ f_over) f_dflt (af_meta f) /\ flow_ok kid ar0 (af_flow f)) ->
  NoDup (map (fun f => m_uuid (af_meta f)) fs) -> (forall f, In f fs -> ~ In (m_uuid (af_meta f)) (uuids ar)) ->
  exists fs', load_each (load_f kid) (map (fun f => (ent_json dom f_over (af_meta f), flow_json true true (af_flow f))) fs) ar
              = JOk (Archive (a_ref ar) (a_qs ar) (a_fs ar ++ fs') (a_ps ar)) /\ Forall2 (same_flw dom (a_ref ar)) fs fs'.
Proof.
  induction fs as [|f fs IH]; intros ar Q OK ND NI; cbn [map load_each].
  - exists []. rewrite app_nil_r. destruct ar; auto.
  - inversion ND as [|? ? N ND']; subst. unfold load_f at 1. cbn [fst snd]. destruct (OK f) as [MO FO]; [left; reflexivity|].
    destruct (enter_ok kid ar ["local_unit"] f_over f_dflt dom (af_meta f)) as [m' [E [S O]]]; [exact MO|apply NI; left; reflexivity|].
    rewrite E. destruct (flow_round kid ar0 ar (af_flow f) (comp_of (m_props m')) Q FO) as [f' [LF SF]]. rewrite LF.
    destruct (IH (Archive (a_ref ar) (a_qs ar) (a_fs ar ++ [AF m' f']) (a_ps ar))) as [fs' [L F]].
    + exact Q.
    + intros; apply OK; right; auto.
    + exact ND'.
    + intros q' J J'. apply (NI q'); [right; exact J|]. unfold uuids in J' |- *. cbn [a_qs a_fs a_ps] in J'. rewrite map_app, !in_app_iff in *.
      destruct J' as [J'|[[J'|[E'|[]]]|J']]; auto. cbn [af_meta] in E'. exfalso. apply N. destruct S as [S _]. rewrite S in E'. rewrite E'. apply in_map_iff. eauto.
    + exists (AF m' f' :: fs'). cbn [a_ref a_qs a_fs a_ps] in L, F. rewrite <- app_assoc in L. split; [exact L|]. constructor; [|exact F].
      split; [split; [exact S|exact O]|exact SF].
Qed.

Lemma getitem_ext c c' p k r : (forall f q, c f q = c' f q) -> ProcModel.getitem c p k r = ProcModel.getitem c' p k r.
Proof.
  intros E. unfold ProcModel.getitem. destruct (dget k (p_exch p)) as [e|]; [|reflexivity]. destruct (dget r (p_exch p)) as [i|]; [|reflexivity].
  destruct (x_ref i); [|reflexivity]. destruct (x_ref e); [reflexivity|]. destruct (alloc_qty p); [|reflexivity]. rewrite E. reflexivity.
Qed.
Lemma map_strip l : map (strip_x true) l = l.
Proof. induction l as [|x l IH]; cbn; [reflexivity|]. f_equal. exact IH. Qed.

Lemma load_ps dom ar0 ps : forall ar,
  (forall u, find_q u ar0 <> None -> find_q u ar <> None) -> (forall u, find_f u ar0 <> None -> find_f u ar <> None) ->
  (forall f q, acf fn qn ar f q = acf fn qn ar0 f q) ->
  (forall q, In q (a_qs ar0) -> meta_ok kid [] q_dflt (aq_meta q)) ->
  (forall p, In p ps ->
    meta_ok kid p_over p_dflt (ap_meta p)
    /\ (forall k, In k (dkeys (p_exch (ap_proc p))) -> find_f (fn (k_flow k)) ar0 <> None)
    /\ (forall q, p_qty (ap_proc p) = Some q -> find_q (qn q) ar0 <> None)
    /\ json_ok (acf fn qn ar0) (ap_proc p) /\ exists ops, ap_proc p = prun (acf fn qn ar0) ops) ->
  NoDup (map (fun p => m_uuid (ap_meta p)) ps) -> (forall p, In p ps -> ~ In (m_uuid (ap_meta p)) (uuids ar)) ->
  exists ps', load_each (load_p fn qn kid) (map (proc_json qn dom true true ar0) ps) ar
              = JOk (Archive (a_ref ar) (a_qs ar) (a_fs ar) (a_ps ar ++ ps')) /\ Forall2 (same_prc dom (a_ref ar) (acf fn qn ar0) (acf fn qn ar0)) ps ps'.
Proof.
  induction ps as [|p ps IH]; intros ar Q FF AC QM OK ND NI; cbn [map load_each].
  - exists []. rewrite app_nil_r. destruct ar; auto.
  - inversion ND as [|? ? N ND']; subst. destruct (OK p) as (MO & FL & QL & JO & [ops E0]); [left; reflexivity|].
    assert (PJE : proc_json qn dom true true ar0 p = PJ (ent_json dom p_over (ap_meta p)) (map (strip_x true) (j_sort (map x_json (p_exch (ap_proc p)))))
      (match p_qty (ap_proc p) with Some q => Some (q, match find_q (qn q) ar0 with Some x => ext_ref (aq_meta x) | None => qn q end) | None => None end)) by reflexivity.
    unfold load_p at 1. rewrite PJE. cbn [pj_ent pj_xs pj_q].
    destruct (enter_ok kid ar [] p_over p_dflt dom (ap_meta p)) as [m' [E [S O]]]; [exact MO|apply NI; left; reflexivity|].
    rewrite E. rewrite map_strip.
    assert (FP : forallb (fun x => match find_f (fn (j_flow x)) ar with Some _ => true | None => false end) (j_sort (map x_json (p_exch (ap_proc p)))) = true).
    { apply forallb_forall. intros x J. apply (Permutation_in _ (j_sort_perm _)) in J. apply in_map_iff in J as [[k e] [<- J]].
      assert (H : find_f (fn (k_flow k)) ar <> None). { apply FF, FL. change k with (fst (k, e)). apply in_map. exact J. }
      cbn [x_json j_flow]. destruct (find_f (fn (k_flow k)) ar); [reflexivity|congruence]. }
    rewrite FP.
    set (qq := match match p_qty (ap_proc p) with Some q => _ | None => None end with Some _ => _ | None => None end).
    assert (QQ : qq = p_qty (ap_proc p)).
    { unfold qq. destruct (p_qty (ap_proc p)) as [q|] eqn:PQ; [|reflexivity].
      pose proof (QL q eq_refl) as H. pose proof (Q _ H) as H'. destruct (find_q (qn q) ar0) as [x|] eqn:FQ; [|congruence].
      unfold find_q in FQ. apply find_some in FQ as [IX EX]. apply (proj1 (eqb_eq _ _)) in EX. destruct (QM x IX) as [_ _ _ _ _ _ _ KX].
      change (shown_ref (aq_meta x)) with (ext_ref (aq_meta x)) in KX. rewrite KX, EX. rewrite eqb_refl. destruct (find_q (qn q) ar); [reflexivity|congruence]. }
    rewrite QQ. rewrite (load_ext _ (acf fn qn ar0)) by exact AC.
    change (j_sort (map x_json (p_exch (ap_proc p))), p_qty (ap_proc p)) with (ProcModel.serialize (ap_proc p)).
    rewrite E0 in JO. destruct (C29_round_trip_partial (acf fn qn ar0) ops JO) as [p' [LP R]]. rewrite <- E0 in LP, R. rewrite LP.
    destruct (IH (Archive (a_ref ar) (a_qs ar) (a_fs ar) (a_ps ar ++ [AP m' p']))) as [ps' [L F]].
    + exact Q.
    + exact FF.
    + exact AC.
    + exact QM.
    + intros; apply OK; right; auto.
    + exact ND'.
    + intros q' J J'. apply (NI q'); [right; exact J|]. unfold uuids in J' |- *. cbn [a_qs a_fs a_ps] in J'. rewrite map_app, !in_app_iff in *.
      destruct J' as [J'|[J'|[J'|[E'|[]]]]]; auto. cbn [ap_meta] in E'. exfalso. apply N. destruct S as [S _]. rewrite S in E'. rewrite E'. apply in_map_iff. eauto.
    + exists (AP m' p' :: ps'). cbn [a_ref a_qs a_fs a_ps] in L, F. rewrite <- app_assoc in L. split; [exact L|]. constructor; [|exact F].
      split; [split; [exact S|exact O]|]. cbn [ap_proc]. exact R.
Qed.

(** Looking up by uuid *)
Lemma find_same {T} (key : T -> string) (R : T -> T -> Prop) (l0 l l' : list T) u :
  Permutation l l0 -> Forall2 R l l' -> (forall x x', R x x' -> key x' = key x) -> NoDup (map key l0) ->
  match find (fun x => eqb (key x) u) l0, find (fun x => eqb (key x) u) l' with
  | Some x, Some x' => R x x' | None, None => True | _, _ => False end.
Proof.
  intros P F KR ND.
  assert (KS : map key l' = map key l). { clear - F KR. induction F; cbn; [reflexivity|]. f_equal; auto. }
  assert (NDl : NoDup (map key l)) by (eapply Permutation_NoDup; [apply Permutation_map, Permutation_sym; exact P|exact ND]).
  destruct (find (fun x => eqb (key x) u) l0) as [x|] eqn:F0.
  - apply find_some in F0 as [I E0]. apply (proj1 (eqb_eq _ _)) in E0. apply (Permutation_in _ (Permutation_sym P)) in I.
    clear P ND KS. revert I NDl. induction F as [|a a' l l' RA F IH]; intros I ND; [destruct I|]. cbn [find]. inversion ND as [|? ? N ND']; subst. rewrite (KR _ _ RA).
    destruct I as [->|I]; [rewrite eqb_refl; exact RA|]. destruct (eqb_spec (key a) (key x)) as [E|]; [|apply IH; auto].
    exfalso. apply N. rewrite E. apply in_map. exact I.
  - destruct (find (fun x => eqb (key x) u) l') as [x'|] eqn:F1; [|exact I]. apply find_some in F1 as [I E1].
    apply (proj1 (eqb_eq _ _)) in E1. assert (J : In (key x') (map key l)) by (rewrite <- KS; apply in_map; exact I).
    apply in_map_iff in J as [x [E J]]. apply (Permutation_in _ P) in J. apply (find_none _ _ F0) in J. rewrite E, E1, eqb_refl in J. discriminate.
Qed.

Lemma NoDup_app_l {A} (a b : list A) : NoDup (a ++ b) -> NoDup a.
Proof. induction a as [|x a IH]; cbn; [constructor|]. inversion 1 as [|? ? N ND]; subst. constructor; [|auto]. intros J. apply N. apply in_app_iff. auto. Qed.
Lemma NoDup_app_r {A} (a b : list A) : NoDup (a ++ b) -> NoDup b.
Proof. induction a as [|x a IH]; cbn; [auto|]. inversion 1; auto. Qed.
Lemma NoDup_app_disj {A} (a b : list A) x : NoDup (a ++ b) -> In x a -> In x b -> False.
Proof. induction a as [|y a IH]; cbn; [tauto|]. inversion 1 as [|? ? N ND]; subst. intros [->|J] K; [apply N; apply in_app_iff; auto|eauto]. Qed.
Lemma Forall2_keys {E} (key : E -> string) (R : E -> E -> Prop) l l' : Forall2 R l l' -> (forall x x', R x x' -> key x' = key x) -> map key l' = map key l.
Proof. induction 1; cbn; intros KR; [reflexivity|]. f_equal; auto. Qed.

(** Writing a complete archive (all exchanges, characterizations and values) and loading the file gives an archive in which
    every uuid leads to a quantity, flow or process exactly if it did, with the same external_ref, the same properties under
    every spelling of their names, the same unit, the same reference quantity and factors at every location, the same
    references, exchanges, values and exchange relations, and its own origin - or, if written with [domesticate], the
    reference of the archive it is loaded into.  Partial: for archives as described by [archive_ok]. *)
Theorem C111_round_trip_partial : forall dom ref ar, archive_ok ar ->
  exists ar', load_archive fn qn kid ref (save qn dom true true true ar) = JOk ar' /\
    forall u,
      match find_q u ar, find_q u ar' with Some q, Some q' => same_qty dom ref q q' | None, None => True | _, _ => False end
      /\ match find_f u ar, find_f u ar' with
         | Some f, Some f' => same_flw dom ref f f' /\ forall q loc, FlowModel.cf q loc (af_flow f') = FlowModel.cf q loc (af_flow f)
         | None, None => True | _, _ => False end
      /\ match find_p u ar, find_p u ar' with Some p, Some p' => same_prc dom ref (acf fn qn ar) (acf fn qn ar') p p' | None, None => True | _, _ => False end.
Proof.
  intros dom ref ar [UU OQ OF OP]. unfold load_archive, save. cbn [aj_qs aj_fs aj_ps].
  pose proof UU as UU0. unfold uuids in UU0. pose proof (NoDup_app_l _ _ UU0) as NQ. pose proof (NoDup_app_r _ _ UU0) as NFP.
  pose proof (NoDup_app_l _ _ NFP) as NF. pose proof (NoDup_app_r _ _ NFP) as NP.
  destruct (ksort_map (fun x : ejson * string => ej_uuid (fst x)) (fun q => (ent_json dom [] (aq_meta q), aq_unit q)) (a_qs ar)) as [qs [PQ ->]].
  destruct (ksort_map (fun x : ejson * list cjson => ej_uuid (fst x)) (fun f => (ent_json dom f_over (af_meta f), flow_json true true (af_flow f))) (a_fs ar)) as [fs [PF ->]].
  destruct (ksort_map (fun x => ej_uuid (pj_ent x)) (proc_json qn dom true true ar) (a_ps ar)) as [ps [PP ->]].
  assert (inQ : forall q, In q qs -> In q (a_qs ar)) by (intros q; apply Permutation_in; exact PQ).
  assert (inF : forall q, In q fs -> In q (a_fs ar)) by (intros q; apply Permutation_in; exact PF).
  assert (inP : forall q, In q ps -> In q (a_ps ar)) by (intros q; apply Permutation_in; exact PP).
  destruct (load_qs dom qs (Archive ref [] [] [])) as [qs' [LQ FQ]].
  { intros q J. apply OQ, inQ, J. }
  { eapply Permutation_NoDup; [apply Permutation_map, Permutation_sym; exact PQ|exact NQ]. }
  { intros q _ []. }
  cbn [a_ref a_qs a_fs a_ps app] in LQ, FQ. rewrite LQ.
  assert (KQ : map (fun q => m_uuid (aq_meta q)) qs' = map (fun q => m_uuid (aq_meta q)) qs)
    by (eapply Forall2_keys; [exact FQ|]; intros x x' [[[X _] _] _]; exact X).
  assert (SQ : forall u, match find_q u ar, find (fun q => eqb (m_uuid (aq_meta q)) u) qs' with Some q, Some q' => same_qty dom ref q q' | None, None => True | _, _ => False end).
  { intros u. apply (find_same (fun q => m_uuid (aq_meta q)) (same_qty dom ref) (a_qs ar) qs qs' u PQ FQ); [intros x x' [[[X _] _] _]; exact X|exact NQ]. }
  destruct (load_fs dom ar fs (Archive ref qs' [] [])) as [fs' [LF FF]].
  { intros u H. unfold find_q. cbn [a_qs]. specialize (SQ u). destruct (find_q u ar); [|congruence]. destruct (find _ qs'); [discriminate|destruct SQ]. }
  { intros f J. apply OF, inF, J. }
  { eapply Permutation_NoDup; [apply Permutation_map, Permutation_sym; exact PF|exact NF]. }
  { intros f J J'. unfold uuids in J'. cbn [a_qs a_fs a_ps map app] in J'. rewrite app_nil_r, KQ in J'.
    apply (NoDup_app_disj _ _ (m_uuid (af_meta f)) UU0).
    - eapply Permutation_in; [apply Permutation_map; exact PQ|exact J'].
    - apply in_app_iff. left. apply in_map_iff. eauto. }
  cbn [a_ref a_qs a_fs a_ps app] in LF, FF. rewrite LF.
  assert (KF : map (fun q => m_uuid (af_meta q)) fs' = map (fun q => m_uuid (af_meta q)) fs)
    by (eapply Forall2_keys; [exact FF|]; intros x x' [[[X _] _] _]; exact X).
  assert (SF : forall u, match find_f u ar, find (fun q => eqb (m_uuid (af_meta q)) u) fs' with Some q, Some q' => same_flw dom ref q q' | None, None => True | _, _ => False end).
  { intros u. apply (find_same (fun q => m_uuid (af_meta q)) (same_flw dom ref) (a_fs ar) fs fs' u PF FF); [intros x x' [[[X _] _] _]; exact X|exact NF]. }
  assert (AC : forall ps f q, acf fn qn (Archive ref qs' fs' ps) f q = acf fn qn ar f q).
  { intros ps0 f q. unfold acf. unfold find_f at 1. cbn [a_fs]. specialize (SF (fn f)).
    destruct (find_f (fn f) ar) as [x|], (find (fun q => eqb (m_uuid (af_meta q)) (fn f)) fs') as [x'|]; try (destruct SF; fail); [|reflexivity].
    destruct SF as [_ [_ SF]]. rewrite (cf_locs (af_flow x) (af_flow x')) by exact SF. reflexivity. }
  destruct (load_ps dom ar ps (Archive ref qs' fs' [])) as [ps' [LP FP]].
  { intros u H. unfold find_q. cbn [a_qs]. specialize (SQ u). destruct (find_q u ar); [|congruence]. destruct (find _ qs'); [discriminate|destruct SQ]. }
  { intros u H. unfold find_f. cbn [a_fs]. specialize (SF u). destruct (find_f u ar); [|congruence]. destruct (find _ fs'); [discriminate|destruct SF]. }
  { apply AC. }
  { exact OQ. }
  { intros p J. apply OP, inP, J. }
  { eapply Permutation_NoDup; [apply Permutation_map, Permutation_sym; exact PP|exact NP]. }
  { intros p J J'. unfold uuids in J'. cbn [a_qs a_fs a_ps map app] in J'. rewrite app_nil_r, KQ, KF, in_app_iff in J'.
    assert (JP : In (m_uuid (ap_meta p)) (map (fun p => m_uuid (ap_meta p)) (a_ps ar))) by (apply in_map_iff; eauto).
    destruct J' as [J'|J'].
    - apply (NoDup_app_disj _ _ (m_uuid (ap_meta p)) UU0); [eapply Permutation_in; [apply Permutation_map; exact PQ|exact J']|apply in_app_iff; auto].
    - apply (NoDup_app_disj _ _ (m_uuid (ap_meta p)) NFP); [eapply Permutation_in; [apply Permutation_map; exact PF|exact J']|exact JP]. }
  cbn [a_ref a_qs a_fs a_ps app] in LP, FP. rewrite LP. eexists. split; [reflexivity|]. intros u. split; [|split].
  - exact (SQ u).
  - specialize (SF u). change (find_f u (Archive ref qs' fs' ps')) with (find (fun q => eqb (m_uuid (af_meta q)) u) fs'). destruct (find_f u ar) as [f|], (find (fun q => eqb (m_uuid (af_meta q)) u) fs') as [f'|]; try (destruct SF; fail); auto. split; [exact SF|].
    intros q loc. apply cf_locs. apply SF.
  - pose proof (find_same (fun p => m_uuid (ap_meta p)) (same_prc dom ref (acf fn qn ar) (acf fn qn ar)) (a_ps ar) ps ps' u PP FP) as X.
    specialize (X (fun x x' R => proj1 (proj1 (proj1 R))) NP). change (find_p u (Archive ref qs' fs' ps')) with (find (fun q => eqb (m_uuid (ap_meta q)) u) ps'). cbv beta in X. fold (find_p u ar) in X.
    destruct (find_p u ar) as [p|], (find (fun x => eqb (m_uuid (ap_meta x)) u) ps') as [p'|]; auto.
    destruct X as (X1 & X2 & X3 & X4 & X5 & X6). split; [exact X1|]. split; [exact X2|]. split; [exact X3|]. split; [exact X4|]. split; [exact X5|].
    intros k r J. rewrite <- (X6 k r J). apply getitem_ext. apply AC.
Qed.
End C111.
Print Assumptions C111_round_trip_partial.

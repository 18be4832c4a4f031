(** C112: an index of an archive, loaded from its file. *)
From Coq Require Import String Permutation.
From Verif Require Import Num Base PyStr LowerModel FlowModel ProcModel ProcProofs ProcProps ProcJsonProps JarModel JarProofs JarProps.
From Verif Require JarProps2.
Open Scope string_scope.
Open Scope list_scope.

Section C112.
Variables fn qn : nat -> string.
Variable kid : string -> option string.

(** [index_archive], archive_index.py:31-63: the index holds the archive's entities themselves (54-56) and is written with
    [LcIndex.serialize], archive_index.py:25-27, which always leaves out exchanges, characterizations and values. *)
Definition index_file (ar : archive) : ajson := save qn false false false false ar.

(** ** What the archive must satisfy: as for C111, but flows need only their reference quantity in the archive, processes only
    the flows of their references, and nothing is asked of factors, values or allocation. *)
Record index_ok (ar : archive) : Prop := {
  io_uuids : NoDup (uuids ar);
  io_qs : forall q, In q (a_qs ar) -> meta_ok kid [] q_dflt (aq_meta q);
  io_fs : forall f, In f (a_fs ar) -> meta_ok kid (["local_unit"] ++ f_over) f_dflt (af_meta f)
    /\ NoDup (dkeys (f_chars (af_flow f)))
    /\ (forall u c, dget u (f_chars (af_flow f)) = Some c -> q_uuid (c_q c) = u)
    /\ (forall r, f_ref (af_flow f) = Some r -> dget (q_uuid r) (f_chars (af_flow f)) <> None /\ kid (q_uuid r) = Some (q_uuid r) /\ find_q (q_uuid r) ar <> None);
  io_ps : forall p, In p (a_ps ar) -> meta_ok kid p_over p_dflt (ap_meta p)
    /\ (exists c ops, ap_proc p = prun c ops)
    /\ (forall k, In k (p_refs (ap_proc p)) -> find_f (fn (k_flow k)) ar <> None) }.

(** ** What the index keeps *)
Definition idx_flow (f f' : aflow) : Prop :=
  same_meta (af_meta f) (af_meta f') /\ m_origin (af_meta f') = m_origin (af_meta f)
  /\ option_map q_uuid (f_ref (af_flow f')) = option_map q_uuid (f_ref (af_flow f))
  /\ forall q loc, loc <> "quantity" -> loc <> "flow" ->
       FlowModel.cf q loc (af_flow f') = if isr (f_ref (af_flow f)) (q_uuid q) then INum (Q2Qc 1) else INum (Q2Qc 0).
Definition idx_proc (p p' : aproc) : Prop :=
  same_meta (ap_meta p) (ap_meta p') /\ m_origin (ap_meta p') = m_origin (ap_meta p)
  /\ (forall k, In k (p_refs (ap_proc p')) <-> In k (p_refs (ap_proc p)))
  /\ (forall k, In k (dkeys (p_exch (ap_proc p'))) <-> In k (p_refs (ap_proc p)))
  /\ (forall k, exch_value (ap_proc p') k = None) /\ p_qty (ap_proc p') = None.

(** ** Flows *)
Lemma filter_ref_chars r l : (forall u c, In (u, c) l -> q_uuid (c_q c) = u) -> NoDup (dkeys l) ->
  filter cj_ref (map (fun p => char_json false r (snd p)) l) =
  match r with Some q => if din (q_uuid q) l then [CJ (q_uuid q) true None] else [] | None => [] end.
Proof.
  intros H ND. destruct r as [q|].
  - induction l as [|[u c] l IH]; [reflexivity|]. inversion ND as [|? ? N ND']; subst. cbn [map filter snd]. unfold char_json at 1.
    rewrite (H u c) by (left; reflexivity). cbn [cj_ref]. unfold din. cbn [dget].
    assert (IH' := IH (fun u c J => H u c (or_intror J)) ND'). destruct (eqb_spec u (q_uuid q)) as [->|NE].
    + unfold char_json at 1. rewrite (H (q_uuid q) c) by (left; reflexivity). rewrite eqb_refl. rewrite IH'. unfold din. destruct (dget (q_uuid q) l) eqn:D; [|reflexivity]. exfalso. apply N. eapply dget_Some_key; exact D.
    + destruct (eqb_spec (q_uuid q) u) as [E|_]; [congruence|]. exact IH'.
  - induction l as [|[u c] l IH]; [reflexivity|]. cbn [map filter]. apply IH; [intros; apply H; right; auto|inversion ND; auto].
Qed.
Lemma idx_flow_round ar ar' f comp :
  (forall u, find_q u ar <> None -> find_q u ar' <> None) ->
  NoDup (dkeys (f_chars f)) -> (forall u c, dget u (f_chars f) = Some c -> q_uuid (c_q c) = u) ->
  (forall r, f_ref f = Some r -> dget (q_uuid r) (f_chars f) <> None /\ kid (q_uuid r) = Some (q_uuid r) /\ find_q (q_uuid r) ar <> None) ->
  exists f', load_chars kid ar' (flow_json false false f) (Flow None [] comp) = JOk f'
    /\ option_map q_uuid (f_ref f') = option_map q_uuid (f_ref f)
    /\ forall q loc, loc <> "quantity" -> loc <> "flow" -> FlowModel.cf q loc f' = if isr (f_ref f) (q_uuid q) then INum (Q2Qc 1) else INum (Q2Qc 0).
Proof.
  intros Q ND OWN R. unfold flow_json. rewrite filter_ref_chars; [|intros u c J; apply OWN; apply In_dget; auto|exact ND].
  destruct (f_ref f) as [r|] eqn:FR.
  - destruct (R r eq_refl) as [D [K F]]. unfold din. destruct (dget (q_uuid r) (f_chars f)) as [c|]; [|congruence]. cbn [load_chars cj_q cj_ref cj_value vspec_of].
    rewrite K. apply Q in F. destruct (find_q (q_uuid r) ar') as [x|] eqn:FQ; [|congruence].
    assert (MU : m_uuid (aq_meta x) = q_uuid r). { unfold find_q in FQ. apply find_some in FQ as [_ FQ]. apply (proj1 (eqb_eq _ _)) in FQ. exact FQ. }
    rewrite MU. destruct (load_char_ref (q_uuid r) (Flow None [] comp) eq_refl eq_refl) as [c' [-> L]]. eexists. split; [reflexivity|]. split; [reflexivity|].
    intros q loc N1 N2. unfold FlowModel.cf. cbn [f_chars]. rewrite dget_dset. cbn [isr]. destruct (eqb_spec (q_uuid q) (q_uuid r)) as [E|]; [|reflexivity].
    unfold char_get. rewrite L. destruct (eqb_spec loc "quantity"); [contradiction|]. destruct (eqb_spec loc "flow"); [contradiction|].
    cbn [dget]. destruct (eqb_spec loc "GLO"); reflexivity.
  - eexists. split; [reflexivity|]. split; [reflexivity|]. intros q loc _ _. reflexivity.
Qed.
Lemma idx_load_fs ar0 fs : forall ar,
  (forall u, find_q u ar0 <> None -> find_q u ar <> None) ->
  (forall f, In f fs -> meta_ok kid (["local_unit"] ++ f_over) f_dflt (af_meta f)
    /\ NoDup (dkeys (f_chars (af_flow f)))
    /\ (forall u c, dget u (f_chars (af_flow f)) = Some c -> q_uuid (c_q c) = u)
    /\ (forall r, f_ref (af_flow f) = Some r -> dget (q_uuid r) (f_chars (af_flow f)) <> None /\ kid (q_uuid r) = Some (q_uuid r) /\ find_q (q_uuid r) ar0 <> None)) ->
  NoDup (map (fun f => m_uuid (af_meta f)) fs) -> (forall f, In f fs -> ~ In (m_uuid (af_meta f)) (uuids ar)) ->
  exists fs', load_each (load_f kid) (map (fun f => (ent_json false f_over (af_meta f), flow_json false false (af_flow f))) fs) ar
              = JOk (Archive (a_ref ar) (a_qs ar) (a_fs ar ++ fs') (a_ps ar)) /\ Forall2 idx_flow fs fs'.
Proof.
  induction fs as [|f fs IH]; intros ar Q OK ND NI; cbn [map load_each].
  - exists []. rewrite app_nil_r. destruct ar; auto.
  - inversion ND as [|? ? N ND']; subst. unfold load_f at 1. cbn [fst snd]. destruct (OK f) as [MO [FK [FO FR]]]; [left; reflexivity|].
    destruct (enter_ok kid ar ["local_unit"] f_over f_dflt false (af_meta f)) as [m' [E [S O]]]; [exact MO|apply NI; left; reflexivity|].
    rewrite E. destruct (idx_flow_round ar0 ar (af_flow f) (comp_of (m_props m')) Q FK FO FR) as [f' [LF [SF1 SF2]]]. rewrite LF.
    destruct (IH (Archive (a_ref ar) (a_qs ar) (a_fs ar ++ [AF m' f']) (a_ps ar))) as [fs' [L F]].
    + exact Q.
    + intros; apply OK; right; auto.
    + exact ND'.
    + intros q' J J'. apply (NI q'); [right; exact J|]. unfold uuids in J' |- *. cbn [a_qs a_fs a_ps] in J'. rewrite map_app, !in_app_iff in *.
      destruct J' as [J'|[[J'|[E'|[]]]|J']]; auto. cbn [af_meta] in E'. exfalso. apply N. destruct S as [S _]. rewrite S in E'. rewrite E'. apply in_map_iff. eauto.
    + exists (AF m' f' :: fs'). cbn [a_ref a_qs a_fs a_ps] in L, F. rewrite <- app_assoc in L. split; [exact L|]. constructor; [|exact F].
      split; [exact S|]. split; [exact O|]. split; [exact SF1|exact SF2].
Qed.

(** ** Processes *)
Lemma idx_load_refs cf xs : forall p rx,
  p_qty p = None -> p_sum p = Q2Qc 0 -> NoDup (map jk xs) ->
  (forall x, In x xs -> j_term x = None /\ j_value x = None /\ dget (jk x) (p_exch p) = None) ->
  exists p' rx', load_refs cf xs p rx = (p', POk rx') /\ p_qty p' = None /\ p_sum p' = Q2Qc 0
    /\ (forall k, In k (map jk xs) -> dget k (p_exch p') = Some (X None [] true))
    /\ (forall k, ~ In k (map jk xs) -> dget k (p_exch p') = dget k (p_exch p))
    /\ (forall k, In k (p_refs p') <-> In k (p_refs p) \/ In k (map jk xs)).
Proof.
  induction xs as [|x xs IH]; intros p ref_x Q S N H.
  - exists p, ref_x. cbn. repeat split; auto; try tauto.
  - destruct (H x (or_introl eq_refl)) as [T [V D]]. inversion N as [|? ? N1 N2]; subst.
    cbn [load_refs]. assert (K : jk x = (j_flow x, j_dir x, None)) by (unfold jk; rewrite T; reflexivity).
    rewrite add_new by (cbn; try congruence; rewrite <- K; exact D). cbn [t_key]. rewrite <- K, V.
    unfold add_reference. cbv zeta. cbn [p_exch p_set with_exch p_refs p_qty p_sum]. rewrite <- K.
    rewrite dget_dset_same. cbn [x_value x_vdict]. unfold din. rewrite dget_dset_same.
    match goal with |- context [match alloc_qty ?q with _ => _ end] => set (p1 := q) end.
    assert (A : alloc_qty p1 = None) by (unfold alloc_qty; cbn; rewrite S; reflexivity). rewrite A.
    destruct (IH p1 (dset (j_flow x) (Some (jk x)) ref_x)) as [p' [rx' [L [Q' [S' [E1 [E2 E4]]]]]]]; auto.
    { intros y J. destruct (H y (or_intror J)) as [H1 [H2 H3]]. split; auto. split; auto. subst p1; cbn [p_exch]. rewrite !dget_dset_other; auto.
      all: intros E; apply N1; rewrite <- E; apply in_map; exact J. }
    exists p', rx'. split; [exact L|]. repeat split; auto.
    + intros k [<-|J]; [|apply (E1 _ J)]. rewrite E2 by exact N1. subst p1; cbn [p_exch]. apply dget_dset_same.
    + intros k NI. cbn in NI. rewrite E2 by tauto. subst p1; cbn [p_exch]. rewrite !dget_dset_other; auto; intros ->; apply NI; auto.
    + intros J. apply E4 in J. subst p1; cbn [p_refs] in J. cbn. rewrite In_set_add in J. destruct J as [[->|J]|J]; auto.
    + intros J. apply E4. subst p1; cbn [p_refs]. rewrite In_set_add. cbn in J. destruct J as [J|[<-|J]]; auto.
Qed.
Lemma idx_load cf c ops l q : let p := prun c ops in
  Permutation l (map x_json (p_exch p)) ->
  exists p', load cf (map (strip_x false) (filter j_ref l), q) = POk p'
    /\ (forall k, In k (p_refs p') <-> In k (p_refs p)) /\ (forall k, In k (dkeys (p_exch p')) <-> In k (p_refs p))
    /\ (forall k, exch_value p' k = None) /\ p_qty p' = None.
Proof.
  intros p PM. pose proof (pinv_prun c ops) as I. fold p in I.
  set (xs := map (strip_x false) (filter j_ref l)).
  assert (XR : filter j_ref xs = xs).
  { unfold xs. apply filter_id. intros x J. apply in_map_iff in J as [y [<- J]]. apply filter_In in J as [_ J]. exact J. }
  assert (XN : filter (fun x => negb (j_ref x)) xs = []).
  { unfold xs. clear. induction l as [|x l IH]; [reflexivity|]. cbn [filter]. destruct (j_ref x) eqn:E; [|exact IH]. cbn [map filter strip_x j_ref]. rewrite E. exact IH. }
  assert (JK : forall k, In k (map jk xs) <-> In k (p_refs p)).
  { intros k. unfold xs. rewrite map_map. rewrite in_map_iff. split.
    - intros [x [E J]]. apply filter_In in J as [J RR]. apply (Permutation_in _ PM) in J. apply in_map_iff in J as [[k0 e] [<- J]].
      change (jk (x_json (k0, e)) = k) in E. rewrite jk_x_json in E. subst k0. apply (pi_ref p I). exists e. split; [apply In_dget; [apply (pi_keys p I)|exact J]|exact RR].
    - intros J. apply (pi_ref p I) in J as [e [D RR]]. exists (x_json (k, e)). split; [change (jk (x_json (k, e)) = k); apply jk_x_json|].
      apply filter_In. split; [|exact RR]. apply (Permutation_in _ (Permutation_sym PM)). apply in_map. apply dget_In. exact D. }
  assert (NK : NoDup (map jk xs)).
  { unfold xs. rewrite map_map. change (NoDup (map jk (filter j_ref l))).
    assert (NL : NoDup (map jk l)).
    { apply (Permutation_NoDup (l := map jk (map x_json (p_exch p)))); [apply Permutation_map, Permutation_sym; exact PM|].
      rewrite map_map. replace (map (fun x => jk (x_json x)) (p_exch p)) with (dkeys (p_exch p)); [apply (pi_keys p I)|].
      unfold dkeys. apply map_ext. intros [k e]. rewrite jk_x_json. reflexivity. }
    clear - NL. induction l as [|x l IH]; [constructor|]. inversion NL as [|? ? N ND]; subst. cbn [filter]. destruct (j_ref x); [|auto]. cbn [map]. constructor; [|auto].
    intros J. apply N. apply in_map_iff in J as [y [E J]]. apply filter_In in J as [J _]. apply in_map_iff. eauto. }
  destruct (idx_load_refs cf xs new_proc []) as [p1 [rx [L [Q1 [S1 [E1 [E2 E3]]]]]]]; [reflexivity|reflexivity|exact NK| |].
  { intros x J. split; [|split; [|reflexivity]].
    - assert (J' : In (jk x) (p_refs p)) by (apply JK; apply in_map; exact J). apply (pi_term p I) in J'. exact J'.
    - unfold xs in J. apply in_map_iff in J as [y [<- _]]. reflexivity. }
  unfold load. rewrite XR, XN, L. cbn [load_nonrefs].
  assert (R1 : forall k, In k (p_refs p1) <-> In k (p_refs p)). { intros k. rewrite E3, <- JK. cbn. tauto. }
  assert (X1 : forall k, dget k (p_exch p1) = if mem k (p_refs p) then Some (X None [] true) else None).
  { intros k. destruct (mem k (p_refs p)) eqn:M.
    - apply mem_In in M. apply E1, JK, M.
    - apply mem_nIn in M. rewrite E2; [reflexivity|]. rewrite JK. exact M. }
  assert (V1 : forall k, exch_value p1 k = None). { intros k. unfold exch_value. rewrite X1. destruct (mem k (p_refs p)); reflexivity. }
  assert (A1 : match q with Some q => allocate cf p1 (Some q) | None => p1 end = p1).
  { destruct q as [q|]; [|reflexivity]. unfold allocate. assert (alloc_dict cf p1 q = []) as ->; [|reflexivity]. unfold alloc_dict.
    clear - V1. induction (p_refs p1) as [|r l IH]; [reflexivity|]. cbn [flat_map]. rewrite V1. exact IH. }
  rewrite A1. exists p1. split; [reflexivity|]. split; [exact R1|]. split; [|split; [exact V1|exact Q1]].
  intros k. split.
  - intros J. apply dget_key_Some in J as [e D]. rewrite X1 in D. destruct (mem k (p_refs p)) eqn:M; [|discriminate]. apply mem_In. exact M.
  - intros J. eapply dget_Some_key. rewrite X1. rewrite (proj2 (mem_In _ _) J). reflexivity.
Qed.
Lemma idx_load_ps ar0 ps : forall ar,
  (forall u, find_f u ar0 <> None -> find_f u ar <> None) ->
  (forall p, In p ps -> meta_ok kid p_over p_dflt (ap_meta p) /\ (exists c ops, ap_proc p = prun c ops)
    /\ (forall k, In k (p_refs (ap_proc p)) -> find_f (fn (k_flow k)) ar0 <> None)) ->
  NoDup (map (fun p => m_uuid (ap_meta p)) ps) -> (forall p, In p ps -> ~ In (m_uuid (ap_meta p)) (uuids ar)) ->
  exists ps', load_each (load_p fn qn kid) (map (proc_json qn false false false ar0) ps) ar
              = JOk (Archive (a_ref ar) (a_qs ar) (a_fs ar) (a_ps ar ++ ps')) /\ Forall2 idx_proc ps ps'.
Proof.
  induction ps as [|p ps IH]; intros ar FF OK ND NI; cbn [map load_each].
  - exists []. rewrite app_nil_r. destruct ar; auto.
  - inversion ND as [|? ? N ND']; subst. destruct (OK p) as (MO & [c [ops E0]] & FL); [left; reflexivity|].
    assert (PJE : proc_json qn false false false ar0 p = PJ (ent_json false p_over (ap_meta p)) (map (strip_x false) (filter j_ref (j_sort (map x_json (p_exch (ap_proc p))))))
      (match p_qty (ap_proc p) with Some q => Some (q, match find_q (qn q) ar0 with Some x => ext_ref (aq_meta x) | None => qn q end) | None => None end)) by reflexivity.
    unfold load_p at 1. rewrite PJE. cbn [pj_ent pj_xs pj_q].
    destruct (enter_ok kid ar [] p_over p_dflt false (ap_meta p)) as [m' [E [S O]]]; [exact MO|apply NI; left; reflexivity|].
    rewrite E.
    match goal with |- context [forallb ?g ?l] => assert (FP : forallb g l = true) end.
    { apply forallb_forall. intros x J. apply in_map_iff in J as [y [<- J]]. apply filter_In in J as [J RR].
      apply (Permutation_in _ (j_sort_perm _)) in J. apply in_map_iff in J as [[k e] [<- J]].
      assert (H : find_f (fn (k_flow k)) ar <> None).
      { apply FF, FL. pose proof (pinv_prun c ops) as I. rewrite <- E0 in I. apply (pi_ref _ I). exists e. split; [apply In_dget; [apply (pi_keys _ I)|exact J]|exact RR]. }
      cbn [strip_x x_json j_flow]. destruct (find_f (fn (k_flow k)) ar); [reflexivity|congruence]. }
    rewrite FP.
    match goal with |- context [load _ (_, ?q)] => set (qq := q) end.
    pose proof (idx_load (acf fn qn ar) c ops (j_sort (map x_json (p_exch (ap_proc p)))) qq) as X. cbv zeta in X. rewrite <- E0 in X.
    destruct (X (j_sort_perm _)) as [p' [LP R]]. rewrite LP.
    destruct (IH (Archive (a_ref ar) (a_qs ar) (a_fs ar) (a_ps ar ++ [AP m' p']))) as [ps' [L F]].
    + exact FF.
    + intros; apply OK; right; auto.
    + exact ND'.
    + intros q' J J'. apply (NI q'); [right; exact J|]. unfold uuids in J' |- *. cbn [a_qs a_fs a_ps] in J'. rewrite map_app, !in_app_iff in *.
      destruct J' as [J'|[J'|[J'|[E'|[]]]]]; auto. cbn [ap_meta] in E'. exfalso. apply N. destruct S as [S _]. rewrite S in E'. rewrite E'. apply in_map_iff. eauto.
    + exists (AP m' p' :: ps'). cbn [a_ref a_qs a_fs a_ps] in L, F. rewrite <- app_assoc in L. split; [exact L|]. constructor; [|exact F].
      split; [exact S|]. split; [exact O|]. exact R.
Qed.

(** The index loaded from its file knows exactly the archive's entities, with their external_refs, origins and properties;
    each flow has its reference quantity - with the factor 1, and no other factor - and each process exactly its reference
    flows in their directions, without values, other exchanges or allocation.  Partial: external_refs derivable from the
    uuids, JSON properties. *)
Theorem C112_index_partial : forall ref ar, index_ok ar ->
  exists ix, load_archive fn qn kid ref (index_file ar) = JOk ix /\
    forall u,
      match find_q u ar, find_q u ix with Some q, Some q' => same_qty false ref q q' | None, None => True | _, _ => False end
      /\ match find_f u ar, find_f u ix with Some f, Some f' => idx_flow f f' | None, None => True | _, _ => False end
      /\ match find_p u ar, find_p u ix with Some p, Some p' => idx_proc p p' | None, None => True | _, _ => False end.
Proof.
  intros ref ar [UU OQ OF OP]. unfold load_archive, index_file, save. cbn [aj_qs aj_fs aj_ps].
  pose proof UU as UU0. unfold uuids in UU0. pose proof (NoDup_app_l _ _ UU0) as NQ. pose proof (NoDup_app_r _ _ UU0) as NFP.
  pose proof (NoDup_app_l _ _ NFP) as NF. pose proof (NoDup_app_r _ _ NFP) as NP.
  destruct (ksort_map (fun x : ejson * string => ej_uuid (fst x)) (fun q => (ent_json false [] (aq_meta q), aq_unit q)) (a_qs ar)) as [qs [PQ ->]].
  destruct (ksort_map (fun x : ejson * list cjson => ej_uuid (fst x)) (fun f => (ent_json false f_over (af_meta f), flow_json false false (af_flow f))) (a_fs ar)) as [fs [PF ->]].
  destruct (ksort_map (fun x => ej_uuid (pj_ent x)) (proc_json qn false false false ar) (a_ps ar)) as [ps [PP ->]].
  assert (inQ : forall q, In q qs -> In q (a_qs ar)) by (intros q; apply Permutation_in; exact PQ).
  assert (inF : forall q, In q fs -> In q (a_fs ar)) by (intros q; apply Permutation_in; exact PF).
  assert (inP : forall q, In q ps -> In q (a_ps ar)) by (intros q; apply Permutation_in; exact PP).
  destruct (load_qs kid false qs (Archive ref [] [] [])) as [qs' [LQ FQ]].
  { intros q J. apply OQ, inQ, J. }
  { eapply Permutation_NoDup; [apply Permutation_map, Permutation_sym; exact PQ|exact NQ]. }
  { intros q _ []. }
  cbn [a_ref a_qs a_fs a_ps app] in LQ, FQ. rewrite LQ.
  assert (KQ : map (fun q => m_uuid (aq_meta q)) qs' = map (fun q => m_uuid (aq_meta q)) qs)
    by (eapply Forall2_keys; [exact FQ|]; intros x x' [[[X _] _] _]; exact X).
  assert (SQ : forall u, match find_q u ar, find (fun q => eqb (m_uuid (aq_meta q)) u) qs' with Some q, Some q' => same_qty false ref q q' | None, None => True | _, _ => False end).
  { intros u. apply (find_same (fun q => m_uuid (aq_meta q)) (same_qty false ref) (a_qs ar) qs qs' u PQ FQ); [intros x x' [[[X _] _] _]; exact X|exact NQ]. }
  destruct (idx_load_fs ar fs (Archive ref qs' [] [])) as [fs' [LF FF]].
  { intros u H. unfold find_q. cbn [a_qs]. specialize (SQ u). destruct (find_q u ar); [|congruence]. destruct (find _ qs'); [discriminate|destruct SQ]. }
  { intros f J. apply OF, inF, J. }
  { eapply Permutation_NoDup; [apply Permutation_map, Permutation_sym; exact PF|exact NF]. }
  { intros f J J'. unfold uuids in J'. cbn [a_qs a_fs a_ps map app] in J'. rewrite app_nil_r, KQ in J'.
    apply (NoDup_app_disj _ _ (m_uuid (af_meta f)) UU0).
    - eapply Permutation_in; [apply Permutation_map; exact PQ|exact J'].
    - apply in_app_iff. left. apply in_map_iff. eauto. }
  cbn [a_ref a_qs a_fs a_ps app] in LF, FF. rewrite LF.
  assert (KF : map (fun q => m_uuid (af_meta q)) fs' = map (fun q => m_uuid (af_meta q)) fs)
    by (eapply Forall2_keys; [exact FF|]; intros x x' [[X _] _]; exact X).
  assert (SF : forall u, match find_f u ar, find (fun q => eqb (m_uuid (af_meta q)) u) fs' with Some q, Some q' => idx_flow q q' | None, None => True | _, _ => False end).
  { intros u. apply (find_same (fun q => m_uuid (af_meta q)) idx_flow (a_fs ar) fs fs' u PF FF); [intros x x' [[X _] _]; exact X|exact NF]. }
  destruct (idx_load_ps ar ps (Archive ref qs' fs' [])) as [ps' [LP FP]].
  { intros u H. unfold find_f. cbn [a_fs]. specialize (SF u). destruct (find_f u ar); [|congruence]. destruct (find _ fs'); [discriminate|destruct SF]. }
  { intros p J. apply OP, inP, J. }
  { eapply Permutation_NoDup; [apply Permutation_map, Permutation_sym; exact PP|exact NP]. }
  { intros p J J'. unfold uuids in J'. cbn [a_qs a_fs a_ps map app] in J'. rewrite app_nil_r, KQ, KF, in_app_iff in J'.
    assert (JP : In (m_uuid (ap_meta p)) (map (fun p => m_uuid (ap_meta p)) (a_ps ar))) by (apply in_map_iff; eauto).
    destruct J' as [J'|J'].
    - apply (NoDup_app_disj _ _ (m_uuid (ap_meta p)) UU0); [eapply Permutation_in; [apply Permutation_map; exact PQ|exact J']|apply in_app_iff; auto].
    - apply (NoDup_app_disj _ _ (m_uuid (ap_meta p)) NFP); [eapply Permutation_in; [apply Permutation_map; exact PF|exact J']|exact JP]. }
  cbn [a_ref a_qs a_fs a_ps app] in LP, FP. rewrite LP. eexists. split; [reflexivity|]. intros u. split; [|split].
  - exact (SQ u).
  - exact (SF u).
  - apply (find_same (fun p => m_uuid (ap_meta p)) idx_proc (a_ps ar) ps ps' u PP FP); [intros x x' [[X _] _]; exact X|exact NP].
Qed.
End C112.
Print Assumptions C112_index_partial.

(** The archive of C111 meets the hypotheses; so does one whose process consumes a flow that the archive does not hold and
    whose flow has factors for unknown quantities. *)
Definition loose_flow := AF (Meta "u-steel" (Some "db") None (JarProps2.props (JarProps2.fprops "Steel")))
  (JarProps2.fl "u-mass" [("u-price", [("US", Some (Q2Qc 3))])]).
Definition loose_archive := Archive "db" [JarProps2.mass] [loose_flow] [JarProps2.smelter].
Example C112_witness : index_ok JarProps2.ex_fn JarProps2.ex_kid JarProps2.ex_archive /\ index_ok JarProps2.ex_fn JarProps2.ex_kid loose_archive.
Proof.
  split.
  - destruct JarProps2.C111_witness as [U Q F P]. constructor; [exact U|exact Q| |].
    + intros f J. destruct (F f J) as [M [K O H _ R]]. split; [exact M|]. split; [exact K|]. split; [exact O|].
      intros r E. destruct (R r E) as [c [D _]]. destruct (H _ _ D). rewrite D. split; [discriminate|]. auto.
    + intros p J. destruct (P p J) as (M & FL & _ & _ & [ops E]). split; [exact M|]. split; [eauto|]. intros k JR. apply FL.
      pose proof (pinv_prun (acf JarProps2.ex_fn JarProps2.ex_qn JarProps2.ex_archive) ops) as I. rewrite <- E in I.
      apply (pi_ref _ I) in JR as [e [D _]]. eapply dget_Some_key; exact D.
  - constructor.
    + cbn. repeat constructor; cbn; intuition discriminate.
    + intros q [<-|[]]; JarProps2.metas.
    + intros f [<-|[]]. split; [JarProps2.metas|]. split; [cbn; repeat constructor; cbn; intuition discriminate|]. split.
      * intros u c D; apply dget_In in D; destruct D as [D|[D|[]]]; injection D as <- <-; reflexivity.
      * intros r E. injection E as <-. split; [discriminate|]. split; [reflexivity|discriminate].
    + intros p [<-|[]]. split; [JarProps2.metas|]. split; [exists JarProps2.kg1, JarProps2.ops; reflexivity|].
      intros k J. vm_compute in J. destruct J as [<-|[]]. discriminate.
Qed.

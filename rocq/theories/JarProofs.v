(** Proofs for C111. *)
From Coq Require Import String Permutation.
From Verif Require Import Num Base PyStr LowerModel FlowModel ProcModel ProcProofs ProcProps ProcJsonProps JarModel.
From Verif Require LowerProps.
Open Scope string_scope.
Open Scope list_scope.

(** * Sorting *)
Lemma kinsert_perm {A} (key : A -> string) a l : Permutation (kinsert key a l) (a :: l).
Proof.
  induction l as [|b l IH]; cbn; [reflexivity|]. destruct (String.leb (key a) (key b)); [reflexivity|].
  rewrite IH. apply perm_swap.
Qed.
Lemma ksort_perm {A} (key : A -> string) l : Permutation (ksort key l) l.
Proof. unfold ksort. induction l as [|a l IH]; cbn; [reflexivity|]. rewrite kinsert_perm, IH. reflexivity. Qed.
Lemma ksort_map {A B} (key : B -> string) (f : A -> B) l : exists l', Permutation l' l /\ ksort key (map f l) = map f l'.
Proof.
  destruct (Permutation_map_inv f l (ksort_perm key (map f l))) as [l' [E P]]. exists l'. split; [apply Permutation_sym; exact P|]. exact E.
Qed.

(** * Properties *)
Definition prop (k : string) (m : meta) : option pval := LowerModel.getitem k (m_props m).
(** The entries are case-insensitive keys, each name once: what assignments build. *)
Definition wf_props (d : @ldict pval) : Prop :=
  NoDup (dkeys d) /\ forall h ko v, In (h, (ko, v)) d -> exists s, ko = KKey s /\ h = lower s.
Definition entry_of (p : string * (kobj * pval)) : string * pval := (spelling (fst (snd p)), snd (snd p)).
Lemma wf_items d : wf_props d -> items d = map entry_of d.
Proof.
  intros [ND W]. unfold items. rewrite LowerProps.items_general; [reflexivity|intros k []|].
  assert (E : dkeys d = map lower (map (fun p => spelling (fst (snd p))) d)).
  { unfold dkeys. rewrite map_map. apply map_ext_in. intros [h [ko v]] J. cbn. destruct (W _ _ _ J) as [s [-> ->]]. reflexivity. }
  rewrite E in ND. apply NoDup_map_inv in ND. exact ND.
Qed.
Lemma getitem_setitem k k' v (d : @ldict pval) :
  LowerModel.getitem k (LowerModel.setitem k' v d) = if eqb (lower k) (lower k') then Some v else LowerModel.getitem k d.
Proof.
  unfold LowerModel.getitem, LowerModel.setitem, raw_get, raw_set. cbn [hkey].
  destruct (dget (lower k') d) as [[k0 v0]|]; rewrite dget_dset; destruct (eqb (lower k) (lower k')); reflexivity.
Qed.
Definition lget (k : string) (l : list (string * pval)) : option pval := dget (lower k) (map (fun p => (lower (fst p), snd p)) l).
Lemma put_props_get l : forall d k, NoDup (map (fun p => lower (fst p)) l) ->
  LowerModel.getitem k (put_props l d) = match lget k l with Some v => Some v | None => LowerModel.getitem k d end.
Proof.
  induction l as [|[s v] l IH]; intros d k ND; cbn [put_props fold_left map]; [reflexivity|]. inversion ND as [|? ? N ND']; subst. cbn in N.
  change (fold_left _ l _) with (put_props l (LowerModel.setitem s v d)). rewrite IH by exact ND'. unfold lget. cbn [map dget fst snd].
  rewrite getitem_setitem. destruct (eqb_spec (lower k) (lower s)) as [E|]; [|reflexivity].
  destruct (dget (lower k) (map (fun p => (lower (fst p), snd p)) l)) eqn:D; [|reflexivity]. exfalso. apply N. rewrite <- E.
  apply dget_Some_key in D. unfold dkeys in D. rewrite map_map in D. exact D.
Qed.
Lemma contains_get k (d : @ldict pval) : contains k d = match LowerModel.getitem k d with Some _ => true | None => false end.
Proof. unfold contains, LowerModel.getitem, raw_get, din. destruct (dget (hkey (KKey k)) d) as [[]|]; reflexivity. Qed.
Lemma fill_get dflt : forall d k, LowerModel.getitem k d <> None -> LowerModel.getitem k (fill dflt d) = LowerModel.getitem k d.
Proof.
  induction dflt as [|[s v] l IH]; intros d k H; cbn [fill fold_left]; [reflexivity|].
  change (fold_left _ l ?x) with (fill l x). cbn [fst snd]. destruct (contains s d) eqn:C; [apply IH; exact H|].
  rewrite IH.
  - rewrite getitem_setitem. destruct (eqb_spec (lower k) (lower s)) as [E|]; [|reflexivity]. exfalso. rewrite contains_get in C.
    unfold LowerModel.getitem in *. cbn [hkey] in *. unfold raw_get in *. cbn [hkey] in *. rewrite <- E in C. destruct (dget (lower k) d); [discriminate|apply H; reflexivity].
  - rewrite getitem_setitem. destruct (eqb (lower k) (lower s)); [discriminate|exact H].
Qed.
Lemma fill_same dflt : forall d, (forall s v, In (s, v) dflt -> LowerModel.getitem s d <> None) -> fill dflt d = d.
Proof.
  induction dflt as [|[s v] l IH]; intros d H; cbn [fill fold_left]; [reflexivity|].
  change (fold_left _ l ?x) with (fill l x). cbn [fst snd]. rewrite contains_get.
  destruct (LowerModel.getitem s d) eqn:G; [|exfalso; apply (H s v); [left; reflexivity|exact G]].
  apply IH. intros s' v' J. apply (H s' v'). right; exact J.
Qed.

(** ** What an entity must satisfy *)
Definition reserved : list string := ["tags"; "entity_uuid"; "entity_type"; "external_ref"].
Section Names.
Variables fn qn : nat -> string.
Variable kid : string -> option string.

Definition json_value (v : pval) : Prop := match v with PText _ | PNumber _ | PList _ | PDict _ => True | _ => False end.
(** The reference shown: the one assigned, or else the uuid *)
Definition shown_ref (m : meta) : string := match m_ext m with Some x => x | None => m_uuid m end.
(** Properties are texts, numbers, lists or dicts, none of them named like a parameter of the constructor, like the list the
    class writes or 'tags'; the fields every entity of the class has are there; the external_ref leads to the uuid. *)
Record meta_ok (names : list string) (dflt : list (string * pval)) (m : meta) : Prop := {
  mo_wf : wf_props (m_props m);
  mo_plain : forall k v, prop k m = Some v -> json_value v;
  mo_names : forall k, In k (reserved ++ names) -> ~ In k (keys (m_props m));
  mo_name : prop "Name" m <> None;
  mo_comment : prop "Comment" m <> None;
  mo_fields : forall k v, In (k, v) dflt -> prop k m <> None;
  mo_origin : m_origin m <> None;
  mo_ext : kid (shown_ref m) = Some (m_uuid m) }.

Definition same_meta (m m' : meta) : Prop :=
  m_uuid m' = m_uuid m /\ shown_ref m' = shown_ref m /\ forall k, prop k m' = prop k m.

Lemma json_value_saved v : json_value v -> save_val v = Some v.
Proof. destruct v; cbn; intuition. Qed.
Lemma save_props_plain m : wf_props (m_props m) -> (forall k v, prop k m = Some v -> save_val v = Some v) -> save_props (m_props m) = items (m_props m).
Proof.
  intros W P. unfold save_props. rewrite (wf_items _ W).
  assert (H : forall h ko v, In (h, (ko, v)) (m_props m) -> save_val v = Some v).
  { intros h ko v J. destruct W as [ND W]. destruct (W _ _ _ J) as [s [-> ->]]. apply (P s). unfold prop, LowerModel.getitem, raw_get. cbn [hkey].
    rewrite (In_dget _ _ _ ND J). reflexivity. }
  clear P W. induction (m_props m) as [|[h [ko v]] l IH]; [reflexivity|]. cbn [map flat_map entry_of fst snd].
  rewrite (H h ko v) by (left; reflexivity). cbn [app]. f_equal. apply IH. intros; eapply H; right; eauto.
Qed.
Lemma filter_id {A} (p : A -> bool) l : (forall x, In x l -> p x = true) -> filter p l = l.
Proof. induction l as [|a l IH]; intros H; cbn; [reflexivity|]. rewrite H by (left; reflexivity). f_equal. apply IH. intros; apply H; right; auto. Qed.
Lemma has_key_In k l : has_key k l = true <-> In k (map fst l).
Proof.
  unfold has_key. rewrite existsb_exists. split.
  - intros [[a v] [J E]]. cbn [fst] in E. apply (proj1 (eqb_eq _ _)) in E as <-. apply in_map_iff. exists (a, v). auto.
  - intros J. apply in_map_iff in J as [[a v] [<- J]]. exists (a, v). split; [exact J|]. apply eqb_refl.
Qed.
Lemma has_key_no k l : ~ In k (map fst l) -> has_key k l = false.
Proof. intros H. destruct (has_key k l) eqn:E; [|reflexivity]. exfalso. apply H. apply has_key_In. exact E. Qed.

Lemma lget_items k d : wf_props d -> lget k (items d) = LowerModel.getitem k d.
Proof.
  intros W. rewrite (wf_items _ W). destruct W as [_ W]. unfold lget, LowerModel.getitem, raw_get. cbn [hkey]. rewrite map_map.
  induction d as [|[h [ko v]] l IH]; [reflexivity|]. cbn [map dget entry_of fst snd].
  destruct (W h ko v) as [s [-> ->]]; [left; reflexivity|]. cbn [spelling]. destruct (eqb (lower k) (lower s)); [reflexivity|].
  apply IH. intros; eapply W; right; eauto.
Qed.

Lemma enter_ok ar own over dflt dom m : meta_ok (own ++ over) dflt m -> ~ In (m_uuid m) (uuids ar) ->
  exists m', enter kid ar own dflt (ent_json dom over m) = JOk m' /\ same_meta m m' /\
    m_origin m' = (if dom then Some (a_ref ar) else m_origin m).
Proof.
  intros [W P N NM CM FL OR EX] NI. change (shown_ref m) with (ext_ref m) in EX.
  assert (SP : filter (fun kv => negb (mem (fst kv) over)) (save_props (m_props m)) = items (m_props m)).
  { rewrite (save_props_plain m W (fun k v J => json_value_saved v (P k v J))). apply filter_id. intros [k v] J. cbn. destruct (mem k over) eqn:E; [|reflexivity]. exfalso.
    apply mem_In in E. apply (N k); [rewrite !in_app_iff; auto|]. unfold keys, dkeys. change k with (fst (k, v)). apply in_map. exact J. }
  unfold enter, construct, ent_json. cbn [ej_props ej_uuid ej_ext ej_origin]. rewrite SP.
  assert (HK : forall k, In k (reserved ++ own) -> has_key k (items (m_props m)) = false).
  { intros k J. apply has_key_no. intros J'. apply (N k); [|exact J']. rewrite app_assoc. apply in_app_iff. left; exact J. }
  rewrite (HK "tags"), (HK "entity_uuid"), (HK "entity_type") by (cbn; tauto). cbn [orb].
  assert (OW : existsb (fun k => has_key k (items (m_props m))) own = false).
  { destruct (existsb _ own) eqn:E; [|reflexivity]. exfalso. apply existsb_exists in E as [k [J E]]. rewrite HK in E; [discriminate|]. apply in_app_iff; auto. }
  rewrite OW. rewrite (proj2 (mem_nIn _ _)) by exact NI.
  assert (NX : dget "external_ref" (items (m_props m)) = None).
  { apply dget_None. intros J. apply (N "external_ref"); [cbn; tauto|exact J]. }
  rewrite NX. rewrite filter_id.
  2:{ intros [k v] J. cbn [fst]. destruct (eqb_spec k "external_ref") as [->|]; [|reflexivity]. exfalso. apply (N "external_ref"); [cbn; tauto|].
      unfold keys, dkeys. change "external_ref" with (fst ("external_ref", v)). apply in_map. exact J. }
  set (base := LowerModel.setitem "Comment" (PText "") (LowerModel.setitem "Name" (PText "") [])).
  assert (ND : NoDup (map (fun p => lower (fst p)) (items (m_props m)))).
  { rewrite (wf_items _ W), map_map. destruct W as [ND W].
    replace (map (fun x => lower (fst (entry_of x))) (m_props m)) with (dkeys (m_props m)); [exact ND|]. unfold dkeys. apply map_ext_in.
    intros [h [ko v]] J. cbn. destruct (W _ _ _ J) as [s [-> ->]]. reflexivity. }
  assert (GP : forall k, LowerModel.getitem k (put_props (items (m_props m)) base) = prop k m).
  { intros k. rewrite put_props_get by exact ND. rewrite lget_items by exact W. fold (prop k m). destruct (prop k m) eqn:D; [reflexivity|].
    unfold base. rewrite !getitem_setitem.
    destruct (eqb_spec (lower k) (lower "Comment")) as [E|_].
    - exfalso. apply CM. unfold prop, LowerModel.getitem, raw_get in *. cbn [hkey] in *. rewrite <- E. exact D.
    - destruct (eqb_spec (lower k) (lower "Name")) as [E|_]; [|reflexivity].
      exfalso. apply NM. unfold prop, LowerModel.getitem, raw_get in *. cbn [hkey] in *. rewrite <- E. exact D. }
  rewrite fill_same by (intros s v J; rewrite GP; eapply FL; eauto).
  unfold restore_ext. cbn [m_uuid m_ext]. rewrite EX. rewrite (proj2 (eqb_eq (m_uuid m) (m_uuid m))) by reflexivity.
  eexists. split; [reflexivity|]. split.
  - destruct (eqb_spec (ext_ref m) (m_uuid m)) as [E|E]; unfold same_meta, prop, shown_ref, ext_ref; cbn [m_uuid m_ext m_props]; repeat split; auto.
  - destruct (eqb (ext_ref m) (m_uuid m)); cbn [m_origin]; destruct dom; auto; destruct (m_origin m); auto; congruence.
Qed.

(** * Flows *)
(** A factor that can be written: none yet, one for GLO, or several without GLO. *)
Definition locs_ok (l : dict string (option Qc)) : Prop :=
  l = [] \/ (exists v, l = [("GLO", Some v)]) \/ (NoDup (dkeys l) /\ dget "GLO" l = None /\ 2 <= length l).
Record flow_ok (ar : archive) (f : flow) : Prop := {
  fo_keys : NoDup (dkeys (f_chars f));
  fo_own : forall u c, dget u (f_chars f) = Some c -> q_uuid (c_q c) = u;
  fo_here : forall u c, dget u (f_chars f) = Some c -> kid u = Some u /\ find_q u ar <> None;
  fo_locs : forall u c, dget u (f_chars f) = Some c -> locs_ok (c_locs c);
  fo_ref : forall r, f_ref f = Some r -> exists c, dget (q_uuid r) (f_chars f) = Some c /\ c_locs c = [("GLO", Some (Q2Qc 1))] }.
Definition same_flow (f f' : flow) : Prop :=
  option_map q_uuid (f_ref f') = option_map q_uuid (f_ref f) /\
  forall u, option_map c_locs (dget u (f_chars f')) = option_map c_locs (dget u (f_chars f)).

Lemma cf_locs f f' q loc : (forall u, option_map c_locs (dget u (f_chars f')) = option_map c_locs (dget u (f_chars f))) ->
  FlowModel.cf q loc f' = FlowModel.cf q loc f.
Proof.
  intros H. unfold FlowModel.cf. specialize (H (q_uuid q)). destruct (dget (q_uuid q) (f_chars f')) as [c'|], (dget (q_uuid q) (f_chars f)) as [c|];
    try discriminate; [|reflexivity]. cbn in H. unfold char_get. assert (c_locs c' = c_locs c) as -> by congruence. reflexivity.
Qed.

Lemma update_fresh l : forall d : dict string (option Qc), NoDup (dkeys l) -> (forall k, In k (dkeys l) -> ~ In k (dkeys d)) ->
  fold_left (fun d p => dset (fst p) (snd p) d) l d = d ++ l.
Proof.
  induction l as [|[k v] l IH]; intros d ND H; cbn [fold_left]; [rewrite app_nil_r; reflexivity|]. inversion ND as [|? ? N ND']; subst. cbn [fst snd].
  assert (E : dset k v d = d ++ [(k, v)]).
  { assert (NI : ~ In k (dkeys d)) by (apply H; left; reflexivity). clear - NI. unfold dkeys in NI.
    induction d as [|[a b] d IH]; [reflexivity|]. cbn [map fst In app] in *. change (dset k v ((a, b) :: d)) with (if eqb k a then (a, v) :: d else (a, b) :: dset k v d).
    destruct (eqb_spec k a) as [<-|]; [exfalso; auto|]. f_equal. apply IH. tauto. }
  rewrite E, IH.
  - rewrite <- app_assoc. reflexivity.
  - exact ND'.
  - intros k' J J'. unfold dkeys in J'. rewrite map_app, in_app_iff in J'. destruct J' as [J'|[<-|[]]].
    + apply (H k'); [right; exact J|exact J'].
    + apply N. exact J.
Qed.
(** One characterization that is not of the reference quantity *)
Lemma load_char_plain u c f : q_uuid (c_q c) = u -> locs_ok (c_locs c) -> dget u (f_chars f) = None ->
  exists c', add_characterization (Qty 0 u) false (vspec_of (char_value c)) false None None f
             = (Flow (f_ref f) (dset u c' (f_chars f)) (f_comp f), None) /\ c_locs c' = c_locs c.
Proof.
  intros Q L D. unfold add_characterization. cbn [q_uuid]. rewrite D. destruct L as [L|[[v L]|[ND [G LN]]]].
  - unfold char_value. rewrite L. cbn. eexists. split; reflexivity.
  - unfold char_value. rewrite L. cbn. eexists. split; reflexivity.
  - unfold char_value. rewrite G. destruct (c_locs c) as [|[a va] [|[b vb] l]] eqn:E; [cbn in LN; lia|cbn in LN; lia|]. cbn [vspec_of].
    eexists. split; [reflexivity|]. unfold char_update, new_char. cbn [c_locs]. rewrite update_fresh; [reflexivity|exact ND|intros k _ []].
Qed.
Lemma load_char_ref u f : f_ref f = None -> dget u (f_chars f) = None ->
  exists c', add_characterization (Qty 0 u) true VNone false None None f
             = (Flow (Some (Qty 0 u)) (dset u c' (f_chars f)) (f_comp f), None) /\ c_locs c' = [("GLO", Some (Q2Qc 1))].
Proof.
  intros R D. unfold add_characterization. cbn [q_uuid]. unfold set_reference. rewrite R. cbn [f_chars f_ref f_comp].
  rewrite D. cbn. eexists. split; reflexivity.
Qed.

Definition isr (r : option qty) (u : string) : bool := match r with Some r => eqb u (q_uuid r) | None => false end.
Lemma load_chars_ok ar r L : forall f0,
  NoDup (dkeys L) ->
  (forall u c, In (u, c) L -> q_uuid (c_q c) = u /\ kid u = Some u /\ find_q u ar <> None /\ locs_ok (c_locs c)
                              /\ (isr r u = true -> c_locs c = [("GLO", Some (Q2Qc 1))]) /\ dget u (f_chars f0) = None) ->
  ((exists u c, In (u, c) L /\ isr r u = true) -> f_ref f0 = None) ->
  exists f1, load_chars kid ar (map (fun p => char_json true r (snd p)) L) f0 = JOk f1 /\
    option_map q_uuid (f_ref f1) = (if existsb (fun p => isr r (fst p)) L then option_map q_uuid r else option_map q_uuid (f_ref f0)) /\
    forall u, option_map c_locs (dget u (f_chars f1)) = match dget u L with Some c => Some (c_locs c) | None => option_map c_locs (dget u (f_chars f0)) end.
Proof.
  induction L as [|[u c] L IH]; intros f0 ND H HR; cbn [map load_chars]; [exists f0; auto|].
  inversion ND as [|? ? N ND']; subst. destruct (H u c) as (Q & K & FQ & LO & RR & D); [left; reflexivity|].
  cbn [snd]. unfold char_json. rewrite Q. fold (isr r u). cbn [cj_q cj_ref cj_value]. rewrite K.
  destruct (find_q u ar) as [q|] eqn:F; [|congruence].
  assert (MU : m_uuid (aq_meta q) = u). { unfold find_q in F. apply find_some in F as [_ F]. apply (proj1 (eqb_eq _ _)) in F. exact F. }
  rewrite MU. cbn [existsb fst dget]. destruct (isr r u) eqn:I.
  - destruct (load_char_ref u f0) as [c' [A LC]]; [apply HR; exists u, c; split; [left; reflexivity|exact I]|exact D|].
    cbn [vspec_of]. rewrite A. destruct (IH (Flow (Some (Qty 0 u)) (dset u c' (f_chars f0)) (f_comp f0)) ND') as [f1 [L1 [L2 L3]]].
    + intros u' c1 J. destruct (H u' c1) as (Q' & K' & FQ' & LO' & RR' & D'); [right; exact J|]. repeat split; auto. cbn [f_chars].
      rewrite dget_dset. destruct (eqb_spec u' u) as [->|]; [|exact D']. exfalso. apply N. change u with (fst (u, c1)). apply in_map. exact J.
    + intros [u' [c1 [J I']]]. exfalso. assert (u' = u). { unfold isr in I, I'. destruct r as [r|]; [|discriminate].
        apply (proj1 (eqb_eq _ _)) in I. apply (proj1 (eqb_eq _ _)) in I'. congruence. }
      subst u'. apply N. change u with (fst (u, c1)). apply in_map. exact J.
    + exists f1. split; [exact L1|]. split.
      * rewrite L2. cbn [orb]. destruct (existsb (fun p => isr r (fst p)) L); [reflexivity|]. cbn. unfold isr in I.
        destruct r as [r|]; [|discriminate]. apply (proj1 (eqb_eq _ _)) in I. cbn. congruence.
      * intros u'. rewrite L3. cbn [f_chars]. rewrite dget_dset. destruct (eqb_spec u' u) as [->|]; [|reflexivity].
        assert (dget u L = None) as ->. { apply dget_None. exact N. } cbn. rewrite LC. f_equal. symmetry. apply RR. reflexivity.
  - destruct (load_char_plain u c f0 Q LO D) as [c' [A LC]]. rewrite A.
    destruct (IH (Flow (f_ref f0) (dset u c' (f_chars f0)) (f_comp f0)) ND') as [f1 [L1 [L2 L3]]].
    + intros u' c1 J. destruct (H u' c1) as (Q' & K' & FQ' & LO' & RR' & D'); [right; exact J|]. repeat split; auto. cbn [f_chars].
      rewrite dget_dset. destruct (eqb_spec u' u) as [->|]; [|exact D']. exfalso. apply N. change u with (fst (u, c1)). apply in_map. exact J.
    + intros [u' [c1 [J I']]]. cbn [f_ref]. apply HR. exists u', c1. split; [right; exact J|exact I'].
    + exists f1. split; [exact L1|]. split; [rewrite L2; reflexivity|].
      intros u'. rewrite L3. cbn [f_chars]. rewrite dget_dset. destruct (eqb_spec u' u) as [->|]; [|reflexivity].
      assert (dget u L = None) as ->. { apply dget_None. exact N. } cbn. rewrite LC. reflexivity.
Qed.
Lemma dget_perm {V} (l l' : dict string V) u : Permutation l l' -> NoDup (dkeys l) -> dget u l = dget u l'.
Proof.
  intros P ND. assert (ND' : NoDup (dkeys l')) by (unfold dkeys; eapply Permutation_NoDup; [apply Permutation_map; exact P|exact ND]).
  destruct (dget u l) as [v|] eqn:D.
  - symmetry. apply In_dget; [exact ND'|]. eapply Permutation_in; [exact P|]. apply dget_In. exact D.
  - symmetry. apply dget_None. apply dget_None in D. intros J. apply D. unfold dkeys in *. eapply Permutation_in; [apply Permutation_map, Permutation_sym; exact P|exact J].
Qed.
Lemma flow_round ar ar' f comp : (forall u, find_q u ar <> None -> find_q u ar' <> None) -> flow_ok ar f ->
  exists f', load_chars kid ar' (flow_json true true f) (Flow None [] comp) = JOk f' /\ same_flow f f'.
Proof.
  intros Q [FK FO FH FL FR]. unfold flow_json. destruct (ksort_map cj_q (fun p => char_json true (f_ref f) (snd p)) (f_chars f)) as [L [P ->]].
  assert (ND : NoDup (dkeys L)) by (unfold dkeys; eapply Permutation_NoDup; [apply Permutation_map, Permutation_sym; exact P|exact FK]).
  assert (IN : forall u c, In (u, c) L -> dget u (f_chars f) = Some c) by (intros u c J; apply In_dget; [exact FK|]; eapply Permutation_in; [exact P|exact J]).
  destruct (load_chars_ok ar' (f_ref f) L (Flow None [] comp) ND) as [f1 [L1 [L2 L3]]].
  - intros u c J. apply IN in J. split; [eauto|]. destruct (FH u c J) as [K F]. split; [exact K|]. split; [apply Q; exact F|]. split; [eauto|]. split; [|reflexivity].
    intros I. unfold isr in I. destruct (f_ref f) as [r|]; [|discriminate]. apply (proj1 (eqb_eq _ _)) in I. subst u.
    destruct (FR r eq_refl) as [c1 [D1 E1]]. congruence.
  - reflexivity.
  - exists f1. split; [exact L1|]. split.
    + rewrite L2. cbn [f_ref option_map]. destruct (f_ref f) as [r|] eqn:R.
      * assert (existsb (fun p => isr (Some r) (fst p)) L = true) as ->; [|reflexivity]. apply existsb_exists.
        destruct (FR r eq_refl) as [c1 [D1 E1]]. exists (q_uuid r, c1). split; [eapply Permutation_in; [apply Permutation_sym; exact P|]; apply dget_In; exact D1|].
        cbn [isr fst]. apply eqb_refl.
      * destruct (existsb _ L); reflexivity.
    + intros u. rewrite L3. cbn [f_chars dget]. rewrite <- (dget_perm (f_chars f) L u (Permutation_sym P) FK). destruct (dget u (f_chars f)); reflexivity.
Qed.

(** * Processes: loading uses the factors only pointwise *)
Lemma allocate_ext cf cf' p q : (forall f q, cf f q = cf' f q) -> allocate cf p q = allocate cf' p q.
Proof.
  intros E. unfold allocate. destruct q as [q|]; [|reflexivity].
  assert (alloc_dict cf p q = alloc_dict cf' p q) as ->; [|reflexivity]. unfold alloc_dict. apply flat_map_ext. intros r. rewrite E. reflexivity.
Qed.
Lemma load_ext cf cf' j : (forall f q, cf f q = cf' f q) -> load cf j = load cf' j.
Proof.
  intros E. destruct j as [xs q]. unfold load.
  assert (LR : forall xs p rx, load_refs cf xs p rx = load_refs cf' xs p rx).
  { induction xs0 as [|x l IH]; intros p rx; cbn [load_refs]; [reflexivity|]. destruct (add_exchange p (j_flow x) (j_dir x) None (j_value x) TNone false) as [p1 [k|e]]; [|reflexivity].
    assert (add_reference cf p1 (j_flow x) (j_dir x) = add_reference cf' p1 (j_flow x) (j_dir x)) as ->.
    { unfold add_reference. rewrite (allocate_ext cf cf') by exact E. reflexivity. }
    destruct (add_reference cf' p1 (j_flow x) (j_dir x)) as [p2 [k2|e2]]; [apply IH|reflexivity]. }
  rewrite LR. destruct (load_refs cf' (filter j_ref xs) new_proc []) as [p1 [rx|e]]; [|reflexivity].
  destruct (load_nonrefs (filter (fun x => negb (j_ref x)) xs) rx p1) as [p2 [u|e]]; [|reflexivity].
  destruct q as [q|]; [|reflexivity]. rewrite (allocate_ext cf cf') by exact E. reflexivity.
Qed.
End Names.

(** Lemmas about the entity store model. *)
From Coq Require Import ZArith.
From Verif Require Import Base PyStr StoreModel.
Open Scope string_scope.
Open Scope nat_scope.
Open Scope list_scope.
Local Arguments eqb : simpl never.
Local Arguments mem : simpl never.

(** * The registry loop *)
Lemma loop_none self ref source rw todo : forall seen,
  (forall k s, In (k, s) todo -> source = None \/ ~ In source s) ->
  name_loop self ref source rw seen todo = LFall (seen ++ todo).
Proof.
  induction todo as [|[k s] r IH]; intros seen H; cbn [name_loop]; [rewrite app_nil_r; reflexivity|].
  assert (E : mem source s && negb (eqb source None) = false).
  { destruct (H k s (or_introl eq_refl)) as [->|N]; [rewrite eqb_refl, andb_false_r; reflexivity|].
    apply mem_nIn in N. rewrite N. reflexivity. }
  rewrite E, IH; [rewrite <- app_assoc; reflexivity|]. intros; apply (H k0); right; assumption.
Qed.

(** What the loop does at the (only) reference [k] that holds [source]. *)
Definition hit_result (self : option string) (ref : string) (source : option string) (rw : bool) (n : names_t)
    (k : string) (s : list (option string)) : loop_res :=
  let rest := if eqb k ref then LReturn n
              else if rw then LFall (dset k (set_remove source s) n) else LRaise n SSourceKnown in
  if eqb source self then
    match local_ref self with
    | SErr e => LRaise n e
    | SOk l => if eqb k l then LReturn (dset ref s (ddel k n)) else rest
    end
  else rest.

Lemma dset_mid {V} (k : string) (v w : V) a b : ~ In k (map fst a) -> dset k w (a ++ (k, v) :: b) = a ++ (k, w) :: b.
Proof.
  induction a as [|[k1 v1] a IH]; cbn; intros N; [rewrite eqb_refl; reflexivity|].
  destruct (eqb_spec k k1); [exfalso; auto|]. rewrite IH; auto.
Qed.

Lemma loop_hit self ref source rw k s b : source <> None -> In source s ->
  (forall k' s', In (k', s') b -> ~ In source s') -> forall a seen,
  (forall k' s', In (k', s') a -> ~ In source s') -> ~ In k (map fst (seen ++ a)) ->
  name_loop self ref source rw seen (a ++ (k, s) :: b) = hit_result self ref source rw (seen ++ a ++ (k, s) :: b) k s.
Proof.
  intros NN I Hb. induction a as [|[k1 s1] a IH]; intros seen Ha Nk.
  - cbn [name_loop app]. replace (mem source s) with true by (symmetry; apply mem_In; exact I).
    replace (eqb source None) with false by (symmetry; apply eqb_neq; exact NN). cbn [andb negb].
    unfold hit_result.
    replace (name_loop self ref source rw (seen ++ [(k, set_remove source s)]) b)
      with (LFall (dset k (set_remove source s) (seen ++ (k, s) :: b))); [reflexivity|].
    rewrite loop_none by (intros; right; eapply Hb; eauto). rewrite dset_mid by (rewrite app_nil_r in Nk; exact Nk).
    rewrite <- app_assoc. reflexivity.
  - cbn [name_loop app].
    replace (mem source s1) with false by (symmetry; apply mem_nIn; apply (Ha k1); left; reflexivity). cbn [andb].
    rewrite IH.
    + rewrite <- app_assoc. reflexivity.
    + intros k' s' J. apply (Ha k'). right; exact J.
    + rewrite <- app_assoc. exact Nk.
Qed.

(** * The registry invariant *)
Definition regd (n : names_t) (k : string) (v : option string) : Prop := In v (sget k n).
Record ninv (n : names_t) : Prop := {
  ni_keys : NoDup (dkeys n);
  ni_uniq : forall v k1 k2, v <> None -> regd n k1 v -> regd n k2 v -> k1 = k2;
  ni_valid : forall k v, regd n k v -> valid_ref k = true }.

Lemma regd_In n k v : NoDup (dkeys n) -> (regd n k v <-> exists s, In (k, s) n /\ In v s).
Proof.
  intros ND. unfold regd, sget. split.
  - destruct (dget k n) as [s|] eqn:E; [|intros []]. intros I. exists s. split; [apply dget_In; exact E|exact I].
  - intros [s [J I]]. rewrite (In_dget _ _ _ ND J). exact I.
Qed.

(** Every case of the loop on a registry that satisfies the invariant. *)
Lemma name_loop_cases self ref source rw n : ninv n ->
  ((source = None \/ forall k, ~ regd n k source) /\ name_loop self ref source rw [] n = LFall n) \/
  (source <> None /\ exists k, regd n k source /\ name_loop self ref source rw [] n = hit_result self ref source rw n k (sget k n)).
Proof.
  intros I. destruct (eq_dec source None) as [E|NN].
  { left. split; [auto|]. rewrite loop_none; [reflexivity|auto]. }
  destruct (existsb (fun p => mem source (snd p)) n) eqn:X.
  - right. split; auto. apply existsb_exists in X as [[k s] [J M]]. cbn [snd] in M. apply (proj1 (mem_In _ _)) in M.
    exists k. assert (R : regd n k source) by (apply regd_In; [apply I|eauto]). split; [exact R|].
    apply in_split in J as [a [b ->]]. pose proof (ni_keys _ I) as ND. unfold dkeys in ND. rewrite map_app in ND. cbn in ND.
    pose proof (NoDup_remove_2 _ _ _ ND) as N2. rewrite in_app_iff in N2.
    assert (G : sget k (a ++ (k, s) :: b) = s).
    { unfold sget. rewrite (In_dget k s); [reflexivity|apply I|apply in_elt]. }
    rewrite G. change (a ++ (k, s) :: b) with ([] ++ a ++ (k, s) :: b) at 2. apply loop_hit; auto.
    + intros k' s' J M'. apply N2. right. assert (k' = k) as <-; [|apply in_map_iff; exists (k', s'); auto].
      apply (ni_uniq _ I source); auto. apply regd_In; [apply I|]. exists s'. rewrite in_app_iff. cbn. auto.
    + intros k' s' J M'. apply N2. left. assert (k' = k) as <-; [|apply in_map_iff; exists (k', s'); auto].
      apply (ni_uniq _ I source); auto. apply regd_In; [apply I|]. exists s'. rewrite in_app_iff. auto.
  - left. assert (H : forall k, ~ regd n k source).
    { intros k R. apply regd_In in R; [|apply I]. destruct R as [s [J M]].
      apply Bool.not_true_iff_false in X. apply X. apply existsb_exists. exists (k, s). split; [exact J|]. apply mem_In; exact M. }
    split; [auto|]. rewrite loop_none; [reflexivity|]. intros k s J. right. intros M. apply (H k). apply regd_In; [apply I|eauto].
Qed.

Lemma sget_dset {A} k k' (v : list A) d : sget k (dset k' v d) = if eqb k k' then v else sget k d.
Proof. unfold sget. rewrite dget_dset. destruct (eqb k k'); reflexivity. Qed.
Lemma sget_ddel {A} k k' (d : dict string (list A)) : sget k (ddel k' d) = if eqb k k' then [] else sget k d.
Proof. unfold sget. rewrite dget_ddel. destruct (eqb k k'); reflexivity. Qed.
Lemma nget_dset k k' v d : nget k (dset k' v d) = if eqb k k' then v else nget k d.
Proof. unfold nget. rewrite dget_dset. destruct (eqb k k'); reflexivity. Qed.

(** How the registry relation changes, case by case. *)
Inductive nchange (self : option string) (ref : string) (source : option string) (rw : bool) (n n' : names_t) : Prop :=
| nc_new : (source = None \/ forall k, ~ regd n k source) ->
    n' = dset ref (set_add source (sget ref n)) n -> nchange self ref source rw n n'
| nc_same : source <> None -> (source = self -> local_ref self <> SOk ref) -> regd n ref source -> n' = n -> nchange self ref source rw n n'
| nc_move k : source <> None -> (source = self -> local_ref self <> SOk k) -> rw = true -> k <> ref -> regd n k source ->
    n' = dset ref (set_add source (sget ref n)) (dset k (set_remove source (sget k n)) n) -> nchange self ref source rw n n'
| nc_override k : source <> None -> source = self -> local_ref self = SOk k -> regd n k source ->
    n' = dset ref (sget k n) (ddel k n) -> nchange self ref source rw n n'.

Lemma ref_of_with_names n st : s_source (with_names n st) = s_source st. Proof. reflexivity. Qed.

Lemma add_name_ok ref source rw st st' : ninv (s_names st) -> add_name ref source rw st = (st', None) ->
  valid_ref ref = true /\ nchange (s_source st) ref source rw (s_names st) (s_names st') /\
  s_ents st' = s_ents st /\ s_types st' = s_types st /\ s_keyid st' = s_keyid st /\ s_counter st' = s_counter st /\
  s_bytype st' = s_bytype st /\ s_dref st' = s_dref st /\
  (s_source st' = s_source st \/
   (s_source st = None /\ rw = true /\ s_source st' = source /\ ref_of (with_source None st') = SOk ref /\ regd (s_names st') ref source)).
Proof.
  intros I. unfold add_name. destruct (valid_ref ref) eqn:V; cbn [negb]; [|discriminate].
  intros E0; split; [reflexivity|]; revert E0.
  assert (TAIL : forall n, match ref_of (with_names n st) with
                 | SOk r => if eqb ref r && eqb (s_source (with_names n st)) None && rw
                            then (with_source source (with_names n st), None) else (with_names n st, None)
                 | SErr e => (with_names n st, Some e) end = (st', None) ->
        s_names st' = n /\ s_ents st' = s_ents st /\ s_types st' = s_types st /\ s_keyid st' = s_keyid st /\ s_counter st' = s_counter st /\
        s_bytype st' = s_bytype st /\ s_dref st' = s_dref st /\
        (s_source st' = s_source st \/ (s_source st = None /\ rw = true /\ s_source st' = source /\ ref_of (with_source None st') = SOk ref))).
  { intros n. destruct (ref_of (with_names n st)) as [r|e] eqn:R; [|discriminate].
    destruct (eqb_spec ref r) as [<-|_]; [|intros E; injection E as <-; cbn; repeat (split; [reflexivity|]); auto].
    destruct (eqb_spec (s_source (with_names n st)) None) as [S0|_];
      [|intros E; injection E as <-; cbn; repeat (split; [reflexivity|]); auto].
    cbn in S0. destruct rw; intros E; injection E as <-; cbn; repeat (split; [reflexivity|]); auto.
    right. repeat split; auto. rewrite <- R. unfold ref_of. cbn. rewrite S0. reflexivity. }
  destruct (name_loop_cases (s_source st) ref source rw (s_names st) I) as [[H ->]|[NN [k [R ->]]]].
  - intros E. apply TAIL in E as (E & ? & ? & ? & ? & ? & ? & D). split; [apply nc_new; auto|].
    repeat (split; [assumption|]). destruct D as [D|(D1 & D2 & D3 & D4)]; [left; exact D|right].
    repeat (split; [assumption|]). unfold regd. rewrite E, sget_dset, eqb_refl. apply In_set_add; auto.
  - unfold hit_result.
    assert (REST : (s_source st = source -> local_ref (s_source st) <> SOk k) -> (match (if eqb k ref then LReturn (s_names st)
              else if rw then LFall (dset k (set_remove source (sget k (s_names st))) (s_names st)) else LRaise (s_names st) SSourceKnown) with
       | LReturn n => (with_names n st, None)
       | LRaise n e => (with_names n st, Some e)
       | LFall n =>
           let st1 := with_names (dset ref (set_add source (sget ref n)) n) st in
           match ref_of st1 with
           | SErr e => (st1, Some e)
           | SOk r => if eqb ref r && eqb (s_source st1) None && rw
                      then (with_source source st1, None) else (st1, None)
           end
       end = (st', None)) ->
       nchange (s_source st) ref source rw (s_names st) (s_names st') /\
  s_ents st' = s_ents st /\ s_types st' = s_types st /\ s_keyid st' = s_keyid st /\ s_counter st' = s_counter st /\
  s_bytype st' = s_bytype st /\ s_dref st' = s_dref st /\
  (s_source st' = s_source st \/
   (s_source st = None /\ rw = true /\ s_source st' = source /\ ref_of (with_source None st') = SOk ref /\ regd (s_names st') ref source))).
    { intros NL. destruct (eqb_spec k ref) as [->|NK].
      - intros E. injection E as <-. split; [apply nc_same; auto|]. cbn. repeat (split; [reflexivity|]). auto.
      - destruct rw; [|discriminate]. intros E. cbv zeta in E. apply TAIL in E as (E & ? & ? & ? & ? & ? & ? & D).
        split.
        { eapply nc_move with (k := k); eauto. rewrite E. rewrite sget_dset. destruct (eqb_spec ref k); [congruence|]. reflexivity. }
        repeat (split; [assumption|]). destruct D as [D|(D1 & D2 & D3 & D4)]; [left; exact D|right].
        repeat (split; [assumption|]). unfold regd. rewrite E, sget_dset, eqb_refl. apply In_set_add; auto. }
    destruct (eqb_spec source (s_source st)) as [->|NSS]; [|apply REST; congruence].
    destruct (local_ref (s_source st)) as [l|e] eqn:L; [|discriminate].
    destruct (eqb_spec k l) as [->|NKL]; [|apply REST; congruence].
    intros E. injection E as <-. split; [eapply nc_override; eauto|]. cbn. repeat (split; [reflexivity|]). auto.
Qed.

(** The registration of the archive's own source while it is still under the default local reference [l]. *)
Definition override_of (self : option string) (n : names_t) (source : option string) (l : string) : Prop :=
  source <> None /\ source = self /\ local_ref self = SOk l /\ regd n l source.

Lemma nchange_override self ref source rw n n' l : ninv n -> nchange self ref source rw n n' ->
  override_of self n source l -> n' = dset ref (sget l n) (ddel l n).
Proof.
  intros I C (NN & SS & L & R). destruct C as [H E|_ NL R2 E|k0 _ NL RW NK R2 E|k0 _ _ L2 R2 E].
  - destruct H as [->|H]; [congruence|]. destruct (H l R).
  - exfalso. apply (NL SS). rewrite L. f_equal. apply (ni_uniq _ I source); auto.
  - exfalso. apply (NL SS). rewrite L. f_equal. apply (ni_uniq _ I source); auto.
  - congruence.
Qed.

Lemma override_regd ref n l k v : regd (dset ref (sget l n) (ddel l n)) k v <->
  (k = ref /\ regd n l v) \/ (k <> ref /\ k <> l /\ regd n k v).
Proof.
  unfold regd at 1. rewrite sget_dset, sget_ddel. destruct (eqb_spec k ref) as [->|N1].
  - split; [auto|]. intros [[_ J]|[J _]]; [exact J|congruence].
  - destruct (eqb_spec k l) as [->|N2].
    + split; [intros []|]. intros [[J _]|(_ & J & _)]; congruence.
    + split; [auto|]. intros [[J _]|(_ & _ & J)]; [congruence|exact J].
Qed.

Lemma nchange_normal self ref source rw n n' : ninv n -> nchange self ref source rw n n' ->
  (forall l, ~ override_of self n source l) ->
  forall k v, regd n' k v <-> (v = source /\ (k = ref \/ (source = None /\ regd n k v))) \/ (v <> source /\ regd n k v).
Proof.
  intros I C NO k v. destruct C as [H E|NN NL R E|k0 NN NL RW NK R E|k0 NN SS L R E]; subst n'.
  - unfold regd at 1. rewrite sget_dset. destruct (eqb_spec k ref) as [->|NE].
    + rewrite In_set_add. destruct (eq_dec v source) as [->|NV]; [tauto|]. unfold regd. tauto.
    + fold (regd n k v). destruct (eq_dec v source) as [->|NV]; [|tauto]. split; [|tauto].
      intros J. destruct H as [->|H]; [tauto|]. destruct (H k J).
  - destruct (eq_dec v source) as [->|NV]; [|tauto]. split.
    + intros J. left. split; [reflexivity|]. left. apply (ni_uniq _ I source); auto.
    + intros [[_ [->|[? _]]]|[? _]]; [exact R|contradiction|contradiction].
  - unfold regd at 1. rewrite sget_dset. destruct (eqb_spec k ref) as [->|NE].
    + rewrite In_set_add. destruct (eq_dec v source) as [->|NV]; [tauto|]. unfold regd. tauto.
    + rewrite sget_dset. destruct (eqb_spec k k0) as [->|NE0].
      * rewrite In_set_remove. destruct (eq_dec v source) as [->|NV]; [|unfold regd; tauto].
        split; [intros [_ X]; congruence|]. intros [[_ [->|[? _]]]|[? _]]; congruence.
      * fold (regd n k v). destruct (eq_dec v source) as [->|NV]; [|tauto]. split.
        -- intros J. exfalso. apply NE0. apply (ni_uniq _ I source); auto.
        -- intros [[_ [->|[? _]]]|[? _]]; congruence.
  - exfalso. apply (NO k0). repeat split; auto.
Qed.

Lemma nchange_ninv self ref source rw n n' : valid_ref ref = true -> ninv n -> nchange self ref source rw n n' -> ninv n'.
Proof.
  intros V I C.
  assert (K : NoDup (dkeys n')).
  { destruct C as [H E|NN NL R E|k0 NN NL RW NK R E|k0 NN SS L R E]; subst n';
      repeat apply NoDup_dset; try apply NoDup_ddel; apply I. }
  assert (D : (exists l, override_of self n source l) \/ forall l, ~ override_of self n source l).
  { destruct C as [H E|NN NL R E|k0 NN NL RW NK R E|k0 NN SS L R E].
    - right. intros l (NN & _ & _ & R). destruct H as [->|H]; [congruence|]. apply (H l R).
    - right. intros l (_ & SS & L & R2). apply (NL SS). rewrite L. f_equal. apply (ni_uniq _ I source); auto.
    - right. intros l (_ & SS & L & R2). apply (NL SS). rewrite L. f_equal. apply (ni_uniq _ I source); auto.
    - left. exists k0. repeat split; auto. }
  destruct D as [[l O]|NO].
  - rewrite (nchange_override _ _ _ _ _ _ _ I C O) in K |- *. split; [exact K| |].
    + intros v k1 k2 NV A B. apply override_regd in A. apply override_regd in B.
      destruct A as [[-> A]|(A1 & A2 & A)], B as [[-> B]|(B1 & B2 & B)]; auto.
      * exfalso. apply B2. symmetry. apply (ni_uniq _ I v); auto.
      * exfalso. apply A2. apply (ni_uniq _ I v); auto.
      * apply (ni_uniq _ I v); auto.
    + intros k v A. apply override_regd in A. destruct A as [[-> A]|(A1 & A2 & A)]; [exact V|]. eapply ni_valid; eauto.
  - pose proof (nchange_normal _ _ _ _ _ _ I C NO) as N. split; [exact K| |].
    + intros v k1 k2 NV A B. apply N in A. apply N in B.
      destruct A as [[E1 [->|[? A]]]|[NA A]], B as [[E2 [->|[? B]]]|[NB B]]; try congruence.
      apply (ni_uniq _ I v); auto.
    + intros k v A. apply N in A. destruct A as [[-> [->|[? A]]]|[NA A]]; [exact V| |]; eapply ni_valid; eauto.
Qed.

Lemma add_name_fail ref source rw st st' e : ninv (s_names st) -> add_name ref source rw st = (st', Some e) ->
  (st' = st /\ (e = SInvalidRef /\ valid_ref ref = false \/
                e = SSourceKnown /\ source <> None /\ rw = false /\ (exists k, k <> ref /\ regd (s_names st) k source) \/
                source = s_source st /\ local_ref source = SErr e /\ (exists k, regd (s_names st) k source))) \/
  (first_ref (s_source st) (s_names st) = None /\ source <> s_source st /\ local_ref (s_source st) = SErr e).
Proof.
  intros I. unfold add_name. destruct (valid_ref ref) eqn:V; cbn [negb]; [|intros E; injection E as <- <-; auto].
  assert (WN : with_names (s_names st) st = st) by (destruct st; reflexivity).
  assert (FR : forall n, (forall k, In (s_source st) (sget k (s_names st)) -> In (s_source st) (sget k n)) ->
             NoDup (dkeys n) -> NoDup (dkeys (s_names st)) ->
             first_ref (s_source st) n = None -> first_ref (s_source st) (s_names st) = None).
  { intros n H ND ND0 F. destruct (first_ref (s_source st) (s_names st)) as [k|] eqn:G; [|reflexivity]. exfalso.
    assert (P : forall n k, first_ref (s_source st) n = Some k -> exists s, In (k, s) n /\ In (s_source st) s).
    { clear. induction n as [|[k1 s1] r IH]; cbn; intros k E; [discriminate|].
      destruct (mem_spec (s_source st) s1) as [M|M]; [injection E as ->; eauto|].
      destruct (IH _ E) as [s [? ?]]. eauto. }
    assert (Q : forall n, first_ref (s_source st) n = None -> forall k s, In (k, s) n -> ~ In (s_source st) s).
    { clear. induction n as [|[k1 s1] r IH]; cbn; intros E k s J; [destruct J|].
      destruct (mem_spec (s_source st) s1) as [M|M]; [discriminate|]. destruct J as [J|J]; [congruence|eauto]. }
    apply P in G as [s [J M]]. assert (Y : In (s_source st) (sget k n)) by (apply H; unfold sget; rewrite (In_dget _ _ _ ND0 J); exact M).
    unfold sget in Y. destruct (dget k n) as [s2|] eqn:D; [|destruct Y]. apply dget_In in D. apply (Q _ F _ _ D Y). }
  assert (TAIL : forall n, (forall k, In (s_source st) (sget k (s_names st)) -> In (s_source st) (sget k n)) ->
                 NoDup (dkeys n) -> (s_source st = source -> exists k, In (s_source st) (sget k n)) ->
                 match ref_of (with_names n st) with
                 | SOk r => if eqb ref r && eqb (s_source (with_names n st)) None && rw
                            then (with_source source (with_names n st), None) else (with_names n st, None)
                 | SErr x => (with_names n st, Some x) end = (st', Some e) ->
        first_ref (s_source st) (s_names st) = None /\ source <> s_source st /\ local_ref (s_source st) = SErr e).
  { intros n H ND X. destruct (ref_of (with_names n st)) as [r|x] eqn:R.
    - destruct (eqb ref r && eqb (s_source (with_names n st)) None && rw); discriminate.
    - unfold ref_of in R. cbn in R. destruct (first_ref (s_source st) n) eqn:F; [discriminate|].
      intros E. injection E as _ <-. split; [apply (FR n); auto; apply I|]. split; [|exact R].
      intros ->. destruct (X eq_refl) as [k J]. clear - F J ND. unfold sget in J. destruct (dget k n) as [s|] eqn:D; [|destruct J].
      apply dget_In in D. revert D J F. clear. induction n as [|[k1 s1] r IH]; cbn; [tauto|].
      intros [D|D] J; [injection D as -> ->; rewrite (proj2 (mem_In _ _) J); discriminate|].
      destruct (mem (s_source st) s1); [discriminate|auto]. }
  destruct (name_loop_cases (s_source st) ref source rw (s_names st) I) as [[H ->]|[NN [k [R ->]]]].
  - intros E. right. cbv zeta in E. eapply TAIL; [| | |exact E].
    + intros k J. rewrite sget_dset. destruct (eqb_spec k ref) as [->|_]; [apply In_set_add; auto|exact J].
    + apply NoDup_dset, I.
    + intros ->. exists ref. rewrite sget_dset, eqb_refl. apply In_set_add; auto.
  - unfold hit_result.
    destruct (eqb_spec source (s_source st)) as [SE|NS].
    + destruct (local_ref (s_source st)) as [l|x] eqn:L.
      * destruct (eqb_spec k l) as [->|_]; [discriminate|].
        destruct (eqb_spec k ref) as [->|NK]; [discriminate|].
        destruct rw.
        -- intros E. right. cbv zeta in E. exfalso.
           unfold ref_of in E. cbn in E.
           destruct (first_ref (s_source st) _) eqn:F in E; [destruct (_ && _ && _) in E; discriminate|].
           clear - F SE NK. revert F. rewrite <- SE.
           assert (W : In source (sget ref (dset ref (set_add source (sget ref (dset k (set_remove source (sget k (s_names st))) (s_names st))))
                     (dset k (set_remove source (sget k (s_names st))) (s_names st)))))
             by (rewrite sget_dset, eqb_refl; apply In_set_add; auto).
           revert W. generalize (dset ref (set_add source (sget ref (dset k (set_remove source (sget k (s_names st))) (s_names st))))
                     (dset k (set_remove source (sget k (s_names st))) (s_names st))). intros n J F.
           unfold sget in J. destruct (dget ref n) as [s|] eqn:D; [|destruct J].
           apply dget_In in D. revert D J F. clear. induction n as [|[k1 s1] r IH]; cbn; [tauto|].
           intros [D|D] J; [injection D as -> ->; rewrite (proj2 (mem_In _ _) J); discriminate|].
           destruct (mem source s1); [discriminate|auto].
        -- intros E. injection E as <- <-. rewrite WN. left. split; [reflexivity|]. right; left. repeat split; eauto.
      * intros E. injection E as <- <-. rewrite WN. left. split; [reflexivity|]. right; right. rewrite SE in R |- *. repeat split; eauto.
    + destruct (eqb_spec k ref) as [->|NK]; [discriminate|]. destruct rw.
      * intros E. right. cbv zeta in E. eapply TAIL; [| | |exact E].
        -- intros k' J. rewrite sget_dset. destruct (eqb_spec k' ref) as [->|_].
           ++ apply In_set_add. right. rewrite sget_dset. destruct (eqb_spec ref k); [congruence|exact J].
           ++ rewrite sget_dset. destruct (eqb_spec k' k) as [->|_]; [apply In_set_remove; auto|exact J].
        -- repeat apply NoDup_dset. apply I.
        -- congruence.
      * intros E. injection E as <- <-. rewrite WN. left. split; [reflexivity|]. right; left. repeat split; eauto.
Qed.

(** C47, C48, C69: the registry of references and sources, retrieval, and saving/loading the registry. *)
From Coq Require Import ZArith.
From Verif Require Import Base PyStr StoreModel StoreProofs StoreProps.
Open Scope string_scope.
Open Scope nat_scope.
Open Scope list_scope.
Local Arguments eqb : simpl never.
Local Arguments mem : simpl never.

(** * Invariants of the registry *)
Lemma add_name_names ref source rw st : ninv (s_names st) ->
  s_names (fst (add_name ref source rw st)) = s_names st \/
  (valid_ref ref = true /\ nchange (s_source st) ref source rw (s_names st) (s_names (fst (add_name ref source rw st)))).
Proof.
  intros I. unfold add_name. destruct (valid_ref ref) eqn:V; cbn [negb]; [|left; reflexivity].
  assert (TAIL : forall n, s_names (fst (match ref_of (with_names n st) with
                 | SOk r => if eqb ref r && eqb (s_source (with_names n st)) None && rw
                            then (with_source source (with_names n st), @None sexn) else (with_names n st, None)
                 | SErr e => (with_names n st, Some e) end)) = n).
  { intros n. destruct (ref_of _); [destruct (_ && _ && _)|]; reflexivity. }
  destruct (name_loop_cases (s_source st) ref source rw (s_names st) I) as [[H ->]|[NN [k [R ->]]]].
  - right. split; [reflexivity|]. cbv zeta. rewrite TAIL. apply nc_new; auto.
  - unfold hit_result.
    assert (REST : (s_source st = source -> local_ref (s_source st) <> SOk k) -> forall x, x = (if eqb k ref then LReturn (s_names st)
              else if rw then LFall (dset k (set_remove source (sget k (s_names st))) (s_names st)) else LRaise (s_names st) SSourceKnown) ->
       let y := (match x with
       | LReturn n => (with_names n st, @None sexn)
       | LRaise n e => (with_names n st, Some e)
       | LFall n =>
           let st1 := with_names (dset ref (set_add source (sget ref n)) n) st in
           match ref_of st1 with
           | SErr e => (st1, Some e)
           | SOk r => if eqb ref r && eqb (s_source st1) None && rw
                      then (with_source source st1, None) else (st1, None)
           end
       end) in s_names (fst y) = s_names st \/ (true = true /\ nchange (s_source st) ref source rw (s_names st) (s_names (fst y)))).
    { intros NL x ->. destruct (eqb_spec k ref) as [->|NK]; [left; reflexivity|].
      destruct rw; [|left; reflexivity]. right. split; [reflexivity|]. cbv zeta. rewrite TAIL.
      eapply nc_move with (k := k); eauto. rewrite sget_dset. destruct (eqb_spec ref k); [congruence|reflexivity]. }
    destruct (eqb_spec source (s_source st)) as [->|NS]; [|apply (REST ltac:(congruence) _ eq_refl)].
    destruct (local_ref (s_source st)) as [l|e] eqn:L; [|left; reflexivity].
    destruct (eqb_spec k l) as [->|NKL]; [|apply (REST ltac:(congruence) _ eq_refl)].
    right. split; [reflexivity|]. eapply nc_override; eauto.
Qed.

Lemma add_name_ninv ref source rw st : ninv (s_names st) -> ninv (s_names (fst (add_name ref source rw st))).
Proof.
  intros I. destruct (add_name_names ref source rw st I) as [->|[V C]]; [exact I|]. eapply nchange_ninv; eauto.
Qed.
Lemma set_source_ninv ref source st : ninv (s_names st) -> ninv (s_names (fst (set_source ref source st))).
Proof. intros I. apply (add_name_ninv ref source false (with_source source st)). exact I. Qed.
Lemma write_ninv f up st : ninv (s_names st) -> ninv (s_names (fst (write_to_file f up st))).
Proof.
  intros I. unfold write_to_file. destruct (s_source st).
  - destruct (din _ _); [exact I|]. destruct (ref_of st); [apply add_name_ninv|]; exact I.
  - destruct (ref_of st); [apply set_source_ninv|]; exact I.
Qed.

Lemma get_sources_regd name st k v : regd (s_names (fst (get_sources name st))) k v <-> regd (s_names st) k v.
Proof.
  unfold get_sources. cbn. destruct (dget name (s_names st)) eqn:E; [reflexivity|]. unfold regd. rewrite sget_dset.
  destruct (eqb_spec k name) as [->|]; [|reflexivity]. unfold sget. rewrite E. reflexivity.
Qed.
Lemma get_sources_ninv name st : ninv (s_names st) -> ninv (s_names (fst (get_sources name st))).
Proof.
  intros I. split.
  - unfold get_sources; cbn. destruct (dget name (s_names st)); [apply I|apply NoDup_dset, I].
  - intros v k1 k2 NV. rewrite !get_sources_regd. apply I. exact NV.
  - intros k v. rewrite get_sources_regd. apply I.
Qed.

Lemma ninv_nil : ninv [].
Proof. split; [constructor|intros v k1 k2 _ []|intros k v []]. Qed.

Lemma add_same_names i k h st : s_names (snd (fst (add i k h st))) = s_names st /\ s_source (snd (fst (add i k h st))) = s_source st.
Proof.
  unfold add. destruct (nth_error h i) as [e|]; [|auto]. destruct (din _ _); [auto|]. destruct (negb _); [auto|].
  destruct (negb _); [auto|]. destruct (e_origin e); [auto|]. destruct (eqb _ _); [|auto]. destruct (ref_of st); auto.
Qed.
Lemma basic_add_same_names i h st :
  s_names (snd (fst (basic_add i h st))) = s_names st /\ s_source (snd (fst (basic_add i h st))) = s_source st.
Proof. unfold basic_add. destruct (nth_error h i) as [e|]; [|auto]. destruct (mem _ _); [apply add_same_names|auto]. Qed.

Lemma ninv_step up o h st h' st' r : step up o h st = (h', st', r) -> ninv (s_names st) -> ninv (s_names st').
Proof.
  intros S I. destruct o as [e|i g x v|i k|i|t|rf s w|rf s|n|f|k]; cbn [step] in S.
  - injection S as _ <- _. exact I.
  - injection S as _ <- _. exact I.
  - pose proof (add_same_names i k h st) as [E _]. rewrite S in E. cbn in E. rewrite E. exact I.
  - pose proof (basic_add_same_names i h st) as [E _]. rewrite S in E. cbn in E. rewrite E. exact I.
  - injection S as _ <- _. destruct t; exact I.
  - pose proof (add_name_ninv rf s w st I) as F. destruct (add_name rf s w st). injection S as _ <- _. exact F.
  - pose proof (set_source_ninv rf s st I) as F. destruct (set_source rf s st). injection S as _ <- _. exact F.
  - pose proof (get_sources_ninv n st I) as F. injection S as _ <- _. exact F.
  - pose proof (write_ninv f up st I) as F. destruct (write_to_file f up st). injection S as _ <- _. exact F.
  - destruct (getitem k h (st :: up)). injection S as _ <- _. exact I.
Qed.

Lemma init_ninv source ref types keyid st : init source ref types keyid = SOk st ->
  ninv (s_names st) /\ s_source st = source /\ exists k, regd (s_names st) k source.
Proof.
  unfold init. destruct (match ref with Some r => SOk r | None => local_ref source end) as [r|]; [|discriminate].
  pose proof (add_name_ninv r source false (Store r source [] types keyid [] [] []) ninv_nil) as N.
  destruct (add_name _ _ _ _) as [s [x|]] eqn:E; [discriminate|]. intros X. injection X as <-. cbn in N. split; [exact N|].
  destruct (add_name_ok r source false (Store r source [] types keyid [] [] []) s ninv_nil E) as (_ & C & _ & _ & _ & _ & _ & _ & D). cbn in *.
  destruct D as [D|(_ & ? & _)]; [|discriminate]. split; [exact D|]. exists r.
  destruct C as [H E1|NN _ R E1|k0 _ _ ? _ _ _|k0 _ _ _ R _]; [|destruct R|discriminate|destruct R].
  rewrite E1. unfold regd. rewrite sget_dset, eqb_refl. apply In_set_add; auto.
Qed.

Lemma hist_ninv up tr h st : archive_after up tr h st -> ninv (s_names st).
Proof.
  intros (source & ref & types & keyid & h0 & st0 & I & H). induction H as [|tr h st o h' st' r H IH S].
  - apply (init_ninv _ _ _ _ _ I).
  - eapply ninv_step; eauto.
Qed.

(** * C47 *)

(** After every history, a source is registered under at most one reference (and the reference is well formed). *)
Theorem C47_one_reference_per_source up tr h st v k1 k2 : archive_after up tr h st ->
  In (Some v) (sget k1 (s_names st)) -> In (Some v) (sget k2 (s_names st)) -> k1 = k2 /\ valid_ref k1 = true.
Proof.
  intros H A B. pose proof (hist_ninv _ _ _ _ H) as I. split; [apply (ni_uniq _ I (Some v)); auto; discriminate|].
  apply (ni_valid _ I k1 (Some v) A).
Qed.
Print Assumptions C47_one_reference_per_source.

(** ** The archive's own source stays registered *)
Lemma first_ref_Some src n k : first_ref src n = Some k -> exists s, In (k, s) n /\ In src s.
Proof.
  induction n as [|[k1 s1] r IH]; cbn; intros E; [discriminate|].
  destruct (mem_spec src s1) as [M|M]; [injection E as ->; eauto|]. destruct (IH E) as [s [? ?]]. eauto.
Qed.
Lemma first_ref_regd src n k : NoDup (dkeys n) -> first_ref src n = Some k -> regd n k src.
Proof. intros ND E. apply first_ref_Some in E as (s & J & M). apply regd_In; eauto. Qed.
Lemma regd_first_ref src n k : regd n k src -> exists k', first_ref src n = Some k'.
Proof.
  unfold regd, sget. destruct (dget k n) as [s|] eqn:D; [|intros []]. apply dget_In in D. revert D.
  induction n as [|[k1 s1] r IH]; cbn; [tauto|]. destruct (mem_spec src s1) as [M|M]; [eauto|].
  intros [E|J] I; [congruence|auto].
Qed.

Definition own_reg (st : store) : Prop := exists k, regd (s_names st) k (s_source st).
Lemma own_reg_ref st : ninv (s_names st) -> own_reg st ->
  exists k, ref_of st = SOk k /\ regd (s_names st) k (s_source st) /\ valid_ref k = true.
Proof.
  intros I [k R]. destruct (regd_first_ref _ _ _ R) as [k' E]. exists k'. unfold ref_of. rewrite E.
  pose proof (first_ref_regd _ _ _ (ni_keys _ I) E) as R'. repeat split; auto. eapply ni_valid; eauto.
Qed.

Lemma nchange_source self ref source rw n n' : ninv n -> nchange self ref source rw n n' -> regd n' ref source.
Proof.
  intros I C. destruct C as [H E|NN NL R E|k0 NN NL RW NK R E|k0 NN SS L R E]; subst n'; auto;
    unfold regd; rewrite sget_dset, eqb_refl; try (apply In_set_add; auto). exact R.
Qed.
Lemma nchange_keeps_own self ref source rw n n' k : ninv n -> nchange self ref source rw n n' -> regd n k self ->
  exists k', regd n' k' self.
Proof.
  intros I C R. destruct (eq_dec source self) as [->|NS]; [exists ref; eapply nchange_source; eauto|].
  exists k. apply (nchange_normal _ _ _ _ _ _ I C).
  - intros l (_ & ? & _). contradiction.
  - right. split; auto.
Qed.

Lemma add_name_own ref source rw st : ninv (s_names st) -> own_reg st -> own_reg (fst (add_name ref source rw st)).
Proof.
  intros I [k R]. destruct (add_name ref source rw st) as [st' [e|]] eqn:A; cbn.
  - destruct (add_name_fail _ _ _ _ _ _ I A) as [[-> _]|(F & _)]; [exists k; exact R|].
    destruct (regd_first_ref _ _ _ R) as [k' E]. congruence.
  - destruct (add_name_ok _ _ _ _ _ I A) as (_ & C & _ & _ & _ & _ & _ & _ & D).
    destruct D as [D|(D1 & D2 & D3 & D4 & D5)].
    + unfold own_reg. rewrite D. eapply nchange_keeps_own; eauto.
    + exists ref. rewrite D3. exact D5.
Qed.
Lemma set_source_own ref source st : ninv (s_names st) -> valid_ref ref = true -> own_reg (fst (set_source ref source st)).
Proof.
  intros I V. unfold set_source. destruct (add_name ref source false (with_source source st)) as [st' [e|]] eqn:A; cbn.
  - destruct (add_name_fail ref source false (with_source source st) st' e I A)
      as [[-> [[_ W]|[(_ & _ & _ & k & _ & R)|(_ & _ & k & R)]]]|(_ & W & _)].
    + congruence.
    + exists k. exact R.
    + exists k. exact R.
    + exfalso. apply W. reflexivity.
  - destruct (add_name_ok ref source false (with_source source st) st' I A) as (_ & C & _ & _ & _ & _ & _ & _ & D).
    destruct D as [D|(_ & ? & _)]; [|discriminate]. exists ref. rewrite D. cbn. eapply nchange_source; [exact I|exact C].
Qed.
Lemma write_own f up st : ninv (s_names st) -> own_reg st -> own_reg (fst (write_to_file f up st)).
Proof.
  intros I O. destruct (own_reg_ref _ I O) as (k & E & R & V). unfold write_to_file. rewrite E. destruct (s_source st).
  - destruct (din _ _); [exact O|]. apply add_name_own; auto.
  - apply set_source_own; auto.
Qed.

(** Every [_set_source] of the history names a well formed reference ([create_descendant] and [write_to_file] do). *)
Definition good_sources (tr : list (op * option sexn)) : Prop :=
  forall r s e, In (OpSetSource r s, e) tr -> valid_ref r = true.

Lemma own_step up o h st h' st' r : step up o h st = (h', st', r) -> ninv (s_names st) -> own_reg st ->
  (forall rf s, o = OpSetSource rf s -> valid_ref rf = true) -> own_reg st'.
Proof.
  intros S I O G. destruct o as [e|i g x v|i k|i|t|rf s w|rf s|n|f|k]; cbn [step] in S.
  - injection S as _ <- _. exact O.
  - injection S as _ <- _. exact O.
  - pose proof (add_same_names i k h st) as [E E2]. rewrite S in E, E2. cbn in E, E2. unfold own_reg. rewrite E, E2. exact O.
  - pose proof (basic_add_same_names i h st) as [E E2]. rewrite S in E, E2. cbn in E, E2. unfold own_reg. rewrite E, E2. exact O.
  - injection S as _ <- _. destruct t; exact O.
  - pose proof (add_name_own rf s w st I O) as F. destruct (add_name rf s w st). injection S as _ <- _. exact F.
  - pose proof (set_source_own rf s st I (G _ _ eq_refl)) as F. destruct (set_source rf s st). injection S as _ <- _. exact F.
  - injection S as _ <- _. destruct O as [k R]. exists k. apply get_sources_regd. exact R.
  - pose proof (write_own f up st I O) as F. destruct (write_to_file f up st). injection S as _ <- _. exact F.
  - destruct (getitem k h (st :: up)). injection S as _ <- _. exact O.
Qed.
Lemma hist_own up tr h st : archive_after up tr h st -> good_sources tr -> own_reg st.
Proof.
  intros (source & ref & types & keyid & h0 & st0 & I & H) G. destruct (init_ninv _ _ _ _ _ I) as (N0 & S0 & R0).
  induction H as [|tr h st o h' st' r H IH S].
  - unfold own_reg. rewrite S0. exact R0.
  - eapply own_step; eauto.
    + apply (hist_ninv up tr h st). exists source, ref, types, keyid, h0, st0. auto.
    + apply IH. intros ? ? ? J. eapply G. apply in_app_iff. left. exact J.
    + intros rf s ->. eapply G. apply in_app_iff. right. left. reflexivity.
Qed.

(** The archive's reference is always defined: it is a reference under which its own source is registered. *)
Theorem C47_archive_reference_defined up tr h st : archive_after up tr h st -> good_sources tr ->
  exists k, ref_of st = SOk k /\ In (s_source st) (sget k (s_names st)) /\ valid_ref k = true.
Proof. intros H G. apply own_reg_ref; [eapply hist_ninv; eauto|eapply hist_own; eauto]. Qed.
Print Assumptions C47_archive_reference_defined.

(** ** One registration *)

(** A failed registration changes nothing; without [rewrite] it fails exactly when the reference is malformed or the
    source is known under another reference (the remaining case is a source whose default reference does not exist). *)
Theorem C47_failed_registration_changes_nothing up tr h st ref source rw st' e :
  archive_after up tr h st -> good_sources tr -> add_name ref source rw st = (st', Some e) ->
  st' = st /\
  (e = SInvalidRef /\ valid_ref ref = false \/
   e = SSourceKnown /\ source <> None /\ rw = false /\ (exists k, k <> ref /\ In source (sget k (s_names st))) \/
   source = s_source st /\ local_ref source = SErr e).
Proof.
  intros H G A. pose proof (hist_ninv _ _ _ _ H) as I. destruct (hist_own _ _ _ _ H G) as [k R].
  destruct (add_name_fail _ _ _ _ _ _ I A) as [[-> D]|(F & _)].
  - split; [reflexivity|]. destruct D as [D|[D|(D1 & D2 & _)]]; auto.
  - destruct (regd_first_ref _ _ _ R) as [k' E]. congruence.
Qed.
Print Assumptions C47_failed_registration_changes_nothing.

(** The archive's own source is being registered while it is still under the default local reference [l]. *)
Definition own_default (st : store) (source : option string) (l : string) : Prop :=
  source <> None /\ source = s_source st /\ local_ref (s_source st) = SOk l /\ In source (sget l (s_names st)).

(** A successful registration puts the source under the reference and, apart from the own-source override, changes the
    registration of no other source. *)
Theorem C47_registration_effect up tr h st ref source rw st' :
  archive_after up tr h st -> add_name ref source rw st = (st', None) ->
  valid_ref ref = true /\ In source (sget ref (s_names st')) /\
  ((forall l, ~ own_default st source l) ->
   (forall k v, v <> source -> (In v (sget k (s_names st')) <-> In v (sget k (s_names st)))) /\
   (source <> None -> forall k, In source (sget k (s_names st')) <-> k = ref)) /\
  (forall l, own_default st source l -> forall k v,
   In v (sget k (s_names st')) <-> (k = ref /\ In v (sget l (s_names st))) \/ (k <> ref /\ k <> l /\ In v (sget k (s_names st)))).
Proof.
  intros H A. pose proof (hist_ninv _ _ _ _ H) as I. destruct (add_name_ok _ _ _ _ _ I A) as (V & C & _).
  split; [exact V|]. split; [eapply nchange_source; eauto|]. split.
  - intros NO. pose proof (nchange_normal _ _ _ _ _ _ I C NO) as N. unfold regd in N. split.
    + intros k v NV. rewrite N. tauto.
    + intros NN k. rewrite N. tauto.
  - intros l O k v. rewrite (nchange_override _ _ _ _ _ _ _ I C O). apply override_regd.
Qed.
Print Assumptions C47_registration_effect.

(** No registration is lost, unless the own-source override lands on a reference that already had sources. *)
Theorem C47_no_registration_lost_partial up tr h st ref source rw st' k v :
  archive_after up tr h st -> add_name ref source rw st = (st', None) ->
  (forall l, own_default st source l -> l <> ref -> sget ref (s_names st) = []) ->
  In (Some v) (sget k (s_names st)) -> exists k', In (Some v) (sget k' (s_names st')).
Proof.
  intros H A X R. pose proof (hist_ninv _ _ _ _ H) as I.
  destruct (C47_registration_effect _ _ _ _ _ _ _ _ H A) as (V & S & N & O).
  destruct (eq_dec (Some v) source) as [<-|NV]; [eauto|].
  destruct (add_name_ok _ _ _ _ _ I A) as (_ & C & _).
  assert (D : (exists l, own_default st source l) \/ forall l, ~ own_default st source l).
  { destruct C as [Hn E|NN NL R2 E|k0 NN NL RW NK R2 E|k0 NN SS L R2 E].
    - right. intros l (NN & _ & _ & R2). destruct Hn as [->|Hn]; [congruence|]. apply (Hn l R2).
    - right. intros l (_ & SS & L & R3). apply (NL SS). rewrite L. f_equal. apply (ni_uniq _ I source); auto.
    - right. intros l (_ & SS & L & R3). apply (NL SS). rewrite L. f_equal. apply (ni_uniq _ I source); auto.
    - left. exists k0. repeat split; auto. }
  destruct D as [[l D]|D].
  - destruct (eq_dec k l) as [->|NK]; [exists ref; apply (O l D); auto|].
    destruct (eq_dec k ref) as [->|NR].
    + destruct (eq_dec l ref) as [->|NL]; [congruence|]. rewrite (X l D NL) in R. destruct R.
    + exists k. apply (O l D). auto.
  - exists k. apply (N D). auto. exact R.
Qed.
Print Assumptions C47_no_registration_lost_partial.

(** The own-source override drops the sources the target reference already had: such a source is afterwards registered
    nowhere, although the registration raised nothing. *)
Theorem C47_no_registration_lost_refuted :
  exists tr h st ref st' v k, archive_after [] tr h st /\ good_sources tr /\
    In (Some v) (sget k (s_names st)) /\ add_name ref (s_source st) false st = (st', None) /\
    (forall k', ~ In (Some v) (sget k' (s_names st'))) /\ dget (Some v) (chain_names [st']) = None.
Proof.
  exists ([] ++ [(OpName "maker.data" (Some "mirror.json") false, None)]). eexists _, _, "maker.data", _, "mirror.json", "maker.data".
  split.
  - exists (Some "data.json"), None, ["flow"], (fun _ => None), []. eexists. split; [vm_compute; reflexivity|]. run_hist.
  - split; [intros r s e [J|[]]; discriminate|]. split; [vm_compute; tauto|]. split; [vm_compute; reflexivity|]. split; [|vm_compute; reflexivity].
    intros k'. unfold sget. cbn [s_names with_names dget]. destruct (eqb k' "maker.data"); [|intros []]. intros [J|[]]; discriminate.
Qed.
Print Assumptions C47_no_registration_lost_refuted.

(** Registering a source other than the archive's own never changes the archive's reference. *)
Lemma first_ref_dset src k s n : NoDup (dkeys n) -> (In src s <-> In src (sget k n)) ->
  first_ref src (dset k s n) = first_ref src n.
Proof.
  intros ND. unfold sget, dkeys in *. induction n as [|[k1 s1] r IH]; cbn.
  - intros E. destruct (mem_spec src s) as [M|]; [apply E in M; destruct M|reflexivity].
  - cbn in ND. inversion ND as [|? ? N1 N2]; subst. destruct (eqb_spec k k1) as [->|NK]; cbn.
    + intros E. destruct (mem_spec src s) as [M|M], (mem_spec src s1) as [M1|M1]; try reflexivity.
      * apply E in M. contradiction.
      * apply E in M1. contradiction.
    + intros E. destruct (mem src s1); [reflexivity|]. apply IH; auto.
Qed.

Theorem C47_archive_reference_stable up tr h st ref source rw st' :
  archive_after up tr h st -> good_sources tr -> source <> s_source st ->
  add_name ref source rw st = (st', None) -> ref_of st' = ref_of st.
Proof.
  intros H G NS A. pose proof (hist_ninv _ _ _ _ H) as I. destruct (hist_own _ _ _ _ H G) as [k0 R0].
  destruct (add_name_ok _ _ _ _ _ I A) as (_ & C & _ & _ & _ & _ & _ & _ & D).
  assert (F : first_ref (s_source st) (s_names st') = first_ref (s_source st) (s_names st)).
  { destruct C as [Hn E|NN NL R2 E|k1 NN NL RW NK R2 E|k1 NN SS L R2 E].
    - rewrite E. apply first_ref_dset; [apply I|]. rewrite In_set_add. split; [|auto]. intros [J|J]; [congruence|exact J].
    - rewrite E. reflexivity.
    - rewrite E. rewrite first_ref_dset.
      + apply first_ref_dset; [apply I|]. rewrite In_set_remove. split; [tauto|]. intros J; split; [exact J|congruence].
      + apply NoDup_dset, I.
      + rewrite sget_dset. destruct (eqb_spec ref k1); [congruence|]. rewrite In_set_add. split; [|auto]. intros [J|J]; [congruence|exact J].
    - congruence. }
  destruct (regd_first_ref _ _ _ R0) as [k' E0].
  destruct D as [D|(D1 & D2 & D3 & D4 & D5)].
  - unfold ref_of. rewrite D, F. reflexivity.
  - unfold ref_of in *. rewrite E0. rewrite D1 in F, E0. cbn in D4. rewrite F, E0 in D4. injection D4 as ->.
    destruct (regd_first_ref _ _ _ D5) as [k2 E2]. rewrite D3, E2. f_equal.
    assert (I' : ninv (s_names st')).
    { pose proof (add_name_ninv ref source rw st I) as Q. rewrite A in Q. exact Q. }
    apply (ni_uniq _ I' source); [congruence| |exact D5]. apply first_ref_regd; [apply I'|exact E2].
Qed.
Print Assumptions C47_archive_reference_stable.

(** [names] maps every source to the reference it has in the archive, or else to the one it has upstream. *)
Lemma dget_fold_set (v : option string) k s : forall acc : dict (option string) string,
  dget v (fold_left (fun acc v => dset v k acc) s acc) = if mem v s then Some k else dget v acc.
Proof.
  induction s as [|x s IH]; intros acc; cbn [fold_left]; [reflexivity|]. rewrite IH, dget_dset.
  unfold mem at 2; fold (@mem (option string) _). destruct (eqb_spec v x) as [->|]; destruct (mem _ s); reflexivity.
Qed.

Theorem C47_names_maps_sources_to_references up tr h st v : archive_after up tr h st ->
  (forall k, In (Some v) (sget k (s_names st)) -> dget (Some v) (chain_names (st :: up)) = Some k) /\
  ((forall k, ~ In (Some v) (sget k (s_names st))) -> dget (Some v) (chain_names (st :: up)) = dget (Some v) (chain_names up)).
Proof.
  intros H. pose proof (hist_ninv _ _ _ _ H) as I. cbn [chain_names].
  assert (P : forall n acc, NoDup (dkeys n) -> ninv n ->
     (forall k, regd n k (Some v) -> dget (Some v) (fold_left (fun acc p => fold_left (fun acc v => dset v (fst p) acc) (snd p) acc) n acc) = Some k) /\
     ((forall k, ~ regd n k (Some v)) -> dget (Some v) (fold_left (fun acc p => fold_left (fun acc v => dset v (fst p) acc) (snd p) acc) n acc) = dget (Some v) acc)).
  { clear. induction n as [|[k1 s1] r IH]; intros acc ND I; [split; [intros k []|reflexivity]|].
    assert (IR : ninv r).
    { unfold dkeys in ND; cbn in ND. inversion ND as [|? ? N1 N2]; subst.
      assert (L : forall k x, regd r k x -> regd ((k1, s1) :: r) k x).
      { intros k x R. unfold regd, sget in *. cbn. destruct (eqb_spec k k1) as [->|]; [|exact R].
        destruct (dget k1 r) eqn:E; [|destruct R]. exfalso. apply N1. apply (dget_Some_key _ _ _ E). }
      split; [exact N2| |].
      - intros x a b NX A B. apply (ni_uniq _ I x); auto.
      - intros k x R. apply (ni_valid _ I k x). auto. }
    unfold dkeys in ND; cbn in ND. inversion ND as [|? ? N1 N2]; subst. cbn [fold_left fst snd].
    destruct (IH (fold_left (fun acc v => dset v k1 acc) s1 acc) N2 IR) as [P Q].
    assert (X : forall k, regd ((k1, s1) :: r) k (Some v) <-> (k = k1 /\ In (Some v) s1) \/ (k <> k1 /\ regd r k (Some v))).
    { intros k. unfold regd, sget. cbn. destruct (eqb_spec k k1) as [->|]; tauto. }
    split.
    - intros k R. apply X in R. destruct R as [[-> R]|[NK R]]; [|apply P; exact R].
      destruct (existsb (fun p => mem (Some v) (snd p)) r) eqn:EX.
      + apply existsb_exists in EX as ([k2 s2] & J & M). cbn in M. apply (proj1 (mem_In _ _)) in M.
        assert (R2 : regd r k2 (Some v)) by (apply regd_In; [exact N2|eauto]).
        rewrite (P _ R2). f_equal. apply (ni_uniq _ I (Some v)); [discriminate| |apply X; auto].
        apply X. destruct (eq_dec k2 k1) as [->|]; [left; auto|right; auto].
      + rewrite Q.
        * rewrite dget_fold_set. rewrite (proj2 (mem_In _ _) R). reflexivity.
        * intros k2 R2. apply regd_In in R2; [|exact N2]. destruct R2 as (s2 & J & M).
          apply Bool.not_true_iff_false in EX. apply EX. apply existsb_exists. exists (k2, s2). split; [exact J|apply mem_In; exact M].
    - intros NR. rewrite Q.
      + rewrite dget_fold_set. replace (mem (Some v) s1) with false; [reflexivity|]. symmetry. apply mem_nIn. intros J. apply (NR k1). apply X. auto.
      + intros k R2. destruct (eq_dec k k1) as [->|].
        * unfold regd, sget in R2. destruct (dget k1 r) eqn:E; [|destruct R2]. apply N1. apply (dget_Some_key _ _ _ E).
        * apply (NR k). apply X. auto. }
  apply P; [apply I|exact I].
Qed.
Print Assumptions C47_names_maps_sources_to_references.

(** [get_sources(name)]: the sources of [name] if it has any, else those of the references that start with [name]; asking
    changes no registration. *)
Theorem C47_get_sources name st : NoDup (dkeys (s_names st)) ->
  (forall k v, In v (sget k (s_names (fst (get_sources name st)))) <-> In v (sget k (s_names st))) /\
  forall v, In v (snd (get_sources name st)) <->
    (sget name (s_names st) <> [] /\ In v (sget name (s_names st))) \/
    (sget name (s_names st) = [] /\ exists k, starts_with name k = true /\ In v (sget k (s_names st))).
Proof.
  intros ND. split; [intros k v; apply get_sources_regd|]. intros v. unfold get_sources. cbn [snd].
  set (n := match dget name (s_names st) with Some _ => s_names st | None => dset name [] (s_names st) end).
  assert (NDn : NoDup (dkeys n)) by (unfold n; destruct (dget name (s_names st)); [exact ND|apply NoDup_dset; exact ND]).
  assert (E : forall k, sget k n = sget k (s_names st)).
  { intros k. unfold n. destruct (dget name (s_names st)) eqn:D; [reflexivity|]. rewrite sget_dset.
    destruct (eqb_spec k name) as [->|]; [|reflexivity]. unfold sget. rewrite D. reflexivity. }
  rewrite E. destruct (sget name (s_names st)) as [|x s] eqn:S.
  - assert (F : forall m acc, In v (fold_left (fun acc p => if starts_with name (fst p) then set_union acc (snd p) else acc) m acc) <->
              In v acc \/ exists k s, In (k, s) m /\ starts_with name k = true /\ In v s).
    { induction m as [|[k s] m IH]; intros acc; cbn [fold_left fst snd].
      - split; [auto|]. intros [J|(k & s & [] & _)]. exact J.
      - rewrite IH. split.
        + intros [J|(k' & s' & J & X & Y)]; [|right; exists k', s'; cbn; auto].
          destruct (starts_with name k) eqn:W; [|auto]. apply In_set_union in J as [J|J]; [auto|]. right. exists k, s. cbn. auto.
        + intros [J|(k' & s' & [J|J] & X & Y)].
          * left. destruct (starts_with name k); [apply In_set_union; auto|exact J].
          * injection J as -> ->. rewrite X. left. apply In_set_union. auto.
          * right. exists k', s'. auto. }
    rewrite F. split.
    + intros [[]|(k & s & J & X & Y)]. right. split; [reflexivity|]. exists k. split; [exact X|]. rewrite <- E. unfold sget.
      rewrite (In_dget _ _ _ NDn J). exact Y.
    + intros [[N _]|[_ (k & X & Y)]]; [congruence|]. right. rewrite <- E in Y. unfold sget in Y.
      destruct (dget k n) as [s|] eqn:D; [|destruct Y]. exists k, s. split; [apply dget_In; exact D|auto].
  - split; [intros J; left; split; [discriminate|exact J]|]. intros [[_ J]|[J _]]; [exact J|discriminate].
Qed.
Print Assumptions C47_get_sources.

(** Asking is not invisible, though: the name asked for is listed among [catalog_names] afterwards. *)
Theorem C47_query_is_pure_refuted : exists tr h st name, archive_after [] tr h st /\
  ~ In name (dkeys (s_names st)) /\ In name (dkeys (s_names (fst (get_sources name st)))).
Proof.
  exists [], []. eexists _, "nobody". split; [|split].
  - exists (Some "data.json"), None, ["flow"], (fun _ => None), []. eexists. split; [vm_compute; reflexivity|]. apply hist_nil.
  - vm_compute. intros [J|[]]; discriminate.
  - vm_compute. auto.
Qed.
Print Assumptions C47_query_is_pure_refuted.

(** * C48: retrieval *)

(** Archive [st] holds entity [i] for the key [k]. *)
Definition holds (st : store) (k : key) (i : nat) : Prop := dget (s_keyid st k) (s_ents st) = Some i.
Definition ref_defined (st : store) : Prop := exists r, ref_of st = SOk r.

(** Only the origin of entity [i] changed from [h] to [h'], and only if it had none: it became [r]. *)
Definition origin_assigned (h h' : heap) (i : nat) (r : string) : Prop :=
  forall j, nth_error h' j =
    match nth_error h j with
    | Some e => Some (if eqb j i then match e_origin e with
                                      | None => Ent (e_uuid e) (e_type e) (Some r) (e_ext e) (e_valid e)
                                      | Some _ => e
                                      end else e)
    | None => None
    end.

Lemma get_entity_spec k h st : ref_defined st ->
  match dget k (s_ents st) with
  | None => get_entity k h st = (h, SErr SKeyError)
  | Some i => exists h' r, get_entity k h st = (h', SOk (Some i)) /\ ref_of st = SOk r /\ origin_assigned h h' i r
  end.
Proof.
  intros [r R]. unfold get_entity. destruct (dget k (s_ents st)) as [i|]; [|reflexivity].
  destruct (nth_error h i) as [[u t [o|] x v]|] eqn:N.
  - exists h, r. repeat split; auto. intros j. destruct (nth_error h j) as [e|] eqn:J; [|reflexivity].
    destruct (eqb_spec j i) as [->|]; [|reflexivity]. rewrite N in J. injection J as <-. reflexivity.
  - rewrite R. exists (set_origin i r h), r. repeat split; auto. intros j. unfold set_origin. rewrite nth_upd.
    destruct (Nat.eqb_spec i j) as [->|NE].
    + rewrite N. cbn. rewrite eqb_refl. reflexivity.
    + destruct (nth_error h j); [|reflexivity]. destruct (eqb_spec j i); [congruence|reflexivity].
  - exists h, r. repeat split; auto. intros j. destruct (nth_error h j) as [e|] eqn:J; [|reflexivity].
    destruct (eqb_spec j i) as [->|]; [congruence|reflexivity].
Qed.

(** Looking up a key: the most upstream archive that holds it answers; nothing else than the origin of the entity returned
    can change, and only from None to the reference of the archive that answers.  No archive holds it: None, no change. *)
Theorem C48_lookup_order k h ch h' res : k <> KNone -> ch <> [] -> Forall ref_defined ch -> getitem k h ch = (h', res) ->
  match res with
  | SErr _ => False
  | SOk None => h' = h /\ forall st i, In st ch -> ~ holds st k i
  | SOk (Some i) => exists down st up r, ch = down ++ st :: up /\ holds st k i /\
      (forall u j, In u up -> ~ holds u k j) /\ ref_of st = SOk r /\ origin_assigned h h' i r
  end.
Proof.
  intros NK _ F. revert h h' res. induction F as [|st up RD F IH]; intros h h' res E.
  { destruct k; [congruence| |]; cbn in E; injection E as <- <-; split; [reflexivity|intros ? ? []|reflexivity|intros ? ? []]. }
  pose proof (get_entity_spec (s_keyid st k) h st RD) as G.
  assert (LOC : forall h1 r1, (match get_entity (s_keyid st k) h1 st with
            | (h', SErr SKeyError) => (h', SOk None) | r => r end) = (h', r1) ->
          (forall u j, In u up -> ~ holds u k j) -> h1 = h ->
          match r1 with
          | SErr _ => False
          | SOk None => h' = h /\ forall s i, In s (st :: up) -> ~ holds s k i
          | SOk (Some i) => exists down s up' r, st :: up = down ++ s :: up' /\ holds s k i /\
              (forall u j, In u up' -> ~ holds u k j) /\ ref_of s = SOk r /\ origin_assigned h h' i r
          end).
  { intros h1 r1 X NU ->. destruct (dget (s_keyid st k) (s_ents st)) as [i|] eqn:D.
    - destruct G as (h2 & r & G & R & O). rewrite G in X. injection X as <- <-.
      exists [], st, up, r. repeat split; auto.
    - rewrite G in X. injection X as <- <-. split; [reflexivity|]. intros s i [<-|J] HO; [|eapply NU; eauto].
      unfold holds in HO. congruence. }
  assert (MAIN : (match up with [] => (match get_entity (s_keyid st k) h st with
            | (h', SErr SKeyError) => (h', SOk None) | r => r end)
        | _ => match getitem k h up with
               | (h', SOk None) => (match get_entity (s_keyid st k) h' st with
            | (h', SErr SKeyError) => (h', SOk None) | r => r end)
               | r => r end end) = (h', res)).
  { destruct k; [congruence| |]; exact E. }
  destruct up as [|u up].
  - apply (LOC h res MAIN); [intros u j []|reflexivity].
  - destruct (getitem k h (u :: up)) as [h1 r1] eqn:GU. specialize (IH h h1 r1 GU).
    destruct r1 as [[i|]|x]; [| |destruct IH].
    + injection MAIN as <- <-. destruct IH as (d & s & up' & r & E1 & HO & NU & R & O).
      exists (st :: d), s, up', r. rewrite E1. repeat split; auto.
    + destruct IH as [-> NU]. apply (LOC h res MAIN); auto.
Qed.
Print Assumptions C48_lookup_order.

(** Every archive of every history has a defined reference, so the hypothesis of [C48_lookup_order] holds. *)
Theorem C48_lookup_order_in_any_archive up tr h0 st k h h' res :
  archive_after up tr h0 st -> good_sources tr -> Forall ref_defined up -> k <> KNone ->
  getitem k h (st :: up) = (h', res) ->
  match res with
  | SErr _ => False
  | SOk None => h' = h /\ forall s i, In s (st :: up) -> ~ holds s k i
  | SOk (Some i) => exists down s up' r, st :: up = down ++ s :: up' /\ holds s k i /\
      (forall u j, In u up' -> ~ holds u k j) /\ ref_of s = SOk r /\ origin_assigned h h' i r
  end.
Proof.
  intros H G F NK E. apply (C48_lookup_order k h (st :: up) h' res); auto; [discriminate|].
  constructor; [|exact F]. destruct (C47_archive_reference_defined _ _ _ _ H G) as (r & R & _). exists r; exact R.
Qed.
Print Assumptions C48_lookup_order_in_any_archive.

(** None is looked up as None. *)
Theorem C48_none_key h ch : getitem KNone h ch = (h, SOk None).
Proof. destruct ch; reflexivity. Qed.
Print Assumptions C48_none_key.

(** [retrieve_or_fetch_entity] calls the fetch function exactly when no archive of the chain holds the key. *)
Theorem C48_fetch_only_when_missing fetch k h ch res called : k <> KNone -> ch <> [] -> Forall ref_defined ch ->
  retrieve_or_fetch fetch k h ch = (res, called) ->
  (called = true <-> forall st i, In st ch -> ~ holds st k i) /\
  (called = true -> res = fetch h k) /\ (called = false -> res = getitem k h ch).
Proof.
  intros NK NE F D. destruct (getitem k h ch) as [h1 r1] eqn:G. pose proof (C48_lookup_order _ _ _ _ _ NK NE F G) as L.
  assert (U : retrieve_or_fetch fetch k h ch = match r1 with SOk None => (fetch h1 k, true) | _ => (h1, r1, false) end).
  { destruct k; [congruence| |]; cbn [retrieve_or_fetch]; rewrite G; destruct r1 as [[?|]|?]; reflexivity. }
  rewrite U in D. destruct r1 as [[i|]|x]; [| |destruct L].
  - injection D as <- <-. split; [|split; [discriminate|reflexivity]]. split; [discriminate|].
    intros N. destruct L as (d & s & up & r & -> & HO & _). exfalso. apply (N s i); [apply in_elt|exact HO].
  - destruct L as [-> N]. injection D as <- <-. repeat split; auto; discriminate.
Qed.
Print Assumptions C48_fetch_only_when_missing.

(** A two-archive chain: the upstream entity wins, and an entity without origin gets the reference of its archive. *)
Example C48_example :
  let kid k := match k with KStr s => Some s | _ => None end in
  let up := Store "up" (Some "u.json") [("up", [Some "u.json"])] ["flow"] kid [(Some "a", 0)] [] [] in
  let me := Store "me" (Some "m.json") [("me", [Some "m.json"])] ["flow"] kid [(Some "a", 1); (Some "b", 2)] [] [] in
  let h := [Ent "a" "flow" (Some "up") "a" true; Ent "a" "flow" (Some "me") "a" true; Ent "b" "flow" None "b" true] in
  getitem (KStr "a") h [me; up] = (h, SOk (Some 0)) /\
  getitem (KStr "b") h [me; up] =
    ([Ent "a" "flow" (Some "up") "a" true; Ent "a" "flow" (Some "me") "a" true; Ent "b" "flow" (Some "me") "b" true], SOk (Some 2)) /\
  Forall ref_defined [me; up].
Proof. repeat split; try reflexivity. repeat constructor; eexists; vm_compute; reflexivity. Qed.

(** * C69: saving and loading the registry *)

(** The fuel of [strip_exts] is enough: no known extension is left. *)
Lemma split_last_dot_app s : forall a b, split_last_dot s = Some (a, b) -> (a ++ b)%string = s /\ b <> EmptyString.
Proof.
  induction s as [|c r IH]; cbn; intros a b; [discriminate|]. destruct (split_last_dot r) as [[x y]|].
  - intros E; injection E as <- <-. destruct (IH _ _ eq_refl) as [<- N]. split; [reflexivity|exact N].
  - destruct (Ascii.eqb c "."); [|discriminate]. intros E; injection E as <- <-. split; [reflexivity|discriminate].
Qed.
Lemma strip_exts_exact s : forall fuel, String.length s <= fuel -> mem (snd (splitext (strip_exts fuel s))) known_exts = false.
Proof.
  intros fuel. revert s. induction fuel as [|n IH]; intros s L; cbn [strip_exts].
  - destruct s; [reflexivity|cbn in L; lia].
  - destruct (mem (snd (splitext s)) known_exts) eqn:M; [|exact M]. apply IH.
    unfold splitext in *. destruct (split_last_dot s) as [[a b]|] eqn:E; [|discriminate].
    destruct (all_dots a); [discriminate|]. cbn in *. apply split_last_dot_app in E as [<- N].
    assert (X : String.length (a ++ b) = String.length a + String.length b) by (clear; induction a; cbn; auto).
    destruct b; [congruence|]. cbn in X. lia.
Qed.

Lemma In_saved_names st k v : NoDup (dkeys (s_names st)) ->
  (In (k, v) (saved_names st) <-> falsy v = false /\ In v (sget k (s_names st))).
Proof.
  intros ND. unfold saved_names. rewrite in_flat_map. split.
  - intros ([k1 s1] & J & M). apply in_map_iff in M as (v1 & E & M). cbn in *. injection E as -> ->.
    apply filter_In in M as [M F]. split; [destruct (falsy v); [discriminate|reflexivity]|].
    unfold sget. rewrite (In_dget _ _ _ ND J). exact M.
  - intros [F M]. unfold sget in M. destruct (dget k (s_names st)) as [s|] eqn:D; [|destruct M].
    exists (k, s). split; [apply dget_In; exact D|]. apply in_map_iff. exists v. split; [reflexivity|].
    apply filter_In. split; [exact M|]. rewrite F. reflexivity.
Qed.

(** Registering pairs that agree with what is registered. *)
Lemma add_name_agree st k v rw l0 : ninv (s_names st) -> own_reg st -> s_source st <> None ->
  local_ref (s_source st) = SOk l0 ->
  valid_ref k = true -> v <> None -> (forall k', regd (s_names st) k' v -> k' = k) ->
  exists st', add_name k v rw st = (st', None) /\ ninv (s_names st') /\ s_source st' = s_source st /\
    forall k' v', regd (s_names st') k' v' <-> regd (s_names st) k' v' \/ (k' = k /\ v' = v).
Proof.
  intros I O SN L V NV U. destruct (add_name k v rw st) as [st' [e|]] eqn:A.
  - exfalso. destruct (add_name_fail _ _ _ _ _ _ I A) as [[_ [[_ W]|[(_ & _ & _ & k' & NK & R)|(E & W & _)]]]|(F & _)].
    + congruence.
    + apply NK. apply U. exact R.
    + subst v. congruence.
    + destruct O as [k' R]. destruct (regd_first_ref _ _ _ R) as [? E]. congruence.
  - exists st'. split; [reflexivity|]. split; [pose proof (add_name_ninv k v rw st I) as N; rewrite A in N; exact N|].
    destruct (add_name_ok _ _ _ _ _ I A) as (_ & C & _ & _ & _ & _ & _ & _ & D).
    destruct D as [D|(D & _)]; [|contradiction]. split; [exact D|].
    destruct (existsb (fun p => mem v (snd p)) (s_names st)) eqn:EX.
    + apply existsb_exists in EX as ([k2 s2] & J & M). cbn in M. apply (proj1 (mem_In _ _)) in M.
      assert (R2 : regd (s_names st) k2 v) by (apply regd_In; [apply I|eauto]). pose proof (U _ R2) as E2. subst k2.
      intros k' v'. destruct (eq_dec (s_source st) v) as [SV|NS].
      * destruct (eq_dec l0 k) as [->|NL].
        -- rewrite (nchange_override _ _ _ _ _ _ k I C); [|repeat split; auto; congruence]. rewrite override_regd.
           split; [intros [[-> R]|(_ & _ & R)]; auto|]. intros [R|[-> ->]]; [|auto].
           destruct (eq_dec k' k) as [->|]; auto.
        -- rewrite (nchange_normal _ _ _ _ _ _ I C).
           2:{ intros l (_ & _ & L' & R'). apply NL. transitivity l; [congruence|]. apply U. exact R'. }
           split; [intros [[-> [->|[? _]]]|[_ R]]; auto; contradiction|]. intros [R|[-> ->]]; [|auto].
           destruct (eq_dec v' v) as [->|]; [left; auto|auto].
      * rewrite (nchange_normal _ _ _ _ _ _ I C).
        2:{ intros l (_ & SV & _). congruence. }
        split; [intros [[-> [->|[? _]]]|[_ R]]; auto; contradiction|]. intros [R|[-> ->]]; [|auto].
        destruct (eq_dec v' v) as [->|]; [left; auto|auto].
    + assert (NR : forall k', ~ regd (s_names st) k' v).
      { intros k' R. apply regd_In in R; [|apply I]. destruct R as (s & J & M). apply Bool.not_true_iff_false in EX. apply EX.
        apply existsb_exists. exists (k', s). split; [exact J|apply mem_In; exact M]. }
      intros k' v'. rewrite (nchange_normal _ _ _ _ _ _ I C) by (intros l (_ & _ & _ & R); apply (NR l R)).
      split; [intros [[-> [->|[? _]]]|[_ R]]; auto; contradiction|]. intros [R|[-> ->]]; [|auto].
      destruct (eq_dec v' v) as [->|]; [destruct (NR _ R)|auto].
Qed.

Lemma add_names_agree l0 : forall pairs st, ninv (s_names st) -> own_reg st -> s_source st <> None ->
  local_ref (s_source st) = SOk l0 ->
  (forall k v, In (k, v) pairs -> valid_ref k = true /\ v <> None /\ (forall k', regd (s_names st) k' v \/ In (k', v) pairs -> k' = k)) ->
  exists st', add_names pairs st = (st', None) /\ ninv (s_names st') /\ s_source st' = s_source st /\
    forall k' v', regd (s_names st') k' v' <-> regd (s_names st) k' v' \/ In (k', v') pairs.
Proof.
  induction pairs as [|[k v] pairs IH]; intros st I O SN L H; cbn [add_names].
  { exists st. split; [reflexivity|]. split; [exact I|]. split; [reflexivity|]. intros k' v'. cbn. tauto. }
  destruct (H k v (or_introl eq_refl)) as (V & NV & U).
  destruct (add_name_agree st k v false l0 I O SN L V NV (fun k' R => U k' (or_introl R))) as (st1 & A & I1 & S1 & R1).
  rewrite A. destruct (IH st1) as (st2 & A2 & I2 & S2 & R2); auto; try congruence.
  - destruct O as [k0 R0]. exists k0. rewrite S1. apply R1. auto.
  - intros k1 v1 J. destruct (H k1 v1 (or_intror J)) as (V1 & NV1 & U1). repeat split; auto. intros k' [R|R].
    + apply R1 in R. destruct R as [R|[-> ->]]; [apply U1; auto|]. apply U1. right. left. reflexivity.
    + apply U1. right. right. exact R.
  - exists st2. split; [exact A2|]. split; [exact I2|]. split; [congruence|]. intros k' v'. split.
    + rewrite R2, R1. cbn. intros [[R|[-> ->]]|R]; auto.
    + rewrite R2, R1. cbn. intros [R|[E|R]]; auto. injection E as <- <-. auto.
Qed.

(** The same for any reference given when loading. *)
Lemma registry_survives up tr h st r f l0 pairs types keyid :
  archive_after up tr h st -> good_sources tr ->
  ref_of st = SOk (r) -> In (Some f) (sget (r) (s_names st)) -> f <> "" -> local_ref (Some f) = SOk l0 ->
  Permutation pairs (saved_names st) ->
  exists st2, load f (r) pairs types keyid = SOk st2 /\ ref_of st2 = SOk (r) /\
    forall k v, v <> "" -> (In (Some v) (sget k (s_names st2)) <-> In (Some v) (sget k (s_names st))).
Proof.
  intros H G R0 RF NF L P. pose proof (hist_ninv _ _ _ _ H) as I.
  destruct (C47_archive_reference_defined _ _ _ _ H G) as (k0 & E0 & _ & V0). assert (k0 = r) as -> by congruence.
  assert (PS : forall k v, In (k, v) pairs <-> falsy v = false /\ regd (s_names st) k v).
  { intros k v. unfold regd. rewrite <- In_saved_names by apply I. split; apply Permutation_in; [|symmetry]; exact P. }
  unfold load. destruct (init (Some f) (Some (r)) types keyid) as [st0|e] eqn:IN.
  2:{ exfalso. unfold init in IN. destruct (add_name (r) (Some f) false _) as [s [x|]] eqn:A; [|discriminate].
      destruct (add_name_fail _ _ _ _ _ _ (ninv_nil : ninv (s_names (Store (r) (Some f) [] types keyid [] [] []))) A)
        as [[_ [[_ W]|[(_ & _ & _ & k' & _ & [])|(_ & _ & k' & [])]]]|(_ & W & _)]; [congruence|]. apply W. reflexivity. }
  assert (S0 : s_source st0 = Some f /\ ninv (s_names st0) /\ forall k v, regd (s_names st0) k v <-> k = r /\ v = Some f).
  { destruct (init_ninv _ _ _ _ _ IN) as (N0 & SS & _). split; [exact SS|]. split; [exact N0|].
    unfold init in IN. destruct (add_name (r) (Some f) false _) as [s [x|]] eqn:A; [discriminate|]. injection IN as <-.
    destruct (add_name_ok _ _ _ _ _ (ninv_nil : ninv (s_names (Store (r) (Some f) [] types keyid [] [] []))) A) as (_ & C & _). intros k v.
    cbn in C. rewrite (nchange_normal _ _ _ _ _ _ ninv_nil C) by (intros l (_ & _ & _ & []); fail).
    split; [|intros [-> ->]; auto]. intros [[-> [->|[? _]]]|[_ R]]; [auto|discriminate|destruct R]. }
  destruct S0 as (SS & N0 & RG0).
  destruct (add_names_agree l0 pairs st0) as (st1 & A1 & I1 & S1 & R1); auto.
  - exists (r). rewrite SS. apply RG0. auto.
  - congruence.
  - congruence.
  - intros k v J. destruct (proj1 (PS k v) J) as [FV RV]. assert (NV : v <> None) by (intros ->; discriminate).
    split; [exact (ni_valid _ I _ _ RV)|]. split; [exact NV|]. intros k' HR. destruct HR as [R|R].
    + destruct (proj1 (RG0 _ _) R) as [-> ->]. apply (ni_uniq _ I (Some f)); auto.
    + destruct (proj1 (PS k' v) R) as [_ R']. apply (ni_uniq _ I v); auto.
  - rewrite A1.
    assert (REL : forall k v, v <> "" -> (regd (s_names st1) k (Some v) <-> regd (s_names st) k (Some v))).
    { intros k v NE. rewrite R1, RG0, PS. split.
      - intros [[-> E]|[_ R]]; [|exact R]. injection E as ->. exact RF.
      - intros R. right. split; [|exact R]. cbn. destruct (eqb_spec v ""); congruence. }
    assert (O1 : own_reg st1) by (exists (r); rewrite S1, SS; apply REL; auto).
    destruct (own_reg_ref _ I1 O1) as (k1 & E1 & RR1 & _). rewrite E1.
    assert (k1 = r) as ->.
    { apply (ni_uniq _ I1 (Some f)); [discriminate| |apply REL; auto]. rewrite S1, SS in RR1. exact RR1. }
    destruct (add_name_agree st1 (r) (Some f) true l0 I1 O1) as (st2 & A2 & I2 & S2 & R2).
    + congruence.
    + congruence.
    + exact V0.
    + discriminate.
    + intros k' R. apply (ni_uniq _ I1 (Some f)); [discriminate|exact R|apply REL; auto].
    + rewrite A2. exists st2. split; [reflexivity|].
      assert (REL2 : forall k v, v <> "" -> (regd (s_names st2) k (Some v) <-> regd (s_names st) k (Some v))).
      { intros k v NE. rewrite R2, REL by exact NE. split; [intros [R|[-> E]]; [exact R|injection E as ->; exact RF]|auto]. }
      split; [|exact REL2].
      assert (O2 : own_reg st2) by (exists (r); rewrite S2, S1, SS; apply REL2; auto).
      destruct (own_reg_ref _ I2 O2) as (k2 & E2 & RR2 & _). rewrite E2. f_equal.
      apply (ni_uniq _ I2 (Some f)); [discriminate| |apply REL2; auto]. rewrite S2, S1, SS in RR2. exact RR2.
Qed.
(** An archive whose reference is still the one it was created with, saved in a file registered under that reference, is
    loaded back (in whatever order the file lists the registrations) with the same reference and the same registrations of
    all (non-empty) sources. *)
Theorem C69_registry_survives_save_and_load_partial up tr h st f l0 pairs types keyid :
  archive_after up tr h st -> good_sources tr ->
  ref_of st = SOk (s_dref st) -> In (Some f) (sget (s_dref st) (s_names st)) -> f <> "" -> local_ref (Some f) = SOk l0 ->
  Permutation pairs (saved_names st) ->
  exists st2, load f (s_dref st) pairs types keyid = SOk st2 /\ ref_of st2 = SOk (s_dref st) /\
    forall k v, v <> "" -> (In (Some v) (sget k (s_names st2)) <-> In (Some v) (sget k (s_names st))).
Proof. apply registry_survives. Qed.
Print Assumptions C69_registry_survives_save_and_load_partial.

(** [write_to_file] under a name not known anywhere: it succeeds, registers the file under the archive's reference, and
    changes neither the reference nor any other registration. *)
Theorem C69_write_registers_the_file up tr h st f : archive_after up tr h st -> good_sources tr ->
  (forall k, ~ In (Some f) (sget k (s_names st))) -> dget (Some f) (chain_names up) = None -> s_source st <> None ->
  exists st' r, write_to_file f up st = (st', None) /\ ref_of st = SOk r /\ ref_of st' = SOk r /\
    forall k v, In v (sget k (s_names st')) <-> In v (sget k (s_names st)) \/ (k = r /\ v = Some f).
Proof.
  intros H G NR NU SN. pose proof (hist_ninv _ _ _ _ H) as I. pose proof (hist_own _ _ _ _ H G) as O.
  destruct (own_reg_ref _ I O) as (r & E & R & V). unfold write_to_file. destruct (s_source st) as [s|] eqn:SS; [|congruence].
  destruct (C47_names_maps_sources_to_references up tr h st f H) as [_ Q]. unfold din. rewrite (Q NR), NU, E.
  destruct (add_name r (Some f) false st) as [st' [x|]] eqn:A.
  - exfalso. destruct (add_name_fail _ _ _ _ _ _ I A) as [[_ [[_ W]|[(_ & _ & _ & k' & NK & R')|(E' & W & k' & R')]]]|(F & _)].
    + congruence.
    + apply (NR k' R').
    + apply (NR k' R').
    + destruct O as [k' R']. destruct (regd_first_ref _ _ _ R') as [? E']. congruence.
  - exists st', r. split; [reflexivity|]. split; [reflexivity|]. split.
    + rewrite <- E. eapply C47_archive_reference_stable; eauto. rewrite SS. intros X. injection X as <-. apply (NR r). exact R.
    + intros k v. destruct (add_name_ok _ _ _ _ _ I A) as (_ & C & _).
      pose proof (nchange_normal _ _ _ _ _ _ I C (fun l O' => NR l (proj2 (proj2 (proj2 O')))) k v) as N. unfold regd in N. rewrite N.
      split; [intros [[-> [->|[? _]]]|[_ J]]; auto; discriminate|]. intros [J|[-> ->]]; [|auto].
      destruct (eq_dec v (Some f)) as [->|]; [destruct (NR _ J)|auto].
Qed.
Print Assumptions C69_write_registers_the_file.

(** Full property (an archive that was written can be loaded) refuted: once the own source has been given an authoritative
    reference in place of the default one, the saved 'dataReference' is stale and loading the file raises
    SourceAlreadyKnown. *)
Theorem C69_saved_archive_can_be_loaded_refuted :
  exists tr h st f, archive_after [] tr h st /\ good_sources tr /\ last tr (OpGet KNone, Some SKeyError) = (OpWrite f, None) /\
    load f (s_dref st) (saved_names st) ["flow"] (fun _ => None) = SErr SSourceKnown.
Proof.
  exists ([] ++ [(OpName "maker.data" (Some "data.json") false, None)] ++ [(OpWrite "copy.json", None)]). eexists _, _, "copy.json".
  split; [|split; [|split]].
  - exists (Some "data.json"), None, ["flow"], (fun _ => None), []. eexists. split; [vm_compute; reflexivity|]. rewrite app_assoc. run_hist.
  - intros r s e [J|[J|[]]]; discriminate.
  - reflexivity.
  - vm_compute. reflexivity.
Qed.
Print Assumptions C69_saved_archive_can_be_loaded_refuted.

(** When the archive has no source, a failed [write_to_file] changes the archive: its source, and with it its reference,
    become those of the file. *)
Theorem C69_failed_write_changes_nothing_refuted :
  exists tr h st f st', archive_after [] tr h st /\ good_sources tr /\ write_to_file f [] st = (st', Some SSourceKnown) /\
    ref_of st = SOk "mine" /\ ref_of st' = SOk "theirs".
Proof.
  exists ([] ++ [(OpName "theirs" (Some "data.json") false, None)]). eexists _, _, "data.json", _. split; [|split; [|split; [|split]]].
  - exists None, (Some "mine"), ["flow"], (fun _ => None), []. eexists. split; [vm_compute; reflexivity|]. run_hist.
  - intros r s e [J|[]]; discriminate.
  - vm_compute. reflexivity.
  - vm_compute. reflexivity.
  - vm_compute. reflexivity.
Qed.
Print Assumptions C69_failed_write_changes_nothing_refuted.

(** The hypotheses of the round trip are met by an archive with two references that was written to a second file. *)
Example C69_example : exists tr h st l0, archive_after [] tr h st /\ good_sources tr /\
  ref_of st = SOk (s_dref st) /\ In (Some "copy.json") (sget (s_dref st) (s_names st)) /\ local_ref (Some "copy.json") = SOk l0 /\
  length (saved_names st) = 3.
Proof.
  exists ([] ++ [(OpName "other.data" (Some "x.json") false, None)] ++ [(OpWrite "copy.json", None)]). eexists _, _, _. split; [|split; [|split; [|split; [|split]]]].
  - exists (Some "data.json"), (Some "maker.data"), ["flow"], (fun _ => None), []. eexists. split; [vm_compute; reflexivity|]. rewrite app_assoc. run_hist.
  - intros r s e [J|[J|[]]]; discriminate.
  - vm_compute. reflexivity.
  - vm_compute. tauto.
  - vm_compute. reflexivity.
  - vm_compute. reflexivity.
Qed.

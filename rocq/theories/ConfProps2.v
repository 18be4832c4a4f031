(** C103, C104: the stored configuration of a resource; the termination index. *)
From Coq Require Import String List.
From Verif Require Import Num Base PyStr ProcModel ProcProofs ProcProps ConfModel ConfProofs ConfProofs2 ConfProps.
Open Scope nat_scope.
Open Scope string_scope.
Open Scope list_scope.

(** * C103 *)
(** Specification: what a list of [set_reference]/[unset_reference] options asks for. *)
Definition asks_set (os : list opt) (pr : nat) (k : key) : Prop := exists f d s, In (OSet pr f s) os /\ canon s = Some d /\ k = (f, d, None).
Definition asks_unset (os : list opt) (pr : nat) (k : key) : Prop := exists f d s, In (OUnset pr f s) os /\ canon s = Some d /\ k = (f, d, None).
Definition only_references (os : list opt) : Prop := forall o, In o os -> match o with OSet _ _ _ | OUnset _ _ _ => True | _ => False end.
(** Options given one after the other to a loaded resource, all accepted. *)
Fixpoint configure (rq : nat -> option nat) (r : res) (os : list opt) : res * step :=
  match os with
  | [] => (r, None)
  | o :: os => match add_config rq r o with (r', None) => configure rq r' os | (r', Some e) => (r', Some e) end
  end.

Lemma del_keys_filter ks : forall d, del_keys ks d = filter (fun e => negb (mem (fst e) ks)) d.
Proof.
  unfold del_keys. induction ks as [|k ks IH]; intros d; cbn [fold_left].
  - cbn. induction d as [|e d IH]; cbn [filter negb]; [reflexivity|]. rewrite <- IH. reflexivity.
  - rewrite IH. unfold ddel. rewrite <- IH. rewrite IH. induction d as [|e d IHd]; [reflexivity|]. cbn [filter]. cbn [mem].
    rewrite (eqb_sym (fst e) k). destruct (eqb k (fst e)); cbn [negb filter orb]; [exact IHd|]. destruct (mem (fst e) ks); cbn [negb]; rewrite IHd; reflexivity.
Qed.
Lemma pdel_same ks ks' x : (forall k, In k ks <-> In k ks') -> pdel ks x = pdel ks' x.
Proof.
  intros H. destruct x as [[v d]|]; [|reflexivity]. cbn [pdel option_map fst snd]. f_equal. f_equal. rewrite !del_keys_filter. apply filter_ext.
  intros e. f_equal. destruct (mem_spec (fst e) ks), (mem_spec (fst e) ks'); firstorder.
Qed.
Lemma add_sum cf p f d : p_qty p = None -> p_sum (fst (add_reference cf p f d)) = p_sum p.
Proof.
  intros Q. unfold add_reference. cbv zeta. cbn [fst]. destruct (dget (f, d, None) (p_exch p)); unfold alloc_qty; cbn [p_qty p_sum]; rewrite Q; destruct (eqb _ _); reflexivity.
Qed.
Lemma rem_sum cf p f d : p_qty p = None -> p_sum (fst (remove_reference cf p f d)) = p_sum p.
Proof. intros Q. unfold remove_reference. cbv zeta. destruct (dget (f, d, None) (p_exch p)); [|reflexivity]. rewrite Q. reflexivity. Qed.
(** the state after some sets [S] and unsets [U], from [a0] *)
Definition desc (a0 : arch) (S U : nat -> list key) (a : arch) : Prop :=
  shape a /\ sk a0 a /\ a_cfs a = a_cfs a0
  /\ forall pr p0 p, get a0 pr = Some p0 -> get a pr = Some p ->
       p_qty p = None /\ p_sum p = p_sum p0 /\ (forall k, In k (p_refs p) <-> (In k (p_refs p0) \/ In k (S pr)) /\ ~ In k (U pr)) /\ forall k, pv p k = pdel (U pr) (pv p0 k).
Definition put (pr : nat) (k : key) (S : nat -> list key) : nat -> list key := fun x => if Nat.eqb x pr then S x ++ [k] else S x.
Lemma put_same pr k S : put pr k S pr = S pr ++ [k].
Proof. unfold put. rewrite Nat.eqb_refl. reflexivity. Qed.
Lemma put_other pr k S x : x <> pr -> put pr k S x = S x.
Proof. unfold put. intros N. destruct (Nat.eqb_spec x pr); [contradiction|reflexivity]. Qed.
Lemma desc_set a0 S U a pr f s d : desc a0 S U a -> canon s = Some d -> ~ In (f, d, None) (U pr) ->
  (exists p, get a0 pr = Some p /\ In (f, d, None) (xkeys p)) ->
  exists a', set_reference a pr f (Some s) = (a', None) /\ a_ti a' = a_ti a /\ desc a0 (put pr (f, d, None) S) U a'.
Proof.
  intros [SH [K [C D]]] CN NU [p0 [G0 X0]]. destruct (sk_get _ _ _ _ K G0) as [p [G X]]. pose proof (proj2 SH _ _ G) as I.
  destruct (add_ref_spec (acf a) p f d I) as [A [_ [B1 [B2 [B3 [B4 [B5 _]]]]]]]. assert (KI : In (f, d, @None string) (xkeys p)) by (rewrite X; exact X0).
  specialize (A KI). specialize (B4 KI).
  exists (set_proc a pr (fst (add_reference (acf a) p f d))). split.
  { apply set_reference_ok. exists p, d. cbn [rdir]. rewrite CN. auto. }
  split; [reflexivity|]. split; [eapply shape_set; eauto|]. split; [eapply sk_trans; [exact K|eapply sk_set; eauto]|]. split; [exact C|].
  intros pr' q0 q H0. rewrite get_set_proc. destruct (eqb_spec pr' pr) as [->|N].
  - intros H. injection H as <-. rewrite G0 in H0. injection H0 as <-. destruct (D pr p0 p G0 G) as [D1 [DS [D2 D3]]].
    split; [rewrite <- D1; exact B5|]. split; [rewrite <- DS; apply add_sum; exact D1|]. split; [|intros k; rewrite B3; apply D3].
    intros k. rewrite put_same, in_app_iff. split.
    + intros H. apply B4 in H as [H|H]; [apply D2 in H; tauto|]. subst k. split; [right; right; left; reflexivity|exact NU].
    + intros [[H|[H|[H|[]]]] N]; apply B4; [left; apply D2; auto|left; apply D2; auto|right; auto].
  - intros H. rewrite put_other by exact N. apply (D pr' q0 q H0 H).
Qed.
Lemma desc_unset a0 S U a pr f s d : desc a0 S U a -> canon s = Some d ->
  (exists p, get a0 pr = Some p /\ In (f, d, None) (xkeys p)) ->
  exists a', unset_reference a (UOne pr f (Some s)) = (a', None) /\ a_ti a' = a_ti a /\ desc a0 S (put pr (f, d, None) U) a'.
Proof.
  intros [SH [K [C D]]] CN [p0 [G0 X0]]. destruct (sk_get _ _ _ _ K G0) as [p [G X]]. pose proof (proj2 SH _ _ G) as I.
  assert (KI : In (f, d, @None string) (xkeys p)) by (rewrite X; exact X0).
  assert (O : u_ok (UOne pr f (Some s)) p) by (exists d; cbn [rdir]; rewrite CN; auto).
  destruct (remove_all_spec (acf a) (ukeys (UOne pr f (Some s)) p) p I (ukeys_in _ p I O)) as [_ [B1 [B2 [B3 [B4 [B5 _]]]]]].
  assert (UK : ukeys (UOne pr f (Some s)) p = [(f, d, None)]) by (cbn [ukeys rdir]; rewrite CN; reflexivity).
  exists (set_proc a pr (fst (remove_all (acf a) p (ukeys (UOne pr f (Some s)) p)))). split.
  { apply (unset_ok _ _ _ SH). cbn [uproc]. exists p. auto. }
  split; [reflexivity|]. split; [eapply shape_set; eauto|]. split; [eapply sk_trans; [exact K|eapply sk_set; eauto]|]. split; [exact C|].
  intros pr' q0 q H0. rewrite get_set_proc. destruct (eqb_spec pr' pr) as [->|N].
  - intros H. assert (q = fst (remove_all (acf a) p (ukeys (UOne pr f (Some s)) p))) as -> by congruence. clear H. rewrite UK. rewrite UK in B5. rewrite G0 in H0. injection H0 as <-. destruct (D pr p0 p G0 G) as [D1 [DS [D2 D3]]].
    split; [rewrite <- D1; exact B5|]. split; [rewrite <- DS, remove_all_one by assumption; cbn [fst]; apply rem_sum; exact D1|]. rewrite UK in B3, B4. rewrite put_same. split.
    + intros k. rewrite in_app_iff. split.
      * intros H. apply B4 in H as [H1 H2]. apply D2 in H1. tauto.
      * intros [H1 H2]. apply B4. split; [apply D2; split; [exact H1|]|]; intros H; apply H2; auto.
    + intros k. rewrite B3, D3, pdel_app. reflexivity.
  - intros H. rewrite put_other by exact N. apply (D pr' q0 q H0 H).
Qed.
Definition sets_of (os : list opt) (pr : nat) : list key :=
  flat_map (fun o => match o with OSet p f s => if Nat.eqb p pr then match canon s with Some d => [(f, d, None)] | None => [] end else [] | _ => [] end) os.
Definition unsets_of (os : list opt) (pr : nat) : list key :=
  flat_map (fun o => match o with OUnset p f s => if Nat.eqb p pr then match canon s with Some d => [(f, d, None)] | None => [] end else [] | _ => [] end) os.
Lemma in_sets_of os pr k : In k (sets_of os pr) <-> asks_set os pr k.
Proof.
  unfold sets_of, asks_set. rewrite in_flat_map. split.
  - intros [o [I H]]. destruct o as [p f s|?|?|?]; try destruct H. destruct (Nat.eqb_spec p pr) as [->|]; [|destruct H]. destruct (canon s) as [d|] eqn:C; [|destruct H].
    destruct H as [<-|[]]. exists f, d, s. auto.
  - intros [f [d [s [I [C ->]]]]]. exists (OSet pr f s). split; [exact I|]. rewrite Nat.eqb_refl, C. left. reflexivity.
Qed.
Lemma in_unsets_of os pr k : In k (unsets_of os pr) <-> asks_unset os pr k.
Proof.
  unfold unsets_of, asks_unset. rewrite in_flat_map. split.
  - intros [o [I H]]. destruct o as [?|p f s|?|?]; try destruct H. destruct (Nat.eqb_spec p pr) as [->|]; [|destruct H]. destruct (canon s) as [d|] eqn:C; [|destruct H].
    destruct H as [<-|[]]. exists f, d, s. auto.
  - intros [f [d [s [I [C ->]]]]]. exists (OUnset pr f s). split; [exact I|]. rewrite Nat.eqb_refl, C. left. reflexivity.
Qed.

(** an option that is accepted when given to the loaded resource *)
Lemma add_config_ok rq r o r' : add_config rq r o = (r', None) ->
  r_config r' = add_opt (r_config r) o
  /\ match o with
     | OSet pr f s => exists a, set_reference (r_arch r) pr f (Some s) = (a, None) /\ r_arch r' = match a_ti a with Some _ => re_index a | None => a end
     | OUnset pr f s => exists a, unset_reference (r_arch r) (UOne pr f (Some s)) = (a, None) /\ r_arch r' = match a_ti a with Some _ => re_index a | None => a end
     | _ => True
     end.
Proof.
  unfold add_config. destruct (check_config (r_arch r) o) as [e|]; [discriminate|].
  destruct (apply_config rq (add_opt no_config o) false (r_arch r)) as [a e] eqn:E. intros H. injection H as <- ->. cbn [r_config r_arch]. split; [reflexivity|].
  destruct o as [pr f s|pr f s|?|?]; auto; cbn [add_opt no_config c_set c_unset c_char c_alloc app] in E; unfold apply_config in E; cbn [c_set c_unset c_char c_alloc steps bind fst snd] in E.
  - destruct (set_reference (r_arch r) pr f (Some s)) as [a1 [e|]]; [discriminate|]. cbn [bind] in E. injection E as <-. exists a1. auto.
  - destruct (unset_reference (r_arch r) (UOne pr f (Some s))) as [a1 [e|]]; [discriminate|]. cbn [bind] in E. injection E as <-. exists a1. auto.
Qed.
Lemma desc_reindex a0 S U a : desc a0 S U a -> desc a0 S U (match a_ti a with Some _ => re_index a | None => a end).
Proof. intros H. destruct (a_ti a); exact H. Qed.
Lemma canon_set a pr f s a' : set_reference a pr f (Some s) = (a', None) -> exists d p, canon s = Some d /\ get a pr = Some p.
Proof. intros H. apply set_reference_ok in H as [p [d [G [R _]]]]. cbn [rdir] in R. injection R as R. eauto. Qed.
Lemma desc_ext a0 S S' U U' a : (forall pr, S' pr = S pr) -> (forall pr, U' pr = U pr) -> desc a0 S U a -> desc a0 S' U' a.
Proof. intros HS HU [A [B [C D]]]. split; [exact A|]. split; [exact B|]. split; [exact C|]. intros pr p0 p G0 G. rewrite HS, HU. eapply D; eauto. Qed.
Lemma sets_of_snoc os o pr : sets_of (os ++ [o]) pr = sets_of os pr ++ sets_of [o] pr.
Proof. unfold sets_of. apply flat_map_app. Qed.
Lemma unsets_of_snoc os o pr : unsets_of (os ++ [o]) pr = unsets_of os pr ++ unsets_of [o] pr.
Proof. unfold unsets_of. apply flat_map_app. Qed.
Definition has_key (a0 : arch) (pr : nat) (k : key) : Prop := exists p, get a0 pr = Some p /\ In k (xkeys p).
Definition good (a0 : arch) (o : opt) : Prop :=
  match o with OSet pr f s | OUnset pr f s => exists d, canon s = Some d /\ has_key a0 pr (f, d, None) | _ => True end.
Lemma live_run rq a0 os : forall done r r', only_references os ->
  (forall pr k, In k (sets_of (done ++ os) pr) -> In k (unsets_of (done ++ os) pr) -> False) ->
  desc a0 (sets_of done) (unsets_of done) (r_arch r) -> configure rq r os = (r', None) ->
  desc a0 (sets_of (done ++ os)) (unsets_of (done ++ os)) (r_arch r') /\ (forall o, In o os -> good a0 o)
  /\ r_config r' = fold_left add_opt os (r_config r) /\ (a_ti (r_arch r') = None <-> a_ti (r_arch r) = None).
Proof.
  induction os as [|o os IH]; intros done r r' OR DJ D H; cbn [configure] in H.
  - injection H as <-. rewrite app_nil_r. split; [exact D|]. split; [intros o []|]. split; [reflexivity|]. tauto.
  - destruct (add_config rq r o) as [r1 [e|]] eqn:E; [discriminate|]. apply add_config_ok in E as [E1 E2].
    assert (EQ : done ++ o :: os = (done ++ [o]) ++ os) by (rewrite <- app_assoc; reflexivity). rewrite EQ in *.
    assert (STEP : good a0 o /\ desc a0 (sets_of (done ++ [o])) (unsets_of (done ++ [o])) (r_arch r1) /\ (a_ti (r_arch r1) = None <-> a_ti (r_arch r) = None)).
    { pose proof (OR o (or_introl eq_refl)) as OK. destruct o as [pr f s|pr f s|?|?]; try contradiction.
      - destruct E2 as [a [Ea ->]]. destruct (canon_set _ _ _ _ _ Ea) as [d [p [CN Gp]]].
        pose proof Ea as Eb. apply set_reference_ok in Eb as [p' [d' [G' [R' [O' _]]]]]. cbn [rdir] in R'. rewrite CN in R'. injection R' as <-.
        destruct D as [DS [DK DR]]. destruct (add_ref_spec (acf (r_arch r)) p' f d (proj2 DS _ _ G')) as [_ [KI _]]. specialize (KI O').
        destruct (sk_get _ _ _ _ (sk_sym _ _ DK) G') as [p0 [G0 X0]].
        assert (HK : has_key a0 pr (f, d, None)) by (exists p0; split; [exact G0|rewrite X0; exact KI]).
        split; [exists d; auto|].
        destruct (desc_set a0 (sets_of done) (unsets_of done) (r_arch r) pr f s d) as [a' [F1 [F2 F3]]]; auto; [exact (conj DS (conj DK DR))| |].
        { intros HU. apply (DJ pr (f, d, None)).
          - rewrite <- app_assoc. unfold sets_of. rewrite !flat_map_app, !in_app_iff. right. left. cbn [flat_map]. rewrite Nat.eqb_refl, CN. left. reflexivity.
          - unfold unsets_of in *. rewrite !flat_map_app, !in_app_iff. auto. }
        assert (a' = a) as -> by congruence. split; [|destruct (a_ti a) eqn:T; rewrite <- F2; cbn; split; congruence].
        apply desc_reindex. eapply desc_ext; [| |exact F3].
        + intros x. rewrite sets_of_snoc. unfold put. cbn [sets_of flat_map]. rewrite app_nil_r. destruct (Nat.eqb_spec x pr) as [->|N]; [rewrite Nat.eqb_refl, CN; reflexivity|].
          destruct (Nat.eqb_spec pr x); [congruence|apply app_nil_r].
        + intros x. rewrite unsets_of_snoc. cbn. apply app_nil_r.
      - destruct E2 as [a [Ea ->]]. pose proof D as [DS [DK DR]].
        pose proof Ea as Eb. apply (unset_ok _ _ _ DS) in Eb. cbn [uproc] in Eb. destruct Eb as [p' [G' [[d [R' KI]] _]]]. cbn [rdir] in R'.
        injection R' as CN. destruct (sk_get _ _ _ _ (sk_sym _ _ DK) G') as [p0 [G0 X0]].
        assert (HK : has_key a0 pr (f, d, None)) by (exists p0; split; [exact G0|rewrite X0; exact KI]).
        split; [exists d; auto|].
        destruct (desc_unset a0 (sets_of done) (unsets_of done) (r_arch r) pr f s d D CN HK) as [a' [F1 [F2 F3]]].
        assert (a' = a) as -> by congruence. split; [|destruct (a_ti a) eqn:T; rewrite <- F2; cbn; split; congruence].
        apply desc_reindex. eapply desc_ext; [| |exact F3].
        + intros x. rewrite sets_of_snoc. cbn. apply app_nil_r.
        + intros x. rewrite unsets_of_snoc. unfold put. cbn [unsets_of flat_map]. rewrite app_nil_r. destruct (Nat.eqb_spec x pr) as [->|N]; [rewrite Nat.eqb_refl, CN; reflexivity|].
          destruct (Nat.eqb_spec pr x); [congruence|apply app_nil_r]. }
    destruct STEP as [ST1 [ST2 ST3]]. destruct (IH (done ++ [o]) r1 r') as [I1 [I2 [I3 I4]]]; auto.
    { intros o' I. apply OR. right. exact I. }
    split; [exact I1|]. split; [intros o' [<-|I]; auto|]. split; [rewrite I3, E1; reflexivity|]. tauto.
Qed.

(** a reload: the stored options in any order, sets first *)
Lemma sets_reload a0 U l : forall S a, desc a0 S U a -> (forall pr k, In k (U pr) -> False) ->
  (forall x, In x l -> exists d s, snd x = Some s /\ canon s = Some d /\ has_key a0 (fst (fst x)) (snd (fst x), d, None)) ->
  exists a', sets a l = (a', None) /\ a_ti a' = a_ti a /\ exists S', desc a0 S' U a' /\
    forall pr k, In k (S' pr) <-> In k (S pr) \/ exists f d s, In (pr, f, Some s) l /\ canon s = Some d /\ k = (f, d, None).
Proof.
  induction l as [|[[pr f] sd] l IH]; intros S a D NU H; unfold sets in *; cbn [steps fst snd].
  - exists a. split; [reflexivity|]. split; [reflexivity|]. exists S. split; [exact D|]. intros pr k. split; [auto|]. intros [X|[f [d [s [[] _]]]]]; exact X.
  - destruct (H (pr, f, sd) (or_introl eq_refl)) as [d [s [E [CN HK]]]]. cbn [fst snd] in E, HK. subst sd.
    destruct (desc_set a0 S U a pr f s d D CN) as [a1 [F1 [F2 F3]]]; [intros X; eapply NU; eauto|exact HK|]. rewrite F1.
    destruct (IH _ _ F3 NU) as [a' [G1 [G2 [S' [G3 G4]]]]]; [intros x I; apply H; right; exact I|].
    exists a'. split; [exact G1|]. split; [congruence|]. exists S'. split; [exact G3|]. intros pr' k. rewrite G4. unfold put.
    destruct (Nat.eqb_spec pr' pr) as [->|N].
    + rewrite in_app_iff. split.
      * intros [[X|[<-|[]]]|[f' [d' [s' [X Y]]]]]; [auto|right; exists f, d, s; split; [left; reflexivity|auto]|right; exists f', d', s'; split; [right; exact X|exact Y]].
      * intros [X|[f' [d' [s' [[X|X] [Y Z]]]]]]; [auto| |right; exists f', d', s'; auto].
        injection X as <- <-. rewrite CN in Y. injection Y as <-. left. right. left. auto.
    + split.
      * intros [X|[f' [d' [s' [X Y]]]]]; [auto|right; exists f', d', s'; split; [right; exact X|exact Y]].
      * intros [X|[f' [d' [s' [[X|X] [Y Z]]]]]]; [auto|congruence|right; exists f', d', s'; auto].
Qed.
Lemma unsets_reload a0 S l : forall U a, desc a0 S U a ->
  (forall x, In x l -> exists pr f d s, x = UOne pr f (Some s) /\ canon s = Some d /\ has_key a0 pr (f, d, None)) ->
  exists a', steps unset_reference a l = (a', None) /\ a_ti a' = a_ti a /\ exists U', desc a0 S U' a' /\
    forall pr k, In k (U' pr) <-> In k (U pr) \/ exists f d s, In (UOne pr f (Some s)) l /\ canon s = Some d /\ k = (f, d, None).
Proof.
  induction l as [|x l IH]; intros U a D H; cbn [steps].
  - exists a. split; [reflexivity|]. split; [reflexivity|]. exists U. split; [exact D|]. intros pr k. split; [auto|]. intros [X|[f [d [s [[] _]]]]]; exact X.
  - destruct (H x (or_introl eq_refl)) as [pr [f [d [s [-> [CN HK]]]]]].
    destruct (desc_unset a0 S U a pr f s d D CN HK) as [a1 [F1 [F2 F3]]]. rewrite F1.
    destruct (IH _ _ F3) as [a' [G1 [G2 [U' [G3 G4]]]]]; [intros x I; apply H; right; exact I|].
    exists a'. split; [exact G1|]. split; [congruence|]. exists U'. split; [exact G3|]. intros pr' k. rewrite G4. unfold put.
    destruct (Nat.eqb_spec pr' pr) as [->|N].
    + rewrite in_app_iff. split.
      * intros [[X|[<-|[]]]|[f' [d' [s' [X Y]]]]]; [auto|right; exists f, d, s; split; [left; reflexivity|auto]|right; exists f', d', s'; split; [right; exact X|exact Y]].
      * intros [X|[f' [d' [s' [[X|X] [Y Z]]]]]]; [auto| |right; exists f', d', s'; auto].
        injection X as <- <-. rewrite CN in Y. injection Y as <-. left. right. left. auto.
    + split.
      * intros [X|[f' [d' [s' [X Y]]]]]; [auto|right; exists f', d', s'; split; [right; exact X|exact Y]].
      * intros [X|[f' [d' [s' [[X|X] [Y Z]]]]]]; [auto|congruence|right; exists f', d', s'; auto].
Qed.

(** The reloaded configuration: the stored entries of each kind, in any order. *)
Record reordered (c c' : config) : Prop := {
  ro_set : forall x, In x (c_set c') <-> In x (c_set c); ro_unset : forall x, In x (c_unset c') <-> In x (c_unset c);
  ro_char : forall x, In x (c_char c') <-> In x (c_char c); ro_alloc : forall x, In x (c_alloc c') <-> In x (c_alloc c) }.
Lemma stored os : forall c, only_references os ->
  (forall x, In x (c_set (fold_left add_opt os c)) <-> In x (c_set c) \/ exists pr f s, In (OSet pr f s) os /\ x = (pr, f, Some s))
  /\ (forall x, In x (c_unset (fold_left add_opt os c)) <-> In x (c_unset c) \/ exists pr f s, In (OUnset pr f s) os /\ x = UOne pr f (Some s))
  /\ c_char (fold_left add_opt os c) = c_char c /\ c_alloc (fold_left add_opt os c) = c_alloc c.
Proof.
  induction os as [|o os IH]; intros c OR; cbn [fold_left].
  - repeat split; try tauto; intros [H|[pr [f [s [[] _]]]]]; exact H.
  - destruct (IH (add_opt c o)) as [A [B [C D]]]; [intros o' I; apply OR; right; exact I|]. pose proof (OR o (or_introl eq_refl)) as K.
    destruct o as [pr f s|pr f s|?|?]; try contradiction; cbn [add_opt c_set c_unset c_char c_alloc] in *.
    + split; [|split; [|auto]]; intros x; [rewrite A, in_app_iff|rewrite B]; split.
      * intros [[H|[<-|[]]]|[pr' [f' [s' [H E]]]]]; [auto|right; exists pr, f, s; split; [left; reflexivity|reflexivity]|right; exists pr', f', s'; split; [right; exact H|exact E]].
      * intros [H|[pr' [f' [s' [[H|H] E]]]]]; [auto|injection H as <- <- <-; left; right; left; auto|right; exists pr', f', s'; auto].
      * intros [H|[pr' [f' [s' [H E]]]]]; [auto|right; exists pr', f', s'; split; [right; exact H|exact E]].
      * intros [H|[pr' [f' [s' [[H|H] E]]]]]; [auto|discriminate|right; exists pr', f', s'; auto].
    + split; [|split; [|auto]]; intros x; [rewrite A|rewrite B, in_app_iff]; split.
      * intros [H|[pr' [f' [s' [H E]]]]]; [auto|right; exists pr', f', s'; split; [right; exact H|exact E]].
      * intros [H|[pr' [f' [s' [[H|H] E]]]]]; [auto|discriminate|right; exists pr', f', s'; auto].
      * intros [[H|[<-|[]]]|[pr' [f' [s' [H E]]]]]; [auto|right; exists pr, f, s; split; [left; reflexivity|reflexivity]|right; exists pr', f', s'; split; [right; exact H|exact E]].
      * intros [H|[pr' [f' [s' [[H|H] E]]]]]; [auto|injection H as <- <- <-; left; right; left; auto|right; exists pr', f', s'; auto].
Qed.
Lemma apply_index rq c ow a a1 : apply_config rq c ow a = (a1, None) -> a_ti a1 = None \/ a_ti a1 = Some (index_of a1).
Proof.
  intros H. apply apply_ok in H as [aS [aU [aC [aA [_ [_ [_ [_ ->]]]]]]]]. destruct (a_ti aA) eqn:T; [right; reflexivity|left; exact T].
Qed.
Lemma configure_index rq os : forall r r', configure rq r os = (r', None) -> (os = [] /\ r' = r) \/ a_ti (r_arch r') = None \/ a_ti (r_arch r') = Some (index_of (r_arch r')).
Proof.
  induction os as [|o os IH]; intros r r' H; cbn [configure] in H; [injection H as <-; auto|]. right.
  destruct (add_config rq r o) as [r1 [e|]] eqn:E; [discriminate|]. destruct (IH _ _ H) as [[-> ->]|X]; [|exact X].
  unfold add_config in E. destruct (check_config (r_arch r) o); [discriminate|].
  destruct (apply_config rq (add_opt no_config o) false (r_arch r)) as [a e] eqn:F. injection E as <- ->. cbn [r_arch]. eapply apply_index, F.
Qed.
Lemma desc_same a0 S U S' U' a b : desc a0 S U a -> desc a0 S' U' b -> (forall pr k, In k (S' pr) <-> In k (S pr)) -> (forall pr k, In k (U' pr) <-> In k (U pr)) ->
  forall pr, match get a pr, get b pr with Some p, Some q => sp p q | None, None => True | _, _ => False end.
Proof.
  intros [SA [KA [CA DA]]] [SB [KB [CB DB]]] ES EU pr. pose proof (proj2 KA pr) as XA. pose proof (proj2 KB pr) as XB.
  destruct (get a pr) as [p|] eqn:Ga, (get b pr) as [q|] eqn:Gb, (get a0 pr) as [p0|] eqn:G0; try discriminate; auto.
  destruct (DA _ _ _ G0 Ga) as [A1 [A2 [A3 A4]]]. destruct (DB _ _ _ G0 Gb) as [B1 [B2 [B3 B4]]]. split.
  - intros k. rewrite A4, B4. apply pdel_same. intros k'. apply EU.
  - intros k. rewrite A3, B3, ES, EU. tauto.
  - congruence.
  - congruence.
Qed.
Lemma same_index_of a b : shape a -> shape b -> (forall pr, match get a pr, get b pr with Some p, Some q => sp p q | None, None => True | _, _ => False end) ->
  forall e, In e (index_of b) <-> In e (index_of a).
Proof.
  intros SA SB E e. rewrite !index_in by assumption. split; intros [pr [p [k [G [K ->]]]]]; specialize (E pr); rewrite G in E.
  - destruct (get a pr) as [q|] eqn:Ga; [|destruct E]. exists pr, q, k. split; [exact Ga|]. split; [apply (proj1 (sp_refs _ _ E k)), K|reflexivity].
  - destruct (get b pr) as [q|] eqn:Gb; [|destruct E]. exists pr, q, k. split; [exact Gb|]. split; [apply (proj2 (sp_refs _ _ E k)), K|reflexivity].
Qed.
(** References set and unset on a loaded resource, one option after the other, all accepted: when the resource is loaded again
    from its source with the stored configuration, in whatever order the entries are stored, the configuration applies and
    gives the same archive.  Missing: sources with processes allocated by quantity, options that characterize or allocate, and options that set and unset
    the same exchange (refuted below). *)
Theorem C103_reload_partial : forall rq source os r c, archive rq source -> not_allocated source -> only_references os ->
  (forall pr k, asks_set os pr k -> ~ asks_unset os pr k) -> configure rq (R no_config source) os = (r, None) -> reordered (r_config r) c ->
  exists a, instantiate rq source c = (a, None) /\ same_archive (r_arch r) a.
Proof.
  intros rq source os r c AR NA OR DJ H RO. destruct (archive_shape rq source AR) as [SH _].
  assert (D0 : desc source (sets_of []) (unsets_of []) source).
  { split; [exact SH|]. split; [apply sk_refl|]. split; [reflexivity|]. intros pr p0 p G0 G. assert (p = p0) as -> by congruence.
    split; [eapply NA, G0|]. split; [reflexivity|]. split; [intros k; cbn; tauto|]. intros k. destruct (pv p0 k) as [[v d]|]; reflexivity. }
  destruct (live_run rq source os [] (R no_config source) r OR) as [L1 [L2 [L3 L4]]]; auto.
  { intros pr k X Y. cbn [app] in X, Y. apply in_sets_of in X. apply in_unsets_of in Y. eapply DJ; eauto. }
  cbn [app] in L1. cbn [r_config r_arch] in L3, L4. destruct (stored os no_config OR) as [T1 [T2 [T3 T4]]]. rewrite <- L3 in T1, T2, T3, T4. cbn [no_config c_set c_unset c_char c_alloc] in *.
  destruct RO as [R1 R2 R3 R4]. rewrite T3 in R3. rewrite T4 in R4.
  assert (C3 : c_char c = []) by (destruct (c_char c) as [|x l]; [reflexivity|destruct (proj1 (R3 x) (or_introl eq_refl))]).
  assert (C4 : c_alloc c = []) by (destruct (c_alloc c) as [|x l]; [reflexivity|destruct (proj1 (R4 x) (or_introl eq_refl))]).
  assert (M1 : forall pr f s, In (pr, f, Some s) (c_set c) <-> In (OSet pr f s) os).
  { intros pr f s. rewrite R1, T1. split; [intros [[]|[? [? [? [I E]]]]]; injection E as -> -> ->; exact I|intros I; right; exists pr, f, s; auto]. }
  assert (M2 : forall pr f s, In (UOne pr f (Some s)) (c_unset c) <-> In (OUnset pr f s) os).
  { intros pr f s. rewrite R2, T2. split; [intros [[]|[? [? [? [I E]]]]]; injection E as -> -> ->; exact I|intros I; right; exists pr, f, s; auto]. }
  destruct (sets_reload source (unsets_of []) (c_set c) (sets_of []) source D0) as [aS [S1 [S2 [SS [S3 S4]]]]].
  { intros pr k []. }
  { intros x I. apply R1, T1 in I as [[]|[pr [f [s [I ->]]]]]. destruct (L2 _ I) as [d [CN HK]]. exists d, s. auto. }
  destruct (unsets_reload source SS (c_unset c) (unsets_of []) aS S3) as [aU [U1 [U2 [UU [U3 U4]]]]].
  { intros x I. apply R2, T2 in I as [[]|[pr [f [s [I ->]]]]]. destruct (L2 _ I) as [d [CN HK]]. exists pr, f, d, s. auto. }
  set (aF := match a_ti aU with Some _ => re_index aU | None => aU end).
  assert (AP : apply_config rq c false source = (aF, None)).
  { apply apply_ok. exists aS, aU, aU, aU. rewrite C3, C4. repeat split; auto. }
  assert (PS : forall pr, match get (r_arch r) pr, get aU pr with Some p, Some q => sp p q | None, None => True | _, _ => False end).
  { eapply desc_same; [exact L1|exact U3| |].
    - intros pr k. rewrite S4, (in_sets_of os). unfold asks_set. change (sets_of [] pr) with (@nil key). split; [intros [[]|[f [d [s [I X]]]]]; exists f, d, s; rewrite M1 in I; auto|].
      intros [f [d [s [I X]]]]. right. exists f, d, s. rewrite M1. auto.
    - intros pr k. rewrite U4, (in_unsets_of os). unfold asks_unset. change (unsets_of [] pr) with (@nil key). split; [intros [[]|[f [d [s [I X]]]]]; exists f, d, s; rewrite M2 in I; auto|].
      intros [f [d [s [I X]]]]. right. exists f, d, s. rewrite M2. auto. }
  pose proof (proj1 L1) as SR. pose proof (proj1 U3) as SU.
  destruct os as [|o os'].
  { cbn [configure] in H. injection H as <-. cbn [r_arch r_config no_config c_set c_unset] in *.
    assert (C1 : c_set c = []) by (destruct (c_set c) as [|x l]; [reflexivity|destruct (proj1 (R1 x) (or_introl eq_refl))]).
    assert (C2 : c_unset c = []) by (destruct (c_unset c) as [|x l]; [reflexivity|destruct (proj1 (R2 x) (or_introl eq_refl))]).
    exists source. destruct c as [c1 c2 c3 c4]. cbn [c_set c_unset c_char c_alloc] in *. subst. split; [reflexivity|].
    apply same_same_archive; auto. split; [|reflexivity|].
    - intros pr. destruct (get source pr); [apply sp_refl|exact Logic.I].
    - destruct (a_ti source); [tauto|exact Logic.I]. }
  exists aF. split.
  { unfold instantiate. destruct c as [[|x1 l1] [|x2 l2] [|x3 l3] [|x4 l4]]; try exact AP. exfalso. cbn [c_set c_unset] in M1, M2.
    pose proof (OR o (or_introl eq_refl)) as K. destruct o as [pr f s|pr f s|?|?]; try contradiction; [apply (proj2 (M1 pr f s))|apply (proj2 (M2 pr f s))]; left; reflexivity. }
  assert (GF : forall pr, get aF pr = get aU pr) by (intros pr; unfold aF; destruct (a_ti aU); reflexivity).
  assert (SF : shape aF) by (unfold aF; destruct (a_ti aU); exact SU).
  assert (PF : forall pr, match get (r_arch r) pr, get aF pr with Some p, Some q => sp p q | None, None => True | _, _ => False end) by (intros pr; rewrite GF; apply PS).
  apply same_same_archive; auto. split; [exact PF| |].
  - intros fq. assert (a_cfs aF = a_cfs aU) as -> by (unfold aF; destruct (a_ti aU); reflexivity). destruct U3 as [_ [_ [-> _]]]. destruct L1 as [_ [_ [-> _]]]. reflexivity.
  - destruct (configure_index _ _ _ _ H) as [[X _]|[X|X]]; [discriminate| |]; rewrite X.
    + assert (N : a_ti source = None) by (apply L4; exact X). assert (a_ti aF = None) as ->; [|exact Logic.I]. unfold aF. assert (a_ti aU = None) as -> by congruence. congruence.
    + assert (N : exists l, a_ti source = Some l) by (destruct (a_ti source) as [l|] eqn:E; [eauto|rewrite (proj2 L4 eq_refl) in X; discriminate]). destruct N as [l N].
      assert (E : a_ti aF = Some (index_of aF)) by (unfold aF; rewrite U2, S2, N; reflexivity). rewrite E. apply same_index_of; auto.
Qed.
Print Assumptions C103_reload_partial.
Example C103_example : let os := [OUnset 10 2 "Output"; OSet 10 1 "Output"; OSet 10 0 "Output"] in
  archive refq plant /\ not_allocated plant /\ only_references os /\ (forall pr k, asks_set os pr k -> ~ asks_unset os pr k)
  /\ exists r p, configure refq (R no_config plant) os = (r, None) /\ get (r_arch r) 10 = Some p /\ p_refs p = [(1, Output, None); (0, Output, None)]
     /\ r_config r = C [(10, 1, Some "Output"); (10, 0, Some "Output")] [UOne 10 2 (Some "Output")] [] [].
Proof.
  cbv zeta. split; [apply C102_example|]. split; [apply C102_example|]. split.
  { intros o [<-|[<-|[<-|[]]]]; exact Logic.I. }
  split.
  { intros pr k [f [d [s [I [CN ->]]]]] [f' [d' [s' [I' [CN' E]]]]]. destruct I as [I|[I|[I|[]]]]; try discriminate; destruct I' as [I'|[I'|[I'|[]]]]; try discriminate; congruence. }
  eexists. eexists. split; [vm_compute; reflexivity|]. split; [vm_compute; reflexivity|]. split; vm_compute; reflexivity.
Qed.
(** A reference unset and then set again is a reference while the resource stays loaded, and is not after it is loaded again,
    because the stored sets are applied before the stored unsets. *)
Theorem C103_refuted_order : let os := [OUnset 10 2 "Output"; OSet 10 2 "Output"] in
  archive refq plant /\ not_allocated plant /\ exists r a p p', configure refq (R no_config plant) os = (r, None) /\ instantiate refq plant (r_config r) = (a, None)
  /\ get (r_arch r) 10 = Some p /\ get a 10 = Some p' /\ p_refs p = [(2, Output, None)] /\ p_refs p' = [].
Proof.
  cbv zeta. split; [apply C102_example|]. split; [apply C102_example|]. do 4 eexists. repeat (split; [vm_compute; reflexivity|]). vm_compute; reflexivity.
Qed.
(** An option that the validity check accepts but that cannot be applied is stored all the same, and from then on the resource cannot
    be loaded: a direction in lower case, or an exchange the process does not have. *)
Theorem C103_refuted_poison : forall rq r pr f p source, get (r_arch r) pr = Some p -> r_arch r = source -> r_config r = no_config ->
  exists r', add_config rq r (OSet pr f "output") = (r', Some (CProc PKeyError)) /\ r_config r' = C [(pr, f, Some "output")] [] [] []
  /\ exists a, instantiate rq source (r_config r') = (a, Some (CProc PKeyError)).
Proof.
  intros rq [c a0] pr f p source G <- E. cbn [r_arch r_config] in *. subst c. unfold add_config. cbn [r_arch]. unfold check_config. rewrite G. cbn [check_direction].
  change (Ascii.eqb "o" "i" || Ascii.eqb "o" "I")%bool with false. change (Ascii.eqb "o" "o" || Ascii.eqb "o" "O")%bool with true. cbv iota.
  cbn [add_opt no_config c_set c_unset c_char c_alloc app]. unfold apply_config. cbn [c_set c_unset c_char c_alloc steps bind fst snd].
  assert (S : exists a, set_reference a0 pr f (Some "output") = (a, Some (CProc PKeyError))) by (unfold set_reference; rewrite G; eexists; reflexivity).
  destruct S as [a S]. rewrite S. cbn [bind]. eexists. split; [reflexivity|]. cbn [r_config]. split; [reflexivity|]. unfold instantiate, apply_config.
  cbn [no_config app c_set c_unset c_char c_alloc steps bind fst snd]. rewrite S. eexists. reflexivity.
Qed.
(** Every load of a resource whose stored configuration sets a reference on an exchange its process does not have fails, whatever else is configured. *)
Theorem C103_refuted_missing : forall rq source c pr f s d p, get source pr = Some p -> built p -> archive rq source -> In (pr, f, Some s) (c_set c) -> canon s = Some d ->
  dget (f, d, None) (p_exch p) = None -> exists a e, instantiate rq source c = (a, Some e).
Proof.
  intros rq source c pr f s d p G B AR I CN N. destruct (archive_shape rq source AR) as [SH _].
  assert (F : snd (sets source (c_set c)) <> None).
  { intros F. destruct (sets source (c_set c)) as [a e] eqn:E. cbn in F. subst e.
    assert (GEN : forall l a a', shape a -> sk source a -> sets a l = (a', None) -> ~ In (pr, f, Some s) l).
    { clear - G CN N. induction l as [|[[pr' f'] s'] l IH]; intros a a' SH K H; unfold sets in *; cbn [steps fst snd] in H; [intros []|].
      destruct (set_reference a pr' f' s') as [a1 [e|]] eqn:E; [discriminate|]. destruct (set_ok_facts _ _ _ _ _ SH E) as [S1 [K1 _]].
      intros [X|X]; [|eapply IH; [exact S1|eapply sk_trans; eauto|exact H|exact X]]. injection X as -> -> ->.
      apply set_reference_ok in E as [q [dd [Gq [RD [O _]]]]]. cbn [rdir] in RD. rewrite CN in RD. injection RD as <-.
      destruct (add_ref_spec (acf a) q f d (proj2 SH _ _ Gq)) as [_ [KI _]]. specialize (KI O). destruct (sk_get _ _ _ _ K G) as [q' [Gq' XQ]].
      assert (q' = q) as -> by congruence. rewrite XQ in KI. apply din_xkeys in KI. unfold din in KI. rewrite N in KI. discriminate. }
    eapply GEN; [exact SH|apply sk_refl|exact E|exact I]. }
  unfold instantiate. destruct c as [c1 c2 c3 c4]. cbn [c_set] in *. destruct c1 as [|x c1]; [destruct I|]. unfold apply_config. cbn [c_set]. fold (sets source (x :: c1)).
  destruct (sets source (x :: c1)) as [a [e|]]; [|contradiction F; reflexivity]. exists a, e. reflexivity.
Qed.
(** The form of [unset_reference] that names a flow and a direction but no process: if no process has that reference it does nothing;
    otherwise it raises RuntimeError after the reference was removed from exactly one process, the others unchanged. *)
Theorem C103_unset_everywhere : forall rq a f s d a' e, archive rq a -> canon s = Some d -> unset_reference a (UAll f (Some s)) = (a', e) ->
  ((forall pr p, get a pr = Some p -> ~ In (f, d, None) (p_refs p)) /\ a' = a /\ e = None)
  \/ (exists pr p p', get a pr = Some p /\ In (f, d, None) (p_refs p) /\ e = Some CRuntimeError /\ get a' pr = Some p'
      /\ (forall k, In k (p_refs p') <-> In k (p_refs p) /\ k <> (f, d, None)) /\ forall pr', pr' <> pr -> get a' pr' = get a pr').
Proof.
  intros rq a f s d a' e AR CN. cbn [unset_reference]. rewrite CN. destruct (archive_shape rq a AR) as [SH _].
  assert (GEN : forall ps a' e, (forall pr p, In (pr, p) ps -> get a pr = Some p) -> remove_everywhere a ps f d = (a', e) ->
    ((forall pr p, In (pr, p) ps -> ~ In (f, d, None) (p_refs p)) /\ a' = a /\ e = None)
    \/ (exists pr p p', get a pr = Some p /\ In (f, d, None) (p_refs p) /\ e = Some CRuntimeError /\ get a' pr = Some p'
      /\ (forall k, In k (p_refs p') <-> In k (p_refs p) /\ k <> (f, d, None)) /\ forall pr', pr' <> pr -> get a' pr' = get a pr')).
  { induction ps as [|[pr p] ps IH]; intros b x HG H; cbn [remove_everywhere] in H.
    - injection H as <- <-. left. split; [intros ? ? []|auto].
    - destruct (mem_spec (f, d, @None string) (p_refs p)) as [M|M].
      + assert (H' : (set_proc a pr (fst (remove_reference (acf a) p f d)), Some CRuntimeError) = (b, x)) by exact H. clear H.
        right. assert (G : get a pr = Some p) by (apply HG; left; reflexivity). exists pr, p, (fst (remove_reference (acf a) p f d)).
        assert (b = set_proc a pr (fst (remove_reference (acf a) p f d))) as -> by congruence. assert (x = Some CRuntimeError) as -> by congruence.
        split; [exact G|]. split; [exact M|]. split; [reflexivity|]. split; [rewrite get_set_proc, eqb_refl; reflexivity|]. split.
        * pose proof (proj2 SH _ _ G) as I. assert (KI : In (f, d, @None string) (xkeys p)) by (apply (pi_ref p I) in M as [e' [D _]]; eapply dget_Some_key, D).
          destruct (remove_all_spec (acf a) [(f, d, None)] p I) as [_ [_ [_ [_ [B _]]]]]; [intros k [<-|[]]; split; [exact KI|reflexivity]|].
          rewrite remove_all_one in B by assumption. cbn [fst] in B. intros k. rewrite B. cbn. split; intros [X Y]; split; auto; intros Z; apply Y; auto. destruct Z as [Z|[]]; auto.
        * intros pr' NE. rewrite get_set_proc. destruct (eqb_spec pr' pr); [contradiction|reflexivity].
      + destruct (IH b x) as [[A B]|A]; auto; [intros pr' p' I; apply HG; right; exact I|]. left. split; [|exact B]. intros pr' p' [E|I]; [injection E as <- <-; exact M|eapply A, I]. }
  intros H. destruct (GEN (a_procs a) a' e) as [[A B]|A]; auto; [intros pr p I; apply in_procs; assumption|].
  left. split; [|exact B]. intros pr p Gp. apply (A pr p), in_procs; assumption.
Qed.
Definition farm : arch := A [(10, grow [PAddExchange 0 Output None (Some (Q2Qc 1)) TNone false; PAddReference 0 Output]); (11, grow [PAddExchange 0 Output None (Some (Q2Qc 1)) TNone false; PAddReference 0 Output])] [] None.
(** so the documented meaning, every process, fails already for two processes: the second keeps its reference *)
Theorem C103_refuted_everywhere : exists a p, unset_reference farm (UAll 0 (Some "Output")) = (a, Some CRuntimeError) /\ get a 11 = Some p /\ p_refs p = [(0, Output, None)].
Proof. eexists. eexists. split; [vm_compute; reflexivity|]. split; vm_compute; reflexivity. Qed.
Print Assumptions C103_unset_everywhere. Print Assumptions C103_refuted_missing.

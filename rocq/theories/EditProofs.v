(** What the steps of the fragment editor do to the heap (model: EditModel.v); used for C86, C87, C88. *)
From Verif Require Import Num Base PyStr ProcModel FragModel FragProofs FragProps FragProps4 ObserveProps EditModel.
Open Scope Qc_scope.
Open Scope string_scope.
Open Scope list_scope.
Local Arguments eqb : simpl never.

Lemma hset_same h i f : hset h i f i = Some f.
Proof. unfold hset. rewrite Nat.eqb_refl. reflexivity. Qed.
Lemma hset_other h i f j : j <> i -> hset h i f j = h j.
Proof. intros N. unfold hset. destruct (Nat.eqb_spec j i); [contradiction|reflexivity]. Qed.
(** only exchange values of [b] *)
Definition values_of (b : nat) (h h' : heap) : Prop := only_values h h' /\ forall j, j <> b -> h' j = h j.
Lemma values_of_refl b h : values_of b h h.
Proof. split; [apply only_values_refl|reflexivity]. Qed.
Lemma values_of_trans b h1 h2 h3 : values_of b h1 h2 -> values_of b h2 h3 -> values_of b h1 h3.
Proof. intros [A B] [C D]. split; [eapply only_values_trans; eauto|]. intros j N. rewrite D, B by exact N. reflexivity. Qed.
Lemma values_of_set b h g e : h b = Some g -> values_of b h (hset h b (with_evs g e)).
Proof. intros E. split; [apply only_values_set, E|]. intros j N. apply hset_other, N. Qed.

(** * Setters *)
Lemma set_ev_ok h i sc v h' : set_exchange_value h i sc v = (h', FOk tt) -> exists f k, h i = Some f /\ observable h f sc = FOk true /\ h' = hset h i (with_evs f (dset k v (f_evs f))) /\
  (forall k', sc = ScKey k' -> k' <> KS "0" -> k' <> KS "1" -> k = k') /\ (sc = ScNone -> k = K0) /\ (forall l, sc <> ScKey (KT l)) /\ (forall l, sc <> ScSet l).
Proof.
  unfold set_exchange_value. destruct (h i) as [f|]; [|discriminate]. destruct (observable h f sc) as [[|]|] eqn:OB; try discriminate. intros E.
  destruct sc as [|[| |s|l]|ks]; try discriminate; injection E as <-; eexists f, _; (split; [reflexivity|]); (split; [exact OB|]); (split; [reflexivity|]).
  - repeat split; try discriminate; intros; congruence.
  - repeat split; try discriminate. intros k' [= <-] _ _. reflexivity.
  - repeat split; try discriminate. intros k' [= <-] _ _. reflexivity.
  - repeat split; try discriminate. intros k' [= <-] N0 N1. destruct (eqb_spec (KS s) (KS "0")); [contradiction|]. destruct (eqb_spec (KS s) (KS "1")); [contradiction|]. reflexivity.
Qed.
Lemma set_cached_ok h i v h' f : h i = Some f -> cached_ev f = 1 -> set_cached h i v = (h', FOk tt) ->
  h' = h /\ v = 1 \/ h' = hset h i (with_evs f (dset K0 (Some v) (f_evs f))).
Proof.
  intros HI C. unfold set_cached. rewrite HI, C. change (eqb 1 (Q2Qc 1)) with true. cbn iota. destruct (eqb_spec v (Q2Qc 1)) as [->|N]; [intros [= <-]; left; auto|]. intros E.
  apply set_ev_ok in E as (f' & k & HI' & _ & -> & K & _). right. assert (f' = f) by congruence. subst f'. rewrite (K K0 eq_refl) by discriminate. reflexivity.
Qed.

(** * [transfer_evs] *)
Lemma transfer_one_ok a b h k h' : a <> b -> transfer_one a b h k = (h', FOk tt) -> values_of b h h'.
Proof.
  intros N. unfold transfer_one. destruct (_ || _); [intros [= <-]; apply values_of_refl|]. destruct (h a) as [f|]; [|discriminate]. destruct (h b) as [g|] eqn:HB; [|discriminate].
  destruct (observable h g (ScKey k)) as [[|]|]; [|intros [= <-]; apply values_of_refl|discriminate]. destruct (exchange_value f (ScKey k) false); [|discriminate].
  intros E. apply set_ev_ok in E as (g' & k' & HB' & _ & -> & _). assert (g' = g) by congruence. subst g'. apply values_of_set; exact HB.
Qed.
Lemma transfer_loop_ok a b ks : a <> b -> forall h h', heach ks (transfer_one a b) h = (h', FOk tt) -> values_of b h h'.
Proof.
  intros N. induction ks as [|k ks IH]; intros h h' E; cbn in E; [injection E as <-; apply values_of_refl|]. apply hbind_ok in E as (h1 & [] & E1 & E2).
  eapply values_of_trans; [eapply transfer_one_ok; eauto|apply IH; exact E2].
Qed.
Lemma transfer_ok a b h h' : a <> b -> transfer_evs h a b = (h', FOk tt) -> values_of b h h'.
Proof.
  intros N. unfold transfer_evs. destruct (h a) as [f|] eqn:HA; [|discriminate]. destruct (h b) as [g|] eqn:HB; [|discriminate]. intros E. apply hbind_ok in E as (h1 & [] & E1 & E2).
  eapply values_of_trans; [|eapply transfer_loop_ok; [exact N|exact E2]]. destruct (eqb _ _); [injection E1 as <-; apply values_of_refl|].
  destruct (observable h g ScNone) as [[|]|]; [|injection E1 as <-; apply values_of_refl|discriminate]. unfold set_observed in E1. rewrite HB in E1. destruct (observable h g ScNone) as [[|]|]; [|injection E1 as <-; apply values_of_refl|discriminate].
  injection E1 as <-. apply values_of_set; exact HB.
Qed.
(** scenario names that stand for the default values do not occur as keys *)
Definition no_digit_keys (f : frag) : Prop := din (KS "0") (f_evs f) = false /\ din (KS "1") (f_evs f) = false.
(** the exchange value of [g]'s parent's node is never computed from a subfragment *)
Definition always_observable (h : heap) (g : frag) : Prop := forall sc o, observable h g sc = FOk o -> o = true.
Lemma ov_always h h' g e : only_values h h' -> always_observable h g -> always_observable h' (with_evs g e).
Proof. intros O A sc o E. rewrite (ov_observable h h' g e sc O) in E. exact (A sc o E). Qed.

Lemma transfer_loop_values a b f ks : a <> b -> no_digit_keys f -> (forall k, In k ks -> din k (f_evs f) = true) ->
  forall h g h', h a = Some f -> h b = Some g -> always_observable h g -> heach ks (transfer_one a b) h = (h', FOk tt) ->
  exists e, h' b = Some (with_evs g e) /\ (forall k, dget k e = if mem k ks && negb (eqb k K0 || eqb k K1) then Some (Some (ev_for f (Some k) false)) else dget k (f_evs g)).
Proof.
  intros N [D0 D1]. induction ks as [|k ks IH]; intros IN h g h' HA HB AO E; cbn in E.
  - injection E as <-. exists (f_evs g). split; [rewrite HB; destruct g; reflexivity|]. reflexivity.
  - apply hbind_ok in E as (h1 & [] & E1 & E2). assert (INk := IN k (or_introl eq_refl)). assert (IN' : forall k, In k ks -> din k (f_evs f) = true) by (intros j J; apply IN; right; exact J).
    assert (V := transfer_one_ok _ _ _ _ _ N E1). assert (HA1 : h1 a = Some f) by (rewrite (proj2 V a N); exact HA).
    assert (S1 : exists e1, h1 b = Some (with_evs g e1) /\ forall k', dget k' e1 = if eqb k' k && negb (eqb k K0 || eqb k K1) then Some (Some (ev_for f (Some k) false)) else dget k' (f_evs g)).
    { unfold transfer_one in E1. destruct (eqb k K0 || eqb k K1) eqn:KK.
      - injection E1 as <-. exists (f_evs g). split; [rewrite HB; destruct g; reflexivity|]. intros k'. rewrite andb_false_r. reflexivity.
      - rewrite HA, HB in E1. destruct (observable h g (ScKey k)) as [o|] eqn:OB; [|discriminate]. rewrite (AO _ _ OB) in *. unfold exchange_value, match_ev in E1. rewrite INk in E1.
        apply set_ev_ok in E1 as (g' & k1 & HB' & _ & -> & K & _ & NT & _). assert (g' = g) by congruence. subst g'.
        assert (k1 = k). { apply K; [reflexivity| |]; intros ->; congruence. } subst k1. eexists. split; [apply hset_same|]. intros k'. rewrite andb_true_r.
        destruct (eqb_spec k' k) as [->|NE]; [apply dget_dset_same|apply dget_dset_other; congruence]. }
    destruct S1 as (e1 & HB1 & G1). destruct (IH IN' h1 (with_evs g e1) h' HA1 HB1 (ov_always _ _ _ _ (proj1 V) AO) E2) as (e & HE & G).
    exists e. split; [exact HE|]. intros k'. rewrite G. cbn [f_evs with_evs mem]. rewrite G1. destruct (eqb_spec k' k) as [->|NE].
    + destruct (mem k ks); cbn; destruct (eqb k K0 || eqb k K1); reflexivity.
    + cbn. reflexivity.
Qed.

(** stored values as they are after construction and the setters: cached and observed are numbers, the cached one is not zero *)
Definition values_ok (f : frag) : Prop := (exists v, dget K0 (f_evs f) = Some (Some v) /\ v <> 0) /\ (exists o, dget K1 (f_evs f) = Some (Some o)).
Definition ordinary_key (k : skey) : Prop := k <> K0 /\ k <> K1.
Definition ordinary (sc : scen) : Prop := match sc with ScNone => True | ScKey k => ordinary_key k | ScSet ks => forall k, In k ks -> ordinary_key k end.
Lemma ordinary_eqb k : ordinary_key k -> eqb k K0 || eqb k K1 = false.
Proof. intros [A B]. destruct (eqb_spec k K0); [contradiction|]. destruct (eqb_spec k K1); [contradiction|]. reflexivity. Qed.
(** fresh values: as after construction *)
Definition fresh_values (g : frag) : Prop := dget K1 (f_evs g) = Some (Some 0) /\ forall k, ordinary_key k -> dget k (f_evs g) = None.
Lemma dget_mem_keys (k : skey) (d : dict skey (option Qc)) : din k d = mem k (dkeys d).
Proof.
  unfold din. induction d as [|[k' v] d IH]; cbn; [reflexivity|]. destruct (eqb_spec k k'); cbn; [reflexivity|exact IH].
Qed.
Definition reads_as (f g : frag) : Prop := forall sc obs, ordinary sc -> exchange_value g sc obs = exchange_value f sc obs.
Lemma reads_as_intro f g : cached_ev g = cached_ev f -> num (observed_ev g) = num (observed_ev f) ->
  (forall k, ordinary_key k -> option_map num (dget k (f_evs g)) = option_map num (dget k (f_evs f))) -> reads_as f g.
Proof.
  intros C O K sc obs OR. assert (DI : forall k, ordinary_key k -> din k (f_evs g) = din k (f_evs f)).
  { intros k OK. specialize (K k OK). unfold din. destruct (dget k (f_evs g)), (dget k (f_evs f)); try reflexivity; discriminate. }
  assert (EV : forall m, (forall k, m = Some k -> ordinary_key k) -> ev_for g m obs = ev_for f m obs).
  { intros [k|] M; cbn; [|destruct obs; congruence]. specialize (K k (M k eq_refl)). destruct (dget k (f_evs g)), (dget k (f_evs f)); cbn in K; congruence. }
  unfold exchange_value, match_ev. destruct sc as [|k|ks].
  - rewrite EV by discriminate. reflexivity.
  - cbn in OR. rewrite (DI k OR). rewrite EV; [reflexivity|]. intros k' E. destruct (din k (f_evs f)); congruence.
  - cbn in OR. rewrite (filter_ext_in (fun k => din k (f_evs g)) (fun k => din k (f_evs f))) by (intros k J; apply DI, OR, J).
    destruct (filter (fun k => din k (f_evs f)) ks) as [|k [|k2 r]] eqn:F.
    + rewrite EV by discriminate. reflexivity.
    + rewrite EV; [reflexivity|]. intros k' [= <-]. apply OR. apply (filter_In (fun k => din k (f_evs f))). rewrite F. left. reflexivity.
    + reflexivity.
Qed.
Lemma transfer_values a b f g h h' : a <> b -> h a = Some f -> h b = Some g -> values_ok f -> no_digit_keys f -> always_observable h g -> fresh_values g ->
  cached_ev g = cached_ev f -> (f_parent g = None <-> f_parent f = None) -> transfer_evs h a b = (h', FOk tt) ->
  exists e, h' b = Some (with_evs g e) /\ reads_as f (with_evs g e) /\ dget K0 e = dget K0 (f_evs g).
Proof.
  intros N HA HB [(v & V0 & VN) (o & V1)] ND AO [F1 FK] CA PA E. unfold transfer_evs in E. rewrite HA, HB in E. apply hbind_ok in E as (h1 & [] & E1 & E2).
  assert (S1 : exists e1, h1 b = Some (with_evs g e1) /\ only_values h h1 /\ h1 a = Some f /\ dget K0 e1 = dget K0 (f_evs g) /\
     dget K1 e1 = (if eqb (observed_ev f) (Some 0) then Some (Some 0) else Some (observed_ev f)) /\ forall k, ordinary_key k -> dget k e1 = None).
  { change (Some (Q2Qc 0)) with (Some 0) in E1. destruct (eqb (observed_ev f) (Some 0)) eqn:OZ.
    - injection E1 as <-. exists (f_evs g). split; [rewrite HB; destruct g; reflexivity|]. split; [apply only_values_refl|]. auto.
    - destruct (observable h g ScNone) as [oo|] eqn:OB; [|discriminate]. assert (oo = true) by exact (AO _ _ OB). subst oo. unfold set_observed in E1. rewrite HB, OB in E1. injection E1 as <-.
      eexists. split; [apply hset_same|]. split; [apply only_values_set, HB|]. split; [rewrite hset_other by exact N; exact HA|]. cbn.
      split; [apply dget_dset_other; discriminate|]. split; [apply dget_dset_same|]. intros k OK. destruct OK as [K0' K1']. rewrite dget_dset_other by congruence. apply FK. split; assumption. }
  destruct S1 as (e1 & HB1 & O1 & HA1 & G0 & G1 & GK).
  destruct (transfer_loop_values a b f (dkeys (f_evs f)) N ND (fun k J => eq_trans (dget_mem_keys k (f_evs f)) (proj2 (mem_In k _) J)) h1 (with_evs g e1) h' HA1 HB1 (ov_always _ _ _ _ O1 AO) E2) as (e & HE & G).
  exists e. split; [exact HE|]. assert (C0 : dget K0 e = dget K0 (f_evs g)) by (rewrite G; change (eqb K0 K0) with true; cbn; rewrite andb_false_r; exact G0).
  assert (C1 : dget K1 e = (if eqb (observed_ev f) (Some 0) then Some (Some 0) else Some (observed_ev f))).
  { rewrite G. change (eqb K1 K1) with true. rewrite orb_true_r. cbn. rewrite andb_false_r. exact G1. }
  split; [|exact C0]. apply reads_as_intro.
  - unfold cached_ev. cbn. rewrite C0. exact CA.
  - unfold observed_ev at 1. cbn [f_evs f_parent with_evs]. rewrite C1, C0. destruct (eqb_spec (observed_ev f) (Some 0)) as [Z|NZ].
    + destruct (f_parent g) as [p|] eqn:GP; [rewrite Z; reflexivity|]. exfalso. assert (FP := proj1 PA eq_refl). unfold observed_ev in Z. rewrite FP, V1, V0 in Z.
      destruct (eqb_spec (Some o) (Some (Q2Qc 0))) as [_|X]; [congruence|]. apply X, Z.
    + destruct (f_parent g) as [p|]; [reflexivity|]. destruct (eqb_spec (observed_ev f) (Some (Q2Qc 0))) as [X|]; [contradiction (NZ X)|reflexivity].
  - intros k OK. cbn. rewrite G. rewrite (ordinary_eqb k OK), andb_true_r. rewrite <- dget_mem_keys. unfold din. destruct (dget k (f_evs f)) as [x|] eqn:DK.
    + cbn. rewrite DK. reflexivity.
    + cbn. rewrite (GK k OK). reflexivity.
Qed.

(** * [create_fragment] under a parent *)
Section Env.
Context (cf : nat -> nat -> Qc) (refq : nat -> nat).
Lemma to_foreground_ok fuel h i k h' f : h i = Some f -> to_foreground cf refq fuel h i k = (h', FOk tt) ->
  (forall l, k <> Some (KT l)) /\ (forall t, dget k (f_terms f) = Some t -> is_null t = true) /\
  h' = hset (hset h i (with_bg f false)) i (with_terms (with_bg f false) (dset k (Tm (NFrag i) (f_flow f) (comp (f_dir f)) true) (f_terms f))).
Proof.
  intros HI. unfold to_foreground. rewrite HI. unfold terminate. rewrite hset_same. cbn [f_terms with_bg]. intros E.
  assert (NK : forall l, k <> Some (KT l)) by (intros l ->; discriminate). split; [exact NK|].
  destruct (dget k (f_terms f)) as [t|] eqn:DT.
  - destruct (is_null t) eqn:NT.
    + split; [intros t' [= <-]; exact NT|]. destruct k as [[| |s|l]|]; [| | |contradiction (NK l); reflexivity|]; cbn [negb] in E; rewrite Nat.eqb_refl in E; injection E as <-; reflexivity.
    + exfalso. destruct k as [[]|]; discriminate.
  - split; [discriminate|]. destruct k as [[| |s|l]|]; [| | |contradiction (NK l); reflexivity|]; rewrite Nat.eqb_refl in E; injection E as <-; reflexivity.
Qed.
Definition created (h h' : heap) (i p flow : nat) (d : dirn) (v : Qc) (bal bg : bool) (pf : frag) : Prop :=
  exists pf1 t e,
    h' i = Some (Fr (Some p) [] flow d bg bal None e [(None, null_term flow d)]) /\ h' p = Some pf1 /\ (forall j, j <> i -> j <> p -> h' j = h j) /\
    f_parent pf1 = f_parent pf /\ f_flow pf1 = f_flow pf /\ f_dir pf1 = f_dir pf /\ f_isbal pf1 = f_isbal pf /\ f_evs pf1 = f_evs pf /\
    f_children pf1 = set_add i (f_children pf) /\ f_cons pf1 = (if bal then Some (refq flow) else f_cons pf) /\ (bal = true -> f_cons pf = None) /\
    dget None (f_terms pf) = Some t /\
    (is_null t = false -> f_terms pf1 = f_terms pf /\ f_bg pf1 = f_bg pf) /\
    (is_null t = true -> f_terms pf1 = dset None (Tm (NFrag p) (f_flow pf) (comp (f_dir pf)) true) (f_terms pf) /\ f_bg pf1 = false) /\
    dget K0 e = Some (Some (if bal || is_subfrag h p t then 1 else v)) /\ dget K1 e = Some (Some 0) /\ (forall k, ordinary_key k -> dget k e = None).
Lemma create_child_ok fuel h i flow d p v bal bg h' pf : h p = Some pf ->
  create_fragment cf refq fuel h i flow d (Some p) (Some v) bal bg = (h', FOk tt) -> h i = None /\ i <> p /\ created h h' i p flow d v bal bg pf.
Proof.
  intros HP E. unfold create_fragment in E. destruct (h i) eqn:HI; [discriminate|]. assert (NE : i <> p) by congruence. split; [reflexivity|]. split; [exact NE|]. rewrite HP in E.
  destruct (dget None (f_terms pf)) as [t|] eqn:DT; [|discriminate]. apply hbind_ok in E as (h1 & [] & E1 & E).
  assert (S1 : exists pf0 t0, h1 p = Some pf0 /\ (forall j, j <> p -> h1 j = h j) /\ dget None (f_terms pf0) = Some t0 /\ is_subfrag h1 p t0 = is_subfrag h p t /\
    f_parent pf0 = f_parent pf /\ f_flow pf0 = f_flow pf /\ f_dir pf0 = f_dir pf /\ f_isbal pf0 = f_isbal pf /\ f_evs pf0 = f_evs pf /\ f_children pf0 = f_children pf /\ f_cons pf0 = f_cons pf /\
    (is_null t = false -> f_terms pf0 = f_terms pf /\ f_bg pf0 = f_bg pf) /\
    (is_null t = true -> f_terms pf0 = dset None (Tm (NFrag p) (f_flow pf) (comp (f_dir pf)) true) (f_terms pf) /\ f_bg pf0 = false)).
  { destruct (is_null t) eqn:NT.
    - destruct (to_foreground_ok _ _ _ _ _ _ HP E1) as (_ & _ & ->). eexists _, (Tm (NFrag p) (f_flow pf) (comp (f_dir pf)) true). split; [apply hset_same|]. split; [intros j N; rewrite !hset_other by exact N; reflexivity|].
      split; [cbn; apply dget_dset_same|]. split; [|cbn; repeat split; congruence]. unfold is_subfrag. cbn. rewrite hset_same, Nat.eqb_refl. unfold is_null in NT. destruct (t_node t); try discriminate. reflexivity.
    - injection E1 as <-. exists pf, t. repeat split; auto; discriminate. }
  destruct S1 as (pf0 & t0 & HP1 & FR1 & DT0 & SF & P1 & P2 & P3 & P4 & P5 & P6 & P7 & P8 & P9). rewrite HP1, DT0 in E. rewrite SF in E. cbv zeta in E.
  set (w := if bal || is_subfrag h p t then Q2Qc 1 else v) in E.
  destruct (bal && match f_cons pf0 with Some _ => true | None => false end) eqn:BC; [discriminate|].
  set (pf1 := if bal then with_cons (with_children pf0 (set_add i (f_children pf0))) (Some (refq flow)) else with_children pf0 (set_add i (f_children pf0))).
  set (hh := hset (if bal then hset (hset h1 p (with_children pf0 (set_add i (f_children pf0)))) p (with_cons (with_children pf0 (set_add i (f_children pf0))) (Some (refq flow))) else hset h1 p (with_children pf0 (set_add i (f_children pf0)))) i
              (Fr (Some p) [] flow d bg bal None new_evs [(None, null_term flow d)])) in E.
  assert (HHP : hh p = Some pf1) by (unfold hh; rewrite hset_other by congruence; unfold pf1; destruct bal; apply hset_same).
  assert (HHI : hh i = Some (Fr (Some p) [] flow d bg bal None new_evs [(None, null_term flow d)])) by apply hset_same.
  assert (HHJ : forall j, j <> i -> j <> p -> hh j = h j) by (intros j N1 N2; unfold hh; rewrite hset_other by exact N1; destruct bal; rewrite ?hset_other by exact N2; apply FR1, N2).
  assert (RES : exists e, h' = hh /\ e = new_evs /\ w = 1 \/ h' = hset hh i (with_evs (Fr (Some p) [] flow d bg bal None new_evs [(None, null_term flow d)]) (dset K0 (Some w) new_evs)) /\ e = dset K0 (Some w) new_evs).
  { destruct (set_cached_ok _ _ _ _ _ HHI ltac:(vm_compute; reflexivity) E) as [[-> W]|H']; [exists new_evs; left; auto|exists (dset K0 (Some w) new_evs); right; split; [exact H'|reflexivity]]. }
  destruct RES as [e RES]. exists pf1, t, e.
  assert (GI : h' i = Some (Fr (Some p) [] flow d bg bal None e [(None, null_term flow d)])). { destruct RES as [(-> & -> & _)|(-> & ->)]; [exact HHI|apply hset_same]. }
  assert (GP : h' p = Some pf1). { destruct RES as [(-> & _)|(-> & _)]; [exact HHP|rewrite hset_other by congruence; exact HHP]. }
  assert (GJ : forall j, j <> i -> j <> p -> h' j = h j). { intros j N1 N2. destruct RES as [(-> & _)|(-> & _)]; [|rewrite hset_other by exact N1]; apply HHJ; assumption. }
  repeat (split; [first [exact GI|exact GP|exact GJ]|]).
  split; [unfold pf1; destruct bal; exact P1|]. split; [unfold pf1; destruct bal; exact P2|]. split; [unfold pf1; destruct bal; exact P3|]. split; [unfold pf1; destruct bal; exact P4|].
  split; [unfold pf1; destruct bal; exact P5|]. split; [unfold pf1; destruct bal; cbn; rewrite P6; reflexivity|]. split; [unfold pf1; destruct bal; cbn; [reflexivity|exact P7]|].
  split; [intros ->; rewrite <- P7; destruct (f_cons pf0); [discriminate|reflexivity]|]. split; [exact DT|].
  split; [intros NT; unfold pf1; destruct bal; exact (P8 NT)|]. split; [intros NT; unfold pf1; destruct bal; exact (P9 NT)|].
  destruct RES as [(_ & -> & W)|(_ & ->)].
  - split; [change (if bal || is_subfrag h p t then 1 else v) with w; rewrite W; reflexivity|]. split; [reflexivity|]. intros k [A B]. cbn. destruct (eqb_spec k K0); [contradiction|]. destruct (eqb_spec k K1); [contradiction|]. reflexivity.
  - split; [rewrite dget_dset_same; reflexivity|]. split; [reflexivity|]. intros k [A B]. rewrite dget_dset_other by congruence. cbn. destruct (eqb_spec k K0); [contradiction|]. destruct (eqb_spec k K1); [contradiction|]. reflexivity.
Qed.
End Env.

(** * [fork_fragment] *)
Definition never_subfrag (h : heap) (p : nat) (pf : frag) : Prop := forall k t, In (k, t) (f_terms pf) -> is_subfrag h p t = false.
Lemma In_dget {K V} `{EqB K} (k : K) (d : dict K V) v : dget k d = Some v -> In (k, v) d.
Proof. induction d as [|[k' v'] d IH]; cbn; [discriminate|]. destruct (eqb_spec k k') as [->|]; [intros [= ->]; left; reflexivity|intros E; right; apply IH, E]. Qed.
Section Fork.
Context (cf : nat -> nat -> Qc) (refq : nat -> nat).
Record forked (h h' : heap) (a b p : nat) (f pf pf1 g : frag) : Prop := FK {
  fk_a : h' a = Some (with_evs f new_evs);
  fk_b : h' b = Some g;
  fk_p : h' p = Some pf1;
  fk_frame : forall j, j <> a -> j <> b -> j <> p -> h' j = h j;
  fk_g : exists e, g = Fr (Some p) [] (f_flow f) (f_dir f) false (f_isbal f) None e [(None, null_term (f_flow f) (f_dir f))];
  fk_fields : f_parent pf1 = f_parent pf /\ f_flow pf1 = f_flow pf /\ f_dir pf1 = f_dir pf /\ f_isbal pf1 = f_isbal pf /\ f_evs pf1 = f_evs pf;
  fk_children : f_children pf1 = set_add b (f_children pf);
  fk_cons : f_cons pf1 = (if f_isbal f then Some (refq (f_flow f)) else f_cons pf) /\ (f_isbal f = true -> f_cons pf = None);
  fk_terms : exists t, dget None (f_terms pf) = Some t /\ (is_null t = false -> f_terms pf1 = f_terms pf /\ f_bg pf1 = f_bg pf) /\
    (is_null t = true -> f_terms pf1 = dset None (Tm (NFrag p) (f_flow pf) (comp (f_dir pf)) true) (f_terms pf) /\ f_bg pf1 = false);
  fk_values : f_isbal f = false -> values_ok f -> no_digit_keys f -> f_bg pf = false -> never_subfrag h p pf -> reads_as f g }.
Lemma fork_ok fuel h a b f p pf h' : h a = Some f -> f_parent f = Some p -> h p = Some pf -> a <> p ->
  fork_fragment cf refq fuel h a b = (h', FOk tt) -> h b = None /\ b <> p /\ b <> a /\ exists pf1 g, forked h h' a b p f pf pf1 g.
Proof.
  intros HA FP HP NAP E. unfold fork_fragment in E. rewrite HA, FP in E. apply hbind_ok in E as (h1 & [] & E1 & E). apply hbind_ok in E as (h2 & [] & E2 & E3).
  destruct (create_child_ok cf refq _ _ _ _ _ _ _ _ _ _ _ HP E1) as (HB & NBP & pf1 & t & e & B1 & P1 & FR & C1 & C2 & C3 & C4 & C5 & C6 & C7 & C8 & DT & T1 & T2 & K0E & K1E & KE).
  assert (NAB : a <> b) by congruence. split; [exact HB|]. split; [exact NBP|]. split; [congruence|].
  assert (A1 : h1 a = Some f) by (rewrite FR by congruence; exact HA). assert (V := transfer_ok a b h1 h2 NAB E2).
  assert (A2 : h2 a = Some f) by (rewrite (proj2 V a NAB); exact A1). unfold clear_evs in E3. rewrite A2 in E3. injection E3 as <-.
  destruct (only_values_some _ _ _ _ (proj1 V) B1) as [e2 B2]. cbn [with_evs f_parent f_children f_flow f_dir f_bg f_isbal f_cons f_terms] in B2.
  exists pf1. eexists. split.
  - apply hset_same.
  - rewrite hset_other by congruence. exact B2.
  - rewrite hset_other by congruence. rewrite (proj2 V p) by congruence. exact P1.
  - intros j Na Nb Np. rewrite hset_other by exact Na. rewrite (proj2 V j) by exact Nb. apply FR; assumption.
  - eexists. reflexivity.
  - auto.
  - exact C6.
  - split; [exact C7|exact C8].
  - exists t. auto.
  - intros IB VO ND BG NS. set (g0 := Fr (Some p) [] (f_flow f) (f_dir f) false (f_isbal f) None e [(None, null_term (f_flow f) (f_dir f))]).
    assert (SFt : is_subfrag h p t = false) by (eapply NS, In_dget, DT).
    assert (AO : always_observable h1 g0).
    { intros sc o OB. unfold observable in OB. cbn in OB. rewrite IB, P1 in OB. destruct (termination pf1 sc) as [t1|] eqn:TT; [|discriminate]. injection OB as <-.
      apply term_in in TT as [k IN]. assert (IN' : is_fg p t1 = true \/ In (k, t1) (f_terms pf)).
      { destruct (is_null t) eqn:NT; [|right; rewrite (proj1 (T1 eq_refl)) in IN; exact IN]. rewrite (proj1 (T2 eq_refl)) in IN. apply In_dset in IN as [[= _ ->]|IN]; [left; cbn; apply Nat.eqb_refl|right; exact IN]. }
      destruct IN' as [FG|IN']; [unfold is_fg in FG; unfold is_subfrag; destruct (t_node t1); try discriminate; rewrite P1, FG; reflexivity|].
      specialize (NS k t1 IN'). unfold is_subfrag in *. destruct (t_node t1) as [| |j]; try reflexivity. rewrite P1. rewrite HP in NS. assert (BG1 : f_bg pf1 = false) by (destruct (is_null t); [exact (proj2 (T2 eq_refl))|rewrite (proj2 (T1 eq_refl)); exact BG]).
      rewrite BG1. rewrite BG in NS. destruct (Nat.eqb_spec j p) as [EJ|NJ]; [reflexivity|]. cbn in NS |- *.
      destruct (Nat.eq_dec j b) as [->|NB]; [rewrite HB in NS; discriminate|]. rewrite FR by assumption. destruct (h j) as [gj|]; [|discriminate]. destruct (f_bg gj); [reflexivity|discriminate]. }
    destruct (transfer_values a b f g0 h1 h2 NAB A1 B1 VO ND AO (conj K1E KE)) as (e3 & B3 & RA & _); [|cbn; rewrite FP; split; discriminate|exact E2|].
    + unfold cached_ev at 1. cbn. rewrite K0E, IB, SFt. cbn. destruct (eqb_spec (cached_ev f) (Q2Qc 0)) as [Z|]; [destruct (cached_nonzero f Z)|reflexivity].
    + assert (E3 : with_evs g0 e3 = Fr (Some p) [] (f_flow f) (f_dir f) false (f_isbal f) None e2 [(None, null_term (f_flow f) (f_dir f))]) by (rewrite B2 in B3; injection B3 as <-; reflexivity). idtac. rewrite E3 in RA. exact RA.
Qed.
End Fork.

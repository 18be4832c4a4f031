(** Proofs about ConfModel.v: applying a configuration twice. *)
From Coq Require Import String List Permutation.
From Verif Require Import Num Base PyStr ProcModel ProcProofs ProcProps ConfModel.
Open Scope nat_scope.
Open Scope list_scope.

(** * One process *)
Definition pv (p : proc) (k : key) : option (option Qc * dict key (option Qc)) :=
  option_map (fun e => (x_value e, x_vdict e)) (dget k (p_exch p)).
Definition J (cf : nat -> nat -> Qc) (p : proc) : Prop :=
  forall q, p_qty p = Some q -> total_output cf p q <> Q2Qc 0 -> p_sum p = total_output cf p q.
(** the same process, up to the order of its set of references *)
Record sp (p p' : proc) : Prop := {
  sp_pv : forall k, pv p' k = pv p k;
  sp_refs : forall k, In k (p_refs p') <-> In k (p_refs p);
  sp_qty : p_qty p' = p_qty p;
  sp_sum : p_sum p' = p_sum p }.
Lemma sp_refl p : sp p p.
Proof. split; intros; reflexivity. Qed.
Lemma sp_trans p1 p2 p3 : sp p1 p2 -> sp p2 p3 -> sp p1 p3.
Proof.
  intros [A B C D] [E F G H]. split; intros.
  - rewrite E. apply A.
  - rewrite F. apply B.
  - congruence.
  - congruence.
Qed.

Lemma exch_value_pv p k : exch_value p k = match pv p k with Some (v, d) => value (X v d false) | None => None end.
Proof. unfold exch_value, pv. destruct (dget k (p_exch p)) as [[v d r]|]; reflexivity. Qed.
Lemma total_same cf cf' p p' q : (forall f q, cf' f q = cf f q) -> NoDup (p_refs p) -> NoDup (p_refs p') ->
  (forall k, In k (p_refs p') <-> In k (p_refs p)) -> (forall k, pv p' k = pv p k) ->
  total_output cf' p' q = total_output cf p q.
Proof.
  intros C N N' R V. unfold total_output.
  rewrite (Qcsum_perm _ (map (ref_output cf' p' q) (p_refs p))) by (apply Permutation_map, NoDup_Permutation; assumption).
  f_equal. apply map_ext. intros k. unfold ref_output. rewrite !exch_value_pv, V, C. reflexivity.
Qed.
Lemma allocate_total cf p q : allocate cf p (Some q) =
  if eqb (total_output cf p q) (Q2Qc 0) then p else P (p_exch p) (p_refs p) (Some q) (total_output cf p q).
Proof. unfold allocate. rewrite total_alloc_dict. reflexivity. Qed.
Lemma J_allocate cf p : J cf (allocate cf p (p_qty p)).
Proof.
  intros q Q. destruct (p_qty p) as [q0|] eqn:E; [|discriminate]. rewrite total_allocate. revert Q. rewrite allocate_total.
  destruct (eqb_spec (total_output cf p q0) (Q2Qc 0)) as [Z|Z]; cbn [p_qty p_sum].
  - intros Q NZ. rewrite E in Q. injection Q as <-. contradiction.
  - intros Q _. injection Q as <-. reflexivity.
Qed.
Lemma J_same cf cf' p p' : (forall f q, cf' f q = cf f q) -> pinv p -> pinv p' -> sp p p' -> J cf p -> J cf' p'.
Proof.
  intros C I I' [A B D E] H q Q. rewrite (total_same cf cf' p p' q) by (auto; apply pi_refs; assumption).
  intros NZ. rewrite E. apply H; congruence.
Qed.
Lemma allocate_qty_same cf p : p_qty (allocate cf p (p_qty p)) = p_qty p.
Proof. destruct (p_qty p) eqn:E; [|reflexivity]. rewrite allocate_total. destruct (eqb _ _); cbn; congruence. Qed.
Lemma pv_exch p p' : p_exch p' = p_exch p -> forall k, pv p' k = pv p k.
Proof. intros E k. unfold pv. rewrite E. reflexivity. Qed.
Definition xkeys (p : proc) : list key := dkeys (p_exch p).
Lemma din_xkeys p k : din k (p_exch p) = true <-> In k (xkeys p).
Proof.
  unfold din, xkeys. destruct (dget k (p_exch p)) eqn:D.
  - split; [intros _; eapply dget_Some_key; eauto|reflexivity].
  - apply dget_None in D. split; [discriminate|contradiction].
Qed.

Lemma add_ref_spec cf p f d : pinv p -> let k : key := (f, d, None) in let p' := fst (add_reference cf p f d) in
  (In k (xkeys p) -> snd (add_reference cf p f d) = POk k) /\ (snd (add_reference cf p f d) = POk k -> In k (xkeys p))
  /\ pinv p' /\ xkeys p' = xkeys p /\ (forall k', pv p' k' = pv p k')
  /\ (In k (xkeys p) -> forall k', In k' (p_refs p') <-> In k' (p_refs p) \/ k' = k) /\ p_qty p' = p_qty p /\ J cf p'.
Proof.
  intros I k p'. pose proof (pinv_add_reference cf p f d I) as I'. fold p' in I'.
  split; [|split; [|split; [exact I'|]]].
  - intros K. unfold add_reference. cbn [snd]. apply din_xkeys in K. fold k. rewrite K. reflexivity.
  - unfold add_reference. cbn [snd]. fold k. destruct (din k (p_exch p)) eqn:D; [|discriminate]. intros _. apply din_xkeys, D.
  - subst p'. unfold add_reference. cbv zeta. cbn [fst]. fold k.
    match goal with |- context [match alloc_qty ?x with _ => _ end] => set (p1 := x) end.
    assert (Q1 : p_qty p1 = p_qty p /\ p_sum p1 = p_sum p) by (subst p1; destruct (dget k (p_exch p)); split; reflexivity).
    assert (AQ : alloc_qty p1 = p_qty p) by (rewrite <- (alloc_qty_eq p I); unfold alloc_qty; destruct Q1 as [-> ->]; reflexivity).
    rewrite AQ. set (p2 := match p_qty p with Some _ => _ | None => _ end).
    assert (E2 : p_exch p2 = p_exch p1) by (subst p2; destruct (p_qty p); [apply allocate_exch|reflexivity]).
    assert (R2 : p_refs p2 = p_refs p1) by (subst p2; destruct (p_qty p); [apply allocate_refs|reflexivity]).
    split; [|split; [|split; [|split]]].
    + unfold xkeys. rewrite E2. subst p1. destruct (dget k (p_exch p)) as [e|] eqn:D; [|reflexivity]. cbn [p_exch].
      rewrite dkeys_dset. unfold din. rewrite D. reflexivity.
    + intros k'. unfold pv. rewrite E2. subst p1. destruct (dget k (p_exch p)) as [e|] eqn:D; [|reflexivity]. cbn [p_exch].
      rewrite dget_dset. destruct (eqb_spec k' k) as [->|]; [rewrite D|]; reflexivity.
    + intros K k'. rewrite R2. subst p1. apply dget_key_Some in K as [e D]. rewrite D. cbn [p_refs]. rewrite In_set_add. tauto.
    + subst p2. destruct Q1 as [Q1 _]. rewrite <- Q1. destruct (p_qty p1) eqn:Q; [|exact Q]. rewrite <- Q. apply allocate_qty_same.
    + subst p2. destruct Q1 as [Q1 _]. rewrite <- Q1. destruct (p_qty p1) eqn:Q; [rewrite <- Q; apply J_allocate|].
      intros q X. congruence.
Qed.

Definition del_keys (ks : list key) (d : dict key (option Qc)) : dict key (option Qc) := fold_left (fun d k => ddel k d) ks d.
Definition pdel (ks : list key) (x : option (option Qc * dict key (option Qc))) :=
  option_map (fun vd => (fst vd, del_keys ks (snd vd))) x.
Lemma rem_ref_spec cf p f d : pinv p -> let k : key := (f, d, None) in let p' := fst (remove_reference cf p f d) in
  (In k (xkeys p) <-> snd (remove_reference cf p f d) = POk tt)
  /\ pinv p' /\ xkeys p' = xkeys p
  /\ (In k (xkeys p) -> forall k', pv p' k' = pdel [k] (pv p k'))
  /\ (In k (xkeys p) -> forall k', In k' (p_refs p') <-> In k' (p_refs p) /\ k' <> k) /\ p_qty p' = p_qty p /\ (In k (xkeys p) -> J cf p').
Proof.
  intros I k p'. pose proof (pinv_remove_reference cf p f d I) as I'. fold p' in I'.
  split; [|split; [exact I'|]].
  - unfold remove_reference. cbv zeta. fold k. destruct (dget k (p_exch p)) as [e|] eqn:D; cbn [snd].
    + split; [reflexivity|]. intros _. eapply dget_Some_key, D.
    + apply dget_None in D. split; [contradiction|discriminate].
  - subst p'. unfold remove_reference in *. cbv zeta in *. fold k in I'. fold k. destruct (dget k (p_exch p)) as [e|] eqn:D; cbn [fst] in *.
    2:{ apply dget_None in D. repeat split; try contradiction. }
    fold (rm_exch k e (p_exch p)) in I'. fold (rm_exch k e (p_exch p)). set (p1 := P (rm_exch k e (p_exch p)) _ _ _) in *.
    set (p2 := match p_qty p with Some _ => _ | None => _ end) in *.
    assert (E2 : p_exch p2 = p_exch p1) by (subst p2; destruct (p_qty p); [apply allocate_exch|reflexivity]).
    assert (R2 : p_refs p2 = p_refs p1) by (subst p2; destruct (p_qty p); [apply allocate_refs|reflexivity]).
    split; [|split; [|split; [|split]]].
    + unfold xkeys. rewrite E2. subst p1. cbn [p_exch]. unfold rm_exch.
      rewrite (dkeys_map_snd (fun e => X (x_value e) (ddel k (x_vdict e)) (x_ref e))), dkeys_dset. unfold din. rewrite D. reflexivity.
    + intros _ k'. unfold pv. rewrite E2. subst p1. cbn [p_exch]. rewrite dget_rm_exch.
      destruct (eqb_spec k' k) as [->|]; [rewrite D; reflexivity|]. destruct (dget k' (p_exch p)); reflexivity.
    + intros _ k'. rewrite R2. subst p1. cbn [p_refs]. apply In_set_remove.
    + subst p2. change (p_qty p) with (p_qty p1). destruct (p_qty p1) eqn:Q; [|exact Q]. rewrite <- Q. apply allocate_qty_same.
    + intros _. subst p2. change (p_qty p) with (p_qty p1). destruct (p_qty p1) eqn:Q; [rewrite <- Q; apply J_allocate|].
      intros q X. congruence.
Qed.

Lemma pdel_app ks ks' x : pdel ks' (pdel ks x) = pdel (ks ++ ks') x.
Proof. destruct x as [[v d]|]; cbn; [|reflexivity]. unfold del_keys. rewrite fold_left_app. reflexivity. Qed.
Lemma remove_all_spec cf ks : forall p, pinv p -> (forall k, In k ks -> In k (xkeys p) /\ k_term k = None) ->
  let p' := fst (remove_all cf p ks) in
  snd (remove_all cf p ks) = None /\ pinv p' /\ xkeys p' = xkeys p
  /\ (forall k', pv p' k' = pdel ks (pv p k'))
  /\ (forall k', In k' (p_refs p') <-> In k' (p_refs p) /\ ~ In k' ks) /\ p_qty p' = p_qty p /\ (J cf p -> J cf p').
Proof.
  induction ks as [|[[f d] t] ks IH]; intros p I K; cbn [remove_all].
  - cbn [fst snd]. split; [reflexivity|]. split; [exact I|]. split; [reflexivity|]. split; [|split; [|split; [reflexivity|auto]]].
    + intros k'. destruct (pv p k') as [[v d]|]; reflexivity.
    + intros k'. split; [intros H; split; [exact H|intros []]|tauto].
  - destruct (K (f, d, t)) as [K1 K2]; [left; reflexivity|]. cbn in K2. subst t. cbn [k_flow k_dir fst snd].
    destruct (rem_ref_spec cf p f d I) as [A [B [C [D [E [F G]]]]]].
    destruct (remove_reference cf p f d) as [p1 r]. cbn [fst snd] in *. destruct A as [A _]. rewrite (A K1).
    specialize (D K1). specialize (E K1). specialize (G K1).
    destruct (IH p1 B) as [A' [B' [C' [D' [E' [F' G']]]]]]; [intros k Hk; rewrite C; apply K; right; exact Hk|].
    split; [exact A'|]. split; [exact B'|]. split; [congruence|]. split; [|split; [|split; [congruence|auto]]].
    + intros k'. rewrite D', D, pdel_app. reflexivity.
    + intros k'. rewrite E', E. split.
      * intros [[H M] N]. split; [exact H|]. intros [X|X]; [congruence|contradiction].
      * intros [H N]. split; [split; [exact H|]|]; intros X; apply N; [left; congruence|right; exact X].
Qed.
Lemma ddel_absent {V} (k : key) (d : dict key V) : ~ In k (dkeys d) -> ddel k d = d.
Proof.
  unfold ddel, dkeys. induction d as [|[k1 v1] r IH]; intros N; [reflexivity|]. cbn [filter fst]. cbn in N.
  destruct (eqb_spec k k1); [exfalso; apply N; left; congruence|]. cbn [negb]. rewrite IH; auto.
Qed.
Lemma pdel_absent ks x : (forall k, In k ks -> forall v d, x = Some (v, d) -> ~ In k (dkeys d)) -> pdel ks x = x.
Proof.
  destruct x as [[v d]|]; cbn; [|reflexivity]. intros H. f_equal. f_equal. unfold del_keys.
  induction ks as [|k ks IH]; cbn [fold_left]; [reflexivity|]. rewrite ddel_absent by (apply (H k) with v; [left|]; reflexivity).
  apply IH. intros k' K v' d' E. apply (H k') with v'; [right; exact K|exact E].
Qed.
Lemma pv_vdict_refs p k v d r : pinv p -> pv p k = Some (v, d) -> In r (dkeys d) -> In r (p_refs p).
Proof.
  unfold pv. intros I E R. destruct (dget k (p_exch p)) as [e|] eqn:D; [|discriminate]. injection E as <- <-.
  unfold dkeys in R. apply in_map_iff in R as [[r' w] [<- R]]. eapply pi_vd; eauto.
Qed.

(** * The phases that change references *)
Definition rdir (ks : list key) (f : nat) (d : option string) : option dirn + cexn :=
  match d with
  | Some s => inl (canon s)
  | None => match filter (fun k => match k_term k with None => true | Some _ => false end) (filter (fun k => Nat.eqb (k_flow k) f) ks) with
            | [_; _] => inr (CProc PValueError)
            | [] => inr (CProc PKeyError)
            | k :: _ => inl (Some (k_dir k))
            end
  end.
Lemma gen_flow p f : gen_exchanges p (Some f) None None = filter (fun k => Nat.eqb (k_flow k) f) (xkeys p).
Proof.
  unfold gen_exchanges, xkeys, dkeys. induction (p_exch p) as [|[k e] r IH]; [reflexivity|]. cbn [filter map fst].
  destruct (Nat.eqb (k_flow k) f); cbn [andb filter map fst]; rewrite IH; reflexivity.
Qed.
Lemma rdir_eq p f d : (match d with None => match find_direction p f with inl d => inl (Some d) | inr e => inr e end | Some s => inl (canon s) end)
  = rdir (xkeys p) f d.
Proof.
  destruct d as [s|]; [reflexivity|]. unfold find_direction, rdir. rewrite gen_flow.
  destruct (filter _ (filter _ _)) as [|k1 [|k2 [|k3 l]]]; reflexivity.
Qed.
Lemma get_set_proc a pr p pr' : get (set_proc a pr p) pr' = if eqb pr' pr then Some p else get a pr'.
Proof. unfold get, set_proc. cbn [a_procs]. apply dget_dset. Qed.
Definition pkeys (a : arch) := dkeys (a_procs a).
Lemma pkeys_set_proc a pr p p0 : get a pr = Some p0 -> pkeys (set_proc a pr p) = pkeys a.
Proof. unfold get, pkeys, set_proc. intros G. cbn [a_procs]. rewrite dkeys_dset. unfold din. rewrite G. reflexivity. Qed.

Definition refs_at (a : arch) (pr : nat) (k : key) : Prop := exists p, get a pr = Some p /\ In k (p_refs p).
(** what stays fixed: which processes there are and what exchanges they have *)
Definition shape (a : arch) : Prop := NoDup (pkeys a) /\ forall pr p, get a pr = Some p -> pinv p.
Definition sk (a b : arch) : Prop := pkeys b = pkeys a /\ forall pr, option_map xkeys (get b pr) = option_map xkeys (get a pr).
Lemma sk_refl a : sk a a. Proof. split; reflexivity. Qed.
Lemma sk_trans a b c : sk a b -> sk b c -> sk a c.
Proof. intros [A B] [C D]. split; [congruence|]. intros pr. rewrite D. apply B. Qed.
Lemma sk_sym a b : sk a b -> sk b a.
Proof. intros [A B]. split; [congruence|]. intros pr. symmetry. apply B. Qed.
Lemma sk_get a b pr p : sk a b -> get a pr = Some p -> exists p', get b pr = Some p' /\ xkeys p' = xkeys p.
Proof. intros [_ B] G. specialize (B pr). rewrite G in B. destruct (get b pr) as [p'|]; [|discriminate]. injection B as B. exists p'. auto. Qed.
Lemma sk_set a pr p p' : get a pr = Some p -> xkeys p' = xkeys p -> sk a (set_proc a pr p').
Proof.
  intros G X. split; [eapply pkeys_set_proc, G|]. intros pr'. rewrite get_set_proc. destruct (eqb_spec pr' pr) as [->|]; [|reflexivity].
  rewrite G. cbn. congruence.
Qed.
Lemma shape_set a pr p p' : shape a -> get a pr = Some p -> pinv p' -> shape (set_proc a pr p').
Proof.
  intros [N I] G I'. split; [erewrite pkeys_set_proc by exact G; exact N|]. intros pr' q. rewrite get_set_proc.
  destruct (eqb_spec pr' pr); [|apply I]. intros X; injection X as <-. exact I'.
Qed.

(** one [set_reference] that succeeds *)
Definition set_x (x : nat * nat * option string) a := set_reference a (fst (fst x)) (snd (fst x)) (snd x).
Lemma set_reference_ok a pr f d a' : set_reference a pr f d = (a', None) <->
  exists p dd, get a pr = Some p /\ rdir (xkeys p) f d = inl (Some dd) /\ snd (add_reference (acf a) p f dd) = POk (f, dd, None)
    /\ a' = set_proc a pr (fst (add_reference (acf a) p f dd)).
Proof.
  unfold set_reference. destruct (get a pr) as [p|] eqn:G.
  2:{ split; [discriminate|]. intros [p [dd [X _]]]. discriminate. }
  rewrite rdir_eq. destruct (rdir (xkeys p) f d) as [[dd|]|e] eqn:R.
  - destruct (add_reference (acf a) p f dd) as [p' r] eqn:E. split.
    + intros X. injection X as <- X. exists p, dd. rewrite E. repeat split; auto. cbn [snd].
      unfold add_reference in E. injection E as _ <-. destruct (din (f, dd, None) (p_exch p)); [reflexivity|discriminate].
    + intros [p0 [dd0 [X [Y [Z ->]]]]]. injection X as <-. rewrite R in Y. injection Y as <-. rewrite E in *. cbn [fst snd] in *. subst r. reflexivity.
  - split; [discriminate|]. intros [p0 [dd0 [X [Y _]]]]. injection X as <-. congruence.
  - split; [discriminate|]. intros [p0 [dd0 [X [Y _]]]]. injection X as <-. congruence.
Qed.

Definition sets := steps (fun a x => set_reference a (fst (fst x)) (snd (fst x)) (snd x)).
Lemma set_ok_facts a pr f d a' : shape a -> set_reference a pr f d = (a', None) ->
  shape a' /\ sk a a' /\ a_cfs a' = a_cfs a /\ a_ti a' = a_ti a /\ (forall pr' k, refs_at a pr' k -> refs_at a' pr' k)
  /\ (forall pr' p' q, get a' pr' = Some p' -> p_qty p' = Some q -> exists p, get a pr' = Some p /\ p_qty p = Some q).
Proof.
  intros S H. apply set_reference_ok in H as [p [dd [G [R [O ->]]]]]. destruct S as [N I].
  destruct (add_ref_spec (acf a) p f dd (I _ _ G)) as [A [B [C [D [E [F [Q H]]]]]]]. specialize (F (B O)).
  split; [eapply shape_set; eauto; split; auto|]. split; [eapply sk_set; eauto|]. split; [reflexivity|]. split; [reflexivity|]. split.
  - intros pr' k [p' [G' K]]. unfold refs_at. rewrite get_set_proc. destruct (eqb_spec pr' pr) as [->|]; [|eauto].
    eexists; split; [reflexivity|]. apply F. left. rewrite G in G'. injection G' as ->. exact K.
  - intros pr' p' q. rewrite get_set_proc. destruct (eqb_spec pr' pr) as [->|]; [|eauto].
    intros X Y. injection X as <-. exists p. split; [exact G|]. rewrite <- Q. exact Y.
Qed.
Lemma sets_facts l : forall a a', shape a -> sets a l = (a', None) ->
  shape a' /\ sk a a' /\ a_cfs a' = a_cfs a /\ a_ti a' = a_ti a /\ (forall pr' k, refs_at a pr' k -> refs_at a' pr' k)
  /\ (forall pr' p' q, get a' pr' = Some p' -> p_qty p' = Some q -> exists p, get a pr' = Some p /\ p_qty p = Some q).
Proof.
  induction l as [|x l IH]; intros a a' S H; unfold sets in *; cbn [steps] in H.
  - injection H as <-. split; [exact S|]. split; [apply sk_refl|]. split; [reflexivity|]. split; [reflexivity|]. split; [auto|eauto].
  - destruct (set_reference a (fst (fst x)) (snd (fst x)) (snd x)) as [a1 [e|]] eqn:E; [discriminate|].
    apply set_ok_facts in E as [A [B [C [D [F G]]]]]; [|exact S]. apply IH in H as [A' [B' [C' [D' [F' G']]]]]; [|exact A].
    split; [exact A'|]. split; [eapply sk_trans; eauto|]. split; [congruence|]. split; [congruence|]. split; [auto|].
    intros pr p q X Y. apply (G' pr p q X) in Y as [p1 [X1 Y1]]. apply (G pr p1 q X1 Y1).
Qed.

(** the state of a second application, between the target [a1] and the bound [B] *)
Definition mid (a1 : arch) (B : nat -> key -> Prop) (s : arch) : Prop :=
  a_cfs s = a_cfs a1 /\ a_ti s = a_ti a1 /\ shape s /\ sk a1 s
  /\ forall pr p1 p2, get a1 pr = Some p1 -> get s pr = Some p2 ->
       (forall k, pv p2 k = pv p1 k) /\ p_qty p2 = p_qty p1
       /\ (forall k, In k (p_refs p1) -> In k (p_refs p2)) /\ (forall k, In k (p_refs p2) -> B pr k) /\ J (acf a1) p2.
Lemma acf_eq a b : a_cfs a = a_cfs b -> acf a = acf b.
Proof. unfold acf. intros ->. reflexivity. Qed.

Lemma sets_again a1 l : forall (B : nat -> key -> Prop) s aS s2, shape s -> sk a1 s -> sets s l = (aS, None) ->
  (forall pr k, refs_at aS pr k -> B pr k) -> mid a1 B s2 ->
  exists s2', sets s2 l = (s2', None) /\ mid a1 B s2'.
Proof.
  induction l as [|[[pr f] d] l IH]; intros B s aS s2 S K H HB M; unfold sets in *; cbn [steps fst snd] in *.
  - exists s2. auto.
  - destruct (set_reference s pr f d) as [s1 [e|]] eqn:E; [discriminate|].
    pose proof E as E0. apply set_ok_facts in E0 as [A0 [B0 [C0 [D0 _]]]]; [|exact S].
    apply set_reference_ok in E as [p [dd [G [R [O ->]]]]]. destruct M as [M1 [M2 [M3 [M4 M5]]]].
    assert (K2 : sk s s2) by (eapply sk_trans; [apply sk_sym, K|exact M4]).
    destruct (sk_get _ _ _ _ K2 G) as [p2 [G2 X2]]. destruct (sk_get _ _ _ _ (sk_sym _ _ M4) G2) as [p1 [G1 X1]].
    destruct S as [N I]. destruct (add_ref_spec (acf s) p f dd (I _ _ G)) as [_ [P2 [_ [_ [_ [P6 _]]]]]]. specialize (P2 O). specialize (P6 P2).
    pose proof (proj2 M3 _ _ G2) as I2. destruct (add_ref_spec (acf s2) p2 f dd I2) as [Q1 [_ [Q3 [Q4 [Q5 [Q6 [Q7 Q8]]]]]]].
    assert (Kin : In (f, dd, @None string) (xkeys p2)) by (rewrite X2; exact P2). specialize (Q1 Kin). specialize (Q6 Kin).
    assert (E2 : set_reference s2 pr f d = (set_proc s2 pr (fst (add_reference (acf s2) p2 f dd)), None)).
    { apply set_reference_ok. exists p2, dd. rewrite X2. auto. }
    rewrite E2. eapply IH; [exact A0|eapply sk_trans; [exact K|exact B0]|exact H|exact HB|].
    split; [exact M1|]. split; [exact M2|]. split; [eapply shape_set; eauto|]. split; [eapply sk_trans; [exact M4|eapply sk_set; eauto]|].
    intros pr' q1 q2 W1. rewrite get_set_proc. destruct (eqb_spec pr' pr) as [->|NE]; [|intros W2; eapply M5; eauto].
    intros W2. injection W2 as <-. rewrite G1 in W1. injection W1 as <-. destruct (M5 pr p1 p2 G1 G2) as [V1 [V2 [V3 [V4 V5]]]].
    split; [intros k; rewrite Q5; apply V1|]. split; [rewrite <- V2; exact Q7|]. split; [intros k W; apply Q6; left; apply V3, W|]. split.
    + intros k W. apply Q6 in W as [W|W]; [apply V4, W|]. subst k. apply HB.
      apply sets_facts in H as [_ [_ [_ [_ [H _]]]]]; [|exact A0]. apply H. exists (fst (add_reference (acf s) p f dd)). rewrite get_set_proc, eqb_refl.
      split; [reflexivity|]. apply P6. right. reflexivity.
    + rewrite (acf_eq a1 s2) by congruence. exact Q8.
Qed.

(** * unset_reference *)
Lemma remove_everywhere_ok a f d : forall ps a', remove_everywhere a ps f d = (a', None) ->
  a' = a /\ forall pr p, In (pr, p) ps -> ~ In (f, d, None) (p_refs p).
Proof.
  induction ps as [|[pr p] ps IH]; intros a' H; cbn [remove_everywhere] in H; [injection H as <-; split; [reflexivity|intros ? ? []]|].
  destruct (mem_spec (f, d, @None string) (p_refs p)) as [M|M]; [discriminate|]. apply IH in H as [-> H]. split; [reflexivity|].
  intros pr' p' [E|E]; [injection E as <- <-; exact M|eauto].
Qed.
Lemma remove_everywhere_none a f d : forall ps, (forall pr p, In (pr, p) ps -> ~ In (f, d, None) (p_refs p)) -> remove_everywhere a ps f d = (a, None).
Proof.
  induction ps as [|[pr p] ps IH]; intros H; cbn [remove_everywhere]; [reflexivity|].
  destruct (mem_spec (f, d, @None string) (p_refs p)) as [M|M]; [exfalso; eapply H; [left; reflexivity|exact M]|].
  apply IH. intros; eapply H; right; eauto.
Qed.
(** the keys a successful call takes out of process [pr], as seen in state [a] *)
Definition ukeys (u : uarg) (p : proc) : list key :=
  match u with
  | UAll _ _ => []
  | URefs _ d => match d with
                 | None => p_refs p
                 | Some s => match canon s with None => [] | Some d => filter (fun k => eqb (k_dir k) d) (p_refs p) end
                 end
  | UOne _ f d => match rdir (xkeys p) f d with inl (Some d) => [(f, d, None)] | _ => [] end
  end.
Definition uproc (u : uarg) : option nat := match u with UAll _ _ => None | URefs pr _ => Some pr | UOne pr _ _ => Some pr end.
Definition uall_free (a : arch) (u : uarg) : Prop :=
  match u with UAll f (Some s) => forall d, canon s = Some d -> forall pr, ~ refs_at a pr (f, d, None) | _ => True end.
Definition u_ok (u : uarg) (p : proc) : Prop :=
  match u with UOne _ f d => exists dd, rdir (xkeys p) f d = inl (Some dd) /\ In (f, dd, None) (xkeys p) | _ => True end.
Lemma in_procs a pr p : shape a -> (In (pr, p) (a_procs a) <-> get a pr = Some p).
Proof.
  intros [N _]. split; [apply In_dget; exact N|apply dget_In].
Qed.
Lemma remove_all_one cf p f d : pinv p -> In (f, d, None) (xkeys p) ->
  remove_all cf p [(f, d, None)] = (fst (remove_reference cf p f d), None).
Proof.
  intros I K. cbn [remove_all k_flow k_dir fst snd]. destruct (rem_ref_spec cf p f d I) as [A _].
  destruct (remove_reference cf p f d) as [p' r]. cbn [fst snd] in *. destruct A as [A _]. rewrite (A K). reflexivity.
Qed.
Lemma ukeys_in u p : pinv p -> u_ok u p -> forall k, In k (ukeys u p) -> In k (xkeys p) /\ k_term k = None.
Proof.
  intros I O k. assert (RR : In k (p_refs p) -> In k (xkeys p) /\ k_term k = None).
  { intros R. split; [|apply (pi_term p I), R]. apply (pi_ref p I) in R as [e [D _]]. eapply dget_Some_key, D. }
  destruct u as [f d|pr d|pr f d]; cbn [ukeys]; [intros []| |].
  - destruct d as [s|]; [|exact RR]. destruct (canon s); [|intros []]. rewrite filter_In. tauto.
  - cbn [u_ok] in O. destruct O as [dd [R K]]. rewrite R. intros [<-|[]]. split; [exact K|reflexivity].
Qed.
Lemma unset_ok a u a' : shape a -> (unset_reference a u = (a', None) <->
  match uproc u with
  | None => uall_free a u /\ a' = a
  | Some pr => exists p, get a pr = Some p /\ u_ok u p /\ a' = set_proc a pr (fst (remove_all (acf a) p (ukeys u p)))
  end).
Proof.
  intros S. destruct u as [f d|pr d|pr f d]; cbn [unset_reference uproc].
  - destruct d as [s|]; cbn [uall_free].
    2:{ split; [intros X; injection X as <-; auto|intros [_ ->]; reflexivity]. }
    destruct (canon s) as [dd|] eqn:C.
    2:{ split; [intros X; injection X as <-; split; [discriminate|reflexivity]|intros [_ ->]; reflexivity]. }
    split.
    + intros H. apply remove_everywhere_ok in H as [-> H]. split; [|reflexivity]. intros d0 X pr [p [G R]]. injection X as <-.
      eapply H; [apply in_procs; eauto|exact R].
    + intros [H ->]. apply remove_everywhere_none. intros pr p X R. apply in_procs in X; [|exact S]. eapply H; [reflexivity|exists p; eauto].
  - destruct (get a pr) as [p|] eqn:G; [|split; [discriminate|intros [p [X _]]; discriminate]].
    assert (X := remove_all_spec (acf a) (ukeys (URefs pr d) p) p (proj2 S _ _ G) (ukeys_in (URefs pr d) p (proj2 S _ _ G) I)).
    change (match d with None => p_refs p | Some s => match canon s with None => [] | Some d0 => filter (fun k => eqb (k_dir k) d0) (p_refs p) end end)
      with (ukeys (URefs pr d) p).
    destruct X as [X _]. destruct (remove_all (acf a) p (ukeys (URefs pr d) p)) as [p' e] eqn:E. cbn [snd] in X. subst e. split.
    + intros H. injection H as <-. exists p. rewrite E. repeat split; auto.
    + intros [p0 [H [_ ->]]]. injection H as <-. rewrite E. reflexivity.
  - destruct (get a pr) as [p|] eqn:G; [|split; [discriminate|intros [p [X _]]; discriminate]].
    rewrite rdir_eq. destruct (rdir (xkeys p) f d) as [[dd|]|e] eqn:R.
    + destruct (rem_ref_spec (acf a) p f dd (proj2 S _ _ G)) as [X _].
      destruct (remove_reference (acf a) p f dd) as [p' r] eqn:E. cbn [snd] in X. split.
      * intros H. injection H as <- H. assert (r = POk tt) as -> by (destruct r as [[]|]; [reflexivity|discriminate]).
        destruct X as [_ X]. specialize (X eq_refl). exists p. split; [reflexivity|]. split; [exists dd; auto|].
        cbn [ukeys]. rewrite R, remove_all_one, E; [reflexivity|apply S with pr; exact G|exact X].
      * intros [p0 [H [[d0 [H1 H2]] ->]]]. injection H as <-. rewrite R in H1. injection H1 as <-. destruct X as [X _]. rewrite (X H2).
        cbn [ukeys]. rewrite R, remove_all_one, E; [reflexivity|apply S with pr; exact G|exact H2].
    + split; [discriminate|]. intros [p0 [H [[d0 [H1 _]] _]]]. injection H as <-. congruence.
    + split; [discriminate|]. intros [p0 [H [[d0 [H1 _]] _]]]. injection H as <-. congruence.
Qed.
Lemma unset_ok_facts a u a' : shape a -> unset_reference a u = (a', None) ->
  shape a' /\ sk a a' /\ a_cfs a' = a_cfs a /\ a_ti a' = a_ti a /\ (forall pr' k, refs_at a' pr' k -> refs_at a pr' k)
  /\ (forall pr' p' q, get a' pr' = Some p' -> p_qty p' = Some q -> exists p, get a pr' = Some p /\ p_qty p = Some q).
Proof.
  intros S H. apply (unset_ok _ _ _ S) in H. destruct (uproc u) as [pr|] eqn:U.
  2:{ destruct H as [_ ->]. split; [exact S|]. split; [apply sk_refl|]. split; [reflexivity|]. split; [reflexivity|]. split; [auto|eauto]. }
  destruct H as [p [G [O ->]]]. pose proof (proj2 S _ _ G) as I.
  destruct (remove_all_spec (acf a) (ukeys u p) p I (ukeys_in u p I O)) as [_ [B [C [_ [E [Q _]]]]]].
  split; [eapply shape_set; eauto|]. split; [eapply sk_set; eauto|]. split; [reflexivity|]. split; [reflexivity|]. split.
  - intros pr' k [p' [G' K]]. rewrite get_set_proc in G'. destruct (eqb_spec pr' pr) as [->|]; [|exists p'; auto].
    injection G' as <-. exists p. split; [exact G|]. apply E in K as [K _]. exact K.
  - intros pr' p' q. rewrite get_set_proc. destruct (eqb_spec pr' pr) as [->|]; [|eauto].
    intros X Y. injection X as <-. exists p. split; [exact G|]. rewrite <- Q. exact Y.
Qed.
Lemma unsets_facts l : forall a a', shape a -> steps unset_reference a l = (a', None) ->
  shape a' /\ sk a a' /\ a_cfs a' = a_cfs a /\ a_ti a' = a_ti a /\ (forall pr' k, refs_at a' pr' k -> refs_at a pr' k)
  /\ (forall pr' p' q, get a' pr' = Some p' -> p_qty p' = Some q -> exists p, get a pr' = Some p /\ p_qty p = Some q).
Proof.
  induction l as [|x l IH]; intros a a' S H; cbn [steps] in H.
  - injection H as <-. split; [exact S|]. split; [apply sk_refl|]. split; [reflexivity|]. split; [reflexivity|]. split; [auto|eauto].
  - destruct (unset_reference a x) as [a1 [e|]] eqn:E; [discriminate|].
    apply unset_ok_facts in E as [A [B [C [D [F G]]]]]; [|exact S]. apply IH in H as [A' [B' [C' [D' [F' G']]]]]; [|exact A].
    split; [exact A'|]. split; [eapply sk_trans; eauto|]. split; [congruence|]. split; [congruence|]. split; [auto|].
    intros pr p q X Y. apply (G' pr p q X) in Y as [p1 [X1 Y1]]. apply (G pr p1 q X1 Y1).
Qed.

Lemma mid_weaken a1 (B B' : nat -> key -> Prop) s : (forall pr k, refs_at s pr k -> B pr k -> B' pr k) -> mid a1 B s -> mid a1 B' s.
Proof.
  intros H [A [C [D [E M]]]]. split; [exact A|]. split; [exact C|]. split; [exact D|]. split; [exact E|].
  intros pr p1 p2 G1 G2. destruct (M pr p1 p2 G1 G2) as [V1 [V2 [V3 [V4 V5]]]]. repeat split; auto.
  intros k K. apply H; [exists p2; auto|apply V4, K].
Qed.
Lemma unsets_again a1 l : forall s aU s2, shape a1 -> shape s -> sk a1 s -> steps unset_reference s l = (aU, None) ->
  (forall pr k, refs_at a1 pr k -> refs_at aU pr k) -> mid a1 (refs_at s) s2 ->
  exists s2', steps unset_reference s2 l = (s2', None) /\ mid a1 (refs_at aU) s2'.
Proof.
  induction l as [|u l IH]; intros s aU s2 S1 S K H HL M; cbn [steps] in *.
  - injection H as <-. exists s2. auto.
  - destruct (unset_reference s u) as [s' [e|]] eqn:E; [discriminate|].
    pose proof E as E0. apply unset_ok_facts in E0 as [A0 [B0 [C0 [D0 [F0 _]]]]]; [|exact S].
    pose proof (unsets_facts _ _ _ A0 H) as [_ [_ [_ [_ [FH _]]]]].
    apply (unset_ok _ _ _ S) in E. destruct M as [M1 [M2 [M3 [M4 M5]]]].
    assert (K2 : sk s s2) by (eapply sk_trans; [apply sk_sym, K|exact M4]).
    assert (STEP : exists s2', unset_reference s2 u = (s2', None) /\ mid a1 (refs_at s') s2').
    { destruct (uproc u) as [pr|] eqn:U.
      - destruct E as [p [G [O ->]]]. destruct (sk_get _ _ _ _ K2 G) as [p2 [G2 X2]].
        destruct (sk_get _ _ _ _ (sk_sym _ _ M4) G2) as [p1 [G1 X1]].
        destruct (M5 pr p1 p2 G1 G2) as [V1 [V2 [V3 [V4 V5]]]].
        assert (O2 : u_ok u p2) by (destruct u; cbn [u_ok] in *; auto; rewrite X2; exact O).
        pose proof (proj2 S _ _ G) as I. pose proof (proj2 M3 _ _ G2) as I2. pose proof (proj2 S1 _ _ G1) as I1.
        destruct (remove_all_spec (acf s) (ukeys u p) p I (ukeys_in u p I O)) as [_ [_ [_ [_ [R1 _]]]]].
        destruct (remove_all_spec (acf s2) (ukeys u p2) p2 I2 (ukeys_in u p2 I2 O2)) as [_ [W2 [W3 [W4 [W5 [W6 W7]]]]]].
        exists (set_proc s2 pr (fst (remove_all (acf s2) p2 (ukeys u p2)))). split.
        { apply (unset_ok _ _ _ M3). rewrite U. exists p2. auto. }
        assert (V4' : forall k, In k (p_refs p2) -> In k (p_refs p)).
        { intros k Hk. destruct (V4 k Hk) as [q [Gq Rq]]. rewrite G in Gq. injection Gq as <-. exact Rq. }
        assert (UK : forall k, In k (ukeys u p2) -> In k (ukeys u p)).
        { intros k. destruct u as [f d|q d|q f d]; cbn [ukeys].
          - intros [].
          - destruct d as [str|]; [|apply V4']. destruct (canon str); [|intros []]. rewrite !filter_In. intros [? ?]. split; auto.
          - rewrite X2. auto. }
        assert (UK' : forall k, In k (p_refs p2) -> In k (ukeys u p) -> In k (ukeys u p2)).
        { intros k Hk. destruct u as [f d|q d|q f d]; cbn [ukeys].
          - intros [].
          - destruct d as [str|]; [|auto]. destruct (canon str); [|intros []]. rewrite !filter_In. intros [? ?]. split; auto.
          - rewrite X2. auto. }
        assert (NR : forall k, In k (ukeys u p2) -> ~ In k (p_refs p1)).
        { intros k Hk Hr. assert (Z : refs_at (set_proc s pr (fst (remove_all (acf s) p (ukeys u p)))) pr k) by (apply FH, HL; exists p1; auto).
          destruct Z as [z [Z1 Z2]]. rewrite get_set_proc, eqb_refl in Z1. injection Z1 as <-. apply R1 in Z2 as [_ Z2]. auto. }
        split; [exact M1|]. split; [exact M2|]. split; [eapply shape_set; eauto|]. split; [eapply sk_trans; [exact M4|eapply sk_set; eauto]|].
        intros pr' q1 q2 Y1. rewrite get_set_proc. destruct (eqb_spec pr' pr) as [->|NE].
        + intros Y2. injection Y2 as <-. rewrite G1 in Y1. injection Y1 as <-. repeat split.
          * intros k. rewrite W4, V1. apply pdel_absent. intros k' Hk' v dd Ev Hd. apply (NR k' Hk'). eapply pv_vdict_refs; eauto.
          * rewrite <- V2. exact W6.
          * intros k Hk. apply W5. split; [apply V3, Hk|]. intros Hu. apply (NR k Hu Hk).
          * intros k Hk. apply W5 in Hk as [Hk Hn]. eexists; rewrite get_set_proc, eqb_refl; split; [reflexivity|]. apply R1.
            split; [apply V4', Hk|]. intros Hu. apply Hn, UK'; auto.
          * rewrite (acf_eq a1 s2) in * by congruence. apply W7, V5.
        + intros Y2. destruct (M5 pr' q1 q2 Y1 Y2) as [T1 [T2 [T3 [T4 T5]]]]. repeat split; auto.
          intros k Hk. destruct (T4 k Hk) as [z [Z1 Z2]]. exists z. rewrite get_set_proc. destruct (eqb_spec pr' pr); [contradiction|auto].
      - destruct E as [E ->]. exists s2. split.
        + apply (unset_ok _ _ _ M3). rewrite U. split; [|reflexivity]. destruct u as [f [str|]|q d|q f d]; cbn [uall_free] in *; auto.
          intros dd Cd pr [p2 [G2 R2]]. destruct (sk_get _ _ _ _ (sk_sym _ _ M4) G2) as [p1 [G1 _]].
          destruct (M5 pr p1 p2 G1 G2) as [_ [_ [_ [V4 _]]]]. apply (E dd Cd pr). apply V4, R2.
        + exact (conj M1 (conj M2 (conj M3 (conj M4 M5)))). }
    destruct STEP as [s2' [E2 M']]. rewrite E2. eapply IH; [exact S1|exact A0|eapply sk_trans; [exact K|exact B0]|exact H|exact HL|exact M'].
Qed.

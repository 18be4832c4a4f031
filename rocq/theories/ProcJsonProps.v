(** C29: process JSON round trip. *)
From Verif Require Import Num Base PyStr ProcModel ProcProofs ProcProps.
Open Scope nat_scope.
Open Scope string_scope.
Open Scope list_scope.

Definition jk (x : xjson) : key := (j_flow x, j_dir x, j_term x).
Lemma jk_x_json k e : jk (x_json (k, e)) = k.
Proof. destruct k as [[f d] t]. reflexivity. Qed.

(** * Loading the references *)
Lemma add_new p f d t v : (forall s, t <> TObj s) -> dget (f, d, t_key t) (p_exch p) = None ->
  add_exchange p f d None v t false = (p_set p (f, d, t_key t) (X v [] false), POk (Some (f, d, t_key t))).
Proof.
  intros T D. unfold add_exchange. cbv zeta. replace (match t with TObj _ => None | _ => dget (f, d, t_key t) (p_exch p) end) with (@None exch)
    by (destruct t; try (symmetry; exact D); exfalso; eapply T; reflexivity). reflexivity.
Qed.
Lemma load_refs_ok cf xs : forall p ref_x,
  p_qty p = None -> p_sum p = Q2Qc 0 -> NoDup (map jk xs) -> NoDup (map j_flow xs) ->
  (forall x, In x xs -> j_term x = None /\ dget (jk x) (p_exch p) = None) ->
  exists p' rx', load_refs cf xs p ref_x = (p', POk rx')
    /\ p_qty p' = None /\ p_sum p' = Q2Qc 0
    /\ (forall x, In x xs -> dget (jk x) (p_exch p') = Some (X (j_value x) [] true) /\ dget (j_flow x) rx' = Some (Some (jk x)))
    /\ (forall k, ~ In k (map jk xs) -> dget k (p_exch p') = dget k (p_exch p))
    /\ (forall f, ~ In f (map j_flow xs) -> dget f rx' = dget f ref_x)
    /\ (forall k, In k (p_refs p') <-> In k (p_refs p) \/ In k (map jk xs)).
Proof.
  induction xs as [|x xs IH]; intros p ref_x Q S N NF H.
  - exists p, ref_x. cbn. repeat split; auto; try tauto.
  - destruct (H x (or_introl eq_refl)) as [T D]. inversion N as [|? ? N1 N2]; subst. inversion NF as [|? ? F1 F2]; subst.
    cbn [load_refs]. assert (K : jk x = (j_flow x, j_dir x, None)) by (unfold jk; rewrite T; reflexivity).
    rewrite add_new by (cbn; try congruence; rewrite <- K; exact D). cbn [t_key]. rewrite <- K.
    unfold add_reference. cbv zeta. cbn [p_exch p_set with_exch p_refs p_qty p_sum]. rewrite <- K.
    rewrite dget_dset_same. cbn [x_value x_vdict]. unfold din. rewrite dget_dset_same.
    match goal with |- context [match alloc_qty ?q with _ => _ end] => set (p1 := q) end.
    assert (A : alloc_qty p1 = None) by (unfold alloc_qty; cbn; rewrite S; reflexivity). rewrite A.
    destruct (IH p1 (dset (j_flow x) (Some (jk x)) ref_x)) as [p' [rx' [L [Q' [S' [E1 [E2 [E3 E4]]]]]]]]; auto.
    { intros y J. destruct (H y (or_intror J)) as [H1 H2]. split; auto. subst p1; cbn [p_exch]. rewrite !dget_dset_other; auto.
      all: intros E; apply N1; rewrite <- E; apply in_map; exact J. }
    exists p', rx'. split; [exact L|]. repeat split; auto.
    + destruct H0 as [<-|J]; [|apply (E1 _ J)]. rewrite E2 by exact N1. subst p1; cbn [p_exch]. apply dget_dset_same.
    + destruct H0 as [<-|J]; [|apply (E1 _ J)]. rewrite E3 by exact F1. apply dget_dset_same.
    + intros k NI. cbn in NI. rewrite E2 by tauto. subst p1; cbn [p_exch]. rewrite !dget_dset_other; auto; intros ->; apply NI; auto.
    + intros f NI. cbn in NI. rewrite E3 by tauto. apply dget_dset_other. intros ->; apply NI; auto.
    + intros J. apply E4 in J. subst p1; cbn [p_refs] in J. cbn. rewrite In_set_add in J. destruct J as [[->|J]|J]; auto.
    + intros J. apply E4. subst p1; cbn [p_refs]. rewrite In_set_add. cbn in J. destruct J as [J|[<-|J]]; auto.
Qed.

(** * Loading one non-reference exchange *)
Definition conv (rk : nat -> key) (e : dirn * nat * option Qc) : key * option Qc := let '(_, f, v) := e in (rk f, v).
Lemma dset_new {K V} `{EqB K} (k : K) (v : V) d : dget k d = None -> dset k v d = d ++ [(k, v)].
Proof. induction d as [|[k1 v1] r IH]; cbn; [reflexivity|]. destruct (eqb k k1); [discriminate|]. intros E. rewrite IH; auto. Qed.
Lemma dset_dset {K V} `{EqB K} (k : K) (v v' : V) d : dset k v (dset k v' d) = dset k v d.
Proof.
  induction d as [|[k1 v1] r IH]; cbn; [rewrite eqb_refl; reflexivity|].
  destruct (eqb_spec k k1) as [->|N]; cbn; [rewrite eqb_refl; reflexivity|]. destruct (eqb_spec k k1); [contradiction|]. rewrite IH; reflexivity.
Qed.
Lemma dget_app {K V} `{EqB K} (k : K) (d d' : dict K V) : dget k (d ++ d') = match dget k d with Some v => Some v | None => dget k d' end.
Proof. induction d as [|[k1 v1] r IH]; cbn; [reflexivity|]. destruct (eqb k k1); auto. Qed.
Lemma j_targ_nobj x : forall s, j_targ x <> TObj s.
Proof. intros s. unfold j_targ. destruct (j_term x); discriminate. Qed.
Lemma j_targ_key x : (j_flow x, j_dir x, t_key (j_targ x)) = jk x.
Proof. unfold jk, j_targ. destruct (j_term x); reflexivity. Qed.

(** [ref_ok p rk rx f]: flow [f] was loaded as the reference [rk f] *)
Definition ref_ok (p : proc) (rk : nat -> key) (rx : dict nat (option key)) (f : nat) : Prop :=
  dget f rx = Some (Some (rk f)) /\ is_ref p (rk f) = true /\ In (rk f) (p_refs p).
Lemma load_vdict_ok x rk rx vs : forall p w vd,
  dget (jk x) (p_exch p) = Some (X w vd false) ->
  NoDup (map fst (vd ++ map (conv rk) vs)) ->
  (forall d f v, In (d, f, v) vs -> ref_ok p rk rx f /\ v <> None /\ v <> Some (Q2Qc 0)) ->
  load_vdict x vs rx p = (p_set p (jk x) (X w (vd ++ map (conv rk) vs) false), POk tt)
  \/ (vs = [] /\ load_vdict x vs rx p = (p, POk tt)).
Proof.
  induction vs as [|[[d f] v] vs IH]; intros p w vd D N H; [right; auto|]. left. cbn [load_vdict].
  destruct (H d f v (or_introl eq_refl)) as [[R1 [R2 R3]] [V1 V2]]. rewrite R1.
  destruct v as [v|]; [|congruence].
  assert (VD : dget (rk f) vd = None).
  { apply dget_None. intros J. rewrite map_app in N. cbn in N. apply NoDup_remove_2 in N. apply N. apply in_app_iff. left; exact J. }
  assert (A : add_exchange p (j_flow x) (j_dir x) (Some (rk f)) (Some v) (j_targ x) false
              = (p_set p (jk x) (X w (vd ++ [(rk f, Some v)]) false), POk (Some (jk x)))).
  { unfold add_exchange. cbv zeta. rewrite (j_targ_key x).
    replace (match j_targ x with TObj _ => None | _ => dget (jk x) (p_exch p) end) with (Some (X w vd false))
      by (unfold j_targ; destruct (j_term x); symmetry; exact D).
    destruct (eqb_spec v (Q2Qc 0)); [congruence|]. unfold setitem. rewrite R2. cbn [negb x_vdict x_ref x_value]. unfold din. rewrite VD.
    rewrite (dset_new _ _ _ VD). reflexivity. }
  rewrite A. set (p1 := p_set p (jk x) (X w (vd ++ [(rk f, Some v)]) false)).
  assert (E : (vd ++ [(rk f, Some v)]) ++ map (conv rk) vs = vd ++ map (conv rk) ((d, f, Some v) :: vs)) by (rewrite <- app_assoc; reflexivity).
  destruct (IH p1 w (vd ++ [(rk f, Some v)])) as [L|[-> L]].
  - subst p1; cbn [p_exch p_set with_exch]. apply dget_dset_same.
  - rewrite E. exact N.
  - intros d' f' v' J. destruct (H d' f' v' (or_intror J)) as [[X1 [X2 X3]] X4]. split; [|exact X4]. split; [exact X1|]. split; [|exact X3].
    unfold is_ref. subst p1; cbn [p_exch p_set with_exch]. rewrite dget_dset. destruct (eqb_spec (rk f') (jk x)) as [Y|]; [|exact X2].
    unfold is_ref in X2. rewrite Y, D in X2. discriminate.
  - rewrite L, E. f_equal. subst p1. unfold p_set, with_exch; cbn [p_exch p_refs p_qty p_sum]. f_equal.
    apply dset_dset.
  - rewrite L. cbn [map]. reflexivity.
Qed.

Definition loaded (rk : nat -> key) (x : xjson) : exch := X (j_value x) (map (conv rk) (j_vdict x)) false.
Lemma load_nonrefs_ok rk rx xs : forall p,
  NoDup (map jk xs) ->
  (forall x, In x xs -> dget (jk x) (p_exch p) = None /\ NoDup (map fst (map (conv rk) (j_vdict x))) /\ (j_value x <> None \/ j_vdict x <> [])
      /\ forall d f v, In (d, f, v) (j_vdict x) -> ref_ok p rk rx f /\ v <> None /\ v <> Some (Q2Qc 0)) ->
  exists p', load_nonrefs xs rx p = (p', POk tt) /\ p_qty p' = p_qty p /\ p_sum p' = p_sum p /\ p_refs p' = p_refs p
    /\ (forall x, In x xs -> dget (jk x) (p_exch p') = Some (loaded rk x))
    /\ (forall k, ~ In k (map jk xs) -> dget k (p_exch p') = dget k (p_exch p)).
Proof.
  induction xs as [|x xs IH]; intros p N H.
  - exists p. cbn. repeat split; auto; tauto.
  - destruct (H x (or_introl eq_refl)) as [D [NV [NE R]]]. inversion N as [|? ? N1 N2]; subst. cbn [load_nonrefs].
    assert (S : exists p1, (let '(p1, r1) := match j_value x with
                       | None => (p, POk None)
                       | Some v => add_exchange p (j_flow x) (j_dir x) None (Some v) (j_targ x) false
                       end in
      match r1 with
      | PErr e => (p1, PErr e)
      | POk _ => match load_vdict x (j_vdict x) rx p1 with
                 | (p2, PErr e) => (p2, PErr e)
                 | (p2, POk _) => load_nonrefs xs rx p2
                 end
      end) = load_nonrefs xs rx p1 /\ p_qty p1 = p_qty p /\ p_sum p1 = p_sum p /\ p_refs p1 = p_refs p /\
      dget (jk x) (p_exch p1) = Some (loaded rk x) /\ forall k, k <> jk x -> dget k (p_exch p1) = dget k (p_exch p)).
    { assert (RO : forall p1 e d f v, p1 = p_set p (jk x) e -> In (d, f, v) (j_vdict x) -> ref_ok p1 rk rx f /\ v <> None /\ v <> Some (Q2Qc 0)).
      { intros p1 e d f v -> J. destruct (R d f v J) as [[X1 [X2 X3]] X4]. split; [|exact X4]. split; [exact X1|]. split; [|exact X3].
        unfold is_ref. cbn [p_exch p_set with_exch]. rewrite dget_dset. destruct (eqb_spec (rk f) (jk x)) as [Y|]; [|exact X2].
        unfold is_ref in X2. rewrite Y, D in X2. discriminate. }
      assert (PS : forall e e', p_set (p_set p (jk x) e) (jk x) e' = p_set p (jk x) e').
      { intros e e'. unfold p_set, with_exch; cbn [p_exch p_refs p_qty p_sum]. f_equal. apply dset_dset. }
      destruct (j_value x) as [v|] eqn:JV.
      - rewrite add_new; [|apply j_targ_nobj|rewrite j_targ_key; exact D]. rewrite j_targ_key.
        destruct (load_vdict_ok x rk rx (j_vdict x) (p_set p (jk x) (X (Some v) [] false)) (Some v) []) as [L|[E L]]; auto.
        + cbn [p_exch p_set with_exch]. apply dget_dset_same.
        + intros d f u J. eapply RO; [reflexivity|exact J].
        + rewrite L. eexists; split; [reflexivity|]. rewrite PS. cbn [app]. cbn [p_qty p_sum p_refs p_exch p_set with_exch]. unfold loaded. rewrite JV.
          repeat split; auto; [apply dget_dset_same|intros; apply dget_dset_other; auto].
        + rewrite L. eexists; split; [reflexivity|]. cbn [p_qty p_sum p_refs p_exch p_set with_exch]. unfold loaded. rewrite JV, E.
          repeat split; auto; [apply dget_dset_same|intros; apply dget_dset_other; auto].
      - destruct NE as [NE|NE]; [congruence|]. destruct (j_vdict x) as [|[[d f] v] vs] eqn:E; [congruence|]. cbn [load_vdict].
        destruct (R d f v (or_introl eq_refl)) as [[R1 [R2 R3]] [V1 V2]]. rewrite R1.
        assert (A : add_exchange p (j_flow x) (j_dir x) (Some (rk f)) v (j_targ x) false
                    = (p_set p (jk x) (X None [(rk f, v)] false), POk (Some (jk x)))).
        { unfold add_exchange. cbv zeta. rewrite (j_targ_key x).
          replace (match j_targ x with TObj _ => None | _ => dget (jk x) (p_exch p) end) with (@None exch)
            by (unfold j_targ; destruct (j_term x); symmetry; exact D).
          destruct (mem_spec (rk f) (p_refs p)); [|contradiction]. unfold setitem. rewrite R2. reflexivity. }
        rewrite A.
        destruct (load_vdict_ok x rk rx vs (p_set p (jk x) (X None [(rk f, v)] false)) None [(rk f, v)]) as [L|[E2 L]]; auto.
        + cbn [p_exch p_set with_exch]. apply dget_dset_same.
        + intros d' f' u J. eapply RO; [reflexivity|]. right; exact J.
        + rewrite L. eexists; split; [reflexivity|]. rewrite PS. cbn [app]. cbn [p_qty p_sum p_refs p_exch p_set with_exch]. unfold loaded. rewrite JV, E.
          repeat split; auto; [apply dget_dset_same|intros; apply dget_dset_other; auto].
        + rewrite L. eexists; split; [reflexivity|]. cbn [p_qty p_sum p_refs p_exch p_set with_exch]. unfold loaded. rewrite JV, E, E2.
          repeat split; auto; [apply dget_dset_same|intros; apply dget_dset_other; auto]. }
    destruct S as [p1 [S0 [S1 [S2 [S3 [S4 S5]]]]]]. rewrite S0. clear S0.
    destruct (IH p1 N2) as [p' [L [Q1 [Q2 [Q3 [Q4 Q5]]]]]].
    { intros y J. destruct (H y (or_intror J)) as [Y1 [Y2 [Y3 Y4]]].
      assert (NY : jk y <> jk x) by (intros Z; apply N1; rewrite <- Z; apply in_map; exact J).
      split; [rewrite S5; auto|]. split; [exact Y2|]. split; [exact Y3|].
      intros d f v Z. destruct (Y4 d f v Z) as [[X1 [X2 X3]] X4]. split; [|exact X4]. split; [exact X1|]. split; [|rewrite S3; exact X3].
      unfold is_ref. rewrite S5; [exact X2|]. intros W. unfold is_ref in X2. rewrite W, D in X2. discriminate. }
    exists p'. split; [exact L|]. repeat split; try congruence.
    + intros y [<-|J]; auto. rewrite Q5; auto.
    + intros k NI. cbn in NI. rewrite Q5 by tauto. apply S5. intros ->; tauto.
Qed.

Lemma pinv_load_refs cf xs : forall p rx, pinv p -> pinv (fst (load_refs cf xs p rx)).
Proof.
  induction xs as [|x xs IH]; intros p rx I; cbn [load_refs]; [exact I|].
  pose proof (pinv_add_exchange p (j_flow x) (j_dir x) None (j_value x) TNone false I) as J.
  destruct (add_exchange p (j_flow x) (j_dir x) None (j_value x) TNone false) as [p1 [k|e]]; [|exact J].
  pose proof (pinv_add_reference cf p1 (j_flow x) (j_dir x) J) as J2.
  destruct (add_reference cf p1 (j_flow x) (j_dir x)) as [p2 [k2|e]]; [|exact J2]. apply IH; exact J2.
Qed.

(** * Permutation: the order of the exchanges in the file does not matter *)
Lemma j_insert_perm a l : Permutation (j_insert a l) (a :: l).
Proof.
  induction l as [|b r IH]; cbn; [reflexivity|]. destruct (j_leb a b); [reflexivity|]. rewrite IH. apply perm_swap.
Qed.
Lemma j_sort_perm l : Permutation (j_sort l) l.
Proof. unfold j_sort. induction l as [|a l IH]; cbn; [reflexivity|]. rewrite j_insert_perm, IH. reflexivity. Qed.

(** What a process must satisfy for its inventory to survive. *)
Record json_ok (cf : nat -> nat -> Qc) (p : proc) : Prop := {
  jo_refs : forall r s, In r (p_refs p) -> In s (p_refs p) -> k_flow r = k_flow s -> r = s;
  jo_valued : forall k e, dget k (p_exch p) = Some e -> x_ref e = false -> x_value e <> None \/ x_vdict e <> [];
  jo_shares : forall k e r v, dget k (p_exch p) = Some e -> x_ref e = false -> dget r (x_vdict e) = Some v -> v <> None /\ v <> Some (Q2Qc 0);
  jo_total : forall q, p_qty p = Some q -> p_sum p = total_output cf p q }.

Lemma NoDup_map_inv' {A B} (f : A -> B) l : NoDup (map f l) -> forall x y, In x l -> In y l -> f x = f y -> x = y.
Proof.
  induction l as [|a l IH]; cbn; [tauto|]. inversion 1 as [|? ? N ND]; subst. intros x y [<-|I] [<-|J] E; auto.
  - exfalso; apply N. rewrite E. apply in_map; exact J.
  - exfalso; apply N. rewrite <- E. apply in_map; exact I.
Qed.
Lemma NoDup_map_on {A B} (f : A -> B) l : NoDup l -> (forall x y, In x l -> In y l -> f x = f y -> x = y) -> NoDup (map f l).
Proof.
  induction 1 as [|a l N ND IH]; intros H; cbn; constructor.
  - intros J. apply in_map_iff in J as [b [E J]]. rewrite (H a b) in N; cbn; auto.
  - apply IH. intros; apply H; cbn; auto.
Qed.

Theorem load_any_order : forall cf ops l,
  let p := prun cf ops in
  json_ok cf p -> Permutation l (map x_json (p_exch p)) ->
  exists p', load cf (l, p_qty p) = POk p'
    /\ p_qty p' = p_qty p /\ p_sum p' = p_sum p
    /\ (forall k, In k (p_refs p') <-> In k (p_refs p))
    /\ (forall k, match dget k (p_exch p), dget k (p_exch p') with
                  | None, None => True
                  | Some e, Some e' => x_ref e' = x_ref e /\ value e' = value e /\ (x_ref e = false -> x_vdict e' = x_vdict e /\ (x_vdict e = [] -> x_value e' = x_value e))
                  | _, _ => False
                  end).
Proof.
  intros cf ops l p [JR JV JS JT] PM.
  pose proof (pinv_prun cf ops) as I. fold p in I.
  assert (IN : forall x, In x l <-> exists k e, dget k (p_exch p) = Some e /\ x = x_json (k, e)).
  { intros x. split.
    - intros J. apply (Permutation_in _ PM) in J. apply in_map_iff in J as [[k e] [<- J]]. exists k, e. split; auto. apply In_dget; auto. apply (pi_keys p I).
    - intros [k [e [D ->]]]. apply (Permutation_in _ (Permutation_sym PM)). apply in_map. apply dget_In; exact D. }
  assert (NK : NoDup (map jk l)).
  { apply (Permutation_NoDup (l := map jk (map x_json (p_exch p)))).
    - apply Permutation_map. apply Permutation_sym; exact PM.
    - rewrite map_map. replace (map (fun x => jk (x_json x)) (p_exch p)) with (dkeys (p_exch p)); [apply (pi_keys p I)|].
      unfold dkeys. apply map_ext. intros [k e]. rewrite jk_x_json. reflexivity. }
  set (R := filter j_ref l). set (NR := filter (fun x => negb (j_ref x)) l).
  assert (RI : forall x, In x R <-> exists k e, dget k (p_exch p) = Some e /\ x_ref e = true /\ x = x_json (k, e)).
  { intros x. unfold R. rewrite filter_In, IN. split.
    - intros [[k [e [D ->]]] J]. exists k, e. auto.
    - intros [k [e [D [RR ->]]]]. split; [eauto|exact RR]. }
  assert (NI : forall x, In x NR <-> exists k e, dget k (p_exch p) = Some e /\ x_ref e = false /\ x = x_json (k, e)).
  { intros x. unfold NR. rewrite filter_In, IN. split.
    - intros [[k [e [D ->]]] J]. exists k, e. split; auto. split; auto. cbn in J. destruct (x_ref e); auto; discriminate.
    - intros [k [e [D [RR ->]]]]. split; [eauto|]. cbn. rewrite RR. reflexivity. }
  assert (NKR : NoDup (map jk R)) by (apply NoDup_map_filter; exact NK).
  assert (NKN : NoDup (map jk NR)) by (apply NoDup_map_filter; exact NK).
  assert (REFK : forall k e, dget k (p_exch p) = Some e -> x_ref e = true -> In k (p_refs p)) by (intros k e D RR; apply (pi_ref p I); exists e; auto).
  assert (NFR : NoDup (map j_flow R)).
  { apply NoDup_map_on; [eapply NoDup_map_inv; exact NKR|]. intros x y X Y E. apply (NoDup_map_inv' jk R NKR); auto.
    apply RI in X as [k [e [D [RR ->]]]]. apply RI in Y as [k' [e' [D' [RR' ->]]]]. rewrite !jk_x_json. apply JR; [eauto|eauto|exact E]. }
  destruct (load_refs_ok cf R new_proc [] eq_refl eq_refl NKR NFR) as [p1 [rx [L1 [Q1 [S1 [A1 [A2 [A3 A4]]]]]]]].
  { intros x J. split; [|reflexivity]. apply RI in J as [k [e [D [RR ->]]]]. cbn. apply (pi_term p I). eauto. }
  pose proof (pinv_load_refs cf R new_proc [] pinv_new) as I1. rewrite L1 in I1. cbn [fst] in I1.
  set (rk := fun f => match find (fun r => Nat.eqb (k_flow r) f) (p_refs p) with Some r => r | None => (f, Input, None) end).
  assert (RK : forall r, In r (p_refs p) -> rk (k_flow r) = r).
  { intros r J. unfold rk. destruct (find (fun r0 => Nat.eqb (k_flow r0) (k_flow r)) (p_refs p)) as [r'|] eqn:F.
    - apply find_some in F as [F1 F2]. apply Nat.eqb_eq in F2. apply JR; auto.
    - exfalso. pose proof (find_none _ _ F _ J) as X. cbn in X. rewrite Nat.eqb_refl in X. discriminate. }
  assert (CONV : forall k e, dget k (p_exch p) = Some e -> x_ref e = false -> map (conv rk) (j_vdict (x_json (k, e))) = x_vdict e).
  { intros k e D RR. cbn. rewrite RR, map_map. transitivity (map (fun rv => rv) (x_vdict e)); [|apply map_id].
    apply map_ext_in. intros [r v] J. cbn. f_equal. apply RK. eapply (pi_vd p I); eauto. }
  assert (RX : forall k e, dget k (p_exch p) = Some e -> x_ref e = true ->
    dget k (p_exch p1) = Some (X (value e) [] true) /\ dget (k_flow k) rx = Some (Some k)).
  { intros k e D RR. assert (J : In (x_json (k, e)) R) by (apply RI; eauto). destruct (A1 _ J) as [B1 B2]. rewrite jk_x_json in *. auto. }
  destruct (load_nonrefs_ok rk rx NR p1 NKN) as [p2 [L2 [Q2 [S2 [R2 [B1 B2]]]]]].
  { intros x J. apply NI in J as [k [e [D [RR ->]]]]. rewrite jk_x_json, (CONV k e D RR).
    split; [|split; [|split]].
    - rewrite A2; [reflexivity|]. intros J. apply in_map_iff in J as [y [E J]]. apply RI in J as [k' [e' [D' [RR' ->]]]]. rewrite jk_x_json in E. congruence.
    - apply (pi_vdn p I _ _ D).
    - cbn. rewrite RR. destruct (JV k e D RR) as [V|V].
      + left. unfold value. destruct (x_value e); congruence.
      + right. destruct (x_vdict e); cbn; congruence.
    - intros d f v J. cbn in J. rewrite RR in J. apply in_map_iff in J as [[r w] [E J]]. cbn in E. injection E as <- <- <-.
      assert (JRr : In r (p_refs p)) by (eapply (pi_vd p I); eauto).
      split.
      + unfold ref_ok. rewrite (RK r JRr). pose proof JRr as JR2. apply (pi_ref p I) in JR2 as [er [Dr Rr]]. destruct (RX r er Dr Rr) as [X1 X2].
        split; [exact X2|]. split; [unfold is_ref; rewrite X1; reflexivity|]. apply A4. right. apply in_map_iff. exists (x_json (r, er)).
        split; [apply jk_x_json|]. apply RI; eauto.
      + apply (JS k e r w D RR). apply In_dget; auto. apply (pi_vdn p I _ _ D). }
  assert (REFS : forall k, In k (p_refs p2) <-> In k (p_refs p)).
  { intros k. rewrite R2, A4. split.
    - intros [[]|J]. apply in_map_iff in J as [y [<- J]]. apply RI in J as [k' [e' [D' [RR' ->]]]]. rewrite jk_x_json. eauto.
    - intros J. right. apply (pi_ref p I) in J as [e [D RR]]. apply in_map_iff. exists (x_json (k, e)). split; [apply jk_x_json|]. apply RI; eauto. }
  assert (ENT : forall k, match dget k (p_exch p), dget k (p_exch p2) with
                  | None, None => True
                  | Some e, Some e' => x_ref e' = x_ref e /\ value e' = value e /\ (x_ref e = false -> x_vdict e' = x_vdict e /\ (x_vdict e = [] -> x_value e' = x_value e))
                  | _, _ => False
                  end).
  { intros k. destruct (dget k (p_exch p)) as [e|] eqn:D.
    - destruct (x_ref e) eqn:RR.
      + rewrite B2.
        * destruct (RX k e D RR) as [-> _]. cbn. split; auto. split; [destruct (value e); reflexivity|discriminate].
        * intros J. apply in_map_iff in J as [y [E J]]. apply NI in J as [k' [e' [D' [RR' ->]]]]. rewrite jk_x_json in E. congruence.
      + assert (J : In (x_json (k, e)) NR) by (apply NI; eauto). pose proof (B1 _ J) as B. rewrite jk_x_json in B. rewrite B.
        unfold loaded. rewrite (CONV k e D RR). cbn [x_ref x_vdict x_value]. split; [auto|]. change (j_value (x_json (k, e))) with (value e). split.
        * unfold value; cbn [x_value x_vdict]. destruct (x_value e) as [w|]; [reflexivity|]. destruct (x_vdict e) as [|[r [v|]] [|]]; reflexivity.
        * intros _. split; auto. intros E. unfold value. rewrite E. destruct (x_value e); reflexivity.
    - rewrite B2, A2.
      + reflexivity.
      + intros J. apply in_map_iff in J as [y [E J]]. apply RI in J as [k' [e' [D' [RR' ->]]]]. rewrite jk_x_json in E. congruence.
      + intros J. apply in_map_iff in J as [y [E J]]. apply NI in J as [k' [e' [D' [RR' ->]]]]. rewrite jk_x_json in E. congruence. }
  unfold load. fold R. fold NR. rewrite L1, L2. eexists. split; [reflexivity|].
  assert (PR : Permutation (p_refs p2) (p_refs p)).
  { apply NoDup_Permutation; [rewrite R2; apply (pi_refs p1 I1)|apply (pi_refs p I)|exact REFS]. }
  assert (TOT : forall q, total_output cf p2 q = total_output cf p q).
  { intros q. unfold total_output.
    assert (E : map (ref_output cf p2 q) (p_refs p2) = map (ref_output cf p q) (p_refs p2)).
    { apply map_ext_in. intros r J. unfold ref_output, exch_value. pose proof (ENT r) as X. apply REFS in J. apply (pi_ref p I) in J as [e [D RR]].
      rewrite D in *. destruct (dget r (p_exch p2)); [|destruct X]. destruct X as [_ [X _]]. rewrite X. reflexivity. }
    rewrite E. clear - PR. induction PR as [|x l l' _ IH|x y l|l l' l'' _ IH1 _ IH2]; cbn; auto.
    - fold (Qcsum (map (ref_output cf p q) l)) (Qcsum (map (ref_output cf p q) l')). rewrite IH. reflexivity.
    - ring.
    - congruence. }
  destruct (p_qty p) as [q|] eqn:Q.
  - rewrite allocate_refs. rewrite allocate_exch. split; [|split; [|auto]].
    + unfold allocate. rewrite total_alloc_dict, TOT. rewrite <- (JT q eq_refl).
      destruct (eqb_spec (p_sum p) (Q2Qc 0)) as [E|]; [|reflexivity]. exfalso. apply (pi_sum p I); congruence.
    + unfold allocate. rewrite total_alloc_dict, TOT. rewrite <- (JT q eq_refl).
      destruct (eqb_spec (p_sum p) (Q2Qc 0)) as [E|]; [|reflexivity]. exfalso. apply (pi_sum p I); congruence.
  - split; [congruence|]. split; [|auto]. rewrite S2, S1. symmetry. apply (pi_sum0 p I). exact Q.
Qed.

(** Writing a process with exchanges and values and loading it back gives the same references, the same exchanges with the
    same values, the same allocation quantity, and the same exchange relation with respect to every reference.
    Partial: for the processes described by [json_ok]; the refutations below show what is lost otherwise. *)
Theorem C29_round_trip_partial : forall cf ops,
  let p := prun cf ops in
  json_ok cf p ->
  exists p', load cf (serialize p) = POk p'
    /\ p_qty p' = p_qty p
    /\ (forall k, In k (p_refs p') <-> In k (p_refs p))
    /\ (forall k, In k (dkeys (p_exch p')) <-> In k (dkeys (p_exch p)))
    /\ (forall k, is_ref p' k = is_ref p k /\ exch_value p' k = exch_value p k)
    /\ (forall k r, In r (p_refs p) -> getitem cf p' k r = getitem cf p k r).
Proof.
  intros cf ops p J. pose proof (load_any_order cf ops (j_sort (map x_json (p_exch p))) J (j_sort_perm _)) as X. cbv zeta in X. fold p in X.
  destruct X as [p' [L [Q [S [R E]]]]]. exists p'. split; [exact L|]. split; [exact Q|]. split; [exact R|]. repeat split.
  - intros X. apply dget_key_Some in X as [e X]. specialize (E k). rewrite X in E. destruct (dget k (p_exch p)) eqn:D; [|destruct E]. eapply dget_Some_key; eauto.
  - intros X. apply dget_key_Some in X as [e X]. specialize (E k). rewrite X in E. destruct (dget k (p_exch p')) eqn:D; [|destruct E]. eapply dget_Some_key; eauto.
  - specialize (E k). unfold is_ref. destruct (dget k (p_exch p)), (dget k (p_exch p')); try destruct E; tauto.
  - specialize (E k). unfold exch_value. destruct (dget k (p_exch p)), (dget k (p_exch p')); try destruct E; tauto.
  - intros k r JR. pose proof (E k) as Ek. pose proof (E r) as Er. pose proof (pinv_prun cf ops) as I. fold p in I.
    apply (pi_ref p I) in JR as [er [Dr Rr]]. rewrite Dr in Er.
    assert (AQ : alloc_qty p' = alloc_qty p) by (unfold alloc_qty; rewrite S, Q; reflexivity).
    unfold getitem. rewrite Dr, AQ, S. destruct (dget r (p_exch p')) as [er'|]; [|destruct Er]. destruct Er as [Er1 [Er2 _]]. rewrite Er1, Rr.
    destruct (dget k (p_exch p)) as [e|], (dget k (p_exch p')) as [e'|]; try (destruct Ek; fail); auto.
    destruct Ek as [E1 [E2 E3]]. rewrite E1. destruct (x_ref e); [reflexivity|]. destruct (E3 eq_refl) as [E4 E5].
    rewrite E2, E4, Er2. destruct (alloc_qty p); [reflexivity|]. destruct (x_vdict e); [|reflexivity]. rewrite E5; reflexivity.
Qed.
Print Assumptions C29_round_trip_partial.

(** A non-trivial process that meets the hypotheses: two references, partition allocation, a causal share. *)
Definition full_proc : list pop := two_refs ++ [PAddExchange 6 Output (Some (1, Output, None)) (Some (Q2Qc 3)) (TStr "sink") false].
Example C29_witness : json_ok kg (prun kg full_proc) /\ length (p_exch (prun kg full_proc)) = 4.
Proof.
  split; [|reflexivity]. constructor.
  - intros r s [<-|[<-|[]]] [<-|[<-|[]]]; cbn; congruence.
  - intros k e D _. apply dget_In in D. vm_compute in D. destruct D as [D|[D|[D|[D|[]]]]]; injection D as <- <-; cbn; first [left; discriminate|right; discriminate].
  - intros k e r v D _ G. apply dget_In in D. vm_compute in D. destruct D as [D|[D|[D|[D|[]]]]]; injection D as <- <-; cbn [x_vdict dget] in G; try discriminate.
    match type of G with context [if ?b then _ else _] => destruct b end; [|discriminate]. injection G as <-. split; [discriminate|]. intros E. injection E as E. discriminate.
  - intros q E. vm_compute in E. injection E as <-. vm_compute. reflexivity.
Qed.
(** An exchange with no value is not read back. *)
Theorem C29_refuted_no_value : let p := prun kg [PAddExchange 5 Input None None TNone false] in
  dkeys (p_exch p) = [(5, Input, None)] /\ exists p', load kg (serialize p) = POk p' /\ dkeys (p_exch p') = [].
Proof. split; [reflexivity|]. eexists; split; reflexivity. Qed.
(** A zero share is forgotten when the exchange also has a value: x[r] was 0 and becomes 5. *)
Definition zero_share : list pop :=
  [PAddExchange 0 Output None (Some (Q2Qc 1)) TNone false; PAddReference 0 Output;
   PAddExchange 5 Input (Some (0, Output, None)) (Some (Q2Qc 0)) TNone false;
   PAddExchange 5 Input None (Some (Q2Qc 5)) TNone false].
Theorem C29_refuted_zero_share : let p := prun kg zero_share in
  getitem kg p (5, Input, None) (0, Output, None) = POk (Q2Qc 0)
  /\ exists p', load kg (serialize p) = POk p' /\ getitem kg p' (5, Input, None) (0, Output, None) = POk (Q2Qc 5).
Proof. split; [vm_compute; f_equal; apply Qc_is_canon; reflexivity|]. eexists; split; [reflexivity|]. vm_compute; f_equal; apply Qc_is_canon; reflexivity. Qed.
(** One flow that is a reference in both directions: the shares of the input reference are read back on the output reference. *)
Definition both_ways : list pop :=
  [PAddExchange 0 Input None (Some (Q2Qc 1)) TNone false; PAddReference 0 Input;
   PAddExchange 0 Output None (Some (Q2Qc 1)) TNone false; PAddReference 0 Output;
   PAddExchange 5 Input (Some (0, Input, None)) (Some (Q2Qc 5)) TNone false].
Theorem C29_refuted_both_directions : let p := prun kg both_ways in
  getitem kg p (5, Input, None) (0, Input, None) = POk (Q2Qc 5)
  /\ exists p', load kg (serialize p) = POk p' /\ getitem kg p' (5, Input, None) (0, Input, None) = POk (Q2Qc 0).
Proof. split; [vm_compute; f_equal; apply Qc_is_canon; reflexivity|]. eexists; split; [reflexivity|]. vm_compute; f_equal; apply Qc_is_canon; reflexivity. Qed.

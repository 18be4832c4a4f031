(** C109: factors read through a flow reference.  C110: the reference exchanges of a process reference. *)
From Coq Require Import String List.
From Verif Require Import Num Base PyStr LowerModel FlowModel ProcModel ProcProofs ProcProps ConfModel ConfProofs ConfProofs2 ConfProps ConfProps2 ConfProps3 InvModel InvProps RefModel.
Open Scope nat_scope.
Open Scope string_scope.
Open Scope list_scope.

(** * C109 *)
(** Specification: what the source says of a flow; the questions asked before, each with the source as it was. *)
Definition plain (loc : string) : Prop := loc <> "quantity" /\ loc <> "flow".
Inductive ask1 := ACf (src : option flow) (q : qty) (loc : string) | AProfile (src : option flow).
Definition answer (a : ask1) (r : fref) : fref := match a with ACf src q loc => fst (ref_cf src q loc r) | AProfile src => ref_profile src r end.
Definition after (h : list ask1) (r : fref) : fref := fold_left (fun r a => answer a r) h r.
(** a source flow: characterizations by the uuid of their quantity, each with at least one location, numbers only *)
Definition proper (f : flow) : Prop :=
  NoDup (dkeys (f_chars f)) /\ forall u c, In (u, c) (f_chars f) ->
    u = q_uuid (c_q c) /\ NoDup (dkeys (c_locs c)) /\ c_locs c <> [] /\ forall l v, In (l, v) (c_locs c) -> v <> None.

Lemma plain_get loc c : plain loc -> char_get loc c = match dget loc (c_locs c) with Some v => of_pyval v
  | None => match c_locs c with [] => INone | _ => match dget "GLO" (c_locs c) with Some v => of_pyval v | None => INum 0%Qc end end end.
Proof. intros [A B]. unfold char_get. apply (proj2 (eqb_neq _ _)) in A. apply (proj2 (eqb_neq _ _)) in B. rewrite A, B. reflexivity. Qed.
Lemma ref_cf_other src q loc r u : u <> q_uuid q -> dget u (r_chars (fst (ref_cf src q loc r))) = dget u (r_chars r).
Proof.
  intros N. unfold ref_cf. destruct (dget (q_uuid q) (r_chars r)) eqn:D; [reflexivity|]. cbn [fst]. unfold ref_add_char. rewrite D.
  destruct (add_value _ _ _ _ _) as [c e]. cbn [fst r_chars]. apply dget_dset_other. congruence.
Qed.
(** what [cf] stores for a quantity it did not know *)
Lemma ref_cf_new src q loc r : dget (q_uuid q) (r_chars r) = None ->
  let v := match query_cf src q loc with Some (INum v) => v | _ => 0%Qc end in
  snd (ref_cf src q loc r) = INum v /\ exists c, dget (q_uuid q) (r_chars (fst (ref_cf src q loc r))) = Some c /\ c_locs c = [(loc, Some v)].
Proof.
  intros D v. unfold ref_cf. rewrite D. split; [reflexivity|]. cbn [fst]. unfold ref_add_char. rewrite D. cbn. rewrite dget_dset_same. eexists. split; reflexivity.
Qed.
Lemma ref_cf_known src q loc r c : dget (q_uuid q) (r_chars r) = Some c -> ref_cf src q loc r = (r, char_get loc c).
Proof. intros D. unfold ref_cf. rewrite D. reflexivity. Qed.
Lemma take_other c r u : u <> q_uuid (c_q c) -> dget u (r_chars (take c r)) = dget u (r_chars r).
Proof.
  intros N. unfold take. destruct (din (q_uuid (c_q c)) (r_chars r)); [reflexivity|]. unfold ref_add_char.
  destruct (dget (q_uuid (c_q c)) (r_chars r)); cbn [fst r_chars]; apply dget_dset_other; exact N.
Qed.
Lemma take_known c r : (exists c', dget (q_uuid (c_q c)) (r_chars r) = Some c') -> take c r = r.
Proof. intros [c' D]. unfold take, din. rewrite D. reflexivity. Qed.
Lemma copy_locs (d : dict string (option Qc)) : NoDup (dkeys d) ->
  fold_left (fun d p => dset (fst p) (snd p) d) (map (fun l => (l, match dget l d with Some v => v | None => None end)) (dkeys d)) [] = d.
Proof.
  intros N. assert (E : map (fun l => (l, match dget l d with Some v => v | None => None end)) (dkeys d) = d).
  { clear -N. assert (G : forall d', (forall k v, In (k, v) d' -> dget k d = Some v) -> map (fun l => (l, match dget l d with Some v => v | None => None end)) (dkeys d') = d').
    { induction d' as [|[k v] d' IH]; intros H; [reflexivity|]. cbn [dkeys map fst]. fold (dkeys d'). rewrite IH by (intros; apply H; right; assumption). rewrite (H k v) by (left; reflexivity). reflexivity. }
    apply G. intros k v I. apply In_dget; assumption. }
  rewrite E. clear E.
  assert (G : forall a, NoDup (dkeys (a ++ d)) -> fold_left (fun d p => dset (fst p) (snd p) d) d a = a ++ d); [|apply (G []); exact N].
  clear N. induction d as [|[k v] d IH]; intros a N; cbn [fold_left fst snd]; [rewrite app_nil_r; reflexivity|].
  assert (X : dset k v a = a ++ [(k, v)]).
  { assert (NI : ~ In k (dkeys a)). { unfold dkeys in *. rewrite map_app in N. cbn in N. apply NoDup_remove_2 in N. intros X. apply N. apply in_or_app. left. exact X. }
    clear -NI. induction a as [|[j w] a IH]; [reflexivity|]. cbn [dset]. cbn [dkeys map fst In] in NI. destruct (eqb_spec k j) as [->|]; [exfalso; auto|]. cbn [app]. f_equal. apply IH. tauto. }
  rewrite X, IH; [rewrite <- app_assoc; reflexivity|]. rewrite <- app_assoc. exact N.
Qed.
Lemma take_new c r : NoDup (dkeys (c_locs c)) -> dget (q_uuid (c_q c)) (r_chars r) = None ->
  exists c', dget (q_uuid (c_q c)) (r_chars (take c r)) = Some c' /\ c_locs c' = c_locs c.
Proof.
  intros N D. unfold take, din. rewrite D. unfold ref_add_char. rewrite D. cbn [fst r_chars]. rewrite dget_dset_same. eexists. split; [reflexivity|].
  unfold char_update. cbn [c_locs new_char]. apply copy_locs, N.
Qed.
(** the profile of a proper source: what was known stays, the rest is the source's *)
Lemma profile_chars f r u : proper f -> r_fetched r = false ->
  match dget u (r_chars r) with
  | Some c => dget u (r_chars (ref_profile (Some f) r)) = Some c
  | None => match dget u (f_chars f) with
            | None => dget u (r_chars (ref_profile (Some f) r)) = None
            | Some c => exists c', dget u (r_chars (ref_profile (Some f) r)) = Some c' /\ c_locs c' = c_locs c
            end
  end.
Proof.
  intros [N P] F. unfold ref_profile. rewrite F. cbn [r_chars]. revert r F. induction (f_chars f) as [|[u0 c0] l IH]; intros r F; cbn [fold_left dget].
  - destruct (dget u (r_chars r)); reflexivity.
  - cbn [dkeys map fst] in N. inversion N as [|? ? N1 N2]; subst.
    destruct (P u0 c0 (or_introl eq_refl)) as [E [ND _]]. assert (P2 : forall u c, In (u, c) l -> u = q_uuid (c_q c) /\ NoDup (dkeys (c_locs c)) /\ c_locs c <> [] /\ forall x v, In (x, v) (c_locs c) -> v <> None) by (intros; apply P; right; assumption).
    assert (FT : r_fetched (take c0 r) = false).
    { unfold take. destruct (din _ _); [exact F|]. unfold ref_add_char. destruct (dget _ (r_chars r)); exact F. }
    specialize (IH N2 P2 (take c0 r) FT). cbn [snd].
    destruct (eqb_spec u u0) as [->|NE].
    + destruct (dget u0 (r_chars r)) as [c|] eqn:D.
      * rewrite take_known in * by (exists c; congruence). rewrite D in IH. exact IH.
      * destruct (take_new c0 r ND) as [c' [D' L']]; [congruence|]. rewrite E, D' in IH. rewrite E. exists c'. auto.
    + rewrite (take_other c0 r u) in IH by congruence. exact IH.
Qed.
Lemma profile_fetched src r : r_fetched r = true -> ref_profile src r = r.
Proof. intros F. unfold ref_profile. rewrite F. reflexivity. Qed.
(** The reference quantity has the factor 1 everywhere, whatever was asked before and of whatever sources. *)
Theorem C109_reference : forall q0 h src q loc, plain loc -> q_uuid q = q_uuid q0 -> snd (ref_cf src q loc (after h (new_fref q0))) = INum 1%Qc.
Proof.
  intros q0 h src q loc PL E.
  assert (K : forall h r c, dget (q_uuid q0) (r_chars r) = Some c -> dget (q_uuid q0) (r_chars (after h r)) = Some c).
  { clear h. induction h as [|a h IH]; intros r c D; [exact D|]. cbn [after fold_left]. apply IH. destruct a as [s q' l|s]; cbn [answer].
    - destruct (eqb_spec (q_uuid q0) (q_uuid q')) as [X|X]; [rewrite (ref_cf_known s q' l r c) by congruence; exact D|rewrite ref_cf_other by exact X; exact D].
    - unfold ref_profile. destruct (r_fetched r); [exact D|]. destruct s as [f|]; [|exact D]. cbn [r_chars]. revert r D. induction (f_chars f) as [|[u0 c0] l IHl]; intros r D; [exact D|].
      cbn [fold_left snd]. apply IHl. destruct (eqb_spec (q_uuid q0) (q_uuid (c_q c0))) as [X|X]; [rewrite take_known by (exists c; congruence); exact D|rewrite take_other by exact X; exact D]. }
  specialize (K h (new_fref q0) (Char q0 [("GLO", Some 1%Qc)] [("GLO", None)])). rewrite <- E in K.
  rewrite (ref_cf_known src q loc _ (Char q0 [("GLO", Some 1%Qc)] [("GLO", None)])) by (apply K; rewrite E; apply (dget_dset_same (q_uuid q0) _ [])).
  cbn [snd]. rewrite plain_get by exact PL. cbn [c_locs dget]. destruct (eqb loc "GLO"); [reflexivity|]. rewrite eqb_refl. reflexivity.
Qed.
(** Another quantity, one source: the factor is the source's at the locale asked for, provided it was asked for before only at that locale.  Missing: other locales, changing sources. *)
Theorem C109_same_locale_partial : forall q0 f h q loc, proper f -> plain loc -> q_uuid q <> q_uuid q0 ->
  (forall a, In a h -> match a with AProfile src => src = Some f | ACf src q' loc' => src = Some f /\ (q_uuid q' = q_uuid q -> loc' = loc) end) ->
  snd (ref_cf (Some f) q loc (after h (new_fref q0))) = FlowModel.cf q loc f.
Proof.
  intros q0 f h q loc PF PL NE HH.
  assert (S : forall v, match FlowModel.cf q loc f with INum v => v | _ => v end = match query_cf (Some f) q loc with Some (INum v) => v | _ => v end).
  { intros v. unfold query_cf. destruct (FlowModel.cf q loc f); reflexivity. }
  assert (NUM : exists v, FlowModel.cf q loc f = INum v).
  { unfold FlowModel.cf. destruct (dget (q_uuid q) (f_chars f)) as [c|] eqn:D; [|eauto]. rewrite plain_get by exact PL. apply dget_In in D. destruct PF as [_ P]. destruct (P _ _ D) as [_ [_ [NN NV]]].
    destruct (dget loc (c_locs c)) as [v|] eqn:L; [apply dget_In in L; apply NV in L; destruct v; [cbn; eauto|contradiction]|].
    destruct (c_locs c) as [|x xs] eqn:X; [contradiction|]. rewrite <- X in *. destruct (dget "GLO" (c_locs c)) as [v|] eqn:G; [|eauto]. apply dget_In in G. apply NV in G. destruct v; [cbn; eauto|contradiction]. }
  assert (INV : forall h r, (forall c, dget (q_uuid q) (r_chars r) = Some c -> char_get loc c = FlowModel.cf q loc f) ->
    (forall a, In a h -> match a with AProfile src => src = Some f | ACf src q' loc' => src = Some f /\ (q_uuid q' = q_uuid q -> loc' = loc) end) ->
    forall c, dget (q_uuid q) (r_chars (after h r)) = Some c -> char_get loc c = FlowModel.cf q loc f).
  { clear h HH. induction h as [|a h IH]; intros r I HH; [exact I|]. cbn [after fold_left]. fold (after h (answer a r)). apply IH; [|intros; apply HH; right; assumption].
    pose proof (HH a (or_introl eq_refl)) as HA. destruct a as [src q' loc'|src]; cbn [answer].
    - destruct HA as [-> HL]. intros c D. destruct (eqb_spec (q_uuid q) (q_uuid q')) as [X|X].
      + specialize (HL (eq_sym X)). subst loc'. destruct (dget (q_uuid q') (r_chars r)) as [c0|] eqn:D0.
        * rewrite (ref_cf_known _ _ _ _ c0 D0) in D. apply I. exact D.
        * destruct (ref_cf_new (Some f) q' loc r D0) as [_ [c' [D' L']]]. rewrite X, D' in D. injection D as <-. rewrite plain_get by exact PL. rewrite L'. cbn [dget]. rewrite eqb_refl. cbn [of_pyval].
          assert (E : FlowModel.cf q' loc f = FlowModel.cf q loc f) by (unfold FlowModel.cf; rewrite X; reflexivity).
          destruct NUM as [v NV]. unfold query_cf. rewrite E, NV. reflexivity.
      + rewrite ref_cf_other in D by exact X. apply I. exact D.
    - subst src. intros c D. destruct (r_fetched r) eqn:F; [rewrite profile_fetched in D by exact F; apply I; exact D|].
      pose proof (profile_chars f r (q_uuid q) PF F) as PC. destruct (dget (q_uuid q) (r_chars r)) as [c0|] eqn:D0.
      + rewrite PC in D. injection D as <-. apply I. reflexivity.
      + destruct (dget (q_uuid q) (f_chars f)) as [c1|] eqn:D1; [|congruence]. destruct PC as [c' [D' L']]. rewrite D' in D. injection D as <-.
        rewrite plain_get by exact PL. unfold FlowModel.cf. rewrite D1, plain_get by exact PL. rewrite L'. reflexivity. }
  destruct (dget (q_uuid q) (r_chars (after h (new_fref q0)))) as [c|] eqn:D.
  - rewrite (ref_cf_known _ _ _ _ _ D). cbn [snd]. apply (INV h (new_fref q0)); [|exact HH|exact D].
    intros c' D'. change (dget (q_uuid q) (dset (q_uuid q0) (Char q0 [("GLO", Some 1%Qc)] [("GLO", None)]) []) = Some c') in D'. rewrite dget_dset_other in D' by exact NE. discriminate.
  - destruct (ref_cf_new (Some f) q loc _ D) as [A _]. rewrite A. destruct NUM as [v NV]. unfold query_cf. rewrite NV. reflexivity.
Qed.
(** Once the profile of a proper source has been taken before any question, every later answer is the source's, at every locale. *)
Theorem C109_profile_first : forall q0 f h q loc, proper f -> plain loc -> q_uuid q <> q_uuid q0 ->
  (forall a, In a h -> match a with AProfile src => src = Some f | ACf src _ _ => src = Some f end) ->
  snd (ref_cf (Some f) q loc (after (AProfile (Some f) :: h) (new_fref q0))) = FlowModel.cf q loc f.
Proof.
  intros q0 f h q loc PF PL NE HH. cbn [after fold_left answer]. fold (after h (ref_profile (Some f) (new_fref q0))).
  pose proof (profile_chars f (new_fref q0) (q_uuid q) PF eq_refl) as PC.
  assert (D0 : dget (q_uuid q) (r_chars (new_fref q0)) = None) by (apply (dget_dset_other (q_uuid q) (q_uuid q0) _ []); exact NE). rewrite D0 in PC.
  assert (FT : r_fetched (ref_profile (Some f) (new_fref q0)) = true) by reflexivity.
  assert (INV : forall h r, r_fetched r = true -> (forall a, In a h -> match a with AProfile src => src = Some f | ACf src _ _ => src = Some f end) ->
    (forall c, dget (q_uuid q) (r_chars r) = Some c -> char_get loc c = FlowModel.cf q loc f) ->
    (dget (q_uuid q) (r_chars r) = None -> dget (q_uuid q) (f_chars f) = None) ->
    let r' := after h r in (forall c, dget (q_uuid q) (r_chars r') = Some c -> char_get loc c = FlowModel.cf q loc f) /\ (dget (q_uuid q) (r_chars r') = None -> dget (q_uuid q) (f_chars f) = None)).
  { clear h HH. induction h as [|a h IH]; intros r F HH I1 I2; [split; assumption|]. cbn [after fold_left]. fold (after h (answer a r)). pose proof (HH a (or_introl eq_refl)) as HA.
    assert (H2 : forall a0, In a0 h -> match a0 with AProfile src => src = Some f | ACf src _ _ => src = Some f end) by (intros; apply HH; right; assumption).
    destruct a as [src q' loc'|src]; cbn [answer]; subst src; [|rewrite profile_fetched by exact F; apply IH; assumption].
    destruct (dget (q_uuid q') (r_chars r)) as [c0|] eqn:D; [rewrite (ref_cf_known _ _ _ _ c0 D); apply IH; assumption|].
    assert (F2 : r_fetched (fst (ref_cf (Some f) q' loc' r)) = true).
    { unfold ref_cf. rewrite D. cbn [fst]. unfold ref_add_char. rewrite D. destruct (add_value _ _ _ _ _) as [x y]. exact F. }
    apply IH; [exact F2|exact H2| |].
    - intros c DC. destruct (eqb_spec (q_uuid q) (q_uuid q')) as [X|X]; [|rewrite ref_cf_other in DC by exact X; apply I1; exact DC].
      destruct (ref_cf_new (Some f) q' loc' r D) as [_ [c' [D' L']]]. rewrite X, D' in DC. injection DC as <-. rewrite <- X in D. specialize (I2 D).
      assert (Q : query_cf (Some f) q' loc' = Some (INum 0%Qc)) by (unfold query_cf, FlowModel.cf; rewrite <- X, I2; reflexivity). rewrite Q in L'.
      rewrite plain_get by exact PL. rewrite L'. unfold FlowModel.cf. rewrite I2. cbn [dget]. destruct (eqb loc loc'); [reflexivity|]. destruct (eqb "GLO" loc'); reflexivity.
    - intros DC. destruct (eqb_spec (q_uuid q) (q_uuid q')) as [X|X]; [|rewrite ref_cf_other in DC by exact X; apply I2; exact DC].
      destruct (ref_cf_new (Some f) q' loc' r D) as [_ [c' [D' _]]]. congruence. }
  destruct (INV h (ref_profile (Some f) (new_fref q0)) FT HH) as [J1 J2].
  - intros c DC. destruct (dget (q_uuid q) (f_chars f)) as [c1|] eqn:D1; [|congruence]. destruct PC as [c' [D' L']]. rewrite D' in DC. injection DC as <-.
    rewrite plain_get by exact PL. unfold FlowModel.cf. rewrite D1, plain_get by exact PL. rewrite L'. reflexivity.
  - intros DC. destruct (dget (q_uuid q) (f_chars f)) as [c1|] eqn:D1; [|reflexivity]. destruct PC as [c' [D' _]]. congruence.
  - destruct (dget (q_uuid q) (r_chars (after h (ref_profile (Some f) (new_fref q0))))) as [c|] eqn:D; [rewrite (ref_cf_known _ _ _ _ _ D); cbn [snd]; apply J1; reflexivity|].
    destruct (ref_cf_new (Some f) q loc _ D) as [A _]. rewrite A. unfold query_cf, FlowModel.cf. rewrite (J2 eq_refl). reflexivity.
Qed.
(** Otherwise the locale asked for first decides: the next question, for another locale, is answered with the first answer if that was for GLO, else with 0, whatever the source says. *)
Theorem C109_refuted_locale : forall src src' q loc loc' r, plain loc' -> loc' <> loc -> dget (q_uuid q) (r_chars r) = None ->
  let '(r1, a1) := ref_cf src q loc r in snd (ref_cf src' q loc' r1) = if eqb "GLO" loc then a1 else INum 0%Qc.
Proof.
  intros src src' q loc loc' r PL NE D. destruct (ref_cf src q loc r) as [r1 a1] eqn:R. destruct (ref_cf_new src q loc r D) as [A [c [D1 L]]]. rewrite R in A, D1. cbn [fst snd] in *.
  rewrite (ref_cf_known _ _ _ _ _ D1). cbn [snd]. rewrite plain_get by exact PL. rewrite L. cbn [dget]. apply (proj2 (eqb_neq _ _)) in NE. rewrite NE. rewrite A.
  destruct (eqb "GLO" loc); reflexivity.
Qed.
(** A source that cannot answer the first question is never asked again: the factor stays 0. *)
Theorem C109_refuted_unavailable : forall src q loc r, plain loc -> dget (q_uuid q) (r_chars r) = None ->
  snd (ref_cf src q loc (fst (ref_cf None q loc r))) = INum 0%Qc.
Proof.
  intros src q loc r PL D. destruct (ref_cf_new None q loc r D) as [_ [c [D1 L]]]. rewrite (ref_cf_known _ _ _ _ _ D1). cbn [snd]. rewrite plain_get by exact PL. rewrite L. cbn [dget]. rewrite eqb_refl. reflexivity.
Qed.
Print Assumptions C109_reference. Print Assumptions C109_same_locale_partial. Print Assumptions C109_profile_first. Print Assumptions C109_refuted_locale.
(** A flow with the factors 2 (everywhere) and 3 (in DE) for a quantity, and a null characterization. *)
Definition mass := Qty 1 "mass". Definition energy := Qty 2 "energy". Definition vol := Qty 3 "volume".
Definition coal : flow := Flow (Some mass) [("mass", Char mass [("GLO", Some 1%Qc)] []); ("energy", Char energy [("GLO", Some (Q2Qc 2)); ("DE", Some (Q2Qc 3))] [])] true.
Lemma coal_proper : proper coal.
Proof.
  split; [repeat constructor; cbn; intuition discriminate|]. intros u c [E|[E|[]]]; injection E as <- <-; cbn; (split; [reflexivity|]); (split; [repeat constructor; cbn; intuition discriminate|]);
    (split; [discriminate|]); intros l v; cbn; intuition (try congruence).
Qed.
Example C109_example : proper coal /\ snd (ref_cf (Some coal) energy "DE" (after [AProfile (Some coal)] (new_fref mass))) = INum (Q2Qc 3)
  /\ snd (ref_cf (Some coal) energy "DE" (new_fref mass)) = INum (Q2Qc 3)
  /\ snd (ref_cf (Some coal) energy "DE" (after [ACf (Some coal) energy "GLO"] (new_fref mass))) = INum (Q2Qc 2)
  /\ snd (ref_cf (Some coal) energy "GLO" (after [ACf (Some coal) energy "DE"] (new_fref mass))) = INum (Q2Qc 0).
Proof. split; [exact coal_proper|]. repeat split; vm_compute; reflexivity. Qed.
(** A characterization without value: 0 if asked for directly, None after the profile was taken. *)
Theorem C109_refuted_null : let f := Flow (Some mass) [("mass", Char mass [("GLO", Some 1%Qc)] []); ("volume", new_char vol)] true in
  snd (ref_cf (Some f) vol "GLO" (new_fref mass)) = INum 0%Qc /\ snd (ref_cf (Some f) vol "GLO" (after [AProfile (Some f)] (new_fref mass))) = INone.
Proof. split; vm_compute; reflexivity. Qed.

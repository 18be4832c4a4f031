From Coq Require Import QArith.Qcabs.
From Verif Require Import Num Base PyStr LciaModel.
Open Scope string_scope.
Open Scope list_scope.
Open Scope Qc_scope.

(** * Induction over nested results *)
Section CompInd.
  Variable P : comp -> Prop.
  Hypothesis HS : forall l e nw q, P (Summ l e nw (Static q)).
  Hypothesis HA : forall l e ds, P (Agg l e ds).
  Hypothesis HI : forall l e nw r, (forall k c, In (k, c) (r_scores r) -> P c) -> P (Summ l e nw (Inner r)).
  Fixpoint comp_ind' (c : comp) : P c :=
    match c with
    | Summ l e nw (Static q) => HS l e nw q
    | Agg l e ds => HA l e ds
    | Summ l e nw (Inner (LRes i sc p q scn xs fl)) =>
        HI l e nw (LRes i sc p q scn xs fl)
          ((fix all (xs : list (string * comp)) : forall k c, In (k, c) xs -> P c :=
              match xs with
              | [] => fun k c I => match I with end
              | (k0, c0) :: rest => fun k c I => match I with
                                                 | or_introl E => match E in _ = kc return P (snd kc) with eq_refl => comp_ind' c0 end
                                                 | or_intror I' => all rest k c I'
                                                 end
              end) xs)
    end.
End CompInd.

Definition csum (own : Qc) (xs : list (string * comp)) : Qc := Qcsum (map (fun kc => cum own (snd kc)) xs).
Lemma tot_csum sc xs : (fix tot (xs : list (string * comp)) : Qc := match xs with [] => 0 | (_, x) :: r => cum sc x + tot r end) xs = csum sc xs.
Proof. induction xs as [|[k x] xs IH]; [reflexivity|]. rewrite IH. reflexivity. Qed.
Lemma cum_inner own l e nw r : cum own (Summ l e nw (Inner r)) = nw * scale_of own l * total r.
Proof. destruct r as [i sc p q scn xs fl]. cbn [cum]. rewrite tot_csum. reflexivity. Qed.
Lemma cum_static own l e nw q : cum own (Summ l e nw (Static q)) = nw * scale_of own l * q.
Proof. reflexivity. Qed.
Lemma cum_summ own l e nw u : cum own (Summ l e nw u) = nw * scale_of own l * unit_value u.
Proof. destruct u; [apply cum_static|apply cum_inner]. Qed.
Lemma cum_agg own l e ds : cum own (Agg l e ds) = Qcsum (map (d_result own) ds).
Proof. reflexivity. Qed.
Lemma total_csum r : total r = csum (r_scale r) (r_scores r).
Proof. reflexivity. Qed.
Global Arguments cum : simpl never.
Global Arguments total : simpl never.

Lemma csum_cons own k c xs : csum own ((k, c) :: xs) = cum own c + csum own xs.
Proof. reflexivity. Qed.
Lemma csum_dset own k c xs :
  csum own (dset k c xs) = csum own xs + cum own c - match dget k xs with Some c0 => cum own c0 | None => 0 end.
Proof.
  induction xs as [|[k0 c0] xs IH]; cbn [dset dget].
  - unfold csum. cbn. ring.
  - destruct (eqb k k0).
    + rewrite !csum_cons. ring.
    + rewrite !csum_cons, IH. ring.
Qed.

(** * Adding summaries *)
Lemma div_cancel (a b : Qc) : b <> 0 -> (a * b) / b = a.
Proof. intros N. field. exact N. Qed.
Lemma summ_add_owners own l1 e1 nw1 u1 l2 e2 nw2 u2 c : summ_add own l1 e1 nw1 u1 l2 e2 nw2 u2 = LOk c -> l1 = Own /\ l2 = Own.
Proof. unfold summ_add. destruct l1, l2; try discriminate; auto. Qed.
Lemma summ_add_ok own e1 nw1 u1 e2 nw2 u2 c : summ_add own Own e1 nw1 u1 Own e2 nw2 u2 = LOk c ->
  (exists nw u, c = Summ Own e1 nw u) /\
  cum own c = cum own (Summ Own e1 nw1 u1) + cum own (Summ Own e2 nw2 u2) /\
  (own <> 0 -> forall sc, cum sc c = cum sc (Summ Own e1 nw1 u1) + cum sc (Summ Own e2 nw2 u2)).
Proof.
  assert (G : forall u, u = u1 \/ u = u2 -> unit_value u1 = unit_value u2 ->
    (if eqb own 0 then LErr LZeroDivisionError else LOk (Summ Own e1 (nw1 + (nw2 * own) / own) u)) = LOk c ->
    (exists nw u, c = Summ Own e1 nw u) /\
    cum own c = cum own (Summ Own e1 nw1 u1) + cum own (Summ Own e2 nw2 u2) /\
    (own <> 0 -> forall sc, cum sc c = cum sc (Summ Own e1 nw1 u1) + cum sc (Summ Own e2 nw2 u2))).
  { intros u Hu Eu. destruct (eqb_spec own 0) as [->|N]; [discriminate|]. intros E. injection E as <-.
    rewrite (div_cancel _ _ N). split; [eauto|]. rewrite !cum_summ. cbn [scale_of].
    assert (unit_value u = unit_value u2) by (destruct Hu as [-> | ->]; congruence).
    assert (unit_value u1 = unit_value u2) by congruence. split; [|intros _ sc; rewrite !cum_summ; cbn [scale_of]]; rewrite H, H0; ring. }
  unfold summ_add. destruct u1 as [q1|r1].
  - destruct u2 as [q2|r2].
    + destruct (eqb_spec (nw1 * own) (nw2 * own)) as [E|N].
      * intros Ec. injection Ec as <-. split; [eauto|]. split.
        -- rewrite !cum_static. cbn [scale_of]. rewrite <- E. ring.
        -- intros No sc. rewrite !cum_static. cbn [scale_of]. assert (nw1 = nw2).
           { rewrite <- (div_cancel nw1 own No), <- (div_cancel nw2 own No), E. reflexivity. }
           subst nw2. ring.
      * destruct (eqb_spec q1 q2) as [->|]; [|discriminate]. apply G; auto.
    + destruct (eqb_spec q1 (total r2)) as [->|]; [|discriminate]. apply G; auto.
  - destruct (eqb_spec (total r1) (unit_value u2)) as [E|]; [|discriminate]. destruct u2 as [q2|r2].
    + apply G; auto.
    + destruct (Nat.eqb (r_id r1) (r_id r2)).
      * destruct (eqb e1 e2); [|discriminate]. apply G; auto.
      * destruct (same_set _ _); [|discriminate]. apply G; auto.
Qed.

(** * Ownership invariant for results built by the public calls *)
Definition c_own (c : comp) : Prop :=
  match c with Summ l _ _ _ => l = Own | Agg l _ ds => l = Own /\ Forall (fun d => d_lc d = Own) ds end.
Definition all_own (r : lres) : Prop := Forall (fun kc => c_own (snd kc)) (r_scores r).
Lemma Forall_dset {V} (P : string * V -> Prop) k v (d : dict string V) : Forall P d -> (forall k', P (k', v)) -> Forall P (dset k v d).
Proof.
  intros F H. induction F as [|[k0 v0] d Px F IH]; cbn [dset]; [constructor; auto|]. destruct (eqb k k0); constructor; auto.
Qed.
Lemma Forall_dget {V} (P : string * V -> Prop) k v (d : dict string V) : Forall P d -> dget k d = Some v -> P (k, v).
Proof. intros F E. apply dget_In in E. rewrite Forall_forall in F. auto. Qed.

Lemma add_component_scores r k e : r_scores (add_component r k e) = if din k (r_scores r) then r_scores r else dset k (Agg Own e []) (r_scores r).
Proof. unfold add_component. destruct (din k (r_scores r)); destruct r; reflexivity. Qed.
Lemma add_component_csum r k e sc : csum sc (r_scores (add_component r k e)) = csum sc (r_scores r).
Proof.
  rewrite add_component_scores. unfold din. destruct (dget k (r_scores r)) eqn:E; [reflexivity|].
  rewrite csum_dset, E. rewrite cum_agg. cbn. ring.
Qed.
Lemma add_component_same r k e : r_scale (add_component r k e) = r_scale r /\ r_failed (add_component r k e) = r_failed r /\
  r_quantity (add_component r k e) = r_quantity r /\ r_private (add_component r k e) = r_private r.
Proof. unfold add_component. destruct (din _ _); destruct r; repeat split. Qed.
Lemma add_component_own r k e : all_own r -> all_own (add_component r k e).
Proof.
  unfold all_own. intros A. rewrite add_component_scores. destruct (din _ _); [exact A|]. apply Forall_dset; [exact A|].
  intros k'. cbn. auto.
Qed.
Lemma dget_add_component r k e k2 : dget k2 (r_scores (add_component r k e)) =
  match dget k2 (r_scores r) with Some c => Some c | None => if eqb k2 k then Some (Agg Own e []) else None end.
Proof.
  rewrite add_component_scores. unfold din. destruct (dget k (r_scores r)) eqn:E.
  - destruct (dget k2 (r_scores r)) eqn:E2; [reflexivity|]. destruct (eqb_spec k2 k) as [->|]; congruence.
  - rewrite dget_dset. destruct (eqb_spec k2 k) as [->|]; [rewrite E; reflexivity|]. destruct (dget k2 (r_scores r)); reflexivity.
Qed.

(** add_score *)
Lemma add_score_spec r k x f loc : all_own r ->
  let '(r', res) := add_score r k x f loc in
  all_own r' /\ r_scale r' = r_scale r /\ r_failed r' = r_failed r /\ r_quantity r' = r_quantity r /\ r_private r' = r_private r /\
  match res with
  | LOk _ => forall sc, csum sc (r_scores r') = csum sc (r_scores r) + d_result sc (new_detail Own x f loc)
  | LErr _ => forall sc, csum sc (r_scores r') = csum sc (r_scores r)
  end.
Proof.
  intros A. unfold add_score. destruct (negb (String.eqb (fc_quantity f) (r_quantity r))).
  { split; [exact A|]. repeat (split; [reflexivity|]). reflexivity. }
  set (r1 := if din k (r_scores r) then r else add_component r k (EStr k)).
  assert (R1 : all_own r1 /\ r_scale r1 = r_scale r /\ r_failed r1 = r_failed r /\ r_quantity r1 = r_quantity r /\ r_private r1 = r_private r /\
     forall sc, csum sc (r_scores r1) = csum sc (r_scores r)).
  { unfold r1. destruct (din k (r_scores r)).
    - repeat (split; [auto|]). reflexivity.
    - destruct (add_component_same r k (EStr k)) as (H1 & H2 & H3 & H4). split; [apply add_component_own; exact A|].
      do 4 (split; [assumption|]). intros sc. apply add_component_csum. }
  destruct R1 as (A1 & S1 & F1 & Q1 & P1 & C1). cbv zeta.
  destruct (dget k (r_scores r1)) as [[l e nw u|l e ds]|] eqn:D.
  - split; [exact A1|]. do 4 (split; [assumption|]). exact C1.
  - pose proof (Forall_dget _ k _ _ A1 D) as [Ol Od]. cbn in Ol, Od. subst l.
    destruct r1 as [i s p q scn xs fl]. cbn [with_scores r_scale r_failed r_quantity r_private r_scores all_own] in *.
    split; [|do 4 (split; [assumption|])].
    + unfold all_own. cbn. apply Forall_dset; [exact A1|]. intros k'. cbn. split; [reflexivity|].
      apply Forall_app. split; [exact Od|]. constructor; [reflexivity|constructor].
    + intros sc. rewrite csum_dset, D, !cum_agg, map_app, Qcsum_app, C1. cbn [map]. rewrite Qcsum_cons, Qcsum_nil. ring.
  - split; [exact A1|]. do 4 (split; [assumption|]). exact C1.
Qed.

(** add_summary *)
Lemma add_summary_spec r k e nw u : all_own r ->
  let '(r', res) := add_summary r k e nw u in
  all_own r' /\ r_scale r' = r_scale r /\ r_quantity r' = r_quantity r /\ r_private r' = r_private r /\
  match res with
  | LErr _ => r' = r
  | LOk _ => (r_failed r' = r_failed r /\ csum (r_scale r) (r_scores r') = csum (r_scale r) (r_scores r) + cum (r_scale r) (Summ Own e nw u) /\
              (r_scale r <> 0 -> forall sc, csum sc (r_scores r') = csum sc (r_scores r) + cum sc (Summ Own e nw u))) \/
             (r_failed r' = r_failed r ++ [Summ Own e nw u] /\ r_scores r' = r_scores r)
  end.
Proof.
  intros A. unfold add_summary. destruct (dget k (r_scores r)) as [[l1 e1 nw1 u1|l1 e1 ds]|] eqn:D.
  - pose proof (Forall_dget _ k _ _ A D) as Ol. cbn in Ol. subst l1.
    destruct (summ_add (r_scale r) Own e1 nw1 u1 Own e nw u) as [c|x] eqn:E.
    + apply summ_add_ok in E as ((nw' & u' & ->) & C1 & C2). destruct r as [i s p q scn xs fl]. cbn [with_scores r_scale r_failed r_quantity r_private r_scores] in *.
      split; [apply Forall_dset; [exact A|intros; reflexivity]|]. do 3 (split; [reflexivity|]). left. split; [reflexivity|]. split.
      * rewrite csum_dset, D, C1. ring.
      * intros N sc. rewrite csum_dset, D, (C2 N sc). ring.
    + destruct x; try (split; [exact A|]; do 3 (split; [reflexivity|]); reflexivity).
      destruct r as [i s p q scn xs fl]. cbn. split; [exact A|]. do 3 (split; [reflexivity|]). right. auto.
  - split; [exact A|]. do 3 (split; [reflexivity|]). reflexivity.
  - destruct r as [i s p q scn xs fl]. cbn [with_scores r_scale r_failed r_quantity r_private r_scores] in *.
    split; [apply Forall_dset; [exact A|intros; reflexivity]|]. do 3 (split; [reflexivity|]). left. split; [reflexivity|]. split.
    + rewrite csum_dset, D. ring.
    + intros _ sc. rewrite csum_dset, D. ring.
Qed.

(** * aggregate *)
Definition all_static (r : lres) : Prop := Forall (fun kc => exists e nw q, snd kc = Summ Own e nw (Static q)) (r_scores r).
Definition unit1 (r : lres) : Prop := Forall (fun kc => exists e q, snd kc = Summ Own e 1 (Static q)) (r_scores r).
(** score recorded under a key *)
Definition at_key (r : lres) (k : string) : Qc := match dget k (r_scores r) with Some c => cum 1 c | None => 0 end.
Lemma agg_add agg s q : unit1 agg ->
  exists agg', add_summary agg s (EStr s) 1 (Static q) = (agg', LOk tt) /\ unit1 agg' /\ r_scale agg' = r_scale agg /\ r_failed agg' = r_failed agg /\
    (forall sc, csum sc (r_scores agg') = csum sc (r_scores agg) + sc * q) /\
    dkeys (r_scores agg') = set_add s (dkeys (r_scores agg)) /\
    (forall k, at_key agg' k = at_key agg k + if eqb k s then q else 0).
Proof.
  intros U. unfold add_summary. destruct (dget s (r_scores agg)) as [c|] eqn:D.
  - pose proof (Forall_dget _ s _ _ U D) as (e & q0 & E). cbn in E. subst c. unfold summ_add.
    rewrite (proj2 (eqb_eq (1 * r_scale agg) (1 * r_scale agg)) eq_refl). eexists. split; [reflexivity|].
    destruct agg as [i s0 p q1 scn xs fl]. cbn [with_scores r_scale r_failed r_scores] in *.
    split; [apply Forall_dset; [exact U|intros; cbn; eauto]|]. split; [reflexivity|]. split; [reflexivity|]. split; [|split].
    + intros sc. rewrite csum_dset, D, !cum_static. cbn [scale_of]. ring.
    + rewrite dkeys_dset. unfold din, set_add. rewrite D. destruct (mem_spec s (dkeys xs)) as [|N]; [reflexivity|].
      exfalso. apply N. eapply dget_Some_key; exact D.
    + intros k. unfold at_key. cbn [r_scores with_scores]. rewrite dget_dset. destruct (eqb_spec k s) as [->|].
      * rewrite D, !cum_static. cbn [scale_of]. ring.
      * ring.
  - eexists. split; [reflexivity|]. destruct agg as [i s0 p q1 scn xs fl]. cbn [with_scores r_scale r_failed r_scores] in *.
    split; [apply Forall_dset; [exact U|intros; cbn; eauto]|]. split; [reflexivity|]. split; [reflexivity|]. split; [|split].
    + intros sc. rewrite csum_dset, D, !cum_static. cbn [scale_of]. ring.
    + rewrite dkeys_dset. unfold din, set_add. rewrite D. destruct (mem_spec s (dkeys xs)) as [I|]; [|reflexivity].
      exfalso. apply dget_None in D. tauto.
    + intros k. unfold at_key. cbn [r_scores with_scores]. rewrite dget_dset. destruct (eqb_spec k s) as [->|].
      * rewrite D, !cum_static. cbn [scale_of]. ring.
      * ring.
Qed.
Lemma agg_loop_spec key own xs : forall agg, unit1 agg -> (forall k c, In (k, c) xs -> key (c_entity c) <> None) ->
  exists agg', agg_loop key own xs agg = LOk agg' /\ unit1 agg' /\ r_scale agg' = r_scale agg /\ r_failed agg' = r_failed agg /\
    (forall sc, csum sc (r_scores agg') = csum sc (r_scores agg) + sc * csum own xs) /\
    dkeys (r_scores agg') = set_union (dkeys (r_scores agg)) (map (fun kc => match key (c_entity (snd kc)) with Some s => s | None => "" end) xs) /\
    (forall k, at_key agg' k = at_key agg k + csum own (filter (fun kc => match key (c_entity (snd kc)) with Some s => eqb k s | None => false end) xs)).
Proof.
  induction xs as [|[k0 c] xs IH]; intros agg U H.
  - exists agg. cbn [agg_loop]. split; [reflexivity|]. split; [exact U|]. do 2 (split; [reflexivity|]). split; [|split].
    + intros sc. unfold csum at 3. cbn. ring.
    + reflexivity.
    + intros k. unfold csum. cbn. ring.
  - cbn [agg_loop]. pose proof (H k0 c ltac:(cbn; auto)) as H0. destruct (key (c_entity c)) as [s|] eqn:K; [|congruence].
    destruct (agg_add agg s (cum own c) U) as (agg1 & E1 & U1 & S1 & F1 & C1 & K1 & A1). rewrite E1.
    destruct (IH agg1 U1 ltac:(intros k c' I; apply (H k c'); cbn; auto)) as (agg2 & E2 & U2 & S2 & F2 & C2 & K2 & A2).
    exists agg2. split; [exact E2|]. split; [exact U2|]. split; [congruence|]. split; [congruence|]. split; [|split].
    + intros sc. rewrite C2, C1, csum_cons. ring.
    + rewrite K2, K1. cbn [map snd]. rewrite K. reflexivity.
    + intros k. rewrite A2, A1. cbn [filter snd]. rewrite K. destruct (eqb k s); [rewrite csum_cons|]; ring.
Qed.
Lemma agg_loop_raises key own xs : forall agg, unit1 agg -> (exists k c, In (k, c) xs /\ key (c_entity c) = None) ->
  agg_loop key own xs agg = LErr KeyFunctionError.
Proof.
  induction xs as [|[k0 c0] xs IH]; intros agg U (k & c & I & N); [destruct I|]. cbn [agg_loop].
  destruct (key (c_entity c0)) as [s|] eqn:K; [|reflexivity].
  destruct (agg_add agg s (cum own c0) U) as (agg1 & E1 & U1 & _). rewrite E1. apply IH; [exact U1|].
  destruct I as [E|I]; [injection E as -> ->; congruence|eauto].
Qed.

(** * flatten *)
(** what a flattened result looks like *)
Definition flat_comp (c : comp) : Prop :=
  match c with Summ l _ _ (Static _) => l = Own | Summ _ _ _ (Inner _) => False | Agg l _ ds => l = Own /\ Forall (fun d => d_lc d = Own) ds end.
Record flat_ok (r : lres) : Prop := {
  fo_comps : Forall (fun kc => flat_comp (snd kc)) (r_scores r);
  fo_scale : r_scale r = 1;
  fo_failed : r_failed r = []
}.
Lemma flat_own r : flat_ok r -> all_own r.
Proof.
  intros V. unfold all_own. eapply Forall_impl; [|apply V]. intros [k c]. cbn. destruct c as [l e nw [q|r0]|l e ds]; cbn; tauto.
Qed.
Lemma flat_add_summary r k e nw q : flat_ok r ->
  match add_summary r k e nw (Static q) with
  | (r', LOk _) => flat_ok r' /\ total r' = total r + nw * q /\ r_quantity r' = r_quantity r /\ r_private r' = r_private r
  | (_, LErr x) => x <> LValueError
  end.
Proof.
  intros V. pose proof (add_summary_spec r k e nw (Static q) (flat_own r V)) as S.
  unfold add_summary in *. destruct (dget k (r_scores r)) as [[l1 e1 nw1 u1|l1 e1 ds]|] eqn:D.
  - pose proof (Forall_dget _ k _ _ (fo_comps r V) D) as Ol. cbn in Ol. destruct u1 as [q1|r1]; [|destruct Ol]. subst l1.
    unfold summ_add in *. cbn [unit_value] in *.
    assert (G : forall nw2 q2, let c := Summ Own e1 nw2 (Static q2) in
       (all_own (with_scores r (dset k c (r_scores r))) /\ r_scale (with_scores r (dset k c (r_scores r))) = r_scale r /\
        r_quantity (with_scores r (dset k c (r_scores r))) = r_quantity r /\ r_private (with_scores r (dset k c (r_scores r))) = r_private r /\
        (r_failed (with_scores r (dset k c (r_scores r))) = r_failed r /\
          csum (r_scale r) (r_scores (with_scores r (dset k c (r_scores r)))) = csum (r_scale r) (r_scores r) + cum (r_scale r) (Summ Own e nw (Static q)) /\
         (r_scale r <> 0 -> forall sc, csum sc (r_scores (with_scores r (dset k c (r_scores r)))) = csum sc (r_scores r) + cum sc (Summ Own e nw (Static q))) \/
         r_failed (with_scores r (dset k c (r_scores r))) = r_failed r ++ [Summ Own e nw (Static q)] /\ r_scores (with_scores r (dset k c (r_scores r))) = r_scores r)) ->
       flat_ok (with_scores r (dset k c (r_scores r))) /\ total (with_scores r (dset k c (r_scores r))) = total r + nw * q /\
       r_quantity (with_scores r (dset k c (r_scores r))) = r_quantity r /\ r_private (with_scores r (dset k c (r_scores r))) = r_private r).
    { intros nw2 q2 c (A & B & Q & P & [(F & C & _)|(F & _)]).
      - split; [|split; [|auto]].
        + destruct V as [V1 V2 V3]. split; [|congruence|congruence]. destruct r; cbn in *. apply Forall_dset; [exact V1|intros; reflexivity].
        + rewrite !total_csum, B, C, cum_static, (fo_scale r V). cbn. ring.
      - exfalso. destruct r as [? ? ? ? ? ? fl]; cbn in F. pose proof (fo_failed _ V) as Z. cbn in Z. subst fl. discriminate. }
    destruct (eqb (nw1 * r_scale r) (nw * r_scale r)); [apply G; exact S|].
    destruct (eqb q1 q); [|discriminate]. destruct (eqb (r_scale r) 0); [discriminate|]. apply G; exact S.
  - discriminate.
  - destruct S as (A & B & Q & P & [(F & C & _)|(F & C)]).
    + split; [|split; [|auto]].
      * destruct V as [V1 V2 V3]. split; [|congruence|congruence]. destruct r; cbn in *. apply Forall_dset; [exact V1|intros; reflexivity].
      * rewrite !total_csum, B, C, cum_static, (fo_scale r V). cbn. ring.
    + exfalso. destruct r as [? ? ? ? ? ? fl]; cbn in F. pose proof (fo_failed _ V) as Z. cbn in Z. subst fl. discriminate.
Qed.

Lemma flat_add_score r k x f loc : flat_ok r ->
  match add_score r k x f loc with
  | (r', LOk _) => flat_ok r' /\ total r' = total r + d_result 1 (new_detail Own x f loc) /\ r_quantity r' = r_quantity r /\ r_private r' = r_private r
  | (_, LErr e) => e <> LValueError
  end.
Proof.
  intros V. pose proof (add_score_spec r k x f loc (flat_own r V)) as S. destruct (add_score r k x f loc) as [r' res] eqn:E.
  destruct S as (A & B & F & Q & P & C). destruct res as [[]|e].
  - split; [|split; [|auto]].
    + split; [|rewrite B; apply V|rewrite F; apply V]. unfold add_score in E.
      destruct (negb (String.eqb (fc_quantity f) (r_quantity r))); [discriminate|].
      set (r1 := if din k (r_scores r) then r else add_component r k (EStr k)) in E.
      assert (V1 : Forall (fun kc => flat_comp (snd kc)) (r_scores r1)).
      { unfold r1. destruct (din k (r_scores r)); [apply V|]. rewrite add_component_scores. destruct (din k (r_scores r)); [apply V|].
        apply Forall_dset; [apply V|]. intros k'. cbn. auto. }
      cbv zeta in E. clearbody r1. destruct (dget k (r_scores r1)) as [[|l e ds]|] eqn:D; try discriminate.
      apply pair_equal_inv in E as [<- _]. pose proof (Forall_dget _ k _ _ V1 D) as [Ol Od]. cbn in Ol, Od. subst l.
      destruct r1; cbn in *. apply Forall_dset; [exact V1|]. intros k'. cbn. split; [reflexivity|]. apply Forall_app. split; [exact Od|].
      constructor; [reflexivity|constructor].
    + rewrite !total_csum, B, (fo_scale r V), C. reflexivity.
  - unfold add_score in E. destruct (negb (String.eqb (fc_quantity f) (r_quantity r))); [apply pair_equal_inv in E as [_ E]; injection E as <-; discriminate|].
    cbv zeta in E. destruct (dget k _) as [[]|]; apply pair_equal_inv in E as [_ E]; try discriminate E; injection E as <-; discriminate.
Qed.
Lemma flat_add_component r k e : flat_ok r -> flat_ok (add_component r k e) /\ total (add_component r k e) = total r.
Proof.
  intros V. destruct (add_component_same r k e) as (S & F & _). split.
  - split; [|rewrite S; apply V|rewrite F; apply V]. rewrite add_component_scores. destruct (din k (r_scores r)); [apply V|].
    apply Forall_dset; [apply V|]. intros k'. cbn. auto.
  - rewrite !total_csum, S. apply add_component_csum.
Qed.
Lemma fc_get_glo f loc : fc_get f (if din loc (fc_locs f) then loc else "GLO") = fc_get f loc.
Proof.
  unfold din. destruct (dget loc (fc_locs f)) eqn:E; [reflexivity|]. unfold fc_get. rewrite E.
  destruct (dget "GLO" (fc_locs f)) as [[|]|]; reflexivity.
Qed.
(** a rescaled copy of a detailed result *)
Lemma d_result_copy own a d :
  d_result 1 (new_detail Own (Exch (x_process (d_exch d)) (x_flow (d_exch d)) (x_output (d_exch d)) (Some (d_value own d * a))) (d_factor d) (d_loc d))
  = a * d_result own d.
Proof.
  unfold d_result, new_detail. cbn [d_factor d_loc d_exch]. destruct (fc_locs (d_factor d)) as [|x r] eqn:L; [ring|].
  rewrite <- L, fc_get_glo. unfold d_value at 1, dirn_adjust. cbn [d_exch x_value d_lc scale_of x_output d_factor]. ring.
Qed.
Lemma nz_sum own ds : Qcsum (map (d_result own) (nz_details own ds)) = Qcsum (map (d_result own) ds).
Proof.
  unfold nz_details. induction ds as [|d ds IH]; [reflexivity|]. cbn [filter map]. destruct (eqb_spec (d_result own d) 0) as [E|N]; cbn [negb].
  - rewrite IH, Qcsum_cons, E. ring.
  - cbn [map]. rewrite !Qcsum_cons, IH. reflexivity.
Qed.
Lemma flat_details_spec own a key ds : forall flat, flat_ok flat ->
  match flat_details own a key ds flat with
  | LOk flat' => flat_ok flat' /\ total flat' = total flat + a * Qcsum (map (d_result own) ds) /\ r_quantity flat' = r_quantity flat /\ r_private flat' = r_private flat
  | LErr x => x <> LValueError
  end.
Proof.
  induction ds as [|d ds IH]; intros flat V; cbn [flat_details].
  - split; [exact V|]. split; [cbn; ring|auto].
  - cbv zeta. destruct (flat_add_component flat (x_flow (d_exch d)) (EFlow (x_flow (d_exch d))) V) as [V1 T1].
    destruct (add_component_same flat (x_flow (d_exch d)) (EFlow (x_flow (d_exch d)))) as (_ & _ & Q1 & P1).
    set (x := Exch _ _ _ _).
    pose proof (flat_add_score (add_component flat (x_flow (d_exch d)) (EFlow (x_flow (d_exch d))))
       (match key with Some k => k | None => x_flow (d_exch d) end) x (d_factor d) (d_loc d) V1) as S.
    destruct (add_score _ _ x (d_factor d) (d_loc d)) as [flat2 [[]|e]]; [|exact S]. destruct S as (V2 & T2 & Q2 & P2).
    specialize (IH flat2 V2). destruct (flat_details own a key ds flat2) as [flat3|e]; [|exact IH]. destruct IH as (V3 & T3 & Q3 & P3).
    split; [exact V3|]. split; [|split; congruence]. rewrite T3, T2, T1. unfold x. rewrite d_result_copy. cbn [map]. rewrite Qcsum_cons. ring.
Qed.
Lemma flat_second_spec a sc xs : forall flat, flat_ok flat ->
  match flat_second a sc xs flat with
  | LOk flat' => flat_ok flat' /\ total flat' = total flat + a * csum sc xs /\ r_quantity flat' = r_quantity flat /\ r_private flat' = r_private flat
  | LErr x => x <> LValueError
  end.
Proof.
  induction xs as [|[k c] xs IH]; intros flat V; cbn [flat_second].
  - split; [exact V|]. split; [unfold csum; cbn; ring|auto].
  - destruct c as [l e nw [q|r]|l e ds]; [|discriminate|].
    + pose proof (flat_add_summary flat k e (nw * scale_of sc l * a) q V) as S.
      destruct (add_summary flat k e (nw * scale_of sc l * a) (Static q)) as [flat1 [[]|x]]; [|exact S]. destruct S as (V1 & T1 & Q1 & P1).
      specialize (IH flat1 V1). destruct (flat_second a sc xs flat1) as [flat2|x]; [|exact IH]. destruct IH as (V2 & T2 & Q2 & P2).
      split; [exact V2|]. split; [|split; congruence]. rewrite T2, T1, csum_cons, cum_static. ring.
    + pose proof (flat_details_spec sc a (Some k) (nz_details sc ds) flat V) as S.
      destruct (flat_details sc a (Some k) (nz_details sc ds) flat) as [flat1|x]; [|exact S]. destruct S as (V1 & T1 & Q1 & P1).
      specialize (IH flat1 V1). destruct (flat_second a sc xs flat1) as [flat2|x]; [|exact IH]. destruct IH as (V2 & T2 & Q2 & P2).
      split; [exact V2|]. split; [|split; congruence]. rewrite T2, T1, csum_cons, cum_agg, nz_sum. ring.
Qed.
Lemma flat_recurse_spec a rs : forall flat, flat_ok flat ->
  match flat_recurse a rs flat with
  | LOk flat' => flat_ok flat' /\ total flat' = total flat + a * Qcsum (map total rs) /\ r_quantity flat' = r_quantity flat /\ r_private flat' = r_private flat
  | LErr x => x <> LValueError
  end.
Proof.
  induction rs as [|r rs IH]; intros flat V; cbn [flat_recurse].
  - split; [exact V|]. split; [cbn; ring|auto].
  - destruct (r_private r); [discriminate|].
    pose proof (flat_second_spec a (r_scale r) (r_scores r) flat V) as S.
    destruct (flat_second a (r_scale r) (r_scores r) flat) as [flat1|x]; [|exact S]. destruct S as (V1 & T1 & Q1 & P1).
    specialize (IH flat1 V1). destruct (flat_recurse a rs flat1) as [flat2|x]; [|exact IH]. destruct IH as (V2 & T2 & Q2 & P2).
    split; [exact V2|]. split; [|split; congruence]. rewrite T2, T1, <- total_csum. cbn [map]. rewrite Qcsum_cons. ring.
Qed.
Lemma Qcleb_refl x y : Qcle x y -> Qcleb x y = true.
Proof. intros H. apply Qle_bool_iff. exact H. Qed.
Lemma isclose_refl x : isclose tol6 x x = true.
Proof.
  unfold isclose. replace (x - x) with 0 by ring.
  assert (H : Qcle (Qcabs 0) (tol6 * Qcabs x)).
  { replace (Qcabs 0) with (0 * Qcabs x) by (rewrite Qcmult_0_l; apply Qc_is_canon; reflexivity).
    apply Qcmult_le_compat_r; [discriminate|apply Qcabs_nonneg]. }
  destruct (Qcleb (Qcabs x) (Qcabs x)); apply Qcleb_refl; exact H.
Qed.

(** the first loop, with the recursive calls abstracted *)
Fixpoint first_loop (rec_flat : comp -> lret lres) (sc a : Qc) (xs : list (string * comp)) (flat : lres) (rec : list lres) : lret (lres * list lres) :=
  match xs with
  | [] => LOk (flat, rec)
  | (k, c) :: rest =>
      match c with
      | Summ l e nw (Static q) => match add_summary flat k e (nw * scale_of sc l * a) (Static q) with
                                  | (flat1, LOk _) => first_loop rec_flat sc a rest flat1 rec
                                  | (_, LErr x) => LErr x
                                  end
      | Summ _ _ _ (Inner _) => match rec_flat c with LOk r => first_loop rec_flat sc a rest flat (rec ++ [r]) | LErr x => LErr x end
      | Agg _ _ ds => match flat_details sc a None (nz_details sc ds) flat with
                      | LOk flat1 => first_loop rec_flat sc a rest flat1 rec
                      | LErr x => LErr x
                      end
      end
  end.
Lemma cflat_unfold new own l e nw i sc p q scn xs fl :
  cflat new own (Summ l e nw (Inner (LRes i sc p q scn xs fl))) =
  match first_loop (cflat new sc) sc (nw * scale_of own l) xs (new_lres new q scn p 1) [] with
  | LErr x => LErr x
  | LOk (flat, rec) =>
      match flat_recurse (nw * scale_of own l) rec flat with
      | LErr x => LErr x
      | LOk flat2 => if isclose tol6 (csum sc xs * (nw * scale_of own l)) (total flat2) then LOk flat2 else LErr LValueError
      end
  end.
Proof.
  cbn [cflat]. rewrite tot_csum.
  match goal with |- match ?f xs ?g [] with _ => _ end = _ => assert (H : forall xs flat rec, f xs flat rec = first_loop (cflat new sc) sc (nw * scale_of own l) xs flat rec) end.
  { clear. induction xs as [|[k c] xs IH]; intros flat rec; [reflexivity|]. cbn [first_loop].
    destruct c as [l0 e0 nw0 [q0|r0]|l0 e0 ds].
    - destruct (add_summary flat k e0 _ _) as [flat1 [u|x]]; [apply IH|reflexivity].
    - destruct (cflat new sc (Summ l0 e0 nw0 (Inner r0))); [apply IH|reflexivity].
    - destruct (flat_details _ _ _ _ _); [apply IH|reflexivity]. }
  rewrite H. reflexivity.
Qed.
Lemma first_loop_spec rf sc a xs : forall flat rec, flat_ok flat ->
  (forall k c, In (k, c) xs -> match rf c with LOk r => flat_ok r /\ total r = cum sc c | LErr x => x <> LValueError end) ->
  Forall flat_ok rec ->
  match first_loop rf sc a xs flat rec with
  | LOk (flat', rec') => flat_ok flat' /\ Forall flat_ok rec' /\
       total flat' + a * Qcsum (map total rec') = total flat + a * Qcsum (map total rec) + a * csum sc xs /\ r_quantity flat' = r_quantity flat /\ r_private flat' = r_private flat
  | LErr x => x <> LValueError
  end.
Proof.
  induction xs as [|[k c] xs IH]; intros flat rec V H R; cbn [first_loop].
  - split; [exact V|]. split; [exact R|]. split; [unfold csum; cbn; ring|auto].
  - assert (H' : forall k c, In (k, c) xs -> match rf c with LOk r => flat_ok r /\ total r = cum sc c | LErr x => x <> LValueError end)
      by (intros k' c' I; apply (H k' c'); cbn; auto).
    destruct c as [l e nw [q|r]|l e ds].
    + pose proof (flat_add_summary flat k e (nw * scale_of sc l * a) q V) as S.
      destruct (add_summary flat k e (nw * scale_of sc l * a) (Static q)) as [flat1 [[]|x]]; [|exact S]. destruct S as (V1 & T1 & Q1 & P1).
      specialize (IH flat1 rec V1 H' R). destruct (first_loop rf sc a xs flat1 rec) as [[flat2 rec2]|x]; [|exact IH].
      destruct IH as (V2 & R2 & T2 & Q2 & P2). split; [exact V2|]. split; [exact R2|]. split; [|split; congruence]. rewrite T2, T1, csum_cons, cum_static. ring.
    + pose proof (H k _ ltac:(cbn; auto)) as Hc. destruct (rf (Summ l e nw (Inner r))) as [r'|x]; [|exact Hc]. destruct Hc as [Vr Tr].
      specialize (IH flat (rec ++ [r']) V H' ltac:(apply Forall_app; auto)). destruct (first_loop rf sc a xs flat (rec ++ [r'])) as [[flat2 rec2]|x]; [|exact IH].
      destruct IH as (V2 & R2 & T2 & Q2 & P2). split; [exact V2|]. split; [exact R2|]. split; [|auto]. rewrite T2, csum_cons, map_app, Qcsum_app. cbn [map].
      rewrite Qcsum_cons, Qcsum_nil, Tr. ring.
    + pose proof (flat_details_spec sc a None (nz_details sc ds) flat V) as S.
      destruct (flat_details sc a None (nz_details sc ds) flat) as [flat1|x]; [|exact S]. destruct S as (V1 & T1 & Q1 & P1).
      specialize (IH flat1 rec V1 H' R). destruct (first_loop rf sc a xs flat1 rec) as [[flat2 rec2]|x]; [|exact IH].
      destruct IH as (V2 & R2 & T2 & Q2 & P2). split; [exact V2|]. split; [exact R2|]. split; [|split; congruence]. rewrite T2, T1, csum_cons, cum_agg, nz_sum. ring.
Qed.
Lemma flat_ok_new new q scn p : flat_ok (new_lres new q scn p 1).
Proof. split; cbn; [constructor|reflexivity|reflexivity]. Qed.
Lemma cflat_spec new c : forall own, match cflat new own c with LOk r => flat_ok r /\ total r = cum own c | LErr x => x <> LValueError end.
Proof.
  induction c as [l e nw q|l e ds|l e nw r IH] using comp_ind'; intros own; [discriminate|discriminate|].
  destruct r as [i sc p q scn xs fl]. rewrite cflat_unfold, cum_inner. rewrite total_csum. cbn [r_scale r_scores] in *.
  set (a := nw * scale_of own l).
  pose proof (first_loop_spec (cflat new sc) sc a xs (new_lres new q scn p 1) [] (flat_ok_new new q scn p) ltac:(intros k c I; apply (IH k c I)) ltac:(constructor)) as F.
  destruct (first_loop (cflat new sc) sc a xs (new_lres new q scn p 1) []) as [[flat rec]|x]; [|exact F]. destruct F as (V & R & T & _).
  pose proof (flat_recurse_spec a rec flat V) as G. destruct (flat_recurse a rec flat) as [flat2|x]; [|exact G]. destruct G as (V2 & T2 & _).
  assert (E : total flat2 = csum sc xs * a).
  { rewrite T2, T. change (total (new_lres new q scn p 1)) with 0. cbn [map]. rewrite Qcsum_nil. ring. }
  rewrite E, isclose_refl. split; [exact V2|]. rewrite E. ring.
Qed.

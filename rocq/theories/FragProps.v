(** Properties C38, C40, C42, C43, C45 of fragments (model: FragModel.v). *)
From Verif Require Import Num Base PyStr ProcModel FragModel FragProofs.
Open Scope Qc_scope.
Open Scope string_scope.
Open Scope list_scope.

(** * C38: traversal is linear in the upstream weight *)
(** For every foreground, scenario, fragment and nonzero factor, whatever the depth: traversing with the upstream weight multiplied
    by [k] gives the same outcome (same exception, or the same fragment flows in the same order with the same fragments, flows,
    directions, terminations and conserved values), magnitudes and node weights multiplied by [k]. *)
Theorem C38_linear cf refq fuel h sc obs i nw seen q bal k : k <> 0 ->
  match trav cf refq fuel h sc obs i nw seen q bal, trav cf refq fuel h sc obs i (nw * k) seen q bal with
  | FErr e, FErr e' => e = e'
  | FOk (l, cv), FOk (l', cv') => cv = cv'
      /\ Forall2 (fun x y => ff_ref y = ff_ref x /\ ff_flow y = ff_flow x /\ ff_dir y = ff_dir x /\ ff_term y = ff_term x /\ ff_cons y = ff_cons x /\ ff_subs y = ff_subs x
                   /\ ff_mag y = ff_mag x * k /\ ff_nw y = ff_nw x * k) l l'
  | _, _ => False
  end.
Proof.
  intros K. rewrite (trav_linear cf refq k fuel h sc obs K i nw seen q bal). destruct (trav cf refq fuel h sc obs i nw seen q bal) as [[l cv]|e]; cbn [scaled]; auto.
  split; auto. induction l as [|x l IH]; cbn [map]; constructor; auto. destruct (fscale_fields k x) as [H1 [H2 [H3 [H4 [H5 [H6 [H7 H8]]]]]]]. auto 10.
Qed.
Print Assumptions C38_linear.
(** a factor of zero is different: a node of zero magnitude is not followed *)
Definition q1 : Qc := Q2Qc 1.
Definition h38 : heap := fun i => match i with
  | 1%nat => Some (Fr None [2%nat] 10 Output false false None [(K0, Some (Q2Qc 2)); (K1, Some 0)] [(None, Tm (NFrag 1) 10 Input true)])
  | 2%nat => Some (Fr (Some 1%nat) [3%nat] 11 Input false false None [(K0, Some (Q2Qc 3)); (K1, Some 0)] [(None, Tm (NProc 7) 11 Output true)])
  | 3%nat => Some (Fr (Some 2%nat) [] 12 Input false false None [(K0, Some (Q2Qc 5)); (K1, Some 0)] [(None, null_term 12 Input)])
  | _ => None end.
Example C38_example : exists l, trav (fun _ _ => 1) (fun _ => 0%nat) 5 h38 ScNone false 1%nat q1 [] None None = FOk (l, None)
  /\ map ff_mag l = [Q2Qc 2; Q2Qc 3; Q2Qc 15].
Proof. eexists. split; [vm_compute; reflexivity|]. cbn. repeat f_equal; apply Qc_is_canon; reflexivity. Qed.

(** * C40: unit inventory *)
(** net amount of flow [f] (inputs positive) in a list of fragment flows *)
Definition net (f : nat) (l : list ffl) : Qc := Qcsum (map (fun x => if Nat.eqb (ff_flow x) f then match ff_dir x with Input => ff_mag x | Output => - ff_mag x end else 0) l).
Definition cutoffs (l : list ffl) : list ffl := filter (fun x => match t_node (ff_term x) with NNull => true | _ => false end) l.
Definition occurs (f : nat) (l : list ffl) : Prop := In f (map ff_flow l).

Lemma cutoffs_cons x l : cutoffs (x :: l) = if is_null (ff_term x) then x :: cutoffs l else cutoffs l.
Proof. reflexivity. Qed.
Lemma net_cons f x l : net f (x :: l) = (if Nat.eqb (ff_flow x) f then signed (ff_dir x) (ff_mag x) else 0) + net f l.
Proof. reflexivity. Qed.
Lemma ios_fold ffs : forall out, NoDup (dkeys out) ->
  let r := fold_left (fun out x => if is_null (ff_term x) then out_add out (ff_flow x) (signed (ff_dir x) (ff_mag x)) else out) ffs out in
  NoDup (dkeys r) /\ (forall f, In f (dkeys r) <-> In f (dkeys out) \/ occurs f (cutoffs ffs))
  /\ (forall f, num (dget f r) = num (dget f out) + net f (cutoffs ffs)).
Proof.
  induction ffs as [|x l IH]; intros out ND; cbn [fold_left]; [split; [auto|]; split; [intros f; unfold occurs; cbn; tauto|intros f; unfold net; cbn; unfold Qcsum; cbn; ring]|].
  rewrite cutoffs_cons. destruct (is_null (ff_term x)) eqn:N; [|apply IH; auto].
  destruct (IH (out_add out (ff_flow x) (signed (ff_dir x) (ff_mag x)))) as [I1 [I2 I3]]; [apply NoDup_dset; auto|]. split; [exact I1|]. split.
  - intros f. rewrite I2. unfold out_add. rewrite In_dkeys_dset. unfold occurs. cbn [map In]. split; intros; intuition (subst; auto).
  - intros f. rewrite I3, net_cons. unfold out_add. rewrite dget_dset. destruct (eqb_spec f (ff_flow x)) as [->|NE].
    + rewrite Nat.eqb_refl. cbn [num]. destruct (dget (ff_flow x) out); cbn [num]; ring.
    + destruct (Nat.eqb_spec (ff_flow x) f); [congruence|]. ring.
Qed.
Lemma ios_out_spec ffs : NoDup (dkeys (ios_out ffs)) /\ (forall f, In f (dkeys (ios_out ffs)) <-> occurs f (cutoffs ffs))
  /\ (forall f v, dget f (ios_out ffs) = Some v -> v = net f (cutoffs ffs)).
Proof.
  destruct (ios_fold ffs [] (NoDup_nil _)) as [I1 [I2 I3]]. unfold ios_out. split; [exact I1|]. split; [intros f; rewrite I2; cbn; tauto|].
  intros f v E. specialize (I3 f). rewrite E in I3. cbn in I3. rewrite I3. ring.
Qed.
Lemma signed_abs v : signed (sign_dir v) (Qcabs v) = v.
Proof.
  unfold sign_dir. destruct (Qclt_le_dec v (Q2Qc 0)) as [L|L]; cbn [signed].
  - rewrite Qcabs_neg; [ring|]. apply Qclt_le_weak; exact L.
  - apply Qcabs_pos; exact L.
Qed.
Lemma net_out_flows p f d : NoDup (dkeys d) -> net f (out_flows p d) = num (dget f d).
Proof.
  unfold out_flows, net. induction d as [|[g v] d IH]; intros ND; [reflexivity|]. cbn [map fst snd dkeys] in *. rewrite Qcsum_cons. inversion ND as [|? ? NI ND']; subst.
  rewrite IH by exact ND'. unfold cutoff. cbn [ff_flow ff_dir ff_mag dget]. change (match sign_dir v with Input => Qcabs v | Output => - Qcabs v end) with (signed (sign_dir v) (Qcabs v)). rewrite signed_abs.
  destruct (Nat.eqb_spec g f) as [->|NE].
  - change (eqb f f) with (Nat.eqb f f). rewrite Nat.eqb_refl. assert (Z : dget f d = None) by (apply dget_None; exact NI). rewrite Z. cbn. ring.
  - change (eqb f g) with (Nat.eqb f g). destruct (Nat.eqb_spec f g); [congruence|]. ring.
Qed.
Lemma flows_out_flows p d : map ff_flow (out_flows p d) = dkeys d.
Proof. unfold out_flows, dkeys. rewrite map_map. apply map_ext. reflexivity. Qed.
Lemma dkeys_dset_in (f : nat) (v : Qc) d : dget f d <> None -> dkeys (dset f v d) = dkeys d.
Proof. intros N. rewrite dkeys_dset. unfold din. destruct (dget f d); [reflexivity|contradiction]. Qed.

(** Whatever the fragment flows: if grouping succeeds, the internal list is the terminated fragment flows in order, the inventory
    lists exactly the cut-off flows (and the reference flow, if asked for), and the net amount of every flow is the net of the
    cut-offs plus, for the reference flow, the reference magnitude in the complementary direction. *)
Theorem C40_net_amounts parent rf rd incl ffs ext internal :
  group_ios parent rf rd incl ffs = FOk (ext, internal) ->
  internal = filter (fun x => match t_node (ff_term x) with NNull => false | _ => true end) ffs
  /\ (forall f, occurs f ext <-> occurs f (cutoffs ffs) \/ (incl = true /\ f = rf))
  /\ (forall f, net f ext = net f (cutoffs ffs) + (if incl && Nat.eqb f rf then match ffs with x :: _ => signed (comp rd) (ff_mag x) | [] => 0 end else 0))
  /\ (forall x, In x ext -> t_node (ff_term x) = NNull /\ ff_ref x = Ghost parent).
Proof.
  destruct (ios_out_spec ffs) as [ND [OC NT]]. assert (INT : filter (fun x => negb (is_null (ff_term x))) ffs = filter (fun x => match t_node (ff_term x) with NNull => false | _ => true end) ffs).
  { apply filter_ext. intros x. unfold is_null. destruct (t_node (ff_term x)); reflexivity. }
  assert (NUM : forall f, num (dget f (ios_out ffs)) = net f (cutoffs ffs)).
  { intros f. destruct (dget f (ios_out ffs)) as [v|] eqn:E; [cbn; apply NT; exact E|]. cbn. symmetry. unfold net. apply Qcsum_zero. intros x J.
    destruct (Nat.eqb_spec (ff_flow x) f) as [<-|]; auto. exfalso. apply dget_None in E. apply E, OC. unfold occurs. apply in_map; exact J. }
  assert (OUT : forall d x, In x (out_flows parent d) -> t_node (ff_term x) = NNull /\ ff_ref x = Ghost parent).
  { intros d x J. apply in_map_iff in J as [e [<- _]]. auto. }
  unfold group_ios. destruct incl; [|intros E; injection E as <- <-].
  - destruct ffs as [|x0 l] eqn:EF; [discriminate|]. rewrite <- EF in *. set (m := ff_mag x0). destruct (dget rf (ios_out ffs)) as [v|] eqn:DR.
    + destruct (eqb_spec (sign_dir v) rd) as [SD|]; [|discriminate]. destruct (Qclt_le_dec (Qcabs v) m) as [L|L]; intros E; injection E as <- <-.
      * assert (KE : dkeys (dset rf (match sign_dir v with Output => v + m | Input => v - m end) (ios_out ffs)) = dkeys (ios_out ffs)) by (apply dkeys_dset_in; congruence).
        split; [exact INT|]. split; [|split; [|apply OUT]].
        -- intros f. unfold occurs at 1. rewrite flows_out_flows, KE, OC. split; [auto|intros [H|[_ ->]]; auto]. apply OC. apply dget_Some_key with v; auto.
        -- intros f. rewrite net_out_flows by (rewrite KE; exact ND). rewrite dget_dset. cbn [andb]. change (eqb f rf) with (Nat.eqb f rf). destruct (Nat.eqb_spec f rf) as [->|NE].
           ++ rewrite <- (NT rf v DR). rewrite SD. destruct rd; cbn [num comp signed]; ring.
           ++ rewrite NUM. ring.
      * split; [exact INT|]. split; [|split].
        -- intros f. unfold occurs at 1. cbn [map cutoff ff_flow In]. rewrite flows_out_flows, OC. split; [intros [->|H]; auto|intros [H|[_ ->]]; auto].
        -- intros f. rewrite net_cons. cbn [cutoff ff_flow ff_dir ff_mag andb]. rewrite net_out_flows by exact ND. rewrite NUM, SD. rewrite (Nat.eqb_sym f rf). destruct (Nat.eqb rf f); fold m; ring.
        -- intros x [<-|J]; [auto|apply (OUT _ _ J)].
    + intros E; injection E as <- <-. split; [exact INT|]. split; [|split].
      * intros f. unfold occurs at 1. cbn [map cutoff ff_flow In]. rewrite flows_out_flows, OC. split; [intros [->|H]; auto|intros [H|[_ ->]]; auto].
      * intros f. rewrite net_cons. cbn [cutoff ff_flow ff_dir ff_mag andb]. rewrite net_out_flows by exact ND. rewrite NUM. rewrite (Nat.eqb_sym f rf). destruct (Nat.eqb rf f); fold m; ring.
      * intros x [<-|J]; [auto|apply (OUT _ _ J)].
  - split; [exact INT|]. split; [|split; [|apply OUT]].
    + intros f. unfold occurs at 1. rewrite flows_out_flows, OC. split; [auto|intros [H|[H _]]; [auto|discriminate]].
    + intros f. rewrite net_out_flows, NUM by exact ND. cbn [andb]. ring.
Qed.
Print Assumptions C40_net_amounts.
(** Each flow once, with nonnegative magnitude: without the reference flow always; with it, unless the reference flow is among the
    cut-offs and at least as large as the reference (pass-through), and provided the reference magnitude is not negative. *)
Theorem C40_each_flow_once_partial parent rf rd incl ffs ext internal :
  group_ios parent rf rd incl ffs = FOk (ext, internal) ->
  (incl = true -> forall x, hd_error ffs = Some x -> 0 <= ff_mag x /\ (~ occurs rf (cutoffs ffs) \/ Qcabs (net rf (cutoffs ffs)) < ff_mag x)) ->
  NoDup (map ff_flow ext) /\ (forall x, In x ext -> 0 <= ff_mag x).
Proof.
  destruct (ios_out_spec ffs) as [ND [OC NT]].
  assert (POS : forall d x, In x (out_flows parent d) -> 0 <= ff_mag x) by (intros d x J; apply in_map_iff in J as [e [<- _]]; apply Qcabs_nonneg).
  unfold group_ios. destruct incl.
  - destruct ffs as [|x0 l] eqn:EF; [discriminate|]. rewrite <- EF in *. intros G H. specialize (H eq_refl x0). rewrite EF in H at 1. destruct (H eq_refl) as [H1 H2].
    destruct (dget rf (ios_out ffs)) as [v|] eqn:DR.
    + destruct (eqb_spec (sign_dir v) rd) as [SD|]; [|discriminate]. assert (O : occurs rf (cutoffs ffs)) by (apply OC, dget_Some_key with v; exact DR).
      destruct H2 as [H2|H2]; [contradiction|]. rewrite <- (NT rf v DR) in H2. destruct (Qclt_le_dec (Qcabs v) (ff_mag x0)) as [L|L].
      * injection G as <- <-. rewrite flows_out_flows, dkeys_dset_in by congruence. split; [exact ND|apply POS].
      * exfalso. apply (Qcle_not_lt _ _ L H2).
    + injection G as <- <-. cbn [map cutoff ff_flow]. rewrite flows_out_flows. split; [constructor; auto; apply dget_None; exact DR|].
      intros x [<-|J]; [exact H1|apply (POS _ _ J)].
  - intros G _. injection G as <- <-. rewrite flows_out_flows. split; [exact ND|apply POS].
Qed.
Print Assumptions C40_each_flow_once_partial.
(** Grouping is refused exactly when the reference flow is among the cut-offs and its net (zero counting as an input) runs against
    the reference direction. *)
Theorem C40_refused_iff parent rf rd ffs x l : ffs = x :: l ->
  (group_ios parent rf rd true ffs = FErr CumulatingFlows <->
     occurs rf (cutoffs ffs) /\ (net rf (cutoffs ffs) < 0 <-> rd = Input)).
Proof.
  intros EF. destruct (ios_out_spec ffs) as [ND [OC NT]]. unfold group_ios. rewrite EF at 1. cbn iota. split.
  - destruct (dget rf (ios_out ffs)) as [v|] eqn:DR; [|discriminate]. destruct (eqb_spec (sign_dir v) rd) as [SD|SD]; [destruct (Qclt_le_dec _ _); discriminate|].
    intros _. split; [apply OC, dget_Some_key with v; exact DR|]. rewrite <- (NT rf v DR). unfold sign_dir in SD. destruct (Qclt_le_dec v (Q2Qc 0)) as [L|L].
    + split; [intros _; destruct rd; congruence|intros _; exact L].
    + split; [intros L'; exfalso; apply (Qcle_not_lt _ _ L L')|intros ->; congruence].
  - intros [O S]. apply OC in O. destruct (dget_key_Some _ _ O) as [v DR]. rewrite DR. rewrite <- (NT rf v DR) in S.
    destruct (eqb_spec (sign_dir v) rd) as [SD|SD]; [|reflexivity]. exfalso. unfold sign_dir in SD. destruct (Qclt_le_dec v (Q2Qc 0)) as [L|L].
    + apply S in L. congruence.
    + assert (X : v < 0) by (apply S; congruence). apply (Qcle_not_lt _ _ L X).
Qed.
Print Assumptions C40_refused_iff.
(** Refuted in general: a trivial (cut-off) fragment passes its reference flow through and lists it twice. *)
Definition h40 : heap := fun i => match i with 1%nat => Some (new_frag 10 Output) | _ => None end.
Theorem C40_refuted_pass_through : exists ext internal, unit_inv (fun _ _ => 1) (fun _ => 0%nat) 3 h40 ScNone false 1 = FOk (ext, internal)
  /\ map (fun x => (ff_flow x, ff_dir x)) ext = [(10%nat, Input); (10%nat, Output)].
Proof. eexists _, _. split; vm_compute; reflexivity. Qed.
(** Refuted: when the cut-offs of the reference flow cancel out, the inventory of an output fragment is refused. *)
Theorem C40_refuted_cancelling : exists ffs, net 10 (cutoffs ffs) = 0 /\ group_ios 1 10 Output true ffs = FErr CumulatingFlows
  /\ exists r, group_ios 1 10 Input true ffs = FOk r.
Proof.
  exists [FF (Real 1) 10 Output 1 1 (Tm (NFrag 1) 10 Input true) false []; FF (Real 2) 10 Input 1 1 (null_term 10 Input) false []; FF (Real 3) 10 Output 1 1 (null_term 10 Output) false []].
  split; [apply Qc_is_canon; reflexivity|]. split; [vm_compute; reflexivity|]. eexists; vm_compute; reflexivity.
Qed.
Example C40_example : exists ext internal, unit_inv (fun _ _ => 1) (fun _ => 0%nat) 5 h38 ScNone false 2 = FOk (ext, internal)
  /\ map ff_flow ext = [10%nat; 12%nat] /\ map ff_dir ext = [Input; Input] /\ map ff_ref internal = [Real 1; Real 2].
Proof. eexists _, _. split; [vm_compute; reflexivity|]. repeat split; reflexivity. Qed.

(** * C42: scenario precedence *)
(** the stored keys that a scenario argument names *)
Definition named (sc : scen) : list skey := match sc with ScNone => [] | ScKey k => [k] | ScSet ks => ks end.
Definition defined (f : frag) (k : skey) : Prop := exists v, In (k, v) (f_evs f).
Lemma defined_din f k : NoDup (dkeys (f_evs f)) -> (defined f k <-> din k (f_evs f) = true).
Proof.
  intros ND. unfold defined, din. split.
  - intros [v J]. rewrite (In_dget _ _ _ ND J). reflexivity.
  - destruct (dget k (f_evs f)) as [v|] eqn:E; [|discriminate]. intros _. exists v. apply dget_In; exact E.
Qed.
Lemma filter_single {A} (p : A -> bool) l x : NoDup l -> In x l -> p x = true -> (forall y, In y l -> p y = true -> y = x) -> filter p l = [x].
Proof.
  induction l as [|a l IH]; intros ND J P U; [destruct J|]. inversion ND as [|? ? NI ND']; subst. cbn [filter]. destruct (p a) eqn:PA.
  - assert (a = x) by (apply U; cbn; auto). subst a. f_equal. destruct (filter p l) as [|b m] eqn:F; auto. exfalso.
    assert (B : In b (filter p l)) by (rewrite F; cbn; auto). apply filter_In in B as [B1 B2]. apply NI. rewrite <- (U b); cbn; auto.
  - apply IH; auto; [destruct J as [->|J]; [congruence|auto]|]. intros y Y. apply U. cbn; auto.
Qed.
(** exchange_value(scenario): the value of the one named key the fragment defines; none: observed or cached as requested; two: conflict *)
Theorem C42_exchange_value f sc obs : NoDup (dkeys (f_evs f)) -> NoDup (named sc) ->
  ((forall k, In k (named sc) -> ~ defined f k) -> exchange_value f sc obs = FOk (if obs then num (observed_ev f) else cached_ev f))
  /\ (forall k v, In k (named sc) -> In (k, v) (f_evs f) -> (forall k', In k' (named sc) -> defined f k' -> k' = k) -> exchange_value f sc obs = FOk (num v))
  /\ (forall k k', In k (named sc) -> In k' (named sc) -> k <> k' -> defined f k -> defined f k' -> exchange_value f sc obs = FErr ScenarioConflict).
Proof.
  intros ND NS. unfold exchange_value. split; [|split].
  - intros N. destruct sc as [|k|ks]; cbn [match_ev named] in *; [reflexivity| |].
    + destruct (din k (f_evs f)) eqn:E; [exfalso; apply (N k); cbn; auto; apply defined_din; auto|reflexivity].
    + destruct (filter (fun k => din k (f_evs f)) ks) as [|k l] eqn:F; [reflexivity|]. exfalso. assert (J : In k (filter (fun k => din k (f_evs f)) ks)) by (rewrite F; cbn; auto).
      apply filter_In in J as [J1 J2]. apply (N k); auto. apply defined_din; auto.
  - intros k v J V U. assert (DK : dget k (f_evs f) = Some v) by (apply In_dget; auto). assert (DN : din k (f_evs f) = true) by (unfold din; rewrite DK; reflexivity).
    destruct sc as [|k0|ks]; cbn [match_ev named] in *; [destruct J| |].
    + destruct J as [->|[]]. rewrite DN. cbn [ev_for]. rewrite DK. reflexivity.
    + rewrite (filter_single _ _ k NS J DN); [cbn [ev_for]; rewrite DK; reflexivity|]. intros y Y D. apply U; auto. apply defined_din; auto.
  - intros k k' J J' NE D D'. apply defined_din in D, D'; auto. destruct sc as [|k0|ks]; cbn [match_ev named] in *; [destruct J|exfalso; destruct J as [->|[]], J' as [->|[]]; congruence|].
    destruct (filter (fun k => din k (f_evs f)) ks) as [|a [|b l]] eqn:F; [| |reflexivity]; exfalso.
    + assert (X : In k []) by (rewrite <- F; apply filter_In; auto). destruct X.
    + assert (X : In k [a]) by (rewrite <- F; apply filter_In; auto). assert (X' : In k' [a]) by (rewrite <- F; apply filter_In; auto).
      destruct X as [->|[]], X' as [->|[]]. congruence.
Qed.
Print Assumptions C42_exchange_value.
(** termination(scenario), for scenario arguments other than 0 and "0": same rule, the default being the termination under None *)
Definition terminated_for (f : frag) (k : skey) : Prop := exists t, In (Some k, t) (f_terms f).
Theorem C42_termination f sc t0 : NoDup (dkeys (f_terms f)) -> NoDup (named sc) -> In (None, t0) (f_terms f) -> sc <> ScKey K0 -> sc <> ScKey (KS "0") ->
  ((forall k, In k (named sc) -> ~ terminated_for f k) -> termination f sc = FOk t0)
  /\ (forall k t, In k (named sc) -> In (Some k, t) (f_terms f) -> (forall k', In k' (named sc) -> terminated_for f k' -> k' = k) -> termination f sc = FOk t)
  /\ (forall k k', In k (named sc) -> In k' (named sc) -> k <> k' -> terminated_for f k -> terminated_for f k' -> termination f sc = FErr ScenarioConflict).
Proof.
  intros ND NS N0 Z0 Z1. assert (TD : forall k, terminated_for f k <-> din (Some k) (f_terms f) = true).
  { intros k. unfold terminated_for, din. split; [intros [v J]; rewrite (In_dget _ _ _ ND J); reflexivity|]. destruct (dget (Some k) (f_terms f)) as [v|] eqn:E; [|discriminate].
    intros _. exists v. apply dget_In; exact E. }
  assert (D0 : dget None (f_terms f) = Some t0) by (apply In_dget; auto). unfold termination.
  assert (SIMP : match_term f sc = match sc with ScNone => FOk None | ScKey k => FOk (if din (Some k) (f_terms f) then Some k else None)
                   | ScSet ks => match filter (fun k => din (Some k) (f_terms f)) ks with [] => FOk None | [k] => FOk (Some k) | _ => FErr ScenarioConflict end end).
  { destruct sc as [|k|ks]; auto. cbn [match_term]. destruct (eqb_spec k K0); [congruence|]. destruct (eqb_spec k (KS "0")); [congruence|]. reflexivity. }
  rewrite SIMP. clear SIMP. split; [|split].
  - intros N. destruct sc as [|k|ks]; cbn [named] in *; [rewrite D0; reflexivity| |].
    + destruct (din (Some k) (f_terms f)) eqn:E; [exfalso; apply (N k); cbn; auto; apply TD; auto|rewrite D0; reflexivity].
    + destruct (filter (fun k => din (Some k) (f_terms f)) ks) as [|k l] eqn:F; [rewrite D0; reflexivity|]. exfalso.
      assert (J : In k (filter (fun k => din (Some k) (f_terms f)) ks)) by (rewrite F; cbn; auto). apply filter_In in J as [J1 J2]. apply (N k); auto. apply TD; auto.
  - intros k v J V U. assert (DK : dget (Some k) (f_terms f) = Some v) by (apply In_dget; auto). assert (DN : din (Some k) (f_terms f) = true) by (unfold din; rewrite DK; reflexivity).
    destruct sc as [|k0|ks]; cbn [named] in *; [destruct J| |].
    + destruct J as [->|[]]. rewrite DN, DK. reflexivity.
    + rewrite (filter_single _ _ k NS J DN); [rewrite DK; reflexivity|]. intros y Y D. apply U; auto. apply TD; auto.
  - intros k k' J J' NE D D'. apply TD in D, D'. destruct sc as [|k0|ks]; cbn [named] in *; [destruct J|exfalso; destruct J as [->|[]], J' as [->|[]]; congruence|].
    destruct (filter (fun k => din (Some k) (f_terms f)) ks) as [|a [|b l]] eqn:F; [| |reflexivity]; exfalso.
    + assert (X : In k []) by (rewrite <- F; apply filter_In; auto). destruct X.
    + assert (X : In k [a]) by (rewrite <- F; apply filter_In; auto). assert (X' : In k' [a]) by (rewrite <- F; apply filter_In; auto).
      destruct X as [->|[]], X' as [->|[]]. congruence.
Qed.
Print Assumptions C42_termination.
Definition f42 : frag := Fr None [] 10 Output false false None [(K0, Some (Q2Qc 2)); (K1, Some (Q2Qc 4)); (KS "a", Some (Q2Qc 7)); (KS "b", Some 0)]
  [(None, null_term 10 Output); (Some (KS "a"), Tm (NProc 5) 10 Input true)].
Example C42_example : exchange_value f42 (ScSet [KS "x"; KS "b"]) false = FOk 0 /\ exchange_value f42 (ScKey (KS "x")) true = FOk (Q2Qc 4)
  /\ exchange_value f42 (ScSet [KS "a"; KS "b"]) true = FErr ScenarioConflict /\ termination f42 (ScSet [KS "a"; KS "b"]) = FOk (Tm (NProc 5) 10 Input true)
  /\ NoDup (dkeys (f_evs f42)) /\ NoDup (dkeys (f_terms f42)).
Proof. repeat split; try (vm_compute; reflexivity); cbn; repeat constructor; cbn; intuition discriminate. Qed.

(** * C43: a stored exchange value reads back *)
Lemma with_evs_ev f e : f_evs (with_evs f e) = e. Proof. reflexivity. Qed.
(** for every named scenario except the digit strings "0" and "1", and for 0 and 1 themselves *)
Theorem C43_reads_back_partial h i k v h' : k <> KS "0" -> k <> KS "1" -> set_exchange_value h i (ScKey k) (Some v) = (h', FOk tt) ->
  exists f', h' i = Some f' /\ forall obs, exchange_value f' (ScKey k) obs = FOk v
    /\ (forall k', k' <> k -> din k' (f_evs f') = true -> exists f, h i = Some f /\ exchange_value f' (ScKey k') obs = exchange_value f (ScKey k') obs).
Proof.
  intros N0 N1. unfold set_exchange_value. destruct (h i) as [f|] eqn:HI; [|discriminate]. destruct (observable h f (ScKey k)) as [[|]|]; try discriminate.
  destruct (eqb_spec k (KS "0")); [contradiction|]. destruct (eqb_spec k (KS "1")); [contradiction|].
  destruct k as [| |s|l]; intros E; try discriminate; injection E as <-; (eexists; split; [unfold hset; rewrite Nat.eqb_refl; reflexivity|]; intros obs; unfold exchange_value, match_ev; rewrite !with_evs_ev; unfold din at 1;
    rewrite dget_dset_same; cbn [ev_for]; rewrite with_evs_ev, dget_dset_same; split; [reflexivity|]; intros k' NE D; exists f; split; [reflexivity|]; unfold din in *; rewrite dget_dset_other in * by exact NE;
    destruct (dget k' (f_evs f)) eqn:DK; [|discriminate]; cbn [ev_for]; rewrite with_evs_ev, dget_dset_other, DK by exact NE; reflexivity).
Qed.
Print Assumptions C43_reads_back_partial.
(** the cached value reads back through the default scenario unless it is zero *)
Theorem C43_cached_reads_back h i v h' : v <> 0 -> set_exchange_value h i ScNone (Some v) = (h', FOk tt) ->
  exists f', h' i = Some f' /\ exchange_value f' ScNone false = FOk v.
Proof.
  intros NZ. unfold set_exchange_value. destruct (h i) as [f|]; [|discriminate]. destruct (observable h f ScNone) as [[|]|]; try discriminate. intros E; injection E as <-.
  eexists. split; [unfold hset; rewrite Nat.eqb_refl; reflexivity|]. unfold exchange_value. cbn [match_ev ev_for]. unfold cached_ev. rewrite with_evs_ev, dget_dset_same.
  destruct (eqb_spec v (Q2Qc 0)); [contradiction|]. reflexivity.
Qed.
Print Assumptions C43_cached_reads_back.
(** Refuted: a cached exchange value of zero reads back as one *)
Theorem C43_refuted_zero : exists h i h' f', set_exchange_value h i ScNone (Some 0) = (h', FOk tt) /\ h' i = Some f' /\ exchange_value f' ScNone false = FOk 1.
Proof. exists h40, 1%nat. eexists _, _. split; [reflexivity|]. split; vm_compute; reflexivity. Qed.
(** Refuted: a value stored for scenario "1" does not read back under that name *)
Theorem C43_refuted_scenario_1 : exists h i h' f', set_exchange_value h i (ScKey (KS "1")) (Some (Q2Qc 5)) = (h', FOk tt) /\ h' i = Some f'
  /\ exchange_value f' (ScKey (KS "1")) false = FOk 1.
Proof. exists h40, 1%nat. eexists _, _. split; [reflexivity|]. split; vm_compute; reflexivity. Qed.
Example C43_example : exists h' , set_exchange_value h40 1 (ScKey (KS "low")) (Some 0) = (h', FOk tt).
Proof. eexists. vm_compute. reflexivity. Qed.

(** * C45: parent and child links *)
Inductive lcall := LNew (i flow : nat) (d : dirn) | LSet (i p : nat) | LUnset (i : nat).
Definition lrun (h : heap) (c : lcall) : heap * fret unit :=
  match c with LNew i fl d => create_frag h i fl d | LSet i p => set_parent h i p | LUnset i => unset_parent h i end.
Fixpoint lruns (h : heap) (cs : list lcall) : heap := match cs with [] => h | c :: r => lruns (fst (lrun h c)) r end.
(** links agree: [c] is listed under [p] iff [p] is the parent of [c] *)
Definition parent_of (h : heap) (c : nat) : option nat := match h c with Some f => f_parent f | None => None end.
Definition listed (h : heap) (p c : nat) : Prop := exists f, h p = Some f /\ In c (child_flows f).
Definition links_agree (h : heap) : Prop := forall p c, listed h p c <-> parent_of h c = Some p.
Lemma In_insert x y l : In y (insert x l) <-> y = x \/ In y l.
Proof.
  induction l as [|a l IH]; cbn [insert In]; [intuition auto|]. destruct (Nat.leb x a); cbn [In]; [intuition auto|]. rewrite IH. intuition auto.
Qed.
Lemma In_child_flows f c : In c (child_flows f) <-> In c (f_children f).
Proof. unfold child_flows. induction (f_children f) as [|a l IH]; cbn [fold_right In]; [tauto|]. rewrite In_insert, IH. intuition auto. Qed.
Definition raw_links (h : heap) : Prop := forall p c, (exists f, h p = Some f /\ In c (f_children f)) <-> parent_of h c = Some p.
Lemma raw_links_agree h : raw_links h -> links_agree h.
Proof. intros R p c. rewrite <- (R p c). unfold listed. split; intros [f [F J]]; exists f; split; auto; apply In_child_flows; auto. Qed.
Lemma hset_same h i f : hset h i f i = Some f. Proof. unfold hset. rewrite Nat.eqb_refl. reflexivity. Qed.
Lemma hset_other h i f j : j <> i -> hset h i f j = h j. Proof. intros N. unfold hset. destruct (Nat.eqb_spec j i); congruence. Qed.
(** a call that sets a parent is admissible only for a fragment that has none (and not for itself) *)
Definition lok (h : heap) (c : lcall) : Prop := match c with LSet i p => parent_of h i = None /\ i <> p | _ => True end.
Fixpoint loks (h : heap) (cs : list lcall) : Prop := match cs with [] => True | c :: r => lok h c /\ loks (fst (lrun h c)) r end.
Definition no_self (h : heap) : Prop := forall i, parent_of h i <> Some i.
Lemma lrun_links h c : raw_links h -> no_self h -> lok h c -> raw_links (fst (lrun h c)) /\ no_self (fst (lrun h c)).
Proof.
  intros R NS OK. destruct c as [i fl d|i p|i]; cbn [lrun].
  - unfold create_frag. destruct (h i) as [f|] eqn:HI; [auto|]. cbn [fst]. split.
    + intros p c. unfold parent_of. destruct (Nat.eq_dec p i) as [->|NP].
      * rewrite hset_same. assert (N : parent_of h c <> Some i).
        { intros E. apply R in E as [f [F _]]. congruence. }
        unfold parent_of in N. destruct (Nat.eq_dec c i) as [->|NC]; [rewrite hset_same|rewrite hset_other by auto].
        -- split; [intros [f [F J]]; injection F as <-; destruct J|discriminate].
        -- split; [intros [f [F J]]; injection F as <-; destruct J|contradiction].
      * rewrite hset_other by auto. specialize (R p c). destruct (Nat.eq_dec c i) as [->|NC]; [rewrite hset_same|rewrite hset_other by auto; exact R].
        unfold parent_of in R. rewrite HI in R. exact R.
    + intros j. unfold parent_of. destruct (Nat.eq_dec j i) as [->|NJ]; [rewrite hset_same; discriminate|rewrite hset_other by auto; apply NS].
  - destruct OK as [OK NE]. unfold set_parent. destruct (h i) as [f|] eqn:HI; [|auto]. destruct (h p) as [pf|] eqn:HP; [|auto].
    rewrite hset_other by auto. rewrite HP. cbn [fst]. set (h1 := hset h i (with_parent f (Some p))).
    assert (PO : forall c, parent_of (hset h1 p (with_children pf (set_add i (f_children pf)))) c = if Nat.eqb c i then Some p else parent_of h c).
    { intros c. unfold parent_of. destruct (Nat.eqb_spec c i) as [->|NC].
      - rewrite hset_other by auto. unfold h1. rewrite hset_same. reflexivity.
      - destruct (Nat.eq_dec c p) as [->|NP]; [rewrite hset_same, HP; reflexivity|]. rewrite hset_other by auto. unfold h1. rewrite hset_other by auto. reflexivity. }
    split.
    + intros q c. rewrite PO. specialize (R q c). destruct (Nat.eq_dec q p) as [->|NQ].
      * rewrite hset_same. split.
        -- intros [g [G J]]. injection G as <-. cbn [with_children f_children] in J. apply In_set_add in J as [->|J]; [rewrite Nat.eqb_refl; reflexivity|].
           destruct (Nat.eqb_spec c i) as [->|]; [reflexivity|]. apply R. eauto.
        -- intros E. exists (with_children pf (set_add i (f_children pf))). split; auto. cbn [with_children f_children]. apply In_set_add.
           destruct (Nat.eqb_spec c i); [auto|]. apply R in E as [g [G J]]. right. congruence.
      * rewrite hset_other by auto. destruct (Nat.eq_dec q i) as [->|NI].
        -- unfold h1. rewrite hset_same. split.
           ++ intros [g [G J]]. injection G as <-. cbn [with_parent f_children] in J. assert (E : parent_of h c = Some i) by (apply R; eauto).
              destruct (Nat.eqb_spec c i) as [->|]; [exfalso; apply (NS i); exact E|exact E].
           ++ intros E. destruct (Nat.eqb_spec c i); [congruence|]. apply R in E as [g [G J]]. exists (with_parent f (Some p)). split; auto. cbn. congruence.
        -- unfold h1. rewrite hset_other by auto. rewrite R. destruct (Nat.eqb_spec c i) as [->|]; [|tauto]. split; [congruence|intros X; injection X as X; congruence].
    + intros j. rewrite PO. destruct (Nat.eqb_spec j i) as [->|]; [congruence|apply NS].
  - unfold unset_parent. destruct (h i) as [f|] eqn:HI; [|auto]. destruct (f_parent f) as [p|] eqn:FP; [|auto]. destruct (h p) as [pf|] eqn:HP; [|auto].
    assert (PI : parent_of h i = Some p) by (unfold parent_of; rewrite HI; exact FP). assert (NE : i <> p) by (intros ->; apply (NS p); exact PI).
    destruct (mem_spec i (f_children pf)) as [M|M]; [|auto]. rewrite hset_other by auto. rewrite HI. cbn [fst].
    set (h1 := hset h p (with_children pf (set_remove i (f_children pf)))).
    assert (PO : forall c, parent_of (hset h1 i (with_parent f None)) c = if Nat.eqb c i then None else parent_of h c).
    { intros c. unfold parent_of. destruct (Nat.eqb_spec c i) as [->|NC]; [rewrite hset_same; reflexivity|]. rewrite hset_other by auto. unfold h1.
      destruct (Nat.eq_dec c p) as [->|NP]; [rewrite hset_same, HP; reflexivity|]. rewrite hset_other by auto. reflexivity. }
    split.
    + intros q c. rewrite PO. specialize (R q c). destruct (Nat.eq_dec q i) as [->|NI].
      * rewrite hset_same. split.
        -- intros [g [G J]]. injection G as <-. cbn [with_parent f_children] in J. assert (E : parent_of h c = Some i) by (apply R; eauto).
           destruct (Nat.eqb_spec c i) as [->|]; [exfalso; apply (NS i); exact E|exact E].
        -- intros E. destruct (Nat.eqb_spec c i); [discriminate|]. apply R in E as [g [G J]]. exists (with_parent f None). split; auto. cbn. congruence.
      * rewrite hset_other by auto. unfold h1. destruct (Nat.eq_dec q p) as [->|NQ].
        -- rewrite hset_same. split.
           ++ intros [g [G J]]. injection G as <-. cbn [with_children f_children] in J. apply In_set_remove in J as [J1 J2]. destruct (Nat.eqb_spec c i); [contradiction|]. apply R. eauto.
           ++ intros E. destruct (Nat.eqb_spec c i); [discriminate|]. apply R in E as [g [G J]]. eexists. split; [reflexivity|]. cbn. apply In_set_remove. split; auto. congruence.
        -- rewrite hset_other by auto. rewrite R. destruct (Nat.eqb_spec c i) as [->|]; [|tauto]. split; [congruence|discriminate].
    + intros j. rewrite PO. destruct (Nat.eqb_spec j i); [discriminate|apply NS].
Qed.
(** After every history of creations, set_parent (of fragments without a parent) and unset_parent, calls that raise included: a
    fragment is listed among the children of exactly its current parent. *)
Theorem C45_links_agree_partial cs : loks (fun _ => None) cs -> links_agree (lruns (fun _ => None) cs).
Proof.
  assert (G : forall h, raw_links h -> no_self h -> loks h cs -> raw_links (lruns h cs)).
  { induction cs as [|c cs IH]; intros h R NS OK; cbn [lruns]; auto. destruct OK as [O1 O2]. destruct (lrun_links h c R NS O1) as [R1 N1]. apply IH; auto. }
  intros OK. apply raw_links_agree, G; auto; [|intros i; cbn; discriminate]. intros p c. cbn. split; [intros [f [F _]]; discriminate|discriminate].
Qed.
Print Assumptions C45_links_agree_partial.
(** Refuted in general: moving a fragment to another parent leaves it listed under both. *)
Theorem C45_refuted_move : exists cs, let h := lruns (fun _ => None) cs in
  parent_of h 3 = Some 2%nat /\ listed h 2 3 /\ listed h 1 3.
Proof.
  exists [LNew 1 10 Output; LNew 2 10 Output; LNew 3 11 Input; LSet 3 1; LSet 3 2]. cbn zeta. split; [reflexivity|].
  split; eexists; (split; [vm_compute; reflexivity|cbn; auto]).
Qed.
Example C45_example : loks (fun _ => None) [LNew 1 10 Output; LNew 2 10 Output; LNew 3 11 Input; LSet 3 1; LUnset 3; LUnset 3; LSet 3 2]
  /\ listed (lruns (fun _ => None) [LNew 1 10 Output; LNew 2 10 Output; LNew 3 11 Input; LSet 3 1; LUnset 3; LUnset 3; LSet 3 2]) 2 3.
Proof. split; [cbn; repeat split; auto|]. eexists. split; [vm_compute; reflexivity|cbn; auto]. Qed.

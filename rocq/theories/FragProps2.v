(** Property C39: balance flows conserve the quantity (model: FragModel.v). *)
From Verif Require Import Num Base PyStr ProcModel FragModel FragProofs FragProps.
From Coq Require Import Permutation.
Open Scope Qc_scope.
Open Scope string_scope.
Open Scope list_scope.

(** * Specification *)
(** [f] (number [i]) is terminated, in this scenario, to another fragment which is a background fragment *)
Definition to_background (h : heap) (i : nat) (f : frag) (sc : scen) : Prop :=
  exists t j g, termination f sc = FOk t /\ t_node t = NFrag j /\ j <> i /\ h j = Some g /\ f_bg g = true.
(** inflow (positive) or outflow (negative) of quantity [q] carried by a fragment flow, seen from its parent node *)
Definition carried (cf : nat -> nat -> Qc) (q : nat) (x : ffl) : Qc :=
  match ff_dir x with Input => ff_mag x * cf (ff_flow x) q | Output => - (ff_mag x * cf (ff_flow x) q) end.
Definition heads (parts : list (list ffl)) : list ffl := flat_map (fun p => match p with x :: _ => [x] | [] => [] end) parts.

Section P.
Context (cf : nat -> nat -> Qc) (refq : nat -> nat).
Notation trav := (trav cf refq). Notation trav_node := (trav_node cf refq).

(** the first fragment flow of a traversal is that of the fragment itself *)
Lemma fg_loop_prefix rec nw seen q cs : forall ffs stock b l s b', fg_loop rec nw seen q cs ffs stock b = FOk (l, s, b') -> exists r, l = ffs ++ r.
Proof.
  induction cs as [|c cs IH]; intros ffs stock b l s b' E; cbn [fg_loop] in E; [injection E as <- <- <-; exists []; rewrite app_nil_r; reflexivity|].
  destruct (rec c nw seen q None) as [[l0 cv]|e].
  - apply IH in E as [r ->]. exists (l0 ++ r). rewrite app_assoc. reflexivity.
  - destruct e; try discriminate. apply IH in E. exact E.
Qed.
Lemma sub_loop_prefix rec h dn seen cs : forall ffs inv l inv', sub_loop rec h dn seen cs ffs inv = FOk (l, inv') -> exists r, l = ffs ++ r.
Proof.
  induction cs as [|c cs IH]; intros ffs inv l inv' E; cbn [sub_loop] in E; [injection E as <- <-; exists []; rewrite app_nil_r; reflexivity|].
  destruct (h c) as [g|]; [|discriminate]. destruct (find_flow (f_flow g) inv) as [m|]; [|apply IH in E; exact E].
  destruct (rec c dn seen None _) as [[l0 cv]|e]; [|discriminate]. apply IH in E as [r ->]. exists (l0 ++ r). rewrite app_assoc. reflexivity.
Qed.
Lemma trav_fg_head rec h sc obs i f x seen l : trav_fg cf rec h sc obs i f x seen = FOk l -> exists r, l = x :: r.
Proof.
  unfold trav_fg. destruct (if is_fg i (ff_term x) then _ else _) as [s0|]; [|discriminate].
  destruct (fg_loop rec (ff_nw x) seen (f_cons f) (child_flows f) [x] _ None) as [[[ffs s] b]|e] eqn:L; [|discriminate]. apply fg_loop_prefix in L as [r ->].
  destruct b as [b|]; [|intros E; injection E as <-; exists r; reflexivity].
  destruct (rec b (ff_nw x) seen None _) as [[l0 cv]|]; [|discriminate]. intros E; injection E as <-. exists (r ++ l0). reflexivity.
Qed.
Lemma head_spec rec fuel h sc obs c nw seen q bal l cv g :
  trav_node rec fuel h sc obs c nw seen q bal = FOk (l, cv) -> h c = Some g -> ~ to_background h c g sc ->
  exists ev x rest, l = x :: rest /\ ff_ref x = Real c /\ ff_flow x = f_flow g /\ ff_dir x = f_dir g /\ ff_mag x = nw * ev
    /\ (forall b, bal = Some b -> ev = b)
    /\ (forall q', q = Some q' -> f_isbal g = false /\ cv = Some (signed (f_dir g) (ev * cf (f_flow g) q'))).
Proof.
  intros E HC NB. unfold FragModel.trav_node in E. rewrite HC in E. destruct (_ && mem c seen); [discriminate|].
  set (seen' := if match f_parent g with None => true | Some _ => false end then c :: seen else seen) in E. clearbody seen'.
  destruct (match bal with Some b => FOk b | None => _ end) as [ev|] eqn:EV; [|discriminate].
  destruct (match_term g sc) as [m|] eqn:MT; [|discriminate]. destruct (dget m (f_terms g)) as [t|] eqn:DT; [|discriminate].
  destruct (if match f_parent g with None => true | Some _ => false end then FOk nw else _) as [w|] eqn:W; [|discriminate].
  destruct (conservation cf h g ev q) as [[cv' kept]|] eqn:CO; [|discriminate].
  set (x := FF (Real c) (f_flow g) (f_dir g) (nw * ev) w t kept []) in E.
  exists ev. assert (X : cv = cv' /\ exists y rest, l = y :: rest /\ ff_ref y = Real c /\ ff_flow y = f_flow g /\ ff_dir y = f_dir g /\ ff_mag y = nw * ev).
  { assert (X0 : forall r, l = x :: r -> exists y rest, l = y :: rest /\ ff_ref y = Real c /\ ff_flow y = f_flow g /\ ff_dir y = f_dir g /\ ff_mag y = nw * ev) by (intros r ->; exists x, r; auto).
    destruct (is_null t || f_bg g || eqb (nw * ev) (Q2Qc 0)); [injection E as <- <-; split; [reflexivity|]; apply (X0 []); reflexivity|].
    destruct (t_node t) as [|p|j] eqn:TN.
    - injection E as <- <-; split; [reflexivity|]; apply (X0 []); reflexivity.
    - destruct (trav_fg cf rec h sc obs c g x seen') as [l0|] eqn:TF; [|discriminate]. injection E as <- <-. split; [reflexivity|]. apply trav_fg_head in TF as [r ->]. apply (X0 r). reflexivity.
    - destruct (Nat.eqb_spec j c) as [->|NE].
      + destruct (trav_fg cf rec h sc obs c g x seen') as [l0|] eqn:TF; [|discriminate]. injection E as <- <-. split; [reflexivity|]. apply trav_fg_head in TF as [r ->]. apply (X0 r). reflexivity.
      + destruct (trav_sub rec fuel h c g x j seen') as [l0|] eqn:TS; [|discriminate]. injection E as <- <-. split; [reflexivity|]. unfold trav_sub in TS. destruct (h j) as [gj|] eqn:HJ; [|discriminate].
        destruct (f_bg gj) eqn:BG. { exfalso. apply NB. exists t, j, gj. unfold termination. rewrite MT, DT. auto. }
        unfold do_subfrag in TS. destruct (unit_inventory rec fuel h j) as [[inv internal]|]; [|discriminate]. destruct (find_flow (t_flow (ff_term x)) inv) as [mf|]; [|discriminate].
        destruct (eqb (ff_mag mf) (Q2Qc 0)); [discriminate|]. set (dn := ff_nw x / _) in TS. clearbody dn. destruct (t_desc (ff_term x)).
        * destruct (sub_loop rec h dn seen' (child_flows g) _ _) as [[l1 inv']|] eqn:SL; [|discriminate]. injection TS as <-. apply sub_loop_prefix in SL as [r ->]. apply (X0 ((map (fscale dn) internal ++ r) ++ map (fscale dn) inv')). reflexivity.
        * unfold x in TS. destruct (sub_loop rec h dn seen' (child_flows g) _ _) as [[l1 inv']|] eqn:SL; [|discriminate]. injection TS as <-. apply sub_loop_prefix in SL as [r ->].
          exists (FF (Real c) (f_flow g) (f_dir g) (nw * ev) dn t kept internal), (r ++ map (fscale dn) inv'). auto. }
  destruct X as [<- [y [rest [L [H1 [H2 [H3 H4]]]]]]]. exists y, rest. repeat split; auto.
  - intros b ->. injection EV as ->. reflexivity.
  - subst q. unfold conservation in CO. destruct (f_isbal g); [discriminate|reflexivity].
  - subst q. unfold conservation in CO. destruct (f_isbal g); [discriminate|]. destruct (eqb_spec (ev * cf (f_flow g) q') (Q2Qc 0)) as [Z|Z]; injection CO as <- _.
    + f_equal. rewrite Z. destruct (f_dir g); cbn [signed]; ring.
    + destruct (f_dir g); reflexivity.
Qed.
(** the balance-flow signal comes only from a balance flow asked for a conserved value *)
Definition honest (h : heap) (rec : rect) : Prop := forall c nw seen q bal, rec c nw seen q bal = FErr FoundBalanceFlow -> q <> None /\ exists g, h c = Some g /\ f_isbal g = true.
Lemma fg_loop_honest rec nw seen q cs : forall ffs stock b, fg_loop rec nw seen q cs ffs stock b <> FErr FoundBalanceFlow.
Proof.
  induction cs as [|c cs IH]; intros ffs stock b; cbn [fg_loop]; [discriminate|]. destruct (rec c nw seen q None) as [[l cv]|e]; [apply IH|]. destruct e; try discriminate. apply IH.
Qed.
Lemma top_honest fuel h j : top fuel h j <> FErr FoundBalanceFlow.
Proof. revert j. induction fuel as [|n IH]; intros j; cbn [top]; [discriminate|]. destruct (h j) as [f|]; [|discriminate]. destruct (f_parent f); [apply IH|discriminate]. Qed.
Lemma match_ev_honest f sc : match_ev f sc <> FErr FoundBalanceFlow.
Proof. destruct sc; cbn; try discriminate. destruct (filter _ ks) as [|a [|b l]]; discriminate. Qed.
Lemma match_term_honest f sc : match_term f sc <> FErr FoundBalanceFlow.
Proof. destruct sc; cbn; try discriminate; [destruct (_ || _); discriminate|]. destruct (filter _ ks) as [|a [|b l]]; discriminate. Qed.
Lemma group_honest p rf rd ffs : group_ios p rf rd true ffs <> FErr FoundBalanceFlow.
Proof. unfold group_ios. destruct ffs as [|x l]; [discriminate|]. destruct (dget rf _); [|discriminate]. destruct (eqb _ _); [|discriminate]. destruct (Qclt_le_dec _ _); discriminate. Qed.
Lemma trav_honest n h sc obs : honest h (trav n h sc obs).
Proof.
  induction n as [|n IH]; intros c nw seen q bal E; cbn [FragModel.trav] in E; [discriminate|]. set (rec := trav n h sc obs) in *. clearbody rec.
  assert (RN : forall c nw seen bal, rec c nw seen None bal <> FErr FoundBalanceFlow) by (intros c0 nw0 seen0 bal0 X; apply IH in X as [X _]; congruence).
  unfold FragModel.trav_node in E. destruct (h c) as [g|] eqn:HC; [|discriminate]. destruct (_ && mem c seen); [discriminate|].
  set (seen' := if match f_parent g with None => true | Some _ => false end then c :: seen else seen) in E. clearbody seen'.
  assert (ME := match_ev_honest g sc). destruct (match bal with Some b => FOk b | None => _ end) as [ev|] eqn:EV.
  2:{ exfalso. destruct bal; [discriminate|]. destruct (match_ev g sc); congruence. }
  assert (MT := match_term_honest g sc). destruct (match_term g sc) as [m|]; [|congruence]. destruct (dget m (f_terms g)) as [t|] eqn:DT; [|discriminate].
  destruct (if match f_parent g with None => true | Some _ => false end then FOk nw else _) as [w|] eqn:W.
  2:{ exfalso. destruct (f_parent g); [|discriminate]. destruct (is_null t); [discriminate|]. assert (M : multiplier cf refq (f_flow g) t <> FErr FoundBalanceFlow).
      { unfold multiplier. destruct (Nat.eqb _ _); [discriminate|]. destruct (Nat.eqb _ _); [discriminate|]. destruct (eqb _ _); [destruct (eqb _ _)|]; discriminate. }
      destruct (multiplier cf refq (f_flow g) t); congruence. }
  destruct (conservation cf h g ev q) as [[cv kept]|e] eqn:CO.
  2:{ injection E as ->. unfold conservation in CO. destruct q as [q|].
      - split; [discriminate|]. exists g. split; auto. destruct (f_isbal g); [reflexivity|]. destruct (eqb _ _); discriminate.
      - exfalso. destruct (f_isbal g); [discriminate|]. unfold balance_flow in CO. destruct (f_cons g); [|discriminate]. destruct (filter _ _); [discriminate|discriminate]. }
  exfalso. set (x := FF (Real c) (f_flow g) (f_dir g) (nw * ev) w t kept []) in E. clearbody x.
  assert (FG : trav_fg cf rec h sc obs c g x seen' <> FErr FoundBalanceFlow).
  { unfold trav_fg. destruct (if is_fg c (ff_term x) then _ else _) as [s0|] eqn:S0.
    - set (st := match f_cons g with None => s0 | Some _ => _ end). assert (L := fg_loop_honest rec (ff_nw x) seen' (f_cons g) (child_flows g) [x] st None).
      destruct (fg_loop rec (ff_nw x) seen' (f_cons g) (child_flows g) [x] st None) as [[[ffs s] [b|]]|e]; [|discriminate|congruence].
      specialize (RN b (ff_nw x) seen' (Some (match h b with Some g0 => match f_dir g0 with Input => - s | Output => s end | None => s end))). destruct (rec b (ff_nw x) seen' None _) as [[l0 cv0]|]; [discriminate|congruence].
    - destruct (is_fg c (ff_term x)); [|discriminate]. destruct (f_parent g); [discriminate|]. unfold exchange_value in S0. destruct (match_ev g sc); congruence. }
  assert (FS : forall j, trav_sub rec n h c g x j seen' <> FErr FoundBalanceFlow).
  { intros j. unfold trav_sub. destruct (h j) as [gj|]; [|discriminate]. destruct (f_bg gj).
    - specialize (RN j (ff_nw x) [] None). destruct (rec j (ff_nw x) [] None None) as [[[|[] [|? ?]] ?]|]; try discriminate. congruence.
    - unfold do_subfrag, unit_inventory. assert (T := top_honest n h j). destruct (top n h j) as [tp|]; [|congruence]. assert (R1 := RN tp (Q2Qc 1) [] None). destruct (rec tp (Q2Qc 1) [] None None) as [[ffs cv0]|]; [|congruence].
      destruct (h tp) as [tf|]; [|discriminate]. assert (G := group_honest j (f_flow tf) (f_dir tf) ffs). destruct (group_ios j (f_flow tf) (f_dir tf) true ffs) as [[inv internal]|]; [|congruence].
      destruct (find_flow (t_flow (ff_term x)) inv) as [mf|]; [|discriminate]. destruct (eqb (ff_mag mf) (Q2Qc 0)); [discriminate|]. set (dn := ff_nw x / _). clearbody dn.
      assert (SH : forall cs fs iv, sub_loop rec h dn seen' cs fs iv <> FErr FoundBalanceFlow).
      { induction cs as [|a cs IHc]; intros fs iv; cbn [sub_loop]; [discriminate|]. destruct (h a) as [ga|]; [|discriminate]. destruct (find_flow (f_flow ga) iv) as [m0|]; [|apply IHc].
        specialize (RN a dn seen' (Some (if eqb (ff_dir m0) (f_dir ga) then Q2Qc 0 + ff_mag m0 else Q2Qc 0 - ff_mag m0))). destruct (rec a dn seen' None _) as [[l0 cv1]|]; [apply IHc|congruence]. }
      destruct (t_desc (ff_term x)).
      + specialize (SH (child_flows g) (x :: map (fscale dn) internal) (remove_flow (t_flow (ff_term x)) inv)). destruct (sub_loop rec h dn seen' (child_flows g) _ _) as [[? ?]|]; [discriminate|congruence].
      + match goal with |- context [sub_loop rec h dn seen' (child_flows g) ?a ?b] => specialize (SH (child_flows g) a b); destruct (sub_loop rec h dn seen' (child_flows g) a b) as [[? ?]|] end; [discriminate|congruence]. }
  destruct (is_null t || f_bg g || eqb (nw * ev) (Q2Qc 0)); [discriminate|]. destruct (t_node t) as [|p|j]; [discriminate| |].
  - destruct (trav_fg cf rec h sc obs c g x seen'); congruence.
  - destruct (Nat.eqb j c); [destruct (trav_fg cf rec h sc obs c g x seen'); congruence|]. specialize (FS j). destruct (trav_sub rec n h c g x j seen'); congruence.
Qed.

Definition isbal_in (h : heap) (c : nat) : bool := match h c with Some g => f_isbal g | None => false end.
Lemma carried_head q (x : ffl) g nw ev : ff_flow x = f_flow g -> ff_dir x = f_dir g -> ff_mag x = nw * ev ->
  carried cf q x = nw * signed (f_dir g) (ev * cf (f_flow g) q).
Proof. intros F D M. unfold carried. rewrite F, D, M. destruct (f_dir g); cbn [signed]; ring. Qed.
Lemma fg_loop_spec n h sc obs nw seen q cs : (forall c, In c cs -> exists g, h c = Some g /\ ~ to_background h c g sc) ->
  forall ffs stock b l s b', fg_loop (trav n h sc obs) nw seen (Some q) cs ffs stock b = FOk (l, s, b') ->
  exists parts, l = ffs ++ concat parts /\ map ff_ref (heads parts) = map Real (filter (fun c => negb (isbal_in h c)) cs)
    /\ (forall p, In p parts -> p <> []) /\ nw * s = nw * stock + Qcsum (map (carried cf q) (heads parts))
    /\ b' = match rev (filter (isbal_in h) cs) with c :: _ => Some c | [] => b end.
Proof.
  induction cs as [|c cs IH]; intros OK ffs stock b l s b' E; cbn [fg_loop] in E.
  - injection E as <- <- <-. exists []. cbn [concat heads flat_map map filter rev]. rewrite app_nil_r. repeat split; auto. rewrite Qcsum_nil. ring.
  - destruct (OK c (or_introl eq_refl)) as [g [HC NB]]. assert (OK' : forall c, In c cs -> exists g, h c = Some g /\ ~ to_background h c g sc) by (intros c0 J; apply OK; cbn; auto).
    destruct (trav n h sc obs c nw seen (Some q) None) as [[l0 cv]|e] eqn:R.
    + destruct n as [|n]; [discriminate|]. cbn [FragModel.trav] in R. destruct (head_spec _ _ _ _ _ _ _ _ _ _ _ _ _ R HC NB) as [ev [x [rest [-> [H1 [H2 [H3 [H4 [_ H5]]]]]]]]]. destruct (H5 q eq_refl) as [IB ->].
      destruct (IH OK' _ _ _ _ _ _ E) as [parts [P1 [P2 [P3 [P4 P5]]]]]. exists ((x :: rest) :: parts). assert (IBH : isbal_in h c = f_isbal g) by (unfold isbal_in; rewrite HC; reflexivity). rewrite IB in IBH. cbn [filter]. rewrite IBH. cbn [negb].
      split; [cbn [concat]; rewrite P1, <- app_assoc; reflexivity|]. split; [cbn [heads flat_map app map] in *; unfold heads in P2; rewrite P2, H1; reflexivity|].
      split; [intros p [<-|J]; [discriminate|auto]|]. split; [|exact P5]. rewrite P4. cbn [heads flat_map app map]. fold (heads parts). rewrite Qcsum_cons, (carried_head q x g nw ev H2 H3 H4). ring.
    + destruct e; try discriminate. destruct (trav_honest _ _ _ _ _ _ _ _ _ R) as [_ [g' [HC' IB]]]. rewrite HC in HC'. injection HC' as <-.
      destruct (IH OK' _ _ _ _ _ _ E) as [parts [P1 [P2 [P3 [P4 P5]]]]]. exists parts. assert (IBH : isbal_in h c = f_isbal g) by (unfold isbal_in; rewrite HC; reflexivity). rewrite IB in IBH. cbn [filter]. rewrite IBH. cbn [negb]. repeat split; auto.
      cbn [rev]. rewrite P5. destruct (rev (filter (isbal_in h) cs)); reflexivity.
Qed.
Lemma filter_perm {A} (p : A -> bool) l : Permutation l (filter (fun x => negb (p x)) l ++ filter p l).
Proof. induction l as [|a l IH]; cbn [filter]; [constructor|]. destruct (p a); cbn [negb app]; [apply Permutation_cons_app; exact IH|constructor; exact IH]. Qed.

(** * C39 *)
(** For every foreground, scenario and upstream weight: let fragment [i], with conserved quantity [q], be followed to a foreground node
    or a process.  If one of its children is the balance flow, whose flow carries one unit of [q] ([set_conserved_quantity] takes [q]
    from the balance flow's reference quantity), no child is terminated to a background fragment, and the node's activity is that of
    its reference flow (see [unit_node]), then the traversal lists the node, then for each child its fragment flow with what follows
    from it, and the amounts of [q] entering and leaving the node sum to zero. *)
Definition unit_node (i : nat) (f : frag) (t : term) (sc : scen) (obs : bool) (bal : option Qc) : Prop :=
  match f_parent f with
  | None => bal = None /\ (t_node t = NFrag i \/ exchange_value f sc obs = FOk 1)
  | Some _ => multiplier cf refq (f_flow f) t = FOk 1
  end.
Theorem C39_balanced_partial n h sc obs i nw seen q0 bal f t q b g ffs cv :
  trav n h sc obs i nw seen q0 bal = FOk (ffs, cv) ->
  h i = Some f -> f_cons f = Some q -> f_bg f = false -> termination f sc = FOk t -> (t_node t = NFrag i \/ exists p, t_node t = NProc p) ->
  hd_error (map ff_mag ffs) <> Some 0 ->
  filter (isbal_in h) (child_flows f) = [b] -> h b = Some g -> cf (f_flow g) q = 1 ->
  (forall c, In c (child_flows f) -> exists gc, h c = Some gc /\ ~ to_background h c gc sc) ->
  unit_node i f t sc obs bal ->
  exists x parts, ffs = x :: concat parts /\ ff_ref x = Real i /\ ff_flow x = f_flow f /\ ff_dir x = f_dir f
    /\ (forall p, In p parts -> p <> []) /\ Permutation (map ff_ref (heads parts)) (map Real (child_flows f))
    /\ Qcsum (map (carried cf q) (heads parts)) - carried cf q x = 0.
Proof.
  intros E HI FC FB TT TN NZ FL HB CB OK UN. destruct n as [|n]; [discriminate|]. cbn [FragModel.trav] in E. unfold FragModel.trav_node in E. rewrite HI in E. destruct (_ && mem i seen); [discriminate|].
  set (seen' := if match f_parent f with None => true | Some _ => false end then i :: seen else seen) in E. clearbody seen'.
  destruct (match bal with Some b => FOk b | None => _ end) as [ev|] eqn:EV; [|discriminate].
  unfold termination in TT. destruct (match_term f sc) as [m|] eqn:MT; [|discriminate]. destruct (dget m (f_terms f)) as [t'|] eqn:DT; [|discriminate]. injection TT as ->.
  destruct (if match f_parent f with None => true | Some _ => false end then FOk nw else _) as [w|] eqn:W; [|discriminate].
  destruct (conservation cf h f ev q0) as [[cv' kept]|] eqn:CO; [|discriminate].
  set (x := FF (Real i) (f_flow f) (f_dir f) (nw * ev) w t kept []) in E.
  assert (NN : is_null t = false) by (unfold is_null; destruct TN as [->|[p ->]]; reflexivity). rewrite NN, FB in E. cbn [orb] in E.
  destruct (eqb_spec (nw * ev) (Q2Qc 0)) as [Z|Z]. { exfalso. injection E as <- <-. apply NZ. cbn. rewrite Z. reflexivity. }
  assert (TF : trav_fg cf (trav n h sc obs) h sc obs i f x seen' = FOk ffs).
  { destruct TN as [TN|[p TN]]; rewrite TN in E; [rewrite Nat.eqb_refl in E|]; destruct (trav_fg cf (trav n h sc obs) h sc obs i f x seen'); congruence. }
  unfold trav_fg in TF. change (ff_term x) with t in TF. change (ff_nw x) with w in TF. rewrite FC in TF.
  destruct (if is_fg i t then match f_parent f with None => exchange_value f sc obs | Some _ => FOk (Q2Qc 1) end else FOk (Q2Qc 1)) as [s0|] eqn:S0; [|discriminate].
  assert (WS : w * s0 = nw * ev).
  { unfold unit_node in UN. destruct (f_parent f) as [p|].
    - rewrite NN, UN in W. injection W as <-. assert (s0 = 1) by (destruct (is_fg i t); injection S0 as <-; reflexivity). subst s0. ring.
    - injection W as <-. destruct UN as [-> UN]. f_equal. assert (EX : exchange_value f sc obs = FOk ev) by exact EV.
      destruct TN as [TN|[p TN]]; unfold is_fg in S0; rewrite TN in S0.
      + rewrite Nat.eqb_refl in S0. rewrite EX in S0. injection S0 as <-. reflexivity.
      + injection S0 as <-. destruct UN as [UN|UN]; [congruence|]. rewrite EX in UN. injection UN as ->. reflexivity. }
  set (st := match f_dir f with Input => - (s0 * cf (f_flow f) q) | Output => s0 * cf (f_flow f) q end) in TF.
  destruct (fg_loop (trav n h sc obs) w seen' (Some q) (child_flows f) [x] st None) as [[[l s] b']|] eqn:FLP; [|discriminate].
  destruct (fg_loop_spec _ _ _ _ _ _ _ _ OK _ _ _ _ _ _ FLP) as [parts [P1 [P2 [P3 [P4 P5]]]]]. rewrite FL in P5. cbn in P5. subst b'. rewrite HB in TF.
  destruct (trav n h sc obs b w seen' None _) as [[lb cvb]|] eqn:RB; [|discriminate]. injection TF as <-.
  assert (JB : In b (child_flows f)) by (assert (J : In b (filter (isbal_in h) (child_flows f))) by (rewrite FL; cbn; auto); apply filter_In in J; tauto).
  destruct (OK b JB) as [g' [HB' NB]]. rewrite HB in HB'. injection HB' as <-. destruct n as [|n']; [discriminate|]. cbn [FragModel.trav] in RB.
  destruct (head_spec _ _ _ _ _ _ _ _ _ _ _ _ _ RB HB NB) as [evb [xb [rest [-> [H1 [H2 [H3 [H4 [H5 _]]]]]]]]]. specialize (H5 _ eq_refl).
  exists x, (parts ++ [xb :: rest]). split; [rewrite P1, concat_app; cbn; rewrite app_nil_r; reflexivity|]. do 3 (split; [reflexivity|]).
  assert (HE : heads (parts ++ [xb :: rest]) = heads parts ++ [xb]) by (unfold heads; rewrite flat_map_app; reflexivity).
  split; [intros p J; apply in_app_or in J as [J|[<-|[]]]; [auto|discriminate]|]. split.
  - rewrite HE, map_app, P2. cbn [map]. rewrite H1. replace [Real b] with (map Real (filter (isbal_in h) (child_flows f))) by (rewrite FL; reflexivity). rewrite <- map_app. apply Permutation_map, Permutation_sym, filter_perm.
  - rewrite HE, map_app, Qcsum_app. cbn [map]. rewrite Qcsum_cons, Qcsum_nil, (carried_head q xb g w evb H2 H3 H4), CB, H5.
    assert (X1 : carried cf q x = - (w * st)).
    { unfold carried. cbn [x ff_dir ff_mag ff_flow]. rewrite <- WS. unfold st. destruct (f_dir f); ring. }
    rewrite X1. replace (Qcsum (map (carried cf q) (heads parts))) with (w * s - w * st) by (rewrite P4; ring). destruct (f_dir g); cbn [signed]; ring.
Qed.
End P.
Print Assumptions C39_balanced_partial.

Definition evs (v : Q) : dict skey (option Qc) := [(K0, Some (Q2Qc v)); (K1, Some 0)].
(** quantity 5 is conserved; flow 10 has reference quantity 0, flows 11, 12 and 13 reference quantity 5, flow 14 reference quantity 1 *)
Definition cf39 (f q : nat) : Qc := match f, q with 10%nat, 5%nat => Q2Qc 3 | 11%nat, 5%nat | 12%nat, 5%nat | 13%nat, 5%nat => 1 | 10%nat, 1%nat => Q2Qc 2 | _, _ => 0 end.
Definition rq39 (f : nat) : nat := match f with 10%nat => 0%nat | 14%nat => 1%nat | _ => 5%nat end.
(** fragment 1: reference fragment producing [ev] of flow 10, terminated by [t]; child 2 consumes 4 of flow 11 with termination [t2]; child 3 balances with flow 12 *)
Definition h39 (p : option nat) (ev : Q) (t t2 : term) : heap := fun i => match i with
  | 1%nat => Some (Fr p [2%nat; 3%nat] 10 Input false false (Some 5%nat) (evs ev) [(None, t)])
  | 2%nat => Some (Fr (Some 1%nat) [] 11 Input false false None (evs 4) [(None, t2)])
  | 3%nat => Some (Fr (Some 1%nat) [] 12 Output false true None (evs 1) [(None, null_term 12 Output)])
  | 4%nat => Some (Fr None [] 11 Output true false None (evs 7) [(None, Tm (NProc 9) 11 Input true)])
  | _ => None end.
(** amounts at the node: first the node's own reference flow, then the children *)
Definition amounts (h : heap) (n : nat) : option (list Qc) :=
  match FragModel.trav cf39 rq39 9 h ScNone false n 1 [] None None with FOk (l, _) => Some (map (carried cf39 5) l) | FErr _ => None end.
Definition fg1 : term := Tm (NFrag 1) 10 Output true.
Example C39_example : amounts (h39 None 10 fg1 (null_term 11 Input)) 1 = Some [Q2Qc 30; Q2Qc 4; Q2Qc 26].
Proof. vm_compute. repeat f_equal; apply Qc_is_canon; reflexivity. Qed.
Example C39_hypotheses : let h := h39 None 10 fg1 (null_term 11 Input) in
  exists f, h 1%nat = Some f /\ filter (isbal_in h) (child_flows f) = [3%nat] /\ unit_node cf39 rq39 1 f fg1 ScNone false None
  /\ (forall c, In c (child_flows f) -> exists gc, h c = Some gc /\ ~ to_background h c gc ScNone).
Proof.
  cbn zeta. eexists. split; [reflexivity|]. split; [reflexivity|]. split; [split; [reflexivity|left; reflexivity]|].
  intros c J. cbn in J. destruct J as [<-|[<-|[]]]; eexists; (split; [reflexivity|]); intros [t [j [g [T [N _]]]]]; cbv in T; injection T as <-; discriminate.
Qed.
(** Refuted in general, each time by a traversal whose amounts do not sum to zero (children minus node):
    a reference fragment whose exchange value is not one, terminated to a process *)
Definition imbalance (l : option (list Qc)) : option Qc := match l with Some (x :: r) => Some (Qcsum r - x) | _ => None end.
Theorem C39_refuted_process : exists v, imbalance (amounts (h39 None 10 (Tm (NProc 9) 10 Output true) (null_term 11 Input)) 1) = Some v /\ v <> 0.
Proof. eexists. split; [vm_compute; reflexivity|]. intros E. apply (f_equal this) in E. vm_compute in E. discriminate. Qed.
(** a node terminated to a process through a flow with another reference quantity (conversion factor 2) *)
Theorem C39_refuted_conversion : exists v, imbalance (amounts (h39 (Some 8%nat) 10 (Tm (NProc 9) 14 Output true) (null_term 11 Input)) 1) = Some v /\ v <> 0.
Proof. eexists. split; [vm_compute; reflexivity|]. intros E. apply (f_equal this) in E. vm_compute in E. discriminate. Qed.
(** a child terminated to a background fragment whose exchange value is not one: the listed amount is the background fragment's *)
Theorem C39_refuted_background : exists v, imbalance (amounts (h39 None 10 fg1 (Tm (NFrag 4) 11 Output true)) 1) = Some v /\ v <> 0.
Proof. eexists. split; [vm_compute; reflexivity|]. intros E. apply (f_equal this) in E. vm_compute in E. discriminate. Qed.

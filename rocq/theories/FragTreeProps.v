(** C78, with subfragments: a traversal is the list of a tree of entries. *)
From Verif Require Import Num Base PyStr ProcModel FragModel FragProofs FragProps FragProps2 FragProps5.
From Coq Require Import Permutation.
Open Scope Qc_scope.
Open Scope string_scope.
Open Scope list_scope.
Local Arguments eqb : simpl never.

(** * What a traversal should list *)
(** A tree of entries. Each node: the fragment, the amount of its flow, its entry, the entries it brings along from a subfragment, the trees of its children. *)
Inductive etree := ENode (i : nat) (amt : Qc) (y : ffl) (brought : list ffl) (kids : list etree).
Definition e_id (t : etree) := let '(ENode i _ _ _ _) := t in i.
Definition e_amt (t : etree) := let '(ENode _ m _ _ _) := t in m.
Definition e_root (t : etree) := let '(ENode _ _ y _ _) := t in y.
Fixpoint entries (t : etree) : list ffl := let '(ENode _ _ y b ks) := t in y :: b ++ flat_map entries ks.

Section Spec.
Context (cf : nat -> nat -> Qc) (refq : nat -> nat) (h : heap) (sc : scen) (obs : bool).
(** The weight of a node whose flow amounts to [m]: the weight above it for a reference fragment, the amount for a cut-off, else the amount converted to the termination. *)
Definition weighs (f : frag) (t : term) (above m w : Qc) : Prop :=
  (f_parent f = None -> w = above) /\
  (f_parent f <> None -> (t_node t = NNull -> w = m) /\ (t_node t <> NNull -> exists k, converts cf refq (f_flow f) (t_flow t) k /\ w = m * k)).
(** The entry of fragment [i] (up to the flag "conserved"). *)
Definition entry_is (i : nat) (f : frag) (m w : Qc) (t : term) (inside : list ffl) (y : ffl) : Prop :=
  ff_ref y = Real i /\ ff_flow y = f_flow f /\ ff_dir y = f_dir f /\ ff_mag y = m /\ ff_nw y = w /\ ff_term y = t /\ ff_subs y = inside.
Definition ends_here (f : frag) (t : term) (m : Qc) : Prop := t_node t = NNull \/ f_bg f = true \/ m = 0.
(** A child gets the weight above times its exchange value (balance flows: C39). *)
Definition by_value (w : Qc) (k : etree) : Prop :=
  forall f ev, h (e_id k) = Some f -> f_isbal f = false -> exchange_value f sc obs = FOk ev -> e_amt k = w * ev.
(** Inputs and outputs [e] of a subfragment that are handed to a child: the child has the same flow; its amount is [e]'s, counted in its own direction. *)
Definition takes_up (dn : Qc) (e : ffl) (k : etree) : Prop :=
  exists f, h (e_id k) = Some f /\ ff_flow e = f_flow f /\ e_amt k = dn * (if eqb (ff_dir e) (f_dir f) then ff_mag e else - ff_mag e).

Inductive tree_ok (above : Qc) : etree -> Prop :=
| ok_end i f t m w y : h i = Some f -> termination f sc = FOk t -> weighs f t above m w -> ends_here f t m ->
    entry_is i f m w t [] y -> tree_ok above (ENode i m y [] [])
| ok_node i f t m w y kids : h i = Some f -> termination f sc = FOk t -> weighs f t above m w -> ~ ends_here f t m ->
    (exists p, t_node t = NProc p) \/ t_node t = NFrag i ->
    entry_is i f m w t [] y ->
    Permutation (map e_id kids) (f_children f) -> Forall (tree_ok w) kids -> Forall (by_value w) kids -> tree_ok above (ENode i m y [] kids)
| ok_background i f t m w j g u e v y : h i = Some f -> termination f sc = FOk t -> weighs f t above m w -> ~ ends_here f t m ->
    t_node t = NFrag j -> j <> i -> h j = Some g -> f_bg g = true ->
    termination g sc = FOk u -> exchange_value g sc obs = FOk e -> weighs g u w (w * e) v ->
    entry_is i f (w * e) v u [] y -> tree_ok above (ENode i m y [] [])
| ok_subfragment i f t m w j g n ext int e0 taken left untaken dn kids y brought : h i = Some f -> termination f sc = FOk t -> weighs f t above m w -> ~ ends_here f t m ->
    t_node t = NFrag j -> j <> i -> h j = Some g -> f_bg g = false ->
    unit_inv cf refq n h sc obs j = FOk (ext, int) ->
    (** the flow entered by, the flows taken up by children, and the rest *)
    Permutation ext (e0 :: taken ++ left) ->
    ff_flow e0 = t_flow t -> ff_mag e0 <> 0 -> dn = w / (if eqb (ff_dir e0) (f_dir f) then - ff_mag e0 else ff_mag e0) ->
    Permutation (f_children f) (map e_id kids ++ untaken) -> Forall2 (takes_up dn) taken kids ->
    (forall c g e, In c untaken -> h c = Some g -> In e left -> f_flow g <> ff_flow e) ->
    (if t_desc t then entry_is i f m w t [] y /\ brought = map (fscale dn) (int ++ left)
     else entry_is i f m dn t int y /\ brought = map (fscale dn) left) ->
    Forall (tree_ok dn) kids -> tree_ok above (ENode i m y brought kids).
End Spec.

(** A fragment has each child once and at most one of them is a balance flow (C79). *)
Definition children_ok (h : heap) : Prop := forall i f, h i = Some f -> NoDup (f_children f) /\
  forall c d g k, In c (f_children f) -> In d (f_children f) -> h c = Some g -> h d = Some k -> f_isbal g = true -> f_isbal k = true -> c = d.

(** * Proofs *)
Lemma insert_perm x l : Permutation (insert x l) (x :: l).
Proof. induction l as [|y l IH]; cbn; [reflexivity|]. destruct (Nat.leb x y); [reflexivity|]. rewrite IH. apply perm_swap. Qed.
Lemma child_flows_perm f : Permutation (child_flows f) (f_children f).
Proof. unfold child_flows. induction (f_children f) as [|c l IH]; cbn; [constructor|]. rewrite insert_perm, IH. reflexivity. Qed.
Lemma find_remove f l e : find_flow f l = Some e -> ff_flow e = f /\ Permutation l (e :: remove_flow f l).
Proof.
  induction l as [|x l IH]; cbn; [discriminate|]. destruct (Nat.eqb_spec (ff_flow x) f) as [N|N]; [intros [= <-]; auto|]. intros E. destruct (IH E) as [E1 E2]. split; [exact E1|].
  rewrite E2 at 1. apply perm_swap.
Qed.
Lemma find_none f l e : find_flow f l = None -> In e l -> ff_flow e <> f.
Proof. intros E J. pose proof (find_none _ _ E e J) as N. cbn in N. apply Nat.eqb_neq in N. exact N. Qed.
Lemma as_set_idem sc : as_set (as_set sc) = as_set sc.
Proof. destruct sc as [|[| | |]|]; reflexivity. Qed.

Section P.
Context (cf : nat -> nat -> Qc) (refq : nat -> nat) (h : heap) (sc : scen) (obs : bool).
Hypothesis SET : as_set sc = sc.
Hypothesis CO : children_ok h.
Notation tree_ok := (tree_ok cf refq h sc obs).
Notation trav n := (trav cf refq n h sc obs).

Definition sig_ok (rec : rect) : Prop := forall c nw s q b, rec c nw s q b = FErr FoundBalanceFlow -> q <> None /\ exists g, h c = Some g /\ f_isbal g = true.
Lemma sub_loop_sig rec dn seen cs : sig_ok rec -> forall ffs inv, sub_loop rec h dn seen cs ffs inv <> FErr FoundBalanceFlow.
Proof.
  intros SO. induction cs as [|c cs IH]; intros ffs inv E; cbn [sub_loop] in E; [discriminate|]. destruct (h c) as [g|]; [|discriminate]. destruct (find_flow _ _) as [m|]; [|eapply IH; exact E].
  destruct (rec c dn seen None _) as [[l cv]|e] eqn:R; [eapply IH; exact E|]. injection E as ->. destruct (SO _ _ _ _ _ R) as [N _]. apply N; reflexivity.
Qed.
Lemma inv_sig rec n j : sig_ok rec -> unit_inventory rec n h j <> FErr FoundBalanceFlow.
Proof.
  intros SO E. unfold unit_inventory in E. destruct (top n h j) as [tp|e] eqn:TP.
  2:{ injection E as ->. clear -TP. revert j TP. induction n as [|n IH]; intros j TP; cbn in TP; [discriminate|]. destruct (h j) as [f|]; [|discriminate]. destruct (f_parent f); [eapply IH; exact TP|discriminate]. }
  destruct (rec tp (Q2Qc 1) [] None None) as [[ffs cv]|e] eqn:R; [|injection E as ->; destruct (SO _ _ _ _ _ R) as [N _]; apply N; reflexivity].
  destruct (h tp) as [tf|]; [|discriminate]. unfold group_ios in E. cbv zeta in E. destruct ffs as [|x ffs]; [discriminate|]. destruct (dget _ _) as [v|]; [|discriminate].
  destruct (eqb _ _); [|discriminate]. destruct (Qclt_le_dec _ _); discriminate.
Qed.
Lemma trav_sig n : sig_ok (trav n).
Proof.
  induction n as [|n IH]; intros c nw s q b E; [discriminate|]. cbn in E. unfold trav_node in E. destruct (h c) as [f|] eqn:HC; [|discriminate].
  destruct (_ && mem c s); [discriminate|]. cbv zeta in E.
  set (seen' := if match f_parent f with None => true | Some _ => false end then c :: s else s) in E. clearbody seen'.
  destruct (match b with Some b => FOk b | None => _ end) as [ev|e] eqn:EV.
  2:{ destruct b; [discriminate|]. exfalso. unfold match_ev in EV. injection E as ->. destruct sc as [|k|ks]; try discriminate.
      destruct (filter _ _) as [|? [|? ?]]; discriminate. }
  destruct (match_term f sc) as [m|e] eqn:MT.
  2:{ exfalso. unfold match_term in MT. injection E as ->. destruct sc as [|k|ks]; [discriminate|destruct (_ || _); discriminate|]. destruct (filter _ _) as [|? [|? ?]]; discriminate. }
  destruct (dget m (f_terms f)) as [t|] eqn:DT; [|discriminate].
  destruct (if match f_parent f with None => true | Some _ => false end then _ else _) as [w|e] eqn:W.
  2:{ exfalso. injection E as ->. destruct (f_parent f); [|discriminate]. destruct (is_null t); [discriminate|].
      unfold multiplier in W. destruct (Nat.eqb _ _); [discriminate|]. destruct (Nat.eqb _ _); [discriminate|]. destruct (eqb (cf (f_flow f) _) _); [|discriminate]. destruct (eqb _ _); discriminate. }
  destruct (conservation cf h f ev q) as [[cv kept]|e] eqn:CO'.
  2:{ injection E as ->. unfold conservation in CO'. destruct q as [q|].
      - destruct (f_isbal f) eqn:IB; [|destruct (eqb _ _); discriminate]. split; [discriminate|]. exists f. auto.
      - destruct (f_isbal f); [discriminate|]. unfold balance_flow in CO'. destruct (f_cons f); [|discriminate]. destruct (filter _ _); discriminate. }
  exfalso. destruct (is_null t || f_bg f || eqb (nw * ev) (Q2Qc 0)); [discriminate|].
  assert (TF : forall x, trav_fg cf (trav n) h sc obs c f x seen' <> FErr FoundBalanceFlow).
  { intros x T. unfold trav_fg in T. destruct (if is_fg c (ff_term x) then _ else _) as [s0|e] eqn:S0.
    2:{ injection T as ->. destruct (is_fg c (ff_term x)); [|discriminate]. destruct (f_parent f); [discriminate|]. unfold exchange_value, match_ev in S0.
        destruct sc as [|k|ks]; try discriminate. destruct (filter _ _) as [|? [|? ?]]; discriminate. }
    cbv zeta in T. destruct (fg_loop _ _ _ _ _ _ _ _) as [[[ffs stock] b1]|e] eqn:L.
    - destruct b1 as [b1|]; [|discriminate]. destruct (trav n b1 _ _ None _) as [[l1 cv1]|e] eqn:R; [discriminate|]. injection T as ->.
      apply IH in R as [N _]. contradiction.
    - injection T as ->. eapply fg_loop_no_signal; exact L. }
  destruct (t_node t) eqn:TN; [discriminate| |].
  - destruct (trav_fg _ _ _ _ _ _ _ _ _) as [l|e] eqn:T; [discriminate|]. injection E as ->. eapply TF; exact T.
  - destruct (Nat.eqb_spec i c) as [->|N].
    + destruct (trav_fg _ _ _ _ _ _ _ _ _) as [l|e] eqn:T; [discriminate|]. injection E as ->. eapply TF; exact T.
    + destruct (trav_sub _ _ _ _ _ _ _ _) as [l|e] eqn:T; [discriminate|]. injection E as ->. unfold trav_sub in T. destruct (h i) as [g|]; [|discriminate]. destruct (f_bg g).
      * destruct (trav n i _ [] None None) as [[l cv1]|e] eqn:R; [destruct l as [|[] [|? ?]]; discriminate|]. injection T as ->. apply IH in R as [R _]. apply R; reflexivity.
      * destruct (do_subfrag _ _ _ _ _ _) as [[[ffs inv] dn]|e] eqn:D.
        -- destruct (sub_loop _ _ _ _ _ _ _) as [[ffs' inv']|e] eqn:L; [discriminate|]. injection T as ->. eapply sub_loop_sig; [exact IH|exact L].
        -- injection T as ->. unfold do_subfrag in D. destruct (unit_inventory _ _ _ _) as [[inv int]|e] eqn:U; [|injection D as ->; eapply inv_sig; [exact IH|exact U]].
           destruct (find_flow _ _) as [m0|]; [|discriminate]. cbv zeta in D. destruct (eqb _ _); [discriminate|]. destruct (t_desc _); discriminate.
Qed.

(** What a call returns. *)
Definition amount_ok (i : nat) (nw : Qc) (bal : option Qc) (m : Qc) : Prop :=
  match bal with Some b => m = nw * b | None => forall f ev, h i = Some f -> exchange_value f sc obs = FOk ev -> m = nw * ev end.
Definition ret_ok (i : nat) (nw : Qc) (bal : option Qc) (l : list ffl) : Prop :=
  exists T rest, l = e_root T :: rest /\ e_id T = i /\ tree_ok nw T /\ amount_ok i nw bal (e_amt T) /\ Permutation l (entries T).
Definition rets_ok (rec : rect) : Prop := forall i nw seen q bal l cv, rec i nw seen q bal = FOk (l, cv) -> ret_ok i nw bal l.

Lemma flat_app ks k : flat_map entries (ks ++ [k]) = flat_map entries ks ++ entries k.
Proof. rewrite flat_map_app. cbn. rewrite app_nil_r. reflexivity. Qed.

(** [kids] stand for the children [done]; the balance flow may be missing *)
Lemma fg_loop_ok rec w seen q f i : rets_ok rec -> sig_ok rec -> h i = Some f -> forall cs, (forall c, In c cs -> In c (f_children f)) -> NoDup cs ->
  forall x ffs stock b l s b' kids, Forall (tree_ok w) kids -> Forall (by_value h sc obs w) kids -> Permutation ffs (x :: flat_map entries kids) -> hd_error ffs = Some x ->
  (forall c, b = Some c -> In c (f_children f) /\ isbal h c /\ ~ In c cs) ->
  fg_loop rec w seen q cs ffs stock b = FOk (l, s, b') ->
  exists kids', Permutation (map e_id kids' ++ match b' with Some c => [c] | None => [] end) (map e_id kids ++ match b with Some c => [c] | None => [] end ++ cs) /\
    Forall (tree_ok w) kids' /\ Forall (by_value h sc obs w) kids' /\ Permutation l (x :: flat_map entries kids') /\ hd_error l = Some x /\
    (forall c, b' = Some c -> In c (f_children f) /\ isbal h c).
Proof.
  intros RO SO HI. induction cs as [|c cs IH]; intros IN ND x ffs stock b l s b' kids T V P HD B E; cbn [fg_loop] in E.
  - injection E as <- <- <-. exists kids. rewrite app_nil_r. repeat split; auto; apply (B c); assumption.
  - inversion ND as [|? ? NI ND']; subst. destruct (rec c w seen q None) as [[l1 cv]|e] eqn:R.
    + destruct (RO _ _ _ _ _ _ _ R) as (K & rest & E1 & E2 & E3 & E4 & E5).
      destruct (IH (fun d D => IN d (or_intror D)) ND' x (ffs ++ l1) (match cv with Some v => stock + v | None => stock end) b l s b' (kids ++ [K])) as (kids' & P' & R'); auto.
      * apply Forall_app; split; [exact T|constructor; [exact E3|constructor]].
      * apply Forall_app; split; [exact V|constructor; [|constructor]]. intros g ev HG NB EV. rewrite E2 in HG. exact (E4 g ev HG EV).
      * rewrite flat_app, P, E5. reflexivity.
      * destruct ffs; [discriminate|exact HD].
      * intros d D. destruct (B d D) as (B1 & B2 & B3). repeat split; auto. intros J. apply B3. right; exact J.
      * exists kids'. split; [|exact R']. rewrite P', map_app. cbn [map]. rewrite E2, <- !app_assoc. apply Permutation_app_head. cbn [app]. apply Permutation_middle.
    + assert (E' : e = FoundBalanceFlow /\ fg_loop rec w seen q cs ffs stock (Some c) = FOk (l, s, b')) by (destruct e; try discriminate E; auto).
      destruct E' as [-> E']. destruct (SO _ _ _ _ _ R) as [_ (g & HG & BG)].
      assert (b = None). { destruct b as [d|]; [|reflexivity]. exfalso. destruct (B d eq_refl) as (B1 & (k & HK & BK) & B3). apply B3. left. destruct (CO i f HI) as [_ U].
        symmetry. exact (U d c k g B1 (IN c (or_introl eq_refl)) HK HG BK BG). }
      subst b. destruct (IH (fun d D => IN d (or_intror D)) ND' x ffs stock (Some c) l s b' kids) as (kids' & P' & R'); auto.
      * intros d [= <-]. split; [apply IN; left; reflexivity|]. split; [exists g; auto|exact NI].
      * exists kids'. split; [|exact R']. rewrite P'. reflexivity.
Qed.
Lemma trav_fg_ok rec x i f seen l : rets_ok rec -> sig_ok rec -> h i = Some f -> trav_fg cf rec h sc obs i f x seen = FOk l ->
  exists kids rest, l = x :: rest /\ Permutation (map e_id kids) (f_children f) /\ Forall (tree_ok (ff_nw x)) kids /\ Forall (by_value h sc obs (ff_nw x)) kids /\ Permutation l (x :: flat_map entries kids).
Proof.
  intros RO SO HI E. unfold trav_fg in E. destruct (if is_fg i (ff_term x) then _ else _) as [s0|]; [|discriminate]. cbv zeta in E.
  destruct (fg_loop rec (ff_nw x) seen (f_cons f) (child_flows f) [x] _ None) as [[[ffs stock] b]|] eqn:L; [|discriminate].
  assert (ND : NoDup (child_flows f)). { eapply Permutation_NoDup; [symmetry; apply child_flows_perm|]. apply (CO i f HI). }
  destruct (fg_loop_ok rec (ff_nw x) seen (f_cons f) f i RO SO HI (child_flows f) (fun c J => Permutation_in c (child_flows_perm f) J) ND x [x] _ None ffs stock b [] (Forall_nil _) (Forall_nil _)
              (Permutation_refl _) eq_refl ltac:(discriminate) L) as (kids & P & T & V & PL & HD & B). cbn in P.
  destruct ffs as [|x' ffs]; [discriminate|]. cbn in HD. injection HD as ->. destruct b as [b|].
  - destruct (rec b (ff_nw x) seen None _) as [[l1 cv]|] eqn:R; [|discriminate]. injection E as <-. destruct (RO _ _ _ _ _ _ _ R) as (K & rest & E1 & E2 & E3 & _ & E5). destruct (B b eq_refl) as [BC (g & HG & BG)].
    exists (kids ++ [K]), (ffs ++ l1). split; [reflexivity|]. split; [|split; [|split]].
    + rewrite map_app. cbn. rewrite E2, P. apply child_flows_perm.
    + apply Forall_app; auto.
    + apply Forall_app; split; [exact V|constructor; [|constructor]]. intros g' ev HG' NB. rewrite E2 in HG'. congruence.
    + rewrite flat_app. change ((x :: ffs) ++ l1) with ((x :: ffs) ++ l1). rewrite app_comm_cons, PL, E5. reflexivity.
  - injection E as <-. exists kids, ffs. rewrite app_nil_r in P. split; [reflexivity|]. split; [rewrite P; apply child_flows_perm|auto].
Qed.

Lemma sub_loop_ok rec dn seen : rets_ok rec -> forall cs x ffs inv l inv2, hd_error ffs = Some x -> sub_loop rec h dn seen cs ffs inv = FOk (l, inv2) ->
  exists kids taken untaken, Permutation cs (map e_id kids ++ untaken) /\ Permutation inv (taken ++ inv2) /\ Forall (tree_ok dn) kids /\ Forall2 (takes_up h dn) taken kids /\
    (forall c g e, In c untaken -> h c = Some g -> In e inv2 -> f_flow g <> ff_flow e) /\ Permutation l (ffs ++ flat_map entries kids) /\ hd_error l = Some x.
Proof.
  intros RO. induction cs as [|c cs IH]; intros x ffs inv l inv2 HD E; cbn [sub_loop] in E.
  - injection E as <- <-. exists [], [], []. cbn. rewrite app_nil_r. repeat split; auto; try constructor.
  - destruct (h c) as [g|] eqn:HC; [|discriminate]. destruct (find_flow (f_flow g) inv) as [m|] eqn:F.
    + destruct (rec c dn seen None _) as [[l1 cv]|] eqn:R; [|discriminate]. destruct (RO _ _ _ _ _ _ _ R) as (K & rest & E1 & E2 & E3 & E4 & E5). cbn in E4.
      apply IH with (x := x) in E as (kids & taken & untaken & P1 & P2 & P3 & P4 & P5 & P6 & P7); [|destruct ffs; [discriminate|exact HD]].
      destruct (find_remove _ _ _ F) as [FE FP]. exists (K :: kids), (m :: taken), untaken. split; [|split; [|split; [|split; [|split; [|split]]]]].
      * cbn. rewrite E2, P1. reflexivity.
      * rewrite FP at 1. cbn. rewrite P2. reflexivity.
      * constructor; auto.
      * constructor; [|exact P4]. exists g. rewrite E2. repeat split; auto. rewrite E4. destruct (eqb (ff_dir m) (f_dir g)); ring.
      * exact P5.
      * cbn [flat_map]. rewrite P6, E5, <- app_assoc. reflexivity.
      * exact P7.
    + apply IH with (x := x) in E as (kids & taken & untaken & P1 & P2 & P3 & P4 & P5 & P6 & P7); [|exact HD]. exists kids, taken, (c :: untaken). repeat split; auto.
      * rewrite P1. apply Permutation_middle.
      * intros d g' e [<-|J] HD' JE.
        -- assert (g' = g) by congruence. subst g'. intros Q. apply (find_none _ _ e F); [|auto]. eapply Permutation_in; [symmetry; exact P2|]. apply in_app_iff; auto.
        -- eapply P5; eauto.
Qed.

Lemma scale_app k l m : map (fscale k) (l ++ m) = map (fscale k) l ++ map (fscale k) m. Proof. apply map_app. Qed.
Lemma trav_tree n : rets_ok (trav n).
Proof.
  induction n as [|n IH]; intros i nw s q b l cv E; [discriminate|]. cbn in E. unfold trav_node in E. destruct (h i) as [f|] eqn:HI; [|discriminate].
  destruct (_ && mem i s); [discriminate|]. cbv zeta in E.
  set (seen' := if match f_parent f with None => true | Some _ => false end then i :: s else s) in E. clearbody seen'.
  destruct (match b with Some b => FOk b | None => _ end) as [ev|e] eqn:EV; [|discriminate].
  destruct (match_term f sc) as [m|e] eqn:MT; [|discriminate]. destruct (dget m (f_terms f)) as [t|] eqn:DT; [|discriminate].
  destruct (if match f_parent f with None => true | Some _ => false end then _ else _) as [w|e] eqn:W; [|discriminate].
  destruct (conservation cf h f ev q) as [[cv' kept]|e]; [|discriminate].
  set (x := FF (Real i) (f_flow f) (f_dir f) (nw * ev) w t kept []) in E.
  assert (TT : termination f sc = FOk t) by (unfold termination; rewrite MT, DT; reflexivity).
  assert (EI : entry_is i f (nw * ev) w t [] x) by (repeat split).
  assert (AM : amount_ok i nw b (nw * ev)).
  { unfold amount_ok. destruct b as [b|]; [injection EV as ->; reflexivity|]. intros g ev' HG EV'. unfold exchange_value in EV'. assert (g = f) by congruence. subst g. destruct (match_ev f sc); [|discriminate]. congruence. }
  assert (WE : weighs cf refq f t nw (nw * ev) w).
  { unfold weighs, is_null in *. destruct (f_parent f); split; try congruence. intros _. split; intros TN.
    - rewrite TN in W. congruence.
    - destruct (t_node t) as [|p|j] eqn:TN'; [contradiction| |]; (destruct (multiplier cf refq (f_flow f) t) as [k|] eqn:MU; [|discriminate]; injection W as <-; exists k; split; [apply multiplier_converts; exact MU|reflexivity]). }
  destruct (is_null t || f_bg f || eqb (nw * ev) (Q2Qc 0)) eqn:Z.
  { injection E as <- <-. exists (ENode i (nw * ev) x [] []), []. split; [reflexivity|]. split; [reflexivity|]. split; [|split; [exact AM|reflexivity]]. eapply ok_end; eauto.
    unfold ends_here. apply orb_true_iff in Z as [Z|Z]; [apply orb_true_iff in Z as [Z|Z]; [left; unfold is_null in Z; destruct (t_node t); congruence|auto]|].
    right; right. destruct (eqb_spec (nw * ev) (Q2Qc 0)); [assumption|discriminate]. }
  assert (NE : ~ ends_here f t (nw * ev)).
  { apply orb_false_iff in Z as [Z Z3]. apply orb_false_iff in Z as [Z1 Z2]. intros [N|[N|N]]; [unfold is_null in Z1; rewrite N in Z1; discriminate|congruence|].
    rewrite N in Z3. destruct (eqb_spec 0 (Q2Qc 0)) as [|X]; [discriminate|apply X; reflexivity]. }
  assert (MORE : (exists p, t_node t = NProc p) \/ t_node t = NFrag i -> forall l1, trav_fg cf (trav n) h sc obs i f x seen' = FOk l1 -> ret_ok i nw b l1).
  { intros K l1 F. destruct (trav_fg_ok _ x i f seen' l1 IH (trav_sig n) HI F) as (kids & rest & -> & P & T & V & PL). exists (ENode i (nw * ev) x [] kids), rest.
    split; [reflexivity|]. split; [reflexivity|]. split; [|split; [exact AM|exact PL]]. eapply ok_node; eauto. }
  destruct (t_node t) as [|p|j] eqn:TN.
  - exfalso. apply NE. left. exact TN.
  - destruct (trav_fg _ _ _ _ _ _ _ _ _) as [l1|e] eqn:F; [|discriminate]. injection E as <- <-. apply MORE; eauto.
  - destruct (Nat.eqb_spec j i) as [->|N].
    + destruct (trav_fg _ _ _ _ _ _ _ _ _) as [l1|e] eqn:F; [|discriminate]. injection E as <- <-. apply MORE; eauto.
    + destruct (trav_sub _ _ _ _ _ _ _ _) as [l1|e] eqn:F; [|discriminate]. injection E as <- <-. unfold trav_sub in F. destruct (h j) as [g|] eqn:HJ; [|discriminate]. destruct (f_bg g) eqn:BG.
      * destruct (trav n j (ff_nw x) [] None None) as [[l2 cv2]|] eqn:R; [|discriminate]. destruct n as [|n']; [discriminate|]. cbn in R. unfold trav_node in R. rewrite HJ, andb_false_r in R. cbv zeta in R.
        destruct (match_ev g sc) as [me|] eqn:ME; [|discriminate]. destruct (match_term g sc) as [mt|] eqn:MT2; [|discriminate]. destruct (dget mt (f_terms g)) as [u|] eqn:DU; [|discriminate].
        destruct (if match f_parent g with None => true | Some _ => false end then _ else _) as [v|] eqn:W2; [|discriminate].
        destruct (conservation cf h g _ None) as [[cv3 k3]|]; [|discriminate]. rewrite BG, orb_true_r in R. cbn [orb] in R. injection R as <- <-. cbn in F. injection F as <-.
        set (y := FF (Real i) (f_flow f) (f_dir f) _ _ _ _ _). exists (ENode i (nw * ev) y [] []), []. split; [reflexivity|]. split; [reflexivity|]. split; [|split; [exact AM|reflexivity]].
        eapply (ok_background _ _ _ _ _ _ i f t (nw * ev) w j g u (ev_for g me obs) v); eauto.
        -- unfold termination. rewrite MT2, DU. reflexivity.
        -- unfold exchange_value. rewrite ME. reflexivity.
        -- unfold weighs, is_null in *. destruct (f_parent g); split; try congruence. intros _. split; intros TU.
           ++ rewrite TU in W2. cbn in W2. congruence.
           ++ destruct (t_node u) as [|p|j'] eqn:TU'; [contradiction| |]; (destruct (multiplier cf refq (f_flow g) u) as [k|] eqn:MU; [|discriminate]; injection W2 as <-; exists k; split; [apply multiplier_converts; exact MU|reflexivity]).
        -- repeat split.
      * destruct (do_subfrag _ _ _ _ _ _) as [[[ffs inv] dn]|] eqn:DS; [|discriminate]. destruct (sub_loop _ _ _ _ _ _ _) as [[l2 inv2]|] eqn:SL; [|discriminate]. injection F as <-.
        unfold do_subfrag in DS. destruct (unit_inventory _ _ _ _) as [[ext int]|] eqn:U; [|discriminate]. destruct (find_flow _ ext) as [e0|] eqn:FE; [|discriminate]. cbv zeta in DS.
        destruct (eqb_spec (ff_mag e0) (Q2Qc 0)) as [|NZ]; [discriminate|]. destruct (find_remove _ _ _ FE) as [FE1 FE2]. cbn [ff_term x] in FE1, FE2, DS.
        assert (HDF : exists y0 r0, ffs = y0 :: r0) by (destruct (t_desc t); injection DS as <- <- <-; eauto). destruct HDF as (y0 & r0 & ->).
        destruct (sub_loop_ok _ dn seen' IH (child_flows f) y0 (y0 :: r0) inv l2 inv2 eq_refl SL) as (kids & taken & untaken & P1 & P2 & P3 & P4 & P5 & P6 & P7).
        destruct l2 as [|y1 l2]; [discriminate|]. cbn in P7. injection P7 as ->.
        assert (DN : inv = remove_flow (t_flow t) ext /\ dn = w / (if eqb (ff_dir e0) (f_dir f) then - ff_mag e0 else ff_mag e0)) by (destruct (t_desc t); injection DS as _ _ <- <-; split; reflexivity).
        destruct DN as [DI DN].
        set (brought := r0 ++ map (fscale dn) inv2). exists (ENode i (nw * ev) y0 brought kids), (l2 ++ map (fscale dn) inv2). split; [reflexivity|]. split; [reflexivity|]. split; [|split; [exact AM|]].
        -- eapply (ok_subfragment _ _ _ _ _ _ i f t (nw * ev) w j g n ext int e0 taken inv2 untaken dn kids); eauto.
           ++ unfold unit_inv. rewrite SET. exact U.
           ++ rewrite FE2, <- DI, P2. reflexivity.
           ++ rewrite <- (child_flows_perm f). exact P1.
           ++ destruct (t_desc t); injection DS as <- E2 E3 E4.
              ** rewrite E4 in *. split; [exact EI|]. unfold brought. rewrite <- E2, scale_app. reflexivity.
              ** rewrite E4 in *. split; [repeat split|]. unfold brought. rewrite <- E2. reflexivity.
        -- unfold brought. cbn [entries]. rewrite app_comm_cons, P6. cbn [app]. constructor. rewrite <- !app_assoc. apply Permutation_app_head, Permutation_app_comm.
Qed.
End P.

(** * C78 *)
(** Every traversal is the list of a tree as specified, its root first. *)
Theorem C78_traversal_tree cf refq h sc obs fuel i l : children_ok h -> traverse cf refq fuel h sc obs i = FOk l ->
  exists T rest, l = e_root T :: rest /\ e_id T = i /\ Permutation l (entries T) /\ tree_ok cf refq h (as_set sc) obs 1 T /\
    (forall f ev, h i = Some f -> exchange_value f (as_set sc) obs = FOk ev -> e_amt T = ev).
Proof.
  intros CO E. unfold traverse in E. destruct (trav _ _ _ _ _ _ _ _ _ _ _) as [[l' cv]|] eqn:R; [|discriminate]. injection E as ->.
  destruct (trav_tree cf refq h (as_set sc) obs (as_set_idem sc) CO fuel i _ _ _ _ _ _ R) as (T & rest & E1 & E2 & E3 & E4 & E5). exists T, rest. repeat (split; [assumption|]).
  intros f ev HI EV. rewrite (E4 f ev HI EV). ring.
Qed.
Print Assumptions C78_traversal_tree.

(** What enters and leaves a subfragment is accounted for, flow by flow: run [dn] times, its net inputs, less the flow by which it is entered, are the amounts of the
    children of the node and the cut-offs listed for it. *)
Definition net_cut (fl : nat) (l : list ffl) : Qc := net fl (filter (fun x => is_null (ff_term x)) l).
Definition net_kids (h : heap) (fl : nat) (ks : list etree) : Qc :=
  Qcsum (map (fun k => match h (e_id k) with Some f => if Nat.eqb (f_flow f) fl then signed (f_dir f) (e_amt k) else 0 | None => 0 end) ks).
Lemma net_of_app fl l m : net fl (l ++ m) = net fl l + net fl m.
Proof. unfold net. rewrite map_app. apply Qcsum_app. Qed.
Lemma net_of_perm fl l m : Permutation l m -> net fl l = net fl m.
Proof. intros P. unfold net. apply Qcsum_perm, Permutation_map, P. Qed.
Lemma net_of_scale fl k l : net fl (map (fscale k) l) = k * net fl l.
Proof.
  unfold net. induction l as [|[r f d m w t c s] l IH]; [unfold Qcsum; cbn; ring|]. cbn [map]. rewrite !Qcsum_cons, IH. cbn. destruct (Nat.eqb f fl); [|ring]. destruct d; cbn; ring.
Qed.
Lemma inv_parts cf refq n h sc obs j ext int : unit_inv cf refq n h sc obs j = FOk (ext, int) ->
  Forall (fun x => is_null (ff_term x) = true) ext /\ Forall (fun x => is_null (ff_term x) = false) int.
Proof.
  unfold unit_inv, unit_inventory. destruct (top n h j) as [tp|]; [|discriminate]. destruct (trav cf refq n h (as_set sc) obs tp (Q2Qc 1) [] None None) as [[l cv]|] eqn:R; [|discriminate].
  destruct (h tp) as [tf|]; [|discriminate]. unfold group_ios. cbv zeta.
  assert (I : Forall (fun x => is_null (ff_term x) = false) (filter (fun x => negb (is_null (ff_term x))) l)).
  { apply Forall_forall. intros x J. apply filter_In in J as [_ J]. apply negb_true_iff in J. exact J. }
  assert (OF : forall o, Forall (fun x => is_null (ff_term x) = true) (out_flows j o)). { intros o. unfold out_flows. apply Forall_map, Forall_forall. intros; reflexivity. }
  destruct l as [|x0 l]; [discriminate|]. destruct (dget (f_flow tf) _) as [v|].
  - destruct (eqb (sign_dir v) (f_dir tf)); [|discriminate]. destruct (Qclt_le_dec _ _); intros E; injection E as <- <-; (split; [|exact I]); [apply OF|constructor; [reflexivity|apply OF]].
  - intros E; injection E as <- <-. split; [constructor; [reflexivity|apply OF]|exact I].
Qed.
Lemma cut_null k l : Forall (fun x => is_null (ff_term x) = true) l -> filter (fun x => is_null (ff_term x)) (map (fscale k) l) = map (fscale k) l.
Proof. induction 1 as [|[r f d m w t c s] l E _ IH]; [reflexivity|]. cbn in *. rewrite E, IH. reflexivity. Qed.
Lemma cut_inner k l : Forall (fun x => is_null (ff_term x) = false) l -> filter (fun x => is_null (ff_term x)) (map (fscale k) l) = [].
Proof. induction 1 as [|[r f d m w t c s] l E _ IH]; [reflexivity|]. cbn in *. rewrite E, IH. reflexivity. Qed.
Lemma eqb_dir (a b : dirn) : eqb a b = true -> a = b. Proof. destruct (eqb_spec a b); [auto|discriminate]. Qed.

Theorem C78_subfragment_accounts cf refq h sc obs above i m y brought kids f t j g :
  tree_ok cf refq h sc obs above (ENode i m y brought kids) ->
  h i = Some f -> termination f sc = FOk t -> t_node t = NFrag j -> j <> i -> h j = Some g -> f_bg g = false -> f_bg f = false -> m <> 0 ->
  exists n ext int dn w, unit_inv cf refq n h sc obs j = FOk (ext, int) /\ weighs cf refq f t above m w /\ ff_nw y = (if t_desc t then w else dn) /\
    forall fl, dn * net fl ext + (if Nat.eqb (t_flow t) fl then signed (f_dir f) w else 0) = net_kids h fl kids + net_cut fl brought.
Proof.
  intros OK HI TT TN NJ HJ BJ BI NM.
  inversion OK as [? f' t' ? ? ? HI' TT' _ EH|? f' t' ? ? ? ? HI' TT' _ _ K|? f' t' ? ? j' g' ? ? ? ? HI' TT' _ _ TN' _ HJ' BJ'
    |? f' t' ? w j' g' n ext int e0 taken left untaken dn ? ? ? HI' TT' WE NE TN' NJ' HJ' BJ' U PE FE NZ DN PC TK UN BR KO]; subst;
    assert (f' = f) by congruence; subst f'; assert (t' = t) by congruence; subst t'.
  - exfalso. destruct EH as [N|[N|N]]; congruence.
  - exfalso. destruct K as [[p K]|K]; congruence.
  - exfalso. congruence.
  - assert (j' = j) by congruence. subst j'. destruct (inv_parts _ _ _ _ _ _ _ _ _ U) as [NE1 NI].
    assert (NL : Forall (fun x => is_null (ff_term x) = true) left).
    { apply Forall_forall. intros x J. rewrite Forall_forall in NE1. apply NE1. eapply Permutation_in; [symmetry; exact PE|]. right. apply in_app_iff. auto. }
    set (dn := w / (if eqb (ff_dir e0) (f_dir f) then - ff_mag e0 else ff_mag e0)) in *.
    exists n, ext, int, dn, w. split; [exact U|]. split; [exact WE|]. split; [destruct (t_desc t); apply BR|]. intros fl.
    assert (EB : net_cut fl brought = dn * net fl left).
    { unfold net_cut. destruct (t_desc t); destruct BR as [_ ->].
      - rewrite map_app, filter_app, cut_inner, cut_null by assumption. apply net_of_scale.
      - rewrite cut_null by assumption. apply net_of_scale. }
    assert (EK : net_kids h fl kids = dn * net fl taken).
    { clear -TK. unfold net_kids, net. induction TK as [|e k l ks (f' & HF & FF & AM) _ IH]; [unfold Qcsum; cbn; ring|]. cbn [map]. rewrite !Qcsum_cons, IH, HF, FF, AM.
      destruct (Nat.eqb (f_flow f') fl); [|ring]. destruct (eqb_spec (ff_dir e) (f_dir f')) as [->|D]; [destruct (f_dir f'); cbn; ring|].
      destruct (ff_dir e), (f_dir f'); try congruence; cbn; ring. }
    rewrite (net_of_perm fl _ _ PE), EB, EK. change (e0 :: taken ++ left) with ([e0] ++ taken ++ left). rewrite !net_of_app.
    assert (NZ' : - ff_mag e0 <> 0) by (intros X; apply NZ; rewrite <- (Qcopp_involutive (ff_mag e0)), X; ring).
    assert (E0 : dn * net fl [e0] + (if Nat.eqb (t_flow t) fl then signed (f_dir f) w else 0) = 0).
    { unfold net, Qcsum. cbn. rewrite FE. destruct (Nat.eqb (t_flow t) fl); [|ring].
      unfold dn. destruct (eqb_spec (ff_dir e0) (f_dir f)) as [D|D]; [rewrite D; destruct (f_dir f); cbn; field; repeat split; first [exact NZ|exact NZ']|].
      destruct (ff_dir e0), (f_dir f); try congruence; cbn; field; repeat split; first [exact NZ|exact NZ']. }
    transitivity (dn * net fl [e0] + (if Nat.eqb (t_flow t) fl then signed (f_dir f) w else 0) + dn * net fl taken + dn * net fl left); [ring|]. rewrite E0. ring.
Qed.
Print Assumptions C78_subfragment_accounts.
(** Fragment 1 with a child (2) that ends in fragment 4 and a child (8) that ends in the background fragment 9. Fragment 4, per 2 units of flow 11, runs a process (5) and needs
    flow 13, which the child 3 of 2 supplies, and flow 15, which is cut off. *)
Definition h78s (d : bool) : heap := fun i => match i with
  | 1%nat => Some (Fr None [2%nat; 8%nat] 10 Output false false None [(K0, Some (Q2Qc 1)); (K1, Some (Q2Qc 0))] [(None, Tm (NFrag 1) 10 Input true)])
  | 2%nat => Some (Fr (Some 1%nat) [3%nat] 11 Input false false None [(K0, Some (Q2Qc 6)); (K1, Some (Q2Qc 0))] [(None, Tm (NFrag 4) 11 Output d)])
  | 3%nat => Some (Fr (Some 2%nat) [] 13 Input false false None [(K0, Some (Q2Qc 1)); (K1, Some (Q2Qc 0))] [(None, Tm (NProc 8) 13 Output true)])
  | 4%nat => Some (Fr None [5%nat; 6%nat; 7%nat] 11 Input false false None [(K0, Some (Q2Qc 2)); (K1, Some (Q2Qc 0))] [(None, Tm (NFrag 4) 11 Output true)])
  | 5%nat => Some (Fr (Some 4%nat) [] 12 Input false false None [(K0, Some (Q2Qc 5)); (K1, Some (Q2Qc 0))] [(None, Tm (NProc 9) 12 Output true)])
  | 6%nat => Some (Fr (Some 4%nat) [] 13 Input false false None [(K0, Some (Q2Qc 7)); (K1, Some (Q2Qc 0))] [(None, null_term 13 Input)])
  | 7%nat => Some (Fr (Some 4%nat) [] 15 Output false false None [(K0, Some (Q2Qc 4)); (K1, Some (Q2Qc 0))] [(None, null_term 15 Output)])
  | 8%nat => Some (Fr (Some 1%nat) [] 16 Input false false None [(K0, Some (Q2Qc 2)); (K1, Some (Q2Qc 0))] [(None, Tm (NFrag 9) 16 Output true)])
  | 9%nat => Some (Fr None [] 16 Input true false None [(K0, Some (Q2Qc 3)); (K1, Some (Q2Qc 0))] [(None, Tm (NProc 7) 16 Output true)])
  | _ => None end.
Definition t78s d := traverse (fun _ _ => 1) (fun _ => 0%nat) 9 (h78s d) ScNone false 1.
Example C78_subfragment_example :
  (forall d, children_ok (h78s d)) /\
  (exists l, t78s true = FOk l /\ map (fun x => (ff_ref x, ff_flow x, this (ff_mag x), this (ff_nw x), t_node (ff_term x))) l =
    [(Real 1, 10%nat, 1%Q, 1%Q, NFrag 1); (Real 2, 11%nat, 6%Q, 6%Q, NFrag 4); (Real 4, 11%nat, 6%Q, 3%Q, NFrag 4); (Real 5, 12%nat, 15%Q, 15%Q, NProc 9); (Real 3, 13%nat, 21%Q, 21%Q, NProc 8);
     (Ghost 4, 15%nat, 12%Q, 12%Q, NNull); (Real 8, 16%nat, 6%Q, 2%Q, NProc 7)]) /\
  (exists l, t78s false = FOk l /\ map (fun x => (ff_ref x, this (ff_mag x), this (ff_nw x), length (ff_subs x))) l =
    [(Real 1, 1%Q, 1%Q, 0%nat); (Real 2, 6%Q, 3%Q, 2%nat); (Real 3, 21%Q, 21%Q, 0%nat); (Ghost 4, 12%Q, 12%Q, 0%nat); (Real 8, 6%Q, 2%Q, 0%nat)]).
Proof.
  split; [|split; eexists; split; vm_compute; reflexivity]. intros d i f HI. do 10 (destruct i as [|i]; [cbn in HI; try discriminate; injection HI as <-; cbn [f_children]; (split;
    [repeat constructor; cbn; intuition discriminate|]);
    intros a b g k JA JB HA HB BA BB; cbn in JA, JB; repeat (destruct JA as [<-|JA]; [cbn in HA; injection HA as <-; discriminate BA|]); destruct JA|]). discriminate.
Qed.

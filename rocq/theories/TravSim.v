(** Normal form of a traversal step at a node that is not a subfragment; used to compare traversals of two heaps (C87, C88). *)
From Verif Require Import Num Base PyStr ProcModel FragModel FragProofs FragProps FragProps4 FragProps5 ObserveProps.
From Coq Require Import Permutation Sorted Lia.
Open Scope Qc_scope.
Open Scope string_scope.
Open Scope list_scope.
Local Arguments eqb : simpl never.

Section Loop.
Context (rec : rect) (nw : Qc) (seen : list nat) (q : option nat).
Definition out c := rec c nw seen q None.
Definition ent c : list ffl := match out c with FOk (l, _) => l | FErr _ => [] end.
Definition cvn c : Qc := match out c with FOk (_, Some v) => v | _ => 0 end.
Definition sig c : bool := match out c with FErr FoundBalanceFlow => true | _ => false end.
Definition fine c : Prop := sig c = true \/ exists l cv, out c = FOk (l, cv).
Definition lastof (l : list nat) (b : option nat) : option nat := match rev l with c :: _ => Some c | [] => b end.
Lemma fg_loop_char cs : forall ffs st b, (forall c, In c cs -> fine c) ->
  fg_loop rec nw seen q cs ffs st b = FOk (ffs ++ flat_map ent cs, st + Qcsum (map cvn cs), lastof (filter sig cs) b).
Proof.
  induction cs as [|c cs IH]; intros ffs st b F; cbn [fg_loop flat_map map filter].
  - rewrite app_nil_r. unfold lastof, Qcsum. cbn. do 3 f_equal. ring.
  - assert (F' : forall c, In c cs -> fine c) by (intros d D; apply F; right; exact D). assert (FC := F c (or_introl eq_refl)). unfold fine, sig, ent, cvn in *. unfold out in *. destruct (rec c nw seen q None) as [[l cv]|e].
    + rewrite IH by exact F'. rewrite app_assoc, Qcsum_cons. do 3 f_equal. destruct cv; cbn; ring.
    + destruct FC as [E|(l & cv & E)]; [|discriminate]. destruct e; try discriminate. rewrite IH by exact F'. cbn [app]. rewrite Qcsum_cons. f_equal. f_equal; [f_equal; ring|].
      unfold lastof. cbn [rev]. fold sig. destruct (rev (filter _ cs)); reflexivity.
Qed.
Lemma fg_loop_fine cs : forall ffs st b r, fg_loop rec nw seen q cs ffs st b = FOk r -> forall c, In c cs -> fine c.
Proof.
  induction cs as [|c cs IH]; intros ffs st b r E d D; [contradiction|]. cbn in E. unfold fine, sig, out in *. destruct (rec c nw seen q None) as [[l cv]|e] eqn:R.
  - destruct D as [<-|D]; [right; rewrite R; eauto|exact (IH _ _ _ _ E d D)].
  - destruct e; try discriminate. destruct D as [<-|D]; [left; rewrite R; reflexivity|exact (IH _ _ _ _ E d D)].
Qed.
End Loop.

Section Node.
Context (cf : nat -> nat -> Qc) (refq : nat -> nat) (h : heap) (sc : scen) (obs : bool).
Definition start_stock (i : nat) (f : frag) (t : term) (s : Qc) : Prop :=
  exists s0, (if is_fg i t then match f_parent f with None => exchange_value f sc obs | Some _ => FOk 1 end else FOk 1) = FOk s0 /\
    s = match f_cons f with None => s0 | Some q => match f_dir f with Input => - (s0 * cf (f_flow f) q) | Output => s0 * cf (f_flow f) q end end.
Definition towards (c : nat) (s : Qc) : Qc := match h c with Some g => match f_dir g with Input => - s | Output => s end | None => s end.
Definition fg_run (rec : rect) (i : nat) (f : frag) (x : ffl) (seen : list nat) (l : list ffl) : Prop :=
  exists s, start_stock i f (ff_term x) s /\ (forall c, In c (child_flows f) -> fine rec (ff_nw x) seen (f_cons f) c) /\
    let L := x :: flat_map (ent rec (ff_nw x) seen (f_cons f)) (child_flows f) in
    let st := s + Qcsum (map (cvn rec (ff_nw x) seen (f_cons f)) (child_flows f)) in
    match lastof (filter (sig rec (ff_nw x) seen (f_cons f)) (child_flows f)) None with
    | None => l = L
    | Some b => exists lb cvb, rec b (ff_nw x) seen None (Some (towards b st)) = FOk (lb, cvb) /\ l = L ++ lb
    end.
Lemma trav_fg_run rec i f x seen l : trav_fg cf rec h sc obs i f x seen = FOk l <-> fg_run rec i f x seen l.
Proof.
  unfold trav_fg, fg_run, start_stock. change (Q2Qc 1) with 1. destruct (if is_fg i (ff_term x) then _ else _) as [s0|e] eqn:S0.
  2:{ split; [discriminate|]. intros (s & (s1 & E & _) & _). discriminate. }
  set (st0 := match f_cons f with None => s0 | Some q => _ end). split.
  - destruct (fg_loop rec (ff_nw x) seen (f_cons f) (child_flows f) [x] st0 None) as [[[ffs s] bb]|e] eqn:L; [|discriminate]. intros E. exists st0. split; [exists s0; auto|].
    assert (F := fg_loop_fine _ _ _ _ _ _ _ _ _ L). split; [exact F|]. rewrite (fg_loop_char _ _ _ _ _ _ _ _ F) in L. injection L as <- <- BB. cbv zeta. rewrite BB. destruct bb as [b|]; [|cbn in E; congruence].
    unfold towards. destruct (rec b _ _ _ _) as [[lb cvb]|]; [|discriminate]. injection E as <-. exists lb, cvb. auto.
  - intros (s & (s1 & [= <-] & ->) & F & E). fold st0 in E. rewrite (fg_loop_char _ _ _ _ _ _ _ _ F). cbv zeta in E. destruct (lastof _ None) as [b|]; [|rewrite E; reflexivity].
    destruct E as (lb & cvb & R & ->). unfold towards in R. rewrite R. reflexivity.
Qed.
Definition node_value (f : frag) (bal : option Qc) (ev : Qc) : Prop := match bal with Some b => ev = b | None => exchange_value f sc obs = FOk ev end.
Definition node_weight (f : frag) (t : term) (nw mag w : Qc) : Prop :=
  match f_parent f with None => w = nw | Some _ => if is_null t then w = mag else exists k, multiplier cf refq (f_flow f) t = FOk k /\ w = mag * k end.
Definition see (i : nat) (f : frag) (seen : list nat) : list nat := match f_parent f with None => i :: seen | Some _ => seen end.
Definition node_run (rec : rect) (i : nat) (nw : Qc) (seen : list nat) (q : option nat) (bal : option Qc) (l : list ffl) (cv : option Qc) : Prop :=
  exists f ev t w kept, h i = Some f /\ (f_parent f = None -> mem i seen = false) /\ node_value f bal ev /\ termination f sc = FOk t /\ node_weight f t nw (nw * ev) w /\
    conservation cf h f ev q = FOk (cv, kept) /\
    let x := FF (Real i) (f_flow f) (f_dir f) (nw * ev) w t kept [] in
    if is_null t || f_bg f || eqb (nw * ev) 0 then l = [x] else fg_run rec i f x (see i f seen) l.
(** the termination of [i] is not to another fragment *)
Definition own_node (i : nat) : Prop := forall f t j, h i = Some f -> termination f sc = FOk t -> t_node t = NFrag j -> j = i.
Lemma trav_node_run rec n i nw seen q bal l cv : own_node i -> trav_node cf refq rec n h sc obs i nw seen q bal = FOk (l, cv) <-> node_run rec i nw seen q bal l cv.
Proof.
  intros NS. unfold trav_node, node_run. destruct (h i) as [f|] eqn:HI.
  2:{ split; [discriminate|]. intros (f & ? & ? & ? & ? & E & _). discriminate. }
  assert (SEEN : (if match f_parent f with None => true | Some _ => false end then i :: seen else seen) = see i f seen) by (unfold see; destruct (f_parent f); reflexivity).
  split.
  - destruct (match f_parent f with None => true | Some _ => false end && mem i seen) eqn:M; [discriminate|]. rewrite SEEN. clear SEEN. intros E.
    destruct (match bal with Some b => FOk b | None => _ end) as [ev|] eqn:EV; [|discriminate].
    destruct (match_term f sc) as [m|] eqn:MT; [|discriminate]. destruct (dget m (f_terms f)) as [t|] eqn:DT; [|discriminate]. cbv zeta in E.
    destruct (if match f_parent f with None => true | Some _ => false end then _ else _) as [w|] eqn:W; [|discriminate].
    destruct (conservation cf h f ev q) as [[cv' kept]|] eqn:CO; [|discriminate].
    assert (TT : termination f sc = FOk t) by (unfold termination; rewrite MT, DT; reflexivity).
    assert (CV : cv' = cv).
    { destruct (_ || _); [congruence|]. destruct (t_node t); [congruence| |]; [|destruct (Nat.eqb _ _)]; match type of E with match ?a with _ => _ end = _ => destruct a end; congruence. }
    subst cv'. exists f, ev, t, w, kept. split; [reflexivity|]. split; [intros P; rewrite P in M; exact M|]. split.
    { unfold node_value. destruct bal; [congruence|]. unfold exchange_value. exact EV. }
    split; [exact TT|]. split.
    { unfold node_weight. destruct (f_parent f); [|congruence]. destruct (is_null t); [congruence|]. destruct (multiplier cf refq (f_flow f) t) as [k|]; [|discriminate]. exists k. split; [reflexivity|congruence]. }
    split; [exact CO|]. cbv zeta. change (Q2Qc 0) with 0 in E. destruct (is_null t || f_bg f || eqb (nw * ev) 0) eqn:Z; [congruence|].
    destruct (t_node t) as [|pr|j] eqn:TN.
    + apply orb_false_iff in Z as [Z _]. apply orb_false_iff in Z as [Z _]. unfold is_null in Z. rewrite TN in Z. discriminate.
    + destruct (trav_fg _ _ _ _ _ _ _ _ _) as [l1|] eqn:T; [|discriminate]. injection E as <-. apply trav_fg_run. exact T.
    + destruct (Nat.eqb_spec j i) as [->|N].
      * destruct (trav_fg _ _ _ _ _ _ _ _ _) as [l1|] eqn:T; [|discriminate]. injection E as <-. apply trav_fg_run. exact T.
      * exfalso. exact (N (NS f t j HI TT TN)).
  - intros (f' & ev & t & w & kept & [= <-] & P & V & TT & W & CO & X).
    assert (M : match f_parent f with None => true | Some _ => false end && mem i seen = false) by (destruct (f_parent f); [reflexivity|apply P; reflexivity]). rewrite M, SEEN.
    assert (EV : match bal with Some b => FOk b | None => match match_ev f sc with FErr e => FErr e | FOk m => FOk (ev_for f m obs) end end = FOk ev) by (unfold node_value in V; destruct bal; [congruence|exact V]).
    rewrite EV. assert (MT : exists m, match_term f sc = FOk m /\ dget m (f_terms f) = Some t). { unfold termination in TT. destruct (match_term f sc) as [m|]; [|discriminate]. destruct (dget m (f_terms f)) as [t'|] eqn:D; [|discriminate]. exists m. split; [reflexivity|congruence]. }
    destruct MT as (m & -> & ->). cbv zeta.
    assert (WW : (if match f_parent f with None => true | Some _ => false end then FOk nw else if is_null t then FOk (nw * ev) else match multiplier cf refq (f_flow f) t with FErr e => FErr e | FOk k => FOk (nw * ev * k)%Qc end) = FOk w).
    { unfold node_weight in W. destruct (f_parent f); [|congruence]. destruct (is_null t); [congruence|]. destruct W as (k & -> & ->). reflexivity. }
    rewrite WW, CO. change (Q2Qc 0) with 0. cbv zeta in X. destruct (is_null t || f_bg f || eqb (nw * ev) 0) eqn:Z; [rewrite X; reflexivity|]. apply trav_fg_run in X.
    destruct (t_node t) as [|pr|j] eqn:TN.
    + apply orb_false_iff in Z as [Z _]. apply orb_false_iff in Z as [Z _]. unfold is_null in Z. rewrite TN in Z. discriminate.
    + rewrite X. reflexivity.
    + rewrite (NS f t j HI TT TN), Nat.eqb_refl, X. reflexivity.
Qed.
(** the signal of a balance flow *)
Definition signal_run (i : nat) (nw : Qc) (seen : list nat) (q : option nat) (bal : option Qc) : Prop :=
  exists f ev t w q', q = Some q' /\ h i = Some f /\ f_isbal f = true /\ (f_parent f = None -> mem i seen = false) /\ node_value f bal ev /\ termination f sc = FOk t /\ node_weight f t nw (nw * ev) w.
Lemma trav_node_signal rec n i nw seen q bal : own_node i -> (forall f c nw s q b, h i = Some f -> In c (child_flows f) -> rec c nw s q b = FErr FoundBalanceFlow -> q <> None) -> trav_node cf refq rec n h sc obs i nw seen q bal = FErr FoundBalanceFlow -> signal_run i nw seen q bal.
Proof.
  intros NS SO E.
  { unfold trav_node in E. destruct (h i) as [f|] eqn:HI; [|discriminate].
    destruct (match f_parent f with None => true | Some _ => false end && mem i seen) eqn:M; [discriminate|].
    destruct (match bal with Some b => FOk b | None => _ end) as [ev|e] eqn:EV.
    2:{ destruct bal; [discriminate|]. exfalso. unfold match_ev in EV. injection E as ->. destruct sc as [|k|ks]; try discriminate. destruct (filter _ _) as [|? [|? ?]]; discriminate. }
    destruct (match_term f sc) as [m|e] eqn:MT.
    2:{ exfalso. unfold match_term in MT. injection E as ->. destruct sc as [|k|ks]; [discriminate|destruct (_ || _); discriminate|]. destruct (filter _ _) as [|? [|? ?]]; discriminate. }
    destruct (dget m (f_terms f)) as [t|] eqn:DT; [|discriminate]. cbv zeta in E.
    assert (TT : termination f sc = FOk t) by (unfold termination; rewrite MT, DT; reflexivity).
    destruct (if match f_parent f with None => true | Some _ => false end then _ else _) as [w|e] eqn:W.
    2:{ exfalso. injection E as ->. destruct (f_parent f); [|discriminate]. destruct (is_null t); [discriminate|].
        unfold multiplier in W. destruct (Nat.eqb _ _); [discriminate|]. destruct (Nat.eqb _ _); [discriminate|]. destruct (eqb (cf (f_flow f) _) _); [|discriminate]. destruct (eqb _ _); discriminate. }
    assert (NW : node_weight f t nw (nw * ev) w).
    { unfold node_weight. destruct (f_parent f); [|congruence]. destruct (is_null t); [congruence|]. destruct (multiplier cf refq (f_flow f) t) as [k|]; [|discriminate]. exists k. split; [reflexivity|congruence]. }
    assert (NV : node_value f bal ev) by (unfold node_value; destruct bal; [congruence|exact EV]).
    destruct (conservation cf h f ev q) as [[cv kept]|e] eqn:CO.
    2:{ injection E as ->. unfold conservation in CO. destruct q as [q'|].
        - destruct (f_isbal f) eqn:IB; [|destruct (eqb _ _); discriminate]. exists f, ev, t, w, q'. repeat (split; auto). intros P. rewrite P in M. exact M.
        - destruct (f_isbal f); [discriminate|]. unfold balance_flow in CO. destruct (f_cons f); [|discriminate]. destruct (filter _ _); discriminate. }
    exfalso. destruct (is_null t || f_bg f || eqb (nw * ev) (Q2Qc 0)); [discriminate|].
    assert (TF : forall x s, trav_fg cf rec h sc obs i f x s <> FErr FoundBalanceFlow).
    { intros x s0 T. unfold trav_fg in T. destruct (if is_fg i (ff_term x) then _ else _) as [s1|e] eqn:S0.
      2:{ injection T as ->. destruct (is_fg i (ff_term x)); [|discriminate]. destruct (f_parent f); [discriminate|]. unfold exchange_value, match_ev in S0.
          destruct sc as [|k|ks]; try discriminate. destruct (filter _ _) as [|? [|? ?]]; discriminate. }
      cbv zeta in T. destruct (fg_loop _ _ _ _ _ _ _ _) as [[[ffs stock] b1]|e] eqn:L.
      - destruct b1 as [b1|]; [|discriminate]. destruct (rec b1 _ _ None _) as [[l1 cv1]|e] eqn:R; [discriminate|]. injection T as ->. destruct (fg_loop_from _ _ _ _ _ _ _ _ _ _ _ L b1 eq_refl) as [Z|JB]; [discriminate|]. apply (SO f b1 _ _ _ _ eq_refl JB) in R. contradiction.
      - injection T as ->. assert (X : forall cs ffs st b, fg_loop rec (ff_nw x) s0 (f_cons f) cs ffs st b <> FErr FoundBalanceFlow).
        { induction cs as [|d cs IHc]; intros ffs st bb LL; cbn in LL; [discriminate|]. destruct (rec d _ _ _ None) as [[l1 cv1]|ee]; [eapply IHc; exact LL|]. destruct ee; try discriminate; eapply IHc; exact LL. }
        eapply X; exact L. }
    destruct (t_node t) as [|pr|j] eqn:TN; [discriminate| |].
    + destruct (trav_fg _ _ _ _ _ _ _ _ _) as [l|e] eqn:T; [discriminate|]. injection E as ->. eapply TF; exact T.
    + destruct (Nat.eqb_spec j i) as [->|N].
      * destruct (trav_fg _ _ _ _ _ _ _ _ _) as [l|e] eqn:T; [discriminate|]. injection E as ->. eapply TF; exact T.
      * exact (N (NS f t j HI TT TN)).
  }
Qed.
Lemma trav_node_signal_of rec n i nw seen q bal : signal_run i nw seen q bal -> trav_node cf refq rec n h sc obs i nw seen q bal = FErr FoundBalanceFlow.
Proof.
  { intros (f & ev & t & w & q' & -> & HI & IB & P & V & TT & W). unfold trav_node. rewrite HI.
    assert (M : match f_parent f with None => true | Some _ => false end && mem i seen = false) by (destruct (f_parent f); [reflexivity|apply P; reflexivity]). rewrite M.
    assert (EV : match bal with Some b => FOk b | None => match match_ev f sc with FErr e => FErr e | FOk m => FOk (ev_for f m obs) end end = FOk ev) by (unfold node_value in V; destruct bal; [congruence|exact V]).
    rewrite EV. assert (MT : exists m, match_term f sc = FOk m /\ dget m (f_terms f) = Some t). { unfold termination in TT. destruct (match_term f sc) as [m|]; [|discriminate]. destruct (dget m (f_terms f)) as [t'|] eqn:D; [|discriminate]. exists m. split; [reflexivity|congruence]. }
    destruct MT as (m & -> & ->). cbv zeta.
    assert (WW : (if match f_parent f with None => true | Some _ => false end then FOk nw else if is_null t then FOk (nw * ev) else match multiplier cf refq (f_flow f) t with FErr e => FErr e | FOk k => FOk (nw * ev * k)%Qc end) = FOk w).
    { unfold node_weight in W. destruct (f_parent f); [|congruence]. destruct (is_null t); [congruence|]. destruct W as (k & -> & ->). reflexivity. }
    rewrite WW. unfold conservation. rewrite IB. reflexivity. }
Qed.
Lemma trav_signal_in (D : nat -> Prop) n c nw s q b : (forall c, D c -> own_node c) -> (forall c f d, D c -> h c = Some f -> In d (f_children f) -> D d) -> D c ->
  trav cf refq n h sc obs c nw s q b = FErr FoundBalanceFlow -> q <> None.
Proof.
  intros NS DC. revert c nw s q b. induction n as [|n IH]; intros c nw s q b Dc E; [discriminate|]. cbn [trav] in E. apply trav_node_signal in E; [|exact (NS c Dc)|].
  - destruct E as (f & ev & t & w & q' & -> & _). discriminate.
  - intros f d nw0 s0 q0 b0 HF J. apply IH. apply (DC c f d Dc HF). apply In_child_flows, J.
Qed.
Lemma trav_signal_q n c nw s q b : no_subfragments h sc -> trav cf refq n h sc obs c nw s q b = FErr FoundBalanceFlow -> q <> None.
Proof. intros NS. apply (trav_signal_in (fun _ => True)); [intros d _ f t j HD; apply NS; exact HD|auto|exact I]. Qed.
End Node.

(** * Sorting by uuid *)
Lemma insert_sorted x l : StronglySorted le l -> StronglySorted le (insert x l).
Proof.
  induction l as [|y l IH]; intros SS; cbn; [repeat constructor|]. inversion SS as [|? ? SS' FA]; subst. destruct (Nat.leb_spec x y) as [L|L].
  - constructor; [exact SS|]. constructor; [exact L|]. eapply Forall_impl; [|exact FA]. intros; lia.
  - constructor; [apply IH, SS'|]. apply Forall_forall. intros z Z. apply In_insert in Z as [->|Z]; [lia|]. exact (proj1 (Forall_forall _ _) FA z Z).
Qed.
Lemma isort_sorted l : StronglySorted le (fold_right insert [] l).
Proof. induction l as [|x l IH]; cbn; [constructor|apply insert_sorted, IH]. Qed.
Lemma insert_first x l : (forall y, In y l -> (x <= y)%nat) -> insert x l = x :: l.
Proof. destruct l as [|y l]; intros F; cbn; [reflexivity|]. destruct (Nat.leb_spec x y) as [_|L]; [reflexivity|]. specialize (F y (or_introl eq_refl)). lia. Qed.
Lemma filter_insert (P : nat -> bool) x l : StronglySorted le l -> filter P (insert x l) = if P x then insert x (filter P l) else filter P l.
Proof.
  induction l as [|y l IH]; intros SS; cbn [insert filter]; [destruct (P x); reflexivity|]. inversion SS as [|? ? SS' FA]; subst. destruct (Nat.leb_spec x y) as [L|L].
  - cbn [filter]. destruct (P x) eqn:PX; [|reflexivity]. symmetry. change (if P y then y :: filter P l else filter P l) with (filter P (y :: l)). apply insert_first. intros z Z. apply filter_In in Z as [Z _]. destruct Z as [<-|Z]; [exact L|]. assert (y <= z)%nat by exact (proj1 (Forall_forall _ _) FA z Z). lia.
  - cbn [filter]. rewrite (IH SS'). destruct (P y) eqn:PY; destruct (P x) eqn:PX; try reflexivity. cbn. destruct (Nat.leb_spec x y) as [L'|_]; [lia|reflexivity].
Qed.
Lemma filter_isort (P : nat -> bool) l : filter P (fold_right insert [] l) = fold_right insert [] (filter P l).
Proof. induction l as [|x l IH]; cbn; [reflexivity|]. rewrite filter_insert by apply isort_sorted. rewrite IH. destruct (P x); reflexivity. Qed.
Lemma insert_perm x l : Permutation (insert x l) (x :: l).
Proof. induction l as [|y l IH]; cbn; [reflexivity|]. destruct (Nat.leb x y); [reflexivity|]. rewrite IH. apply perm_swap. Qed.
Lemma child_flows_perm f : Permutation (child_flows f) (f_children f).
Proof. unfold child_flows. induction (f_children f) as [|x l IH]; cbn; [reflexivity|]. rewrite insert_perm. constructor. exact IH. Qed.

(** C42, C43 (default values and setters), C78 (amounts along the fragments of a tree). *)
From Verif Require Import Num Base PyStr ProcModel FragModel FragProofs FragProps FragProps2.
From Coq Require Import Permutation.
Open Scope Qc_scope.
Open Scope string_scope.
Open Scope list_scope.
Local Arguments eqb : simpl never.

(** * C42: what is returned when no scenario applies *)
(** What a fragment has stored: the cached value under 0, the observed value under 1. *)
Definition has_value (f : frag) (k : skey) (v : Qc) : Prop := dget k (f_evs f) = Some (Some v).
Theorem C42_default_values f :
  (forall v, has_value f K0 v -> v <> 0 -> exchange_value f ScNone false = FOk v) /\
  ((forall v, has_value f K0 v -> v = 0) -> exchange_value f ScNone false = FOk 1) /\
  (forall v, has_value f K1 v -> (f_parent f <> None \/ v <> 0) -> exchange_value f ScNone true = FOk v) /\
  (forall v, has_value f K1 0 -> f_parent f = None -> has_value f K0 v -> exchange_value f ScNone true = FOk v) /\
  ((forall v, ~ has_value f K1 v) -> exchange_value f ScNone true = FOk 0).
Proof.
  unfold has_value, exchange_value, match_ev, ev_for, cached_ev, observed_ev, num. repeat split.
  - intros v E NZ. rewrite E. destruct (eqb_spec v (Q2Qc 0)); [contradiction|reflexivity].
  - intros H. destruct (dget K0 (f_evs f)) as [[v|]|]; [|reflexivity|reflexivity]. rewrite (H v eq_refl). reflexivity.
  - intros v E H. rewrite E. destruct (f_parent f); [reflexivity|]. destruct (eqb_spec (Some v) (Some (Q2Qc 0))) as [X|_]; [|reflexivity].
    destruct H as [H|H]; [congruence|]. exfalso. apply H. injection X as ->. reflexivity.
  - intros v E1 P E0. rewrite E1, P, E0. change (Some 0) with (Some (Q2Qc 0)). rewrite eqb_refl. reflexivity.
  - intros H. destruct (dget K1 (f_evs f)) as [[v|]|]; [exfalso; apply (H v); reflexivity| |]; destruct (f_parent f); reflexivity.
Qed.
Print Assumptions C42_default_values.

(** * C43: the setters *)
(** A refused call changes nothing. *)
Theorem C43_refused_changes_nothing h i sc v h' e : set_exchange_value h i sc v = (h', FErr e) -> h' = h.
Proof.
  unfold set_exchange_value. destruct (h i) as [f|]; [|intros E; injection E; auto]. destruct (observable h f sc) as [[|]|]; try (intros E; injection E; auto; fail).
  destruct sc as [|[]|]; intros E; try discriminate; injection E; auto.
Qed.
(** The names "0" and "1" stand for the cached and the observed value. *)
Theorem C43_digit_names h i v h' :
  (set_exchange_value h i (ScKey (KS "0")) (Some v) = (h', FOk tt) -> v <> 0 ->
     exists f', h' i = Some f' /\ exchange_value f' ScNone false = FOk v) /\
  (set_exchange_value h i (ScKey (KS "1")) (Some v) = (h', FOk tt) ->
     exists f', h' i = Some f' /\ (f_parent f' <> None \/ v <> 0 -> exchange_value f' ScNone true = FOk v)).
Proof.
  unfold set_exchange_value. destruct (h i) as [f|]; [|split; discriminate]. split; intros E.
  - intros NZ. destruct (observable h f _) as [[|]|]; try discriminate. injection E as <-. eexists. split; [unfold hset; rewrite Nat.eqb_refl; reflexivity|].
    apply C42_default_values; [|exact NZ]. unfold has_value. cbn. apply dget_dset_same.
  - destruct (observable h f _) as [[|]|]; try discriminate. injection E as <-. eexists. split; [unfold hset; rewrite Nat.eqb_refl; reflexivity|].
    intros H. apply (proj1 (proj2 (proj2 (C42_default_values _)))); [|exact H]. unfold has_value. cbn. apply dget_dset_same.
Qed.
(** The cached value can be set once: while it is 1 (its initial value); then it reads back; later attempts are refused. *)
Theorem C43_cached_once h i f v w : h i = Some f -> exchange_value f ScNone false = FOk w ->
  (w <> 1 -> set_cached h i v = (h, FErr CacheAlreadySet)) /\
  (forall h', set_cached h i v = (h', FOk tt) -> v <> 0 -> w = 1 /\ exists f', h' i = Some f' /\ exchange_value f' ScNone false = FOk v /\
     forall j, j <> i -> h' j = h j).
Proof.
  intros HI E. cbn in E. injection E as <-. unfold set_cached. rewrite HI. split.
  - intros N. destruct (eqb_spec (cached_ev f) (Q2Qc 1)); [contradiction|reflexivity].
  - intros h'. destruct (eqb_spec (cached_ev f) (Q2Qc 1)) as [E1|]; [|discriminate]. destruct (eqb_spec v (Q2Qc 1)) as [->|N1].
    + intros [= <-] _. split; [exact E1|]. exists f. split; [exact HI|]. split; [cbn; rewrite E1; reflexivity|auto].
    + intros S NZ. split; [exact E1|]. unfold set_exchange_value in S. rewrite HI in S. destruct (observable h f _) as [[|]|]; try discriminate.
      change (eqb K0 (KS "0")) with false in S. change (eqb K0 (KS "1")) with false in S. injection S as <-.
      eexists. split; [unfold hset; rewrite Nat.eqb_refl; reflexivity|]. split.
      * apply C42_default_values; [|exact NZ]. unfold has_value. cbn. apply dget_dset_same.
      * intros j N. unfold hset. destruct (Nat.eqb_spec j i); [contradiction|reflexivity].
Qed.
Print Assumptions C43_refused_changes_nothing.
Print Assumptions C43_digit_names.
Print Assumptions C43_cached_once.
Example C43_setters_example : exists h', set_cached h40 1 (Q2Qc 5) = (h', FOk tt) /\ snd (set_cached h' 1 (Q2Qc 6)) = FErr CacheAlreadySet.
Proof. eexists. split; vm_compute; reflexivity. Qed.

(** * C78: amounts *)

(** How much of the termination's flow corresponds to one unit of the fragment's flow. *)
Definition converts (cf : nat -> nat -> Qc) (refq : nat -> nat) (flow tflow : nat) (k : Qc) : Prop :=
  ((flow = tflow \/ refq flow = refq tflow) /\ k = 1) \/
  (flow <> tflow /\ refq flow <> refq tflow /\ cf flow (refq tflow) <> 0 /\ k = cf flow (refq tflow)) \/
  (flow <> tflow /\ refq flow <> refq tflow /\ cf flow (refq tflow) = 0 /\ cf tflow (refq flow) <> 0 /\ k = 1 / cf tflow (refq flow)).

(** No fragment is terminated to another fragment. *)
Definition no_subfragments (h : heap) (sc : scen) : Prop :=
  forall i f t j, h i = Some f -> termination f sc = FOk t -> t_node t = NFrag j -> j = i.
Definition children_have_parents (h : heap) : Prop :=
  forall p f c g, h p = Some f -> In c (f_children f) -> h c = Some g -> f_parent g <> None.

(** Entry [x] is that of the child [c] of the node with entry [y]: its magnitude is the node's weight times its exchange value
    (unless it is a balance flow, C39); its weight is its magnitude converted to the termination. *)
Definition own_entry (h : heap) (c : nat) (x : ffl) : Prop := exists f, h c = Some f /\ ff_ref x = Real c /\ ff_flow x = f_flow f /\ ff_dir x = f_dir f.
Definition child_entry (cf : nat -> nat -> Qc) (refq : nat -> nat) (h : heap) (sc : scen) (obs : bool) (y : ffl) (c : nat) (x : ffl) : Prop :=
  own_entry h c x /\
  (forall f ev, h c = Some f -> f_isbal f = false -> exchange_value f sc obs = FOk ev -> ff_mag x = ff_nw y * ev) /\
  (forall f t, h c = Some f -> termination f sc = FOk t -> ff_term x = t /\
     (t_node t = NNull -> ff_nw x = ff_mag x) /\
     (t_node t <> NNull -> exists k, converts cf refq (f_flow f) (t_flow t) k /\ ff_nw x = ff_mag x * k)).
(** A node whose children are listed: not cut off, not background, not zero. *)
Definition expanded (h : heap) (p : nat) (x : ffl) : Prop :=
  exists f, h p = Some f /\ f_bg f = false /\ t_node (ff_term x) <> NNull /\ ff_mag x <> 0.

(** A child that is not the balance flow of its parent. *)
Definition plain (h : heap) (c : nat) : Prop := forall f, h c = Some f -> f_isbal f = false.

Section A.
Context (cf : nat -> nat -> Qc) (refq : nat -> nat) (h : heap) (sc : scen) (obs : bool).
Hypothesis NS : no_subfragments h sc.
Hypothesis CP : children_have_parents h.
Notation child_entry := (child_entry cf refq h sc obs).

(** Every entry but the first is that of a child of an expanded entry of the list, and every child of an expanded entry is listed. *)
Definition consistent (l : list ffl) : Prop :=
  (forall x, In x l -> exists i, own_entry h i x) /\
  (forall y p f c, In y l -> ff_ref y = Real p -> expanded h p y -> h p = Some f -> In c (f_children f) -> plain h c -> exists x, In x l /\ child_entry y c x).
Definition sourced (l : list ffl) (x : ffl) : Prop :=
  exists y p f c, In y l /\ ff_ref y = Real p /\ expanded h p y /\ h p = Some f /\ In c (f_children f) /\ child_entry y c x.

Lemma In_insert a b l : In a (insert b l) <-> a = b \/ In a l.
Proof. induction l as [|c l IH]; cbn; [intuition|]. destruct (Nat.leb b c); cbn; [intuition|]. rewrite IH. intuition. Qed.
Lemma In_child_flows c f : In c (child_flows f) <-> In c (f_children f).
Proof. unfold child_flows. induction (f_children f) as [|a l IH]; cbn; [tauto|]. rewrite In_insert, IH. intuition. Qed.

Lemma multiplier_converts flow t k : multiplier cf refq flow t = FOk k -> converts cf refq flow (t_flow t) k.
Proof.
  unfold multiplier, converts. destruct (Nat.eqb_spec flow (t_flow t)); [intros [= <-]; auto|]. destruct (Nat.eqb_spec (refq flow) (refq (t_flow t))); [intros [= <-]; auto|].
  destruct (eqb_spec (cf flow (refq (t_flow t))) (Q2Qc 0)) as [E|N]; [|intros [= <-]; auto 8].
  destruct (eqb_spec (cf (t_flow t) (refq flow)) (Q2Qc 0)); [discriminate|]. intros [= <-]. right; right. auto.
Qed.

(** What one call returns. *)
Definition call_ok (i : nat) (nw : Qc) (bal : option Qc) (l : list ffl) : Prop :=
  exists x rest, l = x :: rest /\ own_entry h i x /\ consistent l /\ (forall z, In z rest -> sourced l z) /\
    (forall f ev, h i = Some f -> bal = None -> exchange_value f sc obs = FOk ev -> ff_mag x = nw * ev) /\
    (forall f t, h i = Some f -> termination f sc = FOk t -> ff_term x = t /\
       (f_parent f = None -> ff_nw x = nw) /\
       (f_parent f <> None -> (t_node t = NNull -> ff_nw x = ff_mag x) /\
         (t_node t <> NNull -> exists k, converts cf refq (f_flow f) (t_flow t) k /\ ff_nw x = ff_mag x * k))).
Definition rec_ok (rec : rect) : Prop := forall i nw seen q bal l cv, rec i nw seen q bal = FOk (l, cv) -> call_ok i nw bal l.

Lemma call_child i nw bal l y p f : call_ok i nw bal l -> h p = Some f -> In i (f_children f) -> ff_nw y = nw ->
  (bal <> None -> forall g, h i = Some g -> f_isbal g = true) -> exists x rest, l = x :: rest /\ child_entry y i x.
Proof.
  intros (x & rest & -> & O & _ & _ & M & T) HP J NW B. exists x, rest. split; [reflexivity|]. split; [exact O|]. split.
  - intros g ev HI NB EV. rewrite NW. apply (M g ev HI); [|exact EV]. destruct bal as [b|]; [|reflexivity]. exfalso. rewrite (B ltac:(discriminate) g HI) in NB. discriminate.
  - intros g t HI TT. destruct (T g t HI TT) as (T1 & _ & T2). split; [exact T1|]. exact (T2 (CP p f i g HP J HI)).
Qed.

(** Joining the lists of the children of [x]. *)
Definition joined (x : ffl) (i : nat) (f : frag) (cs : list nat) (l : list ffl) : Prop :=
  (forall z, In z l -> exists j, own_entry h j z) /\
  (forall c, In c cs -> plain h c -> exists z, In z l /\ child_entry x c z) /\
  (forall y p g c, In y l -> ff_ref y = Real p -> expanded h p y -> h p = Some g -> In c (f_children g) -> plain h c -> exists z, In z l /\ child_entry y c z) /\
  (forall z, In z l -> sourced (x :: l) z).
Lemma sourced_incl l m x : incl l m -> sourced l x -> sourced m x.
Proof. intros I (y & p & f & c & J & R). exists y, p, f, c. split; [apply I; exact J|exact R]. Qed.
Lemma joined_app x i f cs ds l m : joined x i f cs l -> joined x i f ds m -> joined x i f (cs ++ ds) (l ++ m).
Proof.
  intros (A1 & A2 & A3 & A4) (B1 & B2 & B3 & B4). repeat split.
  - intros z J. apply in_app_iff in J as [J|J]; auto.
  - intros c J P. apply in_app_iff in J as [J|J]; [destruct (A2 c J P) as (z & Jz & C)|destruct (B2 c J P) as (z & Jz & C)]; exists z; rewrite in_app_iff; auto.
  - intros y p g c J R X HP C P. apply in_app_iff in J as [J|J]; [destruct (A3 y p g c J R X HP C P) as (z & Jz & Z)|destruct (B3 y p g c J R X HP C P) as (z & Jz & Z)]; exists z; rewrite in_app_iff; auto.
  - intros z J. apply in_app_iff in J as [J|J]; [eapply sourced_incl; [|apply A4; exact J]|eapply sourced_incl; [|apply B4; exact J]];
      intros w [<-|Jw]; cbn; rewrite ?in_app_iff; auto.
Qed.
Lemma joined_nil x i f : joined x i f [] [].
Proof. unfold joined. repeat split; intros; cbn in *; contradiction. Qed.
Lemma joined_one x i f c bal l : h i = Some f -> ff_ref x = Real i -> expanded h i x -> In c (f_children f) -> call_ok c (ff_nw x) bal l ->
  (bal <> None -> forall g, h c = Some g -> f_isbal g = true) -> joined x i f [c] l.
Proof.
  intros HI RX EX J C B. destruct (call_child c (ff_nw x) bal l x i f C HI J eq_refl B) as (z & rest & E & CE).
  destruct C as (z' & rest' & E' & O & (K1 & K2) & S & _). assert (z = z' /\ rest = rest') as [<- <-] by (split; congruence). repeat split.
  - exact K1.
  - intros c' [<-|[]] _. exists z. split; [rewrite E; left; reflexivity|exact CE].
  - exact K2.
  - intros w Jw. rewrite E in Jw. destruct Jw as [<-|Jw].
    + exists x, i, f, c. repeat (split; auto). left; reflexivity. all: apply CE.
    + eapply sourced_incl; [|apply S; exact Jw]. intros v Jv. right; exact Jv.
Qed.

(** The signal "this is the balance flow" comes from balance flows only, and only when a quantity is conserved. *)
Definition signal_ok (rec : rect) : Prop := forall c nw s q b, rec c nw s q b = FErr FoundBalanceFlow -> q <> None /\ exists g, h c = Some g /\ f_isbal g = true.
Definition isbal (c : nat) : Prop := exists g, h c = Some g /\ f_isbal g = true.

Lemma fg_loop_joined rec x i f seen q : rec_ok rec -> signal_ok rec -> h i = Some f -> ff_ref x = Real i -> expanded h i x ->
  forall cs, (forall c, In c cs -> In c (f_children f)) -> forall done pre stock b l s b',
  joined x i f done pre -> (forall c, b = Some c -> In c (f_children f) /\ isbal c) ->
  fg_loop rec (ff_nw x) seen q cs (x :: pre) stock b = FOk (l, s, b') ->
  exists pre', l = x :: pre' /\ joined x i f (done ++ cs) pre' /\ (forall c, b' = Some c -> In c (f_children f) /\ isbal c).
Proof.
  intros RO SO HI RX EX. induction cs as [|c cs IH]; intros IN done pre stock b l s b' J B E; cbn in E.
  - injection E as <- <- <-. exists pre. rewrite app_nil_r. auto.
  - destruct (rec c (ff_nw x) seen q None) as [[l1 cv]|e] eqn:R.
    + assert (J1 : joined x i f [c] l1). { exact (joined_one x i f c None l1 HI RX EX (IN c (or_introl eq_refl)) (RO _ _ _ _ _ _ _ R) (fun N => False_ind _ (N eq_refl))). }
      specialize (IH (fun d D => IN d (or_intror D)) (done ++ [c]) (pre ++ l1) _ b l s b' (joined_app _ _ _ _ _ _ _ J J1) B E).
      rewrite <- app_assoc in IH. exact IH.
    + assert (F : e = FoundBalanceFlow -> isbal c) by (intros ->; apply (SO _ _ _ _ _ R)).
      assert (E' : e = FoundBalanceFlow /\ fg_loop rec (ff_nw x) seen q cs (x :: pre) stock (Some c) = FOk (l, s, b')) by (destruct e; try discriminate E; auto).
      destruct E' as [-> E']. assert (J1 : joined x i f [c] []).
      { unfold joined. split; [intros ? []|]. split; [|split; [intros ? ? ? ? []|intros ? []]]. intros c' [<-|[]] P. destruct (F eq_refl) as (g & HG & BG). rewrite (P g HG) in BG. discriminate. }
      assert (J2 := joined_app _ _ _ _ _ _ _ J J1). rewrite app_nil_r in J2.
      destruct (IH (fun d D => IN d (or_intror D)) (done ++ [c]) pre stock (Some c) l s b' J2) as (pre' & ? & ? & ?); auto.
      { intros d [= <-]. split; [apply IN; left; reflexivity|apply F; reflexivity]. }
      exists pre'. rewrite <- app_assoc in *. auto.
Qed.
Lemma trav_fg_joined rec x i f seen l : rec_ok rec -> signal_ok rec -> h i = Some f -> ff_ref x = Real i -> expanded h i x ->
  trav_fg cf rec h sc obs i f x seen = FOk l -> exists pre, l = x :: pre /\ joined x i f (f_children f) pre.
Proof.
  intros RO SO HI RX EX E. unfold trav_fg in E. destruct (if is_fg i (ff_term x) then _ else _) as [s0|]; [|discriminate]. cbv zeta in E.
  destruct (fg_loop rec (ff_nw x) seen (f_cons f) (child_flows f) [x] _ None) as [[[ffs stock] b]|] eqn:L; [|discriminate].
  destruct (fg_loop_joined rec x i f seen (f_cons f) RO SO HI RX EX (child_flows f) (fun c => proj1 (In_child_flows c f)) [] [] _ None ffs stock b (joined_nil x i f)
              ltac:(discriminate) L) as (pre & -> & J & B). cbn in J.
  assert (K : forall m, joined x i f (child_flows f) m -> joined x i f (f_children f) m).
  { intros m (K1 & K2 & K3 & K4). split; [exact K1|]. split; [|split; [exact K3|exact K4]]. intros c C. apply K2, In_child_flows, C. }
  destruct b as [b|].
  - destruct (rec b (ff_nw x) seen None _) as [[l1 cv]|] eqn:R; [|discriminate]. injection E as <-. exists (pre ++ l1). split; [reflexivity|].
    destruct (B b eq_refl) as [BC BB].
    assert (J1 : joined x i f [b] l1). { eapply (joined_one x i f b); [exact HI|exact RX|exact EX|exact BC|exact (RO _ _ _ _ _ _ _ R)|]. intros _ g HG. destruct BB as (g' & HG' & BG). congruence. }
    destruct (joined_app _ _ _ _ _ _ _ J J1) as (K1 & K2 & K3 & K4). apply K. split; [exact K1|]. split; [|split; assumption].
    intros c C. apply K2, in_app_iff. left; exact C.
  - injection E as <-. exists pre. auto.
Qed.
Lemma joined_ok x i f pre : h i = Some f -> ff_ref x = Real i -> ff_flow x = f_flow f -> ff_dir x = f_dir f -> joined x i f (f_children f) pre ->
  consistent (x :: pre) /\ (forall z, In z pre -> sourced (x :: pre) z).
Proof.
  intros HI RX FX DX (K1 & K2 & K3 & K4). split; [|exact K4]. split.
  - intros z [<-|J]; [exists i, f; auto|auto].
  - intros y p g c [<-|J] R X HP C P.
    + assert (p = i) by congruence. subst p. assert (g = f) by congruence. subst g. destruct (K2 c C P) as (z & ? & ?). exists z. split; [right|]; assumption.
    + destruct (K3 y p g c J R X HP C P) as (z & ? & ?). exists z. split; [right|]; assumption.
Qed.

Lemma fg_loop_no_signal rec nw seen q cs : forall ffs st b, fg_loop rec nw seen q cs ffs st b <> FErr FoundBalanceFlow.
Proof.
  induction cs as [|d cs IHc]; intros ffs st bb L; cbn in L; [discriminate|].
  destruct (rec d nw seen q None) as [[l1 cv1]|ee]; [eapply IHc; exact L|]. destruct ee; try discriminate; eapply IHc; exact L.
Qed.
Lemma trav_signal n : signal_ok (trav cf refq n h sc obs).
Proof.
  induction n as [|n IH]; intros c nw s q b E; [discriminate|]. cbn in E. unfold trav_node in E. destruct (h c) as [f|] eqn:HC; [|discriminate].
  destruct (_ && mem c s); [discriminate|]. cbv zeta in E.
  set (seen' := if match f_parent f with None => true | Some _ => false end then c :: s else s) in E. clearbody seen'.
  destruct (match b with Some b => FOk b | None => _ end) as [ev|e] eqn:EV.
  2:{ destruct b; [discriminate|]. exfalso. unfold match_ev in EV. injection E as ->. destruct sc as [|k|ks]; try discriminate.
      destruct (filter _ _) as [|? [|? ?]]; discriminate. }
  destruct (match_term f sc) as [m|e] eqn:MT.
  2:{ exfalso. unfold match_term in MT. injection E as ->. destruct sc as [|k|ks]; [discriminate|destruct (_ || _); discriminate|]. destruct (filter _ _) as [|? [|? ?]]; discriminate. }
  destruct (dget m (f_terms f)) as [t|] eqn:DT; [|discriminate].
  destruct (if match f_parent f with None => true | Some _ => false end then _ else _) as [w|e] eqn:W.
  2:{ exfalso. injection E as ->. destruct (f_parent f); [|discriminate]. destruct (is_null t); [discriminate|].
      unfold multiplier in W. destruct (Nat.eqb _ _); [discriminate|]. destruct (Nat.eqb _ _); [discriminate|]. destruct (eqb (cf (f_flow f) _) _); [|discriminate]. destruct (eqb _ _); discriminate. }
  destruct (conservation cf h f ev q) as [[cv kept]|e] eqn:CO.
  2:{ injection E as ->. unfold conservation in CO. destruct q as [q|].
      - destruct (f_isbal f) eqn:IB; [|destruct (eqb _ _); discriminate]. split; [discriminate|]. exists f. auto.
      - destruct (f_isbal f); [discriminate|]. unfold balance_flow in CO. destruct (f_cons f); [|discriminate]. destruct (filter _ _); discriminate. }
  exfalso. destruct (is_null t || f_bg f || eqb (nw * ev) (Q2Qc 0)); [discriminate|].
  assert (TF : forall x, trav_fg cf (trav cf refq n h sc obs) h sc obs c f x seen' <> FErr FoundBalanceFlow).
  { intros x T. unfold trav_fg in T. destruct (if is_fg c (ff_term x) then _ else _) as [s0|e] eqn:S0.
    2:{ injection T as ->. destruct (is_fg c (ff_term x)); [|discriminate]. destruct (f_parent f); [discriminate|]. unfold exchange_value, match_ev in S0.
        destruct sc as [|k|ks]; try discriminate. destruct (filter _ _) as [|? [|? ?]]; discriminate. }
    cbv zeta in T. destruct (fg_loop _ _ _ _ _ _ _ _) as [[[ffs stock] b1]|e] eqn:L.
    - destruct b1 as [b1|]; [|discriminate]. destruct (trav cf refq n h sc obs b1 _ _ None _) as [[l1 cv1]|e] eqn:R; [discriminate|]. injection T as ->.
      apply IH in R as [N _]. contradiction.
    - injection T as ->. eapply fg_loop_no_signal; exact L. }
  destruct (t_node t) eqn:TN; [discriminate| |].
  - destruct (trav_fg _ _ _ _ _ _ _ _ _) as [l|e] eqn:T; [discriminate|]. injection E as ->. eapply TF; exact T.
  - destruct (Nat.eqb_spec i c) as [->|N].
    + destruct (trav_fg _ _ _ _ _ _ _ _ _) as [l|e] eqn:T; [discriminate|]. injection E as ->. eapply TF; exact T.
    + apply N. apply (NS c f t i HC); [|exact TN]. unfold termination. rewrite MT, DT. reflexivity.
Qed.
Lemma trav_ok n : rec_ok (trav cf refq n h sc obs).
Proof.
  induction n as [|n IH]; intros i nw s q b l cv E; [discriminate|]. cbn in E. unfold trav_node in E. destruct (h i) as [f|] eqn:HI; [|discriminate].
  destruct (_ && mem i s); [discriminate|]. cbv zeta in E.
  set (seen' := if match f_parent f with None => true | Some _ => false end then i :: s else s) in E. clearbody seen'.
  destruct (match b with Some b => FOk b | None => _ end) as [ev|e] eqn:EV; [|discriminate].
  destruct (match_term f sc) as [m|e] eqn:MT; [|discriminate]. destruct (dget m (f_terms f)) as [t|] eqn:DT; [|discriminate].
  destruct (if match f_parent f with None => true | Some _ => false end then _ else _) as [w|e] eqn:W; [|discriminate].
  destruct (conservation cf h f ev q) as [[cv' kept]|e] eqn:CO; [|discriminate].
  set (x := FF (Real i) (f_flow f) (f_dir f) (nw * ev) w t kept []) in E.
  assert (TT : termination f sc = FOk t) by (unfold termination; rewrite MT, DT; reflexivity).
  assert (O : own_entry h i x) by (exists f; auto).
  assert (M : forall f ev, h i = Some f -> b = None -> exchange_value f sc obs = FOk ev -> ff_mag x = nw * ev).
  { intros f' ev' HI' -> EX. assert (f' = f) by congruence. subst f'. unfold exchange_value in EX. cbn. destruct (match_ev f sc); [|discriminate]. congruence. }
  assert (T : forall f t, h i = Some f -> termination f sc = FOk t -> ff_term x = t /\
       (f_parent f = None -> ff_nw x = nw) /\
       (f_parent f <> None -> (t_node t = NNull -> ff_nw x = ff_mag x) /\
         (t_node t <> NNull -> exists k, converts cf refq (f_flow f) (t_flow t) k /\ ff_nw x = ff_mag x * k))).
  { intros f' t' HI' TT'. assert (f' = f) by congruence. subst f'. assert (t' = t) by congruence. subst t'. cbn. split; [reflexivity|].
    destruct (f_parent f); split; try congruence.
    - intros _. unfold is_null in W. split; intros TN.
      + rewrite TN in W. injection W as <-. reflexivity.
      + destruct (t_node t) as [|p|j] eqn:TN'; [contradiction| |]; (destruct (multiplier cf refq (f_flow f) t) as [k|] eqn:MU; [|discriminate]; injection W as <-; exists k; split; [apply multiplier_converts; exact MU|reflexivity]). }
  assert (ONE : ~ expanded h i x -> call_ok i nw b [x]).
  { intros NX. exists x, []. split; [reflexivity|]. split; [exact O|]. split; [|split; [intros z []|split; [exact M|exact T]]]. split.
    - intros z [<-|[]]. eauto.
    - intros y p g c [<-|[]] R X HP C P. exfalso. apply NX. cbn in R. injection R as <-. exact X. }
  assert (MORE : expanded h i x -> forall l1, trav_fg cf (trav cf refq n h sc obs) h sc obs i f x seen' = FOk l1 -> call_ok i nw b l1).
  { intros X l1 F. destruct (trav_fg_joined _ x i f seen' l1 IH (trav_signal n) HI eq_refl X F) as (pre & -> & J).
    destruct (joined_ok x i f pre HI eq_refl eq_refl eq_refl J) as [K1 K2]. exists x, pre. auto 10. }
  destruct (is_null t || f_bg f || eqb (nw * ev) (Q2Qc 0)) eqn:Z.
  { injection E as <- <-. apply ONE. intros (f' & HF & BG & TN & MG). assert (f' = f) by congruence. subst f'. cbn in TN, MG. apply orb_true_iff in Z as [Z|Z].
    - apply orb_true_iff in Z as [Z|Z]; [|congruence]. unfold is_null in Z. destruct (t_node t); congruence.
    - destruct (eqb_spec (nw * ev) (Q2Qc 0)); [contradiction|discriminate]. }
  assert (X : expanded h i x).
  { apply orb_false_iff in Z as [Z Z3]. apply orb_false_iff in Z as [Z1 Z2]. exists f. repeat split; auto; cbn.
    - unfold is_null in Z1. destruct (t_node t); congruence.
    - destruct (eqb_spec (nw * ev) (Q2Qc 0)); [discriminate|assumption]. }
  destruct (t_node t) eqn:TN.
  - exfalso. destruct X as (_ & _ & _ & N & _). cbn in N. contradiction.
  - destruct (trav_fg _ _ _ _ _ _ _ _ _) as [l1|e] eqn:F; [|discriminate]. injection E as <- <-. exact (MORE X l1 eq_refl).
  - destruct (Nat.eqb_spec i0 i) as [->|N].
    + destruct (trav_fg _ _ _ _ _ _ _ _ _) as [l1|e] eqn:F; [|discriminate]. injection E as <- <-. exact (MORE X l1 eq_refl).
    + exfalso. apply N. exact (NS i f t i0 HI TT TN).
Qed.
End A.

(** A traversal lists the fragment first, with its exchange value as magnitude; every other entry is that of a child of an entry whose node is expanded,
    scaled by that node's weight; and every child (but balance flows, C39) of an expanded node is listed. *)
Theorem C78_tree_amounts cf refq h sc obs fuel i f ev l :
  no_subfragments h (as_set sc) -> children_have_parents h -> h i = Some f -> exchange_value f (as_set sc) obs = FOk ev ->
  traverse cf refq fuel h sc obs i = FOk l ->
  exists x rest, l = x :: rest /\ own_entry h i x /\ ff_mag x = ev /\ (f_parent f = None -> ff_nw x = 1) /\
    (forall z, In z rest -> exists y p g c, In y l /\ ff_ref y = Real p /\ expanded h p y /\ h p = Some g /\ In c (f_children g) /\ child_entry cf refq h (as_set sc) obs y c z) /\
    (forall y p g c, In y l -> ff_ref y = Real p -> expanded h p y -> h p = Some g -> In c (f_children g) -> plain h c ->
       exists z, In z l /\ child_entry cf refq h (as_set sc) obs y c z).
Proof.
  intros NS CP HI EV E. unfold traverse in E. destruct (trav _ _ _ _ _ _ _ _ _ _ _) as [[l' cv]|] eqn:T; [|discriminate]. injection E as ->.
  destruct (trav_ok cf refq h (as_set sc) obs NS CP fuel i 1 [] None None l cv T) as (x & rest & -> & O & (K1 & K2) & S & M & W).
  exists x, rest. split; [reflexivity|]. split; [exact O|]. split; [rewrite (M f ev HI eq_refl EV); ring|]. split.
  - intros P. assert (TT : exists t, termination f (as_set sc) = FOk t).
    { destruct fuel as [|n]; [discriminate|]. cbn in T. unfold trav_node in T. rewrite HI, P in T. cbn in T. destruct (match_ev f (as_set sc)); [|discriminate].
      unfold termination. destruct (match_term f (as_set sc)) as [m|]; [|discriminate]. destruct (dget m (f_terms f)) as [t|]; [|discriminate]. eauto. }
    destruct TT as [t TT]. apply (W f t HI TT), P.
  - split; [exact S|exact K2].
Qed.
Print Assumptions C78_tree_amounts.
(** A process node with a converted flow and its children: 2 units of flow 11 become 6 of the process's flow 12, whose child takes 5 each. *)
Definition h78 : heap := fun i => match i with
  | 1%nat => Some (Fr None [2%nat; 3%nat] 10 Output false false None [(K0, Some (Q2Qc 2)); (K1, Some (Q2Qc 0))] [(None, Tm (NFrag 1) 10 Input true)])
  | 2%nat => Some (Fr (Some 1%nat) [4%nat] 11 Input false false None [(K0, Some (Q2Qc 2)); (K1, Some (Q2Qc 0))] [(None, Tm (NProc 9) 12 Output true)])
  | 3%nat => Some (Fr (Some 1%nat) [] 13 Input false false None [(K0, Some (Q2Qc 7)); (K1, Some (Q2Qc 0))] [(None, null_term 13 Input)])
  | 4%nat => Some (Fr (Some 2%nat) [] 14 Output false false None [(K0, Some (Q2Qc 5)); (K1, Some (Q2Qc 0))] [(None, null_term 14 Output)])
  | _ => None end.
Definition cf78 (f q : nat) : Qc := if Nat.eqb f 11 && Nat.eqb q 1 then Q2Qc 3 else 0.
Definition rq78 (f : nat) : nat := if Nat.eqb f 12 then 1%nat else 0%nat.
Example C78_example : no_subfragments h78 ScNone /\ children_have_parents h78 /\
  exists l, traverse cf78 rq78 9 h78 ScNone false 1 = FOk l /\
    map (fun x => (ff_ref x, this (ff_mag x), this (ff_nw x))) l = [(Real 1, 2%Q, 1%Q); (Real 2, 2%Q, 6%Q); (Real 4, 30%Q, 30%Q); (Real 3, 7%Q, 7%Q)].
Proof.
  split.
  { intros i f t j HI T N. do 5 (destruct i as [|i]; [cbn in HI; try discriminate; injection HI as <-; cbn in T; injection T as <-; cbn in N; try discriminate; injection N as <-; reflexivity|]). discriminate. }
  split.
  { intros p f c g HP J HC. do 5 (destruct p as [|p]; [cbn in HP; try discriminate; injection HP as <-; cbn in J; repeat (destruct J as [<-|J]; [cbn in HC; injection HC as <-; discriminate|]); destruct J|]). discriminate. }
  eexists. split; vm_compute; reflexivity.
Qed.

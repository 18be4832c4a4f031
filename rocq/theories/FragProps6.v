(** C79: balance flows (model: FragModel.v). *)
From Verif Require Import Num Base PyStr ProcModel FragModel FragProofs FragProps FragProps2.
Open Scope Qc_scope.
Open Scope string_scope.
Open Scope list_scope.
Local Arguments eqb : simpl never.

(** * Specification *)
(** What a user does with fragments: create one (alone or under a parent), declare or undeclare a balance flow, set values, reverse. *)
Inductive bop :=
| BTop (i flow : nat) (d : dirn)
| BChild (i flow : nat) (d : dirn) (p : nat)
| BSet (i : nat)
| BUnset (i : nat)
| BValue (i : nat) (sc : scen) (v : option Qc)
| BReverse (i : nat).
Definition brun1 (refq : nat -> nat) (h : heap) (o : bop) : heap :=
  match o with
  | BTop i fl d => fst (create_frag h i fl d)
  | BChild i fl d p => match h p with None => h | Some _ => match create_frag h i fl d with (h1, FOk _) => fst (set_parent h1 i p) | (_, FErr _) => h end end
  | BSet i => fst (set_balance_flow refq h i)
  | BUnset i => fst (unset_balance_flow h i)
  | BValue i sc v => fst (set_exchange_value h i sc v)
  | BReverse i => fst (reverse_direction h i)
  end.
Definition brun (refq : nat -> nat) (os : list bop) : heap := fold_left (brun1 refq) os (fun _ => None).

(** [c] is a balance flow of [p]. *)
Definition balances (h : heap) (c p : nat) : Prop := exists g, h c = Some g /\ f_parent g = Some p /\ f_isbal g = true.

(** * Proof *)
Record binv (refq : nat -> nat) (h : heap) : Prop := {
  up : forall c g p, h c = Some g -> f_parent g = Some p -> exists pf, h p = Some pf /\ In c (f_children pf);
  down : forall p pf c, h p = Some pf -> In c (f_children pf) -> exists g, h c = Some g /\ f_parent g = Some p;
  bal1 : forall c g, h c = Some g -> f_isbal g = true -> exists p pf, f_parent g = Some p /\ h p = Some pf /\ f_cons pf = Some (refq (f_flow g));
  bal2 : forall p pf q, h p = Some pf -> f_cons pf = Some q -> exists c, balances h c p;
  bal3 : forall c d p, balances h c p -> balances h d p -> c = d;
  noself : forall c g, h c = Some g -> f_parent g <> Some c }.

(** Updates that keep the links and the balance data. *)
Definition same_shape (f f' : frag) : Prop := f_parent f = f_parent f' /\ f_children f = f_children f' /\ f_flow f = f_flow f' /\ f_isbal f = f_isbal f' /\ f_cons f = f_cons f'.
Lemma same_inv refq h h' : (forall j, match h j, h' j with Some f, Some f' => same_shape f f' | None, None => True | _, _ => False end) -> binv refq h -> binv refq h'.
Proof.
  intros S [U D B1 B2 B3 N].
  assert (P : forall j f', h' j = Some f' -> exists f, h j = Some f /\ same_shape f f') by (intros j f' E; specialize (S j); rewrite E in S; destruct (h j) as [f|]; [eauto|destruct S]).
  assert (Q : forall j f, h j = Some f -> exists f', h' j = Some f' /\ same_shape f f') by (intros j f E; specialize (S j); rewrite E in S; destruct (h' j) as [f'|]; [eauto|destruct S]).
  assert (BB : forall c p, balances h' c p -> balances h c p).
  { intros c p (g & E & F & G). destruct (P _ _ E) as (f & E' & S1 & S2 & S3 & S4 & S5). exists f. repeat split; congruence. }
  assert (BC : forall c p, balances h c p -> balances h' c p).
  { intros c p (g & E & F & G). destruct (Q _ _ E) as (f & E' & S1 & S2 & S3 & S4 & S5). exists f. repeat split; congruence. }
  split.
  - intros c g p E F. destruct (P _ _ E) as (f & E' & S1 & S2 & S3 & S4 & S5). destruct (U c f p E') as (pf & HP & I); [congruence|]. destruct (Q _ _ HP) as (pf' & HP' & T1 & T2 & _). exists pf'. split; [exact HP'|congruence].
  - intros p pf c E I. destruct (P _ _ E) as (f & E' & S1 & S2 & S3 & S4 & S5). destruct (D p f c E') as (g & HC & G); [congruence|]. destruct (Q _ _ HC) as (g' & HC' & T1 & _). exists g'. split; [exact HC'|congruence].
  - intros c g E F. destruct (P _ _ E) as (f & E' & S1 & S2 & S3 & S4 & S5). destruct (B1 c f E') as (p & pf & G & HP & C); [congruence|]. destruct (Q _ _ HP) as (pf' & HP' & T1 & T2 & T3 & T4 & T5). exists p, pf'. repeat split; congruence.
  - intros p pf q E C. destruct (P _ _ E) as (f & E' & S1 & S2 & S3 & S4 & S5). destruct (B2 p f q E') as (c & B); [congruence|]. exists c. auto.
  - eauto.
  - intros c g E. destruct (P _ _ E) as (f & E' & S1 & _). intros X. apply (N c f E'). congruence.
Qed.
Lemma shape_hset refq h i f f' : h i = Some f -> same_shape f f' -> binv refq h -> binv refq (hset h i f').
Proof.
  intros E S. apply same_inv. intros j. unfold hset. destruct (Nat.eqb_spec j i) as [->|]; [rewrite E; exact S|]. destruct (h j); [repeat split|exact I].
Qed.
Lemma shape_evs f e : same_shape f (with_evs f e).
Proof. repeat split. Qed.

Lemma top_inv refq h i fl d : h i = None -> binv refq h -> binv refq (hset h i (new_frag fl d)).
Proof.
  intros HN [U D B1 B2 B3 N]. set (h' := hset h i (new_frag fl d)).
  assert (A : forall j g, h' j = Some g -> (j = i /\ g = new_frag fl d) \/ (j <> i /\ h j = Some g)).
  { intros j g E. unfold h', hset in E. destruct (Nat.eqb_spec j i); [injection E as <-; auto|auto]. }
  assert (OLD : forall j g, h j = Some g -> h' j = Some g).
  { intros j g E. unfold h', hset. destruct (Nat.eqb_spec j i); [congruence|exact E]. }
  assert (BB : forall c p, balances h' c p -> balances h c p).
  { intros c p (g & E & F & G). destruct (A c g E) as [[-> ->]|[X E']]; [discriminate|]. exists g. auto. }
  assert (BC : forall c p, balances h c p -> balances h' c p) by (intros c p (g & E & F & G); exists g; auto).
  split.
  - intros c g p E F. destruct (A c g E) as [[-> ->]|[X E']]; [discriminate|]. destruct (U c g p E' F) as (pf & HP & I). exists pf. auto.
  - intros p pf c E I. destruct (A p pf E) as [[-> ->]|[X E']]; [destruct I|]. destruct (D p pf c E' I) as (g & HC & G). exists g. auto.
  - intros c g E F. destruct (A c g E) as [[-> ->]|[X E']]; [discriminate|]. destruct (B1 c g E' F) as (p & pf & G & HP & C). exists p, pf. auto.
  - intros p pf q E C. destruct (A p pf E) as [[-> ->]|[X E']]; [discriminate|]. destruct (B2 p pf q E' C) as (c & B). exists c. auto.
  - eauto.
  - intros c g E. destruct (A c g E) as [[-> ->]|[X E']]; [discriminate|]. eauto.
Qed.
Lemma child_inv refq h i fl d p pf : h i = None -> h p = Some pf -> binv refq h ->
  binv refq (hset (hset h i (with_parent (new_frag fl d) (Some p))) p (with_children pf (set_add i (f_children pf)))).
Proof.
  intros HN HP [U D B1 B2 B3 N]. assert (IP : i <> p) by congruence.
  set (h' := hset _ _ _).
  assert (A : forall j g, h' j = Some g -> (j = i /\ g = with_parent (new_frag fl d) (Some p)) \/ (j = p /\ g = with_children pf (set_add i (f_children pf))) \/ (j <> i /\ j <> p /\ h j = Some g)).
  { intros j g E. unfold h', hset in E. repeat match type of E with context [Nat.eqb ?a ?b] => destruct (Nat.eqb_spec a b) end; try (injection E as <-); auto. }
  assert (HI' : h' i = Some (with_parent (new_frag fl d) (Some p))) by (unfold h', hset; repeat match goal with |- context [Nat.eqb ?a ?b] => destruct (Nat.eqb_spec a b) end; congruence).
  assert (HP' : h' p = Some (with_children pf (set_add i (f_children pf)))) by (unfold h', hset; repeat match goal with |- context [Nat.eqb ?a ?b] => destruct (Nat.eqb_spec a b) end; congruence).
  assert (HO : forall j, j <> i -> j <> p -> h' j = h j) by (intros j X Y; unfold h', hset; repeat match goal with |- context [Nat.eqb ?a ?b] => destruct (Nat.eqb_spec a b) end; congruence).
  assert (OLD : forall j g, h j = Some g -> exists g', h' j = Some g' /\ f_parent g' = f_parent g /\ f_isbal g' = f_isbal g /\ f_cons g' = f_cons g /\ f_flow g' = f_flow g /\ incl (f_children g) (f_children g')).
  { intros j g E. destruct (Nat.eq_dec j p) as [->|]; [|exists g; rewrite HO by congruence; repeat split; auto; intros ? ?; assumption].
    eexists. split; [exact HP'|]. assert (g = pf) by congruence. subst g. cbn. repeat split. intros x X. apply In_set_add. auto. }
  assert (BB : forall c q, balances h' c q -> balances h c q).
  { intros c q (g & E & F & G). destruct (A c g E) as [[-> ->]|[[-> ->]|(X & Y & E')]]; [discriminate|exists pf; auto|exists g; auto]. }
  assert (BC : forall c q, balances h c q -> balances h' c q).
  { intros c q (g & E & F & G). destruct (OLD c g E) as (g' & E' & X1 & X2 & _). exists g'. repeat split; congruence. }
  split.
  - intros c g q E F. destruct (A c g E) as [[-> ->]|[[-> ->]|(X & Y & E')]].
    + cbn in F. injection F as <-. eexists. split; [exact HP'|]. cbn. apply In_set_add. auto.
    + cbn in F. destruct (U p pf q HP F) as (qf & HQ & I). destruct (OLD q qf HQ) as (qf' & ? & _ & _ & _ & _ & IN). exists qf'. auto.
    + destruct (U c g q E' F) as (qf & HQ & I). destruct (OLD q qf HQ) as (qf' & ? & _ & _ & _ & _ & IN). exists qf'. auto.
  - intros q qf c E I. destruct (A q qf E) as [[-> ->]|[[-> ->]|(X & Y & E')]].
    + destruct I.
    + cbn in I. apply In_set_add in I as [->|I].
      * eexists. split; [exact HI'|reflexivity].
      * destruct (D p pf c HP I) as (g & HC & G). destruct (OLD c g HC) as (g' & ? & ? & _). exists g'. split; congruence.
    + destruct (D q qf c E' I) as (g & HC & G). destruct (OLD c g HC) as (g' & ? & ? & _). exists g'. split; congruence.
  - intros c g E F. assert (X : exists g0, h c = Some g0 /\ f_isbal g0 = true /\ f_parent g = f_parent g0 /\ f_flow g = f_flow g0).
    { destruct (A c g E) as [[-> ->]|[[-> ->]|(X & Y & E')]]; [discriminate|exists pf; auto|exists g; auto]. }
    destruct X as (g0 & E0 & F0 & X1 & X2). destruct (B1 c g0 E0 F0) as (q & qf & G & HQ & C). destruct (OLD q qf HQ) as (qf' & HQ' & Y1 & Y2 & Y3 & _). exists q, qf'. repeat split; congruence.
  - intros q qf k E C. assert (X : exists q0, h q = Some q0 /\ f_cons q0 = Some k).
    { destruct (A q qf E) as [[-> ->]|[[-> ->]|(X & Y & E')]]; [discriminate|exists pf; auto|exists qf; auto]. }
    destruct X as (q0 & E0 & C0). destruct (B2 q q0 k E0 C0) as (c & B). eauto.
  - eauto.
  - intros c g E. destruct (A c g E) as [[-> ->]|[[-> ->]|(X & Y & E')]]; cbn; [congruence|apply (N p pf HP)|apply (N c g E')].
Qed.
(** Declaring and undeclaring. *)
Lemma mark_inv refq h i p f pf b q : h i = Some f -> f_parent f = Some p -> h p = Some pf -> binv refq h ->
  (b = true /\ f_cons pf = None /\ q = Some (refq (f_flow f))) \/ (b = false /\ f_isbal f = true /\ q = None) ->
  binv refq (hset (hset h p (with_cons pf q)) i (with_bal f b)).
Proof.
  intros HI FP HP [U D B1 B2 B3 N] CASE. assert (IP : i <> p) by (intros ->; apply (N p f HI FP)).
  set (h' := hset _ _ _).
  assert (HI' : h' i = Some (with_bal f b)) by (unfold h', hset; repeat match goal with |- context [Nat.eqb ?a ?b] => destruct (Nat.eqb_spec a b) end; congruence).
  assert (HP' : h' p = Some (with_cons pf q)) by (unfold h', hset; repeat match goal with |- context [Nat.eqb ?a ?b] => destruct (Nat.eqb_spec a b) end; congruence).
  assert (HO : forall j, j <> i -> j <> p -> h' j = h j) by (intros j X Y; unfold h', hset; repeat match goal with |- context [Nat.eqb ?a ?b] => destruct (Nat.eqb_spec a b) end; congruence).
  assert (A : forall j g, h' j = Some g -> (j = i /\ g = with_bal f b) \/ (j = p /\ g = with_cons pf q) \/ (j <> i /\ j <> p /\ h j = Some g)).
  { intros j g E. unfold h', hset in E. repeat match type of E with context [Nat.eqb ?a ?b] => destruct (Nat.eqb_spec a b) end; try (injection E as <-); auto. }
  assert (NEW : forall j g, h' j = Some g -> exists g0, h j = Some g0 /\ f_parent g = f_parent g0 /\ f_children g = f_children g0 /\ f_flow g = f_flow g0 /\ (j <> i -> f_isbal g = f_isbal g0) /\ (j <> p -> f_cons g = f_cons g0)).
  { intros j g E. destruct (A j g E) as [[-> ->]|[[-> ->]|(X & Y & E')]]; [exists f|exists pf|exists g]; repeat split; auto; congruence. }
  assert (OLD : forall j g, h j = Some g -> exists g', h' j = Some g' /\ f_parent g' = f_parent g /\ f_children g' = f_children g /\ f_flow g' = f_flow g /\ (j <> i -> f_isbal g' = f_isbal g) /\ (j <> p -> f_cons g' = f_cons g)).
  { intros j g E. destruct (Nat.eq_dec j i) as [->|X]; [|destruct (Nat.eq_dec j p) as [->|Y]]; [exists (with_bal f b)|exists (with_cons pf q)|exists g].
    - assert (g = f) by congruence. subst g. repeat split; auto; congruence.
    - assert (g = pf) by congruence. subst g. repeat split; auto; congruence.
    - rewrite HO by assumption. repeat split; auto. }
  assert (NOB : f_cons pf = None -> forall c, ~ balances h c p).
  { intros C c (g & E & F & G). destruct (B1 c g E G) as (p' & pf' & G' & HP'' & C'). congruence. }
  assert (BB : forall c r, c <> i -> (balances h' c r <-> balances h c r)).
  { intros c r CI. split; intros (g & E & F & G).
    - destruct (NEW c g E) as (g0 & E0 & X1 & X2 & X3 & X4 & X5). exists g0. specialize (X4 CI). repeat split; congruence.
    - destruct (OLD c g E) as (g0 & E0 & X1 & X2 & X3 & X4 & X5). exists g0. specialize (X4 CI). repeat split; congruence. }
  assert (BI : forall r, balances h' i r <-> b = true /\ r = p).
  { intros r. split.
    - intros (g & E & F & G). assert (g = with_bal f b) by congruence. subst g. cbn in F, G. split; congruence.
    - intros [-> ->]. eexists. split; [exact HI'|]. auto. }
  assert (UNI : b = true -> forall c, balances h c p -> c = i).
  { intros BT c B. destruct CASE as [(_ & C & _)|(C & _)]; [|congruence]. exfalso. exact (NOB C c B). }
  assert (UNF : b = false -> forall c, balances h c p -> c = i).
  { intros BT c B. destruct CASE as [(C & _)|(_ & C & _)]; [congruence|]. apply (B3 c i p B). exists f. auto. }
  assert (ONLY : forall c, balances h c p -> c = i) by (destruct b; auto).
  split.
  - intros c g r E F. destruct (NEW c g E) as (g0 & E0 & X1 & X2 & X3 & _). destruct (U c g0 r E0) as (rf & HR & I); [congruence|]. destruct (OLD r rf HR) as (rf' & HR' & Y1 & Y2 & _). exists rf'. split; [exact HR'|congruence].
  - intros r rf c E I. destruct (NEW r rf E) as (g0 & E0 & X1 & X2 & X3 & _). destruct (D r g0 c E0) as (g & HC & G); [congruence|]. destruct (OLD c g HC) as (g' & HC' & Y1 & _). exists g'. split; [exact HC'|congruence].
  - intros c g E F. destruct (Nat.eq_dec c i) as [->|CI].
    + assert (g = with_bal f b) by congruence. subst g. cbn in F. subst b. exists p, (with_cons pf q). cbn. destruct CASE as [(_ & _ & C)|(C & _)]; [|discriminate]. auto.
    + destruct (NEW c g E) as (g0 & E0 & X1 & X2 & X3 & X4 & X5). specialize (X4 CI). destruct (B1 c g0 E0) as (r & rf & G & HR & C); [congruence|].
      assert (RP : r <> p). { intros ->. apply CI, ONLY. exists g0. repeat split; congruence. }
      destruct (OLD r rf HR) as (rf' & HR' & Y1 & Y2 & Y3 & Y4 & Y5). specialize (Y5 RP). exists r, rf'. repeat split; congruence.
  - intros r rf k E C. destruct (Nat.eq_dec r p) as [->|RP].
    + assert (rf = with_cons pf q) by congruence. subst rf. cbn in C. destruct CASE as [(BT & _ & _)|(_ & _ & C')]; [|congruence]. exists i. apply BI. auto.
    + destruct (NEW r rf E) as (g0 & E0 & X1 & X2 & X3 & X4 & X5). specialize (X5 RP). destruct (B2 r g0 k E0) as (c & B); [congruence|]. exists c. apply BB; [|exact B].
      intros ->. destruct B as (g & HG & G & _). congruence.
  - intros c e r BC BE. destruct (Nat.eq_dec c i) as [->|CI]; destruct (Nat.eq_dec e i) as [->|EI]; try reflexivity.
    + apply BI in BC as [BT ->]. apply BB in BE; [|exact EI]. symmetry. apply ONLY, BE.
    + apply BI in BE as [BT ->]. apply BB in BC; [|exact CI]. apply ONLY, BC.
    + apply BB in BC; [|exact CI]. apply BB in BE; [|exact EI]. eauto.
  - intros c g E. destruct (NEW c g E) as (g0 & E0 & X1 & _). intros X. apply (N c g0 E0). congruence.
Qed.

Lemma brun1_inv refq h o : binv refq h -> binv refq (brun1 refq h o).
Proof.
  intros V. destruct o as [i fl d|i fl d p|i|i|i sc v|i]; cbn.
  - unfold create_frag. destruct (h i) eqn:E; [exact V|]. apply top_inv; assumption.
  - destruct (h p) as [pf|] eqn:HP; [|exact V]. unfold create_frag. destruct (h i) eqn:E; [exact V|].
    unfold set_parent. assert (i <> p) by congruence. unfold hset at 1. rewrite Nat.eqb_refl. unfold hset at 1. destruct (Nat.eqb_spec p i); [congruence|]. rewrite HP. cbv zeta.
    unfold hset at 1. destruct (Nat.eqb_spec p i); [congruence|]. unfold hset at 1. destruct (Nat.eqb_spec p i); [congruence|]. rewrite HP. cbn [fst].
    eapply same_inv; [|exact (child_inv refq h i fl d p pf E HP V)]. intros j. unfold hset. destruct (Nat.eqb_spec j p); [repeat split|]. destruct (Nat.eqb_spec j i); [repeat split|]. destruct (h j); [repeat split|exact I].
  - unfold set_balance_flow. destruct (h i) as [f|] eqn:HI; [|exact V]. destruct (f_isbal f) eqn:IB; [exact V|]. destruct (f_parent f) as [p|] eqn:FP; [|exact V].
    destruct (h p) as [pf|] eqn:HP; [|exact V]. destruct (f_cons pf) eqn:FC; [exact V|]. cbv zeta.
    assert (IP : i <> p) by (intros ->; apply (noself _ _ V p f HI FP)). unfold hset at 1. destruct (Nat.eqb_spec i p); [contradiction|]. rewrite HI. cbn [fst].
    apply mark_inv; auto.
  - unfold unset_balance_flow. destruct (h i) as [f|] eqn:HI; [|exact V]. destruct (f_isbal f) eqn:IB; [|exact V]. cbn [negb]. destruct (f_parent f) as [p|] eqn:FP; [|exact V].
    destruct (h p) as [pf|] eqn:HP; [|exact V]. cbv zeta.
    assert (IP : i <> p) by (intros ->; apply (noself _ _ V p f HI FP)). unfold hset at 1. destruct (Nat.eqb_spec i p); [contradiction|]. rewrite HI. cbn [fst].
    apply mark_inv; auto.
  - unfold set_exchange_value. destruct (h i) as [f|] eqn:HI; [|exact V]. destruct (observable h f sc) as [[|]|]; try exact V.
    destruct sc as [|[]|ks]; cbn; try exact V; try (eapply shape_hset; [exact HI|apply shape_evs|exact V]).
  - unfold reverse_direction. destruct (h i) as [f|] eqn:HI; [|exact V]. unfold reversed. destruct (neg_evs (f_evs f)); [|exact V]. cbn. eapply shape_hset; [exact HI|repeat split|exact V].
Qed.
Lemma brun_inv refq os : binv refq (brun refq os).
Proof.
  unfold brun. assert (V : binv refq (fun _ => None)) by (split; try discriminate; intros ? ? ? (g & E & _); discriminate).
  revert V. generalize (fun _ : nat => @None frag). induction os as [|o os IH]; intros h V; cbn; [exact V|]. apply IH, brun1_inv, V.
Qed.
Lemma In_insert a b l : In a (insert b l) <-> a = b \/ In a l.
Proof. induction l as [|c l IH]; cbn; [intuition|]. destruct (Nat.leb b c); cbn; [intuition|]. rewrite IH. intuition. Qed.
Lemma In_child_flows c f : In c (child_flows f) <-> In c (f_children f).
Proof. unfold child_flows. induction (f_children f) as [|a l IH]; cbn; [tauto|]. rewrite In_insert, IH. intuition. Qed.

(** After every history, a fragment has at most one balance flow; it conserves a quantity exactly when it has one, namely that flow's reference quantity;
    and [balance_flow] finds it. *)
Theorem C79_balance_flows refq os p pf : brun refq os p = Some pf ->
  (exists c g, brun refq os c = Some g /\ (forall d, balances (brun refq os) d p <-> d = c) /\ f_cons pf = Some (refq (f_flow g)) /\ balance_flow (brun refq os) pf = FOk (Some c)) \/
  ((forall d, ~ balances (brun refq os) d p) /\ f_cons pf = None /\ balance_flow (brun refq os) pf = FOk None).
Proof.
  intros HP. assert (V := brun_inv refq os). set (h := brun refq os) in *. clearbody h. destruct V as [U D B1 B2 B3 N].
  destruct (f_cons pf) as [q|] eqn:FC.
  - left. destruct (B2 p pf q HP FC) as (c & B). assert (B0 := B). destruct B as (g & HC & FP & IB). exists c, g. split; [exact HC|]. split.
    + intros d. split; [intros X; eapply B3; eassumption|intros ->; exact B0].
    + destruct (B1 c g HC IB) as (p' & pf' & G & HP' & C). split; [congruence|]. unfold balance_flow. rewrite FC.
      destruct (U c g p HC FP) as (pf'' & HP'' & I). assert (pf'' = pf) by congruence. subst pf''. apply In_child_flows in I.
      destruct (filter _ (child_flows pf)) as [|d l] eqn:F.
      * exfalso. assert (X : In c []) by (rewrite <- F; apply filter_In; split; [exact I|rewrite HC; exact IB]). destruct X.
      * assert (X : In d (d :: l)) by (left; reflexivity). rewrite <- F in X. apply filter_In in X as [X Y]. apply In_child_flows in X. destruct (D p pf d HP X) as (gd & HD & GP).
        rewrite HD in Y. do 2 f_equal. apply (B3 d c p); [exists gd; auto|exact B0].
  - right. split; [|split; [reflexivity|unfold balance_flow; rewrite FC; reflexivity]]. intros d (g & HD & GP & IB). destruct (B1 d g HD IB) as (p' & pf' & G & HP' & C). congruence.
Qed.
Print Assumptions C79_balance_flows.
(** A second balance flow is refused and changes nothing; undeclaring the first admits another. *)
Theorem C79_second_refused refq os c d p g : balances (brun refq os) c p -> brun refq os d = Some g -> f_parent g = Some p -> d <> c ->
  set_balance_flow refq (brun refq os) d = (brun refq os, FErr BalanceAlreadySet).
Proof.
  intros B HD GP DC. assert (V := brun_inv refq os). set (h := brun refq os) in *. clearbody h. destruct V as [U D B1 B2 B3 N].
  unfold set_balance_flow. rewrite HD. destruct (f_isbal g) eqn:IB.
  - exfalso. apply DC. apply (B3 d c p); [exists g; auto|exact B].
  - rewrite GP. destruct (U d g p HD GP) as (pf & HP & _). rewrite HP. destruct B as (gc & HC & FP & IC). destruct (B1 c gc HC IC) as (p' & pf' & G & HP' & C).
    assert (p' = p) by congruence. subst p'. assert (pf' = pf) by congruence. subst pf'. rewrite C. reflexivity.
Qed.
Print Assumptions C79_second_refused.
(** Refuted when a balance flow is detached: its old parent still conserves, and asking for its balance flow fails. *)
Definition h79 : list bop := [BTop 1 10 Output; BChild 2 11 Input 1; BChild 3 12 Input 1; BSet 2].
Theorem C79_detached_refuted : exists h' pf, unset_parent (brun (fun x => x) h79) 2 = (h', FOk tt) /\ h' 1%nat = Some pf /\ balance_flow h' pf = FErr MissingFlow
  /\ snd (set_balance_flow (fun x => x) h' 3) = FErr BalanceAlreadySet.
Proof. eexists _, _. split; [vm_compute; reflexivity|]. split; [vm_compute; reflexivity|]. split; vm_compute; reflexivity. Qed.
Example C79_example : exists pf, brun (fun x => x) h79 1%nat = Some pf /\ f_cons pf = Some 11%nat /\ balance_flow (brun (fun x => x) h79) pf = FOk (Some 2%nat)
  /\ balance_flow (brun (fun x => x) (h79 ++ [BUnset 2; BSet 3])) (match brun (fun x => x) (h79 ++ [BUnset 2; BSet 3]) 1%nat with Some f => f | None => pf end) = FOk (Some 3%nat).
Proof. eexists. split; [vm_compute; reflexivity|]. repeat split; vm_compute; reflexivity. Qed.

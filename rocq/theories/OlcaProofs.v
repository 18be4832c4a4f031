(** Specification and proofs for OlcaModel. *)
From Coq Require Import String.
From Verif Require Import Num Base PyStr ProcModel MiscModel OlcaModel QcLra.
From Verif Require EcoProofs.
Open Scope nat_scope.
Open Scope string_scope.
Open Scope list_scope.
Local Arguments eqb : simpl never.

(** ** Specification *)
(** One [u] (the default: the reference unit) of the flow property [fp] is [c] of its reference unit, say the files. *)
Definition in_ref (s : source) (fp : nat) (u : option string) (c : Qc) : Prop :=
  exists ug, dget fp (s_fp s) = Some ug /\
   ((u = None /\ c = 1%Qc) \/ (dget ug (s_ug s) = None /\ u = Some ug /\ c = 1%Qc) \/
    exists l o, dget ug (s_ug s) = Some l /\ In o l /\ u = Some (ou_name o) /\ c = ou_cf o).
Definition on (n : nat) (d : dirn) (x : oexch) : Prop := ox_flow x = n /\ d = (if ox_input x then Input else Output).
(** The total of flow [n] in direction [d] that a list of exchanges declares, in the reference unit *)
Inductive declares (s : source) (n : nat) (d : dirn) : list oexch -> Qc -> Prop :=
| decl_nil : declares s n d [] 0%Qc
| decl_other x l t : ~ on n d x -> declares s n d l t -> declares s n d (x :: l) t
| decl_one x l t c : on n d x -> in_ref s (ox_fp x) (ox_unit x) c -> declares s n d l t -> declares s n d (x :: l) (ox_amount x * c + t)%Qc.
(** The exchanges of process [p] are those of the file [j]. *)
Definition exchanges_of (s : source) (j : oproc) (p : proc) : Prop :=
  (forall n d, (exists x, In x (op_exch j) /\ on n d x) -> exists v, exch_value p (n, d, None) = Some v /\ declares s n d (op_exch j) v) /\
  (forall n d, ~ (exists x, In x (op_exch j) /\ on n d x) -> dget (n, d, None) (p_exch p) = None) /\
  (forall n d w, dget (n, d, Some w) (p_exch p) = None).
(** A factor that counts: not zero and not causal *)
Definition counts (af : Qc * string * nat) : Prop := fst (fst af) <> 0%Qc /\ snd (fst af) <> "CAUSAL_ALLOCATION".
(** The references are the quantitative references and, for a product with a counting factor that is not among them, an exchange
    of that product. *)
Definition references_of (j : oproc) (p : proc) : Prop :=
  NoDup (p_refs p) /\
  (forall x, In x (op_exch j) -> ox_quant x = true -> In (ox_flow x, odir x, None) (p_refs p)) /\
  (forall r, In r (p_refs p) -> (exists v, exch_value p r = Some v) /\
     ((exists x, In x (op_exch j) /\ ox_quant x = true /\ r = (ox_flow x, odir x, None)) \/
      (exists af, In af (op_alloc j) /\ counts af /\ k_flow r = snd af))) /\
  (forall af x, In af (op_alloc j) -> counts af -> In x (op_exch j) -> ox_flow x = snd af -> exists r, In r (p_refs p) /\ k_flow r = snd af) /\
  (forall k, is_ref p k = true <-> In k (p_refs p)).
(** The sum of the factors of type [t] for the product [f]; of all those whose product the process exchanges *)
Definition stated (l : list (Qc * string * nat)) (t : string) (f : nat) : Qc :=
  Qcsum (map (fun af => fst (fst af)) (filter (fun af => eqb (snd (fst af)) t && Nat.eqb (snd af) f) l)).
Definition stated_total (j : oproc) (t : string) : Qc :=
  Qcsum (map (fun af => fst (fst af)) (filter (fun af => eqb (snd (fst af)) t && existsb (fun x => Nat.eqb (ox_flow x) (snd af)) (op_exch j)) (op_alloc j))).
(** The process, allocated by the quantity [q], partitions its exchanges by the stated factors of type [t]: per unit of a
    reference, an exchange is the reference's share of it. *)
Definition partitions (j : oproc) (t : string) (cf : nat -> nat -> Qc) (p : proc) : Prop :=
  forall k r vk vr, exch_value p k = Some vk -> ~ In k (p_refs p) -> In r (p_refs p) -> exch_value p r = Some vr ->
    exists y, getitem cf p k r = POk y /\ (y * vr = vk * (stated (op_alloc j) t (k_flow r) / stated_total j t))%Qc.
Definition unique_units (s : source) : Prop := forall ug l, dget ug (s_ug s) = Some l -> NoDup (map ou_name l).

(** ** Units *)
Lemma unit_table_props l0 l : forall t u t' u', (forall o, In o l -> In o l0) -> NoDup (map ou_name l0) ->
  unit_table l t u = OOk (t', u') ->
  (forall w c, dget w t = Some c -> exists o, In o l0 /\ ou_name o = w /\ c = (1 / ou_cf o)%Qc /\ ou_cf o <> 0%Qc) ->
  (forall w, u = Some w -> exists o, In o l0 /\ ou_name o = w /\ ou_cf o = 1%Qc /\ dget w t <> None) ->
  (forall w c, dget w t' = Some c -> exists o, In o l0 /\ ou_name o = w /\ c = (1 / ou_cf o)%Qc /\ ou_cf o <> 0%Qc) /\
  (forall w, u' = Some w -> exists o, In o l0 /\ ou_name o = w /\ ou_cf o = 1%Qc /\ dget w t' <> None).
Proof.
  induction l as [|o l IH]; intros t u t' u' L ND E A B; cbn [unit_table] in E; [inversion E; subst; auto|].
  assert (Ho : In o l0) by (apply L; cbn; auto). assert (L' : forall z, In z l -> In z l0) by (intros z Hz; apply L; cbn; auto).
  destruct (eqb_spec (ou_cf o) 0%Qc) as [|NZ]; [discriminate|].
  assert (A' : forall w c, dget w (dset (ou_name o) (1 / ou_cf o)%Qc t) = Some c -> exists o, In o l0 /\ ou_name o = w /\ c = (1 / ou_cf o)%Qc /\ ou_cf o <> 0%Qc).
  { intros w c. rewrite dget_dset. destruct (eqb_spec w (ou_name o)) as [->|]; [|auto]. intros EE; inversion EE; subst. eauto 6. }
  destruct (ou_ref o).
  - destruct (eqb_spec (ou_cf o) 1%Qc) as [E1|]; [|discriminate]. apply (IH _ _ _ _ L' ND E A').
    intros w EE; inversion EE; subst. exists o. repeat split; auto. rewrite dget_dset_same. discriminate.
  - apply (IH _ _ _ _ L' ND E A'). intros w EE. destruct (B w EE) as (o' & ? & ? & ? & D). exists o'. repeat split; auto.
    rewrite dget_dset. destruct (eqb _ _); [discriminate|auto].
Qed.
Lemma NoDup_name (l : list ounit) o o' : NoDup (map ou_name l) -> In o l -> In o' l -> ou_name o = ou_name o' -> o = o'.
Proof.
  induction l as [|z l IH]; cbn; [contradiction|]. intros ND A B E. inversion ND; subst. destruct A as [-> | A], B as [-> | B]; auto.
  - exfalso. apply H1. rewrite E. now apply in_map.
  - exfalso. apply H1. rewrite <- E. now apply in_map.
Qed.

Lemma unit_table_keys l : forall t u t' u', unit_table l t u = OOk (t', u') ->
  (forall w, dget w t <> None -> dget w t' <> None) /\ (forall o, In o l -> dget (ou_name o) t' <> None).
Proof.
  induction l as [|o l IH]; intros t u t' u' E; cbn [unit_table] in E; [inversion E; subst; split; [auto|intros o []]|].
  destruct (eqb _ _); [discriminate|].
  assert (K : forall u0, unit_table l (dset (ou_name o) (1 / ou_cf o)%Qc t) u0 = OOk (t', u') ->
     (forall w, dget w t <> None -> dget w t' <> None) /\ (forall o0, In o0 (o :: l) -> dget (ou_name o0) t' <> None)).
  { intros u0 E0. destruct (IH _ _ _ _ E0) as (A & B). split.
    - intros w H. apply A. rewrite dget_dset. destruct (eqb_spec w (ou_name o)); [intros X; discriminate X|auto].
    - intros o' [<- | H]; [|auto]. apply A. rewrite dget_dset_same. discriminate. }
  destruct (ou_ref o); [destruct (eqb _ _); [|discriminate]|]; eauto.
Qed.
(** A quantity entity agrees with its file *)
Definition quantity_ok (s : source) (q : nat) (e : quantity) : Prop :=
  (exists ug, dget q (s_fp s) = Some ug) /\ in_ref s q (Some (qu_unit e)) 1%Qc /\
  (forall u k, uconvert (Some u) None e = UNum k -> in_ref s q (Some u) k) /\
  (forall ug l o, dget q (s_fp s) = Some ug -> dget ug (s_ug s) = Some l -> In o l -> uconvert (Some (ou_name o)) None e = UNum (ou_cf o)).
Section S.
Context (s : source) (US : unique_units s).

Lemma create_unit_ok q ug u t : dget q (s_fp s) = Some ug -> create_unit s ug = OOk (u, t) -> quantity_ok s q (Quantity u t).
Proof.
  intros F E. unfold create_unit in E. destruct (dget ug (s_ug s)) as [l|] eqn:Eu.
  - destruct (unit_table l [] None) as [(t1, [u1|])|] eqn:E1; inversion E; subst. clear E.
    destruct (unit_table_props l l [] None t1 (Some u) ltac:(auto) (US _ _ Eu) E1) as (A & B).
    { intros w c; discriminate. } { intros w; discriminate. }
    destruct (B u eq_refl) as (o & Ho & En & Ec & D). split; [eauto|]. split; [|split].
    + exists ug. split; [auto|]. right. right. exists l, o. rewrite Ec. subst. auto.
    + intros u' k. unfold uconvert. cbn [qu_table qu_unit]. destruct (dget u' t1) as [i|] eqn:Ei; [|discriminate].
      destruct (dget u t1) as [w|] eqn:Ew; [|discriminate]. destruct (eqb_spec i 0%Qc); [discriminate|]. intros EE; inversion EE; subst.
      destruct (A _ _ Ei) as (o1 & H1 & N1 & -> & Z1). destruct (A _ _ Ew) as (o2 & H2 & N2 & -> & Z2).
      assert (o2 = o) as -> by (eapply NoDup_name; eauto). exists ug. split; [auto|]. right. right. exists l, o1. repeat split; auto; [congruence|].
      rewrite Ec. field. split; [exact Z1|discriminate].
    + intros ug' l' o0 F' Eu' H0. assert (ug' = ug) as -> by congruence. assert (l' = l) as -> by congruence. unfold uconvert. cbn [qu_table qu_unit].
      destruct (unit_table_keys _ _ _ _ _ E1) as (_ & KK). specialize (KK o0 H0). destruct (dget (ou_name o0) t1) as [i|] eqn:Ei; [|contradiction].
      destruct (dget u t1) as [w|] eqn:Ew; [|contradiction].
      destruct (A _ _ Ei) as (o1 & H1 & N1 & -> & Z1). destruct (A _ _ Ew) as (o2 & H2 & N2 & -> & Z2).
      assert (o2 = o) as -> by (eapply NoDup_name; eauto; congruence). assert (o1 = o0) as -> by (eapply NoDup_name; eauto). rewrite Ec.
      destruct (eqb_spec (1 / ou_cf o0)%Qc 0%Qc) as [EZ|_].
      * exfalso. apply Z1. rewrite <- (Qcmult_1_l (ou_cf o0)). assert (H : (1 = (1 / ou_cf o0) * ou_cf o0)%Qc) by (field; exact Z1). rewrite EZ in H. rewrite H. ring.
      * f_equal. field. split; [exact Z1|discriminate].
  - inversion E; subst. split; [eauto|]. split; [exists u; auto 6|]. split; [intros u' k; discriminate|]. intros ug' l o F' Eu'. congruence.
Qed.

(** ** How the archive changes *)
Definition qinv (a : oarch) : Prop := forall q e, dget q (a_q a) = Some e -> quantity_ok s q e.
(** Entities are only added; new flows have no allocation factors; the processes are the same. *)
Definition ext (a b : oarch) : Prop :=
  (forall q e, dget q (a_q a) = Some e -> dget q (a_q b) = Some e) /\
  (forall f e, dget f (a_f a) = Some e -> dget f (a_f b) = Some e) /\
  (forall f e, dget f (a_f b) = Some e -> dget f (a_f a) = None -> forall n t, dget (AQ n t) (fe_ch e) = None) /\
  a_p b = a_p a.
Lemma ext_refl a : ext a a.
Proof. repeat split; auto. congruence. Qed.
Lemma ext_trans a b c : ext a b -> ext b c -> ext a c.
Proof.
  intros (A1 & A2 & A3 & A4) (B1 & B2 & B3 & B4). split; [auto|]. split; [auto|]. split; [|congruence].
  intros f e E N n t. destruct (dget f (a_f b)) as [e'|] eqn:Eb.
  - assert (e' = e) as -> by (apply B2 in Eb; congruence). eauto.
  - eauto.
Qed.

Lemma create_quantity_props q a a' r : create_quantity s q a = (a', r) -> qinv a ->
  qinv a' /\ ext a a' /\ (forall e, r = OOk e -> quantity_ok s q e).
Proof.
  unfold create_quantity. intros E I. destruct (dget q (a_q a)) eqn:Eq.
  { inversion E; subst. split; [auto|]. split; [apply ext_refl|]. intros e EE; inversion EE; subst. auto. }
  destruct (dget q (s_fp s)) as [ug|] eqn:Ef; [|inversion E; subst; split; [auto|split; [apply ext_refl|discriminate]]].
  destruct (create_unit s ug) as [(u, t)|x] eqn:Eu; [|inversion E; subst; split; [auto|split; [apply ext_refl|discriminate]]].
  inversion E; subst. pose proof (create_unit_ok _ _ _ _ Ef Eu) as OK. split; [|split].
  - intros q' e'. cbn [a_q]. rewrite dget_dset. destruct (eqb_spec q' q) as [->|]; [intros EE; inversion EE; subst; auto|apply I].
  - split; [|split; [auto|split; [cbn; congruence|auto]]]. intros q' e' E'. cbn [a_q]. rewrite dget_dset. destruct (eqb_spec q' q); [subst; congruence|auto].
  - intros e EE; inversion EE; subst. auto.
Qed.
Lemma flow_props_props l : forall qs rq a a' r, flow_props s l qs rq a = (a', r) -> qinv a -> qinv a' /\ ext a a'.
Proof.
  induction l as [|((q, fac), isref) l IH]; intros qs rq a a' r E I; cbn [flow_props] in E; [inversion E; subst; auto using ext_refl|].
  destruct (create_quantity s q a) as (a1, [e|x]) eqn:E1; destruct (create_quantity_props _ _ _ _ E1 I) as (A & B & _); [|inversion E; subst; auto].
  assert (K : forall qs' rq', flow_props s l qs' rq' a1 = (a', r) -> qinv a' /\ ext a a').
  { intros qs' rq' E2. destruct (IH _ _ _ _ _ E2 A). eauto using ext_trans. }
  destruct isref; [destruct (eqb fac 1%Qc)|]; eauto. inversion E; subst. auto.
Qed.
Lemma add_chars_aq l loc : forall f f', add_chars l loc f = OOk f' -> forall n t, dget (AQ n t) (fe_ch f) = None -> dget (AQ n t) (fe_ch f') = None.
Proof.
  induction l as [|(q, v) l IH]; intros f f' E n t H; cbn [add_chars] in E; [inversion E; subst; auto|].
  unfold add_char in E. destruct (din loc _); [discriminate|]. eapply IH; eauto. cbn [fe_ch]. rewrite dget_dset.
  destruct (eqb_spec (AQ n t) (FP q)); [discriminate|auto].
Qed.
Lemma create_flow_props f a a' r : create_flow s f a = (a', r) -> qinv a ->
  qinv a' /\ ext a a' /\ (forall e, r = OOk e -> dget f (a_f a') = Some e).
Proof.
  unfold create_flow. intros E I. destruct (dget f (a_f a)) eqn:Eq.
  { inversion E; subst. split; [auto|]. split; [apply ext_refl|]. intros e EE; inversion EE; subst. auto. }
  destruct (dget f (s_fl s)) as [j|] eqn:Ef; [|inversion E; subst; split; [auto|split; [apply ext_refl|discriminate]]].
  destruct (flow_props s (of_props j) [] None a) as (a1, r1) eqn:E1. destruct (flow_props_props _ _ _ _ _ _ E1 I) as (A & B).
  destruct r1 as [(qs, [rq|])|x]; try (inversion E; subst; split; [auto|split; [auto|discriminate]]).
  destruct (add_chars qs _ (FE rq [(FP rq, [("GLO", 1%Qc)])])) as [fe|x] eqn:E2; [|inversion E; subst; split; [auto|split; [auto|discriminate]]].
  inversion E; subst. split; [exact A|]. assert (N : forall n t, dget (AQ n t) (fe_ch fe) = None).
  { intros n t. eapply add_chars_aq; eauto. }
  destruct B as (B1 & B2 & B3 & B4). split.
  - split; [auto|]. split; [|split; [|auto]].
    + intros g e Eg. cbn [a_f]. rewrite dget_dset. destruct (eqb_spec g f); [subst; congruence|auto].
    + intros g e. cbn [a_f]. rewrite dget_dset. destruct (eqb_spec g f) as [->|]; [intros EE _; inversion EE; subst; auto|eauto].
  - intros e EE; inversion EE; subst. cbn [a_f]. apply dget_dset_same.
Qed.

(** ** Exchanges *)
Lemma on_dec n d x : {on n d x} + {~ on n d x}.
Proof.
  unfold on. destruct (Nat.eq_dec (ox_flow x) n); [|right; tauto]. destruct (ox_input x), d; (left; split; congruence) || (right; intros (_ & ?); congruence).
Qed.
Lemma on_key n d x : on n d x <-> (Nat.eqb (ox_flow x) n && eqb (odir x) d) = true.
Proof.
  unfold on, odir. rewrite andb_true_iff, Nat.eqb_eq. split; intros (A & B); split; auto; [subst; apply eqb_refl|symmetry; now apply eqb_eq].
Qed.
Lemma add_ox_props x p a a' r : add_ox s x p a = (a', r) -> qinv a -> EcoProofs.plain p ->
  qinv a' /\ ext a a' /\
  (forall p', r = OOk p' -> EcoProofs.plain p' /\ exists c, in_ref s (ox_fp x) (ox_unit x) c /\
     forall n d, dget (n, d, None) (p_exch p') =
       if Nat.eqb (ox_flow x) n && eqb (odir x) d
       then Some (X (Some (match dget (n, d, None) (p_exch p) with Some (X (Some w) _ _) => w + ox_amount x * c | _ => ox_amount x * c end)%Qc) [] false)
       else dget (n, d, None) (p_exch p)).
Proof.
  unfold add_ox. intros E I PL. destruct (create_flow s (ox_flow x) a) as (a1, [fe|y]) eqn:E1; destruct (create_flow_props _ _ _ _ E1 I) as (A & B & _);
    [|inversion E; subst; split; [auto|split; [auto|discriminate]]].
  destruct (create_quantity s (ox_fp x) a1) as (a2, [q|y]) eqn:E2; destruct (create_quantity_props _ _ _ _ E2 A) as (A2 & B2 & C2);
    [|inversion E; subst; split; [auto|split; [eauto using ext_trans|discriminate]]].
  pose proof (ext_trans _ _ _ B B2) as B3. destruct (C2 _ eq_refl) as (C3 & C4 & C5 & _).
  set (vu := match ox_unit x with Some u => u | None => qu_unit q end) in *.
  assert (V : forall v, (if eqb vu (qu_unit q) then OOk (ox_amount x)
                 else match uconvert (Some vu) None q with
                      | UNum k => OOk (ox_amount x * k)%Qc
                      | UZeroDivision => OErr OZeroDiv
                      | _ => OErr OTypeError
                      end) = OOk v -> exists c, in_ref s (ox_fp x) (ox_unit x) c /\ v = (ox_amount x * c)%Qc).
  { intros v EV. destruct (eqb_spec vu (qu_unit q)) as [Eu|Nu].
    - inversion EV; subst. exists 1%Qc. split; [|ring]. unfold vu in Eu. destruct (ox_unit x); [now rewrite Eu|].
      destruct C3 as (ug & C3). exists ug. auto.
    - destruct (uconvert (Some vu) None q) as [k| | |] eqn:Ek; inversion EV; subst. exists k. split; [|auto].
      unfold vu in *. destruct (ox_unit x); [auto|congruence]. }
  destruct (if eqb vu (qu_unit q) then _ else _) as [v|y]; [|inversion E; subst; split; [auto|split; [auto|discriminate]]].
  destruct (V v eq_refl) as (c & HC & ->).
  destruct (Nat.eqb (ox_fp x) (fe_ref fe)); [|inversion E; subst; split; [auto|split; [auto|discriminate]]].
  destruct (add_exchange p (ox_flow x) (odir x) None (Some (ox_amount x * c)%Qc) TNone true) as (p1, r1) eqn:E3.
  destruct (EcoProofs.add_one _ _ _ _ _ _ PL E3) as (PL1 & (k & ->) & G). inversion E; subst. split; [auto|]. split; [auto|].
  intros p' EE; inversion EE; subst. split; [auto|]. exists c. split; [auto|]. exact G.
Qed.

Lemma add_oxs_props l : forall p a a' p' r, add_oxs s l p a = (a', p', r) -> qinv a -> EcoProofs.plain p ->
  qinv a' /\ ext a a' /\ EcoProofs.plain p' /\
  (r = OOk tt -> forall n d, exists t, declares s n d l t /\
     dget (n, d, None) (p_exch p') =
       match dget (n, d, None) (p_exch p) with
       | Some (X (Some w) _ _) => Some (X (Some (w + t)%Qc) [] false)
       | Some e => Some e
       | None => if existsb (fun x => Nat.eqb (ox_flow x) n && eqb (odir x) d) l then Some (X (Some t) [] false) else None
       end).
Proof.
  induction l as [|x l IH]; intros p a a' p' r E I PL; cbn [add_oxs] in E.
  - inversion E; subst. split; [auto|]. split; [apply ext_refl|]. split; [auto|]. intros _ n d. exists 0%Qc. split; [constructor|].
    destruct PL as (P1 & _). destruct (dget (n, d, None) (p_exch p')) as [e|] eqn:Ee; [|reflexivity]. destruct (P1 _ _ _ Ee) as (w & ->). do 3 f_equal. ring.
  - destruct (add_ox s x p a) as (a1, [p1|y]) eqn:E1; destruct (add_ox_props _ _ _ _ _ E1 I PL) as (A & B & C); [|inversion E; subst; split; [auto|split; [auto|split; [auto|discriminate]]]].
    destruct (C _ eq_refl) as (PL1 & c & HC & G). destruct (IH _ _ _ _ _ E A PL1) as (A2 & B2 & PL2 & D). split; [auto|]. split; [eauto using ext_trans|]. split; [auto|].
    intros R n d. destruct (D R n d) as (t & HT & GT). rewrite GT, G. cbn [existsb]. destruct (on_dec n d x) as [O|O].
    + exists (ox_amount x * c + t)%Qc. split; [apply decl_one; auto|]. apply on_key in O. rewrite O. cbn [orb].
      destruct PL as (P1 & _). destruct (dget (n, d, None) (p_exch p)) as [e|] eqn:Ee; [destruct (P1 _ _ _ Ee) as (w & ->)|]; do 3 f_equal; ring.
    + exists t. split; [apply decl_other; auto|]. rewrite on_key in O. apply not_true_is_false in O. rewrite O. reflexivity.
Qed.

(** ** References *)
Definition rinv (p : proc) : Prop :=
  p_sum p = 0%Qc /\ (forall k, is_ref p k = true <-> In k (p_refs p)) /\ NoDup (p_refs p).
Lemma add_reference_props p f d p1 r : rinv p -> add_reference (fun _ _ => 0%Qc) p f d = (p1, r) ->
  rinv p1 /\ (forall k, exch_value p1 k = exch_value p k) /\
  (forall k, dget k (p_exch p1) = None <-> dget k (p_exch p) = None) /\ dkeys (p_exch p1) = dkeys (p_exch p) /\
  (dget (f, d, None) (p_exch p) <> None -> (exists k, r = POk k) /\ p_refs p1 = set_add (f, d, None) (p_refs p)) /\
  (forall k, r = POk k -> dget (f, d, None) (p_exch p) <> None).
Proof.
  intros (R1 & R2 & R3) E. unfold add_reference in E.
  destruct (dget (f, d, None) (p_exch p)) as [e|] eqn:Ee.
  - unfold alloc_qty in E. cbn [p_sum] in E. rewrite R1 in E. change (eqb 0%Qc (Q2Qc 0)) with true in E. cbv iota in E.
    inversion E; subst. clear E. split; [|split; [|split; [|split; [|split]]]].
    + split; [auto|]. split.
      * intros k. cbn [p_refs]. rewrite In_set_add, <- R2. unfold is_ref. cbn [p_exch]. rewrite dget_dset. destruct (eqb_spec k (f, d, None)) as [->|N]; [cbn; tauto|].
        split; [auto|intros [? | ?]; [contradiction|auto]].
      * cbn [p_refs]. now apply NoDup_set_add.
    + intros k. unfold exch_value. cbn [p_exch]. rewrite dget_dset. destruct (eqb_spec k (f, d, None)) as [->|]; [|auto]. now rewrite Ee.
    + intros k. cbn [p_exch]. rewrite dget_dset. destruct (eqb_spec k (f, d, None)) as [->|]; [|tauto]. rewrite Ee. split; discriminate.
    + cbn [p_exch]. rewrite dkeys_dset. unfold din. now rewrite Ee.
    + intros _. unfold din. rewrite Ee. split; [eauto|reflexivity].
    + intros _ _. discriminate.
  - unfold alloc_qty in E. rewrite R1 in E. change (eqb 0%Qc (Q2Qc 0)) with true in E. cbv iota in E. unfold din in E. rewrite Ee in E.
    inversion E; subst. split; [split; [auto|split; auto]|]. split; [auto|]. split; [tauto|]. split; [auto|]. split; [congruence|discriminate].
Qed.
Lemma add_quants_props l : forall p p' r, add_quants l p = (p', r) -> rinv p ->
  rinv p' /\ (forall k, exch_value p' k = exch_value p k) /\ (forall k, dget k (p_exch p') = None <-> dget k (p_exch p) = None) /\
  (r = OOk tt -> (forall k, In k (p_refs p') <-> In k (p_refs p) \/ exists x, In x l /\ ox_quant x = true /\ k = (ox_flow x, odir x, None)) /\
                 (forall x, In x l -> ox_quant x = true -> dget (ox_flow x, odir x, None) (p_exch p) <> None)).
Proof.
  induction l as [|x l IH]; intros p p' r E R; cbn [add_quants] in E.
  - inversion E; subst. split; [auto|]. split; [auto|]. split; [tauto|]. intros _. split; [|intros x []]. intros k. split; [auto|intros [? | (x & [] & _)]; auto].
  - destruct (ox_quant x) eqn:Q.
    + destruct (add_reference (fun _ _ => 0%Qc) p (ox_flow x) (odir x)) as (p1, [k0|y]) eqn:E1; destruct (add_reference_props _ _ _ _ _ R E1) as (R1 & V1 & N1 & _ & S1 & T1).
      * destruct (IH _ _ _ E R1) as (R2 & V2 & N2 & D2). split; [auto|]. split; [intros k; now rewrite V2|]. split; [intros k; now rewrite N2|].
        intros HR. destruct (D2 HR) as (D3 & D4). destruct (S1 (T1 _ eq_refl)) as (_ & S2). split.
        -- intros k. rewrite D3, S2, In_set_add. split.
           ++ intros [[-> | ?] | (z & ? & ?)]; [right; exists x; cbn; auto|auto|right; exists z; cbn; auto].
           ++ intros [? | (z & [<- | Hz] & ? & ->)]; [auto|auto|right; eauto].
        -- intros z [<- | Hz] Qz; [exact (T1 _ eq_refl)|]. rewrite <- N1. auto.
      * inversion E; subst. split; [auto|]. split; [auto|]. split; [auto|discriminate].
    + destruct (IH _ _ _ E R) as (R2 & V2 & N2 & D2). split; [auto|]. split; [auto|]. split; [auto|]. intros HR. destruct (D2 HR) as (D3 & D4). split.
      * intros k. rewrite D3. split.
        -- intros [? | (z & ? & ?)]; [auto|right; exists z; cbn; auto].
        -- intros [? | (z & [<- | Hz] & Qz & ->)]; [auto|congruence|right; eauto].
      * intros z [<- | Hz] Qz; [congruence|auto].
Qed.

(** ** Allocation *)
Lemma filter_false {A} (f : A -> bool) l : (forall x, In x l -> f x = false) -> filter f l = [].
Proof. induction l as [|x l IH]; intros H; cbn; [auto|]. rewrite (H x (or_introl eq_refl)). apply IH. intros; apply H; cbn; auto. Qed.
Definition noterm (p : proc) : Prop := forall n d w, dget (n, d, Some w) (p_exch p) = None.
Lemma gen_In p f ref k : NoDup (dkeys (p_exch p)) -> In k (gen_exchanges p (Some f) None ref) <->
  k_flow k = f /\ exists e, dget k (p_exch p) = Some e /\ match ref with None => True | Some b => x_ref e = b end.
Proof.
  intros ND. unfold gen_exchanges. rewrite filter_In, in_map_iff. split.
  - intros ((ke & <- & Hk) & _). apply filter_In in Hk as (Hk & C). apply andb_true_iff in C as (C1 & C2). apply Nat.eqb_eq in C1.
    destruct ke as (k', e). cbn [fst snd] in *. split; [auto|]. exists e. split; [now apply In_dget|].
    destruct ref as [b|]; [now apply Bool.eqb_prop|auto].
  - intros (Ef & e & Ee & C). split; [|auto]. exists (k, e). split; [auto|]. apply filter_In. split; [now apply dget_In|]. cbn [fst snd].
    apply andb_true_iff. split; [now apply Nat.eqb_eq|]. destruct ref; [subst; apply Bool.eqb_reflx|auto].
Qed.
Lemma gen_NoDup p f ref : NoDup (dkeys (p_exch p)) -> NoDup (gen_exchanges p (Some f) None ref).
Proof.
  intros ND. unfold gen_exchanges. apply NoDup_filter. revert ND. unfold dkeys. generalize (p_exch p) as l.
  induction l as [|x l IH]; cbn; [constructor|]. intros ND. inversion ND; subst. destruct (_ && _); cbn; [|auto]. constructor; [|auto].
  intros H. apply H1. apply in_map_iff in H as (y & <- & Hy). apply filter_In in Hy as (Hy & _). now apply in_map.
Qed.
Lemma noterm_key p k e : noterm p -> dget k (p_exch p) = Some e -> k_term k = None.
Proof. destruct k as ((n, d), [w|]); [|auto]. intros N E. rewrite N in E. discriminate. Qed.

Definition term (p : proc) (cf : nat -> Qc) (k : key) : Qc := match exch_value p k with Some v => (v * cf (k_flow k))%Qc | None => 0%Qc end.
Lemma alloc_dict_sum p (cf : nat -> nat -> Qc) q : Qcsum (map snd (alloc_dict cf p q)) = Qcsum (map (term p (fun f => cf f q)) (p_refs p)).
Proof.
  unfold alloc_dict. induction (p_refs p) as [|r l IH]; [reflexivity|]. cbn [flat_map map]. rewrite map_app, Qcsum_app, IH, Qcsum_cons. f_equal.
  unfold term. destruct (exch_value p r); unfold Qcsum; cbn; ring.
Qed.

Definition hasx (p : proc) (f : nat) : bool := existsb (fun k => Nat.eqb (k_flow k) f) (dkeys (p_exch p)).
Definition cfs (a : oarch) (name t : string) (f : nat) : Qc := arch_cf a (AQ name t) f 0.
Definition psum (p : proc) (l : list (Qc * string * nat)) (t : string) : Qc :=
  Qcsum (map (fun af => fst (fst af)) (filter (fun af => eqb (snd (fst af)) t && hasx p (snd af)) l)).
Definition causal : string := "CAUSAL_ALLOCATION".
(** The state of the loop after the factors [l] *)
Record linv (name : string) (refs0 : list key) (l : list (Qc * string * nat)) (p : proc) (a : oarch) : Prop := LI {
  l_q : qinv a; l_r : rinv p; l_n : noterm p; l_d : NoDup (dkeys (p_exch p));
  l_v : forall r, In r (p_refs p) -> exists v, exch_value p r = Some v;
  l_1 : forall f e t, dget f (a_f a) = Some e -> dget (AQ name t) (fe_ch e) <> None -> exists r, In r (p_refs p) /\ k_flow r = f;
  l_1' : forall f e t locs, dget f (a_f a) = Some e -> dget (AQ name t) (fe_ch e) = Some locs -> dget "GLO" locs <> None;
  l_2 : forall t r, t <> causal -> In r (p_refs p) -> term p (cfs a name t) r = stated l t (k_flow r);
  l_3 : forall t, t <> causal -> Qcsum (map (term p (cfs a name t)) (p_refs p)) = psum p l t;
  l_4 : forall af, In af l -> counts af -> hasx p (snd af) = true -> exists r, In r (p_refs p) /\ k_flow r = snd af;
  l_5 : forall r, In r (p_refs p) -> In r refs0 \/ exists af, In af l /\ counts af /\ k_flow r = snd af;
  l_6 : forall r, In r refs0 -> In r (p_refs p) }.

Lemma stated_snoc l v typ f t g : stated (l ++ [(v, typ, f)]) t g = (stated l t g + (if eqb typ t && Nat.eqb f g then v else 0))%Qc.
Proof.
  unfold stated. rewrite filter_app, map_app, Qcsum_app. f_equal. cbn [filter fst snd]. destruct (_ && _); unfold Qcsum; cbn; ring.
Qed.
Lemma psum_snoc p l v typ f t : psum p (l ++ [(v, typ, f)]) t = (psum p l t + (if eqb typ t && hasx p f then v else 0))%Qc.
Proof.
  unfold psum. rewrite filter_app, map_app, Qcsum_app. f_equal. cbn [filter fst snd]. destruct (_ && _); unfold Qcsum; cbn; ring.
Qed.
Lemma stated_zero l t f : t <> causal -> (forall af, In af l -> counts af -> snd af <> f) -> stated l t f = 0%Qc.
Proof.
  intros T. induction l as [|((v, typ), g) l IH]; intros A; [reflexivity|]. unfold stated. cbn [filter fst snd].
  assert (IH' : stated l t f = 0%Qc) by (apply IH; intros af Ha; apply A; cbn; auto). unfold stated in IH'.
  destruct (eqb_spec typ t) as [->|]; [|exact IH']. destruct (Nat.eqb_spec g f) as [->|]; [|exact IH']. cbn [andb map]. rewrite Qcsum_cons, IH'. cbn [fst].
  destruct (eqb_spec v 0%Qc) as [->|N]; [ring|]. exfalso. apply (A (v, t, f)); cbn; auto. split; cbn; auto.
Qed.
Lemma hasx_spec p f : hasx p f = true <-> exists k e, dget k (p_exch p) = Some e /\ k_flow k = f.
Proof.
  unfold hasx. rewrite existsb_exists. split.
  - intros (k & Hk & E). apply dget_key_Some in Hk as (e & He). apply Nat.eqb_eq in E. eauto.
  - intros (k & e & He & E). exists k. split; [eapply dget_Some_key; eauto|now apply Nat.eqb_eq].
Qed.
Lemma sum_change (l : list key) (g h : key -> Qc) k : NoDup l -> In k l -> (forall r, In r l -> r <> k -> h r = g r) ->
  Qcsum (map h l) = (Qcsum (map g l) + (h k - g k))%Qc.
Proof.
  induction l as [|r l IH]; intros ND I E; [destruct I|]. inversion ND; subst. cbn [map]. rewrite !Qcsum_cons. destruct I as [-> | I].
  - assert (map h l = map g l) as ->. { apply map_ext_in. intros x Hx. apply E; [cbn; auto|]. intros ->. contradiction. } ring.
  - rewrite (IH H2 I); [|intros x Hx; apply E; cbn; auto]. rewrite (E r); [ring|cbn; auto|]. intros ->. contradiction.
Qed.

Lemma cfs_ext a b name t f : ext a b -> cfs b name t f = cfs a name t f.
Proof.
  intros (_ & A & B & _). unfold cfs, arch_cf. destruct (dget f (a_f a)) as [e|] eqn:E.
  - now rewrite (A _ _ E).
  - destruct (dget f (a_f b)) as [e|] eqn:E'; [|auto]. unfold flow_cf. now rewrite (B _ _ E' E).
Qed.
Lemma term_ext p f g r : (forall x, f x = g x) -> term p f r = term p g r.
Proof. intros E. unfold term. destruct (exch_value p r); [now rewrite E|auto]. Qed.
Lemma linv_ext name r0 l p a b : linv name r0 l p a -> qinv b -> ext a b -> linv name r0 l p b.
Proof.
  intros [Q R N D V A1 A1' A2 A3 A4 A5 A6] Qb X. pose proof X as (X1 & X2 & X3 & X4).
  assert (T : forall t r, term p (cfs b name t) r = term p (cfs a name t) r) by (intros; apply term_ext; intros; now apply cfs_ext).
  constructor; auto.
  - intros f e t E H. destruct (dget f (a_f a)) as [e'|] eqn:Ea; [|exfalso; apply H; eauto]. assert (e' = e) as -> by (apply X2 in Ea; congruence). eauto.
  - intros f e t locs E H. destruct (dget f (a_f a)) as [e'|] eqn:Ea; [|rewrite (X3 _ _ E Ea) in H; discriminate].
    assert (e' = e) as -> by (apply X2 in Ea; congruence). eauto.
  - intros t r Ht Hr. rewrite T. auto.
  - intros t Ht. rewrite <- A3 by auto. f_equal. apply map_ext. intros; apply T.
Qed.

(** A factor recorded for the one reference [k] of its product, which may have been made a reference for it *)
Lemma linv_charge name r0 l p a p1 v typ k fe x :
  linv name r0 l p a -> counts (v, typ, k_flow k) -> rinv p1 -> (forall r, exch_value p1 r = exch_value p r) -> dkeys (p_exch p1) = dkeys (p_exch p) ->
  p_refs p1 = set_add k (p_refs p) -> (forall r, In r (p_refs p) -> k_flow r = k_flow k -> r = k) ->
  dget (k_flow k) (a_f a) = Some fe -> dget (AQ name typ) (fe_ch fe) = None -> exch_value p k = Some x -> x <> 0%Qc ->
  linv name r0 (l ++ [(v, typ, k_flow k)]) p1
    (OA (a_q a) (dset (k_flow k) (FE (fe_ref fe) (dset (AQ name typ) (dset "GLO" (v / x)%Qc []) (fe_ch fe))) (a_f a)) (a_p a)).
Proof.
  intros [Q R N D V A1 A1' A2 A3 A4 A5 A6] CT R1 E1 DK RF UN F AB EX NZ.
  assert (HX : forall f, hasx p1 f = hasx p f) by (intros f; unfold hasx; now rewrite DK).
  assert (Hk : hasx p (k_flow k) = true).
  { apply hasx_spec. unfold exch_value in EX. destruct (dget k (p_exch p)) eqn:Ek; [eauto|discriminate]. }
  assert (IN : forall r, In r (p_refs p1) <-> r = k \/ In r (p_refs p)) by (intros r; rewrite RF; apply In_set_add).
  set (a2 := OA _ _ _).
  assert (C2 : forall t g, cfs a2 name t g = if eqb t typ && Nat.eqb g (k_flow k) then (v / x)%Qc else cfs a name t g).
  { intros t g. unfold cfs, arch_cf, a2. cbn [a_f]. rewrite dget_dset. destruct (eqb_spec g (k_flow k)) as [->|NE].
    - rewrite Nat.eqb_refl. unfold flow_cf. cbn [fe_ch]. rewrite dget_dset. destruct (eqb_spec (AQ name t) (AQ name typ)) as [EE|NE].
      + inversion EE; subst. rewrite eqb_refl. cbn [andb]. now rewrite dget_dset_same.
      + destruct (eqb_spec t typ) as [->|]; [congruence|]. cbn [andb]. now rewrite F.
    - apply Nat.eqb_neq in NE. rewrite NE, andb_false_r. reflexivity. }
  assert (C0 : cfs a name typ (k_flow k) = 0%Qc) by (unfold cfs, arch_cf, flow_cf; now rewrite F, AB).
  assert (T1 : forall t r, term p1 (cfs a2 name t) r = term p (cfs a2 name t) r) by (intros t r; unfold term; now rewrite E1).
  assert (TN : forall t r, r <> k -> In r (p_refs p) -> term p (cfs a2 name t) r = term p (cfs a name t) r).
  { intros t r NE Hr. unfold term. destruct (exch_value p r); [|auto]. rewrite C2. destruct (Nat.eqb_spec (k_flow r) (k_flow k)); [|now rewrite andb_false_r].
    exfalso. apply NE. auto. }
  assert (TK : forall t, term p (cfs a2 name t) k = (term p (cfs a name t) k + (if eqb t typ then v else 0))%Qc).
  { intros t. unfold term. rewrite EX, C2, Nat.eqb_refl, andb_true_r. destruct (eqb_spec t typ) as [->|]; [|ring]. rewrite C0. field. exact NZ. }
  assert (S0 : ~ In k (p_refs p) -> forall t, t <> causal -> term p (cfs a name t) k = 0%Qc /\ stated l t (k_flow k) = 0%Qc).
  { intros NI t Ht. assert (NR : ~ exists r, In r (p_refs p) /\ k_flow r = k_flow k).
    { intros (r & Hr & Er). apply NI. rewrite <- (UN r Hr Er). exact Hr. }
    split.
    - unfold term. rewrite EX. unfold cfs, arch_cf, flow_cf. rewrite F. destruct (dget (AQ name t) (fe_ch fe)) eqn:EA; [|ring].
      exfalso. apply NR. apply (A1 _ _ t F). congruence.
    - apply stated_zero; [auto|]. intros af Ha Hc Es. apply NR. rewrite <- Es. apply (A4 _ Ha Hc). now rewrite Es. }
  assert (SK : forall t, t <> causal -> term p (cfs a name t) k = stated l t (k_flow k)).
  { intros t Ht. destruct (mem_spec k (p_refs p)) as [I|I]; [auto|]. destruct (S0 I t Ht). congruence. }
  constructor; auto.
  - intros n d w. destruct (dget (n, d, Some w) (p_exch p1)) eqn:Ed; [|auto]. exfalso. apply dget_Some_key in Ed. rewrite DK in Ed.
    apply dget_key_Some in Ed as (e' & Ed). rewrite N in Ed. discriminate.
  - now rewrite DK.
  - intros r Hr. rewrite E1. apply IN in Hr as [-> | Hr]; eauto.
  - intros f e t. unfold a2. cbn [a_f]. rewrite dget_dset. destruct (eqb_spec f (k_flow k)) as [->|].
    + intros _ _. exists k. split; [now apply IN; left|auto].
    + intros Ef Et. destruct (A1 _ _ _ Ef Et) as (r & Hr & Er). exists r. split; [now apply IN; right|auto].
  - intros f e t locs. unfold a2. cbn [a_f]. rewrite dget_dset. destruct (eqb_spec f (k_flow k)) as [->|]; [|apply A1'].
    intros EE; inversion EE; subst. cbn [fe_ch]. rewrite dget_dset. destruct (eqb (AQ name t) (AQ name typ)); [|exact (A1' _ _ t locs F)].
    intros EL; inversion EL; subst. cbn [dget]. rewrite eqb_refl. discriminate.
  - intros t r Ht Hr. rewrite T1, stated_snoc. apply IN in Hr. destruct (eq_dec r k) as [->|NE].
    + rewrite TK, (SK t Ht), Nat.eqb_refl, andb_true_r, (eqb_sym t typ). reflexivity.
    + destruct Hr as [Hr | Hr]; [contradiction|]. rewrite TN, (A2 _ _ Ht Hr) by auto.
      destruct (Nat.eqb_spec (k_flow k) (k_flow r)) as [Er|]; [exfalso; apply NE; auto|]. rewrite andb_false_r. ring.
  - intros t Ht. rewrite psum_snoc, HX, Hk, andb_true_r.
    assert (PS : psum p1 l t = psum p l t) by (unfold psum; f_equal; f_equal; apply filter_ext; intros z; now rewrite HX). rewrite PS, <- (A3 t Ht).
    rewrite (map_ext _ _ (T1 t)), RF. unfold set_add. destruct (mem_spec k (p_refs p)) as [I|I].
    + rewrite (sum_change (p_refs p) (term p (cfs a name t)) (term p (cfs a2 name t)) k); [|apply R|auto|intros r Hr NE; auto].
      rewrite TK, (eqb_sym t typ). ring.
    + rewrite map_app, Qcsum_app. cbn [map]. rewrite Qcsum_cons. change (Qcsum []) with 0%Qc. rewrite TK, (proj1 (S0 I t Ht)), (eqb_sym t typ).
      assert (map (term p (cfs a2 name t)) (p_refs p) = map (term p (cfs a name t)) (p_refs p)) as ->; [|ring].
      apply map_ext_in. intros r Hr. apply TN; [|auto]. intros ->. contradiction.
  - intros af Ha Hc. rewrite HX. apply in_app_iff in Ha as [Ha | [<- | []]].
    + intros Hx. destruct (A4 _ Ha Hc Hx) as (r & Hr & Er). exists r. split; [now apply IN; right|auto].
    + intros _. exists k. split; [now apply IN; left|auto].
  - intros r Hr. apply IN in Hr as [-> | Hr].
    + right. exists (v, typ, k_flow k). rewrite in_app_iff. cbn. auto.
    + destruct (A5 r Hr) as [? | (af & Ha & ?)]; [auto|]. right. exists af. rewrite in_app_iff. auto.
  - intros r Hr. apply IN. right. auto.
Qed.

(** Nothing recorded: zero, causal, or a product that is not exchanged *)
Lemma linv_skip name r0 l p a v typ f : linv name r0 l p a -> (~ counts (v, typ, f) \/ hasx p f = false) -> linv name r0 (l ++ [(v, typ, f)]) p a.
Proof.
  intros [Q R N D V A1 A1' A2 A3 A4 A5 A6] SK.
  assert (Z : forall t, t <> causal -> (if eqb typ t then v else 0%Qc) = 0%Qc \/ hasx p f = false).
  { intros t Ht. destruct SK as [C | C]; [left|auto]. destruct (eqb_spec typ t) as [->|]; [|auto]. destruct (eqb_spec v 0%Qc) as [|NV]; [auto|]. exfalso. apply C. split; auto. }
  constructor; auto.
  - intros t r Ht Hr. rewrite stated_snoc, (A2 t r Ht Hr). destruct (Nat.eqb_spec f (k_flow r)) as [->|]; [|rewrite andb_false_r; ring].
    rewrite andb_true_r. destruct (Z t Ht) as [-> | H]; [ring|]. exfalso. destruct (V r Hr) as (w & Hw). unfold exch_value in Hw.
    destruct (dget r (p_exch p)) eqn:Er; [|discriminate]. assert (hasx p (k_flow r) = true) by (apply hasx_spec; eauto). congruence.
  - intros t Ht. rewrite psum_snoc, (A3 t Ht). destruct (Z t Ht) as [H | ->]; [|rewrite andb_false_r; ring].
    destruct (hasx p f); rewrite ?andb_true_r, ?andb_false_r, ?H; ring.
  - intros af Ha Hc Hx. apply in_app_iff in Ha as [Ha | [<- | []]]; [eauto|]. destruct SK as [C | C]; [contradiction|cbn in Hx; congruence].
  - intros r Hr. destruct (A5 r Hr) as [? | (af & Ha & ?)]; [auto|]. right. exists af. rewrite in_app_iff. auto.
Qed.

(** What the loop leaves alone *)
Definition near (name : string) (a b : oarch) : Prop :=
  (forall q e, dget q (a_q a) = Some e -> dget q (a_q b) = Some e) /\
  (forall f e, dget f (a_f a) = Some e -> exists e', dget f (a_f b) = Some e' /\ fe_ref e' = fe_ref e /\
     forall q, (forall t, q <> AQ name t) -> dget q (fe_ch e') = dget q (fe_ch e)) /\
  (forall f e, dget f (a_f b) = Some e -> dget f (a_f a) = None -> forall n t, n <> name -> dget (AQ n t) (fe_ch e) = None) /\
  a_p b = a_p a.
Lemma ext_near name a b : ext a b -> near name a b.
Proof. intros (A & B & C & D). split; [auto|]. split; [intros f e E; exists e; auto|]. split; [eauto|auto]. Qed.
Lemma near_trans name a b c : near name a b -> near name b c -> near name a c.
Proof.
  intros (A1 & A2 & A3 & A4) (B1 & B2 & B3 & B4). split; [auto|]. split; [|split; [|congruence]].
  - intros f e E. destruct (A2 _ _ E) as (e1 & E1 & R1 & K1). destruct (B2 _ _ E1) as (e2 & E2 & R2 & K2). exists e2. split; [auto|]. split; [congruence|].
    intros q Hq. rewrite K2, K1; auto.
  - intros f e E N n t Hn. destruct (dget f (a_f b)) as [e1|] eqn:E1; [|eauto]. destruct (B2 _ _ E1) as (e2 & E2 & _ & K2).
    rewrite E2 in E; inversion E; subst e2. rewrite K2; [eauto|]. intros t' EE. inversion EE; contradiction.
Qed.
Definition same_x (p p' : proc) : Prop := (forall k, exch_value p' k = exch_value p k) /\ dkeys (p_exch p') = dkeys (p_exch p).

Lemma alloc_one_props name r0 l af p a a' p' r : alloc_one s name af p a = (a', p', r) -> linv name r0 l p a ->
  qinv a' /\ near name a a' /\ (r = OOk tt -> same_x p p' /\ linv name r0 (l ++ [af]) p' a').
Proof.
  destruct af as ((v, typ), f). unfold alloc_one. intros E I.
  assert (X0 : same_x p p) by (split; auto).
  destruct (eqb_spec v 0%Qc) as [->|NV].
  { inversion E; subst. split; [apply I|]. split; [apply ext_near, ext_refl|]. intros _. split; [auto|]. apply linv_skip; [auto|]. left. intros (C & _). now apply C. }
  destruct (eqb_spec typ "CAUSAL_ALLOCATION") as [->|NT].
  { inversion E; subst. split; [apply I|]. split; [apply ext_near, ext_refl|]. intros _. split; [auto|]. apply linv_skip; [auto|]. left. intros (_ & C). now apply C. }
  destruct (create_flow s f a) as (a1, [fe|y]) eqn:E1; destruct (create_flow_props _ _ _ _ E1 (l_q _ _ _ _ _ I)) as (Q1 & X1 & F1);
    [|inversion E; subst; split; [auto|split; [now apply ext_near|discriminate]]].
  specialize (F1 _ eq_refl). pose proof (linv_ext _ _ _ _ _ _ I Q1 X1) as I1. pose proof I1 as [_ R N D V A1 A1' A2 A3 A4 A5 A6].
  assert (CT : counts (v, typ, f)) by (split; auto).
  (* the single exchange the factor is for *)
  assert (K : forall p1 k, k_flow k = f -> rinv p1 -> same_x p p1 -> p_refs p1 = set_add k (p_refs p) ->
      (forall z, In z (p_refs p) -> k_flow z = k_flow k -> z = k) ->
      match exch_value p1 k with
      | None => (a1, p1, OErr OTypeError)
      | Some x => if eqb x 0%Qc then (a1, p1, OErr OZeroDiv)
                  else match add_char fe (AQ name typ) (v / x)%Qc "GLO" with
                       | OErr e => (a1, p1, OErr e)
                       | OOk fe1 => (OA (a_q a1) (dset f fe1 (a_f a1)) (a_p a1), p1, OOk tt)
                       end
      end = (a', p', r) ->
      qinv a' /\ near name a a' /\ (r = OOk tt -> same_x p p' /\ linv name r0 (l ++ [(v, typ, f)]) p' a')).
  { intros p1 k Ek R1 S1 RF UN EE. destruct (exch_value p1 k) as [x|] eqn:Ex; [|inversion EE; subst; split; [auto|split; [now apply ext_near|discriminate]]].
    destruct (eqb_spec x 0%Qc) as [|NZ]; [inversion EE; subst; split; [auto|split; [now apply ext_near|discriminate]]|].
    unfold add_char in EE. destruct (din "GLO" _) eqn:DI; [inversion EE; subst; split; [auto|split; [now apply ext_near|discriminate]]|].
    assert (AB : dget (AQ name typ) (fe_ch fe) = None).
    { destruct (dget (AQ name typ) (fe_ch fe)) as [locs|] eqn:EA; [|auto]. exfalso. apply (A1' _ _ _ _ F1 EA).
      rewrite EcoProofs.din_get in DI. destruct (dget "GLO" locs); [discriminate|auto]. }
    rewrite AB in EE. inversion EE; subst a' p' r. clear EE. split; [exact Q1|]. split.
    - apply (near_trans _ _ a1); [now apply ext_near|]. split; [auto|]. split; [|split; [|auto]].
      + intros g e Eg. cbn [a_f]. rewrite dget_dset. destruct (eqb_spec g f) as [->|]; [|exists e; auto].
        eexists. split; [reflexivity|]. assert (e = fe) as -> by congruence. split; [auto|]. intros q Hq. cbn [fe_ch]. rewrite dget_dset.
        destruct (eqb_spec q (AQ name typ)); [exfalso; eapply Hq; eauto|auto].
      + intros g e. cbn [a_f]. rewrite dget_dset. destruct (eqb_spec g f) as [->|]; congruence.
    - intros _. split; [exact S1|]. rewrite <- Ek in *. destruct S1 as (S1 & S2). eapply linv_charge; eauto. now rewrite <- S1. }
  destruct (find_exchange p (SFlow f) (Some true) None) as [k|x] eqn:Ef.
  - (* a reference already *)
    unfold find_exchange, candidates in Ef. pose proof (gen_In p f (Some true)) as GI. specialize (fun k => GI k D).
    destruct (gen_exchanges p (Some f) None (Some true)) as [|k1 [|k2 rest]] eqn:EG; [discriminate| |exfalso].
    + inversion Ef; subst k1. destruct (proj1 (GI k) (or_introl eq_refl)) as (Ek & e & Ee & Er).
      assert (Ik : In k (p_refs p)) by (apply R; unfold is_ref; now rewrite Ee).
      apply (K p k Ek R X0); [|intros z Hz Ez|exact E].
      * unfold set_add. destruct (mem_spec k (p_refs p)); [auto|contradiction].
      * apply R in Hz. unfold is_ref in Hz. destruct (dget z (p_exch p)) as [ez|] eqn:Hez; [|discriminate].
        assert (In z [k]) as [-> | []]; [|auto]. apply GI. split; [congruence|]. eauto.
    + assert (T : forall z, In z (k1 :: k2 :: rest) -> k_term z = None).
      { intros z Hz. apply GI in Hz as (_ & e & Ee & _). eapply noterm_key; eauto. }
      cbn [filter] in Ef. rewrite (T k1), (T k2) in Ef by (cbn; auto). discriminate.
  - assert (NX : x = NoExchangeFound -> forall z, In z (p_refs p) -> k_flow z <> f).
    { intros -> z Hz Ez. unfold find_exchange, candidates in Ef. pose proof (gen_In p f (Some true)) as GI. specialize (fun k => GI k D).
      apply R in Hz. unfold is_ref in Hz. destruct (dget z (p_exch p)) as [ez|] eqn:Hez; [|discriminate].
      assert (HI : In z (gen_exchanges p (Some f) None (Some true))) by (apply GI; eauto).
      destruct (gen_exchanges p (Some f) None (Some true)) as [|k1 [|k2 rest]]; [destruct HI|discriminate|].
      destruct (filter _ _) as [|? [|? ?]]; discriminate. }
    destruct x; try (inversion E; subst; split; [auto|split; [now apply ext_near|discriminate]]).
    pose proof (gen_In p f None) as GI. specialize (fun k => GI k D).
    destruct (gen_exchanges p (Some f) None None) as [|k rest] eqn:EG.
    + inversion E; subst. split; [auto|]. split; [now apply ext_near|]. intros _. split; [auto|]. apply linv_skip; [auto|]. right.
      destruct (hasx p' f) eqn:HX; [|auto]. exfalso. apply hasx_spec in HX as (k & e & Ee & Ek). apply (GI k). split; [auto|]. eauto.
    + destruct (proj1 (GI k) (or_introl eq_refl)) as (Ek & e & Ee & _). pose proof (noterm_key _ _ _ N Ee) as Tk.
      assert (KK : k = (f, k_dir k, None)) by (destruct k as ((n, d), t); cbn in *; subst; reflexivity).
      destruct (add_reference (fun _ _ => 0%Qc) p f (k_dir k)) as (p1, r1) eqn:ER.
      destruct (add_reference_props _ _ _ _ _ R ER) as (R1 & V1 & _ & DK & S1 & _). rewrite KK in Ee. destruct (S1 ltac:(congruence)) as (_ & RF).
      rewrite <- KK in RF. cbn [fst] in E. apply (K p1 k Ek R1); [split; auto|auto|intros z Hz Ez|exact E].
      exfalso. exact (NX eq_refl z Hz ltac:(congruence)).
Qed.
Lemma alloc_all_props name r0 l : forall l0 p a a' p' r, alloc_all s name l p a = (a', p', r) -> linv name r0 l0 p a ->
  qinv a' /\ near name a a' /\ (r = OOk tt -> same_x p p' /\ linv name r0 (l0 ++ l) p' a').
Proof.
  induction l as [|af l IH]; intros l0 p a a' p' r E I; cbn [alloc_all] in E.
  - inversion E; subst. split; [apply I|]. split; [apply ext_near, ext_refl|]. intros _. rewrite app_nil_r. split; [split; auto|auto].
  - destruct (alloc_one s name af p a) as ((a1, p1), [[]|y]) eqn:E1; destruct (alloc_one_props _ _ _ _ _ _ _ _ _ E1 I) as (Q1 & N1 & K1).
    + destruct (K1 eq_refl) as ((S1 & S2) & I1). destruct (IH _ _ _ _ _ _ E I1) as (Q2 & N2 & K2). split; [auto|]. split; [eauto using near_trans|].
      intros HR. destruct (K2 HR) as ((S3 & S4) & I2). rewrite <- app_assoc in I2. split; [split; [intros; now rewrite S3|congruence]|exact I2].
    + inversion E; subst. split; [auto|]. split; [auto|discriminate].
Qed.

(** ** The exchanges have no values by reference, and distinct keys *)
Definition clean (p : proc) : Prop := NoDup (dkeys (p_exch p)) /\ forall k e, dget k (p_exch p) = Some e -> x_vdict e = [].
Lemma plain_vd p : EcoProofs.plain p -> forall k e, dget k (p_exch p) = Some e -> x_vdict e = [].
Proof. intros (A & B & _) ((n, d), [w|]) e E; [rewrite B in E; discriminate|]. destruct (A _ _ _ E) as (v & ->). reflexivity. Qed.
Lemma add_ox_nodup x p a a' p' : add_ox s x p a = (a', OOk p') -> NoDup (dkeys (p_exch p)) -> NoDup (dkeys (p_exch p')).
Proof.
  unfold add_ox. intros E D. destruct (create_flow s (ox_flow x) a) as (a1, [fe|y]); [|discriminate].
  destruct (create_quantity s (ox_fp x) a1) as (a2, [q|y]); [|discriminate].
  destruct (if eqb _ (qu_unit q) then _ else _) as [v|y]; [|discriminate]. destruct (Nat.eqb _ _); [|discriminate].
  destruct (add_exchange _ _ _ _ _ _ _) as (p1, [k|y]) eqn:E1; [|discriminate]. inversion E; subst. unfold add_exchange in E1.
  destruct (dget _ (p_exch p)) as [e|].
  - destruct (eqb v (Q2Qc 0)); [inversion E1; subst; auto|]. destruct (match x_value e with None => _ | Some _ => _ end); inversion E1; subst. now apply NoDup_dset.
  - inversion E1; subst. now apply NoDup_dset.
Qed.
Lemma add_oxs_nodup l : forall p a a' p' r, add_oxs s l p a = (a', p', r) -> NoDup (dkeys (p_exch p)) -> NoDup (dkeys (p_exch p')).
Proof.
  induction l as [|x l IH]; intros p a a' p' r E D; cbn [add_oxs] in E; [inversion E; subst; auto|].
  destruct (add_ox s x p a) as (a1, [p1|y]) eqn:E1; [|inversion E; subst; auto]. eapply IH; eauto. eapply add_ox_nodup; eauto.
Qed.
Lemma add_reference_clean p f d p1 r : rinv p -> add_reference (fun _ _ => 0%Qc) p f d = (p1, r) -> clean p -> clean p1.
Proof.
  intros R E (D & C). destruct (add_reference_props _ _ _ _ _ R E) as (_ & _ & _ & DK & _). split; [now rewrite DK|].
  destruct R as (R1 & _). unfold add_reference in E. destruct (dget (f, d, None) (p_exch p)) as [e|] eqn:Ee.
  - unfold alloc_qty in E. cbn [p_sum] in E. rewrite R1 in E. change (eqb 0%Qc (Q2Qc 0)) with true in E. cbv iota in E.
    inversion E; subst. intros k e'. cbn [p_exch]. rewrite dget_dset. destruct (eqb_spec k (f, d, None)) as [->|]; [|apply C].
    intros EE; inversion EE; subst. cbn. eauto.
  - unfold alloc_qty in E. rewrite R1 in E. change (eqb 0%Qc (Q2Qc 0)) with true in E. cbv iota in E. unfold din in E. rewrite Ee in E. inversion E; subst. auto.
Qed.
Lemma add_quants_clean l : forall p p' r, add_quants l p = (p', r) -> rinv p -> clean p -> clean p'.
Proof.
  induction l as [|x l IH]; intros p p' r E R C; cbn [add_quants] in E; [inversion E; subst; auto|]. destruct (ox_quant x); [|eauto].
  destruct (add_reference (fun _ _ => 0%Qc) p (ox_flow x) (odir x)) as (p1, [k|y]) eqn:E1; pose proof (add_reference_clean _ _ _ _ _ R E1 C);
    destruct (add_reference_props _ _ _ _ _ R E1) as (R1 & _); [eauto|]. inversion E; subst. auto.
Qed.
Lemma alloc_one_clean name af p a a' p' : alloc_one s name af p a = (a', p', OOk tt) -> rinv p -> clean p -> clean p'.
Proof.
  destruct af as ((v, typ), f). unfold alloc_one. intros E R C. destruct (eqb v 0%Qc); [inversion E; subst; auto|].
  destruct (eqb typ _); [inversion E; subst; auto|]. destruct (create_flow s f a) as (a1, [fe|y]); [|discriminate].
  assert (K : forall k p1, match exch_value p1 k with
      | None => (a1, p1, OErr OTypeError)
      | Some x => if eqb x 0%Qc then (a1, p1, OErr OZeroDiv)
                  else match add_char fe (AQ name typ) (v / x)%Qc "GLO" with
                       | OErr e => (a1, p1, OErr e)
                       | OOk fe1 => (OA (a_q a1) (dset f fe1 (a_f a1)) (a_p a1), p1, OOk tt)
                       end
      end = (a', p', OOk tt) -> p' = p1).
  { intros k p1. destruct (exch_value p1 k); [|discriminate]. destruct (eqb _ _); [discriminate|]. destruct (add_char _ _ _ _); [|discriminate]. intros EE; inversion EE; auto. }
  destruct (find_exchange p _ _ _) as [k|[]]; try discriminate.
  - now rewrite (K _ _ E).
  - destruct (gen_exchanges p (Some f) None None) as [|k rest]; [inversion E; subst; auto|]. rewrite (K _ _ E).
    destruct (add_reference (fun _ _ => 0%Qc) p f (k_dir k)) as (p1, r1) eqn:ER. cbn [fst]. eapply add_reference_clean; eauto.
Qed.
Lemma alloc_all_clean name r0 l : forall l0 p a a' p', alloc_all s name l p a = (a', p', OOk tt) -> linv name r0 l0 p a -> clean p -> clean p'.
Proof.
  induction l as [|af l IH]; intros l0 p a a' p' E I C; cbn [alloc_all] in E; [inversion E; subst; auto|].
  destruct (alloc_one s name af p a) as ((a1, p1), [[]|y]) eqn:E1; [|discriminate]. destruct (alloc_one_props _ _ _ _ _ _ _ _ _ E1 I) as (_ & _ & K1).
  destruct (K1 eq_refl) as (_ & I1). eapply IH; eauto. eapply alloc_one_clean; eauto. apply I.
Qed.

(** ** The imported process *)
(** Without allocation every reference carries the whole exchange. *)
Definition whole (cf : nat -> nat -> Qc) (p : proc) : Prop :=
  forall k r vk vr, exch_value p k = Some vk -> ~ In k (p_refs p) -> In r (p_refs p) -> exch_value p r = Some vr -> vr <> 0%Qc ->
    exists y, getitem cf p k r = POk y /\ (y * vr = vk)%Qc.
Definition faithful (j : oproc) (cf : string -> nat -> nat -> Qc) (p : proc) (q : option qid) : Prop :=
  exchanges_of s j p /\ references_of j p /\
  match op_default j with
  | None => q = None /\ forall c, whole c p
  | Some t => q = Some (AQ (op_name j) t) /\
      (t <> "CAUSAL_ALLOCATION" -> if eq_dec (stated_total j t) 0%Qc then forall c, whole c p else partitions j t (cf t) p)
  end.
Definition cfun (a : oarch) (name : string) : string -> nat -> nat -> Qc := fun t => arch_cf a (AQ name t).

Lemma stated_filter l t f : stated (filter (fun af => negb (eqb (fst (fst af)) 0%Qc)) l) t f = stated l t f.
Proof.
  induction l as [|((v, typ), g) l IH]; [reflexivity|]. cbn [filter fst]. unfold stated in *. destruct (eqb_spec v 0%Qc) as [->|]; cbn [negb filter fst snd].
  - rewrite IH. destruct (_ && _); [|auto]. cbn [map fst]. rewrite Qcsum_cons. ring.
  - destruct (_ && _); [|auto]. cbn [map fst]. rewrite !Qcsum_cons. now rewrite IH.
Qed.
Lemma psum_total p j t : (forall f, hasx p f = existsb (fun x => Nat.eqb (ox_flow x) f) (op_exch j)) ->
  psum p (filter (fun af => negb (eqb (fst (fst af)) 0%Qc)) (op_alloc j)) t = stated_total j t.
Proof.
  intros H. unfold psum, stated_total. induction (op_alloc j) as [|((v, typ), g) l IH]; [reflexivity|].
  cbn [filter fst snd]. destruct (eqb_spec v 0%Qc) as [->|]; cbn [negb filter fst snd]; rewrite ?H, ?IH.
  - destruct (_ && _); [|auto]. cbn [map fst]. rewrite Qcsum_cons. ring.
  - destruct (_ && _); [|auto]. cbn [map fst]. rewrite !Qcsum_cons. now rewrite IH.
Qed.
Lemma value_vd e v : x_vdict e = [] -> value e = Some v -> x_value e = Some v.
Proof. unfold value. intros ->. destruct (x_value e); auto. Qed.
Lemma is_whole p : rinv p -> clean p -> forall c, whole c p.
Proof.
  intros (R1 & R2 & _) (_ & C) c k r vk vr Ek Nk Ir Er NZ. unfold exch_value in *.
  destruct (dget k (p_exch p)) as [e|] eqn:De; [|discriminate]. destruct (dget r (p_exch p)) as [e'|] eqn:Dr; [|discriminate].
  assert (x_ref e = false) as Xe. { destruct (x_ref e) eqn:X; [|auto]. exfalso. apply Nk, R2. unfold is_ref. now rewrite De. }
  assert (x_ref e' = true) as Xr. { apply R2 in Ir. unfold is_ref in Ir. now rewrite Dr in Ir. }
  unfold getitem. rewrite De, Dr, Xe, Xr. unfold alloc_qty. rewrite R1. change (eqb 0%Qc (Q2Qc 0)) with true. cbv iota. rewrite (C _ _ De).
  rewrite (value_vd _ _ (C _ _ De) Ek), Er. unfold pdiv. destruct (eqb_spec vr (Q2Qc 0)); [contradiction|]. eexists. split; [reflexivity|]. field. exact NZ.
Qed.
Lemma is_partition j t name p a r0 l : linv name r0 l p a -> t <> causal -> (forall f, stated l t f = stated (op_alloc j) t f) ->
  psum p l t = stated_total j t -> stated_total j t <> 0%Qc -> partitions j t (cfun a name t) (allocate (cfun a name t) p (Some 0)).
Proof.
  intros I T SF PS NZ. destruct I as [Q (R1 & R2 & R3) N D V A1 A1' A2 A3 A4 A5 A6]. unfold allocate. rewrite alloc_dict_sum.
  change (fun f => cfun a name t f 0) with (cfs a name t). rewrite (A3 t T), PS. destruct (eqb_spec (stated_total j t) (Q2Qc 0)); [contradiction|].
  intros k r vk vr Ek Nk Ir Er. cbn [p_refs] in *. unfold exch_value in Ek, Er. cbn [p_exch] in Ek, Er.
  destruct (dget k (p_exch p)) as [e|] eqn:De; [|discriminate]. destruct (dget r (p_exch p)) as [e'|] eqn:Dr; [|discriminate].
  assert (x_ref e = false) as Xe. { destruct (x_ref e) eqn:X; [|auto]. exfalso. apply Nk, R2. unfold is_ref. now rewrite De. }
  assert (x_ref e' = true) as Xr. { apply R2 in Ir. unfold is_ref in Ir. now rewrite Dr in Ir. }
  unfold getitem. cbn [p_exch]. rewrite De, Dr, Xe, Xr. unfold alloc_qty. cbn [p_sum p_qty]. destruct (eqb_spec (stated_total j t) (Q2Qc 0)); [contradiction|].
  rewrite Ek. eexists. split; [reflexivity|]. pose proof (A2 t r T Ir) as HT. unfold term, exch_value in HT. rewrite Dr, Er, SF in HT. unfold cfs in HT.
  unfold cfun. rewrite <- HT. field. exact NZ.
Qed.

(** ** Histories *)
Definition unique_names : Prop := forall i j i' j', dget i (s_pr s) = Some j -> dget i' (s_pr s) = Some j' -> op_name j = op_name j' -> i = i'.
Definition hinv (a : oarch) : Prop :=
  qinv a /\
  (forall f e n t, dget f (a_f a) = Some e -> dget (AQ n t) (fe_ch e) <> None ->
     exists i j, dget i (s_pr s) = Some j /\ op_name j = n /\ dget i (a_p a) <> None).
(** What stays: entities, their data, and the factors that the allocation of the imported processes uses *)
Definition later (a b : oarch) : Prop :=
  (forall q e, dget q (a_q a) = Some e -> dget q (a_q b) = Some e) /\
  (forall f e, dget f (a_f a) = Some e -> exists e', dget f (a_f b) = Some e' /\ fe_ref e' = fe_ref e /\
     forall q, dget (FP q) (fe_ch e') = dget (FP q) (fe_ch e)) /\
  (forall i x, dget i (a_p a) = Some x -> dget i (a_p b) = Some x) /\
  (forall i j, dget i (a_p a) <> None -> dget i (s_pr s) = Some j -> forall t f, cfs b (op_name j) t f = cfs a (op_name j) t f).
Lemma later_refl a : later a a.
Proof. split; [auto|]. split; [eauto|]. split; auto. Qed.
Lemma later_trans a b c : later a b -> later b c -> later a c.
Proof.
  intros (A1 & A2 & A3 & A4) (B1 & B2 & B3 & B4). split; [auto|]. split; [|split; [auto|]].
  - intros f e E. destruct (A2 _ _ E) as (e1 & E1 & R1 & K1). destruct (B2 _ _ E1) as (e2 & E2 & R2 & K2). exists e2. split; [auto|]. split; [congruence|].
    intros q. now rewrite K2.
  - intros i j P S t f. assert (PB : dget i (a_p b) <> None).
    { destruct (dget i (a_p a)) as [x|] eqn:E; [|contradiction]. rewrite (A3 _ _ E). discriminate. }
    rewrite (B4 i j PB S). now apply (A4 i j).
Qed.
Lemma near_cfs name a b n t f : near name a b -> n <> name -> cfs b n t f = cfs a n t f.
Proof.
  intros (_ & A & B & _) NE. unfold cfs, arch_cf, flow_cf. destruct (dget f (a_f a)) as [e|] eqn:E.
  - destruct (A _ _ E) as (e' & -> & _ & K). rewrite K; [auto|]. intros t' EE; inversion EE; contradiction.
  - destruct (dget f (a_f b)) as [e|] eqn:E'; [|auto]. now rewrite (B _ _ E' E n t NE).
Qed.
Lemma getitem_cf c c' p k r : (forall f q, c' f q = c f q) -> getitem c' p k r = getitem c p k r.
Proof.
  intros H. unfold getitem. destruct (dget k (p_exch p)) as [e|]; [|auto]. destruct (dget r (p_exch p)) as [e'|]; [|auto].
  destruct (x_ref e'); [|auto]. destruct (x_ref e); [auto|]. destruct (alloc_qty p); [|auto]. destruct (value e); [|auto]. now rewrite H.
Qed.
Lemma faithful_cf j c c' p q : faithful j c p q -> (forall t f n, c' t f n = c t f n) -> faithful j c' p q.
Proof.
  intros (A & B & C) H. split; [auto|]. split; [auto|]. destruct (op_default j) as [t|]; [|auto]. destruct C as (-> & C). split; [auto|].
  intros NT. specialize (C NT). destruct (eq_dec _ _); [auto|]. intros k r vk vr Ek Nk Ir Er. destruct (C k r vk vr Ek Nk Ir Er) as (y & Ey & EQ).
  exists y. split; [|auto]. rewrite <- Ey. now apply getitem_cf.
Qed.

Lemma allocate_same c p q : p_exch (allocate c p q) = p_exch p /\ p_refs (allocate c p q) = p_refs p.
Proof. unfold allocate. destruct q; [|auto]. destruct (eqb _ _); auto. Qed.
Lemma exchanges_same j p p' : (forall k, exch_value p' k = exch_value p k) -> (forall k, dget k (p_exch p') = None <-> dget k (p_exch p) = None) ->
  exchanges_of s j p -> exchanges_of s j p'.
Proof.
  intros V N (A & B & C). split; [|split].
  - intros n d H. destruct (A n d H) as (v & ? & ?). exists v. rewrite V. auto.
  - intros n d H. apply N. auto.
  - intros n d w. apply N. auto.
Qed.
Lemma keys_none p p' : dkeys (p_exch p') = dkeys (p_exch p) -> forall k, dget k (p_exch p') = None <-> dget k (p_exch p) = None.
Proof.
  intros D k. split; intros H.
  - destruct (dget k (p_exch p)) as [e|] eqn:E; [|auto]. apply dget_Some_key in E. rewrite <- D in E. apply dget_key_Some in E as (e' & E). congruence.
  - destruct (dget k (p_exch p')) as [e|] eqn:E; [|auto]. apply dget_Some_key in E. rewrite D in E. apply dget_key_Some in E as (e' & E). congruence.
Qed.

Lemma hasx_flows j p : exchanges_of s j p -> forall f, hasx p f = existsb (fun x => Nat.eqb (ox_flow x) f) (op_exch j).
Proof.
  intros (A & B & C) f. apply eq_true_iff_eq. rewrite hasx_spec, existsb_exists. split.
  - intros (((n, d), [w|]) & e & E & <-); [rewrite C in E; discriminate|]. cbn [k_flow fst].
    destruct (existsb (fun x => Nat.eqb (ox_flow x) n && eqb (odir x) d) (op_exch j)) eqn:X.
    + apply existsb_exists in X as (x & Hx & X). apply andb_true_iff in X as (X & _). eauto.
    + exfalso. rewrite B in E; [discriminate|]. intros (x & Hx & O). apply on_key in O.
      assert (existsb (fun x => Nat.eqb (ox_flow x) n && eqb (odir x) d) (op_exch j) = true) by (apply existsb_exists; eauto). congruence.
  - intros (x & Hx & E). apply Nat.eqb_eq in E. destruct (A f (odir x)) as (v & V & _); [exists x; split; [auto|split; auto]|].
    unfold exch_value in V. destruct (dget (f, odir x, None) (p_exch p)) eqn:D; [|discriminate]. eauto.
Qed.

Lemma create_process_props i a a' r : unique_names -> create_process s i a = (a', r) -> hinv a ->
  hinv a' /\ later a a' /\
  (forall i', dget i' (a_p a') <> None -> i' = i \/ dget i' (a_p a) <> None) /\
  (r = OOk tt -> dget i (a_p a') <> None /\ (dget i (a_p a) = None ->
     exists j p q, dget i (s_pr s) = Some j /\ dget i (a_p a') = Some (p, q) /\ faithful j (cfun a' (op_name j)) p q)).
Proof.
  intros UN E (Q & H). unfold create_process in E. destruct (dget i (a_p a)) as [x|] eqn:Ei.
  { inversion E; subst. split; [split; auto|]. split; [apply later_refl|]. split; [auto|]. intros _. split; congruence. }
  destruct (dget i (s_pr s)) as [j|] eqn:Ej.
  2:{ inversion E; subst. split; [split; auto|]. split; [apply later_refl|]. split; [auto|discriminate]. }
  (* the state before the process is put *)
  assert (PUT : forall b x, qinv b -> near (op_name j) a b ->
     hinv (OA (a_q b) (a_f b) (dset i x (a_p b))) /\ later a (OA (a_q b) (a_f b) (dset i x (a_p b))) /\
     (forall i', dget i' (dset i x (a_p b)) <> None -> i' = i \/ dget i' (a_p a) <> None)).
  { intros b x Qb Nb. pose proof Nb as (N1 & N2 & N3 & N4). split; [|split].
    - split; [exact Qb|]. intros f e n t Ef Et. cbn [a_f a_p] in *. destruct (eqb_spec n (op_name j)) as [->|NE].
      + exists i, j. split; [auto|]. split; [auto|]. rewrite dget_dset_same. discriminate.
      + destruct (dget f (a_f a)) as [e0|] eqn:E0.
        * destruct (N2 _ _ E0) as (e' & E' & _ & K). rewrite E' in Ef. inversion Ef; subst. rewrite K in Et by (intros t' EE; inversion EE; contradiction).
          destruct (H _ _ _ _ E0 Et) as (i1 & j1 & ? & ? & ?). exists i1, j1. split; [auto|]. split; [auto|]. rewrite dget_dset. destruct (eqb _ _); [discriminate|congruence].
        * exfalso. apply Et. eauto.
    - split; [auto|]. split; [|split].
      + intros f e Ef. destruct (N2 _ _ Ef) as (e' & ? & ? & K). exists e'. split; [auto|]. split; [auto|]. intros q. apply K. discriminate.
      + intros i' y Ey. cbn [a_p]. rewrite dget_dset, N4. destruct (eqb_spec i' i); [subst; congruence|auto].
      + intros i' j' Hi Hj t f. change (cfs b (op_name j') t f = cfs a (op_name j') t f). eapply near_cfs; eauto. intros EE.
        assert (i' = i) by (eapply UN; eauto). subst. contradiction.
    - intros i'. rewrite dget_dset, N4. destruct (eqb_spec i' i); auto. }
  assert (PL0 : EcoProofs.plain new_proc) by (repeat split; try discriminate; auto).
  destruct (add_oxs s (op_exch j) new_proc a) as ((a1, p1), r1) eqn:E1. destruct (add_oxs_props _ _ _ _ _ _ E1 Q PL0) as (Q1 & X1 & PL1 & G1).
  pose proof (ext_near (op_name j) _ _ X1) as NX1.
  destruct r1 as [[]|y]; [|inversion E; subst; destruct (PUT a1 (p1, None) Q1 NX1) as (? & ? & ?); split; [auto|split; [auto|split; [auto|discriminate]]]].
  assert (XE1 : exchanges_of s j p1).
  { split; [|split].
    - intros n d (x & Hx & O). destruct (G1 eq_refl n d) as (t & HT & GT). exists t. split; [|auto]. unfold exch_value. rewrite GT. cbn [new_proc p_exch dget].
      assert (existsb (fun x => Nat.eqb (ox_flow x) n && eqb (odir x) d) (op_exch j) = true) as -> by (apply existsb_exists; exists x; split; [auto|now apply on_key]). reflexivity.
    - intros n d NO. destruct (G1 eq_refl n d) as (t & HT & GT). rewrite GT. cbn [new_proc p_exch dget]. destruct (existsb _ _) eqn:X; [|auto].
      exfalso. apply NO. apply existsb_exists in X as (x & Hx & X). exists x. split; [auto|now apply on_key].
    - apply PL1. }
  assert (R1 : rinv p1).
  { destruct PL1 as (P1 & P2 & P3 & P4 & P5). split; [auto|]. split; [|rewrite P3; constructor]. intros k. rewrite P3. split; [|intros []].
    unfold is_ref. destruct k as ((n, d), [w|]); [rewrite P2; discriminate|]. destruct (dget (n, d, None) (p_exch p1)) eqn:Ed; [|discriminate].
    destruct (P1 _ _ _ Ed) as (v & ->). discriminate. }
  assert (C1 : clean p1) by (split; [eapply add_oxs_nodup; eauto; constructor|now apply plain_vd]).
  destruct (add_quants (op_exch j) p1) as (p2, r2) eqn:E2. destruct (add_quants_props _ _ _ _ E2 R1) as (R2 & V2 & N2 & G2).
  pose proof (add_quants_clean _ _ _ _ E2 R1 C1) as C2. pose proof (exchanges_same _ _ _ V2 N2 XE1) as XE2.
  destruct r2 as [[]|y]; [|inversion E; subst; destruct (PUT a1 (p2, None) Q1 NX1) as (? & ? & ?); split; [auto|split; [auto|split; [auto|discriminate]]]].
  destruct (G2 eq_refl) as (G3 & G4). assert (P0 : p_refs p1 = []) by apply PL1. rewrite P0 in G3.
  (* no factor of this name yet *)
  assert (FR : forall f e t, dget f (a_f a1) = Some e -> dget (AQ (op_name j) t) (fe_ch e) = None).
  { intros f e t Ef. destruct (dget (AQ (op_name j) t) (fe_ch e)) eqn:ET; [|auto]. exfalso. destruct X1 as (_ & X2 & X3 & _).
    destruct (dget f (a_f a)) as [e0|] eqn:E0; [|rewrite (X3 _ _ Ef E0) in ET; discriminate]. rewrite (X2 _ _ E0) in Ef. inversion Ef; subst.
    destruct (H f e (op_name j) t E0) as (i1 & j1 & S1 & S2 & S3); [congruence|]. assert (i1 = i) by (eapply UN; eauto). subst. contradiction. }
  assert (CZ : forall t f, cfs a1 (op_name j) t f = 0%Qc).
  { intros t f. unfold cfs, arch_cf, flow_cf. destruct (dget f (a_f a1)) as [e|] eqn:Ef; [|auto]. now rewrite (FR _ _ t Ef). }
  assert (TZ : forall t r, term p2 (cfs a1 (op_name j) t) r = 0%Qc) by (intros t r0; unfold term; destruct (exch_value p2 r0); [rewrite CZ; ring|auto]).
  assert (I2 : linv (op_name j) (p_refs p2) [] p2 a1).
  { constructor; auto.
    - exact (proj2 (proj2 XE2)).
    - apply C2.
    - intros k Hk. apply G3 in Hk as [[] | (x & Hx & Qx & ->)]. destruct XE2 as (A & _). destruct (A (ox_flow x) (odir x)) as (v & V & _); [|eauto]. exists x. split; [auto|split; auto].
    - intros f e t Ef Et. exfalso. apply Et. eauto.
    - intros f e t locs Ef Et. rewrite (FR _ _ t Ef) in Et. discriminate.
    - intros t _. assert (ZS : forall l, Qcsum (map (term p2 (cfs a1 (op_name j) t)) l) = 0%Qc).
      { induction l as [|z l IH]; [reflexivity|]. cbn [map]. rewrite Qcsum_cons, IH, TZ. ring. }
      rewrite ZS. reflexivity.
    - intros af []. }
  set (al := filter _ (op_alloc j)) in *.
  destruct (alloc_all s (op_name j) al p2 a1) as ((a2, p3), r3) eqn:E3. destruct (alloc_all_props _ _ _ _ _ _ _ _ _ E3 I2) as (Q3 & NX3 & G5).
  pose proof (near_trans _ _ _ _ NX1 NX3) as NX.
  destruct r3 as [[]|y]; [|inversion E; subst; destruct (PUT a2 (p3, None) Q3 NX) as (? & ? & ?); split; [auto|split; [auto|split; [auto|discriminate]]]].
  destruct (G5 eq_refl) as ((V3 & D3) & I3). cbn [app] in I3. pose proof (alloc_all_clean _ _ _ _ _ _ _ _ E3 I2 C2) as C3.
  pose proof (exchanges_same _ _ _ V3 (keys_none _ _ D3) XE2) as XE3.
  destruct (default_alloc (op_name j) (op_default j) p3 a2) as (p4, q) eqn:E4. inversion E; subst a' r. clear E.
  destruct (PUT a2 (p4, q) Q3 NX) as (K1 & K2 & K3). split; [exact K1|]. split; [exact K2|]. split; [exact K3|]. intros _.
  assert (DG : dget i (a_p (OA (a_q a2) (a_f a2) (dset i (p4, q) (a_p a2)))) = Some (p4, q)) by (cbn [a_p]; apply dget_dset_same).
  split; [rewrite DG; discriminate|]. intros _. exists j, p4, q. split; [auto|]. split; [exact DG|].
  assert (SAME : p_exch p4 = p_exch p3 /\ p_refs p4 = p_refs p3).
  { unfold default_alloc in E4. destruct (op_default j); apply pair_equal_spec in E4 as (<- & <-); [apply allocate_same|auto]. }
  destruct SAME as (SX & SR). split; [|split].
  - apply (exchanges_same j p3); [intros k; unfold exch_value; now rewrite SX|intros k; now rewrite SX|auto].
  - pose proof I3 as [_ (R31 & R32 & R33) _ _ V A1 A1' A2 A3 A4 A5 A6]. unfold references_of. rewrite SR. split; [auto|]. split; [|split; [|split]].
    + intros x Hx Qx. apply A6, G3. right. eauto.
    + intros k Hk. split; [unfold exch_value; rewrite SX; now apply V|]. destruct (A5 k Hk) as [Hq | (af & Ha & Hc & Hf)].
      * left. apply G3 in Hq as [[] | Hq]. exact Hq.
      * right. exists af. unfold al in Ha. apply filter_In in Ha as (Ha & _). auto.
    + intros af x Ha Hc Hx Hf. apply (A4 af); [|auto|].
      * unfold al. apply filter_In. split; [auto|]. destruct (eqb_spec (fst (fst af)) 0%Qc) as [Z|]; [destruct Hc; contradiction|auto].
      * rewrite (hasx_flows _ _ XE3). apply existsb_exists. exists x. split; [auto|now apply Nat.eqb_eq].
    + intros k. unfold is_ref. rewrite SX. apply R32.
  - unfold default_alloc in E4. destruct (op_default j) as [t|]; apply pair_equal_spec in E4 as (<- & <-); [|split; [auto|apply is_whole; [apply I3|auto]]].
    split; [auto|]. intros NT. assert (PS : psum p3 al t = stated_total j t) by (apply psum_total, hasx_flows; auto). destruct (eq_dec (stated_total j t) 0%Qc) as [Z|Z].
    + assert (allocate (arch_cf a2 (AQ (op_name j) t)) p3 (Some 0) = p3) as ->; [|apply is_whole; [apply I3|auto]].
      unfold allocate. rewrite alloc_dict_sum. change (fun f => arch_cf a2 (AQ (op_name j) t) f 0) with (cfs a2 (op_name j) t).
      rewrite (l_3 _ _ _ _ _ I3 t NT), PS, Z. reflexivity.
    + eapply (is_partition j t (op_name j) p3 a2); eauto. intros f. apply stated_filter.
Qed.

Lemma ext_hinv a b : hinv a -> qinv b -> ext a b -> hinv b /\ later a b.
Proof.
  intros (Q & H) Qb (X1 & X2 & X3 & X4). split.
  - split; [auto|]. intros f e n t Ef Et. rewrite X4. destruct (dget f (a_f a)) as [e0|] eqn:E0.
    + rewrite (X2 _ _ E0) in Ef. inversion Ef; subst. eauto.
    + exfalso. apply Et. eauto.
  - split; [auto|]. split; [intros f e Ef; exists e; auto|]. split; [rewrite X4; auto|]. intros i j _ _ t f. apply cfs_ext. split; auto.
Qed.
(** What a call that returned normally has done *)
Definition imported (a a' : oarch) : Prop :=
  forall i, dget i (a_p a) = None -> dget i (a_p a') <> None ->
    exists j p q, dget i (s_pr s) = Some j /\ dget i (a_p a') = Some (p, q) /\ faithful j (cfun a' (op_name j)) p q.
Lemma imported_later a a1 a2 : later a1 a2 -> hinv a2 ->
  (forall i, dget i (a_p a) = None -> dget i (a_p a1) <> None -> exists j p q, dget i (s_pr s) = Some j /\ dget i (a_p a1) = Some (p, q) /\ faithful j (cfun a1 (op_name j)) p q) ->
  forall i, dget i (a_p a) = None -> dget i (a_p a1) <> None -> exists j p q, dget i (s_pr s) = Some j /\ dget i (a_p a2) = Some (p, q) /\ faithful j (cfun a2 (op_name j)) p q.
Proof.
  intros (_ & _ & L3 & L4) _ A i E N. destruct (A i E N) as (j & p & q & Ej & Ep & F). exists j, p, q. split; [auto|]. split; [auto|].
  eapply faithful_cf; [exact F|]. intros t f n. change (cfs a2 (op_name j) t f = cfs a1 (op_name j) t f). eapply L4; eauto.
Qed.
Lemma load_ps_props l : unique_names -> forall a a' r, load_ps s l a = (a', r) -> hinv a ->
  hinv a' /\ later a a' /\ (r = OOk tt -> imported a a' /\ forall i, In i l -> dget i (a_p a') <> None).
Proof.
  intros UN. induction l as [|i l IH]; intros a a' r E H; cbn [load_ps] in E.
  - inversion E; subst. split; [auto|]. split; [apply later_refl|]. intros _. split; [intros i A B; contradiction|intros i []].
  - destruct (create_process s i a) as (a1, r1) eqn:E1. destruct (create_process_props _ _ _ _ UN E1 H) as (H1 & L1 & O1 & G1).
    destruct r1 as [[]|y]; [|inversion E; subst; split; [auto|split; [auto|discriminate]]].
    destruct (IH _ _ _ E H1) as (H2 & L2 & G2). split; [auto|]. split; [eapply later_trans; eauto|]. intros R. destruct (G2 R) as (I2 & A2). destruct (G1 eq_refl) as (P1 & F1). split.
    + intros k Ek Nk. destruct (dget k (a_p a1)) as [x|] eqn:Ek1; [|now apply I2].
      eapply (imported_later a a1 a'); eauto; [|congruence]. intros i' Ei' Ni'. destruct (O1 i' Ni') as [-> | ?]; [auto|contradiction].
    + intros k [<- | Hk]; [|auto]. destruct L2 as (_ & _ & L & _). destruct (dget i (a_p a1)) as [x|] eqn:Ei; [|contradiction]. rewrite (L _ _ Ei). discriminate.
Qed.
Lemma ostep_props o a a' r : unique_names -> ostep s o a = (a', r) -> hinv a ->
  hinv a' /\ later a a' /\ (r = OOk tt -> imported a a').
Proof.
  intros UN E H. destruct o as [i|f|q|]; cbn [ostep] in E.
  - destruct (create_process_props _ _ _ _ UN E H) as (H1 & L1 & O1 & G1). split; [auto|]. split; [auto|]. intros R k Ek Nk.
    destruct (G1 R) as (_ & F). destruct (O1 k Nk) as [-> | ?]; [auto|contradiction].
  - destruct (create_flow s f a) as (a1, r1) eqn:E1. destruct H as (Q & H). destruct (create_flow_props _ _ _ _ E1 Q) as (Q1 & X1 & _).
    destruct (ext_hinv a a1 (conj Q H) Q1 X1) as (H1 & L1). assert (a' = a1) as -> by (destruct r1; inversion E; auto).
    split; [auto|]. split; [auto|]. intros _ k Ek Nk. destruct X1 as (_ & _ & _ & X). congruence.
  - destruct (create_quantity s q a) as (a1, r1) eqn:E1. destruct H as (Q & H). destruct (create_quantity_props _ _ _ _ E1 Q) as (Q1 & X1 & _).
    destruct (ext_hinv a a1 (conj Q H) Q1 X1) as (H1 & L1). assert (a' = a1) as -> by (destruct r1; inversion E; auto).
    split; [auto|]. split; [auto|]. intros _ k Ek Nk. destruct X1 as (_ & _ & _ & X). congruence.
  - destruct (load_ps_props _ UN _ _ _ E H) as (H1 & L1 & G1). split; [auto|]. split; [auto|]. intros R. exact (proj1 (G1 R)).
Qed.

Definition hstep (ab : oarch * bool) (o : oop) : oarch * bool :=
  match ostep s o (fst ab) with (a1, OOk _) => (a1, snd ab) | (a1, OErr _) => (a1, false) end.
Lemma fold_props l : unique_names -> forall ab, hinv (fst ab) -> hinv (fst (fold_left hstep l ab)) /\ later (fst ab) (fst (fold_left hstep l ab)).
Proof.
  intros UN. induction l as [|o l IH]; intros ab H; cbn [fold_left]; [split; [auto|apply later_refl]|].
  assert (K : hinv (fst (hstep ab o)) /\ later (fst ab) (fst (hstep ab o))).
  { unfold hstep. destruct (ostep s o (fst ab)) as (a1, r) eqn:E. destruct (ostep_props _ _ _ _ UN E H) as (A & B & _). destruct r; auto. }
  destruct K as (K1 & K2). destruct (IH _ K1) as (A & B). split; [auto|]. eapply later_trans; eauto.
Qed.
Lemma hinv_new : hinv new_oarch.
Proof. split; [intros q e; discriminate|intros f e n t; discriminate]. Qed.
Lemma ohist_fold l : ohist s l = fold_left hstep l (new_oarch, true).
Proof. reflexivity. Qed.

(** ** Flows *)
Definition glo (j : oflow) : Prop := of_loc j = None \/ of_loc j = Some "GLO".
(** A flow entity agrees with its file: its reference property is declared as such; with no location (or the global one) its
    factor for another property is the declared one, elsewhere there is none. *)
Definition flow_ok (f : nat) (e : flowe) : Prop :=
  exists j, dget f (s_fl s) = Some j /\ In (fe_ref e, 1%Qc, true) (of_props j) /\ flow_cf e (FP (fe_ref e)) = 1%Qc /\
    (forall q fac, q <> fe_ref e -> glo j -> In (q, fac, false) (of_props j) -> (forall fac', In (q, fac', false) (of_props j) -> fac' = fac) ->
       flow_cf e (FP q) = fac) /\
    (forall q, q <> fe_ref e -> (~ glo j \/ forall fac, ~ In (q, fac, false) (of_props j)) -> flow_cf e (FP q) = 0%Qc).
Definition finv (a : oarch) : Prop := forall f e, dget f (a_f a) = Some e -> flow_ok f e.
Lemma create_quantity_f q a a' r : create_quantity s q a = (a', r) -> a_f a' = a_f a.
Proof.
  unfold create_quantity. destruct (dget q (a_q a)); [intros E; inversion E; auto|]. destruct (dget q (s_fp s)); [|intros E; inversion E; auto].
  destruct (create_unit s s0) as [(u, t)|]; intros E; inversion E; auto.
Qed.
Lemma flow_props_f l0 l : (forall z, In z l -> In z l0) -> forall qs rq a a' r, flow_props s l qs rq a = (a', r) ->
  NoDup (map fst qs) -> (forall q v, In (q, v) qs -> In (q, v, false) l0) -> (forall q, rq = Some q -> In (q, 1%Qc, true) l0) ->
  a_f a' = a_f a /\
  forall qs' rq', r = OOk (qs', rq') -> NoDup (map fst qs') /\ (forall q v, In (q, v) qs' -> In (q, v, false) l0) /\ (forall q, rq' = Some q -> In (q, 1%Qc, true) l0) /\
    (forall q v, In (q, v, false) l -> In q (map fst qs')) /\ (forall q, In q (map fst qs) -> In q (map fst qs')).
Proof.
  intros L. induction l as [|((q, fac), isref) l IH]; intros qs rq a a' r E ND A B; cbn [flow_props] in E.
  - inversion E; subst. split; [auto|]. intros qs' rq' EE; inversion EE; subst. split; [auto|]. split; [auto|]. split; [auto|]. split; [intros q v []|auto].
  - assert (L' : forall z, In z l -> In z l0) by (intros z Hz; apply L; cbn; auto). specialize (IH L').
    destruct (create_quantity s q a) as (a1, [e|x]) eqn:E1; pose proof (create_quantity_f _ _ _ _ E1) as F1; [|inversion E; subst; split; [auto|discriminate]].
    destruct isref.
    + destruct (eqb_spec fac 1%Qc) as [->|]; [|inversion E; subst; split; [auto|discriminate]].
      destruct (IH _ _ _ _ _ E ND A) as (F2 & G2).
      { intros q' EE; inversion EE; subst. apply L. cbn; auto. }
      split; [congruence|]. intros qs' rq' HR. destruct (G2 _ _ HR) as (G3 & G4 & G5 & G6 & G7). split; [auto|]. split; [auto|]. split; [auto|]. split; [|auto].
      intros q' v [EE | Hv]; [inversion EE|eauto].
    + destruct (mem_spec q (map fst qs)) as [I|NI].
      * destruct (IH _ _ _ _ _ E ND A B) as (F2 & G2). split; [congruence|]. intros qs' rq' HR. destruct (G2 _ _ HR) as (G3 & G4 & G5 & G6 & G7).
        split; [auto|]. split; [auto|]. split; [auto|]. split; [|auto]. intros q' v [EE | Hv]; [inversion EE; subst; auto|eauto].
      * destruct (IH _ _ _ _ _ E) as (F2 & G2); [| |auto|].
        { rewrite map_app. cbn [map fst]. apply NoDup_snoc; auto. }
        { intros q' v Hv. apply in_app_iff in Hv as [Hv | [EE | []]]; [auto|]. inversion EE; subst. apply L. cbn; auto. }
        split; [congruence|]. intros qs' rq' HR. destruct (G2 _ _ HR) as (G3 & G4 & G5 & G6 & G7). split; [auto|]. split; [auto|]. split; [auto|].
        assert (G8 : forall z, In z (map fst qs) -> In z (map fst qs')) by (intros z Hz; apply G7; rewrite map_app, in_app_iff; auto).
        split; [|auto]. intros q' v [EE | Hv]; [inversion EE; subst; apply G7; rewrite map_app, in_app_iff; cbn; auto|eauto].
Qed.
Lemma add_chars_props loc l : NoDup (map fst l) -> forall f f', add_chars l loc f = OOk f' -> fe_ref f' = fe_ref f /\
  forall q, dget (FP q) (fe_ch f') =
    match dget q l with
    | Some v => Some (dset loc v (match dget (FP q) (fe_ch f) with Some x => x | None => [] end))
    | None => dget (FP q) (fe_ch f)
    end /\ (dget q l <> None -> forall x, dget (FP q) (fe_ch f) = Some x -> dget loc x = None).
Proof.
  induction l as [|(q0, v) l IH]; intros ND f f' E; cbn [add_chars] in E.
  - inversion E; subst. split; [auto|]. intros q. cbn [dget]. split; [auto|intros H; exfalso; now apply H].
  - cbn [map fst] in ND. inversion ND; subst. unfold add_char in E. destruct (din loc _) eqn:DI; [discriminate|].
    destruct (IH H2 _ _ E) as (R & G). split; [exact R|]. intros q. destruct (G q) as (G1 & G2). cbn [fe_ch] in G1, G2. rewrite dget_dset in G1, G2. cbn [dget].
    destruct (eqb_spec q q0) as [<-|NE].
    + assert (dget q l = None) as DN. { destruct (dget q l) eqn:Dq; [|auto]. exfalso. apply H1. change (map fst l) with (dkeys l). eapply dget_Some_key; eauto. }
      rewrite DN in G1. rewrite eqb_refl in G1. split; [exact G1|]. intros _ x Ex. rewrite Ex in DI. rewrite EcoProofs.din_get in DI. destruct (dget loc x); [discriminate|auto].
    + destruct (eqb_spec (FP q) (FP q0)) as [EE|_]; [inversion EE; congruence|]. auto.
Qed.
Lemma create_flow_finv f a a' r : create_flow s f a = (a', r) -> finv a -> finv a'.
Proof.
  unfold create_flow. intros E I. destruct (dget f (a_f a)) eqn:Eq; [inversion E; subst; auto|].
  destruct (dget f (s_fl s)) as [j|] eqn:Ej; [|inversion E; subst; auto].
  destruct (flow_props s (of_props j) [] None a) as (a1, r1) eqn:E1.
  destruct (flow_props_f (of_props j) (of_props j) ltac:(auto) [] None a a1 r1 E1) as (F1 & G1); [constructor|intros q v []|discriminate|].
  assert (I1 : finv a1) by (unfold finv; rewrite F1; exact I).
  destruct r1 as [(qs, [rq|])|x]; try (inversion E; subst; exact I1).
  destruct (add_chars qs _ (FE rq [(FP rq, [("GLO", 1%Qc)])])) as [fe|x] eqn:E2; [|inversion E; subst; exact I1].
  inversion E; subst. intros g e. cbn [a_f]. rewrite dget_dset. destruct (eqb_spec g f) as [->|]; [|apply I1]. intros EE; inversion EE; subst. clear EE.
  destruct (G1 _ _ eq_refl) as (G2 & G3 & G4 & G5 & _). destruct (add_chars_props _ _ G2 _ _ E2) as (R & G). cbn [fe_ref fe_ch] in R, G.
  exists j. split; [auto|]. rewrite R. split; [auto|]. set (loc := match of_loc j with Some l => l | None => "GLO" end) in *.
  assert (CF : forall q, flow_cf e (FP q) = match dget q qs with Some v => if eqb q rq then 1%Qc else if eqb "GLO" loc then v else 0%Qc | None => if eqb q rq then 1%Qc else 0%Qc end).
  { intros q. destruct (G q) as (G6 & G7). unfold flow_cf. rewrite G6. cbn [dget] in *.
    assert (EQ : eqb (FP q) (FP rq) = eqb q rq) by (destruct (eqb_spec (FP q) (FP rq)), (eqb_spec q rq); congruence). rewrite EQ in *.
    destruct (dget q qs) as [v|].
    - destruct (eqb q rq).
      + specialize (G7 ltac:(discriminate) _ eq_refl). cbn [dget] in G7. rewrite dget_dset. rewrite (eqb_sym loc "GLO") in G7.
        destruct (eqb "GLO" loc); [discriminate|]. cbn [dget]. rewrite eqb_refl. reflexivity.
      + rewrite dget_dset. destruct (eqb "GLO" loc); reflexivity.
    - destruct (eqb q rq); [|reflexivity]. reflexivity. }
  assert (GL : glo j <-> loc = "GLO") by (unfold glo, loc; destruct (of_loc j); split; [intros [? | ?]; congruence|intros ->; auto|auto|auto]).
  split; [|split].
  - rewrite CF, eqb_refl. destruct (dget rq qs); reflexivity.
  - intros q fac NE HG Hq U. rewrite CF. apply eqb_neq in NE. rewrite NE. apply GL in HG. rewrite HG, eqb_refl.
    destruct (dget q qs) as [v|] eqn:Dq; [apply U, G3; now apply dget_In|]. exfalso. apply G5 in Hq. change (map fst qs) with (dkeys qs) in Hq.
    apply dget_key_Some in Hq as (v & Hq). congruence.
  - intros q NE H. rewrite CF. apply eqb_neq in NE. rewrite NE. destruct (dget q qs) as [v|] eqn:Dq; [|auto]. destruct H as [H | H].
    + rewrite GL in H. destruct (eqb_spec "GLO" loc); [congruence|auto].
    + exfalso. apply (H v). apply G3. now apply dget_In.
Qed.
Lemma create_quantity_finv q a a' r : create_quantity s q a = (a', r) -> finv a -> finv a'.
Proof. intros E I. unfold finv. rewrite (create_quantity_f _ _ _ _ E). exact I. Qed.
Lemma add_ox_finv x p a a' r : add_ox s x p a = (a', r) -> finv a -> finv a'.
Proof.
  unfold add_ox. intros E I. destruct (create_flow s (ox_flow x) a) as (a1, [fe|y]) eqn:E1; pose proof (create_flow_finv _ _ _ _ E1 I) as I1; [|inversion E; subst; auto].
  destruct (create_quantity s (ox_fp x) a1) as (a2, [q|y]) eqn:E2; pose proof (create_quantity_finv _ _ _ _ E2 I1) as I2; [|inversion E; subst; auto].
  destruct (if eqb _ (qu_unit q) then _ else _); [|inversion E; subst; auto]. destruct (Nat.eqb _ _); [|inversion E; subst; auto].
  destruct (add_exchange _ _ _ _ _ _ _) as (p1, []); inversion E; subst; auto.
Qed.
Lemma add_oxs_finv l : forall p a a' p' r, add_oxs s l p a = (a', p', r) -> finv a -> finv a'.
Proof.
  induction l as [|x l IH]; intros p a a' p' r E I; cbn [add_oxs] in E; [inversion E; subst; auto|].
  destruct (add_ox s x p a) as (a1, [p1|y]) eqn:E1; pose proof (add_ox_finv _ _ _ _ _ E1 I); [eauto|inversion E; subst; auto].
Qed.
Lemma alloc_one_finv name af p a a' p' r : alloc_one s name af p a = (a', p', r) -> qinv a -> finv a -> finv a'.
Proof.
  destruct af as ((v, typ), f). unfold alloc_one. intros E Q I. destruct (eqb v 0%Qc); [inversion E; subst; auto|].
  destruct (eqb typ _); [inversion E; subst; auto|]. destruct (create_flow s f a) as (a1, [fe|y]) eqn:E1; pose proof (create_flow_finv _ _ _ _ E1 I) as I1; [|inversion E; subst; auto].
  destruct (create_flow_props _ _ _ _ E1 Q) as (_ & _ & F1). specialize (F1 _ eq_refl).
  destruct (match find_exchange p _ _ _ with POk _ => _ | PErr _ => _ end) as (p1, [[k|]|y]); try (inversion E; subst; auto).
  destruct (exch_value p1 k) as [x|]; [|inversion E; subst; auto]. destruct (eqb x _); [inversion E; subst; auto|].
  unfold add_char in E. destruct (din _ _); inversion E; subst; auto.
  intros g e. cbn [a_f]. rewrite dget_dset. destruct (eqb_spec g f) as [->|]; [|apply I1]. intros EE; inversion EE; subst. clear EE.
  destruct (I1 _ _ F1) as (j & Ej & R & C1 & C2 & C3). exists j. cbn [fe_ref].
  assert (CF : forall w q, flow_cf (FE (fe_ref fe) (dset (AQ name typ) w (fe_ch fe))) (FP q) = flow_cf fe (FP q)).
  { intros w q. unfold flow_cf. cbn [fe_ch]. rewrite dget_dset. destruct (eqb_spec (FP q) (AQ name typ)); [discriminate|auto]. }
  split; [auto|]. split; [auto|]. split; [now rewrite CF|]. split; intros; rewrite CF; auto.
Qed.
Lemma alloc_one_qinv name af p a a' p' r : alloc_one s name af p a = (a', p', r) -> qinv a -> qinv a'.
Proof.
  destruct af as ((v, typ), f). unfold alloc_one. intros E Q. destruct (eqb v 0%Qc); [inversion E; subst; auto|].
  destruct (eqb typ _); [inversion E; subst; auto|]. destruct (create_flow s f a) as (a1, [fe|y]) eqn:E1; destruct (create_flow_props _ _ _ _ E1 Q) as (Q1 & _ & _); [|inversion E; subst; auto].
  destruct (match find_exchange p _ _ _ with POk _ => _ | PErr _ => _ end) as (p1, [[k|]|y]); try (inversion E; subst; auto).
  destruct (exch_value p1 k) as [x|]; [|inversion E; subst; auto]. destruct (eqb x _); [inversion E; subst; auto|].
  destruct (add_char _ _ _ _); inversion E; subst; auto.
Qed.
Lemma alloc_all_finv name l : forall p a a' p' r, alloc_all s name l p a = (a', p', r) -> qinv a -> finv a -> qinv a' /\ finv a'.
Proof.
  induction l as [|af l IH]; intros p a a' p' r E Q I; cbn [alloc_all] in E; [inversion E; subst; auto|].
  destruct (alloc_one s name af p a) as ((a1, p1), [[]|y]) eqn:E1; pose proof (alloc_one_finv _ _ _ _ _ _ _ E1 Q I); pose proof (alloc_one_qinv _ _ _ _ _ _ _ E1 Q); [eauto|inversion E; subst; auto].
Qed.
Definition einv (a : oarch) : Prop := qinv a /\ finv a.
Lemma create_process_einv i a a' r : create_process s i a = (a', r) -> einv a -> einv a'.
Proof.
  intros E (Q & I). unfold create_process in E. destruct (dget i (a_p a)); [inversion E; subst; split; auto|].
  destruct (dget i (s_pr s)) as [j|]; [|inversion E; subst; split; auto].
  destruct (add_oxs s (op_exch j) new_proc a) as ((a1, p1), r1) eqn:E1. pose proof (add_oxs_finv _ _ _ _ _ _ E1 I) as I1.
  assert (PL0 : EcoProofs.plain new_proc) by (repeat split; try discriminate; auto). destruct (add_oxs_props _ _ _ _ _ _ E1 Q PL0) as (Q1 & _).
  destruct r1 as [u1|]; [|inversion E; subst; split; auto]. destruct (add_quants (op_exch j) p1) as (p2, [u2|]); [|inversion E; subst; split; auto].
  destruct (alloc_all s (op_name j) _ p2 a1) as ((a2, p3), r3) eqn:E3. destruct (alloc_all_finv _ _ _ _ _ _ _ E3 Q1 I1) as (Q2 & I2).
  destruct r3; inversion E; subst; split; auto.
Qed.
Lemma load_ps_einv l : forall a a' r, load_ps s l a = (a', r) -> einv a -> einv a'.
Proof.
  induction l as [|i l IH]; intros a a' r E H; cbn [load_ps] in E; [inversion E; subst; auto|].
  destruct (create_process s i a) as (a1, [[]|y]) eqn:E1; pose proof (create_process_einv _ _ _ _ E1 H); [eauto|inversion E; subst; auto].
Qed.
Lemma ostep_einv o a a' r : ostep s o a = (a', r) -> einv a -> einv a'.
Proof.
  intros E (Q & I). destruct o as [i|f|q|]; cbn [ostep] in E.
  - eapply create_process_einv; eauto. split; auto.
  - destruct (create_flow s f a) as (a1, r1) eqn:E1. assert (a' = a1) as -> by (destruct r1; inversion E; auto).
    split; [apply (create_flow_props _ _ _ _ E1 Q)|eapply create_flow_finv; eauto].
  - destruct (create_quantity s q a) as (a1, r1) eqn:E1. assert (a' = a1) as -> by (destruct r1; inversion E; auto).
    split; [apply (create_quantity_props _ _ _ _ E1 Q)|eapply create_quantity_finv; eauto].
  - eapply load_ps_einv; eauto. split; auto.
Qed.
Lemma ohist_einv l : einv (fst (ohist s l)).
Proof.
  rewrite ohist_fold. assert (K : forall l ab, einv (fst ab) -> einv (fst (fold_left hstep l ab))).
  { clear l. induction l as [|o l IH]; intros ab H; cbn [fold_left]; [auto|]. apply IH. unfold hstep. destruct (ostep s o (fst ab)) as (a1, r) eqn:E.
    pose proof (ostep_einv _ _ _ _ E H). destruct r; auto. }
  apply K. split; [intros q e; discriminate|intros f e; discriminate].
Qed.

(** An import that succeeds is one whose exchanges are all in the reference properties of their flows. *)
Lemma add_oxs_fp l : forall p a a' p', add_oxs s l p a = (a', p', OOk tt) -> einv a -> EcoProofs.plain p ->
  forall x, In x l -> exists fe, fe_ref fe = ox_fp x /\ flow_ok (ox_flow x) fe.
Proof.
  induction l as [|y l IH]; intros p a a' p' E (Q & I) PL x Hx; [destruct Hx|]. cbn [add_oxs] in E.
  destruct (add_ox s y p a) as (a1, [p1|z]) eqn:E1; [|discriminate]. destruct (add_ox_props _ _ _ _ _ E1 Q PL) as (Q1 & _ & K1). destruct (K1 _ eq_refl) as (PL1 & _).
  destruct Hx as [<- | Hx]; [|eapply IH; eauto; split; [auto|eapply add_ox_finv; eauto]].
  unfold add_ox in E1. destruct (create_flow s (ox_flow y) a) as (a2, [fe|z]) eqn:E2; [|discriminate].
  pose proof (create_flow_finv _ _ _ _ E2 I) as I2. destruct (create_flow_props _ _ _ _ E2 Q) as (_ & _ & F2). specialize (F2 _ eq_refl).
  destruct (create_quantity s (ox_fp y) a2) as (a3, [q|z]); [|discriminate]. destruct (if eqb _ (qu_unit q) then _ else _); [|discriminate].
  destruct (Nat.eqb_spec (ox_fp y) (fe_ref fe)); [|discriminate]. exists fe. split; [auto|]. now apply I2.
Qed.
End S.

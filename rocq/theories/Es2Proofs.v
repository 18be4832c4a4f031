(** Specification and proofs for Es2Model. *)
From Coq Require Import String.
From Verif Require Import Num Base PyStr ProcModel Es2Model QcLra.
From Verif Require OlcaProofs.
Open Scope nat_scope.
Open Scope string_scope.
Open Scope list_scope.
Local Arguments eqb : simpl never.

(** ** Specification *)
(** The dataset of activity [i] for the reference flow [r] *)
Definition dataset (s : source) (i r : nat) (F : file) : Prop :=
  exists fs, dget i (s_files s) = Some fs /\ dget r fs = Some (Some F).
Definition names (s : source) (i r : nat) : Prop := exists fs F, dget i (s_files s) = Some fs /\ dget r fs = Some F.
(** The exchange is marked as a reference product: output group 0, or a by-product classified as allocatable *)
Definition marked (x : x2) : Prop :=
  y_group x = GOut 0 \/ (y_group x = GOut 2 /\ exists rest, In ("By-product classification", ("allocat" ++ rest)%string) (y_cls x)).
Definition heads (x : x2) (d : dirn) : Prop := match y_group x with GOut _ => d = Output | GIn => d = Input | GNone => False end.
Definition rk (r : nat) : key := (r, Output, None).
(** In a linked dataset the link of a reference product is void. *)
Definition at_linked (x : x2) (k : key) : Prop :=
  exists d t, k = (y_flow x, d, t) /\ heads x d /\ (marked x -> t = None) /\ (~ marked x -> t = y_term x).
Definition lists (F : file) (k : key) (v : Qc) : Prop := exists x, In x (f_data F) /\ at_linked x k /\ y_amount x = v /\ v <> 0%Qc.
(** The process reports, per unit of the reference [r], the exchanges of the dataset [F]. *)
Definition inventory_is (F : file) (r : nat) (p : proc) : Prop :=
  In (rk r) (p_refs p) /\
  (forall k v v', lists F k v -> lists F k v' -> v = v') /\
  forall vr, lists F (rk r) vr ->
    exch_value p (rk r) = Some vr /\
    forall cf, (forall k v, lists F k v -> k <> rk r -> exists y, getitem cf p k (rk r) = POk y /\ (y * vr)%Qc = v) /\
               (forall k, dget k (p_exch p) <> None -> ~ In k (p_refs p) -> (forall v, ~ lists F k v) -> getitem cf p k (rk r) = POk 0%Qc).
Definition well_named (s : source) : Prop := forall i r F, dataset s i r F -> f_act F = i.
(** Allocated datasets: none lists another reference product of its activity. *)
Definition no_cross (s : source) : Prop := forall i r r' F v, dataset s i r F -> names s i r' -> r' <> r -> ~ lists F (rk r') v.

(** ** Extraction *)
Lemma is_ref_out_spec x n : y_group x = GOut n -> (is_ref_out n (y_cls x) = true <-> marked x).
Proof.
  intros G. unfold is_ref_out, marked. rewrite G, orb_true_iff, andb_true_iff, !Nat.eqb_eq, existsb_exists. split.
  - intros [-> | (-> & (a, b) & Hc & C)]; [auto|]. right. split; [auto|]. apply andb_true_iff in C as (C1 & C2). cbn [fst snd] in *.
    destruct (eqb_spec a "By-product classification") as [->|]; [|discriminate]. assert (PX : exists rest, b = ("allocat" ++ rest)%string); [|destruct PX as (rest & ->); exists rest; exact Hc].
    clear -C2. revert C2. do 7 (destruct b as [|? b]; cbn [String.prefix]; [discriminate|match goal with |- context [Ascii.ascii_dec ?u ?v] => destruct (Ascii.ascii_dec u v) as [<-|]; [|discriminate] end]).
    intros _. exists b. reflexivity.
  - intros [E | (E & rest & H)]; inversion E; subst; [auto|]. right. split; [auto|]. exists ("By-product classification", ("allocat" ++ rest)%string). split; [auto|].
    cbn [fst snd]. rewrite eqb_refl. cbn [andb]. cbn [String.append String.prefix]. repeat (destruct (Ascii.ascii_dec _ _); [|congruence]). destruct rest; reflexivity.
Qed.
Lemma marked_dec x : {marked x} + {~ marked x}.
Proof.
  destruct (y_group x) as [n| |] eqn:G; [|right; intros [H | (H & _)]; congruence|right; intros [H | (H & _)]; congruence].
  destruct (is_ref_out n (y_cls x)) eqn:E; [left; now apply (is_ref_out_spec x n G)|right; rewrite <- (is_ref_out_spec x n G); congruence].
Qed.
(** The extracted exchange *)
Definition image (x : x2) (e : eex) : Prop :=
  e_flow e = y_flow x /\ heads x (e_dir e) /\ e_value e = y_amount x /\ e_term e = y_term x /\ (e_ref e = true <-> marked x) /\ e_comment e = y_comment x.
Lemma collect_props l : forall a a' r, collect l a = (a', r) -> a_p a' = a_p a /\ a_known a' = a_known a /\ a_loaded a' = a_loaded a /\
  (forall es, r = EOk es -> Forall2 image l es).
Proof.
  induction l as [|x l IH]; intros a a' r E; cbn [collect] in E; [inversion E; subst; repeat split; auto; intros es EE; inversion EE; constructor|].
  assert (C : a_p (create_flow x a) = a_p a /\ a_known (create_flow x a) = a_known a /\ a_loaded (create_flow x a) = a_loaded a) by (unfold create_flow; destruct (din _ _); auto).
  destruct C as (C1 & C2 & C3). destruct (y_group x) as [n| |] eqn:G.
  - destruct (collect l (create_flow x a)) as (a2, [es|y]) eqn:E2; destruct (IH _ _ _ E2) as (A & B & D & H); inversion E; subst;
      (split; [congruence|split; [congruence|split; [congruence|]]]); [|discriminate].
    intros es' EE; inversion EE; subst. constructor; [|auto]. unfold image, heads. cbn. rewrite G. repeat split; auto; now apply is_ref_out_spec.
  - destruct (collect l (create_flow x a)) as (a2, [es|y]) eqn:E2; destruct (IH _ _ _ E2) as (A & B & D & H); inversion E; subst;
      (split; [congruence|split; [congruence|split; [congruence|]]]); [|discriminate].
    intros es' EE; inversion EE; subst. constructor; [|auto]. unfold image, heads. cbn. rewrite G. repeat split; auto; [discriminate|intros [H0 | (H0 & _)]; congruence].
  - inversion E; subst. split; [auto|split; [auto|split; [auto|discriminate]]].
Qed.
Definition ekey (e : eex) : key := (e_flow e, e_dir e, if e_ref e then None else e_term e).
Definition elist (es : list eex) (k : key) (v : Qc) : Prop := exists e, In e es /\ ekey e = k /\ e_value e = v /\ v <> 0%Qc.
Lemma elist_lists F es : Forall2 image (f_data F) es -> forall k v, elist es k v <-> lists F k v.
Proof.
  unfold elist, lists. intros H. induction H as [|x e l es I H IH]; intros k v.
  - split; intros (z & [] & _).
  - destruct I as (I1 & I2 & I3 & I4 & I5 & I6).
    assert (K : (ekey e = k <-> at_linked x k)).
    { unfold ekey, at_linked. split.
      - intros <-. exists (e_dir e), (if e_ref e then None else e_term e). rewrite I1. split; [auto|]. split; [auto|]. rewrite <- I5, I4. destruct (e_ref e); split; intros C; congruence.
      - intros (d & t & -> & Hd & A & B). rewrite I1. assert (e_dir e = d) as ->. { unfold heads in *. destruct (y_group x); congruence || contradiction. }
        f_equal. destruct (e_ref e) eqn:R; [symmetry; apply A; now apply I5|rewrite I4; symmetry; apply B; rewrite <- I5; congruence]. }
    split.
    + intros (z & [<- | Hz] & Ek & Ev & NZ); [exists x; rewrite <- K; repeat split; cbn; auto; congruence|].
      destruct (proj1 (IH k v)) as (w & Hw & ?); [eauto 6|]. exists w. cbn. tauto.
    + intros (z & [<- | Hz] & Ek & Ev & NZ); [exists e; rewrite K; repeat split; cbn; auto; congruence|].
      destruct (proj2 (IH k v)) as (w & Hw & ?); [eauto 6|]. exists w. cbn. tauto.
Qed.

(** ** Linked datasets *)
Section Linked.
Context (s : source) (LK : s_linked s = true) (WN : well_named s) (NC : no_cross s).

(** A process of the archive; its exchanges other than references come from loaded datasets. *)
Record W (i : nat) (p : proc) : Prop := {
  w_sum : p_sum p = 0%Qc; w_nd : NoDup (dkeys (p_exch p));
  w_ref : forall k, is_ref p k = true <-> In k (p_refs p);
  w_nr : NoDup (p_refs p);
  w_rk : forall k, In k (p_refs p) -> exists r, k = rk r /\ names s i r;
  w_vd : forall k e, dget k (p_exch p) = Some e -> forall q, dget q (x_vdict e) <> None -> In q (p_refs p);
  w_ex : forall k e, dget k (p_exch p) = Some e -> x_ref e = false ->
           x_value e = None /\ x_vdict e <> [] /\ exists r F v, In (rk r) (p_refs p) /\ dataset s i r F /\ lists F k v }.
(** What is recorded under the reference [r] is [L]. *)
Record holds (L : key -> Qc -> Prop) (r : nat) (p : proc) : Prop := {
  h_in : In (rk r) (p_refs p);
  h_fun : forall k v v', L k v -> L k v' -> v = v';
  h_has : forall k v, L k v -> dget k (p_exch p) <> None;
  h_vd : forall k e, dget k (p_exch p) = Some e -> x_ref e = false ->
           match dget (rk r) (x_vdict e) with Some (Some v) => L k v | Some None => False | None => forall v, ~ L k v end;
  h_val : forall e, dget (rk r) (p_exch p) = Some e -> match x_value e with Some v => L (rk r) v | None => forall v, ~ L (rk r) v end }.

Lemma names_fun i r F : dataset s i r F -> names s i r.
Proof. intros (fs & A & B). exists fs, (Some F). auto. Qed.
Lemma find_ref i p r : W i p -> has_reference p r = EOk (mem (rk r) (p_refs p)).
Proof.
  intros [A B C D E VD F]. unfold has_reference, find_exchange, candidates.
  assert (G : forall k, In k (gen_exchanges p (Some r) None (Some true)) <-> k = rk r /\ In (rk r) (p_refs p)).
  { intros k. rewrite OlcaProofs.gen_In by auto. split.
    - intros (Ek & e & Ee & Er). assert (I : In k (p_refs p)) by (apply C; unfold is_ref; now rewrite Ee). destruct (E _ I) as (r' & -> & _).
      cbn in Ek. subst. auto.
    - intros (-> & I). split; [reflexivity|]. apply C in I. unfold is_ref in I. destruct (dget (rk r) (p_exch p)) as [e|]; [|discriminate]. eauto. }
  pose proof (OlcaProofs.gen_NoDup p r (Some true) B) as ND.
  destruct (gen_exchanges p (Some r) None (Some true)) as [|k1 [|k2 rest]].
  - destruct (mem_spec (rk r) (p_refs p)) as [I|]; [|auto]. exfalso. destruct (proj2 (G (rk r))). auto.
  - destruct (proj1 (G k1) (or_introl eq_refl)) as (_ & I). destruct (mem_spec (rk r) (p_refs p)); [auto|contradiction].
  - exfalso. destruct (proj1 (G k1) (or_introl eq_refl)) as (E1 & _). destruct (proj1 (G k2) (or_intror (or_introl eq_refl))) as (E2 & _). subst.
    inversion ND; subst. apply H1. cbn; auto.
Qed.

(** One exchange of the dataset [r]: nothing changes, or one entry under [r] is made *)
Lemma charge i p r e p1 res : W i p -> In (rk r) (p_refs p) -> e_value e <> 0%Qc ->
  add_exchange p (e_flow e) (e_dir e) (Some (rk r)) (Some (e_value e)) (targ_of (if e_ref e && match e_term e with Some _ => true | None => false end && true then None else e_term e)) false = (p1, res) ->
  let k := ekey e in
  ((exists x, res = PErr x) /\ p1 = p) \/
  res = POk (Some k) /\ exists y, p1 = p_set p k y /\
    ((k <> rk r /\ dget k (p_exch p) = None /\ y = X None [(rk r, Some (e_value e))] false) \/
     (exists y0, k <> rk r /\ dget k (p_exch p) = Some y0 /\ x_ref y0 = false /\ dget (rk r) (x_vdict y0) = None /\ y = X (x_value y0) (dset (rk r) (Some (e_value e)) (x_vdict y0)) false) \/
     (exists y0, k = rk r /\ dget k (p_exch p) = Some y0 /\ x_value y0 = None /\ y = X (Some (e_value e)) (x_vdict y0) true)).
Proof.
  intros WW I NZ E k.
  assert (T : forall (t : option string) (b : bool), (if b && match t with Some _ => true | None => false end && true then None else t) = (if b then None else t)) by (intros [|] []; reflexivity).
  rewrite T in E. unfold add_exchange in E.
  assert (T2 : t_key (targ_of (if e_ref e then None else e_term e)) = (if e_ref e then None else e_term e)) by (destruct (if e_ref e then None else e_term e); reflexivity).
  rewrite T2 in E. fold (ekey e) in E. fold k in E.
  assert (T3 : (match targ_of (if e_ref e then None else e_term e) with TObj _ => None | _ => dget k (p_exch p) end) = dget k (p_exch p)) by (destruct (if e_ref e then None else e_term e); reflexivity).
  rewrite T3 in E. assert (IR : is_ref p (rk r) = true) by now apply (w_ref _ _ WW). rewrite IR in E.
  destruct (dget k (p_exch p)) as [y0|] eqn:Ek.
  - destruct (eqb_spec (e_value e) (Q2Qc 0)) as [|_]; [contradiction|]. unfold setitem in E. cbn [negb] in E. unfold din in E.
    destruct (dget (rk r) (x_vdict y0)) eqn:Ed; [inversion E; subst; left; eauto|].
    destruct (x_ref y0) eqn:Er.
    + destruct (eqb_spec k (rk r)) as [Ekr|NE].
      * destruct (x_value y0) eqn:Ev; [inversion E; subst; left; eauto|]. inversion E; subst. right. split; [auto|]. eexists. split; [reflexivity|]. right. right. eauto 6.
      * destruct (eqb_spec (Some (e_value e)) (Some (Q2Qc 0))) as [EE|]; [inversion EE; contradiction|]. inversion E; subst. left; eauto.
    + inversion E; subst. right. split; [auto|]. eexists. split; [reflexivity|]. right. left. exists y0. split; [|eauto 6].
      intros ->. unfold is_ref in IR. rewrite Ek, Er in IR. discriminate.
  - unfold setitem in E. cbn [negb x_vdict x_ref] in E. change (din (rk r) []) with false in E. cbv iota in E.
    destruct (mem_spec (rk r) (p_refs p)); [|contradiction]. inversion E; subst. right. split; [auto|]. eexists. split; [reflexivity|]. left.
    split; [|auto]. intros ->. unfold is_ref in IR. rewrite Ek in IR. discriminate.
Qed.
Lemma charge_W i p r F k v y : W i p -> In (rk r) (p_refs p) -> dataset s i r F -> lists F k v ->
  ((k <> rk r /\ dget k (p_exch p) = None /\ y = X None [(rk r, Some v)] false) \/
   (exists y0, k <> rk r /\ dget k (p_exch p) = Some y0 /\ x_ref y0 = false /\ dget (rk r) (x_vdict y0) = None /\ y = X (x_value y0) (dset (rk r) (Some v) (x_vdict y0)) false) \/
   (exists y0, k = rk r /\ dget k (p_exch p) = Some y0 /\ x_value y0 = None /\ y = X (Some v) (x_vdict y0) true)) ->
  W i (p_set p k y).
Proof.
  intros [A B C D E VD F'] I DS LL CASES. constructor; cbn [p_set with_exch p_exch p_refs p_sum]; auto.
  - now apply NoDup_dset.
  - intros k'. rewrite <- C. unfold is_ref. cbn [p_exch p_set with_exch]. rewrite dget_dset. destruct (eqb_spec k' k) as [->|]; [|tauto].
    destruct CASES as [(_ & -> & ->) | [(y0 & _ & -> & Er & _ & ->) | (y0 & -> & Ey & _ & ->)]]; cbn; [tauto|rewrite Er; tauto|].
    apply C in I. unfold is_ref in I. rewrite Ey in *. rewrite I. tauto.
  - intros k' e. rewrite dget_dset. destruct (eqb_spec k' k) as [->|]; [|apply VD].
    intros EE; inversion EE; subst e. clear EE. intros q. destruct CASES as [(_ & _ & ->) | [(y0 & _ & Ey & Er & _ & ->) | (y0 & -> & Ey & _ & ->)]]; cbn [x_vdict].
    + cbn [dget]. destruct (eqb_spec q (rk r)); [congruence|contradiction].
    + rewrite dget_dset. destruct (eqb_spec q (rk r)) as [->|]; [auto|]. eapply VD; eauto.
    + eapply VD; eauto.
  - intros k' e. rewrite dget_dset. destruct (eqb_spec k' k) as [->|]; [|apply F'].
    intros EE; inversion EE; subst e. clear EE. destruct CASES as [(_ & _ & ->) | [(y0 & _ & Ey & Er & _ & ->) | (y0 & -> & _ & _ & ->)]]; cbn [x_ref x_value x_vdict]; intros R; [| |discriminate].
    + split; [auto|]. split; [discriminate|]. exists r, F, v. auto.
    + destruct (F' _ _ Ey Er) as (V & N & _). split; [auto|]. split; [destruct (x_vdict y0); cbn; [discriminate|destruct p0; destruct (eqb _ _); discriminate]|]. exists r, F, v. auto.
Qed.
Lemma charge_other i p r r' L k v y : W i p -> r' <> r -> holds L r' p -> (forall v, ~ L (rk r) v) ->
  ((k <> rk r /\ dget k (p_exch p) = None /\ y = X None [(rk r, Some v)] false) \/
   (exists y0, k <> rk r /\ dget k (p_exch p) = Some y0 /\ x_ref y0 = false /\ dget (rk r) (x_vdict y0) = None /\ y = X (x_value y0) (dset (rk r) (Some v) (x_vdict y0)) false) \/
   (exists y0, k = rk r /\ dget k (p_exch p) = Some y0 /\ x_value y0 = None /\ y = X (Some v) (x_vdict y0) true)) ->
  holds L r' (p_set p k y).
Proof.
  intros WW NE [A B C D E] NL CASES. assert (NK : rk r' <> rk r) by (intros EE; inversion EE; contradiction).
  constructor; cbn [p_set with_exch p_exch p_refs]; auto.
  - intros k' v' H. rewrite dget_dset. destruct (eqb _ _); [discriminate|eauto].
  - intros k' e. rewrite dget_dset. destruct (eqb_spec k' k) as [->|]; [|apply D].
    intros EE; inversion EE; subst e. clear EE. destruct CASES as [(_ & EN & ->) | [(y0 & _ & Ey & Er & _ & ->) | (y0 & -> & _ & _ & ->)]]; cbn [x_ref x_value x_vdict]; intros R; [| |discriminate].
    + cbn [dget]. destruct (eqb_spec (rk r') (rk r)); [contradiction|]. intros v' H. apply (C _ _ H). exact EN.
    + rewrite dget_dset. destruct (eqb_spec (rk r') (rk r)); [contradiction|]. apply (D _ _ Ey Er).
  - intros e. rewrite dget_dset. destruct (eqb_spec (rk r') k) as [EK|]; [|apply E]. exfalso.
    assert (IR : is_ref p (rk r') = true) by now apply (w_ref _ _ WW). unfold is_ref in IR. subst k.
    destruct CASES as [(_ & EN & _) | [(y0 & _ & Ey & Er & _ & _) | (y0 & EE & _)]]; [rewrite EN in IR; discriminate|rewrite Ey, Er in IR; discriminate|contradiction].
Qed.
Lemma charge_own i p r (L : key -> Qc -> Prop) k v y : W i p -> holds L r p ->
  ((k <> rk r /\ dget k (p_exch p) = None /\ y = X None [(rk r, Some v)] false) \/
   (exists y0, k <> rk r /\ dget k (p_exch p) = Some y0 /\ x_ref y0 = false /\ dget (rk r) (x_vdict y0) = None /\ y = X (x_value y0) (dset (rk r) (Some v) (x_vdict y0)) false) \/
   (exists y0, k = rk r /\ dget k (p_exch p) = Some y0 /\ x_value y0 = None /\ y = X (Some v) (x_vdict y0) true)) ->
  holds (fun k' v' => L k' v' \/ (k' = k /\ v' = v)) r (p_set p k y).
Proof.
  intros WW [A B C D E] CASES.
  assert (NL : forall v', ~ L k v').
  { intros v' H. destruct CASES as [(_ & EN & _) | [(y0 & _ & Ey & Er & Ed & _) | (y0 & -> & Ey & Ev & _)]].
    - apply (C _ _ H). auto.
    - specialize (D _ _ Ey Er). rewrite Ed in D. eapply D; eauto.
    - specialize (E _ Ey). rewrite Ev in E. eapply E; eauto. }
  constructor; cbn [p_set with_exch p_exch p_refs]; auto.
  - intros k' v1 v2 [H1 | (-> & ->)] [H2 | (E2 & ->)]; subst; eauto; exfalso; eapply NL; eauto.
  - intros k' v' H. rewrite dget_dset. destruct (eqb_spec k' k) as [->|N]; [discriminate|]. destruct H as [H | (-> & _)]; [eauto|contradiction].
  - intros k' e. rewrite dget_dset. destruct (eqb_spec k' k) as [->|N].
    + intros EE; inversion EE; subst e. clear EE. destruct CASES as [(_ & EN & ->) | [(y0 & _ & Ey & Er & _ & ->) | (y0 & -> & _ & _ & ->)]]; cbn [x_ref x_value x_vdict]; intros R; [| |discriminate].
      * cbn [dget]. rewrite eqb_refl. auto.
      * rewrite dget_dset_same. auto.
    + intros Ee R. specialize (D _ _ Ee R). destruct (dget (rk r) (x_vdict e)) as [[w|]|]; [auto|auto|]. intros v' [H | (-> & _)]; [eapply D; eauto|contradiction].
  - intros e. rewrite dget_dset. destruct (eqb_spec (rk r) k) as [EK|N].
    + intros EE; inversion EE; subst e. clear EE. destruct CASES as [(N & _) | [(y0 & N & _) | (y0 & _ & _ & _ & ->)]]; [congruence|congruence|]. cbn. auto.
    + intros Ee. specialize (E _ Ee). destruct (x_value e) as [w|]; [auto|]. intros v' [H | (EK & _)]; [eapply E; eauto|congruence].
Qed.

Lemma holds_ext (L L' : key -> Qc -> Prop) r p : (forall k v, L k v <-> L' k v) -> holds L r p -> holds L' r p.
Proof.
  intros H [A B C D E]. constructor; auto.
  - intros k v v' H1 H2. apply (B k); now apply H.
  - intros k v H1. apply (C k v). now apply H.
  - intros k e H1 H2. specialize (D k e H1 H2). destruct (dget (rk r) (x_vdict e)) as [[v|]|]; [now apply H|auto|intros v HH; eapply D; apply H; eauto].
  - intros e H1. specialize (E e H1). destruct (x_value e) as [v|]; [now apply H|intros v HH; eapply E; apply H; eauto].
Qed.
(** The reference is created. *)
Lemma start i p r F : W i p -> ~ In (rk r) (p_refs p) -> dataset s i r F ->
  exists p1 p2, add_exchange p r Output None None TNone false = (p1, POk (Some (rk r))) /\ add_reference nocf p1 r Output = (p2, POk (rk r)) /\
    W i p2 /\ holds (fun _ _ => False) r p2 /\ p_refs p2 = set_add (rk r) (p_refs p) /\
    (forall r' F', r' <> r -> dataset s i r' F' -> holds (lists F') r' p -> holds (lists F') r' p2).
Proof.
  intros [A B C D E VD G] N DS.
  assert (NK : dget (rk r) (p_exch p) = None).
  { destruct (dget (rk r) (p_exch p)) as [e|] eqn:Ee; [|auto]. exfalso. destruct (x_ref e) eqn:R.
    - apply N. apply C. unfold is_ref. now rewrite Ee.
    - destruct (G _ _ Ee R) as (_ & _ & r1 & F1 & v & I1 & DS1 & L1). refine (NC i r1 r F1 v DS1 (names_fun _ _ _ DS) _ L1). intros ->. contradiction. }
  unfold add_exchange. cbn [t_key]. fold (rk r). rewrite NK. eexists. eexists. split; [reflexivity|].
  unfold add_reference. fold (rk r). cbn [p_set with_exch p_exch p_refs p_qty p_sum]. unfold din. rewrite dget_dset_same. cbn [x_value x_vdict].
  unfold alloc_qty at 1. cbn [p_sum]. rewrite A. change (eqb 0%Qc (Q2Qc 0)) with true. cbv iota.
  split; [reflexivity|].
  assert (DG : forall k, dget k (dset (rk r) (X None [] true) (dset (rk r) (X None [] false) (p_exch p))) = if eqb k (rk r) then Some (X None [] true) else dget k (p_exch p)).
  { intros k. rewrite !dget_dset. destruct (eqb k (rk r)); auto. }
  split; [|split; [|split; [reflexivity|]]].
  - constructor; cbn [p_exch p_refs p_sum]; auto.
    + now repeat apply NoDup_dset.
    + intros k. unfold is_ref. cbn [p_exch]. rewrite DG, In_set_add, <- C. destruct (eqb_spec k (rk r)) as [->|]; cbn; [tauto|]. unfold is_ref. tauto.
    + now apply NoDup_set_add.
    + intros k. rewrite In_set_add. intros [-> | I]; [exists r; split; [auto|]; eapply names_fun; eauto|auto].
    + intros k e. rewrite DG. destruct (eqb_spec k (rk r)) as [->|]; [intros EE; inversion EE; subst; cbn; congruence|]. intros Ee q Hq. rewrite In_set_add. right. eapply VD; eauto.
    + intros k e. rewrite DG. destruct (eqb_spec k (rk r)) as [->|]; [intros EE; inversion EE; subst; discriminate|]. intros Ee R.
      destruct (G _ _ Ee R) as (H1 & H2 & r1 & F1 & v & I1 & H3). split; [auto|]. split; [auto|]. exists r1, F1, v. rewrite In_set_add. auto.
  - constructor; cbn [p_exch p_refs]; auto; try contradiction.
    + rewrite In_set_add. auto.
    + intros k e. rewrite DG. destruct (eqb_spec k (rk r)) as [->|]; [intros EE; inversion EE; subst; discriminate|]. intros Ee R.
      destruct (dget (rk r) (x_vdict e)) as [w|] eqn:Ew; [|intros v []]. exfalso. apply N. eapply (VD k e Ee (rk r)). now rewrite Ew.
    + intros e. rewrite DG, eqb_refl. intros EE; inversion EE; subst. cbn. auto.
  - intros r' F' NE DS' [H1 H2 H3 H4 H5]. assert (NKK : rk r' <> rk r) by (intros EE; inversion EE; contradiction).
    constructor; cbn [p_exch p_refs]; auto.
    + rewrite In_set_add. auto.
    + intros k v L. rewrite DG. destruct (eqb k (rk r)); [discriminate|eauto].
    + intros k e. rewrite DG. destruct (eqb_spec k (rk r)) as [->|]; [intros EE; inversion EE; subst; discriminate|]. apply H4.
    + intros e. rewrite DG. destruct (eqb_spec (rk r') (rk r)); [contradiction|]. apply H5.
Qed.

Lemma loop i r F es : dataset s i r F -> (forall e, In e es -> e_value e <> 0%Qc -> lists F (ekey e) (e_value e)) ->
  forall (L : key -> Qc -> Prop) p p' res, W i p -> holds L r p -> add_all true (Some (rk r)) es p = (p', res) ->
  W i p' /\ p_refs p' = p_refs p /\
  (forall r' F', r' <> r -> dataset s i r' F' -> holds (lists F') r' p -> holds (lists F') r' p') /\
  (res = EOk tt -> holds (fun k v => L k v \/ elist es k v) r p').
Proof.
  intros DS. induction es as [|e es IH]; intros HE L p p' res WW HH E; cbn [add_all] in E.
  - inversion E; subst. split; [auto|]. split; [auto|]. split; [auto|]. intros _. eapply holds_ext; [|eauto]. unfold elist. firstorder.
  - destruct (eqb_spec (e_value e) 0%Qc) as [Z|NZ]; cbn [andb] in E.
    + destruct (IH (fun e' I => HE e' (or_intror I)) _ _ _ _ WW HH E) as (A & B & C & D). split; [auto|]. split; [auto|]. split; [auto|].
      intros R. eapply holds_ext; [|now apply D]. intros k v. unfold elist. split; intros [H | (e' & I & H)]; auto; right.
      * exists e'. cbn; tauto.
      * destruct I as [-> | I]; [|eauto]. destruct H as (_ & H & H'). congruence.
    + destruct (add_exchange p (e_flow e) _ _ _ _ _) as (p1, r1) eqn:EA in E.
      destruct (charge i p r e p1 r1 WW (h_in _ _ _ HH) NZ EA) as [((x & ->) & ->) | (-> & y & -> & CASES)].
      * inversion E; subst. split; [auto|]. split; [auto|]. split; [auto|]. discriminate.
      * rewrite andb_false_r in E. cbn [negb andb] in E.
        assert (LL : lists F (ekey e) (e_value e)) by (apply HE; cbn; auto).
        pose proof (charge_W _ _ _ _ _ _ _ WW (h_in _ _ _ HH) DS LL CASES) as WW1.
        pose proof (charge_own _ _ _ _ _ _ _ WW HH CASES) as HH1.
        destruct (IH (fun e' I => HE e' (or_intror I)) _ _ _ _ WW1 HH1 E) as (A & B & C & D). split; [auto|]. split; [auto|]. split.
        -- intros r' F' NE DS' H'. apply (C r' F' NE DS'). eapply charge_other; eauto. intros v. exact (NC i r' r F' v DS' (names_fun _ _ _ DS) (not_eq_sym NE)).
        -- intros R. eapply holds_ext; [|now apply D]. intros k v. unfold elist. split.
           ++ intros [[H | (-> & ->)] | (e' & I & H)]; auto; right; [exists e|exists e']; cbn; tauto.
           ++ intros [H | (e' & [<- | I] & H1 & H2 & H3)]; [auto|left; right; auto|right; exists e'; auto].
Qed.

Definition inv (a : arch) : Prop := forall i p, dget i (a_p a) = Some p -> W i p.
Definition keeps (a a' : arch) : Prop := forall i p, dget i (a_p a) = Some p -> exists p', dget i (a_p a') = Some p' /\
  (forall k, In k (p_refs p) -> In k (p_refs p')) /\ (forall r F, dataset s i r F -> holds (lists F) r p -> holds (lists F) r p').
Definition has_ref (a : arch) (i r : nat) : Prop := exists p, dget i (a_p a) = Some p /\ In (rk r) (p_refs p).
Definition done (a : arch) (i r : nat) : Prop := exists p F, dget i (a_p a) = Some p /\ dataset s i r F /\ holds (lists F) r p.
Definition adds (a a' : arch) : Prop := forall i r, has_ref a' i r -> has_ref a i r \/ done a' i r.
Lemma keeps_refl a : keeps a a.
Proof. intros i p E. eauto 6. Qed.
Lemma keeps_trans a b c : keeps a b -> keeps b c -> keeps a c.
Proof. intros H1 H2 i p E. destruct (H1 _ _ E) as (p1 & E1 & A & B). destruct (H2 _ _ E1) as (p2 & E2 & A2 & B2). exists p2. split; [auto|]. split; eauto. Qed.
Lemma keeps_done a b i r : keeps a b -> done a i r -> done b i r.
Proof. intros K (p & F & E & DS & H). destruct (K _ _ E) as (p' & E' & _ & B). exists p', F. eauto 6. Qed.
Lemma keeps_has a b i r : keeps a b -> has_ref a i r -> has_ref b i r.
Proof. intros K (p & E & H). destruct (K _ _ E) as (p' & E' & B & _). exists p'. eauto 6. Qed.
Lemma adds_trans a b c : adds a b -> adds b c -> keeps b c -> adds a c.
Proof. intros H1 H2 K i r H. destruct (H2 _ _ H) as [H' | H']; [|auto]. destruct (H1 _ _ H'); [auto|]. right. eapply keeps_done; eauto. Qed.
Lemma W_new i : W i new_proc.
Proof. constructor; cbn; try constructor; try discriminate; try contradiction; auto. Qed.
Lemma flow_p x a : a_p (create_flow x a) = a_p a.
Proof. unfold create_flow. destruct (din _ _); auto. Qed.
(** The process [i] is replaced. *)
Lemma put_props a b i p : inv a -> a_p b = dset i p (a_p a) -> W i p ->
  (forall q, dget i (a_p a) = Some q -> (forall k, In k (p_refs q) -> In k (p_refs p)) /\ (forall r F, dataset s i r F -> holds (lists F) r q -> holds (lists F) r p)) ->
  inv b /\ keeps a b.
Proof.
  intros I E WW H. split.
  - intros j q. rewrite E, dget_dset. destruct (eqb_spec j i) as [->|]; [intros EE; inversion EE; subst; auto|apply I].
  - intros j q Eq. rewrite E, dget_dset. destruct (eqb_spec j i) as [->|]; [exists p; split; [auto|]; now apply H|exists q; auto].
Qed.
Lemma create_single_props i r ex a a' res : inv a -> create_single s i r ex a = (a', res) ->
  inv a' /\ keeps a a' /\ (res = EOk tt -> has_ref a' i r /\ (ex = true -> adds a a')).
Proof.
  intros I E. unfold create_single in E.
  destruct (match dget i (a_p a) with Some p => has_reference p r | None => EOk false end) as [[]|x] eqn:E0.
  - inversion E; subst. split; [auto|]. split; [apply keeps_refl|]. intros _. split; [|intros _ j q; auto].
    destruct (dget i (a_p a')) as [p|] eqn:Ep; [|discriminate]. rewrite (find_ref i p r (I _ _ Ep)) in E0. inversion E0. exists p. split; [auto|]. now apply mem_In.
  - destruct (dget r match dget i (s_files s) with Some fs => fs | None => [] end) as [[F|]|] eqn:EF;
      [|inversion E; subst; split; [auto|split; [apply keeps_refl|discriminate]]|inversion E; subst; split; [auto|split; [apply keeps_refl|discriminate]]].
    assert (DS : dataset s i r F). { unfold dataset. destruct (dget i (s_files s)) as [fs|]; [eauto|discriminate]. }
    rewrite (WN _ _ _ DS) in E. set (p := match dget i (a_p a) with Some p => p | None => new_proc end) in *.
    assert (WW : W i p). { unfold p. destruct (dget i (a_p a)) eqn:Ep; [now apply I|apply W_new]. }
    assert (Q : forall q, dget i (a_p a) = Some q -> q = p) by (intros q Eq; unfold p; now rewrite Eq).
    rewrite (find_ref i p r WW) in E.
    assert (NR : mem (rk r) (p_refs p) = false).
    { unfold p. destruct (dget i (a_p a)) as [q|] eqn:Eq; [|reflexivity]. rewrite (find_ref i q r (I _ _ Eq)) in E0. now inversion E0. }
    rewrite NR, LK in E. apply mem_nIn in NR.
    destruct (find _ (f_data F)) as [x|] eqn:Ex.
    + destruct (start i p r F WW NR DS) as (p1 & p2 & EA & ER & W2 & H2 & R2 & O2). rewrite EA, ER in E.
      assert (Base2 : forall b, a_p b = dset i p2 (a_p a) -> inv b /\ keeps a b).
      { intros b Eb. apply (put_props a b i p2 I Eb W2). intros q Eq. rewrite (Q _ Eq). rewrite R2. split; [intros k; rewrite In_set_add; auto|].
        intros r' F' DS' H'. assert (r' <> r) by (intros ->; apply NR; apply (h_in _ _ _ H')). eauto. }
      assert (PP : forall b p3, a_p b = dset i p (a_p a) -> forall j, dget j (a_p (put_p b i p3)) = dget j (dset i p3 (a_p a))).
      { intros b p3 Eb j. cbn [put_p a_p]. rewrite Eb, !dget_dset. destruct (eqb j i); auto. }
      assert (AP : a_p (create_flow x (put_p a i p)) = dset i p (a_p a)) by (rewrite flow_p; reflexivity).
      assert (Base3 : forall b p3, a_p b = dset i p (a_p a) -> W i p3 -> p_refs p3 = p_refs p2 ->
                (forall r' F', r' <> r -> dataset s i r' F' -> holds (lists F') r' p2 -> holds (lists F') r' p3) -> inv (put_p b i p3) /\ keeps a (put_p b i p3)).
      { intros b p3 Eb W3 R3 O3. set (b' := Ar (dset i p3 (a_p a)) (a_f b) (a_known b) (a_loaded b)).
        assert (inv b' /\ keeps a b') as (Ib & Kb).
        { apply (put_props a b' i p3 I eq_refl W3). intros q Eq. rewrite (Q _ Eq), R3, R2. split; [intros k; rewrite In_set_add; auto|].
          intros r' F' DS' H'. assert (r' <> r) by (intros ->; apply NR; apply (h_in _ _ _ H')). eauto. }
        split.
        - intros j q. rewrite (PP b p3 Eb j). apply Ib.
        - intros j q Eq. rewrite (PP b p3 Eb j). apply (Kb j q Eq). }
      assert (HR : forall b p3, p_refs p3 = p_refs p2 -> has_ref (put_p b i p3) i r).
      { intros b p3 R3. exists p3. cbn [put_p a_p]. rewrite dget_dset_same, R3, R2, In_set_add. auto. }
      destruct ex.
      * destruct (collect (f_data F) (create_flow x (put_p a i p))) as (a3, [es|er]) eqn:EC; destruct (collect_props _ _ _ _ EC) as (C1 & _ & _ & C4); rewrite AP in C1.
        -- destruct (add_all true (Some (rk r)) es p2) as (p3, res3) eqn:EL. inversion E; subst a' res. clear E.
           assert (EQ : forall k v, elist es k v <-> lists F k v) by (apply elist_lists; auto).
           assert (HE : forall e, In e es -> e_value e <> 0%Qc -> lists F (ekey e) (e_value e)) by (intros e Ie NZ; apply EQ; exists e; auto).
           destruct (loop i r F es DS HE _ _ _ _ W2 H2 EL) as (W3 & R3 & O3 & H3).
           destruct (Base3 a3 p3 C1 W3 R3 O3) as (Ib & Kb). split; [auto|]. split; [auto|]. intros ROK. split; [auto|]. intros _ j r0 (q & Eq & Iq).
           rewrite (PP a3 p3 C1 j) in Eq. rewrite dget_dset in Eq. destruct (eqb_spec j i) as [->|]; [|left; exists q; auto].
           inversion Eq; subst q. destruct (Nat.eq_dec r0 r) as [->|NE].
           ++ right. exists p3, F. cbn [put_p a_p]. rewrite dget_dset_same. split; [auto|]. split; [auto|]. eapply (holds_ext (fun k v => False \/ elist es k v)); [|apply H3; exact ROK]. intros k v. specialize (EQ k v). tauto.
           ++ left. rewrite R3, R2, In_set_add in Iq. destruct Iq as [EE | Iq]; [inversion EE; contradiction|].
              exists p. split; [|auto]. unfold p in *. destruct (dget i (a_p a)); [auto|destruct Iq].
        -- inversion E; subst. destruct (Base3 a3 p2 C1 W2 eq_refl (fun _ _ _ _ h => h)) as (Ib & Kb). split; [auto|]. split; [auto|]. discriminate.
      * inversion E; subst. destruct (Base3 _ p2 AP W2 eq_refl (fun _ _ _ _ h => h)) as (Ib & Kb). split; [auto|]. split; [auto|]. intros _. split; [auto|discriminate].
    + inversion E; subst. assert (PX : forall b, (forall j, dget j (a_p b) = dget j (dset i p (a_p a))) -> inv b /\ keeps a b).
      { intros b Hb. split.
        - intros j q. rewrite Hb, dget_dset. destruct (eqb_spec j i) as [->|]; [intros EE; inversion EE; subst; auto|apply I].
        - intros j q Eq. rewrite Hb, dget_dset. destruct (eqb_spec j i) as [->|]; [rewrite (Q _ Eq); exists p; auto|exists q; auto]. }
      destruct (PX (put_p (put_p a i p) i p)) as (Ib & Kb).
      { intros j. cbn [put_p a_p]. rewrite !dget_dset. destruct (eqb j i); auto. }
      split; [auto|]. split; [auto|]. discriminate.
  - exfalso. destruct (dget i (a_p a)) as [p|] eqn:Ep; [|discriminate]. rewrite (find_ref i p r (I _ _ Ep)) in E0. discriminate.
Qed.
Lemma create_list_props i ex l : forall a a' res, inv a -> create_list s i l ex a = (a', res) ->
  inv a' /\ keeps a a' /\ (res = EOk tt -> (forall r, In r l -> has_ref a' i r) /\ (ex = true -> adds a a')).
Proof.
  induction l as [|r l IH]; intros a a' res I E; cbn [create_list] in E.
  - inversion E; subst. split; [auto|]. split; [apply keeps_refl|]. intros _. split; [intros r []|intros _ j q; auto].
  - destruct (create_single s i r ex a) as (a1, [[]|x]) eqn:E1; destruct (create_single_props _ _ _ _ _ _ I E1) as (I1 & K1 & R1).
    + destruct (IH _ _ _ I1 E) as (I2 & K2 & R2). split; [auto|]. split; [eapply keeps_trans; eauto|]. intros ROK. destruct (R2 ROK) as (A & B). destruct (R1 eq_refl) as (A1 & B1).
      split; [intros r' [<- | H]; [eapply keeps_has; eauto|auto]|]. intros X. eapply adds_trans; eauto.
    + inversion E; subst. split; [auto|]. split; [auto|]. discriminate.
Qed.
Lemma load_list_props ex l : forall a a' res, inv a -> load_list s l ex a = (a', res) ->
  inv a' /\ keeps a a' /\ (res = EOk tt -> (forall i r, In i l -> In r (refs_of s i) -> has_ref a' i r) /\ (ex = true -> adds a a')).
Proof.
  induction l as [|i l IH]; intros a a' res I E; cbn [load_list] in E.
  - inversion E; subst. split; [auto|]. split; [apply keeps_refl|]. intros _. split; [intros j r []|intros _ j q; auto].
  - destruct (create_list s i (refs_of s i) ex a) as (a1, [[]|x]) eqn:E1; destruct (create_list_props _ _ _ _ _ _ I E1) as (I1 & K1 & R1).
    + destruct (IH _ _ _ I1 E) as (I2 & K2 & R2). split; [auto|]. split; [eapply keeps_trans; eauto|]. intros ROK. destruct (R2 ROK) as (A & B). destruct (R1 eq_refl) as (A1 & B1).
      split; [intros j r' [<- | H] H'; [eapply keeps_has; eauto|auto]|]. intros X. eapply adds_trans; eauto.
    + inversion E; subst. split; [auto|]. split; [auto|]. discriminate.
Qed.
Lemma same_p a b : a_p a = a_p b -> inv a -> inv b /\ keeps a b.
Proof. intros E I. split; [intros i p; rewrite <- E; apply I|]. intros i p Ep. rewrite <- E. eauto 6. Qed.
Definition full (o : eop) : Prop := match o with Get _ | LoadAll true => True | _ => False end.
Lemma estep_props o a a' res : inv a -> estep s o a = (a', res) -> inv a' /\ keeps a a' /\ (res = EOk tt -> full o -> adds a a').
Proof.
  intros I E. destruct o as [i|ex|i r]; cbn [estep full] in *.
  - unfold get in E. destruct (dget i (a_p a)) eqn:Ei; [inversion E; subst; split; [auto|]; split; [apply keeps_refl|]; intros _ _ j q; auto|].
    destruct (create_list_props i true (refs_of s i) _ _ _ (proj1 (same_p a (Ar (a_p a) (a_f a) (set_add i (a_known a)) (a_loaded a)) eq_refl I)) E) as (I' & K & R).
    split; [auto|]. split; [auto|]. intros ROK _. apply (proj2 (R ROK) eq_refl).
  - unfold load_all in E. destruct (a_loaded a); [inversion E; subst; split; [auto|]; split; [apply keeps_refl|]; intros _ _ j q; auto|].
    destruct (load_list s (a_known a) ex a) as (a1, [[]|x]) eqn:E1; destruct (load_list_props _ _ _ _ _ I E1) as (I1 & K1 & R1); inversion E; subst.
    + destruct (same_p a1 (Ar (a_p a1) (a_f a1) (a_known a1) true) eq_refl I1) as (I2 & K2). split; [auto|]. split; [eapply keeps_trans; eauto|].
      intros _ FU. destruct ex; [|contradiction]. apply (proj2 (R1 eq_refl) eq_refl).
    + split; [auto|]. split; [auto|]. discriminate.
  - split; [|split; [|contradiction]].
    all: unfold scores in E; destruct (dget r _) as [[F|]|] eqn:EF; [|inversion E; subst; first [exact I|apply keeps_refl]|inversion E; subst; first [exact I|apply keeps_refl]].
    all: assert (DS : dataset s i r F) by (unfold dataset; destruct (dget i (s_files s)) as [fs|]; [eauto|discriminate]); rewrite (WN _ _ _ DS) in E;
         set (a1 := match dget i (a_p a) with Some _ => a | None => put_p a i new_proc end) in *;
         assert (X : inv a1 /\ keeps a a1) by (unfold a1; destruct (dget i (a_p a)) eqn:Ei; [split; [auto|apply keeps_refl]|];
           apply (put_props a (put_p a i new_proc) i new_proc I eq_refl (W_new i)); rewrite Ei; discriminate); destruct X as (I1 & K1);
         destruct (find _ _) as [x|] in E; inversion E; subst; auto;
         destruct (same_p a1 (create_flow x a1) (eq_sym (flow_p x a1)) I1) as (I2 & K2); [exact I2 || (eapply keeps_trans; eauto)].
Qed.
Definition erun (l : list eop) (a : arch) : arch := fold_left (fun a o => fst (estep s o a)) l a.
Lemma erun_props l : forall a, inv a -> inv (erun l a) /\ keeps a (erun l a).
Proof.
  induction l as [|o l IH]; intros a I; [split; [auto|apply keeps_refl]|]. cbn [erun fold_left]. fold (erun l (fst (estep s o a))).
  destruct (estep s o a) as (a1, res) eqn:E. cbn [fst]. destruct (estep_props _ _ _ _ I E) as (I1 & K1 & _). destruct (IH a1 I1) as (A & B). split; [auto|]. eapply keeps_trans; eauto.
Qed.
Lemma inv_new : inv (new_arch s).
Proof. intros i p E. discriminate. Qed.
(** What is recorded is what is reported. *)
Lemma reported i r F p : W i p -> dataset s i r F -> holds (lists F) r p -> inventory_is F r p.
Proof.
  intros WW DS HH. split; [apply (h_in _ _ _ HH)|]. split; [apply (h_fun _ _ _ HH)|]. intros vr LR.
  assert (RE : exists e, dget (rk r) (p_exch p) = Some e /\ x_ref e = true).
  { pose proof (proj2 (w_ref _ _ WW (rk r)) (h_in _ _ _ HH)) as IR. unfold is_ref in IR. destruct (dget (rk r) (p_exch p)) as [e|]; [eauto|discriminate]. }
  destruct RE as (e & Ee & Re). assert (VE : value e = Some vr).
  { pose proof (h_val _ _ _ HH _ Ee) as HV. unfold value. destruct (x_value e) as [w|]; [|destruct (HV _ LR)]. f_equal. eapply (h_fun _ _ _ HH); eauto. }
  assert (NZ : vr <> 0%Qc) by (destruct LR as (? & _ & _ & _ & ?); auto).
  assert (AQ : alloc_qty p = None) by (unfold alloc_qty; rewrite (w_sum _ _ WW); reflexivity).
  split; [unfold exch_value; now rewrite Ee|]. intros cf. split.
  - intros k v L NK. assert (EX : exists y, dget k (p_exch p) = Some y). { pose proof (h_has _ _ _ HH _ _ L). destruct (dget k (p_exch p)); [eauto|congruence]. }
    destruct EX as (y & Ey). assert (Ry : x_ref y = false).
    { destruct (x_ref y) eqn:R; [|auto]. exfalso. assert (I : In k (p_refs p)) by (apply (w_ref _ _ WW); unfold is_ref; now rewrite Ey).
      destruct (w_rk _ _ WW _ I) as (r' & -> & N'). refine (NC i r r' F v DS N' _ L). congruence. }
    unfold getitem. rewrite Ey, Ee, Re, Ry, AQ. destruct (w_ex _ _ WW _ _ Ey Ry) as (V0 & VD & _). pose proof (h_vd _ _ _ HH _ _ Ey Ry) as HV.
    destruct (x_vdict y) as [|h tl] eqn:EV; [contradiction|]. destruct (dget (rk r) (h :: tl)) as [[w|]|]; [|contradiction|destruct (HV _ L)].
    unfold pdiv. rewrite VE. destruct (eqb_spec vr (Q2Qc 0)); [contradiction|]. exists (w / vr)%Qc. split; [auto|]. rewrite (h_fun _ _ _ HH _ _ _ L HV). now field.
  - intros k EX NR NL. destruct (dget k (p_exch p)) as [y|] eqn:Ey; [|congruence]. assert (Ry : x_ref y = false).
    { destruct (x_ref y) eqn:R; [|auto]. exfalso. apply NR. apply (w_ref _ _ WW). unfold is_ref. now rewrite Ey. }
    unfold getitem. rewrite Ey, Ee, Re, Ry, AQ. destruct (w_ex _ _ WW _ _ Ey Ry) as (V0 & VD & _). pose proof (h_vd _ _ _ HH _ _ Ey Ry) as HV.
    destruct (x_vdict y) as [|h tl] eqn:EV; [contradiction|]. destruct (dget (rk r) (h :: tl)) as [[w|]|]; [destruct (NL _ HV)|contradiction|auto].
Qed.
End Linked.

(** ** Unlinked datasets *)
Definition plain_key (x : x2) : option key :=
  match y_group x with GOut _ => Some (y_flow x, Output, y_term x) | GIn => Some (y_flow x, Input, y_term x) | GNone => None end.
Definition total (F : file) (k : key) : Qc := Qcsum (map y_amount (filter (fun x => eqb (plain_key x) (Some k)) (f_data F))).
(** The process has the exchanges of the dataset, and its references are the reference products without a link. *)
Definition content_is (F : file) (p : proc) : Prop :=
  (forall k x, In x (f_data F) -> plain_key x = Some k -> exch_value p k = Some (total F k)) /\
  (forall k, (forall x, In x (f_data F) -> plain_key x <> Some k) -> dget k (p_exch p) = None) /\
  (forall k, In k (p_refs p) <-> exists x, In x (f_data F) /\ marked x /\ y_term x = None /\ plain_key x = Some k).
Definition sole (s : source) (i r : nat) : Prop := forall r', names s i r' -> r' = r.

Section Unlinked.
Context (s : source) (LK : s_linked s = false) (WN : well_named s).
Definition ukey (e : eex) : key := (e_flow e, e_dir e, e_term e).
Definition etotal (l : list eex) (k : key) : Qc := Qcsum (map e_value (filter (fun e => eqb (ukey e) k) l)).
Record U (l : list eex) (p : proc) : Prop := {
  u_sum : p_sum p = 0%Qc;
  u_ex : forall k, match dget k (p_exch p) with
                   | Some y => (exists e, In e l /\ ukey e = k) /\ x_value y = Some (etotal l k) /\ x_vdict y = []
                   | None => forall e, In e l -> ukey e <> k end;
  u_ref : forall k, In k (p_refs p) <-> exists e, In e l /\ e_ref e = true /\ e_term e = None /\ ukey e = k }.
Lemma etotal_snoc l e k : etotal (l ++ [e]) k = (etotal l k + (if eqb (ukey e) k then e_value e else 0))%Qc.
Proof.
  unfold etotal. induction l as [|x l IH]; cbn [app filter map].
  - destruct (eqb (ukey e) k); cbn; ring.
  - destruct (eqb (ukey x) k); cbn [map Qcsum fold_right]; [|exact IH]. change (fold_right Qcplus 0%Qc) with Qcsum in *. rewrite IH. ring.
Qed.
Lemma etotal_none l k : (forall e, In e l -> ukey e <> k) -> etotal l k = 0%Qc.
Proof. intros H. unfold etotal. rewrite OlcaProofs.filter_false; [reflexivity|]. intros x I. apply eqb_neq. auto. Qed.
Lemma U_new : U [] new_proc.
Proof. constructor; cbn; auto. intros k. split; [contradiction|intros (e & [] & _)]. Qed.
(** A reference is set on an exchange that exists. *)
Lemma set_ref p f d p1 r : p_sum p = 0%Qc -> add_reference nocf p f d = (p1, r) ->
  p_sum p1 = 0%Qc /\
  (forall k, dget k (p_exch p1) = match dget k (p_exch p) with Some y => Some (if eqb k (f, d, None) then X (x_value y) (x_vdict y) true else y) | None => None end) /\
  (forall y, dget (f, d, None) (p_exch p) = Some y -> forall k, In k (p_refs p1) <-> k = (f, d, None) \/ In k (p_refs p)).
Proof.
  intros S E. unfold add_reference in E. apply pair_equal_spec in E as (<- & _). destruct (dget (f, d, None) (p_exch p)) as [y|] eqn:Ey.
  - unfold alloc_qty. cbn [p_sum]. rewrite S. change (eqb 0%Qc (Q2Qc 0)) with true. cbv iota. cbn [p_sum p_exch p_refs]. split; [auto|]. split.
    + intros k. rewrite dget_dset. destruct (eqb_spec k (f, d, None)) as [->|]; [now rewrite Ey|]. destruct (dget k (p_exch p)); auto.
    + intros y' _ k. now rewrite In_set_add.
  - unfold alloc_qty. rewrite S. change (eqb 0%Qc (Q2Qc 0)) with true. cbv iota. split; [auto|]. split; [|discriminate].
    intros k. destruct (dget k (p_exch p)) eqn:Ek; [|auto]. destruct (eqb_spec k (f, d, None)) as [->|]; [congruence|auto].
Qed.
Lemma add_none p e : match dget (ukey e) (p_exch p) with
  | Some y => add_exchange p (e_flow e) (e_dir e) None (Some (e_value e)) (targ_of (e_term e)) false =
      if eqb (e_value e) 0%Qc then (p, POk None) else match x_value y with Some _ => (p, PErr DuplicateExchange) | None => (p_set p (ukey e) (X (Some (e_value e)) (x_vdict y) (x_ref y)), POk (Some (ukey e))) end
  | None => add_exchange p (e_flow e) (e_dir e) None (Some (e_value e)) (targ_of (e_term e)) false = (p_set p (ukey e) (X (Some (e_value e)) [] false), POk (Some (ukey e)))
  end.
Proof.
  unfold add_exchange. assert (T : t_key (targ_of (e_term e)) = e_term e) by (destruct (e_term e); reflexivity). rewrite T. fold (ukey e).
  assert (T2 : (match targ_of (e_term e) with TObj _ => None | _ => dget (ukey e) (p_exch p) end) = dget (ukey e) (p_exch p)) by (destruct (e_term e); reflexivity).
  rewrite T2. destruct (dget (ukey e) (p_exch p)) as [y|]; [|auto]. change (eqb (e_value e) (Q2Qc 0)) with (eqb (e_value e) 0%Qc). destruct (eqb (e_value e) 0%Qc); [auto|]. destruct (x_value y); auto.
Qed.
Lemma term_none (l : list eex) (e : eex) : (e_ref e && negb (match e_term e with Some _ => true | None => false end && true)) = true <-> e_ref e = true /\ e_term e = None.
Proof. destruct (e_ref e), (e_term e); cbn; split; intros H; try discriminate; try (destruct H; discriminate); auto. Qed.
Lemma fill es : forall pre p p' res, U pre p -> add_all false None es p = (p', res) -> res = EOk tt -> U (pre ++ es) p'.
Proof.
  induction es as [|e es IH]; intros pre p p' res UU E R; cbn [add_all] in E.
  - inversion E; subst. now rewrite app_nil_r.
  - rewrite andb_false_r in E. rewrite andb_false_r in E. replace (pre ++ e :: es) with ((pre ++ [e]) ++ es) by (rewrite <- app_assoc; reflexivity).
    (* after the exchange, before the reference *)
    assert (MID : forall p1, p_sum p1 = 0%Qc -> p_refs p1 = p_refs p ->
      (forall k, match dget k (p_exch p1) with
                   | Some y => (exists e', In e' (pre ++ [e]) /\ ukey e' = k) /\ x_value y = Some (etotal (pre ++ [e]) k) /\ x_vdict y = []
                   | None => forall e', In e' (pre ++ [e]) -> ukey e' <> k end) ->
      (if negb false && (e_ref e && negb (match e_term e with Some _ => true | None => false end && negb false))
       then match add_reference nocf p1 (e_flow e) (e_dir e) with (p2, POk _) => add_all false None es p2 | (p2, PErr e0) => (p2, EErr (ProcExn e0)) end
       else add_all false None es p1) = (p', res) -> U ((pre ++ [e]) ++ es) p').
    { intros p1 S1 R1 X1 E1. cbn [negb andb] in E1. destruct (e_ref e && negb _) eqn:T in E1.
      - apply (term_none pre e) in T as (T1 & T2).
        destruct (add_reference nocf p1 (e_flow e) (e_dir e)) as (p2, [k|x]) eqn:ER; [|inversion E1; subst; discriminate].
        destruct (set_ref _ _ _ _ _ S1 ER) as (S2 & D2 & F2).
        apply (IH (pre ++ [e]) p2 p' res); auto.
        assert (KE : ukey e = (e_flow e, e_dir e, None)) by (unfold ukey; now rewrite T2).
        assert (EY : exists y, dget (e_flow e, e_dir e, None) (p_exch p1) = Some y).
        { specialize (X1 (ukey e)). rewrite KE in X1. destruct (dget (e_flow e, e_dir e, None) (p_exch p1)); [eauto|]. exfalso. apply (X1 e); [rewrite in_app_iff; cbn; auto|auto]. }
        destruct EY as (y & Ey). constructor; auto.
        + intros k0. rewrite D2. specialize (X1 k0). destruct (dget k0 (p_exch p1)) as [y0|]; [|auto]. destruct (eqb k0 _); cbn; auto.
        + intros k0. rewrite (F2 _ Ey), R1, (u_ref _ _ UU). split.
          * intros [-> | (e' & I & H)]; [exists e|exists e']; rewrite in_app_iff; cbn; tauto.
          * intros (e' & I & A & B & C). rewrite in_app_iff in I. destruct I as [I | [<- | []]]; [right; eauto 6|left; congruence].
      - apply (IH (pre ++ [e]) p1 p' res); auto. constructor; auto. intros k0. rewrite R1, (u_ref _ _ UU). split.
        + intros (e' & I & H). exists e'. rewrite in_app_iff. tauto.
        + intros (e' & I & A & B & C). rewrite in_app_iff in I. destruct I as [I | [<- | []]]; [eauto 6|].
          exfalso. rewrite (proj2 (term_none pre e) (conj A B)) in T. discriminate. }
    pose proof (add_none p e) as AN. pose proof (u_ex _ _ UU (ukey e)) as UE. destruct (dget (ukey e) (p_exch p)) as [y|] eqn:Ey.
    + rewrite AN in E. destruct (eqb_spec (e_value e) 0%Qc) as [Z|NZ].
      * destruct (e_comment e); [inversion E; subst; discriminate|]. cbn [andb] in E.
        apply (MID p); auto; [apply (u_sum _ _ UU)|]. intros k. pose proof (u_ex _ _ UU k) as H. destruct (dget k (p_exch p)) as [y0|] eqn:Ek.
        -- destruct H as ((e' & I & K) & V & D). split; [exists e'; rewrite in_app_iff; auto|]. split; [|auto]. rewrite etotal_snoc, Z, V. f_equal. destruct (eqb _ _); ring.
        -- intros e' I. rewrite in_app_iff in I. destruct I as [I | [<- | []]]; [auto|]. intros <-. congruence.
      * destruct UE as (_ & V & _). rewrite V in E. inversion E; subst; discriminate.
    + rewrite AN in E. rewrite andb_false_r in E. apply (MID _) in E; auto; [apply (u_sum _ _ UU)|].
      intros k. cbn [p_set with_exch p_exch]. rewrite dget_dset. destruct (eqb_spec k (ukey e)) as [->|N].
      * split; [exists e; rewrite in_app_iff; cbn; auto|]. cbn [x_value x_vdict]. split; [|auto]. rewrite etotal_snoc, eqb_refl, (etotal_none pre) by auto. f_equal. ring.
      * pose proof (u_ex _ _ UU k) as H. destruct (dget k (p_exch p)) as [y0|].
        -- destruct H as ((e' & I & K) & V & D). split; [exists e'; rewrite in_app_iff; auto|]. split; [|auto]. rewrite etotal_snoc, V. f_equal. destruct (eqb_spec (ukey e) k); [congruence|ring].
        -- intros e' I. rewrite in_app_iff in I. destruct I as [I | [<- | []]]; [auto|congruence].
Qed.
(** Importing it again changes nothing. *)
Lemma refill all es : (forall e, In e es -> In e all) -> forall p p' res, U all p -> add_all false None es p = (p', res) -> U all p'.
Proof.
  induction es as [|e es IH]; intros SUB p p' res UU E; cbn [add_all] in E; [inversion E; subst; auto|].
  rewrite andb_false_r in E. rewrite andb_false_r in E. pose proof (add_none p e) as AN. pose proof (u_ex _ _ UU (ukey e)) as UE.
  destruct (dget (ukey e) (p_exch p)) as [y|] eqn:Ey; [|exfalso; apply (UE e); [apply SUB; cbn; auto|auto]].
  rewrite AN in E. assert (SUB' : forall e, In e es -> In e all) by (intros; apply SUB; cbn; auto).
  destruct (eqb (e_value e) 0%Qc); [|destruct UE as (_ & V & _); rewrite V in E; inversion E; subst; auto].
  destruct (e_comment e); [inversion E; subst; auto|]. cbn [andb negb] in E. destruct (e_ref e && negb _) eqn:T in E; [|eapply IH; eauto].
  apply (term_none all e) in T as (T1 & T2). assert (KE : ukey e = (e_flow e, e_dir e, None)) by (unfold ukey; now rewrite T2).
  destruct (add_reference nocf p (e_flow e) (e_dir e)) as (p2, r2) eqn:ER. destruct (set_ref _ _ _ _ _ (u_sum _ _ UU) ER) as (S2 & D2 & F2).
  assert (U2 : U all p2).
  { constructor; auto.
    - intros k0. rewrite D2. pose proof (u_ex _ _ UU k0) as X1. destruct (dget k0 (p_exch p)) as [y0|]; [|auto]. destruct (eqb k0 _); cbn; auto.
    - intros k0. rewrite KE in Ey. rewrite (F2 _ Ey), (u_ref _ _ UU). split; [|auto]. intros [-> | H]; [|auto]. exists e. split; [apply SUB; cbn; auto|auto]. }
  destruct r2; [eapply IH; eauto|inversion E; subst; auto].
Qed.
Lemma image_key x e : image x e -> plain_key x = Some (ukey e).
Proof. intros (I1 & I2 & I3 & I4 & _). unfold plain_key, ukey, heads in *. rewrite I1, I4. destruct (y_group x); [rewrite I2; auto|rewrite I2; auto|contradiction]. Qed.
Lemma content F es p : Forall2 image (f_data F) es -> U es p -> content_is F p.
Proof.
  intros H [A B C].
  assert (FW : forall x, In x (f_data F) -> exists e, In e es /\ image x e).
  { clear -H. induction H as [|x y l l' I H IH]; intros z Hz; [destruct Hz|]. destruct Hz as [<- | Hz]; [exists y; cbn; auto|]. destruct (IH _ Hz) as (w & ? & ?). exists w. cbn. auto. }
  assert (BW : forall e, In e es -> exists x, In x (f_data F) /\ image x e).
  { clear -H. induction H as [|x y l l' I H IH]; intros z Hz; [destruct Hz|]. destruct Hz as [<- | Hz]; [exists x; cbn; auto|]. destruct (IH _ Hz) as (w & ? & ?). exists w. cbn. auto. }
  assert (T : forall k, total F k = etotal es k).
  { intros k. unfold total, etotal. clear -H. induction H as [|x e l es I H IH]; [reflexivity|]. cbn [filter]. rewrite (image_key _ _ I).
    assert (Q : eqb (Some (ukey e)) (Some k) = eqb (ukey e) k) by (destruct (eqb_spec (ukey e) k) as [->|]; [apply eqb_refl|apply eqb_neq; congruence]). rewrite Q.
    destruct (eqb (ukey e) k); [|auto]. cbn [map Qcsum fold_right]. change (fold_right Qcplus 0%Qc) with Qcsum in *. rewrite IH. destruct I as (_ & _ & -> & _). reflexivity. }
  split; [|split].
  - intros k x I K. destruct (FW _ I) as (e & Ie & Im). rewrite (image_key _ _ Im) in K. inversion K; subst k. specialize (B (ukey e)). unfold exch_value.
    destruct (dget (ukey e) (p_exch p)) as [y|]; [|exfalso; eapply B; eauto]. destruct B as (_ & V & D). unfold value. now rewrite V, T.
  - intros k N. specialize (B k). destruct (dget k (p_exch p)) as [y|]; [|auto]. destruct B as ((e & Ie & K) & _). destruct (BW _ Ie) as (x & Ix & Im). exfalso. apply (N x Ix). rewrite (image_key _ _ Im). congruence.
  - intros k. rewrite C. split.
    + intros (e & Ie & R & T0 & K). destruct (BW _ Ie) as (x & Ix & Im). exists x. split; [auto|]. pose proof (image_key _ _ Im) as IK. destruct Im as (_ & _ & _ & I4 & I5 & _).
      split; [now apply I5|]. split; [congruence|congruence].
    + intros (x & Ix & M & T0 & K). destruct (FW _ Ix) as (e & Ie & Im). exists e. split; [auto|]. pose proof (image_key _ _ Im) as IK. destruct Im as (_ & _ & _ & I4 & I5 & _).
      split; [now apply I5|]. split; [congruence|congruence].
Qed.

Definition good (i : nat) (F : file) (p : proc) : Prop := exists es, Forall2 image (f_data F) es /\ U es p.
Definition ukeeps (a a' : arch) : Prop := forall i p, dget i (a_p a) = Some p -> exists p', dget i (a_p a') = Some p' /\
  forall r F, sole s i r -> dataset s i r F -> good i F p -> good i F p'.
Definition uadds (a a' : arch) : Prop := forall i p', dget i (a_p a') = Some p' -> dget i (a_p a) <> None \/
  forall r F, sole s i r -> dataset s i r F -> good i F p'.
Lemma ukeeps_refl a : ukeeps a a.
Proof. intros i p E. eauto. Qed.
Lemma ukeeps_trans a b c : ukeeps a b -> ukeeps b c -> ukeeps a c.
Proof. intros H1 H2 i p E. destruct (H1 _ _ E) as (p1 & E1 & A). destruct (H2 _ _ E1) as (p2 & E2 & A2). exists p2. split; [auto|]. intros r F S D G. eapply A2; eauto. Qed.
Lemma uadds_refl a : uadds a a.
Proof. intros i p E. left. congruence. Qed.
Lemma uadds_trans a b c : uadds a b -> uadds b c -> ukeeps b c -> uadds a c.
Proof.
  intros H1 H2 K i p E. destruct (H2 _ _ E) as [N | G]; [|auto]. destruct (dget i (a_p b)) as [q|] eqn:Eq; [|congruence].
  destruct (H1 _ _ Eq) as [N1 | G]; [auto|]. right. intros r F S D. destruct (K _ _ Eq) as (p' & Ep & X). rewrite E in Ep. inversion Ep; subst. eapply X; eauto.
Qed.
Lemma collect_fun l : forall a b, match snd (collect l a), snd (collect l b) with EOk x, EOk y => x = y | EErr _, EErr _ => True | _, _ => False end.
Proof.
  induction l as [|x l IH]; intros a b; cbn [collect]; [reflexivity|].
  specialize (IH (create_flow x a) (create_flow x b)). destruct (y_group x); cbn [snd]; auto;
  destruct (collect l (create_flow x a)) as (a1, [es|e]), (collect l (create_flow x b)) as (b1, [es'|e']); cbn [snd] in *; auto; try contradiction; now subst.
Qed.
Lemma image_fun l es : Forall2 image l es -> forall es', Forall2 image l es' -> es = es'.
Proof.
  induction 1 as [|x e l es I H IH]; intros es' H'; inversion H'; subst; [auto|]. f_equal; [|auto].
  destruct I as (A & B & C & D & E & F), H2 as (A' & B' & C' & D' & E' & F'). destruct e as [f d v t r c], y as [f' d' v' t' r' c']; cbn in *. subst.
  assert (d = d') by (unfold heads in *; destruct (y_group x); congruence || contradiction). subst.
  assert (r = r') as -> by (destruct r, r'; auto; [symmetry; apply E'; now apply E|apply E; now apply E']). congruence.
Qed.
Lemma ucreate_single i r ex a a' res : create_single s i r ex a = (a', res) ->
  ukeeps a a' /\ (res = EOk tt -> ex = true -> uadds a a' /\ dget i (a_p a') <> None).
Proof.
  intros E. unfold create_single in E.
  destruct (match dget i (a_p a) with Some p => has_reference p r | None => EOk false end) as [[]|x] eqn:E0.
  - inversion E; subst. split; [apply ukeeps_refl|]. intros _ _. split; [apply uadds_refl|]. destruct (dget i (a_p a')); [discriminate|discriminate].
  - destruct (dget r match dget i (s_files s) with Some fs => fs | None => [] end) as [[F|]|] eqn:EF;
      [|inversion E; subst; split; [apply ukeeps_refl|discriminate]|inversion E; subst; split; [apply ukeeps_refl|discriminate]].
    assert (DS : dataset s i r F). { unfold dataset. destruct (dget i (s_files s)) as [fs|]; [eauto|discriminate]. }
    assert (FU : forall r0 F0, sole s i r0 -> dataset s i r0 F0 -> F0 = F).
    { intros r0 F0 S D0. assert (r = r0) as <- by (apply S; eapply names_fun; eauto). destruct DS as (fs & A & B), D0 as (fs' & A' & B'). congruence. }
    rewrite (WN _ _ _ DS), LK in E. set (p := match dget i (a_p a) with Some p => p | None => new_proc end) in *.
    assert (PUT : forall b p3, a_p b = dset i p (a_p a) ->
       (forall es, Forall2 image (f_data F) es -> U es p -> U es p3) -> ukeeps a (put_p b i p3)).
    { intros b p3 Eb H j q Eq. cbn [put_p a_p]. rewrite Eb, !dget_dset. destruct (eqb_spec j i) as [->|]; [|eauto].
      exists p3. split; [auto|]. intros r0 F0 S0 D0 (es & I0 & U0). rewrite (FU _ _ S0 D0) in I0. exists es. rewrite (FU _ _ S0 D0). split; [auto|]. apply H; auto. unfold p. now rewrite Eq. }
    assert (ABS : dget i (a_p a) = None -> p = new_proc) by (intros Z; unfold p; now rewrite Z).
    destruct (has_reference p r) as [[]|x] eqn:HR.
    + inversion E; subst. split; [|intros _ _; split; [|cbn; rewrite dget_dset_same; discriminate]].
      * intros j q Eq. cbn [put_p a_p]. rewrite !dget_dset. destruct (eqb_spec j i) as [->|]; [|eauto]. exists p. unfold p. rewrite Eq. auto.
      * intros j q. cbn [put_p a_p]. rewrite dget_dset. destruct (eqb_spec j i) as [->|]; [|left; congruence]. intros _. left. intros Z. rewrite (ABS Z) in HR. discriminate.
    + destruct ex.
      * destruct (collect (f_data F) (put_p a i p)) as (a3, [es|er]) eqn:EC; destruct (collect_props _ _ _ _ EC) as (C1 & _ & _ & C4).
        -- destruct (add_all false None es p) as (p3, res3) eqn:EL. inversion E; subst a' res. clear E. specialize (C4 _ eq_refl).
           split; [apply PUT; [exact C1|]; intros es' Im UU; rewrite (image_fun _ _ Im _ C4) in *; eapply refill; eauto|].
           intros R _. split; [|cbn; rewrite dget_dset_same; discriminate]. intros j q. cbn [put_p a_p]. rewrite C1. cbn [put_p a_p]. rewrite !dget_dset. destruct (eqb_spec j i) as [->|]; [|left; congruence].
           intros EE; inversion EE; subst q. destruct (dget i (a_p a)) as [q|] eqn:Eq; [left; congruence|]. right. intros r0 F0 S0 D0. rewrite (FU _ _ S0 D0). exists es. split; [auto|].
           apply (fill es [] p p3 res3); auto. rewrite (ABS eq_refl). apply U_new.
        -- inversion E; subst. split; [|discriminate]. apply PUT; [exact C1|auto].
      * inversion E; subst. split; [|discriminate]. apply (PUT (put_p a i p)); auto.
    + inversion E; subst. split; [|discriminate]. intros j q Eq. cbn [put_p a_p]. rewrite !dget_dset. destruct (eqb_spec j i) as [->|]; [|eauto]. exists p. unfold p. rewrite Eq. auto.
  - inversion E; subst. split; [apply ukeeps_refl|discriminate].
Qed.
Lemma ucreate_list i ex l : forall a a' res, create_list s i l ex a = (a', res) -> ukeeps a a' /\ (res = EOk tt -> ex = true -> uadds a a' /\ (l <> [] -> dget i (a_p a') <> None)).
Proof.
  induction l as [|r l IH]; intros a a' res E; cbn [create_list] in E.
  - inversion E; subst. split; [apply ukeeps_refl|]. intros _ _. split; [apply uadds_refl|congruence].
  - destruct (create_single s i r ex a) as (a1, [[]|x]) eqn:E1; destruct (ucreate_single _ _ _ _ _ _ E1) as (K1 & R1).
    + destruct (IH _ _ _ E) as (K2 & R2). split; [eapply ukeeps_trans; eauto|]. intros ROK X. destruct (R1 eq_refl X) as (A1 & B1). destruct (R2 ROK X) as (A2 & B2).
      split; [eapply uadds_trans; eauto|]. intros _. destruct (dget i (a_p a1)) as [q|] eqn:Eq; [|congruence]. destruct (K2 _ _ Eq) as (p' & -> & _). discriminate.
    + inversion E; subst. split; [auto|]. discriminate.
Qed.
Lemma uload_list ex l : forall a a' res, load_list s l ex a = (a', res) -> ukeeps a a' /\ (res = EOk tt -> ex = true -> uadds a a').
Proof.
  induction l as [|i l IH]; intros a a' res E; cbn [load_list] in E.
  - inversion E; subst. split; [apply ukeeps_refl|]. intros _ _. apply uadds_refl.
  - destruct (create_list s i (refs_of s i) ex a) as (a1, [[]|x]) eqn:E1; destruct (ucreate_list _ _ _ _ _ _ E1) as (K1 & R1).
    + destruct (IH _ _ _ E) as (K2 & R2). split; [eapply ukeeps_trans; eauto|]. intros ROK X. eapply uadds_trans; [exact (proj1 (R1 eq_refl X))|exact (R2 ROK X)|exact K2].
    + inversion E; subst. split; [auto|]. discriminate.
Qed.
Lemma uestep o a a' res : estep s o a = (a', res) -> ukeeps a a' /\ (res = EOk tt -> full o -> uadds a a').
Proof.
  intros E. destruct o as [i|ex|i r]; cbn [estep full] in *.
  - unfold get in E. destruct (dget i (a_p a)) eqn:Ei; [inversion E; subst; split; [apply ukeeps_refl|intros _ _; apply uadds_refl]|].
    destruct (ucreate_list i true (refs_of s i) _ _ _ E) as (K & R). split; [exact K|]. intros ROK _. exact (proj1 (R ROK eq_refl)).
  - unfold load_all in E. destruct (a_loaded a); [inversion E; subst; split; [apply ukeeps_refl|intros _ _; apply uadds_refl]|].
    destruct (load_list s (a_known a) ex a) as (a1, [[]|x]) eqn:E1; destruct (uload_list _ _ _ _ _ E1) as (K1 & R1); inversion E; subst.
    + split; [exact K1|]. intros _ FU. destruct ex; [|contradiction]. exact (R1 eq_refl eq_refl).
    + split; [auto|]. discriminate.
  - split; [|contradiction]. unfold scores in E. destruct (dget r _) as [[F|]|] eqn:EF; [|inversion E; subst; apply ukeeps_refl|inversion E; subst; apply ukeeps_refl].
    set (a1 := match dget (f_act F) (a_p a) with Some _ => a | None => put_p a (f_act F) new_proc end) in *.
    assert (K1 : ukeeps a a1).
    { unfold a1. destruct (dget (f_act F) (a_p a)) eqn:Ei; [apply ukeeps_refl|]. intros j q Eq. cbn [put_p a_p]. rewrite dget_dset. destruct (eqb_spec j (f_act F)); [congruence|eauto]. }
    destruct (find _ _) as [x|] in E; inversion E; subst; [|auto]. intros j q Eq. rewrite flow_p. apply (K1 _ _ Eq).
Qed.
Lemma uerun l : forall a, ukeeps a (erun s l a).
Proof.
  induction l as [|o l IH]; intros a; [apply ukeeps_refl|]. cbn [erun fold_left]. fold (erun s l (fst (estep s o a))).
  destruct (estep s o a) as (a1, res) eqn:E. cbn [fst]. destruct (uestep _ _ _ _ E) as (K1 & _). eapply ukeeps_trans; eauto.
Qed.
End Unlinked.

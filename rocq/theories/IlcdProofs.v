(** Specification and proofs for IlcdModel. *)
From Coq Require Import String.
From Verif Require Import Num Base PyStr ProcModel MiscModel IlcdModel QcLra.
From Verif Require OlcaProofs.
Open Scope nat_scope.
Open Scope string_scope.
Open Scope list_scope.
Local Arguments eqb : simpl never.

(** ** Specification *)
(** *** Processes *)
Definition at_ (f : nat) (d : dirn) (x : iexch) : Prop := ix_flow x = f /\ ix_dir x = d.
Definition amount (x : iexch) : Qc := match ix_amount x with Some v => v | None => 0%Qc end.
(** The total amount of flow [f] in direction [d] *)
Inductive sums (f : nat) (d : dirn) : list iexch -> Qc -> Prop :=
| sum_nil : sums f d [] 0%Qc
| sum_at x l t : at_ f d x -> sums f d l t -> sums f d (x :: l) (amount x + t)%Qc
| sum_other x l t : ~ at_ f d x -> sums f d l t -> sums f d (x :: l) t.
(** The exchange the file names as its reference: the first of that number *)
Definition named_ref (j : iproc) (x : iexch) : Prop :=
  exists n pre post, pr_ref j = Some n /\ pr_exch j = pre ++ x :: post /\ ix_id x = n /\ forall y, In y pre -> ix_id y <> n.
Definition process_is (j : iproc) (p : proc) : Prop :=
  (forall f d x, In x (pr_exch j) -> at_ f d x -> dget (f, d, None) (p_exch p) <> None /\
     (forall v, exch_value p (f, d, None) = Some v -> sums f d (pr_exch j) v) /\
     (exch_value p (f, d, None) = None -> sums f d (pr_exch j) 0%Qc /\ exists y, In y (pr_exch j) /\ at_ f d y /\ ix_amount y = None)) /\
  (forall f d t, (t <> None \/ forall x, In x (pr_exch j) -> ~ at_ f d x) -> dget (f, d, t) (p_exch p) = None) /\
  (forall f d t, In (f, d, t) (p_refs p) <-> t = None /\ exists x, named_ref j x /\ at_ f d x).
(** *** Flows *)
Definition readable (s : source) (q : nat) : Prop := exists g G, dget q (s_fp s) = Some g /\ dget g (s_ug s) = Some G.
Definition flow_is (s : source) (j : iflow) (fe : flowe) : Prop :=
  (forall q, (exists x, In x (fl_props j) /\ ip_q x = q) -> readable s q ->
     exists pre x post, fl_props j = pre ++ x :: post /\ ip_q x = q /\ (forall y, In y pre -> ip_q y <> q) /\ forall loc, cf fe (FP q) loc = ip_val x) /\
  (forall q, (forall x, In x (fl_props j) -> ip_q x <> q) \/ ~ readable s q -> dget (FP q) (fe_ch fe) = None) /\
  (NoDup (map ip_id (fl_props j)) -> forall q, fe_ref fe = Some q <-> exists x, In x (fl_props j) /\ ip_id x = fl_ref j /\ ip_q x = q /\ readable s q).
(** *** LCIA factors *)
Definition is_global (x : ifac) : Prop := fa_loc x = None \/ fa_loc x = Some "GLO".
(** The first factor of the flow is global, with value [v]. *)
Definition leads (l : list ifac) (f : nat) (v : Qc) : Prop :=
  exists pre x post, l = pre ++ x :: post /\ fa_flow x = f /\ is_global x /\ fa_val x = v /\ forall y, In y pre -> fa_flow y <> f.
(** The first factor of the flow at the location has value [v]. *)
Definition regional (l : list ifac) (f : nat) (loc : string) (v : Qc) : Prop :=
  exists pre x post, l = pre ++ x :: post /\ fa_flow x = f /\ fa_loc x = Some loc /\ fa_val x = v /\
    forall y, In y pre -> ~ (fa_flow y = f /\ fa_loc y = Some loc).
(** What [cf] gives for the flow [f] and the method *)
Definition factors_are (j : imeth) (f : nat) (c : string -> Qc) : Prop :=
  forall loc,
    (forall v, loc <> "GLO" -> regional (m_factors j) f loc v -> c loc = v) /\
    (loc = "GLO" \/ (forall v, ~ regional (m_factors j) f loc v) ->
       (forall v, leads (m_factors j) f v -> c loc = v) /\ ((forall v, ~ leads (m_factors j) f v) -> c loc = 0%Qc)).

(** ** The factors recorded for one flow, in the order of the file *)
Definition glob (x : ifac) : bool := match fa_loc x with None => true | Some l => eqb l "GLO" end.
Definition take (d : dict string Qc) (x : ifac) : dict string Qc :=
  match fa_loc x with
  | None => match d with [] => [("GLO", fa_val x)] | _ => d end
  | Some l => if eqb l "GLO" then match d with [] => [("GLO", fa_val x)] | _ => d end else if din l d then d else dset l (fa_val x) d
  end.
Definition acc (l : list ifac) : dict string Qc := fold_left take l [].
Lemma acc_snoc l x : acc (l ++ [x]) = take (acc l) x.
Proof. unfold acc. now rewrite fold_left_app. Qed.
Lemma take_mono d x k v : dget k d = Some v -> dget k (take d x) = Some v.
Proof.
  intros E. assert (D : d <> []) by (intros ->; discriminate). unfold take.
  destruct (fa_loc x) as [l|]; [destruct (eqb l "GLO")|]; try (destruct d; [congruence|auto]).
  unfold din. destruct (dget l (p :: d)) eqn:El; [auto|]. rewrite dget_dset. destruct (eqb_spec k l); [congruence|auto].
Qed.
Lemma dset_ne {V} k (v : V) (d : dict string V) : dset k v d <> [].
Proof. destruct d as [|(k0, v0) d]; cbn; [discriminate|]. destruct (eqb k k0); discriminate. Qed.
Lemma take_ne d x : take d x <> [].
Proof.
  unfold take. destruct (fa_loc x) as [l|]; [destruct (eqb l "GLO")|]; try (destruct d; discriminate).
  unfold din. destruct (dget l d) eqn:E; [intros ->; discriminate|apply dset_ne].
Qed.
Definition absorbs (d : dict string Qc) (x : ifac) : Prop := take d x = d.
Lemma absorbs_take d x : absorbs (take d x) x.
Proof.
  pose proof (take_ne d x) as NE. unfold absorbs. unfold take at 1. destruct (fa_loc x) as [l|] eqn:EL.
  - destruct (eqb l "GLO") eqn:EG; [destruct (take d x); [congruence|auto]|].
    assert (D : din l (take d x) = true).
    { unfold take. rewrite EL, EG. unfold din at 1. destruct (din l d) eqn:Ed; [unfold din in Ed; destruct (dget l d); [auto|discriminate]|]. now rewrite dget_dset_same. }
    now rewrite D.
  - destruct (take d x); [congruence|auto].
Qed.
Lemma absorbs_mono d x y : absorbs d x -> absorbs (take d y) x.
Proof.
  unfold absorbs. intros A. unfold take at 1. pose proof (take_ne d y) as NE. unfold take in A at 1. destruct (fa_loc x) as [l|].
  - destruct (eqb l "GLO"); [destruct (take d y); [congruence|auto]|]. destruct (din l d) eqn:Ed.
    + unfold din in *. destruct (dget l d) as [v|] eqn:El; [|discriminate]. now rewrite (take_mono d y l v El).
    + exfalso. unfold din in Ed. destruct (dget l d) eqn:El; [discriminate|]. rewrite <- A, dget_dset_same in El. discriminate.
  - destruct (take d y); [congruence|auto].
Qed.
Lemma acc_absorbs l : forall x, In x l -> absorbs (acc l) x.
Proof.
  induction l as [|y l IH] using rev_ind; intros x H; [destruct H|]. rewrite acc_snoc. apply in_app_iff in H as [H | [<- | []]]; [apply absorbs_mono; auto|apply absorbs_take].
Qed.
Lemma acc_region l : forall loc v, loc <> "GLO" -> (dget loc (acc l) = Some v <->
  exists pre x post, l = pre ++ x :: post /\ fa_loc x = Some loc /\ fa_val x = v /\ forall y, In y pre -> fa_loc y <> Some loc).
Proof.
  intros loc v NG. induction l as [|y l IH] using rev_ind.
  - cbn. split; [discriminate|]. intros (pre & x & post & E & _). destruct pre; discriminate.
  - rewrite acc_snoc. split.
    + intros E. destruct (dget loc (acc l)) as [w|] eqn:El.
      * rewrite (take_mono _ _ _ _ El) in E. inversion E; subst w. destruct (proj1 IH eq_refl) as (pre & x & post & -> & H). exists pre, x, (post ++ [y]). rewrite <- app_assoc. auto.
      * unfold take in E. assert (FL : fa_loc y = Some loc /\ fa_val y = v).
        { destruct (fa_loc y) as [l0|]; [destruct (eqb_spec l0 "GLO")|].
          - destruct (acc l); [cbn [dget] in E; destruct (eqb_spec loc "GLO"); [contradiction|discriminate]|congruence].
          - destruct (din l0 (acc l)); [congruence|]. rewrite dget_dset in E. destruct (eqb_spec loc l0); [subst; inversion E; auto|congruence].
          - destruct (acc l); [cbn [dget] in E; destruct (eqb_spec loc "GLO"); [contradiction|discriminate]|congruence]. }
        exists l, y, []. split; [auto|]. split; [tauto|]. split; [tauto|]. intros z Iz Ez. pose proof (acc_absorbs l z Iz) as A. unfold absorbs, take in A. rewrite Ez in A.
        destruct (eqb_spec loc "GLO"); [contradiction|]. unfold din in A. rewrite El in A. rewrite <- A, dget_dset_same in El. discriminate.
    + intros (pre & x & post & E & H1 & H2 & H3). destruct post as [|z post] using rev_ind.
      * apply app_inj_tail in E as (-> & ->). assert (N : dget loc (acc pre) = None).
        { destruct (dget loc (acc pre)) as [w|] eqn:El; [|auto]. exfalso. clear IH H2.
          assert (X : exists z, In z pre /\ fa_loc z = Some loc); [|destruct X as (z & A & B); exact (H3 z A B)].
          clear H3. revert w El. induction pre as [|z pre IHp] using rev_ind; intros w El; [discriminate|]. rewrite acc_snoc in El.
          destruct (dget loc (acc pre)) as [w'|] eqn:E'; [destruct (IHp _ eq_refl) as (z' & A & B); exists z'; rewrite in_app_iff; auto|].
          exists z. rewrite in_app_iff. split; [cbn; auto|]. unfold take in El. destruct (fa_loc z) as [l0|]; [destruct (eqb_spec l0 "GLO")|].
          - destruct (acc pre); [cbn [dget] in El; destruct (eqb_spec loc "GLO"); [contradiction|discriminate]|congruence].
          - destruct (din l0 (acc pre)); [congruence|]. rewrite dget_dset in El. destruct (eqb_spec loc l0); [subst; auto|congruence].
          - destruct (acc pre); [cbn [dget] in El; destruct (eqb_spec loc "GLO"); [contradiction|discriminate]|congruence]. }
        unfold take. rewrite H1. destruct (eqb_spec loc "GLO"); [contradiction|]. unfold din. rewrite N, dget_dset_same. congruence.
      * clear IHpost. rewrite app_comm_cons, app_assoc in E. apply app_inj_tail in E as (-> & ->). apply take_mono. apply IH. exists pre, x, post. auto.
Qed.
Lemma acc_global l : forall v, dget "GLO" (acc l) = Some v <-> exists x post, l = x :: post /\ is_global x /\ fa_val x = v.
Proof.
  intros v. induction l as [|y l IH] using rev_ind.
  - cbn. split; [discriminate|]. intros (x & post & E & _). discriminate.
  - rewrite acc_snoc. destruct l as [|z l].
    + cbn [acc fold_left app]. unfold take, is_global. split.
      * intros E. exists y, []. split; [auto|]. destruct (fa_loc y) as [l0|]; [destruct (eqb_spec l0 "GLO")|].
        -- subst. cbn in E. inversion E; auto.
        -- unfold din in E. cbn [dget] in E. rewrite dget_dset in E. destruct (eqb_spec "GLO" l0); [congruence|discriminate].
        -- cbn in E. inversion E; auto.
      * intros (x & post & E & G & V). inversion E; subst. destruct G as [-> | ->]; [reflexivity|]. rewrite eqb_refl. reflexivity.
    + assert (T : dget "GLO" (take (acc (z :: l)) y) = dget "GLO" (acc (z :: l))).
      { assert (NE : acc (z :: l) <> []) by (pose proof (acc_absorbs (z :: l) z (or_introl eq_refl)) as A; rewrite <- A; apply take_ne).
        unfold take. destruct (fa_loc y) as [l0|]; [destruct (eqb_spec l0 "GLO")|]; try (destruct (acc (z :: l)); [congruence|auto]).
        destruct (din l0 _); [auto|]. rewrite dget_dset. destruct (eqb_spec "GLO" l0); [congruence|auto]. }
      rewrite T, IH. split; intros (x & post & E & H).
      * inversion E; subst. exists x, (post ++ [y]). auto.
      * inversion E; subst. exists x, l. auto.
Qed.
Definition of_flow (f : nat) (l : list ifac) : list ifac := filter (fun x => Nat.eqb (fa_flow x) f) l.
Lemma filter_split {A} (g : A -> bool) l : forall pre x post, filter g l = pre ++ x :: post ->
  exists pre' post', l = pre' ++ x :: post' /\ filter g pre' = pre /\ g x = true.
Proof.
  induction l as [|y l IH]; intros pre x post E; cbn in E; [destruct pre; discriminate|]. destruct (g y) eqn:G.
  - destruct pre as [|z pre].
    + inversion E; subst. exists [], l. auto.
    + inversion E; subst. destruct (IH _ _ _ H1) as (pre' & post' & -> & <- & Gx). exists (z :: pre'), post'. cbn. rewrite G. auto.
  - destruct (IH _ _ _ E) as (pre' & post' & -> & <- & Gx). exists (y :: pre'), post'. cbn. rewrite G. auto.
Qed.
Lemma factors_acc j f fe m : (dget (LM m) (fe_ch fe) = match acc (of_flow f (m_factors j)) with [] => None | d => Some d end) ->
  factors_are j f (cf fe (LM m)).
Proof.
  intros E loc. set (L := of_flow f (m_factors j)) in *.
  assert (C : cf fe (LM m) loc = match dget loc (acc L) with Some v => v | None => match dget "GLO" (acc L) with Some v => v | None => 0%Qc end end).
  { unfold cf. rewrite E. destruct (acc L); reflexivity. }
  assert (R : forall v, loc <> "GLO" -> (regional (m_factors j) f loc v <-> dget loc (acc L) = Some v)).
  { intros v NG. rewrite (acc_region L loc v NG). split.
    - intros (pre & x & post & EQ & H1 & H2 & H3 & H4). exists (of_flow f pre), x, (of_flow f post). unfold L, of_flow. rewrite EQ, filter_app. cbn [filter]. rewrite (proj2 (Nat.eqb_eq _ _) H1).
      split; [auto|]. split; [auto|]. split; [auto|]. intros y Iy. apply filter_In in Iy as (Iy & Fy). apply Nat.eqb_eq in Fy. intros Ly. apply (H4 y Iy). auto.
    - intros (pre & x & post & EQ & H1 & H2 & H3). destruct (filter_split _ _ _ _ _ EQ) as (pre' & post' & -> & <- & Gx). apply Nat.eqb_eq in Gx.
      exists pre', x, post'. split; [auto|]. split; [auto|]. split; [auto|]. split; [auto|]. intros y Iy (Fy & Ly). apply (H3 y); [|auto]. apply filter_In. split; [auto|]. now apply Nat.eqb_eq. }
  assert (G : forall v, leads (m_factors j) f v <-> dget "GLO" (acc L) = Some v).
  { intros v. rewrite (acc_global L v). split.
    - intros (pre & x & post & EQ & H1 & H2 & H3 & H4). exists x, (of_flow f post). unfold L, of_flow. rewrite EQ, filter_app. cbn [filter]. rewrite (proj2 (Nat.eqb_eq _ _) H1).
      rewrite OlcaProofs.filter_false; [auto|]. intros y Iy. apply Nat.eqb_neq. auto.
    - intros (x & post & EQ & H1 & H2). destruct (filter_split _ _ [] x post EQ) as (pre' & post' & -> & FP & Gx). apply Nat.eqb_eq in Gx.
      exists pre', x, post'. split; [auto|]. split; [auto|]. split; [auto|]. split; [auto|]. intros y Iy Fy. assert (X : In y (filter (fun x => Nat.eqb (fa_flow x) f) pre')) by (apply filter_In; split; [auto|]; now apply Nat.eqb_eq).
      rewrite FP in X. destruct X. }
  rewrite C. split.
  - intros v NG H. apply R in H; [|auto]. now rewrite H.
  - intros NR. split.
    + intros v H. apply G in H. destruct (dget loc (acc L)) as [w|] eqn:El; [|now rewrite H].
      destruct (String.eqb_spec loc "GLO") as [->|NG]; [congruence|]. exfalso. destruct NR as [|NR]; [contradiction|]. apply (NR w). apply R; auto.
    + intros H. destruct (dget loc (acc L)) as [w|] eqn:El.
      * destruct (String.eqb_spec loc "GLO") as [->|NG]; [exfalso; apply (H w); apply G; auto|]. exfalso. destruct NR as [|NR]; [contradiction|]. apply (NR w). apply R; auto.
      * destruct (dget "GLO" (acc L)) as [w|] eqn:Eg; [|auto]. exfalso. apply (H w). apply G; auto.
Qed.

(** ** Quantities and flows *)
Section S.
Context (s : source).
Definition qinv (a : arch) : Prop := forall q e, dget q (a_q a) = Some e ->
  exists g G u t, dget q (s_fp s) = Some g /\ dget g (s_ug s) = Some G /\ nth_error (g_units G) (g_ref G) = Some u /\ unit_table (g_units G) [] = IOk t /\ e = Quantity (u_name u) (Some t).
Definition same_fmp (a b : arch) : Prop := a_f b = a_f a /\ a_m b = a_m a /\ a_p b = a_p a /\ a_loaded b = a_loaded a.
Definition qgrows (a b : arch) : Prop := forall q e, dget q (a_q a) = Some e -> dget q (a_q b) = Some e.
Lemma create_quantity_props q a a' r : create_quantity s q a = (a', r) -> qinv a ->
  qinv a' /\ qgrows a a' /\ same_fmp a a' /\ match r with IOk e => readable s q /\ dget q (a_q a') = Some e | IErr IKeyError => ~ readable s q | IErr _ => True end.
Proof.
  intros E I. unfold create_quantity in E. destruct (dget q (a_q a)) as [e|] eqn:Eq.
  - inversion E; subst. split; [auto|]. split; [intros ? ?; auto|]. split; [repeat split|]. destruct (I _ _ Eq) as (g & G & u & t & A & B & _). split; [exists g, G; auto|auto].
  - destruct (dget q (s_fp s)) as [g|] eqn:Eg; [|inversion E; subst; split; [auto|]; split; [intros ? ?; auto|]; split; [repeat split|]; intros (g & G & A & _); congruence].
    unfold create_unit in E. destruct (dget g (s_ug s)) as [G|] eqn:EG; [|inversion E; subst; split; [auto|]; split; [intros ? ?; auto|]; split; [repeat split|]; intros (g' & G & A & B); congruence].
    assert (UK : forall l t, unit_table l t <> IErr IKeyError). { induction l as [|z l IH]; intros t; cbn [unit_table]; [discriminate|]. destruct (eqb _ _); [discriminate|apply IH]. }
    destruct (nth_error (g_units G) (g_ref G)) as [u|] eqn:Eu; [|inversion E; subst; split; [auto|]; split; [intros ? ?; auto|]; split; [repeat split|]; exact Logic.I].
    destruct (unit_table (g_units G) []) as [t|x] eqn:Et.
    + inversion E; subst. split; [|split; [|split; [repeat split|]]].
      * intros q' e'. cbn [put_q a_q]. rewrite dget_dset. destruct (eqb_spec q' q) as [->|]; [|apply I]. intros EE; inversion EE; subst. exists g, G, u, t. auto.
      * intros q' e' E'. cbn [put_q a_q]. rewrite dget_dset. destruct (eqb_spec q' q) as [->|]; [congruence|auto].
      * split; [exists g, G; auto|]. cbn [put_q a_q]. now rewrite dget_dset_same.
    + inversion E; subst. split; [auto|]. split; [intros ? ?; auto|]. split; [repeat split|]. destruct x; auto. exfalso. eapply UK; eauto.
Qed.
Lemma same_fmp_trans a b c : same_fmp a b -> same_fmp b c -> same_fmp a c.
Proof. unfold same_fmp. intuition congruence. Qed.

(** After the properties [pre] of a flow *)
Record props_done (r : nat) (pre : list iprop) (fe : flowe) : Prop := {
  pd_val : forall pre1 x post, pre = pre1 ++ x :: post -> (forall y, In y pre1 -> ip_q y <> ip_q x) -> readable s (ip_q x) -> dget (FP (ip_q x)) (fe_ch fe) = Some [("GLO", ip_val x)];
  pd_none : forall q, (forall x, In x pre -> ip_q x <> q) \/ ~ readable s q -> dget (FP q) (fe_ch fe) = None;
  pd_lm : forall m, dget (LM m) (fe_ch fe) = None;
  pd_ref : NoDup (map ip_id pre) -> forall q, fe_ref fe = Some q <-> exists x, In x pre /\ ip_id x = r /\ ip_q x = q /\ readable s q }.
Lemma first_at (l : list iprop) q : (exists x, In x l /\ ip_q x = q) -> exists pre x post, l = pre ++ x :: post /\ ip_q x = q /\ forall y, In y pre -> ip_q y <> q.
Proof.
  induction l as [|y l IH]; intros (x & I & E); [destruct I|]. destruct (Nat.eq_dec (ip_q y) q) as [Ey|N].
  - exists [], y, l. split; [auto|]. split; [auto|]. intros z [].
  - destruct I as [-> | I]; [contradiction|]. destruct IH as (pre & z & post & -> & Ez & H); [eauto|]. exists (y :: pre), z, post. split; [auto|]. split; [auto|]. intros w [<- | Iw]; auto.
Qed.
Lemma listed_dec (l : list iprop) q : (exists x, In x l /\ ip_q x = q) \/ (forall x, In x l -> ip_q x <> q).
Proof.
  destruct (existsb (fun x => Nat.eqb (ip_q x) q) l) eqn:E.
  - apply existsb_exists in E as (x & I & E). apply Nat.eqb_eq in E. left. eauto.
  - right. intros x I EQ. rewrite <- not_true_iff_false in E. apply E. apply existsb_exists. exists x. split; [auto|]. now apply Nat.eqb_eq.
Qed.
Lemma flow_props_props r l : forall pre fe a a' res, flow_props s r l fe a = (a', res) -> qinv a -> props_done r pre fe ->
  qinv a' /\ qgrows a a' /\ same_fmp a a' /\ match res with IOk fe' => props_done r (pre ++ l) fe' | IErr IKeyError => False | IErr _ => True end.
Proof.
  induction l as [|x l IH]; intros pre fe a a' res E I PD; cbn [flow_props] in E.
  - inversion E; subst. split; [auto|]. split; [intros ? ?; auto|]. split; [repeat split|]. now rewrite app_nil_r.
  - destruct (create_quantity s (ip_q x) a) as (a1, [e|er]) eqn:E1; destruct (create_quantity_props _ _ _ _ E1 I) as (I1 & G1 & S1 & R1).
    + destruct R1 as (RD & _). destruct (Nat.eqb (ip_id x) r && negb (eqb (ip_val x) 1%Qc)); [inversion E; subst; auto 6|].
      replace (pre ++ x :: l) with ((pre ++ [x]) ++ l) by (rewrite <- app_assoc; reflexivity).
      eapply IH with (pre := pre ++ [x]) in E; auto.
      * destruct E as (A & B & C & D). split; [auto|]. split; [intros ? ? ?; auto|]. split; [eapply same_fmp_trans; eauto|]. exact D.
      * set (locs := locs_of fe (FP (ip_q x))). assert (CH : forall q, dget (FP q) (if din "GLO" locs then fe_ch fe else dset (FP (ip_q x)) (dset "GLO" (ip_val x) locs) (fe_ch fe)) =
            if eqb q (ip_q x) then match dget (FP q) (fe_ch fe) with Some v => Some v | None => Some [("GLO", ip_val x)] end else dget (FP q) (fe_ch fe)).
        { intros q. assert (LC : locs = [] /\ dget (FP (ip_q x)) (fe_ch fe) = None \/ din "GLO" locs = true /\ dget (FP (ip_q x)) (fe_ch fe) <> None).
          { destruct (listed_dec pre (ip_q x)) as [H | H].
            - right. destruct (first_at _ _ H) as (p1 & z & p2 & EP & Ez & HP). assert (Q : dget (FP (ip_q z)) (fe_ch fe) = Some [("GLO", ip_val z)]).
              { eapply (pd_val _ _ _ PD); eauto; rewrite Ez; auto. }
              rewrite Ez in Q. unfold locs, locs_of. rewrite Q. split; [reflexivity|discriminate].
            - left. assert (Q : dget (FP (ip_q x)) (fe_ch fe) = None) by (apply (pd_none _ _ _ PD); auto). unfold locs, locs_of. rewrite Q. auto. }
          destruct LC as [(L0 & Q0) | (L0 & Q0)].
          - rewrite L0. cbn [din dget]. rewrite dget_dset. destruct (eqb_spec (FP q) (FP (ip_q x))) as [EE|NE].
            + inversion EE; subst q. rewrite eqb_refl, Q0. reflexivity.
            + destruct (eqb_spec q (ip_q x)); [congruence|auto].
          - rewrite L0. destruct (eqb_spec q (ip_q x)) as [->|]; [|auto]. destruct (dget (FP (ip_q x)) (fe_ch fe)); [auto|congruence]. }
        assert (CM : forall m, dget (LM m) (if din "GLO" locs then fe_ch fe else dset (FP (ip_q x)) (dset "GLO" (ip_val x) locs) (fe_ch fe)) = None).
        { intros m. destruct (din "GLO" locs); [apply (pd_lm _ _ _ PD)|]. rewrite dget_dset. destruct (eqb_spec (LM m) (FP (ip_q x))); [discriminate|apply (pd_lm _ _ _ PD)]. }
        constructor; cbn [fe_ch fe_ref].
        -- intros p1 z p2 EP HN RZ. rewrite CH. destruct p2 as [|w p2 _] using rev_ind.
           ++ apply app_inj_tail in EP as (-> & ->). rewrite eqb_refl. rewrite (pd_none _ _ _ PD); [auto|]. left. auto.
           ++ rewrite app_comm_cons, app_assoc in EP. apply app_inj_tail in EP as (EP & <-). rewrite (pd_val _ _ _ PD p1 z p2 EP HN RZ). destruct (eqb _ _); auto.
        -- intros q H. rewrite CH. destruct (eqb_spec q (ip_q x)) as [->|].
           ++ destruct H as [H | H]; [|contradiction]. exfalso. apply (H x); [rewrite in_app_iff; cbn; auto|auto].
           ++ apply (pd_none _ _ _ PD). destruct H as [H | H]; [left; intros z Iz; apply H; rewrite in_app_iff; auto|auto].
        -- exact CM.
        -- intros ND q. rewrite map_app in ND. cbn [map] in ND. assert (ND1 : NoDup (map ip_id pre)) by (apply NoDup_remove in ND as (ND & _); now rewrite app_nil_r in ND).
           assert (NI : ~ In (ip_id x) (map ip_id pre)) by (apply NoDup_remove in ND as (_ & ND); now rewrite app_nil_r in ND).
           destruct (Nat.eqb_spec (ip_id x) r) as [ER|NR].
           ++ split; [intros EE; inversion EE; subst q; exists x; rewrite in_app_iff; cbn; auto|]. intros (z & Iz & Zr & Zq & Rz). rewrite in_app_iff in Iz. destruct Iz as [Iz | [<- | []]]; [|congruence].
              exfalso. apply NI. apply in_map_iff. exists z. split; [congruence|auto].
           ++ rewrite (pd_ref _ _ _ PD ND1). split; intros (z & Iz & H); exists z; rewrite in_app_iff in *; [auto|]. destruct Iz as [Iz | [<- | []]]; [auto|]. destruct H; contradiction.
    + assert (CASE : er = IKeyError /\ flow_props s r l fe a1 = (a', res) \/ a' = a1 /\ res = IErr er /\ er <> IKeyError).
      { destruct er; try (right; inversion E; subst; split; [auto|]; split; [auto|discriminate]). left. auto. }
      destruct CASE as [(-> & E') | (-> & -> & NK)]; [|split; [auto|]; split; [auto|]; split; [auto|]; destruct er; auto].
      replace (pre ++ x :: l) with ((pre ++ [x]) ++ l) by (rewrite <- app_assoc; reflexivity).
      eapply IH with (pre := pre ++ [x]) in E'; auto.
      * destruct E' as (A & B & C & D). split; [auto|]. split; [intros ? ? ?; auto|]. split; [eapply same_fmp_trans; eauto|]. exact D.
      * constructor.
        -- intros p1 z p2 EP HN RZ. destruct p2 as [|w p2 _] using rev_ind.
           ++ apply app_inj_tail in EP as (-> & ->). contradiction.
           ++ rewrite app_comm_cons, app_assoc in EP. apply app_inj_tail in EP as (EP & <-). exact (pd_val _ _ _ PD p1 z p2 EP HN RZ).
        -- intros q H. apply (pd_none _ _ _ PD). destruct H as [H | H]; [left; intros z Iz; apply H; rewrite in_app_iff; auto|auto].
        -- apply (pd_lm _ _ _ PD).
        -- intros ND q. rewrite map_app in ND. cbn [map] in ND. assert (ND1 : NoDup (map ip_id pre)) by (apply NoDup_remove in ND as (ND & _); now rewrite app_nil_r in ND).
           rewrite (pd_ref _ _ _ PD ND1). split; intros (z & Iz & H); exists z; rewrite in_app_iff in *; [auto|]. destruct Iz as [Iz | [<- | []]]; [auto|].
           exfalso. destruct H as (_ & <- & RZ). contradiction.
Qed.
Lemma props_start r : props_done r [] (FE None []).
Proof.
  constructor; cbn; auto.
  - intros p1 x p2 E. destruct p1; discriminate.
  - intros _ q. split; [discriminate|intros (x & [] & _)].
Qed.
Lemma props_flow_is j fe : props_done (fl_ref j) (fl_props j) fe -> flow_is s j fe.
Proof.
  intros PD. split; [|split].
  - intros q H R. destruct (first_at _ _ H) as (pre & x & post & E & Eq & HN). exists pre, x, post. split; [auto|]. split; [auto|]. split; [auto|]. intros loc.
    subst q. unfold cf. rewrite (pd_val _ _ _ PD pre x post E) by auto. cbn [dget]. destruct (eqb loc "GLO"); reflexivity.
  - apply (pd_none _ _ _ PD).
  - apply (pd_ref _ _ _ PD).
Qed.

(** ** The archive *)
Definition lm (fe : flowe) (m : nat) (d : dict string Qc) : Prop := dget (LM m) (fe_ch fe) = match d with [] => None | _ => Some d end.
Definition all_of (M : imeth) (f : nat) : dict string Qc := acc (of_flow f (m_factors M)).
Definition fok (f : nat) (fe : flowe) : Prop :=
  (match dget f (s_fl s) with Some j => flow_is s j fe | None => fe_ref fe = None /\ forall q, dget (FP q) (fe_ch fe) = None end) /\
  (forall m, match dget m (s_me s) with None => dget (LM m) (fe_ch fe) = None | Some M => exists k, lm fe m (acc (firstn k (of_flow f (m_factors M)))) end).
Definition inv (a : arch) : Prop := qinv a /\ forall f fe, dget f (a_f a) = Some fe -> fok f fe.
(** A flow may only gain LCIA factors. *)
Definition fgrows (f : nat) (fe fe' : flowe) : Prop :=
  fe_ref fe' = fe_ref fe /\ (forall q, dget (FP q) (fe_ch fe') = dget (FP q) (fe_ch fe)) /\
  (forall m M, dget m (s_me s) = Some M -> lm fe m (all_of M f) -> lm fe' m (all_of M f)).
Record later (a b : arch) : Prop := {
  l_q : qgrows a b;
  l_f : forall f fe, dget f (a_f a) = Some fe -> exists fe', dget f (a_f b) = Some fe' /\ fgrows f fe fe';
  l_m : forall m e, dget m (a_m a) = Some e -> dget m (a_m b) = Some e;
  l_p : forall i p, dget i (a_p a) = Some p -> dget i (a_p b) = Some p }.
Lemma fgrows_refl f fe : fgrows f fe fe.
Proof. split; [auto|]. split; auto. Qed.
Lemma later_refl a : later a a.
Proof. constructor; [intros ? ?; auto| |auto|auto]. intros f fe E. exists fe. split; [auto|apply fgrows_refl]. Qed.
Lemma later_trans a b c : later a b -> later b c -> later a c.
Proof.
  intros [A1 A2 A3 A4] [B1 B2 B3 B4]. constructor.
  - intros q e H. apply B1. apply A1. exact H.
  - intros f fe H. destruct (A2 _ _ H) as (f1 & E1 & X1 & X2 & X3). destruct (B2 _ _ E1) as (f2 & E2 & Y1 & Y2 & Y3). exists f2. split; [auto|]. split; [congruence|]. split; [intros q; rewrite Y2; auto|]. eauto.
  - auto.
  - auto.
Qed.
Lemma fmp_later a b : same_fmp a b -> qgrows a b -> later a b.
Proof. intros (A & B & C & D) Q. constructor; [exact Q| | |]; [rewrite A; intros f fe E; exists fe; split; [auto|apply fgrows_refl]|rewrite B; auto|rewrite C; auto]. Qed.
Lemma fmp_inv a b : same_fmp a b -> qinv b -> inv a -> inv b.
Proof. intros (A & _) Q (_ & F). split; [auto|]. rewrite A. auto. Qed.
Lemma fresh_lm f fe : (forall m, dget (LM m) (fe_ch fe) = None) -> forall m, match dget m (s_me s) with None => dget (LM m) (fe_ch fe) = None | Some M => exists k, lm fe m (acc (firstn k (of_flow f (m_factors M)))) end.
Proof. intros H m. destruct (dget m (s_me s)) as [M|]; [|auto]. exists 0. unfold lm. cbn. auto. Qed.
Lemma put_f_later a f fe : dget f (a_f a) = None -> later a (put_f a f fe).
Proof.
  intros N. constructor; cbn; auto; [intros ? ?; auto|]. intros f' fe' E. rewrite dget_dset. destruct (eqb_spec f' f); [congruence|]. exists fe'. split; [auto|apply fgrows_refl].
Qed.
Lemma create_flow_props f a a' r : create_flow s f a = (a', r) -> inv a ->
  inv a' /\ later a a' /\ a_m a' = a_m a /\ a_p a' = a_p a /\ a_loaded a' = a_loaded a /\
  (forall g, g <> f -> dget g (a_f a') = dget g (a_f a)) /\
  match r with
  | IOk fe => dget f (a_f a') = Some fe /\ (dget f (a_f a) = None -> forall m, dget (LM m) (fe_ch fe) = None) /\ (dget f (a_f a) <> None -> a' = a)
  | IErr IKeyError => dget f (a_f a) = None /\ dget f (s_fl s) = None /\ a' = a
  | IErr _ => True end.
Proof.
  intros E (Q & F). unfold create_flow in E. destruct (dget f (a_f a)) as [e|] eqn:Ef.
  - inversion E; subst. split; [split; auto|]. split; [apply later_refl|]. repeat (split; [solve [auto]|]). split; [discriminate|auto].
  - destruct (dget f (s_fl s)) as [j|] eqn:Ej; [|inversion E; subst; split; [split; auto|]; split; [apply later_refl|]; repeat (split; [solve [auto]|]); auto].
    destruct (flow_props s (fl_ref j) (fl_props j) (FE None []) a) as (a1, [fe|x]) eqn:E1; destruct (flow_props_props _ _ [] _ _ _ _ E1 Q (props_start _)) as (Q1 & G1 & S1 & R1).
    + inversion E; subst. pose proof S1 as (SA & SB & SC & SD). assert (L1 : later a a1) by now apply fmp_later.
      split; [|split; [|split; [|split; [|split; [|split]]]]]; cbn [put_f a_m a_p a_loaded a_f]; auto.
      * split; [exact Q1|]. intros g ge. cbn [put_f a_f]. rewrite dget_dset. destruct (eqb_spec g f) as [->|]; [|rewrite SA; apply F].
        intros EE; inversion EE; subst. split; [rewrite Ej; now apply props_flow_is|]. apply fresh_lm. apply (pd_lm _ _ _ R1).
      * eapply later_trans; [exact L1|]. apply put_f_later. congruence.
      * intros g N. rewrite dget_dset. destruct (eqb_spec g f); [contradiction|congruence].
      * rewrite dget_dset_same. split; [auto|]. split; [intros _; apply (pd_lm _ _ _ R1)|congruence].
    + inversion E; subst. destruct (S1) as (SA & SB & SC & SD). split; [eapply fmp_inv; eauto; split; auto|]. split; [now apply fmp_later|]. repeat (split; [solve [auto]|]).
      split; [intros g N; congruence|]. destruct x; auto. destruct R1.
Qed.
Lemma load_flows_props l : forall a a' r, load_flows s l a = (a', r) -> inv a -> inv a' /\ later a a' /\ a_m a' = a_m a /\ a_p a' = a_p a /\ a_loaded a' = a_loaded a.
Proof.
  induction l as [|x l IH]; intros a a' r E I; cbn [load_flows] in E; [inversion E; subst; split; [auto|]; split; [apply later_refl|auto]|].
  destruct (create_flow s (ix_flow x) a) as (a1, [fe|er]) eqn:E1; destruct (create_flow_props _ _ _ _ E1 I) as (I1 & L1 & M1 & P1 & D1 & O1 & R1).
  - destruct (IH _ _ _ E I1) as (A & B & C & D & F). split; [auto|]. split; [eapply later_trans; eauto|]. repeat split; congruence.
  - assert (CASE : er = IKeyError /\ load_flows s l (put_f a1 (ix_flow x) (FE None [])) = (a', r) \/ a' = a1 /\ er <> IKeyError).
    { destruct er; try (right; inversion E; subst; split; [auto|discriminate]). left. auto. }
    destruct CASE as [(-> & E') | (-> & NK)]; [|auto 6]. destruct R1 as (N & NF & ->).
    assert (I2 : inv (put_f a (ix_flow x) (FE None []))).
    { destruct I as (Q & F). split; [exact Q|]. intros g ge. cbn [put_f a_f]. rewrite dget_dset. destruct (eqb_spec g (ix_flow x)) as [->|]; [|apply F].
      intros EE; inversion EE; subst. split; [rewrite NF; auto|]. now apply fresh_lm. }
    destruct (IH _ _ _ E' I2) as (A & B & C & D & F). split; [auto|]. split; [eapply later_trans; [|eauto]; now apply put_f_later|]. auto.
Qed.

(** ** The factors of a method *)
Lemma load_factor_take fe m d x : lm fe m d ->
  if has_char fe (LM m) (fa_loc x) then take d x = d
  else dset (match fa_loc x with None => "GLO" | Some l => l end) (fa_val x) (locs_of fe (LM m)) = take d x.
Proof.
  unfold lm, has_char, locs_of, take. intros E. rewrite E. destruct d as [|c d].
  - destruct (fa_loc x) as [l|]; [|reflexivity]. destruct (eqb_spec l "GLO") as [->|]; reflexivity.
  - destruct (fa_loc x) as [l|]; [|reflexivity]. destruct (eqb l "GLO"); [reflexivity|]. cbn [orb]. destruct (din l (c :: d)); reflexivity.
Qed.
Lemma of_flow_app f l1 l2 : of_flow f (l1 ++ l2) = of_flow f l1 ++ of_flow f l2.
Proof. apply filter_app. Qed.
Lemma firstn_in {A} (l1 : list A) x l2 k : length l1 < k -> In x (firstn k (l1 ++ x :: l2)).
Proof.
  intros H. rewrite firstn_app. apply in_app_iff. right. destruct (k - length l1) as [|n] eqn:E; [lia|]. cbn. auto.
Qed.
Lemma firstn_snoc {A} (l1 : list A) x l2 : firstn (S (length l1)) (l1 ++ x :: l2) = firstn (length l1) (l1 ++ x :: l2) ++ [x].
Proof. induction l1 as [|y l1 IH]; cbn; [reflexivity|]. f_equal. exact IH. Qed.
Definition passed (m : nat) (M : imeth) (b : bool) (don : list ifac) (a : arch) : Prop :=
  (forall f fe, dget f (a_f a) = Some fe -> exists k, length (of_flow f don) <= k /\ lm fe m (acc (firstn k (of_flow f (m_factors M))))) /\
  (b = true -> forall x, In x don -> dget (fa_flow x) (a_f a) <> None).
Lemma of_flow_nil f l : (forall x, In x l -> fa_flow x <> f) -> of_flow f l = [].
Proof. intros H. apply OlcaProofs.filter_false. intros x I. apply Nat.eqb_neq. auto. Qed.
Lemma lm_dset_same fe m d r : d <> [] -> lm (FE r (dset (LM m) d (fe_ch fe))) m d.
Proof. intros N. unfold lm. cbn [fe_ch]. rewrite dget_dset_same. destruct d; [congruence|auto]. Qed.
Lemma flow_is_ext j fe fe' : fe_ref fe' = fe_ref fe -> (forall q, dget (FP q) (fe_ch fe') = dget (FP q) (fe_ch fe)) -> flow_is s j fe -> flow_is s j fe'.
Proof.
  intros R C (A & B & D). split; [|split].
  - intros q H1 H2. destruct (A q H1 H2) as (pre & x & post & E1 & E2 & E3 & E4). exists pre, x, post. repeat (split; [solve [auto]|]). intros loc. specialize (E4 loc). unfold cf in *. now rewrite C.
  - intros q H. rewrite C. auto.
  - intros ND q. rewrite R. auto.
Qed.
Definition same_mpl (a b : arch) : Prop := a_m b = a_m a /\ a_p b = a_p a /\ a_loaded b = a_loaded a.
Lemma full_firstn M f k : length (of_flow f (m_factors M)) <= k -> acc (firstn k (of_flow f (m_factors M))) = all_of M f.
Proof. intros H. unfold all_of. now rewrite firstn_all2. Qed.
Lemma load_factor_props m M b x don rest a a' r : load_factor s m b x a = (a', r) -> dget m (s_me s) = Some M -> m_factors M = don ++ x :: rest ->
  inv a -> passed m M b don a ->
  inv a' /\ later a a' /\ same_mpl a a' /\ (b = false -> forall f, dget f (a_f a) = None -> dget f (a_f a') = None) /\ match r with IOk _ => passed m M b (don ++ [x]) a' | IErr _ => True end.
Proof.
  intros E EM EL I (P1 & P2). set (f := fa_flow x). unfold load_factor in E. fold f in E.
  assert (OL : of_flow f (m_factors M) = of_flow f don ++ x :: of_flow f rest).
  { rewrite EL, of_flow_app. unfold of_flow at 2. cbn [filter]. fold f. rewrite Nat.eqb_refl. reflexivity. }
  assert (OX : forall g, g <> f -> of_flow g (don ++ [x]) = of_flow g don).
  { intros g N. rewrite of_flow_app. rewrite (of_flow_nil g [x]); [apply app_nil_r|]. intros y [<- | []]. fold f. congruence. }
  assert (OF : length (of_flow f (don ++ [x])) = S (length (of_flow f don))).
  { rewrite of_flow_app, app_length. unfold of_flow at 2. cbn [filter]. fold f. rewrite Nat.eqb_refl. cbn. lia. }
  assert (SK : dget f (a_f a) = None /\ b = false /\ (a', r) = (a, IOk tt) \/
               (b = true \/ dget f (a_f a) <> None) /\ match create_flow s f a with
      | (a1, IErr e) => (a1, IErr e)
      | (a1, IOk fe) =>
          if has_char fe (LM m) (fa_loc x) then (a1, IOk tt)
          else let l := match fa_loc x with None => "GLO" | Some l => l end in
               (put_f a1 f (FE (fe_ref fe) (dset (LM m) (dset l (fa_val x) (locs_of fe (LM m))) (fe_ch fe))), IOk tt)
      end = (a', r)).
  { destruct (dget f (a_f a)) as [e|] eqn:Ef; [right; split; [right; discriminate|exact E]|]. destruct b; [right; split; [auto|exact E]|]. left. auto. }
  clear E. destruct SK as [(N & -> & E) | (HB & E)].
  - inversion E; subst. split; [auto|]. split; [apply later_refl|]. split; [repeat split|]. split; [auto|]. split; [|discriminate].
    intros g ge Eg. destruct (Nat.eq_dec g f) as [->|NE]; [congruence|]. rewrite OX by auto. auto.
  - destruct (create_flow s f a) as (a1, [fe|er]) eqn:E1; destruct (create_flow_props _ _ _ _ E1 I) as (I1 & L1 & M1 & R1 & D1 & O1 & X1).
    2:{ inversion E; subst. split; [auto|]. split; [auto|]. split; [repeat split; auto|]. split; [|auto]. intros -> g Ng. destruct (Nat.eq_dec g f) as [->|NE]; [|rewrite O1; auto].
        destruct HB as [|HB]; [discriminate|]. contradiction. }
    destruct X1 as (H1 & HN & HS).
    assert (K : exists k, length (of_flow f don) <= k /\ lm fe m (acc (firstn k (of_flow f (m_factors M))))).
    { destruct (dget f (a_f a)) as [fe0|] eqn:Ef.
      - assert (a1 = a) by (apply HS; discriminate). subst a1. rewrite H1 in Ef. inversion Ef; subst fe0. apply P1. auto.
      - exists 0. split.
        + rewrite of_flow_nil; [auto|]. intros y Iy Ey. destruct HB as [-> | HB]; [|congruence]. apply (P2 eq_refl y Iy). congruence.
        + unfold lm. cbn. apply HN. auto. }
    destruct K as (k & LK & K). pose proof (load_factor_take fe m _ x K) as T.
    assert (BF : b = false -> forall g, dget g (a_f a) = None -> dget g (a_f a1) = None).
    { intros -> g Ng. destruct HB as [|HB]; [discriminate|]. rewrite (HS HB). auto. }
    assert (PB : b = true -> forall y, In y (don ++ [x]) -> dget (fa_flow y) (a_f a1) <> None).
    { intros HT y Iy. apply in_app_iff in Iy as [Iy | [<- | []]]; [|fold f; congruence].
      destruct (dget (fa_flow y) (a_f a)) as [e|] eqn:Ey; [|exfalso; apply (P2 HT y Iy Ey)]. destruct (l_f _ _ L1 _ _ Ey) as (e' & Ee & _). congruence. }
    assert (PO : forall g ge, g <> f -> dget g (a_f a1) = Some ge -> exists k, length (of_flow g (don ++ [x])) <= k /\ lm ge m (acc (firstn k (of_flow g (m_factors M))))).
    { intros g ge NE Eg. rewrite OX by auto. rewrite O1 in Eg by auto. auto. }
    destruct (has_char fe (LM m) (fa_loc x)).
    + inversion E; subst. split; [auto|]. split; [auto|]. split; [repeat split; auto|]. split; [auto|]. split; [|auto].
      intros g ge Eg. destruct (Nat.eq_dec g f) as [->|NE]; [|eauto]. assert (ge = fe) by congruence. subst ge. rewrite OF.
      destruct (Nat.eq_dec k (length (of_flow f don))) as [->|NK]; [|exists k; split; [lia|auto]].
      exists (S (length (of_flow f don))). split; [lia|]. rewrite OL in *. rewrite firstn_snoc, acc_snoc, T. exact K.
    + cbv zeta in E. rewrite T in E. inversion E; subst a' r. clear E. set (d := acc (firstn k (of_flow f (m_factors M)))) in *.
      set (fe' := FE (fe_ref fe) (dset (LM m) (take d x) (fe_ch fe))).
      assert (K' : exists k', S (length (of_flow f don)) <= k' /\ lm fe' m (acc (firstn k' (of_flow f (m_factors M)))) ).
      { destruct (Nat.eq_dec k (length (of_flow f don))) as [EK|NK].
        - exists (S (length (of_flow f don))). split; [lia|]. rewrite OL. rewrite firstn_snoc, acc_snoc, <- OL, <- EK. apply lm_dset_same, take_ne.
        - exists k. split; [lia|]. fold d. assert (A : take d x = d). { apply acc_absorbs. rewrite OL. apply firstn_in. lia. }
          unfold fe'. rewrite A. apply lm_dset_same. rewrite <- A. apply take_ne. }
      assert (FR : fgrows f fe fe').
      { split; [reflexivity|]. split.
        - intros q. unfold fe'. cbn [fe_ch]. rewrite dget_dset. destruct (eqb_spec (FP q) (LM m)); [discriminate|auto].
        - intros m' M' EM' FU. unfold lm, fe' in *. cbn [fe_ch]. rewrite dget_dset. destruct (eqb_spec (LM m') (LM m)) as [EE|]; [|auto]. inversion EE; subst m'.
          assert (M' = M) by congruence. subst M'. assert (A : all_of M f = d).
          { unfold lm in K. rewrite K in FU. clear -FU. destruct d, (all_of M f); try discriminate; congruence. }
          assert (AB : take d x = d). { rewrite <- A. unfold all_of. apply acc_absorbs. rewrite OL. apply in_app_iff. right. cbn. auto. }
          rewrite AB, A. destruct d; [exfalso; apply (take_ne [] x AB)|auto]. }
      assert (FO : fok f fe').
      { destruct I1 as (Q1 & F1). destruct (F1 _ _ H1) as (A & B). destruct FR as (FR1 & FR2 & FR3). split.
        - destruct (dget f (s_fl s)) as [j|]; [eapply flow_is_ext; eauto|]. destruct A as (A1 & A2). split; [congruence|]. intros q. rewrite FR2. auto.
        - intros m'. specialize (B m'). destruct (Nat.eq_dec m' m) as [->|NM].
          + rewrite EM. destruct K' as (k' & _ & K'). eauto.
          + assert (Z : dget (LM m') (fe_ch fe') = dget (LM m') (fe_ch fe)) by (unfold fe'; cbn [fe_ch]; rewrite dget_dset; destruct (eqb_spec (LM m') (LM m)); [congruence|auto]).
            unfold lm in *. rewrite Z. exact B. }
      split; [|split; [|split; [|split; [|split]]]].
      * destruct I1 as (Q1 & F1). split; [exact Q1|]. intros g ge. cbn [put_f a_f]. rewrite dget_dset. destruct (eqb_spec g f) as [->|]; [|apply F1]. intros EE; inversion EE; subst. exact FO.
      * eapply later_trans; [exact L1|]. constructor; cbn [put_f a_q a_m a_p a_f]; [intros ? ?; auto| |auto|auto]. intros g ge Eg. rewrite dget_dset. destruct (eqb_spec g f) as [->|]; [|exists ge; split; [auto|apply fgrows_refl]].
        exists fe'. split; [auto|]. assert (ge = fe) by congruence. subst. exact FR.
      * repeat split; auto.
      * intros HF g Ng. cbn [put_f a_f]. rewrite dget_dset. destruct (eqb_spec g f) as [->|]; [|auto]. rewrite (BF HF f Ng) in H1. discriminate.
      * intros g ge. cbn [put_f a_f]. rewrite dget_dset. destruct (eqb_spec g f) as [->|]; [|apply PO; auto]. intros EE; inversion EE; subst. rewrite OF. exact K'.
      * intros HT y Iy. cbn [put_f a_f]. rewrite dget_dset. destruct (eqb_spec (fa_flow y) f); [discriminate|]. apply PB; auto.
Qed.
Lemma same_mpl_trans a b c : same_mpl a b -> same_mpl b c -> same_mpl a c.
Proof. unfold same_mpl. intuition congruence. Qed.
Lemma load_factors_props m M b l : forall don a a' r, load_factors s m b l a = (a', r) -> dget m (s_me s) = Some M -> m_factors M = don ++ l ->
  inv a -> passed m M b don a ->
  inv a' /\ later a a' /\ same_mpl a a' /\ (b = false -> forall f, dget f (a_f a) = None -> dget f (a_f a') = None) /\ match r with IOk _ => passed m M b (m_factors M) a' | IErr _ => True end.
Proof.
  induction l as [|x l IH]; intros don a a' r E EM EL I P; cbn [load_factors] in E.
  - inversion E; subst. split; [auto|]. split; [apply later_refl|]. split; [repeat split|]. split; [auto|]. rewrite EL, app_nil_r. auto.
  - destruct (load_factor s m b x a) as (a1, [u|er]) eqn:E1; destruct (load_factor_props _ _ _ _ _ _ _ _ _ E1 EM EL I P) as (I1 & L1 & S1 & F1 & P1).
    + destruct (IH (don ++ [x]) _ _ _ E EM) as (A & B & C & D & F); [now rewrite <- app_assoc|auto|auto|]. split; [auto|]. split; [eapply later_trans; eauto|]. split; [eapply same_mpl_trans; eauto|]. split; [auto|]. exact F.
    + inversion E; subst. auto 6.
Qed.
(** Every flow held has all its factors of the method [m]. *)
Definition full (m : nat) (M : imeth) (a : arch) : Prop := forall f fe, dget f (a_f a) = Some fe -> lm fe m (all_of M f).
(** Every flow of the method is held. *)
Definition brings (M : imeth) (a : arch) : Prop := forall x, In x (m_factors M) -> dget (fa_flow x) (a_f a) <> None.
Lemma brings_later M a b : later a b -> brings M a -> brings M b.
Proof. intros L B x I. destruct (dget (fa_flow x) (a_f a)) as [fe|] eqn:E; [|exfalso; exact (B x I E)]. destruct (l_f _ _ L _ _ E) as (fe' & E' & _). congruence. Qed.
Lemma brings_full m M a b : dget m (s_me s) = Some M -> later a b -> inv b -> brings M a -> full m M a -> full m M b.
Proof.
  intros EM L (_ & F) B FU f fe E. destruct (dget f (a_f a)) as [fe0|] eqn:E0.
  - destruct (l_f _ _ L _ _ E0) as (fe' & E' & _ & _ & K). assert (fe' = fe) by congruence. subst fe'. apply K; [auto|]. apply FU. auto.
  - assert (NI : of_flow f (m_factors M) = []) by (apply of_flow_nil; intros x I EQ; apply (B x I); congruence).
    destruct (F _ _ E) as (_ & H). specialize (H m). rewrite EM in H. destruct H as (k & H). unfold all_of. rewrite NI in *. now rewrite firstn_nil in H.
Qed.
Lemma passed_start m M b a : inv a -> dget m (s_me s) = Some M -> passed m M b [] a.
Proof.
  intros (_ & F) EM. split; [|intros _ x []]. intros f fe E. destruct (F _ _ E) as (_ & H). specialize (H m). rewrite EM in H. destruct H as (k & H). exists k. cbn. split; [lia|auto].
Qed.
Lemma passed_full m M b a : passed m M b (m_factors M) a -> full m M a.
Proof. intros (P & _) f fe E. destruct (P _ _ E) as (k & LE & H). now rewrite full_firstn in H. Qed.
Lemma create_method_props m M a a' r : create_method s m M a = (a', r) -> dget m (s_me s) = Some M -> inv a ->
  inv a' /\ later a a' /\ a_f a' = a_f a /\ a_p a' = a_p a /\ a_loaded a' = a_loaded a.
Proof.
  intros E EM I. unfold create_method in E. destruct (dget m (a_m a)) as [e|] eqn:Em; [inversion E; subst; split; [auto|]; split; [apply later_refl|auto]|].
  pose proof I as (Q & F).
  destruct (create_quantity s (m_ref M) a) as (a1, [e|er]) eqn:E1; destruct (create_quantity_props _ _ _ _ E1 Q) as (Q1 & G1 & S1 & _); inversion E; subst.
  - assert (L1 : later a a1) by now apply fmp_later. assert (I1 : inv a1) by (eapply fmp_inv; eauto). destruct S1 as (SA & SB & SC & SD).
    split; [exact I1|]. split; [|auto]. eapply later_trans; [exact L1|]. constructor; cbn [put_m a_q a_f a_m a_p]; [intros ? ?; auto| | |auto].
    + intros f fe Ef. exists fe. split; [auto|apply fgrows_refl].
    + intros m' e' E'. rewrite dget_dset. destruct (eqb_spec m' m) as [->|]; [congruence|auto].
  - destruct S1 as (SA & SB & SC & SD) eqn:ES. split; [eapply fmp_inv; eauto|]. split; [apply fmp_later; auto|auto].
Qed.
Lemma load_method_props m b a a' r : load_method s m b a = (a', r) -> inv a ->
  inv a' /\ later a a' /\ a_p a' = a_p a /\ a_loaded a' = a_loaded a /\ (b <> Some true -> forall f, dget f (a_f a) = None -> dget f (a_f a') = None) /\
  match r with IOk _ => exists M, dget m (s_me s) = Some M /\ (b <> None -> full m M a') /\ (b = Some true -> brings M a') | IErr _ => True end.
Proof.
  intros E I. unfold load_method in E. destruct (dget m (s_me s)) as [M|] eqn:EM; [|inversion E; subst; split; [auto|]; split; [apply later_refl|auto]].
  destruct (create_method s m M a) as (a1, [u|er]) eqn:E1; destruct (create_method_props _ _ _ _ _ E1 EM I) as (I1 & L1 & F1 & P1 & D1).
  - destruct b as [b|].
    + destruct (load_factors_props m M b _ [] _ _ _ E EM eq_refl I1 (passed_start _ _ _ _ I1 EM)) as (A & B & C & D & F). destruct C as (C1 & C2 & C3).
      split; [auto|]. split; [eapply later_trans; eauto|]. split; [congruence|]. split; [congruence|]. split; [intros NB f Nf; apply D; [destruct b; congruence|congruence]|].
      destruct r; [|auto]. exists M. split; [auto|]. split; [intros _; eapply passed_full; eauto|]. intros EB. destruct F as (_ & F). inversion EB; subst. exact (F eq_refl).
    + inversion E; subst. split; [auto|]. split; [auto|]. split; [auto|]. split; [auto|]. split; [rewrite F1; auto|]. exists M. split; [auto|]. split; [congruence|discriminate].
  - inversion E; subst. split; [auto|]. split; [auto|]. split; [auto|]. split; [auto|]. split; [rewrite F1; auto|auto].
Qed.

(** ** Methods, in a row *)
Lemma load_methods_props b l : forall a a' r, load_methods s b l a = (a', r) -> inv a ->
  inv a' /\ later a a' /\ a_p a' = a_p a /\ a_loaded a' = a_loaded a /\ (b <> Some true -> forall f, dget f (a_f a) = None -> dget f (a_f a') = None) /\
  (r = IOk tt -> forall m, In m l -> dget m (a_m a) = None -> exists M, dget m (s_me s) = Some M /\ (b <> None -> full m M a') /\ (b = Some true -> brings M a')).
Proof.
  induction l as [|m l IH]; intros a a' r E I; cbn [load_methods] in E.
  - inversion E; subst. split; [auto|]. split; [apply later_refl|]. split; [auto|]. split; [auto|]. split; [auto|]. intros _ m [].
  - destruct (din m (a_m a)) eqn:Em.
    + destruct (IH _ _ _ E I) as (A & B & C & D & F & G). repeat (split; [solve [auto]|]). intros R m' [<- | Im] N; [unfold din in Em; rewrite N in Em; discriminate|]. auto.
    + destruct (load_method s m b a) as (a1, [u|er]) eqn:E1; destruct (load_method_props _ _ _ _ _ E1 I) as (I1 & L1 & P1 & D1 & F1 & X1).
      2:{ inversion E; subst. repeat (split; [solve [auto]|]). discriminate. }
      destruct (IH _ _ _ E I1) as (A & B & C & D & F & G). split; [auto|]. split; [eapply later_trans; eauto|]. split; [congruence|]. split; [congruence|]. split; [auto|].
      intros R m' H N. assert (KT : forall M, b = Some true -> brings M a1 -> brings M a') by (intros M _; now apply brings_later). assert (KF : forall M m, b = Some false -> dget m (s_me s) = Some M -> full m M a1 -> full m M a').
      { intros M m0 EB EM FU f fe Ef. destruct (dget f (a_f a1)) as [fe1|] eqn:E1f.
        - destruct (l_f _ _ B _ _ E1f) as (fe' & Ef' & _ & _ & K). assert (fe' = fe) by congruence. subst fe'. apply K; [auto|]. apply FU. auto.
        - rewrite F in Ef; [discriminate|subst b; discriminate|auto]. }
      destruct (Nat.eq_dec m' m) as [->|NE].
      * destruct X1 as (M & EM & FU & BR). exists M. split; [auto|]. split; [|auto]. intros EB. destruct b as [[]|]; [|eapply KF; eauto|congruence].
        eapply brings_full; [exact EM|exact B|exact A|apply BR; auto|apply FU; auto].
      * destruct H as [<- | H]; [contradiction|]. destruct (dget m' (a_m a1)) as [e|] eqn:Em'; [|auto].
        exfalso. clear -E1 Em' N NE s. unfold load_method in E1. destruct (dget m (s_me s)) as [M|]; [|inversion E1; subst; congruence].
        destruct (create_method s m M a) as (a2, [u2|er2]) eqn:E2; [|discriminate]. assert (X : dget m' (a_m a2) = None).
        { unfold create_method in E2. destruct (dget m (a_m a)); [inversion E2; subst; auto|]. unfold create_quantity in E2. destruct (dget (m_ref M) (a_q a)); [inversion E2; subst|].
          - cbn [put_m a_m]. rewrite dget_dset. destruct (eqb_spec m' m); [contradiction|auto].
          - destruct (dget (m_ref M) (s_fp s)) as [g|]; [|discriminate]. destruct (create_unit s g) as [(u0, t0)|]; [|discriminate]. inversion E2; subst. cbn [put_m put_q a_m]. rewrite dget_dset. destruct (eqb_spec m' m); [contradiction|auto]. }
        destruct b as [b|]; [|inversion E1; subst; congruence].
        assert (Y : forall l a a' r, load_factors s m b l a = (a', r) -> a_m a' = a_m a).
        { induction l as [|x l IHl]; intros c c' rr EE; cbn [load_factors] in EE; [inversion EE; auto|]. destruct (load_factor s m b x c) as (c1, rc) eqn:Ec.
          assert (Z : a_m c1 = a_m c).
          { unfold load_factor in Ec.
            assert (CF : forall y cc cc' w, create_flow s y cc = (cc', w) -> a_m cc' = a_m cc).
            { intros y cc cc' w EC. unfold create_flow in EC. destruct (dget y (a_f cc)); [inversion EC; auto|]. destruct (dget y (s_fl s)) as [j|]; [|inversion EC; auto].
              assert (FPP : forall ll fe z z' w', flow_props s (fl_ref j) ll fe z = (z', w') -> a_m z' = a_m z).
              { induction ll as [|p ll IHll]; intros fe z z' w' EF; cbn [flow_props] in EF; [inversion EF; auto|].
                assert (CQ : a_m (fst (create_quantity s (ip_q p) z)) = a_m z).
                { unfold create_quantity. destruct (dget (ip_q p) (a_q z)); [auto|]. destruct (dget (ip_q p) (s_fp s)) as [g|]; [|auto]. destruct (create_unit s g) as [(u0, t0)|]; auto. }
                destruct (create_quantity s (ip_q p) z) as (z1, [q0|e0]); cbn [fst] in CQ.
                - destruct (Nat.eqb (ip_id p) (fl_ref j) && negb (eqb (ip_val p) 1%Qc)); [inversion EF; subst; auto|]. apply IHll in EF. congruence.
                - destruct e0; try (inversion EF; subst; auto; fail). apply IHll in EF. congruence. }
              destruct (flow_props s (fl_ref j) (fl_props j) (FE None []) cc) as (z1, [fe|e0]) eqn:EP; inversion EC; subst; cbn [put_f a_m]; eapply FPP; eauto. }
            destruct (dget (fa_flow x) (a_f c)); [|destruct b; [|inversion Ec; auto]];
              (destruct (create_flow s (fa_flow x) c) as (z1, [fe|e0]) eqn:EP; [destruct (has_char fe (LM m) (fa_loc x))|]; inversion Ec; subst; cbn [put_f a_m]; eapply CF; eauto). }
          destruct rc as [|]; [apply IHl in EE; congruence|inversion EE; subst; auto]. }
        apply Y in E1. congruence.
Qed.

(** ** Processes *)
Lemma sums_snoc f d l x t : sums f d l t -> (at_ f d x -> sums f d (l ++ [x]) (t + amount x)%Qc) /\ (~ at_ f d x -> sums f d (l ++ [x]) t).
Proof.
  induction 1 as [|y l t A S (IH1 & IH2)|y l t A S (IH1 & IH2)]; cbn.
  - split; intros H; [replace (0 + amount x)%Qc with (amount x + 0)%Qc by ring; constructor; [auto|constructor]|constructor; [auto|constructor]].
  - split; intros H; [replace (amount y + t + amount x)%Qc with (amount y + (t + amount x))%Qc by ring|]; constructor; auto.
  - split; intros H; constructor; auto.
Qed.
Lemma sums_at f d l x t : sums f d l t -> at_ f d x -> sums f d (l ++ [x]) (t + amount x)%Qc.
Proof. intros H. apply (sums_snoc f d l x t H). Qed.
Lemma sums_off f d l x t : sums f d l t -> ~ at_ f d x -> sums f d (l ++ [x]) t.
Proof. intros H. apply (sums_snoc f d l x t H). Qed.
Lemma at_dec f d x : {at_ f d x} + {~ at_ f d x}.
Proof. unfold at_. destruct (Nat.eq_dec (ix_flow x) f), (eqb_spec (ix_dir x) d); [left; auto|right; tauto..]. Qed.
Lemma sums_none f d l : (forall x, In x l -> ~ at_ f d x) -> sums f d l 0%Qc.
Proof. induction l as [|x l IH]; intros H; constructor; [apply H; cbn; auto|]. apply IH. intros y I. apply H. cbn. auto. Qed.
Definition here (l : list iexch) (f : nat) (d : dirn) : Prop := exists x, In x l /\ at_ f d x.
Lemma here_dec l f d : here l f d \/ forall x, In x l -> ~ at_ f d x.
Proof.
  induction l as [|x l [(y & I & A) | N]]; [right; intros x []|left; exists y; cbn; auto|].
  destruct (at_dec f d x) as [A|A]; [left; exists x; cbn; auto|right]. intros y [<- | I]; auto.
Qed.
Record U (rf : option (nat * dirn)) (l : list iexch) (p : proc) : Prop := {
  u_at : forall f d, here l f d -> exists w b, dget (f, d, None) (p_exch p) = Some (X w [] b) /\
     match w with Some v => sums f d l v | None => sums f d l 0%Qc /\ exists y, In y l /\ at_ f d y /\ ix_amount y = None end;
  u_no : forall f d t, (t <> None \/ ~ here l f d) -> dget (f, d, t) (p_exch p) = None;
  u_sum : p_sum p = 0%Qc;
  u_refs : forall f d t, In (f, d, t) (p_refs p) <-> t = None /\ rf = Some (f, d) /\ here l f d }.
Lemma set_ref p f d p1 r : p_sum p = 0%Qc -> add_reference nocf p f d = (p1, r) ->
  p_sum p1 = 0%Qc /\
  (forall k, dget k (p_exch p1) = match dget k (p_exch p) with Some y => Some (if eqb k (f, d, None) then X (x_value y) (x_vdict y) true else y) | None => None end) /\
  (forall y, dget (f, d, None) (p_exch p) = Some y -> forall k, In k (p_refs p1) <-> k = (f, d, None) \/ In k (p_refs p)).
Proof.
  intros S E. unfold add_reference in E. apply pair_equal_spec in E as (<- & _). destruct (dget (f, d, None) (p_exch p)) as [y|] eqn:Ey.
  - unfold alloc_qty. cbn [p_sum]. rewrite S. change (eqb 0%Qc (Q2Qc 0)) with true. cbv iota. cbn [p_sum p_exch p_refs]. split; [auto|]. split.
    + intros k. rewrite dget_dset. destruct (eqb_spec k (f, d, None)) as [->|]; [now rewrite Ey|]. destruct (dget k (p_exch p)); auto.
    + intros y' _ k. now rewrite In_set_add.
  - unfold alloc_qty. rewrite S. change (eqb 0%Qc (Q2Qc 0)) with true. cbv iota. split; [auto|]. split; [|discriminate].
    intros k. destruct (dget k (p_exch p)) eqn:Ek; [|auto]. destruct (eqb_spec k (f, d, None)) as [->|]; [congruence|auto].
Qed.
Lemma here_snoc l x f d : here (l ++ [x]) f d <-> here l f d \/ at_ f d x.
Proof.
  unfold here. split.
  - intros (y & I & A). apply in_app_iff in I as [I | [<- | []]]; [left; eauto|auto].
  - intros [(y & I & A) | A]; [exists y; rewrite in_app_iff; auto|exists x; rewrite in_app_iff; cbn; auto].
Qed.
(** One exchange added *)
Lemma add_one rf l p x p1 k : U rf l p -> add_exchange p (ix_flow x) (ix_dir x) None (ix_amount x) TNone true = (p1, POk k) ->
  (forall f d, here (l ++ [x]) f d -> exists w b, dget (f, d, None) (p_exch p1) = Some (X w [] b) /\
     match w with Some v => sums f d (l ++ [x]) v | None => sums f d (l ++ [x]) 0%Qc /\ exists y, In y (l ++ [x]) /\ at_ f d y /\ ix_amount y = None end) /\
  (forall f d t, (t <> None \/ ~ here (l ++ [x]) f d) -> dget (f, d, t) (p_exch p1) = None) /\ p_sum p1 = 0%Qc /\ p_refs p1 = p_refs p.
Proof.
  intros UU E. set (k0 := (ix_flow x, ix_dir x, None) : key).
  assert (OTH : (forall kk, kk <> k0 -> dget kk (p_exch p1) = dget kk (p_exch p)) -> p_sum p1 = p_sum p -> p_refs p1 = p_refs p ->
     (exists w b, dget k0 (p_exch p1) = Some (X w [] b) /\
       match w with Some v => sums (ix_flow x) (ix_dir x) (l ++ [x]) v | None => sums (ix_flow x) (ix_dir x) (l ++ [x]) 0%Qc /\ exists y, In y (l ++ [x]) /\ at_ (ix_flow x) (ix_dir x) y /\ ix_amount y = None end) ->
     (forall f d, here (l ++ [x]) f d -> exists w b, dget (f, d, None) (p_exch p1) = Some (X w [] b) /\
     match w with Some v => sums f d (l ++ [x]) v | None => sums f d (l ++ [x]) 0%Qc /\ exists y, In y (l ++ [x]) /\ at_ f d y /\ ix_amount y = None end) /\
  (forall f d t, (t <> None \/ ~ here (l ++ [x]) f d) -> dget (f, d, t) (p_exch p1) = None) /\ p_sum p1 = 0%Qc /\ p_refs p1 = p_refs p).
  { intros OT SM RF OWN. split; [|split; [|split; [rewrite SM; apply (u_sum _ _ _ UU)|auto]]].
    - intros f d H. destruct (at_dec f d x) as [(<- & <-)|NA]; [exact OWN|]. apply here_snoc in H as [H | H]; [|contradiction].
      rewrite OT by (unfold k0; intros EE; inversion EE; subst; apply NA; split; auto). destruct (u_at _ _ _ UU f d H) as (w & b & EE & HW). exists w, b. split; [auto|].
      destruct w as [v|]; [first [apply sums_off; solve [auto] | apply sums_at; solve [auto]]|]. destruct HW as (HW & y & Iy & Ay & Ny). split; [first [apply sums_off; solve [auto] | apply sums_at; solve [auto]]|]. exists y. rewrite in_app_iff. auto.
    - intros f d t H. rewrite here_snoc in H. rewrite OT; [apply (u_no _ _ _ UU); tauto|]. unfold k0. intros EE; inversion EE; subst. destruct H as [H|H]; [congruence|]. apply H. right. split; auto. }
  assert (AX : at_ (ix_flow x) (ix_dir x) x) by (split; auto).
  unfold add_exchange in E. cbn [t_key] in E. fold k0 in E. cbv zeta in E. destruct (here_dec l (ix_flow x) (ix_dir x)) as [H | H].
  - destruct (u_at _ _ _ UU _ _ H) as (w & b & EE & HW). fold k0 in EE. rewrite EE in E. destruct (ix_amount x) as [v|] eqn:EV.
    + assert (AM : amount x = v) by (unfold amount; now rewrite EV). change (eqb v (Q2Qc 0)) with (eqb v 0%Qc) in E. destruct (eqb_spec v 0%Qc) as [->|NZ].
      * inversion E; subst p1 k. apply OTH; auto. exists w, b. split; [auto|]. destruct w as [w|].
        -- replace w with (w + amount x)%Qc by (rewrite AM; ring). first [apply sums_off; solve [auto] | apply sums_at; solve [auto]].
        -- destruct HW as (HW & y & Iy & Ay & Ny). split; [replace 0%Qc with (0 + amount x)%Qc by (rewrite AM; ring); first [apply sums_off; solve [auto] | apply sums_at; solve [auto]]|]. exists y. rewrite in_app_iff. auto.
      * destruct w as [w|]; cbn [x_value add_to_value x_vdict x_ref] in E.
        -- inversion E; subst p1 k. apply OTH; auto; [intros kk N; unfold p_set; cbn; rewrite dget_dset; destruct (eqb_spec kk k0); [contradiction|auto]|].
           exists (Some (w + v)%Qc), b. unfold p_set. cbn. rewrite dget_dset_same. split; [auto|]. rewrite <- AM. first [apply sums_off; solve [auto] | apply sums_at; solve [auto]].
        -- inversion E; subst p1 k. apply OTH; auto; [intros kk N; unfold p_set; cbn; rewrite dget_dset; destruct (eqb_spec kk k0); [contradiction|auto]|].
           exists (Some v), b. unfold p_set. cbn. rewrite dget_dset_same. split; [auto|]. destruct HW as (HW & _). replace v with (0 + amount x)%Qc by (rewrite AM; ring). first [apply sums_off; solve [auto] | apply sums_at; solve [auto]].
    + inversion E; subst p1 k. assert (AM : amount x = 0%Qc) by (unfold amount; now rewrite EV). apply OTH; auto. exists w, b. split; [auto|]. destruct w as [w|].
      * replace w with (w + amount x)%Qc by (rewrite AM; ring). first [apply sums_off; solve [auto] | apply sums_at; solve [auto]].
      * destruct HW as (HW & y & Iy & Ay & Ny). split; [replace 0%Qc with (0 + amount x)%Qc by (rewrite AM; ring); first [apply sums_off; solve [auto] | apply sums_at; solve [auto]]|]. exists y. rewrite in_app_iff. auto.
  - assert (N0 : dget k0 (p_exch p) = None) by (apply (u_no _ _ _ UU); right; intros (y & Iy & Ay); exact (H y Iy Ay)). rewrite N0 in E. inversion E; subst p1 k.
    apply OTH; auto; [intros kk N; unfold p_set; cbn; rewrite dget_dset; destruct (eqb_spec kk k0); [contradiction|auto]|].
    exists (ix_amount x), false. unfold p_set. cbn. rewrite dget_dset_same. split; [auto|]. pose proof (proj1 (sums_snoc _ _ l x _ (sums_none _ _ _ H)) AX) as SN. destruct (ix_amount x) as [v|] eqn:EV.
    + replace v with (0 + amount x)%Qc by (unfold amount; rewrite EV; ring). exact SN.
    + split; [|exists x; rewrite in_app_iff; cbn; auto]. replace 0%Qc with (0 + amount x)%Qc at 1 by (unfold amount; rewrite EV; ring). exact SN.
Qed.
Lemma fill rf l : forall pre p p', U rf pre p -> add_all rf l p = (p', IOk tt) -> U rf (pre ++ l) p'.
Proof.
  induction l as [|x l IH]; intros pre p p' UU E; cbn [add_all] in E; [inversion E; subst; now rewrite app_nil_r|].
  destruct (add_exchange p (ix_flow x) (ix_dir x) None (ix_amount x) TNone true) as (p1, [k|e]) eqn:E1; [|discriminate].
  destruct (add_one _ _ _ _ _ _ UU E1) as (A & B & C & D). replace (pre ++ x :: l) with ((pre ++ [x]) ++ l) by (rewrite <- app_assoc; reflexivity).
  destruct (ix_comment x && match k with None => true | Some _ => false end); [discriminate|].
  destruct (eqb_spec rf (Some (ix_flow x, ix_dir x))) as [ER|NR].
  - destruct (add_reference nocf p1 (ix_flow x) (ix_dir x)) as (p2, [k2|e2]) eqn:E2; [|discriminate]. eapply IH; [|exact E].
    destruct (set_ref _ _ _ _ _ C E2) as (S1 & S2 & S3). destruct (A (ix_flow x) (ix_dir x)) as (w0 & b0 & EX & _); [apply here_snoc; right; split; auto|]. specialize (S3 _ EX).
    constructor.
    + intros f d H. destruct (A f d H) as (w & b & EE & HW). rewrite S2, EE. cbn [x_value x_vdict]. destruct (eqb _ _); exists w; eauto.
    + intros f d t H. rewrite S2, B; auto.
    + auto.
    + intros f d t. rewrite S3, D, (u_refs _ _ _ UU), here_snoc. split.
      * intros [EE | (-> & E3 & H)]; [inversion EE; subst; split; [auto|]; split; [auto|]; right; split; auto|auto].
      * intros (-> & E3 & H). left. rewrite ER in E3. now inversion E3.
  - eapply IH; [|exact E]. constructor; auto. intros f d t. rewrite D, (u_refs _ _ _ UU), here_snoc. split; [intros (? & ? & ?); auto|]. intros (-> & E3 & [H | (<- & <-)]); [auto|contradiction].
Qed.
Lemma U_new rf : U rf [] new_proc.
Proof. constructor; cbn; auto; [intros f d (x & [] & _)|]. intros f d t. split; [contradiction|intros (_ & _ & x & [] & _)]. Qed.
Lemma find_first {A} (g : A -> bool) l x : find g l = Some x -> exists pre post, l = pre ++ x :: post /\ g x = true /\ forall y, In y pre -> g y = false.
Proof.
  induction l as [|y l IH]; cbn; [discriminate|]. destruct (g y) eqn:G; intros E.
  - inversion E; subst. exists [], l. split; [auto|]. split; [auto|]. intros z [].
  - destruct (IH E) as (pre & post & -> & Gx & H). exists (y :: pre), post. split; [auto|]. split; [auto|]. intros z [<- | I]; auto.
Qed.
Lemma first_unique (j : iproc) x y : named_ref j x -> named_ref j y -> x = y.
Proof.
  intros (n & pre & post & E1 & E2 & E3 & E4) (n' & pre' & post' & E1' & E2' & E3' & E4'). assert (n' = n) by congruence. subst n'. rewrite E2 in E2'. clear E2 E1 E1'.
  revert pre' E2' E4'. induction pre as [|z pre IH]; intros pre' EQ H'; destruct pre' as [|z' pre']; cbn in EQ; inversion EQ; subst.
  - auto.
  - exfalso. apply (H' z'); cbn; auto.
  - exfalso. apply (E4 y); cbn; auto.
  - apply (IH (fun y I => E4 y (or_intror I)) pre'); [auto|]. intros w Iw. apply H'. cbn. auto.
Qed.
Lemma U_process j rf p : reference_flow j = IOk rf -> U rf (pr_exch j) p -> process_is j p.
Proof.
  intros ER UU. assert (RN : forall f d, rf = Some (f, d) <-> exists x, named_ref j x /\ at_ f d x).
  { intros f d. unfold reference_flow in ER. destruct (pr_ref j) as [n|] eqn:EP.
    - destruct (find _ (pr_exch j)) as [x|] eqn:EF; [|discriminate]. inversion ER; subst rf. destruct (find_first _ _ _ EF) as (pre & post & EQ & G & H). apply Nat.eqb_eq in G.
      assert (NX : named_ref j x). { exists n, pre, post. split; [auto|]. split; [auto|]. split; [auto|]. intros y I. apply Nat.eqb_neq. auto. }
      split.
      + intros EE; inversion EE; subst. exists x. split; [auto|split; auto].
      + intros (y & NY & (<- & <-)). rewrite (first_unique _ _ _ NY NX). reflexivity.
    - inversion ER; subst. split; [discriminate|]. intros (x & (n & pre & post & E1 & _) & _). congruence. }
  split; [|split].
  - intros f d x I A. destruct (u_at _ _ _ UU f d) as (w & b & EE & HW); [exists x; auto|]. unfold exch_value. rewrite EE. cbn [value x_value x_vdict]. split; [discriminate|].
    destruct w as [v|]; [split; [intros v' EV; inversion EV; subst; auto|discriminate]|]. split; [discriminate|]. intros _. exact HW.
  - intros f d t H. apply (u_no _ _ _ UU). destruct H as [H | H]; [auto|right]. intros (x & I & A). exact (H x I A).
  - intros f d t. rewrite (u_refs _ _ _ UU), RN. split; [tauto|]. intros (-> & x & NX & A). split; [auto|]. split; [eauto|]. exists x. split; [|auto]. destruct NX as (n & pre & post & _ & EQ & _). rewrite EQ. apply in_app_iff. cbn. auto.
Qed.
Definition held (a : arch) (i : nat) : Prop := exists p j, dget i (a_p a) = Some p /\ dget i (s_pr s) = Some j /\ process_is j p.
Lemma get_process_props i a a' r : get_process s i a = (a', r) -> inv a -> inv a' /\ later a a' /\ a_m a' = a_m a /\ a_loaded a' = a_loaded a /\
  (forall k, k <> i -> dget k (a_p a') = dget k (a_p a)) /\
  (r = IOk tt -> dget i (a_p a) = None -> dget i (s_pr s) <> None -> held a' i).
Proof.
  intros E I. unfold get_process in E. destruct (dget i (a_p a)) as [p|] eqn:Ep; [inversion E; subst; split; [auto|]; split; [apply later_refl|]; repeat (split; [solve [auto]|]); intros _ ?; discriminate|].
  destruct (dget i (s_pr s)) as [j|] eqn:Ej; [|inversion E; subst; split; [auto|]; split; [apply later_refl|]; repeat (split; [solve [auto]|]); intros _ _ X; congruence].
  destruct (reference_flow j) as [rf|e] eqn:ER; [|inversion E; subst; split; [auto|]; split; [apply later_refl|]; repeat (split; [solve [auto]|]); discriminate].
  destruct (load_flows s (pr_exch j) a) as (a1, [u|e]) eqn:E1; destruct (load_flows_props _ _ _ _ E1 I) as (I1 & L1 & M1 & P1 & D1).
  2:{ inversion E; subst. split; [auto|]. split; [auto|]. split; [auto|]. split; [auto|]. split; [intros k _; now rewrite P1|discriminate]. }
  destruct (add_all rf (pr_exch j) new_proc) as (p, r1) eqn:EA. inversion E; subst. split; [|split; [|split; [|split; [|split]]]]; cbn [put_p a_m a_loaded a_p]; auto.
  - eapply later_trans; [exact L1|]. constructor; cbn [put_p a_q a_f a_m a_p]; [intros ? ?; auto| |auto|].
    + intros f fe Ef. exists fe. split; [auto|apply fgrows_refl].
    + intros k q Ek. rewrite dget_dset. destruct (eqb_spec k i) as [->|]; [congruence|auto].
  - intros k N. rewrite dget_dset. destruct (eqb_spec k i); [contradiction|]. now rewrite P1.
  - intros -> _ _. exists p, j. cbn [put_p a_p]. rewrite dget_dset_same. split; [auto|]. split; [auto|]. eapply U_process; [exact ER|]. apply (fill rf _ [] _ _ (U_new rf) EA).
Qed.

Lemma load_processes_props l : forall a a' r, load_processes s l a = (a', r) -> inv a -> inv a' /\ later a a' /\ a_m a' = a_m a /\ a_loaded a' = a_loaded a /\
  (r = IOk tt -> forall i, In i l -> dget i (a_p a) = None -> dget i (s_pr s) <> None -> held a' i).
Proof.
  induction l as [|i l IH]; intros a a' r E I; cbn [load_processes] in E.
  - inversion E; subst. split; [auto|]. split; [apply later_refl|]. repeat (split; [solve [auto]|]). intros _ i [].
  - destruct (get_process s i a) as (a1, [u|e]) eqn:E1; destruct (get_process_props _ _ _ _ E1 I) as (I1 & L1 & M1 & D1 & O1 & H1).
    + destruct (IH _ _ _ E I1) as (A & B & C & D & F). split; [auto|]. split; [eapply later_trans; eauto|]. split; [congruence|]. split; [congruence|].
      intros R k Ik Nk Sk. destruct (Nat.eq_dec k i) as [->|NE].
      * destruct u. destruct (H1 eq_refl Nk Sk) as (p & j & Ep & Ej & HP). exists p, j. split; [apply (l_p _ _ B); auto|auto].
      * destruct Ik as [<- | Ik]; [contradiction|]. apply F; auto. rewrite O1; auto.
    + inversion E; subst. repeat (split; [solve [auto]|]). discriminate.
Qed.
Lemma mark_loaded a b : inv a -> later a (Ar (a_q a) (a_f a) (a_m a) (a_p a) b) /\ inv (Ar (a_q a) (a_f a) (a_m a) (a_p a) b).
Proof.
  intros I. split; [|exact I]. constructor; cbn; [intros ? ?; auto| |auto|auto]. intros f fe E. exists fe. split; [auto|apply fgrows_refl].
Qed.
Lemma load_all_props a a' r : load_all s a = (a', r) -> inv a -> inv a' /\ later a a' /\
  (r = IOk tt -> a_loaded a = false -> a_loaded a' = true /\
     (forall i, dget i (a_p a) = None -> dget i (s_pr s) <> None -> held a' i) /\
     (forall m M, dget m (s_me s) = Some M -> dget m (a_m a) = None -> full m M a')).
Proof.
  intros E I. unfold load_all in E. destruct (a_loaded a) eqn:EL; [inversion E; subst; split; [auto|]; split; [apply later_refl|intros _ ?; congruence]|].
  destruct (load_processes s (dkeys (s_pr s)) a) as (a1, [u|e]) eqn:E1; destruct (load_processes_props _ _ _ _ E1 I) as (I1 & L1 & M1 & D1 & H1); [|inversion E; subst; repeat (split; [solve [auto]|]); discriminate].
  unfold load_lcia in E. destruct (load_methods s (Some false) (dkeys (s_me s)) a1) as (a2, [u2|e]) eqn:E2; destruct (load_methods_props _ _ _ _ _ E2 I1) as (I2 & L2 & P2 & D2 & F2 & H2).
  2:{ inversion E; subst. split; [auto|]. split; [eapply later_trans; eauto|discriminate]. }
  inversion E; subst. destruct (mark_loaded a2 true I2) as (L3 & I3). split; [exact I3|]. split; [eapply later_trans; [eapply later_trans; eauto|exact L3]|].
  destruct u, u2. intros _ _. split; [reflexivity|]. split.
  - intros i N S. assert (Ii : In i (dkeys (s_pr s))). { destruct (dget i (s_pr s)) as [j|] eqn:Ej; [eapply dget_Some_key; eauto|congruence]. }
    destruct (H1 eq_refl i Ii N S) as (p & j & Ep & Ej & HP). exists p, j. split; [cbn; now apply (l_p _ _ L2)|auto].
  - intros m M EM N. assert (Im : In m (dkeys (s_me s))). { eapply dget_Some_key; eauto. }
    rewrite <- M1 in N. destruct (H2 eq_refl m Im N) as (M' & EM' & FU & _). assert (M' = M) by congruence. subst M'. apply FU. discriminate.
Qed.
Lemma istep_props o a a' r : istep s o a = (a', r) -> inv a -> inv a' /\ later a a'.
Proof.
  intros E I. destruct o as [i|f|q|m|m b|b|]; cbn [istep] in E.
  - destruct (get_process_props _ _ _ _ E I) as (A & B & _). auto.
  - unfold none_ok in E. destruct (din f (s_fl s)); [|inversion E; subst; split; [auto|apply later_refl]]. destruct (create_flow s f a) as (a1, r1) eqn:E1.
    destruct (create_flow_props _ _ _ _ E1 I) as (A & B & _). destruct r1; inversion E; subst; auto.
  - unfold none_ok in E. destruct (din q (s_fp s)); [|inversion E; subst; split; [auto|apply later_refl]]. destruct (create_quantity s q a) as (a1, r1) eqn:E1.
    destruct (create_quantity_props _ _ _ _ E1 (proj1 I)) as (A & B & C & _). assert (inv a1) by (eapply fmp_inv; eauto). assert (later a a1) by (apply fmp_later; auto). destruct r1; inversion E; subst; auto.
  - destruct (dget m (s_me s)) as [M|] eqn:EM; [|inversion E; subst; split; [auto|apply later_refl]]. destruct (create_method_props _ _ _ _ _ E EM I) as (A & B & _). auto.
  - destruct (load_method_props _ _ _ _ _ E I) as (A & B & _). auto.
  - destruct (load_methods_props _ _ _ _ _ E I) as (A & B & _). auto.
  - destruct (load_all_props _ _ _ E I) as (A & B & _). auto.
Qed.
Definition irun (l : list iop) (a : arch) : arch := fold_left (fun a o => fst (istep s o a)) l a.
Lemma irun_props l : forall a, inv a -> inv (irun l a) /\ later a (irun l a).
Proof.
  induction l as [|o l IH]; intros a I; cbn; [split; [auto|apply later_refl]|]. destruct (istep s o a) as (a1, r) eqn:E. destruct (istep_props _ _ _ _ E I) as (I1 & L1).
  destruct (IH a1 I1) as (A & B). cbn. split; [auto|eapply later_trans; eauto].
Qed.
Lemma inv_new : inv new_arch.
Proof. split; [intros q e E; discriminate|intros f fe E; discriminate]. Qed.
Lemma hist_split l1 l2 : ihist s (l1 ++ l2) = irun l2 (ihist s l1).
Proof. unfold ihist, irun. apply fold_left_app. Qed.
Lemma inv_hist l : inv (ihist s l).
Proof. apply (irun_props l new_arch inv_new). Qed.
Lemma hist_later l1 l2 : later (ihist s l1) (ihist s (l1 ++ l2)).
Proof. rewrite hist_split. apply irun_props, inv_hist. Qed.
End S.

(** C121: ILCD archives are imported faithfully, whatever calls come before and after. *)
From Coq Require Import String.
From Verif Require Import Num Base PyStr ProcModel MiscModel IlcdModel IlcdProofs.
Open Scope nat_scope.
Open Scope string_scope.
Open Scope list_scope.

Lemma ihist_step s l o a' r : istep s o (ihist s l) = (a', r) -> ihist s (l ++ [o]) = a'.
Proof. intros E. rewrite hist_split. unfold irun. cbn [fold_left]. now rewrite E. Qed.
Lemma ihist_after s l o l2 a' r : istep s o (ihist s l) = (a', r) -> inv s a' /\ later s a' (ihist s (l ++ o :: l2)) /\ inv s (ihist s (l ++ o :: l2)).
Proof.
  intros E. rewrite <- (ihist_step _ _ _ _ _ E). replace (l ++ o :: l2) with ((l ++ [o]) ++ l2) by (rewrite <- app_assoc; reflexivity).
  split; [apply inv_hist|]. split; [apply hist_later|apply inv_hist].
Qed.

(** ** Processes *)
(** A process that appears during a successful call is the one of the file, from then on. *)
Theorem C121_processes s l o a' i : istep s o (ihist s l) = (a', IOk tt) ->
  dget i (a_p (ihist s l)) = None -> dget i (a_p a') <> None ->
  exists j, dget i (s_pr s) = Some j /\ forall l2, exists p, dget i (a_p (ihist s (l ++ o :: l2))) = Some p /\ process_is j p.
Proof.
  intros E N P. assert (HH : held s a' i).
  { pose proof (inv_hist s l) as I. set (a := ihist s l) in *. destruct o as [k|f|q|m|m b|b|]; cbn [istep] in E.
    - destruct (get_process_props _ _ _ _ _ E I) as (_ & _ & _ & _ & O & H). destruct (Nat.eq_dec i k) as [->|NE]; [|exfalso; apply P; rewrite O; auto].
      apply H; auto. intros NS. unfold get_process in E. rewrite N, NS in E. inversion E; subst. contradiction.
    - exfalso. apply P. unfold none_ok in E. destruct (din f (s_fl s)); [|inversion E; subst; auto]. destruct (create_flow s f a) as (a1, r1) eqn:E1.
      destruct (create_flow_props _ _ _ _ _ E1 I) as (_ & _ & _ & PP & _). destruct r1; inversion E; subst; congruence.
    - exfalso. apply P. unfold none_ok in E. destruct (din q (s_fp s)); [|inversion E; subst; auto]. destruct (create_quantity s q a) as (a1, r1) eqn:E1.
      destruct (create_quantity_props _ _ _ _ _ E1 (proj1 I)) as (_ & _ & (_ & _ & PP & _) & _). destruct r1; inversion E; subst; congruence.
    - exfalso. apply P. destruct (dget m (s_me s)) as [M|] eqn:EM; [|inversion E; subst; auto]. destruct (create_method_props _ _ _ _ _ _ E EM I) as (_ & _ & _ & PP & _). congruence.
    - exfalso. apply P. destruct (load_method_props _ _ _ _ _ _ E I) as (_ & _ & PP & _). congruence.
    - exfalso. apply P. destruct (load_methods_props _ _ _ _ _ _ E I) as (_ & _ & PP & _). congruence.
    - destruct (load_all_props _ _ _ _ E I) as (_ & _ & H). destruct (a_loaded a) eqn:EL; [exfalso; apply P; unfold load_all in E; rewrite EL in E; inversion E; subst; auto|].
      destruct (H eq_refl eq_refl) as (_ & HP & _). apply HP; auto. intros NS. apply P. unfold load_all in E. rewrite EL in E.
      destruct (load_processes s (dkeys (s_pr s)) a) as (a1, [u|e]) eqn:E1; [|discriminate]. unfold load_lcia in E. destruct (load_processes_props _ _ _ _ _ E1 I) as (I1 & _).
      destruct (load_methods s (Some false) (dkeys (s_me s)) a1) as (a2, [u2|e]) eqn:E2; [|discriminate]. destruct (load_methods_props _ _ _ _ _ _ E2 I1) as (_ & _ & PP & _).
      inversion E; subst. cbn [a_p]. rewrite PP. clear -E1 N NS I. revert E1 N. generalize dependent a. generalize (dkeys (s_pr s)).
      induction l0 as [|k l0 IH]; intros a I E1 N; cbn [load_processes] in E1; [inversion E1; subst; auto|]. destruct (get_process s k a) as (b, [w|e]) eqn:EG; [|discriminate].
      destruct (get_process_props _ _ _ _ _ EG I) as (IB & _ & _ & _ & O & _). apply (IH b IB E1). destruct (Nat.eq_dec i k) as [->|NE]; [|rewrite O; auto].
      unfold get_process in EG. rewrite N, NS in EG. inversion EG; subst. auto. }
  destruct HH as (p & j & Ep & Ej & HP). exists j. split; [auto|]. intros l2. exists p. split; [|auto]. destruct (ihist_after s l o l2 _ _ E) as (_ & L & _). apply (l_p _ _ _ L). auto.
Qed.
(** [get] brings a process of the archive. *)
Theorem C121_get_process s l i j a' : dget i (s_pr s) = Some j -> dget i (a_p (ihist s l)) = None -> istep s (GetProcess i) (ihist s l) = (a', IOk tt) ->
  forall l2, exists p, dget i (a_p (ihist s (l ++ GetProcess i :: l2))) = Some p /\ process_is j p.
Proof.
  intros Ej N E. destruct (C121_processes s l (GetProcess i) a' i E N) as (j' & Ej' & H).
  - cbn [istep] in E. destruct (get_process_props _ _ _ _ _ E (inv_hist s l)) as (_ & _ & _ & _ & _ & H). destruct H as (p & j' & Ep & _); auto; congruence.
  - assert (j' = j) by congruence. subst. exact H.
Qed.

(** ** Flows and quantities *)
(** A flow held is the one of its file; a flow without a file has no property. *)
Theorem C121_flows s l f fe : dget f (a_f (ihist s l)) = Some fe ->
  (forall j, dget f (s_fl s) = Some j -> flow_is s j fe) /\
  (dget f (s_fl s) = None -> fe_ref fe = None /\ forall q loc, cf fe (FP q) loc = 0%Qc).
Proof.
  intros E. destruct (proj2 (inv_hist s l) _ _ E) as (H & _). split.
  - intros j Ej. rewrite Ej in H. exact H.
  - intros N. rewrite N in H. destruct H as (A & B). split; [auto|]. intros q loc. unfold cf. now rewrite B.
Qed.
(** The properties of a flow do not change. *)
Theorem C121_flows_stable s l l2 f fe : dget f (a_f (ihist s l)) = Some fe -> exists fe', dget f (a_f (ihist s (l ++ l2))) = Some fe' /\
  fe_ref fe' = fe_ref fe /\ forall q loc, cf fe' (FP q) loc = cf fe (FP q) loc.
Proof.
  intros E. destruct (l_f _ _ _ (hist_later s l l2) _ _ E) as (fe' & E' & R & C & _). exists fe'. split; [auto|]. split; [auto|]. intros q loc. unfold cf. now rewrite C.
Qed.
Lemma unit_table_props l : forall t t', unit_table l t = IOk t' -> NoDup (map u_name l) ->
  (forall u, In u l -> u_mean u <> 0%Qc /\ dget (u_name u) t' = Some (1 / u_mean u)%Qc) /\ (forall n, ~ In n (map u_name l) -> dget n t' = dget n t).
Proof.
  induction l as [|u l IH]; intros t t' E ND; cbn [unit_table] in E; [inversion E; subst; split; [intros u []|auto]|].
  destruct (eqb_spec (u_mean u) 0%Qc) as [|NZ]; [discriminate|]. inversion ND as [|? ? NI ND']; subst. destruct (IH _ _ E ND') as (A & B). split.
  - intros v [<- | I]; [|auto]. split; [auto|]. rewrite B by auto. now rewrite dget_dset_same.
  - intros n Nn. cbn in Nn. rewrite B by tauto. rewrite dget_dset. destruct (eqb_spec n (u_name u)); [subst; tauto|auto].
Qed.
(** The units of a unit group are numbered from zero, and have distinct names. *)
Definition well_numbered (G : ugroup) : Prop := NoDup (map u_name (g_units G)) /\ forall k u, nth_error (g_units G) k = Some u -> u_id u = k.
(** A flow property has the reference unit the group names, and converts between any two units. *)
Theorem C121_units_partial s l q e g G : dget q (a_q (ihist s l)) = Some e -> dget q (s_fp s) = Some g -> dget g (s_ug s) = Some G -> well_numbered G ->
  (exists u, In u (g_units G) /\ u_id u = g_ref G /\ u_name u = qu_unit e) /\
  (forall u v, In u (g_units G) -> In v (g_units G) -> uconvert (Some (u_name u)) (Some (u_name v)) e = UNum (u_mean u / u_mean v)%Qc).
Proof.
  intros E Eg EG (ND & WN). destruct (proj1 (inv_hist s l) _ _ E) as (g' & G' & u & t & A & B & C & D & ->). assert (g' = g) by congruence. subst g'. assert (G' = G) by congruence. subst G'. split.
  - exists u. split; [eapply nth_error_In; eauto|]. split; [eapply WN; eauto|reflexivity].
  - intros x y Ix Iy. destruct (unit_table_props _ _ _ D ND) as (H & _). destruct (H x Ix) as (NX & X). destruct (H y Iy) as (NY & Y). unfold uconvert. cbn [qu_table]. rewrite X, Y.
    assert (NZ : (1 / u_mean x)%Qc <> 0%Qc). { intros Z. assert (W : ((1 / u_mean x) * u_mean x = 1)%Qc) by (field; exact NX). rewrite Z in W. replace (0 * u_mean x)%Qc with 0%Qc in W by ring. discriminate. }
    destruct (eqb_spec (1 / u_mean x)%Qc 0%Qc); [contradiction|]. f_equal. field; repeat split; auto; discriminate.
Qed.

(** ** LCIA factors *)
Lemma lm_factors m M f fe : lm fe m (all_of M f) -> factors_are M f (cf fe (LM m)).
Proof. intros H. apply factors_acc. unfold lm, all_of in H. rewrite H. destruct (acc _); reflexivity. Qed.
Lemma full_factors s m M a f fe : dget m (s_me s) = Some M -> full m M a -> dget f (a_f a) = Some fe -> factors_are M f (cf fe (LM m)).
Proof. intros EM FU E. apply lm_factors. apply (FU _ _ E). Qed.
Lemma full_after s m M a b f fe : dget m (s_me s) = Some M -> later s a b -> full m M a -> dget f (a_f a) = Some fe -> exists fe', dget f (a_f b) = Some fe' /\ factors_are M f (cf fe' (LM m)).
Proof. intros EM L FU E. destruct (l_f _ _ _ L _ _ E) as (fe' & E' & _ & _ & K). exists fe'. split; [auto|]. apply lm_factors. apply (K m M EM). apply FU. auto. Qed.

(** [load_lcia_method(m, load_all_flows)] without None: the flows held then have the factors of the file, from then on. *)
Theorem C121_method s l m b a' : istep s (LoadMethod m (Some b)) (ihist s l) = (a', IOk tt) ->
  exists M, dget m (s_me s) = Some M /\ forall f, dget f (a_f a') <> None ->
    forall l2, exists fe, dget f (a_f (ihist s (l ++ LoadMethod m (Some b) :: l2))) = Some fe /\ factors_are M f (cf fe (LM m)).
Proof.
  intros E. pose proof (ihist_after s l (LoadMethod m (Some b))) as H. destruct (load_method_props _ _ _ _ _ _ E (inv_hist s l)) as (_ & _ & _ & _ & _ & M & EM & FU & _). exists M. split; [auto|].
  intros f Nf l2. destruct (H l2 _ _ E) as (_ & L & _). destruct (dget f (a_f a')) as [fe|] eqn:Ef; [|congruence]. eapply full_after; eauto. apply FU. discriminate.
Qed.
(** With [load_all_flows=True], all the flows of the method are held, and every flow held at any later time has its factors. *)
Theorem C121_method_all s l m a' : istep s (LoadMethod m (Some true)) (ihist s l) = (a', IOk tt) ->
  exists M, dget m (s_me s) = Some M /\ forall l2,
    (forall x, In x (m_factors M) -> dget (fa_flow x) (a_f (ihist s (l ++ LoadMethod m (Some true) :: l2))) <> None) /\
    (forall f fe, dget f (a_f (ihist s (l ++ LoadMethod m (Some true) :: l2))) = Some fe -> factors_are M f (cf fe (LM m))).
Proof.
  intros E. pose proof (ihist_after s l (LoadMethod m (Some true))) as H. destruct (load_method_props _ _ _ _ _ _ E (inv_hist s l)) as (_ & _ & _ & _ & _ & M & EM & FU & BR). exists M. split; [auto|].
  intros l2. destruct (H l2 _ _ E) as (_ & L & I). specialize (BR eq_refl). assert (FU' : full m M a') by (apply FU; discriminate). split; [eapply brings_later; eauto|].
  intros f fe Ef. eapply full_factors; [exact EM| |exact Ef]. eapply brings_full; eauto.
Qed.
(** [load_lcia]: the same for the methods that are not held *)
Theorem C121_lcia s l b a' : istep s (LoadLcia (Some b)) (ihist s l) = (a', IOk tt) -> forall m M, dget m (s_me s) = Some M -> dget m (a_m (ihist s l)) = None ->
  (forall f, dget f (a_f a') <> None -> forall l2, exists fe, dget f (a_f (ihist s (l ++ LoadLcia (Some b) :: l2))) = Some fe /\ factors_are M f (cf fe (LM m))) /\
  (b = true -> forall l2 f fe, dget f (a_f (ihist s (l ++ LoadLcia (Some b) :: l2))) = Some fe -> factors_are M f (cf fe (LM m))).
Proof.
  intros E m M EM N. pose proof (ihist_after s l (LoadLcia (Some b))) as H. cbn [istep] in E. pose proof E as E0. unfold load_lcia in E. destruct (load_methods_props _ _ _ _ _ _ E (inv_hist s l)) as (_ & _ & _ & _ & _ & X).
  destruct (X eq_refl m) as (M' & EM' & FU & BR); [eapply dget_Some_key; eauto|auto|]. assert (M' = M) by congruence. subst M'. assert (FU' : full m M a') by (apply FU; discriminate). split.
  - intros f Nf l2. destruct (H l2 _ _ E0) as (_ & L & _). destruct (dget f (a_f a')) as [fe|] eqn:Ef; [|congruence]. eapply full_after; eauto.
  - intros -> l2 f fe Ef. destruct (H l2 _ _ E0) as (_ & L & I). eapply full_factors; [exact EM| |exact Ef]. eapply brings_full; eauto.
Qed.
(** [load_all] of a fresh archive: every process and, for the flows then held, the factors of every method *)
Theorem C121_load_all s a' : istep s LoadAll new_arch = (a', IOk tt) ->
  (forall i j, dget i (s_pr s) = Some j -> forall l2, exists p, dget i (a_p (ihist s (LoadAll :: l2))) = Some p /\ process_is j p) /\
  (forall m M f, dget m (s_me s) = Some M -> dget f (a_f a') <> None -> forall l2, exists fe, dget f (a_f (ihist s (LoadAll :: l2))) = Some fe /\ factors_are M f (cf fe (LM m))).
Proof.
  intros E. pose proof (ihist_after s [] LoadAll) as H. destruct (load_all_props _ _ _ _ E (inv_new s)) as (_ & _ & X). destruct (X eq_refl eq_refl) as (_ & HP & HM). split.
  - intros i j Ej l2. destruct (H l2 _ _ E) as (_ & L & _). destruct (HP i eq_refl) as (p & j' & Ep & Ej' & HPI); [congruence|]. exists p. split; [now apply (l_p _ _ _ L)|]. assert (j' = j) by congruence. subst. auto.
  - intros m M f EM Nf l2. destruct (H l2 _ _ E) as (_ & L & _). destruct (dget f (a_f a')) as [fe|] eqn:Ef; [|congruence]. eapply full_after; [exact EM|exact L| |exact Ef]. apply HM; auto.
Qed.

(** ** A case, and where it fails *)
Definition q1 := 1%Qc. Definition q2 := Q2Qc 2. Definition q3 := Q2Qc 3. Definition q5 := Q2Qc 5.
Definition mass : ugroup := UG [IU 0 "kg" q1; IU 1 "g" (Q2Qc (1 # 1000)); IU 2 "t" (Q2Qc 1000)] 0.
Definition f1 : iflow := IF [IProp 0 1 q1; IProp 1 2 q5] 0.
Definition ex_src : source := Src [(10, mass)] [(1, 10); (2, 10)] [(100, f1); (101, f1)]
  [(200, IP [IX 0 100 Output (Some q1) false; IX 1 101 Input (Some q2) false; IX 2 101 Input (Some q3) true; IX 3 102 Input None false] (Some 0))]
  [(300, IM 2 [IFac 100 None q2; IFac 100 (Some "FR") q3; IFac 101 (Some "FR") q5; IFac 103 None q1])].
Definition cf_at (a : arch) f m loc : option Qc := match dget f (a_f a) with Some fe => Some (cf fe (LM m) loc) | None => None end.
Definition val_at (a : arch) i k : option Qc := match dget i (a_p a) with Some p => exch_value p k | None => None end.
Theorem C121_witness : let r := istep ex_src LoadAll new_arch in
  snd r = IOk tt /\ val_at (fst r) 200 (101, Input, None) = Some q5 /\ option_map p_refs (dget 200 (a_p (fst r))) = Some [(100, Output, None)] /\
  dget 102 (s_fl ex_src) = None /\ cf_at (fst r) 102 300 "GLO" = Some 0%Qc /\ well_numbered mass /\
  cf_at (fst r) 100 300 "FR" = Some q3 /\ cf_at (fst r) 100 300 "DE" = Some q2 /\ cf_at (fst r) 101 300 "FR" = Some q5 /\ cf_at (fst r) 101 300 "DE" = Some 0%Qc /\
  snd (istep ex_src (LoadMethod 300 (Some true)) new_arch) = IErr IKeyError /\
  option_map (uconvert (Some "t") (Some "kg")) (dget 1 (a_q (fst r))) = Some (UNum (Q2Qc 1000)).
Proof.
  cbv zeta. assert (Q : forall o (x : Qc), match o with Some y => Qc_eq_bool y x = true | None => False end -> o = Some x).
  { intros [y|] x H; [|contradiction]. f_equal. apply Qc_eq_bool_correct. exact H. }
  split; [vm_compute; reflexivity|]. split; [apply Q; vm_compute; reflexivity|]. split; [vm_compute; reflexivity|]. split; [reflexivity|]. split; [apply Q; vm_compute; reflexivity|].
  split. { split; [cbn; repeat constructor; cbn; intuition discriminate|]. intros k u. do 4 (destruct k as [|k]; [cbn; intros E; inversion E; reflexivity|]). cbn. destruct k; discriminate. }
  do 4 (split; [apply Q; vm_compute; reflexivity|]). split; [vm_compute; reflexivity|]. 
  assert (Z : exists y, option_map (uconvert (Some "t") (Some "kg")) (dget 1 (a_q (fst (istep ex_src LoadAll new_arch)))) = Some (UNum y) /\ Qc_eq_bool y (Q2Qc 1000) = true) by (eexists; split; vm_compute; reflexivity).
  destruct Z as (y & -> & Hy). apply Qc_eq_bool_correct in Hy. now subst.
Qed.
Ltac qs := match goal with |- ?o = Some ?x => assert (Q : match o with Some y => Qc_eq_bool y x = true | None => False end) by (vm_compute; reflexivity);
  revert Q; destruct o as [y|]; [intros Q; apply Qc_eq_bool_correct in Q; now subst|contradiction] end.
(** A worldwide factor listed after a regional one is lost: elsewhere the factor is zero. *)
Theorem C121_refuted_order : let s := Src [(10, mass)] [(1, 10); (2, 10)] [(100, f1)] [] [(300, IM 2 [IFac 100 (Some "FR") q3; IFac 100 None q2])] in
  let a := ihist s [GetFlow 100; LoadMethod 300 (Some true)] in cf_at a 100 300 "DE" = Some 0%Qc /\ cf_at a 100 300 "FR" = Some q3.
Proof. cbv zeta. split; qs. Qed.
(** A flow with an input factor and an output factor: only the first is kept. *)
Theorem C121_refuted_directions : let s := Src [(10, mass)] [(1, 10); (2, 10)] [(100, f1)] [] [(300, IM 2 [IFac 100 None q2; IFac 100 None (- q2)%Qc])] in
  cf_at (ihist s [LoadMethod 300 (Some true)]) 100 300 "GLO" = Some q2.
Proof. cbv zeta. qs. Qed.
(** A method fetched by [get] is passed over by [load_lcia] and [load_all]: its factors are never loaded. *)
Theorem C121_refuted_get_method : let a := ihist ex_src [GetMethod 300; LoadAll; LoadLcia (Some false)] in
  a_loaded a = true /\ cf_at a 100 300 "GLO" = Some 0%Qc /\ cf_at (ihist ex_src [LoadAll]) 100 300 "GLO" = Some q2.
Proof. cbv zeta. split; [vm_compute; reflexivity|]. split; qs. Qed.
(** A flow fetched after [load_lcia] has no factors; loading again does not help. *)
Theorem C121_refuted_late_flow : let a := ihist ex_src [LoadLcia (Some false); GetFlow 100; LoadLcia (Some false)] in
  cf_at a 100 300 "GLO" = Some 0%Qc /\ cf_at (ihist ex_src [GetFlow 100; LoadLcia (Some false)]) 100 300 "GLO" = Some q2.
Proof. cbv zeta. split; qs. Qed.
(** The reference unit is found by position: a group that numbers its units otherwise gives a wrong one, or an IndexError that makes
    every process that uses it unreadable. *)
Definition from_one : ugroup := UG [IU 1 "kg" q1; IU 2 "g" (Q2Qc (1 # 1000))] 1.
Definition bad_units : source := Src [(10, from_one); (11, UG [IU 1 "kg" q1] 1)] [(1, 10); (2, 11)] [(100, IF [IProp 0 1 q1] 0); (101, IF [IProp 0 2 q1] 0)]
  [(200, IP [IX 0 101 Output (Some q1) false] (Some 0))] [].
Theorem C121_refuted_unit_position : (exists e, dget 1 (a_q (ihist bad_units [GetFlow 100])) = Some e /\ qu_unit e = "g") /\
  (exists u, In u (g_units from_one) /\ u_id u = g_ref from_one /\ u_name u = "kg") /\
  snd (istep bad_units (GetProcess 200) new_arch) = IErr IIndexError.
Proof. split; [eexists; vm_compute; split; reflexivity|]. split; [eexists; split; [left; reflexivity|split; reflexivity]|]. vm_compute. reflexivity. Qed.
(** A second amount that is zero, with a comment, raises; the process stays in the archive without its later exchanges and is
    returned by the next [get]. *)
Definition bad_comment : source := Src [(10, mass)] [(1, 10); (2, 10)] [(100, f1); (101, f1)]
  [(200, IP [IX 0 100 Output (Some q1) false; IX 1 101 Input (Some q2) false; IX 2 101 Input (Some 0%Qc) true; IX 3 100 Input (Some q5) false] (Some 0))] [].
Theorem C121_refuted_truncated : snd (istep bad_comment (GetProcess 200) new_arch) = IErr IAttributeError /\
  snd (istep bad_comment (GetProcess 200) (ihist bad_comment [GetProcess 200])) = IOk tt /\
  option_map (fun p => dkeys (p_exch p)) (dget 200 (a_p (ihist bad_comment [GetProcess 200; GetProcess 200]))) = Some [(100, Output, None); (101, Input, None)].
Proof. repeat split; vm_compute; reflexivity. Qed.
(** A reference property with another value than one, as ILCD allows, makes the flow and every process with it unreadable. *)
Theorem C121_refuted_reference_value : let s := Src [(10, mass)] [(1, 10)] [(100, IF [IProp 0 1 q2] 0)] [(200, IP [IX 0 100 Output (Some q1) false] (Some 0))] [] in
  snd (istep s (GetFlow 100) new_arch) = IErr IValueError /\ snd (istep s (GetProcess 200) new_arch) = IErr IValueError.
Proof. cbv zeta. split; vm_compute; reflexivity. Qed.
(** A reference property whose file, or whose unit group, is missing is dropped in silence: the flow has no reference quantity. *)
Theorem C121_refuted_missing_property : let s := Src [] [(1, 10)] [(100, IF [IProp 0 1 q1] 0)] [] [] in
  snd (istep s (GetFlow 100) new_arch) = IOk tt /\ option_map fe_ref (dget 100 (a_f (ihist s [GetFlow 100]))) = Some None.
Proof. cbv zeta. split; vm_compute; reflexivity. Qed.
(** A property listed twice, as the reference second: its factor in terms of itself is not one. *)
Theorem C121_refuted_twice : let s := Src [(10, mass)] [(1, 10)] [(100, IF [IProp 0 1 q5; IProp 1 1 q1] 1)] [] [] in
  option_map fe_ref (dget 100 (a_f (ihist s [GetFlow 100]))) = Some (Some 1) /\ option_map (fun fe => cf fe (FP 1) "GLO") (dget 100 (a_f (ihist s [GetFlow 100]))) = Some q5.
Proof. cbv zeta. split; [vm_compute; reflexivity|]. qs. Qed.

Print Assumptions C121_processes. Print Assumptions C121_get_process. Print Assumptions C121_flows. Print Assumptions C121_flows_stable. Print Assumptions C121_units_partial.
Print Assumptions C121_method. Print Assumptions C121_method_all. Print Assumptions C121_lcia. Print Assumptions C121_load_all.

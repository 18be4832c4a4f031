(** Accounting, termination and totality of the background engine's traversal (BgModel.v). *)
From Verif Require Import Num Base ProcModel BgModel BgProofs.
From Coq Require Import Relations Sorted Permutation.
Open Scope nat_scope.
Open Scope list_scope.

Lemma NoDup_app_disj {A} (l m : list A) : NoDup (l ++ m) -> forall x, In x l -> In x m -> False.
Proof.
  induction l as [|a l IH]; cbn; [tauto|]. intros N x [<-|J] K; inversion N as [|? ? N1 N2]; subst; [apply N1, in_app_iff; auto|]. eauto.
Qed.

Section Acc.
Context (D : db) (strat : strategy).
Notation target := (target D strat). Notation starget := (starget D strat). Notation targets := (targets D strat).
Notation sres := (sres D strat). Notation edge := (edge D strat). Notation reach := (reach D strat).

(** * What each product flow must contribute *)
(** interior entries of column [u] from the exchanges [xs]: one per terminated exchange, self-dependencies apart *)
Definition ints (u : node) (xs : list rex) : list (node * node * Qc) :=
  flat_map (fun x => match target x, relevant x with Some i, Some v => if eqb u i then [] else [(u, i, pval x v)] | _, _ => [] end) xs.
(** cut-off entries *)
Definition cuts (u : node) (xs : list rex) : list (node * emis * Qc) :=
  flat_map (fun x => match relevant x, starget x with Some v, None => [(u, (r_flow x, r_dir x), v)] | _, _ => [] end) xs.
(** values of the self-dependencies *)
Definition selfs (u : node) (xs : list rex) : list Qc :=
  flat_map (fun x => match target x, relevant x with Some i, Some v => if eqb u i then [pval x v] else [] | _, _ => [] end) xs.
Definition ev0 (d : dirn) : Qc := match d with Input => Q2Qc (-1) | Output => Q2Qc 1 end.
Definition evs (u : node) (xs : list rex) : option Qc :=
  match db_ref D u with Some d => Some (fold_left adjust_ev (selfs u xs) (ev0 d)) | None => None end.
Definition Ints (u : node) := ints u (db_inv D u).
Definition Cuts (u : node) := cuts u (db_inv D u).
Definition Evs (u : node) := evs u (db_inv D u).

Definition EMS (s : est) : Prop := forall f d, In (f, d) (e_ems s) -> sres f d = None.
Definition REF (s : est) : Prop := NoDup (e_pf s) /\ forall v, In v (e_pf s) -> db_ref D v <> None.
Definition cem (c : node * emis * Qc) : emis := snd (fst c).

Lemma tstep_inv visit u x s s' : EMS s -> REF s -> tstep D strat visit u x s = TDone s' ->
  (target x = None /\ cuts u [x] = [] /\ s' = s)
  \/ (exists v, target x = None /\ sres (r_flow x) (r_dir x) = None /\ cuts u [x] = [(u, (r_flow x, r_dir x), v)] /\ s' = add_cutoff s u (r_flow x, r_dir x) v)
  \/ (exists i v, target x = Some i /\ relevant x = Some v /\ cuts u [x] = [] /\
       ((In i (e_pf s) /\ (exists l, s' = add_interior (set_low s u l) u i (pval x v) \/ s' = add_interior s u i (pval x v)))
        \/ (~ In i (e_pf s) /\ exists d s2, db_ref D i = Some d /\ visit i (create s i d) = TDone s2
             /\ s' = add_interior (set_low s2 u (lowl s2 i)) u i (pval x v)))).
Proof.
  intros M [_ R]. unfold tstep, BgProofs.target, relevant, cuts. cbn [flat_map]. unfold relevant.
  destruct (r_val x) as [v|]; [|intros E; injection E as <-; left; auto].
  destruct (eqb v (Q2Qc 0)); [intros E; injection E as <-; left; auto|].
  destruct (r_isref x); [intros E; injection E as <-; left; auto|].
  destruct (terminate D (e_ems s) x strat) as [[p|]|e] eqn:T; [| |discriminate].
  - rewrite (terminate_ems D strat s x _ M T). set (i := (r_flow x, p)).
    destruct (mem_spec i (e_pf s)) as [J|J].
    + intros E; injection E as <-. destruct (db_ref D i) eqn:DR; [|exfalso; eapply R; eauto].
      right; right. exists i, v. split; auto. split; auto. split; auto. left. split; auto. exists (idx s i). destruct (mem i (e_stk s)); auto.
    + destruct (db_ref D i) as [d|] eqn:DR; [|intros E; injection E as <-; left; auto].
      destruct (handler i (visit i (create s i d))) as [s2| |] eqn:V; try discriminate. apply handler_done in V.
      intros E; injection E as <-. right; right. exists i, v. split; auto. split; auto. split; auto. right. split; auto. exists d, s2. auto.
  - rewrite (terminate_ems D strat s x _ M T). intros E; injection E as <-. right; left. exists v. split; auto. split; [|auto].
    eapply terminate_none_sres; eauto. apply (terminate_ems D strat s x _ M T).
Qed.

Definition acc_post (u : node) (s s2 : est) : Prop :=
  EMS s2 /\ REF s2 /\ exists new,
    e_pf s2 = e_pf s ++ u :: new /\ (forall v, In v new -> reach u v)
    /\ Permutation (e_int s2) (e_int s ++ flat_map Ints (u :: new))
    /\ Permutation (e_cut s2) (e_cut s ++ flat_map Cuts (u :: new))
    /\ (forall v, In v (e_pf s) -> dget v (e_ev s2) = dget v (e_ev s))
    /\ (forall v, In v (u :: new) -> dget v (e_ev s2) = Evs v)
    /\ (forall e, In e (e_ems s2) <-> In e (e_ems s) \/ In e (map cem (flat_map Cuts (u :: new))))
    /\ (NoDup (e_ems s) -> NoDup (e_ems s2)).
Definition visit_acc (visit : node -> est -> tres) : Prop := forall u s d s2,
  EMS s -> REF s -> ~ In u (e_pf s) -> db_ref D u = Some d -> visit u (create s u d) = TDone s2 -> acc_post u s s2.

Record AC (u : node) (s0 : est) (done : list rex) (s : est) : Prop := {
  ac_ems : EMS s; ac_ref : REF s;
  ac_new : exists new,
    e_pf s = e_pf s0 ++ u :: new /\ (forall v, In v new -> reach u v)
    /\ Permutation (e_int s) (e_int s0 ++ ints u done ++ flat_map Ints new)
    /\ Permutation (e_cut s) (e_cut s0 ++ cuts u done ++ flat_map Cuts new)
    /\ (forall v, In v (e_pf s0) -> dget v (e_ev s) = dget v (e_ev s0))
    /\ dget u (e_ev s) = evs u done
    /\ (forall v, In v new -> v <> u /\ dget v (e_ev s) = Evs v)
    /\ (forall e, In e (e_ems s) <-> In e (e_ems s0) \/ In e (map cem (cuts u done ++ flat_map Cuts new)))
    /\ (NoDup (e_ems s0) -> NoDup (e_ems s)) }.

Lemma ints_app u a b : ints u (a ++ b) = ints u a ++ ints u b. Proof. apply flat_map_app. Qed.
Lemma cuts_app u a b : cuts u (a ++ b) = cuts u a ++ cuts u b. Proof. apply flat_map_app. Qed.
Lemma selfs_app u a b : selfs u (a ++ b) = selfs u a ++ selfs u b. Proof. apply flat_map_app. Qed.
Lemma evs_snoc u done x d : db_ref D u = Some d -> evs u (done ++ [x]) = Some (fold_left adjust_ev (selfs u [x]) (fold_left adjust_ev (selfs u done) (ev0 d))).
Proof. intros E. unfold evs. rewrite E, selfs_app, fold_left_app. reflexivity. Qed.

(** the fields of [add_interior] *)
Lemma add_interior_int s u i v : e_int (add_interior s u i v) = e_int s ++ (if eqb u i then [] else [(u, i, v)]).
Proof. unfold add_interior. destruct (eqb u i); cbn; [rewrite app_nil_r|]; reflexivity. Qed.
Lemma add_interior_cut s u i v : e_cut (add_interior s u i v) = e_cut s.
Proof. unfold add_interior. destruct (eqb u i); reflexivity. Qed.
Lemma add_interior_pf s u i v : e_pf (add_interior s u i v) = e_pf s.
Proof. unfold add_interior. destruct (eqb u i); reflexivity. Qed.
Lemma add_interior_ems s u i v : e_ems (add_interior s u i v) = e_ems s.
Proof. unfold add_interior. destruct (eqb u i); reflexivity. Qed.
Lemma add_interior_ev s u i v e : dget u (e_ev s) = Some e -> forall w, dget w (e_ev (add_interior s u i v)) =
  if eqb w u then Some (fold_left adjust_ev (if eqb u i then [v] else []) e) else dget w (e_ev s).
Proof.
  intros E w. unfold add_interior. destruct (eqb u i); cbn [e_ev fold_left].
  - rewrite dget_dset, E. reflexivity.
  - destruct (eqb_spec w u) as [->|]; auto.
Qed.

Lemma ints_one u x i v : target x = Some i -> relevant x = Some v -> ints u [x] = if eqb u i then [] else [(u, i, pval x v)].
Proof. intros T R. unfold ints. cbn [flat_map]. rewrite T, R, app_nil_r. reflexivity. Qed.
Lemma selfs_one u x i v : target x = Some i -> relevant x = Some v -> selfs u [x] = if eqb u i then [pval x v] else [].
Proof. intros T R. unfold selfs. cbn [flat_map]. rewrite T, R, app_nil_r. reflexivity. Qed.
Lemma ints_none u x : target x = None -> ints u [x] = [].
Proof. intros T. unfold ints. cbn [flat_map]. rewrite T. reflexivity. Qed.
Lemma selfs_none u x : target x = None -> selfs u [x] = [].
Proof. intros T. unfold selfs. cbn [flat_map]. rewrite T. reflexivity. Qed.

(** adding an interior entry for [u] *)
Lemma AC_interior u s0 done s x i v d : db_ref D u = Some d -> ~ In u (e_pf s0) -> target x = Some i -> relevant x = Some v -> cuts u [x] = [] ->
  AC u s0 done s -> AC u s0 (done ++ [x]) (add_interior s u i (pval x v)).
Proof.
  intros DR NU T R C [A1 A2 [new [B1 [B2 [B3 [B4 [B5 [B6 [B7 [B8 B9]]]]]]]]]].
  assert (EU : dget u (e_ev s) = Some (fold_left adjust_ev (selfs u done) (ev0 d))) by (rewrite B6; unfold evs; rewrite DR; reflexivity).
  pose proof (add_interior_ev s u i (pval x v) _ EU) as EV.
  constructor.
  - unfold EMS. rewrite add_interior_ems. exact A1.
  - unfold REF. rewrite add_interior_pf. exact A2.
  - exists new. rewrite add_interior_pf, add_interior_int, add_interior_cut, add_interior_ems, ints_app, cuts_app, C, app_nil_r, (ints_one u x i v T R).
    split; [exact B1|]. split; [exact B2|]. split; [|split; [exact B4|split; [|split; [|split; [|split; [exact B8|exact B9]]]]]].
    + rewrite B3, <- !app_assoc. apply Permutation_app_head, Permutation_app_head. apply Permutation_app_comm.
    + intros w J. rewrite EV. destruct (eqb_spec w u) as [->|]; [contradiction|]. auto.
    + rewrite EV, eqb_refl, (evs_snoc u done x d DR), (selfs_one u x i v T R). reflexivity.
    + intros w J. destruct (B7 w J) as [N E]. split; auto. rewrite EV. destruct (eqb_spec w u); [contradiction|exact E].
Qed.
Lemma AC_low u s0 done s w l : AC u s0 done s -> AC u s0 done (set_low s w l).
Proof. intros [A1 A2 A3]. constructor; auto. Qed.

Lemma AC_step visit u d s0 done x s s' : visit_acc visit -> db_ref D u = Some d -> ~ In u (e_pf s0) -> In x (db_inv D u) ->
  AC u s0 done s -> tstep D strat visit u x s = TDone s' -> AC u s0 (done ++ [x]) s'.
Proof.
  intros VA DR NU XI A T. pose proof A as [A1 A2 [new [B1 [B2 [B3 [B4 [B5 [B6 [B7 [B8 B9]]]]]]]]]].
  apply tstep_inv in T; auto. destruct T as [[T [C ->]]|[[v [T [S [C ->]]]]|[i [v [T [R [C [[J [l [->| ->]]]|[J [d' [s2 [DI [V ->]]]]]]]]]]]]].
  - constructor; auto. exists new. rewrite ints_app, cuts_app, C, (ints_none u x T), !app_nil_r, (evs_snoc u done x d DR), (selfs_none u x T).
    do 5 (split; [assumption|]). split; [|auto]. rewrite B6. unfold evs. rewrite DR. reflexivity.
  - constructor.
    + intros f e J. cbn in J. apply In_set_add in J as [J|J]; [injection J as -> ->; exact S|auto].
    + exact A2.
    + exists new. cbn [add_cutoff e_pf e_int e_cut e_ev e_ems]. rewrite ints_app, cuts_app, C, (ints_none u x T), app_nil_r, (evs_snoc u done x d DR), (selfs_none u x T).
      split; [exact B1|]. split; [exact B2|]. split; [exact B3|]. split; [|split; [exact B5|split; [|split; [exact B7|split]]]].
      * rewrite B4, <- !app_assoc. apply Permutation_app_head, Permutation_app_head. apply Permutation_app_comm.
      * rewrite B6. unfold evs. rewrite DR. reflexivity.
      * intros e. rewrite In_set_add, B8, !map_app, !in_app_iff. cbn. intuition.
      * intros ND. apply NoDup_set_add. auto.
  - eapply AC_interior; eauto. apply AC_low. exact A.
  - eapply AC_interior; eauto.
  - destruct (VA i s d' s2 A1 A2 J DI V) as [V1 [V2 [new2 [W1 [W2 [W3 [W4 [W5 [W6 [W7 W8]]]]]]]]]].
    assert (ED : edge u i). { unfold BgProofs.edge, BgProofs.targets. apply in_flat_map. exists x. split; auto. rewrite T. cbn; auto. }
    eapply AC_interior; eauto. apply AC_low. constructor; auto.
    exists (new ++ i :: new2). split; [rewrite W1, B1, <- app_assoc; reflexivity|]. split.
    { intros w K. apply in_app_iff in K as [K|[<-|K]]; [auto|apply reach_edge; exact ED|]. eapply reach_trans; [apply reach_edge; exact ED|auto]. }
    rewrite !flat_map_app. split; [rewrite W3, B3, <- !app_assoc; reflexivity|]. split; [rewrite W4, B4, <- !app_assoc; reflexivity|].
    assert (UP : In u (e_pf s)) by (rewrite B1; apply in_app_iff; cbn; auto).
    split; [intros w K; rewrite W5; [auto|rewrite B1; apply in_app_iff; auto]|].
    split; [rewrite W5; auto|]. split; [|split].
    + intros w K. apply in_app_iff in K as [K|K].
      * destruct (B7 w K). split; auto. rewrite W5; [auto|rewrite B1; apply in_app_iff; cbn; auto].
      * split; [|apply W6; exact K]. intros ->. destruct K as [K|K]; [subst; auto|].
        destruct V2 as [V2 _]. rewrite W1 in V2. apply (NoDup_remove (e_pf s) new2 i) in V2 as [V2 _].
        apply (NoDup_app_disj (e_pf s) new2 V2 u UP K).
    + intros e. rewrite W7, B8, !map_app, !in_app_iff. tauto.
    + auto.
Qed.

Lemma AC_loop visit u d s0 : visit_acc visit -> db_ref D u = Some d -> ~ In u (e_pf s0) ->
  forall xs done s s', (forall x, In x xs -> In x (db_inv D u)) -> AC u s0 done s -> tloop D strat visit u xs s = TDone s' -> AC u s0 (done ++ xs) s'.
Proof.
  intros VA DR NU. induction xs as [|x xs IH]; intros done s s' S A T; cbn in T.
  - injection T as <-. rewrite app_nil_r. exact A.
  - destruct (tstep D strat visit u x s) as [s1| |] eqn:E; try discriminate.
    change (x :: xs) with ([x] ++ xs). rewrite app_assoc. apply (IH _ s1); auto; [intros; apply S; cbn; auto|].
    eapply AC_step; eauto. apply S; cbn; auto.
Qed.
Lemma AC_create u s d : EMS s -> REF s -> ~ In u (e_pf s) -> db_ref D u = Some d -> AC u s [] (create s u d).
Proof.
  intros M [N R] NU DR. constructor.
  - exact M.
  - split; cbn; [apply NoDup_snoc; auto|]. intros v J. apply in_app_iff in J as [J|[<-|[]]]; [auto|congruence].
  - exists []. cbn [create e_pf e_int e_cut e_ev e_ems set_low]. split; [reflexivity|]. split; [intros v []|]. cbn [ints cuts flat_map app]. rewrite !app_nil_r.
    split; [reflexivity|]. split; [reflexivity|]. split; [intros v J; apply dget_dset_other; intros ->; auto|].
    split; [rewrite dget_dset_same; unfold evs; rewrite DR; destruct d; reflexivity|]. split; [intros v []|]. split; [|auto].
    intros e. cbn. tauto.
Qed.
Lemma finish_fields u s s2 : finish u s = TDone s2 -> e_pf s2 = e_pf s /\ e_int s2 = e_int s /\ e_cut s2 = e_cut s /\ e_ev s2 = e_ev s /\ e_ems s2 = e_ems s.
Proof.
  unfold finish. destruct (Nat.eqb _ _); [|intros E; injection E as <-; auto 10].
  destruct (label_scc _ _ _ _ _) as [[[? ?] ?]|]; [|discriminate]. intros E; injection E as <-; cbn; auto 10.
Qed.
Theorem trav_acc n : visit_acc (trav D strat n).
Proof.
  induction n as [|n IH]; intros u s d s2 M R NU DR T; [discriminate|]. cbn [trav] in T.
  destruct (tloop D strat (trav D strat n) u (db_inv D u) (create s u d)) as [s1| |] eqn:L; try discriminate.
  pose proof (AC_loop _ u d s IH DR NU (db_inv D u) [] _ _ (fun x h => h) (AC_create u s d M R NU DR) L) as [A1 A2 [new [B1 [B2 [B3 [B4 [B5 [B6 [B7 [B8 B9]]]]]]]]]].
  apply finish_fields in T as [F1 [F2 [F3 [F4 F5]]]]. cbn [app] in *.
  split; [unfold EMS; rewrite F5; exact A1|]. split; [unfold REF; rewrite F1; exact A2|]. exists new. rewrite F1, F2, F3, F4, F5. cbn [flat_map].
  split; [exact B1|]. split; [exact B2|]. split; [exact B3|]. split; [exact B4|]. split; [exact B5|]. split; [|split; [exact B8|exact B9]].
  intros v [<-|J]; [exact B6|apply B7; exact J].
Qed.

(** * Totality: enough fuel, and an outcome that is never an internal error *)
Definition unv (U : list node) (s : est) : nat := length (filter (fun v => negb (mem v (e_pf s))) U).
Lemma filter_len_le {A} (f g : A -> bool) l : (forall x, In x l -> f x = true -> g x = true) -> length (filter f l) <= length (filter g l).
Proof.
  induction l as [|a l IH]; cbn; auto. intros S. assert (IH' := IH (fun x h => S x (or_intror h))).
  destruct (f a) eqn:E; [rewrite (S a (or_introl eq_refl) E); cbn; lia|]. destruct (g a); cbn; lia.
Qed.
Lemma filter_len_lt {A} (f g : A -> bool) l a : (forall x, In x l -> f x = true -> g x = true) -> In a l -> f a = false -> g a = true ->
  length (filter f l) < length (filter g l).
Proof.
  intros S J F G. induction l as [|b l IH]; [destruct J|]. cbn. destruct J as [<-|J].
  - rewrite F, G. cbn. apply Nat.lt_succ_r. apply filter_len_le. intros; apply S; cbn; auto.
  - assert (IH' := IH (fun x h => S x (or_intror h)) J). destruct (f b) eqn:E; [rewrite (S b (or_introl eq_refl) E); cbn; lia|]. destruct (g b); cbn; lia.
Qed.
Lemma unv_mono U s s' l : e_pf s' = e_pf s ++ l -> unv U s' <= unv U s.
Proof. intros E. unfold unv. apply filter_len_le. intros x _. rewrite E, !Bool.negb_true_iff, !mem_nIn, in_app_iff. tauto. Qed.
Lemma unv_create U s u d : In u U -> ~ In u (e_pf s) -> unv U (create s u d) < unv U s.
Proof.
  intros J N. unfold unv. apply filter_len_lt with u; auto.
  - intros x _. cbn [create e_pf]. rewrite !Bool.negb_true_iff, !mem_nIn, in_app_iff. tauto.
  - rewrite Bool.negb_false_iff, mem_In. cbn [create e_pf]. apply in_app_iff; cbn; auto.
  - rewrite Bool.negb_true_iff, mem_nIn. exact N.
Qed.

Definition closed (U : list node) : Prop := forall u v, In u U -> edge u v -> In v U.
Lemma handler_fuel i r : handler i r = TFuel -> r = TFuel.
Proof. destruct r as [s'|s' e|]; cbn; [discriminate| |auto]. destruct e; try discriminate. destruct (rm_children i (e_stk s') s') as [? [?|]]; discriminate. Qed.
Lemma finish_fuel u s : finish u s <> TFuel.
Proof. unfold finish. destruct (Nat.eqb _ _); [|discriminate]. destruct (label_scc _ _ _ _ _) as [[[? ?] ?]|]; discriminate. Qed.
Theorem trav_fuel U : closed U -> forall n u s d, In u U -> EMS s -> REF s -> ~ In u (e_pf s) -> db_ref D u = Some d -> unv U (create s u d) < n -> trav D strat n u (create s u d) <> TFuel.
Proof.
  intros CL. induction n as [|n IH]; intros u s0 d JU M0 R0 NU DR LT; [lia|]. cbn [trav].
  destruct (tloop D strat (trav D strat n) u (db_inv D u) (create s0 u d)) as [s1| |] eqn:L; [apply finish_fuel|discriminate|]. exfalso.
  assert (W : forall xs done s, (forall x, In x xs -> In x (db_inv D u)) -> AC u s0 done s -> tloop D strat (trav D strat n) u xs s <> TFuel).
  { induction xs as [|x xs IHx]; intros done s S A; cbn; [discriminate|].
    destruct (tstep D strat (trav D strat n) u x s) as [s'| |] eqn:E; [|discriminate|].
    - apply (IHx (done ++ [x])); [intros; apply S; cbn; auto|]. eapply AC_step; eauto; [apply trav_acc|apply S; cbn; auto].
    - exfalso. unfold tstep in E. pose proof A as [A1 A2 [new [B1 _]]]. destruct (r_val x) as [v|] eqn:RV; [|discriminate].
      destruct (eqb v (Q2Qc 0)) eqn:VZ; [discriminate|]. destruct (r_isref x) eqn:RR; [discriminate|].
      destruct (terminate D (e_ems s) x strat) as [[p|]|e] eqn:T; try discriminate.
      destruct (mem_spec (r_flow x, p) (e_pf s)) as [|NI]; [discriminate|].
      destruct (db_ref D (r_flow x, p)) as [d'|] eqn:DI; [|discriminate].
      destruct (handler (r_flow x, p) (trav D strat n (r_flow x, p) (create s (r_flow x, p) d'))) eqn:H; try discriminate.
      apply handler_fuel in H. revert H. apply IH; auto.
      + apply (CL u); auto. unfold BgProofs.edge, BgProofs.targets. apply in_flat_map. exists x. split; [apply S; cbn; auto|].
        unfold BgProofs.target, relevant. rewrite RV, VZ, RR, (terminate_ems D strat s x _ A1 T), DI. cbn; auto.
      + assert (X : In (r_flow x, p) U).
        { apply (CL u); auto. unfold BgProofs.edge, BgProofs.targets. apply in_flat_map. exists x. split; [apply S; cbn; auto|].
          unfold BgProofs.target, relevant. rewrite RV, VZ, RR, (terminate_ems D strat s x _ A1 T), DI. cbn; auto. }
        pose proof (unv_create U s _ d' X NI). assert (Y : unv U s <= unv U (create s0 u d)) by (apply (unv_mono U _ _ new); cbn [create e_pf]; rewrite B1, <- app_assoc; reflexivity). lia. }
  revert L. apply (W _ []); auto. apply AC_create; auto.
Qed.

(** the only failures are those of [terminate] *)
Definition term_err (e : bexn) : Prop := exists x, terminate D [] x strat = BErr e.
Lemma terminate_err ems x e : terminate D ems x strat = BErr e -> term_err e.
Proof. intros T. exists x. revert T. unfold terminate. destruct (r_term x); auto. destruct (mem _ ems); [discriminate|]. cbn [mem]. auto. Qed.
Lemma finish_total G u s0 done s : TI D strat G s0 -> ~ In u (e_pf s0) -> LI D strat G u s0 done s -> exists s2, finish u s = TDone s2.
Proof.
  intros I0 N L. unfold finish. destruct (Nat.eqb _ _); [|eauto].
  destruct (li_stk _ _ _ _ _ _ _ L) as [ab ST]. rewrite ST.
  pose proof (ti_sort _ _ _ _ (li_ti _ _ _ _ _ _ _ L)) as SO. rewrite ST in SO. apply sorted_app in SO as [S1 _].
  destruct (label_scc_spec (idx s u) u ab (e_stk s0) (e_sccs s) (e_scc_of s)) as [a [b [-> _]]]; [intros J; apply S1 in J; lia|eauto].
Qed.
(** without an ambiguous termination the traversal succeeds *)
Theorem trav_total U : closed U -> (forall e, ~ term_err e) -> forall n G u s d, In u U -> TI D strat G s -> ~ In u (e_pf s) -> db_ref D u = Some d ->
  (forall y, In y (e_stk s) -> reach y u) -> unv U (create s u d) < n -> exists s2, trav D strat n u (create s u d) = TDone s2.
Proof.
  intros CL NE. induction n as [|n IH]; intros G u s0 d JU I0 NU DR RE LT; [lia|]. cbn [trav].
  assert (W : forall xs done s, (forall x, In x xs -> In x (db_inv D u)) -> LI D strat G u s0 done s -> unv U s <= unv U (create s0 u d) ->
    exists s', tloop D strat (trav D strat n) u xs s = TDone s' /\ exists done', LI D strat G u s0 done' s').
  { induction xs as [|x xs IHx]; intros done s S A UV; cbn [tloop]; [eauto|].
    pose proof (li_ti _ _ _ _ _ _ _ A) as I.
    assert (XI : In x (db_inv D u)) by (apply S; cbn; auto).
    assert (TS : exists s', tstep D strat (trav D strat n) u x s = TDone s' /\ unv U s' <= unv U s).
    { unfold tstep. destruct (r_val x) as [v|] eqn:RV; [|eauto]. destruct (eqb v (Q2Qc 0)) eqn:VZ; [eauto|]. destruct (r_isref x) eqn:RR; [eauto|].
      destruct (terminate D (e_ems s) x strat) as [[p|]|e] eqn:T; [|eexists; split; [reflexivity|apply Nat.le_refl]|exfalso; eapply NE, terminate_err; eauto].
      assert (TG : forall d', db_ref D (r_flow x, p) = Some d' -> edge u (r_flow x, p)).
      { intros d' DI. unfold BgProofs.edge, BgProofs.targets. apply in_flat_map. exists x. split; [exact XI|].
        unfold BgProofs.target, relevant. rewrite RV, VZ, RR, (terminate_ems D strat s x _ (ti_ems _ _ _ _ I) T), DI. cbn; auto. }
      set (i := (r_flow x, p)) in *. destruct (mem_spec i (e_pf s)) as [JI|JI].
      - eexists; split; [reflexivity|]. unfold unv. rewrite add_interior_pf. destruct (mem i (e_stk s)); reflexivity.
      - destruct (db_ref D i) as [d'|] eqn:DI; [|eauto].
        destruct (LI_split _ _ _ _ _ _ _ A I0 NU) as [SA [SB [SU [SR IU]]]].
        assert (RI : forall y, In y (e_stk s) -> reach y i) by (intros y J; eapply reach_trans; [apply SR; exact J|apply reach_edge, (TG d'); auto]).
        assert (XU : In i U) by (apply (CL u); auto; apply (TG d'); auto).
        pose proof (unv_create U s i d' XU JI) as UC.
        destruct (IH (u :: G) i s d' XU I JI DI RI) as [s2 T2]; [lia|]. rewrite T2. cbn [handler].
        destruct (trav_ok D strat n (u :: G) i s d' s2 I JI DI RI T2) as [_ [[new2 PF2] _]].
        eexists; split; [reflexivity|]. unfold unv at 1. rewrite add_interior_pf. cbn [set_low e_pf]. fold (unv U s2). eapply unv_mono; eauto. }
    destruct TS as [s' [TS UV']]. rewrite TS. apply (IHx (done ++ targets [x])); [intros; apply S; cbn; auto| |lia].
    apply (LI_step D strat (trav D strat n) G u s0 done x s s'); auto. apply trav_ok. }
  destruct (W (db_inv D u) [] (create s0 u d)) as [s1 [L [done' LI1]]]; auto; [apply LI_create; auto|].
  rewrite L. eapply finish_total; eauto.
Qed.
End Acc.

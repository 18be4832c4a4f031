(** The forest built from a foreground (model: ForestModel.v): effect of each step, and the invariant of the loops. *)
From Verif Require Import Num Base PyStr ProcModel ForestModel.
Open Scope nat_scope.
Open Scope list_scope.
Local Arguments eqb : simpl never.

(** what a child says: flow, direction, value, the process it ends in and whether through a background fragment *)
Definition view (h : fheap) (f : fgm) := (g_flow f, g_dir f, g_val f, target h f).
Definition view_x (x : xch) := (x_flow x, x_dir x, x_val x, Some (x_term x, false)).
Definition view_dep (x : xch) := (x_flow x, x_dir x, x_val x, Some (x_term x, true)).
Definition views (h : fheap) (l : fheap) := map (fun e => view h (snd e)) l.

(** * Heaps *)
Definition sound (h : fheap) (n : nat) : Prop := NoDup (dkeys h) /\ forall i f, dget i h = Some f -> i < n /\ forall p, g_parent f = Some p -> p < n.
(** nothing disappears, and terminations and background flags stay *)
Definition grows (h h' : fheap) : Prop := forall j g, dget j h = Some g -> exists g', dget j h' = Some g' /\ g_term g' = g_term g /\ g_bg g' = g_bg g.
Lemma grows_refl h : grows h h. Proof. intros j g H. eauto. Qed.
Lemma grows_trans a b c : grows a b -> grows b c -> grows a c.
Proof. intros A B j g H. destruct (A j g H) as (g1 & H1 & E1 & F1). destruct (B j g1 H1) as (g2 & H2 & E2 & F2). exists g2. split; [exact H2|]. split; congruence. Qed.
Lemma in_dget (h : fheap) i f : NoDup (dkeys h) -> In (i, f) h -> dget i h = Some f.
Proof.
  induction h as [|[j g] h IH]; [intros _ []|]. cbn. intros N [E|I]; inversion N as [|? ? A B]; subst.
  - injection E as -> ->. rewrite eqb_refl. reflexivity.
  - destruct (eqb_spec i j) as [->|NE]; [|apply IH; assumption]. exfalso. apply A. apply in_map_iff. exists (j, f). auto.
Qed.
Lemma dget_app (h l : fheap) i : dget i (h ++ l) = match dget i h with Some f => Some f | None => dget i l end.
Proof. induction h as [|[j g] h IH]; cbn; [reflexivity|]. destruct (eqb i j); [reflexivity|exact IH]. Qed.
Lemma grows_app h l : grows h (h ++ l).
Proof. intros j g H. exists g. rewrite dget_app, H. auto. Qed.
Lemma dget_lt h n i f : sound h n -> dget i h = Some f -> i < n. Proof. intros [_ S] H. exact (proj1 (S i f H)). Qed.
Lemma dget_fresh h n i : sound h n -> n <= i -> dget i h = None.
Proof. intros S L. destruct (dget i h) as [f|] eqn:E; [|reflexivity]. assert (X := dget_lt h n i f S E). lia. Qed.
Lemma key_dget (h : fheap) i : In i (dkeys h) -> exists f, dget i h = Some f.
Proof. induction h as [|[j g] h IH]; cbn; [intros []|]. intros [->|I]; [rewrite eqb_refl; eauto|]. destruct (eqb i j); eauto. Qed.
Lemma sound_add h n f : sound h n -> (forall p, g_parent f = Some p -> p < S n) -> sound (h ++ [(n, f)]) (S n).
Proof.
  intros [N S] P. split.
  - unfold dkeys. rewrite map_app. cbn. apply NoDup_snoc; [exact N|]. intros I. destruct (key_dget h n I) as [g G]. destruct (S n g G). lia.
  - intros i g. rewrite dget_app. destruct (dget i h) as [g'|] eqn:E.
    + intros [= <-]. destruct (S i g' E) as [L Q]. split; [lia|]. intros p H. specialize (Q p H). lia.
    + cbn. destruct (eqb_spec i n) as [->|]; [|discriminate]. intros [= <-]. split; [lia|exact P].
Qed.
Lemma sound_more h n m : sound h n -> n <= m -> sound h m.
Proof. intros [N S] L. split; [exact N|]. intros i f H. destruct (S i f H) as [A B]. split; [lia|]. intros p Q. specialize (B p Q). lia. Qed.
Lemma children_app i h l : children i (h ++ l) = children i h ++ children i l. Proof. unfold children. apply filter_app. Qed.
Definition closed (h : fheap) (f : fgm) : Prop := forall j, g_term f = ToFrag j -> dget j h <> None.
Lemma view_grows h h' f : grows h h' -> closed h f -> view h' f = view h f.
Proof.
  intros G C. unfold view, target. destruct (g_term f) as [p|j] eqn:T; [reflexivity|]. destruct (dget j h) as [g|] eqn:D; [|destruct (C j T D)]. destruct (G j g D) as (g' & -> & -> & ->). reflexivity.
Qed.
Lemma views_grows h h' l : grows h h' -> (forall e, In e l -> closed h (snd e)) -> views h' l = views h l.
Proof. intros G C. unfold views. apply map_ext_in. intros e I. apply view_grows; [exact G|apply C, I]. Qed.
Lemma children_in i h e : In e (children i h) <-> In e h /\ g_parent (snd e) = Some i.
Proof. unfold children. rewrite filter_In, eqb_eq. reflexivity. Qed.
Lemma children_none h n i : sound h n -> n <= i -> children i h = [].
Proof.
  intros S L. destruct (children i h) as [|[j f] t] eqn:E; [reflexivity|]. exfalso. assert (I : In (j, f) (children i h)) by (rewrite E; left; reflexivity). apply children_in in I as [I P].
  destruct (proj2 S j f (in_dget h j f (proj1 S) I)) as [_ Q]. specialize (Q i P). lia.
Qed.

Section Steps.
Context (deps : nat -> nat -> list xch).
(** * Nodes and their dependencies *)
Record deps_done (i : nat) (ds : list xch) (s s' : fst_) (l : fheap) : Prop := DD {
  dd_h : s_h s' = s_h s ++ l; dd_sound : sound (s_h s') (s_next s'); dd_tm : s_tm s' = s_tm s; dd_new : s_new s' = s_new s; dd_next : s_next s <= s_next s';
  dd_l : forall j f, In (j, f) l -> s_next s <= j /\ ((g_parent f = None /\ g_bg f = true /\ exists d, In d ds /\ g_term f = ToProc (x_term d)) \/
     (g_parent f = Some i /\ g_bg f = false /\ exists d b g, In d ds /\ g_term f = ToFrag b /\ dget b (s_h s') = Some g /\ g_term g = ToProc (x_term d) /\ g_bg g = true));
  dd_views : views (s_h s') (children i l) = map view_dep ds }.
Lemma add_dep_spec i x s : sound (s_h s) (s_next s) -> i < s_next s -> exists l, deps_done i [x] s (add_dep i s x) l.
Proof.
  intros SD L. unfold add_dep, find_or_create. destruct (find (fun e => ends_bg x (snd e)) (s_h s)) as [[b g]|] eqn:F.
  - apply find_some in F as [IB EB]. cbn in EB. unfold ends_bg in EB. rewrite !andb_true_iff in EB. destruct EB as [[[[B _] _] _] T]. assert (DB := in_dget _ _ _ (proj1 SD) IB).
    destruct (g_term g) as [p|] eqn:TG; [|discriminate]. apply Nat.eqb_eq in T. subst p. cbn [fst].
    set (f := Fg (Some i) (x_flow x) (x_dir x) (x_val x) false (ToFrag b)). assert (DB' : dget b (s_h s ++ [(s_next s, f)]) = Some g) by (rewrite dget_app, DB; reflexivity).
    exists [(s_next s, f)]. split; cbn; try reflexivity; try lia.
    + apply sound_add; [exact SD|]. cbn. intros p [= <-]. lia.
    + intros j f' [[= <- <-]|[]]. split; [lia|]. right. split; [reflexivity|]. split; [reflexivity|]. exists x, b, g. cbn. auto.
    + unfold children. cbn. rewrite eqb_refl. cbn. unfold view, target. cbn. rewrite DB', TG, B. reflexivity.
  - set (g := Fg None (x_flow x) (x_dir x) (Q2Qc 1) true (ToProc (x_term x))). set (f := Fg (Some i) (x_flow x) (x_dir x) (x_val x) false (ToFrag (s_next s))).
    assert (DB' : dget (s_next s) ((s_h s ++ [(s_next s, g)]) ++ [(S (s_next s), f)]) = Some g) by (rewrite !dget_app, (dget_fresh _ _ _ SD (le_n _)); cbn; rewrite eqb_refl; reflexivity).
    exists [(s_next s, g); (Datatypes.S (s_next s), f)]. split; cbn; try reflexivity; try lia.
    + rewrite <- app_assoc. reflexivity.
    + apply sound_add; [apply sound_add; [exact SD|cbn; discriminate]|]. cbn. intros p [= <-]. lia.
    + intros j f' [[= <- <-]|[[= <- <-]|[]]]; (split; [lia|]).
      * left. cbn. split; [reflexivity|]. split; [reflexivity|]. exists x. auto.
      * right. cbn. split; [reflexivity|]. split; [reflexivity|]. exists x, (s_next s), g. auto.
    + unfold children. cbn. destruct (eqb_spec (@None nat) (Some i)) as [|_]; [discriminate|]. rewrite eqb_refl. cbn. unfold view, target. cbn. rewrite DB'. reflexivity.
Qed.
Lemma add_deps_spec i ds : forall s, sound (s_h s) (s_next s) -> i < s_next s -> exists l, deps_done i ds s (fold_left (add_dep i) ds s) l.
Proof.
  induction ds as [|x ds IH]; intros s S L; cbn.
  - exists []. split; try reflexivity; try exact S; try lia. + rewrite app_nil_r. reflexivity. + intros j f [].
  - destruct (add_dep_spec i x s S L) as [l1 D1]. destruct (IH (add_dep i s x) (dd_sound _ _ _ _ _ D1)) as [l2 D2]; [assert (X := dd_next _ _ _ _ _ D1); lia|].
    set (s1 := add_dep i s x) in *. set (s2 := fold_left (add_dep i) ds s1) in *.
    assert (G : grows (s_h s1) (s_h s2)) by (rewrite (dd_h _ _ _ _ _ D2); apply grows_app).
    exists (l1 ++ l2). split.
    + rewrite (dd_h _ _ _ _ _ D2), (dd_h _ _ _ _ _ D1), app_assoc. reflexivity.
    + exact (dd_sound _ _ _ _ _ D2).
    + rewrite (dd_tm _ _ _ _ _ D2). exact (dd_tm _ _ _ _ _ D1).
    + rewrite (dd_new _ _ _ _ _ D2). exact (dd_new _ _ _ _ _ D1).
    + assert (X := dd_next _ _ _ _ _ D1). assert (Y := dd_next _ _ _ _ _ D2). lia.
    + intros j f I. apply in_app_iff in I as [I|I].
      * destruct (dd_l _ _ _ _ _ D1 j f I) as [LJ [(A & B & d & [<-|[]] & T)|(A & B & d & b & g & [<-|[]] & T & DB & TG & BG)]]; (split; [exact LJ|]).
        -- left. split; [exact A|]. split; [exact B|]. exists x. cbn. auto.
        -- right. split; [exact A|]. split; [exact B|]. destruct (G b g DB) as (g' & DB' & TG' & BG'). exists x, b, g'. cbn. split; [auto|]. split; [exact T|]. split; [exact DB'|]. split; congruence.
      * assert (X := dd_next _ _ _ _ _ D1). destruct (dd_l _ _ _ _ _ D2 j f I) as [LJ [(A & B & d & J & T)|(A & B & d & b & g & J & T & R)]]; (split; [lia|]).
        -- left. split; [exact A|]. split; [exact B|]. exists d. cbn. auto.
        -- right. split; [exact A|]. split; [exact B|]. exists d, b, g. cbn. auto.
    + rewrite children_app. unfold views. rewrite map_app. change (map view_dep (x :: ds)) with (map view_dep [x] ++ map view_dep ds). fold (views (s_h s2) (children i l1)) (views (s_h s2) (children i l2)). rewrite (dd_views _ _ _ _ _ D2). f_equal.
      rewrite <- (dd_views _ _ _ _ _ D1). apply (views_grows (s_h s1) (s_h s2) (children i l1) G). intros [j f] I. apply children_in in I as [I _]. cbn.
      destruct (dd_l _ _ _ _ _ D1 j f I) as [_ [(_ & _ & d & _ & T)|(_ & _ & d & b & g & _ & T & DB & _)]]; intros k TK; rewrite T in TK; [discriminate|]. injection TK as <-. rewrite DB. discriminate.
Qed.

(** a new node *)
Lemma new_node_spec s par flow d v p : sound (s_h s) (s_next s) -> (forall q, par = Some q -> q < s_next s) ->
  let f := Fg par flow (match par with None => flip d | Some _ => d end) v false (ToProc p) in let s' := new_node deps s par flow d v p in
  exists l, deps_done (s_next s) (deps p flow) (add s f) s' l.
Proof. intros S P. cbn zeta. unfold new_node. apply add_deps_spec; cbn; [|lia]. apply sound_add; [exact S|]. cbn. intros q E. specialize (P q E). lia. Qed.
End Steps.
(** * Splitting *)
Lemma dset_old (h : fheap) n f f' : NoDup (dkeys h) -> dget n h = Some f -> exists h1 h2, h = h1 ++ (n, f) :: h2 /\ dset n f' h = h1 ++ (n, f') :: h2.
Proof.
  induction h as [|[j g] h IH]; cbn; [discriminate|]. intros N. inversion N as [|? ? A B]; subst. destruct (eqb_spec n j) as [<-|NE]; [intros [= ->]; exists [], h; auto|].
  intros D. destruct (IH B D) as (h1 & h2 & -> & ->). exists ((j, g) :: h1), h2. auto.
Qed.
Lemma dkeys_dset (h : fheap) n f f' : dget n h = Some f -> dkeys (dset n f' h) = dkeys h.
Proof. induction h as [|[j g] h IH]; cbn; [discriminate|]. destruct (eqb_spec n j) as [<-|NE]; [reflexivity|]. intros D. cbn. f_equal. exact (IH D). Qed.
Lemma split_spec s n f p : sound (s_h s) (s_next s) -> dget n (s_h s) = Some f -> g_parent f = Some p -> g_bg f = false ->
  (forall q, g_term f = ToProc q -> let s' := split s n in
  sound (s_h s') (s_next s') /\ s_next s' = S (s_next s) /\ s_tm s' = s_tm s /\ s_new s' = s_new s /\ grows (s_h s) (s_h s') /\
  (forall j, dget j (s_h s') = if eqb j n then Some (Fg None (g_flow f) (g_dir f) (Q2Qc 1) (g_bg f) (g_term f)) else if eqb j (s_next s) then Some (Fg (Some p) (g_flow f) (g_dir f) (g_val f) false (ToFrag n)) else dget j (s_h s)) /\
  ((forall e, In e (s_h s) -> g_parent (snd e) = Some p -> closed (s_h s) (snd e)) -> Permutation (views (s_h s') (children p (s_h s'))) (views (s_h s) (children p (s_h s)))) /\ (forall i, i <> p -> children i (s_h s') = children i (s_h s))).
Proof.
  intros SD D P BG q T. cbn zeta. unfold split. rewrite D, P. set (f' := Fg None (g_flow f) (g_dir f) (Q2Qc 1) (g_bg f) (g_term f)). set (g := Fg (Some p) (g_flow f) (g_dir f) (g_val f) false (ToFrag n)). cbn [s_h s_next s_tm s_new add].
  assert (PL : p < s_next s) by (apply (proj2 SD n f D); exact P). assert (NL := dget_lt _ _ _ _ SD D).
  assert (S1 : sound (dset n f' (s_h s)) (s_next s)).
  { split; [rewrite (dkeys_dset _ _ f f' D); exact (proj1 SD)|]. intros i g0. rewrite dget_dset. destruct (eqb_spec i n) as [->|]; [intros [= <-]; split; [exact NL|discriminate]|apply (proj2 SD)]. }
  assert (DG : forall j, dget j (dset n f' (s_h s) ++ [(s_next s, g)]) = if eqb j n then Some f' else if eqb j (s_next s) then Some g else dget j (s_h s)).
  { intros j. rewrite dget_app, dget_dset. destruct (eqb_spec j n) as [->|]; [reflexivity|]. destruct (dget j (s_h s)) as [g0|] eqn:DJ; cbn; destruct (eqb_spec j (s_next s)) as [->|]; try reflexivity. rewrite (dget_fresh _ _ _ SD (le_n _)) in DJ. discriminate. }
  assert (GR : grows (s_h s) (dset n f' (s_h s) ++ [(s_next s, g)])).
  { intros j g0 DJ. rewrite DG. destruct (eqb_spec j n) as [->|]; [rewrite D in DJ; injection DJ as <-; exists f'; auto|]. destruct (eqb_spec j (s_next s)) as [->|]; [rewrite (dget_fresh _ _ _ SD (le_n _)) in DJ; discriminate|]. exists g0. auto. }
  split; [apply sound_add; [exact S1|cbn; intros ? [= <-]; lia]|]. split; [reflexivity|]. split; [reflexivity|]. split; [reflexivity|]. split; [exact GR|]. split; [exact DG|].
  destruct (dset_old (s_h s) n f f' (proj1 SD) D) as (h1 & h2 & E1 & E2). split.
  - intros CL. set (h' := dset n f' (s_h s) ++ [(s_next s, g)]) in *. assert (CH : children p h' = children p h1 ++ children p h2 ++ [(s_next s, g)]).
    { unfold h'. rewrite E2, <- app_assoc, children_app. f_equal. cbn [app]. unfold children at 1. cbn [filter snd]. destruct (eqb_spec (g_parent f') (Some p)) as [X|_]; [discriminate|]. fold (children p (h2 ++ [(s_next s, g)])). rewrite children_app. f_equal.
      unfold children. cbn [filter snd]. destruct (eqb_spec (g_parent g) (Some p)) as [_|X]; [reflexivity|destruct X; reflexivity]. }
    assert (CH0 : children p (s_h s) = children p h1 ++ (n, f) :: children p h2).
    { rewrite E1 at 1. rewrite children_app. f_equal. unfold children. cbn [filter snd]. destruct (eqb_spec (g_parent f) (Some p)) as [_|X]; [reflexivity|contradiction]. }
    assert (V : forall l, (forall e, In e l -> In e (s_h s) /\ g_parent (snd e) = Some p) -> views h' l = views (s_h s) l).
    { intros l I. apply views_grows; [exact GR|]. intros e J. destruct (I e J). apply CL; assumption. }
    rewrite CH, CH0. unfold views in *. rewrite !map_app. cbn [map snd]. rewrite !V.
    2:{ intros e J. apply children_in in J as [J Q]. split; [rewrite E1; apply in_app_iff; right; right; exact J|exact Q]. }
    2:{ intros e J. apply children_in in J as [J Q]. split; [rewrite E1; apply in_app_iff; left; exact J|exact Q]. }
    assert (VG : view h' g = view (s_h s) f). { unfold view, target. cbn. fold h' in DG. rewrite DG, eqb_refl. cbn. rewrite T, BG. reflexivity. }
    rewrite VG. apply Permutation_app_head. apply Permutation_sym, Permutation_cons_append.
  - intros i NI. rewrite children_app, E2, E1, !children_app. unfold children. cbn [filter snd].
    destruct (eqb_spec (g_parent f') (Some i)) as [X|_]; [discriminate|]. destruct (eqb_spec (g_parent f) (Some i)) as [X|_]; [congruence|]. destruct (eqb_spec (g_parent g) (Some i)) as [X|_]; [cbn in X; congruence|]. rewrite app_nil_r. reflexivity.
Qed.

(** * The invariant of the loops *)
Definition uses (q : nat) (l : list xch) := filter (fun x => Nat.eqb (x_term x) q) l.
Definition made (q : nat) (l : list xch) := filter (fun x => Nat.eqb (x_proc x) q) l.
Definition key (x : xch) := (x_proc x, x_flow x, x_dir x, x_term x).
Section Inv.
Context (deps : nat -> nat -> list xch) (h0 : fheap) (n0 p0 : nat) (xs : list xch).
(** processes the foreground mentions *)
Definition fg (q : nat) : Prop := q = p0 \/ exists x, In x xs /\ (x_proc x = q \/ x_term x = q).
Context (SD0 : sound h0 n0) (CL0 : forall j f, dget j h0 = Some f -> closed h0 f) (DJ0 : forall j f q, dget j h0 = Some f -> fg q -> g_term f <> ToProc q).
Context (DD : forall q fl d, In d (deps q fl) -> ~ fg (x_term d)).
(** where the node of process [q] hangs: at the exchange that uses it if there is exactly one, and else nowhere *)
Definition placed (tm : dict nat nat) (us : list xch) (q : nat) (f : fgm) : Prop :=
  (q = p0 -> g_parent f = None) /\ (q <> p0 -> match uses q us with [] => False | [x] => exists i, dget (x_proc x) tm = Some i /\ g_parent f = Some i | _ => g_parent f = None end).
Definition node (h : fheap) (tm : dict nat nat) (dn us : list xch) (q i : nat) (f : fgm) : Prop :=
  n0 <= i /\ g_term f = ToProc q /\ g_bg f = false /\ Permutation (views h (children i h)) (map view_dep (deps q (g_flow f)) ++ map view_x (made q dn)) /\ placed tm us q f.
Definition origin (h : fheap) (tm : dict nat nat) (j : nat) (f : fgm) : Prop :=
  (exists q, fg q /\ dget q tm = Some j) \/ (exists q i k, fg q /\ dget q tm = Some i /\ g_parent f = Some i /\ g_bg f = false /\ g_term f = ToFrag k) \/ (g_parent f = None /\ g_bg f = true /\ exists q, g_term f = ToProc q /\ ~ fg q).
Record Inv (s : fst_) (dn us : list xch) : Prop := INV {
  i_sound : sound (s_h s) (s_next s);
  i_next : n0 <= s_next s;
  i_old : forall j f, dget j h0 = Some f -> dget j (s_h s) = Some f;
  i_orig : forall j f, dget j (s_h s) = Some f -> dget j h0 = Some f \/ n0 <= j /\ origin (s_h s) (s_tm s) j f;
  i_cl : forall j f, dget j (s_h s) = Some f -> closed (s_h s) f;
  i_dn : forall x, In x dn -> dget (x_proc x) (s_tm s) <> None;
  i_ut : forall x, In x us -> dget (x_term x) (s_tm s) <> None;
  i_tm : forall q i, fg q -> dget q (s_tm s) = Some i -> In i (s_new s) /\ exists f, dget i (s_h s) = Some f /\ node (s_h s) (s_tm s) dn us q i f;
  i_us : forall x, In x us -> In x xs }.

Lemma children_cl s dn us i e : Inv s dn us -> In e (children i (s_h s)) -> closed (s_h s) (snd e).
Proof. intros V I. apply children_in in I as [I _]. destruct e as [j f]. apply (i_cl _ _ _ V j f). apply in_dget; [exact (proj1 (i_sound _ _ _ V))|exact I]. Qed.
Lemma fg_proc x : In x xs -> fg (x_proc x). Proof. right. eauto. Qed.
Lemma fg_term x : In x xs -> fg (x_term x). Proof. right. eauto. Qed.

(** a new child that ends in the node of its termination *)
Lemma inv_add s dn us x par n : Inv s dn us -> In x xs -> dget (x_proc x) (s_tm s) = Some par -> dget (x_term x) (s_tm s) = Some n ->
  Inv (add s (Fg (Some par) (x_flow x) (x_dir x) (x_val x) false (ToFrag n))) (dn ++ [x]) us.
Proof.
  intros V IX TP TN. set (c := Fg _ _ _ _ _ _). assert (SD := i_sound _ _ _ V).
  destruct (i_tm _ _ _ V _ _ (fg_proc x IX) TP) as [IP (fp & DP & NP)]. destruct (i_tm _ _ _ V _ _ (fg_term x IX) TN) as [IN (fn & DN & NN)].
  assert (LP := dget_lt _ _ _ _ SD DP). assert (GR : grows (s_h s) (s_h (add s c))) by apply grows_app.
  assert (DG : forall j f, dget j (s_h s) = Some f -> dget j (s_h (add s c)) = Some f) by (intros j f H; cbn; rewrite dget_app, H; reflexivity).
  assert (CC : closed (s_h (add s c)) c) by (intros k [= <-]; rewrite (DG _ _ DN); discriminate).
  split.
  - apply sound_add; [exact SD|]. cbn. intros p [= <-]. lia.
  - cbn. assert (X := i_next _ _ _ V). lia.
  - intros j f H. apply DG. apply (i_old _ _ _ V). exact H.
  - intros j f. cbn [add s_h]. rewrite dget_app. destruct (dget j (s_h s)) as [g|] eqn:D.
    + intros [= <-]. destruct (i_orig _ _ _ V j g D) as [A|A]; [left; exact A|right; exact A].
    + cbn. destruct (eqb_spec j (s_next s)) as [->|]; [|discriminate]. intros [= <-]. right. split; [exact (i_next _ _ _ V)|]. right. left. exists (x_proc x), par, n. split; [apply fg_proc, IX|]. auto.
  - intros j f. cbn [add s_h]. rewrite dget_app. destruct (dget j (s_h s)) as [g|] eqn:D.
    + intros [= <-] k T. destruct (dget k (s_h s)) as [g2|] eqn:D2; [change (dget k (s_h (add s c)) <> None); rewrite (DG _ _ D2); discriminate|]. destruct (i_cl _ _ _ V j g D k T D2).
    + cbn. destruct (eqb_spec j (s_next s)) as [->|]; [|discriminate]. intros [= <-]. exact CC.
  - intros y I. apply in_app_iff in I as [I|[<-|[]]]; [exact (i_dn _ _ _ V y I)|]. change (s_tm (add s c)) with (s_tm s). rewrite TP. discriminate.
  - exact (i_ut _ _ _ V).
  - intros q i Q TQ. change (s_tm (add s c)) with (s_tm s) in *. change (s_new (add s c)) with (s_new s). destruct (i_tm _ _ _ V q i Q TQ) as [IQ (f & D & LI & T & B & P & PL)]. split; [exact IQ|]. exists f. split; [apply DG, D|]. split; [exact LI|]. split; [exact T|]. split; [exact B|]. split; [|exact PL].
    assert (CH : children i (s_h (add s c)) = children i (s_h s) ++ (if eqb par i then [(s_next s, c)] else [])).
    { cbn [add s_h]. rewrite children_app. reflexivity. }
    rewrite CH. unfold views. rewrite map_app. fold (views (s_h (add s c)) (children i (s_h s))). rewrite (views_grows _ _ _ GR); [|intros e I; exact (children_cl _ _ _ _ _ V I)].
    unfold made. rewrite filter_app, map_app, app_assoc. apply Permutation_app; [exact P|]. cbn [filter]. destruct (eqb_spec par i) as [->|NE].
    + assert (E : x_proc x = q). { destruct NP as (_ & T2 & _). rewrite D in DP. injection DP as <-. congruence. } rewrite E, Nat.eqb_refl. cbn [map snd].
      replace (view (s_h (add s c)) c) with (view_x x); [reflexivity|]. unfold view, target. cbn [g_term c g_flow g_dir g_val]. rewrite (DG _ _ DN). destruct NN as (_ & -> & -> & _). reflexivity.
    + destruct (Nat.eqb_spec (x_proc x) q) as [E|E]; [subst q; congruence|]. reflexivity.
  - exact (i_us _ _ _ V).
Qed.

(** one more use of a node already there: a node with a parent is split first *)
Lemma uses_app q l x : uses q (l ++ [x]) = uses q l ++ (if Nat.eqb (x_term x) q then [x] else []). Proof. unfold uses. rewrite filter_app. reflexivity. Qed.
Lemma placed_more tm us q f x : placed tm us q f -> x_term x <> q \/ g_parent f = None -> placed tm (us ++ [x]) q f.
Proof.
  intros [A B] C. split; [exact A|]. intros NQ. specialize (B NQ). rewrite uses_app. destruct (Nat.eqb_spec (x_term x) q) as [E|E]; [|rewrite app_nil_r; exact B]. destruct C as [C|C]; [contradiction|].
  destruct (uses q us) as [|y [|z t]]; [destruct B|exact C|exact C].
Qed.
Lemma inv_split s dn us x n : Inv s dn us -> In x xs -> dget (x_term x) (s_tm s) = Some n -> Inv (split s n) dn (us ++ [x]) /\ s_tm (split s n) = s_tm s /\ s_new (split s n) = s_new s.
Proof.
  intros V IX TN. assert (SD := i_sound _ _ _ V). destruct (i_tm _ _ _ V _ _ (fg_term x IX) TN) as [IN (fn & DN & LN & TF & BF & PF & PL)].
  assert (UX : forall y, In y (us ++ [x]) -> In y xs) by (intros y I; apply in_app_iff in I as [I|[<-|[]]]; [exact (i_us _ _ _ V y I)|exact IX]).
  destruct (g_parent fn) as [pp|] eqn:GP.
  - destruct (split_spec s n fn pp SD DN GP BF _ TF) as (S1 & NX & TM & NW & GR & DG & PV & CO).
    assert (PI : exists y, In y us /\ dget (x_proc y) (s_tm s) = Some pp).
    { destruct PL as [A B]. destruct (Nat.eq_dec (x_term x) p0) as [E|E]; [rewrite (A E) in GP; discriminate|]. specialize (B E). destruct (uses (x_term x) us) as [|y [|z t]] eqn:U; [destruct B| |rewrite B in GP; discriminate].
      destruct B as (i & TI & PI). exists y. split; [assert (I : In y (uses (x_term x) us)) by (rewrite U; left; reflexivity); apply filter_In in I as [I _]; exact I|congruence]. }
    destruct PI as (y & IY & TY). assert (LPP := proj2 (proj2 SD n fn DN) pp GP). assert (LNN := dget_lt _ _ _ _ SD DN).
    assert (FR : dget (s_next s) (s_h s) = None) by (apply (dget_fresh _ _ _ SD); lia).
    split; [|auto]. split.
    + exact S1.
    + rewrite NX. assert (X := i_next _ _ _ V). lia.
    + intros j f H. rewrite DG. assert (X := dget_lt _ _ _ _ SD0 H). assert (Y := i_next _ _ _ V). destruct (eqb_spec j n) as [->|]; [lia|]. destruct (eqb_spec j (s_next s)) as [->|]; [lia|]. exact (i_old _ _ _ V j f H).
    + intros j f. rewrite DG, TM. destruct (eqb_spec j n) as [->|]; [intros [= <-]; right; split; [exact LN|]; left; exists (x_term x); split; [apply fg_term, IX|exact TN]|].
      destruct (eqb_spec j (s_next s)) as [->|]; [intros [= <-]; right; split; [exact (i_next _ _ _ V)|]; right; left; exists (x_proc y), pp, n; split; [apply fg_proc, (i_us _ _ _ V), IY|]; auto|].
      intros D. destruct (i_orig _ _ _ V j f D) as [A|A]; [left; exact A|right; exact A].
    + intros j f. rewrite DG. destruct (eqb_spec j n) as [->|]; [intros [= <-] k; cbn; rewrite TF; discriminate|].
      destruct (eqb_spec j (s_next s)) as [->|]; [intros [= <-] k; cbn; intros [= <-]; rewrite DG, eqb_refl; discriminate|].
      intros D k T. destruct (dget k (s_h s)) as [g|] eqn:DK; [destruct (GR k g DK) as (g' & -> & _); discriminate|]. destruct (i_cl _ _ _ V j f D k T DK).
    + rewrite TM. exact (i_dn _ _ _ V).
    + rewrite TM. intros z I. apply in_app_iff in I as [I|[<-|[]]]; [exact (i_ut _ _ _ V z I)|]. rewrite TN. discriminate.
    + rewrite TM, NW. intros q i Q TQ. destruct (i_tm _ _ _ V q i Q TQ) as [IQ (f & D & LI & T & B & P & PLq)]. split; [exact IQ|].
      assert (PV' : Permutation (views (s_h (split s n)) (children i (s_h (split s n)))) (views (s_h s) (children i (s_h s)))).
      { destruct (Nat.eq_dec i pp) as [->|NE]; [apply PV; intros e I _; destruct e as [j g]; apply (i_cl _ _ _ V j g), in_dget; [exact (proj1 SD)|exact I]|].
        rewrite (CO i NE). rewrite (views_grows _ _ _ GR); [reflexivity|]. intros e I. exact (children_cl _ _ _ _ _ V I). }
      destruct (Nat.eq_dec i n) as [->|NE].
      * rewrite DG, eqb_refl. rewrite DN in D. injection D as <-. eexists. split; [reflexivity|]. cbn. split; [exact LI|]. split; [exact T|]. split; [exact B|]. split; [eapply Permutation_trans; [exact PV'|exact P]|].
        assert (E : q = x_term x) by congruence. subst q. split; [reflexivity|]. intros NQ. destruct PL as [_ PL]. specialize (PL NQ). rewrite uses_app, Nat.eqb_refl. destruct (uses (x_term x) us) as [|z [|z' t]]; [destruct PL|reflexivity|reflexivity].
      * rewrite DG. destruct (eqb_spec i n) as [|_]; [contradiction|]. destruct (eqb_spec i (s_next s)) as [->|_]; [rewrite FR in D; discriminate|]. exists f. split; [exact D|]. split; [exact LI|]. split; [exact T|]. split; [exact B|]. split; [eapply Permutation_trans; [exact PV'|exact P]|].
        apply placed_more; [exact PLq|]. left. intros E. subst q. congruence.
    + exact UX.
  - assert (E : split s n = s) by (unfold split; rewrite DN, GP; reflexivity). rewrite E. split; [|auto]. destruct V as [V1 V2 V3 V4 V5 V6 V6' V7 V8]. split; try assumption.
    { intros z I. apply in_app_iff in I as [I|[<-|[]]]; [exact (V6' z I)|]. rewrite TN. discriminate. }
    intros q i Q TQ. destruct (V7 q i Q TQ) as [IQ (f & D & LI & T & B & P & PLq)]. split; [exact IQ|]. exists f. split; [exact D|]. split; [exact LI|]. split; [exact T|]. split; [exact B|]. split; [exact P|].
    apply placed_more; [exact PLq|]. destruct (Nat.eq_dec (x_term x) q) as [E2|E2]; [|left; exact E2]. right. subst q. rewrite TN in TQ. injection TQ as <-. congruence.
Qed.

(** no child yet for an exchange not processed *)
Lemma no_child s dn us x par : Inv s dn us -> In x xs -> dget (x_proc x) (s_tm s) = Some par -> ~ In (key x) (map key dn) -> has_child (s_h s) par (x_flow x) (x_dir x) (x_term x) = false.
Proof.
  intros V IX TP NK. apply not_true_is_false. intros H. unfold has_child in H. apply existsb_exists in H as (e & I & E). rewrite !andb_true_iff in E. destruct E as [[E1 E2] E3]. apply Nat.eqb_eq in E1.
  destruct (target (s_h s) (snd e)) as [[q b]|] eqn:T; [|discriminate]. apply Nat.eqb_eq in E3. subst q.
  destruct (i_tm _ _ _ V _ _ (fg_proc x IX) TP) as [_ (f & D & _ & _ & _ & P & _)].
  assert (J : In (view (s_h s) (snd e)) (views (s_h s) (children par (s_h s)))) by (apply in_map_iff; exists e; auto).
  apply (Permutation_in _ P) in J. unfold view in J. rewrite T, E1 in J. apply in_app_iff in J as [J|J]; apply in_map_iff in J as (d & EQ & J).
  - unfold view_dep in EQ. injection EQ as _ _ _ EQ _. apply (DD _ _ _ J). rewrite EQ. apply fg_term, IX.
  - unfold view_x in EQ. injection EQ as F1 F2 _ F3 _. apply filter_In in J as [J K]. apply Nat.eqb_eq in K. apply NK. apply in_map_iff. exists d. split; [|exact J]. unfold key. rewrite K, F1, F2, F3.
    f_equal. f_equal. destruct (g_dir (snd e)), (x_dir x); try discriminate; reflexivity.
Qed.

(** a new node, at the top or for an exchange *)
Lemma filter_nil {A} (f : A -> bool) l : (forall x, In x l -> f x = false) -> filter f l = [].
Proof. induction l as [|a l IH]; cbn; [reflexivity|]. intros H. rewrite (H a (or_introl eq_refl)). apply IH. intros x I. apply H. right. exact I. Qed.
Definition tm_grows (a b : dict nat nat) : Prop := forall q i, dget q a = Some i -> dget q b = Some i.
Lemma placed_grows tm tm' us q f : tm_grows tm tm' -> placed tm us q f -> placed tm' us q f.
Proof. intros G [A B]. split; [exact A|]. intros N. specialize (B N). destruct (uses q us) as [|x [|y t]]; [exact B| |exact B]. destruct B as (i & T & P). exists i. split; [apply G, T|exact P]. Qed.
Lemma inv_node s dn us dn' us' par flow d v p (ox : option xch) : Inv s dn us -> fg p -> dget p (s_tm s) = None ->
  match ox with
  | None => p = p0 /\ par = None /\ dn' = dn /\ us' = us
  | Some x => In x xs /\ p <> p0 /\ p = x_term x /\ flow = x_flow x /\ d = x_dir x /\ v = x_val x /\ dn' = dn ++ [x] /\ us' = us ++ [x] /\ par <> None /\ dget (x_proc x) (s_tm s) = par
  end ->
  let s1 := new_node deps s par flow d v p in
  Inv (St (s_h s1) (s_next s1) (dset p (s_next s) (s_tm s1)) (s_new s1 ++ [s_next s])) dn' us' /\ s_tm s1 = s_tm s.
Proof.
  intros V FP TP HX s1. assert (SD := i_sound _ _ _ V). set (i := s_next s) in *. set (f := Fg par flow (match par with None => flip d | Some _ => d end) v false (ToProc p)).
  assert (PX : forall q, par = Some q -> exists x, ox = Some x /\ In x xs /\ dget (x_proc x) (s_tm s) = Some q /\ p <> p0).
  { intros q E. destruct ox as [x|]; [|destruct HX as (_ & E2 & _); congruence]. destruct HX as (A & B & _ & _ & _ & _ & _ & _ & _ & C). exists x. repeat split; congruence. }
  assert (PLT : forall q, par = Some q -> q < s_next s).
  { intros q E. destruct (PX q E) as (x & _ & IX & T & _). destruct (i_tm _ _ _ V _ _ (fg_proc x IX) T) as [_ (g & D & _)]. exact (dget_lt _ _ _ _ SD D). }
  destruct (new_node_spec deps s par flow d v p SD PLT) as [l DN]. fold f i s1 in DN. assert (TM := dd_tm _ _ _ _ _ DN). assert (NW := dd_new _ _ _ _ _ DN). cbn in TM, NW. split; [|exact TM].
  assert (EH := dd_h _ _ _ _ _ DN). cbn [add s_h] in EH. fold i in EH. assert (FRI : dget i (s_h s) = None) by (apply (dget_fresh _ _ _ SD); unfold i; lia).
  assert (S1 := dd_sound _ _ _ _ _ DN). assert (NX := dd_next _ _ _ _ _ DN). cbn [add s_next] in NX. fold i in NX.
  assert (DG : forall j g, dget j (s_h s) = Some g -> dget j (s_h s1) = Some g) by (intros j g H; rewrite EH, !dget_app, H; reflexivity).
  assert (DI : dget i (s_h s1) = Some f) by (rewrite EH, !dget_app, FRI; cbn; rewrite eqb_refl; reflexivity).
  assert (GR : grows (s_h s) (s_h s1)) by (intros j g H; exists g; rewrite (DG j g H); auto).
  assert (NEWE : forall j g, dget j (s_h s1) = Some g -> dget j (s_h s) = Some g \/ (j = i /\ g = f) \/ In (j, g) l).
  { intros j g H. rewrite EH, !dget_app in H. destruct (dget j (s_h s)) as [g'|]; [left; exact H|]. cbn in H. right. destruct (eqb_spec j i) as [->|]; [left; injection H as <-; auto|right; apply dget_In; exact H]. }
  assert (TG : tm_grows (s_tm s) (dset p i (s_tm s))) by (intros q k H; rewrite dget_dset; destruct (eqb_spec q p) as [->|]; [rewrite TP in H; discriminate|exact H]).
  assert (NEX := i_next _ _ _ V). rewrite TM, NW.
  assert (MP : made p dn = []).
  { apply filter_nil. intros x I. apply Nat.eqb_neq. intros E. apply (i_dn _ _ _ V x I). rewrite E. exact TP. }
  assert (UP : uses p us = []).
  { apply filter_nil. intros x I. apply Nat.eqb_neq. intros E. apply (i_ut _ _ _ V x I). rewrite E. exact TP. }
  assert (IL : i < s_next s1) by lia.
  (* the children of a node there before, and of the new one *)
  assert (CHL : forall k, k < i -> children k l = []).
  { intros k L. destruct (children k l) as [|[j g] t] eqn:E; [reflexivity|]. exfalso. assert (I : In (j, g) (children k l)) by (rewrite E; left; reflexivity). apply children_in in I as [I P]. cbn in P.
    destruct (dd_l _ _ _ _ _ DN j g I) as [_ [(A & _)|(A & _)]]; [congruence|]. rewrite P in A. injection A as A. lia. }
  assert (CHK : forall k, k < i -> children k (s_h s1) = children k (s_h s) ++ (if eqb par (Some k) then [(i, f)] else [])).
  { intros k L. rewrite EH, !children_app, (CHL k L), app_nil_r. reflexivity. }
  assert (CHI : children i (s_h s1) = children i l).
  { rewrite EH, !children_app. rewrite (children_none _ _ _ SD); [|unfold i; lia]. unfold children at 1. cbn [filter snd app]. destruct (eqb_spec (g_parent f) (Some i)) as [E|_]; [|reflexivity]. specialize (PLT i E). unfold i in PLT. lia. }
  split; cbn [s_h s_next s_tm s_new].
  - exact S1.
  - lia.
  - intros j g H. apply DG, (i_old _ _ _ V), H.
  - intros j g H. destruct (NEWE j g H) as [A|[[-> ->]|A]].
    + destruct (i_orig _ _ _ V j g A) as [B|[L B]]; [left; exact B|]. right. split; [exact L|]. destruct B as [(q & Q & T)|[(q & k & m & Q & T & B)|B]].
      * left. exists q. split; [exact Q|apply TG, T]. * right. left. exists q, k, m. split; [exact Q|]. split; [apply TG, T|exact B]. * right. right. exact B.
    + right. split; [exact NEX|]. left. exists p. split; [exact FP|]. rewrite dget_dset, eqb_refl. reflexivity.
    + destruct (dd_l _ _ _ _ _ DN j g A) as [LJ B]. cbn [add s_next] in LJ. fold i in LJ. right. split; [lia|]. right. destruct B as [(P1 & B1 & x & I & T)|(P1 & B1 & x & b & g2 & I & T & _)].
      * right. split; [exact P1|]. split; [exact B1|]. exists (x_term x). split; [exact T|exact (DD _ _ _ I)].
      * left. exists p, i, b. split; [exact FP|]. split; [rewrite dget_dset, eqb_refl; reflexivity|]. auto.
  - intros j g H. destruct (NEWE j g H) as [A|[[-> ->]|A]].
    + intros k T. destruct (dget k (s_h s)) as [g2|] eqn:D2; [rewrite (DG _ _ D2); discriminate|]. destruct (i_cl _ _ _ V j g A k T D2).
    + intros k. discriminate.
    + destruct (dd_l _ _ _ _ _ DN j g A) as [_ [(_ & _ & x & _ & T)|(_ & _ & x & b & g2 & _ & T & DB & _)]]; intros k TK; rewrite T in TK; [discriminate|]. injection TK as <-. rewrite DB. discriminate.
  - assert (O : forall x, In x dn -> dget (x_proc x) (dset p i (s_tm s)) <> None) by (intros x I; rewrite dget_dset; destruct (eqb (x_proc x) p); [discriminate|exact (i_dn _ _ _ V x I)]).
    destruct ox as [x|]; [|destruct HX as (_ & _ & -> & _); exact O]. destruct HX as (_ & _ & _ & _ & _ & _ & -> & _ & PN & TX). intros y I. apply in_app_iff in I as [I|[<-|[]]]; [exact (O y I)|].
    rewrite dget_dset. destruct (eqb (x_proc x) p); [discriminate|]. rewrite TX. exact PN.
  - assert (O : forall x, In x us -> dget (x_term x) (dset p i (s_tm s)) <> None) by (intros x I; rewrite dget_dset; destruct (eqb (x_term x) p); [discriminate|exact (i_ut _ _ _ V x I)]).
    destruct ox as [x|]; [|destruct HX as (_ & _ & _ & ->); exact O]. destruct HX as (_ & _ & E & _ & _ & _ & _ & -> & _). intros y I. apply in_app_iff in I as [I|[<-|[]]]; [exact (O y I)|].
    rewrite dget_dset, E, eqb_refl. discriminate.
  - intros q k Q. rewrite dget_dset. destruct (eqb_spec q p) as [->|NQ].
    + intros [= <-]. split; [apply in_app_iff; right; left; reflexivity|]. exists f. split; [exact DI|]. split; [exact NEX|]. split; [reflexivity|]. split; [reflexivity|]. split.
      * rewrite CHI, (dd_views _ _ _ _ _ DN). cbn [g_flow f]. replace (made p dn') with (@nil xch); [rewrite app_nil_r; reflexivity|]. destruct ox as [x|]; [|destruct HX as (_ & _ & -> & _); symmetry; exact MP].
        destruct HX as (_ & _ & _ & _ & _ & _ & -> & _ & PN & TX). unfold made. rewrite filter_app. fold (made p dn). rewrite MP. cbn. destruct (Nat.eqb_spec (x_proc x) p) as [E|]; [|reflexivity]. exfalso. rewrite E in TX. congruence.
      * destruct ox as [x|]; [|destruct HX as (E & E2 & _); split; [intros _; exact E2|intros N; contradiction]].
        destruct HX as (_ & NP & E & _ & _ & _ & _ & -> & PN & TX). split; [intros N; contradiction|]. intros _. rewrite uses_app, UP, <- E, Nat.eqb_refl. cbn. destruct par as [r|]; [|contradiction]. exists r. split; [apply TG, TX|reflexivity].
    + intros TQ. destruct (i_tm _ _ _ V q k Q TQ) as [IQ (g & D & LI & T & B & P & PLq)]. split; [apply in_app_iff; left; exact IQ|]. exists g. split; [apply DG, D|]. split; [exact LI|]. split; [exact T|]. split; [exact B|].
      assert (LK := dget_lt _ _ _ _ SD D). split.
      * rewrite (CHK k LK). unfold views. rewrite map_app. fold (views (s_h s1) (children k (s_h s))). rewrite (views_grows _ _ _ GR); [|intros e I; exact (children_cl _ _ _ _ _ V I)].
        assert (E : made q dn' = made q dn ++ match ox with Some x => if Nat.eqb (x_proc x) q then [x] else [] | None => [] end).
        { destruct ox as [x|]; [|destruct HX as (_ & _ & -> & _); rewrite app_nil_r; reflexivity]. destruct HX as (_ & _ & _ & _ & _ & _ & -> & _). unfold made. rewrite filter_app. reflexivity. }
        rewrite E, map_app, app_assoc. apply Permutation_app; [exact P|]. destruct ox as [x|].
        -- destruct HX as (IX & _ & EP & E1 & E2 & E3 & _ & _ & PN & TX). destruct (eqb_spec par (Some k)) as [E4|E4].
           ++ destruct (Nat.eqb_spec (x_proc x) q) as [E5|E5].
              ** cbn. unfold view, target, view_x. cbn. rewrite E4, E1, E2, E3, EP. reflexivity.
              ** exfalso. apply E5. rewrite E4 in TX. destruct (i_tm _ _ _ V _ _ (fg_proc x IX) TX) as [_ (g2 & D2 & _ & T2 & _)]. congruence.
           ++ destruct (Nat.eqb_spec (x_proc x) q) as [E5|E5]; [subst q; congruence|reflexivity].
        -- destruct HX as (_ & -> & _). destruct (eqb_spec (@None nat) (Some k)); [discriminate|reflexivity].
      * apply (placed_grows _ _ _ _ _ TG). destruct ox as [x|]; [|destruct HX as (_ & _ & _ & ->); exact PLq]. destruct HX as (_ & _ & E & _ & _ & _ & _ & -> & _). apply placed_more; [exact PLq|]. left. congruence.
  - destruct ox as [x|]; [|destruct HX as (_ & _ & _ & ->); exact (i_us _ _ _ V)]. destruct HX as (IX & _ & _ & _ & _ & _ & _ & -> & _). intros y I. apply in_app_iff in I as [I|[<-|[]]]; [exact (i_us _ _ _ V y I)|exact IX].
Qed.

(** * The loops *)
Lemma inv_try s dn x par : Inv s dn dn -> dget p0 (s_tm s) = Some n0 -> In x xs -> ~ In (key x) (map key dn) -> dget (x_proc x) (s_tm s) = Some par ->
  let s' := try_exch deps s par x in Inv s' (dn ++ [x]) (dn ++ [x]) /\ tm_grows (s_tm s) (s_tm s') /\ dget (x_term x) (s_tm s') <> None.
Proof.
  intros V T0 IX NK TP. cbn zeta. unfold try_exch. destruct (i_tm _ _ _ V _ _ (fg_proc x IX) TP) as [IP (fp & DP & _)]. assert (M : mem par (s_new s) = true) by (apply mem_In; exact IP).
  rewrite M, (no_child s dn dn x par V IX TP NK). unfold create_child. destruct (dget (x_term x) (s_tm s)) as [n|] eqn:TN.
  - destruct (inv_split s dn dn x n V IX TN) as (V1 & TM & NW). split; [|split].
    + apply inv_add; [exact V1|exact IX| |]; rewrite TM; assumption.
    + intros q i H. cbn. rewrite TM. exact H.
    + cbn. rewrite TM, TN. discriminate.
  - assert (NP : x_term x <> p0) by (intros E; rewrite E in TN; congruence).
    destruct (inv_node s dn dn (dn ++ [x]) (dn ++ [x]) (Some par) (x_flow x) (x_dir x) (x_val x) (x_term x) (Some x) V (fg_term x IX) TN) as [V1 TM].
    { repeat (split; [first [exact IX|exact NP|reflexivity|discriminate]|]). exact TP. }
    split; [exact V1|]. cbn [s_tm]. rewrite TM. split; [|rewrite dget_dset, eqb_refl; discriminate].
    intros q i H. rewrite dget_dset. destruct (eqb_spec q (x_term x)) as [->|]; [rewrite TN in H; discriminate|exact H].
Qed.
(** one pass: some exchanges are done, among them every one whose process had a node before; the rest are put off *)
Lemma inv_pass l : forall s dn s' r, Inv s dn dn -> dget p0 (s_tm s) = Some n0 -> (forall x, In x l -> In x xs) -> NoDup (map key (dn ++ l)) -> pass deps s l = (s', r) ->
  exists dl, Inv s' (dn ++ dl) (dn ++ dl) /\ tm_grows (s_tm s) (s_tm s') /\ Permutation l (dl ++ r) /\ (forall x, In x r -> In x l /\ dget (x_proc x) (s_tm s) = None).
Proof.
  induction l as [|x l IH]; intros s dn s' r V T0 SUB ND E.
  - cbn in E. injection E as <- <-. exists []. rewrite !app_nil_r. split; [exact V|]. split; [intros q i H; exact H|]. split; [reflexivity|]. intros y [].
  - cbn in E. destruct (dget (x_proc x) (s_tm s)) as [par|] eqn:TP.
    + assert (NK : ~ In (key x) (map key dn)). { rewrite map_app in ND. cbn in ND. apply NoDup_remove_2 in ND. intros I. apply ND. apply in_app_iff. left. exact I. }
      destruct (inv_try s dn x par V T0 (SUB x (or_introl eq_refl)) NK TP) as (V1 & G1 & _). set (s1 := try_exch deps s par x) in *.
      destruct (IH s1 (dn ++ [x]) s' r V1) as (dl & V2 & G2 & P & R); [apply G1, T0|intros y I; apply SUB; right; exact I|rewrite <- app_assoc; exact ND|exact E|].
      exists (x :: dl). rewrite <- app_assoc in V2. split; [exact V2|]. split; [intros q i H; apply G2, G1, H|]. split; [cbn; constructor; exact P|].
      intros y I. destruct (R y I) as [A B]. split; [right; exact A|]. destruct (dget (x_proc y) (s_tm s)) as [i|] eqn:EY; [|reflexivity]. rewrite (G1 _ _ EY) in B. discriminate.
    + destruct (pass deps s l) as [s1 r1] eqn:E1. injection E as <- <-. destruct (IH s dn s1 r1 V T0) as (dl & V2 & G2 & P & R); [intros y I; apply SUB; right; exact I| |exact E1|].
      { rewrite map_app in *. cbn in ND. apply NoDup_remove_1 in ND. exact ND. }
      exists dl. split; [exact V2|]. split; [exact G2|]. split; [apply Permutation_cons_app; exact P|]. intros y [<-|I]; [split; [left; reflexivity|exact TP]|]. destruct (R y I). split; [right; assumption|assumption].
Qed.

(** reached from the top process in [k] steps *)
Inductive within : nat -> nat -> Prop :=
| within_top : within 0 p0
| within_step k x : In x xs -> within k (x_proc x) -> within (S k) (x_term x).
Definition covered (n : nat) (s : fst_) : Prop := forall m q, m <= n -> within m q -> dget q (s_tm s) <> None.
Lemma covered_pass n s dn l s' r dl : covered n s -> Permutation xs (dn ++ l) -> Permutation l (dl ++ r) -> Inv s' (dn ++ dl) (dn ++ dl) -> tm_grows (s_tm s) (s_tm s') -> dget p0 (s_tm s) = Some n0 ->
  (forall x, In x r -> dget (x_proc x) (s_tm s) = None) -> covered (S n) s' /\ (forall x m, In x r -> m <= n -> ~ within m (x_proc x)).
Proof.
  intros C P1 P2 V G T0 R. assert (R2 : forall x m, In x r -> m <= n -> ~ within m (x_proc x)) by (intros x m I L W; exact (C m _ L W (R x I))). split; [|exact R2].
  intros m q L W. inversion W as [E1 E2|k x IX WX E1 E2]; subst.
  - rewrite (G _ _ T0). discriminate.
  - assert (I : In x (dn ++ dl)).
    { apply (Permutation_in _ P1) in IX. apply in_app_iff in IX as [I|I]; [apply in_app_iff; auto|]. apply (Permutation_in _ P2) in I. apply in_app_iff in I as [I|I]; [apply in_app_iff; auto|]. exfalso. apply (R2 x k I); [lia|exact WX]. }
    exact (i_ut _ _ _ V x I).
Qed.
Lemma perm_nodup l l' : Permutation l l' -> NoDup (map key l) -> NoDup (map key l'). Proof. intros P N. eapply Permutation_NoDup; [apply Permutation_map; exact P|exact N]. Qed.
Lemma inv_rounds k : forall n s dn l s' r, Inv s dn dn -> dget p0 (s_tm s) = Some n0 -> Permutation xs (dn ++ l) -> NoDup (map key xs) -> covered (S n) s -> (forall x m, In x l -> m <= n -> ~ within m (x_proc x)) -> rounds deps k s l = (s', r) ->
  exists dn', Inv s' dn' dn' /\ dget p0 (s_tm s') = Some n0 /\ Permutation xs (dn' ++ r) /\ (forall x m, In x r -> m <= n + k -> ~ within m (x_proc x)).
Proof.
  induction k as [|k IH]; intros n s dn l s' r V T0 P ND C R E; cbn in E.
  - injection E as <- <-. exists dn. rewrite Nat.add_0_r. auto.
  - destruct l as [|x l]; [injection E as <- <-; exists dn; split; [exact V|]; split; [exact T0|]; split; [exact P|intros y m []]|].
    destruct (pass deps s (x :: l)) as [s1 l1] eqn:E1. destruct (inv_pass (x :: l) s dn s1 l1 V T0) as (dl & V1 & G & P1 & R1); [|exact (perm_nodup _ _ P ND)|exact E1|].
    { intros y I. apply (Permutation_in _ (Permutation_sym P)). apply in_app_iff. right. exact I. }
    assert (P2 : Permutation xs ((dn ++ dl) ++ l1)) by (eapply Permutation_trans; [exact P|]; rewrite <- app_assoc; apply Permutation_app_head; exact P1).
    destruct (covered_pass (S n) s dn (x :: l) s1 l1 dl C P P1 V1 G T0 (fun y I => proj2 (R1 y I))) as [C1 R2].
    destruct (IH (S n) s1 (dn ++ dl) l1 s' r V1 (G _ _ T0) P2 ND C1 R2 E) as (dn' & V' & T' & P' & R'). exists dn'. split; [exact V'|]. split; [exact T'|]. split; [exact P'|]. intros y m I L. apply (R' y m I). lia.
Qed.

(** exchanges in order are all done in the first pass *)
Inductive ordered : list nat -> list xch -> Prop :=
| ordered_nil seen : ordered seen []
| ordered_cons seen x l : In (x_proc x) seen -> ordered (x_term x :: seen) l -> ordered seen (x :: l).
Lemma pass_ordered l : forall s dn s' r seen, Inv s dn dn -> dget p0 (s_tm s) = Some n0 -> (forall x, In x l -> In x xs) -> NoDup (map key (dn ++ l)) -> ordered seen l -> (forall q, In q seen -> dget q (s_tm s) <> None) -> pass deps s l = (s', r) -> r = [].
Proof.
  induction l as [|x l IH]; intros s dn s' r seen V T0 SUB ND O SN E; cbn in E; [injection E as _ <-; reflexivity|]. inversion O as [|? ? ? I O']; subst. destruct (dget (x_proc x) (s_tm s)) as [par|] eqn:TP; [|destruct (SN _ I TP)].
  assert (NK : ~ In (key x) (map key dn)). { rewrite map_app in ND. cbn in ND. apply NoDup_remove_2 in ND. intros J. apply ND. apply in_app_iff. left. exact J. }
  destruct (inv_try s dn x par V T0 (SUB x (or_introl eq_refl)) NK TP) as (V1 & G1 & TX). refine (IH _ (dn ++ [x]) s' r _ V1 (G1 _ _ T0) _ _ O' _ E); [intros y J; apply SUB; right; exact J|rewrite <- app_assoc; exact ND|].
  intros q [<-|J]; [exact TX|]. destruct (dget q (s_tm s)) as [i|] eqn:TQ; [rewrite (G1 _ _ TQ); discriminate|destruct (SN q J TQ)].
Qed.

(** parentless fragments never change *)
Definition keeps (s s' : fst_) : Prop := forall j f, dget j (s_h s) = Some f -> g_parent f = None -> dget j (s_h s') = Some f.
Lemma keeps_try s dn x par : Inv s dn dn -> In x xs -> keeps s (try_exch deps s par x).
Proof.
  intros V IX j f D P. unfold try_exch. destruct (mem par (s_new s)); [|exact D]. destruct (has_child _ _ _ _ _); [exact D|]. unfold create_child. assert (SD := i_sound _ _ _ V).
  destruct (dget (x_term x) (s_tm s)) as [n|] eqn:TN.
  - destruct (i_tm _ _ _ V _ _ (fg_term x IX) TN) as [IN (fn & DN & LN & TF & BF & _)]. cbn [add s_h]. rewrite dget_app. enough (H : dget j (s_h (split s n)) = Some f) by (rewrite H; reflexivity).
    destruct (g_parent fn) as [pp|] eqn:GP; [|unfold split; rewrite DN, GP; exact D]. destruct (split_spec s n fn pp SD DN GP BF _ TF) as (_ & _ & _ & _ & _ & DG & _). rewrite DG.
    destruct (eqb_spec j n) as [->|]; [congruence|]. destruct (eqb_spec j (s_next s)) as [->|]; [rewrite (dget_fresh _ _ _ SD (le_n _)) in D; discriminate|exact D].
  - cbn [s_h]. destruct (dget par (s_h s)) as [fp|] eqn:DP.
    + destruct (new_node_spec deps s (Some par) (x_flow x) (x_dir x) (x_val x) (x_term x) SD) as [l DN]; [intros q [= <-]; exact (dget_lt _ _ _ _ SD DP)|]. rewrite (dd_h _ _ _ _ _ DN). cbn [add s_h]. rewrite !dget_app, D. reflexivity.
    + assert (APP : forall ds i s1, dget j (s_h s1) = Some f -> dget j (s_h (fold_left (add_dep i) ds s1)) = Some f).
      { induction ds as [|y ds IH]; intros i s1 H; [exact H|]. cbn. apply IH. unfold add_dep, find_or_create. destruct (find _ _); cbn [add s_h]; rewrite ?dget_app, H; reflexivity. }
      apply APP. cbn. rewrite dget_app, D. reflexivity.
Qed.
Lemma keeps_pass l : forall s dn s' r, Inv s dn dn -> dget p0 (s_tm s) = Some n0 -> (forall x, In x l -> In x xs) -> NoDup (map key (dn ++ l)) -> pass deps s l = (s', r) -> keeps s s'.
Proof.
  induction l as [|x l IH]; intros s dn s' r V T0 SUB ND E; cbn in E; [injection E as <- _; intros j f H _; exact H|]. destruct (dget (x_proc x) (s_tm s)) as [par|] eqn:TP.
  - assert (NK : ~ In (key x) (map key dn)). { rewrite map_app in ND. cbn in ND. apply NoDup_remove_2 in ND. intros J. apply ND. apply in_app_iff. left. exact J. }
    destruct (inv_try s dn x par V T0 (SUB x (or_introl eq_refl)) NK TP) as (V1 & G1 & TX). intros j f D P. refine (IH _ (dn ++ [x]) s' r V1 (G1 _ _ T0) _ _ E j f _ P); [intros y J; apply SUB; right; exact J|rewrite <- app_assoc; exact ND|].
    exact (keeps_try s dn x par V (SUB x (or_introl eq_refl)) j f D P).
  - destruct (pass deps s l) as [s1 r1] eqn:E1. injection E as <- <-. apply (IH s dn s1 r1 V T0); [intros y J; apply SUB; right; exact J| |exact E1]. rewrite map_app in *. cbn in ND. apply NoDup_remove_1 in ND. exact ND.
Qed.
Lemma keeps_rounds k : forall s dn l s' r, Inv s dn dn -> dget p0 (s_tm s) = Some n0 -> Permutation xs (dn ++ l) -> NoDup (map key xs) -> rounds deps k s l = (s', r) -> keeps s s'.
Proof.
  induction k as [|k IH]; intros s dn l s' r V T0 P ND E; cbn in E; [injection E as <- _; intros j f H _; exact H|]. destruct l as [|x l]; [injection E as <- _; intros j f H _; exact H|].
  destruct (pass deps s (x :: l)) as [s1 l1] eqn:E1. assert (SUB : forall y, In y (x :: l) -> In y xs) by (intros y I; apply (Permutation_in _ (Permutation_sym P)); apply in_app_iff; right; exact I).
  destruct (inv_pass (x :: l) s dn s1 l1 V T0 SUB (perm_nodup _ _ P ND) E1) as (dl & V1 & G & P1 & R1).
  assert (P2 : Permutation xs ((dn ++ dl) ++ l1)) by (eapply Permutation_trans; [exact P|]; rewrite <- app_assoc; apply Permutation_app_head; exact P1).
  intros j f D PN. apply (IH s1 (dn ++ dl) l1 s' r V1 (G _ _ T0) P2 ND E j f); [|exact PN]. exact (keeps_pass _ s dn s1 l1 V T0 SUB (perm_nodup _ _ P ND) E1 j f D PN).
Qed.

(** * The whole *)
Lemma term_map_old q : fg q -> dget q (term_map h0) = None.
Proof.
  intros Q. unfold term_map. assert (H : forall e, In e h0 -> g_term (snd e) <> ToProc q). { intros [j f] I. apply (DJ0 j f q); [apply in_dget; [exact (proj1 SD0)|exact I]|exact Q]. }
  assert (G : forall (l : fheap) (d : dict nat nat), (forall e, In e l -> g_term (snd e) <> ToProc q) -> dget q d = None -> dget q (fold_left (fun d e => match g_term (snd e) with ToProc p => dset p (fst e) d | ToFrag _ => d end) l d) = None).
  { induction l as [|e l IH]; intros d A B; [exact B|]. cbn. apply IH; [intros e' I; apply A; right; exact I|]. destruct (g_term (snd e)) as [r|] eqn:T; [|exact B]. rewrite dget_dset. destruct (eqb_spec q r) as [->|]; [|exact B]. destruct (A e (or_introl eq_refl) T). }
  apply G; [exact H|reflexivity].
Qed.
Lemma inv_start : Inv (St h0 n0 (term_map h0) []) [] [].
Proof.
  split; cbn.
  - exact SD0. - lia. - intros j f H. exact H. - intros j f H. left. exact H. - exact CL0. - intros x []. - intros x [].
  - intros q i Q T. rewrite (term_map_old q Q) in T. discriminate.
  - intros x [].
Qed.
Lemma forest_run flow d v h' top rest : NoDup (map key xs) -> create_forest deps h0 n0 p0 flow d v xs = (h', top, rest) ->
  top = n0 /\ exists s dn, s_h s = h' /\ Inv s dn dn /\ dget p0 (s_tm s) = Some n0 /\ Permutation xs (dn ++ rest) /\ (forall x m, In x rest -> m <= 10 -> ~ within m (x_proc x)) /\ (ordered [p0] xs -> rest = []) /\
    dget n0 h' = Some (Fg None flow (flip d) v false (ToProc p0)).
Proof.
  intros ND. unfold create_forest. assert (F0 : fg p0) by (left; reflexivity). rewrite (term_map_old p0 F0).
  destruct (inv_node _ [] [] [] [] None flow d v p0 None inv_start F0 (term_map_old p0 F0)) as [V1 TM]; [auto|]. cbn [s_next] in V1. set (s1 := new_node _ _ _ _ _ _ _) in *.
  assert (NW : s_new s1 = []). { destruct (new_node_spec deps (St h0 n0 (term_map h0) []) None flow d v p0 SD0) as [l DN]; [discriminate|]. exact (dd_new _ _ _ _ _ DN). }
  assert (TOP : dget n0 (s_h s1) = Some (Fg None flow (flip d) v false (ToProc p0))).
  { destruct (new_node_spec deps (St h0 n0 (term_map h0) []) None flow d v p0 SD0) as [l DN]; [discriminate|]. fold s1 in DN. rewrite (dd_h _ _ _ _ _ DN). cbn [add s_h s_next]. rewrite !dget_app, (dget_fresh _ _ _ SD0 (le_n _)). cbn. rewrite eqb_refl. reflexivity. }
  rewrite NW in V1. cbn [app] in V1. set (s2 := St _ _ _ _) in V1 |- *. assert (T2 : dget p0 (s_tm s2) = Some n0) by (cbn; rewrite dget_dset, eqb_refl; reflexivity).
  destruct (pass deps s2 xs) as [s3 px] eqn:E1. destruct (rounds deps 10 s3 px) as [s4 r] eqn:E2. intros [= <- <- <-]. split; [reflexivity|].
  destruct (inv_pass xs s2 [] s3 px V1 T2 (fun x I => I) ND E1) as (dl & V3 & G3 & P3 & R3). cbn [app] in V3.
  assert (C0 : covered 0 s2) by (intros m q L W; inversion W as [Z1 Z2|k0 x0 IX0 WX0 Z1 Z2]; subst; [rewrite T2; discriminate|lia]).
  destruct (covered_pass 0 s2 [] xs s3 px dl C0 (Permutation_refl _) P3 V3 G3 T2 (fun y I => proj2 (R3 y I))) as [C1 R2].
  destruct (inv_rounds 10 0 s3 dl px s4 r V3 (G3 _ _ T2) P3 ND C1 R2 E2) as (dn & V4 & T4 & P4 & R4). exists s4, dn. split; [reflexivity|]. split; [exact V4|]. split; [exact T4|]. split; [exact P4|]. split; [exact R4|]. split.
  - intros O. assert (px = []) as ->. { refine (pass_ordered xs s2 [] s3 px [p0] V1 T2 (fun x I => I) ND O _ E1). intros q [<-|[]]. rewrite T2. discriminate. } cbn in E2. injection E2 as _ <-. reflexivity.
  - apply (keeps_rounds 10 s3 dl px s4 r V3 (G3 _ _ T2) P3 ND E2); [|reflexivity]. apply (keeps_pass xs s2 [] s3 px V1 T2 (fun x I => I) ND E1); [|reflexivity]. exact TOP.
Qed.
End Inv.

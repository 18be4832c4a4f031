(** C100: privacy declarations; C101: publications survive restarts. *)
From Coq Require Import String List ZArith Lia Permutation.
From Verif Require Import Base PyStr PubModel.
Import ListNotations.
Open Scope string_scope.
Open Scope list_scope.
Local Arguments eqb : simpl never.

(** * C100 *)
(** The level that applies to a scope: its own if the declaration names the scope, else the base. *)
Definition applies (base : level) (kw : dict string level) (scope : string) (l : level) : Prop :=
  In (scope, l) kw \/ (~ In scope (dkeys kw) /\ l = base).
Lemma policy_of kw : forall p scope, mem scope allowed_scopes = true -> NoDup (dkeys kw) ->
  get_policy (fold_left set_policy kw p) scope = match dget scope kw with Some l => l | None => get_policy p scope end.
Proof.
  induction kw as [|[k v] kw IH]; intros p scope A ND; [reflexivity|]. inversion ND as [|? ? NI ND']; subst. cbn [fold_left dget]. rewrite (IH _ _ A ND').
  unfold set_policy. cbn [fst snd]. destruct (eqb_spec scope k) as [->|N].
  - assert (Z : dget k kw = None) by (apply dget_None; exact NI). rewrite Z, A. unfold get_policy. cbn [pv_policy pv_base]. rewrite dget_dset_same. reflexivity.
  - destruct (dget scope kw) as [l|]; [reflexivity|]. destruct (mem k allowed_scopes); [|reflexivity]. unfold get_policy. cbn [pv_policy pv_base]. rewrite dget_dset_other by exact N. reflexivity.
Qed.
Lemma policy_declare base kw scope : mem scope allowed_scopes = true -> NoDup (dkeys kw) ->
  get_policy (declare base kw) scope = match dget scope kw with Some l => l | None => base end.
Proof. intros A ND. unfold declare. rewrite policy_of by assumption. reflexivity. Qed.

(** A query is let through exactly if its scope is known and there is no level for it, or a level of at least the score and 0. *)
Theorem C100_decision base kw scope score : NoDup (dkeys kw) ->
  test (declare base kw) scope score = true <->
  In scope allowed_scopes /\ exists l, applies base kw scope l /\ match l with None => True | Some n => (0 <= n)%Z /\ (score <= n)%Z end.
Proof.
  intros ND. unfold test. destruct (mem_spec scope allowed_scopes) as [I|NI]; cbn [negb]; [|split; [discriminate|intros [X _]; contradiction]].
  assert (A : mem scope allowed_scopes = true) by (apply mem_In; exact I). rewrite policy_declare by assumption. unfold applies.
  assert (U : forall l, In (scope, l) kw \/ ~ In scope (dkeys kw) /\ l = base -> l = match dget scope kw with Some l => l | None => base end).
  { intros l [J|[J ->]]; [apply (In_dget _ _ _ ND) in J; rewrite J; reflexivity|apply dget_None in J; rewrite J; reflexivity]. }
  set (l := match dget scope kw with Some l => l | None => base end) in *.
  assert (L : In (scope, l) kw \/ ~ In scope (dkeys kw) /\ l = base).
  { unfold l. destruct (dget scope kw) as [l'|] eqn:D; [left; apply dget_In; exact D|right; split; [apply dget_None; exact D|reflexivity]]. }
  split.
  - intros T. split; [exact I|]. exists l. split; [exact L|]. destruct l as [n|]; [|exact Logic.I]. apply Z.leb_le in T. lia.
  - intros [_ (l' & J & C)]. apply U in J. subst l'. destruct l as [n|]; [|reflexivity]. apply Z.leb_le. lia.
Qed.
(** So a lower score never opens less, and a negative level shuts a scope for everyone. *)
Theorem C100_monotone p scope score score' : (score' <= score)%Z -> test p scope score = true -> test p scope score' = true.
Proof. intros L T. unfold test in *. destruct (mem scope allowed_scopes); [|discriminate]. cbn in *. destruct (get_policy p scope); [|reflexivity]. apply Z.leb_le. apply Z.leb_le in T. lia. Qed.
Theorem C100_negative base kw scope n score : NoDup (dkeys kw) -> applies base kw scope (Some n) -> (n < 0)%Z -> test (declare base kw) scope score = false.
Proof.
  intros ND J N. destruct (test (declare base kw) scope score) eqn:T; [|reflexivity]. exfalso. apply C100_decision in T as [_ (l & K & C)]; [|exact ND].
  assert (l = Some n). { unfold applies in *. destruct J as [J|[J E]], K as [K|[K E']].
    - apply (In_dget _ _ _ ND) in J. apply (In_dget _ _ _ ND) in K. congruence.
    - exfalso. apply K. apply in_map_iff. exists (scope, Some n). auto.
    - exfalso. apply J. apply in_map_iff. exists (scope, l). auto.
    - congruence. }
  subst l. lia.
Qed.
Print Assumptions C100_decision. Print Assumptions C100_monotone. Print Assumptions C100_negative.

(** Written and read back, in any order of the entries, a declaration decides as before. *)
Definition made (p : priv) : Prop := NoDup (dkeys (pv_policy p)) /\ forall k, In k (dkeys (pv_policy p)) -> In k allowed_scopes.
Lemma made_fold kw : forall p, made p -> made (fold_left set_policy kw p).
Proof.
  induction kw as [|[k v] kw IH]; intros p M; [exact M|]. cbn [fold_left]. apply IH. unfold set_policy. cbn [fst snd]. destruct (mem_spec k allowed_scopes) as [I|]; [|exact M]. destruct M as [M1 M2].
  split; cbn [pv_policy]; [apply NoDup_dset; exact M1|]. intros k' J. apply In_dkeys_dset in J as [->|J]; [exact I|auto].
Qed.
Lemma made_declare base kw : made (declare base kw).
Proof. apply made_fold. split; cbn; [constructor|intros ? []]. Qed.
Lemma made_pub_made n i a : made (pb_priv (make_pub n i a)).
Proof. destruct a; unfold make_pub, from_dict; cbn [pb_priv]; apply made_declare. Qed.
Lemma base_not_scope : ~ In "base" allowed_scopes. Proof. cbn. intuition discriminate. Qed.
Lemma dget_perm (d e : dict string level) k : NoDup (dkeys d) -> Permutation d e -> dget k e = dget k d.
Proof.
  intros ND P. assert (NE : NoDup (dkeys e)) by (eapply Permutation_NoDup; [apply Permutation_map; exact P|exact ND]).
  destruct (dget k d) as [v|] eqn:D.
  - apply In_dget; [exact NE|]. eapply Permutation_in; [exact P|]. apply dget_In; exact D.
  - apply dget_None. apply dget_None in D. intros J. apply D. eapply Permutation_in; [apply Permutation_map; symmetry; exact P|exact J].
Qed.
Lemma ser_nodup p : made p -> NoDup (dkeys (ser_priv p)).
Proof. intros [M _]. unfold ser_priv. destruct (pv_base p); [apply NoDup_dset; exact M|exact M]. Qed.
Lemma round_trip p d scope : made p -> Permutation (ser_priv p) d -> mem scope allowed_scopes = true -> get_policy (from_dict d) scope = get_policy p scope.
Proof.
  intros M P A. pose proof (ser_nodup p M) as ND. destruct M as [M1 M2]. assert (NB : dget "base" (pv_policy p) = None) by (apply dget_None; intros J; exact (base_not_scope (M2 _ J))).
  unfold from_dict. rewrite policy_declare; [|exact A|apply NoDup_ddel; eapply Permutation_NoDup; [apply Permutation_map; exact P|exact ND]].
  assert (SB : scope <> "base") by (intros ->; apply base_not_scope; apply mem_In; exact A).
  rewrite dget_ddel, (proj2 (eqb_neq _ _) SB), !(dget_perm _ _ _ ND P). unfold get_policy, ser_priv. destruct (pv_base p) as [b|] eqn:B.
  - rewrite dget_dset_other by exact SB. rewrite dget_dset_same. reflexivity.
  - rewrite NB. reflexivity.
Qed.
Theorem C100_round_trip base kw d scope score : Permutation (ser_priv (declare base kw)) d -> test (from_dict d) scope score = test (declare base kw) scope score.
Proof.
  intros P. unfold test. destruct (mem scope allowed_scopes) eqn:A; [|reflexivity]. cbn [negb]. rewrite (round_trip _ _ _ (made_declare base kw) P A). reflexivity.
Qed.
Print Assumptions C100_round_trip.
Example C100_example :
  let p := declare (Some 3%Z) [("exch", Some 1%Z); ("lci", Some (-1)%Z); ("origin", None); ("nosuch", Some 9%Z)] in
  map (fun c => test p (fst c) (snd c)) [("exch", 1%Z); ("exch", 2%Z); ("index", 3%Z); ("index", 4%Z); ("lci", (-5)%Z); ("origin", 99%Z); ("nosuch", 0%Z)]
    = [true; false; true; false; false; true; false] /\
  ser_priv p = [("exch", Some 1%Z); ("lci", Some (-1)%Z); ("origin", None); ("base", Some 3%Z)].
Proof. split; vm_compute; reflexivity. Qed.

(** * C101 *)
(** What should be published after a history: a definition counts if its name is not taken (by a publication in force, or one deleted since the start) and its origin known;
    deleting revokes at the next start. *)
Record goal := Gl { g_served : dict string (list string * parg); g_kept : dict string (list string * parg) }.
Definition aim (known : string -> bool) (g : goal) (o : op) : goal :=
  match o with
  | ODefine n i p => if din n (g_served g) || din n (g_kept g) || negb (known n) then g else Gl (dset n (i, p) (g_served g)) (dset n (i, p) (g_kept g))
  | ODefine1 _ => g
  | ODelete n => Gl (g_served g) (ddel n (g_kept g))
  | ORestart => Gl (g_kept g) (g_kept g)
  end.
(** The published object [p] is as defined: offers the interfaces asked for that exist, and answers to every scope and score like the declaration. *)
Definition as_defined (name : string) (d : list string * parg) (p : pub) : Prop :=
  pb_name p = name /\ (forall k, In k (pb_ifs p) <-> In k (fst d) /\ In k allowed_interfaces) /\
  forall scope score, test (pb_priv p) scope score = test (match snd d with PNone => declare None [] | PNum n => declare (Some n) [] | PDict m => from_dict m end) scope score.
Definition publishes (live : dict string served) (g : dict string (list string * parg)) : Prop :=
  forall n, match dget n g with
            | Some d => exists p, dget n live = Some (V2 p) /\ as_defined n d p
            | None => dget n live = None
            end.
(** no [define_av1_instance] in the history *)
Definition only_v2 (ops : list op) : Prop := forall n, ~ In (ODefine1 n) ops.

Section S.
Context (known : string -> bool) (reorder : dict string level -> dict string level).
Hypothesis RE : forall d, Permutation d (reorder d).
Definition disk_ok (disk : dict string file) (g : dict string (list string * parg)) : Prop :=
  NoDup (dkeys disk) /\
  forall n, match dget n g with
            | Some d => exists p, dget n disk = Some (Good (ser_pub p)) /\ as_defined n d p /\ made (pb_priv p) /\ known n = true
            | None => dget n disk = None
            end.
Definition inv (s : state) (g : goal) : Prop := (exists live, st_live s = Some live /\ publishes live (g_served g)) /\ disk_ok (st_disk s) (g_kept g).

Lemma make_as_defined n i a : as_defined n (i, a) (make_pub n i a).
Proof.
  split; [reflexivity|]. split; [|destruct a; reflexivity]. intros k. cbn [pb_ifs make_pub fst]. rewrite filter_In, mem_In. reflexivity.
Qed.
Lemma reload n d p : as_defined n d p -> made (pb_priv p) -> as_defined n d (make_pub (pb_name p) (pb_ifs p) (PDict (reorder (ser_priv (pb_priv p))))).
Proof.
  intros (A1 & A2 & A3) M. split; [exact A1|]. split.
  - intros k. cbn [pb_ifs make_pub fst]. rewrite filter_In, mem_In, A2. tauto.
  - intros scope score. rewrite <- A3. cbn [pb_priv make_pub]. unfold test. destruct (mem scope allowed_scopes) eqn:A; [|reflexivity]. cbn [negb]. rewrite (round_trip _ _ _ M (RE _) A). reflexivity.
Qed.
Lemma load_all_ok fs : forall live g, NoDup (dkeys fs) ->
  (forall n f, In (n, f) fs -> exists p d, f = Good (ser_pub p) /\ dget n g = Some d /\ as_defined n d p /\ made (pb_priv p) /\ known n = true) ->
  (forall n, In n (dkeys fs) -> dget n live = None) ->
  exists live', load_all known reorder fs live = inl live' /\
    (forall n, ~ In n (dkeys fs) -> dget n live' = dget n live) /\
    (forall n, In n (dkeys fs) -> exists d p, dget n g = Some d /\ dget n live' = Some (V2 p) /\ as_defined n d p).
Proof.
  induction fs as [|[n f] fs IH]; intros live g ND F L; [exists live; cbn; split; [reflexivity|]; split; [reflexivity|intros ? []]|].
  inversion ND as [|? ? NI ND']; subst. destruct (F n f (or_introl eq_refl)) as (p & d & -> & G & AD & M & K). cbn [load_all]. destruct AD as [PN AD']. cbn [j_name ser_pub]. rewrite PN, K. cbn [negb].
  assert (AD : as_defined n d p) by (split; assumption). pose proof (reload n d p AD M) as R. rewrite PN in R.
  destruct (IH (dset n (V2 (make_pub n (pb_ifs p) (PDict (reorder (ser_priv (pb_priv p)))))) live) g ND' (fun n' f' J => F n' f' (or_intror J))) as (live' & E & O & I).
  { intros m J. rewrite dget_dset_other; [apply L; right; exact J|]. intros ->. contradiction. }
  exists live'. split; [exact E|]. split.
  - intros m J. rewrite O; [|intros X; apply J; right; exact X]. apply dget_dset_other. intros ->. apply J. left; reflexivity.
  - intros m [<-|J]; [|apply I; exact J]. cbn [fst]. exists d. eexists. split; [exact G|]. split; [rewrite O by exact NI; apply dget_dset_same|exact R].
Qed.
Lemma step_inv s g o : inv s g -> (forall n, o <> ODefine1 n) -> inv (fst (step known reorder s o)) (aim known g o).
Proof.
  intros [(live & SL & PU) (ND & DK)] N1. destruct o as [n i a|n|n|]; cbn [step aim].
  - unfold define2. rewrite SL. unfold check_server. pose proof (PU n) as PN. pose proof (DK n) as DN. unfold din.
    destruct (dget n (g_served g)) as [d|].
    { destruct PN as (p & PN & _). rewrite PN. cbn. split; [exists live; auto|split; auto]. }
    rewrite PN. destruct (dget n (g_kept g)) as [d|].
    { destruct DN as (p & DN & _). rewrite DN. cbn. split; [exists live; auto|split; auto]. }
    rewrite DN. cbn [orb]. destruct (known n) eqn:K; cbn [negb fst]; [|split; [exists live; auto|split; auto]].
    split.
    + eexists. split; [reflexivity|]. intros m. cbn [g_served]. rewrite !dget_dset. destruct (eqb_spec m n) as [->|]; [|apply PU]. eexists. split; [reflexivity|]. apply make_as_defined.
    + split; [cbn; apply NoDup_dset; exact ND|]. intros m. cbn [g_kept st_disk]. rewrite !dget_dset. destruct (eqb_spec m n) as [->|]; [|apply DK]. eexists. split; [reflexivity|].
      split; [apply make_as_defined|]. split; [apply made_pub_made|exact K].
  - exfalso. exact (N1 n eq_refl).
  - unfold delete. rewrite SL. cbn. split; [exists live; auto|]. split; [cbn; apply NoDup_ddel; exact ND|]. intros m. cbn [g_kept st_disk]. rewrite !dget_ddel. destruct (eqb m n); [reflexivity|apply DK].
  - unfold restart. destruct (load_all_ok (st_disk s) [] (g_kept g) ND) as (live' & E & O & I).
    + intros n f J. apply (In_dget _ _ _ ND) in J. specialize (DK n). destruct (dget n (g_kept g)) as [d|]; [|congruence]. destruct DK as (p & DK & A & M & K). exists p, d. split; [congruence|]. auto.
    + reflexivity.
    + rewrite E. cbn. split; [|split; auto]. exists live'. split; [reflexivity|]. intros n. cbn [g_served]. pose proof (DK n) as DN. destruct (dget n (g_kept g)) as [d|] eqn:G.
      * destruct DN as (p & DN & _). destruct (I n (dget_Some_key _ _ _ DN)) as (d' & p' & G' & L & A). assert (d' = d) by congruence. subst d'. exists p'. auto.
      * rewrite O; [reflexivity|]. apply dget_None. exact DN.
Qed.
Lemma run_inv ops : forall s g, inv s g -> only_v2 ops -> inv (run known reorder ops s) (fold_left (aim known) ops g).
Proof.
  induction ops as [|o ops IH]; intros s g I O; [exact I|]. cbn. apply IH; [|intros n J; apply (O n); right; exact J]. apply step_inv; [exact I|]. intros n ->. apply (O n). left; reflexivity.
Qed.
End S.

(** After any history of publishing, deleting and restarting, exactly what should be published is, with the interfaces and privacy it was defined with; and the next
    start succeeds and publishes exactly what has not been deleted. *)
Theorem C101_publications_partial known reorder ops : (forall d, Permutation d (reorder d)) -> only_v2 ops ->
  let g := fold_left (aim known) ops (Gl [] []) in
  (exists live, st_live (run known reorder ops fresh) = Some live /\ publishes live (g_served g)) /\
  exists live s', restart known reorder (run known reorder ops fresh) = (s', SOk) /\ st_live s' = Some live /\ publishes live (g_kept g).
Proof.
  intros RE O g. assert (I : inv known (run known reorder ops fresh) g).
  { apply run_inv; [exact RE| |exact O]. split; [exists []; split; [reflexivity|intros n; reflexivity]|]. split; [constructor|intros n; reflexivity]. }
  split; [apply I|]. pose proof (step_inv known reorder RE _ g ORestart I ltac:(discriminate)) as [(live & SL & PU) _]. cbn in SL, PU. unfold restart in *.
  destruct (load_all _ _ _ _) as [l|e]; [|discriminate]. cbn in SL. injection SL as ->. eexists. eexists. split; [reflexivity|]. split; [reflexivity|exact PU].
Qed.
Print Assumptions C101_publications_partial.
(** No served publication offers an interface outside the allowed ones, whatever was asked for. *)
Theorem C101_interfaces known reorder ops live n p k : st_live (run known reorder ops fresh) = Some live -> dget n live = Some (V2 p) -> In k (pb_ifs p) -> In k allowed_interfaces.
Proof.
  intros SL D J. assert (I : forall live, st_live (run known reorder ops fresh) = Some live -> forall n p, In (n, V2 p) live -> exists m i a, p = make_pub m i a).
  { assert (G : forall s, (forall live, st_live s = Some live -> forall n p, In (n, V2 p) live -> exists m i a, p = make_pub m i a) ->
        forall live, st_live (run known reorder ops s) = Some live -> forall n p, In (n, V2 p) live -> exists m i a, p = make_pub m i a).
    { clear. induction ops as [|o ops IH]; intros s I; [exact I|]. cbn. apply IH. intros live SL n p J.
      assert (DS : forall k v (l : dict string served), (forall n p, In (n, V2 p) l -> exists m i a, p = make_pub m i a) -> (forall p, v = V2 p -> exists m i a, p = make_pub m i a) ->
                forall n p, In (n, V2 p) (dset k v l) -> exists m i a, p = make_pub m i a).
      { clear. intros k v l HL HV n p. induction l as [|[k' v'] l IHl]; cbn.
        - intros [[= <- ->]|[]]. eauto.
        - destruct (eqb k k'); cbn; intros [E|J]; [injection E as <- ->; eauto|eapply HL; right; exact J|injection E as <- ->; eapply HL; left; reflexivity|].
          apply IHl; [|exact J]. intros n' p' J'. eapply HL. right; exact J'. }
      destruct o as [m i a|m|m|]; cbn [step] in SL.
      - unfold define2 in SL. destruct (st_live s) as [lv|] eqn:E; [|cbn in SL; congruence]. destruct (check_server s lv m); [|cbn in SL; rewrite E in SL; eauto].
        destruct (known m); cbn in SL; [|rewrite E in SL; eauto]. injection SL as <-. eapply DS; [|eauto..|exact J]; [eauto|]. intros q [= <-]. eauto.
      - unfold define1 in SL. destruct (st_live s) as [lv|] eqn:E; [|cbn in SL; congruence]. destruct (check_server s lv m); [|cbn in SL; rewrite E in SL; eauto].
        cbn in SL. injection SL as <-. eapply DS; [|eauto..|exact J]; [eauto|]. intros q [=].
      - unfold delete in SL. destruct (st_live s) as [lv|] eqn:E; cbn in SL; [injection SL as <-; eauto|congruence].
      - unfold restart in SL. destruct (load_all _ _ _ _) as [l|e] eqn:L; [|discriminate]. cbn in SL. injection SL as <-.
        assert (LA : forall fs lv lv', (forall n p, In (n, V2 p) lv -> exists m i a, p = make_pub m i a) -> load_all known reorder fs lv = inl lv' ->
                  forall n p, In (n, V2 p) lv' -> exists m i a, p = make_pub m i a).
        { clear -DS. induction fs as [|[x f] fs IHf]; intros lv lv' HL E; cbn in E; [injection E as <-; exact HL|]. destruct f as [j|]; [|discriminate]. destruct (known (j_name j)); [|discriminate]. cbn in E.
          eapply IHf; [|exact E]. apply DS; [exact HL|]. intros q [= <-]. eauto. }
        eapply LA; [|exact L|exact J]. intros ? ? []. }
    apply G. cbn. intros l [= <-] ? ? []. }
  destruct (I live SL n p (dget_In _ _ _ D)) as (m & i & a & ->). cbn [pb_ifs make_pub] in J. apply filter_In in J as [_ J]. apply mem_In. exact J.
Qed.
Print Assumptions C101_interfaces.
Definition ops101 : list op :=
  [ODefine "local.uslci" ["index"; "inventory"; "secret"] (PDict [("exch_val", Some (-1)%Z); ("base", Some 2%Z)]); ODefine "nosuch" ["index"] PNone;
   ODefine "local.traci" ["quantity"] (PNum 0); ORestart; ODelete "local.traci"; ODefine "local.traci" ["index"] PNone; ORestart; ODefine "local.traci" ["index"] PNone].
Example C101_example : only_v2 ops101 /\
  let g := fold_left (aim (fun n => negb (String.eqb n "nosuch"))) ops101 (Gl [] []) in
  g_kept g = [("local.uslci", (["index"; "inventory"; "secret"], PDict [("exch_val", Some (-1)%Z); ("base", Some 2%Z)])); ("local.traci", (["index"], PNone))] /\
  st_live (run (fun n => negb (String.eqb n "nosuch")) (fun d => d) ops101 fresh) =
    Some [("local.uslci", V2 (Pub "local.uslci" ["index"; "inventory"] (Pv (Some 2%Z) [("exch_val", Some (-1)%Z)]))); ("local.traci", V2 (Pub "local.traci" ["index"] (Pv None [])))].
Proof. split; [|split; vm_compute; reflexivity]. intros n J. cbn in J. intuition discriminate. Qed.

(** Counterexamples to "what was published is served until it is deleted".  A version 1 publication is gone after a restart. *)
Theorem C101_refuted_v1 : let s := run (fun _ => true) (fun d => d) [ODefine1 "fg"] fresh in
  st_live s = Some [("fg", V1 "fg")] /\ st_live (fst (restart (fun _ => true) (fun d => d) s)) = Some [].
Proof. split; reflexivity. Qed.
(** A deleted publication is served until the restart. *)
Theorem C101_refuted_delete : let s := run (fun _ => true) (fun d => d) [ODefine "a" ["index"] PNone; ODelete "a"] fresh in
  st_disk s = [] /\ st_live s = Some [("a", V2 (Pub "a" ["index"] (Pv None [])))].
Proof. split; reflexivity. Qed.
(** When one origin that was published is no longer known, or the program was killed while publishing, the server does not start, whatever else was published. *)
Theorem C101_refuted_start reorder s name known : In name (dkeys (st_disk s)) -> (forall n j, In (n, Good j) (st_disk s) -> j_name j = n) -> known name = false ->
  exists s' e, restart known reorder s = (s', SErr e) /\ st_live s' = None.
Proof.
  intros J N K. unfold restart. assert (L : forall live, exists e, load_all known reorder (st_disk s) live = inr e).
  { clear -J N K. induction (st_disk s) as [|[n f] fs IH]; [destruct J|]. intros live. cbn. destruct f as [j|]; [|eauto]. rewrite (N n j (or_introl eq_refl)). destruct (known n) eqn:KN; [|cbn; eauto]. cbn.
    apply IH; [|intros ? ? X; apply N; right; exact X]. destruct J as [<-|J]; [cbn in K; congruence|exact J]. }
  destruct (L []) as [e ->]. eexists. eexists. split; reflexivity.
Qed.
Theorem C101_refuted_killed known reorder s live name : st_live s = Some live -> check_server s live name = SOk -> known name = true ->
  exists s' e, restart known reorder (define2_killed known s name) = (s', SErr e) /\ st_live s' = None.
Proof.
  intros SL C K. unfold define2_killed. rewrite SL, C, K. unfold restart. cbn [st_disk].
  assert (L : forall live, exists e, load_all known reorder (dset name Broken (st_disk s)) live = inr e).
  { clear. induction (st_disk s) as [|[n f] fs IH]; intros live; cbn; [eauto|]. destruct (eqb name n); cbn; [eauto|]. destruct f as [j|]; [|eauto]. destruct (known (j_name j)); cbn; eauto. }
  destruct (L []) as [e ->]. eexists. eexists. split; reflexivity.
Qed.
(** What a request is answered from: the publication of exactly that name if there is one; otherwise one whose name begins with the
    requested name; and nothing only if no published name begins with it. *)
Theorem C101_lookup live item :
  match server_for live item with
  | Some p => dget item live = Some p \/ (dget item live = None /\ exists rest, In ((item ++ rest)%string, p) live)
  | None => dget item live = None /\ forall rest p, ~ In ((item ++ rest)%string, p) live
  end.
Proof.
  assert (PX : forall s t, String.prefix s t = true <-> exists r, t = (s ++ r)%string).
  { clear. induction s as [|c s IH]; intros t; cbn [String.prefix String.append]; [split; intros; [exists t; reflexivity|destruct t; reflexivity]|]. destruct t as [|d t]; [split; intros H; [|destruct H as [r H]]; discriminate|].
    cbn [String.prefix]. destruct (Ascii.ascii_dec c d) as [->|N]; [rewrite IH; split; intros [r H]; exists r; congruence|].
    split; intros H; [|destruct H as [r H]]; congruence. }
  unfold server_for. destruct (dget item live) as [p|] eqn:D; [left; reflexivity|].
  destruct (find (fun e => String.prefix item (fst e)) live) as [[n p]|] eqn:F; cbn [option_map snd].
  - apply find_some in F as [I P]. cbn [fst] in P. apply PX in P as [r ->]. right. split; [reflexivity|]. exists r. exact I.
  - split; [reflexivity|]. intros r p I. pose proof (find_none _ _ F _ I) as P. cbn [fst] in P.
    assert (Q : String.prefix item (item ++ r)%string = true) by (apply PX; exists r; reflexivity). congruence.
Qed.
Example C101_lookup_example : exists p q, server_for [("local.private", V2 p); ("local", V2 q)] "local" = Some (V2 q) /\ V2 p <> V2 q.
Proof. exists (make_pub "local.private" ["index"] PNone), (make_pub "local" ["index"] PNone). split; [reflexivity|discriminate]. Qed.
Print Assumptions C101_lookup.
(** A name that is not published may be answered by another publication that begins with it: here a request for "local" is answered from "local.private". *)
Theorem C101_refuted_prefix : exists p, server_for [("local.private", V2 p)] "local" = Some (V2 p) /\ pb_name p = "local.private".
Proof. exists (make_pub "local.private" ["index"] PNone). split; reflexivity. Qed.
Print Assumptions C101_refuted_start. Print Assumptions C101_refuted_killed.

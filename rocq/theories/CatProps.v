(** C92-C94: which resource answers a query (model: CatModel.v). *)
From Coq Require Import ZArith Lia.
From Verif Require Import Base PyStr ResModel ResProps CatModel CatProofs.
Open Scope string_scope.
Open Scope nat_scope.
Open Scope list_scope.
Local Arguments eqb : simpl never.

(** * Specification *)
(** the resource is loaded and static *)
Definition at_hand (c : cat) (r : res) : Prop := exists a, dget (r_id r) (c_arch c) = Some a /\ (ar_static a = true \/ lower (d_type (r_data r)) = "json").
(** [x] is asked before [y] whatever the order in which they were registered: loaded static archives first, then the lower priority number, then the exact origin *)
Definition ahead (c : cat) (origin : string) (x y : res) : Prop :=
  (at_hand c x /\ ~ at_hand c y) \/
  ((at_hand c x <-> at_hand c y) /\ ((d_prio (r_data x) < d_prio (r_data y))%Z \/ (d_prio (r_data x) = d_prio (r_data y) /\ r_ref x = origin /\ r_ref y <> origin))).
(** what the archive of a resource, opened now if it is not loaded, says about [ext] *)
Definition answer (open : nat -> qret archive) (c : cat) (r : res) (ext : string) : qret (option nat) :=
  match (match dget (r_id r) (c_arch c) with Some a => QOk a | None => open (r_id r) end) with QOk a => ar_get a ext | QErr e => QErr e end.
Definition opens (open : nat -> qret archive) (c : cat) (r : res) : Prop := exists a, (match dget (r_id r) (c_arch c) with Some a => QOk a | None => open (r_id r) end) = QOk a.
(** the query of [origin] has no cached answer for [ext] *)
Definition uncached (c : cat) (origin ext : string) : Prop := forall d, dget origin (c_q c) = Some d -> dget ext d = None.

(** * The order *)
Definition handb (c : cat) (r : res) : bool := match dget (r_id r) (c_arch c) with Some a => ar_static a || String.eqb (lower (d_type (r_data r))) "json" | None => false end.
Lemma handb_spec c r : handb c r = true <-> at_hand c r.
Proof.
  unfold handb, at_hand. destruct (dget (r_id r) (c_arch c)) as [a|]; [|split; [discriminate|intros (? & [=] & _)]]. rewrite orb_true_iff, String.eqb_eq. split; [intros H; exists a; auto|]. intros (a' & [= ->] & H). exact H.
Qed.
Lemma ahead_spec c origin x y : rank_le (rank_of c origin y) (rank_of c origin x) = false <-> ahead c origin x y.
Proof.
  unfold rank_of, ahead. fold (handb c x) (handb c y). rewrite <- !handb_spec. unfold rank_le. destruct (handb c x), (handb c y); cbn.
  - destruct (Z.eqb_spec (d_prio (r_data y)) (d_prio (r_data x))) as [E|E].
    + destruct (String.eqb_spec (r_ref y) origin), (String.eqb_spec (r_ref x) origin); cbn; split; intros H; try discriminate; try (right; split; [tauto|right; auto]); destruct H as [[_ H]|[_ [H|(_ & ? & ?)]]]; try contradiction; try lia; reflexivity || congruence.
    + rewrite Z.leb_gt. split; [intros; right; split; [tauto|left; lia]|]. intros [[_ H]|[_ [H|(? & _)]]]; [contradiction H; reflexivity|lia|congruence].
  - split; [intros _; left; split; [reflexivity|discriminate]|reflexivity].
  - split; [discriminate|]. intros [[H _]|[[_ H] _]]; [discriminate|]. exfalso. discriminate (H eq_refl).
  - destruct (Z.eqb_spec (d_prio (r_data y)) (d_prio (r_data x))) as [E|E].
    + destruct (String.eqb_spec (r_ref y) origin), (String.eqb_spec (r_ref x) origin); cbn; split; intros H; try discriminate; try (right; split; [tauto|right; auto]); destruct H as [[H _]|[_ [H|(_ & ? & ?)]]]; try discriminate; try lia; try contradiction; reflexivity || congruence.
    + rewrite Z.leb_gt. split; [intros; right; split; [tauto|left; lia]|]. intros [[H _]|[_ [H|(? & _)]]]; [discriminate|lia|congruence].
Qed.

(** * The candidates *)
Lemma satisfies_basic d : satisfies d (Some ["basic"]) = true. Proof. reflexivity. Qed.
Lemma filter_all {A} (f g : A -> bool) l : (forall x, f x = g x) -> filter f l = filter g l.
Proof. intros E. induction l as [|x l IH]; cbn; [reflexivity|]. rewrite E, IH. reflexivity. Qed.
Lemma resolve_basic s o st : resolve s o (Some ["basic"]) st = resolve s o None st.
Proof.
  unfold resolve. assert (E : resolve_loop (rs_mem s) o (Some ["basic"]) st = resolve_loop (rs_mem s) o None st); [|rewrite E; reflexivity].
  induction (rs_mem s) as [|[ref l] t IH]; cbn -[satisfies]; [reflexivity|]. rewrite IH. destruct (resolve_loop t o None st) as [out f]. rewrite (filter_all (fun r => satisfies (r_data r) (Some ["basic"])) (fun r => satisfies (r_data r) None)) by reflexivity. reflexivity.
Qed.
Section Queries.
Context (open : nat -> qret archive).
Lemma arch_answer c r ext : answer open c r ext = match arch open c r with QOk a => ar_get a ext | QErr e => QErr e end. Proof. reflexivity. Qed.
Lemma perform_get_spec c origin ext l : resolve (c_rs c) origin None false = ROk l ->
  exists c1 s, perform_get open c origin ext = (c1, match find (stops_get open c ext) (sort_rank (rank_of c origin) l) with Some r => said_get open c ext r | None => QErr QNotFound end) /\ grown open c c1 s.
Proof.
  intros R. unfold perform_get, sorted_resources. rewrite resolve_basic, R. destruct (query_loop_spec open ext (sort_rank (rank_of c origin) l) c) as (c1 & s & E & G). exists c1, s. split; [exact E|exact G].
Qed.
Lemma query_get_none c origin refresh ext : (resolve (c_rs c) origin None false = RErr RUnknownOrigin /\ query_get open c origin refresh ext = (c, QErr QUnknownOrigin)) \/
  (resolve (c_rs c) origin None false = ROk [] /\ query_get open c origin refresh ext = (c, QErr QStopIteration)) \/
  (exists r l, resolve (c_rs c) origin None false = ROk (r :: l)).
Proof.
  unfold query_get, query. destruct (C55_resolve_exact (c_rs c) origin None false) as [[E _]|(out & E & _)]; rewrite E; [left; auto|]. destruct out as [|r l]; [right; left; auto|right; right; eauto].
Qed.
(** a query for which nothing is cached *)
Lemma query_get_fresh c origin refresh ext l : resolve (c_rs c) origin None false = ROk l -> l <> [] -> refresh = true \/ uncached c origin ext ->
  exists c1, query_get open c origin refresh ext = (c1, match find (stops_get open c ext) (sort_rank (rank_of c origin) l) with Some r => said_get open c ext r | None => QErr QNotFound end).
Proof.
  intros R NE F. unfold query_get, query. rewrite R. destruct l as [|r0 l0]; [contradiction|]. clear NE.
  set (c0 := if refresh || negb (din origin (c_q c)) then with_q c (dset origin [] (c_q c)) else c).
  assert (C0 : c_rs c0 = c_rs c /\ c_arch c0 = c_arch c /\ exists d, dget origin (c_q c0) = Some d /\ dget ext d = None).
  { unfold c0. destruct refresh; cbn; [split; [reflexivity|]; split; [reflexivity|]; exists []; rewrite dget_dset, eqb_refl; auto|]. unfold din. destruct (dget origin (c_q c)) as [d|] eqn:D; cbn.
    - split; [reflexivity|]. split; [reflexivity|]. destruct F as [F|F]; [discriminate|]. eauto.
    - split; [reflexivity|]. split; [reflexivity|]. exists []. rewrite dget_dset, eqb_refl. auto. }
  clearbody c0. destruct C0 as (E1 & E2 & d & D & N). unfold get. rewrite D, N.
  destruct (perform_get_spec c0 origin ext (r0 :: l0)) as (c1 & s & P & G); [rewrite E1; exact R|]. rewrite P.
  assert (EA : forall x, arch open c0 x = arch open c x) by (intros x; unfold arch; rewrite E2; reflexivity).
  assert (ER : rank_of c0 origin = rank_of c origin) by (unfold rank_of; rewrite E2; reflexivity). rewrite ER.
  rewrite (find_ext2 (stops_get open c0 ext) (stops_get open c ext)) by (intros x; unfold stops_get; rewrite EA; reflexivity).
  clear P. destruct (find (stops_get open c ext) (sort_rank (rank_of c origin) (r0 :: l0))) as [r|]; [|eexists; reflexivity]. assert (ES : said_get open c0 ext r = said_get open c ext r) by (unfold said_get; rewrite EA; reflexivity). rewrite ES.
  destruct (said_get open c ext r); eexists; reflexivity.
Qed.

(** * C92 *)
(** The candidates of a query are asked in the order of their rank, and the first that has the entity, that cannot be opened or that raises anything but
    EntityNotFound decides; if there is none, EntityNotFound. *)
Theorem C92_who_decides c origin refresh ext l : resolve (c_rs c) origin None false = ROk l -> l <> [] -> refresh = true \/ uncached c origin ext ->
  let passes x := answer open c x ext = QOk None \/ (answer open c x ext = QErr QNotFound /\ opens open c x) in
  (snd (query_get open c origin refresh ext) = QErr QNotFound /\ forall x, In x l -> passes x) \/
  exists l1 r l2, l = l1 ++ r :: l2 /\ ~ passes r /\ (forall x, In x l1 -> passes x \/ ahead c origin r x) /\ (forall x, In x l2 -> passes x \/ ~ ahead c origin x r) /\
    snd (query_get open c origin refresh ext) = match answer open c r ext with QOk (Some x) => QOk x | QOk None => QErr QNotFound | QErr QNotImplemented => QErr QNotFound | QErr e => QErr e end.
Proof.
  intros R NE F passes. destruct (query_get_fresh c origin refresh ext l R NE F) as [c1 ->]. cbn [snd].
  assert (SP : forall x, stops_get open c ext x = false <-> passes x).
  { intros x. unfold passes, opens, stops_get. rewrite arch_answer. change (match dget (r_id x) (c_arch c) with Some a => QOk a | None => open (r_id x) end) with (arch open c x). destruct (arch open c x) as [a|e]; [|split; [discriminate|intros [H|[_ [a H]]]; discriminate]].
    destruct (ar_get a ext) as [[y|]|[]]; split; intros H; try discriminate; try (left; reflexivity); try reflexivity; try (right; split; [reflexivity|eexists; reflexivity]); destruct H as [H|[H _]]; discriminate. }
  assert (B := find_best (rank_of c origin) (stops_get open c ext) l). destruct (find (stops_get open c ext) (sort_rank (rank_of c origin) l)) as [r|].
  - right. destruct B as (l1 & l2 & -> & PR & B1 & B2). exists l1, r, l2. split; [reflexivity|]. split; [rewrite <- SP; congruence|]. split; [|split].
    + intros x J. destruct (stops_get open c ext x) eqn:E; [right; apply ahead_spec, (B1 x J E)|left; apply SP, E].
    + intros x J. destruct (stops_get open c ext x) eqn:E; [right|left; apply SP, E]. rewrite <- ahead_spec, (B2 x J E). discriminate.
    + rewrite arch_answer. unfold said_get, as_get. destruct (arch open c r) as [a|e]; [|destruct e; reflexivity]. destruct (ar_get a ext) as [[y|]|[]]; reflexivity.
  - left. split; [reflexivity|]. intros x J. apply SP, (B x J).
Qed.
(** If every candidate opens and either has the entity or says that it does not, the query finds the entity exactly when some candidate has it, and takes it from the one that comes first. *)
Theorem C92_finds_iff_some_resource_has c origin refresh ext l : resolve (c_rs c) origin None false = ROk l -> l <> [] -> refresh = true \/ uncached c origin ext ->
  (forall x, In x l -> opens open c x /\ ((exists v, answer open c x ext = QOk v) \/ answer open c x ext = QErr QNotFound)) ->
  let has x y := answer open c x ext = QOk (Some y) in
  match snd (query_get open c origin refresh ext) with
  | QOk y => exists l1 r l2, l = l1 ++ r :: l2 /\ has r y /\ (forall x z, In x l1 -> has x z -> ahead c origin r x) /\ (forall x z, In x l2 -> has x z -> ~ ahead c origin x r)
  | QErr e => e = QNotFound /\ forall x y, In x l -> ~ has x y
  end.
Proof.
  intros R NE F OK has. destruct (C92_who_decides c origin refresh ext l R NE F) as [[E NO]|(l1 & r & l2 & El & NP & A1 & A2 & E)]; rewrite E; clear E.
  - split; [reflexivity|]. intros x y J H. unfold has in H. destruct (NO x J) as [K|[K _]]; rewrite K in H; discriminate.
  - assert (J : In r l) by (rewrite El; apply in_elt). destruct (OK r J) as [O [[[y|] V]|V]].
    + rewrite V. exists l1, r, l2. split; [exact El|]. split; [exact V|]. split; intros x z K H; unfold has in H.
      * destruct (A1 x K) as [[P|[P _]]|P]; [rewrite P in H; discriminate|rewrite P in H; discriminate|exact P].
      * destruct (A2 x K) as [[P|[P _]]|P]; [rewrite P in H; discriminate|rewrite P in H; discriminate|exact P].
    + exfalso. apply NP. left. exact V.
    + exfalso. apply NP. right. auto.
Qed.

(** * C93 *)
(** every resource stands under its own reference, object identities are unique, and archives are opened with the reference of their resource *)
Definition registered (c : cat) : Prop := NoDup (all_ids (rs_mem (c_rs c))) /\ forall k l r, In (k, l) (rs_mem (c_rs c)) -> In r l -> r_ref r = k /\ forall a, (match dget (r_id r) (c_arch c) with Some a => QOk a | None => open (r_id r) end) = QOk a -> ar_ref a = k.

Lemma prefix_trans a b c : dotted_prefix a b -> dotted_prefix b c -> dotted_prefix a c.
Proof.
  intros [->|[u ->]] [->|[v ->]]; [left; reflexivity|right; exists v; reflexivity|right; exists u; reflexivity|]. right. exists (u ++ "." ++ v)%string. clear. induction a as [|ch a IH]; cbn; [reflexivity|f_equal; exact IH].
Qed.
Lemma resolve_sub m o o' : dotted_prefix o o' -> (forall k l r, In (k, l) m -> In r l -> r_ref r = k) ->
  fst (resolve_loop m o' None false) = filter (fun r => ref_matches o' (r_ref r) false) (fst (resolve_loop m o None false)).
Proof.
  intros D. induction m as [|[ref l] t IH]; intros K; [reflexivity|]. cbn [resolve_loop]. assert (IH' := IH (fun k l' r J => K k l' r (or_intror J))). destruct (resolve_loop t o' None false) as [out' f'], (resolve_loop t o None false) as [out f]. cbn [fst] in IH'.
  assert (KL : forall x, In x l -> r_ref x = ref) by (intros x J; apply (K ref l x (or_introl eq_refl) J)).
  assert (FT : filter (fun r => satisfies (r_data r) None) l = l) by (clear; induction l as [|x l IHl]; cbn; [reflexivity|]; f_equal; exact IHl). rewrite FT. destruct (ref_matches o' ref false) eqn:M'.
  - assert (M : ref_matches o ref false = true) by (apply ref_matches_spec; cbn; apply ref_matches_spec in M'; cbn in M'; exact (prefix_trans _ _ _ D M')). rewrite M. cbn [fst]. rewrite filter_app, IH'. f_equal. clear -KL M'.
    induction l as [|x l IHl]; cbn [filter]; [reflexivity|]. rewrite (KL x (or_introl eq_refl)), M', <- IHl; [reflexivity|]. intros y J. apply KL. right. exact J.
  - destruct (ref_matches o ref false); cbn [fst]; [|exact IH']. rewrite filter_app, IH'. assert (E : filter (fun r => ref_matches o' (r_ref r) false) l = []); [|rewrite E; reflexivity]. clear -KL M'.
    induction l as [|x l IHl]; cbn [filter]; [reflexivity|]. rewrite (KL x (or_introl eq_refl)), M'. apply IHl. intros y J. apply KL. right. exact J.
Qed.
Lemma unique_id {A} (f : A -> nat) l x y : NoDup (map f l) -> In x l -> In y l -> f x = f y -> x = y.
Proof.
  induction l as [|z l IH]; [intros _ []|]. cbn. intros N [->|I] [->|J] E; inversion N; subst; [reflexivity| | |auto]; exfalso.
  - apply H1. rewrite E. apply in_map, J.
  - apply H1. rewrite <- E. apply in_map, I.
Qed.

(** the ranks of the candidates of the narrower origin after the lookup *)
Lemma rank_before c c1 origin org r x : r_ref r = org ->
  (dget (r_id r) (c_arch c1) = dget (r_id r) (c_arch c) \/ dget (r_id r) (c_arch c) = None) -> dget (r_id x) (c_arch c1) = dget (r_id x) (c_arch c) ->
  (rank_le (rank_of c origin x) (rank_of c origin r) = false -> rank_le (rank_of c1 org x) (rank_of c1 org r) = false) /\
  (rank_le (rank_of c origin r) (rank_of c origin x) = true -> rank_le (rank_of c1 org r) (rank_of c1 org x) = true).
Proof.
  intros <- L E. unfold rank_of. rewrite E. rewrite (String.eqb_refl (r_ref r)). fold (handb c x) (handb c r) (handb c1 r).
  assert (H : handb c1 r = handb c r \/ handb c r = false) by (destruct L as [L|L]; [left|right]; unfold handb; rewrite L; reflexivity). clear L E.
  set (px := d_prio (r_data x)). set (pr := d_prio (r_data r)). destruct (String.eqb_spec (r_ref x) origin) as [Ex|Ex], (String.eqb_spec (r_ref r) origin) as [Er|Er], (String.eqb_spec (r_ref x) (r_ref r)) as [Exr|Exr]; try congruence;
    destruct H as [H|H]; rewrite H; destruct (handb c x), (handb c r), (handb c1 r); cbn; try discriminate; (split; [|]); try discriminate; try reflexivity;
    destruct (Z.eqb_spec px pr), (Z.eqb_spec pr px); try congruence; cbn; rewrite ?Z.leb_gt, ?Z.leb_le; intros; try discriminate; try reflexivity; try lia; auto.
Qed.
(** [fetch] returns the entity of the very resource that [lookup] found, unless the query of that resource's origin has already answered. *)
Theorem C93_fetch_agrees_with_lookup c origin ext c1 org : registered c -> lookup open c origin ext = (c1, QOk org) -> uncached c org ext ->
  exists l1 r l2 x, resolve (c_rs c) origin None false = ROk (l1 ++ r :: l2) /\ r_ref r = org /\ answer open c r ext = QOk (Some x) /\
    (forall y, In y l1 -> answer open c y ext = QOk None \/ ahead c origin r y) /\ (forall y, In y l2 -> answer open c y ext = QOk None \/ ~ ahead c origin y r) /\
    snd (fetch open c origin ext) = QOk x.
Proof.
  intros [ND REG] LK UN. unfold fetch. rewrite LK. unfold lookup, sorted_resources in LK. rewrite resolve_basic in LK.
  assert (RS := resolve_loop_spec (rs_mem (c_rs c)) origin None false). unfold resolve in *. destruct (resolve_loop (rs_mem (c_rs c)) origin None false) as [L fo] eqn:RL. destruct RS as (_ & IN & NDL & _).
  destruct fo; [|discriminate]. destruct (lookup_loop_spec open ext (sort_rank (rank_of c origin) L) c) as (c1' & LL & s & G & IS & ST). rewrite LL in LK. injection LK as -> LK. clear LL.
  assert (B := find_best (rank_of c origin) (stops_lookup open c ext) L). destruct (find (stops_lookup open c ext) (sort_rank (rank_of c origin) L)) as [r|]; [|discriminate].
  assert (BB := B). destruct BB as (l1 & l2 & El & PR & B1 & B2). assert (IR : In r L) by (rewrite El; apply in_elt).
  unfold said_lookup in LK. destruct (arch open c r) as [a|e] eqn:A; [|discriminate]. destruct (ar_get a ext) as [v|e] eqn:V; [|discriminate]. injection LK as LK.
  assert (V' : exists x, v = Some x) by (unfold stops_lookup in PR; rewrite A, V in PR; destruct v; [eauto|discriminate]). destruct V' as [x ->].
  destruct (proj1 (IN r) IR) as (k & lk & Jk & Jr & W & _). cbn in W. destruct (REG k lk r Jk Jr) as [RK RA]. assert (Ek : k = org) by (rewrite <- LK; symmetry; apply RA; exact A). rewrite Ek in Jk, W, RK. clear Ek RA k.
  assert (PASS : forall y, stops_lookup open c ext y = false -> answer open c y ext = QOk None).
  { intros y. unfold stops_lookup. rewrite arch_answer. destruct (arch open c y) as [a'|]; [|discriminate]. destruct (ar_get a' ext) as [[?|]|]; try discriminate. reflexivity. }
  exists l1, r, l2, x. split; [congruence|]. split; [congruence|]. split; [rewrite arch_answer, A; exact V|]. split; [|split].
  { intros y J. destruct (stops_lookup open c ext y) eqn:E; [right; apply ahead_spec, (B1 y J E)|left; apply PASS, E]. }
  { intros y J. destruct (stops_lookup open c ext y) eqn:E; [right|left; apply PASS, E]. rewrite <- ahead_spec, (B2 y J E). discriminate. }
  (* the query of the narrower origin *)
  set (L' := filter (fun y => ref_matches org (r_ref y) false) L).
  assert (MR : ref_matches org (r_ref r) false = true) by (apply ref_matches_spec; cbn; left; exact RK).
  assert (RO : resolve (c_rs c1) org None false = ROk L').
  { rewrite (gr_rs _ _ _ _ G). unfold resolve. assert (SUB := resolve_sub (rs_mem (c_rs c)) origin org W (fun k l' y Ja Jb => proj1 (REG k l' y Ja Jb))). rewrite RL in SUB. cbn [fst] in SUB. fold L' in SUB.
    assert (SP := resolve_loop_spec (rs_mem (c_rs c)) org None false). destruct (resolve_loop (rs_mem (c_rs c)) org None false) as [out f]. cbn [fst] in SUB. destruct SP as (FT & _).
    assert (T : f = true) by (apply FT; exists org; split; [apply in_map_iff; exists (org, lk); auto|left; reflexivity]). rewrite T, SUB. reflexivity. }
  assert (I' : In r L') by (apply filter_In; auto).
  destruct (query_get_fresh c1 org false ext L' RO) as [c2 ->]; [intros E; rewrite E in I'; exact I'|right; intros d; rewrite (gr_q _ _ _ _ G); apply UN|]. cbn [snd].
  assert (NL := NDL ND). rewrite El in NL. rewrite map_app in NL. cbn in NL.
  assert (SAME : forall y, In y (l1 ++ l2) -> stops_lookup open c ext y = true -> dget (r_id y) (c_arch c1) = dget (r_id y) (c_arch c)).
  { intros y J SY. destruct (gr_loaded _ _ _ _ G (r_id y)) as [E|(_ & _ & z & Jz & Ez)]; [exact E|]. exfalso.
    assert (Iz : In z L) by (apply (sort_in (rank_of c origin)), IS, Jz). assert (Iy : In y L) by (rewrite El; apply in_app_iff; apply in_app_iff in J as [J|J]; cbn; auto).
    assert (Ezy : z = y) by (apply (unique_id r_id L); auto). subst z. assert (E := ST y Jz SY). injection E as ->. apply NoDup_remove_2 in NL. apply NL. rewrite <- map_app. apply in_map, J. }
  assert (LR : dget (r_id r) (c_arch c1) = dget (r_id r) (c_arch c) \/ dget (r_id r) (c_arch c) = None).
  { destruct (gr_loaded _ _ _ _ G (r_id r)) as [E|(E & _)]; auto. }
  assert (SG : forall y, stops_get open c1 ext y = true -> stops_lookup open c ext y = true).
  { intros y. rewrite (stops_get_grown _ _ _ _ _ _ G). unfold stops_get, stops_lookup. destruct (arch open c y) as [a'|]; [|reflexivity]. destruct (ar_get a' ext) as [[?|]|[]]; auto. }
  rewrite (find_sort_best (rank_of c1 org) (stops_get open c1 ext) L' r).
  - rewrite (said_get_grown _ _ _ _ _ _ G). unfold said_get. rewrite A, V. reflexivity.
  - exists (filter (fun y => ref_matches org (r_ref y) false) l1), (filter (fun y => ref_matches org (r_ref y) false) l2). split; [unfold L'; rewrite El, filter_app; cbn [filter]; rewrite MR; reflexivity|].
    split; [rewrite (stops_get_grown _ _ _ _ _ _ G); unfold stops_get; rewrite A, V; reflexivity|]. split; intros y J SY; apply filter_In in J as [J _]; apply SG in SY.
    + apply (rank_before c c1 origin org r y RK LR); [apply SAME; [apply in_app_iff; auto|exact SY]|]. exact (B1 y J SY).
    + apply (rank_before c c1 origin org r y RK LR); [apply SAME; [apply in_app_iff; auto|exact SY]|]. exact (B2 y J SY).
Qed.

(** * C94 *)
(** what a history of queries changes: resources may have been loaded *)
Definition kept (c c1 : cat) : Prop := c_rs c1 = c_rs c /\ forall i, dget i (c_arch c1) = dget i (c_arch c) \/ (dget i (c_arch c) = None /\ exists a, open i = QOk a /\ dget i (c_arch c1) = Some a).
Lemma kept_refl c : kept c c. Proof. split; auto. Qed.
Lemma kept_trans a b c : kept a b -> kept b c -> kept a c.
Proof.
  intros [A1 A2] [B1 B2]. split; [congruence|]. intros i. destruct (B2 i) as [E|(N & u & U1 & U2)].
  - rewrite E. apply A2.
  - right. destruct (A2 i) as [F|(_ & v & _ & V)]; [|congruence]. split; [congruence|]. eauto.
Qed.
Lemma kept_grown c c1 s : grown open c c1 s -> kept c c1.
Proof. intros G. split; [exact (gr_rs _ _ _ _ G)|]. intros i. destruct (gr_loaded _ _ _ _ G i) as [E|(N & U & _)]; auto. Qed.
Lemma kept_q c d : kept c (with_q c d). Proof. split; cbn; auto. Qed.
Lemma kept_lookup c o e : kept c (fst (lookup open c o e)).
Proof.
  unfold lookup. destruct (sorted_resources c o false) as [rs|]; [|apply kept_refl]. destruct (lookup_loop_spec open e rs c) as (c1 & -> & s & G & _). exact (kept_grown _ _ _ G).
Qed.
Lemma kept_perform c o e : kept c (fst (perform_get open c o e)).
Proof.
  unfold perform_get. destruct (sorted_resources c o false) as [rs|]; [|apply kept_refl]. destruct (query_loop_spec open e rs c) as (c1 & s & -> & G). exact (kept_grown _ _ _ G).
Qed.
Lemma kept_get c o e : kept c (fst (get open c o e)).
Proof.
  unfold get. destruct (dget o (c_q c)) as [d|]; [|apply kept_refl]. destruct (dget e d); [apply kept_refl|]. assert (K := kept_perform c o e). destruct (perform_get open c o e) as [c1 [x|err]]; cbn in *; [|exact K]. exact (kept_trans _ _ _ K (kept_q _ _)).
Qed.
Lemma kept_query_get c o rf e : kept c (fst (query_get open c o rf e)).
Proof.
  unfold query_get, query. destruct (resolve (c_rs c) o None false) as [[|r l]|]; try apply kept_refl. set (c0 := if rf || negb (din o (c_q c)) then with_q c (dset o [] (c_q c)) else c).
  assert (K0 : kept c c0) by (unfold c0; destruct (rf || negb (din o (c_q c))); [apply kept_q|apply kept_refl]). exact (kept_trans _ _ _ K0 (kept_get c0 o e)).
Qed.
Lemma kept_fetch c o e : kept c (fst (fetch open c o e)).
Proof.
  unfold fetch. assert (K := kept_lookup c o e). destruct (lookup open c o e) as [c1 [org|err]]; cbn in *; [|exact K]. exact (kept_trans _ _ _ K (kept_query_get c1 org false e)).
Qed.
Definition only_queries (h : list qop) : Prop := forall s, ~ In (OResolver s) h.
Lemma kept_run h : forall c, only_queries h -> kept c (qrun open c h).
Proof.
  induction h as [|o h IH]; intros c NR; [apply kept_refl|]. cbn. eapply kept_trans; [|apply IH; intros s J; apply (NR s); right; exact J]. destruct o as [a b|a b r|a b|s]; cbn; [apply kept_lookup|apply kept_query_get|apply kept_fetch|]. exfalso. apply (NR s). left. reflexivity.
Qed.
Lemma kept_arch c c1 r : kept c c1 -> arch open c1 r = arch open c r.
Proof. intros [_ K]. unfold arch. destruct (K (r_id r)) as [->|(-> & a & O & ->)]; [reflexivity|rewrite O; reflexivity]. Qed.
Lemma sort_ext k k' l : (forall x, In x l -> k x = k' x) -> sort_rank k l = sort_rank k' l.
Proof.
  induction l as [|x l IH]; intros E; cbn; [reflexivity|]. change (fold_right (place k) [] l) with (sort_rank k l). change (fold_right (place k') [] l) with (sort_rank k' l). rewrite IH by (intros y J; apply E; right; exact J).
  assert (H : forall s, (forall y, In y s -> In y l) -> place k x s = place k' x s).
  { induction s as [|y s IHs]; intros I; cbn; [reflexivity|]. rewrite (E x (or_introl eq_refl)), (E y (or_intror (I y (or_introl eq_refl)))). destruct (rank_le (k' x) (k' y)); [reflexivity|]. f_equal. apply IHs. intros z J. apply I. right. exact J. }
  apply H. intros y J. apply sort_in in J. exact J.
Qed.
Lemma kept_sorted c c1 origin l : kept c c1 ->
  (forall r, In r l -> dget (r_id r) (c_arch c) <> None \/ forall a, open (r_id r) = QOk a -> ar_static a = false /\ lower (d_type (r_data r)) <> "json") ->
  sort_rank (rank_of c1 origin) l = sort_rank (rank_of c origin) l.
Proof.
  intros [_ K] ST. apply sort_ext. intros r J. unfold rank_of. destruct (K (r_id r)) as [->|(N & a & O & ->)]; [reflexivity|]. rewrite N. destruct (ST r J) as [C|C]; [contradiction|]. destruct (C a O) as [-> T]. apply String.eqb_neq in T. rewrite T. reflexivity.
Qed.
(** If every candidate of an origin that is not loaded yet would not be static when loaded, no history of queries, on this or any other origin, changes what a fresh query of it
    answers, nor what [lookup] answers. *)
Theorem C94_history_independent_partial c origin ext h l : resolve (c_rs c) origin None false = ROk l ->
  (forall r, In r l -> dget (r_id r) (c_arch c) <> None \/ forall a, open (r_id r) = QOk a -> ar_static a = false /\ lower (d_type (r_data r)) <> "json") -> only_queries h ->
  snd (query_get open (qrun open c h) origin true ext) = snd (query_get open c origin true ext) /\ snd (lookup open (qrun open c h) origin ext) = snd (lookup open c origin ext).
Proof.
  intros R ST NR. assert (K := kept_run h c NR). set (c1 := qrun open c h) in *. clearbody c1. assert (R1 : resolve (c_rs c1) origin None false = ROk l) by (rewrite (proj1 K); exact R).
  assert (SO := kept_sorted c c1 origin l K ST). split.
  - destruct l as [|r0 l0]; [unfold query_get, query; rewrite R, R1; reflexivity|]. destruct (query_get_fresh c origin true ext _ R) as [d ->]; [discriminate|auto|]. destruct (query_get_fresh c1 origin true ext _ R1) as [d' ->]; [discriminate|auto|]. cbn [snd]. rewrite SO.
    rewrite (find_ext2 (stops_get open c1 ext) (stops_get open c ext)) by (intros x; unfold stops_get; rewrite (kept_arch c c1 x K); reflexivity). destruct (find _ _) as [r|]; [|reflexivity]. unfold said_get. rewrite (kept_arch c c1 r K). reflexivity.
  - unfold lookup, sorted_resources. rewrite !resolve_basic, R, R1. rewrite SO. destruct (lookup_loop_spec open ext (sort_rank (rank_of c origin) l) c1) as (d1 & -> & _). destruct (lookup_loop_spec open ext (sort_rank (rank_of c origin) l) c) as (d2 & -> & _). cbn [snd].
    rewrite (find_ext2 (stops_lookup open c1 ext) (stops_lookup open c ext)) by (intros x; unfold stops_lookup; rewrite (kept_arch c c1 x K); reflexivity). destruct (find _ _) as [r|]; [|reflexivity]. unfold said_lookup. rewrite (kept_arch c c1 r K). reflexivity.
Qed.

Definition cached (c : cat) (origin ext : string) (x : nat) : Prop := exists d, dget origin (c_q c) = Some d /\ dget ext d = Some x.
Lemma cached_get c o e origin ext x : cached c origin ext x -> cached (fst (get open c o e)) origin ext x.
Proof.
  intros (d & D & X). unfold get. destruct (dget o (c_q c)) as [d0|] eqn:D0; [|exists d; auto]. destruct (dget e d0) eqn:E0; [exists d; auto|].
  assert (Q : c_q (fst (perform_get open c o e)) = c_q c).
  { unfold perform_get. destruct (sorted_resources c o false) as [rs|]; [|reflexivity]. destruct (query_loop_spec open e rs c) as (c1 & s & -> & G). exact (gr_q _ _ _ _ G). }
  destruct (perform_get open c o e) as [c1 [y|err]]; cbn in *; [|exists d; rewrite Q; auto]. rewrite Q. destruct (eqb_spec origin o) as [->|N].
  - rewrite D in D0. injection D0 as <-. exists (dset e y d). cbn. rewrite D, dget_dset, eqb_refl. split; [reflexivity|]. rewrite dget_dset. destruct (eqb_spec ext e) as [->|M]; [congruence|exact X].
  - exists d. cbn. rewrite dget_dset. destruct (eqb_spec origin o); [contradiction|]. auto.
Qed.
Lemma cached_query_get c o rf e origin ext x : (rf = true -> o <> origin) -> cached c origin ext x -> cached (fst (query_get open c o rf e)) origin ext x.
Proof.
  intros NR C. unfold query_get, query. destruct (resolve (c_rs c) o None false) as [[|r l]|]; try exact C. apply cached_get. destruct C as (d & D & X). destruct (rf || negb (din o (c_q c))) eqn:B; [|exists d; auto].
  assert (N : origin <> o). { intros <-. apply orb_true_iff in B as [B|B]; [exact (NR B eq_refl)|]. unfold din in B. rewrite D in B. discriminate. }
  exists d. cbn. rewrite dget_dset. destruct (eqb_spec origin o); [contradiction|]. auto.
Qed.
Lemma cached_lookup c o e origin ext x : cached c origin ext x -> cached (fst (lookup open c o e)) origin ext x.
Proof.
  intros C. unfold lookup. destruct (sorted_resources c o false) as [rs|]; [|exact C]. destruct (lookup_loop_spec open e rs c) as (c1 & -> & s & G & _). unfold cached. cbn [fst]. rewrite (gr_q _ _ _ _ G). exact C.
Qed.
Lemma cached_run h : forall c origin ext x, (forall e, ~ In (OGet origin e true) h) -> cached c origin ext x -> cached (qrun open c h) origin ext x.
Proof.
  induction h as [|o h IH]; intros c origin ext x NR C; [exact C|]. cbn. apply IH; [intros e J; apply (NR e); right; exact J|]. destruct o as [a b|a b r|a b|s]; cbn.
  - apply cached_lookup, C.
  - apply cached_query_get; [intros -> ->; apply (NR b); left; reflexivity|exact C].
  - unfold fetch. assert (K := cached_lookup c a b origin ext x C). destruct (lookup open c a b) as [c1 [org|err]]; cbn in *; [|exact K]. apply cached_query_get; [discriminate|exact K].
  - exact C.
Qed.
(** Once a query of an origin has returned an entity, it returns the same one for that reference whatever is queried, loaded, registered or deleted in between, as long as the query
    is not refreshed and the origin is still known to have a resource. *)
Theorem C94_answer_repeated c origin rf ext c1 x h : query_get open c origin rf ext = (c1, QOk x) -> (forall e, ~ In (OGet origin e true) h) ->
  (exists r l, resolve (c_rs (qrun open c1 h)) origin None false = ROk (r :: l)) ->
  query_get open (qrun open c1 h) origin false ext = (qrun open c1 h, QOk x).
Proof.
  intros Q NR (r & l & R). assert (C1 : cached c1 origin ext x).
  { unfold query_get in Q. destruct (query c origin false rf) as [c0 [u|]]; [|discriminate]. unfold get in Q. destruct (dget origin (c_q c0)) as [d|] eqn:D; [|discriminate]. destruct (dget ext d) as [y|] eqn:E; [injection Q as <- <-; exists d; auto|].
    destruct (perform_get open c0 origin ext) as [c2 [y|]]; [|discriminate]. injection Q as <- <-. eexists. cbn. rewrite dget_dset, eqb_refl. split; [reflexivity|]. rewrite dget_dset, eqb_refl. reflexivity. }
  destruct (cached_run h c1 origin ext x NR C1) as (d & D & X). unfold query_get, query. rewrite R. unfold din. rewrite D. cbn. unfold get. rewrite D, X. reflexivity.
Qed.
End Queries.

(** * Cases *)
Definition rsrc (i : nat) (ref ty : string) (prio : Z) : res := Res i ref (RD (Some "f") ty None None ["basic"] prio false false "").
Definition holds (ref : string) (st : bool) (l : list (string * nat)) : archive := Ar ref st (fun e => QOk (dget e l)).
(** "x.a" (priority 10, not static) has e1, "x.b" (priority 20, static) has e1 and e2, "y" has e1 *)
Definition r1 := rsrc 1 "x.a" "ilcd" 10. Definition r2 := rsrc 2 "x.b" "ecospold" 20. Definition r3 := rsrc 3 "y" "ilcd" 5.
Definition mem0 : dict string (list res) := [("x.a", [r1]); ("x.b", [r2]); ("y", [r3])].
Definition open0 (i : nat) : qret archive := match i with 1 => QOk (holds "x.a" false [("e1", 101)]) | 2 => QOk (holds "x.b" true [("e1", 201); ("e2", 202)]) | _ => QOk (holds "y" false [("e1", 301)]) end.
Definition c0 : cat := Ct (RS mem0 [] 9) [] [].
Example C92_example : resolve (c_rs c0) "x" None false = ROk [r1; r2] /\ uncached c0 "x" "e2" /\ (forall x, In x [r1; r2] -> opens open0 c0 x /\ exists v, answer open0 c0 x "e2" = QOk v) /\
  snd (query_get open0 c0 "x" false "e1") = QOk 101 /\ snd (query_get open0 c0 "x" false "e2") = QOk 202 /\ snd (query_get open0 c0 "x" false "e3") = QErr QNotFound /\ snd (query_get open0 c0 "z" false "e1") = QErr QUnknownOrigin.
Proof. split; [reflexivity|]. split; [intros d H; discriminate|]. split; [|vm_compute; auto]. intros x [<-|[<-|[]]]; (split; [eexists; reflexivity|eexists; reflexivity]). Qed.
Example C93_example : registered open0 c0 /\ snd (lookup open0 c0 "x" "e2") = QOk "x.b" /\ uncached c0 "x.b" "e2" /\ snd (fetch open0 c0 "x" "e2") = QOk 202.
Proof.
  split; [|split; [reflexivity|split; [intros d H; discriminate|reflexivity]]]. split; [vm_compute; repeat constructor; cbn; intuition discriminate|].
  intros k l r [E|[E|[E|[]]]]; injection E as <- <-; intros [<-|[]]; (split; [reflexivity|]); cbn; intros a E; injection E as <-; reflexivity.
Qed.
(** with "x.b" loaded, "x.a" not being static: the condition of C94_history_independent_partial *)
Definition c0b : cat := qrun open0 c0 [OGet "x.b" "e2" false].
Example C94_example : resolve (c_rs c0b) "x" None false = ROk [r1; r2] /\
  (forall r, In r [r1; r2] -> dget (r_id r) (c_arch c0b) <> None \/ forall a, open0 (r_id r) = QOk a -> ar_static a = false /\ lower (d_type (r_data r)) <> "json") /\
  snd (query_get open0 c0b "x" true "e1") = QOk 201 /\ snd (query_get open0 (qrun open0 c0b [OLookup "y" "e1"; OFetch "x" "e1"; OGet "x.a" "e1" true]) "x" true "e1") = QOk 201.
Proof.
  split; [reflexivity|]. split; [|split; vm_compute; reflexivity]. intros r [<-|[<-|[]]]; [right|left; vm_compute; discriminate]. cbn. intros a [= <-]. split; [reflexivity|vm_compute; discriminate].
Qed.

(** * Refutations *)
(** A candidate whose archive cannot fetch on demand raises NotImplementedError for a reference it does not hold (entity_store.py:504-511): the search ends there, although a later candidate
    has the entity. *)
Definition open1 (i : nat) : qret archive := match i with 1 => QOk (Ar "x.a" false (fun e => if String.eqb e "e1" then QOk (Some 101) else QErr QNotImplemented)) | _ => open0 i end.
Theorem C92_refuted_not_implemented : exists r x, In r [r1; r2] /\ resolve (c_rs c0) "x" None false = ROk [r1; r2] /\ answer open1 c0 r "e2" = QOk (Some x) /\ snd (query_get open1 c0 "x" false "e2") = QErr QNotFound /\
  snd (lookup open1 c0 "x" "e2") = QErr QNotImplemented.
Proof. exists r2, 202. split; [right; left; reflexivity|]. vm_compute. auto. Qed.
(** A candidate that cannot be opened makes the query fail, although a later candidate has the entity. *)
Definition open2 (i : nat) : qret archive := match i with 1 => QErr QOther | _ => open0 i end.
Theorem C92_refuted_not_opened : exists r x, In r [r1; r2] /\ resolve (c_rs c0) "x" None false = ROk [r1; r2] /\ answer open2 c0 r "e1" = QOk (Some x) /\ snd (query_get open2 c0 "x" false "e1") = QErr QOther.
Proof. exists r2, 201. split; [right; left; reflexivity|]. vm_compute. auto. Qed.
(** A reference known to the resolver without resources (left by [has_resource], or by a resource file with an empty list) makes [query] raise StopIteration. *)
Theorem C92_refuted_stop_iteration ext : query_get open0 (Ct (RS [("x", [])] [] 9) [] []) "x" false ext = (Ct (RS [("x", [])] [] 9) [] [], QErr QStopIteration).
Proof. reflexivity. Qed.
(** Having asked for an entity of "x.b" once changes the answer of "x": its archive is now loaded and static, and comes before the one with the better priority. *)
Theorem C94_refuted_loading : snd (query_get open0 c0 "x" true "e1") = QOk 101 /\ snd (query_get open0 (qrun open0 c0 [OGet "x.b" "e2" false]) "x" true "e1") = QOk 201.
Proof. vm_compute. auto. Qed.
(** A resource registered later, with a better priority, is what [lookup] finds, but [fetch] goes on answering from the one asked before, as long as the query is not refreshed. *)
Definition mem1 : dict string (list res) := [("y", [r3; rsrc 4 "y" "ilcd" 1])].
Definition open3 (i : nat) : qret archive := match i with 4 => QOk (holds "y" false [("e1", 401)]) | _ => open0 i end.
Theorem C93_refuted_cached : let c := qrun open3 c0 [OGet "y" "e1" false; OResolver (RS mem1 [] 9)] in
  registered open3 c /\ snd (lookup open3 c "y" "e1") = QOk "y" /\ snd (fetch open3 c "y" "e1") = QOk 301 /\ snd (query_get open3 c "y" true "e1") = QOk 401.
Proof.
  split; [|vm_compute; auto]. split; [vm_compute; repeat constructor; cbn; intuition discriminate|].
  intros k l r [E|[]]; injection E as <- <-; intros [<-|[<-|[]]]; (split; [reflexivity|]); vm_compute; intros a E; injection E as <-; reflexivity.
Qed.
Print Assumptions C92_who_decides.
Print Assumptions C92_finds_iff_some_resource_has.
Print Assumptions C93_fetch_agrees_with_lookup.
Print Assumptions C94_history_independent_partial.
Print Assumptions C94_answer_repeated.

(** C115: searching an archive yields exactly the entities that match. *)
From Coq Require Import String Permutation Sorting.Sorted.
From Verif Require Import Base PyStr SearchModel.
Open Scope string_scope.
Open Scope list_scope.

(** ** Specification *)
(** The text of a property: nothing for None, the words of a list separated by blanks *)
Inductive reads : tag -> string -> Prop :=
| r_none : reads TagNone ""
| r_str s : reads (TagStr s) s
| r_list l ss : Forall2 reads l ss -> reads (TagList l) (String.concat " " ss).
Section P.
Variable rx : string -> string -> option bool.
Variable rx0 : string -> string -> option bool.
(** Every property asked for exists and contains a match of every pattern given for it *)
Definition matches (e : sent) (kw : kwargs) : Prop :=
  forall k ps, In (k, ps) kw -> exists t, dget k (se_props e) = Some t /\ forall p, In p ps -> exists s, reads t s /\ rx p s = Some true.
(** The patterns are valid, and the properties asked for are made of texts *)
Definition searchable (es : list sent) (kw : kwargs) : Prop :=
  (forall k ps p s, In (k, ps) kw -> In p ps -> rx p s <> None)
  /\ (forall e k ps t, In e es -> In (k, ps) kw -> dget k (se_props e) = Some t -> exists s, reads t s).

Lemma joinsp_concat l : joinsp l = String.concat " " l.
Proof. induction l as [|a [|b l] IH]; [reflexivity|reflexivity|]. cbn [joinsp String.concat] in *. rewrite IH. reflexivity. Qed.
Fixpoint expand_all (l : list tag) (acc : list string) : sout string :=
  match l with [] => SOk string (joinsp (rev acc)) | x :: r => match expand x with SOk _ s => expand_all r (s :: acc) | SErr _ e => SErr string e end end.
Lemma expand_TagList l : expand (TagList l) = expand_all l [].
Proof. cbn [expand]. generalize (@nil string). induction l as [|a l IH]; intros acc; [reflexivity|]. cbn [expand_all]. destruct (expand a); [apply IH|reflexivity]. Qed.
(** induction over nested lists *)
Lemma tag_ind' (P : tag -> Prop) : P TagNone -> (forall s, P (TagStr s)) -> (forall l, Forall P l -> P (TagList l)) -> P TagNum -> forall t, P t.
Proof.
  intros A B C N. fix IH 1. intros [|s|l|]; [exact A|apply B| |exact N]. apply C. induction l as [|x l IHl]; constructor; [apply IH|exact IHl].
Qed.
Lemma expand_reads t s : expand t = SOk string s <-> reads t s.
Proof.
  revert s. induction t as [|s0|l IH|] using tag_ind'; intros s.
  - split; [intros H; injection H as <-; constructor|intros H; inversion H; reflexivity].
  - split; [intros H; injection H as <-; constructor|intros H; inversion H; reflexivity].
  - rewrite expand_TagList.
    assert (G : forall acc s, expand_all l acc = SOk string s <-> exists ss, Forall2 reads l ss /\ s = String.concat " " (rev acc ++ ss)).
    { clear s. induction IH as [|t l Ht _ IHl]; intros acc s; cbn [expand_all].
      - rewrite joinsp_concat. split; [intros H; injection H as <-; exists []; rewrite app_nil_r; auto|]. intros (ss & F & ->). inversion F. rewrite app_nil_r. reflexivity.
      - destruct (expand t) as [x|e] eqn:E.
        + rewrite IHl. cbn [rev]. split.
          * intros (ss & F & ->). exists (x :: ss). split; [constructor; [apply Ht; reflexivity|exact F]|]. rewrite <- app_assoc. reflexivity.
          * intros (ss & F & ->). inversion F as [|? y ? ss' R F']; subst. apply Ht in R. injection R as <-. exists ss'. split; [exact F'|]. rewrite <- app_assoc. reflexivity.
        + split; [discriminate|]. intros (ss & F & _). inversion F as [|? y ? ss' R F']; subst. apply Ht in R. discriminate. }
    rewrite G. cbn [rev app]. split; [intros (ss & F & ->); constructor; exact F|]. intros H. inversion H; subst. eauto.
  - split; [discriminate|]. intros H; inversion H.
Qed.
Lemma pats_false t ps : pats_loop rx false t ps = SOk bool false.
Proof. induction ps; cbn; auto. Qed.
Lemma pats_true t ps b : pats_loop rx true t ps = SOk bool b -> b = true <-> forall p, In p ps -> exists s, reads t s /\ rx p s = Some true.
Proof.
  induction ps as [|p ps IH]; cbn; intros H; [injection H as <-; split; [intros _ p []|reflexivity]|].
  destruct (expand t) as [s|] eqn:E; [|discriminate]. destruct (rx p s) as [c|] eqn:R; [|discriminate]. destruct c.
  - rewrite IH by exact H. split; [intros A q [<-|I]; [exists s; split; [apply expand_reads; exact E|exact R]|auto]|auto].
  - rewrite pats_false in H. injection H as <-. split; [discriminate|]. intros A. destruct (A p (or_introl eq_refl)) as (s' & R' & X). apply expand_reads in R'. congruence.
Qed.
Lemma narrow_false e kw b : narrow rx false e kw = SOk bool b -> b = false.
Proof.
  revert b. induction kw as [|[k ps] kw IH]; cbn; intros b H; [congruence|]. destruct (dget k (se_props e)); [|congruence]. rewrite pats_false in H. apply IH. exact H.
Qed.
Lemma narrow_spec e kw b : narrow rx true e kw = SOk bool b -> b = true <-> matches e kw.
Proof.
  revert b. induction kw as [|[k ps] kw IH]; cbn; intros b H; [injection H as <-; split; [intros _ k ps []|reflexivity]|].
  destruct (dget k (se_props e)) as [t|] eqn:D.
  - destruct (pats_loop rx true t ps) as [c|] eqn:E; [|discriminate]. pose proof (pats_true _ _ _ E) as PT. destruct c.
    + rewrite (IH b H). split.
      * intros M k' ps' [I|I]; [injection I as <- <-; exists t; split; [exact D|apply PT; reflexivity]|apply M; exact I].
      * intros M k' ps' I. apply M. right. exact I.
    + apply narrow_false in H. subst b. split; [discriminate|]. intros M. destruct (M k ps (or_introl eq_refl)) as (t' & D' & P). apply PT. rewrite D in D'. injection D' as <-. exact P.
  - injection H as <-. split; [discriminate|]. intros M. destruct (M k ps (or_introl eq_refl)) as (t' & D' & _). congruence.
Qed.
Lemma pats_ok t ps s : reads t s -> (forall p s, In p ps -> rx p s <> None) -> forall keep, exists b, pats_loop rx keep t ps = SOk bool b.
Proof.
  intros R V. apply expand_reads in R. induction ps as [|p ps IH]; intros keep; cbn; [eauto|]. destruct keep; [|apply IH; intros; apply V; right; auto].
  rewrite R. destruct (rx p s) as [b|] eqn:X; [apply IH; intros; apply V; right; auto|]. exfalso. eapply V; [left; reflexivity|exact X].
Qed.
Lemma narrow_ok es e kw : searchable es kw -> In e es -> forall keep, exists b, narrow rx keep e kw = SOk bool b.
Proof.
  intros [V N] I. induction kw as [|[k ps] kw IH]; intros keep; cbn; [eauto|]. destruct (dget k (se_props e)) as [t|] eqn:D; [|eauto].
  destruct (N e k ps t I (or_introl eq_refl) D) as (s & R). destruct (pats_ok t ps s R) with (keep := keep) as (b & E); [intros p s' IP; eapply V; [left; reflexivity|exact IP]|].
  rewrite E. apply IH; [intros; eapply V; [right|]; eauto|intros; eapply N; [|right|]; eauto].
Qed.
Lemma yield_sound kw es : forall e, In e (fst (yield_matching rx kw es)) -> In e es /\ matches e kw.
Proof.
  induction es as [|a es IH]; cbn; intros e H; [destruct H|]. destruct (narrow rx true a kw) as [b|x] eqn:N; [|destruct H].
  destruct (yield_matching rx kw es) as [l y]. cbn [fst] in *. destruct b; [destruct H as [<-|H]; [split; [left; reflexivity|apply (narrow_spec _ _ _ N); reflexivity]|]|]; destruct (IH e H); auto.
Qed.
Definition keep_of (kw : kwargs) (e : sent) : bool := match narrow rx true e kw with SOk _ b => b | SErr _ _ => false end.
Lemma yield_filter kw es : searchable es kw -> yield_matching rx kw es = (filter (keep_of kw) es, None).
Proof.
  intros S. assert (G : forall es', (forall e, In e es' -> In e es) -> yield_matching rx kw es' = (filter (keep_of kw) es', None)).
  { induction es' as [|a es' IH]; intros I; cbn; [reflexivity|]. unfold keep_of at 1. destruct (narrow_ok es a kw S (I a (or_introl eq_refl)) true) as (b & ->). rewrite IH by (intros; apply I; right; auto). destruct b; reflexivity. }
  apply G. auto.
Qed.
Lemma keep_spec kw es e : searchable es kw -> In e es -> keep_of kw e = true <-> matches e kw.
Proof. intros S I. unfold keep_of. destruct (narrow_ok es e kw S I true) as (b & E). rewrite E. apply narrow_spec. exact E. Qed.

(** ** Order by uuid *)
Definition id_lt (a b : sent) : Prop := String.leb (se_id a) (se_id b) = true /\ se_id a <> se_id b.
Lemma id_insert_perm e l : Permutation (id_insert e l) (e :: l).
Proof. induction l as [|b l IH]; cbn; [reflexivity|]. destruct (String.leb (se_id e) (se_id b)); [reflexivity|]. rewrite IH. apply perm_swap. Qed.
Lemma id_sort_perm l : Permutation (fold_right id_insert [] l) l.
Proof. induction l as [|a l IH]; cbn; [reflexivity|]. rewrite id_insert_perm, IH. reflexivity. Qed.
Lemma str_leb_trans a b c : String.leb a b = true -> String.leb b c = true -> String.leb a c = true.
Proof.
  unfold String.leb. revert b c. induction a as [|x a IH]; intros [|y b] [|z c]; cbn; try congruence.
  destruct (Ascii.compare x y) eqn:XY; try congruence.
  - apply Ascii.compare_eq_iff in XY as ->. destruct (Ascii.compare y z); try congruence. apply IH.
  - intros _. destruct (Ascii.compare y z) eqn:YZ; try congruence; [apply Ascii.compare_eq_iff in YZ as <-; rewrite XY; reflexivity|].
    intros _. assert (E : Ascii.compare x z = Lt); [|rewrite E; reflexivity]. unfold Ascii.compare in *. apply BinNat.N.compare_lt_iff. apply BinNat.N.compare_lt_iff in XY, YZ. eapply BinNat.N.lt_trans; eauto.
Qed.
Lemma id_insert_sorted e l : ~ In (se_id e) (map se_id l) -> StronglySorted id_lt l -> StronglySorted id_lt (id_insert e l).
Proof.
  induction l as [|b l IH]; intros NI S; cbn; [repeat constructor|]. inversion_clear S as [|? ? S' F]. cbn in NI.
  destruct (String.leb (se_id e) (se_id b)) eqn:L.
  - constructor; [constructor; auto|]. constructor; [split; [exact L|intros X; apply NI; left; auto]|]. apply Forall_forall. intros c IC. rewrite Forall_forall in F. destruct (F c IC) as [LC _].
    split; [eapply str_leb_trans; eauto|]. intros X. apply NI. right. rewrite X. apply in_map. exact IC.
  - constructor; [apply IH; auto|]. apply (Permutation_Forall (Permutation_sym (id_insert_perm e l))). constructor; [|exact F].
    split; [destruct (String.leb_total (se_id e) (se_id b)) as [X|X]; congruence|]. intros X. apply NI. left. exact X.
Qed.
Lemma id_sort_sorted l : NoDup (map se_id l) -> StronglySorted id_lt (fold_right id_insert [] l).
Proof.
  induction l as [|a l IH]; cbn; intros ND; [constructor|]. inversion_clear ND as [|? ? NI ND']. apply id_insert_sorted; [|auto].
  intros X. apply NI. eapply Permutation_in; [apply Permutation_map, id_sort_perm|exact X].
Qed.
Lemma by_type_In a t e : In e (by_type a t) <-> In e (a_ents a) /\ se_type e = t.
Proof.
  unfold by_type. split; intros H.
  - apply (Permutation_in _ (id_sort_perm _)), filter_In in H as [I E]. apply String.eqb_eq in E. auto.
  - apply (Permutation_in _ (Permutation_sym (id_sort_perm _))), filter_In. destruct H as [I E]. split; [exact I|apply String.eqb_eq; exact E].
Qed.
Lemma NoDup_map_filter {B} (f : sent -> B) (p : sent -> bool) l : NoDup (map f l) -> NoDup (map f (filter p l)).
Proof.
  induction l as [|x l IH]; intros N; cbn; [constructor|]. inversion_clear N as [|? ? NI N']. destruct (p x); [cbn; constructor; [|auto]|auto].
  intros X. apply NI. apply in_map_iff in X as (y & E & I). apply filter_In in I as [I _]. rewrite <- E. apply in_map. exact I.
Qed.
Lemma sorted_filter (p : sent -> bool) l : StronglySorted id_lt l -> StronglySorted id_lt (filter p l).
Proof.
  induction 1 as [|x l S IH F]; cbn; [constructor|]. destruct (p x); [constructor; [exact IH|]|exact IH]. apply Forall_forall. intros y I. apply filter_In in I as [I _]. rewrite Forall_forall in F. auto.
Qed.
Lemma searchable_mono es es' kw : (forall e, In e es' -> In e es) -> searchable es kw -> searchable es' kw.
Proof. intros I [V N]. split; [exact V|]. intros e k ps t IE. apply N. auto. Qed.

(** ** The property *)
(** A search by type yields each entity of the type that matches, once, in order of uuid; the type may be given as the first argument or
    as entity_type; without a type, all entities that match, in order of insertion. *)
Theorem C115_search a t up kw : NoDup (map se_id (a_ents a)) -> searchable (a_ents a) kw ->
  exists l, search rx a (Some t) up None kw = (l, None) /\ search rx a None up (Some t) kw = (l, None)
    /\ StronglySorted id_lt l /\ forall e, In e l <-> In e (a_ents a) /\ se_type e = t /\ matches e kw.
Proof.
  intros ND S. assert (S' : searchable (by_type a t) kw) by (eapply searchable_mono; [|exact S]; intros e I; apply by_type_In in I; tauto).
  exists (filter (keep_of kw) (by_type a t)). cbn [search]. rewrite (yield_filter _ _ S'). split; [reflexivity|]. split; [reflexivity|]. split.
  - apply sorted_filter. apply id_sort_sorted. apply NoDup_map_filter. exact ND.
  - intros e. rewrite filter_In, by_type_In. split.
    + intros [[I T] K]. split; [exact I|]. split; [exact T|]. apply (keep_spec kw (a_ents a)); auto.
    + intros (I & T & M). split; [auto|]. apply (keep_spec kw (a_ents a)); auto.
Qed.
Theorem C115_search_all a up kw : searchable (a_ents a) kw ->
  exists keep, search rx a None up None kw = (filter keep (a_ents a), None) /\ forall e, In e (a_ents a) -> keep e = true <-> matches e kw.
Proof. intros S. exists (keep_of kw). cbn [search]. rewrite (yield_filter _ _ S). split; [reflexivity|]. intros e I. apply keep_spec with (es := a_ents a); auto. Qed.
(** Whatever the patterns and properties, nothing is yielded that does not match, also before an exception *)
Theorem C115_sound a et up ett kw e : In e (fst (search rx a et up ett kw)) ->
  In e (a_ents a) /\ matches e kw /\ (forall t, et = Some t \/ (et = None /\ ett = Some t) -> se_type e = t).
Proof.
  assert (B : forall t e, In e (by_type a t) -> In e (a_ents a) /\ se_type e = t) by (intros t x; apply by_type_In).
  unfold search. destruct et as [t|], ett as [t'|]; intros H; apply yield_sound in H as [I M].
  - apply B in I as [I T]. split; [exact I|]. split; [intros k ps IK; apply M; apply in_or_app; auto|]. intros u [X|[X _]]; congruence.
  - apply B in I as [I T]. split; [exact I|]. split; [exact M|]. intros u [X|[X _]]; congruence.
  - apply B in I as [I T]. split; [exact I|]. split; [exact M|]. intros u [X|[_ X]]; congruence.
  - split; [exact I|]. split; [exact M|]. intros u [X|[_ X]]; congruence.
Qed.
(** The order of the keyword arguments does not matter, and further ones narrow the result *)
Lemma matches_perm e kw kw' : Permutation kw kw' -> matches e kw <-> matches e kw'.
Proof. intros P. split; intros M k ps I; apply M; (eapply Permutation_in; [|exact I]); auto using Permutation_sym. Qed.
Lemma filter_ext_in2 (p q : sent -> bool) l : (forall e, In e l -> p e = q e) -> filter p l = filter q l.
Proof. induction l as [|x l IH]; intros H; cbn; [reflexivity|]. rewrite (H x (or_introl eq_refl)), IH by (intros; apply H; right; auto). reflexivity. Qed.
Theorem C115_order a et up ett kw kw' : Permutation kw kw' -> searchable (a_ents a) kw -> et = None \/ ett = None ->
  search rx a et up ett kw = search rx a et up ett kw'.
Proof.
  intros P S N. assert (S' : searchable (a_ents a) kw').
  { destruct S as [V R]. split; [intros k ps p s I; eapply V, Permutation_in; [apply Permutation_sym; exact P|exact I]|]. intros e k ps t IE I. eapply R; [exact IE|]. eapply Permutation_in; [apply Permutation_sym; exact P|exact I]. }
  assert (G : forall es, (forall e, In e es -> In e (a_ents a)) -> yield_matching rx kw es = yield_matching rx kw' es).
  { intros es I. rewrite !yield_filter by (eapply searchable_mono; eauto). f_equal. apply filter_ext_in2. intros e IE.
    pose proof (keep_spec kw _ e S (I e IE)) as A. pose proof (keep_spec kw' _ e S' (I e IE)) as B. rewrite (matches_perm e kw kw' P) in A. destruct (keep_of kw e), (keep_of kw' e); auto; [symmetry; apply B, A; reflexivity|apply A, B; reflexivity]. }
  assert (B : forall t e, In e (by_type a t) -> In e (a_ents a)) by (intros t x H; apply by_type_In in H; tauto).
  unfold search. destruct et as [t|], ett as [t'|]; [destruct N; discriminate| | |]; apply G; eauto.
Qed.
Theorem C115_narrows a t up kw more e : NoDup (map se_id (a_ents a)) -> searchable (a_ents a) (kw ++ more) ->
  In e (fst (search rx a (Some t) up None (kw ++ more))) -> In e (fst (search rx a (Some t) up None kw)).
Proof.
  intros ND S H. assert (S' : searchable (a_ents a) kw).
  { destruct S as [V R]. split; [intros k ps p s I; eapply V; apply in_or_app; left; exact I|]. intros x k ps u IE I. eapply R; [exact IE|]. apply in_or_app; left; exact I. }
  destruct (C115_search a t up _ ND S) as (l & E & _ & _ & L). destruct (C115_search a t up _ ND S') as (l' & E' & _ & _ & L'). rewrite E in H. rewrite E'. cbn [fst] in *.
  apply L'. apply L in H as (I & T & M). split; [exact I|]. split; [exact T|]. intros k ps IK. apply M. apply in_or_app. auto.
Qed.
(** The listings of the index: all entities of a type, as many as it counts; the LCIA methods are the matching quantities that are methods *)
Theorem C115_index a t : NoDup (map se_id (a_ents a)) ->
  exists l, index_search rx a t [] = (l, None) /\ length l = count a t /\ forall e, In e l <-> In e (a_ents a) /\ se_type e = t.
Proof.
  intros ND. destruct (C115_search a t false [] ND) as (l & E & _ & S & L). { split; intros; contradiction. }
  exists l. split; [exact E|]. assert (LI : forall e, In e l <-> In e (a_ents a) /\ se_type e = t) by (intros e; rewrite L; split; [tauto|intros [A B]; repeat split; auto; intros k ps []]).
  split; [|exact LI]. unfold count. apply Permutation_length. apply NoDup_Permutation.
  - clear - S. induction S as [|x l S IH F]; constructor; [|exact IH]. intros I. rewrite Forall_forall in F. destruct (F x I) as [_ X]. congruence.
  - apply (Permutation_NoDup (l := filter (fun e => String.eqb (se_type e) t) (a_ents a))); [symmetry; apply id_sort_perm|]. apply NoDup_filter. eapply NoDup_map_inv. exact ND.
  - intros e. rewrite LI. symmetry. apply by_type_In.
Qed.
Theorem C115_lcia_methods a kw : NoDup (map se_id (a_ents a)) -> searchable (a_ents a) kw ->
  exists l, lcia_methods rx a kw = (l, None) /\ StronglySorted id_lt l /\ forall e, In e l <-> In e (a_ents a) /\ se_type e = "quantity" /\ se_lcia e = true /\ matches e kw.
Proof.
  intros ND S. destruct (C115_search a "quantity" false kw ND S) as (l & E & _ & SS & L). exists (filter se_lcia l). unfold lcia_methods. rewrite E. split; [reflexivity|]. split; [apply sorted_filter; exact SS|].
  intros e. rewrite filter_In, L. tauto.
Qed.

(** ** Partial identifiers *)
Fixpoint in_chain (a : sarch) (e : sent) : Prop := match a with SArch l u => In e l \/ match u with Some b => in_chain b e | None => False end end.
Lemma starts_spec p s : starts p s = true <-> exists r, s = (p ++ r)%string.
Proof.
  revert s. induction p as [|a p IH]; intros s; cbn; [split; [exists s; reflexivity|reflexivity]|]. destruct s as [|b s]; [split; [discriminate|intros (r & X); discriminate]|].
  rewrite andb_true_iff, IH, Ascii.eqb_eq. split; [intros [-> (r & ->)]; exists r; reflexivity|intros (r & X); injection X as -> ->; split; eauto].
Qed.
Theorem C115_partial_id a uid e :
  (In e (partial_id rx0 a uid true true) <-> in_chain a e /\ exists r, se_id e = (uid ++ r)%string)
  /\ (In e (partial_id rx0 a uid false true) <-> In e (a_ents a) /\ exists r, se_id e = (uid ++ r)%string).
Proof.
  split.
  - revert a. fix IH 1. intros [l u]. cbn [partial_id in_chain]. rewrite in_app_iff, filter_In, starts_spec. destruct u as [b|]; [rewrite (IH b)|cbn]; tauto.
  - destruct a as [l u]. cbn. rewrite app_nil_r, filter_In, starts_spec. tauto.
Qed.
(** Refuted: "upstream=True searches the upstream archive too".  The result never depends on it. *)
Theorem C115_refuted_upstream l u et up ett kw : search rx (SArch l u) et up ett kw = search rx (SArch l None) et false ett kw.
Proof. reflexivity. Qed.
End P.
Print Assumptions C115_search. Print Assumptions C115_search_all. Print Assumptions C115_sound. Print Assumptions C115_order. Print Assumptions C115_narrows.
Print Assumptions C115_index. Print Assumptions C115_lcia_methods. Print Assumptions C115_partial_id.

(** ** A concrete archive; patterns are texts to be found anywhere, in any case *)
Fixpoint sub (p s : string) : bool := starts p s || match s with EmptyString => false | String _ r => sub p r end.
Definition rx_text (p s : string) : option bool := Some (sub (lower p) (lower s)).
Definition e1 := SEnt "b1" "flow" [("Name", TagStr "Carbon dioxide"); ("Compartment", TagList [TagStr "emission"; TagStr "air"])] false.
Definition e2 := SEnt "a1" "flow" [("Name", TagStr "Carbon monoxide"); ("Compartment", TagNone); ("Rank", TagNum)] false.
Definition e3 := SEnt "c1" "quantity" [("Name", TagStr "Carbon content")] true.
Definition e4 := SEnt "d1" "flow" [("Name", TagStr "carbon, upstream")] false.
Definition ex_arch := SArch [e1; e2; e3] (Some (SArch [e4] None)).
Lemma C115_witness :
  NoDup (map se_id (a_ents ex_arch)) /\ searchable rx_text (a_ents ex_arch) [("Name", ["carbon"; "oxide"]); ("Compartment", ["emission air"])]
  /\ search rx_text ex_arch (Some "flow") false None [("Name", ["carbon"; "OXIDE"])] = ([e2; e1], None)
  /\ search rx_text ex_arch (Some "flow") false None [("Name", ["carbon"]); ("Compartment", ["emission air"])] = ([e1], None)
  /\ search rx_text ex_arch None false None [("Name", ["carbon"])] = ([e1; e2; e3], None).
Proof.
  split; [repeat constructor; cbn; intuition congruence|]. split.
  - split; [intros; discriminate|]. intros e k ps t I K D. cbn in I, K. destruct K as [K|[K|[]]]; injection K as <- <-;
      (destruct I as [<-|[<-|[<-|[]]]]; vm_compute in D; try discriminate; injection D as <-; eexists; repeat constructor).
  - repeat split; vm_compute; reflexivity.
Qed.
(** The upstream entity is found by its identifier, not by searching *)
Lemma C115_refuted_upstream_witness : search rx_text ex_arch (Some "flow") true None [("Name", ["upstream"])] = ([], None)
  /\ partial_id rx_text ex_arch "d" true true = [e4].
Proof. split; vm_compute; reflexivity. Qed.
(** Refuted: property names are read in any case, but searched in the stored spelling only; a type given twice is taken as a property; a
    property that is a number ends the search with TypeError *)
Lemma C115_refuted_case : search rx_text ex_arch (Some "flow") false None [("name", ["carbon"])] = ([], None). Proof. vm_compute. reflexivity. Qed.
Lemma C115_refuted_type_twice : search rx_text ex_arch (Some "flow") false (Some "flow") [("Name", ["carbon"])] = ([], None). Proof. vm_compute. reflexivity. Qed.
Lemma C115_refuted_number : search rx_text ex_arch (Some "flow") false None [("Rank", ["1"])] = ([], Some STypeError). Proof. vm_compute. reflexivity. Qed.

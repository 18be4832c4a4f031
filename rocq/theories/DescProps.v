(** C125: descendants of archives: new references, what is written, what can be read back. *)
From Coq Require Import String Lia Permutation.
From Verif Require Import Base PyStr StoreModel StoreProofs StoreProps StoreProps2 DescModel DescProofs.
Open Scope string_scope.
Open Scope nat_scope.
Open Scope list_scope.
Local Arguments eqb : simpl never.
Local Arguments mem : simpl never.

Definition sign (sig : option string) (tail : string) : string := match sig with Some s => dotted s tail | None => tail end.
Definition sig_fine (sig : option string) : Prop := match sig with Some s => sig_ok s = true | None => True end.

(** ** References *)
(** The signifier and the date are appended to a reference that does not end in a date ... *)
Theorem C125_new_reference d t ref sig : clock d t -> sig_fine sig -> ~ ends_in_stamp ref -> descend d t ref sig = Some (dotted ref (sign sig d)).
Proof.
  intros C S N. pose proof (strip_keeps _ N) as K. destruct sig as [s|]; cbn [descend sign sig_fine] in *; rewrite K; [rewrite S; reflexivity|]. f_equal. f_equal.
  destruct (eqb_spec (snd (parts ref)) d) as [E|]; [|reflexivity]. exfalso. apply N. apply tail_stamp. rewrite E. destruct (clock_tail _ _ C) as (A & _). rewrite trail_all by exact A. destruct C as (-> & _). reflexivity.
Qed.
(** ... and replace the date, with the time or not, of an earlier descendant; on the same day, without signifier, the time is added to the date. *)
Theorem C125_dated_reference d t d0 t0 x b sig : clock d t -> clock d0 t0 -> sig_fine sig -> x = d0 \/ x = (d0 ++ "-" ++ t0)%string ->
  descend d t (dotted b x) sig = Some (dotted b (sign sig (if eqb sig None && eqb x d then (d ++ "-" ++ t)%string else d))).
Proof.
  intros C C0 S H. destruct (stamped_ok _ _ _ C0 H) as (A & L & N). destruct sig as [s|]; cbn [descend sign sig_fine] in *; rewrite strip_dotted by (assumption || lia).
  - rewrite S. destruct (eqb_spec (Some s) (@None string)); [discriminate|]. reflexivity.
  - rewrite parts_dotted by exact N. cbn [snd]. rewrite eqb_refl. reflexivity.
Qed.
(** A signifier is refused only for its first character. *)
Theorem C125_signifier d t ref s : descend d t ref (Some s) = None <-> forall c r, s = String c r -> ~ (word_char c = true \/ nat_of_ascii c = 45).
Proof.
  unfold descend, sig_ok. destruct s as [|c r]; [split; [discriminate|reflexivity]|]. destruct (word_char c) eqn:W; cbn [orb].
  - split; [discriminate|]. intros H. destruct (H c r eq_refl). auto.
  - destruct (Nat.eqb_spec (nat_of_ascii c) 45); split; try discriminate; try reflexivity.
    + intros H. destruct (H c r eq_refl). auto.
    + intros _ c' r' [= <- <-] [X|X]; congruence.
Qed.
(** The new reference is never the old one, and construct_new_ref raises nothing but ValueError. *)
Theorem C125_differs d t ref sig : clock d t -> descend d t ref sig <> Some ref /\ construct_new_ref d t ref sig = match descend d t ref sig with Some r => CRef r | None => CValue end.
Proof.
  intros C. pose proof (descend_diff d t ref sig C) as N. split; [exact N|]. unfold construct_new_ref. destruct (descend d t ref sig) as [r|]; [|reflexivity]. destruct (eqb_spec r ref); [congruence|reflexivity].
Qed.
(** References made on different days differ, whatever they were made of. *)
Theorem C125_days d t ref sig d' t' ref' sig' r r' : clock d t -> clock d' t' -> d <> d' -> descend d t ref sig = Some r -> descend d' t' ref' sig' = Some r' -> r <> r'.
Proof. intros C C' N E E' <-. exact (N (descend_days _ _ _ _ _ _ _ _ _ C C' E E')). Qed.
(** After any sequence of descents: the first base, all signifiers, one date. *)
Theorem C125_lineage ref h : h <> [] -> Forall step_ok h -> lineage ref h = Some (dotted (signed (strip ref) h) (last_stamp (snd (parts ref)) h)).
Proof. intros N. destruct h as [|x h]; [contradiction|]. apply (lineage_go (x :: h) ref x h eq_refl). Qed.

(** ** create_descendant *)
(** What is in the archive once load_all has returned *)
Definition loads_to {A} (ld : loadres A) (a : darch A) (l : bool) (x : A) : Prop :=
  (d_loaded a = true /\ l = true /\ x = d_ents a) \/ (d_loaded a = false /\ ((ld = LNew x /\ l = true) \/ (ld = LNotImpl /\ l = false /\ x = d_ents a))).
Lemma loads_dload {A} (ld : loadres A) a l x : loads_to ld a l x <-> dload ld a = (DA (d_st a) l x, true).
Proof.
  unfold loads_to, dload. destruct a as [st [|] y]; cbn [d_loaded d_st d_ents].
  - split; [intros [(_ & -> & ->)|(X & _)]; [reflexivity|discriminate]|intros [= <- <-]; auto].
  - destruct ld as [z| |z]; split; (try discriminate).
    + intros [(X & _)|(_ & [(X & ->)|(X & _)])]; try discriminate. injection X as ->. reflexivity.
    + intros [= <- <-]. auto.
    + intros [(X & _)|(_ & [(X & _)|(_ & -> & ->)])]; try discriminate. reflexivity.
    + intros [= <- <-]. right. split; [reflexivity|]. right. auto.
    + intros [(X & _)|(_ & [(X & _)|(X & _)])]; discriminate.
Qed.
Lemma dload_st {A} (ld : loadres A) a : d_st (fst (dload ld a)) = d_st a.
Proof. unfold dload. destruct a as [st [|] y]; [reflexivity|]. destruct ld; reflexivity. Qed.
Lemma dload_ok {A} (ld : loadres A) a a1 : dload ld a = (a1, true) -> loads_to ld a (d_loaded a1) (d_ents a1) /\ d_st a1 = d_st a.
Proof. intros E. pose proof (dload_st ld a) as S. rewrite E in S. cbn [fst] in S. split; [|exact S]. apply loads_dload. rewrite E, <- S. destruct a1; reflexivity. Qed.

(** When it succeeds *)
Theorem C125_succeeds {A} d t dir sig force up ld (a : darch A) fs r n : clock d t -> reach up (d_st a) -> ref_of (d_st a) = SOk r -> descend d t r sig = Some n ->
  snd (create d t dir sig force up ld a fs) = DOk n <->
  (dget (file_of dir n) fs = None \/ force = true) /\ (exists l x, loads_to ld a l x) /\ ~ (no_dot r = true /\ ends_in_stamp r) /\ has_slash n = false /\
  (forall k, known (d_st a) k (file_of dir n) -> k = n \/ local_ref (Some (file_of dir n)) = SOk k).
Proof.
  intros C R E D. assert (V: valid_ref r = true). { destruct R as (tr & h & H & G). destruct (C47_archive_reference_defined _ _ _ _ H G) as (k & E' & _ & V). congruence. }
  rewrite <- (descend_valid d t r sig n V D). unfold create. rewrite E, D. destruct (eqb_spec n r) as [->|_]; [destruct (descend_diff _ _ _ _ C D)|]. set (f := file_of dir n).
  assert (X: din f fs && negb force = false <-> dget f fs = None \/ force = true).
  { unfold din. destruct (dget f fs), force; cbn; split; auto; try discriminate. intros [X|X]; discriminate. }
  destruct (din f fs && negb force) eqn:B.
  { cbn [snd]. split; [discriminate|]. intros (Y & _). apply X in Y. discriminate. }
  pose proof (dload_ok ld a) as DO. pose proof (dload_st ld a) as DS. destruct (dload ld a) as (a1, [|]) eqn:DL.
  2:{ split; [discriminate|]. intros (_ & (l & x & Y) & _). apply loads_dload in Y. congruence. }
  cbn [fst] in DS. destruct (DO a1 eq_refl) as (LD & _). rewrite DS. pose proof (set_source_iff up (d_st a) dir n n R) as S. cbv zeta in S. fold f in S.
  destruct (set_source n (Some f) (d_st a)) as (st, [e|]) eqn:SS.
  { split; [discriminate|]. intros (_ & _ & Y & _ & Z). destruct (proj2 S (conj Y Z)) as (st' & W). discriminate. }
  destruct (set_source_ok _ _ _ _ _ R SS) as (V' & _ & _ & _ & _ & _ & W & K & _). rewrite W.
  destruct (has_slash n) eqn:HS; cbn [snd].
  - split; [discriminate|]. intros (_ & _ & _ & Y & _). discriminate.
  - split; [|reflexivity]. intros _. split; [apply X; reflexivity|]. split; [eauto|]. split; [exact V'|]. auto.
Qed.
(** What it then does: the archive, loaded, has the new reference and the new file for its source; if the file was not registered to another reference all else is
    registered as before; the file, and no other, is written, with what the archive holds. *)
Theorem C125_created {A} d t dir sig force up ld (a a' : darch A) fs fs' n : reach up (d_st a) -> create d t dir sig force up ld a fs = (a', fs', DOk n) ->
  reach up (d_st a') /\ ref_of (d_st a') = SOk n /\ s_source (d_st a') = Some (file_of dir n) /\ loads_to ld a (d_loaded a') (d_ents a') /\
  ((forall k, known (d_st a) k (file_of dir n) -> k = n) -> forall k v, known (d_st a') k v <-> known (d_st a) k v \/ (k = n /\ v = file_of dir n)) /\
  (exists x, dget (file_of dir n) fs' = Some x /\ df_ents x = d_ents a' /\ df_loaded x = d_loaded a' /\ df_dref x = s_dref (d_st a) /\
     forall k v, v <> "" -> (In (k, Some v) (df_names x) <-> known (d_st a') k v)) /\
  (forall g, g <> file_of dir n -> dget g fs' = dget g fs).
Proof.
  intros R. unfold create. destruct (ref_of (d_st a)) as [r|]; [|discriminate]. destruct (descend d t r sig) as [m|]; [|discriminate]. destruct (eqb m r); [discriminate|].
  destruct (_ && _); [discriminate|]. destruct (dload ld a) as (a1, [|]) eqn:DL; [|discriminate]. destruct (dload_ok _ _ _ DL) as (LD & DS). rewrite DS.
  destruct (set_source m (Some (file_of dir m)) (d_st a)) as (st, [e|]) eqn:SS; [discriminate|]. destruct (set_source_ok _ _ _ _ _ R SS) as (_ & R' & S1 & RF & _ & DR & W & _ & U). rewrite W.
  destruct (has_slash m); [discriminate|]. intros [= <- <- <-]. cbn [d_st d_loaded d_ents].
  split; [exact R'|]. split; [exact RF|]. split; [exact S1|]. split; [exact LD|]. split; [exact U|]. split.
  - eexists. split; [rewrite dget_dset, eqb_refl; reflexivity|]. cbn [to_file df_ents df_loaded df_dref df_names d_st d_ents d_loaded]. split; [reflexivity|]. split; [reflexivity|]. split; [exact DR|].
    intros k v NV. rewrite In_saved_names by apply (reach_ninv _ _ R'). unfold known. cbn [falsy]. destruct (eqb_spec v ""); [contradiction|]. tauto.
  - intros g N. rewrite dget_dset. apply eqb_neq in N. rewrite N. reflexivity.
Qed.
(** If it fails no file is changed, and with ValueError or for an existing file neither is the archive; if load_all fails only its entities are: those that _load_all made stay, and it is not marked as loaded. *)
Theorem C125_failed {A} d t dir sig force up ld (a a' : darch A) fs fs' e : reach up (d_st a) -> create d t dir sig force up ld a fs = (a', fs', DErr e) ->
  fs' = fs /\ (e = DValue \/ e = DExists \/ e = DKey -> a' = a) /\ (e = DLoad -> d_st a' = d_st a /\ d_loaded a' = false /\ ld = LRaise (d_ents a')).
Proof.
  intros R. unfold create. destruct (ref_of (d_st a)) as [r|x]; [|intros [= <- <- <-]; split; [reflexivity|split; [auto|discriminate]]].
  destruct (descend d t r sig) as [m|]; [|intros [= <- <- <-]; split; [reflexivity|split; [auto|discriminate]]]. destruct (eqb m r); [intros [= <- <- <-]; split; [reflexivity|split; [auto|discriminate]]|].
  destruct (_ && _); [intros [= <- <- <-]; split; [reflexivity|split; [auto|discriminate]]|]. pose proof (dload_st ld a) as DS. destruct (dload ld a) as (a1, [|]) eqn:DL; cbn [fst] in DS.
  2:{ intros [= <- <- <-]. split; [reflexivity|]. split; [intros [X|[X|X]]; discriminate|]. intros _. split; [exact DS|]. unfold dload in DL. destruct (d_loaded a); [discriminate|]. destruct ld; [discriminate|discriminate|]. injection DL as <-. split; reflexivity. }
  rewrite DS. destruct (set_source m (Some (file_of dir m)) (d_st a)) as (st, [x|]) eqn:SS.
  { intros [= <- <- <-]. split; [reflexivity|]. split; [intros [X|[X|X]]; discriminate|discriminate]. }
  destruct (write_to_file _ _ _) as (st2, [x|]).
  { intros [= <- <- <-]. split; [reflexivity|]. split; [intros [X|[X|X]]; discriminate|discriminate]. }
  destruct (has_slash m); [|discriminate]. intros [= <- <- <-]. split; [reflexivity|]. split; [intros [X|[X|X]]; discriminate|discriminate].
Qed.
(** Without force nothing that exists is overwritten. *)
Theorem C125_no_overwrite {A} d t dir sig up ld (a a' : darch A) fs fs' o g x : reach up (d_st a) -> create d t dir sig false up ld a fs = (a', fs', o) -> dget g fs = Some x -> dget g fs' = Some x.
Proof.
  intros R E G. destruct o as [n|e].
  - destruct (C125_created _ _ _ _ _ _ _ _ _ _ _ _ R E) as (_ & _ & _ & _ & _ & _ & F). destruct (eq_dec g (file_of dir n)) as [->|N]; [|rewrite F by exact N; exact G]. exfalso.
    unfold create in E. destruct (ref_of (d_st a)) as [r|]; [|discriminate]. destruct (descend d t r sig) as [m|]; [|discriminate]. destruct (eqb m r); [discriminate|].
    destruct (din (file_of dir m) fs && negb false) eqn:B; [discriminate|]. destruct (dload ld a) as (a1, [|]); [|discriminate]. destruct (set_source _ _ _) as (st, [e|]); [discriminate|].
    destruct (write_to_file _ _ _) as (st2, [e|]); [discriminate|]. destruct (has_slash m); [discriminate|]. injection E as _ _ <-. unfold din in B. rewrite G in B. discriminate.
  - destruct (C125_failed _ _ _ _ _ _ _ _ _ _ _ _ R E) as (-> & _). exact G.
Qed.
(** The file, read with its reference (as catalog resources are), gives an archive with the same reference, registrations and entities. *)
Theorem C125_reopened {A} d t dir sig force up ld (a a' : darch A) fs fs' n x pairs types keyid : reach up (d_st a) -> create d t dir sig force up ld a fs = (a', fs', DOk n) ->
  dget (file_of dir n) fs' = Some x -> Permutation pairs (df_names x) ->
  exists b, reopen (Some n) (file_of dir n) x pairs types keyid = SOk b /\ d_ents b = d_ents a' /\ d_loaded b = d_loaded a' /\ ref_of (d_st b) = SOk n /\
    forall k v, v <> "" -> (known (d_st b) k v <-> known (d_st a') k v).
Proof.
  intros R E G P. pose proof E as E0. destruct (C125_created _ _ _ _ _ _ _ _ _ _ _ _ R E) as (R' & RF & S1 & _). set (f := file_of dir n) in *.
  assert (X: x = to_file a').
  { unfold create in E0. destruct (ref_of (d_st a)) as [r|]; [|discriminate]. destruct (descend d t r sig) as [m|]; [|discriminate]. destruct (eqb m r); [discriminate|].
    destruct (_ && _); [discriminate|]. destruct (dload ld a) as (a1, [|]); [|discriminate]. destruct (set_source _ _ _) as (st, [e|]); [discriminate|].
    destruct (write_to_file _ _ _) as (st2, [e|]); [discriminate|]. destruct (has_slash m); [discriminate|]. injection E0 as <- <- <-. fold f in G. rewrite dget_dset, eqb_refl in G. congruence. }
  subst x. destruct R' as (tr & h & H & GS). destruct (file_local dir n) as (l & L). fold f in L.
  assert (K: In (Some f) (sget n (s_names (d_st a')))). { destruct (C47_archive_reference_defined _ _ _ _ H GS) as (k & E' & I & _). rewrite S1 in I. rewrite RF in E'. injection E' as <-. exact I. }
  assert (NF: f <> "") by (unfold f, file_of; destruct dir; discriminate).
  destruct (registry_survives up tr h (d_st a') n f l pairs types keyid H GS RF K NF L P) as (st2 & LO & RF2 & KN).
  unfold reopen. rewrite LO. eexists. split; [reflexivity|]. cbn [d_ents d_loaded d_st to_file df_ents df_loaded]. split; [reflexivity|]. split; [reflexivity|]. split; [exact RF2|]. intros k v NV. apply KN, NV.
Qed.

(** ** Witnesses and what is refuted *)
Definition keyid0 (k : key) : option string := None.
Definition ar0 (source ref : string) : sres store := init (Some source) (Some ref) ["flow"] keyid0.
Definition ar (source ref : string) : store := match ar0 source ref with SOk s => s | SErr _ => Store "" None [] [] keyid0 [] [] [] end.
Lemma ar_reach source ref : ar0 source ref = SOk (ar source ref) -> reach [] (ar source ref).
Proof. intros E. exists [], []. split; [|intros ? ? ? []]. exists (Some source), (Some ref), ["flow"], keyid0, [], (ar source ref). split; [exact E|apply hist_nil]. Qed.
Definition d1 : string := "20261118".
Definition d2 : string := "20261119".
Definition t1 : string := "0930".
Definition t2 : string := "1015".
Lemma clock1 : clock d1 t1. Proof. repeat split. Qed.
Lemma clock2 : clock d2 t2. Proof. repeat split. Qed.
Lemma clock12 : clock d1 t2. Proof. repeat split. Qed.
Definition us : darch nat := DA (ar "us.xml" "local.uslci") false 0.
Theorem C125_witness : reach [] (d_st us) /\ sig_fine (Some "olca") /\ ~ ends_in_stamp "local.uslci" /\
  (exists a fs, create d1 t1 "arch" (Some "olca") false [] (LNew 7) us [] = (a, fs, DOk "local.uslci.olca.20261118") /\
    dget "arch/local.uslci.olca.20261118.json.gz" fs = Some (DF [("local.uslci", Some "us.xml"); ("local.uslci.olca.20261118", Some "arch/local.uslci.olca.20261118.json.gz")] "local.uslci" true 7) /\
    snd (create d2 t2 "arch" None false [] LNotImpl a fs) = DOk "local.uslci.olca.20261119" /\
    (forall k, known (d_st us) k "arch/local.uslci.olca.20261118.json.gz" -> False)) /\
  lineage "local.uslci" [(d1, t1, Some "olca"); (d1, t2, None); (d2, t1, Some "mine")] = Some "local.uslci.olca.mine.20261119".
Proof.
  split; [apply ar_reach; reflexivity|]. split; [reflexivity|]. split; [rewrite <- tail_stamp; vm_compute; discriminate|]. split; [|vm_compute; reflexivity].
  eexists. eexists. split; [vm_compute; reflexivity|]. split; [vm_compute; reflexivity|]. split; [vm_compute; reflexivity|].
  intros k H. unfold known, sget in H. cbn [us d_st] in H. change (s_names (ar "us.xml" "local.uslci")) with [("local.uslci", [Some "us.xml"])] in H. cbn [dget] in H. destruct (eqb k "local.uslci"); [|exact H].
  destruct H as [H|[]]. discriminate H.
Qed.
(** The third descendant of one day without signifier has the reference of the first: it is refused, or with force replaces the file of the first. *)
Theorem C125_refuted_third d ta tb tc ref x y : clock d ta -> clock d tb -> snd (parts ref) <> d ->
  descend d ta ref None = Some x -> descend d tb x None = Some y -> x <> y /\ descend d tc y None = Some x.
Proof.
  intros Ca Cb N E F. cbn [descend] in E. rewrite (proj2 (eqb_neq _ _) N) in E. injection E as <-. rewrite (C125_dated_reference d tb d ta d (strip ref) None Cb Ca I (or_introl eq_refl)) in F.
  rewrite !eqb_refl in F. cbn [andb sign] in F. injection F as <-. destruct (clock_tail _ _ Cb) as (_ & S2 & L2 & ND). split.
  - intros X. apply (f_equal parts) in X. destruct (clock_tail _ _ Cb) as (S1 & _). rewrite !parts_dotted in X by (apply stamp_no_dot; assumption). injection X as X. exact (ND X).
  - cbn [descend]. change (d ++ String "-" tb)%string with (d ++ "-" ++ tb)%string. rewrite strip_dotted by (assumption || (rewrite L2; lia)). rewrite parts_dotted by (apply stamp_no_dot, S2). cbn [snd]. rewrite (proj2 (eqb_neq (d ++ "-" ++ tb)%string d)) by (intros Z; exact (ND (eq_sym Z))). reflexivity.
Qed.
Theorem C125_refuted_third_overwrites : exists a1 fs1 a2 fs2, create d1 t1 "arch" None false [] (LNew 1) us [] = (a1, fs1, DOk "local.uslci.20261118") /\
  create d1 t2 "arch" None false [] (LNew 2) (DA (d_st a1) false 2) fs1 = (a2, fs2, DOk "local.uslci.20261118-1015") /\
  snd (create d1 "1100" "arch" None false [] (LNew 3) (DA (d_st a2) false 3) fs2) = DErr DExists /\
  exists a3 fs3 x, create d1 "1100" "arch" None true [] (LNew 3) (DA (d_st a2) false 3) fs2 = (a3, fs3, DOk "local.uslci.20261118") /\
    dget "arch/local.uslci.20261118.json.gz" fs3 = Some x /\ df_ents x = 3.
Proof.
  eexists. eexists. eexists. eexists. split; [vm_compute; reflexivity|]. split; [vm_compute; reflexivity|]. split; [vm_compute; reflexivity|].
  eexists. eexists. eexists. split; [vm_compute; reflexivity|]. split; vm_compute; reflexivity.
Qed.
(** A name that happens to end in six digits is taken for a date: the descendants of two data sets have one reference. *)
Theorem C125_refuted_names d t b x y s : no_dot x = true -> no_dot y = true -> ends_in_stamp x -> ends_in_stamp y -> sig_ok s = true ->
  descend d t (dotted b x) (Some s) = Some (dotted b (dotted s d)) /\ descend d t (dotted b y) (Some s) = Some (dotted b (dotted s d)).
Proof.
  intros X Y EX EY S. assert (H: forall z, no_dot z = true -> ends_in_stamp z -> strip (dotted b z) = b).
  { intros z N (p & q & -> & L & A). unfold strip. rewrite parts_dotted by exact N. cbn [fst snd]. replace (6 <=? trail (p ++ q)) with true; [reflexivity|]. symmetry. apply Nat.leb_le. apply trail_spec. exists p, q. auto. }
  cbn [descend]. rewrite S, !H by assumption. auto.
Qed.
Theorem C125_refuted_names_example : descend d1 t1 "local.ecospold-201512" (Some "mine") = Some "local.mine.20261118" /\ descend d1 t1 "local.traci_201301" (Some "mine") = Some "local.mine.20261118".
Proof. split; vm_compute; reflexivity. Qed.
(** Failing late leaves the archive with a source that does not exist (and so with another reference): a reference that is a date, a signifier with a slash, a
    file that is registered to another reference. *)
Theorem C125_refuted_changed :
  (exists a, create d1 t1 "arch" None false [] (LNew 1) (DA (ar "x.json" "20150101") false 0) [] = (a, [], DErr (DStore SInvalidRef)) /\ s_source (d_st a) = Some "arch/.20261118.json.gz" /\ ref_of (d_st a) = SOk "local.arch..20261118") /\
  (exists a, create d1 t1 "arch" (Some "a/b") false [] (LNew 1) us [] = (a, [], DErr DOs) /\ ref_of (d_st a) = SOk "local.uslci.a/b.20261118" /\ s_source (d_st a) = Some "arch/local.uslci.a/b.20261118.json.gz").
Proof. split; eexists; (split; [vm_compute; reflexivity|split; vm_compute; reflexivity]). Qed.
(** from_file can never read a descendant: it takes the reference of the original for that of the file. *)
Lemma add_names_never f q n pairs : n <> q -> local_ref (Some f) <> SOk q -> In (n, Some f) pairs -> forall st, ninv (s_names st) -> s_source st = Some f -> known st q f ->
  exists st' e, add_names pairs st = (st', Some e).
Proof.
  intros N L. induction pairs as [|(k, v) pairs IH]; intros J st I S K; [destruct J|]. cbn [add_names]. destruct (add_name k v false st) as (st1, [e|]) eqn:A; [eauto|].
  destruct (add_name_ok _ _ _ _ _ I A) as (_ & C & _ & _ & _ & _ & _ & _ & SO). pose proof (add_name_ninv k v false st I) as I1. rewrite A in I1. cbn [fst] in I1.
  assert (NO: forall l, ~ override_of (s_source st) (s_names st) v l).
  { intros l (_ & E & E2 & R). rewrite S in *. subst v. apply L. rewrite E2. f_equal. apply (ni_uniq _ I (Some f)); [discriminate|exact R|exact K]. }
  pose proof (nchange_normal _ _ _ _ _ _ I C NO) as Q.
  assert (V: v = Some f -> k = q). { intros ->. apply (ni_uniq _ I1 (Some f)); [discriminate|exact (nchange_source _ _ _ _ _ _ I C)|].
    destruct C as [[X|X] _|_ _ R2 E|k1 _ _ RW _ _ _|k1 H1 H2 H3 R2 _]; [discriminate|destruct (X q K)|rewrite E; exact K|discriminate|]. exfalso. apply (NO k1). repeat split; assumption. }
  apply IH.
  - destruct J as [J|J]; [|exact J]. injection J as -> ->. destruct (N (V eq_refl)).
  - exact I1.
  - destruct SO as [SO|(SO & _)]; congruence.
  - unfold known in *. apply Q. destruct (eq_dec v (Some f)) as [E|E]; [left; split; [auto|]; left; symmetry; exact (V E)|right; split; [congruence|exact K]].
Qed.
Theorem C125_refuted_from_file {A} d t dir sig force up ld (a a' : darch A) fs fs' n x pairs types keyid : reach up (d_st a) -> create d t dir sig force up ld a fs = (a', fs', DOk n) ->
  dget (file_of dir n) fs' = Some x -> Permutation pairs (df_names x) -> s_dref (d_st a) <> n -> local_ref (Some (file_of dir n)) <> SOk (s_dref (d_st a)) ->
  exists e, reopen None (file_of dir n) x pairs types keyid = SErr e.
Proof.
  intros R E G P N L. destruct (C125_created _ _ _ _ _ _ _ _ _ _ _ _ R E) as (R' & RF & S1 & _ & _ & (x' & G' & _ & _ & DR & NM) & _). set (f := file_of dir n) in *. assert (x' = x) as -> by congruence.
  unfold reopen. rewrite DR. unfold load. destruct (init (Some f) (Some (s_dref (d_st a))) types keyid) as [st|e] eqn:IN; [|eauto].
  destruct (init_ninv _ _ _ _ _ IN) as (I0 & S0 & k0 & R0).
  assert (K: known st (s_dref (d_st a)) f).
  { unfold init in IN. destruct (add_name (s_dref (d_st a)) (Some f) false _) as [s [y|]] eqn:AA; [discriminate|]. injection IN as <-.
    destruct (add_name_ok _ _ _ _ _ (ninv_nil : ninv (s_names (Store (s_dref (d_st a)) (Some f) [] types keyid [] [] []))) AA) as (_ & C & _). exact (nchange_source _ _ _ _ _ _ ninv_nil C). }
  assert (J: In (n, Some f) pairs).
  { apply (Permutation_in (n, Some f) (Permutation_sym P)). apply NM; [unfold f, file_of; destruct dir; discriminate|].
    destruct R' as (tr & h & H & GS). destruct (C47_archive_reference_defined _ _ _ _ H GS) as (k & E' & II & _). rewrite S1 in II. rewrite RF in E'. injection E' as <-. exact II. }
  destruct (add_names_never f (s_dref (d_st a)) n pairs (fun X => N (eq_sym X)) L J st I0 S0 K) as (st' & e & ->). eauto.
Qed.
Theorem C125_refuted_from_file_example : exists a fs x, create d1 t1 "arch" (Some "olca") false [] (LNew 7) us [] = (a, fs, DOk "local.uslci.olca.20261118") /\
  dget "arch/local.uslci.olca.20261118.json.gz" fs = Some x /\ reopen None "arch/local.uslci.olca.20261118.json.gz" x (df_names x) ["flow"] keyid0 = SErr SSourceKnown.
Proof. eexists. eexists. eexists. split; [vm_compute; reflexivity|]. split; vm_compute; reflexivity. Qed.

Print Assumptions C125_new_reference. Print Assumptions C125_dated_reference. Print Assumptions C125_signifier. Print Assumptions C125_differs. Print Assumptions C125_days. Print Assumptions C125_lineage.
Print Assumptions C125_succeeds. Print Assumptions C125_created. Print Assumptions C125_failed. Print Assumptions C125_no_overwrite. Print Assumptions C125_reopened.
Print Assumptions C125_refuted_third. Print Assumptions C125_refuted_names. Print Assumptions C125_refuted_from_file.

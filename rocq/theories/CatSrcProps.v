(** C128, part 1: sources in a catalog that is moved, and the files that go when a resource is deleted. *)
From Coq Require Import String Ascii ZArith.
From Verif Require Import Base PyStr ResModel ResProps ResHistProps CatSrcModel CatSrcProofs.
Open Scope string_scope.
Open Scope nat_scope.
Open Scope list_scope.
Local Arguments eqb : simpl never.
Local Arguments Ascii.eqb : simpl never.
Local Arguments String.eqb : simpl never.

(** ** Sources *)
(** A path put into the catalog's notation is found again, whatever it is; different paths get different notations. *)
Theorem C128_localized_source root s t :
  isabs s = true -> isabs t = true ->
  abs_path root (localize root s) = s
  /\ (localize root s = localize root t -> s = t).
Proof. intros A B. split; [apply localize_back, A|apply localize_inj; assumption]. Qed.
Print Assumptions C128_localized_source.

(** The catalog copied from [root] to [root']: what lies in it is found at its new place, and a path that does not begin
    with the text of [root] where it was.  [partial]: for a path outside the catalog whose text begins so see below. *)
Theorem C128_moved_catalog_partial root root' x s :
  abs_path root' (localize root (root ++ "/" ++ x)) = (root' ++ "/" ++ x)%string
  /\ (isabs s = true -> (forall r, s <> (root ++ r)%string) -> abs_path root' (localize root s) = s).
Proof.
  split.
  - unfold localize. rewrite strip_app. unfold abs_path. change (isabs ("$CAT_ROOT" ++ "/" ++ x)%string) with false. cbv iota.
    rewrite strip_app. reflexivity.
  - intros A N. unfold localize. destruct (strip root s) as [r|] eqn:E.
    + apply strip_Some in E. elim (N r E).
    + unfold abs_path. rewrite A. reflexivity.
Qed.
Print Assumptions C128_moved_catalog_partial.

(** The name of the catalog's directory is compared as text: '/data/cat2/usl.zip' is not in '/data/cat', but is taken to be. *)
Theorem C128_refuted_neighbour :
  let root := "/data/cat" in let s := "/data/cat2/usl.zip" in
  (forall x, s <> (root ++ "/" ++ x)%string)
  /\ localize root s = "$CAT_ROOT2/usl.zip" /\ abs_path "/srv/lca" (localize root s) = "/srv/lca2/usl.zip".
Proof. split; [intros x E; discriminate E|]. vm_compute. auto. Qed.
Print Assumptions C128_refuted_neighbour.

(** ** Deletion *)
Section Delete.
Variable root : string.
Variable hash : string -> string.

(** the catalog holds the resource object [q] *)
Definition registered_in (c : cat) (q : res) : Prop := exists ref l, In (ref, l) (rs_mem (ct_rs c)) /\ In q l.
(** no path is both a file and a directory *)
Definition fs_ok (c : cat) : Prop := forall p, dget p (ct_files c) <> None -> ~ In p (ct_dirs c).

Lemma with_source_registered c src q : In q (with_source (ct_rs c) src) <-> registered_in c q /\ d_source (r_data q) = Some src.
Proof.
  unfold with_source, registered_in. rewrite in_flat_map. split.
  - intros ([ref l] & I & J). cbn [snd] in J. apply filter_In in J as [J E]. apply (proj1 (eqb_eq _ _)) in E. eauto.
  - intros ((ref & l & I & J) & E). exists (ref, l). split; [exact I|]. apply filter_In. split; [exact J|]. rewrite E. apply eqb_refl.
Qed.
Lemma dget_remove p q c : dget p (ct_files (remove c q)) = if eqb p q then None else dget p (ct_files c).
Proof. apply dget_ddel. Qed.
Lemma dget_remove_if p q c : dget p (ct_files (remove_if_exists c q)) = if eqb p q then None else dget p (ct_files c).
Proof.
  unfold remove_if_exists, isfile, din. destruct (dget q (ct_files c)) eqn:D; [apply dget_remove|].
  destruct (eqb_spec p q) as [->|]; [exact D|reflexivity].
Qed.
Lemma dirs_remove_if c q : ct_dirs (remove_if_exists c q) = ct_dirs c.
Proof. unfold remove_if_exists. destruct (isfile c q); reflexivity. Qed.
Lemma rs_remove_if c q : ct_rs (remove_if_exists c q) = ct_rs c.
Proof. unfold remove_if_exists. destruct (isfile c q); reflexivity. Qed.
Lemma live_remove_if c q : ct_live (remove_if_exists c q) = ct_live c.
Proof. unfold remove_if_exists. destruct (isfile c q); reflexivity. Qed.
Lemma isfile_spec c p : isfile c p = true <-> dget p (ct_files c) <> None.
Proof. unfold isfile, din. destruct (dget p (ct_files c)); split; congruence. Qed.

(** What [delete_resource] does to the resolver is what the resolver's own deletion does. *)
Theorem C128_delete_resolver c r ds dc :
  ct_rs (fst (cat_delete root hash c r ds dc)) = fst (delete_resource (ct_rs c) r)
  /\ ct_live (fst (cat_delete root hash c r ds dc)) = ct_live c
  /\ (forall e, snd (delete_resource (ct_rs c) r) = RErr e -> cat_delete root hash c r ds dc = (with_rs c (fst (delete_resource (ct_rs c) r)), KErr (KResolver e)))
  /\ (snd (delete_resource (ct_rs c) r) = ROk tt ->
      snd (cat_delete root hash c r ds dc) = match d_source (r_data r) with None => KErr KTypeError | Some _ => KOk tt end).
Proof.
  unfold cat_delete. destruct (delete_resource (ct_rs c) r) as [s [u|e]]; cbn [fst snd].
  - destruct (d_source (r_data r)) as [src|]; [|repeat split; congruence].
    destruct (_ || _); [repeat split; congruence|]. destruct (with_source s src); [|repeat split; congruence].
    set (c2 := if d_internal (r_data r) || eqb ds (Some true) then _ else _).
    assert (X : ct_rs c2 = s /\ ct_live c2 = ct_live c).
    { unfold c2. destruct (_ || _); [|split; reflexivity]. destruct (isdir _ _); split; reflexivity. }
    destruct dc; cbn [fst snd]; rewrite ?rs_remove_if, ?live_remove_if; repeat split; try tauto; congruence.
  - repeat split; congruence.
Qed.

(** The files that go: the source, if it is a file, no resource of the catalog has it for its source any more, deletion is not
    forbidden, and the resource is internal or deletion is asked for; and with it the cache files of the source.  Nothing else
    goes, nothing is written, and no directory goes. *)
Theorem C128_delete_files c r ds dc :
  fs_ok c ->
  let '(c', x) := cat_delete root hash c r ds dc in
  ct_dirs c' = ct_dirs c
  /\ (forall p v, dget p (ct_files c') = Some v -> dget p (ct_files c) = Some v)
  /\ (forall p, dget p (ct_files c) <> None ->
        (dget p (ct_files c') = None <->
         x = KOk tt /\ exists src, d_source (r_data r) = Some src
           /\ dget (abs_path root src) (ct_files c) <> None /\ ds <> Some false
           /\ (forall q, registered_in c' q -> d_source (r_data q) <> Some src)
           /\ ((p = abs_path root src /\ (d_internal (r_data r) = true \/ ds = Some true))
               \/ (dc = true /\ (p = cache_file root hash src \/ p = cache_file root hash (abs_path root src)))))).
Proof.
  intros FS. unfold cat_delete. destruct (delete_resource (ct_rs c) r) as [s [u|e]] eqn:D.
  2:{ split; [reflexivity|]. split; [auto|]. intros p P. split; [intros N; elim (P N)|intros [E _]; discriminate]. }
  destruct (d_source (r_data r)) as [src|] eqn:S.
  2:{ split; [reflexivity|]. split; [auto|]. intros p P. split; [intros N; elim (P N)|intros [E _]; discriminate]. }
  set (a := abs_path root src). destruct (eqb ds (Some false) || negb (isfile (with_rs c s) a)) eqn:G.
  { split; [reflexivity|]. split; [auto|]. intros p P. split; [intros N; elim (P N)|].
    intros (_ & src' & E & F & Nf & _). injection E as <-. exfalso. apply orb_true_iff in G as [G|G].
    - apply (proj1 (eqb_eq _ _)) in G. congruence.
    - apply negb_true_iff, not_true_iff_false in G. apply G, isfile_spec. exact F. }
  apply orb_false_iff in G as [G1 G2]. apply negb_false_iff in G2. pose proof (proj1 (isfile_spec _ _) G2) as G3.
  assert (G1' : ds <> Some false) by (intros ->; rewrite eqb_refl in G1; discriminate).
  destruct (with_source s src) as [|q l] eqn:WS.
  2:{ split; [reflexivity|]. split; [auto|]. intros p P. split; [intros N; elim (P N)|].
      intros (_ & src' & E & _ & _ & H & _). injection E as <-. exfalso.
      assert (I : In q (with_source (ct_rs (with_rs c s)) src)) by (cbn; rewrite WS; left; reflexivity).
      apply with_source_registered in I as [I1 I2]. exact (H q I1 I2). }
  assert (ND : isdir (with_rs c s) a = false).
  { unfold isdir. apply mem_nIn. apply FS. exact G3. }
  rewrite ND.
  set (b := d_internal (r_data r) || eqb ds (Some true)).
  assert (B : b = true <-> d_internal (r_data r) = true \/ ds = Some true).
  { unfold b. rewrite orb_true_iff. split; (intros [X|X]; [auto|right]); [apply (proj1 (eqb_eq _ _)), X|rewrite X; apply eqb_refl]. }
  set (c2 := if b then remove (with_rs c s) a else with_rs c s).
  set (c3 := if dc then _ else c2).
  assert (R3 : ct_rs c3 = s).
  { unfold c3, c2. destruct dc, b; rewrite ?rs_remove_if; reflexivity. }
  assert (D3 : ct_dirs c3 = ct_dirs c).
  { unfold c3, c2. destruct dc, b; rewrite ?dirs_remove_if; reflexivity. }
  assert (F3 : forall p, dget p (ct_files c3)
               = if (dc && (eqb p (cache_file root hash a) || eqb p (cache_file root hash src))) || (b && eqb p a) then None
                 else dget p (ct_files c)).
  { intros p. unfold c3, c2. destruct dc, b; cbn [andb orb]; rewrite ?dget_remove_if, ?dget_remove; cbn [with_rs ct_files];
    destruct (eqb p (cache_file root hash a)), (eqb p (cache_file root hash src)), (eqb p a); reflexivity. }
  assert (H3 : forall q, registered_in c3 q -> d_source (r_data q) <> Some src).
  { intros q I E. assert (J : In q (with_source (ct_rs c3) src)) by (apply with_source_registered; auto). rewrite R3, WS in J. destruct J. }
  split; [exact D3|]. split.
  - intros p v. rewrite F3. match goal with |- context [if ?g then _ else _] => destruct g end; [discriminate|auto].
  - intros p P. rewrite F3. split.
    + intros N. split; [reflexivity|]. exists src. split; [reflexivity|]. split; [exact G3|]. split; [exact G1'|]. split; [exact H3|].
      match type of N with context [if ?g then _ else _] => destruct g eqn:Q end; [|elim (P N)]. apply orb_true_iff in Q as [Q|Q]; apply andb_true_iff in Q as [Q1 Q2].
      * right. split; [exact Q1|]. apply orb_true_iff in Q2 as [Q2|Q2]; apply (proj1 (eqb_eq _ _)) in Q2; auto.
      * left. apply (proj1 (eqb_eq _ _)) in Q2. split; [exact Q2|apply B, Q1].
    + intros (_ & src' & E & _ & _ & _ & Q). injection E as <-. fold a in Q.
      replace ((dc && (eqb p (cache_file root hash a) || eqb p (cache_file root hash src))) || (b && eqb p a)) with true; [reflexivity|].
      symmetry. apply orb_true_iff. destruct Q as [[-> Q]|[-> Q]].
      * right. rewrite eqb_refl, andb_true_r. apply B, Q.
      * left. cbn [andb]. apply orb_true_iff. destruct Q as [-> | ->]; [right|left]; apply eqb_refl.
Qed.

(** A source of a resource that stays is not lost, [partial]: if the two resources do not name one file in two ways, and no
    cache file is a source. *)
Theorem C128_shared_source_kept_partial c r ds dc q src src2 :
  fs_ok c ->
  let c' := fst (cat_delete root hash c r ds dc) in
  d_source (r_data r) = Some src ->
  registered_in c' q -> d_source (r_data q) = Some src2 ->
  (abs_path root src2 = abs_path root src -> src2 = src) ->
  abs_path root src2 <> cache_file root hash src -> abs_path root src2 <> cache_file root hash (abs_path root src) ->
  dget (abs_path root src2) (ct_files c') = dget (abs_path root src2) (ct_files c).
Proof.
  intros FS c' S I S2 Sp C1 C2. pose proof (C128_delete_files c r ds dc FS) as H. subst c'.
  destruct (cat_delete root hash c r ds dc) as [c' x]. cbn [fst] in *. destruct H as (_ & H1 & H2).
  destruct (dget (abs_path root src2) (ct_files c')) as [v|] eqn:E; [symmetry; auto|].
  destruct (dget (abs_path root src2) (ct_files c)) as [v|] eqn:E0; [|reflexivity]. exfalso.
  assert (P : dget (abs_path root src2) (ct_files c) <> None) by congruence.
  apply (H2 _ P) in E as (_ & s & Es & _ & _ & Hq & Q). rewrite S in Es. injection Es as <-.
  destruct Q as [[E _]|[_ [E|E]]]; [|congruence|congruence]. apply (Hq q I). rewrite S2. f_equal. apply Sp, E.
Qed.

(** The user's own data are safe unless their deletion is asked for. *)
Theorem C128_external_kept c r ds dc src :
  fs_ok c -> d_source (r_data r) = Some src -> d_internal (r_data r) = false -> ds <> Some true ->
  abs_path root src <> cache_file root hash src -> abs_path root src <> cache_file root hash (abs_path root src) ->
  dget (abs_path root src) (ct_files (fst (cat_delete root hash c r ds dc))) = dget (abs_path root src) (ct_files c).
Proof.
  intros FS S Int Ds C1 C2. pose proof (C128_delete_files c r ds dc FS) as H.
  destruct (cat_delete root hash c r ds dc) as [c' x]. cbn [fst] in *. destruct H as (_ & H1 & H2).
  destruct (dget (abs_path root src) (ct_files c')) as [v|] eqn:E; [symmetry; auto|].
  destruct (dget (abs_path root src) (ct_files c)) as [v|] eqn:E0; [|reflexivity]. exfalso.
  assert (P : dget (abs_path root src) (ct_files c) <> None) by congruence.
  apply (H2 _ P) in E as (_ & s & Es & _ & _ & _ & Q). rewrite S in Es. injection Es as <-.
  destruct Q as [[_ [E|E]]|[_ [E|E]]]; congruence.
Qed.
End Delete.
Print Assumptions C128_delete_resolver.
Print Assumptions C128_delete_files.
Print Assumptions C128_shared_source_kept_partial.
Print Assumptions C128_external_kept.

(** ** Witnesses *)
Definition wroot : string := "/cat".
(** a stand-in for the digest *)
Definition whash (s : string) : string := ("h" ++ s)%string.
Definition data_at (src : string) (internal : bool) : rdata := RD (Some src) "ecospold" None None ["basic"] 50%Z false internal "".
Definition reg (s : resolver) (ref : string) (d : rdata) : resolver := fst (new_resource s ref d true).
Definition files0 : dict string content :=
  [("/cat/archives/a.json.gz", Content "" "a"); ("/data/u.zip", Content "" "u");
   (cache_file wroot whash "$CAT_ROOT/archives/a.json.gz", Content "" "cache of a"); (cache_file wroot whash "/data/u.zip", Content "" "cache of u")].
Definition cat0 : cat :=
  Cat (reg (reg (reg (RS [] [] 0) "local.a" (data_at "$CAT_ROOT/archives/a.json.gz" true)) "u" (data_at "/data/u.zip" false))
           "u.copy" (data_at "/data/u.zip" false)) files0 ["/cat"; "/data"; "/data/dir"] [].
Definition obj (n : nat) (ref src : string) (internal : bool) : res := Res n ref (data_at src internal).

(** The archive goes with its cache; the user's file stays, while another resource has it and after. *)
Theorem C128_delete_witness :
  fs_ok cat0
  /\ map fst (ct_files (fst (cat_delete wroot whash cat0 (obj 0 "local.a" "$CAT_ROOT/archives/a.json.gz" true) None true)))
     = ["/data/u.zip"; cache_file wroot whash "/data/u.zip"]
  /\ (let c1 := fst (cat_delete wroot whash cat0 (obj 1 "u" "/data/u.zip" false) (Some true) true) in
      map fst (ct_files c1) = map fst files0
      /\ map fst (ct_files (fst (cat_delete wroot whash c1 (obj 2 "u.copy" "/data/u.zip" false) None true)))
         = firstn 3 (map fst files0)
      /\ map fst (ct_files (fst (cat_delete wroot whash c1 (obj 2 "u.copy" "/data/u.zip" false) (Some true) true)))
         = ["/cat/archives/a.json.gz"; cache_file wroot whash "$CAT_ROOT/archives/a.json.gz"]).
Proof.
  split; [|vm_compute; repeat split; reflexivity]. intros p P. destruct (dget p (ct_files cat0)) eqn:E; [|congruence].
  apply dget_In in E. vm_compute in E. destruct E as [E|[E|[E|[E|[]]]]]; injection E as <- _; vm_compute;
    intros [X|[X|[X|[]]]]; discriminate X.
Qed.

(** One file named in two ways: deleting the one resource takes the file from the other. *)
Theorem C128_refuted_two_names :
  let s := reg (reg (RS [] [] 0) "x" (data_at "$CAT_ROOT/archives/a.json.gz" true)) "y" (data_at "/cat/archives/a.json.gz" false) in
  let c := Cat s [("/cat/archives/a.json.gz", Content "" "a")] [] [] in
  let '(c', out) := cat_delete wroot whash c (obj 0 "x" "$CAT_ROOT/archives/a.json.gz" true) None true in
  out = KOk tt /\ registered_in c' (obj 1 "y" "/cat/archives/a.json.gz" false) /\ ct_files c' = [].
Proof. vm_compute. split; [reflexivity|]. split; [|reflexivity]. eexists _, _. split; [left; reflexivity|left; reflexivity]. Qed.

(** The cache of a resource whose source is a directory (or whose file is gone) stays behind, and is used for the next
    resource with this source. *)
Theorem C128_refuted_cache_left :
  let s := reg (RS [] [] 0) "d" (data_at "/data/dir" false) in
  let c := Cat s [(cache_file wroot whash "/data/dir", Content "" "stale")] ["/data/dir"] [] in
  let '(c', out) := cat_delete wroot whash c (obj 0 "d" "/data/dir" false) (Some true) true in
  out = KOk tt /\ rs_mem (ct_rs c') = [] /\ ct_files c' = ct_files c /\ ct_dirs c' = ["/data/dir"].
Proof. vm_compute. auto. Qed.

(** A resource that was not downloaded yet has no source: it is deleted, and TypeError raised. *)
Theorem C128_refuted_no_source :
  let s := reg (RS [] [] 0) "r" (RD None "ecospold" (Some "http://x/u.zip") None ["basic"] 50%Z false false "") in
  let '(c', out) := cat_delete wroot whash (Cat s [] [] []) (Res 0 "r" (RD None "ecospold" (Some "http://x/u.zip") None ["basic"] 50%Z false false "")) None true in
  out = KErr KTypeError /\ rs_mem (ct_rs c') = [] /\ rs_disk (ct_rs c') = [].
Proof. vm_compute. auto. Qed.
Print Assumptions C128_delete_witness.

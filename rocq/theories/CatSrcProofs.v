(** Lemmas for C128 (the files of a catalog's resources). *)
From Coq Require Import String Ascii ZArith.
From Verif Require Import Base PyStr ResModel ResProps ResHistProps CatSrcModel.
Open Scope string_scope.
Open Scope nat_scope.
Open Scope list_scope.
Local Arguments eqb : simpl never.
Local Arguments Ascii.eqb : simpl never.
Local Arguments String.eqb : simpl never.

(** ** Paths *)
Lemma strip_app p r : strip p (p ++ r)%string = Some r.
Proof. induction p as [|a p IH]; cbn; [reflexivity|]. rewrite Ascii.eqb_refl. exact IH. Qed.
Lemma strip_Some p s : forall r, strip p s = Some r -> s = (p ++ r)%string.
Proof.
  revert s. induction p as [|a p IH]; intros [|b s] r; cbn; try congruence.
  destruct (Ascii.eqb_spec a b); [|discriminate]. intros E. subst b. f_equal. apply IH; exact E.
Qed.
Lemma strip_spec p s r : strip p s = Some r <-> s = (p ++ r)%string.
Proof. split; [apply strip_Some|intros ->; apply strip_app]. Qed.
Lemma sapp_assoc (a b c : string) : ((a ++ b) ++ c = a ++ (b ++ c))%string.
Proof. induction a as [|x a IH]; cbn; [reflexivity|]. rewrite IH. reflexivity. Qed.
Lemma sapp_inj (a b c : string) : (a ++ b = a ++ c)%string -> b = c.
Proof. induction a as [|x a IH]; cbn; [auto|]. intros E. injection E as E. auto. Qed.

Lemma slen_app (a b : string) : String.length (a ++ b) = String.length a + String.length b.
Proof. induction a as [|x a IH]; cbn; [reflexivity|]. rewrite IH. reflexivity. Qed.

Lemma localize_back root s : isabs s = true -> abs_path root (localize root s) = s.
Proof.
  intros A. unfold localize. destruct (strip root s) as [r|] eqn:E.
  - apply strip_Some in E. unfold abs_path.
    change (isabs ("$CAT_ROOT" ++ r)%string) with false. cbv iota. rewrite strip_app. congruence.
  - unfold abs_path. rewrite A. reflexivity.
Qed.
Lemma localize_inj root s t : isabs s = true -> isabs t = true -> localize root s = localize root t -> s = t.
Proof. intros A B E. rewrite <- (localize_back root s A), E. apply localize_back, B. Qed.

Lemma isabs_app a b : isabs (a ++ b)%string = match a with EmptyString => isabs b | _ => isabs a end.
Proof. destruct a as [|x a]; [reflexivity|]. unfold isabs. cbn [append strip]. destruct (Ascii.eqb "/"%char x); reflexivity. Qed.
Lemma isabs_cat a b : isabs a = false -> isabs b = false -> isabs (a ++ b)%string = false.
Proof. intros A B. rewrite isabs_app. destruct a; auto. Qed.
Lemma isabs_left a b : isabs a = true -> isabs (a ++ b)%string = true.
Proof. intros A. rewrite isabs_app. destruct a; [discriminate A|exact A]. Qed.

Lemma join_abs root x : isabs root = true -> isabs (join root x) = true.
Proof.
  intros A. unfold join. destruct (isabs x) eqn:X; [exact X|]. destruct (_ || _); apply isabs_left, A.
Qed.

(** the root with a separator at its end *)
Definition root_ (root : string) : string := if String.eqb root "" || ends_with root "/" then root else (root ++ "/")%string.
Lemma join_rel root x : isabs x = false -> join root x = (root_ root ++ x)%string.
Proof. intros X. unfold join, root_. rewrite X. destruct (_ || _); [reflexivity|]. rewrite sapp_assoc. reflexivity. Qed.

(** files in a sub-directory [d] *)
Definition in_dir (d : string) : Prop := isabs d = false /\ d <> "" /\ (forall a, ends_with (a ++ d) "/" = false).
Lemma join2 root d x : isabs root = true -> in_dir d -> isabs x = false ->
  join (join root d) x = (root_ root ++ d ++ "/" ++ x)%string.
Proof.
  intros A (D & N & E) X. rewrite (join_rel root d D). rewrite join_rel by exact X. unfold root_ at 1.
  rewrite E, orb_false_r. destruct (String.eqb_spec (root_ root ++ d) "") as [Z|_].
  - exfalso. assert (Q : root_ root <> "").
    { unfold root_. intros Z2. destruct root; [discriminate A|]. destruct (_ || _); discriminate. }
    destruct (root_ root); [congruence|discriminate].
  - rewrite !sapp_assoc. reflexivity.
Qed.
Lemma ends_snoc c (a : string) : forall suf, ends_with (a ++ String c "") (String suf "") = Ascii.eqb c suf.
Proof.
  induction a as [|x a IH]; intros suf.
  - cbn [append ends_with]. destruct (String.eqb_spec (String c "") (String suf "")) as [E|E].
    + injection E as ->. symmetry. apply Ascii.eqb_refl.
    + change (String.eqb "" (String suf "")) with false. cbv iota.
      destruct (Ascii.eqb_spec c suf) as [->|_]; [congruence|reflexivity].
  - cbn [append ends_with]. destruct (String.eqb_spec (String x (a ++ String c "")) (String suf "")) as [E|_]; [|apply IH].
    exfalso. injection E as _ E. destruct a; discriminate.
Qed.
Lemma in_dir_snoc b c : isabs (b ++ String c "") = false -> c <> "/"%char -> in_dir (b ++ String c "")%string.
Proof.
  intros A N. split; [exact A|]. split; [destruct b; discriminate|]. intros a. rewrite <- sapp_assoc, ends_snoc.
  apply Ascii.eqb_neq. exact N.
Qed.
Lemma in_index : in_dir "index". Proof. apply (in_dir_snoc "inde" "x"); [reflexivity|discriminate]. Qed.
Lemma in_cache : in_dir "cache". Proof. apply (in_dir_snoc "cach" "e"); [reflexivity|discriminate]. Qed.
Lemma in_downloads : in_dir "downloads". Proof. apply (in_dir_snoc "download" "s"); [reflexivity|discriminate]. Qed.

(** ** Resources by source *)
Lemma with_source_In s src r : NoDup (dkeys (rs_mem s)) ->
  In r (with_source s src) <-> exists ref, In r (mget ref (rs_mem s)) /\ d_source (r_data r) = Some src.
Proof.
  intros N. unfold with_source. rewrite in_flat_map. split.
  - intros ([ref l] & I & J). cbn [snd] in J. apply filter_In in J as [J E]. apply (proj1 (eqb_eq _ _)) in E.
    exists ref. split; [|exact E]. unfold mget. rewrite (In_dget ref l _ N I). exact J.
  - intros (ref & J & E). unfold mget in J. destruct (dget ref (rs_mem s)) as [l|] eqn:D; [|destruct J].
    exists (ref, l). split; [apply dget_In, D|]. cbn [snd]. apply filter_In. split; [exact J|]. rewrite E. apply eqb_refl.
Qed.

(** Reachable resolvers: those that refine a list of registered resources (C56). *)
Definition tracks (s : resolver) (m : list sentry) : Prop := wf m /\ R m s.

Lemma with_source_reg s m src : tracks s m ->
  forall ref, (exists r, In r (with_source s src) /\ r_ref r = ref) <-> existsb (has_key ref src) m = true.
Proof.
  intros [W HR] ref. rewrite existsb_exists. split.
  - intros (r & I & E). apply (with_source_In s src r (R_nd _ _ HR)) in I as (ref' & I & S).
    destruct (mem_sourced _ _ _ _ W HR I) as (e & Ie & Er & _ & Es). exists e. split; [exact Ie|]. apply has_key_spec.
    split; [|congruence]. rewrite Er, <- E. symmetry. apply (R_refs _ _ HR _ _ I).
  - intros (e & I & K). apply has_key_spec in K as [K1 K2]. destruct (reg_in_mem _ _ _ HR I) as (r & J & Ed).
    exists r. split.
    + apply (with_source_In s src r (R_nd _ _ HR)). exists (se_ref e). split; [exact J|].
      change (d_source (r_data r)) with (d_source (serialize (r_data r))). rewrite Ed, (wf_src m W e I). congruence.
    + rewrite (R_refs _ _ HR _ _ J). exact K1.
Qed.
Lemma with_source_nil s m src : tracks s m -> with_source s src = [] <-> (forall ref, existsb (has_key ref src) m = false).
Proof.
  intros T. split.
  - intros E ref. apply not_true_iff_false. intros B. apply (with_source_reg s m src T ref) in B as (r & I & _). rewrite E in I. destruct I.
  - intros H. destruct (with_source s src) as [|r l] eqn:E; [reflexivity|]. exfalso.
    assert (B : existsb (has_key (r_ref r) src) m = true).
    { apply (with_source_reg s m src T). exists r. rewrite E. split; [left|]; reflexivity. }
    rewrite H in B. discriminate.
Qed.

Lemma new_resource_tracks s m ref d store : tracks s m -> d_source d <> None -> d_filetype d = None ->
  let '(s', x) := new_resource s ref d store in let '(m', y) := sstep m (OAdd ref d store) in unit_of x = y /\ tracks s' m'.
Proof.
  intros [W HR] S F. pose proof (add_refines m s ref d store W HR S F) as X. cbn [exec] in X.
  destruct (new_resource s ref d store) as [s' x], (sstep m (OAdd ref d store)) as [m' y]. destruct X as (E & W' & R'). split; [exact E|split; assumption].
Qed.
Lemma exists_ok s m r src : tracks s m -> d_source (r_data r) = Some src -> exists b, exists_in (rs_disk s) r = ROk b.
Proof. intros [W HR] S. rewrite (exists_in_spec m s r src W HR S). eauto. Qed.

Lemma dset_same (k : string) (v : content) f : dget k f = Some v -> dset k v f = f.
Proof.
  induction f as [|[k' v'] f IH]; cbn [dget dset]; [discriminate|].
  destruct (eqb_spec k k') as [->|]; intros E; [injection E as ->; reflexivity|]. rewrite IH by exact E. reflexivity.
Qed.

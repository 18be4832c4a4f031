(** C128, part 2: indices, downloads and foregrounds of a catalog, over its history. *)
From Coq Require Import String Ascii ZArith.
From Verif Require Import Base PyStr ResModel ResProps ResHistProps CatSrcModel CatSrcProofs CatSrcProps.
Open Scope string_scope.
Open Scope nat_scope.
Open Scope list_scope.
Local Arguments eqb : simpl never.
Local Arguments Ascii.eqb : simpl never.
Local Arguments String.eqb : simpl never.

Section Index.
Variable root : string.
Variable hash : string -> string.
(** the index that is made of the archive of a resource on a day *)
Variable mk : rdata -> nat -> content.
Variable digest : string -> string.
Variable local_ref : string -> string.
(** The catalog's directory is absolute; a digest is a file name; different sources have different digests. *)
Hypothesis Hroot : isabs root = true.
Hypothesis Hname : forall s, isabs (hash s) = false.
Hypothesis Hinj : forall s t, hash s = hash t -> s = t.

Let inx (src : string) : string := index_file root hash src.
Let loc (src : string) : string := localize root (inx src).

(** ** Histories *)
Inductive cop :=
| CRes (o : rop)                                                    (* new_resource; deletion by the resolver; a new process *)
| CDel (ref src : string) (delete_source : option bool) (delete_cache : bool)   (* delete_resource *)
| CIndex (src : string) (prio : Z) (force : bool) (day : nat)       (* _index_source *)
| CDownload (fetch : transfer) (url : string) (md5 : option string) (force : bool)
| CForeground (path : string) (ref : option string).

Definition cexec (c : cat) (o : cop) : cat * kres string :=
  match o with
  | CRes o => let '(s, x) := exec (ct_rs c) o in
              (Cat s (ct_files c) (ct_dirs c) (match o with ORestart => [] | _ => ct_live c end),
               match x with ROk _ => KOk "" | RErr e => KErr (KResolver e) end)
  | CDel ref src ds dc =>
      match find (fun r => eqb (d_source (r_data r)) (Some src)) (mget ref (rs_mem (ct_rs c))) with
      | Some r => let '(c', x) := cat_delete root hash c r ds dc in (c', match x with KOk _ => KOk "" | KErr e => KErr e end)
      | None => (with_rs c (fst (foreign (ct_rs c) ref (plain src))), KErr (KResolver RKeyError))
      end
  | CIndex src prio force day => index_source root hash mk c src prio force day
  | CDownload fetch url md5 force => download root hash digest c fetch url md5 force true
  | CForeground path ref => let '(c', x) := create_foreground root local_ref c path ref in
                            (c', match x with KOk r => KOk (r_ref r) | KErr e => KErr e end)
  end.
Fixpoint crun (c : cat) (h : list cop) : cat := match h with [] => c | o :: t => crun (fst (cexec c o)) t end.
Definition cop_ok (o : cop) : Prop := match o with CRes o => op_ok o | _ => True end.

(** ** The resolver stays in step (C56) *)
Definition good_cat (c : cat) : Prop :=
  (exists m, tracks (ct_rs c) m) /\ fs_ok c
  /\ (forall s, ~ In (inx s) (ct_dirs c)) /\ (forall u, ~ In (download_path root hash u) (ct_dirs c)).

Lemma inx_abs src : isabs (inx src) = true.
Proof. unfold inx, index_file. apply join_abs, join_abs, Hroot. Qed.
Lemma name_rel s : isabs (hash s ++ ".json.gz")%string = false.
Proof. apply isabs_cat; [apply Hname|reflexivity]. Qed.
Lemma inx_path src : inx src = (root_ root ++ "index" ++ "/" ++ (hash src ++ ".json.gz"))%string.
Proof. unfold inx, index_file. apply join2; [exact Hroot|exact in_index|apply name_rel]. Qed.
Lemma inx_inj s t : inx s = inx t -> s = t.
Proof.
  rewrite !inx_path. intros E. apply sapp_inj, sapp_inj, sapp_inj in E. apply Hinj.
  revert E. generalize (hash s) (hash t). intros a. induction a as [|x a IH]; intros [|y b] E; cbn in E; try reflexivity.
  - injection E as Ex E. exfalso. apply (f_equal String.length) in E. rewrite slen_app in E. cbn in E. lia.
  - injection E as Ex E. exfalso. apply (f_equal String.length) in E. rewrite slen_app in E. cbn in E. lia.
  - injection E as -> E. f_equal. apply IH, E.
Qed.
Lemma loc_inj s t : loc s = loc t -> s = t.
Proof. intros E. apply inx_inj. apply (localize_inj root); auto using inx_abs. Qed.
Lemma inx_not_cache s t : inx s <> cache_file root hash t.
Proof.
  rewrite inx_path. unfold cache_file. rewrite (join2 root "cache") by (try exact Hroot; try exact in_cache; apply name_rel).
  intros E. apply sapp_inj in E. discriminate.
Qed.
Lemma inx_not_download s u : inx s <> download_path root hash u.
Proof.
  rewrite inx_path. unfold download_path. rewrite (join2 root "downloads") by (try exact Hroot; try exact in_downloads; apply Hname).
  intros E. apply sapp_inj in E. discriminate.
Qed.

(** A catalog in which the index of [src], if there is one, has one reference: in the file and in every resource for it. *)
Definition one_index (c : cat) (src : string) (ref : string) : Prop :=
  (exists x, dget (inx src) (ct_files c) = Some x /\ f_ref x = ref) /\ forall r, In r (with_source (ct_rs c) (loc src)) -> r_ref r = ref.
Definition no_index (c : cat) (src : string) : Prop :=
  dget (inx src) (ct_files c) = None /\ with_source (ct_rs c) (loc src) = [].

(** Steps that leave the index of [src] alone: it is not made anew by force, nor registered by hand, nor its file
    deleted as the source of a resource. *)
Definition spares (src : string) (o : cop) : Prop :=
  match o with
  | CRes (OAdd _ d _) => d_source d <> Some (loc src)
  | CRes _ => True
  | CDel _ s _ _ => abs_path root s <> inx src
  | CIndex s _ force _ => force = true -> s <> src
  | CDownload _ _ _ _ => True
  | CForeground path _ => (if isabs path then path else join root path) <> inx src
  end.

Lemma refs_with_source s m s' m' L : tracks s m -> tracks s' m' ->
  (forall ref, existsb (has_key ref L) m' = true -> existsb (has_key ref L) m = true) ->
  forall r, In r (with_source s' L) -> exists q, In q (with_source s L) /\ r_ref q = r_ref r.
Proof.
  intros T T' H r I. assert (K : existsb (has_key (r_ref r) L) m' = true) by (apply (with_source_reg s' m' L T'); eauto).
  apply H in K. apply (with_source_reg s m L T) in K. exact K.
Qed.

Lemma sstep_key_add m ref d store L ref' : existsb (has_key ref' L) (fst (sstep m (OAdd ref d store))) = true ->
  existsb (has_key ref' L) m = true \/ (d_source d = Some L /\ ref' = ref).
Proof.
  cbn [sstep]. destruct (d_source d) as [src|]; cbn [fst]; [|auto].
  destruct (existsb (has_key ref src) m); cbn [fst]; [auto|]. rewrite existsb_app. intros H. apply orb_true_iff in H as [H|H]; [auto|].
  cbn [existsb] in H. rewrite orb_false_r in H. apply has_key_spec in H as [H1 H2]. cbn in H1, H2. right. split; congruence.
Qed.
Lemma sstep_key m o L ref' : existsb (has_key ref' L) (fst (sstep m o)) = true ->
  (match o with OAdd _ d _ => d_source d <> Some L | _ => True end) -> existsb (has_key ref' L) m = true.
Proof.
  intros H N. destruct o as [ref d store|ref src|ref d|].
  - apply sstep_key_add in H as [H|[H _]]; [exact H|contradiction].
  - cbn [sstep] in H. destruct (existsb (has_key ref src) m); cbn [fst] in H; [|exact H].
    apply existsb_exists in H as (e & I & K). apply filter_In in I as [I _]. apply existsb_exists; eauto.
  - exact H.
  - cbn [sstep fst] in H. apply existsb_exists in H as (e & I & K). apply filter_In in I as [I _]. apply existsb_exists; eauto.
Qed.
Lemma exec_tracks s m o : tracks s m -> op_ok o -> tracks (fst (exec s o)) (fst (sstep m o)).
Proof.
  intros [W HR] Ok. pose proof (step_refines m s o W HR Ok) as X. destruct (exec s o) as [s' x], (sstep m o) as [m' y].
  destruct X as (_ & W' & R'). split; assumption.
Qed.
Lemma foreign_tracks s m ref d : tracks s m -> tracks (fst (foreign s ref d)) m.
Proof. intros T. exact (exec_tracks s m (ODelForeign ref d) T I). Qed.

(** the resolver after a registration *)
Lemma register_tracks c m ref L prio store x : tracks (ct_rs c) m ->
  tracks (ct_rs (fst (register_index c ref L prio store x))) (fst (sstep m (OAdd ref (index_data L prio) store)))
  /\ snd (register_index c ref L prio store x) = KOk tt
  /\ ct_files (fst (register_index c ref L prio store x)) = ct_files c.
Proof.
  intros T. unfold register_index.
  pose proof (new_resource_tracks (ct_rs c) m ref (index_data L prio) store T ltac:(discriminate) eq_refl) as X.
  destruct (new_resource (ct_rs c) ref (index_data L prio) store) as [s' y] eqn:N.
  destruct (sstep m (OAdd ref (index_data L prio) store)) as [m' z] eqn:E. destruct X as [X1 X2].
  assert (Z : z = ROk tt).
  { cbn [sstep index_data d_source] in E. destruct (existsb _ _); injection E as <- <-; reflexivity. }
  rewrite Z in X1. destruct y as [r|e]; [|discriminate]. cbn. auto.
Qed.
(** What [_index_source] does, in terms of the registered resources. *)
Lemma index_spec c m src prio force day : tracks (ct_rs c) m ->
  let '(c', x) := index_source root hash mk c src prio force day in
  (c' = c /\ x = KErr KStopIteration /\ with_source (ct_rs c) src = [])
  \/ (exists ex l y, c' = c /\ force = false /\ dget (inx src) (ct_files c) = Some y
        /\ with_source (ct_rs c) (loc src) = ex :: l /\ x = KOk (r_ref ex) /\ with_source (ct_rs c) src <> [])
  \/ (exists y p st, x = KOk (f_ref y) /\ ct_files c' = dset (inx src) y (ct_files c)
        /\ (force = false -> dget (inx src) (ct_files c) = None \/ (dget (inx src) (ct_files c) = Some y /\ with_source (ct_rs c) (loc src) = []))
        /\ tracks (ct_rs c') (fst (sstep m (OAdd (f_ref y) (index_data (loc src) p) st))) /\ with_source (ct_rs c) src <> []).
Proof.
  intros T. unfold index_source. destruct (with_source (ct_rs c) src) as [|r0 l0] eqn:WS; [left; auto|].
  assert (Sr : d_source (r_data r0) = Some src).
  { assert (I : In r0 (with_source (ct_rs c) src)) by (rewrite WS; left; reflexivity).
    apply with_source_registered in I. apply I. }
  destruct (exists_ok (ct_rs c) m r0 src T Sr) as [st ->]. fold (inx src). fold (loc src).
  set (p := Z.min prio (d_prio (r_data r0))). set (y := mk (r_data r0) day).
  set (c1 := with_files c (dset (inx src) y (ct_files c))).
  assert (Mk : forall Q, (force = false -> dget (inx src) (ct_files c) = None \/ (dget (inx src) (ct_files c) = Some y /\ with_source (ct_rs c) (loc src) = [])) ->
    (let '(c', x) := match register_index c1 (f_ref y) (loc src) p st y with
              | (c2, KOk _) => (c2, KOk (f_ref y)) | (c2, KErr e) => (c2, KErr e) end in
     Q \/ (exists y p st, x = KOk (f_ref y) /\ ct_files c' = dset (inx src) y (ct_files c)
        /\ (force = false -> dget (inx src) (ct_files c) = None \/ (dget (inx src) (ct_files c) = Some y /\ with_source (ct_rs c) (loc src) = []))
        /\ tracks (ct_rs c') (fst (sstep m (OAdd (f_ref y) (index_data (loc src) p) st))) /\ r0 :: l0 <> []))).
  { intros Q H. pose proof (register_tracks c1 m (f_ref y) (loc src) p st y T) as X.
    destruct (register_index c1 (f_ref y) (loc src) p st y) as [c2 [u|e]]; cbn [fst snd] in X; destruct X as (X1 & X2 & X3); [|discriminate].
    right. exists y, p, st. split; [reflexivity|]. split; [exact X3|]. split; [exact H|]. split; [exact X1|discriminate]. }
  destruct (dget (inx src) (ct_files c)) as [x|] eqn:D.
  - destruct force.
    + specialize (Mk (exists ex l y0, c1 = c1 /\ True /\ ex :: l = with_source (ct_rs c) src /\ y0 = x /\ False) ltac:(discriminate)).
      destruct (register_index c1 (f_ref y) (loc src) p st y) as [c2 [u|e]]; destruct Mk as [(? & ? & ? & _ & _ & _ & _ & [])|Mk];
      right; right; exact Mk.
    + destruct (with_source (ct_rs c) (loc src)) as [|ex l] eqn:WL.
      * pose proof (register_tracks c m (f_ref x) (loc src) p st x T) as X.
        destruct (register_index c (f_ref x) (loc src) p st x) as [c2 [u|e]]; cbn [fst snd] in X; destruct X as (X1 & X2 & X3); [|discriminate].
        right. right. exists x, p, st. split; [reflexivity|]. split.
        { rewrite X3. symmetry. apply dset_same, D. }
        split; [right; split; reflexivity|]. split; [exact X1|discriminate].
      * right. left. exists ex, l, x. repeat split; try reflexivity. discriminate.
  - specialize (Mk False ltac:(left; reflexivity)).
    destruct (register_index c1 (f_ref y) (loc src) p st y) as [c2 [u|e]]; destruct Mk as [[]|Mk]; right; right; exact Mk.
Qed.

(** One step: the resolver's step, and what it does to the index file of [src]. *)
Lemma step_spec c m o : tracks (ct_rs c) m -> fs_ok c -> cop_ok o ->
  exists m', tracks (ct_rs (fst (cexec c o))) m' /\ ct_dirs (fst (cexec c o)) = ct_dirs c
    /\ forall src, spares src o -> (forall p f d, o <> CIndex src p f d) ->
         dget (inx src) (ct_files (fst (cexec c o))) = dget (inx src) (ct_files c)
         /\ forall ref, existsb (has_key ref (loc src)) m' = true -> existsb (has_key ref (loc src)) m = true.
Proof.
  intros T FS Ok. destruct o as [o|ref src0 ds dc|src0 prio force day|fetch url md5 force|path ref].
  - exists (fst (sstep m o)). cbn [cexec]. pose proof (exec_tracks _ m o T Ok) as X. destruct (exec (ct_rs c) o) as [s x]. cbn [fst ct_rs ct_dirs ct_files] in *.
    split; [exact X|]. split; [reflexivity|]. intros src Sp _. split; [reflexivity|]. intros ref H. apply (sstep_key m o _ _ H).
    destruct o; exact Sp || exact I.
  - cbn [cexec]. destruct (find _ (mget ref (rs_mem (ct_rs c)))) as [r|] eqn:F.
    + exists (fst (sstep m (ODel ref src0))). pose proof (exec_tracks _ m (ODel ref src0) T I) as X. cbn [exec] in X. rewrite F in X.
      pose proof (C128_delete_resolver root hash c r ds dc) as (Y & _). pose proof (C128_delete_files root hash c r ds dc FS) as Z.
      destruct (cat_delete root hash c r ds dc) as [c' x]. cbn [fst] in *. rewrite Y. split; [exact X|]. destruct Z as (Z1 & Z2 & Z3).
      split; [exact Z1|]. intros src Sp _. split.
      * destruct (dget (inx src) (ct_files c')) as [v|] eqn:E; [symmetry; auto|].
        destruct (dget (inx src) (ct_files c)) as [v|] eqn:E0; [|reflexivity]. exfalso.
        assert (P : dget (inx src) (ct_files c) <> None) by congruence. apply (Z3 _ P) in E as (_ & s & Es & _ & _ & _ & Q).
        apply find_some in F as [_ F]. apply (proj1 (eqb_eq _ _)) in F. rewrite Es in F. injection F as ->. cbn [spares] in Sp.
        destruct Q as [[Q _]|[_ [Q|Q]]]; [congruence|exact (inx_not_cache _ _ Q)..].
      * intros rf H. exact (sstep_key m (ODel ref src0) _ _ H I).
    + exists m. cbn [fst with_rs ct_rs ct_dirs ct_files]. split; [apply foreign_tracks, T|]. split; [reflexivity|]. intros; split; auto.
  - cbn [cexec]. pose proof (index_spec c m src0 prio force day T) as X. destruct (index_source root hash mk c src0 prio force day) as [c' x] eqn:IS.
    cbn [fst]. destruct X as [(-> & _)|[(ex & l & y & -> & _)|(y & p & st & _ & Xf & _ & Xt & _)]].
    + exists m. split; [exact T|]. split; [reflexivity|]. intros; split; auto.
    + exists m. split; [exact T|]. split; [reflexivity|]. intros; split; auto.
    + eexists. split; [exact Xt|]. split.
      * clear -IS. unfold index_source, register_index in IS.
        destruct (with_source (ct_rs c) src0); [injection IS as <- _; reflexivity|].
        destruct (exists_in _ _); [|injection IS as <- _; reflexivity].
        destruct (dget _ (ct_files c)); [destruct force; [|destruct (with_source (ct_rs c) _); [|injection IS as <- _; reflexivity]]|];
        destruct (new_resource _ _ _ _) as [? [?|?]]; injection IS as <- _; reflexivity.
      * intros src Sp Ne. assert (N : src <> src0) by (intros ->; exact (Ne prio force day eq_refl)). split.
        { rewrite Xf. apply dget_dset_other. intros E. apply N, inx_inj, E. }
        intros rf H. apply sstep_key_add in H as [H|[H _]]; [exact H|]. exfalso. cbn in H. injection H as H. apply N, loc_inj. symmetry. exact H.
  - exists m. cbn [cexec]. unfold download. destruct (_ && _); [split; [exact T|]; split; [reflexivity|]; intros; split; auto|].
    assert (D : forall src v, dget (inx src) (dset (download_path root hash url) v (ct_files c)) = dget (inx src) (ct_files c)).
    { intros src v. apply dget_dset_other. apply inx_not_download. }
    destruct (t_done fetch); cbn [negb]; [destruct md5 as [md|]; [destruct (String.eqb _ _)|]|];
      cbn [fst with_files ct_rs ct_dirs ct_files]; (split; [exact T|]; split; [reflexivity|]; intros; split; [apply D|auto]).
  - cbn [cexec]. unfold create_foreground. destruct (_ && _).
    { exists m. cbn [fst]. split; [exact T|]. split; [reflexivity|]. intros; split; auto. }
    set (pp := if isabs path then path else join root path). set (rf := match ref with Some r => r | None => local_ref pp end).
    destruct (with_source (ct_rs c) (localize root pp)) eqn:W.
    2:{ exists m. cbn [fst]. split; [exact T|]. split; [reflexivity|]. intros; split; auto. }
    pose proof (new_resource_tracks (ct_rs c) m rf (foreground_data (localize root pp)) true T ltac:(discriminate) eq_refl) as X.
    destruct (new_resource (ct_rs c) rf _ true) as [s x]. destruct (sstep m _) as [m' z] eqn:E. destruct X as [_ X].
    exists m'. assert (A : isabs pp = true).
    { unfold pp. destruct (isabs path) eqn:A; [exact A|]. apply join_abs, Hroot. }
    assert (G : forall src, pp <> inx src -> forall rf', existsb (has_key rf' (loc src)) m' = true -> existsb (has_key rf' (loc src)) m = true).
    { intros src N rf' H. assert (H' : existsb (has_key rf' (loc src)) (fst (sstep m (OAdd rf (foreground_data (localize root pp)) true))) = true) by (rewrite E; exact H).
      apply sstep_key_add in H' as [H'|[H' _]]; [exact H'|]. exfalso. cbn in H'. injection H' as H'. apply N. apply (localize_inj root); [exact A|apply inx_abs|exact H']. }
    destruct x; cbn [fst with_rs ct_rs ct_dirs ct_files]; (split; [exact X|]; split; [reflexivity|]; intros src Sp _; split; [reflexivity|apply G, Sp]).
Qed.

Lemma good_files_dirs c c' : ct_dirs c' = ct_dirs c -> fs_ok c ->
  (forall p, dget p (ct_files c') <> None -> dget p (ct_files c) <> None \/ ~ In p (ct_dirs c)) -> fs_ok c'.
Proof. intros D FS H p P. rewrite D. destruct (H p P) as [Q|Q]; [apply FS, Q|exact Q]. Qed.

Lemma step_files c m o p : tracks (ct_rs c) m -> fs_ok c -> dget p (ct_files (fst (cexec c o))) <> None ->
  dget p (ct_files c) <> None \/ (exists s, p = inx s) \/ (exists u, p = download_path root hash u).
Proof.
  intros T FS. destruct o as [o|ref src0 ds dc|src0 prio force day|fetch url md5 force|path ref]; cbn [cexec].
  - destruct (exec (ct_rs c) o) as [s x]. cbn. auto.
  - destruct (find _ _) as [r|]; [|cbn; auto]. pose proof (C128_delete_files root hash c r ds dc FS) as Z.
    destruct (cat_delete root hash c r ds dc) as [c' x]. destruct Z as (_ & Z & _). cbn [fst] in *. intros P. left. destruct (dget p (ct_files c')) eqn:E; [|congruence].
    rewrite (Z _ _ E). discriminate.
  - pose proof (index_spec c m src0 prio force day T) as X. destruct (index_source root hash mk c src0 prio force day) as [c' x].
    cbn [fst]. destruct X as [(-> & _)|[(ex & l & y & -> & _)|(y & pr & st & _ & Xf & _)]]; auto. rewrite Xf, dget_dset.
    destruct (eqb_spec p (inx src0)); eauto.
  - unfold download. destruct (_ && _); [auto|].
    destruct (t_done fetch); cbn [negb]; [destruct md5 as [md|]; [destruct (String.eqb _ _)|]|];
      cbn [fst with_files ct_files]; rewrite dget_dset; (destruct (eqb_spec p (download_path root hash url)); eauto).
  - unfold create_foreground. destruct (_ && _); [auto|]. destruct (with_source _ _); [|auto].
    destruct (new_resource _ _ _ _) as [s [r|e]]; cbn; auto.
Qed.

(** Every history keeps a catalog in order. *)
Lemma step_good c o : good_cat c -> cop_ok o -> good_cat (fst (cexec c o)).
Proof.
  intros ((m & T) & FS & Di & Dd) Ok. destruct (step_spec c m o T FS Ok) as (m' & T' & D & _). split; [eauto|].
  assert (F : fs_ok (fst (cexec c o))).
  { apply (good_files_dirs c); [exact D|exact FS|]. intros p P. destruct (step_files c m o p T FS P) as [Q|[[s ->]|[u ->]]]; auto. }
  split; [exact F|]. rewrite D. split; assumption.
Qed.

Lemma coherent_step c o src ref : good_cat c -> cop_ok o -> spares src o -> one_index c src ref ->
  one_index (fst (cexec c o)) src ref
  /\ (forall p f d, o = CIndex src p f d -> forall ref', snd (cexec c o) = KOk ref' -> ref' = ref).
Proof.
  intros ((m & T) & FS & _) Ok Sp ((x & Dx & Ex) & One).
  assert (Ones : forall rf, existsb (has_key rf (loc src)) m = true -> rf = ref).
  { intros rf K. apply (with_source_reg (ct_rs c) m _ T) in K as (r & I & <-). apply One, I. }
  destruct (step_spec c m o T FS Ok) as (m' & T' & _ & G).
  assert (Dec : (exists p f d, o = CIndex src p f d) \/ (forall p f d, o <> CIndex src p f d)).
  { destruct o as [| |s p f d| |]; try (right; intros; discriminate). destruct (eqb_spec s src) as [->|N]; [left; eauto|].
    right. intros p' f' d' E. injection E as E _ _ _. contradiction. }
  destruct Dec as [(p & f & d & ->)|Ne].
  2:{ split; [|intros p f d E; elim (Ne p f d E)]. destruct (G src Sp Ne) as [G1 G2]. split; [exists x; rewrite G1; auto|].
      intros r I. apply Ones, G2. apply (with_source_reg _ m' _ T'). eauto. }
  clear G T'. cbn [spares] in Sp. assert (f = false) by (destruct f; [elim (Sp eq_refl eq_refl)|reflexivity]). subst f.
  cbn [cexec]. pose proof (index_spec c m src p false d T) as X. destruct (index_source root hash mk c src p false d) as [c' y].
  cbn [fst snd]. destruct X as [(-> & -> & _)|[(ex & l & y' & -> & _ & _ & W & -> & _)|(y' & p' & st & -> & Xf & Xd & Xt & _)]].
  - split; [split; eauto|]. intros. discriminate.
  - split; [split; eauto|]. intros _ _ _ _ ref' E. injection E as <-. apply One. rewrite W. left. reflexivity.
  - destruct (Xd eq_refl) as [Q|[Q _]]; rewrite Q in Dx; [discriminate|]. injection Dx as ->.
    assert (O : one_index c' src ref).
    { split.
      - exists x. split; [|exact Ex]. rewrite Xf. apply dget_dset_same.
      - intros r I. assert (K : existsb (has_key (r_ref r) (loc src)) (fst (sstep m (OAdd (f_ref x) (index_data (loc src) p') st))) = true).
        { apply (with_source_reg _ _ _ Xt). eauto. }
        apply sstep_key_add in K as [K|[_ K]]; [apply Ones, K|]. rewrite K. exact Ex. }
    split; [exact O|]. intros _ _ _ _ ref' E. injection E as <-. exact Ex.
Qed.

(** The first index of a source. *)
Lemma first_index c src prio day : good_cat c -> no_index c src ->
  let '(c', x) := index_source root hash mk c src prio false day in
  match x with
  | KOk ref => one_index c' src ref /\ exists d, (exists r, registered_in c r /\ d_source (r_data r) = Some src /\ r_data r = d) /\ ref = f_ref (mk d day)
                 /\ dget (inx src) (ct_files c') = Some (mk d day)
  | KErr e => e = KStopIteration /\ c' = c
  end.
Proof.
  intros ((m & T) & FS & _) (Nf & Nr). pose proof (index_spec c m src prio false day T) as X.
  unfold index_source in *. destruct (with_source (ct_rs c) src) as [|r0 l0] eqn:WS; [split; reflexivity|].
  assert (Sr : registered_in c r0 /\ d_source (r_data r0) = Some src).
  { apply with_source_registered. rewrite WS. left. reflexivity. }
  destruct (exists_ok (ct_rs c) m r0 src T (proj2 Sr)) as [st E]. rewrite E in *. fold (inx src) in *. fold (loc src) in *. rewrite Nf in *.
  set (y := mk (r_data r0) day) in *. set (c1 := with_files c (dset (inx src) y (ct_files c))) in *. set (p := Z.min prio _) in *.
  pose proof (register_tracks c1 m (f_ref y) (loc src) p st y T) as (X1 & X2 & X3).
  destruct (register_index c1 (f_ref y) (loc src) p st y) as [c2 [u|e]]; cbn [fst snd] in *; [|discriminate]. split.
  - split; [exists y; split; [rewrite X3; apply dget_dset_same|reflexivity]|]. intros r I.
    assert (K : existsb (has_key (r_ref r) (loc src)) (fst (sstep m (OAdd (f_ref y) (index_data (loc src) p) st))) = true).
    { apply (with_source_reg _ _ _ X1). eauto. }
    apply sstep_key_add in K as [K|[_ K]]; [|exact K]. rewrite (proj1 (with_source_nil _ m _ T) Nr) in K. discriminate.
  - exists (r_data r0). split; [exists r0; tauto|]. split; [reflexivity|]. rewrite X3. apply dget_dset_same.
Qed.
End Index.

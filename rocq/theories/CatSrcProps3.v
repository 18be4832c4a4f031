(** C128, part 3: theorems on indices, downloads and foregrounds. *)
From Coq Require Import String Ascii ZArith.
From Verif Require Import Base PyStr ResModel ResProps ResHistProps CatSrcModel CatSrcProofs CatSrcProps CatSrcProps2.
Open Scope string_scope.
Open Scope nat_scope.
Open Scope list_scope.
Local Arguments eqb : simpl never.
Local Arguments Ascii.eqb : simpl never.
Local Arguments String.eqb : simpl never.

(** A resource that is registered as the first for its source is the one that is found for it. *)
Lemma new_resource_first s m ref d store src : tracks s m -> with_source s src = [] -> d_source d = Some src -> d_filetype d = None ->
  exists s' r, new_resource s ref d store = (s', ROk r) /\ r_ref r = ref /\ (r_id r = rs_next s /\ d_internal (r_data r) = d_internal d)
    /\ forall q, In q (with_source s' src) <-> q = r.
Proof.
  intros T N S F. pose proof (proj1 (with_source_nil s m src T) N) as K. destruct T as [W HR].
  unfold new_resource, construct. rewrite S.
  set (d' := RD (Some src) (d_type d) (d_url d) (d_filetype d) (norm_ifaces (d_ifaces d)) (d_prio d) (d_static d) (d_internal d) (d_other d)).
  set (r := Res (rs_next s) ref d'). set (s0 := RS (rs_mem s) (rs_disk s) (Datatypes.S (rs_next s))).
  assert (HR0 : R m s0).
  { destruct HR as [A B C D E G H]. constructor; auto. cbn. rewrite Forall_forall in *. intros i I. specialize (E i I). lia. }
  assert (Sr : d_source (r_data r) = Some src) by reflexivity.
  assert (X : existsb (fun e => has_key (r_ref r) src e && se_stored e) m = false).
  { apply not_true_iff_false. intros B. apply existsb_exists in B as (e & I & B). apply andb_true_iff in B as [B _].
    assert (Z : existsb (has_key (r_ref r) src) m = true) by (apply existsb_exists; eauto). rewrite K in Z. discriminate. }
  unfold add_resource. rewrite (exists_in_spec m s0 r src W HR0 Sr), X.
  destruct (has_resource_spec m s0 r src W HR0 Sr) as (mm & -> & Mg & NDk & _). rewrite K.
  change (r_ref r) with ref. cbv zeta iota.
  assert (G : forall dk nx q, In q (with_source (RS (dset ref (mget ref (rs_mem (RS mm (rs_disk s0) (rs_next s0))) ++ [r]) mm) dk nx) src) <-> q = r).
  { intros dk nx q. rewrite with_source_In by (apply NoDup_dset, NDk). cbn [rs_mem]. split.
    - intros (ref' & I & E). rewrite mget_dset in I. destruct (eqb_spec ref' ref) as [_|_].
      + apply in_app_iff in I as [I|[<-|[]]]; [|reflexivity]. rewrite Mg in I. exfalso.
        assert (J : In q (with_source s src)) by (apply (with_source_In s src q (R_nd _ _ HR)); eauto). rewrite N in J. destruct J.
      + rewrite Mg in I. exfalso.
        assert (J : In q (with_source s src)) by (apply (with_source_In s src q (R_nd _ _ HR)); eauto). rewrite N in J. destruct J.
    - intros ->. exists ref. rewrite mget_dset, eqb_refl. split; [apply in_app_iff; right; left; reflexivity|exact Sr]. }
  destruct store.
  - unfold write_to_file.
    assert (WC : exists l, write_content (rs_disk (RS mm (rs_disk s0) (rs_next s0))) r = ROk l).
    { cbn [rs_disk]. unfold write_content. pose proof (disk_sourced _ _ ref W HR0) as Fs. unfold entries in Fs. cbn [s0 rs_disk] in *.
      change (r_ref r) with ref. destruct (dget ref (rs_disk s)) as [[l|]|] eqn:D; [|cbn; eauto|eauto].
      rewrite (filter_res_ok _ (fun k => negb (eqb (d_source k) (Some src)))); [eauto|].
      intros k I. rewrite Forall_forall in Fs. rewrite matches_src; [rewrite Sr; reflexivity|unfold has_source; congruence|auto]. }
    destruct WC as [l ->]. eexists _, r. split; [reflexivity|]. split; [reflexivity|]. split; [split; reflexivity|]. apply G.
  - eexists _, r. split; [reflexivity|]. split; [reflexivity|]. split; [split; reflexivity|]. apply G.
Qed.

Section Theorems.
Variable root : string.
Variable hash : string -> string.
Variable mk : rdata -> nat -> content.
Variable digest : string -> string.
Variable local_ref : string -> string.
Hypothesis Hroot : isabs root = true.
Hypothesis Hname : forall s, isabs (hash s) = false.
Hypothesis Hinj : forall s t, hash s = hash t -> s = t.
Notation inx := (index_file root hash).
Notation loc src := (localize root (index_file root hash src)).
Notation exec := (cexec root hash mk digest local_ref).
Notation runs := (crun root hash mk digest local_ref).
Notation index := (index_source root hash mk).

(** A new catalog on a file system; its directories for indices and downloads hold no directories. *)
Definition new_cat (n : nat) (files : dict string content) (dirs : list string) : cat := Cat (RS [] [] n) files dirs [].
Definition usable (files : dict string content) (dirs : list string) : Prop :=
  (forall p, dget p files <> None -> ~ In p dirs) /\ (forall s, ~ In (inx s) dirs) /\ (forall u, ~ In (download_path root hash u) dirs).

Lemma new_good n files dirs : usable files dirs -> good_cat root hash (new_cat n files dirs).
Proof.
  intros (A & B & C). split; [exists []; apply init_R|]. split; [exact A|]. split; assumption.
Qed.
Lemma run_good h : forall c, good_cat root hash c -> Forall cop_ok h -> good_cat root hash (runs c h).
Proof.
  induction h as [|o h IH]; intros c G F; [exact G|]. inversion F; subst. cbn [crun]. apply IH; [|assumption].
  apply (step_good root hash mk digest local_ref Hroot Hname Hinj); assumption.
Qed.
Lemma run_none h src : forall c, good_cat root hash c -> Forall cop_ok h -> no_index root hash c src ->
  Forall (fun o => spares root hash src o /\ forall p f d, o <> CIndex src p f d) h -> no_index root hash (runs c h) src.
Proof.
  induction h as [|o h IH]; intros c G F N S; [exact N|]. inversion F; subst. inversion S as [|? ? [S1 S2] S3]; subst. cbn [crun].
  apply IH; [|assumption| |assumption]; [apply (step_good root hash mk digest local_ref Hroot Hname Hinj); assumption|].
  destruct G as ((m & T) & FS & _).
  destruct (step_spec root hash mk digest local_ref Hroot Hname Hinj c m o T FS H1) as (m' & T' & _ & Q).
  destruct (Q src S1 S2) as [Q1 Q2]. destruct N as [N1 N2]. split; [rewrite Q1; exact N1|].
  apply (with_source_nil _ m' _ T'). intros ref. apply not_true_iff_false. intros B. apply Q2 in B.
  rewrite (proj1 (with_source_nil _ m _ T) N2 ref) in B. discriminate.
Qed.
Lemma run_one h src ref : forall c, good_cat root hash c -> Forall cop_ok h -> Forall (spares root hash src) h ->
  one_index root hash c src ref -> one_index root hash (runs c h) src ref.
Proof.
  induction h as [|o h IH]; intros c G F S O; [exact O|]. inversion F; subst. inversion S; subst. cbn [crun].
  apply IH; [apply (step_good root hash mk digest local_ref Hroot Hname Hinj)| | |apply (coherent_step root hash mk digest local_ref Hroot Hname Hinj)]; assumption.
Qed.

(** The reference of an index does not change: after whatever went on in the catalog without touching the index of [src], it is
    made on the first call, of the archive of a resource with this source; and whatever goes on then without touching it, a later
    call on any later day, also by a new process, gives the same reference. *)
Theorem C128_index_stable n files dirs h1 src p1 d1 h2 p2 d2 :
  usable files dirs -> dget (inx src) files = None ->
  Forall cop_ok h1 -> Forall (fun o => spares root hash src o /\ forall p f d, o <> CIndex src p f d) h1 ->
  Forall cop_ok h2 -> Forall (spares root hash src) h2 ->
  let c := runs (new_cat n files dirs) h1 in
  forall c1 ref c3 ref',
  index c src p1 false d1 = (c1, KOk ref) ->
  index (runs c1 h2) src p2 false d2 = (c3, KOk ref') ->
  ref' = ref /\ exists r, registered_in c r /\ d_source (r_data r) = Some src /\ ref = f_ref (mk (r_data r) d1).
Proof.
  intros U Nf F1 S1 F2 S2 c c1 ref c3 ref' E1 E2.
  assert (G : good_cat root hash c) by (apply run_good; [apply new_good, U|exact F1]).
  assert (N : no_index root hash c src).
  { apply run_none; [apply new_good, U|exact F1| |exact S1]. split; [exact Nf|reflexivity]. }
  pose proof (first_index root hash mk digest local_ref c src p1 d1 G N) as X. rewrite E1 in X. destruct X as (O & d & (r & Ir & Sr & <-) & Er & _).
  assert (G1 : good_cat root hash c1).
  { pose proof (step_good root hash mk digest local_ref Hroot Hname Hinj c (CIndex src p1 false d1) G I) as Y. cbn [cexec] in Y. rewrite E1 in Y. exact Y. }
  assert (O2 : one_index root hash (runs c1 h2) src ref) by (apply run_one; assumption).
  assert (G2 : good_cat root hash (runs c1 h2)) by (apply run_good; assumption).
  destruct (coherent_step root hash mk digest local_ref Hroot Hname Hinj (runs c1 h2) (CIndex src p2 false d2) src ref G2 I ltac:(cbn; discriminate) O2) as [_ Z].
  split; [|eauto]. apply (Z _ _ _ eq_refl). cbn [cexec]. rewrite E2. reflexivity.
Qed.

(** The first index: one resource for it, which answers with what is in the file; calling again changes nothing. *)
Theorem C128_index_made c src prio day c1 ref :
  good_cat root hash c -> no_index root hash c src ->
  index c src prio false day = (c1, KOk ref) ->
  (exists r, (forall q, In q (with_source (ct_rs c1) (loc src)) <-> q = r) /\ r_ref r = ref /\ d_internal (r_data r) = true
      /\ archive_of root c1 r = dget (inx src) (ct_files c1) /\ archive_of root c1 r <> None)
  /\ (forall prio' day', index c1 src prio' false day' = (c1, KOk ref)).
Proof.
  intros G N E. pose proof G as ((m & T) & _).
  pose proof (index_spec root hash mk c m src prio false day T) as X. rewrite E in X.
  destruct X as [(_ & X & _)|[(ex & l & y & _ & _ & X & _)|(y & p & st & X & Xf & _ & Xt & Ws)]];
    [discriminate|rewrite (proj1 N) in X; discriminate|]. injection X as Er.
  assert (A : exists r, (forall q, In q (with_source (ct_rs c1) (loc src)) <-> q = r) /\ r_ref r = ref /\ archive_of root c1 r = Some y /\ d_internal (r_data r) = true).
  { unfold index_source in E. destruct (with_source (ct_rs c) src) as [|r0 l0] eqn:WS; [discriminate|].
    assert (Sr : In r0 (with_source (ct_rs c) src)) by (rewrite WS; left; reflexivity). apply with_source_registered in Sr as [_ Sr].
    destruct (exists_ok (ct_rs c) m r0 src T Sr) as [st0 B]. rewrite B in E. rewrite (proj1 N) in E.
    unfold register_index in E. cbn [with_files ct_rs ct_files ct_dirs ct_live] in E.
    match type of E with context [new_resource (ct_rs c) ?rf ?dd ?s0] =>
      destruct (new_resource_first (ct_rs c) m rf dd s0 (loc src) T (proj2 N) eq_refl eq_refl) as (s' & r & Q & Q1 & (Q2 & Qi) & Q3) end.
    rewrite Q in E. injection E as <- <-. cbn [ct_files ct_rs ct_live] in *. exists r. split; [exact Q3|]. split; [exact Q1|].
    split; [|exact Qi]. unfold archive_of. cbn [ct_live]. rewrite Q2, dget_dset_same. f_equal.
    apply (f_equal (dget (inx src))) in Xf. rewrite !dget_dset_same in Xf. injection Xf as ->. reflexivity. }
  destruct A as (r & A1 & A2 & A3 & A4). split.
  - exists r. split; [exact A1|]. split; [exact A2|]. split; [exact A4|]. rewrite A3, Xf, dget_dset_same. split; [reflexivity|discriminate].
  - intros prio' day'. unfold index_source.
    destruct (with_source (ct_rs c1) src) as [|q l] eqn:W1.
    + exfalso. destruct (with_source (ct_rs c) src) as [|r0 l0] eqn:WS; [elim (Ws eq_refl)|].
      assert (K : existsb (has_key (r_ref r0) src) m = true).
      { apply (with_source_reg (ct_rs c) m src T). exists r0. rewrite WS. split; [left|]; reflexivity. }
      assert (K' : existsb (has_key (r_ref r0) src) (fst (sstep m (OAdd (f_ref y) (index_data (loc src) p) st))) = true).
      { cbn [sstep index_data d_source]. destruct (existsb (has_key (f_ref y) _) m); cbn [fst]; [exact K|]. rewrite existsb_app, K. reflexivity. }
      rewrite (proj1 (with_source_nil _ _ _ Xt) W1) in K'. discriminate.
    + assert (Sq : In q (with_source (ct_rs c1) src)) by (rewrite W1; left; reflexivity). apply with_source_registered in Sq as [_ Sq].
      destruct (exists_ok (ct_rs c1) _ q src Xt Sq) as [st1 ->]. rewrite Xf, dget_dset_same.
      destruct (with_source (ct_rs c1) (loc src)) as [|q' l'] eqn:W2.
      * exfalso. assert (J : In r []) by (apply A1; reflexivity). destruct J.
      * assert (J : q' = r) by (apply A1; left; reflexivity). subst q'. rewrite A2. reflexivity.
Qed.

(** Deleting the resource of an index takes the index file with it, so that the next call makes a new one. *)
Theorem C128_index_deleted c src r ds dc c' :
  fs_ok c -> d_source (r_data r) = Some (loc src) -> d_internal (r_data r) = true -> ds <> Some false ->
  cat_delete root hash c r ds dc = (c', KOk tt) ->
  (forall q, registered_in c' q -> d_source (r_data q) <> Some (loc src)) ->
  no_index root hash c' src.
Proof.
  intros FS S Int Ds E Hq. pose proof (C128_delete_files root hash c r ds dc FS) as H. rewrite E in H. destruct H as (_ & H1 & H2).
  assert (A : abs_path root (loc src) = inx src).
  { apply localize_back. apply (inx_abs root hash Hroot). }
  split.
  - destruct (dget (inx src) (ct_files c)) as [v|] eqn:D.
    + apply H2; [congruence|]. split; [reflexivity|]. exists (loc src). rewrite A. split; [exact S|]. split; [congruence|].
      split; [exact Ds|]. split; [exact Hq|]. left. split; [reflexivity|left; exact Int].
    + destruct (dget (inx src) (ct_files c')) as [v|] eqn:D'; [|reflexivity]. exfalso. rewrite (H1 _ _ D') in D. discriminate.
  - destruct (with_source (ct_rs c') (loc src)) as [|q l] eqn:W; [reflexivity|]. exfalso.
    assert (I : In q (with_source (ct_rs c') (loc src))) by (rewrite W; left; reflexivity).
    apply with_source_registered in I as [I1 I2]. exact (Hq q I1 I2).
Qed.

(** A download: a file that is there is used as it is; otherwise what was transferred, completely and with the digest asked for.
    No other file is touched.  [partial]: that a file which is there has the digest asked for is refuted below. *)
Theorem C128_download_partial c fetch url md5 force lc c' p :
  download root hash digest c fetch url md5 force lc = (c', KOk p) ->
  abs_path root p = download_path root hash url
  /\ (forall q, q <> download_path root hash url -> dget q (ct_files c') = dget q (ct_files c))
  /\ exists v, dget (download_path root hash url) (ct_files c') = Some v
       /\ ((force = false /\ c' = c) \/
           ((force = true \/ dget (download_path root hash url) (ct_files c) = None)
            /\ f_body v = t_body fetch /\ t_done fetch = true /\ forall m, md5 = Some m -> digest (f_body v) = m)).
Proof.
  intros E. assert (A : isabs (download_path root hash url) = true) by (apply join_abs, join_abs, Hroot).
  assert (P : abs_path root (if lc then localize root (download_path root hash url) else download_path root hash url) = download_path root hash url).
  { destruct lc; [apply localize_back, A|]. unfold abs_path. rewrite A. reflexivity. }
  unfold download in E. destruct (isfile c (download_path root hash url) && negb force) eqn:G.
  - injection E as <- <-. split; [exact P|]. split; [auto|]. apply andb_true_iff in G as [G1 G2]. apply isfile_spec in G1.
    destruct (dget (download_path root hash url) (ct_files c)) as [v|]; [|congruence]. exists v. split; [reflexivity|]. left.
    split; [destruct force; [discriminate|]|]; reflexivity.
  - assert (Fr : force = true \/ dget (download_path root hash url) (ct_files c) = None).
    { destruct force; [left; reflexivity|right]. rewrite andb_true_r in G. unfold isfile, din in G. destruct (dget _ (ct_files c)); [discriminate|reflexivity]. }
    destruct (t_done fetch) eqn:Td; cbn [negb] in E; [|discriminate].
    assert (Q : c' = with_files c (dset (download_path root hash url) (Content "" (t_body fetch)) (ct_files c))
                /\ p = (if lc then localize root (download_path root hash url) else download_path root hash url)
                /\ forall m, md5 = Some m -> digest (t_body fetch) = m).
    { destruct md5 as [m|]; [destruct (String.eqb_spec (digest (t_body fetch)) m); [|discriminate]|];
        injection E as <- <-; repeat split; congruence. }
    destruct Q as (-> & -> & Q). split; [exact P|]. split; [intros q N; cbn; apply dget_dset_other, N|].
    eexists. split; [cbn; apply dget_dset_same|]. right. cbn. auto.
Qed.

(** A foreground is one resource, whether named by its directory in the catalog or by its path, however often it is asked for. *)
Theorem C128_foreground_once c path ref c1 r path' ref' :
  good_cat root hash c ->
  create_foreground root local_ref c path ref = (c1, KOk r) ->
  (isabs path' = true \/ has_sep path' = false) ->
  (if isabs path' then path' else join root path') = (if isabs path then path else join root path) ->
  create_foreground root local_ref c1 path' ref' = (c1, KOk r).
Proof.
  intros ((m & T) & _) E Ok Same. unfold create_foreground in *.
  destruct (negb (isabs path) && has_sep path); [discriminate|].
  assert (Ok' : negb (isabs path') && has_sep path' = false) by (destruct Ok as [-> | ->]; [reflexivity|apply andb_false_r]).
  rewrite Ok', Same. set (p := if isabs path then path else join root path) in *.
  destruct (with_source (ct_rs c) (localize root p)) as [|q l] eqn:W.
  - match type of E with context [new_resource (ct_rs c) ?rf ?dd true] =>
      destruct (new_resource_first (ct_rs c) m rf dd true (localize root p) T W eq_refl eq_refl) as (s' & r' & Q & _ & _ & Q3) end.
    rewrite Q in E. injection E as <- <-. cbn [with_rs ct_rs].
    destruct (with_source s' (localize root p)) as [|q l] eqn:W'; [exfalso; assert (J : In r' []) by (apply Q3; reflexivity); destruct J|].
    assert (J : q = r') by (apply Q3; left; reflexivity). subst q. reflexivity.
  - injection E as <- <-. rewrite W. reflexivity.
Qed.
End Theorems.
Print Assumptions C128_index_stable.
Print Assumptions C128_index_made.
Print Assumptions C128_index_deleted.
Print Assumptions C128_download_partial.
Print Assumptions C128_foreground_once.

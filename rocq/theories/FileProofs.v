(** Specification and proofs for FileModel. *)
From Coq Require Import String Ascii.
From Verif Require Import Base FileModel.
Open Scope nat_scope.
Open Scope char_scope.
Open Scope list_scope.
Local Arguments eqb : simpl never.

(** ** Specification *)
Definition slashless (f : name) : Prop := ~ In "/" f.
(** Does not start with a slash *)
Definition relative (f : name) : Prop := forall g, f <> "/" :: g.
Definition unslashed (f : name) : Prop := forall g, f <> g ++ ["/"].
(** The folder of a prefix *)
Definition folder (p d : name) : Prop := p = [] /\ d = [] \/ (exists g, p = g ++ ["/"]) /\ d = p \/ p <> [] /\ unslashed p /\ d = p ++ ["/"].
(** The entry [q] is the file [n] below the prefix. *)
Definition under (p : option name) (n q : name) : Prop := match p with None => q = n | Some p => exists d, folder p d /\ q = d ++ n /\ relative n end.
Definition has (s : store) (q : name) : Prop := exists d, In (q, d) (st_entries s).
Definition last_entry (l : list (name * string)) (q : name) (d : string) : Prop := exists pre post, l = pre ++ (q, d) :: post /\ forall d', ~ In (q, d') post.
(** Nothing next to the folder of the prefix has a name that starts like it. *)
Definition no_siblings (s : store) : Prop := forall p q, st_prefix s = Some p -> has s q -> (exists r, q = p ++ r) -> exists n, under (Some p) n q.
(** No empty parts in names *)
Definition normal (f : name) : Prop := relative f /\ forall a b, f <> a ++ "/" :: "/" :: b.
(** Some entry lies in a folder whose name is [q] without its last character (the top folder has the empty name). *)
Definition clashes (s : store) (q : name) : Prop :=
  exists g c, q = g ++ [c] /\ exists e b, has s e /\ slashless b /\ (g = [] /\ e = b \/ g <> [] /\ e = g ++ "/" :: b).

(** ** Paths *)
Lemma sl_spec c : reflect (c = "/") (sl c).
Proof. apply Ascii.eqb_spec. Qed.
Lemma starts_spec p : forall f, starts p f = true <-> exists r, f = p ++ r.
Proof.
  induction p as [|c p IH]; intros [|d f]; cbn; try (split; [eauto|auto]; fail).
  - split; [discriminate|]. intros (r & E). discriminate.
  - destruct (Ascii.eqb_spec c d) as [->|N]; cbn.
    + rewrite IH. split; intros (r & E); exists r; [now f_equal|now inversion E].
    + split; [discriminate|]. intros (r & E). inversion E. congruence.
Qed.
Lemma rmatch_self p : forall r, rmatch p (p ++ r) = Some r.
Proof. induction p as [|c p IH]; intros r; cbn; [auto|]. rewrite Ascii.eqb_refl, orb_true_r. apply IH. Qed.
Lemma ends_slash_spec a : ends_slash a = true <-> exists g, a = g ++ ["/"].
Proof.
  induction a as [|c a IH]; [cbn; split; [discriminate|intros (g & E); destruct g; discriminate]|]. destruct a as [|d a].
  - cbn. destruct (sl_spec c) as [->|N]; split; auto; try discriminate; [intros _; exists []; auto|]. intros (g & E). destruct g as [|x [|y g]]; inversion E; congruence.
  - cbn [ends_slash] in *. rewrite IH. split; intros (g & E).
    + exists (c :: g). cbn. now f_equal.
    + destruct g as [|x g]; inversion E; eauto.
Qed.
Lemma join_folder p : folder p (join p []).
Proof.
  unfold join, folder. destruct p as [|c p]; [auto|]. destruct (ends_slash (c :: p)) eqn:E; right; [left; split; [now apply ends_slash_spec|auto]|right].
  split; [discriminate|]. split; [|auto]. intros g EQ. rewrite (proj2 (ends_slash_spec _) (ex_intro _ g EQ)) in E. discriminate.
Qed.
Lemma folder_fun p d d' : folder p d -> folder p d' -> d = d'.
Proof.
  unfold folder, unslashed. intros [(E & ->) | [((g & E) & ->) | (N & U & ->)]] [(E' & ->) | [((g' & E') & ->) | (N' & U' & ->)]]; auto; subst; try contradiction; try congruence; exfalso; eauto.
Qed.
Lemma join_app p n : relative n -> join p n = join p [] ++ n.
Proof.
  intros R. unfold join. destruct n as [|c n]; [now rewrite app_nil_r|]. destruct (sl_spec c) as [->|N]; [exfalso; apply (R n); auto|].
  destruct p as [|x p]; [auto|]. destruct (ends_slash (x :: p)); [auto|]. now rewrite <- app_assoc.
Qed.
Lemma folder_prefix p d : folder p d -> exists e, d = p ++ e.
Proof. intros [(-> & ->) | [(_ & ->) | (_ & _ & ->)]]; [exists []; auto|exists []; now rewrite app_nil_r|eauto]. Qed.

(** ** Listing and reading *)
Lemma content_in l q d : content l q = Some d -> In (q, d) l.
Proof. induction l as [|(n, x) l IH]; cbn; [discriminate|]. destruct (content l q) as [y|]; [auto|]. destruct (eqb_spec n q) as [->|]; [|discriminate]. intros E; inversion E; auto. Qed.
Lemma content_none l q : content l q = None <-> forall d, ~ In (q, d) l.
Proof.
  induction l as [|(n, x) l IH]; cbn; [split; auto|]. destruct (content l q) as [y|] eqn:E.
  - split; [discriminate|]. intros H. exfalso. apply (H y). right. now apply content_in.
  - destruct (eqb_spec n q) as [->|N]; split; try discriminate; auto.
    + intros H. exfalso. apply (H x). auto.
    + intros _ d [EQ | I]; [inversion EQ; congruence|]. exact (proj1 IH eq_refl d I).
Qed.
Lemma content_spec l q d : content l q = Some d <-> last_entry l q d.
Proof.
  induction l as [|(n, x) l IH]; cbn.
  - split; [discriminate|]. intros (pre & post & E & _). destruct pre; discriminate.
  - destruct (content l q) as [y|] eqn:E.
    + rewrite IH. split.
      * intros (pre & post & -> & H). exists ((n, x) :: pre), post. auto.
      * intros (pre & post & EQ & H). destruct pre as [|z pre]; inversion EQ; subst; [|exists pre, post; auto]. exfalso. apply (H y). now apply content_in.
    + pose proof (proj1 (content_none l q) E) as NI. destruct (eqb_spec n q) as [->|N]; split.
      * intros EQ; inversion EQ; subst. exists [], l. auto.
      * intros (pre & post & EQ & H). destruct pre as [|z pre]; inversion EQ; subst; [auto|]. exfalso. apply (NI d). apply in_app_iff. cbn. auto.
      * discriminate.
      * intros (pre & post & EQ & H). destruct pre as [|z pre]; inversion EQ; subst; [congruence|]. exfalso. apply (NI d). apply in_app_iff. cbn. auto.
Qed.
Lemma has_fst s q : has s q <-> In q (map fst (st_entries s)).
Proof. unfold has. rewrite in_map_iff. split; [intros (d & I); exists (q, d); auto|]. intros ((q', d) & E & I). cbn in E. subst. eauto. Qed.
Lemma under_de s q n : under (st_prefix s) n q -> de_prefix s q = n.
Proof.
  unfold under, de_prefix. destruct (st_prefix s) as [p|]; [|auto]. intros (d & FD & -> & R). rewrite (folder_fun _ _ _ FD (join_folder p)). now rewrite rmatch_self.
Qed.
Lemma under_prefixed s q n : under (st_prefix s) n q -> prefixed s n = q.
Proof.
  unfold under, prefixed. destruct (st_prefix s) as [p|]; [|auto]. intros (d & FD & -> & R). rewrite (folder_fun _ _ _ FD (join_folder p)). now apply join_app.
Qed.
Lemma under_starts s q n : under (st_prefix s) n q -> match st_prefix s with None => true | Some p => starts p q end = true.
Proof.
  unfold under. destruct (st_prefix s) as [p|]; [|auto]. intros (d & FD & -> & R). destruct (folder_prefix _ _ FD) as (e & ->). apply starts_spec. exists (e ++ n). now rewrite app_assoc.
Qed.
Definition hidden (s : store) (q : name) : Prop := st_fmt s = Zip /\ In (removelast q) (subfolders s).
Lemma gen_spec s n : no_siblings s -> (In n (gen_files s) <-> exists q, has s q /\ under (st_prefix s) n q /\ ~ hidden s q).
Proof.
  intros NS. unfold gen_files. rewrite in_map_iff. split.
  - intros (q & E & I). apply filter_In in I as (I & SH). apply has_fst in I. unfold shown in SH. apply andb_true_iff in SH as (SZ & SP).
    assert (U : exists m, under (st_prefix s) m q).
    { destruct (st_prefix s) as [p|] eqn:EP; [|exists q; reflexivity]. apply (NS p q EP I). now apply starts_spec. }
    destruct U as (m & U). exists q. split; [auto|]. split; [now rewrite <- E, (under_de _ _ _ U)|]. intros (Z & H). rewrite Z in SZ. apply negb_true_iff in SZ. pose proof (mem_spec (removelast q : name) (subfolders s)) as M. rewrite SZ in M. inversion M; contradiction.
  - intros (q & H & U & NH). exists q. split; [now apply under_de|]. apply filter_In. split; [now apply has_fst|]. unfold shown. apply andb_true_iff. split; [|now apply under_starts with n].
    destruct (st_fmt s) eqn:Z; [|auto]. apply negb_true_iff. pose proof (mem_spec (removelast q : name) (subfolders s)) as M. destruct (mem (removelast q : name) (subfolders s)); [|auto]. exfalso. apply NH. inversion M. split; auto.
Qed.
Lemma dir_part_app g b : slashless b -> dir_part (g ++ "/" :: b) = g ++ ["/"].
Proof.
  intros SB. assert (B : dir_part b = []).
  { induction b as [|c b IH]; [auto|]. cbn. rewrite IH by (intros I; apply SB; cbn; auto). destruct (sl_spec c) as [->|]; [exfalso; apply SB; cbn; auto|auto]. }
  induction g as [|c g IH]; cbn; [rewrite B; reflexivity|]. rewrite IH. destruct g; reflexivity.
Qed.
Lemma dir_part_none b : slashless b -> dir_part b = [].
Proof. intros SB. induction b as [|c b IH]; [auto|]. cbn. rewrite IH by (intros I; apply SB; cbn; auto). destruct (sl_spec c) as [->|]; [exfalso; apply SB; cbn; auto|auto]. Qed.
Lemma rstrip_unslashed g : unslashed g -> rstrip_slash g = g.
Proof.
  induction g as [|c g IH]; [auto|]. intros U. cbn. destruct g as [|d g].
  - cbn. destruct (sl_spec c) as [->|]; [exfalso; apply (U []); auto|auto].
  - rewrite IH; [auto|]. intros h E. apply (U (c :: h)). cbn. now f_equal.
Qed.
Lemma rstrip_snoc g : rstrip_slash (g ++ ["/"]) = rstrip_slash g.
Proof. induction g as [|c g IH]; cbn; [reflexivity|]. now rewrite IH. Qed.
Lemma all_slash_rev g : forallb sl g = true -> g = [] \/ exists h, g = h ++ ["/"].
Proof.
  destruct g as [|c g] using rev_ind; [auto|]. rewrite forallb_app. cbn. rewrite andb_true_r. intros E. apply andb_true_iff in E as (_ & E). destruct (sl_spec c); [subst; right; eauto|discriminate].
Qed.
Lemma head_in g b : slashless b -> g <> [] -> unslashed g -> head_of (g ++ "/" :: b) = g.
Proof.
  intros SB NE U. unfold head_of. rewrite dir_part_app by auto. rewrite forallb_app. destruct (forallb sl g) eqn:F.
  - exfalso. destruct (all_slash_rev _ F) as [E | (h & E)]; [contradiction|exact (U h E)].
  - cbn [andb]. rewrite rstrip_snoc. now apply rstrip_unslashed.
Qed.
Lemma head_top b : slashless b -> head_of b = [].
Proof. intros SB. unfold head_of. now rewrite dir_part_none. Qed.
Lemma split_last f : slashless f \/ exists g b, f = g ++ "/" :: b /\ slashless b.
Proof.
  induction f as [|c f [S | (g & b & -> & S)]]; [left; intros []| |right; exists (c :: g), b; auto].
  destruct (ascii_dec c "/") as [->|N]; [right; exists [], f; auto|left]. intros [E | I]; [congruence|auto].
Qed.
Lemma normal_parts g b : normal (g ++ "/" :: b) -> g <> [] /\ unslashed g.
Proof.
  intros (R & D). split; [intros ->; exact (R b eq_refl)|]. intros h ->. apply (D h b). now rewrite <- app_assoc.
Qed.
Lemma hidden_clashes s q : st_fmt s = Zip -> (forall e, has s e -> normal e) -> q <> [] -> (hidden s q <-> clashes s q).
Proof.
  intros Z N NE. unfold hidden, clashes. split.
  - intros (_ & I). unfold subfolders in I. apply in_map_iff in I as ((e & d) & E & I). cbn [fst] in E. assert (H : has s e) by (exists d; auto).
    exists (removelast q), (last q "/"). split; [now apply app_removelast_last|]. destruct (split_last e) as [S | (g & b & -> & S)].
    + rewrite head_top in E by auto. exists e, e. rewrite <- E. auto.
    + destruct (normal_parts _ _ (N _ H)) as (NG & U). rewrite head_in in E by auto. exists (g ++ "/" :: b), b. split; [auto|]. split; [auto|]. right. rewrite <- E. auto.
  - intros (g & c & -> & e & b & H & S & C). split; [auto|]. rewrite removelast_last. unfold subfolders. apply in_map_iff. destruct H as (d & I). exists (e, d). split; [|auto]. cbn [fst].
    destruct C as [(-> & ->) | (NG & ->)]; [now apply head_top|]. apply head_in; auto. apply (normal_parts g b). apply N. exists d. auto.
Qed.
Lemma in_filter_dotless i f : ~ In "." i -> (in_filter (Some i) f = true <-> exists r, f = i ++ r).
Proof.
  intros ND. rewrite <- starts_spec. unfold in_filter. revert f. induction i as [|c i IH]; intros f; [split; auto|]. destruct f as [|d f]; cbn [rmatch starts]; [split; discriminate|].
  destruct (Ascii.eqb_spec c ".") as [->|NC]; [exfalso; apply ND; cbn; auto|]. cbn [orb]. destruct (Ascii.eqb c d); [|split; discriminate]. cbn [andb]. apply IH. intros I. apply ND. cbn. auto.
Qed.
Lemma join_nil_join a b : relative b -> b <> [] -> join (join a b) [] = join a [] ++ join b [].
Proof.
  intros R NE. rewrite (join_app a b R). apply (folder_fun (join a [] ++ b)); [apply join_folder|].
  destruct (join_folder b) as [(E & _) | [((g & E) & E2) | (N & U & E2)]]; [contradiction| |].
  - right. left. rewrite E2. split; [|auto]. exists (join a [] ++ g). rewrite E. now rewrite app_assoc.
  - right. right. rewrite E2. split; [intros E; apply app_eq_nil in E as (_ & E); contradiction|]. split; [|now rewrite app_assoc].
    intros g E. destruct b as [|c b _] using rev_ind; [contradiction|]. rewrite app_assoc in E. apply app_inj_tail in E as (_ & ->). apply (U b). auto.
Qed.
Lemma join_relative b n : relative b -> relative n -> relative (join b n).
Proof.
  intros RB RN. rewrite (join_app b n RN). destruct (join_folder b) as [(E & ->) | [(_ & ->) | (N & _ & ->)]]; [auto| |].
  - destruct b as [|c b]; [auto|]. intros g E. inversion E. subst. apply (RB b). auto.
  - destruct b as [|c b]; [contradiction|]. intros g E. inversion E. subst. apply (RB b). auto.
Qed.

(** ** Remote stores *)
(** An address with a final slash and no query *)
Definition plain (r : remote) : Prop := r_query r = None /\ exists p, p <> [] /\ unslashed p /\ r_rest r = p ++ ["/"].
Definition op_store (o : fop) : remote := match o with Create r | Read r _ _ => r end.
Lemma plain_root r : plain r -> cache_root r = r_rest r /\ dir_part (r_rest r) = r_rest r.
Proof.
  intros (_ & p & NE & U & E). unfold cache_root. rewrite E. split; [now rewrite rstrip_snoc, rstrip_unslashed|]. apply (dir_part_app p []). intros [].
Qed.
(** The address of a file, without scheme *)
Definition addr (r : remote) (f : name) : name := r_rest r ++ f.
Section R.
Context (server : nat -> name -> option string).
Record dk (k : disk) : Prop := {
  d_src : forall x d, dget x (k_files k) = Some d -> exists n, n < k_sent k /\ server n x = Some d;
  d_file : forall x, dget x (k_files k) <> None -> is_dir k x = false }.
Lemma is_dir_add k d fs n x : is_dir (Dk (d :: k_dirs k) fs n) x = true -> is_dir k x = true \/ d = x \/ above x d = true.
Proof.
  unfold is_dir. destruct x as [|c x]; [auto|]. cbn [k_dirs existsb]. intros E. apply orb_true_iff in E as [E | E]; [|auto]. apply orb_true_iff in E as [E | E]; [|auto]. destruct (eqb_spec d (c :: x)); [auto|discriminate].
Qed.
Lemma make_dir_props k d k' e : make_dir k d = (k', e) -> dk k -> dk k' /\ k_files k' = k_files k /\ k_sent k' = k_sent k /\ (e = None -> is_dir k' d = true).
Proof.
  unfold make_dir. intros E [S F]. destruct (is_dir k d) eqn:ED; [inversion E; subst; split; [constructor; auto|auto]|].
  destruct (existsb _ _) eqn:EX; inversion E; subst; [split; [constructor; auto|]; split; [auto|]; split; [auto|discriminate]|].
  split; [constructor; auto|].
  - intros x NX. destruct (is_dir _ x) eqn:EI; [|auto]. exfalso. destruct (is_dir_add _ _ _ _ _ EI) as [H | H]; [rewrite F in H by auto; discriminate|].
    rewrite <- not_true_iff_false in EX. apply EX. apply existsb_exists. cbn [k_files] in NX. destruct (dget x (k_files k)) as [v|] eqn:Ex; [|congruence]. exists x. split; [eapply dget_Some_key; eauto|].
    apply orb_true_iff. destruct H as [-> | H]; [left; apply eqb_refl|auto].
  - split; [auto|]. split; [auto|]. intros _. unfold is_dir. destruct d; [auto|]. cbn [k_dirs existsb]. now rewrite eqb_refl.
Qed.
Lemma dk_sent k n : k_sent k <= n -> dk k -> dk (Dk (k_dirs k) (k_files k) n).
Proof. intros L [S F]. constructor; [intros x d E; destruct (S x d E) as (m & A & B); exists m; split; [cbn; lia|auto]|exact F]. Qed.
Lemma open_read_file k x d : dk k -> dget x (k_files k) = Some d -> open_read k x = WOk d.
Proof. intros [S F] E. unfold open_read. rewrite F by congruence. now rewrite E. Qed.
Lemma open_read_ok k x d : open_read k x = WOk d -> dget x (k_files k) = Some d.
Proof. unfold open_read. destruct (is_dir k x); [discriminate|]. destruct (dget x (k_files k)); [congruence|]. destruct (existsb _ _); discriminate. Qed.
Lemma fetch_props r f b k k' res : plain r -> fetch server r f b k = (k', res) -> dk k ->
  dk k' /\ (forall x, x <> addr r f -> dget x (k_files k') = dget x (k_files k)) /\ res <> WErr NotFound /\
  (k_sent k' = k_sent k \/ k_sent k' = S (k_sent k)) /\
  (forall d, res = WOk d -> exists n, n < k_sent k' /\ server n (addr r f) = Some d) /\
  match (if r_cache r && negb b then dget (addr r f) (k_files k) else None) with
  | Some d => k' = k /\ res = WOk d
  | None => forall d, res = WOk d -> server (k_sent k) (addr r f) = Some d /\ k_sent k' = S (k_sent k)
  end /\
  (if r_cache r then match res with WOk d => dget (addr r f) (k_files k') = Some d | WErr _ => k_files k' = k_files k end else k_files k' = k_files k).
Proof.
  intros PL E D. destruct (plain_root r PL) as (CR & DP). pose proof PL as (QN & _). unfold fetch in E. rewrite CR in E. unfold with_query, url_of in E. rewrite QN, DP in E. change (r_rest r ++ f) with (addr r f) in E. set (u := addr r f) in *. cbv zeta in E.
  assert (KEEP : forall e, e <> NotFound -> (k, WErr e) = (k', res) -> (if r_cache r && negb b then dget u (k_files k) else None) = None ->
     dk k' /\ (forall x, x <> u -> dget x (k_files k') = dget x (k_files k)) /\ res <> WErr NotFound /\ (k_sent k' = k_sent k \/ k_sent k' = S (k_sent k)) /\
     (forall d, res = WOk d -> exists n, n < k_sent k' /\ server n u = Some d) /\
     match (if r_cache r && negb b then dget u (k_files k) else None) with Some d => k' = k /\ res = WOk d | None => forall d, res = WOk d -> server (k_sent k) u = Some d /\ k_sent k' = S (k_sent k) end /\
     (if r_cache r then match res with WOk d => dget u (k_files k') = Some d | WErr _ => k_files k' = k_files k end else k_files k' = k_files k)).
  { intros e NE EE EN. inversion EE; subst. split; [auto|]. split; [auto|]. split; [congruence|]. split; [auto|]. split; [discriminate|]. rewrite EN. split; [discriminate|]. destruct (r_cache r); auto. }
  match type of E with (if _ then match _ with WOk _ => _ | WErr _ => _ end else ?dn) = _ => set (down := dn) in E end.
  assert (DOWN : down = (k', res) -> (if r_cache r && negb b then dget u (k_files k) else None) = None ->
     dk k' /\ (forall x, x <> u -> dget x (k_files k') = dget x (k_files k)) /\ res <> WErr NotFound /\ (k_sent k' = k_sent k \/ k_sent k' = S (k_sent k)) /\
     (forall d, res = WOk d -> exists n, n < k_sent k' /\ server n u = Some d) /\
     match (if r_cache r && negb b then dget u (k_files k) else None) with Some d => k' = k /\ res = WOk d | None => forall d, res = WOk d -> server (k_sent k) u = Some d /\ k_sent k' = S (k_sent k) end /\
     (if r_cache r then match res with WOk d => dget u (k_files k') = Some d | WErr _ => k_files k' = k_files k end else k_files k' = k_files k)).
  { intros ED EN. rewrite EN. unfold down in ED. destruct (negb (String.eqb (r_scheme r) "http")).
    - destruct (KEEP NoProtocol) as (A1 & A2 & A3 & A4 & A5 & A6 & A7); [discriminate|auto|auto|]. rewrite EN in A6. auto 8.
    - set (k1 := Dk (k_dirs k) (k_files k) (S (k_sent k))) in ED. assert (D1 : dk k1) by (apply dk_sent; [lia|auto]). destruct (server (k_sent k) u) as [d|] eqn:ES.
      2:{ inversion ED; subst. split; [auto|]. split; [auto|]. split; [discriminate|]. split; [auto|]. split; [discriminate|]. split; [discriminate|]. destruct (r_cache r); auto. }
      destruct (r_cache r) eqn:RC.
      2:{ inversion ED; subst. split; [auto|]. split; [auto|]. split; [discriminate|]. split; [auto|]. split; [intros d' EE; inversion EE; subst; exists (k_sent k); split; [cbn; lia|auto]|]. split; [intros d' EE; inversion EE; subst; auto|auto]. }
      destruct (make_dir k1 (head_of u)) as (k2, e2) eqn:EM. destruct (make_dir_props _ _ _ _ EM D1) as (D2 & F2 & S2 & H2). cbn [k1 k_files k_sent] in F2, S2. destruct e2 as [e2|].
      { inversion ED; subst. split; [auto|]. split; [intros x _; now rewrite F2|]. split.
        - unfold make_dir in EM. destruct (is_dir k1 (head_of u)); [discriminate|]. destruct (existsb _ _); [inversion EM; discriminate|discriminate].
        - split; [auto|]. split; [discriminate|]. split; [discriminate|auto]. }
      unfold open_write in ED. rewrite (H2 eq_refl) in ED. destruct (is_dir k2 u) eqn:EI.
      { inversion ED; subst. split; [auto|]. split; [intros x _; now rewrite F2|]. split; [discriminate|]. split; [auto|]. split; [discriminate|]. split; [discriminate|auto]. }
      cbv beta iota in ED. set (k3 := Dk (k_dirs k2) (dset u d (k_files k2)) (k_sent k2)) in ED. assert (D3 : dk k3).
      { constructor; unfold k3; cbn [k_files k_sent].
        - intros x y. rewrite dget_dset. destruct (eqb_spec x u) as [->|]; [intros EE; inversion EE; subst; exists (k_sent k); split; [lia|auto]|]. apply (d_src _ D2).
        - intros x NX. rewrite dget_dset in NX. change (is_dir k2 x = false). destruct (eqb_spec x u) as [EX|]; [rewrite EX; auto|]. apply (d_file _ D2). auto. }
      assert (G3 : dget u (k_files k3) = Some d) by (unfold k3; cbn; apply dget_dset_same). pose proof (open_read_file k3 u d D3 G3) as OR. assert (ED' : (k3, open_read k3 u) = (k', res)) by exact ED. clear ED. rewrite OR in ED'. inversion ED'; subst.
      split; [auto|]. split; [intros x N; unfold k3; cbn; rewrite dget_dset; destruct (eqb_spec x u); [contradiction|now rewrite F2]|]. split; [discriminate|]. split; [right; unfold k3; cbn; auto|].
      split; [intros d' EE; inversion EE; subst; exists (k_sent k); split; [unfold k3; cbn; lia|auto]|]. split; [intros d' EE; inversion EE; subst; split; [auto|unfold k3; cbn; auto]|exact G3]. }
  destruct (r_cache r && negb b) eqn:RB; [|apply DOWN; auto]. destruct (dget u (k_files k)) as [d|] eqn:Eu.
  - rewrite (open_read_file k u d D Eu) in E. inversion E; subst. split; [auto|]. split; [auto|]. split; [discriminate|]. split; [auto|]. split; [intros d' EE; inversion EE; subst; apply (d_src _ D); auto|]. split; [auto|]. destruct (r_cache r); auto.
  - destruct (open_read k u) as [d|e] eqn:EO; [pose proof (eq_trans (eq_sym (open_read_ok _ _ _ EO)) Eu); discriminate|]. destruct e; try (apply (KEEP _) in E; [exact E|discriminate|auto]). apply DOWN; auto.
Qed.
Lemma fstep_dk o k k' res : plain (op_store o) -> fstep server o k = (k', res) -> dk k -> dk k'.
Proof.
  intros PL E D. destruct o as [r|r f b]; cbn [fstep op_store] in *.
  - destruct (r_cache r); [|inversion E; subst; auto]. destruct (make_dir k (rstrip_slash (r_rest r))) as (k1, e) eqn:EM. destruct (make_dir_props _ _ _ _ EM D) as (D1 & _). destruct e; inversion E; subst; auto.
  - apply (fetch_props _ _ _ _ _ _ PL E D).
Qed.
Definition frun (l : list fop) (k : disk) : disk := fold_left (fun k o => fst (fstep server o k)) l k.
Lemma frun_dk l : forall k, (forall o, In o l -> plain (op_store o)) -> dk k -> dk (frun l k).
Proof.
  induction l as [|o l IH]; intros k PL D; [auto|]. cbn. destruct (fstep server o k) as (k1, res) eqn:E. apply IH; [intros o' I; apply PL; cbn; auto|]. eapply fstep_dk; eauto. apply PL. cbn. auto.
Qed.
Lemma dk_new : dk (Dk [] [] 0).
Proof. constructor; cbn; [discriminate|congruence]. Qed.
(** The address of a read *)
Definition reads (o : fop) (x : name) : Prop := match o with Read r f _ => addr r f = x | Create _ => False end.
Definition reads_anew (o : fop) (x : name) : Prop := match o with Read r f true => addr r f = x | _ => False end.
Lemma fstep_keep o k k' res x : plain (op_store o) -> fstep server o k = (k', res) -> dk k -> ~ reads_anew o x -> dget x (k_files k) <> None -> dget x (k_files k') = dget x (k_files k).
Proof.
  intros PL E D NR H. destruct o as [r|r f b]; cbn [fstep op_store] in *.
  - destruct (r_cache r); [|inversion E; subst; auto]. destruct (make_dir k (rstrip_slash (r_rest r))) as (k1, e) eqn:EM. destruct (make_dir_props _ _ _ _ EM D) as (_ & F & _). destruct e; inversion E; subst; now rewrite F.
  - destruct (fetch_props _ _ _ _ _ _ PL E D) as (_ & O & _ & _ & _ & M & K). destruct (eqb_spec x (addr r f)) as [->|N]; [|auto]. destruct b; [exfalso; apply NR; reflexivity|].
    destruct (r_cache r); [|now rewrite K]. cbn [andb negb] in M. destruct (dget (addr r f) (k_files k)) as [d|] eqn:EX; [|congruence]. destruct M as (-> & _). auto.
Qed.
Lemma frun_keep l x : forall k, (forall o, In o l -> plain (op_store o)) -> dk k -> (forall o, In o l -> ~ reads_anew o x) -> dget x (k_files k) <> None -> dget x (k_files (frun l k)) = dget x (k_files k).
Proof.
  induction l as [|o l IH]; intros k PL D NR H; [auto|]. cbn. destruct (fstep server o k) as (k1, res) eqn:E. cbn [fst].
  assert (K : dget x (k_files k1) = dget x (k_files k)) by (eapply fstep_keep; eauto; [apply PL|apply NR]; cbn; auto).
  rewrite IH; [auto|intros; apply PL; cbn; auto| |intros; apply NR; cbn; auto|congruence]. eapply fstep_dk; eauto. apply PL. cbn. auto.
Qed.
(** A file is there exactly if a caching store has read it. *)
Definition got (l : list fop) (k : disk) (x : name) : Prop := exists l1 r f b l2 d, l = l1 ++ Read r f b :: l2 /\ r_cache r = true /\ addr r f = x /\ snd (fstep server (Read r f b) (frun l1 k)) = WOk d.
Lemma frun_got l x : forall k, (forall o, In o l -> plain (op_store o)) -> dk k -> (dget x (k_files (frun l k)) <> None <-> dget x (k_files k) <> None \/ got l k x).
Proof.
  induction l as [|o l IH]; intros k PL D.
  - cbn. split; [auto|]. intros [H | (l1 & r & f & b & l2 & d & E & _)]; [auto|]. destruct l1; discriminate.
  - cbn [frun fold_left]. destruct (fstep server o k) as (k1, res) eqn:E. cbn [fst]. fold (frun l k1).
    assert (D1 : dk k1) by (eapply fstep_dk; eauto; apply PL; cbn; auto). rewrite (IH k1) by (auto; intros; apply PL; cbn; auto).
    assert (G : got (o :: l) k x <-> got l k1 x \/ exists r f b d, o = Read r f b /\ r_cache r = true /\ addr r f = x /\ res = WOk d).
    { split.
      - intros (l1 & r & f & b & l2 & d & EL & RC & EX & SN). destruct l1 as [|o1 l1]; inversion EL; subst.
        + right. exists r, f, b, d. split; [auto|]. split; [auto|]. split; [auto|]. cbn [frun fold_left] in SN. rewrite E in SN. exact SN.
        + left. exists l1, r, f, b, l2, d. split; [auto|]. split; [auto|]. split; [auto|]. cbn [frun fold_left] in SN. rewrite E in SN. exact SN.
      - intros [(l1 & r & f & b & l2 & d & -> & RC & EX & SN) | (r & f & b & d & -> & RC & EX & ->)].
        + exists (o :: l1), r, f, b, l2, d. split; [auto|]. split; [auto|]. split; [auto|]. cbn [frun fold_left]. rewrite E. exact SN.
        + exists [], r, f, b, l, d. split; [auto|]. split; [auto|]. split; [auto|]. cbn [frun fold_left]. now rewrite E. }
    rewrite G. assert (ST : dget x (k_files k1) <> None <-> dget x (k_files k) <> None \/ exists r f b d, o = Read r f b /\ r_cache r = true /\ addr r f = x /\ res = WOk d); [|tauto].
    assert (PO : plain (op_store o)) by (apply PL; cbn; auto). destruct o as [r|r f b]; cbn [fstep op_store] in *.
    + split; [|intros [H | (r' & f' & b' & d & EE & _)]; [|discriminate]].
      * intros H. left. destruct (r_cache r); [|inversion E; subst; auto]. destruct (make_dir k (rstrip_slash (r_rest r))) as (k2, e) eqn:EM. destruct (make_dir_props _ _ _ _ EM D) as (_ & F & _). destruct e; inversion E; subst; now rewrite <- F.
      * destruct (r_cache r); [|inversion E; subst; auto]. destruct (make_dir k (rstrip_slash (r_rest r))) as (k2, e) eqn:EM. destruct (make_dir_props _ _ _ _ EM D) as (_ & F & _). destruct e; inversion E; subst; now rewrite F.
    + destruct (fetch_props _ _ _ _ _ _ PO E D) as (_ & O & _ & _ & _ & M & K). destruct (eqb_spec x (addr r f)) as [->|N].
      * destruct (r_cache r) eqn:RC.
        -- destruct res as [d|e]; [split; [intros _; right; exists r, f, b, d; auto|intros _; congruence]|]. rewrite K. split; [auto|]. intros [H | (r' & f' & b' & d & _ & _ & _ & EE)]; [auto|discriminate].
        -- rewrite K. split; [auto|]. intros [H | (r' & f' & b' & d & EE & RC' & _)]; [auto|]. inversion EE; subst. congruence.
      * rewrite O by auto. split; [auto|]. intros [H | (r' & f' & b' & d & EE & _ & EX & _)]; [auto|]. inversion EE; subst. contradiction.
Qed.
End R.

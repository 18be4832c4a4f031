(** C122: a file store lists what it can read and reads what it lists; the cache of remote stores is faithful. *)
From Coq Require Import String Ascii.
From Verif Require Import Base FileModel FileProofs.
Open Scope nat_scope.
Open Scope list_scope.
Local Arguments eqb : simpl never.
Definition nm (s : string) : name := list_ascii_of_string s.

(** ** Compressed archives *)
(** What is listed can be read, and is the entry below the prefix. *)
Theorem C122_listed_partial s i n : no_siblings s -> In n (listfiles s i) ->
  exists q d, under (st_prefix s) n q /\ last_entry (st_entries s) q d /\ readfile s n = FData d.
Proof.
  intros NS I. apply filter_In in I as (I & _). apply (gen_spec s n NS) in I as (q & H & U & _).
  unfold readfile. rewrite (under_prefixed _ _ _ U). destruct (content (st_entries s) q) as [d|] eqn:E; [|destruct H as (d & H); exfalso; exact (proj1 (content_none _ _) E d H)].
  exists q, d. split; [auto|]. split; [now apply content_spec|auto].
Qed.
(** A file of a zip archive is listed exactly if no folder in use has its name less one character; every file of a 7z archive is. *)
Theorem C122_complete_partial s n q : no_siblings s -> has s q -> under (st_prefix s) n q -> (st_fmt s = Zip -> (forall e, has s e -> normal e) /\ q <> []) ->
  (In n (listfiles s None) <-> (st_fmt s = Zip -> ~ clashes s q)).
Proof.
  intros NS H U ZZ. unfold listfiles. rewrite filter_In, (gen_spec s n NS). split.
  - intros ((q' & H' & U' & NH) & _) Z. destruct (ZZ Z) as (N & NE). assert (q' = q) by (rewrite <- (under_prefixed _ _ _ U), <- (under_prefixed _ _ _ U'); auto). subst q'.
    intros C. apply NH. now apply hidden_clashes.
  - intros C. split; [|auto]. exists q. split; [auto|]. split; [auto|]. intros HD. pose proof HD as (Z & _). destruct (ZZ Z) as (N & NE). apply (C Z). now apply hidden_clashes.
Qed.
(** Entries of folders are not listed. *)
Theorem C122_folders_hidden s g : st_fmt s = Zip -> no_siblings s -> has s (g ++ ["/"%char]) -> normal (g ++ ["/"%char]) -> (forall n, under (st_prefix s) n (g ++ ["/"%char]) -> ~ In n (listfiles s None)).
Proof.
  intros Z NS H N n U I. apply filter_In in I as (I & _). apply (gen_spec s n NS) in I as (q & H' & U' & NH). assert (q = g ++ ["/"%char]) by (rewrite <- (under_prefixed _ _ _ U), <- (under_prefixed _ _ _ U'); auto). subst q.
  apply NH. split; [auto|]. rewrite removelast_last. unfold subfolders. apply in_map_iff. destruct H as (d & H). exists (g ++ ["/"%char], d). split; [|auto]. cbn [fst].
  destruct (normal_parts g [] N) as (NG & UG). apply (head_in g []); auto. intros [].
Qed.
(** What is not there cannot be read: a zip archive raises KeyError, a 7z archive gives None. *)
Theorem C122_missing s n q : under (st_prefix s) n q -> (~ has s q <-> readfile s n = match st_fmt s with Zip => FKeyError | SevenZ => FNothing end).
Proof.
  intros U. unfold readfile. rewrite (under_prefixed _ _ _ U). destruct (content (st_entries s) q) as [d|] eqn:E.
  - split; [|destruct (st_fmt s); discriminate]. intros H. exfalso. apply H. exists d. now apply content_in.
  - split; [auto|]. intros _ (d & H). exact (proj1 (content_none _ _) E d H).
Qed.
(** [internal_prefix] set twice *)
Theorem C122_prefix_read s a b n : st_prefix s = Some a -> relative b -> b <> [] -> relative n -> readfile (add_prefix s b) n = readfile s (join b n).
Proof.
  intros EA RB NB RN. unfold readfile, prefixed, add_prefix. cbn [st_prefix st_entries st_fmt]. rewrite EA. 
  assert (J : join (join a b) n = join a (join b n)); [|rewrite J; reflexivity].
  rewrite (join_app _ n RN), join_nil_join by auto. rewrite (join_app a (join b n)) by (apply join_relative; auto). rewrite (join_app b n RN). now rewrite app_assoc.
Qed.
Theorem C122_prefix_list_partial s b n : relative b -> b <> [] -> relative n -> no_siblings s -> no_siblings (add_prefix s b) ->
  (In n (listfiles (add_prefix s b) None) <-> In (join b n) (listfiles s None)).
Proof.
  intros RB NB RN N1 N2. unfold listfiles. rewrite !filter_In, (gen_spec _ _ N1), (gen_spec _ _ N2).
  assert (UU : forall q, under (st_prefix (add_prefix s b)) n q <-> under (st_prefix s) (join b n) q).
  { intros q. unfold add_prefix, under. cbn [st_prefix]. destruct (st_prefix s) as [a|].
    - split; intros (d & FD & -> & R).
      + exists (join a []). split; [apply join_folder|]. split; [|apply join_relative; auto]. rewrite (folder_fun _ _ _ FD (join_folder _)), join_nil_join by auto. rewrite (join_app b n RN). now rewrite app_assoc.
      + exists (join (join a b) []). split; [apply join_folder|]. split; [|auto]. rewrite (folder_fun _ _ _ FD (join_folder a)), join_nil_join by auto. rewrite (join_app b n RN). now rewrite app_assoc.
    - split.
      + intros (d & FD & -> & R). rewrite (folder_fun _ _ _ FD (join_folder b)). symmetry. now apply join_app.
      + intros ->. exists (join b []). split; [apply join_folder|]. split; [now apply join_app|auto]. }
  assert (HH : forall q, hidden (add_prefix s b) q <-> hidden s q) by (intros q; reflexivity).
  split; intros ((q & H & U & NH) & _); (split; [exists q|auto]); (split; [exact H|]); (split; [apply UU; exact U|]); intros X; apply NH; apply HH; exact X.
Qed.
(** [listfiles(in_prefix)] *)
Theorem C122_in_prefix s i n : ~ In "."%char i -> (In n (listfiles s (Some i)) <-> In n (listfiles s None) /\ exists r, n = i ++ r).
Proof. intros ND. unfold listfiles. rewrite !filter_In, (in_filter_dotless i n ND). cbn. tauto. Qed.

(** ** Remote stores *)
Lemma fhist_app server l1 l2 : fhist server (l1 ++ l2) = frun server l2 (fhist server l1).
Proof. unfold fhist, frun. apply fold_left_app. Qed.
Lemma fhist_dk server l : (forall o, In o l -> plain (op_store o)) -> dk server (fhist server l).
Proof. intros PL. apply (frun_dk server l (Dk [] [] 0) PL). apply dk_new. Qed.
(** Whatever is read was answered by the server for that very address. *)
Theorem C122_remote_content server l r f b k' d : (forall o, In o l -> plain (op_store o)) -> plain r ->
  fstep server (Read r f b) (fhist server l) = (k', WOk d) -> exists n, n < k_sent k' /\ server n (r_rest r ++ f) = Some d.
Proof. intros PL PR E. destruct (fetch_props server _ _ _ _ _ _ PR E (fhist_dk _ _ PL)) as (_ & _ & _ & _ & H & _). apply H. auto. Qed.
(** A file read through a cache is read again, by any caching store and as often as wanted, without a request, until a forced read of
    that address. *)
Theorem C122_remote_cached server l1 r f b l2 r' f' d : (forall o, In o (l1 ++ Read r f b :: l2) -> plain (op_store o)) -> plain r' ->
  r_cache r = true -> r_cache r' = true -> r_rest r ++ f = r_rest r' ++ f' ->
  snd (fstep server (Read r f b) (fhist server l1)) = WOk d ->
  (forall s g, In (Read s g true) l2 -> r_rest s ++ g <> r_rest r ++ f) ->
  fstep server (Read r' f' false) (fhist server (l1 ++ Read r f b :: l2)) = (fhist server (l1 ++ Read r f b :: l2), WOk d).
Proof.
  intros PL PR RC RC' EQ S NR. assert (PL1 : forall o, In o l1 -> plain (op_store o)) by (intros o I; apply PL; apply in_app_iff; auto).
  assert (PL2 : forall o, In o l2 -> plain (op_store o)) by (intros o I; apply PL; apply in_app_iff; cbn; auto). assert (PLr : plain r) by (apply (PL (Read r f b)); apply in_app_iff; cbn; auto).
  pose proof (fhist_dk server _ PL1) as D1. destruct (fstep server (Read r f b) (fhist server l1)) as (k1, res) eqn:E. cbn [snd] in S. subst res.
  destruct (fetch_props server _ _ _ _ _ _ PLr E D1) as (D2 & _ & _ & _ & _ & _ & K). rewrite RC in K.
  assert (HK : dget (addr r f) (k_files (fhist server (l1 ++ Read r f b :: l2))) = Some d).
  { rewrite fhist_app. cbn [frun fold_left]. rewrite E. cbn [fst]. fold (frun server l2 k1). rewrite frun_keep; auto; [|congruence].
    intros o I A. destruct o as [s|s g [|]]; cbn in A; try contradiction. apply (NR s g I). exact A. }
  pose proof (fhist_dk server _ PL) as D3. destruct (fstep server (Read r' f' false) (fhist server (l1 ++ Read r f b :: l2))) as (k3, res3) eqn:E3.
  destruct (fetch_props server _ _ _ _ _ _ PR E3 D3) as (_ & _ & _ & _ & _ & M & _). rewrite RC' in M. cbn [andb negb] in M. replace (addr r' f') with (addr r f) in M by exact EQ. rewrite HK in M. destruct M as (-> & ->). reflexivity.
Qed.
(** A forced read, a read without a cache, and a first read give the answer to a new request. *)
Theorem C122_remote_fresh server l r f b k' d : (forall o, In o l -> plain (op_store o)) -> plain r ->
  b = true \/ r_cache r = false \/ (forall l1 s g c l2 e, l = l1 ++ Read s g c :: l2 -> r_cache s = true -> r_rest s ++ g = r_rest r ++ f -> snd (fstep server (Read s g c) (fhist server l1)) <> WOk e) ->
  fstep server (Read r f b) (fhist server l) = (k', WOk d) -> server (k_sent (fhist server l)) (r_rest r ++ f) = Some d /\ k_sent k' = S (k_sent (fhist server l)).
Proof.
  intros PL PR C E. destruct (fetch_props server _ _ _ _ _ _ PR E (fhist_dk _ _ PL)) as (_ & _ & _ & _ & _ & M & _).
  assert (X : (if r_cache r && negb b then dget (addr r f) (k_files (fhist server l)) else None) = None).
  { destruct C as [-> | [-> | C]]; [now rewrite andb_false_r|auto|]. destruct (r_cache r && negb b); [|auto]. destruct (dget (addr r f) (k_files (fhist server l))) as [v|] eqn:EV; [|auto]. exfalso.
    assert (G : dget (addr r f) (k_files (frun server l (Dk [] [] 0))) <> None) by (unfold fhist in EV; unfold frun; congruence).
    apply (frun_got server l (addr r f) (Dk [] [] 0) PL (dk_new server)) in G as [G | (l1 & s & g & c & l2 & e & EL & RC & EX & SN)]; [cbn in G; congruence|]. exact (C l1 s g c l2 e EL RC EX SN). }
  rewrite X in M. apply M. auto.
Qed.
(** [listfiles]: the files read so far, by whichever caching store *)
Theorem C122_remote_list server l r n : (forall o, In o l -> plain (op_store o)) -> plain r -> r_cache r = true ->
  (In n (list_remote r (fhist server l)) <-> exists l1 s g b l2 d, l = l1 ++ Read s g b :: l2 /\ r_cache s = true /\ r_rest s ++ g = r_rest r ++ n /\ snd (fstep server (Read s g b) (fhist server l1)) = WOk d).
Proof.
  intros PL PR RC. pose proof (frun_got server l (addr r n) (Dk [] [] 0) PL (dk_new server)) as G. destruct (plain_root r PR) as (CR & _).
  assert (LI : In n (list_remote r (fhist server l)) <-> dget (addr r n) (k_files (fhist server l)) <> None).
  { unfold list_remote. rewrite RC, CR, in_map_iff. split.
    - intros (x & E & I). apply filter_In in I as (I & S). apply starts_spec in S as (m & ->). rewrite skipn_app, skipn_all, Nat.sub_diag in E. cbn in E. subst m. destruct (dget_key_Some _ _ I) as (v & EV). unfold addr. congruence.
    - intros H. exists (addr r n). split; [unfold addr; now rewrite skipn_app, skipn_all, Nat.sub_diag|]. apply filter_In. split; [|apply starts_spec; exists n; reflexivity]. destruct (dget (addr r n) (k_files (fhist server l))) as [v|] eqn:EV; [|congruence]. eapply dget_Some_key; eauto. }
  rewrite LI. change (fhist server l) with (frun server l (Dk [] [] 0)). rewrite G. unfold got. split.
  - intros [H | H]; [cbn in H; congruence|exact H].
  - intros H. right. exact H.
Qed.
(** No read fails for want of a directory of the cache. *)
Theorem C122_remote_directories server l r f b k' e : (forall o, In o l -> plain (op_store o)) -> plain r -> fstep server (Read r f b) (fhist server l) = (k', WErr e) -> e <> NotFound.
Proof. intros PL PR E. destruct (fetch_props server _ _ _ _ _ _ PR E (fhist_dk _ _ PL)) as (_ & _ & H & _). congruence. Qed.

(** ** Cases, and where it fails *)
Definition zip1 : store := St Zip [(nm "lib/", ""%string); (nm "lib/p/a.xml", "A"%string); (nm "lib/p/b.xml", "B"%string); (nm "readme.txt", "R"%string)] None.
Fixpoint no_empty (e : name) : bool := match e with [] => true | c :: r => negb (sl c && match r with d :: _ => sl d | [] => false end) && no_empty r end.
Lemma normal_check (e : name) : starts (nm "/") e = false -> no_empty e = true -> normal e.
Proof.
  intros S G. split; [intros g ->; discriminate|]. intros a b ->. clear S. induction a as [|c a IH]; [discriminate|]. apply IH. cbn [app no_empty] in G. now apply andb_true_iff in G as (_ & G).
Qed.
Theorem C122_witness_zip : no_siblings (add_prefix zip1 (nm "lib")) /\ no_siblings zip1 /\
  listfiles (add_prefix zip1 (nm "lib")) None = [nm "p/a.xml"; nm "p/b.xml"] /\ readfile (add_prefix zip1 (nm "lib")) (nm "p/b.xml") = FData "B" /\
  listfiles zip1 None = [nm "lib/p/a.xml"; nm "lib/p/b.xml"; nm "readme.txt"] /\ (forall e, has zip1 e -> normal e) /\
  listfiles (add_prefix (add_prefix zip1 (nm "lib")) (nm "p")) None = [nm "a.xml"; nm "b.xml"].
Proof.
  split; [|split; [|split; [|split; [|split; [|split]]]]]; try (vm_compute; reflexivity).
  - intros p q EP (d & I) (r & E). cbn in EP. inversion EP; subst p. clear EP. cbn [add_prefix zip1 st_entries In] in I.
    assert (FO : folder (nm "lib") (nm "lib/")). { right. right. split; [discriminate|]. split; [|reflexivity]. intros g EG. do 4 (destruct g as [|? g]; try discriminate). }
    repeat destruct I as [I | I]; try (inversion I; subst; discriminate); try contradiction; inversion I; subst.
    + exists []. exists (nm "lib/"). split; [exact FO|]. split; [reflexivity|discriminate].
    + exists (nm "p/a.xml"). exists (nm "lib/"). split; [exact FO|]. split; [reflexivity|discriminate].
    + exists (nm "p/b.xml"). exists (nm "lib/"). split; [exact FO|]. split; [reflexivity|discriminate].
  - intros p q EP. discriminate.
  - intros e (d & I). pose proof normal_check as CH.
    cbn [zip1 st_entries In] in I. repeat destruct I as [I | I]; try contradiction; inversion I; subst; apply CH; reflexivity.
Qed.
(** The file data1 is not listed, for there is a folder data; neither is a file at the top with a name of one character. *)
Definition zip2 : store := St Zip [(nm "data/x", "X"%string); (nm "data1", "D"%string); (nm "a", "A"%string)] None.
Theorem C122_refuted_hidden : listfiles zip2 None = [nm "data/x"] /\ readfile zip2 (nm "data1") = FData "D" /\ readfile zip2 (nm "a") = FData "A".
Proof. repeat split; vm_compute; reflexivity. Qed.
(** A sibling of the prefix is listed under its full name, and cannot be read. *)
Definition zip3 : store := St Zip [(nm "lib/x", "X"%string); (nm "library/y", "Y"%string)] (Some (nm "lib")).
Theorem C122_refuted_sibling : In (nm "library/y") (listfiles zip3 None) /\ readfile zip3 (nm "library/y") = FKeyError.
Proof. split; [right; left; reflexivity|vm_compute; reflexivity]. Qed.
(** A dot in [in_prefix] matches any character. *)
Theorem C122_refuted_dot : let s := St Zip [(nm "v1.2/x", "X"%string); (nm "v1a2/y", "Y"%string)] None in listfiles s (Some (nm "v1.2/")) = [nm "v1.2/x"; nm "v1a2/y"].
Proof. vm_compute. reflexivity. Qed.
(** A folder entry of a 7z archive is listed. *)
Theorem C122_refuted_7z : let s := St SevenZ [(nm "d", ""%string); (nm "d/x", "X"%string)] None in In (nm "d") (listfiles s None).
Proof. vm_compute. auto. Qed.

Definition web (p : string) (q : option name) (c : bool) : remote := Rem "http" (nm p) q c.
(** The server answers a request with its number and the address. *)
Definition echo (n : nat) (u : name) : option string := Some (append (string_of_list_ascii u) (String (ascii_of_nat (48 + n)) "")).
Theorem C122_witness_remote : plain (web "h/a/" None true) /\ plain (web "h/" None true) /\
  map (fun l => snd (fstep echo (Read (web "h/a/" None true) (nm "b/c") false) (fhist echo l)))
    [[]; [Read (web "h/a/" None true) (nm "b/c") false]; [Read (web "h/" None true) (nm "a/b/c") false; Create (web "h/a/" None true); Read (web "h/a/" None true) (nm "x") true]; [Read (web "h/a/" None true) (nm "b/c") false; Read (web "h/a/" None true) (nm "b/c") true]]
  = [WOk "h/a/b/c0"; WOk "h/a/b/c0"; WOk "h/a/b/c0"; WOk "h/a/b/c1"].
Proof.
  assert (PL : forall x c, x <> [] -> unslashed x -> plain (Rem "http" (x ++ ["/"%char]) None c)) by (intros x c NE U; split; [reflexivity|exists x; auto]).
  split; [apply (PL (nm "h/a")); [discriminate|]; intros g E; do 4 (destruct g as [|? g]; try discriminate)|]. split; [apply (PL (nm "h")); [discriminate|]; intros g E; do 2 (destruct g as [|? g]; try discriminate)|].
  vm_compute. reflexivity.
Qed.
(** Stores that differ in the query string share what is cached. *)
Theorem C122_refuted_query : let r q := web "h/a/" (Some (nm q)) true in
  snd (fstep echo (Read (r "k=1"%string) (nm "c") false) (fhist echo [])) = WOk "h/a/c?k=10" /\
  snd (fstep echo (Read (r "k=2"%string) (nm "c") false) (fhist echo [Read (r "k=1"%string) (nm "c") false])) = WOk "h/a/c?k=10".
Proof. split; vm_compute; reflexivity. Qed.
(** Without a final slash another address is asked, and cached for the right one; or the directory is missing. *)
Theorem C122_refuted_slash :
  snd (fstep echo (Read (web "h/a" None true) (nm "c") false) (fhist echo [Create (web "h/a" None true)])) = WOk "h/c0" /\
  snd (fstep echo (Read (web "h/a/" None true) (nm "c") false) (fhist echo [Create (web "h/a" None true); Read (web "h/a" None true) (nm "c") false])) = WOk "h/c0" /\
  snd (fstep echo (Read (web "h/a" None true) (nm "b/c") false) (fhist echo [Create (web "h/a" None true)])) = WErr NotFound.
Proof. repeat split; vm_compute; reflexivity. Qed.
(** An address that is the folder of another one: once it is cached, the other cannot be read any more, not even by a forced read. *)
Theorem C122_refuted_file_folder : let r := web "h/a/" None true in let l := [Read r (nm "x") false] in
  snd (fstep echo (Read r (nm "x/y") false) (fhist echo l)) = WErr NotADirectory /\ snd (fstep echo (Read r (nm "x/y") true) (fhist echo l)) = WErr FileExists /\
  snd (fstep echo (Read r (nm "x/y") false) (fhist echo [])) = WOk "h/a/x/y0" /\ snd (fstep echo (Read r (nm "x") false) (fhist echo [Read r (nm "x/y") false])) = WErr IsADirectory.
Proof. repeat split; vm_compute; reflexivity. Qed.
Theorem C122_refuted_https : snd (fstep echo (Read (Rem "https" (nm "h/a/") None true) (nm "c") false) (fhist echo [])) = WErr NoProtocol.
Proof. vm_compute. reflexivity. Qed.

Print Assumptions C122_listed_partial. Print Assumptions C122_complete_partial. Print Assumptions C122_folders_hidden. Print Assumptions C122_missing. Print Assumptions C122_prefix_read. Print Assumptions C122_prefix_list_partial. Print Assumptions C122_in_prefix.
Print Assumptions C122_remote_content. Print Assumptions C122_remote_cached. Print Assumptions C122_remote_fresh. Print Assumptions C122_remote_list. Print Assumptions C122_remote_directories.

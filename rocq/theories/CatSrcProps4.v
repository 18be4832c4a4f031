(** C128, part 4: witnesses, and what is false. *)
From Coq Require Import String Ascii ZArith.
From Verif Require Import Base PyStr ResModel ResProps ResHistProps CatSrcModel CatSrcProofs CatSrcProps CatSrcProps2 CatSrcProps3.
Open Scope string_scope.
Open Scope nat_scope.
Open Scope list_scope.
Local Arguments eqb : simpl never.
Local Arguments Ascii.eqb : simpl never.
Local Arguments String.eqb : simpl never.

(** the index of a resource, on a day *)
Definition wmk (d : rdata) (day : nat) : content :=
  Content ("u.index." ++ (match day with 0 => "20261118" | _ => "20261119" end)) (d_other d).
Definition wlocal (p : string) : string := ("local." ++ p)%string.
Definition wdigest (s : string) : string := ("md5 of " ++ s)%string.
Notation wexec := (cexec wroot whash wmk wdigest wlocal).
Notation wruns := (crun wroot whash wmk wdigest wlocal).
Notation windex := (index_source wroot whash wmk).
Definition usl : cop := CRes (OAdd "u" (RD (Some "/data/u.zip") "ecospold" None None ["inventory"] 50%Z false false "v1") true).
Definition start0 : cat := new_cat 0 [("/data/u.zip", Content "" "u")] ["/cat"; "/cat/index"; "/data"].
Definition h_before : list cop := [usl; CForeground "fg" None; CDownload (Transfer "bytes" true) "http://x" None false].
Definition h_after : list cop :=
  [CRes ORestart; CIndex "/data/u.zip" 10%Z false 1; CForeground "/cat/fg" None; CDel "local./cat/fg" "$CAT_ROOT/fg" None true; CRes ORestart].

Lemma no_cat p s : wroot <> "" -> In p ["/cat"; "/cat/index"; "/data"] -> p <> index_file wroot whash s /\ p <> download_path wroot whash s.
Proof.
  intros _ I. unfold index_file, download_path. rewrite !(join2 wroot) by (reflexivity || exact in_index || exact in_downloads).
  destruct I as [<-|[<-|[<-|[]]]]; split; discriminate.
Qed.

(** The premises of the theorem on the reference of an index are met: the index of an archive, made once, named the same the
    day after and by a new process, between other uses of the catalog. *)
Theorem C128_index_witness :
  isabs wroot = true /\ (forall s, isabs (whash s) = false) /\ (forall s t, whash s = whash t -> s = t)
  /\ usable wroot whash (ct_files start0) (ct_dirs start0)
  /\ Forall cop_ok h_before /\ Forall cop_ok h_after
  /\ Forall (fun o => spares wroot whash "/data/u.zip" o /\ forall p f d, o <> CIndex "/data/u.zip" p f d) h_before
  /\ Forall (spares wroot whash "/data/u.zip") h_after
  /\ (let c := wruns start0 h_before in
      let '(c1, x1) := windex c "/data/u.zip" 60%Z false 0 in
      let '(c2, x2) := windex (wruns c1 h_after) "/data/u.zip" 60%Z false 1 in
      x1 = KOk "u.index.20261118" /\ x2 = KOk "u.index.20261118"
      /\ map fst (ct_files c1) = ["/data/u.zip"; "/cat/downloads/hhttp://x"; "/cat/index/h/data/u.zip.json.gz"]
      /\ dkeys (rs_disk (ct_rs c1)) = ["u"; "local./cat/fg"; "u.index.20261118"]).
Proof.
  split; [reflexivity|]. split; [reflexivity|]. split; [intros s t E; injection E as E; exact E|]. split.
  { split; [|split].
    - intros p P. destruct (dget p (ct_files start0)) eqn:E; [|congruence]. apply dget_In in E. vm_compute in E.
      destruct E as [E|[]]; injection E as <- _; vm_compute; intros [X|[X|[X|[]]]]; discriminate X.
    - intros s I. destruct (no_cat _ s ltac:(discriminate) I) as [N _]. elim N; reflexivity.
    - intros s I. destruct (no_cat _ s ltac:(discriminate) I) as [_ N]. elim N; reflexivity. }
  split; [repeat constructor; discriminate|]. split; [repeat constructor|]. split.
  { repeat constructor; vm_compute; discriminate || exact I. }
  split; [repeat constructor; vm_compute; discriminate|]. vm_compute. repeat split; reflexivity.
Qed.

(** An index made anew by force on another day is not the one that is found afterwards. *)
Theorem C128_refuted_forced :
  let c := wruns start0 h_before in
  let '(c1, x1) := windex c "/data/u.zip" 60%Z false 0 in
  let '(c2, x2) := windex c1 "/data/u.zip" 60%Z true 1 in
  let '(c3, x3) := windex c2 "/data/u.zip" 60%Z false 1 in
  x1 = KOk "u.index.20261118" /\ x2 = KOk "u.index.20261119" /\ x3 = KOk "u.index.20261118".
Proof. vm_compute. auto. Qed.

(** An index made anew by force on the same day: the file is new, but the catalog goes on answering with the old one.
    ([mk2]: the archive was extended between the calls). *)
Definition mk2 (body : string) (d : rdata) (day : nat) : content := Content "u.index.20261118" body.
Theorem C128_refuted_forced_today :
  let c := wruns start0 h_before in
  let '(c1, x1) := index_source wroot whash (mk2 "one process") c "/data/u.zip" 60%Z false 0 in
  let '(c2, x2) := index_source wroot whash (mk2 "two processes") c1 "/data/u.zip" 60%Z true 0 in
  x1 = x2 /\ option_map f_body (dget (index_file wroot whash "/data/u.zip") (ct_files c2)) = Some "two processes"
  /\ map (fun r => option_map f_body (archive_of wroot c2 r)) (with_source (ct_rs c2) "$CAT_ROOT/index/h/data/u.zip.json.gz") = [Some "one process"].
Proof. vm_compute. auto. Qed.

(** The index of a resource that is not stored: deleting its resource fails, and the index file stays and is used again. *)
Theorem C128_refuted_not_stored :
  let c := wruns start0 [CRes (OAdd "u" (RD (Some "/data/u.zip") "ecospold" None None ["inventory"] 50%Z false false "v1") false)] in
  let '(c1, _) := windex c "/data/u.zip" 60%Z false 0 in
  let '(c2, x2) := wexec c1 (CDel "u.index.20261118" "$CAT_ROOT/index/h/data/u.zip.json.gz" None true) in
  let '(c3, x3) := windex c2 "/data/u.zip" 60%Z false 1 in
  x2 = KErr (KResolver RFileNotFound) /\ with_source (ct_rs c2) "$CAT_ROOT/index/h/data/u.zip.json.gz" = []
  /\ ct_files c2 = ct_files c1 /\ x3 = KOk "u.index.20261118".
Proof. vm_compute. repeat split; reflexivity. Qed.

(** A download whose digest is wrong is refused, kept, and accepted the next time; so is one that was cut short. *)
Theorem C128_refuted_digest :
  let get := download wroot whash wdigest in
  let '(c1, x1) := get start0 (Transfer "garbage" true) "http://x" (Some "md5 of data") false true in
  let '(c2, x2) := get c1 (Transfer "data" true) "http://x" (Some "md5 of data") false true in
  x1 = KErr KAssertion /\ x2 = KOk "$CAT_ROOT/downloads/hhttp://x"
  /\ option_map f_body (dget "/cat/downloads/hhttp://x" (ct_files c2)) = Some "garbage".
Proof. vm_compute. auto. Qed.
Theorem C128_refuted_cut_short :
  let get := download wroot whash wdigest in
  let '(c1, x1) := get start0 (Transfer "da" false) "http://x" None false true in
  let '(c2, x2) := get c1 (Transfer "data" true) "http://x" None false true in
  x1 = KErr KNetwork /\ x2 = KOk "$CAT_ROOT/downloads/hhttp://x"
  /\ option_map f_body (dget "/cat/downloads/hhttp://x" (ct_files c2)) = Some "da".
Proof. vm_compute. auto. Qed.

(** Foregrounds: by name, by path, by name again; a path with a directory in it is refused. *)
Theorem C128_foreground_witness :
  let fg := create_foreground wroot wlocal in
  let '(c1, x1) := fg start0 "fg" None in
  let '(c2, x2) := fg c1 "/cat/fg" (Some "my.fg") in
  x1 = x2 /\ c1 = c2 /\ dkeys (rs_disk (ct_rs c1)) = ["local./cat/fg"]
  /\ snd (fg start0 "a/fg" None) = KErr KValueError.
Proof. vm_compute. auto. Qed.
Print Assumptions C128_index_witness.

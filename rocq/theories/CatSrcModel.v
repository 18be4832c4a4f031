(** Model of the files an LcCatalog keeps for its resources: /repo/antelope_catalog/catalog/catalog.py (localised sources,
    [download_file], [delete_resource], [_index_source], [create_foreground]), on top of the resolver of ResModel.
    A catalog's resource directory is the [rs_disk] of its resolver; [ct_files] are the regular files elsewhere, by absolute
    path.  Simplifications: a path is its text (no links, '.', '..', doubled separators); resource files are not sources;
    [root] holds no regular-expression operator (the code uses it as a pattern and as a replacement text, 157-166). *)
From Coq Require Import String Ascii ZArith.
From Verif Require Import Base PyStr ResModel.
Open Scope string_scope.
Open Scope nat_scope.
Open Scope list_scope.

(** [s] without its leading [p] ([str.startswith] and [re.sub('^' + p, ..)]) *)
Fixpoint strip (p s : string) : option string :=
  match p, s with
  | EmptyString, _ => Some s
  | String a p', String b s' => if Ascii.eqb a b then strip p' s' else None
  | String _ _, EmptyString => None
  end.

(** [os.path.isabs] (posix) *)
Definition isabs (s : string) : bool := match strip "/" s with Some _ => true | None => false end.
(** [os.path.join(a, b)] (posix) *)
Definition join (a b : string) : string :=
  if isabs b then b else if String.eqb a "" || ends_with a "/" then (a ++ b)%string else (a ++ "/" ++ b)%string.

(** [_localize_source], catalog.py:155-158 *)
Definition localize (root s : string) : string :=
  match strip root s with Some r => ("$CAT_ROOT" ++ r)%string | None => s end.
(** [abs_path], catalog.py:160-165 *)
Definition abs_path (root s : string) : string :=
  if isabs s then s else match strip "$CAT_ROOT" s with Some r => (root ++ r)%string | None => join root s end.

(** The content of a file; of an index (or archive) the reference it carries. *)
Record content := Content { f_ref : string; f_body : string }.

(** A catalog: [ct_live] the archives that resource objects hold (by object identity). *)
Record cat := Cat { ct_rs : resolver; ct_files : dict string content; ct_dirs : list string; ct_live : dict nat content }.

Inductive kexn := KResolver (e : rexn) | KStopIteration | KTypeError | KValueError | KAssertion | KNetwork.
Inductive kres (A : Type) := KOk (a : A) | KErr (e : kexn).
Arguments KOk {A} _. Arguments KErr {A} _.

Section Catalog.
  Variable root : string.
  (** sha1 of a text, in hexadecimal *)
  Variable hash : string -> string.

  (** [_index_file], [cache_file], catalog.py:84-110 *)
  Definition index_file (src : string) : string := join (join root "index") (hash src ++ ".json.gz").
  Definition cache_file (src : string) : string := join (join root "cache") (hash src ++ ".json.gz").
  (** the file of [download_file], catalog.py:122 *)
  Definition download_path (url : string) : string := join (join root "downloads") (hash url).

  Definition with_rs (c : cat) (s : resolver) : cat := Cat s (ct_files c) (ct_dirs c) (ct_live c).
  Definition with_files (c : cat) (f : dict string content) : cat := Cat (ct_rs c) f (ct_dirs c) (ct_live c).

  (** [os.path.isfile], [os.path.isdir] *)
  Definition isfile (c : cat) (p : string) : bool := din p (ct_files c).
  Definition isdir (c : cat) (p : string) : bool := mem p (ct_dirs c).
  Definition below (d p : string) : bool := match strip (d ++ "/") p with Some _ => true | None => false end.
  (** [shutil.rmtree] *)
  Definition rmtree (c : cat) (d : string) : cat :=
    Cat (ct_rs c) (filter (fun kv => negb (below d (fst kv))) (ct_files c))
        (filter (fun x => negb (eqb x d || below d x)) (ct_dirs c)) (ct_live c).
  Definition remove (c : cat) (p : string) : cat := with_files c (ddel p (ct_files c)).
  Definition remove_if_exists (c : cat) (p : string) : cat := if isfile c p then remove c p else c.

  (** [delete_resource(resource, delete_source, delete_cache)], catalog.py:291-326; [abs_path(None)] is [os.path.isabs(None)] *)
  Definition cat_delete (c : cat) (r : res) (delete_source : option bool) (delete_cache : bool) : cat * kres unit :=
    match delete_resource (ct_rs c) r with
    | (s, RErr e) => (with_rs c s, KErr (KResolver e))
    | (s, ROk _) =>
        let c1 := with_rs c s in
        match d_source (r_data r) with
        | None => (c1, KErr KTypeError)
        | Some src =>
            let a := abs_path root src in
            if eqb delete_source (Some false) || negb (isfile c1 a) then (c1, KOk tt)
            else match with_source s src with
                 | _ :: _ => (c1, KOk tt)
                 | [] =>
                     let c2 := if d_internal (r_data r) || eqb delete_source (Some true)
                               then if isdir c1 a then rmtree c1 a else remove c1 a else c1 in
                     let c3 := if delete_cache
                               then remove_if_exists (remove_if_exists c2 (cache_file src)) (cache_file a) else c2 in
                     (c3, KOk tt)
                 end
        end
    end.

  (** The resource made for an index (catalog.py:401-402, 408-409): interfaces 'index', internal, static, holding [x]. *)
  Definition index_data (inx : string) (prio : Z) : rdata := RD (Some inx) "json" None None ["index"] prio true true "".
  Definition register_index (c : cat) (ref inx : string) (prio : Z) (store : bool) (x : content) : cat * kres unit :=
    match new_resource (ct_rs c) ref (index_data inx prio) store with
    | (s, ROk _) => (Cat s (ct_files c) (ct_dirs c) (dset (rs_next (ct_rs c)) x (ct_live c)), KOk tt)
    | (s, RErr e) => (with_rs c s, KErr (KResolver e))
    end.

  (** [_index_source(source, priority, force)], catalog.py:377-410.  [mk d day]: the index that [make_index] makes on that
      day of the archive of the resource [d] (its reference carries the date, entity_store.py:40-62); loading and indexing
      an archive do not fail here. *)
  Variable mk : rdata -> nat -> content.
  Definition index_source (c : cat) (src : string) (prio : Z) (force : bool) (day : nat) : cat * kres string :=
    match with_source (ct_rs c) src with
    | [] => (c, KErr KStopIteration)
    | res :: _ =>
        let prio := Z.min prio (d_prio (r_data res)) in
        match exists_in (rs_disk (ct_rs c)) res with
        | RErr e => (c, KErr (KResolver e))
        | ROk stored =>
            let inx := index_file src in let loc := localize root inx in
            let make :=
              let x := mk (r_data res) day in
              let c1 := with_files c (dset inx x (ct_files c)) in
              match register_index c1 (f_ref x) loc prio stored x with
              | (c2, KOk _) => (c2, KOk (f_ref x)) | (c2, KErr e) => (c2, KErr e) end in
            match dget inx (ct_files c) with
            | Some x =>
                if force then make
                else match with_source (ct_rs c) loc with
                     | ex :: _ => (c, KOk (r_ref ex))
                     | [] => match register_index c (f_ref x) loc prio stored x with
                             | (c2, KOk _) => (c2, KOk (f_ref x)) | (c2, KErr e) => (c2, KErr e) end
                     end
            | None => make
            end
        end
    end.

  (** The archive a resource answers with: the one it holds, or its source read ([_instantiate], lc_resource.py:70-97, of a
      JSON source without a cache file). *)
  Definition archive_of (c : cat) (r : res) : option content :=
    match dget (r_id r) (ct_live c) with
    | Some x => Some x
    | None => match d_source (r_data r) with Some s => dget (abs_path root s) (ct_files c) | None => None end
    end.

  (** What the network delivers: the bytes, and whether the transfer came to its end.  [digest]: MD5. *)
  Variable digest : string -> string.
  Record transfer := Transfer { t_body : string; t_done : bool }.
  (** [download_file(url, md5sum, force, localize)], catalog.py:112-145 *)
  Definition download (c : cat) (fetch : transfer) (url : string) (md5 : option string) (force loc : bool) : cat * kres string :=
    let f := download_path url in
    let ret := if loc then localize root f else f in
    if isfile c f && negb force then (c, KOk ret)
    else
      let c1 := with_files c (dset f (Content "" (t_body fetch)) (ct_files c)) in
      if negb (t_done fetch) then (c1, KErr KNetwork)
      else match md5 with
           | Some m => if String.eqb (digest (t_body fetch)) m then (c1, KOk ret) else (c1, KErr KAssertion)
           | None => (c1, KOk ret)
           end.

  (** [create_foreground(path, ref)], catalog.py:600-622: the resource it uses; [local_ref]: interfaces/__init__.py:48. *)
  Variable local_ref : string -> string.
  Definition has_sep (s : string) : bool := existsb (fun x => Ascii.eqb x "/"%char) (list_ascii_of_string s).
  Definition foreground_data (src : string) : rdata := RD (Some src) "LcForeground" None None ["index"; "foreground"] 50%Z false false "".
  Definition create_foreground (c : cat) (path : string) (ref : option string) : cat * kres res :=
    if negb (isabs path) && has_sep path then (c, KErr KValueError)
    else
      let p := if isabs path then path else join root path in
      let lp := localize root p in
      let ref := match ref with Some r => r | None => local_ref p end in
      match with_source (ct_rs c) lp with
      | r :: _ => (c, KOk r)
      | [] => match new_resource (ct_rs c) ref (foreground_data lp) true with
              | (s, ROk r) => (with_rs c s, KOk r)
              | (s, RErr e) => (with_rs c s, KErr (KResolver e))
              end
      end.
End Catalog.

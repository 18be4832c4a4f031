(** Model of /repo/antelope_catalog/providers/file_store.py (FileStore): zip and 7z archives with an internal prefix, and remote
    stores with their shared cache on disk.

    Simplifications: names are lists of characters; contents are strings; of regular expressions only the dot is modelled (no other
    metacharacter in a prefix, no newline in a name); an address is scheme://rest, where the rest has a path, and file names are
    relative, not empty, without a final slash, dot segments, query or fragment; the web_cache directory is only used by FileStore. *)
From Coq Require Import String Ascii.
From Verif Require Import Base.
Open Scope nat_scope.
Open Scope char_scope.
Open Scope list_scope.

Definition name := list ascii.
Fixpoint name_eqb (a b : name) : bool := match a, b with [], [] => true | c :: a, d :: b => Ascii.eqb c d && name_eqb a b | _, _ => false end.
Lemma name_eqb_spec a : forall b, reflect (a = b) (name_eqb a b).
Proof.
  induction a as [|c a IH]; intros [|d b]; cbn; try (constructor; congruence). destruct (Ascii.eqb_spec c d); cbn; [|constructor; congruence]. destruct (IH b); constructor; congruence.
Qed.
#[export] Instance EqB_name : EqB name := {| eqb := name_eqb; eqb_spec := name_eqb_spec |}.
Definition sl (c : ascii) : bool := Ascii.eqb c "/".

(** ** Paths (posixpath) *)
(** Up to the last slash, included *)
Fixpoint dir_part (f : name) : name :=
  match f with
  | [] => []
  | c :: r => match dir_part r with [] => if sl c then [c] else [] | d => c :: d end
  end.
Fixpoint rstrip_slash (f : name) : name :=
  match f with
  | [] => []
  | c :: r => match rstrip_slash r with [] => if sl c then [] else [c] | r' => c :: r' end
  end.
(** [split(f)[0]] *)
Definition head_of (f : name) : name := let h := dir_part f in if forallb sl h then h else rstrip_slash h.
Fixpoint ends_slash (a : name) : bool := match a with [] => false | [c] => sl c | _ :: a => ends_slash a end.
(** [join(a, b)] *)
Definition join (a b : name) : name :=
  match b with
  | c :: _ => if sl c then b else match a with [] => b | _ => if ends_slash a then a ++ b else a ++ "/" :: b end
  | [] => match a with [] => [] | _ => if ends_slash a then a else a ++ ["/"] end
  end.
Fixpoint starts (p f : name) : bool :=
  match p, f with
  | [], _ => true
  | c :: p, d :: f => Ascii.eqb c d && starts p f
  | _ :: _, [] => false
  end.
(** What is left of [f] after a match of [p] at its start *)
Fixpoint rmatch (p f : name) : option name :=
  match p, f with
  | [], _ => Some f
  | c :: p, d :: f => if Ascii.eqb c "." || Ascii.eqb c d then rmatch p f else None
  | _ :: _, [] => None
  end.

(** ** Compressed archives *)
Inductive fmt := Zip | SevenZ.
(** Format, entries in order, internal prefix *)
Record store := St { st_fmt : fmt; st_entries : list (name * string); st_prefix : option name }.
(** [internal_prefix] setter, file_store.py:148-158 *)
Definition add_prefix (s : store) (v : name) : store :=
  St (st_fmt s) (st_entries s) (Some (match st_prefix s with None => v | Some p => join p v end)).
(** [_int_dirs_zip], 173-177 *)
Definition subfolders (s : store) : list name := map (fun e => head_of (fst e)) (st_entries s).
(** [_prefix], 179-182 *)
Definition prefixed (s : store) (f : name) : name := match st_prefix s with None => f | Some p => join p f end.
(** [_de_prefix], 184-187 *)
Definition de_prefix (s : store) (f : name) : name :=
  match st_prefix s with
  | None => f
  | Some p => match rmatch (join p []) f with Some r => r | None => f end
  end.
(** [_gen_files], 189-220 *)
Definition shown (s : store) (q : name) : bool :=
  match st_fmt s with Zip => negb (mem (removelast q : name) (subfolders s)) | SevenZ => true end &&
  match st_prefix s with None => true | Some p => starts p q end.
Definition gen_files (s : store) : list name := map (de_prefix s) (filter (shown s) (map fst (st_entries s))).
(** [listfiles], 222-240 *)
Definition in_filter (i : option name) (f : name) : bool := match i with None => true | Some i => match rmatch i f with Some _ => true | None => false end end.
Definition listfiles (s : store) (i : option name) : list name := filter (in_filter i) (gen_files s).
(** The last entry of a name *)
Fixpoint content (l : list (name * string)) (q : name) : option string :=
  match l with
  | [] => None
  | (n, d) :: l => match content l q with Some d' => Some d' | None => if eqb n q then Some d else None end
  end.
(** [readfile], 252-301, of a compressed archive: a missing file is a KeyError (zip) or gives None (7z) *)
Inductive fres := FData (d : string) | FNothing | FKeyError.
Definition readfile (s : store) (f : name) : fres :=
  match content (st_entries s) (prefixed s f) with
  | Some d => FData d
  | None => match st_fmt s with Zip => FKeyError | SevenZ => FNothing end
  end.

(** ** Remote stores *)
(** Scheme, rest of the address, query string, cache *)
Record remote := Rem { r_scheme : string; r_rest : name; r_query : option name; r_cache : bool }.
(** The cache on disk: directories made, files, by name relative to web_cache; number of requests sent *)
Record disk := Dk { k_dirs : list name; k_files : dict name string; k_sent : nat }.
Inductive werr := NotFound | NotADirectory | IsADirectory | FileExists | NoProtocol | HTTPError.
Inductive wres := WOk (d : string) | WErr (e : werr).
Definition above (p f : name) : bool := starts (p ++ ["/"]) f.
Definition is_dir (k : disk) (d : name) : bool := match d with [] => true | _ => existsb (fun x => eqb x d || above d x) (k_dirs k) end.
(** [os.makedirs] unless [isdir], 40-45 *)
Definition make_dir (k : disk) (d : name) : disk * option werr :=
  if is_dir k d then (k, None)
  else if existsb (fun f => eqb f d || above f d) (dkeys (k_files k)) then (k, Some FileExists)
  else (Dk (d :: k_dirs k) (k_files k) (k_sent k), None).
Definition open_read (k : disk) (f : name) : wres :=
  if is_dir k f then WErr IsADirectory
  else match dget f (k_files k) with
       | Some d => WOk d
       | None => if existsb (fun g => above g f) (dkeys (k_files k)) then WErr NotADirectory else WErr NotFound
       end.
(** [writefile], 242-250 *)
Definition open_write (k : disk) (f : name) (d : string) : disk * option werr :=
  if is_dir k f then (k, Some IsADirectory)
  else if is_dir k (head_of f) then (Dk (k_dirs k) (dset f d (k_files k)) (k_sent k), None)
  else (k, Some NotFound).
(** The directory of the cache of a store, [abspath] with a slash added, 118-124 *)
Definition cache_root (r : remote) : name := rstrip_slash (r_rest r) ++ ["/"].
(** [urljoin(path, fname)] *)
Definition url_of (r : remote) (f : name) : name := dir_part (r_rest r) ++ f.
Definition with_query (r : remote) (u : name) : name := match r_query r with None => u | Some q => u ++ "?" :: q end.
(** [readfile], 252-283, of a remote store; [server n u] is the answer to request number [n], for the address [u] *)
Definition fetch (server : nat -> name -> option string) (r : remote) (f : name) (force : bool) (k : disk) : disk * wres :=
  let down := fun _ : unit =>
    let u := with_query r (url_of r f) in
    if negb (String.eqb (r_scheme r) "http") then (k, WErr NoProtocol)
    else let k1 := Dk (k_dirs k) (k_files k) (S (k_sent k)) in
         match server (k_sent k) u with
         | None => (k1, WErr HTTPError)
         | Some d => if r_cache r then
                       match make_dir k1 (head_of u) with
                       | (k2, Some e) => (k2, WErr e)
                       | (k2, None) => match open_write k2 (cache_root r ++ f) d with
                                       | (k3, Some e) => (k3, WErr e)
                                       | (k3, None) => (k3, open_read k3 (cache_root r ++ f))
                                       end
                       end
                     else (k1, WOk d)
         end in
  if r_cache r && negb force then
    match open_read k (cache_root r ++ f) with
    | WOk d => (k, WOk d)
    | WErr NotFound => down tt
    | WErr e => (k, WErr e)
    end
  else down tt.
(** [listfiles] of a remote store: of its cache (which has no prefix), 118-124 and 210-219 *)
Definition list_remote (r : remote) (k : disk) : list name :=
  if r_cache r then map (skipn (length (cache_root r))) (filter (starts (cache_root r)) (dkeys (k_files k))) else [].
(** Creating a store makes the directory of its cache, 91-105. *)
Inductive fop := Create (r : remote) | Read (r : remote) (f : name) (force : bool).
Definition fstep (server : nat -> name -> option string) (o : fop) (k : disk) : disk * wres :=
  match o with
  | Create r => if r_cache r then match make_dir k (rstrip_slash (r_rest r)) with (k1, Some e) => (k1, WErr e) | (k1, None) => (k1, WOk "") end else (k, WOk "")
  | Read r f force => fetch server r f force k
  end.
Definition fhist (server : nat -> name -> option string) (l : list fop) : disk := fold_left (fun k o => fst (fstep server o k)) l (Dk [] [] 0).

(** Publications of catalog resources: privacy declarations (antelope_v2_server/antelope/authorization.py), publications (lc_pub.py) and the catalog server
    (v2_catalog_server.py).  Simplifications: privacy scores and levels are integers; a publication is named by its origin, which contains no path separator, so that each
    name is one file; JSON keeps the values of a mapping but may reorder it (files are written with sort_keys). *)
From Coq Require Import String List ZArith.
From Verif Require Import Base PyStr.
Import ListNotations.
Open Scope string_scope.
Open Scope list_scope.

(** authorization.py:14 and 40 *)
Definition allowed_interfaces : list string := ["index"; "inventory"; "background"; "quantity"].
Definition allowed_scopes : list string := ["index"; "info"; "exch"; "exch_val"; "origin"; "lci"].

(** PrivacyDeclaration, 42-100; a level may be given as None *)
Definition level := option Z.
Record priv := Pv { pv_base : level; pv_policy : dict string level }.
(** [_set_policy], 78-80 *)
Definition set_policy (p : priv) (e : string * level) : priv := if mem (fst e) allowed_scopes then Pv (pv_base p) (dset (fst e) (snd e) (pv_policy p)) else p.
(** [__init__], 64-76: the base level and keyword arguments *)
Definition declare (base : level) (kw : dict string level) : priv := fold_left set_policy kw (Pv base []).
(** [from_dict], 55-62: the entry "base" is the first argument, all others are keywords (a key "self", which Python rejects, is not modelled) *)
Definition from_dict (d : dict string level) : priv := declare (match dget "base" d with Some b => b | None => None end) (ddel "base" d).
(** [_get_policy], 82-85 *)
Definition get_policy (p : priv) (scope : string) : level := match dget scope (pv_policy p) with Some l => l | None => pv_base p end.
(** [test], 87-94 *)
Definition test (p : priv) (scope : string) (score : Z) : bool :=
  if negb (mem scope allowed_scopes) then false else
  match get_policy p scope with None => true | Some l => (Z.max score 0 <=? l)%Z end.
(** [serialize], 96-100 *)
Definition ser_priv (p : priv) : dict string level := match pv_base p with None => pv_policy p | Some b => dset "base" (Some b) (pv_policy p) end.

(** The argument [privacy] of AntelopeV2Pub: None, a number or a mapping *)
Inductive parg := PNone | PNum (n : Z) | PDict (d : dict string level).
(** AntelopeV2Pub, lc_pub.py:116-159 *)
Record pub := Pub { pb_name : string; pb_ifs : list string; pb_priv : priv }.
Definition make_pub (name : string) (ifs : list string) (privacy : parg) : pub :=
  Pub name (filter (fun k => mem k allowed_interfaces) ifs) (match privacy with PNone => declare None [] | PNum n => declare (Some n) [] | PDict d => from_dict d end).
(** What is written: [serialize], 153-159 *)
Record pubj := PJ { j_name : string; j_ifs : list string; j_priv : dict string level }.
Definition ser_pub (p : pub) : pubj := PJ (pb_name p) (pb_ifs p) (ser_priv (pb_priv p)).

(** * The server, v2_catalog_server.py *)
Inductive served := V2 (p : pub) | V1 (name : string).
Inductive file := Good (j : pubj) | Broken.
(** live publications (None: the program is not running) and the files of the antelope directory *)
Record state := St { st_live : option (dict string served); st_disk : dict string file }.
Inductive sexn := SAttributeError | SFileExists | SUnknownOrigin | SJson | SKeyError | SNotRunning.
Inductive sret := SOk | SErr (e : sexn).
Section Server.
(** origins the catalog's resolver knows *)
Variable known : string -> bool.
(** JSON reading: the mapping comes back with the same values, in some order *)
Variable reorder : dict string level -> dict string level.
(** [_check_server], 31-48: publications have no attribute [type], so the error for a live name is always AttributeError *)
Definition check_server (s : state) (live : dict string served) (name : string) : sret :=
  if din name live then SErr SAttributeError else if din name (st_disk s) then SErr SFileExists else SOk.
(** [define_av2_instance], 88-92; [query] raises for unknown origins *)
Definition define2 (s : state) (name : string) (ifs : list string) (privacy : parg) : state * sret :=
  match st_live s with
  | None => (s, SErr SNotRunning)
  | Some live => match check_server s live name with
                 | SErr e => (s, SErr e)
                 | SOk => if negb (known name) then (s, SErr SUnknownOrigin) else
                          let p := make_pub name ifs privacy in
                          (St (Some (dset name (V2 p) live)) (dset name (Good (ser_pub p)) (st_disk s)), SOk)
                 end
  end.
(** the same, the program being killed while the file is written: lc_pub.py:35-39 opens the file for writing and then writes it *)
Definition define2_killed (s : state) (name : string) : state :=
  match st_live s with
  | None => s
  | Some live => match check_server s live name with SErr _ => s | SOk => if known name then St None (dset name Broken (st_disk s)) else s end
  end.
(** [define_av1_instance], 94-97, for a resolved fragment and a mapping with the five lists: nothing is written *)
Definition define1 (s : state) (name : string) : state * sret :=
  match st_live s with
  | None => (s, SErr SNotRunning)
  | Some live => match check_server s live name with SErr e => (s, SErr e) | SOk => (St (Some (dset name (V1 name) live)) (st_disk s), SOk) end
  end.
(** [delete_server], 50-53 *)
Definition delete (s : state) (name : string) : state := match st_live s with None => s | Some _ => St (st_live s) (ddel name (st_disk s)) end.
(** [__init__], 64-71, and [_init_antelope], 55-62 *)
Fixpoint load_all (fs : dict string file) (live : dict string served) : dict string served + sexn :=
  match fs with
  | [] => inl live
  | (_, Broken) :: _ => inr SJson
  | (_, Good j) :: r => if negb (known (j_name j)) then inr SUnknownOrigin else
                        load_all r (dset (j_name j) (V2 (make_pub (j_name j) (j_ifs j) (PDict (reorder (j_priv j))))) live)
  end.
Definition restart (s : state) : state * sret :=
  match load_all (st_disk s) [] with inl live => (St (Some live) (st_disk s), SOk) | inr e => (St None (st_disk s), SErr e) end.
(** [__getitem__], 78-86: the exact name, else the first name that starts with it *)
Definition server_for (live : dict string served) (item : string) : option served :=
  match dget item live with
  | Some p => Some p
  | None => option_map snd (find (fun e => String.prefix item (fst e)) live)
  end.
(** Histories *)
Inductive op := ODefine (name : string) (ifs : list string) (privacy : parg) | ODefine1 (name : string) | ODelete (name : string) | ORestart.
Definition step (s : state) (o : op) : state * sret :=
  match o with ODefine n i p => define2 s n i p | ODefine1 n => define1 s n | ODelete n => (delete s n, SOk) | ORestart => restart s end.
Definition run (ops : list op) : state -> state := fold_left (fun s o => fst (step s o)) ops.
End Server.
(** a new catalog *)
Definition fresh : state := St (Some []) [].

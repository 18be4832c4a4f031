(** Model of entity queries of a catalog: /repo/antelope_catalog/catalog/catalog.py 525-591 (LcCatalog._sorted_resources, gen_interfaces, query, lookup, fetch),
    /repo/antelope_catalog/catalog_query.py 60-75 and 109-119 (CatalogQuery._iface, get), /repo/lcatools/interfaces/abstract_query.py 50-64 (_perform_query),
    /repo/antelope_catalog/lc_resource.py 70-111 (_instantiate, check) and /repo/lcatools/implementations/basic.py 60-73 (_fetch, lookup, get).

    Simplifications: an archive is its reference, its static flag and a function from external references to what [_fetch] returns (an entity, None) or raises,
    constant while queries are made; entities are numbers, and the reference made of an entity ([make_ref]) is identified with it; only the basic interface;
    the static flag of a loaded resource is that of its archive; keyword arguments of [get] are not modelled. *)
From Coq Require Import ZArith.
From Verif Require Import Base PyStr ResModel.
Open Scope string_scope.
Open Scope nat_scope.
Open Scope list_scope.

Inductive qexn := QNotFound | QNotImplemented | QUnknownOrigin | QStopIteration | QOther.
Inductive qret (A : Type) := QOk (a : A) | QErr (e : qexn).
Arguments QOk {A} _. Arguments QErr {A} _.
Record archive := Ar { ar_ref : string; ar_static : bool; ar_get : string -> qret (option nat) }.
(** [_resolver], the archives loaded so far by resource object, [_queries] with the [_entity_cache] of each *)
Record cat := Ct { c_rs : resolver; c_arch : dict nat archive; c_q : dict string (dict string nat) }.
Definition with_arch (c : cat) d := Ct (c_rs c) d (c_q c).
Definition with_q (c : cat) d := Ct (c_rs c) (c_arch c) d.

Section Catalog.
(** [_instantiate], lc_resource.py:70-98: the archive of a resource, or an exception *)
Context (open : nat -> qret archive).
(** [check], 107-111 *)
Definition check (c : cat) (r : res) : cat * qret archive :=
  match dget (r_id r) (c_arch c) with
  | Some a => (c, QOk a)
  | None => match open (r_id r) with QOk a => (with_arch c (dset (r_id r) a (c_arch c)), QOk a) | QErr e => (c, QErr e) end
  end.
(** the sort key, catalog.py:526-527; [static], lc_resource.py:273-275 *)
Definition rank := (bool * Z * bool)%type.
Definition rank_of (c : cat) (origin : string) (r : res) : rank :=
  (negb (match dget (r_id r) (c_arch c) with Some a => ar_static a || String.eqb (lower (d_type (r_data r))) "json" | None => false end), d_prio (r_data r), negb (String.eqb (r_ref r) origin)).
Definition ble (a b : bool) : bool := negb a || b.
Definition rank_le (a b : rank) : bool :=
  let '(a1, a2, a3) := a in let '(b1, b2, b3) := b in
  if Bool.eqb a1 b1 then (if Z.eqb a2 b2 then ble a3 b3 else Z.leb a2 b2) else ble a1 b1.
(** [sorted] is stable *)
Fixpoint place (k : res -> rank) (x : res) (l : list res) : list res := match l with [] => [x] | y :: t => if rank_le (k x) (k y) then x :: l else y :: place k x t end.
Definition sort_rank (k : res -> rank) (l : list res) : list res := fold_right (place k) [] l.
(** [_sorted_resources], 525-528, for the basic interface *)
Definition sorted_resources (c : cat) (origin : string) (strict : bool) : qret (list res) :=
  match resolve (c_rs c) origin (Some ["basic"]) strict with RErr _ => QErr QUnknownOrigin | ROk l => QOk (sort_rank (rank_of c origin) l) end.
(** [lookup], 577-587: any exception is passed on *)
Fixpoint lookup_loop (c : cat) (ext : string) (rs : list res) : cat * qret string :=
  match rs with
  | [] => (c, QErr QNotFound)
  | r :: t => let '(c1, o) := check c r in
      match o with
      | QErr e => (c1, QErr e)
      | QOk a => match ar_get a ext with QErr e => (c1, QErr e) | QOk (Some _) => (c1, QOk (ar_ref a)) | QOk None => lookup_loop c1 ext t end
      end
  end.
Definition lookup (c : cat) (origin ext : string) : cat * qret string :=
  match sorted_resources c origin false with QErr e => (c, QErr e) | QOk rs => lookup_loop c ext rs end.
(** [_perform_query], abstract_query.py:50-64, of 'get' with EntityNotFound: an interface that raises it is passed over; NotImplementedError ends the search *)
Fixpoint query_loop (c : cat) (ext : string) (rs : list res) : cat * qret nat :=
  match rs with
  | [] => (c, QErr QNotFound)
  | r :: t => let '(c1, o) := check c r in
      match o with
      | QErr QNotImplemented => (c1, QErr QNotFound)
      | QErr e => (c1, QErr e)
      | QOk a => match ar_get a ext with
                 | QErr QNotFound | QOk None => query_loop c1 ext t
                 | QErr QNotImplemented => (c1, QErr QNotFound)
                 | QErr e => (c1, QErr e)
                 | QOk (Some x) => (c1, QOk x)
                 end
      end
  end.
Definition perform_get (c : cat) (origin ext : string) : cat * qret nat :=
  match sorted_resources c origin false with QErr e => (c, QErr e) | QOk rs => query_loop c ext rs end.
(** [LcCatalog.query], 559-575: UnknownOrigin, or StopIteration when the origin is known but has no resource *)
Definition query (c : cat) (origin : string) (strict refresh : bool) : cat * qret unit :=
  match resolve (c_rs c) origin None strict with
  | RErr _ => (c, QErr QUnknownOrigin)
  | ROk [] => (c, QErr QStopIteration)
  | ROk _ => (if refresh || negb (din origin (c_q c)) then with_q c (dset origin [] (c_q c)) else c, QOk tt)
  end.
(** [CatalogQuery.get], catalog_query.py:109-119, on the query object of [origin] *)
Definition get (c : cat) (origin ext : string) : cat * qret nat :=
  match dget origin (c_q c) with
  | None => (c, QErr QOther)
  | Some cache =>
      match dget ext cache with
      | Some x => (c, QOk x)
      | None => let '(c1, o) := perform_get c origin ext in
                match o with
                | QErr e => (c1, QErr e)
                | QOk x => (with_q c1 (dset origin (dset ext x (match dget origin (c_q c1) with Some d => d | None => [] end)) (c_q c1)), QOk x)
                end
      end
  end.
(** [cat.query(origin).get(ext)] *)
Definition query_get (c : cat) (origin : string) (refresh : bool) (ext : string) : cat * qret nat :=
  let '(c1, o) := query c origin false refresh in match o with QErr e => (c1, QErr e) | QOk _ => get c1 origin ext end.
(** [fetch], 589-591 *)
Definition fetch (c : cat) (origin ext : string) : cat * qret nat :=
  let '(c1, o) := lookup c origin ext in match o with QErr e => (c1, QErr e) | QOk org => query_get c1 org false ext end.

(** a history of queries, between which the resolver may change in any way ([OResolver]: resources added or deleted) *)
Inductive qop := OLookup (origin ext : string) | OGet (origin ext : string) (refresh : bool) | OFetch (origin ext : string) | OResolver (s : resolver).
Definition qstep (c : cat) (o : qop) : cat := match o with OResolver s => Ct s (c_arch c) (c_q c) | OLookup a b => fst (lookup c a b) | OGet a b r => fst (query_get c a r b) | OFetch a b => fst (fetch c a b) end.
Definition qrun (c : cat) (l : list qop) : cat := fold_left qstep l c.
End Catalog.

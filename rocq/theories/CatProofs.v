(** Which resource answers a query (model: CatModel.v). *)
From Coq Require Import ZArith Lia.
From Verif Require Import Base PyStr ResModel ResProps CatModel.
Open Scope string_scope.
Open Scope nat_scope.
Open Scope list_scope.
Local Arguments eqb : simpl never.

(** * The stable sort by rank *)
Ltac rank_solve := repeat match goal with r : rank |- _ => destruct r as [[[] ?] []] | r : (bool * Z * bool)%type |- _ => destruct r as [[[] ?] []] end; cbn; intros;
  repeat match goal with H : context [Z.eqb ?a ?b] |- _ => destruct (Z.eqb_spec a b) | |- context [Z.eqb ?a ?b] => destruct (Z.eqb_spec a b) end;
  repeat match goal with H : Z.leb _ _ = true |- _ => apply Z.leb_le in H | H : Z.leb _ _ = false |- _ => apply Z.leb_gt in H end;
  try discriminate; try reflexivity; try (apply Z.leb_le; lia); try lia; auto.
Lemma rank_refl a : rank_le a a = true. Proof. rank_solve. Qed.
Lemma rank_trans a b c : rank_le a b = true -> rank_le b c = true -> rank_le a c = true. Proof. rank_solve. Qed.
Lemma rank_total a b : rank_le a b = false -> rank_le b a = true. Proof. rank_solve. Qed.

Section Sort.
Context (k : res -> rank).
Fixpoint sorted (l : list res) : Prop := match l with [] => True | x :: t => (forall y, In y t -> rank_le (k x) (k y) = true) /\ sorted t end.
Lemma place_in x l y : In y (place k x l) <-> y = x \/ In y l.
Proof. induction l as [|z l IH]; cbn; [intuition congruence|]. destruct (rank_le (k x) (k z)); cbn; [intuition congruence|]. rewrite IH. intuition congruence. Qed.
Lemma sort_in l y : In y (sort_rank k l) <-> In y l.
Proof. induction l as [|x l IH]; cbn; [tauto|]. change (fold_right (place k) [] l) with (sort_rank k l). rewrite place_in, IH. intuition congruence. Qed.
Lemma place_sorted x l : sorted l -> sorted (place k x l).
Proof.
  induction l as [|y l IH]; cbn; intros S; [split; [intros z []|exact I]|]. destruct S as [Y S]. destruct (rank_le (k x) (k y)) eqn:E; cbn.
  - split; [|split; assumption]. intros z [<-|J]; [exact E|]. exact (rank_trans _ _ _ E (Y z J)).
  - split; [|apply IH, S]. intros z J. apply place_in in J as [->|J]; [apply rank_total, E|exact (Y z J)].
Qed.
Lemma sort_sorted l : sorted (sort_rank k l). Proof. induction l as [|x l IH]; cbn; [exact I|]. apply place_sorted, IH. Qed.
Lemma find_place (P : res -> bool) x s : sorted s ->
  find P (place k x s) = if P x then match find P s with Some r => if rank_le (k x) (k r) then Some x else Some r | None => Some x end else find P s.
Proof.
  induction s as [|y s IH]; cbn; intros S; [destruct (P x); reflexivity|]. destruct S as [Y S]. destruct (rank_le (k x) (k y)) eqn:E; cbn.
  - destruct (P x) eqn:PX; [|reflexivity]. destruct (P y); [rewrite E; reflexivity|]. destruct (find P s) as [r|] eqn:F; [|reflexivity]. apply find_some in F as [J _]. rewrite (rank_trans _ _ _ E (Y r J)). reflexivity.
  - rewrite (IH S). destruct (P y) eqn:PY; [rewrite E; destruct (P x); reflexivity|]. reflexivity.
Qed.
End Sort.
(** [r] satisfies [P], no element of [l] that does has a smaller rank, and none before it an equal one *)
Definition best (k : res -> rank) (P : res -> bool) (l : list res) (r : res) : Prop := exists l1 l2, l = l1 ++ r :: l2 /\ P r = true /\
  (forall x, In x l1 -> P x = true -> rank_le (k x) (k r) = false) /\ (forall x, In x l2 -> P x = true -> rank_le (k r) (k x) = true).
Lemma find_best k P l : match find P (sort_rank k l) with Some r => best k P l r | None => forall x, In x l -> P x = false end.
Proof.
  induction l as [|x l IH]; cbn; [intros x []|]. change (fold_right (place k) [] l) with (sort_rank k l). rewrite (find_place k P x _ (sort_sorted k l)). destruct (P x) eqn:PX.
  - destruct (find P (sort_rank k l)) as [r|].
    + destruct IH as (l1 & l2 & -> & PR & B1 & B2). destruct (rank_le (k x) (k r)) eqn:E.
      * exists [], (l1 ++ r :: l2). split; [reflexivity|]. split; [exact PX|]. split; [intros y []|]. intros y J PY. apply in_app_iff in J as [J|[<-|J]]; [|exact E|exact (rank_trans _ _ _ E (B2 y J PY))]. exact (rank_trans _ _ _ E (rank_total _ _ (B1 y J PY))).
      * exists (x :: l1), l2. split; [reflexivity|]. split; [exact PR|]. split; [|exact B2]. intros y [<-|J] PY; [exact E|exact (B1 y J PY)].
    + exists [], l. split; [reflexivity|]. split; [exact PX|]. split; [intros y []|]. intros y J PY. rewrite (IH y J) in PY. discriminate.
  - destruct (find P (sort_rank k l)) as [r|].
    + destruct IH as (l1 & l2 & -> & PR & B1 & B2). exists (x :: l1), l2. split; [reflexivity|]. split; [exact PR|]. split; [|exact B2]. intros y [<-|J] PY; [congruence|exact (B1 y J PY)].
    + intros y [<-|J]; [exact PX|exact (IH y J)].
Qed.
Lemma two_splits {A} (a1 a2 : list A) r r' b2 : forall b1, a1 ++ r :: a2 = b1 ++ r' :: b2 -> r = r' \/ (In r b1 /\ In r' a2) \/ (In r b2 /\ In r' a1).
Proof.
  induction a1 as [|x a1 IH]; intros [|y b1] E; cbn in E; injection E as -> E.
  - auto.
  - right. left. split; [left; reflexivity|]. rewrite E. apply in_elt.
  - right. right. split; [|left; reflexivity]. rewrite <- E. apply in_elt.
  - destruct (IH b1 E) as [->|[[J K]|[J K]]]; [auto|right; left|right; right]; (split; [|]); try assumption; right; assumption.
Qed.
Lemma best_unique k P l r r' : best k P l r -> best k P l r' -> r = r'.
Proof.
  intros (a1 & a2 & -> & PR & B1 & B2) (b1 & b2 & E & PR' & C1 & C2). destruct (two_splits _ _ _ _ _ _ E) as [X|[[J K]|[J K]]]; [exact X| |].
  - assert (X := C1 r J PR). rewrite (B2 r' K PR') in X. discriminate.
  - assert (X := B1 r' K PR'). rewrite (C2 r J PR) in X. discriminate.
Qed.
Lemma find_sort_best k P l r : best k P l r -> find P (sort_rank k l) = Some r.
Proof.
  intros B. assert (F := find_best k P l). destruct (find P (sort_rank k l)) as [r'|]; [f_equal; exact (best_unique k P l r' r F B)|]. destruct B as (l1 & l2 & E & PR & _). rewrite F in PR; [discriminate|]. rewrite E. apply in_elt.
Qed.

(** * The loops *)
Section Loops.
Context (open : nat -> qret archive).
(** the archive a resource has, or would have when loaded *)
Definition arch (c : cat) (r : res) : qret archive := match dget (r_id r) (c_arch c) with Some a => QOk a | None => open (r_id r) end.
(** the state after resources of [s] were loaded *)
Record grown (c c1 : cat) (s : list res) : Prop := GR { gr_rs : c_rs c1 = c_rs c; gr_q : c_q c1 = c_q c; gr_arch : forall x, arch c1 x = arch c x;
  gr_loaded : forall i, dget i (c_arch c1) = dget i (c_arch c) \/ (dget i (c_arch c) = None /\ (exists a, open i = QOk a /\ dget i (c_arch c1) = Some a) /\ exists x, In x s /\ r_id x = i) }.
Lemma grown_refl c s : grown c c s. Proof. split; auto. Qed.
Lemma grown_trans a b c s t : grown a b s -> grown b c t -> grown a c (s ++ t).
Proof.
  intros [A1 A2 A3 A4] [B1 B2 B3 B4]. split; try congruence. intros i. destruct (B4 i) as [E|(N & (u & U1 & U2) & x & J & E)].
  - rewrite E. destruct (A4 i) as [F|(N & (u & U1 & U2) & x & J & F)]; [auto|right]. split; [exact N|]. split; [exists u; auto|exists x; rewrite in_app_iff; auto].
  - right. destruct (A4 i) as [F|(_ & (v & _ & V2) & _)]; [|congruence]. split; [congruence|]. split; [exists u; auto|]. exists x. rewrite in_app_iff. auto.
Qed.
Lemma check_spec c r : exists c1, check open c r = (c1, arch c r) /\ grown c c1 [r].
Proof.
  unfold check, arch. destruct (dget (r_id r) (c_arch c)) as [a|] eqn:D; [exists c; split; [reflexivity|apply grown_refl]|]. destruct (open (r_id r)) as [a|e] eqn:O; [|exists c; split; [reflexivity|apply grown_refl]].
  eexists. split; [reflexivity|]. split; cbn; try reflexivity.
  - intros x. unfold arch. cbn. rewrite dget_dset. destruct (eqb_spec (r_id x) (r_id r)) as [->|N]; [rewrite D, O; reflexivity|reflexivity].
  - intros i. rewrite dget_dset. destruct (eqb_spec i (r_id r)) as [->|N]; [right; split; [exact D|]; split; [exists a; auto|exists r; cbn; auto]|auto].
Qed.
(** what stops [lookup] and what stops [get] *)
Definition stops_lookup (c : cat) (ext : string) (r : res) : bool := match arch c r with QOk a => match ar_get a ext with QOk None => false | _ => true end | QErr _ => true end.
Definition stops_get (c : cat) (ext : string) (r : res) : bool := match arch c r with QOk a => match ar_get a ext with QOk None | QErr QNotFound => false | _ => true end | QErr _ => true end.
Definition said_lookup (c : cat) (ext : string) (r : res) : qret string := match arch c r with QOk a => match ar_get a ext with QOk _ => QOk (ar_ref a) | QErr e => QErr e end | QErr e => QErr e end.
Definition as_get (e : qexn) : qexn := match e with QNotImplemented => QNotFound | e => e end.
Definition said_get (c : cat) (ext : string) (r : res) : qret nat :=
  match arch c r with QOk a => match ar_get a ext with QOk (Some x) => QOk x | QOk None => QErr QNotFound | QErr e => QErr (as_get e) end | QErr e => QErr (as_get e) end.
Lemma find_ext2 {A} (f g : A -> bool) l : (forall x, f x = g x) -> find f l = find g l.
Proof. intros E. induction l as [|x l IH]; cbn; [reflexivity|]. rewrite E, IH. reflexivity. Qed.
Lemma stops_lookup_grown c c1 s ext x : grown c c1 s -> stops_lookup c1 ext x = stops_lookup c ext x. Proof. intros G. unfold stops_lookup. rewrite (gr_arch _ _ _ G). reflexivity. Qed.
Lemma said_lookup_grown c c1 s ext x : grown c c1 s -> said_lookup c1 ext x = said_lookup c ext x. Proof. intros G. unfold said_lookup. rewrite (gr_arch _ _ _ G). reflexivity. Qed.
Lemma stops_get_grown c c1 s ext x : grown c c1 s -> stops_get c1 ext x = stops_get c ext x. Proof. intros G. unfold stops_get. rewrite (gr_arch _ _ _ G). reflexivity. Qed.
Lemma said_get_grown c c1 s ext x : grown c c1 s -> said_get c1 ext x = said_get c ext x. Proof. intros G. unfold said_get. rewrite (gr_arch _ _ _ G). reflexivity. Qed.
Lemma lookup_loop_spec ext rs : forall c, exists c1, lookup_loop open c ext rs = (c1, match find (stops_lookup c ext) rs with Some r => said_lookup c ext r | None => QErr QNotFound end) /\
  exists s, grown c c1 s /\ incl s rs /\ forall x, In x s -> stops_lookup c ext x = true -> find (stops_lookup c ext) rs = Some x.
Proof.
  induction rs as [|r rs IH]; intros c; cbn; [exists c; split; [reflexivity|]; exists []; split; [apply grown_refl|]; split; [intros x []|intros x []]|].
  destruct (check_spec c r) as (c1 & -> & G).
  assert (ONE : stops_lookup c ext r = true -> exists s, grown c c1 s /\ incl s (r :: rs) /\ forall x, In x s -> stops_lookup c ext x = true -> Some r = Some x).
  { intros E. exists [r]. split; [exact G|]. split; [intros x [<-|[]]; left; reflexivity|]. intros x [<-|[]] _. reflexivity. }
  destruct (stops_lookup c ext r) eqn:SL.
  - exists c1. split; [|exact (ONE eq_refl)]. unfold stops_lookup in SL. unfold said_lookup. destruct (arch c r) as [a|e]; [|reflexivity]. destruct (ar_get a ext) as [[y|]|e]; try reflexivity. discriminate.
  - destruct (IH c1) as (c2 & L & s & G2 & I2 & F2). rewrite (find_ext2 (stops_lookup c1 ext) (stops_lookup c ext) rs) in L, F2 by (intros x; apply (stops_lookup_grown _ _ _ _ _ G)). exists c2. split.
    + assert (X : lookup_loop open c1 ext rs = (c2, match find (stops_lookup c ext) rs with Some r => said_lookup c ext r | None => QErr QNotFound end)) by (rewrite L; destruct (find _ rs) as [r'|]; [rewrite (said_lookup_grown _ _ _ _ _ G)|]; reflexivity).
      unfold stops_lookup in SL. destruct (arch c r) as [a|e]; [|discriminate]. destruct (ar_get a ext) as [[y|]|e]; try discriminate. exact X.
    + exists ([r] ++ s). split; [exact (grown_trans _ _ _ _ _ G G2)|]. split; [intros x [<-|J]; [left; reflexivity|right; apply I2, J]|]. intros x [<-|J] SX; [congruence|]. apply F2; [exact J|]. rewrite (stops_lookup_grown _ _ _ _ _ G). exact SX.
Qed.
Lemma query_loop_spec ext rs : forall c, exists c1 s, query_loop open c ext rs = (c1, match find (stops_get c ext) rs with Some r => said_get c ext r | None => QErr QNotFound end) /\ grown c c1 s.
Proof.
  induction rs as [|r rs IH]; intros c; cbn; [exists c, []; split; [reflexivity|apply grown_refl]|]. destruct (check_spec c r) as (c1 & -> & G). destruct (stops_get c ext r) eqn:SL.
  - exists c1, [r]. split; [|exact G]. unfold stops_get in SL. unfold said_get. destruct (arch c r) as [a|[]]; try reflexivity. destruct (ar_get a ext) as [[y|]|[]]; try reflexivity; discriminate.
  - destruct (IH c1) as (c2 & s & L & G2). rewrite (find_ext2 (stops_get c1 ext) (stops_get c ext) rs) in L by (intros x; apply (stops_get_grown _ _ _ _ _ G)). exists c2, ([r] ++ s). split; [|exact (grown_trans _ _ _ _ _ G G2)].
    assert (X : query_loop open c1 ext rs = (c2, match find (stops_get c ext) rs with Some r => said_get c ext r | None => QErr QNotFound end)) by (rewrite L; destruct (find _ rs) as [r'|]; [rewrite (said_get_grown _ _ _ _ _ G)|]; reflexivity).
    unfold stops_get in SL. destruct (arch c r) as [a|e]; [|discriminate]. destruct (ar_get a ext) as [[y|]|[]]; try discriminate; exact X.
Qed.
End Loops.

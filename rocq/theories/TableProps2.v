(** C113: the grid of flowables. *)
From Coq Require Import String Permutation Sorted.
From Verif Require Import Num Base PyStr TableModel TableProofs TableProps.
Open Scope string_scope.
Open Scope list_scope.

Fixpoint qsum (l : list Qc) : Qc := match l with [] => Q2Qc 0 | v :: r => (v + qsum r)%Qc end.
Lemma qsum_app l m : qsum (l ++ m) = (qsum l + qsum m)%Qc.
Proof. induction l as [|a l IH]; cbn; [ring|]. rewrite IH. ring. Qed.
Lemma qsum_perm l m : Permutation l m -> qsum l = qsum m.
Proof. induction 1; cbn; try rewrite IHPermutation; try ring; congruence. Qed.

(** ** Sums *)
(** What an exchange or a component contributes *)
Definition contrib (x : gitem) : Qc :=
  match x with
  | GExch _ v vd => (qsum (map snd vd) + match v with Some v => v | None => Q2Qc 0 end)%Qc
  | GComp _ v => v
  | GCf _ _ => Q2Qc 0
  end.
Definition additive (x : gitem) : Prop := match x with GCf _ _ => False | _ => True end.
Definition dsum (d : dict string Qc) : Qc := qsum (map snd d).
Lemma dsum_dset k v d : NoDup (dkeys d) -> dsum (dset k v d) = (dsum d - gget k d + v)%Qc.
Proof.
  unfold gget, dsum. induction d as [|[k0 w] d IH]; intros ND; [cbn; ring|]. inversion ND as [|? ? N ND']; subst. cbn [dset dget].
  destruct (eqb_spec k k0) as [->|NE]; cbn [map qsum snd]; [ring|]. rewrite IH by exact ND'. ring.
Qed.
Lemma gadd_nodup k v d : NoDup (dkeys d) -> NoDup (dkeys (gadd k v d)).
Proof. apply NoDup_dset. Qed.
Lemma gadd_sum k v d : NoDup (dkeys d) -> dsum (gadd k v d) = (dsum d + v)%Qc.
Proof. intros ND. unfold gadd. rewrite dsum_dset by exact ND. ring. Qed.
Lemma gadds_sum (vd : list (string * string * Qc)) : forall d, NoDup (dkeys d) ->
  let d' := fold_left (fun d r => gadd (fst (fst r) ++ ": " ++ snd (fst r))%string (snd r) d) vd d in NoDup (dkeys d') /\ dsum d' = (dsum d + qsum (map snd vd))%Qc.
Proof.
  induction vd as [|r vd IH]; intros d ND; cbn [fold_left map qsum]; [split; [exact ND|ring]|].
  destruct (IH (gadd (fst (fst r) ++ ": " ++ snd (fst r))%string (snd r) d) (gadd_nodup _ _ _ ND)) as [A B]. split; [exact A|].
  cbv zeta in B. rewrite B, gadd_sum by exact ND. ring.
Qed.

(** Touching *)
Lemma gget_touch k k' d : gget k (gtouch k' d) = gget k d.
Proof. unfold gget, gtouch, din. destruct (dget k' d) eqn:E; [reflexivity|]. rewrite dget_dset. destruct (eqb_spec k k') as [->|]; [rewrite E; reflexivity|reflexivity]. Qed.
Lemma touch_nodup k d : NoDup (dkeys d) -> NoDup (dkeys (gtouch k d)).
Proof. intros N. unfold gtouch. destruct (din k d); [exact N|apply NoDup_dset; exact N]. Qed.
Lemma touch_same k d : gget k d <> Q2Qc 0 -> gtouch k d = d.
Proof. unfold gget, gtouch, din. destruct (dget k d); [reflexivity|congruence]. Qed.
Lemma qzero_true v : qzero v = true <-> v = Q2Qc 0.
Proof. unfold qzero. destruct (Qc_eq_dec v (Q2Qc 0)); intuition congruence. Qed.
Lemma qzero_false v : qzero v = false <-> v <> Q2Qc 0.
Proof. unfold qzero. destruct (Qc_eq_dec v (Q2Qc 0)); intuition congruence. Qed.

(** The loop that looks for a free key always ends: there are fewer used keys than candidates. *)
Fixpoint dots (n : nat) : string := match n with 0 => "" | S m => "." ++ dots m end.
Lemma sapp_assoc a b c : ((a ++ b) ++ c = a ++ (b ++ c))%string.
Proof. induction a as [|x a IH]; cbn; [reflexivity|]. f_equal. exact IH. Qed.
Lemma sapp_nil a : (a ++ "" = a)%string.
Proof. induction a as [|x a IH]; cbn; [reflexivity|]. f_equal. exact IH. Qed.
Lemma sapp_inj a b c : (a ++ b = a ++ c)%string -> b = c.
Proof. induction a as [|x a IH]; cbn; intros E; [exact E|]. injection E. exact IH. Qed.
Lemma dots_inj n : forall m, dots n = dots m -> n = m.
Proof. induction n as [|n IH]; intros [|m] E; cbn in E; try discriminate; [reflexivity|]. f_equal. apply IH. congruence. Qed.
Lemma free_key_found fuel : forall k d, (exists i, i < fuel /\ gget (k ++ dots i)%string d = Q2Qc 0) ->
  exists k', free_key fuel k d = (k', gtouch k' d) /\ gget k' d = Q2Qc 0.
Proof.
  induction fuel as [|n IH]; intros k d [i [L Z]]; [lia|]. cbn [free_key]. rewrite gget_touch. destruct (qzero (gget k d)) eqn:E.
  - exists k. split; [reflexivity|]. apply qzero_true. exact E.
  - apply qzero_false in E. rewrite touch_same by exact E. apply IH. destruct i as [|i]; [exfalso; apply E; cbn in Z; rewrite sapp_nil in Z; exact Z|].
    exists i. split; [lia|]. rewrite sapp_assoc. exact Z.
Qed.
Lemma free_key_ok k d : exists k', free_key (S (length d)) k d = (k', gtouch k' d) /\ gget k' d = Q2Qc 0.
Proof.
  apply free_key_found.
  assert (D : (exists i, i < S (length d) /\ gget (k ++ dots i)%string d = Q2Qc 0) \/ forall i, i < S (length d) -> gget (k ++ dots i)%string d <> Q2Qc 0).
  { induction (S (length d)) as [|n IH]; [right; intros; lia|]. destruct IH as [[i [L E]]|IH]; [left; exists i; split; [lia|exact E]|].
    destruct (Qc_eq_dec (gget (k ++ dots n)%string d) (Q2Qc 0)) as [E|N]; [left; exists n; split; [lia|exact E]|]. right. intros i L.
    destruct (Nat.eq_dec i n) as [->|]; [exact N|]. apply IH. lia. }
  destruct D as [D|D]; [exact D|exfalso].
  assert (L : length (map (fun i => (k ++ dots i)%string) (seq 0 (S (length d)))) <= length (dkeys d)).
  { apply NoDup_incl_length.
    - assert (G : forall l, NoDup l -> NoDup (map (fun i => (k ++ dots i)%string) l)); [|apply G, seq_NoDup].
      induction 1 as [|i l N ND IH]; cbn; constructor; [|exact IH]. intros J. apply in_map_iff in J as [j [E J]]. apply sapp_inj, dots_inj in E as ->. contradiction.
    - intros s J. apply in_map_iff in J as [i [<- J]]. apply in_seq in J. assert (Z : gget (k ++ dots i)%string d <> Q2Qc 0) by (apply D; lia).
      unfold gget in Z. destruct (dget (k ++ dots i)%string d) eqn:E; [|congruence]. eapply dget_Some_key; exact E. }
  rewrite map_length, seq_length in L. unfold dkeys in L. rewrite map_length in L. lia.
Qed.

(** One factor: nothing but zeros is overwritten, and the factor is there afterwards. *)
Lemma put_cf_spec f d lv : let d' := put_cf f d lv in
  (NoDup (dkeys d) -> NoDup (dkeys d')) /\ (forall k w, w <> Q2Qc 0 -> dget k d = Some w -> dget k d' = Some w)
  /\ (exists k, dget k d' = Some (snd lv)) /\ (forall k w, w <> Q2Qc 0 -> dget k d' = Some w -> dget k d = Some w \/ w = snd lv).
Proof.
  destruct lv as [loc v]. unfold put_cf. cbn [snd].
  set (key := if eqb loc "GLO" then g_canon f else loc). rewrite gget_touch.
  assert (PUT : forall k0, gget k0 d = Q2Qc 0 -> let d' := dset k0 v (gtouch k0 d) in
    (NoDup (dkeys d) -> NoDup (dkeys d')) /\ (forall k w, w <> Q2Qc 0 -> dget k d = Some w -> dget k d' = Some w)
    /\ (exists k, dget k d' = Some v) /\ (forall k w, w <> Q2Qc 0 -> dget k d' = Some w -> dget k d = Some w \/ w = v)).
  { intros k0 Z. cbv zeta. split; [intros N; apply NoDup_dset, touch_nodup, N|]. split; [|split].
    - intros k w W D. rewrite dget_dset. destruct (eqb_spec k k0) as [->|NE]; [unfold gget in Z; rewrite D in Z; congruence|].
      unfold gtouch. destruct (din k0 d); [exact D|]. rewrite dget_dset_other; auto.
    - exists k0. apply dget_dset_same.
    - intros k w W D. rewrite dget_dset in D. destruct (eqb_spec k k0) as [->|NE]; [right; congruence|]. left.
      unfold gtouch in D. destruct (din k0 d); [exact D|]. rewrite dget_dset_other in D; auto. }
  destruct (qzero (gget key d)) eqn:EZ; [apply PUT, qzero_true, EZ|]. apply qzero_false in EZ. rewrite !touch_same by exact EZ.
  unfold qeqb. destruct (Qc_eq_dec (gget key d) v) as [EV|NV].
  - split; [auto|]. split; [auto|]. split; [|auto]. exists key. unfold gget in EV, EZ. destruct (dget key d); congruence.
  - destruct (free_key_ok ("[" ++ loc ++ "] " ++ g_name f)%string d) as [k' [-> Z]]. apply PUT. exact Z.
Qed.
Lemma put_cfs_spec f locs : forall d, let d' := fold_left (put_cf f) locs d in
  (NoDup (dkeys d) -> NoDup (dkeys d')) /\ (forall k w, w <> Q2Qc 0 -> dget k d = Some w -> dget k d' = Some w)
  /\ (forall l v, In (l, v) locs -> v <> Q2Qc 0 -> exists k, dget k d' = Some v)
  /\ (forall k w, w <> Q2Qc 0 -> dget k d' = Some w -> dget k d = Some w \/ exists l, In (l, w) locs).
Proof.
  induction locs as [|lv locs IH]; intros d; cbn [fold_left]; [repeat split; auto; intros l v []|].
  destruct (put_cf_spec f d lv) as (A1 & A2 & A3 & A4). destruct (IH (put_cf f d lv)) as (B1 & B2 & B3 & B4). cbv zeta in *.
  split; [auto|]. split; [auto|]. split.
  - intros l v [->|J] NZ; [|eapply B3; eauto]. destruct A3 as [k E]. exists k. apply B2; auto.
  - intros k w W D. destruct (B4 k w W D) as [D'|[l J]]; [|right; exists l; right; exact J].
    destruct (A4 k w W D') as [|E]; [auto|]. right. exists (fst lv). left. destruct lv. cbn [fst snd] in *. congruence.
Qed.

(** ** Cells *)
Lemma g_put_nodup d x : NoDup (dkeys d) -> NoDup (dkeys (g_put d x)).
Proof.
  intros N. destruct x as [f v vd|f locs|f v]; cbn [g_put].
  - destruct (gadds_sum vd d N) as [A _]. destruct v; [apply gadd_nodup|]; exact A.
  - apply put_cfs_spec. exact N.
  - apply gadd_nodup. exact N.
Qed.
Lemma g_extract_nodup xs : NoDup (dkeys (g_extract xs)).
Proof.
  unfold g_extract. assert (G : forall d, NoDup (dkeys d) -> NoDup (dkeys (fold_left g_put xs d))); [|apply G; constructor].
  induction xs as [|x xs IH]; intros d N; cbn; [exact N|]. apply IH, g_put_nodup, N.
Qed.
Lemma g_extract_sum xs : Forall additive xs -> dsum (g_extract xs) = qsum (map contrib xs).
Proof.
  intros F. unfold g_extract.
  assert (G : forall d, NoDup (dkeys d) -> dsum (fold_left g_put xs d) = (dsum d + qsum (map contrib xs))%Qc).
  { induction F as [|x xs A F IH]; intros d N; cbn [fold_left map qsum]; [ring|]. rewrite IH by (apply g_put_nodup; exact N).
    assert (E : dsum (g_put d x) = (dsum d + contrib x)%Qc); [|rewrite E; ring].
    destruct x as [f v vd|f locs|f v]; cbn [g_put contrib]; [|destruct A|apply gadd_sum; exact N].
    destruct (gadds_sum vd d N) as [A1 A2]. cbv zeta in A2. destruct v as [v|]; [rewrite gadd_sum by exact A1|]; rewrite A2; ring. }
  rewrite G by constructor. unfold dsum. cbn. ring.
Qed.
Definition factors_only (x : gitem) : Prop := match x with GCf _ _ => True | _ => False end.
Definition has_factor (v : Qc) (x : gitem) : Prop := match x with GCf _ locs => exists l, In (l, v) locs | _ => False end.
Lemma g_extract_cfs xs : Forall factors_only xs ->
  forall v, v <> Q2Qc 0 -> (exists k, dget k (g_extract xs) = Some v) <-> Exists (has_factor v) xs.
Proof.
  intros F v NZ. unfold g_extract.
  assert (G : forall d, (exists k, dget k (fold_left g_put xs d) = Some v) <-> (exists k, dget k d = Some v) \/ Exists (has_factor v) xs).
  { induction F as [|x xs A F IH]; intros d; cbn [fold_left].
    - split; [auto|]. intros [H|H]; [exact H|inversion H].
    - destruct x as [f w vd|f locs|f w]; try destruct A. cbn [g_put]. destruct (put_cfs_spec f locs d) as (_ & P2 & P3 & P4). cbv zeta in *. rewrite IH. split.
      + intros [[k D]|H]; [|right; right; exact H]. destruct (P4 k v NZ D) as [D'|J]; [left; eauto|right; left; exact J].
      + intros [[k D]|H]; [left; exists k; apply P2; auto|]. apply Exists_cons in H as [[l J]|H']; [|right; exact H'].
        left. eapply P3; eauto. }
  rewrite (G []). split; [intros [[k D]|H]; [discriminate|exact H]|auto].
Qed.
(** The keys are long enough to be sorted if the locations and the canonical names are. *)
Definition sortable (x : gitem) : Prop :=
  2 <= String.length (g_canon (g_flow x)) /\ match x with GCf _ locs => forall l v, In (l, v) locs -> 2 <= String.length l | _ => True end.
Lemma sapp_length a b : String.length (a ++ b) = String.length a + String.length b.
Proof. induction a as [|x a IH]; cbn; [reflexivity|]. f_equal. exact IH. Qed.
Definition longkeys (d : dict string Qc) : Prop := forall k, In k (dkeys d) -> 2 <= String.length k.
Lemma long_dset k v d : 2 <= String.length k -> longkeys d -> longkeys (dset k v d).
Proof. intros L H s J. apply In_dkeys_dset in J as [->|J]; auto. Qed.
Lemma long_touch k d : 2 <= String.length k -> longkeys d -> longkeys (gtouch k d).
Proof. intros L H. unfold gtouch. destruct (din k d); [exact H|apply long_dset; auto]. Qed.
Lemma long_free fuel : forall k d, 2 <= String.length k -> longkeys d -> 2 <= String.length (fst (free_key fuel k d)) /\ longkeys (snd (free_key fuel k d)).
Proof.
  induction fuel as [|n IH]; intros k d L H; cbn [free_key]; [auto|]. destruct (qzero (gget k (gtouch k d))); [split; [exact L|apply long_touch; auto]|].
  apply IH; [rewrite sapp_length; cbn; lia|apply long_touch; auto].
Qed.
Lemma long_put d x : sortable x -> longkeys d -> longkeys (g_put d x).
Proof.
  intros [C S] H. destruct x as [f v vd|f locs|f v]; cbn [g_put g_flow] in *.
  - assert (G : longkeys (fold_left (fun d r => gadd (fst (fst r) ++ ": " ++ snd (fst r))%string (snd r) d) vd d)).
    { clear - H. revert d H. induction vd as [|r vd IH]; intros d H; cbn [fold_left]; [exact H|]. apply IH. apply long_dset; [|exact H].
      rewrite !sapp_length. cbn. lia. }
    destruct v; [apply long_dset; auto|exact G].
  - revert d H. induction locs as [|[l v] locs IH]; intros d H; cbn [fold_left]; [exact H|]. apply IH; [intros l' v' J; eapply S; right; exact J|].
    assert (LL : 2 <= String.length l) by (eapply S; left; reflexivity). unfold put_cf.
    assert (LK : 2 <= String.length (if eqb l "GLO" then g_canon f else l)) by (destruct (eqb l "GLO"); auto).
    assert (HT := long_touch _ d LK H). destruct (qzero _); [apply long_dset; auto|]. destruct (qeqb _ _); [exact HT|].
    match goal with |- context [free_key ?n ?k ?e] => destruct (free_key n k e) as [k' d'] eqn:E; destruct (long_free n k e) as [A B] end.
    + rewrite !sapp_length. cbn. lia.
    + exact HT.
    + rewrite E in A, B. apply long_dset; auto.
  - apply long_dset; auto.
Qed.
Lemma long_extract xs : Forall sortable xs -> longkeys (g_extract xs).
Proof.
  intros F. unfold g_extract. assert (G : forall d, longkeys d -> longkeys (fold_left g_put xs d)); [|apply G; intros k []].
  induction F as [|x xs S F IH]; intros d H; cbn; [exact H|]. apply IH, long_put; auto.
Qed.

(** ** The grid *)
Lemma Forall2_imp {A B} (P Q : A -> B -> Prop) l m : (forall a b, P a b -> Q a b) -> Forall2 P l m -> Forall2 Q l m.
Proof. intros H. induction 1; constructor; auto. Qed.
(** The number a line shows in column [i], and the total of a column *)
Definition shown (i : nat) (s : @sline Qc) : Qc := match nth_error (s_vals s) i with Some (Some v) => v | _ => Q2Qc 0 end.
Definition total (i : nat) (ls : list (list sline)) : Qc := qsum (map (shown i) (concat ls)).

Lemma sum_partition {A} (f : A -> list string) (w : A -> Qc) xs : forall rs, NoDup rs -> (forall x, In x xs -> In (f x) rs) ->
  qsum (map (fun r => qsum (map w (filter (fun x => eqb (f x) r) xs))) rs) = qsum (map w xs).
Proof.
  induction xs as [|x xs IH]; intros rs ND C.
  - cbn. clear. induction rs as [|r rs IH]; cbn; [reflexivity|]. rewrite IH. ring.
  - assert (E : forall l, NoDup l -> qsum (map (fun r => qsum (map w (filter (fun y => eqb (f y) r) (x :: xs)))) l)
        = (qsum (map (fun r => qsum (map w (filter (fun y => eqb (f y) r) xs))) l) + if mem (f x) l then w x else Q2Qc 0)%Qc).
    { induction 1 as [|r l N NDl IHl]; cbn [map qsum mem]; [ring|]. rewrite IHl. cbn [filter]. destruct (eqb_spec (f x) r) as [->|NE].
      - cbn [map qsum orb]. rewrite (proj2 (mem_nIn _ _)) by exact N. ring.
      - cbn [orb]. ring. }
    rewrite E by exact ND. rewrite (proj2 (mem_In _ _)) by (apply C; left; reflexivity).
    rewrite IH; [cbn; ring|exact ND|intros; apply C; right; auto].
Qed.
Lemma sum_keys d : forall ks, NoDup ks -> (forall k, In k (dkeys d) -> In k ks) -> NoDup (dkeys d) ->
  qsum (map (fun k => match dget k d with Some v => v | None => Q2Qc 0 end) ks) = dsum d.
Proof.
  intros ks NK C ND.
  assert (E : forall l, NoDup l -> forall d, NoDup (dkeys d) -> (forall k, In k (dkeys d) -> In k l) ->
     qsum (map (fun k => match dget k d with Some v => v | None => Q2Qc 0 end) l) = dsum d); [|apply E; auto].
  clear. intros l NL. induction d as [|[k0 v] d IH]; intros ND C.
  - cbn. clear. induction l as [|k l IH]; cbn; [reflexivity|]. rewrite IH. ring.
  - inversion ND as [|? ? N ND']; subst. unfold dsum in *. cbn [map qsum snd]. rewrite <- IH; [|exact ND'|intros; apply C; right; auto].
    assert (J : In k0 l) by (apply C; left; reflexivity). clear IH C ND ND'.
    assert (NG : dget k0 d = None) by (apply dget_None; exact N).
    induction NL as [|a l NA NL IH]; [destruct J|]. cbn [map qsum].
    change (dget a ((k0, v) :: d)) with (if eqb a k0 then Some v else dget a d). destruct (eqb_spec a k0) as [->|NE].
    + rewrite NG.
      assert (X : map (fun k => match dget k ((k0, v) :: d) with Some v => v | None => Q2Qc 0 end) l = map (fun k => match dget k d with Some v => v | None => Q2Qc 0 end) l).
      { apply map_ext_in. intros k Jk. change (dget k ((k0, v) :: d)) with (if eqb k k0 then Some v else dget k d). destruct (eqb_spec k k0) as [->|]; [contradiction|reflexivity]. }
      rewrite X. ring.
    + destruct J as [J|J]; [congruence|]. rewrite IH by exact J. ring.
Qed.

(** The grid as a data frame: one block of lines for each row that an accepted item has.  In a column of exchanges or LCIA
    components, the numbers of all lines add up to what the accepted items contribute: their values, and their values by
    reference exchange.  In a column of characterizations, the non-zero numbers of a row's lines are exactly the non-zero
    factors of the accepted items of that row. *)
Theorem C113_grid : forall incl cols rows,
  Permutation rows (t_rows (grid incl cols)) ->
  (forall col x, In col cols -> In x col -> incl x = true -> length (g_row (g_flow x)) = 2 /\ sortable x) ->
  exists rs ls, grid_frame (grid incl cols) rows = TOk ls
    /\ NoDup rs /\ (forall r, In r rs <-> exists col x, In col cols /\ In x col /\ incl x = true /\ g_row (g_flow x) = r)
    /\ Sorted tuple_le rs
    /\ (forall i col, nth_error cols i = Some col -> (forall x, In x col -> incl x = true -> additive x) -> total i ls = qsum (map contrib (filter incl col)))
    /\ Forall2 (fun r sub => forall i col, nth_error cols i = Some col -> (forall x, In x col -> incl x = true -> factors_only x) ->
         forall v, v <> Q2Qc 0 -> (exists s, In s sub /\ shown i s = v) <-> exists x, In x col /\ incl x = true /\ g_row (g_flow x) = r /\ has_factor v x) rs ls.
Proof.
  intros incl cols rows P G. set (pull := fun x => g_row (g_flow x)).
  assert (KL : forall r col k, In col cols -> In k (dkeys (g_extract (filter (fun x => incl x && eqb (pull x) r) col))) -> 2 <= String.length k).
  { intros r col k C J. revert J. apply long_extract. apply Forall_forall. intros x J. apply filter_In in J as [J A]. apply andb_prop in A as [A _]. eapply G; eauto. }
  destruct (C113_frame (fun s => s) incl pull (fun _ => "") 2 g_extract cols rows P) as (rs & ls & E & ND & IR & S & F).
  { intros r (col & x & C & X & A & <-). eapply G; eauto. }
  { exact KL. }
  exists rs, ls. split; [exact E|]. split; [exact ND|]. split; [exact IR|]. split.
  { clear - S. induction S as [|a l S IH HD]; constructor; auto. destruct HD as [|b m HB]; constructor. rewrite !map_id in HB. exact HB. }
  assert (SH : forall i col r sub, nth_error cols i = Some col -> (forall s, In s sub -> s_vals s = map (fun col => dget (s_key s) (datum incl pull g_extract r col)) cols) ->
    forall s, In s sub -> shown i s = match dget (s_key s) (datum incl pull g_extract r col) with Some v => v | None => Q2Qc 0 end).
  { intros i col r sub C VS s J. unfold shown. rewrite (VS s J). rewrite (map_nth_error _ i cols C). reflexivity. }
  split.
  - intros i col C AD.
    assert (T : forall rs' ls', Forall2 (fun r sub => NoDup (map s_key sub) /\ (forall k, In k (map s_key sub) <-> exists col, In col cols /\ In k (dkeys (datum incl pull g_extract r col)))
         /\ (forall s, In s sub -> s_vals s = map (fun col => dget (s_key s) (datum incl pull g_extract r col)) cols)) rs' ls' ->
         total i ls' = qsum (map (fun r => qsum (map contrib (filter (fun x => eqb (pull x) r) (filter incl col)))) rs')).
    { induction 1 as [|r sub rs' ls' (N & K & VS) F' IH]; [reflexivity|]. unfold total in *. cbn [concat map qsum]. rewrite map_app, qsum_app, IH. f_equal.
      rewrite (map_ext_in _ _ _ (SH i col r sub C VS)). rewrite <- (map_map s_key (fun k => match dget k (datum incl pull g_extract r col) with Some v => v | None => Q2Qc 0 end)).
      rewrite sum_keys; [|exact N|intros k J; apply K; exists col; split; [eapply nth_error_In; exact C|exact J]|apply g_extract_nodup].
      unfold datum. rewrite g_extract_sum; [rewrite filter_filter; reflexivity|].
      apply Forall_forall. intros x J. apply filter_In in J as [J A]. apply andb_prop in A as [A _]. apply AD; auto. }
    rewrite (T rs ls).
    + apply sum_partition; [exact ND|]. intros x J. apply filter_In in J as [J A]. apply IR. exists col, x. split; [eapply nth_error_In; exact C|auto].
    + eapply Forall2_imp; [|exact F]. intros r sub (A & B & D & _). auto.
  - eapply Forall2_imp; [|exact F]. intros r sub (N & K & VS & _) i col C FO v NZ.
    assert (FF : Forall factors_only (filter (fun x => incl x && eqb (pull x) r) col)).
    { apply Forall_forall. intros x J. apply filter_In in J as [J A]. apply andb_prop in A as [A _]. apply FO; auto. }
    assert (EX := g_extract_cfs _ FF v NZ). split.
    + intros [s [J V]]. rewrite (SH i col r sub C VS s J) in V. destruct (dget (s_key s) (datum incl pull g_extract r col)) as [w|] eqn:D; [|congruence]. subst w.
      assert (X : Exists (has_factor v) (filter (fun x => incl x && eqb (pull x) r) col)) by (apply EX; exists (s_key s); exact D).
      apply Exists_exists in X as [x [J' HX]]. apply filter_In in J' as [J' A]. apply andb_prop in A as [A B]. apply (proj1 (eqb_eq _ _)) in B. exists x. auto.
    + intros (x & J & A & R & HX). destruct (proj2 EX) as [k D].
      { apply Exists_exists. exists x. split; [|exact HX]. apply filter_In. split; [exact J|]. rewrite A. cbn [andb]. apply (proj2 (eqb_eq _ _)). exact R. }
      assert (JK : In k (map s_key sub)). { apply K. exists col. split; [eapply nth_error_In; exact C|]. eapply dget_Some_key; exact D. }
      apply in_map_iff in JK as [s [<- JS]]. exists s. split; [exact JS|]. rewrite (SH i col r sub C VS s JS). unfold datum. rewrite D. reflexivity.
Qed.
Print Assumptions C113_grid.

(** Printed as text, no grid ever succeeds: the header has one heading too few for the format. *)
Theorem C113_refuted_text : forall t rows ls, grid_text t rows <> TOk ls.
Proof. intros t rows ls. unfold grid_text, text. destruct (text_from _ _ _ _ _ _); discriminate. Qed.

(** A row whose items have no values has no line in the data frame; as text, such a table fails whatever the headings. *)
Definition carbon := GFlow ["carbon dioxide"; "air"] "[kg] carbon dioxide" "Carbon dioxide, fossil".
Definition methane := GFlow ["methane"; "air"] "[kg] methane" "Methane".
Definition empty_cols := [[GExch carbon (Some (Q2Qc 2)) []; GExch methane None []]].
Theorem C113_refuted_row_lost : let t := grid (fun _ => true) empty_cols in
  In ["methane"; "air"] (t_rows t)
  /\ (exists ls, grid_frame t (t_rows t) = TOk ls /\ map s_near (concat ls) = [["carbon dioxide"; "air"]])
  /\ text (fun s => s) 2 g_extract 2 t (t_rows t) = IndexErr.
Proof. split; [cbn; tauto|]. split; [eexists; split; reflexivity|reflexivity]. Qed.
(** A factor for a location named with one character makes the data frame fail. *)
Theorem C113_refuted_short_location : let t := grid (fun _ => true) [[GCf carbon [("X", Q2Qc 2)]]] in grid_frame t (t_rows t) = IndexErr.
Proof. reflexivity. Qed.
(** Beside a row component that is itself [""], the printed heading cannot be read. *)
Theorem C113_refuted_ditto :
  option_map (fun ls => (map (@l_near nat) ls, read [] (map l_near ls)))
    match lines (fun s => s) 2 (@length (list string)) (build (fun _ => true) (fun x => x) (fun _ => "") [[["a"; "b"]; ["b"; """"""]]]) [["a"; "b"]; ["b"; """"""]] with TOk ls => Some ls | _ => None end
  = Some ([["a"; "b"]; ["b"; """"""]], [["a"; "b"]; ["b"; "b"]]).
Proof. reflexivity. Qed.

(** ** Witnesses *)
Definition two_cols := [[GExch carbon (Some (Q2Qc 2)) [("Output", "Steel", Q2Qc 1)]; GExch methane (Some (Q2Qc 3)) []; GExch carbon (Some (Q2Qc 4)) []];
                        [GCf carbon [("GLO", Q2Qc 1); ("US", Q2Qc 5)]; GCf carbon [("GLO", Q2Qc 7)]; GCf carbon [("GLO", Q2Qc 8)]]].
Example C113_witness : (forall col x, In col two_cols -> In x col -> length (g_row (g_flow x)) = 2 /\ sortable x)
  /\ let t := grid (fun _ => true) two_cols in
     exists ls, grid_frame t (t_rows t) = TOk ls /\
       map (map (fun s => (s_key s, s_vals s))) ls =
       [[("US", [None; Some (Q2Qc 5)]); ("[kg] carbon dioxide", [Some (Q2Qc 6); Some (Q2Qc 1)]); ("Output: Steel", [Some (Q2Qc 1); None]);
         ("[GLO] Carbon dioxide, fossil", [None; Some (Q2Qc 7)]); ("[GLO] Carbon dioxide, fossil.", [None; Some (Q2Qc 8)])];
        [("[kg] methane", [Some (Q2Qc 3); None])]].
Proof.
  split.
  - intros col x [<-|[<-|[]]] J; cbn in J; repeat (destruct J as [<-|J]); try destruct J; cbn; split; try reflexivity; split; cbn; try lia; auto;
      intros l v J'; repeat (destruct J' as [J'|J']; [injection J' as <- <-; cbn; lia|]); destruct J'.
  - eexists. split; vm_compute; reflexivity.
Qed.

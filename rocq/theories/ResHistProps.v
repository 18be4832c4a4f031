(** C56: the resolver's memory and its directory stay in step over every history of additions, deletions and restarts. *)
From Coq Require Import ZArith Sorted.
From Verif Require Import Base PyStr ResModel ResProps.
Open Scope string_scope.
Open Scope nat_scope.
Open Scope list_scope.
Local Arguments eqb : simpl never.

(** * What a user can do *)
Inductive rop :=
| OAdd (ref : string) (d : rdata) (store : bool)   (* new_resource(ref, ..., store=store) *)
| ODel (ref src : string)                          (* delete_resource of the object registered for that source, if any;
                                                      otherwise of an object the resolver does not hold *)
| ODelForeign (ref : string) (d : rdata)           (* delete_resource of an object the resolver does not hold *)
| ORestart.                                        (* a new process on the same directory *)

Definition unit_of {A} (x : rres A) : rres unit := match x with ROk _ => ROk tt | RErr e => RErr e end.

Definition foreign (s : resolver) (ref : string) (d : rdata) : resolver * rres unit :=
  delete_resource (RS (rs_mem s) (rs_disk s) (S (rs_next s))) (Res (rs_next s) ref d).

Definition exec (s : resolver) (o : rop) : resolver * rres unit :=
  match o with
  | OAdd ref d store => let '(s', x) := new_resource s ref d store in (s', unit_of x)
  | ODel ref src =>
      match find (fun r => eqb (d_source (r_data r)) (Some src)) (mget ref (rs_mem s)) with
      | Some r => delete_resource s r
      | None => foreign s ref (plain src)
      end
  | ODelForeign ref d => foreign s ref d
  | ORestart => match start (rs_disk s) (rs_next s) with ROk s' => (s', ROk tt) | RErr e => (s, RErr e) end
  end.

(** * Specification: a plain list of registered resources, each stored permanently or not *)
Record sentry := SE { se_ref : string; se_src : string; se_data : rdata; se_stored : bool }.
Definition has_key (ref src : string) (e : sentry) : bool := eqb (se_ref e) ref && eqb (se_src e) src.
Definition in_ref (ref : string) (e : sentry) : bool := eqb (se_ref e) ref.
Definition stored_in (ref : string) (e : sentry) : bool := in_ref ref e && se_stored e.

(** the attributes the new resource will show *)
Definition shown (d : rdata) : rdata :=
  RD (d_source d) (d_type d) (d_url d) None (norm_ifaces (d_ifaces d)) (d_prio d) (static_of d) (d_internal d) (d_other d).

Definition sstep (m : list sentry) (o : rop) : list sentry * rres unit :=
  match o with
  | OAdd ref d store =>
      match d_source d with
      | None => (m, RErr RKeyError)
      | Some src => if existsb (has_key ref src) m then (m, ROk tt)              (* already there: nothing happens *)
                    else (m ++ [SE ref src (shown d) store], ROk tt)
      end
  | ODel ref src =>
      if existsb (has_key ref src) m then
        (filter (fun e => negb (has_key ref src e)) m,
         if existsb (stored_in ref) m then ROk tt else RErr RFileNotFound)        (* no file to rewrite or remove *)
      else (m, RErr RKeyError)
  | ODelForeign _ _ => (m, RErr RKeyError)
  | ORestart => (filter se_stored m, ROk tt)
  end.

(** additions covered: a data source, no 'filetype' argument *)
Definition op_ok (o : rop) : Prop :=
  match o with OAdd _ d _ => d_source d <> None /\ d_filetype d = None | _ => True end.

Fixpoint run (s : resolver) (h : list rop) : resolver * list (rres unit) :=
  match h with [] => (s, []) | o :: t => let '(s1, x) := exec s o in let '(s2, xs) := run s1 t in (s2, x :: xs) end.
Fixpoint srun (m : list sentry) (h : list rop) : list sentry * list (rres unit) :=
  match h with [] => (m, []) | o :: t => let '(m1, x) := sstep m o in let '(m2, xs) := srun m1 t in (m2, x :: xs) end.

(** what the resolver shows in memory under a reference *)
Definition memory (ref : string) (s : resolver) : list rdata := map (fun r => serialize (r_data r)) (mget ref (rs_mem s)).
Definition registered (ref : string) (m : list sentry) : list rdata := map se_data (filter (in_ref ref) m).
Definition permanent (ref : string) (m : list sentry) : list rdata := map se_data (filter (stored_in ref) m).

(** * The refinement *)
Definition good (d : rdata) : Prop :=
  d_filetype d = None /\ norm_ifaces (d_ifaces d) = d_ifaces d /\ serialize d = d /\ d_source d <> None.

Lemma good_from_dict d : good d -> from_dict d = ROk d.
Proof.
  intros (F & N & _ & S). unfold from_dict, construct. rewrite F, N. destruct d as [src ? ? ft ? ? ? ? ?]; cbn in *. subst ft.
  destruct src; [reflexivity|congruence].
Qed.
Lemma filter_true {A} (f : A -> bool) l : (forall x, In x l -> f x = true) -> filter f l = l.
Proof.
  induction l as [|x t IH]; cbn; auto. intros X. rewrite X by auto. rewrite IH; auto.
Qed.
Lemma norm_idem l : norm_ifaces (norm_ifaces l) = norm_ifaces l.
Proof.
  unfold norm_ifaces.
  set (f := fun i => mem i interface_types). set (q := set_of ("basic" :: filter f l)).
  assert (Fq : filter f q = q).
  { assert (X : forall x, In x q -> f x = true).
    { intros x I. unfold q in I. apply (proj1 (In_set_of _ _)) in I. cbn in I. destruct I as [<-|I]; [reflexivity|].
      apply filter_In in I; tauto. }
    apply filter_true; exact X. }
  rewrite Fq.
  (* q = basic :: q' with q duplicate free; set_of (basic :: q) = q *)
  assert (Hd : exists t, q = "basic" :: t).
  { unfold q, set_of, set_union. cbn [fold_left]. change (set_add "basic" []) with ["basic"].
    generalize (filter f l) as w. assert (G : forall w t, exists t', fold_left (fun acc x => set_add x acc) w ("basic" :: t) = "basic" :: t').
    { induction w as [|x w IH]; intros t; cbn; [eauto|]. unfold set_add at 2.
      destruct (mem x ("basic" :: t)); [apply IH|]. cbn. apply IH. }
    intros w. apply (G w []). }
  assert (NDq : NoDup q) by apply NoDup_set_of.
  destruct Hd as [t Et]. rewrite Et in *. unfold set_of, set_union. cbn [fold_left].
  change (set_add "basic" []) with ["basic"]. change (set_add "basic" ["basic"]) with ["basic"].
  assert (G : forall t a : list string, NoDup (a ++ t) -> fold_left (fun acc x => set_add x acc) t a = a ++ t).
  { clear. induction t as [|x t IH]; intros a N; cbn; [rewrite app_nil_r; reflexivity|].
    unfold set_add at 2. assert (~ In x a).
    { intros I. apply NoDup_remove_2 in N. apply N, in_app_iff; auto. }
    rewrite (proj2 (mem_nIn x a)) by assumption. rewrite IH; rewrite <- app_assoc; auto. }
  apply G. exact NDq.
Qed.
Lemma static_idem d : static_of (serialize d) = static_of d.
Proof. unfold static_of. cbn. unfold static_of. destruct (d_static d); cbn; auto. destruct (String.eqb _ _); reflexivity. Qed.
Lemma shown_good d : d_source d <> None -> d_filetype d = None -> good (shown d).
Proof.
  intros S F. unfold good, shown; cbn. split; auto. split; [apply norm_idem|]. split; auto.
  unfold serialize; cbn. f_equal. unfold static_of; cbn. unfold static_of. destruct (d_static d); cbn; auto.
  destruct (String.eqb _ _); reflexivity.
Qed.

Record wf (m : list sentry) : Prop := {
  wf_keys : NoDup (map (fun e => (se_ref e, se_src e)) m);
  wf_src : forall e, In e m -> d_source (se_data e) = Some (se_src e);
  wf_good : forall e, In e m -> good (se_data e) }.

Record R (m : list sentry) (s : resolver) : Prop := {
  R_mem : forall ref, Permutation (memory ref s) (registered ref m);
  R_disk : forall ref, match dget ref (rs_disk s) with
                       | None => permanent ref m = []
                       | Some FBroken => False
                       | Some (FJson l) => l <> [] /\ Permutation l (permanent ref m)
                       end;
  R_refs : forall ref r, In r (mget ref (rs_mem s)) -> r_ref r = ref;
  R_ids : NoDup (all_ids (rs_mem s));
  R_next : Forall (fun i => i < rs_next s) (all_ids (rs_mem s));
  R_nd : NoDup (dkeys (rs_mem s));
  R_ndd : NoDup (dkeys (rs_disk s)) }.

Lemma key_inj m e e' : wf m -> In e m -> In e' m -> se_ref e = se_ref e' -> se_src e = se_src e' -> e = e'.
Proof.
  intros W I J E1 E2. pose proof (wf_keys m W) as N. revert I J N. clear W. induction m as [|x m IH]; cbn; [tauto|].
  intros I J N. inversion N as [|? ? A B]; subst. destruct I as [<-|I], J as [<-|J]; auto; exfalso; apply A;
    apply in_map_iff; [exists e'|exists e]; split; auto; congruence.
Qed.

Lemma has_key_spec ref src e : has_key ref src e = true <-> se_ref e = ref /\ se_src e = src.
Proof. unfold has_key. rewrite andb_true_iff. rewrite (eqb_eq (se_ref e)), (eqb_eq (se_src e)). tauto. Qed.
Lemma in_ref_spec ref e : in_ref ref e = true <-> se_ref e = ref.
Proof. unfold in_ref. apply eqb_eq. Qed.
Lemma stored_in_spec ref e : stored_in ref e = true <-> se_ref e = ref /\ se_stored e = true.
Proof. unfold stored_in. rewrite andb_true_iff, in_ref_spec. tauto. Qed.

Lemma mget_all_ids m ref r : In r (mget ref m) -> In (r_id r) (all_ids m).
Proof.
  unfold mget. destruct (dget ref m) as [l|] eqn:E; [|intros []]. intros I. apply dget_In in E.
  unfold all_ids. apply in_flat_map. exists (ref, l). split; auto. cbn. apply in_map; exact I.
Qed.
Lemma mget_ids_NoDup m ref : NoDup (all_ids m) -> NoDup (map r_id (mget ref m)).
Proof.
  unfold mget. intros N. destruct (dget ref m) as [l|] eqn:E; [|constructor]. apply dget_In in E.
  unfold all_ids in N. induction m as [|[k v] m IH]; cbn in *; [destruct E|]. destruct E as [E|E].
  - injection E as -> ->. clear IH. induction (map r_id l) as [|a q IHq]; [constructor|].
    inversion N as [|? ? A B]; subst. constructor; [intros J; apply A, in_app_iff; auto|auto].
  - apply IH; auto. clear -N. induction (map r_id v); [exact N|inversion N; auto].
Qed.
Lemma all_ids_dset_incl m ref l i : In i (all_ids (dset ref l m)) -> In i (map r_id l) \/ In i (all_ids m).
Proof.
  unfold all_ids. induction m as [|[k v] m IH]; cbn.
  - rewrite app_nil_r. auto.
  - destruct (eqb_spec ref k); cbn; rewrite !in_app_iff; tauto.
Qed.
Lemma all_ids_dset_NoDup m ref l : NoDup (all_ids m) -> NoDup (map r_id l) ->
  (forall i, In i (map r_id l) -> In i (map r_id (mget ref m)) \/ ~ In i (all_ids m)) ->
  NoDup (all_ids (dset ref l m)).
Proof.
  unfold all_ids, mget. induction m as [|[k v] m IH]; cbn; intros N Nl H.
  - rewrite app_nil_r; exact Nl.
  - assert (Nv : NoDup (map r_id v) /\ NoDup (flat_map (fun p : string * list res => map r_id (snd p)) m)
                 /\ forall i, In i (map r_id v) -> ~ In i (flat_map (fun p : string * list res => map r_id (snd p)) m)).
    { clear -N. induction (map r_id v) as [|a q IHq]; cbn in *; [repeat split; auto; constructor|].
      inversion N as [|? ? A B]; subst. destruct (IHq B) as (X & Y & Z). rewrite in_app_iff in A.
      repeat split; auto; [constructor; auto|]. intros i [<-|I]; auto. }
    destruct Nv as (Nv & Nt & Dj). destruct (eqb_spec ref k) as [->|Ne].
    + cbn. clear IH. revert Nl H. generalize (map r_id l) as q. induction q as [|a q IHq]; cbn; intros Nl H; auto.
      inversion Nl as [|? ? A B]; subst. constructor; [|apply IHq; auto].
      rewrite in_app_iff. intros [J|J]; auto. destruct (H a (or_introl eq_refl)) as [X|X].
      * apply (Dj a); auto.
      * apply X, in_app_iff; auto.
    + cbn. assert (Nd : NoDup (flat_map (fun p : string * list res => map r_id (snd p)) (dset ref l m))).
      { apply IH; auto. intros i I. destruct (H i I) as [X|X]; auto. right. intros J. apply X, in_app_iff; auto. }
      clear IH. assert (Dj2 : forall i, In i (map r_id v) ->
          ~ In i (flat_map (fun p : string * list res => map r_id (snd p)) (dset ref l m))).
      { intros i I J. apply all_ids_dset_incl in J as [J|J]; [|apply (Dj i); auto].
        destruct (H i J) as [X|X]; [|apply X, in_app_iff; auto]. apply (Dj i); auto.
        destruct (dget ref m) as [l0|] eqn:E; [|destruct X]. apply dget_In in E. apply in_flat_map. exists (ref, l0); auto. }
      revert Nv Dj2. generalize (map r_id v) as q. induction q as [|a q IHq]; cbn; intros Nq D2; auto.
      inversion Nq as [|? ? A B]; subst. constructor; [rewrite in_app_iff; intros [J|J]; auto; apply (D2 a); auto|].
      apply IHq; auto.
Qed.
Lemma all_ids_ddel m ref : (forall i, In i (all_ids (ddel ref m)) -> In i (all_ids m))
  /\ (NoDup (all_ids m) -> NoDup (all_ids (ddel ref m))).
Proof.
  assert (A : forall i, In i (all_ids (ddel ref m)) -> In i (all_ids m)).
  { intros i. unfold all_ids, ddel. rewrite !in_flat_map. intros (p & I & J). apply filter_In in I as [I _]. eauto. }
  split; auto. unfold all_ids, ddel in *. induction m as [|[k v] m IH]; cbn in *; auto. intros N.
  assert (B : forall i, In i (flat_map (fun p : string * list res => map r_id (snd p)) (filter (fun p => negb (eqb ref (fst p))) m))
                        -> In i (flat_map (fun p : string * list res => map r_id (snd p)) m)).
  { intros i. rewrite !in_flat_map. intros (p & I & J). apply filter_In in I as [I _]. eauto. }
  assert (Nt : NoDup (flat_map (fun p : string * list res => map r_id (snd p)) m))
    by (clear -N; induction (map r_id v); [exact N|inversion N; auto]).
  destruct (eqb ref k); cbn.
  - apply IH; auto.
  - specialize (IH B Nt). clear A. induction (map r_id v) as [|a q IHq]; cbn in *; auto.
    inversion N as [|? ? A' B']; subst. constructor; auto. rewrite in_app_iff in *. intros [J|J]; auto.
Qed.

Lemma mget_dset ref ref' l m : mget ref (dset ref' l m) = if eqb ref ref' then l else mget ref m.
Proof. unfold mget. rewrite dget_dset. destruct (eqb ref ref'); reflexivity. Qed.
Lemma mget_ddel ref ref' m : mget ref (ddel ref' m) = if eqb ref ref' then [] else mget ref m.
Proof. unfold mget. rewrite dget_ddel. destruct (eqb ref ref'); reflexivity. Qed.

(** sources under a reference *)
Lemma mem_sourced m s ref r : wf m -> R m s -> In r (mget ref (rs_mem s)) ->
  exists e, In e m /\ se_ref e = ref /\ se_data e = serialize (r_data r) /\ d_source (r_data r) = Some (se_src e).
Proof.
  intros W HR I. assert (J : In (serialize (r_data r)) (memory ref s)) by (apply in_map_iff; eauto).
  apply (Permutation_in _ (R_mem _ _ HR ref)) in J. apply in_map_iff in J as (e & E & J).
  apply filter_In in J as [J K]. apply in_ref_spec in K. exists e. repeat split; auto.
  pose proof (wf_src m W e J) as S. rewrite E in S. exact S.
Qed.
Lemma reg_in_mem m s e : R m s -> In e m -> exists r, In r (mget (se_ref e) (rs_mem s)) /\ serialize (r_data r) = se_data e.
Proof.
  intros HR I. assert (J : In (se_data e) (registered (se_ref e) m)).
  { apply in_map. apply filter_In. split; auto. apply in_ref_spec; reflexivity. }
  apply (Permutation_in _ (Permutation_sym (R_mem _ _ HR _))) in J. apply in_map_iff in J as (r & E & J). eauto.
Qed.
Lemma disk_entries m s ref : R m s -> Permutation (entries ref (rs_disk s)) (permanent ref m).
Proof.
  intros HR. pose proof (R_disk _ _ HR ref) as D. unfold entries. destruct (dget ref (rs_disk s)) as [[l|]|]; [tauto|tauto|].
  rewrite D; reflexivity.
Qed.
Lemma disk_sourced m s ref : wf m -> R m s -> Forall has_source (entries ref (rs_disk s)).
Proof.
  intros W HR. apply Forall_forall. intros d I. apply (Permutation_in _ (disk_entries _ _ ref HR)) in I.
  apply in_map_iff in I as (e & <- & I). apply filter_In in I as [I _]. apply (wf_good m W e I).
Qed.
Lemma exists_in_spec m s r src : wf m -> R m s -> d_source (r_data r) = Some src ->
  exists_in (rs_disk s) r = ROk (existsb (fun e => has_key (r_ref r) src e && se_stored e) m).
Proof.
  intros W HR S. unfold exists_in.
  assert (E : existsb (fun k => eqb (d_source k) (Some src)) (entries (r_ref r) (rs_disk s))
              = existsb (fun e => has_key (r_ref r) src e && se_stored e) m).
  { apply eq_true_iff_eq. rewrite !existsb_exists. split.
    - intros (d & I & B). apply (proj1 (eqb_eq _ _)) in B. apply (Permutation_in _ (disk_entries _ _ _ HR)) in I.
      apply in_map_iff in I as (e & <- & I). apply filter_In in I as [I K]. apply stored_in_spec in K as [K1 K2].
      exists e. split; auto. rewrite K2, andb_true_r. apply has_key_spec. split; auto.
      rewrite (wf_src m W e I) in B. congruence.
    - intros (e & I & B). apply andb_true_iff in B as [B St]. apply has_key_spec in B as [B1 B2].
      exists (se_data e). split.
      + apply (Permutation_in _ (Permutation_sym (disk_entries _ _ _ HR))). apply in_map, filter_In. split; auto.
        apply stored_in_spec; auto.
      + rewrite (wf_src m W e I), B2. apply eqb_refl. }
  pose proof (disk_sourced _ _ (r_ref r) W HR) as F. pose proof (R_disk _ _ HR (r_ref r)) as D. unfold entries in *.
  destruct (dget (r_ref r) (rs_disk s)) as [[l|]|]; [|tauto|cbn in E; rewrite <- E; reflexivity].
  rewrite (map_res_ok _ (fun k => eqb (d_source k) (Some src))).
  - f_equal. rewrite <- E. clear. induction l; cbn; [reflexivity|]. rewrite IHl; reflexivity.
  - intros x I. rewrite Forall_forall in F. rewrite matches_src; auto; [rewrite S; reflexivity|]. unfold has_source; congruence.
Qed.
Lemma has_resource_spec m s r src : wf m -> R m s -> d_source (r_data r) = Some src ->
  exists mm, has_resource s r = (RS mm (rs_disk s) (rs_next s), ROk (existsb (has_key (r_ref r) src) m))
    /\ (forall ref, mget ref mm = mget ref (rs_mem s)) /\ NoDup (dkeys mm) /\ NoDup (all_ids mm)
    /\ (forall i, In i (all_ids mm) -> In i (all_ids (rs_mem s))).
Proof.
  intros W HR S. unfold has_resource.
  set (mm := match dget (r_ref r) (rs_mem s) with Some _ => rs_mem s | None => dset (r_ref r) [] (rs_mem s) end).
  assert (M : forall ref, mget ref mm = mget ref (rs_mem s)).
  { intros ref. unfold mm. destruct (dget (r_ref r) (rs_mem s)) eqn:D; auto. rewrite mget_dset.
    destruct (eqb_spec ref (r_ref r)) as [->|]; auto. unfold mget. rewrite D; reflexivity. }
  exists mm. split; [|split; [exact M|]].
  - f_equal. rewrite M. rewrite (any_res_ok _ (fun k => eqb (d_source (r_data k)) (Some src))).
    + f_equal. apply eq_true_iff_eq. rewrite !existsb_exists. split.
      * intros (k & I & B). apply (proj1 (eqb_eq _ _)) in B. destruct (mem_sourced _ _ _ _ W HR I) as (e & Ie & Er & _ & Es).
        exists e. split; auto. apply has_key_spec. split; congruence.
      * intros (e & I & B). apply has_key_spec in B as [B1 B2]. destruct (reg_in_mem _ _ _ HR I) as (k & Ik & Ek).
        rewrite B1 in Ik. exists k. split; auto. assert (X : d_source (r_data k) = d_source (se_data e)) by (rewrite <- Ek; reflexivity).
        rewrite X, (wf_src m W e I), B2. apply eqb_refl.
    + intros k I. destruct (mem_sourced _ _ _ _ W HR I) as (e & _ & _ & _ & Es). rewrite matches_src.
      * change (d_source (serialize (r_data r))) with (d_source (r_data r)). rewrite S. rewrite eqb_sym. reflexivity.
      * unfold has_source; congruence.
      * unfold has_source; cbn; congruence.
  - unfold mm. destruct (dget (r_ref r) (rs_mem s)) eqn:D.
    + split; [apply (R_nd _ _ HR)|]. split; [apply (R_ids _ _ HR)|auto].
    + split; [apply NoDup_dset, (R_nd _ _ HR)|]. split.
      * apply all_ids_dset_NoDup; [apply (R_ids _ _ HR)|constructor|intros ? []].
      * intros i I. apply all_ids_dset_incl in I as [[]|I]; auto.
Qed.

Lemma registered_snoc ref m e : registered ref (m ++ [e]) = registered ref m ++ (if in_ref ref e then [se_data e] else []).
Proof. unfold registered. rewrite filter_app, map_app. cbn. destruct (in_ref ref e); reflexivity. Qed.
Lemma permanent_snoc ref m e : permanent ref (m ++ [e]) = permanent ref m ++ (if stored_in ref e then [se_data e] else []).
Proof. unfold permanent. rewrite filter_app, map_app. cbn. destruct (stored_in ref e); reflexivity. Qed.

Lemma existsb_false_all {A} (f : A -> bool) l : existsb f l = false -> forall x, In x l -> f x = false.
Proof. intros E x I. apply not_true_iff_false. intros T. apply not_true_iff_false in E. apply E. apply existsb_exists; eauto. Qed.

Lemma add_refines m s ref d store :
  wf m -> R m s -> d_source d <> None -> d_filetype d = None ->
  let '(s', x) := exec s (OAdd ref d store) in let '(m', y) := sstep m (OAdd ref d store) in
  x = y /\ wf m' /\ R m' s'.
Proof.
  intros W HR S F. destruct (d_source d) as [src|] eqn:Es; [|congruence]. cbn [exec sstep]. rewrite Es.
  unfold new_resource, construct. rewrite Es, F.
  set (d' := RD (Some src) (d_type d) (d_url d) None (norm_ifaces (d_ifaces d)) (d_prio d) (d_static d) (d_internal d) (d_other d)).
  assert (Sd : serialize d' = shown d) by (unfold serialize, shown, d', static_of; cbn; rewrite Es; reflexivity).
  set (r := Res (rs_next s) ref d'). set (s0 := RS (rs_mem s) (rs_disk s) (Datatypes.S (rs_next s))).
  assert (HR0 : R m s0).
  { destruct HR as [A B C D E G H]. constructor; auto. cbn. rewrite Forall_forall in *. intros i I. specialize (E i I). lia. }
  assert (Sr : d_source (r_data r) = Some src) by reflexivity.
  unfold add_resource. rewrite (exists_in_spec m s0 r src W HR0 Sr). change (r_ref r) with ref.
  destruct (existsb (fun e => has_key ref src e && se_stored e) m) eqn:Ex.
  - assert (K : existsb (has_key ref src) m = true).
    { apply existsb_exists in Ex as (e & I & B). apply andb_true_iff in B as [B _]. apply existsb_exists; eauto. }
    rewrite K. cbn. split; auto.
  - destruct (has_resource_spec m s0 r src W HR0 Sr) as (mm & -> & M & NDk & NDi & Hi). change (r_ref r) with ref.
    destruct (existsb (has_key ref src) m) eqn:K.
    + cbn. split; auto. split; auto. destruct HR0 as [A B C D E G H]. constructor; cbn; auto.
      * intros ref0. unfold memory. cbn. rewrite M. apply A.
      * intros ref0 r0. rewrite M. apply C.
      * rewrite Forall_forall in *. intros i I. apply (E i), Hi, I.
    + cbn [rs_mem rs_disk rs_next].
      set (e := SE ref src (shown d) store).
      assert (W' : wf (m ++ [e])).
      { destruct W as [A B C]. constructor.
        - rewrite map_app. cbn. apply NoDup_snoc; auto. intros I. apply in_map_iff in I as (e0 & Ee & I).
          injection Ee as E1 E2. pose proof (existsb_false_all _ _ K e0 I) as X. apply not_true_iff_false in X. apply X.
          apply has_key_spec; auto.
        - intros e0 I. apply in_app_iff in I as [I|[<-|[]]]; auto. 
        - intros e0 I. apply in_app_iff in I as [I|[<-|[]]]; auto. apply shown_good; congruence. }
      assert (Fresh : ~ In (rs_next s) (all_ids mm)).
      { intros I. apply Hi in I. pose proof (R_next _ _ HR) as Fn. rewrite Forall_forall in Fn. specialize (Fn _ I). lia. }
      assert (RR : forall dk, NoDup (dkeys dk) ->
         (forall ref0, match dget ref0 dk with None => permanent ref0 (m ++ [e]) = [] | Some FBroken => False
                       | Some (FJson l) => l <> [] /\ Permutation l (permanent ref0 (m ++ [e])) end) ->
         R (m ++ [e]) (RS (dset ref (mget ref mm ++ [r]) mm) dk (Datatypes.S (rs_next s)))).
      { intros dk NDdk Hdk. destruct HR0 as [A B C D E G H]. constructor; cbn; auto.
        - intros ref0. unfold memory. cbn. rewrite mget_dset, registered_snoc. unfold in_ref. cbn.
          rewrite (eqb_sym ref ref0). destruct (eqb_spec ref0 ref) as [->|Ne].
          + rewrite map_app. cbn. rewrite Sd, M. apply Permutation_app_tail. apply A.
          + rewrite M, app_nil_r. apply A.
        - intros ref0 r0. rewrite mget_dset. destruct (eqb_spec ref0 ref) as [->|Ne]; [|rewrite M; apply C].
          rewrite in_app_iff. intros [I|[<-|[]]]; [|reflexivity]. rewrite M in I. apply (C _ _ I).
        - apply all_ids_dset_NoDup; auto.
          + rewrite map_app. cbn. apply NoDup_snoc; [apply mget_ids_NoDup; exact NDi|].
            intros I. apply Fresh. apply in_map_iff in I as (x & Ex' & I). rewrite <- Ex'. eapply mget_all_ids; eauto.
          + intros i. rewrite map_app, in_app_iff. intros [I|[<-|[]]]; auto.
        - rewrite Forall_forall in *. intros i I. apply all_ids_dset_incl in I as [I|I].
          + rewrite map_app, in_app_iff in I. destruct I as [I|[<-|[]]]; [|cbn; lia].
            apply in_map_iff in I as (x & <- & I). apply mget_all_ids in I. apply (E _ (Hi _ I)).
          + apply (E _ (Hi _ I)).
        - apply NoDup_dset; exact NDk. }
      destruct store.
      * unfold write_to_file. rewrite write_content_src.
        -- change (r_ref r) with ref. cbn. split; auto. split; auto. apply RR.
           ++ apply NoDup_dset, (R_ndd _ _ HR).
           ++ intros ref0. rewrite dget_dset, permanent_snoc. unfold stored_in, in_ref. cbn. rewrite (eqb_sym ref ref0).
              destruct (eqb_spec ref0 ref) as [->|Ne].
              ** cbn. split; [destruct (filter _ _); discriminate|]. rewrite Sd. apply Permutation_app_tail.
                 rewrite <- (disk_entries _ _ ref HR).
                 assert (Fa : filter (fun k => negb (eqb (d_source k) (Some src))) (entries ref (rs_disk s)) = entries ref (rs_disk s)).
                 { assert (X : forall k, In k (entries ref (rs_disk s)) -> negb (eqb (d_source k) (Some src)) = true).
                   { intros k I. apply negb_true_iff, eqb_neq. intros Ek. apply (Permutation_in _ (disk_entries _ _ _ HR)) in I.
                     apply in_map_iff in I as (e0 & <- & I). apply filter_In in I as [I T]. apply stored_in_spec in T as [T _].
                     rewrite (wf_src m W e0 I) in Ek. pose proof (existsb_false_all _ _ K e0 I) as Y.
                     apply not_true_iff_false in Y. apply Y. apply has_key_spec. split; congruence. }
                   apply filter_true; exact X. }
                 rewrite Fa. reflexivity.
              ** cbn. rewrite app_nil_r. apply (R_disk _ _ HR ref0).
        -- unfold has_source; congruence.
        -- apply (disk_sourced m s0 ref W HR0).
      * cbn. split; auto. split; auto. apply RR; [apply (R_ndd _ _ HR)|]. intros ref0. rewrite permanent_snoc.
        unfold stored_in. cbn. rewrite andb_false_r, app_nil_r. apply (R_disk _ _ HR ref0).
Qed.

Lemma foreign_refines m s ref d : wf m -> R m s ->
  snd (foreign s ref d) = RErr RKeyError /\ R m (fst (foreign s ref d)).
Proof.
  intros W HR. unfold foreign, delete_resource. cbn [rs_mem rs_disk rs_next r_ref r_id].
  set (mm := match dget ref (rs_mem s) with Some _ => rs_mem s | None => dset ref [] (rs_mem s) end).
  assert (M : forall ref0, mget ref0 mm = mget ref0 (rs_mem s)).
  { intros ref0. unfold mm. destruct (dget ref (rs_mem s)) eqn:D; auto. rewrite mget_dset.
    destruct (eqb_spec ref0 ref) as [->|]; auto. unfold mget. rewrite D; reflexivity. }
  assert (X : NoDup (dkeys mm) /\ NoDup (all_ids mm) /\ forall i, In i (all_ids mm) -> In i (all_ids (rs_mem s))).
  { unfold mm. destruct (dget ref (rs_mem s)) eqn:D.
    - split; [apply (R_nd _ _ HR)|]. split; [apply (R_ids _ _ HR)|auto].
    - split; [apply NoDup_dset, (R_nd _ _ HR)|]. split.
      + apply all_ids_dset_NoDup; [apply (R_ids _ _ HR)|constructor|intros ? []].
      + intros i I. apply all_ids_dset_incl in I as [[]|I]; auto. }
  destruct X as (X1 & X2 & X3). rewrite M.
  assert (N : has_id (rs_next s) (mget ref (rs_mem s)) = false).
  { apply not_true_iff_false. unfold has_id. rewrite existsb_exists. intros (x & I & E). apply Nat.eqb_eq in E.
    apply mget_all_ids in I. pose proof (R_next _ _ HR) as Fn. rewrite Forall_forall in Fn. specialize (Fn _ I). lia. }
  rewrite N. cbn. split; auto. destruct HR as [A B C D E G H]. constructor; cbn; auto.
  - intros ref0. unfold memory. cbn. rewrite M. apply A.
  - intros ref0 r0. rewrite M. apply C.
  - rewrite Forall_forall in *. intros i I. specialize (E i (X3 i I)). lia.
Qed.

Lemma remove_id_perm l r : In r l -> NoDup (map r_id l) -> Permutation l (r :: remove_id (r_id r) l).
Proof.
  induction l as [|x t IH]; cbn; [tauto|]. intros I N. inversion N as [|? ? A B]; subst.
  destruct (Nat.eqb_spec (r_id x) (r_id r)) as [E|Ne].
  - destruct I as [<-|I]; auto. exfalso. apply A. rewrite E. apply in_map; exact I.
  - destruct I as [<-|I]; [congruence|]. rewrite perm_swap. constructor. apply IH; auto.
Qed.
Lemma has_id_In l r : In r l -> has_id (r_id r) l = true.
Proof. intros I. apply existsb_exists. exists r. split; auto. apply Nat.eqb_refl. Qed.

Lemma filter_perm {A} (f : A -> bool) l l' : Permutation l l' -> Permutation (filter f l) (filter f l').
Proof.
  induction 1; cbn; auto.
  - destruct (f x); auto.
  - destruct (f x), (f y); auto. apply perm_swap.
  - etransitivity; eauto.
Qed.
Lemma filter_map_comm {A B} (g : A -> B) (f : B -> bool) l : filter f (map g l) = map g (filter (fun x => f (g x)) l).
Proof. induction l as [|x t IH]; cbn; auto. rewrite IH. destruct (f (g x)); reflexivity. Qed.
Lemma filter_filter {A} (f g : A -> bool) l : filter f (filter g l) = filter (fun x => g x && f x) l.
Proof. induction l as [|x t IH]; cbn; auto. destruct (g x); cbn; rewrite IH; auto. Qed.

(** taking one entry out of a keyed list *)
Lemma take_out m e : wf m -> In e m ->
  Permutation (filter (in_ref (se_ref e)) m)
              (e :: filter (in_ref (se_ref e)) (filter (fun x => negb (has_key (se_ref e) (se_src e) x)) m)).
Proof.
  intros W I. pose proof (fun x J => key_inj m e x W I J) as Inj. pose proof (wf_keys m W) as N. clear W.
  assert (Hout : forall t, ~ In (se_ref e, se_src e) (map (fun x => (se_ref x, se_src x)) t) ->
     filter (fun x => negb (has_key (se_ref e) (se_src e) x)) t = t).
  { intros t Ht. apply filter_true. intros x Ix. apply negb_true_iff, not_true_iff_false. intros T.
    apply has_key_spec in T as [T1 T2]. apply Ht. apply in_map_iff. exists x. split; auto. congruence. }
  revert I. induction m as [|x m IH]; cbn; [tauto|]. inversion N as [|? ? A B]; subst. intros [->|I].
  - rewrite (proj2 (in_ref_spec _ _) eq_refl). rewrite (proj2 (has_key_spec _ _ _) (conj eq_refl eq_refl)). cbn.
    rewrite Hout by exact A. reflexivity.
  - assert (Nk : has_key (se_ref e) (se_src e) x = false).
    { apply not_true_iff_false. intros T. apply has_key_spec in T as [T1 T2]. apply A. apply in_map_iff.
      exists e. split; auto. congruence. }
    rewrite Nk. cbn. destruct (in_ref (se_ref e) x); [rewrite perm_swap; constructor|]; apply IH; auto;
      intros y J; apply Inj; cbn; auto.
Qed.

Lemma permanent_nil ref m : permanent ref m = [] <-> existsb (stored_in ref) m = false.
Proof.
  unfold permanent. split.
  - intros E. apply map_eq_nil in E. apply not_true_iff_false. rewrite existsb_exists. intros (x & I & B).
    assert (J : In x (filter (stored_in ref) m)) by (apply filter_In; auto). rewrite E in J. destruct J.
  - intros E.
    destruct (filter (stored_in ref) m) as [|x l] eqn:F; auto. exfalso.
    assert (J : In x (filter (stored_in ref) m)) by (rewrite F; cbn; auto). apply filter_In in J as [J B].
    rewrite (existsb_false_all _ _ E x J) in B. discriminate.
Qed.

Lemma del_refines m s ref src :
  wf m -> R m s ->
  let '(s', x) := exec s (ODel ref src) in let '(m', y) := sstep m (ODel ref src) in
  x = y /\ wf m' /\ R m' s'.
Proof.
  intros W HR. cbn [exec sstep].
  destruct (find (fun r => eqb (d_source (r_data r)) (Some src)) (mget ref (rs_mem s))) as [r|] eqn:Fd.
  - apply find_some in Fd as [I Es]. apply (proj1 (eqb_eq _ _)) in Es.
    destruct (mem_sourced _ _ _ _ W HR I) as (e & Ie & Er & Ed & Es2).
    assert (Ees : se_src e = src) by congruence.
    assert (K : existsb (has_key ref src) m = true) by (apply existsb_exists; exists e; split; auto; apply has_key_spec; auto).
    rewrite K. set (m' := filter (fun x => negb (has_key ref src x)) m).
    assert (Inm' : forall x, In x m' <-> In x m /\ x <> e).
    { intros x. unfold m'. rewrite filter_In, negb_true_iff. split.
      - intros [J B]. split; auto. intros ->. apply not_true_iff_false in B. apply B. apply has_key_spec; auto.
      - intros [J Ne]. split; auto. apply not_true_iff_false. intros T. apply has_key_spec in T as [T1 T2]. apply Ne.
        apply (key_inj m); auto; congruence. }
    assert (W' : wf m').
    { constructor.
      - unfold m'. pose proof (wf_keys m W) as N. clear -N. induction m as [|x m IH]; cbn in *; [constructor|].
        inversion N as [|? ? A B]; subst. destruct (negb _); cbn; auto. constructor; auto. intros J. apply A.
        apply in_map_iff in J as (y & Ey & J). apply filter_In in J as [J _]. apply in_map_iff; eauto.
      - intros x J. apply Inm' in J as [J _]. apply (wf_src m W x J).
      - intros x J. apply Inm' in J as [J _]. apply (wf_good m W x J). }
    pose proof (R_refs _ _ HR _ _ I) as Rr. unfold delete_resource. rewrite Rr.
    destruct (dget ref (rs_mem s)) as [l0|] eqn:Dm; [|unfold mget in I; rewrite Dm in I; destruct I].
    rewrite (has_id_In _ _ I). cbn [negb].
    set (l := remove_id (r_id r) (mget ref (rs_mem s))).
    pose proof (remove_id_perm _ _ I (mget_ids_NoDup _ ref (R_ids _ _ HR))) as Pl. fold l in Pl.
    (* remaining memory under ref *)
    assert (Pm : Permutation (map (fun k => serialize (r_data k)) l) (registered ref m')).
    { pose proof (R_mem _ _ HR ref) as P. unfold memory, registered in P.
      pose proof (take_out m e W Ie) as T. rewrite Er, Ees in T. fold m' in T.
      apply (Permutation_cons_inv (a := se_data e)). rewrite Ed at 1.
      change (serialize (r_data r) :: map (fun k => serialize (r_data k)) l) with (map (fun k => serialize (r_data k)) (r :: l)).
      rewrite <- Pl. rewrite P. rewrite T. reflexivity. }
    assert (Lin : forall k, In k l -> In k (mget ref (rs_mem s))).
    { intros k J. apply (Permutation_in _ (Permutation_sym Pl)). cbn; auto. }
    (* which of the remaining ones are on disk *)
    set (st := fun d : rdata => existsb (fun x => match d_source d with Some sc => has_key ref sc x | None => false end && se_stored x) m).
    assert (Fl : filter_res (exists_in (rs_disk s)) l = ROk (filter (fun k => st (serialize (r_data k))) l)).
    { apply filter_res_ok. intros k J. destruct (mem_sourced _ _ _ _ W HR (Lin k J)) as (e' & _ & _ & _ & Es').
      rewrite (exists_in_spec m s k (se_src e') W HR Es'). unfold st. cbn. rewrite Es', (R_refs _ _ HR _ _ (Lin k J)).
      reflexivity. }
    assert (Pd : Permutation (map (fun k => serialize (r_data k)) (filter (fun k => st (serialize (r_data k))) l))
                             (permanent ref m')).
    { rewrite <- (filter_map_comm (fun k => serialize (r_data k)) st l). rewrite (filter_perm st _ _ Pm).
      unfold registered, permanent. rewrite filter_map_comm. rewrite filter_filter.
      apply Permutation_map. match goal with |- Permutation (filter ?g m') _ => rewrite (filter_ext_in g (stored_in ref)); [reflexivity|] end.
      intros x J. apply Inm' in J as [J _]. unfold stored_in. destruct (in_ref ref x) eqn:Rx; auto. cbn. unfold st.
      rewrite (wf_src m W x J). apply in_ref_spec in Rx. apply eq_true_iff_eq. rewrite existsb_exists. split.
      - intros (y & Iy & B). apply andb_true_iff in B as [B Sy]. apply has_key_spec in B as [B1 B2].
        assert (y = x) by (apply (key_inj m); auto; congruence). subst; auto.
      - intros Sx. exists x. split; auto. rewrite Sx, andb_true_r. apply has_key_spec; auto. }
    set (m1 := dset ref l (rs_mem s)).
    set (m2 := match l with [] => ddel ref m1 | _ => m1 end).
    assert (M1 : forall ref0, mget ref0 m1 = if eqb ref0 ref then l else mget ref0 (rs_mem s)) by (intros; apply mget_dset).
    assert (M2 : forall ref0, mget ref0 m2 = if eqb ref0 ref then l else mget ref0 (rs_mem s)).
    { intros ref0. unfold m2. destruct l as [|k t] eqn:El; [|apply M1]. rewrite mget_ddel, M1. destruct (eqb ref0 ref); auto. }
    assert (Nl : NoDup (map r_id l)).
    { pose proof (mget_ids_NoDup _ ref (R_ids _ _ HR)) as N. rewrite Pl in N. cbn in N. inversion N; auto. }
    assert (Li : forall i, In i (map r_id l) -> In i (map r_id (mget ref (rs_mem s)))).
    { intros i J. apply in_map_iff in J as (k & <- & J). apply in_map. auto. }
    assert (Id1 : NoDup (all_ids m1)) by (apply all_ids_dset_NoDup; auto; apply (R_ids _ _ HR)).
    assert (In1 : forall i, In i (all_ids m1) -> In i (all_ids (rs_mem s))).
    { intros i J. apply all_ids_dset_incl in J as [J|J]; auto. apply Li in J. apply in_map_iff in J as (k & <- & J).
      eapply mget_all_ids; eauto. }
    assert (RR : forall mm dk, (mm = m1 \/ mm = m2) -> NoDup (dkeys dk) ->
       (forall ref0, match dget ref0 dk with None => permanent ref0 m' = [] | Some FBroken => False
                     | Some (FJson q) => q <> [] /\ Permutation q (permanent ref0 m') end) ->
       R m' (RS mm dk (rs_next s))).
    { intros mm dk Hmm NDdk Hdk.
      assert (MM : forall ref0, mget ref0 mm = if eqb ref0 ref then l else mget ref0 (rs_mem s)) by (destruct Hmm; subst; auto).
      constructor; cbn; auto.
      - intros ref0. unfold memory. cbn. rewrite MM. destruct (eqb_spec ref0 ref) as [->|Ne]; [exact Pm|].
        rewrite (R_mem _ _ HR ref0). unfold registered, m'. rewrite filter_filter.
        apply Permutation_map. rewrite (filter_ext_in (in_ref ref0) (fun x => negb (has_key ref src x) && in_ref ref0 x)); [reflexivity|]. intros x J.
        destruct (in_ref ref0 x) eqn:Rx; [|rewrite andb_false_r; auto]. apply in_ref_spec in Rx.
        replace (has_key ref src x) with false; auto. symmetry. apply not_true_iff_false. intros T.
        apply has_key_spec in T as [T _]. congruence.
      - intros ref0 r0. rewrite MM. destruct (eqb_spec ref0 ref) as [->|Ne]; intros J; apply (R_refs _ _ HR _ _); auto.
      - destruct Hmm; subst mm; auto. unfold m2. destruct l; auto. apply all_ids_ddel; exact Id1.
      - pose proof (R_next _ _ HR) as Fn. rewrite Forall_forall in *. intros i J. apply Fn. apply In1.
        destruct Hmm; subst mm; auto. unfold m2 in J. destruct l; auto. apply (all_ids_ddel m1 ref) in J. exact J.
      - assert (NoDup (dkeys m1)) by (apply NoDup_dset, (R_nd _ _ HR)).
        destruct Hmm; subst mm; auto. unfold m2. destruct l; auto. apply NoDup_ddel; auto. }
    assert (Po : forall ref0, ref0 <> ref -> permanent ref0 m' = permanent ref0 m).
    { intros ref0 Ne. unfold permanent, m'. rewrite filter_filter. f_equal. apply filter_ext_in. intros x J.
      destruct (stored_in ref0 x) eqn:Rx; [|rewrite andb_false_r; auto]. apply stored_in_spec in Rx as [Rx _].
      replace (has_key ref src x) with false; auto. symmetry. apply not_true_iff_false. intros T.
      apply has_key_spec in T as [T _]. congruence. }
    unfold write_or_delete. rewrite Fl. pose proof (R_disk _ _ HR ref) as Dr.
    destruct (filter (fun k => st (serialize (r_data k))) l) as [|k t] eqn:El.
    + cbn in Pd. apply Permutation_nil in Pd.
      destruct (dget ref (rs_disk s)) as [[q|]|] eqn:Dq; [|tauto|].
      * destruct Dr as [Nq Pq]. assert (Es' : existsb (stored_in ref) m = true).
        { destruct (existsb (stored_in ref) m) eqn:X; auto. apply permanent_nil in X. rewrite X in Pq.
          apply Permutation_sym, Permutation_nil in Pq. congruence. }
        rewrite Es'. split; auto. split; auto. apply RR; auto.
        -- apply NoDup_ddel, (R_ndd _ _ HR).
        -- intros ref0. rewrite dget_ddel. destruct (eqb_spec ref0 ref) as [->|Ne]; auto. rewrite Po by exact Ne.
           apply (R_disk _ _ HR ref0).
      * apply permanent_nil in Dr as Es'. rewrite Es'. split; auto. split; auto. apply RR; auto.
        -- apply (R_ndd _ _ HR).
        -- intros ref0. destruct (eqb_spec ref0 ref) as [->|Ne]; [rewrite Dq; auto|].
           rewrite Po by exact Ne. apply (R_disk _ _ HR ref0).
    + assert (Es' : existsb (stored_in ref) m = true).
      { destruct (existsb (stored_in ref) m) eqn:X; auto. exfalso.
        assert (Y : permanent ref m' = []).
        { apply permanent_nil. apply not_true_iff_false. rewrite existsb_exists. intros (x & J & B). apply Inm' in J as [J _].
          rewrite (existsb_false_all _ _ X x J) in B. discriminate. }
        rewrite Y in Pd. apply Permutation_sym, Permutation_nil in Pd. discriminate. }
      rewrite Es'. split; auto. split; auto. apply RR; auto.
      * apply NoDup_dset, (R_ndd _ _ HR).
      * intros ref0. rewrite dget_dset. destruct (eqb_spec ref0 ref) as [->|Ne].
        -- split; [discriminate|exact Pd].
        -- rewrite Po by exact Ne. apply (R_disk _ _ HR ref0).
  - assert (K : existsb (has_key ref src) m = false).
    { apply not_true_iff_false. rewrite existsb_exists. intros (e & Ie & B). apply has_key_spec in B as [B1 B2].
      destruct (reg_in_mem _ _ _ HR Ie) as (k & Ik & Ek). rewrite B1 in Ik. pose proof (find_none _ _ Fd k Ik) as X. cbn in X.
      apply eqb_neq in X. apply X. change (d_source (r_data k)) with (d_source (serialize (r_data k))).
      rewrite Ek, (wf_src m W e Ie). congruence. }
    rewrite K. destruct (foreign_refines m s ref (plain src) W HR) as [X Y].
    destruct (foreign s ref (plain src)) as [s' x]. cbn in X, Y. auto.
Qed.

Lemma restart_refines m s :
  wf m -> R m s ->
  let '(s', x) := exec s ORestart in x = ROk tt /\ wf (filter se_stored m) /\ R (filter se_stored m) s'.
Proof.
  intros W HR. cbn [exec].
  assert (Gd : forall ref d, In d (entries ref (rs_disk s)) -> good d).
  { intros ref d I. apply (Permutation_in _ (disk_entries _ _ ref HR)) in I. apply in_map_iff in I as (e & <- & I).
    apply filter_In in I as [I _]. apply (wf_good m W e I). }
  assert (L : forall ref l, dget ref (rs_disk s) = Some (FJson l) -> map_res from_dict l = ROk l).
  { intros ref l D. rewrite (map_res_ok _ (fun d => d)); [rewrite map_id; reflexivity|]. intros d I. apply good_from_dict.
    apply (Gd ref). unfold entries. rewrite D. exact I. }
  destruct (start_spec (rs_disk s) (rs_next s) (R_ndd _ _ HR)) as (s' & E & Ed & _ & Hi & Hn & Hk & Hl).
  { intros ref l D. exists l. eapply L; eauto. }
  rewrite E. split; auto. split.
  - constructor.
    + pose proof (wf_keys m W) as N. clear -N. induction m as [|x m IH]; cbn in *; [constructor|].
      inversion N as [|? ? A B]; subst. destruct (se_stored x); cbn; auto. constructor; auto. intros J. apply A.
      apply in_map_iff in J as (y & Ey & J). apply filter_In in J as [J _]. apply in_map_iff; eauto.
    + intros e I. apply filter_In in I as [I _]. apply (wf_src m W e I).
    + intros e I. apply filter_In in I as [I _]. apply (wf_good m W e I).
  - assert (Pe : forall ref, permanent ref (filter se_stored m) = permanent ref m).
    { intros ref. unfold permanent. rewrite filter_filter. f_equal. apply filter_ext. intros x. unfold stored_in.
      destruct (se_stored x), (in_ref ref x); reflexivity. }
    assert (Re : forall ref, registered ref (filter se_stored m) = permanent ref m).
    { intros ref. unfold permanent, registered. rewrite filter_filter. f_equal. apply filter_ext. intros x. unfold stored_in.
      destruct (se_stored x), (in_ref ref x); reflexivity. }
    constructor; auto.
    + intros ref. rewrite Re, <- (disk_entries _ _ ref HR). unfold memory. specialize (Hl ref). unfold loaded_as, entries, mget in *.
      pose proof (Gd ref) as G. unfold entries in G.
      destruct (dget ref (rs_disk s)) as [[l|]|] eqn:D; try (rewrite Hl; reflexivity).
      destruct Hl as (k & ds & E1 & -> & _). rewrite (L _ _ D) in E1. injection E1 as <-.
      rewrite (sort_prio_perm (number k ref l)). rewrite <- (map_map r_data serialize), number_data.
      replace (map serialize l) with l; [reflexivity|]. rewrite <- (map_id l) at 1. apply map_ext_in.
      intros d I. symmetry. apply (G d I).
    + intros ref. rewrite Pe, Ed. apply (R_disk _ _ HR ref).
    + intros ref r I. specialize (Hl ref). unfold loaded_as, mget in *.
      destruct (dget ref (rs_disk s)) as [[l|]|]; try (rewrite Hl in I; destruct I).
      destruct Hl as (k & ds & _ & Em & _). rewrite Em in I. apply (Permutation_in _ (sort_prio_perm _)) in I.
      eapply number_ref; eauto.
    + rewrite Ed. apply (R_ndd _ _ HR).
Qed.

Lemma step_refines m s o : wf m -> R m s -> op_ok o ->
  let '(s', x) := exec s o in let '(m', y) := sstep m o in x = y /\ wf m' /\ R m' s'.
Proof.
  intros W HR Ok. destruct o as [ref d store|ref src|ref d|].
  - destruct Ok. apply add_refines; auto.
  - apply del_refines; auto.
  - cbn [exec sstep]. destruct (foreign_refines m s ref d W HR) as [X Y]. destruct (foreign s ref d) as [s' x]. cbn in *. auto.
  - cbn [sstep]. pose proof (restart_refines m s W HR) as X. destruct (exec s ORestart) as [s' x]. tauto.
Qed.

Lemma run_refines h : forall m s, wf m -> R m s -> Forall op_ok h ->
  let '(s', xs) := run s h in let '(m', ys) := srun m h in xs = ys /\ wf m' /\ R m' s'.
Proof.
  induction h as [|o t IH]; intros m s W HR F; cbn; [auto|]. inversion F as [|? ? Fo Ft]; subst.
  pose proof (step_refines m s o W HR Fo) as X. destruct (exec s o) as [s1 x], (sstep m o) as [m1 y].
  destruct X as (-> & W1 & R1). specialize (IH m1 s1 W1 R1 Ft). destruct (run s1 t) as [s2 xs], (srun m1 t) as [m2 ys].
  destruct IH as (-> & W2 & R2). auto.
Qed.

Lemma init_R n : wf [] /\ R [] (RS [] [] n).
Proof.
  split; constructor; cbn; try constructor; try tauto; try reflexivity; auto; intros; contradiction.
Qed.

(** Over every history on a fresh directory the results are those of the specification, memory shows exactly the
    registered resources and each file exactly the permanently registered ones (no file when there are none). *)
Theorem C56_memory_and_disk_in_step n h :
  Forall op_ok h ->
  let '(s, xs) := run (RS [] [] n) h in let '(m, ys) := srun [] h in
  xs = ys
  /\ forall ref, Permutation (memory ref s) (registered ref m)
       /\ match dget ref (rs_disk s) with
          | None => permanent ref m = []
          | Some (FJson l) => l <> [] /\ Permutation l (permanent ref m)
          | Some FBroken => False
          end.
Proof.
  intros F. destruct (init_R n) as [W HR]. pose proof (run_refines h [] _ W HR F) as X.
  destruct (run (RS [] [] n) h) as [s xs], (srun [] h) as [m ys]. destruct X as (E & _ & X). split; auto.
  intros ref. split; [apply (R_mem _ _ X)|apply (R_disk _ _ X)].
Qed.

(** Adding the same data source under the same reference again changes nothing. *)
Theorem C56_add_idempotent n h ref d d2 store store2 :
  Forall op_ok h -> d_source d <> None -> d_filetype d = None -> d_source d2 = d_source d -> d_filetype d2 = None ->
  let '(s1, _) := run (RS [] [] n) (h ++ [OAdd ref d store]) in
  let '(s2, xs) := run (RS [] [] n) (h ++ [OAdd ref d store; OAdd ref d2 store2]) in
  last xs (RErr RKeyError) = ROk tt
  /\ forall ref', Permutation (memory ref' s2) (memory ref' s1)
       /\ Permutation (entries ref' (rs_disk s2)) (entries ref' (rs_disk s1)).
Proof.
  intros F S Ft S2 Ft2. destruct (init_R n) as [W HR].
  assert (F1 : Forall op_ok (h ++ [OAdd ref d store])) by (apply Forall_app; split; auto; repeat constructor; auto).
  assert (F2 : Forall op_ok (h ++ [OAdd ref d store; OAdd ref d2 store2])).
  { apply Forall_app; split; auto; repeat constructor; auto; congruence. }
  pose proof (run_refines _ [] _ W HR F1) as X1. pose proof (run_refines _ [] _ W HR F2) as X2.
  destruct (run (RS [] [] n) (h ++ [OAdd ref d store])) as [s1 xs1].
  destruct (run (RS [] [] n) (h ++ [OAdd ref d store; OAdd ref d2 store2])) as [s2 xs2].
  assert (Ap : forall a b m, srun m (a ++ b) = let '(m1, x) := srun m a in let '(m2, y) := srun m1 b in (m2, x ++ y)).
  { induction a as [|o a IH]; intros b m; cbn; [destruct (srun m b); reflexivity|].
    destruct (sstep m o) as [m1 x]. rewrite IH. destruct (srun m1 a) as [m2 xa]. destruct (srun m2 b); reflexivity. }
  rewrite Ap in X1, X2. destruct (srun [] h) as [m xh].
  destruct (d_source d) as [src|] eqn:Es; [|congruence]. cbn in X1, X2. rewrite Es in X1, X2. rewrite S2 in X2.
  set (m1 := if existsb (has_key ref src) m then (m, @ROk unit tt) else (m ++ [SE ref src (shown d) store], ROk tt)) in *.
  assert (K : existsb (has_key ref src) (fst m1) = true).
  { unfold m1. destruct (existsb (has_key ref src) m) eqn:K; auto. cbn [fst]. rewrite existsb_app. cbn [existsb].
    rewrite (proj2 (has_key_spec ref src (SE ref src (shown d) store)) (conj eq_refl eq_refl)). apply orb_true_r. }
  destruct m1 as [q x]. cbn in K. rewrite K in X2. cbn in X1, X2. destruct X1 as (_ & _ & R1). destruct X2 as (-> & _ & R2).
  split.
  - change (xh ++ [x; ROk tt]) with (xh ++ [x] ++ [@ROk unit tt]). rewrite app_assoc. apply last_last.
  - intros ref'. split.
    + rewrite (R_mem _ _ R2 ref'), (R_mem _ _ R1 ref'). reflexivity.
    + rewrite (disk_entries _ _ ref' R2), (disk_entries _ _ ref' R1). reflexivity.
Qed.

(** After a successful or refused deletion the source is registered nowhere under that reference, in memory or on disk. *)
Theorem C56_deleted_is_gone n h ref src :
  Forall op_ok h ->
  let '(s, _) := run (RS [] [] n) (h ++ [ODel ref src]) in
  (forall d, In d (memory ref s) -> d_source d <> Some src)
  /\ (forall d, In d (entries ref (rs_disk s)) -> d_source d <> Some src).
Proof.
  intros F. destruct (init_R n) as [W HR].
  assert (F1 : Forall op_ok (h ++ [ODel ref src])) by (apply Forall_app; split; auto; repeat constructor; auto).
  pose proof (run_refines _ [] _ W HR F1) as X1. destruct (run (RS [] [] n) (h ++ [ODel ref src])) as [s xs].
  assert (Ap : forall a b m, srun m (a ++ b) = let '(m1, x) := srun m a in let '(m2, y) := srun m1 b in (m2, x ++ y)).
  { induction a as [|o a IH]; intros b m; cbn; [destruct (srun m b); reflexivity|].
    destruct (sstep m o) as [m1 x]. rewrite IH. destruct (srun m1 a) as [m2 xa]. destruct (srun m2 b); reflexivity. }
  rewrite Ap in X1. destruct (srun [] h) as [m xh]. cbn in X1.
  assert (N : exists m' y, (if existsb (has_key ref src) m
       then (filter (fun e => negb (has_key ref src e)) m, if existsb (stored_in ref) m then ROk tt else RErr RFileNotFound)
       else (m, RErr RKeyError)) = (m', y) /\ forall e, In e m' -> has_key ref src e = false).
  { destruct (existsb (has_key ref src) m) eqn:K.
    - eexists _, _. split; [reflexivity|]. intros e I. apply filter_In in I as [_ B]. apply negb_true_iff; exact B.
    - exists m, (RErr RKeyError). split; auto. intros e I. apply (existsb_false_all _ _ K e I). }
  destruct N as (m' & y & Em & N). rewrite Em in X1. cbn in X1. destruct X1 as (_ & W1 & R1).
  assert (G : forall e, In e m' -> se_ref e = ref -> d_source (se_data e) <> Some src).
  { intros e I Er Es. rewrite (wf_src m' W1 e I) in Es. specialize (N e I). apply not_true_iff_false in N. apply N.
    apply has_key_spec. split; congruence. }
  split; intros d I.
  - apply (Permutation_in _ (R_mem _ _ R1 ref)) in I. apply in_map_iff in I as (e & <- & I). apply filter_In in I as [I B].
    apply in_ref_spec in B. auto.
  - apply (Permutation_in _ (disk_entries _ _ ref R1)) in I. apply in_map_iff in I as (e & <- & I).
    apply filter_In in I as [I B]. apply stored_in_spec in B as [B _]. auto.
Qed.

(** A restart lists each reference's resources by increasing priority. *)
Theorem C56_restart_sorted n h ref :
  Forall op_ok h ->
  let '(s, _) := run (RS [] [] n) (h ++ [ORestart]) in StronglySorted prio_le (mget ref (rs_mem s)).
Proof.
  intros F. destruct (init_R n) as [W HR]. pose proof (run_refines h [] _ W HR F) as X.
  assert (Ap : forall a b s, run s (a ++ b) = let '(m1, x) := run s a in let '(m2, y) := run m1 b in (m2, x ++ y)).
  { induction a as [|o a IH]; intros b m; cbn; [destruct (run m b); reflexivity|].
    destruct (exec m o) as [m1 x]. rewrite IH. destruct (run m1 a) as [m2 xa]. destruct (run m2 b); reflexivity. }
  rewrite Ap. destruct (run (RS [] [] n) h) as [s xs], (srun [] h) as [m ys]. destruct X as (_ & Wm & X).
  pose proof (restart_refines m s Wm X) as Y. cbn [run]. cbn [exec] in *.
  assert (L : loadable (rs_disk s)).
  { intros ref0 l D. exists l. rewrite (map_res_ok _ (fun d => d)); [rewrite map_id; reflexivity|]. intros d I.
    apply good_from_dict. assert (J : In d (entries ref0 (rs_disk s))) by (unfold entries; rewrite D; exact I).
    apply (Permutation_in _ (disk_entries _ _ ref0 X)) in J. apply in_map_iff in J as (e & <- & J).
    apply filter_In in J as [J _]. apply (wf_good m Wm e J). }
  destruct (found_start (rs_disk s) (rs_next s) ref (R_ndd _ _ X) L) as (ds & _ & _ & So).
  destruct (start (rs_disk s) (rs_next s)) as [s'|e]; [exact So|]. destruct Y as [Y _]. discriminate.
Qed.

(** Refuted: deleting a memory-only resource (when nothing is stored under its reference) raises FileNotFoundError after
    the resource has been removed, and leaves an empty list under the reference, so that the reference still counts as known. *)
Theorem C56_delete_unstored_refuted :
  let '(s, xs) := run (RS [] [] 0) [OAdd "a" (plain "x") false; ODel "a" "x"] in
  xs = [ROk tt; RErr RFileNotFound] /\ dget "a" (rs_mem s) = Some [] /\ resolve s "a" None false = ROk [].
Proof. vm_compute. repeat split; reflexivity. Qed.

(** A deletion that succeeds removes just the one resource, and the reference with its last resource. *)
Theorem C56_delete_effect s r s' : delete_resource s r = (s', ROk tt) ->
  exists a x b, mget (r_ref r) (rs_mem s) = a ++ x :: b /\ r_id x = r_id r /\ (forall y, In y a -> r_id y <> r_id r) /\
    dget (r_ref r) (rs_mem s') = match a ++ b with [] => None | l => Some l end /\
    (forall ref, ref <> r_ref r -> dget ref (rs_mem s') = dget ref (rs_mem s) /\ dget ref (rs_disk s') = dget ref (rs_disk s)).
Proof.
  unfold delete_resource. set (m := match dget (r_ref r) (rs_mem s) with Some _ => rs_mem s | None => dset (r_ref r) [] (rs_mem s) end).
  assert (MM : mget (r_ref r) m = mget (r_ref r) (rs_mem s)).
  { unfold m, mget. destruct (dget (r_ref r) (rs_mem s)) eqn:G; [rewrite G; reflexivity|rewrite dget_dset_same; reflexivity]. }
  assert (MO : forall ref, ref <> r_ref r -> dget ref m = dget ref (rs_mem s)).
  { intros ref N. unfold m. destruct (dget (r_ref r) (rs_mem s)); [reflexivity|apply dget_dset_other; exact N]. }
  rewrite MM. clearbody m. destruct (has_id (r_id r) (mget (r_ref r) (rs_mem s))) eqn:H; [|discriminate]. cbn [negb].
  destruct (write_or_delete (rs_disk s) (r_ref r) (remove_id (r_id r) (mget (r_ref r) (rs_mem s)))) as [dk [[]|e]] eqn:W; [|discriminate].
  intros E. injection E as <-. cbn [rs_mem rs_disk].
  assert (SP : exists a x b, mget (r_ref r) (rs_mem s) = a ++ x :: b /\ r_id x = r_id r /\ (forall y, In y a -> r_id y <> r_id r)
     /\ remove_id (r_id r) (mget (r_ref r) (rs_mem s)) = a ++ b).
  { clear -H. induction (mget (r_ref r) (rs_mem s)) as [|x l IH]; [discriminate|]. cbn [remove_id has_id existsb] in *. destruct (Nat.eqb_spec (r_id x) (r_id r)) as [EQ|NE].
    - exists [], x, l. split; [reflexivity|]. split; [exact EQ|]. split; [intros y []|reflexivity].
    - destruct (IH H) as (a & y & b & E1 & E2 & E3 & E4). exists (x :: a), y, b. rewrite E1 at 1. rewrite E4. repeat split; auto. intros z [<-|J]; auto. }
  destruct SP as (a & x & b & E1 & E2 & E3 & E4). exists a, x, b. rewrite E4 in *. repeat split; auto.
  - destruct (a ++ b); [rewrite dget_ddel, eqb_refl; reflexivity|apply dget_dset_same].
  - destruct (a ++ b); [rewrite dget_ddel; destruct (eqb_spec ref (r_ref r)); [contradiction|]|]; rewrite dget_dset_other by assumption; apply MO; assumption.
  - unfold write_or_delete in W. destruct (filter_res _ _) as [[|z l]|]; [|injection W as <-; apply dget_dset_other; assumption|discriminate].
    destruct (dget (r_ref r) (rs_disk s)); [|discriminate]. injection W as <-. rewrite dget_ddel. destruct (eqb_spec ref (r_ref r)); [contradiction|reflexivity].
Qed.
Print Assumptions C56_delete_effect.

(** Refuted: with a 'filetype' argument a stored resource comes back from a restart with another data source, so
    adding it again registers it twice. *)
Definition with_ft : rdata := RD (Some "/data/bg") "Background" None (Some ".mat") [] 50%Z false false "".
Theorem C56_filetype_refuted :
  let '(s, _) := run (RS [] [] 0) [OAdd "a" with_ft true; ORestart] in
  map d_source (memory "a" s) = [Some "/data/bg.mat"] /\ map d_source (entries "a" (rs_disk s)) = [Some "/data/bg"].
Proof. vm_compute. split; reflexivity. Qed.

Example C56_example :
  let h := [OAdd "a" (plain "x") true; OAdd "a" (plain "y") false; OAdd "a" (plain "x") true; OAdd "b" (plain "x") true;
            ODel "a" "y"; ODel "a" "zz"; OAdd "a" (RD (Some "w") "T" None None ["index"] 3%Z false false "") true; ORestart;
            ODel "b" "x"] in
  Forall op_ok h
  /\ srun [] h = ([SE "a" "x" (shown (plain "x")) true; SE "a" "w" (RD (Some "w") "T" None None ["basic"; "index"] 3%Z false false "") true],
       [ROk tt; ROk tt; ROk tt; ROk tt; ROk tt; RErr RKeyError; ROk tt; ROk tt; ROk tt])
  /\ map d_source (memory "a" (fst (run (RS [] [] 0) h))) = [Some "w"; Some "x"].
Proof. split; [repeat constructor; cbn; congruence|]. vm_compute. split; reflexivity. Qed.

Print Assumptions C56_memory_and_disk_in_step.
Print Assumptions C56_add_idempotent.
Print Assumptions C56_deleted_is_gone.
Print Assumptions C56_restart_sorted.

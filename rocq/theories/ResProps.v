(** Resources and the resolver: C53 (one stored entry per source), C54 (interrupted save), C55 (request matching). *)
From Coq Require Import ZArith Sorted.
From Verif Require Import Base PyStr ResModel.
Open Scope string_scope.
Open Scope nat_scope.
Open Scope list_scope.
Local Arguments eqb : simpl never.

(** * C53 *)

(** Specification: of a sequence of entries keep, for every data source, only the last one, in place. *)
Fixpoint last_per_source (l : list rdata) : list rdata :=
  match l with
  | [] => []
  | d :: t => if existsb (fun e => eqb (d_source e) (d_source d)) t then last_per_source t else d :: last_per_source t
  end.

Definition has_source (d : rdata) : Prop := d_source d <> None.

(** a history of [write_to_file] calls: stops at the first exception *)
Fixpoint write_all (dk : disk) (rs : list res) : disk * rres unit :=
  match rs with
  | [] => (dk, ROk tt)
  | r :: t => match write_to_file dk r with (dk', ROk _) => write_all dk' t | (dk', RErr e) => (dk', RErr e) end
  end.

Definition entries (ref : string) (dk : disk) : list rdata :=
  match dget ref dk with Some (FJson l) => l | _ => [] end.

Lemma matches_src a b : has_source a -> has_source b -> matches a b = ROk (eqb (d_source b) (d_source a)).
Proof.
  unfold has_source, matches. destruct (d_source a), (d_source b); try congruence. intros _ _. reflexivity.
Qed.

Lemma last_per_source_In x l : In x (last_per_source l) -> In x l.
Proof.
  induction l as [|d t IH]; cbn; [tauto|]. destruct (existsb _ t); [auto|]. intros [E|I]; auto.
Qed.

Lemma last_snoc l x :
  last_per_source (l ++ [x]) = filter (fun k => negb (eqb (d_source k) (d_source x))) (last_per_source l) ++ [x].
Proof.
  induction l as [|d t IH]; cbn; [reflexivity|]. rewrite existsb_app. cbn. rewrite orb_false_r.
  destruct (existsb (fun e => eqb (d_source e) (d_source d)) t) eqn:E; cbn; [exact IH|].
  rewrite (eqb_sym (d_source d)). destruct (eqb_spec (d_source x) (d_source d)); cbn; rewrite IH; reflexivity.
Qed.

Lemma last_id l : NoDup (map d_source l) -> last_per_source l = l.
Proof.
  induction l as [|d t IH]; cbn; [reflexivity|]. inversion 1 as [|? ? N ND]; subst.
  destruct (existsb _ t) eqn:E; [|rewrite IH; auto]. exfalso. apply N.
  apply existsb_exists in E as [e [I E]]. apply (proj1 (eqb_eq _ _)) in E. rewrite <- E. apply in_map; exact I.
Qed.

Lemma filter_res_ok {A} (f : A -> rres bool) g l :
  (forall x, In x l -> f x = ROk (g x)) -> filter_res f l = ROk (filter g l).
Proof.
  induction l as [|x t IH]; cbn; intros Hf; [reflexivity|]. rewrite Hf by auto. rewrite IH by auto. destruct (g x); reflexivity.
Qed.
Lemma map_res_ok {A B} (f : A -> rres B) g l :
  (forall x, In x l -> f x = ROk (g x)) -> map_res f l = ROk (map g l).
Proof. induction l as [|x t IH]; cbn; intros Hf; [reflexivity|]. rewrite Hf, IH by auto. reflexivity. Qed.
Lemma any_res_ok {A} (f : A -> rres bool) g l :
  (forall x, In x l -> f x = ROk (g x)) -> any_res f l = ROk (existsb g l).
Proof. induction l as [|x t IH]; cbn; intros Hf; [reflexivity|]. rewrite Hf by auto. destruct (g x); cbn; auto. Qed.

Lemma write_content_src dk r :
  has_source (r_data r) -> Forall has_source (entries (r_ref r) dk) ->
  write_content dk r
  = ROk (filter (fun k => negb (eqb (d_source k) (d_source (r_data r)))) (entries (r_ref r) dk) ++ [serialize (r_data r)]).
Proof.
  intros Hs F. unfold write_content, entries in *. destruct (dget (r_ref r) dk) as [f|]; [|reflexivity].
  set (j := match f with FJson l => l | FBroken => [] end).
  assert (Fj : Forall has_source j) by (unfold j; destruct f; auto).
  assert (Ej : match f with FJson l => l | FBroken => [] end = j) by reflexivity.
  rewrite (filter_res_ok _ (fun k => negb (eqb (d_source k) (d_source (r_data r))))).
  - destruct f; reflexivity.
  - intros x I. rewrite Forall_forall in Fj. rewrite matches_src; auto.
Qed.

(** Every history of saves of resources with a data source, from a directory whose file for that reference (if any)
    names each source once, succeeds and leaves exactly the last entry of each source, in order; the files of all
    other references are untouched. *)
Theorem C53_one_entry_per_source ref (hist : list res) : forall dk,
  (forall r, In r hist -> r_ref r = ref /\ has_source (r_data r)) ->
  Forall has_source (entries ref dk) -> NoDup (map d_source (entries ref dk)) ->
  let '(dk', out) := write_all dk hist in
  out = ROk tt
  /\ entries ref dk' = last_per_source (entries ref dk ++ map (fun r => serialize (r_data r)) hist)
  /\ (hist <> [] -> exists l, dget ref dk' = Some (FJson l))
  /\ (forall ref', ref' <> ref -> dget ref' dk' = dget ref' dk).
Proof.
  induction hist as [|r t IH]; intros dk Hh F ND.
  - cbn. rewrite app_nil_r, last_id by exact ND. repeat split; auto. congruence.
  - cbn [write_all]. destruct (Hh r (or_introl eq_refl)) as [Er Hs]. unfold write_to_file.
    rewrite write_content_src by (try rewrite Er; auto). rewrite Er.
    set (l1 := filter (fun k => negb (eqb (d_source k) (d_source (r_data r)))) (entries ref dk)
               ++ [serialize (r_data r)]).
    set (dk1 := dset ref (FJson l1) dk).
    assert (E1 : entries ref dk1 = l1) by (unfold entries, dk1; rewrite dget_dset_same; reflexivity).
    assert (L1 : l1 = last_per_source (entries ref dk ++ [serialize (r_data r)])).
    { rewrite last_snoc, last_id by exact ND. reflexivity. }
    specialize (IH dk1). rewrite E1 in IH.
    assert (F1 : Forall has_source l1).
    { unfold l1. apply Forall_app; split; [|constructor; [exact Hs|constructor]].
      rewrite Forall_forall in *. intros x I. apply filter_In in I as [I _]. auto. }
    assert (N1 : NoDup (map d_source l1)).
    { unfold l1. rewrite map_app. cbn. apply NoDup_snoc.
      - clear -ND. induction (entries ref dk) as [|a q IHq]; cbn in *; [constructor|].
        inversion ND as [|? ? N ND']; subst. destruct (eqb_spec (d_source a) (d_source (r_data r))); cbn; auto.
        constructor; auto. intros I. apply N. apply in_map_iff in I as [y [E I]]. apply filter_In in I as [I _].
        apply in_map_iff; eauto.
      - intros I. apply in_map_iff in I as [y [E I]]. apply filter_In in I as [_ B].
        destruct (eqb_spec (d_source y) (d_source (r_data r))); cbn in B; congruence. }
    specialize (IH (fun x I => Hh x (or_intror I)) F1 N1).
    destruct (write_all dk1 t) as [dk' out]. destruct IH as (O & E & X & R). split; [exact O|]. split; [|split].
    + rewrite E, L1. cbn [map].
      change (serialize (r_data r) :: map (fun r0 => serialize (r_data r0)) t)
        with ([serialize (r_data r)] ++ map (fun r0 => serialize (r_data r0)) t).
      rewrite app_assoc. generalize (entries ref dk ++ [serialize (r_data r)]) as a.
      generalize (map (fun r0 => serialize (r_data r0)) t) as b. clear. intros b a. revert a.
      induction b as [|x b IHb] using rev_ind; intros a.
      * rewrite !app_nil_r. induction a as [|d a IHa]; cbn; auto.
        destruct (existsb (fun e => eqb (d_source e) (d_source d)) a) eqn:E; auto. cbn. rewrite IHa.
        replace (existsb (fun e => eqb (d_source e) (d_source d)) (last_per_source a)) with false; auto.
        symmetry. apply not_true_iff_false. intros T. apply existsb_exists in T as [e [I T]].
        apply last_per_source_In in I. apply not_true_iff_false in E. apply E. apply existsb_exists. eauto.
      * rewrite !app_assoc, !last_snoc, IHb. reflexivity.
    + intros _. destruct t as [|r2 t2]; [|apply X; discriminate].
      destruct (dget ref dk') as [[l|]|] eqn:G; eauto; exfalso.
      all: unfold entries in E; rewrite G in E; cbn in E; rewrite app_nil_r, last_id in E by exact N1.
      all: unfold l1 in E; destruct (filter _ _) in E; discriminate.
    + intros ref' N. rewrite R by exact N. unfold dk1. apply dget_dset_other; exact N.
Qed.

(** What the specification means: at most one entry per source, and each is the last of its source. *)
Lemma last_per_source_NoDup l : NoDup (map d_source (last_per_source l)).
Proof.
  induction l as [|d t IH]; cbn; [constructor|]. destruct (existsb _ t) eqn:E; auto. cbn. constructor; auto.
  intros I. apply in_map_iff in I as [e [Es I]]. apply last_per_source_In in I. apply not_true_iff_false in E.
  apply E. apply existsb_exists. exists e; split; auto. apply (proj2 (eqb_eq _ _)); auto.
Qed.
Lemma last_per_source_spec l d :
  In d (last_per_source l) <-> exists a b, l = a ++ d :: b /\ (forall e, In e b -> d_source e <> d_source d).
Proof.
  induction l as [|x t IH]; cbn.
  - split; [tauto|]. intros (a & b & E & _). destruct a; discriminate.
  - destruct (existsb (fun e => eqb (d_source e) (d_source x)) t) eqn:E.
    + rewrite IH. split; intros (a & b & El & N).
      * exists (x :: a), b. subst; auto.
      * destruct a as [|y a]; cbn in El; injection El as -> ->; [|eauto].
        apply existsb_exists in E as [e [I E]]. apply (proj1 (eqb_eq _ _)) in E. exfalso; eapply N; eauto.
    + cbn. rewrite IH. split.
      * intros [<-|(a & b & El & N)]; [|exists (x :: a), b; subst; auto].
        exists [], t. split; auto. intros e I Es. apply not_true_iff_false in E. apply E.
        apply existsb_exists. exists e; split; auto. apply (proj2 (eqb_eq _ _)); auto.
      * intros (a & b & El & N). destruct a as [|y a]; cbn in El; injection El as -> ->; auto. right; eauto.
Qed.

Corollary C53_at_most_one ref hist dk :
  (forall r, In r hist -> r_ref r = ref /\ has_source (r_data r)) ->
  Forall has_source (entries ref dk) -> NoDup (map d_source (entries ref dk)) ->
  NoDup (map d_source (entries ref (fst (write_all dk hist)))).
Proof.
  intros Hh F ND. pose proof (C53_one_entry_per_source ref hist dk Hh F ND) as T. destruct (write_all dk hist) as [dk' o].
  destruct T as (_ & E & _). cbn. rewrite E. apply last_per_source_NoDup.
Qed.

(** Any history whatsoever, failed saves included (a failed save changes nothing, the caller carries on): the file
    never holds two entries with the same data source. *)
Definition write_on (dk : disk) (rs : list res) : disk := fold_left (fun dk r => fst (write_to_file dk r)) rs dk.
Definition sources (l : list rdata) : list string :=
  flat_map (fun d => match d_source d with Some s => [s] | None => [] end) l.

Lemma sources_app a b : sources (a ++ b) = sources a ++ sources b.
Proof. unfold sources. apply flat_map_app. Qed.
Lemma In_sources s l : In s (sources l) <-> exists d, In d l /\ d_source d = Some s.
Proof.
  unfold sources. rewrite in_flat_map. split; intros (d & I & J); exists d; split; auto.
  - destruct (d_source d); cbn in J; [destruct J as [->|[]]; auto|tauto].
  - rewrite J; cbn; auto.
Qed.
Lemma sources_filter_NoDup f l : NoDup (sources l) -> NoDup (sources (filter f l)).
Proof.
  induction l as [|d t IH]; cbn; auto. intros N. destruct (f d).
  - cbn. destruct (d_source d) as [s|]; cbn in *; auto. inversion N as [|? ? A B]; subst. constructor; auto.
    intros I. apply A. apply In_sources in I as (e & I & E). apply filter_In in I as [I _]. apply In_sources; eauto.
  - apply IH. destruct (d_source d) as [s|]; cbn in *; auto. inversion N; auto.
Qed.
Lemma filter_res_inv {A} (f : A -> rres bool) l l' :
  filter_res f l = ROk l' -> exists g, l' = filter g l /\ forall x, In x l -> f x = ROk (g x).
Proof.
  revert l'. induction l as [|x t IH]; cbn; intros l' E.
  - injection E as <-. exists (fun _ => true). split; auto. intros ? [].
  - destruct (f x) as [b|] eqn:F; [|discriminate]. destruct (filter_res f t) as [ys|] eqn:G; [|discriminate].
    injection E as <-. destruct (IH ys eq_refl) as (g & -> & Hg).
    exists (fun y => match f y with ROk c => c | RErr _ => false end). rewrite F. split.
    + rewrite (filter_ext_in (fun y => match f y with ROk c => c | RErr _ => false end) g); auto.
      intros a I. rewrite Hg by auto. reflexivity.
    + intros y [<-|I]; [rewrite F; reflexivity|rewrite Hg by auto; reflexivity].
Qed.

(** One save: fails and changes nothing, or keeps, in order, exactly the entries that do not match, and appends itself. *)
Theorem C53_save_step dk r :
  (exists e, write_to_file dk r = (dk, RErr e))
  \/ (exists keep, snd (write_to_file dk r) = ROk tt
        /\ dget (r_ref r) (fst (write_to_file dk r))
           = Some (FJson (filter keep (entries (r_ref r) dk) ++ [serialize (r_data r)]))
        /\ (forall k, In k (entries (r_ref r) dk) -> matches (r_data r) k = ROk (negb (keep k)))
        /\ (forall ref', ref' <> r_ref r -> dget ref' (fst (write_to_file dk r)) = dget ref' dk)).
Proof.
  unfold write_to_file. destruct (write_content dk r) as [l|e] eqn:W; [right|left; eauto]. cbn [fst snd].
  assert (X : exists keep, l = filter keep (entries (r_ref r) dk) ++ [serialize (r_data r)]
               /\ forall k, In k (entries (r_ref r) dk) -> matches (r_data r) k = ROk (negb (keep k))).
  { unfold write_content, entries in *. destruct (dget (r_ref r) dk) as [f|].
    - set (j := match f with FJson l => l | FBroken => [] end) in *.
      match type of W with context [filter_res ?h j] => destruct (filter_res h j) as [l0|] eqn:Fr; [|discriminate] end.
      injection W as <-. apply filter_res_inv in Fr as (g & -> & Hg). exists g. destruct f; split; auto; cbn;
        try tauto. intros k I. specialize (Hg k I). cbn in Hg.
      destruct (matches (r_data r) k) as [b|]; [|discriminate]. injection Hg as <-. rewrite negb_involutive; reflexivity.
    - injection W as <-. exists (fun _ => true). cbn. split; auto. tauto. }
  destruct X as (keep & -> & Hk). exists keep. split; [reflexivity|]. split; [apply dget_dset_same|].
  split; auto. intros ref' N. apply dget_dset_other; exact N.
Qed.

Theorem C53_never_two_entries_of_a_source ref (hist : list res) : forall dk,
  NoDup (sources (entries ref dk)) -> NoDup (sources (entries ref (write_on dk hist))).
Proof.
  induction hist as [|r t IH]; intros dk N; [exact N|]. cbn. apply IH.
  destruct (C53_save_step dk r) as [[e E]|(keep & _ & D & Hk & Ho)]; [rewrite E; exact N|].
  destruct (eqb_spec ref (r_ref r)) as [->|Ne].
  - unfold entries at 1. rewrite D. rewrite sources_app. cbn [sources flat_map app].
    destruct (d_source (serialize (r_data r))) as [s|] eqn:S; cbn; [|rewrite app_nil_r; apply sources_filter_NoDup; exact N].
    apply NoDup_snoc; [apply sources_filter_NoDup; exact N|]. intros I. apply In_sources in I as (d & I & Ed).
    apply filter_In in I as [I K]. specialize (Hk d I). unfold matches in Hk. cbn in S. rewrite Ed, S in Hk.
    rewrite eqb_refl in Hk. injection Hk as Hk. rewrite K in Hk. discriminate.
  - unfold entries. rewrite Ho by exact Ne. exact N.
Qed.

(** A downloadable entry without a source is replaced when the same download is saved with its source filled in. *)
Theorem C53_downloaded_entry_replaced dk r u l :
  d_url (r_data r) = Some u -> dget (r_ref r) dk = Some (FJson l) ->
  (forall k, In k l -> d_source k = None \/ d_source (r_data r) = None -> exists v, d_url k = Some v) ->
  exists l', write_to_file dk r = (dset (r_ref r) (FJson (l' ++ [serialize (r_data r)])) dk, ROk tt)
    /\ forall k, In k l' -> In k l /\ (d_source k = None -> d_url k <> Some u).
Proof.
  intros U D Hk. unfold write_to_file, write_content. rewrite D.
  pose (g := fun k => negb (match d_source k, d_source (r_data r) with
                            | Some a, Some b => eqb a b
                            | _, _ => match d_url k with Some v => eqb v u | None => false end end)).
  rewrite (filter_res_ok _ g).
  - exists (filter g l). split; [reflexivity|]. intros k I. apply filter_In in I as [I G]. split; auto.
    intros N E. unfold g in G. rewrite N, E, eqb_refl in G. discriminate.
  - intros k I. unfold g, matches. destruct (d_source k) eqn:A, (d_source (r_data r)) eqn:B; auto;
      destruct (Hk k I) as [v V]; auto; rewrite V, U; reflexivity.
Qed.

(** Mixed histories are not always possible: a plain resource cannot be saved beside one not downloaded yet. *)
Definition plain (s : string) : rdata := RD (Some s) "JSON" None None ["basic"] 50%Z false false "".
Definition remote (u : string) : rdata := RD None "JSON" (Some u) None ["basic"] 50%Z false false "".
Theorem C53_mixed_history_refuted :
  exists dk hist, (forall r, In r hist -> r_ref r = "a" /\ construct (r_data r) = ROk (r_data r))
    /\ snd (write_all dk hist) = RErr RKeyError.
Proof.
  exists [], [Res 0 "a" (remote "http://x"); Res 1 "a" (plain "/data/x")]. split; [|vm_compute; reflexivity].
  intros r [<-|[<-|[]]]; vm_compute; auto.
Qed.

Example C53_example :
  entries "a" (fst (write_all [("b", FBroken)]
     [Res 0 "a" (plain "x"); Res 1 "a" (plain "y");
      Res 2 "a" (RD (Some "x") "Ecospold" None None ["basic"; "index"] 10%Z true false "v2")]))
  = [serialize (plain "y"); RD (Some "x") "Ecospold" None None ["basic"; "index"] 10%Z true false "v2"].
Proof. vm_compute. reflexivity. Qed.

Print Assumptions C53_one_entry_per_source.
Print Assumptions C53_downloaded_entry_replaced.
Print Assumptions C53_mixed_history_refuted.
Print Assumptions C53_never_two_entries_of_a_source.

(** * Sorting and starting *)
Lemma insert_prio_perm r l : Permutation (insert_prio r l) (r :: l).
Proof.
  induction l as [|x t IH]; cbn; auto. destruct (_ <=? _)%Z; auto. rewrite IH. apply perm_swap.
Qed.
Lemma sort_prio_perm l : Permutation (sort_prio l) l.
Proof. induction l as [|x t IH]; cbn; auto. rewrite insert_prio_perm. auto. Qed.
Definition prio_le (a b : res) : Prop := (d_prio (r_data a) <= d_prio (r_data b))%Z.
Lemma insert_prio_sorted r l : StronglySorted prio_le l -> StronglySorted prio_le (insert_prio r l).
Proof.
  induction 1 as [|x t S IH F]; cbn; [repeat constructor|]. destruct (Z.leb_spec (d_prio (r_data r)) (d_prio (r_data x))).
  - constructor; [constructor; auto|]. constructor; [exact H|]. rewrite Forall_forall in *. unfold prio_le in *.
    intros y I. specialize (F y I). lia.
  - constructor; auto. rewrite Forall_forall in *. intros y I.
    apply (Permutation_in _ (insert_prio_perm r t)) in I as [<-|I]; auto. unfold prio_le. lia.
Qed.
Lemma sort_prio_sorted l : StronglySorted prio_le (sort_prio l).
Proof. induction l as [|x t IH]; cbn; [constructor|]. apply insert_prio_sorted; exact IH. Qed.

Lemma number_data l : forall n ref, map r_data (number n ref l) = l.
Proof. induction l as [|d t IH]; intros n ref; cbn; [reflexivity|]. rewrite IH; reflexivity. Qed.
Lemma number_ref l : forall n ref r, In r (number n ref l) -> r_ref r = ref.
Proof. induction l as [|d t IH]; cbn; intros n ref r; [tauto|]. intros [<-|I]; eauto. Qed.
Lemma number_ids l : forall n ref, map r_id (number n ref l) = seq n (length l).
Proof. induction l as [|d t IH]; intros n ref; cbn; [reflexivity|]. rewrite IH; reflexivity. Qed.
Lemma map_res_length {A B} (f : A -> rres B) l : forall l', map_res f l = ROk l' -> length l' = length l.
Proof.
  induction l as [|x t IH]; cbn; intros l' E; [injection E as <-; reflexivity|].
  destruct (f x); [|discriminate]. destruct (map_res f t) eqn:G; [|discriminate]. injection E as <-. cbn. f_equal; auto.
Qed.

(** every readable file can be turned into resources *)
Definition loadable (dk : disk) : Prop :=
  forall ref l, dget ref dk = Some (FJson l) -> exists ds, map_res from_dict l = ROk ds.

Definition all_ids (m : dict string (list res)) : list nat := flat_map (fun p => map r_id (snd p)) m.

Definition loaded_as (n0 n1 : nat) (ref : string) (f : option file) (m : option (list res)) : Prop :=
  match f with
  | Some (FJson l) => exists k ds, map_res from_dict l = ROk ds /\ m = Some (sort_prio (number k ref ds))
                                   /\ n0 <= k /\ k + length ds <= n1
  | _ => m = None
  end.

Lemma index_spec dk n0 refs : loadable dk -> NoDup refs -> (forall x, In x refs -> In x (dkeys dk)) ->
  forall m n, n0 <= n -> (forall x, In x refs -> dget x m = None) ->
  NoDup (all_ids m) -> Forall (fun i => i < n) (all_ids m) ->
  (forall x, ~ In x refs -> loaded_as n0 n x (dget x dk) (dget x m)) -> NoDup (dkeys m) ->
  exists m' n', index_resources (RS m dk n) refs = ROk (RS m' dk n') /\ n <= n'
    /\ NoDup (all_ids m') /\ Forall (fun i => i < n') (all_ids m') /\ NoDup (dkeys m')
    /\ (forall x, loaded_as n0 n' x (dget x dk) (dget x m')).
Proof.
  intros L. induction refs as [|ref t IH]; intros ND K m n Hn Hm NDi Hi Hl NDm.
  - cbn. exists m, n. repeat split; auto.
  - inversion ND as [|? ? Nr NDt]; subst. cbn. unfold update_semantic_ref. cbn.
    destruct (dget ref dk) as [[l|]|] eqn:D.
    + destruct (L _ _ D) as [ds Eds]. unfold from_json. rewrite Eds.
      pose proof (map_res_length _ _ _ Eds) as Len.
      assert (Mr : dget ref m = None) by (apply Hm; cbn; auto).
      assert (Ids : forall q, all_ids (dset ref q m) = all_ids m ++ map r_id q).
      { intros q. clear -Mr. induction m as [|[k v] m IHm]; cbn in *; [rewrite app_nil_r; reflexivity|].
        destruct (eqb ref k); [discriminate|]. unfold all_ids in *. cbn. rewrite IHm by exact Mr. apply app_assoc. }
      set (rs := sort_prio (number n ref ds)).
      assert (Prs : Permutation (map r_id rs) (seq n (length ds))).
      { rewrite <- (number_ids ds n ref). apply Permutation_map, sort_prio_perm. }
      destruct (IH NDt (fun x I => K x (or_intror I)) (dset ref rs m) (n + length l)) as (m' & n' & E & ? & ? & ? & ? & ?);
        [lia| | | | | |].
      * intros x I. rewrite dget_dset_other by (intros ->; auto). apply Hm; cbn; auto.
      * rewrite Ids. rewrite Prs. clear -NDi Hi. rename NDi into A.
        induction (all_ids m) as [|i q IHq]; cbn; [apply seq_NoDup|]. inversion A; inversion Hi; subst. constructor; auto.
        rewrite in_app_iff, in_seq. intros [I|I]; [auto|lia].
      * rewrite Ids. rewrite Forall_forall in *. intros i I. apply in_app_iff in I as [I|I]; [specialize (Hi i I); lia|].
        apply (Permutation_in _ Prs) in I. apply in_seq in I. lia.
      * intros x Nx. destruct (eqb_spec x ref) as [->|Nxr].
        -- rewrite D, dget_dset_same. exists n, ds. repeat split; auto. lia.
        -- rewrite dget_dset_other by exact Nxr. specialize (Hl x). unfold loaded_as in *.
           destruct (dget x dk) as [[l0|]|]; try (apply Hl; intros [->|I]; auto; fail).
           destruct Hl as (k & d0 & ? & ? & ? & ?); [intros [->|I]; auto|]. exists k, d0. repeat split; auto. lia.
      * apply NoDup_dset; exact NDm.
      * exists m', n'. split; [exact E|]. repeat split; auto. lia.
    + destruct (IH NDt (fun x I => K x (or_intror I)) m n) as (m' & n' & E & ?); auto.
      * intros x I. apply Hm; cbn; auto.
      * intros x Nx. destruct (eqb_spec x ref) as [->|Nxr]; [rewrite D; apply Hm; cbn; auto|].
        apply Hl. intros [->|I]; auto.
      * exists m', n'; auto.
    + exfalso. apply dget_None in D. apply D, K; cbn; auto.
Qed.

(** Starting a resolver on a directory whose readable files load. *)
Lemma start_spec dk n : NoDup (dkeys dk) -> loadable dk ->
  exists s, start dk n = ROk s /\ rs_disk s = dk /\ n <= rs_next s
    /\ NoDup (all_ids (rs_mem s)) /\ Forall (fun i => i < rs_next s) (all_ids (rs_mem s)) /\ NoDup (dkeys (rs_mem s))
    /\ (forall x, loaded_as n (rs_next s) x (dget x dk) (dget x (rs_mem s))).
Proof.
  intros ND L. destruct (index_spec dk n (dkeys dk) L ND (fun x I => I) [] n) as (m & n' & E & ?); auto; cbn; auto.
  - constructor.
  - intros x Nx. apply dget_None in Nx. rewrite Nx. reflexivity.
  - constructor.
  - exists (RS m dk n'). unfold start. rewrite E. cbn. tauto.
Qed.

(** the resources a started resolver knows under a reference *)
Definition found (ref : string) (s : rres resolver) : list rdata :=
  match s with ROk s => map r_data (mget ref (rs_mem s)) | RErr _ => [] end.

Lemma found_start dk n ref : NoDup (dkeys dk) -> loadable dk ->
  exists ds, map_res from_dict (entries ref dk) = ROk ds /\ Permutation (found ref (start dk n)) ds
    /\ StronglySorted prio_le (match start dk n with ROk s => mget ref (rs_mem s) | RErr _ => [] end).
Proof.
  intros ND L. destruct (start_spec dk n ND L) as (s & E & _ & _ & _ & _ & _ & Hl). rewrite E. unfold found, mget, entries.
  specialize (Hl ref). unfold loaded_as in Hl. destruct (dget ref dk) as [[l|]|].
  - destruct Hl as (k & ds & Eds & -> & _). exists ds. split; auto. split; [|apply sort_prio_sorted].
    rewrite (sort_prio_perm (number k ref ds)), number_data. reflexivity.
  - rewrite Hl. exists []. repeat split; constructor.
  - rewrite Hl. exists []. repeat split; constructor.
Qed.

(** * C54 *)

(** At every crash point the other references load exactly as before, and the reference being saved either holds an
    unreadable file or still has every entry the save was not going to replace.  Missing: the unreadable case (below). *)
Theorem C54_crash_partial dk r dk' n :
  NoDup (dkeys dk) -> loadable dk -> In dk' (write_crash_points dk r) ->
  (forall ref, ref <> r_ref r -> dget ref dk' = dget ref dk)
  /\ (dget (r_ref r) dk' = Some FBroken
      \/ (forall d, In d (entries (r_ref r) dk) -> matches (r_data r) d = ROk false -> In d (entries (r_ref r) dk')))
  /\ (loadable dk' -> forall ref, ref <> r_ref r -> Permutation (found ref (start dk' n)) (found ref (start dk n))).
Proof.
  intros ND L I. unfold write_crash_points in I.
  assert (Hw := C53_save_step dk r). unfold write_to_file in Hw. destruct (write_content dk r) as [l|e] eqn:W.
  - assert (O : forall ref, ref <> r_ref r -> dget ref dk' = dget ref dk).
    { intros ref N. destruct I as [<-|[<-|[<-|[]]]]; auto; apply dget_dset_other; exact N. }
    assert (ND' : NoDup (dkeys dk')) by (destruct I as [<-|[<-|[<-|[]]]]; [exact ND|apply NoDup_dset; exact ND..]).
    split; [exact O|]. split.
    + destruct I as [<-|[<-|[<-|[]]]]; [auto|left; apply dget_dset_same|right].
      destruct Hw as [[e E]|(keep & _ & D & Hk & _)]; [discriminate|]. cbn in D. intros d Id Md.
      unfold entries at 1. rewrite D. apply in_app_iff; left. apply filter_In; split; auto.
      specialize (Hk d Id). rewrite Md in Hk. injection Hk as Hk. destruct (keep d); auto; discriminate.
    + intros L' ref N. destruct (found_start dk n ref ND L) as (ds & E1 & P1 & _).
      destruct (found_start dk' n ref ND' L') as (ds' & E2 & P2 & _).
      assert (Een : entries ref dk' = entries ref dk) by (unfold entries; rewrite O; auto).
      rewrite Een, E1 in E2. injection E2 as ->. rewrite P1, P2. reflexivity.
  - destruct I as [<-|[]]. split; [reflexivity|]. split; [right; auto|]. intros _ ref N. reflexivity.
Qed.

(** The full claim is false for every save that gets as far as writing: there is a crash point after which a new
    start finds none of the resources of that reference, and the next save makes the loss permanent. *)
Theorem C54_interrupted_save_refuted dk r l :
  NoDup (dkeys dk) -> loadable dk -> write_content dk r = ROk l ->
  exists dk', In dk' (write_crash_points dk r)
    /\ (forall n, exists s, start dk' n = ROk s) /\ (forall n, found (r_ref r) (start dk' n) = [])
    /\ (forall r2, r_ref r2 = r_ref r -> entries (r_ref r) (fst (write_to_file dk' r2)) = [serialize (r_data r2)]).
Proof.
  intros ND L W. exists (dset (r_ref r) FBroken dk). unfold write_crash_points. rewrite W. split; [cbn; auto|].
  set (dk' := dset (r_ref r) FBroken dk).
  assert (ND' : NoDup (dkeys dk')) by (apply NoDup_dset; exact ND).
  assert (L' : loadable dk').
  { intros ref l0 D. unfold dk' in D. rewrite dget_dset in D. destruct (eqb ref (r_ref r)); [discriminate|eauto]. }
  split; [|split].
  - intros n. destruct (start_spec dk' n ND' L') as (s & E & _). eauto.
  - intros n. destruct (found_start dk' n (r_ref r) ND' L') as (ds & E & P & _). unfold entries, dk' in E.
    rewrite dget_dset_same in E. injection E as <-. apply Permutation_sym, Permutation_nil in P. exact P.
  - intros r2 E2. unfold write_to_file, write_content. rewrite E2. unfold dk'. rewrite dget_dset_same. cbn.
    unfold entries. rewrite dget_dset_same. reflexivity.
Qed.

Example C54_example :
  let dk := fst (write_all [] [Res 0 "a" (plain "x"); Res 1 "b" (plain "z")]) in
  found "a" (start dk 9) = [serialize (plain "x")]
  /\ map (fun d => length (found "a" (start d 9))) (write_crash_points dk (Res 2 "a" (plain "y"))) = [1; 0; 2].
Proof. vm_compute. split; reflexivity. Qed.

(** * C55 *)

(** Specification: [req] is a dotted prefix of [ref]. *)
Definition dotted_prefix (req ref : string) : Prop := ref = req \/ exists rest, ref = (req ++ "." ++ rest)%string.

Lemma list_eqb_eq a : forall b, list_eqb a b = true <-> a = b.
Proof.
  induction a as [|x a IH]; intros [|y b]; cbn; try (split; congruence).
  rewrite andb_true_iff, IH, String.eqb_eq. split; [intros [-> ->]; reflexivity|intros E; injection E; auto].
Qed.
Lemma split_dot_cons s : exists w ws, split_dot s = w :: ws.
Proof. destruct s as [|c r]; cbn; [eauto|]. destruct (Ascii.eqb c "."); [eauto|]. destruct (split_dot r); eauto. Qed.
Lemma split_prefix req : forall ref,
  firstn (length (split_dot req)) (split_dot ref) = split_dot req <-> dotted_prefix req ref.
Proof.
  unfold dotted_prefix. induction req as [|c req IH]; intros ref.
  - cbn [split_dot length firstn]. destruct ref as [|d ref]; cbn [split_dot].
    + cbn; split; auto.
    + destruct (Ascii.eqb_spec d ".") as [->|N].
      * cbn. split; [intros _; right; exists ref; reflexivity|auto].
      * destruct (split_dot_cons ref) as (w & ws & ->). cbn. split; [discriminate|].
        intros [E|[x E]]; [discriminate|]. injection E as -> _. congruence.
  - cbn [split_dot]. destruct (Ascii.eqb_spec c ".") as [->|N].
    + destruct ref as [|d ref]; cbn [split_dot].
      * destruct (split_dot_cons req) as (w & ws & ->). cbn. split; [destruct (length ws); discriminate|].
        intros [E|[x E]]; discriminate.
      * destruct (Ascii.eqb_spec d ".") as [->|Nd].
        -- cbn [length firstn]. split.
           ++ intros E. injection E as E. apply IH in E as [->|[x ->]]; [left; reflexivity|right; exists x; reflexivity].
           ++ intros H. f_equal. apply IH. destruct H as [E|[x E]]; injection E as ->; [left; reflexivity|right; exists x; reflexivity].
        -- destruct (split_dot_cons ref) as (w & ws & ->). cbn. split; [discriminate|].
           intros [E|[x E]]; injection E as E _; congruence.
    + destruct (split_dot_cons req) as (w & ws & Er). destruct ref as [|d ref]; cbn [split_dot].
      * rewrite Er. cbn. split; [discriminate|]. intros [E|[x E]]; discriminate.
      * destruct (Ascii.eqb_spec d ".") as [->|Nd].
        -- rewrite Er. cbn. split; [discriminate|]. intros [E|[x E]]; injection E as E _; congruence.
        -- specialize (IH ref). destruct (split_dot_cons ref) as (v & vs & Ef). rewrite Er, Ef in *. cbn in *. split.
           ++ intros E. injection E as -> -> Es. assert (dq : ref = req \/ exists x, ref = (req ++ String "." x)%string).
              { apply IH. rewrite Es. reflexivity. }
              destruct dq as [->|[x ->]]; [left; reflexivity|right; exists x; reflexivity].
           ++ intros H. assert (dq : d = c /\ (ref = req \/ exists x, ref = (req ++ String "." x)%string)).
              { destruct H as [E|[x E]]; injection E as -> ->; eauto. }
              destruct dq as [-> dq]. apply IH in dq. injection dq as -> ->. reflexivity.
Qed.

Definition wanted (req ref : string) (strict : bool) : Prop :=
  if strict then ref = req else dotted_prefix req ref.

Lemma ref_matches_spec req ref strict : ref_matches req ref strict = true <-> wanted req ref strict.
Proof.
  unfold ref_matches, wanted. rewrite andb_true_iff, list_eqb_eq, split_prefix, orb_true_iff, String.eqb_eq.
  destruct strict; cbn; [|tauto]. split; [intros [[?|?] _]; [discriminate|auto]|].
  intros ->. split; [auto|left; reflexivity].
Qed.

(** What it means for a resource to satisfy a request for interfaces. *)
Definition supports (d : rdata) (ifs : option (list string)) : Prop :=
  match ifs with None => True | Some l => exists i, In i l /\ (i = "basic" \/ In i (d_ifaces d)) end.
Lemma satisfies_spec d ifs : satisfies d ifs = true <-> supports d ifs.
Proof.
  destruct ifs as [l|]; cbn; [|tauto]. rewrite existsb_exists.
  split; intros (i & I & B); exists i; split; auto.
  - apply orb_true_iff in B as [B|B]; [left; apply String.eqb_eq; exact B|right; apply mem_In; exact B].
  - apply orb_true_iff. destruct B as [->|B]; [left; reflexivity|right; apply mem_In; exact B].
Qed.

Lemma resolve_loop_spec m req ifs strict :
  let '(out, f) := resolve_loop m req ifs strict in
  (f = true <-> exists ref, In ref (dkeys m) /\ wanted req ref strict)
  /\ (forall r, In r out <-> exists ref l, In (ref, l) m /\ In r l /\ wanted req ref strict /\ supports (r_data r) ifs)
  /\ (NoDup (all_ids m) -> NoDup (map r_id out))
  /\ (forall i, In i (map r_id out) -> In i (all_ids m)).
Proof.
  induction m as [|[ref l] t IH]; cbn [resolve_loop].
  - split; [split; [discriminate|intros (? & [] & _)]|]. split; [|split].
    + intros r; split; [intros []|intros (? & ? & [] & _)].
    + constructor.
    + intros i [].
  - destruct (resolve_loop t req ifs strict) as [out f]. destruct IH as (Hf & Ho & Hn & Hi).
    destruct (ref_matches req ref strict) eqn:M.
    + apply ref_matches_spec in M. split; [split; auto; intros _; exists ref; cbn; auto|]. split; [|split].
      * intros r. rewrite in_app_iff, filter_In, Ho, satisfies_spec. split.
        -- intros [[I S]|(ref' & l' & I & J & W & S)]; [exists ref, l; cbn; auto|exists ref', l'; cbn; auto].
        -- intros (ref' & l' & [E|I] & J & W & S); [injection E as -> ->; auto|right; eauto 6].
      * cbn. intros N. rewrite map_app.
        assert (Fi : forall i, In i (map r_id (filter (fun r => satisfies (r_data r) ifs) l)) -> In i (map r_id l)).
        { intros i I. apply in_map_iff in I as [x [<- I]]. apply filter_In in I as [I _]. apply in_map; exact I. }
        unfold all_ids in N, Hn, Hi. cbn in N.
        assert (Nl : NoDup (map r_id l)) by (clear -N; induction (map r_id l); [constructor|];
          inversion N as [|? ? A B]; subst; constructor; [intros I; apply A, in_app_iff; auto|auto]).
        assert (Nt : NoDup (flat_map (fun p : string * list res => map r_id (snd p)) t))
          by (clear -N; induction (map r_id l); [exact N|inversion N; auto]).
        assert (Dj : forall i, In i (map r_id l) -> ~ In i (flat_map (fun p : string * list res => map r_id (snd p)) t)).
        { clear -N. induction (map r_id l) as [|a q IHq]; [intros ? []|]. inversion N as [|? ? A B]; subst.
          intros i [<-|I]; [intros J; apply A, in_app_iff; auto|auto]. }
        assert (Nf : NoDup (map r_id (filter (fun r => satisfies (r_data r) ifs) l))).
        { clear -Nl. induction l as [|x l IHl]; cbn in *; [constructor|]. inversion Nl as [|? ? A B]; subst.
          destruct (satisfies (r_data x) ifs); cbn; auto. constructor; auto. intros I. apply A.
          apply in_map_iff in I as [y [E I]]. apply filter_In in I as [I _]. rewrite <- E. apply in_map; exact I. }
        revert Nf Fi. generalize (map r_id (filter (fun r => satisfies (r_data r) ifs) l)) as a.
        intros a Na Fa. induction a as [|i a IHa]; cbn; [auto|]. inversion Na as [|? ? A B]; subst.
        constructor; [|apply IHa; auto; intros; apply Fa; cbn; auto].
        rewrite in_app_iff. intros [J|J]; [auto|]. apply Hi in J. apply (Dj i); auto. apply Fa; cbn; auto.
      * unfold all_ids in *. cbn. intros i. rewrite map_app, !in_app_iff. intros [I|I]; auto. left.
        apply in_map_iff in I as [x [<- I]]. apply filter_In in I as [I _]. apply in_map; exact I.
    + assert (Nw : ~ wanted req ref strict) by (rewrite <- ref_matches_spec; congruence).
      split; [|split; [|split]].
      * rewrite Hf. cbn. split; intros (x & I & W); exists x; auto. destruct I as [->|I]; [contradiction|auto].
      * intros r. rewrite Ho. split; intros (x & l' & I & J & W & S); exists x, l'; cbn; auto.
        destruct I as [E|I]; [injection E as -> ->; contradiction|auto].
      * unfold all_ids. cbn. intros N. apply Hn. clear -N. induction (map r_id l); [exact N|inversion N; auto].
      * unfold all_ids in *. cbn. intros i I. apply in_app_iff; auto.
Qed.

(** [resolve] raises UnknownOrigin exactly when no known reference has the request as dotted prefix (or equals it, if
    strict); otherwise it yields exactly the resources of those references with the interface, each once. *)
Theorem C55_resolve_exact s req ifs strict :
  (resolve s req ifs strict = RErr RUnknownOrigin /\ (forall ref, In ref (dkeys (rs_mem s)) -> ~ wanted req ref strict))
  \/ (exists out, resolve s req ifs strict = ROk out
      /\ (exists ref, In ref (dkeys (rs_mem s)) /\ wanted req ref strict)
      /\ (forall r, In r out <-> exists ref l, In (ref, l) (rs_mem s) /\ In r l /\ wanted req ref strict
                                               /\ supports (r_data r) ifs)
      /\ (NoDup (all_ids (rs_mem s)) -> NoDup (map r_id out))).
Proof.
  unfold resolve. pose proof (resolve_loop_spec (rs_mem s) req ifs strict) as H.
  destruct (resolve_loop (rs_mem s) req ifs strict) as [out [|]]; destruct H as (Hf & Ho & Hn & _); [right|left].
  - exists out. repeat split; try apply Ho; auto. apply Hf; reflexivity.
  - split; auto. intros ref I W. assert (false = true) by (apply Hf; eauto). discriminate.
Qed.

Definition candidates (s : resolver) (ref : string) (ifs : option (list string)) (source : option string)
           (strict incl : bool) (r : res) : Prop :=
  (incl = true \/ d_internal (r_data r) = false)
  /\ exists k l, In (k, l) (rs_mem s) /\ In r l
     /\ match source with Some src => d_source (r_data r) = Some src
                        | None => wanted ref k strict /\ supports (r_data r) ifs end.

Lemma with_source_spec s src r :
  In r (with_source s src) <-> exists k l, In (k, l) (rs_mem s) /\ In r l /\ d_source (r_data r) = Some src.
Proof.
  unfold with_source. rewrite in_flat_map. split.
  - intros [[k l] [I J]]. cbn in J. apply filter_In in J as [J E]. apply (proj1 (eqb_eq _ _)) in E. eauto 6.
  - intros (k & l & I & J & E). exists (k, l). split; auto. cbn. apply filter_In. split; auto. rewrite E. apply eqb_refl.
Qed.

(** [get_resource] returns a candidate of minimal priority; with [strict], only the sole candidate. *)
Theorem C55_get_resource s ref ifs source strict incl :
  match get_resource s ref ifs source strict incl with
  | ROk r => candidates s ref ifs source strict incl r
             /\ (forall q, candidates s ref ifs source strict incl q -> (d_prio (r_data r) <= d_prio (r_data q))%Z)
             /\ (strict = true -> forall q, candidates s ref ifs source strict incl q -> q = r)
  | RErr RUnknownOrigin => source = None /\ (forall k, In k (dkeys (rs_mem s)) -> ~ wanted ref k strict)
  | RErr RKeyError => forall q, ~ candidates s ref ifs source strict incl q
  | RErr RValueError => strict = true /\ (exists q, candidates s ref ifs source strict incl q)
                        /\ (NoDup (all_ids (rs_mem s)) -> forall q, exists q', candidates s ref ifs source strict incl q' /\ q' <> q)
  | RErr _ => False
  end.
Proof.
  unfold get_resource.
  assert (G : (source = None /\ resolve s ref ifs strict = RErr RUnknownOrigin
               /\ (forall k, In k (dkeys (rs_mem s)) -> ~ wanted ref k strict))
              \/ exists l, (match source with Some src => ROk (with_source s src) | None => resolve s ref ifs strict end) = ROk l
                   /\ (forall r, In r (filter (fun r => incl || negb (d_internal (r_data r))) l)
                                 <-> candidates s ref ifs source strict incl r)
                   /\ (NoDup (all_ids (rs_mem s)) -> NoDup (map r_id l))).
  { destruct source as [src|].
    - right. exists (with_source s src). split; [reflexivity|]. split.
      + intros r. rewrite filter_In, with_source_spec, orb_true_iff, negb_true_iff. unfold candidates. tauto.
      + unfold with_source, all_ids. generalize (rs_mem s) as m. intros m. clear.
        assert (Sub : forall f l i, In i (map r_id (filter f l)) -> In i (map r_id l)).
        { intros f l i I. apply in_map_iff in I as [x [<- I]]. apply filter_In in I as [I _]. apply in_map; exact I. }
        induction m as [|[k l] t IH]; cbn; [auto|]. intros N. rewrite map_app.
        set (f := fun r : res => eqb (d_source (r_data r)) (Some src)) in *.
        assert (SubT : forall i, In i (map r_id (flat_map (fun p : string * list res => filter f (snd p)) t)) ->
                                 In i (flat_map (fun p : string * list res => map r_id (snd p)) t)).
        { clear -Sub. intros i I. apply in_map_iff in I as [x [<- I]]. apply in_flat_map in I as [p [I J]].
          apply in_flat_map. exists p; split; auto. apply Sub with f. apply in_map; exact J. }
        revert N. induction l as [|x l IHl]; cbn; intros N; [auto|]. inversion N as [|? ? A B]; subst.
        destruct (f x); cbn; auto. constructor; auto. rewrite in_app_iff in *. intros [I|I]; apply A; auto.
        left; apply Sub with f; exact I.
    - destruct (C55_resolve_exact s ref ifs strict) as [[E N]|(out & E & Ex & Ho & Hn)]; [left; auto|right].
      exists out. split; auto. split; auto. intros r. rewrite filter_In, Ho, orb_true_iff, negb_true_iff. unfold candidates.
      split.
      + intros [(k & l & ? & ? & ? & ?) B]. split; auto. exists k, l. auto.
      + intros [B (k & l & ? & ? & ? & ?)]. split; auto. exists k, l. auto. }
  destruct G as [(-> & E & N)|(l & E & Hc & Hn)]; [rewrite E; auto|]. rewrite E.
  set (fl := filter (fun r => incl || negb (d_internal (r_data r))) l) in *.
  assert (Hin : forall q, In q (sort_prio fl) <-> candidates s ref ifs source strict incl q).
  { intros q. rewrite <- Hc. split; apply Permutation_in; [|symmetry]; apply sort_prio_perm. }
  assert (Hs := sort_prio_sorted fl).
  assert (Hnd : NoDup (all_ids (rs_mem s)) -> NoDup (map r_id (sort_prio fl))).
  { intros N. rewrite (sort_prio_perm fl). specialize (Hn N). unfold fl. clear -Hn.
    induction l as [|x l IHl]; cbn in *; [constructor|]. inversion Hn as [|? ? A B]; subst.
    destruct (incl || _); cbn; auto. constructor; auto. intros I. apply A.
    apply in_map_iff in I as [y [E I]]. apply filter_In in I as [I _]. rewrite <- E. apply in_map; exact I. }
  destruct (sort_prio fl) as [|r [|r2 t]].
  - intros q C. apply Hin in C. destruct C.
  - split; [apply Hin; cbn; auto|]. split.
    + intros q C. apply Hin in C as [<-|[]]. lia.
    + intros _ q C. apply Hin in C as [<-|[]]. reflexivity.
  - destruct strict.
    + split; auto. split; [exists r; apply Hin; cbn; auto|]. intros N q. specialize (Hnd N). cbn in Hnd.
      inversion Hnd as [|? ? A B]; subst. cbn in A.
      destruct (Nat.eq_dec (r_id q) (r_id r)) as [Eq|Ne].
      * exists r2. split; [apply Hin; cbn; auto|]. intros ->. apply A; auto.
      * exists r. split; [apply Hin; cbn; auto|]. congruence.
    + split; [apply Hin; cbn; auto|]. split; [|discriminate]. intros q C. apply Hin in C as [<-|C]; [lia|].
      inversion Hs as [|? ? _ F]; subst. rewrite Forall_forall in F. apply (F q C).
Qed.

(** History dependence: merely asking whether an unknown reference has a resource, or failing to delete one, makes
    [resolve] stop raising UnknownOrigin although nothing is registered under the reference. *)
Theorem C55_unknown_origin_refuted :
  exists s r, resolve s "a" None false = RErr RUnknownOrigin
    /\ (let '(s1, b) := has_resource s r in b = ROk false /\ resolve s1 "a" None false = ROk [])
    /\ (let '(s2, e) := delete_resource s r in e = RErr RKeyError /\ resolve s2 "a" None false = ROk []).
Proof. exists (RS [] [] 1), (Res 0 "a" (plain "x")). vm_compute. repeat split; reflexivity. Qed.

Example C55_example :
  let s := RS [("uslci", [Res 0 "uslci" (plain "x")]); ("uslci.clean", [Res 1 "uslci.clean" (plain "y")]);
               ("uslcix", [Res 2 "uslcix" (plain "z")])] [] 3 in
  resolve s "uslci" None false = ROk [Res 0 "uslci" (plain "x"); Res 1 "uslci.clean" (plain "y")]
  /\ resolve s "uslci.clean.a" None false = RErr RUnknownOrigin
  /\ get_resource s "uslci.clean" None None true true = ROk (Res 1 "uslci.clean" (plain "y")).
Proof. vm_compute. repeat split; reflexivity. Qed.

Print Assumptions C54_crash_partial.
Print Assumptions C54_interrupted_save_refuted.
Print Assumptions C55_resolve_exact.
Print Assumptions C55_get_resource.

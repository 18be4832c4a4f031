(** C90, C91: saving and loading the fragments of a foreground (model: FgModel.v).

    [foreground_ok refq sh st refs] (FgDisk.v, with [storable] of FgProofs.v) says which foregrounds: parents and children name each other, every fragment is in the
    tree of a reference fragment ([refs]), names are unique, and each fragment has only what a file can hold.  [same_state st s] (FgProofs.v, with [same_frag] of
    FgTrav.v): the same fragments with the same parents, children, flows, directions, exchange values and terminations under each scenario, names, flags and tags.
    [Permutation fs d]: the files of the directory [d] in any order of os.listdir.  *)
From Verif Require Import Num Base PyStr ProcModel FragModel EditModel ObserveProps FgModel FgTrav FgDict FgProofs FgTree FgDisk FgMix.
From Coq Require Import Permutation Lia.
Open Scope Qc_scope.
Open Scope string_scope.
Open Scope list_scope.
Local Arguments eqb : simpl never.

(** C90.  If saving completes, whatever the directory held before, it then holds one file per reference fragment and no other; loading it, in any order of the files,
    succeeds and gives the same foreground, and every traversal of every fragment under every scenario returns the same. *)
Theorem C90_round_trip_partial refq sh n st refs d tr d' fs : foreground_ok refq sh st refs -> NoDup (dkeys d) -> save_fragments n st refs d = (tr, d', FOk tt) -> Permutation fs d' ->
  (forall r, In r (map fst fs) <-> In r refs) /\ exists s, load_fragments refq sh fs = (s, FOk tt) /\ same_state st s /\
  forall cf k sc obs i, traverse cf refq k (g_heap s) sc obs i = traverse cf refq k (g_heap st) sc obs i.
Proof.
  intros OK ND E P. destruct (save_files n st refs d tr d' ND E) as (N & K & F). destruct (listing_ok d' fs N P) as (NF & KF & GF).
  split; [intros r; rewrite KF; apply K|]. destruct (load_ok refq sh st refs OK fs NF) as (s & L & S0).
  - intros r. rewrite KF. apply K.
  - apply Forall_forall. intros [r c] J. apply F, GF, J.
  - exists s. split; [exact L|]. split; [exact S0|]. intros cf k sc obs i. apply same_traverse, S0.
Qed.
Print Assumptions C90_round_trip_partial.

(** Saving such a foreground fails only when a tree is deeper than the recursion limit, whatever the directory held. *)
Theorem C90_save_total refq sh n st refs d tr d' e : foreground_ok refq sh st refs -> save_fragments n st refs d = (tr, d', FErr e) -> e = FRecursion.
Proof.
  intros OK E. assert (RC : forall k u e, g_heap st u <> None -> recurse k (g_heap st) u = FErr e -> e = FRecursion).
  { induction k as [|k IH]; intros u e' HU X; [cbn in X; congruence|]. rewrite recurse_eq in X. destruct (g_heap st u) as [f|] eqn:HF; [|contradiction]. destruct (go _ (child_flows f)) as [m|e2] eqn:G; [discriminate|]. injection X as ->.
    assert (KD : forall c, In c (child_flows f) -> g_heap st c <> None) by (intros c J; apply child_flows_in, (kids_ok _ _ _ _ OK u f c HF) in J as (g & HC & _); congruence).
    revert G KD. generalize (child_flows f) as cs. induction cs as [|c cs IHc]; cbn; intros G KD; [discriminate|]. destruct (recurse k (g_heap st) c) as [m1|e1] eqn:R; [|injection G as ->; exact (IH c _ (KD c (or_introl eq_refl)) R)].
    destruct (go (recurse k (g_heap st)) cs) as [m2|]; [discriminate|]. injection G as ->. apply IHc; [reflexivity|]. intros d0 J. apply KD. right. exact J. }
  assert (TF : forall r e, In r refs -> tree_file n st r = FErr e -> e = FRecursion).
  { intros r e' J X. apply (fg_refs _ _ _ _ OK) in J as (f & HR & _). unfold tree_file in X. destruct (recurse n (g_heap st) r) as [l|e2] eqn:R; [|injection X as ->; apply (RC n r e'); congruence].
    assert (AL : forall v, In v l -> g_heap st v <> None).
    { intros v J. apply (recurse_in _ n r l R) in J. apply (tree_anc _ (kids_ok _ _ _ _ OK) (par_ok _ _ _ _ OK)) in J. inversion J; subst; congruence. }
    exfalso. clear R. revert X AL. induction l as [|v l IH]; cbn; [discriminate|]. intros X AL. destruct (g_heap st v) as [fv|] eqn:HV; [|destruct (AL v (or_introl eq_refl) HV)]. destruct (fg_ok _ _ _ _ OK v fv HV) as (m & HM & O).
    rewrite (serialize_ok refq st v fv m HV HM O) in X. destruct (fmap (serialize st) l) as [y|] eqn:Y; [discriminate|]. injection X as ->. apply IH; [reflexivity|]. intros w J. apply AL. right. exact J. }
  unfold save_fragments in E. destruct (write_trees n st refs d) as [[tr1 d1] o1] eqn:W. destruct o1 as [[]|e1]; [destruct (remove_files _ d1); discriminate|]. injection E as <- <- <-.
  assert (WR : forall rs d tr d' e, (forall r, In r rs -> In r refs) -> write_trees n st rs d = (tr, d', FErr e) -> e = FRecursion).
  { induction rs as [|r rs IH]; cbn; intros d0 t0 d2 e0 I X; [discriminate|]. destruct (tree_file n st r) as [js|e2] eqn:T; [|injection X as <- <- <-; exact (TF r e2 (I r (or_introl eq_refl)) T)]. destruct (write_trees n st rs _) as [[t' d''] o'] eqn:W'. injection X as <- <- ->. exact (IH _ _ _ _ (fun r' J => I r' (or_intror J)) W'). }
  exact (WR refs d tr1 d1 e1 (fun r J => J) W).
Qed.
Print Assumptions C90_save_total.

(** C91.  A directory holds the files of a completed save of the foreground in state [st0]; the foreground is edited to [st1] (no fragment moves between trees, names are
    neither changed nor reused: [compatible], FgMix.v) and saving it stops anywhere, after any number of steps or with an exception, leaving the directory [y].  Then either
    a file of [y] is unfinished and loading raises an exception before any fragment is created, or loading succeeds and every tree is, complete, as in [st0] or as in [st1];
    after a save that completed, all are as in [st1]. *)
Theorem C91_interrupted_save_partial refq sh root n0 n st0 st1 refs0 refs1 d0 tr0 d tr d' o : foreground_ok refq sh st0 refs0 -> foreground_ok refq sh st1 refs1 -> compatible root st0 st1 ->
  NoDup (dkeys d0) -> save_fragments n0 st0 refs0 d0 = (tr0, d, FOk tt) -> save_fragments n st1 refs1 d = (tr, d', o) ->
  (forall y fs, In y tr \/ y = d' -> Permutation fs y ->
     load_fragments refq sh fs = (empty_fg, FErr FAssertion) \/
     exists D s, load_fragments refq sh fs = (s, FOk tt) /\ same_state (mix root D st0 st1) s) /\
  (o = FOk tt -> forall fs, Permutation fs d' -> exists s, load_fragments refq sh fs = (s, FOk tt) /\ same_state st1 s).
Proof.
  intros OK0 OK1 CP ND E0 E. destruct (save_files n0 st0 refs0 d0 tr0 d ND E0) as (N & K & F).
  assert (I0 : stage st0 st1 refs0 refs1 [] d).
  { split; [exact N|]. intros r. cbn. destruct (dget r d) as [c|] eqn:G; [split; [apply K; exact (dget_Some_key _ _ _ G)|exact (F r c G)]|]. rewrite <- K. apply dget_None, G. }
  destruct (save_stages st0 st1 refs0 refs1 n d tr d' o I0 E) as (A & B). split.
  - intros y fs J P. destruct (A y J) as [(r & U)|(D & I)].
    + left. unfold load_fragments. assert (X : read_files fs = FErr FAssertion); [|rewrite X; reflexivity]. assert (JR : In (r, None) fs) by (apply (Permutation_in _ (Permutation_sym P)), dget_In, U).
      clear - JR. induction fs as [|[r' [js|]] fs IH]; cbn; [destruct JR| |reflexivity]. destruct JR as [X|JR]; [discriminate|]. rewrite (IH JR). reflexivity.
    + right. destruct (mix_load refq sh root st0 st1 refs0 refs1 OK0 OK1 CP D y fs I P) as (s & L & S0). eauto.
  - intros -> fs P. destruct (save_files n st1 refs1 d tr d' N E) as (N' & K' & F'). destruct (listing_ok d' fs N' P) as (NF & KF & GF). apply (load_ok refq sh st1 refs1 OK1 fs NF); [intros r; rewrite KF; apply K'|]. apply Forall_forall. intros [r c] J. apply F', GF, J.
Qed.
Print Assumptions C91_interrupted_save_partial.

(** * Examples: 1 ("main") -> 2 (3, process 7, in scenario "a" fragment 5) -> 3 (balance of quantity 0), 4 (2, in scenario "a" [v]); 5 *)
Definition mt90 (s : option string) (t : dict string (option string)) : meta := Mt s false (("name", Some "x") :: ("comment", Some "") :: ("stagename", Some "") :: t).
Definition st90 (v : Q) (t2 : dict (option skey) term) (e3 : Q) (n5 : option string) (g4 : dict string (option string)) : fgs := Fg (fun i => match i with
  | 1%nat => Some (Fr None [2%nat] 10 Output false false None (evs2 4 1) [(None, Tm (NFrag 1) 10 Input true)])
  | 2%nat => Some (Fr (Some 1%nat) [4%nat; 3%nat] 11 Input false false (Some 0%nat) (evs2 3 2) t2)
  | 3%nat => Some (Fr (Some 2%nat) [] 12 Output false true None (evs2 e3 0) [(None, null_term 12 Output)])
  | 4%nat => Some (Fr (Some 2%nat) [] 13 Input true false None (evs2 2 0 ++ [(KS "a", Some (Q2Qc v))]) [(None, Tm (NProc 8) 13 Output false)])
  | 5%nat => Some (Fr None [] 11 Output false false None (evs2 1 1) [(None, Tm (NFrag 5) 11 Input true)])
  | _ => None end)
  (fun i => match i with 1%nat => Some (mt90 (Some "main") []) | 2%nat | 3%nat => Some (mt90 None []) | 4%nat => Some (mt90 None g4) | 5%nat => Some (mt90 n5 []) | _ => None end)
  [("main", 1%nat)].
Definition t90 : dict (option skey) term := [(None, Tm (NProc 7) 11 Output true); (Some (KS "a"), Tm (NFrag 5) 11 Output true)].
Definition sh90 (u : nat) : nat := (u + 100)%nat.
Definition ok90 (v : Q) : fgs := st90 v t90 1 None [("owner", Some "me")].
Definition rows90 (h : heap) (sc : scen) (i : nat) : option (list (fref * Q)) := match traverse one2 zer2 9 h sc false i with FOk l => Some (map (fun x => (ff_ref x, this (ff_mag x))) l) | FErr _ => None end.

Lemma tree90 v t2 e3 n5 g4 : in_tree (g_heap (st90 v t2 e3 n5 g4)) 1 1 /\ in_tree (g_heap (st90 v t2 e3 n5 g4)) 1 2 /\ in_tree (g_heap (st90 v t2 e3 n5 g4)) 1 3 /\ in_tree (g_heap (st90 v t2 e3 n5 g4)) 1 4.
Proof.
  split; [constructor|]. split; [eapply tree_child; [reflexivity|left; reflexivity|constructor]|]. split; (eapply tree_child; [reflexivity|left; reflexivity|]).
  - eapply tree_child; [reflexivity|right; left; reflexivity|constructor].
  - eapply tree_child; [reflexivity|left; reflexivity|constructor].
Qed.
(** the example meets the hypotheses of both theorems *)
Lemma ok90_ok v : foreground_ok zer2 sh90 (ok90 v) [5%nat; 1%nat].
Proof.
  split.
  - intros u f HU. destruct u as [|[|[|[|[|[|u]]]]]]; try discriminate; cbn in HU; injection HU as <-; (eexists; split; [reflexivity|]); (split;
    [ cbn; repeat (apply NoDup_cons; [cbn; intuition discriminate|]); apply NoDup_nil
    | intros c; cbn; split; [intros J; repeat (destruct J as [<-|J]; [eexists; split; reflexivity|]); destruct J|intros (g & HC & GP); destruct c as [|[|[|[|[|[|c]]]]]]; try discriminate; cbn in HC; injection HC as <-; cbn in GP; try discriminate; tauto]
    | cbn; intros p; intros [= <-]; cbn; discriminate
    | cbn; first [reflexivity|discriminate]
    | cbn; intros q; split; [intros Q; first [discriminate Q|injection Q as <-; exists 3%nat; eexists; split; [tauto|]; split; [reflexivity|]; split; reflexivity]|
        intros (c & g & J & HC & IB & RQ); repeat (destruct J as [<-|J]; [cbn in HC; injection HC as <-; cbn in IB; first [discriminate IB|rewrite <- RQ; reflexivity]|]); destruct J]
    | cbn; intros c d gc gd J K; repeat (destruct J as [<-|J]; [repeat (destruct K as [<-|K]; [cbn; intros [= <-] [= <-]; cbn; intros IB IB2; first [discriminate IB|discriminate IB2|reflexivity]|]); destruct K|]); destruct J
    | split; [cbn; repeat (apply NoDup_cons; [cbn; intuition discriminate|]); apply NoDup_nil|cbn; intros k J; repeat (destruct J as [<-|J]; [first [left; reflexivity|right; left; reflexivity|right; right; eexists; split; [reflexivity|]; split; [reflexivity|split; discriminate]]|]); destruct J]
    | cbn; discriminate | cbn; discriminate
    | cbn; intros X; first [discriminate X|reflexivity]
    | split; [cbn; repeat (apply NoDup_cons; [cbn; intuition discriminate|]); apply NoDup_nil|cbn; intros k J; repeat (destruct J as [<-|J]; [first [left; reflexivity|right; eexists; split; [reflexivity|]; split; discriminate]|]); destruct J]
    | cbn; discriminate
    | cbn; intros k t J; repeat (destruct J as [[= <- <-]|J]; [cbn; intros X; first [discriminate X|reflexivity]|]); destruct J
    | cbn; intros k t j J; repeat (destruct J as [[= <- <-]|J]; [cbn; intros X; first [discriminate X|injection X as <-; cbn; discriminate]|]); destruct J
    | cbn; repeat (apply NoDup_cons; [cbn; intuition discriminate|]); apply NoDup_nil
    | cbn; intros k J; repeat (destruct J as [<-|J]; [reflexivity|]); destruct J
    | intros k X; apply dget_In in X; cbn in X; repeat (destruct X as [X|X]; [discriminate|]); destruct X
    | cbn; intros k J; repeat (destruct J as [<-|J]; [reflexivity|]); destruct J
    | cbn; discriminate ]).
  - intros a b fa fb ma mb s HA HB MA MB NA NB. destruct a as [|[|[|[|[|[|a]]]]]]; try discriminate; cbn in MA; injection MA as <-; cbn in NA; try discriminate; destruct b as [|[|[|[|[|[|b]]]]]]; try discriminate; cbn in MB; injection MB as <-; cbn in NB; try discriminate; reflexivity.
  - intros u w fw HW E. subst. unfold sh90 in HW. rewrite Nat.add_comm in HW. cbn in HW. discriminate.
  - repeat (apply NoDup_cons; [cbn; intuition discriminate|]). apply NoDup_nil.
  - intros r. cbn. split; [intros [<-|[<-|[]]]; eexists; split; reflexivity|]. intros (f & HR & FP). destruct r as [|[|[|[|[|[|r]]]]]]; try discriminate; cbn in HR; injection HR as <-; cbn in FP; try discriminate; tauto.
  - intros u f HU. destruct (tree90 v t90 1 None [("owner", Some "me")]) as (A1 & A2 & A3 & A4). destruct u as [|[|[|[|[|[|u]]]]]]; try discriminate.
    1-4: exists 1%nat; split; [cbn; tauto|assumption]. exists 5%nat. split; [cbn; tauto|constructor].
Qed.
Definition root90 (u : nat) : nat := match u with 5%nat => 5%nat | _ => 1%nat end.
Lemma ok90_compatible v w : compatible root90 (ok90 v) (ok90 w).
Proof.
  split.
  - assert (X : forall x u f, g_heap (ok90 x) u = Some f -> in_tree (g_heap (ok90 x)) (root90 u) u /\ exists r, g_heap (ok90 x) (root90 u) = Some r /\ f_parent r = None).
    { intros x u f HU. destruct (tree90 x t90 1 None [("owner", Some "me")]) as (A1 & A2 & A3 & A4). destruct u as [|[|[|[|[|[|u]]]]]]; try discriminate; (split; [first [assumption|constructor]|eexists; split; reflexivity]). }
    intros s u f [->| ->]; apply X.
  - intros u f0 f1 m0 m1 _ _ M0 M1. cbn in M0, M1. congruence.
  - intros a b fa fb ma mb s HA HB MA MB NA NB. destruct a as [|[|[|[|[|[|a]]]]]]; try discriminate; cbn in MA; injection MA as <-; cbn in NA; try discriminate; destruct b as [|[|[|[|[|[|b]]]]]]; try discriminate; cbn in MB; injection MB as <-; cbn in NB; try discriminate; reflexivity.
  - assert (X : forall x u f k t j, g_heap (ok90 x) u = Some f -> In (k, t) (f_terms f) -> t_node t = NFrag j -> j = 1%nat \/ j = 5%nat).
    { intros x u f k t j HU J TN. destruct u as [|[|[|[|[|[|u]]]]]]; try discriminate; cbn in HU; injection HU as <-; cbn in J; repeat (destruct J as [[= <- <-]|J]; [cbn in TN; first [discriminate TN|injection TN as <-; tauto]|]); destruct J. }
    intros s u f k t j [->| ->] HU J TN; destruct (X _ u f k t j HU J TN) as [->| ->]; split; discriminate.
Qed.
(** saving over old files: file 9 is removed; loading in the other order of files *)
Definition d90 : disk := [(9%nat, Some []); (1%nat, None)].
Definition files90 (st : fgs) (d : disk) : list (nat * option (list jfrag)) := rev (snd (fst (save_fragments 9 st [5%nat; 1%nat] d))).
Example C90_example : snd (save_fragments 9 (ok90 6) [5%nat; 1%nat] d90) = FOk tt /\ map fst (files90 (ok90 6) d90) = [5%nat; 1%nat] /\
  snd (load_fragments zer2 sh90 (files90 (ok90 6) d90)) = FOk tt /\
  let s := fst (load_fragments zer2 sh90 (files90 (ok90 6) d90)) in
  rows90 (g_heap (ok90 6)) ScNone 1 = Some [(Real 1, 4); (Real 2, 3); (Real 4, 6); (Real 3, 3)]%Q /\ rows90 (g_heap s) ScNone 1 = Some [(Real 1, 4); (Real 2, 3); (Real 4, 6); (Real 3, 3)]%Q /\
  rows90 (g_heap (ok90 6)) (ScKey (KS "a")) 1 = rows90 (g_heap s) (ScKey (KS "a")) 1 /\ option_map m_name (g_meta s 1%nat) = Some (Some "main").
Proof. repeat split; vm_compute; reflexivity. Qed.

(** Interrupted while saving the change of a value from 6 to 8: after the file of 5 was written, and while that of 1 is being written *)
Example C91_example : let d := snd (fst (save_fragments 9 (ok90 6) [5%nat; 1%nat] [])) in let '(tr, _, _) := save_fragments 9 (ok90 8) [5%nat; 1%nat] d in
  map (fun y => snd (load_fragments zer2 sh90 y)) tr = [FErr FAssertion; FOk tt; FErr FAssertion; FOk tt] /\
  map (fun y => match g_heap (fst (load_fragments zer2 sh90 y)) 4%nat with Some f => option_map (option_map this) (dget (KS "a") (f_evs f)) | None => None end) tr = [None; Some (Some 6%Q); None; Some (Some 8%Q)].
Proof. split; vm_compute; reflexivity. Qed.

(** * Foregrounds that do not come back *)
Definition saved (st : fgs) : list (nat * option (list jfrag)) := snd (fst (save_fragments 9 st [5%nat; 1%nat] [])).
(** A balance flow with a stored value other than 1 (as when it was given one before it became the balance): the files cannot be loaded. *)
Theorem C90_refuted_balance_value : snd (save_fragments 9 (st90 6 t90 2 None []) [5%nat; 1%nat] []) = FOk tt /\ snd (load_fragments zer2 sh90 (saved (st90 6 t90 2 None []))) = FErr DependentFragment.
Proof. split; vm_compute; reflexivity. Qed.
(** A tag whose value is None: saving raises KeyError.  A tag named like a field: it is saved without that field and cannot be loaded. *)
Theorem C90_refuted_none_tag : snd (save_fragments 9 (st90 6 t90 1 None [("owner", None)]) [1%nat; 5%nat] []) = FErr FKeyError.
Proof. vm_compute. reflexivity. Qed.
Theorem C90_refuted_field_tag : snd (save_fragments 9 (st90 6 t90 1 None [("direction", Some "x")]) [5%nat; 1%nat] []) = FOk tt /\ snd (load_fragments zer2 sh90 (saved (st90 6 t90 1 None [("direction", Some "x")]))) = FErr FKeyError.
Proof. split; vm_compute; reflexivity. Qed.
(** A scenario named "default": its termination replaces the default one. *)
Theorem C90_refuted_default_scenario : let st := st90 6 (t90 ++ [(Some (KS "default"), null_term 11 Input)]) 1 None [] in snd (load_fragments zer2 sh90 (saved st)) = FOk tt /\
  rows90 (g_heap st) ScNone 1 = Some [(Real 1, 4); (Real 2, 3); (Real 4, 6); (Real 3, 3)]%Q /\ rows90 (g_heap (fst (load_fragments zer2 sh90 (saved st)))) ScNone 1 = Some [(Real 1, 4); (Real 2, 3)]%Q.
Proof. repeat split; vm_compute; reflexivity. Qed.
(** A scenario whose name contains four underscores becomes a tuple, so its exchange value is no longer found. *)
Definition st90u : fgs := Fg (fun i => match i with 4%nat => Some (Fr (Some 2%nat) [] 13 Input true false None (evs2 2 0 ++ [(KS "a____b", Some (Q2Qc 5))]) [(None, Tm (NProc 8) 13 Output false)]) | _ => g_heap (ok90 6) i end) (g_meta (ok90 6)) [("main", 1%nat)].
Theorem C90_refuted_underscores : snd (load_fragments zer2 sh90 (saved st90u)) = FOk tt /\
  rows90 (g_heap st90u) (ScKey (KS "a____b")) 1 = Some [(Real 1, 4); (Real 2, 3); (Real 4, 15); (Real 3, 12)]%Q /\ rows90 (g_heap (fst (load_fragments zer2 sh90 (saved st90u)))) (ScKey (KS "a____b")) 1 = Some [(Real 1, 4); (Real 2, 3); (Real 4, 6); (Real 3, 3)]%Q.
Proof. repeat split; vm_compute; reflexivity. Qed.
(** A reference fragment named "None" becomes the parent of the reference fragments loaded after it. *)
Theorem C90_refuted_named_none : let st := st90 6 t90 1 (Some "None") [] in snd (load_fragments zer2 sh90 (saved st)) = FOk tt /\
  option_map f_parent (g_heap st 1%nat) = Some None /\ option_map f_parent (g_heap (fst (load_fragments zer2 sh90 (saved st))) 1%nat) = Some (Some 5%nat).
Proof. repeat split; vm_compute; reflexivity. Qed.
(** A termination to a fragment that is not in the foreground comes back as a cut-off. *)
Theorem C90_refuted_missing_target : let st := st90 6 [(None, Tm (NFrag 77) 11 Output true)] 1 None [] in snd (load_fragments zer2 sh90 (saved st)) = FOk tt /\
  match g_heap (fst (load_fragments zer2 sh90 (saved st))) 2%nat with Some f => dget None (f_terms f) | None => None end = Some (Tm NNull 11 Output true).
Proof. repeat split; vm_compute; reflexivity. Qed.

(** A fragment that moved into another tree (5, with its child 6, became a child of 1), and saving stopped before the file of 5 was removed.  The fragment 5 is then loaded
    twice: 1 has a second object (105 here) in its place, cut off and without the child 6.  Neither the old state nor the new one. *)
Definition st91 (attached : bool) : fgs := Fg (fun i => match i with
  | 1%nat => Some (Fr None (if attached then [5%nat] else []) 10 Output false false None (evs2 4 1) [(None, Tm (NFrag 1) 10 Input true)])
  | 5%nat => Some (Fr (if attached then Some 1%nat else None) [6%nat] 11 Input false false None (evs2 3 1) [(None, Tm (NProc 7) 11 Output true)])
  | 6%nat => Some (Fr (Some 5%nat) [] 13 Input false false None (evs2 2 0) [(None, Tm (NProc 8) 13 Output true)])
  | _ => None end) (fun i => match i with 1%nat | 5%nat | 6%nat => Some (mt90 None []) | _ => None end) [].
Definition d91 : disk := snd (fst (save_fragments 9 (st91 false) [5%nat; 1%nat] [])).
Definition save91 : list disk * disk * fret unit := save_fragments 9 (st91 true) [1%nat] d91.
Definition stop91 : disk := nth 1 (fst (fst save91)) [].
Theorem C91_refuted_moved : snd save91 = FOk tt /\ length (fst (fst save91)) = 3%nat /\ rows90 (g_heap (st91 false)) ScNone 1 = Some [(Real 1, 4)]%Q /\ rows90 (g_heap (st91 true)) ScNone 1 = Some [(Real 1, 4); (Real 5, 3); (Real 6, 6)]%Q /\ map fst stop91 = [5%nat; 1%nat] /\ snd (load_fragments zer2 sh90 stop91) = FOk tt /\ rows90 (g_heap (fst (load_fragments zer2 sh90 stop91))) ScNone 1 = Some [(Real 1, 4); (Real 105, 3)]%Q /\ rows90 (g_heap (fst (load_fragments zer2 sh90 (snd (fst save91))))) ScNone 1 = Some [(Real 1, 4); (Real 5, 3); (Real 6, 6)]%Q.
Proof. repeat split; vm_compute; reflexivity. Qed.

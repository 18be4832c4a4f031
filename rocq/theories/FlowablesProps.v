(** C09, C10, C60, C61: /repo/synlist/flowables.py, class Flowables. *)
From Coq Require Import Sorting.Sorted.
From Verif Require Import Base PyStr SynListModel SynListProofs CasModel CasProofs FlowablesModel FlowablesProofs.
Open Scope string_scope.
Open Scope nat_scope.
Open Scope list_scope.
Arguments fsan : simpl never.

(** Histories: any sequence of public calls starting from an empty Flowables.  Calls that raise are allowed (their
    effects up to the exception stay); of merges only those that returned, or raised ConflictingCas or KeyError
    (i.e. before touching anything), are allowed -- see C09_refuted. *)
Definition merge_ok (o : fop) (e : option fexn) : Prop :=
  match o with
  | FMerge ordn _ _ => (forall l, Permutation (ordn l) l) /\ (e = None \/ e = Some ConflictingCas \/ e = Some (Base KeyError))
  | _ => True
  end.
Inductive history : flowables -> Prop :=
| h_empty : history fempty
| h_step s o s' e : history s -> fstep s o = (s', e) -> merge_ok o e -> history s'.

(** a synonym as the CAS pattern sees it: stripped and lower-cased *)
Definition is_cas (t : string) : Prop := cas_match (lower (strip t)) = true.
Definition number (t : string) : string := trim_cas (lower (strip t)).

Lemma fmerge_all_err_FI ms : forall s into s' e, fmerge_all s ms into = (s', FErr e) -> e <> ConflictingCas /\ e <> Base KeyError.
Proof.
  induction ms as [|m ms IH]; intros s into s' e; cbn [fmerge_all]; [discriminate|].
  unfold fmerge1, merge1. destruct (nth_error (s_items (f_base s)) into) as [ti|]; [|intros E; apply pair_equal_inv in E as [_ E]; split; congruence].
  destruct (nth_error (s_items (f_base s)) m) as [mi|]; [|intros E; apply pair_equal_inv in E as [_ E]; split; congruence].
  destruct (i_syns ti); [|intros E; apply pair_equal_inv in E as [_ E]; split; congruence].
  destruct (i_syns mi); [|intros E; apply pair_equal_inv in E as [_ E]; split; congruence]. apply IH.
Qed.
Lemma fmerge_err_unchanged ordn s d ts s' e : fmerge ordn s d ts false = (s', FErr e) -> e = ConflictingCas \/ e = Base KeyError -> s' = s.
Proof.
  unfold fmerge. destruct (fget_index s d) as [dom|]; [|congruence].
  destruct (findices_of s ts) as [l|]; [|congruence]. cbv zeta.
  assert (G : forall tc, (match fmerge_all s (ordn (set_of l)) dom with
            | (s1, FErr e) => (s1, FErr e)
            | (s1, FOk _) => (match tc with [c] => set_cas s1 dom (Some c) | _ => s1 end, FOk tt)
            end) = (s', FErr e) -> e = ConflictingCas \/ e = Base KeyError -> s' = s).
  { intros tc. destruct (fmerge_all s (ordn (set_of l)) dom) as [s1 [u|e1]] eqn:E; [discriminate|]. intros Q H.
    apply pair_equal_inv in Q as [<- Q]. injection Q as ->. apply fmerge_all_err_FI in E. destruct H; intuition. }
  destruct (truthy _) as [|a [|b r]]; [apply (G [])|apply (G [a])|congruence].
Qed.
Lemma history_FI s : history s -> FI s.
Proof.
  induction 1 as [|s o s' e H V E M]; [apply FI_empty|]. destruct o as [t|ord it m|i t|n|ordn d ts]; cbn [fstep] in E.
  - pose proof (fadd_term_FI s t V) as Q. destruct (fadd_term s t). apply pair_equal_inv in E as [<- _]. exact Q.
  - pose proof (fadd_set_FI ord s it m V) as Q. destruct (fadd_set ord s it m). apply pair_equal_inv in E as [<- _]. exact Q.
  - pose proof (fnew_term_FI s t i V) as Q. destruct (fnew_term s t i). apply pair_equal_inv in E as [<- _]. exact Q.
  - pose proof (fset_name_FI s n V) as Q. destruct (fset_name s n). apply pair_equal_inv in E as [<- _]. exact Q.
  - destruct M as [PO M]. destruct (fmerge ordn s d ts false) as [s1 [[]|e1]] eqn:Q; apply pair_equal_inv in E as [<- <-]; cbn [fout] in M.
    + eapply fmerge_FI; eauto.
    + rewrite (fmerge_err_unchanged _ _ _ _ _ _ Q); [exact V|]. destruct M as [M|[M|M]]; [discriminate| |]; injection M as ->; auto.
Qed.

(** C09: all CAS-shaped synonyms of a live item are the same number, [cas(i)] is that number in six-digit form, and
    [cas(i)] is None exactly when the item has no CAS-shaped synonym. *)
Theorem C09_one_cas_per_item : forall s i ts, history s -> synonym_set (f_base s) i = Some (Some ts) ->
  (forall t u, In t ts -> In u ts -> is_cas t -> is_cas u -> number t = number u) /\
  (forall t, In t ts -> is_cas t -> exists p, item_cas s i = Some p /\ cas_strict p = true /\ trim_cas p = number t) /\
  (item_cas s i = None <-> forall t, In t ts -> ~ is_cas t).
Proof.
  intros s i ts H E. pose proof (history_FI s H) as V.
  destruct (cas_at s i V (syns_lt s i _ E)) as [c Ec]. pose proof (FI_at s i _ _ V E Ec) as [A B].
  rewrite (item_cas_nth _ _ _ Ec). unfold is_cas, number. split; [|split].
  - intros t u It Iu Mt Mu. pose proof (A t It Mt) as X. pose proof (A u Iu Mu) as Y. apply padded_eq_trim. congruence.
  - intros t It Mt. exists (padded (lower (strip t))). split; [auto|]. split; [apply padded_strict; exact Mt|apply trim_padded].
  - split.
    + intros -> t It Mt. specialize (A t It Mt). discriminate.
    + intros N. destruct c as [p|]; [|reflexivity]. destruct (B p eq_refl) as (t & It & Mt & _). exfalso. eapply N; eauto.
Qed.
Print Assumptions C09_one_cas_per_item.

Definition fsteps (s : flowables) (os : list fop) : flowables := fold_left (fun s o => fst (fstep s o)) os s.
Definition idl {A} (l : list A) : list A := l.
Definition ex_ops := [FAddSet idl [TStr "Ethanol"; TStr "0064-17-5"] true; FAddTerm (TStr "EtOH"); FMerge idl (TStr "EtOH") [TStr "ethanol"]].
Definition ex_state := fsteps fempty ex_ops.
Example C09_nonvacuous : history ex_state /\ synonym_set (f_base ex_state) 1 = Some (Some ["EtOH"; "Ethanol"; "64-17-5"; "0064-17-5"]) /\
  item_cas ex_state 1 = Some "000064-17-5".
Proof.
  split; [|split; reflexivity].
  eapply (h_step (fsteps fempty (firstn 2 ex_ops)) (FMerge idl (TStr "EtOH") [TStr "ethanol"]) _ None);
    [|reflexivity|split; [intros; apply Permutation_refl|auto]].
  eapply (h_step (fsteps fempty (firstn 1 ex_ops)) (FAddTerm (TStr "EtOH")) _ None); [|reflexivity|exact I].
  eapply (h_step fempty (FAddSet idl [TStr "Ethanol"; TStr "0064-17-5"] true) _ None); [apply h_empty|reflexivity|exact I].
Qed.

(** The restriction on merges is needed: a merge that raises after merging its first operand (here because the second
    operand is an already merged-away item) leaves the dominant item with the CAS synonym but without its CAS number. *)
Theorem C09_refuted_for_raising_merge :
  exists os o, let s := fsteps fempty os in snd (fstep s o) = Some (Base TypeError) /\
    let s' := fst (fstep s o) in
    exists i ts, synonym_set (f_base s') i = Some (Some ts) /\ (exists t, In t ts /\ is_cas t) /\ item_cas s' i = None.
Proof.
  exists [FAddTerm (TStr "a"); FAddTerm (TStr "b"); FAddTerm (TStr "64-17-5"); FAddTerm (TStr "c"); FMerge idl (TStr "b") [TStr "c"]],
    (FMerge idl (TStr "a") [TStr "64-17-5"; TInt 3]).
  cbv zeta. split; [reflexivity|]. exists 0, ["a"; "64-17-5"]. split; [reflexivity|]. split; [|reflexivity].
  exists "64-17-5". cbn [In]. split; [auto|reflexivity].
Qed.
Print Assumptions C09_refuted_for_raising_merge.

(** * C10 *)
Lemma insert_sorted x l : ~ In x l -> StronglySorted lt l -> StronglySorted lt (insert_nat x l).
Proof.
  induction 2 as [|y l S IH F]; cbn; [constructor; constructor|].
  destruct (Nat.leb_spec x y) as [L|L].
  - assert (x <> y) by (intros ->; apply H; cbn; auto). constructor; [constructor; auto|].
    constructor; [lia|]. apply Forall_impl with (2 := F). intros z; lia.
  - constructor; [apply IH; intros I; apply H; cbn; auto|]. apply Forall_forall. intros z I. apply In_insert_nat in I as [->|I]; [exact L|].
    rewrite Forall_forall in F. auto.
Qed.
Lemma sort_sorted l : NoDup l -> StronglySorted lt (sort_nat l).
Proof.
  induction 1 as [|x l N ND IH]; cbn; [constructor|]. apply insert_sorted; [rewrite In_sort_nat; exact N|exact IH].
Qed.
Lemma check_loop_spec s it inc : forall conf, NoDup conf -> NoDup (check_loop s it inc conf) /\
  forall i, In i (check_loop s it inc conf) <-> In i conf \/ exists t c, In t it /\ findex s (TStr t) = Ok (Some i) /\ item_cas s i = Some c /\ trim_cas c <> inc.
Proof.
  induction it as [|t it IH]; intros conf ND; cbn [check_loop].
  - split; [exact ND|]. intros i. split; [auto|]. intros [I|(t & c & [] & _)]; exact I.
  - set (conf' := match findex s (TStr t) with Ok (Some i) => _ | _ => conf end).
    assert (Q : NoDup conf' /\ forall i, In i conf' <-> In i conf \/ exists c, findex s (TStr t) = Ok (Some i) /\ item_cas s i = Some c /\ trim_cas c <> inc).
    { unfold conf'. destruct (findex s (TStr t)) as [[j|]|].
      2:{ split; [exact ND|]. intros i. split; [auto|]. intros [I|(c & X & _)]; [exact I|discriminate]. }
      2:{ split; [exact ND|]. intros i. split; [auto|]. intros [I|(c & X & _)]; [exact I|discriminate]. }
      destruct (mem_spec j conf) as [J|J].
      { split; [exact ND|]. intros i. split; [auto|]. intros [I|(c & X & _)]; [exact I|]. injection X as ->. exact J. }
      destruct (item_cas s j) as [c|] eqn:C.
      2:{ split; [exact ND|]. intros i. split; [auto|]. intros [I|(c & X & Y & _)]; [exact I|]. injection X as ->. congruence. }
      destruct (String.eqb_spec (trim_cas c) inc) as [T|T].
      { split; [exact ND|]. intros i. split; [auto|]. intros [I|(c' & X & Y & Z)]; [exact I|]. injection X as ->. congruence. }
      split; [apply NoDup_set_add; exact ND|]. intros i. rewrite In_set_add. split.
      - intros [->|I]; [right; exists c; auto|auto].
      - intros [I|(c' & X & Y & Z)]; [auto|]. injection X as ->. auto. }
    destruct Q as [Q1 Q2]. destruct (IH conf' Q1) as [R1 R2]. split; [exact R1|]. intros i. rewrite R2, Q2. split.
    + intros [[I|(c & X)]|(t' & c & I & X)]; [auto| |].
      * right. exists t, c. cbn. tauto.
      * right. exists t', c. cbn. tauto.
    + intros [I|(t' & c & [->|I] & X)]; [auto| |]; [left; right; eauto|right; eauto].
Qed.

(** C10.  [number_of] is the trimmed form of a CAS-shaped term. *)
Theorem C10_check_cas_exact : forall s it,
  let cas_terms := fun t => In t it /\ cas_match t = true in
  (check_cas s it = CkConflicting <-> exists t u, cas_terms t /\ cas_terms u /\ trim_cas t <> trim_cas u) /\
  (check_cas s it = CkNone <-> forall t, ~ cas_terms t) /\
  (forall l, check_cas s it = CkList l ->
     StronglySorted lt l /\
     forall i, In i l <-> exists t u c, In t it /\ cas_terms u /\ findex s (TStr t) = Ok (Some i) /\ item_cas s i = Some c /\ trim_cas c <> trim_cas u).
Proof.
  intros s it ct. pose proof (find_cas_spec it) as F. unfold check_cas. destruct (find_cas it) as [| |inc].
  - destruct F as (t & u & It & Iu & Mt & Mu & N). split; [|split].
    + split; [intros _|reflexivity]. exists t, u. unfold ct. auto.
    + split; [discriminate|]. intros X. exfalso. apply (X t). unfold ct; auto.
    + discriminate.
  - split; [|split].
    + split; [discriminate|]. intros (t & u & [It Mt] & _). rewrite (F t It) in Mt. discriminate.
    + split; [|reflexivity]. intros _ t [It Mt]. rewrite (F t It) in Mt. discriminate.
    + discriminate.
  - destruct F as [(t0 & I0 & M0 & E0) F]. destruct (check_loop_spec s it inc [] (NoDup_nil _)) as [A B]. split; [|split].
    + split; [discriminate|]. intros (t & u & [It Mt] & [Iu Mu] & N). rewrite (F t It Mt), (F u Iu Mu) in N. congruence.
    + split; [discriminate|]. intros X. exfalso. apply (X t0). unfold ct; auto.
    + intros l E. assert (l = sort_nat (check_loop s it inc [])) by congruence. subst l. split; [apply sort_sorted; exact A|].
      intros i. rewrite In_sort_nat, B. cbn [In]. split.
      * intros [[]|(t & c & It & X & Y & Z)]. exists t, t0, c. unfold ct. rewrite E0. auto.
      * intros (t & u & c & It & [Iu Mu] & X & Y & Z). right. exists t, c. rewrite (F u Iu Mu) in Z. auto.
Qed.
Print Assumptions C10_check_cas_exact.
Definition ex10_ops := [FAddSet idl [TStr "Ethanol"; TStr "64-17-5"] true; FAddSet idl [TStr "Water"; TStr "7732-18-5"] true; FAddTerm (TStr "x")].
Definition ex10 := fsteps fempty ex10_ops.
Example C10_nonvacuous : check_cas ex10 ["water"; "ethanol"; "64-17-5"; "x"; "y"] = CkList [1] /\ check_cas ex10 ["water"] = CkNone /\
  check_cas ex10 ["64-17-5"; "7732-18-5"] = CkConflicting /\ check_cas ex10 ["ethanol"; "water"; "50-00-0"] = CkList [0; 1].
Proof. repeat split. Qed.

(** * C60: lookup coherence *)
(** Histories of additions that all returned normally (no merges). *)
Inductive additions : flowables -> Prop :=
| a_empty : additions fempty
| a_step s o s' : additions s -> fstep s o = (s', None) -> (forall ordn d ts, o <> FMerge ordn d ts) -> additions s'.
Lemma additions_DI s : additions s -> DI s.
Proof.
  induction 1 as [|s o s' H V E NM]; [apply DI_empty|]. destruct o as [t|ord it m|i t|n|ordn d ts]; cbn [fstep] in E.
  - destruct (fadd_term s t) as [s1 [r|e]] eqn:Q; apply pair_equal_inv in E as [<- E]; [|discriminate]. eapply fadd_term_DI; eauto.
  - destruct (fadd_set ord s it m) as [s1 [r|e]] eqn:Q; apply pair_equal_inv in E as [<- E]; [|discriminate]. eapply fadd_set_DI; eauto.
  - destruct (fnew_term s t i) as [s1 [[]|e]] eqn:Q; apply pair_equal_inv in E as [<- E]; [|discriminate]. eapply fnew_term_DI; eauto.
  - destruct (fset_name s n) as [s1 [r|e]] eqn:Q; apply pair_equal_inv in E as [<- E]; [|discriminate]. eapply fset_name_DI; eauto.
  - exfalso. eapply NM; reflexivity.
Qed.
Lemma findex_str s k : s_ic (f_base s) = true -> findex s (TStr k) = Ok (dget (lower (strip k)) (s_dict (f_base s))).
Proof.
  intros IC. unfold findex. rewrite fget_index_str by exact IC. replace (fsan s k) with (lower (strip k)) by (symmetry; apply san_ic; exact IC).
  destruct (dget (lower (strip k)) (s_dict (f_base s))); reflexivity.
Qed.
(** Every synonym of every item is found at that item and at no other, except that of the spellings of a CAS number only
    the fully trimmed and the fully padded ones are guaranteed (full claim: every spelling in the set). Missing: other
    paddings (false, see C60_refuted_spelling) and histories with merges (false, see C60_refuted_merge). *)
Theorem C60_lookup_coherent_partial : forall s, additions s ->
  (forall i ts t, synonym_set (f_base s) i = Some (Some ts) -> In t ts -> ~ is_cas t -> findex s (TStr t) = Ok (Some i)) /\
  (forall i ts t, synonym_set (f_base s) i = Some (Some ts) -> In t ts -> is_cas t ->
      findex s (TStr (number t)) = Ok (Some i) /\ exists p, item_cas s i = Some p /\ findex s (TStr p) = Ok (Some i)) /\
  (forall k i, findex s (TStr k) = Ok (Some i) -> exists ts t, synonym_set (f_base s) i = Some (Some ts) /\ In t ts /\
      (lower (strip t) = lower (strip k) \/ is_cas t /\ is_cas k /\ number t = number k)) /\
  (forall i j p, item_cas s i = Some p -> item_cas s j = Some p -> i = j).
Proof.
  intros s H. pose proof (additions_DI s H) as V. assert (IC := fi_ic s (d_fi s V)).
  split; [|split; [|split]].
  - intros i ts t E It N. rewrite findex_str by exact IC. f_equal. eapply (d_term s V); eauto. unfold is_cas in N.
    destruct (cas_match (norm t)) eqn:Q; [unfold norm in Q; congruence|reflexivity].
  - intros i ts t E It Mt. destruct (C09_one_cas_per_item s i ts) as (_ & B & _).
    + clear -H. induction H as [|s o s' H IH E N]; [apply h_empty|]. eapply h_step; [exact IH|exact E|].
      destruct o; try exact I. exfalso; eapply N; reflexivity.
    + exact E.
    + destruct (B t It Mt) as (p & Ep & Sp & Tp). destruct (d_cas s V i p Ep) as [D1 D2]. rewrite Tp in D2.
      assert (CN : lower (strip (number t)) = number t) by (apply clean_trim; [exact Mt|apply norm_clean]).
      split; [rewrite findex_str by exact IC; rewrite CN; f_equal; exact D2|]. exists p. split; [exact Ep|].
      rewrite findex_str by exact IC. f_equal.
      pose proof (item_cas_Some s i p Ep) as Ec. pose proof (FI_at s i _ _ (d_fi s V) E Ec) as [A _]. pose proof (A t It Mt) as Q. injection Q as Q.
      replace (lower (strip p)) with p; [exact D1|]. symmetry. rewrite Q. apply clean_padded; [exact Mt|apply norm_clean].
  - intros k i E. rewrite findex_str in E by exact IC. injection E as E. destruct (d_own s V _ _ E) as (ts & t & Ei & It & Z).
    exists ts, t. split; [exact Ei|]. split; [exact It|]. unfold is_cas, number. destruct Z as [Z|[Mt [Z|Z]]]; [left; auto| |]; right.
    + rewrite Z. fold (norm t). split; [exact Mt|]. split; [apply strict_match, padded_strict, Mt|symmetry; apply trim_padded].
    + rewrite Z. fold (norm t). split; [exact Mt|]. split; [apply trim_match, Mt|symmetry; apply trim_idem].
  - intros i j p Ei Ej. destruct (d_cas s V i p Ei) as [A _]. destruct (d_cas s V j p Ej) as [B _]. congruence.
Qed.
Print Assumptions C60_lookup_coherent_partial.
Example C60_nonvacuous : additions ex10.
Proof.
  eapply (a_step (fsteps fempty (firstn 2 ex10_ops)) (FAddTerm (TStr "x"))); [|reflexivity|discriminate].
  eapply (a_step (fsteps fempty (firstn 1 ex10_ops)) (FAddSet idl [TStr "Water"; TStr "7732-18-5"] true)); [|reflexivity|discriminate].
  eapply (a_step fempty (FAddSet idl [TStr "Ethanol"; TStr "64-17-5"] true)); [apply a_empty|reflexivity|discriminate].
Qed.
(** A synonym that is listed but not found, and re-adding that very term raises TermFound and leaves a second item with
    the same CAS number. *)
Theorem C60_refuted_spelling : exists s t ts, additions s /\ synonym_set (f_base s) 0 = Some (Some ts) /\ In t ts /\
  findex s (TStr t) = Ok None /\ snd (fadd_term s (TStr t)) = FErr (Base TermFound) /\
  item_cas (fst (fadd_term s (TStr t))) 0 = Some "000064-17-5" /\ item_cas (fst (fadd_term s (TStr t))) 1 = Some "000064-17-5".
Proof.
  exists (fst (fadd_term fempty (TStr "0064-17-5"))), "0064-17-5", ["64-17-5"; "0064-17-5"].
  split; [eapply (a_step fempty (FAddTerm (TStr "0064-17-5"))); [apply a_empty|reflexivity|discriminate]|].
  cbn [In]. repeat split. auto.
Qed.
Print Assumptions C60_refuted_spelling.
(** After a merge the six-digit form of a CAS number still leads to the merged-away item. *)
Theorem C60_refuted_merge : exists s, history s /\ item_cas s 1 = Some "000064-17-5" /\
  findex s (TStr "000064-17-5") = Ok (Some 0) /\ synonym_set (f_base s) 0 = Some None.
Proof. exists ex_state. split; [apply C09_nonvacuous|repeat split]. Qed.
Print Assumptions C60_refuted_merge.

(** * C61: rejected additions *)
(** Whatever its outcome, an addition never makes a known term lead to a different item. *)
Theorem C61_known_terms_stay_partial : forall s o k i, additions s -> (forall ordn d ts, o <> FMerge ordn d ts) ->
  findex s (TStr k) = Ok (Some i) -> findex (fst (fstep s o)) (TStr k) = Ok (Some i).
Proof.
  intros s o k i H NM E. pose proof (additions_DI s H) as V. assert (IC := fi_ic s (d_fi s V)).
  rewrite findex_str in E by exact IC. injection E as E.
  assert (IC2 : s_ic (f_base (fst (fstep s o))) = true).
  { apply fi_ic. apply history_FI. destruct (fstep s o) as [s' e] eqn:Q. cbn. eapply h_step; [|exact Q|].
    - clear -H. induction H as [|s o s' H IH E N]; [apply h_empty|]. eapply h_step; [exact IH|exact E|].
      destruct o; try exact I. exfalso; eapply N; reflexivity.
    - destruct o; try exact I. exfalso; eapply NM; reflexivity. }
  rewrite findex_str by exact IC2. f_equal. apply (fstep_dle s o V NM). exact E.
Qed.
Print Assumptions C61_known_terms_stay_partial.
(** A set with two CAS numbers is rejected, but an empty unnamed item stays behind. *)
Theorem C61_refuted : exists s', fadd_set idl fempty [TStr "64-17-5"; TStr "50-00-0"] true = (s', FErr ConflictingCas) /\
  length (s_items (f_base s')) = 1 /\ item_name (f_base s') 0 = None.
Proof. eexists. split; [reflexivity|]. split; reflexivity. Qed.
Print Assumptions C61_refuted.
Example C61_nonvacuous : additions ex10 /\ findex ex10 (TStr "water") = Ok (Some 1) /\ snd (fstep ex10 (FAddSynonym 0 (TStr "7732-18-5"))) = Some (Base TermFound).
Proof. split; [apply C60_nonvacuous|split; reflexivity]. Qed.

(** C76, C77: /repo/synlist/flowables.py: the index [add_term] returns, and the name of an item. *)
From Verif Require Import Base PyStr SynListModel SynListProofs CasModel CasProofs FlowablesModel FlowablesProofs FlowablesProps.
Open Scope string_scope.
Open Scope nat_scope.
Open Scope list_scope.
Arguments fsan : simpl never.

(** * C76 *)
Lemma fnew_term_found s k i s' : DI s -> k <> "" -> dget (norm k) (s_dict (f_base s)) = None -> fnew_term s (TStr k) i = (s', FOk tt) ->
  dget (if cas_match (norm k) then trim_cas (norm k) else norm k) (s_dict (f_base s')) = Some i.
Proof.
  intros V N Dk E. assert (IC := fi_ic s (d_fi s V)). unfold fnew_term in E. destruct k as [|c0 r0]; [congruence|].
  set (k := String c0 r0) in *. clearbody k. cbv zeta in E. assert (EK : fsan s k = norm k) by (apply san_ic; exact IC). rewrite EK, Dk in E.
  destruct (cas_match (norm k)) eqn:M.
  - assert (E2 : fcas_term s k (norm k) i = (s', FOk tt)).
    { destruct (nth_error (f_cas s) i) as [[c1|]|]; [|exact E|discriminate]. destruct (String.eqb _ _); [exact E|discriminate]. }
    clear E. unfold fcas_term in E2. rewrite (pad_padded _ M), trim_padded in E2. cbv zeta in E2. cbn [f_base set_cas] in E2.
    assert (CT : clean (trim_cas (norm k))) by (apply clean_trim; [exact M|apply norm_clean]).
    assert (NT : trim_cas (norm k) <> "") by (apply cas_nonempty, trim_match; exact M).
    destruct (new_term (f_base s) (TStr (trim_cas (norm k))) i) as [b [[]|e]] eqn:EN; [|discriminate].
    apply new_term_ok in EN as (ts & _ & _ & _ & _ & F & _ & _); [|exact NT]. rewrite (san_clean _ _ IC CT) in F.
    apply ffinish_ok in E2 as (ts2 & _ & _ & _ & F2 & _). cbn [f_base with_base] in F2. rewrite F2, F, eqb_refl.
    destruct (eqb _ _); reflexivity.
  - apply ffinish_ok in E as (ts & _ & _ & _ & F & _). rewrite F, eqb_refl. reflexivity.
Qed.

(** [add_term] returns the index of an item that lists the term or, for a CAS number, another spelling of it; the term itself
    (for a CAS number its trimmed spelling) is then found there. *)
Theorem C76_add_term_partial : forall s t s' i, additions s -> t <> "" -> fadd_term s (TStr t) = (s', FOk i) ->
  (~ is_cas t -> findex s' (TStr t) = Ok (Some i)) /\ (is_cas t -> findex s' (TStr (number t)) = Ok (Some i)) /\
  (exists ts u, synonym_set (f_base s') i = Some (Some ts) /\ In u ts /\ (lower (strip u) = lower (strip t) \/ is_cas u /\ is_cas t /\ number u = number t)) /\
  (forall j, findex s (TStr t) = Ok (Some j) -> j = i /\ s' = s).
Proof.
  intros s t s' i A N E. pose proof (additions_DI s A) as V. assert (IC := fi_ic s (d_fi s V)).
  assert (A' : additions s') by (eapply (a_step s (FAddTerm (TStr t))); [exact A|cbn [fstep]; rewrite E; reflexivity|discriminate]).
  pose proof (additions_DI s' A') as V'. assert (IC' := fi_ic s' (d_fi s' V')).
  destruct (C60_lookup_coherent_partial s' A') as (P1 & P2 & P3 & _).
  unfold fadd_term in E. rewrite fget_index_str in E by exact IC.
  replace (fsan s t) with (norm t) in E by (symmetry; apply san_ic; exact IC).
  assert (K : (~ is_cas t -> findex s' (TStr t) = Ok (Some i)) /\ (is_cas t -> findex s' (TStr (number t)) = Ok (Some i)) /\
    (forall j, findex s (TStr t) = Ok (Some j) -> j = i /\ s' = s)).
  { destruct (dget (norm t) (s_dict (f_base s))) as [j|] eqn:D.
    - apply pair_equal_inv in E as [<- E]. injection E as ->.
      assert (F : findex s (TStr t) = Ok (Some i)) by (rewrite findex_str by exact IC; f_equal; exact D).
      split; [auto|]. split; [|intros j Fj; rewrite F in Fj; injection Fj as <-; auto]. intros Ct. destruct (P3 t i F) as (ts & u & S & Iu & Q).
      assert (Cu : is_cas u /\ number u = number t).
      { destruct Q as [Q|(Q1 & _ & Q2)]; [|auto]. unfold is_cas, number in *. rewrite Q. auto. }
      destruct Cu as [Cu Nu]. rewrite <- Nu. apply (P2 i ts u S Iu Cu).
    - destruct (fnew_item s) as [s1 i1] eqn:EI. destruct (DI_new_item s V) as (V1 & _ & D1). rewrite EI in V1, D1. cbn [fst] in V1, D1.
      destruct (fnew_term s1 (TStr t) i1) as [s2 [[]|e]] eqn:EN; [|discriminate]. apply pair_equal_inv in E as [<- E]. injection E as ->.
      apply fnew_term_found in EN; [|exact V1|exact N|rewrite D1; exact D]. split; [|split].
      + intros NC. rewrite findex_str by exact IC'. f_equal. unfold is_cas in NC. fold (norm t) in NC |- *.
        destruct (cas_match (norm t)); [exfalso; apply NC; reflexivity|exact EN].
      + intros Ct. rewrite findex_str by exact IC'. f_equal. unfold is_cas in Ct. fold (norm t) in Ct.
        replace (lower (strip (number t))) with (number t) by (symmetry; apply clean_trim; [exact Ct|apply norm_clean]).
        rewrite Ct in EN. exact EN.
      + intros j Fj. rewrite findex_str in Fj by exact IC. fold (norm t) in Fj. congruence. }
  destruct K as (K1 & K2 & K3). split; [exact K1|]. split; [exact K2|]. split; [|exact K3].
  destruct (cas_match (norm t)) eqn:M.
  - assert (Ct : is_cas t) by exact M. destruct (P3 _ _ (K2 Ct)) as (ts & u & S & Iu & Q). exists ts, u. split; [exact S|]. split; [exact Iu|]. right.
    assert (CN : lower (strip (number t)) = number t) by (apply clean_trim; [exact M|apply norm_clean]).
    assert (NN : number (number t) = number t) by (unfold number at 1; rewrite CN; apply trim_idem).
    destruct Q as [Q|(Q1 & _ & Q2)].
    + rewrite CN in Q. unfold is_cas, number at 1. rewrite Q. unfold number at 1 2. rewrite trim_idem. split; [|split; [exact Ct|reflexivity]].
      apply trim_match. exact M.
    + rewrite NN in Q2. auto.
  - assert (NC : ~ is_cas t) by (unfold is_cas; fold (norm t); rewrite M; discriminate). apply (P3 _ _ (K1 NC)).
Qed.
Print Assumptions C76_add_term_partial.
Example C76_nonvacuous : additions ex10 /\ snd (fadd_term ex10 (TStr " 64-17-5")) = FOk 0 /\ snd (fadd_term ex10 (TStr "Ozone")) = FOk 3.
Proof. split; [apply C60_nonvacuous|]. vm_compute. auto. Qed.

(** * C77: names *)
(** An item with a CAS number for a name has no other kind of term. *)
Definition cas_named_only (s : flowables) : Prop :=
  forall i n ts t, item_name (f_base s) i = Some n -> cas_match n = true -> synonym_set (f_base s) i = Some (Some ts) -> In t ts -> cas_match t = true.
(** Additions, whether they return or raise; names are not set explicitly. *)
Inductive growing : flowables -> Prop :=
| g_empty : growing fempty
| g_term s t : growing s -> growing (fst (fadd_term s t))
| g_set s ord it m : growing s -> growing (fst (fadd_set ord s it m))
| g_synonym s i t : growing s -> growing (fst (fnew_term s t i)).

Definition NI1 (it : item) : Prop := match i_name it with Some n => cas_match n = true | None => True end -> forall ts t, i_syns it = Some ts -> In t ts -> cas_match t = true.
Definition NI (l : list item) : Prop := forall i it, nth_error l i = Some it -> NI1 it.
Lemma NI_upd l i f : NI l -> (forall it, nth_error l i = Some it -> NI1 (f it)) -> NI (upd i f l).
Proof.
  intros H F j it E. destruct (Nat.eq_dec j i) as [->|N].
  - rewrite nth_upd, Nat.eqb_refl in E. destruct (nth_error l i) as [x|] eqn:E1; [|discriminate]. cbn in E. injection E as <-. apply F. reflexivity.
  - rewrite nth_upd_other in E by auto. exact (H j it E).
Qed.
Lemma NI_cas_term s k i : NI (s_items s) -> cas_match k = true -> NI (s_items (fst (new_term s (TStr k) i))).
Proof.
  intros H M. unfold new_term. destruct k as [|c r]; [exact H|]. set (k := String c r) in *. clearbody k. cbv zeta.
  destruct (nth_error (s_items s) i) as [it|] eqn:E; [|exact H]. destruct (i_syns it) as [ts|] eqn:S; [|exact H]. cbn [s_dict set_items].
  assert (A : forall n, (n = i_name it \/ n = Some k /\ i_name it = None) -> NI1 (with_name n (with_syns (Some (set_add k ts)) it))).
  { intros n Hn P ts' t Et It. cbn in Et. injection Et as <-. apply In_set_add in It as [->|It]; [exact M|].
    apply (H i it E) with (ts := ts); auto. cbn in P. destruct Hn as [->|[-> Hn]]; [exact P|]. rewrite Hn. exact I. }
  assert (B : NI (upd i (with_syns (Some (set_add k ts))) (s_items s))).
  { apply NI_upd; [exact H|]. intros it0 E0. rewrite E in E0. injection E0 as <-. specialize (A (i_name it) (or_introl eq_refl)). exact A. }
  destruct (dget _ _) as [j|]; [destruct (Nat.eqb j i); exact B|]. destruct (i_name it) eqn:Nm; cbn; [exact B|].
  apply NI_upd; [exact B|]. intros it0 E0. rewrite (nth_upd_same _ _ _ _ E) in E0. injection E0 as <-. apply A. auto.
Qed.
Lemma NI_finish s k key i : NI (s_items (f_base s)) -> NI (s_items (f_base (fst (ffinish s k key i)))).
Proof.
  intros H. unfold ffinish. destruct (nth_error (s_items (f_base s)) i) as [it|] eqn:E; [|exact H].
  destruct (i_syns it) as [ts|] eqn:S; [|exact H]. cbv zeta. cbn [fst f_base with_base].
  assert (A : NI1 (with_name (Some k) (with_syns (Some (set_add k ts)) it)) \/ cas_match k = true).
  { destruct (cas_match k) eqn:M; [right; reflexivity|left]. intros P. cbn in P. congruence. }
  assert (O : forall n, cas_match k = true -> (n = i_name it \/ i_name it = None \/ exists m, i_name it = Some m /\ cas_match m = true) ->
     NI1 (with_name n (with_syns (Some (set_add k ts)) it))).
  { intros n M Hn P ts' t Et It. cbn in Et. injection Et as <-. apply In_set_add in It as [->|It]; [exact M|].
    apply (H i it E) with (ts := ts); auto. cbn in P. destruct Hn as [->|[Hn|(m & Hn & Hm)]]; [exact P| |]; rewrite Hn; auto. }
  assert (R : (i_name it = None \/ exists m, i_name it = Some m /\ cas_match m = true) -> NI (upd i (with_name (Some k)) (upd i (with_syns (Some (set_add k ts))) (s_items (f_base s))))).
  { intros Hn j it0 E0. destruct (Nat.eq_dec j i) as [->|N].
    - rewrite nth_upd, Nat.eqb_refl, (nth_upd_same _ _ _ _ E) in E0. cbn in E0. injection E0 as <-. destruct A as [A|M]; [exact A|]. apply O; auto.
    - rewrite !nth_upd_other in E0 by auto. exact (H j it0 E0). }
  destruct (i_name it) as [n|] eqn:Nm; [|apply R; auto].
  destruct (cas_match n) eqn:Mn; cbn [andb].
  - destruct (cas_match k) eqn:Mk; cbn [negb]; [|apply R; right; eauto]. cbn. apply NI_upd; [exact H|]. intros it0 E0. rewrite E in E0. injection E0 as <-.
    specialize (O (Some n) eq_refl (or_introl eq_refl)). intros P. cbn in P. apply O. cbn. rewrite Nm in P. exact P.
  - cbn. apply NI_upd; [exact H|]. intros it0 E0. rewrite E in E0. injection E0 as <-. intros P. cbn in P. rewrite Nm in P. congruence.
Qed.
Lemma cas_pad_trim k : cas_match k = true -> cas_match (trim_cas (pad k)) = true.
Proof. intros M. rewrite (pad_padded _ M), trim_padded. apply trim_match, M. Qed.
Lemma NI_fnew_term s t i : NI (s_items (f_base s)) -> NI (s_items (f_base (fst (fnew_term s t i)))).
Proof.
  intros H. unfold fnew_term. destruct t as [|k|n]; try exact H. destruct k as [|c r]; [exact H|]. set (k := String c r). clearbody k. cbv zeta.
  destruct (dget _ _) as [j|]; [destruct (Nat.eqb j i); exact H|].
  destruct (cas_match (fsan s k)) eqn:M; [|apply NI_finish; exact H].
  assert (C : NI (s_items (f_base (fst (fcas_term s k (fsan s k) i))))).
  { unfold fcas_term. cbv zeta. pose proof (NI_cas_term (f_base (set_cas s i (Some (pad (fsan s k))))) (trim_cas (pad (fsan s k))) i H (cas_pad_trim _ M)) as Q.
    destruct (new_term _ _ i) as [b [[]|e]]; cbn [fst] in Q; [|exact Q]. apply NI_finish. exact Q. }
  destruct (nth_error (f_cas s) i) as [[c0|]|]; [|exact C|exact H]. destruct (String.eqb _ _); [exact C|exact H].
Qed.
Lemma NI_new_item s : NI (s_items (f_base s)) -> NI (s_items (f_base (fst (fnew_item s)))).
Proof.
  intros H j it E. cbn in E. rewrite nth_error_snoc in E. destruct (Nat.eqb j _); [|exact (H j it E)].
  injection E as <-. intros _ ts t Et. cbn in Et. injection Et as <-. intros [].
Qed.
Lemma NI_terms it : forall s i, NI (s_items (f_base s)) -> NI (s_items (f_base (fst (fmerge_terms s it i)))).
Proof.
  induction it as [|t it IH]; intros s i H; [exact H|]. cbn [fmerge_terms]. pose proof (NI_fnew_term s t i H) as Q.
  destruct (fnew_term s t i) as [s1 [[]|e]]; [|exact Q]. apply IH. exact Q.
Qed.
Lemma NI_set_index s it i : NI (s_items (f_base s)) -> NI (s_items (f_base (fst (fmerge_set_with_index s it i)))).
Proof.
  intros H. unfold fmerge_set_with_index. destruct (term_strings it) as [ks|]; [|exact H]. pose proof (NI_terms it s i H) as Q.
  destruct (find_cas ks) as [| |c]; [exact H|exact Q|]. destruct (item_cas s i) as [c0|]; [|exact Q]. destruct (String.eqb _ _); [exact Q|exact H].
Qed.
Lemma growing_NI s : growing s -> NI (s_items (f_base s)).
Proof.
  induction 1 as [|s t G H|s ord it m G H|s i t G H].
  - intros [|i] it E; discriminate.
  - unfold fadd_term. destruct (fget_index s t) as [i|[]]; try exact H. pose proof (NI_new_item s H) as Q.
    destruct (fnew_item s) as [s1 i1]. cbn [fst] in Q. pose proof (NI_fnew_term s1 t i1 Q) as Q2. destruct (fnew_term s1 t i1) as [s2 [[]|e]]; exact Q2.
  - unfold fadd_set. destruct (ffind_indices s it [] []) as [[f un]|e]; [|exact H].
    assert (NS : NI (s_items (f_base (fst (fnew_set s (ord un)))))).
    { unfold fnew_set. destruct (ord un) as [|x u] eqn:EU; [exact H|]. pose proof (NI_new_item s H) as Q. destruct (fnew_item s) as [s1 i1]. cbn [fst] in Q.
      pose proof (NI_set_index s1 (x :: u) i1 Q) as Q2. destruct (fmerge_set_with_index s1 (x :: u) i1) as [s2 [[]|e]]; exact Q2. }
    destruct f as [|i [|j r]]; [exact NS| |destruct m; [exact H|exact NS]].
    destruct m; [|exact NS]. pose proof (NI_set_index s (ord un) i H) as Q. destruct (fmerge_set_with_index s (ord un) i) as [s2 [[]|e]]; exact Q.
  - apply NI_fnew_term. exact H.
Qed.

(** Full claim: for every history.  Missing: histories with merges and explicit names (false, see below). *)
Theorem C77_cas_name_last_resort_partial : forall s, growing s -> cas_named_only s.
Proof.
  intros s G i n ts t En Mn Es It. pose proof (growing_NI s G) as H. unfold item_name in En. unfold synonym_set in Es.
  destruct (nth_error (s_items (f_base s)) i) as [it|] eqn:E; [|discriminate]. cbn in Es. injection Es as Es.
  apply (H i it E) with (ts := ts); auto. rewrite En. exact Mn.
Qed.
Print Assumptions C77_cas_name_last_resort_partial.
Example C77_nonvacuous : growing ex10 /\ item_name (f_base ex10) 0 = Some "Ethanol" /\
  item_name (f_base (fst (fadd_set idl fempty [TStr "64-17-5"; TStr "Ethanol"] true))) 0 = Some "Ethanol" /\
  item_name (f_base (fst (fadd_set idl fempty [TStr "64-17-5"] true))) 0 = Some "64-17-5".
Proof.
  split; [|vm_compute; auto].
  replace ex10 with (fst (fadd_term (fst (fadd_set idl (fst (fadd_set idl fempty [TStr "Ethanol"; TStr "64-17-5"] true)) [TStr "Water"; TStr "7732-18-5"] true)) (TStr "x"))) by (vm_compute; reflexivity).
  apply g_term. apply (g_set _ idl [TStr "Water"; TStr "7732-18-5"] true). apply (g_set _ idl [TStr "Ethanol"; TStr "64-17-5"] true). apply g_empty.
Qed.
(** Merging into an item that is named by its CAS number keeps that name. *)
Theorem C77_refuted_merge : exists s, history s /\ ~ cas_named_only s.
Proof.
  set (s := fsteps fempty [FAddTerm (TStr "64-17-5"); FAddTerm (TStr "Ethanol"); FMerge idl (TStr "64-17-5") [TStr "Ethanol"]]).
  exists s. split.
  - eapply (h_step (fsteps fempty [FAddTerm (TStr "64-17-5"); FAddTerm (TStr "Ethanol")]) (FMerge idl (TStr "64-17-5") [TStr "Ethanol"]));
      [|reflexivity|split; [intros l; apply Permutation_refl|left; reflexivity]].
    eapply (h_step (fsteps fempty [FAddTerm (TStr "64-17-5")]) (FAddTerm (TStr "Ethanol"))); [|reflexivity|exact I].
    eapply (h_step fempty (FAddTerm (TStr "64-17-5"))); [apply h_empty|reflexivity|exact I].
  - intros C. specialize (C 0 "64-17-5" ["64-17-5"; "Ethanol"] "Ethanol" eq_refl eq_refl eq_refl (or_intror (or_introl eq_refl))). discriminate.
Qed.
Print Assumptions C77_refuted_merge.

From Coq Require Import String Permutation.
From Verif Require Import Base PyStr SynListModel SynListProofs CasModel CasProofs FlowablesModel FlowablesProofs QImplModel.
Open Scope string_scope.
Open Scope nat_scope.
Open Scope list_scope.

Definition D (s : flowables) (k : string) : option nat := dget k (s_dict (f_base s)).
Definition nm (s : flowables) (i : nat) : option string := item_name (f_base s) i.
Definition wf (s : flowables) : Prop := s_ic (f_base s) = true /\ length (f_cas s) = length (s_items (f_base s)).

Lemma syns_item s i x : syns_at s i = Some x <-> exists it, nth_error (s_items (f_base s)) i = Some it /\ i_syns it = x.
Proof. unfold syns_at, synonym_set. destruct (nth_error (s_items (f_base s)) i) as [it|]; cbn; split; intros H; [injection H as <-; eauto|destruct H as (it' & E & <-); injection E as <-; reflexivity|discriminate|destruct H as (it' & E & _); discriminate]. Qed.

(** ** Adding a term to an item *)
Lemma add_name s k i ts : wf s -> syns_at s i = Some (Some ts) -> k <> "" -> D s (norm k) = None -> cas_match (norm k) = false ->
  exists s', fnew_term s (TStr k) i = (s', FOk tt) /\ wf s'
    /\ (forall x, D s' x = if eqb x (norm k) then Some i else D s x)
    /\ (forall j, syns_at s' j = if Nat.eqb j i then Some (Some (set_add k ts)) else syns_at s j)
    /\ (forall j, item_cas s' j = item_cas s j)
    /\ (forall j, j <> i -> nm s' j = nm s j) /\ (forall x, nm s i = Some x -> cas_match x = false -> nm s' i = Some x).
Proof.
  intros [IC LN] SY NE DK CM.
  assert (SK : fsan s k = norm k) by (apply san_ic; exact IC).
  assert (E : fnew_term s (TStr k) i = ffinish s k (norm k) i).
  { unfold fnew_term. rewrite SK. unfold D in DK. rewrite DK, CM. destruct k; [congruence|reflexivity]. }
  rewrite E. clear E. apply syns_item in SY as (it & NI & SI).
  destruct (ffinish s k (norm k) i) as [s' [[]|e]] eqn:F.
  2:{ exfalso. unfold ffinish in F. rewrite NI, SI in F. discriminate. }
  destruct (ffinish_ok _ _ _ _ _ F) as (ts' & A1 & A2 & A3 & A4 & A5 & A6 & A7).
  assert (ts' = ts). { apply syns_item in A1 as (it' & E1 & E2). congruence. } subst ts'.
  exists s'. split; [reflexivity|]. split; [split; congruence|]. split; [exact A4|]. split.
  { intros j. destruct (Nat.eqb_spec j i) as [->|N]; auto. }
  split; [intros j; unfold item_cas; rewrite A5; reflexivity|].
  unfold ffinish in F. rewrite NI, SI in F. apply pair_equal_inv in F as [<- _]. unfold nm, item_name. cbn [f_base with_base].
  split.
  - intros j N. destruct (i_name it) as [n|]; [destruct (cas_match n && negb (cas_match k))|]; cbn [s_items set_items set_dict]; rewrite ?nth_upd_other by auto; reflexivity.
  - intros x HX CX. rewrite NI in HX. rewrite HX. rewrite CX. cbn [andb s_items set_items set_dict]. rewrite (nth_upd_same _ _ _ _ NI). cbn. exact HX.
Qed.
(** canonical CAS numbers *)
Definition canonical (c : string) : Prop := cas_match c = true /\ clean c /\ (c = padded c \/ c = trim_cas c).
Lemma canonical_norm c : canonical c -> norm c = c. Proof. intros (_ & C & _). exact C. Qed.
Lemma canonical_ne c : canonical c -> c <> "". Proof. intros (M & _). apply cas_nonempty. exact M. Qed.
Lemma canonical_trim_norm c : canonical c -> norm (trim_cas c) = trim_cas c.
Proof. intros (M & C & _). apply clean_norm, clean_trim; auto. Qed.
Lemma padded_match c : cas_match c = true -> cas_match (padded c) = true.
Proof. intros M. apply strict_match, padded_strict, M. Qed.

Lemma add_cas s c i ts : wf s -> syns_at s i = Some (Some ts) -> canonical c -> D s (padded c) = None -> D s (trim_cas c) = None -> item_cas s i = None ->
  exists s', fnew_term s (TStr c) i = (s', FOk tt) /\ wf s'
    /\ (forall x, D s' x = if eqb x (padded c) || eqb x (trim_cas c) then Some i else D s x)
    /\ (forall j, syns_at s' j = if Nat.eqb j i then Some (Some (set_add c (set_add (trim_cas c) ts))) else syns_at s j)
    /\ (forall j, item_cas s' j = if Nat.eqb j i then Some (padded c) else item_cas s j)
    /\ (forall j, j <> i -> nm s' j = nm s j) /\ (forall x, nm s i = Some x -> cas_match x = false -> nm s' i = Some x).
Proof.
  intros [IC LN] SY CC DP DT IN. pose proof CC as (M & CL & FORM).
  assert (DC : D s c = None) by (destruct FORM as [->|E]; [exact DP|rewrite E; exact DT]).
  assert (SK : fsan s c = c) by (apply san_clean; auto).
  pose proof SY as SY0. apply syns_item in SY0 as (it & NI & SI).
  assert (LI : i < length (f_cas s)) by (rewrite LN; eapply nth_error_lt; exact NI).
  assert (NC : nth_error (f_cas s) i = Some None).
  { unfold item_cas in IN. destruct (nth_error (f_cas s) i) as [x|] eqn:E; [congruence|]. apply nth_error_None in E. lia. }
  assert (TN : trim_cas c <> "") by (apply cas_nonempty, trim_match, M).
  assert (E : fnew_term s (TStr c) i = fcas_term s c c i).
  { unfold fnew_term. rewrite SK. unfold D in DC. rewrite DC, M, NC. destruct c; [discriminate M|reflexivity]. }
  rewrite E. clear E. unfold fcas_term. rewrite pad_padded by exact M. rewrite trim_padded.
  set (s1 := set_cas s i (Some (padded c))).
  destruct (new_term (f_base s1) (TStr (trim_cas c)) i) as [b [[]|e]] eqn:NT.
  2:{ exfalso. unfold new_term in NT. cbn [f_base s1 set_cas] in NT. rewrite NI, SI in NT. cbn [s_dict set_items] in NT.
      rewrite san_ic in NT by exact IC. fold (norm (trim_cas c)) in NT. rewrite canonical_trim_norm in NT by exact CC. unfold D in DT. rewrite DT in NT.
      destruct (trim_cas c); [congruence|]. discriminate. }
  pose proof NT as NT0. apply new_term_ok in NT as (ts' & A1 & A2 & A3 & A4 & A5 & A6 & A7); [|exact TN].
  assert (ts' = ts) by (unfold syns_at in SY; cbn [f_base s1 set_cas] in A1; congruence). subst ts'.
  assert (SB : sanitize (f_base s1) (trim_cas c) = trim_cas c) by (apply san_clean; [exact IC|apply clean_trim; auto]).
  rewrite SB in A5.
  destruct (ffinish (with_base s1 b) c (padded c) i) as [s' [[]|e]] eqn:F.
  2:{ exfalso. unfold ffinish in F. cbn [f_base with_base] in F. unfold synonym_set in A2. destruct (nth_error (s_items b) i) as [it'|]; [|discriminate].
      cbn in A2. injection A2 as A2. rewrite A2 in F. discriminate. }
  destruct (ffinish_ok _ _ _ _ _ F) as (ts' & B1 & B2 & B3 & B4 & B5 & B6 & B7). cbn [f_base with_base f_cas] in *.
  assert (ts' = set_add (trim_cas c) ts) by (unfold syns_at in B1; cbn [f_base with_base] in B1; congruence). subst ts'.
  exists s'. split; [reflexivity|]. split.
  { split; [cbn [f_base s1 set_cas] in A6; congruence|]. rewrite B5, B7, A7. cbn [f_cas s1 set_cas with_base f_base]. rewrite length_upd. exact LN. }
  split.
  { intros x. unfold D. rewrite B4, A5. cbn [f_base s1 set_cas]. destruct (eqb x (padded c)), (eqb x (trim_cas c)); reflexivity. }
  split.
  { intros j. destruct (Nat.eqb_spec j i) as [->|N]; [exact B2|]. rewrite B3 by exact N. unfold syns_at. cbn [f_base with_base]. apply A3. exact N. }
  split.
  { intros j. unfold item_cas. rewrite B5. cbn [f_cas s1 set_cas with_base]. rewrite nth_upd. rewrite (Nat.eqb_sym i j). destruct (Nat.eqb_spec j i) as [->|]; [rewrite NC|]; reflexivity. }
  (* names *)
  assert (NB : (forall j, j <> i -> item_name b j = nm s j) /\ (forall x, nm s i = Some x -> item_name b i = Some x)).
  { unfold new_term in NT0. cbn [f_base s1 set_cas] in NT0. destruct (trim_cas c) as [|a r] eqn:ET; [congruence|]. rewrite NI, SI in NT0. cbn [s_dict set_items] in NT0.
    rewrite san_ic in NT0 by exact IC. fold (norm (String a r)) in NT0.
    assert (NR : norm (String a r) = String a r) by (rewrite <- ET; apply canonical_trim_norm; exact CC). rewrite NR in NT0. unfold D in DT. rewrite DT in NT0.
    apply pair_equal_inv in NT0 as [<- _]. unfold nm, item_name. split.
    - intros j N. destruct (i_name it); cbn [s_items set_items set_dict]; rewrite ?nth_upd_other by auto; reflexivity.
    - intros x HX. rewrite NI in HX. rewrite HX. cbn [s_items set_items set_dict]. rewrite (nth_upd_same _ _ _ _ NI). exact HX. }
  destruct NB as [NB1 NB2]. unfold ffinish in F. cbn [f_base with_base] in F. unfold synonym_set in A2.
  destruct (nth_error (s_items b) i) as [it'|] eqn:NI'; [|discriminate]. cbn in A2. injection A2 as A2. rewrite A2 in F.
  apply pair_equal_inv in F as [<- _]. unfold nm at 1 3. unfold item_name. cbn [f_base with_base].
  split.
  - intros j N. rewrite <- (NB1 j N). unfold item_name.
    destruct (i_name it') as [n|]; [destruct (cas_match n && negb (cas_match c))|]; cbn [s_items set_items set_dict]; rewrite ?nth_upd_other by auto; reflexivity.
  - intros x HX CX. apply NB2 in HX. unfold item_name in HX. rewrite NI' in HX. rewrite HX, CX. cbn [andb s_items set_items set_dict].
    unfold nm, item_name. cbn [f_base with_base s_items set_items set_dict]. rewrite (nth_upd_same _ _ _ _ NI'). exact HX.
Qed.
Lemma new_item_view s : wf s -> let s1 := fst (fnew_item s) in let n := length (s_items (f_base s)) in
  snd (fnew_item s) = n /\ wf s1 /\ (forall x, D s1 x = D s x) /\ (forall j, syns_at s1 j = if Nat.eqb j n then Some (Some []) else syns_at s j)
  /\ (forall j, item_cas s1 j = item_cas s j) /\ (forall j, nm s1 j = nm s j).
Proof.
  intros [IC LN]. cbn. split; [reflexivity|]. split; [split; [exact IC|cbn; rewrite !app_length, LN; reflexivity]|]. split; [reflexivity|]. split; [|split].
  - intros j. unfold syns_at, synonym_set. cbn. rewrite nth_error_snoc. destruct (Nat.eqb j (length (s_items (f_base s)))); reflexivity.
  - intros j. unfold item_cas. cbn. rewrite nth_error_snoc. destruct (Nat.eqb_spec j (length (f_cas s))) as [->|]; [|reflexivity].
    rewrite (proj2 (nth_error_None (f_cas s) _)) by auto. reflexivity.
  - intros j. unfold nm, item_name. cbn. rewrite nth_error_snoc. destruct (Nat.eqb_spec j (length (s_items (f_base s)))) as [->|]; [|reflexivity].
    rewrite (proj2 (nth_error_None (s_items (f_base s)) _)) by auto. reflexivity.
Qed.

(** ** Merging an item without CAS number into one with it *)
Lemma fget_D s k : wf s -> fget_index s (TStr k) = match D s (norm k) with Some i => Ok i | None => Err KeyError end.
Proof. intros [IC _]. rewrite fget_index_str by exact IC. unfold fsan. rewrite san_ic by exact IC. reflexivity. Qed.
Lemma merge_conflict ordn s c n d j p q : wf s -> D s (norm c) = Some d -> D s (norm n) = Some j -> item_cas s d = Some p -> item_cas s j = Some q -> p <> "" -> q <> "" ->
  fmerge ordn s (TStr c) [TStr n] false = (s, FErr ConflictingCas).
Proof.
  intros W DC DN P Q NP NQ. unfold fmerge. rewrite fget_D, DC by exact W. cbn [findices_of]. rewrite fget_D, DN by exact W. cbn [map]. rewrite P, Q. cbn [truthy].
  destruct (String.eqb_spec p ""); [congruence|]. destruct (String.eqb_spec q ""); [congruence|]. reflexivity.
Qed.
Lemma merge_view ordn s c n d j p td tj : lawful ordn -> wf s -> D s (norm c) = Some d -> D s (norm n) = Some j -> j <> d ->
  item_cas s d = Some p -> p <> "" -> item_cas s j = None -> syns_at s d = Some (Some td) -> syns_at s j = Some (Some tj) ->
  exists s', fmerge ordn s (TStr c) [TStr n] false = (s', FOk tt) /\ wf s'
    /\ (forall x, D s' x = if mem x (map norm (set_union td tj)) then Some d else D s x)
    /\ (forall k, k <> j -> syns_at s' k = if Nat.eqb k d then Some (Some (set_union td tj)) else syns_at s k)
    /\ (forall k, item_cas s' k = item_cas s k) /\ (forall k, k <> j -> nm s' k = nm s k).
Proof.
  intros LW W DC DN NJ P NP Q SD SJ. pose proof W as [IC LN]. unfold fmerge. rewrite fget_D, DC by exact W. cbn [findices_of]. rewrite fget_D, DN by exact W. cbn [map].
  rewrite P, Q. cbn [truthy]. destruct (String.eqb_spec p ""); [congruence|].
  assert (O1 : ordn (set_of [j]) = [j]). { apply Permutation_length_1_inv. symmetry. apply (LW [j]). }
  rewrite O1. cbn [fmerge_all]. unfold fmerge1, merge1.
  apply syns_item in SD as (id & ND & SD). apply syns_item in SJ as (ij & NJ' & SJ). rewrite ND, NJ', SD, SJ.
  eexists. split; [reflexivity|].
  assert (CD : nth_error (f_cas s) d = Some (Some p)) by (apply item_cas_Some; exact P).
  split; [split; [exact IC|cbn; rewrite !length_upd; exact LN]|]. split; [|split; [|split]].
  - intros x. unfold D. cbn. rewrite rekey_spec. cbn [s_dict set_items]. replace (map (sanitize (set_items (f_base s) (upd d (with_syns (Some (set_union td tj))) (s_items (f_base s))))) (set_union td tj)) with (map norm (set_union td tj)); [reflexivity|].
    apply map_ext. intros t. symmetry. apply san_ic. exact IC.
  - intros k NK. unfold syns_at, synonym_set. cbn. rewrite nth_upd_other by auto. destruct (Nat.eqb_spec k d) as [->|N].
    + rewrite (nth_upd_same _ _ _ _ ND). reflexivity.
    + rewrite nth_upd_other by auto. reflexivity.
  - intros k. unfold item_cas. cbn. rewrite !nth_upd. rewrite (Nat.eqb_sym d k). destruct (Nat.eqb_spec k d) as [->|N].
    + destruct (Nat.eqb_spec j d); [congruence|]. rewrite CD. reflexivity.
    + destruct (Nat.eqb_spec j k) as [->|]; [|reflexivity]. unfold item_cas in Q. destruct (nth_error (f_cas s) k) as [[?|]|]; cbn in *; congruence || reflexivity.
  - intros k NK. unfold nm, item_name. cbn. rewrite nth_upd_other by auto. rewrite nth_upd. destruct (Nat.eqb d k); destruct (nth_error (s_items (f_base s)) k); reflexivity.
Qed.

(** ** Looking up two terms *)
Lemma find2 s a b : wf s -> a <> b -> ffind_indices s [TStr a; TStr b] [] [] =
  Ok match D s (norm a), D s (norm b) with
     | None, None => ([], [TStr a; TStr b])
     | Some i, None => ([i], [TStr b])
     | None, Some j => ([j], [TStr a])
     | Some i, Some j => (if Nat.eqb i j then [i] else [i; j], [])
     end.
Proof.
  intros W N. cbn [ffind_indices]. rewrite !fget_D by exact W. destruct (D s (norm a)) as [i|], (D s (norm b)) as [j|]; cbn; try reflexivity.
  - unfold set_add. cbn. rewrite (Nat.eqb_sym i j). destruct (Nat.eqb_spec j i) as [->|]; reflexivity.
  - unfold set_add. cbn. destruct (String.eqb_spec b a); [congruence|]. reflexivity.
Qed.
Lemma set_name_view s n i it : wf s -> D s (norm n) = Some i -> nth_error (s_items (f_base s)) i = Some it ->
  exists s', fset_name s n = (s', FOk i) /\ wf s' /\ (forall x, D s' x = D s x) /\ (forall k, syns_at s' k = syns_at s k) /\ (forall k, item_cas s' k = item_cas s k)
    /\ nm s' i = Some n /\ (forall k, k <> i -> nm s' k = nm s k).
Proof.
  intros W DN NI. unfold fset_name. rewrite fget_D, DN by exact W. eexists. split; [reflexivity|]. destruct W as [IC LN].
  split; [split; [exact IC|cbn; rewrite length_upd; exact LN]|]. split; [reflexivity|]. split; [|split; [reflexivity|split]].
  - intros k. unfold syns_at, synonym_set. cbn. rewrite nth_upd. destruct (Nat.eqb i k); [|reflexivity]. destruct (nth_error (s_items (f_base s)) k); reflexivity.
  - unfold nm, item_name. cbn. rewrite (nth_upd_same _ _ _ _ NI). reflexivity.
  - intros k N. unfold nm, item_name. cbn. rewrite nth_upd_other by auto. reflexivity.
Qed.
(** The CAS numbers among the terms of a flow *)
Lemma find_cas_none l : (forall t, In t l -> cas_match t = false) -> find_cas l = CasNone.
Proof. intros H. unfold find_cas. assert (filter cas_match l = []) as ->; [|reflexivity]. induction l as [|a l IH]; [reflexivity|]. cbn. rewrite (H a) by (left; reflexivity). apply IH. intros; apply H; right; auto. Qed.
Lemma find_cas_one c n l : cas_match c = true -> cas_match n = false -> Permutation l [c; n] \/ l = [c] -> find_cas l = CasOne (trim_cas c).
Proof.
  intros M N [P| ->]; unfold find_cas; [|cbn; rewrite M; reflexivity].
  apply Permutation_sym, Permutation_length_2_inv in P as [-> | ->]; cbn; rewrite M, N; reflexivity.
Qed.

(** ** The invariant *)
Definition catoms (f : qflow) (x : string) : Prop := x = norm (qf_name f) \/ (qf_cas f <> "" /\ (x = padded (qf_cas f) \/ x = trim_cas (qf_cas f))).
Definition atoms (f : qflow) (x : string) : Prop := catoms f x \/ x = norm (qf_link f).
Definition name_ok (n : string) : Prop := norm n <> "" /\ cas_match (norm n) = false /\ cas_match n = false.
Definition flow_ok (f : qflow) : Prop :=
  name_ok (qf_name f) /\ name_ok (qf_link f) /\ (qf_cas f = "" \/ canonical (qf_cas f)) /\ norm (qf_link f) <> norm (qf_name f).
Definition share (f g : qflow) : Prop := norm (qf_name f) = norm (qf_name g) \/ (qf_cas f <> "" /\ qf_cas g <> "" /\ trim_cas (qf_cas f) = trim_cas (qf_cas g)).
Inductive same (F : list qflow) : qflow -> qflow -> Prop :=
| same_refl f : In f F -> same F f f
| same_step f g h : same F f g -> In h F -> share g h -> same F f h.
Record QI (F : list qflow) (s : flowables) : Prop := {
  q_wf : wf s;
  q_flow : forall f, In f F -> exists i, forall x, atoms f x -> D s x = Some i;
  q_own : forall x i, D s x = Some i -> exists f, In f F /\ atoms f x;
  q_same : forall f g, In f F -> In g F -> D s (norm (qf_name f)) = D s (norm (qf_name g)) -> same F f g;
  q_syn : forall x i, D s x = Some i -> exists ts, syns_at s i = Some (Some ts) /\ (forall t, In t ts -> D s (norm t) = Some i)
            /\ (item_cas s i = None -> forall y, D s y = Some i -> In y (map norm ts));
  q_cas1 : forall f i, In f F -> qf_cas f <> "" -> D s (norm (qf_name f)) = Some i -> item_cas s i = Some (padded (qf_cas f));
  q_cas2 : forall x i p, D s x = Some i -> item_cas s i = Some p -> exists f, In f F /\ D s (norm (qf_name f)) = Some i /\ qf_cas f <> "" /\ p = padded (qf_cas f);
  q_name : forall x i, D s x = Some i -> exists f, In f F /\ D s (norm (qf_name f)) = Some i /\ nm s i = Some (qf_name f) }.

Lemma share_sym f g : share f g -> share g f. Proof. intros [H|(A & B & C)]; [left|right]; auto. Qed.
Lemma same_in F f g : same F f g -> In f F /\ In g F. Proof. induction 1; tauto. Qed.
Lemma same_trans F f g h : same F f g -> same F g h -> same F f h.
Proof. intros A B. revert A. induction B as [|a b c S IH I SH]; intros A; [exact A|]. eapply same_step; [apply IH; exact A|exact I|exact SH]. Qed.
Lemma same_sym F f g : same F f g -> same F g f.
Proof. induction 1 as [f I|f g h S IH I SH]; [constructor; auto|]. eapply same_trans; [|exact IH]. apply same_in in S as [_ IG]. eapply same_step; [constructor; exact I|exact IG|apply share_sym; exact SH]. Qed.
Lemma same_mono F G f g : (forall x, In x F -> In x G) -> same F f g -> same G f g.
Proof. intros S. induction 1; [constructor; auto|eapply same_step; eauto]. Qed.

Lemma in_catoms_name f : catoms f (norm (qf_name f)). Proof. left; reflexivity. Qed.
Lemma in_atoms_name f : atoms f (norm (qf_name f)). Proof. left; left; reflexivity. Qed.
Lemma canon_trim_match c : canonical c -> cas_match (trim_cas c) = true. Proof. intros (M & _). apply trim_match; auto. Qed.
(** a key of a CAS number belongs to flows with that number *)
Lemma cas_atom f c x : flow_ok f -> canonical c -> x = padded c \/ x = trim_cas c -> atoms f x -> qf_cas f <> "" /\ trim_cas (qf_cas f) = trim_cas c.
Proof.
  intros ((_ & NM & _) & (_ & LM & _) & CO & _) (M & _) X A.
  assert (XM : cas_match x = true) by (destruct X as [-> | ->]; [apply padded_match|apply trim_match]; exact M).
  assert (XT : trim_cas x = trim_cas c) by (destruct X as [-> | ->]; [apply trim_padded|apply trim_idem]).
  destruct A as [[-> |[N [-> | ->]]]| ->]; [congruence| | |congruence]; split; auto; [rewrite trim_padded in XT|rewrite trim_idem in XT]; exact XT.
Qed.
Lemma cas_keys F s c : QI F s -> (forall f, In f F -> flow_ok f) -> canonical c -> D s (padded c) = D s (trim_cas c).
Proof.
  intros Q OK C. assert (X : forall x i, x = padded c \/ x = trim_cas c -> D s x = Some i -> D s (padded c) = Some i /\ D s (trim_cas c) = Some i).
  { intros x i HX E. destruct (q_own _ _ Q _ _ E) as (f & I & A). destruct (cas_atom f c x (OK f I) C HX A) as [NE TR]. destruct (q_flow _ _ Q f I) as (k & K).
    pose proof (K x A) as K0. rewrite E in K0. injection K0 as <-.
    assert (PE : padded (qf_cas f) = padded c) by (apply padded_eq_trim; exact TR).
    split; apply K; left; right; (split; [exact NE|]); [left|right]; auto. }
  destruct (D s (padded c)) as [i|] eqn:E1; [destruct (X _ _ (or_introl eq_refl) E1) as [_ ->]; reflexivity|].
  destruct (D s (trim_cas c)) as [i|] eqn:E2; [destruct (X _ _ (or_intror eq_refl) E2) as [E3 _]; congruence|reflexivity].
Qed.

(** ** One flow: what happens to the items it touches *)
Definition touched (s : flowables) (f : qflow) (k : nat) : Prop := exists x, catoms f x /\ D s x = Some k.
Record Step (A : string -> Prop) (s : flowables) (f : qflow) (s1 : flowables) (i : nat) : Prop := {
  p_wf : wf s1;
  p_D : forall x, (A x -> D s1 x = Some i)
                  /\ (forall k, ~ A x -> D s x = Some k -> touched s f k -> D s1 x = Some i)
                  /\ (forall k, ~ A x -> D s x = Some k -> ~ touched s f k -> D s1 x = Some k /\ k <> i)
                  /\ (~ A x -> D s x = None -> D s1 x = None);
  p_i : touched s f i \/ (forall k, ~ touched s f k);
  p_ne : forall k x, D s x = Some k -> ~ touched s f k -> k <> i;
  p_syn : exists ts, syns_at s1 i = Some (Some ts) /\ (forall t, In t ts -> D s1 (norm t) = Some i)
            /\ (item_cas s1 i = None -> forall y, D s1 y = Some i -> In y (map norm ts));
  p_cas : qf_cas f <> "" -> item_cas s1 i = Some (padded (qf_cas f));
  p_nocas : qf_cas f = "" -> item_cas s1 i = match D s (norm (qf_name f)) with Some k => item_cas s k | None => None end;
  p_compat : forall k p, qf_cas f <> "" -> touched s f k -> item_cas s k = Some p -> p = padded (qf_cas f);
  p_other : forall k x, D s x = Some k -> ~ touched s f k -> syns_at s1 k = syns_at s k /\ item_cas s1 k = item_cas s k /\ nm s1 k = nm s k }.

Lemma catoms_dec f x : {catoms f x} + {~ catoms f x}.
Proof.
  unfold catoms. destruct (string_dec x (norm (qf_name f))) as [E|N]; [left; left; exact E|].
  destruct (string_dec (qf_cas f) "") as [E|NE]; [right; intros [H|[H _]]; contradiction|].
  destruct (string_dec x (padded (qf_cas f))) as [E|N1]; [left; right; auto|]. destruct (string_dec x (trim_cas (qf_cas f))) as [E|N2]; [left; right; auto|].
  right. intros [H|[_ [H|H]]]; contradiction.
Qed.
Lemma touched_dec s f k : {touched s f k} + {~ touched s f k}.
Proof.
  assert (H : forall x, {D s x = Some k} + {D s x <> Some k}) by (intros x; destruct (D s x) as [j|]; [destruct (Nat.eq_dec j k); [left|right]; congruence|right; discriminate]).
  destruct (H (norm (qf_name f))) as [E|N]; [left; eexists; split; [apply in_catoms_name|exact E]|].
  destruct (string_dec (qf_cas f) "") as [Z|NE]; [right; intros (x & [->|[X _]] & E); congruence|].
  destruct (H (padded (qf_cas f))) as [E|N1]; [left; eexists; split; [right; split; [exact NE|left; reflexivity]|exact E]|].
  destruct (H (trim_cas (qf_cas f))) as [E|N2]; [left; eexists; split; [right; split; [exact NE|right; reflexivity]|exact E]|].
  right. intros (x & [->|[X [-> | ->]]] & E); congruence.
Qed.
(** a touched item holds a flow that shares a term with this one *)
Lemma touched_share F s f k : QI F s -> (forall g, In g F -> flow_ok g) -> flow_ok f -> (forall g, In g F -> norm (qf_link g) <> norm (qf_name f)) ->
  touched s f k -> exists g, In g F /\ D s (norm (qf_name g)) = Some k /\ share g f.
Proof.
  intros Q OK OF FR (x & C & E). destruct (q_own _ _ Q _ _ E) as (g & I & A). destruct (q_flow _ _ Q g I) as (j & J). pose proof (J x A) as K. rewrite E in K. injection K as <-.
  exists g. split; [exact I|]. split; [apply J, in_atoms_name|]. destruct C as [->|[NE X]].
  - destruct A as [[A|[NG A]]|A]; [left; auto| |exfalso; apply (FR g I); auto].
    exfalso. destruct OF as ((_ & NM & _) & _). destruct (OK g I) as (_ & _ & [CE|CG] & _); [congruence|].
    assert (cas_match (norm (qf_name f)) = true) by (destruct A as [-> | ->]; [apply padded_match; apply CG|apply canon_trim_match; exact CG]). congruence.
  - destruct OF as (_ & _ & [CE|CF] & _); [congruence|]. destruct (cas_atom g (qf_cas f) x (OK g I) CF X A) as [G1 G2]. right. auto.
Qed.
Lemma atoms_dec f x : {atoms f x} + {~ atoms f x}.
Proof. unfold atoms. destruct (catoms_dec f x) as [A|A]; [left; left; exact A|]. destruct (string_dec x (norm (qf_link f))) as [E|N]; [left; right; exact E|right; intros [H|H]; contradiction]. Qed.
Lemma step_QI F s f s1 i : QI F s -> (forall g, In g F -> flow_ok g) -> flow_ok f -> (forall g, In g F -> norm (qf_link g) <> norm (qf_name f)) ->
  D s (norm (qf_link f)) = None -> Step (atoms f) s f s1 i -> nm s1 i = Some (qf_name f) \/ (exists k, touched s f k /\ nm s1 i = nm s k) -> QI (F ++ [f]) s1.
Proof.
  intros Q OK OF FR LF P NM.
  assert (MONO : forall x, In x F -> In x (F ++ [f])) by (intros; apply in_or_app; auto).
  assert (INF : In f (F ++ [f])) by (apply in_or_app; right; left; reflexivity).
  assert (SPLIT : forall g, In g (F ++ [f]) -> In g F \/ g = f) by (intros g H; apply in_app_or in H as [H|[H|[]]]; auto).
  assert (AT : forall x k, atoms f x -> D s x = Some k -> touched s f k) by (intros x k [C| ->] E; [exists x; auto|congruence]).
  assert (FWD1 : forall x k, D s x = Some k -> touched s f k -> D s1 x = Some i).
  { intros x k E T. destruct (p_D _ _ _ _ _ P x) as (P1 & P2 & _). destruct (atoms_dec f x); eauto. }
  assert (FWD2 : forall x k, D s x = Some k -> ~ touched s f k -> D s1 x = Some k /\ k <> i).
  { intros x k E T. destruct (p_D _ _ _ _ _ P x) as (_ & _ & P3 & _). destruct (atoms_dec f x) as [A|A]; [exfalso; eauto|eauto]. }
  assert (BACK : forall x m, D s1 x = Some m -> (atoms f x /\ m = i) \/ (exists k, D s x = Some k /\ touched s f k /\ m = i) \/ (D s x = Some m /\ ~ touched s f m /\ m <> i)).
  { intros x m E. destruct (p_D _ _ _ _ _ P x) as (P1 & P2 & P3 & P4). destruct (atoms_dec f x) as [A|A]; [left; split; [exact A|rewrite (P1 A) in E; congruence]|]. right.
    destruct (D s x) as [k|] eqn:DX; [|rewrite (P4 A eq_refl) in E; discriminate]. destruct (touched_dec s f k) as [T|T].
    - left. exists k. rewrite (P2 k A eq_refl T) in E. split; [reflexivity|]. split; [exact T|congruence].
    - right. destruct (P3 k A eq_refl T) as [P3a P3b]. rewrite P3a in E. injection E as <-. auto. }
  assert (DF : D s1 (norm (qf_name f)) = Some i) by (destruct (p_D _ _ _ _ _ P (norm (qf_name f))) as (P1 & _); apply P1, in_atoms_name).
  assert (NAME : forall g, In g F -> exists k, D s (norm (qf_name g)) = Some k) by (intros g I; destruct (q_flow _ _ Q g I) as (k & K); exists k; apply K, in_atoms_name).
  assert (BN : forall g m, In g F -> D s1 (norm (qf_name g)) = Some m -> (exists k, D s (norm (qf_name g)) = Some k /\ touched s f k /\ m = i) \/ (D s (norm (qf_name g)) = Some m /\ ~ touched s f m /\ m <> i)).
  { intros g m I E. destruct (BACK _ _ E) as [[A ->]|[H|H]]; auto. left. destruct (NAME g I) as (k & K). exists k. repeat split; eauto. }
  assert (SI : forall g, In g (F ++ [f]) -> D s1 (norm (qf_name g)) = Some i -> same (F ++ [f]) f g).
  { intros g I E. apply SPLIT in I as [I| ->]; [|constructor; exact INF]. destruct (BN g i I E) as [(k & K & T & _)|(_ & _ & X)]; [|congruence].
    destruct (touched_share F s f k Q OK OF FR T) as (g0 & I0 & K0 & SH).
    eapply same_trans; [eapply same_step; [constructor; exact INF|apply MONO; exact I0|apply share_sym; exact SH]|].
    apply (same_mono F); [exact MONO|]. apply (q_same _ _ Q); congruence || auto. }
  constructor.
  - apply (p_wf _ _ _ _ _ P).
  - intros g I. apply SPLIT in I as [I| ->].
    + destruct (q_flow _ _ Q g I) as (k & K). destruct (touched_dec s f k) as [T|T].
      * exists i. intros x A. eapply FWD1; eauto.
      * exists k. intros x A. eapply FWD2; eauto.
    + exists i. intros x A. apply (proj1 (p_D _ _ _ _ _ P x)). exact A.
  - intros x m E. destruct (BACK _ _ E) as [[A _]|[(k & K & _)|(K & _)]]; [exists f; auto| |]; destruct (q_own _ _ Q _ _ K) as (g & I & A); exists g; auto.
  - intros g h IG IH E. apply SPLIT in IG as [IG| ->]; [|apply SI; [exact IH|congruence]]. destruct (NAME g IG) as (k & K). destruct (touched_dec s f k) as [T|T].
    + pose proof (FWD1 _ _ K T) as X. eapply same_trans; [apply same_sym|]; apply SI; auto; congruence.
    + destruct (FWD2 _ _ K T) as [X NI]. apply SPLIT in IH as [IH| ->]; [|congruence].
      rewrite X in E. symmetry in E. destruct (BN h k IH E) as [(k' & _ & _ & Y)|(Y & _)]; [congruence|]. apply (same_mono F); [exact MONO|]. apply (q_same _ _ Q); congruence || auto.
  - intros x m E. assert (CS : m = i \/ (D s x = Some m /\ ~ touched s f m /\ m <> i)) by (destruct (BACK _ _ E) as [[_ H]|[(k & _ & _ & H)|H]]; auto).
    destruct CS as [-> |(DX & T & NI)]; [apply (p_syn _ _ _ _ _ P)|].
    destruct (q_syn _ _ Q _ _ DX) as (ts & S1 & S2 & S3). destruct (p_other _ _ _ _ _ P m x DX T) as (O1 & O2 & _).
    exists ts. split; [congruence|]. split.
    + intros t IT. apply (FWD2 _ _ (S2 t IT) T).
    + rewrite O2. intros NC y EY. apply S3; [exact NC|]. destruct (BACK _ _ EY) as [[_ H]|[(k & _ & _ & H)|[H _]]]; [congruence|congruence|exact H].
  - intros g m IG NE E. apply SPLIT in IG as [IG| ->].
    + destruct (BN g m IG E) as [(k & K & T & ->)|(K & T & NI)].
      * pose proof (q_cas1 _ _ Q g k IG NE K) as CK. destruct (string_dec (qf_cas f) "") as [Z|NZ].
        -- rewrite (p_nocas _ _ _ _ _ P Z). destruct T as (x & [->|[X _]] & TX); [|congruence]. rewrite TX. exact CK.
        -- rewrite (p_cas _ _ _ _ _ P NZ). f_equal. symmetry. apply (p_compat _ _ _ _ _ P k); auto.
      * destruct (p_other _ _ _ _ _ P m _ K T) as (_ & -> & _). apply (q_cas1 _ _ Q g); auto.
    + rewrite DF in E. injection E as <-. apply (p_cas _ _ _ _ _ P). exact NE.
  - intros x m p E CM. assert (CS : m = i \/ (D s x = Some m /\ ~ touched s f m /\ m <> i)) by (destruct (BACK _ _ E) as [[_ H]|[(k & _ & _ & H)|H]]; auto).
    destruct CS as [-> |(DX & T & NI)].
    + destruct (string_dec (qf_cas f) "") as [Z|NZ].
      * rewrite (p_nocas _ _ _ _ _ P Z) in CM. destruct (D s (norm (qf_name f))) as [k|] eqn:K; [|discriminate]. destruct (q_cas2 _ _ Q _ _ _ K CM) as (g & IG & KG & H).
        exists g. split; [auto|]. split; [|exact H]. apply (FWD1 _ k KG). eapply AT; [apply in_atoms_name|exact K].
      * rewrite (p_cas _ _ _ _ _ P NZ) in CM. injection CM as <-. exists f. auto.
    + destruct (p_other _ _ _ _ _ P m x DX T) as (_ & O2 & _). rewrite O2 in CM. destruct (q_cas2 _ _ Q _ _ _ DX CM) as (g & IG & KG & H). exists g. split; [auto|]. split; [|exact H].
      apply (FWD2 _ _ KG T).
  - intros x m E. assert (CS : m = i \/ (D s x = Some m /\ ~ touched s f m /\ m <> i)) by (destruct (BACK _ _ E) as [[_ H]|[(k & _ & _ & H)|H]]; auto).
    destruct CS as [-> |(DX & T & NI)].
    + destruct NM as [NM|(k & T & NM)]; [exists f; auto|]. destruct T as (y & CY & DY). destruct (q_name _ _ Q _ _ DY) as (g & IG & KG & H). exists g. split; [auto|]. split; [|congruence].
      apply (FWD1 _ k KG). exists y; auto.
    + destruct (p_other _ _ _ _ _ P m x DX T) as (_ & _ & O3). destruct (q_name _ _ Q _ _ DX) as (g & IG & KG & H). exists g. split; [auto|]. split; [|congruence]. apply (FWD2 _ _ KG T).
Qed.

(** ** The flow is added *)
Definition clash (s : flowables) (f : qflow) : Prop := exists k p, qf_cas f <> "" /\ touched s f k /\ item_cas s k = Some p /\ p <> padded (qf_cas f).
Lemma name_ne n : name_ok n -> n <> "". Proof. intros [H _] ->. apply H. reflexivity. Qed.
Lemma ord1 {A} (ord : list A -> list A) a : lawful ord -> ord [a] = [a].
Proof. intros L. apply Permutation_length_1_inv. symmetry. apply L. Qed.
Lemma ord2 {A} (ord : list A -> list A) a b : lawful ord -> ord [a; b] = [a; b] \/ ord [a; b] = [b; a].
Proof. intros L. apply Permutation_length_2_inv. symmetry. apply L. Qed.
Lemma fnew_empty s i : fnew_term s (TStr "") i = (s, FOk tt). Proof. reflexivity. Qed.
Lemma no_key_empty F s : QI F s -> (forall g, In g F -> flow_ok g) -> D s "" = None.
Proof.
  intros Q OK. destruct (D s "") as [i|] eqn:E; [|reflexivity]. exfalso. destruct (q_own _ _ Q _ _ E) as (f & I & A). destruct (OK f I) as ((N1 & _) & (L1 & _) & CO & _).
  destruct A as [[A|[NE A]]|A]; [congruence| |congruence]. destruct CO as [CO|CO]; [congruence|].
  destruct A as [A|A]; symmetry in A; [apply (padded_nonempty (qf_cas f)) in A; [exact A|apply CO]|]. apply (cas_nonempty (trim_cas (qf_cas f))); [apply canon_trim_match; exact CO|exact A].
Qed.
Lemma live_lt F s x i : QI F s -> D s x = Some i -> i < length (s_items (f_base s)).
Proof. intros Q E. destruct (q_syn _ _ Q _ _ E) as (ts & S & _). eapply syns_lt; exact S. Qed.

(** the flow names an item that already has all its terms, or gains terms *)
Lemma step_extend F s f s1 i ts0 ts1 : QI F s -> (forall g, In g F -> flow_ok g) -> flow_ok f ->
  wf s1 -> (touched s f i /\ (forall k, touched s f k -> k = i) /\ syns_at s i = Some (Some ts0) \/ ((forall k, ~ touched s f k) /\ i = length (s_items (f_base s)) /\ ts0 = [])) ->
  (forall x, D s1 x = if catoms_dec f x then Some i else D s x) ->
  syns_at s1 i = Some (Some ts1) -> (forall t, In t ts1 -> catoms f (norm t) \/ In t ts0) -> (forall t, In t ts0 -> In t ts1) ->
  (qf_cas f = "" -> item_cas s1 i = None -> In (norm (qf_name f)) (map norm ts1)) ->
  (qf_cas f <> "" -> item_cas s1 i = Some (padded (qf_cas f))) ->
  (qf_cas f = "" -> item_cas s1 i = match D s (norm (qf_name f)) with Some k => item_cas s k | None => None end) ->
  (forall p, qf_cas f <> "" -> item_cas s i = Some p -> p = padded (qf_cas f)) ->
  (forall k, k <> i -> syns_at s1 k = syns_at s k /\ item_cas s1 k = item_cas s k /\ nm s1 k = nm s k) ->
  Step (catoms f) s f s1 i.
Proof.
  intros Q OK OF W1 PI HD SY NK INC NN C1 C2 C3 OTH.
  assert (NE : forall k x, D s x = Some k -> ~ touched s f k -> k <> i).
  { intros k x E T ->. destruct PI as [(T0 & _)|(_ & L & _)]; [contradiction|]. apply (live_lt F) in E; [lia|exact Q]. }
  constructor; auto.
  - intros x. rewrite HD. destruct (catoms_dec f x) as [A|A].
    + split; [reflexivity|]. split; [intros; contradiction|]. split; intros; contradiction.
    + split; [intros; contradiction|]. split; [|split; [|auto]].
      * intros k _ E T. destruct PI as [(_ & U & _)|(NT & _)]; [|exfalso; eapply NT; eauto]. rewrite E, (U k T). reflexivity.
      * intros k _ E T. split; [exact E|eapply NE; eauto].
  - tauto.
  - exists ts1. split; [exact SY|].
    assert (OLD : forall t, In t ts0 -> D s (norm t) = Some i).
    { destruct PI as [((x & _ & DX) & _ & S0)|(_ & _ & ->)]; [|intros t []]. destruct (q_syn _ _ Q _ _ DX) as (ts' & S1 & S2 & _). rewrite S0 in S1. injection S1 as <-. exact S2. }
    split.
    + intros t IT. rewrite HD. destruct (catoms_dec f (norm t)) as [A|A]; [reflexivity|]. apply NK in IT as [IT|IT]; [contradiction|auto].
    + intros NC y EY. destruct (string_dec (qf_cas f) "") as [Z|NZ]; [|rewrite (C1 NZ) in NC; discriminate]. rewrite HD in EY. destruct (catoms_dec f y) as [[->|[X _]]|A]; [auto|congruence|].
      destruct PI as [(T0 & U & S0)|(_ & L & _)].
      * destruct (q_syn _ _ Q _ _ EY) as (ts' & S1 & _ & S3). rewrite S0 in S1. injection S1 as <-.
        assert (IY : In y (map norm ts0)).
        { apply S3; [|exact EY]. rewrite (C2 Z) in NC. destruct T0 as (x & [->|[X _]] & DX); [|congruence]. rewrite DX in NC. exact NC. }
        apply in_map_iff in IY as (t & <- & IT). apply in_map. auto.
      * apply (live_lt F) in EY; [lia|exact Q].
  - intros k p NZ T. destruct PI as [(_ & U & _)|(NT & _)]; [|exfalso; eapply NT; eauto]. rewrite (U k T). apply C3. exact NZ.
  - intros k x E T. apply OTH. eapply NE; eauto.
Qed.
Lemma find_cas_singleton t : find_cas [t] = if cas_match t then CasOne (trim_cas t) else CasNone.
Proof. unfold find_cas. cbn. destruct (cas_match t); reflexivity. Qed.
Definition the_core (ord : list term -> list term) (ordn : list nat -> list nat) (s : flowables) (f : qflow) : Prop :=
  let st := fadd_set ord s [TStr (qf_cas f); TStr (qf_name f)] true in
  let mg := fmerge ordn s (TStr (qf_cas f)) [TStr (qf_name f)] false in
  (exists s1 i r, st = (s1, FOk r) /\ Step (catoms f) s f s1 i)
  \/ (st = (s, FErr (Base InconsistentIndices)) /\ exists s1 d, mg = (s1, FOk tt) /\ Step (catoms f) s f s1 d /\ touched s f d /\ nm s1 d = nm s d)
  \/ (clash s f /\ exists s', st = (s', FErr ConflictingCas))
  \/ (clash s f /\ st = (s, FErr (Base InconsistentIndices)) /\ exists s', mg = (s', FErr ConflictingCas)).
Lemma set_with_index_plain s us i : find_cas us = CasNone \/ item_cas s i = None /\ (exists c, find_cas us = CasOne c) -> fmerge_set_with_index s (map TStr us) i = fmerge_terms s (map TStr us) i.
Proof.
  intros H. unfold fmerge_set_with_index. assert (E : term_strings (map TStr us) = Some us) by (clear H; induction us as [|a l IH]; cbn; [|rewrite IH]; reflexivity). rewrite E.
  destruct H as [H|(H1 & c & H)]; rewrite H; [|rewrite H1]; reflexivity.
Qed.

Lemma core_nocas ord ordn F s f : lawful ord -> QI F s -> (forall g, In g F -> flow_ok g) -> flow_ok f -> qf_cas f = "" -> the_core ord ordn s f.
Proof.
  intros LO Q OK OF Z. left. pose proof (q_wf _ _ Q) as W. pose proof OF as (NO & _ & _ & _). pose proof NO as (N1 & N2 & N3). rewrite Z.
  unfold fadd_set. rewrite find2 by (auto; intros X; apply N1; rewrite <- X; reflexivity).
  change (norm "") with "". rewrite (no_key_empty F s Q OK).
  assert (TC : forall k, touched s f k <-> D s (norm (qf_name f)) = Some k).
  { intros k. split; [intros (x & [->|[X _]] & E); [exact E|congruence]|intros E; eexists; split; [apply in_catoms_name|exact E]]. }
  remember (D s (norm (qf_name f))) as dn eqn:DN. symmetry in DN. destruct dn as [i|].
  - (* known name *) rewrite (ord1 ord _ LO). change [TStr ""] with (map TStr [""]). rewrite set_with_index_plain by (left; reflexivity). cbn [map fmerge_terms]. rewrite fnew_empty.
    exists s, i, (Some i). split; [reflexivity|]. destruct (q_syn _ _ Q _ _ DN) as (ts & S1 & S2 & S3).
    apply (step_extend F s f s i ts ts); auto; try congruence.
    + left. split; [apply TC; reflexivity|]. split; [|exact S1]. intros k T. apply TC in T. congruence.
    + intros x. destruct (catoms_dec f x) as [[->|[X _]]|]; [exact DN|congruence|reflexivity].
    + intros _. rewrite DN. reflexivity.
  - (* new name *)
    destruct (new_item_view s W) as (B0 & B1 & B2 & B3 & B4 & B5). destruct (fnew_item s) as [s0 n] eqn:NI. cbn [fst snd] in *. subst n. set (n := length (s_items (f_base s))) in *.
    destruct (add_name s0 (qf_name f) n []) as (s1 & E1 & W1 & D1 & Y1 & C1 & M1 & _); auto.
    { rewrite B3, Nat.eqb_refl. reflexivity. } { apply name_ne; auto. } { rewrite B2. exact DN. }
    assert (FS : fnew_set s (ord [TStr ""; TStr (qf_name f)]) = (s1, FOk (Some n))).
    { unfold fnew_set. assert (FM : forall us, us = [""; qf_name f] \/ us = [qf_name f; ""] -> fmerge_set_with_index s0 (map TStr us) n = (s1, FOk tt)).
      { intros us U. rewrite set_with_index_plain. 2:{ left. apply find_cas_none. intros t IT. destruct U as [-> | ->]; destruct IT as [<-|[<-|[]]]; auto. }
        destruct U as [-> | ->]; cbn [map fmerge_terms]; [rewrite fnew_empty, E1|rewrite E1, fnew_empty]; reflexivity. }
      destruct (ord2 ord (TStr "") (TStr (qf_name f)) LO) as [-> | ->]; rewrite NI;
        [change [TStr ""; TStr (qf_name f)] with (map TStr [""; qf_name f])|change [TStr (qf_name f); TStr ""] with (map TStr [qf_name f; ""])]; rewrite FM by auto; reflexivity. }
    rewrite FS. exists s1, n, (Some n). split; [reflexivity|].
    apply (step_extend F s f s1 n [] (set_add (qf_name f) [])); auto; try congruence.
    + right. split; [intros k T; apply TC in T; discriminate|]. split; reflexivity.
    + intros x. rewrite D1, B2. destruct (eqb_spec x (norm (qf_name f))) as [->|NX]; destruct (catoms_dec f _) as [[A|[A _]]|A]; try congruence. exfalso. apply A, in_catoms_name.
    + rewrite Y1, Nat.eqb_refl. reflexivity.
    + intros t IT. apply In_set_add in IT as [->|[]]. left. apply in_catoms_name.
    + intros t [].
    + intros _ _. left. reflexivity.
    + intros _. rewrite DN, C1, B4. unfold item_cas. destruct W as [_ LN]. rewrite (proj2 (nth_error_None (f_cas s) n)) by (subst n; lia). reflexivity.
    + intros k NK. rewrite Y1, B3, C1, B4, M1, B5 by auto. destruct (Nat.eqb_spec k n); [contradiction|]. auto.
Qed.
Lemma cas_item F s c d : QI F s -> (forall g, In g F -> flow_ok g) -> canonical c -> D s c = Some d -> item_cas s d = Some (padded c).
Proof.
  intros Q OK C E. destruct (q_own _ _ Q _ _ E) as (g & I & A).
  assert (X : c = padded c \/ c = trim_cas c) by apply C. destruct (cas_atom g c c (OK g I) C X A) as [NE TR]. destruct (q_flow _ _ Q g I) as (k & K). pose proof (K c A) as K0. rewrite E in K0. injection K0 as <-.
  rewrite (q_cas1 _ _ Q g d I NE) by (apply K, in_atoms_name). f_equal. apply padded_eq_trim. exact TR.
Qed.
Lemma cas_known F s c x k p : QI F s -> (forall g, In g F -> flow_ok g) -> canonical c -> D s x = Some k -> item_cas s k = Some p -> trim_cas p = trim_cas c -> D s (padded c) = Some k.
Proof.
  intros Q OK C E IC TR. destruct (q_cas2 _ _ Q _ _ _ E IC) as (g & IG & KG & NE & ->). rewrite trim_padded in TR. destruct (q_flow _ _ Q g IG) as (m & M).
  pose proof (M _ (in_atoms_name g)) as M0. rewrite KG in M0. injection M0 as <-. apply M. left. right. split; [exact NE|]. left. symmetry. apply padded_eq_trim. exact TR.
Qed.
Lemma core_cas ord ordn F s f : lawful ord -> lawful ordn -> QI F s -> (forall g, In g F -> flow_ok g) -> flow_ok f -> canonical (qf_cas f) -> the_core ord ordn s f.
Proof.
  intros LO LN Q OK OF C. pose proof (q_wf _ _ Q) as W. pose proof OF as (NO & _ & _ & _). pose proof NO as (N1 & N2 & N3). unfold the_core. cbv zeta.
  set (c := qf_cas f) in *. set (n := qf_name f) in *. assert (NZ : c <> "") by (apply canonical_ne; exact C).
  assert (MC : cas_match c = true) by apply C.
  assert (CN : c <> n) by congruence. pose proof (canonical_norm c C) as NC.
  pose proof (cas_keys F s c Q OK C) as KEYS.
  assert (DP : D s (padded c) = D s c) by (destruct C as (_ & _ & [X|X]); [congruence|rewrite X at 2; exact KEYS]).
  assert (DT : D s (trim_cas c) = D s c) by congruence.
  assert (NP : forall x, catoms f x -> x = norm n \/ x = padded c \/ x = trim_cas c) by (intros x [X|[_ [X|X]]]; auto).
  assert (PN : forall x, x = norm n \/ x = padded c \/ x = trim_cas c -> catoms f x) by (intros x [X|[X|X]]; [left|right|right]; auto).
  assert (NPn : norm n <> padded c) by (intros X; rewrite X, padded_match in N2 by exact MC; discriminate).
  assert (NTn : norm n <> trim_cas c) by (intros X; rewrite X, trim_match in N2 by exact MC; discriminate).
  assert (TC : forall k, touched s f k <-> D s (norm n) = Some k \/ D s c = Some k).
  { intros k. split.
    - intros (x & A & E). apply NP in A as [->|[-> | ->]]; [left|right|right]; congruence.
    - intros [E|E]; [exists (norm n)|exists (padded c)]; (split; [apply PN; auto|congruence]). }
  assert (IFC : forall x (A B : option nat), (if catoms_dec f x then A else B) = if eqb x (norm n) || (eqb x (padded c) || eqb x (trim_cas c)) then A else B).
  { intros x A B. destruct (catoms_dec f x) as [X|X].
    - apply NP in X as [->|[-> | ->]]; rewrite eqb_refl; cbn [orb]; rewrite ?orb_true_r; reflexivity.
    - destruct (eqb_spec x (norm n)); [exfalso; auto|]. destruct (eqb_spec x (padded c)); [exfalso; auto|]. destruct (eqb_spec x (trim_cas c)); [exfalso; auto|]. reflexivity. }
  unfold fadd_set. rewrite find2 by auto. rewrite NC.
  remember (D s c) as dc eqn:EC. symmetry in EC. remember (D s (norm n)) as dn eqn:EN. symmetry in EN. destruct dc as [d|], dn as [j|].
  - (* both known *) destruct (Nat.eqb_spec d j) as [<-|NJ].
    + (* the same item *) left. assert (ord [] = []) as -> by (apply Permutation_nil; symmetry; apply LO). cbn. exists s, d, (Some d). split; [reflexivity|].
      destruct (q_syn _ _ Q _ _ EC) as (ts & S1 & S2 & S3). pose proof (cas_item F s c d Q OK C EC) as IC.
      apply (step_extend F s f s d ts ts); fold c; auto; try congruence.
      * left. split; [apply TC; auto|]. split; [|exact S1]. intros k [T|T]%TC; congruence.
      * intros x. destruct (catoms_dec f x) as [X|X]; [|reflexivity]. apply NP in X as [->|[-> | ->]]; congruence.
    + (* two items *) pose proof (cas_item F s c d Q OK C EC) as IC. pose proof (padded_nonempty c MC) as PNE. destruct (item_cas s j) as [q|] eqn:IJ.
      * right; right; right. split; [|split; [reflexivity|exists s; apply (merge_conflict ordn s c n d j (padded c) q); auto; [rewrite NC; exact EC|]]].
        -- exists j, q. split; [exact NZ|]. split; [apply TC; auto|]. split; [exact IJ|]. fold c. intros ->. pose proof (cas_known F s c _ _ _ Q OK C EN IJ (trim_padded c)). congruence.
        -- destruct (q_cas2 _ _ Q _ _ _ EN IJ) as (g & IG & _ & NG & ->). apply padded_nonempty. destruct (OK g IG) as (_ & _ & [X|X] & _); [contradiction|apply X].
      * right; left. split; [reflexivity|]. destruct (q_syn _ _ Q _ _ EC) as (td & SD1 & SD2 & _). destruct (q_syn _ _ Q _ _ EN) as (tj & SJ1 & SJ2 & SJ3).
        destruct (merge_view ordn s c n d j (padded c) td tj) as (s1 & E1 & W1 & D1 & Y1 & C1 & M1); auto; [rewrite NC; exact EC|].
        exists s1, d. split; [exact E1|].
        assert (DJ : forall x, D s x = Some j -> D s1 x = Some d).
        { intros x E. rewrite D1. assert (X : mem x (map norm (set_union td tj)) = true); [|rewrite X; reflexivity]. apply mem_In. specialize (SJ3 IJ x E). apply in_map_iff in SJ3 as (t & <- & IT). apply in_map. apply In_set_union. auto. }
        assert (DD : forall x, D s x = Some d -> D s1 x = Some d) by (intros x E; rewrite D1; destruct (mem x _); auto).
        assert (DO : forall x, D s x <> Some d -> D s x <> Some j -> D s1 x = D s x).
        { intros x E E'. rewrite D1. destruct (mem x (map norm (set_union td tj))) eqn:X; [|reflexivity]. apply mem_In in X. apply in_map_iff in X as (t & <- & IT). apply In_set_union in IT as [IT|IT]; [apply SD2 in IT|apply SJ2 in IT]; contradiction. }
        split; [|split; [apply TC; auto|apply M1; auto]]. constructor.
        -- exact W1.
        -- intros x. split; [intros A; apply NP in A as [->|[-> | ->]]; [apply DJ; exact EN|apply DD; congruence|apply DD; congruence]|]. split; [|split].
           ++ intros k _ E T. apply TC in T as [T|T]; injection T as <-; auto.
           ++ intros k _ E T. assert (k <> d /\ k <> j) as [K1 K2] by (split; intros ->; apply T, TC; auto). split; [|exact K1]. rewrite DO by congruence. exact E.
           ++ intros _ E. rewrite DO by congruence. exact E.
        -- left. apply TC. auto.
        -- intros k x E T ->. apply T, TC. auto.
        -- exists (set_union td tj). split; [rewrite Y1, Nat.eqb_refl by auto; reflexivity|]. split.
           ++ intros t IT. apply In_set_union in IT as [IT|IT]; [apply DD; auto|apply DJ; auto].
           ++ rewrite C1, IC. discriminate.
        -- intros _. rewrite C1. exact IC.
        -- fold c. congruence.
        -- intros k p _ T X. fold c. apply TC in T as [T|T]; injection T as <-; congruence.
        -- intros k x E T. assert (k <> d /\ k <> j) as [K1 K2] by (split; intros ->; apply T, TC; auto). rewrite Y1, C1, M1 by auto. destruct (Nat.eqb_spec k d); [contradiction|auto].
  - (* the CAS number is known *) left. rewrite (ord1 ord _ LO). change [TStr n] with (map TStr [n]). rewrite set_with_index_plain by (left; rewrite find_cas_singleton, N3; reflexivity). cbn [map fmerge_terms].
    destruct (q_syn _ _ Q _ _ EC) as (ts & S1 & S2 & S3). pose proof (cas_item F s c d Q OK C EC) as IC.
    destruct (add_name s n d ts) as (s1 & E1 & W1 & D1 & Y1 & C1 & M1 & _); auto; [apply name_ne; auto|]. rewrite E1. exists s1, d, (Some d). split; [reflexivity|].
    apply (step_extend F s f s1 d ts (set_add n ts)); fold c; auto; try congruence.
    + left. split; [apply TC; auto|]. split; [|exact S1]. intros k [T|T]%TC; congruence.
    + intros x. rewrite IFC, D1. destruct (eqb_spec x (norm n)); [reflexivity|]. cbn [orb]. destruct (eqb_spec x (padded c)); [cbn; congruence|]. destruct (eqb_spec x (trim_cas c)); [cbn; congruence|reflexivity].
    + rewrite Y1, Nat.eqb_refl. reflexivity.
    + intros t IT. apply In_set_add in IT as [->|IT]; [left; apply PN; auto|auto].
    + intros t IT. apply In_set_add. auto.
    + intros k NK. rewrite Y1, C1, M1 by auto. destruct (Nat.eqb_spec k d); [contradiction|auto].
  - (* the name is known *) rewrite (ord1 ord _ LO). destruct (q_syn _ _ Q _ _ EN) as (ts & S1 & S2 & S3). destruct (item_cas s j) as [q|] eqn:IJ.
    + right; right; left. assert (NQ : trim_cas q <> trim_cas c) by (intros X; pose proof (cas_known F s c _ _ _ Q OK C EN IJ X); congruence).
      split.
      * exists j, q. split; [exact NZ|]. split; [apply TC; auto|]. split; [exact IJ|]. fold c. intros ->. apply NQ, trim_padded.
      * exists s. unfold fmerge_set_with_index. cbn [term_strings option_map]. rewrite find_cas_singleton, MC, IJ, trim_idem. destruct (String.eqb_spec (trim_cas q) (trim_cas c)); [contradiction|reflexivity].
    + left. change [TStr c] with (map TStr [c]). rewrite set_with_index_plain by (right; split; [exact IJ|exists (trim_cas c); rewrite find_cas_singleton, MC; reflexivity]). cbn [map fmerge_terms].
      destruct (add_cas s c j ts) as (s1 & E1 & W1 & D1 & Y1 & C1 & M1 & _); auto; try congruence. rewrite E1. exists s1, j, (Some j). split; [reflexivity|].
      apply (step_extend F s f s1 j ts (set_add c (set_add (trim_cas c) ts))); fold c; auto; try congruence.
      * left. split; [apply TC; auto|]. split; [|exact S1]. intros k [T|T]%TC; congruence.
      * intros x. rewrite IFC, D1. destruct (eqb_spec x (norm n)) as [->|]; [|reflexivity]. cbn [orb]. destruct (eqb (norm n) (padded c) || eqb (norm n) (trim_cas c)); congruence.
      * rewrite Y1, Nat.eqb_refl. reflexivity.
      * intros t IT. apply In_set_add in IT as [->|IT]; [left; rewrite NC; apply PN; right; apply C|]. apply In_set_add in IT as [->|IT]; [left; rewrite canonical_trim_norm by exact C; apply PN; auto|auto].
      * intros t IT. apply In_set_add. right. apply In_set_add. auto.
      * intros _. rewrite C1, Nat.eqb_refl. reflexivity.
      * intros k NK. rewrite Y1, C1, M1 by auto. destruct (Nat.eqb_spec k j); [contradiction|auto].
  - (* a new item *) left. 
    destruct (new_item_view s W) as (B0 & B1 & B2 & B3 & B4 & B5). destruct (fnew_item s) as [s0 m] eqn:NI. cbn [fst snd] in *. subst m. set (m := length (s_items (f_base s))) in *.
    assert (IM : item_cas s0 m = None). { rewrite B4. unfold item_cas. destruct W as [_ LNN]. rewrite (proj2 (nth_error_None (f_cas s) m)) by (subst m; lia). reflexivity. }
    assert (SM : syns_at s0 m = Some (Some [])) by (rewrite B3, Nat.eqb_refl; reflexivity).
    assert (R : exists s1 ts1, fmerge_set_with_index s0 (ord [TStr c; TStr n]) m = (s1, FOk tt) /\ wf s1
       /\ (forall x, D s1 x = if eqb x (norm n) || (eqb x (padded c) || eqb x (trim_cas c)) then Some m else D s0 x)
       /\ (forall k, syns_at s1 k = if Nat.eqb k m then Some (Some ts1) else syns_at s0 k) /\ (forall t, In t ts1 -> t = n \/ t = c \/ t = trim_cas c)
       /\ (forall k, item_cas s1 k = if Nat.eqb k m then Some (padded c) else item_cas s0 k) /\ (forall k, k <> m -> nm s1 k = nm s0 k)).
    { destruct (ord2 ord (TStr c) (TStr n) LO) as [-> | ->].
      - change [TStr c; TStr n] with (map TStr [c; n]). rewrite set_with_index_plain by (right; split; [exact IM|exists (trim_cas c); apply (find_cas_one c n); auto]). cbn [map fmerge_terms].
        destruct (add_cas s0 c m []) as (s1 & E1 & W1 & D1 & Y1 & C1 & M1 & _); auto; [rewrite B2; congruence|rewrite B2; congruence|]. rewrite E1.
        destruct (add_name s1 n m (set_add c (set_add (trim_cas c) []))) as (s2 & E2 & W2 & D2 & Y2 & C2 & M2 & _); auto.
        { rewrite Y1, Nat.eqb_refl. reflexivity. } { apply name_ne; auto. }
        { rewrite D1, B2. destruct (eqb_spec (norm n) (padded c)); [contradiction|]. destruct (eqb_spec (norm n) (trim_cas c)); [contradiction|]. exact EN. }
        rewrite E2. exists s2, (set_add n (set_add c (set_add (trim_cas c) []))). split; [reflexivity|]. split; [exact W2|]. split.
        { intros x. rewrite D2, D1. destruct (eqb x (norm n)); reflexivity. }
        split; [intros k; rewrite Y2, Y1; destruct (Nat.eqb k m); reflexivity|]. split.
        { intros t IT. apply In_set_add in IT as [->|IT]; [auto|]. apply In_set_add in IT as [->|IT]; [auto|]. apply In_set_add in IT as [->|[]]. auto. }
        split; [intros k; rewrite C2, C1; reflexivity|]. intros k NK. rewrite M2, M1 by auto. reflexivity.
      - change [TStr n; TStr c] with (map TStr [n; c]). rewrite set_with_index_plain by (right; split; [exact IM|exists (trim_cas c); apply (find_cas_one c n); auto; left; constructor]). cbn [map fmerge_terms].
        destruct (add_name s0 n m []) as (s1 & E1 & W1 & D1 & Y1 & C1 & M1 & _); auto. { apply name_ne; auto. } { rewrite B2. exact EN. } rewrite E1.
        destruct (add_cas s1 c m (set_add n [])) as (s2 & E2 & W2 & D2 & Y2 & C2 & M2 & _); auto.
        { rewrite Y1, Nat.eqb_refl. reflexivity. }
        { rewrite D1, B2. destruct (eqb_spec (padded c) (norm n)); congruence. } { rewrite D1, B2. destruct (eqb_spec (trim_cas c) (norm n)); congruence. } { rewrite C1. exact IM. }
        rewrite E2. exists s2, (set_add c (set_add (trim_cas c) (set_add n []))). split; [reflexivity|]. split; [exact W2|]. split.
        { intros x. rewrite D2, D1. destruct (eqb x (norm n)), (eqb x (padded c)), (eqb x (trim_cas c)); reflexivity. }
        split; [intros k; rewrite Y2, Y1; destruct (Nat.eqb k m); reflexivity|]. split.
        { intros t IT. apply In_set_add in IT as [->|IT]; [auto|]. apply In_set_add in IT as [->|IT]; [auto|]. apply In_set_add in IT as [->|[]]. auto. }
        split; [intros k; rewrite C2, C1; reflexivity|]. intros k NK. rewrite M2, M1 by auto. reflexivity. }
    destruct R as (s1 & ts1 & E1 & W1 & D1 & Y1 & T1 & C1 & M1).
    assert (FS : fnew_set s (ord [TStr c; TStr n]) = (s1, FOk (Some m))).
    { unfold fnew_set. destruct (ord2 ord (TStr c) (TStr n) LO) as [O|O]; rewrite O in *; rewrite NI, E1; reflexivity. }
    rewrite FS. exists s1, m, (Some m). split; [reflexivity|].
    apply (step_extend F s f s1 m [] ts1); fold c; auto; try congruence.
    + right. split; [intros k [T|T]%TC; discriminate|]. split; reflexivity.
    + intros x. rewrite IFC, D1, B2. reflexivity.
    + rewrite Y1, Nat.eqb_refl. reflexivity.
    + intros t IT. left. apply T1 in IT as [->|[-> | ->]]; [apply PN; auto|rewrite NC; apply PN; right; apply C|rewrite canonical_trim_norm by exact C; apply PN; auto].
    + intros t [].
    + intros _. rewrite C1, Nat.eqb_refl. reflexivity.
    + intros k NK. rewrite Y1, B3, C1, B4, M1, B5 by auto. destruct (Nat.eqb_spec k m); [contradiction|auto].
Qed.

(** ** The name and the link *)
Lemma step_view A s f s1 s2 i : Step A s f s1 i -> wf s2 -> (forall x, D s2 x = D s1 x) -> (forall k, syns_at s2 k = syns_at s1 k) -> (forall k, item_cas s2 k = item_cas s1 k) ->
  (forall k, k <> i -> nm s2 k = nm s1 k) -> Step A s f s2 i.
Proof.
  intros P W HD HS HC HN. constructor.
  - exact W.
  - intros x. rewrite HD. apply (p_D _ _ _ _ _ P).
  - apply (p_i _ _ _ _ _ P).
  - apply (p_ne _ _ _ _ _ P).
  - destruct (p_syn _ _ _ _ _ P) as (ts & S1 & S2 & S3). exists ts. rewrite HS, HC. split; [exact S1|]. split; [intros t IT; rewrite HD; auto|]. intros NC y. rewrite HD. auto.
  - rewrite HC. apply (p_cas _ _ _ _ _ P).
  - rewrite HC. apply (p_nocas _ _ _ _ _ P).
  - apply (p_compat _ _ _ _ _ P).
  - intros k x E T. rewrite HS, HC. destruct (p_other _ _ _ _ _ P k x E T) as (O1 & O2 & O3). split; [exact O1|]. split; [exact O2|]. rewrite HN; [exact O3|]. eapply (p_ne _ _ _ _ _ P); eauto.
Qed.
Lemma link_not_catom f : flow_ok f -> ~ catoms f (norm (qf_link f)).
Proof.
  intros (_ & (_ & LM & _) & CO & NL) [X|[NE X]]; [contradiction|]. destruct CO as [CO|CO]; [contradiction|].
  destruct X as [X|X]; rewrite X in LM; [rewrite padded_match in LM by apply CO|rewrite canon_trim_match in LM by exact CO]; discriminate.
Qed.
Lemma link_step ord s f s1 i nx : lawful ord -> flow_ok f -> D s (norm (qf_link f)) = None -> Step (catoms f) s f s1 i -> nm s1 i = Some nx -> cas_match nx = false ->
  exists s2, fadd_set ord s1 [TStr (qf_name f); TStr (qf_link f)] true = (s2, FOk (Some i)) /\ Step (atoms f) s f s2 i /\ nm s2 i = Some nx.
Proof.
  intros LO OF LF P NM CX. pose proof OF as ((N1 & N2 & N3) & (L1 & L2 & L3) & CO & NL). pose proof (link_not_catom f OF) as LC. pose proof (p_wf _ _ _ _ _ P) as W1.
  assert (DN : D s1 (norm (qf_name f)) = Some i) by (apply (proj1 (p_D _ _ _ _ _ P _)), in_catoms_name).
  assert (DL : D s1 (norm (qf_link f)) = None) by (destruct (p_D _ _ _ _ _ P (norm (qf_link f))) as (_ & _ & _ & P4); auto).
  unfold fadd_set. rewrite find2 by congruence || auto. rewrite DN, DL. rewrite (ord1 ord _ LO). change [TStr (qf_link f)] with (map TStr [qf_link f]).
  rewrite set_with_index_plain by (left; rewrite find_cas_singleton, L3; reflexivity). cbn [map fmerge_terms].
  destruct (p_syn _ _ _ _ _ P) as (ts & S1 & S2 & S3).
  destruct (add_name s1 (qf_link f) i ts) as (s2 & E2 & W2 & D2 & Y2 & C2 & M2 & M3); auto; [intros X; apply L1; rewrite X; reflexivity|].
  rewrite E2. exists s2. split; [reflexivity|]. split; [|apply M3; auto]. constructor.
  - exact W2.
  - intros x. rewrite D2. destruct (p_D _ _ _ _ _ P x) as (P1 & P2 & P3 & P4). destruct (eqb_spec x (norm (qf_link f))) as [->|NX].
    + split; [reflexivity|]. split; [|split]; intros; exfalso; apply H; right; reflexivity.
    + assert (NA : ~ atoms f x -> ~ catoms f x) by (intros H H'; apply H; left; exact H').
      split; [intros [A|A]; [auto|contradiction]|]. split; [|split]; intros; eauto.
  - apply (p_i _ _ _ _ _ P).
  - apply (p_ne _ _ _ _ _ P).
  - exists (set_add (qf_link f) ts). rewrite Y2, Nat.eqb_refl, C2. split; [reflexivity|]. split.
    + intros t IT. rewrite D2. destruct (eqb_spec (norm t) (norm (qf_link f))); [reflexivity|]. apply In_set_add in IT as [->|IT]; [contradiction|auto].
    + intros NC y. rewrite D2. destruct (eqb_spec y (norm (qf_link f))) as [->|NY]; intros EY.
      * apply in_map, In_set_add. auto.
      * specialize (S3 NC y EY). apply in_map_iff in S3 as (t & <- & IT). apply in_map, In_set_add. auto.
  - rewrite C2. apply (p_cas _ _ _ _ _ P).
  - rewrite C2. apply (p_nocas _ _ _ _ _ P).
  - apply (p_compat _ _ _ _ _ P).
  - intros k x E T. pose proof (p_ne _ _ _ _ _ P k x E T) as NK. rewrite Y2, C2, M2 by exact NK. destruct (Nat.eqb_spec k i); [contradiction|]. apply (p_other _ _ _ _ _ P k x E T).
Qed.
(** ** One flow *)
Lemma one_flow ord ordn F s f : lawful ord -> lawful ordn -> QI F s -> (forall g, In g F -> flow_ok g) -> flow_ok f -> (forall g, In g F -> norm (qf_link g) <> norm (qf_name f)) ->
  D s (norm (qf_link f)) = None ->
  (exists s', init_one ord ordn s f = (s', FOk tt) /\ QI (F ++ [f]) s') \/ (clash s f /\ exists s', init_one ord ordn s f = (s', FErr ConflictingCas)).
Proof.
  intros LO LN Q OK OF FR LF. pose proof OF as ((N1 & N2 & N3) & _ & CO & _).
  assert (K : the_core ord ordn s f) by (destruct CO as [CO|CO]; [apply (core_nocas ord ordn F)|apply (core_cas ord ordn F)]; auto).
  unfold init_one. destruct K as [(s1 & i & r & E & P)|[(E & s1 & d & E1 & P & T & NM)|[(CL & s' & E)|(CL & E & s' & E1)]]]; rewrite E.
  - left. assert (DN : D s1 (norm (qf_name f)) = Some i) by (apply (proj1 (p_D _ _ _ _ _ P _)), in_catoms_name).
    destruct (p_syn _ _ _ _ _ P) as (ts & S1 & _). apply syns_item in S1 as (it & NI & _).
    destruct (set_name_view s1 (qf_name f) i it (p_wf _ _ _ _ _ P) DN NI) as (s2 & E2 & W2 & D2 & Y2 & C2 & M2 & M3). rewrite E2.
    assert (P2 : Step (catoms f) s f s2 i) by (eapply step_view; eauto).
    destruct (link_step ord s f s2 i (qf_name f) LO OF LF P2 M2 N3) as (s3 & E3 & P3 & M4). rewrite E3. exists s3. split; [reflexivity|]. apply (step_QI F s f s3 i); auto.
  - left. rewrite E1. destruct T as (x & A & DX). destruct (q_name _ _ Q _ _ DX) as (g & IG & KG & HN). destruct (OK g IG) as ((_ & _ & G3) & _).
    destruct (link_step ord s f s1 d (qf_name g) LO OF LF P) as (s3 & E3 & P3 & M4); [congruence|exact G3|]. rewrite E3. exists s3. split; [reflexivity|].
    apply (step_QI F s f s3 d); auto. right. exists d. split; [exists x; auto|congruence].
  - right. split; [exact CL|]. exists s'. reflexivity.
  - right. split; [exact CL|]. rewrite E1. exists s'. reflexivity.
Qed.
(** flows with distinct links that are no names *)
Definition flows_ok (fs : list qflow) : Prop :=
  (forall f, In f fs -> flow_ok f) /\ NoDup (map (fun f => norm (qf_link f)) fs) /\ (forall f g, In f fs -> In g fs -> norm (qf_link f) <> norm (qf_name g)).
(** two flows of one class with different CAS numbers *)
Definition conflict (fs : list qflow) : Prop := exists f g, same fs f g /\ qf_cas f <> "" /\ qf_cas g <> "" /\ trim_cas (qf_cas f) <> trim_cas (qf_cas g).
Lemma QI_empty : QI [] fempty.
Proof. constructor; cbn; try (intros; contradiction); try (intros; discriminate). split; reflexivity. Qed.
Lemma link_fresh F s f : QI F s -> (forall g, In g F -> flow_ok g) -> flow_ok f -> ~ In (norm (qf_link f)) (map (fun f => norm (qf_link f)) F) ->
  (forall g, In g F -> norm (qf_link f) <> norm (qf_name g)) -> D s (norm (qf_link f)) = None.
Proof.
  intros Q OK OF NI NN. destruct (D s (norm (qf_link f))) as [i|] eqn:E; [|reflexivity]. exfalso. destruct (q_own _ _ Q _ _ E) as (g & IG & A).
  destruct A as [[A|[NE A]]|A].
  - apply (NN g IG A).
  - destruct OF as (_ & (_ & LM & _) & _). destruct (OK g IG) as (_ & _ & [CO|CO] & _); [contradiction|].
    destruct A as [X|X]; rewrite X in LM; [rewrite padded_match in LM by apply CO|rewrite canon_trim_match in LM by exact CO]; discriminate.
  - apply NI. rewrite A. apply (in_map (fun f => norm (qf_link f))). exact IG.
Qed.
Lemma same_index F s f g : QI F s -> (forall h, In h F -> flow_ok h) -> same F f g -> D s (norm (qf_name f)) = D s (norm (qf_name g)).
Proof.
  intros Q OK. induction 1 as [|a b h S IH I SH]; [reflexivity|]. rewrite IH. destruct SH as [->|(NB & NH & TR)]; [reflexivity|].
  apply same_in in S as [_ IB]. destruct (q_flow _ _ Q b IB) as (i & HI). destruct (q_flow _ _ Q h I) as (j & HJ).
  assert (i = j). { pose proof (HI (trim_cas (qf_cas b)) (or_introl (or_intror (conj NB (or_intror eq_refl))))) as X. pose proof (HJ (trim_cas (qf_cas h)) (or_introl (or_intror (conj NH (or_intror eq_refl))))) as Y. rewrite TR in X. congruence. }
  subst j. rewrite (HI _ (in_atoms_name b)), (HJ _ (in_atoms_name h)). reflexivity.
Qed.
Lemma QI_consistent F s : QI F s -> (forall h, In h F -> flow_ok h) -> ~ conflict F.
Proof.
  intros Q OK (f & g & S & NF & NG & NE). pose proof (same_index F s f g Q OK S) as E. apply same_in in S as [IF IG]. destruct (q_flow _ _ Q f IF) as (i & HI).
  pose proof (HI _ (in_atoms_name f)) as X. pose proof (q_cas1 _ _ Q f i IF NF X) as C1. pose proof (q_cas1 _ _ Q g i IG NG (eq_trans (eq_sym E) X)) as C2. rewrite C1 in C2. injection C2 as C2. apply NE. apply padded_eq_trim. exact C2.
Qed.
Lemma clash_conflict F s f : QI F s -> (forall h, In h F -> flow_ok h) -> flow_ok f -> (forall g, In g F -> norm (qf_link g) <> norm (qf_name f)) -> clash s f -> conflict (F ++ [f]).
Proof.
  intros Q OK OF FR (k & p & NF & T & IC & NP). destruct (touched_share F s f k Q OK OF FR T) as (g & IG & KG & SH). destruct (q_cas2 _ _ Q _ _ _ KG IC) as (h & IH & KH & NH & ->).
  exists h, f. split; [|split; [exact NH|split; [exact NF|intros X; apply NP, padded_eq_trim; exact X]]].
  eapply same_step; [|apply in_or_app; right; left; reflexivity|exact SH]. apply (same_mono F); [intros; apply in_or_app; auto|]. apply (q_same _ _ Q); auto. congruence.
Qed.
Lemma conflict_mono F G : (forall x, In x F -> In x G) -> conflict F -> conflict G.
Proof. intros S (f & g & X & Y). exists f, g. split; [eapply same_mono; eauto|exact Y]. Qed.
Lemma init_spec ord ordn : lawful ord -> lawful ordn -> forall fs F s, QI F s -> flows_ok (F ++ fs) ->
  match init_from ord ordn s fs with FOk s' => QI (F ++ fs) s' | FErr e => e = ConflictingCas /\ conflict (F ++ fs) end.
Proof.
  intros LO LN fs. induction fs as [|f fs IH]; intros F s Q (OK & ND & LN').
  - cbn. rewrite app_nil_r. exact Q.
  - cbn [init_from].
    assert (OKF : forall g, In g F -> flow_ok g) by (intros g I; apply OK, in_or_app; auto).
    assert (OF : flow_ok f) by (apply OK, in_or_app; right; left; reflexivity).
    assert (INF : In f (F ++ f :: fs)) by (apply in_or_app; right; left; reflexivity).
    assert (FR : forall g, In g F -> norm (qf_link g) <> norm (qf_name f)) by (intros g I; apply LN'; [apply in_or_app; auto|exact INF]).
    assert (LF : D s (norm (qf_link f)) = None).
    { apply (link_fresh F); auto; [|intros g I; apply LN'; [exact INF|apply in_or_app; auto]]. rewrite map_app in ND. cbn [map] in ND. apply NoDup_remove_2 in ND. intros X. apply ND, in_or_app. auto. }
    destruct (one_flow ord ordn F s f LO LN Q OKF OF FR LF) as [(s' & E & Q')|(CL & s' & E)]; rewrite E.
    + replace (F ++ f :: fs) with ((F ++ [f]) ++ fs) in * by (rewrite <- app_assoc; reflexivity). apply IH; [exact Q'|]. split; [exact OK|]. split; [exact ND|exact LN'].
    + split; [reflexivity|]. eapply conflict_mono; [|eapply clash_conflict; eauto]. intros x I. apply in_app_or in I as [I|[<-|[]]]; [apply in_or_app; auto|exact INF].
Qed.

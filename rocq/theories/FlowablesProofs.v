From Verif Require Import Base PyStr SynListModel SynListProofs CasModel CasProofs FlowablesModel.
Open Scope string_scope.
Open Scope nat_scope.
Open Scope list_scope.
Arguments fsan : simpl never.

Lemma pad_padded k : cas_match k = true -> pad k = padded k.
Proof. intros M. unfold pad. rewrite (pad_cas_spec k 6 M) by lia. reflexivity. Qed.

(** sanitizing commutes with trimming / padding of sanitized CAS strings *)
Definition clean (k : string) : Prop := lower (strip k) = k.
Lemma zeros_inj n s t : (zeros n ++ s)%string = (zeros n ++ t)%string -> s = t.
Proof. induction n as [|n IH]; cbn; auto. intros E. injection E as E. auto. Qed.
Lemma digit_not_space c : is_digit c = true -> is_space c = false.
Proof.
  intros D. pose proof (for_all_ascii (fun c => implb (is_digit c) (negb (is_space c)))) as F.
  specialize (F ltac:(vm_compute; reflexivity) c). cbn beta in F. rewrite D in F. cbn in F. apply negb_true_iff; exact F.
Qed.
Lemma cas_head k : cas_match k = true -> exists c r, k = String c r /\ is_space c = false.
Proof.
  destruct k as [|c r]; [discriminate|]. intros M. exists c, r. split; [reflexivity|].
  apply cas_match_spec in M as [_ T]. cbn in T. destruct (is_digit c) eqn:D; [apply digit_not_space; exact D|].
  cbn in T. destruct r as [|a [|b [|d2 [|e r]]]]; try discriminate. rewrite !andb_true_iff in T. decompose [and] T.
  destruct (Ascii.eqb_spec c dash) as [->|]; [reflexivity|discriminate].
Qed.
Lemma cas_lstrip k : cas_match k = true -> lstrip k = k.
Proof. intros M. destruct (cas_head k M) as (c & r & -> & S). cbn. rewrite S. reflexivity. Qed.
Lemma rstrip_zeros n s : s <> "" -> rstrip s <> "" -> rstrip (zeros n ++ s)%string = (zeros n ++ rstrip s)%string.
Proof.
  intros N1 N2. induction n as [|n IH]; cbn; [reflexivity|]. rewrite IH. destruct n; cbn; [|reflexivity].
  destruct (rstrip s); [congruence|reflexivity].
Qed.
Lemma lower_zeros n s : lower (zeros n ++ s)%string = (zeros n ++ lower s)%string.
Proof. induction n as [|n IH]; cbn; [reflexivity|]. rewrite IH. reflexivity. Qed.
Lemma rstrip_nonempty k : cas_match k = true -> rstrip k <> "".
Proof.
  intros M. destruct (cas_head k M) as (c & r & -> & S). cbn. destruct (rstrip r); [rewrite S|]; discriminate.
Qed.
Lemma clean_zeros n k : cas_match k = true -> cas_match (zeros n ++ k) = true -> clean (zeros n ++ k) <-> clean k.
Proof.
  intros M M2. unfold clean, strip. rewrite (cas_lstrip k M), (cas_lstrip _ M2).
  rewrite rstrip_zeros by (apply cas_nonempty in M as ?; try apply rstrip_nonempty; auto).
  rewrite lower_zeros. split; [apply zeros_inj|intros ->; reflexivity].
Qed.
Lemma clean_trim k : cas_match k = true -> clean k -> clean (trim_cas k).
Proof.
  intros M C. destruct (trim_decomp k) as [n E]. rewrite E in C. apply clean_zeros in C; auto.
  - apply trim_match; exact M.
  - rewrite <- E; exact M.
Qed.
Lemma clean_padded k : cas_match k = true -> clean k -> clean (padded k).
Proof.
  intros M C. unfold padded. apply clean_zeros.
  - apply trim_match; exact M.
  - apply strict_match. apply (padded_strict k M).
  - apply clean_trim; assumption.
Qed.
Lemma san_ic s k : s_ic s = true -> sanitize s k = lower (strip k).
Proof. intros IC. unfold sanitize. rewrite IC. reflexivity. Qed.
Lemma clean_san s k : s_ic s = true -> clean (sanitize s k).
Proof. intros IC. unfold clean, sanitize. rewrite IC. rewrite <- lower_strip, lower_idem, strip_idem. reflexivity. Qed.
Lemma san_clean s k : s_ic s = true -> clean k -> sanitize s k = k.
Proof. intros IC C. unfold sanitize. rewrite IC. exact C. Qed.

(** fallback lookup adds nothing *)
Lemma fget_index_str s k : s_ic (f_base s) = true ->
  fget_index s (TStr k) = match dget (fsan s k) (s_dict (f_base s)) with Some i => Ok i | None => Err KeyError end.
Proof.
  intros IC. unfold fget_index. cbn [get_index]. change (sanitize (f_base s) k) with (fsan s k).
  destruct (dget (fsan s k) (s_dict (f_base s))) eqn:D; [reflexivity|].
  destruct (3 <? String.length (strip k)); [|reflexivity].
  replace (sanitize (f_base s) (lower k)) with (fsan s k); [rewrite D; reflexivity|].
  unfold fsan, sanitize. rewrite IC. rewrite <- lower_strip, lower_idem. reflexivity.
Qed.

(** * One CAS number per live item *)
Definition PI (c : option string) (x : option (list string)) : Prop :=
  match x with
  | None => True
  | Some ts => (forall t, In t ts -> cas_match (lower (strip t)) = true -> c = Some (padded (lower (strip t)))) /\
               (forall p, c = Some p -> exists t, In t ts /\ cas_match (lower (strip t)) = true /\ p = padded (lower (strip t)))
  end.
Record FI (s : flowables) : Prop := {
  fi_ic : s_ic (f_base s) = true;
  fi_len : length (f_cas s) = length (s_items (f_base s));
  fi_pi : forall i it c, nth_error (s_items (f_base s)) i = Some it -> nth_error (f_cas s) i = Some c -> PI c (i_syns it)
}.

Lemma FI_empty : FI fempty.
Proof. split; cbn; auto. intros [|i] it c E; discriminate. Qed.
Lemma FI_new_item s : FI s -> FI (fst (fnew_item s)).
Proof.
  intros V. split; cbn.
  - apply V.
  - rewrite !app_length, (fi_len s V). reflexivity.
  - intros i it c. rewrite !nth_error_snoc, (fi_len s V). destruct (Nat.eqb i (length (s_items (f_base s)))).
    + intros E1 E2. injection E1 as <-. injection E2 as <-. cbn. split; [intros t []|discriminate].
    + apply (fi_pi s V).
Qed.

(** changing one item *)
Lemma FI_change s b' c' i :
  FI s -> s_ic b' = true -> length (s_items b') = length (s_items (f_base s)) -> length c' = length (f_cas s) ->
  (forall j, j <> i -> option_map i_syns (nth_error (s_items b') j) = option_map i_syns (nth_error (s_items (f_base s)) j) /\ nth_error c' j = nth_error (f_cas s) j) ->
  (forall it c, nth_error (s_items b') i = Some it -> nth_error c' i = Some c -> PI c (i_syns it)) ->
  FI (FL b' c').
Proof.
  intros V IC L1 L2 O P. split; cbn; auto; [rewrite L1, L2; apply V|].
  intros j it c E1 E2. destruct (Nat.eq_dec j i) as [->|N]; [eauto|].
  destruct (O j N) as [A B]. rewrite E1 in A. cbn in A. rewrite B in E2.
  destruct (nth_error (s_items (f_base s)) j) as [it0|] eqn:E0; [|discriminate]. cbn in A. injection A as A.
  rewrite A. apply (fi_pi s V j it0 c E0 E2).
Qed.

(** the SynList part of [_new_term] as seen by this invariant *)
Lemma new_term_shape b k i : k <> "" ->
  let b' := fst (new_term b (TStr k) i) in
  s_ic b' = s_ic b /\ length (s_items b') = length (s_items b) /\
  (forall j, j <> i -> nth_error (s_items b') j = nth_error (s_items b) j) /\
  (forall it', nth_error (s_items b') i = Some it' -> exists it, nth_error (s_items b) i = Some it /\
      i_syns it' = option_map (set_add k) (i_syns it)).
Proof.
  intros N. unfold new_term. destruct k as [|c r]; [congruence|]. set (k := String c r).
  destruct (nth_error (s_items b) i) as [it|] eqn:E; cbn; [|repeat split; auto; intros; congruence].
  destruct (i_syns it) as [ts|] eqn:S; cbn.
  2:{ repeat split; auto. intros it' E'. rewrite E in E'. injection E' as <-. exists it. rewrite S. auto. }
  assert (G : forall it', nth_error (upd i (with_syns (Some (set_add k ts))) (s_items b)) i = Some it' ->
     exists it0, Some it = Some it0 /\ i_syns it' = option_map (set_add k) (i_syns it0)).
  { intros it' E'. rewrite (nth_upd_same _ _ _ _ E) in E'. injection E' as <-. exists it. rewrite S. auto. }
  destruct (dget (sanitize b k) (s_dict b)) as [j|].
  - destruct (Nat.eqb j i); cbn; rewrite length_upd; repeat split; auto; intros; apply nth_upd_other; auto.
  - destruct (i_name it); cbn; rewrite ?length_upd; repeat split; auto.
    + intros; apply nth_upd_other; auto.
    + intros; rewrite !nth_upd_other; auto.
    + intros it' E'. rewrite nth_upd, Nat.eqb_refl in E'.
      destruct (nth_error (upd i (with_syns (Some (set_add k ts))) (s_items b)) i) as [it1|] eqn:E1; [|discriminate].
      cbn in E'. injection E' as <-. cbn. apply (G it1); auto.
Qed.

Lemma PI_add c ts k key : clean key -> lower (strip k) = key ->
  (cas_match key = true -> c = Some (padded key)) ->
  PI c (Some ts) -> PI c (Some (set_add k ts)).
Proof.
  intros CL EK H [A B]. split.
  - intros t I M. apply In_set_add in I as [->|I]; [|apply A; auto]. rewrite EK in *. auto.
  - intros p E. destruct (B p E) as (t & I & M & Q). exists t. repeat split; auto. apply In_set_add; auto.
Qed.

Lemma ffinish_FI s k key i : FI s -> k <> "" ->
  (cas_match (lower (strip k)) = true -> nth_error (f_cas s) i = Some (Some (padded (lower (strip k))))) ->
  FI (fst (ffinish s k key i)).
Proof.
  intros V N H0. unfold ffinish. destruct (nth_error (s_items (f_base s)) i) as [it|] eqn:E0; [|exact V].
  destruct (i_syns it) as [ts|] eqn:S0; [|exact V]. cbv zeta. cbn [fst].
  assert (P0 : forall cc, nth_error (f_cas s) i = Some cc -> PI cc (Some (set_add k ts))).
  { intros cc Ecc. eapply PI_add; [|reflexivity| |].
    - rewrite <- (san_ic (f_base s)) by apply V. apply clean_san. apply V.
    - intros M. specialize (H0 M). congruence.
    - rewrite <- S0. apply (fi_pi s V i it cc E0 Ecc). }
  set (b2 := set_dict _ _).
  assert (A1 : FI (FL b2 (f_cas s))).
  { eapply FI_change with (i := i); [exact V|apply V| | | |]; cbn.
    - apply length_upd.
    - reflexivity.
    - intros j Nj. rewrite nth_upd_other by auto. auto.
    - intros it' cc E' Ecc. rewrite (nth_upd_same _ _ _ _ E0) in E'. injection E' as <-. apply P0; exact Ecc. }
  assert (A2 : FI (FL (set_items b2 (upd i (with_name (Some k)) (s_items b2))) (f_cas s))).
  { eapply FI_change with (i := i); [exact V|apply V| | | |]; cbn.
    - rewrite !length_upd. reflexivity.
    - reflexivity.
    - intros j Nj. rewrite !nth_upd_other by auto. auto.
    - intros it' cc E' Ecc. rewrite (nth_upd_same _ _ _ (with_syns (Some (set_add k ts)) it)) in E'.
      + injection E' as <-. apply P0; exact Ecc.
      + apply nth_upd_same. exact E0. }
  unfold with_base. destruct (i_name it) as [n|]; [|exact A2]. destruct (cas_match n && negb (cas_match k)); [exact A2|exact A1].
Qed.
Lemma fcas_FI s k i c : FI s -> k <> "" -> cas_match (lower (strip k)) = true -> nth_error (f_cas s) i = Some c ->
  (c = None \/ exists c0, c = Some c0 /\ trim_cas c0 = trim_cas (lower (strip k))) ->
  FI (fst (fcas_term s k (lower (strip k)) i)).
Proof.
  intros V N M Ec Hc. assert (IC := fi_ic s V). unfold fcas_term. rewrite (pad_padded _ M), trim_padded.
  assert (CL : clean (lower (strip k))) by (rewrite <- (san_ic (f_base s)) by exact IC; apply clean_san; exact IC).
  set (key := lower (strip k)) in *. cbv zeta. cbn [f_base set_cas].
  assert (CT : clean (trim_cas key)) by (apply clean_trim; auto).
  assert (NT : trim_cas key <> "") by (apply cas_nonempty, trim_match; exact M).
  pose proof (new_term_shape (f_base s) (trim_cas key) i NT) as SH. cbv zeta in SH.
  destruct (new_term (f_base s) (TStr (trim_cas key)) i) as [b r]. cbn [fst] in SH. destruct SH as (S1 & S2 & S3 & S4).
  assert (VB : FI (FL b (upd i (fun _ => Some (padded key)) (f_cas s)))).
  { eapply FI_change with (i := i); [exact V|rewrite S1; exact IC|exact S2|apply length_upd| |].
    - intros j Nj. rewrite S3, nth_upd_other by auto. auto.
    - intros it' cc E' Ecc. rewrite (nth_upd_same _ _ _ _ Ec) in Ecc. injection Ecc as <-.
      destruct (S4 it' E') as (it & E & ->). destruct (i_syns it) as [ts|] eqn:Sy; cbn [option_map PI]; [|exact I].
      pose proof (fi_pi s V i it c E Ec) as P. rewrite Sy in P. destruct P as [A' B'].
      split.
      + intros t I Mt. apply In_set_add in I as [->|I].
        * unfold clean in CT; rewrite ?CT. rewrite padded_trim. reflexivity.
        * pose proof (A' t I Mt) as Q. destruct Hc as [Hc|(c0 & Hc & T)]; [congruence|].
          f_equal. apply padded_eq_trim. rewrite <- T. rewrite Q in Hc. injection Hc as <-. apply trim_padded.
      + intros p Ep. exists (trim_cas key). split; [apply In_set_add; auto|].
        unfold clean in CT; rewrite ?CT.
        split; [apply trim_match; exact M|]. rewrite padded_trim. congruence. }
  destruct r as [u|e]; [|exact VB].
  apply ffinish_FI; auto.
  intros _. cbn. apply (nth_upd_same _ _ _ _ Ec).
Qed.
Lemma fnew_term_FI s t i : FI s -> FI (fst (fnew_term s t i)).
Proof.
  intros V. destruct t as [|k|n]; [exact V| |exact V]. destruct k as [|c0 r0]; [exact V|].
  unfold fnew_term. set (k := String c0 r0). cbv zeta.
  assert (N : k <> "") by discriminate. clearbody k.
  assert (IC := fi_ic s V).
  assert (EK : fsan s k = lower (strip k)) by (unfold fsan, sanitize; rewrite IC; reflexivity). rewrite EK.
  destruct (dget (lower (strip k)) (s_dict (f_base s))) as [j|]; [destruct (Nat.eqb j i); exact V|].
  destruct (cas_match (lower (strip k))) eqn:M.
  - destruct (nth_error (f_cas s) i) as [[c|]|] eqn:Ec; [| |exact V].
    + destruct (String.eqb_spec (trim_cas c) (trim_cas (lower (strip k)))) as [Et|]; [|exact V].
      eapply fcas_FI; eauto.
    + eapply fcas_FI; eauto.
  - apply ffinish_FI; auto. congruence.
Qed.

Lemma fmerge_terms_FI it : forall s i, FI s -> FI (fst (fmerge_terms s it i)).
Proof.
  induction it as [|t it IH]; intros s i V; [exact V|]. cbn [fmerge_terms].
  pose proof (fnew_term_FI s t i V) as V1. destruct (fnew_term s t i) as [s1 [u|e]]; [apply IH; exact V1|exact V1].
Qed.
Lemma fmerge_set_FI s it i : FI s -> FI (fst (fmerge_set_with_index s it i)).
Proof.
  intros V. unfold fmerge_set_with_index. destruct (term_strings it) as [ks|]; [|exact V].
  destruct (find_cas ks) as [| |c]; [exact V|apply fmerge_terms_FI; exact V|].
  destruct (item_cas s i) as [c0|]; [|apply fmerge_terms_FI; exact V].
  destruct (String.eqb (trim_cas c0) (trim_cas c)); [apply fmerge_terms_FI; exact V|exact V].
Qed.
Lemma fadd_term_FI s t : FI s -> FI (fst (fadd_term s t)).
Proof.
  intros V. unfold fadd_term. destruct (fget_index s t) as [i|[]]; try exact V.
  pose proof (FI_new_item s V) as V1. destruct (fnew_item s) as [s1 i]. cbn [fst] in V1.
  pose proof (fnew_term_FI s1 t i V1) as V2. destruct (fnew_term s1 t i) as [s2 [u|e]]; exact V2.
Qed.
Lemma fnew_set_FI s u : FI s -> FI (fst (fnew_set s u)).
Proof.
  intros V. unfold fnew_set. destruct u as [|t u]; [exact V|].
  pose proof (FI_new_item s V) as V1. destruct (fnew_item s) as [s1 i]. cbn [fst] in V1.
  pose proof (fmerge_set_FI s1 (t :: u) i V1) as V2. destruct (fmerge_set_with_index s1 (t :: u) i) as [s2 [v|e]]; exact V2.
Qed.
Lemma fadd_set_FI ord s it m : FI s -> FI (fst (fadd_set ord s it m)).
Proof.
  intros V. unfold fadd_set. destruct (ffind_indices s it [] []) as [[found un]|e]; [|exact V].
  destruct found as [|i [|j r]].
  - apply fnew_set_FI; exact V.
  - destruct m; [|apply fnew_set_FI; exact V].
    pose proof (fmerge_set_FI s (ord un) i V) as V2. destruct (fmerge_set_with_index s (ord un) i) as [s2 [v|e]]; exact V2.
  - destruct m; [exact V|apply fnew_set_FI; exact V].
Qed.
Lemma fset_name_FI s n : FI s -> FI (fst (fset_name s n)).
Proof.
  intros V. unfold fset_name. destruct (fget_index s (TStr n)) as [i|e]; [|exact V]. cbn [fst]. unfold with_base.
  eapply FI_change with (i := i); [exact V|apply V| | | |]; cbn.
  - apply length_upd.
  - reflexivity.
  - intros j N. rewrite nth_upd_other by auto. auto.
  - intros it' c E Ec. rewrite nth_upd, Nat.eqb_refl in E.
    destruct (nth_error (s_items (f_base s)) i) as [it|] eqn:E0; [|discriminate]. cbn in E. injection E as <-. cbn.
    apply (fi_pi s V i it c E0 Ec).
Qed.

(** ** merging *)
Definition syns_at (s : flowables) (i : nat) : option (option (list string)) := synonym_set (f_base s) i.
Lemma merge1_ok b m into b' : merge1 b m into = (b', Ok tt) ->
  exists x y, synonym_set b into = Some (Some x) /\ synonym_set b m = Some (Some y) /\
    s_ic b' = s_ic b /\ length (s_items b') = length (s_items b) /\
    synonym_set b' m = Some None /\
    (m <> into -> synonym_set b' into = Some (Some (set_union x y))) /\
    (forall j, j <> m -> j <> into -> synonym_set b' j = synonym_set b j).
Proof.
  unfold merge1, synonym_set. destruct (nth_error (s_items b) into) as [ti|] eqn:Ei; [|discriminate].
  destruct (nth_error (s_items b) m) as [mi|] eqn:Em; [|discriminate].
  destruct (i_syns ti) as [x|] eqn:Sx; [|discriminate]. destruct (i_syns mi) as [y|] eqn:Sy; [|discriminate].
  intros E. apply pair_equal_inv in E as [<- _]. exists x, y. cbn. rewrite Sx, Sy.
  split; [reflexivity|]. split; [reflexivity|]. split; [reflexivity|]. split; [rewrite !length_upd; reflexivity|].
  split; [|split].
  - rewrite nth_upd, Nat.eqb_refl. rewrite nth_upd. destruct (Nat.eqb into m); rewrite Em; reflexivity.
  - intros N. rewrite nth_upd_other by auto. rewrite (nth_upd_same _ _ _ _ Ei). reflexivity.
  - intros j N1 N2. rewrite !nth_upd_other by auto. reflexivity.
Qed.
Lemma fmerge1_ok s m into s' : length (f_cas s) = length (s_items (f_base s)) -> fmerge1 s m into = (s', FOk tt) ->
  exists x y, syns_at s into = Some (Some x) /\ syns_at s m = Some (Some y) /\
    s_ic (f_base s') = s_ic (f_base s) /\ length (s_items (f_base s')) = length (s_items (f_base s)) /\
    length (f_cas s') = length (f_cas s) /\
    syns_at s' m = Some None /\ (m <> into -> syns_at s' into = Some (Some (set_union x y))) /\
    (forall j, j <> m -> j <> into -> syns_at s' j = syns_at s j) /\
    (forall j, j <> m -> nth_error (f_cas s') j = nth_error (f_cas s) j).
Proof.
  intros L. unfold fmerge1. destruct (merge1 (f_base s) m into) as [b [[]|e]] eqn:E; [|discriminate].
  intros E2. apply pair_equal_inv in E2 as [<- _]. apply merge1_ok in E as (x & y & A & B & C & D & F & G & H).
  exists x, y. cbn. unfold syns_at. rewrite length_upd.
  split; [exact A|]. split; [exact B|]. split; [exact C|]. split; [exact D|]. split; [reflexivity|].
  split; [exact F|]. split; [exact G|]. split; [exact H|]. intros j N. apply nth_upd_other; auto.
Qed.
Lemma fmerge_all_ok ms : forall s into s', length (f_cas s) = length (s_items (f_base s)) -> fmerge_all s ms into = (s', FOk tt) ->
  s_ic (f_base s') = s_ic (f_base s) /\ length (s_items (f_base s')) = length (s_items (f_base s)) /\
  length (f_cas s') = length (f_cas s) /\
  (forall j, ~ In j ms -> nth_error (f_cas s') j = nth_error (f_cas s) j) /\
  (forall j, ~ In j ms -> j <> into -> syns_at s' j = syns_at s j) /\
  (forall j, In j ms -> syns_at s' j = Some None) /\
  (forall x, ~ In into ms -> syns_at s into = Some (Some x) -> exists u, syns_at s' into = Some (Some u) /\
     forall t, In t u <-> In t x \/ exists m y, In m ms /\ syns_at s m = Some (Some y) /\ In t y) /\
  (forall m, In m ms -> exists y, syns_at s m = Some (Some y)) /\
  (syns_at s into = Some None -> syns_at s' into = Some None).
Proof.
  induction ms as [|m ms IH]; intros s into s' L.
  { intros E. cbn in E. apply pair_equal_inv in E as [<- _]. do 3 (split; [reflexivity|]).
    split; [auto|]. split; [auto|]. split; [intros j []|]. split; [|split; [intros m []|auto]].
    intros x _ E. exists x. split; [exact E|]. intros t. split; [auto|]. intros [?|(m & y & [] & _)]; auto. }
  cbn [fmerge_all]. destruct (fmerge1 s m into) as [s1 [[]|e]] eqn:E1; [|discriminate]. intros E.
  apply fmerge1_ok in E1 as (x & y & A & B & C & D & F & G & H & K & M); [|exact L].
  assert (L1 : length (f_cas s1) = length (s_items (f_base s1))) by congruence.
  destruct (IH s1 into s' L1 E) as (C2 & D2 & F2 & M2 & K2 & G2 & H2 & Y2 & Z2).
  assert (NM : In m ms -> False).
  { intros I. destruct (Y2 m I) as [z Z]. congruence. }
  split; [congruence|]. split; [congruence|]. split; [congruence|].
  split. { intros j N. cbn in N. rewrite M2, M by intuition. reflexivity. }
  split. { intros j N N2. cbn in N. rewrite K2, K by intuition. reflexivity. }
  split.
  { intros j [->|I].
    - destruct (Nat.eq_dec j into) as [->|N]; [|rewrite K2; auto].
      destruct (mem_spec into ms) as [I|N]; [auto|].
      (* into is dead: no later merge can have succeeded *)
      destruct ms as [|m2 ms]; [cbn in E; apply pair_equal_inv in E as [<- _]; exact G|].
      exfalso. cbn [fmerge_all] in E. destruct (fmerge1 s1 m2 into) as [s2 [[]|e]] eqn:E2; [|discriminate].
      apply fmerge1_ok in E2 as (x2 & y2 & A2 & _); [|exact L1]. congruence.
    - auto. }
  split.
  { intros x0 N E0. cbn in N. assert (N1 : m <> into) by intuition. specialize (H N1).
    destruct (H2 _ ltac:(intuition) H) as (u & Eu & Hu). exists u. split; [exact Eu|]. intros t. rewrite Hu, In_set_union.
    assert (x0 = x) by congruence. subst x0. split.
    - intros [[I|I]|(m2 & y2 & I & Z & J)]; [auto| |].
      + right. exists m, y. cbn. auto.
      + right. exists m2, y2. rewrite K in Z. { cbn; auto. } all: intros ->; tauto.
    - intros [I|(m2 & y2 & [->|I] & Z & J)]; [auto| |].
      + left. right. congruence.
      + right. exists m2, y2. rewrite K; auto; intros ->; tauto. }
  split; [|congruence].
  intros m2 [->|I]; [eauto|]. destruct (Y2 m2 I) as [z Z].
  destruct (Nat.eq_dec m2 into) as [->|N]; [eauto|]. rewrite K in Z; eauto. intros ->; tauto.
Qed.

Lemma truthy_In c l : In c (truthy l) <-> In (Some c) l /\ c <> "".
Proof.
  induction l as [|[d|] l IH]; cbn; [tauto| |].
  - destruct (String.eqb_spec d "") as [->|N]; cbn; rewrite IH; split.
    + intros [? ?]; auto.
    + intros [[E|I] Nc]; [congruence|auto].
    + intros [->|[I Nc]]; auto.
    + intros [[E|I] Nc]; [injection E as ->; auto|auto].
  - rewrite IH. split; [intros [? ?]; auto|intros [[E|I] N]; [discriminate|auto]].
Qed.
Lemma padded_nonempty k : cas_match k = true -> padded k <> "".
Proof. intros M. apply cas_nonempty, strict_match, padded_strict, M. Qed.
Lemma FI_at s i x c : FI s -> syns_at s i = Some x -> nth_error (f_cas s) i = Some c -> PI c x.
Proof.
  intros V E Ec. unfold syns_at, synonym_set in E. destruct (nth_error (s_items (f_base s)) i) as [it|] eqn:E0; [|discriminate].
  cbn in E. injection E as <-. apply (fi_pi s V i it c E0 Ec).
Qed.
Lemma FI_intro s : s_ic (f_base s) = true -> length (f_cas s) = length (s_items (f_base s)) ->
  (forall i x c, syns_at s i = Some x -> nth_error (f_cas s) i = Some c -> PI c x) -> FI s.
Proof.
  intros A B C. split; auto. intros i it c E Ec. apply (C i); auto. unfold syns_at, synonym_set. rewrite E. reflexivity.
Qed.
Lemma item_cas_nth s i c : nth_error (f_cas s) i = Some c -> item_cas s i = c.
Proof. unfold item_cas. intros ->. reflexivity. Qed.
Lemma syns_lt s i x : syns_at s i = Some x -> i < length (s_items (f_base s)).
Proof. unfold syns_at, synonym_set. destruct (nth_error _ _) eqn:E; [|discriminate]. intros _. apply nth_error_lt in E. exact E. Qed.
Lemma cas_at s i : FI s -> i < length (s_items (f_base s)) -> exists c, nth_error (f_cas s) i = Some c.
Proof.
  intros V H. destruct (nth_error (f_cas s) i) eqn:E; [eauto|]. apply nth_error_None in E. rewrite (fi_len s V) in E. lia.
Qed.
Lemma upd_id {A} (l : list A) : forall i, upd i (fun x => x) l = l.
Proof. induction l as [|x l IH]; intros [|i]; cbn; auto. rewrite IH; reflexivity. Qed.

Lemma fmerge_FI ordn s d ts s' : FI s -> (forall l, Permutation (ordn l) l) ->
  fmerge ordn s d ts false = (s', FOk tt) -> FI s'.
Proof.
  intros V PO. unfold fmerge. destruct (fget_index s d) as [dom|]; [|discriminate].
  destruct (findices_of s ts) as [l|]; [|discriminate]. cbv zeta.
  set (tc := truthy (item_cas s dom :: map (item_cas s) l)).
  assert (TC : forall c, In c tc <-> (exists j, (j = dom \/ In j l) /\ item_cas s j = Some c) /\ c <> "").
  { intros c. unfold tc. rewrite truthy_In. cbn [In]. rewrite in_map_iff. split.
    - intros [[E|(j & E & I)] N]; split; eauto.
    - intros [(j & [->|I] & E) N]; split; eauto. }
  assert (IM : forall j, In j (ordn (set_of l)) <-> In j l).
  { intros j. rewrite <- (In_set_of j l). split; apply Permutation_in; [|symmetry]; apply PO. }
  destruct (fmerge_all s (ordn (set_of l)) dom) as [s1 [[]|e]] eqn:E1.
  2:{ destruct tc as [|a [|b r]]; discriminate. }
  apply fmerge_all_ok in E1 as (C & D & F & M & K & G & H & Y & DD); [|apply V].
  assert (L1 : length (f_cas s1) = length (s_items (f_base s1))) by (rewrite D, F; apply V).
  assert (GO : forall c', (tc = [] -> c' = item_cas s dom) -> (forall c, tc = [c] -> c' = Some c) -> (tc = [] \/ exists c, tc = [c]) ->
     forall s2, f_base s2 = f_base s1 -> length (f_cas s2) = length (f_cas s1) ->
       (forall j, j <> dom -> nth_error (f_cas s2) j = nth_error (f_cas s1) j) ->
       (~ In dom l -> forall c, nth_error (f_cas s2) dom = Some c -> c = c') -> FI s2).
  { intros c' T0 T1 T s2 Eb Ec2 O2 D2. apply FI_intro.
    - rewrite Eb, C. apply V.
    - rewrite Ec2, Eb. exact L1.
    - intros i x c Ei Eci. unfold syns_at in Ei. rewrite Eb in Ei. fold (syns_at s1 i) in Ei.
      destruct (mem_spec i l) as [Il|Nl].
      { rewrite G in Ei by (apply IM; exact Il). injection Ei as <-. exact I. }
      destruct (Nat.eq_dec i dom) as [->|Nd].
      2:{ rewrite K in Ei by (rewrite ?IM; auto). rewrite O2, M in Eci by (rewrite ?IM; auto). eapply FI_at; eauto. }
      specialize (D2 Nl c Eci). subst c. destruct x as [u|]; [|exact I].
      assert (LT : dom < length (s_items (f_base s))) by (apply syns_lt in Ei; lia).
      destruct (syns_at s dom) as [x0|] eqn:Ex0.
      2:{ exfalso. unfold syns_at, synonym_set in Ex0. destruct (nth_error (s_items (f_base s)) dom) eqn:Z; [discriminate|].
          apply nth_error_None in Z. lia. }
      destruct (cas_at s dom V LT) as [c0 Ec0].
      destruct x0 as [x0|]; [|rewrite DD in Ei by reflexivity; discriminate].
      rewrite <- IM in Nl. destruct (H x0 Nl eq_refl) as (u' & Eu & Hu). rewrite Eu in Ei. injection Ei as ->.
      pose proof (FI_at s dom _ _ V Ex0 Ec0) as [P1 P2].
      (* every term of the union comes from a merged item whose recorded number is among tc *)
      assert (TM : forall t, In t u -> cas_match (lower (strip t)) = true -> In (padded (lower (strip t))) tc).
      { intros t It Mt. apply TC. split; [|apply padded_nonempty; exact Mt]. apply Hu in It as [It|(m & y & Im & Ey & It)].
        - exists dom. split; [auto|]. rewrite (item_cas_nth _ _ _ Ec0). auto.
        - exists m. split; [right; apply IM; exact Im|]. destruct (cas_at s m V (syns_lt _ _ _ Ey)) as [cm Ecm].
          rewrite (item_cas_nth _ _ _ Ecm). pose proof (FI_at s m _ _ V Ey Ecm) as [Q _]. auto. }
      split.
      + intros t It Mt. specialize (TM t It Mt). destruct T as [T|[c T]]; rewrite T in TM; [destruct TM|].
        rewrite (T1 c T). destruct TM as [->|[]]. reflexivity.
      + intros p Ep. destruct T as [T|[c T]].
        * rewrite (T0 T), (item_cas_nth _ _ _ Ec0) in Ep. destruct (P2 p Ep) as (t & It & Mt & Q). exists t. split; [|auto].
          apply Hu; auto.
        * rewrite (T1 c T) in Ep. injection Ep as <-. assert (Ic : In c tc) by (rewrite T; cbn; auto).
          apply TC in Ic as [(j & Hj & Ej) _]. destruct Hj as [->|Hj].
          -- rewrite (item_cas_nth _ _ _ Ec0) in Ej. destruct (P2 c Ej) as (t & It & Mt & Q). exists t. split; [|auto]. apply Hu; auto.
          -- apply IM in Hj. destruct (Y j Hj) as [y Ey]. destruct (cas_at s j V (syns_lt _ _ _ Ey)) as [cj Ecj].
             rewrite (item_cas_nth _ _ _ Ecj) in Ej. pose proof (FI_at s j _ _ V Ey Ecj) as [_ Q].
             destruct (Q c Ej) as (t & It & Mt & W). exists t. split; [|auto]. apply Hu. right. eauto. }
  assert (NC : ~ In dom l -> nth_error (f_cas s1) dom = nth_error (f_cas s) dom) by (intros N; apply M; rewrite IM; exact N).
  destruct tc as [|c [|c2 r]]; [| |discriminate]; intros E; apply pair_equal_inv in E as [<- _].
  - apply (GO (item_cas s dom)); auto; [discriminate|]. intros N c Ec. rewrite NC in Ec by exact N. symmetry. apply item_cas_nth; exact Ec.
  - apply (GO (Some c)); eauto; cbn.
    + discriminate.
    + intros c0 E; congruence.
    + apply length_upd.
    + intros j N. apply nth_upd_other; auto.
    + intros _ c0 E. rewrite nth_upd, Nat.eqb_refl in E. destruct (nth_error (f_cas s1) dom); [|discriminate]. cbn in E. congruence.
Qed.

(** * Coherence of lookup for histories without merges *)
Definition norm (t : string) : string := lower (strip t).
Record DI (s : flowables) : Prop := {
  d_fi : FI s;
  d_live : forall i, syns_at s i <> Some None;
  d_cas : forall i p, item_cas s i = Some p -> dget p (s_dict (f_base s)) = Some i /\ dget (trim_cas p) (s_dict (f_base s)) = Some i;
  d_key : forall k j, dget k (s_dict (f_base s)) = Some j -> cas_match k = true -> item_cas s j = Some (padded k);
  d_term : forall i ts t, syns_at s i = Some (Some ts) -> In t ts -> cas_match (norm t) = false -> dget (norm t) (s_dict (f_base s)) = Some i;
  d_own : forall k j, dget k (s_dict (f_base s)) = Some j -> exists ts t, syns_at s j = Some (Some ts) /\ In t ts /\
            (k = norm t \/ cas_match (norm t) = true /\ (k = padded (norm t) \/ k = trim_cas (norm t)))
}.
Lemma norm_clean t : clean (norm t).
Proof. unfold norm, clean. rewrite <- lower_strip, lower_idem, strip_idem. reflexivity. Qed.
Lemma clean_norm k : clean k -> norm k = k.
Proof. auto. Qed.
Lemma item_cas_Some s i p : item_cas s i = Some p -> nth_error (f_cas s) i = Some (Some p).
Proof. unfold item_cas. destruct (nth_error (f_cas s) i) as [[c|]|]; congruence. Qed.

Lemma new_term_ok b k i b' : k <> "" -> new_term b (TStr k) i = (b', Ok tt) ->
  exists ts, synonym_set b i = Some (Some ts) /\ synonym_set b' i = Some (Some (set_add k ts)) /\
    (forall j, j <> i -> synonym_set b' j = synonym_set b j) /\
    (dget (sanitize b k) (s_dict b) = None \/ dget (sanitize b k) (s_dict b) = Some i) /\
    (forall x, dget x (s_dict b') = if eqb x (sanitize b k) then Some i else dget x (s_dict b)) /\
    s_ic b' = s_ic b /\ length (s_items b') = length (s_items b).
Proof.
  intros N. unfold new_term. destruct k as [|c r]; [congruence|]. set (k := String c r). clearbody k. cbv zeta.
  unfold synonym_set. destruct (nth_error (s_items b) i) as [it|] eqn:E; [|discriminate].
  destruct (i_syns it) as [ts|] eqn:S; [|discriminate]. cbn [s_dict set_items].
  assert (L1 : nth_error (upd i (with_syns (Some (set_add k ts))) (s_items b)) i = Some (with_syns (Some (set_add k ts)) it))
    by (apply nth_upd_same; exact E).
  destruct (dget (sanitize b k) (s_dict b)) as [j|] eqn:D.
  - destruct (Nat.eqb_spec j i) as [->|]; [|discriminate]. intros Q. apply pair_equal_inv in Q as [<- _].
    exists ts. cbn. rewrite S, L1, length_upd. cbn. split; [reflexivity|]. split; [reflexivity|]. split.
    { intros j N2. rewrite nth_upd_other by auto. reflexivity. }
    split; [auto|]. split; [|auto]. intros x. destruct (String.eqb_spec x (sanitize b k)) as [->|]; [exact D|reflexivity].
  - intros Q. apply pair_equal_inv in Q as [<- _]. exists ts. cbn [option_map].
    split; [rewrite S; reflexivity|].
    destruct (i_name it); cbn [s_items s_dict s_ic set_items set_dict]; rewrite ?length_upd.
    + rewrite L1. cbn. split; [reflexivity|]. split; [intros j N2; rewrite nth_upd_other by auto; reflexivity|].
      split; [auto|]. split; [|auto]. intros x. rewrite dget_dset. reflexivity.
    + rewrite (nth_upd_same _ _ _ _ L1). cbn. split; [reflexivity|]. split; [intros j N2; rewrite !nth_upd_other by auto; reflexivity|].
      split; [auto|]. split; [|auto]. intros x. rewrite dget_dset. reflexivity.
Qed.
Lemma ffinish_ok s k key i s' : ffinish s k key i = (s', FOk tt) ->
  exists ts, syns_at s i = Some (Some ts) /\ syns_at s' i = Some (Some (set_add k ts)) /\
    (forall j, j <> i -> syns_at s' j = syns_at s j) /\
    (forall x, dget x (s_dict (f_base s')) = if eqb x key then Some i else dget x (s_dict (f_base s))) /\
    f_cas s' = f_cas s /\ s_ic (f_base s') = s_ic (f_base s) /\ length (s_items (f_base s')) = length (s_items (f_base s)).
Proof.
  unfold ffinish, syns_at, synonym_set. destruct (nth_error (s_items (f_base s)) i) as [it|] eqn:E; [|discriminate].
  destruct (i_syns it) as [ts|] eqn:S; [|discriminate]. cbv zeta. intros Q. apply pair_equal_inv in Q as [<- _].
  exists ts. cbn [option_map]. split; [rewrite S; reflexivity|]. cbn [f_base with_base f_cas].
  assert (L1 : nth_error (upd i (with_syns (Some (set_add k ts))) (s_items (f_base s))) i = Some (with_syns (Some (set_add k ts)) it))
    by (apply nth_upd_same; exact E).
  assert (R : forall b, (b = set_dict (set_items (f_base s) (upd i (with_syns (Some (set_add k ts))) (s_items (f_base s)))) (dset key i (s_dict (f_base s))) \/
     b = set_items (set_dict (set_items (f_base s) (upd i (with_syns (Some (set_add k ts))) (s_items (f_base s)))) (dset key i (s_dict (f_base s))))
         (upd i (with_name (Some k)) (upd i (with_syns (Some (set_add k ts))) (s_items (f_base s))))) ->
     option_map i_syns (nth_error (s_items b) i) = Some (Some (set_add k ts)) /\
     (forall j, j <> i -> option_map i_syns (nth_error (s_items b) j) = option_map i_syns (nth_error (s_items (f_base s)) j)) /\
     (forall x, dget x (s_dict b) = if eqb x key then Some i else dget x (s_dict (f_base s))) /\ f_cas s = f_cas s /\
     s_ic b = s_ic (f_base s) /\ length (s_items b) = length (s_items (f_base s))).
  { intros b [->| ->]; cbn [s_items s_dict s_ic set_items set_dict].
    - rewrite L1, length_upd. split; [reflexivity|]. split; [intros j N; rewrite nth_upd_other by auto; reflexivity|].
      split; [intros x; rewrite dget_dset; reflexivity|auto].
    - rewrite (nth_upd_same _ _ _ _ L1), !length_upd. split; [reflexivity|].
      split; [intros j N; rewrite !nth_upd_other by auto; reflexivity|]. split; [intros x; rewrite dget_dset; reflexivity|auto]. }
  destruct (i_name it) as [n|]; [destruct (cas_match n && negb (cas_match k))|]; apply R; cbn; auto.
Qed.

Lemma DI_empty : DI fempty.
Proof.
  split.
  - apply FI_empty.
  - intros [|i]; discriminate.
  - intros [|i] p; discriminate.
  - discriminate.
  - intros [|i] ts t; discriminate.
  - discriminate.
Qed.
Lemma DI_new_item s : DI s -> DI (fst (fnew_item s)) /\ syns_at (fst (fnew_item s)) (snd (fnew_item s)) = Some (Some []) /\
  s_dict (f_base (fst (fnew_item s))) = s_dict (f_base s).
Proof.
  intros V. assert (L := fi_len s (d_fi s V)).
  assert (IC : forall i, item_cas (fst (fnew_item s)) i = item_cas s i).
  { intros i. unfold item_cas. cbn. rewrite nth_error_snoc. destruct (Nat.eqb_spec i (length (f_cas s))) as [->|]; [|reflexivity].
    replace (nth_error (f_cas s) (length (f_cas s))) with (@None (option string)); [reflexivity|]. symmetry. apply nth_error_None; lia. }
  assert (SY : forall i, syns_at (fst (fnew_item s)) i = if Nat.eqb i (length (s_items (f_base s))) then Some (Some []) else syns_at s i).
  { intros i. unfold syns_at, synonym_set. cbn. rewrite nth_error_snoc. destruct (Nat.eqb i _); reflexivity. }
  split; [|split; [|reflexivity]].
  - split.
    + apply FI_new_item, V.
    + intros i. rewrite SY. destruct (Nat.eqb i _); [discriminate|apply V].
    + intros i p. rewrite IC. apply (d_cas s V).
    + intros k j E M. rewrite IC. apply (d_key s V); auto.
    + intros i ts t. rewrite SY. destruct (Nat.eqb i _).
      * intros E. injection E as <-. intros [].
      * apply (d_term s V).
    + intros k j E. destruct (d_own s V k j E) as (ts & t & A & B). exists ts, t. split; [|exact B]. rewrite SY.
      destruct (Nat.eqb_spec j (length (s_items (f_base s)))) as [->|]; [|exact A].
      apply syns_lt in A. lia.
  - rewrite SY. cbn. rewrite Nat.eqb_refl. reflexivity.
Qed.

(** one addition that returned *)
Lemma fnew_term_DI s t i s' : DI s -> fnew_term s t i = (s', FOk tt) -> DI s'.
Proof.
  intros V. assert (IC := fi_ic s (d_fi s V)). intros E.
  assert (VF : FI s') by (replace s' with (fst (fnew_term s t i)) by (rewrite E; reflexivity); apply fnew_term_FI, V).
  destruct t as [|k|n]; [cbn in E; congruence| |discriminate]. destruct k as [|c0 r0]; [cbn in E; congruence|].
  unfold fnew_term in E. set (k := String c0 r0) in E. cbv zeta in E. assert (N : k <> "") by discriminate. clearbody k. clear c0 r0.
  assert (EK : fsan s k = norm k) by (apply san_ic; exact IC). rewrite EK in E.
  destruct (dget (norm k) (s_dict (f_base s))) as [j0|] eqn:Dk.
  { destruct (Nat.eqb j0 i); congruence. }
  destruct (cas_match (norm k)) eqn:M.
  - assert (E2 : fcas_term s k (norm k) i = (s', FOk tt) /\
       (nth_error (f_cas s) i = Some None \/ exists c0, nth_error (f_cas s) i = Some (Some c0) /\ trim_cas c0 = trim_cas (norm k))).
    { destruct (nth_error (f_cas s) i) as [[c0|]|]; [| |discriminate].
      - destruct (String.eqb_spec (trim_cas c0) (trim_cas (norm k))) as [T|]; [eauto|discriminate].
      - auto. }
    clear E. destruct E2 as [E Hc]. unfold fcas_term in E. rewrite (pad_padded _ M), trim_padded in E. cbv zeta in E.
    cbn [f_base set_cas] in E.
    assert (CL : clean (norm k)) by apply norm_clean.
    assert (CT : clean (trim_cas (norm k))) by (apply clean_trim; auto).
    assert (NT : trim_cas (norm k) <> "") by (apply cas_nonempty, trim_match; exact M).
    destruct (new_term (f_base s) (TStr (trim_cas (norm k))) i) as [b [[]|e]] eqn:EN; [|discriminate].
    apply new_term_ok in EN as (ts & A & B & C & D & F & G & H); [|exact NT].
    rewrite (san_clean _ _ IC CT) in D, F.
    apply ffinish_ok in E as (ts2 & A2 & B2 & C2 & F2 & G2 & H2 & L2).
    cbn [f_base with_base f_cas set_cas] in *.
    set (p := padded (norm k)) in *. set (q := trim_cas (norm k)) in *.
    assert (TP : trim_cas p = q) by apply trim_padded.
    assert (MQ : cas_match q = true) by (apply trim_match; exact M).
    assert (MP : cas_match p = true) by (apply strict_match, padded_strict; exact M).
    assert (PQ : padded q = p) by apply padded_trim. assert (PP : padded p = p) by apply padded_idem.
    unfold syns_at in A2. cbn [f_base with_base] in A2. rewrite B in A2. injection A2 as <-.
    assert (CI : item_cas s i = None \/ item_cas s i = Some p).
    { destruct Hc as [Hc|(c0 & Hc & T)]; [left; apply item_cas_nth; exact Hc|]. right. rewrite (item_cas_nth _ _ _ Hc). f_equal.
      pose proof (FI_at s i _ _ (d_fi s V) A Hc) as [_ P2]. destruct (P2 c0 eq_refl) as (t & It & Mt & ->).
      apply padded_eq_trim. rewrite trim_padded in T. exact T. }
    (* nobody else owns p or q *)
    assert (OP : forall x j, x = p \/ x = q -> dget x (s_dict (f_base s)) = Some j -> j = i).
    { intros x j Hx Ex. assert (Ecj : item_cas s j = Some p).
      { destruct Hx as [-> | ->]; [rewrite <- PP|rewrite <- PQ]; apply (d_key s V); auto. }
      destruct (d_cas s V j p Ecj) as [_ Z]. rewrite TP in Z. destruct D as [D|D]; congruence. }
    assert (DG : forall x, dget x (s_dict (f_base s')) = if eqb x p then Some i else if eqb x q then Some i else dget x (s_dict (f_base s))).
    { intros x. rewrite F2, F. reflexivity. }
    assert (DP : dget p (s_dict (f_base s')) = Some i) by (rewrite DG, eqb_refl; reflexivity).
    assert (DQ : dget q (s_dict (f_base s')) = Some i) by (rewrite DG, eqb_refl; destruct (eqb q p); reflexivity).
    assert (MONO : forall x j, dget x (s_dict (f_base s)) = Some j -> dget x (s_dict (f_base s')) = Some j).
    { intros x j Ex. rewrite DG. pose proof (OP x j) as O. destruct (eqb_spec x p) as [Hx|Nx].
      - rewrite O by auto. reflexivity.
      - destruct (eqb_spec x q) as [Hx|Nx2]; [rewrite O by auto; reflexivity|exact Ex]. }
    assert (CAS : forall j, item_cas s' j = if Nat.eqb i j then Some p else item_cas s j).
    { intros j. unfold item_cas. rewrite G2, nth_upd. destruct (Nat.eqb_spec i j) as [->|]; [|reflexivity].
      destruct (nth_error (f_cas s) j) as [cj|] eqn:Z; [reflexivity|]. destruct Hc as [Hc|(c0 & Hc & _)]; congruence. }
    split.
    + exact VF.
    + intros j. destruct (Nat.eq_dec j i) as [->|Nj]; [rewrite B2; discriminate|]. rewrite C2 by exact Nj.
      unfold syns_at. cbn. rewrite C by exact Nj. apply V.
    + intros j x. rewrite CAS. destruct (Nat.eqb_spec i j) as [->|Nj].
      * intros Ex. injection Ex as <-. rewrite TP. auto.
      * intros Ex. destruct (d_cas s V j x Ex) as [Z1 Z2]. auto.
    + intros x j. rewrite DG, CAS. destruct (eqb_spec x p) as [->|].
      * intros Ex _. injection Ex as <-. rewrite Nat.eqb_refl. congruence.
      * destruct (eqb_spec x q) as [->|]; [intros Ex _; injection Ex as <-; rewrite Nat.eqb_refl; congruence|].
        intros Ex Mx. pose proof (d_key s V x j Ex Mx) as Z. destruct (Nat.eqb_spec i j) as [->|]; [|exact Z].
        destruct CI; congruence.
    + intros j us t Ej It Mt. destruct (Nat.eq_dec j i) as [->|Nj].
      * rewrite B2 in Ej. injection Ej as <-. apply In_set_add in It as [->|It]; [congruence|].
        apply In_set_add in It as [->|It]; [rewrite clean_norm in Mt by exact CT; congruence|].
        apply MONO. eapply (d_term s V); eauto.
      * rewrite C2 in Ej by exact Nj. unfold syns_at in Ej. cbn in Ej. rewrite C in Ej by exact Nj.
        apply MONO. eapply (d_term s V); eauto.
    + intros x j. rewrite DG. destruct (eqb_spec x p) as [->|].
      { intros Ex. injection Ex as <-. exists (set_add k (set_add q ts)), k. split; [exact B2|]. split; [apply In_set_add; auto|]. auto. }
      destruct (eqb_spec x q) as [->|].
      { intros Ex. injection Ex as <-. exists (set_add k (set_add q ts)), k. split; [exact B2|]. split; [apply In_set_add; auto|]. auto. }
      intros Ex. destruct (d_own s V x j Ex) as (us & t & Ej & It & Z). destruct (Nat.eq_dec j i) as [->|Nj].
      * exists (set_add k (set_add q ts)), t. split; [exact B2|]. unfold syns_at in Ej. rewrite A in Ej. injection Ej as <-.
        split; [|exact Z]. apply In_set_add; right; apply In_set_add; auto.
      * exists us, t. split; [|auto]. rewrite C2 by exact Nj. unfold syns_at. cbn. rewrite C by exact Nj. exact Ej.
  - apply ffinish_ok in E as (ts & A & B & C & D & F & G & H).
    assert (CAS : forall j, item_cas s' j = item_cas s j) by (intros j; unfold item_cas; rewrite F; reflexivity).
    assert (MONO : forall x j, dget x (s_dict (f_base s)) = Some j -> dget x (s_dict (f_base s')) = Some j).
    { intros x j Ex. rewrite D. destruct (eqb_spec x (norm k)); congruence. }
    split.
    + exact VF.
    + intros j. destruct (Nat.eq_dec j i) as [->|Nj]; [rewrite B; discriminate|]. rewrite C by exact Nj. apply V.
    + intros j x. rewrite CAS. intros Ex. destruct (d_cas s V j x Ex); auto.
    + intros x j. rewrite D, CAS. destruct (eqb_spec x (norm k)) as [->|]; [congruence|]. apply (d_key s V).
    + intros j us t Ej It Mt. destruct (Nat.eq_dec j i) as [->|Nj].
      * rewrite B in Ej. injection Ej as <-. apply In_set_add in It as [->|It]; [rewrite D, eqb_refl; reflexivity|].
        apply MONO. eapply (d_term s V); eauto.
      * rewrite C in Ej by exact Nj. apply MONO. eapply (d_term s V); eauto.
    + intros x j. rewrite D. destruct (eqb_spec x (norm k)) as [->|].
      * intros Ex. injection Ex as <-. exists (set_add k ts), k. split; [exact B|]. split; [apply In_set_add; auto|auto].
      * intros Ex. destruct (d_own s V x j Ex) as (us & t & Ej & It & Z). destruct (Nat.eq_dec j i) as [->|Nj].
        -- exists (set_add k ts), t. split; [exact B|]. rewrite A in Ej. injection Ej as <-. split; [apply In_set_add; auto|exact Z].
        -- exists us, t. rewrite C by exact Nj. auto.
Qed.
Lemma fmerge_terms_DI it : forall s i s', DI s -> fmerge_terms s it i = (s', FOk tt) -> DI s'.
Proof.
  induction it as [|t it IH]; intros s i s' V E; cbn [fmerge_terms] in E; [congruence|].
  destruct (fnew_term s t i) as [s1 [[]|e]] eqn:E1; [|discriminate]. eapply IH; [|exact E]. eapply fnew_term_DI; eauto.
Qed.
Lemma fmerge_set_DI s it i s' : DI s -> fmerge_set_with_index s it i = (s', FOk tt) -> DI s'.
Proof.
  intros V. unfold fmerge_set_with_index. destruct (term_strings it) as [ks|]; [|discriminate].
  destruct (find_cas ks) as [| |c]; [discriminate| |]; [apply fmerge_terms_DI; exact V|].
  destruct (item_cas s i) as [c0|]; [|apply fmerge_terms_DI; exact V].
  destruct (String.eqb (trim_cas c0) (trim_cas c)); [apply fmerge_terms_DI; exact V|discriminate].
Qed.
Lemma fadd_term_DI s t s' r : DI s -> fadd_term s t = (s', FOk r) -> DI s'.
Proof.
  intros V. unfold fadd_term. destruct (fget_index s t) as [i|[]]; try discriminate; [intros E; congruence|].
  pose proof (DI_new_item s V) as [V1 _]. destruct (fnew_item s) as [s1 i]. cbn [fst] in V1.
  destruct (fnew_term s1 t i) as [s2 [[]|e]] eqn:E; [|discriminate]. intros Q. apply pair_equal_inv in Q as [<- _].
  eapply fnew_term_DI; eauto.
Qed.
Lemma fnew_set_DI s u s' r : DI s -> fnew_set s u = (s', FOk r) -> DI s'.
Proof.
  intros V. unfold fnew_set. destruct u as [|t u]; [intros E; congruence|].
  pose proof (DI_new_item s V) as [V1 _]. destruct (fnew_item s) as [s1 i]. cbn [fst] in V1.
  destruct (fmerge_set_with_index s1 (t :: u) i) as [s2 [[]|e]] eqn:E; [|discriminate]. intros Q. apply pair_equal_inv in Q as [<- _].
  eapply fmerge_set_DI; eauto.
Qed.
Lemma fadd_set_DI ord s it m s' r : DI s -> fadd_set ord s it m = (s', FOk r) -> DI s'.
Proof.
  intros V. unfold fadd_set. destruct (ffind_indices s it [] []) as [[found un]|e]; [|discriminate].
  assert (G : forall i, match fmerge_set_with_index s (ord un) i with (s1, FOk _) => (s1, FOk (Some i)) | (s1, FErr e) => (s1, FErr e) end = (s', FOk r) -> DI s').
  { intros i. destruct (fmerge_set_with_index s (ord un) i) as [s2 [[]|e]] eqn:E; [|discriminate]. intros Q. apply pair_equal_inv in Q as [<- _].
    eapply fmerge_set_DI; eauto. }
  destruct found as [|i [|j f]]; [| |].
  - intros Q; eapply fnew_set_DI; eauto.
  - destruct m; [apply G|intros Q; eapply fnew_set_DI; eauto].
  - destruct m; [discriminate|intros Q; eapply fnew_set_DI; eauto].
Qed.
Lemma syns_at_base s s' : (forall i, option_map i_syns (nth_error (s_items (f_base s')) i) = option_map i_syns (nth_error (s_items (f_base s)) i)) ->
  forall i, syns_at s' i = syns_at s i.
Proof. auto. Qed.
Lemma fset_name_DI s n s' r : DI s -> fset_name s n = (s', FOk r) -> DI s'.
Proof.
  intros V E. assert (VF : FI s') by (replace s' with (fst (fset_name s n)) by (rewrite E; reflexivity); apply fset_name_FI, V).
  unfold fset_name in E. destruct (fget_index s (TStr n)) as [i|e]; [|discriminate]. apply pair_equal_inv in E as [<- _].
  assert (SY : forall j, syns_at (with_base s (set_items (f_base s) (upd i (with_name (Some n)) (s_items (f_base s))))) j = syns_at s j).
  { intros j. unfold syns_at, synonym_set. cbn. rewrite nth_upd. destruct (Nat.eqb i j); [|reflexivity].
    destruct (nth_error (s_items (f_base s)) j); reflexivity. }
  split.
  - exact VF.
  - intros j. rewrite SY. apply V.
  - apply (d_cas s V).
  - apply (d_key s V).
  - intros j ts t. rewrite SY. apply (d_term s V).
  - intros k j E. destruct (d_own s V k j E) as (ts & t & A). exists ts, t. rewrite SY. exact A.
Qed.

(** known terms do not move, whatever the outcome *)
Definition dle (d d' : dict string nat) : Prop := forall k j, dget k d = Some j -> dget k d' = Some j.
Lemma dle_refl d : dle d d. Proof. intros k j E; exact E. Qed.
Lemma fnew_term_dle s t i : DI s -> dle (s_dict (f_base s)) (s_dict (f_base (fst (fnew_term s t i)))).
Proof.
  intros V. assert (IC := fi_ic s (d_fi s V)).
  destruct t as [|k|n]; [apply dle_refl| |apply dle_refl]. destruct k as [|c0 r0]; [apply dle_refl|].
  destruct (fnew_term s (TStr (String c0 r0)) i) as [s' [[]|e]] eqn:E; cbn [fst].
  - (* returned *)
    pose proof (fnew_term_DI s _ i s' V E) as V'. unfold fnew_term in E. set (k := String c0 r0) in E. cbv zeta in E.
    assert (N : k <> "") by discriminate. clearbody k. assert (EK : fsan s k = norm k) by (apply san_ic; exact IC). rewrite EK in E.
    destruct (dget (norm k) (s_dict (f_base s))) as [j0|] eqn:Dk.
    { destruct (Nat.eqb j0 i); [|discriminate]. apply pair_equal_inv in E as [<- _]. apply dle_refl. }
    destruct (cas_match (norm k)) eqn:M.
    + assert (E2 : fcas_term s k (norm k) i = (s', FOk tt)).
      { destruct (nth_error (f_cas s) i) as [[c1|]|]; [destruct (String.eqb (trim_cas c1) (trim_cas (norm k)))| |]; congruence. }
      clear E. unfold fcas_term in E2. rewrite (pad_padded _ M), trim_padded in E2. cbv zeta in E2. cbn [f_base set_cas] in E2.
      destruct (new_term (f_base s) (TStr (trim_cas (norm k))) i) as [b [[]|e]] eqn:EN; [|discriminate].
      apply new_term_ok in EN as (ts & A & B & C & D & F & G & H); [|apply cas_nonempty, trim_match; exact M].
      rewrite (san_clean _ _ IC (clean_trim _ M (norm_clean k))) in D, F.
      apply ffinish_ok in E2 as (ts2 & A2 & B2 & C2 & F2 & G2 & H2 & L2). cbn [f_base with_base] in *.
      intros x j Ex. rewrite F2, F.
      assert (O : x = padded (norm k) \/ x = trim_cas (norm k) -> j = i).
      { intros Hx. assert (Ecj : item_cas s j = Some (padded (norm k))).
        { destruct Hx as [-> | ->].
          - rewrite <- padded_idem. apply (d_key s V); auto. apply strict_match, padded_strict, M.
          - rewrite <- padded_trim. apply (d_key s V); auto. apply trim_match, M. }
        destruct (d_cas s V j _ Ecj) as [_ Z]. rewrite trim_padded in Z. destruct D; congruence. }
      destruct (eqb_spec x (padded (norm k))) as [Hx|Nx]; [rewrite O by auto; reflexivity|].
      destruct (eqb_spec x (trim_cas (norm k))) as [Hx|Nx2]; [rewrite O by auto; reflexivity|exact Ex].
    + apply ffinish_ok in E as (ts2 & A2 & B2 & C2 & F2 & _). intros x j Ex. rewrite F2.
      destruct (eqb_spec x (norm k)); congruence.
  - (* raised: the dictionary is unchanged except possibly for the trimmed form *)
    unfold fnew_term in E. set (k := String c0 r0) in E. cbv zeta in E.
    destruct (dget (fsan s k) (s_dict (f_base s))) as [j0|] eqn:Dk.
    { destruct (Nat.eqb j0 i); [discriminate|]. apply pair_equal_inv in E as [<- _]. apply dle_refl. }
    assert (FD : forall s0 key, match ffinish s0 k key i with (s1, FErr _) => s1 = s0 | _ => True end).
    { intros s0 key. unfold ffinish. destruct (nth_error (s_items (f_base s0)) i) as [it|]; [|reflexivity].
      destruct (i_syns it); [exact I|reflexivity]. }
    assert (ND : forall q, match new_term (f_base s) (TStr q) i with (b, r) => dle (s_dict (f_base s)) (s_dict b) end).
    { intros q. unfold new_term. destruct q as [|qc qr]; [apply dle_refl|]. cbv zeta.
      destruct (nth_error (s_items (f_base s)) i) as [it|]; [|apply dle_refl]. destruct (i_syns it); [|apply dle_refl].
      cbn [s_dict set_items]. destruct (dget (sanitize (f_base s) (String qc qr)) (s_dict (f_base s))) as [jq|] eqn:Dq.
      - destruct (Nat.eqb jq i); apply dle_refl.
      - destruct (i_name it); cbn [s_dict set_items set_dict]; intros x j Ex; rewrite dget_dset;
        destruct (eqb_spec x (sanitize (f_base s) (String qc qr))); congruence. }
    assert (CF : forall key, fcas_term s k key i = (s', FErr e) -> dle (s_dict (f_base s)) (s_dict (f_base s'))).
    { intros key Q. unfold fcas_term in Q. cbv zeta in Q. cbn [f_base set_cas] in Q. specialize (ND (trim_cas (pad key))).
      destruct (new_term (f_base s) (TStr (trim_cas (pad key))) i) as [b [u|e2]].
      - specialize (FD (with_base (set_cas s i (Some (pad key))) b) (pad key)). rewrite Q in FD. subst s'. exact ND.
      - apply pair_equal_inv in Q as [<- _]. exact ND. }
    destruct (cas_match (fsan s k)).
    + destruct (nth_error (f_cas s) i) as [[c1|]|].
      * destruct (String.eqb (trim_cas c1) (trim_cas (fsan s k))); [eauto|]. apply pair_equal_inv in E as [<- _]. apply dle_refl.
      * eauto.
      * apply pair_equal_inv in E as [<- _]. apply dle_refl.
    + specialize (FD s (fsan s k)). rewrite E in FD. subst s'. apply dle_refl.
Qed.
Lemma dle_trans a b c : dle a b -> dle b c -> dle a c.
Proof. intros H1 H2 k j E. auto. Qed.
Lemma fmerge_terms_dle it : forall s i, DI s -> dle (s_dict (f_base s)) (s_dict (f_base (fst (fmerge_terms s it i)))).
Proof.
  induction it as [|t it IH]; intros s i V; [apply dle_refl|]. cbn [fmerge_terms].
  pose proof (fnew_term_dle s t i V) as Q. destruct (fnew_term s t i) as [s1 [[]|e]] eqn:E; [|exact Q].
  eapply dle_trans; [exact Q|]. apply IH. eapply fnew_term_DI; eauto.
Qed.
Lemma fmerge_set_dle s it i : DI s -> dle (s_dict (f_base s)) (s_dict (f_base (fst (fmerge_set_with_index s it i)))).
Proof.
  intros V. unfold fmerge_set_with_index. destruct (term_strings it) as [ks|]; [|apply dle_refl].
  destruct (find_cas ks) as [| |c]; [apply dle_refl| |]; [apply fmerge_terms_dle; exact V|].
  destruct (item_cas s i) as [c0|]; [|apply fmerge_terms_dle; exact V].
  destruct (String.eqb (trim_cas c0) (trim_cas c)); [apply fmerge_terms_dle; exact V|apply dle_refl].
Qed.
Lemma fnew_set_dle s u : DI s -> dle (s_dict (f_base s)) (s_dict (f_base (fst (fnew_set s u)))).
Proof.
  intros V. unfold fnew_set. destruct u as [|t u]; [apply dle_refl|].
  pose proof (DI_new_item s V) as (V1 & _ & Ed). destruct (fnew_item s) as [s1 i]. cbn [fst snd] in *.
  pose proof (fmerge_set_dle s1 (t :: u) i V1) as Q. rewrite Ed in Q.
  destruct (fmerge_set_with_index s1 (t :: u) i) as [s2 [[]|e]]; exact Q.
Qed.
Lemma fstep_dle s o : DI s -> (forall ordn d ts, o <> FMerge ordn d ts) -> dle (s_dict (f_base s)) (s_dict (f_base (fst (fstep s o)))).
Proof.
  intros V NM. destruct o as [t|ord it m|i t|n|ordn d ts]; cbn [fstep].
  - unfold fadd_term. destruct (fget_index s t) as [i|[]]; try apply dle_refl.
    pose proof (DI_new_item s V) as (V1 & _ & Ed). destruct (fnew_item s) as [s1 i]. cbn [fst snd] in *.
    pose proof (fnew_term_dle s1 t i V1) as Q. rewrite Ed in Q. destruct (fnew_term s1 t i) as [s2 [[]|e]]; exact Q.
  - unfold fadd_set. destruct (ffind_indices s it [] []) as [[found un]|e]; [|apply dle_refl].
    pose proof (fnew_set_dle s (ord un) V) as Q.
    assert (G : forall i, dle (s_dict (f_base s)) (s_dict (f_base (fst (fmerge_set_with_index s (ord un) i))))) by (intros; apply fmerge_set_dle; exact V).
    destruct found as [|i [|j f]].
    + destruct (fnew_set s (ord un)); exact Q.
    + destruct m; [|destruct (fnew_set s (ord un)); exact Q]. specialize (G i).
      destruct (fmerge_set_with_index s (ord un) i) as [s2 [[]|e]]; exact G.
    + destruct m; [apply dle_refl|destruct (fnew_set s (ord un)); exact Q].
  - pose proof (fnew_term_dle s t i V) as Q. destruct (fnew_term s t i); exact Q.
  - unfold fset_name. destruct (fget_index s (TStr n)); apply dle_refl.
  - exfalso. eapply NM; reflexivity.
Qed.

(** sorting *)
Lemma In_insert_nat x y l : In y (insert_nat x l) <-> y = x \/ In y l.
Proof.
  induction l as [|z l IH]; cbn; [intuition|]. destruct (x <=? z); cbn; [intuition|]. rewrite IH. intuition.
Qed.
Lemma In_sort_nat y l : In y (sort_nat l) <-> In y l.
Proof. induction l as [|x l IH]; cbn; [tauto|]. rewrite In_insert_nat, IH. intuition. Qed.

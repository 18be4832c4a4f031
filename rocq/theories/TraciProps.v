(** C123: the TRACI 2.1 provider: what is loaded, what the quantity interface answers, CAS numbers. *)
From Coq Require Import String Ascii NArith Lia.
From Verif Require Import Num Base PyStr TraciModel TraciProofs.
Open Scope nat_scope.
Open Scope string_scope.
Open Scope list_scope.
Local Arguments eqb : simpl never.

(** ** CAS numbers *)
(** The text made of the CAS number of a row finds the rows of that number, if it has 3 to 9 digits; otherwise it is not taken for a CAS number. *)
Lemma list_string l : list_ascii_of_string (string_of_list_ascii l) = l.
Proof. induction l as [|c l IH]; [reflexivity|]. cbn. rewrite IH. reflexivity. Qed.
Theorem C123_cas n r : let key := string_of_list_ascii (hyphens (dec n)) in
  ((100 <= n < 1000000000)%N -> (keyed key r = true <-> r_cas r = CNum n)) /\
  (~ (100 <= n < 1000000000)%N -> (keyed key r = true <-> lower (r_name r) = lower key)).
Proof.
  cbv zeta. destruct (cas_number n) as (A & B). change (10 ^ 9)%N with 1000000000%N in A, B. unfold keyed. rewrite list_string. split; intros H.
  - destruct (A H) as (M & V). rewrite M, V. unfold cas_is. destruct (r_cas r) as [m|s]; [|split; discriminate]. rewrite N.eqb_eq. split; congruence.
  - rewrite (B H). apply String.eqb_eq.
Qed.
(** A formatted CAS number stays as it is, and denotes the number it was made of. *)
Theorem C123_cas_formatted n : (100 <= n < 1000000000)%N -> let t := hyphens (dec n) in
  numeric_cas (CNum n) = Some (Some t) /\ numeric_cas (CText (string_of_list_ascii t)) = Some (Some t) /\ string_cas t = n.
Proof.
  intros H. cbv zeta. destruct (cas_number n) as (A & _). destruct (A H) as (M & V). split; [reflexivity|]. split; [|exact V].
  unfold numeric_cas. rewrite list_string, M. destruct (String.eqb_spec (string_of_list_ascii (hyphens (dec n))) "x") as [E|]; [|reflexivity].
  exfalso. apply (f_equal list_ascii_of_string) in E. rewrite list_string in E. rewrite E in M. discriminate M.
Qed.

(** ** Loading *)
(** load_all succeeds exactly if every row with a factor has a CAS cell that can be read, whatever was queried before;
    otherwise it raises ValueError. *)
Theorem C123_load_succeeds s h : (snd (tstep s Load (thist s h)) = TDone <-> convertible s) /\ (snd (tstep s Load (thist s h)) <> TDone -> snd (tstep s Load (thist s h)) = TErr EValue).
Proof.
  destruct (thist_spec s h) as (W & L & C). cbn [tstep]. destruct (ta_loaded (thist s h)) eqn:Ld; cbn [snd].
  - split; [|congruence]. split; [intros _; apply C; reflexivity|reflexivity].
  - destruct (load_rows s (thist s h)) as (a1, ok) eqn:R. destruct (load_rows_spec s s (fun r J => J) _ _ _ W R) as (_ & _ & H3 & _). destruct ok; cbn [snd].
    + split; [|congruence]. split; [intros _; apply H3; reflexivity|reflexivity].
    + split; [|reflexivity]. split; [discriminate|]. intros X. apply H3 in X. discriminate X.
Qed.
(** Then the archive holds exactly the factor of the first row of each flowable that has one. *)
Theorem C123_loaded s h : convertible s -> forall n c k v, holds (thist s (h ++ [Load])) n c k v <-> first_factor s n c k v.
Proof.
  intros CV n c k v. rewrite (holds_lookup s) by apply hist_wf. rewrite thist_snoc. destruct (thist_spec s h) as (W & L & C). destruct (tstep_spec s Load _ W L) as (_ & _ & H3 & H4 & _).
  assert (E: lookup (fst (tstep s Load (thist s h))) n c k = first_rows s n c k).
  { destruct (ta_loaded (thist s h)) eqn:Ld; [rewrite (proj2 (H3 eq_refl)); apply C; reflexivity|]. apply (H4 eq_refl CV eq_refl). }
  rewrite E. split.
  - intros (Hc & F). apply first_rows_spec; assumption.
  - intros F. assert (Hc: In c comps) by (destruct F as (i & r & _ & _ & G & _); exact (proj1 (factor_comp _ _ _ _ G))). split; [exact Hc|apply first_rows_spec; assumption].
Qed.
(** In every state - also after a load_all that failed - it holds no other factor. *)
Theorem C123_sound s h n c k v : holds (thist s h) n c k v -> first_factor s n c k v.
Proof.
  intros H. apply (holds_lookup s) in H; [|apply hist_wf]. destruct H as (Hc & E). destruct (thist_spec s h) as (_ & L & _). apply first_rows_spec; [exact Hc|]. exact (L _ _ _ _ E).
Qed.
(** Every flow comes from a row with a factor for its compartment, and from it has its CAS number; no flow is there twice. *)
Theorem C123_flows s h : (forall key f, dget key (ta_fl (thist s h)) = Some f ->
    exists r k v, In r s /\ lower (r_name r) = tf_name f /\ has_factor r k (tf_comp f) v /\ numeric_cas (r_fmt r) = Some (tf_cas f)) /\
  (forall key1 key2 f g, dget key1 (ta_fl (thist s h)) = Some f -> dget key2 (ta_fl (thist s h)) = Some g -> tf_name f = tf_name g -> tf_comp f = tf_comp g -> key1 = key2) /\
  (forall key1 key2 f g, dget key1 (ta_fl (thist s h)) = Some f -> dget key2 (ta_fl (thist s h)) = Some g -> key1 = key2 -> tf_name f = tf_name g /\ tf_comp f = tf_comp g).
Proof.
  destruct (hist_wf s h) as (_ & W). split; [intros key f E; exact (proj2 (W _ _ E))|]. split; intros key1 key2 f g E1 E2.
  - destruct (W _ _ E1) as (-> & _), (W _ _ E2) as (-> & _). intros -> ->. reflexivity.
  - intros ->. rewrite E1 in E2. injection E2 as ->. split; reflexivity.
Qed.
(** A flow made by a query is a flow of load_all: nothing else would be in the archive. *)
Theorem C123_no_stray_flows s h : convertible s -> forall key f, dget key (ta_fl (thist s h)) = Some f -> exists k v, holds (thist s (h ++ [Load])) (tf_name f) (tf_comp f) k v.
Proof.
  intros CV key f E. destruct (hist_wf s h) as (_ & W). destruct (W _ _ E) as (_ & r & k & v & I & En & F & _). exists k.
  assert (Hc: In (tf_comp f) comps) by (exact (proj1 (factor_comp _ _ _ _ F))).
  destruct (first_rows s (tf_name f) (tf_comp f) k) as [v'|] eqn:Q.
  - exists v'. apply (C123_loaded s h CV). apply first_rows_spec; assumption.
  - exfalso. revert I Q. induction s as [|r0 s' IH]; [intros []|]. cbn [first_rows]. intros [->|I] Q.
    + rewrite (proj2 (first_in_spec r _ _ k v Hc) (conj En F)) in Q. discriminate Q.
    + destruct (first_in r0 _ _ _ _); [discriminate Q|]. clear - IH I Q En F. 
      assert (G: forall t, In r t -> first_rows t (tf_name f) (tf_comp f) k = None -> False); [|exact (G s' I Q)].
      clear - En F. intros t. induction t as [|r1 t IH]; [intros []|]. cbn [first_rows]. intros [->|J] Z.
      * rewrite (proj2 (first_in_spec r _ _ k v (proj1 (factor_comp _ _ _ _ F))) (conj En F)) in Z. discriminate Z.
      * destruct (first_in r1 _ _ _ _); [discriminate Z|]. exact (IH J Z).
Qed.

(** ** Queries for a method *)
(** The rows that a flowable argument stands for *)
Definition wanted (f : option string) (r : trow) : Prop := match f with None => True | Some f => keyed f r = true end.
Lemma wanted_rows f s r : In r (match f with None => s | Some f => filter (keyed f) s end) <-> In r s /\ wanted f r.
Proof. destruct f; cbn [wanted]; [apply filter_In|tauto]. Qed.
Lemma canonical_method k a : In k categories -> canonical k a = IsMethod k.
Proof. intros H. unfold canonical. rewrite (proj2 (mem_In _ _) H). reflexivity. Qed.
Lemma comp_ok_spec o c : comp_ok o c = true <-> (o = None \/ o = Some c).
Proof. destruct o as [c'|]; cbn [comp_ok]; [rewrite eqb_eq|]; split; auto; [intros ->; auto|intros [H|H]; congruence]. Qed.
(** [factors]: every factor of the rows meant, also of rows that load_all passes over *)
Theorem C123_factors s h k f o : In k categories -> (forall r, In r s -> wanted f r -> readable r) ->
  exists x, snd (tstep s (Factors (QName k) f o) (thist s h)) = TFactors x /\
    forall key k' v, In (key, k', v) x <-> k' = k /\ exists r c, In r s /\ wanted f r /\ has_factor r k c v /\ (o = None \/ o = Some c) /\ key = flow_key (lower (r_name r)) c.
Proof.
  intros Hk CV. cbn [tstep]. unfold factors. rewrite (canonical_method k _ Hk). cbv zeta beta iota.
  destruct (cf_rows (Only k) o _ (thist s h)) as ((a1, x), ok) eqn:R.
  destruct (cf_rows_spec s (Only k) o _ (fun r J => proj1 (proj1 (wanted_rows f s r) J)) _ _ _ _ (hist_wf s h) R) as (_ & _ & H3 & H4).
  assert (O: ok = true).
  { apply H4. intros r J Nn. apply wanted_rows in J. apply row_factors_nil. intros k' c v F _ _. exact (CV r (proj1 J) (proj2 J) _ _ _ F Nn). }
  subst ok. exists x. split; [reflexivity|]. rewrite (H3 eq_refl). intros key k' v. rewrite in_flat_map. split.
  - intros (r & J & I). apply wanted_rows in J. apply in_row_factors in I. destruct I as (c & F & -> & T1 & T2). cbn [selects] in T1. rewrite eqb_eq in T1. subst k'.
    split; [reflexivity|]. exists r, c. apply comp_ok_spec in T2. tauto.
  - intros (-> & r & c & I1 & I2 & F & T & ->). exists r. split; [apply wanted_rows; auto|]. apply in_row_factors. exists c. split; [exact F|]. split; [reflexivity|].
    split; [cbn; apply eqb_refl|apply comp_ok_spec; exact T].
Qed.
(** The factor that load_all keeps is the first one of its flow in the answer. *)
Theorem C123_loaded_is_first s h h' n c k v : convertible s -> holds (thist s (h' ++ [Load])) n c k v ->
  exists x1 x2, snd (tstep s (Factors (QName k) None None) (thist s h)) = TFactors (x1 ++ (flow_key n c, k, v) :: x2) /\ forall v', ~ In (flow_key n c, k, v') x1.
Proof.
  intros CV H. apply (C123_loaded s h' CV) in H. destruct H as (i & r & E & En & F & Q).
  assert (Hk: In k categories) by exact (proj2 (factor_comp _ _ _ _ F)). assert (Hc: In c comps) by (exact (proj1 (factor_comp _ _ _ _ F))).
  cbn [tstep]. unfold factors. rewrite (canonical_method k _ Hk). cbv zeta beta iota.
  destruct (cf_rows (Only k) None s (thist s h)) as ((a1, x), ok) eqn:R. destruct (cf_rows_spec s (Only k) None s (fun r J => J) _ _ _ _ (hist_wf s h) R) as (_ & _ & H3 & H4).
  assert (O: ok = true) by (apply H4; intros r' J Nn; apply row_factors_nil; intros k' c' v' F' _ _; exact (CV r' J _ _ _ F' Nn)). subst ok.
  destruct (nth_error_split s i E) as (s1 & s2 & Es & Ls). cbn [snd].
  assert (J: In (flow_key n c, k, v) (row_factors r (Only k) None (cells r))) by (apply in_row_factors; exists c; rewrite En; cbn; rewrite eqb_refl; auto).
  assert (U: forall v', In (flow_key n c, k, v') (row_factors r (Only k) None (cells r)) -> v' = v).
  { intros v' J'. apply in_row_factors in J'. destruct J' as (c' & F' & Ek & _). rewrite En in Ek. apply key_inj in Ek; [|apply comps_comma, Hc|apply comps_comma; exact (proj1 (factor_comp _ _ _ _ F'))]. destruct Ek as (_ & <-). exact (factor_unique _ _ _ _ _ F' F). }
  assert (Z: exists y1 y2, row_factors r (Only k) None (cells r) = y1 ++ (flow_key n c, k, v) :: y2 /\ ~ In (flow_key n c, k, v) y1).
  { clear - J. induction (row_factors r (Only k) None (cells r)) as [|y l IH]; [destruct J|]. destruct y as ((key', k'), v'). 
    destruct (eq_dec (key', k', v') (flow_key n c, k, v)) as [Eq|Ne]; [exists [], l; split; [rewrite Eq; reflexivity|intros []]|].
    destruct J as [J|J]; [contradiction|]. destruct (IH J) as (y1 & y2 & -> & N). exists ((key', k', v') :: y1), y2. split; [reflexivity|]. intros [X|X]; [contradiction|exact (N X)]. }
  destruct Z as (y1 & y2 & Ey & Ny). exists (flat_map (fun r => row_factors r (Only k) None (cells r)) s1 ++ y1), (y2 ++ flat_map (fun r => row_factors r (Only k) None (cells r)) s2).
  split.
  - rewrite (H3 eq_refl), Es, flat_map_app. cbn [flat_map]. rewrite Ey, <- !app_assoc. reflexivity.
  - intros v' I. apply in_app_or in I. destruct I as [I|I].
    + apply in_flat_map in I. destruct I as (r' & I & I'). apply in_row_factors in I'. destruct I' as (c' & F' & Ek & _).
      apply key_inj in Ek; [|apply comps_comma, Hc|apply comps_comma; exact (proj1 (factor_comp _ _ _ _ F'))]. destruct Ek as (En' & <-).
      apply In_nth_error in I. destruct I as (j & Ej). assert (Lj: j < i) by (rewrite <- Ls; eapply nth_error_lt, Ej).
      apply (Q j r' Lj) with (v' := v'); [rewrite Es, nth_error_app1 by lia; exact Ej|congruence|exact F'].
    + assert (I2: In (flow_key n c, k, v') (row_factors r (Only k) None (cells r))) by (rewrite Ey; apply in_or_app; left; exact I). rewrite (U _ I2) in I. exact (Ny I).
Qed.
(** Without a factor given twice, queries and the loaded archive agree. *)
Theorem C123_agree s h h' n c k v : convertible s -> In k categories ->
  (forall r r', In r s -> In r' s -> lower (r_name r) = lower (r_name r') -> (exists w, has_factor r k c w) -> (exists w, has_factor r' k c w) -> r = r') ->
  (holds (thist s (h' ++ [Load])) n c k v <-> In c comps /\ exists x, snd (tstep s (Factors (QName k) None None) (thist s h)) = TFactors x /\ In (flow_key n c, k, v) x).
Proof.
  intros CV Hk U. split.
  - intros H. pose proof H as G. apply (C123_loaded s h' CV) in G. destruct G as (i & r & _ & _ & F & _). split; [exact (proj1 (factor_comp _ _ _ _ F))|].
    destruct (C123_loaded_is_first s h h' n c k v CV H) as (x1 & x2 & E & _). eexists. split; [exact E|]. apply in_or_app. right. left. reflexivity.
  - intros (Hc & x & E & I). destruct (C123_factors s h k None None Hk (fun r J _ => CV r J)) as (x' & E' & Q). rewrite E in E'. injection E' as <-. apply Q in I.
    destruct I as (_ & r & c' & I & _ & F & _ & Ek). apply key_inj in Ek; [|apply comps_comma, Hc|apply comps_comma; exact (proj1 (factor_comp _ _ _ _ F))]. destruct Ek as (-> & <-).
    apply (C123_loaded s h' CV). apply In_nth_error in I. destruct I as (i & Ei).
    destruct (first_rows s (lower (r_name r)) c k) as [v'|] eqn:Z.
    + apply (proj1 (first_rows_spec _ _ _ _ Hc _)) in Z. pose proof Z as (i2 & r2 & E2 & En2 & F2 & _). assert (r2 = r) by exact (U r2 r (nth_error_In _ _ E2) (nth_error_In _ _ Ei) En2 (ex_intro _ _ F2) (ex_intro _ _ F)). subst r2.
      rewrite (factor_unique _ _ _ _ _ F F2). exact Z.
    + exfalso. revert i Ei Z. clear - F Hc. induction s as [|r0 s IH]; intros [|i] Ei Z; [discriminate Ei|discriminate Ei| |]; cbn [first_rows] in Z.
      * injection Ei as ->. rewrite (proj2 (first_in_spec r _ _ k v Hc) (conj eq_refl F)) in Z. discriminate Z.
      * destruct (first_in r0 _ _ _ _); [discriminate Z|]. exact (IH i Ei Z).
Qed.
(** [flowables]: the rows with a factor, with the number of their column 'CAS #' *)
Theorem C123_flowables s h q o : (q = QNone \/ exists k, q = QName k /\ In k categories) -> convertible s -> (forall r, In r s -> numeric_cas (r_cas r) <> None) ->
  exists x, snd (tstep s (Flowables q o) (thist s h)) = TFlowables x /\
    forall cas n, In (cas, n) x <-> exists r k c v, In r s /\ numeric_cas (r_cas r) = Some cas /\ n = lower (r_name r) /\ has_factor r k c v /\ (q = QNone \/ q = QName k) /\ (o = None \/ o = Some c).
Proof.
  intros Hq CV CC. cbn [tstep]. unfold flowables.
  assert (S: exists m, select q (thist s h) = m /\ forall k, selects m k = true <-> (q = QNone \/ q = QName k)).
  { destruct Hq as [->|(k0 & -> & Hk)]; cbn [select].
    - exists Any. split; [reflexivity|]. intros k. cbn. split; auto.
    - rewrite (canonical_method k0 _ Hk). exists (Only k0). split; [reflexivity|]. intros k. cbn. rewrite eqb_eq. split; [intros ->; auto|intros [H|H]; congruence]. }
  destruct S as (m & -> & S). destruct (flow_rows m o s (thist s h)) as (a1, x) eqn:R. destruct (flow_rows_spec s m o s (fun r J => J) _ _ _ (hist_wf s h) R) as (_ & _ & ->).
  assert (A: forall t, (forall r, In r t -> In r s) -> exists x, flow_answer m o t = Some x /\
     forall cas n, In (cas, n) x <-> exists r k c v, In r t /\ numeric_cas (r_cas r) = Some cas /\ n = lower (r_name r) /\ has_factor r k c v /\ selects m k = true /\ comp_ok o c = true).
  { induction t as [|r t IH]; intros Sub.
    - exists []. split; [reflexivity|]. intros cas n. split; [intros []|intros (r & k & c & v & [] & _)].
    - destruct (IH (fun r' J => Sub r' (or_intror J))) as (x & E & Q). cbn [flow_answer]. rewrite E. destruct (row_factors r m o (cells r)) as [|((key0, k0), v0) l] eqn:F.
      + exists x. split; [reflexivity|]. intros cas n. rewrite Q. pose proof (proj1 (row_factors_nil r m o) F) as F'. split.
        * intros (r' & k & c & v & J & rest). exists r', k, c, v. split; [right; exact J|exact rest].
        * intros (r' & k & c & v & [<-|J] & T1 & T2 & T3 & T4 & T5); [destruct (F' _ _ _ T3 T4 T5)|]. exists r', k, c, v. auto 10.
      + assert (I: In (key0, k0, v0) (row_factors r m o (cells r))) by (rewrite F; left; reflexivity). apply in_row_factors in I. destruct I as (c0 & F0 & _ & T1 & T2).
        destruct (numeric_cas (r_fmt r)) as [fc|] eqn:Nf; [|destruct (CV r (Sub r (or_introl eq_refl)) _ _ _ F0 Nf)].
        destruct (numeric_cas (r_cas r)) as [cc|] eqn:Nc; [|destruct (CC r (Sub r (or_introl eq_refl)) Nc)].
        exists ((cc, lower (r_name r)) :: x). split; [reflexivity|]. intros cas n. cbn [In]. rewrite Q. split.
        * intros [[= <- <-]|(r' & k & c & v & J & rest)]; [exists r, k0, c0, v0; auto 10|exists r', k, c, v; split; [right; exact J|exact rest]].
        * intros (r' & k & c & v & [<-|J] & U1 & U2 & U3 & U4 & U5); [left; rewrite Nc in U1; injection U1 as ->; rewrite U2; reflexivity|right]. exists r', k, c, v. auto 10. }
  destruct (A s (fun r J => J)) as (x & E & Q). rewrite E. exists x. split; [destruct Hq as [->|(k0 & -> & _)]; reflexivity|].
  intros cas n. rewrite Q. split; intros (r & k & c & v & J & T1 & T2 & T3 & T4 & T5); exists r, k, c, v; rewrite S, comp_ok_spec in *; auto 10.
Qed.
(** [compartments]: all those of the method, or those for which the first row of the flowable has a factor *)
Theorem C123_compartments s h q f : (q = QNone \/ exists k, q = QName k /\ In k categories) ->
  match f with
  | None => exists x, snd (tstep s (Compartments q f) (thist s h)) = TComps x /\ NoDup x /\ forall c, In c x <-> exists k, In (k, c) columns /\ (q = QNone \/ q = QName k)
  | Some f' =>
      (forall s1 r s2, s = s1 ++ r :: s2 -> (forall r', In r' s1 -> keyed f' r' = false) -> keyed f' r = true ->
        exists x, snd (tstep s (Compartments q f) (thist s h)) = TComps x /\ NoDup x /\ forall c, In c x <-> exists k v, has_factor r k c v /\ (q = QNone \/ q = QName k)) /\
      ((forall r, In r s -> keyed f' r = false) -> snd (tstep s (Compartments q f) (thist s h)) = TErr ERuntime)
  end.
Proof.
  intros Hq. cbn [tstep snd]. unfold compartments.
  assert (S: exists m, select q (thist s h) = m /\ m <> Never /\ forall k, selects m k = true <-> (q = QNone \/ q = QName k)).
  { destruct Hq as [->|(k0 & -> & Hk)]; cbn [select].
    - exists Any. split; [reflexivity|]. split; [discriminate|]. intros k. cbn. split; auto.
    - rewrite (canonical_method k0 _ Hk). exists (Only k0). split; [reflexivity|]. split; [discriminate|]. intros k. cbn. rewrite eqb_eq. split; [intros ->; auto|intros [H|H]; congruence]. }
  destruct S as (m & -> & Nm & S).
  assert (X: forall g : sel -> list string, match m with Never => TErr EKey | Any => TComps (g Any) | Only k => TComps (g (Only k)) end = TComps (g m)) by (intros g; destruct m; [reflexivity|congruence|reflexivity]).
  assert (Y: forall y : tres, (match q with QEntity => TErr EAttr | _ => y end) = y) by (intros y; destruct Hq as [->|(k0 & -> & _)]; reflexivity).
  destruct f as [f'|].
  - split.
    + intros s1 r s2 -> N1 N2. assert (Fi: find (keyed f') (s1 ++ r :: s2) = Some r).
      { clear - N1 N2. induction s1 as [|r0 s1 IH]; cbn [app find]; [rewrite N2; reflexivity|]. rewrite (N1 r0 (or_introl eq_refl)). apply IH. intros r' J. apply N1. right. exact J. }
      rewrite Fi. exists (comps_of m (cells r)). split; [destruct Hq as [->|(k0 & -> & _)]; apply (X (fun m => comps_of m (cells r)))|]. split; [apply NoDup_set_of|]. intros c. unfold comps_of. rewrite In_set_of, in_flat_map. split.
      * intros (((k, c'), [v|]) & I & T); [|destruct T]. destruct (selects m k && negb (eqb v 0%Qc)) eqn:B; [|destruct T]. destruct T as [<-|[]]. apply Bool.andb_true_iff in B. destruct B as (B1 & B2).
        apply Bool.negb_true_iff, eqb_neq in B2. exists k, v. split; [apply cells_factor; auto|apply S, B1].
      * intros (k & v & F & T). apply cells_factor in F. destruct F as (I & Z). exists ((k, c), Some v). split; [exact I|]. cbv beta iota. rewrite (proj2 (S k) T), (proj2 (eqb_neq _ _) Z). left. reflexivity.
    + intros N1. assert (Fi: find (keyed f') s = None). { clear - N1. induction s as [|r0 s IH]; [reflexivity|]. cbn [find]. rewrite (N1 r0 (or_introl eq_refl)). apply IH. intros r' J. apply N1. right. exact J. }
      rewrite Fi. apply Y.
  - exists (set_of (map snd (filter (fun x => selects m (fst x)) columns))). split; [destruct Hq as [->|(k0 & -> & _)]; apply (X (fun m => set_of (map snd (filter (fun x => selects m (fst x)) columns))))|]. split; [apply NoDup_set_of|]. intros c. rewrite In_set_of, in_map_iff. split.
    + intros ((k, c') & <- & I). apply filter_In in I. destruct I as (I & T). exists k. split; [exact I|apply S, T].
    + intros (k & I & T). exists (k, c). split; [reflexivity|]. apply filter_In. split; [exact I|apply S, T].
Qed.
(** The answers to queries for a method do not depend on what was asked or loaded before. *)
Theorem C123_same_answers s h h' q f o : (q = QNone \/ exists k, q = QName k /\ In k categories) ->
  snd (tstep s (Factors q f o) (thist s h)) = snd (tstep s (Factors q f o) (thist s h')) /\
  snd (tstep s (Flowables q o) (thist s h)) = snd (tstep s (Flowables q o) (thist s h')) /\
  snd (tstep s (Compartments q f) (thist s h)) = snd (tstep s (Compartments q f) (thist s h')).
Proof.
  intros Hq. assert (SE: select q (thist s h) = select q (thist s h')) by (destruct Hq as [->|(k & -> & Hk)]; cbn [select]; [reflexivity|rewrite !(canonical_method k _ Hk); reflexivity]).
  cbn [tstep snd]. split; [|split].
  - destruct Hq as [->|(k & -> & Hk)]; [reflexivity|]. unfold factors. rewrite !(canonical_method k _ Hk). cbv zeta beta iota. set (rows := match f with None => s | Some f0 => filter (keyed f0) s end).
    assert (Sub: forall r, In r rows -> In r s) by (intros r J; apply (wanted_rows f s r); exact J).
    destruct (cf_rows (Only k) o rows (thist s h)) as ((a1, x), ok) eqn:R. destruct (cf_rows (Only k) o rows (thist s h')) as ((a2, y), ok') eqn:R'.
    destruct (cf_rows_spec s _ _ _ Sub _ _ _ _ (hist_wf s h) R) as (_ & _ & A3 & A4). destruct (cf_rows_spec s _ _ _ Sub _ _ _ _ (hist_wf s h') R') as (_ & _ & B3 & B4).
    destruct ok, ok'; cbn [snd]; [rewrite A3, B3 by reflexivity; reflexivity| | |reflexivity].
    + assert (false = true) by (apply B4, A4; reflexivity). discriminate.
    + assert (false = true) by (apply A4, B4; reflexivity). discriminate.
  - unfold flowables. rewrite SE. destruct (flow_rows _ o s (thist s h)) as (a1, x) eqn:R. destruct (flow_rows _ o s (thist s h')) as (a2, y) eqn:R'.
    destruct (flow_rows_spec s _ _ _ (fun r J => J) _ _ _ (hist_wf s h) R) as (_ & _ & ->). destruct (flow_rows_spec s _ _ _ (fun r J => J) _ _ _ (hist_wf s h') R') as (_ & _ & ->).
    destruct q; [| |reflexivity]; destruct (flow_answer _ o s); reflexivity.
  - unfold compartments. rewrite SE. reflexivity.
Qed.

(** ** Witnesses and what is refuted *)
Definition gw (v : Q) : list (option Qc) := [Some (Q2Qc v)].
Definition acid (v : Q) : list (option Qc) := [None; Some (Q2Qc v)].
Definition water (v : Q) : list (option Qc) := [None; None; None; None; Some (Q2Qc v)].
Definition txt (s : string) : list ascii := list_ascii_of_string s.
Definition co2 : trow := Row "Carbon Dioxide" (CText "124-38-9") (CNum 124389) (gw 1 ++ [None; Some 0%Qc]).
Definition ch4 : trow := Row "Methane" (CNum 74828) (CNum 74828) (gw 25).
Definition gwp := "Global Warming Air".
Theorem C123_witness : convertible [co2; ch4] /\ In gwp categories /\
  dget "methane, air" (ta_fl (thist [co2; ch4] [Load])) = Some (TF "methane" "air" (Some (txt "74-82-8")) [(gwp, Q2Qc 25)]) /\
  snd (tstep [co2; ch4] (Factors (QName gwp) (Some "124-38-9") (Some "air")) tnew) = TFactors [("carbon dioxide, air", gwp, Q2Qc 1)] /\
  snd (tstep [co2; ch4] (Flowables (QName gwp) None) tnew) = TFlowables [(Some (txt "124-38-9"), "carbon dioxide"); (Some (txt "74-82-8"), "methane")] /\
  snd (tstep [co2; ch4] (Compartments QNone (Some "METHANE")) tnew) = TComps ["air"].
Proof.
  split. { intros r [<-|[<-|[]]] k c v _; vm_compute; discriminate. }
  split. { apply mem_In. vm_compute. reflexivity. }
  repeat split; vm_compute; reflexivity.
Qed.
(** A CAS number of ten digits, or an empty cell, in one row: load_all never finishes, and the rows behind it are lost. *)
Definition tall (c : cell) : trow := Row "Newstuff" c (CNum 1234567890) (gw 3).
Theorem C123_refuted_long_cas : (forall h, snd (tstep [tall (CText "1234567-89-0"); co2] Load (thist [tall (CText "1234567-89-0"); co2] h)) = TErr EValue) /\
  (forall h, snd (tstep [tall (CText ""); co2] Load (thist [tall (CText ""); co2] h)) = TErr EValue) /\
  ta_fl (thist [tall (CText ""); co2] [Load; Load]) = [] /\
  snd (tstep [tall (CText ""); co2] (Factors (QName gwp) None None) tnew) = TErr EValue.
Proof.
  assert (N: forall c, numeric_cas c = None -> forall h, snd (tstep [tall c; co2] Load (thist [tall c; co2] h)) = TErr EValue).
  { intros c E h. destruct (C123_load_succeeds [tall c; co2] h) as (A & B). apply B. rewrite A. intros CV. refine (CV (tall c) (or_introl eq_refl) gwp "air" (Q2Qc 3) _ E).
    exists 0. split; [reflexivity|]. split; [reflexivity|]. intros X. discriminate X. }
  split; [apply N; reflexivity|]. split; [apply N; reflexivity|]. split; vm_compute; reflexivity.
Qed.
(** Even where the cells hold numbers: nothing is found under the CAS number the flow was given. *)
Theorem C123_refuted_long_cas_query : let s := [tall (CNum 1234567890)] in
  (exists f, dget "newstuff, air" (ta_fl (thist s [Load])) = Some f /\ tf_cas f = Some (txt "1234567-89-0")) /\
  snd (tstep s (Factors (QName gwp) (Some "1234567-89-0") None) (thist s [Load])) = TFactors [].
Proof. split; [eexists; split; vm_compute; reflexivity|vm_compute; reflexivity]. Qed.
(** An unknown quantity has no factors, but all the flowables and compartments. *)
Theorem C123_refuted_unknown : let s := [co2; ch4] in let q := QName "Acidification" in
  snd (tstep s (Factors q None None) tnew) = TFactors [] /\ snd (tstep s (Flowables q None) tnew) = snd (tstep s (Flowables QNone None) tnew) /\
  snd (tstep s (Compartments q None) tnew) = snd (tstep s (Compartments QNone None) tnew) /\ snd (tstep s (Flowables q None) tnew) <> TFlowables [].
Proof. repeat split; try (vm_compute; reflexivity). vm_compute. discriminate. Qed.
(** Answers depend on what was loaded before, if a flow is named in place of a quantity. *)
Theorem C123_refuted_history : let s := [co2; ch4] in let q := QName "methane, air" in
  snd (tstep s (Flowables q None) tnew) <> TFlowables [] /\ snd (tstep s (Flowables q None) (thist s [Load])) = TFlowables [] /\
  snd (tstep s (Compartments q (Some "methane")) tnew) = TComps ["air"] /\ snd (tstep s (Compartments q (Some "methane")) (thist s [Load])) = TErr EKey.
Proof. split; [vm_compute; discriminate|]. repeat split; vm_compute; reflexivity. Qed.
(** Two rows of one name: the query gives two factors where load_all keeps one; the compartments are those of the first row. *)
Theorem C123_refuted_same_name : let s := [ch4; Row "METHANE" (CText "x") (CNum 74828) (gw 28); Row "methane" (CText "x") (CNum 74828) (water 2)] in
  snd (tstep s (Factors (QName gwp) (Some "methane") None) tnew) = TFactors [("methane, air", gwp, Q2Qc 25); ("methane, air", gwp, Q2Qc 28)] /\
  holds (thist s [Load]) "methane" "air" gwp (Q2Qc 25) /\ ~ holds (thist s [Load]) "methane" "air" gwp (Q2Qc 28) /\
  holds (thist s [Load]) "methane" "water" "Eutrophication Water" (Q2Qc 2) /\ snd (tstep s (Compartments QNone (Some "methane")) (thist s [Load])) = TComps ["air"].
Proof.
  cbv zeta. split; [vm_compute; reflexivity|]. split; [exists "methane, air"; eexists; split; [vm_compute; reflexivity|]; split; [reflexivity|]; split; [reflexivity|vm_compute; reflexivity]|]. split.
  - intros (key & f & E & En & Ec & K). assert (X: key = "methane, air").
    { destruct (hist_wf [ch4; Row "METHANE" (CText "x") (CNum 74828) (gw 28); Row "methane" (CText "x") (CNum 74828) (water 2)] [Load]) as (_ & W). destruct (W _ _ E) as (-> & _). rewrite En, Ec. reflexivity. }
    subst key. vm_compute in E. injection E as <-. vm_compute in K. discriminate K.
  - split; [exists "methane, water"; eexists; split; [vm_compute; reflexivity|]; split; [reflexivity|]; split; [reflexivity|vm_compute; reflexivity]|vm_compute; reflexivity].
Qed.
(** The CAS number of a flow depends on what was asked first. *)
Theorem C123_refuted_cas_order : let s := [Row "Stuff" (CText "100-00-1") (CNum 100001) (gw 1); Row "stuff" (CText "200-00-2") (CNum 200002) (acid 1)] in
  option_map tf_cas (dget "stuff, air" (ta_fl (thist s [Load]))) = Some (Some (txt "100-00-1")) /\
  option_map tf_cas (dget "stuff, air" (ta_fl (thist s [Factors (QName "Acidification Air") None None; Load]))) = Some (Some (txt "200-00-2")).
Proof. split; vm_compute; reflexivity. Qed.

Print Assumptions C123_cas. Print Assumptions C123_cas_formatted. Print Assumptions C123_load_succeeds. Print Assumptions C123_loaded. Print Assumptions C123_sound. Print Assumptions C123_flows. Print Assumptions C123_no_stray_flows.
Print Assumptions C123_factors. Print Assumptions C123_loaded_is_first. Print Assumptions C123_agree. Print Assumptions C123_flowables. Print Assumptions C123_compartments. Print Assumptions C123_same_answers. Print Assumptions C123_refuted_same_name.

(** C47: the reference made up for a source. *)
From Verif Require Import Base PyStr StoreModel.
Open Scope string_scope.
Open Scope list_scope.

(** Specification, on lists of characters. *)
Fixpoint chars (s : string) : list ascii := match s with EmptyString => [] | String c r => c :: chars r end.
Definition sanitized (s : string) : list ascii :=
  map (fun c => if Ascii.eqb c "/" || Ascii.eqb c "\" then "."%char else c)
      (filter (fun c => negb (Ascii.eqb c ":" || Ascii.eqb c "~")) (chars s)).
Definition dot : ascii := "."%char.
Definition known_ext (e : string) : Prop := In e [".gz"; ".json"; ".zip"; ".txt"; ".spold"; ".7z"].

Lemma chars_app a b : chars (a ++ b)%string = chars a ++ chars b.
Proof. induction a; cbn; congruence. Qed.
Lemma chars_inj a : forall b, chars a = chars b -> a = b.
Proof. induction a as [|c a IH]; intros [|d b] E; try discriminate; [reflexivity|]. injection E as -> E. f_equal. auto. Qed.
Lemma translate_spec s : chars (translate s) = sanitized s.
Proof.
  unfold sanitized. induction s as [|c r IH]; cbn [translate chars filter map]; [reflexivity|].
  destruct (Ascii.eqb_spec c "/") as [->|N1]; [cbn; rewrite IH; reflexivity|]. destruct (Ascii.eqb_spec c "\") as [->|N2]; [cbn; rewrite IH; reflexivity|].
  cbn [orb]. destruct (Ascii.eqb c ":" || Ascii.eqb c "~"); cbn [negb]; [exact IH|]. cbn [chars map]. rewrite IH. f_equal.
  destruct (Ascii.eqb_spec c "/"); [contradiction|]. destruct (Ascii.eqb_spec c "\"); [contradiction|]. reflexivity.
Qed.
Lemma split_last_dot_app s a b : split_last_dot s = Some (a, b) -> chars s = chars a ++ chars b.
Proof.
  revert a b. induction s as [|c r IH]; intros a b; cbn; [discriminate|]. destruct (split_last_dot r) as [[a' b']|].
  - intros [= <- <-]. cbn. rewrite (IH a' b' eq_refl). reflexivity.
  - destruct (Ascii.eqb c "."); [|discriminate]. intros [= <- <-]. reflexivity.
Qed.
Lemma splitext_app s : chars s = chars (fst (splitext s)) ++ chars (snd (splitext s)).
Proof.
  unfold splitext. destruct (split_last_dot s) as [[a b]|] eqn:E; [|cbn; rewrite app_nil_r; reflexivity].
  destruct (all_dots a); [cbn; rewrite app_nil_r; reflexivity|]. apply split_last_dot_app. exact E.
Qed.
Lemma strip_exts_app n : forall s, exists es, Forall known_ext es /\ chars s = chars (strip_exts n s) ++ concat (map chars es).
Proof.
  induction n as [|n IH]; intros s; cbn [strip_exts]; [exists []; cbn; rewrite app_nil_r; auto|].
  destruct (mem (snd (splitext s)) known_exts) eqn:M; [|exists []; cbn; rewrite app_nil_r; auto].
  destruct (IH (fst (splitext s))) as (es & F & E). exists (es ++ [snd (splitext s)]). split.
  - apply Forall_app. split; [exact F|]. constructor; [|constructor]. apply mem_In in M. exact M.
  - rewrite map_app, concat_app, app_assoc, <- E. cbn [map concat]. rewrite app_nil_r. apply splitext_app.
Qed.
Lemma lstrip_spec s y : lstrip_dots s = Some y -> (exists a, chars s = repeat dot a ++ chars y) /\ exists c r, y = String c r /\ c <> dot.
Proof.
  induction s as [|c r IH]; cbn; [discriminate|]. destruct (Ascii.eqb_spec c ".") as [->|N].
  - intros E. destruct (IH E) as ((a & E1) & H). split; [|exact H]. exists (S a). cbn. rewrite E1. reflexivity.
  - intros [= <-]. split; [exists 0; reflexivity|]. exists c, r. auto.
Qed.
Lemma rstrip_spec s : (exists b, chars s = chars (rstrip_dots s) ++ repeat dot b) /\
  (rstrip_dots s = EmptyString \/ exists l c, chars (rstrip_dots s) = l ++ [c] /\ c <> dot).
Proof.
  induction s as [|c r ((b & E) & H)]; [split; [exists 0; reflexivity|left; reflexivity]|]. cbn [rstrip_dots].
  destruct (rstrip_dots r) as [|d q] eqn:R.
  - cbn in E. destruct (Ascii.eqb_spec c ".") as [->|N].
    + split; [exists (S b); cbn; rewrite E; reflexivity|left; reflexivity].
    + split; [exists b; cbn; rewrite E; reflexivity|]. right. exists [], c. auto.
  - split; [exists b; cbn [chars app]; rewrite E; reflexivity|]. right. destruct H as [H|(l & x & EL & N)]; [discriminate|].
    exists (c :: l), x. cbn [chars] in *. rewrite EL. auto.
Qed.

(** The reference made up for a source is "local." and the source with path separators turned into dots, colons and tildes
    left out, without known extensions at the end and without dots at either end. *)
Theorem C47_local_reference source r : local_ref (Some source) = SOk r ->
  exists t a b es, r = ("local." ++ t)%string /\
    sanitized source = repeat dot a ++ chars t ++ repeat dot b ++ concat (map chars es) /\ Forall known_ext es /\
    (exists c l, chars t = c :: l /\ c <> dot) /\ (exists l c, chars t = l ++ [c] /\ c <> dot).
Proof.
  unfold local_ref. destruct (lstrip_dots _) as [y|] eqn:L; [|discriminate]. intros [= <-].
  apply lstrip_spec in L as ((a & EA) & c & q & Ey & N). destruct (strip_exts_app (String.length (translate source)) (translate source)) as (es & F & ES).
  rewrite translate_spec, EA in ES. destruct (rstrip_spec y) as ((b & EB) & H).
  assert (HD : exists l, chars (rstrip_dots y) = c :: l).
  { rewrite Ey in EB |- *. cbn [rstrip_dots] in EB |- *. destruct (rstrip_dots q) as [|d q']; [|eexists; reflexivity].
    destruct (Ascii.eqb_spec c "."); [contradiction|]. eexists; reflexivity. }
  exists (rstrip_dots y), a, b, es. split; [reflexivity|]. split; [rewrite ES, EB, <- !app_assoc; reflexivity|]. split; [exact F|].
  destruct HD as (l & HD). split; [exists c, l; auto|]. destruct H as [H|H]; [|exact H]. rewrite H in HD. discriminate.
Qed.

(** So it can serve as a file name: no separators. *)
Theorem C47_local_reference_is_a_file_name source r c : local_ref (Some source) = SOk r -> In c (chars r) ->
  c <> "/"%char /\ c <> "\"%char /\ c <> ":"%char /\ c <> "~"%char.
Proof.
  intros E J. apply C47_local_reference in E as (t & a & b & es & -> & S & _). rewrite chars_app in J. apply in_app_iff in J as [J|J].
  - cbn in J. repeat (destruct J as [<-|J]; [repeat split; discriminate|]). destruct J.
  - assert (JS : In c (sanitized source)) by (rewrite S; rewrite !in_app_iff; auto).
    unfold sanitized in JS. apply in_map_iff in JS as (d & Ed & Jd). apply filter_In in Jd as [_ Fd].
    revert Ed Fd. destruct (Ascii.eqb_spec d "/") as [X|N1]; [cbn; intros <- _; repeat split; discriminate|].
    destruct (Ascii.eqb_spec d "\") as [X|N2]; [cbn; intros <- _; repeat split; discriminate|]. cbn [orb]. intros <-.
    destruct (Ascii.eqb_spec d ":"); [discriminate|]. destruct (Ascii.eqb_spec d "~"); [discriminate|]. auto.
Qed.
Print Assumptions C47_local_reference.
Print Assumptions C47_local_reference_is_a_file_name.

Example C47_local_reference_example : local_ref (Some "/home/user/data~1/ecoinvent.7z") = SOk "local.home.user.data1.ecoinvent".
Proof. reflexivity. Qed.
(** Different sources may get the same reference. *)
Theorem C47_local_reference_distinct_refuted : exists a b r, a <> b /\ local_ref (Some a) = SOk r /\ local_ref (Some b) = SOk r.
Proof. exists "/data/x.json", "/data/x.json.gz", "local.data.x". repeat split; discriminate. Qed.
Print Assumptions C47_local_reference_distinct_refuted.

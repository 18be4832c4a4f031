(** C130: the parts of a text, delimiter by delimiter (tools.py:64, 71).  With [C130_one_part] these equations say what the parts
    of any text are. *)
From Coq Require Import String Ascii Lia.
From Verif Require Import Base PyStr TagModel TagProps.
Open Scope string_scope.
Open Scope nat_scope.
Open Scope list_scope.
Local Arguments String.eqb : simpl never.
Local Arguments Ascii.eqb : simpl never.

Lemma opens_sep d a b : is_space d = false -> d <> "("%char -> opens (a ++ String d b) = opens a.
Proof.
  intros S N. unfold opens. destruct (lstrip_app a (String d b)) as [(c & r & -> & ->)|(-> & ->)]; [reflexivity|].
  cbn [lstrip]. rewrite S. destruct d as [[] [] [] [] [] [] [] []]; try reflexivity. easy.
Qed.
Lemma scan_sep d a : is_space d = false -> d <> "("%char -> takes_space d || Ascii.eqb d "/" = true -> forall m cur b, (m = Paren -> opens a = true) ->
  scan m cur (a ++ String d b) = scan m cur a ++ scan (if takes_space d then Skip else Norm) "" b.
Proof.
  intros Sd Nd Td. induction a as [|c a IH]; intros m cur b Pm.
  - cbn [append]. destruct m; [| |discriminate (Pm eq_refl)]; cbn [scan]; rewrite Sd; cbv iota; destruct (takes_space d); cbn [orb] in Td; try rewrite Td;
      rewrite <- emit_app; reflexivity.
  - change (String c a ++ String d b)%string with (String c (a ++ String d b)). cbn [scan].
    change (String c (a ++ String d b)) with (String c a ++ String d b)%string. rewrite (opens_sep d _ b Sd Nd).
    set (tl := scan (if takes_space d then Skip else Norm) "" b) in *.
    assert (Body : (if takes_space c then emit cur (scan Skip "" (a ++ String d b))
      else if Ascii.eqb c "/" then emit cur (scan Norm "" (a ++ String d b))
      else if opens (String c a) then emit cur (if is_space c then scan Paren "" (a ++ String d b) else scan Norm "" (a ++ String d b))
      else scan Norm (snoc cur c) (a ++ String d b)) =
      (if takes_space c then emit cur (scan Skip "" a)
      else if Ascii.eqb c "/" then emit cur (scan Norm "" a)
      else if opens (String c a) then emit cur (if is_space c then scan Paren "" a else scan Norm "" a)
      else scan Norm (snoc cur c) a) ++ tl).
    { destruct (takes_space c); [rewrite IH by discriminate; apply emit_app|]. destruct (Ascii.eqb c "/"); [rewrite IH by discriminate; apply emit_app|].
      destruct (opens (String c a)) eqn:O; [|apply IH; discriminate]. rewrite <- emit_app. f_equal. destruct (is_space c) eqn:S; apply IH; [|discriminate].
      intros _. unfold opens in *. cbn [lstrip] in O. rewrite S in O. exact O. }
    destruct m; [exact Body|destruct (is_space c); [apply IH; discriminate|exact Body]|].
    specialize (Pm eq_refl). destruct (is_space c) eqn:S; apply IH; [|discriminate]. intros _. unfold opens in *. cbn [lstrip] in Pm. rewrite S in Pm. exact Pm.
Qed.
Lemma scan_skip_lstrip b : scan Skip "" b = pieces (lstrip b).
Proof.
  induction b as [|c b IH]; [reflexivity|]. cbn [scan lstrip]. destruct (is_space c) eqn:S; [exact IH|].
  unfold pieces. cbn [scan]. rewrite S. reflexivity.
Qed.
(** A semicolon, a comma or a closing parenthesis ends a part, and the white space behind it is dropped. *)
Theorem C130_at_stop d a b : d = ";"%char \/ d = ","%char \/ d = ")"%char -> pieces (a ++ String d b) = pieces a ++ pieces (lstrip b).
Proof.
  intros D. unfold pieces at 1 2. rewrite <- scan_skip_lstrip.
  assert (T : takes_space d = true) by (destruct D as [-> | [-> | ->]]; reflexivity).
  rewrite scan_sep; [rewrite T; reflexivity|..].
  - destruct D as [-> | [-> | ->]]; reflexivity.
  - destruct D as [-> | [-> | ->]]; discriminate.
  - rewrite T. reflexivity.
  - discriminate.
Qed.
(** A slash ends a part. *)
Theorem C130_at_slash a b : pieces (a ++ String "/" b) = pieces a ++ pieces b.
Proof. apply (scan_sep "/"); [reflexivity|discriminate|reflexivity|discriminate]. Qed.

Lemma rstrip_cons c a : rstrip (String c a) = if is_space c && String.eqb (rstrip a) "" then "" else String c (rstrip a).
Proof.
  cbn [rstrip]. destruct (rstrip a) as [|x r]; [destruct (is_space c); reflexivity|]. destruct (is_space c); reflexivity.
Qed.
Lemma blank_open a b : rstrip a = "" ->
  scan Paren "" (a ++ String "(" b) = scan Norm "" b /\ opens (a ++ String "(" b) = true
  /\ forall m cur, m <> Paren -> scan m cur (a ++ String "(" b) = emit cur (scan Norm "" b).
Proof.
  induction a as [|c a IH]; intros R.
  - split; [reflexivity|]. split; [reflexivity|]. intros m cur N. destruct m; [reflexivity|reflexivity|easy].
  - rewrite rstrip_cons in R. destruct (is_space c) eqn:S; cbn [andb] in R; [|discriminate]. destruct (String.eqb_spec (rstrip a) "") as [R'|]; [|discriminate].
    destruct (IH R') as (P & O & Q). cbn [append].
    assert (O' : opens (String c (a ++ String "(" b)) = true) by (unfold opens in *; cbn [lstrip]; rewrite S; exact O).
    split; [cbn [scan]; rewrite S; exact P|]. split; [exact O'|]. intros m cur N. cbn [scan].
    assert (T : takes_space c = false /\ Ascii.eqb c "/" = false).
    { pose proof (space_plain c S) as D. unfold delimiter in D. split; [|apply Ascii.eqb_neq; intros ->; apply D; cbn; auto 8].
      unfold takes_space. destruct (Ascii.eqb_spec c ";") as [->|]; [destruct D; cbn; auto|]. destruct (Ascii.eqb_spec c ",") as [->|]; [destruct D; cbn; auto|].
      destruct (Ascii.eqb_spec c ")") as [->|]; [destruct D; cbn; auto 8|reflexivity]. }
    destruct T as (T1 & T2). rewrite T1, T2, O', S, P. destruct m; [reflexivity|apply Q; discriminate|easy].
Qed.
Lemma opens_rstrip a b : rstrip a <> "" -> opens (a ++ String "(" b) = opens (rstrip a).
Proof.
  induction a as [|c a IH]; intros R; [easy|]. rewrite rstrip_cons in *. destruct (is_space c && String.eqb (rstrip a) "") eqn:Q; [easy|].
  unfold opens in *. cbn [append lstrip]. destruct (is_space c) eqn:S; [|reflexivity]. cbn [andb] in Q. apply IH. apply String.eqb_neq. exact Q.
Qed.
Lemma scan_open a : forall m cur b, (m = Paren -> opens (rstrip a) = true) ->
  scan m cur (a ++ String "(" b) = scan m cur (rstrip a) ++ scan Norm "" b.
Proof.
  induction a as [|c a IH]; intros m cur b Pm.
  - destruct m; [| |discriminate (Pm eq_refl)]; cbn [append rstrip scan]; rewrite <- emit_app; reflexivity.
  - rewrite rstrip_cons in *. destruct (is_space c && String.eqb (rstrip a) "") eqn:Q.
    + apply andb_prop in Q as (S & Q). apply String.eqb_eq in Q.
      assert (R : rstrip (String c a) = "") by (rewrite rstrip_cons, S, Q; reflexivity).
      destruct (blank_open (String c a) b R) as (_ & _ & G). destruct m; [| |discriminate (Pm eq_refl)];
        rewrite G by discriminate; cbn [scan]; rewrite <- emit_app; reflexivity.
    + assert (O : opens (String c a ++ String "(" b) = opens (String c (rstrip a))).
      { rewrite opens_rstrip; rewrite rstrip_cons, Q; [reflexivity|discriminate]. }
      change (String c a ++ String "(" b)%string with (String c (a ++ String "(" b)) in *. cbn [scan]. rewrite O.
      set (tl := scan Norm "" b) in *.
      assert (Body : (if takes_space c then emit cur (scan Skip "" (a ++ String "(" b))
        else if Ascii.eqb c "/" then emit cur (scan Norm "" (a ++ String "(" b))
        else if opens (String c (rstrip a)) then emit cur (if is_space c then scan Paren "" (a ++ String "(" b) else scan Norm "" (a ++ String "(" b))
        else scan Norm (snoc cur c) (a ++ String "(" b)) =
        (if takes_space c then emit cur (scan Skip "" (rstrip a))
        else if Ascii.eqb c "/" then emit cur (scan Norm "" (rstrip a))
        else if opens (String c (rstrip a)) then emit cur (if is_space c then scan Paren "" (rstrip a) else scan Norm "" (rstrip a))
        else scan Norm (snoc cur c) (rstrip a)) ++ tl).
      { destruct (takes_space c); [rewrite IH by discriminate; apply emit_app|]. destruct (Ascii.eqb c "/"); [rewrite IH by discriminate; apply emit_app|].
        destruct (opens (String c (rstrip a))) eqn:O'; [|apply IH; discriminate]. rewrite <- emit_app. f_equal. destruct (is_space c) eqn:S; apply IH; [|discriminate].
        intros _. unfold opens in *. cbn [lstrip] in O'. rewrite S in O'. exact O'. }
      destruct m; [exact Body|destruct (is_space c); [apply IH; discriminate|exact Body]|].
      specialize (Pm eq_refl). destruct (is_space c) eqn:S; apply IH; [|discriminate]. intros _. unfold opens in *. cbn [lstrip] in Pm. rewrite S in Pm. exact Pm.
Qed.
(** An opening parenthesis ends a part, and the white space before it is dropped. *)
Theorem C130_at_open a b : pieces (a ++ String "(" b) = pieces (rstrip a) ++ pieces b.
Proof. apply scan_open. discriminate. Qed.
Theorem C130_delimiters_witness :
  pieces ("steel  " ++ "(hot /cold)  ; x") = ["steel"; "hot "; "cold"; "x"] /\ pieces ("a " ++ String ";" "  b ") = ["a "; "b "].
Proof. vm_compute. split; reflexivity. Qed.
Print Assumptions C130_at_stop.
Print Assumptions C130_at_slash.
Print Assumptions C130_at_open.

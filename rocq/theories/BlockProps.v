(** C131: text blocks (xml_widgets.py). *)
From Coq Require Import String Ascii Permutation Sorted Lia.
From Verif Require Import Base TableModel TableProofs BlockModel.
Open Scope string_scope.
Open Scope nat_scope.
Open Scope list_scope.
Local Arguments String.eqb : simpl never.
Local Arguments Ascii.eqb : simpl never.
Local Arguments eqb : simpl never.

Lemma sapp_assoc (a b c : string) : (a ++ b ++ c)%string = ((a ++ b) ++ c)%string.
Proof. induction a; cbn; congruence. Qed.
Lemma slength_app (a b : string) : String.length (a ++ b) = String.length a + String.length b.
Proof. induction a as [|x a IH]; cbn; [reflexivity|]. rewrite IH. reflexivity. Qed.
Fixpoint drop (k : nat) (s : string) : string := match k, s with S k, String _ r => drop k r | _, _ => s end.
Lemma sub_drop k : forall s, sub_refs k s = sub_refs 0 (drop k s).
Proof. induction k as [|k IH]; [reflexivity|]. intros [|c r]; [reflexivity|]. cbn. apply IH. Qed.
Lemma drop_length k : forall s, String.length (drop k s) <= String.length s.
Proof. induction k; intros [|c s]; cbn; try lia. specialize (IHk s). lia. Qed.
Lemma drop_app a : forall b, drop (String.length a) (a ++ b) = b.
Proof. induction a; cbn; auto. Qed.

(** A name: not empty, of letters, digits and underscores. *)
Fixpoint wordy (s : string) : Prop := match s with EmptyString => True | String c r => word_char c = true /\ wordy r end.
Definition name (n : string) : Prop := n <> "" /\ wordy n.
Definition ref (n : string) : string := ("{{" ++ n ++ "}}")%string.
Lemma word_split s : s = (fst (word s) ++ snd (word s))%string /\ wordy (fst (word s))
  /\ match snd (word s) with String c _ => word_char c = false | EmptyString => True end.
Proof.
  induction s as [|c s (A & B & C)]; [easy|]. cbn [word]. destruct (word_char c) eqn:W; cbn [fst snd].
  - split; [cbn; congruence|]. split; [split; assumption|exact C].
  - split; [reflexivity|]. split; [exact I|exact W].
Qed.
Lemma word_of n t : wordy n -> match t with String c _ => word_char c = false | EmptyString => True end -> word (n ++ t) = (n, t).
Proof.
  intros W T. induction n as [|c n IH]; cbn [append word].
  - destruct t as [|c t]; [reflexivity|]. cbn [word]. rewrite T. reflexivity.
  - destruct W as [W1 W2]. rewrite W1, (IH W2). reflexivity.
Qed.
Lemma match_ref_spec s n : match_ref s = Some n <-> name n /\ exists t, s = (ref n ++ t)%string.
Proof.
  split.
  - destruct s as [|a [|b r]]; try discriminate. cbn [match_ref].
    destruct (Ascii.eqb_spec a "{") as [->|]; [|discriminate]. destruct (Ascii.eqb_spec b "{") as [->|]; [|discriminate]. cbn [andb].
    pose proof (word_split r) as (A & B & _). destruct (word r) as [w t]. cbn [fst snd] in *. destruct w as [|c w]; [discriminate|]. destruct t as [|x [|y t]]; try discriminate.
    destruct (Ascii.eqb_spec x "}") as [->|]; [|discriminate]. destruct (Ascii.eqb_spec y "}") as [->|]; [|discriminate]. intros [= <-].
    split; [split; [discriminate|exact B]|]. exists t. unfold ref. rewrite <- sapp_assoc. rewrite <- sapp_assoc. cbn [append] in *. rewrite A. reflexivity.
  - intros ((N & W) & t & ->). unfold ref. rewrite <- sapp_assoc, <- sapp_assoc. cbn [append match_ref].
    change (Ascii.eqb "{" "{") with true. cbn [andb]. rewrite word_of; [|exact W|reflexivity]. destruct n as [|c n]; [easy|]. reflexivity.
Qed.
Lemma esc_word r : word (esc r) = (fst (word r), esc (snd (word r))).
Proof.
  induction r as [|c r IH]; [reflexivity|]. cbn [esc word]. destruct (Ascii.eqb_spec c "%") as [->|N].
  - cbn. reflexivity.
  - cbn [word]. destruct (word_char c); cbn [fst snd]; [rewrite IH; reflexivity|]. cbn [esc]. destruct (Ascii.eqb_spec c "%"); [easy|reflexivity].
Qed.
Lemma esc_plain n t : wordy n -> esc (n ++ t) = (n ++ esc t)%string.
Proof.
  intros W. induction n as [|c n IH]; [reflexivity|]. destruct W as [W1 W2]. cbn [append esc]. destruct (Ascii.eqb_spec c "%") as [->|N]; [discriminate W1|].
  rewrite IH by exact W2. reflexivity.
Qed.
Lemma esc_ref n t : wordy n -> esc (ref n ++ t) = (ref n ++ esc t)%string.
Proof.
  intros W. unfold ref. rewrite <- !sapp_assoc. cbn [append esc]. change (Ascii.eqb "{" "%") with false. cbv iota. rewrite esc_plain by exact W. reflexivity.
Qed.
Lemma match_esc s : match_ref (esc s) = match_ref s.
Proof.
  destruct (match_ref s) as [n|] eqn:M.
  - apply match_ref_spec in M as (N & t & ->). apply match_ref_spec. split; [exact N|]. exists (esc t). apply esc_ref, N.
  - destruct s as [|a s]; [reflexivity|]. cbn [esc]. destruct (Ascii.eqb_spec a "%") as [->|Na]; [reflexivity|]. destruct s as [|b r]; [reflexivity|].
    cbn [esc]. destruct (Ascii.eqb_spec b "%") as [->|Nb]; [cbn; rewrite Bool.andb_false_r; reflexivity|]. cbn [match_ref] in *.
    destruct (Ascii.eqb a "{" && Ascii.eqb b "{"); [|reflexivity]. rewrite esc_word. destruct (word r) as [[|c w] t]; [reflexivity|]. cbn [fst snd].
    destruct t as [|x t]; [reflexivity|]. cbn [esc]. destruct (Ascii.eqb_spec x "%") as [->|Nx]; [reflexivity|]. destruct t as [|y t]; [reflexivity|].
    cbn [esc]. destruct (Ascii.eqb_spec y "%") as [->|Ny]; [rewrite Bool.andb_false_r; reflexivity|exact M].
Qed.

Section Render.
Variable value : string -> string.
Definition render (s : string) : option string := fmt value FNorm (convert_variable_ref s).
Lemma fmt_key n : forall acc r, wordy n -> fmt value (FKey acc) (n ++ ")s" ++ r) = option_map (fun t => (value (acc ++ n) ++ t)%string) (fmt value FNorm r).
Proof.
  induction n as [|c n IH]; intros acc r W.
  - cbn. replace (acc ++ "")%string with acc; [reflexivity|]. induction acc; cbn; congruence.
  - destruct W as [W1 W2]. cbn [append fmt]. destruct (Ascii.eqb_spec c ")") as [->|_]; [discriminate W1|]. destruct (Ascii.eqb_spec c "(") as [->|_]; [discriminate W1|].
    change (String ")" (String "s" r)) with (")s" ++ r)%string. rewrite IH by exact W2. f_equal. 
    replace ((acc ++ String c "") ++ n)%string with (acc ++ String c n)%string; [reflexivity|]. rewrite <- sapp_assoc. reflexivity.
Qed.
Lemma ref_length n : String.length (ref n) = String.length n + 4.
Proof.
  unfold ref. rewrite !slength_app. cbn. lia.
Qed.
(** What stands at the front of a text: a reference ... *)
Lemma render_ref n t : name n -> render (ref n ++ t) = option_map (fun u => (value n ++ u)%string) (render t).
Proof.
  intros N. unfold render, convert_variable_ref. rewrite (esc_ref n t (proj2 N)).
  assert (M : match_ref (ref n ++ esc t) = Some n) by (apply match_ref_spec; eauto).
  pose proof (ref_length n) as L. pose proof (drop_app (ref n) (esc t)) as D.
  assert (F : exists c r, ref n = String c r) by (unfold ref; cbn; eauto). destruct F as (c & r & F). rewrite F in *. cbn [append] in *. cbn [String.length] in L.
  cbn [sub_refs]. rewrite M, sub_drop. replace (String.length n + 3) with (String.length r) by lia. cbn [String.length drop] in D. rewrite D.
  change ("%(" ++ n ++ ")s" ++ sub_refs 0 (esc t))%string with (String "%" (String "(" (n ++ ")s" ++ sub_refs 0 (esc t)))).
  cbn [fmt]. change (Ascii.eqb "%" "%") with true. change (Ascii.eqb "(" "%") with false. change (Ascii.eqb "(" "(") with true. cbv iota.
  rewrite fmt_key by apply N. reflexivity.
Qed.
(** ... or a character. *)
Lemma render_char c r : match_ref (String c r) = None -> render (String c r) = option_map (String c) (render r).
Proof.
  intros M. unfold render, convert_variable_ref. pose proof (match_esc (String c r)) as ME. rewrite M in ME.
  cbn [esc] in *. destruct (Ascii.eqb_spec c "%") as [->|N].
  - cbn [sub_refs match_ref]. change (Ascii.eqb "%" "{") with false. cbn [andb]. destruct (esc r) as [|x y] eqn:X; reflexivity.
  - cbn [sub_refs]. rewrite ME. cbn [fmt]. destruct (Ascii.eqb_spec c "%"); [easy|reflexivity].
Qed.
Lemma render_total : forall k s, String.length s <= k -> exists t, render s = Some t.
Proof.
  induction k as [|k IH]; intros s L.
  - destruct s; [exists ""; reflexivity|cbn in L; lia].
  - destruct s as [|c r]; [exists ""; reflexivity|]. destruct (match_ref (String c r)) as [n|] eqn:M.
    + apply match_ref_spec in M as (N & t & E). assert (Lt : String.length t <= k).
      { apply (f_equal String.length) in E. 
        rewrite slength_app, ref_length in E. cbn in E, L. lia. }
      rewrite E, (render_ref n t N). destruct (IH t Lt) as (u & ->). cbn. eauto.
    + rewrite (render_char c r M). destruct (IH r) as (u & ->); [cbn in L; lia|]. cbn. eauto.
Qed.
Lemma no_straddle a n b : a <> "" -> match_ref (a ++ ref n ++ b) = match_ref a.
Proof.
  intros Na. destruct a as [|x a]; [easy|]. destruct a as [|y r].
  - unfold ref. rewrite <- !sapp_assoc. cbn [append match_ref]. destruct (Ascii.eqb x "{"); reflexivity.
  - cbn [append match_ref]. destruct (Ascii.eqb x "{" && Ascii.eqb y "{"); [|reflexivity].
    pose proof (word_split r) as (A & B & C). destruct (word r) as [w t] eqn:E. cbn [fst snd] in *. subst r.
    rewrite <- sapp_assoc, word_of; [|exact B|destruct t as [|c t]; [unfold ref; rewrite <- !sapp_assoc; reflexivity|exact C]].
    destruct w as [|c w]; [reflexivity|]. unfold ref. rewrite <- !sapp_assoc. destruct t as [|x' [|y' t]]; [reflexivity| |reflexivity].
    cbn [append]. destruct (Ascii.eqb x' "}"); reflexivity.
Qed.
End Render.

(** The characters of names, one by one. *)
Definition name_characters : string := "ABCDEFGHIJKLMNOPQRSTUVWXYZabcdefghijklmnopqrstuvwxyz0123456789_".
Theorem C131_names n : name n <-> n <> "" /\ forall c, In c (list_ascii_of_string n) -> In c (list_ascii_of_string name_characters).
Proof.
  assert (W : forall c, word_char c = existsb (Ascii.eqb c) (list_ascii_of_string name_characters)).
  { intros [[] [] [] [] [] [] [] []]; vm_compute; reflexivity. }
  assert (X : forall c, word_char c = true <-> In c (list_ascii_of_string name_characters)).
  { intros c. rewrite W, existsb_exists. split; [intros (y & I & E); apply Ascii.eqb_eq in E as ->; exact I|]. intros I. exists c. split; [exact I|apply Ascii.eqb_refl]. }
  unfold name. assert (G : wordy n <-> forall c, In c (list_ascii_of_string n) -> In c (list_ascii_of_string name_characters)); [|rewrite G; reflexivity].
  induction n as [|c n IH]; [split; [intros _ c []|easy]|]. cbn [wordy list_ascii_of_string]. rewrite IH, X. split.
  - intros (A & B) d [<-|I]; auto.
  - intros A. split; [apply A; left; reflexivity|intros d I; apply A; right; exact I].
Qed.

(** ** The text.  Rendering never fails; a reference, wherever it stands, gives way to the value of its variable; and a text
    without references stays as it is, percent signs and single braces included.  The two equations determine it. *)
Definition has_ref (s : string) : Prop := exists a n b, name n /\ s = (a ++ ref n ++ b)%string.
Theorem C131_renders value s : exists t, render value s = Some t.
Proof. apply (render_total value (String.length s)). lia. Qed.
Theorem C131_plain value s : ~ has_ref s -> render value s = Some s.
Proof.
  induction s as [|c r IH]; intros N; [reflexivity|]. rewrite render_char.
  - rewrite IH; [reflexivity|]. intros (a & n & b & Nn & ->). apply N. exists (String c a), n, b. auto.
  - destruct (match_ref (String c r)) as [n|] eqn:M; [|reflexivity]. exfalso. apply match_ref_spec in M as (Nn & t & E). apply N. exists "", n, t. auto.
Qed.
Theorem C131_reference value a n b ta tb : name n -> render value a = Some ta -> render value b = Some tb ->
  render value (a ++ ref n ++ b) = Some (ta ++ value n ++ tb)%string.
Proof.
  intros N Ra Rb. revert ta Ra. assert (G : forall k a, String.length a <= k -> forall ta, render value a = Some ta -> render value (a ++ ref n ++ b) = Some (ta ++ value n ++ tb)%string); [|intros; eapply G; eauto].
  induction k as [|k IH]; intros a' L ta Ra.
  - destruct a'; [|cbn in L; lia]. injection Ra as <-. cbn [append]. rewrite render_ref by exact N. rewrite Rb. reflexivity.
  - destruct a' as [|c r]; [injection Ra as <-; cbn [append]; rewrite render_ref by exact N; rewrite Rb; reflexivity|].
    destruct (match_ref (String c r)) as [m|] eqn:M.
    + apply match_ref_spec in M as (Nm & t & E). rewrite E in *. rewrite (render_ref value m t Nm) in Ra.
      destruct (render value t) as [u|] eqn:Rt; [|discriminate]. injection Ra as <-. rewrite <- sapp_assoc, (render_ref value m _ Nm).
      assert (Lt : String.length t <= k).
      { apply (f_equal String.length) in E. 
        rewrite slength_app, ref_length in E, L. lia. }
      rewrite (IH t Lt u Rt). cbn. rewrite <- sapp_assoc. reflexivity.
    + rewrite (render_char value c r M) in Ra. destruct (render value r) as [u|] eqn:Rr; [|discriminate]. injection Ra as <-.
      change (String c r ++ ref n ++ b)%string with (String c (r ++ ref n ++ b)). rewrite render_char.
      * rewrite (IH r) with (ta := u); [reflexivity|cbn in L; lia|exact Rr].
      * change (String c (r ++ ref n ++ b)) with (String c r ++ ref n ++ b)%string. rewrite no_straddle by discriminate. exact M.
Qed.
(** Nothing else is left open: what keeps texts without references and puts in the values is the rendering. *)
Theorem C131_determined value (f : string -> string) :
  (forall s, ~ has_ref s -> f s = s) -> (forall a n b, name n -> f (a ++ ref n ++ b)%string = (f a ++ value n ++ f b)%string) ->
  forall s, render value s = Some (f s).
Proof.
  intros P R.
  assert (D : forall s, has_ref s \/ ~ has_ref s).
  { induction s as [|c r IH].
    - right. intros (a & n & b & _ & E). destruct a; discriminate E.
    - destruct (match_ref (String c r)) as [n|] eqn:M.
      + apply match_ref_spec in M as (N & t & E). left. exists "", n, t. auto.
      + destruct IH as [(a & n & b & N & ->)|IH]; [left; exists (String c a), n, b; auto|]. right. intros ([|x a] & n & b & N & E).
        * assert (X : match_ref (String c r) = Some n) by (apply match_ref_spec; split; [exact N|exists b; exact E]). congruence.
        * cbn [append] in E. injection E as <- ->. apply IH. exists a, n, b. auto. }
  assert (G : forall k s, String.length s <= k -> render value s = Some (f s)); [|intros s; apply (G (String.length s)); lia].
  induction k as [|k IH]; intros s L; destruct (D s) as [(a & n & b & N & ->)|H]; try (rewrite (P _ H); apply C131_plain, H).
  { exfalso. rewrite !slength_app, ref_length in L. lia. }
  rewrite !slength_app, ref_length in L.
  rewrite R by exact N. apply C131_reference; [exact N| |]; apply IH; lia.
Qed.
Theorem C131_reference_witness :
  render (fun n => if String.eqb n "eff" then "95" else "") "an efficiency of {{eff}}% ({{{eff}}}, {{no such}})" = Some "an efficiency of 95% ({95}, {{no such}})".
Proof. vm_compute. reflexivity. Qed.

(** ** The block: its texts, rendered, one per line, in the order of their indices as texts. *)
Lemma all_some_map {A} (f : A -> option string) (g : A -> string) l : (forall a, f a = Some (g a)) -> all_some (map f l) = Some (map g l).
Proof. intros F. induction l as [|a l IH]; cbn; [reflexivity|]. rewrite F, IH. reflexivity. Qed.
Theorem C131_block_partial vs ts : ts <> [] -> exists ordered texts,
  Permutation ordered ts /\ Sorted (fun a b => String.leb (fst a) (fst b) = true) ordered
  /\ Forall2 (fun t u => render (value_of vs) (snd t) = Some u) ordered texts
  /\ render_text_block vs ts = BOk (String.concat newline texts).
Proof.
  intros N. set (o := tsort (fun a b => String.leb (fst a) (fst b)) ts).
  set (g := fun t : string * string => match render (value_of vs) (snd t) with Some u => u | None => "" end).
  assert (F : forall t, render (value_of vs) (snd t) = Some (g t)) by (intros t; unfold g; destruct (C131_renders (value_of vs) (snd t)) as (u & ->); reflexivity).
  exists o, (map g o). split; [apply tsort_perm|]. split.
  { apply (tsort_sorted (fun a b => String.leb (fst a) (fst b))). intros a b. apply String.leb_total. }
  split; [clear - F; induction o; cbn; constructor; auto|].
  unfold render_text_block. fold o. destruct ts; [easy|]. unfold render in F. rewrite (all_some_map _ g o F). reflexivity.
Qed.
(** The value of a variable: the text of its last element, and nothing for one that is not there.  ([partial]: elements without
    text count as 'None' unless alone, see below.) *)
Theorem C131_value_partial vs n : value_of vs n =
  match find (fun v => String.eqb n (fst v)) (rev vs) with
  | Some (_, Some t) => t
  | Some (_, None) => match vs with [_] => "" | _ => "None" end
  | None => ""
  end.
Proof.
  unfold value_of. set (f := fun (d : dict string string) v => dset (fst v) (match snd v with Some t => t | None => "None" end) d).
  assert (G : forall vs d, dget n (fold_left f vs d)
     = match find (fun v => String.eqb n (fst v)) (rev vs) with Some (_, Some t) => Some t | Some (_, None) => Some "None" | None => dget n d end).
  { clear. induction vs as [|[m t] vs IH]; intros d; [reflexivity|]. cbn [fold_left rev]. rewrite IH.
    assert (Fa : forall l x, find (fun v : string * option string => String.eqb n (fst v)) (l ++ [x]) =
       match find (fun v => String.eqb n (fst v)) l with Some p => Some p | None => if String.eqb n (fst x) then Some x else None end).
    { intros l x. induction l as [|y l IHl]; cbn; [reflexivity|]. destruct (String.eqb n (fst y)); [reflexivity|exact IHl]. }
    rewrite Fa. destruct (find _ (rev vs)) as [[m' [t'|]]|] eqn:Fi; [reflexivity|reflexivity|].
    unfold f. cbn [fst snd]. rewrite dget_dset. change (eqb n m) with (String.eqb n m). destruct (String.eqb n m); [|reflexivity].
    destruct t as [t|]; reflexivity. }
  destruct vs as [|v [|v' vs]].
  - reflexivity.
  - destruct v as [m [[|c t]|]]; unfold variables; cbn [rev find app fst].
    + destruct (String.eqb n m); reflexivity.
    + fold f. rewrite G. cbn [rev find app fst]. destruct (String.eqb n m); reflexivity.
    + destruct (String.eqb n m); reflexivity.
  - assert (V : variables (v :: v' :: vs) = fold_left f (v :: v' :: vs) []) by (destruct v as [m [[|c t]|]]; reflexivity).
    rewrite V, G. destruct (find _ (rev (v :: v' :: vs))) as [[m [t|]]|]; reflexivity.
Qed.
(** The tenth paragraph comes before the second. *)
Theorem C131_refuted_order : render_text_block [] [("2", "second"); ("10", "tenth")] = BOk ("tenth" ++ newline ++ "second").
Proof. vm_compute. reflexivity. Qed.
(** A block without texts raises. *)
Theorem C131_refuted_no_text vs : render_text_block vs [] = BAttribute.
Proof. reflexivity. Qed.
(** An empty variable is put in as nothing if it is the only one, and as 'None' beside another one. *)
Theorem C131_refuted_empty_variable :
  render_text_block [("x", None)] [("0", "a {{x}}")] = BOk "a " /\ render_text_block [("x", None); ("y", Some "b")] [("0", "a {{x}}")] = BOk "a None".
Proof. vm_compute. split; reflexivity. Qed.
Print Assumptions C131_names.
Print Assumptions C131_renders.
Print Assumptions C131_plain.
Print Assumptions C131_reference.
Print Assumptions C131_determined.
Print Assumptions C131_block_partial.
Print Assumptions C131_value_partial.

(** C130: tags and their counts (tools.py). *)
From Coq Require Import String Ascii Lia.
From Verif Require Import Base PyStr TagModel.
Open Scope string_scope.
Open Scope nat_scope.
Open Scope list_scope.
Local Arguments String.eqb : simpl never.
Local Arguments Ascii.eqb : simpl never.
Local Arguments eqb : simpl never.

(** ** Parts of a text *)
Fixpoint chars (s : string) : list ascii := match s with EmptyString => [] | String c r => c :: chars r end.
Definition delimiter (c : ascii) : Prop := In c [";"; ","; "("; ")"; "/"]%char.
Definition plain (s : string) : Prop := forall c, In c (chars s) -> ~ delimiter c.
Lemma chars_app a b : chars (a ++ b) = chars a ++ chars b.
Proof. induction a; cbn; congruence. Qed.
Lemma emit_In cur r x : In x (emit cur r) -> (x = cur /\ cur <> "") \/ In x r.
Proof. unfold emit. destruct (String.eqb_spec cur ""); [auto|]. intros [<- | I]; auto. Qed.
Lemma opens_paren r : opens (String "(" r) = true.
Proof. reflexivity. Qed.
Lemma space_plain c : is_space c = true -> ~ delimiter c.
Proof. intros S I. cbn in I. repeat (destruct I as [<- | I]; [discriminate S|]). exact I. Qed.
(** The parts are not empty and have no delimiter in them. *)
Theorem C130_parts s x : In x (pieces s) -> x <> "" /\ plain x.
Proof.
  unfold pieces. assert (G : forall s m cur, plain cur -> In x (scan m cur s) -> x <> "" /\ plain x); [|apply G; intros c []].
  clear s. assert (P0 : plain "") by (intros c []). induction s as [|c r IH]; intros m cur P I; cbn [scan] in I.
  - apply emit_In in I as [(-> & N)|[]]. auto.
  - assert (Body : In x (if takes_space c then emit cur (scan Skip "" r)
      else if Ascii.eqb c "/" then emit cur (scan Norm "" r)
      else if opens (String c r) then emit cur (if is_space c then scan Paren "" r else scan Norm "" r)
      else scan Norm (snoc cur c) r) -> x <> "" /\ plain x).
    { destruct (takes_space c) eqn:T; [intros J; apply emit_In in J as [(-> & N)|J]; [auto|apply (IH _ _ P0 J)]|].
      destruct (Ascii.eqb_spec c "/") as [->|S]; [intros J; apply emit_In in J as [(-> & N)|J]; [auto|apply (IH _ _ P0 J)]|].
      destruct (opens (String c r)) eqn:O; [intros J; apply emit_In in J as [(-> & N)|J]; [auto|destruct (is_space c); apply (IH _ _ P0 J)]|].
      apply IH. intros d D. unfold snoc in D. rewrite chars_app in D. apply in_app_iff in D as [D|[<- | []]]; [apply P, D|].
      intros X. unfold takes_space in T. apply Bool.orb_false_iff in T as (T & T3). apply Bool.orb_false_iff in T as (T1 & T2).
      apply Ascii.eqb_neq in T1, T2, T3. cbn in X. destruct X as [<- | [<- | [<- | [<- | [<- | []]]]]]; easy. }
    destruct m.
    + apply Body, I.
    + destruct (is_space c); [apply (IH _ _ P I)|apply Body, I].
    + destruct (is_space c); apply (IH _ _ P0 I).
Qed.
(** A text without delimiters is one part. *)
Theorem C130_one_part s : s <> "" -> plain s -> pieces s = [s].
Proof.
  unfold pieces. assert (G : forall s cur, plain s -> (cur ++ s)%string <> "" -> scan Norm cur s = [(cur ++ s)%string]); [|intros N P; apply (G s "" P N)].
  clear s. assert (An : forall s, (s ++ "")%string = s) by (induction s; cbn; congruence).
  assert (As : forall a c r, (snoc a c ++ r)%string = (a ++ String c r)%string) by (intros a c r; unfold snoc; induction a; cbn; congruence).
  induction s as [|c r IH]; intros cur P N; cbn [scan].
  - rewrite An in *. unfold emit. destruct (String.eqb_spec cur ""); [easy|reflexivity].
  - assert (T : takes_space c = false).
    { unfold takes_space. destruct (Ascii.eqb_spec c ";") as [->|]; [destruct (P ";"%char); cbn; auto|].
      destruct (Ascii.eqb_spec c ",") as [->|]; [destruct (P ","%char); cbn; auto|].
      destruct (Ascii.eqb_spec c ")") as [->|]; [destruct (P ")"%char); cbn; auto 6|reflexivity]. }
    assert (S : Ascii.eqb c "/" = false) by (apply Ascii.eqb_neq; intros ->; destruct (P "/"%char); cbn; auto 8).
    assert (O : opens (String c r) = false).
    { unfold opens. assert (Q : forall s, plain s -> match lstrip s with String "(" _ => true | _ => false end = false); [|apply Q, P].
      induction s as [|d s IHs]; intros Pd; [reflexivity|]. cbn [lstrip]. destruct (is_space d); [apply IHs; intros x X; apply Pd; right; exact X|].
      assert (D : d <> "("%char) by (intros ->; destruct (Pd "("%char); cbn; auto 8). clear - D.
      destruct d as [[] [] [] [] [] [] [] []]; try reflexivity. easy. }
    rewrite T, S, O. rewrite IH; [rewrite As; reflexivity|intros x X; apply P; right; exact X|rewrite As; exact N].
Qed.
Theorem C130_parts_witness : pieces "steel (hot rolled), coil; EU/RER" = ["steel"; "hot rolled"; "coil"; "EU"; "RER"].
Proof. vm_compute. reflexivity. Qed.
(** A list of texts has the parts of its texts (none of which begins with white space). *)
Lemma emit_app cur a b : emit cur (a ++ b) = emit cur a ++ b.
Proof. unfold emit. destruct (String.eqb cur ""); reflexivity. Qed.
Lemma lstrip_app a b : (exists c r, lstrip a = String c r /\ lstrip (a ++ b) = (String c r ++ b)%string) \/ (lstrip a = "" /\ lstrip (a ++ b) = lstrip b).
Proof. induction a as [|c a IH]; [right; auto|]. cbn. destruct (is_space c); [exact IH|left; eauto]. Qed.
Lemma opens_app a b : opens (a ++ String "," b) = opens a.
Proof. unfold opens. destruct (lstrip_app a (String "," b)) as [(c & r & -> & ->)|(-> & ->)]; reflexivity. Qed.
Lemma scan_comma a : forall m cur b, (m = Paren -> opens a = true) -> scan m cur (a ++ String "," b) = scan m cur a ++ scan Skip "" b.
Proof.
  induction a as [|c a IH]; intros m cur b Pm.
  - cbn [append]. destruct m; [| |discriminate (Pm eq_refl)]; cbn [scan]; change (is_space ",") with false; change (takes_space ",") with true; cbv iota;
      rewrite <- emit_app; reflexivity.
  - change (String c a ++ String "," b)%string with (String c (a ++ String "," b)). cbn [scan].
    change (String c (a ++ String "," b)) with (String c a ++ String "," b)%string. rewrite opens_app.
    assert (Body : (if takes_space c then emit cur (scan Skip "" (a ++ String "," b))
      else if Ascii.eqb c "/" then emit cur (scan Norm "" (a ++ String "," b))
      else if opens (String c a) then emit cur (if is_space c then scan Paren "" (a ++ String "," b) else scan Norm "" (a ++ String "," b))
      else scan Norm (snoc cur c) (a ++ String "," b)) =
      (if takes_space c then emit cur (scan Skip "" a)
      else if Ascii.eqb c "/" then emit cur (scan Norm "" a)
      else if opens (String c a) then emit cur (if is_space c then scan Paren "" a else scan Norm "" a)
      else scan Norm (snoc cur c) a) ++ scan Skip "" b).
    { destruct (takes_space c); [rewrite IH by discriminate; apply emit_app|]. destruct (Ascii.eqb c "/"); [rewrite IH by discriminate; apply emit_app|].
      destruct (opens (String c a)) eqn:O; [|apply IH; discriminate]. rewrite <- emit_app. f_equal. destruct (is_space c) eqn:S; apply IH; [|discriminate].
      intros _. unfold opens in *. cbn [lstrip] in O. rewrite S in O. exact O. }
    destruct m; [exact Body|destruct (is_space c); [apply IH; discriminate|exact Body]|].
    specialize (Pm eq_refl). destruct (is_space c) eqn:S; apply IH; [|discriminate]. intros _. unfold opens in *. cbn [lstrip] in Pm. rewrite S in Pm. exact Pm.
Qed.
Definition no_lead (s : string) : Prop := match s with String c _ => is_space c = false | _ => True end.
Lemma scan_skip b : no_lead b -> scan Skip "" (String " " b) = pieces b.
Proof. destruct b as [|c b]; [reflexivity|]. cbn [no_lead]. intros S. unfold pieces. cbn [scan]. change (is_space " ") with true. cbv iota. rewrite S. reflexivity. Qed.
Theorem C130_list_parts_partial l : (forall s, In s l -> no_lead s) -> pieces (join l) = flat_map pieces l.
Proof.
  induction l as [|a r IH]; intros N; [reflexivity|]. destruct r as [|b r']; [cbn; symmetry; apply app_nil_r|].
  change (join (a :: b :: r')) with (a ++ String "," (String " " (join (b :: r'))))%string. change (flat_map pieces (a :: b :: r')) with (pieces a ++ flat_map pieces (b :: r')).
  unfold pieces at 1. rewrite scan_comma by discriminate. f_equal. rewrite scan_skip; [apply IH; intros s I; apply N; right; exact I|].
  pose proof (N b (or_intror (or_introl eq_refl))) as B. destruct b as [|c b]; [destruct r'; [exact I|reflexivity]|destruct r'; exact B].
Qed.
Theorem C130_refuted_leading_space : pieces (join ["a"; " b"]) <> flat_map pieces ["a"; " b"].
Proof. vm_compute. discriminate. Qed.

(** ** The tags of an entity *)
Lemma add1_In t x y : In y (add1 t x) <-> In y t \/ y = x.
Proof.
  unfold add1. destruct (existsb (String.eqb x) t) eqn:X.
  - apply existsb_exists in X as (z & I & Z). apply String.eqb_eq in Z. subst z. split; [auto|intros [J| ->]; assumption].
  - rewrite in_app_iff. cbn. intuition congruence.
Qed.
Lemma add1_NoDup t x : NoDup t -> NoDup (add1 t x).
Proof.
  unfold add1. destruct (existsb (String.eqb x) t) eqn:X; intros N; [exact N|].
  assert (Nx : ~ In x t).
  { intros I. assert (T : existsb (String.eqb x) t = true) by (apply existsb_exists; exists x; split; [exact I|apply String.eqb_refl]). congruence. }
  clear X. induction t as [|a t IH]; cbn; [repeat constructor; easy|]. inversion N; subst. constructor; [|apply IH; auto; intros I; apply Nx; right; exact I].
  rewrite in_app_iff. intros [J|[<- | []]]; [easy|]. apply Nx. left. reflexivity.
Qed.
Lemma adds_In xs : forall t y, In y (fold_left add1 xs t) <-> In y t \/ In y xs.
Proof. induction xs as [|x xs IH]; intros t y; cbn; [tauto|]. rewrite IH, add1_In. cbn. intuition congruence. Qed.
Lemma adds_NoDup xs : forall t, NoDup t -> NoDup (fold_left add1 xs t).
Proof. induction xs; intros t N; cbn; [exact N|]. auto using add1_NoDup. Qed.
Lemma excluded_spec k : existsb (String.eqb k) excluded = true <-> k = "TemporalScope" \/ k = "IsicNumber".
Proof. cbn. rewrite !Bool.orb_true_iff, !String.eqb_eq. intuition congruence. Qed.
(** The parts of a value. *)
Inductive part_of : string -> value -> Prop :=
| PartText f s : In f (pieces s) -> part_of f (VText s)
| PartList f l : In f (pieces (join l)) -> part_of f (VList l).
Lemma part_spec v fs f : value_pieces v = Some fs -> (In f fs <-> part_of f v).
Proof.
  destruct v; cbn; try discriminate; intros [= <-]; (split; [intros I; (destruct I || constructor; exact I)|intros P; inversion P; subst; assumption]).
Qed.
Lemma tags_from_spec ps : forall t t', tags_from t ps = Some t' -> NoDup t ->
  NoDup t' /\ forall x, In x t' <-> In x t \/ exists k v f, In (k, v) ps /\ k <> "TemporalScope" /\ k <> "IsicNumber" /\ part_of f v /\ x = (k ++ "=" ++ f)%string.
Proof.
  induction ps as [|[k v] r IH]; intros t t' E N; cbn [tags_from] in E.
  - injection E as <-. split; [exact N|]. intros x. split; [auto|]. intros [I|(k & v & f & [] & _)]. exact I.
  - assert (Step : forall t1, tags_from t1 r = Some t' -> NoDup t1 ->
      (forall x, In x t1 <-> In x t \/ exists f, k <> "TemporalScope" /\ k <> "IsicNumber" /\ part_of f v /\ x = (k ++ "=" ++ f)%string) ->
      NoDup t' /\ forall x, In x t' <-> In x t \/ exists k0 v0 f, In (k0, v0) ((k, v) :: r) /\ k0 <> "TemporalScope" /\ k0 <> "IsicNumber" /\ part_of f v0 /\ x = (k0 ++ "=" ++ f)%string).
    { intros t1 E1 N1 A. destruct (IH t1 t' E1 N1) as (M & B). split; [exact M|]. intros x. rewrite B, A. split.
      - intros [[I|(f & F)]|(k' & v' & f & I & F)]; [auto| |]; right; [exists k, v, f; split; [left; reflexivity|exact F]|exists k', v', f; split; [right; exact I|exact F]].
      - intros [I|(k' & v' & f & [[= <- <-] | I] & F)]; [auto|left; right; exists f; exact F|right; exists k', v', f; auto]. }
    assert (Same : tags_from t r = Some t' -> (k = "TemporalScope" \/ k = "IsicNumber" \/ forall f, ~ part_of f v) ->
      NoDup t' /\ forall x, In x t' <-> In x t \/ exists k0 v0 f, In (k0, v0) ((k, v) :: r) /\ k0 <> "TemporalScope" /\ k0 <> "IsicNumber" /\ part_of f v0 /\ x = (k0 ++ "=" ++ f)%string).
    { intros E1 Q. apply (Step t E1 N). intros x. split; [auto|]. intros [I|(f & K1 & K2 & P & _)]; [exact I|]. destruct Q as [Q|[Q|Q]]; [easy|easy|destruct (Q f P)]. }
    assert (Other : (if existsb (String.eqb k) excluded then tags_from t r else match value_pieces v with None => None
         | Some fs => tags_from (fold_left add1 (map (fun f => (k ++ "=" ++ f)%string) fs) t) r end) = Some t' ->
      NoDup t' /\ forall x, In x t' <-> In x t \/ exists k0 v0 f, In (k0, v0) ((k, v) :: r) /\ k0 <> "TemporalScope" /\ k0 <> "IsicNumber" /\ part_of f v0 /\ x = (k0 ++ "=" ++ f)%string).
    { destruct (existsb (String.eqb k) excluded) eqn:X; [intros E1; apply Same; [exact E1|apply excluded_spec in X; tauto]|].
      destruct (value_pieces v) as [fs|] eqn:V; [|discriminate]. intros E1. apply (Step _ E1); [apply adds_NoDup, N|].
      assert (X' : ~ (k = "TemporalScope" \/ k = "IsicNumber")) by (rewrite <- excluded_spec; congruence).
      intros x. rewrite adds_In, in_map_iff. split.
      - intros [I|(f & <- & I)]; [auto|]. right. exists f. split; [tauto|]. split; [tauto|]. split; [apply (part_spec v fs f V), I|reflexivity].
      - intros [I|(f & _ & _ & P & ->)]; [auto|]. right. exists f. split; [reflexivity|]. apply (part_spec v fs f V), P. }
    destruct v; [apply Same; [exact E|right; right; intros f P; inversion P]|apply Other, E..].
Qed.
(** The tags: the key, '=' and a part of the value, for each part of each property but the two excluded; each once. *)
Theorem C130_tags e t : tags e = Some t ->
  NoDup t /\ forall x, In x t <-> exists k v f, In (k, v) (t_props e) /\ k <> "TemporalScope" /\ k <> "IsicNumber" /\ part_of f v /\ x = (k ++ "=" ++ f)%string.
Proof.
  intros E. destruct (tags_from_spec _ _ _ E (NoDup_nil _)) as (N & A). split; [exact N|]. intros x. rewrite A. split; [intros [[]|B]; exact B|auto].
Qed.
(** It fails just for an entity with a value that is neither None nor text nor a list of texts (a number, say), wherever it is
    not excluded. *)
Theorem C130_fails e : tags e = None <-> exists k, In (k, VOther) (t_props e) /\ k <> "TemporalScope" /\ k <> "IsicNumber".
Proof.
  unfold tags. assert (G : forall ps t, tags_from t ps = None <-> exists k, In (k, VOther) ps /\ k <> "TemporalScope" /\ k <> "IsicNumber"); [|apply G].
  induction ps as [|[k v] r IH]; intros t; cbn [tags_from]; [split; [discriminate|intros (k & [] & _)]|].
  assert (Same : forall t1, (k = "TemporalScope" \/ k = "IsicNumber" \/ v <> VOther) ->
    (tags_from t1 r = None <-> exists k0, In (k0, VOther) ((k, v) :: r) /\ k0 <> "TemporalScope" /\ k0 <> "IsicNumber")).
  { intros t1 Q. rewrite IH. split; [intros (k0 & I & F); exists k0; split; [right; exact I|exact F]|].
    intros (k0 & [[= <- ->] | I] & F1 & F2); [destruct Q as [Q|[Q|Q]]; easy|exists k0; auto]. }
  assert (Other : (if existsb (String.eqb k) excluded then tags_from t r else match value_pieces v with None => None
         | Some fs => tags_from (fold_left add1 (map (fun f => (k ++ "=" ++ f)%string) fs) t) r end) = None <->
     exists k0, In (k0, VOther) ((k, v) :: r) /\ k0 <> "TemporalScope" /\ k0 <> "IsicNumber").
  { destruct (existsb (String.eqb k) excluded) eqn:X; [apply Same; apply excluded_spec in X; tauto|].
    destruct (value_pieces v) as [fs|] eqn:V; [apply Same; right; right; intros ->; discriminate|]. split; [intros _|reflexivity].
    assert (X' : ~ (k = "TemporalScope" \/ k = "IsicNumber")) by (rewrite <- excluded_spec; congruence).
    exists k. destruct v; try discriminate. split; [left; reflexivity|tauto]. }
  destruct v; [apply Same; right; right; discriminate|exact Other..].
Qed.
Theorem C130_refuted_number : tags (Tent "u" [("Name", VText "steel"); ("Year", VOther)]) = None.
Proof. reflexivity. Qed.

(** ** Counts *)
Lemma bump_count {K} `{EqB K} d x y : counted (bump d x) y = counted d y + (if eqb y x then 1 else 0).
Proof. unfold counted, bump. rewrite dget_dset. destruct (eqb_spec y x) as [->|]; [lia|]. destruct (dget y d); lia. Qed.
Lemma put_list {K} `{EqB K} m i (x y : K) : listed (put m i x) y = listed m y ++ (if eqb y x then [i] else []).
Proof. unfold listed, put. rewrite dget_dset. destruct (eqb_spec y x) as [->|]; [reflexivity|]. symmetry. apply app_nil_r. Qed.
Lemma bumps t : forall d y, NoDup t -> counted (fold_left bump t d) y = counted d y + (if existsb (String.eqb y) t then 1 else 0).
Proof.
  induction t as [|x t IH]; intros d y N; cbn [fold_left existsb]; [lia|]. inversion N as [|? ? N1 N2]; subst. rewrite IH by exact N2.
  rewrite bump_count. change (eqb y x) with (String.eqb y x). destruct (String.eqb_spec y x) as [->|]; cbn [orb]; [|lia].
  destruct (existsb (String.eqb x) t) eqn:X; [|lia]. apply existsb_exists in X as (z & I & Z). apply String.eqb_eq in Z. subst z. easy.
Qed.
Lemma puts i t : forall m y, NoDup t -> listed (fold_left (fun m x => put m i x) t m) y = listed m y ++ (if existsb (String.eqb y) t then [i] else []).
Proof.
  induction t as [|x t IH]; intros m y N; cbn [fold_left existsb]; [symmetry; apply app_nil_r|]. inversion N as [|? ? N1 N2]; subst. rewrite IH by exact N2.
  rewrite put_list, <- app_assoc. change (eqb y x) with (String.eqb y x). destruct (String.eqb_spec y x) as [->|]; cbn [orb]; [|reflexivity].
  destruct (existsb (String.eqb x) t) eqn:X; [|reflexivity]. apply existsb_exists in X as (z & I & Z). apply String.eqb_eq in Z. subst z. easy.
Qed.
(** An entity has a tag; it takes part in the count. *)
Definition has_tag (x : string) (e : tent) : bool := match tags e with Some t => existsb (String.eqb x) t | None => false end.
Definition takes_part (search : option (string -> bool)) (e : tent) : bool :=
  match search with None => true | Some p => match tags e with Some t => existsb p t | None => false end end.
(** The count of a tag is the number of entities that have it (a searched tag among theirs), its list their uuids in order. *)
Theorem C130_count l search d m : count_tags l search = Some (d, m) -> forall x,
  let those := filter (fun e => takes_part search e && has_tag x e) l in
  counted d x = length those /\ listed m x = map t_id those.
Proof.
  unfold count_tags. assert (G : forall l dm, count_from search dm l = Some (d, m) -> forall x,
    counted d x = counted (fst dm) x + length (filter (fun e => takes_part search e && has_tag x e) l)
    /\ listed m x = listed (snd dm) x ++ map t_id (filter (fun e => takes_part search e && has_tag x e) l)); [|intros E x; apply (G l _ E x)].
  clear l. induction l as [|e r IH]; intros dm E x; cbn [count_from] in E.
  - injection E as ->. cbn. rewrite app_nil_r. split; [lia|reflexivity].
  - destruct (tags e) as [t|] eqn:T; [|discriminate]. cbn [filter].
    assert (N : NoDup t) by apply (proj1 (C130_tags e t T)).
    destruct (match search with Some p => negb (existsb p t) | None => false end) eqn:S.
    + assert (P : takes_part search e = false) by (unfold takes_part; rewrite T; destruct search; [destruct (existsb b t); [discriminate|reflexivity]|discriminate]).
      rewrite P. cbn [andb]. apply IH, E.
    + assert (P : takes_part search e = true) by (unfold takes_part; rewrite T; destruct search; [destruct (existsb b t); [reflexivity|discriminate]|reflexivity]).
      rewrite P. cbn [andb]. destruct (IH _ E x) as (A & B). cbn [fst snd] in A, B. rewrite bumps in A by exact N. rewrite puts in B by exact N.
      assert (Hx : has_tag x e = existsb (String.eqb x) t) by (unfold has_tag; rewrite T; reflexivity). rewrite Hx, A, B. destruct (existsb (String.eqb x) t); cbn; [split; [lia|]|split; [lia|]]; rewrite <- app_assoc; reflexivity.
Qed.
(** It fails just when the tags of one of the entities cannot be made, taking part or not. *)
Theorem C130_count_fails l search : count_tags l search = None <-> exists e, In e l /\ tags e = None.
Proof.
  unfold count_tags. generalize (@nil (string * nat), @nil (string * list string)) as dm. induction l as [|e r IH]; intros dm; cbn [count_from].
  - split; [discriminate|intros (e & [] & _)].
  - destruct (tags e) as [t|] eqn:T.
    + assert (Q : forall dm', count_from search dm' r = None <-> exists e0, In e0 (e :: r) /\ tags e0 = None).
      { intros dm'. rewrite IH. split; [intros (e0 & I & F); exists e0; split; [right; exact I|exact F]|]. intros (e0 & [<- | I] & F); [congruence|eauto]. }
      destruct (match search with Some p => _ | None => _ end); apply Q.
    + split; [intros _; exists e; split; [left; reflexivity|exact T]|reflexivity].
Qed.
Theorem C130_count_witness :
  match count_tags [Tent "u1" [("Name", VText "steel, coil"); ("Year", VNone)]; Tent "u2" [("Name", VList ["steel"; "bar"])]; Tent "u3" [("Name", VText "zinc")]] (Some (String.eqb "Name=steel")) with
  | Some (d, m) => counted d "Name=steel" = 2 /\ listed m "Name=steel" = ["u1"; "u2"] /\ counted d "Name=zinc" = 0
  | None => False end.
Proof. vm_compute. repeat split. Qed.
(** Two properties can give the same tag. *)
Theorem C130_refuted_same_tag : tags (Tent "u" [("a", VText "b=c"); ("a=b", VText "c")]) = Some ["a=b=c"].
Proof. vm_compute. reflexivity. Qed.
(** Exchanges by flow and direction: the count of a pair is the number of exchanges with it. *)
Theorem C130_exchanges {X K} `{EqB K} (key : X -> K) l y : counted (count_exchanges key l) y = length (filter (fun x => eqb y (key x)) l).
Proof.
  unfold count_exchanges. assert (G : forall l d, counted (fold_left (fun d x => bump d (key x)) l d) y = counted d y + length (filter (fun x => eqb y (key x)) l)); [|apply (G l [])].
  clear l. induction l as [|x l IH]; intros d; cbn [fold_left filter]; [cbn; lia|]. rewrite IH, bump_count. destruct (eqb y (key x)); cbn; lia.
Qed.
Print Assumptions C130_parts.
Print Assumptions C130_one_part.
Print Assumptions C130_list_parts_partial.
Print Assumptions C130_tags.
Print Assumptions C130_fails.
Print Assumptions C130_count.
Print Assumptions C130_count_fails.
Print Assumptions C130_exchanges.

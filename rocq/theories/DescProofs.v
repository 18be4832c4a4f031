(** Proofs about the model in DescModel.v. *)
From Coq Require Import String Lia.
From Verif Require Import Base PyStr StoreModel StoreProofs StoreProps StoreProps2 DescModel.
Open Scope string_scope.
Open Scope nat_scope.
Open Scope list_scope.
Local Arguments eqb : simpl never.
Local Arguments mem : simpl never.
Local Arguments stamp_char : simpl never.
Local Arguments nat_of_ascii : simpl never.

(** ** Vocabulary *)
Fixpoint no_dot (s : string) : bool := match s with EmptyString => true | String c r => negb (Ascii.eqb c ".") && no_dot r end.
Definition digit (c : ascii) : bool := (48 <=? nat_of_ascii c) && (nat_of_ascii c <=? 57).
Fixpoint digits (s : string) : bool := match s with EmptyString => true | String c r => digit c && digits r end.
(** Eight digits, four digits: what strftime gives *)
Definition clock (d t : string) : Prop := String.length d = 8 /\ digits d = true /\ String.length t = 4 /\ digits t = true.
(** The reference ends in six digits or hyphens. *)
Definition ends_in_stamp (ref : string) : Prop := exists x y, ref = (x ++ y)%string /\ String.length y = 6 /\ all_stamp y = true.

(** ** Strings *)
Lemma len_app a b : String.length (a ++ b) = String.length a + String.length b.
Proof. induction a; cbn; auto. Qed.
Lemma app_s_assoc a b c : ((a ++ b) ++ c)%string = (a ++ b ++ c)%string.
Proof. induction a as [|x a IH]; cbn; [reflexivity|]. f_equal. exact IH. Qed.
Lemma app_s_nil a : (a ++ "")%string = a.
Proof. induction a as [|x a IH]; cbn; [reflexivity|]. f_equal. exact IH. Qed.
Lemma digits_stamp s : digits s = true -> all_stamp s = true.
Proof. induction s as [|c r IH]; cbn; [reflexivity|]. intros E. apply Bool.andb_true_iff in E. destruct E as (E1 & E2). rewrite (IH E2), Bool.andb_true_r. unfold stamp_char, digit in *. cbv zeta. rewrite E1. reflexivity. Qed.
Lemma stamp_no_dot s : all_stamp s = true -> no_dot s = true.
Proof.
  induction s as [|c r IH]; cbn; [reflexivity|]. intros E. apply Bool.andb_true_iff in E. destruct E as (E1 & E2). rewrite (IH E2), Bool.andb_true_r.
  destruct (Ascii.eqb_spec c "."); [subst c; discriminate E1|reflexivity].
Qed.
Lemma all_stamp_app a b : all_stamp (a ++ b) = all_stamp a && all_stamp b.
Proof. induction a as [|c a IH]; cbn; [reflexivity|]. rewrite IH, Bool.andb_assoc. reflexivity. Qed.
Lemma no_dot_app a b : no_dot (a ++ b) = no_dot a && no_dot b.
Proof. induction a as [|c a IH]; cbn; [reflexivity|]. rewrite IH, Bool.andb_assoc. reflexivity. Qed.
Lemma no_dot_split s : no_dot s = true <-> split_last_dot s = None.
Proof.
  induction s as [|c r IH]; cbn; [tauto|]. destruct (split_last_dot r) as [[a b]|].
  - split; [|discriminate]. intros E. apply Bool.andb_true_iff in E. destruct E as (_ & E). apply IH in E. discriminate.
  - rewrite (proj2 IH eq_refl), Bool.andb_true_r. destruct (Ascii.eqb c "."); cbn; split; congruence.
Qed.
Lemma split_dotted a b : no_dot b = true -> split_last_dot (dotted a b) = Some (a, ("." ++ b)%string).
Proof.
  intros N. unfold dotted. induction a as [|c a IH].
  - change (("" ++ "." ++ b)%string) with (String "." b). cbn [split_last_dot]. rewrite (proj1 (no_dot_split b) N). reflexivity.
  - change ((String c a ++ "." ++ b)%string) with (String c (a ++ "." ++ b)). cbn [split_last_dot]. rewrite IH. reflexivity.
Qed.
Lemma parts_dotted a b : no_dot b = true -> parts (dotted a b) = (a, b).
Proof. intros N. unfold parts. rewrite split_dotted by exact N. reflexivity. Qed.
Lemma split_shape s a b : split_last_dot s = Some (a, b) -> exists c, b = String "." c /\ no_dot c = true /\ s = dotted a c.
Proof.
  revert a b. induction s as [|c r IH]; cbn; intros a b; [discriminate|]. destruct (split_last_dot r) as [[x y]|] eqn:E.
  - intros [= <- <-]. destruct (IH _ _ eq_refl) as (z & -> & N & ->). exists z. auto.
  - destruct (Ascii.eqb_spec c "."); [subst c|discriminate]. intros [= <- <-]. exists r. split; [reflexivity|]. split; [apply no_dot_split, E|reflexivity].
Qed.
Lemma parts_cases s : (no_dot s = true /\ parts s = ("", s)) \/ (exists a b, no_dot b = true /\ s = dotted a b /\ parts s = (a, b)).
Proof.
  destruct (split_last_dot s) as [[a b]|] eqn:E.
  - right. destruct (split_shape _ _ _ E) as (c & -> & N & ->). exists a, c. split; [exact N|]. split; [reflexivity|]. apply parts_dotted, N.
  - left. unfold parts. rewrite E. split; [apply no_dot_split, E|reflexivity].
Qed.
Lemma trail_all s : all_stamp s = true -> trail s = String.length s.
Proof. destruct s as [|c r]; [reflexivity|]. intros E. cbn [trail]. rewrite E. reflexivity. Qed.
(** The characters counted are the longest suffix of its kind. *)
Lemma trail_spec s n : n <= trail s <-> exists x y, s = (x ++ y)%string /\ String.length y = n /\ all_stamp y = true.
Proof.
  induction s as [|c r IH].
  - cbn. split; [intros L; exists "", ""; split; [reflexivity|split; [cbn; lia|reflexivity]]|]. intros (x & y & E & L & _). destruct x; [|discriminate E]. cbn in E. subst y. cbn in L. lia.
  - cbn [trail]. destruct (all_stamp (String c r)) eqn:A.
    + split.
      * intros L. set (s := String c r) in *. change (S (String.length r)) with (String.length s) in L. clearbody s. clear IH c r.
        revert n L. induction s as [|c r IHs]; intros n L; [exists "", ""; split; [reflexivity|split; [cbn in *; lia|reflexivity]]|].
        pose proof A as A'. cbn in A'. apply Bool.andb_true_iff in A'. destruct A' as (_ & A'). cbn in L. destruct (Nat.eq_dec n (S (String.length r))) as [->|].
        -- exists "", (String c r). auto.
        -- destruct (IHs A' n ltac:(lia)) as (x & y & -> & E). exists (String c x), y. auto.
      * intros (x & y & E & L & _). apply (f_equal String.length) in E. rewrite len_app in E. cbn in E. lia.
    + rewrite IH. split; intros (x & y & E & L & B).
      * exists (String c x), y. rewrite E. auto.
      * destruct x as [|c' x]; [cbn in E; subst y; congruence|]. cbn in E. injection E as -> ->. exists x, y. auto.
Qed.
Lemma app_split a b x y : (a ++ b)%string = (x ++ y)%string -> (exists z, x = (a ++ z)%string /\ b = (z ++ y)%string) \/ (exists z, a = (x ++ z)%string /\ y = (z ++ b)%string).
Proof.
  revert x. induction a as [|c a IH]; intros x E; [left; exists x; auto|]. destruct x as [|c' x]; [right; exists (String c a); cbn in *; auto|].
  cbn in E. injection E as <- E. destruct (IH x E) as [(z & -> & ->)|(z & -> & ->)]; [left|right]; exists z; auto.
Qed.
Lemma tail_stamp ref : (6 <=? trail (snd (parts ref))) = true <-> ends_in_stamp ref.
Proof.
  rewrite Nat.leb_le, trail_spec. destruct (parts_cases ref) as [(N & ->)|(a & b & N & -> & ->)]; cbn [snd]; [reflexivity|]. split.
  - intros (x & y & -> & L & S). exists (a ++ "." ++ x)%string, y. split; [unfold dotted; rewrite !app_s_assoc; reflexivity|auto].
  - intros (x & y & E & L & S). pose proof (stamp_no_dot _ S) as D. unfold dotted in E. destruct (app_split _ _ _ _ E) as [(z & -> & E2)|(z & -> & ->)].
    + destruct z as [|c z]; cbn in E2; [subst y; discriminate D|]. injection E2 as <- ->. exists z, y. auto.
    + exfalso. rewrite no_dot_app in D. apply Bool.andb_true_iff in D. destruct D as (_ & D). discriminate D.
Qed.
Lemma strip_dotted a x : all_stamp x = true -> 6 <= String.length x -> strip (dotted a x) = a.
Proof. intros S L. unfold strip. rewrite parts_dotted by (apply stamp_no_dot, S). cbn [fst snd]. rewrite trail_all by exact S. apply Nat.leb_le in L. rewrite L. reflexivity. Qed.
Lemma strip_keeps ref : ~ ends_in_stamp ref -> strip ref = ref.
Proof. intros N. unfold strip. destruct (6 <=? trail (snd (parts ref))) eqn:E; [|reflexivity]. apply tail_stamp in E. contradiction. Qed.
Lemma strip_drops ref : ends_in_stamp ref -> (no_dot ref = true /\ strip ref = "") \/ (exists c, no_dot c = true /\ ref = dotted (strip ref) c).
Proof.
  intros H. unfold strip. rewrite (proj2 (tail_stamp ref) H). destruct (parts_cases ref) as [(N & ->)|(a & b & N & -> & ->)]; cbn [fst]; [auto|right; eauto].
Qed.
Lemma clock_tail d t : clock d t -> all_stamp d = true /\ all_stamp (d ++ "-" ++ t) = true /\ String.length (d ++ "-" ++ t) = 13 /\ d <> (d ++ "-" ++ t)%string.
Proof.
  intros (L & D & L' & D'). apply digits_stamp in D, D'. rewrite !len_app. split; [exact D|]. split; [rewrite !all_stamp_app, D, D'; reflexivity|]. split; [cbn; lia|].
  intros E. apply (f_equal String.length) in E. rewrite !len_app in E. cbn in E. lia.
Qed.
(** What a descendant ends in *)
Definition stamped (d t x : string) : Prop := x = d \/ x = (d ++ "-" ++ t)%string.
Lemma stamped_ok d t x : clock d t -> stamped d t x -> all_stamp x = true /\ 8 <= String.length x /\ no_dot x = true.
Proof.
  intros C H. destruct (clock_tail _ _ C) as (S1 & S2 & L & _). pose proof C as (L1 & _). destruct H as [->| ->]; (split; [assumption|split; [lia|apply stamp_no_dot; assumption]]).
Qed.
(** The new reference: base, signifier if any, date and perhaps time *)
Definition base_of (ref : string) (sig : option string) : string := match sig with None => strip ref | Some s => dotted (strip ref) s end.
Definition stamp_of (d t : string) (prev : string) (sig : option string) : string := match sig with Some _ => d | None => if eqb prev d then (d ++ "-" ++ t)%string else d end.
Lemma dotted_assoc a b c : dotted a (dotted b c) = dotted (dotted a b) c.
Proof. unfold dotted. rewrite !app_s_assoc. reflexivity. Qed.
Lemma descend_eq d t ref sig : descend d t ref sig = match sig with Some s => if sig_ok s then Some (dotted (base_of ref sig) (stamp_of d t (snd (parts ref)) sig)) else None | None => Some (dotted (base_of ref sig) (stamp_of d t (snd (parts ref)) sig)) end.
Proof. destruct sig as [s|]; cbn; [|reflexivity]. rewrite dotted_assoc. reflexivity. Qed.
Lemma stamp_of_stamped d t prev sig : stamped d t (stamp_of d t prev sig).
Proof. destruct sig; cbn; [left; reflexivity|]. destruct (eqb prev d); [right|left]; reflexivity. Qed.
Lemma descend_shape d t ref sig r : descend d t ref sig = Some r -> r = dotted (base_of ref sig) (stamp_of d t (snd (parts ref)) sig).
Proof. rewrite descend_eq. destruct sig as [s|]; [destruct (sig_ok s); [|discriminate]|]; intros [= <-]; reflexivity. Qed.
Lemma parts_descend d t ref sig r : clock d t -> descend d t ref sig = Some r -> parts r = (base_of ref sig, stamp_of d t (snd (parts ref)) sig) /\ strip r = base_of ref sig.
Proof.
  intros C E. apply descend_shape in E. subst r. destruct (stamped_ok _ _ _ C (stamp_of_stamped d t (snd (parts ref)) sig)) as (S & L & N).
  split; [apply parts_dotted, N|]. apply strip_dotted; [exact S|lia].
Qed.
Lemma descend_diff d t ref sig : clock d t -> descend d t ref sig <> Some ref.
Proof.
  intros C E. pose proof (parts_descend _ _ _ _ _ C E) as (P & S). pose proof (f_equal snd P) as Q. cbn [snd] in Q. destruct sig as [s|]; cbn [base_of stamp_of] in *.
  - apply (f_equal String.length) in S. unfold dotted in S. rewrite !len_app in S. cbn in S. lia.
  - destruct (clock_tail _ _ C) as (_ & _ & _ & N). destruct (eqb_spec (snd (parts ref)) d); congruence.
Qed.
Lemma descend_days d t ref sig d' t' ref' sig' r : clock d t -> clock d' t' -> descend d t ref sig = Some r -> descend d' t' ref' sig' = Some r -> d = d'.
Proof.
  intros C C' E E'. pose proof (parts_descend _ _ _ _ _ C E) as (P & _). pose proof (parts_descend _ _ _ _ _ C' E') as (P' & _). rewrite P in P'. injection P' as _ Q.
  destruct C as (L & D & _). destruct C' as (L' & D' & _).
  assert (H: forall a b x y, String.length a = String.length b -> (a ++ x)%string = (b ++ y)%string -> a = b).
  { induction a as [|c a IH]; intros [|c' b] x y LL EE; try discriminate LL; [reflexivity|]. cbn in *. injection EE as -> EE. injection LL as LL. f_equal. exact (IH _ _ _ LL EE). }
  assert (LL: String.length d = String.length d') by congruence.
  destruct (stamp_of_stamped d t (snd (parts ref)) sig) as [A|A], (stamp_of_stamped d' t' (snd (parts ref')) sig') as [B|B]; rewrite A, B in Q.
  - exact Q.
  - apply (H d d' "" ("-" ++ t')%string LL). rewrite app_s_nil. exact Q.
  - apply (H d d' ("-" ++ t)%string "" LL). rewrite app_s_nil. exact Q.
  - apply (H _ _ _ _ LL Q).
Qed.
(** Descendants of descendants *)
Fixpoint lineage (ref : string) (h : list (string * string * option string)) : option string :=
  match h with
  | [] => Some ref
  | (d, t, s) :: h => match descend d t ref s with Some r => lineage r h | None => None end
  end.
Definition signed (base : string) (h : list (string * string * option string)) : string := fold_left (fun acc x => match snd x with Some s => dotted acc s | None => acc end) h base.
Definition last_stamp (prev : string) (h : list (string * string * option string)) : string := fold_left (fun p x => stamp_of (fst (fst x)) (snd (fst x)) p (snd x)) h prev.
Definition step_ok (x : string * string * option string) : Prop := clock (fst (fst x)) (snd (fst x)) /\ match snd x with Some s => sig_ok s = true | None => True end.
Lemma lineage_go h : forall ref x h', h = x :: h' -> Forall step_ok h -> lineage ref h = Some (dotted (signed (strip ref) h) (last_stamp (snd (parts ref)) h)).
Proof.
  induction h as [|y h IH]; intros ref x h' E F; [discriminate|]. clear E x h'. inversion F as [|? ? S F']; subst. destruct y as ((d, t), s). destruct S as (C & S). cbn [fst snd] in *.
  cbn [lineage]. assert (X: descend d t ref s = Some (dotted (base_of ref s) (stamp_of d t (snd (parts ref)) s))) by (rewrite descend_eq; destruct s as [s|]; [rewrite S|]; reflexivity).
  rewrite X. destruct (parts_descend _ _ _ _ _ C X) as (P & Q). destruct h as [|z h].
  - destruct s; reflexivity.
  - rewrite (IH _ z h eq_refl F'). rewrite P, Q. cbn [snd]. unfold signed, last_stamp. cbn [fold_left fst snd]. destruct s; reflexivity.
Qed.

(** ** Archives *)
Definition reach (up : list store) (st : store) : Prop := exists tr h, archive_after up tr h st /\ good_sources tr.
(** The source v is registered under the reference k. *)
Definition known (st : store) (k v : string) : Prop := In (Some v) (sget k (s_names st)).
Lemma translate_app a b : translate (a ++ b) = (translate a ++ translate b)%string.
Proof. induction a as [|c a IH]; [reflexivity|]. cbn [append translate]. destruct (_ || _); [cbn; f_equal; exact IH|]. destruct (_ || _); [exact IH|cbn; f_equal; exact IH]. Qed.
Lemma all_dots_app a b : all_dots (a ++ b) = all_dots a && all_dots b.
Proof. induction a as [|c a IH]; cbn; [reflexivity|]. rewrite IH, Bool.andb_assoc. reflexivity. Qed.
Lemma strip_exts_dots n : forall s, all_dots s = false -> all_dots (strip_exts n s) = false.
Proof.
  induction n as [|n IH]; intros s E; [exact E|]. cbn [strip_exts]. destruct (mem _ _); [|exact E]. apply IH. unfold splitext. destruct (split_last_dot s) as [[a b]|]; [|exact E].
  destruct (all_dots a) eqn:D; [exact E|exact D].
Qed.
Lemma lstrip_defined s : all_dots s = false -> exists y, lstrip_dots s = Some y.
Proof. induction s as [|c r IH]; cbn; [discriminate|]. destruct (Ascii.eqb c "."); cbn; [apply IH|intros _; eauto]. Qed.
Lemma file_local dir n : exists l, local_ref (Some (file_of dir n)) = SOk l.
Proof.
  unfold local_ref. set (xf := translate _). assert (D: all_dots xf = false).
  { unfold xf, file_of. rewrite !translate_app, !all_dots_app. replace (all_dots (translate ".json.gz")) with false by reflexivity. rewrite !Bool.andb_false_r. reflexivity. }
  destruct (lstrip_defined _ (strip_exts_dots (String.length xf) xf D)) as (y & ->). eauto.
Qed.
Lemma reach_ninv up st : reach up st -> ninv (s_names st).
Proof. intros (tr & h & H & _). exact (hist_ninv _ _ _ _ H). Qed.
Lemma reach_step up st n f st' : reach up st -> valid_ref n = true -> set_source n f st = (st', None) -> reach up st'.
Proof.
  intros (tr & h & H & G) V S. exists (tr ++ [(OpSetSource n f, None)]), h. split.
  - destruct H as (so & re & ty & ke & h0 & s0 & I & H). exists so, re, ty, ke, h0, s0. split; [exact I|]. eapply hist_snoc; [exact H|]. cbn [step]. rewrite S. reflexivity.
  - intros r s e J. apply in_app_or in J. destruct J as [J|[J|[]]]; [eapply G; eauto|]. injection J as <- _ _. exact V.
Qed.
Lemma set_source_ok up st n f st' : reach up st -> set_source n (Some f) st = (st', None) ->
  valid_ref n = true /\ reach up st' /\ s_source st' = Some f /\ ref_of st' = SOk n /\ known st' n f /\ s_dref st' = s_dref st /\ write_to_file f up st' = (st', None) /\
  (forall k, known st k f -> k = n \/ local_ref (Some f) = SOk k) /\
  ((forall k, known st k f -> k = n) -> forall k v, known st' k v <-> known st k v \/ (k = n /\ v = f)).
Proof.
  intros R S. pose proof (reach_ninv _ _ R) as I. unfold set_source in S. destruct (add_name_ok n (Some f) false (with_source (Some f) st) st' I S) as (V & C & _ & _ & _ & _ & _ & DR & SO). cbn [s_source with_source s_dref s_names] in *.
  assert (S1: s_source st' = Some f) by (destruct SO as [SO|(X & _)]; [exact SO|discriminate]). pose proof (reach_step _ _ _ _ _ R V S) as R'. pose proof (reach_ninv _ _ R') as I'.
  assert (K: known st' n f) by (exact (nchange_source _ _ _ _ _ _ I C)).
  assert (RF: ref_of st' = SOk n). { destruct (own_reg_ref st' I') as (k & E & K' & _); [exists n; rewrite S1; exact K|]. rewrite E. f_equal. rewrite S1 in K'. apply (ni_uniq _ I' (Some f)); [discriminate|exact K'|exact K]. }
  split; [exact V|]. split; [exact R'|]. split; [exact S1|]. split; [exact RF|]. split; [exact K|]. split; [exact DR|]. split; [|split].
  - unfold write_to_file. rewrite S1. destruct R' as (tr & h & H & _). destruct (C47_names_maps_sources_to_references up tr h st' f H) as (P & _). unfold din. rewrite (P n K). reflexivity.
  - intros k Kk. destruct C as [[X|X] _|_ NL R2 _|k1 _ _ RW _ _ _|k1 _ _ L R2 _].
    + discriminate.
    + destruct (X k Kk).
    + left. apply (ni_uniq _ I (Some f)); [discriminate|exact Kk|exact R2].
    + discriminate.
    + right. assert (k = k1) as -> by (apply (ni_uniq _ I (Some f)); [discriminate|exact Kk|exact R2]). exact L.
  - intros U k v. unfold known. destruct C as [X E|_ _ R2 E|k1 _ _ RW _ _ _|k1 _ _ L R2 E]; [| |discriminate|].
    + rewrite E, sget_dset. destruct (eqb_spec k n) as [->|N]; [rewrite In_set_add; split; [intros [J|J]; [injection J as ->; auto|auto]|intros [J|(_ & ->)]; auto]|].
      split; [auto|]. intros [J|(J & _)]; [exact J|contradiction].
    + rewrite E. split; [auto|]. intros [J|(-> & ->)]; [exact J|exact R2].
    + assert (k1 = n) as -> by (apply U, R2). rewrite E, sget_dset. destruct (eqb_spec k n) as [->|N]; [split; [auto|intros [J|(_ & ->)]; [exact J|exact R2]]|].
      rewrite sget_ddel, (proj2 (eqb_neq k n) N). split; [auto|]. intros [J|(J & _)]; [exact J|contradiction].
Qed.
Lemma set_source_fails up st dir m n st' e : reach up st -> set_source n (Some (file_of dir m)) st = (st', Some e) ->
  st' = with_source (Some (file_of dir m)) st /\ ((e = SInvalidRef /\ valid_ref n = false) \/ (e = SSourceKnown /\ exists k, k <> n /\ known st k (file_of dir m))).
Proof.
  intros R S. pose proof (reach_ninv _ _ R) as I. unfold set_source in S. set (f := file_of dir m) in *. destruct (file_local dir m) as (l & L). fold f in L.
  destruct (add_name_fail n (Some f) false (with_source (Some f) st) st' e I S) as [(-> & [X|[(X & _ & _ & Y)|(_ & X & _)]])|(_ & X & _)].
  - auto.
  - auto.
  - congruence.
  - exfalso. apply X. reflexivity.
Qed.
(** When it fails for a source known elsewhere, that is not under the default reference of the source. *)
Lemma set_source_iff up st dir m n : reach up st -> let f := file_of dir m in
  (exists st', set_source n (Some f) st = (st', None)) <-> valid_ref n = true /\ forall k, known st k f -> k = n \/ local_ref (Some f) = SOk k.
Proof.
  intros R. cbv zeta. set (f := file_of dir m). split.
  - intros (st' & S). destruct (set_source_ok _ _ _ _ _ R S) as (V & _ & _ & _ & _ & _ & _ & K & _). auto.
  - intros (V & K). destruct (set_source n (Some f) st) as (st', [e|]) eqn:S; [exfalso|eauto]. pose proof (reach_ninv _ _ R) as I.
    destruct (set_source_fails _ _ _ _ _ _ _ R S) as (_ & [(_ & X)|(-> & k & N & Kk)]); [congruence|].
    destruct (K k Kk) as [X|L]; [contradiction|]. unfold set_source, add_name in S. rewrite V in S. cbn [negb s_names s_source with_source] in S.
    destruct (name_loop_cases (Some f) n (Some f) false (s_names st) I) as [[[X|X] _]|[_ [k1 [K1 E]]]]; [discriminate|exact (X k Kk)|].
    assert (k1 = k) as -> by (apply (ni_uniq _ I (Some f)); [discriminate|exact K1|exact Kk]). rewrite E in S. unfold hit_result in S. rewrite eqb_refl, L, eqb_refl in S. discriminate.
Qed.
Lemma valid_app a b : a <> "" -> valid_ref (a ++ b) = valid_ref a.
Proof. destruct a; [congruence|reflexivity]. Qed.
Lemma descend_valid d t ref sig n : valid_ref ref = true -> descend d t ref sig = Some n -> (valid_ref n = true <-> ~ (no_dot ref = true /\ ends_in_stamp ref)).
Proof.
  intros V E. apply descend_shape in E. subst n.
  assert (B: valid_ref (dotted (base_of ref sig) (stamp_of d t (snd (parts ref)) sig)) = valid_ref (strip ref)).
  { unfold dotted. destruct sig as [s|]; cbn [base_of]; unfold dotted.
    - destruct (eq_dec (strip ref) "") as [->|N]; [reflexivity|]. rewrite app_s_assoc. apply valid_app, N.
    - destruct (eq_dec (strip ref) "") as [->|N]; [reflexivity|]. apply valid_app, N. }
  rewrite B. destruct (6 <=? trail (snd (parts ref))) eqn:Q.
  - apply tail_stamp in Q. destruct (strip_drops _ Q) as [(N & ->)|(c & N & X)].
    + cbn. split; [discriminate|]. intros H. exfalso. auto.
    + rewrite X in V. unfold dotted in V. destruct (eq_dec (strip ref) "") as [Z|Z]; [rewrite Z in V; discriminate V|]. rewrite valid_app in V by exact Z. rewrite V. split; [|reflexivity]. intros _ (W & _).
      rewrite X in W. unfold dotted in W. rewrite no_dot_app in W. apply Bool.andb_true_iff in W. destruct W as (_ & W). discriminate W.
  - assert (H: ~ ends_in_stamp ref) by (rewrite <- tail_stamp; congruence). rewrite strip_keeps by exact H. rewrite V. tauto.
Qed.

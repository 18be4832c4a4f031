From Coq Require Import String Ascii ZArith Permutation Sorted Lia.
From Verif Require Import Base PyStr TableModel TableProofs SearchProps InteractModel.
Open Scope string_scope.
Open Scope nat_scope.
Open Scope list_scope.
Local Arguments String.eqb : simpl never.
Local Arguments Ascii.eqb : simpl never.
Local Arguments eqb : simpl never.

(** * Letters *)
Fixpoint chars (s : string) : list ascii := match s with EmptyString => [] | String c r => c :: chars r end.
Lemma chars_app a b : chars (a ++ b) = chars a ++ chars b.
Proof. induction a; cbn; congruence. Qed.
Lemma upper_app a b : upper (a ++ b) = (upper a ++ upper b)%string.
Proof. induction a; cbn; congruence. Qed.
Lemma memc_spec c l : memc c l = true <-> In c l.
Proof.
  unfold memc. rewrite existsb_exists. split; [intros (x & X & Y); apply Ascii.eqb_eq in Y; subst; exact X|].
  intros I. exists c. split; [exact I|apply Ascii.eqb_refl].
Qed.
Lemma memc_false c l : memc c l = false <-> ~ In c l.
Proof. rewrite <- memc_spec. destruct (memc c l); split; congruence. Qed.
Lemma first_new_some menu s j : first_new menu s = Some j ->
  exists a b, chars s = a ++ j :: b /\ ~ In j menu /\ (forall c, In c a -> In c menu).
Proof.
  induction s as [|c r IH]; cbn; intros E; [congruence|]. destruct (memc c menu) eqn:M.
  - destruct (IH E) as (a & b & P & Q & R). exists (c :: a), b. cbn. rewrite P. split; [reflexivity|]. split; [exact Q|].
    intros x [<- | I]; [apply memc_spec; exact M|auto].
  - injection E as <-. exists [], (chars r). cbn. split; [reflexivity|]. split; [apply memc_false; exact M|easy].
Qed.
Lemma first_new_none menu s : first_new menu s = None <-> incl (chars s) menu.
Proof.
  induction s as [|c r IH]; cbn; [split; [intros _ x []|reflexivity]|]. destruct (memc c menu) eqn:M.
  - apply memc_spec in M. rewrite IH. split; [intros I x [<- | J]; auto|intros I x J; apply I; right; exact J].
  - apply memc_false in M. split; [congruence|]. intros I. destruct M. apply I. left. reflexivity.
Qed.
Lemma letters_length args : forall m menu, letters_from m args = Some menu -> length menu = length m + length args.
Proof.
  induction args as [|a r IH]; cbn; intros m menu E; [injection E as <-; lia|].
  destruct (first_new m _) as [j|]; [|congruence]. rewrite (IH _ _ E), app_length. cbn. lia.
Qed.
Lemma NoDup_snoc {A} (m : list A) j : NoDup m -> ~ In j m -> NoDup (m ++ [j]).
Proof. intros N J. apply (Permutation_NoDup (Permutation_cons_append m j)). constructor; assumption. Qed.
Lemma letters_nodup args : forall m menu, NoDup m -> letters_from m args = Some menu -> NoDup menu.
Proof.
  induction args as [|a r IH]; cbn; intros m menu N E; [injection E as <-; exact N|].
  destruct (first_new m _) as [j|] eqn:F; [|congruence]. apply first_new_some in F as (x & y & _ & J & _).
  refine (IH _ _ _ E). apply NoDup_snoc; assumption.
Qed.
Lemma letters_prefix args : forall m menu, letters_from m args = Some menu -> exists t, menu = m ++ t.
Proof.
  induction args as [|a r IH]; cbn; intros m menu E; [injection E as <-; exists []; symmetry; apply app_nil_r|].
  destruct (first_new m _) as [j|]; [|congruence]. destruct (IH _ _ E) as (t & ->). exists (j :: t). rewrite <- app_assoc. reflexivity.
Qed.
(** Every option: its letter is the first one of its text, then of the alphabet, that no earlier option has. *)
Lemma letters_nth args : forall m menu i arg ch, letters_from m args = Some menu ->
  nth_error args i = Some arg -> nth_error menu (length m + i) = Some ch ->
  exists a b, chars (upper (arg ++ uppercase)) = a ++ ch :: b /\ ~ In ch (firstn (length m + i) menu)
    /\ (forall c, In c a -> In c (firstn (length m + i) menu)).
Proof.
  induction args as [|a0 r IH]; intros m menu i arg ch E A C; [destruct i; discriminate|]. cbn in E.
  destruct (first_new m _) as [j|] eqn:F; [|congruence]. destruct i as [|i].
  - injection A as <-. rewrite Nat.add_0_r in *. destruct (letters_prefix _ _ _ E) as (t & ->). rewrite <- app_assoc in *.
    rewrite nth_error_app2, Nat.sub_diag in C by lia. injection C as <-.
    rewrite firstn_app, Nat.sub_diag, firstn_all, app_nil_r. apply first_new_some. exact F.
  - replace (length m + S i) with (length (m ++ [j]) + i) in * by (rewrite app_length; cbn; lia). exact (IH _ _ _ _ _ E A C).
Qed.
Lemma upper_upper_char c : upper_char (upper_char c) = upper_char c.
Proof.
  apply Ascii.eqb_eq. revert c. apply (for_all_ascii (fun c => Ascii.eqb (upper_char (upper_char c)) (upper_char c))).
  vm_compute. reflexivity.
Qed.
Lemma letters_fit args : forall m, NoDup m -> length m + length args <= 26 -> exists menu, letters_from m args = Some menu.
Proof.
  induction args as [|a r IH]; intros m N L; cbn in *; [eauto|]. destruct (first_new m _) as [j|] eqn:F.
  - apply first_new_some in F as (x & y & _ & J & _). apply IH; [|rewrite app_length; cbn; lia].
    apply NoDup_snoc; assumption.
  - exfalso. apply first_new_none in F. rewrite upper_app, chars_app in F.
    assert (I : incl (chars (upper uppercase)) m) by (intros x X; apply F, in_app_iff; right; exact X).
    apply NoDup_incl_length in I; [cbn in I; lia|]. 
    assert (B : NoDup (chars uppercase)); [|exact B]. unfold uppercase. cbn. repeat (constructor; [cbn; intros X; repeat destruct X as [X|X]; try discriminate X; exact X|]). constructor.
Qed.

(** * Reading a choice *)
Lemma index_of_spec s menu i : NoDup menu -> index_of s menu = Some i <-> exists ch, nth_error menu i = Some ch /\ s = String ch "".
Proof.
  revert i. induction menu as [|k r IH]; intros i N; cbn; [split; [discriminate|intros (ch & X & _); destruct i; discriminate]|].
  inversion N as [|? ? N1 N2]; subst. destruct (String.eqb_spec s (String k "")) as [->|D].
  - split; [intros [= <-]; exists k; auto|]. intros (ch & X & Y). injection Y as <-. destruct i as [|i]; [reflexivity|].
    exfalso. apply N1. eapply nth_error_In. exact X.
  - split.
    + destruct (index_of s r) as [j|] eqn:J; [|discriminate]. intros [= <-]. exact (proj1 (IH j N2) eq_refl).
    + intros (ch & X & ->). destruct i as [|i]; [cbn in X; congruence|]. cbn in X.
      assert (J : index_of (String ch "") r = Some i) by (apply (IH i N2); eauto). rewrite J. reflexivity.
Qed.
Lemma index_of_none s menu : index_of s menu = None -> forall ch, In ch menu -> s <> String ch "".
Proof.
  induction menu as [|k r IH]; cbn; [easy|]. destruct (String.eqb_spec s (String k "")) as [->|D]; [discriminate|].
  destruct (index_of s r); [discriminate|]. intros _ ch [<- | I]; [exact D|apply IH; auto].
Qed.

(** * Groups *)
Section Runs.
Context {E : Type} (f : E -> string).
Let le (a b : E) : Prop := String.leb (f a) (f b) = true.
Lemma le_trans_k : forall a b c, le a b -> le b c -> le a c.
Proof. intros a b c. apply str_leb_trans. Qed.
Lemma sort_strong l : StronglySorted le (tsort (fun a b => String.leb (f a) (f b)) l).
Proof.
  apply Sorted_StronglySorted; [exact le_trans_k|]. apply (tsort_sorted (fun a b => String.leb (f a) (f b))).
  intros a b. apply String.leb_total.
Qed.
Lemma runs_concat l : concat (map snd (runs f l)) = l.
Proof.
  induction l as [|a r IH]; cbn; [reflexivity|]. destruct (runs f r) as [|[k g] t]; cbn in *; [rewrite <- IH; reflexivity|].
  destruct (String.eqb (f a) k); cbn; congruence.
Qed.
Lemma runs_head a r : exists g t, runs f (a :: r) = (f a, a :: g) :: t.
Proof.
  cbn. destruct (runs f r) as [|[k g] t]; [eauto|]. destruct (String.eqb_spec (f a) k) as [->|]; eauto.
Qed.
Lemma filter_none {A} (p : A -> bool) l : (forall a, In a l -> p a = false) -> filter p l = [].
Proof. induction l as [|a l IH]; cbn; intros Hn; [reflexivity|]. rewrite (Hn a) by auto. auto. Qed.
Lemma filter_all {A} (p : A -> bool) l : (forall a, In a l -> p a = true) -> filter p l = l.
Proof. induction l as [|a l IH]; cbn; intros Hn; [reflexivity|]. rewrite (Hn a) by auto. f_equal. auto. Qed.
(** In a sorted list the runs are the classes. *)
Lemma runs_sorted l : StronglySorted le l ->
  NoDup (map fst (runs f l)) /\ (forall k g, In (k, g) (runs f l) -> g = filter (fun e => String.eqb (f e) k) l /\ g <> []).
Proof.
  induction l as [|a r IH]; intros S; [split; [constructor|easy]|]. inversion S as [|? ? S1 S2]; subst.
  destruct (IH S1) as (N & G). destruct r as [|b r'].
  - cbn. split; [repeat constructor; easy|]. intros k g [[= <- <-] | []]. cbn. rewrite String.eqb_refl. easy.
  - destruct (runs_head b r') as (gb & t & R). change (runs f (a :: b :: r')) with
      (match runs f (b :: r') with
       | (k, g) :: t => if String.eqb (f a) k then (k, a :: g) :: t else (f a, [a]) :: (k, g) :: t
       | [] => [(f a, [a])] end). rewrite R in *. 
    assert (K : forall k g, In (k, g) t -> k <> f b).
    { intros k g I ->. cbn in N. inversion N as [|? ? N1 N2]; subst. apply N1. apply in_map_iff. exists (f b, g). auto. }
    destruct (String.eqb_spec (f a) (f b)) as [AB|AB].
    + split; [exact N|]. intros k g [[= <- <-] | I].
      * destruct (G (f b) (b :: gb) (or_introl eq_refl)) as (G1 & _). split; [|easy].
        cbn [filter]. rewrite AB, String.eqb_refl. cbn [filter] in G1. rewrite String.eqb_refl in G1. rewrite G1. reflexivity.
      * destruct (G k g (or_intror I)) as (G1 & G2). split; [|exact G2]. 
        cbn [filter]. rewrite AB. assert (Q : String.eqb (f b) k = false) by (apply String.eqb_neq; intros X; exact (K _ _ I (eq_sym X))).
        cbn [filter] in G1. rewrite Q in *. exact G1.
    + assert (Q : forall e, In e (b :: r') -> f e <> f a).
      { intros e I X. assert (L1 : le a b) by (rewrite Forall_forall in S2; apply S2; left; reflexivity).
        assert (L2 : le b e). { destruct I as [<- | I]; [unfold le; destruct (String.leb_total (f b) (f b)); auto|]. inversion S1 as [|? ? _ S3]; subst. rewrite Forall_forall in S3. apply S3, I. }
        unfold le in *. rewrite X in L2. apply AB. apply String.leb_antisym; assumption. }
      split.
      * change (map fst ((f a, [a]) :: (f b, b :: gb) :: t)) with (f a :: map fst ((f b, b :: gb) :: t)). constructor; [|exact N].
        intros I. apply in_map_iff in I as ([k g] & X & I). cbn in X. subst k. destruct (G _ _ I) as (G1 & G2).
        destruct g as [|e g]; [easy|]. assert (J : In e (filter (fun e => String.eqb (f e) (f a)) (b :: r'))) by (rewrite <- G1; left; reflexivity).
        apply filter_In in J as (J1 & J2). apply String.eqb_eq in J2. exact (Q e J1 J2).
      * intros k g [[= <- <-] | I].
        -- split; [|easy]. cbn [filter]. rewrite String.eqb_refl. f_equal. symmetry. 
           change (filter (fun e => String.eqb (f e) (f a)) (b :: r') = []). apply filter_none.
           intros e J. apply String.eqb_neq. apply Q. exact J.
        -- destruct (G k g I) as (G1 & G2). split; [|exact G2]. cbn [filter]. destruct (String.eqb_spec (f a) k) as [X|_]; [|exact G1].
           exfalso. subst k. destruct g as [|e g]; [easy|]. assert (J : In e (filter (fun e => String.eqb (f e) (f a)) (b :: r'))) by (rewrite <- G1; left; reflexivity).
           apply filter_In in J as (J1 & J2). apply String.eqb_eq in J2. exact (Q e J1 J2).
Qed.
(** The sort is stable: a class keeps its order. *)
Lemma tsort_filter k l : filter (fun e => String.eqb (f e) k) (tsort (fun a b => String.leb (f a) (f b)) l) = filter (fun e => String.eqb (f e) k) l.
Proof.
  assert (T : forall a l, filter (fun e => String.eqb (f e) k) (tinsert (fun a b => String.leb (f a) (f b)) a l) = filter (fun e => String.eqb (f e) k) (a :: l)).
  { intros a m. induction m as [|b m IH]; [reflexivity|]. cbn [tinsert]. destruct (String.leb (f a) (f b)) eqn:L; [reflexivity|].
    cbn [filter] in *. rewrite IH. destruct (String.eqb_spec (f a) k) as [A|A], (String.eqb_spec (f b) k) as [B|B]; try reflexivity.
    exfalso. rewrite A, B in L. destruct (String.leb_total k k); congruence. }
  induction l as [|a l IH]; [reflexivity|]. change (tsort ?r (a :: l)) with (tinsert r a (tsort r l)). rewrite T. cbn [filter]. rewrite IH. reflexivity.
Qed.
End Runs.

Section Group.
Context {E : Type}.
Definition has_key (k : key) (f : E -> key) (e : E) : bool := eqb (f e) k.
Lemma has_key_true k f e : has_key k f e = true <-> f e = k.
Proof. unfold has_key. destruct (eqb_spec (f e) k); split; congruence. Qed.
(** The keys can be compared. *)
Definition comparable (f : E -> key) (l : list E) : Prop := length l <= 1 \/ forall e, In e l -> f e <> None.

Lemma group_by_perm (f : E -> key) (l : list E) : Permutation (concat (map snd (group_by l f))) l.
Proof.
  unfold group_by. destruct ((1 <? length l) && _); [cbn; rewrite app_nil_r; reflexivity|].
  assert (P : forall s : E -> string, Permutation (concat (map snd (map (fun g => (Some (fst g), snd g)) (runs s (tsort (fun a b => String.leb (s a) (s b)) l))))) l).
  { intros s. rewrite map_map. cbn. rewrite runs_concat. apply tsort_perm. }
  destruct l as [|a [|b l]]; [apply P|reflexivity|apply P].
Qed.
Lemma group_by_class f l : comparable f l ->
  NoDup (map fst (group_by l f)) /\ (forall k g, In (k, g) (group_by l f) -> g = filter (has_key k f) l /\ g <> []).
Proof.
  intros C. unfold group_by.
  destruct ((1 <? length l) && existsb (fun e => match f e with None => true | _ => false end) l) eqn:X.
  - exfalso. apply andb_prop in X as (X1 & X2). apply Nat.ltb_lt in X1. destruct C as [C|C]; [lia|].
    apply existsb_exists in X2 as (e & I & X2). destruct (f e) eqn:F; [discriminate|]. exact (C e I F).
  - destruct l as [|a l]; [split; [constructor|easy]|]. destruct l as [|b l].
    + split; [repeat constructor; easy|]. intros k g [[= <- <-] | []]. split; [|easy]. cbn. unfold has_key. rewrite eqb_refl. reflexivity.
    + set (s := fun e => match f e with Some k => k | None => "" end). set (m := a :: b :: l) in *.
      assert (D : forall e, In e m -> f e = Some (s e)).
      { intros e I. unfold s. cbn in X. destruct (f e) eqn:F; [reflexivity|]. exfalso.
        assert (B : existsb (fun e => match f e with None => true | _ => false end) m = true) by (apply existsb_exists; exists e; rewrite F; auto).
        cbn in B. congruence. }
      destruct (runs_sorted s _ (sort_strong s m)) as (N & G). split.
      * assert (Y : forall (r : list (string * list E)), map fst (map (fun g => (Some (fst g), snd g)) r) = map (@Some string) (map fst r)) by (intros r; rewrite !map_map; reflexivity).
        cbn [runs] in *. rewrite Y. apply FinFun.Injective_map_NoDup; [intros x y Z; injection Z as ->; reflexivity|exact N].
      * intros k g I. apply in_map_iff in I as ([k' g'] & [= <- <-] & I). destruct (G _ _ I) as (G1 & G2). cbn [fst snd] in *. split; [|exact G2].
        rewrite G1, tsort_filter. apply filter_ext_in. intros e J. unfold has_key. rewrite (D e J).
        destruct (String.eqb_spec (s e) k') as [->|Q]; [rewrite eqb_refl; reflexivity|]. symmetry. apply Bool.not_true_iff_false. intros Z. apply (proj1 (eqb_eq _ _)) in Z. injection Z as Z. exact (Q Z).
Qed.
Lemma group_by_key f l e : comparable f l -> In e l -> exists g, In (f e, g) (group_by l f).
Proof.
  intros C I. destruct (group_by_class f l C) as (_ & G).
  assert (J : In e (concat (map snd (group_by l f)))) by (eapply Permutation_in; [symmetry; apply group_by_perm|exact I]).
  apply in_concat in J as (g & J1 & J2). apply in_map_iff in J1 as ([k g'] & <- & J1). cbn in J2.
  destruct (G _ _ J1) as (G1 & _). rewrite G1 in J2. apply filter_In in J2 as (_ & J2). apply has_key_true in J2. subst k. eauto.
Qed.
End Group.

(** Proofs about the model in TraciModel.v. *)
From Coq Require Import String Ascii NArith Lia.
From Verif Require Import Num Base PyStr TraciModel.
Open Scope nat_scope.
Open Scope string_scope.
Open Scope list_scope.
Local Arguments eqb : simpl never.

(** ** CAS numbers *)
Lemma num_snoc l c : num (l ++ [c]) = (10 * num l + (N_of_ascii c - 48))%N.
Proof. unfold num. rewrite fold_left_app. reflexivity. Qed.
Lemma digit_code d : (d < 10)%N -> N_of_ascii (ascii_of_N (48 + d)) = (48 + d)%N.
Proof. intros H. apply N_ascii_embedding. lia. Qed.
Lemma dec_fuel_spec fuel : forall n acc, (n < 10 ^ (N.of_nat fuel + 1))%N ->
  exists ds, dec_fuel fuel n acc = ds ++ acc /\ forallb is_digit ds = true /\ num ds = n /\ ds <> [] /\
    (n < 10 ^ N.of_nat (List.length ds))%N /\ ((1 < List.length ds)%nat -> (10 ^ (N.of_nat (List.length ds) - 1) <= n)%N).
Proof.
  assert (D: forall m, (m < 10)%N -> is_digit (ascii_of_N (48 + m)) = true).
  { intros m Hm. unfold is_digit. rewrite digit_code by exact Hm. rewrite Bool.andb_true_iff, !N.leb_le. lia. }
  induction fuel as [|fuel IH]; intros n acc H.
  - change (10 ^ (N.of_nat 0 + 1))%N with 10%N in H. exists [ascii_of_N (48 + n mod 10)]. cbn [dec_fuel app List.length]. rewrite N.mod_small by exact H. cbn [forallb].
    rewrite D by exact H. repeat split; [|discriminate|exact H|lia]. unfold num. cbn [fold_left]. rewrite digit_code by exact H. lia.
  - cbn [dec_fuel]. destruct (N.ltb_spec n 10) as [L|L].
    + exists [ascii_of_N (48 + n mod 10)]. cbn [app List.length]. rewrite N.mod_small by exact L. cbn [forallb].
      rewrite D by exact L. repeat split; [|discriminate|exact L|lia]. unfold num. cbn [fold_left]. rewrite digit_code by exact L. lia.
    + assert (M: (n mod 10 < 10)%N) by (apply N.mod_lt; lia). pose proof (N.div_mod n 10 ltac:(lia)) as E. set (q := (n / 10)%N) in *. set (r := (n mod 10)%N) in *. clearbody r.
      destruct (IH q (ascii_of_N (48 + r) :: acc)) as (ds & E1 & E2 & E3 & E4 & E5 & E6).
      { replace (N.of_nat (S fuel) + 1)%N with (N.succ (N.of_nat fuel + 1)) in H by lia. rewrite N.pow_succ_r' in H. apply N.div_lt_upper_bound; lia. }
      clearbody q.
      exists (ds ++ [ascii_of_N (48 + r)]). rewrite <- app_assoc. cbn [app]. rewrite E1. split; [reflexivity|].
      rewrite forallb_app, E2. cbn [forallb]. rewrite D by exact M. split; [reflexivity|].
      rewrite num_snoc, digit_code, E3 by exact M. split; [lia|]. split; [destruct ds; discriminate|].
      rewrite app_length. cbn [List.length]. rewrite Nat.add_1_r, Nat2N.inj_succ, N.pow_succ_r'.
      split; [lia|]. intros _. replace (N.succ (N.of_nat (List.length ds)) - 1)%N with (N.of_nat (List.length ds)) by lia.
      destruct ds as [|d [|e ds]]; [congruence|change (10 ^ N.of_nat (List.length [d]))%N with 10%N; lia|].
      specialize (E6 ltac:(cbn [List.length]; lia)). set (k := N.of_nat (List.length (d :: e :: ds))) in *.
      replace k with (N.succ (k - 1)) by (unfold k; cbn [List.length]; lia). rewrite N.pow_succ_r'. lia.
Qed.
Lemma size_bound n : (n < 10 ^ (N.of_nat (N.size_nat n) + 1))%N.
Proof.
  destruct (N.eqb_spec n 0) as [->|Hn]; [cbn; lia|].
  assert (H: (n < 2 ^ N.size n)%N) by apply N.size_gt. assert (E: N.of_nat (N.size_nat n) = N.size n).
  { destruct n as [|p]; [reflexivity|]. cbn [N.size_nat N.size]. clear. induction p as [p IH|p IH|]; cbn [Pos.size_nat Pos.size]; [| |reflexivity]; rewrite Nat2N.inj_succ, IH; lia. }
  rewrite E. apply N.lt_le_trans with (2 ^ N.size n)%N; [exact H|]. apply N.le_trans with (10 ^ N.size n)%N; [apply N.pow_le_mono_l; lia|apply N.pow_le_mono_r; lia].
Qed.
Lemma dec_spec n : forallb is_digit (dec n) = true /\ num (dec n) = n /\ dec n <> [] /\
    (n < 10 ^ N.of_nat (List.length (dec n)))%N /\ ((1 < List.length (dec n))%nat -> (10 ^ (N.of_nat (List.length (dec n)) - 1) <= n)%N).
Proof. destruct (dec_fuel_spec _ n [] (size_bound n)) as (ds & E & H). unfold dec. rewrite E, app_nil_r. exact H. Qed.
Lemma dec_len_ge n L : (0 < L)%nat -> (10 ^ N.of_nat L <= n)%N -> (L < List.length (dec n))%nat.
Proof.
  intros HL H. destruct (dec_spec n) as (_ & _ & _ & U & _). destruct (le_lt_dec (List.length (dec n)) L) as [Q|Q]; [|exact Q].
  assert (10 ^ N.of_nat (List.length (dec n)) <= 10 ^ N.of_nat L)%N by (apply N.pow_le_mono_r; lia). lia.
Qed.
Lemma dec_len_lt n L : (0 < L)%nat -> (n < 10 ^ N.of_nat L)%N -> (List.length (dec n) <= L)%nat.
Proof.
  intros HL H. destruct (dec_spec n) as (_ & _ & _ & _ & U). destruct (le_lt_dec (List.length (dec n)) L) as [Q|Q]; [exact Q|].
  specialize (U ltac:(lia)). assert (10 ^ N.of_nat L <= 10 ^ (N.of_nat (List.length (dec n)) - 1))%N by (apply N.pow_le_mono_r; lia). lia.
Qed.
Lemma hyphens_app l x y z : hyphens (l ++ [x; y; z]) = l ++ [dash; x; y; dash; z].
Proof.
  unfold hyphens. rewrite app_length. cbn [List.length]. replace (List.length l + 3 - 3) with (List.length l) by lia.
  replace (List.length l + 3 - 1 - List.length l) with 2 by lia. replace (List.length l + 3 - 1) with (List.length l + 2) by lia.
  rewrite firstn_app, firstn_all, Nat.sub_diag. cbn [firstn]. rewrite app_nil_r. f_equal. f_equal.
  rewrite skipn_app, skipn_all, Nat.sub_diag. cbn [skipn app firstn]. f_equal. f_equal. f_equal. rewrite skipn_app. rewrite skipn_all2 by lia.
  replace (List.length l + 2 - List.length l) with 2 by lia. reflexivity.
Qed.
Lemma last3 {A} (l : list A) : 3 <= List.length l -> exists m x y z, l = m ++ [x; y; z].
Proof.
  intros H. rewrite <- (rev_involutive l). destruct (rev l) as [|z [|y [|x m]]] eqn:E; apply (f_equal (@List.length A)) in E; rewrite rev_length in E; cbn in E; try lia.
  exists (rev m), x, y, z. cbn [rev]. rewrite <- !app_assoc. reflexivity.
Qed.
Lemma digit_not_dash c : is_digit c = true -> Ascii.eqb c dash = false.
Proof. intros H. destruct (Ascii.eqb_spec c dash) as [->|]; [discriminate H|reflexivity]. Qed.
Lemma filter_digits l : forallb is_digit l = true -> filter (fun c => negb (Ascii.eqb c dash)) l = l.
Proof.
  induction l as [|c l IH]; [reflexivity|]. cbn [forallb filter]. rewrite Bool.andb_true_iff. intros (H1 & H2). rewrite (digit_not_dash _ H1). cbn [negb]. rewrite IH by exact H2. reflexivity.
Qed.
Lemma match_hyphens l x y z : forallb is_digit (l ++ [x; y; z]) = true -> cas_match (l ++ [dash; x; y; dash; z]) = (List.length l <=? 6)%nat.
Proof.
  rewrite forallb_app. cbn [forallb]. rewrite !Bool.andb_true_iff. intros (Hl & Hx & Hy & Hz & _). unfold cas_match. rewrite rev_app_distr. cbn [rev app].
  rewrite Hx, Hy, Hz. change (Ascii.eqb dash dash) with true. cbn [andb]. rewrite rev_length.
  replace (forallb is_digit (rev l)) with true; [reflexivity|]. symmetry. apply forallb_forall. intros c Hc. rewrite <- in_rev in Hc. rewrite forallb_forall in Hl. apply Hl, Hc.
Qed.
Lemma cas_number n : ((100 <= n < 10 ^ 9)%N -> cas_match (hyphens (dec n)) = true /\ string_cas (hyphens (dec n)) = n) /\
  (~ (100 <= n < 10 ^ 9)%N -> cas_match (hyphens (dec n)) = false).
Proof.
  destruct (dec_spec n) as (D & E & Z & U & L). split.
  - intros (H1 & H2). pose proof (dec_len_ge n 2 ltac:(lia) ltac:(cbn; lia)) as G1. pose proof (dec_len_lt n 9 ltac:(lia) ltac:(exact H2)) as G2.
    destruct (last3 (dec n) ltac:(lia)) as (l & x & y & z & Q). rewrite Q in *. rewrite hyphens_app. rewrite app_length in G2. cbn [List.length] in G2.
    split; [rewrite match_hyphens by exact D; apply Nat.leb_le; lia|].
    unfold string_cas. rewrite filter_app. rewrite forallb_app in D. cbn [forallb] in D. rewrite !Bool.andb_true_iff in D. destruct D as (Dl & Dx & Dy & Dz & _).
    rewrite filter_digits by exact Dl. cbn [filter]. change (Ascii.eqb dash dash) with true. rewrite !digit_not_dash by assumption. cbn [negb]. exact E.
  - intros H. destruct (le_lt_dec 3 (List.length (dec n))) as [G|G].
    + destruct (last3 (dec n) G) as (l & x & y & z & Q). pose proof (L ltac:(lia)) as LB.
      assert (LB2: (100 <= n)%N). { assert (10 ^ 2 <= 10 ^ (N.of_nat (List.length (dec n)) - 1))%N by (apply N.pow_le_mono_r; lia). cbn in *. lia. }
      pose proof (dec_len_ge n 9 ltac:(lia)) as G3. change (N.of_nat 9) with 9%N in G3. specialize (G3 ltac:(lia)). rewrite Q in *. rewrite hyphens_app, match_hyphens by exact D.
      rewrite app_length in G3. cbn [List.length] in G3. apply Nat.leb_gt. lia.
    + destruct (dec n) as [|a [|b [|c l]]]; [congruence|reflexivity|reflexivity|cbn [List.length] in G; lia].
Qed.

(** ** Keys *)
Definition comps : list string := set_of (map snd columns).
Fixpoint comma (s : string) : bool := match s with EmptyString => false | String c s => Ascii.eqb c "," || comma s end.
Lemma comma_app a b : comma (a ++ b) = comma a || comma b.
Proof. induction a as [|c a IH]; [reflexivity|]. cbn. rewrite IH, Bool.orb_assoc. reflexivity. Qed.
Lemma key_inj n : forall n' c c', comma c = false -> comma c' = false -> flow_key n c = flow_key n' c' -> n = n' /\ c = c'.
Proof.
  unfold flow_key. induction n as [|a n IH]; intros [|b n'] c c' Hc Hc' E; cbn in E.
  - injection E as E. split; [reflexivity|exact E].
  - injection E as _ E. exfalso. apply (f_equal comma) in E. rewrite comma_app in E. cbn in E. rewrite Hc in E. rewrite Bool.orb_true_r in E. discriminate.
  - injection E as _ E. exfalso. apply (f_equal comma) in E. rewrite comma_app in E. cbn in E. rewrite Hc' in E. rewrite Bool.orb_true_r in E. discriminate.
  - injection E as -> E. destruct (IH n' c c' Hc Hc' E) as (-> & ->). split; reflexivity.
Qed.
Lemma comps_comma c : In c comps -> comma c = false.
Proof. assert (H: forallb (fun c => negb (comma c)) comps = true) by reflexivity. rewrite forallb_forall in H. intros I. apply H in I. destruct (comma c); [discriminate|reflexivity]. Qed.
Lemma columns_comp k c : In (k, c) columns -> In c comps.
Proof. intros I. unfold comps. rewrite In_set_of, in_map_iff. exists (k, c). split; [reflexivity|exact I]. Qed.
Lemma columns_nodup : NoDup columns.
Proof.
  assert (G: forall l : list (string * string), (fix ok l := match l with [] => true | x :: l => negb (mem x l) && ok l end) l = true -> NoDup l).
  { induction l as [|x l IH]; [constructor|]. rewrite Bool.andb_true_iff, Bool.negb_true_iff. intros (H1 & H2). constructor; [apply mem_nIn; exact H1|apply IH, H2]. }
  apply G. reflexivity.
Qed.
Lemma columns_cat k c : In (k, c) columns -> In k categories.
Proof. intros I. unfold categories. rewrite in_map_iff. exists (k, c). split; [reflexivity|exact I]. Qed.
Global Opaque comps columns categories.

(** ** The factors of the sheet *)
(** The row has the factor v for the category k and the compartment c. *)
Definition has_factor (r : trow) (k c : string) (v : Qc) : Prop :=
  exists i, nth_error columns i = Some (k, c) /\ nth_error (r_cf r) i = Some (Some v) /\ v <> 0%Qc.
Lemma In_combine_nth {A B} (l : list A) : forall (m : list B) x y, In (x, y) (combine l m) <-> exists i, nth_error l i = Some x /\ nth_error m i = Some y.
Proof.
  induction l as [|a l IH]; intros m x y; cbn [combine].
  - split; [intros []|intros ([|i] & H & _); discriminate H].
  - destruct m as [|b m]; cbn [In].
    + split; [intros []|intros ([|i] & _ & H); discriminate H].
    + rewrite IH. split.
      * intros [E|(i & H1 & H2)]; [injection E as -> ->; exists 0; split; reflexivity|exists (S i); split; assumption].
      * intros ([|i] & H1 & H2); [left; cbn in *; congruence|right; exists i; split; assumption].
Qed.
Lemma cells_factor r k c v : (In ((k, c), Some v) (cells r) /\ v <> 0%Qc) <-> has_factor r k c v.
Proof.
  unfold cells, has_factor. rewrite In_combine_nth. split.
  - intros ((i & H1 & H2) & Z). exists i. auto.
  - intros (i & H1 & H2 & Z). split; [exists i; auto|exact Z].
Qed.
Lemma cells_nodup r : NoDup (map fst (cells r)).
Proof.
  unfold cells. generalize (r_cf r). pose proof columns_nodup as N. induction N as [|x l Hx N IH]; intros [|y m]; cbn; try constructor.
  - intros I. apply in_map_iff in I. destruct I as ((x' & y') & E & I). cbn in E. subst x'. apply in_combine_l in I. contradiction.
  - apply IH.
Qed.
Lemma factor_comp r k c v : has_factor r k c v -> In c comps /\ In k categories.
Proof. intros (i & H & _). apply nth_error_In in H. split; [exact (columns_comp _ _ H)|exact (columns_cat _ _ H)]. Qed.
Lemma factor_unique r k c v v' : has_factor r k c v -> has_factor r k c v' -> v = v'.
Proof.
  rewrite <- !cells_factor. pose proof (cells_nodup r) as N. induction (cells r) as [|((k0, c0), o) l IH]; [intros ([] & _)|]. cbn [map fst] in N. inversion N as [|? ? N1 N2]; subst.
  intros ([E|I] & Z) ([E'|I'] & Z').
  - congruence.
  - injection E as -> -> ->. exfalso. apply N1. apply (in_map fst) in I'. exact I'.
  - injection E' as -> -> ->. exfalso. apply N1. apply (in_map fst) in I. exact I.
  - apply IH; auto.
Qed.
(** v is the factor in the first row of that name which has one. *)
Definition first_factor (s : list trow) (n c k : string) (v : Qc) : Prop :=
  exists i r, nth_error s i = Some r /\ lower (r_name r) = n /\ has_factor r k c v /\
    forall j r', j < i -> nth_error s j = Some r' -> lower (r_name r') = n -> forall v', ~ has_factor r' k c v'.
(** Rows with a factor have a CAS cell that can be read. *)
Definition readable (r : trow) : Prop := forall k c v, has_factor r k c v -> numeric_cas (r_fmt r) <> None.
Definition convertible (s : list trow) : Prop := forall r, In r s -> readable r.
Definition first_in (r : trow) (l : list ((string * string) * option Qc)) (n c k : string) : option Qc :=
  match find (fun x => match x with ((k', c'), Some v) => negb (eqb v 0%Qc) && eqb (flow_key n c) (flow_key (lower (r_name r)) c') && eqb k k' | _ => false end) l with
  | Some (_, o) => o
  | None => None
  end.
Fixpoint first_rows (s : list trow) (n c k : string) : option Qc :=
  match s with [] => None | r :: s => match first_in r (cells r) n c k with Some v => Some v | None => first_rows s n c k end end.
Lemma first_in_spec r n c k v : In c comps -> (first_in r (cells r) n c k = Some v <-> lower (r_name r) = n /\ has_factor r k c v).
Proof.
  intros Hc. unfold first_in. destruct (find _ _) as [((k', c'), o)|] eqn:F.
  - apply find_some in F. destruct F as (I & T). destruct o as [v'|]; [|discriminate T]. rewrite !Bool.andb_true_iff, Bool.negb_true_iff, !eqb_eq in T. destruct T as ((Z & E) & ->).
    apply eqb_neq in Z. assert (F: has_factor r k' c' v') by (apply cells_factor; split; assumption).
    apply key_inj in E; [|apply comps_comma, Hc|apply comps_comma; exact (proj1 (factor_comp _ _ _ _ F))]. destruct E as (-> & ->).
    split; [intros [= ->]; split; [reflexivity|exact F]|]. intros (_ & G). f_equal. exact (factor_unique _ _ _ _ _ F G).
  - split; [discriminate|]. intros (<- & G). apply cells_factor in G. destruct G as (I & Z). eapply find_none in F; [|exact I]. cbn beta iota in F. rewrite !eqb_refl, (proj2 (eqb_neq _ _) Z) in F. discriminate F.
Qed.
Lemma first_rows_spec s n c k : In c comps -> forall v, first_rows s n c k = Some v <-> first_factor s n c k v.
Proof.
  intros Hc. induction s as [|r s IH]; intros v; cbn [first_rows].
  - split; [discriminate|]. intros ([|i] & r & E & _); discriminate E.
  - destruct (first_in r (cells r) n c k) as [v0|] eqn:F.
    + apply (first_in_spec _ _ _ _ _ Hc) in F. destruct F as (F1 & F2). split.
      * intros [= <-]. exists 0, r. split; [reflexivity|]. split; [exact F1|]. split; [exact F2|]. intros j r' H; inversion H.
      * intros ([|i] & r1 & E & E1 & E2 & Q); [injection E as <-; f_equal; exact (factor_unique _ _ _ _ _ F2 E2)|].
        exfalso. exact (Q 0 r (Nat.lt_0_succ _) eq_refl F1 _ F2).
    + rewrite IH. split.
      * intros (i & r1 & E & E1 & E2 & Q). exists (S i), r1. split; [exact E|]. split; [exact E1|]. split; [exact E2|].
        intros [|j] r' H H' Hn v' G; [injection H' as <-|refine (Q j r' _ H' Hn v' G); lia].
        rewrite (proj2 (first_in_spec r n c k v' Hc) (conj Hn G)) in F. discriminate F.
      * intros ([|i] & r1 & E & E1 & E2 & Q).
        -- injection E as <-. rewrite (proj2 (first_in_spec r n c k v Hc) (conj E1 E2)) in F. discriminate F.
        -- exists i, r1. split; [exact E|]. split; [exact E1|]. split; [exact E2|]. intros j r' H H'. apply (Q (S j) r'); [lia|exact H'].
Qed.
Lemma first_rows_app s t n c k : first_rows (s ++ t) n c k = match first_rows s n c k with Some v => Some v | None => first_rows t n c k end.
Proof. induction s as [|r s IH]; [reflexivity|]. cbn [app first_rows]. destruct (first_in _ _ _ _ _); [reflexivity|exact IH]. Qed.

(** ** The archive *)
Definition lookup (a : tarch) (n c k : string) : option Qc := match dget (flow_key n c) (ta_fl a) with Some f => dget k (tf_ch f) | None => None end.
Lemma create_none r c a : create_flow r c a = None <-> numeric_cas (r_fmt r) = None.
Proof. unfold create_flow. destruct (numeric_cas (r_fmt r)); [|split; reflexivity]. cbv zeta. destruct (dget _ _); split; discriminate. Qed.
Lemma create_lookup r c a a1 : create_flow r c a = Some a1 -> (forall n' c' k, lookup a1 n' c' k = lookup a n' c' k) /\ ta_loaded a1 = ta_loaded a.
Proof.
  unfold create_flow. destruct (numeric_cas _) as [cas|]; [|discriminate]. cbv zeta. destruct (dget _ (ta_fl a)) eqn:E; intros [= <-]; [split; reflexivity|].
  split; [|reflexivity]. intros n' c' k. unfold lookup. cbn [ta_fl]. rewrite dget_dset. destruct (eqb_spec (flow_key n' c') (flow_key (lower (r_name r)) c)) as [Q|]; [|reflexivity].
  rewrite Q, E. reflexivity.
Qed.
Lemma create_present r c a a1 : create_flow r c a = Some a1 -> exists f, dget (flow_key (lower (r_name r)) c) (ta_fl a1) = Some f.
Proof.
  unfold create_flow. destruct (numeric_cas _) as [cas|]; [|discriminate]. cbv zeta. destruct (dget _ (ta_fl a)) as [f|] eqn:E; intros [= <-]; [exists f; exact E|].
  cbn [ta_fl]. rewrite dget_dset_same. eexists. reflexivity.
Qed.
Lemma add_ch_lookup key k v a n' c' k' : (exists f, dget key (ta_fl a) = Some f) ->
  lookup (add_ch key k v a) n' c' k' = match lookup a n' c' k' with Some x => Some x | None => if eqb (flow_key n' c') key && eqb k' k then Some v else None end.
Proof.
  intros (f & E). unfold add_ch, lookup. rewrite E. destruct (dget k (tf_ch f)) as [x|] eqn:K.
  - destruct (dget (flow_key n' c') (ta_fl a)) as [g|] eqn:G.
    + destruct (dget k' (tf_ch g)) eqn:D; [reflexivity|]. destruct (eqb_spec (flow_key n' c') key) as [Q|]; [|reflexivity]. destruct (eqb_spec k' k) as [Q'|]; [|reflexivity].
      cbn [andb]. congruence.
    + destruct (eqb_spec (flow_key n' c') key) as [Q|]; [|reflexivity]. congruence.
  - cbn [ta_fl]. rewrite dget_dset. destruct (eqb_spec (flow_key n' c') key) as [Q|Q].
    + rewrite Q, E. cbn [tf_ch]. rewrite dget_dset. destruct (eqb_spec k' k) as [->|]; [rewrite K; reflexivity|]. cbn [andb]. destruct (dget k' (tf_ch f)); reflexivity.
    + cbn [andb]. destruct (dget (flow_key n' c') (ta_fl a)) as [g|]; [|reflexivity]. destruct (dget k' (tf_ch g)); reflexivity.
Qed.
(** Every flow stands under its key, and comes from a row of the sheet with a factor. *)
Definition from_row (s : list trow) (f : tflow) : Prop :=
  exists r k v, In r s /\ lower (r_name r) = tf_name f /\ has_factor r k (tf_comp f) v /\ numeric_cas (r_fmt r) = Some (tf_cas f).
Definition wf (s : list trow) (a : tarch) : Prop :=
  NoDup (dkeys (ta_fl a)) /\ forall key f, dget key (ta_fl a) = Some f -> key = flow_key (tf_name f) (tf_comp f) /\ from_row s f.
Lemma create_wf s r c k v a a1 : wf s a -> In r s -> has_factor r k c v -> create_flow r c a = Some a1 -> wf s a1.
Proof.
  intros (N & W) I F. unfold create_flow. destruct (numeric_cas _) as [cas|] eqn:C; [|discriminate]. cbv zeta. destruct (dget _ (ta_fl a)) as [f|] eqn:E; intros [= <-]; [split; assumption|].
  split; cbn [ta_fl]; [apply NoDup_dset, N|]. intros key f. rewrite dget_dset. destruct (eqb_spec key (flow_key (lower (r_name r)) c)) as [->|]; [|apply W].
  intros [= <-]. split; [reflexivity|]. exists r, k, v. auto.
Qed.
Lemma add_ch_wf s key k v a : wf s a -> wf s (add_ch key k v a).
Proof.
  intros (N & W). unfold add_ch. destruct (dget key (ta_fl a)) as [f|] eqn:E; [|split; assumption]. destruct (dget k (tf_ch f)); [split; assumption|].
  split; cbn [ta_fl]; [apply NoDup_dset, N|]. intros key' f'. rewrite dget_dset. destruct (eqb_spec key' key) as [->|]; [|apply W]. intros [= <-]. exact (W _ _ E).
Qed.
Lemma add_ch_loaded key k v a : ta_loaded (add_ch key k v a) = ta_loaded a.
Proof. unfold add_ch. destruct (dget key (ta_fl a)) as [f|]; [|reflexivity]. destruct (dget k (tf_ch f)); reflexivity. Qed.

(** ** Loading *)
Definition orelse (x y : option Qc) : option Qc := match x with Some v => Some v | None => y end.
Lemma add_cells_spec s r l0 : In r s -> forall l pre a a1 ok, l0 = cells r -> l0 = pre ++ l -> wf s a -> add_cells r l a = (a1, ok) ->
  wf s a1 /\ ta_loaded a1 = ta_loaded a /\
  (ok = true -> (forall n c k, lookup a1 n c k = orelse (lookup a n c k) (first_in r l n c k))) /\
  (ok = false -> numeric_cas (r_fmt r) = None /\ forall n c k, lookup a1 n c k = lookup a n c k) /\
  (ok = true <-> (numeric_cas (r_fmt r) = None -> forall k c v, In ((k, c), Some v) l -> v = 0%Qc)).
Proof.
  intros I. induction l as [|((k0, c0), [v0|]) l IH]; intros pre a a1 ok E0 E1 W E; cbn [add_cells] in E.
  - injection E as <- <-. split; [exact W|]. split; [reflexivity|]. split; [intros _ n c k; cbn; destruct (lookup a n c k); reflexivity|]. split; [discriminate|]. split; [intros _ _ k c v []|reflexivity].
  - assert (E2: l0 = (pre ++ [((k0, c0), Some v0)]) ++ l) by (rewrite <- app_assoc; exact E1).
    destruct (eqb_spec v0 0%Qc) as [Z|Z].
    + destruct (IH _ _ _ _ E0 E2 W E) as (H1 & H2 & H3 & H4 & H5). split; [exact H1|]. split; [exact H2|]. split; [|split; [exact H4|]].
      * intros O n c k. rewrite (H3 O). unfold first_in. cbn [find]. rewrite Z, eqb_refl. reflexivity.
      * rewrite H5. split; intros Q Nn k c v; [intros [J|J]; [congruence|exact (Q Nn _ _ _ J)]|intros J; exact (Q Nn _ _ _ (or_intror J))].
    + assert (F: has_factor r k0 c0 v0). { apply cells_factor. split; [|exact Z]. rewrite <- E0, E1. apply in_or_app. right. left. reflexivity. }
      destruct (create_flow r c0 a) as [a2|] eqn:C.
      * destruct (create_lookup _ _ _ _ C) as (L1 & L2). pose proof (create_wf _ _ _ _ _ _ _ W I F C) as W2.
        destruct (IH _ _ _ _ E0 E2 (add_ch_wf s (flow_key (lower (r_name r)) c0) k0 v0 a2 W2) E) as (H1 & H2 & H3 & H4 & H5).
        assert (Nn: numeric_cas (r_fmt r) <> None) by (rewrite <- (create_none r c0 a); congruence).
        split; [exact H1|]. split; [rewrite H2, add_ch_loaded; exact L2|]. split; [|split; [intros O; exfalso; apply Nn, (H4 O)|]].
        -- intros O n c k. rewrite (H3 O), add_ch_lookup, L1 by (exact (create_present _ _ _ _ C)). unfold first_in. cbn [find]. rewrite (proj2 (eqb_neq _ _) Z). cbn [negb andb].
           destruct (lookup a n c k); [reflexivity|]. destruct (eqb (flow_key n c) _ && eqb k k0); reflexivity.
        -- rewrite H5. split; intros Q X; contradiction.
      * injection E as <- <-. apply create_none in C. split; [exact W|]. split; [reflexivity|]. split; [discriminate|]. split; [intros _; split; [exact C|reflexivity]|].
        split; [discriminate|]. intros Q. exfalso. apply Z. apply (Q C k0 c0). left. reflexivity.
  - assert (E2: l0 = (pre ++ [((k0, c0), None)]) ++ l) by (rewrite <- app_assoc; exact E1).
    destruct (IH _ _ _ _ E0 E2 W E) as (H1 & H2 & H3 & H4 & H5). split; [exact H1|]. split; [exact H2|]. split; [|split; [exact H4|]].
    + intros O n c k. rewrite (H3 O). reflexivity.
    + rewrite H5. split; intros Q Nn k c v; [intros [J|J]; [congruence|exact (Q Nn _ _ _ J)]|intros J; exact (Q Nn _ _ _ (or_intror J))].
Qed.
Lemma readable_cells r : readable r <-> (numeric_cas (r_fmt r) = None -> forall k c v, In ((k, c), Some v) (cells r) -> v = 0%Qc).
Proof.
  unfold readable. split.
  - intros H Nn k c v J. destruct (eqb_spec v 0%Qc) as [|Z]; [assumption|]. exfalso. apply (H k c v); [|exact Nn]. apply cells_factor. split; assumption.
  - intros H k c v F Nn. apply cells_factor in F. destruct F as (J & Z). exact (Z (H Nn _ _ _ J)).
Qed.
Lemma load_rows_spec s t : (forall r, In r t -> In r s) -> forall a a1 ok, wf s a -> load_rows t a = (a1, ok) ->
  wf s a1 /\ ta_loaded a1 = ta_loaded a /\ (ok = true <-> convertible t) /\
  exists t1 t2, t = t1 ++ t2 /\ (ok = true -> t2 = []) /\ forall n c k, lookup a1 n c k = orelse (lookup a n c k) (first_rows t1 n c k).
Proof.
  induction t as [|r t IH]; intros Sub a a1 ok W E; cbn [load_rows] in E.
  - injection E as <- <-. split; [exact W|]. split; [reflexivity|]. split; [split; [intros _ r []|reflexivity]|]. exists [], []. split; [reflexivity|]. split; [reflexivity|]. intros n c k. cbn. destruct (lookup a n c k); reflexivity.
  - destruct (add_cells r (cells r) a) as (a2, ok2) eqn:A. destruct (add_cells_spec s r (cells r) (Sub r (or_introl eq_refl)) (cells r) [] a a2 ok2 eq_refl eq_refl W A) as (H1 & H2 & H3 & H4 & H5). rewrite <- readable_cells in H5.
    destruct ok2.
    + destruct (IH (fun r' J => Sub r' (or_intror J)) _ _ _ H1 E) as (G1 & G2 & G3 & t1 & t2 & G4 & G5 & G6). split; [exact G1|]. split; [congruence|]. split.
      * rewrite G3. unfold convertible. split; [intros Q r' [<-|J]; [apply H5; reflexivity|exact (Q r' J)]|intros Q r' J; exact (Q r' (or_intror J))].
      * exists (r :: t1), t2. split; [rewrite G4; reflexivity|]. split; [exact G5|]. intros n c k. rewrite G6, (H3 eq_refl). cbn [first_rows]. destruct (lookup a n c k); [reflexivity|]. cbn [orelse]. destruct (first_in r (cells r) n c k); reflexivity.
    + injection E as <- <-. split; [exact H1|]. split; [exact H2|]. split; [split; [discriminate|]; intros Q; apply H5; exact (Q r (or_introl eq_refl))|].
      exists [], (r :: t). split; [reflexivity|]. split; [discriminate|]. intros n c k. rewrite (proj2 (H4 eq_refl)). cbn. destruct (lookup a n c k); reflexivity.
Qed.

(** ** Queries *)
Lemma create_indep r c a b : create_flow r c a = None <-> create_flow r c b = None.
Proof. rewrite !create_none. reflexivity. Qed.
Definition same_flows (a b : tarch) : Prop := (forall n c k, lookup b n c k = lookup a n c k) /\ ta_loaded b = ta_loaded a.
Lemma same_refl a : same_flows a a.
Proof. split; reflexivity. Qed.
Lemma same_trans a b c : same_flows a b -> same_flows b c -> same_flows a c.
Proof. intros (H1 & H2) (G1 & G2). split; [intros n c' k; rewrite G1; apply H1|congruence]. Qed.
(** What a row gives to a query *)
Definition row_factors (r : trow) (m : sel) (o : option string) (l : list ((string * string) * option Qc)) : list factor :=
  flat_map (fun x => match x with ((k, c), Some v) => if selects m k && comp_ok o c && negb (eqb v 0%Qc) then [(flow_key (lower (r_name r)) c, k, v)] else [] | (_, None) => [] end) l.
Lemma cf_cells_spec s r m o l0 : In r s -> forall l pre a a1 x ok, l0 = cells r -> l0 = pre ++ l -> wf s a -> cf_cells r m o l a = (a1, x, ok) ->
  wf s a1 /\ same_flows a a1 /\ (ok = true -> x = row_factors r m o l) /\ (ok = true <-> (numeric_cas (r_fmt r) = None -> row_factors r m o l = [])).
Proof.
  intros I. induction l as [|((k0, c0), [v0|]) l IH]; intros pre a a1 x ok E0 E1 W E; cbn [cf_cells] in E.
  - injection E as <- <- <-. split; [exact W|]. split; [apply same_refl|]. split; [reflexivity|]. split; reflexivity.
  - assert (E2: l0 = (pre ++ [((k0, c0), Some v0)]) ++ l) by (rewrite <- app_assoc; exact E1).
    destruct (selects m k0 && comp_ok o c0 && negb (eqb v0 0%Qc)) eqn:T.
    + assert (RF: row_factors r m o (((k0, c0), Some v0) :: l) = (flow_key (lower (r_name r)) c0, k0, v0) :: row_factors r m o l) by (unfold row_factors; cbn [flat_map]; rewrite T; reflexivity).
      rewrite RF. assert (F: has_factor r k0 c0 v0). { rewrite !Bool.andb_true_iff, Bool.negb_true_iff, eqb_neq in T. apply cells_factor. split; [|apply T]. rewrite <- E0, E1. apply in_or_app. right. left. reflexivity. }
      destruct (create_flow r c0 a) as [a2|] eqn:C.
      * destruct (cf_cells r m o l a2) as ((a3, y), ok3) eqn:R. injection E as <- <- <-.
        destruct (IH _ _ _ _ _ E0 E2 (create_wf _ _ _ _ _ _ _ W I F C) R) as (H1 & H2 & H3 & H4). split; [exact H1|]. split; [exact (same_trans _ _ _ (create_lookup _ _ _ _ C) H2)|].
        assert (Nn: numeric_cas (r_fmt r) <> None) by (rewrite <- (create_none r c0 a); congruence).
        split; [intros O; f_equal; exact (H3 O)|]. rewrite H4. split; intros Q X; contradiction.
      * injection E as <- <- <-. apply create_none in C. split; [exact W|]. split; [apply same_refl|]. split; [discriminate|]. split; [discriminate|]. intros Q. discriminate (Q C).
    + assert (RF: row_factors r m o (((k0, c0), Some v0) :: l) = row_factors r m o l) by (unfold row_factors; cbn [flat_map]; rewrite T; reflexivity).
      rewrite RF. exact (IH _ _ _ _ _ E0 E2 W E).
  - assert (E2: l0 = (pre ++ [((k0, c0), None)]) ++ l) by (rewrite <- app_assoc; exact E1). exact (IH _ _ _ _ _ E0 E2 W E).
Qed.
Lemma cf_rows_spec s m o t : (forall r, In r t -> In r s) -> forall a a1 x ok, wf s a -> cf_rows m o t a = (a1, x, ok) ->
  wf s a1 /\ same_flows a a1 /\ (ok = true -> x = flat_map (fun r => row_factors r m o (cells r)) t) /\
  (ok = true <-> forall r, In r t -> numeric_cas (r_fmt r) = None -> row_factors r m o (cells r) = []).
Proof.
  induction t as [|r t IH]; intros Sub a a1 x ok W E; cbn [cf_rows] in E.
  - injection E as <- <- <-. split; [exact W|]. split; [apply same_refl|]. split; [reflexivity|]. split; [intros _ r []|reflexivity].
  - destruct (cf_cells r m o (cells r) a) as ((a2, y), ok2) eqn:C. destruct (cf_cells_spec s r m o (cells r) (Sub r (or_introl eq_refl)) (cells r) [] _ _ _ _ eq_refl eq_refl W C) as (H1 & H2 & H3 & H4).
    destruct ok2.
    + destruct (cf_rows m o t a2) as ((a3, z), ok3) eqn:R. injection E as <- <- <-. destruct (IH (fun r' J => Sub r' (or_intror J)) _ _ _ _ H1 R) as (G1 & G2 & G3 & G4).
      split; [exact G1|]. split; [exact (same_trans _ _ _ H2 G2)|]. split; [intros O; cbn [flat_map]; rewrite (H3 eq_refl), (G3 O); reflexivity|].
      rewrite G4. split; [intros Q r' [<-|J]; [apply H4; reflexivity|exact (Q r' J)]|intros Q r' J; exact (Q r' (or_intror J))].
    + injection E as <- <- <-. split; [exact H1|]. split; [exact H2|]. split; [discriminate|]. split; [discriminate|]. intros Q. apply H4. exact (Q r (or_introl eq_refl)).
Qed.
Lemma cf_first_spec s r m o l0 : In r s -> forall l pre a a1 x, l0 = cells r -> l0 = pre ++ l -> wf s a -> cf_first r m o l a = (a1, x) ->
  wf s a1 /\ same_flows a a1 /\ x = match row_factors r m o l with [] => Some false | _ => match numeric_cas (r_fmt r) with None => None | Some _ => Some true end end.
Proof.
  intros I. induction l as [|((k0, c0), [v0|]) l IH]; intros pre a a1 x E0 E1 W E; cbn [cf_first] in E.
  - injection E as <- <-. split; [exact W|]. split; [apply same_refl|reflexivity].
  - assert (E2: l0 = (pre ++ [((k0, c0), Some v0)]) ++ l) by (rewrite <- app_assoc; exact E1).
    unfold row_factors. cbn [flat_map]. destruct (selects m k0 && comp_ok o c0 && negb (eqb v0 0%Qc)) eqn:T; cbn [app].
    + assert (F: has_factor r k0 c0 v0). { rewrite !Bool.andb_true_iff, Bool.negb_true_iff, eqb_neq in T. apply cells_factor. split; [|apply T]. rewrite <- E0, E1. apply in_or_app. right. left. reflexivity. }
      destruct (create_flow r c0 a) as [a2|] eqn:C; injection E as <- <-.
      * split; [exact (create_wf _ _ _ _ _ _ _ W I F C)|]. split; [exact (create_lookup _ _ _ _ C)|]. destruct (numeric_cas (r_fmt r)) eqn:Nn; [reflexivity|]. apply (create_none r c0 a) in Nn. congruence.
      * apply create_none in C. rewrite C. split; [exact W|]. split; [apply same_refl|reflexivity].
    + exact (IH _ _ _ _ E0 E2 W E).
  - assert (E2: l0 = (pre ++ [((k0, c0), None)]) ++ l) by (rewrite <- app_assoc; exact E1). exact (IH _ _ _ _ E0 E2 W E).
Qed.
Fixpoint flow_answer (m : sel) (o : option string) (t : list trow) : option (list (option (list ascii) * string)) :=
  match t with
  | [] => Some []
  | r :: t => match row_factors r m o (cells r) with
              | [] => flow_answer m o t
              | _ => match numeric_cas (r_fmt r), numeric_cas (r_cas r), flow_answer m o t with Some _, Some cas, Some x => Some ((cas, lower (r_name r)) :: x) | _, _, _ => None end
              end
  end.
Lemma flow_rows_spec s m o t : (forall r, In r t -> In r s) -> forall a a1 x, wf s a -> flow_rows m o t a = (a1, x) -> wf s a1 /\ same_flows a a1 /\ x = flow_answer m o t.
Proof.
  induction t as [|r t IH]; intros Sub a a1 x W E; cbn [flow_rows] in E.
  - injection E as <- <-. split; [exact W|]. split; [apply same_refl|reflexivity].
  - destruct (cf_first r m o (cells r) a) as (a2, y) eqn:C. destruct (cf_first_spec s r m o (cells r) (Sub r (or_introl eq_refl)) (cells r) [] _ _ _ eq_refl eq_refl W C) as (H1 & H2 & H3).
    cbn [flow_answer]. specialize (IH (fun r' J => Sub r' (or_intror J)) a2).
    destruct (row_factors r m o (cells r)) as [|f0 fs].
    + subst y. destruct (IH _ _ H1 E) as (G1 & G2 & G3). split; [exact G1|]. split; [exact (same_trans _ _ _ H2 G2)|exact G3].
    + destruct (numeric_cas (r_fmt r)); subst y; [|injection E as <- <-; auto].
      destruct (numeric_cas (r_cas r)); [|injection E as <- <-; auto].
      destruct (flow_rows m o t a2) as (a3, z) eqn:R. destruct (IH _ _ H1 eq_refl) as (G1 & G2 & G3). rewrite <- G3.
      destruct z; injection E as <- <-; (split; [exact G1|]; split; [exact (same_trans _ _ _ H2 G2)|reflexivity]).
Qed.

(** ** Histories *)
Lemma tstep_spec s o a : wf s a -> (forall n c k v, lookup a n c k = Some v -> first_rows s n c k = Some v) ->
  let a1 := fst (tstep s o a) in
  wf s a1 /\ (forall n c k v, lookup a1 n c k = Some v -> first_rows s n c k = Some v) /\
  (ta_loaded a = true -> ta_loaded a1 = true /\ forall n c k, lookup a1 n c k = lookup a n c k) /\
  (o = Load -> convertible s -> ta_loaded a = false -> ta_loaded a1 = true /\ (forall n c k, lookup a1 n c k = first_rows s n c k)) /\
  (ta_loaded a = false -> ta_loaded a1 = true -> convertible s /\ forall n c k, lookup a1 n c k = first_rows s n c k).
Proof.
  intros W L. destruct o as [|q f o|q o|q f]; cbv zeta.
  - cbn [tstep]. destruct (ta_loaded a) eqn:Ld; cbn [fst].
    + split; [exact W|]. split; [exact L|]. split; [intros _; auto|]. split; discriminate.
    + destruct (load_rows s a) as (a1, ok) eqn:R. destruct (load_rows_spec s s (fun r J => J) _ _ _ W R) as (H1 & H2 & H3 & t1 & t2 & H4 & H5 & H6).
      assert (P: forall n c k v, lookup a1 n c k = Some v -> first_rows s n c k = Some v).
      { intros n c k v. rewrite H6. destruct (lookup a n c k) as [x|] eqn:Q; cbn [orelse]; [intros [= ->]; exact (L _ _ _ _ Q)|]. intros Q2. rewrite H4, first_rows_app, Q2. reflexivity. }
      assert (FF: ok = true -> forall n c k, lookup a1 n c k = first_rows s n c k).
      { intros O n c k. rewrite H6. destruct (lookup a n c k) as [x|] eqn:Q; cbn [orelse]; [symmetry; exact (L _ _ _ _ Q)|]. rewrite H4, (H5 O), app_nil_r. reflexivity. }
      destruct ok; cbn [fst ta_fl ta_loaded]; (split; [exact H1|]); (split; [exact P|]); (split; [discriminate|]); split.
      * intros _ _ _. split; [reflexivity|exact (FF eq_refl)].
      * intros _ _. split; [apply H3; reflexivity|exact (FF eq_refl)].
      * intros _ CV _. apply H3 in CV. discriminate CV.
      * intros _ X. congruence.
  - assert (A: wf s (fst (factors s q f o a)) /\ same_flows a (fst (factors s q f o a))).
    { unfold factors. destruct q as [|q|]; [split; [exact W|apply same_refl]| |split; [exact W|apply same_refl]].
      assert (B: forall m, let rows := match f with None => s | Some f => filter (keyed f) s end in
        wf s (fst (match cf_rows m o rows a with (a1, x, true) => (a1, TFactors x) | (a1, _, false) => (a1, TErr EValue) end)) /\
        same_flows a (fst (match cf_rows m o rows a with (a1, x, true) => (a1, TFactors x) | (a1, _, false) => (a1, TErr EValue) end))).
      { intros m rows. destruct (cf_rows m o rows a) as ((a1, x), ok) eqn:R. destruct (cf_rows_spec s m o rows) with (a := a) (a1 := a1) (x := x) (ok := ok) as (H1 & H2 & _); [|exact W|exact R|].
        - unfold rows. destruct f; [|auto]. intros r J. apply filter_In in J. apply J.
        - destruct ok; split; assumption. }
      destruct (canonical q a); [apply B|apply B|split; [exact W|apply same_refl]]. }
    cbn [tstep]. destruct A as (A1 & A2 & A3). split; [exact A1|]. split; [intros n c k v; rewrite A2; apply L|]. split; [intros Ld; split; [congruence|exact A2]|]. split; [discriminate|]. intros X Y. congruence.
  - assert (A: wf s (fst (flowables s q o a)) /\ same_flows a (fst (flowables s q o a))).
    { unfold flowables. destruct (flow_rows (select q a) o s a) as (a1, x) eqn:R. destruct (flow_rows_spec s _ _ _ (fun r J => J) _ _ _ W R) as (H1 & H2 & _).
      destruct q; [| |split; [exact W|apply same_refl]]; destruct x; split; assumption. }
    cbn [tstep]. destruct A as (A1 & A2 & A3). split; [exact A1|]. split; [intros n c k v; rewrite A2; apply L|]. split; [intros Ld; split; [congruence|exact A2]|]. split; [discriminate|]. intros X Y. congruence.
  - cbn [tstep fst]. split; [exact W|]. split; [exact L|]. split; [auto|]. split; [discriminate|]. intros X Y. congruence.
Qed.
Lemma thist_snoc s h o : thist s (h ++ [o]) = fst (tstep s o (thist s h)).
Proof. unfold thist. rewrite fold_left_app. reflexivity. Qed.
Lemma thist_spec s h : wf s (thist s h) /\ (forall n c k v, lookup (thist s h) n c k = Some v -> first_rows s n c k = Some v) /\
  (ta_loaded (thist s h) = true -> convertible s /\ forall n c k, lookup (thist s h) n c k = first_rows s n c k).
Proof.
  induction h as [|o h IH] using rev_ind.
  - split; [split; [constructor|intros key f H; discriminate H]|]. split; [intros n c k v H; discriminate H|discriminate].
  - rewrite thist_snoc. destruct IH as (W & L & C). destruct (tstep_spec s o _ W L) as (H1 & H2 & H3 & H4 & H5). split; [exact H1|]. split; [exact H2|].
    intros Ld. destruct (ta_loaded (thist s h)) eqn:Q; [|exact (H5 eq_refl Ld)]. destruct (C eq_refl) as (C1 & C2). split; [exact C1|]. intros n c k. rewrite (proj2 (H3 eq_refl)). apply C2.
Qed.
(** The archive holds the factor v for the flow (n, c) and the category k. *)
Definition holds (a : tarch) (n c k : string) (v : Qc) : Prop := exists key f, dget key (ta_fl a) = Some f /\ tf_name f = n /\ tf_comp f = c /\ dget k (tf_ch f) = Some v.
Lemma holds_lookup s a n c k v : wf s a -> (holds a n c k v <-> In c comps /\ lookup a n c k = Some v).
Proof.
  intros (_ & W). unfold holds, lookup. split.
  - intros (key & f & E & <- & <- & K). destruct (W _ _ E) as (-> & r & k0 & v0 & _ & _ & F & _). rewrite E. split; [exact (proj1 (factor_comp _ _ _ _ F))|exact K].
  - intros (Hc & K). destruct (dget (flow_key n c) (ta_fl a)) as [f|] eqn:E; [|discriminate]. exists (flow_key n c), f. destruct (W _ _ E) as (Q & r & k0 & v0 & _ & _ & F & _).
    apply key_inj in Q; [|apply comps_comma, Hc|apply comps_comma; exact (proj1 (factor_comp _ _ _ _ F))]. destruct Q as (-> & ->). split; [exact E|]. split; [reflexivity|]. split; [reflexivity|exact K].
Qed.
Lemma hist_wf s h : wf s (thist s h).
Proof. apply thist_spec. Qed.
Lemma in_row_factors r m o key k v : In (key, k, v) (row_factors r m o (cells r)) <-> exists c, has_factor r k c v /\ key = flow_key (lower (r_name r)) c /\ selects m k = true /\ comp_ok o c = true.
Proof.
  unfold row_factors. rewrite in_flat_map. split.
  - intros (((k0, c0), [v0|]) & I & H); [|destruct H]. destruct (selects m k0 && comp_ok o c0 && negb (eqb v0 0%Qc)) eqn:T; [|destruct H]. destruct H as [[= <- <- <-]|[]].
    rewrite !Bool.andb_true_iff, Bool.negb_true_iff, eqb_neq in T. destruct T as ((T1 & T2) & T3). exists c0. split; [apply cells_factor; auto|auto].
  - intros (c & F & -> & T1 & T2). apply cells_factor in F. destruct F as (I & Z). exists ((k, c), Some v). split; [exact I|]. cbv beta iota. rewrite T1, T2, (proj2 (eqb_neq _ _) Z). left. reflexivity.
Qed.
Lemma row_factors_nil r m o : row_factors r m o (cells r) = [] <-> forall k c v, has_factor r k c v -> selects m k = true -> comp_ok o c = true -> False.
Proof.
  split.
  - intros E k c v F T1 T2. assert (J: In (flow_key (lower (r_name r)) c, k, v) (row_factors r m o (cells r))) by (apply in_row_factors; exists c; auto). rewrite E in J. destruct J.
  - intros H. destruct (row_factors r m o (cells r)) as [|((key, k), v) l] eqn:E; [reflexivity|]. exfalso.
    assert (J: In (key, k, v) (row_factors r m o (cells r))) by (rewrite E; left; reflexivity). apply in_row_factors in J. destruct J as (c & F & _ & T1 & T2). exact (H _ _ _ F T1 T2).
Qed.

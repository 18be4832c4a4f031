(** C15: /repo/lcatools/autorange.py. *)
From Coq Require Import QArith.Qcabs ZArith.
From Verif Require Import Num Base PyStr AutoRangeModel LciaModel LciaProps.
Open Scope string_scope.
Open Scope Qc_scope.
Open Scope list_scope.

Lemma Qcltb_spec x y : reflect (x < y) (Qcltb x y).
Proof.
  unfold Qcltb. destruct (Qle_bool y x) eqn:E; cbn; constructor.
  - apply Qle_bool_iff in E. apply Qcle_not_lt. exact E.
  - apply Qcnot_le_lt. intros H. apply (proj2 (Qle_bool_iff y x)) in H. congruence.
Qed.
Lemma k1000_pos : 0 < k1000. Proof. reflexivity. Qed.
Lemma k1000_nz : k1000 <> 0. Proof. discriminate. Qed.
Lemma Qcpower_nz x n : x <> 0 -> x ^ n <> 0.
Proof. intros N. induction n as [|n IH]; cbn; [discriminate|]. intros E. apply Qcmult_integral in E. tauto. Qed.
Lemma Qcpower_plus x n m : x ^ (n + m) = x ^ n * x ^ m.
Proof. induction n as [|n IH]; cbn; [ring|]. rewrite IH. ring. Qed.
Definition zpow (n m : nat) : Qc := k1000 ^ n / k1000 ^ m.
Lemma pow1000_sub (n m : nat) : pow1000 (Z.of_nat n - Z.of_nat m) = zpow n m.
Proof.
  unfold zpow. destruct (Nat.le_gt_cases m n) as [L|L].
  - replace n with (m + (n - m))%nat at 2 by lia. rewrite Qcpower_plus.
    replace (k1000 ^ m * k1000 ^ (n - m) / k1000 ^ m) with (k1000 ^ (n - m)) by (field; apply Qcpower_nz, k1000_nz).
    destruct (n - m)%nat as [|d] eqn:E.
    + replace (Z.of_nat n - Z.of_nat m)%Z with 0%Z by lia. reflexivity.
    + replace (Z.of_nat n - Z.of_nat m)%Z with (Zpos (Pos.of_nat (S d))) by lia. cbn [pow1000]. f_equal. lia.
  - replace m with (n + (m - n))%nat at 2 by lia. rewrite Qcpower_plus.
    replace (k1000 ^ n / (k1000 ^ n * k1000 ^ (m - n))) with (/ k1000 ^ (m - n)) by (field; split; apply Qcpower_nz, k1000_nz).
    replace (Z.of_nat n - Z.of_nat m)%Z with (Zneg (Pos.of_nat (m - n))) by lia. cbn [pow1000]. do 2 f_equal. lia.
Qed.
Lemma z_split z : exists n m, z = (Z.of_nat n - Z.of_nat m)%Z.
Proof. exists (Z.to_nat z), (Z.to_nat (- z)). lia. Qed.
Lemma pow1000_add a b : pow1000 (a + b) = pow1000 a * pow1000 b.
Proof.
  destruct (z_split a) as (n & m & ->), (z_split b) as (n' & m' & ->).
  replace (Z.of_nat n - Z.of_nat m + (Z.of_nat n' - Z.of_nat m'))%Z with (Z.of_nat (n + n') - Z.of_nat (m + m'))%Z by lia.
  rewrite !pow1000_sub. unfold zpow. rewrite !Qcpower_plus. field. split; apply Qcpower_nz, k1000_nz.
Qed.
Lemma pow1000_nz z : pow1000 z <> 0.
Proof. destruct (z_split z) as (n & m & ->). rewrite pow1000_sub. unfold zpow, Qcdiv. intros E. apply Qcmult_integral in E as [E|E].
  - apply Qcpower_nz in E; [tauto|apply k1000_nz].
  - apply (f_equal (fun x => k1000 ^ m * x)) in E. rewrite Qcmult_inv_r, Qcmult_0_r in E by (apply Qcpower_nz, k1000_nz). discriminate.
Qed.
Lemma pow1000_pos z : 0 < pow1000 z.
Proof.
  assert (P : forall n, 0 < k1000 ^ n).
  { induction n as [|n IH]; [reflexivity|]. cbn [Qcpower]. rewrite <- (Qcmult_0_l (k1000 ^ n)). apply Qcmult_lt_compat_r; [exact IH|reflexivity]. }
  assert (I : forall x, 0 < x -> 0 < / x).
  { intros x H. apply Qcnot_le_lt. intros L. assert (N : x <> 0) by (intros ->; discriminate H).
    assert (X : / x * x <= 0 * x) by (apply Qcmult_le_compat_r; [exact L|apply Qclt_le_weak; exact H]).
    rewrite Qcmult_inv_l, Qcmult_0_l in X by exact N. discriminate (Qcle_not_lt _ _ X ltac:(reflexivity)) || (apply (Qcle_not_lt _ _ X); reflexivity). }
  destruct z; cbn [pow1000]; [reflexivity|apply P|apply I, P].
Qed.

Lemma step_up x : x < 1 -> x * k1000 < k1000.
Proof. intros H. rewrite <- (Qcmult_1_l k1000) at 2. apply Qcmult_lt_compat_r; [reflexivity|exact H]. Qed.
Lemma step_down x : k1000 < x -> 1 < x / k1000.
Proof.
  intros H. apply Qcnot_le_lt. intros L. apply (Qclt_not_le _ _ H). 
  assert (X : (x / k1000) * k1000 <= 1 * k1000) by (apply Qcmult_le_compat_r; [exact L|discriminate]).
  replace (x / k1000 * k1000) with x in X by (field; exact k1000_nz). rewrite Qcmult_1_l in X. exact X.
Qed.
(** from below: n doublings suffice *)
Lemma loop_up n : forall x s, 0 < x -> x <= k1000 -> 1 <= x * k1000 ^ n -> exists k, shift_loop (S n) x s = Some (s + Z.of_nat k)%Z /\ 1 <= x * k1000 ^ k <= k1000.
Proof.
  induction n as [|n IH]; intros x s P U L; cbn [shift_loop].
  - cbn [Qcpower] in L. rewrite Qcmult_1_r in L. destruct (Qcltb_spec x 1) as [H|_]; [exfalso; apply (Qclt_not_le _ _ H L)|].
    destruct (Qcltb_spec k1000 x) as [H|_]; [exfalso; apply (Qclt_not_le _ _ H U)|]. exists 0%nat. cbn [Qcpower Z.of_nat]. rewrite Qcmult_1_r, Z.add_0_r. auto.
  - destruct (Qcltb_spec x 1) as [H|H].
    + destruct (IH (x * k1000) (s + 1)%Z) as (k & E & B).
      * rewrite <- (Qcmult_0_l k1000). apply Qcmult_lt_compat_r; [reflexivity|exact P].
      * apply Qclt_le_weak, step_up, H.
      * cbn [Qcpower] in L. rewrite Qcmult_assoc in L. exact L.
      * exists (S k). cbn [shift_loop] in E. rewrite E. split; [f_equal; lia|]. cbn [Qcpower]. rewrite Qcmult_assoc. exact B.
    + destruct (Qcltb_spec k1000 x) as [H2|_]; [exfalso; apply (Qclt_not_le _ _ H2 U)|]. exists 0%nat. cbn [Qcpower Z.of_nat]. rewrite Qcmult_1_r, Z.add_0_r.
      split; [reflexivity|]. split; [apply Qcnot_lt_le; exact H|exact U].
Qed.
Lemma loop_down n : forall x s, 1 <= x -> x <= k1000 * k1000 ^ n -> exists k, shift_loop (S n) x s = Some (s - Z.of_nat k)%Z /\ 1 <= x / k1000 ^ k <= k1000.
Proof.
  induction n as [|n IH]; intros x s L U; cbn [shift_loop]; (destruct (Qcltb_spec x 1) as [H|_]; [exfalso; apply (Qclt_not_le _ _ H L)|]).
  - cbn [Qcpower] in U. rewrite Qcmult_1_r in U. destruct (Qcltb_spec k1000 x) as [H|_]; [exfalso; apply (Qclt_not_le _ _ H U)|]. exists 0%nat.
    cbn [Qcpower Z.of_nat]. rewrite Z.sub_0_r. replace (x / 1) with x by (field; discriminate). auto.
  - destruct (Qcltb_spec k1000 x) as [H|H].
    + destruct (IH (x / k1000) (s - 1)%Z) as (k & E & B).
      * apply Qclt_le_weak, step_down, H.
      * cbn [Qcpower] in U. apply Qcnot_lt_le. intros X. apply (Qcmult_lt_compat_r _ _ k1000) in X; [|reflexivity].
        replace (x / k1000 * k1000) with x in X by (field; exact k1000_nz). apply (Qclt_not_le _ _ X). eapply Qcle_trans; [exact U|].
        replace (k1000 * k1000 ^ n * k1000) with (k1000 * (k1000 * k1000 ^ n)) by ring. apply Qcle_refl.
      * exists (S k). cbn [shift_loop] in E. rewrite E. split; [f_equal; lia|]. cbn [Qcpower].
        replace (x / (k1000 * k1000 ^ k)) with (x / k1000 / k1000 ^ k) by (field; split; [apply Qcpower_nz|]; exact k1000_nz). exact B.
    + exists 0%nat. cbn [Qcpower Z.of_nat]. rewrite Z.sub_0_r. replace (x / 1) with x by (field; discriminate). split; [reflexivity|]. split; [exact L|apply Qcnot_lt_le; exact H].
Qed.
Lemma shift_loop_more n : forall m x s r, shift_loop n x s = Some r -> (n <= m)%nat -> shift_loop m x s = Some r.
Proof.
  induction n as [|n IH]; intros [|m] x s r E L; cbn [shift_loop] in *; try discriminate; try lia.
  destruct (Qcltb x 1); [apply (IH m); [exact E|lia]|]. destruct (Qcltb k1000 x); [apply (IH m); [exact E|lia]|exact E].
Qed.
Lemma pow_big (p : positive) : exists n, Q2Qc (Zpos p # 1) <= k1000 ^ n.
Proof.
  assert (G : forall n, Q2Qc (Z.of_nat n # 1) <= k1000 ^ n).
  { induction n as [|n IH]; [discriminate|]. cbn [Qcpower].
    assert (O : 1 <= k1000 ^ n).
    { clear. induction n as [|n IH]; [apply Qcle_refl|]. cbn [Qcpower]. eapply Qcle_trans; [exact IH|]. rewrite <- (Qcmult_1_l (k1000 ^ n)) at 1.
      apply Qcmult_le_compat_r; [discriminate|]. eapply Qcle_trans; [|exact IH]. discriminate. }
    replace (Q2Qc (Z.of_nat (S n) # 1)) with (Q2Qc (Z.of_nat n # 1) + 1).
    2: { apply Qc_is_canon. unfold Qcplus. cbn -[Qred Z.of_nat]. rewrite !Qred_correct. unfold Qeq, Qplus. cbn -[Z.of_nat]. lia. }
    eapply Qcle_trans; [apply Qcplus_le_compat; [exact IH|exact O]|].
    replace (k1000 ^ n + k1000 ^ n) with (Q2Qc 2 * k1000 ^ n). 2: { replace (Q2Qc 2) with (1 + 1) by (apply Qc_is_canon; reflexivity). ring. }
    apply Qcmult_le_compat_r; [discriminate|]. eapply Qcle_trans; [|exact O]. discriminate. }
  exists (Pos.to_nat p). rewrite <- (positive_nat_Z p). apply G.
Qed.
Lemma pos_big x : 0 < x -> exists n, 1 <= x * k1000 ^ n.
Proof.
  intros P. destruct (pow_big (Qden x)) as [n H]. exists n.
  assert (L : 1 <= x * Q2Qc (Zpos (Qden x) # 1)).
  { unfold Qcle. cbn -[Qred]. rewrite !Qred_correct. unfold Qle, Qmult. cbn. unfold Qclt, Qlt in P. cbn in P. nia. }
  eapply Qcle_trans; [exact L|]. rewrite (Qcmult_comm x), (Qcmult_comm x). apply Qcmult_le_compat_r; [exact H|apply Qclt_le_weak; exact P].
Qed.
Lemma abs_small x : exists n, x <= k1000 * k1000 ^ n.
Proof.
  destruct (Qclt_le_dec 1 x) as [G|L].
  - destruct (Qnum x) as [|p|p] eqn:N.
    + exfalso. unfold Qclt, Qlt in G. rewrite N in G. cbn in G. lia.
    + destruct (pow_big p) as [n H]. exists n. eapply Qcle_trans; [|eapply Qcle_trans; [exact H|]].
      * unfold Qcle, Q2Qc. cbn [this]. rewrite Qred_correct. unfold Qle. rewrite N. cbn [Qnum Qden]. nia.
      * rewrite <- (Qcmult_1_l (k1000 ^ n)) at 1. apply Qcmult_le_compat_r; [discriminate|].
        clear. induction n as [|n IH]; [discriminate|]. cbn [Qcpower]. rewrite <- (Qcmult_0_r k1000). rewrite (Qcmult_comm k1000 0), (Qcmult_comm k1000 (k1000 ^ n)). apply Qcmult_le_compat_r; [exact IH|discriminate].
    + exfalso. unfold Qclt, Qlt in G. rewrite N in G. cbn in G. lia.
  - exists 0%nat. eapply Qcle_trans; [exact L|]. discriminate.
Qed.
Lemma shift_total x : 0 < x -> exists n s, shift_loop n x 0 = Some s /\ 1 <= x * pow1000 s <= k1000.
Proof.
  intros P. destruct (Qclt_le_dec x 1) as [L|G].
  - destruct (pos_big x P) as [n H]. destruct (loop_up n x 0%Z P) as (k & E & B); [apply Qclt_le_weak; eapply Qclt_trans; [exact L|reflexivity]|exact H|].
    exists (S n), (Z.of_nat k). split; [exact E|]. replace (Z.of_nat k) with (Z.of_nat k - Z.of_nat 0)%Z by lia. rewrite pow1000_sub. unfold zpow. cbn [Qcpower].
    replace (k1000 ^ k / 1) with (k1000 ^ k) by (field; discriminate). exact B.
  - destruct (abs_small x) as [n H]. destruct (loop_down n x 0%Z G H) as (k & E & B).
    exists (S n), (- Z.of_nat k)%Z. split; [rewrite E; f_equal; lia|]. replace (- Z.of_nat k)%Z with (Z.of_nat 0 - Z.of_nat k)%Z by lia. rewrite pow1000_sub. unfold zpow. cbn [Qcpower].
    replace (x * (1 / k1000 ^ k)) with (x / k1000 ^ k) by (field; apply Qcpower_nz, k1000_nz). exact B.
Qed.
Lemma abs_pos x : x <> 0 -> 0 < Qcabs x.
Proof.
  intros N. destruct (Qcle_lt_or_eq 0 (Qcabs x) (Qcabs_nonneg x)) as [H|H]; [exact H|]. exfalso. apply N.
  destruct (Qclt_le_dec 0 x) as [P|P].
  - rewrite Qcabs_pos in H by (apply Qclt_le_weak; exact P). congruence.
  - rewrite Qcabs_neg in H by exact P. rewrite <- (Qcopp_involutive x), <- H. reflexivity.
Qed.
Lemma Qcabs_mult_pos a b : 0 < b -> Qcabs (a * b) = Qcabs a * b.
Proof. intros P. rewrite Qcabs_Qcmult. f_equal. apply Qcabs_pos. apply Qclt_le_weak. exact P. Qed.

(** For every nonzero range the loop ends (for every larger step allowance with the same result) and the scaled range has
    magnitude between 1 and 1000; every value no larger than the range is scaled to at most 1000. *)
Theorem C15_scaled_range : forall rng, rng <> 0 -> exists n s,
  (forall m, (n <= m)%nat -> auto_range m rng = AShift s) /\
  Q2Qc 1 <= Qcabs (adjust s rng) <= Q2Qc 1000 /\
  (forall v, Qcabs v <= Qcabs rng -> Qcabs (adjust s v) <= Q2Qc 1000).
Proof.
  intros rng N. destruct (shift_total (Qcabs rng) (abs_pos rng N)) as (n & s & E & B). exists n, s. split; [|split].
  - intros m L. unfold auto_range. destruct (eqb_spec (Qcabs rng) 0) as [Z|_]; [pose proof (abs_pos rng N) as P; rewrite Z in P; discriminate P|].
    rewrite (shift_loop_more _ _ _ _ _ E L). reflexivity.
  - unfold adjust. rewrite (Qcabs_mult_pos _ _ (pow1000_pos s)). exact B.
  - intros v L. unfold adjust. rewrite (Qcabs_mult_pos _ _ (pow1000_pos s)). eapply Qcle_trans; [|apply B]. apply Qcmult_le_compat_r; [exact L|].
    apply Qclt_le_weak, pow1000_pos.
Qed.
Print Assumptions C15_scaled_range.

Example C15_nonvacuous : auto_range 10 (Q2Qc (- 1234567)) = AShift (-2) /\ adjust (-2) (Q2Qc (- 1234567)) = Q2Qc (- 1234567 # 1000000).
Proof. split; vm_compute; reflexivity. Qed.
(** A zero range (a result without components, or whose scores are all zero) raises. *)
Theorem C15_refuted_zero_range : forall n, auto_range n 0 = AValueError.
Proof. reflexivity. Qed.
Print Assumptions C15_refuted_zero_range.
(** With auto-ranging of an LciaResult, the presented total and every presented component score is at most 1000. *)
Lemma elem_le_sum (l : list Qc) : (forall y, In y l -> 0 <= y) -> forall x, In x l -> x <= Qcsum l.
Proof.
  induction l as [|y l IH]; intros N x I; [destruct I|]. rewrite Qcsum_cons. assert (Nl : 0 <= Qcsum l).
  { clear - N. induction l as [|z l IH]; [apply Qcle_refl|]. rewrite Qcsum_cons. rewrite <- (Qcplus_0_l 0). apply Qcplus_le_compat; [apply N; cbn; auto|]. apply IH.
    intros w [->|I]; apply N; cbn; auto. }
  destruct I as [->|I].
  - rewrite <- (Qcplus_0_r x) at 1. apply Qcplus_le_compat; [apply Qcle_refl|exact Nl].
  - rewrite <- (Qcplus_0_l x). apply Qcplus_le_compat; [apply N; cbn; auto|]. apply IH; [|exact I]. intros z Iz; apply N; cbn; auto.
Qed.
Theorem C15_presented_scores : forall r, range r <> 0 -> exists n s, (forall m, (n <= m)%nat -> auto_range m (range r) = AShift s) /\
  Qcabs (total r * pow1000 s) <= Q2Qc 1000 /\
  forall k c, In (k, c) (r_scores r) -> Qcabs (cum (r_scale r) c * pow1000 s) <= Q2Qc 1000.
Proof.
  intros r N. destruct (C15_scaled_range (range r) N) as (n & s & E & _ & B). exists n, s. split; [exact E|].
  assert (A : Qcabs (range r) = range r).
  { apply Qcabs_pos. eapply Qcle_trans; [apply Qcabs_nonneg|apply C20_total_within_range]. }
  rewrite A in B. split.
  - apply B. apply C20_total_within_range.
  - intros k c I. apply B. unfold range. apply elem_le_sum.
    + intros y J. apply in_map_iff in J as [[k0 c0] [<- _]]. apply Qcabs_nonneg.
    + apply in_map_iff. exists (k, c). auto.
Qed.
Print Assumptions C15_presented_scores.

(** * Units.  A unit is a metric prefix (possibly none) followed by a base unit; the prefix denotes a power of 1000. *)
(** The SI prefixes from atto to zetta ("u" for micro), as powers of 1000: the meaning of a prefix, independent of the program's table. *)
Definition si_prefixes : list (string * Z) :=
  [("", 0); ("m", -1); ("u", -2); ("n", -3); ("p", -4); ("f", -5); ("a", -6); ("k", 1); ("M", 2); ("G", 3); ("T", 4); ("P", 5); ("E", 6); ("Z", 7)]%Z.
Definition prefix_power (p : string) : option Z := option_map snd (find (fun q => String.eqb p (fst q)) si_prefixes).
Lemma prefix_power_offset c z : prefix_power (String c "") = Some z -> offset c = Some z.
Proof.
  unfold prefix_power, si_prefixes. cbn [find fst]. repeat (match goal with |- context [String.eqb ?a ?b] => destruct (String.eqb_spec a b) as [X|_];
    [try discriminate X; injection X as ->; cbn; intros E; injection E as <-; reflexivity|] end). discriminate.
Qed.
Lemma prefix_power_long c1 c2 p z : prefix_power (String c1 (String c2 p)) <> Some z.
Proof.
  unfold prefix_power, si_prefixes. cbn [find fst]. repeat (match goal with |- context [String.eqb ?a ?b] => destruct (String.eqb_spec a b) as [X|_];
    [discriminate X|] end). discriminate.
Qed.
Lemma offset_letter c z : offset c = Some z -> prefix_power (String c "") = Some z.
Proof.
  unfold offset, metric_offsets. cbn [find fst]. repeat (match goal with |- context [Ascii.eqb ?a ?b] => destruct (Ascii.eqb_spec a b) as [->|_];
    [cbn; intros E; injection E as <-; reflexivity|] end). discriminate.
Qed.
(** the way a unit is read by the program is the intended one *)
Definition unambiguous (p base : string) : Prop :=
  match p with
  | "" => match base with "" => False | String c _ => prefix_power (String c "") = None \/ String.prefix "mol" base = true \/ String.prefix "MT" base = true end
  | _ => String.prefix "mol" (p ++ base) = false /\ String.prefix "MT" (p ++ base) = false
  end.
Lemma prefix_for_spec z : (-6 <= z <= 7)%Z -> exists p, prefix_for z = Some p /\ prefix_power p = Some z.
Proof.
  intros B. assert (H : In z [-6; -5; -4; -3; -2; -1; 0; 1; 2; 3; 4; 5; 6; 7]%Z) by (cbn; lia).
  cbn [In] in H. repeat (destruct H as [<-|H]; [eexists; split; reflexivity|]). destruct H.
Qed.
Lemma prefix_for_out z : ~ (-6 <= z <= 7)%Z -> prefix_for z = None.
Proof.
  intros B. unfold prefix_for. destruct (Z.eqb_spec z 0); [lia|]. unfold metric_offsets. cbn [find fst snd].
  repeat (match goal with |- context [Z.eqb z ?k] => destruct (Z.eqb_spec z k); [lia|] end). reflexivity.
Qed.
Lemma append_nil_l_str (s : string) : ("" ++ s)%string = s. Proof. reflexivity. Qed.
Lemma adj_unit_read s p base z : prefix_power p = Some z -> unambiguous p base ->
  adj_unit s (p ++ base) = match prefix_for (z - s) with Some p' => UOk (p' ++ base)%string | None => UKeyError end.
Proof.
  intros P U. destruct p as [|c [|c2 p]]; [|apply prefix_power_offset in P|destruct (prefix_power_long c c2 p z P)].
  - cbn in P. injection P as <-. cbn [append]. destruct base as [|c rest]; [destruct U|]. cbn [unambiguous] in U. unfold adj_unit, disallowed.
    destruct U as [U|[U|U]]; [assert (U0 : offset c = None) by (destruct (offset c) as [z|] eqn:O; [apply offset_letter in O; congruence|reflexivity]); rewrite U0|rewrite U|rewrite U].
    + destruct (String.prefix "mol" (String c rest) || String.prefix "MT" (String c rest)); reflexivity.
    + reflexivity.
    + rewrite orb_true_r. reflexivity.
  - destruct U as [U1 U2]. cbn [append] in *. unfold adj_unit, disallowed. rewrite U1, U2. cbn [orb]. rewrite P. reflexivity.
Qed.
(** For every unit whose first letter is read as intended, the adjusted value in the adjusted unit is the same physical
    amount; the call raises KeyError exactly when the shifted prefix is off the table (below atto or above zetta). *)
Theorem C15_unit_partial : forall s p base z v, prefix_power p = Some z -> unambiguous p base ->
  ((-6 <= z - s <= 7)%Z -> exists p' z', adj_unit s (p ++ base) = UOk (p' ++ base)%string /\ prefix_power p' = Some z' /\
      adjust s v * pow1000 z' = v * pow1000 z) /\
  (~ (-6 <= z - s <= 7)%Z -> adj_unit s (p ++ base) = UKeyError).
Proof.
  intros s p base z v P U. rewrite (adj_unit_read s p base z P U). split; intros B.
  - destruct (prefix_for_spec _ B) as (p' & -> & P'). exists p', (z - s)%Z. split; [reflexivity|]. split; [exact P'|]. unfold adjust.
    rewrite <- Qcmult_assoc, <- pow1000_add. do 2 f_equal. lia.
  - rewrite (prefix_for_out _ B). reflexivity.
Qed.
Print Assumptions C15_unit_partial.
Example C15_unit_nonvacuous : unambiguous "k" "g CO2 eq" /\ adj_unit 1 "kg CO2 eq" = UOk "g CO2 eq" /\ adj_unit (-1) "kg CO2 eq" = UOk "Mg CO2 eq" /\
  unambiguous "" "mol H+ eq" /\ adj_unit 1 "mol H+ eq" = UOk "mmol H+ eq".
Proof. repeat split. right. left. reflexivity. Qed.
(** Base units that begin with a prefix letter are misread: 1500 metres are presented as 1.5 of nothing (not km), pascals and
    points likewise. *)
Theorem C15_refuted_unit : adj_unit (-1) "m" = UOk "" /\ adj_unit (-1) "m3" = UOk "3" /\ adj_unit (-1) "Pa" = UOk "Ea" /\ adj_unit (-1) "person.yr" = UOk "nerson.yr"
  /\ auto_range 3 (Q2Qc 1500) = AShift (-1) /\ adj_unit 0 "" = UIndexError.
Proof. vm_compute. repeat split; reflexivity. Qed.
Print Assumptions C15_refuted_unit.

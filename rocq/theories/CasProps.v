(** C08: the CAS-number functions of /repo/synlist/flowables.py. *)
From Verif Require Import Base PyStr CasModel CasProofs.
Open Scope string_scope.
Open Scope nat_scope.

(** Independent description of the strings a regular expression ['^[0-9]{lo,hi}-[0-9]{2}-[0-9]$'] accepts
    (Python's [$] also matches before one final newline). *)
Inductive digits : nat -> string -> Prop :=
| digits0 : digits 0 ""
| digitsS n c s : 48 <= nat_of_ascii c <= 57 -> digits n s -> digits (S n) (String c s).
Definition cas_shape (lo hi : nat) (k : string) : Prop :=
  exists n d ab c nl, lo <= n <= hi /\ digits n d /\ digits 2 ab /\ digits 1 c /\ (nl = "" \/ nl = String "010" "") /\
                      k = d ++ "-" ++ ab ++ "-" ++ c ++ nl.

Lemma is_digit_spec c : is_digit c = true <-> 48 <= nat_of_ascii c <= 57.
Proof. unfold is_digit. rewrite andb_true_iff, !Nat.leb_le. tauto. Qed.
Lemma span_digits_spec s : exists d, digits (fst (span_digits s)) d /\ s = d ++ snd (span_digits s).
Proof.
  induction s as [|c s (d & D & E)]; [exists ""; split; [constructor|reflexivity]|].
  cbn. destruct (is_digit c) eqn:I; [|exists ""; split; [constructor|reflexivity]].
  destruct (span_digits s) as [n t]. cbn in *. exists (String c d). split; [constructor; [apply is_digit_spec; exact I|exact D]|].
  cbn. rewrite <- E. reflexivity.
Qed.
Lemma span_app n d t : digits n d -> (forall c r, t = String c r -> is_digit c = false) -> span_digits (d ++ t) = (n, t).
Proof.
  intros D NT. induction D as [|n c s R D IH]; cbn.
  - destruct t as [|c r]; [reflexivity|]. cbn. rewrite (NT c r eq_refl). reflexivity.
  - rewrite (proj2 (is_digit_spec c) R), IH. reflexivity.
Qed.
Lemma cas_tail_spec t : cas_tail t = true <-> exists ab c nl, digits 2 ab /\ digits 1 c /\ (nl = "" \/ nl = String "010" "") /\ t = "-" ++ ab ++ "-" ++ c ++ nl.
Proof.
  split.
  - intros T. destruct t as [|d1 [|a [|b [|d2 [|c r]]]]]; try discriminate. cbn in T. rewrite !andb_true_iff, orb_true_iff in T.
    destruct T as [[[[[T1 T2] T3] T4] T5] T6]. apply Ascii.eqb_eq in T1, T4. subst d1 d2.
    exists (String a (String b "")), (String c ""), r. split; [|split; [|split]].
    + repeat (apply digitsS; [apply is_digit_spec; assumption|]); apply digits0.
    + repeat (apply digitsS; [apply is_digit_spec; assumption|]); apply digits0.
    + destruct T6 as [T6|T6]; apply String.eqb_eq in T6; auto.
    + reflexivity.
  - intros (ab & c & nl & D1 & D2 & N & ->). inversion D1 as [|? a s Ra Da]; subst. inversion Da as [|? b s' Rb Db]; subst. inversion Db; subst.
    inversion D2 as [|? c0 s'' Rc Dc]; subst. inversion Dc; subst. cbn.
    rewrite (proj2 (is_digit_spec a) Ra), (proj2 (is_digit_spec b) Rb), (proj2 (is_digit_spec c0) Rc). destruct N as [-> | ->]; reflexivity.
Qed.
(** The two regular expressions of the model accept exactly these strings. *)
Lemma cas_match_shape k : cas_match k = true <-> cas_shape 0 6 k.
Proof.
  rewrite cas_match_spec, cas_tail_spec. split.
  - intros [L (ab & c & nl & A & B & C & E)]. destruct (span_digits_spec k) as (d & D & E2).
    exists (fst (span_digits k)), d, ab, c, nl. split; [lia|]. rewrite <- E. auto.
  - intros (n & d & ab & c & nl & L & D & A & B & C & ->). rewrite (span_app n d) by (auto; intros x r Q; injection Q as <- _; reflexivity).
    cbn [fst snd]. split; [lia|]. exists ab, c, nl. auto.
Qed.
Lemma cas_strict_shape k : cas_strict k = true <-> cas_shape 6 6 k.
Proof.
  rewrite cas_strict_spec, cas_tail_spec. split.
  - intros [L (ab & c & nl & A & B & C & E)]. destruct (span_digits_spec k) as (d & D & E2).
    exists (fst (span_digits k)), d, ab, c, nl. split; [lia|]. rewrite <- E. auto.
  - intros (n & d & ab & c & nl & L & D & A & B & C & ->). rewrite (span_app n d) by (auto; intros x r Q; injection Q as <- _; reflexivity).
    cbn [fst snd]. split; [lia|]. exists ab, c, nl. auto.
Qed.

(** pad_cas: the loop needs at most six turns (so it terminates), the result has the strict shape and only zeros were
    put in front; anything else raises NotACas at once. *)
Theorem C08_pad_terminates : forall k,
  (cas_shape 0 6 k -> exists p n, (forall fuel, 6 <= fuel -> pad_cas fuel k = Padded p) /\ cas_shape 6 6 p /\ p = zeros n ++ k) /\
  (~ cas_shape 0 6 k -> forall fuel, pad_cas fuel k = NotACas).
Proof.
  intros k. split.
  - intros S. apply cas_match_shape in S as M. exists (padded k), (6 - fst (span_digits k)). split; [|split].
    + intros fuel F. apply pad_cas_spec; auto.
    + apply cas_strict_shape, padded_strict, M.
    + pose proof (pad_cas_spec k 6 M ltac:(lia)) as P. unfold pad_cas in P. rewrite M in P.
      apply cas_match_spec in M as [L T]. rewrite (pad_loop_spec (6 - fst (span_digits k)) k 6 T) in P by lia. congruence.
  - intros N fuel. unfold pad_cas. destruct (cas_match k) eqn:M; [|reflexivity]. apply cas_match_shape in M. tauto.
Qed.
Print Assumptions C08_pad_terminates.

(** trim_cas removes exactly the leading zeros. *)
Theorem C08_trim_removes_zeros : forall k, (exists n, k = zeros n ++ trim_cas k) /\ (forall r, trim_cas k <> String "0" r).
Proof.
  intros k. split; [apply trim_decomp|]. induction k as [|c k IH]; intros r; [discriminate|]. cbn.
  destruct (Ascii.eqb_spec c zero) as [->|N]; [apply IH|]. unfold zero in N. congruence.
Qed.
Print Assumptions C08_trim_removes_zeros.

Theorem C08_normal_forms : forall k m p q, pad_cas 6 k = Padded p -> pad_cas 6 m = Padded q ->
  pad_cas 6 p = Padded p /\ trim_cas (trim_cas k) = trim_cas k /\
  trim_cas p = trim_cas k /\ pad_cas 6 (trim_cas k) = Padded p /\
  (p = q <-> trim_cas k = trim_cas m).
Proof.
  intros k m p q Ek Em. unfold pad_cas in *. destruct (cas_match k) eqn:Mk; [|discriminate]. destruct (cas_match m) eqn:Mm; [|discriminate].
  pose proof (pad_cas_spec k 6 Mk ltac:(lia)) as Pk. pose proof (pad_cas_spec m 6 Mm ltac:(lia)) as Pm.
  unfold pad_cas in Pk, Pm. rewrite Mk in Pk. rewrite Mm in Pm. assert (p = padded k) by congruence. assert (q = padded m) by congruence. subst p q.
  assert (Mp : cas_match (padded k) = true) by (apply strict_match, padded_strict, Mk).
  split; [|split; [|split; [|split]]].
  - pose proof (pad_cas_spec (padded k) 6 Mp ltac:(lia)) as X. unfold pad_cas in X. rewrite padded_idem in X. exact X.
  - apply trim_idem.
  - apply trim_padded.
  - pose proof (pad_cas_spec (trim_cas k) 6 (trim_match _ Mk) ltac:(lia)) as X. unfold pad_cas in X. rewrite padded_trim in X. exact X.
  - apply padded_eq_trim.
Qed.
Print Assumptions C08_normal_forms.
Example C08_nonvacuous : cas_shape 0 6 "0064-17-5" /\ pad_cas 6 "64-17-5" = Padded "000064-17-5" /\ pad_cas 6 "0064-17-5" = Padded "000064-17-5"
  /\ ~ cas_shape 0 6 "1234567-12-1".
Proof.
  split; [apply cas_match_shape; reflexivity|]. split; [reflexivity|]. split; [reflexivity|].
  intros S. apply cas_match_shape in S. discriminate.
Qed.

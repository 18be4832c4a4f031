From Verif Require Import Base PyStr CasModel.
Open Scope string_scope.
Open Scope nat_scope.

Fixpoint zeros (n : nat) : string := match n with 0 => "" | S k => String zero (zeros k) end.

Lemma span_zeros n s : span_digits (zeros n ++ s) = (n + fst (span_digits s), snd (span_digits s)).
Proof.
  induction n as [|n IH]; cbn; [destruct (span_digits s); reflexivity|]. rewrite IH. reflexivity.
Qed.
Lemma trim_decomp s : exists n, s = zeros n ++ trim_cas s.
Proof.
  induction s as [|c s [n IH]]; [exists 0; reflexivity|]. cbn. destruct (Ascii.eqb_spec c zero) as [->|].
  - exists (S n). cbn. rewrite <- IH. reflexivity.
  - exists 0. reflexivity.
Qed.
Lemma trim_idem s : trim_cas (trim_cas s) = trim_cas s.
Proof. induction s as [|c s IH]; cbn; auto. destruct (Ascii.eqb c zero) eqn:E; auto. cbn. rewrite E. reflexivity. Qed.
Lemma trim_zeros n s : trim_cas (zeros n ++ s) = trim_cas s.
Proof. induction n as [|n IH]; cbn; auto. Qed.
Lemma zeros_snoc n s : zeros n ++ String zero s = zeros (S n) ++ s.
Proof. induction n as [|n IH]; cbn; auto. rewrite IH. reflexivity. Qed.
Lemma zeros_app a b s : zeros a ++ (zeros b ++ s) = zeros (a + b) ++ s.
Proof. induction a as [|a IH]; cbn; auto. rewrite IH. reflexivity. Qed.

Lemma cas_match_spec s : cas_match s = true <-> fst (span_digits s) <= 6 /\ cas_tail (snd (span_digits s)) = true.
Proof. unfold cas_match. destruct (span_digits s) as [n t]. cbn. rewrite andb_true_iff, Nat.leb_le. tauto. Qed.
Lemma cas_strict_spec s : cas_strict s = true <-> fst (span_digits s) = 6 /\ cas_tail (snd (span_digits s)) = true.
Proof. unfold cas_strict. destruct (span_digits s) as [n t]. cbn. rewrite andb_true_iff, Nat.eqb_eq. tauto. Qed.
Lemma strict_match s : cas_strict s = true -> cas_match s = true.
Proof. rewrite cas_match_spec, cas_strict_spec. intros [E T]. split; [lia|exact T]. Qed.

Lemma pad_loop_spec k : forall s fuel, cas_tail (snd (span_digits s)) = true -> fst (span_digits s) + k = 6 -> k <= fuel ->
  pad_loop fuel s = Some (zeros k ++ s).
Proof.
  induction k as [|k IH]; intros s fuel T E F.
  - destruct fuel; cbn; rewrite (proj2 (cas_strict_spec s)); auto; split; auto; lia.
  - destruct fuel as [|fuel]; [lia|]. cbn [pad_loop].
    destruct (cas_strict s) eqn:S; [apply cas_strict_spec in S; lia|].
    rewrite (IH (String zero s) fuel).
    + rewrite zeros_snoc. reflexivity.
    + pose proof (span_zeros 1 s) as Z. cbn [zeros append] in Z. rewrite Z. exact T.
    + pose proof (span_zeros 1 s) as Z. cbn [zeros append] in Z. rewrite Z. cbn. lia.
    + lia.
Qed.
Definition padded (s : string) : string := zeros (6 - fst (span_digits (trim_cas s))) ++ trim_cas s.

Lemma trim_span s : fst (span_digits (trim_cas s)) <= fst (span_digits s) /\ snd (span_digits (trim_cas s)) = snd (span_digits s) /\
   s = zeros (fst (span_digits s) - fst (span_digits (trim_cas s))) ++ trim_cas s.
Proof.
  destruct (trim_decomp s) as [n E]. pose proof (span_zeros n (trim_cas s)) as Z. rewrite <- E in Z.
  rewrite Z. cbn [fst snd]. split; [lia|]. split; [reflexivity|].
  replace (n + fst (span_digits (trim_cas s)) - fst (span_digits (trim_cas s))) with n by lia. exact E.
Qed.
Lemma pad_cas_spec s fuel : cas_match s = true -> 6 <= fuel -> pad_cas fuel s = Padded (padded s).
Proof.
  intros M F. unfold pad_cas. rewrite M. apply cas_match_spec in M as [N T].
  rewrite (pad_loop_spec (6 - fst (span_digits s)) s fuel T) by lia. f_equal.
  unfold padded. destruct (trim_span s) as (A & B & C). rewrite C at 2. rewrite zeros_app. f_equal. f_equal. lia.
Qed.
Lemma padded_strict s : cas_match s = true -> cas_strict (padded s) = true.
Proof.
  intros M. apply cas_match_spec in M as [N T]. apply cas_strict_spec. unfold padded. rewrite span_zeros. cbn [fst snd].
  destruct (trim_span s) as (A & B & C). rewrite B. split; [lia|exact T].
Qed.
Lemma trim_padded s : trim_cas (padded s) = trim_cas s.
Proof. unfold padded. rewrite trim_zeros. apply trim_idem. Qed.
Lemma trim_match s : cas_match s = true -> cas_match (trim_cas s) = true.
Proof.
  rewrite !cas_match_spec. destruct (trim_span s) as (A & B & C). rewrite B. intros [N T]. split; [lia|exact T].
Qed.
Lemma padded_trim s : padded (trim_cas s) = padded s.
Proof. unfold padded. rewrite trim_idem. reflexivity. Qed.
Lemma padded_idem s : padded (padded s) = padded s.
Proof. unfold padded at 1. rewrite trim_padded. reflexivity. Qed.
Lemma padded_eq_trim s t : padded s = padded t <-> trim_cas s = trim_cas t.
Proof.
  split; intros E.
  - rewrite <- (trim_padded s), <- (trim_padded t), E. reflexivity.
  - unfold padded. rewrite E. reflexivity.
Qed.
Lemma cas_nonempty s : cas_match s = true -> s <> "".
Proof. intros M ->. discriminate. Qed.

(** find_cas *)
Lemma find_cas_spec l :
  match find_cas l with
  | CasNone => forall t, In t l -> cas_match t = false
  | CasOne c => (exists t, In t l /\ cas_match t = true /\ trim_cas t = c) /\ (forall t, In t l -> cas_match t = true -> trim_cas t = c)
  | CasConflict => exists t u, In t l /\ In u l /\ cas_match t = true /\ cas_match u = true /\ trim_cas t <> trim_cas u
  end.
Proof.
  unfold find_cas. set (l' := map trim_cas (filter cas_match l)).
  assert (IL : forall c, In c l' <-> exists t, In t l /\ cas_match t = true /\ trim_cas t = c).
  { intros c. unfold l'. rewrite in_map_iff. split.
    - intros [t [E I]]. apply filter_In in I as [I M]. eauto.
    - intros [t [I [M E]]]. exists t. split; auto. apply filter_In; auto. }
  destruct (set_of l') as [|c [|d r]] eqn:S.
  - apply (proj1 (set_of_nil_iff _)) in S. intros t I. destruct (cas_match t) eqn:M; auto. exfalso.
    assert (X : In (trim_cas t) l') by (apply IL; eauto). rewrite S in X. destruct X.
  - assert (IS : forall x, In x l' <-> x = c) by (intros x; rewrite <- In_set_of, S; cbn; intuition).
    split; [apply IL, IS; reflexivity|]. intros t I M. apply IS, IL. eauto.
  - pose proof (NoDup_set_of l') as ND. rewrite S in ND. inversion ND as [|? ? N _]; subst.
    assert (Ic : In c l') by (apply In_set_of; rewrite S; cbn; auto).
    assert (Id : In d l') by (apply In_set_of; rewrite S; cbn; auto).
    apply IL in Ic as (t & I1 & M1 & E1). apply IL in Id as (u & I2 & M2 & E2). exists t, u. repeat split; auto.
    intros E. apply N. cbn. left. congruence.
Qed.

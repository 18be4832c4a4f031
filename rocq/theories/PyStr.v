(** Python [str] restricted to code points below 256 (Latin-1): [strip], [lower]. *)
From Verif Require Import Base.
Open Scope string_scope.
Open Scope nat_scope.

(** CPython [str.isspace] on code points < 256: \t \n \v \f \r, 0x1c-0x1f, space, 0x85, 0xa0. *)
Definition is_space (c : ascii) : bool :=
  let n := nat_of_ascii c in
  ((9 <=? n) && (n <=? 13)) || ((28 <=? n) && (n <=? 32)) || (n =? 133) || (n =? 160).

(** CPython [str.lower] on one code point < 256: A-Z, and 0xc0-0xde except 0xd7. *)
Definition lower_char (c : ascii) : ascii :=
  let n := nat_of_ascii c in
  if ((65 <=? n) && (n <=? 90)) || ((192 <=? n) && (n <=? 222) && negb (n =? 215)) then ascii_of_nat (n + 32) else c.

Fixpoint lower (s : string) : string :=
  match s with EmptyString => EmptyString | String c r => String (lower_char c) (lower r) end.

Fixpoint lstrip (s : string) : string :=
  match s with EmptyString => EmptyString | String c r => if is_space c then lstrip r else s end.
Fixpoint rstrip (s : string) : string :=
  match s with
  | EmptyString => EmptyString
  | String c r => match rstrip r with
                  | EmptyString => if is_space c then EmptyString else String c EmptyString
                  | r' => String c r'
                  end
  end.
(** [str.strip()] *)
Definition strip (s : string) : string := rstrip (lstrip s).

Fixpoint all_space (s : string) : bool :=
  match s with EmptyString => true | String c r => is_space c && all_space r end.

Lemma for_all_ascii (P : ascii -> bool) :
  forallb (fun n => P (ascii_of_nat n)) (seq 0 256) = true -> forall c, P c = true.
Proof.
  intros F c. rewrite forallb_forall in F. rewrite <- (ascii_nat_embedding c). apply F. apply in_seq.
  pose proof (nat_ascii_bounded c). lia.
Qed.

Lemma is_space_lower c : is_space (lower_char c) = is_space c.
Proof.
  apply Bool.eqb_prop. revert c. apply (for_all_ascii (fun c => Bool.eqb (is_space (lower_char c)) (is_space c))).
  vm_compute; reflexivity.
Qed.
Lemma lower_char_idem c : lower_char (lower_char c) = lower_char c.
Proof.
  apply Ascii.eqb_eq. revert c. apply (for_all_ascii (fun c => Ascii.eqb (lower_char (lower_char c)) (lower_char c))).
  vm_compute; reflexivity.
Qed.
Lemma lower_idem s : lower (lower s) = lower s.
Proof. induction s as [|c r IH]; cbn; [reflexivity|]. rewrite lower_char_idem, IH; reflexivity. Qed.
Lemma lower_lstrip s : lower (lstrip s) = lstrip (lower s).
Proof. induction s as [|c r IH]; cbn; [reflexivity|]. rewrite is_space_lower. destruct (is_space c); auto. Qed.
Lemma lower_rstrip s : lower (rstrip s) = rstrip (lower s).
Proof.
  induction s as [|c r IH]; cbn; [reflexivity|]. rewrite <- IH, is_space_lower.
  destruct (rstrip r); cbn; [destruct (is_space c)|]; reflexivity.
Qed.
Lemma lower_strip s : lower (strip s) = strip (lower s).
Proof. unfold strip. rewrite lower_rstrip, lower_lstrip; reflexivity. Qed.
Lemma lstrip_app_space w s : all_space w = true -> lstrip (w ++ s) = lstrip s.
Proof.
  induction w as [|c w IH]; cbn; [reflexivity|]. intros E. apply andb_prop in E as [E1 E2]. rewrite E1; auto.
Qed.
Lemma rstrip_space w : all_space w = true -> rstrip w = "".
Proof. induction w as [|c w IH]; cbn; [reflexivity|]. intros E. apply andb_prop in E as [E1 E2]. rewrite IH, E1; auto. Qed.
Lemma rstrip_app_space s w : all_space w = true -> rstrip (s ++ w) = rstrip s.
Proof. intros E. induction s as [|c s IH]; cbn; [apply rstrip_space; exact E|]. rewrite IH; reflexivity. Qed.
Lemma lstrip_space_only s : all_space s = true -> lstrip s = "".
Proof. induction s as [|c w IH]; cbn; [reflexivity|]. intros E. apply andb_prop in E as [E1 E2]. rewrite E1; auto. Qed.
Lemma rstrip_lstrip_app_space s w : all_space w = true -> strip (s ++ w) = strip s.
Proof.
  intros E. unfold strip. induction s as [|c s IH]; cbn; [rewrite lstrip_space_only by exact E; reflexivity|].
  destruct (is_space c); [exact IH|]. change (String c (s ++ w)) with (String c s ++ w). apply rstrip_app_space; exact E.
Qed.
Lemma strip_pad w1 s w2 : all_space w1 = true -> all_space w2 = true -> strip (w1 ++ s ++ w2) = strip s.
Proof.
  intros E1 E2. transitivity (strip (s ++ w2)); [unfold strip; rewrite lstrip_app_space by exact E1; reflexivity|].
  apply rstrip_lstrip_app_space; exact E2.
Qed.
Lemma rstrip_idem s : rstrip (rstrip s) = rstrip s.
Proof.
  induction s as [|c s IH]; cbn; [reflexivity|]. destruct (rstrip s) as [|d r] eqn:E.
  - destruct (is_space c) eqn:S; cbn; [reflexivity|rewrite S; reflexivity].
  - cbn. cbn in IH. rewrite IH. reflexivity.
Qed.
Lemma lstrip_head s : lstrip s = "" \/ exists c r, lstrip s = String c r /\ is_space c = false.
Proof. induction s as [|c s IH]; cbn; [auto|]. destruct (is_space c) eqn:S; [auto|right; exists c, s; auto]. Qed.
Lemma lstrip_rstrip_head c r : is_space c = false -> lstrip (rstrip (String c r)) = rstrip (String c r).
Proof. intros S; cbn. destruct (rstrip r); [rewrite S|]; cbn; rewrite S; reflexivity. Qed.
Lemma strip_idem s : strip (strip s) = strip s.
Proof.
  unfold strip. destruct (lstrip_head s) as [->|[c [r [-> S]]]]; [reflexivity|].
  rewrite lstrip_rstrip_head by exact S. apply rstrip_idem.
Qed.

(** Shared vocabulary: decidable equality, insertion-ordered Python dicts, Python sets as
    duplicate-free lists, list update by index. *)
From Coq Require Export String Ascii List Arith Bool Lia Permutation.
Export ListNotations.
Open Scope list_scope.

(** Decidable equality as a boolean test. *)
Class EqB (A : Type) := { eqb : A -> A -> bool; eqb_spec : forall x y, reflect (x = y) (eqb x y) }.

#[export] Instance EqB_nat : EqB nat := {| eqb := Nat.eqb; eqb_spec := Nat.eqb_spec |}.
#[export] Instance EqB_string : EqB string := {| eqb := String.eqb; eqb_spec := String.eqb_spec |}.
#[export] Instance EqB_bool : EqB bool := {| eqb := Bool.eqb; eqb_spec := Bool.eqb_spec |}.

Lemma option_eqb_spec {A} `{EqB A} (x y : option A) :
  reflect (x = y) (match x, y with Some a, Some b => eqb a b | None, None => true | _, _ => false end).
Proof.
  destruct x as [a|], y as [b|]; try (constructor; congruence).
  destruct (eqb_spec a b); constructor; congruence.
Qed.
#[export] Instance EqB_option {A} `{EqB A} : EqB (option A) := {| eqb_spec := option_eqb_spec |}.

Lemma prod_eqb_spec {A B} `{EqB A} `{EqB B} (x y : A * B) :
  reflect (x = y) (eqb (fst x) (fst y) && eqb (snd x) (snd y)).
Proof.
  destruct x as [a b], y as [c d]; cbn.
  destruct (eqb_spec a c), (eqb_spec b d); cbn; constructor; congruence.
Qed.
#[export] Instance EqB_prod {A B} `{EqB A} `{EqB B} : EqB (A * B) := {| eqb_spec := prod_eqb_spec |}.

Lemma eqb_refl {A} `{EqB A} (x : A) : eqb x x = true.
Proof. destruct (eqb_spec x x); congruence. Qed.
Lemma eqb_eq {A} `{EqB A} (x y : A) : eqb x y = true <-> x = y.
Proof. destruct (eqb_spec x y); split; congruence. Qed.
Lemma eqb_neq {A} `{EqB A} (x y : A) : eqb x y = false <-> x <> y.
Proof. destruct (eqb_spec x y); split; congruence. Qed.
Lemma eqb_sym {A} `{EqB A} (x y : A) : eqb x y = eqb y x.
Proof. destruct (eqb_spec x y), (eqb_spec y x); congruence. Qed.

Definition eq_dec {A} `{EqB A} (x y : A) : {x = y} + {x <> y}.
Proof. destruct (eqb x y) eqn:E; [left; apply eqb_eq; exact E | right; apply eqb_neq; exact E]. Defined.

Lemma pair_equal_inv {A B} (a c : A) (b d : B) : (a, b) = (c, d) -> a = c /\ b = d.
Proof. intros H; injection H; auto. Qed.

(** * Membership and sets *)
Fixpoint mem {A} `{EqB A} (x : A) (l : list A) : bool :=
  match l with [] => false | y :: r => if eqb x y then true else mem x r end.

Lemma mem_In {A} `{EqB A} (x : A) l : mem x l = true <-> In x l.
Proof.
  induction l as [|y r IH]; cbn; [split; [discriminate|tauto]|].
  destruct (eqb_spec x y) as [->|N]; [split; auto|].
  rewrite IH; split; [auto|intros [E|I]; [congruence|exact I]].
Qed.
Lemma mem_nIn {A} `{EqB A} (x : A) l : mem x l = false <-> ~ In x l.
Proof. rewrite <- mem_In. destruct (mem x l); split; congruence. Qed.
Lemma mem_spec {A} `{EqB A} (x : A) l : reflect (In x l) (mem x l).
Proof. destruct (mem x l) eqn:E; constructor; [apply mem_In|apply mem_nIn]; exact E. Qed.

(** Python [set.add]; the list order is a possible iteration order. *)
Definition set_add {A} `{EqB A} (x : A) (s : list A) : list A := if mem x s then s else s ++ [x].
Definition set_union {A} `{EqB A} (s t : list A) : list A := fold_left (fun acc x => set_add x acc) t s.
Definition set_of {A} `{EqB A} (l : list A) : list A := set_union [] l.
Definition set_remove {A} `{EqB A} (x : A) (s : list A) : list A := filter (fun y => negb (eqb x y)) s.

Lemma In_set_add {A} `{EqB A} (x y : A) s : In y (set_add x s) <-> y = x \/ In y s.
Proof.
  unfold set_add. destruct (mem_spec x s) as [I|N].
  - split; [auto|]. intros [->|]; auto.
  - rewrite in_app_iff; cbn. split; intros [J|J]; auto. destruct J as [J|[]]; auto.
Qed.
Lemma In_set_union {A} `{EqB A} (y : A) t : forall s, In y (set_union s t) <-> In y s \/ In y t.
Proof.
  unfold set_union. induction t as [|x t IH]; intros s; cbn; [tauto|].
  rewrite IH, In_set_add. split; intros; intuition auto.
Qed.
Lemma In_set_of {A} `{EqB A} (y : A) l : In y (set_of l) <-> In y l.
Proof. unfold set_of. rewrite In_set_union. cbn. tauto. Qed.
Lemma In_set_remove {A} `{EqB A} (x y : A) s : In y (set_remove x s) <-> In y s /\ y <> x.
Proof.
  unfold set_remove. rewrite filter_In. destruct (eqb_spec x y); cbn; split; intros [? ?]; split; auto; congruence.
Qed.
Lemma NoDup_snoc {A} (l : list A) x : NoDup l -> ~ In x l -> NoDup (l ++ [x]).
Proof.
  intros N I. apply NoDup_rev in N. rewrite <- (rev_involutive (l ++ [x])). apply NoDup_rev.
  rewrite rev_app_distr; cbn. constructor; [rewrite <- in_rev; exact I | exact N].
Qed.
Lemma NoDup_set_add {A} `{EqB A} (x : A) s : NoDup s -> NoDup (set_add x s).
Proof. unfold set_add. destruct (mem_spec x s); auto. intros; apply NoDup_snoc; auto. Qed.
Lemma NoDup_set_union {A} `{EqB A} (t : list A) : forall s, NoDup s -> NoDup (set_union s t).
Proof. unfold set_union. induction t as [|x t IH]; intros s N; cbn; auto using NoDup_set_add. Qed.
Lemma NoDup_set_of {A} `{EqB A} (l : list A) : NoDup (set_of l).
Proof. apply NoDup_set_union. constructor. Qed.
Lemma NoDup_filter {A} (f : A -> bool) l : NoDup l -> NoDup (filter f l).
Proof.
  induction 1 as [|x l I N IH]; cbn; [constructor|]. destruct (f x); auto. constructor; auto.
  rewrite filter_In; tauto.
Qed.
Lemma set_of_nil_iff {A} `{EqB A} (l : list A) : set_of l = [] <-> l = [].
Proof.
  split; [|intros ->; reflexivity]. destruct l as [|x l]; auto. intros E.
  assert (I : In x (set_of (x :: l))) by (apply In_set_of; cbn; auto). rewrite E in I; destruct I.
Qed.

(** * Insertion-ordered dictionaries *)
Section Dict.
  Context {K V : Type} `{EqB K}.
  Definition dict := list (K * V).
  Fixpoint dget (k : K) (d : dict) : option V :=
    match d with [] => None | (k', v) :: r => if eqb k k' then Some v else dget k r end.
  Fixpoint dset (k : K) (v : V) (d : dict) : dict :=
    match d with [] => [(k, v)] | (k', v') :: r => if eqb k k' then (k', v) :: r else (k', v') :: dset k v r end.
  Definition ddel (k : K) (d : dict) : dict := filter (fun p => negb (eqb k (fst p))) d.
  Definition dkeys (d : dict) : list K := map fst d.
  Definition din (k : K) (d : dict) : bool := match dget k d with Some _ => true | None => false end.

  Lemma dget_dset k k' v d : dget k (dset k' v d) = if eqb k k' then Some v else dget k d.
  Proof.
    induction d as [|[k1 v1] r IH]; cbn; [reflexivity|].
    destruct (eqb_spec k' k1) as [->|N]; cbn.
    - destruct (eqb_spec k k1); reflexivity.
    - rewrite IH. destruct (eqb_spec k k1) as [->|]; auto. destruct (eqb_spec k1 k'); congruence.
  Qed.
  Lemma dget_dset_same k v d : dget k (dset k v d) = Some v.
  Proof. rewrite dget_dset, eqb_refl. reflexivity. Qed.
  Lemma dget_dset_other k k' v d : k <> k' -> dget k (dset k' v d) = dget k d.
  Proof. intros N. rewrite dget_dset. destruct (eqb_spec k k'); congruence. Qed.
  Lemma dget_ddel k k' d : dget k (ddel k' d) = if eqb k k' then None else dget k d.
  Proof.
    unfold ddel. induction d as [|[k1 v1] r IH]; cbn; [destruct (eqb k k'); reflexivity|].
    destruct (eqb_spec k' k1) as [->|N]; cbn.
    - rewrite IH. destruct (eqb_spec k k1); reflexivity.
    - rewrite IH. destruct (eqb_spec k k1) as [->|]; auto. destruct (eqb_spec k1 k'); congruence.
  Qed.
  Lemma dget_In k v d : dget k d = Some v -> In (k, v) d.
  Proof.
    induction d as [|[k1 v1] r IH]; cbn; [discriminate|]. destruct (eqb_spec k k1) as [->|]; auto.
    intros E; injection E as ->; auto.
  Qed.
  Lemma dget_Some_key k v d : dget k d = Some v -> In k (dkeys d).
  Proof. intros E. apply dget_In in E. apply in_map_iff. exists (k, v); auto. Qed.
  Lemma dget_None k d : dget k d = None <-> ~ In k (dkeys d).
  Proof.
    induction d as [|[k1 v1] r IH]; cbn; [tauto|]. destruct (eqb_spec k k1) as [->|N].
    - split; [discriminate|intros X; exfalso; auto].
    - rewrite IH. split; intros X; [intros [E|I]; [congruence|tauto]|tauto].
  Qed.
  Lemma dget_key_Some k d : In k (dkeys d) -> exists v, dget k d = Some v.
  Proof. intros I. destruct (dget k d) as [v|] eqn:E; [eauto|]. apply dget_None in E; tauto. Qed.
  Lemma In_dget k v d : NoDup (dkeys d) -> In (k, v) d -> dget k d = Some v.
  Proof.
    induction d as [|[k1 v1] r IH]; cbn; [tauto|]. inversion 1 as [|? ? N ND]; subst. intros [E|I].
    - injection E as -> ->. rewrite eqb_refl; reflexivity.
    - destruct (eqb_spec k k1) as [->|]; [|auto]. exfalso; apply N. apply in_map_iff. exists (k1, v); auto.
  Qed.
  Lemma dkeys_dset k v d : dkeys (dset k v d) = if din k d then dkeys d else dkeys d ++ [k].
  Proof.
    unfold din, dkeys. induction d as [|[k1 v1] r IH]; cbn; [reflexivity|].
    destruct (eqb_spec k k1) as [->|N]; cbn; [reflexivity|]. rewrite IH. destruct (dget k r); reflexivity.
  Qed.
  Lemma In_dkeys_dset k k' v d : In k (dkeys (dset k' v d)) <-> k = k' \/ In k (dkeys d).
  Proof.
    destruct (dget k (dset k' v d)) as [w|] eqn:E.
    - rewrite dget_dset in E. split; [intros _|intros _; apply dget_Some_key with w; rewrite dget_dset; exact E].
      destruct (eqb_spec k k'); auto. right; apply dget_Some_key with w; auto.
    - pose proof E as E2. rewrite dget_dset in E2. destruct (eqb_spec k k'); [discriminate|].
      apply dget_None in E. apply dget_None in E2. tauto.
  Qed.
  Lemma NoDup_dset k v d : NoDup (dkeys d) -> NoDup (dkeys (dset k v d)).
  Proof.
    intros N. rewrite dkeys_dset. unfold din. destruct (dget k d) eqn:E; auto.
    apply NoDup_snoc; auto. apply dget_None; exact E.
  Qed.
  Lemma NoDup_ddel k d : NoDup (dkeys d) -> NoDup (dkeys (ddel k d)).
  Proof.
    unfold ddel, dkeys. induction d as [|[k1 v1] r IH]; cbn; auto. inversion 1 as [|? ? N ND]; subst.
    destruct (eqb_spec k k1); cbn; auto. constructor; auto.
    intros I; apply N. apply in_map_iff in I as [p [E J]]. apply filter_In in J as [J _].
    apply in_map_iff. exists p; auto.
  Qed.
  Lemma In_dkeys_ddel k k' d : In k (dkeys (ddel k' d)) <-> In k (dkeys d) /\ k <> k'.
  Proof.
    unfold ddel, dkeys. rewrite in_map_iff. split.
    - intros [p [<- I]]. apply filter_In in I as [I B]. split; [apply in_map; exact I|].
      destruct (eqb_spec k' (fst p)); cbn in B; congruence.
    - intros [I N]. apply in_map_iff in I as [p [<- I]]. exists p; split; auto. apply filter_In; split; auto.
      destruct (eqb_spec k' (fst p)); cbn; congruence.
  Qed.
End Dict.
Arguments dict : clear implicits.

(** * List update *)
Fixpoint upd {A} (i : nat) (f : A -> A) (l : list A) : list A :=
  match l, i with
  | [], _ => []
  | x :: r, 0 => f x :: r
  | x :: r, S j => x :: upd j f r
  end.
Lemma length_upd {A} (f : A -> A) l : forall i, length (upd i f l) = length l.
Proof. induction l as [|x r IH]; intros [|i]; cbn; auto. Qed.
Lemma nth_upd {A} (f : A -> A) l : forall i j,
  nth_error (upd i f l) j = if Nat.eqb i j then option_map f (nth_error l j) else nth_error l j.
Proof.
  induction l as [|x r IH]; intros [|i] [|j]; cbn; auto; try reflexivity.
  destruct (Nat.eqb i j); reflexivity.
Qed.
Lemma nth_upd_same {A} (f : A -> A) l i x : nth_error l i = Some x -> nth_error (upd i f l) i = Some (f x).
Proof. intros E. rewrite nth_upd, Nat.eqb_refl, E. reflexivity. Qed.
Lemma nth_upd_other {A} (f : A -> A) l i j : i <> j -> nth_error (upd i f l) j = nth_error l j.
Proof. intros N. rewrite nth_upd. destruct (Nat.eqb_spec i j); congruence. Qed.
Lemma nth_error_snoc {A} (l : list A) x j :
  nth_error (l ++ [x]) j = if Nat.eqb j (length l) then Some x else nth_error l j.
Proof.
  destruct (Nat.eqb_spec j (length l)) as [->|N].
  - rewrite nth_error_app2, Nat.sub_diag; auto.
  - destruct (Nat.lt_ge_cases j (length l)) as [L|G].
    + rewrite nth_error_app1; auto.
    + rewrite nth_error_app2 by lia. replace (nth_error l j) with (@None A) by (symmetry; apply nth_error_None; lia).
      destruct (j - length l) eqn:E; [lia|]. cbn. destruct n; reflexivity.
Qed.
Lemma nth_error_lt {A} (l : list A) i x : nth_error l i = Some x -> i < length l.
Proof. intros E. apply nth_error_Some. congruence. Qed.

Lemma nth_error_ext {A} (l m : list A) : (forall i, nth_error l i = nth_error m i) -> l = m.
Proof.
  revert m. induction l as [|x l IH]; intros [|y m] E; auto; try (specialize (E 0); discriminate).
  f_equal; [specialize (E 0); cbn in E; congruence|]. apply IH. intros i. apply (E (S i)).
Qed.

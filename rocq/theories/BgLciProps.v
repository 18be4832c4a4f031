(** Properties C34, C66 and C67: the background LCI computation (model: BgLciModel.v). *)
From Verif Require Import Num Base ProcModel BgModel BgProofs BgProofs2 BgProofs3 BgProofs4 BgProofs5 BgProps BgProps2 BgLciModel.
From Coq Require Import Permutation Lqa.
Open Scope Qc_scope.
Open Scope list_scope.

(** * Specification: the Neumann series *)
Fixpoint powv (A : list trip) (k : nat) (d : vec) : vec := match k with O => d | S k => mulv A (powv A k d) end.
Definition neumann (A : list trip) (d : vec) (k : nat) : vec := fun i => Qcsum (map (fun j => powv A j d i) (seq 0 k)).
Definition incsum (n : nat) (A : list trip) (d : vec) (k : nat) : Qc := Qcsum (map (fun j => norm1 n (powv A (S j) d)) (seq 0 k)).

Lemma mulv_ext A x y i : (forall j, x j = y j) -> mulv A x i = mulv A y i.
Proof. intros E. unfold mulv. apply Qcsum_ext. intros e _. rewrite E. reflexivity. Qed.
Lemma mulv_add A x y i : mulv A (vadd x y) i = mulv A x i + mulv A y i.
Proof. unfold mulv. rewrite <- Qcsum_map_add. apply Qcsum_ext. intros e _. unfold vadd. destruct (Nat.eqb _ _); ring. Qed.
Lemma mulv_zero A i : mulv A vzero i = 0.
Proof. unfold mulv. apply Qcsum_zero. intros e _. unfold vzero. destruct (Nat.eqb _ _); ring. Qed.
Lemma neumann_S A d k i : neumann A d (S k) i = neumann A d k i + powv A k d i.
Proof. unfold neumann. rewrite seq_S, map_app, Qcsum_app. cbn [map plus]. rewrite Qcsum_cons, Qcsum_nil. ring. Qed.
Lemma mulv_neumann A d k i : mulv A (neumann A d k) i = neumann A d (S k) i - d i.
Proof.
  revert i. induction k as [|k IH]; intros i.
  - rewrite (mulv_ext A _ vzero) by reflexivity. rewrite mulv_zero, neumann_S. unfold neumann. cbn. ring.
  - rewrite (mulv_ext A _ (vadd (neumann A d k) (powv A k d))) by (intros j; apply neumann_S). rewrite mulv_add, IH. rewrite (neumann_S A d (S k)). cbn [powv]. ring.
Qed.
Lemma norm1_ext n x y : (forall j, x j = y j) -> norm1 n x = norm1 n y.
Proof. intros E. unfold norm1. apply Qcsum_ext. intros j _. rewrite E. reflexivity. Qed.
Lemma powv_ext A k x y : (forall j, x j = y j) -> forall i, powv A k x i = powv A k y i.
Proof. intros E. induction k as [|k IH]; intros i; cbn; auto. apply mulv_ext; auto. Qed.

Lemma bg_loop_spec n A thr d : forall c k x total sumt,
  (forall i, x i = powv A k d i) -> (forall i, total i = neumann A d k i) -> sumt = incsum n A d k ->
  exists m, (k <= m <= k + c)%nat /\ ((0 < c)%nat -> (k < m)%nat) /\ (forall i, bg_loop c n A thr x total sumt i = neumann A d m i)
    /\ (norm1 n (powv A m d) = 0 \/ norm1 n (powv A m d) / incsum n A d m < thr \/ m = (k + c)%nat)
    /\ ((0 < c)%nat -> norm1 n (powv A m d) = 0 \/ norm1 n (powv A m d) / incsum n A d m < thr \/ m = (k + c)%nat)
    /\ (forall j, (k < j < m)%nat -> norm1 n (powv A j d) <> 0 /\ ~ norm1 n (powv A j d) / incsum n A d j < thr).
Proof.
  induction c as [|c IH]; intros k x total sumt EX ET ES; cbn [bg_loop].
  - exists k. split; [lia|]. split; [lia|]. split; [exact ET|]. split; [right; right; lia|]. split; [intros; lia|intros; lia].
  - set (total' := vadd total x). set (x' := mulv A x).
    assert (EX' : forall i, x' i = powv A (S k) d i) by (intros i; cbn [powv]; apply mulv_ext; exact EX).
    assert (ET' : forall i, total' i = neumann A d (S k) i) by (intros i; unfold total', vadd; rewrite ET, EX, neumann_S; reflexivity).
    assert (EN : norm1 n x' = norm1 n (powv A (S k) d)) by (apply norm1_ext; exact EX').
    assert (ES' : sumt + norm1 n x' = incsum n A d (S k)).
    { unfold incsum. rewrite seq_S, map_app, Qcsum_app. cbn [map plus]. rewrite Qcsum_cons, Qcsum_nil, ES, EN. unfold incsum. ring. }
    destruct (Qc_eqb_spec (norm1 n x') 0) as [Z|NZ].
    + exists (S k). split; [lia|]. split; [lia|]. split; [exact ET'|]. rewrite <- EN. split; [auto|]. split; [auto|intros; lia].
    + destruct (Qclt_le_dec (norm1 n x' / (sumt + norm1 n x')) thr) as [LT|GE].
      * exists (S k). split; [lia|]. split; [lia|]. split; [exact ET'|]. rewrite <- EN, <- ES'. split; [auto|]. split; [auto|intros; lia].
      * destruct (IH (S k) x' total' _ EX' ET' ES') as [m [M1 [M2 [M3 [M4 [M5 M6]]]]]]. exists m. split; [lia|]. split; [lia|]. split; [exact M3|].
        replace (k + S c)%nat with (S k + c)%nat by lia. split; [exact M4|]. split; [intros _; exact M4|]. intros j J.
        destruct (Nat.eq_dec j (S k)) as [->|NE]; [|apply M6; lia]. rewrite <- EN, <- ES'. split; auto. intros LT. apply (Qcle_not_lt _ _ GE); exact LT.
Qed.

(** * C34 *)
(** For every matrix, demand, threshold and iteration limit: the result is the partial Neumann sum with [k] terms; its residual is
    exactly [A^k d]; and [k] is the first index at which the exact or the relative stop applies, or the limit. *)
Theorem C34_neumann n A B d thr count : exists k total b,
  compute_bg_lci (Some (n, A)) B d thr count = (total, Some b)
  /\ (k <= count)%nat /\ ((0 < count)%nat -> (0 < k)%nat)
  /\ (forall i, total i = neumann A d k i)
  /\ (forall i, total i - mulv A total i = d i - powv A k d i)
  /\ (forall i, b i = mulv B total i)
  /\ (norm1 n (powv A k d) = 0 \/ norm1 n (powv A k d) / incsum n A d k < thr \/ k = count)
  /\ (forall j, (0 < j < k)%nat -> norm1 n (powv A j d) <> 0 /\ ~ norm1 n (powv A j d) / incsum n A d j < thr).
Proof.
  destruct (bg_loop_spec n A thr d count 0 d vzero 0) as [k [M1 [M2 [M3 [M4 [_ M6]]]]]]; [reflexivity|reflexivity|reflexivity|].
  exists k. eexists. eexists. split; [reflexivity|]. split; [lia|]. split; [exact M2|]. split; [exact M3|]. split; [|split; [reflexivity|split; [exact M4|exact M6]]].
  intros i. rewrite M3, (mulv_ext A _ (neumann A d k)) by exact M3. rewrite mulv_neumann, neumann_S. ring.
Qed.
Print Assumptions C34_neumann.
Lemma Qcsum_nonneg {A} (f : A -> Qc) l : (forall x, In x l -> 0 <= f x) -> 0 <= Qcsum (map f l) /\ (Qcsum (map f l) = 0 -> forall x, In x l -> f x = 0).
Proof.
  induction l as [|a l IH]; intros N; cbn [map]; [split; [apply Qcle_refl|intros _ x []]|]. rewrite Qcsum_cons.
  destruct (IH (fun x h => N x (or_intror h))) as [I1 I2]. pose proof (N a (or_introl eq_refl)) as NA. split.
  - rewrite <- (Qcplus_0_l 0). apply Qcplus_le_compat; auto.
  - intros Z. assert (FA : f a = 0).
    { apply Qcle_antisym; auto. rewrite <- Z. rewrite <- (Qcplus_0_r (f a)) at 1. apply Qcplus_le_compat; [apply Qcle_refl|exact I1]. }
    intros x [<-|J]; auto. apply I2; auto. rewrite FA, Qcplus_0_l in Z. exact Z.
Qed.
(** an exact stop solves the system x = d + A x (rows of A below its dimension) *)
Theorem C34_exact_stop n A B d thr count total b k :
  (forall e, In e A -> (fst (fst e) < n)%nat) -> compute_bg_lci (Some (n, A)) B d thr count = (total, Some b) ->
  (forall i, total i = neumann A d k i) -> (0 < k)%nat -> norm1 n (powv A k d) = 0 -> forall i, total i = d i + mulv A total i.
Proof.
  intros RN _ T K Z i. assert (P : powv A k d i = 0).
  { destruct (Nat.lt_ge_cases i n) as [LT|GE].
    - destruct (Qcsum_nonneg (fun j => Qcabs (powv A k d j)) (seq 0 n)) as [_ H]; [intros; apply Qcabs_nonneg|]. specialize (H Z i).
      rewrite in_seq in H. assert (HZ : Qcabs (powv A k d i) = 0) by (apply H; lia). apply Qcle_antisym.
      + eapply Qcle_trans; [apply Qcle_Qcabs|]. rewrite HZ. apply Qcle_refl.
      + assert (HN : - powv A k d i <= 0) by (eapply Qcle_trans; [apply Qcle_Qcabs|]; rewrite Qcabs_opp, HZ; apply Qcle_refl).
        apply Qcopp_le_compat in HN. rewrite Qcopp_involutive in HN. exact HN.
    - destruct k as [|k]; [lia|]. cbn [powv]. unfold mulv. apply Qcsum_zero. intros e J. destruct (Nat.eqb_spec (fst (fst e)) i) as [E|]; auto.
      pose proof (RN e J). lia. }
  rewrite (mulv_ext A _ (neumann A d k)) by exact T. rewrite mulv_neumann, T, neumann_S, P. ring.
Qed.
Print Assumptions C34_exact_stop.

(** a demand of one unit of product 0, which needs two units of product 1: the loop stops exactly after two terms *)
Example C34_example : exists total b, compute_bg_lci (Some (2%nat, [(1%nat, 0%nat, Q2Qc 2)])) [(0%nat, 1%nat, Q2Qc 3)] (unit_demand 0) (Q2Qc (1 # 100)) 100 = (total, Some b)
  /\ total 0%nat = 1 /\ total 1%nat = Q2Qc 2 /\ b 0%nat = Q2Qc 6 /\ norm1 2 (powv [(1%nat, 0%nat, Q2Qc 2)] 2 (unit_demand 0)) = 0
  /\ (forall i, total i = neumann [(1%nat, 0%nat, Q2Qc 2)] (unit_demand 0) 2 i).
Proof.
  eexists _, _. split; [reflexivity|]. split; [apply Qc_is_canon; vm_compute; reflexivity|]. split; [apply Qc_is_canon; vm_compute; reflexivity|].
  split; [apply Qc_is_canon; vm_compute; reflexivity|]. split; [apply Qc_is_canon; vm_compute; reflexivity|].
  intros [|[|i]]; apply Qc_is_canon; vm_compute; reflexivity.
Qed.

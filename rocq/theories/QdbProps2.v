(** C74: where the factor of a flow comes from. *)
From Verif Require Import Num Base PyStr FlowModel FlowProps FlowProps2 QdbModel QdbProps.
Open Scope Qc_scope.
Open Scope string_scope.
Open Scope list_scope.
Local Arguments eqb : simpl never.

(** Specification.  [c'] is a place where a factor for compartment [c] may be taken from: [c] itself; else, if nothing is
    stored there, one of its subcompartments; else, if nothing is stored there either, its parent. *)
Definition place (D : db) (f q c c' : nat) : Prop :=
  c' = c \/
  (db_fq D f q c = [] /\ In c' (db_subs D c)) \/
  (db_fq D f q c = [] /\ (forall s, In s (db_subs D c) -> db_fq D f q s = []) /\ db_parent D c = Some c').

(** [k] converts the factor [y] to the flow's reference quantity [rq]: 1 when it is given in it; else the flow's own
    characterization of the factor's reference quantity; else one found in the database. *)
Definition conversion (D : db) (inds : list nat) (c rq : nat) (loc : string) (f : flow) (y : cfac) (k : Qc) : Prop :=
  let yq := db_qidx D (q_uuid (cf_ref y)) in
  (yq = rq /\ k = 1) \/
  (yq <> rq /\ conversion_from_flow D f yq = Some k) \/
  (yq <> rq /\ conversion_from_flow D f yq = None /\ lookfor D inds c yq rq loc = QOk (Some k)).
Definition inconvertible (D : db) (inds : list nat) (c rq : nat) (loc : string) (f : flow) (y : cfac) : Prop :=
  let yq := db_qidx D (q_uuid (cf_ref y)) in yq <> rq /\ conversion_from_flow D f yq = None /\ lookfor D inds c yq rq loc = QOk None.

Lemma convert_values_keep D inds c rq loc cfs : forall f v0 vals bad f' r,
  convert_values D inds c rq loc cfs f (v0 :: vals) bad = (f', QOk r) -> exists r', r = v0 :: r'.
Proof.
  induction cfs as [|y cfs IH]; intros f v0 vals bad f' r E; cbn [convert_values] in E.
  - injection E as _ <-. eauto.
  - destruct (eqb _ rq); [eapply IH; exact E|]. destruct (conversion_from_flow D f _); [eapply IH; exact E|].
    destruct (lookfor D inds c _ rq loc) as [[k|]|e]; [|eapply IH; exact E|discriminate].
    destruct (add_characterization _ _ _ _ _ _ f) as [f1 [e|]]; [discriminate|eapply IH; exact E].
Qed.
Lemma convert_values_first D inds c rq loc cfs : forall f bad f' v r,
  convert_values D inds c rq loc cfs f [] bad = (f', QOk (v :: r)) ->
  exists l1 y l2 k, cfs = l1 ++ y :: l2 /\ Forall (inconvertible D inds c rq loc f) l1 /\ conversion D inds c rq loc f y k /\ v = cf_at loc y * k.
Proof.
  induction cfs as [|y cfs IH]; intros f bad f' v r E; cbn [convert_values] in E.
  - destruct bad; discriminate.
  - destruct (eqb_spec (db_qidx D (q_uuid (cf_ref y))) rq) as [EQ|NE].
    + apply convert_values_keep in E as [r' E]. injection E as -> _. exists [], y, cfs, 1. repeat split; [constructor|left; auto|ring].
    + destruct (conversion_from_flow D f (db_qidx D (q_uuid (cf_ref y)))) as [k|] eqn:CF.
      * apply convert_values_keep in E as [r' E]. injection E as -> _. exists [], y, cfs, k. repeat split; [constructor|]. right; left; auto.
      * destruct (lookfor D inds c _ rq loc) as [[k|]|e] eqn:LF; [| |discriminate].
        -- destruct (add_characterization _ _ _ _ _ _ f) as [f1 [e|]]; [discriminate|]. apply convert_values_keep in E as [r' E]. injection E as -> _.
           exists [], y, cfs, k. repeat split; [constructor|]. right; right; auto.
        -- apply IH in E as (l1 & y' & l2 & k & -> & F & C & V). exists (y :: l1), y', l2, k. repeat split; auto. constructor; [|exact F].
           repeat split; auto.
Qed.

Lemma In_cf_union y m : forall l, In y (cf_union l m) -> In y l \/ In y m.
Proof.
  unfold cf_union. induction m as [|z m IH]; intros l J; [auto|]. cbn in J. apply IH in J as [J|J]; [|right; right; exact J].
  unfold cf_add in J. destruct (cf_mem z l); [auto|]. apply in_app_iff in J as [J|[<-|[]]]; auto. right; left; reflexivity.
Qed.
Lemma cf_union_nil l m : cf_union l m = [] -> l = [] /\ m = [].
Proof.
  unfold cf_union. revert l. induction m as [|z m IH]; intros l E; [auto|]. cbn in E. apply IH in E as [E _]. exfalso. unfold cf_add in E.
  destruct (cf_mem z l) eqn:M; [|destruct l; discriminate]. subst. discriminate M.
Qed.
Lemma fold_union_In (g : nat -> list cfac) y inds : forall acc, In y (fold_left (fun acc f => cf_union acc (g f)) inds acc) -> In y acc \/ exists f, In f inds /\ In y (g f).
Proof.
  induction inds as [|f inds IH]; intros acc J; [auto|]. cbn in J. apply IH in J as [J|(f' & I' & J)].
  - apply In_cf_union in J as [J|J]; [auto|]. right. exists f. split; [left; reflexivity|exact J].
  - right. exists f'. split; [right; exact I'|exact J].
Qed.
Lemma fold_union_nil (g : nat -> list cfac) inds : forall acc, fold_left (fun acc f => cf_union acc (g f)) inds acc = [] -> acc = [] /\ forall f, In f inds -> g f = [].
Proof.
  induction inds as [|f inds IH]; intros acc E; [split; [exact E|intros f []]|]. cbn in E. apply IH in E as [E H]. apply cf_union_nil in E as [-> E].
  split; [reflexivity|]. intros f' [<-|J]; auto.
Qed.
Lemma find2_place D f q c y : In y (find2 D (db_fq D f q) c) -> exists c', place D f q c c' /\ In y (db_fq D f q c').
Proof.
  unfold find2. destruct (db_fq D f q c) as [|z l] eqn:L.
  - destruct (fold_left (fun acc s => cf_union acc (db_fq D f q s)) (db_subs D c) []) as [|z l] eqn:R.
    + destruct (db_parent D c) as [p|] eqn:P; [|intros []]. intros J. exists p. split; [|exact J]. right; right. split; [exact L|]. split; [|exact P].
      intros s Js. apply (proj2 (fold_union_nil _ _ _ R)); exact Js.
    + rewrite <- R. intros J. apply fold_union_In in J as [[]|(s & Js & J)]. exists s. split; [|exact J]. right; left. auto.
  - intros J. exists c. split; [left; reflexivity|]. rewrite L. exact J.
Qed.
Lemma find2_nil D f q c : find2 D (db_fq D f q) c = [] -> forall c', place D f q c c' -> db_fq D f q c' = [].
Proof.
  unfold find2. destruct (db_fq D f q c) as [|z l] eqn:L; [|discriminate].
  destruct (fold_left (fun acc s => cf_union acc (db_fq D f q s)) (db_subs D c) []) as [|z l] eqn:R; [|discriminate].
  intros E c' [->|[[_ J]|(_ & _ & P)]]; [exact L| |].
  - apply (proj2 (fold_union_nil _ _ _ R)); exact J.
  - rewrite P in E. exact E.
Qed.

(** The database iterates over a set in some order. *)
Definition orders (D : db) : Prop := forall l, Permutation (db_ord D l) l.

(** A factor is 1 between a quantity and itself, 0 for quelled carbon dioxide, and otherwise the value of a factor stored
    for one of the flow's flowables at the nearest place, converted to the flow's reference quantity. *)
Lemma provenance_lemma D q loc quell x x' v : orders D -> convert D q loc quell x = (x', QOk (Some v)) ->
  exists r, f_ref (qf_flow x) = Some r /\ let rq := db_qidx D (q_uuid r) in
  (rq = q /\ v = 1) \/
  (rq <> q /\ exists c, qf_comp x = Some c /\
     ((quelled D quell x c = true /\ v = 0) \/
      (quelled D quell x c = false /\ exists f c' y k, In f (qf_inds x) /\ place D f q c c' /\ In y (db_fq D f q c') /\
         conversion D (qf_inds x) c rq loc (qf_flow x) y k /\ v = cf_at loc y * k))).
Proof.
  intros O. unfold convert. destruct (f_ref (qf_flow x)) as [r|]; [|discriminate]. intros E. exists r. split; [reflexivity|]. cbn zeta.
  destruct (eqb_spec (db_qidx D (q_uuid r)) q) as [EQ|NE]; [left; split; [exact EQ|congruence]|]. right. split; [exact NE|].
  destruct (qf_comp x) as [c|]; [|discriminate]. exists c. split; [reflexivity|].
  destruct (quelled D quell x c); [left; split; [reflexivity|congruence]|]. right. split; [reflexivity|].
  destruct (convert_values D (qf_inds x) c _ loc _ (qf_flow x) [] false) as [f' [[|v' l]|e]] eqn:CV; try discriminate.
  assert (v' = v) by congruence. subst v'. apply convert_values_first in CV as (l1 & y & l2 & k & L & _ & C & V).
  assert (J : In y (lookup_cfs D (qf_inds x) c q)) by (rewrite L; apply in_app_iff; right; left; reflexivity).
  unfold lookup_cfs in J. apply (Permutation_in _ (O _)) in J. apply fold_union_In in J as [[]|(f & Jf & J)].
  apply (Permutation_in _ (O _)) in J. apply find2_place in J as (c' & P & J). exists f, c', y, k. auto 6.
Qed.

(** No factor is returned only when the flow has no reference quantity or no factor is stored at any place for any of its
    flowables; a conversion that cannot be made raises. *)
Theorem C74_no_factor D q loc quell x x' : orders D -> convert D q loc quell x = (x', QOk None) ->
  f_ref (qf_flow x) = None \/
  exists c, qf_comp x = Some c /\ forall f c', In f (qf_inds x) -> place D f q c c' -> db_fq D f q c' = [].
Proof.
  intros O. unfold convert. destruct (f_ref (qf_flow x)) as [r|]; [|auto]. intros E. right.
  destruct (eqb (db_qidx D (q_uuid r)) q); [discriminate|]. destruct (qf_comp x) as [c|]; [|discriminate]. exists c. split; [reflexivity|].
  destruct (quelled D quell x c); [discriminate|].
  destruct (convert_values D (qf_inds x) c _ loc _ (qf_flow x) [] false) as [f' [[|v' l]|e]] eqn:CV; try discriminate.
  assert (N : lookup_cfs D (qf_inds x) c q = []).
  { clear E. revert CV. generalize (qf_flow x) as f. generalize false as bad. generalize (lookup_cfs D (qf_inds x) c q).
    induction l as [|y l IH]; intros bad f CV; [reflexivity|]. exfalso. cbn [convert_values] in CV.
    destruct (eqb _ _); [apply convert_values_keep in CV as [? CV]; discriminate|].
    destruct (conversion_from_flow _ _ _); [apply convert_values_keep in CV as [? CV]; discriminate|].
    destruct (lookfor _ _ _ _ _ _) as [[k|]|e]; [| |discriminate].
    - destruct (add_characterization _ _ _ _ _ _ f) as [f1 [e|]]; [discriminate|]. apply convert_values_keep in CV as [? CV]; discriminate.
    - assert (G : forall l f r, convert_values D (qf_inds x) c (db_qidx D (q_uuid r)) loc l f [] true <> (f', QOk [])).
      { clear. induction l as [|y l IH]; intros f r CV; [discriminate|]. cbn [convert_values] in CV.
        destruct (eqb _ _); [apply convert_values_keep in CV as [? CV]; discriminate|].
        destruct (conversion_from_flow _ _ _); [apply convert_values_keep in CV as [? CV]; discriminate|].
        destruct (lookfor _ _ _ _ _ _) as [[k|]|e]; [| |discriminate].
        - destruct (add_characterization _ _ _ _ _ _ f) as [f1 [e|]]; [discriminate|]. apply convert_values_keep in CV as [? CV]; discriminate.
        - apply IH in CV. exact CV. }
      apply G in CV. exact CV. }
  unfold lookup_cfs in N. pose proof (O (fold_left (fun acc f => cf_union acc (db_ord D (find2 D (db_fq D f q) c))) (qf_inds x) [])) as P.
  rewrite N in P. apply Permutation_nil in P. apply fold_union_nil in P as [_ P]. intros f c' J. specialize (P f J).
  pose proof (O (find2 D (db_fq D f q) c)) as P2. rewrite P in P2. apply Permutation_nil in P2. apply find2_nil. exact P2.
Qed.
Print Assumptions C74_no_factor.

Example C74_example : orders exdb /\ exists x' v, convert exdb 2 "US" None in_m3 = (x', QOk (Some v)).
Proof. split; [intros l; apply Permutation_refl|]. eexists _, _. vm_compute. reflexivity. Qed.

(** When several factors apply, the answer depends on the order in which the set is iterated. *)
Theorem C74_deterministic_refuted : exists D D' x v v',
  orders D /\ orders D' /\ (forall f q c, db_fq D f q c = db_fq D' f q c) /\
  snd (convert D 1 "GLO" None x) = QOk (Some v) /\ snd (convert D' 1 "GLO" None x) = QOk (Some v') /\ v <> v'.
Proof.
  set (mk := fun ord => DB (fun f q c => if (q =? 1)%nat && (c =? 1)%nat then (if (f =? 0)%nat then [CFac "a" kg [("GLO", Q2Qc 2)]]
      else [CFac "b" kg [("GLO", Q2Qc 3)]]) else []) (fun _ => None) (fun _ => []) (fun _ => [])
      (fun u => if eqb u "kg" then 10%nat else 1%nat) ord 77%nat (fun _ => true) (fun _ => false) false).
  exists (mk (fun l => l)), (mk (@rev cfac)), (QFlow [0%nat; 1%nat] (Some 1%nat) false (new_flow (Some kg) true)), (Q2Qc 2), (Q2Qc 3).
  split; [intros l; apply Permutation_refl|]. split; [intros l; apply Permutation_sym, Permutation_rev|]. split; [reflexivity|].
  split; [reflexivity|]. split; [reflexivity|]. intros E. apply (f_equal this) in E. vm_compute in E. discriminate.
Qed.
Print Assumptions C74_deterministic_refuted.

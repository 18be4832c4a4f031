(** C95: the fragments made from a foreground (model: ForestModel.v). *)
From Verif Require Import Num Base PyStr ProcModel ForestModel ForestProofs.
Open Scope nat_scope.
Open Scope list_scope.
Local Arguments eqb : simpl never.

(** * Specification *)
(** a process is mentioned by the exchanges [xs] of the foreground of [p] *)
Definition mentioned (p : nat) (xs : list xch) (q : nat) : Prop := q = p \/ exists x, In x xs /\ (x_proc x = q \/ x_term x = q).
(** a valid archive: numbers below [n] used once, parents and terminations exist *)
Definition archive (h : fheap) (n : nat) : Prop := NoDup (dkeys h) /\ forall i f, dget i h = Some f -> i < n /\ (forall p, g_parent f = Some p -> p < n) /\ (forall j, g_term f = ToFrag j -> dget j h <> None).
(** a child as its parent's owner sees it: flow, direction, value, the process it ends in, and whether as a background *)
Definition child_of (h : fheap) (i : nat) : list (nat * dirn * Qc * option (nat * bool)) := map (fun e => (g_flow (snd e), g_dir (snd e), g_val (snd e), target h (snd e))) (filter (fun e => eqb (g_parent (snd e)) (Some i)) h).
Definition in_use (p : nat) (dn : list xch) (q : nat) : Prop := q = p \/ In q (map x_term dn).
(** the forest of the exchanges [dn] from process [p]: fragments of [h] stay; every process in use has exactly one fragment; its children are its dependencies (through the background) and its exchanges;
    it hangs at the one exchange that uses it, or is on its own if there are several (or it is the top); and there is nothing else *)
Record forest (deps : nat -> nat -> list xch) (h h' : fheap) (p top : nat) (dn : list xch) : Prop := {
  fo_old : forall j f, dget j h = Some f -> dget j h' = Some f;
  fo_one : forall q, in_use p dn q -> exists i f, dget i h' = Some f /\ g_term f = ToProc q /\ (forall j g, dget j h' = Some g -> g_term g = ToProc q -> j = i) /\ (q = p -> i = top) /\ g_bg f = false /\
     Permutation (child_of h' i) (map (fun x => (x_flow x, x_dir x, x_val x, Some (x_term x, true))) (deps q (g_flow f)) ++ map (fun x => (x_flow x, x_dir x, x_val x, Some (x_term x, false))) (filter (fun x => Nat.eqb (x_proc x) q) dn)) /\
     match g_parent f with
     | None => q = p \/ 2 <= length (filter (fun x => Nat.eqb (x_term x) q) dn)
     | Some k => q <> p /\ exists x g, filter (fun x => Nat.eqb (x_term x) q) dn = [x] /\ dget k h' = Some g /\ g_term g = ToProc (x_proc x)
     end;
  fo_only : forall j f, dget j h' = Some f -> dget j h = Some f \/ (exists q, in_use p dn q /\ g_term f = ToProc q) \/
     (g_bg f = false /\ exists i g q k, g_term f = ToFrag k /\ g_parent f = Some i /\ dget i h' = Some g /\ g_term g = ToProc q /\ in_use p dn q) \/
     (g_bg f = true /\ g_parent f = None /\ exists q, g_term f = ToProc q /\ ~ in_use p dn q) }.

(** * C95 *)
Theorem C95_create_forest_partial deps h n p flow d v xs h' top rest :
  archive h n -> (forall j f q, dget j h = Some f -> g_term f = ToProc q -> ~ mentioned p xs q) -> (forall q fl x, In x (deps q fl) -> ~ mentioned p xs (x_term x)) -> NoDup (map (fun x => (x_proc x, x_flow x, x_dir x, x_term x)) xs) ->
  create_forest deps h n p flow d v xs = (h', top, rest) ->
  exists dn, Permutation xs (dn ++ rest) /\ forest deps h h' p top dn /\ dget top h' = Some (Fg None flow (flip d) v false (ToProc p)) /\
    (forall x k, In x rest -> k <= 10 -> ~ within p xs k (x_proc x)).
Proof.
  intros [ND A] DJ DD NK E. assert (SD : sound h n) by (split; [exact ND|]; intros i f H; destruct (A i f H) as (L & P & _); auto).
  assert (CL : forall j f, dget j h = Some f -> closed h f) by (intros j f H; exact (proj2 (proj2 (A j f H)))).
  assert (DJ' : forall j f q, dget j h = Some f -> fg p xs q -> g_term f <> ToProc q) by (intros j f q H Q T; exact (DJ j f q H T Q)).
  destruct (forest_run deps h n p xs SD CL DJ' DD flow d v h' top rest NK E) as (-> & s & dn & <- & V & T0 & PM & R & _ & TOP). exists dn. split; [exact PM|]. split; [|auto].
  assert (UF : forall q, in_use p dn q -> fg p xs q).
  { intros q [->|I]; [left; reflexivity|]. apply in_map_iff in I as (x & <- & I). right. exists x. split; [exact (i_us _ _ _ _ _ _ _ _ V x I)|auto]. }
  assert (UT : forall q, in_use p dn q -> exists i, dget q (s_tm s) = Some i).
  { intros q [->|I]; [eauto|]. apply in_map_iff in I as (x & <- & I). assert (X := i_ut _ _ _ _ _ _ _ _ V x I). destruct (dget (x_term x) (s_tm s)); [eauto|contradiction]. }
  assert (TU : forall q i, fg p xs q -> dget q (s_tm s) = Some i -> in_use p dn q).
  { intros q i Q T. destruct (i_tm _ _ _ _ _ _ _ _ V q i Q T) as [_ (f & _ & _ & _ & _ & _ & _ & PL)]. destruct (Nat.eq_dec q p) as [->|N]; [left; reflexivity|]. specialize (PL N). right.
    destruct (uses q dn) as [|x t] eqn:U; [destruct PL|]. assert (I : In x (uses q dn)) by (rewrite U; left; reflexivity). apply filter_In in I as [I EQ]. apply Nat.eqb_eq in EQ. apply in_map_iff. eauto. }
  split.
  - exact (i_old _ _ _ _ _ _ _ _ V).
  - intros q U. destruct (UT q U) as [i T]. destruct (i_tm _ _ _ _ _ _ _ _ V q i (UF q U) T) as [_ (f & D & LI & TF & BF & PV & PL)]. exists i, f. split; [exact D|]. split; [exact TF|]. split; [|split; [intros ->; congruence|split; [exact BF|split; [exact PV|]]]].
    + intros j g DG TG. destruct (i_orig _ _ _ _ _ _ _ _ V j g DG) as [O|[_ [(q' & Q' & T')|[(q' & k & m & _ & _ & _ & _ & TM)|(_ & _ & q' & TM & NQ)]]]].
      * destruct (DJ' j g q O (UF q U) TG). * destruct (i_tm _ _ _ _ _ _ _ _ V q' j Q' T') as [_ (g' & D' & _ & T2 & _)]. assert (q' = q) by congruence. subst q'. congruence.
      * congruence. * rewrite TM in TG. injection TG as ->. destruct (NQ (UF q U)).
    + destruct PL as [P1 P2]. destruct (Nat.eq_dec q p) as [->|N]; [rewrite (P1 eq_refl); left; reflexivity|]. specialize (P2 N). unfold uses in P2. destruct (filter (fun x => Nat.eqb (x_term x) q) dn) as [|x [|y t]] eqn:F; [destruct P2| |rewrite P2; right; cbn; lia].
      destruct P2 as (k & TK & ->). split; [exact N|]. exists x. assert (I : In x dn) by (assert (J : In x (filter (fun x => Nat.eqb (x_term x) q) dn)) by (rewrite F; left; reflexivity); apply filter_In in J as [J _]; exact J).
      destruct (i_tm _ _ _ _ _ _ _ _ V (x_proc x) k) as [_ (g & DG & _ & TG & _)]; [right; exists x; split; [exact (i_us _ _ _ _ _ _ _ _ V x I)|auto]|exact TK|]. eauto.
  - intros j f D. destruct (i_orig _ _ _ _ _ _ _ _ V j f D) as [O|[_ [(q & Q & T)|[(q & i & k & Q & T & P & B & TM)|(P & B & q & TM & NQ)]]]].
    + left. exact O.
    + right. left. exists q. split; [exact (TU q j Q T)|]. destruct (i_tm _ _ _ _ _ _ _ _ V q j Q T) as [_ (f' & D' & _ & TF & _)]. congruence.
    + right. right. left. split; [exact B|]. destruct (i_tm _ _ _ _ _ _ _ _ V q i Q T) as [_ (g & DG & _ & TG & _)]. exists i, g, q, k. split; [exact TM|]. split; [exact P|]. split; [exact DG|]. split; [exact TG|exact (TU q i Q T)].
    + right. right. right. split; [exact B|]. split; [exact P|]. exists q. split; [exact TM|]. intros U. exact (NQ (UF q U)).
Qed.

(** everything is done when every process is at most ten exchanges away from the top, whatever the order of the exchanges *)
Theorem C95_all_done_near_partial deps h n p flow d v xs h' top rest :
  archive h n -> (forall j f q, dget j h = Some f -> g_term f = ToProc q -> ~ mentioned p xs q) -> (forall q fl x, In x (deps q fl) -> ~ mentioned p xs (x_term x)) -> NoDup (map (fun x => (x_proc x, x_flow x, x_dir x, x_term x)) xs) ->
  create_forest deps h n p flow d v xs = (h', top, rest) -> (forall x, In x xs -> exists k, k <= 10 /\ within p xs k (x_proc x)) ->
  rest = [] /\ exists dn, Permutation xs dn /\ forest deps h h' p top dn.
Proof.
  intros A DJ DD NK E W. destruct (C95_create_forest_partial deps h n p flow d v xs h' top rest A DJ DD NK E) as (dn & PM & F & _ & R). assert (rest = []) as ->.
  { destruct rest as [|x r]; [reflexivity|]. exfalso. destruct (W x) as (k & L & H); [apply (Permutation_in _ (Permutation_sym PM)); apply in_app_iff; right; left; reflexivity|]. exact (R x k (or_introl eq_refl) L H). }
  split; [reflexivity|]. exists dn. rewrite app_nil_r in PM. auto.
Qed.
(** and also when every exchange comes after one that uses its process, at any distance *)
Theorem C95_all_done_in_order_partial deps h n p flow d v xs h' top rest :
  archive h n -> (forall j f q, dget j h = Some f -> g_term f = ToProc q -> ~ mentioned p xs q) -> (forall q fl x, In x (deps q fl) -> ~ mentioned p xs (x_term x)) -> NoDup (map (fun x => (x_proc x, x_flow x, x_dir x, x_term x)) xs) ->
  create_forest deps h n p flow d v xs = (h', top, rest) -> (forall l x l', xs = l ++ x :: l' -> x_proc x = p \/ In (x_proc x) (map x_term l)) ->
  rest = [] /\ exists dn, Permutation xs dn /\ forest deps h h' p top dn.
Proof.
  intros A DJ DD NK E O. destruct (C95_create_forest_partial deps h n p flow d v xs h' top rest A DJ DD NK E) as (dn & PM & F & _ & R).
  assert (OR : ordered [p] xs).
  { assert (G : forall l2 l1 seen, (forall l x l', l1 ++ l2 = l ++ x :: l' -> x_proc x = p \/ In (x_proc x) (map x_term l)) -> (forall q, q = p \/ In q (map x_term l1) -> In q seen) -> ordered seen l2).
    { induction l2 as [|x l2 IH]; intros l1 seen H SN; constructor; [apply SN, (H l1 x l2 eq_refl)|]. apply (IH (l1 ++ [x])); [intros l y l' EQ; apply (H l y l'); rewrite <- app_assoc in EQ; exact EQ|].
      intros q [Q|Q]; [right; apply SN; left; exact Q|]. rewrite map_app in Q. apply in_app_iff in Q as [Q|[Q|[]]]; [right; apply SN; right; exact Q|left; exact Q]. }
    apply (G xs []); [exact O|]. intros q [->|[]]. left. reflexivity. }
  assert (rest = []) as ->.
  { destruct A as [ND A]. assert (SD : sound h n) by (split; [exact ND|]; intros i f H; destruct (A i f H) as (L & P & _); auto).
    assert (CL : forall j f, dget j h = Some f -> closed h f) by (intros j f H; exact (proj2 (proj2 (A j f H)))).
    destruct (forest_run deps h n p xs SD CL (fun j f q H Q T => DJ j f q H T Q) DD flow d v h' top rest NK E) as (_ & s & dn' & _ & _ & _ & _ & _ & X & _). exact (X OR). }
  split; [reflexivity|]. exists dn. rewrite app_nil_r in PM. auto.
Qed.
(** a process that already has a fragment is not built again *)
Theorem C95_already_there deps h n p flow d v xs : archive h n -> (exists j f, dget j h = Some f /\ g_term f = ToProc p) ->
  exists h' i f f', create_forest deps h n p flow d v xs = (h', i, []) /\ dget i h = Some f /\ g_term f = ToProc p /\ dget i h' = Some f' /\ g_term f' = ToProc p /\ g_parent f' = None /\ (g_parent f = None -> h' = h).
Proof.
  intros [ND A] (j & f & D & T). assert (G : forall l d0, (forall i, dget p d0 = Some i -> exists g, In (i, g) h /\ g_term g = ToProc p) -> (forall e, In e l -> In e h) -> (dget p d0 <> None \/ exists e, In e l /\ g_term (snd e) = ToProc p) ->
    exists i g, dget p (fold_left (fun d e => match g_term (snd e) with ToProc p => dset p (fst e) d | ToFrag _ => d end) l d0) = Some i /\ In (i, g) h /\ g_term g = ToProc p).
  { induction l as [|e l IH]; intros d0 B SUB C.
    - cbn. destruct C as [C|(e & [] & _)]. destruct (dget p d0) as [i|] eqn:DP; [|contradiction]. destruct (B i eq_refl) as (g & I & TG). eauto.
    - cbn [fold_left]. apply IH; [|intros e' I; apply SUB; right; exact I|].
      + intros i. destruct (g_term (snd e)) as [q|] eqn:TE; [|apply B]. rewrite dget_dset. destruct (eqb_spec p q) as [->|]; [|apply B]. intros [= <-]. exists (snd e). split; [destruct e; apply SUB; left; reflexivity|exact TE].
      + destruct C as [C|(e' & [->|I] & TE)]; [left|left|right; eauto].
        * destruct (g_term (snd e)) as [q|]; [|exact C]. rewrite dget_dset. destruct (eqb p q); [discriminate|exact C].
        * rewrite TE, dget_dset, eqb_refl. discriminate. }
  destruct (G h []) as (i & g & TM & IH & TG); [intros i X; discriminate X|intros e X; exact X|right; exists (j, f); split; [apply dget_In; exact D|exact T]|].
  fold (term_map h) in TM. unfold create_forest. rewrite TM. assert (DG := in_dget h i g ND IH). unfold split. cbn [s_h]. rewrite DG. destruct (g_parent g) as [pp|] eqn:P.
  - eexists _, i, g, _. split; [reflexivity|]. split; [exact DG|]. split; [exact TG|]. cbn [add s_h]. rewrite dget_app, dget_dset, eqb_refl. split; [reflexivity|]. cbn. split; [exact TG|]. split; [reflexivity|]. intros Y. exfalso. congruence.
  - eexists _, i, g, g. split; [reflexivity|]. cbn. auto 10.
Qed.

(** * Where the hypotheses cannot be dropped *)
Definition nodeps (q fl : nat) : list xch := [].
Definition one : Qc := Q2Qc 1.
(** a chain of twelve exchanges given from its far end: the last is abandoned *)
Definition chain (k : nat) : list xch := map (fun i => X i i Input one (S i)) (rev (seq 0 k)).
Theorem C95_long_chain_abandoned_refuted : exists h' top rest, create_forest nodeps [] 0 0 0 Output one (chain 12) = (h', top, rest) /\ rest = [X 11 11 Input one 12] /\ forall j f, dget j h' = Some f -> g_term f <> ToProc 12.
Proof.
  eexists _, _, _. split; [vm_compute; reflexivity|]. split; [reflexivity|]. intros j f D. apply dget_In in D. repeat (destruct D as [D|D]; [injection D as _ <-; discriminate|]). destruct D.
Qed.
(** a dependency that is also in the foreground hides the exchange: the foreground behind it is never built, though the exchanges are in order *)
Definition overlap (q fl : nat) : list xch := match q with O => [X 0 1 Input one 5] | _ => [] end.
Theorem C95_overlapping_dependency_refuted : exists h' top rest, create_forest overlap [] 0 0 0 Output one [X 0 1 Input one 5; X 5 2 Input one 6] = (h', top, rest) /\ rest = [X 5 2 Input one 6] /\ (forall j f, dget j h' = Some f -> g_term f = ToProc 5 -> g_bg f = true).
Proof.
  eexists _, _, _. split; [vm_compute; reflexivity|]. split; [reflexivity|]. intros j f D. apply dget_In in D. repeat (destruct D as [D|D]; [injection D as _ <-; cbn; intros E; first [reflexivity|discriminate E]|]). destruct D.
Qed.
(** of two exchanges with the same process, flow, direction and termination only the first is kept *)
Theorem C95_same_exchange_dropped_refuted : exists h' top, create_forest nodeps [] 0 0 0 Output one [X 0 1 Input one 5; X 0 1 Input (one + one)%Qc 5] = (h', top, []) /\ map (fun e => g_val (snd e)) (children top h') = [one].
Proof. eexists _, _. split; [vm_compute; reflexivity|]. vm_compute. reflexivity. Qed.

(** * The hypotheses of the theorems are met *)
(** an archive with a background fragment; the top has a dependency, two exchanges, one of them used twice, and a loop back *)
Definition ex_h : fheap := [(0, Fg None 7 Input one true (ToProc 70))].
Definition ex_deps (q fl : nat) : list xch := match q with 1 => [X 1 7 Input (one + one)%Qc 70; X 1 8 Input one 80] | _ => [] end.
Definition ex_xs : list xch := [X 3 5 Input one 1; X 1 2 Input one 2; X 2 3 Input (one + one)%Qc 3; X 1 3 Input one 3].
Example C95_met : archive ex_h 1 /\ (forall j f q, dget j ex_h = Some f -> g_term f = ToProc q -> ~ mentioned 1 ex_xs q) /\ (forall q fl x, In x (ex_deps q fl) -> ~ mentioned 1 ex_xs (x_term x)) /\ NoDup (map (fun x => (x_proc x, x_flow x, x_dir x, x_term x)) ex_xs) /\
  (forall x, In x ex_xs -> exists k, k <= 10 /\ within 1 ex_xs k (x_proc x)).
Proof.
  assert (M : forall q, 10 <= q -> ~ mentioned 1 ex_xs q).
  { intros q L [->|(x & I & E)]; [lia|]. repeat (destruct I as [<-|I]; [cbn in E; lia|]). destruct I. }
  split; [|split; [|split; [|split]]].
  - split; [repeat constructor; intros []|]. intros i f D. cbn in D. destruct (eqb_spec i 0) as [->|]; [|discriminate]. injection D as <-. cbn. split; [lia|]. split; discriminate.
  - intros j f q D T. cbn in D. destruct (eqb_spec j 0); [|discriminate]. injection D as <-. cbn in T. injection T as <-. apply M. lia.
  - intros q fl x I. unfold ex_deps in I. destruct q as [|[|q]]; [destruct I| |destruct I]. destruct I as [<-|[<-|[]]]; apply M; cbn; lia.
  - cbn. repeat constructor; cbn; intuition discriminate.
  - assert (W0 : within 1 ex_xs 0 1) by constructor. assert (W1 : within 1 ex_xs 1 3) by (apply (within_step 1 ex_xs 0 (X 1 3 Input one 3)); [cbn; auto 10|exact W0]). assert (W2 : within 1 ex_xs 1 2) by (apply (within_step 1 ex_xs 0 (X 1 2 Input one 2)); [cbn; auto 10|exact W0]).
    intros x I. repeat (destruct I as [<-|I]; [cbn [x_proc]; first [exists 0; split; [lia|exact W0]|exists 1; split; [lia|first [exact W1|exact W2]]]|]). destruct I.
Qed.
Example C95_run : let '(h', top, rest) := create_forest ex_deps ex_h 1 1 9 Output one ex_xs in rest = [] /\ top = 1 /\ length h' = 10 /\ map (fun e => g_term (snd e)) (children top h') = [ToFrag 0; ToFrag 3; ToProc 2; ToFrag 6].
Proof. vm_compute. repeat split; reflexivity. Qed.

Print Assumptions C95_create_forest_partial.
Print Assumptions C95_all_done_near_partial.
Print Assumptions C95_all_done_in_order_partial.
Print Assumptions C95_already_there.

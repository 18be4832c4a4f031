(** C89: a cloned fragment computes what the original computes. *)
From Verif Require Import Num Base PyStr ProcModel FragModel FragProofs FragProps FragProps4 FragProps5 ObserveProps EditModel EditProofs TravSim TravCopy CloneProofs.
From Coq Require Import Permutation.
Open Scope Qc_scope.
Open Scope string_scope.
Open Scope list_scope.
Local Arguments eqb : simpl never.

Lemma copied_copy s f g pj sc obs : copied s f g pj -> (pj = None <-> f_parent f = None) -> ordinary sc -> copy s sc obs f g.
Proof.
  intros C P OR. assert (DT : forall k, din k (f_terms g) = din k (f_terms f)) by (intros k; unfold din; rewrite (cd_terms _ _ _ _ C k); destruct (dget k (f_terms f)); reflexivity).
  split; try apply C.
  - rewrite (cd_parent _ _ _ _ C). exact P.
  - etransitivity; [apply child_flows_perm|]. rewrite (cd_children _ _ _ _ C). reflexivity.
  - intros IB. apply (cd_values _ _ _ _ C IB sc obs OR).
  - intros v V. destruct (f_isbal f) eqn:IB; [|rewrite (cd_values _ _ _ _ C IB sc obs OR); eauto]. assert (DK : forall k, ordinary_key k -> din k (f_evs g) = false) by (intros k OK; unfold din; rewrite (cd_none _ _ _ _ C IB k OK); reflexivity).
    clear V. unfold exchange_value, match_ev. destruct sc as [|k|ks]; cbn in OR.
    + eauto.
    + rewrite (DK k OR). eauto.
    + assert (Z : filter (fun k => din k (f_evs g)) ks = []) by (induction ks as [|k ks IHk]; cbn; [reflexivity|rewrite (DK k (OR k (or_introl eq_refl))); apply IHk; intros k' J; apply OR; right; exact J]). rewrite Z. eauto.
  - intros t TT. unfold termination in *. assert (MT : match_term g sc = match_term f sc).
    { unfold match_term. destruct sc as [|k|ks]; [reflexivity|rewrite DT; reflexivity|]. rewrite (filter_ext (fun k => din (Some k) (f_terms g)) (fun k => din (Some k) (f_terms f))) by (intros k; apply DT). reflexivity. }
    rewrite MT. destruct (match_term f sc) as [m|]; [|discriminate]. rewrite (cd_terms _ _ _ _ C m). destruct (dget m (f_terms f)); [|discriminate]. injection TT as ->. reflexivity.
Qed.

(** Cloning a tree of fragments as the editor makes them ([plain]) creates new fragments only; every fragment of the tree has a copy with the same flow,
    direction, balance, background and terminations, whose children are the copies of its children; and in every scenario, observed or cached, the copy's
    traversal succeeds whenever the original's does and lists the same fragment flows (amounts, weights, directions, terminations and conservation), in some order,
    under the names of the copies.  Missing: subfragments; scenario cut-offs ([C89_refuted_scenario_cutoff]); nodes with children cut off by default ([C89_refuted_default_cutoff]). *)
Theorem C89_clone_partial cf refq n fuel s h i f h' : h i = Some f -> f_parent f = None -> (forall j g, in_tree h i j -> h j = Some g -> plain refq h j g) ->
  clone cf refq n fuel s None h i = (h', FOk tt) ->
  (forall j, h j <> None -> h' j = h j) /\
  (forall j, in_tree h i j -> h (s j) = None /\ exists fj g, h j = Some fj /\ h' (s j) = Some g /\ f_flow g = f_flow fj /\ f_dir g = f_dir fj /\ f_bg g = f_bg fj /\ f_isbal g = f_isbal fj /\ f_cons g = f_cons fj /\ f_children g = map s (child_flows fj)
     /\ forall k, dget k (f_terms g) = option_map (ren_term s) (dget k (f_terms fj))) /\
  (forall m sc obs l, ordinary (as_set sc) -> traverse cf refq m h sc obs i = FOk l -> exists l', traverse cf refq m h' sc obs (s i) = FOk l' /\ Permutation (map (renamed s) l) l').
Proof.
  intros HI FP PL E. assert (CL := clone_spec cf refq s h fuel n None h i f h' HI PL (fun j _ => eq_refl) FP E). split; [exact (cl_old _ _ _ _ _ _ _ _ CL)|]. split.
  { intros j T. destruct (cl_tree _ _ _ _ _ _ _ _ CL j T) as (N & fj & g & HJ & HG & pj & C & _). split; [exact N|]. exists fj, g. split; [exact HJ|]. split; [exact HG|]. destruct C. auto 10. }
  intros m sc obs l OR TR. unfold traverse in *. destruct (trav cf refq m h (as_set sc) obs i (Q2Qc 1) [] None None) as [[l0 cv]|] eqn:T0; [|discriminate]. injection TR as <-.
  set (D := fun j => in_tree h i j).
  assert (SN : forall j fj c, D j -> h j = Some fj -> In c (f_children fj) -> D c).
  { intros j fj c T HJ J. unfold D in *. clear - T HJ J. induction T as [i|i f0 d k HI D T IH]; [eapply tree_child; [exact HJ|exact J|constructor]|eapply tree_child; [exact HI|exact D|apply IH; assumption]]. }
  assert (PAR : forall j fj, D j -> h j = Some fj -> j <> i -> f_parent fj <> None).
  { assert (X : forall a k, in_tree h a k -> (forall j g, in_tree h a j -> h j = Some g -> plain refq h j g) -> k <> a -> forall gk, h k = Some gk -> f_parent gk <> None).
    { induction 1 as [a|a fa d k HA J T IH]; intros PT NE gk HK; [contradiction|]. destruct (Nat.eq_dec k d) as [->|NK].
      - destruct (pl_exist _ _ _ _ (PT a fa (tree_self h a) HA) d J) as (gd & HD & GP). congruence.
      - apply (IH (fun j g Tj => PT j g (tree_child h a fa d j HA J Tj)) NK gk HK). }
    intros j fj T HJ N. exact (X i j T PL N fj HJ). }
  destruct (trav_copy cf refq h h' (as_set sc) obs s D) with (n := m) (c := i) (f := f) (nw := Q2Qc 1) (seen := @nil nat) (seen' := @nil nat) (q := @None nat) (bal := @None Qc) as [X _].
  - intros j T. destruct (cl_tree _ _ _ _ _ _ _ _ CL j T) as (_ & fj & g & HJ & HG & pj & C & P1 & P2). exists fj, g. split; [exact HJ|]. split; [exact HG|]. apply (copied_copy s fj g pj (as_set sc) obs C); [|exact OR].
    destruct (Nat.eq_dec j i) as [->|N]; [rewrite (P1 eq_refl); rewrite HI in HJ; injection HJ as <-; split; auto|]. split; intros Z; [destruct (P2 N Z)|destruct (PAR j fj T HJ N Z)].
  - exact SN.
  - intros j fj c gc T HJ J HC. destruct (pl_exist _ _ _ _ (PL j fj T HJ) c J) as (g & HG & GP). congruence.
  - intros j fj T HJ. exact (pl_ndc _ _ _ _ (PL j fj T HJ)).
  - intros j fj c d gc gd T HJ. exact (pl_one _ _ _ _ (PL j fj T HJ) c d gc gd).
  - intros j fj c gc T HJ J HC IB. rewrite (pl_bal _ _ _ _ (PL j fj T HJ) c gc J HC IB). discriminate.
  - intros j fj T HJ P IB. rewrite (pl_ref _ _ _ _ (PL j fj T HJ) P) in IB. discriminate.
  - intros c T fc tc j HC TT TN. apply term_in in TT as [k J]. destruct (pl_terms _ _ _ _ (PL c fc T HC) k tc J) as [[-> ->]|[[pr TP]|[-> _]]]; [discriminate|congruence|]. cbn in TN. congruence.
  - constructor.
  - exact HI.
  - intros f2 H2 IB. rewrite HI in H2. injection H2 as <-. rewrite (pl_ref _ _ _ _ (PL i f (tree_self h i) HI) FP) in IB. discriminate.
  - reflexivity.
  - destruct (X l0 cv T0) as (l' & -> & R). exists l'. split; [reflexivity|exact R].
Qed.
Print Assumptions C89_clone_partial.

(** * Examples: 1 -> 2 (3, process 7) -> 3 (balance of quantity 0), 4 (2, process 8, in scenario "a" 5); copies are 101, ... in reverse order *)
Definition s89 (i : nat) : nat := (200 - i)%nat.
Definition h89 (t2 : dict (option skey) term) : heap := fun i => match i with
  | 1%nat => Some (Fr None [2%nat] 10 Output false false None (evs2 4 1) [(None, Tm (NFrag 1) 10 Input true)])
  | 2%nat => Some (Fr (Some 1%nat) [3%nat; 4%nat] 11 Input false false (Some 0%nat) (evs2 3 2) t2)
  | 3%nat => Some (Fr (Some 2%nat) [] 12 Output false true None (evs2 1 0) [(None, null_term 12 Output)])
  | 4%nat => Some (Fr (Some 2%nat) [] 13 Input false false None (evs2 2 0 ++ [(KS "a", Some (Q2Qc 5))]) [(None, Tm (NProc 8) 13 Output true)])
  | _ => None end.
Definition t89 : dict (option skey) term := [(None, Tm (NProc 7) 11 Output true)].
Definition rows89 (r : fret (list ffl)) : option (list (fref * Q)) := match r with FOk l => Some (map (fun x => (ff_ref x, this (ff_mag x))) l) | FErr _ => None end.
Example C89_example : exists h', clone one2 zer2 9 9 s89 None (h89 t89) 1 = (h', FOk tt) /\
  rows89 (traverse one2 zer2 9 (h89 t89) (ScKey (KS "a")) false 1) = Some [(Real 1, 4); (Real 2, 3); (Real 4, 15); (Real 3, 12)]%Q /\
  rows89 (traverse one2 zer2 9 h' (ScKey (KS "a")) false 199) = Some [(Real 199, 4); (Real 198, 3); (Real 196, 15); (Real 197, 12)]%Q.
Proof. eexists. split; [vm_compute; reflexivity|]. split; vm_compute; reflexivity. Qed.
(** the example meets the theorem's hypotheses *)
Example C89_hypotheses : h89 t89 1%nat <> None /\ (forall j g, in_tree (h89 t89) 1 j -> h89 t89 j = Some g -> plain zer2 (h89 t89) j g) /\ ordinary (as_set (ScKey (KS "a"))).
Proof.
  split; [discriminate|]. split; [|split; discriminate].
  assert (NZ : Q2Qc 4 <> 0 /\ Q2Qc 3 <> 0 /\ Q2Qc 2 <> 0 /\ Q2Qc 1 <> 0) by (repeat split; intros Z; apply (f_equal this) in Z; vm_compute in Z; discriminate). destruct NZ as (N4 & N3 & N2 & N1).
  intros j g _ HJ. destruct j as [|[|[|[|[|]]]]]; try discriminate; cbn in HJ; injection HJ as <-; (split;
  [ split; [eexists; split; [reflexivity|assumption]|eexists; reflexivity]
  | split; reflexivity
  | cbn; discriminate
  | cbn; repeat (apply NoDup_cons; [cbn; intuition discriminate|]); apply NoDup_nil
  | cbn; intros k t [[= <- <-]|[]]; first [left; split; reflexivity | right; left; eexists; reflexivity | right; right; split; reflexivity]
  | cbn; intros X t [= <-]; first [discriminate | destruct X; reflexivity]
  | cbn; repeat (apply NoDup_cons; [cbn; intuition discriminate|]); apply NoDup_nil
  | cbn; intros c J; repeat (destruct J as [<-|J]; [eexists; split; reflexivity|]); destruct J
  | cbn; intros q Q; first [discriminate | injection Q as <-; exists 3%nat; eexists; split; [left; reflexivity|]; split; [reflexivity|]; split; reflexivity]
  | cbn; intros c g J; repeat (destruct J as [<-|J]; [cbn; intros [= <-]; cbn; intros IB; first [discriminate IB|reflexivity]|]); destruct J
  | cbn; intros c d gc gd J K; repeat (destruct J as [<-|J]; [repeat (destruct K as [<-|K]; [cbn; intros [= <-] [= <-]; cbn; intros IB IB2; first [discriminate IB|discriminate IB2|reflexivity]|]); destruct K|]); destruct J
  | cbn; intros X; first [discriminate X | reflexivity] ]).
Qed.
(** Counterexamples.  A cut-off in a scenario is not copied: in that scenario the copy of node 2 goes on to process 7 and its children. *)
Theorem C89_refuted_scenario_cutoff : exists h', clone one2 zer2 9 9 s89 None (h89 (t89 ++ [(Some (KS "a"), null_term 11 Input)])) 1 = (h', FOk tt) /\
  rows89 (traverse one2 zer2 9 (h89 (t89 ++ [(Some (KS "a"), null_term 11 Input)])) (ScKey (KS "a")) false 1) = Some [(Real 1, 4); (Real 2, 3)]%Q /\
  rows89 (traverse one2 zer2 9 h' (ScKey (KS "a")) false 199) = Some [(Real 199, 4); (Real 198, 3); (Real 196, 15); (Real 197, 12)]%Q.
Proof. eexists. split; [vm_compute; reflexivity|]. split; vm_compute; reflexivity. Qed.
(** A node with children that is cut off by default becomes a foreground node when the copy of its first child is added. *)
Theorem C89_refuted_default_cutoff : exists h', clone one2 zer2 9 9 s89 None (h89 [(None, null_term 11 Input)]) 1 = (h', FOk tt) /\
  rows89 (traverse one2 zer2 9 (h89 [(None, null_term 11 Input)]) ScNone false 1) = Some [(Real 1, 4); (Real 2, 3)]%Q /\
  rows89 (traverse one2 zer2 9 h' ScNone false 199) = Some [(Real 199, 4); (Real 198, 3); (Real 196, 6); (Real 197, 3)]%Q.
Proof. eexists. split; [vm_compute; reflexivity|]. split; vm_compute; reflexivity. Qed.

(** Node 2 ends in fragment 5 by default and in process 7 in scenario "a": the values of its children 3 and 4 in scenario "a" are not those of the original. *)
Definition h89s : heap := fun i => match i with
  | 5%nat => Some (Fr None [] 11 Output false false None (evs2 1 1) [(None, Tm (NFrag 5) 11 Input true)])
  | 4%nat => Some (Fr (Some 2%nat) [] 13 Input false false None (evs2 2 0) [(None, Tm (NProc 8) 13 Output true)])
  | _ => h89 [(None, Tm (NFrag 5) 11 Output true); (Some (KS "a"), Tm (NProc 7) 11 Output true)] i end.
Theorem C89_refuted_subfragment : exists h', clone one2 zer2 9 9 s89 None h89s 1 = (h', FOk tt) /\
  rows89 (traverse one2 zer2 9 h89s (ScKey (KS "a")) false 1) = Some [(Real 1, 4); (Real 2, 3); (Real 4, 6); (Real 3, 3)]%Q /\
  rows89 (traverse one2 zer2 9 h' (ScKey (KS "a")) false 199) = Some [(Real 199, 4); (Real 198, 3); (Real 196, 3); (Real 197, 0)]%Q.
Proof. eexists. split; [vm_compute; reflexivity|]. split; vm_compute; reflexivity. Qed.

(** C114: an archive's flowables are the classes of its flows under "same name or same CAS number" (lcatools/implementations/quantity.py). *)
From Coq Require Import String Permutation Sorting.Sorted.
From Verif Require Import Base PyStr SynListModel SynListProofs CasModel CasProofs FlowablesModel FlowablesProofs QImplModel QImplProofs.
Open Scope string_scope.
Open Scope nat_scope.
Open Scope list_scope.

(** Vocabulary (QImplProofs.v): [flows_ok fs]: names and links are not blank and are not CAS numbers, links are distinct
    and are not names, a CAS number is empty or written without leading zeros or with six digits before the first dash;
    [share f g]: the names differ only in case and surrounding blanks, or both have a CAS number and it is the same;
    [same fs]: joined by a chain of flows of [fs] of which each shares a name or a CAS number with the next;
    [conflict fs]: a chain joins two flows with different CAS numbers. *)

(** any spelling of the name, link or CAS number of a flow *)
Definition names_flow (t : string) (g : qflow) : Prop :=
  norm t = norm (qf_name g) \/ norm t = norm (qf_link g) \/ (qf_cas g <> "" /\ (norm t = padded (qf_cas g) \/ norm t = trim_cas (qf_cas g))).
Lemma names_atoms t g : names_flow t g <-> atoms g (norm t).
Proof. unfold names_flow, atoms, catoms. tauto. Qed.
(** what [flowables] yields for the class of a flow: the padded CAS number any of its flows has, and the name of one of its flows *)
Definition describes (fs : list qflow) (f : qflow) (o : option string * option string) : Prop :=
  (exists g, same fs f g /\ snd o = Some (qf_name g))
  /\ match fst o with
     | Some p => exists g, same fs f g /\ qf_cas g <> "" /\ p = padded (qf_cas g)
     | None => forall g, same fs f g -> qf_cas g = ""
     end.

Section P.
Variable ord : list term -> list term.
Variable ordn : list nat -> list nat.
Hypothesis LO : lawful ord.
Hypothesis LN : lawful ordn.

Lemma init_QI fs : flows_ok fs -> match init_flowables ord ordn fs with FOk s => QI fs s | FErr e => e = ConflictingCas /\ conflict fs end.
Proof. intros OK. exact (init_spec ord ordn LO LN fs [] fempty QI_empty OK). Qed.
Lemma index_D s t : wf s -> index_of s t = D s (norm t).
Proof. intros W. unfold index_of, findex. rewrite fget_D by exact W. destruct (D s (norm t)); reflexivity. Qed.
Lemma same_iff fs s f g : flows_ok fs -> QI fs s -> In f fs -> In g fs -> D s (norm (qf_name f)) = D s (norm (qf_name g)) <-> same fs f g.
Proof. intros (OK & _) Q IF IG. split; [apply (q_same _ _ Q); auto|apply same_index; auto]. Qed.

(** Building the table of flowables fails exactly when the names and CAS numbers join two flows with different CAS numbers;
    otherwise two flows have one flowable exactly when they are joined, and a flow is found under its name, its link and its
    CAS number. *)
Theorem C114_init fs : flows_ok fs ->
  (conflict fs -> init_flowables ord ordn fs = FErr ConflictingCas)
  /\ (~ conflict fs -> exists s, init_flowables ord ordn fs = FOk s
        /\ (forall f g, In f fs -> In g fs -> index_of s (qf_name f) = index_of s (qf_name g) <-> same fs f g)
        /\ (forall f t, In f fs -> names_flow t f -> exists i, index_of s t = Some i /\ index_of s (qf_name f) = Some i)
        /\ (forall t, (forall f, In f fs -> ~ names_flow t f) -> index_of s t = None)).
Proof.
  intros OK. pose proof (init_QI fs OK) as Q. destruct (init_flowables ord ordn fs) as [s|e].
  - split; [intros C; exfalso; eapply QI_consistent; eauto; apply OK|]. intros _. exists s. split; [reflexivity|]. pose proof (q_wf _ _ Q) as W. split; [|split].
    + intros f g IF IG. rewrite !index_D by exact W. apply same_iff; auto.
    + intros f t IF NF. apply names_atoms in NF. destruct (q_flow _ _ Q f IF) as (i & HI). exists i. rewrite !index_D by exact W. split; apply HI; [exact NF|apply in_atoms_name].
    + intros t H. rewrite index_D by exact W. destruct (D s (norm t)) as [i|] eqn:E; [|reflexivity]. exfalso. destruct (q_own _ _ Q _ _ E) as (f & IF & A). apply (H f IF), names_atoms, A.
  - destruct Q as [-> C]. split; [reflexivity|]. intros NC. contradiction.
Qed.

(** [flowables]: one entry for each class that has a flow passing the filters, sorted by name *)
Lemma ninsert_perm key a l : Permutation (ninsert key a l) (a :: l).
Proof. induction l as [|b l IH]; cbn; [reflexivity|]. destruct (String.leb (key a) (key b)); [reflexivity|]. rewrite IH. apply perm_swap. Qed.
Lemma nsort_perm key l : Permutation (fold_right (ninsert key) [] l) l.
Proof. induction l as [|a l IH]; cbn; [reflexivity|]. rewrite ninsert_perm, IH. reflexivity. Qed.
Definition le_key (key : nat -> string) (a b : nat) : Prop := String.leb (key a) (key b) = true.
Lemma ninsert_sorted key a l : Sorted (le_key key) l -> Sorted (le_key key) (ninsert key a l).
Proof.
  induction l as [|b l IH]; intros S; cbn; [repeat constructor|]. destruct (String.leb (key a) (key b)) eqn:E; [constructor; [exact S|constructor; exact E]|].
  assert (BA : String.leb (key b) (key a) = true) by (destruct (String.leb_total (key a) (key b)) as [X|X]; congruence).
  inversion_clear S as [|? ? S' HD]. constructor; [auto|]. destruct l as [|c l]; cbn; [constructor; exact BA|]. destruct (String.leb (key a) (key c)); constructor; [exact BA|]. inversion_clear HD. auto.
Qed.
Lemma nsort_sorted key l : Sorted (le_key key) (fold_right (ninsert key) [] l).
Proof. induction l as [|a l IH]; cbn; [constructor|]. apply ninsert_sorted, IH. Qed.
Lemma name_shown fs s f i : flows_ok fs -> QI fs s -> In f fs -> D s (norm (qf_name f)) = Some i -> describes fs f (item_cas s i, item_name (f_base s) i).
Proof.
  intros OK Q IF E. split; cbn [fst snd].
  - destruct (q_name _ _ Q _ _ E) as (g & IG & KG & N). exists g. split; [apply (same_iff fs s); auto; congruence|exact N].
  - destruct (item_cas s i) as [p|] eqn:IC.
    + destruct (q_cas2 _ _ Q _ _ _ E IC) as (g & IG & KG & NE & ->). exists g. split; [apply (same_iff fs s); auto; congruence|auto].
    + intros g S. destruct (string_dec (qf_cas g) "") as [|NE]; [assumption|]. exfalso. pose proof (same_in _ _ _ S) as [_ IG]. apply (same_iff fs s) in S; auto.
      rewrite (q_cas1 _ _ Q g i IG NE) in IC by congruence. discriminate.
Qed.
Definition wanted (quantity : option string) (comp : option (list string)) (f : qflow) : Prop :=
  (forall q, quantity = Some q -> In q (qf_qs f)) /\ (forall c, comp = Some c -> qf_comp f = c).
Lemma passes_spec quantity comp f : passes quantity comp f = true <-> wanted quantity comp f.
Proof.
  unfold passes, wanted. rewrite andb_true_iff. destruct quantity as [q|], comp as [c|]; try (destruct (list_eq_dec string_dec (qf_comp f) c) as [X|X]); rewrite ?mem_In;
    (split; [intros [A B]; split; intros ? Z; inversion Z; subst; auto; discriminate|intros [A B]; split; auto; exfalso; apply X; auto]).
Qed.
Theorem C114_flowables ordi fs s quantity comp : lawful ordi -> flows_ok fs -> init_flowables ord ordn fs = FOk s ->
  exists reps, Forall2 (describes fs) reps (flowables_of ordi s fs quantity comp)
    /\ (forall r, In r reps -> In r fs /\ wanted quantity comp r)
    /\ (forall f, In f fs -> wanted quantity comp f -> exists r, In r reps /\ same fs f r)
    /\ ForallOrdPairs (fun r r' => ~ same fs r r') reps
    /\ Sorted (fun a b => match a, b with Some a, Some b => String.leb a b = true | _, _ => True end) (map snd (flowables_of ordi s fs quantity comp)).
Proof.
  intros LI OK E. pose proof (init_QI fs OK) as Q. rewrite E in Q. pose proof (q_wf _ _ Q) as W. unfold flowables_of. set (W0 := filter (passes quantity comp) fs).
  set (ids := set_of (flat_map (fun f => match index_of s (qf_name f) with Some i => [i] | None => [] end) W0)).
  set (L := fold_right (ninsert (name_key s)) [] (ordi ids)).
  assert (PL : Permutation L ids) by (unfold L; rewrite nsort_perm; apply LI).
  assert (IDS : forall i, In i ids <-> exists f, In f fs /\ wanted quantity comp f /\ D s (norm (qf_name f)) = Some i).
  { intros i. unfold ids. rewrite In_set_of, in_flat_map. split.
    - intros (f & IF & IX). apply filter_In in IF as [IF PF]. apply passes_spec in PF. exists f. split; [exact IF|]. split; [exact PF|]. rewrite index_D in IX by exact W. destruct (D s (norm (qf_name f))); [destruct IX as [<-|[]]; reflexivity|destruct IX].
    - intros (f & IF & PF & E1). exists f. split; [apply filter_In; split; [exact IF|apply passes_spec; exact PF]|]. rewrite index_D, E1 by exact W. left. reflexivity. }
  assert (ND : NoDup L) by (apply (Permutation_NoDup (l := ids)); [symmetry; exact PL|apply NoDup_set_of]).
  assert (REP : forall l, NoDup l -> (forall i, In i l -> In i ids) -> exists reps, Forall2 (fun r i => In r fs /\ wanted quantity comp r /\ D s (norm (qf_name r)) = Some i) reps l).
  { intros l _ H. induction l as [|i l IH]; [exists []; constructor|]. destruct IH as (reps & R); [intros; apply H; right; auto|].
    destruct (proj1 (IDS i) (H i (or_introl eq_refl))) as (f & HF). exists (f :: reps). constructor; auto. }
  destruct (REP L ND) as (reps & R); [intros i I; eapply Permutation_in; eauto|]. exists reps. split; [|split; [|split; [|split]]].
  - clear - R OK Q. induction R as [|r i reps l (I & _ & E) R IH]; cbn; [constructor|]. constructor; [|exact IH]. apply name_shown; auto.
  - clear - R. induction R as [|r i reps l (I & PW & E) R IH]; intros x IX; [destruct IX|]. destruct IX as [<-|IX]; auto.
  - intros f IF PF. destruct (q_flow _ _ Q f IF) as (i & HI). pose proof (HI _ (in_atoms_name f)) as EI.
    assert (IL : In i L) by (eapply Permutation_in; [symmetry; exact PL|]; apply IDS; eauto).
    clear - R IL EI IF OK Q. induction R as [|r k reps l (I & PW & E) R IH]; [destruct IL|]. destruct IL as [<-|IL].
    + exists r. split; [left; reflexivity|]. apply (same_iff fs s); auto. congruence.
    + destruct (IH IL) as (r' & I' & S'). exists r'. split; [right; exact I'|exact S'].
  - clear - R ND OK Q. induction R as [|r i reps l (I & PW & E) R IH]; [constructor|]. inversion_clear ND as [|? ? NI ND']. constructor; [|auto].
    apply Forall_forall. intros r' IR S. assert (X : exists k, In k l /\ In r' fs /\ D s (norm (qf_name r')) = Some k).
    { clear - R IR. induction R as [|a k reps l (I & PW & E) R IH]; [destruct IR|]. destruct IR as [<-|IR]; [exists k; cbn; auto|]. destruct (IH IR) as (k' & I' & H). exists k'. cbn. auto. }
    destruct X as (k & IK & IR' & EK). apply (same_iff fs s) in S; auto. rewrite E, EK in S. injection S as ->. contradiction.
  - rewrite map_map. cbn [snd]. pose proof (nsort_sorted (name_key s) (ordi ids)) as S. fold L in S. clear - S. unfold name_key, le_key in S.
    induction S as [|a l S IH HD]; cbn; [constructor|]. constructor; [exact IH|]. inversion_clear HD as [|b l' X]; cbn; constructor. destruct (item_name (f_base s) a), (item_name (f_base s) b); auto.
Qed.

(** [factors]: with a flowable that is known under any spelling of a name, link or CAS number: the factors of its class *)
Theorem C114_factors fs s quantity comp g t : flows_ok fs -> init_flowables ord ordn fs = FOk s -> In g fs -> names_flow t g ->
  exists keep, factors_of s fs quantity (Some t) comp = filter keep fs
    /\ forall f, In f fs -> keep f = true <-> same fs f g /\ wanted (Some quantity) comp f.
Proof.
  intros OK E IG NF. pose proof (init_QI fs OK) as Q. rewrite E in Q. pose proof (q_wf _ _ Q) as W. apply names_atoms in NF.
  destruct (q_flow _ _ Q g IG) as (i & HI). unfold factors_of. rewrite index_D by exact W. rewrite (HI _ NF). eexists. split; [reflexivity|].
  intros f IF. cbv beta. destruct (q_flow _ _ Q f IF) as (j & HJ). rewrite index_D by exact W. rewrite (HJ (norm (qf_link f))) by (right; reflexivity).
  rewrite !andb_true_iff, Nat.eqb_eq, mem_In. rewrite <- (same_iff fs s) by auto. rewrite (HI _ (in_atoms_name g)), (HJ _ (in_atoms_name f)). unfold wanted.
  split.
  - intros [[A ->] B]. split; [reflexivity|]. split; [intros q X; injection X as <-; exact A|intros c ->]. destruct (list_eq_dec string_dec (qf_comp f) c); [assumption|discriminate].
  - intros (X & A & B). injection X as ->. split; [split; [apply A; reflexivity|reflexivity]|]. destruct comp as [c|]; [|reflexivity]. destruct (list_eq_dec string_dec (qf_comp f) c) as [|N]; [reflexivity|]. exfalso. apply N, B. reflexivity.
Qed.
(** Refuted: "an unknown flowable has no factors": the filter is dropped and every factor of the quantity is yielded *)
Theorem C114_refuted_unknown_flowable fs s quantity comp t : flows_ok fs -> init_flowables ord ordn fs = FOk s -> (forall g, In g fs -> ~ names_flow t g) ->
  exists keep, factors_of s fs quantity (Some t) comp = filter keep fs /\ forall f, In f fs -> keep f = true <-> wanted (Some quantity) comp f.
Proof.
  intros OK E NF. destruct (C114_init fs OK) as [_ X]. pose proof (init_QI fs OK) as Q. rewrite E in Q.
  assert (NC : ~ conflict fs) by (eapply QI_consistent; eauto; apply OK).
  destruct (X NC) as (s' & E' & _ & _ & H). rewrite E in E'. injection E' as <-. unfold factors_of. rewrite (H t NF). eexists. split; [reflexivity|].
  intros f IF. cbv beta. rewrite !andb_true_iff, mem_In. unfold wanted. split.
  - intros [[A _] B]. split; [intros q X'; injection X' as <-; exact A|intros c ->]. destruct (list_eq_dec string_dec (qf_comp f) c); [assumption|discriminate].
  - intros (A & B). split; [split; [apply A; reflexivity|reflexivity]|]. destruct comp as [c|]; [|reflexivity]. destruct (list_eq_dec string_dec (qf_comp f) c) as [|N]; [reflexivity|]. exfalso. apply N, B. reflexivity.
Qed.
(** [compartments] lists every compartment of the archive once, whatever quantity and flowable are asked for *)
Theorem C114_compartments fs quantity flowable : NoDup (compartments_of fs quantity flowable)
  /\ forall c, In c (compartments_of fs quantity flowable) <-> exists f, In f fs /\ qf_comp f = c.
Proof.
  unfold compartments_of.
  assert (G : forall fs acc, NoDup acc -> NoDup (fold_left (fun acc f => if in_dec (list_eq_dec String.string_dec) (qf_comp f) acc then acc else acc ++ [qf_comp f]) fs acc)
     /\ forall c, In c (fold_left (fun acc f => if in_dec (list_eq_dec String.string_dec) (qf_comp f) acc then acc else acc ++ [qf_comp f]) fs acc) <-> In c acc \/ exists f, In f fs /\ qf_comp f = c).
  { clear. induction fs as [|f fs IH]; intros acc ND; cbn [fold_left]; [split; [exact ND|]; intros c; split; [auto|intros [H|(f & [] & _)]; exact H]|].
    destruct (in_dec (list_eq_dec String.string_dec) (qf_comp f) acc) as [I|NI].
    - destruct (IH acc ND) as [A B]. split; [exact A|]. intros c. rewrite B. split; [intros [H|(g & H & X)]; [auto|right; exists g; cbn; auto]|]. intros [H|(g & [<-|H] & X)]; [auto|left; congruence|right; eauto].
    - destruct (IH (acc ++ [qf_comp f])) as [A B]; [apply NoDup_snoc; auto|]. split; [exact A|]. intros c. rewrite B, in_app_iff. cbn.
      split; [intros [[H|[H|[]]]|(g & H & X)]; [auto|right; eauto|right; eauto]|]. intros [H|(g & [<-|H] & X)]; [auto|left; auto|right; eauto]. }
  destruct (G fs []) as [A B]; [constructor|]. split; [exact A|]. intros c. rewrite B. cbn. split; [intros [[]|H]; exact H|auto].
Qed.
End P.
Print Assumptions C114_init. Print Assumptions C114_flowables. Print Assumptions C114_factors. Print Assumptions C114_refuted_unknown_flowable. Print Assumptions C114_compartments.

(** ** A concrete archive *)
Definition ex_flows : list qflow :=
  [QF "64-17-5" "Ethanol" "org/f1" ["to air"] ["gwp"]; QF "" "ethyl alcohol" "org/f2" ["to air"] ["gwp"; "pocp"]; QF "" "water" "org/f3" ["to water"] [];
   QF "000064-17-5" "Ethyl alcohol " "org/f4" ["to water"] ["gwp"]].
Lemma C114_ex_ok : flows_ok ex_flows.
Proof.
  assert (N : forall n, norm n <> "" /\ cas_match (norm n) = false /\ cas_match n = false -> name_ok n) by auto.
  split; [|split].
  - intros f I. cbn in I. repeat (destruct I as [<-|I]); try contradiction; (split; [repeat split; vm_compute; congruence|split; [repeat split; vm_compute; congruence|split; [|vm_compute; congruence]]]);
      try (left; reflexivity); right; (split; [reflexivity|split; [reflexivity|]]); [right|left]; reflexivity.
  - vm_compute. repeat constructor; cbn; intuition congruence.
  - intros f g F G. cbn in F, G. repeat (destruct F as [<-|F]); try contradiction; repeat (destruct G as [<-|G]); try contradiction; vm_compute; congruence.
Qed.
Definition ido {A} : list A -> list A := fun l => l.
(** "Ethanol" and "ethyl alcohol" are one flowable because a fourth flow ties the CAS number to the second name (merged) *)
Lemma C114_witness : exists s, init_flowables ido ido ex_flows = FOk s
  /\ flowables_of ido s ex_flows None None = [(Some "000064-17-5", Some "Ethanol"); (None, Some "water")]
  /\ map qf_link (factors_of s ex_flows "gwp" (Some "ETHYL alcohol") None) = ["org/f1"; "org/f2"; "org/f4"]
  /\ map qf_link (factors_of s ex_flows "gwp" (Some "glycol") None) = ["org/f1"; "org/f2"; "org/f4"]
  /\ same ex_flows (QF "64-17-5" "Ethanol" "org/f1" ["to air"] ["gwp"]) (QF "" "ethyl alcohol" "org/f2" ["to air"] ["gwp"; "pocp"]).
Proof.
  eexists. split; [vm_compute; reflexivity|]. split; [vm_compute; reflexivity|]. split; [vm_compute; reflexivity|]. split; [vm_compute; reflexivity|].
  eapply same_step; [eapply same_step; [apply same_refl; cbn; auto|right; right; right; left; reflexivity|]|cbn; auto|].
  - right. cbn. repeat split; congruence.
  - left. vm_compute. reflexivity.
Qed.
(** Two compartments of one substance with two CAS numbers under one name: no flowable of the archive can be listed *)
Lemma C114_conflict_witness : init_flowables ido ido (ex_flows ++ [QF "67-56-1" "ethanol" "org/f5" [] []]) = FErr ConflictingCas.
Proof. vm_compute. reflexivity. Qed.
(** Refuted outside these spellings: a CAS number padded with some zeros only is not found again by the second flow that has it, and
    adding it raises TermFound *)
Lemma C114_refuted_half_padded : init_flowables ido ido [QF "0064-17-5" "ethanol" "o/1" [] []; QF "0064-17-5" "ethyl alcohol" "o/2" [] []] = FErr (Base TermFound).
Proof. vm_compute. reflexivity. Qed.
(** Refuted for blank names: all flows without a CAS number are the flowable of a flow with a blank name *)
Lemma C114_refuted_blank_name : exists s, init_flowables ido ido [QF "" " " "o/1" [] []; QF "" "water" "o/2" [] []; QF "" "sand" "o/3" [] []] = FOk s
  /\ index_of s "water" = index_of s "sand" /\ index_of s "water" <> None.
Proof. eexists. split; [vm_compute; reflexivity|]. split; [vm_compute; reflexivity|vm_compute; congruence]. Qed.

(** C80, C81: what [dependencies], [emissions] and [consumers] of the flat background of a database report (model: FlatModel.v;
    proofs: FlatProofs.v, FlatProofs2.v, FlatProps.v). *)
From Verif Require Import Num Base ProcModel BgModel BgProofs BgProofs2 BgProofs3 BgProofs4 BgProofs5 BgProps BgProps2 BgLciModel BgLciProps BgNetProps FlatModel FlatProofs FlatProofs2 FlatProps.
From Coq Require Import Permutation Lia.
Open Scope Qc_scope.
Open Scope list_scope.
Local Arguments eqb : simpl never.

(** * Specification *)
(** [f] is the flat background of the database [D], built from the requested products [vs] (and all they need): observable result of
    [add_all_ref_products] followed by [FlatBackground.from_background_engine].  The definitions [uses] (the signed amounts of a product
    among the exchanges of a process, inputs positive), [use] (their sum), [emission_amount], [ordinary], [per_unit] and
    [no_cancellation] are in BgNetProps.v and FlatProps.v and speak of the database only. *)
Definition built (D : db) (strat : strategy) (comp : nat -> list nat) (vs : list node) (f : flat) : Prop :=
  exists ord fuel g, (forall l, Permutation (ord l) l) /\ brun D strat fuel ord eng0 [AddAll vs] = UOk g /\ from_engine D comp g = BOk f.
(** the products listed by the [fg] and [bg] attributes *)
Definition refers (t : tref) (v : node) : Prop := t_flow t = fst v /\ t_term t = Some (snd v).
Definition in_fg (f : flat) (v : node) : Prop := exists t, In t (f_fg f) /\ refers t v.
Definition in_bg (f : flat) (v : node) : Prop := exists t, In t (f_bg f) /\ refers t v.
Definition listed (f : flat) (v : node) : Prop := in_fg f v \/ in_bg f v.
(** an exchange of [u] with the process of [w] of net amount [q] (inputs positive) *)
Definition exchange_of (u w : node) (q : Qc) : xdef := XD (snd u) (fst w) (if Qclt_le_dec q 0 then Output else Input) (Some (snd w)) (Qcabs q).

Section Bridge.
Context (D : db) (strat : strategy) (ord : list nat -> list nat) (fuel : nat) (vs : list node) (g : eng) (comp : nat -> list nat) (f : flat).
Hypothesis ORD : forall l, Permutation (ord l) l.
Hypothesis R : brun D strat fuel ord eng0 [AddAll vs] = UOk g.
Hypothesis FE : from_engine D comp g = BOk f.
Let SH := flat_shape D strat ord fuel vs g comp f ORD R FE.
Lemma refers_ref v w : refers (make_ref D g v) w <-> v = w.
Proof. destruct v as [a b], w as [a' b']. unfold refers, make_ref. cbn. split; [intros [-> X]; injection X as ->; reflexivity|intros X; injection X as -> ->; auto]. Qed.
Lemma in_fg_iff v : in_fg f v <-> In v (foreground g).
Proof.
  unfold in_fg. rewrite (sh_fg _ _ _ _ _ SH). split; [intros (t & J & X); apply in_map_iff in J as (w & <- & J); apply refers_ref in X; subst w; exact J|].
  intros J. exists (make_ref D g v). split; [apply in_map; exact J|apply refers_ref; reflexivity].
Qed.
Lemma in_bg_iff v : in_bg f v <-> In v (background g).
Proof.
  unfold in_bg. rewrite (sh_bg _ _ _ _ _ SH). split; [intros (t & J & X); apply in_map_iff in J as (w & <- & J); apply refers_ref in X; subst w; exact J|].
  intros J. exists (make_ref D g v). split; [apply in_map; exact J|apply refers_ref; reflexivity].
Qed.
Lemma listed_iff v : listed f v <-> indexed g v.
Proof. unfold listed. rewrite in_fg_iff, in_bg_iff. symmetry. apply (indexed_split D strat ord fuel vs g ORD R). Qed.
End Bridge.

Lemma sign_div (q d : Qc) : 0 < d -> (if Qclt_le_dec (q / d) 0 then Output else Input) = (if Qclt_le_dec q 0 then Output else Input).
Proof.
  intros POS. destruct (Qclt_le_dec (q / d) 0) as [L|L]; destruct (Qclt_le_dec q 0) as [L'|L']; try reflexivity; exfalso.
  - apply (Qclt_not_le _ _ L). unfold Qcdiv. rewrite <- (Qcmult_0_l (/ d)). apply Qcmult_le_compat_r; [exact L'|]. apply Qclt_le_weak, Qc_inv_pos, POS.
  - apply (Qclt_not_le _ _ L'). assert (X : q = q / d * d).
    { unfold Qcdiv. rewrite <- Qcmult_assoc, (Qcmult_comm (/ _)), Qcmult_inv_r; [ring|]. intros Z. rewrite Z in POS. apply (Qclt_not_eq _ _ POS). reflexivity. }
    rewrite X, <- (Qcmult_0_l d). apply Qcmult_le_compat_r; [exact L|]. apply Qclt_le_weak, POS.
Qed.

(** * C80 *)
(** Which products are listed: the requested ones and everything they need; each once, as foreground or as background. *)
Theorem C80_listed D strat comp vs f : built D strat comp vs f ->
  (forall v, listed f v <-> exists r, In r vs /\ needs D strat r v) /\ (forall v, in_fg f v -> in_bg f v -> False)
  /\ NoDup (map (fun t => (t_flow t, t_term t)) (f_fg f ++ f_bg f)).
Proof.
  intros (ord & fuel & g & ORD & R & FE). split; [|split].
  - intros v. rewrite (listed_iff D strat ord fuel vs g comp f ORD R FE). destruct (C31_coverage D strat ord fuel [AddAll vs] g ORD) as (X & _ & _); [intros a b [A|[]] [B|[]]; congruence|exact R|].
    split.
    + intros J. apply X in J as (r & (c & [<-|[]] & JR) & N). exists r. split; [exact JR|exact N].
    + intros (r & JR & N). apply X. exists r. split; [exists (AddAll vs); split; [left; reflexivity|exact JR]|exact N].
  - intros v F B. apply (in_fg_iff D strat ord fuel vs g comp f ORD R FE) in F. apply (in_bg_iff D strat ord fuel vs g comp f ORD R FE) in B. exact (fg_not_bg D strat ord fuel vs g ORD R v F B).
  - pose proof (flat_shape D strat ord fuel vs g comp f ORD R FE) as SH. rewrite (sh_fg _ _ _ _ _ SH), (sh_bg _ _ _ _ _ SH), <- map_app, map_map.
    assert (N : NoDup (foreground g ++ background g)).
    { apply nodup_app; [apply (nd_fg D strat ord fuel vs g ORD R)|apply (nd_bg D strat ord fuel vs g ORD R)|]. intros x. apply (fg_not_bg D strat ord fuel vs g ORD R). }
    apply FinFun.Injective_map_NoDup; [|exact N]. intros [a b] [a' b'] E. cbn in E. injection E as -> ->. reflexivity.
Qed.
Print Assumptions C80_listed.

(** For every database, every product set and every foreground product [u] of it: [dependencies] yields, once each, exactly the products
    other than its own of which the process of [u] makes a nonzero net use, with the net amount per unit of net output.  Partial: for
    background products it fails, see below; the reference products must be outputs, and amounts must not cancel. *)
Theorem C80_dependencies_partial D strat comp vs f u : built D strat comp vs f -> in_fg f u ->
  ordinary D strat u -> (forall w, listed f w -> db_ref D w = Some Output) -> no_cancellation D strat u ->
  exists xs, dependencies f (snd u) (fst u) = BOk xs /\ NoDup xs /\
    forall x, In x xs <-> exists w, w <> u /\ use D strat u w <> 0 /\ x = exchange_of u w (use D strat u w / (1 - use D strat u u)).
Proof.
  intros (ord & fuel & g & ORD & R & FE) JU O OUT NC. apply (in_fg_iff D strat ord fuel vs g comp f ORD R FE) in JU.
  destruct (deps_fg D strat ord fuel vs g comp f ORD R FE u JU O) as (xs & E & N & S); [intros w J; apply OUT; apply (listed_iff D strat ord fuel vs g comp f ORD R FE); exact J|exact NC|].
  exists xs. split; [exact E|]. split; [exact N|]. intros x. rewrite S. unfold exchange_of. split; intros (w & A & B & ->); exists w; repeat split; auto;
  rewrite (sign_div _ _ (ordinary_pos D strat u O)); reflexivity.
Qed.
Print Assumptions C80_dependencies_partial.
(** [emissions], for every listed product: exactly the emissions of the process with a nonzero net amount, per unit of net output. *)
Theorem C80_emissions_partial D strat comp vs f u : built D strat comp vs f -> listed f u -> ordinary D strat u -> no_cancellation D strat u ->
  exists xs, emissions f (snd u) (fst u) = BOk xs /\ NoDup xs /\
    forall x, In x xs <-> exists e, emission_amount D strat u e <> 0 /\ x = XD (snd u) (fst e) (snd e) None (emission_amount D strat u e / (1 - use D strat u u)).
Proof.
  intros (ord & fuel & g & ORD & R & FE) JU O NC. apply (listed_iff D strat ord fuel vs g comp f ORD R FE) in JU. exact (ems_any D strat ord fuel vs g comp f ORD R FE u JU O NC).
Qed.
Print Assumptions C80_emissions_partial.
(** Refuted for background products, always: [dependencies] raises AttributeError. *)
Theorem C80_refuted_background D strat comp vs f u : built D strat comp vs f -> in_bg f u -> dependencies f (snd u) (fst u) = BErr BAttributeError.
Proof.
  intros (ord & fuel & g & ORD & R & FE) JU. apply (in_bg_iff D strat ord fuel vs g comp f ORD R FE) in JU. unfold dependencies, is_in_background.
  rewrite (bg_yes D strat ord fuel vs g comp f ORD R FE u JU). reflexivity.
Qed.
Print Assumptions C80_refuted_background.
(** Refuted without a background: a database with no cyclic part has no flat background at all. *)
Theorem C80_refuted_acyclic D strat comp ord fuel vs g : (forall l, Permutation (ord l) l) -> brun D strat fuel ord eng0 [AddAll vs] = UOk g -> background g = [] ->
  forall f, from_engine D comp g <> BOk f.
Proof.
  intros ORD R Z f FE. exact (bg_nonempty D strat ord fuel vs g comp f ORD R FE Z).
Qed.
Print Assumptions C80_refuted_acyclic.

Lemma in_fg_check f v : existsb (fun t => Nat.eqb (t_flow t) (fst v) && eqb (t_term t) (Some (snd v))) (f_fg f) = true -> in_fg f v.
Proof. intros E. apply existsb_exists in E as (t & J & E). apply andb_true_iff in E as [A B]. apply Nat.eqb_eq in A. destruct (eqb_spec (t_term t) (Some (snd v))) as [T|]; [|discriminate]. exists t. split; [exact J|split; assumption]. Qed.
Lemma in_bg_check f v : existsb (fun t => Nat.eqb (t_flow t) (fst v) && eqb (t_term t) (Some (snd v))) (f_bg f) = true -> in_bg f v.
Proof. intros E. apply existsb_exists in E as (t & J & E). apply andb_true_iff in E as [A B]. apply Nat.eqb_eq in A. destruct (eqb_spec (t_term t) (Some (snd v))) as [T|]; [|discriminate]. exists t. split; [exact J|split; assumption]. Qed.

(** Example: a supply chain (4 needs 3, 3 needs 1 and emits 9) over the cycle of C66 (1 and 2 need each other). *)
Definition D80 : db := DB
  (fun u => if eqb u (1, 1)%nat then [RX 1 Input (Some 1%nat) (Some (Q 1 4)) false; RX 2 Input (Some 2%nat) (Some (Q 1 1)) false; RX 9 Output None (Some (Q 3 1)) false]
            else if eqb u (2, 2)%nat then [RX 1 Input (Some 1%nat) (Some (Q 1 2)) false]
            else if eqb u (3, 3)%nat then [RX 1 Input (Some 1%nat) (Some (Q 1 2)) false; RX 1 Input (Some 1%nat) (Some (Q 3 2)) false; RX 9 Output None (Some (Q 5 1)) false; RX 3 Input (Some 3%nat) (Some (Q 1 2)) false]
            else if eqb u (4, 4)%nat then [RX 3 Input (Some 3%nat) (Some (Q 7 1)) false; RX 2 Output (Some 2%nat) (Some (Q 1 1)) false] else [])
  (fun _ _ => []) (fun u => if mem u [(1, 1); (2, 2); (3, 3); (4, 4)]%nat then Some Output else None).
Definition comp80 : nat -> list nat := fun _ => [7; 8]%nat.
Definition eng80 : eng := match brun D80 Abort 10 (fun l => l) eng0 [AddAll [(4, 4)]%nat] with UOk g => g | _ => eng0 end.
Definition flat80 : flat := match from_engine D80 comp80 eng80 with BOk f => f | BErr _ => FB [] [] [] None None None None None end.
Lemma built80 : built D80 Abort comp80 [(4, 4)]%nat flat80.
Proof.
  exists (fun l => l), 10%nat, eng80. split; [auto|]. split.
  - assert (X : match brun D80 Abort 10 (fun l => l) eng0 [AddAll [(4, 4)]%nat] with UOk _ => true | _ => false end = true) by (vm_compute; reflexivity).
    unfold eng80. destruct (brun D80 Abort 10 (fun l => l) eng0 [AddAll [(4, 4)]%nat]); congruence.
  - assert (X : match from_engine D80 comp80 eng80 with BOk _ => true | _ => false end = true) by (vm_compute; reflexivity).
    unfold flat80. destruct (from_engine D80 comp80 eng80); congruence.
Qed.
Example C80_example : in_fg flat80 (3, 3)%nat /\ in_bg flat80 (1, 1)%nat
  /\ (exists xs, dependencies flat80 4 4 = BOk xs /\ xs = [XD 4 3 Input (Some 3%nat) (Q 7 1); XD 4 2 Output (Some 2%nat) (Q 1 1)])
  /\ (exists xs, dependencies flat80 3 3 = BOk xs /\ xs = [XD 3 1 Input (Some 1%nat) (Q 4 1)])
  /\ (exists xs, emissions flat80 3 3 = BOk xs /\ xs = [XD 3 9 Output None (Q 10 1)]).
Proof.
  split; [apply in_fg_check; vm_compute; reflexivity|]. split; [apply in_bg_check; vm_compute; reflexivity|].
  repeat split; eexists; (split; [vm_compute; reflexivity|]).
  - repeat f_equal; apply Qc_is_canon; vm_compute; reflexivity.
  - repeat f_equal; apply Qc_is_canon; vm_compute; reflexivity.
  - repeat f_equal; apply Qc_is_canon; vm_compute; reflexivity.
Qed.

(** Refuted when amounts cancel: process 3 uses one unit of 2 and gives it back, and uses five units of 1; the report is zero units of 1. *)
Definition cyc : node -> list rex := fun u => if eqb u (1, 1)%nat then [RX 2 Input (Some 2%nat) (Some (Q 1 1)) false] else if eqb u (2, 2)%nat then [RX 1 Input (Some 1%nat) (Some (Q 1 2)) false] else [].
Definition D80c : db := DB (fun u => if eqb u (3, 3)%nat then
    [RX 1 Input (Some 1%nat) (Some (Q 5 1)) false; RX 2 Input (Some 2%nat) (Some (Q 1 1)) false; RX 2 Output (Some 2%nat) (Some (Q 1 1)) false] else cyc u)
  (fun _ _ => []) (fun u => if mem u [(1, 1); (2, 2); (3, 3)]%nat then Some Output else None).
Theorem C80_refuted_cancellation : exists D vs f, built D Abort comp80 vs f /\ in_fg f (3, 3)%nat /\ ordinary D Abort (3, 3)%nat
  /\ use D Abort (3, 3)%nat (2, 2)%nat = 0 /\ use D Abort (3, 3)%nat (1, 1)%nat = Q 5 1
  /\ exists z, dependencies f 3 3 = BOk [XD 3 1 Input (Some 1%nat) z] /\ z = 0.
Proof.
  exists D80c, [(3, 3)]%nat. eexists. split; [exists (fun l => l), 10%nat; eexists; split; [auto|split; [vm_compute; reflexivity|vm_compute; reflexivity]]|].
  split; [apply in_fg_check; vm_compute; reflexivity|].
  split; [split; [reflexivity|split; [intros q J; vm_compute in J; destruct J|vm_compute; reflexivity]]|].
  split; [apply Qc_is_canon; vm_compute; reflexivity|]. split; [apply Qc_is_canon; vm_compute; reflexivity|].
  eexists. split; [vm_compute; reflexivity|]. apply Qc_is_canon; vm_compute; reflexivity.
Qed.
Print Assumptions C80_refuted_cancellation.
(** Refuted for a treatment process (reference flow an input): process 3 sends two units of waste 1 out to be treated; the report is an
    input of two units. *)
Definition D80i : db := DB (fun u => if eqb u (3, 3)%nat then [RX 1 Output (Some 1%nat) (Some (Q 2 1)) false] else
     if eqb u (1, 1)%nat then [RX 2 Input (Some 2%nat) (Some (Q 1 1)) false] else if eqb u (2, 2)%nat then [RX 1 Output (Some 1%nat) (Some (Q 1 2)) false] else [])
  (fun _ _ => []) (fun u => if eqb u (1, 1)%nat then Some Input else if mem u [(2, 2); (3, 3)]%nat then Some Output else None).
Theorem C80_refuted_treatment : exists D vs f, built D Abort comp80 vs f /\ in_fg f (3, 3)%nat /\ ordinary D Abort (3, 3)%nat /\ no_cancellation D Abort (3, 3)%nat
  /\ db_ref D (1, 1)%nat = Some Input /\ In (RX 1 Output (Some 1%nat) (Some (Q 2 1)) false) (db_inv D (3, 3)%nat)
  /\ exists z, dependencies f 3 3 = BOk [XD 3 1 Input (Some 1%nat) z] /\ z = Q 2 1.
Proof.
  exists D80i, [(3, 3)]%nat. eexists. split; [exists (fun l => l), 10%nat; eexists; split; [auto|split; [vm_compute; reflexivity|vm_compute; reflexivity]]|].
  split; [apply in_fg_check; vm_compute; reflexivity|].
  split; [split; [reflexivity|split; [intros q J; vm_compute in J; destruct J|vm_compute; reflexivity]]|].
  split. { split.
    - intros w N. unfold use. destruct (eqb_spec w (1, 1)%nat) as [->|NE]; [intros E; apply (f_equal this) in E; vm_compute in E; discriminate|]. exfalso. apply N.
      unfold uses. change (db_inv D80i (3, 3)%nat) with [RX 1 Output (Some 1%nat) (Some (Q 2 1)) false]. cbn [flat_map].
      change (target D80i Abort (RX 1 Output (Some 1%nat) (Some (Q 2 1)) false)) with (Some (1, 1)%nat). cbn [r_val r_dir].
      destruct (eqb_spec (1, 1)%nat w); [congruence|reflexivity].
    - intros e N. exfalso. apply N. unfold emitted. change (db_inv D80i (3, 3)%nat) with [RX 1 Output (Some 1%nat) (Some (Q 2 1)) false]. cbn [flat_map r_val r_isref r_flow r_dir]. change (starget D80i Abort (RX 1 Output (Some 1%nat) (Some (Q 2 1)) false)) with (Some 1%nat).
      destruct (negb _ && _ && _); reflexivity. }
  split; [reflexivity|]. split; [left; reflexivity|].
  eexists. split; [vm_compute; reflexivity|]. apply Qc_is_canon; vm_compute; reflexivity.
Qed.
Print Assumptions C80_refuted_treatment.

(** * C81 *)
(** [consumers] of any listed product [v], when there is a foreground: one reference for each listed product, other than [v], whose process
    makes a nonzero net use of [v]. *)
Theorem C81_consumers_partial D strat comp vs f v : built D strat comp vs f -> listed f v -> (exists u, in_fg f u) -> (forall w, listed f w -> ordinary D strat w) ->
  exists ts, consumers f (snd v) (fst v) = BOk ts /\ NoDup (map (fun t => (t_flow t, t_term t)) ts)
    /\ (forall t, In t ts -> exists w, listed f w /\ w <> v /\ use D strat w v <> 0 /\ refers t w)
    /\ (forall w, listed f w -> w <> v -> use D strat w v <> 0 -> exists t, In t ts /\ refers t w /\ t_dir t = Output).
Proof.
  intros (ord & fuel & g & ORD & R & FE) JV (u & JU) O. pose proof (listed_iff D strat ord fuel vs g comp f ORD R FE) as LI.
  assert (NE : foreground g <> []) by (apply (in_fg_iff D strat ord fuel vs g comp f ORD R FE) in JU; intros Z; rewrite Z in JU; destruct JU).
  destruct (consumers_any D strat ord fuel vs g comp f ORD R FE v) as (ts & E & N & S); [apply LI; exact JV|exact NE|].
  assert (RV : forall w, listed f w -> (rel D strat w v <> 0 <-> w <> v /\ use D strat w v <> 0)).
  { intros w J. split.
    - intros X. destruct (eqb_spec w v) as [EQ|WV]; [exfalso; apply X; unfold rel; subst w; rewrite eqb_refl; reflexivity|]. split; [exact WV|]. intros Z. apply X. rewrite (rel_ordinary D strat w v (O w J) WV), Z. unfold per_unit, Qcdiv. ring.
    - intros [WV U]. rewrite (rel_ordinary D strat w v (O w J) WV). apply per_unit_nz; [apply O, J|exact U]. }
  exists ts. split; [exact E|]. split; [|split].
  - assert (K : map (fun t => (t_flow t, t_term t)) ts = map (fun v => (fst v, Some (snd v))) (map (fun t => (t_flow t, match t_term t with Some p => p | None => 0%nat end)) ts)).
    { rewrite map_map. apply map_ext_in. intros t J. apply S in J as (w & _ & _ & ->). reflexivity. }
    rewrite K. apply FinFun.Injective_map_NoDup; [intros [a b] [a' b'] X; injection X as -> ->; reflexivity|].
    assert (K2 : forall l, NoDup l -> (forall t, In t l -> exists w, t = make_ref D g w) -> NoDup (map (fun t => (t_flow t, match t_term t with Some p => p | None => 0%nat end)) l)).
    { clear. induction l as [|t l IH]; intros N A; cbn; constructor.
      - inversion N as [|? ? NT NL]; subst. intros J. apply in_map_iff in J as (t' & X & J). destruct (A t (or_introl eq_refl)) as ([a b] & ->). destruct (A t' (or_intror J)) as ([a' b'] & ->). cbn in X. injection X as -> ->. exact (NT J).
      - inversion N; subst. apply IH; auto. intros t' J. apply A. right; exact J. }
    apply K2; [exact N|]. intros t J. apply S in J as (w & _ & _ & ->). eauto.
  - intros t J. apply S in J as (w & JW & N' & ->). apply LI in JW. apply (RV w JW) in N' as [A B]. exists w. repeat split; auto.
  - intros w JW A B. exists (make_ref D g w). split; [|split; [split; reflexivity|unfold make_ref; cbn; destruct (O w JW) as (-> & _); reflexivity]].
    apply S. exists w. split; [apply LI; exact JW|]. split; [apply RV; auto|reflexivity].
Qed.
Print Assumptions C81_consumers_partial.
(** Duality: [u] is among the consumers of [w] exactly if [w] is among the dependencies of [u], for foreground [u]. *)
Theorem C81_duality_partial D strat comp vs f u w : built D strat comp vs f -> in_fg f u -> listed f w -> (forall v, listed f v -> ordinary D strat v) -> no_cancellation D strat u ->
  exists xs ts, dependencies f (snd u) (fst u) = BOk xs /\ consumers f (snd w) (fst w) = BOk ts
    /\ ((exists x, In x xs /\ x_flow x = fst w /\ x_term x = Some (snd w)) <-> (exists t, In t ts /\ refers t u)).
Proof.
  intros B JU JW O NC. assert (LU : listed f u) by (left; exact JU).
  destruct (C80_dependencies_partial D strat comp vs f u B JU (O u LU)) as (xs & E & _ & S); [intros v J; destruct (O v J); assumption|exact NC|].
  destruct (C81_consumers_partial D strat comp vs f w B JW (ex_intro _ u JU) O) as (ts & E2 & _ & S1 & S2).
  exists xs, ts. split; [exact E|]. split; [exact E2|]. split.
  - intros (x & J & F & T). apply S in J as ([a b] & NE & U & ->). cbn in F, T. destruct w as [c d]. cbn in F, T. injection T as ->. subst a. destruct (S2 u LU) as (t & JT & RT & _); [congruence|exact U|]. exists t. auto.
  - intros (t & J & RT). destruct (S1 t J) as (v & JV & NE & U & RV). assert (v = u).
    { destruct u as [a b], v as [c d], RT as [R1 R2], RV as [R3 R4]. cbn in *. rewrite R2 in R4. injection R4 as ->. congruence. }
    subst v. eexists. split; [apply S; exists w; repeat split; [congruence|exact U]|]. split; reflexivity.
Qed.
Print Assumptions C81_duality_partial.
(** Refuted without a foreground: [consumers] of a background product raises. *)
Theorem C81_refuted_no_foreground D strat comp vs f v : built D strat comp vs f -> listed f v -> f_fg f = [] -> exists e, consumers f (snd v) (fst v) = BErr e.
Proof.
  intros (ord & fuel & g & ORD & R & FE) JV Z. pose proof (flat_shape D strat ord fuel vs g comp f ORD R FE) as SH.
  destruct JV as [(t & J & _)|JV]; [rewrite Z in J; destruct J|]. apply (in_bg_iff D strat ord fuel vs g comp f ORD R FE) in JV.
  unfold consumers, index_of, is_in_background. rewrite Z. cbn [last_pos]. rewrite (bg_yes D strat ord fuel vs g comp f ORD R FE v JV).
  destruct (sh_f _ _ _ _ _ SH) as [(_ & X & Y & W)|(af & ad & bf & E1 & E2 & E3 & R1 & C1 & R2 & C2 & R3 & C3 & N1 & N2 & N3)].
  - rewrite Y. cbn. eauto.
  - pose proof (sh_fg _ _ _ _ _ SH) as E. rewrite Z in E. destruct (foreground g) as [|a l] eqn:FG; [|discriminate E].
    exfalso. revert E1. unfold from_engine in FE. destruct (make_foreground g) as [m|] eqn:MF; [|discriminate]. unfold make_foreground in MF. unfold foreground in FG. rewrite FG in MF. cbn in MF. injection MF as <-.
    destruct (g_a g) as [[n a]|]; [|discriminate]. destruct (g_b g) as [[[mr nc] b]|]; [|discriminate]. injection FE as <-. cbn. discriminate.
Qed.
Print Assumptions C81_refuted_no_foreground.
Example C81_example : (forall w, listed flat80 w -> ordinary D80 Abort w) /\ (exists ts, consumers flat80 1 1 = BOk ts /\ map t_flow ts = [3; 2]%nat).
Proof.
  split; [|eexists; split; vm_compute; reflexivity].
  assert (L : forall w, listed flat80 w -> In w [(1, 1); (2, 2); (3, 3); (4, 4)]%nat).
  { assert (X : forall t w, In t (f_fg flat80 ++ f_bg flat80) -> refers t w -> In w [(1, 1); (2, 2); (3, 3); (4, 4)]%nat).
    { intros t [a b] J [F T]. vm_compute in J. destruct J as [<-|[<-|[<-|[<-|[]]]]]; cbn in F, T; injection T as <-; subst a; cbn; tauto. }
    intros w [(t & J & RT)|(t & J & RT)]; [apply (X t w (proj2 (in_app_iff _ _ _) (or_introl J)) RT)|apply (X t w (proj2 (in_app_iff _ _ _) (or_intror J)) RT)]. }
  intros w J. apply L in J. destruct J as [<-|[<-|[<-|[<-|[]]]]]; (split; [reflexivity|]); (split; [intros q J; vm_compute in J; repeat (destruct J as [<-|J]; [reflexivity|]); destruct J|vm_compute; reflexivity]).
Qed.

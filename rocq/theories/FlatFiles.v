(** C83 (files), C84 (foreground traversal), C85 (components) of the flat background (model: FlatModel.v). *)
From Verif Require Import Num Base ProcModel BgModel BgProofs BgProofs2 BgProofs3 BgProofs4 BgProofs5 BgProps BgProps2 BgLciModel BgLciProps BgNetProps FlatModel FlatProofs FlatProofs2 FlatProps FlatMain FlatLci.
From Coq Require Import Permutation Lia.
Open Scope Qc_scope.
Open Scope list_scope.
Local Arguments eqb : simpl never.

(** * C83 *)
Lemma unpack_pack t : unpack (pack t) = t.
Proof. destruct t as [fl [|] t s]; reflexivity. Qed.
Lemma map_unpack l : map unpack (map pack l) = l.
Proof. rewrite map_map. rewrite (map_ext _ (fun t => t)) by apply unpack_pack. apply map_id. Qed.
(** A flat background with a foreground, written completely and read back, is the same object: every query gives the same answer. *)
Theorem C83_roundtrip D strat comp vs f d : built D strat comp vs f -> (exists u, in_fg f u) -> from_file (write_to_file f true d) = BOk f.
Proof.
  intros (ord & fuel & g & ORD & R & FE) (u & JU). pose proof (flat_shape D strat ord fuel vs g comp f ORD R FE) as SH. apply (in_fg_iff D strat ord fuel vs g comp f ORD R FE) in JU.
  destruct (sh_f _ _ _ _ _ SH) as [(Z & _)|(af & ad & bf & E1 & E2 & E3 & _)]; [exfalso; rewrite Z in JU; destruct JU|].
  destruct (sh_A _ _ _ _ _ SH) as (A & EA & _). destruct (sh_B _ _ _ _ _ SH) as (B & EB & _).
  unfold write_to_file, from_file, matrix_file, index_file. cbn [d_mat d_index w_fg w_bg w_ex w_af w_ad w_bf w_lci]. rewrite !map_unpack, E1, E2, E3, EA, EB. cbn.
  destruct f as [f1 f2 f3 f4 f5 f6 f7 f8]. cbn in *. congruence.
Qed.
Print Assumptions C83_roundtrip.
(** With or without a foreground: the listed products, emissions and inventories are the same after reading back. *)
Theorem C83_queries D strat comp vs f d p fl thr count : built D strat comp vs f ->
  exists f', from_file (write_to_file f true d) = BOk f' /\ f_fg f' = f_fg f /\ f_bg f' = f_bg f /\ f_ex f' = f_ex f
    /\ dependencies f' p fl = dependencies f p fl /\ emissions f' p fl = emissions f p fl /\ lci f' p fl thr count = lci f p fl thr count
    /\ is_in_background f' p fl = is_in_background f p fl /\ is_in_scc f' p fl = is_in_scc f p fl.
Proof.
  intros B. pose proof B as (ord & fuel & g & ORD & R & FE). pose proof (flat_shape D strat ord fuel vs g comp f ORD R FE) as SH.
  destruct (foreground g) as [|u l] eqn:FG.
  - destruct (sh_f _ _ _ _ _ SH) as [(Z & E1 & E2 & E3)|(af & ad & bf & E1 & _)].
    2:{ exfalso. revert E1. unfold from_engine in FE. destruct (make_foreground g) as [m|] eqn:MF; [|discriminate]. unfold make_foreground in MF. unfold foreground in FG. rewrite FG in MF. cbn in MF. injection MF as <-.
        destruct (g_a g) as [[n a]|]; [|discriminate]. destruct (g_b g) as [[[mr nc] b]|]; [|discriminate]. injection FE as <-. cbn. discriminate. }
    destruct (sh_A _ _ _ _ _ SH) as (A & EA & _). destruct (sh_B _ _ _ _ _ SH) as (Bm & EB & _).
    pose proof (sh_fg _ _ _ _ _ SH) as EF. rewrite FG in EF. cbn in EF.
    eexists. split; [reflexivity|]. destruct f as [f1 f2 f3 f4 f5 f6 f7 f8]. cbn in *. subst f1 f4 f5 f6 f7 f8. cbn. rewrite !map_unpack.
    repeat split; unfold dependencies, emissions, lci, compute_lci, is_in_background, is_in_scc; cbn; try reflexivity.
  - assert (NE : exists u, in_fg f u) by (exists u; apply (in_fg_iff D strat ord fuel vs g comp f ORD R FE); rewrite FG; left; reflexivity).
    exists f. split; [apply (C83_roundtrip D strat comp vs f d B NE)|]. repeat split; reflexivity.
Qed.
Print Assumptions C83_queries.
(** Written without the background matrices: the inventory of a foreground product silently loses the background emissions, that of a background
    product raises. *)
Theorem C83_without_background D strat comp vs f d u thr count : built D strat comp vs f -> (exists v, in_fg f v) ->
  exists f', from_file (write_to_file f false d) = BOk f' /\ f_fg f' = f_fg f /\ f_bg f' = f_bg f
    /\ (in_fg f u -> lci f' (snd u) (fst u) thr count = bf f (snd u) (fst u) thr count /\ dependencies f' (snd u) (fst u) = dependencies f (snd u) (fst u))
    /\ (in_bg f u -> lci f' (snd u) (fst u) thr count = BErr BNotImplemented).
Proof.
  intros (ord & fuel & g & ORD & R & FE) (v & JV). pose proof (flat_shape D strat ord fuel vs g comp f ORD R FE) as SH. apply (in_fg_iff D strat ord fuel vs g comp f ORD R FE) in JV.
  destruct (sh_f _ _ _ _ _ SH) as [(Z & _)|(af & ad & bfm & E1 & E2 & E3 & _)]; [exfalso; rewrite Z in JV; destruct JV|].
  eexists. split; [reflexivity|]. cbn. rewrite !map_unpack. split; [reflexivity|]. split; [reflexivity|]. split.
  - intros JU. apply (in_fg_iff D strat ord fuel vs g comp f ORD R FE) in JU. pose proof (fg_not_bg D strat ord fuel vs g ORD R u JU) as NB.
    unfold lci, compute_lci, bf, dependencies, is_in_background, x_tilde. cbn. rewrite ?map_unpack, (bg_no D strat ord fuel vs g comp f ORD R FE u NB), (fg_yes D strat ord fuel vs g comp f ORD R FE u JU).
    unfold complete, dot, nrows, iterate. destruct (f_A f), (f_B f); cbn; rewrite E1, E2, E3; split; reflexivity.
  - intros JU. apply (in_bg_iff D strat ord fuel vs g comp f ORD R FE) in JU.
    unfold lci, compute_lci. cbn. rewrite ?map_unpack, (bg_yes D strat ord fuel vs g comp f ORD R FE u JU). unfold complete. destruct (f_A f), (f_B f); reflexivity.
Qed.
Print Assumptions C83_without_background.
(** A crash during the first write of a file: reading it raises, or gives what a finished write would give. *)
Theorem C83_crash_first_write f complete d' : In d' (write_steps f complete (Disk None None)) -> (exists e, from_file d' = BErr e) \/ from_file d' = from_file (write_to_file f complete (Disk None None)).
Proof. cbn. intros [<-|[<-|[<-|[]]]]; cbn; eauto. Qed.
(** Refuted when overwriting: after a crash between the two files the new matrices are read with the old index.  The old database is D80 (4 needs
    7 units of 3), in the new one 3 and 4 change roles (3 needs 8 units of 4): the file says that 4 needs 8 units of 3. *)
Definition D83 : db := DB
  (fun u => if eqb u (4, 4)%nat then [RX 1 Input (Some 1%nat) (Some (Q 1 2)) false]
            else if eqb u (3, 3)%nat then [RX 4 Input (Some 4%nat) (Some (Q 8 1)) false] else cyc u)
  (fun _ _ => []) (fun u => if mem u [(1, 1); (2, 2); (3, 3); (4, 4)]%nat then Some Output else None).
Definition eng83 : eng := match brun D83 Abort 10 (fun l => l) eng0 [AddAll [(3, 3)]%nat] with UOk g => g | _ => eng0 end.
Definition flat83 : flat := match from_engine D83 comp80 eng83 with BOk f => f | BErr _ => FB [] [] [] None None None None None end.
Lemma built83 : built D83 Abort comp80 [(3, 3)]%nat flat83.
Proof.
  exists (fun l => l), 10%nat, eng83. split; [auto|]. split.
  - assert (X : match brun D83 Abort 10 (fun l => l) eng0 [AddAll [(3, 3)]%nat] with UOk _ => true | _ => false end = true) by (vm_compute; reflexivity).
    unfold eng83. destruct (brun D83 Abort 10 (fun l => l) eng0 [AddAll [(3, 3)]%nat]); congruence.
  - assert (X : match from_engine D83 comp80 eng83 with BOk _ => true | _ => false end = true) by (vm_compute; reflexivity).
    unfold flat83. destruct (from_engine D83 comp80 eng83); congruence.
Qed.
Definition has_exch (x : xdef) (r : bret (list xdef)) : bool := match r with BOk xs => existsb (fun y => Nat.eqb (x_proc x) (x_proc y) && Nat.eqb (x_flow x) (x_flow y) && eqb (x_term x) (x_term y)
   && match x_dir x, x_dir y with Input, Input | Output, Output => true | _, _ => false end && Qc_eq_bool (x_val x) (x_val y))%bool xs | BErr _ => false end.
Lemma has_exch_In x r : has_exch x r = true <-> exists xs, r = BOk xs /\ In x xs.
Proof.
  destruct r as [xs|]; cbn; [|split; [discriminate|intros (xs & E & _); discriminate]]. rewrite existsb_exists. split.
  - intros (y & J & E). exists xs. split; [reflexivity|]. repeat (apply andb_true_iff in E as [E ?]). destruct x as [p fl d t q], y as [p' fl' d' t' q']. cbn in *. apply Nat.eqb_eq in E. subst p'.
    match goal with H : Nat.eqb fl fl' = true |- _ => apply Nat.eqb_eq in H; subst fl' end. destruct (eqb_spec t t') as [<-|]; [|discriminate]. destruct (Qc_eqb_spec q q') as [<-|]; [|discriminate].
    destruct d, d'; try discriminate; exact J.
  - intros (ys & E & J). injection E as <-. exists x. split; [exact J|]. destruct x as [p fl d t q]. cbn. rewrite !Nat.eqb_refl, eqb_refl. destruct (Qc_eqb_spec q q); [|contradiction]. destruct d; reflexivity.
Qed.
Theorem C83_refuted_crash_overwrite : exists D1 D2 vs1 vs2 f1 f2 d' f', built D1 Abort comp80 vs1 f1 /\ built D2 Abort comp80 vs2 f2
  /\ In d' (write_steps f2 true (write_to_file f1 true (Disk None None))) /\ from_file d' = BOk f'
  /\ exists x, (exists xs, dependencies f' 4 4 = BOk xs /\ In x xs) /\ ~ (exists xs, dependencies f1 4 4 = BOk xs /\ In x xs) /\ ~ (exists xs, dependencies f2 4 4 = BOk xs /\ In x xs).
Proof.
  exists D80, D83, [(4, 4)]%nat, [(3, 3)]%nat, flat80, flat83. eexists. eexists. split; [exact built80|]. split; [exact built83|]. split; [right; left; reflexivity|]. split; [reflexivity|].
  exists (XD 4 3 Input (Some 3%nat) (Q 8 1)). rewrite <- !has_exch_In. split; [vm_compute; reflexivity|]. split; intros X; vm_compute in X; discriminate.
Qed.
Print Assumptions C83_refuted_crash_overwrite.
Example C83_example : (exists u, in_fg flat80 u) /\ from_file (write_to_file flat80 true (Disk None None)) = BOk flat80.
Proof. assert (X : exists u, in_fg flat80 u) by (exists (3, 3)%nat; apply in_fg_check; vm_compute; reflexivity). split; [exact X|]. exact (C83_roundtrip D80 Abort comp80 _ flat80 _ built80 X). Qed.

(** * C85 *)
(** [is_in_background] and [is_in_scc] of any listed product. *)
Theorem C85_components D strat comp vs f u : built D strat comp vs f -> listed f u ->
  (is_in_background f (snd u) (fst u) = true <-> in_bg f u)
  /\ exists b, is_in_scc f (snd u) (fst u) = BOk b /\ (b = true <-> exists v, v <> u /\ needs D strat u v /\ needs D strat v u).
Proof.
  intros (ord & fuel & g & ORD & R & FE) JU. pose proof (in_bg_iff D strat ord fuel vs g comp f ORD R FE u) as IB. pose proof (listed_iff D strat ord fuel vs g comp f ORD R FE u) as LI.
  apply LI in JU. destruct (C30_components D strat ord fuel _ g ORD R) as (CX & CY & CZ).
  assert (LBL : scc_label g u <> None <-> exists v, v <> u /\ needs D strat u v /\ needs D strat v u).
  { unfold scc_label. destruct (proj1 (CX u) JU) as [k CK]. change (scc_id (g_st g) u) with (component g u). rewrite CK.
    destruct (brun_ok D strat ord ORD fuel _ eng0 g (GI_eng0 D strat) R) as [G _]. pose proof (gi_ti _ _ _ G) as I.
    assert (KN : nth_error (e_pf (g_st g)) k <> None).
    { destruct (ti_root _ _ _ _ I u k CK) as (r & JR & <- & _). pose proof (nth_pos r _ JR) as X. unfold idx. rewrite X. discriminate. }
    assert (SN : NoDup (scc (g_st g) k)). { unfold scc. destruct (dget k (e_sccs (g_st g))) as [l|] eqn:E; [|constructor]. apply (proj2 (ti_snd _ _ _ _ I) k l E). }
    assert (JS : In u (scc (g_st g) k)) by (apply CZ; exact CK).
    destruct (Nat.ltb_spec 1 (length (scc (g_st g) k))) as [L|L].
    - destruct (nth_error (e_pf (g_st g)) k); [|contradiction]. split; [intros _|discriminate].
      destruct (scc (g_st g) k) as [|a [|b l]] eqn:ES; cbn in L; try lia.
      assert (X : exists v, In v (a :: b :: l) /\ v <> u).
      { destruct (eqb_spec a u) as [->|NE]; [|exists a; split; [left; reflexivity|exact NE]]. exists b. split; [right; left; reflexivity|]. intros ->. inversion SN as [|? ? N1 _]; subst. apply N1. left; reflexivity. }
      destruct X as (v & JV & NE). rewrite <- ES in JV. apply CZ in JV. assert (IV : indexed g v) by (apply CX; eauto). exists v. split; [exact NE|]. apply (CY u v JU IV). congruence.
    - split; [intros X; contradiction|]. intros (v & NE & N1 & N2) _.
      assert (IV : indexed g v).
      { destruct (C31_coverage D strat ord fuel [AddAll vs] g ORD) as (X & _ & _); [intros a b [A|[]] [B|[]]; congruence|exact R|]. apply X in JU as (r & JR & N). apply X. exists r. split; [exact JR|]. eapply Relation_Operators.rt_trans; eassumption. }
      assert (JV : In v (scc (g_st g) k)) by (apply CZ; rewrite <- CK; symmetry; apply (CY u v JU IV); auto).
      destruct (scc (g_st g) k) as [|a [|b l]]; cbn in L; [destruct JS| |lia]. destruct JS as [->|[]]. destruct JV as [->|[]]. contradiction. }
  assert (LB2 : match scc_label g u with Some _ => true | None => false end = true <-> exists v, v <> u /\ needs D strat u v /\ needs D strat v u).
  { rewrite <- LBL. destruct (scc_label g u); split; congruence. }
  unfold is_in_background, is_in_scc. destruct (mem u (background g)) eqn:M.
  - apply mem_In in M. rewrite (bg_yes D strat ord fuel vs g comp f ORD R FE u M). split; [split; auto; intros _; apply IB, M|].
    rewrite (nth_bg D strat ord fuel vs g comp f ORD R FE), (nth_pos u _ M). cbn. eexists. split; [reflexivity|exact LB2].
  - assert (NB : ~ In u (background g)) by (intros X; apply mem_In in X; congruence). rewrite (bg_no D strat ord fuel vs g comp f ORD R FE u NB). split; [split; [discriminate|intros X; apply IB in X; contradiction]|].
    assert (JF : In u (foreground g)) by (apply (fg_spec D strat ord fuel vs g ORD R); auto). rewrite (fg_yes D strat ord fuel vs g comp f ORD R FE u JF).
    rewrite (nth_fg D strat ord fuel vs g comp f ORD R FE), (nth_pos u _ JF). cbn. eexists. split; [reflexivity|exact LB2].
Qed.
Print Assumptions C85_components.
Example C85_example : is_in_scc flat80 1 1 = BOk true /\ is_in_scc flat80 3 3 = BOk false /\ is_in_background flat80 2 2 = true /\ listed flat80 (1, 1)%nat.
Proof. split; [vm_compute; reflexivity|]. split; [vm_compute; reflexivity|]. split; [vm_compute; reflexivity|]. right. apply in_bg_check. vm_compute. reflexivity. Qed.

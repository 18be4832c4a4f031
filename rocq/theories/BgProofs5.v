(** The engine invariant [GI] is kept by every call (BgModel.v). *)
From Verif Require Import Num Base ProcModel BgModel BgProofs BgProofs2 BgProofs3 BgProofs4.
From Coq Require Import Relations Sorted Permutation.
Open Scope nat_scope.
Open Scope list_scope.

Lemma NoDup_app_intro {A} (l m : list A) : NoDup l -> NoDup m -> (forall x, In x l -> In x m -> False) -> NoDup (l ++ m).
Proof.
  induction 1 as [|a l N ND IH]; cbn; auto. intros M Dj. constructor; [|apply IH; auto; intros; eapply Dj; cbn; eauto].
  intros J. apply in_app_iff in J as [J|J]; [auto|]. apply (Dj a); cbn; auto.
Qed.
Lemma filter_length_le' {A} (f : A -> bool) l : length (filter f l) <= length l.
Proof. induction l as [|a l IH]; cbn; [lia|]. destruct (f a); cbn; lia. Qed.

Lemma filter_false {A} (f : A -> bool) l : (forall x, f x = false) -> filter f l = [].
Proof. intros F. induction l as [|a l IH]; cbn; auto. rewrite F. exact IH. Qed.

Section Upd.
Context (D : db) (strat : strategy) (ord : list nat -> list nat) (ORD : forall l, Permutation (ord l) l).
Notation edge := (edge D strat). Notation reach := (reach D strat). Notation TI := (TI D strat). Notation CI := (CI D strat). Notation GI := (GI D strat).
Notation Ints := (Ints D strat). Notation Cuts := (Cuts D strat). Notation Evs := (Evs D strat). Notation evq := (evq D strat). Notation adj := (adj D strat).

Lemma is_bg_spec c k : is_bg_scc c k = true <-> c_bg c = Some k \/ In k (c_down c).
Proof.
  unfold is_bg_scc. rewrite Bool.orb_true_iff, mem_In, eqb_eq. intuition congruence.
Qed.
Lemma bg_list_spec s c v : TI [] s -> CI s c -> (In v (bg_list s c) <-> exists k, scc_id s v = Some k /\ is_bg_scc c k = true).
Proof.
  intros I C. unfold bg_list. split.
  - destruct (c_bg c) as [b|] eqn:B; [|intros []]. intros J. apply in_app_iff in J as [J|J].
    + exists b. split; [apply (ti_sccs _ _ _ _ I); exact J|]. apply is_bg_spec. auto.
    + apply in_flat_map in J as [k [K J]]. exists k. split; [apply (ti_sccs _ _ _ _ I); exact J|]. apply is_bg_spec. auto.
  - intros [k [K B]]. apply is_bg_spec in B. apply (ti_sccs _ _ _ _ I) in K. destruct B as [B|B].
    + rewrite B. apply in_app_iff; auto.
    + destruct (c_bg c) as [b|] eqn:CB; [|destruct (ci_nobg _ _ _ _ C CB) as [Z _]; rewrite Z in B; destruct B].
      apply in_app_iff. right. apply in_flat_map. eauto.
Qed.
Lemma bg_closed s c u w : TI [] s -> CI s c -> In u (bg_list s c) -> edge u w -> In w (bg_list s c).
Proof.
  intros I C J Ed. destruct (eq_dec w u) as [->|N]; auto. apply (bg_list_spec s c) in J as [a [A B]]; auto.
  assert (P : In u (e_pf s)) by (apply (labelled_pf D strat s u I); eauto).
  destruct (ci_e1 _ _ _ _ C u w P Ed N) as [a' [r [A' [R Q]]]]. replace a' with a in * by congruence.
  apply bg_list_spec; auto. exists r. split; auto. apply is_bg_spec. apply is_bg_spec in B as [B|B].
  - destruct (ci_bg _ _ _ _ C a r B Q) as [->|X]; auto.
  - right. eapply ci_down; eauto.
Qed.
Lemma scc_nd s k : TI [] s -> NoDup (scc s k).
Proof. intros I. unfold scc. destruct (dget k (e_sccs s)) as [l|] eqn:E; [|constructor]. destruct (ti_snd _ _ _ _ I) as [_ S]. apply (S k l E). Qed.
Lemma NoDup_flat_scc s ks : TI [] s -> NoDup ks -> NoDup (flat_map (scc s) ks).
Proof.
  intros I. induction 1 as [|k ks N ND IH]; cbn; [constructor|]. apply NoDup_app_intro; auto; [apply scc_nd; auto|].
  intros x J K. apply in_flat_map in K as [k' [K1 K2]]. apply (ti_sccs _ _ _ _ I) in J, K2. replace k' with k in K1 by congruence. contradiction.
Qed.
Lemma bg_list_nd s c : TI [] s -> CI s c -> NoDup (bg_list s c).
Proof.
  intros I C. unfold bg_list. destruct (c_bg c) as [b|] eqn:B; [|constructor]. destruct (ci_nb _ _ _ _ C b B) as [NB _].
  apply (NoDup_flat_scc s (b :: c_down c) I). constructor; auto. apply (ci_dn _ _ _ _ C).
Qed.

Lemma fg_order_ok fuel s c : TI [] s -> CI s c ->
  match fg_order fuel ord s c with
  | Some o => Permutation o (fgk s c) /\ topo c o
  | None => fuel < length (dkeys (e_sccs s))
  end.
Proof.
  intros I C. unfold fg_order. fold (fgk s c). set (has := fun k : nat => match cols_of c k with [] => true | _ => false end).
  set (ns := filter (fun k => match cols_of c k with [] => false | _ => true end) (fgk s c)).
  assert (NS : ns = filter (fun k => negb (has k)) (fgk s c)).
  { unfold ns. apply filter_ext. intros k. unfold has. destruct (cols_of c k); reflexivity. }
  assert (ND : NoDup (fgk s c)) by (apply NoDup_filter; apply (ti_snd _ _ _ _ I)).
  assert (AC : acyclic (dep c)). { eapply acyclic_iff; [|apply (cs_acyclic D strat s c I)]; [intros x y; symmetry; apply dep_cs|intros a r; apply (ci_e2 _ _ _ _ C)]. }
  assert (CLO : forall k j, In k (fgk s c) -> dep c j k -> In j (fgk s c)).
  { intros k j K J. apply dep_cs in J as [J N]. destruct (ci_e2 _ _ _ _ C j k J) as [u [w [_ [U _]]]]. apply filter_In. split; [eapply scc_key; eauto|].
    apply filter_In in K as [_ K]. apply Bool.negb_true_iff. apply Bool.negb_true_iff in K. destruct (is_bg_scc c j) eqn:B; auto. exfalso.
    apply is_bg_spec in B. assert (X : is_bg_scc c k = true); [|congruence]. apply is_bg_spec. destruct B as [B|B].
    - destruct (ci_bg _ _ _ _ C j k B J) as [->|X]; auto.
    - right. eapply ci_down; eauto. }
  assert (LN : length ns <= length (dkeys (e_sccs s))).
  { unfold ns, fgk. etransitivity; [apply filter_length_le'|apply filter_length_le']. }
  destruct (fg_loop_ok c ord ORD AC (Nat.max fuel (length ns)) ns (filter has (fgk s c))) as [o [E [P T]]].
  - lia.
  - rewrite NS. apply NoDup_filter; exact ND.
  - intros a k b E j [J _]. assert (K : In k (filter has (fgk s c))) by (rewrite E; apply in_app_iff; cbn; auto).
    apply filter_In in K as [_ K]. unfold has in K. destruct (cols_of c k); [destruct J|discriminate].
  - intros k j K J. assert (X : In j (fgk s c)) by (apply (CLO k); auto; rewrite NS in K; apply filter_In in K; tauto).
    rewrite NS. destruct (has j) eqn:H; [right|left]; apply filter_In; rewrite ?H; auto.
  - destruct (Nat.le_gt_cases (length ns) fuel) as [LE|GT].
    + rewrite Nat.max_l in E by exact LE. rewrite E. split; [|exact T]. rewrite P, NS. apply filter_split_perm.
    + destruct (fg_loop fuel ord c ns (filter has (fgk s c))) as [o'|] eqn:E'; [|lia].
      assert (M : forall n m ns o o', n <= m -> fg_loop n ord c ns o = Some o' -> fg_loop m ord c ns o = Some o').
      { clear. induction n as [|n IH]; intros m ns o o' L E; destruct ns as [|k ns]; cbn in E; try discriminate; try (destruct m; exact E).
        destruct m as [|m]; [lia|]. cbn. apply IH; [lia|exact E]. }
      rewrite (M fuel _ ns _ o' (Nat.le_max_l _ _) E') in E. injection E as ->. split; [|exact T]. rewrite P, NS. apply filter_split_perm.
Qed.

Lemma adjust_all_ok {B} s (l : list (node * B * Qc)) : (forall e, In e l -> ev_of s (fst (fst e)) = evq (fst (fst e))) ->
  match adjust_all s l with
  | BOk l' => l' = map adj l /\ (forall e, In e l -> evq (fst (fst e)) <> Q2Qc 0)
  | BErr e => e = BZeroDivision /\ exists x, In x l /\ evq (fst (fst x)) = Q2Qc 0
  end.
Proof.
  induction l as [|[[u w] v] l IH]; intros S; cbn [adjust_all]; [split; [reflexivity|intros e []]|].
  pose proof (S (u, w, v) (or_introl eq_refl)) as EU. cbn [fst] in EU. rewrite EU. destruct (eqb_spec (evq u) (Q2Qc 0)) as [Z|NZ].
  - split; auto. exists (u, w, v). cbn; auto.
  - specialize (IH (fun e h => S e (or_intror h))). destruct (adjust_all s l) as [l'|e].
    + destruct IH as [-> IH]. split; [reflexivity|]. intros e [<-|J]; auto.
    + destruct IH as [-> [x [X1 X2]]]. split; auto. exists x. cbn; auto.
Qed.
Lemma mat_rows_some {B} (rf cf : B -> option nat) val (l : list B) : (forall e, In e l -> rf e <> None /\ cf e <> None) -> exists t, mat_rows rf cf val l = Some t.
Proof.
  induction l as [|x l IH]; intros S; cbn; [eauto|]. destruct (S x (or_introl eq_refl)) as [S1 S2].
  destruct (rf x); [|congruence]. destruct (cf x); [|congruence]. destruct IH as [t ->]; [intros; apply S; cbn; auto|]. eauto.
Qed.
Lemma Permutation_split {A} (f : A -> bool) (l m : list A) : Permutation l m -> Permutation (filter f l ++ filter (fun x => negb (f x)) l) m.
Proof. intros P. rewrite filter_split_perm. exact P. Qed.

Definition net_zero (s : est) : Prop := exists u, In u (e_pf s) /\ evq u = Q2Qc 0.
Theorem eng_update_ok fuel g vs s : GI g -> batch D strat vs (g_st g) s ->
  match eng_update fuel ord (with_st g s) with
  | UOk g' => GI g' /\ g_st g' = taken s /\ g_all g' = g_all g
  | UErr _ e => e = BZeroDivision /\ net_zero s
  | UFuel => fuel < length (dkeys (e_sccs s))
  end.
Proof.
  intros G B. pose proof B as [I [new [A1 [_ [_ [A4 [A5 [A6 [A7 [A8 [A9 A10]]]]]]]]]]]. destruct (gi_inc _ _ _ G) as [N1 N2].
  rewrite N1 in A4. rewrite N2 in A5. cbn [app] in A4, A5.
  pose proof (CI_update D strat vs (g_st g) s (g_cg g) fuel (gi_ti _ _ _ G) N1 (gi_ci _ _ _ G) B) as UC.
  unfold eng_update. cbn [with_st g_st g_cg g_a g_b g_interior g_foreground g_bgem g_cutoff g_all].
  destruct (update_graph fuel s (g_cg g)) as [c|] eqn:UG; [|exact UC].
  pose proof (fg_order_ok fuel s c I UC) as FO. destruct (fg_order fuel ord s c) as [order|]; [|exact FO]. destruct FO as [FP FT].
  assert (EVS : forall v, In v (e_pf s) -> dget v (e_ev s) = Evs v).
  { intros v J. rewrite A1 in J. apply in_app_iff in J as [J|J]; [rewrite A6 by exact J; apply (gi_ev _ _ _ G); exact J|auto]. }
  assert (NP : forall v, In v new -> In v (e_pf s)) by (intros v J; rewrite A1; apply in_app_iff; auto).
  assert (IP : forall e, In e (rev (e_int s)) -> In (fst (fst e)) new).
  { intros e J. apply in_rev in J. apply (Permutation_in _ A4) in J. apply in_flat_map in J as [u [J1 J2]]. apply (Ints_parent D strat) in J2. rewrite J2; auto. }
  assert (CP : forall e, In e (rev (e_cut s)) -> In (fst (fst e)) new).
  { intros e J. apply in_rev in J. apply (Permutation_in _ A5) in J. apply in_flat_map in J as [u [J1 J2]]. apply (Cuts_parent D strat) in J2. rewrite J2; auto. }
  assert (EV : forall v, In v new -> ev_of s v = evq v) by (intros v J; unfold ev_of, BgProofs4.evq; rewrite EVS; auto).
  pose proof (adjust_all_ok s (rev (e_int s)) (fun e h => EV _ (IP e h))) as HI.
  pose proof (adjust_all_ok s (rev (e_cut s)) (fun e h => EV _ (CP e h))) as HC.
  destruct (adjust_all s (rev (e_int s))) as [li|e]; [|destruct HI as [-> [x [X1 X2]]]; split; auto; exists (fst (fst x)); auto].
  destruct (adjust_all s (rev (e_cut s))) as [lc|e]; [|destruct HC as [-> [x [X1 X2]]]; split; auto; exists (fst (fst x)); auto].
  destruct HI as [-> HI], HC as [-> HC]. unfold split_bg.
  set (fb := fun e : node * node * Qc => mem (fst (fst e)) (bg_list s c)). set (fc := fun e : node * emis * Qc => mem (fst (fst e)) (bg_list s c)).
  assert (PI : Permutation ((g_interior g ++ filter fb (map adj (rev (e_int s)))) ++ g_foreground g ++ filter (fun x => negb (fb x)) (map adj (rev (e_int s))))
                 (map adj (flat_map Ints (e_pf s)))).
  { rewrite A1, flat_map_app, map_app, <- (gi_int _ _ _ G), <- A4.
    rewrite <- app_assoc. rewrite (app_assoc (filter fb _)). rewrite (Permutation_app_comm (filter fb _) (g_foreground g)). rewrite <- (app_assoc (g_foreground g)). rewrite filter_split_perm, <- app_assoc.
    do 2 apply Permutation_app_head. apply Permutation_map. symmetry. apply Permutation_rev. }
  assert (PC : Permutation ((g_bgem g ++ filter fc (map adj (rev (e_cut s)))) ++ g_cutoff g ++ filter (fun x => negb (fc x)) (map adj (rev (e_cut s))))
                 (map adj (flat_map Cuts (e_pf s)))).
  { rewrite A1, flat_map_app, map_app, <- (gi_cut _ _ _ G), <- A5.
    rewrite <- app_assoc. rewrite (app_assoc (filter fc _)). rewrite (Permutation_app_comm (filter fc _) (g_cutoff g)). rewrite <- (app_assoc (g_cutoff g)). rewrite filter_split_perm, <- app_assoc.
    do 2 apply Permutation_app_head. apply Permutation_map. symmetry. apply Permutation_rev. }
  assert (IT : TI [] (taken s)).
  { apply (TI_same D strat [] s); auto; [unfold same_graph; auto|tauto|apply (ti_ems _ _ _ _ I)]. }
  assert (CT : CI (taken s) c) by (destruct UC; constructor; auto).
  assert (EM : forall e, In e (e_ems s) <-> In e (map cem (flat_map Cuts (e_pf s)))).
  { intros e. rewrite A9, (gi_ems _ _ _ G), A1, flat_map_app, map_app, in_app_iff. tauto. }
  assert (EN : NoDup (e_ems s)) by (apply A10, (gi_emsnd _ _ _ G)).
  assert (NA : c_bg c = None -> g_a g = None /\ filter fb (map adj (rev (e_int s))) = [] /\ filter fc (map adj (rev (e_cut s))) = []).
  { intros NB. assert (BL : bg_list s c = []) by (unfold bg_list; rewrite NB; reflexivity). split.
    - destruct (g_a g) as [a|] eqn:GA; auto. exfalso. destruct (c_bg (g_cg g)) as [b0|] eqn:CB; [|rewrite (proj2 (gi_a _ _ _ G) CB) in GA; discriminate].
      clear -UG NB CB. unfold update_graph in UG. destruct (largest (e_sccs s) 0 None) as [ml ind].
      destruct (Nat.ltb 1 ml); [|injection UG as <-; cbn in NB; congruence]. destruct ind as [b|]; [|injection UG as <-; cbn in NB; congruence].
      destruct (downstream fuel _ b _); [|discriminate]. injection UG as <-. discriminate.
    - split; apply filter_false; intros x; unfold fb, fc; rewrite BL; reflexivity. }
  assert (BASE : forall a b, (a = None <-> c_bg c = None) ->
      (a = None -> b = None /\ g_interior g ++ filter fb (map adj (rev (e_int s))) = [] /\ g_bgem g ++ filter fc (map adj (rev (e_cut s))) = []) ->
      GI (Eng (taken s) c order (g_interior g ++ filter fb (map adj (rev (e_int s)))) (g_foreground g ++ filter (fun x => negb (fb x)) (map adj (rev (e_int s))))
         (g_bgem g ++ filter fc (map adj (rev (e_cut s)))) (g_cutoff g ++ filter (fun x => negb (fc x)) (map adj (rev (e_cut s)))) a b (g_all g))).
  { intros a b HA HB. constructor; cbn [g_st g_cg g_order g_interior g_foreground g_bgem g_cutoff g_a g_b taken e_int e_cut e_pf e_ev e_ems]; auto. }
  destruct (c_bg c) as [b0|] eqn:CB.
  - destruct (g_a g) as [a|] eqn:GA.
    + split; [|auto]. apply BASE; [split; discriminate|discriminate].
    + destruct (gi_ab _ _ _ G GA) as [Z1 [Z2 Z3]]. cbn [g_interior g_bgem]. rewrite Z2, Z3. cbn [app].
      assert (HB : forall v, In v (bg_list s c) -> bg_dict s c v <> None) by (intros v J; unfold bg_dict; rewrite (proj2 (mem_In _ _) J); discriminate).
      destruct (mat_rows_some (fun e : node * node * Qc => bg_dict s c (snd (fst e))) (fun e => bg_dict s c (fst (fst e))) snd (filter fb (map adj (rev (e_int s))))) as [ra RA].
      { intros e J. apply filter_In in J as [J1 J2]. unfold fb in J2. apply mem_In in J2. split; [|apply HB; exact J2].
        apply HB. eapply bg_closed; eauto. apply in_map_iff in J1 as [[[u w] q] [<- J1]]. cbn in *. apply in_rev in J1. apply (Permutation_in _ A4) in J1.
        apply in_flat_map in J1 as [u' [_ J1]]. apply In_Ints in J1 as [-> [J1 _]]. exact J1. }
      destruct (mat_rows_some (fun e : node * emis * Qc => posof (snd (fst e)) (e_ems s)) (fun e => bg_dict s c (fst (fst e))) snd (filter fc (map adj (rev (e_cut s))))) as [rb RB].
      { intros e J. apply filter_In in J as [J1 J2]. unfold fc in J2. apply mem_In in J2. split; [|apply HB; exact J2].
        unfold posof. apply in_map_iff in J1 as [[[u w] q] [<- J1]]. cbn in *. assert (X : In w (e_ems s)); [|rewrite (proj2 (mem_In _ _) X); discriminate].
        apply A9. right. apply in_map_iff. exists (u, w, q). split; auto. apply in_rev in J1. apply (Permutation_in _ A5) in J1. exact J1. }
      unfold a_rows, b_rows. cbn [g_interior g_bgem] in *. rewrite RA, RB. split; [|auto]. rewrite Z2, Z3 in BASE. cbn [app] in BASE. apply BASE; [split; discriminate|discriminate].
  - destruct (NA eq_refl) as [GA [F1 F2]]. split; [|auto]. apply BASE; [tauto|]. intros _. destruct (gi_ab _ _ _ G GA) as [Z1 [Z2 Z3]]. rewrite Z1, Z2, Z3, F1, F2. auto.
Qed.

(** * Histories *)
Definition bcall_products (c : bcall) : list node := match c with AddRef v => [v] | AddAll vs => vs end.
Definition is_root (cs : list bcall) (v : node) : Prop := exists c, In c cs /\ In v (bcall_products c).

Theorem bcall_ok fuel g c g' : GI g -> bcall_run D strat fuel ord g c = UOk g' -> GI g' /\
   (exists new, e_pf (g_st g') = e_pf (g_st g) ++ new /\ forall v, In v new -> exists r, In r (bcall_products c) /\ reach r v)
   /\ (g_all g = false -> incl (bcall_products c) (e_pf (g_st g'))) /\ (g_all g' = true -> g_all g = true \/ exists vs, c = AddAll vs).
Proof.
  intros G R. destruct c as [v|vs]; cbn [bcall_run bcall_products] in *.
  - unfold add_ref_product in R. destruct (mem_spec v (e_pf (g_st g))) as [J|J].
    + injection R as <-. split; auto. split; [exists []; rewrite app_nil_r; split; auto; intros x []|]. split; [intros _ x [<-|[]]; auto|auto].
    + destruct (add_product D strat fuel (g_st g) v) as [s| |] eqn:A; try discriminate.
      pose proof (add_product_batch D strat fuel (g_st g) v s (gi_ti _ _ _ G) A) as B. pose proof (eng_update_ok fuel g _ s G B) as U. rewrite R in U.
      destruct U as [U1 [U2 U3]]. split; auto. destruct B as [_ [new [B1 [B2 [B3 _]]]]]. rewrite U2. cbn [taken e_pf]. split; [exists new; auto|]. split; [intros _; exact B2|]. rewrite U3; auto.
  - unfold add_all_ref_products in R. destruct (g_all g) eqn:GA.
    + injection R as <-. split; auto. split; [exists []; rewrite app_nil_r; split; auto; intros x []|]. split; [discriminate|auto].
    + destruct (add_products D strat fuel (g_st g) vs) as [s| |] eqn:A; try discriminate.
      pose proof (add_products_batch D strat fuel vs (g_st g) s (gi_ti _ _ _ G) A) as B. pose proof (eng_update_ok fuel g _ s G B) as U.
      destruct (eng_update fuel ord (with_st g s)) as [g1| |] eqn:R1; try discriminate. injection R as <-.
      destruct U as [U1 [U2 U3]]. split; [destruct U1; constructor; auto|]. destruct B as [_ [new [B1 [B2 [B3 _]]]]]. cbn [g_st]. rewrite U2. cbn [taken e_pf]. split; [exists new; auto|]. split; [intros _; exact B2|eauto].
Qed.
End Upd.

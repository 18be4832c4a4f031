(** Property C41: reversing direction does not change results (model: FragModel.v). *)
From Verif Require Import Num Base PyStr ProcModel FragModel FragProofs FragProps FragProps2.
Open Scope Qc_scope.
Open Scope string_scope.
Open Scope list_scope.

Lemma comp_comp d : comp (comp d) = d. Proof. destruct d; reflexivity. Qed.
Lemma comp_ne d : comp d <> d. Proof. destruct d; discriminate. Qed.
Lemma neg_evs_neg l : forall l', neg_evs l = Some l' -> neg_evs l' = Some l.
Proof.
  induction l as [|[k [v|]] l IH]; intros l' E; cbn [neg_evs] in E; [injection E as <-; reflexivity| |discriminate].
  destruct (neg_evs l) as [r|]; [|discriminate]. injection E as <-. cbn [neg_evs]. rewrite (IH r eq_refl). replace (- - v) with v by ring. reflexivity.
Qed.
(** * Reversing twice restores every stored value, the direction and everything else *)
Theorem C41_involution h a h1 f : reverse_direction h a = (h1, FOk tt) -> h a = Some f ->
  exists h2, reverse_direction h1 a = (h2, FOk tt) /\ (forall j, h2 j = h j)
  /\ exists f1, h1 a = Some f1 /\ f_dir f1 = comp (f_dir f)
     /\ Forall2 (fun e e' => fst e = fst e' /\ exists v, snd e = Some v /\ snd e' = Some (- v)) (f_evs f) (f_evs f1).
Proof.
  unfold reverse_direction. intros E HA. rewrite HA in E. unfold reversed in E. destruct (neg_evs (f_evs f)) as [e|] eqn:N; [|discriminate]. injection E as <-.
  rewrite hset_same. unfold reversed. cbn [f_evs]. rewrite (neg_evs_neg _ _ N). eexists. split; [reflexivity|]. split.
  - intros j. destruct (Nat.eq_dec j a) as [->|NE]; [rewrite hset_same, HA|rewrite !hset_other by auto; reflexivity]. cbn. rewrite comp_comp. destruct f; reflexivity.
  - eexists. split; [reflexivity|]. split; [reflexivity|]. cbn [f_evs]. revert e N. induction (f_evs f) as [|[k [v|]] l IH]; intros e N; cbn [neg_evs] in N; [injection N as <-; constructor| |discriminate].
    destruct (neg_evs l) as [r|]; [|discriminate]. injection N as <-. constructor; [cbn; eauto|apply IH; reflexivity].
Qed.
Print Assumptions C41_involution.

(** * Effect on a traversal *)
(** the same fragment flows, except that entries of fragment [a] may be reversed, with negated magnitude *)
Inductive flip (a : nat) : ffl -> ffl -> Prop :=
| flip_same r f d m w t c s s' : flips a s s' -> flip a (FF r f d m w t c s) (FF r f d m w t c s')
| flip_rev f d m w w' t c s s' : flips a s s' -> w' = w \/ w' = - w -> flip a (FF (Real a) f d m w t c s) (FF (Real a) f (comp d) (- m) w' t c s')
with flips (a : nat) : list ffl -> list ffl -> Prop :=
| flips_nil : flips a [] []
| flips_cons x y l m : flip a x y -> flips a l m -> flips a (x :: l) (y :: m).
Fixpoint flip_refl a x : flip a x x :=
  match x with FF r f d m w t c s => flip_same a r f d m w t c s s ((fix go l : flips a l l := match l with [] => flips_nil a | y :: k => flips_cons a y y k k (flip_refl a y) (go k) end) s) end.
Lemma flips_refl a l : flips a l l.
Proof. induction l; constructor; auto. apply flip_refl. Qed.
Lemma flips_app a l l' m m' : flips a l l' -> flips a m m' -> flips a (l ++ m) (l' ++ m').
Proof. induction 1; cbn; auto. intros. constructor; auto. Qed.
Lemma flip_scale a k x y : flip a x y -> flip a (fscale k x) (fscale k y).
Proof.
  destruct 1; cbn [fscale]; [constructor; auto|]. replace (- m * k) with (- (m * k)) by ring. constructor; auto. destruct H0 as [->| ->]; [auto|right; ring].
Qed.
Lemma flips_scale a k l m : flips a l m -> flips a (map (fscale k) l) (map (fscale k) m).
Proof. induction 1; cbn [map]; constructor; auto. apply flip_scale; auto. Qed.
Lemma flip_obs a x y : flip a x y -> ff_ref y = ff_ref x /\ ff_flow y = ff_flow x /\ ff_term y = ff_term x /\ ff_cons y = ff_cons x /\ signed (ff_dir y) (ff_mag y) = signed (ff_dir x) (ff_mag x)
  /\ (ff_ref x <> Real a -> ff_dir y = ff_dir x /\ ff_mag y = ff_mag x /\ ff_nw y = ff_nw x).
Proof.
  destruct 1; cbn; repeat split; auto. - destruct d; cbn; ring. - congruence. - congruence. - congruence.
Qed.
Lemma flips_ios a l m : flips a l m -> forall out,
  fold_left (fun out x => if is_null (ff_term x) then out_add out (ff_flow x) (signed (ff_dir x) (ff_mag x)) else out) m out
  = fold_left (fun out x => if is_null (ff_term x) then out_add out (ff_flow x) (signed (ff_dir x) (ff_mag x)) else out) l out.
Proof. induction 1; intros out; cbn [fold_left]; [reflexivity|]. destruct (flip_obs _ _ _ H) as [_ [-> [-> [_ [-> _]]]]]. apply IHflips. Qed.
Lemma flips_internal a l m : flips a l m -> flips a (filter (fun x => negb (is_null (ff_term x))) l) (filter (fun x => negb (is_null (ff_term x))) m).
Proof. induction 1; cbn [filter]; [constructor|]. destruct (flip_obs _ _ _ H) as [_ [_ [-> _]]]. destruct (negb _); auto. constructor; auto. Qed.

Definition rel_res (a : nat) (r r' : fret (list ffl * option Qc)) : Prop :=
  match r, r' with FOk (l, cv), FOk (l', cv') => cv' = cv /\ flips a l l' | FErr e, FErr e' => e' = e | _, _ => False end.
Definition rel_inv (a : nat) (r r' : fret (list ffl * list ffl)) : Prop :=
  match r, r' with FOk (e, i), FOk (e', i') => e' = e /\ flips a i i' | FErr e, FErr e' => e' = e | _, _ => False end.
Definition rel_list (a : nat) (r r' : fret (list ffl)) : Prop := match r, r' with FOk l, FOk l' => flips a l l' | FErr e, FErr e' => e' = e | _, _ => False end.
Lemma group_rel a p rf rd l m : flips a l m -> (forall x, hd_error l = Some x -> ff_ref x <> Real a) -> rel_inv a (group_ios p rf rd true l) (group_ios p rf rd true m).
Proof.
  intros FL HD. unfold group_ios, ios_out. rewrite (flips_ios _ _ _ FL). assert (FI := flips_internal _ _ _ FL). set (il := filter _ l) in *. set (im := filter _ m) in *. clearbody il im.
  match goal with |- context [dget rf ?d] => set (out := d) end. clearbody out.
  destruct FL as [|x y l m F FL]; [reflexivity|]. destruct (flip_obs _ _ _ F) as [_ [_ [_ [_ [_ E]]]]]. destruct (E (HD x eq_refl)) as [_ [-> _]].
  destruct (dget rf out) as [v|]; [|cbn; auto]. destruct (eqb (sign_dir v) rd); [|reflexivity]. destruct (Qclt_le_dec _ _); cbn; auto.
Qed.

Lemma inv_opp (m : Qc) : m <> 0 -> / (- m) = - / m.
Proof.
  intros N. assert (N' : - m <> 0) by (intros Z; apply N; replace m with (- - m) by ring; rewrite Z; ring).
  assert (E : (- m) * / (- m) = (- m) * - / m) by (rewrite Qcmult_inv_r by exact N'; replace (- m * - / m) with (m * / m) by ring; rewrite Qcmult_inv_r by exact N; reflexivity).
  apply (f_equal (fun z => / (- m) * z)) in E. rewrite !Qcmult_assoc in E. rewrite Qcmult_inv_l, !Qcmult_1_l in E by exact N'. exact E.
Qed.
Section P.
Context (cf : nat -> nat -> Qc) (refq : nat -> nat).
Notation trav := (trav cf refq). Notation trav_node := (trav_node cf refq). Notation trav_fg := (trav_fg cf).
Context (h : heap) (a : nat) (f : frag) (e' : dict skey (option Qc)) (sc : scen) (obs : bool).
Hypothesis HA : h a = Some f.
Hypothesis NEV : neg_evs (f_evs f) = Some e'.
Hypothesis NREF : f_parent f <> None.
Hypothesis NBG : f_bg f = false.
Hypothesis SAFE : forall t, termination f sc = FOk t -> t_node t = NNull \/ exists j, t_node t = NFrag j /\ j <> a.
Hypothesis EVOK : match_ev f sc = FOk None -> obs = false -> exists v, dget K0 (f_evs f) = Some (Some v) /\ v <> 0.
Definition rev_frag : frag := Fr (f_parent f) (f_children f) (f_flow f) (comp (f_dir f)) (f_bg f) (f_isbal f) (f_cons f) e' (f_terms f).
Definition h' : heap := hset h a rev_frag.

Lemma dget_neg k l l1 : neg_evs l = Some l1 -> dget k l1 = match dget k l with Some (Some v) => Some (Some (- v)) | o => o end.
Proof.
  revert l1. induction l as [|[j [v|]] l IH]; intros l1 E; cbn [neg_evs] in E; [injection E as <-; reflexivity| |discriminate].
  destruct (neg_evs l) as [r|]; [|discriminate]. injection E as <-. cbn [dget]. destruct (eqb k j); [reflexivity|]. apply IH; reflexivity.
Qed.
Lemma dget_neg_Some k l l1 v : neg_evs l = Some l1 -> dget k l = Some v -> exists w, v = Some w.
Proof.
  revert l1. induction l as [|[j [w|]] l IH]; intros l1 E; cbn [neg_evs] in E; [discriminate| |discriminate]. destruct (neg_evs l) as [r|] eqn:N; [|discriminate].
  cbn [dget]. destruct (eqb k j); [intros X; injection X as <-; eauto|]. intros X. apply (IH r); auto.
Qed.
Lemma din_neg k : din k e' = din k (f_evs f).
Proof. unfold din. rewrite (dget_neg k _ _ NEV). destruct (dget k (f_evs f)) as [[v|]|]; reflexivity. Qed.
Lemma match_ev_rev : match_ev rev_frag sc = match_ev f sc.
Proof.
  destruct sc as [|k|ks]; cbn [match_ev rev_frag f_evs]; [reflexivity|rewrite din_neg; reflexivity|]. rewrite (filter_ext _ (fun k => din k (f_evs f))); [reflexivity|]. intros k. apply din_neg.
Qed.
Lemma ev_rev m : match_ev f sc = FOk m -> ev_for rev_frag m obs = - ev_for f m obs.
Proof.
  intros M. destruct m as [k|]; cbn [ev_for rev_frag f_evs].
  - rewrite (dget_neg k _ _ NEV). destruct (dget k (f_evs f)) as [[v|]|]; cbn [num]; ring.
  - destruct obs eqn:O.
    + unfold observed_ev. cbn [rev_frag f_parent f_evs]. destruct (f_parent f); [|congruence]. rewrite (dget_neg K1 _ _ NEV). destruct (dget K1 (f_evs f)) as [[v|]|]; cbn [num]; ring.
    + destruct (EVOK M eq_refl) as [v [D V]]. unfold cached_ev. cbn [rev_frag f_evs]. rewrite (dget_neg K0 _ _ NEV), D.
      destruct (eqb_spec v (Q2Qc 0)); [contradiction|]. destruct (eqb_spec (- v) (Q2Qc 0)) as [Z|]; [|reflexivity]. exfalso. apply V. replace v with (- - v) by ring. rewrite Z. ring.
Qed.
(** the balance argument passed to [a] is negated *)
Definition adj (c : nat) (bal : option Qc) : option Qc := if Nat.eqb c a then option_map Qcopp bal else bal.
Definition related (r r' : rect) : Prop := forall c nw seen q bal, rel_res a (r c nw seen q bal) (r' c nw seen q (adj c bal)).
Lemma adj_None c : adj c None = None. Proof. unfold adj. destruct (Nat.eqb c a); reflexivity. Qed.
Lemma same_children c : match h c with Some g => exists g', h' c = Some g' /\ child_flows g' = child_flows g /\ f_cons g' = f_cons g /\ f_isbal g' = f_isbal g /\ f_bg g' = f_bg g /\ f_flow g' = f_flow g /\ f_parent g' = f_parent g
     /\ f_dir g' = (if Nat.eqb c a then comp (f_dir g) else f_dir g) | None => h' c = None end.
Proof.
  unfold h'. destruct (Nat.eqb_spec c a) as [->|NE]; [rewrite hset_same, HA; eexists; split; [reflexivity|]; repeat split|rewrite hset_other by auto; destruct (h c); auto]. exists f0. auto 10.
Qed.
Lemma fg_loop_rel r r' nw seen q cs : related r r' -> forall ffs ffs' stock b, flips a ffs ffs' ->
  match fg_loop r nw seen q cs ffs stock b, fg_loop r' nw seen q cs ffs' stock b with
  | FOk (l, s, b), FOk (l', s', b') => flips a l l' /\ s' = s /\ b' = b | FErr e, FErr e' => e' = e | _, _ => False end.
Proof.
  intros R. induction cs as [|c cs IH]; intros ffs ffs' stock b F; cbn [fg_loop]; [auto|]. specialize (R c nw seen q None). rewrite adj_None in R.
  destruct (r c nw seen q None) as [[l cv]|e], (r' c nw seen q None) as [[l' cv']|e0]; cbn in R; try contradiction.
  - destruct R as [-> R]. apply IH. apply flips_app; auto.
  - subst e0. destruct e; try reflexivity. apply IH; auto.
Qed.
Lemma trav_fg_rel r r' i g x seen : related r r' -> i <> a -> rel_list a (trav_fg r h sc obs i g x seen) (trav_fg r' h' sc obs i g x seen).
Proof.
  intros R NE. unfold FragModel.trav_fg. destruct (if is_fg i (ff_term x) then _ else _) as [s0|]; [|reflexivity]. set (st := match f_cons g with None => s0 | Some _ => _ end). clearbody st.
  assert (L := fg_loop_rel r r' (ff_nw x) seen (f_cons g) (child_flows g) R [x] [x] st None (flips_refl _ _)).
  destruct (fg_loop r (ff_nw x) seen (f_cons g) (child_flows g) [x] st None) as [[[l s] b]|e], (fg_loop r' (ff_nw x) seen (f_cons g) (child_flows g) [x] st None) as [[[l' s'] b']|e0]; try contradiction; [|exact L].
  destruct L as [L [-> ->]]. destruct b as [b|]; [|exact L]. assert (SC := same_children b). specialize (R b (ff_nw x) seen None). set (sb := match h b with Some g0 => _ | None => _ end).
  assert (SB : Some (match h' b with Some g0 => match f_dir g0 with Input => - s | Output => s end | None => s end) = adj b (Some sb)).
  { unfold sb, adj. destruct (h b) as [gb|] eqn:HB.
    - destruct SC as [g' [-> [_ [_ [_ [_ [_ [_ ->]]]]]]]]. destruct (Nat.eqb b a); [|reflexivity]. cbn [option_map]. destruct (f_dir gb); cbn [comp]; f_equal; ring.
    - rewrite SC. destruct (Nat.eqb_spec b a) as [->|]; [congruence|reflexivity]. }
  rewrite SB. specialize (R (Some sb)). destruct (r b (ff_nw x) seen None (Some sb)) as [[lb cv]|e], (r' b (ff_nw x) seen None (adj b (Some sb))) as [[lb' cv']|e0]; cbn in R; try contradiction; [|exact R].
  destruct R as [_ R]. cbn. apply flips_app; auto.
Qed.
Lemma sub_loop_rel r r' dn seen cs : related r r' -> forall ffs ffs' inv, flips a ffs ffs' ->
  match sub_loop r h dn seen cs ffs inv, sub_loop r' h' dn seen cs ffs' inv with FOk (l, v), FOk (l', v') => flips a l l' /\ v' = v | FErr e, FErr e' => e' = e | _, _ => False end.
Proof.
  intros R. induction cs as [|c cs IH]; intros ffs ffs' inv F; cbn [sub_loop]; [auto|]. assert (SC := same_children c). destruct (h c) as [g|]; [|rewrite SC; reflexivity].
  destruct SC as [g' [-> [_ [_ [_ [_ [-> [_ SD]]]]]]]]. destruct (find_flow (f_flow g) inv) as [m|]; [|apply IH; auto]. specialize (R c dn seen None).
  set (ev := if eqb (ff_dir m) (f_dir g) then _ else _).
  assert (EV : Some (if eqb (ff_dir m) (f_dir g') then Q2Qc 0 + ff_mag m else Q2Qc 0 - ff_mag m) = adj c (Some ev)).
  { unfold adj, ev. rewrite SD. destruct (Nat.eqb c a); [|reflexivity]. cbn [option_map]. destruct (f_dir g), (ff_dir m); cbn; f_equal; ring. }
  rewrite EV. specialize (R (Some ev)). destruct (r c dn seen None (Some ev)) as [[l cv]|e], (r' c dn seen None (adj c (Some ev))) as [[l' cv']|e0]; cbn in R; try contradiction; [|exact R].
  destruct R as [_ R]. apply IH. apply flips_app; auto.
Qed.
Lemma top_rel n j : top n h' j = top n h j.
Proof.
  revert j. induction n as [|n IH]; intros j; cbn [top]; [reflexivity|]. assert (SC := same_children j). destruct (h j) as [g|]; [|rewrite SC; reflexivity]. destruct SC as [g' [-> [_ [_ [_ [_ [_ [-> _]]]]]]]].
  destruct (f_parent g); [apply IH|reflexivity].
Qed.
Lemma top_parentless n j tp : top n h j = FOk tp -> exists g, h tp = Some g /\ f_parent g = None.
Proof. revert j. induction n as [|n IH]; intros j E; cbn [top] in E; [discriminate|]. destruct (h j) as [g|] eqn:HJ; [|discriminate]. destruct (f_parent g) eqn:P; [apply IH in E; exact E|]. injection E as <-. eauto. Qed.
(** the first entry of a traversal is the fragment's *)
Definition headed (r : rect) : Prop := forall c nw seen q bal l cv x, r c nw seen q bal = FOk (l, cv) -> hd_error l = Some x -> ff_ref x = Real c.
Lemma trav_headed n hh : headed (trav n hh sc obs).
Proof.
  intros c nw seen q bal l cv x E HD. destruct n as [|n]; [discriminate|]. cbn [FragModel.trav] in E. unfold FragModel.trav_node in E. destruct (hh c) as [g|]; [|discriminate]. destruct (_ && mem c seen); [discriminate|].
  set (seen' := if match f_parent g with None => true | Some _ => false end then c :: seen else seen) in E. clearbody seen'.
  destruct (match bal with Some b => FOk b | None => _ end) as [ev|]; [|discriminate]. destruct (match_term g sc) as [m|]; [|discriminate]. destruct (dget m (f_terms g)) as [t|]; [|discriminate].
  destruct (if match f_parent g with None => true | Some _ => false end then FOk nw else _) as [w|]; [|discriminate]. destruct (conservation cf hh g ev q) as [[cv' kept]|]; [|discriminate].
  set (y := FF (Real c) (f_flow g) (f_dir g) (nw * ev) w t kept []) in E.
  assert (X0 : forall r, l = y :: r -> ff_ref x = Real c) by (intros r ->; injection HD as <-; reflexivity).
  destruct (is_null t || f_bg g || eqb (nw * ev) (Q2Qc 0)); [injection E as <- <-; apply (X0 []); reflexivity|]. destruct (t_node t) as [|p|j].
  - injection E as <- <-; apply (X0 []); reflexivity.
  - destruct (trav_fg _ hh sc obs c g y seen') as [l0|] eqn:TF; [|discriminate]. injection E as <- <-. apply trav_fg_head in TF as [r ->]. apply (X0 r). reflexivity.
  - destruct (Nat.eqb j c).
    + destruct (trav_fg _ hh sc obs c g y seen') as [l0|] eqn:TF; [|discriminate]. injection E as <- <-. apply trav_fg_head in TF as [r ->]. apply (X0 r). reflexivity.
    + destruct (trav_sub _ n hh c g y j seen') as [l0|] eqn:TS; [|discriminate]. injection E as <- <-. unfold trav_sub in TS. destruct (hh j) as [gj|]; [|discriminate]. destruct (f_bg gj).
      * destruct (trav n hh sc obs j (ff_nw y) [] None None) as [[[|[r0 f0 d0 m0 w0 t0 c0 s0] [|? ?]] ?]|]; try discriminate. injection TS as <-. injection HD as <-. reflexivity.
      * unfold do_subfrag in TS. destruct (unit_inventory _ n hh j) as [[inv internal]|]; [|discriminate]. destruct (find_flow (t_flow (ff_term y)) inv) as [mf|]; [|discriminate]. destruct (eqb (ff_mag mf) (Q2Qc 0)); [discriminate|].
        set (dn := ff_nw y / _) in TS. clearbody dn. destruct (t_desc (ff_term y)).
        -- destruct (sub_loop _ hh dn seen' (child_flows g) _ _) as [[l1 inv']|] eqn:SL; [|discriminate]. injection TS as <-. apply sub_loop_prefix in SL as [r ->]. injection HD as <-. reflexivity.
        -- unfold y in TS. destruct (sub_loop _ hh dn seen' (child_flows g) _ _) as [[l1 inv']|] eqn:SL; [|discriminate]. injection TS as <-. apply sub_loop_prefix in SL as [r ->]. injection HD as <-. reflexivity.
Qed.
Lemma unit_inv_rel r r' n j : related r r' -> headed r -> rel_inv a (unit_inventory r n h j) (unit_inventory r' n h' j).
Proof.
  intros R HD. unfold unit_inventory. rewrite top_rel. destruct (top n h j) as [tp|] eqn:T; [|reflexivity]. destruct (top_parentless _ _ _ T) as [g [HT PT]].
  assert (NE : tp <> a) by (intros ->; rewrite HA in HT; injection HT as <-; contradiction). specialize (R tp (Q2Qc 1) [] None None). rewrite adj_None in R.
  destruct (r tp (Q2Qc 1) [] None None) as [[l cv]|e] eqn:E1, (r' tp (Q2Qc 1) [] None None) as [[l' cv']|e0]; cbn in R; try contradiction; [|exact R]. destruct R as [_ R].
  unfold h'. rewrite hset_other by exact NE. rewrite HT. apply group_rel; auto. intros x X. rewrite (HD _ _ _ _ _ _ _ _ E1 X). congruence.
Qed.
Lemma inv_rel_cases (u u' : fret (list ffl * list ffl)) : rel_inv a u u' ->
  (exists e, u = FErr e /\ u' = FErr e) \/ exists inv i i', u = FOk (inv, i) /\ u' = FOk (inv, i') /\ flips a i i'.
Proof. destruct u as [[x i]|e], u' as [[x' i']|e0]; cbn; try contradiction; [intros [-> F]; right; eauto 8|intros ->; left; eauto]. Qed.
(** the part of a subfragment node below its own entry *)
Lemma sub_rel r r' n i (g g' : frag) fl d d' mag mag' w w' t kept seen j : related r r' -> headed r -> linear (- (1)) r ->
  child_flows g' = child_flows g ->
  (i = a /\ d' = comp d /\ mag' = - mag /\ w' = - w) \/ (i <> a /\ d' = d /\ mag' = mag /\ w' = w) ->
  f_dir g = d -> f_dir g' = d' -> f_flow g = fl -> f_flow g' = fl ->
  rel_list a (trav_sub r n h i g (FF (Real i) fl d mag w t kept []) j seen) (trav_sub r' n h' i g' (FF (Real i) fl d' mag' w' t kept []) j seen).
Proof.
  intros R HD LN CH CS D D' FL FL'. unfold trav_sub. assert (SC := same_children j). destruct (h j) as [gj|] eqn:HJ; [|rewrite SC; reflexivity]. destruct SC as [gj' [HJ' [_ [_ [_ [BG [_ [_ _]]]]]]]]. rewrite HJ', BG.
  destruct (f_bg gj) eqn:BJ.
  - assert (JA : j <> a) by (intros ->; rewrite HA in HJ; injection HJ as <-; congruence).
    cbn [ff_nw]. assert (R1 := R j w [] None None). rewrite adj_None in R1. assert (R2 := R j w' [] None None). rewrite adj_None in R2. rewrite FL, FL', D, D'. assert (HD1 := HD j w [] None None).
    destruct CS as [[-> [-> [-> ->]]]|[NE [-> [-> ->]]]].
    + assert (LW : r j (- w) [] None None = scaled (- (1)) (r j w [] None None)) by (rewrite <- LN; f_equal; ring). rewrite LW in R2. destruct (r j w [] None None) as [[l cv]|e]; cbn [scaled] in R2.
      * specialize (HD1 l cv). destruct (r' j (- w) [] None None) as [[l' cv']|e0]; cbn in R2; try contradiction. destruct R2 as [_ F]. destruct l as [|[r1 f1 d1 m1 w1 t1 c1 s1] [|z l]]; cbn [map fscale] in F.
        -- inversion F; subst. reflexivity.
        -- inversion F as [|? ? ? ? F1 F2]; subst. inversion F2; subst. cbn. specialize (HD1 _ eq_refl eq_refl). cbn in HD1. subst r1.
           inversion F1; subst; [|congruence]. constructor; [|constructor].
           replace (m1 * - (1)) with (- m1) by ring. constructor; auto. right; ring.
        -- inversion F as [|? ? ? ? F1 F2]; subst. inversion F2; subst. destruct y. reflexivity.
      * destruct (r' j (- w) [] None None) as [[l' cv']|e0]; cbn in R2; try contradiction. exact R2.
    + destruct (r j w [] None None) as [[l cv]|e], (r' j w [] None None) as [[l' cv']|e0]; cbn in R1; try contradiction; [|exact R1]. destruct R1 as [_ F]. specialize (HD1 l cv).
      destruct F as [|x y l l' F1 F2]; [reflexivity|]. destruct F2 as [|x2 y2 l l' F3 F4]; [|destruct x, y; reflexivity]. specialize (HD1 x eq_refl eq_refl).
      inversion F1; subst; [cbn; constructor; [constructor; auto|constructor]|]. cbn in HD1. congruence.
  - unfold do_subfrag. destruct (inv_rel_cases _ _ (unit_inv_rel r r' n j R HD)) as [[e [-> ->]]|[inv [il [il' [-> [-> FI]]]]]]; [reflexivity|]. cbn [ff_term ff_nw].
    destruct (find_flow (t_flow t) inv) as [m|]; [|reflexivity]. destruct (eqb_spec (ff_mag m) (Q2Qc 0)) as [|MZ]; [reflexivity|].
    set (dn := w / (if eqb (ff_dir m) (f_dir g) then - ff_mag m else ff_mag m)).
    assert (DN : w' / (if eqb (ff_dir m) (f_dir g') then - ff_mag m else ff_mag m) = dn).
    { unfold dn. rewrite D, D'. destruct CS as [[_ [-> [_ ->]]]|[_ [-> [_ ->]]]]; [|reflexivity]. assert (IV : / (- ff_mag m) = - / ff_mag m) by (apply inv_opp; exact MZ). unfold Qcdiv. destruct d, (ff_dir m); cbn [eqb EqB_dirn dirn_eqb comp]; rewrite ?IV; ring. }
    rewrite DN. clearbody dn. rewrite CH. destruct (t_desc t).
    + assert (FX : flips a (FF (Real i) fl d mag w t kept [] :: map (fscale dn) il) (FF (Real i) fl d' mag' w' t kept [] :: map (fscale dn) il')).
      { constructor; [|apply flips_scale; auto]. destruct CS as [[-> [-> [-> ->]]]|[_ [-> [-> ->]]]]; [constructor; [constructor|auto]|constructor; constructor]. }
      assert (SL := sub_loop_rel r r' dn seen (child_flows g) R _ _ (remove_flow (t_flow t) inv) FX).
      destruct (sub_loop r h dn seen (child_flows g) _ _) as [[l v]|e], (sub_loop r' h' dn seen (child_flows g) _ _) as [[l' v']|e0]; try contradiction; [|exact SL].
      destruct SL as [SL ->]. cbn. apply flips_app; auto. apply flips_refl.
    + assert (FX : flips a [FF (Real i) fl d mag dn t kept il] [FF (Real i) fl d' mag' dn t kept il']).
      { constructor; [|constructor]. destruct CS as [[-> [-> [-> ->]]]|[_ [-> [-> ->]]]]; constructor; auto. }
      assert (SL := sub_loop_rel r r' dn seen (child_flows g) R _ _ (remove_flow (t_flow t) inv) FX).
      destruct (sub_loop r h dn seen (child_flows g) _ _) as [[l v]|e], (sub_loop r' h' dn seen (child_flows g) _ _) as [[l' v']|e0]; try contradiction; [|exact SL].
      destruct SL as [SL ->]. cbn. apply flips_app; auto. apply flips_refl.
Qed.
Lemma conservation_rev ev q : conservation cf h' rev_frag (- ev) q = conservation cf h f ev q.
Proof.
  unfold conservation. cbn [rev_frag f_isbal f_flow f_dir f_cons]. destruct q as [q|].
  - destruct (f_isbal f); [reflexivity|]. assert (Z : eqb (- ev * cf (f_flow f) q) (Q2Qc 0) = eqb (ev * cf (f_flow f) q) (Q2Qc 0)).
    { destruct (eqb_spec (ev * cf (f_flow f) q) (Q2Qc 0)) as [E|E], (eqb_spec (- ev * cf (f_flow f) q) (Q2Qc 0)) as [E'|E']; auto; exfalso.
      - apply E'. replace (- ev * cf (f_flow f) q) with (- (ev * cf (f_flow f) q)) by ring. rewrite E. ring.
      - apply E. replace (ev * cf (f_flow f) q) with (- (- ev * cf (f_flow f) q)) by ring. rewrite E'. ring. }
    rewrite Z. destruct (eqb_spec (ev * cf (f_flow f) q) (Q2Qc 0)) as [E|E]; do 3 f_equal; [replace (- ev * cf (f_flow f) q) with (- (ev * cf (f_flow f) q)) by ring; rewrite E; ring|].
    destruct (f_dir f); cbn [comp]; ring.
  - destruct (f_isbal f); [reflexivity|]. unfold balance_flow. cbn [rev_frag f_cons]. change (child_flows rev_frag) with (child_flows f). destruct (f_cons f); [|reflexivity].
    rewrite (filter_ext _ (fun c => match h c with Some g => f_isbal g | None => false end)); [reflexivity|]. intros c. assert (SC := same_children c). destruct (h c); [destruct SC as [g' [-> [_ [_ [-> _]]]]]; reflexivity|rewrite SC; reflexivity].
Qed.
Lemma conservation_other g ev q : conservation cf h' g ev q = conservation cf h g ev q.
Proof.
  unfold conservation. destruct q as [q|]; [reflexivity|]. destruct (f_isbal g); [reflexivity|]. unfold balance_flow. destruct (f_cons g); [|reflexivity].
  rewrite (filter_ext _ (fun c => match h c with Some g => f_isbal g | None => false end)); [reflexivity|]. intros c. assert (SC := same_children c). destruct (h c); [destruct SC as [g' [-> [_ [_ [-> _]]]]]; reflexivity|rewrite SC; reflexivity].
Qed.
Lemma eqb_opp (m : Qc) : eqb (- m) (Q2Qc 0) = eqb m (Q2Qc 0).
Proof.
  destruct (eqb_spec m (Q2Qc 0)) as [Z|N], (eqb_spec (- m) (Q2Qc 0)) as [E|E]; auto; exfalso; [apply E; rewrite Z; ring|]. apply N. replace m with (- - m) by ring. rewrite E. ring.
Qed.
Lemma trav_node_rel r r' n : related r r' -> headed r -> linear (- (1)) r -> related (trav_node r n h sc obs) (trav_node r' n h' sc obs).
Proof.
  intros R HD LN c nw seen q bal. unfold FragModel.trav_node. destruct (Nat.eq_dec c a) as [->|NE].
  - unfold h' at 1. rewrite hset_same, HA. cbn [rev_frag f_parent f_flow f_dir f_bg f_terms]. change (f_parent rev_frag) with (f_parent f). assert (PF : match f_parent f with None => true | Some _ => false end = false) by (destruct (f_parent f); [reflexivity|contradiction]). rewrite !PF. cbn [andb]. cbv zeta.
    unfold adj. rewrite Nat.eqb_refl. rewrite match_ev_rev.
    assert (EVR : match option_map Qcopp bal with Some b => FOk b | None => match match_ev f sc with FErr e => FErr e | FOk m => FOk (ev_for rev_frag m obs) end end
                  = match (match bal with Some b => FOk b | None => match match_ev f sc with FErr e => FErr e | FOk m => FOk (ev_for f m obs) end end) with FOk v => FOk (- v) | FErr e => FErr e end).
    { destruct bal; [reflexivity|]. cbn [option_map]. assert (ER := ev_rev). destruct (match_ev f sc) as [m|] eqn:M; [|reflexivity]. rewrite (ER m eq_refl). reflexivity. }
    rewrite EVR. destruct (match bal with Some b => FOk b | None => _ end) as [ev|]; [|reflexivity]. change (match_term rev_frag sc) with (match_term f sc). destruct (match_term f sc) as [m|] eqn:MT; [|reflexivity].
    destruct (dget m (f_terms f)) as [t|] eqn:DT; [|reflexivity]. assert (TT : termination f sc = FOk t) by (unfold termination; rewrite MT, DT; reflexivity). assert (ST := SAFE t TT).
    assert (WR : (if is_null t then FOk (nw * - ev) else match multiplier cf refq (f_flow f) t with FErr e => FErr e | FOk k => FOk (nw * - ev * k) end)
                 = match (if is_null t then FOk (nw * ev) else match multiplier cf refq (f_flow f) t with FErr e => FErr e | FOk k => FOk (nw * ev * k) end) with FOk w => FOk (- w) | FErr e => FErr e end).
    { destruct (is_null t); [f_equal; ring|]. destruct (multiplier cf refq (f_flow f) t); [f_equal; ring|reflexivity]. }
    rewrite WR. destruct (if is_null t then FOk (nw * ev) else _) as [w|]; [|reflexivity]. rewrite conservation_rev. destruct (conservation cf h f ev q) as [[cv kept]|]; [|reflexivity].
    replace (nw * - ev) with (- (nw * ev)) by ring. rewrite eqb_opp.
    assert (X1 : rel_res a (FOk ([FF (Real a) (f_flow f) (f_dir f) (nw * ev) w t kept []], cv)) (FOk ([FF (Real a) (f_flow f) (comp (f_dir f)) (- (nw * ev)) (- w) t kept []], cv))).
    { split; [reflexivity|]. constructor; [|constructor]. constructor; [constructor|auto]. }
    destruct (is_null t || f_bg f || eqb (nw * ev) (Q2Qc 0)); [exact X1|]. destruct (t_node t) as [|p|j] eqn:TN; [exact X1|exfalso; destruct ST as [ST|[j [ST _]]]; discriminate|].
    destruct ST as [ST|[j' [ST NJ]]]; [discriminate|]. injection ST as <-. destruct (Nat.eqb_spec j a); [contradiction|].
    assert (S := sub_rel r r' n a f rev_frag (f_flow f) (f_dir f) (comp (f_dir f)) (nw * ev) (- (nw * ev)) w (- w) t kept seen j R HD LN eq_refl). specialize (S ltac:(left; auto) eq_refl eq_refl eq_refl eq_refl).
    destruct (trav_sub r n h a f _ j seen) as [l|e], (trav_sub r' n h' a rev_frag _ j seen) as [l'|e0]; cbn in S; try contradiction; cbn; auto.
  - unfold h' at 1. rewrite hset_other by exact NE. destruct (h c) as [g|] eqn:HC; [|reflexivity]. destruct (_ && mem c seen); [reflexivity|].
    set (seen' := if match f_parent g with None => true | Some _ => false end then c :: seen else seen). clearbody seen'. unfold adj. destruct (Nat.eqb_spec c a); [contradiction|].
    destruct (match bal with Some b => FOk b | None => _ end) as [ev|]; [|reflexivity]. destruct (match_term g sc) as [m|]; [|reflexivity]. destruct (dget m (f_terms g)) as [t|]; [|reflexivity].
    destruct (if match f_parent g with None => true | Some _ => false end then FOk nw else _) as [w|]; [|reflexivity]. rewrite conservation_other. destruct (conservation cf h g ev q) as [[cv kept]|]; [|reflexivity].
    set (x := FF (Real c) (f_flow g) (f_dir g) (nw * ev) w t kept []).
    assert (X1 : rel_res a (FOk ([x], cv)) (FOk ([x], cv))) by (split; [reflexivity|apply flips_refl]).
    assert (FG : rel_res a (match trav_fg r h sc obs c g x seen' with FErr e => FErr e | FOk l => FOk (l, cv) end) (match trav_fg r' h' sc obs c g x seen' with FErr e => FErr e | FOk l => FOk (l, cv) end)).
    { assert (T := trav_fg_rel r r' c g x seen' R NE). destruct (trav_fg r h sc obs c g x seen') as [l|e], (trav_fg r' h' sc obs c g x seen') as [l'|e0]; cbn in *; try contradiction; auto. }
    destruct (is_null t || f_bg g || eqb (nw * ev) (Q2Qc 0)); [exact X1|]. destruct (t_node t) as [|p|j]; [exact X1|exact FG|]. destruct (Nat.eqb j c); [exact FG|].
    assert (S := sub_rel r r' n c g g (f_flow g) (f_dir g) (f_dir g) (nw * ev) (nw * ev) w w t kept seen' j R HD LN eq_refl). specialize (S ltac:(right; auto) eq_refl eq_refl eq_refl eq_refl).
    fold x in S. destruct (trav_sub r n h c g x j seen') as [l|e], (trav_sub r' n h' c g x j seen') as [l'|e0]; cbn in S; try contradiction; cbn; auto.
Qed.
Lemma trav_rel n : related (trav n h sc obs) (trav n h' sc obs).
Proof.
  induction n as [|n IH]; cbn [FragModel.trav]; [intros c nw seen q bal; reflexivity|]. apply trav_node_rel; [exact IH|apply trav_headed|].
  apply trav_linear. intros E. apply (f_equal this) in E. vm_compute in E. discriminate.
Qed.
End P.

(** * C41 *)
(** For every foreground, scenario and fragment [a] that is not a reference or background fragment, that is terminated in this scenario
    to nothing or to another fragment, and whose exchange value for the scenario, if it is the cached one, is not zero: reversing [a]
    leaves every traversal (of any fragment, at any weight) with the same exception, or the same entries in the same order with the
    same signed amounts, entries of other fragments being unchanged (aggregated subfragments apart); and every unit inventory has the
    same exception or exactly the same exchanges. *)
Definition same_amounts (a : nat) (x y : ffl) : Prop :=
  ff_ref y = ff_ref x /\ ff_flow y = ff_flow x /\ ff_term y = ff_term x /\ ff_cons y = ff_cons x
  /\ (match ff_dir y with Input => ff_mag y | Output => - ff_mag y end = match ff_dir x with Input => ff_mag x | Output => - ff_mag x end)
  /\ (ff_ref x <> Real a -> ff_dir y = ff_dir x /\ ff_mag y = ff_mag x /\ ff_nw y = ff_nw x).
Lemma flips_same a l m : flips a l m -> Forall2 (same_amounts a) l m.
Proof. induction 1; constructor; auto. destruct (flip_obs _ _ _ H) as [H1 [H2 [H3 [H4 [H5 H6]]]]]. repeat (split; auto). Qed.
Theorem C41_no_effect_partial cf refq h a h' f sc0 obs fuel i : let sc := as_set sc0 in
  reverse_direction h a = (h', FOk tt) -> h a = Some f -> f_parent f <> None -> f_bg f = false ->
  (forall t, termination f sc = FOk t -> t_node t = NNull \/ exists j, t_node t = NFrag j /\ j <> a) ->
  (match_ev f sc = FOk None -> obs = false -> exists v, In (K0, Some v) (f_evs f) /\ v <> 0) -> NoDup (dkeys (f_evs f)) ->
  (forall nw, match trav cf refq fuel h sc obs i nw [] None None, trav cf refq fuel h' sc obs i nw [] None None with
   | FOk (l, _), FOk (l', _) => Forall2 (same_amounts a) l l'
   | FErr e, FErr e' => e' = e
   | _, _ => False end)
  /\ match unit_inv cf refq fuel h sc0 obs i, unit_inv cf refq fuel h' sc0 obs i with
     | FOk (ext, int), FOk (ext', int') => ext' = ext /\ Forall2 (same_amounts a) int int'
     | FErr e, FErr e' => e' = e
     | _, _ => False end.
Proof.
  intros sc E HA NR NB SAFE EV ND. unfold reverse_direction in E. rewrite HA in E. unfold reversed in E. destruct (neg_evs (f_evs f)) as [e|] eqn:N; [|discriminate]. injection E as <-.
  assert (EV' : match_ev f sc = FOk None -> obs = false -> exists v, dget K0 (f_evs f) = Some (Some v) /\ v <> 0).
  { intros M O. destruct (EV M O) as [v [J V]]. exists v. split; auto. apply In_dget; auto. }
  assert (R := trav_rel cf refq h a f e sc obs HA N NR NB SAFE EV' fuel). split.
  - intros nw. specialize (R i nw [] None None). rewrite adj_None in R. unfold h' in R.
    destruct (trav cf refq fuel h sc obs i nw [] None None) as [[l cv]|], (trav cf refq fuel _ sc obs i nw [] None None) as [[l' cv']|]; cbn in R; try contradiction; auto. destruct R as [_ R]. apply flips_same; exact R.
  - assert (U := unit_inv_rel h a f e HA NR _ _ fuel i R (trav_headed cf refq sc obs fuel h)). unfold unit_inv. fold sc. unfold h' in U.
    destruct (unit_inventory _ fuel h i) as [[ext int]|], (unit_inventory _ fuel (hset h a _) i) as [[ext' int']|]; cbn in U; try contradiction; auto. destruct U as [U1 U2]. split; auto. apply flips_same; exact U2.
Qed.
Print Assumptions C41_no_effect_partial.

(** signed amounts listed by a traversal *)
Definition listed_amounts (h : heap) (i : nat) : option (list (nat * Qc)) :=
  match trav cf39 rq39 9 h ScNone false i 1 [] None None with FOk (l, _) => Some (map (fun x => (ff_flow x, signed (ff_dir x) (ff_mag x))) l) | FErr _ => None end.
(** Refuted in general: reversing a process node changes the amounts of its children *)
Definition h41 : heap := fun i => match i with
  | 1%nat => Some (Fr None [2%nat] 10 Input false false None (evs 1) [(None, Tm (NFrag 1) 10 Output true)])
  | 2%nat => Some (Fr (Some 1%nat) [3%nat] 11 Input false false None (evs 4) [(None, Tm (NProc 9) 11 Output true)])
  | 3%nat => Some (Fr (Some 2%nat) [] 12 Input false false None (evs 5) [(None, null_term 12 Input)])
  | 4%nat => Some (Fr (Some 1%nat) [] 12 Input false false None (evs 0) [(None, null_term 12 Input)])
  | 5%nat => Some (Fr None [6%nat] 13 Output false false None (evs 1) [(None, Tm (NFrag 5) 13 Input true)])
  | 6%nat => Some (Fr (Some 5%nat) [] 10 Input false false None (evs 6) [(None, Tm (NFrag 1) 10 Output true)])
  | _ => None end.
Theorem C41_refuted_process_node :
  snd (reverse_direction h41 2) = FOk tt
  /\ listed_amounts h41 1 = Some [(10%nat, 1); (11%nat, Q2Qc 4); (12%nat, Q2Qc 20)]
  /\ listed_amounts (fst (reverse_direction h41 2)) 1 = Some [(10%nat, 1); (11%nat, Q2Qc 4); (12%nat, - Q2Qc 20)].
Proof. split; [reflexivity|]. split; vm_compute; repeat f_equal; apply Qc_is_canon; reflexivity. Qed.
(** Refuted: reversing a fragment whose cached value is zero (read as one) changes the sign of its flow *)
Theorem C41_refuted_zero : snd (reverse_direction h41 4) = FOk tt
  /\ listed_amounts h41 4 = Some [(12%nat, 1)] /\ listed_amounts (fst (reverse_direction h41 4)) 4 = Some [(12%nat, - (1))].
Proof. split; [reflexivity|]. split; vm_compute; repeat f_equal; apply Qc_is_canon; reflexivity. Qed.
(** a subfragment node (6, terminated to fragment 1) meets the hypotheses; its traversal has an entry for it and the entries below *)
Example C41_example : exists f, h41 6%nat = Some f /\ f_parent f <> None /\ (forall t, termination f ScNone = FOk t -> exists j, t_node t = NFrag j /\ j <> 6%nat)
  /\ NoDup (dkeys (f_evs f)) /\ In (K0, Some (Q2Qc 6)) (f_evs f)
  /\ listed_amounts h41 5 = Some [(13%nat, - (1)); (10%nat, Q2Qc 6); (10%nat, Q2Qc 6); (11%nat, Q2Qc 24); (12%nat, Q2Qc 120)]
  /\ listed_amounts (fst (reverse_direction h41 6)) 5 = listed_amounts h41 5.
Proof.
  eexists. split; [reflexivity|]. split; [discriminate|]. split; [intros t T; cbv in T; injection T as <-; exists 1%nat; split; [reflexivity|discriminate]|].
  split; [cbn; repeat constructor; cbn; intuition discriminate|]. split; [cbn; auto|]. split; vm_compute; repeat f_equal; apply Qc_is_canon; reflexivity.
Qed.

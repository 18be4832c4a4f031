(** What [clone_fragment] does to the heap (model: EditModel.v). *)
From Verif Require Import Num Base PyStr ProcModel FragModel FragProofs FragProps FragProps4 FragProps5 ObserveProps EditModel EditProofs TravSim TravCopy.
From Coq Require Import Permutation Lia.
Open Scope Qc_scope.
Open Scope string_scope.
Open Scope list_scope.
Local Arguments eqb : simpl never.

(** A fragment [f] at [j] as the editor makes them: a stored nonzero exchange value; terminations to processes or (not background) to itself, cut off
    at most by default; with children, not cut off by default; one balance flow if it conserves a quantity, that of the balance flow. *)
Record plain (refq : nat -> nat) (h : heap) (j : nat) (f : frag) : Prop := PL {
  pl_values : values_ok f; pl_keys : no_digit_keys f;
  pl_default : dget None (f_terms f) <> None; pl_nodup : NoDup (dkeys (f_terms f));
  pl_terms : forall k t, In (k, t) (f_terms f) ->
    (k = None /\ t = null_term (f_flow f) (f_dir f)) \/ (exists pr, t_node t = NProc pr) \/ (t = Tm (NFrag j) (f_flow f) (comp (f_dir f)) true /\ f_bg f = false);
  pl_kids : f_children f <> [] -> forall t, dget None (f_terms f) = Some t -> t_node t <> NNull;
  pl_ndc : NoDup (f_children f);
  pl_exist : forall c, In c (f_children f) -> exists g, h c = Some g /\ f_parent g = Some j;
  pl_cons : forall q, f_cons f = Some q -> exists c g, In c (f_children f) /\ h c = Some g /\ f_isbal g = true /\ refq (f_flow g) = q;
  pl_bal : forall c g, In c (f_children f) -> h c = Some g -> f_isbal g = true -> f_cons f = Some (refq (f_flow g));
  pl_one : forall c d gc gd, In c (f_children f) -> In d (f_children f) -> h c = Some gc -> h d = Some gd -> f_isbal gc = true -> f_isbal gd = true -> c = d;
  pl_ref : f_parent f = None -> f_isbal f = false }.

(** terminations only to processes or to [i] itself *)
Definition own_terms (i : nat) (g : frag) : Prop := forall k t, In (k, t) (f_terms g) -> match t_node t with NFrag j => j = i | _ => True end.

Section Clone.
Context (cf : nat -> nat -> Qc) (refq : nat -> nat) (s : nat -> nat).

(** * The terminations *)
Definition add_term (b : nat) (d : dict (option skey) term) (e : option skey * term) : dict (option skey) term := if is_null (snd e) then d else dset (fst e) (ren_term s (snd e)) d.
Lemma clone_terms fuel a f es : forall h g h', s a <> a -> (forall k t, In (k, t) es -> (k = None /\ t = null_term (f_flow f) (f_dir f)) \/ (exists pr, t_node t = NProc pr) \/ (t = Tm (NFrag a) (f_flow f) (comp (f_dir f)) true /\ f_bg f = false)) ->
  h (s a) = Some g -> f_flow g = f_flow f -> f_dir g = f_dir f -> f_bg g = f_bg f ->
  heach es (clone_term cf refq fuel a (s a)) h = (h', FOk tt) ->
  h' (s a) = Some (with_terms g (fold_left (add_term (s a)) es (f_terms g))) /\ forall j, j <> s a -> h' j = h j.
Proof.
  induction es as [|[k t] es IH]; intros h g h' NE P HG GF GD GB E; cbn [heach] in E.
  - injection E as <-. split; [rewrite HG; destruct g; reflexivity|reflexivity].
  - apply hbind_ok in E as (h1 & [] & E1 & E2). assert (P' : forall k t, In (k, t) es -> (k = None /\ t = null_term (f_flow f) (f_dir f)) \/ (exists pr, t_node t = NProc pr) \/ (t = Tm (NFrag a) (f_flow f) (comp (f_dir f)) true /\ f_bg f = false)) by (intros k1 t1 J; apply P; right; exact J).
    assert (S1 : h1 (s a) = Some (with_terms g (add_term (s a) (f_terms g) (k, t))) /\ forall j, j <> s a -> h1 j = h j).
    { unfold clone_term in E1. unfold add_term. cbn [fst snd]. destruct (P k t (or_introl eq_refl)) as [[-> ->]|[[pr TP]|[-> BG]]].
      - cbn in E1. injection E1 as <-. split; [rewrite HG; destruct g; reflexivity|reflexivity].
      - assert (NN : is_null t = false) by (unfold is_null; rewrite TP; reflexivity). rewrite NN. rewrite TP in E1. assert (FG : is_fg a t = false) by (unfold is_fg; rewrite TP; reflexivity). rewrite FG in E1.
        unfold terminate in E1. rewrite HG in E1. assert (RT : Tm (NProc pr) (t_flow t) (t_dir t) (t_desc t) = ren_term s t) by (unfold ren_term; rewrite TP; reflexivity). rewrite RT in E1.
        assert (E1' : h1 = hset h (s a) (with_terms g (dset k (ren_term s t) (f_terms g)))).
        { destruct k as [[| |ks|kl]|]; try discriminate; (destruct (match dget _ (f_terms g) with Some _ => _ | None => _ end); [discriminate|injection E1 as <-; reflexivity]). }
        subst h1. split; [apply hset_same|intros j N; apply hset_other, N].
      - cbn [is_null t_node]. cbn [t_node] in E1. assert (FG : is_fg a (Tm (NFrag a) (f_flow f) (comp (f_dir f)) true) = true) by (cbn; apply Nat.eqb_refl). rewrite FG in E1.
        destruct (to_foreground_ok cf refq fuel h (s a) k h1 g HG E1) as (_ & _ & ->). split; [|intros j N; rewrite !hset_other by exact N; reflexivity]. rewrite hset_same. unfold ren_term. cbn. rewrite GF, GD.
        assert (GB' : with_bg g false = g) by (rewrite <- BG, <- GB; destruct g; reflexivity). rewrite GB'. reflexivity. }
    destruct S1 as [G1 FR1]. destruct (IH h1 (with_terms g (add_term (s a) (f_terms g) (k, t))) h' NE P' G1 GF GD GB E2) as [G2 FR2]. split.
    + rewrite G2. destruct g. reflexivity.
    + intros j N. rewrite (FR2 j N). apply FR1, N.
Qed.
Lemma fold_terms b es : NoDup (dkeys es) -> forall d k, dget k (fold_left (add_term b) es d) = match dget k es with Some t => if is_null t then dget k d else Some (ren_term s t) | None => dget k d end.
Proof.
  induction es as [|[k0 t0] es IH]; intros N d k; [reflexivity|]. cbn [fold_left dget]. cbn in N. inversion N as [|? ? NI N']; subst. rewrite (IH N'). unfold add_term. cbn [fst snd]. destruct (eqb_spec k k0) as [->|NE].
  - assert (dget k0 es = None) as -> by (apply dget_None; exact NI). destruct (is_null t0); [reflexivity|apply dget_dset_same].
  - destruct (dget k es) as [t|]; [destruct (is_null t); [|reflexivity]|]; (destruct (is_null t0); [reflexivity|apply dget_dset_other; exact NE]).
Qed.
Lemma fold_in b es : forall d k t, In (k, t) (fold_left (add_term b) es d) -> In (k, t) d \/ exists t0, In (k, t0) es /\ t = ren_term s t0.
Proof.
  induction es as [|[k0 t0] es IH]; intros d k t J; [left; exact J|]. cbn in J. apply IH in J as [J|(t1 & J & ->)]; [|right; exists t1; split; [right; exact J|reflexivity]].
  unfold add_term in J. cbn in J. destruct (is_null t0); [left; exact J|]. apply In_dset in J as [[= -> ->]|J]; [right; exists t0; split; [left; reflexivity|reflexivity]|left; exact J].
Qed.

(** * A balance flow takes no values *)
Lemma transfer_bal a b f g p h h' : h a = Some f -> h b = Some g -> f_isbal g = true -> f_parent g = Some p -> transfer_evs h a b = (h', FOk tt) -> h' = h.
Proof.
  intros HA HB IB GP E. unfold transfer_evs in E. rewrite HA, HB in E. assert (OB : forall sc, observable h g sc = FOk false) by (intros sc; unfold observable; rewrite GP, IB; reflexivity). rewrite OB in E.
  apply hbind_ok in E as (h1 & [] & E1 & E2). assert (h1 = h) by (destruct (eqb _ _); congruence). subst h1. clear E1.
  induction (dkeys (f_evs f)) as [|k ks IH]; cbn in E2; [congruence|]. unfold transfer_one at 1 in E2. rewrite HA, HB, OB in E2. destruct (_ || _); apply IH; exact E2.
Qed.

(** * A new reference fragment *)
Lemma create_root_ok fuel h i flow d v bg h' bal : create_fragment cf refq fuel h i flow d None (Some v) bal bg = (h', FOk tt) ->
  h i = None /\ exists e, h' i = Some (Fr None [] flow (comp d) bg false None e [(None, null_term flow (comp d))]) /\ (forall j, j <> i -> h' j = h j) /\
    dget K0 e = Some (Some v) /\ dget K1 e = Some (Some 0) /\ (forall k, ordinary_key k -> dget k e = None).
Proof.
  unfold create_fragment. destruct (h i) eqn:HI; [discriminate|]. intros E. split; [reflexivity|]. set (g0 := Fr None [] flow (comp d) bg false None new_evs [(None, null_term flow (comp d))]) in E.
  assert (NK : forall k, ordinary_key k -> dget k new_evs = None) by (intros k [A B]; cbn; destruct (eqb_spec k K0); [contradiction|]; destruct (eqb_spec k K1); [contradiction|]; reflexivity).
  destruct (set_cached_ok _ _ _ _ g0 (hset_same _ _ _) ltac:(vm_compute; reflexivity) E) as [[-> ->]| ->].
  - exists new_evs. split; [apply hset_same|]. split; [intros j N; apply hset_other, N|]. split; [reflexivity|]. split; [reflexivity|exact NK].
  - exists (dset K0 (Some v) new_evs). split; [rewrite hset_same; reflexivity|]. split; [intros j N; rewrite !hset_other by exact N; reflexivity|]. split; [apply dget_dset_same|]. split; [reflexivity|].
    intros k OK. rewrite dget_dset_other by apply OK. apply NK, OK.
Qed.

(** * One node and its tree *)
Record copied (f g : frag) (par : option nat) : Prop := CD {
  cd_parent : f_parent g = par; cd_flow : f_flow g = f_flow f; cd_dir : f_dir g = f_dir f; cd_bg : f_bg g = f_bg f; cd_isbal : f_isbal g = f_isbal f; cd_cons : f_cons g = f_cons f;
  cd_children : f_children g = map s (child_flows f);
  cd_values : f_isbal f = false -> reads_as f g; cd_none : f_isbal f = true -> forall k, ordinary_key k -> dget k (f_evs g) = None;
  cd_terms : forall k, dget k (f_terms g) = option_map (ren_term s) (dget k (f_terms f)) }.
(** a node before its children are added *)
Record bare (i : nat) (f g : frag) (par : option nat) : Prop := BA {
  ba_parent : f_parent g = par; ba_flow : f_flow g = f_flow f; ba_dir : f_dir g = f_dir f; ba_bg : f_bg g = f_bg f; ba_isbal : f_isbal g = f_isbal f; ba_cons : f_cons g = None;
  ba_children : f_children g = [];
  ba_values : f_isbal f = false -> reads_as f g; ba_none : f_isbal f = true -> forall k, ordinary_key k -> dget k (f_evs g) = None;
  ba_terms : forall k, dget k (f_terms g) = option_map (ren_term s) (dget k (f_terms f)); ba_own : own_terms i g }.

(** the parent of a copy, itself a new node *)
Definition host (h : heap) (p : nat) (pf : frag) : Prop := h p = Some pf /\ own_terms p pf /\ (exists t, dget None (f_terms pf) = Some t /\ is_null t = false) /\ (forall c, In c (f_children pf) -> h c <> None).
Definition joined (pf : frag) (i : nat) (f : frag) : frag := Fr (f_parent pf) (f_children pf ++ [i]) (f_flow pf) (f_dir pf) (f_bg pf) (f_isbal pf) (if f_isbal f then Some (refq (f_flow f)) else f_cons pf) (f_evs pf) (f_terms pf).

Lemma own_not_sub h p pf t : host h p pf -> forall k, In (k, t) (f_terms pf) -> is_subfrag h p t = false.
Proof. intros (HP & OW & _) k J. specialize (OW k t J). unfold is_subfrag. destruct (t_node t) as [| |j]; try reflexivity. subst j. rewrite HP, Nat.eqb_refl. reflexivity. Qed.

Lemma one_node fuel h a f par h1 h2 h3 : h a = Some f -> plain refq h a f ->
  (match par with None => f_parent f = None | Some p => f_parent f <> None /\ p <> a /\ exists pf, host h p pf end) ->
  create_fragment cf refq fuel h (s a) (f_flow f) (match par with None => comp (f_dir f) | Some _ => f_dir f end) par (Some (cached_ev f)) (f_isbal f) (f_bg f) = (h1, FOk tt) ->
  transfer_evs h1 a (s a) = (h2, FOk tt) -> heach (f_terms f) (clone_term cf refq fuel a (s a)) h2 = (h3, FOk tt) ->
  h (s a) = None /\ (exists g, h3 (s a) = Some g /\ bare (s a) f g par) /\ (forall j, j <> s a -> Some j <> par -> h3 j = h j) /\
  (forall p pf, par = Some p -> host h p pf -> h3 p = Some (joined pf (s a) f) /\ (f_isbal f = true -> f_cons pf = None)).
Proof.
  intros HA PL PA E1 E2 E3. destruct (pl_values _ _ _ _ PL) as [(v0 & V0 & VN) _].
  (* after creation *)
  assert (S1 : h (s a) = None /\ (exists g0, h1 (s a) = Some g0 /\ f_parent g0 = par /\ f_flow g0 = f_flow f /\ f_dir g0 = f_dir f /\ f_bg g0 = f_bg f /\ f_isbal g0 = f_isbal f /\ f_cons g0 = None /\ f_children g0 = [] /\ f_terms g0 = [(None, null_term (f_flow f) (f_dir f))] /\
       (f_isbal f = false -> cached_ev g0 = cached_ev f) /\ fresh_values g0 /\ (f_isbal f = false -> always_observable h1 g0)) /\ (forall j, j <> s a -> Some j <> par -> h1 j = h j) /\
     (forall p pf, par = Some p -> host h p pf -> h1 p = Some (joined pf (s a) f) /\ (f_isbal f = true -> f_cons pf = None))).
  { destruct par as [p|].
    - destruct PA as (FPN & NPA & pf & HO). assert (HO' := HO). destruct HO' as (HP & OW & (t0 & T0 & TN0) & CE). destruct (create_child_ok cf refq _ _ _ _ _ _ _ _ _ _ _ HP E1) as (HB & NBP & pf1 & t & e & B1 & P1 & FR & C1 & C2 & C3 & C4 & C5 & C6 & C7 & C8 & DT & T1 & _ & K0E & K1E & KE).
      assert (t = t0) by congruence. subst t0. destruct (T1 TN0) as [C9 C10]. clear T1.
      assert (JP : pf1 = joined pf (s a) f).
      { destruct pf1. cbn in *. unfold joined. subst. unfold set_add. destruct (mem_spec (s a) (f_children pf)) as [J|_]; [destruct (CE _ J HB)|]. reflexivity. }
      split; [exact HB|]. split.
      + eexists. split; [exact B1|]. cbn. repeat (split; [reflexivity|]). split.
        * intros IB. unfold cached_ev at 1. cbn. rewrite K0E, IB. rewrite (own_not_sub h p pf t HO None (In_dget _ _ _ DT)). cbn. destruct (eqb_spec (cached_ev f) (Q2Qc 0)) as [Z|]; [destruct (cached_nonzero f Z)|reflexivity].
        * split; [split; [exact K1E|exact KE]|]. intros IB sc o OB. unfold observable in OB. cbn in OB. rewrite IB, P1 in OB. destruct (termination pf1 sc) as [t1|] eqn:TT; [|discriminate]. injection OB as <-. apply term_in in TT as [k J]. rewrite JP in J. cbn in J.
          specialize (OW k t1 J). unfold is_subfrag. destruct (t_node t1) as [| |j1]; try reflexivity. subst j1. rewrite P1, Nat.eqb_refl. reflexivity.
      + split; [intros j N1 N2; apply FR; congruence|]. intros p' pf' [= <-] (HP' & _). rewrite HP in HP'. injection HP' as <-. split; [rewrite P1, JP; reflexivity|exact C8].
    - apply create_root_ok in E1 as (HB & e & B1 & FR & K0E & K1E & KE). split; [exact HB|]. rewrite (pl_ref _ _ _ _ PL PA). assert (CC : comp (comp (f_dir f)) = f_dir f) by (destruct (f_dir f); reflexivity). rewrite CC in B1. split.
      + eexists. split; [exact B1|]. cbn. repeat (split; [reflexivity|]). split.
        * intros _. unfold cached_ev at 1. cbn. rewrite K0E. destruct (eqb_spec (cached_ev f) (Q2Qc 0)) as [Z|]; [destruct (cached_nonzero f Z)|reflexivity].
        * split; [split; [exact K1E|exact KE]|]. intros _ sc o OB. unfold observable in OB. cbn in OB. congruence.
      + split; [intros j N _; apply FR, N|discriminate]. }
  destruct S1 as (HB & (g0 & G0 & GP & GF & GD & GB & GI & GC & GK & GT & GV & GFR & GO) & FR1 & PAR1).
  assert (NAB : a <> s a) by congruence. assert (A1 : h1 a = Some f) by (rewrite FR1; [exact HA|exact NAB|destruct par as [p|]; [destruct PA as (_ & NPA & _); congruence|discriminate]]).
  (* after the transfer *)
  assert (S2 : exists e, h2 (s a) = Some (with_evs g0 e) /\ (forall j, j <> s a -> h2 j = h1 j) /\ (f_isbal f = false -> reads_as f (with_evs g0 e)) /\ (f_isbal f = true -> forall k, ordinary_key k -> dget k e = None)).
  { destruct (f_isbal f) eqn:IB.
    - assert (GPN : exists p, f_parent g0 = Some p). { rewrite GP. destruct par as [p|]; [eauto|]. rewrite (pl_ref _ _ _ _ PL PA) in IB. discriminate. } destruct GPN as [p GPN].
      rewrite (transfer_bal a (s a) f g0 p h1 h2 A1 G0 GI GPN E2). exists (f_evs g0). split; [rewrite G0; destruct g0; reflexivity|]. split; [reflexivity|]. split; [discriminate|]. intros _. apply GFR.
    - destruct (transfer_values a (s a) f g0 h1 h2 NAB A1 G0 (pl_values _ _ _ _ PL) (pl_keys _ _ _ _ PL) (GO eq_refl) GFR (GV eq_refl)) as (e & HE & RA & _); [|exact E2|].
      + rewrite GP. destruct par as [p|]; [destruct PA as (N & _); split; [discriminate|contradiction]|split; auto].
      + exists e. split; [exact HE|]. split; [apply (transfer_ok a (s a) h1 h2 NAB E2)|]. split; [auto|discriminate]. }
  destruct S2 as (e & G2 & FR2 & RV & RN).
  destruct (clone_terms fuel a f (f_terms f) h2 (with_evs g0 e) h3 (not_eq_sym NAB) (pl_terms _ _ _ _ PL) G2 GF GD GB E3) as [G3 FR3].
  split; [exact HB|]. split.
  - eexists. split; [exact G3|]. split; cbn; try assumption.
    + intros k. rewrite fold_terms by exact (pl_nodup _ _ _ _ PL). destruct (dget k (f_terms f)) as [t|] eqn:DK; cbn.
      * destruct (is_null t) eqn:NT; [|reflexivity]. destruct (pl_terms _ _ _ _ PL k t (In_dget _ _ _ DK)) as [[-> ->]|[[pr TP]|[-> _]]]; [|unfold is_null in NT; rewrite TP in NT; discriminate|discriminate]. rewrite GT. cbn. change (eqb (@None skey) None) with true. reflexivity.
      * rewrite GT. cbn. destruct (eqb_spec k None) as [->|]; [|reflexivity]. destruct (pl_default _ _ _ _ PL DK).
    + intros k t J. cbn in J. apply fold_in in J as [J|(t0 & J & ->)]; [rewrite GT in J; destruct J as [[= <- <-]|[]]; exact I|]. destruct (pl_terms _ _ _ _ PL k t0 J) as [[-> ->]|[[pr TP]|[-> _]]]; cbn; [exact I|rewrite TP; exact I|reflexivity].
  - split.
    + intros j N1 N2. rewrite (FR3 j N1), (FR2 j N1). apply FR1; assumption.
    + intros p pf -> HO. destruct (PAR1 p pf eq_refl HO) as [P1 P2]. split; [|exact P2]. assert (p <> s a) by (destruct HO as (HP & _); congruence). rewrite (FR3 p), (FR2 p) by assumption. exact P1.
Qed.

(** the result of cloning the tree of [a] of [h0] from the heap [h] *)
Record cloned (h0 h h' : heap) (par : option nat) (a : nat) (f : frag) : Prop := CLN {
  cl_old : forall j, h0 j <> None -> h' j = h0 j;
  cl_frame : forall j, h j <> None -> Some j <> par -> h' j = h j;
  cl_par : forall p pf, par = Some p -> host h p pf -> h' p = Some (joined pf (s a) f) /\ (f_isbal f = true -> f_cons pf = None);
  cl_tree : forall j, in_tree h0 a j -> h (s j) = None /\ exists fj g, h0 j = Some fj /\ h' (s j) = Some g /\ exists pj, copied fj g pj /\ (j = a -> pj = par) /\ (j <> a -> pj <> None) }.

Lemma in_tree_inv h a f j : h a = Some f -> in_tree h a j -> j = a \/ exists c, In c (f_children f) /\ in_tree h c j.
Proof. intros HA T. inversion T as [|? f' c ? HA' J T']; subst; [left; reflexivity|right]. rewrite HA in HA'. injection HA' as <-. eauto. Qed.

Definition joins (h0 : heap) (cs : list nat) (pf : frag) : frag := fold_left (fun pf c => match h0 c with Some f => joined pf (s c) f | None => pf end) cs pf.

Lemma host_joined h h' p pf c f : host h p pf -> h' p = Some (joined pf (s c) f) -> h' (s c) <> None -> (forall j, h j <> None -> Some j <> Some p -> h' j = h j) -> host h' p (joined pf (s c) f).
Proof.
  intros (HP & OW & (t & T & NT) & CE) HP' SC FR. split; [exact HP'|]. split; [exact OW|]. split; [exists t; auto|]. intros d J. cbn in J. apply in_app_or in J as [J|[<-|[]]]; [|exact SC].
  assert (E := CE d J). destruct (Nat.eq_dec d p) as [->|N]; [congruence|]. rewrite FR; congruence.
Qed.

Lemma clone_loop h0 n fuel p cs : (forall par h a f h', h0 a = Some f -> (forall j g, in_tree h0 a j -> h0 j = Some g -> plain refq h0 j g) -> (forall j, h0 j <> None -> h j = h0 j) ->
     (match par with None => f_parent f = None | Some p => f_parent f <> None /\ h0 p = None /\ exists pf, host h p pf end) -> clone cf refq n fuel s par h a = (h', FOk tt) -> cloned h0 h h' par a f) ->
  forall h pf h', (forall c, In c cs -> exists f, h0 c = Some f /\ f_parent f <> None) -> (forall c j g, In c cs -> in_tree h0 c j -> h0 j = Some g -> plain refq h0 j g) -> (forall j, h0 j <> None -> h j = h0 j) ->
  h0 p = None -> host h p pf -> heach cs (clone cf refq n fuel s (Some p)) h = (h', FOk tt) ->
  (forall j, h0 j <> None -> h' j = h0 j) /\ (forall j, h j <> None -> j <> p -> h' j = h j) /\ h' p = Some (joins h0 cs pf) /\
  (forall c j, In c cs -> in_tree h0 c j -> h (s j) = None /\ exists fj g, h0 j = Some fj /\ h' (s j) = Some g /\ exists pj, copied fj g pj /\ pj <> None).
Proof.
  intros IHN. induction cs as [|c cs IH]; intros h pf h' EX PL OLD HP0 HO E; cbn in E.
  - injection E as <-. split; [exact OLD|]. split; [reflexivity|]. split; [apply HO|]. intros c j [].
  - apply hbind_ok in E as (h1 & [] & E1 & E2). destruct (EX c (or_introl eq_refl)) as (f & HC & FP).
    assert (C1 := IHN (Some p) h c f h1 HC (fun j g => PL c j g (or_introl eq_refl)) OLD (conj FP (conj HP0 (ex_intro _ pf HO))) E1).
    destruct (cl_par _ _ _ _ _ _ C1 p pf eq_refl HO) as [P1 _]. destruct (cl_tree _ _ _ _ _ _ C1 c (tree_self h0 c)) as (SC0 & fc & gc & HC' & SC1 & pc & _).
    assert (HO1 : host h1 p (joined pf (s c) f)) by (apply (host_joined h h1 p pf c f HO P1); [congruence|apply (cl_frame _ _ _ _ _ _ C1)]).
    destruct (IH h1 (joined pf (s c) f) h' (fun d J => EX d (or_intror J)) (fun d j g J => PL d j g (or_intror J)) (cl_old _ _ _ _ _ _ C1) HP0 HO1 E2) as (O2 & F2 & P2 & T2).
    assert (NP : h p <> None) by (destruct HO as (-> & _); discriminate).
    split; [exact O2|]. split; [intros j N1 N2; assert (H1 := cl_frame _ _ _ _ _ _ C1 j N1 ltac:(congruence)); rewrite (F2 j ltac:(congruence) N2); exact H1|]. split; [cbn [joins fold_left]; rewrite HC; exact P2|].
    intros d j [<-|J] T.
    + destruct (cl_tree _ _ _ _ _ _ C1 j T) as (N0 & fj & g & HJ & HG & pj & CD1 & PA1 & PA2). split; [exact N0|]. exists fj, g. split; [exact HJ|]. split; [rewrite F2; [exact HG|congruence|congruence]|]. exists pj. split; [exact CD1|].
      destruct (Nat.eq_dec j c) as [->|NJ]; [rewrite (PA1 eq_refl); discriminate|exact (PA2 NJ)].
    + destruct (T2 d j J T) as (N1 & fj & g & R). split; [|exists fj, g; exact R]. destruct (h (s j)) eqn:HS; [|reflexivity]. exfalso. assert (s j <> p). { intros EQ. rewrite EQ in N1. rewrite P1 in N1. discriminate. }
      rewrite (cl_frame _ _ _ _ _ _ C1 (s j)) in N1; congruence.
Qed.
Lemma joins_fields h0 cs : forall pf, f_parent (joins h0 cs pf) = f_parent pf /\ f_flow (joins h0 cs pf) = f_flow pf /\ f_dir (joins h0 cs pf) = f_dir pf /\ f_bg (joins h0 cs pf) = f_bg pf /\ f_isbal (joins h0 cs pf) = f_isbal pf /\ f_evs (joins h0 cs pf) = f_evs pf /\ f_terms (joins h0 cs pf) = f_terms pf.
Proof. induction cs as [|c cs IH]; intros pf; cbn [joins fold_left]; [auto 10|]. destruct (h0 c) as [f|]; fold (joins h0 cs); [|apply IH]. destruct (IH (joined pf (s c) f)) as (A & B & C & D & E & F & G). cbn in *. auto 10. Qed.
Lemma joins_children h0 cs : (forall c, In c cs -> h0 c <> None) -> forall pf, f_children (joins h0 cs pf) = f_children pf ++ map s cs.
Proof. induction cs as [|c cs IH]; intros EX pf; cbn [joins fold_left map]; [rewrite app_nil_r; reflexivity|]. assert (E := EX c (or_introl eq_refl)). destruct (h0 c) as [f|]; [|congruence]. change (f_children (joins h0 cs (joined pf (s c) f)) = f_children pf ++ s c :: map s cs). rewrite IH by (intros d J; apply EX; right; exact J). cbn. rewrite <- app_assoc. reflexivity. Qed.
Lemma joins_cons h0 cs : (forall c d gc gd, In c cs -> In d cs -> h0 c = Some gc -> h0 d = Some gd -> f_isbal gc = true -> f_isbal gd = true -> c = d) -> forall pf,
  (forall c g, In c cs -> h0 c = Some g -> f_isbal g = false) /\ f_cons (joins h0 cs pf) = f_cons pf \/ exists c g, In c cs /\ h0 c = Some g /\ f_isbal g = true /\ f_cons (joins h0 cs pf) = Some (refq (f_flow g)).
Proof.
  induction cs as [|c cs IH]; intros ONE pf; cbn [joins fold_left]; [left; split; [intros c g []|reflexivity]|]. assert (ONE' : forall c d gc gd, In c cs -> In d cs -> h0 c = Some gc -> h0 d = Some gd -> f_isbal gc = true -> f_isbal gd = true -> c = d) by (intros ? ? ? ? A B; apply ONE; right; assumption).
  destruct (h0 c) as [f|] eqn:HC; fold (joins h0 cs).
  - destruct (IH ONE' (joined pf (s c) f)) as [[N E]|(d & g & J & HD & IB & E)]; [|right; exists d, g; split; [right; exact J|auto]]. cbn in E. destruct (f_isbal f) eqn:IB.
    + right. exists c, f. split; [left; reflexivity|auto].
    + left. split; [|exact E]. intros d g [<-|J] HD; [congruence|exact (N d g J HD)].
  - destruct (IH ONE' pf) as [[N E]|(d & g & J & HD & IB & E)]; [|right; exists d, g; split; [right; exact J|auto]]. left. split; [|exact E]. intros d g [<-|J] HD; [congruence|exact (N d g J HD)].
Qed.
Lemma clone_spec h0 fuel n : forall par h a f h', h0 a = Some f -> (forall j g, in_tree h0 a j -> h0 j = Some g -> plain refq h0 j g) -> (forall j, h0 j <> None -> h j = h0 j) ->
  (match par with None => f_parent f = None | Some p => f_parent f <> None /\ h0 p = None /\ exists pf, host h p pf end) -> clone cf refq n fuel s par h a = (h', FOk tt) -> cloned h0 h h' par a f.
Proof.
  induction n as [|n IHN]; intros par h a f h' HA0 PLT OLD PA E; [discriminate|]. cbn [clone] in E. assert (HA : h a = Some f) by (rewrite OLD; congruence). rewrite HA in E.
  apply hbind_ok in E as (h1 & [] & E1 & E). apply hbind_ok in E as (h2 & [] & E2 & E). apply hbind_ok in E as (h3 & [] & E3 & E4).
  assert (P0 := PLT a f (tree_self h0 a) HA0).
  assert (PH : plain refq h a f). { destruct P0 as [A1 A2 A3 A4 A5 A6 A7 A8 A9 A10 A11 A12]. assert (SAME : forall c, In c (f_children f) -> h c = h0 c) by (intros c J; destruct (A8 c J) as (g & HG & _); apply OLD; congruence).
    split; try assumption.
    - intros c J. destruct (A8 c J) as (g & HG & GP). exists g. rewrite (SAME c J). auto.
    - intros q Q. destruct (A9 q Q) as (c & g & J & HG & R). exists c, g. rewrite (SAME c J). auto.
    - intros c g J HG. rewrite (SAME c J) in HG. exact (A10 c g J HG).
    - intros c d gc gd J1 J2 H1 H2. rewrite (SAME c J1) in H1. rewrite (SAME d J2) in H2. exact (A11 c d gc gd J1 J2 H1 H2). }
  assert (PA' : match par with None => f_parent f = None | Some p => f_parent f <> None /\ p <> a /\ exists pf, host h p pf end) by (destruct par as [p|]; [destruct PA as (A & B & C); split; [exact A|]; split; [congruence|exact C]|exact PA]).
  destruct (one_node fuel h a f par h1 h2 h3 HA PH PA' E1 E2 E3) as (HB & (g & HG & BG) & FR & PR).
  assert (SA0 : h0 (s a) = None). { destruct (h0 (s a)) eqn:X; [|reflexivity]. rewrite OLD in HB; congruence. }
  assert (OLD3 : forall j, h0 j <> None -> h3 j = h0 j). { intros j N. rewrite FR; [apply OLD, N|congruence|]. destruct par as [p|]; [|discriminate]. destruct PA as (_ & P1 & _). congruence. }
  assert (EXC : forall c, In c (child_flows f) -> exists fc, h0 c = Some fc /\ f_parent fc = Some a) by (intros c J; apply In_child_flows in J; exact (pl_exist _ _ _ _ P0 c J)).
  (* the children *)
  assert (LOOP : (forall j, h0 j <> None -> h' j = h0 j) /\ (forall j, h3 j <> None -> j <> s a -> h' j = h3 j) /\ h' (s a) = Some (joins h0 (child_flows f) g) /\
    (forall c j, In c (child_flows f) -> in_tree h0 c j -> h3 (s j) = None /\ exists fj g, h0 j = Some fj /\ h' (s j) = Some g /\ exists pj, copied fj g pj /\ pj <> None)).
  { destruct (child_flows f) as [|c0 cs0] eqn:CF.
    - cbn in E4. injection E4 as <-. split; [exact OLD3|]. split; [reflexivity|]. split; [exact HG|]. intros c j [].
    - rewrite <- CF in *. apply (clone_loop h0 n fuel (s a) (child_flows f) IHN h3 g h').
      + intros c J. destruct (EXC c J) as (fc & HC & FC). exists fc. split; [exact HC|congruence].
      + intros c j gj J T HJ. apply (PLT j gj); [|exact HJ]. eapply tree_child; [exact HA0|apply In_child_flows, J|exact T].
      + exact OLD3.
      + exact SA0.
      + split; [exact HG|]. split; [exact (ba_own _ _ _ _ BG)|]. split.
        * assert (KN : f_children f <> []). { intros Z. assert (J : In c0 (child_flows f)) by (rewrite CF; left; reflexivity). apply In_child_flows in J. rewrite Z in J. contradiction. }
          destruct (dget None (f_terms f)) as [t|] eqn:DT; [|destruct (pl_default _ _ _ _ P0 DT)]. exists (ren_term s t). split; [rewrite (ba_terms _ _ _ _ BG), DT; reflexivity|]. assert (NN := pl_kids _ _ _ _ P0 KN t DT). rewrite is_null_ren. unfold is_null. destruct (t_node t); congruence.
        * rewrite (ba_children _ _ _ _ BG). intros c [].
      + exact E4. }
  destruct LOOP as (L1 & L2 & L3 & L4).
  assert (COP : copied f (joins h0 (child_flows f) g) par).
  { destruct (joins_fields h0 (child_flows f) g) as (J1 & J2 & J3 & J4 & J5 & J6 & J7). split.
    - rewrite J1. apply BG.
    - rewrite J2. apply BG.
    - rewrite J3. apply BG.
    - rewrite J4. apply BG.
    - rewrite J5. apply BG.
    - destruct (joins_cons h0 (child_flows f)) with (pf := g) as [[N ->]|(c & gc & J & HC & IB & ->)].
      + intros c d gc gd C1 C2. apply In_child_flows in C1. apply In_child_flows in C2. exact (pl_one _ _ _ _ P0 c d gc gd C1 C2).
      + rewrite (ba_cons _ _ _ _ BG). destruct (f_cons f) as [q|] eqn:FC; [|reflexivity]. exfalso. destruct (pl_cons _ _ _ _ P0 q FC) as (c & gc & J & HC & IB & _). rewrite (N c gc) in IB; [discriminate| |exact HC]. apply In_child_flows, J.
      + symmetry. apply In_child_flows in J. exact (pl_bal _ _ _ _ P0 c gc J HC IB).
    - rewrite joins_children by (intros c J; destruct (EXC c J) as (fc & HC & _); congruence). rewrite (ba_children _ _ _ _ BG). reflexivity.
    - intros IB. assert (R := ba_values _ _ _ _ BG IB). intros sc obs OR. rewrite <- (R sc obs OR). unfold exchange_value, match_ev, ev_for, cached_ev, observed_ev. rewrite J6, J1. reflexivity.
    - intros IB k OK. rewrite J6. exact (ba_none _ _ _ _ BG IB k OK).
    - intros k. rewrite J7. apply BG. }
  split.
  - exact L1.
  - intros j N1 N2. rewrite L2; [apply FR; congruence| |congruence]. rewrite FR; congruence.
  - intros p pf EP HO. destruct (PR p pf EP HO) as [P1 P2]. split; [|exact P2]. assert (p <> s a) by (destruct HO as (HP & _); congruence). rewrite L2; congruence.
  - intros j T. destruct (in_tree_inv h0 a f j HA0 T) as [->|(c & J & TC)].
    + split; [exact HB|]. exists f, (joins h0 (child_flows f) g). split; [exact HA0|]. split; [exact L3|]. exists par. split; [exact COP|]. split; [reflexivity|congruence].
    + assert (J' : In c (child_flows f)) by (apply In_child_flows; exact J). destruct (L4 c j J' TC) as (N3 & fj & gj & HJ & HGJ & pj & CDJ & PJ). split.
      * destruct (h (s j)) eqn:X; [|reflexivity]. exfalso. destruct (Nat.eq_dec (s j) (s a)) as [EQ|NE]; [congruence|]. destruct par as [p|].
        -- destruct (Nat.eq_dec (s j) p) as [EQ|NP]; [subst p|rewrite FR in N3; congruence]. destruct PA as (_ & _ & pf & HO). destruct (PR (s j) pf eq_refl HO) as [Z _]. congruence.
        -- rewrite FR in N3; congruence.
      * exists fj, gj. split; [exact HJ|]. split; [exact HGJ|]. exists pj. split; [exact CDJ|]. split; [intros ->|auto].
        exfalso. rewrite HA0 in HJ. injection HJ as <-. rewrite N3 in HG. discriminate.
Qed.
End Clone.
